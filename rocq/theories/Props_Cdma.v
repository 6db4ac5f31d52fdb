(** Properties C33-C38: CDMA (src/cdma.rs) and Hadamard matrices (src/hadamard.rs). *)
From Coq Require Import List Arith ZArith Reals Bool Lia Lra Psatz.
From Flocq Require Import Core BinarySingleNaN.
From Verif Require Import Base IterTheory IterModel IterProofs Spec SpecR Tab Num F64Lib LibModel LibFloat LibReal
  ChaosModel ChaosProofs ChaosMod PskModel PskChain PskFloat RSums PskReal Props_Psk CdmaModel CdmaProofs Hadamard.
Import ListNotations.

(** ** C33 *)

Lemma trues_tab_negb n (f g : nat -> bool) : (forall j, j < n -> f j = negb (g j)) ->
  trues (tab n f) + trues (tab n g) = n.
Proof.
  revert f g. induction n as [|n IH]; intros f g H; [reflexivity|]. rewrite !tab_S. unfold trues in *. cbn [filter].
  specialize (IH (fun i => f (S i)) (fun i => g (S i)) ltac:(intros; apply H; lia)).
  rewrite (H 0) by lia. destruct (g 0); cbn [negb length]; lia.
Qed.

(** Chips flipped on the way: bit k arrives iff not too many of its chips flipped.  A true bit
    loses the tie, a false bit wins it. *)
Theorem C33_cdma_chip_errors_exact :
  forall (message : Iter bool) m (key flips : list bool),
    let n := length key in
    yields message m -> key <> [] -> length flips = length m * n ->
    exists out,
      yields (rx_baseband_cdma (imap (fun '(chip, flip) => xorb chip flip)
                (izip (tx_baseband_cdma message key) (of_list flips))) key) out /\
      length out = length m /\
      forall k b, nth_error m k = Some b ->
        let errors := length (filter (fun f : bool => f) (firstn n (skipn (k * n) flips))) in
        (nth_error out k = Some b <-> if b then 2 * errors < n else 2 * errors <= n).
Proof.
  intros message m key flips n Hm Hk HL.
  assert (Hn : 1 <= n) by (unfold n; destruct key; [contradiction|cbn; lia]).
  pose proof (tx_baseband_cdma_yields message m key Hk Hm) as Y. fold n in Y.
  pose proof (of_list_yields flips) as YF. rewrite <- (tab_nth_id flips false), HL in YF.
  pose proof (izip_yields _ _ _ _ Y YF) as Z. rewrite tab_combine in Z.
  pose proof (imap_yields (fun '(chip, flip) => xorb chip flip) _ _ Z) as W. rewrite tab_map in W.
  pose proof (rx_baseband_cdma_yields _ _ _ key Hk W) as V. fold n in V.
  replace (tab (length m * n) (fun i => nth i flips false)) with flips in V by (rewrite <- HL; symmetry; apply tab_nth_id).
  eexists. split; [exact V|]. split; [apply tab_length|].
  intros k b Hb errors. assert (Lk : k < length m) by (apply nth_error_Some; congruence).
  rewrite tab_nth_error. apply Nat.ltb_lt in Lk. rewrite Lk. apply Nat.ltb_lt in Lk.
  assert (E : errors = trues (tab n (fun j => nth (k * n + j) flips false))).
  { unfold errors, trues. f_equal. f_equal. rewrite <- (tab_nth_id flips false) at 1. rewrite HL. exact (block_tab n k (length m) (fun i => nth i flips false) Lk). }
  assert (C : forall j, j < n ->
    xorb (xorb (xorb (nth ((k * n + j) / n) m false) (nth ((k * n + j) mod n) key false)) (nth (k * n + j) flips false))
         (nth j key false) = xorb b (nth (k * n + j) flips false)).
  { intros j Hj. rewrite block_div, block_mod by exact Hj. rewrite (nth_error_nth _ _ false Hb).
    destruct b, (nth j key false), (nth (k * n + j) flips false); reflexivity. }
  rewrite (tab_ext n _ (fun j => xorb b (nth (k * n + j) flips false)) C). clear C.
  destruct b.
  - pose proof (trues_tab_negb n (fun j => xorb true (nth (k * n + j) flips false)) (fun j => nth (k * n + j) flips false)
       ltac:(intros j _; apply xorb_true_l)) as T.
    rewrite <- E in T. clear E. set (t := trues _) in *.
    destruct (Nat.ltb_spec n (2 * t)); split; intros; try reflexivity; try discriminate; lia.
  - rewrite (tab_ext n (fun j => xorb false (nth (k * n + j) flips false)) (fun j => nth (k * n + j) flips false))
      by (intros; apply xorb_false_l).
    rewrite <- E. destruct (Nat.ltb_spec n (2 * errors)); split; intros; try reflexivity; try discriminate; lia.
Qed.

Theorem C33_cdma_chip_errors :
  forall (message : Iter bool) m (key flips : list bool),
    let n := length key in
    yields message m -> key <> [] -> length flips = length m * n ->
    (forall k, k < length m -> 2 * length (filter (fun f : bool => f) (firstn n (skipn (k * n) flips))) < n) ->
    yields (rx_baseband_cdma (imap (fun '(chip, flip) => xorb chip flip)
              (izip (tx_baseband_cdma message key) (of_list flips))) key) m.
Proof.
  intros message m key flips n Hm Hk HL He.
  destruct (C33_cdma_chip_errors_exact message m key flips Hm Hk HL) as (out & Y & L & P).
  replace m with out; [exact Y|]. apply nth_error_inj. intros k. destruct (nth_error m k) as [b|] eqn:Eb.
  - apply (P k b Eb). assert (Lk : k < length m) by (apply nth_error_Some; congruence).
    specialize (He k Lk). fold n. destruct b; lia.
  - apply nth_error_None. apply nth_error_None in Eb. lia.
Qed.

Theorem C33_cdma_round_trip :
  forall (message : Iter bool) m (key : list bool),
    yields message m -> key <> [] ->
    yields (rx_baseband_cdma (tx_baseband_cdma message key) key) m.
Proof.
  intros message m key Hm Hk. set (n := length key).
  assert (Hn : 1 <= n) by (unfold n; destruct key; [contradiction|cbn; lia]).
  pose proof (rx_baseband_cdma_yields _ _ _ key Hk (tx_baseband_cdma_yields message m key Hk Hm)) as V. fold n in V.
  refine (eq_ind _ (fun x => yields _ x) V _ _). rewrite <- (tab_nth_id m false) at 2. apply tab_ext. intros k Hk2.
  rewrite (tab_ext n _ (fun _ => nth k m false)).
  2:{ intros j Hj. rewrite block_div, block_mod by exact Hj. destruct (nth k m false), (nth j key false); reflexivity. }
  pose proof (trues_tab_negb n (fun _ => nth k m false) (fun _ => negb (nth k m false))
    ltac:(intros; symmetry; apply negb_involutive)) as T.
  assert (T0 : trues (tab n (fun _ => false)) = 0).
  { clear. induction n as [|n IH]; [reflexivity|]. rewrite tab_S. exact IH. }
  destruct (nth k m false); cbn [negb] in T; rewrite ?T0 in *.
  - apply Nat.ltb_lt. lia.
  - apply Nat.ltb_ge. lia.
Qed.

(** With an empty key nothing is sent, and nothing is received whatever arrives. *)
Theorem C33_cdma_empty_key :
  forall (message bits : Iter bool) m, yields message m ->
    yields (tx_baseband_cdma message []) [] /\ yields (rx_baseband_cdma bits []) [].
Proof.
  intros message bits m Hm. split; [|exact (imap_yields _ _ [] (chunks0 _))].
  apply (imap_yields (fun '(bit, k) => xorb bit k) _ []). change (length (@nil bool)) with 0.
  destruct m as [|b m].
  - pose proof (izip_yields _ _ _ _ (inflate0_empty _ Hm) (@icycle_nil bool)) as Y. exact Y.
  - exact (izip_streams_nil _ _ _ (inflate0_streams _ _ _ Hm) icycle_nil).
Qed.

(** Two of five chips flipped: still right; with four chips two flips turn a true bit only. *)
Example C33_case :
  collect 5 (rx_baseband_cdma (imap (fun '(chip, flip) => xorb chip flip)
    (izip (tx_baseband_cdma (of_list [true; false]) [true; false; true; true; false])
          (of_list [true; false; true; false; false; false; true; true; false; false]))) [true; false; true; true; false])
  = Ret [true; false].
Proof. vm_compute. reflexivity. Qed.
Example C33_tie :
  collect 5 (rx_baseband_cdma (imap (fun '(chip, flip) => xorb chip flip)
    (izip (tx_baseband_cdma (of_list [true; false]) [true; false; true; true])
          (of_list [true; false; true; false; false; false; true; true]))) [true; false; true; true])
  = Ret [false; false].
Proof. vm_compute. reflexivity. Qed.

(** ** C34, C35 *)

(** Multiplying by the chips twice gives the signal back. *)
Lemma despread_yields {T} `{Num T} (Hsd : forall (x : T) b, nmul (nmul x (bit_to_nrz b)) (bit_to_nrz b) = x)
  n key (it : Iter T) N g : 1 <= n -> key <> [] -> yields it (tab N g) ->
  yields (chip_mul n key (chip_mul n key it)) (tab N g).
Proof.
  intros Hn Hk Y. pose proof (chip_mul_yields n key _ _ _ Hn Hk (chip_mul_yields n key it N g Hn Hk Y)) as Z.
  refine (eq_ind _ (fun x => yields _ x) Z _ _). apply tab_ext. intros i _. apply Hsd.
Qed.
Lemma spread_R (x : R) b : nmul (nmul x (bit_to_nrz b)) (bit_to_nrz b) = x.
Proof. rewrite nrz_R. cbn [nmul NumR]. destruct b; ring. Qed.
Lemma spread_F64 (libm : Libm) (x : F64) b : let num := NumF libm in nmul (nmul x (bit_to_nrz b)) (bit_to_nrz b) = x.
Proof. intros num. apply spread_despread. Qed.

(** The transmitter and receiver of CDMA/BPSK reduced to those of BPSK. *)
Lemma cdma_bpsk_link {T} `{Num T} (Hsd : forall (x : T) b, nmul (nmul x (bit_to_nrz b)) (bit_to_nrz b) = x)
  (message : Iter bool) m sr sy (fc : T) key tx :
  yields message m -> tx_cdma_bpsk_signal message sr sy fc key = Ret tx ->
  exists tx0 rx0 rx w, tx_bpsk_signal message sr sy fc = Ret tx0 /\ sy <= sr /\
    rx_bpsk_signal tx0 sr sy fc = Ret rx0 /\ rx_cdma_bpsk_signal tx sr sy fc key = Ret rx /\
    yields tx w /\ length w = length m * (sr / sy) /\ (forall out, yields rx0 out -> yields rx out).
Proof.
  intros Hm E. unfold tx_cdma_bpsk_signal in E. destruct (cdma_rates sr sy fc key) as [p| |] eqn:Ep; try discriminate.
  destruct (cdma_rates_inv _ _ _ _ _ Ep) as (-> & Hy & Hk & Hr & Hc & _). cbn [bind] in E.
  destruct (tx_bpsk_signal message sr sy fc) as [tx0| |] eqn:Et; try discriminate. cbn [bind] in E. injection E as <-.
  assert (Hle : sy <= sr) by (destruct key; [contradiction|cbn in Hr; nia]).
  assert (Hn : 1 <= sr / sy) by (apply Nat.div_le_lower_bound; lia).
  destruct (tx_bpsk_inv _ _ _ _ _ Et) as (_ & _ & _ & Y). specialize (Y Hn m Hm).
  destruct (rx_bpsk_intro tx0 sr sy fc ltac:(lia) Hn) as (rx0 & Er0 & Yr0 & _).
  destruct (rx_bpsk_intro (chip_mul (sr / sy / length key) key (chip_mul (sr / sy / length key) key tx0)) sr sy fc ltac:(lia) Hn) as (rx & Er & Yr & _).
  pose proof (chip_mul_yields (sr / sy / length key) key tx0 _ _ ltac:(lia) Hk Y) as Yc.
  exists tx0, rx0, rx. eexists. split; [reflexivity|]. split; [exact Hle|]. split; [exact Er0|]. split.
  - unfold rx_cdma_bpsk_signal. rewrite Ep. cbn [bind]. exact Er.
  - split; [exact Yc|]. split; [apply tab_length|]. intros out Yo.
    rewrite (yields_det _ _ _ Yo (Yr0 _ _ Y)). apply Yr. apply despread_yields; [exact Hsd|lia|exact Hk|exact Y].
Qed.

Theorem C34_spread_despread :
  forall (libm : Libm) (signal : Iter F64) l (samples_per_chip : nat) (key : list bool),
    let num := NumF libm in
    yields signal l -> 1 <= samples_per_chip -> key <> [] ->
    yields (chip_mul samples_per_chip key (chip_mul samples_per_chip key signal)) l.
Proof.
  intros libm signal l spc key num Hl Hs Hk. rewrite <- (tab_nth_id l (f64_ofZ 0)) in *.
  apply despread_yields; [apply spread_F64|exact Hs|exact Hk|exact Hl].
Qed.

Theorem C34_cdma_bpsk_round_trip :
  forall (libm : Libm) (message : Iter bool) m (sample_rate symbol_rate : nat) (fc : F64) (key : list bool) tx,
    let num := NumF libm in
    let carrier i := libm_cos libm (nofZ 2 * npi * fc * (nofnat i / nofnat sample_rate))%num in
    let sps := sample_rate / symbol_rate in
    yields message m -> tx_cdma_bpsk_signal message sample_rate symbol_rate fc key = Ret tx ->
    (forall i, i < length m * sps -> is_nan (carrier i) = false) ->
    (forall k, k < length m -> exists j, j < sps /\
       Bltb (f64_ofZ 0) (Bmult mode_NE (carrier (k * sps + j)) (carrier (k * sps + j))) = true) ->
    exists rx w, rx_cdma_bpsk_signal tx sample_rate symbol_rate fc key = Ret rx /\
      yields tx w /\ length w = length m * sps /\ yields rx m.
Proof.
  intros libm message m sr sy fc key tx num carrier sps Hm Htx Hnan Hsq.
  destruct (@cdma_bpsk_link F64 num (spread_F64 libm) message m sr sy fc key tx Hm Htx)
    as (tx0 & rx0 & rx & w & Et & Hle & Er0 & Er & Yw & Lw & Yr).
  destruct (C29_bpsk_round_trip_f64 libm message m sr sy fc tx0 Hm Et Hle Hnan Hsq) as (rx1 & w1 & Er1 & _ & _ & Yr1).
  exists rx, w. split; [exact Er|]. split; [exact Yw|]. split; [exact Lw|]. apply Yr.
  replace rx0 with rx1; [exact Yr1|].
  assert (Q : Ret rx1 = Ret rx0) by (rewrite <- Er1; exact Er0). injection Q as Q. exact Q.
Qed.

(** Exact arithmetic: no condition on the carrier at all. *)
Theorem C34_cdma_bpsk_exact :
  forall (message : Iter bool) m (sample_rate symbol_rate : nat) (fc : R) (key : list bool) tx,
    yields message m -> tx_cdma_bpsk_signal message sample_rate symbol_rate fc key = Ret tx ->
    exists rx, rx_cdma_bpsk_signal tx sample_rate symbol_rate fc key = Ret rx /\ yields rx m.
Proof.
  intros message m sr sy fc key tx Hm Htx.
  assert (H2 : 2 * sy <= sr).
  { unfold tx_cdma_bpsk_signal in Htx. destruct (cdma_rates sr sy fc key) as [p| |] eqn:Ep; try discriminate.
    destruct (cdma_rates_inv _ _ _ _ _ Ep) as (_ & _ & Hk & Hr & _). destruct key; [contradiction|cbn in Hr; nia]. }
  destruct (cdma_bpsk_link spread_R message m sr sy fc key tx Hm Htx)
    as (tx0 & rx0 & rx & w & Et & Hle & Er0 & Er & _ & _ & Yr).
  destruct (C29_bpsk_exact_two_samples message m sr sy fc tx0 Hm Et H2) as (rx1 & Er1 & Yr1).
  exists rx. split; [exact Er|]. apply Yr. rewrite Er0 in Er1. injection Er1 as <-. exact Yr1.
Qed.

(** The checks. *)
Lemma ofZ_mul (a b : Z) : (Z.abs a <= 2 ^ 53)%Z -> (Z.abs b <= 2 ^ 53)%Z -> (Z.abs (a * b) <= 2 ^ 53)%Z ->
  fin (Bmult mode_NE (f64_ofZ a) (f64_ofZ b)) = true /\ val (Bmult mode_NE (f64_ofZ a) (f64_ofZ b)) = IZR (a * b).
Proof.
  intros Ha Hb Hab. destruct (ofZ_exact a Ha) as (Va & Fa & _). destruct (ofZ_exact b Hb) as (Vb & Fb & _).
  assert (E : rd (val (f64_ofZ a) * val (f64_ofZ b)) = IZR (a * b)).
  { rewrite Va, Vb, <- mult_IZR. apply rd_id. apply fmt_IZR. exact Hab. }
  destruct (mul_fin _ _ Fa Fb) as [M1 M2].
  - rewrite E. eapply Rlt_le_trans; [|exact bpow1024_big]. rewrite <- abs_IZR. apply IZR_lt. lia.
  - rewrite E in *. auto.
Qed.
Lemma val_inj (x y : F64) : fin x = true -> fin y = true -> val x = val y -> val x <> 0%R -> x = y.
Proof.
  intros Fx Fy V N. apply B2R_inj; [| |exact V].
  - destruct x; try discriminate; [destruct N; reflexivity|reflexivity].
  - rewrite V in N. destruct y; try discriminate; [destruct N; reflexivity|reflexivity].
Qed.

Theorem C34_cdma_checks :
  forall (libm : Libm) (message : Iter bool) (signal : Iter F64) (sample_rate symbol_rate : nat) (fc : F64) (key : list bool),
    let num := NumF libm in
    (Z.of_nat sample_rate < 2 ^ 53)%Z ->
    let ok := symbol_rate <> 0 /\ key <> [] /\ 2 * (length key * symbol_rate) <= sample_rate /\
              Nat.divide (length key * symbol_rate) sample_rate /\
              (is_nan fc = true \/ Bltb fc (f64_ofZ (Z.of_nat (sample_rate / 2) + 1)) = true) in
    (ok -> exists tx rx, tx_cdma_bpsk_signal message sample_rate symbol_rate fc key = Ret tx /\
                         rx_cdma_bpsk_signal signal sample_rate symbol_rate fc key = Ret rx) /\
    (~ ok -> tx_cdma_bpsk_signal message sample_rate symbol_rate fc key = Panic /\
             rx_cdma_bpsk_signal signal sample_rate symbol_rate fc key = Panic).
Proof.
  intros libm message signal sr sy fc key num Hsr ok.
  assert (Hh : (Z.of_nat (sr / 2) + 1 < 2 ^ 53)%Z).
  { destruct (Nat.eq_dec sr 0) as [->|]; [reflexivity|].
    assert (sr / 2 < sr)%nat by (apply Nat.div_lt; lia). lia. }
  assert (Hny : nyquist_ok sr fc = true <-> (is_nan fc = true \/ Bltb fc (f64_ofZ (Z.of_nat (sr / 2) + 1)) = true)).
  { unfold nyquist_ok. change (@nto_u64 F64 num) with f64_to_u64. rewrite Z.leb_le. apply u64_le_iff. exact Hh. }
  assert (Hint : forall b : nat, b <> 0 -> (Z.of_nat b < 2 ^ 53)%Z ->
            is_int (ndiv (nofnat sr) (nofnat b)) = true <-> Nat.divide b sr).
  { intros b Hb Hb2. unfold nofnat. change (@ndiv F64 num) with (@Bdiv 53 1024 prec53 emax1024 mode_NE).
    change (@nofZ F64 num) with f64_ofZ. unfold num. rewrite is_int_div_pos by lia. split.
    - intros [q Hq]. exists (Z.to_nat q). assert (0 <= q)%Z by nia. apply Nat2Z.inj. rewrite Nat2Z.inj_mul, Z2Nat.id by assumption. lia.
    - intros [q ->]. exists (Z.of_nat q). lia. }
  assert (Hprod : sy <> 0 -> key <> [] -> 2 * (length key * sy) <= sr ->
     nmul (nofnat sy) (nofnat (length key)) = nofnat (length key * sy)).
  { intros Hy Hk Hr. unfold nofnat. change (@nmul F64 num) with (@Bmult 53 1024 prec53 emax1024 mode_NE).
    change (@nofZ F64 num) with f64_ofZ. assert (Hl : 1 <= length key) by (destruct key; [contradiction|cbn; lia]).
    destruct (ofZ_mul (Z.of_nat sy) (Z.of_nat (length key))) as [F1 V1]; [nia|nia|nia|].
    destruct (ofZ_exact (Z.of_nat (length key * sy))) as (V2 & F2 & _); [lia|].
    apply val_inj; [exact F1|exact F2| |].
    - rewrite V1, V2. f_equal. lia.
    - rewrite V1. apply not_0_IZR. nia. }
  assert (Hchecks : (ok -> exists p, cdma_rates sr sy fc key = Ret p) /\ (~ ok -> cdma_rates sr sy fc key = Panic)).
  { unfold cdma_rates, assert_then, usize_mul. split.
    - intros (Hy & Hk & Hr & Hd & Hf).
      assert (Hl : 1 <= length key) by (destruct key; [contradiction|cbn; lia]).
      assert (Hd2 : Nat.divide sy sr) by (eapply Nat.divide_trans; [apply Nat.divide_factor_r|exact Hd]).
      destruct (Z.ltb_spec (Z.of_nat (length key) * Z.of_nat sy) two64) as [_|B]; [|unfold two64 in B; nia]. cbn [bind].
      destruct (Nat.leb_spec (length key * sy) (sr / 2)) as [_|B].
      2:{ assert (length key * sy <= sr / 2) by (apply Nat.div_le_lower_bound; lia). lia. }
      apply Hny in Hf. rewrite Hf, (Hprod Hy Hk Hr).
      rewrite (proj2 (Hint sy Hy ltac:(nia)) Hd2), (proj2 (Hint (length key * sy) ltac:(nia) ltac:(nia)) Hd).
      rewrite usize_div_intro by exact Hy. cbn [bind]. rewrite usize_div_intro by lia. eexists. reflexivity.
    - intros N. destruct (_ <? _)%Z; [|reflexivity]. cbn [bind].
      destruct (Nat.leb_spec (length key * sy) (sr / 2)) as [L|]; [|reflexivity].
      destruct (nyquist_ok sr fc) eqn:E1; [|reflexivity].
      destruct (Nat.eq_dec sy 0) as [->|Hy]; [destruct (is_int _); [destruct (is_int _)|]; reflexivity|].
      destruct (list_eq_dec Bool.bool_dec key []) as [->|Hk].
      { destruct (is_int _); [|reflexivity]. destruct (is_int _); [|reflexivity]. rewrite usize_div_intro by exact Hy. reflexivity. }
      assert (Hl : 1 <= length key) by (destruct key; [contradiction|cbn; lia]).
      assert (Hr : 2 * (length key * sy) <= sr).
      { pose proof (Nat.mul_div_le sr 2 ltac:(lia)). lia. }
      rewrite (Hprod Hy Hk Hr).
      destruct (is_int (ndiv (nofnat sr) (nofnat sy))) eqn:E2; [|reflexivity].
      destruct (is_int (ndiv (nofnat sr) (nofnat (length key * sy)))) eqn:E3; [|reflexivity].
      destruct N. split; [exact Hy|]. split; [exact Hk|]. split; [exact Hr|]. split; [|apply Hny; reflexivity].
      apply (Hint (length key * sy) ltac:(nia) ltac:(nia)). exact E3. }
  destruct Hchecks as [H1 H2]. split.
  - intros Hok. destruct (H1 Hok) as [p Ep]. destruct Hok as (Hy & Hk & Hr & Hd & Hf).
    destruct (cdma_rates_inv _ _ _ _ _ Ep) as (-> & _ & _ & _ & _ & Hn & Hi).
    unfold tx_cdma_bpsk_signal, rx_cdma_bpsk_signal. rewrite Ep. cbn [bind].
    unfold tx_bpsk_signal, rx_bpsk_signal, assert_then. rewrite usize_div_intro by exact Hy. cbn [bind]. rewrite Hn, Hi. cbn [bind].
    eexists. eexists. split; reflexivity.
  - intros N. unfold tx_cdma_bpsk_signal, rx_cdma_bpsk_signal. rewrite (H2 N). split; reflexivity.
Qed.

Example C34_case : let num := NumF libm_square in
  exists tx rx, tx_cdma_bpsk_signal (of_list [true; false; true]) 12 2 (f64_ofZ 2) [true; false; true] = Ret tx /\
    rx_cdma_bpsk_signal tx 12 2 (f64_ofZ 2) [true; false; true] = Ret rx /\ yields rx [true; false; true].
Proof.
  intros num.
  destruct (proj1 (C34_cdma_checks libm_square (of_list [true; false; true]) (of_list []) 12 2 (f64_ofZ 2) [true; false; true] eq_refl)) as (tx & _ & Etx & _).
  { split; [lia|]. split; [discriminate|]. split; [cbn; lia|]. split; [exists 2; reflexivity|]. right. vm_compute. reflexivity. }
  assert (C : forall x, libm_cos libm_square x = f64_ofZ 1 \/ libm_cos libm_square x = Bopp (f64_ofZ 1)).
  { intros x. change (libm_cos libm_square x) with (if Bltb x (f64_ofZ 2) then f64_ofZ 1 else Bopp (f64_ofZ 1)).
    destruct (Bltb x (f64_ofZ 2)); [left|right]; reflexivity. }
  destruct (C34_cdma_bpsk_round_trip libm_square _ _ 12 2 (f64_ofZ 2) _ tx (of_list_yields [true; false; true]) Etx) as (rx & w & Er & _ & _ & Yr).
  - intros i _. match goal with |- context [libm_cos libm_square ?x] => destruct (C x) as [->| ->] end; reflexivity.
  - intros k _. exists 0%nat. split; [cbn; lia|].
    match goal with |- context [libm_cos libm_square ?x] => destruct (C x) as [->| ->] end; vm_compute; reflexivity.
  - exists tx, rx. auto.
Qed.

(** *** QPSK *)
Local Open Scope R_scope.

Lemma cdma_qpsk_link (message : Iter bool) m sr sy (fc : R) key tx :
  yields message m -> tx_cdma_qpsk_signal message sr sy fc key = Ret tx ->
  exists tx0 rx0 rx w, tx_qpsk_signal message sr sy fc = Ret tx0 /\ (1 <= sy <= sr)%nat /\
    rx_qpsk_signal tx0 sr sy fc = Ret rx0 /\ rx_cdma_qpsk_signal tx sr sy fc key = Ret rx /\
    yields tx w /\ length w = (length m / 2 * (sr / sy))%nat /\ (forall out, yields rx0 out -> yields rx out).
Proof.
  intros Hm E. unfold tx_cdma_qpsk_signal in E. destruct (cdma_rates sr sy fc key) as [p| |] eqn:Ep; try discriminate.
  destruct (cdma_rates_inv _ _ _ _ _ Ep) as (-> & Hy & Hk & Hr & Hc & _). cbn [bind] in E.
  assert (Hle : (sy <= sr)%nat) by (destruct key; [contradiction|cbn in Hr; nia]).
  assert (Hn : (1 <= sr / sy)%nat) by (apply Nat.div_le_lower_bound; lia).
  destruct (tx_qpsk_inv message sr sy fc ltac:(lia) Hn) as (tx0 & Et & Y). specialize (Y m Hm).
  rewrite Et in E. cbn [bind] in E. injection E as <-.
  destruct (rx_qpsk_intro tx0 sr sy fc ltac:(lia) Hn) as (rx0 & Er0 & Yr0).
  destruct (rx_qpsk_intro (chip_mul (sr / sy / length key) key (chip_mul (sr / sy / length key) key tx0)) sr sy fc ltac:(lia) Hn) as (rx & Er & Yr).
  pose proof (chip_mul_yields (sr / sy / length key) key tx0 _ _ ltac:(lia) Hk Y) as Yc.
  exists tx0, rx0, rx. eexists. split; [exact Et|]. split; [lia|]. split; [exact Er0|]. split.
  - unfold rx_cdma_qpsk_signal. rewrite Ep. cbn [bind]. exact Er.
  - split; [exact Yc|]. split; [rewrite tab_length, (pairs_length (length m) m eq_refl); reflexivity|]. intros out Yo.
    rewrite (yields_det _ _ _ Yo (Yr0 _ _ Y)). apply Yr. apply despread_yields; [exact spread_R|lia|exact Hk|exact Y].
Qed.

Theorem C35_cdma_qpsk_general :
  forall (message : Iter bool) m (sample_rate symbol_rate : nat) (fc : R) (key : list bool) tx,
    let sps := (sample_rate / symbol_rate)%nat in
    let ph i := 2 * PI * fc * (INR i / INR sample_rate) in
    yields message m -> tx_cdma_qpsk_signal message sample_rate symbol_rate fc key = Ret tx ->
    (forall k, (k < length m / 2)%nat ->
       let leak := Rsum_n sps (fun j => sin (ph (k * sps + j)%nat) * cos (ph (k * sps + j)%nat)) in
       Rabs leak < Rsum_n sps (fun j => cos (ph (k * sps + j)%nat) * cos (ph (k * sps + j)%nat)) /\
       Rabs leak < Rsum_n sps (fun j => sin (ph (k * sps + j)%nat) * sin (ph (k * sps + j)%nat))) ->
    exists rx w, rx_cdma_qpsk_signal tx sample_rate symbol_rate fc key = Ret rx /\
      yields tx w /\ length w = (length m / 2 * sps)%nat /\ yields rx (firstn (2 * (length m / 2)) m).
Proof.
  intros message m sr sy fc key tx sps ph Hm Htx Hc.
  destruct (cdma_qpsk_link message m sr sy fc key tx Hm Htx) as (tx0 & rx0 & rx & w & Et & Hle & Er0 & Er & Yw & Lw & Yr).
  destruct (C32_qpsk_round_trip_general message m sr sy fc Hm Hle Hc) as (tx1 & rx1 & Et1 & Er1 & Yr1).
  rewrite Et in Et1. injection Et1 as <-. rewrite Er0 in Er1. injection Er1 as <-.
  exists rx, w. split; [exact Er|]. split; [exact Yw|]. split; [exact Lw|]. apply Yr. exact Yr1.
Qed.

Theorem C35_cdma_qpsk_round_trip :
  forall (message : Iter bool) m (sample_rate symbol_rate : nat) (fc : R) (half_cycles : Z) (key : list bool) tx,
    let sps := (sample_rate / symbol_rate)%nat in
    yields message m -> tx_cdma_qpsk_signal message sample_rate symbol_rate fc key = Ret tx ->
    2 * fc * INR sps = IZR half_cycles * INR sample_rate ->
    ~ (exists z : Z, 2 * fc = IZR z * INR sample_rate) ->
    exists rx, rx_cdma_qpsk_signal tx sample_rate symbol_rate fc key = Ret rx /\
      yields rx (firstn (2 * (length m / 2)) m).
Proof.
  intros message m sr sy fc h key tx sps Hm Htx Hh Hz.
  destruct (cdma_qpsk_link message m sr sy fc key tx Hm Htx) as (tx0 & rx0 & rx & w & Et & Hle & Er0 & Er & Yw & Lw & Yr).
  destruct (C32_qpsk_round_trip message m sr sy fc h Hm Hle Hh Hz) as (tx1 & rx1 & Et1 & Er1 & Yr1).
  rewrite Et in Et1. injection Et1 as <-. rewrite Er0 in Er1. injection Er1 as <-.
  exists rx. split; [exact Er|]. apply Yr. exact Yr1.
Qed.

Lemma is_int_R (x : R) : is_int x = true <-> exists z : Z, (0 <= z <= u64_max)%Z /\ x = IZR z.
Proof.
  unfold is_int. cbn [neqb nto_u64 nofZ NumR]. unfold clamp_u64. split.
  - destruct (Req_EM_T x (IZR (Z.max 0 (Z.min u64_max (Ztrunc x))))) as [E|]; [|discriminate]. intros _.
    eexists. split; [|exact E]. unfold u64_max. lia.
  - intros (z & B & ->). rewrite Ztrunc_IZR. replace (Z.max 0 (Z.min u64_max z)) with z by lia.
    destruct (Req_EM_T (IZR z) (IZR z)) as [_|N]; [reflexivity|destruct N; reflexivity].
Qed.
Lemma nofnat_R n : (nofnat n : R) = INR n.
Proof. unfold nofnat. cbn [nofZ NumR]. symmetry. apply INR_IZR_INZ. Qed.

(** The checks pass over the reals for whole rates and a carrier below half the sample rate. *)
Lemma cdma_rates_R_intro sr sy (fc : R) (key : list bool) :
  (1 <= sy)%nat -> key <> [] -> (2 * (length key * sy) <= sr)%nat -> Nat.divide (length key * sy) sr ->
  (Z.of_nat sr <= u64_max)%Z -> 0 <= fc <= INR (sr / 2) ->
  cdma_rates sr sy fc key = Ret (sr / sy, sr / sy / length key)%nat.
Proof.
  intros Hy Hk Hr Hd Hb Hf. unfold cdma_rates, assert_then, usize_mul.
  assert (Hl : (1 <= length key)%nat) by (destruct key; [contradiction|cbn; lia]).
  destruct (Z.ltb_spec (Z.of_nat (length key) * Z.of_nat sy) two64) as [_|B]; [|unfold two64, u64_max in *; nia]. cbn [bind].
  destruct (Nat.leb_spec (length key * sy) (sr / 2)) as [_|B].
  2:{ assert (length key * sy <= sr / 2)%nat by (apply Nat.div_le_lower_bound; lia). lia. }
  replace (nyquist_ok sr fc) with true.
  2:{ symmetry. unfold nyquist_ok. cbn [nto_u64 NumR]. apply Z.leb_le. unfold clamp_u64.
      assert (Ztrunc fc <= Z.of_nat (sr / 2))%Z; [|lia].
      rewrite Ztrunc_floor by lra. rewrite <- (Zfloor_IZR (Z.of_nat (sr / 2))). apply Zfloor_le.
      rewrite <- INR_IZR_INZ. lra. }
  assert (Hint : forall b, (1 <= b)%nat -> Nat.divide b sr -> is_int (INR sr / INR b) = true).
  { intros b Hb1 [q Hq]. apply is_int_R. exists (Z.of_nat q). split; [nia|]. rewrite <- INR_IZR_INZ, Hq, mult_INR. field.
    apply not_0_INR. lia. }
  assert (D1 : is_int (ndiv (nofnat sr) (nofnat sy) : R) = true).
  { rewrite !nofnat_R. apply Hint; [exact Hy|]. eapply Nat.divide_trans; [apply Nat.divide_factor_r|exact Hd]. }
  assert (D2 : is_int (ndiv (nofnat sr) (nmul (nofnat sy) (nofnat (length key))) : R) = true).
  { rewrite !nofnat_R. cbn [nmul NumR]. replace (INR sy * INR (length key)) with (INR (length key * sy)) by (rewrite mult_INR; ring).
    apply Hint; [nia|exact Hd]. }
  rewrite D1, D2. rewrite usize_div_intro by lia. cbn [bind]. rewrite usize_div_intro by lia. reflexivity.
Qed.
(** ... and only then is a symbol a whole number of chips. *)
Lemma cdma_rates_R_divide sr sy (fc : R) (key : list bool) p : cdma_rates sr sy fc key = Ret p ->
  (sr / sy = sr / sy / length key * length key)%nat.
Proof.
  intros E. destruct (cdma_rates_inv _ _ _ _ _ E) as (_ & Hy & Hk & Hr & _).
  assert (Hl : (1 <= length key)%nat) by (destruct key; [contradiction|cbn; lia]).
  unfold cdma_rates, usize_mul, assert_then in E.
  destruct (Z.of_nat (length key) * Z.of_nat sy <? two64)%Z; [|discriminate]. cbn [bind] in E.
  destruct (_ <=? _)%nat; [|discriminate].
  destruct (nyquist_ok sr fc); [|discriminate]. destruct (is_int (ndiv (nofnat sr) (nofnat sy))); [|discriminate].
  destruct (is_int (ndiv (nofnat sr) (nmul (nofnat sy) (nofnat (length key))) : R)) eqn:D; [|discriminate]. clear E.
  apply is_int_R in D. destruct D as (z & B & D). rewrite !nofnat_R in D. cbn [ndiv nmul NumR] in D.
  assert (Q : sr = (Z.to_nat z * length key * sy)%nat).
  { apply INR_eq. rewrite !mult_INR, (INR_IZR_INZ (Z.to_nat z)), Z2Nat.id by lia. rewrite <- D. field.
    split; apply not_0_INR; lia. }
  rewrite Q. rewrite Nat.div_mul by lia. rewrite Nat.div_mul by lia. reflexivity.
Qed.

(** A case: 3 pairs and a dropped bit, 24 samples per second, 2 symbols of 3 chips, carrier 4 Hz. *)
Example C35_case :
  exists tx rx, tx_cdma_qpsk_signal (of_list [true; false; false]) 24 2 (4 : R) [true; false; true] = Ret tx /\
    rx_cdma_qpsk_signal tx 24 2 (4 : R) [true; false; true] = Ret rx /\ yields rx [true; false].
Proof.
  assert (E : exists tx, tx_cdma_qpsk_signal (of_list [true; false; false]) 24 2 (4 : R) [true; false; true] = Ret tx).
  { unfold tx_cdma_qpsk_signal. rewrite cdma_rates_R_intro; [eexists; reflexivity|lia|discriminate|cbn; lia|exists 4%nat; reflexivity| |].
    - unfold u64_max. lia.
    - change (24 / 2)%nat with 12%nat. cbn. lra. }
  destruct E as [tx Et]. exists tx.
  destruct (C35_cdma_qpsk_round_trip _ _ 24 2 4 4 _ tx (of_list_yields [true; false; false]) Et) as (rx & Er & Yr).
  - change (24 / 2)%nat with 12%nat. cbn. lra.
  - intros [z Hz]. change (INR 24) with (IZR 24) in Hz || (rewrite INR_IZR_INZ in Hz; change (Z.of_nat 24) with 24%Z in Hz).
    rewrite <- !mult_IZR in Hz. apply eq_IZR in Hz. lia.
  - exists rx. auto.
Qed.

(** ** C36 *)

Lemma Rsum_n_sum {A} (l : list A) n (f : A -> nat -> R) :
  Rsum_n n (fun j => Rsum (map (fun v => f v j) l)) = Rsum (map (fun v => Rsum_n n (f v)) l).
Proof.
  induction l as [|a l IH]; cbn [map Rsum].
  - induction n as [|n IHn]; cbn [Rsum_n]; [reflexivity|]. rewrite IHn. cbn. lra.
  - rewrite Rsum_n_plus, IH. reflexivity.
Qed.

(** What arrives: the sum of everything sent. *)
Lemma channel_R N (txs : list (list R)) : channel N txs = tab N (fun i => Rsum (map (fun w => nth i w 0) txs)).
Proof.
  unfold channel. rewrite repeat_tab.
  enough (G : forall g, fold_left channel_add txs (tab N g) = tab N (fun i => g i + Rsum (map (fun w => nth i w 0) txs))).
  { rewrite G. apply tab_ext. intros i _. cbn [nofZ NumR]. ring. }
  induction txs as [|w txs IH]; intros g; cbn [fold_left map Rsum].
  - apply tab_ext. intros. ring.
  - unfold channel_add at 2. rewrite tab_index, tab_map, IH. apply tab_ext. intros i _.
    destruct (nth_error w i) as [x|] eqn:E.
    + rewrite (nth_error_nth _ _ 0 E). cbn [nadd NumR]. ring.
    + apply nth_error_None in E. rewrite nth_overflow by exact E. ring.
Qed.

Lemma Rsum_map_seq U (f : nat -> R) : Rsum (map f (seq 0 U)) = Rsum_n U f.
Proof. apply Rsum_tab. Qed.

Lemma Rsum_n_split (f : nat -> R) u N : (u < N)%nat -> Rsum_n N f = f u + Rsum_n N (fun v => if (v =? u)%nat then 0 else f v).
Proof.
  revert u. induction N as [|N IH]; intros u Hu; [lia|]. cbn [Rsum_n].
  destruct (Nat.eq_dec u N) as [->|D].
  - rewrite Nat.eqb_refl. rewrite (Rsum_n_ext N (fun v => if (v =? N)%nat then 0 else f v) f).
    + ring.
    + intros j Hj. destruct (Nat.eqb_spec j N); [lia|reflexivity].
  - rewrite (IH u) by lia. destruct (Nat.eqb_spec N u); [lia|]. ring.
Qed.
Lemma Rsum_n_abs_bound (f g : nat -> R) N : (forall v, (v < N)%nat -> Rabs (f v) <= g v) -> Rabs (Rsum_n N f) <= Rsum_n N g.
Proof.
  induction N as [|N IH]; intros H; cbn [Rsum_n]; [rewrite Rabs_R0; lra|].
  eapply Rle_trans; [apply Rabs_triang|]. apply Rplus_le_compat; [apply IH; auto|apply H; lia].
Qed.

Section MultiUser.
Variables (sr sy nsym U : nat) (fc : R) (n : nat).
Variables (key msg : nat -> list bool) (w : nat -> list R).
Let sps := (sr / sy)%nat.
Let spc := (sps / n)%nat.
Let ph i := 2 * PI * fc * (INR i / INR sr).
Hypothesis Hkey : forall v, (v < U)%nat -> length (key v) = n.
Hypothesis Htx : forall v, (v < U)%nat ->
  exists tx, tx_cdma_bpsk_signal (of_list (msg v)) sr sy fc (key v) = Ret tx /\ yields tx (w v).
Hypothesis Hmsg : forall v, (v < U)%nat -> (length (msg v) <= nsym)%nat.

Lemma mu_facts u : (u < U)%nat ->
  (1 <= sy)%nat /\ (1 <= n)%nat /\ (1 <= spc)%nat /\ (sps = n * spc)%nat /\
  cdma_rates sr sy fc (key u) = Ret (sps, spc).
Proof.
  intros Hu. destruct (Htx u Hu) as (tx & E & _). unfold tx_cdma_bpsk_signal in E.
  destruct (cdma_rates sr sy fc (key u)) as [p| |] eqn:Ep; try discriminate.
  destruct (cdma_rates_inv _ _ _ _ _ Ep) as (-> & Hy & Hk & Hr & Hc & _).
  pose proof (cdma_rates_R_divide _ _ _ _ _ Ep) as D.
  assert (Hl : (1 <= length (key u))%nat) by (destruct (key u); [contradiction|cbn; lia]).
  rewrite (Hkey u Hu) in *. unfold spc, sps in *. repeat split; try lia.
Qed.

(** The samples of user v in symbol k. *)
Definition amp (l : list bool) (k : nat) : R := match nth_error l k with Some b => sgn b | None => 0 end.
Lemma mu_sample v k j : (v < U)%nat -> (k < nsym)%nat -> (j < sps)%nat ->
  nth (k * sps + j) (w v) 0 = amp (msg v) k * cos (ph (k * sps + j)%nat) * sgn (nth (j / spc) (key v) false).
Proof.
  intros Hv Hk Hj. destruct (mu_facts v Hv) as (Hy & Hn & Hc & Hs & Er).
  destruct (Htx v Hv) as (tx & E & Y). unfold tx_cdma_bpsk_signal in E. rewrite Er in E. cbn [bind] in E.
  destruct (tx_bpsk_signal (of_list (msg v)) sr sy fc) as [tx0| |] eqn:Et; try discriminate. cbn [bind] in E. injection E as <-.
  destruct (tx_bpsk_inv _ _ _ _ _ Et) as (_ & _ & _ & Y0). fold sps in Y0.
  assert (Hsp : (1 <= sps)%nat) by nia.
  specialize (Y0 Hsp _ (of_list_yields (msg v))).
  assert (Hkn : key v <> []) by (intros Q; pose proof (Hkey v Hv) as L; rewrite Q in L; cbn in L; lia).
  pose proof (yields_det _ _ _ Y (chip_mul_yields spc (key v) tx0 _ _ Hc Hkn Y0)) as Ew. rewrite Ew. clear Ew.
  unfold amp. destruct (nth_error (msg v) k) as [b|] eqn:Eb.
  - assert (Lk : (k < length (msg v))%nat) by (apply nth_error_Some; congruence).
    rewrite tab_nth by nia. rewrite block_div by exact Hj. rewrite (nth_error_nth _ _ false Eb), (Hkey v Hv).
    replace (((k * sps + j) / spc) mod n)%nat with (j / spc)%nat.
    + unfold ccos. rewrite phase_R, !nrz_R. fold (ph (k * sps + j)%nat). reflexivity.
    + rewrite Hs. replace (k * (n * spc) + j)%nat with (j + (k * n) * spc)%nat by ring. rewrite Nat.div_add by lia.
      rewrite Nat.mod_add by lia. symmetry. apply Nat.mod_small. apply Nat.div_lt_upper_bound; lia.
  - apply nth_error_None in Eb. rewrite nth_overflow; [ring|]. rewrite tab_length. nia.
Qed.

Definition cross (u v k : nat) : R :=
  Rsum_n sps (fun j => sgn (nth (j / spc) (key u) false) * sgn (nth (j / spc) (key v) false) *
     (cos (ph (k * sps + j)%nat) * cos (ph (k * sps + j)%nat))).

Lemma mu_receive u : (u < U)%nat ->
  exists rx, rx_cdma_bpsk_signal (of_list (channel (nsym * sps) (map w (seq 0 U)))) sr sy fc (key u) = Ret rx /\
    yields rx (tab nsym (fun k => nltb 0 (Rsum_n U (fun v => amp (msg v) k * cross u v k)))).
Proof.
  intros Hu. destruct (mu_facts u Hu) as (Hy & Hn & Hc & Hs & Er). unfold rx_cdma_bpsk_signal. rewrite Er. cbn [bind].
  assert (Hsp : (1 <= sr / sy)%nat) by (fold sps; nia).
  assert (Hkn : key u <> []) by (intros Q; pose proof (Hkey u Hu) as L; rewrite Q in L; cbn in L; lia).
  destruct (rx_bpsk_intro (chip_mul spc (key u) (of_list (channel (nsym * sps) (map w (seq 0 U))))) sr sy fc ltac:(lia) Hsp)
    as (rx & Erx & Yr & _).
  exists rx. split; [exact Erx|]. rewrite channel_R in *. fold sps in Yr.
  specialize (Yr _ _ (chip_mul_yields spc (key u) _ _ _ Hc Hkn (of_list_yields _))).
  refine (eq_ind _ (fun x => yields _ x) Yr _ _). clear Yr Erx. apply tab_ext. intros k Hk. cbn [nofZ NumR]. f_equal.
  rewrite corr_R. rewrite <- (Rsum_map_seq U). unfold cross.
  transitivity (Rsum (map (fun v => Rsum_n sps (fun j => amp (msg v) k *
     (sgn (nth (j / spc) (key u) false) * sgn (nth (j / spc) (key v) false) * (cos (ph (k * sps + j)%nat) * cos (ph (k * sps + j)%nat))))) (seq 0 U))).
  2:{ f_equal. apply map_ext. intros v. rewrite Rsum_n_scale. reflexivity. }
  rewrite <- Rsum_n_sum. apply Rsum_n_ext. intros j Hj.
  rewrite (Hkey u Hu), map_map.
  replace (((k * sps + j) / spc) mod n)%nat with (j / spc)%nat.
  2:{ rewrite Hs. replace (k * (n * spc) + j)%nat with (j + (k * n) * spc)%nat by ring. rewrite Nat.div_add by lia.
      rewrite Nat.mod_add by lia. symmetry. apply Nat.mod_small. apply Nat.div_lt_upper_bound; lia. }
  unfold ccos. rewrite phase_R, nrz_R. fold (ph (k * sps + j)%nat). cbn [nmul ncos NumR].
  fold (sgn (nth (j / spc) (key u) false)).
  assert (G : forall l, (forall v, In v l -> (v < U)%nat) ->
    Rsum (map (fun v => nth (k * sps + j) (w v) 0) l) * sgn (nth (j / spc) (key u) false) * cos (ph (k * sps + j)%nat) =
    Rsum (map (fun v => amp (msg v) k * (sgn (nth (j / spc) (key u) false) * sgn (nth (j / spc) (key v) false) *
       (cos (ph (k * sps + j)%nat) * cos (ph (k * sps + j)%nat)))) l)).
  { induction l as [|v l IH]; intros Hl; cbn [map Rsum]; [ring|].
    rewrite <- IH by (intros; apply Hl; right; assumption).
    rewrite (mu_sample v k j (Hl v (or_introl eq_refl)) Hk Hj). ring. }
  apply G. intros v Hv. apply in_seq in Hv. lia.
Qed.

End MultiUser.

(** Any keys of one length: user u's bit k arrives whenever the other users' cross-talk in that
    symbol, at its worst, is below the symbol's energy. *)
Theorem C36_crosstalk :
  forall (sample_rate symbol_rate nsym U n : nat) (fc : R) (key msg : nat -> list bool) (w : nat -> list R),
    let sps := (sample_rate / symbol_rate)%nat in
    let spc := (sps / n)%nat in
    let carrier i := cos (2 * PI * fc * (INR i / INR sample_rate)) in
    let sign (b : bool) := if b then 1 else -1 in
    let cross u v k := Rsum_n sps (fun j => sign (nth (j / spc) (key u) false) * sign (nth (j / spc) (key v) false) *
                                    (carrier (k * sps + j)%nat * carrier (k * sps + j)%nat)) in
    (forall v, (v < U)%nat -> length (key v) = n /\ (length (msg v) <= nsym)%nat /\
       exists tx, tx_cdma_bpsk_signal (of_list (msg v)) sample_rate symbol_rate fc (key v) = Ret tx /\ yields tx (w v)) ->
    forall u, (u < U)%nat ->
    exists rx out,
      rx_cdma_bpsk_signal (of_list (channel (nsym * sps) (map w (seq 0 U)))) sample_rate symbol_rate fc (key u) = Ret rx /\
      yields rx out /\ length out = nsym /\
      forall k b, nth_error (msg u) k = Some b ->
        Rsum_n U (fun v => if (v =? u)%nat then 0 else Rabs (cross u v k)) < cross u u k ->
        nth_error out k = Some b.
Proof.
  intros sr sy nsym U n fc key msg w sps spc carrier sign cr H u Hu.
  destruct (mu_receive sr sy nsym U fc n key msg w (fun v Hv => proj1 (H v Hv)) (fun v Hv => proj2 (proj2 (H v Hv))) u Hu)
    as (rx & Er & Yr).
  exists rx. eexists. split; [exact Er|]. split; [exact Yr|]. split; [apply tab_length|].
  intros k b Hb HC. assert (Lk : (k < length (msg u))%nat) by (apply nth_error_Some; congruence).
  destruct (H u Hu) as (_ & Lm & _).
  rewrite tab_nth_error. replace (k <? nsym)%nat with true by (symmetry; apply Nat.ltb_lt; lia). f_equal.
  rewrite (Rsum_n_split _ u U Hu). unfold amp at 1. rewrite Hb.
  change (cross sr sy fc n key u u k) with (cr u u k).
  set (rest := Rsum_n U _).
  assert (B : Rabs rest <= Rsum_n U (fun v => if (v =? u)%nat then 0 else Rabs (cr u v k))).
  { apply Rsum_n_abs_bound. intros v _. destruct (v =? u)%nat; [rewrite Rabs_R0; lra|].
    change (cross sr sy fc n key u v k) with (cr u v k). rewrite Rabs_mult.
    assert (A : Rabs (amp (msg v) k) <= 1).
    { unfold amp. destruct (nth_error (msg v) k) as [[]|]; cbn [sgn]; [rewrite Rabs_R1; lra| |rewrite Rabs_R0; lra].
      rewrite Rabs_left; lra. }
    pose proof (Rabs_pos (cr u v k)). nra. }
  assert (B2 : Rabs rest < cr u u k) by lra. apply Rabs_def2 in B2.
  destruct b; cbn [sgn].
  - apply nltb_R. lra.
  - destruct (nltb 0 (-1 * cr u u k + rest)) eqn:E; [|reflexivity]. apply nltb_R in E. lra.
Qed.

(** Rows of a Hadamard matrix, same energy in every chip of a symbol: no cross-talk at all, and
    nothing but false once the user has stopped sending. *)
Theorem C36_hadamard_users :
  forall (sample_rate symbol_rate nsym U n : nat) (fc : R) (M : list (list bool)) (row : nat -> nat)
         (key msg : nat -> list bool) (w : nat -> list R) (E : nat -> R),
    let sps := (sample_rate / symbol_rate)%nat in
    let spc := (sps / n)%nat in
    let carrier i := cos (2 * PI * fc * (INR i / INR sample_rate)) in
    HadamardMatrix_new n = Ret M ->
    (forall v, (v < U)%nat -> nth_error M (row v) = Some (key v)) ->
    (forall u v, (u < U)%nat -> (v < U)%nat -> row u = row v -> u = v) ->
    (forall v, (v < U)%nat -> (length (msg v) <= nsym)%nat /\
       exists tx, tx_cdma_bpsk_signal (of_list (msg v)) sample_rate symbol_rate fc (key v) = Ret tx /\ yields tx (w v)) ->
    (forall k c, (k < nsym)%nat -> (c < n)%nat ->
       Rsum_n spc (fun j => carrier (k * sps + (c * spc + j))%nat * carrier (k * sps + (c * spc + j))%nat) = E k) ->
    forall u, (u < U)%nat ->
    exists rx,
      rx_cdma_bpsk_signal (of_list (channel (nsym * sps) (map w (seq 0 U)))) sample_rate symbol_rate fc (key u) = Ret rx /\
      yields rx (msg u ++ repeat false (nsym - length (msg u))).
Proof.
  intros sr sy nsym U n fc M row key msg w E sps spc carrier HM Hkey Hinj Htx HE u Hu.
  assert (Hp : exists k, n = (2 ^ k)%nat).
  { destruct (Nat.eq_dec n 0) as [->|N0]; [discriminate HM|].
    destruct (Nat.eq_dec (Nat.land n (n - 1)) 0) as [Q|Q].
    - exists (Nat.log2 n). apply land_pred_0; [lia|exact Q].
    - unfold HadamardMatrix_new, usize_sub in HM. replace (1 <=? n)%nat with true in HM by (symmetry; apply Nat.leb_le; lia).
      cbn [bind] in HM. apply Nat.eqb_neq in Q. rewrite Q in HM. discriminate. }
  destruct Hp as [K Hn].
  rewrite Hn, new_pow2 in HM. injection HM as <-. rewrite <- Hn in Hkey.
  assert (Hrow : forall v, (v < U)%nat -> (row v < n)%nat /\ key v = tab n (fun c => had K (row v) c)).
  { intros v Hv. specialize (Hkey v Hv). unfold mat in Hkey. rewrite tab_nth_error in Hkey.
    destruct (Nat.ltb_spec (row v) n) as [L|]; [|discriminate]. split; [exact L|]. congruence. }
  assert (Hlen : forall v, (v < U)%nat -> length (key v) = n) by (intros v Hv; rewrite (proj2 (Hrow v Hv)); apply tab_length).
  assert (Htx' : forall v, (v < U)%nat ->
    exists tx, tx_cdma_bpsk_signal (of_list (msg v)) sr sy fc (key v) = Ret tx /\ yields tx (w v)) by (intros v Hv; apply (Htx v Hv)).
  destruct (mu_receive sr sy nsym U fc n key msg w Hlen Htx' u Hu) as (rx & Er & Yr).
  destruct (mu_facts sr sy U fc n key msg w Hlen Htx' u Hu) as (Hy & Hn1 & Hc & Hs & Hrates). fold sps spc in Hc, Hs.
  exists rx. split; [exact Er|]. refine (eq_ind _ (fun x => yields _ x) Yr _ _). clear Yr Er.
  destruct (Htx u Hu) as (Lm & tx & Etx & _).
  (* correlation of two users *)
  assert (HX : forall v k, (v < U)%nat -> (k < nsym)%nat ->
            cross sr sy fc n key u v k = if (v =? u)%nat then INR n * E k else 0).
  { intros v k Hv Hk. unfold cross. fold sps. fold spc. rewrite Hs at 1. rewrite Rsum_n_mul.
    rewrite (Rsum_n_ext n _ (fun c => E k * (sgn (had K (row u) c) * sgn (had K (row v) c)))).
    - rewrite Rsum_n_scale. destruct (Hrow u Hu) as [Ru _], (Hrow v Hv) as [Rv _]. rewrite Hn in Ru, Rv |- *.
      rewrite (had_orth K _ _ Ru Rv).
      destruct (Nat.eqb_spec v u) as [->|D]; [rewrite Nat.eqb_refl; ring|].
      destruct (Nat.eqb_spec (row u) (row v)) as [Q|Q]; [|ring]. destruct D. symmetry. apply Hinj; assumption.
    - intros c Hcn. rewrite <- (HE k c Hk Hcn). rewrite (Rmult_comm (Rsum_n spc _)), <- Rsum_n_scale. apply Rsum_n_ext. intros j Hj.
      rewrite block_div by exact Hj.
      rewrite (proj2 (Hrow u Hu)), (proj2 (Hrow v Hv)), !tab_nth by exact Hcn. reflexivity. }
  (* the energy of a symbol is positive *)
  assert (HEpos : forall k, (k < nsym)%nat -> 0 < E k).
  { intros k Hk.
    assert (H2 : (2 <= spc)%nat).
    { destruct (cdma_rates_inv _ _ _ _ _ Hrates) as (_ & _ & _ & _ & Hc2 & _). rewrite (Hlen u Hu) in Hc2. exact Hc2. }
    rewrite <- (HE k 0%nat Hk ltac:(lia)).
    apply (proj2 (Rsum_n_sq_pos spc (fun j => carrier (k * sps + (0 * spc + j))%nat))).
    set (t := 2 * PI * fc / INR sr).
    assert (R : forall i, carrier i = cos (INR i * t)) by (intros; unfold carrier; f_equal; unfold t, Rdiv; ring).
    destruct (Req_dec (cos (INR (k * sps) * t)) 0) as [Z|Z].
    - exists 1%nat. split; [lia|]. rewrite R. replace (k * sps + (0 * spc + 1))%nat with (S (k * sps)) by lia.
      apply cos_consecutive. exact Z.
    - exists 0%nat. split; [lia|]. rewrite R. replace (k * sps + (0 * spc + 0))%nat with (k * sps)%nat by lia. exact Z. }
  assert (Hdec : forall k, (k < nsym)%nat ->
     nltb 0 (Rsum_n U (fun v => amp (msg v) k * cross sr sy fc n key u v k)) = nth k (msg u) false).
  { intros k Hk. rewrite (Rsum_n_split _ u U Hu).
    rewrite (Rsum_n_0 U (fun v => if (v =? u)%nat then 0 else amp (msg v) k * cross sr sy fc n key u v k)).
    2:{ intros v Hv. destruct (Nat.eqb_spec v u) as [|D]; [reflexivity|]. rewrite HX by assumption.
        apply Nat.eqb_neq in D. rewrite D. ring. }
    rewrite HX by assumption. rewrite Nat.eqb_refl. specialize (HEpos k Hk).
    assert (Pn : 0 < INR n) by (apply lt_0_INR; lia).
    assert (Q : 0 < INR n * E k) by nra. unfold amp. destruct (nth_error (msg u) k) as [b|] eqn:Eb.
    - rewrite (nth_error_nth _ _ false Eb). destruct b; cbn [sgn].
      + apply nltb_R. lra.
      + destruct (nltb 0 _) eqn:F; [|reflexivity]. apply nltb_R in F. lra.
    - apply nth_error_None in Eb. rewrite nth_overflow by exact Eb.
      destruct (nltb 0 _) eqn:F; [|reflexivity]. apply nltb_R in F. lra. }
  apply nth_error_inj. intros k. rewrite tab_nth_error. destruct (Nat.ltb_spec k nsym) as [L|L].
  - rewrite (Hdec k L). destruct (Nat.lt_ge_cases k (length (msg u))) as [L2|L2].
    + rewrite nth_error_app1 by exact L2. symmetry. apply nth_error_nth'. exact L2.
    + rewrite nth_error_app2 by exact L2. rewrite nth_overflow by exact L2. symmetry.
      rewrite repeat_tab, tab_nth_error. replace (_ <? _)%nat with true by (symmetry; apply Nat.ltb_lt; lia). reflexivity.
  - symmetry. apply nth_error_None. rewrite app_length, repeat_length. lia.
Qed.

(** Over whole half-cycles the carrier has energy one half per sample. *)
Lemma half_energy sr fc m (h : Z) start : (1 <= sr)%nat -> 2 * fc * INR m = IZR h * INR sr ->
  ~ (exists z : Z, 2 * fc = IZR z * INR sr) ->
  Rsum_n m (fun j => cos (2 * PI * fc * (INR (start + j) / INR sr)) * cos (2 * PI * fc * (INR (start + j) / INR sr))) = INR m / 2.
Proof.
  intros Hs Hh Hz. assert (Hsr : INR sr <> 0) by (apply not_0_INR; lia).
  set (a := 2 * PI * fc / INR sr).
  assert (Ha : sin a <> 0).
  { intros E. apply sin_0_mult in E. destruct E as [z E]. apply Hz. exists z.
    apply (Rmult_eq_reg_l (PI / INR sr)).
    - unfold a in E. replace (PI / INR sr * (2 * fc)) with (2 * PI * fc / INR sr) by (field; exact Hsr). rewrite E. field. exact Hsr.
    - apply Rmult_integral_contrapositive_currified; [apply PI_neq0|apply Rinv_neq_0_compat; exact Hsr]. }
  assert (Hp : 2 * a * INR m = 2 * PI * IZR h).
  { unfold a. replace (2 * (2 * PI * fc / INR sr) * INR m) with (2 * PI * (2 * fc * INR m) / INR sr) by (field; exact Hsr).
    rewrite Hh. field. exact Hsr. }
  destruct (sum_whole a (2 * (a * INR start)) m h Ha Hp) as [SC _].
  rewrite (Rsum_n_ext m _ (fun j => 1 / 2 + 1 / 2 * cos (2 * (a * INR start) + 2 * a * INR j))).
  - rewrite Rsum_n_plus, Rsum_n_scale, Rsum_n_const, SC. lra.
  - intros j _. rewrite cos_sq_half. replace (2 * (2 * PI * fc * (INR (start + j) / INR sr))) with (2 * (a * INR start) + 2 * a * INR j).
    + lra.
    + unfold a. rewrite plus_INR. field. exact Hsr.
Qed.

(** The usual design: every chip spans whole half-cycles of the carrier. *)
Theorem C36_hadamard_design :
  forall (sample_rate symbol_rate nsym U n : nat) (fc : R) (half_cycles : Z) (M : list (list bool)) (row : nat -> nat)
         (key msg : nat -> list bool) (w : nat -> list R),
    let sps := (sample_rate / symbol_rate)%nat in
    let spc := (sps / n)%nat in
    HadamardMatrix_new n = Ret M ->
    (forall v, (v < U)%nat -> nth_error M (row v) = Some (key v)) ->
    (forall u v, (u < U)%nat -> (v < U)%nat -> row u = row v -> u = v) ->
    (forall v, (v < U)%nat -> (length (msg v) <= nsym)%nat /\
       exists tx, tx_cdma_bpsk_signal (of_list (msg v)) sample_rate symbol_rate fc (key v) = Ret tx /\ yields tx (w v)) ->
    2 * fc * INR spc = IZR half_cycles * INR sample_rate ->
    ~ (exists z : Z, 2 * fc = IZR z * INR sample_rate) ->
    forall u, (u < U)%nat ->
    exists rx,
      rx_cdma_bpsk_signal (of_list (channel (nsym * sps) (map w (seq 0 U)))) sample_rate symbol_rate fc (key u) = Ret rx /\
      yields rx (msg u ++ repeat false (nsym - length (msg u))).
Proof.
  intros sr sy nsym U n fc h M row key msg w sps spc HM Hkey Hinj Htx Hh Hz u Hu.
  apply (C36_hadamard_users sr sy nsym U n fc M row key msg w (fun _ => INR spc / 2) HM Hkey Hinj Htx); [|exact Hu].
  intros k c _ _. fold sps. fold spc.
  assert (Hsr : (1 <= sr)%nat).
  { destruct (Htx u Hu) as (_ & tx & E & _). unfold tx_cdma_bpsk_signal in E.
    destruct (cdma_rates sr sy fc (key u)) as [p| |] eqn:Ep; try discriminate.
    destruct (cdma_rates_inv _ _ _ _ _ Ep) as (_ & Hy & Hk & Hr & _). destruct (key u); [contradiction|cbn in Hr; nia]. }
  rewrite (Rsum_n_ext spc _ (fun j => cos (2 * PI * fc * (INR (k * sps + c * spc + j) / INR sr)) *
     cos (2 * PI * fc * (INR (k * sps + c * spc + j) / INR sr)))) by (intros; rewrite <- !Nat.add_assoc; reflexivity).
  apply (half_energy sr fc spc h); assumption.
Qed.

(** Two users on rows 1 and 2 of the 4 by 4 matrix, 16 samples, one symbol of 4 chips per second, 2 Hz. *)
Example C36_case :
  exists (w0 w1 : list R) rx0 rx1,
    (exists tx, tx_cdma_bpsk_signal (of_list [true; false]) 16 1 (2 : R) [true; false; true; false] = Ret tx /\ yields tx w0) /\
    (exists tx, tx_cdma_bpsk_signal (of_list [true]) 16 1 (2 : R) [true; true; false; false] = Ret tx /\ yields tx w1) /\
    rx_cdma_bpsk_signal (of_list (channel 32 [w0; w1])) 16 1 (2 : R) [true; false; true; false] = Ret rx0 /\
    yields rx0 [true; false] /\
    rx_cdma_bpsk_signal (of_list (channel 32 [w0; w1])) 16 1 (2 : R) [true; true; false; false] = Ret rx1 /\
    yields rx1 [true; false].
Proof.
  assert (T : forall m key, length key = 4%nat -> exists w tx, tx_cdma_bpsk_signal (of_list m) 16 1 (2 : R) key = Ret tx /\ yields tx w).
  { intros m key L.
    assert (Er : cdma_rates 16 1 (2 : R) key = Ret (16, 4)%nat).
    { rewrite cdma_rates_R_intro; rewrite ?L; [reflexivity|lia|destruct key; discriminate|lia|exists 4%nat; reflexivity|unfold u64_max; lia|].
      change (16 / 2)%nat with 8%nat. cbn. lra. }
    destruct (cdma_rates_inv _ _ _ _ _ Er) as (_ & _ & Hk & _ & _ & Hny & Hi).
    assert (Et : exists tx0, tx_bpsk_signal (of_list m) 16 1 (2 : R) = Ret tx0).
    { unfold tx_bpsk_signal. rewrite usize_div_intro by lia. cbn [bind]. rewrite Hny, Hi. eexists. reflexivity. }
    destruct Et as [tx0 Et]. unfold tx_cdma_bpsk_signal. rewrite Er, Et. cbn [bind].
    destruct (tx_bpsk_inv _ _ _ _ _ Et) as (_ & _ & _ & Y). specialize (Y ltac:(cbn; lia) _ (of_list_yields m)).
    eexists. eexists. split; [reflexivity|]. apply chip_mul_yields; [lia|exact Hk|exact Y]. }
  destruct (T [true; false] [true; false; true; false] eq_refl) as (w0 & tx0 & E0 & Y0).
  destruct (T [true] [true; true; false; false] eq_refl) as (w1 & tx1 & E1 & Y1).
  set (key := fun v => match v with 0%nat => [true; false; true; false] | _ => [true; true; false; false] end).
  set (msg := fun v => match v with 0%nat => [true; false] | _ => [true] end).
  set (w := fun v => match v with 0%nat => w0 | _ => w1 end).
  assert (G : forall u, (u < 2)%nat -> exists rx, rx_cdma_bpsk_signal (of_list (channel (2 * 16) (map w (seq 0 2)))) 16 1 2 (key u) = Ret rx /\
      yields rx (msg u ++ repeat false (2 - length (msg u)))).
  { apply (C36_hadamard_design 16 1 2 2 4 2 1
      [[true; true; true; true]; [true; false; true; false]; [true; true; false; false]; [true; false; false; true]] S key msg w).
    - vm_compute. reflexivity.
    - intros [|[|v]] Hv; try lia; reflexivity.
    - intros u v _ _ Q. lia.
    - intros [|[|v]] Hv; try lia; (split; [cbn; lia|eexists; split; [eassumption|eassumption]]).
    - change (16 / 1 / 4)%nat with 4%nat. cbn. lra.
    - intros [z Hz]. rewrite INR_IZR_INZ in Hz. change (Z.of_nat 16) with 16%Z in Hz. rewrite <- !mult_IZR in Hz. apply eq_IZR in Hz. lia. }
  destruct (G 0%nat ltac:(lia)) as (rx0 & R0 & Z0). destruct (G 1%nat ltac:(lia)) as (rx1 & R1 & Z1).
  exists w0, w1, rx0, rx1. split; [exists tx0; auto|]. split; [exists tx1; auto|].
  split; [exact R0|]. split; [exact Z0|]. split; [exact R1|exact Z1].
Qed.

(** ** C37, C38 *)
Local Open Scope nat_scope.

Definition entry (M : list (list bool)) (i j : nat) : bool := nth j (nth i M []) false.

Lemma mat_entry n f i j : i < n -> j < n -> entry (mat n f) i j = f i j.
Proof. intros Hi Hj. unfold entry, mat. rewrite tab_nth by exact Hi. apply tab_nth. exact Hj. Qed.

Theorem C37_hadamard_orthogonal :
  forall k, let n := 2 ^ k in
    exists M, HadamardMatrix_new n = Ret M /\ length M = n /\ (forall r, In r M -> length r = n) /\
      (forall i j, i < n -> j < n -> entry M i j = entry M j i) /\
      nth 0 M [] = repeat true n /\
      (forall i j, i < n -> j < n -> i <> j ->
         2 * length (filter (fun c => Bool.eqb (entry M i c) (entry M j c)) (seq 0 n)) = n).
Proof.
  intros k n. exists (mat n (had k)). split; [apply new_pow2|]. split; [apply tab_length|].
  pose proof (pow2_ge1 k) as P. fold n in P. split.
  { intros r Hr. unfold mat, tab in Hr. apply in_map_iff in Hr. destruct Hr as (i & <- & _). apply tab_length. }
  split; [intros i j Hi Hj; rewrite !mat_entry by assumption; apply had_sym|]. split.
  { unfold mat. rewrite tab_nth by lia. rewrite repeat_tab. apply tab_ext. intros j _. apply had_row0. }
  intros i j Hi Hj Hij. apply INR_eq. rewrite mult_INR.
  rewrite (filter_ext_in _ (fun c => Bool.eqb (had k i c) (had k j c))).
  2:{ intros c Hc. apply in_seq in Hc. rewrite !mat_entry by lia. reflexivity. }
  change (INR 2) with 2%R. rewrite agree_count. unfold n. rewrite had_orth by assumption.
  destruct (Nat.eqb_spec i j); [contradiction|]. lra.
Qed.

(** The entries: true where the two indices share an even number of binary ones. *)
Theorem C37_hadamard_entries :
  forall k, exists M, HadamardMatrix_new (2 ^ k) = Ret M /\
    forall i j, i < 2 ^ k -> j < 2 ^ k ->
      entry M i j = Nat.even (length (filter (fun t => Nat.testbit i t && Nat.testbit j t) (seq 0 k))).
Proof.
  intros k. eexists. split; [apply new_pow2|]. intros i j Hi Hj. rewrite mat_entry by assumption.
  revert i j Hi Hj. induction k as [|k IH]; intros i j Hi Hj; [reflexivity|].
  cbn [had]. pose proof (pow2_ge1 k) as P.
  assert (T : forall a, a < 2 ^ S k -> (2 ^ k <=? a) = Nat.testbit a k).
  { intros a Ha. rewrite Nat.testbit_eqb. cbn in Ha. destruct (Nat.leb_spec (2 ^ k) a) as [L|L].
    - replace (a / 2 ^ k) with 1; [reflexivity|]. apply Nat.div_unique with (a - 2 ^ k); lia.
    - rewrite Nat.div_small by exact L. reflexivity. }
  rewrite IH by (apply Nat.mod_upper_bound; lia). rewrite (T i Hi), (T j Hj).
  rewrite seq_S, filter_app, app_length. cbn [Nat.add filter].
  rewrite (filter_ext_in (fun t => Nat.testbit (i mod 2 ^ k) t && Nat.testbit (j mod 2 ^ k) t) (fun t => Nat.testbit i t && Nat.testbit j t)).
  2:{ intros t Ht. apply in_seq in Ht. rewrite !Nat.mod_pow2_bits_low by lia. reflexivity. }
  set (l := length _). destruct (Nat.testbit i k && Nat.testbit j k); cbn [length].
  - rewrite Nat.add_1_r, Nat.even_succ, <- Nat.negb_even. apply xorb_true_l.
  - rewrite Nat.add_0_r. apply xorb_false_l.
Qed.

Theorem C37_hadamard_panics :
  forall n, (forall k, n <> 2 ^ k) -> HadamardMatrix_new n = Panic.
Proof. exact new_other. Qed.

Example C37_case_4 : HadamardMatrix_new 4 =
  Ret [[true; true; true; true]; [true; false; true; false]; [true; true; false; false]; [true; false; false; true]].
Proof. vm_compute. reflexivity. Qed.
Example C37_case_6 : (forall k, 6 <> 2 ^ k) /\ HadamardMatrix_new 6 = Panic /\ HadamardMatrix_new 0 = Panic.
Proof.
  split; [|split; vm_compute; reflexivity]. intros k E.
  destruct k as [|[|[|k]]]; cbn in E; lia.
Qed.

Theorem C38_key_selection :
  forall k M, let n := 2 ^ k in
    HadamardMatrix_new n = Ret M ->
    (forall i, HadamardMatrix_key M i = Panic <-> i mod n = n - 1) /\
    (forall i key, HadamardMatrix_key M i = Ret key ->
       In key M /\ key <> repeat true n /\ 2 * length (filter (fun b : bool => b) key) = n) /\
    (forall i j ki kj, HadamardMatrix_key M i = Ret ki -> HadamardMatrix_key M j = Ret kj ->
       if i mod n =? j mod n then ki = kj
       else ki <> kj /\ 2 * length (filter (fun c => Bool.eqb (nth c ki false) (nth c kj false)) (seq 0 n)) = n).
Proof.
  intros k M n HM. pose proof (pow2_ge1 k) as P. fold n in P.
  assert (EM : M = mat n (had k)) by (unfold n in *; rewrite new_pow2 in HM; congruence).
  assert (Key : forall i, HadamardMatrix_key M i = if i mod n =? n - 1 then Panic else Ret (tab n (had k (i mod n + 1)))).
  { intros i. unfold HadamardMatrix_key, usize_rem. rewrite EM. unfold mat. rewrite tab_length.
    destruct (Nat.eqb_spec n 0); [lia|]. cbn [bind]. pose proof (Nat.mod_upper_bound i n ltac:(lia)) as B.
    destruct (Nat.eqb_spec (i mod n) (n - 1)) as [E|E].
    - apply idx_tab_out. rewrite E. fold n. lia.
    - apply (idx_tab n (fun i => tab n (fun j => had k i j))). lia. }
  assert (Agree : forall i j, i < n -> j < n -> i <> j ->
    2 * length (filter (fun c => Bool.eqb (had k i c) (had k j c)) (seq 0 n)) = n).
  { intros i j Hi Hj Hij. apply INR_eq. rewrite mult_INR. change (INR 2) with 2%R. rewrite agree_count. unfold n.
    rewrite had_orth by assumption. destruct (Nat.eqb_spec i j); [contradiction|]. lra. }
  assert (NR : forall i, i mod n <> n - 1 -> i mod n + 1 < n) by (intros i Hi; pose proof (Nat.mod_upper_bound i n ltac:(lia)); lia).
  split; [|split].
  - intros i. rewrite Key. destruct (Nat.eqb_spec (i mod n) (n - 1)); split; intros; try reflexivity; try assumption; try discriminate; contradiction.
  - intros i key. rewrite Key. destruct (Nat.eqb_spec (i mod n) (n - 1)) as [|D]; [discriminate|]. intros E. injection E as <-.
    specialize (NR i D). split; [|].
    + rewrite EM. unfold mat, tab at 2. apply in_map_iff. exists (i mod n + 1). split; [reflexivity|]. apply in_seq. lia.
    + assert (Bal : 2 * length (filter (fun b : bool => b) (tab n (had k (i mod n + 1)))) = n).
      { etransitivity; [|exact (Agree (i mod n + 1) 0 NR ltac:(lia) ltac:(lia))]. f_equal.
        rewrite (filter_ext_in (fun c => Bool.eqb (had k (i mod n + 1) c) (had k 0 c)) (fun c => had k (i mod n + 1) c)).
        - unfold tab. clear. induction (seq 0 n) as [|c l IH]; [reflexivity|]. cbn [map filter].
          destruct (had k (i mod n + 1) c); cbn [length]; rewrite ?IH; reflexivity.
        - intros c _. rewrite had_row0. destruct (had k (i mod n + 1) c); reflexivity. }
      split; [|exact Bal]. intros Q. rewrite Q in Bal.
      assert (F : filter (fun b : bool => b) (repeat true n) = repeat true n).
      { clear. induction n as [|m IH]; [reflexivity|]. cbn [repeat filter]. rewrite IH. reflexivity. }
      rewrite F, repeat_length in Bal. lia.
  - intros i j ki kj. rewrite !Key.
    destruct (Nat.eqb_spec (i mod n) (n - 1)) as [|Di]; [discriminate|].
    destruct (Nat.eqb_spec (j mod n) (n - 1)) as [|Dj]; [discriminate|].
    intros Ei Ej. injection Ei as <-. injection Ej as <-.
    destruct (Nat.eqb_spec (i mod n) (j mod n)) as [->|D]; [reflexivity|].
    pose proof (Agree (i mod n + 1) (j mod n + 1) (NR i Di) (NR j Dj) ltac:(lia)) as A.
    split.
    + intros Q. assert (F : length (filter (fun c => Bool.eqb (had k (i mod n + 1) c) (had k (j mod n + 1) c)) (seq 0 n)) = n).
      { rewrite (filter_ext_in _ (fun _ => true)).
        - clear. rewrite <- (seq_length n 0) at 2. induction (seq 0 n) as [|c l IH]; [reflexivity|]. cbn. rewrite IH. reflexivity.
        - intros c Hc. apply in_seq in Hc.
          assert (Q2 : had k (i mod n + 1) c = had k (j mod n + 1) c).
          { rewrite <- (tab_nth n (had k (i mod n + 1)) c false) by lia. rewrite Q. apply tab_nth. lia. }
          rewrite Q2. apply Bool.eqb_reflx. }
      lia.
    + etransitivity; [|exact A]. f_equal. f_equal. apply filter_ext_in. intros c Hc. apply in_seq in Hc. rewrite !tab_nth by lia. reflexivity.
Qed.

(** A one-row matrix has no usable key at all. *)
Theorem C38_single_row : exists M, HadamardMatrix_new 1 = Ret M /\ forall i, HadamardMatrix_key M i = Panic.
Proof.
  destruct (C37_hadamard_orthogonal 0) as (M & EM & _). exists M. split; [exact EM|].
  intros i. apply (proj1 (C38_key_selection 0 M EM)). rewrite Nat.mod_1_r. reflexivity.
Qed.

Example C38_case : exists M, HadamardMatrix_new 4 = Ret M /\
  HadamardMatrix_key M 5 = Ret [true; true; false; false] /\ HadamardMatrix_key M 7 = Panic.
Proof. eexists. split; [vm_compute; reflexivity|]. split; reflexivity. Qed.

(** ** Axioms used *)
Print Assumptions C33_cdma_chip_errors_exact.
Print Assumptions C33_cdma_chip_errors.
Print Assumptions C33_cdma_round_trip.
Print Assumptions C33_cdma_empty_key.
Print Assumptions C34_spread_despread.
Print Assumptions C34_cdma_bpsk_round_trip.
Print Assumptions C34_cdma_bpsk_exact.
Print Assumptions C34_cdma_checks.
Print Assumptions C35_cdma_qpsk_general.
Print Assumptions C35_cdma_qpsk_round_trip.
Print Assumptions C36_crosstalk.
Print Assumptions C36_hadamard_users.
Print Assumptions C36_hadamard_design.
Print Assumptions C37_hadamard_orthogonal.
Print Assumptions C37_hadamard_entries.
Print Assumptions C37_hadamard_panics.
Print Assumptions C38_key_selection.
Print Assumptions C38_single_row.
