(** Property C90: many CDMA users at once (the test bpsk_cdma_multi_user and the figure mai_plot). *)
From Coq Require Import List Arith ZArith Reals Bool Lia Lra Psatz.
From Flocq Require Import Core BinarySingleNaN.
From Verif Require Import Base IterTheory IterModel IterProofs Spec SpecR Tab Num F64Lib LibModel LibReal LibFloat
  ChaosModel ChaosProofs ChaosMod PskModel PskChain RSums PskReal CdmaModel CdmaProofs Hadamard Props_Psk Props_Cdma
  SscaModel SscaProofs MultiModel Walsh.
Import ListNotations.
Local Open Scope R_scope.

(** ** The cross-talk of two Walsh rows *)

(** Rows u and v of a Hadamard matrix of 2^e chips, any carrier: what user v adds to the decision of
    user u is a product of one factor per bit of the row number, sin where u and v differ and cos where
    they agree, times a phase that turns by a quarter for every bit that differs. *)
Theorem C90_walsh_crosstalk :
  forall (e sample_rate symbol_rate : nat) (fc : R) (M : list (list bool)) (u v k : nat) (ku kv : list bool),
    let n := (2 ^ e)%nat in
    let sps := (sample_rate / symbol_rate)%nat in
    let spc := (sps / n)%nat in
    let carrier i := cos (2 * PI * fc * (INR i / INR sample_rate)) in
    let sign (b : bool) := if b then 1 else -1 in
    let a := 2 * PI * fc / INR sample_rate in
    let differ b := Nat.testbit (Nat.lxor u v) b in
    HadamardMatrix_new n = Ret M -> nth_error M u = Some ku -> nth_error M v = Some kv -> u <> v ->
    (1 <= sample_rate)%nat -> (1 <= spc)%nat -> sps = (n * spc)%nat -> sin a <> 0 ->
    Rsum_n sps (fun j => sign (nth (j / spc) ku false) * sign (nth (j / spc) kv false) *
                         (carrier (k * sps + j)%nat * carrier (k * sps + j)%nat)) =
    / 2 * (sin (INR spc * a) / sin a) *
    Rprod_n e (fun b => 2 * (if differ b then sin (INR (2 ^ b * spc) * a) else cos (INR (2 ^ b * spc) * a))) *
    cos (2 * INR (k * sps) * a + (INR sps - 1) * a - Rsum_n e (fun b => if differ b then 1 else 0) * (PI / 2)).
Proof.
  intros e sr sy fc M u v k ku kv n sps spc carrier sign a differ HM Hu Hv Huv Hsr Hc Hs Ha.
  unfold n in HM. rewrite new_pow2 in HM. injection HM as <-. fold n in Hu, Hv. unfold mat in Hu, Hv. rewrite tab_nth_error in Hu, Hv.
  destruct (Nat.ltb_spec u n) as [Lu|]; [|discriminate]. destruct (Nat.ltb_spec v n) as [Lv|]; [|discriminate].
  assert (Eu : ku = tab n (fun j => had e u j)) by congruence. assert (Ev : kv = tab n (fun j => had e v j)) by congruence.
  pose proof (walsh_cross e spc u v a (INR (k * sps) * a) Hc Lu Lv Huv Ha) as G. cbv zeta in G. fold n in G. rewrite <- Hs in G.
  rewrite <- (Rmult_assoc 2) in G. etransitivity; [|exact G].
  apply Rsum_n_ext. intros j Hj. assert (Ln : (j / spc < n)%nat) by (apply Nat.div_lt_upper_bound; lia).
  rewrite Eu, Ev, !tab_nth by exact Ln. unfold carrier. assert (INR sr <> 0) by (apply not_0_INR; lia).
  replace (2 * PI * fc * (INR (k * sps + j) / INR sr)) with (INR (k * sps) * a + INR j * a) by (unfold a; rewrite plus_INR; field; assumption).
  reflexivity.
Qed.

(** ** One experiment *)

Section Sent.
Context {T : Type} `{Num T}.
(** What a transmitter sends. *)
Definition sent (sr sy : nat) (fc : T) (key m : list bool) : list T :=
  match tx_cdma_bpsk_signal (of_list m) sr sy fc key with
  | Ret tx => match collect (S (length m * (sr / sy))) tx with Ret w => w | _ => [] end
  | _ => []
  end.
Lemma sent_ok sr sy (fc : T) key p m : cdma_rates sr sy fc key = Ret p ->
  exists tx, tx_cdma_bpsk_signal (of_list m) sr sy fc key = Ret tx /\ yields tx (sent sr sy fc key m) /\
    length (sent sr sy fc key m) = (length m * (sr / sy))%nat.
Proof.
  intros Ep. destruct (cdma_rates_inv _ _ _ _ _ Ep) as (-> & Hy & Hk & Hr & Hc & Hn & Hi).
  assert (Hl : (1 <= length key)%nat) by (destruct key; [contradiction|cbn; lia]).
  assert (Hsp : (1 <= sr / sy)%nat) by (apply Nat.div_le_lower_bound; nia).
  assert (E : exists tx0, tx_bpsk_signal (of_list m) sr sy fc = Ret tx0).
  { unfold tx_bpsk_signal, assert_then. rewrite usize_div_intro by lia. cbn [bind]. rewrite Hn, Hi. eexists. reflexivity. }
  destruct E as [tx0 E0]. destruct (tx_bpsk_inv _ _ _ _ _ E0) as (_ & _ & _ & Y0). specialize (Y0 Hsp _ (of_list_yields m)).
  pose proof (chip_mul_yields (sr / sy / length key) key tx0 _ _ ltac:(lia) Hk Y0) as Y.
  assert (Et : tx_cdma_bpsk_signal (of_list m) sr sy fc key = Ret (chip_mul (sr / sy / length key) key tx0)).
  { unfold tx_cdma_bpsk_signal. rewrite Ep. cbn [bind]. rewrite E0. reflexivity. }
  eexists. split; [exact Et|]. unfold sent. rewrite Et.
  rewrite (collect_yields _ _ _ Y) by (rewrite tab_length; lia). split; [exact Y|apply tab_length].
Qed.

Lemma combine_seq {A B C} (g : A * B -> C) (da : A) (db : B) : forall (l : list A) (m : list B), (length l <= length m)%nat ->
  map g (combine l m) = map (fun v => g (nth v l da, nth v m db)) (seq 0 (length l)).
Proof.
  induction l as [|x l IH]; intros [|y m] L; cbn [length] in L; try lia; try reflexivity.
  cbn [combine map length seq]. f_equal. rewrite IH by lia. rewrite <- seq_shift, map_map. apply map_ext. reflexivity.
Qed.

Lemma users_channel_sent fuel N sr sy (fc : T) datas keys :
  (length datas <= length keys)%nat ->
  (forall key, In key keys -> exists p, cdma_rates sr sy fc key = Ret p) ->
  (forall m, In m datas -> (length m * (sr / sy) < fuel)%nat) ->
  users_channel fuel N sr sy fc datas keys =
  Ret (channel N (map (fun v => sent sr sy fc (nth v keys []) (nth v datas [])) (seq 0 (length datas)))).
Proof.
  intros L Hk Hf. unfold users_channel.
  rewrite (push_rows_map _ _ (fun q => sent sr sy fc (snd q) (fst q))).
  - cbn [bind]. do 2 f_equal. rewrite (combine_seq _ [] [] datas keys L). reflexivity.
  - intros [m key] Hin. pose proof (in_combine_l _ _ _ _ Hin) as H1. pose proof (in_combine_r _ _ _ _ Hin) as H2.
    destruct (Hk key H2) as [p Ep]. destruct (sent_ok sr sy fc key p m Ep) as (tx & Et & Yt & Lt).
    rewrite Et. cbn [bind fst snd]. apply collect_yields; [exact Yt|]. rewrite Lt. apply Hf. exact H1.
Qed.

Lemma channel_length N (txs : list (list T)) : length (channel N txs) = N.
Proof.
  unfold channel. enough (G : forall acc : list T, length (fold_left channel_add txs acc) = length acc) by (rewrite G; apply repeat_length).
  induction txs as [|w txs IH]; intros acc; [reflexivity|]. cbn [fold_left]. rewrite IH. unfold channel_add. rewrite map_length.
  unfold index_from. rewrite combine_length, seq_length. apply Nat.min_id.
Qed.

(** A receiver on any channel of nsym symbols: nsym bits. *)
Lemma user_receive_any fuel nsym sr sy (fc : T) chan key p :
  cdma_rates sr sy fc key = Ret p -> length chan = (nsym * (sr / sy))%nat -> (nsym < fuel)%nat ->
  exists bits, user_receive fuel sr sy fc chan key = Ret bits /\ length bits = nsym.
Proof.
  intros Ep Lc Hf. destruct (cdma_rates_inv _ _ _ _ _ Ep) as (-> & Hy & Hk & Hr & Hc & _ & _).
  assert (Hl : (1 <= length key)%nat) by (destruct key; [contradiction|cbn; lia]).
  assert (Hsp : (1 <= sr / sy)%nat) by (apply Nat.div_le_lower_bound; nia).
  unfold user_receive, rx_cdma_bpsk_signal. rewrite Ep. cbn [bind].
  destruct (rx_bpsk_intro (chip_mul (sr / sy / length key) key (of_list chan)) sr sy fc ltac:(lia) Hsp) as (rx & Er & Yr & _).
  rewrite Er. cbn [bind].
  assert (Ec : chan = tab (nsym * (sr / sy)) (fun i => nth i chan (nofZ 0))) by (rewrite <- Lc, tab_nth_id; reflexivity).
  pose proof (chip_mul_yields (sr / sy / length key) key (of_list chan) (nsym * (sr / sy)) (fun i => nth i chan (nofZ 0)) ltac:(lia) Hk) as Y.
  rewrite <- Ec in Y at 1. specialize (Yr _ _ (Y (of_list_yields chan))).
  eexists. split; [apply (collect_yields _ _ _ Yr); rewrite tab_length; exact Hf|apply tab_length].
Qed.
End Sent.

(** ** Exactly when interference can hurt *)

Lemma accept_any {T} `{Num T} sr sy (fc : T) key m tx : tx_cdma_bpsk_signal m sr sy fc key = Ret tx -> exists p, cdma_rates sr sy fc key = Ret p.
Proof. unfold tx_cdma_bpsk_signal. intros E. destruct (cdma_rates sr sy fc key) as [p| |]; try discriminate. exists p. reflexivity. Qed.

Lemma amp_repeat b N k : (k < N)%nat -> amp (repeat b N) k = sgn b.
Proof. intros H. unfold amp. rewrite repeat_tab, tab_nth_error. apply Nat.ltb_lt in H. rewrite H. reflexivity. Qed.

(** The messages that hurt user u most in symbol k. *)
Lemma worst_messages (U nsym u k : nat) (X : nat -> R) : (u < U)%nat -> (k < nsym)%nat ->
  let msg v := repeat (if (v =? u)%nat then true else nltb (X v) 0) nsym in
  Rsum_n U (fun v => amp (msg v) k * X v) = X u - Rsum_n U (fun v => if (v =? u)%nat then 0 else Rabs (X v)).
Proof.
  intros Hu Hk msg. rewrite (Rsum_n_split _ u U Hu). unfold msg at 1. rewrite Nat.eqb_refl, amp_repeat by exact Hk. cbn [sgn].
  rewrite (Rsum_n_ext U _ (fun v => (-1) * (if (v =? u)%nat then 0 else Rabs (X v)))).
  - rewrite Rsum_n_scale. ring.
  - intros v _. destruct (v =? u)%nat eqn:Q; [ring|]. unfold msg. rewrite Q, amp_repeat by exact Hk.
    destruct (nltb (X v) 0) eqn:N; cbn [sgn].
    + apply nltb_R in N. rewrite Rabs_left by exact N. ring.
    + rewrite Rabs_pos_eq; [ring|]. destruct (Rle_lt_dec 0 (X v)) as [|L]; [assumption|]. apply nltb_R in L. congruence.
Qed.

(** Any keys of one length, any rates the transmitter accepts: bit k of user u arrives whatever
    everybody sends if and only if the cross-talk, at its worst, is below the energy of the symbol.
    C36_crosstalk is one half of this. *)
Theorem C90_crosstalk_exact :
  forall (sample_rate symbol_rate nsym U n : nat) (fc : R) (key : nat -> list bool),
    let sps := (sample_rate / symbol_rate)%nat in
    let spc := (sps / n)%nat in
    let carrier i := cos (2 * PI * fc * (INR i / INR sample_rate)) in
    let sign (b : bool) := if b then 1 else -1 in
    let cross u v k := Rsum_n sps (fun j => sign (nth (j / spc) (key u) false) * sign (nth (j / spc) (key v) false) *
                                    (carrier (k * sps + j)%nat * carrier (k * sps + j)%nat)) in
    (forall v, (v < U)%nat -> length (key v) = n /\
       exists tx, tx_cdma_bpsk_signal (of_list []) sample_rate symbol_rate fc (key v) = Ret tx) ->
    forall u k, (u < U)%nat -> (k < nsym)%nat ->
    ((forall msg : nat -> list bool, (forall v, (v < U)%nat -> length (msg v) = nsym) ->
        exists (w : nat -> list R) rx out,
          (forall v, (v < U)%nat -> exists tx,
             tx_cdma_bpsk_signal (of_list (msg v)) sample_rate symbol_rate fc (key v) = Ret tx /\ yields tx (w v)) /\
          rx_cdma_bpsk_signal (of_list (channel (nsym * sps) (map w (seq 0 U)))) sample_rate symbol_rate fc (key u) = Ret rx /\
          yields rx out /\ nth_error out k = nth_error (msg u) k) <->
     Rsum_n U (fun v => if (v =? u)%nat then 0 else Rabs (cross u v k)) < cross u u k).
Proof.
  intros sr sy nsym U n fc key sps spc carrier sign cr H u k Hu Hk.
  assert (Hrate : forall v, (v < U)%nat -> exists p, cdma_rates sr sy fc (key v) = Ret p).
  { intros v Hv. destruct (H v Hv) as (_ & tx & E). exact (accept_any _ _ _ _ _ _ E). }
  assert (Hsent : forall msg v, (v < U)%nat -> exists tx, tx_cdma_bpsk_signal (of_list (msg v)) sr sy fc (key v) = Ret tx /\
             yields tx (sent sr sy fc (key v) (msg v))).
  { intros msg v Hv. destruct (Hrate v Hv) as [p Ep]. destruct (sent_ok _ _ _ _ _ (msg v) Ep) as (tx & E1 & E2 & _). eauto. }
  split.
  - intros A.
    set (msg := fun v => repeat (if (v =? u)%nat then true else nltb (cr u v k) 0) nsym).
    destruct (A msg) as (w & rx & out & Hw & Er & Yo & E); [intros v _; apply repeat_length|].
    destruct (mu_receive sr sy nsym U fc n key msg w (fun v Hv => proj1 (H v Hv)) Hw u Hu) as (rx' & Er' & Yr').
    fold sps in Er'. rewrite Er in Er'. injection Er' as <-. rewrite (yields_det _ _ _ Yo Yr') in E.
    rewrite tab_nth_error in E. replace (k <? nsym)%nat with true in E by (symmetry; apply Nat.ltb_lt; exact Hk).
    assert (E3 : nth_error (msg u) k = Some true).
    { unfold msg. rewrite Nat.eqb_refl, repeat_tab, tab_nth_error. apply Nat.ltb_lt in Hk. rewrite Hk. reflexivity. }
    rewrite E3 in E.
    assert (E2 : nltb 0 (Rsum_n U (fun v => amp (msg v) k * cr u v k)) = true).
    { change (Some (nltb 0 (Rsum_n U (fun v => amp (msg v) k * cr u v k))) = Some true) in E. congruence. }
    apply nltb_R in E2. unfold msg in E2. rewrite (worst_messages U nsym u k (fun v => cr u v k) Hu Hk) in E2. lra.
  - intros A msg L.
    destruct (C36_crosstalk sr sy nsym U n fc key msg (fun v => sent sr sy fc (key v) (msg v))) with (u := u) as (rx & out & Er & Yo & Lo & C).
    + intros v Hv. destruct (H v Hv) as (Ln & _). split; [exact Ln|]. split; [rewrite L by exact Hv; lia|]. apply Hsent. exact Hv.
    + exact Hu.
    + exists (fun v => sent sr sy fc (key v) (msg v)), rx, out. split; [intros v Hv; apply Hsent; exact Hv|]. split; [exact Er|]. split; [exact Yo|].
      assert (Q : (k < length (msg u))%nat) by (rewrite L by exact Hu; exact Hk). apply nth_error_Some in Q.
      destruct (nth_error (msg u) k) as [b|] eqn:Eb; [|contradiction]. apply (C k b Eb). exact A.
Qed.

(** ** The rates of the tests: 1000 symbols a second, carrier 2500 Hz, so two and a half cycles a symbol *)

Lemma Rsum_n_pick (l : list nat) : forall N (f : nat -> R), NoDup l -> (forall v, In v l -> (v < N)%nat) ->
  (forall v, (v < N)%nat -> 0 <= f v) -> Rsum (map f l) <= Rsum_n N f.
Proof.
  induction l as [|x l IH]; intros N f D I P; cbn [map Rsum].
  - apply Rsum_n_nonneg. exact P.
  - rewrite (Rsum_n_split f x N) by (apply I; left; reflexivity). inversion D as [|? ? D1 D2]; subst.
    apply Rplus_le_compat_l. rewrite <- (map_ext_in (fun v => if (v =? x)%nat then 0 else f v) f).
    + apply IH; [exact D2|intros v Hv; apply I; right; exact Hv|].
      intros v Hv. destruct (v =? x)%nat; [lra|apply P; exact Hv].
    + intros v Hv. destruct (Nat.eqb_spec v x) as [->|]; [contradiction|reflexivity].
Qed.

Definition walsh_row (e i : nat) : list bool := tab (2 ^ e) (fun c => had e (i + 1) c).

Lemma walsh_keys e U : (U < 2 ^ e)%nat ->
  push_rows (seq 0 U) (HadamardMatrix_key (mat (2 ^ e) (had e))) = Ret (tab U (walsh_row e)).
Proof.
  intros HU. apply push_rows_seq. intros i Hi. unfold HadamardMatrix_key, usize_rem, mat. rewrite tab_length.
  destruct (Nat.eqb_spec (2 ^ e) 0); [lia|]. cbn [bind]. rewrite Nat.mod_small by lia. rewrite idx_tab by lia. reflexivity.
Qed.

Section Rates.
Variables (e L : nat).
Let n := (2 ^ e)%nat.
Let sps := (n * L)%nat.
Let sr := (sps * 1000)%nat.
Hypothesis HL : (2 <= L)%nat.
Hypothesis Hsps : (5 < sps)%nat /\ (Z.of_nat sps < 1000000)%Z.

Lemma r_div : (sr / 1000 = sps)%nat.
Proof. apply Nat.div_mul. discriminate. Qed.
Lemma r_spc : (sps / n = L)%nat.
Proof. unfold sps. rewrite Nat.mul_comm. apply Nat.div_mul. unfold n. pose proof (pow2_ge1 e). lia. Qed.

Lemma r_rates key : length key = n -> cdma_rates sr 1000 (2500 : R) key = Ret (sps, L).
Proof.
  intros Hl. rewrite cdma_rates_R_intro.
  - rewrite r_div, Hl, r_spc. reflexivity.
  - lia.
  - pose proof (pow2_ge1 e). intros ->. cbn in Hl. unfold n in *. lia.
  - rewrite Hl. unfold sr, sps. nia.
  - rewrite Hl. exists L. unfold sr, sps. generalize 1000%nat. intros; ring.
  - unfold sr, u64_max. lia.
  - split; [lra|]. replace 2500 with (INR (5 * 500)) by (rewrite mult_INR, !INR_IZR_INZ, <- mult_IZR; reflexivity).
    apply le_INR. apply Nat.div_le_lower_bound; [lia|]. unfold sr. lia.
Qed.

Variable key : nat -> list bool.

Lemma r_arg i : 2 * PI * 2500 * (INR i / INR sr) = INR i * (5 * PI / INR (2 ^ e * L)).
Proof.
  unfold sr. fold n. fold sps. rewrite mult_INR.
  replace (INR 1000) with 1000 by (rewrite INR_IZR_INZ; reflexivity). field. apply not_0_INR. lia.
Qed.

Lemma r_self u k : cross sr 1000 2500 n key u u k = INR sps / 2.
Proof.
  unfold cross. rewrite r_div, r_spc.
  rewrite (Rsum_n_ext sps _ (fun j => cos (2 * PI * 2500 * (INR (k * sps + j) / INR sr)) * cos (2 * PI * 2500 * (INR (k * sps + j) / INR sr)))).
  - apply (half_energy sr 2500 sps 5); [unfold sr; lia| |].
    + unfold sr. rewrite mult_INR. replace (INR 1000) with 1000 by (rewrite INR_IZR_INZ; reflexivity). ring.
    + intros [z Hz]. unfold sr in Hz. rewrite mult_INR, (INR_IZR_INZ sps), (INR_IZR_INZ 1000) in Hz.
      rewrite <- !mult_IZR in Hz. apply eq_IZR in Hz. change (Z.of_nat 1000) with 1000%Z in Hz.
      assert (HH : (z * Z.of_nat sps = 5)%Z) by lia.
      assert (HS : (6 <= Z.of_nat sps)%Z) by lia. clear - HH HS. generalize dependent (Z.of_nat sps). intros y HH HS.
      destruct (Z.le_gt_cases z 0); nia.
  - intros j _. rewrite sgn_sq. ring.
Qed.

Lemma r_cross u v k : key u = walsh_row e u -> key v = walsh_row e v -> (u + 1 < n)%nat -> (v + 1 < n)%nat ->
  cross sr 1000 2500 n key u v k =
  Rsum_n (2 ^ e * L) (fun j => sgn (had e (u + 1) (j / L)) * sgn (had e (v + 1) (j / L)) *
    (cos (IZR (5 * Z.of_nat k) * PI + INR j * (5 * PI / INR (2 ^ e * L))) * cos (IZR (5 * Z.of_nat k) * PI + INR j * (5 * PI / INR (2 ^ e * L))))).
Proof.
  intros Ku Kv Hu Hv. unfold cross. rewrite r_div, r_spc. fold n. fold sps. apply Rsum_n_ext. intros j Hj.
  assert (Ln : (j / L < n)%nat) by (apply Nat.div_lt_upper_bound; [lia|]; unfold sps in Hj; lia).
  rewrite Ku, Kv. unfold walsh_row. fold n. rewrite !tab_nth by exact Ln. rewrite r_arg. fold n. fold sps.
  replace (INR (k * sps + j) * (5 * PI / INR sps)) with (IZR (5 * Z.of_nat k) * PI + INR j * (5 * PI / INR sps)).
  - reflexivity.
  - rewrite plus_INR, (mult_INR k), mult_IZR, <- INR_IZR_INZ. field. apply not_0_INR. lia.
Qed.

(** What the receivers of the first U users answer. *)
Section Run.
Variables (U nsym fuel : nat) (datas : list (list bool)).
Hypothesis HU : (U < n)%nat.
Hypothesis Hdatas : length datas = U.
Hypothesis Hlen : forall m, In m datas -> length m = nsym.
Hypothesis Hfuel : (nsym * sps < fuel)%nat.
Hypothesis Hkeys : key = walsh_row e.
Variable K : nat.
Hypothesis HK : (U <= K < n)%nat.

Definition stat (u k : nat) : R := Rsum_n U (fun v => amp (nth v datas []) k * cross sr 1000 2500 n key u v k).

Lemma r_channel : exists chan,
  users_channel fuel (nsym * sps) sr 1000 (2500 : R) datas (tab K (walsh_row e)) = Ret chan /\
  length chan = (nsym * sps)%nat /\
  forall u, (u < U)%nat -> user_receive fuel sr 1000 (2500 : R) chan (walsh_row e u) = Ret (tab nsym (fun k => nltb 0 (stat u k))).
Proof.
  eexists. split; [apply users_channel_sent|split; [apply channel_length|]].
  - rewrite tab_length. lia.
  - intros kk Hin. unfold tab in Hin. apply in_map_iff in Hin. destruct Hin as (i & <- & _). eexists. apply r_rates. apply tab_length.
  - intros m Hm. rewrite r_div, (Hlen m Hm). exact Hfuel.
  - intros u Hu.
    set (w := fun v => sent sr 1000 2500 (key v) (nth v datas [])).
    assert (Hw : forall v, (v < U)%nat -> exists tx, tx_cdma_bpsk_signal (of_list (nth v datas [])) sr 1000 2500 (key v) = Ret tx /\ yields tx (w v)).
    { intros v Hv. destruct (sent_ok sr 1000 (2500 : R) (key v) (sps, L) (nth v datas [])) as (tx & E1 & E2 & _).
      - rewrite Hkeys. apply r_rates. apply tab_length.
      - exists tx. auto. }
    destruct (mu_receive sr 1000 nsym U 2500 n key (fun v => nth v datas []) w) with (u := u) as (rx & Er & Yr).
    + intros v _. rewrite Hkeys. apply tab_length.
    + exact Hw.
    + exact Hu.
    + unfold user_receive. rewrite r_div in Er.
      assert (Ew : map (fun v => sent sr 1000 2500 (nth v (tab K (walsh_row e)) []) (nth v datas [])) (seq 0 (length datas)) = map w (seq 0 U)).
      { rewrite Hdatas. apply map_ext_in. intros v Hv. apply in_seq in Hv. rewrite tab_nth by lia. unfold w. rewrite Hkeys. reflexivity. }
      rewrite Ew, <- Hkeys, Er. cbn [bind]. apply collect_yields; [exact Yr|]. rewrite tab_length.
      assert (1 <= sps)%nat by lia. nia.
Qed.

Lemma r_bit u k : (u < U)%nat -> (k < nsym)%nat ->
  Rsum_n U (fun v => if (v =? u)%nat then 0 else Rabs (cross sr 1000 2500 n key u v k)) < INR sps / 2 ->
  nltb 0 (stat u k) = nth k (nth u datas []) false.
Proof.
  clear HU Hfuel Hkeys K HK. intros Hu Hk B. unfold stat. rewrite (Rsum_n_split _ u U Hu), r_self.
  set (rest := Rsum_n U (fun v => if (v =? u)%nat then 0 else amp (nth v datas []) k * _)).
  assert (B1 : Rabs rest <= Rsum_n U (fun v => if (v =? u)%nat then 0 else Rabs (cross sr 1000 2500 n key u v k))).
  { apply Rsum_n_abs_bound. intros v _. destruct (v =? u)%nat; [rewrite Rabs_R0; lra|]. rewrite Rabs_mult.
    assert (A : Rabs (amp (nth v datas []) k) <= 1).
    { unfold amp. destruct (nth_error (nth v datas []) k) as [[]|]; cbn [sgn]; [rewrite Rabs_R1; lra| |rewrite Rabs_R0; lra].
      rewrite Rabs_left; lra. }
    pose proof (Rabs_pos (cross sr 1000 2500 n key u v k)). nra. }
  assert (B2 : Rabs rest < INR sps / 2) by lra. apply Rabs_def2 in B2.
  assert (Hin : In (nth u datas []) datas) by (apply nth_In; lia).
  assert (E : nth_error (nth u datas []) k = Some (nth k (nth u datas []) false)) by (apply nth_error_nth'; rewrite Hlen by exact Hin; exact Hk).
  unfold amp. rewrite E. destruct (nth k (nth u datas []) false); cbn [sgn].
  - apply nltb_R. lra.
  - destruct (nltb 0 _) eqn:F; [|reflexivity]. apply nltb_R in F. lra.
Qed.

Lemma r_message u : (u < U)%nat ->
  (forall k, (k < nsym)%nat -> Rsum_n U (fun v => if (v =? u)%nat then 0 else Rabs (cross sr 1000 2500 n key u v k)) < INR sps / 2) ->
  tab nsym (fun k => nltb 0 (stat u k)) = nth u datas [].
Proof.
  clear HU Hfuel Hkeys K HK. intros Hu B. assert (Hin : In (nth u datas []) datas) by (apply nth_In; lia).
  rewrite <- (tab_nth_id (nth u datas []) false), (Hlen _ Hin). apply tab_ext. intros k Hk. apply r_bit; auto.
Qed.
End Run.
End Rates.

(** ** The unit test *)

Lemma bits_eqb_spec a : forall b, bits_eqb a b = true <-> a = b.
Proof.
  induction a as [|x a IH]; intros [|y b]; cbn [bits_eqb]; split; intros E; try discriminate; try reflexivity.
  - apply andb_prop in E. destruct E as [E1 E2]. apply eqb_prop in E1. apply IH in E2. congruence.
  - injection E as -> ->. rewrite eqb_reflx. apply IH. reflexivity.
Qed.
Lemma rows_eqb_spec a : forall b, rows_eqb a b = true <-> a = b.
Proof.
  induction a as [|x a IH]; intros [|y b]; cbn [rows_eqb]; split; intros E; try discriminate; try reflexivity.
  - apply andb_prop in E. destruct E as [E1 E2]. apply bits_eqb_spec in E1. apply IH in E2. congruence.
  - injection E as -> ->. rewrite (proj2 (bits_eqb_spec y y) eq_refl). apply IH. reflexivity.
Qed.

Lemma usize_mul_intro a b : (Z.of_nat a * Z.of_nat b < two64)%Z -> usize_mul a b = Ret (a * b)%nat.
Proof. intros H. unfold usize_mul. apply Z.ltb_lt in H. rewrite H. reflexivity. Qed.
Lemma samples_count nb S : (nb * (S * 1000) / 1000 = nb * S)%nat.
Proof. rewrite Nat.mul_assoc. apply Nat.div_mul. discriminate. Qed.

Lemma run_test e L fuel nb datas : (2 <= L)%nat -> (5 < 2 ^ e * L)%nat -> (Z.of_nat (2 ^ e * L) < 1000000)%Z ->
  multi_user_samp_rate (2 ^ e) = (2 ^ e * L * 1000)%nat ->
  length datas = (2 ^ e - 1)%nat -> (forall m, In m datas -> length m = nb) ->
  (nb * (2 ^ e * L) < fuel)%nat -> (Z.of_nat nb <= 10 ^ 9)%Z ->
  @bpsk_cdma_multi_user R NumR fuel (2 ^ e) (2 ^ e - 1) nb datas =
  assert_then (rows_eqb (tab (2 ^ e - 1) (fun u => tab nb (fun k => nltb 0 (stat e L (walsh_row e) (2 ^ e - 1) datas u k)))) datas) (Ret tt).
Proof.
  intros HL H5 H6 Hr Hd Hl Hf Hn. pose proof (pow2_ge1 e) as P. unfold bpsk_cdma_multi_user. rewrite Hr.
  replace (2 ^ e - 1 <=? 2 ^ e)%nat with true by (symmetry; apply Nat.leb_le; lia). cbn [assert_then]. cbv zeta.
  rewrite usize_mul_intro by (unfold two64; nia). cbn [bind]. rewrite new_pow2. cbn [bind]. rewrite walsh_keys by lia. cbn [bind].
  rewrite samples_count.
  destruct (r_channel e L HL (conj H5 H6) (walsh_row e) (2 ^ e - 1) nb fuel datas) with (K := (2 ^ e - 1)%nat) as (chan & Ec & Lc & Hrx); auto; try lia.
  cbn [nofZ NumR]. rewrite Ec. cbn [bind]. unfold tab at 1.
  rewrite (push_rows_map (map (walsh_row e) (seq 0 (2 ^ e - 1)))
            (user_receive fuel (2 ^ e * L * 1000) 1000 2500 chan) (fun key => match user_receive fuel (2 ^ e * L * 1000) 1000 2500 chan key with Ret b => b | _ => [] end)).
  - cbn [bind]. rewrite map_map. do 2 f_equal. apply map_ext_in. intros u Hu. apply in_seq in Hu. rewrite Hrx by lia. reflexivity.
  - intros key Hin. apply in_map_iff in Hin. destruct Hin as (u & <- & Hu). apply in_seq in Hu. rewrite Hrx by lia. reflexivity.
Qed.

Lemma test_good e L fuel nb datas : (2 <= L)%nat -> (5 < 2 ^ e * L)%nat -> (Z.of_nat (2 ^ e * L) < 1000000)%Z ->
  multi_user_samp_rate (2 ^ e) = (2 ^ e * L * 1000)%nat ->
  length datas = (2 ^ e - 1)%nat -> (forall m, In m datas -> length m = nb) ->
  (nb * (2 ^ e * L) < fuel)%nat -> (Z.of_nat nb <= 10 ^ 9)%Z ->
  (forall u k, (u < 2 ^ e - 1)%nat -> Rsum_n (2 ^ e - 1) (fun v => if (v =? u)%nat then 0 else Rabs (cross (2 ^ e * L * 1000) 1000 2500 (2 ^ e) (walsh_row e) u v k)) < INR (2 ^ e * L) / 2) ->
  @bpsk_cdma_multi_user R NumR fuel (2 ^ e) (2 ^ e - 1) nb datas = Ret tt.
Proof.
  intros HL H5 H6 Hr Hd Hl Hf Hn B. rewrite (run_test e L) by assumption.
  match goal with |- assert_then ?b _ = _ => replace b with true; [reflexivity|] end. symmetry. apply rows_eqb_spec.
  transitivity (tab (2 ^ e - 1) (fun u => nth u datas [])); [|rewrite <- Hd; apply tab_nth_id]. apply tab_ext. intros u Hu.
  apply (r_message e L HL (conj H5 H6)) with (U := (2 ^ e - 1)%nat); auto.
Qed.

Lemma test_bad e L fuel nb : (2 <= L)%nat -> (5 < 2 ^ e * L)%nat -> (Z.of_nat (2 ^ e * L) < 1000000)%Z ->
  multi_user_samp_rate (2 ^ e) = (2 ^ e * L * 1000)%nat -> (1 <= nb)%nat ->
  (nb * (2 ^ e * L) < fuel)%nat -> (Z.of_nat nb <= 10 ^ 9)%Z -> (2 <= 2 ^ e)%nat ->
  INR (2 ^ e * L) / 2 <= Rsum_n (2 ^ e - 1) (fun v => if (v =? 0)%nat then 0 else Rabs (cross (2 ^ e * L * 1000) 1000 2500 (2 ^ e) (walsh_row e) 0 v 0)) ->
  exists datas, length datas = (2 ^ e - 1)%nat /\ (forall m, In m datas -> length m = nb) /\
    @bpsk_cdma_multi_user R NumR fuel (2 ^ e) (2 ^ e - 1) nb datas = Panic.
Proof.
  intros HL H5 H6 Hr H1 Hf Hn He B.
  set (X := fun v => cross (2 ^ e * L * 1000) 1000 2500 (2 ^ e) (walsh_row e) 0 v 0).
  exists (tab (2 ^ e - 1) (fun v => repeat (if (v =? 0)%nat then true else nltb (X v) 0) nb)).
  split; [apply tab_length|].
  assert (Hl : forall m, In m (tab (2 ^ e - 1) (fun v => repeat (if (v =? 0)%nat then true else nltb (X v) 0) nb)) -> length m = nb).
  { intros m Hm. apply in_map_iff in Hm. destruct Hm as (v & <- & _). apply repeat_length. }
  split; [exact Hl|]. rewrite (run_test e L) by (auto using tab_length).
  match goal with |- assert_then ?b _ = _ => destruct b eqn:E; [exfalso|reflexivity] end.
  apply rows_eqb_spec in E.
  assert (E0 : nth_error (nth 0 (tab (2 ^ e - 1) (fun v => repeat (if (v =? 0)%nat then true else nltb (X v) 0) nb)) []) 0 = Some true).
  { rewrite tab_nth by lia. cbn [Nat.eqb]. destruct nb; [lia|reflexivity]. }
  rewrite <- E in E0 at 1. rewrite tab_nth in E0 by lia. rewrite tab_nth_error in E0.
  replace (0 <? nb)%nat with true in E0 by (symmetry; apply Nat.ltb_lt; lia).
  assert (E1 : nltb 0 (stat e L (walsh_row e) (2 ^ e - 1) (tab (2 ^ e - 1) (fun v => repeat (if (v =? 0)%nat then true else nltb (X v) 0) nb)) 0 0) = true) by congruence.
  apply nltb_R in E1. unfold stat in E1.
  rewrite (Rsum_n_ext (2 ^ e - 1) _ (fun v => amp (repeat (if (v =? 0)%nat then true else nltb (X v) 0) nb) 0 * X v)) in E1.
  2:{ intros v Hv. rewrite tab_nth by exact Hv. reflexivity. }
  rewrite (worst_messages (2 ^ e - 1) nb 0 0 X) in E1 by lia.
  assert (X0 : X 0%nat = INR (2 ^ e * L) / 2) by (apply (r_self e L HL (conj H5 H6))).
  unfold X in E1 at 2. rewrite X0 in E1. lra.
Qed.

Ltac compute_bits :=
  repeat match goal with |- context [Nat.testbit ?x ?y] => let r := eval vm_compute in (Nat.testbit x y) in change (Nat.testbit x y) with r end.

Lemma sin80 e L : (2 ^ e * L = 80)%nat -> 5 * PI / INR (2 ^ e * L) = PI / 16.
Proof. intros ->. replace (INR 80) with 80 by (rewrite INR_IZR_INZ; reflexivity). field. Qed.

Lemma cross_bound80 e L u v k : (2 <= L)%nat -> (2 ^ e * L = 80)%nat -> (u + 1 < 2 ^ e)%nat -> (v + 1 < 2 ^ e)%nat -> u <> v ->
  Rabs (cross (2 ^ e * L * 1000) 1000 2500 (2 ^ e) (walsh_row e) u v k) <=
  / 2 * (thi true e / (19507 / 100000)) * Rprod_n e (fun b => 2 * thi (Nat.testbit (Nat.lxor (u + 1) (v + 1)) b) (e - b)).
Proof.
  intros HL H8 Hu Hv N. destruct trig80 as [C S].
  rewrite (r_cross e L HL) by (auto; lia).
  apply (W_hi e L _ (5 * Z.of_nat k)%Z); auto; try lia.
  rewrite (sin80 e L H8). lra.
Qed.

(** With 4 or 8 chips the test passes, whatever the random messages. *)
Theorem C90_multi_user_small :
  forall (fuel matrix_size num_bits : nat) (datas : list (list bool)),
    matrix_size = 4%nat \/ matrix_size = 8%nat ->
    length datas = (matrix_size - 1)%nat -> (forall m, In m datas -> length m = num_bits) ->
    (num_bits * 80 < fuel)%nat -> (Z.of_nat num_bits <= 10 ^ 9)%Z ->
    @bpsk_cdma_multi_user R NumR fuel matrix_size (matrix_size - 1) num_bits datas = Ret tt.
Proof.
  intros fuel n nb datas [-> | ->] Hd Hl Hf Hn.
  - change 4%nat with (2 ^ 2)%nat in *. apply (test_good 2 20); [lia|cbn; lia|reflexivity|apply (f_equal (fun x => x * 1000)%nat (eq_refl : 80 = 2 ^ 2 * 20)%nat)|exact Hd|exact Hl|exact Hf|exact Hn|].
    intros u k Hu.
    eapply Rle_lt_trans.
    + apply (Rsum_n_le _ _ (fun v => if (v =? u)%nat then 0 else / 2 * (thi true 2 / (19507 / 100000)) *
        Rprod_n 2 (fun b => 2 * thi (Nat.testbit (Nat.lxor (u + 1) (v + 1)) b) (2 - b)))).
      intros v Hv. destruct (Nat.eqb_spec v u) as [->|D]; [lra|]. apply cross_bound80; [lia|reflexivity|cbn in Hu |- *; lia|cbn in Hv |- *; lia|auto].
    + replace (INR (2 ^ 2 * 20)) with 80 by (rewrite INR_IZR_INZ; reflexivity).
      change (2 ^ 2 - 1)%nat with 3%nat in *. destruct u as [|[|[|u]]]; [..|lia]; cbn [Rsum_n Nat.eqb Rprod_n]; compute_bits; cbn [Nat.sub thi]; lra.
  - change 8%nat with (2 ^ 3)%nat in *. apply (test_good 3 10); [lia|cbn; lia|reflexivity|apply (f_equal (fun x => x * 1000)%nat (eq_refl : 80 = 2 ^ 3 * 10)%nat)|exact Hd|exact Hl|exact Hf|exact Hn|].
    intros u k Hu.
    eapply Rle_lt_trans.
    + apply (Rsum_n_le _ _ (fun v => if (v =? u)%nat then 0 else / 2 * (thi true 3 / (19507 / 100000)) *
        Rprod_n 3 (fun b => 2 * thi (Nat.testbit (Nat.lxor (u + 1) (v + 1)) b) (3 - b)))).
      intros v Hv. destruct (Nat.eqb_spec v u) as [->|D]; [lra|]. apply cross_bound80; [lia|reflexivity|cbn in Hu |- *; lia|cbn in Hv |- *; lia|auto].
    + replace (INR (2 ^ 3 * 10)) with 80 by (rewrite INR_IZR_INZ; reflexivity).
      change (2 ^ 3 - 1)%nat with 7%nat in *. destruct u as [|[|[|[|[|[|[|u]]]]]]]; [..|lia]; cbn [Rsum_n Nat.eqb Rprod_n]; compute_bits; cbn [Nat.sub thi]; lra.
Qed.

(** What a user adds at least, when an even number of bits of the row numbers differ. *)
Definition crosstalk_lo (e : nat) (shi clo : R) (s : nat) : R :=
  / 2 * (tlo true e / shi) * Rprod_n e (fun b => 2 * tlo (Nat.testbit s b) (e - b)) * clo.

Lemma bad_sum e L slo shi clo (l : list nat) U : (2 <= L)%nat -> (5 < 2 ^ e * L)%nat -> (Z.of_nat (2 ^ e * L) < 1000000)%Z ->
  (2 <= 2 ^ e)%nat -> (U < 2 ^ e)%nat ->
  0 < slo <= sin (5 * PI / INR (2 ^ e * L)) -> sin (5 * PI / INR (2 ^ e * L)) <= shi -> 0 <= clo <= cos (5 * PI / INR (2 ^ e * L)) ->
  NoDup l -> Forall (fun v => (1 <= v < U)%nat /\ exists h, Rsum_n e (fun b => if Nat.testbit (Nat.lxor 1 (v + 1)) b then 1 else 0) = 2 * INR h) l ->
  INR (2 ^ e * L) / 2 <= Rsum (map (fun v => crosstalk_lo e shi clo (Nat.lxor 1 (v + 1))) l) ->
  INR (2 ^ e * L) / 2 <= Rsum_n U (fun v => if (v =? 0)%nat then 0 else Rabs (cross (2 ^ e * L * 1000) 1000 2500 (2 ^ e) (walsh_row e) 0 v 0)).
Proof.
  intros HL H5 H6 He HU Hs Hs2 Hc D F B. rewrite Forall_forall in F.
  eapply Rle_trans; [exact B|]. clear B.
  eapply Rle_trans; [|apply (Rsum_n_pick l); [exact D|intros v Hv; destruct (F v Hv); lia|intros v _; destruct (v =? 0)%nat; [lra|apply Rabs_pos]]].
  clear D. induction l as [|v l IH]; cbn [map Rsum]; [lra|]. apply Rplus_le_compat; [|apply IH; intros; apply F; right; assumption].
  destruct (F v (or_introl eq_refl)) as [Hv [h Hh]]. destruct (Nat.eqb_spec v 0) as [|_]; [lia|].
  rewrite (r_cross e L HL) by (auto; lia).
  apply (W_lo e L _ (5 * Z.of_nat 0)%Z) with (slo := slo) (h := h); auto; try lia; lra.
Qed.

Ltac even_bits h := split; [lia|exists h; cbn [Rsum_n]; compute_bits; cbn [INR]; lra].
Ltac distinct := repeat constructor; cbn [In]; intuition discriminate.
Ltac cross_numbers := cbn [map Rsum]; unfold crosstalk_lo; cbn [Rprod_n]; compute_bits; cbn [Nat.sub tlo]; lra.

(** Sixteen chips and 80 samples a symbol: rows 8, 11, 13 and 14 against row 1. *)
Lemma bad16 : INR (2 ^ 4 * 5) / 2 <= Rsum_n (2 ^ 4 - 1) (fun v => if (v =? 0)%nat then 0 else Rabs (cross (2 ^ 4 * 5 * 1000) 1000 2500 (2 ^ 4) (walsh_row 4) 0 v 0)).
Proof.
  destruct trig80 as [C S].
  apply (bad_sum 4 5 0.19507 0.19511 0.98078 [7; 10; 12; 13]%nat); [lia|cbn; lia|reflexivity|cbn; lia|cbn; lia| | | | | |].
  - rewrite (sin80 4 5 eq_refl). lra.
  - rewrite (sin80 4 5 eq_refl). lra.
  - rewrite (sin80 4 5 eq_refl). lra.
  - distinct.
  - repeat constructor; cbn [Nat.pow Nat.mul Nat.add Nat.sub]; try lia; try (exists 1%nat; cbn [Rsum_n]; compute_bits; cbn [INR]; lra); exists 2%nat; cbn [Rsum_n]; compute_bits; cbn [INR]; lra.
  - replace (INR (2 ^ 4 * 5)) with 80 by (rewrite INR_IZR_INZ; reflexivity). cross_numbers.
Qed.

Lemma bad32 : INR (2 ^ 5 * 8) / 2 <= Rsum_n (2 ^ 5 - 1) (fun v => if (v =? 0)%nat then 0 else Rabs (cross (2 ^ 5 * 8 * 1000) 1000 2500 (2 ^ 5) (walsh_row 5) 0 v 0)).
Proof.
  destruct trig256 as [C S].
  assert (Ea : 5 * PI / INR (2 ^ 5 * 8) = 5 * PI / 256) by (replace (INR (2 ^ 5 * 8)) with 256 by (rewrite INR_IZR_INZ; reflexivity); reflexivity).
  apply (bad_sum 5 8 0.06127 0.06137 0.99811 [30; 20; 18; 21; 27]%nat); [lia|cbn; lia|reflexivity|cbn; lia|cbn; lia| | | | | |].
  - rewrite Ea. lra.
  - rewrite Ea. lra.
  - rewrite Ea. lra.
  - distinct.
  - repeat constructor; cbn [Nat.pow Nat.mul Nat.add Nat.sub]; try lia; try (exists 1%nat; cbn [Rsum_n]; compute_bits; cbn [INR]; lra); exists 2%nat; cbn [Rsum_n]; compute_bits; cbn [INR]; lra.
  - replace (INR (2 ^ 5 * 8)) with 256 by (rewrite INR_IZR_INZ; reflexivity). cross_numbers.
Qed.

Lemma bad64 : INR (2 ^ 6 * 4) / 2 <= Rsum_n (2 ^ 6 - 1) (fun v => if (v =? 0)%nat then 0 else Rabs (cross (2 ^ 6 * 4 * 1000) 1000 2500 (2 ^ 6) (walsh_row 6) 0 v 0)).
Proof.
  destruct trig256 as [C S].
  assert (Ea : 5 * PI / INR (2 ^ 6 * 4) = 5 * PI / 256) by (replace (INR (2 ^ 6 * 4)) with 256 by (rewrite INR_IZR_INZ; reflexivity); reflexivity).
  apply (bad_sum 6 4 0.06127 0.06137 0.99811 [60; 40; 46; 36; 58]%nat); [lia|cbn; lia|reflexivity|cbn; lia|cbn; lia| | | | | |].
  - rewrite Ea. lra.
  - rewrite Ea. lra.
  - rewrite Ea. lra.
  - distinct.
  - repeat constructor; cbn [Nat.pow Nat.mul Nat.add Nat.sub]; try lia; try (exists 1%nat; cbn [Rsum_n]; compute_bits; cbn [INR]; lra); exists 2%nat; cbn [Rsum_n]; compute_bits; cbn [INR]; lra.
  - replace (INR (2 ^ 6 * 4)) with 256 by (rewrite INR_IZR_INZ; reflexivity). cross_numbers.
Qed.

(** The figure: 64 chips, 128 samples a symbol. *)
Lemma bad_mai : INR (2 ^ 6 * 2) / 2 <= Rsum_n 63 (fun v => if (v =? 0)%nat then 0 else Rabs (cross (2 ^ 6 * 2 * 1000) 1000 2500 (2 ^ 6) (walsh_row 6) 0 v 0)).
Proof.
  destruct trig128 as [C S].
  assert (Ea : 5 * PI / INR (2 ^ 6 * 2) = 5 * PI / 128) by (replace (INR (2 ^ 6 * 2)) with 128 by (rewrite INR_IZR_INZ; reflexivity); reflexivity).
  apply (bad_sum 6 2 0.12236 0.12244 0.99247 [60; 40; 46; 36; 58]%nat); [lia|cbn; lia|reflexivity|cbn; lia|cbn; lia| | | | | |].
  - rewrite Ea. lra.
  - rewrite Ea. lra.
  - rewrite Ea. lra.
  - distinct.
  - repeat constructor; cbn [Nat.pow Nat.mul Nat.add Nat.sub]; try lia; try (exists 1%nat; cbn [Rsum_n]; compute_bits; cbn [INR]; lra); exists 2%nat; cbn [Rsum_n]; compute_bits; cbn [INR]; lra.
  - replace (INR (2 ^ 6 * 2)) with 128 by (rewrite INR_IZR_INZ; reflexivity). cross_numbers.
Qed.

(** With 16, 32 or 64 chips there are messages on which the test fails: the claim of its assertion,
    that every user always receives what was sent, is false. *)
Theorem C90_multi_user_large_refuted :
  forall (fuel matrix_size num_bits : nat),
    matrix_size = 16%nat \/ matrix_size = 32%nat \/ matrix_size = 64%nat ->
    (1 <= num_bits)%nat -> (num_bits * 256 < fuel)%nat -> (Z.of_nat num_bits <= 10 ^ 9)%Z ->
    exists datas, length datas = (matrix_size - 1)%nat /\ (forall m, In m datas -> length m = num_bits) /\
      @bpsk_cdma_multi_user R NumR fuel matrix_size (matrix_size - 1) num_bits datas = Panic.
Proof.
  intros fuel n nb [-> | [-> | ->]] H1 Hf Hn.
  - change 16%nat with (2 ^ 4)%nat. apply (test_bad 4 5); [lia|cbn; lia|reflexivity|apply (f_equal (fun x => x * 1000)%nat (eq_refl : 80 = 2 ^ 4 * 5)%nat)|exact H1|change (2 ^ 4 * 5)%nat with 80%nat; lia|exact Hn|cbn; lia|apply bad16].
  - change 32%nat with (2 ^ 5)%nat. apply (test_bad 5 8); [lia|cbn; lia|reflexivity|apply (f_equal (fun x => x * 1000)%nat (eq_refl : 256 = 2 ^ 5 * 8)%nat)|exact H1|change (2 ^ 5 * 8)%nat with 256%nat; lia|exact Hn|cbn; lia|apply bad32].
  - change 64%nat with (2 ^ 6)%nat. apply (test_bad 6 4); [lia|cbn; lia|reflexivity|apply (f_equal (fun x => x * 1000)%nat (eq_refl : 256 = 2 ^ 6 * 4)%nat)|exact H1|change (2 ^ 6 * 4)%nat with 256%nat; lia|exact Hn|cbn; lia|apply bad64].
Qed.

(** ** The figure *)

Lemma fold_add_sum l : forall a, fold_left Nat.add l a = (a + list_sum l)%nat.
Proof. induction l as [|x l IH]; intros a; cbn [fold_left list_sum fold_right]; [lia|]. rewrite IH. unfold list_sum. lia. Qed.
Lemma errors_none (m : list bool) : list_sum (map (fun '(a, b) => if Bool.eqb a b then 0%nat else 1%nat) (combine m m)) = 0%nat.
Proof. induction m as [|x m IH]; [reflexivity|]. cbn [combine map list_sum fold_right]. rewrite eqb_reflx. exact IH. Qed.

Definition bit_errors (rx tx : list bool) : nat := list_sum (map (fun '(a, b) => if Bool.eqb a b then 0%nat else 1%nat) (combine rx tx)).

(** One point: every receiver answers, and the rates are averaged. *)
Lemma mai_average_any {T} `{Num T} fuel sr sy (fc : T) datas keys chan uc (bits : nat -> list bool) :
  (uc <= length keys)%nat -> (uc <= length datas)%nat ->
  (forall i, (i < uc)%nat -> user_receive fuel sr sy fc chan (nth i keys []) = Ret (bits i)) ->
  mai_average fuel sr sy fc datas keys chan uc =
  Ret (ndiv (nsum (tab uc (fun i => ndiv (nofnat (bit_errors (bits i) (nth i datas []))) (nofnat (length (bits i)))))) (nofnat uc)).
Proof.
  intros Lk Ld Hb. unfold mai_average.
  rewrite (push_rows_seq uc _ (fun i => ndiv (nofnat (bit_errors (bits i) (nth i datas []))) (nofnat (length (bits i))))).
  - cbn [bind]. rewrite tab_length. reflexivity.
  - intros i Hi. unfold idx. rewrite (nth_error_nth' keys []) by lia. cbn [bind]. rewrite Hb by exact Hi. cbn [bind].
    rewrite (nth_error_nth' datas []) by lia. cbn [bind]. rewrite fold_add_sum. reflexivity.
Qed.

Lemma in_firstn {A} (x : A) k l : In x (firstn k l) -> In x l.
Proof. intros H. rewrite <- (firstn_skipn k l). apply in_or_app. left. exact H. Qed.

Lemma nth_firstn_low {A} (l : list A) (d : A) : forall k i, (i < k)%nat -> nth i (firstn k l) d = nth i l d.
Proof. induction l as [|x l IH]; intros [|k] [|i] H; cbn; try lia; try reflexivity. apply IH. lia. Qed.
Lemma h128 : (5 < 2 ^ 6 * 2)%nat /\ (Z.of_nat (2 ^ 6 * 2) < 1000000)%Z.
Proof. split; [cbn; lia|reflexivity]. Qed.

(** The whole figure exactly: point i is the average over users 0 ... i-1 of what they got wrong while
    users 0 ... i were sending. *)
Lemma mai_points fuel nb datas : length datas = 63%nat -> (forall m, In m datas -> length m = nb) ->
  (nb * 128 < fuel)%nat -> (Z.of_nat nb <= 10 ^ 9)%Z ->
  @mai_plot R NumR fuel 63 nb (128 * 1000) datas =
  Ret (tab 63 (fun i => Rsum (tab i (fun u => INR (bit_errors (tab nb (fun k => nltb 0 (stat 6 2 (walsh_row 6) (i + 1) (firstn (i + 1) datas) u k))) (nth u datas [])) / INR nb)) / INR i)).
Proof.
  intros Hd Hl Hf Hn. unfold mai_plot. cbv zeta. rewrite usize_mul_intro by (unfold two64; lia). cbn [bind].
  change (63 + 1)%nat with (2 ^ 6)%nat. rewrite new_pow2. cbn [bind]. rewrite walsh_keys by (cbn; lia). cbn [bind].
  rewrite samples_count. apply push_rows_seq. intros i Hi.
  destruct (r_channel 6 2 ltac:(lia) h128 (walsh_row 6) (i + 1) nb fuel (firstn (i + 1) datas)) with (K := 63%nat) as (chan & Ec & Lc & Hrx).
  - cbn. lia.
  - rewrite firstn_length. lia.
  - intros m Hm. apply Hl. exact (in_firstn _ _ _ Hm).
  - change (2 ^ 6 * 2)%nat with 128%nat. exact Hf.
  - reflexivity.
  - cbn. lia.
  - change (2 ^ 6 * 2)%nat with 128%nat in Ec, Hrx. cbn [nofZ NumR]. rewrite Ec. cbn [bind].
    rewrite (mai_average_any fuel _ _ _ _ _ _ _ (fun u => tab nb (fun k => nltb 0 (stat 6 2 (walsh_row 6) (i + 1) (firstn (i + 1) datas) u k)))).
    + apply f_equal. rewrite nsum_R. unfold nofnat. cbn [ndiv nofZ NumR]. rewrite <- INR_IZR_INZ. apply (f_equal (fun x => x / INR i)). apply f_equal.
      apply tab_ext. intros u Hu. rewrite tab_length, <- !INR_IZR_INZ. reflexivity.
    + rewrite tab_length. lia.
    + lia.
    + intros u Hu. rewrite tab_nth by lia. apply Hrx. lia.
Qed.

Lemma mai_cross_0 u v k : (u < 31)%nat -> (v < 31)%nat -> u <> v ->
  cross (128 * 1000) 1000 2500 (2 ^ 6) (walsh_row 6) u v k = 0.
Proof.
  intros Hu Hv D. change (128 * 1000)%nat with (2 ^ 6 * 2 * 1000)%nat.
  rewrite (r_cross 6 2) by (auto; cbn; lia).
  match goal with |- ?w = 0 => enough (Rabs w <= 0) by (pose proof (Rabs_pos w); destruct (Req_dec w 0) as [|Q]; [assumption|apply Rabs_pos_lt in Q; lra]) end.
  destruct trig128 as [C S].
  assert (Ea : 5 * PI / INR (2 ^ 6 * 2) = 5 * PI / 128) by (replace (INR (2 ^ 6 * 2)) with 128 by (rewrite INR_IZR_INZ; reflexivity); reflexivity).
  eapply Rle_trans; [apply (W_hi 6 2 _ (5 * Z.of_nat k)%Z ltac:(lia) eq_refl 0.12236)|].
  - rewrite Ea. lra.
  - cbn. lia.
  - cbn. lia.
  - lia.
  - cbn [Rprod_n Nat.sub]. replace (Nat.testbit (Nat.lxor (u + 1) (v + 1)) 5) with false; [cbn [thi]; lra|].
    rewrite Nat.lxor_spec. rewrite !Nat.bits_above_log2; [reflexivity| |]; apply Nat.log2_lt_pow2; cbn; lia.
Qed.

(** Up to the 31st point nobody is ever wrong, whatever the messages: rows 1 to 31 agree in the top
    bit, whose factor is the cosine of two and a half half-turns. *)
Theorem C90_mai_clean :
  forall (fuel num_bits : nat) (datas : list (list bool)),
    length datas = 63%nat -> (forall m, In m datas -> length m = num_bits) ->
    (num_bits * 128 < fuel)%nat -> (Z.of_nat num_bits <= 10 ^ 9)%Z ->
    exists bers, @mai_plot R NumR fuel 63 num_bits (128 * 1000) datas = Ret bers /\ length bers = 63%nat /\
      (forall i, (1 <= i <= 30)%nat -> nth_error bers i = Some 0) /\
      Forall (fun b => 0 <= b) bers.
Proof.
  intros fuel nb datas Hd Hl Hf Hn. eexists. split; [apply mai_points; assumption|]. split; [apply tab_length|]. split.
  - intros i Hi. rewrite tab_nth_error. replace (i <? 63)%nat with true by (symmetry; apply Nat.ltb_lt; lia). f_equal.
    enough (E : Rsum (tab i (fun u => INR (bit_errors (tab nb (fun k => nltb 0 (stat 6 2 (walsh_row 6) (i + 1) (firstn (i + 1) datas) u k))) (nth u datas [])) / INR nb)) = 0)
      by (rewrite E; unfold Rdiv; ring).
    rewrite Rsum_tab. apply Rsum_n_0. intros u Hu.
    rewrite (r_message 6 2 ltac:(lia) h128 (walsh_row 6) (i + 1) nb (firstn (i + 1) datas)).
    + rewrite nth_firstn_low by lia.
      unfold bit_errors. rewrite errors_none. cbn [INR]. unfold Rdiv. ring.
    + rewrite firstn_length. lia.
    + intros m Hm. apply Hl. exact (in_firstn _ _ _ Hm).
    + lia.
    + intros k Hk. rewrite Rsum_n_0.
      * replace (INR (2 ^ 6 * 2)) with 128 by (rewrite INR_IZR_INZ; reflexivity). lra.
      * intros v Hv. destruct (Nat.eqb_spec v u) as [|D]; [reflexivity|].
        change (2 ^ 6 * 2 * 1000)%nat with (128 * 1000)%nat. rewrite mai_cross_0 by lia. apply Rabs_R0.
  - apply Forall_forall. intros b Hb. apply in_map_iff in Hb. destruct Hb as (i & <- & _).
    assert (Q : forall a c, 0 <= a -> 0 <= a / INR c).
    { intros a c Ha. destruct c as [|c]; [cbn [INR]; unfold Rdiv; rewrite Rinv_0; lra|]. apply Rmult_le_pos; [exact Ha|]. left. apply Rinv_0_lt_compat, lt_0_INR. lia. }
    apply Q. rewrite Rsum_tab. apply Rsum_n_nonneg. intros u _. apply Q. apply pos_INR.
Qed.

Lemma errors_some (a b : list bool) k : forall x y, nth_error a k = Some x -> nth_error b k = Some y -> x <> y -> (1 <= bit_errors a b)%nat.
Proof.
  revert b k. induction a as [|p a IH]; intros [|q b] [|k] x y Ha Hb D; cbn [nth_error] in Ha, Hb; try discriminate.
  - injection Ha as ->. injection Hb as ->. unfold bit_errors. cbn [combine map list_sum fold_right]. destruct x, y; try congruence; cbn; lia.
  - specialize (IH b k x y Ha Hb D). unfold bit_errors in *. cbn [combine map list_sum fold_right]. unfold list_sum in IH. lia.
Qed.

(** At the last point, 63 users, some messages do produce errors. *)
Theorem C90_mai_errors :
  forall (fuel num_bits : nat), (1 <= num_bits)%nat -> (num_bits * 128 < fuel)%nat -> (Z.of_nat num_bits <= 10 ^ 9)%Z ->
    exists datas bers b, length datas = 63%nat /\ (forall m, In m datas -> length m = num_bits) /\
      @mai_plot R NumR fuel 63 num_bits (128 * 1000) datas = Ret bers /\ nth_error bers 62 = Some b /\ 0 < b.
Proof.
  intros fuel nb H1 Hf Hn.
  set (X := fun v => cross (2 ^ 6 * 2 * 1000) 1000 2500 (2 ^ 6) (walsh_row 6) 0 v 0).
  set (datas := tab 63 (fun v => repeat (if (v =? 0)%nat then true else nltb (X v) 0) nb)).
  assert (Hl : forall m, In m datas -> length m = nb).
  { intros m Hm. apply in_map_iff in Hm. destruct Hm as (v & <- & _). apply repeat_length. }
  assert (Hd : length datas = 63%nat) by apply tab_length.
  exists datas. eexists. eexists. split; [exact Hd|]. split; [exact Hl|]. split; [apply mai_points; assumption|].
  split; [rewrite tab_nth_error; reflexivity|].
  assert (P62 : 0 < INR 62) by (apply lt_0_INR; lia). assert (Pn : 0 < INR nb) by (apply lt_0_INR; lia).
  apply Rmult_lt_0_compat; [|apply Rinv_0_lt_compat; exact P62].
  rewrite Rsum_tab. change (62 + 1)%nat with 63%nat. rewrite firstn_all2 by lia.
  set (f := fun u => INR (bit_errors (tab nb (fun k => nltb 0 (stat 6 2 (walsh_row 6) 63 datas u k))) (nth u datas [])) / INR nb).
  assert (Pf : forall u, 0 <= f u) by (intros u; apply Rmult_le_pos; [apply pos_INR|left; apply Rinv_0_lt_compat; exact Pn]).
  apply Rlt_le_trans with (f 0%nat); [|apply (Rsum_n_ge 62 f 0); [lia|intros; apply Pf]].
  apply Rmult_lt_0_compat; [|apply Rinv_0_lt_compat; exact Pn].
  apply lt_0_INR. apply (errors_some _ _ 0 false true); [| |discriminate].
  - rewrite tab_nth_error. replace (0 <? nb)%nat with true by (symmetry; apply Nat.ltb_lt; lia). f_equal.
    destruct (nltb 0 (stat 6 2 (walsh_row 6) 63 datas 0 0)) eqn:E; [|reflexivity]. exfalso.
    apply nltb_R in E. unfold stat in E.
    rewrite (Rsum_n_ext 63 _ (fun v => amp (repeat (if (v =? 0)%nat then true else nltb (X v) 0) nb) 0 * X v)) in E.
    2:{ intros v Hv. unfold datas. rewrite tab_nth by exact Hv. reflexivity. }
    rewrite (worst_messages 63 nb 0 0 X) in E by lia.
    assert (X0 : X 0%nat = INR (2 ^ 6 * 2) / 2) by (unfold X; exact (r_self 6 2 (le_n 2) h128 (walsh_row 6) 0%nat 0%nat)).
    rewrite X0 in E. pose proof bad_mai as B. fold X in B. unfold X in E. lra.
  - unfold datas. rewrite tab_nth by lia. cbn [Nat.eqb]. destruct nb; [lia|reflexivity].
Qed.

(** In floating point the figure has 63 values, and the first, an average over no users, is not a
    number. *)
Theorem C90_mai_first_f64 :
  forall (libm : Libm) (fuel num_bits : nat) (datas : list (list bool)), let num := NumF libm in
    length datas = 63%nat -> (forall m, In m datas -> length m = num_bits) ->
    (num_bits * 128 < fuel)%nat -> (Z.of_nat num_bits <= 10 ^ 9)%Z ->
    exists bers b, @mai_plot F64 num fuel 63 num_bits (128 * 1000) datas = Ret bers /\ length bers = 63%nat /\
      nth_error bers 0 = Some b /\ is_nan b = true.
Proof.
  intros libm fuel nb datas num Hd Hl Hf Hn.
  assert (Hsr : Z.of_nat (128 * 1000) = 128000%Z) by lia.
  assert (Hrate : forall i, exists p, @cdma_rates F64 num (128 * 1000) 1000 (f64_ofZ 2500) (walsh_row 6 i) = Ret p).
  { intros i. destruct (proj1 (C34_cdma_checks libm (of_list []) (of_list []) (128 * 1000) 1000 (f64_ofZ 2500) (walsh_row 6 i) ltac:(rewrite Hsr; reflexivity))) as (tx & _ & E & _).
    - unfold walsh_row. rewrite tab_length. change (2 ^ 6)%nat with 64%nat.
      split; [lia|]. split; [discriminate|]. split; [lia|]. split; [exists 2%nat; lia|]. right.
      replace (Z.of_nat (128 * 1000 / 2)) with 64000%Z by (rewrite Nat2Z.inj_div, Hsr; reflexivity). vm_compute. reflexivity.
    - exact (accept_any _ _ _ _ _ _ E). }
  assert (Hdiv : (128 * 1000 / 1000 = 128)%nat) by (apply Nat.div_mul; discriminate).
  unfold mai_plot. cbv zeta. rewrite usize_mul_intro by (unfold two64; lia). cbn [bind].
  change (63 + 1)%nat with (2 ^ 6)%nat. rewrite new_pow2. cbn [bind]. rewrite walsh_keys by (cbn; lia). cbn [bind].
  rewrite samples_count. change (@nofZ F64 num) with f64_ofZ.
  set (point := fun uc => let? chan := users_channel fuel (nb * 128) (128 * 1000) 1000 (f64_ofZ 2500) (firstn (uc + 1) datas) (tab 63 (walsh_row 6)) in
                mai_average fuel (128 * 1000) 1000 (f64_ofZ 2500) datas (tab 63 (walsh_row 6)) chan uc).
  assert (G : forall uc, (uc < 63)%nat -> exists b, point uc = Ret b /\ (uc = 0%nat -> is_nan b = true)).
  { intros uc Hu. unfold point. rewrite users_channel_sent.
    - cbn [bind]. set (chan := channel _ _).
      assert (Lc : length chan = (nb * (128 * 1000 / 1000))%nat) by (rewrite Hdiv; apply channel_length).
      assert (Hb : exists bits : nat -> list bool, forall i, (i < uc)%nat -> user_receive fuel (128 * 1000) 1000 (f64_ofZ 2500) chan (nth i (tab 63 (walsh_row 6)) []) = Ret (bits i)).
      { exists (fun i => match user_receive fuel (128 * 1000) 1000 (f64_ofZ 2500) chan (walsh_row 6 i) with Ret b => b | _ => [] end).
        intros i Hi. rewrite tab_nth by lia. destruct (Hrate i) as [p Ep].
        destruct (user_receive_any fuel nb (128 * 1000) 1000 (f64_ofZ 2500) chan (walsh_row 6 i) p Ep Lc ltac:(lia)) as (b & Eb & _). rewrite Eb. reflexivity. }
      destruct Hb as [bits Hb]. rewrite (mai_average_any fuel _ _ _ datas _ chan uc bits); [|rewrite tab_length; lia|lia|exact Hb].
      eexists. split; [reflexivity|]. intros ->. reflexivity.
    - rewrite firstn_length, tab_length. lia.
    - intros key Hk. apply in_map_iff in Hk. destruct Hk as (i & <- & _). apply Hrate.
    - intros m Hm. rewrite Hdiv, (Hl m) by exact (in_firstn _ _ _ Hm). exact Hf. }
  exists (tab 63 (fun uc => match point uc with Ret b => b | _ => f64_ofZ 0 end)). eexists. split.
  - apply (push_rows_seq 63 point). intros uc Hu. destruct (G uc Hu) as (b & E & _). rewrite E. reflexivity.
  - split; [apply tab_length|]. split; [rewrite tab_nth_error; reflexivity|].
    destruct (G 0%nat ltac:(lia)) as (b & E & Nb). rewrite E. apply Nb. reflexivity.
Qed.

(** ** Cases *)

(** Three users with four chips, two bits each. *)
Example C90_small_case :
  @bpsk_cdma_multi_user R NumR (2 * 100) 4 3 2 [[true; false]; [false; false]; [true; true]] = Ret tt.
Proof.
  apply (C90_multi_user_small (2 * 100) 4 2); [left; reflexivity|reflexivity| |lia|lia].
  intros m [<-|[<-|[<-|[]]]]; reflexivity.
Qed.
(** One bit each. *)
Example C90_large_case :
  exists datas, length datas = 15%nat /\ @bpsk_cdma_multi_user R NumR (3 * 100) 16 15 1 datas = Panic.
Proof.
  destruct (C90_multi_user_large_refuted (3 * 100) 16 1) as (d & L & _ & E); [left; reflexivity|lia|lia|lia|].
  exists d. split; assumption.
Qed.
(** Rows 1 and 2 of the 4 by 4 matrix at the rates of the test: five of forty. *)
Example C90_crosstalk_case :
  let sps := (80 * 1000 / 1000)%nat in
  let carrier i := cos (2 * PI * 2500 * (INR i / INR (80 * 1000))) in
  let sign (b : bool) := if b then 1 else -1 in
  5 <= Rabs (Rsum_n sps (fun j => sign (nth (j / 20) [true; false; true; false] false) * sign (nth (j / 20) [true; true; false; false] false) *
                         (carrier (0 * sps + j)%nat * carrier (0 * sps + j)%nat))).
Proof.
  intros sps carrier sign. assert (Hs : sps = 80%nat) by (apply Nat.div_mul; discriminate).
  assert (Ea : 2 * PI * 2500 / INR (80 * 1000) = PI / 16).
  { rewrite mult_INR. replace (INR 80) with 80 by (rewrite INR_IZR_INZ; reflexivity). replace (INR 1000) with 1000 by (rewrite INR_IZR_INZ; reflexivity). field. }
  destruct trig80 as [C S]. destruct (trig_table true 2 ltac:(lia)) as [T1 _]. destruct (trig_table true 1 ltac:(lia)) as [T2 _]. cbn [tlo] in T1, T2.
  assert (P20 : INR 20 * (PI / 16) = 5 * PI / INR (2 ^ 2)) by (replace (INR 20) with 20 by (rewrite INR_IZR_INZ; reflexivity); cbn [Nat.pow Nat.mul Nat.add INR]; field).
  assert (P40 : INR 40 * (PI / 16) = 5 * PI / INR (2 ^ 1)) by (replace (INR 40) with 40 by (rewrite INR_IZR_INZ; reflexivity); cbn [Nat.pow Nat.mul Nat.add INR]; field).
  assert (Hc : (sps / 2 ^ 2 = 20)%nat) by (rewrite Hs; reflexivity).
  pose proof (C90_walsh_crosstalk 2 (80 * 1000) 1000 2500 (mat (2 ^ 2) (had 2)) 1 2 0
    [true; false; true; false] [true; true; false; false] (new_pow2 2) eq_refl eq_refl ltac:(discriminate) ltac:(lia)) as G.
  cbv zeta in G. fold sps in G. rewrite Hc, Ea in G. fold sign in G.
  specialize (G ltac:(lia) Hs ltac:(lra)). match type of G with ?l = _ => match goal with |- _ <= Rabs ?r => change (5 <= Rabs l) end end. rewrite G. clear G.
  cbn [Rprod_n Rsum_n]. compute_bits. cbv iota. change (2 ^ 0 * 20)%nat with 20%nat. change (2 ^ 1 * 20)%nat with 40%nat.
  rewrite P20, P40, Hs. replace (INR 80) with 80 by (rewrite INR_IZR_INZ; reflexivity). change (INR (0 * 80)) with 0.
  replace (2 * 0 * (PI / 16) + (80 - 1) * (PI / 16) - (0 + 1 + 1) * (PI / 2)) with (- (PI / 16) + 2 * INR 2 * PI) by (cbn [INR]; field).
  rewrite cos_period, cos_neg, !Rabs_mult. unfold Rdiv at 1. rewrite Rabs_mult.
  rewrite (Rabs_pos_eq (/ 2)), (Rabs_pos_eq (/ sin (PI / 16))), (Rabs_pos_eq 2), (Rabs_pos_eq (cos (PI / 16))), Rabs_R1 by (try lra; left; apply Rinv_0_lt_compat; lra).
  set (A := Rabs (sin (5 * PI / INR (2 ^ 2)))) in *. set (B := Rabs (sin (5 * PI / INR (2 ^ 1)))) in *.
  assert (I : 1 / 0.19511 <= / sin (PI / 16)) by (unfold Rdiv; rewrite Rmult_1_l; apply Rinv_le_contravar; lra).
  set (J := / sin (PI / 16)) in *.
  assert (Q1 : 0.49 <= A * A) by nra. assert (Q2 : 5.02 <= J * cos (PI / 16)) by nra.
  replace (/ 2 * (A * J) * (1 * (2 * A) * (2 * B)) * cos (PI / 16)) with (2 * (A * A) * B * (J * cos (PI / 16))) by field.
  assert (Q0 : 0.4999 <= A * A) by nra. assert (Q3 : 0.4999 <= A * A * B) by nra. nra.
Qed.
(** The figure with the messages of one bit, all true. *)
Example C90_mai_case :
  exists bers, @mai_plot R NumR (3 * 100) 63 1 (128 * 1000) (repeat [true] 63) = Ret bers /\ nth_error bers 30 = Some 0.
Proof.
  destruct (C90_mai_clean (3 * 100) 1 (repeat [true] 63)) as (bers & E & _ & Z & _).
  - apply repeat_length.
  - intros m Hm. apply repeat_spec in Hm. subst m. reflexivity.
  - lia.
  - lia.
  - exists bers. split; [exact E|]. apply Z. lia.
Qed.
Example C90_mai_f64_case : let num := NumF libm_square in
  exists bers b, @mai_plot F64 num (3 * 100) 63 1 (128 * 1000) (repeat [true] 63) = Ret bers /\ nth_error bers 0 = Some b /\ is_nan b = true.
Proof.
  intros num. destruct (C90_mai_first_f64 libm_square (3 * 100) 1 (repeat [true] 63)) as (bers & b & E & _ & Z & N).
  - apply repeat_length.
  - intros m Hm. apply repeat_spec in Hm. subst m. reflexivity.
  - lia.
  - lia.
  - exists bers, b. auto.
Qed.

(** ** Axioms used *)
Print Assumptions C90_walsh_crosstalk.
Print Assumptions C90_crosstalk_exact.
Print Assumptions C90_multi_user_small.
Print Assumptions C90_multi_user_large_refuted.
Print Assumptions C90_mai_clean.
Print Assumptions C90_mai_errors.
Print Assumptions C90_mai_first_f64.
