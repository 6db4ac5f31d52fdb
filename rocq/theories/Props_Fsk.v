(** Properties C49 and C50: the FSK transmitters (src/fsk.rs) and the non-coherent FSK link (src/fm.rs); C59: the parameters of
    the repository's own FSK test; C60: the FM transmitter. *)
From Coq Require Import List Arith ZArith Reals Bool Lia Lra Psatz.
From Flocq Require Import Core BinarySingleNaN.
From Verif Require Import Base IterTheory IterModel IterProofs Spec SpecR Tab Num F64Lib LibModel LibReal LibFloat ChaosModel PskModel PskChain RSums PskReal
  FskModel FskReal Props_Lib Props_Psk.
Import ListNotations.

(** ** C49 *)

Section AnyArithmetic.
Context {T : Type} `{Num T}.

Lemma fsk_wave (message : Iter bool) m (sr n : nat) (lo hi : T) : 1 <= n -> yields message m ->
  yields (imap (fun '(idx, freq) =>
                let time := ndiv (nofnat idx) (nofnat sr) in
                ncos (nmul (nmul (nmul (nofZ 2) npi) freq) time))
             (ienum (inflate n (imap (fun bit : bool => if bit then hi else lo) message))))
    (tab (length m * n) (fun i => ncos (nmul (nmul (nmul (nofZ 2) npi) (if nth (i / n) m false then hi else lo)) (ndiv (nofnat i) (nofnat sr))))).
Proof.
  intros Hn Hm.
  match goal with |- yields (imap ?f _) _ => pose proof (imap_yields f _ _
    (ienum_yields _ _ (inflate_yields n _ _ Hn (imap_yields (fun bit : bool => if bit then hi else lo) _ _ Hm)))) as Y end.
  rewrite (repeat_each_list _ _ ((fun bit : bool => if bit then hi else lo) false)), tab_index, tab_map, map_length in Y.
  refine (eq_ind _ (fun x => yields _ x) Y _ _). apply tab_ext. intros i Hi. cbn zeta.
  pose proof (map_nth (fun bit : bool => if bit then hi else lo) m false (i / n)) as E. cbn beta in E |- *. rewrite E. reflexivity.
Qed.

(** Sample i is the cosine of the frequency of bit i/sps, at the time i/sample_rate; over any arithmetic. *)
Theorem C49_bfsk_wave :
  forall (message : Iter bool) m (sample_rate symbol_rate : nat) (freq_low freq_high : T) tx,
    let sps := sample_rate / symbol_rate in
    yields message m -> symbol_rate <= sample_rate ->
    tx_bfsk_signal message sample_rate symbol_rate freq_low freq_high = Ret tx ->
    exists w, yields tx w /\ length w = length m * sps /\
      forall k b j, nth_error m k = Some b -> j < sps ->
        nth_error w (k * sps + j) =
        Some (ncos (nofZ 2 * npi * (if b then freq_high else freq_low) * (nofnat (k * sps + j) / nofnat sample_rate)))%num.
Proof.
  intros message m sr sy lo hi tx sps Hm Hle Htx. unfold tx_bfsk_signal, usize_div in Htx.
  destruct (Nat.eqb_spec sy 0) as [->|Hsy]; [discriminate|]. cbn [bind] in Htx. fold sps in Htx.
  destruct (nyquist_ok sr hi); [|discriminate]. cbn [assert_then] in Htx. destruct (is_int _) in Htx; [|discriminate]. cbn [assert_then] in Htx.
  injection Htx as <-.
  assert (Hn : 1 <= sps) by (apply Nat.div_le_lower_bound; lia).
  eexists. split; [apply fsk_wave; [exact Hn|exact Hm]|]. split; [apply tab_length|].
  intros k b j Hk Hj. assert (k < length m) by (apply nth_error_Some; congruence).
  rewrite tab_nth_error. replace (k * sps + j <? length m * sps) with true by (symmetry; apply Nat.ltb_lt; nia).
  rewrite block_div by exact Hj. rewrite (nth_error_nth _ _ false Hk). reflexivity.
Qed.

(** The frequency count is ignored; a frequency list is used from its first two entries only, high first. *)
Theorem C49_mfsk_ignores_the_count :
  forall (message : Iter bool) (sample_rate symbol_rate : nat) (freq_low freq_high : T) (num_freqs : nat),
    tx_mfsk_signal message sample_rate symbol_rate freq_low freq_high num_freqs =
    tx_bfsk_signal message sample_rate symbol_rate freq_low freq_high.
Proof. reflexivity. Qed.

Theorem C49_fsk_uses_two_frequencies :
  forall (message : Iter bool) (sample_rate symbol_rate : nat) (freqs : list T),
    (length freqs < 2 -> tx_fsk_signal message sample_rate symbol_rate freqs = Panic) /\
    (forall f0 f1 rest, freqs = f0 :: f1 :: rest ->
       tx_fsk_signal message sample_rate symbol_rate freqs = tx_bfsk_signal message sample_rate symbol_rate f1 f0).
Proof.
  intros message sr sy freqs. split.
  - intros L. unfold tx_fsk_signal, usize_div. destruct (sy =? 0); [reflexivity|].
    destruct freqs as [|f0 [|f1 r]]; [reflexivity|reflexivity|cbn in L; lia].
  - intros f0 f1 rest ->. reflexivity.
Qed.

(** The receiver is a stub. *)
Theorem C49_receiver_is_a_stub :
  forall (signal : Iter T) (sample_rate symbol_rate : nat) (freq_low freq_high : T),
    yields (rx_bfsk_signal signal sample_rate symbol_rate freq_low freq_high) [true].
Proof. intros. apply of_list_yields. Qed.

(** So it loses every message but one. *)
Theorem C49_bfsk_round_trip_refuted :
  forall (message : Iter bool) m (sample_rate symbol_rate : nat) (freq_low freq_high : T) tx,
    yields message m -> tx_bfsk_signal message sample_rate symbol_rate freq_low freq_high = Ret tx ->
    m <> [true] -> ~ yields (rx_bfsk_signal tx sample_rate symbol_rate freq_low freq_high) m.
Proof.
  intros message m sr sy lo hi tx _ _ Hne Y. apply Hne. eapply yields_det; [exact Y|]. apply of_list_yields.
Qed.

End AnyArithmetic.

(** When the transmitter runs, in binary64; freq_low is not checked at all. *)
Theorem C49_bfsk_checks :
  forall (libm : Libm) (message : Iter bool) (sample_rate symbol_rate : nat) (freq_low freq_high : F64),
    let num := NumF libm in
    (Z.of_nat sample_rate < 2 ^ 53)%Z -> (Z.of_nat symbol_rate < 2 ^ 53)%Z ->
    let ok := symbol_rate <> 0 /\ Nat.divide symbol_rate sample_rate /\
              (is_nan freq_high = true \/ Bltb freq_high (f64_ofZ (Z.of_nat (sample_rate / 2) + 1)) = true) in
    (ok -> exists tx, tx_bfsk_signal message sample_rate symbol_rate freq_low freq_high = Ret tx) /\
    (~ ok -> tx_bfsk_signal message sample_rate symbol_rate freq_low freq_high = Panic).
Proof.
  intros libm message sr sy lo hi num Hsr Hsy ok.
  assert (Hh : (Z.of_nat (sr / 2) + 1 < 2 ^ 53)%Z).
  { destruct (Nat.eq_dec sr 0) as [->|]; [reflexivity|].
    assert (sr / 2 < sr)%nat by (apply Nat.div_lt; lia). lia. }
  assert (Hny : nyquist_ok sr hi = true <-> (is_nan hi = true \/ Bltb hi (f64_ofZ (Z.of_nat (sr / 2) + 1)) = true)).
  { unfold nyquist_ok. change (@nto_u64 F64 num) with f64_to_u64. rewrite Z.leb_le. apply u64_le_iff. exact Hh. }
  assert (Hint : sy <> 0 -> is_int (ndiv (nofnat sr) (nofnat sy)) = true <-> Nat.divide sy sr).
  { intros Hb. unfold nofnat. change (@ndiv F64 num) with (@Bdiv 53 1024 prec53 emax1024 mode_NE).
    change (@nofZ F64 num) with f64_ofZ. unfold num. rewrite is_int_div_pos by lia. split.
    - intros [q Hq]. exists (Z.to_nat q). assert (0 <= q)%Z by nia. apply Nat2Z.inj. rewrite Nat2Z.inj_mul, Z2Nat.id by assumption. lia.
    - intros [q ->]. exists (Z.of_nat q). lia. }
  unfold tx_bfsk_signal, usize_div. destruct (Nat.eqb_spec sy 0) as [E0|Hs0].
  - split; [intros [? _]; contradiction|reflexivity].
  - cbn [bind]. specialize (Hint Hs0). split.
    + intros (_ & Hd & Hf). rewrite (proj2 Hny Hf). cbn [assert_then]. rewrite (proj2 Hint Hd). eexists. reflexivity.
    + intros Hno. destruct (nyquist_ok sr hi) eqn:En; [|reflexivity]. cbn [assert_then].
      destruct (is_int _) eqn:Ei; [|reflexivity]. exfalso. apply Hno. split; [exact Hs0|]. split; [apply Hint; reflexivity|apply Hny; reflexivity].
Qed.

Example C49_case : let num := NumF libm_square in
  exists tx w, tx_bfsk_signal (of_list [true; false]) 8 2 (f64_ofZ 1) (f64_ofZ 2) = Ret tx /\ yields tx w /\ length w = 8.
Proof.
  intros num. destruct (proj1 (C49_bfsk_checks libm_square (of_list [true; false]) 8 2 (f64_ofZ 1) (f64_ofZ 2) eq_refl eq_refl)) as (tx & E).
  { split; [lia|]. split; [exists 4; reflexivity|]. right. vm_compute. reflexivity. }
  destruct (C49_bfsk_wave _ _ 8 2 (f64_ofZ 1) (f64_ofZ 2) tx (of_list_yields [true; false]) ltac:(lia) E) as (w & Y & L & _).
  exists tx, w. auto.
Qed.

(** ** C60 *)

Lemma scan_tab {A} (add : A -> A -> A) d n f : scan add d (tab n f) = tab n (fun i => fold_left add (map f (seq 0 (i + 1))) d).
Proof.
  apply nth_error_inj. intros i. rewrite scan_nth, tab_nth_error, tab_length. destruct (Nat.ltb_spec i n) as [L|L]; [|reflexivity].
  rewrite firstn_tab. unfold tab. do 4 f_equal. lia.
Qed.

(** The FM transmitter over any arithmetic: the phase is the carrier's plus 0.05 times the running sum of the repeated input. *)
Theorem C60_fm_wave :
  forall (T : Type) (num : Num T) (signal : Iter T) l (sample_rate symbol_rate : nat) (fc : T) (d : T),
    let sps := sample_rate / symbol_rate in
    yields signal l -> 1 <= symbol_rate <= sample_rate ->
    exists tx w, tx_fm signal sample_rate symbol_rate fc = Ret tx /\ yields tx w /\ length w = length l * sps /\
      forall i, i < length l * sps ->
        nth_error w i = Some (ncos (nofZ 2 * npi * fc * (nofnat i / nofnat sample_rate) +
          nlit 5 100 * fold_left nadd (map (fun j => nth (j / sps) l d) (seq 0 (i + 1))) (nofZ 0)))%num.
Proof.
  intros T num signal l sr sy fc d sps Hl Hs. unfold tx_fm, usize_div. destruct (Nat.eqb_spec sy 0); [lia|]. cbn [bind]. fold sps.
  assert (Hn : 1 <= sps) by (apply Nat.div_le_lower_bound; lia).
  pose proof (integrate_yields (nofZ 0) nadd _ _ (inflate_yields sps _ _ Hn Hl)) as Y. rewrite (repeat_each_list _ _ d) in Y.
  rewrite scan_tab in Y.
  eexists. eexists. split; [reflexivity|]. split; [apply imap_yields; apply ienum_yields; exact Y|].
  rewrite tab_index, tab_map, tab_length. split; [reflexivity|]. intros i Hi. rewrite tab_nth_error.
  rewrite (proj2 (Nat.ltb_lt _ _) Hi). reflexivity.
Qed.

Example C60_case : exists tx w, tx_fm (of_list [1; -1]%R) 8 2 1%R = Ret tx /\ yields tx w /\ length w = 8.
Proof.
  destruct (C60_fm_wave R NumR (of_list [1; -1]%R) _ 8 2 1%R 0%R (of_list_yields _) ltac:(lia)) as (tx & w & E & Y & L & _).
  exists tx, w. auto.
Qed.

(** ** C50 *)

Local Open Scope R_scope.

(** The tones, in radians per sample. *)
Definition tone (sample_rate : nat) (fc : R) (b : bool) : R := 2 * PI * (fc + (if b then 1 else -1) * (5 / 100 * fc / 2)) / INR sample_rate.

(** By how much the right correlator wins on symbol k (times 4). *)
Definition fsk_margin (sample_rate n : nat) (fc : R) (k : nat) (b : bool) : R :=
  let w := tone sample_rate fc b in
  let v := tone sample_rate fc (negb b) in
  let c := cos (2 * w * INR (k * n) + w * (INR n - 1)) in
  (INR n * INR n + kernel n (2 * w) * kernel n (2 * w) + 2 * INR n * kernel n (2 * w) * c) -
  (kernel n (w - v) * kernel n (w - v) + kernel n (w + v) * kernel n (w + v) + 2 * kernel n (w - v) * kernel n (w + v) * c).

Lemma fsk_decision_R (message : Iter bool) m (sr sy : nat) (fc : R) :
  let n := (sr / sy)%nat in
  yields message m -> (1 <= sy <= sr)%nat ->
  exists tx rx, tx_fsk message sr sy fc = Ret tx /\ rx_fsk tx sr sy fc = Ret rx /\
    yields rx (tab (length m) (fun k => let b := nth k m false in
      if Rle_dec 0 ((if b then 1 else -1) * (fsk_margin sr n fc k b / 4)) then true else false)).
Proof.
  intros n Hm Hs. unfold tx_fsk, rx_fsk, usize_div. destruct (Nat.eqb_spec sy 0); [lia|]. cbn [bind]. fold n.
  assert (Hn : (1 <= n)%nat) by (apply Nat.div_le_lower_bound; lia).
  assert (Hsr : INR sr <> 0) by (apply not_0_INR; lia).
  set (sep := nmul (nlit 5 100) fc).
  assert (Esep : sep = 5 / 100 * fc) by reflexivity.
  eexists. eexists. split; [reflexivity|]. split; [reflexivity|].
  pose proof (imap_yields (fun '(idx, sig) =>
               let time := ndiv (nofnat idx) (nofnat sr) in
               ncos (nmul (nmul (nmul (nofZ 2) npi) (nadd fc (nmul sig (ndiv sep (nofZ 2))))) time)) _ _
    (ienum_yields _ _ (inflate_yields n _ _ Hn (imap_yields bit_to_nrz _ _ Hm)))) as Y.
  rewrite (repeat_each_list _ _ (bit_to_nrz false)), tab_index, tab_map, map_length in Y.
  pose proof (ienum_yields _ _ (chunks_yields n _ _ Hn Y)) as Z. rewrite chunk_list_tab, tab_index in Z by exact Hn.
  apply (imap_yields (fun '(idx, chunk) => fsk_decide sr fc sep idx chunk)) in Z. rewrite tab_map in Z.
  refine (eq_ind _ (fun x => yields _ x) Z _ _). apply tab_ext. intros k Hk. cbn zeta beta iota.
  set (b := nth k m false).
  rewrite (tab_ext n _ (fun j => cos (tone sr fc b * INR (k * n) + tone sr fc b * INR j))).
  2:{ intros j Hj. rewrite block_div, map_nth by exact Hj. fold b. rewrite nrz_R. cbn [ncos nmul nadd ndiv nofZ npi NumR]. f_equal.
      unfold tone, nofnat. cbn [nofZ NumR]. rewrite <- !INR_IZR_INZ, plus_INR, Esep. unfold Rdiv. ring. }
  rewrite fsk_decide_R. cbn zeta.
  assert (Tp : 2 * PI * (fc + sep / 2) / INR sr = tone sr fc true) by (unfold tone; rewrite Esep; f_equal; ring).
  assert (Tm : 2 * PI * (fc - sep / 2) / INR sr = tone sr fc false) by (unfold tone; rewrite Esep; f_equal; field).
  rewrite !Tp, !Tm.
  pose proof (tone_energy n (tone sr fc b * INR (k * n)) (tone sr fc true * INR k) (tone sr fc b) (tone sr fc true)) as E1.
  pose proof (tone_energy n (tone sr fc b * INR (k * n)) (tone sr fc false * INR k) (tone sr fc b) (tone sr fc false)) as E2.
  cbn zeta in E1, E2.
  set (P := _ + _) in |- * at 1. set (Q := _ + _) in |- * at 1.
  assert (EE : P - Q = (if b then 1 else -1) * (fsk_margin sr n fc k b / 4)).
  { replace (P - Q) with ((4 * P - 4 * Q) / 4) by field. unfold P, Q. rewrite E1, E2. unfold fsk_margin. cbn zeta.
    replace (2 * (tone sr fc b * INR (k * n))) with (2 * tone sr fc b * INR (k * n)) by ring.
    destruct b; cbn [negb].
    - replace (tone sr fc true - tone sr fc true) with 0 by ring. replace (tone sr fc true + tone sr fc true) with (2 * tone sr fc true) by ring.
      rewrite kernel_0. field.
    - replace (tone sr fc false - tone sr fc false) with 0 by ring. replace (tone sr fc false + tone sr fc false) with (2 * tone sr fc false) by ring.
      rewrite kernel_0. field. }
  destruct (Rle_dec 0 (P - Q)), (Rle_dec 0 ((if b then 1 else -1) * (fsk_margin sr n fc k b / 4))); try reflexivity; exfalso; lra.
Qed.

(** What the non-coherent receiver decides, exactly: bit k is right if and only if the energy margin is on its side. *)
Theorem C50_fsk_decision :
  forall (message : Iter bool) m (sample_rate symbol_rate : nat) (fc : R),
    let n := (sample_rate / symbol_rate)%nat in
    yields message m -> (1 <= symbol_rate <= sample_rate)%nat ->
    exists tx rx bits, tx_fsk message sample_rate symbol_rate fc = Ret tx /\ rx_fsk tx sample_rate symbol_rate fc = Ret rx /\
      yields rx bits /\ length bits = length m /\
      forall k b, nth_error m k = Some b ->
        (nth_error bits k = Some b <->
         if b then 0 <= fsk_margin sample_rate n fc k b else 0 < fsk_margin sample_rate n fc k b).
Proof.
  intros message m sr sy fc n Hm Hs. destruct (fsk_decision_R message m sr sy fc Hm Hs) as (tx & rx & Et & Er & Y).
  exists tx, rx. eexists. split; [exact Et|]. split; [exact Er|]. split; [exact Y|]. split; [apply tab_length|].
  intros k b Hk. assert (Lk : (k < length m)%nat) by (apply nth_error_Some; congruence).
  rewrite tab_nth_error, (proj2 (Nat.ltb_lt _ _) Lk), (nth_error_nth _ _ false Hk). cbn zeta. fold n.
  destruct b; destruct (Rle_dec _ _) as [L|L]; (split; [intros E|intros D]); try discriminate; try reflexivity; try lra; try (exfalso; lra); try (f_equal; lra).
Qed.

(** If what the wrong correlator can collect is less than what the right one is sure of, every bit arrives. *)
Theorem C50_fsk_round_trip :
  forall (message : Iter bool) m (sample_rate symbol_rate : nat) (fc : R),
    let n := (sample_rate / symbol_rate)%nat in
    yields message m -> (1 <= symbol_rate <= sample_rate)%nat ->
    (forall b, Rabs (kernel n (2 * tone sample_rate fc b)) +
               Rabs (kernel n (tone sample_rate fc true - tone sample_rate fc false)) +
               Rabs (kernel n (tone sample_rate fc true + tone sample_rate fc false)) < INR n) ->
    exists tx rx, tx_fsk message sample_rate symbol_rate fc = Ret tx /\ rx_fsk tx sample_rate symbol_rate fc = Ret rx /\ yields rx m.
Proof.
  intros message m sr sy fc n Hm Hs Hk. destruct (C50_fsk_decision message m sr sy fc Hm Hs) as (tx & rx & bits & Et & Er & Y & L & D).
  exists tx, rx. split; [exact Et|]. split; [exact Er|]. replace m with bits; [exact Y|].
  apply nth_error_inj. intros k. destruct (nth_error m k) as [b|] eqn:E; [|apply nth_error_None; rewrite L; apply nth_error_None; exact E].
  apply D; [exact E|]. fold n. enough (0 < fsk_margin sr n fc k b) by (destruct b; lra).
  unfold fsk_margin. set (c := cos _). assert (Hc : -1 <= c <= 1) by apply COS_bound. specialize (Hk b).
  assert (Ed : Rabs (kernel n (tone sr fc true - tone sr fc false)) = Rabs (kernel n (tone sr fc b - tone sr fc (negb b)))).
  { destruct b; cbn [negb]; [reflexivity|]. rewrite <- kernel_neg. do 2 f_equal. ring. }
  assert (Es : kernel n (tone sr fc true + tone sr fc false) = kernel n (tone sr fc b + tone sr fc (negb b))).
  { destruct b; cbn [negb]; [reflexivity|]. f_equal. ring. }
  rewrite Ed, Es in Hk. clear - Hk Hc.
  set (p := kernel n (2 * tone sr fc b)) in *. set (d := kernel n (_ - _)) in *. set (s := kernel n (_ + _)) in *. set (N := INR n) in *.
  assert (HN : 0 <= N) by apply pos_INR.
  assert (A1 : N * N + p * p + 2 * N * p * c >= (N - Rabs p) * (N - Rabs p)).
  { assert (- Rabs p <= p * c). { unfold Rabs. destruct (Rcase_abs p); nra. }
    assert (Rabs p * Rabs p = p * p) by (unfold Rabs; destruct (Rcase_abs p); ring). nra. }
  assert (A2 : d * d + s * s + 2 * d * s * c <= (Rabs d + Rabs s) * (Rabs d + Rabs s)).
  { assert (d * s * c <= Rabs d * Rabs s). { rewrite <- Rabs_mult. unfold Rabs. destruct (Rcase_abs (d * s)); nra. }
    assert (Rabs d * Rabs d = d * d) by (unfold Rabs; destruct (Rcase_abs d); ring).
    assert (Rabs s * Rabs s = s * s) by (unfold Rabs; destruct (Rcase_abs s); ring). nra. }
  pose proof (Rabs_pos d). pose proof (Rabs_pos s). pose proof (Rabs_pos p). nra.
Qed.

(** Orthogonal tones: the carrier makes 20, 40, 60, ... cycles per symbol and the upper tone stays below half the
    sample rate. *)
Lemma kernel_whole n x (z : Z) : 0 < x / 2 < PI -> INR n * (x / 2) = IZR z * PI -> kernel n x = 0.
Proof.
  intros Hx E. pose proof (kernel_closed n x) as K. rewrite E in K.
  assert (S0 : sin (IZR z * PI) = 0) by (apply sin_eq_0_1; exists z; reflexivity).
  pose proof (sin_gt_0 (x / 2) (proj1 Hx) (proj2 Hx)). nra.
Qed.

Theorem C50_fsk_orthogonal_round_trip :
  forall (message : Iter bool) m (sample_rate symbol_rate : nat) (fc : R) (a : nat),
    yields message m -> (1 <= symbol_rate <= sample_rate)%nat ->
    (1 <= a)%nat -> fc * INR (sample_rate / symbol_rate) = 20 * INR a * INR sample_rate ->
    fc * (1 + 5 / 100 / 2) < INR sample_rate / 2 ->
    exists tx rx, tx_fsk message sample_rate symbol_rate fc = Ret tx /\ rx_fsk tx sample_rate symbol_rate fc = Ret rx /\ yields rx m.
Proof.
  intros message m sr sy fc a Hm Hs Ha Hfc Hny. apply (C50_fsk_round_trip message m sr sy fc Hm Hs).
  set (n := (sr / sy)%nat) in *. assert (Hn : (1 <= n)%nat) by (apply Nat.div_le_lower_bound; lia).
  assert (N1 : 1 <= INR n) by (apply (le_INR 1); exact Hn). assert (S1 : 1 <= INR sr) by (apply (le_INR 1); lia).
  assert (A1 : 1 <= INR a) by (apply (le_INR 1); exact Ha). pose proof PI_RGT_0 as PP.
  assert (F0 : 0 < fc) by nra.
  assert (Zs : forall q x (z : Z), 0 < q < INR sr -> x / 2 = PI * (q / INR sr) -> q * INR n = IZR z * INR sr -> kernel n x = 0).
  { intros q x z Hq Ex Ez. apply (kernel_whole n x z).
    - rewrite Ex. assert (0 < q / INR sr < 1).
      { split; [apply Rdiv_lt_0_compat; lra|]. apply Rmult_lt_reg_r with (INR sr); [lra|]. unfold Rdiv. rewrite Rmult_assoc, Rinv_l by lra. lra. }
      nra.
    - rewrite Ex. replace (INR n * (PI * (q / INR sr))) with (PI * (q * INR n) / INR sr) by (unfold Rdiv; ring). rewrite Ez. field. lra. }
  assert (K1 : kernel n (tone sr fc true - tone sr fc false) = 0).
  { apply (Zs (5 / 100 * fc) _ (Z.of_nat a) ltac:(lra)); [unfold tone; field; lra|]. rewrite <- INR_IZR_INZ. lra. }
  assert (K2 : kernel n (tone sr fc true + tone sr fc false) = 0).
  { apply (Zs (2 * fc) _ (40 * Z.of_nat a)%Z ltac:(lra)); [unfold tone; field; lra|]. rewrite mult_IZR, <- INR_IZR_INZ. lra. }
  intros b. rewrite K1, K2. assert (K3 : kernel n (2 * tone sr fc b) = 0).
  { destruct b.
    - apply (Zs (2 * (fc + 5 / 100 * fc / 2)) _ (41 * Z.of_nat a)%Z ltac:(lra)); [unfold tone; field; lra|]. rewrite mult_IZR, <- INR_IZR_INZ. lra.
    - apply (Zs (2 * (fc - 5 / 100 * fc / 2)) _ (39 * Z.of_nat a)%Z ltac:(lra)); [unfold tone; field; lra|]. rewrite mult_IZR, <- INR_IZR_INZ. lra. }
  rewrite K3, !Rabs_R0. lra.
Qed.

Example C50_case : exists tx rx, tx_fsk (of_list [true; false; false]) 480 3 60 = Ret tx /\ rx_fsk tx 480 3 60 = Ret rx /\
  yields rx [true; false; false].
Proof.
  apply (C50_fsk_orthogonal_round_trip _ _ _ _ _ 1 (of_list_yields _)).
  - split; apply Nat.leb_le; reflexivity.
  - lia.
  - change (480 / 3)%nat with 160%nat. rewrite !INR_IZR_INZ. cbn [Z.of_nat Pos.of_succ_nat Pos.succ]. lra.
  - rewrite INR_IZR_INZ. cbn [Z.of_nat Pos.of_succ_nat Pos.succ]. lra.
Qed.

(** ** C59 *)

Lemma PI_bounds : 314 / 100 < PI < 315 / 100.
Proof.
  pose proof (Machin.PI_2_3_7_ineq 1) as [A B]. cbn [Nat.mul Nat.add] in A, B.
  unfold AltSeries.tg_alt, Machin.PI_2_3_7_tg, Ratan.Ratan_seq in A, B. cbn in A, B. lra.
Qed.

Lemma sin_lower x : 0 <= x <= PI -> x - x * x * x / 6 <= sin x.
Proof.
  intros [H1 H2]. destruct (sin_bound x 0 H1 H2) as [B _]. unfold sin_approx, sin_term in B. cbn in B. lra.
Qed.
Lemma sin_upper x : 0 <= x -> sin x <= x.
Proof. intros [H| <-]; [apply Rlt_le, sin_lt_x; exact H|rewrite sin_0; lra]. Qed.
Lemma cos_lower x : - PI / 2 <= x <= PI / 2 -> 1 - x * x / 2 <= cos x.
Proof.
  intros [H1 H2]. destruct (cos_bound x 0 H1 H2) as [B _]. unfold cos_approx, cos_term in B. cbn in B. lra.
Qed.

Lemma test_margin sr : 1800 / INR sr = 2 / 49 -> fsk_margin sr 49 1800 0 false <= 0.
Proof.
  intros Hr. unfold fsk_margin. cbn [negb]. set (u := PI / 490). pose proof PI_bounds as PB.
  assert (Ew : tone sr 1800 false = 39 * u).
  { unfold tone, u. replace (1800 + -1 * (5 / 100 * 1800 / 2)) with (39 / 40 * 1800) by lra.
    replace (2 * PI * (39 / 40 * 1800) / INR sr) with (2 * PI * (39 / 40) * (1800 / INR sr)) by (unfold Rdiv; ring).
    rewrite Hr. field. }
  assert (Ev : tone sr 1800 true = 41 * u).
  { unfold tone, u. replace (1800 + 1 * (5 / 100 * 1800 / 2)) with (41 / 40 * 1800) by lra.
    replace (2 * PI * (41 / 40 * 1800) / INR sr) with (2 * PI * (41 / 40) * (1800 / INR sr)) by (unfold Rdiv; ring).
    rewrite Hr. field. }
  rewrite Ew, Ev. replace (INR 49) with 49 by (rewrite INR_IZR_INZ; reflexivity). change (0 * 49)%nat with 0%nat. cbn [INR].
  assert (N49 : INR 49 = 49) by (rewrite INR_IZR_INZ; reflexivity).
  assert (Hu : 64 / 10000 < u < 643 / 100000) by (unfold u; lra). assert (Hpi : PI = 490 * u) by (unfold u; field).
  set (d := kernel 49 (39 * u - 41 * u)). set (p := kernel 49 (2 * (39 * u))).
  assert (Ks : kernel 49 (39 * u + 41 * u) = 0).
  { apply (kernel_whole 49 _ 4); [lra|]. rewrite N49, Hpi. lra. }
  assert (Kd : sin u * d = sin (49 * u)).
  { unfold d. replace (39 * u - 41 * u) with (- (2 * u)) by ring. rewrite kernel_neg. pose proof (kernel_closed 49 (2 * u)) as K. rewrite N49 in K.
    replace (2 * u / 2) with u in K by field. exact K. }
  assert (Kp : sin (39 * u) * p = - sin (49 * u)).
  { pose proof (kernel_closed 49 (2 * (39 * u))) as K. rewrite N49 in K. replace (2 * (39 * u) / 2) with (39 * u) in K by field. fold p in K. rewrite K.
    rewrite <- sin_neg. replace (49 * (39 * u)) with (- (49 * u) + 2 * PI * IZR 2) by (rewrite Hpi; cbn; ring). apply sin_add_2pi. }
  replace (cos (2 * (39 * u) * 0 + 39 * u * (49 - 1))) with (cos (88 * u)).
  2:{ rewrite <- cos_neg. replace (2 * (39 * u) * 0 + 39 * u * (49 - 1)) with (- (88 * u) + 2 * PI * IZR 2) by (rewrite Hpi; cbn; ring). symmetry. apply cos_add_2pi. }
  rewrite Ks. set (c := cos (88 * u)). assert (Hc : 1 - (88 * u) * (88 * u) / 2 <= c) by (apply cos_lower; lra).
  assert (Hc1 : c <= 1) by apply COS_bound.
  set (s := sin (49 * u)) in *. assert (S1 : 49 * u - 49 * u * (49 * u) * (49 * u) / 6 <= s) by (apply sin_lower; lra).
  assert (S2 : s <= 49 * u) by (apply sin_upper; lra).
  assert (U1 : sin u <= u) by (apply sin_upper; lra). assert (U0 : 0 < sin u) by (apply sin_gt_0; lra).
  assert (W1 : sin (39 * u) <= 39 * u) by (apply sin_upper; lra).
  assert (W0 : 39 * u - 39 * u * (39 * u) * (39 * u) / 6 <= sin (39 * u)) by (apply sin_lower; lra).
  set (su := sin u) in *. set (sw := sin (39 * u)) in *. clearbody su sw s c d p.
  assert (u2 : 0 < u * u < 4135 / 100000000) by nra.
  assert (Hd : 4818 / 100 <= d).
  { assert (Hs : 49 * (1 - 2401 * (4135 / 100000000) / 6) * u <= s) by nra.
    assert (0 < d) by nra. assert (s <= u * d) by nra. nra. }
  assert (Hsw : 38 * u < sw) by nra.
  assert (Hs : (48187 / 1000) * u <= s) by nra.
  assert (P1 : 1235 / 1000 <= - p) by nra.
  assert (P2 : - p <= 129 / 100) by nra.
  assert (C1 : 8399 / 10000 <= c) by nra.
  assert (PC : (1235 / 1000) * (8399 / 10000) <= - p * c) by nra.
  assert (PP : p * p <= (129 / 100) * (129 / 100)) by nra.
  assert (DD : (4818 / 100) * (4818 / 100) <= d * d) by nra.
  lra.
Qed.

(** The parameters of the test in fm.rs (44100 samples/s, 900 symbols/s, 1800 Hz): a first bit that is 0 is received as 1. *)
Theorem C59_test_parameters_fail :
  forall (message : Iter bool) m, yields message (false :: m) ->
    exists tx rx bits, tx_fsk message (Z.to_nat 44100) (Z.to_nat 900) 1800 = Ret tx /\ rx_fsk tx (Z.to_nat 44100) (Z.to_nat 900) 1800 = Ret rx /\
      yields rx (true :: bits) /\ length bits = length m.
Proof.
  intros message m Hm.
  assert (En : (Z.to_nat 44100 / Z.to_nat 900 = 49)%nat) by (rewrite <- Z2Nat.inj_div by lia; reflexivity).
  destruct (C50_fsk_decision message (false :: m) (Z.to_nat 44100) (Z.to_nat 900) 1800 Hm ltac:(lia)) as (tx & rx & bits & Et & Er & Y & L & D).
  specialize (D 0%nat false eq_refl). rewrite En in D. destruct bits as [|b bits]; [discriminate|]. exists tx, rx, bits.
  split; [exact Et|]. split; [exact Er|]. split; [|cbn in L; lia].
  destruct b; [exact Y|]. exfalso. destruct D as [D _]. specialize (D eq_refl). revert D. apply Rle_not_lt. apply test_margin.
  rewrite INR_IZR_INZ, Z2Nat.id by lia. lra.
Qed.

(** ** Axioms used *)
Print Assumptions C49_bfsk_wave.
Print Assumptions C49_mfsk_ignores_the_count.
Print Assumptions C49_fsk_uses_two_frequencies.
Print Assumptions C49_receiver_is_a_stub.
Print Assumptions C49_bfsk_round_trip_refuted.
Print Assumptions C49_bfsk_checks.
Print Assumptions C60_fm_wave.
Print Assumptions C50_fsk_decision.
Print Assumptions C50_fsk_round_trip.
Print Assumptions C50_fsk_orthogonal_round_trip.
Print Assumptions C59_test_parameters_fail.
