(** Property C101: a receiver whose carrier is not the transmitter's. *)
From Coq Require Import List Arith ZArith Reals Bool Lia Lra Psatz.
From Verif Require Import Base IterTheory IterModel IterProofs Spec SpecR Tab Num LibModel LibReal
  PskModel PskChain RSums PskReal FskReal Props_Psk Props_Pass Props_Fsk Props_Energy Props_Sync.
Import ListNotations.
Local Open Scope R_scope.

(** ** A wrong phase *)

Lemma signed_true (b : bool) x : (if b then 1 else -1) * x > 0 -> (0 < x <-> b = true).
Proof. destruct b; split; intros; try discriminate; try reflexivity; lra. Qed.

(** BPSK heard with any gain and a phase error of theta: right while the error stays under a quarter turn, every
    bit inverted beyond it, all false exactly at a quarter turn. *)
Theorem C101_bpsk_phase :
  forall (signal : Iter R) (m : list bool) (sample_rate symbol_rate : nat) (fc gain theta : R) (half_cycles : Z),
    let sps := (sample_rate / symbol_rate)%nat in
    yields signal (tab (length m * sps) (fun i =>
      gain * ((if nth (i / sps) m false then 1 else -1) * cos (2 * PI * fc * (INR i / INR sample_rate) + theta)))) ->
    0 < gain -> (1 <= symbol_rate <= sample_rate)%nat ->
    2 * fc * INR sps = IZR half_cycles * INR sample_rate -> ~ (exists z : Z, 2 * fc = IZR z * INR sample_rate) ->
    exists rx, rx_bpsk_signal signal sample_rate symbol_rate fc = Ret rx /\
      (0 < cos theta -> yields rx m) /\
      (cos theta < 0 -> yields rx (map negb m)) /\
      (cos theta = 0 -> yields rx (repeat false (length m))).
Proof.
  intros signal m sr sy fc g th h sps Y Hg Hr Hh Hz.
  assert (Hn : (1 <= sr / sy)%nat) by (apply Nat.div_le_lower_bound; lia). fold sps in Hn.
  destruct (C29_bpsk_receiver_exact signal _ sr sy fc Y Hr) as (rx & out & Er & Yr & L & E).
  rewrite tab_length in L. fold sps in L, E. rewrite Nat.div_mul in L by lia.
  assert (Q : forall k b, nth_error out k = Some b ->
     (b = true <-> 0 < (if nth k m false then 1 else -1) * (g * (INR sps / 2 * cos th)))).
  { intros k b Hb. rewrite (E k b Hb).
    assert (Hk : (k < length m)%nat) by (rewrite <- L; apply nth_error_Some; congruence).
    destruct (shifted_sums sr sy fc h k th ltac:(lia) Hh Hz) as (S1 & _). fold sps in S1.
    rewrite (Rsum_n_ext sps _ (fun j => ((if nth k m false then 1 else -1) * g) *
      (cos (2 * PI * fc * (INR (k * sps + j) / INR sr) + th) * cos (2 * PI * fc * (INR (k * sps + j) / INR sr))))).
    - rewrite Rsum_n_scale, S1. rewrite Rmult_assoc. reflexivity.
    - intros j Hj. rewrite tab_nth by nia. rewrite block_div by lia. ring. }
  assert (Hs : 0 < INR sps) by (apply lt_0_INR; lia).
  exists rx. split; [exact Er|].
  assert (G : forall l, length l = length m -> (forall k b, nth_error m k = Some b ->
      nth_error l k = Some true <-> 0 < (if b then 1 else -1) * cos th) -> yields rx l).
  { intros l Ll H. replace l with out; [exact Yr|]. apply nth_error_inj. intros k.
    destruct (nth_error m k) as [b|] eqn:Eb.
    2:{ apply nth_error_None in Eb. rewrite (proj2 (nth_error_None out k)), (proj2 (nth_error_None l k)) by lia. reflexivity. }
    assert (Hk : (k < length m)%nat) by (apply nth_error_Some; congruence).
    specialize (H k b Eb).
    assert (Ho : nth_error out k <> None) by (apply nth_error_Some; lia).
    assert (Hl : nth_error l k <> None) by (apply nth_error_Some; lia).
    destruct (nth_error out k) as [x|] eqn:Ex; [|congruence]. destruct (nth_error l k) as [y|]; [|congruence].
    specialize (Q k x Ex). rewrite (nth_error_nth m k false Eb) in Q.
    assert (P : 0 < g * (INR sps / 2)) by (apply Rmult_lt_0_compat; lra).
    assert (Z : 0 < (if b then 1 else -1) * (g * (INR sps / 2 * cos th)) <-> 0 < (if b then 1 else -1) * cos th).
    { replace ((if b then 1 else -1) * (g * (INR sps / 2 * cos th))) with ((g * (INR sps / 2)) * ((if b then 1 else -1) * cos th)) by ring.
      split; intros; [|apply Rmult_lt_0_compat; assumption].
      apply (Rmult_lt_reg_l (g * (INR sps / 2))); [exact P|]. lra. }
    f_equal. destruct x, y; try reflexivity; exfalso.
    - assert (X : Some false = Some true) by (apply H, Z, Q; reflexivity). discriminate.
    - assert (X : false = true) by (apply Q, Z, H; reflexivity). discriminate. }
  repeat split; intros C; apply G.
  - reflexivity.
  - intros k b Eb. rewrite Eb. destruct b; split; intros X; try reflexivity; try discriminate; try lra.
  - apply map_length.
  - intros k b Eb. rewrite nth_error_map, Eb. cbn. destruct b; cbn; split; intros X; try reflexivity; try discriminate; try lra.
  - apply repeat_length.
  - intros k b Eb. assert (Hk : (k < length m)%nat) by (apply nth_error_Some; congruence).
    rewrite (nth_error_repeat false Hk). rewrite C. destruct b; split; intros X; try discriminate; lra.
Qed.

(** What the QPSK receiver decides from any signal of whole symbols. *)
Lemma qpsk_reads (signal : Iter R) sr sy fc K g : let sps := (sr / sy)%nat in
  let ph i := 2 * PI * fc * (INR i / INR sr) in
  (1 <= sy <= sr)%nat -> yields signal (tab (K * sps) g) ->
  exists rx out, rx_qpsk_signal signal sr sy fc = Ret rx /\ yields rx out /\ length out = (2 * K)%nat /\
    forall k, (k < K)%nat -> exists a1 a2, nth_error out (2 * k) = Some a1 /\ nth_error out (2 * k + 1) = Some a2 /\
      (a1 = true <-> 0 <= Rsum_n sps (fun j => g (k * sps + j)%nat * cos (ph (k * sps + j)%nat))) /\
      (a2 = true <-> 0 <= - Rsum_n sps (fun j => g (k * sps + j)%nat * sin (ph (k * sps + j)%nat))).
Proof.
  intros sps ph Hr Y. assert (Hn : (1 <= sr / sy)%nat) by (apply Nat.div_le_lower_bound; lia).
  destruct (rx_qpsk_intro signal sr sy fc ltac:(lia) Hn) as (rx & Er & Yr). specialize (Yr K g Y).
  exists rx. eexists. split; [exact Er|]. split; [exact Yr|]. split; [apply flat_pair_length|].
  intros k Hk. eexists. eexists.
  destruct (flat_pair_nth (fun s => nleb (nofZ 0) (corr (sr / sy) s (fun i => nmul (g i) (ccos sr fc i))))
     (fun s => nleb (nofZ 0) (corr (sr / sy) s (fun i => nmul (g i) (nopp (csin sr fc i))))) K k Hk) as [F1 F2].
  split; [exact F1|]. split; [exact F2|]. rewrite !nleb_R, !corr_R. fold sps. cbn [nofZ NumR].
  split.
  - rewrite (Rsum_n_ext sps _ (fun j => g (k * sps + j)%nat * cos (ph (k * sps + j)%nat))); [reflexivity|].
    intros j _. unfold ccos. rewrite phase_R. reflexivity.
  - rewrite (Rsum_n_ext sps _ (fun j => -1 * (g (k * sps + j)%nat * sin (ph (k * sps + j)%nat)))).
    + rewrite Rsum_n_scale. replace (-1 * Rsum_n sps (fun j => g (k * sps + j)%nat * sin (ph (k * sps + j)%nat)))
        with (- Rsum_n sps (fun j => g (k * sps + j)%nat * sin (ph (k * sps + j)%nat))) by ring. reflexivity.
    + intros j _. unfold csin. rewrite phase_R. cbn [nmul nopp nsin NumR]. unfold ph. ring.
Qed.

(** QPSK heard with any gain and a phase error of theta: the two bits of a symbol are right while the error stays
    under an eighth of a turn; in the next three quadrants they are rotated in turn, one inverted and the two
    exchanged, or both inverted. *)
Theorem C101_qpsk_phase :
  forall (signal : Iter R) (ps : list (bool * bool)) (sample_rate symbol_rate : nat) (fc gain theta : R) (half_cycles : Z),
    let sps := (sample_rate / symbol_rate)%nat in
    let ph i := 2 * PI * fc * (INR i / INR sample_rate) + theta in
    let nrz (b : bool) := if b then 1 else -1 in
    yields signal (tab (length ps * sps) (fun i => let p := nth (i / sps) ps (false, false) in
      gain * (nrz (fst p) * cos (ph i) - nrz (snd p) * sin (ph i)))) ->
    0 < gain -> (1 <= symbol_rate <= sample_rate)%nat ->
    2 * fc * INR sps = IZR half_cycles * INR sample_rate -> ~ (exists z : Z, 2 * fc = IZR z * INR sample_rate) ->
    exists rx, rx_qpsk_signal signal sample_rate symbol_rate fc = Ret rx /\
      (Rabs (sin theta) < cos theta -> yields rx (flat_map (fun p => [fst p; snd p]) ps)) /\
      (Rabs (sin theta) < - cos theta -> yields rx (flat_map (fun p => [negb (fst p); negb (snd p)]) ps)) /\
      (Rabs (cos theta) < sin theta -> yields rx (flat_map (fun p => [negb (snd p); fst p]) ps)) /\
      (Rabs (cos theta) < - sin theta -> yields rx (flat_map (fun p => [snd p; negb (fst p)]) ps)).
Proof.
  intros signal ps sr sy fc g th h sps ph nrz Y Hg Hr Hh Hz.
  assert (Hn : (1 <= sr / sy)%nat) by (apply Nat.div_le_lower_bound; lia). fold sps in Hn.
  destruct (qpsk_reads signal sr sy fc _ _ Hr Y) as (rx & out & Er & Yr & L & E). fold sps in E.
  assert (Hs : 0 < INR sps) by (apply lt_0_INR; lia). set (q := g * (INR sps / 2)).
  assert (Hq : 0 < q) by (apply Rmult_lt_0_compat; lra).
  assert (Q : forall k p, nth_error ps k = Some p -> exists a1 a2,
     nth_error out (2 * k) = Some a1 /\ nth_error out (2 * k + 1) = Some a2 /\
     (a1 = true <-> 0 <= nrz (fst p) * cos th - nrz (snd p) * sin th) /\
     (a2 = true <-> 0 <= nrz (fst p) * sin th + nrz (snd p) * cos th)).
  { intros k p Hp. assert (Hk : (k < length ps)%nat) by (apply nth_error_Some; congruence).
    destruct (E k Hk) as (a1 & a2 & N1 & N2 & B1 & B2). exists a1, a2. split; [exact N1|]. split; [exact N2|].
    destruct (shifted_sums sr sy fc h k th ltac:(lia) Hh Hz) as (S1 & S2 & S3 & S4). fold sps in S1, S2, S3, S4.
    set (p0 := fun j => 2 * PI * fc * (INR (k * sps + j) / INR sr)).
    change (Rsum_n sps (fun j => cos (p0 j + th) * cos (p0 j)) = INR sps / 2 * cos th) in S1.
    change (Rsum_n sps (fun j => sin (p0 j + th) * cos (p0 j)) = INR sps / 2 * sin th) in S2.
    change (Rsum_n sps (fun j => cos (p0 j + th) * sin (p0 j)) = - (INR sps / 2 * sin th)) in S3.
    change (Rsum_n sps (fun j => sin (p0 j + th) * sin (p0 j)) = INR sps / 2 * cos th) in S4.
    assert (D : forall j, (j < sps)%nat -> nth ((k * sps + j) / sps) ps (false, false) = p).
    { intros j Hj. rewrite block_div by lia. apply nth_error_nth. exact Hp. }
    assert (Sc : forall x, 0 <= q * x <-> 0 <= x).
    { intros x. split; intros X; [|apply Rmult_le_pos; lra]. apply (Rmult_le_reg_l q); [exact Hq|]. lra. }
    split.
    - rewrite B1, <- (Sc (_ - _)).
      rewrite (Rsum_n_ext sps _ (fun j => (g * nrz (fst p)) * (cos (p0 j + th) * cos (p0 j)) + (- g * nrz (snd p)) * (sin (p0 j + th) * cos (p0 j)))).
      + rewrite Rsum_n_plus, !Rsum_n_scale. rewrite S1, S2. unfold q.
        match goal with |- 0 <= ?a <-> 0 <= ?b => replace a with b by ring end. reflexivity.
      + intros j Hj. cbv beta zeta. rewrite (D j Hj). unfold ph, p0. ring.
    - rewrite B2, <- (Sc (_ + _)).
      rewrite (Rsum_n_ext sps _ (fun j => (g * nrz (fst p)) * (cos (p0 j + th) * sin (p0 j)) + (- g * nrz (snd p)) * (sin (p0 j + th) * sin (p0 j)))).
      + rewrite Rsum_n_plus, !Rsum_n_scale. rewrite S3, S4. unfold q.
        match goal with |- 0 <= ?a <-> 0 <= ?b => replace a with b by ring end. reflexivity.
      + intros j Hj. cbv beta zeta. rewrite (D j Hj). unfold ph, p0. ring. }
  exists rx. split; [exact Er|].
  assert (G : forall f1 f2 : bool * bool -> bool,
     (forall p, (f1 p = true <-> 0 <= nrz (fst p) * cos th - nrz (snd p) * sin th) /\
                (f2 p = true <-> 0 <= nrz (fst p) * sin th + nrz (snd p) * cos th)) ->
     yields rx (flat_map (fun p => [f1 p; f2 p]) ps)).
  { intros f1 f2 H. replace (flat_map (fun p => [f1 p; f2 p]) ps) with out; [exact Yr|].
    assert (FL : flat_map (fun p => [f1 p; f2 p]) ps = flat_map (fun s => [f1 (nth s ps (false, false)); f2 (nth s ps (false, false))]) (seq 0 (length ps))).
    { symmetry. apply (flat_seq_nth _ _ _ (false, false)). intros k a Hk. rewrite (nth_error_nth ps k _ Hk). reflexivity. }
    rewrite FL. apply nth_error_inj. intros i.
    destruct (Nat.lt_ge_cases i (2 * length ps)) as [Hi|Hi].
    2:{ rewrite (proj2 (nth_error_None out i)) by lia. symmetry. apply nth_error_None. rewrite flat_pair_length. exact Hi. }
    pose (k := (i / 2)%nat). pose proof (Nat.div_mod i 2 ltac:(lia)) as DM. pose proof (Nat.mod_upper_bound i 2 ltac:(lia)) as DU.
    assert (Hk : (k < length ps)%nat) by (unfold k; lia).
    destruct (flat_pair_nth (fun s => f1 (nth s ps (false, false))) (fun s => f2 (nth s ps (false, false))) _ _ Hk) as [F1 F2].
    destruct (Q k _ (nth_error_nth' ps (false, false) Hk)) as (a1 & a2 & N1 & N2 & B1 & B2).
    destruct (H (nth k ps (false, false))) as [H1 H2].
    assert (C : i = (2 * k)%nat \/ i = (2 * k + 1)%nat) by (unfold k; lia). clearbody k. clear DM DU.
    destruct C as [-> | ->].
    - rewrite N1, F1. f_equal. apply Bool.eq_iff_eq_true. rewrite B1, H1. reflexivity.
    - rewrite N2, F2. f_equal. apply Bool.eq_iff_eq_true. rewrite B2, H2. reflexivity. }
  assert (A : forall x y, Rabs x < y -> - y < x < y) by (intros x y X; apply Rabs_def2 in X; lra).
  repeat split; intros C; apply A in C; apply G; intros [b1 b2]; cbn [fst snd]; unfold nrz; destruct b1, b2; cbn [negb];
    split; split; intros X; try reflexivity; try discriminate; lra.
Qed.

(** ** A wrong frequency *)

(** Correlation over symbol k of a tone at ft with one at fr: the difference frequency, and the sum frequency. *)
Lemma beat_exact (sr n k : nat) (ft fr x y : R) : let a := PI * (ft - fr) / INR sr in let s := PI * (ft + fr) / INR sr in
  let mid := INR (2 * k * n + n - 1) in
  (1 <= sr)%nat -> (1 <= n)%nat ->
  2 * Rsum_n n (fun j => cos (2 * PI * ft * (INR (k * n + j) / INR sr) + x) * cos (2 * PI * fr * (INR (k * n + j) / INR sr) + y)) =
  kernel n (2 * a) * cos (a * mid + (x - y)) + kernel n (2 * s) * cos (s * mid + (x + y)).
Proof.
  intros a s mid Hr Hn. assert (Hsr : INR sr <> 0) by (apply not_0_INR; lia).
  assert (M : mid = 2 * INR k * INR n + INR n - 1).
  { unfold mid. rewrite minus_INR by nia. rewrite plus_INR, !mult_INR. cbn. lra. }
  assert (D : forall q z, cos (q * mid + z) * kernel n (2 * q) = Rsum_n n (fun j => cos (2 * q * INR (k * n) + z + 2 * q * INR j))).
  { intros q z. rewrite sum_cos_kernel. do 2 f_equal. rewrite M, mult_INR. field. }
  rewrite (Rmult_comm (kernel n (2 * a))), (Rmult_comm (kernel n (2 * s))), !D, <- Rsum_n_plus, <- Rsum_n_scale.
  apply Rsum_n_ext. intros j _.
  set (u := 2 * PI * ft * (INR (k * n + j) / INR sr) + x). set (v := 2 * PI * fr * (INR (k * n + j) / INR sr) + y).
  replace (2 * a * INR (k * n) + (x - y) + 2 * a * INR j) with (u - v) by (unfold u, v, a; rewrite (plus_INR (k * n)); field; exact Hsr).
  replace (2 * s * INR (k * n) + (x + y) + 2 * s * INR j) with (u + v) by (unfold u, v, s; rewrite (plus_INR (k * n)); field; exact Hsr).
  rewrite cos_minus, cos_plus. ring.
Qed.

Lemma kernel_bound n s : sin s <> 0 -> Rabs (kernel n (2 * s)) <= / Rabs (sin s).
Proof.
  intros Hs. pose proof (kernel_closed n (2 * s)) as K. replace (2 * s / 2) with s in K by field.
  assert (P : 0 < Rabs (sin s)) by (apply Rabs_pos_lt; exact Hs).
  assert (K1 : Rabs (sin s) * Rabs (kernel n (2 * s)) <= 1).
  { rewrite <- Rabs_mult, K. apply Rabs_le. pose proof (SIN_bound (INR n * s)). lra. }
  apply (Rmult_le_reg_l (Rabs (sin s))); [exact P|]. rewrite Rinv_r by lra. exact K1.
Qed.
Lemma kernel_cos_bound n s z : sin s <> 0 -> Rabs (kernel n (2 * s) * cos z) <= / Rabs (sin s).
Proof.
  intros Hs. rewrite Rabs_mult. pose proof (kernel_bound n s Hs) as K.
  assert (C : Rabs (cos z) <= 1) by (apply Rabs_le; pose proof (COS_bound z); lra).
  pose proof (Rabs_pos (kernel n (2 * s))). pose proof (Rabs_pos (cos z)). nra.
Qed.

(** The same with what is left of the sum frequency as an error. *)
Lemma beat_sums (sr n k : nat) (ft fr x y : R) : let a := PI * (ft - fr) / INR sr in let s := PI * (ft + fr) / INR sr in
  let mid := INR (2 * k * n + n - 1) in
  (1 <= sr)%nat -> (1 <= n)%nat -> sin s <> 0 ->
  exists e, Rabs e <= / Rabs (sin s) /\
  2 * Rsum_n n (fun j => cos (2 * PI * ft * (INR (k * n + j) / INR sr) + x) * cos (2 * PI * fr * (INR (k * n + j) / INR sr) + y)) =
  kernel n (2 * a) * cos (a * mid + (x - y)) + e.
Proof.
  intros a s mid Hr Hn Hs. exists (kernel n (2 * s) * cos (s * mid + (x + y))).
  split; [apply kernel_cos_bound; exact Hs|]. apply beat_exact; assumption.
Qed.

(** The response at a difference of at most a third of a turn over the symbol. *)
Lemma near_response n a : (1 <= n)%nat -> a <> 0 -> Rabs a * INR n <= PI / 3 -> 4 / 5 * INR n < kernel n (2 * a).
Proof.
  intros Hn Ha H. assert (Hs : 1 <= INR n) by (apply (le_INR 1); exact Hn). pose proof PI_bounds as PB.
  assert (G : forall z, 0 < z -> z * INR n <= PI / 3 -> 4 / 5 * INR n < kernel n (2 * z)).
  { intros z Hz Hb. pose proof (kernel_closed n (2 * z)) as K. replace (2 * z / 2) with z in K by field.
    assert (Hzn : z <= z * INR n) by nra.
    assert (U : sin z <= z) by (apply sin_upper; lra). assert (U0 : 0 < sin z) by (apply sin_gt_0; lra).
    set (w := INR n * z) in *. assert (Hw : 0 < w) by (unfold w; nra). assert (Hw2 : w <= 105 / 100) by (unfold w; rewrite Rmult_comm; lra).
    assert (S : w - w * w * w / 6 <= sin w) by (apply sin_lower; lra).
    assert (S2 : 81 / 100 * w <= sin w) by (assert (w * w <= (105 / 100) * (105 / 100)) by nra; nra).
    set (D := kernel n (2 * z)) in *. assert (HD : 0 < D) by nra.
    assert (Z : sin z * D <= z * D) by nra. assert (E : 81 / 100 * w <= z * D) by lra. unfold w in E.
    apply (Rmult_lt_reg_l z); [exact Hz|]. assert (0 < z * INR n) by nra. lra. }
  destruct (Rtotal_order a 0) as [L|[E|P]]; [|contradiction|].
  - replace (2 * a) with (- (2 * - a)) by ring. rewrite kernel_neg. apply G; [lra|]. rewrite Rabs_left in H by exact L. exact H.
  - apply G; [exact P|]. rewrite Rabs_pos_eq in H by lra. exact H.
Qed.

Lemma cos_half x : Rabs x <= PI / 3 -> 1 / 2 <= cos x.
Proof.
  intros H. pose proof PI_bounds as PB. rewrite <- cos_PI3.
  assert (G : forall z, 0 <= z <= PI / 3 -> cos (PI / 3) <= cos z) by (intros z Hz; apply cos_decr_1; lra).
  destruct (Rle_dec 0 x); [rewrite Rabs_pos_eq in H by lra; apply G; lra|].
  rewrite <- (cos_neg x). rewrite Rabs_left in H by lra. apply G. lra.
Qed.
Lemma cos_past x : 2 * PI / 3 <= Rabs x <= 4 * PI / 3 -> cos x <= - (1 / 2).
Proof.
  intros H. assert (G : forall z, 2 * PI / 3 <= z <= 4 * PI / 3 -> cos z <= - (1 / 2)).
  { intros z Hz. replace z with ((z - PI) + PI) by ring. rewrite neg_cos. pose proof (cos_half (z - PI)) as C.
    assert (Rabs (z - PI) <= PI / 3) by (apply Rabs_le; lra). lra. }
  destruct (Rle_dec 0 x); [rewrite Rabs_pos_eq in H by lra; apply G; lra|].
  rewrite <- (cos_neg x). rewrite Rabs_left in H by lra. apply G. lra.
Qed.

(** BPSK between a transmitter at ft and a receiver at fr: the carrier turns by [turn k] up to the middle of bit k,
    and the bit is right or inverted as the cosine of that says, as long as it is not drowned by the sum frequency. *)
Theorem C101_bpsk_detuned :
  forall (message : Iter bool) m (sample_rate symbol_rate : nat) (ft fr : R) tx,
    let sps := (sample_rate / symbol_rate)%nat in
    let a := PI * (ft - fr) / INR sample_rate in
    let s := PI * (ft + fr) / INR sample_rate in
    let response := sin (INR sps * a) / sin a in
    let turn k := a * INR (2 * k * sps + sps - 1) in
    yields message m -> tx_bpsk_signal message sample_rate symbol_rate ft = Ret tx -> (symbol_rate <= sample_rate)%nat ->
    sin a <> 0 -> sin s <> 0 ->
    exists rx out, rx_bpsk_signal tx sample_rate symbol_rate fr = Ret rx /\ yields rx out /\ length out = length m /\
      forall k b, nth_error m k = Some b ->
        (/ Rabs (sin s) < response * cos (turn k) -> nth_error out k = Some b) /\
        (response * cos (turn k) < - / Rabs (sin s) -> nth_error out k = Some (negb b)).
Proof.
  intros message m sr sy ft fr tx sps a s D turn Hm Htx Hle Ha Hs.
  destruct (tx_bpsk_inv _ _ _ _ _ Htx) as (Hy & _ & _ & Y).
  assert (Hn : (1 <= sr / sy)%nat) by (apply Nat.div_le_lower_bound; lia).
  specialize (Y Hn m Hm). unfold bpsk_wave in Y. fold sps in Y, Hn.
  destruct (C29_bpsk_receiver_exact tx _ sr sy fr Y ltac:(lia)) as (rx & out & Er & Yr & L & E).
  rewrite tab_length in L. fold sps in L, E. rewrite Nat.div_mul in L by lia.
  exists rx, out. split; [exact Er|]. split; [exact Yr|]. split; [exact L|]. intros k b Hb.
  assert (Hk : (k < length m)%nat) by (apply nth_error_Some; congruence).
  destruct (beat_sums sr sps k ft fr 0 0 ltac:(lia) Hn Hs) as (e & He & S). fold a s in S. fold s in He.
  assert (KD : kernel sps (2 * a) = D).
  { unfold D. pose proof (kernel_closed sps (2 * a)) as K. replace (2 * a / 2) with a in K by field.
    rewrite <- K. field. exact Ha. }
  rewrite KD in S. replace (a * INR (2 * k * sps + sps - 1) + (0 - 0)) with (turn k) in S by (unfold turn; ring).
  assert (Ho : nth_error out k <> None) by (apply nth_error_Some; lia).
  destruct (nth_error out k) as [x|] eqn:Ex; [|congruence]. specialize (E k x Ex).
  rewrite (Rsum_n_ext sps _ (fun j => (if b then 1 else -1) *
    (cos (2 * PI * ft * (INR (k * sps + j) / INR sr) + 0) * cos (2 * PI * fr * (INR (k * sps + j) / INR sr) + 0)))) in E.
  2:{ intros j Hj. rewrite tab_nth by nia. rewrite block_div by lia. rewrite (nth_error_nth m k false Hb).
      unfold ccos. rewrite phase_R, nrz_R. cbn [nmul ncos NumR]. rewrite !Rplus_0_r. ring. }
  rewrite Rsum_n_scale in E. set (c := Rsum_n sps _) in *. apply Flocq.Core.Raux.Rabs_le_inv in He.
  split; intros P; f_equal.
  - assert (0 < c) by lra. destruct b, x; try reflexivity; exfalso.
    + assert (false = true) by (apply E; lra). discriminate.
    + assert (0 < -1 * c) by (apply E; reflexivity). lra.
  - assert (c < 0) by lra. destruct b, x; try reflexivity; exfalso.
    + assert (0 < 1 * c) by (apply E; reflexivity). lra.
    + assert (false = true) by (apply E; lra). discriminate.
Qed.

Lemma detuned_small sr sps ft fr : let a := PI * (ft - fr) / INR sr in
  (1 <= sr)%nat -> (1 <= sps)%nat -> ft <> fr -> 3 * Rabs (ft - fr) * INR sps <= INR sr ->
  a <> 0 /\ sin a <> 0 /\ Rabs a = PI * Rabs (ft - fr) / INR sr /\ Rabs a * INR sps <= PI / 3.
Proof.
  intros a Hr Hn Hf H. pose proof PI_bounds as PB. assert (Hsr : 0 < INR sr) by (apply lt_0_INR; lia).
  assert (Hs : 1 <= INR sps) by (apply (le_INR 1); exact Hn).
  assert (Ea : Rabs a = PI * Rabs (ft - fr) / INR sr).
  { unfold a, Rdiv. rewrite !Rabs_mult, (Rabs_pos_eq PI), (Rabs_pos_eq (/ INR sr)); [reflexivity| |lra].
    left. apply Rinv_0_lt_compat. exact Hsr. }
  assert (Da : 0 < Rabs (ft - fr)) by (apply Rabs_pos_lt; lra).
  assert (Sm : Rabs a * INR sps <= PI / 3).
  { rewrite Ea. apply (Rmult_le_reg_r (INR sr)); [exact Hsr|].
    replace (PI * Rabs (ft - fr) / INR sr * INR sps * INR sr) with (PI * (Rabs (ft - fr) * INR sps)) by (field; lra). nra. }
  assert (Pa : 0 < Rabs a).
  { rewrite Ea. apply Rmult_lt_0_compat; [nra|apply Rinv_0_lt_compat; exact Hsr]. }
  assert (Na : a <> 0) by (intros E; rewrite E, Rabs_R0 in Pa; lra).
  split; [exact Na|]. split; [|split; assumption].
  assert (B : Rabs a <= PI / 3) by nra.
  assert (B' : - (PI / 3) <= a <= PI / 3) by (apply Flocq.Core.Raux.Rabs_le_inv; exact B). destruct (Rtotal_order a 0) as [L|[E|P]]; [|contradiction|].
  - assert (0 < sin (- a)) by (apply sin_gt_0; lra). rewrite sin_neg in H0. lra.
  - assert (0 < sin a) by (apply sin_gt_0; lra). lra.
Qed.

Lemma leak_small sps z c : 0 < c -> (1 <= sps)%nat -> c <= INR sps * Rabs z -> z <> 0 /\ / Rabs z <= INR sps / c.
Proof.
  intros Hc Hn H. assert (Hs : 1 <= INR sps) by (apply (le_INR 1); exact Hn).
  assert (P : 0 < Rabs z) by (pose proof (Rabs_pos z); destruct (Req_dec (Rabs z) 0) as [E|E]; [rewrite E in H; lra|lra]).
  split; [intros E; rewrite E, Rabs_R0 in P; lra|].
  apply (Rmult_le_reg_l (Rabs z)); [exact P|]. rewrite Rinv_r by lra.
  replace (Rabs z * (INR sps / c)) with (INR sps * Rabs z / c) by (field; lra).
  apply (Rmult_le_reg_r c); [exact Hc|]. replace (INR sps * Rabs z / c * c) with (INR sps * Rabs z) by (field; lra). lra.
Qed.

Lemma turn_span sr sps k ft fr : let a := PI * (ft - fr) / INR sr in
  (1 <= sr)%nat -> (1 <= sps)%nat ->
  Rabs (a * INR (2 * k * sps + sps - 1)) = PI * Rabs (ft - fr) * INR (2 * k * sps + sps - 1) / INR sr.
Proof.
  intros a Hr Hn. pose proof PI_bounds as PB. assert (Hsr : 0 < INR sr) by (apply lt_0_INR; lia).
  unfold a, Rdiv. rewrite !Rabs_mult, (Rabs_pos_eq PI), (Rabs_pos_eq (/ INR sr)), (Rabs_pos_eq (INR _)) by
    (first [apply pos_INR | lra | left; apply Rinv_0_lt_compat; exact Hsr]). ring.
Qed.

(** The first bits survive: those that are over before the carrier has turned by a sixth. *)
Theorem C101_bpsk_detuned_start :
  forall (message : Iter bool) m (sample_rate symbol_rate : nat) (ft fr : R) tx,
    let sps := (sample_rate / symbol_rate)%nat in
    yields message m -> tx_bpsk_signal message sample_rate symbol_rate ft = Ret tx -> (symbol_rate <= sample_rate)%nat ->
    ft <> fr -> 5 / 2 <= INR sps * Rabs (sin (PI * (ft + fr) / INR sample_rate)) ->
    exists rx out, rx_bpsk_signal tx sample_rate symbol_rate fr = Ret rx /\ yields rx out /\ length out = length m /\
      forall k, 6 * (Rabs (ft - fr) * INR (S k * sps)) <= INR sample_rate -> nth_error out k = nth_error m k.
Proof.
  intros message m sr sy ft fr tx sps Hm Htx Hle Hf Hs.
  assert (Hy : sy <> 0%nat) by (apply (tx_bpsk_inv _ _ _ _ _ Htx)).
  assert (Hn : (1 <= sps)%nat) by (apply Nat.div_le_lower_bound; lia).
  destruct (leak_small sps _ (5 / 2) ltac:(lra) Hn Hs) as [Sz Sl].
  assert (Hn1 : 1 <= INR sps) by (apply (le_INR 1); exact Hn).
  destruct (Rle_dec (6 * (Rabs (ft - fr) * INR (1 * sps))) (INR sr)) as [H0|H0].
  2:{ destruct (tx_bpsk_inv _ _ _ _ _ Htx) as (_ & _ & _ & Y). specialize (Y Hn m Hm). unfold bpsk_wave in Y.
      destruct (C29_bpsk_receiver_exact tx _ sr sy fr Y ltac:(lia)) as (rx & out & Er & Yr & L & _). rewrite tab_length in L.
      fold sps in L. rewrite Nat.div_mul in L by lia.
      exists rx, out. split; [exact Er|]. split; [exact Yr|]. split; [exact L|]. intros k Hk. exfalso. apply H0.
      eapply Rle_trans; [|exact Hk]. apply Rmult_le_compat_l; [lra|]. apply Rmult_le_compat_l; [apply Rabs_pos|]. apply le_INR. nia. }
  rewrite Nat.mul_1_l in H0.
  assert (Da : 0 < Rabs (ft - fr)) by (apply Rabs_pos_lt; lra). assert (Dn : 0 < Rabs (ft - fr) * INR sps) by (apply Rmult_lt_0_compat; lra).
  destruct (detuned_small sr sps ft fr ltac:(lia) Hn Hf ltac:(lra)) as (Na & Sa & Ea & Ba).
  destruct (C101_bpsk_detuned message m sr sy ft fr tx Hm Htx Hle Sa Sz) as (rx & out & Er & Yr & L & E). fold sps in E.
  exists rx, out. split; [exact Er|]. split; [exact Yr|]. split; [exact L|]. intros k Hk.
  destruct (nth_error m k) as [b|] eqn:Eb; [|apply nth_error_None; apply nth_error_None in Eb; lia].
  apply (E k b Eb). pose proof (near_response sps _ Hn Na Ba) as NR.
  pose proof (kernel_closed sps (2 * (PI * (ft - fr) / INR sr))) as K.
  set (a := PI * (ft - fr) / INR sr) in *. replace (2 * a / 2) with a in K by field. rewrite <- K.
  replace (sin a * kernel sps (2 * a) / sin a) with (kernel sps (2 * a)) by (field; exact Sa).
  assert (C : 1 / 2 <= cos (a * INR (2 * k * sps + sps - 1))).
  { apply cos_half. unfold a. rewrite turn_span by lia. pose proof PI_bounds as PB.
    assert (Hsr : 0 < INR sr) by (apply lt_0_INR; lia).
    apply (Rmult_le_reg_r (INR sr)); [exact Hsr|].
    replace (PI * Rabs (ft - fr) * INR (2 * k * sps + sps - 1) / INR sr * INR sr) with (PI * (Rabs (ft - fr) * INR (2 * k * sps + sps - 1))) by (field; lra).
    assert (I : INR (2 * k * sps + sps - 1) <= 2 * INR (S k * sps)).
    { replace 2 with (INR 2) by reflexivity. rewrite <- mult_INR. apply le_INR. nia. }
    set (u := INR (2 * k * sps + sps - 1)) in *. set (v := INR (S k * sps)) in *.
    assert (J : Rabs (ft - fr) * u <= Rabs (ft - fr) * (2 * v)) by (apply Rmult_le_compat_l; lra).
    replace (PI / 3 * INR sr) with (PI * (INR sr / 3)) by field. apply Rmult_le_compat_l; lra. }
  set (D := kernel sps (2 * a)) in *.
  assert (D * (1 / 2) <= D * cos (a * INR (2 * k * sps + sps - 1))) by (apply Rmult_le_compat_l; lra). lra.
Qed.

(** The first symbol at which the carrier has turned by between a third and two thirds. *)
Lemma turned_symbol (sr sps : nat) (d : R) : (1 <= sr)%nat -> (1 <= sps)%nat -> 0 < d -> 3 * d * INR sps <= INR sr ->
  exists k : nat, 3 * (INR (k * sps) * d) < 2 * INR sr /\
    2 * PI / 3 <= PI * d * INR (2 * k * sps + sps - 1) / INR sr <= 4 * PI / 3.
Proof.
  intros Hr Hn Hd H. pose proof PI_bounds as PB. assert (Hsr : 0 < INR sr) by (apply lt_0_INR; lia).
  assert (Hs : 1 <= INR sps) by (apply (le_INR 1); exact Hn).
  assert (I : forall k, INR (2 * k * sps + sps - 1) = 2 * INR k * INR sps + INR sps - 1).
  { intros k. rewrite minus_INR by nia. rewrite plus_INR, !mult_INR. cbn. lra. }
  set (T := fun k => 3 * d * (2 * INR k * INR sps + INR sps - 1)).
  assert (X : exists k, 2 * INR sr <= T k).
  { pose proof (archimed (INR sr / d)) as [Hk _]. pose (k := Z.to_nat (up (INR sr / d))). exists k. unfold T.
    assert (Pq : 0 < INR sr / d) by (apply Rdiv_lt_0_compat; lra).
    assert (Ek : INR k = IZR (up (INR sr / d))) by (unfold k; rewrite INR_IZR_INZ, Z2Nat.id; [reflexivity|apply le_IZR; lra]).
    assert (INR sr < INR k * d).
    { rewrite Ek. apply (Rmult_lt_reg_r (/ d)); [apply Rinv_0_lt_compat; exact Hd|].
      replace (IZR (up (INR sr / d)) * d * / d) with (IZR (up (INR sr / d))) by (field; lra). exact Hk. }
    pose proof (pos_INR k). assert (INR k <= INR k * INR sps) by nra. assert (INR k * d <= INR k * INR sps * d) by nra. assert (0 <= d * (INR sps - 1)) by nra. nra. }
  assert (M : exists k, 2 * INR sr <= T k /\ forall j, (j < k)%nat -> T j < 2 * INR sr).
  { destruct X as [k0 Hk0]. revert Hk0. induction k0 as [k0 IH] using lt_wf_ind. intros Hk0.
    destruct k0 as [|k1]; [exists 0%nat; split; [exact Hk0|lia]|].
    destruct (Rle_dec (2 * INR sr) (T k1)) as [G|G]; [apply (IH k1); [lia|exact G]|].
    exists (S k1). split; [exact Hk0|]. intros j Hj. apply Rnot_le_lt in G. eapply Rle_lt_trans; [|exact G]. unfold T.
    apply Rmult_le_compat_l; [lra|]. assert (INR j <= INR k1) by (apply le_INR; lia). nra. }
  destruct M as (k & L & F). exists k.
  assert (U : T k <= 4 * INR sr).
  { destruct k as [|k']; [unfold T; cbn [INR]; nra|]. specialize (F k' ltac:(lia)). unfold T in *. rewrite S_INR. nra. }
  unfold T in *. assert (Q : PI * d * INR (2 * k * sps + sps - 1) / INR sr = PI / 3 * (3 * d * (2 * INR k * INR sps + INR sps - 1) / INR sr)).
  { rewrite I. field. lra. }
  split.
  - rewrite mult_INR. destruct k as [|k']; [cbn [INR]; lra|]. specialize (F k' ltac:(lia)). rewrite S_INR in *.
    assert (0 < d * 1) by lra. nra.
  - rewrite Q. set (v := 3 * d * (2 * INR k * INR sps + INR sps - 1)) in *.
    assert (V : 2 <= v / INR sr <= 4).
    { split; apply (Rmult_le_reg_r (INR sr)); try exact Hsr; replace (v / INR sr * INR sr) with v by (field; lra); lra. }
    nra.
Qed.

(** No error is small enough: at some bit, before the carrier has turned by two thirds, every message comes out inverted. *)
Theorem C101_bpsk_detuned_lost :
  forall (sample_rate symbol_rate : nat) (ft fr : R),
    let sps := (sample_rate / symbol_rate)%nat in
    (1 <= symbol_rate <= sample_rate)%nat -> ft <> fr -> 3 * Rabs (ft - fr) * INR sps <= INR sample_rate ->
    5 / 2 <= INR sps * Rabs (sin (PI * (ft + fr) / INR sample_rate)) ->
    exists k : nat, 3 * (INR (k * sps) * Rabs (ft - fr)) < 2 * INR sample_rate /\
      forall (message : Iter bool) m tx b, yields message m -> tx_bpsk_signal message sample_rate symbol_rate ft = Ret tx ->
        nth_error m k = Some b ->
        exists rx out, rx_bpsk_signal tx sample_rate symbol_rate fr = Ret rx /\ yields rx out /\ length out = length m /\
          nth_error out k = Some (negb b).
Proof.
  intros sr sy ft fr sps Hr Hf H3 Hs.
  assert (Hn : (1 <= sps)%nat) by (apply Nat.div_le_lower_bound; lia).
  destruct (leak_small sps _ (5 / 2) ltac:(lra) Hn Hs) as [Sz Sl].
  assert (Hn1 : 1 <= INR sps) by (apply (le_INR 1); exact Hn).
  assert (Da : 0 < Rabs (ft - fr)) by (apply Rabs_pos_lt; lra).
  destruct (detuned_small sr sps ft fr ltac:(lia) Hn Hf H3) as (Na & Sa & Ea & Ba).
  destruct (turned_symbol sr sps _ ltac:(lia) Hn Da H3) as (k & Hk & Tk).
  exists k. split; [exact Hk|]. intros message m tx b Hm Htx Hb.
  destruct (C101_bpsk_detuned message m sr sy ft fr tx Hm Htx ltac:(lia) Sa Sz) as (rx & out & Er & Yr & L & E). fold sps in E.
  exists rx, out. split; [exact Er|]. split; [exact Yr|]. split; [exact L|]. apply (E k b Hb).
  pose proof (near_response sps _ Hn Na Ba) as NR. rewrite <- (turn_span sr sps k ft fr) in Tk by lia.
  pose proof (kernel_closed sps (2 * (PI * (ft - fr) / INR sr))) as K.
  set (a := PI * (ft - fr) / INR sr) in *. replace (2 * a / 2) with a in K by field. rewrite <- K.
  replace (sin a * kernel sps (2 * a) / sin a) with (kernel sps (2 * a)) by (field; exact Sa).
  pose proof (cos_past _ Tk) as C. set (D := kernel sps (2 * a)) in *.
  assert (D * cos (a * INR (2 * k * sps + sps - 1)) <= D * - (1 / 2)) by (apply Rmult_le_compat_l; lra). lra.
Qed.

(** QPSK: at some symbol, before the carrier has turned by two thirds, no message keeps both bits. *)
Theorem C101_qpsk_detuned_lost :
  forall (sample_rate symbol_rate : nat) (ft fr : R),
    let sps := (sample_rate / symbol_rate)%nat in
    (1 <= symbol_rate <= sample_rate)%nat -> ft <> fr -> 3 * Rabs (ft - fr) * INR sps <= INR sample_rate ->
    5 <= INR sps * Rabs (sin (PI * (ft + fr) / INR sample_rate)) ->
    exists k : nat, 3 * (INR (k * sps) * Rabs (ft - fr)) < 2 * INR sample_rate /\
      forall (message : Iter bool) m, yields message m -> (2 * k + 1 < length m)%nat ->
        exists tx rx out, tx_qpsk_signal message sample_rate symbol_rate ft = Ret tx /\
          rx_qpsk_signal tx sample_rate symbol_rate fr = Ret rx /\ yields rx out /\ length out = (2 * (length m / 2))%nat /\
          ~ (nth_error out (2 * k) = nth_error m (2 * k) /\ nth_error out (2 * k + 1) = nth_error m (2 * k + 1)).
Proof.
  intros sr sy ft fr sps Hr Hf H3 Hs.
  assert (Hn : (1 <= sps)%nat) by (apply Nat.div_le_lower_bound; lia).
  destruct (leak_small sps _ 5 ltac:(lra) Hn Hs) as [Sz Sl].
  assert (Hn1 : 1 <= INR sps) by (apply (le_INR 1); exact Hn).
  assert (Da : 0 < Rabs (ft - fr)) by (apply Rabs_pos_lt; lra).
  destruct (detuned_small sr sps ft fr ltac:(lia) Hn Hf H3) as (Na & Sa & Ea & Ba).
  destruct (turned_symbol sr sps _ ltac:(lia) Hn Da H3) as (k & Hk & Tk).
  exists k. split; [exact Hk|]. intros message m Hm Lm.
  destruct (tx_qpsk_inv message sr sy ft ltac:(lia) Hn) as (tx & Et & Yt). specialize (Yt m Hm).
  unfold qpsk_wave in Yt. rewrite (pairs_length (length m) m eq_refl) in Yt. fold sps in Yt.
  destruct (qpsk_reads tx sr sy fr _ _ Hr Yt) as (rx & out & Er & Yr & L & E). fold sps in E.
  exists tx, rx, out. split; [exact Et|]. split; [exact Er|]. split; [exact Yr|]. split; [exact L|].
  assert (Hk2 : (k < length m / 2)%nat) by (apply Nat.div_le_lower_bound; lia).
  destruct (E k Hk2) as (a1 & a2 & N1 & N2 & B1 & B2). rewrite N1, N2.
  destruct (nth_error m (2 * k)) as [b1|] eqn:E1; [|apply nth_error_None in E1; lia].
  destruct (nth_error m (2 * k + 1)) as [b2|] eqn:E2; [|apply nth_error_None in E2; lia].
  pose proof (pairs_nth (length m) m k b1 b2 eq_refl E1 E2) as Ep.
  intros [X1 X2]. injection X1 as ->. injection X2 as ->.
  set (nrz := fun b : bool => if b then 1 else -1).
  set (u := fun j => 2 * PI * ft * (INR (k * sps + j) / INR sr)) in *.
  set (v := fun j => 2 * PI * fr * (INR (k * sps + j) / INR sr)) in *.
  assert (W : forall j, (j < sps)%nat -> (let '(c1, c2) := nth ((k * sps + j) / sps) (pairs m) (false, false) in
     nadd (nmul (bit_to_nrz c1) (ccos sr ft (k * sps + j))) (nmul (nopp (bit_to_nrz c2)) (csin sr ft (k * sps + j)))) =
     nrz b1 * cos (u j) - nrz b2 * sin (u j)).
  { intros j Hj. rewrite block_div by lia. rewrite (nth_error_nth _ _ _ Ep). unfold ccos, csin. rewrite !phase_R, !nrz_R.
    cbn [nadd nmul nopp ncos nsin NumR]. unfold nrz, u. destruct b1, b2; ring. }
  set (CC := Rsum_n sps (fun j => cos (u j) * cos (v j))). set (SC := Rsum_n sps (fun j => sin (u j) * cos (v j))).
  set (CS := Rsum_n sps (fun j => cos (u j) * sin (v j))). set (SS := Rsum_n sps (fun j => sin (u j) * sin (v j))).
  rewrite (Rsum_n_ext sps _ (fun j => nrz b1 * (cos (u j) * cos (v j)) + (- nrz b2) * (sin (u j) * cos (v j)))) in B1
    by (intros j Hj; cbv beta; rewrite (W j Hj); unfold v; ring).
  rewrite (Rsum_n_ext sps _ (fun j => nrz b1 * (cos (u j) * sin (v j)) + (- nrz b2) * (sin (u j) * sin (v j)))) in B2
    by (intros j Hj; cbv beta; rewrite (W j Hj); unfold v; ring).
  rewrite Rsum_n_plus, !Rsum_n_scale in B1, B2. fold CC SC in B1. fold CS SS in B2.
  set (q := PI / 2).
  destruct (beat_sums sr sps k ft fr 0 0 ltac:(lia) Hn Sz) as (e1 & He1 & S1).
  destruct (beat_sums sr sps k ft fr (- q) 0 ltac:(lia) Hn Sz) as (e2 & He2 & S2).
  destruct (beat_sums sr sps k ft fr 0 (- q) ltac:(lia) Hn Sz) as (e3 & He3 & S3).
  destruct (beat_sums sr sps k ft fr (- q) (- q) ltac:(lia) Hn Sz) as (e4 & He4 & S4).
  assert (Cq : forall x, cos (x + - q) = sin x).
  { intros x. unfold q. replace (x + - (PI / 2)) with (- (PI / 2 - x)) by ring. rewrite cos_neg. apply cos_shift. }
  rewrite (Rsum_n_ext sps _ (fun j => cos (u j) * cos (v j))) in S1 by (intros j _; rewrite !Rplus_0_r; reflexivity).
  rewrite (Rsum_n_ext sps _ (fun j => sin (u j) * cos (v j))) in S2 by (intros j _; rewrite Rplus_0_r, Cq; reflexivity).
  rewrite (Rsum_n_ext sps _ (fun j => cos (u j) * sin (v j))) in S3 by (intros j _; rewrite Rplus_0_r, Cq; reflexivity).
  rewrite (Rsum_n_ext sps _ (fun j => sin (u j) * sin (v j))) in S4 by (intros j _; rewrite !Cq; reflexivity).
  fold CC in S1. fold SC in S2. fold CS in S3. fold SS in S4.
  pose proof (near_response sps _ Hn Na Ba) as NR. rewrite <- (turn_span sr sps k ft fr) in Tk by lia.
  set (a := PI * (ft - fr) / INR sr) in *. set (D := kernel sps (2 * a)) in *. set (t := a * INR (2 * k * sps + sps - 1)) in *.
  replace (t + (0 - 0)) with t in S1 by ring. replace (t + (- q - - q)) with t in S4 by ring.
  replace (t + (- q - 0)) with (t + - q) in S2 by ring. rewrite Cq in S2.
  replace (t + (0 - - q)) with (- (- t + - q)) in S3 by ring. rewrite cos_neg, Cq, sin_neg in S3.
  pose proof (cos_past _ Tk) as C. fold t in C.
  assert (DC : D * cos t < - (2 / 5 * INR sps)).
  { assert (D * cos t <= D * - (1 / 2)) by (apply Rmult_le_compat_l; lra). lra. }
  set (dc := D * cos t) in *. set (ds := D * sin t) in *.
  replace (D * - sin t) with (- ds) in S3 by (unfold ds; ring).
  apply Flocq.Core.Raux.Rabs_le_inv in He1, He2, He3, He4. set (l := / Rabs _) in *.
  clearbody CC SC CS SS dc ds l D. clear W E Yr Yt.
  unfold nrz in B1, B2.
  destruct b1, b2; cbn [negb] in *.
  - assert (P1 : 0 <= 1 * CC + - (1) * SC) by (apply B1; reflexivity). assert (P2 : 0 <= - (1 * CS + - (1) * SS)) by (apply B2; reflexivity). lra.
  - assert (P1 : 0 <= 1 * CC + - (-1) * SC) by (apply B1; reflexivity).
    assert (P2 : ~ 0 <= - (1 * CS + - (-1) * SS)) by (intros X; apply B2 in X; discriminate). lra.
  - assert (P1 : ~ 0 <= -1 * CC + - (1) * SC) by (intros X; apply B1 in X; discriminate).
    assert (P2 : 0 <= - (-1 * CS + - (1) * SS)) by (apply B2; reflexivity). lra.
  - assert (P1 : ~ 0 <= -1 * CC + - (-1) * SC) by (intros X; apply B1 in X; discriminate).
    assert (P2 : ~ 0 <= - (-1 * CS + - (-1) * SS)) by (intros X; apply B2 in X; discriminate). lra.
Qed.

(** ** Cases *)

(** A phase error of a third of a half turn is harmless; a half turn inverts everything. *)
Example C101_phase_case :
  let heard theta := of_list (tab (3 * 8) (fun i =>
    5 * ((if nth (i / 8) [true; false; true] false then 1 else -1) * cos (2 * PI * 1 * (INR i / INR 8) + theta)))) in
  exists rx1 rx2, rx_bpsk_signal (heard (PI / 3)) 8 1 1 = Ret rx1 /\ yields rx1 [true; false; true] /\
    rx_bpsk_signal (heard PI) 8 1 1 = Ret rx2 /\ yields rx2 [false; true; false].
Proof.
  intros heard.
  assert (D : 2 * 1 * INR (8 / 1) = IZR 2 * INR 8) by (change (8 / 1)%nat with 8%nat; lra).
  assert (Z : ~ (exists z : Z, 2 * 1 = IZR z * INR 8)).
  { intros [z Hz]. rewrite INR_IZR_INZ, <- !mult_IZR in Hz. apply eq_IZR in Hz. lia. }
  destruct (C101_bpsk_phase (heard (PI / 3)) [true; false; true] 8 1 1 5 (PI / 3) 2) as (rx1 & E1 & P1 & _); try assumption; try lra; try lia.
  { apply of_list_yields. }
  destruct (C101_bpsk_phase (heard PI) [true; false; true] 8 1 1 5 PI 2) as (rx2 & E2 & _ & P2 & _); try assumption; try lra; try lia.
  { apply of_list_yields. }
  exists rx1, rx2. split; [exact E1|]. split; [apply P1; rewrite cos_PI3; lra|]. split; [exact E2|].
  apply P2. rewrite cos_PI. lra.
Qed.

Example C101_qpsk_phase_case :
  exists rx, rx_qpsk_signal (of_list (tab (2 * 8) (fun i => let p := nth (i / 8) [(true, true); (false, true)] (false, false) in
      3 * ((if fst p then 1 else -1) * cos (2 * PI * 1 * (INR i / INR 8) + PI / 2) -
           (if snd p then 1 else -1) * sin (2 * PI * 1 * (INR i / INR 8) + PI / 2))))) 8 1 1 = Ret rx /\
    yields rx [false; true; false; false].
Proof.
  destruct (C101_qpsk_phase (of_list (tab (2 * 8) (fun i => let p := nth (i / 8) [(true, true); (false, true)] (false, false) in
      3 * ((if fst p then 1 else -1) * cos (2 * PI * 1 * (INR i / INR 8) + PI / 2) -
           (if snd p then 1 else -1) * sin (2 * PI * 1 * (INR i / INR 8) + PI / 2))))) [(true, true); (false, true)] 8 1 1 3 (PI / 2) 2)
    as (rx & E & _ & _ & P & _); try lra; try lia.
  - apply of_list_yields.
  - change (8 / 1)%nat with 8%nat. lra.
  - intros [z Hz]. rewrite INR_IZR_INZ, <- !mult_IZR in Hz. apply eq_IZR in Hz. lia.
  - exists rx. split; [exact E|]. apply P. rewrite cos_PI2, sin_PI2, Rabs_R0. lra.
Qed.

Lemma tenth_detuned : 20 <> 201 / 10 /\ Rabs (20 - 201 / 10) = 1 / 10 /\
  5 <= INR (80 / 8) * Rabs (sin (PI * (20 + 201 / 10) / INR 80)).
Proof.
  split; [lra|]. split; [rewrite Rabs_left; lra|].
  replace (INR 80) with 80 by (rewrite INR_IZR_INZ; reflexivity). change (80 / 8)%nat with 10%nat. replace (INR 10) with 10 by (rewrite INR_IZR_INZ; reflexivity).
  replace (PI * (20 + 201 / 10) / 80) with (PI / 2 - - (PI / 800)) by field. rewrite sin_shift.
  pose proof PI_bounds as PB. assert (1 / 2 <= cos (- (PI / 800))) by (apply cos_half; apply Rabs_le; lra).
  rewrite Rabs_pos_eq; lra.
Qed.

(** A carrier of 20 Hz received at 20.1 Hz, ten samples a bit: thirteen bits arrive, and one of the first 54 never does. *)
Example C101_detuned_case (data : list bool) :
  exists tx rx out, tx_bpsk_signal (of_list data) 80 8 (20 : R) = Ret tx /\ rx_bpsk_signal tx 80 8 (201 / 10) = Ret rx /\
    yields rx out /\ firstn 13 out = firstn 13 data /\ ((54 <= length data)%nat -> out <> data).
Proof.
  destruct tenth_detuned as (N & A & B).
  destruct (tx_bpsk_ok (of_list data) 10 8 20 ltac:(discriminate) eq_refl) as [tx E].
  { unfold nyquist_ok. replace (nto_u64 (20 : R)) with 20%Z by (cbn [nto_u64 NumR]; rewrite Flocq.Core.Raux.Ztrunc_IZR; reflexivity). reflexivity. }
  change (10 * 8)%nat with 80%nat in E.
  assert (I80 : INR 80 = 80) by (rewrite INR_IZR_INZ; reflexivity).
  destruct (C101_bpsk_detuned_start (of_list data) data 80 8 20 (201 / 10) tx (of_list_yields data) E ltac:(lia) N) as (rx & out & Er & Yr & L & F).
  { lra. }
  exists tx, rx, out. split; [exact E|]. split; [exact Er|]. split; [exact Yr|]. split.
  - apply nth_error_inj. intros k. destruct (Nat.lt_ge_cases k 13) as [Hk|Hk].
    + rewrite !nth_error_firstn by exact Hk. apply F. rewrite A, I80.
      assert (INR (S k * (80 / 8)) <= 130). { replace 130 with (INR 130) by (rewrite INR_IZR_INZ; reflexivity). apply le_INR. change (80 / 8)%nat with 10%nat. lia. }
      lra.
    + rewrite (proj2 (nth_error_None _ _)), (proj2 (nth_error_None _ _)); [reflexivity| |]; rewrite firstn_length; lia.
  - intros Ld Eq. subst out.
    destruct (C101_bpsk_detuned_lost 80 8 20 (201 / 10) ltac:(lia) N) as (k & Hk & G).
    { rewrite A, I80. change (80 / 8)%nat with 10%nat. replace (INR 10) with 10 by (rewrite INR_IZR_INZ; reflexivity). lra. }
    { lra. }
    assert (K : (k < 54)%nat).
    { rewrite A, I80 in Hk. change (80 / 8)%nat with 10%nat in Hk. rewrite mult_INR in Hk. replace (INR 10) with 10 in Hk by (rewrite INR_IZR_INZ; reflexivity).
      apply INR_lt. replace (INR 54) with 54 by (rewrite INR_IZR_INZ; reflexivity). lra. }
    destruct (nth_error data k) as [b|] eqn:Eb; [|apply nth_error_None in Eb; lia].
    destruct (G (of_list data) data tx b (of_list_yields data) E Eb) as (rx' & out' & Er' & Yr' & _ & X).
    rewrite Er in Er'. injection Er' as <-. rewrite (yields_det _ _ _ Yr' Yr), Eb in X. destruct b; discriminate.
Qed.
Example C101_qpsk_detuned_case : exists k : nat, (k < 54)%nat /\ forall data, (2 * k + 1 < length data)%nat ->
  exists tx rx out, tx_qpsk_signal (of_list data) 80 8 (20 : R) = Ret tx /\ rx_qpsk_signal tx 80 8 (201 / 10) = Ret rx /\
    yields rx out /\ out <> data.
Proof.
  destruct tenth_detuned as (N & A & B).
  assert (I80 : INR 80 = 80) by (rewrite INR_IZR_INZ; reflexivity).
  destruct (C101_qpsk_detuned_lost 80 8 20 (201 / 10) ltac:(lia) N) as (k & Hk & G).
  { rewrite A, I80. change (80 / 8)%nat with 10%nat. replace (INR 10) with 10 by (rewrite INR_IZR_INZ; reflexivity). lra. }
  { exact B. }
  exists k. split.
  { rewrite A, I80 in Hk. change (80 / 8)%nat with 10%nat in Hk. rewrite mult_INR in Hk. replace (INR 10) with 10 in Hk by (rewrite INR_IZR_INZ; reflexivity).
    apply INR_lt. replace (INR 54) with 54 by (rewrite INR_IZR_INZ; reflexivity). lra. }
  intros data L. destruct (G (of_list data) data (of_list_yields data) L) as (tx & rx & out & Et & Er & Y & _ & X).
  exists tx, rx, out. split; [exact Et|]. split; [exact Er|]. split; [exact Y|]. intros ->. apply X. split; reflexivity.
Qed.

(** ** Axioms used *)
Print Assumptions C101_bpsk_phase.
Print Assumptions C101_qpsk_phase.
Print Assumptions C101_bpsk_detuned.
Print Assumptions C101_bpsk_detuned_start.
Print Assumptions C101_bpsk_detuned_lost.
Print Assumptions C101_qpsk_detuned_lost.
