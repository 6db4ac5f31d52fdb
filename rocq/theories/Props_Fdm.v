(** Property C102: several links on the air at once, each on its own carrier. *)
From Coq Require Import List Arith ZArith Reals Bool Lia Lra Psatz.
From Verif Require Import Base IterTheory IterModel IterProofs Spec SpecR Tab Num LibModel LibReal
  PskModel PskChain RSums PskReal FskReal Props_Psk Props_Pass Props_Fsk Props_Energy Props_Sync Props_Offset.
Import ListNotations.
Local Open Scope R_scope.

(** ** The neighbours *)

(** w is what the BPSK or the QPSK transmitter sends on carrier f for some message of so many symbols. *)
Definition sends (sample_rate symbol_rate symbols : nat) (f : R) (w : list R) : Prop :=
  (exists (message : Iter bool) m tx, yields message m /\ length m = symbols /\
     tx_bpsk_signal message sample_rate symbol_rate f = Ret tx /\ yields tx w) \/
  (exists (message : Iter bool) m tx, yields message m /\ (length m / 2)%nat = symbols /\
     tx_qpsk_signal message sample_rate symbol_rate f = Ret tx /\ yields tx w).

(** Everything the neighbours add to the first n samples; each has an amplitude, a carrier and a waveform. *)
Definition air (n : nat) (others : list (R * R * list R)) : list R :=
  tab n (fun i => fold_right Rplus 0 (map (fun '(amp, _, w) => amp * nth i w 0) others)).

(** Carriers a whole number of cycles per symbol apart. *)
Definition apart (sample_rate sps : nat) (fc f : R) : Prop :=
  exists d s : Z, (f - fc) * INR sps = IZR d * INR sample_rate /\ (f + fc) * INR sps = IZR s * INR sample_rate /\
    (forall z : Z, f - fc <> IZR z * INR sample_rate) /\ (forall z : Z, f + fc <> IZR z * INR sample_rate).

Lemma sends_form sr sy L f w : let sps := (sr / sy)%nat in (1 <= sy <= sr)%nat -> sends sr sy L f w ->
  exists bi bq : nat -> R, (forall k, Rabs (bi k) <= 1 /\ Rabs (bq k) <= 1) /\ forall i, (i < L * sps)%nat -> nth i w 0 =
    bi (i / sps)%nat * cos (2 * PI * f * (INR i / INR sr)) + bq (i / sps)%nat * sin (2 * PI * f * (INR i / INR sr)).
Proof.
  intros sps Hr H. assert (Hn : (1 <= sr / sy)%nat) by (apply Nat.div_le_lower_bound; lia).
  destruct H as [(message & m & tx & Hm & Lm & Et & Yt)|(message & m & tx & Hm & Lm & Et & Yt)].
  - destruct (tx_bpsk_inv _ _ _ _ _ Et) as (_ & _ & _ & Y). specialize (Y Hn m Hm).
    rewrite (yields_det _ _ _ Yt Y). exists (fun k => if nth k m false then 1 else -1), (fun _ => 0).
    split; [intros k; split; [apply Rabs_le; destruct (nth k m false); lra|rewrite Rabs_R0; lra]|]. intros i Hi.
    unfold bpsk_wave. rewrite Lm. fold sps. rewrite tab_nth by exact Hi. unfold ccos. rewrite phase_R, nrz_R.
    cbn [nmul ncos NumR]. ring.
  - destruct (tx_qpsk_inv message sr sy f ltac:(lia) Hn) as (tx' & Et' & Y). rewrite Et in Et'. injection Et' as <-.
    specialize (Y m Hm). rewrite (yields_det _ _ _ Yt Y).
    exists (fun k => if fst (nth k (pairs m) (false, false)) then 1 else -1), (fun k => if snd (nth k (pairs m) (false, false)) then -1 else 1).
    split; [intros k; destruct (nth k (pairs m) (false, false)) as [b1 b2]; cbn [fst snd]; split; apply Rabs_le; destruct b1, b2; lra|].
    intros i Hi. unfold qpsk_wave. rewrite (pairs_length (length m) m eq_refl), Lm. fold sps. rewrite tab_nth by exact Hi.
    destruct (nth (i / sps) (pairs m) (false, false)) as [b1 b2]. cbn [fst snd]. unfold ccos, csin. rewrite !phase_R, !nrz_R.
    cbn [nadd nmul nopp ncos nsin NumR]. destruct b1, b2; ring.
Qed.

Lemma whole_kernel sr n f z : (1 <= sr)%nat -> f * INR n = IZR z * INR sr -> (forall y : Z, f <> IZR y * INR sr) ->
  kernel n (2 * (PI * f / INR sr)) = 0.
Proof.
  intros Hr Hz Hy. assert (Hsr : INR sr <> 0) by (apply not_0_INR; lia). pose proof PI_bounds as PB.
  pose proof (kernel_closed n (2 * (PI * f / INR sr))) as K. replace (2 * (PI * f / INR sr) / 2) with (PI * f / INR sr) in K by (field; exact Hsr).
  replace (INR n * (PI * f / INR sr)) with (IZR z * PI) in K.
  2:{ replace (INR n * (PI * f / INR sr)) with (PI * (f * INR n) / INR sr) by (field; exact Hsr). rewrite Hz. field. exact Hsr. }
  rewrite sin_pi_Z in K. apply Rmult_integral in K. destruct K as [K|K]; [|exact K]. exfalso.
  apply sin_eq_0_0 in K. destruct K as [y Ey]. apply (Hy y).
  apply (Rmult_eq_reg_l PI); [|lra]. replace (PI * f) with (PI * f / INR sr * INR sr) by (field; exact Hsr). rewrite Ey. ring.
Qed.

Lemma apart_zero sr n k fc f x y : (1 <= sr)%nat -> (1 <= n)%nat -> apart sr n fc f ->
  Rsum_n n (fun j => cos (2 * PI * f * (INR (k * n + j) / INR sr) + x) * cos (2 * PI * fc * (INR (k * n + j) / INR sr) + y)) = 0.
Proof.
  intros Hr Hn (d & s & Hd & Hs & Nd & Ns). pose proof (beat_exact sr n k f fc x y Hr Hn) as B. cbv zeta in B.
  rewrite (whole_kernel sr n (f - fc) d Hr Hd Nd), (whole_kernel sr n (f + fc) s Hr Hs Ns) in B. lra.
Qed.

Lemma quarter x : cos (x + - (PI / 2)) = sin x.
Proof. replace (x + - (PI / 2)) with (- (PI / 2 - x)) by ring. rewrite cos_neg. apply cos_shift. Qed.

(** Neither branch of a receiver hears a neighbour whole cycles away. *)
Lemma neighbour_zero sr sy L k fc f w : let sps := (sr / sy)%nat in let ph i := 2 * PI * fc * (INR i / INR sr) in
  (1 <= sy <= sr)%nat -> (k < L)%nat -> sends sr sy L f w -> apart sr sps fc f ->
  Rsum_n sps (fun j => nth (k * sps + j) w 0 * cos (ph (k * sps + j)%nat)) = 0 /\
  Rsum_n sps (fun j => nth (k * sps + j) w 0 * sin (ph (k * sps + j)%nat)) = 0.
Proof.
  intros sps ph Hr Hk Hw Ha. assert (Hn : (1 <= sps)%nat) by (apply Nat.div_le_lower_bound; lia).
  destruct (sends_form sr sy L f w Hr Hw) as (bi & bq & _ & F). fold sps in F.
  assert (Z : forall x y, Rsum_n sps (fun j => cos (2 * PI * f * (INR (k * sps + j) / INR sr) + x) * cos (ph (k * sps + j)%nat + y)) = 0)
    by (intros x y; apply apart_zero; [lia|exact Hn|exact Ha]).
  assert (G : forall y, Rsum_n sps (fun j => nth (k * sps + j) w 0 * cos (ph (k * sps + j)%nat + y)) = 0).
  { intros y. rewrite (Rsum_n_ext sps _ (fun j => bi k * (cos (2 * PI * f * (INR (k * sps + j) / INR sr) + 0) * cos (ph (k * sps + j)%nat + y)) +
      bq k * (cos (2 * PI * f * (INR (k * sps + j) / INR sr) + - (PI / 2)) * cos (ph (k * sps + j)%nat + y)))).
    - rewrite Rsum_n_plus, !Rsum_n_scale, !Z. ring.
    - intros j Hj. rewrite F by nia. rewrite block_div by lia. rewrite quarter, Rplus_0_r. ring. }
  split.
  - etransitivity; [|exact (G 0)]. apply Rsum_n_ext. intros j _. rewrite Rplus_0_r. reflexivity.
  - etransitivity; [|exact (G (- (PI / 2)))]. apply Rsum_n_ext. intros j _. rewrite quarter. reflexivity.
Qed.

Lemma air_sum N others n i0 (g : nat -> R) : (i0 + n <= N)%nat ->
  Rsum_n n (fun j => nth (i0 + j) (air N others) 0 * g j) =
  fold_right Rplus 0 (map (fun '(amp, _, w) => amp * Rsum_n n (fun j => nth (i0 + j) w 0 * g j)) others).
Proof.
  intros H. induction others as [|[[amp f] w] os IH].
  - cbn [map fold_right]. apply Rsum_n_0. intros j Hj. unfold air. rewrite tab_nth by lia. cbn. ring.
  - cbn [map fold_right]. rewrite <- IH, <- Rsum_n_scale, <- Rsum_n_plus. apply Rsum_n_ext. intros j Hj.
    unfold air. rewrite !tab_nth by lia. cbn [map fold_right]. ring.
Qed.

Lemma fold_zero {A} (f : A -> R) l : (forall a, In a l -> f a = 0) -> fold_right Rplus 0 (map f l) = 0.
Proof.
  induction l as [|a l IH]; intros H; [reflexivity|]. cbn. rewrite (H a (or_introl eq_refl)), IH; [ring|].
  intros b Hb. apply H. right. exact Hb.
Qed.

Lemma air_zero sr sy L k fc others : let sps := (sr / sy)%nat in let ph i := 2 * PI * fc * (INR i / INR sr) in
  (1 <= sy <= sr)%nat -> (k < L)%nat ->
  (forall amp f w, In (amp, f, w) others -> sends sr sy L f w /\ apart sr sps fc f) ->
  Rsum_n sps (fun j => nth (k * sps + j) (air (L * sps) others) 0 * cos (ph (k * sps + j)%nat)) = 0 /\
  Rsum_n sps (fun j => nth (k * sps + j) (air (L * sps) others) 0 * sin (ph (k * sps + j)%nat)) = 0.
Proof.
  intros sps ph Hr Hk H. assert (Hb : (k * sps + sps <= L * sps)%nat) by nia.
  split; rewrite air_sum by exact Hb; apply fold_zero; intros [[amp f] w] Ho; destruct (H amp f w Ho) as [Hw Ha];
    destruct (neighbour_zero sr sy L k fc f w Hr Hk Hw Ha) as [Z1 Z2].
  - change (amp * Rsum_n sps (fun j => nth (k * sps + j) w 0 * cos (ph (k * sps + j)%nat)) = 0).
    replace (Rsum_n sps _) with 0 by (symmetry; exact Z1). ring.
  - change (amp * Rsum_n sps (fun j => nth (k * sps + j) w 0 * sin (ph (k * sps + j)%nat)) = 0).
    replace (Rsum_n sps _) with 0 by (symmetry; exact Z2). ring.
Qed.

(** ** Whole cycles apart *)

(** Any number of BPSK and QPSK neighbours, however loud, whole cycles per symbol away: the message comes through. *)
Theorem C102_bpsk_channels :
  forall (message : Iter bool) m (sample_rate symbol_rate : nat) (fc : R) tx (half_cycles : Z) (others : list (R * R * list R)),
    let sps := (sample_rate / symbol_rate)%nat in
    yields message m -> tx_bpsk_signal message sample_rate symbol_rate fc = Ret tx -> (symbol_rate <= sample_rate)%nat ->
    2 * fc * INR sps = IZR half_cycles * INR sample_rate -> ~ (exists z : Z, 2 * fc = IZR z * INR sample_rate) ->
    (forall amp f w, In (amp, f, w) others -> sends sample_rate symbol_rate (length m) f w /\ apart sample_rate sps fc f) ->
    exists rx, rx_bpsk_signal (noisy tx (air (length m * sps) others)) sample_rate symbol_rate fc = Ret rx /\ yields rx m.
Proof.
  intros message m sr sy fc tx h others sps Hm Htx Hle Hh Hz Ho.
  assert (Hy : sy <> 0%nat) by (apply (tx_bpsk_inv _ _ _ _ _ Htx)).
  assert (Hn : (1 <= sps)%nat) by (apply Nat.div_le_lower_bound; lia).
  destruct (C78_bpsk_noise_exact message m sr sy fc tx (air (length m * sps) others) Hm Htx Hle (tab_length _ _)) as (rx & out & Er & Yr & L & E).
  exists rx. split; [exact Er|]. replace m with out; [exact Yr|]. apply nth_error_inj. intros k.
  destruct (nth_error m k) as [b|] eqn:Eb; [|apply nth_error_None; apply nth_error_None in Eb; lia].
  assert (Hk : (k < length m)%nat) by (apply nth_error_Some; congruence).
  apply (E k b Eb). fold sps.
  destruct (air_zero sr sy (length m) k fc others ltac:(lia) Hk Ho) as [Z _]. fold sps in Z.
  destruct (qpsk_design_sums sr sy fc h k ltac:(lia) Hh Hz) as (C & _). fold sps in C.
  rewrite Z, C. assert (1 <= INR sps) by (apply (le_INR 1); exact Hn). destruct b; lra.
Qed.

Theorem C102_qpsk_channels :
  forall (message : Iter bool) m (sample_rate symbol_rate : nat) (fc : R) (half_cycles : Z) (others : list (R * R * list R)),
    let sps := (sample_rate / symbol_rate)%nat in
    yields message m -> (1 <= symbol_rate <= sample_rate)%nat ->
    2 * fc * INR sps = IZR half_cycles * INR sample_rate -> ~ (exists z : Z, 2 * fc = IZR z * INR sample_rate) ->
    (forall amp f w, In (amp, f, w) others -> sends sample_rate symbol_rate (length m / 2) f w /\ apart sample_rate sps fc f) ->
    exists tx rx, tx_qpsk_signal message sample_rate symbol_rate fc = Ret tx /\
      rx_qpsk_signal (noisy tx (air (length m / 2 * sps) others)) sample_rate symbol_rate fc = Ret rx /\
      yields rx (firstn (2 * (length m / 2)) m).
Proof.
  intros message m sr sy fc h others sps Hm Hr Hh Hz Ho.
  assert (Hn : (1 <= sps)%nat) by (apply Nat.div_le_lower_bound; lia).
  destruct (C78_qpsk_noise_exact message m sr sy fc (air (length m / 2 * sps) others) Hm Hr (tab_length _ _)) as (tx & rx & out & Et & Er & Yr & L & E).
  exists tx, rx. split; [exact Et|]. split; [exact Er|]. fold sps in E.
  pose proof (Nat.mul_div_le (length m) 2 ltac:(lia)) as Lm.
  replace (firstn (2 * (length m / 2)) m) with out; [exact Yr|]. apply nth_error_inj. intros i.
  destruct (Nat.lt_ge_cases i (2 * (length m / 2))) as [Hi|Hi].
  2:{ rewrite (proj2 (nth_error_None out i)) by lia. symmetry. apply nth_error_None. rewrite firstn_length. lia. }
  rewrite nth_error_firstn by exact Hi.
  pose (k := (i / 2)%nat). pose proof (Nat.div_mod i 2 ltac:(lia)) as DM. pose proof (Nat.mod_upper_bound i 2 ltac:(lia)) as DU.
  assert (Hk : (k < length m / 2)%nat) by (unfold k; lia).
  destruct (nth_error m (2 * k)) as [b1|] eqn:E1; [|apply nth_error_None in E1; lia].
  destruct (nth_error m (2 * k + 1)) as [b2|] eqn:E2; [|apply nth_error_None in E2; lia].
  destruct (E k b1 b2 E1 E2) as [Q1 Q2].
  destruct (air_zero sr sy (length m / 2) k fc others Hr Hk Ho) as [Z1 Z2]. fold sps in Z1, Z2.
  destruct (qpsk_design_sums sr sy fc h k ltac:(lia) Hh Hz) as (C & S & X). fold sps in C, S, X.
  rewrite Z1, C, X in Q1. rewrite Z2, S, X in Q2.
  assert (H1 : 1 <= INR sps) by (apply (le_INR 1); exact Hn).
  assert (D : i = (2 * k)%nat \/ i = (2 * k + 1)%nat) by (unfold k; lia). clearbody k. clear DM DU.
  destruct D as [-> | ->].
  - rewrite E1. apply Q1. destruct b1, b2; lra.
  - rewrite E2. apply Q2. destruct b1, b2; lra.
Qed.

(** A receiver tuned to an empty channel hears nothing of the others: BPSK reads all false. *)
Theorem C102_empty_channel :
  forall (signal : Iter R) (sample_rate symbol_rate symbols : nat) (fc : R) (others : list (R * R * list R)),
    let sps := (sample_rate / symbol_rate)%nat in
    (1 <= symbol_rate <= sample_rate)%nat -> yields signal (air (symbols * sps) others) ->
    (forall amp f w, In (amp, f, w) others -> sends sample_rate symbol_rate symbols f w /\ apart sample_rate sps fc f) ->
    exists rx, rx_bpsk_signal signal sample_rate symbol_rate fc = Ret rx /\ yields rx (repeat false symbols).
Proof.
  intros signal sr sy L fc others sps Hr Y Ho. assert (Hn : (1 <= sps)%nat) by (apply Nat.div_le_lower_bound; lia).
  destruct (C29_bpsk_receiver_exact signal _ sr sy fc Y Hr) as (rx & out & Er & Yr & Lo & E). fold sps in Lo, E.
  unfold air in Lo. rewrite tab_length, Nat.div_mul in Lo by lia.
  exists rx. split; [exact Er|]. replace (repeat false L) with out; [exact Yr|]. apply nth_error_inj. intros k.
  destruct (Nat.lt_ge_cases k L) as [Hk|Hk].
  2:{ rewrite (proj2 (nth_error_None out k)) by lia. symmetry. apply nth_error_None. rewrite repeat_length. exact Hk. }
  rewrite (nth_error_repeat false Hk). destruct (nth_error out k) as [b|] eqn:Eb; [|apply nth_error_None in Eb; lia].
  specialize (E k b Eb). destruct (air_zero sr sy L k fc others Hr Hk Ho) as [Z _]. fold sps in Z. rewrite Z in E.
  destruct b; [|reflexivity]. exfalso. assert (0 < 0) by (apply E; reflexivity). lra.
Qed.

(** ** Half a cycle apart *)

Lemma half_kernel sr n k f z : (1 <= sr)%nat -> (1 <= n)%nat -> 2 * f * INR n = IZR (2 * z + 1) * INR sr ->
  let a := PI * f / INR sr in kernel n (2 * a) * cos (a * INR (2 * k * n + n - 1)) = if Nat.odd k then -1 else 1.
Proof.
  intros Hr Hn Hz a. assert (Hsr : INR sr <> 0) by (apply not_0_INR; lia).
  pose proof (kernel_closed n (2 * a)) as K. replace (2 * a / 2) with a in K by field.
  assert (Na : INR n * a = PI / 2 + IZR z * PI).
  { unfold a. replace (INR n * (PI * f / INR sr)) with (PI / 2 * (2 * f * INR n) / INR sr) by (field; exact Hsr). rewrite Hz, plus_IZR, mult_IZR. field. exact Hsr. }
  assert (S2 : sin (INR n * a) * sin (INR n * a) = 1).
  { rewrite Na, sin_plus, sin_PI2, cos_PI2, sin_pi_Z, cos_pi_Z. destruct (Z.odd z); ring. }
  assert (C0 : cos (INR n * a) = 0).
  { rewrite Na, cos_plus, sin_PI2, cos_PI2, sin_pi_Z. ring. }
  assert (Sa : sin a <> 0) by (intros E; rewrite E in K; rewrite <- K in S2; lra).
  replace (a * INR (2 * k * n + n - 1)) with ((INR n * a - a) + IZR (Z.of_nat k * (2 * z + 1)) * PI).
  2:{ rewrite minus_INR by nia. rewrite plus_INR, !mult_INR, mult_IZR, <- INR_IZR_INZ, plus_IZR, mult_IZR. cbn [INR].
      replace (INR k * (2 * IZR z + 1) * PI) with (2 * INR k * (INR n * a)) by (rewrite Na; field). ring. }
  rewrite cos_plus, sin_pi_Z, cos_pi_Z, Z.odd_mul. replace (Z.odd (2 * z + 1)) with true by (rewrite Z.odd_add, Z.odd_mul; reflexivity).
  rewrite andb_true_r. replace (Z.odd (Z.of_nat k)) with (Nat.odd k).
  2:{ apply Bool.eq_iff_eq_true. rewrite Nat.odd_spec, Z.odd_spec. split; intros [q Hq]; [exists (Z.of_nat q)|exists (Z.to_nat q)]; lia. }
  apply (Rmult_eq_reg_l (sin a)); [|exact Sa]. rewrite <- Rmult_assoc, K, cos_minus, C0.
  replace (sin (INR n * a) * ((0 * cos a + sin (INR n * a) * sin a) * (if Nat.odd k then -1 else 1) - sin (INR n * a - a) * 0))
    with (sin (INR n * a) * sin (INR n * a) * (sin a * (if Nat.odd k then -1 else 1))) by ring.
  rewrite S2. ring.
Qed.

(** With the carriers an odd number of half cycles per symbol apart, a neighbour is heard with exactly the weight of
    one sample, with alternating sign: below half a symbol's samples in amplitude it is harmless, above it every
    bit of the receiver is the neighbour's. *)
Theorem C102_half_spacing :
  forall (message message' : Iter bool) m m' (sample_rate symbol_rate : nat) (fc f amp : R) tx tx' w (half_cycles d s : Z),
    let sps := (sample_rate / symbol_rate)%nat in
    yields message m -> tx_bpsk_signal message sample_rate symbol_rate fc = Ret tx -> (symbol_rate <= sample_rate)%nat ->
    2 * fc * INR sps = IZR half_cycles * INR sample_rate -> ~ (exists z : Z, 2 * fc = IZR z * INR sample_rate) ->
    yields message' m' -> length m' = length m -> tx_bpsk_signal message' sample_rate symbol_rate f = Ret tx' -> yields tx' w ->
    2 * (f - fc) * INR sps = IZR (2 * d + 1) * INR sample_rate -> 2 * (f + fc) * INR sps = IZR (2 * s + 1) * INR sample_rate ->
    0 <= amp ->
    exists rx out, rx_bpsk_signal (noisy tx (air (length m * sps) [(amp, f, w)])) sample_rate symbol_rate fc = Ret rx /\
      yields rx out /\ length out = length m /\
      (2 * amp < INR sps -> out = m) /\
      (INR sps < 2 * amp -> forall k b', nth_error m' k = Some b' -> nth_error out k = Some (xorb (Nat.odd k) b')).
Proof.
  intros message message' m m' sr sy fc f amp tx tx' w h d s sps Hm Htx Hle Hh Hz Hm' Lm' Htx' Yw Hd Hs Ha.
  assert (Hy : sy <> 0%nat) by (apply (tx_bpsk_inv _ _ _ _ _ Htx)).
  assert (Hn : (1 <= sps)%nat) by (apply Nat.div_le_lower_bound; lia).
  destruct (C78_bpsk_noise_exact message m sr sy fc tx (air (length m * sps) [(amp, f, w)]) Hm Htx Hle (tab_length _ _)) as (rx & out & Er & Yr & L & E).
  exists rx, out. split; [exact Er|]. split; [exact Yr|]. split; [exact L|]. fold sps in E.
  assert (Hn1 : 1 <= INR sps) by (apply (le_INR 1); exact Hn).
  assert (Q : forall k b b', nth_error m k = Some b -> nth_error m' k = Some b' ->
    let hit := amp * (if xorb (Nat.odd k) b' then 1 else -1) in
    (nth_error out k = Some b <-> if b then - hit < INR sps / 2 else hit <= INR sps / 2)).
  { intros k b b' Hb Hb' hit. rewrite (E k b Hb).
    assert (Hk : (k < length m)%nat) by (apply nth_error_Some; congruence).
    destruct (qpsk_design_sums sr sy fc h k ltac:(lia) Hh Hz) as (C & _). fold sps in C. rewrite C.
    rewrite (air_sum _ _ sps (k * sps) (fun j => cos (2 * PI * fc * (INR (k * sps + j) / INR sr)))) by nia. cbn [map fold_right].
    destruct (tx_bpsk_inv _ _ _ _ _ Htx') as (_ & _ & _ & Y). specialize (Y Hn m' Hm'). rewrite (yields_det _ _ _ Yw Y).
    rewrite (Rsum_n_ext sps _ (fun j => (if b' then 1 else -1) * (cos (2 * PI * f * (INR (k * sps + j) / INR sr)) * cos (2 * PI * fc * (INR (k * sps + j) / INR sr))))).
    2:{ intros j Hj. unfold bpsk_wave. fold sps. rewrite tab_nth by nia. rewrite block_div by lia. rewrite (nth_error_nth m' k false Hb').
        unfold ccos. rewrite phase_R, nrz_R. cbn [nmul ncos NumR]. ring. }
    rewrite Rsum_n_scale. pose proof (beat_exact sr sps k f fc 0 0 ltac:(lia) Hn) as B. cbv zeta in B.
    rewrite (Rsum_n_ext sps _ (fun j => cos (2 * PI * f * (INR (k * sps + j) / INR sr)) * cos (2 * PI * fc * (INR (k * sps + j) / INR sr)))) in B
      by (intros j _; rewrite !Rplus_0_r; reflexivity).
    rewrite Rminus_0_r, !Rplus_0_r in B.
    rewrite (half_kernel sr sps k (f - fc) d ltac:(lia) Hn Hd), (half_kernel sr sps k (f + fc) s ltac:(lia) Hn Hs) in B.
    clear C. set (c := Rsum_n sps _) in *. assert (Ec : c = if Nat.odd k then -1 else 1) by (destruct (Nat.odd k); lra).
    rewrite Ec. unfold hit. destruct (Nat.odd k), b', b; cbn [xorb]; split; intros X; lra. }
  split.
  - intros H. apply nth_error_inj. intros k.
    destruct (nth_error m k) as [b|] eqn:Eb; [|apply nth_error_None; apply nth_error_None in Eb; lia].
    assert (Hk : (k < length m)%nat) by (apply nth_error_Some; congruence).
    destruct (nth_error m' k) as [b'|] eqn:Eb'; [|apply nth_error_None in Eb'; lia].
    apply (Q k b b' Eb Eb'). destruct b, (xorb (Nat.odd k) b'); lra.
  - intros H k b' Eb'. assert (Hk : (k < length m)%nat) by (rewrite <- Lm'; apply nth_error_Some; congruence).
    destruct (nth_error m k) as [b|] eqn:Eb; [|apply nth_error_None in Eb; lia]. specialize (Q k b b' Eb Eb'). cbv zeta in Q.
    destruct (nth_error out k) as [x|] eqn:Ex; [|apply nth_error_None in Ex; lia]. f_equal.
    destruct b, (xorb (Nat.odd k) b'), x; try reflexivity; exfalso.
    + assert (Y : Some false = Some true) by (apply Q; lra). discriminate.
    + assert (Y : - (amp * -1) < INR sps / 2) by (apply Q; reflexivity). lra.
    + assert (Y : amp * 1 <= INR sps / 2) by (apply Q; reflexivity). lra.
    + assert (Y : Some true = Some false) by (apply Q; lra). discriminate.
Qed.

(** ** Neighbours that keep no time *)

(** Two tones correlated over any stretch of samples. *)
Lemma stretch_bound n p q a s : sin a <> 0 -> sin s <> 0 ->
  Rabs (Rsum_n n (fun j => cos (p + (a + s) * INR j) * cos (q + (s - a) * INR j))) <= (/ Rabs (sin a) + / Rabs (sin s)) / 2.
Proof.
  intros Ha Hs.
  rewrite (Rsum_n_ext n _ (fun j => / 2 * cos ((p - q) + 2 * a * INR j) + / 2 * cos ((p + q) + 2 * s * INR j))).
  2:{ intros j _. replace (p - q + 2 * a * INR j) with ((p + (a + s) * INR j) - (q + (s - a) * INR j)) by ring.
      replace (p + q + 2 * s * INR j) with ((p + (a + s) * INR j) + (q + (s - a) * INR j)) by ring.
      rewrite cos_minus, (cos_plus (p + (a + s) * INR j) (q + (s - a) * INR j)). field. }
  rewrite Rsum_n_plus, !Rsum_n_scale, !sum_cos_kernel.
  pose proof (kernel_cos_bound n a (p - q + 2 * a * ((INR n - 1) / 2)) Ha) as A.
  pose proof (kernel_cos_bound n s (p + q + 2 * s * ((INR n - 1) / 2)) Hs) as B.
  apply Flocq.Core.Raux.Rabs_le_inv in A, B. apply Rabs_le. lra.
Qed.

Lemma nth_skipn' {A} (l : list A) n i d : nth i (skipn n l) d = nth (n + i) l d.
Proof. revert l; induction n as [|n IH]; intros [|a l]; cbn; try reflexivity; [destruct i; reflexivity|apply IH]. Qed.

Lemma late_neighbour sr sy L k fc f w d : let sps := (sr / sy)%nat in let ph i := 2 * PI * fc * (INR i / INR sr) in
  let a := sin (PI * (f - fc) / INR sr) in let s := sin (PI * (f + fc) / INR sr) in
  (1 <= sy <= sr)%nat -> sends sr sy L f w -> (k * sps + sps + d <= L * sps)%nat -> a <> 0 -> s <> 0 ->
  Rabs (Rsum_n sps (fun j => nth (k * sps + j) (skipn d w) 0 * cos (ph (k * sps + j)%nat))) <= 2 * (/ Rabs a + / Rabs s).
Proof.
  intros sps ph a s Hr Hw HL Ha Hs. assert (Hn : (1 <= sps)%nat) by (apply Nat.div_le_lower_bound; lia).
  assert (Hsr : INR sr <> 0) by (apply not_0_INR; lia).
  destruct (sends_form sr sy L f w Hr Hw) as (bi & bq & Hb & F). fold sps in F.
  set (r := (d mod sps)%nat). pose proof (Nat.mod_upper_bound d sps ltac:(lia)) as Ur. fold r in Ur.
  set (q := (d / sps + k)%nat). set (M := (/ Rabs a + / Rabs s) / 2).
  assert (Piece : forall n j0 b c, Rabs b <= 1 -> Rabs c <= 1 ->
    Rabs (Rsum_n n (fun j => (b * cos (2 * PI * f * (INR (k * sps + (j0 + j) + d) / INR sr)) + c * sin (2 * PI * f * (INR (k * sps + (j0 + j) + d) / INR sr))) *
      cos (ph (k * sps + (j0 + j))%nat))) <= 2 * M).
  { intros n j0 b c Hb1 Hc1.
    set (al := PI * (f - fc) / INR sr). set (sg := PI * (f + fc) / INR sr).
    set (p0 := 2 * PI * f * (INR (k * sps + j0 + d) / INR sr)). set (q0 := 2 * PI * fc * (INR (k * sps + j0) / INR sr)).
    assert (Sp : forall j, 2 * PI * f * (INR (k * sps + (j0 + j) + d) / INR sr) = p0 + (al + sg) * INR j).
    { intros j. unfold p0, al, sg. replace (k * sps + (j0 + j) + d)%nat with (k * sps + j0 + d + j)%nat by lia.
      rewrite (plus_INR (k * sps + j0 + d)). field. exact Hsr. }
    assert (Sq : forall j, ph (k * sps + (j0 + j))%nat = q0 + (sg - al) * INR j).
    { intros j. unfold ph, q0, al, sg. replace (k * sps + (j0 + j))%nat with (k * sps + j0 + j)%nat by lia.
      rewrite (plus_INR (k * sps + j0)). field. exact Hsr. }
    rewrite (Rsum_n_ext n _ (fun j => b * (cos (p0 + (al + sg) * INR j) * cos (q0 + (sg - al) * INR j)) +
      c * (cos (p0 + - (PI / 2) + (al + sg) * INR j) * cos (q0 + (sg - al) * INR j)))).
    2:{ intros j _. cbv beta. rewrite Sp, Sq. replace (p0 + - (PI / 2) + (al + sg) * INR j) with (p0 + (al + sg) * INR j + - (PI / 2)) by ring.
        rewrite quarter. ring. }
    rewrite Rsum_n_plus, !Rsum_n_scale.
    pose proof (stretch_bound n p0 q0 al sg Ha Hs) as B1. pose proof (stretch_bound n (p0 + - (PI / 2)) q0 al sg Ha Hs) as B2.
    fold a s in B1, B2. fold M in B1, B2. eapply Rle_trans; [apply Rabs_triang|]. rewrite !Rabs_mult.
    assert (Tm : forall u v, Rabs u <= 1 -> Rabs v <= M -> Rabs u * Rabs v <= M).
    { intros u v Hu Hv. pose proof (Rabs_pos u). pose proof (Rabs_pos v). nra. }
    pose proof (Tm _ _ Hb1 B1). pose proof (Tm _ _ Hc1 B2). lra. }
  replace (2 * (/ Rabs a + / Rabs s)) with (2 * M + 2 * M) by (unfold M; field; split; apply Rabs_no_R0; assumption).
  replace sps with ((sps - r) + r)%nat at 1 by lia. rewrite Rsum_n_add.
  eapply Rle_trans; [apply Rabs_triang|]. apply Rplus_le_compat.
  - erewrite Rsum_n_ext; [apply (Piece (sps - r)%nat 0%nat (bi q) (bq q)); apply Hb|].
    intros j Hj. cbv beta. rewrite nth_skipn', F by nia. replace (d + (k * sps + j))%nat with (k * sps + (0 + j) + d)%nat by lia.
    replace ((k * sps + (0 + j) + d) / sps)%nat with q; [reflexivity|].
    replace (k * sps + (0 + j) + d)%nat with (d + (k * sps + j))%nat by lia. rewrite late_index by lia.
    destruct (Nat.ltb_spec j (sps - d mod sps)); [unfold q; lia|unfold r in Hj; lia].
  - erewrite Rsum_n_ext; [apply (Piece r (sps - r)%nat (bi (q + 1)%nat) (bq (q + 1)%nat)); apply Hb|].
    intros j Hj. cbv beta. rewrite nth_skipn', F by nia. replace (d + (k * sps + (sps - r + j)))%nat with (k * sps + (sps - r + j) + d)%nat by lia.
    replace ((k * sps + (sps - r + j) + d) / sps)%nat with (q + 1)%nat; [reflexivity|].
    replace (k * sps + (sps - r + j) + d)%nat with (d + (k * sps + (sps - r + j)))%nat by lia. rewrite late_index by lia.
    destruct (Nat.ltb_spec (sps - r + j) (sps - d mod sps)); [unfold r in *; lia|unfold q; lia].
Qed.

(** Neighbours starting at any time, on any other carriers: the message comes through while their amplitudes,
    weighted by how near the carriers are, add up to less than the symbol's energy. *)
Theorem C102_bpsk_unsynchronised :
  forall (message : Iter bool) m (sample_rate symbol_rate : nat) (fc : R) tx (half_cycles : Z) (others : list (R * R * list R)),
    let sps := (sample_rate / symbol_rate)%nat in
    let near f := / Rabs (sin (PI * (f - fc) / INR sample_rate)) + / Rabs (sin (PI * (f + fc) / INR sample_rate)) in
    yields message m -> tx_bpsk_signal message sample_rate symbol_rate fc = Ret tx -> (symbol_rate <= sample_rate)%nat ->
    2 * fc * INR sps = IZR half_cycles * INR sample_rate -> ~ (exists z : Z, 2 * fc = IZR z * INR sample_rate) ->
    (forall amp f w, In (amp, f, w) others ->
       sin (PI * (f - fc) / INR sample_rate) <> 0 /\ sin (PI * (f + fc) / INR sample_rate) <> 0 /\
       exists symbols late sent, sends sample_rate symbol_rate symbols f sent /\ w = skipn late sent /\
         (length m * sps + late <= symbols * sps)%nat) ->
    fold_right Rplus 0 (map (fun '(amp, f, _) => Rabs amp * (2 * near f)) others) < INR sps / 2 ->
    exists rx, rx_bpsk_signal (noisy tx (air (length m * sps) others)) sample_rate symbol_rate fc = Ret rx /\ yields rx m.
Proof.
  intros message m sr sy fc tx h others sps near Hm Htx Hle Hh Hz Ho Hw.
  assert (Hy : sy <> 0%nat) by (apply (tx_bpsk_inv _ _ _ _ _ Htx)).
  assert (Hn : (1 <= sps)%nat) by (apply Nat.div_le_lower_bound; lia).
  destruct (C78_bpsk_noise_exact message m sr sy fc tx (air (length m * sps) others) Hm Htx Hle (tab_length _ _)) as (rx & out & Er & Yr & L & E).
  exists rx. split; [exact Er|]. replace m with out; [exact Yr|]. apply nth_error_inj. intros k.
  destruct (nth_error m k) as [b|] eqn:Eb; [|apply nth_error_None; apply nth_error_None in Eb; lia].
  assert (Hk : (k < length m)%nat) by (apply nth_error_Some; congruence).
  apply (E k b Eb). fold sps. clear E.
  destruct (qpsk_design_sums sr sy fc h k ltac:(lia) Hh Hz) as (C & _). fold sps in C. rewrite C.
  rewrite (air_sum _ _ sps (k * sps) (fun j => cos (2 * PI * fc * (INR (k * sps + j) / INR sr)))) by nia.
  assert (G : Rabs (fold_right Rplus 0 (map (fun '(amp, _, w) => amp * Rsum_n sps (fun j => nth (k * sps + j) w 0 * cos (2 * PI * fc * (INR (k * sps + j) / INR sr)))) others))
     <= fold_right Rplus 0 (map (fun '(amp, f, _) => Rabs amp * (2 * near f)) others)).
  { clear Hw Er. induction others as [|[[amp f] w] os IH]; [cbn; rewrite Rabs_R0; lra|]. cbn [map fold_right].
    eapply Rle_trans; [apply Rabs_triang|]. apply Rplus_le_compat.
    - destruct (Ho amp f w (or_introl eq_refl)) as (N1 & N2 & symbols & late & sent & Hs & -> & Hl). rewrite Rabs_mult.
      apply Rmult_le_compat_l; [apply Rabs_pos|]. apply (late_neighbour sr sy symbols k fc f sent late); [lia|exact Hs| |exact N1|exact N2].
      fold sps. nia.
    - apply IH.
      + intros amp' f' w' Hi. apply (Ho amp' f' w'). right. exact Hi. }
  apply Flocq.Core.Raux.Rabs_le_inv in G. destruct b; lra.
Qed.

(** ** Cases *)

Lemma cycles_apart : apart 80 10 8 16 /\ apart 80 10 8 24.
Proof.
  assert (I : INR 80 = 80) by (rewrite INR_IZR_INZ; reflexivity). assert (J : INR 10 = 10) by (rewrite INR_IZR_INZ; reflexivity).
  assert (K : forall a z : Z, (a mod 80 <> 0)%Z -> IZR a <> IZR z * 80).
  { intros a z Hr E. rewrite <- mult_IZR in E. apply eq_IZR in E. apply Hr. rewrite E. apply Z.mod_mul. lia. }
  unfold apart. rewrite I, J. split.
  - exists 1%Z, 3%Z. split; [lra|]. split; [lra|]. split; intros z.
    + replace (16 - 8) with (IZR 8) by lra. apply K. discriminate.
    + replace (16 + 8) with (IZR 24) by lra. apply K. discriminate.
  - exists 2%Z, 4%Z. split; [lra|]. split; [lra|]. split; intros z.
    + replace (24 - 8) with (IZR 16) by lra. apply K. discriminate.
    + replace (24 + 8) with (IZR 32) by lra. apply K. discriminate.
Qed.
Lemma own_design : 2 * 8 * INR (80 / 8) = IZR 2 * INR 80 /\ ~ (exists z : Z, 2 * 8 = IZR z * INR 80).
Proof.
  change (80 / 8)%nat with 10%nat. split; [rewrite !INR_IZR_INZ; cbn; lra|].
  intros [z Hz]. rewrite INR_IZR_INZ, <- !mult_IZR in Hz. apply eq_IZR in Hz. lia.
Qed.
Lemma tx_80 data (f : Z) : (0 <= f <= 40)%Z -> exists tx w, tx_bpsk_signal (of_list data) 80 8 (IZR f) = Ret tx /\ yields tx w.
Proof.
  intros Hf. destruct (tx_bpsk_ok (of_list data) 10 8 (IZR f) ltac:(discriminate) eq_refl) as [tx E].
  { unfold nyquist_ok. replace (nto_u64 (IZR f : R)) with f by (cbn [nto_u64 NumR]; rewrite Flocq.Core.Raux.Ztrunc_IZR; unfold clamp_u64, u64_max; lia).
    apply Z.leb_le. change (Z.of_nat (10 * 8 / 2)) with 40%Z. lia. }
  change (10 * 8)%nat with 80%nat in E. destruct (tx_bpsk_inv _ _ _ _ _ E) as (_ & _ & _ & Y).
  exists tx. eexists. split; [exact E|]. apply Y; [cbn; lia|apply of_list_yields].
Qed.

(** The receiver at 8 Hz among a QPSK neighbour at 16 Hz and a BPSK neighbour at 24 Hz, both a hundred times louder. *)
Example C102_channels_case (data other : list bool) (more : list bool) :
  length other = length data -> (length more / 2)%nat = length data ->
  exists tx tx2 tx3 w2 w3 rx, tx_bpsk_signal (of_list data) 80 8 (8 : R) = Ret tx /\
    tx_qpsk_signal (of_list more) 80 8 (16 : R) = Ret tx2 /\ yields tx2 w2 /\
    tx_bpsk_signal (of_list other) 80 8 (24 : R) = Ret tx3 /\ yields tx3 w3 /\
    rx_bpsk_signal (noisy tx (air (length data * (80 / 8)) [(100, 16, w2); (-100, 24, w3)])) 80 8 8 = Ret rx /\ yields rx data.
Proof.
  intros L1 L2. destruct (tx_80 data 8 ltac:(lia)) as (tx & w & Et & Y). destruct (tx_80 other 24 ltac:(lia)) as (tx3 & w3 & Et3 & Y3).
  destruct (tx_qpsk_inv (of_list more) 80 8 16 ltac:(lia) ltac:(cbn; lia)) as (tx2 & Et2 & Y2). specialize (Y2 more (of_list_yields more)).
  destruct cycles_apart as [A1 A2]. destruct own_design as [D1 D2].
  destruct (C102_bpsk_channels (of_list data) data 80 8 8 tx 2 [(100, 16, qpsk_wave 80 16 (80 / 8) (pairs more)); (-100, 24, w3)]
    (of_list_yields data) Et ltac:(lia) D1 D2) as (rx & Er & Yr).
  { intros amp f v [E|[E|[]]].
    - injection E as <- <- <-. split; [|exact A1]. right. exists (of_list more), more, tx2. split; [apply of_list_yields|]. split; [exact L2|]. split; assumption.
    - injection E as <- <- <-. split; [|exact A2]. left. exists (of_list other), other, tx3. split; [apply of_list_yields|]. split; [exact L1|]. split; assumption. }
  exists tx, tx2, tx3, (qpsk_wave 80 16 (80 / 8) (pairs more)), w3, rx. split; [exact Et|]. split; [exact Et2|]. split; [exact Y2|]. split; [exact Et3|]. split; [exact Y3|]. split; [exact Er|exact Yr].
Qed.
Example C102_qpsk_channels_case (other : list bool) : length other = 2%nat ->
  exists tx tx3 w3 rx, tx_qpsk_signal (of_list [true; false; false; true]) 80 8 (8 : R) = Ret tx /\
    tx_bpsk_signal (of_list other) 80 8 (24 : R) = Ret tx3 /\ yields tx3 w3 /\
    rx_qpsk_signal (noisy tx (air (2 * (80 / 8)) [(1000, 24, w3)])) 80 8 8 = Ret rx /\ yields rx [true; false; false; true].
Proof.
  intros L. destruct (tx_80 other 24 ltac:(lia)) as (tx3 & w3 & Et3 & Y3). destruct cycles_apart as [A1 A2]. destruct own_design as [D1 D2].
  destruct (C102_qpsk_channels (of_list [true; false; false; true]) [true; false; false; true] 80 8 8 2 [(1000, 24, w3)]
    (of_list_yields _) ltac:(lia) D1 D2) as (tx & rx & Et & Er & Yr).
  { intros amp f v [E|[]]. injection E as <- <- <-. split; [|exact A2]. left. exists (of_list other), other, tx3.
    split; [apply of_list_yields|]. split; [exact L|]. split; assumption. }
  exists tx, tx3, w3, rx. split; [exact Et|]. split; [exact Et3|]. split; [exact Y3|]. split; [exact Er|exact Yr].
Qed.
Example C102_empty_case : exists tx w rx, tx_bpsk_signal (of_list [true; true]) 80 8 (24 : R) = Ret tx /\ yields tx w /\
  rx_bpsk_signal (of_list (air (2 * (80 / 8)) [(7, 24, w)])) 80 8 8 = Ret rx /\ yields rx [false; false].
Proof.
  destruct (tx_80 [true; true] 24 ltac:(lia)) as (tx & w & Et & Y). destruct cycles_apart as [A1 A2].
  destruct (C102_empty_channel (of_list (air (2 * (80 / 8)) [(7, 24, w)])) 80 8 2 8 [(7, 24, w)] ltac:(lia) (of_list_yields _)) as (rx & Er & Yr).
  { intros amp f v [E|[]]. injection E as <- <- <-. split; [|exact A2]. left. exists (of_list [true; true]), [true; true], tx.
    split; [apply of_list_yields|]. split; [reflexivity|]. split; assumption. }
  exists tx, w, rx. split; [exact Et|]. split; [exact Y|]. split; [exact Er|exact Yr].
Qed.
(** A neighbour at 12 Hz, half a cycle per symbol from 8 Hz: harmless with amplitude 4, and with 6 all the receiver hears. *)
Example C102_half_case : exists tx tx' w rx1 rx2, tx_bpsk_signal (of_list [true; true; false]) 80 8 (8 : R) = Ret tx /\
  tx_bpsk_signal (of_list [false; false; false]) 80 8 (12 : R) = Ret tx' /\ yields tx' w /\
  rx_bpsk_signal (noisy tx (air (3 * (80 / 8)) [(4, 12, w)])) 80 8 8 = Ret rx1 /\ yields rx1 [true; true; false] /\
  rx_bpsk_signal (noisy tx (air (3 * (80 / 8)) [(6, 12, w)])) 80 8 8 = Ret rx2 /\ yields rx2 [false; true; false].
Proof.
  destruct (tx_80 [true; true; false] 8 ltac:(lia)) as (tx & v & Et & Y). destruct (tx_80 [false; false; false] 12 ltac:(lia)) as (tx' & w & Et' & Y').
  destruct own_design as [D1 D2]. assert (N : INR (80 / 8) = 10) by (change (80 / 8)%nat with 10%nat; rewrite INR_IZR_INZ; reflexivity).
  assert (I : INR 80 = 80) by (rewrite INR_IZR_INZ; reflexivity).
  assert (H1 : 2 * (12 - 8) * INR (80 / 8) = IZR (2 * 0 + 1) * INR 80) by (rewrite N, I; cbn; lra).
  assert (H2 : 2 * (12 + 8) * INR (80 / 8) = IZR (2 * 2 + 1) * INR 80) by (rewrite N, I; cbn; lra).
  destruct (C102_half_spacing (of_list [true; true; false]) (of_list [false; false; false]) [true; true; false] [false; false; false] 80 8 8 12 4 tx tx' w 2 0 2
    (of_list_yields _) Et ltac:(lia) D1 D2 (of_list_yields _) eq_refl Et' Y' H1 H2 ltac:(lra)) as (rx1 & o1 & E1 & Y1 & _ & P1 & _).
  destruct (C102_half_spacing (of_list [true; true; false]) (of_list [false; false; false]) [true; true; false] [false; false; false] 80 8 8 12 6 tx tx' w 2 0 2
    (of_list_yields _) Et ltac:(lia) D1 D2 (of_list_yields _) eq_refl Et' Y' H1 H2 ltac:(lra)) as (rx2 & o2 & E2 & Y2 & L2 & _ & P2).
  exists tx, tx', w, rx1, rx2. split; [exact Et|]. split; [exact Et'|]. split; [exact Y'|]. split; [exact E1|].
  split; [rewrite <- P1 by (rewrite N; lra); exact Y1|]. split; [exact E2|].
  assert (P3 : 10 < 2 * 6) by lra. rewrite N in P2. specialize (P2 P3).
  pose proof (P2 0%nat false eq_refl) as Q0. pose proof (P2 1%nat false eq_refl) as Q1. pose proof (P2 2%nat false eq_refl) as Q2.
  destruct o2 as [|x0 [|x1 [|x2 [|]]]]; try discriminate L2. cbn in Q0, Q1, Q2. injection Q0 as ->. injection Q1 as ->. injection Q2 as ->. exact Y2.
Qed.
(** A neighbour of the same loudness two channels up, three samples out of step. *)
Example C102_unsynchronised_case (data other : list bool) : length other = S (length data) ->
  exists tx tx' w rx, tx_bpsk_signal (of_list data) 80 8 (8 : R) = Ret tx /\ tx_bpsk_signal (of_list other) 80 8 (32 : R) = Ret tx' /\
    yields tx' w /\ rx_bpsk_signal (noisy tx (air (length data * (80 / 8)) [(1, 32, skipn 3 w)])) 80 8 8 = Ret rx /\ yields rx data.
Proof.
  intros L. destruct (tx_80 data 8 ltac:(lia)) as (tx & v & Et & Y). destruct (tx_80 other 32 ltac:(lia)) as (tx' & w & Et' & Y').
  destruct own_design as [D1 D2]. assert (I : INR 80 = 80) by (rewrite INR_IZR_INZ; reflexivity).
  pose proof PI_bounds as PB.
  assert (S1 : 8 / 10 < sin (PI * (32 - 8) / INR 80)).
  { rewrite I. replace (PI * (32 - 8) / 80) with (PI / 2 - PI / 5) by field. rewrite sin_shift.
    pose proof (cos_lower (PI / 5) ltac:(lra)). assert ((PI / 5) * (PI / 5) / 2 < 2 / 10) by nra. lra. }
  assert (S2 : sin (PI * (32 + 8) / INR 80) = 1).
  { rewrite I. replace (PI * (32 + 8) / 80) with (PI / 2) by field. apply sin_PI2. }
  assert (I1 : / Rabs (sin (PI * (32 - 8) / INR 80)) < 1.26).
  { rewrite Rabs_pos_eq by lra. apply (Rmult_lt_reg_l (sin (PI * (32 - 8) / INR 80))); [lra|]. rewrite Rinv_r by lra. lra. }
  destruct (C102_bpsk_unsynchronised (of_list data) data 80 8 8 tx 2 [(1, 32, skipn 3 w)] (of_list_yields data) Et ltac:(lia) D1 D2) as (rx & Er & Yr).
  { intros amp f u [E|[]]. injection E as <- <- <-. split; [lra|]. split; [lra|]. exists (length other), 3%nat, w.
    split; [left; exists (of_list other), other, tx'; split; [apply of_list_yields|]; split; [reflexivity|]; split; assumption|].
    split; [reflexivity|]. change (80 / 8)%nat with 10%nat. lia. }
  { cbn [map fold_right]. rewrite S2. rewrite (Rabs_pos_eq 1) by lra. change (80 / 8)%nat with 10%nat.
    replace (INR 10) with 10 by (rewrite INR_IZR_INZ; reflexivity). rewrite Rinv_1. lra. }
  exists tx, tx', w, rx. split; [exact Et|]. split; [exact Et'|]. split; [exact Y'|]. split; [exact Er|exact Yr].
Qed.

(** ** Axioms used *)
Print Assumptions C102_bpsk_channels.
Print Assumptions C102_qpsk_channels.
Print Assumptions C102_empty_channel.
Print Assumptions C102_half_spacing.
Print Assumptions C102_bpsk_unsynchronised.
