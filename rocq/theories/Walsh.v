(** Walsh rows against a carrier: the closed form of their cross-talk, and the numbers that decide
    the multi-user tests. *)
From Coq Require Import List Arith ZArith Reals Bool Lia Lra Psatz.
From Verif Require Import Base Spec SpecR Tab Num LibModel RSums CdmaModel Hadamard.
Import ListNotations.
Local Open Scope R_scope.

(** ** A tone through a row product *)

(** Sum of a tone over n steps. *)
Lemma tone_sum n b p : sin (b / 2) * Rsum_n n (fun j => cos (p + INR j * b)) =
  sin (INR n * b / 2) * cos (p + (INR n - 1) * b / 2).
Proof.
  induction n as [|n IH]; [cbn; replace (0 * b / 2) with 0 by field; rewrite sin_0; ring|].
  cbn [Rsum_n]. rewrite Rmult_plus_distr_l, IH, S_INR. clear IH.
  set (x := INR n * b / 2). set (h := b / 2).
  replace ((INR n + 1) * b / 2) with (x + h) by (unfold x, h; field).
  replace (p + (INR n - 1) * b / 2) with (p + x - h) by (unfold x, h; field).
  replace (p + INR n * b) with (p + x + x) by (unfold x; field).
  replace (p + (INR n + 1 - 1) * b / 2) with (p + x) by (unfold x; field).
  generalize (p + x). intros q. rewrite cos_minus, cos_plus, sin_plus. ring.
Qed.

(** Product of f 0 ... f (n-1). *)
Fixpoint Rprod_n (n : nat) (f : nat -> R) : R := match n with O => 1 | S n' => Rprod_n n' f * f n' end.
Lemma Rprod_n_ext n f g : (forall j, (j < n)%nat -> f j = g j) -> Rprod_n n f = Rprod_n n g.
Proof. intros H. induction n as [|n IH]; [reflexivity|]. cbn. rewrite IH by (intros; apply H; lia). rewrite H by lia. reflexivity. Qed.

Lemma top_bit e a : (a < 2 ^ S e)%nat -> (2 ^ e <=? a)%nat = Nat.testbit a e.
Proof.
  intros H. rewrite Nat.testbit_odd, Nat.shiftr_div_pow2. cbn in H. pose proof (pow2_ge1 e) as P.
  destruct (Nat.leb_spec (2 ^ e) a) as [L|L].
  - replace (a / 2 ^ e)%nat with 1%nat; [reflexivity|]. apply (Nat.div_unique _ _ 1 (a - 2 ^ e)); lia.
  - rewrite Nat.div_small by exact L. reflexivity.
Qed.

Lemma walsh_tone e : forall u v x p, (u < 2 ^ e)%nat -> (v < 2 ^ e)%nat ->
  let bit b := Nat.testbit (Nat.lxor u v) b in
  Rsum_n (2 ^ e) (fun c => sgn (had e u c) * sgn (had e v c) * cos (p + INR c * x)) =
  Rprod_n e (fun b => 2 * (if bit b then sin (INR (2 ^ b) * x / 2) else cos (INR (2 ^ b) * x / 2))) *
  cos (p + (INR (2 ^ e) - 1) * x / 2 - Rsum_n e (fun b => if bit b then 1 else 0) * (PI / 2)).
Proof.
  induction e as [|e IH]; intros u v x p Hu Hv bit.
  - cbn. replace (p + (1 - 1) * x / 2 - 0 * (PI / 2)) with (p + 0 * x) by field. ring.
  - pose proof (pow2_ge1 e) as P. set (N := (2 ^ e)%nat) in *.
    assert (E : (2 ^ S e = N + N)%nat) by (unfold N; cbn; lia). rewrite E.
    pose proof (top_bit e u Hu) as Tu. pose proof (top_bit e v Hv) as Tv.
    rewrite Rsum_n_add.
    set (u' := (u mod N)%nat). set (v' := (v mod N)%nat).
    assert (Lu : (u' < N)%nat) by (apply Nat.mod_upper_bound; lia).
    assert (Lv : (v' < N)%nat) by (apply Nat.mod_upper_bound; lia).
    rewrite (Rsum_n_ext N _ (fun c => sgn (had e u' c) * sgn (had e v' c) * cos (p + INR c * x))).
    2:{ intros c Hc. cbn [had]. fold N u' v'. rewrite (Nat.mod_small c N Hc). apply Nat.leb_gt in Hc. rewrite Hc, !andb_false_r, !xorb_false_l. reflexivity. }
    rewrite (Rsum_n_ext N (fun c => sgn (had (S e) u (N + c)) * sgn (had (S e) v (N + c)) * cos (p + INR (N + c) * x))
       (fun c => (sgn (Nat.testbit u e) * sgn (Nat.testbit v e)) * (sgn (had e u' c) * sgn (had e v' c) * cos ((p + INR N * x) + INR c * x)))).
    2:{ intros c Hc. cbn [had]. fold N u' v'.
        replace ((N + c) mod N)%nat with c by (rewrite Nat.add_comm, <- (Nat.mul_1_l N) at 1; rewrite Nat.mod_add by lia; symmetry; apply Nat.mod_small; exact Hc).
        replace (N <=? N + c)%nat with true by (symmetry; apply Nat.leb_le; lia). rewrite !andb_true_r, !sgn_xor.
        unfold N. rewrite Tu, Tv. fold N. rewrite plus_INR. replace (p + (INR N + INR c) * x) with (p + INR N * x + INR c * x) by ring. ring. }
    rewrite Rsum_n_scale, (IH u' v' x p Lu Lv), (IH u' v' x _ Lu Lv).
    assert (B : forall b, (b < e)%nat -> Nat.testbit (Nat.lxor u' v') b = bit b).
    { intros b Hb. unfold bit, u', v', N. rewrite !Nat.lxor_spec, !Nat.mod_pow2_bits_low by exact Hb. reflexivity. }
    rewrite (Rprod_n_ext e _ (fun b => 2 * (if bit b then sin (INR (2 ^ b) * x / 2) else cos (INR (2 ^ b) * x / 2))))
      by (intros b Hb; rewrite B by exact Hb; reflexivity).
    rewrite (Rsum_n_ext e (fun b => if Nat.testbit (Nat.lxor u' v') b then 1 else 0) (fun b => if bit b then 1 else 0))
      by (intros b Hb; rewrite B by exact Hb; reflexivity).
    cbn [Rprod_n Rsum_n]. fold N.
    set (Q := Rprod_n e _). set (S1 := Rsum_n e _).
    assert (Hbit : bit e = xorb (Nat.testbit u e) (Nat.testbit v e)) by (unfold bit; apply Nat.lxor_spec).
    set (X := INR N * x / 2). rewrite plus_INR.
    set (y := p + (INR N - 1) * x / 2 - S1 * (PI / 2) + X).
    replace (p + (INR N - 1) * x / 2 - S1 * (PI / 2)) with (y - X) by (unfold y; ring).
    replace (p + INR N * x + (INR N - 1) * x / 2 - S1 * (PI / 2)) with (y + X) by (unfold y, X; field).
    rewrite Hbit. destruct (Nat.testbit u e), (Nat.testbit v e); cbn [sgn xorb].
    1,4: replace (p + (INR N + INR N - 1) * x / 2 - (S1 + 0) * (PI / 2)) with y by (unfold y, X; field);
         rewrite cos_plus, cos_minus; ring.
    1,2: replace (p + (INR N + INR N - 1) * x / 2 - (S1 + 1) * (PI / 2)) with (y - PI / 2) by (unfold y, X; field);
         rewrite (cos_minus y (PI / 2)), cos_PI2, sin_PI2, cos_plus, cos_minus; ring.
Qed.

(** Two rows of the Sylvester matrix, each chip held for L samples, on the square of a carrier. *)
Lemma walsh_cross e L u v a p : (1 <= L)%nat -> (u < 2 ^ e)%nat -> (v < 2 ^ e)%nat -> u <> v -> sin a <> 0 ->
  let bit b := Nat.testbit (Nat.lxor u v) b in
  Rsum_n (2 ^ e * L) (fun j => sgn (had e u (j / L)) * sgn (had e v (j / L)) * (cos (p + INR j * a) * cos (p + INR j * a))) =
  / 2 * (sin (INR L * a) / sin a) *
  Rprod_n e (fun b => 2 * (if bit b then sin (INR (2 ^ b * L) * a) else cos (INR (2 ^ b * L) * a))) *
  cos (2 * p + (INR (2 ^ e * L) - 1) * a - Rsum_n e (fun b => if bit b then 1 else 0) * (PI / 2)).
Proof.
  intros HL Hu Hv Huv Ha bit. rewrite Rsum_n_mul.
  transitivity (Rsum_n (2 ^ e) (fun c => INR L / 2 * (sgn (had e u c) * sgn (had e v c)) +
     / 2 * (sin (INR L * a) / sin a) * (sgn (had e u c) * sgn (had e v c) * cos ((2 * p + (INR L - 1) * a) + INR c * (INR L * (2 * a)))))).
  { apply Rsum_n_ext. intros c Hc.
    rewrite (Rsum_n_ext L _ (fun j => (sgn (had e u c) * sgn (had e v c)) * (/ 2 + / 2 * cos ((2 * p + INR (c * L) * (2 * a)) + INR j * (2 * a))))).
    2:{ intros j Hj. rewrite Nat.div_add_l, Nat.div_small, Nat.add_0_r by lia.
        set (t := p + INR (c * L + j) * a).
        replace (2 * p + INR (c * L) * (2 * a) + INR j * (2 * a)) with (2 * t) by (unfold t; rewrite plus_INR; ring).
        rewrite cos_2a_cos. field. }
    rewrite Rsum_n_scale, Rsum_n_plus, Rsum_n_const, Rsum_n_scale.
    pose proof (tone_sum L (2 * a) (2 * p + INR (c * L) * (2 * a))) as T.
    replace (2 * a / 2) with a in T by field. replace (INR L * (2 * a) / 2) with (INR L * a) in T by field.
    replace (2 * p + INR (c * L) * (2 * a) + (INR L - 1) * (2 * a) / 2) with (2 * p + (INR L - 1) * a + INR c * (INR L * (2 * a))) in T
      by (rewrite mult_INR; field).
    apply (Rmult_eq_reg_l (sin a)); [|exact Ha].
    set (C := cos (2 * p + (INR L - 1) * a + INR c * (INR L * (2 * a)))) in *.
    set (W := Rsum_n L _) in *.
    transitivity (sgn (had e u c) * sgn (had e v c) * (sin a * (INR L / 2) + / 2 * (sin a * W))); [field|]. rewrite T. field. exact Ha. }
  rewrite Rsum_n_plus, !Rsum_n_scale, had_orth by assumption.
  destruct (Nat.eqb_spec u v) as [|_]; [contradiction|].
  rewrite (walsh_tone e u v _ _ Hu Hv). fold bit. cbv zeta.
  rewrite Rmult_0_r, Rplus_0_l.
  rewrite (Rprod_n_ext e _ (fun b => 2 * (if bit b then sin (INR (2 ^ b * L) * a) else cos (INR (2 ^ b * L) * a)))).
  2:{ intros b _. rewrite mult_INR. replace (INR (2 ^ b) * (INR L * (2 * a)) / 2) with (INR (2 ^ b) * INR L * a) by field. reflexivity. }
  match goal with |- _ * (_ * cos ?A) = _ * _ * cos ?B => replace A with B by (unfold bit; rewrite mult_INR; cbv beta; field) end. ring.
Qed.

(** ** The numbers: sines and cosines of 5 pi / 2^j *)
Lemma half_cos y c : cos (2 * y) = c -> cos y * cos y = (1 + c) / 2.
Proof. intros <-. rewrite cos_2a_cos. field. Qed.
Lemma half_sin y c : cos (2 * y) = c -> sin y * sin y = (1 - c) / 2.
Proof. intros <-. rewrite cos_2a_sin. field. Qed.
Lemma sq_lo x lo c : 0 <= x -> x * x = c -> lo * lo <= c -> lo <= x.
Proof. intros. nra. Qed.
Lemma sq_hi x hi c : 0 <= hi -> x * x = c -> c <= hi * hi -> x <= hi.
Proof. intros. nra. Qed.

Lemma trig4 : cos (5 * PI / 4) = - / sqrt 2 /\ sin (5 * PI / 4) = - / sqrt 2.
Proof.
  replace (5 * PI / 4) with (PI / 4 + PI) by field. rewrite neg_cos, neg_sin, cos_PI4, sin_PI4. split; unfold Rdiv; ring.
Qed.
Lemma isqrt2 : 0.70710 <= / sqrt 2 <= 0.70711.
Proof.
  assert (H : / sqrt 2 * / sqrt 2 = 1 / 2).
  { rewrite <- Rinv_mult. rewrite sqrt_sqrt by lra. field. }
  assert (P : 0 < / sqrt 2) by (apply Rinv_0_lt_compat, sqrt_lt_R0; lra).
  split; [apply (sq_lo _ _ (1 / 2))|apply (sq_hi _ _ (1 / 2))]; lra.
Qed.

(** One halving in the first quadrant. *)
Lemma halve y clo chi lo hi slo shi : 0 < y < PI / 2 -> clo <= cos (2 * y) <= chi ->
  0 <= hi -> 0 <= shi ->
  lo * lo <= (1 + clo) / 2 -> (1 + chi) / 2 <= hi * hi ->
  slo * slo <= (1 - chi) / 2 -> (1 - clo) / 2 <= shi * shi ->
  lo <= cos y <= hi /\ slo <= sin y <= shi.
Proof.
  intros Hy Hc H1 H2 H3 H4 H5 H6.
  assert (0 < cos y) by (apply cos_gt_0; lra). assert (0 < sin y) by (apply sin_gt_0; lra).
  pose proof (half_cos y _ eq_refl). pose proof (half_sin y _ eq_refl).
  split; split.
  - apply (sq_lo _ _ (cos y * cos y)); lra.
  - apply (sq_hi _ _ (cos y * cos y)); lra.
  - apply (sq_lo _ _ (sin y * sin y)); lra.
  - apply (sq_hi _ _ (sin y * sin y)); lra.
Qed.

Lemma trig8 : -0.38270 <= cos (5 * PI / 8) <= -0.38266 /\ 0.92387 <= sin (5 * PI / 8) <= 0.92389.
Proof.
  assert (E : cos (5 * PI / 8) = - sin (PI / 8)) by (rewrite <- cos_shift; replace (5 * PI / 8) with (PI - (PI / 2 - PI / 8)) by field; apply Rtrigo_facts.cos_pi_minus).
  assert (E2 : sin (5 * PI / 8) = cos (PI / 8)) by (rewrite <- sin_shift; replace (5 * PI / 8) with (PI - (PI / 2 - PI / 8)) by field; apply Rtrigo_facts.sin_pi_minus).
  assert (C : cos (2 * (PI / 8)) = / sqrt 2) by (replace (2 * (PI / 8)) with (PI / 4) by field; rewrite cos_PI4; unfold Rdiv; ring).
  pose proof isqrt2 as I. pose proof PI_RGT_0 as P.
  destruct (halve (PI / 8) 0.70710 0.70711 0.92387 0.92389 0.38266 0.38270) as [A B]; try lra.
Qed.
Lemma trig16 : 0.55555 <= cos (5 * PI / 16) <= 0.55561 /\ 0.83144 <= sin (5 * PI / 16) <= 0.83149.
Proof.
  destruct trig8 as [A _]. pose proof PI_RGT_0 as P. apply (halve (5 * PI / 16) (-0.38270) (-0.38266)); try lra.
  replace (2 * (5 * PI / 16)) with (5 * PI / 8) by field. exact A.
Qed.
Lemma trig32 : 0.88190 <= cos (5 * PI / 32) <= 0.88195 /\ 0.47137 <= sin (5 * PI / 32) <= 0.47143.
Proof.
  destruct trig16 as [A _]. pose proof PI_RGT_0 as P. apply (halve (5 * PI / 32) 0.55555 0.55561); try lra.
  replace (2 * (5 * PI / 32)) with (5 * PI / 16) by field. exact A.
Qed.
Lemma trig64 : 0.97002 <= cos (5 * PI / 64) <= 0.97005 /\ 0.24294 <= sin (5 * PI / 64) <= 0.24301.
Proof.
  destruct trig32 as [A _]. pose proof PI_RGT_0 as P. apply (halve (5 * PI / 64) 0.88190 0.88195); try lra.
  replace (2 * (5 * PI / 64)) with (5 * PI / 32) by field. exact A.
Qed.
Lemma trig128 : 0.99247 <= cos (5 * PI / 128) <= 0.99249 /\ 0.12236 <= sin (5 * PI / 128) <= 0.12244.
Proof.
  destruct trig64 as [A _]. pose proof PI_RGT_0 as P. apply (halve (5 * PI / 128) 0.97002 0.97005); try lra.
  replace (2 * (5 * PI / 128)) with (5 * PI / 64) by field. exact A.
Qed.
Lemma trig256 : 0.99811 <= cos (5 * PI / 256) <= 0.99813 /\ 0.06127 <= sin (5 * PI / 256) <= 0.06137.
Proof.
  destruct trig128 as [A _]. pose proof PI_RGT_0 as P. apply (halve (5 * PI / 256) 0.99247 0.99249); try lra.
  replace (2 * (5 * PI / 256)) with (5 * PI / 128) by field. exact A.
Qed.
(** 5 pi / 80. *)
Lemma trig80 : 0.98078 <= cos (PI / 16) <= 0.98079 /\ 0.19507 <= sin (PI / 16) <= 0.19511.
Proof.
  destruct trig8 as [_ B]. pose proof PI_RGT_0 as P. apply (halve (PI / 16) 0.92387 0.92389); try lra.
  replace (2 * (PI / 16)) with (PI / 8) by field.
  replace (5 * PI / 8) with (PI - (PI / 2 - PI / 8)) in B by field. rewrite Rtrigo_facts.sin_pi_minus, sin_shift in B. exact B.
Qed.

(** Lower and upper bounds for |sin| (true) and |cos| (false) of 5 pi / 2^j. *)
Definition tlo (s : bool) (j : nat) : R :=
  match j with
  | 1 => if s then 1 else 0
  | 2 => 70710 / 100000
  | 3 => if s then 92387 / 100000 else 38266 / 100000
  | 4 => if s then 83144 / 100000 else 55555 / 100000
  | 5 => if s then 47137 / 100000 else 88190 / 100000
  | 6 => if s then 24294 / 100000 else 97002 / 100000
  | _ => 0
  end.
Definition thi (s : bool) (j : nat) : R :=
  match j with
  | 1 => if s then 1 else 0
  | 2 => 70711 / 100000
  | 3 => if s then 92389 / 100000 else 38270 / 100000
  | 4 => if s then 83149 / 100000 else 55561 / 100000
  | 5 => if s then 47143 / 100000 else 88195 / 100000
  | 6 => if s then 24301 / 100000 else 97005 / 100000
  | _ => 1
  end.
Lemma trig_table s j : (1 <= j)%nat ->
  let y := 5 * PI / INR (2 ^ j) in tlo s j <= Rabs (if s then sin y else cos y) <= thi s j.
Proof.
  intros Hj. destruct j as [|[|[|[|[|[|[|j]]]]]]]; [lia|..].
  7:{ cbn [tlo thi]. split; [apply Rabs_pos|].
      destruct s; apply Rabs_le; [apply SIN_bound|apply COS_bound]. }
  all: cbn [Nat.pow Nat.mul Nat.add]; rewrite INR_IZR_INZ;
    match goal with |- context [IZR (Z.of_nat ?x)] => let z := eval vm_compute in (Z.of_nat x) in change (Z.of_nat x) with z end; cbv zeta; cbn [tlo thi].
  - replace (5 * PI / 2) with (PI / 2 + 2 * INR 1 * PI) by (cbn; field). rewrite sin_period, cos_period, sin_PI2, cos_PI2.
    destruct s; [rewrite Rabs_R1|rewrite Rabs_R0]; lra.
  - destruct trig4 as [A B]. rewrite A, B. pose proof isqrt2. destruct s; rewrite Rabs_Ropp, Rabs_pos_eq; lra.
  - destruct trig8. destruct s; [rewrite Rabs_pos_eq by lra|rewrite Rabs_left by lra]; lra.
  - destruct trig16. destruct s; rewrite Rabs_pos_eq by lra; lra.
  - destruct trig32. destruct s; rewrite Rabs_pos_eq by lra; lra.
  - destruct trig64. destruct s; rewrite Rabs_pos_eq by lra; lra.
Qed.
Lemma tlo_pos s j : 0 <= tlo s j.
Proof. destruct j as [|[|[|[|[|[|[|j]]]]]]]; cbn [tlo]; destruct s; lra. Qed.

Lemma Rprod_abs n f : Rabs (Rprod_n n f) = Rprod_n n (fun j => Rabs (f j)).
Proof. induction n as [|n IH]; cbn [Rprod_n]; [apply Rabs_R1|]. rewrite Rabs_mult, IH. reflexivity. Qed.
Lemma Rprod_nonneg n f : (forall j, (j < n)%nat -> 0 <= f j) -> 0 <= Rprod_n n f.
Proof. intros H. induction n as [|n IH]; cbn [Rprod_n]; [lra|]. apply Rmult_le_pos; [apply IH; intros; apply H; lia|apply H; lia]. Qed.
Lemma Rprod_le n f g : (forall j, (j < n)%nat -> 0 <= f j <= g j) -> Rprod_n n f <= Rprod_n n g.
Proof.
  intros H. induction n as [|n IH]; cbn [Rprod_n]; [lra|].
  apply Rmult_le_compat; [apply Rprod_nonneg; intros j Hj; apply (H j); lia|apply (H n); lia|apply IH; intros; apply H; lia|apply (H n); lia].
Qed.

(** The cross-talk of rows u and v when a symbol of 2^e L samples holds two and a half cycles. *)
Section HalfCycles.
Variables (e L : nat) (p : R) (m : Z).
Let a := 5 * PI / INR (2 ^ e * L).
Hypothesis HL : (1 <= L)%nat.
Hypothesis Hp : p = IZR m * PI.
Variables (slo shi clo : R).
Hypothesis Hsin : 0 < slo <= sin a.
Hypothesis Hsin2 : sin a <= shi.
Hypothesis Hcos : 0 <= clo <= cos a.
Variables (u v : nat).
Hypothesis Hu : (u < 2 ^ e)%nat.
Hypothesis Hv : (v < 2 ^ e)%nat.
Let bit b := Nat.testbit (Nat.lxor u v) b.
Let W := Rsum_n (2 ^ e * L) (fun j => sgn (had e u (j / L)) * sgn (had e v (j / L)) * (cos (p + INR j * a) * cos (p + INR j * a))).

Lemma step_angle b : (b <= e)%nat -> INR (2 ^ b * L) * a = 5 * PI / INR (2 ^ (e - b)).
Proof.
  intros Hb. unfold a. assert (INR L <> 0) by (apply not_0_INR; lia).
  assert (N : forall k, INR (2 ^ k) <> 0) by (intros k; apply not_0_INR; pose proof (pow2_ge1 k); lia).
  replace e with (b + (e - b))%nat at 1 by lia. rewrite Nat.pow_add_r, !mult_INR. field. auto.
Qed.

Lemma W_abs : u <> v -> Rabs W = / 2 * (Rabs (sin (5 * PI / INR (2 ^ e))) / sin a) *
  Rprod_n e (fun b => 2 * Rabs (if bit b then sin (5 * PI / INR (2 ^ (e - b))) else cos (5 * PI / INR (2 ^ (e - b))))) *
  Rabs (cos (5 * PI - a - Rsum_n e (fun b => if bit b then 1 else 0) * (PI / 2))).
Proof.
  intros N. unfold W. rewrite walsh_cross; [|exact HL|exact Hu|exact Hv|exact N|lra]. fold bit.
  rewrite !Rabs_mult, Rprod_abs. rewrite (Rabs_pos_eq (/ 2)) by lra. unfold Rdiv at 1. rewrite Rabs_mult, (Rabs_pos_eq (/ sin a)).
  2:{ left. apply Rinv_0_lt_compat. lra. }
  f_equal; [f_equal|].
  - unfold Rdiv. do 3 f_equal. replace (INR L * a) with (INR (2 ^ 0 * L) * a) by (f_equal; f_equal; cbn; lia).
    rewrite step_angle by lia. rewrite Nat.sub_0_r. reflexivity.
  - apply Rprod_n_ext. intros b Hb. rewrite Rabs_mult, (Rabs_pos_eq 2) by lra. rewrite step_angle by lia. reflexivity.
  - assert (E : (INR (2 ^ e * L) - 1) * a = 5 * PI - a).
    { unfold a. field. apply not_0_INR. pose proof (pow2_ge1 e). nia. }
    rewrite E. subst p. set (S1 := Rsum_n e _). unfold bit.
    replace (2 * (IZR m * PI) + (5 * PI - a) - S1 * (PI / 2)) with (5 * PI - a - S1 * (PI / 2) + 2 * (IZR m) * PI) by ring.
    f_equal. destruct m as [|q|q].
    + f_equal. ring.
    + replace (IZR (Z.pos q)) with (INR (Pos.to_nat q)) by (rewrite INR_IZR_INZ, positive_nat_Z; reflexivity). apply cos_period.
    + rewrite <- (cos_period _ (Pos.to_nat q)). f_equal. replace (IZR (Z.neg q)) with (- INR (Pos.to_nat q)) by (rewrite INR_IZR_INZ, positive_nat_Z, <- opp_IZR; reflexivity). ring.
Qed.

Lemma W_hi : u <> v -> Rabs W <= / 2 * (thi true e / slo) * Rprod_n e (fun b => 2 * thi (bit b) (e - b)).
Proof.
  intros N. destruct (Nat.eq_dec e 0) as [Z|Z]; [rewrite Z in Hu, Hv; cbn in Hu, Hv; lia|].
  rewrite W_abs by exact N. set (C := Rabs (cos _)).
  assert (HC : 0 <= C <= 1) by (split; [apply Rabs_pos|apply Rabs_le, COS_bound]).
  pose proof (trig_table true e ltac:(lia)) as T. cbv zeta in T.
  set (P := Rprod_n e (fun b => 2 * Rabs _)).
  assert (HP : 0 <= P <= Rprod_n e (fun b => 2 * thi (bit b) (e - b))).
  { split; [apply Rprod_nonneg; intros b _; pose proof (Rabs_pos (if bit b then sin (5 * PI / INR (2 ^ (e - b))) else cos (5 * PI / INR (2 ^ (e - b))))); lra|].
    apply Rprod_le. intros b Hb. pose proof (trig_table (bit b) (e - b) ltac:(lia)) as Q. cbv zeta in Q. pose proof (Rabs_pos (if bit b then sin (5 * PI / INR (2 ^ (e - b))) else cos (5 * PI / INR (2 ^ (e - b))))). lra. }
  assert (HS : 0 <= Rabs (sin (5 * PI / INR (2 ^ e))) / sin a <= thi true e / slo).
  { split; [apply Rmult_le_pos; [apply Rabs_pos|left; apply Rinv_0_lt_compat; lra]|].
    apply Rmult_le_compat; [apply Rabs_pos|left; apply Rinv_0_lt_compat; lra|lra|apply Rinv_le_contravar; lra]. }
  set (S0 := Rabs _ / sin a) in *.
  rewrite <- (Rmult_1_r (_ * Rprod_n _ _)).
  apply Rmult_le_compat; [|lra|apply Rmult_le_compat; lra|lra]. apply Rmult_le_pos; lra.
Qed.

(** When an even number of bits differ. *)
Lemma W_lo (h : nat) : u <> v -> Rsum_n e (fun b => if bit b then 1 else 0) = 2 * INR h ->
  / 2 * (tlo true e / shi) * Rprod_n e (fun b => 2 * tlo (bit b) (e - b)) * clo <= Rabs W.
Proof.
  intros N H2. destruct (Nat.eq_dec e 0) as [Z|Z]; [rewrite Z in Hu, Hv; cbn in Hu, Hv; lia|].
  rewrite W_abs by exact N. rewrite H2.
  assert (HC : Rabs (cos (5 * PI - a - 2 * INR h * (PI / 2))) = cos a).
  { replace (5 * PI - a - 2 * INR h * (PI / 2)) with (- (a + IZR (Z.of_nat h - 5) * PI)) by (rewrite minus_IZR, <- INR_IZR_INZ; field).
    rewrite cos_neg, cos_plus. rewrite (sin_eq_0_1 (IZR _ * PI)) by (eexists; reflexivity).
    assert (Q : Rabs (cos (IZR (Z.of_nat h - 5) * PI)) = 1).
    { pose proof (sin2_cos2 (IZR (Z.of_nat h - 5) * PI)) as Q. rewrite (sin_eq_0_1 (IZR _ * PI)) in Q by (eexists; reflexivity).
      unfold Rsqr in Q. set (c := cos (IZR (Z.of_nat h - 5) * PI)) in *. assert (K : (c - 1) * (c + 1) = 0) by lra.
      apply Rmult_integral in K. unfold Rabs. destruct (Rcase_abs c), K; lra. }
    rewrite Rmult_0_r, Rminus_0_r, Rabs_mult, Q, Rabs_pos_eq by lra. ring. }
  rewrite HC.
  pose proof (trig_table true e ltac:(lia)) as T. cbv zeta in T.
  set (P := Rprod_n e (fun b => 2 * Rabs _)).
  assert (HP : 0 <= Rprod_n e (fun b => 2 * tlo (bit b) (e - b)) <= P).
  { split; [apply Rprod_nonneg; intros b _; pose proof (tlo_pos (bit b) (e - b)); lra|].
    apply Rprod_le. intros b Hb. pose proof (trig_table (bit b) (e - b) ltac:(lia)) as Q. cbv zeta in Q. pose proof (tlo_pos (bit b) (e - b)). lra. }
  assert (HS : 0 <= tlo true e / shi <= Rabs (sin (5 * PI / INR (2 ^ e))) / sin a).
  { pose proof (tlo_pos true e). split; [apply Rmult_le_pos; [lra|left; apply Rinv_0_lt_compat; lra]|].
    apply Rmult_le_compat; [lra|left; apply Rinv_0_lt_compat; lra|lra|apply Rinv_le_contravar; lra]. }
  set (S0 := Rabs _ / sin a) in *.
  apply Rmult_le_compat; [apply Rmult_le_pos; lra|lra|apply Rmult_le_compat; lra|lra].
Qed.
End HalfCycles.
