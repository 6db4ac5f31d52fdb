(** Trigonometric sums for the exact-arithmetic theorems. *)
From Coq Require Import List Arith ZArith Reals Bool Lia Lra Psatz.
From Verif Require Import Base Spec SpecR Tab Num LibModel LibReal PskChain RSums.
Import ListNotations.
Local Open Scope R_scope.

Lemma phase_R sr (fc : R) i : phase_at sr fc i = 2 * PI * fc * (INR i / INR sr).
Proof. unfold phase_at, nofnat. cbn. rewrite <- !INR_IZR_INZ. reflexivity. Qed.

Lemma nrz_R b : bit_to_nrz b = (if b then 1 else -1 : R).
Proof. destruct b; reflexivity. Qed.

Lemma cos_sq_half x : cos x * cos x = (1 + cos (2 * x)) / 2.
Proof. rewrite cos_2a_cos. lra. Qed.
Lemma sin_sq_half x : sin x * sin x = (1 - cos (2 * x)) / 2.
Proof. rewrite cos_2a_sin. lra. Qed.
Lemma sin_cos_half x : sin x * cos x = sin (2 * x) / 2.
Proof. rewrite sin_2a. lra. Qed.

(** 2 sin a cos(x) and 2 sin a sin(x) telescope. *)
Lemma sum_cos a phi n :
  2 * sin a * Rsum_n n (fun j => cos (phi + 2 * a * INR j)) = sin (phi + 2 * a * INR n - a) - sin (phi - a).
Proof.
  rewrite <- Rsum_n_scale.
  set (f := fun i => sin (phi + 2 * a * INR i - a)).
  rewrite (Rsum_n_ext n _ (fun j => f (S j) - f j)).
  - rewrite Rsum_n_telescope. unfold f. cbn [INR]. replace (phi + 2 * a * 0 - a) with (phi - a) by lra. reflexivity.
  - intros j _. unfold f. rewrite S_INR.
    replace (phi + 2 * a * (INR j + 1) - a) with ((phi + 2 * a * INR j) + a) by lra.
    rewrite sin_plus, sin_minus. lra.
Qed.
Lemma sum_sin a phi n :
  2 * sin a * Rsum_n n (fun j => sin (phi + 2 * a * INR j)) = cos (phi - a) - cos (phi + 2 * a * INR n - a).
Proof.
  rewrite <- Rsum_n_scale.
  set (f := fun i => - cos (phi + 2 * a * INR i - a)).
  rewrite (Rsum_n_ext n _ (fun j => f (S j) - f j)).
  - rewrite Rsum_n_telescope. unfold f. cbn [INR]. replace (phi + 2 * a * 0 - a) with (phi - a) by lra. lra.
  - intros j _. unfold f. rewrite S_INR.
    replace (phi + 2 * a * (INR j + 1) - a) with ((phi + 2 * a * INR j) + a) by lra.
    rewrite cos_plus, cos_minus. lra.
Qed.

Lemma sin_add_2pi x (z : Z) : sin (x + 2 * PI * IZR z) = sin x.
Proof.
  destruct (Z.le_ge_cases 0 z) as [L|L].
  - replace z with (Z.of_nat (Z.to_nat z)) by lia. rewrite <- INR_IZR_INZ.
    replace (x + 2 * PI * INR (Z.to_nat z)) with (x + 2 * INR (Z.to_nat z) * PI) by lra. apply sin_period.
  - replace z with (- Z.of_nat (Z.to_nat (- z)))%Z by lia. rewrite opp_IZR, <- INR_IZR_INZ.
    rewrite <- (sin_period (x + 2 * PI * - INR (Z.to_nat (- z))) (Z.to_nat (- z))). f_equal. lra.
Qed.
Lemma cos_add_2pi x (z : Z) : cos (x + 2 * PI * IZR z) = cos x.
Proof.
  destruct (Z.le_ge_cases 0 z) as [L|L].
  - replace z with (Z.of_nat (Z.to_nat z)) by lia. rewrite <- INR_IZR_INZ.
    replace (x + 2 * PI * INR (Z.to_nat z)) with (x + 2 * INR (Z.to_nat z) * PI) by lra. apply cos_period.
  - replace z with (- Z.of_nat (Z.to_nat (- z)))%Z by lia. rewrite opp_IZR, <- INR_IZR_INZ.
    rewrite <- (cos_period (x + 2 * PI * - INR (Z.to_nat (- z))) (Z.to_nat (- z))). f_equal. lra.
Qed.

(** Over a whole number of periods of 2a the sums vanish. *)
Lemma sum_whole a phi n (h : Z) : sin a <> 0 -> 2 * a * INR n = 2 * PI * IZR h ->
  Rsum_n n (fun j => cos (phi + 2 * a * INR j)) = 0 /\ Rsum_n n (fun j => sin (phi + 2 * a * INR j)) = 0.
Proof.
  intros Ha Hh. pose proof (sum_cos a phi n) as C. pose proof (sum_sin a phi n) as S. rewrite Hh in C, S.
  replace (phi + 2 * PI * IZR h - a) with (phi - a + 2 * PI * IZR h) in C, S by lra.
  rewrite sin_add_2pi in C. rewrite cos_add_2pi in S.
  split; apply (Rmult_eq_reg_l (2 * sin a)); try lra.
Qed.

(** sin vanishes at the multiples of PI only. *)
Lemma sin_0_mult x : sin x = 0 -> exists z : Z, x = IZR z * PI.
Proof. apply sin_eq_0_0. Qed.

(** Two consecutive samples cannot both fall on zeros of the cosine. *)
Lemma sin_mult_0 t i : sin t = 0 -> sin (INR i * t) = 0.
Proof.
  intros H. induction i as [|i IH]; [cbn; rewrite Rmult_0_l; apply sin_0|].
  rewrite S_INR, Rmult_plus_distr_r, Rmult_1_l, sin_plus, IH, H. lra.
Qed.
Lemma cos_consecutive t i : cos (INR i * t) = 0 -> cos (INR (S i) * t) <> 0.
Proof.
  intros H0 H1. rewrite S_INR, Rmult_plus_distr_r, Rmult_1_l, cos_plus, H0, Rmult_0_l, Rminus_0_l in H1.
  pose proof (sin2_cos2 (INR i * t)) as P. unfold Rsqr in P. rewrite H0 in P.
  destruct (Req_dec (sin t) 0) as [Z|Z].
  - rewrite (sin_mult_0 t i Z) in P. lra.
  - assert (sin (INR i * t) = 0) by nra. rewrite H in P. lra.
Qed.
