(** The error function's approximation against the function itself (C107): analysis over the reals. *)
From Coq Require Import List ZArith Reals Machin Lia Lra Psatz.
From Flocq Require Import Core.
From Verif Require Import ErfPoly.
Import ListNotations.
Local Open Scope R_scope.

Lemma PI_close : 3141592653 / 1000000000 <= PI <= 31415926537 / 10000000000.
Proof.
  pose proof (PI_2_3_7_ineq 5) as H. change (S (2 * 5))%nat with 11%nat in H. change (2 * 5)%nat with 10%nat in H.
  unfold tg_alt, PI_2_3_7_tg, Ratan_seq in H. cbn [sum_f_R0] in H. cbn [Nat.mul Nat.add] in H. rewrite !INR_IZR_INZ in H.
  cbn [Z.of_nat Pos.of_succ_nat Pos.succ pow] in H. lra.
Qed.

(** 2 / sqrt PI. *)
Definition ec0 : R := 2 / sqrt PI.
Lemma c0_pos : 0 < ec0. Proof. unfold ec0. apply Rdiv_lt_0_compat; [lra|]. apply sqrt_lt_R0, PI_RGT_0. Qed.
Lemma c0_sqr : ec0 * ec0 * PI = 4.
Proof.
  pose proof PI_RGT_0 as P. unfold ec0. replace (2 / sqrt PI * (2 / sqrt PI)) with (4 / (sqrt PI * sqrt PI)) by (field; apply Rgt_not_eq, sqrt_lt_R0, P).
  rewrite sqrt_sqrt by lra. field. lra.
Qed.

Definition near (t : R) : R := pev near_poly t / 17592186044416.
Definition coded (t : R) : R := pev code_poly t / 100000000.

Lemma near_coded t : 0 <= t <= 1 -> Rabs (near t - coded t) <= 1131 / 10000000000.
Proof.
  intros Ht. destruct diff_check as [D1 D2].
  assert (H : Rabs (pev diff_poly t) <= 198791702301901).
  { destruct (Rle_dec t (6 / 64)) as [L|L].
    - apply (chk_scaled 512 0 48 _ _ D1 ltac:(lia)). rewrite !INR_IZR_INZ. cbn [Z.of_nat Pos.of_succ_nat Pos.succ]. lra.
    - apply (chk_scaled 64 6 58 _ _ D2 ltac:(lia)). rewrite !INR_IZR_INZ. cbn [Z.of_nat Pos.of_succ_nat Pos.succ]. lra. }
  unfold diff_poly in H. rewrite pev_add, !pev_scal in H. unfold two44 in H. rewrite opp_IZR in H. apply Rabs_le_inv in H. apply Rabs_le. unfold near, coded. lra.
Qed.

(** The polynomial stays below 1/100 on [0, 1]. *)
Lemma near_check : chk 64 (shifts 0 (pscale 64 (padd near_poly [two44]))) (17750000000000 * 64 ^ Z.of_nat (length (padd near_poly [two44]) - 1)) = true.
Proof. vm_compute. reflexivity. Qed.
Lemma near_le t : 0 <= t <= 1 -> near t <= 1 / 100.
Proof.
  intros Ht. assert (H : Rabs (pev (padd near_poly [two44]) t) <= 17750000000000).
  { apply (chk_scaled 64 0 64 _ _ near_check ltac:(lia)). rewrite !INR_IZR_INZ. cbn [Z.of_nat Pos.of_succ_nat Pos.succ]. lra. }
  rewrite pev_add in H. cbn [pev] in H. unfold two44 in H. apply Rabs_le_inv in H. unfold near. lra.
Qed.

(** ** The derivative of t * exp (near t - x^2), with t = 1 / (1 + x/2). *)
Definition Qn (t : R) : R := pev q_poly t / 35184372088832.
Definition W (t : R) : R := Qn t * exp (near t).
Definition Nn (t : R) : R := pev n_poly t / 618970019642690137449562112.

Lemma near_der t : derivable_pt_lim near t (pev (pder near_poly) t / 17592186044416).
Proof.
  replace (pev (pder near_poly) t / 17592186044416) with (/ 17592186044416 * pev (pder near_poly) t) by field.
  apply (derivable_pt_lim_ext (mult_real_fct (/ 17592186044416) (pev near_poly))).
  - intros x. unfold mult_real_fct, near. field.
  - apply derivable_pt_lim_scal. apply pev_der.
Qed.
Lemma Qn_der t : derivable_pt_lim Qn t (pev (pder q_poly) t / 35184372088832).
Proof.
  replace (pev (pder q_poly) t / 35184372088832) with (/ 35184372088832 * pev (pder q_poly) t) by field.
  apply (derivable_pt_lim_ext (mult_real_fct (/ 35184372088832) (pev q_poly))).
  - intros x. unfold mult_real_fct, Qn. field.
  - apply derivable_pt_lim_scal. apply pev_der.
Qed.
Lemma W_der t : derivable_pt_lim W t (Nn t * exp (near t)).
Proof.
  replace (Nn t * exp (near t)) with (pev (pder q_poly) t / 35184372088832 * exp (near t) + Qn t * (exp (near t) * (pev (pder near_poly) t / 17592186044416))).
  - apply (derivable_pt_lim_mult Qn (comp exp near)); [apply Qn_der|]. apply derivable_pt_lim_comp; [apply near_der|apply derivable_pt_lim_exp].
  - unfold Nn, n_poly, Qn. rewrite pev_add, pev_scal, pev_mul. unfold two44. field.
Qed.
Lemma Nn_small t : 0 <= t <= 1 -> Rabs (Nn t) <= 52 / 10000000000.
Proof.
  intros Ht. assert (H : Rabs (pev n_poly t) <= 3218000000000000000).
  { apply (chk_scaled 32 0 32 _ _ n_check ltac:(lia)). rewrite !INR_IZR_INZ. cbn [Z.of_nat Pos.of_succ_nat Pos.succ]. lra. }
  apply Rabs_le_inv in H. apply Rabs_le. unfold Nn. lra.
Qed.

Lemma exp_small x : x <= 1 / 1000000 -> exp x <= 1 + 2 / 1000000.
Proof.
  intros H. assert (A : 1 - x <= exp (- x)). { pose proof (exp_ineq1_le (- x)). lra. }
  assert (E : exp x * exp (- x) = 1) by (rewrite <- exp_plus, Rplus_opp_r; apply exp_0). pose proof (exp_pos x).
  assert (exp x * (1 - x) <= 1) by (rewrite <- E; apply Rmult_le_compat_l; lra). nra.
Qed.
Lemma exp_abs x : Rabs x <= 1 / 1000000 -> Rabs (exp x - 1) <= Rabs x * (1 + 2 / 1000000).
Proof.
  intros H. apply Rabs_le_inv in H. pose proof (exp_ineq1_le x) as A.
  assert (U : exp x <= 1 + 2 / 1000000) by (apply exp_small; lra).
  assert (B : 1 - x <= exp (- x)). { pose proof (exp_ineq1_le (- x)). lra. }
  assert (E : exp x * exp (- x) = 1) by (rewrite <- exp_plus, Rplus_opp_r; apply exp_0). pose proof (exp_pos x).
  assert (C : exp x * (1 - x) <= 1) by (rewrite <- E; apply Rmult_le_compat_l; lra).
  destruct (Rle_dec 0 x) as [L|L].
  - rewrite (Rabs_pos_eq x) by lra. rewrite Rabs_pos_eq by lra. nra.
  - rewrite (Rabs_left x) by lra. apply Rabs_le. nra.
Qed.

Lemma pev_one l : pev l 1 = IZR (fold_right Z.add 0%Z l).
Proof. induction l as [|a l IH]; cbn [pev fold_right]; [reflexivity|]. rewrite plus_IZR, IH. ring. Qed.
Lemma W_one : Rabs (W 1 - ec0) <= 2 / 10000000000 * ec0.
Proof.
  assert (N1 : near 1 = / 17592186044416) by (unfold near; cbn [pev near_poly]; lra).
  assert (Q1 : Qn 1 = 39701312472213 / 35184372088832).
  { unfold Qn. replace (pev q_poly 1) with 39701312472213; [reflexivity|].
    rewrite pev_one. replace (fold_right Z.add 0%Z q_poly) with 39701312472213%Z by (vm_compute; reflexivity). reflexivity. }
  unfold W. rewrite N1, Q1.
  set (e := exp (/ 17592186044416)). assert (E : 1 <= e <= 1 + 1 / 10000000000000).
  { split. - pose proof (exp_ineq1_le (/ 17592186044416)). unfold e. lra.
    - pose proof (exp_abs (/ 17592186044416)) as A. rewrite (Rabs_pos_eq (/ _)) in A by lra. specialize (A ltac:(lra)). apply Rabs_le_inv in A. unfold e. lra. }
  pose proof c0_pos as Cp. pose proof c0_sqr as Cs. pose proof PI_close as P.
  set (q := 39701312472213 / 35184372088832) in *. assert (Qp : 0 < q) by (unfold q; lra).
  assert (Q2 : 12732395447 / 10000000000 <= q * q <= 127323954475 / 100000000000) by (unfold q; lra).
  assert (V2 : q * q <= q * e * (q * e) <= q * q * (1 + 3 / 10000000000000)).
  { replace (q * e * (q * e)) with (q * q * (e * e)) by ring. split; [|apply Rmult_le_compat_l; nra].
    rewrite <- (Rmult_1_r (q * q)) at 1. apply Rmult_le_compat_l; nra. }
  assert (Vp : 0 < q * e) by nra. clearbody q. set (v := q * e) in *. clearbody v. clear N1 Q1 E e.
  assert (L : v * v * PI <= 4 * ((1 + 2 / 10000000000) * (1 + 2 / 10000000000))).
  { apply Rle_trans with ((127323954475 / 100000000000 * (1 + 3 / 10000000000000)) * (31415926537 / 10000000000)); [apply Rmult_le_compat; nra|lra]. }
  assert (U : 4 * ((1 - 2 / 10000000000) * (1 - 2 / 10000000000)) <= v * v * PI).
  { apply Rle_trans with (12732395447 / 10000000000 * (3141592653 / 1000000000)); [lra|apply Rmult_le_compat; nra]. }
  assert (Pp : 0 < PI) by lra. rewrite <- Cs in L, U.
  assert (v <= (1 + 2 / 10000000000) * ec0).
  { apply Rsqr_incr_0_var; [|lra]. unfold Rsqr. apply Rmult_le_reg_r with PI; lra. }
  assert ((1 - 2 / 10000000000) * ec0 <= v).
  { apply Rsqr_incr_0_var; [|lra]. unfold Rsqr. apply Rmult_le_reg_r with PI; lra. }
  apply Rabs_le. lra.
Qed.

Lemma c0_low : 1128 / 1000 <= ec0.
Proof.
  pose proof c0_pos as Cp. pose proof c0_sqr as Cs. pose proof PI_close as P. apply Rsqr_incr_0_var; [|lra]. unfold Rsqr.
  apply Rmult_le_reg_r with PI; lra.
Qed.

Lemma W_close t : 0 <= t <= 1 -> Rabs (W t - ec0) <= 5 / 1000000000 * ec0.
Proof.
  intros Ht. assert (A : Rabs (W 1 - W t) <= 531 / 100000000000).
  { destruct (Req_dec t 1) as [->|N]; [rewrite Rminus_eq_0, Rabs_R0; lra|].
    destruct (MVT_cor2 W (fun t => Nn t * exp (near t)) t 1 ltac:(lra) ltac:(intros; apply W_der)) as (c & E & C).
    rewrite E, !Rabs_mult, (Rabs_pos_eq (1 - t)), (Rabs_pos_eq (exp _)) by (first [lra | apply Rlt_le, exp_pos]).
    pose proof (Nn_small c ltac:(lra)) as S1. pose proof (near_le c ltac:(lra)) as S2. pose proof (Rabs_pos (Nn c)) as S3.
    pose proof (exp_pos (near c)) as S4.
    assert (S5 : exp (near c) <= 102 / 100).
    { assert (B : 1 - near c <= exp (- near c)) by (pose proof (exp_ineq1_le (- near c)); lra).
      assert (E1 : exp (near c) * exp (- near c) = 1) by (rewrite <- exp_plus, Rplus_opp_r; apply exp_0).
      assert (exp (near c) * (99 / 100) <= 1) by (rewrite <- E1; apply Rmult_le_compat_l; lra). lra. }
    apply Rle_trans with (52 / 10000000000 * (102 / 100) * 1); [|lra].
    apply Rmult_le_compat; [apply Rmult_le_pos; lra|lra| |lra]. apply Rmult_le_compat; lra. }
  pose proof W_one as B. pose proof c0_low as L. apply Rabs_le_inv in A, B. apply Rabs_le. lra.
Qed.

(** ** Comparison with the true function on the positive half line. *)
Definition ti (x : R) : R := / (1 + / 2 * x).
Definition Tau (x : R) : R := ti x * exp (near (ti x) - x * x).

Lemma ti_range x : 0 <= x -> 0 < ti x <= 1.
Proof. intros H. unfold ti. split; [apply Rinv_0_lt_compat; lra|]. rewrite <- Rinv_1. apply Rinv_le_contravar; lra. Qed.

Lemma ti_der x : 0 <= x -> derivable_pt_lim ti x (- (ti x * ti x / 2)).
Proof.
  intros Hx. replace (- (ti x * ti x / 2)) with ((0 * (1 + / 2 * x) - (0 + / 2 * 1) * 1) / Rsqr (1 + / 2 * x)).
  - apply (derivable_pt_lim_ext (fct_cte 1 / (fct_cte 1 + mult_real_fct (/ 2) id))%F).
    { intros y. unfold div_fct, plus_fct, fct_cte, mult_real_fct, id, ti. unfold Rdiv. ring. }
    apply (derivable_pt_lim_div (fct_cte 1) (fct_cte 1 + mult_real_fct (/ 2) id)%F x 0 (0 + / 2 * 1)); [apply derivable_pt_lim_const| |unfold plus_fct, fct_cte, mult_real_fct, id; lra].
    apply derivable_pt_lim_plus; [apply derivable_pt_lim_const|apply derivable_pt_lim_scal, derivable_pt_lim_id].
  - unfold ti, Rsqr. field. lra.
Qed.

Lemma T_der x : 0 <= x -> derivable_pt_lim Tau x (- (exp (- (x * x)) * W (ti x))).
Proof.
  intros Hx. pose proof (ti_range x Hx) as R0. set (n' := pev (pder near_poly) (ti x) / 17592186044416).
  replace (- (exp (- (x * x)) * W (ti x))) with
    (- (ti x * ti x / 2) * exp (near (ti x) - x * x) +
     ti x * (exp (near (ti x) - x * x) * (n' * - (ti x * ti x / 2) - (1 * x + x * 1)))).
  - apply (derivable_pt_lim_mult ti (comp exp (comp near ti - id * id)%F)); [apply ti_der; exact Hx|].
    apply derivable_pt_lim_comp; [|apply derivable_pt_lim_exp].
    apply derivable_pt_lim_minus; [|apply derivable_pt_lim_mult; apply derivable_pt_lim_id].
    apply derivable_pt_lim_comp; [apply ti_der; exact Hx|apply near_der].
  - unfold W. unfold Rminus. rewrite exp_plus.
    assert (Q : Qn (ti x) = ti x * ti x / 2 * (1 + ti x * n') + 4 * (1 - ti x)).
    { unfold Qn, q_poly, n'. rewrite pev_add. cbn [pev]. rewrite pev_add. cbn [pev]. unfold two44. rewrite !mult_IZR. field. }
    rewrite Q. assert (X : ti x * (1 + / 2 * x) = 1) by (unfold ti; field; lra).
    set (t := ti x) in *. assert (X2 : 2 * x * t = 4 * (1 - t)) by lra. clearbody t.
    replace (- (t * t / 2) * (exp (near t) * exp (- (x * x))) + t * (exp (near t) * exp (- (x * x)) * (n' * - (t * t / 2) + - (1 * x + x * 1))))
      with (exp (near t) * exp (- (x * x)) * (- (t * t / 2 * (1 + t * n')) - 2 * x * t)) by field.
    rewrite X2. ring.
Qed.

(** A function that does not decrease on the half line and tends to 0 is not positive there. *)
Definition vanishes (f : R -> R) : Prop := forall eps, 0 < eps -> exists M, forall x, M < x -> Rabs (f x) < eps.
Lemma rises_to_zero (f f' : R -> R) : (forall x, 0 <= x -> derivable_pt_lim f x (f' x)) -> (forall x, 0 <= x -> 0 <= f' x) -> vanishes f ->
  forall x, 0 <= x -> f x <= 0.
Proof.
  intros D P V x Hx. destruct (Rle_dec (f x) 0) as [L|L]; [exact L|]. destruct (V (f x) ltac:(lra)) as [M HM].
  set (y := Rmax M x + 1). assert (Y : M < y /\ x < y) by (unfold y; pose proof (Rmax_l M x); pose proof (Rmax_r M x); lra).
  destruct (MVT_cor2 f f' x y ltac:(lra) ltac:(intros; apply D; lra)) as (c & E & C).
  specialize (HM y ltac:(lra)). apply Rabs_def2 in HM. pose proof (P c ltac:(lra)) as Pc.
  assert (0 <= f' c * (y - x)) by (apply Rmult_le_pos; lra). lra.
Qed.

Lemma exp_vanishes : vanishes (fun x => exp (- (x * x))).
Proof.
  intros eps He. exists (Rmax 1 (/ eps)). intros x Hx. pose proof (Rmax_l 1 (/ eps)). pose proof (Rmax_r 1 (/ eps)).
  rewrite Rabs_pos_eq by (apply Rlt_le, exp_pos). assert (A : 1 + x * x <= exp (x * x)) by apply exp_ineq1_le.
  rewrite exp_Ropp. apply Rlt_le_trans with (/ x).
  - apply Rinv_lt_contravar; [apply Rmult_lt_0_compat; [lra|apply exp_pos]|]. nra.
  - rewrite <- (Rinv_inv eps). apply Rinv_le_contravar; [apply Rinv_0_lt_compat; exact He|lra].
Qed.

Lemma T_pos x : 0 <= x -> 0 < Tau x.
Proof. intros H. unfold Tau. apply Rmult_lt_0_compat; [apply ti_range, H|apply exp_pos]. Qed.

Lemma T_le x : 0 <= x -> Tau x <= 2 * exp (- (x * x)).
Proof.
  intros H. pose proof (ti_range x H) as R0. unfold Tau, Rminus. rewrite exp_plus. pose proof (exp_pos (- (x * x))) as E.
  pose proof (near_le (ti x) ltac:(lra)) as N. set (n := near (ti x)) in *. pose proof (exp_pos n) as En.
  assert (B : exp n <= 2).
  { assert (B : 1 - n <= exp (- n)) by (pose proof (exp_ineq1_le (- n)); lra).
    assert (E1 : exp n * exp (- n) = 1) by (rewrite <- exp_plus, Rplus_opp_r; apply exp_0).
    assert (exp n * (99 / 100) <= 1) by (rewrite <- E1; apply Rmult_le_compat_l; lra). lra. }
  rewrite <- Rmult_assoc. apply Rmult_le_compat_r; [lra|]. nra.
Qed.

Section Tail.
Variable G : R -> R.
Hypothesis G_der : forall x, derivable_pt_lim G x (- (ec0 * exp (- (x * x)))).
Hypothesis G_van : vanishes G.

Lemma T_van k : vanishes (fun x => Tau x - k * G x).
Proof.
  intros eps He. destruct (exp_vanishes (eps / 4) ltac:(lra)) as [M1 H1].
  assert (Kp : 0 < 2 * (Rabs k + 1)) by (pose proof (Rabs_pos k); lra).
  destruct (G_van (eps / (2 * (Rabs k + 1))) ltac:(apply Rdiv_lt_0_compat; lra)) as [M2 H2].
  exists (Rmax (Rmax M1 M2) 0). intros x Hx.
  assert (X : M1 < x /\ M2 < x /\ 0 < x). { pose proof (Rmax_l (Rmax M1 M2) 0). pose proof (Rmax_r (Rmax M1 M2) 0). pose proof (Rmax_l M1 M2). pose proof (Rmax_r M1 M2). lra. }
  specialize (H1 x ltac:(lra)). specialize (H2 x ltac:(lra)).
  rewrite Rabs_pos_eq in H1 by (apply Rlt_le, exp_pos). pose proof (T_le x ltac:(lra)) as TL. pose proof (T_pos x ltac:(lra)) as TP.
  assert (Gk : Rabs (k * G x) < eps / 2).
  { rewrite Rabs_mult. pose proof (Rabs_pos k). pose proof (Rabs_pos (G x)).
    apply (Rmult_lt_compat_l (2 * (Rabs k + 1))) in H2; [|exact Kp].
    replace (2 * (Rabs k + 1) * (eps / (2 * (Rabs k + 1)))) with eps in H2 by (field; lra). nra. }
  apply Rabs_def2 in Gk. apply Rabs_def1; lra.
Qed.

Lemma T_near_G x : 0 <= x -> Rabs (Tau x - G x) <= 5 / 1000000000 * G x.
Proof.
  intros Hx. set (e := 5 / 1000000000) in *. pose proof c0_pos as Cp.
  assert (U : Tau x - (1 + e) * G x <= 0).
  { apply (rises_to_zero (fun x => Tau x - (1 + e) * G x) (fun x => - (exp (- (x * x)) * W (ti x)) - (1 + e) * - (ec0 * exp (- (x * x))))); [| |apply T_van|exact Hx].
    - intros y Hy. apply (derivable_pt_lim_minus Tau (mult_real_fct (1 + e) G)); [apply T_der, Hy|apply derivable_pt_lim_scal, G_der].
    - intros y Hy. pose proof (ti_range y Hy) as R0. pose proof (W_close (ti y) ltac:(lra)) as Wc. apply Rabs_le_inv in Wc. fold e in Wc.
      pose proof (exp_pos (- (y * y))) as Ep. set (E := exp (- (y * y))) in *.
      replace (- (E * W (ti y)) - (1 + e) * - (ec0 * E)) with (E * ((1 + e) * ec0 - W (ti y))) by ring. apply Rmult_le_pos; lra. }
  assert (L : (1 - e) * G x - Tau x <= 0).
  { apply (rises_to_zero (fun x => (1 - e) * G x - Tau x) (fun x => (1 - e) * - (ec0 * exp (- (x * x))) - - (exp (- (x * x)) * W (ti x)))); [| | |exact Hx].
    - intros y Hy. apply (derivable_pt_lim_minus (mult_real_fct (1 - e) G) Tau); [apply derivable_pt_lim_scal, G_der|apply T_der, Hy].
    - intros y Hy. pose proof (ti_range y Hy) as R0. pose proof (W_close (ti y) ltac:(lra)) as Wc. apply Rabs_le_inv in Wc. fold e in Wc.
      pose proof (exp_pos (- (y * y))) as Ep. set (E := exp (- (y * y))) in *.
      replace ((1 - e) * - (ec0 * E) - - (E * W (ti y))) with (E * (W (ti y) - (1 - e) * ec0)) by ring. apply Rmult_le_pos; lra.
    - intros eps He. destruct (T_van (1 - e) eps He) as [M HM]. exists M. intros y Hy. rewrite Rabs_minus_sym. apply HM, Hy. }
  apply Rabs_le. lra.
Qed.

(** t * exp (p - x^2), the code's approximation for x >= 0. *)
Lemma code_near_G x : 0 <= x -> Rabs (ti x * exp (coded (ti x) - x * x) - G x) <= 12 / 100000000 * G x.
Proof.
  intros Hx. pose proof (ti_range x Hx) as R0. pose proof (T_near_G x Hx) as A. pose proof (T_pos x Hx) as Tp.
  pose proof (near_coded (ti x) ltac:(lra)) as D. rewrite Rabs_minus_sym in D.
  replace (coded (ti x) - x * x) with (near (ti x) - x * x + (coded (ti x) - near (ti x))) by ring.
  rewrite exp_plus, <- Rmult_assoc. fold (Tau x). set (d := coded (ti x) - near (ti x)) in *.
  pose proof (exp_abs d ltac:(lra)) as E. set (g := G x) in *. clearbody g. clearbody d.
  assert (E2 : Rabs (exp d - 1) <= 1132 / 10000000000) by (apply Rle_trans with (1 := E); lra).
  apply Rabs_le_inv in A. apply Rabs_le_inv in E2. apply Rabs_le. set (u := Tau x) in *. clearbody u.
  assert (Gp : 0 <= g) by lra.
  replace (u * exp d) with (u + u * (exp d - 1)) by ring. set (w := exp d - 1) in *. clearbody w.
  assert (u * w <= u * (1132 / 10000000000)) by (apply Rmult_le_compat_l; lra).
  assert (u * - (1132 / 10000000000) <= u * w) by (apply Rmult_le_compat_l; lra). lra.
Qed.
End Tail.
