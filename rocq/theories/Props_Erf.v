(** C107: the erf and erfc of /repo/src/lib.rs:161-186 against the error function itself. *)
From Coq Require Import List ZArith Reals Lia Lra Psatz.
From Flocq Require Import Core BinarySingleNaN.
From Verif Require Import Base IterModel Num LibModel LabModel LibReal F64Lib FloatSum.
From Verif Require ErfPoly ErfReal ErfGauss ErfF.
Import ListNotations.
Local Open Scope R_scope.

(** The error function: 0 at 0, with derivative 2/sqrt(pi) exp(-x^2). *)
Definition error_function (H : R -> R) : Prop :=
  H 0 = 0 /\ forall x, derivable_pt_lim H x (2 / sqrt PI * exp (- (x * x))).

(** There is one and only one; it is odd, below 1, and 1 at infinity. *)
Theorem C107_error_function :
  (exists H, error_function H) /\
  (forall H K, error_function H -> error_function K -> forall x, H x = K x) /\
  (forall H, error_function H -> forall x, H (- x) = - H x /\ Rabs (H x) < 1) /\
  (forall H, error_function H -> forall eps, 0 < eps -> exists M, forall x, M < x -> Rabs (1 - H x) < eps).
Proof.
  split; [|split; [|split]].
  - exists (fun x => ErfReal.ec0 * ErfGauss.E x). apply ErfGauss.erf_E.
  - intros H K HH HK x. rewrite (ErfGauss.erf_unique H HH x), (ErfGauss.erf_unique K HK x). reflexivity.
  - intros H HH x. split; [apply ErfGauss.true_odd, HH|].
    assert (P : forall y, 0 <= y -> 0 < 1 - H y).
    { intros y Hy. pose proof (ErfReal.T_near_G (fun x => 1 - H x) (ErfGauss.erfc_G H HH) (ErfGauss.erf_tail H HH) y Hy) as A.
      pose proof (ErfReal.T_pos y Hy). apply Rabs_le_inv in A. lra. }
    assert (Q : forall y, 0 <= y -> 0 <= H y).
    { intros y Hy. rewrite (ErfGauss.erf_unique H HH y). apply Rmult_le_pos; [apply Rlt_le, ErfReal.c0_pos|apply ErfGauss.E_pos, Hy]. }
    destruct (Rle_dec 0 x) as [L|L].
    + specialize (P x L). specialize (Q x L). rewrite Rabs_pos_eq; lra.
    + specialize (P (- x) ltac:(lra)). specialize (Q (- x) ltac:(lra)). rewrite (ErfGauss.true_odd H HH x) in P, Q. rewrite Rabs_left1; lra.
  - intros H HH. apply ErfGauss.erf_tail, HH.
Qed.

Lemma tau_close H (x : R) : error_function H -> Rabs (erf_tau x - (1 - H (Rabs x))) <= 12 / 100000000 * (1 - H (Rabs x)).
Proof.
  intros HH. assert (T : erf_tau x = erf_tau (Rabs x)).
  { destruct (Rle_dec 0 x) as [L|L]; [rewrite Rabs_pos_eq by exact L; reflexivity|]. rewrite Rabs_left1 by lra. rewrite erf_tau_even. reflexivity. }
  rewrite T, ErfF.tau_form, Rabs_Rabsolu.
  apply (ErfReal.code_near_G (fun x => 1 - H x) (ErfGauss.erfc_G H HH) (ErfGauss.erf_tail H HH)), Rabs_pos.
Qed.

(** erf is within 1.2e-7 of the error function, and closer and closer as it saturates. *)
Theorem C107_erf H : error_function H -> forall x, Rabs (erf x - H x) <= 12 / 100000000 * (1 - Rabs (H x)).
Proof.
  intros HH x. pose proof (tau_close H x HH) as A.
  assert (Q : forall y, 0 <= y -> 0 <= H y).
  { intros y Hy. rewrite (ErfGauss.erf_unique H HH y). apply Rmult_le_pos; [apply Rlt_le, ErfReal.c0_pos|apply ErfGauss.E_pos, Hy]. }
  destruct (Rle_dec 0 x) as [L|L].
  - rewrite erf_nonneg by exact L. rewrite (Rabs_pos_eq x) in A by exact L. rewrite (Rabs_pos_eq (H x)) by (apply Q, L).
    rewrite Rabs_minus_sym. replace (H x - (1 - erf_tau x)) with (erf_tau x - (1 - H x)) by ring. exact A.
  - rewrite erf_neg by lra. rewrite (Rabs_left1 x) in A by lra. pose proof (Q (- x) ltac:(lra)) as P. rewrite (ErfGauss.true_odd H HH x) in A, P.
    rewrite (Rabs_left1 (H x)) by lra. replace (erf_tau x - 1 - H x) with (erf_tau x - (1 - - H x)) by ring. exact A.
Qed.

(** erfc keeps that relative accuracy however small it gets. *)
Theorem C107_erfc H : error_function H -> forall x, 0 <= x -> Rabs (erfc x - (1 - H x)) <= 12 / 100000000 * (1 - H x).
Proof.
  intros HH x Hx. pose proof (tau_close H x HH) as A. rewrite (Rabs_pos_eq x) in A by exact Hx.
  replace (erfc x) with (erf_tau x); [exact A|]. unfold erfc. cbn [nsub nofZ NumR]. rewrite erf_nonneg by exact Hx. ring.
Qed.

(** The curves of tests/ber.rs:27-39 drawn with it: half the complementary error function of sqrt (Eb/N0), which is the probability that
    normal noise of variance N0/2 exceeds sqrt Eb. *)
Theorem C107_bpsk_curve H : error_function H -> forall (eb_nos : list R) i x p, nth_error eb_nos i = Some x -> 0 <= x ->
  nth_error (ber_bpsk eb_nos) i = Some p -> Rabs (p - / 2 * (1 - H (sqrt x))) <= 12 / 100000000 * (/ 2 * (1 - H (sqrt x))).
Proof.
  intros HH eb_nos i x p Hx Hp Hb. unfold ber_bpsk in Hb. rewrite nth_error_map, Hx in Hb. cbn [option_map] in Hb. injection Hb as <-.
  unfold nlit. cbn [nmul ndiv nofZ nsqrt NumR]. change (1 - erf (sqrt x)) with (erfc (sqrt x)). pose proof (C107_erfc H HH (sqrt x) (sqrt_pos x)) as A. apply Rabs_le_inv in A. apply Rabs_le. lra.
Qed.

Theorem C107_qpsk_curve H : error_function H -> forall (eb_nos : list R) i x p, nth_error eb_nos i = Some x -> 0 <= x ->
  nth_error (ber_qpsk eb_nos) i = Some p ->
  let q := / 2 * (1 - H (sqrt x)) in Rabs (p - (q - q * q)) <= 12 / 100000000 * q.
Proof.
  intros HH eb_nos i x p Hx Hp Hb q. unfold ber_qpsk in Hb. rewrite nth_error_map, Hx in Hb. cbn [option_map] in Hb. injection Hb as <-.
  unfold nlit, nsqr. cbn [nmul ndiv nofZ nsqrt nsub NumR]. change (1 - erf (sqrt x)) with (erfc (sqrt x)). pose proof (C107_erfc H HH (sqrt x) (sqrt_pos x)) as A.
  destruct C107_error_function as (_ & _ & R1 & _). destruct (R1 H HH (sqrt x)) as [_ B]. apply Rabs_def2 in B.
  assert (C : 0 <= H (sqrt x)). { rewrite (ErfGauss.erf_unique H HH (sqrt x)). apply Rmult_le_pos; [apply Rlt_le, ErfReal.c0_pos|apply ErfGauss.E_pos, sqrt_pos]. }
  apply Rabs_le_inv in A. set (e := erfc (sqrt x)) in *. unfold q. set (c := 1 - H (sqrt x)) in *. assert (0 < c <= 1) by (unfold c; lra). clearbody e c.
  replace (1 / 2 * e - 1 / 4 * (e * e) - (/ 2 * c - / 2 * c * (/ 2 * c))) with (/ 2 * (e - c) * (1 - (e + c) / 2)) by field.
  rewrite Rabs_mult, Rabs_mult, (Rabs_pos_eq (/ 2)) by lra.
  assert (B1 : Rabs (e - c) <= 12 / 100000000 * c) by (apply Rabs_le; lra). assert (B2 : Rabs (1 - (e + c) / 2) <= 1) by (apply Rabs_le; lra).
  pose proof (Rabs_pos (e - c)). pose proof (Rabs_pos (1 - (e + c) / 2)).
  apply Rle_trans with (/ 2 * Rabs (e - c) * 1); [apply Rmult_le_compat_l; lra|lra].
Qed.

(** ** binary64 *)

(** What is asked of libm's exp on arguments up to 1: a relative error of 10^-10 (or of 2^-1070, at an underflow), and 0 at minus infinity. *)
Definition exp_close (libm : Libm) : Prop :=
  (forall a : F64, fin a = true -> val a <= 1 ->
     fin (libm_exp libm a) = true /\ Rabs (val (libm_exp libm a) - exp (val a)) <= / 10000000000 * exp (val a) + bpow radix2 (-1070)) /\
  fin (libm_exp libm (B754_infinity true)) = true /\ val (libm_exp libm (B754_infinity true)) = 0.
Example C107_libm : exp_close ErfF.libm_exact.
Proof. exact ErfF.libm_exact_close. Qed.

Lemma tail_small H x : error_function H -> 7 <= x -> 0 < 1 - H x <= / 1000000000000000.
Proof.
  intros HH Hx. destruct C107_error_function as (_ & _ & B & _). destruct (B H HH x) as [_ B1]. apply Rabs_def2 in B1. split; [lra|].
  pose proof (tau_close H x HH) as A. rewrite (Rabs_pos_eq x) in A by lra. apply Rabs_le_inv in A. rewrite ErfF.tau_form, (Rabs_pos_eq x) in A by lra.
  pose proof (ErfReal.ti_range x ltac:(lra)) as R0. set (r := ErfReal.ti x) in *.
  pose proof (ErfF.coded_bound r (x * x - 42 - 1) ltac:(lra) ltac:(nra)) as C.
  assert (E : exp (ErfReal.coded r - x * x) <= exp (- (42))) by (apply Rlt_le, exp_increasing; lra).
  pose proof ErfF.exp_42. pose proof (exp_pos (ErfReal.coded r - x * x)). set (e := exp (ErfReal.coded r - x * x)) in *. nra.
Qed.

(** For every finite x, erf is finite and within 1.21e-7 of the error function. *)
Theorem C107_erf_f64 H libm (x : F64) : error_function H -> exp_close libm -> fin x = true ->
  fin (@erf F64 (NumF libm) x) = true /\ Rabs (val (@erf F64 (NumF libm) x) - H (val x)) <= 121 / 1000000000.
Proof.
  intros HH He Fx. destruct C107_error_function as (_ & _ & B & _). destruct (Rle_dec (Rabs (val x)) 7) as [L|L].
  - destruct (ErfF.erf_near_f libm x He Fx L) as [F V]. split; [exact F|]. pose proof (C107_erf H HH (val x)) as A. pose proof (Rabs_pos (H (val x))).
    apply Rabs_le_inv in A, V. apply Rabs_le. lra.
  - destruct (ErfF.erf_tail_f libm x He Fx ltac:(lra)) as [F V]. split; [exact F|]. rewrite V. pose proof (tail_small H (Rabs (val x)) HH ltac:(lra)) as T.
    destruct (Rle_dec 0 (val x)) as [P|P].
    + rewrite (Rabs_pos_eq (val x) P) in T. apply Rabs_le. lra.
    + rewrite (Rabs_left1 (val x)) in T by lra. destruct (B H HH (val x)) as [O _]. rewrite O in T. apply Rabs_le. lra.
Qed.

Theorem C107_erfc_f64 H libm (x : F64) : error_function H -> exp_close libm -> fin x = true ->
  fin (@erfc F64 (NumF libm) x) = true /\ Rabs (val (@erfc F64 (NumF libm) x) - (1 - H (val x))) <= 122 / 1000000000.
Proof.
  intros HH He Fx. destruct (C107_erf_f64 H libm x HH He Fx) as [F V]. unfold erfc. set (e := @erf F64 (NumF libm) x) in *. clearbody e. cbn [nsub nofZ NumF].
  destruct C107_error_function as (_ & _ & B & _). destruct (B H HH (val x)) as [_ B1]. apply Rabs_def2 in B1.
  assert (N : ErfF.nr e (H (val x)) (121 / 1000000000)) by (split; assumption).
  eapply ErfF.nr_weak; [apply (ErfF.nr_sub 2 _ _ _ _ _ _ ErfF.nr_one N); [apply Rabs_le; lra|lra]|lra].
Qed.

(** The relative accuracy of C107_erfc is lost: from x = 7 on erf is 1 and erfc exactly 0, which the error function never reaches. *)
Theorem C107_erfc_zero_f64 H libm (x : F64) : error_function H -> exp_close libm -> fin x = true -> 7 <= val x ->
  val (@erfc F64 (NumF libm) x) = 0 /\ 0 < 1 - H (val x).
Proof.
  intros HH He Fx Hx. split; [|apply (tail_small H (val x) HH Hx)].
  destruct (ErfF.erf_tail_f libm x He Fx) as [F V]; [rewrite Rabs_pos_eq; lra|]. unfold erfc. set (e := @erf F64 (NumF libm) x) in *. clearbody e. cbn [nsub nofZ NumF].
  destruct (Rle_dec 0 (val x)) as [_|N]; [|lra]. destruct (ofZ_exact 1 ltac:(lia)) as (V1 & F1 & _).
  assert (Z : val (f64_ofZ 1) - val e = 0) by (rewrite V1, V; ring).
  destruct (sub_fin (f64_ofZ 1) e F1 F) as [W _]; [rewrite Z, rd_0, Rabs_R0; apply bpow_gt_0|]. rewrite W, Z. apply rd_0.
Qed.

Lemma some_inj {A} (a b : A) : Some a = Some b -> a = b.
Proof. congruence. Qed.

(** So the curve of tests/ber.rs:27-32 is exactly 0 from Eb/N0 = 49 (16.9 dB) on. *)
Theorem C107_bpsk_curve_f64 libm (eb_nos : list F64) i x p : exp_close libm -> nth_error eb_nos i = Some x -> fin x = true -> 49 <= val x ->
  nth_error (@ber_bpsk F64 (NumF libm) eb_nos) i = Some p -> val p = 0.
Proof.
  intros He Hx Fx Hv Hp. unfold ber_bpsk in Hp. rewrite nth_error_map, Hx in Hp. cbn [option_map] in Hp.
  apply some_inj in Hp. rewrite <- Hp. clear Hp p. unfold nlit. cbn [nsqrt nmul ndiv nofZ NumF]. change (Bdiv mode_NE (f64_ofZ 1) (f64_ofZ 2)) with (ErfF.lit 1 2). pose proof (Bsqrt_correct 53 1024 _ _ mode_NE x) as (VS & FS & _). set (s := Bsqrt mode_NE x) in *.
  assert (Fs : fin s = true).
  { unfold fin. rewrite FS. clear -Fx Hv. destruct x as [b|b| |b m e Hb]; try discriminate Fx; [unfold val, B2R in Hv; lra|]. destruct b; [|reflexivity]. exfalso.
    unfold val, B2R in Hv. assert (@F2R radix2 {| Fnum := SpecFloat.cond_Zopp true (Z.pos m); Fexp := e |} <= 0) by (apply F2R_le_0; cbn; lia). lra. }
  assert (Vs : 7 <= val s).
  { unfold val. rewrite VS. change (7 <= rd (sqrt (val x))). apply rd_ge_fmt; [apply (fmt_IZR 7); lia|].
    replace 7 with (sqrt 49); [apply sqrt_le_1_alt; exact Hv|]. replace 49 with (7 * 7) by lra. apply sqrt_square. lra. }
  clearbody s. destruct C107_error_function as ((H & HH) & _ & _ & _). destruct (C107_erfc_zero_f64 H libm s HH He Fs Vs) as [Z _].
  destruct (C107_erfc_f64 H libm s HH He Fs) as [F _]. set (e := @erfc F64 (NumF libm) s) in *. clearbody e.
  destruct (ErfF.lit_val 1 2 ltac:(lia) ltac:(lia)) as [Fl _]; [rewrite Rabs_pos_eq; lra|].
  assert (Q : val (ErfF.lit 1 2) * val e = 0) by (rewrite Z; ring).
  destruct (mul_fin (ErfF.lit 1 2) e Fl F) as [W _]; [rewrite Q, rd_0, Rabs_R0; apply bpow_gt_0|]. rewrite W, Q. apply rd_0.
Qed.

(** Cases. *)
Example C107_case : exists H, error_function H /\ H 0 = 0 /\ Rabs (erf 1 - H 1) <= 12 / 100000000 /\ erf 0 <> H 0.
Proof.
  destruct C107_error_function as ((H & HH) & _). exists H. split; [exact HH|]. split; [apply HH|]. split.
  - pose proof (C107_erf H HH 1). pose proof (Rabs_pos (H 1)). lra.
  - rewrite (proj1 HH), erf_nonneg by lra. pose proof erf_tau_0. lra.
Qed.
Example C107_case_f64 : val (@erfc F64 (NumF ErfF.libm_exact) (f64_ofZ 8)) = 0.
Proof.
  destruct (ofZ_exact 8 ltac:(lia)) as (V & F & _). destruct C107_error_function as ((H & HH) & _).
  apply (C107_erfc_zero_f64 H ErfF.libm_exact (f64_ofZ 8) HH C107_libm F). rewrite V. lra.
Qed.

(** ** Axioms used *)
Print Assumptions C107_error_function.
Print Assumptions C107_erf.
Print Assumptions C107_erfc.
Print Assumptions C107_bpsk_curve.
Print Assumptions C107_qpsk_curve.
Print Assumptions C107_erf_f64.
Print Assumptions C107_erfc_f64.
Print Assumptions C107_erfc_zero_f64.
Print Assumptions C107_bpsk_curve_f64.
