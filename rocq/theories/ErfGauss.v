(** The Gaussian integral (C107): the primitive of (2/sqrt PI) exp (-x^2) vanishing at 0 tends to 1. *)
From Coq Require Import Reals Lra.
From Coquelicot Require Import Coquelicot.
From Verif Require Import ErfReal.
Local Open Scope R_scope.

Definition gau (t : R) : R := exp (- (t * t)).
Lemma gau_cont t : continuous gau t.
Proof. apply (ex_derive_continuous (V := R_NormedModule)). unfold gau. auto_derive. exact I. Qed.
Lemma gau_int a b : ex_RInt gau a b.
Proof. apply (ex_RInt_continuous (V := R_CompleteNormedModule)). intros z _. apply gau_cont. Qed.

Definition E (x : R) : R := RInt gau 0 x.
Lemma E_der x : is_derive E x (gau x).
Proof.
  apply (is_derive_RInt (V := R_NormedModule) gau E 0 x); [|apply gau_cont].
  apply filter_forall. intros y. apply (RInt_correct (V := R_CompleteNormedModule)), gau_int.
Qed.
Lemma E_zero : E 0 = 0. Proof. unfold E. apply (RInt_point (V := R_CompleteNormedModule)). Qed.

Definition f (x t : R) : R := exp (- (x * x) * (1 + t * t)) / (1 + t * t).
Definition f' (x t : R) : R := - 2 * x * exp (- (x * x) * (1 + t * t)).
Lemma one_sq t : 0 < 1 + t * t. Proof. pose proof (Rle_0_sqr t). unfold Rsqr in *. lra. Qed.
Lemma f_der x t : is_derive (fun u => f u t) x (f' x t).
Proof. unfold f, f'. pose proof (one_sq t). auto_derive; [lra|]. field. lra. Qed.
Lemma f_int x : ex_RInt (f x) 0 1.
Proof.
  apply (ex_RInt_continuous (V := R_CompleteNormedModule)). intros z _. apply (ex_derive_continuous (V := R_NormedModule)). unfold f. pose proof (one_sq z).
  auto_derive. lra.
Qed.
Definition B (x : R) : R := RInt (f x) 0 1.

Lemma B_der x : is_derive B x (- 2 * gau x * E x).
Proof.
  assert (D : is_derive B x (RInt (fun t => Derive (fun u => f u t) x) 0 1)).
  { apply (is_derive_RInt_param f 0 1 x).
    - apply filter_forall. intros y t _. exists (f' y t). apply f_der.
    - intros t _. apply continuity_2d_pt_ext with f'. { intros u v. symmetry. apply is_derive_unique, f_der. }
      unfold f'. apply continuity_2d_pt_mult; [apply continuity_2d_pt_mult; [apply continuity_2d_pt_const|apply continuity_2d_pt_id1]|].
      apply (continuity_1d_2d_pt_comp exp (fun u v => - (u * u) * (1 + v * v))).
      + apply derivable_continuous_pt, derivable_pt_exp.
      + apply continuity_2d_pt_mult; [apply continuity_2d_pt_opp, continuity_2d_pt_mult; apply continuity_2d_pt_id1|].
        apply continuity_2d_pt_plus; [apply continuity_2d_pt_const|apply continuity_2d_pt_mult; apply continuity_2d_pt_id2].
    - apply filter_forall. intros y. apply f_int. }
  replace (- 2 * gau x * E x) with (RInt (fun t => Derive (fun u => f u t) x) 0 1); [exact D|].
  transitivity (RInt (fun t => scal (- 2 * gau x) (scal x (gau (x * t + 0)))) 0 1).
  - apply (RInt_ext (V := R_CompleteNormedModule)). intros t _. etransitivity; [exact (is_derive_unique _ _ _ (f_der x t))|]. unfold f', gau, scal; cbn; unfold mult; cbn.
    replace (- (x * x) * (1 + t * t)) with (- (x * x) + - ((x * t + 0) * (x * t + 0))) by ring. rewrite exp_plus. ring.
  - rewrite (RInt_scal (V := R_CompleteNormedModule)).
    + rewrite (RInt_comp_lin (V := R_CompleteNormedModule)) by apply gau_int.
      unfold scal; cbn; unfold mult; cbn. rewrite Rmult_0_r, Rmult_1_r, !Rplus_0_r. reflexivity.
    + apply (ex_RInt_comp_lin (V := R_CompleteNormedModule)), gau_int.
Qed.

Lemma B_zero : B 0 = PI / 4.
Proof.
  unfold B. rewrite <- atan_1. apply (is_RInt_unique (V := R_CompleteNormedModule)).
  replace (atan 1) with (minus (atan 1) (atan 0)) by (rewrite atan_0; unfold minus, plus, opp; cbn; ring).
  apply (is_RInt_derive (V := R_CompleteNormedModule) atan (f 0)).
  - intros x _. replace (f 0 x) with (/ (1 + x²)); [apply is_derive_atan|]. unfold f, Rsqr. replace (- (0 * 0) * (1 + x * x)) with 0 by ring. rewrite exp_0.
    unfold Rdiv. ring.
  - intros x _. apply (ex_derive_continuous (V := R_NormedModule)). unfold f. pose proof (one_sq x). auto_derive. lra.
Qed.

Lemma EB x : E x * E x + B x = PI / 4.
Proof.
  rewrite <- B_zero. replace (B 0) with (E 0 * E 0 + B 0) by (rewrite E_zero; ring).
  set (h := fun x => E x * E x + B x). change (h x = h 0).
  assert (D : forall y, derivable_pt_lim h y 0).
  { intros y. apply is_derive_Reals. unfold h. replace 0 with (plus (plus (mult (gau y) (E y)) (mult (E y) (gau y))) (- 2 * gau y * E y)) by (unfold plus, mult; cbn; ring).
    apply (is_derive_plus (V := R_NormedModule)); [|apply B_der]. apply (is_derive_mult (K := R_AbsRing)); [apply E_der|apply E_der|]. intros; apply Rmult_comm. }
  destruct (Rtotal_order x 0) as [L|[L|L]].
  - destruct (MVT_cor2 h (fun _ => 0) x 0 L ltac:(intros; apply D)) as (c & Q & _). lra.
  - subst x. reflexivity.
  - destruct (MVT_cor2 h (fun _ => 0) 0 x L ltac:(intros; apply D)) as (c & Q & _). lra.
Qed.

Lemma B_bounds x : 0 <= B x <= gau x.
Proof.
  unfold B. split.
  - apply (RInt_ge_0 (f x) 0 1); [lra|apply f_int|]. intros t _. unfold f. pose proof (one_sq t). apply Rlt_le, Rdiv_lt_0_compat; [apply exp_pos|lra].
  - replace (gau x) with (RInt (fun _ => gau x) 0 1) by (rewrite (RInt_const (V := R_CompleteNormedModule)); unfold scal; cbn; unfold mult; cbn; ring).
    apply RInt_le; [lra|apply f_int|apply (ex_RInt_const (V := R_CompleteNormedModule))|]. intros t _. unfold f, gau. pose proof (one_sq t) as O. pose proof (Rle_0_sqr t) as S1. pose proof (Rle_0_sqr x) as S2. unfold Rsqr in *.
    apply Rle_trans with (exp (- (x * x) * (1 + t * t)) / 1).
    + apply Rmult_le_compat_l; [apply Rlt_le, exp_pos|]. apply Rinv_le_contravar; lra.
    + unfold Rdiv. rewrite Rinv_1, Rmult_1_r. destruct (Req_dec (- (x * x) * (1 + t * t)) (- (x * x))) as [->|N]; [lra|]. apply Rlt_le, exp_increasing.
      assert (0 <= x * x * (t * t)) by (apply Rmult_le_pos; lra). lra.
Qed.

(** ** The error function: unique, and 1 at infinity. *)
Definition is_erf (H : R -> R) : Prop := H 0 = 0 /\ forall x, derivable_pt_lim H x (2 / sqrt PI * exp (- (x * x))).

Lemma erf_E : is_erf (fun x => ec0 * E x).
Proof.
  split; [rewrite E_zero; ring|]. intros x. apply (derivable_pt_lim_scal E ec0 x (gau x)). apply is_derive_Reals, E_der.
Qed.

Lemma erf_unique H : is_erf H -> forall x, H x = ec0 * E x.
Proof.
  intros [H0 HD] x. destruct erf_E as [E0 ED]. set (h := fun x => H x - ec0 * E x).
  assert (D : forall y, derivable_pt_lim h y 0).
  { intros y. replace 0 with (2 / sqrt PI * exp (- (y * y)) - 2 / sqrt PI * exp (- (y * y))) by ring.
    apply (derivable_pt_lim_minus H (fun x => ec0 * E x)); [apply HD|apply ED]. }
  assert (Z : h 0 = 0) by (unfold h; rewrite H0, E_zero; ring).
  assert (Q : h x = h 0).
  { destruct (Rtotal_order x 0) as [L|[L|L]].
    - destruct (MVT_cor2 h (fun _ => 0) x 0 L ltac:(intros; apply D)) as (c & Q & _). lra.
    - subst x. reflexivity.
    - destruct (MVT_cor2 h (fun _ => 0) 0 x L ltac:(intros; apply D)) as (c & Q & _). lra. }
  unfold h in Q at 1. lra.
Qed.

Lemma E_pos x : 0 <= x -> 0 <= E x.
Proof. intros Hx. apply (RInt_ge_0 gau 0 x); [exact Hx|apply gau_int|]. intros t _. apply Rlt_le, exp_pos. Qed.

Lemma erf_sq H x : is_erf H -> H x * H x = 1 - ec0 * ec0 * B x.
Proof. intros HH. rewrite (erf_unique H HH x). pose proof (EB x) as Q. pose proof c0_sqr as C. replace (ec0 * E x * (ec0 * E x)) with (ec0 * ec0 * (PI / 4 - B x)) by (rewrite <- Q; ring). lra. Qed.

Lemma true_odd H : is_erf H -> forall x, H (- x) = - H x.
Proof.
  intros HH x. assert (O : is_erf (fun x => - H (- x))).
  { destruct HH as [H0 HD]. split; [rewrite Ropp_0, H0; ring|]. intros y.
    replace (2 / sqrt PI * exp (- (y * y))) with (- (2 / sqrt PI * exp (- (- y * - y)) * (-1))) by (replace (- y * - y) with (y * y) by ring; ring).
    apply (derivable_pt_lim_opp (comp H Ropp)). apply derivable_pt_lim_comp; [|apply HD].
    replace (-1) with (- (1)) by ring. apply (derivable_pt_lim_opp id), derivable_pt_lim_id. }
  pose proof (erf_unique _ O x) as A. rewrite (erf_unique H HH x). cbv beta in A. lra.
Qed.

Lemma erf_tail H : is_erf H -> vanishes (fun x => 1 - H x).
Proof.
  intros HH eps He. destruct (exp_vanishes (eps / 2) ltac:(lra)) as [M HM]. exists (Rmax M 0). intros x Hx.
  assert (X : M < x /\ 0 < x) by (pose proof (Rmax_l M 0); pose proof (Rmax_r M 0); lra). specialize (HM x ltac:(lra)). apply Rabs_def2 in HM.
  pose proof (erf_sq H x HH) as S1. pose proof (B_bounds x) as Bb. unfold gau in Bb. pose proof c0_pos as Cp. pose proof c0_sqr as Cs. pose proof PI_close as P.
  assert (C2 : ec0 * ec0 <= 2). { apply Rmult_le_reg_r with PI; lra. }
  assert (Hp : 0 <= H x). { rewrite (erf_unique H HH x). apply Rmult_le_pos; [lra|apply E_pos; lra]. }
  assert (K : 0 <= ec0 * ec0 * B x < eps).
  { split; [apply Rmult_le_pos; [apply Rmult_le_pos|]; lra|]. apply Rle_lt_trans with (2 * B x); [apply Rmult_le_compat_r; lra|lra]. }
  assert (H1 : H x <= 1). { apply Rsqr_incr_0_var; [|lra]. unfold Rsqr. lra. }
  apply Rabs_def1; [|lra].
  assert (H x * H x <= H x) by (rewrite <- (Rmult_1_r (H x)) at 3; apply Rmult_le_compat_l; lra). lra.
Qed.

Lemma erfc_G H : is_erf H -> forall x, derivable_pt_lim (fun x => 1 - H x) x (- (ec0 * exp (- (x * x)))).
Proof.
  intros [_ HD] x. replace (- (ec0 * exp (- (x * x)))) with (0 - 2 / sqrt PI * exp (- (x * x))) by (unfold ec0; ring).
  apply (derivable_pt_lim_minus (fct_cte 1) H); [apply derivable_pt_lim_const|apply HD].
Qed.
