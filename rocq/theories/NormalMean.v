(** Mean values under independent standard normal numbers, as iterated integrals, and the probability of a half space.
    Proof support for C108, no model of code. *)
From Coq Require Import List Reals Lra Lia.
From Coquelicot Require Import Coquelicot.
From Verif Require Import ErfReal ErfGauss.
Import ListNotations.
Local Open Scope R_scope.

(** The standard normal density. *)
Definition normal_density (z : R) : R := exp (- (z * z) / 2) / sqrt (2 * PI).
Notation phi := normal_density.

(** The improper integral of f over the line is l. *)
Definition line_integral (f : R -> R) (l : R) : Prop :=
  forall eps, 0 < eps -> exists M, forall a b, M < a -> M < b -> exists v, is_RInt f (- a) b v /\ Rabs (v - l) < eps.

(** The mean value of F over n independent standard normal numbers. *)
Fixpoint normal_mean (n : nat) (F : list R -> R) (e : R) : Prop :=
  match n with
  | O => F [] = e
  | S n' => exists f, (forall z, normal_mean n' (fun zs => F (z :: zs)) (f z)) /\ line_integral (fun z => phi z * f z) e
  end.

Lemma int_ext (f g : R -> R) a b l : (forall x : R, Rmin a b < x < Rmax a b -> f x = g x :> R) -> is_RInt f a b l -> is_RInt g a b l.
Proof. apply (is_RInt_ext (V := R_NormedModule) f g). Qed.

(** ** Line integrals *)
Lemma line_unique f g l k : line_integral f l -> line_integral g k -> (forall x, f x = g x) -> l = k.
Proof.
  intros Hf Hg E. apply cond_eq. intros eps He. destruct (Hf (eps / 2) ltac:(lra)) as [M1 H1]. destruct (Hg (eps / 2) ltac:(lra)) as [M2 H2].
  set (a := Rmax M1 M2 + 1). assert (A : M1 < a /\ M2 < a) by (unfold a; pose proof (Rmax_l M1 M2); pose proof (Rmax_r M1 M2); lra).
  destruct (H1 a a) as (v & I1 & V1); try lra. destruct (H2 a a) as (w & I2 & V2); try lra.
  assert (v = w).
  { apply (is_RInt_ext (V := R_NormedModule) f g) in I1; [|intros; apply E].
    rewrite <- (is_RInt_unique (V := R_CompleteNormedModule) _ _ _ _ I1), <- (is_RInt_unique (V := R_CompleteNormedModule) _ _ _ _ I2). reflexivity. }
  subst w. apply Rabs_def2 in V1, V2. apply Rabs_def1; lra.
Qed.

Lemma line_ext f g l : (forall x, f x = g x) -> line_integral f l -> line_integral g l.
Proof.
  intros E H eps He. destruct (H eps He) as [M HM]. exists M. intros a b Ha Hb. destruct (HM a b Ha Hb) as (v & I & V). exists v. split; [|exact V].
  apply (is_RInt_ext (V := R_NormedModule) f g); [intros; apply E|exact I].
Qed.

Lemma line_lin f g k l m : line_integral f l -> line_integral g m -> line_integral (fun x => k * f x + g x) (k * l + m).
Proof.
  intros Hf Hg eps He. assert (Kp : 0 < 2 * (Rabs k + 1)) by (pose proof (Rabs_pos k); lra).
  destruct (Hf (eps / (2 * (Rabs k + 1)))) as [M1 H1]; [apply Rdiv_lt_0_compat; lra|]. destruct (Hg (eps / 2) ltac:(lra)) as [M2 H2].
  exists (Rmax M1 M2). intros a b Ha Hb. pose proof (Rmax_l M1 M2). pose proof (Rmax_r M1 M2).
  destruct (H1 a b) as (v & I1 & V1); try lra. destruct (H2 a b) as (w & I2 & V2); try lra.
  exists (plus (scal k v) w). split.
  - apply (is_RInt_plus (V := R_NormedModule) (fun x => scal k (f x)) g); [apply (is_RInt_scal (V := R_NormedModule)), I1|exact I2].
  - unfold plus, scal; cbn; unfold mult; cbn. replace (k * v + w - (k * l + m)) with (k * (v - l) + (w - m)) by ring.
    eapply Rle_lt_trans; [apply Rabs_triang|]. rewrite Rabs_mult. pose proof (Rabs_pos k). pose proof (Rabs_pos (v - l)).
    apply (Rmult_lt_compat_l (2 * (Rabs k + 1))) in V1; [|exact Kp]. replace (2 * (Rabs k + 1) * (eps / (2 * (Rabs k + 1)))) with eps in V1 by (field; lra). nra.
Qed.

(** ** Means *)
Lemma mean_ext n : forall F G e, (forall z, length z = n -> F z = G z) -> normal_mean n F e -> normal_mean n G e.
Proof.
  induction n as [|n IH]; intros F G e E H; cbn [normal_mean] in *.
  - rewrite <- (E [] eq_refl). exact H.
  - destruct H as (f & Hf & L). exists f. split; [|exact L]. intros z. apply IH with (2 := Hf z). intros zs Hz. apply E. cbn. lia.
Qed.
Lemma mean_unique n : forall F e e', normal_mean n F e -> normal_mean n F e' -> e = e'.
Proof.
  induction n as [|n IH]; intros F e e' H1 H2; cbn [normal_mean] in *; [congruence|].
  destruct H1 as (f & Hf & L1). destruct H2 as (g & Hg & L2). apply (line_unique _ _ _ _ L1 L2). intros x. f_equal. apply (IH _ _ _ (Hf x) (Hg x)).
Qed.
Lemma mean_lin n : forall F G k e g, normal_mean n F e -> normal_mean n G g -> normal_mean n (fun z => k * F z + G z) (k * e + g).
Proof.
  induction n as [|n IH]; intros F G k e g H1 H2; cbn [normal_mean] in *; [congruence|].
  destruct H1 as (f & Hf & L1). destruct H2 as (h & Hh & L2). exists (fun z => k * f z + h z). split.
  - intros z. apply (IH _ _ k _ _ (Hf z) (Hh z)).
  - apply (line_ext (fun z => k * (phi z * f z) + phi z * h z)); [intros; ring|]. apply line_lin; assumption.
Qed.

(** ** The density and its primitive *)
Definition P (z : R) : R := / 2 * (ec0 * E (z / sqrt 2)).
Lemma sqrt2_pos : 0 < sqrt 2. Proof. apply sqrt_lt_R0. lra. Qed.
Lemma phi_pos z : 0 < phi z.
Proof. unfold phi. apply Rdiv_lt_0_compat; [apply exp_pos|]. apply sqrt_lt_R0. pose proof PI_RGT_0. lra. Qed.
Lemma phi_le z : phi z <= 1.
Proof.
  unfold phi. pose proof PI_close as C. assert (S1 : 1 <= sqrt (2 * PI)) by (rewrite <- sqrt_1; apply sqrt_le_1_alt; lra).
  apply Rmult_le_reg_r with (sqrt (2 * PI)); [lra|]. unfold Rdiv. rewrite Rmult_assoc, Rinv_l, Rmult_1_r, Rmult_1_l by lra.
  apply Rle_trans with 1; [|exact S1]. rewrite <- exp_0. pose proof (Rle_0_sqr z) as Q. unfold Rsqr in Q.
  destruct (Req_dec (- (z * z) * / 2) 0) as [->|N]; [lra|]. apply Rlt_le, exp_increasing. lra.
Qed.
Lemma phi_even z : phi (- z) = phi z.
Proof. unfold phi. replace (- z * - z) with (z * z) by ring. reflexivity. Qed.
Lemma P_der z : is_derive P z (phi z).
Proof.
  pose proof sqrt2_pos as S2. pose proof PI_RGT_0 as Pp. unfold P.
  replace (phi z) with (scal (/ 2) (scal ec0 (scal (/ sqrt 2) (gau (z / sqrt 2))))).
  - apply (is_derive_scal (fun z => ec0 * E (z / sqrt 2))). apply (is_derive_scal (fun z => E (z / sqrt 2))).
    apply (is_derive_comp E (fun z => z / sqrt 2)); [apply E_der|]. auto_derive; [exact I|]. field. lra.
  - unfold scal; cbn; unfold mult; cbn. unfold phi, gau, ec0. rewrite sqrt_mult by lra.
    assert (S3 : sqrt 2 * sqrt 2 = 2) by (apply sqrt_sqrt; lra). assert (S4 : 0 < sqrt PI) by (apply sqrt_lt_R0; lra).
    replace (- (z / sqrt 2 * (z / sqrt 2))) with (- (z * z) / 2) by (rewrite <- S3 at 1; field; lra). field. lra.
Qed.
Lemma P_odd z : P (- z) = - P z.
Proof. unfold P. replace (- z / sqrt 2) with (- (z / sqrt 2)) by (unfold Rdiv; ring). rewrite (true_odd _ erf_E). ring. Qed.
Lemma P_zero : P 0 = 0. Proof. unfold P. replace (0 / sqrt 2) with 0 by (unfold Rdiv; ring). rewrite E_zero. ring. Qed.
Lemma P_mono x y : x <= y -> P x <= P y.
Proof.
  intros H. destruct (Req_dec x y) as [->|N]; [lra|]. destruct (MVT_cor2 P phi x y ltac:(lra)) as (c & Q & _); [intros; apply is_derive_Reals, P_der|].
  pose proof (phi_pos c). assert (0 < phi c * (y - x)) by (apply Rmult_lt_0_compat; lra). lra.
Qed.
Lemma P_half eps : 0 < eps -> exists M, forall x, M < x -> / 2 - eps < P x.
Proof.
  intros He. destruct (erf_tail _ erf_E eps He) as [M HM]. exists (Rmax M 0 * sqrt 2). intros x Hx. pose proof sqrt2_pos as S2.
  assert (A : M < x / sqrt 2). { apply Rle_lt_trans with (Rmax M 0); [apply Rmax_l|]. apply Rmult_lt_reg_r with (sqrt 2); [exact S2|]. unfold Rdiv. rewrite Rmult_assoc, Rinv_l; lra. }
  specialize (HM _ A). apply Rabs_def2 in HM. unfold P. lra.
Qed.
Lemma P_lt x : - / 2 < P x < / 2.
Proof.
  assert (K : forall y, P y < / 2).
  { intros y. destruct (Rlt_dec (P (y + 1)) (/ 2)) as [L|L]; [pose proof (P_mono y (y + 1) ltac:(lra)); lra|]. exfalso.
    (* P is strictly increasing and tends to 1/2. *)
    pose proof (MVT_cor2 P phi (y + 1) (y + 2) ltac:(lra) ltac:(intros; apply is_derive_Reals, P_der)) as (c & Q & _). pose proof (phi_pos c).
    assert (B : / 2 < P (y + 2)) by nra. pose proof (erf_tail _ erf_E ((P (y + 2) - / 2)) ltac:(lra)) as [M HM].
    set (x2 := Rmax (M * sqrt 2) (y + 2) + 1). pose proof sqrt2_pos as S2.
    assert (X : M * sqrt 2 < x2 /\ y + 2 <= x2) by (unfold x2; pose proof (Rmax_l (M * sqrt 2) (y + 2)); pose proof (Rmax_r (M * sqrt 2) (y + 2)); lra).
    assert (A : M < x2 / sqrt 2). { apply Rmult_lt_reg_r with (sqrt 2); [exact S2|]. unfold Rdiv. rewrite Rmult_assoc, Rinv_l; lra. }
    specialize (HM _ A). apply Rabs_def2 in HM. pose proof (P_mono (y + 2) x2 ltac:(lra)) as Mo. unfold P in Mo at 2. lra. }
  split; [|apply K]. pose proof (K (- x)) as Q. rewrite P_odd in Q. lra.
Qed.

(** The tail beyond x. *)
Definition Qt (x : R) : R := / 2 - P x.
Lemma Qt_erf x : Qt x = / 2 * (1 - ec0 * E (x / sqrt 2)). Proof. unfold Qt, P. ring. Qed.
Lemma phi_cont z : continuous phi z.
Proof. apply (ex_derive_continuous (V := R_NormedModule)). unfold phi. auto_derive. exact I. Qed.
Lemma phi_RInt a b : is_RInt phi a b (P b - P a).
Proof. apply (is_RInt_derive (V := R_CompleteNormedModule) P phi); intros; [apply P_der|apply phi_cont]. Qed.

Lemma line_phi : line_integral phi 1.
Proof.
  intros eps He. destruct (P_half (eps / 2) ltac:(lra)) as [M HM]. exists M. intros a b Ha Hb. exists (P b - P (- a)). split; [apply phi_RInt|].
  rewrite P_odd. pose proof (HM a Ha). pose proof (HM b Hb). pose proof (P_lt a). pose proof (P_lt b). apply Rabs_def1; lra.
Qed.
Lemma line_zero : line_integral (fun _ => 0) 0.
Proof.
  intros eps He. exists 0. intros a b _ _. exists 0. split; [|rewrite Rminus_0_r, Rabs_R0; exact He].
  pose proof (is_RInt_const (V := R_NormedModule) (- a) b 0) as H. unfold scal in H; cbn in H; unfold mult in H; cbn in H. rewrite Rmult_0_r in H. exact H.
Qed.
Lemma line_scal f k l : line_integral f l -> line_integral (fun x => k * f x) (k * l).
Proof.
  intros H. pose proof (line_lin f (fun _ => 0) k l 0 H line_zero) as L. rewrite Rplus_0_r in L. revert L. apply line_ext. intros; ring.
Qed.
Lemma mean_const n c : normal_mean n (fun _ => c) c.
Proof.
  induction n as [|n IH]; cbn [normal_mean]; [reflexivity|]. exists (fun _ => c). split; [intros _; exact IH|].
  pose proof (line_scal phi c 1 line_phi) as L. rewrite Rmult_1_r in L. revert L. apply line_ext. intros; ring.
Qed.

(** ** One number: the indicator of a half line *)
Definition ind (A : Prop) (d : {A} + {~ A}) : R := if d then 1 else 0.

Lemma half_up c f : (forall z, z < c -> f z = 0) -> (forall z, c < z -> f z = 1) -> line_integral (fun z => phi z * f z) (Qt c).
Proof.
  intros F0 F1 eps He. destruct (P_half eps He) as [M HM]. exists (Rmax M (Rabs c)). intros a b Ha Hb.
  pose proof (Rmax_l M (Rabs c)). pose proof (Rmax_r M (Rabs c)). assert (C : - a < c < b) by (destruct (Rabs_def2 c (Rmin a b)); [apply Rmin_glb_lt; lra|pose proof (Rmin_l a b); pose proof (Rmin_r a b); lra]).
  exists (plus 0 (P b - P c)). split.
  - apply (is_RInt_Chasles (V := R_NormedModule)) with c.
    + apply (int_ext (fun _ => 0)).
      * intros x Hx. rewrite Rmin_left, Rmax_right in Hx by lra. rewrite F0 by lra. ring.
      * pose proof (is_RInt_const (V := R_NormedModule) (- a) c 0) as I. unfold scal in I; cbn in I; unfold mult in I; cbn in I. rewrite Rmult_0_r in I. exact I.
    + apply (int_ext phi).
      * intros x Hx. rewrite Rmin_left, Rmax_right in Hx by lra. rewrite F1 by lra. ring.
      * apply phi_RInt.
  - unfold plus; cbn. unfold Qt. pose proof (HM b ltac:(lra)). pose proof (P_lt b). apply Rabs_def1; lra.
Qed.
Lemma half_down c f : (forall z, z < c -> f z = 1) -> (forall z, c < z -> f z = 0) -> line_integral (fun z => phi z * f z) (Qt (- c)).
Proof.
  intros F1 F0. pose proof (half_up c (fun z => 1 - f z)) as L.
  assert (L1 : line_integral (fun z => phi z * (1 - f z)) (Qt c)) by (apply L; intros z Hz; [rewrite F1|rewrite F0]; try exact Hz; ring).
  pose proof (line_lin _ _ (-1) _ _ L1 line_phi) as K. replace (Qt (- c)) with (-1 * Qt c + 1) by (unfold Qt; rewrite P_odd; lra). revert K. apply line_ext. intros; ring.
Qed.

(** ** One number against an independent tail *)
Section Tail.
Variables a b : R.
Hypothesis Hb : 0 < b.
Let s := sqrt (a * a + b * b).
Lemma s_pos : 0 < s.
Proof. apply sqrt_lt_R0. pose proof (Rle_0_sqr a) as Q. unfold Rsqr in Q. nra. Qed.
Lemma s_sq : s * s = a * a + b * b.
Proof. apply sqrt_sqrt. pose proof (Rle_0_sqr a) as Q. unfold Rsqr in Q. nra. Qed.
Definition gt (c z : R) : R := phi z * Qt ((c - a * z) / b).
Definition gd (c z : R) : R := - (phi z * phi ((c - a * z) / b) / b).

Lemma Qt_der x : is_derive Qt x (- phi x).
Proof. unfold Qt. replace (- phi x) with (minus 0 (phi x)) by (unfold minus, plus, opp; cbn; ring). apply (is_derive_minus (V := R_NormedModule) (fun _ => / 2) P); [apply (is_derive_const (V := R_NormedModule))|apply P_der]. Qed.
Lemma gt_der z c : is_derive (fun c => gt c z) c (gd c z).
Proof.
  unfold gt, gd. replace (- (phi z * phi ((c - a * z) / b) / b)) with (scal (phi z) (scal (/ b) (- phi ((c - a * z) / b)))) by (unfold scal; cbn; unfold mult; cbn; field; lra).
  apply (is_derive_scal (fun c => Qt ((c - a * z) / b))). apply (is_derive_comp Qt (fun c => (c - a * z) / b)); [apply Qt_der|]. auto_derive; [exact I|]. field. lra.
Qed.
Lemma gt_cont c z : continuous (gt c) z.
Proof.
  apply (ex_derive_continuous (V := R_NormedModule)). unfold gt. apply (ex_derive_mult phi (fun z => Qt ((c - a * z) / b))).
  - unfold phi. auto_derive. exact I.
  - apply (ex_derive_comp Qt (fun z => (c - a * z) / b)); [eexists; apply Qt_der|]. auto_derive. exact I.
Qed.
Lemma square c z : phi z * phi ((c - a * z) / b) / b = phi (c / s) / s * (s / b * phi (s / b * (z - a * c / (s * s)))).
Proof.
  pose proof s_pos as S0. pose proof s_sq as S2. pose proof PI_RGT_0 as Pp. assert (R0 : 0 < sqrt (2 * PI)) by (apply sqrt_lt_R0; lra).
  unfold phi.
  assert (K : exp (- (z * z) / 2) * exp (- ((c - a * z) / b * ((c - a * z) / b)) / 2)
    = exp (- (c / s * (c / s)) / 2) * exp (- (s / b * (z - a * c / (s * s)) * (s / b * (z - a * c / (s * s)))) / 2)).
  { rewrite <- !exp_plus. f_equal. replace (c / s * (c / s)) with (c * c / (s * s)) by (field; lra).
    replace (s / b * (z - a * c / (s * s)) * (s / b * (z - a * c / (s * s)))) with (s * s / (b * b) * ((z - a * c / (s * s)) * (z - a * c / (s * s)))) by (field; lra).
    rewrite S2. pose proof (Rle_0_sqr a) as Q. unfold Rsqr in Q. assert (N : a * a + b * b <> 0) by nra. field. split; [exact N|lra]. }
  apply (Rmult_eq_reg_r (b * (sqrt (2 * PI) * sqrt (2 * PI)))); [|apply Rgt_not_eq; repeat apply Rmult_lt_0_compat; lra].
  transitivity (exp (- (z * z) / 2) * exp (- ((c - a * z) / b * ((c - a * z) / b)) / 2)); [field; lra|]. rewrite K. field. lra.
Qed.
Lemma gd_RInt c A B : is_RInt (gd c) A B (- (phi (c / s) / s) * (P (s / b * (B - a * c / (s * s))) - P (s / b * (A - a * c / (s * s))))).
Proof.
  pose proof s_pos as S0. set (m := a * c / (s * s)).
  apply (int_ext (fun z => scal (- (phi (c / s) / s)) (s / b * phi (s / b * (z - m))))).
  { intros z _. unfold gd. rewrite square. fold m. unfold scal; cbn; unfold mult; cbn. ring. }
  apply (is_RInt_scal (V := R_NormedModule)).
  apply (is_RInt_derive (V := R_CompleteNormedModule) (fun z => P (s / b * (z - m)))).
  - intros z _. replace (s / b * phi (s / b * (z - m))) with (scal (s / b) (phi (s / b * (z - m)))) by reflexivity.
    apply (is_derive_comp P (fun z => s / b * (z - m))); [apply P_der|]. auto_derive; [exact I|]. ring.
  - intros z _. apply (ex_derive_continuous (V := R_NormedModule)). unfold phi. auto_derive. exact I.
Qed.

Lemma gt_int c A B : ex_RInt (gt c) A B.
Proof. apply (ex_RInt_continuous (V := R_CompleteNormedModule)). intros; apply gt_cont. Qed.

Lemma J_der A B c : is_derive (fun c => RInt (gt c) A B) c (- (phi (c / s) / s) * (P (s / b * (B - a * c / (s * s))) - P (s / b * (A - a * c / (s * s))))).
Proof.
  assert (D : is_derive (fun c => RInt (gt c) A B) c (RInt (fun z => Derive (fun u => gt u z) c) A B)).
  { apply (is_derive_RInt_param gt A B c).
    - apply filter_forall. intros y t _. exists (gd y t). apply gt_der.
    - intros t _. apply continuity_2d_pt_ext with gd. { intros u v. symmetry. apply is_derive_unique, gt_der. }
      assert (Cp : forall z, continuity_pt phi z) by (intros z; apply continuity_pt_filterlim, phi_cont).
      unfold gd. apply (continuity_2d_pt_ext (fun u v => (- / b) * (phi v * phi (/ b * (u - a * v))))).
      { intros u v. replace ((u - a * v) / b) with (/ b * (u - a * v)) by (field; lra). field. lra. }
      apply continuity_2d_pt_mult; [apply continuity_2d_pt_const|]. apply continuity_2d_pt_mult.
      + apply (continuity_1d_2d_pt_comp phi (fun u v => v)); [apply Cp|apply continuity_2d_pt_id2].
      + apply (continuity_1d_2d_pt_comp phi (fun u v => / b * (u - a * v))); [apply Cp|].
        apply continuity_2d_pt_mult; [apply continuity_2d_pt_const|]. apply continuity_2d_pt_minus; [apply continuity_2d_pt_id1|].
        apply continuity_2d_pt_mult; [apply continuity_2d_pt_const|apply continuity_2d_pt_id2].
    - apply filter_forall. intros y. apply gt_int. }
  assert (Ev : RInt (fun z => Derive (fun u => gt u z) c) A B = - (phi (c / s) / s) * (P (s / b * (B - a * c / (s * s))) - P (s / b * (A - a * c / (s * s))))).
  { apply is_RInt_unique. apply (int_ext (gd c)); [intros z _; symmetry; apply is_derive_unique, gt_der|apply gd_RInt]. }
  rewrite <- Ev. exact D.
Qed.

(** At c = 0 the odd part of the integrand all but cancels. *)
Definition odd_part (z : R) : R := phi z * P (a * z / b).
Lemma odd_cont z : continuous odd_part z.
Proof.
  apply (ex_derive_continuous (V := R_NormedModule)). unfold odd_part. apply (ex_derive_mult phi (fun z => P (a * z / b))).
  - unfold phi. auto_derive. exact I.
  - apply (ex_derive_comp P (fun z => a * z / b)); [eexists; apply P_der|]. auto_derive. exact I.
Qed.
Lemma odd_int x y : ex_RInt odd_part x y.
Proof. apply (ex_RInt_continuous (V := R_CompleteNormedModule)). intros; apply odd_cont. Qed.
Lemma odd_flip x y : RInt odd_part x y = RInt odd_part (- x) (- y).
Proof.
  symmetry. pose proof (is_RInt_comp_opp (V := R_NormedModule) odd_part x y _ (RInt_correct (V := R_CompleteNormedModule) _ _ _ (odd_int (- x) (- y)))) as H.
  symmetry. apply is_RInt_unique. revert H. apply int_ext. intros z _. unfold odd_part, opp; cbn. rewrite phi_even.
  replace (a * - z / b) with (- (a * z / b)) by (field; lra). rewrite P_odd. ring.
Qed.
Lemma odd_small A B : Rabs (RInt odd_part (- A) B) <= / 2 * Rabs (P B - P A).
Proof.
  assert (C : RInt odd_part (- A) B = RInt odd_part A B).
  { rewrite <- (RInt_Chasles (V := R_CompleteNormedModule) odd_part (- A) 0 B), <- (RInt_Chasles (V := R_CompleteNormedModule) odd_part A 0 B) by apply odd_int.
    rewrite (odd_flip (- A) 0). rewrite Ropp_involutive, Ropp_0. reflexivity. }
  rewrite C.
  assert (K : forall x y, x <= y -> Rabs (RInt odd_part x y) <= / 2 * (P y - P x)).
  { intros x y Hxy. assert (I2 : forall k, is_RInt (fun z => k * phi z) x y (k * (P y - P x))) by (intros k; apply (is_RInt_scal (V := R_NormedModule) phi), phi_RInt).
    assert (Iv : forall k, RInt (fun z => k * phi z) x y = k * (P y - P x)) by (intros k; apply is_RInt_unique, I2).
    apply Rabs_le. split.
    - replace (- (/ 2 * (P y - P x))) with (- / 2 * (P y - P x)) by ring. rewrite <- (Iv (- / 2)).
      apply RInt_le; [exact Hxy|eexists; apply I2|apply odd_int|]. intros z _. unfold odd_part. pose proof (phi_pos z). pose proof (P_lt (a * z / b)). nra.
    - rewrite <- (Iv (/ 2)).
      apply RInt_le; [exact Hxy|apply odd_int|eexists; apply I2|]. intros z _. unfold odd_part. pose proof (phi_pos z). pose proof (P_lt (a * z / b)). nra. }
  destruct (Rle_dec A B) as [L|L].
  - rewrite (Rabs_right (P B - P A)); [apply K, L|]. pose proof (P_mono _ _ L). lra.
  - rewrite <- (opp_RInt_swap (V := R_CompleteNormedModule)) by apply odd_int. unfold opp; cbn. rewrite Rabs_Ropp. rewrite (Rabs_left1 (P B - P A)); [|pose proof (P_mono B A ltac:(lra)); lra].
    replace (- (P B - P A)) with (P A - P B) by ring. apply K. lra.
Qed.
Lemma J_zero A B : Rabs (RInt (gt 0) (- A) B - / 2) <= / 2 * (Qt A + Qt B) + / 2 * Rabs (P B - P A).
Proof.
  assert (V : RInt (gt 0) (- A) B = / 2 * (P B + P A) + RInt odd_part (- A) B).
  { apply is_RInt_unique. apply (int_ext (fun z => plus (scal (/ 2) (phi z)) (odd_part z))).
    - intros z _. unfold gt, odd_part, Qt. replace ((0 - a * z) / b) with (- (a * z / b)) by (field; lra). rewrite P_odd. unfold plus, scal; cbn; unfold mult; cbn. ring.
    - apply (is_RInt_plus (V := R_NormedModule) (fun z => scal (/ 2) (phi z)) odd_part).
      + replace (/ 2 * (P B + P A)) with (scal (/ 2) (P B - P (- A))) by (rewrite P_odd; unfold scal; cbn; unfold mult; cbn; ring). apply (is_RInt_scal (V := R_NormedModule) phi), phi_RInt.
      + apply (RInt_correct (V := R_CompleteNormedModule)), odd_int. }
  rewrite V. replace (/ 2 * (P B + P A) + RInt odd_part (- A) B - / 2) with (- (/ 2 * (Qt A + Qt B)) + RInt odd_part (- A) B) by (unfold Qt; lra).
  eapply Rle_trans; [apply Rabs_triang|]. rewrite Rabs_Ropp, Rabs_right; [pose proof (odd_small A B); lra|]. unfold Qt. pose proof (P_lt A). pose proof (P_lt B). lra.
Qed.

Lemma Qt_mono x y : x <= y -> Qt y <= Qt x. Proof. intros H. unfold Qt. pose proof (P_mono _ _ H). lra. Qed.
Lemma Qt_pos x : 0 < Qt x. Proof. unfold Qt. pose proof (P_lt x). lra. Qed.

Lemma tail_step c : line_integral (gt c) (Qt (c / s)).
Proof.
  pose proof s_pos as S0. intros eps He.
  set (m0 := Rabs a * Rabs c / (s * s)). set (W := Rabs c / s + 1).
  assert (Wp : 1 <= W) by (unfold W; assert (0 <= Rabs c / s) by (apply Rmult_le_pos; [apply Rabs_pos|apply Rlt_le, Rinv_0_lt_compat, S0]); lra).
  set (d := eps / (4 * W)). assert (Hd : 0 < d) by (apply Rdiv_lt_0_compat; lra). assert (dW : W * d = eps / 4) by (unfold d; field; lra).
  destruct (P_half d Hd) as [M HM]. exists (Rmax (Rmax M 0) (Rmax M 0 * b / s + m0)). intros A B HA HB.
  pose proof (Rmax_l (Rmax M 0) (Rmax M 0 * b / s + m0)). pose proof (Rmax_r (Rmax M 0) (Rmax M 0 * b / s + m0)). pose proof (Rmax_l M 0).
  exists (RInt (gt c) (- A) B). split; [apply (RInt_correct (V := R_CompleteNormedModule)), gt_int|].
  assert (Far : forall X m, Rmax M 0 * b / s + m0 < X -> Rabs m <= m0 -> Qt (s / b * (X - m)) < d).
  { intros X m HX Hm. pose proof (Rle_abs m). assert (Y : Rmax M 0 < s / b * (X - m)).
    { apply Rmult_lt_reg_r with (b / s); [apply Rdiv_lt_0_compat; lra|]. replace (s / b * (X - m) * (b / s)) with (X - m) by (field; lra).
      replace (Rmax M 0 * (b / s)) with (Rmax M 0 * b / s) by (unfold Rdiv; ring). lra. }
    unfold Qt. pose proof (HM (s / b * (X - m)) ltac:(lra)). lra. }
  set (D := fun u => RInt (gt u) (- A) B - Qt (u / s)).
  set (D' := fun u => phi (u / s) / s * (Qt (s / b * (B - a * u / (s * s))) + Qt (s / b * (A - - (a * u / (s * s)))))).
  assert (Dd : forall u, derivable_pt_lim D u (D' u)).
  { intros u. apply is_derive_Reals. unfold D, D'.
    replace (phi (u / s) / s * (Qt (s / b * (B - a * u / (s * s))) + Qt (s / b * (A - - (a * u / (s * s))))))
      with (minus (- (phi (u / s) / s) * (P (s / b * (B - a * u / (s * s))) - P (s / b * (- A - a * u / (s * s))))) (scal (/ s) (- phi (u / s)))).
    - apply (is_derive_minus (V := R_NormedModule) (fun u => RInt (gt u) (- A) B) (fun u => Qt (u / s))); [apply J_der|].
      apply (is_derive_comp Qt (fun u => u / s)); [apply Qt_der|]. auto_derive; [exact I|]. field. lra.
    - replace (s / b * (- A - a * u / (s * s))) with (- (s / b * (A - - (a * u / (s * s))))) by ring. rewrite P_odd.
      unfold minus, plus, opp, scal, Qt; cbn; unfold mult; cbn. field. lra. }
  assert (Db : forall u, Rabs u <= Rabs c -> 0 <= D' u <= / s * (2 * d)).
  { intros u Hu. assert (Hm : Rabs (a * u / (s * s)) <= m0).
    { unfold m0, Rdiv. rewrite !Rabs_mult. rewrite (Rabs_right (/ (s * s))) by (apply Rle_ge, Rlt_le, Rinv_0_lt_compat; nra).
      apply Rmult_le_compat_r; [apply Rlt_le, Rinv_0_lt_compat; nra|]. apply Rmult_le_compat_l; [apply Rabs_pos|exact Hu]. }
    pose proof (Far B (a * u / (s * s)) ltac:(lra) Hm) as F1. pose proof (Far A (- (a * u / (s * s))) ltac:(lra) ltac:(rewrite Rabs_Ropp; exact Hm)) as F2.
    unfold D'. pose proof (Qt_pos (s / b * (B - a * u / (s * s)))). pose proof (Qt_pos (s / b * (A - - (a * u / (s * s))))).
    pose proof (phi_pos (u / s)). pose proof (phi_le (u / s)). pose proof (Rinv_0_lt_compat s S0).
    set (q1 := Qt _) in *. set (q2 := Qt _) in *. set (p := phi _) in *. unfold Rdiv. split.
    - apply Rmult_le_pos; [apply Rmult_le_pos; lra|lra].
    - apply Rle_trans with (1 * / s * (2 * d)); [|lra]. apply Rmult_le_compat; try lra; [apply Rmult_le_pos; lra|]. apply Rmult_le_compat_r; lra. }
  assert (Dc : Rabs (D c - D 0) <= Rabs c * (/ s * (2 * d))).
  { destruct (Rtotal_order c 0) as [L|[L|L]].
    - destruct (MVT_cor2 D D' c 0 L ltac:(intros; apply Dd)) as (u & Q & U). destruct (Db u) as [B1 B2]; [rewrite !Rabs_left1 by lra; lra|].
      rewrite (Rabs_left c) by lra. replace (D c - D 0) with (- (D' u * (0 - c))) by lra. rewrite Rabs_Ropp, Rabs_right by nra. nra.
    - subst c. rewrite Rminus_diag_eq by reflexivity. rewrite !Rabs_R0. lra.
    - destruct (MVT_cor2 D D' 0 c L ltac:(intros; apply Dd)) as (u & Q & U). destruct (Db u) as [B1 B2]; [rewrite !Rabs_right by lra; lra|].
      rewrite (Rabs_right c) by lra. rewrite Q, Rabs_right by nra. nra. }
  assert (D0 : Rabs (D 0) <= 2 * d).
  { unfold D. replace (0 / s) with 0 by (unfold Rdiv; ring). unfold Qt at 1. rewrite P_zero, Rminus_0_r.
    pose proof (HM A ltac:(lra)) as Q1. pose proof (HM B ltac:(lra)) as Q2. pose proof (P_lt A). pose proof (P_lt B).
    eapply Rle_trans; [apply J_zero|]. unfold Qt. assert (Rabs (P B - P A) <= d) by (apply Rabs_le; lra). lra. }
  change (Rabs (D c) < eps). replace (D c) with ((D c - D 0) + D 0) by ring. eapply Rle_lt_trans; [apply Rabs_triang|].
  assert (Rabs c * (/ s * (2 * d)) + 2 * d = 2 * (W * d)) by (unfold W; field; lra). lra.
Qed.
End Tail.

(** ** Half spaces *)
Fixpoint dot (a z : list R) : R := match a, z with x :: a', y :: z' => x * y + dot a' z' | _, _ => 0 end.

Lemma dot_nonneg a : 0 <= dot a a.
Proof. induction a as [|x a IH]; cbn; [lra|]. pose proof (Rle_0_sqr x) as Q. unfold Rsqr in Q. lra. Qed.
Lemma dot_null a : dot a a = 0 -> forall z, dot a z = 0.
Proof.
  induction a as [|x a IH]; intros H [|y z]; cbn in *; try reflexivity. pose proof (dot_nonneg a). pose proof (Rle_0_sqr x) as Q. unfold Rsqr in Q.
  assert (X : x * x = 0) by lra. assert (x = 0) by nra. rewrite (IH ltac:(lra) z). subst x. ring.
Qed.

(** A step at c, whatever it is at c itself. *)
Lemma half_space a : forall c (T : R -> R), (forall x, x < c -> T x = 0) -> (forall x, c < x -> T x = 1) -> 0 < dot a a ->
  normal_mean (length a) (fun z => T (dot a z)) (Qt (c / sqrt (dot a a))).
Proof.
  induction a as [|x a IH]; intros c T T0 T1 H; cbn [length normal_mean dot] in *; [lra|].
  pose proof (dot_nonneg a) as N. destruct (Req_dec (dot a a) 0) as [Z|Z].
  - exists (fun z => T (x * z)). split.
    + intros z. apply mean_ext with (fun _ => T (x * z)); [|apply mean_const]. intros zs _. rewrite (dot_null a Z zs), Rplus_0_r. reflexivity.
    + rewrite Z, Rplus_0_r in *. destruct (Rtotal_order x 0) as [L|[L|L]]; [|subst x; lra|].
      * replace (c / sqrt (x * x)) with (- (c / x)) by (replace (x * x) with (- x * - x) by ring; rewrite sqrt_square by lra; field; lra).
        apply half_down; intros z Hz; [apply T1|apply T0]; apply (Rmult_lt_gt_compat_neg_l x) in Hz; try exact L; replace (x * (c / x)) with c in Hz by (field; lra); lra.
      * replace (c / sqrt (x * x)) with (c / x) by (rewrite sqrt_square by lra; reflexivity).
        apply half_up; intros z Hz; [apply T0|apply T1]; apply (Rmult_lt_compat_l x) in Hz; try exact L; replace (x * (c / x)) with c in Hz by (field; lra); lra.
  - assert (Np : 0 < dot a a) by lra. assert (Sp : 0 < sqrt (dot a a)) by (apply sqrt_lt_R0; exact Np).
    exists (fun z => Qt ((c - x * z) / sqrt (dot a a))). split.
    + intros z. apply (IH (c - x * z) (fun y => T (x * z + y))); [intros y Hy; apply T0; lra|intros y Hy; apply T1; lra|exact Np].
    + pose proof (tail_step x _ Sp c) as K. rewrite (sqrt_sqrt (dot a a)) in K by lra. exact K.
Qed.
(** Along a unit vector. *)
Lemma unit_up a t (F : list R -> R) n : length a = n -> dot a a = 1 -> (forall z, length z = n -> t < dot a z -> F z = 1) -> (forall z, length z = n -> dot a z < t -> F z = 0) ->
  (forall z z', length z = n -> length z' = n -> dot a z = dot a z' -> F z = F z') -> normal_mean n F (Qt t).
Proof.
  intros L U F1 F0 FE. assert (Ep : exists v, forall z, length z = n -> dot a z = t -> F z = v).
  { exists (F (map (fun x => t * x) a)). intros z Lz Hz. apply FE; [exact Lz|rewrite map_length; exact L|]. rewrite Hz.
    assert (K : forall l, dot l (map (fun x => t * x) l) = t * dot l l) by (induction l as [|x l IH]; cbn; [ring|rewrite IH; ring]). rewrite K, U. ring. }
  destruct Ep as [v Hv]. set (T := fun x => if Rlt_dec t x then 1 else if Rlt_dec x t then 0 else v).
  pose proof (half_space a t T) as S1. rewrite U, sqrt_1, L in S1. replace (t / 1) with t in S1 by field.
  apply mean_ext with (fun z => T (dot a z)).
  - intros z Lz. unfold T. destruct (Rlt_dec t (dot a z)) as [A|A]; [symmetry; apply F1; assumption|]. destruct (Rlt_dec (dot a z) t) as [B|B]; [symmetry; apply F0; assumption|].
    symmetry. apply Hv; [exact Lz|lra].
  - apply S1; [| |lra]; intros x Hx; unfold T; destruct (Rlt_dec t x); try lra; destruct (Rlt_dec x t); lra.
Qed.
Lemma unit_down a t (F : list R -> R) n : length a = n -> dot a a = 1 -> (forall z, length z = n -> dot a z < - t -> F z = 1) -> (forall z, length z = n -> - t < dot a z -> F z = 0) ->
  (forall z z', length z = n -> length z' = n -> dot a z = dot a z' -> F z = F z') -> normal_mean n F (Qt t).
Proof.
  intros L U F1 F0 FE. pose proof (unit_up a (- t) (fun z => 1 - F z) n L U) as S1.
  assert (K : normal_mean n (fun z => 1 - F z) (Qt (- t))).
  { apply S1; intros; [rewrite F0 by assumption; ring|rewrite F1 by assumption; ring|f_equal; apply FE; assumption]. }
  pose proof (mean_lin n _ _ (-1) _ _ K (mean_const n 1)) as M. replace (Qt t) with (-1 * Qt (- t) + 1) by (unfold Qt; rewrite P_odd; lra).
  revert M. apply mean_ext. intros; ring.
Qed.

(** ** Independence *)
(** F looks only at the coordinates marked true. *)
Definition looks (m : list bool) (F : list R -> R) : Prop :=
  forall z z', length z = length m -> length z' = length m -> (forall i, nth i m false = true -> nth i z 0 = nth i z' 0) -> F z = F z'.

Lemma looks_cons b m F x : looks (b :: m) F -> looks m (fun zs => F (x :: zs)).
Proof. intros H z z' L L' E. apply H; cbn; [lia|lia|]. intros [|i] Hi; [reflexivity|]. cbn in *. apply E, Hi. Qed.
Lemma looks_skip m F : looks (false :: m) F -> forall x y zs, length zs = length m -> F (x :: zs) = F (y :: zs).
Proof. intros H x y zs L. apply H; cbn; [lia|lia|]. intros [|i] Hi; [discriminate|reflexivity]. Qed.
Lemma mean_skip m F e : looks (false :: m) F -> normal_mean (S (length m)) F e -> forall x, normal_mean (length m) (fun zs => F (x :: zs)) e.
Proof.
  intros Lk H x. cbn [normal_mean] in H. destruct H as (f & Hf & L).
  assert (C : forall z, f z = f x). { intros z. apply (mean_unique (length m) (fun zs => F (x :: zs))); [|apply Hf]. apply mean_ext with (2 := Hf z). intros zs Lz. apply (looks_skip m F Lk). exact Lz. }
  assert (e = f x). { pose proof (line_scal phi (f x) 1 line_phi) as K. rewrite Rmult_1_r in K. apply (line_unique _ _ _ _ L K). intros z. rewrite C. ring. }
  subst e. apply Hf.
Qed.
Lemma mean_product m : forall F G e g, looks m F -> looks (map negb m) G -> normal_mean (length m) F e -> normal_mean (length m) G g ->
  normal_mean (length m) (fun z => F z * G z) (e * g).
Proof.
  induction m as [|b m IH]; intros F G e g LF LG HF HG; [cbn in *; congruence|]. cbn [map] in LG. destruct b; cbn [negb] in LG.
  - pose proof (mean_skip (map negb m) G g LG) as Sk. rewrite map_length in Sk. specialize (Sk HG). cbn [length normal_mean] in *. destruct HF as (f & Hf & L). exists (fun z => f z * g). split.
    + intros z. apply (IH (fun zs => F (z :: zs)) (fun zs => G (z :: zs))); [apply looks_cons with (1 := LF)|apply looks_cons with (1 := LG)|apply Hf|apply Sk].
    + pose proof (line_scal _ g _ L) as K. rewrite (Rmult_comm e g). revert K. apply line_ext. intros; ring.
  - pose proof (mean_skip m F e LF HF) as Sk. cbn [length normal_mean] in *. destruct HG as (h & Hh & L). exists (fun z => e * h z). split.
    + intros z. apply (IH (fun zs => F (z :: zs)) (fun zs => G (z :: zs))); [apply looks_cons with (1 := LF)|apply looks_cons with (1 := LG)|apply Sk|apply Hh].
    + pose proof (line_scal _ e _ L) as K. revert K. apply line_ext. intros; ring.
Qed.
