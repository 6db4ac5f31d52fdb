(** The moments of a standard normal number and the spread of a sum of independent terms.  Proof support for C110, no model of code. *)
From Coq Require Import List Arith Reals Bool Lia Lra.
From Coquelicot Require Import Coquelicot.
From Coq Require Import Psatz.
From Verif Require Import NormalMean.
Import ListNotations.
Local Open Scope R_scope.

(** A primitive that vanishes at both ends up to l. *)
Lemma line_primitive (f G : R -> R) l : (forall z, is_derive G z (f z)) -> (forall z, continuous f z) ->
  (forall eps, 0 < eps -> exists M, forall z, M < z -> Rabs (G z - l / 2) < eps /\ Rabs (G (- z) + l / 2) < eps) -> line_integral f l.
Proof.
  intros D Cf V eps He. destruct (V (eps / 2) ltac:(lra)) as [M HM]. exists M. intros a b Ha Hb. exists (G b - G (- a)). split.
  - apply (is_RInt_derive (V := R_CompleteNormedModule) G f); intros; [apply D|apply Cf].
  - destruct (HM a Ha) as [_ A]. destruct (HM b Hb) as [B _]. apply Rabs_def2 in A, B. apply Rabs_def1; lra.
Qed.

(** Any cubic times the density vanishes far out. *)
Lemma phi_small z : 1 <= z -> z * z * z * z * phi z <= 4096 / (z * z * (z * z)).
Proof.
  intros Hz. assert (Pl : phi z <= exp (- (z * z) / 2)).
  { unfold phi. pose proof (exp_pos (- (z * z) / 2)). pose proof PI2_1. assert (1 <= sqrt (2 * PI)) by (rewrite <- sqrt_1; apply sqrt_le_1_alt; unfold PI2 in *; lra).
    apply Rmult_le_reg_r with (sqrt (2 * PI)); [lra|]. unfold Rdiv at 1. rewrite Rmult_assoc, Rinv_l by lra. nra. }
  set (y := z * z / 8). assert (Hy : 0 < y) by (unfold y; nra).
  assert (Ex : y * y * (y * y) <= exp (z * z / 2)).
  { replace (z * z / 2) with (y + y + (y + y)) by (unfold y; field). rewrite !exp_plus. pose proof (exp_ineq1 y ltac:(lra)) as E1. assert (y <= exp y) by lra.
    assert (y * y <= exp y * exp y) by nra. assert (0 <= y * y) by nra. nra. }
  assert (Ei : exp (- (z * z) / 2) = / exp (z * z / 2)) by (rewrite <- exp_Ropp; f_equal; field).
  assert (Y4 : 0 < y * y * (y * y)) by (assert (0 < y * y) by (apply Rmult_lt_0_compat; exact Hy); apply Rmult_lt_0_compat; assumption).
  apply Rle_trans with (z * z * z * z * / (y * y * (y * y))).
  - apply Rmult_le_compat_l; [nra|]. eapply Rle_trans; [exact Pl|]. rewrite Ei. apply Rinv_le_contravar; assumption.
  - right. unfold y. field. lra.
Qed.
Lemma phi_cubic (h : R -> R) K : (forall z, 1 <= z -> Rabs (h z) <= K * (z * z * z * z) /\ Rabs (h (- z)) <= K * (z * z * z * z)) -> 0 <= K ->
  forall eps, 0 < eps -> exists M, forall z, M < z -> Rabs (h z * phi z) < eps /\ Rabs (h (- z) * phi z) < eps.
Proof.
  intros Hh HK eps He. exists (1 + 4096 * K / eps). intros z Hz. assert (Kp : 0 <= 4096 * K / eps) by (apply Rmult_le_pos; [lra|apply Rlt_le, Rinv_0_lt_compat, He]).
  assert (Z1 : 1 <= z) by lra. pose proof (phi_pos z) as Pp. pose proof (phi_small z Z1) as S1.
  assert (B : K * (z * z * z * z) * phi z < eps).
  { replace (K * (z * z * z * z) * phi z) with (K * (z * z * z * z * phi z)) by ring. apply Rle_lt_trans with (K * (4096 / (z * z * (z * z)))); [apply Rmult_le_compat_l; assumption|].
    assert (Z2 : z <= z * z) by (clear - Z1; nra). assert (Zz : z <= z * z * (z * z)) by (clear - Z1 Z2; nra). apply Rle_lt_trans with (4096 * K / z).
    - unfold Rdiv. rewrite <- Rmult_assoc, (Rmult_comm K 4096). apply Rmult_le_compat_l; [lra|]. apply Rinv_le_contravar; lra.
    - apply Rmult_lt_reg_r with z; [lra|]. unfold Rdiv. rewrite Rmult_assoc, Rinv_l, Rmult_1_r by lra.
      assert (4096 * K / eps < z) as Q by lra. apply (Rmult_lt_compat_r eps) in Q; [|exact He]. unfold Rdiv in Q. rewrite Rmult_assoc, Rinv_l in Q by lra. lra. }
  destruct (Hh z Z1) as [H1 H2]. rewrite !Rabs_mult, (Rabs_right (phi z)) by lra.
  split; (eapply Rle_lt_trans; [|exact B]); apply Rmult_le_compat_r; lra.
Qed.

Lemma phi_der z : is_derive phi z (- z * phi z).
Proof. unfold phi. auto_derive; [exact I|]. unfold Rdiv. field. apply Rgt_not_eq, sqrt_lt_R0. pose proof PI_RGT_0. lra. Qed.

(** c P z - h(z) phi z has the derivative (c + z h - h') phi. *)
Lemma moment (h h' : R -> R) c K : (forall z, is_derive h z (h' z)) -> (forall z, continuous h' z) -> 0 <= K ->
  (forall z, 1 <= z -> Rabs (h z) <= K * (z * z * z * z) /\ Rabs (h (- z)) <= K * (z * z * z * z)) ->
  line_integral (fun z => phi z * (c + z * h z - h' z)) c.
Proof.
  intros Dh Ch HK Bh. apply (line_primitive _ (fun z => c * P z - h z * phi z)).
  - intros z. replace (phi z * (c + z * h z - h' z)) with (minus (scal c (phi z)) (plus (mult (h' z) (phi z)) (mult (h z) (- z * phi z)))) by (unfold minus, plus, opp, scal, mult; cbn; unfold mult; cbn; ring).
    apply (is_derive_minus (V := R_NormedModule) (fun z => c * P z) (fun z => h z * phi z)).
    + apply (is_derive_scal P), P_der.
    + apply (is_derive_mult (K := R_AbsRing) h phi); [apply Dh|apply phi_der|]. intros; apply Rmult_comm.
  - intros z. apply (continuous_mult (K := R_AbsRing) phi); [apply phi_cont|]. apply (continuous_minus (V := R_NormedModule) (fun z => c + z * h z) h'); [|apply Ch].
    apply (continuous_plus (V := R_NormedModule) (fun _ => c)); [apply continuous_const|]. apply (continuous_mult (K := R_AbsRing) (fun z => z)); [apply continuous_id|].
    apply (ex_derive_continuous (V := R_NormedModule)). eexists. apply Dh.
  - intros eps He. destruct (P_half (eps / (2 * (Rabs c + 1)))) as [M1 H1]; [apply Rdiv_lt_0_compat; [exact He|pose proof (Rabs_pos c); lra]|].
    destruct (phi_cubic h K Bh HK (eps / 2) ltac:(lra)) as [M2 H2]. exists (Rmax M1 M2). intros z Hz. pose proof (Rmax_l M1 M2). pose proof (Rmax_r M1 M2).
    pose proof (H1 z ltac:(lra)) as Q. destruct (H2 z ltac:(lra)) as [Q1 Q2]. pose proof (P_lt z) as L.
    assert (Cb : Rabs (c * (P z - / 2)) < eps / 2).
    { rewrite Rabs_mult. pose proof (Rabs_pos c). set (e1 := eps / (2 * (Rabs c + 1))) in *. assert (E1 : (Rabs c + 1) * e1 = eps / 2) by (unfold e1; field; lra).
      rewrite (Rabs_left (P z - / 2)) by lra. assert (0 < e1) by nra. nra. }
    apply Rabs_def2 in Cb, Q1, Q2. rewrite P_odd, phi_even. split; apply Rabs_def1; lra.
Qed.

Lemma moment1 : line_integral (fun z => phi z * z) 0.
Proof.
  pose proof (moment (fun _ => 1) (fun _ => 0) 0 1) as M. eapply line_ext; [|apply M]; [intros; cbn beta; ring|intros; apply (is_derive_const (V := R_NormedModule))|intros; apply continuous_const|lra|].
  intros z Hz. rewrite Rabs_R1. assert (1 <= z * z) by (clear - Hz; nra). split; nra.
Qed.
Lemma moment2 : line_integral (fun z => phi z * (z * z)) 1.
Proof.
  pose proof (moment (fun z => z) (fun _ => 1) 1 1) as M. eapply line_ext; [|apply M]; [intros; cbn beta; ring|intros; apply (is_derive_id (K := R_AbsRing))|intros; apply continuous_const|lra|].
  intros z Hz. rewrite Rabs_Ropp, Rabs_right by lra. assert (1 <= z * z) by (clear - Hz; nra). assert (1 <= z * z * z) by nra. split; nra.
Qed.
Lemma moment3 : line_integral (fun z => phi z * (z * z * z)) 0.
Proof.
  pose proof (moment (fun z => z * z + 2) (fun z => 2 * z) 0 3) as M. eapply line_ext; [|apply M]; [intros; cbn beta; ring| | |lra|].
  - intros z. auto_derive; [exact I|]. ring.
  - intros z. apply (ex_derive_continuous (V := R_NormedModule)). auto_derive. exact I.
  - intros z Hz. assert (1 <= z * z) by (clear - Hz; nra). rewrite !Rabs_right by nra. split; nra.
Qed.
Lemma moment4 : line_integral (fun z => phi z * (z * z * (z * z))) 3.
Proof.
  pose proof (moment (fun z => z * z * z + 3 * z) (fun z => 3 * (z * z) + 3) 3 4) as M. eapply line_ext; [|apply M]; [intros; cbn beta; ring| | |lra|].
  - intros z. auto_derive; [exact I|]. ring.
  - intros z. apply (ex_derive_continuous (V := R_NormedModule)). auto_derive. exact I.
  - intros z Hz. assert (1 <= z * z) by (clear - Hz; nra). assert (z <= z * z * z) by nra. assert (z * z * z <= z * z * z * z) by nra.
    replace (- z * - z * - z + 3 * - z) with (- (z * z * z + 3 * z)) by ring. rewrite Rabs_Ropp, Rabs_right by nra. split; lra.
Qed.

(** One of n numbers. *)
Lemma mean_at n : forall i f e, (i < n)%nat -> line_integral (fun z => phi z * f z) e -> normal_mean n (fun zs => f (nth i zs 0)) e.
Proof.
  induction n as [|n IH]; intros i f e Hi L; [lia|]. cbn [normal_mean]. destruct i as [|i]; cbn [nth].
  - exists f. split; [|exact L]. intros z. apply mean_const.
  - exists (fun _ => e). split; [intros _; apply IH; [lia|exact L]|]. pose proof (line_scal phi e 1 line_phi) as K. rewrite Rmult_1_r in K. revert K. apply line_ext. intros; ring.
Qed.
Lemma looks_at n i f : (i < n)%nat -> looks (map (Nat.eqb i) (seq 0 n)) (fun zs => f (nth i zs 0)).
Proof.
  intros Hi z z' _ _ E. f_equal. apply E. rewrite (nth_indep _ false (Nat.eqb i 0)) by (rewrite map_length, seq_length; exact Hi). rewrite map_nth, seq_nth by exact Hi. apply Nat.eqb_refl.
Qed.
(** Two different ones. *)
Lemma mean_two n i j f g e e' : (i < n)%nat -> (j < n)%nat -> i <> j -> line_integral (fun z => phi z * f z) e -> line_integral (fun z => phi z * g z) e' ->
  normal_mean n (fun zs => f (nth i zs 0) * g (nth j zs 0)) (e * e').
Proof.
  intros Hi Hj D Lf Lg. pose proof (mean_product (map (Nat.eqb i) (seq 0 n)) (fun zs => f (nth i zs 0)) (fun zs => g (nth j zs 0)) e e') as M.
  rewrite map_length, seq_length in M. apply M; [apply looks_at, Hi| |apply mean_at; assumption|apply mean_at; assumption].
  intros z z' L L' E. f_equal. apply E. rewrite map_map. rewrite (nth_indep _ false (negb (Nat.eqb i 0))) by (rewrite map_length, seq_length; exact Hj).
  rewrite (map_nth (fun x => negb (i =? x)%nat)), seq_nth by exact Hj. destruct (Nat.eqb_spec i (0 + j)) as [X|X]; [destruct (D X)|reflexivity].
Qed.

(** Monotone. *)
Lemma line_le f g l m : line_integral f l -> line_integral g m -> (forall x, f x <= g x) -> l <= m.
Proof.
  intros Hf Hg Hle. apply le_epsilon. intros eps He. destruct (Hf (eps / 2) ltac:(lra)) as [M1 H1]. destruct (Hg (eps / 2) ltac:(lra)) as [M2 H2].
  set (a := Rmax (Rmax M1 M2) 0 + 1). assert (A : M1 < a /\ M2 < a /\ 0 < a) by (unfold a; pose proof (Rmax_l M1 M2); pose proof (Rmax_r M1 M2); pose proof (Rmax_l (Rmax M1 M2) 0); pose proof (Rmax_r (Rmax M1 M2) 0); lra).
  destruct (H1 a a) as (v & I1 & V1); try lra. destruct (H2 a a) as (w & I2 & V2); try lra.
  assert (v <= w) by (apply (is_RInt_le f g (- a) a); [lra|exact I1|exact I2|intros; apply Hle]). apply Rabs_def2 in V1, V2. lra.
Qed.
Lemma mean_le n : forall F G e g, normal_mean n F e -> normal_mean n G g -> (forall z, length z = n -> F z <= G z) -> e <= g.
Proof.
  induction n as [|n IH]; intros F G e g H1 H2 Hle; cbn [normal_mean] in *; [rewrite <- H1, <- H2; apply Hle; reflexivity|].
  destruct H1 as (f & Hf & L1). destruct H2 as (h & Hh & L2). apply (line_le _ _ _ _ L1 L2). intros x. apply Rmult_le_compat_l; [apply Rlt_le, phi_pos|].
  apply (IH _ _ _ _ (Hf x) (Hh x)). intros z Lz. apply Hle. cbn. lia.
Qed.
