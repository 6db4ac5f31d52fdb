(** binary64 facts for the correlation receivers: signs of products, sums of terms of one sign. *)
From Coq Require Import List Arith ZArith Reals Bool Lia Lra Psatz.
From Flocq Require Import Core BinarySingleNaN Plus_error.
From Verif Require Import Base Num F64Lib LibModel LibFloat ChaosProofs ChaosMod.
Import ListNotations.
Local Open Scope R_scope.

Lemma ofZ_0 : f64_ofZ 0 = B754_zero false.
Proof. reflexivity. Qed.

Lemma val_lt_max (x : F64) : Rabs (val x) < bpow radix2 1024.
Proof. apply (abs_B2R_lt_emax 53 1024). Qed.

(** Being >= 0, > 0, <= 0 on all floats. *)
Lemma nonneg_iff (x : F64) :
  Bleb (f64_ofZ 0) x = true <-> x = B754_infinity false \/ (fin x = true /\ 0 <= val x).
Proof.
  destruct val_0 as [V0 F0]. destruct (fin x) eqn:Fx.
  - rewrite leb_val, V0 by assumption. split; [auto|]. intros [->|[_ H]]; [discriminate|exact H].
  - destruct x as [s|s| |s m e He]; try discriminate.
    + destruct s; split; try discriminate; auto. intros [H|[H _]]; discriminate.
    + split; [discriminate|]. intros [H|[H _]]; discriminate.
Qed.
Lemma pos_iff (x : F64) :
  Bltb (f64_ofZ 0) x = true <-> x = B754_infinity false \/ (fin x = true /\ 0 < val x).
Proof.
  destruct val_0 as [V0 F0]. destruct (fin x) eqn:Fx.
  - rewrite ltb_val, V0 by assumption. split; [auto|]. intros [->|[_ H]]; [discriminate|exact H].
  - destruct x as [s|s| |s m e He]; try discriminate.
    + destruct s; split; try discriminate; auto. intros [H|[H _]]; discriminate.
    + split; [discriminate|]. intros [H|[H _]]; discriminate.
Qed.
Lemma nonpos_iff (x : F64) :
  Bleb x (f64_ofZ 0) = true <-> x = B754_infinity true \/ (fin x = true /\ val x <= 0).
Proof.
  destruct val_0 as [V0 F0]. destruct (fin x) eqn:Fx.
  - rewrite leb_val, V0 by assumption. split; [auto|]. intros [->|[_ H]]; [discriminate|exact H].
  - destruct x as [s|s| |s m e He]; try discriminate.
    + destruct s; split; try discriminate; auto. intros [H|[H _]]; discriminate.
    + split; [discriminate|]. intros [H|[H _]]; discriminate.
Qed.

(** Finite sums: the rounded sum, or an infinity of the operands' common sign. *)
Lemma add_cases (x y : F64) : fin x = true -> fin y = true ->
  (fin (Bplus mode_NE x y) = true /\ val (Bplus mode_NE x y) = rd (val x + val y)) \/
  (Bplus mode_NE x y = B754_infinity (Bsign x) /\ Bsign x = Bsign y /\ bpow radix2 1024 <= Rabs (rd (val x + val y))).
Proof.
  intros Fx Fy. pose proof (Bplus_correct 53 1024 _ _ mode_NE x y Fx Fy) as HC.
  change (round radix2 (SpecFloat.fexp 53 1024) (round_mode mode_NE) (B2R x + B2R y)) with (rd (val x + val y)) in HC.
  destruct (Rlt_bool_spec (Rabs (rd (val x + val y))) (bpow radix2 1024)) as [H|H].
  - left. destruct HC as [H1 [H2 _]]. split; assumption.
  - right. destruct HC as [H1 H2]. split; [|split; assumption].
    destruct (Bplus mode_NE x y) as [s|s| |s m e He]; try discriminate. cbn in H1. congruence.
Qed.

Lemma sign_pos (x : F64) : 0 < val x -> Bsign x = false.
Proof.
  unfold val. destruct x as [s|s| |s m e He]; cbn; intros H; try lra. destruct s; [|reflexivity].
  exfalso. pose proof (F2R_lt_0 radix2 (Float radix2 (Z.neg m) e) eq_refl). cbn in *. lra.
Qed.
Lemma sign_neg (x : F64) : val x < 0 -> Bsign x = true.
Proof.
  unfold val. destruct x as [s|s| |s m e He]; cbn; intros H; try lra. destruct s; [reflexivity|].
  exfalso. pose proof (F2R_gt_0 radix2 (Float radix2 (Z.pos m) e) eq_refl). cbn in *. lra.
Qed.

Lemma add_nonneg (x y : F64) : Bleb (f64_ofZ 0) x = true -> Bleb (f64_ofZ 0) y = true ->
  let z := Bplus mode_NE x y in
  Bleb (f64_ofZ 0) z = true /\
  (Bltb (f64_ofZ 0) x = true \/ Bltb (f64_ofZ 0) y = true -> Bltb (f64_ofZ 0) z = true).
Proof.
  intros Hx Hy z. apply nonneg_iff in Hx. apply nonneg_iff in Hy.
  assert (Inf : z = B754_infinity false -> Bleb (f64_ofZ 0) z = true /\
    (Bltb (f64_ofZ 0) x = true \/ Bltb (f64_ofZ 0) y = true -> Bltb (f64_ofZ 0) z = true)).
  { intros ->. split; reflexivity. }
  destruct Hx as [->|[Fx Vx]].
  { apply Inf. destruct Hy as [->|[Fy Vy]]; [reflexivity|]. destruct y; try discriminate; reflexivity. }
  destruct Hy as [->|[Fy Vy]].
  { apply Inf. destruct x; try discriminate; reflexivity. }
  destruct (add_cases x y Fx Fy) as [[Fz Vz]|[E [S B]]].
  - fold z in Fz, Vz. split.
    + apply nonneg_iff. right. split; [exact Fz|]. rewrite Vz. rewrite <- rd_0. apply rd_le. lra.
    + intros P. apply pos_iff. right. split; [exact Fz|]. rewrite Vz.
      assert (L1 : val x <= rd (val x + val y)) by (apply rd_ge_fmt; [apply val_fmt|lra]).
      assert (L2 : val y <= rd (val x + val y)) by (apply rd_ge_fmt; [apply val_fmt|lra]).
      destruct P as [P|P]; apply pos_iff in P; destruct P as [->|[_ P]]; try discriminate; lra.
  - apply Inf. unfold z. rewrite E. f_equal.
    destruct (Rle_lt_or_eq_dec 0 (val x) Vx) as [P|P]; [apply sign_pos; exact P|].
    rewrite <- P, Rplus_0_l, rd_id in B by apply val_fmt. pose proof (val_lt_max y). lra.
Qed.

Lemma add_nonpos (x y : F64) : Bleb x (f64_ofZ 0) = true -> Bleb y (f64_ofZ 0) = true ->
  Bleb (Bplus mode_NE x y) (f64_ofZ 0) = true.
Proof.
  intros Hx Hy. apply nonpos_iff in Hx. apply nonpos_iff in Hy.
  destruct Hx as [->|[Fx Vx]].
  { destruct Hy as [->|[Fy Vy]]; [reflexivity|]. destruct y; try discriminate; reflexivity. }
  destruct Hy as [->|[Fy Vy]].
  { destruct x; try discriminate; reflexivity. }
  destruct (add_cases x y Fx Fy) as [[Fz Vz]|[E [S B]]].
  - apply nonpos_iff. right. split; [exact Fz|]. rewrite Vz. rewrite <- rd_0. apply rd_le. lra.
  - rewrite E. destruct (Rle_lt_or_eq_dec (val x) 0 Vx) as [P|P]; [rewrite (sign_neg x P); reflexivity|].
    rewrite P, Rplus_0_l, rd_id in B by apply val_fmt. pose proof (val_lt_max y). lra.
Qed.

Lemma fold_nonneg l : forall a, Bleb (f64_ofZ 0) a = true -> Forall (fun x => Bleb (f64_ofZ 0) x = true) l ->
  Bleb (f64_ofZ 0) (fold_left (Bplus mode_NE) l a) = true /\
  (Bltb (f64_ofZ 0) a = true \/ Exists (fun x => Bltb (f64_ofZ 0) x = true) l ->
   Bltb (f64_ofZ 0) (fold_left (Bplus mode_NE) l a) = true).
Proof.
  induction l as [|x l IH]; intros a Ha Hl.
  - split; [exact Ha|]. intros [H|H]; [exact H|inversion H].
  - pose proof (Forall_inv Hl) as Hx. pose proof (Forall_inv_tail Hl) as Hr.
    destruct (add_nonneg a x Ha Hx) as [P1 P2]. destruct (IH _ P1 Hr) as [Q1 Q2]. split; [exact Q1|].
    intros H. apply Q2. destruct H as [H|H]; [left; apply P2; auto|].
    apply Exists_cons in H. destruct H as [H|H]; [left; apply P2; auto|right; exact H].
Qed.
Lemma fold_nonpos l : forall a, Bleb a (f64_ofZ 0) = true -> Forall (fun x => Bleb x (f64_ofZ 0) = true) l ->
  Bleb (fold_left (Bplus mode_NE) l a) (f64_ofZ 0) = true.
Proof.
  induction l as [|x l IH]; intros a Ha Hl; [exact Ha|].
  apply IH; [|exact (Forall_inv_tail Hl)]. apply add_nonpos; [exact Ha|exact (Forall_inv Hl)].
Qed.

Lemma nonpos_not_pos x : Bleb x (f64_ofZ 0) = true -> Bltb (f64_ofZ 0) x = false.
Proof.
  intros H. apply nonpos_iff in H. destruct (Bltb (f64_ofZ 0) x) eqn:E; [|reflexivity].
  apply pos_iff in E. destruct H as [->|[F V]], E as [E|[F' V']]; try discriminate; try lra. rewrite E in F. discriminate.
Qed.

(** A float that is not NaN compares with 0 by its sign bit (up to zeros). *)
Lemma sign_false_nonneg (x : F64) : is_nan x = false -> Bsign x = false -> Bleb (f64_ofZ 0) x = true.
Proof.
  intros N S. apply nonneg_iff. destruct x as [s|s| |s m e He]; try discriminate; cbn in S; subst s; auto.
  - right. split; [reflexivity|]. cbn. lra.
  - right. split; [reflexivity|]. unfold val. cbn. apply Rlt_le. apply F2R_gt_0. reflexivity.
Qed.
Lemma sign_true_nonpos (x : F64) : is_nan x = false -> Bsign x = true -> Bleb x (f64_ofZ 0) = true.
Proof.
  intros N S. apply nonpos_iff. destruct x as [s|s| |s m e He]; try discriminate; cbn in S; subst s; auto.
  - right. split; [reflexivity|]. cbn. lra.
  - right. split; [reflexivity|]. unfold val. cbn. apply Rlt_le. apply F2R_lt_0. reflexivity.
Qed.

Lemma sq_nonneg (c : F64) : is_nan c = false -> Bleb (f64_ofZ 0) (Bmult mode_NE c c) = true.
Proof.
  intros N. destruct (Bmult_sign c c N N) as [N2 S].
  - destruct (is_finite c) eqn:F; [left; auto|right; right; right; auto].
  - apply sign_false_nonneg; [exact N2|]. rewrite S. destruct (Bsign c); reflexivity.
Qed.
Lemma opp_sq_nonpos (c : F64) : is_nan c = false -> Bleb (Bmult mode_NE (Bopp c) c) (f64_ofZ 0) = true.
Proof.
  intros N. assert (No : is_nan (Bopp c) = false) by (destruct c; try discriminate; reflexivity).
  destruct (Bmult_sign (Bopp c) c No N) as [N2 S].
  - destruct (is_finite c) eqn:F; [left; rewrite is_finite_Bopp; auto|right; right; right; rewrite is_finite_Bopp; auto].
  - apply sign_true_nonpos; [exact N2|]. rewrite S, Bsign_Bopp by exact N. destruct (Bsign c); reflexivity.
Qed.

Lemma B2R_nonzero s m e He : val (B754_finite s m e He) <> 0.
Proof.
  unfold val. cbn [B2R]. destruct s.
  - apply Rlt_not_eq. apply F2R_lt_0. reflexivity.
  - apply Rgt_not_eq. apply F2R_gt_0. reflexivity.
Qed.

Lemma mul_m1 (x : F64) : Bmult mode_NE (Bopp (f64_ofZ 1)) x = Bopp x.
Proof.
  destruct x as [s|s| |s m e He]; try reflexivity; try (destruct s; reflexivity).
  destruct val_1 as [V1 F1].
  assert (Vm : val (Bopp (f64_ofZ 1)) = -1) by (unfold val; rewrite B2R_Bopp; fold (val (f64_ofZ 1)); rewrite V1; reflexivity).
  assert (Fm : fin (Bopp (f64_ofZ 1)) = true) by (unfold fin; rewrite is_finite_Bopp; exact F1).
  pose proof (B2R_nonzero s m e He) as Vx.
  assert (Fx : fin (B754_finite s m e He) = true) by reflexivity.
  set (x := B754_finite s m e He) in *.
  assert (E : rd (val (Bopp (f64_ofZ 1)) * val x) = - val x).
  { rewrite Vm. replace (-1 * val x) with (- val x) by ring. rewrite rd_opp, rd_id by apply val_fmt. reflexivity. }
  destruct (mul_fin (Bopp (f64_ofZ 1)) x Fm Fx) as [V F].
  - rewrite E, Rabs_Ropp. apply val_lt_max.
  - rewrite E in V.
    assert (Sx : is_finite_strict (Bmult mode_NE (Bopp (f64_ofZ 1)) x) = true).
    { apply fin_strict; [exact F|]. rewrite V. lra. }
    apply B2R_inj; [exact Sx|reflexivity|]. rewrite B2R_Bopp. exact V.
Qed.

Lemma mul_1_r (x : F64) : Bmult mode_NE x (f64_ofZ 1) = x.
Proof.
  destruct x as [s|s| |s m e He]; try reflexivity; try (destruct s; reflexivity).
  destruct val_1 as [V1 F1]. pose proof (B2R_nonzero s m e He) as Vx.
  assert (Fx : fin (B754_finite s m e He) = true) by reflexivity.
  set (x := B754_finite s m e He) in *.
  assert (E : rd (val x * val (f64_ofZ 1)) = val x).
  { rewrite V1, Rmult_1_r. apply rd_id. apply val_fmt. }
  destruct (mul_fin x (f64_ofZ 1) Fx F1) as [V F].
  - rewrite E. apply val_lt_max.
  - rewrite E in V. apply B2R_inj; [apply fin_strict; [exact F|rewrite V; exact Vx]|reflexivity|exact V].
Qed.

Lemma mul_m1_r (x : F64) : Bmult mode_NE x (Bopp (f64_ofZ 1)) = Bopp x.
Proof.
  destruct x as [s|s| |s m e He]; try reflexivity; try (destruct s; reflexivity).
  destruct val_1 as [V1 F1].
  assert (Vm : val (Bopp (f64_ofZ 1)) = -1) by (unfold val; rewrite B2R_Bopp; fold (val (f64_ofZ 1)); rewrite V1; reflexivity).
  assert (Fm : fin (Bopp (f64_ofZ 1)) = true) by (unfold fin; rewrite is_finite_Bopp; exact F1).
  pose proof (B2R_nonzero s m e He) as Vx.
  assert (Fx : fin (B754_finite s m e He) = true) by reflexivity.
  set (x := B754_finite s m e He) in *.
  assert (E : rd (val x * val (Bopp (f64_ofZ 1))) = - val x).
  { rewrite Vm. replace (val x * -1) with (- val x) by ring. rewrite rd_opp, rd_id by apply val_fmt. reflexivity. }
  destruct (mul_fin x (Bopp (f64_ofZ 1)) Fx Fm) as [V F].
  - rewrite E, Rabs_Ropp. apply val_lt_max.
  - rewrite E in V. apply B2R_inj; [apply fin_strict; [exact F|rewrite V; lra]|reflexivity|]. rewrite B2R_Bopp. exact V.
Qed.

(** Spreading and despreading one sample: exact for every float, NaN and infinities included. *)
Lemma spread_despread (libm : Libm) (x : F64) (k : bool) :
  let num := NumF libm in nmul (nmul x (bit_to_nrz k)) (bit_to_nrz k) = x.
Proof.
  cbv zeta. destruct k.
  - change (Bmult mode_NE (Bmult mode_NE x (f64_ofZ 1)) (f64_ofZ 1) = x). rewrite !mul_1_r. reflexivity.
  - change (Bmult mode_NE (Bmult mode_NE x (Bopp (f64_ofZ 1))) (Bopp (f64_ofZ 1)) = x).
    rewrite !mul_m1_r. apply Bopp_involutive. 
Qed.

(** A decision variable a disturbed by n is still >= 0 exactly when n >= -a. *)
Lemma add_sign (a n : F64) : fin a = true -> is_nan n = false ->
  Bleb (f64_ofZ 0) (Bplus mode_NE a n) = true <-> Bleb (Bopp a) n = true.
Proof.
  intros Fa Nn. destruct (fin n) eqn:Fn.
  - assert (Fo : fin (Bopp a) = true) by (unfold fin; rewrite is_finite_Bopp; exact Fa).
    rewrite (leb_val (Bopp a) n Fo Fn).
    unfold val at 1. rewrite B2R_Bopp. fold (val a). rewrite nonneg_iff.
    destruct (add_cases a n Fa Fn) as [[Fz Vz]|[E [S B]]].
    + split.
      * intros [H|[_ H]]; [rewrite H in Fz; discriminate|]. rewrite Vz in H.
        destruct (Rle_lt_dec (- val a) (val n)) as [L|L]; [exact L|]. exfalso.
        assert (rd (val a + val n) <= 0) by (rewrite <- rd_0; apply rd_le; lra).
        assert (Z : rd (val a + val n) = 0) by lra.
        revert Z. apply round_plus_neq_0; try typeclasses eauto; try apply val_fmt. lra.
      * intros L. right. split; [exact Fz|]. rewrite Vz, <- rd_0. apply rd_le. lra.
    + rewrite E.
      destruct (Bsign a) eqn:Sa.
      * split; [intros [H|[H _]]; discriminate|]. intros L. exfalso.
        assert (val a <= 0). { pose proof (sign_true_nonpos a) as N. apply nonpos_iff in N; [|destruct a; try discriminate; reflexivity|exact Sa]. destruct N as [->|[_ N]]; [discriminate|exact N]. }
        assert (val n <= 0). { pose proof (sign_true_nonpos n) as N. apply nonpos_iff in N; [|exact Nn|congruence]. destruct N as [->|[_ N]]; [discriminate|exact N]. }
        replace (val a + val n) with 0 in B by lra. rewrite rd_0, Rabs_R0 in B.
        pose proof (bpow_gt_0 radix2 1024). lra.
      * split; [intros _|auto].
        assert (0 <= val a). { pose proof (sign_false_nonneg a) as N. apply nonneg_iff in N; [|destruct a; try discriminate; reflexivity|exact Sa]. destruct N as [->|[_ N]]; [discriminate|exact N]. }
        assert (0 <= val n). { pose proof (sign_false_nonneg n) as N. apply nonneg_iff in N; [|exact Nn|congruence]. destruct N as [->|[_ N]]; [discriminate|exact N]. }
        lra.
  - destruct n as [s|s| |s m e He]; try discriminate.
    destruct a as [sa|sa| |sa ma ea Ha]; try discriminate; destruct s; cbn; split; auto.
Qed.
