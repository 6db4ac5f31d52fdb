(** The code's erf in binary64 (C107): rounding errors, and saturation from |x| = 7 on. *)
From Coq Require Import List ZArith Reals Lia Lra Psatz.
From Flocq Require Import Core BinarySingleNaN.
From Verif Require Import Base IterModel Num LibModel LibReal F64Lib FloatSum.
From Verif Require ErfPoly ErfReal.
Local Open Scope R_scope.

Notation uu := (12 / 100000000000000000).
Lemma u53_uu : u53 <= uu.
Proof. change u53 with (/ IZR (2 ^ 53)). change (2 ^ 53)%Z with 9007199254740992%Z. lra. Qed.
Lemma tiny_uu : bpow radix2 (-1075) <= uu.
Proof. apply Rle_trans with u53; [apply bpow_le; lia|apply u53_uu]. Qed.
Lemma big_ok x : Rabs x <= 1000000 -> Rabs x <= bpow radix2 1000.
Proof. intros H. apply Rle_trans with (bpow radix2 20); [change (bpow radix2 20) with (IZR (2 ^ 20)); change (2 ^ 20)%Z with 1048576%Z; lra|apply bpow_le; lia]. Qed.

(** A finite float within e of r. *)
Definition nr (x : F64) (r e : R) : Prop := fin x = true /\ Rabs (val x - r) <= e.
Lemma nr_weak x r e e' : nr x r e -> e <= e' -> nr x r e'. Proof. intros [F H] L. split; [exact F|lra]. Qed.
Lemma rd_uu x A : Rabs x <= A -> Rabs (rd x - x) <= (A + 1) * uu.
Proof. intros H. pose proof (rd_err x). pose proof u53_uu. pose proof tiny_uu. pose proof u53_pos. pose proof (Rabs_pos x). nra. Qed.

Lemma nr_mul A B x y r s e f : nr x r e -> nr y s f -> Rabs r <= A -> Rabs s <= B -> A <= 100 -> B <= 100 -> e <= 1 -> f <= 1 ->
  nr (Bmult mode_NE x y) (r * s) (A * f + B * e + e * f + ((A + e) * (B + f) + 1) * uu).
Proof.
  intros [Fx Hx] [Fy Hy] Hr Hs HA HB He Hf.
  pose proof (Rabs_pos r) as P1. pose proof (Rabs_pos s) as P2. pose proof (Rabs_pos (val x - r)) as P3. pose proof (Rabs_pos (val y - s)) as P4.
  assert (Ax : Rabs (val x) <= A + e). { replace (val x) with (r + (val x - r)) by ring. eapply Rle_trans; [apply Rabs_triang|lra]. }
  assert (Ay : Rabs (val y) <= B + f). { replace (val y) with (s + (val y - s)) by ring. eapply Rle_trans; [apply Rabs_triang|lra]. }
  assert (M : Rabs (val x * val y) <= (A + e) * (B + f)) by (rewrite Rabs_mult; apply Rmult_le_compat; try apply Rabs_pos; assumption).
  assert (Bd : (A + e) * (B + f) <= 101 * 101) by (apply Rmult_le_compat; lra).
  destruct (mul_fin x y Fx Fy) as [V F]; [apply pow_1024, big_ok; lra|]. split; [exact F|]. rewrite V.
  pose proof (rd_uu _ _ M) as E.
  replace (rd (val x * val y) - r * s) with ((rd (val x * val y) - val x * val y) + (r * (val y - s) + s * (val x - r) + (val x - r) * (val y - s))) by ring.
  eapply Rle_trans; [apply Rabs_triang|]. 
  assert (K : Rabs (r * (val y - s) + s * (val x - r) + (val x - r) * (val y - s)) <= A * f + B * e + e * f).
  { eapply Rle_trans; [apply Rabs_triang|]. apply Rplus_le_compat; [|rewrite Rabs_mult; apply Rmult_le_compat; assumption].
    eapply Rle_trans; [apply Rabs_triang|]. rewrite !Rabs_mult. apply Rplus_le_compat; apply Rmult_le_compat; assumption. }
  lra.
Qed.

Lemma nr_add A x y r s e f : nr x r e -> nr y s f -> Rabs (r + s) <= A -> A + e + f <= 1000 ->
  nr (Bplus mode_NE x y) (r + s) (e + f + (A + e + f + 1) * uu).
Proof.
  intros [Fx Hx] [Fy Hy] HA HB.
  assert (D : Rabs (val x + val y - (r + s)) <= e + f). { replace (val x + val y - (r + s)) with ((val x - r) + (val y - s)) by ring. eapply Rle_trans; [apply Rabs_triang|lra]. }
  assert (M : Rabs (val x + val y) <= A + e + f). { replace (val x + val y) with ((r + s) + (val x + val y - (r + s))) by ring. eapply Rle_trans; [apply Rabs_triang|lra]. }
  destruct (add_fin x y Fx Fy) as [V F]; [apply pow_1024, big_ok; lra|]. split; [exact F|]. rewrite V.
  pose proof (rd_uu _ _ M) as E. replace (rd (val x + val y) - (r + s)) with ((rd (val x + val y) - (val x + val y)) + (val x + val y - (r + s))) by ring.
  eapply Rle_trans; [apply Rabs_triang|lra].
Qed.
Lemma nr_sub A x y r s e f : nr x r e -> nr y s f -> Rabs (r - s) <= A -> A + e + f <= 1000 ->
  nr (Bminus mode_NE x y) (r - s) (e + f + (A + e + f + 1) * uu).
Proof.
  intros [Fx Hx] [Fy Hy] HA HB.
  assert (D : Rabs (val x - val y - (r - s)) <= e + f).
  { replace (val x - val y - (r - s)) with ((val x - r) + - (val y - s)) by ring. eapply Rle_trans; [apply Rabs_triang|]. rewrite Rabs_Ropp. lra. }
  assert (M : Rabs (val x - val y) <= A + e + f). { replace (val x - val y) with ((r - s) + (val x - val y - (r - s))) by ring. eapply Rle_trans; [apply Rabs_triang|lra]. }
  destruct (sub_fin x y Fx Fy) as [V F]; [apply pow_1024, big_ok; lra|]. split; [exact F|]. rewrite V.
  pose proof (rd_uu _ _ M) as E. replace (rd (val x - val y) - (r - s)) with ((rd (val x - val y) - (val x - val y)) + (val x - val y - (r - s))) by ring.
  eapply Rle_trans; [apply Rabs_triang|lra].
Qed.

Definition lit (p q : Z) : F64 := Bdiv mode_NE (f64_ofZ p) (f64_ofZ q).
Lemma lit_val p q : (Z.abs p <= 2 ^ 53)%Z -> (1 <= q <= 2 ^ 53)%Z -> Rabs (IZR p / IZR q) <= 1000 -> fin (lit p q) = true /\ val (lit p q) = rd (IZR p / IZR q).
Proof.
  intros Hp Hq H. destruct (ofZ_exact p Hp) as (Vp & Fp & _). destruct (ofZ_exact q ltac:(lia)) as (Vq & Fq & _).
  assert (Q1 : 1 <= IZR q) by (apply IZR_le; lia). unfold lit.
  destruct (div_fin (f64_ofZ p) (f64_ofZ q) Fp) as [V F]; [rewrite Vq; lra|rewrite Vp, Vq; apply pow_1024, big_ok; lra|].
  split; [exact F|]. rewrite V, Vp, Vq. reflexivity.
Qed.
Lemma lit_nr p q A : (Z.abs p <= 2 ^ 53)%Z -> (1 <= q <= 2 ^ 53)%Z -> Rabs (IZR p / IZR q) <= A -> A <= 1000 -> nr (lit p q) (IZR p / IZR q) ((A + 1) * uu).
Proof. intros Hp Hq H HA. destruct (lit_val p q Hp Hq ltac:(lra)) as [F V]. split; [exact F|]. rewrite V. apply rd_uu, H. Qed.

Lemma nr_one : nr (f64_ofZ 1) 1 0.
Proof. destruct (ofZ_exact 1 ltac:(lia)) as (V & F & _). split; [exact F|]. rewrite V. rewrite Rminus_eq_0, Rabs_R0. lra. Qed.

(** Numbers of [0, 1]. *)
Lemma nr01 x y r s e f : nr x r e -> nr y s f -> 0 <= r <= 1 -> 0 <= s <= 1 -> e <= 1 / 1000000000 -> f <= 1 / 1000000000 ->
  nr (Bmult mode_NE x y) (r * s) (e + f + 1 / 1000000000000000).
Proof.
  intros Hx Hy Hr Hs He Hf. assert (Pe : 0 <= e) by (destruct Hx as [_ H]; pose proof (Rabs_pos (val x - r)); lra).
  assert (Pf : 0 <= f) by (destruct Hy as [_ H]; pose proof (Rabs_pos (val y - s)); lra).
  eapply nr_weak; [apply (nr_mul 1 1 x y r s e f Hx Hy); try lra; apply Rabs_le; lra|].
  assert (e * f <= 1 / 1000000000 * (1 / 1000000000)) by (apply Rmult_le_compat; lra).
  assert ((1 + e) * (1 + f) <= 2 * 2) by (apply Rmult_le_compat; lra). lra.
Qed.

(** ** |x| <= 7: the rounding errors add up to less than 10^-11. *)
Notation w k := (k / 1000000000000000).

Notation m2 := (Bmult mode_NE).
Definition den (x : F64) : F64 := Bplus mode_NE (f64_ofZ 1) (m2 (lit 1 2) (Babs x)).
Definition tf (x : F64) : F64 := Bdiv mode_NE (f64_ofZ 1) (den x).

Lemma ti_nr (x : F64) : fin x = true -> Rabs (val x) <= 7 ->
  nr (tf x) (ErfReal.ti (Rabs (val x))) (w 4).
Proof.
  unfold tf, den.
  intros Fx Hx. set (r := Rabs (val x)) in *. assert (R0 : 0 <= r) by apply Rabs_pos.
  assert (Ax : nr (Babs x) r 0). { split; [unfold fin; rewrite is_finite_Babs; exact Fx|]. unfold val. rewrite B2R_Babs. fold (val x) r. rewrite Rminus_eq_0, Rabs_R0. lra. }
  assert (L : nr (lit 1 2) (1 / 2) (2 * uu)).
  { eapply nr_weak; [apply (lit_nr 1 2 1); try lia; [rewrite Rabs_pos_eq; lra|lra]|lra]. }
  pose proof (nr_mul 1 7 _ _ _ _ _ _ L Ax) as M. rewrite (Rabs_pos_eq (1 / 2)), (Rabs_pos_eq r) in M by lra.
  specialize (M ltac:(lra) ltac:(lra) ltac:(lra) ltac:(lra) ltac:(lra) ltac:(lra)).
  pose proof (nr_add 5 _ _ _ _ _ _ nr_one M) as D. rewrite Rabs_pos_eq in D by lra. specialize (D ltac:(lra) ltac:(lra)).
  assert (D' : nr (Bplus mode_NE (f64_ofZ 1) (Bmult mode_NE (lit 1 2) (Babs x))) (1 + 1 / 2 * r) (w (35 / 10))) by (eapply nr_weak; [exact D|lra]).
  clear D M. destruct D' as [Fd Hd]. set (d := Bplus _ _ _) in *. destruct nr_one as [F1 _]. destruct (ofZ_exact 1 ltac:(lia)) as (V1 & _ & _).
  apply Rabs_le_inv in Hd. assert (Dp : 99 / 100 <= val d) by lra.
  assert (Q : Rabs (val (f64_ofZ 1) / val d) <= 2).
  { rewrite V1, Rabs_pos_eq; [|apply Rlt_le, Rdiv_lt_0_compat; lra]. apply Rmult_le_reg_r with (val d); [lra|]. unfold Rdiv. rewrite Rmult_assoc, Rinv_l; lra. }
  destruct (div_fin (f64_ofZ 1) d F1) as [V F]; [lra|apply pow_1024, big_ok; lra|]. split; [exact F|]. rewrite V.
  pose proof (rd_uu _ _ Q) as E. 
  assert (K : Rabs (val (f64_ofZ 1) / val d - ErfReal.ti r) <= w (36 / 10)).
  { unfold ErfReal.ti. replace (/ 2) with (1 / 2) by lra. rewrite V1. set (c := 1 + 1 / 2 * r) in *. assert (Cp : 1 <= c) by (unfold c; lra).
    replace (1 / val d - / c) with ((c - val d) * / (val d * c)) by (field; lra). rewrite Rabs_mult.
    assert (I0 : 0 < val d * c) by (apply Rmult_lt_0_compat; lra).
    rewrite (Rabs_pos_eq (/ _)) by (apply Rlt_le, Rinv_0_lt_compat; exact I0).
    apply Rmult_le_reg_r with (val d * c); [exact I0|]. rewrite Rmult_assoc, Rinv_l, Rmult_1_r by lra.
    assert (99 / 100 * 1 <= val d * c) by (apply Rmult_le_compat; lra).
    apply Rle_trans with (w (35 / 10)); [apply Rabs_le; lra|lra]. }
  replace (rd (val (f64_ofZ 1) / val d) - ErfReal.ti r) with ((rd (val (f64_ofZ 1) / val d) - val (f64_ofZ 1) / val d) + (val (f64_ofZ 1) / val d - ErfReal.ti r)) by ring.
  eapply Rle_trans; [apply Rabs_triang|]. apply Rle_trans with ((2 + 1) * uu + w (36 / 10)); [apply Rplus_le_compat; assumption|lra].
Qed.

Definition pw2 (t : F64) := m2 (f64_ofZ 1) (m2 t t).
Definition pw3 (t : F64) := m2 (m2 (f64_ofZ 1) t) (m2 t t).
Definition pw4 (t : F64) := m2 (f64_ofZ 1) (m2 (m2 t t) (m2 t t)).
Definition pw5 (t : F64) := m2 (m2 (f64_ofZ 1) t) (m2 (m2 t t) (m2 t t)).
Definition pw6 (t : F64) := m2 (m2 (f64_ofZ 1) (m2 t t)) (m2 (m2 t t) (m2 t t)).
Definition pw7 (t : F64) := m2 (m2 (m2 (f64_ofZ 1) t) (m2 t t)) (m2 (m2 t t) (m2 t t)).
Definition pw8 (t : F64) := m2 (f64_ofZ 1) (m2 (m2 (m2 t t) (m2 t t)) (m2 (m2 t t) (m2 t t))).
Definition pw9 (t : F64) := m2 (m2 (f64_ofZ 1) t) (m2 (m2 (m2 t t) (m2 t t)) (m2 (m2 t t) (m2 t t))).

(** The argument of exp. *)
Definition arg (x t : F64) : F64 :=
  Bplus mode_NE (Bminus mode_NE (Bplus mode_NE (Bminus mode_NE (Bplus mode_NE (Bminus mode_NE (Bplus mode_NE (Bplus mode_NE (Bplus mode_NE
    (Bminus mode_NE (Bopp (m2 x x)) (lit 126551223 100000000))
    (m2 (lit 100002368 100000000) t)) (m2 (lit 37409196 100000000) (pw2 t))) (m2 (lit 9678418 100000000) (pw3 t)))
    (m2 (lit 18628806 100000000) (pw4 t))) (m2 (lit 27886807 100000000) (pw5 t))) (m2 (lit 113520398 100000000) (pw6 t)))
    (m2 (lit 148851587 100000000) (pw7 t))) (m2 (lit 82215223 100000000) (pw8 t))) (m2 (lit 17087277 100000000) (pw9 t)).

Lemma tau_f libm x : @erf_tau F64 (NumF libm) x = m2 (tf x) (libm_exp libm (arg x (tf x))).
Proof.
  unfold erf_tau, nlit, nsqr, npowi. cbn [npowi_loop nadd nsub nmul ndiv nopp nabs nexp nofZ NumF].
  unfold arg, tf, den, lit, pw2, pw3, pw4, pw5, pw6, pw7, pw8, pw9. cbv zeta. reflexivity.
Qed.

Section Pow.
Variables (t : F64) (r : R).
Hypothesis Ht : nr t r (w 4).
Hypothesis Hr : 0 <= r <= 1.
Lemma r01 k : 0 <= r ^ k <= 1.
Proof. split; [apply pow_le; lra|]. rewrite <- (pow1 k). apply pow_incr. lra. Qed.
Lemma o1 : nr (m2 (f64_ofZ 1) t) r (w 5).
Proof. rewrite <- (Rmult_1_l r). eapply nr_weak; [apply (nr01 _ _ _ _ _ _ nr_one Ht)|]; lra. Qed.
Lemma t2 : nr (m2 t t) (r ^ 2) (w 9).
Proof. replace (r ^ 2) with (r * r) by ring. eapply nr_weak; [apply (nr01 _ _ _ _ _ _ Ht Ht)|]; lra. Qed.
Lemma t4 : nr (m2 (m2 t t) (m2 t t)) (r ^ 4) (w 19).
Proof. pose proof (r01 2). replace (r ^ 4) with (r ^ 2 * r ^ 2) by ring. eapply nr_weak; [apply (nr01 _ _ _ _ _ _ t2 t2)|]; lra. Qed.
Lemma t8 : nr (m2 (m2 (m2 t t) (m2 t t)) (m2 (m2 t t) (m2 t t))) (r ^ 8) (w 39).
Proof. pose proof (r01 4). replace (r ^ 8) with (r ^ 4 * r ^ 4) by ring. eapply nr_weak; [apply (nr01 _ _ _ _ _ _ t4 t4)|]; lra. Qed.
Lemma p2 : nr (pw2 t) (r ^ 2) (w 50).
Proof. pose proof (r01 2). rewrite <- (Rmult_1_l (r ^ 2)). eapply nr_weak; [apply (nr01 _ _ _ _ _ _ nr_one t2)|]; lra. Qed.
Lemma p3 : nr (pw3 t) (r ^ 3) (w 50).
Proof. pose proof (r01 2). replace (r ^ 3) with (r * r ^ 2) by ring. eapply nr_weak; [apply (nr01 _ _ _ _ _ _ o1 t2)|]; lra. Qed.
Lemma p4 : nr (pw4 t) (r ^ 4) (w 50).
Proof. pose proof (r01 4). rewrite <- (Rmult_1_l (r ^ 4)). eapply nr_weak; [apply (nr01 _ _ _ _ _ _ nr_one t4)|]; lra. Qed.
Lemma p5 : nr (pw5 t) (r ^ 5) (w 50).
Proof. pose proof (r01 4). replace (r ^ 5) with (r * r ^ 4) by ring. eapply nr_weak; [apply (nr01 _ _ _ _ _ _ o1 t4)|]; lra. Qed.
Lemma p6 : nr (pw6 t) (r ^ 6) (w 50).
Proof.
  pose proof (r01 4). pose proof (r01 2). replace (r ^ 6) with (1 * r ^ 2 * r ^ 4) by ring.
  eapply nr_weak; [apply (nr01 _ _ _ _ _ _ (nr01 _ _ _ _ _ _ nr_one t2 ltac:(lra) ltac:(lra) ltac:(lra) ltac:(lra)) t4)|]; lra.
Qed.
Lemma p7 : nr (pw7 t) (r ^ 7) (w 50).
Proof.
  pose proof (r01 4). pose proof (r01 2). pose proof (r01 3). replace (r ^ 7) with (r * r ^ 2 * r ^ 4) by ring.
  eapply nr_weak; [apply (nr01 _ _ _ _ _ _ (nr01 _ _ _ _ _ _ o1 t2 ltac:(lra) ltac:(lra) ltac:(lra) ltac:(lra)) t4)|]; lra.
Qed.
Lemma p8 : nr (pw8 t) (r ^ 8) (w 50).
Proof. pose proof (r01 8). rewrite <- (Rmult_1_l (r ^ 8)). eapply nr_weak; [apply (nr01 _ _ _ _ _ _ nr_one t8)|]; lra. Qed.
Lemma p9 : nr (pw9 t) (r ^ 9) (w 50).
Proof. pose proof (r01 8). replace (r ^ 9) with (r * r ^ 8) by ring. eapply nr_weak; [apply (nr01 _ _ _ _ _ _ o1 t8)|]; lra. Qed.

(** A coefficient below 2 times a power. *)
Lemma term (p : Z) (y : F64) (s : R) : (0 < p < 200000000)%Z -> nr y s (w 50) -> 0 <= s <= 1 ->
  nr (m2 (lit p 100000000) y) (IZR p / 100000000 * s) (w 110) /\ 0 <= IZR p / 100000000 * s <= 2.
Proof.
  intros Hp Hy Hs. assert (P : 0 < IZR p < 200000000) by (split; apply IZR_lt; lia).
  assert (C : 0 <= IZR p / 100000000 <= 2) by lra.
  assert (L : nr (lit p 100000000) (IZR p / 100000000) ((2 + 1) * uu)) by (apply lit_nr; [lia|lia|rewrite Rabs_pos_eq; lra|lra]).
  split; [|nra]. eapply nr_weak; [apply (nr_mul 2 1 _ _ _ _ _ _ L Hy); try lra; rewrite Rabs_pos_eq; lra|]. lra.
Qed.

Lemma arg_nr (x : F64) : fin x = true -> Rabs (val x) <= 7 ->
  nr (arg x t) (ErfReal.coded r - val x * val x) (1 / 100000000000).
Proof.
  intros Fx Hx. assert (X2 : 0 <= val x * val x <= 49). { apply Rabs_le_inv in Hx. nra. }
  assert (Xn : nr x (val x) 0) by (split; [exact Fx|rewrite Rminus_eq_0, Rabs_R0; lra]).
  pose proof (nr_mul 7 7 _ _ _ _ _ _ Xn Xn Hx Hx ltac:(lra) ltac:(lra) ltac:(lra) ltac:(lra)) as S0.
  assert (S1 : nr (Bopp (m2 x x)) (- (val x * val x)) (w 10)).
  { destruct S0 as [F V]. split; [unfold fin; rewrite is_finite_Bopp; exact F|]. unfold val at 1. rewrite B2R_Bopp. fold (val (m2 x x)).
    replace (- val (m2 x x) - - (val x * val x)) with (- (val (m2 x x) - val x * val x)) by ring. rewrite Rabs_Ropp. lra. }
  clear S0. pose proof (r01 1) as B1. rewrite pow_1 in B1.
  destruct (term 100002368 t r ltac:(lia) ltac:(eapply nr_weak; [exact Ht|lra]) B1) as [T1 C1].
  destruct (term 37409196 _ _ ltac:(lia) p2 (r01 2)) as [T2 C2]. destruct (term 9678418 _ _ ltac:(lia) p3 (r01 3)) as [T3 C3].
  destruct (term 18628806 _ _ ltac:(lia) p4 (r01 4)) as [T4 C4]. destruct (term 27886807 _ _ ltac:(lia) p5 (r01 5)) as [T5 C5].
  destruct (term 113520398 _ _ ltac:(lia) p6 (r01 6)) as [T6 C6]. destruct (term 148851587 _ _ ltac:(lia) p7 (r01 7)) as [T7 C7].
  destruct (term 82215223 _ _ ltac:(lia) p8 (r01 8)) as [T8 C8]. destruct (term 17087277 _ _ ltac:(lia) p9 (r01 9)) as [T9 C9].
  assert (T0 : nr (lit 126551223 100000000) (IZR 126551223 / IZR 100000000) ((2 + 1) * uu)) by (apply lit_nr; [lia|lia|rewrite Rabs_pos_eq; lra|lra]).
  unfold arg. replace (ErfReal.coded r - val x * val x) with
    (- (val x * val x) - IZR 126551223 / IZR 100000000 + IZR 100002368 / 100000000 * r + IZR 37409196 / 100000000 * r ^ 2 + IZR 9678418 / 100000000 * r ^ 3
     - IZR 18628806 / 100000000 * r ^ 4 + IZR 27886807 / 100000000 * r ^ 5 - IZR 113520398 / 100000000 * r ^ 6 + IZR 148851587 / 100000000 * r ^ 7
     - IZR 82215223 / 100000000 * r ^ 8 + IZR 17087277 / 100000000 * r ^ 9).
  2: { unfold ErfReal.coded, ErfPoly.code_poly. cbn [ErfPoly.pev]. field. }
  set (a1 := IZR 100002368 / 100000000 * r) in *. set (a2 := IZR 37409196 / 100000000 * r ^ 2) in *. set (a3 := IZR 9678418 / 100000000 * r ^ 3) in *.
  set (a4 := IZR 18628806 / 100000000 * r ^ 4) in *. set (a5 := IZR 27886807 / 100000000 * r ^ 5) in *. set (a6 := IZR 113520398 / 100000000 * r ^ 6) in *.
  set (a7 := IZR 148851587 / 100000000 * r ^ 7) in *. set (a8 := IZR 82215223 / 100000000 * r ^ 8) in *. set (a9 := IZR 17087277 / 100000000 * r ^ 9) in *.
  set (y := val x * val x) in *. clearbody a1 a2 a3 a4 a5 a6 a7 a8 a9 y. 
  assert (U0 : nr (Bminus mode_NE (Bopp (m2 x x)) (lit 126551223 100000000)) (- y - IZR 126551223 / IZR 100000000) (w 30)).
  { eapply nr_weak; [apply (nr_sub 60 _ _ _ _ _ _ S1 T0); [apply Rabs_le; lra|lra]|lra]. }
  pose proof (nr_add 80 _ _ _ _ _ _ U0 T1 ltac:(apply Rabs_le; lra) ltac:(lra)) as U1. apply (nr_weak _ _ _ (w 160)) in U1; [|lra].
  pose proof (nr_add 80 _ _ _ _ _ _ U1 T2 ltac:(apply Rabs_le; lra) ltac:(lra)) as U2. apply (nr_weak _ _ _ (w 300)) in U2; [|lra].
  pose proof (nr_add 80 _ _ _ _ _ _ U2 T3 ltac:(apply Rabs_le; lra) ltac:(lra)) as U3. apply (nr_weak _ _ _ (w 430)) in U3; [|lra].
  pose proof (nr_sub 80 _ _ _ _ _ _ U3 T4 ltac:(apply Rabs_le; lra) ltac:(lra)) as U4. apply (nr_weak _ _ _ (w 560)) in U4; [|lra].
  pose proof (nr_add 80 _ _ _ _ _ _ U4 T5 ltac:(apply Rabs_le; lra) ltac:(lra)) as U5. apply (nr_weak _ _ _ (w 690)) in U5; [|lra].
  pose proof (nr_sub 80 _ _ _ _ _ _ U5 T6 ltac:(apply Rabs_le; lra) ltac:(lra)) as U6. apply (nr_weak _ _ _ (w 820)) in U6; [|lra].
  pose proof (nr_add 80 _ _ _ _ _ _ U6 T7 ltac:(apply Rabs_le; lra) ltac:(lra)) as U7. apply (nr_weak _ _ _ (w 950)) in U7; [|lra].
  pose proof (nr_sub 80 _ _ _ _ _ _ U7 T8 ltac:(apply Rabs_le; lra) ltac:(lra)) as U8. apply (nr_weak _ _ _ (w 1080)) in U8; [|lra].
  pose proof (nr_add 80 _ _ _ _ _ _ U8 T9 ltac:(apply Rabs_le; lra) ltac:(lra)) as U9. apply (nr_weak _ _ _ (w 1210)) in U9; [|lra].
  eapply nr_weak; [exact U9|lra].
Qed.
End Pow.

(** ** Numbers near 1. *)
Lemma fmt_grid y : fmt y -> / 2 <= y -> exists k : Z, y = IZR k * bpow radix2 (-53).
Proof.
  intros Fy Hy. unfold fmt, generic_format in Fy. set (c := cexp radix2 fexp64 y) in *. set (m := Ztrunc (scaled_mantissa radix2 fexp64 y)) in *.
  assert (C : (-53 <= c)%Z).
  { unfold c, cexp, FLT_exp. assert (0 <= mag radix2 y)%Z; [|lia]. apply mag_ge_bpow. change (bpow radix2 (0 - 1)) with (/ 2). rewrite Rabs_pos_eq; lra. }
  exists (m * 2 ^ (c + 53))%Z. rewrite Fy. unfold F2R. cbn [Fnum Fexp]. rewrite mult_IZR, (IZR_Zpower radix2) by lia. rewrite Rmult_assoc, <- bpow_plus.
  f_equal. f_equal. lia.
Qed.

Lemma rd_at_one s : Rabs s <= bpow radix2 (-56) -> rd (1 + s) = 1.
Proof.
  intros Hs. assert (B56 : bpow radix2 (-56) = / 72057594037927936) by reflexivity. rewrite B56 in Hs. 
  assert (F1 : fmt 1) by (apply (fmt_IZR 1); lia).
  assert (N : Rabs (rd (1 + s) - (1 + s)) <= Rabs (1 - (1 + s))).
  { destruct (round_N_pt radix2 fexp64 (fun z => negb (Z.even z)) (1 + s)) as [_ H]. apply H, F1. }
  replace (1 - (1 + s)) with (- s) in N by ring. rewrite Rabs_Ropp in N. apply Rabs_le_inv in Hs.
  assert (N2 : Rabs (rd (1 + s) - (1 + s)) <= / 72057594037927936) by (eapply Rle_trans; [exact N|apply Rabs_le; lra]). apply Rabs_le_inv in N2.
  destruct (fmt_grid (rd (1 + s)) (rd_fmt _) ltac:(lra)) as [k Hk]. rewrite Hk in N2 |- *. change (bpow radix2 (-53)) with (/ 9007199254740992) in *.
  assert (K : (k = 9007199254740992)%Z).
  { apply Z.le_antisymm; apply Z.lt_succ_r; apply lt_IZR; unfold Z.succ; rewrite plus_IZR; lra. }
  rewrite K. lra.
Qed.

(** ** |x| >= 7: the argument of exp is at most -42. *)
Definition unit_f (x : F64) : Prop := fin x = true /\ 0 <= val x <= 1.
Lemma small_lt B : B <= 1000 -> B < bpow radix2 1024.
Proof. intros H. apply Rle_lt_trans with (bpow radix2 20); [change (bpow radix2 20) with 1048576; lra|apply bpow_lt; lia]. Qed.
Lemma unit_mul x y : unit_f x -> unit_f y -> unit_f (m2 x y).
Proof.
  intros [Fx Hx] [Fy Hy]. assert (P : 0 <= val x * val y <= 1) by nra.
  assert (Q : 0 <= rd (val x * val y) <= 1) by (split; [rewrite <- rd_0; apply rd_le; lra|apply rd_le_fmt; [apply (fmt_IZR 1); lia|lra]]).
  destruct (mul_fin x y Fx Fy) as [V F]; [rewrite Rabs_pos_eq by lra; apply small_lt; lra|]. split; [exact F|rewrite V; exact Q].
Qed.
Lemma unit_one : unit_f (f64_ofZ 1).
Proof. destruct (ofZ_exact 1 ltac:(lia)) as (V & F & _). split; [exact F|rewrite V; lra]. Qed.

(** A coefficient times a number of [0, 1]. *)
Lemma coef (p c : Z) (y : F64) : (0 < p)%Z -> (p <= c * 100000000)%Z -> (0 < c <= 2)%Z -> unit_f y ->
  fin (m2 (lit p 100000000) y) = true /\ 0 <= val (m2 (lit p 100000000) y) <= IZR c.
Proof.
  intros Hp Hc Hc2 [Fy Hy]. assert (P : 0 < IZR p) by (apply IZR_lt; lia). assert (C : IZR p <= IZR c * 100000000) by (rewrite <- mult_IZR; apply IZR_le; lia).
  assert (C2 : 0 < IZR c <= 2) by (split; [apply IZR_lt|apply IZR_le]; lia).
  destruct (lit_val p 100000000 ltac:(lia) ltac:(lia)) as [Fl Vl]; [rewrite Rabs_pos_eq; lra|].
  assert (Fc : fmt (IZR c)) by (apply fmt_IZR; lia).
  assert (L : 0 <= val (lit p 100000000) <= IZR c) by (rewrite Vl; split; [rewrite <- rd_0; apply rd_le; lra|apply rd_le_fmt; [exact Fc|lra]]).
  assert (M : 0 <= val (lit p 100000000) * val y <= IZR c) by nra.
  assert (Q : 0 <= rd (val (lit p 100000000) * val y) <= IZR c) by (split; [rewrite <- rd_0; apply rd_le; lra|apply rd_le_fmt; [exact Fc|lra]]).
  destruct (mul_fin _ y Fl Fy) as [V F]; [rewrite Rabs_pos_eq by lra; apply small_lt; lra|]. split; [exact F|rewrite V; exact Q].
Qed.

Lemma tf_unit (x : F64) : fin x = true -> 7 <= Rabs (val x) -> unit_f (tf x).
Proof.
  intros Fx Hx. set (r := Rabs (val x)) in *. assert (Fa : fin (Babs x) = true) by (unfold fin; rewrite is_finite_Babs; exact Fx).
  assert (Va : val (Babs x) = r) by (unfold val; rewrite B2R_Babs; reflexivity). assert (Fr : fmt r) by (rewrite <- Va; apply val_fmt).
  assert (Rm : r < bpow radix2 1024) by apply abs_B2R_lt_emax.
  destruct (lit_val 1 2 ltac:(lia) ltac:(lia)) as [Fl Vl]; [rewrite Rabs_pos_eq; lra|].
  assert (Vh : val (lit 1 2) = / 2).
  { rewrite Vl, rd_id; [lra|]. replace (1 / 2) with (IZR 1 * bpow radix2 (-1)) by (change (bpow radix2 (-1)) with (/ 2); lra). apply fmt_scaled; lia. }
  assert (H0 : 0 <= rd (/ 2 * r) <= r) by (split; [rewrite <- rd_0; apply rd_le; lra|apply rd_le_fmt; [exact Fr|lra]]).
  destruct (mul_fin (lit 1 2) (Babs x) Fl Fa) as [Vm Fm]; [rewrite Vh, Va, Rabs_pos_eq by lra; lra|]. rewrite Vh, Va in Vm.
  assert (H1 : 1 + rd (/ 2 * r) <= r).
  { pose proof (rd_err (/ 2 * r)) as E. rewrite (Rabs_pos_eq (/ 2 * r)) in E by lra. pose proof u53_uu. pose proof tiny_uu. pose proof u53_pos. apply Rabs_le_inv in E. nra. }
  destruct unit_one as [F1 _]. destruct (ofZ_exact 1 ltac:(lia)) as (V1 & _ & _).
  assert (H2 : 1 <= rd (1 + rd (/ 2 * r)) <= r) by (split; [apply rd_ge_fmt; [apply (fmt_IZR 1); lia|lra]|apply rd_le_fmt; [exact Fr|exact H1]]).
  destruct (add_fin (f64_ofZ 1) (m2 (lit 1 2) (Babs x)) F1 Fm) as [Vd Fd]; [rewrite V1, Vm, Rabs_pos_eq by lra; lra|]. rewrite V1, Vm in Vd.
  unfold tf, den. set (d := Bplus mode_NE (f64_ofZ 1) (m2 (lit 1 2) (Babs x))) in *. rewrite <- Vd in H2.
  assert (Q : 0 <= 1 / val d <= 1). { split; [apply Rlt_le, Rdiv_lt_0_compat; lra|]. apply Rmult_le_reg_r with (val d); [lra|]. unfold Rdiv. rewrite Rmult_assoc, Rinv_l; lra. }
  assert (Q2 : 0 <= rd (1 / val d) <= 1) by (split; [rewrite <- rd_0; apply rd_le; lra|apply rd_le_fmt; [apply (fmt_IZR 1); lia|lra]]).
  destruct (div_fin (f64_ofZ 1) d F1) as [V F]; [lra|rewrite V1, Rabs_pos_eq by lra; apply small_lt; lra|]. split; [exact F|rewrite V, V1; exact Q2].
Qed.

Definition low (x : F64) (b : Z) : Prop := x = B754_infinity true \/ (fin x = true /\ val x <= IZR b).

Lemma low_plus x y b c : low x b -> fin y = true -> val y <= IZR c -> (-1000 <= b + c < 0)%Z -> low (Bplus mode_NE x y) (b + c).
Proof.
  intros [->|[Fx Hx]] Fy Hy Hbc.
  { left. destruct y as [s|s| |s m e He]; try discriminate Fy; reflexivity. }
  pose proof (Bplus_correct 53 1024 _ _ mode_NE x y Fx Fy) as HC.
  change (round radix2 (SpecFloat.fexp 53 1024) (round_mode mode_NE) (B2R x + B2R y)) with (rd (val x + val y)) in HC.
  assert (L : val x + val y <= IZR (b + c)) by (rewrite plus_IZR; lra).
  destruct (Rlt_bool (Rabs (rd (val x + val y))) (bpow radix2 1024)) eqn:E.
  - right. destruct HC as (V & F & _). split; [exact F|]. unfold val at 1. rewrite V. apply rd_le_fmt; [apply fmt_IZR; lia|exact L].
  - left. destruct HC as (V & S). 
    assert (Sx : Bsign x = true).
    { destruct (Bsign x) eqn:Sx; [reflexivity|exfalso]. symmetry in S.
      assert (P : forall z : F64, Bsign z = false -> fin z = true -> 0 <= val z).
      { intros z Sz Fz. destruct z as [s|s| |s m e He]; try discriminate Fz; cbn in Sz; subst; unfold val, B2R; [lra|]. apply F2R_ge_0. cbn. lia. }
      pose proof (P x Sx Fx). pose proof (P y S Fy). assert (IZR (b + c) < 0) by (apply (IZR_lt _ 0); lia). lra. }
    rewrite Sx in V. destruct (Bplus mode_NE x y); cbn in V; try discriminate. injection V as ->. reflexivity.
Qed.

Lemma low_minus x y b c : low x b -> fin y = true -> IZR c <= val y -> (-1000 <= b - c < 0)%Z -> low (Bminus mode_NE x y) (b - c).
Proof.
  intros Hx Fy Hy Hbc. assert (E : Bminus mode_NE x y = Bplus mode_NE x (Bopp y)).
  { destruct Hx as [->|[Fx _]]; [destruct y as [s|s| |s m e He]; try discriminate Fy; reflexivity|].
    destruct x as [sx|sx| |sx mx ex Hx']; try discriminate Fx; destruct y as [s|s| |s m e He]; try discriminate Fy; reflexivity. }
  rewrite E. replace (b - c)%Z with (b + - c)%Z by lia. apply low_plus; [exact Hx|unfold fin; rewrite is_finite_Bopp; exact Fy| |lia].
  unfold val. rewrite B2R_Bopp, opp_IZR. fold (val y). lra.
Qed.

Lemma low_sqr x : fin x = true -> 7 <= Rabs (val x) -> low (Bopp (m2 x x)) (-49).
Proof.
  intros Fz Hx. assert (S2 : 49 <= val x * val x). { rewrite <- (Rabs_pos_eq (val x * val x)) by (apply Rle_0_sqr). rewrite Rabs_mult. nra. }
  pose proof (Bmult_correct 53 1024 _ _ mode_NE x x) as HC.
  change (round radix2 (SpecFloat.fexp 53 1024) (round_mode mode_NE) (B2R x * B2R x)) with (rd (val x * val x)) in HC.
  destruct (Rlt_bool (Rabs (rd (val x * val x))) (bpow radix2 1024)) eqn:E.
  - right. destruct HC as [V [F _]]. unfold fin in *. rewrite Fz in F. split; [rewrite is_finite_Bopp; exact F|]. unfold val. rewrite B2R_Bopp, V.
    assert (49 <= rd (val x * val x)) by (apply rd_ge_fmt; [apply (fmt_IZR 49); lia|exact S2]). change (IZR (-49)) with (-49). lra.
  - left. rewrite Bool.xorb_nilpotent in HC. destruct (m2 x x); cbn in HC; try discriminate. injection HC as ->. reflexivity.
Qed.

Lemma arg_low (x : F64) : fin x = true -> 7 <= Rabs (val x) -> low (arg x (tf x)) (-42).
Proof.
  intros Fx Hx. pose proof (tf_unit x Fx Hx) as U. set (t := tf x) in *. clearbody t. pose proof unit_one as U1. pose proof unit_mul as UM.
  pose proof (low_sqr x Fx Hx) as S0. unfold arg. set (y := Bopp (m2 x x)) in *. clearbody y.
  destruct (lit_val 126551223 100000000 ltac:(lia) ltac:(lia)) as [Fl Vl]; [rewrite Rabs_pos_eq; lra|].
  assert (L1 : IZR 1 <= val (lit 126551223 100000000)) by (rewrite Vl; apply rd_ge_fmt; [apply (fmt_IZR 1); lia|lra]).
  destruct (coef 100002368 2 t ltac:(lia) ltac:(lia) ltac:(lia) U) as [F1 B1].
  destruct (coef 37409196 1 (pw2 t) ltac:(lia) ltac:(lia) ltac:(lia) ltac:(unfold pw2; auto)) as [F2 B2].
  destruct (coef 9678418 1 (pw3 t) ltac:(lia) ltac:(lia) ltac:(lia) ltac:(unfold pw3; auto)) as [F3 B3].
  destruct (coef 18628806 1 (pw4 t) ltac:(lia) ltac:(lia) ltac:(lia) ltac:(unfold pw4; auto)) as [F4 B4].
  destruct (coef 27886807 1 (pw5 t) ltac:(lia) ltac:(lia) ltac:(lia) ltac:(unfold pw5; auto)) as [F5 B5].
  destruct (coef 113520398 2 (pw6 t) ltac:(lia) ltac:(lia) ltac:(lia) ltac:(unfold pw6; auto)) as [F6 B6].
  destruct (coef 148851587 2 (pw7 t) ltac:(lia) ltac:(lia) ltac:(lia) ltac:(unfold pw7; auto)) as [F7 B7].
  destruct (coef 82215223 1 (pw8 t) ltac:(lia) ltac:(lia) ltac:(lia) ltac:(unfold pw8; auto)) as [F8 B8].
  destruct (coef 17087277 1 (pw9 t) ltac:(lia) ltac:(lia) ltac:(lia) ltac:(unfold pw9; auto)) as [F9 B9].
  pose proof (low_minus _ _ _ 1 S0 Fl ltac:(lra) ltac:(lia)) as S1.
  pose proof (low_plus _ _ _ 2 S1 F1 ltac:(lra) ltac:(lia)) as S2. pose proof (low_plus _ _ _ 1 S2 F2 ltac:(lra) ltac:(lia)) as S3.
  pose proof (low_plus _ _ _ 1 S3 F3 ltac:(lra) ltac:(lia)) as S4. pose proof (low_minus _ _ _ 0 S4 F4 ltac:(lra) ltac:(lia)) as S5.
  pose proof (low_plus _ _ _ 1 S5 F5 ltac:(lra) ltac:(lia)) as S6. pose proof (low_minus _ _ _ 0 S6 F6 ltac:(lra) ltac:(lia)) as S7.
  pose proof (low_plus _ _ _ 2 S7 F7 ltac:(lra) ltac:(lia)) as S8. pose proof (low_minus _ _ _ 0 S8 F8 ltac:(lra) ltac:(lia)) as S9.
  pose proof (low_plus _ _ _ 1 S9 F9 ltac:(lra) ltac:(lia)) as S10. exact S10.
Qed.

(** ** What is asked of libm's exp on arguments up to 1: relative error 10^-10 beside an underflow, and 0 at minus infinity. *)
Definition exp_close (libm : Libm) : Prop :=
  (forall a : F64, fin a = true -> val a <= 1 ->
     fin (libm_exp libm a) = true /\ Rabs (val (libm_exp libm a) - exp (val a)) <= / 10000000000 * exp (val a) + bpow radix2 (-1070)) /\
  fin (libm_exp libm (B754_infinity true)) = true /\ val (libm_exp libm (B754_infinity true)) = 0.

Lemma exp_42 : exp (- (42)) <= / 144115188075855872.
Proof.
  rewrite exp_Ropp. apply Rinv_le_contravar; [lra|].
  assert (E : exp 42 = exp (/ 8) ^ 336).
  { rewrite <- (Rpower_pow 336) by apply exp_pos. unfold Rpower. rewrite ln_exp. f_equal. rewrite INR_IZR_INZ. change (Z.of_nat 336) with 336%Z. lra. }
  rewrite E. apply Rle_trans with ((9 / 8) ^ 336).
  - replace (9 / 8) with (IZR 9 * / IZR 8) by lra. rewrite Rpow_mult_distr, pow_inv, !pow_IZR. change (Z.of_nat 336) with 336%Z.
    apply Rmult_le_reg_r with (IZR (8 ^ 336)); [apply IZR_lt; reflexivity|]. rewrite Rmult_assoc, Rinv_l, Rmult_1_r by (apply Rgt_not_eq, IZR_lt; reflexivity).
    rewrite <- mult_IZR. apply IZR_le. apply Z.leb_le. vm_compute. reflexivity.
  - apply pow_incr. split; [lra|]. pose proof (exp_ineq1_le (/ 8)). lra.
Qed.

Lemma tiny_bits : bpow radix2 (-1070) <= / 1000000000000000000000000000000.
Proof. apply Rle_trans with (bpow radix2 (-110)); [apply bpow_le; lia|]. change (bpow radix2 (-110)) with (/ 1298074214633706907132624082305024). apply Rinv_le_contravar; lra. Qed.

Lemma tau_tail libm (x : F64) : exp_close libm -> fin x = true -> 7 <= Rabs (val x) ->
  fin (@erf_tau F64 (NumF libm) x) = true /\ Rabs (val (@erf_tau F64 (NumF libm) x)) <= bpow radix2 (-56).
Proof.
  intros [He [Fi Vi]] Fx Hx. rewrite tau_f. destruct (tf_unit x Fx Hx) as [Ft Ht]. pose proof (arg_low x Fx Hx) as AL. set (t := tf x) in *.
  assert (E : fin (libm_exp libm (arg x t)) = true /\ Rabs (val (libm_exp libm (arg x t))) <= bpow radix2 (-56)).
  { change (bpow radix2 (-56)) with (/ 72057594037927936). destruct AL as [A|[Fa Va]].
    - rewrite A. split; [exact Fi|]. rewrite Vi, Rabs_R0. lra.
    - change (IZR (-42)) with (-42) in Va. destruct (He _ Fa ltac:(lra)) as [F V]. split; [exact F|].
      assert (X : exp (val (arg x t)) <= exp (- (42))). { destruct (Rle_lt_or_eq_dec _ _ Va) as [L|L]; [left; apply exp_increasing; lra|right; f_equal; lra]. }
      pose proof exp_42 as E. pose proof tiny_bits as T. pose proof (exp_pos (val (arg x t))). apply Rabs_le_inv in V. apply Rabs_le. lra. }
  destruct E as [Fe Ve]. set (e := libm_exp libm (arg x t)) in *.
  assert (M : Rabs (val t * val e) <= bpow radix2 (-56)).
  { rewrite Rabs_mult, (Rabs_pos_eq (val t)) by lra. pose proof (Rabs_pos (val e)). nra. }
  assert (Q : Rabs (rd (val t * val e)) <= bpow radix2 (-56)).
  { assert (Fb : fmt (bpow radix2 (-56))) by (apply fmt_bpow; lia). apply Rabs_le_inv in M. apply Rabs_le. split; [|apply rd_le_fmt; [exact Fb|lra]].
    apply rd_ge_fmt; [apply generic_format_opp, Fb|lra]. }
  destruct (mul_fin t e Ft Fe) as [V F].
  { apply Rle_lt_trans with (1 := Q). apply bpow_lt. lia. }
  split; [exact F|rewrite V; exact Q].
Qed.

(** From 7 on, exactly 1; to -7, exactly -1. *)
Lemma erf_tail_f libm (x : F64) : exp_close libm -> fin x = true -> 7 <= Rabs (val x) ->
  fin (@erf F64 (NumF libm) x) = true /\ val (@erf F64 (NumF libm) x) = (if Rle_dec 0 (val x) then 1 else -1).
Proof.
  intros He Fx Hx. destruct (tau_tail libm x He Fx Hx) as [Ft Vt]. unfold erf. set (tau := @erf_tau F64 (NumF libm) x) in *.
  cbn [nleb nofZ nsub NumF]. destruct (ofZ_exact 0 ltac:(lia)) as (V0 & F0 & _). destruct (ofZ_exact 1 ltac:(lia)) as (V1 & F1 & _).
  assert (N : rd (1 - val tau) = 1). { unfold Rminus. apply rd_at_one. rewrite Rabs_Ropp. exact Vt. }
  destruct (Rle_dec 0 (val x)) as [L|L].
  - rewrite (proj2 (leb_val (f64_ofZ 0) x F0 Fx)) by (rewrite V0; exact L).
    destruct (sub_fin (f64_ofZ 1) tau F1 Ft) as [V F]; [rewrite V1, N, Rabs_R1; apply small_lt; lra|]. rewrite V1, N in V. split; [exact F|exact V].
  - destruct (Bleb (f64_ofZ 0) x) eqn:B; [apply (leb_val (f64_ofZ 0) x F0 Fx) in B; rewrite V0 in B; contradiction|].
    assert (N2 : rd (val tau - 1) = -1). { replace (val tau - 1) with (- (1 - val tau)) by ring. rewrite rd_opp, N. lra. }
    destruct (sub_fin tau (f64_ofZ 1) Ft F1) as [V F]; [rewrite V1, N2; replace (-1) with (- (1)) by lra; rewrite Rabs_Ropp, Rabs_R1; apply small_lt; lra|].
    rewrite V1, N2 in V. split; [exact F|exact V].
Qed.

(** ** |x| <= 7. *)
Lemma tau_form (x : R) : erf_tau x = ErfReal.ti (Rabs x) * exp (ErfReal.coded (ErfReal.ti (Rabs x)) - x * x).
Proof.
  unfold erf_tau. cbn [nmul nofZ ndiv nadd nabs NumR nlit]. unfold nlit. cbn [ndiv nofZ NumR]. pose proof (Rabs_pos x) as Hx.
  assert (T : 1 / (1 + 1 / 2 * Rabs x) = ErfReal.ti (Rabs x)). { unfold ErfReal.ti. field. lra. } rewrite T.
  set (t := ErfReal.ti (Rabs x)). f_equal. cbn [nexp NumR]. f_equal.
  unfold npowi, npowi_loop, nsqr, ErfReal.coded, ErfPoly.code_poly. cbn [ErfPoly.pev nsub nopp nmul nadd NumR nofZ]. field.
Qed.

Lemma exp_bound b : b <= 2 / 100 -> 0 < exp b <= 105 / 100.
Proof.
  intros Bb. split; [apply exp_pos|]. assert (B1 : 1 - b <= exp (- b)) by (pose proof (exp_ineq1_le (- b)); lra).
  assert (E1 : exp b * exp (- b) = 1) by (rewrite <- exp_plus, Rplus_opp_r; apply exp_0). pose proof (exp_pos b).
  assert (exp b * (98 / 100) <= 1) by (rewrite <- E1; apply Rmult_le_compat_l; lra). lra.
Qed.
Lemma coded_bound r y : 0 <= r <= 1 -> 0 <= y -> ErfReal.coded r - y <= 2 / 100.
Proof. intros Hr Hy. pose proof (ErfReal.near_le r Hr) as N1. pose proof (ErfReal.near_coded r Hr) as N2. apply Rabs_le_inv in N2. lra. Qed.

Lemma exp_step libm (t a : F64) (r b : R) : exp_close libm -> nr t r (w 4) -> 0 <= r <= 1 -> nr a b (1 / 100000000000) -> b <= 2 / 100 ->
  nr (m2 t (libm_exp libm a)) (r * exp b) (1 / 5000000000).
Proof.
  intros [He _] T Hr [Fa Va] Bb. pose proof (exp_bound b Bb) as Eb.
  assert (D : Rabs (exp (val a) - exp b) <= 2 / 100000000000).
  { assert (Q : exp (val a) = exp b * exp (val a - b)) by (rewrite <- exp_plus; f_equal; ring). rewrite Q.
    replace (exp b * exp (val a - b) - exp b) with (exp b * (exp (val a - b) - 1)) by ring.
    rewrite Rabs_mult, (Rabs_pos_eq (exp b)) by lra. pose proof (ErfReal.exp_abs (val a - b) ltac:(lra)) as A. pose proof (Rabs_pos (exp (val a - b) - 1)) as P1.
    apply Rle_trans with (105 / 100 * (1 / 100000000000 * (1 + 2 / 1000000))); [|lra]. apply Rmult_le_compat; lra. }
  assert (Va1 : val a <= 1) by (apply Rabs_le_inv in Va; lra). destruct (He a Fa Va1) as [Fe Ve].
  assert (Ne : nr (libm_exp libm a) (exp b) (15 / 100000000000)).
  { split; [exact Fe|]. pose proof tiny_bits as Tb. apply Rabs_le_inv in D. apply Rabs_le_inv in Ve. apply Rabs_le. lra. }
  eapply nr_weak; [apply (nr_mul 1 2 _ _ _ _ _ _ T Ne); try lra; rewrite Rabs_pos_eq; lra|]. lra.
Qed.

Lemma tau_near libm (x : F64) : exp_close libm -> fin x = true -> Rabs (val x) <= 7 ->
  nr (@erf_tau F64 (NumF libm) x) (erf_tau (val x)) (1 / 5000000000).
Proof.
  intros He Fx Hx. rewrite tau_f, tau_form. pose proof (ErfReal.ti_range (Rabs (val x)) (Rabs_pos _)) as R0.
  apply exp_step; [exact He|apply ti_nr; assumption|lra| |apply coded_bound; [lra|apply Rle_0_sqr]].
  apply arg_nr; [apply ti_nr; assumption|lra|exact Fx|exact Hx].
Qed.

Lemma erf_near_f libm (x : F64) : exp_close libm -> fin x = true -> Rabs (val x) <= 7 ->
  nr (@erf F64 (NumF libm) x) (erf (val x)) (1 / 4000000000).
Proof.
  intros He Fx Hx. pose proof (tau_near libm x He Fx Hx) as T. unfold erf at 1. set (tau := @erf_tau F64 (NumF libm) x) in *.
  cbn [nleb nofZ nsub NumF]. destruct (ofZ_exact 0 ltac:(lia)) as (V0 & F0 & _).
  assert (B : 0 < erf_tau (val x) <= 2).
  { split; [apply erf_tau_pos|]. rewrite tau_form. pose proof (ErfReal.ti_range (Rabs (val x)) (Rabs_pos _)) as R0. set (r := ErfReal.ti (Rabs (val x))) in *.
    pose proof (exp_bound _ (coded_bound r (val x * val x) ltac:(lra) ltac:(apply Rle_0_sqr))). nra. }
  destruct (Rle_dec 0 (val x)) as [L|L].
  - rewrite (proj2 (leb_val (f64_ofZ 0) x F0 Fx)) by (rewrite V0; exact L). rewrite (erf_nonneg _ L).
    eapply nr_weak; [apply (nr_sub 2 _ _ _ _ _ _ nr_one T); [apply Rabs_le; lra|lra]|lra].
  - destruct (Bleb (f64_ofZ 0) x) eqn:Q; [apply (leb_val (f64_ofZ 0) x F0 Fx) in Q; rewrite V0 in Q; contradiction|]. rewrite (erf_neg (val x)) by lra.
    eapply nr_weak; [apply (nr_sub 2 _ _ _ _ _ _ T nr_one); [apply Rabs_le; lra|lra]|lra].
Qed.

(** ** Such an exp exists: the nearest number, through multiples of 2^-1074. *)
Definition f64_near (r : R) : F64 := binary_normalize 53 1024 _ _ mode_NE (ZnearestE (r * bpow radix2 1074)) (-1074) false.
Lemma f64_near_ok r : 0 <= r <= 3 -> fin (f64_near r) = true /\ Rabs (val (f64_near r) - r) <= r * u53 + bpow radix2 (-1070).
Proof.
  intros Hr. set (z := ZnearestE (r * bpow radix2 1074)). assert (P : 0 < bpow radix2 1074) by apply bpow_gt_0.
  assert (I : bpow radix2 1074 * bpow radix2 (-1074) = 1) by (rewrite <- bpow_plus; reflexivity).
  assert (P2 : 0 < bpow radix2 (-1074)) by apply bpow_gt_0.
  assert (Z1 : Rabs (IZR z - r * bpow radix2 1074) <= / 2). { unfold z. rewrite Rabs_minus_sym. apply Znearest_half. }
  assert (Q : Rabs (IZR z * bpow radix2 (-1074) - r) <= / 2 * bpow radix2 (-1074)).
  { replace (IZR z * bpow radix2 (-1074) - r) with ((IZR z - r * bpow radix2 1074) * bpow radix2 (-1074)).
    - rewrite Rabs_mult, (Rabs_pos_eq (bpow _ (-1074))) by lra. apply Rmult_le_compat_r; lra.
    - rewrite Rmult_minus_distr_r, Rmult_assoc, I. ring. }
  set (s := IZR z * bpow radix2 (-1074)) in *. pose proof tiny_bits as Tb. apply Rabs_le_inv in Q.
  assert (B4 : bpow radix2 (-1070) = 16 * bpow radix2 (-1074)) by (change (-1070)%Z with (4 + -1074)%Z; rewrite bpow_plus; reflexivity).
  assert (S1 : Rabs s <= 4) by (apply Rabs_le; lra).
  pose proof (binary_normalize_correct 53 1024 _ _ mode_NE z (-1074) false) as C.
  change (F2R {| Fnum := z; Fexp := -1074 |}) with s in C.
  change (round radix2 (SpecFloat.fexp 53 1024) (round_mode mode_NE) s) with (rd s) in C.
  cbv zeta in C.
 rewrite Rlt_bool_true in C by (apply pow_1024, big_ok; lra). destruct C as (V & F & _).
  split; [exact F|]. unfold val, f64_near. fold z. rewrite V. pose proof (rd_err s) as E.
  assert (S2 : Rabs s <= r + / 2 * bpow radix2 (-1074)) by (apply Rabs_le; lra). pose proof u53_uu as U. pose proof u53_pos as Up.
  assert (T5 : bpow radix2 (-1075) = / 2 * bpow radix2 (-1074)) by (change (-1075)%Z with (-1 + -1074)%Z; rewrite bpow_plus; reflexivity).
  assert (K : Rabs s * u53 <= (r + / 2 * bpow radix2 (-1074)) * u53) by (apply Rmult_le_compat_r; lra).
  assert (K2 : bpow radix2 (-1074) * u53 <= bpow radix2 (-1074) * 1) by (apply Rmult_le_compat_l; lra).
  change (round radix2 (SpecFloat.fexp 53 1024) (round_mode mode_NE) s) with (rd s). apply Rabs_le_inv in E. apply Rabs_le. lra.
Qed.

Definition libm_exact : Libm := {|
  libm_sin := fun x => x; libm_cos := fun x => x; libm_log10 := fun x => x; libm_pow := fun x _ => x; libm_sum_neg := false;
  libm_exp := fun a => match a with B754_infinity true => f64_ofZ 0 | _ => f64_near (exp (Rmin (val a) 1)) end |}.
Lemma libm_exact_close : exp_close libm_exact.
Proof.
  assert (E3 : exp 1 <= 3) by apply exp_le_3.
  assert (K : forall a : F64, val a <= 1 -> fin (f64_near (exp (Rmin (val a) 1))) = true /\
    Rabs (val (f64_near (exp (Rmin (val a) 1))) - exp (val a)) <= / 10000000000 * exp (val a) + bpow radix2 (-1070)).
  { intros a Ha. rewrite Rmin_left by exact Ha. pose proof (exp_pos (val a)) as P.
    assert (L : exp (val a) <= 3). { destruct (Rle_lt_or_eq_dec _ _ Ha) as [L|L]; [pose proof (exp_increasing _ _ L); lra|rewrite L; exact E3]. }
    destruct (f64_near_ok (exp (val a)) ltac:(lra)) as [F V]. split; [exact F|]. eapply Rle_trans; [exact V|]. pose proof u53_uu. pose proof u53_pos.
    assert (exp (val a) * u53 <= exp (val a) * / 10000000000) by (apply Rmult_le_compat_l; lra). lra. }
  split.
  - intros a Fa Ha. destruct a as [s|s| |s m e He]; try discriminate Fa; apply (K _ Ha).
  - cbn [libm_exp libm_exact]. destruct (ofZ_exact 0 ltac:(lia)) as (V & F & _). auto.
Qed.
