(** Proofs about ChaosModel.v: orbits of the maps over the reals and over binary64. *)
From Coq Require Import List Arith ZArith Reals Bool Lia Lra Psatz.
From Flocq Require Import Core BinarySingleNaN Plus_error Sterbenz.
From Verif Require Import Base IterTheory IterModel Num F64Lib LibModel LibFloat ChaosModel.
Import ListNotations.
Local Open Scope R_scope.

(** ** Orbits as streams *)

Lemma orbit_streams {X} (f : X -> X) (x0 : X) : streams (orbit f x0) (fun n => Nat.iter (S n) f x0).
Proof.
  apply (streams_coind (next (orbit f x0)) (fun s g => forall n, g n = Nat.iter (S n) f s)).
  - intros s g Hg. exists (f s). split.
    + cbn. rewrite (Hg 0%nat). reflexivity.
    + intros n. rewrite Hg. cbn. f_equal. clear. induction n as [|n IH]; cbn; [reflexivity|]. rewrite IH. reflexivity.
  - reflexivity.
Qed.

Lemma iter_inv {X} (f : X -> X) (P : X -> Prop) x0 :
  P x0 -> (forall x, P x -> P (f x)) -> forall n, P (Nat.iter n f x0).
Proof. intros H0 HS n. induction n as [|n IH]; cbn; auto. Qed.

Lemma iter_S {X} (f : X -> X) n x : Nat.iter (S n) f x = f (Nat.iter n f x).
Proof. reflexivity. Qed.

Lemma fin_strict (x : F64) : fin x = true -> val x <> 0 -> is_finite_strict x = true.
Proof. destruct x; try discriminate; [|reflexivity]. intros _ H. destruct (H eq_refl). Qed.

(** ** Logistic map, reals *)

Lemma logistic_R mu x : 0 <= mu <= 4 -> 0 <= x <= 1 -> 0 <= logistic_map mu x <= 1.
Proof.
  intros Hm Hx. unfold logistic_map. cbn.
  assert (0 <= x * (1 - x) <= 1 / 4).
  { split; [nra|]. assert (0 <= (x - 1/2) * (x - 1/2)) by (apply Rle_0_sqr). nra. }
  nra.
Qed.

(** ** Logistic map, binary64 *)

Lemma fmt_mul4 x : fmt x -> fmt (4 * x).
Proof.
  intros H. apply FLT_format_generic in H; [|reflexivity]. destruct H as [[m e] H1 H2 H3]. cbn [Fnum Fexp] in *.
  apply generic_format_FLT. exists (Float radix2 m (e + 2)); cbn [Fnum Fexp].
  - rewrite H1. unfold F2R. cbn [Fnum Fexp]. rewrite bpow_plus. change (bpow radix2 2) with 4. ring.
  - exact H2.
  - lia.
Qed.

Lemma small_no_overflow x : Rabs x <= 8 -> Rabs (rd x) < bpow radix2 1024.
Proof.
  intros H. apply Rle_lt_trans with (bpow radix2 3).
  - apply Rabs_le. apply Rabs_le_inv in H.
    assert (F : fmt (bpow radix2 3)) by (apply fmt_bpow; lia). change (bpow radix2 3) with 8 in *. split.
    + apply rd_ge_fmt; [apply generic_format_opp; exact F|lra].
    + apply rd_le_fmt; [exact F|lra].
  - apply bpow_lt. lia.
Qed.

Lemma rd_le_1 y : y < 1 + bpow radix2 (-53) -> rd y <= 1.
Proof.
  intros H. apply round_N_le_midp.
  - typeclasses eauto.
  - apply (fmt_IZR 1). lia.
  - rewrite succ_eq_pos by lra. change 1 with (bpow radix2 0). rewrite ulp_bpow.
    change (fexp64 (0 + 1)) with (-52)%Z. change (bpow radix2 0) with 1.
    replace (bpow radix2 (-52)) with (2 * bpow radix2 (-53)).
    + lra.
    + change (-52)%Z with (1 + -53)%Z. rewrite bpow_plus. reflexivity.
Qed.

Lemma val_1 : val (f64_ofZ 1) = 1 /\ fin (f64_ofZ 1) = true.
Proof. destruct (ofZ_exact 1) as [H1 [H2 _]]; [lia|]. auto. Qed.
Lemma val_0 : val (f64_ofZ 0) = 0 /\ fin (f64_ofZ 0) = true.
Proof. destruct (ofZ_exact 0) as [H1 [H2 _]]; [lia|]. auto. Qed.

Lemma pos53 : 0 < bpow radix2 (-53) < / 4503599627370496.
Proof.
  split; [apply bpow_gt_0|]. apply Rlt_le_trans with (bpow radix2 (-52)); [apply bpow_lt; lia|].
  right. reflexivity.
Qed.

Lemma logistic_f64 (libm : Libm) (mu x : F64) :
  fin mu = true -> fin x = true -> 0 <= val mu <= 4 -> 0 <= val x <= 1 ->
  let y := @logistic_map F64 (NumF libm) mu x in
  fin y = true /\ 0 <= val y <= 1 /\
  val y = rd (rd (val mu * val x) * rd (1 - val x)).
Proof.
  intros Fm Fx Hm Hx y. destruct val_1 as [V1 F1].
  assert (F_0 : fmt 0) by apply generic_format_0.
  (* mu * x *)
  assert (B0 : 0 <= val mu * val x <= 4) by nra.
  destruct (mul_fin mu x Fm Fx) as [Va Fa]; [apply small_no_overflow; rewrite Rabs_pos_eq; lra|].
  set (a := Bmult mode_NE mu x) in *.
  assert (Ha : 0 <= val a <= 4 * val x).
  { rewrite Va. split.
    - apply rd_ge_fmt; [exact F_0|lra].
    - apply rd_le_fmt; [apply fmt_mul4, val_fmt|nra]. }
  (* 1 - x *)
  destruct (sub_fin (f64_ofZ 1) x F1 Fx) as [Vd Fd];
    [apply small_no_overflow; rewrite V1, Rabs_pos_eq; lra|]. rewrite V1 in Vd.
  set (d := Bminus mode_NE (f64_ofZ 1) x) in *.
  assert (Hd : 0 <= val d <= 1).
  { rewrite Vd. split; [apply rd_ge_fmt; [exact F_0|lra]|apply rd_le_fmt; [apply (fmt_IZR 1); lia|lra]]. }
  (* product *)
  assert (Hp : 0 <= val a * val d < 1 + bpow radix2 (-53)).
  { pose proof pos53 as H53. split; [nra|].
    destruct (Rlt_le_dec (val x) (1/2)) as [Hh|Hh].
    - assert (Hrel : Rabs (rd (1 - val x) - (1 - val x)) <= bpow radix2 (-53) * Rabs (1 - val x)).
      { apply rd_rel_error. rewrite Rabs_pos_eq by lra. apply Rle_trans with (bpow radix2 (-1)); [apply bpow_le; lia|].
        change (bpow radix2 (-1)) with (/ 2). lra. }
      rewrite (Rabs_pos_eq (1 - val x)) in Hrel by lra. rewrite <- Vd in Hrel. apply Rabs_le_inv in Hrel.
      set (x' := val x) in *. set (d' := val d) in *. set (a' := val a) in *. set (u := bpow radix2 (-53)) in *.
      assert (H1 : d' <= (1 - x') * (1 + u)) by lra.
      assert (H2 : 4 * x' * (1 - x') < 1).
      { assert (0 < (1/2 - x') * (1/2 - x')) by (apply Rmult_lt_0_compat; lra). nra. }
      apply Rle_lt_trans with (4 * x' * ((1 - x') * (1 + u))).
      + apply Rmult_le_compat; lra.
      + replace (4 * x' * ((1 - x') * (1 + u))) with (4 * x' * (1 - x') * (1 + u)) by ring.
        replace (1 + u) with (1 * (1 + u)) at 2 by ring. apply Rmult_lt_compat_r; lra.
    - assert (Hex : val d = 1 - val x).
      { rewrite Vd. apply rd_id. apply sterbenz; try typeclasses eauto.
        - apply (fmt_IZR 1). lia.
        - apply val_fmt.
        - lra. }
      rewrite Hex in *. assert (0 <= (val x - 1/2) * (val x - 1/2)) by apply Rle_0_sqr. nra. }
  pose proof pos53 as H53.
  destruct (mul_fin a d Fa Fd) as [Vy Fy]; [apply small_no_overflow; rewrite Rabs_pos_eq; lra|].
  change (Bmult mode_NE a d) with y in *.
  split; [exact Fy|]. split.
  - rewrite Vy. split; [apply rd_ge_fmt; [exact F_0|lra]|]. apply rd_le_1. apply Hp.
  - rewrite Vy, Va, Vd. reflexivity.
Qed.

(** ** The orbit used by DCSK and CSK *)

Definition mu39 : F64 := Bdiv mode_NE (f64_ofZ 39) (f64_ofZ 10).
Definition x01 : F64 := Bdiv mode_NE (f64_ofZ 1) (f64_ofZ 10).
Definition x015 : F64 := Bdiv mode_NE (f64_ofZ 15) (f64_ofZ 100).

(** A literal is within relative error 2^-53 of its decimal value. *)
Lemma lit_val (p q : Z) : (0 <= p < 2 ^ 53)%Z -> (1 <= q < 2 ^ 53)%Z ->
  let l := Bdiv mode_NE (f64_ofZ p) (f64_ofZ q) in
  fin l = true /\ val l = rd (IZR p / IZR q).
Proof. intros Hp Hq. destruct (div_ofZ p q Hp Hq) as [H1 [H2 _]]. auto. Qed.

Lemma rd_near y : / 1024 <= Rabs y -> Rabs (rd y - y) <= bpow radix2 (-53) * Rabs y.
Proof.
  intros H. apply rd_rel_error. apply Rle_trans with (bpow radix2 (-10)); [apply bpow_le; lia|exact H].
Qed.

Lemma mu39_val : fin mu39 = true /\ 39/10 - / 1000000000000 <= val mu39 <= 39/10 + / 1000000000000.
Proof.
  destruct (lit_val 39 10) as [F V]; [lia|lia|]. split; [exact F|]. unfold mu39. rewrite V.
  pose proof (rd_near (39/10)) as H. rewrite (Rabs_pos_eq (39/10)) in H by lra.
  specialize (H ltac:(lra)). apply Rabs_le_inv in H. pose proof pos53. lra.
Qed.

Lemma x01_val : fin x01 = true /\ 94/1000 <= val x01 <= 9751/10000.
Proof.
  destruct (lit_val 1 10) as [F V]; [lia|lia|]. split; [exact F|]. unfold x01. rewrite V.
  pose proof (rd_near (1/10)) as H. rewrite (Rabs_pos_eq (1/10)) in H by lra.
  specialize (H ltac:(lra)). apply Rabs_le_inv in H. pose proof pos53. lra.
Qed.

Lemma x015_val : fin x015 = true /\ 94/1000 <= val x015 <= 9751/10000.
Proof.
  destruct (lit_val 15 100) as [F V]; [lia|lia|]. split; [exact F|]. unfold x015. rewrite V.
  pose proof (rd_near (15/100)) as H. rewrite (Rabs_pos_eq (15/100)) in H by lra.
  specialize (H ltac:(lra)). apply Rabs_le_inv in H. pose proof pos53. lra.
Qed.

Lemma prod_small x e k eps : Rabs x <= k -> Rabs e <= eps -> Rabs (x * e) <= k * eps.
Proof. intros Hx He. rewrite Rabs_mult. apply Rmult_le_compat; try assumption; apply Rabs_pos. Qed.

(** [0.094, 0.9751] is mapped into itself in binary64. *)
Lemma logistic39_invariant (libm : Libm) (x : F64) :
  fin x = true -> 94/1000 <= val x <= 9751/10000 ->
  let y := @logistic_map F64 (NumF libm) mu39 x in
  fin y = true /\ 94/1000 <= val y <= 9751/10000.
Proof.
  intros Fx Hx y. destruct mu39_val as [Fm Hm].
  destruct (logistic_f64 libm mu39 x Fm Fx) as [Fy [_ Vy]]; [lra|lra|].
  fold y in Fy, Vy. split; [exact Fy|]. rewrite Vy.
  set (m := val mu39) in *. set (v := val x) in *. pose proof pos53 as HU. set (u := bpow radix2 (-53)) in *.
  assert (E1 : Rabs (rd (m * v) - m * v) <= u * Rabs (m * v)).
  { apply rd_near. rewrite Rabs_pos_eq by nra. nra. }
  rewrite (Rabs_pos_eq (m * v)) in E1 by nra. apply Rabs_le_inv in E1.
  assert (E2 : Rabs (rd (1 - v) - (1 - v)) <= u * Rabs (1 - v)).
  { apply rd_near. rewrite Rabs_pos_eq by lra. lra. }
  rewrite (Rabs_pos_eq (1 - v)) in E2 by lra. apply Rabs_le_inv in E2.
  set (a := rd (m * v)) in *. set (d := rd (1 - v)) in *.
  set (eps := / 1000000000000) in *.
  assert (Heps : 0 < eps < / 100000000000) by (unfold eps; lra).
  assert (Hmv : 0 <= m * v <= 4) by nra.
  assert (Hu : u <= eps / 4) by (unfold eps; lra).
  assert (T1 : Rabs (a - m * v) <= eps).
  { apply Rabs_le. assert (0 <= u * (m * v) <= eps); [|lra]. split; [apply Rmult_le_pos; lra|].
    apply Rle_trans with (eps / 4 * 4); [apply Rmult_le_compat; lra|lra]. }
  assert (T2 : Rabs (d - (1 - v)) <= eps).
  { apply Rabs_le. assert (0 <= u * (1 - v) <= eps); [|lra]. split; [apply Rmult_le_pos; lra|].
    apply Rle_trans with (eps / 4 * 4); [apply Rmult_le_compat; lra|lra]. }
  assert (T3 : Rabs (v * (m - 39/10)) <= 1 * eps).
  { apply prod_small; apply Rabs_le; lra. }
  assert (P : Rabs (a * d - 39/10 * (v * (1 - v))) <= 100 * eps).
  { replace (a * d - 39/10 * (v * (1 - v))) with
      ((a - m * v) * d + (m * v) * (d - (1 - v)) + (1 - v) * (v * (m - 39/10))) by ring.
    assert (Rabs (d * (a - m * v)) <= 2 * eps).
    { apply prod_small; [|exact T1]. apply Rabs_le. apply Rabs_le_inv in T2. lra. }
    assert (Rabs ((m * v) * (d - (1 - v))) <= 4 * eps).
    { apply prod_small; [|exact T2]. apply Rabs_le. lra. }
    assert (Rabs ((1 - v) * (v * (m - 39/10))) <= 1 * (1 * eps)).
    { apply prod_small; [|exact T3]. apply Rabs_le. lra. }
    rewrite (Rmult_comm (a - m * v) d).
    eapply Rle_trans; [apply Rabs_triang|]. eapply Rle_trans; [apply Rplus_le_compat_r, Rabs_triang|]. lra. }
  apply Rabs_le_inv in P.
  assert (Q1 : 242799 / 10000000 <= v * (1 - v) <= 1/4).
  { assert (0 <= (v - 1/2) * (v - 1/2)) by apply Rle_0_sqr. split; [|nra].
    assert (0 <= (v - 94/1000) * (9751/10000 - v)) by (apply Rmult_le_pos; lra). nra. }
  assert (E3 : Rabs (rd (a * d) - a * d) <= u * Rabs (a * d)).
  { apply rd_near. rewrite Rabs_pos_eq; lra. }
  rewrite (Rabs_pos_eq (a * d)) in E3 by lra. apply Rabs_le_inv in E3. 
  assert (0 <= u * (a * d) <= eps); [|lra]. split; [apply Rmult_le_pos; lra|].
  apply Rle_trans with (eps / 4 * 4); [apply Rmult_le_compat; lra|lra].
Qed.
