(** Binary64 facts about the helpers of LibModel.v: is_int, ber. *)
From Coq Require Import List Arith ZArith Reals Bool Lia Lra Psatz.
From Flocq Require Import Core BinarySingleNaN.
From Verif Require Import Base Num F64Lib LibModel.
Import ListNotations.

Lemma Btrunc_val (x : F64) : Btrunc x = Ztrunc (val x).
Proof.
  apply eq_IZR. rewrite (Btrunc_correct 53 1024 _ x). unfold round, val, scaled_mantissa, F2R, cexp, FIX_exp; cbn.
  rewrite !Rmult_1_r. reflexivity.
Qed.

Lemma to_u64_fin x : fin x = true -> f64_to_u64 x = clamp_u64 (Ztrunc (val x)).
Proof. intros H. rewrite <- Btrunc_val. destruct x; try discriminate; reflexivity. Qed.

Lemma two53_lt : (2 ^ 53 < 2 ^ 64 - 1)%Z.
Proof. reflexivity. Qed.

(** A finite float whose value is between 0 and 2^53 passes the check exactly when it is an integer. *)
Lemma is_int_val (m : Libm) (q : F64) :
  fin q = true -> (0 <= val q <= IZR (2 ^ 53))%R ->
  @is_int F64 (NumF m) q = true <-> exists n : Z, val q = IZR n.
Proof.
  intros Hf [H0 H1]. unfold is_int, neqb, nofZ, nto_u64, NumF. rewrite to_u64_fin by exact Hf.
  set (t := Ztrunc (val q)).
  assert (Ht : (0 <= t <= 2 ^ 53)%Z).
  { unfold t. split.
    - rewrite <- (Ztrunc_IZR 0). apply Ztrunc_le. exact H0.
    - rewrite <- (Ztrunc_IZR (2 ^ 53)). apply Ztrunc_le. exact H1. }
  pose proof two53_lt as H53.
  replace (clamp_u64 t) with t by (unfold clamp_u64, u64_max; lia).
  destruct (ofZ_exact t) as [Hv [Hfin _]]; [lia|].
  rewrite eqb_val by assumption. rewrite Hv. split.
  - intros E. exists t. exact E.
  - intros [n E]. unfold t. rewrite E, Ztrunc_IZR. reflexivity.
Qed.

Lemma bpow_m53 : bpow radix2 (-53) = (/ IZR (2 ^ 53))%R.
Proof. change (-53)%Z with (- (53))%Z. rewrite bpow_opp. reflexivity. Qed.

Lemma quot_bounds (a b : Z) : (0 <= a)%Z -> (1 <= b)%Z -> (0 <= IZR a / IZR b <= IZR a)%R.
Proof.
  intros Ha Hb. apply IZR_le in Ha, Hb. split.
  - apply Rmult_le_pos; [lra|]. left. apply Rinv_0_lt_compat. lra.
  - apply Rmult_le_reg_r with (IZR b); [lra|]. unfold Rdiv. rewrite Rmult_assoc, Rinv_l by lra. nra.
Qed.

Lemma div_ofZ (a b : Z) : (0 <= a < 2 ^ 53)%Z -> (1 <= b < 2 ^ 53)%Z ->
  let q := Bdiv mode_NE (f64_ofZ a) (f64_ofZ b) in
  val q = rd (IZR a / IZR b) /\ fin q = true /\ (0 <= val q <= IZR (2 ^ 53))%R.
Proof.
  intros Ha Hb q.
  destruct (ofZ_exact a) as [Va [Fa _]]; [lia|]. destruct (ofZ_exact b) as [Vb [Fb _]]; [lia|].
  destruct (quot_bounds a b) as [Q0 Q1]; [lia|lia|].
  assert (HA : (IZR a <= IZR (2 ^ 53))%R) by (apply IZR_le; lia).
  assert (R0 : (0 <= rd (IZR a / IZR b))%R).
  { apply rd_ge_fmt; [apply generic_format_0|exact Q0]. }
  assert (R1 : (rd (IZR a / IZR b) <= IZR (2 ^ 53))%R).
  { apply rd_le_fmt; [apply fmt_IZR; lia|]. lra. }
  assert (HB : (Rabs (rd (IZR a / IZR b)) < bpow radix2 1024)%R).
  { rewrite Rabs_pos_eq by exact R0. apply Rle_lt_trans with (1 := R1).
    change (IZR (2 ^ 53)) with (bpow radix2 53). apply bpow_lt. lia. }
  destruct (div_fin (f64_ofZ a) (f64_ofZ b)) as [Vq Fq].
  - exact Fa.
  - rewrite Vb. apply IZR_neq. lia.
  - rewrite Va, Vb. exact HB.
  - rewrite Va, Vb in Vq. unfold q. rewrite Vq. auto.
Qed.

(** The rounded quotient of integers below 2^53 is an integer only when the exact one is. *)
Lemma rd_quot_int (a b n : Z) : (0 <= a < 2 ^ 53)%Z -> (1 <= b < 2 ^ 53)%Z ->
  rd (IZR a / IZR b) = IZR n -> (a = n * b)%Z.
Proof.
  intros Ha Hb E. destruct (Z.eq_dec a 0) as [->|Hne].
  - unfold Rdiv in E. rewrite Rmult_0_l, rd_0 in E. apply eq_IZR in E. subst n. reflexivity.
  - assert (Hbr : (1 <= IZR b)%R) by (apply IZR_le; lia).
    assert (Har : (1 <= IZR a)%R) by (apply IZR_le; lia).
    assert (Hbu : (IZR b <= IZR (2 ^ 53))%R) by (apply IZR_le; lia).
    assert (Hau : (IZR a < IZR (2 ^ 53))%R) by (apply IZR_lt; lia).
    assert (Hx : (0 < IZR a / IZR b)%R).
    { apply Rmult_lt_0_compat; [lra|]. apply Rinv_0_lt_compat. lra. }
    assert (Hn : (bpow radix2 (-1022) <= Rabs (IZR a / IZR b))%R).
    { rewrite Rabs_pos_eq by lra. apply Rle_trans with (bpow radix2 (-53)); [apply bpow_le; lia|].
      rewrite bpow_m53. apply Rle_trans with (/ IZR b)%R; [apply Rinv_le; lra|].
      unfold Rdiv. assert (0 < / IZR b)%R by (apply Rinv_0_lt_compat; lra). nra. }
    pose proof (rd_rel_error _ Hn) as HE. rewrite E in HE. rewrite (Rabs_pos_eq (IZR a / IZR b)) in HE by lra.
    rewrite bpow_m53 in HE.
    assert (HD : (Rabs (IZR n * IZR b - IZR a) < 1)%R).
    { replace (IZR n * IZR b - IZR a)%R with ((IZR n - IZR a / IZR b) * IZR b)%R by (field; lra).
      rewrite Rabs_mult, (Rabs_pos_eq (IZR b)) by lra.
      apply Rle_lt_trans with (/ IZR (2 ^ 53) * (IZR a / IZR b) * IZR b)%R.
      - apply Rmult_le_compat_r; [lra|exact HE].
      - replace (/ IZR (2 ^ 53) * (IZR a / IZR b) * IZR b)%R with (IZR a * / IZR (2 ^ 53))%R by (field; lra).
        apply Rmult_lt_reg_r with (IZR (2 ^ 53)); [lra|]. rewrite Rmult_assoc, Rinv_l by lra. lra. }
    rewrite <- mult_IZR, <- minus_IZR, <- abs_IZR in HD. apply lt_IZR in HD. lia.
Qed.

Lemma rd_quot_exact (a b n : Z) : (0 <= a < 2 ^ 53)%Z -> (1 <= b)%Z -> (a = n * b)%Z -> rd (IZR a / IZR b) = IZR n.
Proof.
  intros Ha Hb E. replace (IZR a / IZR b)%R with (IZR n).
  - apply rd_id, fmt_IZR. nia.
  - subst a. rewrite mult_IZR. field. apply IZR_neq. lia.
Qed.

Lemma is_int_div_pos (m : Libm) (a b : Z) : (0 <= a < 2 ^ 53)%Z -> (1 <= b < 2 ^ 53)%Z ->
  @is_int F64 (NumF m) (Bdiv mode_NE (f64_ofZ a) (f64_ofZ b)) = true <-> (b | a)%Z.
Proof.
  intros Ha Hb. destruct (div_ofZ a b Ha Hb) as [Vq [Fq Bq]].
  rewrite is_int_val by assumption. rewrite Vq. split.
  - intros [n E]. exists n. apply rd_quot_int; assumption.
  - intros [n E]. exists n. apply rd_quot_exact; try lia.
Qed.

Lemma is_int_div_zero (m : Libm) (a : Z) : (0 <= a < 2 ^ 53)%Z ->
  @is_int F64 (NumF m) (Bdiv mode_NE (f64_ofZ a) (f64_ofZ 0)) = false.
Proof.
  intros Ha. destruct (ofZ_exact a) as [Va [Fa Sa]]; [lia|].
  unfold is_int, neqb, nofZ, nto_u64, NumF. change (f64_ofZ 0) with (@B754_zero 53 1024 false).
  destruct (f64_ofZ a) as [s|s| |s mm e He]; try discriminate.
  - reflexivity.
  - cbn [Bsign] in Sa. replace s with false by (rewrite Sa; symmetry; apply Z.ltb_ge; lia).
    vm_compute. reflexivity.
Qed.

(** ** ber *)

(** Positions where two bit lists differ, within their common prefix. *)
Fixpoint mismatches (a b : list bool) : nat :=
  match a, b with
  | x :: a', y :: b' => (if Bool.eqb x y then 0 else 1) + mismatches a' b'
  | _, _ => 0
  end.

Lemma fold_add_acc l : forall k, fold_left Nat.add l k = k + fold_left Nat.add l 0.
Proof. induction l as [|x l IH]; intros k; cbn; [lia|]. rewrite IH, (IH x). lia. Qed.

Lemma ber_errors a b :
  fold_left Nat.add (map (fun '(ti, ri) => if Bool.eqb ti ri then 0 else 1) (combine a b)) 0 = mismatches a b.
Proof.
  revert b; induction a as [|x a IH]; intros [|y b]; try reflexivity.
  cbn [combine map fold_left mismatches]. rewrite fold_add_acc, IH. cbn. reflexivity.
Qed.

Lemma mismatches_le a : forall b, mismatches a b <= Nat.min (length a) (length b).
Proof.
  induction a as [|x a IH]; intros [|y b]; cbn; try lia. specialize (IH b). destruct (Bool.eqb x y); lia.
Qed.

Lemma mismatches_sym a : forall b, mismatches a b = mismatches b a.
Proof.
  induction a as [|x a IH]; intros [|y b]; cbn; try reflexivity. rewrite IH. destruct x, y; reflexivity.
Qed.

Lemma mismatches_0 a : forall b,
  mismatches a b = 0 <-> forall i, i < Nat.min (length a) (length b) -> nth_error a i = nth_error b i.
Proof.
  induction a as [|x a IH]; intros [|y b]; cbn [mismatches length Nat.min].
  - split; [|reflexivity]. intros _ i Hi. lia.
  - split; [|reflexivity]. intros _ i Hi. lia.
  - split; [|reflexivity]. intros _ i Hi. lia.
  - destruct (Bool.eqb x y) eqn:E.
    + apply eqb_prop in E. subst y. cbn [Nat.add]. rewrite IH. split.
      * intros H [|i] Hi; [reflexivity|]. cbn. apply H. lia.
      * intros H i Hi. apply (H (S i)). lia.
    + split; [lia|]. intros H. specialize (H 0 ltac:(lia)). cbn in H. injection H as ->.
      rewrite eqb_reflx in E. discriminate.
Qed.

Lemma mismatches_all a : forall b,
  mismatches a b = Nat.min (length a) (length b) <->
  forall i, i < Nat.min (length a) (length b) -> nth_error a i <> nth_error b i.
Proof.
  induction a as [|x a IH]; intros [|y b]; cbn [mismatches length Nat.min].
  - split; [|reflexivity]. intros _ i Hi. lia.
  - split; [|reflexivity]. intros _ i Hi. lia.
  - split; [|reflexivity]. intros _ i Hi. lia.
  - pose proof (mismatches_le a b) as HL. destruct (Bool.eqb x y) eqn:E.
    + apply eqb_prop in E. subst y. split; [cbn; lia|]. intros H. exfalso. apply (H 0 ltac:(lia)). reflexivity.
    + cbn [Nat.add]. split.
      * intros H [|i] Hi; cbn.
        -- intros Exy. injection Exy as ->. rewrite eqb_reflx in E. discriminate.
        -- apply IH; lia.
      * intros H. f_equal. apply IH. intros i Hi. apply (H (S i)). lia.
Qed.

Lemma ber_unfold (m : Libm) a b :
  @ber F64 (NumF m) a b =
  Bdiv mode_NE (f64_ofZ (Z.of_nat (mismatches a b))) (f64_ofZ (Z.of_nat (Nat.min (length a) (length b)))).
Proof. unfold ber. rewrite ber_errors. reflexivity. Qed.

Lemma ber_nan (m : Libm) a b : Nat.min (length a) (length b) = 0 -> is_nan (@ber F64 (NumF m) a b) = true.
Proof.
  intros H. rewrite ber_unfold. pose proof (mismatches_le a b) as HL. rewrite H in *.
  replace (mismatches a b) with 0 by lia. reflexivity.
Qed.

Lemma ber_value (m : Libm) a b :
  1 <= Nat.min (length a) (length b) -> (Z.of_nat (Nat.min (length a) (length b)) < 2 ^ 53)%Z ->
  fin (@ber F64 (NumF m) a b) = true /\
  val (@ber F64 (NumF m) a b) = rd (INR (mismatches a b) / INR (Nat.min (length a) (length b))).
Proof.
  intros H1 H2. rewrite ber_unfold. pose proof (mismatches_le a b) as HL.
  destruct (div_ofZ (Z.of_nat (mismatches a b)) (Z.of_nat (Nat.min (length a) (length b)))) as [V [F _]];
    [lia|lia|]. rewrite V, !INR_IZR_INZ. auto.
Qed.

Lemma rd_frac (e n : nat) : e <= n -> 1 <= n -> (Z.of_nat n < 2 ^ 53)%Z ->
  (0 <= rd (INR e / INR n) <= 1)%R /\ (rd (INR e / INR n) = 0%R <-> e = 0) /\
  (rd (INR e / INR n) = 1%R <-> e = n).
Proof.
  intros He Hn Hb. rewrite !INR_IZR_INZ.
  assert (Ha' : (0 <= Z.of_nat e < 2 ^ 53)%Z) by lia. assert (Hb' : (1 <= Z.of_nat n < 2 ^ 53)%Z) by lia.
  assert (HN : (1 <= IZR (Z.of_nat n))%R) by (apply IZR_le; lia).
  assert (HE : (0 <= IZR (Z.of_nat e) <= IZR (Z.of_nat n))%R) by (split; apply IZR_le; lia).
  split; [split|split].
  - apply rd_ge_fmt; [apply generic_format_0|]. apply quot_bounds; lia.
  - apply rd_le_fmt; [apply (fmt_IZR 1); lia|].
    apply Rmult_le_reg_r with (IZR (Z.of_nat n)); [lra|]. unfold Rdiv. rewrite Rmult_assoc, Rinv_l by lra. lra.
  - split.
    + intros E. apply (rd_quot_int _ _ 0 Ha' Hb') in E. lia.
    + intros ->. apply rd_quot_exact; lia.
  - split.
    + intros E. apply (rd_quot_int _ _ 1 Ha' Hb') in E. lia.
    + intros ->. apply rd_quot_exact; lia.
Qed.
