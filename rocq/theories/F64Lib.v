(** Facts about binary64 used by the proofs. *)
From Coq Require Import List ZArith Reals Bool Lia Lra Psatz.
From Flocq Require Import Core BinarySingleNaN Relative Sterbenz.
From Verif Require Import Base Num.
Import ListNotations.

Notation emin64 := (-1074)%Z.
Notation fexp64 := (FLT_exp (-1074) 53).
(** Round to nearest, ties to even, in the format of binary64 (without overflow). *)
Definition rd (x : R) : R := round radix2 fexp64 ZnearestE x.
Definition fmt (x : R) : Prop := generic_format radix2 fexp64 x.
(** The value of a finite float (0 for the others). *)
Definition val (x : F64) : R := B2R x.
Definition fin (x : F64) : bool := is_finite x.

#[global] Instance fexp64_valid : Valid_exp fexp64 := FLT_exp_valid (-1074) 53.
#[global] Instance fexp64_monotone : Monotone_exp fexp64 := FLT_exp_monotone (-1074) 53.

Lemma fexp64_eq : SpecFloat.fexp 53 1024 = fexp64.
Proof. reflexivity. Qed.

Lemma val_fmt x : fmt (val x).
Proof. apply (generic_format_B2R 53 1024 x). Qed.

Lemma rd_fmt x : fmt (rd x).
Proof. apply generic_format_round; typeclasses eauto. Qed.

Lemma rd_id x : fmt x -> rd x = x.
Proof. intros H. apply round_generic; [typeclasses eauto|exact H]. Qed.

Lemma rd_le x y : (x <= y)%R -> (rd x <= rd y)%R.
Proof. apply round_le; typeclasses eauto. Qed.

Lemma rd_0 : rd 0 = 0%R.
Proof. apply round_0. typeclasses eauto. Qed.

Lemma rd_opp x : rd (- x) = (- rd x)%R.
Proof. unfold rd. rewrite round_NE_opp. reflexivity. Qed.

Lemma rd_ge_fmt x y : fmt x -> (x <= y)%R -> (x <= rd y)%R.
Proof. intros Hx H. rewrite <- (rd_id x Hx). apply rd_le. exact H. Qed.

Lemma rd_le_fmt x y : fmt y -> (x <= y)%R -> (rd x <= y)%R.
Proof. intros Hy H. rewrite <- (rd_id y Hy). apply rd_le. exact H. Qed.

(** Relative error in the normal range. *)
Lemma rd_rel_error x : (bpow radix2 (-1022) <= Rabs x)%R ->
  (Rabs (rd x - x) <= bpow radix2 (-53) * Rabs x)%R.
Proof.
  intros H. pose proof (relative_error_N_FLT radix2 (-1074) 53 ltac:(lia) (fun n => negb (Z.even n)) x) as HE.
  change (-1074 + 53 - 1)%Z with (-1022)%Z in HE. specialize (HE H).
  change (-53 + 1)%Z with (-52)%Z in HE. change (/ 2)%R with (bpow radix2 (-1)) in HE.
  rewrite <- bpow_plus in HE. exact HE.
Qed.

(** Error of rounding: half an ulp. *)
Lemma rd_error_ulp x : (Rabs (rd x - x) <= / 2 * ulp radix2 fexp64 x)%R.
Proof. apply error_le_half_ulp. typeclasses eauto. Qed.

Lemma fmt_bpow e : (-1074 <= e)%Z -> fmt (bpow radix2 e).
Proof. intros H. apply generic_format_bpow'; [typeclasses eauto|]. unfold FLT_exp. lia. Qed.

Lemma fmt_scaled (m e : Z) : (Z.abs m <= 2 ^ 53)%Z -> (-1074 <= e)%Z -> fmt (IZR m * bpow radix2 e)%R.
Proof.
  intros Hm He. destruct (Z.eq_dec (Z.abs m) (2 ^ 53)) as [E|E].
  - assert (H : fmt (bpow radix2 (53 + e))) by (apply fmt_bpow; lia).
    rewrite bpow_plus in H.
    assert (Hc : (IZR m = bpow radix2 53 \/ IZR m = - bpow radix2 53)%R).
    { change (bpow radix2 53) with (IZR (2 ^ 53)). rewrite <- opp_IZR.
      destruct (Z.abs_eq_cases m (2 ^ 53)) as [->| ->]; [rewrite E; reflexivity|left|right]; reflexivity. }
    destruct Hc as [-> | ->]; [exact H|].
    rewrite Ropp_mult_distr_l_reverse. apply generic_format_opp. exact H.
  - apply generic_format_FLT. exists (Float radix2 m e); cbn [Fnum Fexp].
    + reflexivity.
    + change (Zpower radix2 53) with (2 ^ 53)%Z. lia.
    + exact He.
Qed.

Lemma fmt_IZR z : (Z.abs z <= 2 ^ 53)%Z -> fmt (IZR z).
Proof.
  intros H. replace (IZR z) with (IZR z * bpow radix2 0)%R by (cbn; lra). apply fmt_scaled; [exact H|lia].
Qed.

Lemma bpow1024_big : (IZR (2 ^ 64) <= bpow radix2 1024)%R.
Proof. change (IZR (2 ^ 64)) with (bpow radix2 64). apply bpow_le. lia. Qed.

(** Integer conversion, exact up to 2^53. *)
Lemma ofZ_exact z : (Z.abs z <= 2 ^ 53)%Z ->
  val (f64_ofZ z) = IZR z /\ fin (f64_ofZ z) = true /\ Bsign (f64_ofZ z) = (z <? 0)%Z.
Proof.
  intros H. pose proof (binary_normalize_correct 53 1024 _ _ mode_NE z 0 false) as HC.
  assert (HF : F2R (Float radix2 z 0) = IZR z) by (unfold F2R; cbn; lra).
  cbv zeta in HC. rewrite HF in HC.
  change (round radix2 (SpecFloat.fexp 53 1024) (round_mode mode_NE) (IZR z)) with (rd (IZR z)) in HC.
  rewrite (rd_id _ (fmt_IZR z H)) in HC.
  rewrite Rlt_bool_true in HC.
  - destruct HC as [H1 [H2 H3]]. unfold val, fin, f64_ofZ. split; [exact H1|]. split; [exact H2|].
    rewrite H3. destruct (Rcompare_spec (IZR z) 0) as [Hc|Hc|Hc].
    + apply lt_IZR in Hc. symmetry. apply Z.ltb_lt. exact Hc.
    + apply eq_IZR in Hc. subst z. reflexivity.
    + apply lt_IZR in Hc. symmetry. apply Z.ltb_ge. lia.
  - rewrite <- abs_IZR. apply Rle_lt_trans with (bpow radix2 53).
    + change (bpow radix2 53) with (IZR (2 ^ 53)). apply IZR_le. exact H.
    + apply bpow_lt. lia.
Qed.

(** Operations that do not overflow. *)
Lemma add_fin x y : fin x = true -> fin y = true -> (Rabs (rd (val x + val y)) < bpow radix2 1024)%R ->
  val (Bplus mode_NE x y) = rd (val x + val y) /\ fin (Bplus mode_NE x y) = true.
Proof.
  intros Hx Hy Hb. pose proof (Bplus_correct 53 1024 _ _ mode_NE x y Hx Hy) as HC.
  change (round radix2 (SpecFloat.fexp 53 1024) (round_mode mode_NE) (B2R x + B2R y)) with (rd (val x + val y)) in HC.
  rewrite Rlt_bool_true in HC by exact Hb. destruct HC as [H1 [H2 _]]. auto.
Qed.

Lemma sub_fin x y : fin x = true -> fin y = true -> (Rabs (rd (val x - val y)) < bpow radix2 1024)%R ->
  val (Bminus mode_NE x y) = rd (val x - val y) /\ fin (Bminus mode_NE x y) = true.
Proof.
  intros Hx Hy Hb. pose proof (Bminus_correct 53 1024 _ _ mode_NE x y Hx Hy) as HC.
  change (round radix2 (SpecFloat.fexp 53 1024) (round_mode mode_NE) (B2R x - B2R y)) with (rd (val x - val y)) in HC.
  rewrite Rlt_bool_true in HC by exact Hb. destruct HC as [H1 [H2 _]]. auto.
Qed.

Lemma mul_fin x y : fin x = true -> fin y = true -> (Rabs (rd (val x * val y)) < bpow radix2 1024)%R ->
  val (Bmult mode_NE x y) = rd (val x * val y) /\ fin (Bmult mode_NE x y) = true.
Proof.
  intros Hx Hy Hb. pose proof (Bmult_correct 53 1024 _ _ mode_NE x y) as HC.
  change (round radix2 (SpecFloat.fexp 53 1024) (round_mode mode_NE) (B2R x * B2R y)) with (rd (val x * val y)) in HC.
  rewrite Rlt_bool_true in HC by exact Hb. destruct HC as [H1 [H2 _]]. unfold fin in *. rewrite Hx, Hy in H2. auto.
Qed.

Lemma div_fin x y : fin x = true -> val y <> 0%R -> (Rabs (rd (val x / val y)) < bpow radix2 1024)%R ->
  val (Bdiv mode_NE x y) = rd (val x / val y) /\ fin (Bdiv mode_NE x y) = true.
Proof.
  intros Hx Hy Hb. pose proof (Bdiv_correct 53 1024 _ _ mode_NE x y Hy) as HC.
  change (round radix2 (SpecFloat.fexp 53 1024) (round_mode mode_NE) (B2R x / B2R y)) with (rd (val x / val y)) in HC.
  rewrite Rlt_bool_true in HC by exact Hb. destruct HC as [H1 [H2 _]]. unfold fin in *. rewrite Hx in H2. auto.
Qed.

(** Comparisons of finite floats. *)
Lemma ltb_val x y : fin x = true -> fin y = true -> Bltb x y = true <-> (val x < val y)%R.
Proof.
  intros Hx Hy. rewrite (Bltb_correct 53 1024 x y Hx Hy). unfold val.
  destruct (Rlt_bool_spec (B2R x) (B2R y)); split; intros; auto; try discriminate; lra.
Qed.
Lemma leb_val x y : fin x = true -> fin y = true -> Bleb x y = true <-> (val x <= val y)%R.
Proof.
  intros Hx Hy. rewrite (Bleb_correct 53 1024 x y Hx Hy). unfold val.
  destruct (Rle_bool_spec (B2R x) (B2R y)); split; intros; auto; try discriminate; lra.
Qed.
Lemma eqb_val x y : fin x = true -> fin y = true -> Beqb x y = true <-> val x = val y.
Proof.
  intros Hx Hy. rewrite (Beqb_correct 53 1024 x y Hx Hy). unfold val.
  destruct (Req_bool_spec (B2R x) (B2R y)); split; intros; auto; try discriminate; contradiction.
Qed.
