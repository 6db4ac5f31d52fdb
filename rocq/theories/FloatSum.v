(** Rounding errors of binary64 sums and products. *)
From Coq Require Import List Arith ZArith Reals Bool Lia Lra Psatz.
From Flocq Require Import Core Relative BinarySingleNaN.
From Verif Require Import Base Spec SpecR Tab Num F64Lib LibFloat RSums ChaosProofs ChaosMod PskFloat FhFloat.
Import ListNotations.
Local Open Scope R_scope.

Notation u53 := (bpow radix2 (-53)).

Lemma u53_pos : 0 < u53.
Proof. apply bpow_gt_0. Qed.
Lemma u53_small : u53 <= / IZR (2 ^ 40).
Proof. rewrite bpow_m53. apply Rinv_le; [apply IZR_lt; reflexivity|]. apply IZR_le. discriminate. Qed.

Lemma rd_err x : Rabs (rd x - x) <= Rabs x * u53 + bpow radix2 (-1075).
Proof.
  assert (P : forall y, 0 <= y -> Rabs (rd y - y) <= y * u53 + bpow radix2 (-1075)).
  { intros y Hy. pose proof (rd_upper y Hy). pose proof (bpow_gt_0 radix2 (-1075)).
    pose proof u53_pos. assert (0 <= y * u53) by (apply Rmult_le_pos; lra).
    apply Rabs_le. split; [|lra].
    destruct (Rle_lt_dec (bpow radix2 (-1022)) y) as [L|L].
    - pose proof (rd_rel_error y ltac:(rewrite Rabs_pos_eq; lra)) as E. rewrite (Rabs_pos_eq y) in E by lra.
      apply Rabs_le_inv in E. lra.
    - destruct (error_N_FLT radix2 (-1074) 53 prec53 (fun z => negb (Z.even z)) y) as (e & t & He & Ht & Het & E).
      change (rd y = y * (1 + e) + t) in E. rewrite E.
      apply Rabs_le_inv in He. apply Rabs_le_inv in Ht.
      replace (/ 2 * bpow radix2 (-1074)) with (bpow radix2 (-1075)) in Ht
        by (change (-1075)%Z with (-1 + -1074)%Z; rewrite bpow_plus; f_equal).
      unfold u_ro in He. change (bpow radix2 (- (53) + 1)) with (bpow radix2 (-52)) in He.
      replace (/ 2 * bpow radix2 (-52)) with u53 in He
        by (change (-53)%Z with (-1 + -52)%Z; rewrite bpow_plus; f_equal).
      assert (y * - e <= y * u53) by (apply Rmult_le_compat_l; lra). lra. }
  destruct (Rle_lt_dec 0 x) as [H|H].
  - rewrite (Rabs_pos_eq x H). apply P. exact H.
  - rewrite (Rabs_left x H). specialize (P (- x) ltac:(lra)). rewrite rd_opp in P.
    replace (rd x - x) with (- (- rd x - - x)) by ring. rewrite Rabs_Ropp. exact P.
Qed.

Lemma pow_1024 x : Rabs x <= bpow radix2 1000 -> Rabs (rd x) < bpow radix2 1024.
Proof.
  intros H. apply Rle_lt_trans with (bpow radix2 1000); [|apply bpow_lt; lia].
  apply Rabs_le_inv in H. apply Rabs_le. split.
  - apply Ropp_le_cancel. rewrite Ropp_involutive, <- rd_opp. apply rd_le_fmt; [apply fmt_bpow; lia|lra].
  - apply rd_le_fmt; [apply fmt_bpow; lia|lra].
Qed.

Lemma add_err (x y : F64) : fin x = true -> fin y = true -> Rabs (val x + val y) <= bpow radix2 1000 ->
  fin (Bplus mode_NE x y) = true /\
  Rabs (val (Bplus mode_NE x y) - (val x + val y)) <= Rabs (val x + val y) * u53 + bpow radix2 (-1075).
Proof.
  intros Fx Fy H. destruct (add_fin x y Fx Fy (pow_1024 _ H)) as [V F]. split; [exact F|]. rewrite V. apply rd_err.
Qed.
Lemma mul_err (x y : F64) : fin x = true -> fin y = true -> Rabs (val x * val y) <= bpow radix2 1000 ->
  fin (Bmult mode_NE x y) = true /\
  Rabs (val (Bmult mode_NE x y) - (val x * val y)) <= Rabs (val x * val y) * u53 + bpow radix2 (-1075).
Proof.
  intros Fx Fy H. destruct (mul_fin x y Fx Fy (pow_1024 _ H)) as [V F]. split; [exact F|]. rewrite V. apply rd_err.
Qed.

(** Summing n finite numbers of size at most M from left to right. *)
Lemma sum_err (f : nat -> F64) (M : R) : bpow radix2 (-900) <= M <= bpow radix2 900 ->
  forall n, (Z.of_nat n <= 2 ^ 50)%Z -> (forall j, (j < n)%nat -> fin (f j) = true /\ Rabs (val (f j)) <= M) ->
  let s := fold_left (Bplus mode_NE) (tab n f) (f64_ofZ 0) in
  fin s = true /\ Rabs (val s - Rsum_n n (fun j => val (f j))) <= INR n * (INR n + 3) * M * u53 /\
  Rabs (Rsum_n n (fun j => val (f j))) <= INR n * M.
Proof.
  intros HM. pose proof (bpow_gt_0 radix2 (-900)) as P900. pose proof u53_pos as U.
  induction n as [|n IH]; intros Hn Hf s.
  - destruct val_0 as [V0 F0]. unfold s. cbn [tab seq map fold_left Rsum_n INR]. split; [exact F0|].
    change (tab 0 f) with (@nil F64). cbn [fold_left]. rewrite V0, Rminus_0_r, Rabs_R0. lra.
  - unfold s. replace (S n) with (n + 1)%nat by lia. rewrite tab_add, fold_left_app. cbn [tab seq map fold_left].
    change (tab 1 (fun i => f (n + i)%nat)) with [f (n + 0)%nat]. rewrite Nat.add_0_r. cbn [fold_left].
    destruct (IH ltac:(lia) ltac:(intros; apply Hf; lia)) as (F & E & B).
    set (a := fold_left (Bplus mode_NE) (tab n f) (f64_ofZ 0)) in *.
    destruct (Hf n ltac:(lia)) as [Fn Bn].
    rewrite Nat.add_1_r. cbn [Rsum_n]. set (S0 := Rsum_n n (fun j => val (f j))) in *. rewrite S_INR.
    assert (HN : 0 <= INR n) by apply pos_INR.
    assert (HN2 : (INR n + 1) <= IZR (2 ^ 50)).
    { rewrite <- S_INR, INR_IZR_INZ. apply IZR_le. exact Hn. }
    assert (HU : (INR n + 3) * u53 <= / 4).
    { rewrite bpow_m53. apply Rmult_le_reg_r with (IZR (2 ^ 53)); [apply IZR_lt; reflexivity|].
      rewrite Rmult_assoc, Rinv_l by (apply IZR_neq; discriminate).
      change (IZR (2 ^ 53)) with 9007199254740992. change (IZR (2 ^ 50)) with 1125899906842624 in HN2. lra. }
    assert (B2 : Rabs (val a) <= 5 / 4 * (INR n * M)).
    { replace (val a) with ((val a - S0) + S0) by ring. eapply Rle_trans; [apply Rabs_triang|].
      assert (INR n * (INR n + 3) * M * u53 <= INR n * M * / 4).
      { replace (INR n * (INR n + 3) * M * u53) with (INR n * M * ((INR n + 3) * u53)) by ring.
        apply Rmult_le_compat_l; [apply Rmult_le_pos; lra|exact HU]. }
      lra. }
    assert (B3 : Rabs (val a + val (f n)) <= 5 / 4 * ((INR n + 1) * M)).
    { eapply Rle_trans; [apply Rabs_triang|]. lra. }
    assert (NM : (INR n + 1) * M <= bpow radix2 950).
    { change 950%Z with (50 + 900)%Z. rewrite bpow_plus. apply Rmult_le_compat; try lra.
      change (bpow radix2 50) with (IZR (2 ^ 50)). exact HN2. }
    destruct (add_err a (f n) F Fn) as [F2 E2].
    { pose proof (bpow_gt_0 radix2 950) as P950. apply Rle_trans with (2 * bpow radix2 950); [lra|].
      change 1000%Z with (1 + (49 + 950))%Z. rewrite !bpow_plus. change (bpow radix2 1) with 2.
      apply Rmult_le_compat_l; [lra|]. change (bpow radix2 49) with (IZR (2 ^ 49)).
      assert (1 <= IZR (2 ^ 49)) by (apply IZR_le; discriminate). nra. }
    split; [exact F2|]. split.
    2:{ eapply Rle_trans; [apply Rabs_triang|]. lra. }
    match goal with |- Rabs (?x - _) <= _ => change x with (val (Bplus mode_NE a (f n))) end.
    set (t := val (Bplus mode_NE a (f n))) in *.
    replace (t - (S0 + val (f n))) with ((t - (val a + val (f n))) + (val a - S0)) by ring.
    eapply Rle_trans; [apply Rabs_triang|].
    assert (Et : bpow radix2 (-1075) <= u53 * M).
    { apply Rle_trans with (u53 * bpow radix2 (-900)); [rewrite <- bpow_plus; apply bpow_le; lia|].
      apply Rmult_le_compat_l; lra. }
    assert (A : Rabs (val a + val (f n)) * u53 <= 5 / 4 * ((INR n + 1) * M) * u53) by (apply Rmult_le_compat_r; lra).
    assert (0 <= M * u53) by (apply Rmult_le_pos; lra).
    assert (0 <= INR n * (M * u53)) by (apply Rmult_le_pos; lra).
    replace ((INR n + 1) * (INR n + 1 + 3) * M * u53) with (INR n * (INR n + 3) * M * u53 + 2 * (INR n * (M * u53)) + 4 * (M * u53)) by ring.
    replace (5 / 4 * ((INR n + 1) * M) * u53) with (5 / 4 * (INR n * (M * u53)) + 5 / 4 * (M * u53)) in A by ring.
    lra.
Qed.

(** ** The carrier phase *)

Lemma pi_near : Rabs (IZR 7074237752028440 * / IZR (2 ^ 51) - PI) <= / IZR (2 ^ 51).
Proof.
  pose proof (Machin.PI_2_3_7_ineq 8) as [A B]. cbn [Nat.mul Nat.add] in A, B.
  unfold AltSeries.tg_alt, Machin.PI_2_3_7_tg, Ratan.Ratan_seq in A, B.
  cbn [sum_f_R0 pow Nat.add Nat.mul INR] in A, B.
  change (IZR (2 ^ 51)) with 2251799813685248. apply Rabs_le. lra.
Qed.

Lemma f64_pi_val : val f64_pi = IZR 7074237752028440 * / IZR (2 ^ 51) /\ fin f64_pi = true.
Proof. split; [|reflexivity]. unfold val, f64_pi. vm_compute B2R. unfold F2R. cbn. reflexivity. Qed.

Lemma PI_3 : 3 < PI < 4.
Proof.
  pose proof pi_near as H. change (IZR (2 ^ 51)) with 2251799813685248 in H. apply Rabs_le_inv in H. lra.
Qed.

(** PI is stored with a relative error of at most 2^-52. *)
Lemma pi_rel : exists e, Rabs e <= 2 * u53 /\ val f64_pi = PI * (1 + e).
Proof.
  destruct f64_pi_val as [V _]. rewrite V. pose proof PI_3 as P3. pose proof pi_near as H.
  exists ((IZR 7074237752028440 * / IZR (2 ^ 51) - PI) / PI). split; [|field; lra].
  unfold Rdiv. rewrite Rabs_mult, (Rabs_pos_eq (/ PI)) by (left; apply Rinv_0_lt_compat; lra).
  apply Rle_trans with (/ IZR (2 ^ 51) * / 3).
  - apply Rmult_le_compat; [apply Rabs_pos|left; apply Rinv_0_lt_compat; lra|exact H|apply Rinv_le; lra].
  - rewrite bpow_m53. change (IZR (2 ^ 51)) with 2251799813685248. change (IZR (2 ^ 53)) with 9007199254740992. lra.
Qed.

Lemma rd_rel x : x = 0 \/ bpow radix2 (-1022) <= Rabs x -> exists e, Rabs e <= u53 /\ rd x = x * (1 + e).
Proof.
  intros [->|H].
  - exists 0. rewrite rd_0, Rabs_R0. split; [apply Rlt_le, u53_pos|ring].
  - pose proof (rd_rel_error x H) as E. pose proof (bpow_gt_0 radix2 (-1022)).
    assert (NZ : x <> 0) by (intros ->; rewrite Rabs_R0 in H; lra).
    exists ((rd x - x) / x). split; [|field; exact NZ].
    unfold Rdiv. rewrite Rabs_mult, Rabs_inv. apply Rmult_le_reg_r with (Rabs x); [apply Rabs_pos_lt; exact NZ|].
    rewrite Rmult_assoc, Rinv_l by (apply Rabs_no_R0; exact NZ). rewrite (Rmult_comm u53). lra.
Qed.

Lemma rel_prod4 a b c d : Rabs a <= 2 * u53 -> Rabs b <= u53 -> Rabs c <= u53 -> Rabs d <= u53 ->
  Rabs ((1 + a) * (1 + b) * (1 + c) * (1 + d) - 1) <= 8 * u53.
Proof.
  pose proof u53_pos as U. pose proof u53_small as S. change (IZR (2 ^ 40)) with 1099511627776 in S. set (u := u53) in *. clearbody u.
  intros Ha Hb Hc Hd. apply Rabs_le_inv in Ha. apply Rabs_le_inv in Hb. apply Rabs_le_inv in Hc. apply Rabs_le_inv in Hd.
  assert (P : forall x y e f, 0 <= e <= 1 / 8 -> 0 <= f <= 1 / 8 -> - e <= x <= e -> - f <= y <= f ->
     - (e + f + e * f) <= (1 + x) * (1 + y) - 1 <= e + f + e * f).
  { intros x y e f He Hf Hx Hy. assert (- (e * f) <= x * y <= e * f).
    { apply Rabs_le_inv. rewrite Rabs_mult. apply Rmult_le_compat; try apply Rabs_pos; apply Rabs_le; assumption. } nra. }
  assert (u * u <= u * / 1000) by (apply Rmult_le_compat_l; lra).
  pose proof (P a b (2 * u) u ltac:(lra) ltac:(lra) Ha Hb) as P1.
  pose proof (P c d u u ltac:(lra) ltac:(lra) Hc Hd) as P2.
  assert (Q1 : - (31 / 10 * u) <= (1 + a) * (1 + b) - 1 <= 31 / 10 * u) by lra.
  assert (Q2 : - (21 / 10 * u) <= (1 + c) * (1 + d) - 1 <= 21 / 10 * u) by lra.
  pose proof (P _ _ (31 / 10 * u) (21 / 10 * u) ltac:(lra) ltac:(lra) Q1 Q2) as P3.
  replace ((1 + a) * (1 + b) * (1 + c) * (1 + d) - 1) with ((1 + ((1 + a) * (1 + b) - 1)) * (1 + ((1 + c) * (1 + d) - 1)) - 1) by ring.
  apply Rabs_le. assert (31 / 10 * u * (21 / 10 * u) <= u * / 10) by lra. lra.
Qed.

Lemma rd_double x : fmt x -> bpow radix2 (-1000) <= x -> rd (2 * x) = 2 * x.
Proof.
  intros F H. apply rd_id. unfold fmt. apply generic_format_FLT. apply FLT_format_generic in F; [|exact prec53].
  destruct F as [[m e] E1 E2 E3]. cbn [Fnum Fexp] in *. exists (Float radix2 m (e + 1)); cbn [Fnum Fexp]; [|exact E2|lia].
  rewrite E1. unfold F2R. cbn [Fnum Fexp]. rewrite bpow_plus. change (bpow radix2 1) with 2. ring.
Qed.

(** The phase 2*PI*fc*(i/sr) as computed, against the same number computed exactly. *)
Lemma phase_err (fc : F64) (sr i : nat) :
  fin fc = true -> 1 / 2 <= Rabs (val fc) <= bpow radix2 500 -> (1 <= sr)%nat -> (Z.of_nat sr < 2 ^ 53)%Z -> (Z.of_nat i < 2 ^ 53)%Z ->
  let p := Bmult mode_NE (Bmult mode_NE (Bmult mode_NE (f64_ofZ 2) f64_pi) fc)
             (Bdiv mode_NE (f64_ofZ (Z.of_nat i)) (f64_ofZ (Z.of_nat sr))) in
  let exact := 2 * PI * val fc * (INR i / INR sr) in
  fin p = true /\ Rabs (val p - exact) <= Rabs exact * (8 * u53).
Proof.
  intros Ff Bf Hs Hs2 Hi p exact.
  destruct f64_pi_val as [Vpi Fpi]. destruct pi_rel as (e0 & He0 & Epi). pose proof PI_3 as P3.
  pose proof u53_pos as U. pose proof u53_small as US. change (IZR (2 ^ 40)) with 1099511627776 in US.
  assert (Bpi : 3 <= val f64_pi <= 4) by (rewrite Vpi; change (IZR (2 ^ 51)) with 2251799813685248; lra).
  destruct (ofZ_exact 2 ltac:(lia)) as (V2 & F2 & _).
  (* 2 * pi *)
  assert (E1 : rd (val (f64_ofZ 2) * val f64_pi) = 2 * val f64_pi).
  { rewrite V2. apply rd_double; [apply val_fmt|]. apply Rle_trans with 1; [|lra]. change 1 with (bpow radix2 0). apply bpow_le. lia. }
  assert (B3 : 2 * 4 <= bpow radix2 3) by (cbn; lra).
  assert (M : forall e, (3 <= e <= 1000)%Z -> 8 <= bpow radix2 e).
  { intros e He. apply Rle_trans with (bpow radix2 3); [lra|]. apply bpow_le. lia. }
  destruct (mul_fin (f64_ofZ 2) f64_pi F2 Fpi) as [VA FA].
  { rewrite E1, Rabs_pos_eq by lra. apply Rle_lt_trans with (bpow radix2 3); [lra|]. apply bpow_lt. lia. }
  rewrite E1 in VA. set (A := Bmult mode_NE (f64_ofZ 2) f64_pi) in *.
  (* * fc *)
  assert (BA : 3 <= Rabs (val A * val fc) <= bpow radix2 503).
  { rewrite Rabs_mult, VA, (Rabs_pos_eq (2 * val f64_pi)) by lra. split; [nra|].
    change 503%Z with (3 + 500)%Z. rewrite bpow_plus. apply Rmult_le_compat; try lra. }
  destruct (mul_fin A fc FA Ff) as [VB FB].
  { apply pow_1024. apply Rle_trans with (bpow radix2 503); [lra|]. apply bpow_le. lia. }
  assert (L1022 : bpow radix2 (-1022) <= bpow radix2 (-60)) by (apply bpow_le; lia).
  assert (L60 : bpow radix2 (-60) <= 1) by (change 1 with (bpow radix2 0); apply bpow_le; lia).
  destruct (rd_rel (val A * val fc)) as (e1 & He1 & Ee1); [right; lra|].
  set (B := Bmult mode_NE A fc) in *.
  (* i / sr *)
  assert (Hsr : 1 <= INR sr) by (change 1 with (INR 1); apply le_INR; lia).
  destruct (div_ofZ (Z.of_nat i) (Z.of_nat sr) ltac:(lia) ltac:(lia)) as (VT & FT & _).
  set (T := Bdiv mode_NE (f64_ofZ (Z.of_nat i)) (f64_ofZ (Z.of_nat sr))) in *.
  rewrite <- !INR_IZR_INZ in VT.
  assert (HT : INR i / INR sr = 0 \/ bpow radix2 (-53) <= INR i / INR sr).
  { destruct i as [|i]; [left; cbn; unfold Rdiv; ring|]. right.
    rewrite bpow_m53. apply Rle_trans with (1 / INR sr).
    - unfold Rdiv. rewrite Rmult_1_l. apply Rinv_le; [lra|]. rewrite INR_IZR_INZ. apply IZR_le. lia.
    - apply Rmult_le_compat_r; [left; apply Rinv_0_lt_compat; lra|]. change 1 with (INR 1). apply le_INR. lia. }
  assert (HT0 : 0 <= INR i / INR sr <= bpow radix2 53).
  { split; [apply Rmult_le_pos; [apply pos_INR|left; apply Rinv_0_lt_compat; lra]|].
    apply Rle_trans with (INR i).
    - apply Rmult_le_reg_r with (INR sr); [lra|]. unfold Rdiv. rewrite Rmult_assoc, Rinv_l, Rmult_1_r by lra.
      pose proof (pos_INR i). nra.
    - rewrite INR_IZR_INZ. change (bpow radix2 53) with (IZR (2 ^ 53)). apply IZR_le. lia. }
  destruct (rd_rel (INR i / INR sr)) as (e2 & He2 & Ee2).
  { destruct HT as [HT|HT]; [left; exact HT|right]. rewrite Rabs_pos_eq by lra.
    apply Rle_trans with (bpow radix2 (-53)); [apply bpow_le; lia|exact HT]. }
  (* the product *)
  assert (VB2 : val B = 2 * PI * val fc * (1 + e0) * (1 + e1)) by (rewrite VB, Ee1, VA, Epi; ring).
  assert (VT2 : val T = INR i / INR sr * (1 + e2)) by (rewrite VT; exact Ee2).
  assert (H1 : / 2 <= 1 + e1 <= 2) by (apply Rabs_le_inv in He1; lra).
  assert (H2 : / 2 <= 1 + e2 <= 2) by (apply Rabs_le_inv in He2; lra).
  assert (BB : 1 <= Rabs (val B) <= bpow radix2 504).
  { rewrite VB, Ee1, Rabs_mult, (Rabs_pos_eq (1 + e1)) by lra. split; [nra|].
    change 504%Z with (503 + 1)%Z. rewrite bpow_plus. change (bpow radix2 1) with 2. apply Rmult_le_compat; try lra; apply Rabs_pos. }
  assert (BT : 0 <= val T <= bpow radix2 54).
  { rewrite VT2. split; [nra|]. change 54%Z with (53 + 1)%Z. rewrite bpow_plus. change (bpow radix2 1) with 2. apply Rmult_le_compat; lra. }
  assert (HBT : val B * val T = 0 \/ bpow radix2 (-1022) <= Rabs (val B * val T)).
  { destruct HT as [HT|HT]; [left; rewrite VT2, HT; ring|right].
    rewrite Rabs_mult, (Rabs_pos_eq (val T)) by lra.
    assert (bpow radix2 (-53) * / 2 <= val T) by (rewrite VT2; apply Rmult_le_compat; lra).
    assert (E54 : bpow radix2 (-54) = u53 * / 2) by (change (-54)%Z with (-53 + -1)%Z; rewrite bpow_plus; reflexivity).
    assert (bpow radix2 (-1022) <= bpow radix2 (-54)) by (apply bpow_le; lia).
    pose proof (bpow_gt_0 radix2 (-54)). nra. }
  destruct (mul_fin B T FB FT) as [VP FP].
  { apply pow_1024. rewrite Rabs_mult, (Rabs_pos_eq (val T)) by lra.
    apply Rle_trans with (bpow radix2 (504 + 54)); [|apply bpow_le; lia]. rewrite bpow_plus. apply Rmult_le_compat; lra. }
  destruct (rd_rel _ HBT) as (e3 & He3 & Ee3).
  split; [exact FP|]. unfold p. fold A B T. rewrite VP, Ee3, VB2, VT2.
  replace (2 * PI * val fc * (1 + e0) * (1 + e1) * (INR i / INR sr * (1 + e2)) * (1 + e3) - exact)
    with (exact * ((1 + e0) * (1 + e1) * (1 + e2) * (1 + e3) - 1)) by (unfold exact; ring).
  rewrite Rabs_mult. apply Rmult_le_compat_l; [apply Rabs_pos|]. apply rel_prod4; assumption.
Qed.

(** Sine and cosine move no faster than their argument. *)
Lemma sin_abs_le x : Rabs (sin x) <= Rabs x.
Proof.
  assert (P : forall y, 0 <= y -> Rabs (sin y) <= y).
  { intros y [H| <-]; [|rewrite sin_0, Rabs_R0; lra]. pose proof (sin_lt_x y H) as S.
    apply Rabs_le. split; [|lra]. destruct (Rle_lt_dec y PI) as [L|L].
    - pose proof (sin_ge_0 y ltac:(lra) L). lra.
    - pose proof (SIN_bound y). pose proof PI_3. lra. }
  destruct (Rle_lt_dec 0 x) as [H|H].
  - rewrite (Rabs_pos_eq x H). apply P. exact H.
  - rewrite (Rabs_left x H). rewrite <- Rabs_Ropp, <- sin_neg. apply P. lra.
Qed.
Lemma cos_lip x y : Rabs (cos x - cos y) <= Rabs (x - y).
Proof.
  rewrite form2. rewrite !Rabs_mult. replace (Rabs (-2)) with 2 by (rewrite Rabs_left; lra).
  pose proof (sin_abs_le ((x - y) / 2)) as A. pose proof (SIN_bound ((x + y) / 2)) as B.
  assert (Rabs (sin ((x + y) / 2)) <= 1) by (apply Rabs_le; lra).
  replace (Rabs (x - y)) with (2 * Rabs ((x - y) / 2)) by (unfold Rdiv; rewrite Rabs_mult, (Rabs_pos_eq (/ 2)); lra).
  pose proof (Rabs_pos (sin ((x - y) / 2))). pose proof (Rabs_pos (sin ((x + y) / 2))). nra.
Qed.
Lemma sin_lip x y : Rabs (sin x - sin y) <= Rabs (x - y).
Proof.
  rewrite <- !cos_shift. replace (Rabs (x - y)) with (Rabs ((PI / 2 - x) - (PI / 2 - y))).
  - apply cos_lip.
  - rewrite <- Rabs_Ropp. f_equal. ring.
Qed.
