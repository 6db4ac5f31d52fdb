(** Binary64 facts about hop frequencies and phases. *)
From Coq Require Import List Arith ZArith Reals Bool Lia Lra Psatz.
From Flocq Require Import Core BinarySingleNaN.
From Verif Require Import Base Num F64Lib LibModel LibFloat ChaosModel ChaosProofs PskFloat.
Import ListNotations.
Local Open Scope R_scope.

Lemma ofZ_round z : (0 <= z <= 2 ^ 64)%Z -> val (f64_ofZ z) = rd (IZR z) /\ fin (f64_ofZ z) = true.
Proof.
  intros H. pose proof (binary_normalize_correct 53 1024 _ _ mode_NE z 0 false) as HC.
  assert (HF : F2R (Float radix2 z 0) = IZR z) by (unfold F2R; cbn; lra).
  cbv zeta in HC. rewrite HF in HC.
  change (round radix2 (SpecFloat.fexp 53 1024) (round_mode mode_NE) (IZR z)) with (rd (IZR z)) in HC.
  rewrite Rlt_bool_true in HC.
  - destruct HC as (V & F & _). split; assumption.
  - assert (B : 0 <= IZR z <= bpow radix2 64).
    { change (bpow radix2 64) with (IZR (2 ^ 64)). split; apply IZR_le; lia. }
    assert (0 <= rd (IZR z)) by (rewrite <- rd_0; apply rd_le; lra).
    assert (rd (IZR z) <= bpow radix2 64) by (apply rd_le_fmt; [apply fmt_bpow; lia|lra]).
    rewrite Rabs_pos_eq by lra. apply Rle_lt_trans with (bpow radix2 64); [assumption|]. apply bpow_lt. lia.
Qed.

Lemma ulp_big x : bpow radix2 (-900) <= x -> bpow radix2 (-952) <= ulp radix2 fexp64 x.
Proof.
  intros H. pose proof (bpow_gt_0 radix2 (-900)).
  replace (bpow radix2 (-952)) with (ulp radix2 fexp64 (bpow radix2 (-900))).
  - apply ulp_le_pos; [typeclasses eauto|typeclasses eauto|lra|exact H].
  - rewrite ulp_bpow. f_equal.
Qed.

(** Rounding a nonnegative number goes up by at most a relative 2^-53 and an absolute 2^-1075. *)
Lemma rd_upper x : 0 <= x -> rd x <= x * (1 + bpow radix2 (-53)) + bpow radix2 (-1075).
Proof.
  intros Hx. pose proof (bpow_gt_0 radix2 (-53)). pose proof (bpow_gt_0 radix2 (-1075)).
  destruct (Rle_lt_dec (bpow radix2 (-1022)) x) as [L|L].
  - pose proof (rd_rel_error x ltac:(rewrite Rabs_pos_eq; lra)) as E. rewrite (Rabs_pos_eq x) in E by lra.
    apply Rabs_le_inv in E. nra.
  - pose proof (rd_error_ulp x) as E. apply Rabs_le_inv in E.
    assert (U : ulp radix2 fexp64 x <= bpow radix2 (-1074)).
    { replace (bpow radix2 (-1074)) with (ulp radix2 fexp64 (bpow radix2 (-1023))) by (rewrite ulp_bpow; reflexivity).
      destruct (Rle_lt_dec x (bpow radix2 (-1023))) as [L2|L2].
      - apply ulp_le_pos; [typeclasses eauto|typeclasses eauto|lra|lra].
      - right. rewrite ulp_neq_0 by (pose proof (bpow_gt_0 radix2 (-1023)); lra). rewrite ulp_bpow.
        assert (M : mag_val radix2 x (mag radix2 x) = (-1022)%Z).
        { apply mag_unique. rewrite Rabs_pos_eq by lra. split; [change (-1022 - 1)%Z with (-1023)%Z; lra|exact L]. }
        unfold cexp. rewrite M. reflexivity. }
    assert (B : / 2 * bpow radix2 (-1074) = bpow radix2 (-1075)).
    { change (-1075)%Z with (-1 + -1074)%Z. rewrite bpow_plus. f_equal. }
    nra.
Qed.

Lemma rd_nonneg x : 0 <= x -> 0 <= rd x.
Proof. intros H. rewrite <- rd_0. apply rd_le. exact H. Qed.

Lemma grid_arith (X D S P N I u eta : R) :
  0 <= X -> 0 <= D -> D <= X * (1 + u) + eta -> 0 <= S -> S <= D / N * (1 + u) + eta -> P <= S * I * (1 + u) + eta ->
  1 <= N -> 0 <= I <= N - 1 -> 0 < u <= / 8 -> N * u * 8 <= 1 -> 0 < eta -> P <= X + 8 * N * eta.
Proof.
  intros HX HD D1 HS S1 P1 HN HI Hu HNu He.
  assert (Hd : 0 <= D / N) by (apply Rmult_le_pos; [exact HD|left; apply Rinv_0_lt_compat; lra]).
  assert (Ed : D / N * N = D) by (field; lra). set (d := D / N) in *. clearbody d.
  assert (A1 : S * I <= (d * (1 + u) + eta) * (N - 1)) by (apply Rmult_le_compat; lra).
  assert (A2 : S * I * (1 + u) <= (d * (1 + u) + eta) * (N - 1) * (1 + u)) by (apply Rmult_le_compat_r; lra).
  assert (A3 : (1 + u) * (1 + u) * (1 + u) <= 1 + 4 * u).
  { assert (0 <= u * u <= u * / 8) by (split; [apply Rmult_le_pos; lra|apply Rmult_le_compat_l; lra]).
    assert (u * (u * u) <= / 8 * (u * u)) by (apply Rmult_le_compat_r; lra). lra. }
  assert (A4 : (N - 1) * ((1 + u) * (1 + u) * (1 + u)) <= N).
  { apply Rle_trans with ((N - 1) * (1 + 4 * u)); [apply Rmult_le_compat_l; lra|]. lra. }
  set (Y := d * (N - 1) * (1 + u) * (1 + u)).
  assert (A5 : Y * (1 + u) <= D).
  { unfold Y. rewrite <- Ed. replace (d * (N - 1) * (1 + u) * (1 + u) * (1 + u)) with (d * ((N - 1) * ((1 + u) * (1 + u) * (1 + u)))) by ring.
    apply Rmult_le_compat_l; lra. }
  assert (A6 : Y <= X + eta).
  { apply Rmult_le_reg_r with (1 + u); [lra|]. apply Rle_trans with D; [exact A5|].
    assert (0 <= eta * u) by (apply Rmult_le_pos; lra). lra. }
  assert (A7 : (d * (1 + u) + eta) * (N - 1) * (1 + u) = Y + eta * ((N - 1) * (1 + u))) by (unfold Y; ring).
  assert (A8 : eta * ((N - 1) * (1 + u)) <= eta * (2 * N)) by (apply Rmult_le_compat_l; lra).
  assert (A9 : eta * 1 <= eta * N) by (apply Rmult_le_compat_l; lra).
  lra.
Qed.

(** The grid low + ((high-low)/n) * i never exceeds high, except below 1. *)
Lemma grid_real (L H : R) (n i : Z) :
  fmt H -> 0 <= L <= H -> H <= bpow radix2 64 -> (1 <= n <= 2 ^ 50)%Z -> (0 <= i < n)%Z ->
  let P := rd (rd (rd (H - L) / IZR n) * IZR i) in
  0 <= rd (H - L) <= bpow radix2 64 /\ 0 <= rd (rd (H - L) / IZR n) <= bpow radix2 64 /\ 0 <= P <= bpow radix2 65 /\
  0 <= rd (L + P) <= bpow radix2 65 /\ (rd (L + P) <= H \/ rd (L + P) < 1).
Proof.
  intros FH HL HB Hn Hi P.
  assert (Hn' : 1 <= IZR n <= IZR (2 ^ 50)) by (split; apply IZR_le; lia).
  assert (Hi' : 0 <= IZR i <= IZR n - 1).
  { split; [apply IZR_le; lia|]. rewrite <- minus_IZR. apply IZR_le. lia. }
  set (u := bpow radix2 (-53)) in *. set (eta := bpow radix2 (-1075)) in *.
  assert (Hu : u = / IZR (2 ^ 53)) by (apply bpow_m53).
  assert (He : 0 < eta) by apply bpow_gt_0.
  set (D := rd (H - L)) in *. set (S := rd (D / IZR n)) in *.
  assert (D0 : 0 <= D) by (apply rd_nonneg; lra).
  assert (DH : D <= H) by (apply rd_le_fmt; [exact FH|lra]).
  assert (D1 : D <= (H - L) * (1 + u) + eta) by (apply rd_upper; lra).
  assert (Q0 : 0 <= D / IZR n <= D).
  { split; [apply Rmult_le_pos; [exact D0|left; apply Rinv_0_lt_compat; lra]|].
    apply Rmult_le_reg_r with (IZR n); [lra|]. unfold Rdiv. rewrite Rmult_assoc, Rinv_l by lra. nra. }
  assert (S0 : 0 <= S) by (apply rd_nonneg; lra).
  assert (SD : S <= D) by (apply rd_le_fmt; [apply rd_fmt|lra]).
  assert (S1 : S <= D / IZR n * (1 + u) + eta) by (apply rd_upper; lra).
  assert (P0 : 0 <= P) by (apply rd_nonneg; nra).
  assert (P1 : P <= S * IZR i * (1 + u) + eta) by (apply rd_upper; nra).
  set (N := IZR n) in *. set (I := IZR i) in *.
  assert (U0 : 0 < u <= / 8) by (rewrite Hu; split; [apply Rinv_0_lt_compat; apply IZR_lt; reflexivity|apply Rinv_le_contravar; [lra|apply IZR_le; lia]]).
  assert (UN : N * u * 8 <= 1).
  { rewrite Hu. apply Rle_trans with (IZR (2 ^ 50) * / IZR (2 ^ 53) * 8).
    - apply Rmult_le_compat_r; [lra|]. apply Rmult_le_compat_r; [|lra]. left. apply Rinv_0_lt_compat. apply IZR_lt. reflexivity.
    - right. cbn. lra. }
  assert (PX : P <= (H - L) + 8 * N * eta) by (apply (grid_arith (H - L) D S P N I u eta); lra).
  assert (tiny : 8 * N * eta <= bpow radix2 (-1020)).
  { apply Rle_trans with (bpow radix2 3 * bpow radix2 50 * eta).
    - apply Rmult_le_compat_r; [lra|]. change (bpow radix2 3) with 8. change (bpow radix2 50) with (IZR (2 ^ 50)). nra.
    - unfold eta. rewrite <- !bpow_plus. apply bpow_le. lia. }
  assert (tiny1 : bpow radix2 (-1020) < 1 / 4) by (replace (1 / 4) with (bpow radix2 (-2)) by (cbn; lra); apply bpow_lt; lia).
  assert (V : 0 <= L + P <= H + bpow radix2 (-1020)) by lra.
  assert (B65 : bpow radix2 65 = 2 * bpow radix2 64) by (change 65%Z with (1 + 64)%Z; rewrite bpow_plus; reflexivity).
  assert (B64 : 1 <= bpow radix2 64) by (change 1 with (bpow radix2 0); apply bpow_le; lia).
  split; [lra|]. split; [lra|]. split; [lra|]. split.
  { split; [apply rd_nonneg; lra|]. apply rd_le_fmt; [apply fmt_bpow; lia|]. lra. }
  destruct (Rle_lt_dec (bpow radix2 (-900)) H) as [Hb|Hs].
  - left. apply round_N_le_midp; [typeclasses eauto|exact FH|].
    rewrite succ_eq_pos by lra. pose proof (ulp_big H Hb).
    assert (bpow radix2 (-1020) < bpow radix2 (-953)) by (apply bpow_lt; lia).
    assert (bpow radix2 (-952) = 2 * bpow radix2 (-953)) by (change (-952)%Z with (1 + -953)%Z; rewrite bpow_plus; reflexivity).
    lra.
  - right. apply Rle_lt_trans with (bpow radix2 (-1)).
    + apply rd_le_fmt; [apply fmt_bpow; lia|].
      assert (bpow radix2 (-900) < 1 / 4) by (replace (1 / 4) with (bpow radix2 (-2)) by (cbn; lra); apply bpow_lt; lia).
      replace (bpow radix2 (-1)) with (1 / 2) by (cbn; lra). lra.
    + cbn. lra.
Qed.

Lemma to_u64_mono (x y : F64) : fin x = true -> fin y = true -> 0 <= val x -> 0 <= val y ->
  (val x <= val y \/ val x < 1) -> (f64_to_u64 x <= f64_to_u64 y)%Z.
Proof.
  intros Fx Fy Hx Hy Hxy. rewrite !to_u64_fin by assumption. rewrite !Ztrunc_floor by assumption.
  assert (0 <= Zfloor (val y))%Z by (apply Zfloor_lub; exact Hy).
  assert (Zfloor (val x) <= Zfloor (val y))%Z.
  { destruct Hxy as [L|L]; [apply Zfloor_le; exact L|].
    assert (Zfloor (val x) = 0)%Z by (apply Zfloor_imp; cbn; lra). lia. }
  unfold clamp_u64. lia.
Qed.

Lemma lt_1024 x e : 0 <= x <= bpow radix2 e -> (e < 1024)%Z -> (-1074 <= e)%Z -> Rabs (rd x) < bpow radix2 1024.
Proof.
  intros [H0 H1] He He2. pose proof (rd_nonneg x H0). rewrite Rabs_pos_eq by assumption.
  apply Rle_lt_trans with (bpow radix2 e); [apply rd_le_fmt; [apply fmt_bpow; exact He2|exact H1]|]. apply bpow_lt. exact He.
Qed.

Lemma pass_bound (x : F64) (sr : nat) : Bleb (f64_ofZ 0) x = true -> (Z.of_nat sr < 2 ^ 64)%Z ->
  (f64_to_u64 x <= Z.of_nat (sr / 2)%nat)%Z -> fin x = true /\ 0 <= val x <= bpow radix2 64.
Proof.
  intros H0 Hs Hp. rewrite Nat2Z.inj_div in Hp. assert (Hq : (Z.of_nat sr / 2 < 2 ^ 63)%Z) by (apply Z.div_lt_upper_bound; lia).
  change (Z.of_nat 2) with 2%Z in Hp.
  apply nonneg_iff in H0. destruct H0 as [->|[F V]].
  - exfalso. cbn in Hp. unfold u64_max in Hp. lia.
  - split; [exact F|]. split; [exact V|]. rewrite to_u64_fin in Hp by exact F. rewrite Ztrunc_floor in Hp by exact V.
    assert (Zfloor (val x) <= 2 ^ 63)%Z by (unfold clamp_u64, u64_max in Hp; lia).
    pose proof (Zfloor_ub (val x)). apply IZR_le in H. change (bpow radix2 64) with (IZR (2 ^ 64)).
    assert (IZR (2 ^ 63) + 1 <= IZR (2 ^ 64)) by (rewrite <- (plus_IZR _ 1); apply IZR_le; lia). lra.
Qed.

Lemma grid_f64 (libm : Libm) (low high : F64) (n i sr : nat) : let num := NumF libm in
  Bleb (f64_ofZ 0) low = true -> Bleb low high = true -> (Z.of_nat sr < 2 ^ 64)%Z ->
  (f64_to_u64 high <= Z.of_nat (sr / 2)%nat)%Z -> (1 <= n)%nat -> (Z.of_nat n <= 2 ^ 50)%Z -> (i < n)%nat ->
  let h := nadd low (nmul (ndiv (nsub high low) (nofnat n)) (nofnat i)) in
  fin h = true /\ 0 <= val h <= bpow radix2 65 /\ (f64_to_u64 h <= Z.of_nat (sr / 2)%nat)%Z.
Proof.
  intros num Hlow Hlh Hsr Hny Hn1 Hn2 Hi h. destruct val_0 as [V0 F0].
  assert (Hhigh : Bleb (f64_ofZ 0) high = true).
  { apply nonneg_iff in Hlow. destruct Hlow as [->|[Fl Vl]].
    - destruct high as [|[]| |]; try discriminate. reflexivity.
    - apply nonneg_iff. destruct (fin high) eqn:Fh.
      + right. split; [reflexivity|]. apply leb_val in Hlh; [lra|assumption|assumption].
      + left. destruct high as [|[]| |]; try discriminate; try reflexivity; exfalso;
          destruct low as [|[]| |[] ? ? ?]; discriminate. }
  destruct (pass_bound high sr Hhigh Hsr Hny) as (Fh & Vh).
  assert (Fl : fin low = true).
  { apply nonneg_iff in Hlow. destruct Hlow as [->|[Fl Vl]]; [|exact Fl]. destruct high as [|[]| |]; discriminate. }
  assert (Vl : 0 <= val low) by (apply nonneg_iff in Hlow; destruct Hlow as [->|[_ Vl]]; [discriminate|exact Vl]).
  apply leb_val in Hlh; [|assumption|assumption].
  destruct (ofZ_exact (Z.of_nat n) ltac:(lia)) as (Vn & Fn & _). destruct (ofZ_exact (Z.of_nat i) ltac:(lia)) as (Vi & Fi & _).
  destruct (grid_real (val low) (val high) (Z.of_nat n) (Z.of_nat i) (val_fmt _) ltac:(lra) ltac:(lra) ltac:(lia) ltac:(lia))
    as (B1 & B2 & B3 & B4 & B5).
  assert (HnR : 1 <= IZR (Z.of_nat n)) by (apply IZR_le; lia).
  unfold h. change (@nadd F64 num) with (@Bplus 53 1024 prec53 emax1024 mode_NE).
  change (@nmul F64 num) with (@Bmult 53 1024 prec53 emax1024 mode_NE).
  change (@ndiv F64 num) with (@Bdiv 53 1024 prec53 emax1024 mode_NE).
  change (@nsub F64 num) with (@Bminus 53 1024 prec53 emax1024 mode_NE).
  change (@nofnat F64 num n) with (f64_ofZ (Z.of_nat n)). change (@nofnat F64 num i) with (f64_ofZ (Z.of_nat i)).
  assert (B : forall x e, (e < 1024)%Z -> 0 <= x <= bpow radix2 e -> Rabs x < bpow radix2 1024).
  { intros x e He Hx. rewrite Rabs_pos_eq by lra. apply Rle_lt_trans with (bpow radix2 e); [lra|]. apply bpow_lt. exact He. }
  destruct (sub_fin high low Fh Fl) as (Vd & Fd); [apply (B _ 64%Z); [lia|lra]|].
  destruct (div_fin (Bminus mode_NE high low) (f64_ofZ (Z.of_nat n)) Fd) as (Vq & Fq).
  { rewrite Vn. lra. }
  { rewrite Vd, Vn. apply (B _ 64%Z); [lia|lra]. }
  rewrite Vd, Vn in Vq.
  destruct (mul_fin (Bdiv mode_NE (Bminus mode_NE high low) (f64_ofZ (Z.of_nat n))) (f64_ofZ (Z.of_nat i)) Fq Fi) as (Vm & Fm).
  { rewrite Vq, Vi. apply (B _ 65%Z); [lia|lra]. }
  rewrite Vq, Vi in Vm.
  destruct (add_fin low (Bmult mode_NE (Bdiv mode_NE (Bminus mode_NE high low) (f64_ofZ (Z.of_nat n))) (f64_ofZ (Z.of_nat i))) Fl Fm) as (Va & Fa).
  { rewrite Vm. apply (B _ 65%Z); [lia|lra]. }
  rewrite Vm in Va. split; [exact Fa|]. rewrite Va. split; [lra|].
  eapply Z.le_trans; [|exact Hny]. apply to_u64_mono; [exact Fa|exact Fh| | |]; rewrite ?Va; lra.
Qed.

(** The carrier phase of a bounded frequency at a time within the first second: finite, and zero at the start. *)
Lemma phase_finite (libm : Libm) (h : F64) (sr i : nat) : let num := NumF libm in
  fin h = true -> 0 <= val h <= bpow radix2 65 -> (i < sr)%nat -> (Z.of_nat sr < 2 ^ 64)%Z ->
  let p := nmul (nmul (nmul (nofZ 2) npi) h) (ndiv (nofnat i) (nofnat sr)) in
  fin p = true /\ (i = 0%nat -> exists s, p = B754_zero s).
Proof.
  intros num Fh Vh Hi Hsr p.
  destruct (ofZ_round (Z.of_nat sr) ltac:(lia)) as (Vs & Fs). destruct (ofZ_round (Z.of_nat i) ltac:(lia)) as (Vi & Fi).
  assert (S1 : 1 <= rd (IZR (Z.of_nat sr))).
  { apply rd_ge_fmt; [apply (fmt_IZR 1); lia|]. apply IZR_le. lia. }
  assert (I1 : 0 <= rd (IZR (Z.of_nat i)) <= rd (IZR (Z.of_nat sr))).
  { split; [apply rd_nonneg; apply IZR_le; lia|]. apply rd_le. apply IZR_le. lia. }
  unfold p. change (@nmul F64 num) with (@Bmult 53 1024 prec53 emax1024 mode_NE).
  change (@ndiv F64 num) with (@Bdiv 53 1024 prec53 emax1024 mode_NE).
  change (@nofnat F64 num sr) with (f64_ofZ (Z.of_nat sr)). change (@nofnat F64 num i) with (f64_ofZ (Z.of_nat i)).
  change (@nofZ F64 num 2) with (f64_ofZ 2). change (@npi F64 num) with f64_pi.
  assert (Q : 0 <= val (f64_ofZ (Z.of_nat i)) / val (f64_ofZ (Z.of_nat sr)) <= bpow radix2 0).
  { rewrite Vs, Vi. change (bpow radix2 0) with 1. split.
    - apply Rmult_le_pos; [lra|]. left. apply Rinv_0_lt_compat. lra.
    - apply Rmult_le_reg_r with (rd (IZR (Z.of_nat sr))); [lra|]. unfold Rdiv. rewrite Rmult_assoc, Rinv_l by lra. lra. }
  destruct (div_fin (f64_ofZ (Z.of_nat i)) (f64_ofZ (Z.of_nat sr)) Fi) as (Vq & Fq).
  { rewrite Vs. lra. }
  { apply (lt_1024 _ 0); [exact Q|lia|lia]. }
  assert (Q1 : 0 <= val (Bdiv mode_NE (f64_ofZ (Z.of_nat i)) (f64_ofZ (Z.of_nat sr))) <= 1).
  { rewrite Vq. split; [apply rd_nonneg; lra|]. apply rd_le_fmt; [apply (fmt_IZR 1); lia|]. apply Q. }
  assert (TP : fin (Bmult mode_NE (f64_ofZ 2) f64_pi) = true) by (vm_compute; reflexivity).
  assert (TV : 0 <= val (Bmult mode_NE (f64_ofZ 2) f64_pi) <= bpow radix2 3).
  { destruct (ofZ_exact 8 ltac:(lia)) as (V8 & F8 & _). destruct val_0 as [V0 F0].
    change (bpow radix2 3) with 8. rewrite <- V8, <- V0. split.
    - apply leb_val; [exact F0|exact TP|]. vm_compute. reflexivity.
    - apply leb_val; [exact TP|exact F8|]. vm_compute. reflexivity. }
  set (tp := Bmult mode_NE (f64_ofZ 2) f64_pi) in *.
  assert (B68 : bpow radix2 68 = bpow radix2 3 * bpow radix2 65) by (rewrite <- bpow_plus; reflexivity).
  assert (M0 : 0 <= val tp * val h <= bpow radix2 68).
  { split; [apply Rmult_le_pos; lra|]. rewrite B68. apply Rmult_le_compat; lra. }
  destruct (mul_fin tp h TP Fh) as (Vm & Fm).
  { apply (lt_1024 _ 68); [exact M0|lia|lia]. }
  assert (M1 : 0 <= val (Bmult mode_NE tp h) <= bpow radix2 68).
  { rewrite Vm. split; [apply rd_nonneg; lra|]. apply rd_le_fmt; [apply fmt_bpow; lia|lra]. }
  set (q := Bdiv mode_NE (f64_ofZ (Z.of_nat i)) (f64_ofZ (Z.of_nat sr))) in *.
  set (c := Bmult mode_NE tp h) in *.
  destruct (mul_fin c q Fm Fq) as (Vp & Fp).
  { apply (lt_1024 _ 68); [|lia|lia]. split; [apply Rmult_le_pos; lra|].
    replace (bpow radix2 68) with (bpow radix2 68 * 1) by ring. apply Rmult_le_compat; lra. }
  split; [exact Fp|]. intros Ei.
  assert (Z0 : val (Bmult mode_NE c q) = 0).
  { rewrite Vp, Vq. subst i. replace (val (f64_ofZ (Z.of_nat 0))) with 0 by (symmetry; apply val_0).
    unfold Rdiv. rewrite Rmult_0_l, rd_0, Rmult_0_r, rd_0. reflexivity. }
  destruct (Bmult mode_NE c q) as [s|s| |s m e He]; try discriminate; [exists s; reflexivity|].
  exfalso. unfold val in Z0. cbn in Z0. apply eq_0_F2R in Z0. cbn in Z0. destruct s; discriminate.
Qed.
