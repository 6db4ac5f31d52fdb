(** Where [ssca_mapped] puts each entry: exact arithmetic and binary64. *)
From Coq Require Import List Arith ZArith Reals Bool Lia Lra Psatz.
From Flocq Require Import Core BinarySingleNaN.
From Verif Require Import Base Num F64Lib LibModel LibFloat SscaModel.
Import ListNotations.

(** ** Exact arithmetic *)
Local Open Scope R_scope.

Lemma quot_u64 a b : (0 <= a)%Z -> (0 < b)%Z -> (a / b <= u64_max)%Z ->
  @nto_u64 R NumR (IZR a / IZR b) = (a / b)%Z.
Proof.
  intros Ha Hb Hm. cbn [nto_u64 NumR].
  assert (B : 0 < IZR b) by (apply (IZR_lt 0); exact Hb). assert (A : 0 <= IZR a) by (apply (IZR_le 0); exact Ha).
  rewrite Ztrunc_floor.
  - rewrite Zfloor_div by lia. unfold clamp_u64. pose proof (Z.div_pos a b Ha Hb). lia.
  - unfold Rdiv. apply Rmult_le_pos; [exact A|]. left. apply Rinv_0_lt_compat. exact B.
Qed.

Definition cell_k (n np q_p k_p : nat) : nat := ((np * n + k_p * n - q_p * np) / (2 * n))%nat.
Definition cell_q (n np q_p k_p : nat) : nat := ((n * k_p + q_p * np) / np)%nat.

Lemma cell_k_lt n np q k : (1 <= np)%nat -> (1 <= n)%nat -> (k < np)%nat -> (cell_k n np q k < np)%nat.
Proof. intros Hp Hn Hk. unfold cell_k. apply Nat.div_lt_upper_bound; [lia|]. nia. Qed.
Lemma cell_q_lt n np q k : (1 <= np)%nat -> (1 <= n)%nat -> (k < np)%nat -> (q < n)%nat -> (cell_q n np q k < 2 * n)%nat.
Proof. intros Hp Hn Hk Hq. unfold cell_q. apply Nat.div_lt_upper_bound; [lia|]. nia. Qed.

Lemma cell_R n np q k : (1 <= np)%nat -> (1 <= n)%nat -> (k < np)%nat -> (q < n)%nat ->
  (2 * Z.of_nat n <= u64_max)%Z -> (Z.of_nat np <= u64_max)%Z ->
  @ssca_cell R NumR n np q k = (cell_k n np q k, cell_q n np q k).
Proof.
  intros Hp Hn Hk Hq Bn Bp. unfold ssca_cell, nofnat, nlit.
  assert (N : 0 < IZR (Z.of_nat n)) by (apply (IZR_lt 0); lia). assert (P : 0 < IZR (Z.of_nat np)) by (apply (IZR_lt 0); lia).
  pose proof (cell_k_lt n np q k Hp Hn Hk) as LK. pose proof (cell_q_lt n np q k Hp Hn Hk Hq) as LQ.
  assert (SUB : (q * np <= np * n)%nat) by nia.
  f_equal.
  - replace (@nmul R NumR (IZR (Z.of_nat np)) _) with (IZR (Z.of_nat (np * n + k * n - q * np)) / IZR (Z.of_nat (2 * n))).
    2: { cbn [nofZ nmul nadd nsub ndiv NumR]. rewrite Nat2Z.inj_sub by lia. rewrite Nat2Z.inj_add, !Nat2Z.inj_mul.
      rewrite minus_IZR, plus_IZR, !mult_IZR. change (IZR (Z.of_nat 2)) with 2. field. lra. }
    rewrite quot_u64; [rewrite <- Nat2Z.inj_div, Nat2Z.id; reflexivity|lia|lia|].
    rewrite <- Nat2Z.inj_div. fold (cell_k n np q k). lia.
  - replace (@nmul R NumR (IZR (Z.of_nat n)) _) with (IZR (Z.of_nat (n * k + q * np)) / IZR (Z.of_nat np)).
    2: { cbn [nofZ nmul nadd nsub ndiv NumR]. rewrite Nat2Z.inj_add, !Nat2Z.inj_mul, plus_IZR, !mult_IZR. field. lra. }
    rewrite quot_u64; [rewrite <- Nat2Z.inj_div, Nat2Z.id; reflexivity|lia|lia|].
    rewrite <- Nat2Z.inj_div. fold (cell_q n np q k). lia.
Qed.

(** When np divides n, no two entries share a cell. *)
Lemma cell_inj n np q1 k1 q2 k2 : (1 <= np)%nat -> (1 <= n)%nat -> (exists r, n = r * np)%nat ->
  (k1 < np)%nat -> (q1 < n)%nat -> (k2 < np)%nat -> (q2 < n)%nat ->
  cell_k n np q1 k1 = cell_k n np q2 k2 -> cell_q n np q1 k1 = cell_q n np q2 k2 -> q1 = q2 /\ k1 = k2.
Proof.
  intros Hp Hn [r ->] K1 Q1 K2 Q2 EK EQ. unfold cell_k, cell_q in *.
  assert (CQ : forall q k, ((r * np * k + q * np) / np = r * k + q)%nat).
  { intros q k. replace (r * np * k + q * np)%nat with ((r * k + q) * np)%nat by ring. apply Nat.div_mul. lia. }
  rewrite !CQ in EQ.
  assert (CK : forall q k, (k < np)%nat -> (q < r * np)%nat ->
     ((np * (r * np) + k * (r * np) - q * np) / (2 * (r * np)) = (np * r + k * r - q) / (2 * r))%nat).
  { intros q k Hk Hq. replace (np * (r * np) + k * (r * np) - q * np)%nat with ((np * r + k * r - q) * np)%nat by nia.
    replace (2 * (r * np))%nat with ((2 * r) * np)%nat by ring. apply Nat.div_mul_cancel_r; nia. }
  rewrite !CK in EK by assumption.
  (* both numerators are 2 r k + (np r - (r k + q)) *)
  assert (R1 : (1 <= r)%nat) by nia.
  destruct (Nat.lt_trichotomy k1 k2) as [L|[E|L]].
  - exfalso. assert (G : (np * r + k2 * r - q2 = (np * r + k1 * r - q1) + (k2 - k1) * (2 * r))%nat) by nia.
    rewrite G, Nat.div_add in EK by lia. lia.
  - subst k2. split; lia.
  - exfalso. assert (G : (np * r + k1 * r - q1 = (np * r + k2 * r - q2) + (k1 - k2) * (2 * r))%nat) by nia.
    rewrite G, Nat.div_add in EK by lia. lia.
Qed.

(** ** Binary64 *)
Lemma rd_small x : Rabs x <= IZR (2 ^ 60) -> Rabs (rd x) < bpow radix2 1024.
Proof.
  intros Hx. apply Rle_lt_trans with (bpow radix2 60); [|apply bpow_lt; lia].
  change (IZR (2 ^ 60)) with (bpow radix2 60) in Hx. apply Rabs_le_inv in Hx. apply Rabs_le. split.
  - apply rd_ge_fmt; [apply generic_format_opp, fmt_bpow; lia|apply Hx].
  - apply rd_le_fmt; [apply fmt_bpow; lia|apply Hx].
Qed.

Lemma frac01 a b : (0 <= a <= b)%Z -> (0 < b)%Z -> 0 <= IZR a / IZR b <= 1.
Proof.
  intros Ha Hb. assert (B : 0 < IZR b) by (apply (IZR_lt 0); exact Hb).
  assert (A : 0 <= IZR a <= IZR b) by (split; apply IZR_le; lia).
  split; [apply Rmult_le_pos; [lra|left; apply Rinv_0_lt_compat; exact B]|].
  apply Rmult_le_reg_r with (IZR b); [exact B|]. unfold Rdiv. rewrite Rmult_assoc, Rinv_l by lra. lra.
Qed.

Lemma fmt_half : fmt (1 / 2).
Proof. replace (1 / 2) with (IZR 1 * bpow radix2 (-1)); [apply fmt_scaled; lia|]. change (bpow radix2 (-1)) with (/ 2). lra. Qed.

(** The two quantities truncated, in binary64. *)
Definition kval (n np q k : nat) : R :=
  let z i := IZR (Z.of_nat i) in
  rd (z np * rd (rd (rd (z k / (2 * z np)) - rd (z q / (2 * z n))) + 1 / 2)).
Definition qval (n np q k : nat) : R :=
  let z i := IZR (Z.of_nat i) in
  rd (z n * rd (rd (z k / z np) + rd (z q / z n))).

Lemma cell_f64 libm n np q k : (1 <= np)%nat -> (1 <= n)%nat -> (k < np)%nat -> (q < n)%nat ->
  (Z.of_nat n <= 2 ^ 52)%Z -> (Z.of_nat np <= 2 ^ 52)%Z ->
  @ssca_cell F64 (NumF libm) n np q k = (Z.to_nat (Ztrunc (kval n np q k)), Z.to_nat (Ztrunc (qval n np q k))) /\
  0 <= kval n np q k <= IZR (Z.of_nat np) /\ 0 <= qval n np q k <= 2 * IZR (Z.of_nat n).
Proof.
  intros Hp Hn Hk Hq Bn Bp.
  assert (X : forall i, (Z.of_nat i <= 2 ^ 52)%Z -> val (f64_ofZ (Z.of_nat i)) = IZR (Z.of_nat i) /\ fin (f64_ofZ (Z.of_nat i)) = true).
  { intros i Hi. destruct (ofZ_exact (Z.of_nat i)) as (A & B & _); [lia|auto]. }
  destruct (X n Bn) as [Vn Fn]. destruct (X np Bp) as [Vp Fp].
  destruct (X q ltac:(lia)) as [Vq Fq]. destruct (X k ltac:(lia)) as [Vk Fk].
  destruct (ofZ_exact 2) as (V2 & F2 & _); [cbn; lia|]. destruct (ofZ_exact 1) as (V1 & F1 & _); [cbn; lia|].
  set (zn := Z.of_nat n) in *. set (zp := Z.of_nat np) in *. set (zq := Z.of_nat q) in *. set (zk := Z.of_nat k) in *.
  assert (Pn : 1 <= IZR zn) by (apply (IZR_le 1); lia). assert (Pp : 1 <= IZR zp) by (apply (IZR_le 1); lia).
  assert (Un : IZR zn <= IZR (2 ^ 52)) by (apply IZR_le; exact Bn). assert (Up : IZR zp <= IZR (2 ^ 52)) by (apply IZR_le; exact Bp).
  change (IZR (2 ^ 52)) with 4503599627370496 in Un, Up.
  assert (SM : forall x, Rabs x <= 9007199254740992 -> Rabs (rd x) < bpow radix2 1024).
  { intros x Hx. apply rd_small. change (IZR (2 ^ 60)) with 1152921504606846976. lra. }
  assert (AB : forall x b, 0 <= x <= b -> Rabs x <= b) by (intros x b Hx; apply Rabs_le; lra).
  (* 2 np and 2 n are exact *)
  assert (D : forall z, (0 <= z <= 2 ^ 52)%Z -> rd (IZR 2 * IZR z) = 2 * IZR z).
  { intros z Hz. rewrite <- mult_IZR. apply rd_id, fmt_IZR. lia. }
  destruct (mul_fin (f64_ofZ 2) (f64_ofZ zp) F2 Fp) as [V2p F2p]. { rewrite V2, Vp. apply SM, AB. lra. }
  destruct (mul_fin (f64_ofZ 2) (f64_ofZ zn) F2 Fn) as [V2n F2n]. { rewrite V2, Vn. apply SM, AB. lra. }
  rewrite V2, Vp, D in V2p by lia. rewrite V2, Vn, D in V2n by lia.
  (* the four quotients *)
  assert (Q1 : 0 <= IZR zk / (2 * IZR zp) <= 1 / 2).
  { destruct (frac01 zk zp) as [L U]; [lia|lia|]. replace (IZR zk / (2 * IZR zp)) with (IZR zk / IZR zp / 2) by (field; lra). lra. }
  assert (Q2 : 0 <= IZR zq / (2 * IZR zn) <= 1 / 2).
  { destruct (frac01 zq zn) as [L U]; [lia|lia|]. replace (IZR zq / (2 * IZR zn)) with (IZR zq / IZR zn / 2) by (field; lra). lra. }
  assert (Q3 : 0 <= IZR zk / IZR zp <= 1) by (apply frac01; lia).
  assert (Q4 : 0 <= IZR zq / IZR zn <= 1) by (apply frac01; lia).
  destruct (div_fin (f64_ofZ zk) (Bmult mode_NE (f64_ofZ 2) (f64_ofZ zp)) Fk) as [W1 G1]; [rewrite V2p; lra|rewrite V2p, Vk; apply SM, AB; lra|].
  destruct (div_fin (f64_ofZ zq) (Bmult mode_NE (f64_ofZ 2) (f64_ofZ zn)) Fq) as [W2 G2]; [rewrite V2n; lra|rewrite V2n, Vq; apply SM, AB; lra|].
  destruct (div_fin (f64_ofZ zk) (f64_ofZ zp) Fk) as [W3 G3]; [rewrite Vp; lra|rewrite Vp, Vk; apply SM, AB; lra|].
  destruct (div_fin (f64_ofZ zq) (f64_ofZ zn) Fq) as [W4 G4]; [rewrite Vn; lra|rewrite Vn, Vq; apply SM, AB; lra|].
  rewrite Vk, V2p in W1. rewrite Vq, V2n in W2. rewrite Vk, Vp in W3. rewrite Vq, Vn in W4.
  assert (F0 : fmt 0) by apply generic_format_0.
  assert (R1 : forall x y, fmt y -> 0 <= x <= y -> 0 <= rd x <= y).
  { intros x y Hy Hx. split; [apply rd_ge_fmt; [exact F0|lra]|apply rd_le_fmt; [exact Hy|lra]]. }
  pose proof (R1 _ _ fmt_half Q1) as B1. pose proof (R1 _ _ fmt_half Q2) as B2.
  assert (f1 : fmt 1) by (apply (fmt_IZR 1); cbn; lia).
  assert (f2 : fmt 2) by (apply (fmt_IZR 2); cbn; lia).
  pose proof (R1 _ _ f1 Q3) as B3. pose proof (R1 _ _ f1 Q4) as B4.
  set (d1 := Bdiv mode_NE (f64_ofZ zk) (Bmult mode_NE (f64_ofZ 2) (f64_ofZ zp))) in *.
  set (d2 := Bdiv mode_NE (f64_ofZ zq) (Bmult mode_NE (f64_ofZ 2) (f64_ofZ zn))) in *.
  set (d3 := Bdiv mode_NE (f64_ofZ zk) (f64_ofZ zp)) in *. set (d4 := Bdiv mode_NE (f64_ofZ zq) (f64_ofZ zn)) in *.
  (* f and f + 1/2 *)
  destruct (sub_fin d1 d2 G1 G2) as [W5 G5]. { apply SM. rewrite W1, W2. apply Rabs_le. lra. }
  rewrite W1, W2 in W5.
  assert (B5 : - (1 / 2) <= rd (rd (IZR zk / (2 * IZR zp)) - rd (IZR zq / (2 * IZR zn))) <= 1 / 2).
  { split; [apply rd_ge_fmt; [apply generic_format_opp, fmt_half|lra]|apply rd_le_fmt; [exact fmt_half|lra]]. }
  destruct (div_fin (f64_ofZ 1) (f64_ofZ 2) F1) as [Wh Gh]; [rewrite V2; lra|rewrite V1, V2; apply SM, AB; lra|].
  rewrite V1, V2, (rd_id _ fmt_half) in Wh.
  set (h := Bdiv mode_NE (f64_ofZ 1) (f64_ofZ 2)) in *.
  set (f := Bminus mode_NE d1 d2) in *.
  destruct (add_fin f h G5 Gh) as [W6 G6]. { apply SM. rewrite W5, Wh. apply Rabs_le. lra. }
  rewrite W5, Wh in W6.
  assert (B6 : 0 <= rd (rd (rd (IZR zk / (2 * IZR zp)) - rd (IZR zq / (2 * IZR zn))) + 1 / 2) <= 1) by (apply R1; [exact f1|lra]).
  set (vf := rd (rd (rd (IZR zk / (2 * IZR zp)) - rd (IZR zq / (2 * IZR zn))) + 1 / 2)) in *.
  assert (B7 : 0 <= IZR zp * vf <= IZR zp) by nra.
  destruct (mul_fin (f64_ofZ zp) (Bplus mode_NE f h) Fp G6) as [W7 G7]. { apply SM. rewrite Vp, W6. apply AB. lra. }
  rewrite Vp, W6 in W7.
  (* a *)
  destruct (add_fin d3 d4 G3 G4) as [W8 G8]. { apply SM. rewrite W3, W4. apply AB. lra. }
  rewrite W3, W4 in W8.
  assert (B8 : 0 <= rd (rd (IZR zk / IZR zp) + rd (IZR zq / IZR zn)) <= 2) by (apply R1; [exact f2|lra]).
  set (va := rd (rd (IZR zk / IZR zp) + rd (IZR zq / IZR zn))) in *.
  assert (B9 : 0 <= IZR zn * va <= 2 * IZR zn) by nra.
  destruct (mul_fin (f64_ofZ zn) (Bplus mode_NE d3 d4) Fn G8) as [W9 G9]. { apply SM. rewrite Vn, W8. apply AB. lra. }
  rewrite Vn, W8 in W9.
  assert (C7 : 0 <= rd (IZR zp * vf) <= IZR zp) by (apply R1; [apply fmt_IZR; lia|exact B7]).
  assert (C9 : 0 <= rd (IZR zn * va) <= 2 * IZR zn).
  { apply R1; [|exact B9]. rewrite <- (D zn) by lia. apply rd_fmt. }
  split; [|split; [exact C7|exact C9]].
  assert (CL : forall x, fin x = true -> 0 <= val x <= 9007199254740992 -> f64_to_u64 x = Ztrunc (val x)).
  { intros x Fx [L U]. rewrite to_u64_fin by exact Fx. unfold clamp_u64, u64_max.
    assert (T0 : (0 <= Ztrunc (val x))%Z) by (rewrite <- (Ztrunc_IZR 0); apply Ztrunc_le; exact L).
    assert (T1 : (Ztrunc (val x) <= 2 ^ 53)%Z).
    { rewrite <- (Ztrunc_IZR (2 ^ 53)). apply Ztrunc_le. exact U. }
    pose proof two53_lt. lia. }
  change (@ssca_cell F64 (NumF libm) n np q k) with
    (Z.to_nat (f64_to_u64 (Bmult mode_NE (f64_ofZ zp) (Bplus mode_NE f h))),
     Z.to_nat (f64_to_u64 (Bmult mode_NE (f64_ofZ zn) (Bplus mode_NE d3 d4)))).
  rewrite !CL by (try assumption; rewrite ?W7, ?W9; lra).
  rewrite W7, W9. reflexivity.
Qed.

Lemma trunc_le x (m : nat) : 0 <= x <= IZR (Z.of_nat m) -> (Z.to_nat (Ztrunc x) <= m)%nat.
Proof.
  intros [L U]. assert (T : (Ztrunc x <= Z.of_nat m)%Z).
  { rewrite <- (Ztrunc_IZR (Z.of_nat m)). apply Ztrunc_le. exact U. }
  lia.
Qed.

Lemma cell_f64_bounds libm n np q k : (1 <= np)%nat -> (1 <= n)%nat -> (k < np)%nat -> (q < n)%nat ->
  (Z.of_nat n <= 2 ^ 52)%Z -> (Z.of_nat np <= 2 ^ 52)%Z ->
  (fst (@ssca_cell F64 (NumF libm) n np q k) <= np)%nat /\ (snd (@ssca_cell F64 (NumF libm) n np q k) <= 2 * n)%nat.
Proof.
  intros Hp Hn Hk Hq Bn Bp. destruct (cell_f64 libm n np q k) as (E & B1 & B2); try assumption.
  rewrite E. cbn [fst snd]. split; apply trunc_le; [exact B1|].
  rewrite Nat2Z.inj_mul, mult_IZR. exact B2.
Qed.

(** Powers of two: nothing is rounded. *)
Lemma cell_f64_pow2 libm a b q k : (b < a)%nat -> (a <= 52)%nat -> (k < 2 ^ b)%nat -> (q < 2 ^ a)%nat ->
  @ssca_cell F64 (NumF libm) (2 ^ a) (2 ^ b) q k = (cell_k (2 ^ a) (2 ^ b) q k, cell_q (2 ^ a) (2 ^ b) q k).
Proof.
  intros Hba Ha Hk Hq.
  assert (PZ : forall e, Z.of_nat (2 ^ e) = (2 ^ Z.of_nat e)%Z) by (intros e; rewrite Nat2Z.inj_pow; reflexivity).
  assert (P1 : forall e, (1 <= 2 ^ e)%nat) by (intros e; pose proof (Nat.pow_nonzero 2 e); lia).
  assert (LE : forall e, (e <= 52)%nat -> (Z.of_nat (2 ^ e) <= 2 ^ 52)%Z).
  { intros e He. rewrite PZ. apply Z.pow_le_mono_r; lia. }
  destruct (cell_f64 libm (2 ^ a) (2 ^ b) q k) as (E & _ & _); try apply P1; try assumption; try (apply LE; lia).
  rewrite E. clear E.
  pose proof (cell_R (2 ^ a) (2 ^ b) q k (P1 b) (P1 a) Hk Hq) as CR.
  rewrite <- CR.
  2,3: pose proof (LE a Ha); pose proof (LE b ltac:(lia)); unfold u64_max; lia.
  clear CR.
  assert (BP : forall e, IZR (Z.of_nat (2 ^ e)) = bpow radix2 (Z.of_nat e)).
  { intros e. rewrite PZ, <- (IZR_Zpower radix2) by lia. reflexivity. }
  assert (EX : forall z e, (Z.abs z <= 2 ^ 53)%Z -> (e <= 60)%nat -> fmt (IZR z * bpow radix2 (- Z.of_nat e))).
  { intros z e Hz He. apply fmt_scaled; [exact Hz|lia]. }
  set (zk := Z.of_nat k). set (zq := Z.of_nat q).
  assert (Bk : (0 <= zk < 2 ^ Z.of_nat b)%Z) by (unfold zk; rewrite <- PZ; lia).
  assert (Bq : (0 <= zq < 2 ^ Z.of_nat a)%Z) by (unfold zq; rewrite <- PZ; lia).
  assert (La : (2 ^ Z.of_nat a <= 2 ^ 52)%Z) by (apply Z.pow_le_mono_r; lia).
  assert (Lb : (2 ^ Z.of_nat b * 2 <= 2 ^ Z.of_nat a)%Z).
  { replace (Z.of_nat a) with (Z.of_nat b + 1 + (Z.of_nat a - Z.of_nat b - 1))%Z by lia. rewrite !Z.pow_add_r by lia.
    assert (0 < 2 ^ Z.of_nat b)%Z by (apply Z.pow_pos_nonneg; lia).
    assert (0 < 2 ^ (Z.of_nat a - Z.of_nat b - 1))%Z by (apply Z.pow_pos_nonneg; lia). nia. }
  set (r := (2 ^ (Z.of_nat a - Z.of_nat b))%Z).
  assert (Er : (2 ^ Z.of_nat a = r * 2 ^ Z.of_nat b)%Z) by (unfold r; rewrite <- Z.pow_add_r by lia; f_equal; lia).
  assert (Pr : (0 < r)%Z) by (apply Z.pow_pos_nonneg; lia).
  assert (PB : forall e, 0 < bpow radix2 e) by (intros e; apply bpow_gt_0).
  set (A := bpow radix2 (Z.of_nat a)). set (B := bpow radix2 (Z.of_nat b)).
  assert (EA : bpow radix2 (- Z.of_nat a) = / A) by apply bpow_opp.
  assert (EB : bpow radix2 (- Z.of_nat b) = / B) by apply bpow_opp.
  assert (PA : 0 < A) by apply PB. assert (PBB : 0 < B) by apply PB.
  assert (EA1 : bpow radix2 (- Z.of_nat (a + 1)) = / (2 * A)).
  { rewrite Nat2Z.inj_add. replace (- (Z.of_nat a + Z.of_nat 1))%Z with (- (Z.of_nat a + 1))%Z by lia.
    rewrite bpow_opp, bpow_plus. change (bpow radix2 1) with 2. fold A. f_equal. ring. }
  assert (EB1 : bpow radix2 (- Z.of_nat (b + 1)) = / (2 * B)).
  { rewrite Nat2Z.inj_add. replace (- (Z.of_nat b + Z.of_nat 1))%Z with (- (Z.of_nat b + 1))%Z by lia.
    rewrite bpow_opp, bpow_plus. change (bpow radix2 1) with 2. fold B. f_equal. ring. }
  assert (EAB : A = IZR r * B).
  { unfold A, B. rewrite <- !(IZR_Zpower radix2) by lia. change (radix2 ^ Z.of_nat a)%Z with (2 ^ Z.of_nat a)%Z.
    change (radix2 ^ Z.of_nat b)%Z with (2 ^ Z.of_nat b)%Z. rewrite Er, mult_IZR. reflexivity. }
  assert (ZA : A = IZR (2 ^ Z.of_nat a)) by (unfold A; rewrite <- (IZR_Zpower radix2) by lia; reflexivity).
  assert (Nr : IZR r <> 0) by (apply IZR_neq; lia).
  assert (KV : kval (2 ^ a) (2 ^ b) q k = B * (IZR zk / (2 * B) - IZR zq / (2 * A) + 1 / 2)).
  { unfold kval. rewrite !BP. fold A B zk zq.
    rewrite (rd_id (IZR zk / (2 * B))). 2: { unfold Rdiv. rewrite <- EB1. apply EX; lia. }
    rewrite (rd_id (IZR zq / (2 * A))). 2: { unfold Rdiv. rewrite <- EA1. apply EX; lia. }
    rewrite (rd_id (IZR zk / (2 * B) - IZR zq / (2 * A))).
    2: { replace (IZR zk / (2 * B) - IZR zq / (2 * A)) with (IZR (zk * r - zq) * / (2 * A)).
         - rewrite <- EA1. apply EX; nia.
         - rewrite minus_IZR, mult_IZR, EAB. field. lra. }
    rewrite (rd_id (IZR zk / (2 * B) - IZR zq / (2 * A) + 1 / 2)).
    2: { replace (IZR zk / (2 * B) - IZR zq / (2 * A) + 1 / 2) with (IZR (zk * r - zq + 2 ^ Z.of_nat a) * / (2 * A)).
         - rewrite <- EA1. apply EX; nia.
         - rewrite plus_IZR, minus_IZR, mult_IZR, <- ZA, EAB. field. lra. }
    apply rd_id. replace (B * (IZR zk / (2 * B) - IZR zq / (2 * A) + 1 / 2)) with
      (IZR (zk * r - zq + 2 ^ Z.of_nat a) * bpow radix2 (- Z.of_nat (a - b + 1))).
    - apply EX; [nia|lia].
    - replace (- Z.of_nat (a - b + 1))%Z with (Z.of_nat b + - Z.of_nat (a + 1))%Z by lia. rewrite bpow_plus, EA1. fold B.
      rewrite plus_IZR, minus_IZR, mult_IZR, <- ZA, EAB. field. lra. }
  assert (QV : qval (2 ^ a) (2 ^ b) q k = A * (IZR zk / B + IZR zq / A)).
  { unfold qval. rewrite !BP. fold A B zk zq.
    rewrite (rd_id (IZR zk / B)). 2: { unfold Rdiv. rewrite <- EB. apply EX; lia. }
    rewrite (rd_id (IZR zq / A)). 2: { unfold Rdiv. rewrite <- EA. apply EX; lia. }
    rewrite (rd_id (IZR zk / B + IZR zq / A)).
    2: { replace (IZR zk / B + IZR zq / A) with (IZR (zk * r + zq) * / A).
         - rewrite <- EA. apply EX; nia.
         - rewrite plus_IZR, mult_IZR, EAB. field. lra. }
    apply rd_id. replace (A * (IZR zk / B + IZR zq / A)) with (IZR (zk * r + zq)).
    - apply fmt_IZR. nia.
    - rewrite plus_IZR, mult_IZR, EAB. field. lra. }
  rewrite KV, QV. unfold ssca_cell. cbn [nofZ nmul nadd nsub ndiv NumR nofnat nlit nto_u64].
  assert (CL : forall x, 0 <= x <= IZR (2 ^ 53) -> clamp_u64 (Ztrunc x) = Ztrunc x).
  { intros x [L U]. apply Ztrunc_le in L, U. rewrite Ztrunc_IZR in L, U. unfold clamp_u64, u64_max. pose proof two53_lt. lia. }
  unfold nofnat, nlit. cbn [nofZ nmul nadd nsub ndiv NumR nto_u64]. rewrite !BP. fold A B zk zq.
  assert (UA : A <= IZR (2 ^ 52)) by (rewrite ZA; apply IZR_le; exact La).
  assert (UB : 2 * B <= A).
  { replace (2 * B) with (IZR (2 ^ Z.of_nat b * 2)); [rewrite ZA; apply IZR_le; exact Lb|].
    rewrite mult_IZR. unfold B. rewrite <- (IZR_Zpower radix2) by lia. change (radix2 ^ Z.of_nat b)%Z with (2 ^ Z.of_nat b)%Z. ring. }
  assert (KB : 0 <= IZR zk / B <= 1).
  { unfold B. rewrite <- (IZR_Zpower radix2) by lia. apply frac01; change (radix2 ^ Z.of_nat b)%Z with (2 ^ Z.of_nat b)%Z; lia. }
  assert (QA : 0 <= IZR zq / A <= 1) by (rewrite ZA; apply frac01; lia).
  change (IZR (2 ^ 52)) with 4503599627370496 in UA.
  assert (I1 : IZR zk / (2 * B) = IZR zk / B / 2) by (field; lra).
  assert (I2 : IZR zq / (2 * A) = IZR zq / A / 2) by (field; lra).
  rewrite !CL; [reflexivity| |].
  - change (IZR (2 ^ 53)) with 9007199254740992. nra.
  - change (IZR (2 ^ 53)) with 9007199254740992. rewrite I1, I2. set (x := IZR zk / B) in *. set (y := IZR zq / A) in *. nra.
Qed.
