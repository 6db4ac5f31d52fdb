(** The FSK transmitter and receiver of src/fm.rs in binary64: rounding errors. *)
From Coq Require Import List Arith ZArith Reals Bool Lia Lra Psatz.
From Flocq Require Import Core BinarySingleNaN.
From Verif Require Import Base IterTheory IterModel IterProofs Spec SpecR Tab Num F64Lib LibModel LibFloat LibReal
  ChaosModel ChaosProofs ChaosMod PskModel PskChain PskFloat RSums PskReal FhFloat FloatSum FskModel FskReal Props_Fsk Props_Pass Props_PassF
  Props_FskNoise Props_Cdma OfdmPassF.
Import ListNotations.
Local Open Scope R_scope.

Lemma u53_tiny : 0 < u53 <= / 1099511627776.
Proof. split; [exact u53_pos|exact u53_small]. Qed.

(** 1 + e times 1 + f. *)
Lemma rel2 e f c d : Rabs e <= c -> Rabs f <= d -> c <= 1 / 100 -> d <= 1 / 100 -> Rabs ((1 + e) * (1 + f) - 1) <= c + d + c * d.
Proof.
  intros He Hf Hc Hd. replace ((1 + e) * (1 + f) - 1) with (e + f + e * f) by ring.
  eapply Rle_trans; [apply Rabs_triang|]. rewrite Rabs_mult.
  assert (Rabs e * Rabs f <= c * d) by (apply Rmult_le_compat; try apply Rabs_pos; assumption).
  pose proof (Rabs_triang e f). lra.
Qed.

(** The frequency of a tone: fc + fc/40 or fc - fc/40. *)
Lemma freq_err (libm : Libm) (fc : F64) (b : bool) : let num := NumF libm in
  fin fc = true -> 1 / 2 <= Rabs (val fc) <= bpow radix2 500 ->
  let h := ndiv (nmul (nlit 5 100) fc) (nofZ 2) in
  let f := if b then nadd fc h else nsub fc h in
  let f' := nadd fc (nmul (bit_to_nrz b) h) in
  fin h = true /\ (fin f' = true /\ val f' = val f) /\ fin f = true /\ exists e, Rabs e <= 4 * u53 /\ val f = val fc * ((if b then 41 else 39) / 40) * (1 + e).
Proof.
  intros num Ff Bf h f f'. pose proof u53_tiny as [U US].
  assert (L1022 : bpow radix2 (-1022) <= bpow radix2 (-60)) by (apply bpow_le; lia).
  assert (L60 : bpow radix2 (-60) <= / 1099511627776) by (change (/ 1099511627776) with (bpow radix2 (-40)); apply bpow_le; lia).
  assert (P500 : 1 <= bpow radix2 500) by (change 1 with (bpow radix2 0); apply bpow_le; lia).
  assert (P1000 : forall x, Rabs x <= 4 * bpow radix2 500 -> Rabs x <= bpow radix2 1000).
  { intros x Hx. apply Rle_trans with (1 := Hx). apply Rle_trans with (bpow radix2 (2 + 500)); [rewrite bpow_plus; change (bpow radix2 2) with 4; lra|].
    apply bpow_le. lia. }
  destruct (ofZ_exact 5 ltac:(lia)) as (V5 & F5 & _). destruct (ofZ_exact 100 ltac:(lia)) as (V100 & F100 & _).
  destruct (ofZ_exact 2 ltac:(lia)) as (V2 & F2 & _).
  (* 0.05 *)
  destruct (rd_rel (5 / 100)) as (e1 & He1 & E1); [right; rewrite Rabs_pos_eq by lra; lra|].
  destruct (div_fin (f64_ofZ 5) (f64_ofZ 100) F5) as [VL FL].
  { rewrite V100. lra. }
  { rewrite V5, V100. apply pow_1024. apply P1000. rewrite Rabs_pos_eq; lra. }
  rewrite V5, V100, E1 in VL. change (Bdiv mode_NE (f64_ofZ 5) (f64_ofZ 100)) with (@nlit F64 num 5 100) in VL, FL.
  assert (B1 : 9 / 10 <= 1 + e1 <= 11 / 10) by (apply Rabs_le_inv in He1; lra).
  (* times fc *)
  assert (AL : Rabs (val (nlit 5 100) * val fc) = 5 / 100 * (1 + e1) * Rabs (val fc)).
  { rewrite VL, Rabs_mult, Rabs_pos_eq by lra. reflexivity. }
  destruct (rd_rel (val (nlit 5 100) * val fc)) as (e2 & He2 & E2); [right; rewrite AL; nra|].
  destruct (mul_fin (nlit 5 100) fc FL Ff) as [VS FS]; [apply pow_1024; apply P1000; rewrite AL; nra|].
  rewrite E2, VL in VS. change (Bmult mode_NE (nlit 5 100) fc) with (nmul (nlit 5 100) fc) in VS, FS. set (sep := nmul (nlit 5 100) fc) in *.
  assert (B2 : 9 / 10 <= 1 + e2 <= 11 / 10) by (apply Rabs_le_inv in He2; lra).
  (* halved *)
  assert (AS : Rabs (val sep / 2) = 5 / 200 * ((1 + e1) * (1 + e2)) * Rabs (val fc)).
  { rewrite VS. replace (5 / 100 * (1 + e1) * val fc * (1 + e2) / 2) with (5 / 200 * ((1 + e1) * (1 + e2)) * val fc) by field.
    rewrite Rabs_mult, Rabs_pos_eq by nra. reflexivity. }
  assert (B12 : 8 / 10 <= (1 + e1) * (1 + e2) <= 13 / 10) by nra.
  destruct (rd_rel (val sep / 2)) as (e3 & He3 & E3); [right; rewrite AS; nra|].
  destruct (div_fin sep (f64_ofZ 2) FS) as [VH FH].
  { rewrite V2. lra. }
  { rewrite V2. apply pow_1024; apply P1000; rewrite AS; nra. }
  rewrite V2, E3, VS in VH. change (Bdiv mode_NE sep (f64_ofZ 2)) with h in VH, FH.
  assert (B3 : 9 / 10 <= 1 + e3 <= 11 / 10) by (apply Rabs_le_inv in He3; lra).
  split; [exact FH|].
  (* added or taken away *)
  set (g := (1 + e1) * (1 + e2) * (1 + e3)).
  assert (Hg : Rabs (g - 1) <= 4 * u53).
  { pose proof (rel2 e1 e2 _ _ He1 He2 ltac:(lra) ltac:(lra)) as G1.
    pose proof (rel2 ((1 + e1) * (1 + e2) - 1) e3 _ u53 G1 He3 ltac:(nra) ltac:(lra)) as G2.
    replace ((1 + ((1 + e1) * (1 + e2) - 1)) * (1 + e3) - 1) with (g - 1) in G2 by (unfold g; ring). apply Rle_trans with (1 := G2). nra. }
  set (s := if b then 1 else -1).
  assert (Es : s = 1 \/ s = -1) by (unfold s; destruct b; auto).
  set (x := val fc * (1 + s * (g / 40))).
  assert (VX : (if b then val fc + val h else val fc - val h) = x).
  { rewrite VH. unfold x, s, g. destruct b; field. }
  apply Rabs_le_inv in Hg.
  assert (Bx : 9 / 10 * Rabs (val fc) <= Rabs x <= 11 / 10 * Rabs (val fc)).
  { unfold x. rewrite Rabs_mult, (Rabs_pos_eq (1 + _)) by (destruct Es as [-> | ->]; lra). pose proof (Rabs_pos (val fc)). destruct Es as [-> | ->]; nra. }
  destruct (rd_rel x) as (e4 & He4 & E4); [right; lra|].
  assert (VF : fin f = true /\ val f = rd x).
  { unfold f. rewrite <- VX. destruct b.
    - destruct (add_fin fc h Ff FH) as [V F]; [rewrite VX; apply pow_1024, P1000; lra|]. auto.
    - destruct (sub_fin fc h Ff FH) as [V F]; [rewrite VX; apply pow_1024, P1000; lra|]. auto. }
  destruct VF as [FF VF].
  assert (VF' : fin f' = true /\ val f' = rd x).
  { unfold f'. rewrite <- VX. destruct b.
    - change (nmul (bit_to_nrz true) h) with (Bmult mode_NE (f64_ofZ 1) h). rewrite one_mul.
      destruct (add_fin fc h Ff FH) as [V F]; [rewrite VX; apply pow_1024, P1000; lra|]. auto.
    - change (nmul (bit_to_nrz false) h) with (Bmult mode_NE (Bopp (f64_ofZ 1)) h). rewrite mul_m1.
      assert (Vo : val (Bopp h) = - val h) by apply B2R_Bopp.
      destruct (add_fin fc (Bopp h) Ff) as [V F].
      + unfold fin. rewrite is_finite_Bopp. exact FH.
      + rewrite Vo. change (val fc + - val h) with (val fc - val h). rewrite VX. apply pow_1024, P1000; lra.
      + rewrite Vo in V. auto. }
  destruct VF' as [FF' VF']. split; [split; [exact FF'|rewrite VF', VF; reflexivity]|]. split; [exact FF|].
  set (q := (if b then 41 else 39) / 40). assert (Eq : q = 1 + s / 40) by (unfold q, s; destruct b; field).
  assert (Hq : 39 / 40 <= q) by (unfold q; destruct b; lra).
  exists ((1 + s * (g - 1) / 40 / q) * (1 + e4) - 1). split.
  - assert (H1 : Rabs (s * (g - 1) / 40 / q) <= u53).
    { assert (I0 : 0 < / q <= 40 / 39).
      { split; [apply Rinv_0_lt_compat; lra|]. replace (40 / 39) with (/ (39 / 40)) by field. apply Rinv_le; lra. }
      replace (s * (g - 1) / 40 / q) with (s * ((g - 1) * (/ q / 40))) by (field; lra).
      set (v := / q / 40). assert (0 < v <= 1 / 39) by (unfold v; lra). clearbody v.
      assert (- (4 * u53) * v <= (g - 1) * v <= 4 * u53 * v) by (split; apply Rmult_le_compat_r; lra).
      assert (4 * u53 * v <= 4 * u53 * (1 / 39)) by (apply Rmult_le_compat_l; lra). apply Rabs_le. destruct Es as [-> | ->]; lra. }
    apply Rle_trans with (1 := rel2 _ _ _ _ H1 He4 ltac:(lra) ltac:(lra)). nra.
  - rewrite VF, E4. unfold x. rewrite Eq in Hq |- *. field. lra.
Qed.

(** The time of a sample: i/sr. *)
Lemma time1_err (libm : Libm) (sr i : nat) : let num := NumF libm in
  (1 <= sr)%nat -> (Z.of_nat sr < 2 ^ 53)%Z -> (Z.of_nat i < 2 ^ 53)%Z ->
  let d := ndiv (nofnat i) (nofnat sr) in
  fin d = true /\ exists e, Rabs e <= u53 /\ val d = INR i / INR sr * (1 + e) /\ (INR i / INR sr = 0 \/ u53 <= INR i / INR sr <= bpow radix2 53).
Proof.
  intros num Hs Hs2 Hi' d. pose proof u53_tiny as [U US].
  assert (Hsr : 1 <= INR sr) by (change 1 with (INR 1); apply le_INR; lia).
  assert (Isr : INR sr <= bpow radix2 53) by (rewrite INR_IZR_INZ; change (bpow radix2 53) with (IZR (2 ^ 53)); apply IZR_le; lia).
  destruct (div_ofZ (Z.of_nat i) (Z.of_nat sr) ltac:(lia) ltac:(lia)) as (V & F & _). rewrite <- !INR_IZR_INZ in V.
  split; [exact F|].
  assert (HT : INR i / INR sr = 0 \/ u53 <= INR i / INR sr <= bpow radix2 53).
  { destruct i as [|i]; [left; cbn; unfold Rdiv; ring|]. right. assert (I1 : 1 <= INR (S i)) by (apply (le_INR 1); lia). split.
    - apply Rle_trans with (1 / INR sr).
    + change u53 with (bpow radix2 (- (53))). rewrite bpow_opp. unfold Rdiv. rewrite Rmult_1_l. apply Rinv_le; lra.
    + apply Rmult_le_compat_r; [left; apply Rinv_0_lt_compat; lra|exact I1].
    - apply Rle_trans with (INR (S i)).
    + apply Rmult_le_reg_r with (INR sr); [lra|]. unfold Rdiv. rewrite Rmult_assoc, Rinv_l, Rmult_1_r by lra. nra.
    + rewrite INR_IZR_INZ. change (bpow radix2 53) with (IZR (2 ^ 53)). apply IZR_le. lia. }
  destruct (rd_rel (INR i / INR sr)) as (e & He & E).
  { destruct HT as [HT|HT]; [left; exact HT|right]. rewrite Rabs_pos_eq by lra. apply Rle_trans with u53; [apply bpow_le; lia|lra]. }
  exists e. split; [exact He|]. split; [|exact HT]. transitivity (rd (INR i / INR sr)); [exact V|exact E].
Qed.

(** The time of a sample of a chunk: k/sr + j/sr. *)
Lemma time_err (libm : Libm) (sr k j : nat) : let num := NumF libm in
  (1 <= sr)%nat -> (Z.of_nat sr < 2 ^ 53)%Z -> (Z.of_nat (k + j) < 2 ^ 53)%Z ->
  let t := nadd (ndiv (nofnat k) (nofnat sr)) (ndiv (nofnat j) (nofnat sr)) in
  fin t = true /\ exists e, Rabs e <= 4 * u53 /\ val t = INR (k + j) / INR sr * (1 + e).
Proof.
  intros num Hs Hs2 Hi t. pose proof u53_tiny as [U US].
  assert (Hsr : 1 <= INR sr) by (change 1 with (INR 1); apply le_INR; lia).
  assert (Isr : INR sr <= bpow radix2 53) by (rewrite INR_IZR_INZ; change (bpow radix2 53) with (IZR (2 ^ 53)); apply IZR_le; lia).
  pose proof (fun i => time1_err libm sr i Hs Hs2) as Q.
  destruct (Q k ltac:(lia)) as (FA & ea & Ha & VA & RA). destruct (Q j ltac:(lia)) as (FB & eb & Hb & VB & RB).
  set (A := ndiv (nofnat k) (nofnat sr)) in *. set (B := ndiv (nofnat j) (nofnat sr)) in *.
  set (x := INR k / INR sr) in *. set (y := INR j / INR sr) in *.
  assert (Exy : INR (k + j) / INR sr = x + y) by (rewrite plus_INR; unfold x, y, Rdiv; ring).
  assert (P53 : 0 < bpow radix2 53) by apply bpow_gt_0.
  assert (X0 : 0 <= x <= bpow radix2 53) by lra. assert (Y0 : 0 <= y <= bpow radix2 53) by lra.
  assert (B1 : 9 / 10 <= 1 + ea <= 11 / 10) by (apply Rabs_le_inv in Ha; lra).
  assert (B2 : 9 / 10 <= 1 + eb <= 11 / 10) by (apply Rabs_le_inv in Hb; lra).
  assert (SB : 9 / 10 * (x + y) <= val A + val B <= 11 / 10 * (x + y)) by (rewrite VA, VB; nra).
  assert (S0 : val A + val B = 0 \/ bpow radix2 (-1022) <= Rabs (val A + val B)).
  { assert (L : bpow radix2 (-1022) <= u53 / 2).
    { replace (u53 / 2) with (bpow radix2 (-54)); [apply bpow_le; lia|]. change (-54)%Z with (-53 + -1)%Z. rewrite bpow_plus. reflexivity. }
    rewrite Rabs_pos_eq by lra. destruct RA as [RA|RA], RB as [RB|RB]; [left; rewrite VA, VB, RA, RB; ring|right; lra|right; lra|right; lra]. }
  destruct (rd_rel _ S0) as (e & He & E).
  destruct (add_fin A B FA FB) as [V F].
  { apply pow_1024. rewrite Rabs_pos_eq by lra. apply Rle_trans with (bpow radix2 (2 + 53)); [rewrite bpow_plus; change (bpow radix2 2) with 4; lra|]. apply bpow_le. lia. }
  split; [exact F|]. rewrite Exy.
  assert (D : exists d, Rabs d <= u53 /\ val A + val B = (x + y) * (1 + d)).
  { destruct (Rle_lt_dec (x + y) 0) as [Z0|Z0].
    - exists 0. rewrite Rabs_R0. split; [lra|]. assert (x = 0) by lra. assert (y = 0) by lra. rewrite VA, VB, H, H0. ring.
    - exists ((x * ea + y * eb) / (x + y)). split.
      + unfold Rdiv. rewrite Rabs_mult, (Rabs_pos_eq (/ _)) by (left; apply Rinv_0_lt_compat; lra).
        apply Rmult_le_reg_r with (x + y); [exact Z0|]. rewrite Rmult_assoc, Rinv_l, Rmult_1_r by lra.
        apply Rabs_le_inv in Ha. apply Rabs_le_inv in Hb. apply Rabs_le.
        assert (x * - u53 <= x * ea <= x * u53) by (split; apply Rmult_le_compat_l; lra).
        assert (y * - u53 <= y * eb <= y * u53) by (split; apply Rmult_le_compat_l; lra). lra.
      + rewrite VA, VB. field. lra. }
  destruct D as (d & Hd & ED). exists ((1 + d) * (1 + e) - 1). split.
  - apply Rle_trans with (1 := rel2 _ _ _ _ Hd He ltac:(lra) ltac:(lra)). nra.
  - change (val t) with (val (Bplus mode_NE A B)). rewrite V, E, ED. ring.
Qed.

(** A phase 2*PI*f*t with f and t themselves rounded. *)
Lemma phase_gen (f t : F64) F T : fin f = true -> fin t = true ->
  1 / 4 <= Rabs F <= bpow radix2 501 -> (T = 0 \/ u53 <= T <= bpow radix2 53) ->
  (exists e, Rabs e <= 4 * u53 /\ val f = F * (1 + e)) -> (exists e, Rabs e <= 4 * u53 /\ val t = T * (1 + e)) ->
  let p := Bmult mode_NE (Bmult mode_NE (Bmult mode_NE (f64_ofZ 2) f64_pi) f) t in
  let exact := 2 * PI * F * T in
  fin p = true /\ Rabs (val p - exact) <= Rabs exact * (16 * u53).
Proof.
  intros Ff Ft BF BT (ef & Hef & Vf) (et & Het & Vt) p exact. pose proof u53_tiny as [U US].
  destruct f64_pi_val as [Vpi Fpi]. destruct pi_rel as (e0 & He0 & Epi). pose proof PI_3 as P3.
  assert (Bpi : 3 <= val f64_pi <= 4) by (rewrite Vpi; change (IZR (2 ^ 51)) with 2251799813685248; lra).
  destruct (ofZ_exact 2 ltac:(lia)) as (V2 & F2 & _).
  assert (E1 : rd (val (f64_ofZ 2) * val f64_pi) = 2 * val f64_pi).
  { rewrite V2. apply rd_double; [apply val_fmt|]. apply Rle_trans with 1; [|lra]. change 1 with (bpow radix2 0). apply bpow_le. lia. }
  destruct (mul_fin (f64_ofZ 2) f64_pi F2 Fpi) as [VA FA].
  { rewrite E1, Rabs_pos_eq by lra. apply Rle_lt_trans with (bpow radix2 3); [change (bpow radix2 3) with 8; lra|]. apply bpow_lt. lia. }
  rewrite E1 in VA. set (A := Bmult mode_NE (f64_ofZ 2) f64_pi) in *.
  assert (Bf : 9 / 10 <= 1 + ef <= 11 / 10) by (apply Rabs_le_inv in Hef; lra).
  assert (Bt : 9 / 10 <= 1 + et <= 11 / 10) by (apply Rabs_le_inv in Het; lra).
  assert (Af : Rabs (val f) = Rabs F * (1 + ef)) by (rewrite Vf, Rabs_mult, (Rabs_pos_eq (1 + ef)) by lra; reflexivity).
  assert (BA : 1 <= Rabs (val A * val f) <= bpow radix2 505).
  { rewrite Rabs_mult, VA, (Rabs_pos_eq (2 * val f64_pi)), Af by lra. split; [nra|].
    change 505%Z with (4 + 501)%Z. rewrite bpow_plus. change (bpow radix2 4) with 16. pose proof (bpow_gt_0 radix2 501). nra. }
  destruct (mul_fin A f FA Ff) as [VB FB].
  { apply pow_1024. apply Rle_trans with (bpow radix2 505); [lra|]. apply bpow_le. lia. }
  assert (L1022 : bpow radix2 (-1022) <= bpow radix2 (-60)) by (apply bpow_le; lia).
  assert (L60 : bpow radix2 (-60) <= u53 / 4).
  { replace (u53 / 4) with (bpow radix2 (-55)); [apply bpow_le; lia|]. change (-55)%Z with (-53 + -2)%Z. rewrite bpow_plus. change (bpow radix2 (-2)) with (/ 4). reflexivity. }
  destruct (rd_rel (val A * val f)) as (e1 & He1 & Ee1); [right; lra|].
  set (B := Bmult mode_NE A f) in *.
  assert (H1 : 9 / 10 <= 1 + e1 <= 11 / 10) by (apply Rabs_le_inv in He1; lra).
  assert (BB : 9 / 10 <= Rabs (val B) <= bpow radix2 506).
  { rewrite VB, Ee1, Rabs_mult, (Rabs_pos_eq (1 + e1)) by lra. split; [nra|].
    change 506%Z with (505 + 1)%Z. rewrite bpow_plus. change (bpow radix2 1) with 2. apply Rmult_le_compat; try lra. }
  assert (P53 : 0 < bpow radix2 53) by apply bpow_gt_0.
  assert (T0 : 0 <= T <= bpow radix2 53) by lra.
  assert (HBT : val B * val t = 0 \/ bpow radix2 (-1022) <= Rabs (val B * val t)).
  { destruct BT as [BT|BT]; [left; rewrite Vt, BT; ring|right].
    rewrite Rabs_mult, Vt, (Rabs_pos_eq (T * _)) by nra.
    assert (u53 * (9 / 10) <= T * (1 + et)) by (apply Rmult_le_compat; lra).
    assert (9 / 10 * (u53 * (9 / 10)) <= Rabs (val B) * (T * (1 + et))) by (apply Rmult_le_compat; lra). lra. }
  destruct (mul_fin B t FB Ft) as [VP FP].
  { apply pow_1024. rewrite Rabs_mult, Vt, (Rabs_pos_eq (T * _)) by nra.
    apply Rle_trans with (bpow radix2 (506 + (53 + 1))); [|apply bpow_le; lia]. rewrite (bpow_plus radix2 506), (bpow_plus radix2 53).
    change (bpow radix2 1) with 2. apply Rmult_le_compat; try lra; nra. }
  destruct (rd_rel _ HBT) as (e3 & He3 & Ee3).
  split; [exact FP|]. change (val p) with (val (Bmult mode_NE B t)). rewrite VP, Ee3, VB, Ee1, VA, Epi, Vf, Vt.
  replace (2 * (PI * (1 + e0)) * (F * (1 + ef)) * (1 + e1) * (T * (1 + et)) * (1 + e3) - exact)
    with (exact * ((1 + e0) * (1 + ef) * (1 + e1) * (1 + et) * (1 + e3) - 1)) by (unfold exact; ring).
  rewrite Rabs_mult. apply Rmult_le_compat_l; [apply Rabs_pos|].
  assert (UU : 0 <= u53 * u53 <= / 100 * u53) by (clear - U US; nra).
  pose proof (rel2 e0 ef _ _ He0 Hef ltac:(lra) ltac:(lra)) as G1. apply Rle_trans with (r3 := 7 * u53) in G1; [|clear - UU U; lra].
  pose proof (rel2 _ e1 _ _ G1 He1 ltac:(lra) ltac:(lra)) as G2. apply Rle_trans with (r3 := 9 * u53) in G2; [|clear - UU U; lra].
  pose proof (rel2 _ et _ _ G2 Het ltac:(lra) ltac:(lra)) as G3. apply Rle_trans with (r3 := 14 * u53) in G3; [|clear - UU U; lra].
  pose proof (rel2 _ e3 _ _ G3 He3 ltac:(lra) ltac:(lra)) as G4. apply Rle_trans with (r3 := 16 * u53) in G4; [|clear - UU U; lra].
  match type of G4 with Rabs ?x <= _ => replace x with ((1 + e0) * (1 + ef) * (1 + e1) * (1 + et) * (1 + e3) - 1) in G4 by ring end.
  exact G4.
Qed.

(** What is asked of the sine and cosine, and of the carrier, for N samples: phases up to B. *)
Definition fsk_setting (libm : Libm) (fc : F64) (sr N : nat) (tau B : R) : Prop :=
  is_finite fc = true /\ 1 / 2 <= Rabs (B2R fc) /\ (1 <= sr)%nat /\ (Z.of_nat sr < 2 ^ 53)%Z /\ (Z.of_nat N < 2 ^ 53)%Z /\
  libm_tol libm (bpow radix2 45) tau /\ 0 <= tau <= 1 / 4 /\
  2 * PI * Rabs (B2R fc) * (41 / 40) * (INR N / INR sr) <= B <= bpow radix2 44.

Lemma setting_fc libm fc sr N tau B : fsk_setting libm fc sr N tau B -> (1 <= N)%nat -> Rabs (val fc) <= bpow radix2 500.
Proof.
  intros (Ff & Bf & Hs & Hs2 & HN & Hlm & Ht & HB1 & HB2) N1. pose proof PI_3 as P3. pose proof u53_tiny as [U US].
  assert (Hsr : 1 <= INR sr) by (change 1 with (INR 1); apply le_INR; lia).
  assert (HN1 : 1 <= INR N) by (change 1 with (INR 1); apply le_INR; lia).
  assert (Isr : INR sr <= bpow radix2 53) by (rewrite INR_IZR_INZ; change (bpow radix2 53) with (IZR (2 ^ 53)); apply IZR_le; lia).
  assert (Q : u53 <= INR N / INR sr).
  { change u53 with (bpow radix2 (- (53))). rewrite bpow_opp. apply Rle_trans with (/ INR sr).
    - apply Rinv_le; lra.
    - rewrite <- (Rmult_1_l (/ INR sr)). apply Rmult_le_compat_r; [left; apply Rinv_0_lt_compat; lra|exact HN1]. }
  apply Rle_trans with (bpow radix2 (44 + 53)); [|apply bpow_le; lia].
  rewrite bpow_plus. apply Rmult_le_reg_r with u53; [exact U|].
  rewrite Rmult_assoc, <- bpow_plus. change (bpow radix2 (53 + -53)) with 1. rewrite Rmult_1_r.
  apply Rle_trans with (2 := HB2). eapply Rle_trans; [|exact HB1]. apply Rmult_le_compat; [apply Rabs_pos|lra| |exact Q].
  pose proof (Rabs_pos (B2R fc)). change (Rabs (val fc)) with (Rabs (B2R fc)). nra.
Qed.

(** One sample of a tone, as computed from a rounded frequency and a rounded time. *)
Lemma ref_err libm fc sr N tau B (b : bool) (f t : F64) i : fsk_setting libm fc sr N tau B -> (i < N)%nat ->
  fin f = true -> (exists e, Rabs e <= 4 * u53 /\ val f = val fc * ((if b then 41 else 39) / 40) * (1 + e)) ->
  fin t = true -> (exists e, Rabs e <= 4 * u53 /\ val t = INR i / INR sr * (1 + e)) ->
  let p := Bmult mode_NE (Bmult mode_NE (Bmult mode_NE (f64_ofZ 2) f64_pi) f) t in
  (fin (libm_cos libm p) = true /\ Rabs (val (libm_cos libm p)) <= 1 /\ Rabs (val (libm_cos libm p) - cos (tone sr (val fc) b * INR i)) <= tau + 16 * B * u53) /\
  (fin (libm_sin libm p) = true /\ Rabs (val (libm_sin libm p)) <= 1 /\ Rabs (val (libm_sin libm p) - sin (tone sr (val fc) b * INR i)) <= tau + 16 * B * u53).
Proof.
  intros HS Hi Ff' Vf' Ft Vt p. pose proof (setting_fc _ _ _ _ _ _ HS ltac:(lia)) as B500.
  destruct HS as (Ff & Bf & Hs & Hs2 & HN & Hlm & Ht & HB1 & HB2). pose proof PI_3 as P3. pose proof u53_tiny as [U US].
  assert (Hsr : 1 <= INR sr) by (change 1 with (INR 1); apply le_INR; lia).
  set (q := (if b then 41 else 39) / 40) in *. assert (Hq : 39 / 40 <= q <= 41 / 40) by (unfold q; destruct b; lra).
  change (Rabs (B2R fc)) with (Rabs (val fc)) in *.
  assert (Bq : 1 / 4 <= Rabs (val fc * q) <= bpow radix2 501).
  { rewrite Rabs_mult, (Rabs_pos_eq q) by lra. change 501%Z with (500 + 1)%Z. rewrite bpow_plus. change (bpow radix2 1) with 2. nra. }
  destruct (time1_err libm sr i Hs Hs2 ltac:(lia)) as (_ & _ & _ & _ & BT).
  destruct (phase_gen f t (val fc * q) (INR i / INR sr) Ff' Ft Bq BT Vf' Vt) as [Fp Ep]. fold p in Fp, Ep.
  set (x := 2 * PI * (val fc * q) * (INR i / INR sr)) in *.
  assert (Ex : x = tone sr (val fc) b * INR i) by (unfold x, tone, q; destruct b; field; lra).
  assert (Bx : Rabs x <= B).
  { apply Rle_trans with (2 := HB1). unfold x.
    assert (Iq : 0 <= INR i / INR sr) by (apply Rmult_le_pos; [apply pos_INR|left; apply Rinv_0_lt_compat; lra]).
    rewrite !Rabs_mult, (Rabs_pos_eq 2), (Rabs_pos_eq PI), (Rabs_pos_eq (INR i / INR sr)), (Rabs_pos_eq q) by lra.
    pose proof (Rabs_pos (val fc)).
    assert (P0 : 0 <= 2 * PI * Rabs (val fc)) by nra.
    rewrite <- Rmult_assoc.
    apply Rmult_le_compat; [apply Rmult_le_pos; lra|exact Iq| |].
    - apply Rmult_le_compat_l; [exact P0|lra].
    - apply Rmult_le_compat_r; [left; apply Rinv_0_lt_compat; lra|]. apply le_INR. lia. }
  assert (B0 : 0 <= B) by (pose proof (Rabs_pos x); lra).
  assert (Ed : Rabs (val p - x) <= 16 * B * u53).
  { apply Rle_trans with (1 := Ep). replace (16 * B * u53) with (B * (16 * u53)) by ring. apply Rmult_le_compat_r; lra. }
  assert (Bp : Rabs (B2R p) <= bpow radix2 45).
  { change (B2R p) with (val p). replace (val p) with ((val p - x) + x) by ring. eapply Rle_trans; [apply Rabs_triang|].
    change 45%Z with (44 + 1)%Z. rewrite bpow_plus. change (bpow radix2 1) with 2.
    assert (16 * B * u53 <= B * 1) by (replace (16 * B * u53) with (B * (16 * u53)) by ring; apply Rmult_le_compat_l; lra). lra. }
  destruct (Hlm p Fp Bp) as [(C1 & C2 & C3) (S1 & S2 & S3)]. rewrite <- Ex.
  split; (split; [assumption|split; [assumption|]]).
  - replace (val (libm_cos libm p) - cos x) with ((val (libm_cos libm p) - cos (val p)) + (cos (val p) - cos x)) by ring.
    eapply Rle_trans; [apply Rabs_triang|]. pose proof (cos_lip (val p) x). change (Rabs (val (libm_cos libm p) - cos (val p)) <= tau) in C3. lra.
  - replace (val (libm_sin libm p) - sin x) with ((val (libm_sin libm p) - sin (val p)) + (sin (val p) - sin x)) by ring.
    eapply Rle_trans; [apply Rabs_triang|]. pose proof (sin_lip (val p) x). change (Rabs (val (libm_sin libm p) - sin (val p)) <= tau) in S3. lra.
Qed.

(** What is sent. *)
Lemma tx_fsk_f64 (libm : Libm) (message : Iter bool) m sr sy (fc : F64) tau B : let num := NumF libm in
  (1 <= sy <= sr)%nat -> yields message m -> fsk_setting libm fc sr (length m * (sr / sy)) tau B ->
  exists tx g, tx_fsk message sr sy fc = Ret tx /\ yields tx (tab (length m * (sr / sy)) g) /\
    forall i, (i < length m * (sr / sy))%nat -> fin (g i) = true /\ Rabs (val (g i)) <= 1 /\
      Rabs (val (g i) - cos (tone sr (val fc) (nth (i / (sr / sy)) m false) * INR i)) <= tau + 16 * B * u53.
Proof.
  intros num Hs Hm HS. unfold tx_fsk, usize_div. destruct (Nat.eqb_spec sy 0) as [|_]; [lia|]. cbn [bind]. set (n := (sr / sy)%nat) in *.
  assert (Hn : (1 <= n)%nat) by (apply Nat.div_le_lower_bound; lia).
  set (sep := nmul (nlit 5 100) fc). eexists. eexists. split; [reflexivity|].
  pose proof (imap_yields (fun '(idx, sig) =>
               let time := ndiv (nofnat idx) (nofnat sr) in
               ncos (nmul (nmul (nmul (nofZ 2) npi) (nadd fc (nmul sig (ndiv sep (nofZ 2))))) time)) _ _
    (ienum_yields _ _ (inflate_yields n _ _ Hn (imap_yields bit_to_nrz _ _ Hm)))) as Y.
  rewrite (repeat_each_list _ _ (bit_to_nrz false)), tab_index, tab_map, map_length in Y.
  split; [exact Y|]. intros i Hi. cbv beta iota zeta. rewrite map_nth. set (b := nth (i / n) m false).
  destruct (time1_err libm sr i ltac:(lia)) as (Ft & e & He & Vt & _); [apply HS|destruct HS as (_ & _ & _ & _ & HN & _); lia|].
  assert (F5 : fin fc = true /\ 1 / 2 <= Rabs (val fc) <= bpow radix2 500).
  { pose proof (setting_fc _ _ _ _ _ _ HS ltac:(lia)) as B500. destruct HS as (Ff & Bf & _). auto. }
  destruct F5 as [Ff Bf]. destruct (freq_err libm fc b Ff Bf) as (_ & (F1 & V1) & _ & ef & Hef & Vf). fold num in F1, V1, Vf. fold sep in F1, V1, Vf.
  rewrite <- V1 in Vf. pose proof u53_pos as U.
  apply (ref_err libm fc sr (length m * n) tau B b _ _ i HS Hi F1); [exists ef; auto|exact Ft|exists e; split; [lra|exact Vt]].
Qed.

(** Four sums at once. *)
Lemma fold4_gen {T} (add : T -> T -> T) n (f0 f1 f2 f3 : nat -> T) z :
  fold_left (fun '(a0, a1, a2, a3) '(v0, v1, v2, v3) => (add a0 v0, add a1 v1, add a2 v2, add a3 v3))
    (tab n (fun j => (f0 j, f1 j, f2 j, f3 j))) (z, z, z, z) =
  (fold_left add (tab n f0) z, fold_left add (tab n f1) z, fold_left add (tab n f2) z, fold_left add (tab n f3) z).
Proof.
  induction n as [|n IH]; [reflexivity|]. replace (S n) with (n + 1)%nat by lia. rewrite !tab_add, !fold_left_app, IH.
  cbn [tab seq map fold_left]. reflexivity.
Qed.

(** The comparison of the two energies, made from four sums each within eta of its exact value. *)
Lemma compare_err (libm : Libm) (s : nat -> F64) (S : nat -> R) M eta : let num := NumF libm in
  1 <= M <= bpow radix2 400 -> 0 <= eta <= M ->
  (forall i, fin (s i) = true /\ Rabs (S i) <= M /\ Rabs (val (s i) - S i) <= eta) ->
  let D := (S 0%nat * S 0%nat + S 1%nat * S 1%nat) - (S 2%nat * S 2%nat + S 3%nat * S 3%nat) in
  let d := nsub (nadd (nsqr (s 0%nat)) (nsqr (s 1%nat))) (nadd (nsqr (s 2%nat)) (nsqr (s 3%nat))) in
  let slack := 12 * M * eta + 80 * (M * M) * u53 in
  (slack <= D -> nleb (nofZ 0) d = true) /\ (D < - slack -> nleb (nofZ 0) d = false).
Proof.
  intros num HM He Hs D d slack. pose proof u53_tiny as [U US].
  assert (M2 : M * M <= bpow radix2 800) by (change 800%Z with (400 + 400)%Z; rewrite bpow_plus; apply Rmult_le_compat; lra).
  assert (M1 : 1 <= M * M) by nra.
  assert (P : forall x c, 0 <= c <= 128 -> Rabs x <= c * (M * M) -> Rabs x <= bpow radix2 1000).
  { intros x c Hc Hx. apply Rle_trans with (1 := Hx). apply Rle_trans with (bpow radix2 (7 + 800)); [|apply bpow_le; lia].
    rewrite bpow_plus. change (bpow radix2 7) with 128. apply Rmult_le_compat; lra. }
  assert (T : bpow radix2 (-1075) <= M * M * u53).
  { pose proof (small_exp (-1075) ltac:(lia)). apply Rle_trans with (1 * u53); [lra|]. apply Rmult_le_compat_r; lra. }
  assert (Q : forall i, fin (nsqr (s i)) = true /\ Rabs (val (nsqr (s i)) - S i * S i) <= 3 * M * eta + 5 * (M * M) * u53 /\ Rabs (val (nsqr (s i))) <= 5 * (M * M)).
  { intros i. destruct (Hs i) as (F & B & E). apply Rabs_le_inv in B. apply Rabs_le_inv in E.
    set (v := val (s i)) in *. assert (V : Rabs v <= 2 * M) by (apply Rabs_le; lra).
    assert (VV : Rabs (v * v) <= 4 * (M * M)).
    { rewrite Rabs_mult. apply Rle_trans with (2 * M * (2 * M)); [apply Rmult_le_compat; try apply Rabs_pos; assumption|lra]. }
    destruct (mul_err (s i) (s i) F F (P _ 4 ltac:(lra) VV)) as [F2 E2]. fold v in E2.
    change (Bmult mode_NE (s i) (s i)) with (nsqr (s i)) in F2, E2. split; [exact F2|].
    assert (Rabs (v * v) * u53 <= 4 * (M * M) * u53) by (apply Rmult_le_compat_r; lra).
    assert (W : Rabs (v * v - S i * S i) <= 3 * M * eta).
    { replace (v * v - S i * S i) with ((v - S i) * (v + S i)) by ring. rewrite Rabs_mult.
      replace (3 * M * eta) with (eta * (3 * M)) by ring. apply Rmult_le_compat; try apply Rabs_pos; apply Rabs_le; [lra|].
      apply Rabs_le_inv in V. lra. }
    split.
    - replace (val (nsqr (s i)) - S i * S i) with ((val (nsqr (s i)) - v * v) + (v * v - S i * S i)) by ring.
      eapply Rle_trans; [apply Rabs_triang|]. lra.
    - replace (val (nsqr (s i))) with ((val (nsqr (s i)) - v * v) + v * v) by ring. eapply Rle_trans; [apply Rabs_triang|].
      assert (M * M * u53 <= M * M * (1 / 10)) by (apply Rmult_le_compat_l; lra). lra. }
  assert (A : forall i j, fin (nadd (nsqr (s i)) (nsqr (s j))) = true /\
     Rabs (val (nadd (nsqr (s i)) (nsqr (s j))) - (S i * S i + S j * S j)) <= 6 * M * eta + 21 * (M * M) * u53 /\ Rabs (val (nadd (nsqr (s i)) (nsqr (s j)))) <= 11 * (M * M)).
  { intros i j. destruct (Q i) as (F1 & E1 & B1). destruct (Q j) as (F2 & E2 & B2).
    assert (BB : Rabs (val (nsqr (s i)) + val (nsqr (s j))) <= 10 * (M * M)) by (eapply Rle_trans; [apply Rabs_triang|]; lra).
    destruct (add_err _ _ F1 F2 (P _ 10 ltac:(lra) BB)) as [F E]. change (Bplus mode_NE (nsqr (s i)) (nsqr (s j))) with (nadd (nsqr (s i)) (nsqr (s j))) in F, E.
    split; [exact F|]. set (x := val (nsqr (s i))) in *. set (y := val (nsqr (s j))) in *. set (w := val (nadd _ _)) in *.
    assert (Rabs (x + y) * u53 <= 10 * (M * M) * u53) by (apply Rmult_le_compat_r; lra). split.
    - replace (w - (S i * S i + S j * S j)) with ((w - (x + y)) + (x - S i * S i) + (y - S j * S j)) by ring.
      eapply Rle_trans; [apply Rabs_triang|]. pose proof (Rabs_triang (w - (x + y)) (x - S i * S i)). lra.
    - replace w with ((w - (x + y)) + (x + y)) by ring. eapply Rle_trans; [apply Rabs_triang|].
      assert (M * M * u53 <= M * M * (1 / 20)) by (apply Rmult_le_compat_l; lra). lra. }
  destruct (A 0%nat 1%nat) as (F1 & E1 & B1). destruct (A 2%nat 3%nat) as (F2 & E2 & B2).
  set (a := nadd (nsqr (s 0%nat)) (nsqr (s 1%nat))) in *. set (c := nadd (nsqr (s 2%nat)) (nsqr (s 3%nat))) in *.
  assert (BB : Rabs (val a - val c) <= 22 * (M * M)).
  { apply Rabs_le_inv in B1. apply Rabs_le_inv in B2. apply Rabs_le. lra. }
  destruct (sub_fin a c F1 F2) as [V F]; [apply pow_1024; apply (P _ 22); [lra|exact BB]|].
  change (Bminus mode_NE a c) with d in V, F.
  assert (E : Rabs (val d - D) <= slack).
  { rewrite V. pose proof (rd_err (val a - val c)) as R1. set (r := rd (val a - val c)) in *.
    assert (Rabs (val a - val c) * u53 <= 22 * (M * M) * u53) by (apply Rmult_le_compat_r; lra).
    apply Rabs_le_inv in R1. apply Rabs_le_inv in E1. apply Rabs_le_inv in E2. unfold D, slack. apply Rabs_le.
    assert (0 <= M * M * u53) by nra. split; lra. }
  apply Rabs_le_inv in E. destruct val_0 as [V0 F0]. split; intros HD.
  - apply (leb_val (f64_ofZ 0) d F0 F). rewrite V0. lra.
  - destruct (nleb (nofZ 0) d) eqn:L; [|reflexivity]. apply (leb_val (f64_ofZ 0) d F0 F) in L. rewrite V0 in L. lra.
Qed.

(** The receiver on any finite signal. *)
Lemma rx_fsk_f64 (libm : Libm) (received : Iter F64) K (g : nat -> F64) sr sy (fc : F64) tau B A : let num := NumF libm in
  let n := (sr / sy)%nat in
  (1 <= sy <= sr)%nat -> (Z.of_nat n <= 2 ^ 50)%Z -> yields received (tab (K * n) g) -> fsk_setting libm fc sr (K * n) tau B ->
  1 <= A <= bpow radix2 300 -> (forall i, (i < K * n)%nat -> fin (g i) = true /\ Rabs (val (g i)) <= A) ->
  let delta := tau + 16 * B * u53 + (2 * INR n + 15) * u53 in
  exists rx bits, rx_fsk received sr sy fc = Ret rx /\ yields rx bits /\ length bits = K /\
    forall k, (k < K)%nat ->
      let hits b := tone_hits sr n (val fc) k b (fun j => val (g (k * n + j)%nat)) in
      let slack := 12 * (INR n * A) ^ 2 * delta in
      (slack <= hits true - hits false -> nth k bits false = true) /\ (hits true - hits false < - slack -> nth k bits false = false).
Proof.
  intros num n Hs Hn50 Y HS HA Hg delta. unfold rx_fsk, usize_div. destruct (Nat.eqb_spec sy 0) as [|_]; [lia|]. cbn [bind]. fold n.
  assert (Hn : (1 <= n)%nat) by (apply Nat.div_le_lower_bound; lia). pose proof u53_tiny as [U US].
  set (sep := nmul (nlit 5 100) fc). eexists. eexists. split; [reflexivity|].
  pose proof (ienum_yields _ _ (chunks_yields n _ _ Hn Y)) as Z. rewrite chunk_list_tab, tab_index in Z by exact Hn.
  apply (imap_yields (fun '(idx, chunk) => fsk_decide sr fc sep idx chunk)) in Z. rewrite tab_map in Z.
  split; [exact Z|]. split; [apply tab_length|]. intros k Hk.
  set (hits := fun b => tone_hits sr n (val fc) k b (fun j => val (g (k * n + j)%nat))). fold (hits true) (hits false). set (slack := 12 * (INR n * A) ^ 2 * delta).
  rewrite nth_tab by exact Hk. cbv beta iota.
  assert (Hi : forall j, (j < n)%nat -> (k * n + j < K * n)%nat) by (intros; nia).
  assert (Hi2 : forall j, (j < n)%nat -> (k + j < K * n)%nat) by (intros; nia).
  set (x := fun j => g (k * n + j)%nat) in *. unfold fsk_decide. rewrite tab_index, tab_map. unfold fsk_products. rewrite fold4_gen.
  set (h := ndiv sep (nofZ 2)). set (up := nadd fc h). set (dn := nsub fc h). set (t := fun j => nadd (ndiv (nofnat k) (nofnat sr)) (ndiv (nofnat j) (nofnat sr))).
  set (ph := fun f j => Bmult mode_NE (Bmult mode_NE (Bmult mode_NE (f64_ofZ 2) f64_pi) f) (t j)).
  assert (F5 : fin fc = true /\ 1 / 2 <= Rabs (val fc) <= bpow radix2 500).
  { pose proof (setting_fc _ _ _ _ _ _ HS ltac:(nia)) as B500. destruct HS as (Ff & Bf & _). auto. }
  destruct F5 as [Ff Bf].
  set (d0 := tau + 16 * B * u53).
  assert (TB : 0 <= tau <= 1 / 4 /\ 0 <= B <= bpow radix2 44).
  { destruct HS as (_ & _ & Hsr & _ & _ & _ & Ht & HB1 & HB2). split; [exact Ht|]. split; [|exact HB2]. apply Rle_trans with (2 := HB1).
    pose proof PI_3. pose proof (Rabs_pos (B2R fc)). apply Rmult_le_pos; [nra|]. apply Rmult_le_pos; [apply pos_INR|left; apply Rinv_0_lt_compat, lt_0_INR; lia]. }
  destruct TB as [Ht HB].
  assert (BU : 0 <= 16 * B * u53 <= 1 / 32).
  { split; [nra|]. apply Rle_trans with (16 * bpow radix2 44 * u53); [apply Rmult_le_compat_r; lra|].
    replace (16 * bpow radix2 44 * u53) with (bpow radix2 (4 + 44 + -53)); [cbn; lra|]. rewrite !bpow_plus. reflexivity. }
  assert (N1 : 1 <= INR n) by (apply (le_INR 1); exact Hn).
  assert (N50 : INR n <= bpow radix2 50) by (rewrite INR_IZR_INZ; change (bpow radix2 50) with (IZR (2 ^ 50)); apply IZR_le; exact Hn50).
  assert (NU : INR n * u53 <= 1 / 8).
  { apply Rle_trans with (bpow radix2 50 * u53); [apply Rmult_le_compat_r; lra|]. change u53 with (bpow radix2 (-53)). rewrite <- bpow_plus. cbn. lra. }
  assert (REF : forall (b : bool) (f : F64), f = (if b then up else dn) -> forall j, (j < n)%nat ->
    (fin (libm_cos libm (ph f j)) = true /\ Rabs (val (libm_cos libm (ph f j))) <= 1 /\ Rabs (val (libm_cos libm (ph f j)) - cos (tone sr (val fc) b * INR (k + j))) <= d0) /\
    (fin (libm_sin libm (ph f j)) = true /\ Rabs (val (libm_sin libm (ph f j))) <= 1 /\ Rabs (val (libm_sin libm (ph f j)) - sin (tone sr (val fc) b * INR (k + j))) <= d0)).
  { intros b f Ef j Hj. destruct (freq_err libm fc b Ff Bf) as (_ & _ & F1 & V1). fold num in F1, V1. fold sep in F1, V1. fold h in F1, V1. fold up dn in F1, V1.
    destruct (time_err libm sr k j) as (F2 & V2); [lia|apply HS|destruct HS as (_ & _ & _ & _ & HN & _); specialize (Hi2 j Hj); lia|].
    fold num in F2, V2. subst f. exact (ref_err libm fc sr (K * n) tau B b _ _ (k + j) HS (Hi2 j Hj) F1 V1 F2 V2). }
  assert (SUM : forall (c : nat -> F64) (e : nat -> R),
     (forall j, (j < n)%nat -> fin (c j) = true /\ Rabs (val (c j)) <= 1 /\ Rabs (val (c j) - e j) <= d0) -> (forall j, Rabs (e j) <= 1) ->
     let s := fold_left nadd (tab n (fun j => nmul (x j) (c j))) (nofZ 0) in let S := Rsum_n n (fun j => val (x j) * e j) in
     fin s = true /\ Rabs S <= INR n * A /\ Rabs (val s - S) <= INR n * A * (d0 + (2 * INR n + 8) * u53)).
  { intros c e Hc He s S.
    destruct (corr_f64 libm n 0 x c A) as [F E].
    - split; [lra|]. apply Rle_trans with (1 := proj2 HA). apply bpow_le. lia.
    - exact Hn50.
    - intros j Hj. cbn [Nat.mul Nat.add]. apply Hg. apply Hi. exact Hj.
    - intros j Hj. cbn [Nat.mul Nat.add]. destruct (Hc j Hj) as (? & ? & _). auto.
    - change (corr n 0 (fun i => nmul (x i) (c i))) with s in F, E. split; [exact F|].
      assert (X : forall j, (j < n)%nat -> Rabs (val (x j)) <= A) by (intros j Hj; apply Hg; apply Hi; exact Hj). split.
      + unfold S. replace (INR n * A) with (Rsum_n n (fun _ => A)) by apply Rsum_n_const. apply Rsum_n_abs_bound. intros j Hj. rewrite Rabs_mult, <- (Rmult_1_r A). apply Rmult_le_compat; try apply Rabs_pos; auto.
      + assert (DS : Rabs (Rsum_n n (fun j => val (x j) * val (c j)) - S) <= INR n * (A * d0)).
        { apply Rsum_n_dist. intros j Hj. rewrite <- Rmult_minus_distr_l, Rabs_mult. apply Rmult_le_compat; try apply Rabs_pos; auto. apply Hc. exact Hj. }
        change (Rabs (val s - Rsum_n n (fun j => val (x j) * val (c j))) <= INR n * (INR n + 4) * (2 * A) * u53) in E.
        set (W := Rsum_n n (fun j => val (x j) * val (c j))) in *. replace (val s - S) with ((val s - W) + (W - S)) by ring.
        eapply Rle_trans; [apply Rabs_triang|]. lra. }
  set (sf := fun i => match i with
     | 0%nat => fold_left nadd (tab n (fun j => nmul (x j) (libm_cos libm (ph up j)))) (nofZ 0)
     | 1%nat => fold_left nadd (tab n (fun j => nmul (x j) (libm_sin libm (ph up j)))) (nofZ 0)
     | 2%nat => fold_left nadd (tab n (fun j => nmul (x j) (libm_cos libm (ph dn j)))) (nofZ 0)
     | _ => fold_left nadd (tab n (fun j => nmul (x j) (libm_sin libm (ph dn j)))) (nofZ 0) end).
  set (Sf := fun i => match i with
     | 0%nat => Rsum_n n (fun j => val (x j) * cos (tone sr (val fc) true * INR (k + j)))
     | 1%nat => Rsum_n n (fun j => val (x j) * sin (tone sr (val fc) true * INR (k + j)))
     | 2%nat => Rsum_n n (fun j => val (x j) * cos (tone sr (val fc) false * INR (k + j)))
     | _ => Rsum_n n (fun j => val (x j) * sin (tone sr (val fc) false * INR (k + j))) end).
  assert (Cb : forall y, Rabs (cos y) <= 1) by (intros y; apply Rabs_le, COS_bound).
  assert (Sb : forall y, Rabs (sin y) <= 1) by (intros y; apply Rabs_le, SIN_bound).
  assert (NA : 1 <= INR n * A <= bpow radix2 400).
  { split; [rewrite <- (Rmult_1_r 1); apply Rmult_le_compat; lra|]. apply Rle_trans with (bpow radix2 (50 + 300)); [|apply bpow_le; lia].
    rewrite bpow_plus. apply Rmult_le_compat; lra. }
  set (M := INR n * A) in *. set (dd := d0 + (2 * INR n + 8) * u53).
  assert (D1 : 0 <= dd <= 1) by (unfold dd, d0; split; [|lra]; assert (0 <= INR n * u53) by nra; lra).
  destruct (compare_err libm sf Sf M (M * dd)) as [G1 G2].
  - exact NA.
  - split; [apply Rmult_le_pos; lra|]. rewrite <- (Rmult_1_r M) at 2. apply Rmult_le_compat_l; lra.
  - intros i. destruct i as [|[|[|i]]]; cbn [sf Sf].
    + apply (SUM _ (fun j => cos (tone sr (val fc) true * INR (k + j)))); [intros j Hj; apply (REF true up eq_refl j Hj)|auto].
    + apply (SUM _ (fun j => sin (tone sr (val fc) true * INR (k + j)))); [intros j Hj; apply (REF true up eq_refl j Hj)|auto].
    + apply (SUM _ (fun j => cos (tone sr (val fc) false * INR (k + j)))); [intros j Hj; apply (REF false dn eq_refl j Hj)|auto].
    + apply (SUM _ (fun j => sin (tone sr (val fc) false * INR (k + j)))); [intros j Hj; apply (REF false dn eq_refl j Hj)|auto].
  - assert (HH : forall b c s, (forall j, c j = cos (tone sr (val fc) b * INR (k + j))) -> (forall j, s j = sin (tone sr (val fc) b * INR (k + j))) ->
      hits b = Rsum_n n (fun j => val (x j) * c j) * Rsum_n n (fun j => val (x j) * c j) + Rsum_n n (fun j => val (x j) * s j) * Rsum_n n (fun j => val (x j) * s j)).
    { intros b c s Ec Es. unfold hits, tone_hits.
      rewrite (Rsum_n_ext n (fun j => _ * cos _) (fun j => val (x j) * c j)) by (intros; rewrite Ec, plus_INR, Rmult_plus_distr_l; reflexivity).
      rewrite (Rsum_n_ext n (fun j => _ * sin _) (fun j => val (x j) * s j)) by (intros; rewrite Es, plus_INR, Rmult_plus_distr_l; reflexivity). reflexivity. }
    assert (HD : hits true - hits false = (Sf 0%nat * Sf 0%nat + Sf 1%nat * Sf 1%nat) - (Sf 2%nat * Sf 2%nat + Sf 3%nat * Sf 3%nat)).
    { rewrite (HH true (fun j => cos (tone sr (val fc) true * INR (k + j))) (fun j => sin (tone sr (val fc) true * INR (k + j))) ltac:(reflexivity) ltac:(reflexivity)).
      rewrite (HH false (fun j => cos (tone sr (val fc) false * INR (k + j))) (fun j => sin (tone sr (val fc) false * INR (k + j))) ltac:(reflexivity) ltac:(reflexivity)).
      reflexivity. }
    assert (SL : 12 * M * (M * dd) + 80 * (M * M) * u53 <= slack).
    { unfold slack. fold M. replace (12 * M ^ 2 * delta) with (12 * M * (M * dd) + 84 * (M * M) * u53) by (unfold delta, dd, d0; ring).
      assert (0 <= M * M) by nra. assert (0 <= M * M * u53) by nra. lra. }
    rewrite HD. split; intros H; [apply G1|apply G2]; lra.
Qed.
