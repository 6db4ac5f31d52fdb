(** Properties C81, C82 and C86: the statistics of kom_py/willie.py and src/willie.rs, and
    kom_py/pd_ber_snr_example.py. *)
From Coq Require Import List Arith ZArith Reals Bool Lia Lra Psatz.
From Flocq Require Import Core BinarySingleNaN.
From Verif Require Import Base Spec SpecR Num F64Lib LibModel LibReal RSums FloatSum LabModel ChaosProofs.
Import ListNotations.
Local Open Scope R_scope.

(** The mean and the standard deviation of the samples, and the ratio of the two likelihoods: of the
    noise the caller names (mean 0, deviation n0) and of the normal law fitted to the samples. *)
Definition mean (l : list R) : R := Rsum l / INR (length l).
Definition deviation (l : list R) : R := sqrt (Rsum (map (fun x => (x - mean l) * (x - mean l)) l) / INR (length l)).
Definition ratio (l : list R) (n0 : R) : R :=
  (deviation l / n0 * exp ((1 - (deviation l * deviation l + mean l * mean l) / (n0 * n0)) / 2)) ^ length l.

Lemma Rsum_zero l : (forall x, In x l -> 0 <= x) -> Rsum l = 0 -> forall x, In x l -> x = 0.
Proof.
  induction l as [|a l IH]; intros Hp Hs x Hx; [destruct Hx|]. cbn in Hs.
  assert (H1 : 0 <= a) by (apply Hp; left; reflexivity).
  assert (H2 : 0 <= Rsum l) by (apply Rsum_nonneg; intros y Hy; apply Hp; right; exact Hy).
  destruct Hx as [<-|Hx]; [lra|]. apply IH; [intros y Hy; apply Hp; right; exact Hy|lra|exact Hx].
Qed.

Lemma np_mean_R l : np_mean l = mean l.
Proof. unfold np_mean, mean, np_sum. cbn [nadd ndiv nofZ NumR]. rewrite fold_Rplus. unfold nofnat. cbn [nofZ NumR]. rewrite <- INR_IZR_INZ. f_equal. ring. Qed.

Lemma np_std_R l : np_std l = deviation l.
Proof.
  unfold np_std, deviation. cbn [nsqrt NumR]. f_equal. rewrite np_mean_R. unfold mean at 1. rewrite map_length. f_equal. f_equal.
  apply map_ext. intros x. unfold nsqr. cbn [nmul nabs nsub NumR]. rewrite np_mean_R.
  rewrite <- Rabs_mult. apply Rabs_pos_eq, Rle_0_sqr.
Qed.

Lemma deviation_sqr l : l <> [] -> Rsum (map (fun x => (x - mean l) * (x - mean l)) l) = INR (length l) * (deviation l * deviation l).
Proof.
  intros Hl. unfold deviation. assert (Hn : 0 < INR (length l)) by (apply lt_0_INR; destruct l; [congruence|cbn; lia]).
  rewrite sqrt_sqrt; [field; lra|]. apply Rmult_le_pos; [|left; apply Rinv_0_lt_compat; exact Hn].
  apply Rsum_nonneg. intros x Hx. apply in_map_iff in Hx. destruct Hx as (y & <- & _). apply Rle_0_sqr.
Qed.

Lemma deviation_ge0 l : 0 <= deviation l.
Proof. apply sqrt_pos. Qed.

Lemma energy_split l : l <> [] ->
  Rsum (map (fun x => x * x) l) = INR (length l) * (deviation l * deviation l + mean l * mean l).
Proof.
  intros Hl. assert (Hn : INR (length l) <> 0) by (apply not_0_INR; destruct l; [congruence|cbn; lia]).
  assert (G : forall m k, Rsum (map (fun x => (x - m) * (x - m)) k) = Rsum (map (fun x => x * x) k) - 2 * m * Rsum k + INR (length k) * (m * m)).
  { intros m k. induction k as [|a k IH]; [cbn; ring|]. cbn [map Rsum length]. rewrite S_INR, IH. ring. }
  pose proof (deviation_sqr l Hl) as D. rewrite G in D.
  assert (M : Rsum l = INR (length l) * mean l) by (unfold mean; field; exact Hn).
  rewrite M in D. lra.
Qed.

(** The product of normal densities. *)
Lemma prod_pdf mu sigma : 0 < sigma -> forall l a,
  fold_left (fun acc o => match acc, o with Some a, Some b => Some (nmul a b) | _, _ => None end)
            (map (norm_pdf mu sigma) l) (Some a) =
  Some (a * (/ (sqrt (2 * PI) * sigma)) ^ length l * exp (- Rsum (map (fun x => (x - mu) * (x - mu)) l) / (2 * (sigma * sigma)))).
Proof.
  intros Hs. assert (H0 : 0 < sqrt (2 * PI)) by (apply sqrt_lt_R0; pose proof PI_RGT_0; lra).
  assert (G : forall x, norm_pdf mu sigma x = Some (exp (- ((x - mu) * (x - mu)) / (2 * (sigma * sigma))) * / (sqrt (2 * PI) * sigma))).
  { intros x. unfold norm_pdf, nsqr. cbn [nltb nofZ nexp nopp ndiv nsqrt nmul nsub npi NumR].
    destruct (Rlt_dec 0 sigma); [|contradiction]. f_equal.
    replace (- ((x - mu) / sigma * ((x - mu) / sigma)) / 2) with (- ((x - mu) * (x - mu)) / (2 * (sigma * sigma))) by (field; lra).
    field. lra. }
  induction l as [|x l IH]; intros a; cbn [map fold_left length pow Rsum].
  - f_equal. replace (- 0 / (2 * (sigma * sigma))) with 0 by (field; lra). rewrite exp_0. ring.
  - rewrite G. cbn [nmul NumR]. rewrite IH. f_equal.
    replace (- ((x - mu) * (x - mu) + Rsum (map (fun x => (x - mu) * (x - mu)) l)) / (2 * (sigma * sigma)))
      with (- ((x - mu) * (x - mu)) / (2 * (sigma * sigma)) + - Rsum (map (fun x => (x - mu) * (x - mu)) l) / (2 * (sigma * sigma))) by (field; lra).
    rewrite exp_plus. ring.
Qed.

Lemma prod_none mu sigma : sigma <= 0 -> forall l, l <> [] -> @np_prod R NumR (map (norm_pdf mu sigma) l) = None.
Proof.
  intros Hs l Hl. destruct l as [|x l]; [congruence|]. unfold np_prod. cbn [map fold_left].
  replace (norm_pdf mu sigma x) with (@None R).
  2:{ unfold norm_pdf. cbn [nltb nofZ NumR]. destruct (Rlt_dec 0 sigma); [lra|reflexivity]. }
  induction (map (norm_pdf mu sigma) l) as [|o r IH]; [reflexivity|exact IH].
Qed.

Lemma exp_pow x n : exp x ^ n = exp (INR n * x).
Proof. induction n as [|n IH]; [cbn; rewrite Rmult_0_l, exp_0; reflexivity|]. rewrite S_INR. cbn [pow]. rewrite IH, <- exp_plus. f_equal. ring. Qed.

Lemma ratio_eq l n0 : l <> [] -> 0 < n0 -> 0 < deviation l -> forall threshold ppf alpha, ppf (1 - alpha) = threshold ->
  kom_neyman_pearson ppf l n0 alpha = nltb threshold (ratio l n0).
Proof.
  intros Hl H0 Hd threshold ppf alpha Ht. unfold kom_neyman_pearson, np_prod.
  rewrite np_std_R, np_mean_R. cbn [nofZ nsub ndiv NumR]. rewrite (prod_pdf 0 n0 H0), (prod_pdf (mean l) (deviation l) Hd). cbn zeta. rewrite Ht. f_equal.
  assert (Hc : 0 < sqrt (2 * PI)) by (apply sqrt_lt_R0; pose proof PI_RGT_0; lra).
  rewrite (deviation_sqr l Hl).
  replace (map (fun x => (x - 0) * (x - 0)) l) with (map (fun x => x * x) l) by (apply map_ext; intros; ring).
  rewrite (energy_split l Hl). unfold ratio. set (n := length l). set (s := deviation l) in *. set (m := mean l).
  rewrite Rpow_mult_distr, exp_pow.
  replace (- (INR n * (s * s)) / (2 * (s * s))) with (- (INR n / 2)) by (field; lra).
  rewrite !Rmult_1_l.
  replace ((/ (sqrt (2 * PI) * n0)) ^ n) with ((s / n0) ^ n * (/ (sqrt (2 * PI) * s)) ^ n)
    by (rewrite <- Rpow_mult_distr; f_equal; field; lra).
  replace (- (INR n * (s * s + m * m)) / (2 * (n0 * n0))) with (INR n * ((1 - (s * s + m * m) / (n0 * n0)) / 2) + - (INR n / 2)) by (field; lra).
  rewrite exp_plus. pose proof (exp_pos (- (INR n / 2))).
  assert (0 < (/ (sqrt (2 * PI) * s)) ^ n) by (apply pow_lt, Rinv_0_lt_compat, Rmult_lt_0_compat; assumption).
  field. lra.
Qed.

Lemma ratio_le_1 l n0 : 0 < n0 -> 0 < deviation l -> 0 < ratio l n0 <= 1.
Proof.
  intros H0 Hd. unfold ratio. set (s := deviation l) in *. set (m := mean l).
  set (b := s / n0 * exp _). assert (Hb : 0 < b).
  { unfold b. apply Rmult_lt_0_compat; [apply Rdiv_lt_0_compat; assumption|apply exp_pos]. }
  assert (Hb1 : b <= 1).
  { assert (Hsq : b * b <= 1).
    { unfold b. set (t := s / n0). assert (Ht : 0 < t) by (apply Rdiv_lt_0_compat; assumption).
      replace (t * exp ((1 - (s * s + m * m) / (n0 * n0)) / 2) * (t * exp ((1 - (s * s + m * m) / (n0 * n0)) / 2)))
        with (t * t * exp (1 - t * t - (m / n0) * (m / n0))).
      2:{ replace (1 - t * t - m / n0 * (m / n0)) with ((1 - (s * s + m * m) / (n0 * n0)) / 2 + (1 - (s * s + m * m) / (n0 * n0)) / 2) by (unfold t; field; lra).
          rewrite exp_plus. ring. }
      pose proof (exp_ineq1_le (t * t - 1 + m / n0 * (m / n0))) as E.
      assert (E2 : t * t <= exp (t * t - 1 + m / n0 * (m / n0))) by (pose proof (Rle_0_sqr (m / n0)); unfold Rsqr in *; lra).
      replace (1 - t * t - m / n0 * (m / n0)) with (- (t * t - 1 + m / n0 * (m / n0))) by ring.
      rewrite exp_Ropp. pose proof (exp_pos (t * t - 1 + m / n0 * (m / n0))) as Ep.
      apply (Rmult_le_reg_r (exp (t * t - 1 + m / n0 * (m / n0)))); [exact Ep|]. rewrite Rmult_assoc, Rinv_l by lra. lra. }
    nra. }
  split; [apply pow_lt; exact Hb|]. rewrite <- (pow1 (length l)). apply pow_incr. lra.
Qed.

Lemma deviation_zero l : deviation l <= 0 -> forall x, In x l -> x = mean l.
Proof.
  intros Hd x Hx. assert (Hl : l <> []) by (intros ->; destruct Hx).
  assert (D : deviation l = 0) by (pose proof (deviation_ge0 l); lra).
  pose proof (deviation_sqr l Hl) as E. rewrite D in E.
  assert (Z : (x - mean l) * (x - mean l) = 0).
  { apply (Rsum_zero (map (fun x => (x - mean l) * (x - mean l)) l)).
    - intros y Hy. apply in_map_iff in Hy. destruct Hy as (z & <- & _). apply Rle_0_sqr.
    - rewrite E. ring.
    - apply in_map_iff. exists x. split; [reflexivity|exact Hx]. }
  assert (x - mean l = 0) by (destruct (Rmult_integral _ _ Z); assumption). lra.
Qed.

Lemma mean_const l c : l <> [] -> (forall x, In x l -> x = c) -> mean l = c.
Proof.
  intros Hl Hc. assert (G : Rsum l = INR (length l) * c).
  { clear Hl. induction l as [|a l IH]; [cbn; ring|]. cbn [Rsum length]. rewrite S_INR, IH by (intros x Hx; apply Hc; right; exact Hx).
    rewrite (Hc a) by (left; reflexivity). ring. }
  unfold mean. rewrite G. field. apply not_0_INR. destruct l; [congruence|cbn; lia].
Qed.

Lemma varied l : 0 < deviation l <-> exists x y, In x l /\ In y l /\ x <> y.
Proof.
  split.
  - intros Hd. assert (Hl : l <> []).
    { intros ->. unfold deviation in Hd. cbn in Hd. unfold Rdiv in Hd. rewrite Rmult_0_l, sqrt_0 in Hd. lra. }
    destruct l as [|a l]; [congruence|]. destruct (List.Exists_dec (fun y => y <> a) l) as [E|E].
    + intros y. destruct (Req_EM_T y a); [right; tauto|left; assumption].
    + apply Exists_exists in E. destruct E as (y & Hy & Hn). exists y, a. repeat split; [right; exact Hy|left; reflexivity|exact Hn].
    + exfalso. assert (C : forall x, In x (a :: l) -> x = a).
      { intros x [<-|Hx]; [reflexivity|]. destruct (Req_EM_T x a); [assumption|]. exfalso. apply E, Exists_exists. exists x. tauto. }
      pose proof (mean_const _ a Hl C) as M. pose proof (deviation_sqr _ Hl) as D.
      assert (Z : Rsum (map (fun x => (x - mean (a :: l)) * (x - mean (a :: l))) (a :: l)) = 0).
      { rewrite M. clear D M. revert C. generalize (a :: l) as k. induction k as [|b k IH]; intros C; [reflexivity|]. cbn [map Rsum].
        rewrite IH by (intros x Hx; apply C; right; exact Hx). rewrite (C b) by (left; reflexivity). ring. }
      rewrite Z in D. assert (0 < INR (length (a :: l))) by (apply lt_0_INR; cbn; lia).
      assert (0 < deviation (a :: l) * deviation (a :: l)) by (apply Rmult_lt_0_compat; exact Hd).
      assert (0 < INR (length (a :: l)) * (deviation (a :: l) * deviation (a :: l))) by (apply Rmult_lt_0_compat; assumption). lra.
  - intros (x & y & Hx & Hy & Hn). destruct (Rle_lt_dec (deviation l) 0) as [D|D]; [|exact D].
    exfalso. apply Hn. rewrite (deviation_zero l D x Hx), (deviation_zero l D y Hy). reflexivity.
Qed.

(** What the test answers, for every signal: on samples that are not all equal it compares the
    likelihood ratio with the quantile; on constant samples, or for n0 <= 0, scipy answers nan and
    the test no; on no samples the ratio is 1. *)
Theorem C81_answer (ppf : R -> R) l n0 alpha :
  ((exists x y, In x l /\ In y l /\ x <> y) -> 0 < n0 ->
     (kom_neyman_pearson ppf l n0 alpha = true <-> ppf (1 - alpha) < ratio l n0)) /\
  (l <> [] -> (n0 <= 0 \/ forall x y, In x l -> In y l -> x = y) -> kom_neyman_pearson ppf l n0 alpha = false) /\
  (l = [] -> (kom_neyman_pearson ppf l n0 alpha = true <-> ppf (1 - alpha) < 1)).
Proof.
  split; [|split].
  - intros Hv H0. apply varied in Hv. assert (Hl : l <> []).
    { intros ->. unfold deviation in Hv. cbn in Hv. unfold Rdiv in Hv. rewrite Rmult_0_l, sqrt_0 in Hv. lra. }
    rewrite (ratio_eq l n0 Hl H0 Hv _ _ _ eq_refl). cbn [nltb NumR]. destruct (Rlt_dec _ _); split; (congruence || lra).
  - intros Hl H. unfold kom_neyman_pearson. cbn [nofZ NumR]. destruct H as [H|H].
    + rewrite (prod_none 0 n0 H l Hl). reflexivity.
    + rewrite np_std_R, np_mean_R, (prod_none (mean l) (deviation l)); [destruct (np_prod _); reflexivity| |exact Hl].
      destruct (Rle_lt_dec (deviation l) 0) as [D|D]; [exact D|]. exfalso. apply varied in D. destruct D as (x & y & Hx & Hy & Hn).
      apply Hn, H; assumption.
  - intros ->. unfold kom_neyman_pearson, np_prod. cbn [map fold_left nofZ ndiv nsub nltb NumR].
    destruct (Rlt_dec _ _) as [r|r]; split; (congruence || lra).
Qed.

(** The ratio never exceeds 1: no normal law is likelier than the fitted one.  It is 1 only for
    samples whose mean is 0 and whose deviation is n0. *)
Theorem C81_ratio l n0 : 0 < n0 -> (exists x y, In x l /\ In y l /\ x <> y) ->
  0 < ratio l n0 <= 1 /\ (ratio l n0 = 1 <-> mean l = 0 /\ deviation l = n0).
Proof.
  intros H0 Hv. pose proof Hv as Hv'. apply varied in Hv. split; [apply ratio_le_1; assumption|]. split.
  - intros E. unfold ratio in E. set (s := deviation l) in *. set (m := mean l) in *. set (n := length l) in *.
    set (b := s / n0 * exp _) in E.
    assert (Hn : (0 < n)%nat) by (destruct Hv' as (x & _ & Hx & _); unfold n; destruct l; [destruct Hx|cbn; lia]).
    assert (Hb : 0 < b). { unfold b. apply Rmult_lt_0_compat; [apply Rdiv_lt_0_compat; assumption|apply exp_pos]. }
    assert (Hb1 : b = 1).
    { destruct (Rtotal_order b 1) as [Hlt|[He|Hgt]]; [exfalso|exact He|exfalso].
      - assert (b ^ n < 1); [|lra]. destruct n as [|k]; [lia|]. cbn [pow].
        assert (b ^ k <= 1) by (rewrite <- (pow1 k); apply pow_incr; lra). assert (0 <= b ^ k) by (apply pow_le; lra). nra.
      - assert (1 < b ^ n); [|lra]. apply Rlt_pow_R1; [exact Hgt|exact Hn]. }
    set (t := s / n0) in *. assert (Ht : 0 < t) by (apply Rdiv_lt_0_compat; assumption).
    assert (Hsq : t * t * exp (1 - t * t - (m / n0) * (m / n0)) = 1).
    { replace (1 - t * t - m / n0 * (m / n0)) with ((1 - (s * s + m * m) / (n0 * n0)) / 2 + (1 - (s * s + m * m) / (n0 * n0)) / 2) by (unfold t; field; lra).
      rewrite exp_plus. transitivity (b * b); [unfold b; ring|rewrite Hb1; ring]. }
    replace (1 - t * t - m / n0 * (m / n0)) with (- (t * t - 1 + m / n0 * (m / n0))) in Hsq by ring.
    rewrite exp_Ropp in Hsq. pose proof (exp_pos (t * t - 1 + m / n0 * (m / n0))) as Ep.
    assert (Eq : t * t = exp (t * t - 1 + m / n0 * (m / n0))).
    { apply (Rmult_eq_reg_r (/ exp (t * t - 1 + m / n0 * (m / n0)))); [|apply Rinv_neq_0_compat; lra]. rewrite Hsq, Rinv_r by lra. reflexivity. }
    pose proof (Rle_0_sqr (m / n0)) as Hm. unfold Rsqr in Hm.
    destruct (Req_EM_T (t * t - 1 + m / n0 * (m / n0)) 0) as [Z|Z].
    + rewrite Z, exp_0 in Eq. assert (Hm0 : m / n0 * (m / n0) = 0) by lra.
      assert (Hm1 : m / n0 = 0) by (destruct (Rmult_integral _ _ Hm0); assumption). assert (Ht1 : t = 1) by nra. split.
      * replace m with (m / n0 * n0) by (field; lra). rewrite Hm1. ring.
      * replace s with (t * n0) by (unfold t; field; lra). rewrite Ht1. ring.
    + pose proof (exp_ineq1 _ Z). lra.
  - intros [M D]. unfold ratio. rewrite M, D. replace ((1 - (n0 * n0 + 0 * 0) / (n0 * n0)) / 2) with 0 by (field; lra).
    rewrite exp_0. replace (n0 / n0 * 1) with 1 by (field; lra). apply pow1.
Qed.

(** Where the normal quantile of 1 - alpha is 1 or more (alpha below 0.158, so for the default 0.05)
    the test never detects anything; where it is 0 or less (alpha from 0.5) it detects every signal,
    noise of exactly the named strength included. *)
Theorem C81_never ppf l n0 alpha : 1 <= ppf (1 - alpha) -> kom_neyman_pearson ppf l n0 alpha = false.
Proof.
  intros Hp. destruct (C81_answer ppf l n0 alpha) as (A & B & C).
  destruct l as [|a r]; [|set (l := a :: r) in *; assert (Hl : l <> []) by discriminate].
  - destruct (kom_neyman_pearson ppf [] n0 alpha); [|reflexivity]. exfalso. pose proof (proj1 (C eq_refl) eq_refl). lra.
  - destruct (Rle_lt_dec n0 0) as [H0|H0]; [apply B; [exact Hl|left; exact H0]|].
    destruct (Rle_lt_dec (deviation l) 0) as [D|D].
    + apply B; [exact Hl|right]. intros x y Hx Hy. rewrite (deviation_zero l D x Hx), (deviation_zero l D y Hy). reflexivity.
    + apply varied in D. destruct (kom_neyman_pearson ppf l n0 alpha); [|reflexivity]. exfalso.
      pose proof (proj1 (A D H0) eq_refl). destruct (C81_ratio l n0 H0 D) as [R1 _]. lra.
Qed.

Theorem C81_always ppf l n0 alpha : ppf (1 - alpha) <= 0 -> 0 < n0 -> (exists x y, In x l /\ In y l /\ x <> y) ->
  kom_neyman_pearson ppf l n0 alpha = true.
Proof.
  intros Hp H0 Hv. apply (proj1 (C81_answer ppf l n0 alpha)); [exact Hv|exact H0|]. destruct (C81_ratio l n0 H0 Hv). lra.
Qed.

(** ** binary64 *)

(** What is asked of libm's exp: on arguments <= 0, minus infinity included, a number of [0, 1]. *)
Definition exp_unit (libm : Libm) : Prop :=
  forall x : F64, Bleb x (f64_ofZ 0) = true -> fin (libm_exp libm x) = true /\ 0 <= val (libm_exp libm x) <= 1.

Lemma sqr_or_inf (z : F64) : fin z = true ->
  (fin (Bmult mode_NE z z) = true /\ 0 <= val (Bmult mode_NE z z)) \/ Bmult mode_NE z z = B754_infinity false.
Proof.
  intros Fz. pose proof (Bmult_correct 53 1024 _ _ mode_NE z z) as HC.
  change (round radix2 (SpecFloat.fexp 53 1024) (round_mode mode_NE) (B2R z * B2R z)) with (rd (val z * val z)) in HC.
  destruct (Rlt_bool (Rabs (rd (val z * val z))) (bpow radix2 1024)) eqn:E.
  - left. destruct HC as [V [F _]]. unfold fin in *. rewrite Fz in F. split; [exact F|]. unfold val at 1. rewrite V.
    rewrite <- rd_0. apply rd_le, Rle_0_sqr.
  - right. rewrite Bool.xorb_nilpotent in HC. destruct (Bmult mode_NE z z); cbn in HC; try discriminate. injection HC as ->. reflexivity.
Qed.

Lemma two_pi_sqrt : let s := Bsqrt mode_NE (Bmult mode_NE (f64_ofZ 2) f64_pi) in fin s = true /\ 5 / 2 <= val s.
Proof.
  destruct f64_pi_val as [Vp Fp]. destruct (ofZ_exact 2) as [V2 [F2 _]]; [lia|].
  assert (Hpi : 3125 / 1000 <= val f64_pi <= 4).
  { rewrite Vp. pose proof PI_4. pose proof pi_near. split.
    - apply Rmult_le_reg_r with (IZR (2 ^ 51)); [apply IZR_lt; lia|]. rewrite Rmult_assoc, Rinv_l, Rmult_1_r by (apply not_eq_sym, Rlt_not_eq, IZR_lt; lia).
      unfold Rdiv. lra.
    - apply Rmult_le_reg_r with (IZR (2 ^ 51)); [apply IZR_lt; lia|]. rewrite Rmult_assoc, Rinv_l, Rmult_1_r by (apply not_eq_sym, Rlt_not_eq, IZR_lt; lia).
      lra. }
  destruct (mul_fin (f64_ofZ 2) f64_pi F2 Fp) as [V F].
  { apply pow_1024. rewrite V2, Rabs_pos_eq by lra. apply Rle_trans with (bpow radix2 3); [change (bpow radix2 3) with 8; lra|apply bpow_le; lia]. }
  intros s. pose proof (Bsqrt_correct 53 1024 _ _ mode_NE (Bmult mode_NE (f64_ofZ 2) f64_pi)) as (VS & FS & _). fold s in VS, FS.
  assert (G : 625 / 100 <= val (Bmult mode_NE (f64_ofZ 2) f64_pi)).
  { rewrite V, V2. apply rd_ge_fmt; [|lra]. replace (625 / 100) with (IZR 25 * bpow radix2 (-2)) by (change (bpow radix2 (-2)) with (/ 4); lra). apply fmt_scaled; lia. }
  split.
  - unfold fin. rewrite FS. clear VS FS s. destruct (Bmult mode_NE (f64_ofZ 2) f64_pi) as [b|b| |b m e He]; try discriminate F; try reflexivity.
    destruct b; [|reflexivity]. exfalso. unfold val, B2R in G.
    assert (@F2R radix2 {| Fnum := SpecFloat.cond_Zopp true (Z.pos m); Fexp := e |} <= 0) by (apply F2R_le_0; cbn; lia). lra.
  - unfold val. rewrite VS.
    change (round radix2 (SpecFloat.fexp 53 1024) (round_mode mode_NE) (sqrt (B2R (Bmult mode_NE (f64_ofZ 2) f64_pi))))
      with (rd (sqrt (val (Bmult mode_NE (f64_ofZ 2) f64_pi)))).
    apply rd_ge_fmt. { replace (5 / 2) with (IZR 5 * bpow radix2 (-1)) by (change (bpow radix2 (-1)) with (/ 2); lra). apply fmt_scaled; lia. }
    replace (5 / 2) with (sqrt (625 / 100)); [apply sqrt_le_1_alt; exact G|].
    replace (625 / 100) with (5 / 2 * (5 / 2)) by lra. apply sqrt_square. lra.
Qed.

Lemma rd_tiny x : 0 <= x < bpow radix2 (-1075) -> rd x = 0.
Proof.
  intros [H0 H1]. destruct (Req_EM_T x 0) as [->|Hn]; [apply rd_0|].
  unfold rd. apply round_N_small_pos with (ex := mag radix2 x).
  - pose proof (bpow_mag_le radix2 x Hn) as A. pose proof (bpow_mag_gt radix2 x) as B. rewrite Rabs_pos_eq in A, B by exact H0. split; assumption.
  - assert (E : (mag radix2 x <= -1075)%Z) by (apply mag_le_bpow; [exact Hn|rewrite Rabs_pos_eq by exact H0; exact H1]).
    unfold FLT_exp. lia.
Qed.

(** The density at one sample, when n0 >= 1: a number of [0, 7/16]. *)
Lemma pdf_f64 libm (n0 x : F64) : exp_unit libm -> fin x = true -> fin n0 = true -> 1 <= val n0 ->
  exists q, @norm_pdf F64 (NumF libm) (f64_ofZ 0) n0 x = Some q /\ fin q = true /\ 0 <= val q <= 7 / 16.
Proof.
  intros He Fx Fn Hn. destruct val_0 as [V0 F0]. unfold norm_pdf, nsqr. cbn [nltb nofZ nexp nopp ndiv nsqrt nmul nsub npi NumF].
  rewrite (proj2 (ltb_val (f64_ofZ 0) n0 F0 Fn)) by (rewrite V0; lra).
  assert (Hmax : forall y : F64, fin y = true -> Rabs (val y) < bpow radix2 1024) by (intros y Fy; apply abs_B2R_lt_emax).
  destruct (sub_fin x (f64_ofZ 0) Fx F0) as [Vd Fd]. { rewrite V0, Rminus_0_r, rd_id by apply val_fmt. apply Hmax, Fx. }
  rewrite V0, Rminus_0_r, rd_id in Vd by apply val_fmt. set (d := Bminus mode_NE x (f64_ofZ 0)) in *.
  assert (Hdiv : forall y : F64, fin y = true -> Rabs (rd (val y / val n0)) <= Rabs (val y)).
  { intros y Fy. assert (A : Rabs (val y / val n0) <= Rabs (val y)).
    { unfold Rdiv. rewrite Rabs_mult. rewrite <- (Rmult_1_r (Rabs (val y))) at 2. apply Rmult_le_compat_l; [apply Rabs_pos|].
      rewrite Rabs_pos_eq by (left; apply Rinv_0_lt_compat; lra). rewrite <- Rinv_1. apply Rinv_le_contravar; lra. }
    apply Rabs_le. apply Rabs_le_inv in A. destruct A as [A1 A2].
    assert (Fa : fmt (Rabs (val y))) by (apply generic_format_abs, val_fmt). split.
    - apply rd_ge_fmt; [apply generic_format_opp, Fa|exact A1].
    - apply rd_le_fmt; [exact Fa|exact A2]. }
  assert (Hn0 : val n0 <> 0) by lra.
  destruct (div_fin d n0 Fd Hn0) as [Vz Fz]. { apply Rle_lt_trans with (1 := Hdiv d Fd), Hmax, Fd. }
  set (z := Bdiv mode_NE d n0) in *.
  assert (Hexp : Bleb (Bdiv mode_NE (Bopp (Bmult mode_NE z z)) (f64_ofZ 2)) (f64_ofZ 0) = true).
  { destruct (ofZ_exact 2) as [V2 [F2 _]]; [lia|]. destruct (sqr_or_inf z Fz) as [[Fq Hq]|Hi].
    - set (w := Bmult mode_NE z z) in *. assert (Fo : fin (Bopp w) = true) by (unfold fin; rewrite is_finite_Bopp; exact Fq).
      assert (Vo : val (Bopp w) = - val w) by apply B2R_Bopp.
      assert (Hb : Rabs (rd (val (Bopp w) / val (f64_ofZ 2))) <= Rabs (val w)).
      { rewrite Vo, V2. replace (- val w / 2) with (- (val w / 2)) by lra. rewrite rd_opp, Rabs_Ropp.
        rewrite !Rabs_pos_eq; [|lra|rewrite <- rd_0; apply rd_le; lra]. apply rd_le_fmt; [apply val_fmt|lra]. }
      destruct (div_fin (Bopp w) (f64_ofZ 2) Fo) as [Vh Fh]; [rewrite V2; lra|apply Rle_lt_trans with (1 := Hb), Hmax, Fq|].
      apply (leb_val _ _ Fh F0). rewrite Vh, V0, Vo, V2. rewrite <- rd_0. apply rd_le. lra.
    - rewrite Hi. reflexivity. }
  destruct (He _ Hexp) as [Fe Ve]. set (e := libm_exp libm _) in *.
  destruct two_pi_sqrt as [Fs Vs]. set (s := Bsqrt mode_NE _) in *.
  assert (Hq : 0 <= val e / val s <= 7 / 16).
  { split; [apply Rmult_le_pos; [lra|left; apply Rinv_0_lt_compat; lra]|]. apply Rmult_le_reg_r with (val s); [lra|].
    unfold Rdiv at 1. rewrite Rmult_assoc, Rinv_l by lra. lra. }
  assert (F7 : fmt (7 / 16)). { replace (7 / 16) with (IZR 7 * bpow radix2 (-4)) by (change (bpow radix2 (-4)) with (/ 16); lra). apply fmt_scaled; lia. }
  assert (R7 : 0 <= rd (val e / val s) <= 7 / 16). { split; [rewrite <- rd_0; apply rd_le; lra|apply rd_le_fmt; [exact F7|lra]]. }
  assert (B16 : 1 < bpow radix2 1024) by (change 1 with (bpow radix2 0); apply bpow_lt; lia).
  destruct (div_fin e s Fe) as [Vq Fq]; [lra|rewrite Rabs_pos_eq by lra; lra|]. set (q := Bdiv mode_NE e s) in *.
  rewrite <- Vq in R7.
  assert (R8 : 0 <= rd (val q / val n0) <= 7 / 16).
  { split; [rewrite <- rd_0; apply rd_le, Rmult_le_pos; [lra|left; apply Rinv_0_lt_compat; lra]|].
    pose proof (Hdiv q Fq) as A. apply Rle_trans with (1 := Rle_abs _), Rle_trans with (1 := A). rewrite Rabs_pos_eq; lra. }
  destruct (div_fin q n0 Fq Hn0) as [Vr Fr]; [rewrite Rabs_pos_eq by lra; lra|].
  exists (Bdiv mode_NE q n0). split; [reflexivity|]. split; [exact Fr|]. rewrite Vr. exact R8.
Qed.

(** 1075 factors below 7/16 underflow to 0. *)
Lemma prod_f64 libm (l : list (option F64)) :
  (forall o, In o l -> exists q, o = Some q /\ fin q = true /\ 0 <= val q <= 7 / 16) ->
  forall k a, fin a = true -> 0 <= val a <= bpow radix2 (- Z.of_nat k) ->
  exists p, fold_left (fun acc o => match acc, o with Some a, Some b => Some (@nmul F64 (NumF libm) a b) | _, _ => None end) l (Some a) = Some p /\
    fin p = true /\ 0 <= val p /\ ((1075 <= k + length l)%nat -> (1 <= length l)%nat \/ val a = 0 -> val p = 0).
Proof.
  induction l as [|o l IH]; intros Hl k a Fa Ha.
  - exists a. cbn. split; [reflexivity|]. split; [exact Fa|]. split; [lra|]. intros _ [H|H]; [lia|exact H].
  - destruct (Hl o (or_introl eq_refl)) as (q & -> & Fq & Hq). cbn [fold_left nmul NumF length].
    assert (Hp : 0 <= val a * val q <= val a * (7 / 16)) by (split; [apply Rmult_le_pos; lra|apply Rmult_le_compat_l; lra]).
    assert (B1 : bpow radix2 (- Z.of_nat k) <= 1) by (change 1 with (bpow radix2 0); apply bpow_le; lia).
    assert (Bb : 1 < bpow radix2 1024) by (change 1 with (bpow radix2 0); apply bpow_lt; lia).
    assert (R0 : 0 <= rd (val a * val q) <= 1) by (split; [rewrite <- rd_0; apply rd_le; lra|apply rd_le_fmt; [apply (fmt_bpow 0); lia|lra]]).
    destruct (mul_fin a q Fa Fq) as [V F]; [rewrite Rabs_pos_eq; lra|].
    assert (Hl' : forall o, In o l -> exists q, o = Some q /\ fin q = true /\ 0 <= val q <= 7 / 16) by (intros o Ho; apply Hl; right; exact Ho).
    destruct (le_lt_dec 1074 k) as [Hk|Hk].
    + assert (Z : val (Bmult mode_NE a q) = 0).
      { rewrite V. apply rd_tiny. split; [lra|]. assert (bpow radix2 (- Z.of_nat k) <= bpow radix2 (-1074)) by (apply bpow_le; lia).
        change (-1075)%Z with (-1 + -1074)%Z. rewrite bpow_plus. change (bpow radix2 (-1)) with (/ 2).
        pose proof (bpow_gt_0 radix2 (-1074)). lra. }
      destruct (IH Hl' k (Bmult mode_NE a q) F) as (p & E & Fp & Pp & Zp). { rewrite Z. split; [lra|apply bpow_ge_0]. }
      exists p. split; [exact E|]. split; [exact Fp|]. split; [exact Pp|]. intros _ _.
      destruct l as [|o2 l2]; [cbn in E; injection E as <-; exact Z|]. apply Zp; [|left; cbn; lia].
      cbn [length]. lia.
    + destruct (IH Hl' (S k) (Bmult mode_NE a q) F) as (p & E & Fp & Pp & Zp).
      { rewrite V. split; [lra|]. apply rd_le_fmt; [apply fmt_bpow; lia|].
        replace (- Z.of_nat (S k))%Z with (-1 + - Z.of_nat k)%Z by lia. rewrite bpow_plus. change (bpow radix2 (-1)) with (/ 2).
        pose proof (bpow_gt_0 radix2 (- Z.of_nat k)). lra. }
      exists p. split; [exact E|]. split; [exact Fp|]. split; [exact Pp|]. intros H1 _. apply Zp; [lia|left; lia].
Qed.

(** Not vacuous: an exp that answers 1/2. *)
Definition libm_half : Libm := {|
  libm_sin := fun x => x; libm_cos := fun x => x; libm_exp := fun _ => @Bdiv 53 1024 _ _ mode_NE (f64_ofZ 1) (f64_ofZ 2);
  libm_log10 := fun x => x; libm_pow := fun x _ => x; libm_sum_neg := false |}.
Example C81_exp_unit : exp_unit libm_half.
Proof. intros x _. cbn [libm_exp libm_half]. split; [reflexivity|]. replace (val _) with (/ 2); [lra|]. unfold val. compute. lra. Qed.

(** In binary64, for noise of deviation 1 or more and at least 1075 finite samples, the product of
    densities underflows to zero and the test answers no: for every signal, however loud, and every
    threshold that is not negative.  kom_py/willie.py:95-121 asks it with n0 = 2 and 8000 samples
    and more. *)
Theorem C81_long_f64 libm ppf (l : list F64) (n0 alpha : F64) : exp_unit libm ->
  Forall (fun x => fin x = true) l -> (1075 <= length l)%nat -> fin n0 = true -> 1 <= val n0 ->
  Bltb (ppf (Bminus mode_NE (f64_ofZ 1) alpha)) (f64_ofZ 0) = false ->
  @kom_neyman_pearson F64 (NumF libm) ppf l n0 alpha = false.
Proof.
  intros He Hl Hn Fn Hn0 Ht. unfold kom_neyman_pearson, np_prod. cbv zeta.
  destruct (prod_f64 libm (map (@norm_pdf F64 (NumF libm) (f64_ofZ 0) n0) l)) with (k := 0%nat) (a := f64_ofZ 1) as (p & E & Fp & _ & Zp).
  - intros o Ho. apply in_map_iff in Ho. destruct Ho as (x & <- & Hx). rewrite Forall_forall in Hl. apply pdf_f64; auto.
  - apply val_1.
  - rewrite (proj1 val_1). cbn. lra.
  - cbn [nofZ NumF] in *. rewrite E. rewrite map_length in Zp. specialize (Zp ltac:(lia) ltac:(left; lia)).
    destruct (fold_left _ (map (norm_pdf (np_mean l) (np_std l)) l) _) as [p1|]; [|reflexivity].
    cbn [nltb ndiv nsub NumF].
    assert (Hp : exists b, p = B754_zero b).
    { destruct p as [b|b| |b m e Hb]; try discriminate Fp; [eauto|]. exfalso. unfold val, B2R in Zp. apply eq_0_F2R in Zp. destruct b; discriminate Zp. }
    destruct Hp as [b ->]. set (t := ppf _) in *.
    assert (Hz : forall c, Bltb t (B754_zero c) = false).
    { intros c. change (f64_ofZ 0) with (@B754_zero 53 1024 false) in Ht. clearbody t. revert Ht. clear. intros Ht. destruct t as [b'|b'| |b' m' e' H']; try reflexivity; destruct b'; (reflexivity || discriminate Ht). }
    destruct p1 as [b1|b1| |b1 m1 e1 H1]; cbn [Bdiv]; try apply Hz; destruct t as [b'|b'| |b' m' e' H']; reflexivity.
Qed.

(** A signal a thousand times the noise, at the 5% quantile 1.645 scipy gives: not detected.  The
    same samples at alpha = 0.6 (quantile -0.253): detected. *)
Example C81_loud :
  kom_neyman_pearson (fun _ => 1645 / 1000) [1000; -1000; 1000; -1000] 1 (5 / 100) = false /\
  kom_neyman_pearson (fun _ => - (253 / 1000)) [1000; -1000; 1000; -1000] 1 (6 / 10) = true.
Proof.
  split; [apply C81_never; lra|]. apply C81_always; [lra|lra|]. exists 1000, (-1000). cbn. repeat split; [tauto|tauto|lra].
Qed.

Example C81_script libm : exp_unit libm ->
  @kom_neyman_pearson F64 (NumF libm) (fun _ => f64_ofZ 1) (repeat (f64_ofZ 1000) (8 * 1000)) (f64_ofZ 2) (f64_ofZ 0) = false.
Proof.
  intros He. apply C81_long_f64; [exact He| |rewrite repeat_length; apply Nat.leb_le; reflexivity| | |reflexivity].
  - apply Forall_forall. intros x Hx. apply repeat_spec in Hx. subst x. apply (proj1 (proj2 (ofZ_exact 1000 ltac:(lia)))).
  - apply (proj1 (proj2 (ofZ_exact 2 ltac:(lia)))).
  - rewrite (proj1 (ofZ_exact 2 ltac:(lia))). lra.
Qed.

(** ** C82 *)

(** The two detectors built on scipy's normality test answer opposite questions: at the same level
    the Python one says yes where the signal does not look normal, the Rust one where it does. *)
Theorem C82_opposite (normaltest : list R -> outcome R) (l : list R) (n0 p : R) : normaltest l = Ret p -> p <> 5 / 100 ->
  exists b, kom_p_value normaltest l n0 = Ret b /\ normal_detector normaltest l (5 / 100) = Ret (negb b) /\
    (b = true <-> p < 5 / 100).
Proof.
  intros E Hp. unfold kom_p_value, normal_detector. rewrite E. cbn [bind nltb nlit ndiv nofZ NumR]. unfold nlit. cbn [ndiv nofZ NumR]. eexists. split; [reflexivity|].
  destruct (Rlt_dec p (5 / 100)) as [L|L].
  - destruct (Rlt_dec (5 / 100) p); [lra|]. split; [reflexivity|]. split; auto.
  - destruct (Rlt_dec (5 / 100) p); [|lra]. split; [reflexivity|]. split; [discriminate|lra].
Qed.

(** At the level itself both say no. *)
Theorem C82_level (normaltest : list R -> outcome R) (l : list R) (n0 : R) : normaltest l = Ret (5 / 100) ->
  kom_p_value normaltest l n0 = Ret false /\ normal_detector normaltest l (5 / 100) = Ret false.
Proof.
  intros E. unfold kom_p_value, normal_detector. rewrite E. cbn [bind]. unfold nlit. cbn [nltb ndiv nofZ NumR].
  destruct (Rlt_dec _ _); [lra|]. auto.
Qed.

(** In binary64 they also agree on a p-value that is nan: both say no.  0.05 is
    the nearest binary64 number in both. *)
Definition f005 : F64 := @Bdiv 53 1024 _ _ mode_NE (f64_ofZ 5) (f64_ofZ 100).
Theorem C82_opposite_f64 libm (normaltest : list F64 -> outcome F64) (l : list F64) (n0 p : F64) : normaltest l = Ret p ->
  exists b c, @kom_p_value F64 (NumF libm) normaltest l n0 = Ret b /\ @normal_detector F64 (NumF libm) normaltest l f005 = Ret c /\
    (is_nan p = true -> b = false /\ c = false) /\
    (fin p = true -> (b = true <-> val p < val f005) /\ (c = true <-> val f005 < val p)).
Proof.
  intros E. unfold kom_p_value, normal_detector. rewrite E. cbn [bind]. unfold nlit. cbn [nltb ndiv nofZ NumF]. fold f005.
  eexists. eexists. split; [reflexivity|]. split; [reflexivity|].
  assert (F : fin f005 = true) by reflexivity. split.
  - intros Hn. destruct p; try discriminate Hn. split; reflexivity.
  - intros Hp. rewrite (ltb_val p f005 Hp F), (ltb_val f005 p F Hp). generalize (val f005) as u, (val p) as v. clear. intros u v.
    destruct (Rlt_bool_spec v u); destruct (Rlt_bool_spec u v); repeat split; intros; (discriminate || reflexivity || lra).
Qed.

(** Neither survives an exception. *)
Theorem C82_exception {T} `{Num T} (normaltest : list T -> outcome T) (l : list T) (n0 alpha : T) : normaltest l = Panic ->
  kom_p_value normaltest l n0 = Panic /\ normal_detector normaltest l alpha = Panic.
Proof. intros E. unfold kom_p_value, normal_detector. rewrite E. split; reflexivity. Qed.

(** A noise-like signal (p = 0.6): the Rust detector fires, the Python one does not. *)
Example C82_case :
  kom_p_value (fun _ => Ret (6 / 10)) [1; 2; 3] 1 = Ret false /\ normal_detector (fun _ => Ret (6 / 10)) [1; 2; 3] (5 / 100) = Ret true.
Proof.
  destruct (C82_opposite (fun _ => Ret (6 / 10)) [1; 2; 3] 1 (6 / 10) eq_refl ltac:(lra)) as (b & A & B & C).
  destruct b; [destruct C as [C _]; specialize (C eq_refl); lra|]. split; assumption.
Qed.

(** ** C86 *)

(** The logistic curve of pd_ber_snr_example.py: between 0 and L, strictly increasing, L/2 at its
    midpoint, symmetric about it, and taking every value in between, at the place the script marks. *)
Theorem C86_logistic (x0 L k : R) : 0 < L -> 0 < k ->
  (forall x, 0 < logistic_curve x x0 L k < L) /\
  (forall x y, x < y -> logistic_curve x x0 L k < logistic_curve y x0 L k) /\
  logistic_curve x0 x0 L k = L / 2 /\
  (forall d, logistic_curve (x0 + d) x0 L k + logistic_curve (x0 - d) x0 L k = L) /\
  (forall p x, 0 < p < L -> (logistic_curve x x0 L k = p <-> x = x0 + ln (p / (L - p)) / k)).
Proof.
  intros HL Hk. unfold logistic_curve. cbn [ndiv nadd nofZ nexp nmul nopp nsub NumR].
  assert (P : forall x, 0 < exp (- k * (x - x0))) by (intros; apply exp_pos).
  assert (mono : forall x y, x < y -> L / (1 + exp (- k * (x - x0))) < L / (1 + exp (- k * (y - x0)))).
  { intros x y Hxy. pose proof (P x). pose proof (P y). assert (exp (- k * (y - x0)) < exp (- k * (x - x0))) by (apply exp_increasing; nra).
    unfold Rdiv. apply Rmult_lt_compat_l; [lra|]. apply Rinv_lt_contravar; [nra|lra]. }
  assert (inv : forall p, 0 < p < L -> L / (1 + exp (- k * (x0 + ln (p / (L - p)) / k - x0))) = p).
  { intros p Hp. replace (- k * (x0 + ln (p / (L - p)) / k - x0)) with (- ln (p / (L - p))) by (field; lra).
    rewrite exp_Ropp, exp_ln by (apply Rdiv_lt_0_compat; lra). field. lra. }
  split; [|split; [exact mono|split; [|split]]].
  - intros x. pose proof (P x). split; [apply Rdiv_lt_0_compat; lra|]. apply Rmult_lt_reg_r with (1 + exp (- k * (x - x0))); [lra|].
    unfold Rdiv. rewrite Rmult_assoc, Rinv_l by lra. nra.
  - replace (- k * (x0 - x0)) with 0 by ring. rewrite exp_0. field.
  - intros d. replace (- k * (x0 + d - x0)) with (- (k * d)) by ring. replace (- k * (x0 - d - x0)) with (k * d) by ring.
    rewrite exp_Ropp. pose proof (exp_pos (k * d)). field. lra.
  - intros p x Hp. split; [|intros ->; apply inv, Hp]. intros E. set (y := x0 + ln (p / (L - p)) / k).
    pose proof (inv p Hp) as Ey. fold y in Ey. destruct (Rtotal_order x y) as [Hlt|[Heq|Hlt]]; [|exact Heq|]; apply mono in Hlt; lra.
Qed.

(** [find_idx_closest_to_point] never answers: an empty list raises, any other list is read at index
    0 for ever. *)
Theorem C86_search {T} `{Num T} (point : T) (vec : list T) :
  (vec = [] -> forall fuel, find_idx_closest_to_point (S fuel) point vec 0 = Panic) /\
  (vec <> [] -> forall fuel, find_idx_closest_to_point fuel point vec 0 = Diverge).
Proof.
  split; [intros ->; reflexivity|]. intros Hv fuel. destruct vec as [|v r]; [congruence|]. induction fuel as [|f IH]; [reflexivity|].
  cbn [find_idx_closest_to_point idx nth_error bind]. rewrite IH. destruct (nltb point v); reflexivity.
Qed.

(** The two marks of the script: 0.95 is reached at x0 + ln 19, for x0 = -15 and 3. *)
Example C86_marks : logistic_curve (- 15 + ln 19) (- 15) 1 1 = 95 / 100 /\ logistic_curve (3 + ln 19) 3 1 1 = 95 / 100.
Proof.
  split; apply C86_logistic; try lra; replace (95 / 100 / (1 - 95 / 100)) with 19 by lra; lra.
Qed.

(** ** Axioms used *)
Print Assumptions C81_answer.
Print Assumptions C81_ratio.
Print Assumptions C81_never.
Print Assumptions C81_always.
Print Assumptions C81_long_f64.
Print Assumptions C82_opposite.
Print Assumptions C82_level.
Print Assumptions C82_opposite_f64.
Print Assumptions C82_exception.
Print Assumptions C86_logistic.
Print Assumptions C86_search.
