(** Property C106: the FSK link of src/fm.rs in binary64, and the verdict of its test. *)
From Coq Require Import List Arith ZArith Reals Bool Lia Lra Psatz.
From Flocq Require Import Core BinarySingleNaN.
From Verif Require Import Base IterTheory IterModel IterProofs Spec SpecR Tab Num F64Lib LibModel LibFloat LibReal
  ChaosModel ChaosProofs ChaosMod PskModel PskChain PskFloat RSums PskReal FhFloat FloatSum FskModel FskReal Props_Fsk Props_Pass Props_PassF
  Props_FskNoise Props_Cdma OfdmPassF FskMargins FskFloat.
Import ListNotations.
Local Open Scope R_scope.

(** A small change of the samples changes the energy found at a tone by little. *)
Lemma hits_dist sr n (fc : R) k b (x y : nat -> R) A d : 0 <= d <= A ->
  (forall j, (j < n)%nat -> Rabs (y j) <= A /\ Rabs (x j - y j) <= d) ->
  Rabs (tone_hits sr n fc k b x - tone_hits sr n fc k b y) <= 6 * INR n ^ 2 * A * d.
Proof.
  intros Hd H. unfold tone_hits. set (w := tone sr fc b). pose proof (pos_INR n) as N0.
  assert (G : forall e : nat -> R, (forall j, Rabs (e j) <= 1) ->
    let X := Rsum_n n (fun j => x j * e j) in let Y := Rsum_n n (fun j => y j * e j) in Rabs (X * X - Y * Y) <= 3 * INR n ^ 2 * A * d).
  { intros e He X Y.
    assert (D : Rabs (X - Y) <= INR n * d).
    { apply Rsum_n_dist. intros j Hj. rewrite <- Rmult_minus_distr_r, Rabs_mult, <- (Rmult_1_r d).
      apply Rmult_le_compat; try apply Rabs_pos; [apply H; exact Hj|apply He]. }
    assert (BY : Rabs Y <= INR n * A).
    { unfold Y. replace (INR n * A) with (Rsum_n n (fun _ => A)) by apply Rsum_n_const. apply Rsum_n_abs_bound. intros j Hj.
      rewrite Rabs_mult, <- (Rmult_1_r A). apply Rmult_le_compat; try apply Rabs_pos; [apply H; exact Hj|apply He]. }
    replace (X * X - Y * Y) with ((X - Y) * (X + Y)) by ring. rewrite Rabs_mult.
    replace (3 * INR n ^ 2 * A * d) with (INR n * d * (3 * (INR n * A))) by ring.
    apply Rmult_le_compat; try apply Rabs_pos; [exact D|]. apply Rabs_le_inv in D. apply Rabs_le_inv in BY.
    assert (INR n * d <= INR n * A) by (apply Rmult_le_compat_l; lra). apply Rabs_le. lra. }
  pose proof (G (fun j => cos (w * INR k + w * INR j)) ltac:(intros; apply Rabs_le, COS_bound)) as GC.
  pose proof (G (fun j => sin (w * INR k + w * INR j)) ltac:(intros; apply Rabs_le, SIN_bound)) as GS. cbv zeta in GC, GS.
  apply Rabs_le_inv in GC. apply Rabs_le_inv in GS. apply Rabs_le. lra.
Qed.

Lemma setting_pos libm fc sr N tau B : fsk_setting libm fc sr N tau B -> 0 <= tau <= 1 / 4 /\ 0 <= B <= bpow radix2 44 /\ 0 <= 16 * B * u53 <= 1 / 32.
Proof.
  intros (_ & _ & Hsr & _ & _ & _ & Ht & HB1 & HB2). split; [exact Ht|]. pose proof u53_tiny as [U US].
  assert (B0 : 0 <= B).
  { apply Rle_trans with (2 := HB1). pose proof PI_3. pose proof (Rabs_pos (B2R fc)).
    apply Rmult_le_pos; [nra|]. apply Rmult_le_pos; [apply pos_INR|left; apply Rinv_0_lt_compat, lt_0_INR; lia]. }
  split; [lra|]. split; [nra|]. apply Rle_trans with (16 * bpow radix2 44 * u53); [apply Rmult_le_compat_r; lra|].
  replace (16 * bpow radix2 44 * u53) with (bpow radix2 (4 + 44 + -53)); [cbn; lra|]. rewrite !bpow_plus. reflexivity.
Qed.

(** ** C106 *)

(** Whatever is received: unless the two energies are within the rounding slack of each other, the comparison made in
    binary64 comes out as it does in exact arithmetic. *)
Theorem C106_fsk_receiver (libm : Libm) (received : Iter F64) (ys : list F64) K sr sy (fc : F64) (tau B A : R) :
  let num := NumF libm in let n := (sr / sy)%nat in
  (1 <= sy <= sr)%nat -> (Z.of_nat n <= 2 ^ 50)%Z -> yields received ys -> length ys = (K * n)%nat ->
  fsk_setting libm fc sr (K * n) tau B ->
  1 <= A <= bpow radix2 300 -> (forall y, In y ys -> is_finite y = true /\ Rabs (B2R y) <= A) ->
  exists rx bits, rx_fsk received sr sy fc = Ret rx /\ yields rx bits /\ length bits = K /\
    forall k, (k < K)%nat ->
      let hits f := let w := 2 * PI * f / INR sr in
        let I := Rsum_n n (fun j => B2R (nth (k * n + j) ys (f64_ofZ 0)) * cos (w * INR (k + j))) in
        let Q := Rsum_n n (fun j => B2R (nth (k * n + j) ys (f64_ofZ 0)) * sin (w * INR (k + j))) in I * I + Q * Q in
      let D := hits (B2R fc + B2R fc / 40) - hits (B2R fc - B2R fc / 40) in
      let slack := 12 * (INR n * A) ^ 2 * (tau + (16 * B + 2 * INR n + 15) * bpow radix2 (-53)) in
      (slack <= D -> nth k bits false = true) /\ (D < - slack -> nth k bits false = false).
Proof.
  intros num n Hs Hn Y L HS HA Hy. rewrite <- (tab_nth_id ys (f64_ofZ 0)), L in Y.
  destruct (rx_fsk_f64 libm received K _ sr sy fc tau B A Hs Hn Y HS HA) as (rx & bits & E & YR & LB & H).
  { intros i Hi. apply Hy. apply nth_In. rewrite L. exact Hi. }
  exists rx, bits. split; [exact E|]. split; [exact YR|]. split; [exact LB|]. intros k Hk hits D slack. specialize (H k Hk). fold n in H. cbv beta zeta in H.
  assert (T : forall b, tone_hits sr n (val fc) k b (fun j => val (nth (k * n + j) ys (f64_ofZ 0))) = hits (if b then B2R fc + B2R fc / 40 else B2R fc - B2R fc / 40)).
  { intros b. unfold tone_hits, hits. cbv zeta.
    assert (W : tone sr (val fc) b = 2 * PI * (if b then B2R fc + B2R fc / 40 else B2R fc - B2R fc / 40) / INR sr).
    { unfold tone. change (val fc) with (B2R fc). f_equal. destruct b; field. }
    rewrite W. set (w := 2 * PI * _ / INR sr).
    rewrite (Rsum_n_ext _ (fun j => _ * cos (w * INR k + w * INR j)) (fun j => B2R (nth (k * n + j) ys (f64_ofZ 0)) * cos (w * INR (k + j))))
      by (intros; rewrite plus_INR, Rmult_plus_distr_l; reflexivity).
    rewrite (Rsum_n_ext _ (fun j => _ * sin (w * INR k + w * INR j)) (fun j => B2R (nth (k * n + j) ys (f64_ofZ 0)) * sin (w * INR (k + j))))
      by (intros; rewrite plus_INR, Rmult_plus_distr_l; reflexivity). reflexivity. }
  rewrite !T in H. fold D in H. replace (12 * (INR n * A) ^ 2 * (tau + 16 * B * u53 + (2 * INR n + 15) * u53)) with slack in H by (unfold slack; fold u53; ring).
  exact H.
Qed.

(** What the transmitter sends is decided, symbol by symbol, as in exact arithmetic, unless the symbol's margin is within
    the rounding slack of 0. *)
Theorem C106_fsk_decision (libm : Libm) (message : Iter bool) (m : list bool) sr sy (fc : F64) (tau B : R) :
  let num := NumF libm in let n := (sr / sy)%nat in
  yields message m -> (1 <= sy <= sr)%nat -> (Z.of_nat n <= 2 ^ 50)%Z -> fsk_setting libm fc sr (length m * n) tau B ->
  exists tx rx bits, tx_fsk message sr sy fc = Ret tx /\ rx_fsk tx sr sy fc = Ret rx /\ yields rx bits /\ length bits = length m /\
    forall k b, nth_error m k = Some b ->
      let margin := fsk_margin sr n (B2R fc) k b in
      let slack := 96 * INR n ^ 2 * (tau + (16 * B + 2 * INR n + 15) * bpow radix2 (-53)) in
      (slack <= margin -> nth k bits false = b) /\ (margin < - slack -> nth k bits false = negb b).
Proof.
  intros num n Hm Hs Hn HS. destruct (setting_pos _ _ _ _ _ _ HS) as (Ht & HB & HBU). pose proof u53_tiny as [U US].
  destruct (tx_fsk_f64 libm message m sr sy fc tau B Hs Hm HS) as (tx & g & Et & Yt & Hg). fold n in Yt, Hg.
  assert (P300 : 1 <= 1 <= bpow radix2 300) by (split; [lra|]; change 1 with (bpow radix2 0); apply bpow_le; lia).
  destruct (rx_fsk_f64 libm tx (length m) g sr sy fc tau B 1 Hs Hn Yt HS P300) as (rx & bits & Er & Yr & L & H).
  { intros i Hi. destruct (Hg i Hi) as (? & ? & _). auto. }
  exists tx, rx, bits. split; [exact Et|]. split; [exact Er|]. split; [exact Yr|]. split; [exact L|].
  intros k b Hk margin slack. assert (Lk : (k < length m)%nat) by (apply nth_error_Some; congruence). specialize (H k Lk). fold n in H. cbv beta zeta in H.
  assert (Hn1 : (1 <= n)%nat) by (apply Nat.div_le_lower_bound; lia).
  set (x := fun j => val (g (k * n + j)%nat)) in *. set (y := fun j => cos (tone sr (val fc) b * INR (k * n) + tone sr (val fc) b * INR j)).
  set (d0 := tau + 16 * B * u53) in *.
  assert (XY : forall j, (j < n)%nat -> Rabs (y j) <= 1 /\ Rabs (x j - y j) <= d0).
  { intros j Hj. split; [apply Rabs_le, COS_bound|]. destruct (Hg (k * n + j)%nat ltac:(nia)) as (_ & _ & D).
    rewrite block_div in D by exact Hj. rewrite (nth_error_nth _ _ false Hk), tone_ph in D. exact D. }
  pose proof (hits_dist sr n (val fc) k true x y 1 d0 ltac:(unfold d0; lra) XY) as D1.
  pose proof (hits_dist sr n (val fc) k false x y 1 d0 ltac:(unfold d0; lra) XY) as D2.
  apply Rabs_le_inv in D1. apply Rabs_le_inv in D2.
  assert (EM : tone_hits sr n (val fc) k true y - tone_hits sr n (val fc) k false y = (if b then 1 else -1) * (margin / 4)).
  { pose proof (tone_energy n (tone sr (val fc) b * INR (k * n)) (tone sr (val fc) true * INR k) (tone sr (val fc) b) (tone sr (val fc) true)) as E1.
    pose proof (tone_energy n (tone sr (val fc) b * INR (k * n)) (tone sr (val fc) false * INR k) (tone sr (val fc) b) (tone sr (val fc) false)) as E2.
    cbv zeta in E1, E2. match type of E1 with _ = ?r => change (4 * tone_hits sr n (val fc) k true y = r) in E1 end.
    match type of E2 with _ = ?r => change (4 * tone_hits sr n (val fc) k false y = r) in E2 end.
    replace (tone_hits sr n (val fc) k true y - tone_hits sr n (val fc) k false y)
      with ((4 * tone_hits sr n (val fc) k true y - 4 * tone_hits sr n (val fc) k false y) / 4) by field.
    rewrite E1, E2. unfold margin, fsk_margin. change (B2R fc) with (val fc).
    replace (2 * (tone sr (val fc) b * INR (k * n))) with (2 * tone sr (val fc) b * INR (k * n)) by ring.
    destruct b; cbn [negb].
    - replace (tone sr (val fc) true - tone sr (val fc) true) with 0 by ring. replace (tone sr (val fc) true + tone sr (val fc) true) with (2 * tone sr (val fc) true) by ring.
      rewrite kernel_0. field.
    - replace (tone sr (val fc) false - tone sr (val fc) false) with 0 by ring. replace (tone sr (val fc) false + tone sr (val fc) false) with (2 * tone sr (val fc) false) by ring.
      rewrite kernel_0. field. }
  assert (N1 : 1 <= INR n) by (apply (le_INR 1); exact Hn1).
  assert (N2 : 0 < INR n ^ 2) by (apply pow_lt; lra).
  assert (SL : 12 * (INR n * 1) ^ 2 * (d0 + (2 * INR n + 15) * u53) + 12 * INR n ^ 2 * 1 * d0 < slack / 4).
  { unfold slack. change (bpow radix2 (-53)) with u53. replace (96 * INR n ^ 2 * (tau + (16 * B + 2 * INR n + 15) * u53) / 4)
      with (12 * (INR n * 1) ^ 2 * (d0 + (2 * INR n + 15) * u53) + 12 * INR n ^ 2 * 1 * d0 + 12 * (INR n ^ 2 * ((2 * INR n + 15) * u53))) by (unfold d0; field).
    assert (0 < INR n ^ 2 * ((2 * INR n + 15) * u53)) by (apply Rmult_lt_0_compat; [exact N2|]; apply Rmult_lt_0_compat; lra). lra. }
  destruct H as [H1 H2]. set (s1 := 12 * (INR n * 1) ^ 2 * (d0 + (2 * INR n + 15) * u53)) in *.
  assert (S0 : 0 <= s1).
  { unfold s1. rewrite Rmult_1_r. apply Rmult_le_pos; [lra|]. assert (0 <= (2 * INR n + 15) * u53) by (apply Rmult_le_pos; lra). unfold d0. lra. }
  set (T := tone_hits sr n (val fc) k true x) in *. set (F := tone_hits sr n (val fc) k false x) in *.
  destruct b; cbn [negb]; split; intros M; first [apply H1; lra | apply H2; lra].
Qed.

(** Tones kept apart by kappa: the message comes back. *)
Theorem C106_fsk_round_trip (libm : Libm) (message : Iter bool) (m : list bool) sr sy (fc : F64) (tau B kappa : R) :
  let num := NumF libm in let n := (sr / sy)%nat in
  yields message m -> (1 <= sy <= sr)%nat -> (Z.of_nat n <= 2 ^ 50)%Z -> fsk_setting libm fc sr (length m * n) tau B ->
  (forall b, Rabs (kernel n (2 * tone sr (B2R fc) b)) + Rabs (kernel n (tone sr (B2R fc) true - tone sr (B2R fc) false)) +
             Rabs (kernel n (tone sr (B2R fc) true + tone sr (B2R fc) false)) <= (1 - kappa) * INR n) ->
  0 <= kappa -> 96 * (tau + (16 * B + 2 * INR n + 15) * bpow radix2 (-53)) <= kappa ^ 2 ->
  exists tx rx, tx_fsk message sr sy fc = Ret tx /\ rx_fsk tx sr sy fc = Ret rx /\ yields rx m.
Proof.
  intros num n Hm Hs Hn HS Hk K0 HK. destruct (C106_fsk_decision libm message m sr sy fc tau B Hm Hs Hn HS) as (tx & rx & bits & Et & Er & Yr & L & H).
  exists tx, rx. split; [exact Et|]. split; [exact Er|]. replace m with bits; [exact Yr|].
  apply nth_ext with (d := false) (d' := false); [exact L|]. intros k Lk. rewrite L in Lk.
  destruct (nth_error m k) as [b|] eqn:E; [|apply nth_error_None in E; lia]. rewrite (nth_error_nth _ _ _ E).
  apply (H k b E). fold n. unfold fsk_margin. set (c := cos _). assert (Hc : -1 <= c <= 1) by apply COS_bound. specialize (Hk b).
  set (f := B2R fc) in *.
  assert (Ed : Rabs (kernel n (tone sr f true - tone sr f false)) = Rabs (kernel n (tone sr f b - tone sr f (negb b)))).
  { destruct b; cbn [negb]; [reflexivity|]. rewrite <- kernel_neg. do 2 f_equal. ring. }
  assert (Es : kernel n (tone sr f true + tone sr f false) = kernel n (tone sr f b + tone sr f (negb b))).
  { destruct b; cbn [negb]; [reflexivity|]. f_equal. ring. }
  rewrite Ed, Es in Hk.
  assert (HN : 0 <= INR n) by apply pos_INR.
  apply Rle_trans with (INR n ^ 2 * kappa ^ 2).
  { replace (96 * INR n ^ 2 * _) with (INR n ^ 2 * (96 * (tau + (16 * B + 2 * INR n + 15) * bpow radix2 (-53)))) by ring.
    apply Rmult_le_compat_l; [apply pow_le; exact HN|exact HK]. }
  clear - Hk Hc HN K0.
  set (p := kernel n (2 * tone sr f b)) in *. set (d := kernel n (_ - _)) in *. set (s := kernel n (_ + _)) in *. set (N := INR n) in *.
  assert (A1 : N * N + p * p + 2 * N * p * c >= (N - Rabs p) * (N - Rabs p)).
  { assert (- Rabs p <= p * c). { unfold Rabs. destruct (Rcase_abs p); nra. }
    assert (Rabs p * Rabs p = p * p) by (unfold Rabs; destruct (Rcase_abs p); ring). nra. }
  assert (A2 : d * d + s * s + 2 * d * s * c <= (Rabs d + Rabs s) * (Rabs d + Rabs s)).
  { assert (d * s * c <= Rabs d * Rabs s). { rewrite <- Rabs_mult. unfold Rabs. destruct (Rcase_abs (d * s)); nra. }
    assert (Rabs d * Rabs d = d * d) by (unfold Rabs; destruct (Rcase_abs d); ring).
    assert (Rabs s * Rabs s = s * s) by (unfold Rabs; destruct (Rcase_abs s); ring). nra. }
  pose proof (Rabs_pos d). pose proof (Rabs_pos s). pose proof (Rabs_pos p).
  set (a := N - Rabs p) in *. set (e := Rabs d + Rabs s) in *. assert (X : kappa * N <= a - e) by (unfold a, e; lra).
  assert (0 <= kappa * N) by nra. assert (0 <= e) by (unfold e; lra).
  assert (Y : kappa * N * (kappa * N) <= (a - e) * (a + e)) by (apply Rmult_le_compat; lra).
  replace (N ^ 2 * kappa ^ 2) with (kappa * N * (kappa * N)) by ring. lra.
Qed.

(** How far the right tone is ahead of the wrong one when the noise has at most e times the energy that could turn a symbol. *)
Lemma faded_ahead (sr n : nat) (fc : R) k b theta (z : nat -> R) e :
  (1 <= n)%nat -> (forall b, kernel n (2 * tone sr fc b) = 0) -> kernel n (tone sr fc true - tone sr fc false) = 0 ->
  kernel n (tone sr fc true + tone sr fc false) = 0 ->
  Rsum_n n (fun j => z j * z j) <= e * (INR n / 4) ->
  let x j := cos (theta + tone sr fc b * INR j) + z j in
  (1 - e) * INR n ^ 2 / 8 <= tone_hits sr n fc k b x - tone_hits sr n fc k (negb b) x.
Proof.
  intros Hn K2w Kd Ks Hz x. destruct (faded_hits sr n fc K2w Kd Ks k b 1 theta z) as (al & _ & E1 & E2). cbv zeta in E1, E2.
  assert (X : forall c, tone_hits sr n fc k c x = tone_hits sr n fc k c (fun j => 1 * cos (theta + tone sr fc b * INR j) + z j)).
  { intros c. apply hits_ext. intros j _. unfold x. ring. }
  rewrite !X, E1, E2.
  pose proof (noise_hits sr n fc Hn K2w Kd Ks k b z) as Bs. cbv beta zeta in Bs.
  set (p := Rsum_n n (fun j => z j * cos (tone sr fc b * INR k + _))) in *. set (q := Rsum_n n (fun j => z j * sin (tone sr fc b * INR k + _))) in *.
  set (p' := Rsum_n n (fun j => z j * cos (tone sr fc (negb b) * INR k + _))) in *. set (q' := Rsum_n n (fun j => z j * sin (tone sr fc (negb b) * INR k + _))) in *.
  set (Z := Rsum_n n (fun j => z j * z j)) in *. set (u := 1 * (INR n / 2) * cos al). set (y := - (1) * (INR n / 2) * sin al).
  assert (PN : 0 < INR n) by (apply lt_0_INR; lia).
  assert (U : u * u + y * y = INR n ^ 2 / 4).
  { pose proof (sin2_cos2 al) as SC. unfold Rsqr in SC. unfold u, y.
    transitivity (INR n ^ 2 / 4 * (sin al * sin al + cos al * cos al)); [field|]. rewrite SC. ring. }
  assert (V : INR n / 2 * Z <= e * INR n ^ 2 / 8).
  { replace (e * INR n ^ 2 / 8) with (INR n / 2 * (e * (INR n / 4))) by field. apply Rmult_le_compat_l; lra. }
  assert (0 <= (u + 2 * p) * (u + 2 * p)) by apply Rle_0_sqr. assert (0 <= (y + 2 * q) * (y + 2 * q)) by apply Rle_0_sqr. lra.
Qed.

(** Orthogonal tones and noise: no symbol turns if the noise on it has at most e times a quarter of the number of samples
    in energy, e < 1 by more than the rounding slack. *)
Theorem C106_fsk_noise (libm : Libm) (message : Iter bool) (m : list bool) (noise : list F64) sr sy (fc : F64) (a : nat) (tau B Z e : R) :
  let num := NumF libm in let n := (sr / sy)%nat in
  yields message m -> (1 <= sy <= sr)%nat -> (Z.of_nat n <= 2 ^ 50)%Z -> fsk_setting libm fc sr (length m * n) tau B ->
  (1 <= a)%nat -> B2R fc * INR n = 20 * INR a * INR sr -> B2R fc * (1 + 1 / 40) < INR sr / 2 ->
  length noise = (length m * n)%nat -> 0 <= Z <= bpow radix2 200 -> (forall x, In x noise -> is_finite x = true /\ Rabs (B2R x) <= Z) ->
  (forall k, (k < length m)%nat -> Rsum_n n (fun j => (B2R (nth (k * n + j) noise (f64_ofZ 0))) ^ 2) <= e * (INR n / 4)) ->
  480 * (1 + Z) ^ 2 * (tau + (16 * B + 2 * INR n + 15) * bpow radix2 (-53)) < 1 - e ->
  exists tx rx, tx_fsk message sr sy fc = Ret tx /\ rx_fsk (noisy tx noise) sr sy fc = Ret rx /\ yields rx m.
Proof.
  intros num n Hm Hs Hn HS Ha Hfc Hny HL HZ Hnz HE HC. destruct (setting_pos _ _ _ _ _ _ HS) as (Ht & HB & HBU). pose proof u53_tiny as [U US].
  assert (Hn1 : (1 <= n)%nat) by (apply Nat.div_le_lower_bound; lia).
  destruct (orthogonal_tones sr n (val fc) a Hn1 ltac:(lia) Ha Hfc) as (K2w & Kd & Ks); [change (val fc) with (B2R fc); lra|].
  destruct (tx_fsk_f64 libm message m sr sy fc tau B Hs Hm HS) as (tx & g & Et & Yt & Hg). fold n in Yt, Hg.
  pose proof (noisy_yields tx noise _ _ (nofZ 0) Yt HL) as Yn.
  assert (P200 : 1 <= bpow radix2 200) by (change 1 with (bpow radix2 0); apply bpow_le; lia).
  set (A := 2 * (1 + Z)).
  assert (HA : 1 <= A <= bpow radix2 300).
  { unfold A. split; [lra|]. apply Rle_trans with (bpow radix2 (2 + 200)); [|apply bpow_le; lia]. rewrite bpow_plus. change (bpow radix2 2) with 4. lra. }
  set (zf := fun i => nth i noise (nofZ 0)) in *.
  assert (HZf : forall i, (i < length m * n)%nat -> fin (zf i) = true /\ Rabs (val (zf i)) <= Z) by (intros i Hi; apply Hnz, nth_In; rewrite HL; exact Hi).
  assert (HR : forall i, (i < length m * n)%nat -> fin (nadd (g i) (zf i)) = true /\ Rabs (val (nadd (g i) (zf i))) <= A /\
     Rabs (val (nadd (g i) (zf i)) - (val (g i) + val (zf i))) <= 2 * (1 + Z) * u53).
  { intros i Hi. destruct (Hg i Hi) as (Fg & Bg & _). destruct (HZf i Hi) as (Fz & Bz).
    assert (BB : Rabs (val (g i) + val (zf i)) <= 1 + Z) by (eapply Rle_trans; [apply Rabs_triang|]; lra).
    destruct (add_err _ _ Fg Fz) as [F E].
    { apply Rle_trans with (1 := BB). apply Rle_trans with (bpow radix2 (1 + 200)); [rewrite bpow_plus; change (bpow radix2 1) with 2; lra|]. apply bpow_le. lia. }
    change (Bplus mode_NE (g i) (zf i)) with (nadd (g i) (zf i)) in F, E. pose proof (small_exp (-1075) ltac:(lia)) as T.
    assert (Rabs (val (g i) + val (zf i)) * u53 <= (1 + Z) * u53) by (apply Rmult_le_compat_r; lra).
    assert (0 <= Z * u53) by (apply Rmult_le_pos; lra).
    split; [exact F|]. assert (E2 : Rabs (val (nadd (g i) (zf i)) - (val (g i) + val (zf i))) <= 2 * (1 + Z) * u53) by lra. split; [|exact E2].
    assert ((1 + Z) * u53 <= (1 + Z) * (1 / 10)) by (apply Rmult_le_compat_l; lra).
    apply Rabs_le_inv in E2. apply Rabs_le_inv in BB. unfold A. apply Rabs_le. lra. }
  destruct (rx_fsk_f64 libm (noisy tx noise) (length m) _ sr sy fc tau B A Hs Hn Yn HS HA) as (rx & bits & Er & Yr & L & H).
  { intros i Hi. destruct (HR i Hi) as (? & ? & _). auto. }
  exists tx, rx. split; [exact Et|]. split; [exact Er|]. replace m with bits; [exact Yr|].
  apply nth_ext with (d := false) (d' := false); [exact L|]. intros k Lk. rewrite L in Lk. specialize (H k Lk). fold n in H. cbv beta zeta in H.
  set (b := nth k m false). set (x := fun j => val (nadd (g (k * n + j)%nat) (nth (k * n + j) noise (nofZ 0)))) in *.
  set (z := fun j => val (zf (k * n + j)%nat)).
  set (y := fun j => cos (tone sr (val fc) b * INR (k * n) + tone sr (val fc) b * INR j) + z j).
  set (d := tau + 16 * B * u53 + 2 * (1 + Z) * u53).
  assert (Hi : forall j, (j < n)%nat -> (k * n + j < length m * n)%nat) by (intros; nia).
  assert (Z0 : 0 <= Z * u53) by (apply Rmult_le_pos; lra).
  assert (XY : forall j, (j < n)%nat -> Rabs (y j) <= 1 + Z /\ Rabs (x j - y j) <= d).
  { intros j Hj. destruct (HZf _ (Hi j Hj)) as (_ & Bz). destruct (HR _ (Hi j Hj)) as (_ & _ & E). destruct (Hg _ (Hi j Hj)) as (_ & _ & D).
    rewrite block_div in D by exact Hj. fold b in D. rewrite tone_ph in D. split.
    - unfold y. eapply Rle_trans; [apply Rabs_triang|]. apply Rplus_le_compat; [apply Rabs_le, COS_bound|exact Bz].
    - change (Rabs (x j - (val (g (k * n + j)%nat) + z j)) <= 2 * (1 + Z) * u53) in E.
      replace (x j - y j) with ((x j - (val (g (k * n + j)%nat) + z j)) + (val (g (k * n + j)%nat) - cos (tone sr (val fc) b * INR (k * n) + tone sr (val fc) b * INR j))) by (unfold y; ring).
      eapply Rle_trans; [apply Rabs_triang|]. unfold d. lra. }
  assert (ZU : (1 + Z) * u53 <= (1 + Z) * (1 / 10)) by (apply Rmult_le_compat_l; lra).
  assert (Hd : 0 <= d <= 1 + Z) by (unfold d; lra).
  pose proof (hits_dist sr n (val fc) k b x y (1 + Z) d Hd XY) as D1.
  pose proof (hits_dist sr n (val fc) k (negb b) x y (1 + Z) d Hd XY) as D2.
  apply Rabs_le_inv in D1. apply Rabs_le_inv in D2.
  assert (EK : Rsum_n n (fun j => z j * z j) <= e * (INR n / 4)).
  { eapply Rle_trans; [|exact (HE k Lk)]. right. apply Rsum_n_ext. intros j _. change (B2R (nth (k * n + j) noise (f64_ofZ 0))) with (z j). ring. }
  pose proof (faded_ahead sr n (val fc) k b (tone sr (val fc) b * INR (k * n)) z e Hn1 K2w Kd Ks EK) as AH. cbv zeta in AH. fold y in AH.
  assert (N1 : 1 <= INR n) by (apply (le_INR 1); exact Hn1). assert (N2 : 0 < INR n ^ 2) by (apply pow_lt; lra).
  set (dl := tau + 16 * B * u53 + (2 * INR n + 15) * u53) in *.
  assert (Dl : 0 < dl) by (unfold dl; assert (0 < (2 * INR n + 15) * u53) by (apply Rmult_lt_0_compat; lra); lra).
  assert (HC' : 480 * (1 + Z) ^ 2 * dl < 1 - e).
  { replace dl with (tau + (16 * B + 2 * INR n + 15) * bpow radix2 (-53)); [exact HC|]. unfold dl. change (bpow radix2 (-53)) with u53. ring. }
  assert (S1 : 12 * (INR n * A) ^ 2 * dl + 12 * INR n ^ 2 * (1 + Z) * d < (1 - e) * INR n ^ 2 / 8).
  { assert (Dd : (1 + Z) * d <= (1 + Z) ^ 2 * dl).
    { replace ((1 + Z) ^ 2 * dl) with ((1 + Z) * ((1 + Z) * dl)) by ring. apply Rmult_le_compat_l; [lra|].
      assert (dl <= (1 + Z) * dl) by nra.
      assert ((1 + Z) * (15 * u53) <= (1 + Z) * ((2 * INR n + 15) * u53)) by (apply Rmult_le_compat_l; [lra|]; apply Rmult_le_compat_r; lra).
      assert (0 <= Z * (tau + 16 * B * u53)) by (apply Rmult_le_pos; lra). unfold d, dl. lra. }
    assert (Q : INR n ^ 2 * (60 * (1 + Z) ^ 2 * dl) < INR n ^ 2 * ((1 - e) / 8)) by (apply Rmult_lt_compat_l; lra).
    assert (Q2 : INR n ^ 2 * (12 * ((1 + Z) * d)) <= INR n ^ 2 * (12 * ((1 + Z) ^ 2 * dl))) by (apply Rmult_le_compat_l; lra).
    replace (12 * (INR n * A) ^ 2 * dl) with (INR n ^ 2 * (48 * (1 + Z) ^ 2 * dl)) by (unfold A; ring).
    replace (12 * INR n ^ 2 * (1 + Z) * d) with (INR n ^ 2 * (12 * ((1 + Z) * d))) by ring. lra. }
  assert (S0 : 0 <= 12 * (INR n * A) ^ 2 * dl) by (apply Rmult_le_pos; [|lra]; apply Rmult_le_pos; [lra|apply pow2_ge_0]).
  destruct H as [H1 H2]. destruct b; cbn [negb] in *; [apply H1|apply H2]; lra.
Qed.

(** ** The unit test of src/fm.rs (lines 79-114): 44100 samples per second, 900 symbols per second, 1800 Hz, random bits, and
    the assertion that the bits come back.  Which bits come back depends on the position only modulo ten: a false at a position
    ending in 0, 8 or 9 is read as true, and a true at a position ending in 4, 5 or 6 is read as false. *)
Definition flipped (k : nat) (b : bool) : Prop :=
  if b then (4 <= k mod 10 <= 6)%nat else (k mod 10 = 0 \/ 8 <= k mod 10)%nat.

Lemma lost_flipped k b : if lost k b then flipped k b else ~ flipped k b.
Proof.
  unfold lost, flipped. destruct b.
  - destruct (Nat.leb_spec 4 (k mod 10)); destruct (Nat.leb_spec (k mod 10) 6); cbn [andb]; lia.
  - destruct (Nat.eqb_spec (k mod 10) 0); destruct (Nat.leb_spec 8 (k mod 10)); cbn [orb]; lia.
Qed.

Lemma all_back (m bits : list bool) : length bits = length m ->
  (forall k b, nth_error m k = Some b -> (flipped k b -> nth_error bits k = Some (negb b)) /\ (~ flipped k b -> nth_error bits k = Some b)) ->
  bits = m <-> (forall k b, nth_error m k = Some b -> ~ flipped k b).
Proof.
  intros L H. split.
  - intros -> k b Hk Hf. destruct (H k b Hk) as [H1 _]. rewrite (H1 Hf) in Hk. destruct b; discriminate.
  - intros Hn. apply nth_ext with (d := false) (d' := false); [exact L|]. intros k Lk. rewrite L in Lk.
    destruct (nth_error m k) as [b|] eqn:E; [|apply nth_error_None in E; lia].
    destruct (H k b E) as [_ H2]. rewrite (nth_error_nth _ _ _ E), (nth_error_nth _ _ _ (H2 (Hn k b E))). reflexivity.
Qed.

Lemma test_rate : 1800 / INR (49 * 900) = 2 / 49 /\ (49 * 900 / 900 = 49)%nat /\ (1 <= 900 <= 49 * 900)%nat.
Proof.
  split; [|split; [apply Nat.div_mul; discriminate|]].
  - rewrite mult_INR. replace (INR 49) with 49 by (rewrite INR_IZR_INZ; reflexivity). replace (INR 900) with 900 by (rewrite INR_IZR_INZ; reflexivity). field.
  - split; [apply Nat.leb_le; reflexivity|]. rewrite <- (Nat.mul_1_l 900) at 1. apply Nat.mul_le_mono_r. lia.
Qed.

(** In exact arithmetic. *)
Theorem C106_fm_test_exact (message : Iter bool) (m : list bool) :
  yields message m ->
  exists tx rx bits, tx_fsk message (49 * 900) 900 1800 = Ret tx /\ rx_fsk tx (49 * 900) 900 1800 = Ret rx /\
    yields rx bits /\ length bits = length m /\
    (forall k b, nth_error m k = Some b -> (flipped k b -> nth_error bits k = Some (negb b)) /\ (~ flipped k b -> nth_error bits k = Some b)) /\
    (bits = m <-> (forall k b, nth_error m k = Some b -> ~ flipped k b)).
Proof.
  intros Hm. destruct test_rate as (R1 & R2 & R3).
  destruct (C50_fsk_decision message m (49 * 900) 900 1800 Hm R3) as (tx & rx & bits & Et & Er & Y & L & D).
  exists tx, rx, bits. split; [exact Et|]. split; [exact Er|]. split; [exact Y|]. split; [exact L|].
  assert (HH : forall k b, nth_error m k = Some b -> (flipped k b -> nth_error bits k = Some (negb b)) /\ (~ flipped k b -> nth_error bits k = Some b)).
  { intros k b Hk. specialize (D k b Hk). rewrite R2 in D. pose proof (test_margins _ R1 k b) as M. pose proof (lost_flipped k b) as F.
    destruct (lost k b).
    - split; [intros _|intros X; contradiction].
      destruct (nth_error bits k) as [c|] eqn:Ec.
      + f_equal. destruct D as [D _]. destruct b, c; try reflexivity; exfalso; specialize (D eq_refl); lra.
      + apply nth_error_None in Ec. assert (k < length m)%nat by (apply nth_error_Some; congruence). lia.
    - split; [intros X; contradiction|intros _]. apply D. destruct b; lra. }
  split; [exact HH|]. exact (all_back m bits L HH).
Qed.

(** In binary64, for a sine and cosine within 2^-17 and up to 2^24 bits. *)
Theorem C106_fm_test (libm : Libm) (message : Iter bool) (m : list bool) :
  let num := NumF libm in
  libm_tol libm (bpow radix2 45) (/ 131072) -> yields message m -> (Z.of_nat (length m) <= 2 ^ 24)%Z ->
  exists tx rx bits, tx_fsk message (49 * 900) 900 (f64_ofZ 1800) = Ret tx /\ rx_fsk tx (49 * 900) 900 (f64_ofZ 1800) = Ret rx /\
    yields rx bits /\ length bits = length m /\
    (forall k b, nth_error m k = Some b -> (flipped k b -> nth_error bits k = Some (negb b)) /\ (~ flipped k b -> nth_error bits k = Some b)) /\
    (bits = m <-> (forall k b, nth_error m k = Some b -> ~ flipped k b)).
Proof.
  intros num Hlm Hm HL. destruct test_rate as (R1 & R2 & R3).
  destruct (ofZ_exact 1800 ltac:(lia)) as (V18 & F18 & _). unfold val in V18.
  assert (HI : 0 <= INR (length m) <= 16777216) by (rewrite INR_IZR_INZ; split; apply IZR_le; lia).
  assert (I49 : INR 49 = 49) by (rewrite INR_IZR_INZ; reflexivity). assert (I900 : INR 900 = 900) by (rewrite INR_IZR_INZ; reflexivity).
  assert (P44 : bpow radix2 44 = 17592186044416) by (cbn; lra).
  pose proof PI_4 as P4. pose proof PI_RGT_0 as P0. set (B := 17 * INR (length m)).
  assert (HS : fsk_setting libm (f64_ofZ 1800) (49 * 900) (length m * (49 * 900 / 900)) (/ 131072) B).
  { split; [exact F18|]. rewrite V18, R2. split; [rewrite Rabs_pos_eq; lra|]. split; [apply Nat.le_trans with (2 := proj2 R3); apply Nat.leb_le; reflexivity|].
    split; [rewrite Nat2Z.inj_mul; reflexivity|]. split; [rewrite Nat2Z.inj_mul; lia|]. split; [exact Hlm|]. split; [lra|]. rewrite Rabs_pos_eq by lra.
    rewrite !mult_INR, I49, I900, P44. unfold B. split; [|lra].
    replace (2 * PI * 1800 * (41 / 40) * (INR (length m) * 49 / (49 * 900))) with (PI * (41 / 10) * INR (length m)) by field. nra. }
  destruct (C106_fsk_decision libm message m (49 * 900) 900 (f64_ofZ 1800) (/ 131072) B Hm R3 ltac:(rewrite R2; cbv; discriminate) HS) as (tx & rx & bits & Et & Er & Y & L & D).
  exists tx, rx, bits. split; [exact Et|]. split; [exact Er|]. split; [exact Y|]. split; [exact L|].
  assert (SL : 96 * INR 49 ^ 2 * (/ 131072 + (16 * B + 2 * INR 49 + 15) * bpow radix2 (-53)) <= 4).
  { assert (P53 : bpow radix2 (-53) <= / 1000000000000000) by (cbn; lra). pose proof (bpow_gt_0 radix2 (-53)) as PP. rewrite I49. unfold B.
    assert ((16 * (17 * INR (length m)) + 2 * 49 + 15) * bpow radix2 (-53) <= 4563402865 * / 1000000000000000) by (apply Rmult_le_compat; lra). lra. }
  assert (HH : forall k b, nth_error m k = Some b -> (flipped k b -> nth_error bits k = Some (negb b)) /\ (~ flipped k b -> nth_error bits k = Some b)).
  { intros k b Hk. assert (Lk : (k < length bits)%nat) by (rewrite L; apply nth_error_Some; congruence).
    rewrite (nth_error_nth' bits false Lk). specialize (D k b Hk). rewrite R2, V18 in D. cbv zeta in D.
    pose proof (test_margins _ R1 k b) as M. pose proof (lost_flipped k b) as F.
    destruct (lost k b).
    - split; [intros _|intros X; contradiction]. f_equal. apply D. lra.
    - split; [intros X; contradiction|intros _]. f_equal. apply D. lra. }
  split; [exact HH|]. exact (all_back m bits L HH).
Qed.

(** ** Cases: a sine and cosine on a grid of 2^-20. *)
Definition finer (y : R) : F64 := Bdiv mode_NE (f64_ofZ (ZnearestE (1048576 * y))) (f64_ofZ 1048576).
Definition libm_finer : Libm :=
  {| libm_sin := fun x => finer (sin (B2R x)); libm_cos := fun x => finer (cos (B2R x));
     libm_exp := fun _ => f64_ofZ 1; libm_log10 := fun x => x; libm_pow := fun x _ => x; libm_sum_neg := false |}.

Lemma finer_ok y : -1 <= y <= 1 -> is_finite (finer y) = true /\ Rabs (B2R (finer y)) <= 1 /\ Rabs (B2R (finer y) - y) <= / 1048576.
Proof.
  intros Hy. unfold finer. set (z := ZnearestE (1048576 * y)).
  pose proof (Znearest_half (fun x => negb (Z.even x)) (1048576 * y)) as N. fold z in N. apply Rabs_le_inv in N.
  assert (B : (-1048576 <= z <= 1048576)%Z).
  { assert (-1048577 < z)%Z by (apply lt_IZR; lra). assert (z < 1048577)%Z by (apply lt_IZR; lra). lia. }
  destruct (ofZ_exact z ltac:(lia)) as (Vz & Fz & _). destruct (ofZ_exact 1048576 ltac:(lia)) as (V6 & F6 & _).
  assert (E : rd (val (f64_ofZ z) / val (f64_ofZ 1048576)) = IZR z / 1048576).
  { rewrite Vz, V6. apply rd_id. replace (IZR z / 1048576) with (IZR z * bpow radix2 (-20)) by (cbn; lra).
    apply fmt_scaled; lia. }
  assert (Bz : -1048576 <= IZR z <= 1048576) by (split; apply IZR_le; lia).
  assert (B1 : Rabs (IZR z / 1048576) <= 1) by (apply Rabs_le; lra).
  destruct (div_fin (f64_ofZ z) (f64_ofZ 1048576) Fz) as [V F].
  { rewrite V6. lra. }
  { rewrite E. apply Rle_lt_trans with (1 := B1). change 1 with (bpow radix2 0). apply bpow_lt. lia. }
  split; [exact F|]. change (B2R (Bdiv mode_NE (f64_ofZ z) (f64_ofZ 1048576))) with (val (Bdiv mode_NE (f64_ofZ z) (f64_ofZ 1048576))). rewrite V, E.
  split; [exact B1|]. apply Rabs_le. lra.
Qed.

Lemma libm_finer_tol B : libm_tol libm_finer B (/ 1048576).
Proof. intros x _ _. split; cbn [libm_cos libm_sin libm_finer]; apply finer_ok; [apply COS_bound|apply SIN_bound]. Qed.

(** 480 samples and 3 symbols per second, a carrier of 60 Hz: the tones are orthogonal. *)
Example C106_setting_case : fsk_setting libm_finer (f64_ofZ 60) 480 (3 * (480 / 3)) (/ 1048576) 500.
Proof.
  destruct (ofZ_exact 60 ltac:(lia)) as (V & F & _). unfold val in V. change (3 * (480 / 3))%nat with 480%nat. unfold fsk_setting. rewrite V.
  rewrite Rabs_pos_eq by lra. replace (INR 480) with 480 by (rewrite INR_IZR_INZ; reflexivity). pose proof PI_4.
  split; [exact F|]. split; [lra|]. split; [apply Nat.leb_le; reflexivity|]. split; [reflexivity|]. split; [reflexivity|].
  split; [apply libm_finer_tol|]. split; [lra|]. split; [lra|cbn; lra].
Qed.

Example C106_case : let num := NumF libm_finer in
  exists tx rx, tx_fsk (of_list [true; false; false]) 480 3 (f64_ofZ 60) = Ret tx /\ rx_fsk tx 480 3 (f64_ofZ 60) = Ret rx /\
    yields rx [true; false; false].
Proof.
  intros num. apply (C106_fsk_round_trip libm_finer _ [true; false; false] 480 3 (f64_ofZ 60) (/ 1048576) 500 1 (of_list_yields _)).
  - split; apply Nat.leb_le; reflexivity.
  - cbv. discriminate.
  - exact C106_setting_case.
  - destruct (ofZ_exact 60 ltac:(lia)) as (V & _ & _). unfold val in V. rewrite V. change (480 / 3)%nat with 160%nat.
    destruct (orthogonal_tones 480 160 60 1) as (K1 & K2 & K3); try (apply Nat.leb_le; reflexivity).
    + rewrite !INR_IZR_INZ. cbn [Z.of_nat Pos.of_succ_nat Pos.succ]. lra.
    + rewrite INR_IZR_INZ. cbn [Z.of_nat Pos.of_succ_nat Pos.succ]. lra.
    + intros b. rewrite K1, K2, K3, Rabs_R0. lra.
  - lra.
  - change (480 / 3)%nat with 160%nat. replace (INR 160) with 160 by (rewrite INR_IZR_INZ; reflexivity). cbn [bpow radix2]. cbn; lra.
Qed.

(** Noise of a quarter on every sample. *)
Example C106_noise_case : let num := NumF libm_finer in let quarter := Bdiv mode_NE (f64_ofZ 1) (f64_ofZ 4) in
  exists tx rx, tx_fsk (of_list [true; false; false]) 480 3 (f64_ofZ 60) = Ret tx /\
    rx_fsk (noisy tx (repeat quarter 480)) 480 3 (f64_ofZ 60) = Ret rx /\ yields rx [true; false; false].
Proof.
  intros num quarter.
  assert (Q : fin quarter = true /\ val quarter = 1 / 4).
  { destruct (ofZ_exact 1 ltac:(lia)) as (V1 & F1 & _). destruct (ofZ_exact 4 ltac:(lia)) as (V4 & F4 & _).
    assert (E : rd (val (f64_ofZ 1) / val (f64_ofZ 4)) = 1 / 4).
    { rewrite V1, V4. apply rd_id. replace (1 / 4) with (IZR 1 * bpow radix2 (-2)) by (cbn; lra). apply fmt_scaled; lia. }
    destruct (div_fin (f64_ofZ 1) (f64_ofZ 4) F1) as [V F]; [rewrite V4; lra|rewrite E, Rabs_pos_eq by lra; apply Rlt_trans with (bpow radix2 0); [cbn; lra|apply bpow_lt; lia]|].
    split; [exact F|]. unfold quarter. rewrite V. exact E. }
  clearbody quarter. destruct Q as [Fq Vq]. unfold val in Vq.
  apply (C106_fsk_noise libm_finer _ [true; false; false] (repeat quarter 480) 480 3 (f64_ofZ 60) 1 (/ 1048576) 500 (1 / 4) (1 / 4) (of_list_yields _)).
  - split; apply Nat.leb_le; reflexivity.
  - cbv. discriminate.
  - exact C106_setting_case.
  - apply Nat.leb_le; reflexivity.
  - destruct (ofZ_exact 60 ltac:(lia)) as (V & _ & _). unfold val in V. rewrite V. change (480 / 3)%nat with 160%nat.
    rewrite !INR_IZR_INZ. cbn [Z.of_nat Pos.of_succ_nat Pos.succ]. lra.
  - destruct (ofZ_exact 60 ltac:(lia)) as (V & _ & _). unfold val in V. rewrite V. rewrite INR_IZR_INZ. cbn [Z.of_nat Pos.of_succ_nat Pos.succ]. lra.
  - rewrite repeat_length. reflexivity.
  - split; [lra|]. apply Rle_trans with (bpow radix2 0); [cbn; lra|apply bpow_le; lia].
  - intros x Hx. apply repeat_spec in Hx. subst x. split; [exact Fq|]. rewrite Vq, Rabs_pos_eq; lra.
  - intros k Hk. change (480 / 3)%nat with 160%nat. change (length [true; false; false]) with 3%nat in Hk.
    rewrite (Rsum_n_ext 160 _ (fun _ => (1 / 4) ^ 2)).
    + rewrite Rsum_n_const. lra.
    + intros j Hj. rewrite nth_repeat_lt by lia. rewrite Vq. reflexivity.
  - change (480 / 3)%nat with 160%nat. replace (INR 160) with 160 by (rewrite INR_IZR_INZ; reflexivity). cbn; lra.
Qed.

(** The test's parameters: [false; true] is read as [true; true]. *)
Example C106_fm_case : let num := NumF libm_finer in
  exists tx rx, tx_fsk (of_list [false; true]) (49 * 900) 900 (f64_ofZ 1800) = Ret tx /\ rx_fsk tx (49 * 900) 900 (f64_ofZ 1800) = Ret rx /\
    yields rx [true; true].
Proof.
  intros num. destruct (C106_fm_test libm_finer (of_list [false; true]) [false; true]) as (tx & rx & bits & Et & Er & Y & L & H & _).
  - intros x Fx Bx. destruct (libm_finer_tol _ x Fx Bx) as ((? & ? & ?) & ? & ? & ?). repeat split; try assumption; lra.
  - apply of_list_yields.
  - cbv. discriminate.
  - exists tx, rx. split; [exact Et|]. split; [exact Er|]. destruct (H 0%nat false eq_refl) as [H0 _]. destruct (H 1%nat true eq_refl) as [_ H1].
    specialize (H0 (or_introl eq_refl)). specialize (H1 ltac:(unfold flipped; cbn; lia)).
    destruct bits as [|b0 [|b1 [|]]]; try discriminate L. cbn in H0, H1. injection H0 as ->. injection H1 as ->. exact Y.
Qed.

(** ** Axioms used *)
Print Assumptions C106_fsk_receiver.
Print Assumptions C106_fsk_decision.
Print Assumptions C106_fsk_round_trip.
Print Assumptions C106_fsk_noise.
Print Assumptions C106_fm_test_exact.
Print Assumptions C106_fm_test.
