(** The passband OFDM link in binary64: the two front ends and what rounding does to them (src/ofdm.rs:95-147). *)
From Coq Require Import List Arith ZArith Reals Bool Lia Lra Psatz.
From Flocq Require Import Core BinarySingleNaN.
From Verif Require Import Base IterTheory IterModel IterProofs Spec SpecR Tab Num F64Lib LibModel LibFloat LibReal
  ChaosModel ChaosProofs ChaosMod PskModel PskFloat CdmaModel FhProofs RSums PskReal FhFloat FloatSum SpecC FftModel Dft
  OfdmModel OfdmProofs OfdmReal OfdmWave OfdmLink OfdmPass Props_Psk Props_PassF Props_OfdmF Props_OfdmNoise.
Import ListNotations.
Local Open Scope R_scope.

(** ** The matched filter over any numbers *)

Section Filter.
Context {T : Type}.
Variables (zero one : T) (add mul : T -> T -> T).
Hypothesis Hone : forall x, mul x one = x.

(** The filter of L ones at every L-th sample, the first left out: symbol k sums the samples kL + len k down to
    kL + 1. *)
Definition taps (K L k : nat) : nat := if (k + 1 <? K)%nat then L else (L - 1)%nat.
Definition tap_sum (a : nat -> T) (K L k : nat) : T := fold_left add (tab (taps K L k) (fun q => a (k * L + taps K L k - q)%nat)) zero.

Lemma terms_ones (a : nat -> T) n L top len : (len <= L)%nat -> (top < n)%nat ->
  corr_terms mul (tab n a) (repeat one L) top len = tab len (fun k => a (top - k)%nat).
Proof.
  intros H1 H2. unfold corr_terms, tab at 2. rewrite repeat_length.
  transitivity (flat_map (fun k => [a (top - k)%nat]) (seq 0 len)).
  - apply flat_map_ext_in. intros k Hk. apply in_seq in Hk. rewrite tab_nth_error.
    destruct (Nat.ltb_spec (top - k) n); [|lia]. rewrite nth_error_repeat_lt by lia. rewrite Hone. reflexivity.
  - rewrite flat_map_concat_map. induction (seq 0 len) as [|k l IH]; [reflexivity|]. cbn. f_equal. exact IH.
Qed.

Lemma lane_any (a : nat -> T) K L k : (2 <= L)%nat ->
  nth_error (conv_run zero add mul (repeat one L) [] (tab (K * L) a)) ((k + 1) * L) =
  if (k <? K)%nat then Some (tap_sum a K L k) else None.
Proof.
  intros HL. rewrite conv_response, tab_length, repeat_length. unfold tap_sum, taps.
  destruct (Nat.ltb_spec (k + 1) K) as [H|H].
  - assert (HI : ((k + 1) * L < K * L)%nat) by nia.
    rewrite nth_error_app1 by (rewrite map_length, seq_length; exact HI).
    rewrite (nth_error_nth' _ zero) by (rewrite map_length, seq_length; exact HI).
    fold (tab (K * L) (fun i => fold_left add (corr_terms mul (tab (K * L) a) (repeat one L) i (Nat.min (S i) L)) zero)).
    rewrite tab_nth by exact HI. replace (Nat.min (S ((k + 1) * L)) L) with L by nia.
    rewrite terms_ones by nia. destruct (Nat.ltb_spec k K); [|lia].
    replace ((k + 1) * L)%nat with (k * L + L)%nat by lia. reflexivity.
  - destruct (Nat.ltb_spec k K) as [Hk|Hk].
    + assert (k + 1 = K)%nat by lia. subst K.
      rewrite nth_error_app2 by (rewrite map_length, seq_length; nia). rewrite map_length, seq_length, Nat.sub_diag.
      replace (Nat.min ((k + 1) * L) L) with L by nia. destruct L as [|[|L]]; [lia|lia|]. cbn [Nat.sub seq map nth_error].
      rewrite terms_ones by nia. f_equal. f_equal. apply tab_ext. intros q Hq. f_equal. nia.
    + apply nth_error_None. rewrite app_length, !map_length, !seq_length. nia.
Qed.

Lemma rows_any l : Forall (fun r : list T => length r = 2%nat) l ->
  map (fun s_i => Cpx (nth 0 s_i zero) (nth 1 s_i zero)) l =
  map (fun '(x, y) => Cpx x y) (combine (map (lane zero 0) l) (map (lane zero 1) l)).
Proof. induction 1 as [|r l Hr H IH]; [reflexivity|]. cbn [map combine]. f_equal. exact IH. Qed.

Lemma filter_any (rows : Iter (list T)) (a b : nat -> T) K L : (2 <= L)%nat ->
  yields rows (tab (K * L) (fun i => [a i; b i])) ->
  yields (iskip 1 (take_every L (imap (fun s_i => Cpx (nth 0 s_i zero) (nth 1 s_i zero))
            (nonvolve 2 zero add mul (map (fun _ => one) (seq 0 L)) rows))))
    (tab K (fun k => Cpx (tap_sum a K L k) (tap_sum b K L k))).
Proof.
  intros HL Hy.
  assert (EF : map (fun _ : nat => one) (seq 0 L) = repeat one L) by (symmetry; apply repeat_tab).
  rewrite EF. unfold nonvolve.
  pose proof (convolve_yields (repeat zero 2) (lanes_add add) (fun lanes f => map (fun b => mul b f) lanes) (repeat one L) rows _ Hy) as Y1.
  pose proof (iskip_yields 1 _ _ (take_every_yields L _ _ ltac:(lia) (imap_yields (fun s_i => Cpx (nth 0 s_i zero) (nth 1 s_i zero)) _ _ Y1))) as Y2.
  refine (eq_ind _ (fun x => yields _ x) Y2 _ _). clear Y1 Y2.
  destruct (conv_run_rows zero add mul 2 (repeat one L) (tab (K * L) (fun i => [a i; b i])) [] (Forall_nil _)) as [F2 EL].
  { apply Forall_forall. intros r Hr. apply in_map_iff in Hr. destruct Hr as (i & <- & _). reflexivity. }
  rewrite rows_any by exact F2. rewrite (EL zero 0%nat), (EL zero 1%nat) by lia.
  rewrite !tab_map. cbn [map lane nth]. unfold lane. cbn [nth].
  apply nth_error_inj. intros k. rewrite tab_nth_error.
  assert (SK : forall (A : Type) (l : list A), nth_error (skipn 1 l) k = nth_error l (k + 1)).
  { intros A l. destruct l as [|x l]; [destruct k; reflexivity|]. rewrite Nat.add_1_r. reflexivity. }
  rewrite SK, decim_nth by lia. rewrite Nat.add_0_l, nth_error_map, nth_error_combine, !lane_any by exact HL.
  destruct (k <? K)%nat; reflexivity.
Qed.
End Filter.

(** ** The front ends *)

Lemma div_int (libm : Libm) sr sy : let num := NumF libm in (1 <= sy)%nat -> (sr mod sy = 0)%nat -> (Z.of_nat sr < 2 ^ 53)%Z -> (1 <= sr)%nat ->
  is_int (ndiv (nofnat sr) (nofnat sy)) = true.
Proof.
  intros num Hy Hm Hs Hr. unfold nofnat. change (@nofZ F64 num) with f64_ofZ. unfold num.
  assert (E : (sr = sr / sy * sy)%nat) by (pose proof (Nat.div_mod sr sy ltac:(lia)); lia).
  assert (sy <= sr)%nat by (destruct (sr / sy)%nat; nia).
  change (@ndiv F64 (NumF libm)) with (@Bdiv 53 1024 prec53 emax1024 mode_NE). rewrite is_int_div_pos by lia. exists (Z.of_nat (sr / sy)). lia.
Qed.

Section Front.
Variables (libm : Libm) (fft : Fft F64) (sr sy N P : nat) (fc : F64).
Let num := NumF libm.
#[local] Existing Instance num.
Let L := (sr / sy)%nat.
Hypothesis (Hy : (1 <= sy)%nat) (Hm : (sr mod sy = 0)%nat) (Hs : (Z.of_nat sr < 2 ^ 53)%Z) (HL : (2 <= L)%nat).

Definition phase (i : nat) : F64 := (nofZ 2 * npi * fc * (nofnat i / nofnat sr))%num.
Let c (i : nat) : F64 := libm_cos libm (phase i).
Let s (i : nat) : F64 := libm_sin libm (phase i).

Lemma sr1 : (1 <= sr)%nat.
Proof. destruct sr; [unfold L in HL; rewrite Nat.div_0_l in HL by lia; lia|lia]. Qed.

Lemma rx_frontF (signal : Iter F64) g K : yields signal (tab (K * L) g) ->
  exists base, yields base (tab K (fun k =>
      Cpx (tap_sum (f64_ofZ 0) (Bplus mode_NE) (fun i => Bmult mode_NE (g i) (c i)) K L k)
          (tap_sum (f64_ofZ 0) (Bplus mode_NE) (fun i => Bmult mode_NE (g i) (Bopp (s i))) K L k))) /\
    rx_ofdm_qpsk_signal fft signal N P sr sy fc =
      bind (rx_baseband_ofdm_signal fft base N P) (fun q => Ret (rx_baseband_qpsk_signal q)).
Proof.
  intros Hyd. pose proof sr1 as H1. eexists. split.
  2:{ unfold rx_ofdm_qpsk_signal, assert_then. rewrite (div_int libm) by lia. rewrite usize_div_intro by lia. cbn [bind]. reflexivity. }
  fold L. apply (filter_any (f64_ofZ 0) (f64_ofZ 1) (Bplus mode_NE) (Bmult mode_NE) mul_1_r); [exact HL|].
  match goal with |- yields (imap ?f _) _ => pose proof (imap_yields f _ _ (ienum_yields _ _ Hyd)) as Y end.
  rewrite tab_index, tab_map in Y. exact Y.
Qed.

(** One passband sample. *)
Definition pass_f (e0 : F64) (y : cpx F64) (i : nat) : F64 :=
  Bminus mode_NE (Bmult mode_NE (re y) (Bmult mode_NE e0 (c i))) (Bmult mode_NE (im y) (Bmult mode_NE e0 (s i))).

Lemma tx_frontF (message : Iter bool) tx g n : 
  tx_baseband_ofdm_signal fft (tx_baseband_qpsk_signal message) N P = Ret tx -> yields tx (tab n g) ->
  exists pass, tx_ofdm_qpsk_signal fft message N P sr sy fc = Ret pass /\
    yields pass (tab (n * L) (fun i => pass_f (libm_exp libm (f64_ofZ 0)) (g (i / L)%nat) i)).
Proof.
  intros Et Yt. pose proof sr1 as H1. eexists. split.
  { unfold tx_ofdm_qpsk_signal, assert_then. rewrite (div_int libm) by lia. rewrite usize_div_intro by lia. cbn [bind].
    change (@tx_baseband_qpsk_signal F64 (NumF libm)) with (@tx_baseband_qpsk_signal F64 num). fold num. rewrite Et. cbn [bind]. reflexivity. }
  fold L. pose proof (inflate_yields L tx _ ltac:(lia) Yt) as Yi. rewrite repeat_each_tab in Yi.
  match goal with |- yields (imap ?f _) _ => pose proof (imap_yields f _ _ (ienum_yields _ _ Yi)) as Y end.
  rewrite tab_index, tab_map in Y. exact Y.
Qed.
End Front.

(** ** Rounding *)

Lemma tap_err (a : nat -> F64) K L k A : 1 <= A <= bpow radix2 800 -> (2 <= L)%nat -> (Z.of_nat L <= 2 ^ 50)%Z -> (k < K)%nat ->
  (forall i, (i < K * L)%nat -> fin (a i) = true /\ Rabs (val (a i)) <= A) ->
  let s := tap_sum (f64_ofZ 0) (Bplus mode_NE) a K L k in
  fin s = true /\
  Rabs (val s - Rsum_n L (fun j => ext0 (K * L) (fun i => val (a i)) (k * L + 1 + j)%nat)) <= INR L * (INR L + 3) * A * u53.
Proof.
  intros HA HL HL2 Hk Ha s. pose proof u53_pos as U.
  assert (Ht : (taps K L k <= L)%nat) by (unfold taps; destruct (_ <? _)%nat; lia).
  destruct (sum_err (fun q => a (k * L + taps K L k - q)%nat) A) with (n := taps K L k) as (F & E & _).
  - split; [apply Rle_trans with 1; [change 1 with (bpow radix2 0); apply bpow_le; lia|lra]|].
    apply Rle_trans with (bpow radix2 800); [lra|]. apply bpow_le. lia.
  - lia.
  - intros j Hj. apply Ha. unfold taps in *. destruct (Nat.ltb_spec (k + 1) K); nia.
  - split; [exact F|]. change (fold_left _ _ _) with s in E.
    replace (Rsum_n L (fun j => ext0 (K * L) (fun i => val (a i)) (k * L + 1 + j)%nat))
      with (Rsum_n (taps K L k) (fun q => val (a (k * L + taps K L k - q)%nat))).
    + apply Rle_trans with (1 := E). apply le_INR in Ht. pose proof (pos_INR (taps K L k)). 
      apply Rmult_le_compat_r; [lra|]. apply Rmult_le_compat_r; [lra|]. nra.
    + rewrite Rsum_n_rev.
      rewrite (Rsum_n_ext (taps K L k) _ (fun j => ext0 (K * L) (fun i => val (a i)) (k * L + 1 + j)%nat)).
      * unfold taps. destruct (Nat.ltb_spec (k + 1) K); [reflexivity|].
        assert (EL : forall f, Rsum_n L f = Rsum_n (L - 1) f + f (L - 1)%nat).
        { intros f. replace L with (S (L - 1)) at 1 by lia. reflexivity. }
        rewrite (EL (fun j => ext0 _ _ _)).
        assert (Z : ext0 (K * L) (fun i => val (a i)) (k * L + 1 + (L - 1))%nat = 0).
        { unfold ext0. destruct (Nat.ltb_spec (k * L + 1 + (L - 1)) (K * L)); [nia|reflexivity]. }
        rewrite Z, Rplus_0_r. reflexivity.
      * intros j Hj. unfold ext0, taps in *. destruct (Nat.ltb_spec (k + 1) K), (Nat.ltb_spec (k * L + 1 + j) (K * L)); try nia; do 2 f_equal; lia.
Qed.

(** A sine and cosine right to tau on [-B, B], and never outside [-1, 1]. *)
Definition libm_tol (libm : Libm) (B tau : R) : Prop :=
  forall x, is_finite x = true -> Rabs (B2R x) <= B ->
    (is_finite (libm_cos libm x) = true /\ Rabs (B2R (libm_cos libm x)) <= 1 /\
     Rabs (B2R (libm_cos libm x) - cos (B2R x)) <= tau) /\
    (is_finite (libm_sin libm x) = true /\ Rabs (B2R (libm_sin libm x)) <= 1 /\
     Rabs (B2R (libm_sin libm x) - sin (B2R x)) <= tau).

Lemma carrier_tol (libm : Libm) (fc : F64) (sr n i : nat) tau :
  let exact := 2 * PI * B2R fc * (INR i / INR sr) in
  libm_tol libm (bpow radix2 45) tau -> 0 <= tau <= 1 / 64 -> is_finite fc = true -> 1 / 2 <= Rabs (B2R fc) ->
  (1 <= sr)%nat -> (Z.of_nat sr < 2 ^ 53)%Z -> (Z.of_nat n < 2 ^ 53)%Z -> (i < n)%nat ->
  2 * PI * Rabs (B2R fc) * (INR n / INR sr) <= tau * bpow radix2 50 ->
  (fin (libm_cos libm (phase libm sr fc i)) = true /\ Rabs (val (libm_cos libm (phase libm sr fc i))) <= 1 /\
   fin (libm_sin libm (phase libm sr fc i)) = true /\ Rabs (val (libm_sin libm (phase libm sr fc i))) <= 1) /\
  Rabs (val (libm_cos libm (phase libm sr fc i)) - cos exact) <= 2 * tau /\ Rabs (val (libm_sin libm (phase libm sr fc i)) - sin exact) <= 2 * tau.
Proof.
  intros exact Hlm Ht Ff Bf Hs Hs2 Hn Hi Hph. set (p := phase libm sr fc i).
  pose proof PI_3 as P3. pose proof u53_pos as U.
  assert (Hsr : 1 <= INR sr) by (change 1 with (INR 1); apply le_INR; lia).
  assert (HN1 : 1 <= INR n) by (change 1 with (INR 1); apply le_INR; lia).
  assert (P50 : tau * bpow radix2 50 <= bpow radix2 44).
  { replace (bpow radix2 44) with (1 / 64 * bpow radix2 50); [apply Rmult_le_compat_r; [apply bpow_ge_0|lra]|].
    change 50%Z with (44 + 6)%Z. rewrite bpow_plus. change (bpow radix2 6) with 64. field. }
  assert (Isr : INR sr <= bpow radix2 53).
  { rewrite INR_IZR_INZ. change (bpow radix2 53) with (IZR (2 ^ 53)). apply IZR_le. lia. }
  assert (Bf2 : Rabs (val fc) <= bpow radix2 500).
  { assert (Q : u53 <= INR n / INR sr).
    { change u53 with (bpow radix2 (- (53))). rewrite bpow_opp. apply Rle_trans with (/ INR sr).
      - apply Rinv_le; lra.
      - rewrite <- (Rmult_1_l (/ INR sr)). apply Rmult_le_compat_r; [left; apply Rinv_0_lt_compat; lra|exact HN1]. }
    apply Rle_trans with (bpow radix2 (44 + 53)); [|apply bpow_le; lia].
    rewrite bpow_plus. apply Rmult_le_reg_r with u53; [exact U|].
    rewrite Rmult_assoc, <- bpow_plus. change (bpow radix2 (53 + -53)) with 1. rewrite Rmult_1_r.
    apply Rle_trans with (2 := P50). eapply Rle_trans; [|exact Hph]. apply Rmult_le_compat; [apply Rabs_pos|lra| |exact Q].
    pose proof (Rabs_pos (B2R fc)). change (Rabs (val fc)) with (Rabs (B2R fc)). nra. }
  destruct (phase_err fc sr i Ff (conj Bf Bf2) Hs Hs2 ltac:(lia)) as [Fp Ep].
  change (fin p = true) in Fp. change (Rabs (val p - exact) <= Rabs exact * (8 * u53)) in Ep.
  assert (Be : Rabs exact <= tau * bpow radix2 50).
  { eapply Rle_trans; [|exact Hph]. unfold exact. assert (Iq : 0 <= INR i / INR sr).
    { apply Rmult_le_pos; [apply pos_INR|left; apply Rinv_0_lt_compat; lra]. }
    rewrite !Rabs_mult, (Rabs_pos_eq 2), (Rabs_pos_eq PI), (Rabs_pos_eq (INR i / INR sr)) by lra.
    apply Rmult_le_compat_l; [pose proof (Rabs_pos (B2R fc)); nra|].
    apply Rmult_le_compat_r; [left; apply Rinv_0_lt_compat; lra|]. apply le_INR. lia. }
  assert (Ee : Rabs (val p - exact) <= tau).
  { eapply Rle_trans; [exact Ep|]. apply Rle_trans with (tau * bpow radix2 50 * (8 * u53)).
    - apply Rmult_le_compat_r; lra.
    - replace (tau * bpow radix2 50 * (8 * u53)) with (8 * tau * (bpow radix2 50 * u53)) by ring. rewrite <- bpow_plus.
      change (bpow radix2 (50 + -53)) with (/ 8). lra. }
  assert (Bp : Rabs (B2R p) <= bpow radix2 45).
  { change 45%Z with (44 + 1)%Z. rewrite bpow_plus. change (bpow radix2 1) with 2.
    assert (1 <= bpow radix2 44) by (change 1 with (bpow radix2 0); apply bpow_le; lia).
    replace (B2R p) with ((val p - exact) + exact) by (unfold val; ring).
    eapply Rle_trans; [apply Rabs_triang|]. lra. }
  destruct (Hlm p Fp Bp) as ((C1 & C2 & C3) & (S1 & S2 & S3)).
  split; [auto|]. change (val (libm_cos libm p)) with (B2R (libm_cos libm p)). change (val (libm_sin libm p)) with (B2R (libm_sin libm p)). split.
  - replace (B2R (libm_cos libm p) - cos exact) with ((B2R (libm_cos libm p) - cos (B2R p)) + (cos (B2R p) - cos exact)) by ring.
    eapply Rle_trans; [apply Rabs_triang|]. pose proof (cos_lip (B2R p) exact) as LL. unfold val in Ee. lra.
  - replace (B2R (libm_sin libm p) - sin exact) with ((B2R (libm_sin libm p) - sin (B2R p)) + (sin (B2R p) - sin exact)) by ring.
    eapply Rle_trans; [apply Rabs_triang|]. pose proof (sin_lip (B2R p) exact) as LL. unfold val in Ee. lra.
Qed.

(** One passband sample, exp 0 being 1. *)
Lemma pass_err (libm : Libm) sr fc (y : cpx F64) i tau :
  let c := libm_cos libm (phase libm sr fc i) in let s := libm_sin libm (phase libm sr fc i) in
  let th := 2 * PI * B2R fc * (INR i / INR sr) in
  fin c = true -> Rabs (val c) <= 1 -> fin s = true -> Rabs (val s) <= 1 ->
  Rabs (val c - cos th) <= 2 * tau -> Rabs (val s - sin th) <= 2 * tau ->
  cfinite y -> cmod (cval y) <= 4 ->
  let w := pass_f libm sr fc (f64_ofZ 1) y i in
  fin w = true /\ Rabs (val w - (re (cval y) * cos th - im (cval y) * sin th)) <= 32 * u53 + 16 * tau.
Proof.
  intros c s th Fc Bc Fs Bs Ec Es [Fr Fi] By w. pose proof u53_pos as U. pose proof u53_small as US. change (IZR (2 ^ 40)) with 1099511627776 in US.
  pose proof (Rle_trans _ _ _ (cmod_re _) By) as Br. pose proof (Rle_trans _ _ _ (cmod_im _) By) as Bi. cbn [cval re im] in Br, Bi.
  unfold w, pass_f. fold c s. rewrite !one_mul.
  assert (H4 : 1 <= 4 <= bpow radix2 800).
  { split; [lra|]. change 4 with (bpow radix2 2). apply bpow_le. lia. }
  destruct (prod_err (re y) c 4 H4 Fr Fc Br Bc) as (F1 & E1 & B1). destruct (prod_err (im y) s 4 H4 Fi Fs Bi Bs) as (F2 & E2 & B2).
  set (a := Bmult mode_NE (re y) c) in *. set (b := Bmult mode_NE (im y) s) in *.
  assert (BD : Rabs (val a - val b) <= 16).
  { apply Rabs_le_inv in B1. apply Rabs_le_inv in B2. apply Rabs_le. lra. }
  destruct (sub_fin a b F1 F2) as [V F].
  { apply pow_1024. apply Rle_trans with (1 := BD). change 16 with (bpow radix2 4). apply bpow_le. lia. }
  split; [exact F|]. rewrite V. pose proof (rd_err (val a - val b)) as E. pose proof (small_exp (-1075) ltac:(lia)) as SE.
  change (bpow radix2 (-53)) with u53 in E.
  assert (B9 : Rabs (val a - val b) <= 8 + 16 * u53).
  { assert (Rabs (val (re y) * val c) <= 4 /\ Rabs (val (im y) * val s) <= 4) as [X1 X2].
    { split; rewrite Rabs_mult; rewrite <- (Rmult_1_r 4); apply Rmult_le_compat; try apply Rabs_pos; assumption. }
    apply Rabs_le_inv in X1. apply Rabs_le_inv in X2. apply Rabs_le_inv in E1. apply Rabs_le_inv in E2. apply Rabs_le. lra. }
  assert (M1 : Rabs (val (re y) * (val c - cos th)) <= 4 * (2 * tau)).
  { rewrite Rabs_mult. apply Rmult_le_compat; try apply Rabs_pos; assumption. }
  assert (M2 : Rabs (val (im y) * (val s - sin th)) <= 4 * (2 * tau)).
  { rewrite Rabs_mult. apply Rmult_le_compat; try apply Rabs_pos; assumption. }
  cbn [cval re im]. change (B2R (re y)) with (val (re y)). change (B2R (im y)) with (val (im y)).
  assert (Rabs (val a - val b) * u53 <= 9 * u53) by (apply Rmult_le_compat_r; lra).
  assert (E' : Rabs (rd (val a - val b) - (val a - val b)) <= 10 * u53) by lra.
  replace (rd (val a - val b) - (val (re y) * cos th - val (im y) * sin th)) with
    ((rd (val a - val b) - (val a - val b)) + (val a - val (re y) * val c) - (val b - val (im y) * val s) +
     val (re y) * (val c - cos th) - val (im y) * (val s - sin th)) by ring.
  apply Rabs_le_inv in E'. apply Rabs_le_inv in E1. apply Rabs_le_inv in E2. apply Rabs_le_inv in M1. apply Rabs_le_inv in M2. apply Rabs_le. lra.
Qed.

(** One product of a received sample of size at most 16 with a carrier sample. *)
Lemma mix_err (r c : F64) (e tau : R) : fin r = true -> Rabs (val r) <= 16 -> fin c = true -> Rabs (val c) <= 1 -> Rabs (val c - e) <= 2 * tau ->
  fin (Bmult mode_NE r c) = true /\ Rabs (val (Bmult mode_NE r c) - val r * e) <= 32 * u53 + 32 * tau /\ Rabs (val (Bmult mode_NE r c)) <= 32.
Proof.
  intros Fr Br Fc Bc Ec.
  destruct (prod_err r c 16) as (F & E & B); try assumption.
  { split; [lra|]. change 16 with (bpow radix2 4). apply bpow_le. lia. }
  split; [exact F|]. split; [|lra].
  assert (M1 : Rabs (val r * (val c - e)) <= 16 * (2 * tau)).
  { rewrite Rabs_mult. apply Rmult_le_compat; try apply Rabs_pos; assumption. }
  replace (val (Bmult mode_NE r c) - val r * e) with ((val (Bmult mode_NE r c) - val r * val c) + val r * (val c - e)) by ring.
  eapply Rle_trans; [apply Rabs_triang|]. lra.
Qed.

(** One received symbol: the filter's output against the exact sums. *)
Lemma symbol_err (libm : Libm) sr fc (g : nat -> F64) K L k tau :
  let th i := 2 * PI * B2R fc * (INR i / INR sr) in
  (2 <= L)%nat -> (Z.of_nat L <= 2 ^ 50)%Z -> (k < K)%nat -> 0 <= tau ->
  (forall i, (i < K * L)%nat -> fin (g i) = true /\ Rabs (val (g i)) <= 16) ->
  (forall i, (i < K * L)%nat -> (fin (libm_cos libm (phase libm sr fc i)) = true /\ Rabs (val (libm_cos libm (phase libm sr fc i))) <= 1 /\
     fin (libm_sin libm (phase libm sr fc i)) = true /\ Rabs (val (libm_sin libm (phase libm sr fc i))) <= 1) /\
     Rabs (val (libm_cos libm (phase libm sr fc i)) - cos (th i)) <= 2 * tau /\ Rabs (val (libm_sin libm (phase libm sr fc i)) - sin (th i)) <= 2 * tau) ->
  let y := Cpx (tap_sum (f64_ofZ 0) (Bplus mode_NE) (fun i => Bmult mode_NE (g i) (libm_cos libm (phase libm sr fc i))) K L k)
               (tap_sum (f64_ofZ 0) (Bplus mode_NE) (fun i => Bmult mode_NE (g i) (Bopp (libm_sin libm (phase libm sr fc i)))) K L k) in
  cfinite y /\
  cmod (csub (cval y) (Cpx (Rsum_n L (fun j => ext0 (K * L) (fun i => val (g i) * cos (th i)) (k * L + 1 + j)%nat))
                           (Rsum_n L (fun j => ext0 (K * L) (fun i => val (g i) * - sin (th i)) (k * L + 1 + j)%nat)))) <=
    INR L * ((INR L + 4) * 64 * u53 + 64 * tau).
Proof.
  intros th HL HL2 Hk Ht Hg Hc y. pose proof u53_pos as U. pose proof (pos_INR L) as PL.
  assert (H32 : 1 <= 32 <= bpow radix2 800).
  { split; [lra|]. change 32 with (bpow radix2 5). apply bpow_le. lia. }
  assert (G : forall (a : nat -> F64) (e : nat -> R),
     (forall i, (i < K * L)%nat -> fin (a i) = true /\ Rabs (val (a i) - e i) <= 32 * u53 + 32 * tau /\ Rabs (val (a i)) <= 32) ->
     let t := tap_sum (f64_ofZ 0) (Bplus mode_NE) a K L k in
     fin t = true /\ Rabs (val t - Rsum_n L (fun j => ext0 (K * L) e (k * L + 1 + j)%nat)) <= INR L * ((INR L + 4) * 32 * u53 + 32 * tau)).
  { intros a e Ha t. destruct (tap_err a K L k 32 H32 HL HL2 Hk) as [F E].
    { intros i Hi. destruct (Ha i Hi) as (A1 & _ & A3). split; assumption. }
    fold t in F, E. split; [exact F|].
    assert (D : Rabs (Rsum_n L (fun j => ext0 (K * L) (fun i => val (a i)) (k * L + 1 + j)%nat) - Rsum_n L (fun j => ext0 (K * L) e (k * L + 1 + j)%nat)) <= INR L * (32 * u53 + 32 * tau)).
    { apply Rsum_n_dist. intros j Hj. unfold ext0. destruct (Nat.ltb_spec (k * L + 1 + j) (K * L)) as [Hlt|]; [apply (Ha _ Hlt)|].
      rewrite Rminus_0_r, Rabs_R0. lra. }
    set (X := Rsum_n L (fun j => ext0 (K * L) (fun i => val (a i)) (k * L + 1 + j)%nat)) in *.
    set (Y := Rsum_n L (fun j => ext0 (K * L) e (k * L + 1 + j)%nat)) in *.
    replace (val t - Y) with ((val t - X) + (X - Y)) by ring. eapply Rle_trans; [apply Rabs_triang|].
    replace (INR L * ((INR L + 4) * 32 * u53 + 32 * tau)) with (INR L * (INR L + 3) * 32 * u53 + INR L * (32 * u53 + 32 * tau)) by ring. lra. }
  destruct (G (fun i => Bmult mode_NE (g i) (libm_cos libm (phase libm sr fc i))) (fun i => val (g i) * cos (th i))) as [F1 E1].
  { intros i Hi. destruct (Hg i Hi) as [Fg Bg]. destruct (Hc i Hi) as ((C1 & C2 & _ & _) & C3 & _). apply mix_err; assumption. }
  destruct (G (fun i => Bmult mode_NE (g i) (Bopp (libm_sin libm (phase libm sr fc i)))) (fun i => val (g i) * - sin (th i))) as [F2 E2].
  { intros i Hi. destruct (Hg i Hi) as [Fg Bg]. destruct (Hc i Hi) as ((_ & _ & C1 & C2) & _ & C3). apply mix_err; try assumption.
    - unfold fin. rewrite is_finite_Bopp. exact C1.
    - unfold val. rewrite B2R_Bopp, Rabs_Ropp. exact C2.
    - unfold val in *. rewrite B2R_Bopp. replace (- B2R (libm_sin libm (phase libm sr fc i)) - - sin (th i)) with (- (B2R (libm_sin libm (phase libm sr fc i)) - sin (th i))) by ring.
      rewrite Rabs_Ropp. exact C3. }
  split; [split; [exact F1|exact F2]|].
  apply Rle_trans with (1 := cmod_parts _).
  match goal with |- Rabs (re (csub (cval y) (Cpx ?X ?Y))) + _ <= _ =>
    change (Rabs (val (re y) - X) + Rabs (val (im y) - Y) <= INR L * ((INR L + 4) * 64 * u53 + 64 * tau)) end.
  change (re y) with (tap_sum (f64_ofZ 0) (Bplus mode_NE) (fun i => Bmult mode_NE (g i) (libm_cos libm (phase libm sr fc i))) K L k).
  change (im y) with (tap_sum (f64_ofZ 0) (Bplus mode_NE) (fun i => Bmult mode_NE (g i) (Bopp (libm_sin libm (phase libm sr fc i)))) K L k).
  replace (INR L * ((INR L + 4) * 64 * u53 + 64 * tau)) with (INR L * ((INR L + 4) * 32 * u53 + 32 * tau) + INR L * ((INR L + 4) * 32 * u53 + 32 * tau)) by ring.
  lra.
Qed.

(** ** The exact bins *)

Lemma link_bins N P sr sy fc cycles (F : nat -> nat -> CR) A B (r z : nat -> R) b k :
  let L := (sr / sy)%nat in let M := (N + N / 4)%nat in
  let th i := 2 * PI * fc * (INR i / INR sr) in
  let x i := tone N (F (i / M)%nat) (Z.of_nat (i mod M) - Z.of_nat (N / 4)) in
  (1 <= P < N)%nat -> (1 <= sy)%nat -> (sr mod sy = 0)%nat -> (2 <= L)%nat ->
  fc * INR L = IZR cycles * INR sr -> ~ (exists q : Z, 2 * fc = IZR q * INR sr) ->
  0 <= A -> (forall b' k', (b' < B)%nat -> (k' < N)%nat -> cmod (F b' k') <= A) ->
  (forall i, (i < B * M * L)%nat -> r i = pass_sample fc sr L x i + z i) ->
  (b < B)%nat -> (k < N)%nat ->
  exists e, cmod e <= 4 * A /\
    Csum_n N (fun j => cmul (Cpx (Rsum_n L (fun l => ext0 (B * M * L) (fun i => r i * cos (th i)) ((b * M + N / 4 + j) * L + 1 + l)%nat))
                                 (Rsum_n L (fun l => ext0 (B * M * L) (fun i => r i * - sin (th i)) ((b * M + N / 4 + j) * L + 1 + l)%nat)))
                            (root N (- (Z.of_nat j * Z.of_nat k)))) =
    cadd (cadd (cmul (RtoC (INR L / 2)) (F b k)) e)
         (Cpx (noise_re N sr sy fc (B * M * L) z b k) (noise_im N sr sy fc (B * M * L) z b k)).
Proof.
  intros L M th x HP Hy Hm HL Hcyc Hnyq HA HF Hr Hb Hk. pose proof (quarter N) as HQ.
  assert (Hsr : (1 <= sr)%nat) by (destruct sr; [unfold L in HL; rewrite Nat.div_0_l in HL by lia; lia|lia]).
  assert (BF : forall b' q, (b' < B)%nat -> cmod (tone N (F b') q) <= A) by (intros; apply tone_bound; [lia|auto]).
  set (xe := fun k : nat => if (k <? B * M)%nat then x k else C0).
  set (y := re (xe (b * M + N / 4 + (N - 1) + 1)%nat)).
  assert (Hyb : Rabs y <= A).
  { unfold y, xe. destruct (Nat.ltb_spec (b * M + N / 4 + (N - 1) + 1) (B * M)) as [Hlt|Hge].
    - eapply Rle_trans; [apply cmod_re|]. unfold x. apply BF. apply Nat.div_lt_upper_bound; unfold M in *; lia.
    - cbn. rewrite Rabs_R0. lra. }
  set (e := Csum_n N (fun j => cmul (RtoC ((if (j =? N - 1)%nat then y else re (tone N (F b) (Z.of_nat j + 1))) - re (tone N (F b) (Z.of_nat j))))
                                (root N (- (Z.of_nat j * Z.of_nat k))))).
  exists e. split.
  { unfold e. apply isi_bound; [lia| |exact Hk|exact Hyb]. intros k' Hk'. apply HF; assumption. }
  assert (Ex : forall j, (j < N)%nat -> x (b * M + N / 4 + j)%nat = tone N (F b) (Z.of_nat j)).
  { intros j Hj. unfold x.
    replace ((b * M + N / 4 + j) / M)%nat with b by (apply (Nat.div_unique _ _ _ (N / 4 + j)); unfold M; lia).
    replace ((b * M + N / 4 + j) mod M)%nat with (N / 4 + j)%nat by (apply (Nat.mod_unique _ _ b); unfold M; lia).
    f_equal. lia. }
  rewrite <- (bin_of_tone N (F b) k ltac:(lia) Hk), <- Csum_scale, <- (noise_sum N P sr sy fc HP Hy Hm HL). unfold e. rewrite <- !Csum_plus.
  apply Csum_ext. intros j Hj. fold L M.
  match goal with |- cmul ?s _ = _ => replace s with (cadd
      (Cpx (Rsum_n L (fun l => ext0 (B * M * L) (fun i => pass_sample fc sr L x i * cos (th i)) ((b * M + N / 4 + j) * L + 1 + l)%nat))
           (Rsum_n L (fun l => ext0 (B * M * L) (fun i => pass_sample fc sr L x i * - sin (th i)) ((b * M + N / 4 + j) * L + 1 + l)%nat)))
      (Cpx (Rsum_n L (fun l => ext0 (B * M * L) z ((b * M + N / 4 + j) * L + 1 + l)%nat * cos (th ((b * M + N / 4 + j) * L + 1 + l)%nat)))
           (Rsum_n L (fun l => ext0 (B * M * L) z ((b * M + N / 4 + j) * L + 1 + l)%nat * - sin (th ((b * M + N / 4 + j) * L + 1 + l)%nat))))) end.
  2:{ unfold cadd. cbn [re im nadd NumR]. rewrite <- !Rsum_n_plus. f_equal; apply Rsum_n_ext; intros l _; rewrite <- ext0_plus;
        unfold ext0; destruct (Nat.ltb_spec ((b * M + N / 4 + j) * L + 1 + l) (B * M * L)); [|reflexivity| |reflexivity]; rewrite Hr by assumption; reflexivity. }
  unfold th at 1 2. rewrite (received_symbol fc sr L cycles Hsr Hcyc Hnyq (B * M) x) by (unfold M in *; nia).
  rewrite Ex by exact Hj.
  replace (re (if (b * M + N / 4 + j + 1 <? B * M)%nat then x (b * M + N / 4 + j + 1)%nat else C0))
    with (if (j =? N - 1)%nat then y else re (tone N (F b) (Z.of_nat j + 1))); [unfold th; cbv beta; ring|].
  destruct (Nat.eqb_spec j (N - 1)) as [->|NJ]; [reflexivity|].
  destruct (Nat.ltb_spec (b * M + N / 4 + j + 1) (B * M)); [|unfold M in *; nia].
  replace (b * M + N / 4 + j + 1)%nat with (b * M + N / 4 + (j + 1))%nat by lia. rewrite Ex by lia. f_equal. f_equal. lia.
Qed.

(** The noise term is linear, and at most N L times the largest noise sample. *)
Lemma noise_at_plus N P sr sy fc len z1 z2 i : (1 <= P < N)%nat -> (1 <= sy)%nat -> (sr mod sy = 0)%nat -> (2 <= sr / sy)%nat ->
  noise_at N P sr sy fc len (fun q => z1 q + z2 q) i = noise_at N P sr sy fc len z1 i + noise_at N P sr sy fc len z2 i.
Proof.
  intros HP Hy Hm HL. rewrite !(noise_flat N P sr sy fc HP Hy Hm HL). rewrite <- Rsum_n_plus. apply Rsum_n_ext. intros q _.
  unfold ext0. destruct (_ <? _)%nat; ring.
Qed.

Lemma wave_one N P sr sy fc i b q : Rabs (wave N P sr sy fc i b q) <= 1.
Proof.
  unfold wave. apply Rabs_le. destruct (Nat.even i); [apply COS_bound|]. match goal with |- _ <= - sin ?x <= _ => pose proof (SIN_bound x) end. lra.
Qed.

Lemma noise_at_sup N P sr sy fc len z i d : (1 <= P < N)%nat -> (1 <= sy)%nat -> (sr mod sy = 0)%nat -> (2 <= sr / sy)%nat ->
  0 <= d -> (forall q, (q < len)%nat -> Rabs (z q) <= d) -> Rabs (noise_at N P sr sy fc len z i) <= INR N * INR (sr / sy) * d.
Proof.
  intros HP Hy Hm HL Hd Hz. rewrite !(noise_flat N P sr sy fc HP Hy Hm HL). rewrite <- mult_INR.
  match goal with |- Rabs (Rsum_n ?n ?f) <= _ => replace (Rsum_n n f) with (Rsum_n n f - Rsum_n n (fun _ => 0)) end.
  2:{ rewrite Rsum_n_const. ring. }
  apply Rsum_n_dist. intros q _. rewrite Rminus_0_r, Rabs_mult. rewrite <- (Rmult_1_r d).
  apply Rmult_le_compat; try apply Rabs_pos; [|apply wave_one].
  unfold ext0. destruct (Nat.ltb_spec ((i / 2 / (N - P) * (N + N / 4) + N / 4) * (sr / sy) + 1 + q) len); [auto|rewrite Rabs_R0; exact Hd].
Qed.

(** ** The levels *)

Lemma point_2 libm p : cmod (cval (qpsk_point libm p)) <= 2001 / 1000.
Proof.
  rewrite point_parts.
  assert (V : B2R (Bsqrt mode_NE (f64_ofZ 2)) <= 11586 / 8192).
  { destruct (ofZ_exact 2 ltac:(lia)) as (V & _ & _).
    destruct (Bsqrt_correct 53 1024 _ _ mode_NE (f64_ofZ 2)) as (E & _ & _). rewrite E. fold (val (f64_ofZ 2)). rewrite V.
    change (rd (sqrt 2) <= 11586 / 8192). apply rd_le_fmt.
    - replace (11586 / 8192) with (IZR 11586 * bpow radix2 (-13)) by (cbn; lra). apply fmt_scaled; lia.
    - rewrite <- (sqrt_square (11586 / 8192)) by lra. apply sqrt_le_1_alt. lra. }
  destruct sqrt2_range as [_ V0].
  assert (Q : forall b, B2R (level b) * B2R (level b) <= 11586 / 8192 * (11586 / 8192)).
  { intros b. unfold level. destruct b; [|rewrite B2R_Bopp]; nra. }
  apply cmod_le; [lra|]. cbn [cval re im]. pose proof (Q (fst p)). pose proof (Q (snd p)). lra.
Qed.
