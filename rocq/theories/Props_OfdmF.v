(** Property C93: OFDM in binary64 with an accurate FFT (src/ofdm.rs). *)
From Coq Require Import List Arith ZArith Reals Bool Lia Lra Psatz.
From Flocq Require Import Core BinarySingleNaN.
From Verif Require Import Base IterTheory IterModel IterProofs Spec SpecR Tab Num F64Lib LibModel LibFloat LibReal
  ChaosModel ChaosProofs ChaosMod PskModel PskFloat RSums PskReal FhFloat FloatSum SpecC FftModel Dft
  OfdmModel OfdmProofs OfdmReal OfdmWave OfdmLink Props_Psk.
Import ListNotations.
Local Open Scope R_scope.

(** The complex number a pair of doubles stands for. *)
Definition cval (z : cpx F64) : cpx R := Cpx (B2R (re z)) (B2R (im z)).
Definition cfinite (z : cpx F64) : Prop := is_finite (re z) = true /\ is_finite (im z) = true.
Definition czero : cpx F64 := Cpx (B754_zero false) (B754_zero false).

(** A binary64 transform of length N with relative error eps: on N finite numbers of modulus at most A
    every output is finite and within eps * N * A of the exact transform, N * A being the largest value
    an output can have.  Asked only for A up to 8. *)
Definition accurate (eps : R) (N : nat) (transform : list (cpx F64) -> list (cpx F64)) (exact : list (cpx R) -> list (cpx R)) : Prop :=
  forall x A, length x = N -> 1 <= A <= 8 -> (forall s, In s x -> cfinite s /\ cmod (cval s) <= A) ->
  forall k, (k < N)%nat -> cfinite (nth k (transform x) czero) /\
    cmod (csub (cval (nth k (transform x) czero)) (nth k (exact (map cval x)) (Cpx 0 0))) <= eps * (INR N * A).

Lemma cmod_sub a b c : cmod (csub a c) <= cmod (csub a b) + cmod (csub b c).
Proof. replace (csub a c) with (cadd (csub a b) (csub b c)) by ring. apply cmod_triangle. Qed.
Lemma cmod_near a b : cmod a <= cmod (csub a b) + cmod b.
Proof. replace a with (cadd (csub a b) b) at 1 by ring. apply cmod_triangle. Qed.
Lemma cmod_sub_sym a b : cmod (csub a b) = cmod (csub b a).
Proof. rewrite <- cmod_opp. f_equal. unfold copp, csub. cbn. f_equal; ring. Qed.

Lemma Csum_minus n f g : csub (Csum_n n f) (Csum_n n g) = Csum_n n (fun j => csub (f j) (g j)).
Proof. induction n as [|n IH]; cbn [Csum_n]; [change (Cpx 0 0) with C0; ring|]. rewrite <- IH. ring. Qed.

Lemma one_of_sum n (f : nat -> R) S j : (forall i, 0 <= f i) -> Rsum_n n f <= S -> (j < n)%nat -> f j <= S.
Proof.
  intros Hf. revert S. induction n as [|n IH]; intros S HS Hj; [lia|]. cbn [Rsum_n] in HS.
  assert (P : 0 <= Rsum_n n f) by (clear -Hf; induction n; cbn [Rsum_n]; [lra|specialize (Hf n); lra]).
  destruct (Nat.eq_dec j n) as [->|]; [lra|]. apply IH; [|lia]. specialize (Hf n). lra.
Qed.

Section F64.
Variable libm : Libm.
Let num := NumF libm.
#[local] Existing Instance num.

Lemma cdivs_err (z : cpx F64) (E : cpx R) (N : nat) (e : R) : (1 <= N)%nat -> (Z.of_nat N <= 2 ^ 40)%Z -> cfinite z ->
  cmod E <= 3 -> 0 <= e <= 1 / 8 -> cmod (csub (cval z) (cmul (RtoC (INR N)) E)) <= INR N * e ->
  cfinite (cdivs z (nofnat N)) /\ cmod (csub (cval (cdivs z (nofnat N))) E) <= e + bpow radix2 (-49).
Proof.
  intros H1 HN [F1 F2] HE He Hz. destruct (ofZ_exact (Z.of_nat N) ltac:(lia)) as (Vn & Fn & _).
  change (@nofnat F64 num N) with (f64_ofZ (Z.of_nat N)). set (n := f64_ofZ (Z.of_nat N)) in *. rewrite <- INR_IZR_INZ in Vn.
  assert (Hn : 1 <= INR N) by (apply (le_INR 1); exact H1).
  assert (Q : cmod (csub (cmul (RtoC (/ INR N)) (cval z)) E) <= e).
  { replace (csub (cmul (RtoC (/ INR N)) (cval z)) E) with (cmul (RtoC (/ INR N)) (csub (cval z) (cmul (RtoC (INR N)) E))).
    - rewrite cmod_mul, cmod_RtoC, Rabs_pos_eq by (left; apply Rinv_0_lt_compat; lra).
      apply (Rmult_le_reg_l (INR N)); [lra|]. rewrite <- Rmult_assoc, Rinv_r, Rmult_1_l by lra. exact Hz.
    - apply cpx_eq; cbn; field; lra. }
  assert (Q2 : cmod (cmul (RtoC (/ INR N)) (cval z)) <= 25 / 8) by (pose proof (cmod_near (cmul (RtoC (/ INR N)) (cval z)) E); lra).
  assert (P : forall x : F64, is_finite x = true -> Rabs (B2R x / INR N) <= 25 / 8 ->
     is_finite (Bdiv mode_NE x n) = true /\ Rabs (B2R (Bdiv mode_NE x n) - B2R x / INR N) <= 4 * bpow radix2 (-53)).
  { intros x Fx Hx. pose proof (bpow_gt_0 radix2 (-53)) as U.
    destruct (div_fin x n Fx) as [V F].
    - rewrite Vn. lra.
    - rewrite Vn. apply pow_1024. change (val x) with (B2R x). apply Rle_trans with (1 := Hx). apply Rle_trans with (bpow radix2 2); [|apply bpow_le; lia].
      change (bpow radix2 2) with 4. lra.
    - split; [exact F|]. change (B2R (Bdiv mode_NE x n)) with (val (Bdiv mode_NE x n)). rewrite V, Vn. change (val x) with (B2R x).
      apply Rle_trans with (1 := rd_err _). assert (bpow radix2 (-1075) <= / 8 * bpow radix2 (-53)).
      { change (/ 8) with (bpow radix2 (-3)). rewrite <- bpow_plus. apply bpow_le. lia. }
      nra. }
  assert (C1 : Rabs (B2R (re z) / INR N) <= 25 / 8).
  { apply Rle_trans with (2 := Q2). replace (B2R (re z) / INR N) with (re (cmul (RtoC (/ INR N)) (cval z))) by (cbn; field; lra). apply cmod_re. }
  assert (C2 : Rabs (B2R (im z) / INR N) <= 25 / 8).
  { apply Rle_trans with (2 := Q2). replace (B2R (im z) / INR N) with (im (cmul (RtoC (/ INR N)) (cval z))) by (cbn; field; lra). apply cmod_im. }
  destruct (P _ F1 C1) as [G1 E1]. destruct (P _ F2 C2) as [G2 E2].
  split; [split; [exact G1|exact G2]|].
  apply Rle_trans with (1 := cmod_sub _ (cmul (RtoC (/ INR N)) (cval z)) _).
  assert (D : cmod (csub (cval (cdivs z n)) (cmul (RtoC (/ INR N)) (cval z))) <= 8 * bpow radix2 (-53)).
  { apply Rle_trans with (1 := cmod_parts _).
    replace (re (csub (cval (cdivs z n)) (cmul (RtoC (/ INR N)) (cval z)))) with (B2R (Bdiv mode_NE (re z) n) - B2R (re z) / INR N).
    2:{ cbn [csub cval cdivs cmul RtoC re im nsub nmul NumR]. change (@ndiv F64 num) with (@Bdiv 53 1024 prec53 emax1024 mode_NE). field. lra. }
    replace (im (csub (cval (cdivs z n)) (cmul (RtoC (/ INR N)) (cval z)))) with (B2R (Bdiv mode_NE (im z) n) - B2R (im z) / INR N).
    2:{ cbn [csub cval cdivs cmul RtoC re im nsub nmul nadd NumR]. change (@ndiv F64 num) with (@Bdiv 53 1024 prec53 emax1024 mode_NE). field. lra. }
    lra. }
  replace (bpow radix2 (-49)) with (16 * bpow radix2 (-53)) by (change 16 with (bpow radix2 4); rewrite <- bpow_plus; reflexivity).
  pose proof (bpow_gt_0 radix2 (-53)). lra.
Qed.

Section Link.
Variables (fft : Fft F64) (N : nat) (eps : R).
Hypothesis (He : Nat.even N = true) (H1 : (1 <= N)%nat) (HN : (Z.of_nat N <= 2 ^ 40)%Z).
Hypothesis (Heps : 0 <= eps) (HNe : INR N * eps <= 1 / 32).
Hypothesis (Hinv : accurate eps N (fft_inverse fft) idft) (Hfwd : accurate eps N (fft_forward fft) dft).

Lemma HN1 : 1 <= INR N.
Proof. apply (le_INR 1). exact H1. Qed.
Lemma eps32 : eps <= 1 / 32.
Proof. pose proof HN1. nra. Qed.

Definition spectrum (d : list (cpx F64)) (k : nat) : CR := cval (nth (bin N k) d czero).
Definition small (d : list (cpx F64)) : Prop := forall s, In s d -> cfinite s /\ cmod (cval s) <= 3.

Lemma fftshift_nth (d : list (cpx F64)) : length d = N -> fftshift d = tab N (fun k => nth (bin N k) d czero).
Proof. intros L. rewrite <- (tab_nth_id d czero) at 1. rewrite L, fftshift_tab. reflexivity. Qed.

Lemma body_err d j : length d = N -> small d -> (j < N)%nat ->
  cfinite (nth j (ofdm_body fft N d) czero) /\
  cmod (csub (cval (nth j (ofdm_body fft N d) czero)) (tone N (spectrum d) (Z.of_nat j))) <= 3 * eps + bpow radix2 (-49).
Proof.
  intros L Hd Hj. pose proof HN1 as Hn. pose proof eps32 as He32.
  assert (LF : length (fftshift d) = N) by (rewrite fftshift_length; exact L).
  destruct (Hinv (fftshift d) 3 LF ltac:(lra)) with (k := j) as [F E]; [|exact Hj|].
  { intros s Hs. rewrite fftshift_nth in Hs by exact L. apply in_map_iff in Hs. destruct Hs as (k & <- & Hk).
    apply Hd, nth_In. rewrite L. apply bin_lt. lia. }
  assert (X : nth j (idft (map cval (fftshift d))) (Cpx 0 0) = cmul (RtoC (INR N)) (tone N (spectrum d) (Z.of_nat j))).
  { rewrite fftshift_nth by exact L. rewrite tab_map, idft_tab, tab_nth by exact Hj. unfold tone, spectrum.
    set (S := Csum_n N _). apply cpx_eq; cbn; field; lra. }
  rewrite X in E. unfold ofdm_body.
  rewrite (nth_indep _ czero (cdivs czero (nofnat N))) by (rewrite map_length, fft_inverse_length, LF; exact Hj). 
  rewrite (map_nth (fun s => cdivs s (nofnat N))).
  apply cdivs_err; try assumption; [|lra|].
  - apply tone_bound; [lia|]. intros k Hk. apply Hd, nth_In. rewrite L. apply bin_lt. lia.
  - apply Rle_trans with (1 := E). apply Req_le. ring.
Qed.

Lemma pow49_N : INR N * bpow radix2 (-49) <= 1 / 512.
Proof.
  replace (1 / 512) with (bpow radix2 40 * bpow radix2 (-49)) by (rewrite <- bpow_plus; cbn; lra).
  apply Rmult_le_compat_r; [apply bpow_ge_0|]. rewrite INR_IZR_INZ. change (bpow radix2 40) with (IZR (2 ^ 40)). apply IZR_le. exact HN.
Qed.
Lemma pow49 : 0 < bpow radix2 (-49) <= 1 / 512.
Proof. pose proof pow49_N. pose proof HN1. pose proof (bpow_gt_0 radix2 (-49)). split; [assumption|nra]. Qed.

Lemma body_bound d j : length d = N -> small d -> (j < N)%nat -> cmod (cval (nth j (ofdm_body fft N d) czero)) <= 4.
Proof.
  intros L Hd Hj. destruct (body_err d j L Hd Hj) as [_ E]. pose proof pow49. pose proof eps32.
  pose proof (cmod_near (cval (nth j (ofdm_body fft N d) czero)) (tone N (spectrum d) (Z.of_nat j))).
  assert (cmod (tone N (spectrum d) (Z.of_nat j)) <= 3); [|lra].
  apply tone_bound; [lia|]. intros k Hk. apply Hd, nth_In. rewrite L. apply bin_lt. lia.
Qed.

(** The receiver's value on carrier c is within 1.26 of what was sent there. *)
Lemma read_err d (y : nat -> cpx F64) c : length d = N -> small d -> (c < N)%nat ->
  (forall j, (j < N)%nat -> cfinite (y j)) ->
  Rsum_n N (fun j => cmod (csub (cval (y j)) (cval (nth j (ofdm_body fft N d) czero)))) <= 1 ->
  cfinite (nth c (fftshift (fft_forward fft (tab N y))) czero) /\
  cmod (csub (cval (nth c (fftshift (fft_forward fft (tab N y))) czero)) (cval (nth c d czero))) <= 126 / 100.
Proof.
  intros L Hd Hc Fy Hy. pose proof HN1 as Hn. pose proof pow49_N as P49.
  set (k := bin N c). assert (Hk : (k < N)%nat) by (apply bin_lt; lia).
  assert (E0 : nth c (fftshift (fft_forward fft (tab N y))) czero = nth k (fft_forward fft (tab N y)) czero).
  { rewrite fftshift_nth by (rewrite fft_forward_length; apply tab_length). rewrite tab_nth by exact Hc. reflexivity. }
  rewrite E0.
  destruct (Hfwd (tab N y) 5 (tab_length _ _) ltac:(lra)) with (k := k) as [F E]; [|exact Hk|].
  { intros s Hs. apply in_map_iff in Hs. destruct Hs as (j & <- & Hj). apply in_seq in Hj.
    split; [apply Fy; lia|]. pose proof (body_bound d j L Hd ltac:(lia)) as B4.
    pose proof (one_of_sum N _ 1 j (fun i => cmod_nonneg _) Hy ltac:(lia)) as B1. cbn beta in B1.
    pose proof (cmod_near (cval (y j)) (cval (nth j (ofdm_body fft N d) czero))). lra. }
  split; [exact F|]. rewrite tab_map, dft_tab, tab_nth in E by exact Hk.
  set (Y := Csum_n N _) in E. set (out := cval (nth k (fft_forward fft (tab N y)) czero)) in *.
  assert (T : cval (nth c d czero) = Csum_n N (fun j => cmul (tone N (spectrum d) (Z.of_nat j)) (root N (- (Z.of_nat j * Z.of_nat k))))).
  { rewrite bin_of_tone by (lia || exact Hk). unfold spectrum, k. rewrite bin_bin by assumption. reflexivity. }
  assert (D : cmod (csub Y (cval (nth c d czero))) <= 1 + INR N * (3 * eps + bpow radix2 (-49))).
  { rewrite T. unfold Y. rewrite Csum_minus. apply Rle_trans with (1 := cmod_sum _ _).
    rewrite (Rsum_n_ext N _ (fun j => cmod (csub (cval (y j)) (tone N (spectrum d) (Z.of_nat j))))).
    - assert (G : forall n, (n <= N)%nat -> Rsum_n n (fun j => cmod (csub (cval (y j)) (tone N (spectrum d) (Z.of_nat j)))) <=
        Rsum_n n (fun j => cmod (csub (cval (y j)) (cval (nth j (ofdm_body fft N d) czero)))) + INR n * (3 * eps + bpow radix2 (-49))).
      { induction n as [|n IH]; intros Hn'; [cbn; lra|]. cbn [Rsum_n]. rewrite S_INR. specialize (IH ltac:(lia)).
        destruct (body_err d n L Hd ltac:(lia)) as [_ Eb].
        pose proof (cmod_sub (cval (y n)) (cval (nth n (ofdm_body fft N d) czero)) (tone N (spectrum d) (Z.of_nat n))). lra. }
      specialize (G N (le_n N)). lra.
    - intros j _. replace (csub (cmul (cval (y j)) (root N (- (Z.of_nat j * Z.of_nat k)))) (cmul (tone N (spectrum d) (Z.of_nat j)) (root N (- (Z.of_nat j * Z.of_nat k)))))
        with (cmul (csub (cval (y j)) (tone N (spectrum d) (Z.of_nat j))) (root N (- (Z.of_nat j * Z.of_nat k)))) by ring.
      rewrite cmod_mul, cmod_root. ring. }
  pose proof (cmod_sub out Y (cval (nth c d czero))). nra.
Qed.
End Link.

Lemma c0_czero : @c0 F64 num = czero.
Proof. vm_compute. reflexivity. Qed.
Lemma cval_zero : cval czero = C0.
Proof. reflexivity. Qed.

(** ** The QPSK points and decisions *)

Lemma sqrt2_range : is_finite (Bsqrt mode_NE (f64_ofZ 2)) = true /\ 181 / 128 <= B2R (Bsqrt mode_NE (f64_ofZ 2)) <= 3 / 2.
Proof.
  destruct (ofZ_exact 2 ltac:(lia)) as (V & F & _). split; [apply sqrt2_f64|].
  destruct (Bsqrt_correct 53 1024 _ _ mode_NE (f64_ofZ 2)) as (E & _ & _). rewrite E. fold (val (f64_ofZ 2)). rewrite V.
  change (181 / 128 <= rd (sqrt 2) <= 3 / 2). split.
  - apply rd_ge_fmt.
    + replace (181 / 128) with (IZR 181 * bpow radix2 (-7)) by (cbn; lra). apply fmt_scaled; lia.
    + rewrite <- (sqrt_square (181 / 128)) by lra. apply sqrt_le_1_alt. lra.
  - apply rd_le_fmt.
    + replace (3 / 2) with (IZR 3 * bpow radix2 (-1)) by (cbn; lra). apply fmt_scaled; lia.
    + rewrite <- (sqrt_square (3 / 2)) by lra. apply sqrt_le_1_alt. lra.
Qed.

Definition level (b : bool) : F64 := if b then Bsqrt mode_NE (f64_ofZ 2) else Bopp (Bsqrt mode_NE (f64_ofZ 2)).
Lemma point_parts p : qpsk_point libm p = Cpx (level (fst p)) (level (snd p)).
Proof. destruct p as [[] []]; reflexivity. Qed.

Lemma level_val b : is_finite (level b) = true /\ (if b then 181 / 128 <= B2R (level b) <= 3 / 2 else - (3 / 2) <= B2R (level b) <= - (181 / 128)).
Proof.
  destruct sqrt2_range as [F V]. unfold level. destruct b; [split; assumption|]. rewrite is_finite_Bopp, B2R_Bopp. split; [exact F|lra].
Qed.

Lemma point_small p : cfinite (qpsk_point libm p) /\ cmod (cval (qpsk_point libm p)) <= 3.
Proof.
  rewrite point_parts. destruct (level_val (fst p)) as [F1 V1]. destruct (level_val (snd p)) as [F2 V2]. split; [split; assumption|].
  apply Rle_trans with (1 := cmod_parts _). cbn [cval re im].
  assert (Rabs (B2R (level (fst p))) <= 3 / 2) by (apply Rabs_le; destruct (fst p); lra).
  assert (Rabs (B2R (level (snd p))) <= 3 / 2) by (apply Rabs_le; destruct (snd p); lra). lra.
Qed.

Definition decide (v : cpx F64) : list bool := [nleb (nofZ 0) (re v); nleb (nofZ 0) (im v)].

Lemma decide_part (x : F64) b : is_finite x = true -> Rabs (B2R x - B2R (level b)) <= 126 / 100 -> Bleb (f64_ofZ 0) x = b.
Proof.
  intros F V. destruct (ofZ_exact 0 ltac:(lia)) as (V0 & F0 & _). destruct (level_val b) as [_ L]. apply Rabs_le_inv in V.
  destruct b.
  - apply leb_val; [exact F0|exact F|]. rewrite V0. change (val x) with (B2R x). lra.
  - destruct (Bleb (f64_ofZ 0) x) eqn:E; [|reflexivity]. apply leb_val in E; [|exact F0|exact F]. rewrite V0 in E. change (val x) with (B2R x) in E. lra.
Qed.

Lemma decide_close v p : cfinite v -> cmod (csub (cval v) (cval (qpsk_point libm p))) <= 126 / 100 -> decide v = [fst p; snd p].
Proof.
  intros [F1 F2] H. rewrite point_parts in H. unfold decide. change (@nleb F64 num) with (@Bleb 53 1024). change (@nofZ F64 num) with f64_ofZ.
  f_equal; [|f_equal]; apply decide_part; try assumption; apply Rle_trans with (2 := H).
  - exact (cmod_re (csub (cval v) (cval (Cpx (level (fst p)) (level (snd p)))))).
  - exact (cmod_im (csub (cval v) (cval (Cpx (level (fst p)) (level (snd p)))))).
Qed.

Lemma decide_prefix (m : list bool) n (v : nat -> cpx F64) : (length m / 2 <= n)%nat ->
  (forall i p, nth_error (pairs m) i = Some p -> decide (v i) = [fst p; snd p]) ->
  exists extra, length extra = (2 * (n - length m / 2))%nat /\
    flat_map decide (tab n v) = firstn (2 * (length m / 2)) m ++ extra.
Proof.
  intros Hn Hv. exists (flat_map decide (tab (n - length m / 2) (fun i => v (length m / 2 + i)%nat))). split.
  - generalize (n - length m / 2)%nat as k. intros k.
    assert (L : forall l, length (flat_map decide l) = (2 * length l)%nat) by (induction l; cbn in *; lia).
    rewrite L, tab_length. reflexivity.
  - replace n with (length m / 2 + (n - length m / 2))%nat at 1 by lia. rewrite tab_add, flat_map_app. f_equal.
    rewrite <- (unpairs (length m) m eq_refl).
    rewrite <- (tab_nth_id (pairs m) (false, false)), (pairs_len (length m) m eq_refl).
    unfold tab. rewrite !flat_map_map. apply flat_map_ext_in. intros i Hi. apply in_seq in Hi.
    apply Hv. apply nth_error_nth'. rewrite (pairs_len (length m) m eq_refl). lia.
Qed.

(** ** The streams, for any transform *)

Lemma skip_prefix N (y : list (cpx F64)) : length y = N -> skipn (N / 4) (with_cp N y) = y.
Proof.
  intros L. pose proof (quarter N). unfold with_cp. rewrite skipn_app, skipn_length, L.
  rewrite skipn_all2 by (rewrite skipn_length; lia). replace (N / 4 - (N - (N - N / 4)))%nat with 0%nat by lia. reflexivity.
Qed.

Lemma tx_stream (fft : Fft F64) symbols s N P : (1 <= P < N)%nat -> yields symbols s ->
  let M := (N + N / 4)%nat in let B := ceil_div (length s) (N - P) in
  exists tx D, tx_baseband_ofdm_signal fft symbols N P = Ret tx /\
    (forall b, (b < B)%nat -> ofdm_freq N P (block (N - P) b s) (D b)) /\
    yields tx (tab (B * M) (fun i => nth (i mod M) (with_cp N (ofdm_body fft N (D (i / M)%nat))) czero)).
Proof.
  intros HP Hs M B. destruct (tx_ofdm_inv fft symbols N P HP) as (tx & Et & Yt).
  destruct (choice_nat (fun b d => ofdm_freq N P (block (N - P) b s) d /\
     ofdm_block fft N P (block (N - P) b s) = with_cp N (ofdm_body fft N d)) [] B) as (D & HD).
  { intros b Hb. destruct (ofdm_block_spec fft N P (block (N - P) b s) ltac:(lia)) as (d & Hd & E & _). exists d. split; assumption. }
  exists tx, D. split; [exact Et|]. split; [intros b Hb; apply HD; exact Hb|].
  specialize (Yt s Hs). rewrite (chunk_list_map _ _ c0) in Yt. fold B in Yt.
  rewrite (flat_map_tab M B (fun b t => nth t (with_cp N (ofdm_body fft N (D b))) czero)) in Yt; [exact Yt|].
  intros b Hb. destruct (HD b Hb) as ((L & _) & E). rewrite E. rewrite <- (tab_nth_id (with_cp N (ofdm_body fft N (D b))) czero) at 1.
  rewrite with_cp_length by (rewrite ofdm_body_length; exact L). reflexivity.
Qed.

Lemma rx_stream (fft : Fft F64) message g N P B : (1 <= P < N)%nat ->
  let M := (N + N / 4)%nat in
  yields message (tab (B * M) g) ->
  exists rx, rx_baseband_ofdm_signal fft message N P = Ret rx /\
    yields rx (tab (B * (N - P)) (fun i => nth (nth (i mod (N - P)) (carriers N P) 0%nat)
      (fftshift (fft_forward fft (tab N (fun j => g (i / (N - P) * M + N / 4 + j)%nat)))) czero)).
Proof.
  intros HP M Hy. pose proof (quarter N). destruct (rx_ofdm_inv fft message N P HP) as (rx & Er & Yr).
  exists rx. split; [exact Er|]. specialize (Yr (tab B (fun b => tab M (fun t => g (b * M + t)%nat)))).
  assert (E : concat (tab B (fun b => tab M (fun t => g (b * M + t)%nat))) = tab (B * M) g).
  { rewrite <- (map_id (tab B _)), <- flat_map_concat_map.
    rewrite (flat_map_tab M B (fun b t => g (b * M + t)%nat)) by reflexivity. apply tab_ext. intros i Hi. f_equal.
    rewrite (Nat.div_mod i M) at 3 by lia. lia. }
  rewrite E in Yr. specialize (Yr Hy).
  refine (eq_ind _ (fun x => yields _ x) (Yr _) _ _).
  - intros b Hb. apply in_map_iff in Hb. destruct Hb as (i & <- & _). apply tab_length.
  - apply (flat_map_tab (N - P) B (fun b r => nth (nth r (carriers N P) 0%nat)
      (fftshift (fft_forward fft (tab N (fun j => g (b * M + N / 4 + j)%nat)))) czero)).
    intros b Hb. unfold ofdm_read. rewrite c0_czero, (map_tab_in _ _ 0%nat), carriers_length by lia. apply tab_ext. intros r Hr.
    rewrite skipn_tab. replace (M - N / 4)%nat with N by lia. f_equal. f_equal. f_equal. apply tab_ext. intros j _. f_equal. lia.
Qed.

Lemma tx_points (message : Iter bool) m : yields message m -> yields (tx_baseband_qpsk_signal message) (map (qpsk_point libm) (pairs m)).
Proof. intros Hm. exact (imap_yields (qpsk_point libm) _ _ (ituples_yields _ _ Hm)). Qed.
Lemma rx_decide (it : Iter (cpx F64)) l : yields it l -> yields (rx_baseband_qpsk_signal it) (flat_map decide l).
Proof. intros Hy. unfold rx_baseband_qpsk_signal. apply iflat_pure_yields; [exact Hy|]. discriminate. Qed.

Lemma freq_small N P chunk d : (1 <= P < N)%nat -> small chunk -> ofdm_freq N P chunk d -> small d.
Proof.
  intros HP Hc (L & Hout & Hin) s Hs.
  assert (Z : cfinite czero /\ cmod (cval czero) <= 3) by (split; [split; reflexivity|rewrite cval_zero, cmod_0; lra]).
  rewrite c0_czero in *.
  apply (In_nth d s czero) in Hs. destruct Hs as (c & Hlt & <-).
  destruct (in_dec Nat.eq_dec c (carriers N P)) as [I|I].
  - apply (In_nth _ _ 0%nat) in I. destruct I as (i & Hi & <-). rewrite carriers_length in Hi by lia. rewrite Hin by exact Hi.
    destruct (nth_in_or_default i chunk czero) as [J| ->]; [apply Hc; exact J|exact Z].
  - rewrite Hout by exact I. exact Z.
Qed.

Lemma in_block {A} n b (l : list A) x : In x (block n b l) -> In x l.
Proof.
  unfold block. intros H. rewrite <- (firstn_skipn (b * n) l). apply in_or_app. right.
  rewrite <- (firstn_skipn n (skipn (b * n) l)). apply in_or_app. left. exact H.
Qed.
End F64.

(** ** C93

    The baseband OFDM link in binary64 (src/ofdm.rs:20-93 over src/qpsk.rs:6-21), with any FFT whose relative
    error eps satisfies N * eps <= 1/32: every transmitted sample is finite and of modulus at most 4, and every
    bit pair of the message is decoded from any received signal of the same length whose samples after the
    prefixes are finite and differ from the transmitted ones by at most 1 in total in each block.  Samples in
    the prefixes may be anything, NaN included. *)
Theorem C93_ofdm_binary64 :
  forall (libm : Libm) (fft : Fft F64) N P eps (message : Iter bool) m, let num := NumF libm in let M := (N + N / 4)%nat in
    Nat.even N = true -> (1 <= P < N)%nat -> (Z.of_nat N <= 2 ^ 40)%Z -> 0 <= eps -> INR N * eps <= 1 / 32 ->
    accurate eps N (fft_inverse fft) idft -> accurate eps N (fft_forward fft) dft -> yields message m ->
    exists tx w, tx_baseband_ofdm_signal fft (tx_baseband_qpsk_signal message) N P = Ret tx /\ yields tx w /\
      length w = (ceil_div (length m / 2) (N - P) * M)%nat /\ (forall s, In s w -> cfinite s /\ cmod (cval s) <= 4) /\
      forall channel received, yields channel received -> length received = length w ->
        (forall b j, ((b + 1) * M <= length w)%nat -> (j < N)%nat -> cfinite (nth (b * M + N / 4 + j) received czero)) ->
        (forall b, ((b + 1) * M <= length w)%nat ->
           Rsum_n N (fun j => cmod (csub (cval (nth (b * M + N / 4 + j) received czero)) (cval (nth (b * M + N / 4 + j) w czero)))) <= 1) ->
        exists rx extra, rx_baseband_ofdm_signal fft channel N P = Ret rx /\
          yields (rx_baseband_qpsk_signal rx) (firstn (2 * (length m / 2)) m ++ extra) /\ (length extra < 2 * (N - P))%nat.
Proof.
  intros libm fft N P eps message m num M He HP HN Heps HNe Hinv Hfwd Hm. pose proof (quarter N) as QN.
  pose proof (tx_points libm message m Hm) as Hs. set (s := map (qpsk_point libm) (pairs m)) in *.
  assert (Ls : length s = (length m / 2)%nat) by (unfold s; rewrite map_length; apply (pairs_len (length m)); reflexivity).
  assert (Ss : small s).
  { intros x Hx. apply in_map_iff in Hx. destruct Hx as (p & <- & _). apply point_small. }
  destruct (tx_stream libm fft _ s N P HP Hs) as (tx & D & Et & HD & Yt). fold M in Yt.
  set (B := ceil_div (length s) (N - P)) in *.
  assert (SD : forall b, (b < B)%nat -> length (D b) = N /\ small (D b)).
  { intros b Hb. split; [apply (HD b Hb)|]. apply (freq_small libm N P (block (N - P) b s)); [exact HP| |apply HD; exact Hb].
    intros x Hx. apply Ss. eapply in_block. exact Hx. }
  assert (LB : forall b, (b < B)%nat -> length (@ofdm_body F64 num fft N (D b)) = N) by (intros b Hb; rewrite ofdm_body_length; apply SD; exact Hb).
  eexists. eexists. split; [exact Et|]. split; [exact Yt|]. rewrite tab_length.
  pose proof (ceil_div_spec (length m / 2) (N - P) ltac:(lia)) as CS.
  assert (BB : B = ceil_div (length m / 2) (N - P)) by (unfold B; rewrite Ls; reflexivity).
  rewrite <- BB in CS |- *.
  split; [reflexivity|]. split.
  { intros x Hx. apply in_map_iff in Hx. destruct Hx as (i & <- & Hi). apply in_seq in Hi.
    assert (Hb : (i / M < B)%nat) by (apply Nat.div_lt_upper_bound; nia).
    destruct (SD _ Hb) as [L1 L2]. cbn beta. set (t := (i mod M)%nat).
    assert (Ht : (t < M)%nat) by (apply Nat.mod_upper_bound; lia).
    assert (I : In (nth t (with_cp N (@ofdm_body F64 num fft N (D (i / M)%nat))) czero) (@ofdm_body F64 num fft N (D (i / M)%nat))).
    { assert (J : In (nth t (with_cp N (@ofdm_body F64 num fft N (D (i / M)%nat))) czero) (with_cp N (@ofdm_body F64 num fft N (D (i / M)%nat)))).
      { apply nth_In. rewrite with_cp_length by (apply LB; exact Hb). exact Ht. }
      unfold with_cp in J at 2. apply in_app_or in J. destruct J as [J|J]; [|exact J].
      rewrite <- (firstn_skipn (N - N / 4)). apply in_or_app. right. exact J. }
    apply (In_nth _ _ czero) in I. destruct I as (j & Hj & E). rewrite LB in Hj by exact Hb.
    match goal with |- cfinite ?x /\ _ => change x with (nth t (with_cp N (@ofdm_body F64 num fft N (D (i / M)%nat))) czero) end.
    rewrite <- E. split.
    - apply (body_err libm fft N eps); try assumption; lia.
    - apply (body_bound libm fft N eps); try assumption; lia. }
  intros channel received Hc Lr Fr Hr.
  assert (Hc' : yields channel (tab (B * M) (fun i => nth i received czero))) by (rewrite <- Lr, tab_nth_id; exact Hc).
  destruct (rx_stream libm fft channel _ N P B HP Hc') as (rx & Er & Yr). apply (rx_decide libm) in Yr. fold M in Yr.
  match type of Yr with yields _ (flat_map _ (tab _ ?v)) => destruct (decide_prefix libm m (B * (N - P)) v) as (extra & Le & E); [lia| |] end.
  2:{ exists rx, extra. split; [exact Er|]. rewrite E in Yr. split; [exact Yr|]. lia. }
  intros i p Hp. cbn beta.
  assert (Hi : (i < length m / 2)%nat) by (rewrite <- (pairs_len (length m) m eq_refl); apply nth_error_Some; congruence).
  pose proof (Nat.div_mod i (N - P) ltac:(lia)) as Dm. pose proof (Nat.mod_upper_bound i (N - P) ltac:(lia)) as U.
  set (b := (i / (N - P))%nat) in *. set (r := (i mod (N - P))%nat) in *.
  assert (Hb : (b < B)%nat) by nia. destruct (SD b Hb) as [L1 L2].
  assert (HbM : ((b + 1) * M <= B * M)%nat) by nia.
  set (c := nth r (carriers N P) 0%nat).
  assert (Hlt : (c < N)%nat) by (eapply carriers_lt; [|apply nth_In; rewrite carriers_length by lia; exact U]; lia).
  destruct (read_err libm fft N eps He ltac:(lia) HN Heps HNe Hinv Hfwd (D b) (fun j => nth (b * M + N / 4 + j) received czero) c L1 L2 Hlt) as [F V].
  - intros j Hj. apply Fr; assumption.
  - specialize (Hr b HbM). apply Rle_trans with (2 := Hr). apply Req_le, Rsum_n_ext. intros j Hj.
    rewrite tab_nth by nia. replace ((b * M + N / 4 + j) / M)%nat with b by (apply (Nat.div_unique _ _ _ (N / 4 + j)); unfold M; lia).
    replace ((b * M + N / 4 + j) mod M)%nat with (N / 4 + j)%nat by (apply (Nat.mod_unique _ _ b); unfold M; lia).
    rewrite <- (nth_skipn' (with_cp N _) (N / 4) j czero), skip_prefix by (apply LB; exact Hb). reflexivity.
  - apply (decide_close libm); [exact F|]. destruct (HD b Hb) as (_ & _ & Hin). rewrite !(c0_czero libm) in Hin. unfold c in V at 2. rewrite Hin in V by exact U.
    rewrite nth_block in V by exact U. replace (b * (N - P) + r)%nat with i in V by lia.
    replace (nth i s czero) with (qpsk_point libm p) in V; [exact V|]. symmetry. apply nth_error_nth. unfold s. rewrite nth_error_map, Hp. reflexivity.
Qed.

(** Nothing added on the way: the bits come back. *)
Theorem C93_round_trip :
  forall (libm : Libm) (fft : Fft F64) N P eps (message : Iter bool) m, let num := NumF libm in
    Nat.even N = true -> (1 <= P < N)%nat -> (Z.of_nat N <= 2 ^ 40)%Z -> 0 <= eps -> INR N * eps <= 1 / 32 ->
    accurate eps N (fft_inverse fft) idft -> accurate eps N (fft_forward fft) dft -> yields message m ->
    exists tx rx extra, tx_baseband_ofdm_signal fft (tx_baseband_qpsk_signal message) N P = Ret tx /\
      rx_baseband_ofdm_signal fft tx N P = Ret rx /\
      yields (rx_baseband_qpsk_signal rx) (firstn (2 * (length m / 2)) m ++ extra) /\ (length extra < 2 * (N - P))%nat.
Proof.
  intros libm fft N P eps message m num He HP HN Heps HNe Hinv Hfwd Hm.
  destruct (C93_ofdm_binary64 libm fft N P eps message m He HP HN Heps HNe Hinv Hfwd Hm) as (tx & w & Et & Yt & Lw & Fw & R).
  destruct (R tx w Yt eq_refl) as (rx & extra & Er & Yr & Le).
  - intros b j Hb Hj. apply Fw, nth_In. pose proof (quarter N). nia.
  - intros b _. rewrite (Rsum_n_ext N _ (fun _ => 0)).
    + clear. induction N as [|n IH]; cbn [Rsum_n]; lra.
    + intros j _. replace (csub _ _) with C0 by ring. apply cmod_0.
  - exists tx, rx, extra. repeat split; assumption.
Qed.

Lemma add_part (a z : F64) : is_finite a = true -> is_finite z = true -> Rabs (B2R a) <= 4 -> Rabs (B2R z) <= 1 ->
  is_finite (Bplus mode_NE a z) = true /\ Rabs (B2R (Bplus mode_NE a z) - B2R a) <= Rabs (B2R z) + 6 * bpow radix2 (-53).
Proof.
  intros Fa Fz Ha Hz. pose proof (Rabs_triang (B2R a) (B2R z)) as T. destruct (add_fin a z Fa Fz) as [V F].
  - apply pow_1024. apply Rle_trans with (1 := T). apply Rle_trans with (bpow radix2 3); [change (bpow radix2 3) with 8; lra|apply bpow_le; lia].
  - split; [exact F|]. change (B2R (Bplus mode_NE a z)) with (val (Bplus mode_NE a z)). rewrite V.
    change (val a) with (B2R a). change (val z) with (B2R z).
    pose proof (rd_err (B2R a + B2R z)) as E. assert (bpow radix2 (-1075) <= bpow radix2 (-53)) by (apply bpow_le; lia).
    pose proof (bpow_gt_0 radix2 (-53)) as U.
    replace (rd (B2R a + B2R z) - B2R a) with ((rd (B2R a + B2R z) - (B2R a + B2R z)) + B2R z) by ring.
    pose proof (Rabs_triang (rd (B2R a + B2R z) - (B2R a + B2R z)) (B2R z)).
    assert (Rabs (B2R a + B2R z) * bpow radix2 (-53) <= 5 * bpow radix2 (-53)) by (apply Rmult_le_compat_r; lra). lra.
Qed.

(** Noise added in binary64: harmless if, in every block, what is added after the prefix has real and imaginary
    parts whose moduli sum to at most 9/10. *)
Theorem C93_added_noise :
  forall (libm : Libm) (fft : Fft F64) N P eps (message : Iter bool) m (noise : nat -> cpx F64), let num := NumF libm in let M := (N + N / 4)%nat in
    Nat.even N = true -> (1 <= P < N)%nat -> (Z.of_nat N <= 2 ^ 40)%Z -> 0 <= eps -> INR N * eps <= 1 / 32 ->
    accurate eps N (fft_inverse fft) idft -> accurate eps N (fft_forward fft) dft -> yields message m ->
    (forall b j, (j < N)%nat -> cfinite (noise (b * M + N / 4 + j)%nat)) ->
    (forall b, Rsum_n N (fun j => Rabs (B2R (re (noise (b * M + N / 4 + j)%nat))) + Rabs (B2R (im (noise (b * M + N / 4 + j)%nat)))) <= 9 / 10) ->
    exists tx w, tx_baseband_ofdm_signal fft (tx_baseband_qpsk_signal message) N P = Ret tx /\ yields tx w /\
      forall noisy, yields noisy (map (fun '(i, x) => cadd x (noise i)) (combine (seq 0 (length w)) w)) ->
      exists rx extra, rx_baseband_ofdm_signal fft noisy N P = Ret rx /\
        yields (rx_baseband_qpsk_signal rx) (firstn (2 * (length m / 2)) m ++ extra) /\ (length extra < 2 * (N - P))%nat.
Proof.
  intros libm fft N P eps message m noise num M He HP HN Heps HNe Hinv Hfwd Hm Fz Hz.
  destruct (C93_ofdm_binary64 libm fft N P eps message m He HP HN Heps HNe Hinv Hfwd Hm) as (tx & w & Et & Yt & Lw & Fw & R).
  exists tx, w. split; [exact Et|]. split; [exact Yt|]. intros noisy Hn. pose proof (quarter N) as QN.
  assert (E : map (fun '(i, x) => @cadd F64 num x (noise i)) (combine (seq 0 (length w)) w) = tab (length w) (fun i => @cadd F64 num (nth i w czero) (noise i))).
  { rewrite <- (tab_nth_id w czero) at 2. replace (seq 0 (length w)) with (tab (length w) (fun i => i)) by apply map_id.
    rewrite tab_combine, tab_map. reflexivity. }
  pose proof (eq_ind _ (fun l => yields noisy l) Hn _ E) as Hn'. clear Hn E.
  fold M in Lw, R.
  assert (K : forall b j, ((b + 1) * M <= length w)%nat -> (j < N)%nat ->
     let i := (b * M + N / 4 + j)%nat in let y := nth i (tab (length w) (fun i => @cadd F64 num (nth i w czero) (noise i))) czero in
     cfinite y /\ cmod (csub (cval y) (cval (nth i w czero))) <= (Rabs (B2R (re (noise i))) + Rabs (B2R (im (noise i)))) + bpow radix2 (-49)).
  { intros b j Hb Hj i y. assert (Hi : (i < length w)%nat) by (unfold i, M in *; nia).
    unfold y. rewrite tab_nth by exact Hi. destruct (Fw (nth i w czero) (nth_In _ _ Hi)) as [[Fr Fi] Bw].
    destruct (Fz b j Hj) as [Zr Zi]. fold i in Zr, Zi.
    pose proof (one_of_sum N _ (9 / 10) j (fun q => Rplus_le_le_0_compat _ _ (Rabs_pos _) (Rabs_pos _)) (Hz b) Hj) as One. cbn beta in One. fold i in One.
    pose proof (Rabs_pos (B2R (re (noise i)))) as Pr. pose proof (Rabs_pos (B2R (im (noise i)))) as Pi.
    destruct (add_part (re (nth i w czero)) (re (noise i)) Fr Zr) as [G1 E1]; [apply Rle_trans with (2 := Bw); exact (cmod_re (cval (nth i w czero)))|lra|].
    destruct (add_part (im (nth i w czero)) (im (noise i)) Fi Zi) as [G2 E2]; [apply Rle_trans with (2 := Bw); exact (cmod_im (cval (nth i w czero)))|lra|].
    split; [split; [exact G1|exact G2]|]. apply Rle_trans with (1 := cmod_parts _).
    replace (bpow radix2 (-49)) with (16 * bpow radix2 (-53)) by (change 16 with (bpow radix2 4); rewrite <- bpow_plus; reflexivity).
    pose proof (bpow_gt_0 radix2 (-53)).
    change (re (csub (cval (@cadd F64 num (nth i w czero) (noise i))) (cval (nth i w czero)))) with (B2R (Bplus mode_NE (re (nth i w czero)) (re (noise i))) - B2R (re (nth i w czero))).
    change (im (csub (cval (@cadd F64 num (nth i w czero) (noise i))) (cval (nth i w czero)))) with (B2R (Bplus mode_NE (im (nth i w czero)) (im (noise i))) - B2R (im (nth i w czero))).
    lra. }
  apply (R noisy _ Hn'); [apply tab_length| |].
  - intros b j Hb Hj. apply (K b j Hb Hj).
  - intros b Hb. specialize (Hz b).
    assert (G : forall n, (n <= N)%nat -> Rsum_n n (fun j => cmod (csub (cval (nth (b * M + N / 4 + j) (tab (length w) (fun i => @cadd F64 num (nth i w czero) (noise i))) czero)) (cval (nth (b * M + N / 4 + j) w czero)))) <=
       Rsum_n n (fun j => Rabs (B2R (re (noise (b * M + N / 4 + j)%nat))) + Rabs (B2R (im (noise (b * M + N / 4 + j)%nat)))) + INR n * bpow radix2 (-49)).
    { induction n as [|n IH]; intros Hn; [cbn; lra|]. cbn [Rsum_n]. rewrite S_INR. specialize (IH ltac:(lia)).
      destruct (K b n Hb ltac:(lia)) as [_ Q]. lra. }
    specialize (G N (le_n N)). pose proof (pow49_N N HN). lra.
Qed.

(** A transform that meets the hypotheses: the two-point butterfly in binary64. *)
Definition butterfly (libm : Libm) (x : list (cpx F64)) : list (cpx F64) :=
  let num := NumF libm in match x with [a; b] => [cadd a b; csub a b] | _ => x end.
Lemma butterfly_length libm x : length (butterfly libm x) = length x.
Proof. destruct x as [|a [|b [|c x]]]; reflexivity. Qed.
Definition fft2 (libm : Libm) : Fft F64 := {| fft_forward := butterfly libm; fft_inverse := butterfly libm;
  fft_forward_length := butterfly_length libm; fft_inverse_length := butterfly_length libm |}.

Lemma root2 z : root 2 z = if Z.even z then C1 else copp C1.
Proof.
  rewrite (Z.div_mod z 2) at 1 by lia. rewrite root_add.
  assert (E : root 2 (2 * (z / 2)) = C1) by (apply (root_period 2 (z / 2)); lia). rewrite E.
  rewrite Zmod_even. destruct (Z.even z); [rewrite root_0; ring|].
  unfold root. replace (2 * PI * IZR 1 / INR 2) with PI by (cbn; field). unfold cis. rewrite cos_PI, sin_PI.
  apply cpx_eq; cbn; ring.
Qed.

Lemma butterfly_part (op : F64 -> F64 -> F64) (rop : R -> R -> R) (a b : F64) A :
  (op = Bplus mode_NE /\ rop = Rplus \/ op = Bminus mode_NE /\ rop = Rminus) -> 1 <= A <= 8 ->
  is_finite a = true -> is_finite b = true -> Rabs (B2R a) <= A -> Rabs (B2R b) <= A ->
  is_finite (op a b) = true /\ Rabs (B2R (op a b) - rop (B2R a) (B2R b)) <= 1 / 256.
Proof.
  intros Ho HA Fa Fb Ha Hb.
  assert (T : Rabs (rop (B2R a) (B2R b)) <= 16).
  { apply Rabs_le_inv in Ha. apply Rabs_le_inv in Hb. destruct Ho as [[_ ->]|[_ ->]]; apply Rabs_le; lra. }
  assert (Q : is_finite (op a b) = true /\ B2R (op a b) = rd (rop (B2R a) (B2R b))).
  { assert (Bd : Rabs (rd (rop (B2R a) (B2R b))) < bpow radix2 1024).
    { apply pow_1024. apply Rle_trans with (1 := T). change 16 with (bpow radix2 4). apply bpow_le. lia. }
    destruct Ho as [[-> ->]|[-> ->]]; [destruct (add_fin a b Fa Fb Bd)|destruct (sub_fin a b Fa Fb Bd)]; split; assumption. }
  destruct Q as [F V]. split; [exact F|]. rewrite V. apply Rle_trans with (1 := rd_err _).
  assert (bpow radix2 (-53) <= bpow radix2 (-13)) by (apply bpow_le; lia).
  assert (bpow radix2 (-1075) <= bpow radix2 (-13)) by (apply bpow_le; lia).
  assert (bpow radix2 (-13) = / 8192) by (cbn; lra). pose proof (bpow_gt_0 radix2 (-53)). nra.
Qed.

Lemma butterfly_accurate libm (exact : list (cpx R) -> list (cpx R)) :
  (forall a b, exact [a; b] = [cadd a b; csub a b]) -> accurate (1 / 64) 2 (butterfly libm) exact.
Proof.
  intros Hex x A L HA Hx k Hk. destruct x as [|a [|b [|c x]]]; try discriminate L. clear L.
  destruct (Hx a ltac:(left; reflexivity)) as [[Fa1 Fa2] Ba]. destruct (Hx b ltac:(right; left; reflexivity)) as [[Fb1 Fb2] Bb]. clear Hx.
  pose proof (Rle_trans _ _ _ (cmod_re _) Ba) as A1. pose proof (Rle_trans _ _ _ (cmod_im _) Ba) as A2.
  pose proof (Rle_trans _ _ _ (cmod_re _) Bb) as B1. pose proof (Rle_trans _ _ _ (cmod_im _) Bb) as B2. cbn [cval re im] in A1, A2, B1, B2.
  cbn [map]. rewrite Hex. replace (INR 2) with 2 by (cbn; ring).
  destruct k as [|[|k]]; [| |lia]; cbn [nth butterfly].
  - destruct (butterfly_part (Bplus mode_NE) Rplus (re a) (re b) A) as [G1 E1]; auto.
    destruct (butterfly_part (Bplus mode_NE) Rplus (im a) (im b) A) as [G2 E2]; auto.
    split; [split; [exact G1|exact G2]|]. apply Rle_trans with (1 := cmod_parts _).
    assert (Rabs (B2R (Bplus mode_NE (re a) (re b)) - (B2R (re a) + B2R (re b))) + Rabs (B2R (Bplus mode_NE (im a) (im b)) - (B2R (im a) + B2R (im b))) <= 1 / 64 * (2 * A)) as G by lra. exact G.
  - destruct (butterfly_part (Bminus mode_NE) Rminus (re a) (re b) A) as [G1 E1]; auto.
    destruct (butterfly_part (Bminus mode_NE) Rminus (im a) (im b) A) as [G2 E2]; auto.
    split; [split; [exact G1|exact G2]|]. apply Rle_trans with (1 := cmod_parts _).
    assert (Rabs (B2R (Bminus mode_NE (re a) (re b)) - (B2R (re a) - B2R (re b))) + Rabs (B2R (Bminus mode_NE (im a) (im b)) - (B2R (im a) - B2R (im b))) <= 1 / 64 * (2 * A)) as G by lra. exact G.
Qed.

Lemma dft_2 a b : dft [a; b] = [cadd a b; csub a b] /\ idft [a; b] = [cadd a b; csub a b].
Proof.
  change [a; b] with (tab 2 (fun i => nth i [a; b] C0)). rewrite dft_tab, idft_tab. cbn [tab seq map Csum_n nth]. rewrite !root2.
  cbn [Z.of_nat Z.mul Z.opp Pos.of_succ_nat Pos.mul Z.even]. change (Cpx 0 0) with C0. split; (f_equal; [ring|f_equal; ring]).
Qed.

(** The hypotheses are met, with two carriers of which one is a pilot, and an odd number of bits. *)
Example C93_case (libm : Libm) : let num := NumF libm in
  exists tx rx extra, tx_baseband_ofdm_signal (fft2 libm) (tx_baseband_qpsk_signal (of_list [true; false; false; true; true])) 2 1 = Ret tx /\
    rx_baseband_ofdm_signal (fft2 libm) tx 2 1 = Ret rx /\
    yields (rx_baseband_qpsk_signal rx) ([true; false; false; true] ++ extra) /\ (length extra < 2)%nat.
Proof.
  intros num. apply (C93_round_trip libm (fft2 libm) 2 1 (1 / 64) (of_list [true; false; false; true; true]) [true; false; false; true; true]).
  - reflexivity.
  - lia.
  - lia.
  - lra.
  - cbn. lra.
  - apply butterfly_accurate. intros a b. exact (proj2 (dft_2 a b)).
  - apply butterfly_accurate. intros a b. exact (proj1 (dft_2 a b)).
  - apply of_list_yields.
Qed.

(** With noise of an eighth on every sample. *)
Definition eighth : F64 := @B754_finite 53 1024 false 4503599627370496 (-55) eq_refl.
Example C93_noise_case (libm : Libm) : let num := NumF libm in
  exists tx w, tx_baseband_ofdm_signal (fft2 libm) (tx_baseband_qpsk_signal (of_list [true; false; false; true])) 2 1 = Ret tx /\ yields tx w /\
    forall noisy, yields noisy (map (fun '(i, x) => cadd x (Cpx eighth eighth)) (combine (seq 0 (length w)) w)) ->
    exists rx extra, rx_baseband_ofdm_signal (fft2 libm) noisy 2 1 = Ret rx /\
      yields (rx_baseband_qpsk_signal rx) ([true; false; false; true] ++ extra) /\ (length extra < 2)%nat.
Proof.
  intros num. apply (C93_added_noise libm (fft2 libm) 2 1 (1 / 64) (of_list [true; false; false; true]) [true; false; false; true] (fun _ => Cpx eighth eighth)).
  - reflexivity.
  - lia.
  - lia.
  - lra.
  - cbn. lra.
  - apply butterfly_accurate. intros a b. exact (proj2 (dft_2 a b)).
  - apply butterfly_accurate. intros a b. exact (proj1 (dft_2 a b)).
  - apply of_list_yields.
  - intros b j _. split; reflexivity.
  - intros b. cbn [Rsum_n re im]. assert (E : B2R eighth = 1 / 8) by (unfold eighth; cbn; unfold F2R; cbn; lra). rewrite E, Rabs_pos_eq by lra. lra.
Qed.

(** Accuracy is needed: transforms that only keep or negate their input give other bits. *)
Definition fft_none : Fft F64 := {| fft_forward := fun x => map (fun z => Cpx (Bopp (re z)) (Bopp (im z))) x; fft_inverse := fun x => x;
  fft_forward_length := map_length _; fft_inverse_length := fun x => eq_refl |}.
Example C93_inaccurate (libm : Libm) : let num := NumF libm in
  (let? tx := tx_baseband_ofdm_signal fft_none (tx_baseband_qpsk_signal (of_list [true; false])) 2 1 in
   let? rx := rx_baseband_ofdm_signal fft_none tx 2 1 in collect 5 (rx_baseband_qpsk_signal rx)) = Ret [false; true].
Proof. vm_compute. reflexivity. Qed.

(** ** Axioms used *)
Print Assumptions C93_ofdm_binary64.
Print Assumptions C93_round_trip.
Print Assumptions C93_added_noise.
