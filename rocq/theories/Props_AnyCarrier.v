(** C111: the error rate of BPSK when a symbol does not hold a whole number of half periods of the carrier. *)
From Coq Require Import List Arith ZArith Reals Bool Lia Lra Psatz.
From Verif Require Import Base IterTheory IterModel IterProofs Spec SpecR Tab Num LibModel LibReal PskModel PskChain RSums PskReal
  CdmaModel CdmaProofs KomModel PyModel LabModel BerModel Props_Lib Props_Psk Props_Pass Props_Jam Props_Energy Props_Harness Props_Py Props_Ber Props_Cdma Props_BerTheory Props_Erf Props_Expected Props_NoiseEnergy.
From Verif Require NormalMean NormalTail.
Import ListNotations.
Local Open Scope R_scope.

(** ** Bits of different strength *)
Lemma blocks_law2 N len tie (data : nat -> bool) (u : nat -> R) (t : nat -> R) (rate : list R -> R) : (0 < N)%nat ->
  (forall k, (k < N)%nat -> Rsum_n len (fun j => u (k * len + j)%nat * u (k * len + j)%nat) = 1) ->
  (forall z, rate z = Rsum_n N (fun k => bit_hit tie (data k) (k * len) len u (t k) z) / INR N) ->
  let p k := NormalMean.Qt (t k) in
  let m := Rsum_n N p / INR N in
  normal_mean (N * len) rate m /\
  normal_mean (N * len) (fun z => (rate z - m) * (rate z - m)) (Rsum_n N (fun k => p k * (1 - p k)) / (INR N * INR N)).
Proof.
  intros HN U Hr p m. assert (PN : 0 < INR N) by (apply lt_0_INR; exact HN).
  assert (In : forall k, (k < N)%nat -> (k * len + len <= N * len)%nat) by (intros; nia).
  set (I := fun k => bit_hit tie (data k) (k * len) len u (t k)).
  assert (M1 : forall k, (k < N)%nat -> normal_mean (N * len) (I k) (p k)) by (intros k Hk; apply bit_mean; [apply In, Hk|apply U, Hk]).
  split.
  - pose proof (mean_scale _ _ _ (INR N) (mean_sum (N * len) N I p M1)) as S. revert S. apply NormalMean.mean_ext. intros z _. symmetry. apply Hr.
  - pose proof (sum_spread (N * len) N (fun k z => I k z - p k) (fun k => p k * (1 - p k))) as S.
    assert (Sp : normal_mean (N * len) (fun z => Rsum_n N (fun k => I k z - p k) * Rsum_n N (fun k => I k z - p k)) (Rsum_n N (fun k => p k * (1 - p k)))).
    { apply S.
      - intros k Hk. pose proof (NormalMean.mean_lin _ _ _ (1 - 2 * p k) _ _ (M1 k Hk) (NormalMean.mean_const (N * len) (p k * p k))) as M.
        replace ((1 - 2 * p k) * p k + p k * p k) with (p k * (1 - p k)) in M by ring. revert M. apply NormalMean.mean_ext. intros z _.
        pose proof (hits_idem tie (data k) (Rsum_n len (fun j => nth (k * len + j) z 0 * u (k * len + j)%nat)) (t k)) as Id. unfold I, bit_hit. cbv beta.
        set (h := hits tie (data k) _ (t k)) in *. clearbody h. clear - Id. transitivity (h * h - 2 * p k * h + p k * p k); [rewrite Id|]; ring.
      - intros k l Hk Hl E. assert (M2 : normal_mean (N * len) (fun z => I k z * I l z) (p k * p l)).
        { apply bits_independent; [apply In, Hk|apply In, Hl|nia|apply U, Hk|apply U, Hl]. }
        pose proof (NormalMean.mean_lin _ _ _ (- p k) _ _ (M1 l Hl) (NormalMean.mean_const (N * len) (p k * p l))) as A.
        pose proof (NormalMean.mean_lin _ _ _ (- p l) _ _ (M1 k Hk) A) as B. pose proof (NormalMean.mean_lin _ _ _ 1 _ _ M2 B) as C.
        replace (1 * (p k * p l) + (- p l * p k + (- p k * p l + p k * p l))) with 0 in C by ring. revert C. apply NormalMean.mean_ext. intros z _. ring. }
    pose proof (mean_scale _ _ _ (INR N * INR N) Sp) as S2. revert S2. apply NormalMean.mean_ext. intros z _. rewrite (Hr z). fold I. rewrite Rsum_n_minus. unfold m. change (fun k : nat => bit_hit tie (data k) (k * len) len u (t k) z) with (fun k => I k z). field. lra.
Qed.

(** The tail as a function of the energy is convex. *)
Lemma spread_harms N (e : nat -> R) (c : R) : (0 < N)%nat -> 0 < c -> (forall k, (k < N)%nat -> 0 < e k) ->
  let a := Rsum_n N e / INR N in
  let Q x := NormalMean.Qt (sqrt (c * (x / a))) in
  NormalMean.Qt (sqrt c) <= Rsum_n N (fun k => Q (e k)) / INR N /\
  (Rsum_n N (fun k => Q (e k)) / INR N = NormalMean.Qt (sqrt c) <-> forall k, (k < N)%nat -> e k = a).
Proof.
  intros HN Hc He a Q. assert (PN : 0 < INR N) by (apply lt_0_INR; exact HN).
  assert (Pa : 0 < a).
  { apply Rdiv_lt_0_compat; [|exact PN]. destruct N as [|N]; [lia|]. cbn [Rsum_n]. pose proof (Rsum_n_nonneg N e ltac:(intros; left; apply He; lia)). specialize (He N ltac:(lia)). lra. }
  set (t0 := sqrt c). assert (P0 : 0 < t0) by (apply sqrt_lt_R0; exact Hc). assert (S0 : t0 * t0 = c) by (apply sqrt_sqrt; lra).
  set (g := NormalMean.normal_density t0 / (2 * t0)).
  set (L := fun x => NormalMean.Qt t0 - g * (c * (x / a) - c)).
  assert (T : forall k, (k < N)%nat -> L (e k) <= Q (e k) /\ (e k <> a -> L (e k) < Q (e k))).
  { intros k Hk. specialize (He k Hk). assert (Px : 0 < c * (e k / a)) by (apply Rmult_lt_0_compat; [exact Hc|apply Rdiv_lt_0_compat; assumption]).
    pose proof (sqrt_lt_R0 _ Px) as Pt. pose proof (sqrt_sqrt (c * (e k / a)) ltac:(lra)) as St. unfold L, Q.
    destruct (Req_dec (sqrt (c * (e k / a))) t0) as [E|E].
    - assert (Ek : e k = a).
      { rewrite E, S0 in St. apply Rmult_eq_reg_r with (/ a); [|apply Rinv_neq_0_compat; lra]. apply Rmult_eq_reg_l with c; [|lra]. unfold Rdiv in St. rewrite <- St. field. lra. }
      split; [|contradiction]. rewrite E, Ek. right. field. lra.
    - pose proof (NormalTail.Qt_tangent t0 _ P0 Pt E) as TT. rewrite St, S0 in TT. fold g in TT. split; [left|intros _]; exact TT. }
  assert (SL : Rsum_n N (fun k => L (e k)) = INR N * NormalMean.Qt t0).
  { unfold L. rewrite Rsum_n_minus, Rsum_n_const. rewrite (Rsum_n_scale N g (fun k => c * (e k / a) - c)). rewrite Rsum_n_minus, Rsum_n_const, (Rsum_n_scale N c (fun k => e k / a)).
    rewrite (Rsum_n_ext N (fun k => e k / a) (fun k => / a * e k)) by (intros; unfold Rdiv; ring). rewrite Rsum_n_scale.
    replace (Rsum_n N e) with (INR N * a) by (unfold a; field; lra). field. lra. }
  assert (Le : Rsum_n N (fun k => L (e k)) <= Rsum_n N (fun k => Q (e k))) by (apply Rsum_n_le; intros k Hk; apply T, Hk).
  split.
  - apply Rmult_le_reg_l with (INR N); [exact PN|]. rewrite <- SL. replace (INR N * (Rsum_n N (fun k => Q (e k)) / INR N)) with (Rsum_n N (fun k => Q (e k))) by (field; lra). exact Le.
  - split.
    + intros E k Hk. destruct (Req_dec (e k) a) as [D|D]; [exact D|exfalso].
      assert (Z : Rsum_n N (fun k => Q (e k) - L (e k)) = 0).
      { rewrite Rsum_n_minus, SL. rewrite <- E. field. lra. }
      rewrite (Rsum_n_split _ k N Hk) in Z. pose proof (proj2 (T k Hk) D).
      pose proof (Rsum_n_nonneg N (fun v => if (v =? k)%nat then 0 else Q (e v) - L (e v))) as P. cbv beta in P.
      assert (0 <= Rsum_n N (fun v => if (v =? k)%nat then 0 else Q (e v) - L (e v))) by (apply P; intros v Hv; destruct (v =? k)%nat; [lra|pose proof (proj1 (T v Hv)); lra]). lra.
    + intros E. rewrite (Rsum_n_ext N _ (fun _ => NormalMean.Qt t0)); [rewrite Rsum_n_const; field; lra|]. intros k Hk. unfold Q. rewrite (E k Hk). f_equal. unfold t0. f_equal. field. lra.
Qed.

(** A sum of squares is at least the square of the sum over the number. *)
Lemma spread_small N (p : nat -> R) : (0 < N)%nat -> let m := Rsum_n N p / INR N in
  Rsum_n N (fun k => p k * (1 - p k)) / (INR N * INR N) <= m * (1 - m) / INR N.
Proof.
  intros HN m. assert (PN : 0 < INR N) by (apply lt_0_INR; exact HN).
  pose proof (Rsum_n_nonneg N (fun k => (p k - m) * (p k - m)) ltac:(intros; apply Rle_0_sqr)) as S.
  rewrite (Rsum_n_ext N _ (fun k => ((1 - 2 * m) * p k + m * m) - p k * (1 - p k))) in S by (intros; ring).
  rewrite Rsum_n_minus, Rsum_n_plus, Rsum_n_const, Rsum_n_scale in S. replace (Rsum_n N p) with (INR N * m) in S by (unfold m; field; lra).
  apply Rmult_le_reg_l with (INR N * INR N); [apply Rmult_lt_0_compat; exact PN|].
  replace (INR N * INR N * (Rsum_n N (fun k => p k * (1 - p k)) / (INR N * INR N))) with (Rsum_n N (fun k => p k * (1 - p k))) by (field; lra).
  replace (INR N * INR N * (m * (1 - m) / INR N)) with (INR N * (m * (1 - m))) by (field; lra). lra.
Qed.

(** ** The energy of a bit *)
Definition bit_energy (sample_rate sps : nat) (fc : R) (k : nat) : R :=
  Rsum_n sps (fun j => cos (2 * PI * fc * (INR (k * sps + j) / INR sample_rate)) * cos (2 * PI * fc * (INR (k * sps + j) / INR sample_rate))).

(** Two samples cannot both fall on zeros of the carrier. *)
Lemma energy_positive sr n fc k : (1 <= sr)%nat -> (2 <= n)%nat -> ~ (exists z : Z, 2 * fc = IZR z * INR sr) -> 0 < bit_energy sr n fc k.
Proof.
  intros Hr Hn Hz. pose proof (sin_carrier sr fc Hr Hz) as Ha. set (a := 2 * PI * fc / INR sr) in *. assert (Hsr : INR sr <> 0) by (apply not_0_INR; lia).
  unfold bit_energy. replace n with (2 + (n - 2))%nat by lia. rewrite Rsum_n_add. cbn [Rsum_n]. set (rest := Rsum_n (n - 2) _).
  assert (0 <= rest) by (apply Rsum_n_nonneg; intros; apply Rle_0_sqr). set (b := (k * (2 + (n - 2)))%nat) in *. rewrite Nat.add_0_r.
  set (th := 2 * PI * fc * (INR b / INR sr)). replace (2 * PI * fc * (INR (b + 1) / INR sr)) with (th + a) by (unfold th, a; rewrite plus_INR; cbn [INR]; field; exact Hsr).
  assert (0 < cos th * cos th + cos (th + a) * cos (th + a)); [|lra].
  pose proof (Rle_0_sqr (cos th)) as A. pose proof (Rle_0_sqr (cos (th + a))) as B. unfold Rsqr in A, B.
  destruct (Req_dec (cos th) 0) as [C|C]; [|assert (0 < cos th * cos th) by (apply Rsqr_pos_lt; exact C); lra].
  rewrite cos_plus, C in B |- *. pose proof (sin2_cos2 th) as S. unfold Rsqr in S. rewrite C in S.
  assert (Q : 0 < sin a * sin a) by (apply Rsqr_pos_lt; exact Ha). replace (0 * 0 + (0 * cos a - sin th * sin a) * (0 * cos a - sin th * sin a)) with ((sin th * sin th + 0 * 0) * (sin a * sin a)) by ring. rewrite S. lra.
Qed.

Lemma average_energy data sr sy fc it tx : tx_bpsk_signal (of_list data) sr sy fc = Ret it -> yields it tx -> (sy <= sr)%nat ->
  energy_per_bit tx (length data) = Rsum_n (length data) (bit_energy sr (sr / sy) fc) / INR (length data) /\ length tx = (length data * (sr / sy))%nat.
Proof.
  intros Et Y Hle. destruct (C88_bpsk_power (of_list data) data sr sy fc it (of_list_yields data) Hle Et) as (w & Yw & L & W). rewrite (yields_det _ _ _ Y Yw). split; [|exact L].
  unfold energy_per_bit. f_equal. change (fold_right Rplus 0 (map (fun s => s * s) w)) with (sumsq w). rewrite sumsq_sum, (Rsum_n_ext (length w) _ _ W), L, Rsum_n_mul. reflexivity.
Qed.

Lemma threshold2 E sigma (H g : R) : 0 < E -> 0 < sigma -> g = H / sqrt E -> exists c, 0 < c /\ sigma * H = c * g /\ E = c * (sqrt E / sigma).
Proof.
  intros PE Ps ->. pose proof (sqrt_lt_R0 E PE) as R0. exists (sigma * sqrt E). split; [apply Rmult_lt_0_compat; assumption|]. split; [field; lra|].
  rewrite <- (sqrt_sqrt E) at 1 by lra. field. lra.
Qed.

(** Which bits noise of deviation sigma takes. *)
Lemma bits_taken data sr sy fc it (tx : list R) (w : nat -> R) sigma : let n := (sr / sy)%nat in
  let u i := cos (2 * PI * fc * (INR i / INR sr)) / sqrt (bit_energy sr n fc (i / n)) in
  tx_bpsk_signal (of_list data) sr sy fc = Ret it -> length tx = (length data * n)%nat -> (2 * sy <= sr)%nat -> ~ (exists z : Z, 2 * fc = IZR z * INR sr) -> 0 < sigma ->
  exists r out, rx_bpsk_signal (noisy it (map (fun i => sigma * w i) (seq 0 (length tx)))) sr sy fc = Ret r /\ yields r out /\ length out = length data /\
    forall k b, nth_error data k = Some b -> (nth_error out k = Some b <->
      ~ carried (nth k data false) (Rsum_n n (fun j => w (k * n + j)%nat * u (k * n + j)%nat)) (sqrt (bit_energy sr n fc k) / sigma)).
Proof.
  intros n u Et L Hle Hz Ps. destruct (tx_bpsk_inv _ _ _ _ _ Et) as (Hy & _ & _ & _). assert (Hn : (2 <= n)%nat) by (unfold n; apply Nat.div_le_lower_bound; lia).
  destruct (C78_bpsk_noise_exact (of_list data) data sr sy fc it (map (fun i => sigma * w i) (seq 0 (length tx))) (of_list_yields data) Et ltac:(lia)) as (r & out & Er & Yr & Lo & D).
  { rewrite map_length, seq_length. exact L. }
  exists r, out. split; [exact Er|]. split; [exact Yr|]. split; [exact Lo|]. intros k b Hb. specialize (D k b Hb). cbv zeta in D. fold n in D.
  assert (Hk : (k < length data)%nat) by (apply nth_error_Some; congruence). rewrite (nth_error_nth _ _ false Hb).
  pose proof (energy_positive sr n fc k ltac:(lia) Hn Hz) as PE. fold (bit_energy sr n fc k) in D.
  set (g := Rsum_n n (fun j => w (k * n + j)%nat * u (k * n + j)%nat)).
  destruct (threshold2 (bit_energy sr n fc k) sigma (Rsum_n n (fun j => w (k * n + j)%nat * cos (2 * PI * fc * (INR (k * n + j) / INR sr)))) g PE Ps) as (c & Pc & E1 & E2).
  { unfold g, Rdiv. rewrite Rmult_comm, <- Rsum_n_scale. apply Rsum_n_ext. intros j Hj. unfold u. rewrite block_div by exact Hj. unfold Rdiv. ring. }
  assert (Eh : Rsum_n n (fun j => nth (k * n + j) (map (fun i => sigma * w i) (seq 0 (length tx))) 0 * cos (2 * PI * fc * (INR (k * n + j) / INR sr))) = c * g).
  { rewrite <- E1, <- Rsum_n_scale. apply Rsum_n_ext. intros j Hj. change (map (fun i => sigma * w i) (seq 0 (length tx))) with (tab (length tx) (fun i => sigma * w i)). rewrite tab_nth by (rewrite L; nia). ring. }
  set (t := sqrt (bit_energy sr n fc k) / sigma) in *. rewrite Eh, E2 in D. rewrite D. unfold carried. clearbody g t. clear - Pc. destruct b; split; intros X; nra.
Qed.

Lemma own_unit sr n fc k : 0 < bit_energy sr n fc k ->
  let u i := cos (2 * PI * fc * (INR i / INR sr)) / sqrt (bit_energy sr n fc (i / n)) in
  Rsum_n n (fun j => u (k * n + j)%nat * u (k * n + j)%nat) = 1.
Proof.
  intros PE u. pose proof (sqrt_lt_R0 _ PE) as R0. pose proof (sqrt_sqrt _ (Rlt_le _ _ PE)) as S.
  rewrite (Rsum_n_ext n _ (fun j => / bit_energy sr n fc k * (cos (2 * PI * fc * (INR (k * n + j) / INR sr)) * cos (2 * PI * fc * (INR (k * n + j) / INR sr))))).
  - rewrite Rsum_n_scale. fold (bit_energy sr n fc k). field. lra.
  - intros j Hj. unfold u. rewrite block_div by exact Hj. rewrite <- S at 3. field. lra.
Qed.

(** What is claimed of a rate measured over N bits: [ratio] is the effective signal-to-noise ratio. *)
Definition uneven_law (H : R -> R) (N samples : nat) (e : nat -> R) (ratio : R) (rate : list R -> R) : Prop :=
  let a := Rsum_n N e / INR N in
  let p k := / 2 * (1 - H (sqrt (ratio * (e k / a)))) in
  let m := Rsum_n N p / INR N in
  let even := / 2 * (1 - H (sqrt ratio)) in
  normal_mean samples rate m /\
  normal_mean samples (fun z => (rate z - m) * (rate z - m)) (Rsum_n N (fun k => p k * (1 - p k)) / (INR N * INR N)) /\
  Rsum_n N (fun k => p k * (1 - p k)) / (INR N * INR N) <= m * (1 - m) / INR N /\
  even <= m /\ (m = even <-> forall k, (k < N)%nat -> e k = a).

Lemma uneven_blocks H N len tie data (u e : nat -> R) ratio rate : error_function H -> (0 < N)%nat -> 0 < ratio -> (forall k, (k < N)%nat -> 0 < e k) ->
  (forall k, (k < N)%nat -> Rsum_n len (fun j => u (k * len + j)%nat * u (k * len + j)%nat) = 1) ->
  (forall z, rate z = Rsum_n N (fun k => bit_hit tie (data k) (k * len) len u (sqrt (2 * ratio * (e k / (Rsum_n N e / INR N)))) z) / INR N) ->
  uneven_law H N (N * len) e ratio rate.
Proof.
  intros HH HN Hs He U Hr. cbv beta delta [uneven_law]. intros a p m even. assert (PN : 0 < INR N) by (apply lt_0_INR; exact HN).
  assert (Pa : 0 < a).
  { apply Rdiv_lt_0_compat; [|exact PN]. clear - HN He. destruct N as [|N]; [lia|]. cbn [Rsum_n]. pose proof (Rsum_n_nonneg N e ltac:(intros; left; apply He; lia)). specialize (He N ltac:(lia)). lra. }
  fold a in Hr. set (t := fun k => sqrt (2 * ratio * (e k / a))).
  assert (Ep : forall k, (k < N)%nat -> NormalMean.Qt (t k) = p k).
  { intros k Hk. unfold t, p. rewrite Rmult_assoc. apply (Qt_H H _ _ HH). apply root_two. specialize (He k Hk). apply Rmult_le_pos; [lra|]. left. apply Rdiv_lt_0_compat; assumption. }
  destruct (blocks_law2 N len tie data u t rate HN U Hr) as [M V].
  rewrite (Rsum_n_ext N (fun k => NormalMean.Qt (t k)) p Ep) in M, V. rewrite (Rsum_n_ext N (fun k => NormalMean.Qt (t k) * (1 - NormalMean.Qt (t k))) (fun k => p k * (1 - p k))) in V by (intros k Hk; rewrite (Ep k Hk); reflexivity).
  fold m in M, V. split; [exact M|]. split; [exact V|]. split; [apply spread_small, HN|].
  pose proof (spread_harms N e (2 * ratio) HN ltac:(lra) He) as J. cbv zeta beta in J. fold a in J. change (fun k => NormalMean.Qt (sqrt (2 * ratio * (e k / a)))) with (fun k => NormalMean.Qt (t k)) in J.
  rewrite (Rsum_n_ext N (fun k => NormalMean.Qt (t k)) p Ep) in J. destruct J as [J1 J2].
  assert (Ee : NormalMean.Qt (sqrt (2 * ratio)) = even) by (apply (Qt_H H _ _ HH), root_two; lra). rewrite Ee in J1, J2. split; assumption.
Qed.

(** tests/ber.rs:66-92 for any carrier that does not meet all its zeros: each bit is lost at the rate its own energy gives it; the mean is
    above the textbook rate, and equal to it only if the bits have equal energies. *)
Theorem C111_bpsk :
  forall H (fuel : nat) (data : list bool) (sample_rate symbol_rate : nat) (fc : R) it (tx : list R) (noise : list R -> R -> Iter R) (snr : R),
    let sps := (sample_rate / symbol_rate)%nat in
    error_function H -> data <> [] -> (length data < fuel)%nat -> (2 * symbol_rate <= sample_rate)%nat ->
    tx_bpsk_signal (of_list data) sample_rate symbol_rate fc = Ret it -> yields it tx ->
    ~ (exists z : Z, 2 * fc = IZR z * INR sample_rate) -> made_of noise -> 0 < snr ->
    exists rate : list R -> R,
      (forall z, calculate_bers identity fuel data tx (fun signal => rx_bpsk_signal signal sample_rate symbol_rate fc) (fun _ => noise z) [snr] = Ret [rate z]) /\
      uneven_law H (length data) (length tx) (bit_energy sample_rate sps fc) snr rate.
Proof.
  intros H fuel data sr sy fc it tx noise snr n HH Hd Hf Hle Et Y Hz Mn Hs.
  destruct (average_energy data sr sy fc it tx Et Y ltac:(lia)) as [Eb L]. fold n in Eb, L.
  destruct (tx_bpsk_inv _ _ _ _ _ Et) as (Hy & _ & _ & _). assert (Hn : (2 <= n)%nat) by (unfold n; apply Nat.div_le_lower_bound; lia).
  assert (HN : (0 < length data)%nat) by (destruct data; [contradiction|cbn; lia]). assert (PN : 0 < INR (length data)) by (apply lt_0_INR; exact HN).
  assert (PE : forall k, 0 < bit_energy sr n fc k) by (intros k; apply energy_positive; [lia|exact Hn|exact Hz]).
  set (a := Rsum_n (length data) (bit_energy sr n fc) / INR (length data)) in *.
  assert (Pa : 0 < a).
  { apply Rdiv_lt_0_compat; [|exact PN]. clear - HN PE. destruct (length data) as [|N]; [lia|]. cbn [Rsum_n]. pose proof (Rsum_n_nonneg N (bit_energy sr n fc) ltac:(intros; left; apply PE)). specialize (PE N). lra. }
  set (u := fun i => cos (2 * PI * fc * (INR i / INR sr)) / sqrt (bit_energy sr n fc (i / n))).
  set (t := fun k => sqrt (2 * snr * (bit_energy sr n fc k / a))).
  assert (Th : 0 < harness_deviation tx (length data) snr /\ forall k, sqrt (bit_energy sr n fc k) / harness_deviation tx (length data) snr = t k).
  { unfold harness_deviation. rewrite Eb. destruct (rust_threshold (2 * a) snr ltac:(lra) Hs) as [P Q]. replace (2 * a / 2) with a in P, Q by field. split; [exact P|].
    intros k. unfold t. rewrite sqrt_mult; [|lra|left; apply Rdiv_lt_0_compat; [apply PE|exact Pa]]. rewrite <- Q, (sqrt_div (bit_energy sr n fc k) a); [|left; apply PE|exact Pa]. pose proof (sqrt_lt_R0 a Pa). field. lra. }
  destruct Th as [Pd Ed]. set (sigma := harness_deviation tx (length data) snr) in *.
  set (rate := fun z => Rsum_n (length data) (fun k => bit_hit false (nth k data false) (k * n) n u (t k) z) / INR (length data)).
  exists rate. split.
  - intros z. destruct (bers_R fuel data tx it (fun signal => rx_bpsk_signal signal sr sy fc) (fun _ => noise z) (fun _ i => sigma * nth i z 0) [snr]
      (fun _ k => carried (nth k data false) (Rsum_n n (fun j => nth (k * n + j) z 0 * u (k * n + j)%nat)) (t k)) Hf Y) as (bers & E & F).
    { intros x [<-|[]]. fold sigma. split; [apply Mn|]. split; [apply rx_bpsk_same; [exact Hy|fold n; lia]|].
      destruct (bits_taken data sr sy fc it tx (fun i => nth i z 0) sigma Et L Hle Hz Pd) as (r & out & Er & Yr & Lo & D). exists r, out.
      split; [exact Er|]. split; [exact Yr|]. split; [exact Lo|]. split; [|intros; apply carried_dec]. intros k b Hb. rewrite <- Ed. apply (D k b Hb). }
    rewrite E. f_equal. inversion F as [|? b ? bs F1 F2]; subst. inversion F2; subst. f_equal. apply (fraction_sum _ _ _ _ F1). intros k Hk. apply hits_carried.
  - rewrite L. apply (uneven_blocks H (length data) n false (fun k => nth k data false) u); try assumption; [intros; apply PE|intros k _; apply own_unit, PE|reflexivity].
Qed.

(** kom_py/ber.py:49-62: the same at the ratio scaled by symbol_rate^2 / sample_rate. *)
Theorem C111_python :
  forall H (data : list bool) (sample_rate symbol_rate : nat) (fc : R) it (tx : list R) (noise : list R -> R -> Iter R) (snr : R),
    let sps := (sample_rate / symbol_rate)%nat in
    error_function H -> data <> [] -> (2 * symbol_rate <= sample_rate)%nat ->
    tx_bpsk_signal (of_list data) sample_rate symbol_rate fc = Ret it -> yields it tx ->
    ~ (exists z : Z, 2 * fc = IZR z * INR sample_rate) -> made_of noise -> 0 < snr ->
    exists rate : list R -> R,
      (forall z, returns (fun fuel => kom_calc_ber unchanged fuel sample_rate symbol_rate (fun _ => noise z) data tx
                             (fun signal => py_rx_bpsk signal sample_rate symbol_rate fc fuel) [snr]) [rate z]) /\
      uneven_law H (length data) (length tx) (bit_energy sample_rate sps fc) (snr * (INR symbol_rate * INR symbol_rate / INR sample_rate)) rate.
Proof.
  intros H data sr sy fc it tx noise snr n HH Hd Hle Et Y Hz Mn Hs.
  destruct (average_energy data sr sy fc it tx Et Y ltac:(lia)) as [Eb L]. fold n in Eb, L.
  destruct (tx_bpsk_inv _ _ _ _ _ Et) as (Hy & _ & _ & _). assert (Hn : (2 <= n)%nat) by (unfold n; apply Nat.div_le_lower_bound; lia).
  assert (HN : (0 < length data)%nat) by (destruct data; [contradiction|cbn; lia]). assert (PN : 0 < INR (length data)) by (apply lt_0_INR; exact HN).
  assert (PE : forall k, 0 < bit_energy sr n fc k) by (intros k; apply energy_positive; [lia|exact Hn|exact Hz]).
  set (a := Rsum_n (length data) (bit_energy sr n fc) / INR (length data)) in *.
  assert (Pa : 0 < a).
  { apply Rdiv_lt_0_compat; [|exact PN]. clear - HN PE. destruct (length data) as [|N]; [lia|]. cbn [Rsum_n]. pose proof (Rsum_n_nonneg N (bit_energy sr n fc) ltac:(intros; left; apply PE)). specialize (PE N). lra. }
  set (u := fun i => cos (2 * PI * fc * (INR i / INR sr)) / sqrt (bit_energy sr n fc (i / n))).
  set (c := INR sy * INR sy / INR sr).
  assert (Pc : 0 < c) by (apply Rdiv_lt_0_compat; [apply Rmult_lt_0_compat; apply lt_0_INR; lia|apply lt_0_INR; lia]).
  set (t := fun k => sqrt (2 * (snr * c) * (bit_energy sr n fc k / a))).
  set (sigma := sqrt (INR sr * a / (2 * snr)) / INR sy).
  assert (Lv : kom_noise_levels unchanged sr sy data tx [snr] = Ret [sigma]).
  { unfold kom_noise_levels. destruct (Nat.eqb_spec (length data) 0) as [E|_]; [lia|]. cbn [map]. f_equal. f_equal.
    unfold unchanged, sigma. rewrite <- Eb. unfold energy_per_bit. rewrite <- nsum_squares. unfold nsum, nofnat. cbn [ndiv nmul nsqrt nofZ nsum0 NumR]. rewrite <- !INR_IZR_INZ. reflexivity. }
  assert (Th : 0 < sigma /\ forall k, sqrt (bit_energy sr n fc k) / sigma = t k).
  { unfold sigma. destruct (python_threshold (2 * a) snr sr sy ltac:(lra) Hs ltac:(lia) ltac:(lia)) as [P Q]. replace (2 * a / 2) with a in P, Q by field. split; [exact P|].
    intros k. unfold t. rewrite sqrt_mult; [|left; apply Rmult_lt_0_compat; [lra|apply Rmult_lt_0_compat; assumption]|left; apply Rdiv_lt_0_compat; [apply PE|exact Pa]].
    replace (2 * (snr * c)) with (2 * snr * (INR sy * INR sy / INR sr)) by (unfold c; ring). rewrite <- Q, (sqrt_div (bit_energy sr n fc k) a); [|left; apply PE|exact Pa]. pose proof (sqrt_lt_R0 a Pa).
    set (s := sqrt (INR sr * a / (2 * snr)) / INR sy) in *. field. lra. }
  destruct Th as [Pd Ed]. clearbody sigma.
  set (rate := fun z => Rsum_n (length data) (fun k => bit_hit false (nth k data false) (k * n) n u (t k) z) / INR (length data)).
  exists rate. split.
  - intros z. destruct (bits_taken data sr sy fc it tx (fun i => nth i z 0) sigma Et L Hle Hz Pd) as (r & out & Er & Yr & Lo & D). fold n in D.
    destruct (rx_bpsk_same sr sy fc (disturbed nadd tx (fun j => sigma * nth j z 0)) Hy ltac:(fold n; lia) (noisy it (map (fun j => sigma * nth j z 0) (seq 0 (length tx))))
      (of_list (disturbed nadd tx (fun j => sigma * nth j z 0))) r out) as (r' & Er' & Yr').
    { unfold noisy, disturbed. apply imap_yields. apply izip_yields; [exact Y|apply of_list_yields]. }
    { apply of_list_yields. }
    { exact Er. }
    { exact Yr. }
    assert (Er2 : rate z = INR (errors out data) / INR (length data)).
    { symmetry. apply (fraction_sum (length data) (fun k => carried (nth k data false) (Rsum_n n (fun j => nth (k * n + j) z 0 * u (k * n + j)%nat)) (t k))).
      - apply lost_of_errors; [exact Lo| |intros; apply carried_dec]. intros k b Hb. rewrite <- Ed. apply (D k b Hb).
      - intros k Hk. apply hits_carried. }
    eapply returns_eq; [intros fuel; unfold kom_calc_ber; rewrite Lv; cbn [bind]; unfold index_from; cbn [length seq combine]; rewrite push_rows_cons; reflexivity|].
    cbv beta iota. eapply returns_bind with (a := rate z); [|exists 0%nat; intros; reflexivity].
    unfold kom_get_ber, awgn, normal_new, assert_then. cbn [nfinite NumR bind].
    eapply returns_bind with (a := disturbed nadd tx (fun j => sigma * nth j z 0)).
    { exists (S (length tx)). intros fuel Hfu. apply collect_yields.
      - apply imap_yields. apply (izip_stream_yields _ _ _ _ (of_list_yields tx) (Mn z sigma)).
      - unfold disturbed. rewrite map_length, combine_length, map_length, seq_length. lia. }
    cbn beta. eapply returns_bind with (a := out).
    { exists (S (length out)). intros fuel Hfu. unfold py_rx_bpsk, py_collect. rewrite Er'. cbn [bind]. apply collect_yields; [exact Yr'|lia]. }
    rewrite kom_ber_R by assumption. rewrite Er2. apply returns_now.
  - rewrite L. apply (uneven_blocks H (length data) n false (fun k => nth k data false) u); try assumption; [apply Rmult_lt_0_compat; assumption|intros; apply PE|intros k _; apply own_unit, PE|reflexivity].
Qed.

(** ber_theory.py:76-82: halving the signal changes nothing. *)
Theorem C111_half :
  forall H (data : list bool) (sample_rate symbol_rate : nat) (fc : R) it (tx : list R) (standard : list R -> Iter R) (snr : R),
    let sps := (sample_rate / symbol_rate)%nat in
    error_function H -> data <> [] -> (2 * symbol_rate <= sample_rate)%nat ->
    tx_bpsk_signal (of_list data) sample_rate symbol_rate fc = Ret it -> yields it tx ->
    ~ (exists z : Z, 2 * fc = IZR z * INR sample_rate) -> (forall z, streams (standard z) (fun i => nth i z 0)) -> 0 < snr ->
    exists rate : list R -> R,
      (forall z, returns (fun fuel => kom_half_ber unchanged fuel sample_rate symbol_rate (fun _ sigma => imap (fun x => sigma * x) (standard z)) data tx
                             (fun signal => py_rx_bpsk signal sample_rate symbol_rate fc fuel) [snr]) [rate z]) /\
      uneven_law H (length data) (length tx) (bit_energy sample_rate sps fc) (snr * (INR symbol_rate * INR symbol_rate / INR sample_rate)) rate.
Proof.
  intros H data sr sy fc it tx standard snr n HH Hd Hle Et Y Hz St Hs.
  destruct (C111_python H data sr sy fc it tx (fun z sigma => imap (fun x => sigma * x) (standard z)) snr HH Hd Hle Et Y Hz) as (rate & R1 & R2); [|exact Hs|].
  - intros z sigma. apply (imap_streams (fun x => sigma * x)). apply St.
  - exists rate. split; [|exact R2]. intros z. eapply returns_eq; [|apply (R1 z)]. intros fuel. exact (C92_half fuel sr sy (fun _ => standard z) data tx fc [snr]).
Qed.

(** ** When the rate is the textbook one, and how far it is otherwise *)

(** Over three bits or more the energies are equal only with a whole number of half periods to a symbol. *)
Lemma equal_energies sr n fc : (1 <= sr)%nat -> ~ (exists z : Z, 2 * fc = IZR z * INR sr) ->
  bit_energy sr n fc 0 = bit_energy sr n fc 1 -> bit_energy sr n fc 1 = bit_energy sr n fc 2 -> exists h : Z, 2 * fc * INR n = IZR h * INR sr.
Proof.
  intros Hr Hz E01 E12. pose proof (sin_carrier sr fc Hr Hz) as Ha. set (a := 2 * PI * fc / INR sr) in *. assert (Hsr : INR sr <> 0) by (apply not_0_INR; lia).
  set (b := 2 * (a * INR n)).
  assert (F : forall k, 4 * sin a * (bit_energy sr n fc k - INR n / 2) = sin (b * INR k + b - a) - sin (b * INR k - a)).
  { intros k. replace (b * INR k + b - a) with (b * INR k + 2 * a * INR n - a) by (unfold b; ring). rewrite <- sum_cos. unfold bit_energy.
    rewrite (Rsum_n_ext n (fun j => cos (2 * PI * fc * (INR (k * n + j) / INR sr)) * cos (2 * PI * fc * (INR (k * n + j) / INR sr))) (fun j => 1 / 2 + 1 / 2 * cos (b * INR k + 2 * a * INR j))).
    - rewrite Rsum_n_plus, Rsum_n_scale, Rsum_n_const. field.
    - intros j _. rewrite cos_sq_half. replace (2 * (2 * PI * fc * (INR (k * n + j) / INR sr))) with (b * INR k + 2 * a * INR j) by (unfold b, a; rewrite plus_INR, mult_INR; field; exact Hsr). lra. }
  pose proof (F 0%nat) as F0. pose proof (F 1%nat) as F1. pose proof (F 2%nat) as F2. cbn [INR] in F0, F1, F2. rewrite E01 in F0. rewrite <- E12 in F2. clear F E01 E12.
  replace (b * 0 + b - a) with (b - a) in F0 by ring. replace (b * 0 - a) with (- a) in F0 by ring. replace (b * 1 + b - a) with (b + b - a) in F1 by ring. replace (b * 1 - a) with (b - a) in F1 by ring.
  replace (b * (1 + 1) + b - a) with (b + b + b - a) in F2 by ring. replace (b * (1 + 1) - a) with (b + b - a) in F2 by ring.
  assert (A1 : sin (- a) + sin (b + b - a) = 2 * sin (b - a) * cos b).
  { replace (- a) with ((b - a) - b) by ring. replace (b + b - a) with ((b - a) + b) by ring. rewrite sin_minus, sin_plus. ring. }
  assert (A2 : sin (b - a) + sin (b + b + b - a) = 2 * sin (b + b - a) * cos b).
  { replace (b - a) with ((b + b - a) - b) by ring. replace (b + b + b - a) with ((b + b - a) + b) by ring. rewrite sin_minus, sin_plus. ring. }
  assert (B1 : sin (b - a) * (1 - cos b) = 0) by lra. assert (B2 : sin (b + b - a) * (1 - cos b) = 0) by lra.
  assert (Cb : cos b = 1).
  { destruct (Req_dec (cos b) 1) as [C|C]; [exact C|exfalso]. assert (S1 : sin (b - a) = 0) by (apply Rmult_integral in B1; destruct B1; lra). assert (S2 : sin (b + b - a) = 0) by (apply Rmult_integral in B2; destruct B2; lra).
    assert (Sb : sin b = 0). { replace b with ((b + b - a) - (b - a)) by ring. rewrite sin_minus, S1, S2. ring. }
    pose proof (sin2_cos2 b) as Q. unfold Rsqr in Q. rewrite Sb in Q. assert (cos b = -1) by nra. rewrite sin_minus, Sb, H in S1. lra. }
  assert (Sn : sin (a * INR n) = 0).
  { unfold b in Cb. rewrite cos_2a_sin in Cb. assert (Z : sin (a * INR n) * sin (a * INR n) = 0) by lra. apply Rmult_integral in Z. destruct Z; assumption. }
  apply sin_0_mult in Sn. destruct Sn as [z Sn]. exists z. unfold a in Sn. apply Rmult_eq_reg_l with (PI / INR sr); [|apply Rmult_integral_contrapositive_currified; [apply PI_neq0|apply Rinv_neq_0_compat; exact Hsr]].
  replace (PI / INR sr * (2 * fc * INR n)) with (2 * PI * fc / INR sr * INR n) by (field; exact Hsr). rewrite Sn. field. exact Hsr.
Qed.

Lemma increasing_error H x y : error_function H -> 0 <= x <= y -> / 2 * (1 - H (sqrt y)) <= / 2 * (1 - H (sqrt x)).
Proof.
  intros HH Hx. rewrite <- (Qt_H H _ x HH (root_two x ltac:(lra))), <- (Qt_H H _ y HH (root_two y ltac:(lra))). apply NormalMean.Qt_mono. apply sqrt_le_1; lra.
Qed.

(** The mean rate over three bits or more is the textbook rate exactly if a symbol holds a whole number of half periods; in any case it is
    between that rate and the one of a ratio smaller by (sps/2 - d)/(sps/2 + d), where d bounds what a symbol's energy can be off. *)
Theorem C111_close :
  forall H (N samples sample_rate sps : nat) (fc ratio : R) (rate : list R -> R),
    let d := / (2 * Rabs (sin (2 * PI * fc / INR sample_rate))) in
    let textbook x := / 2 * (1 - H (sqrt x)) in
    error_function H -> (1 <= N)%nat -> (1 <= sample_rate)%nat -> (2 <= sps)%nat -> 0 < ratio -> ~ (exists z : Z, 2 * fc = IZR z * INR sample_rate) ->
    uneven_law H N samples (bit_energy sample_rate sps fc) ratio rate ->
    exists mean, normal_mean samples rate mean /\ textbook ratio <= mean /\
      ((3 <= N)%nat -> (mean = textbook ratio <-> exists h : Z, 2 * fc * INR sps = IZR h * INR sample_rate)) /\
      (d < INR sps / 2 -> mean <= textbook (ratio * ((INR sps / 2 - d) / (INR sps / 2 + d)))).
Proof.
  intros H N samples sr n fc ratio rate d textbook HH HN Hr Hn Hs Hz U. destruct U as (M & _ & _ & Le & Eq).
  set (e := bit_energy sr n fc) in *. set (a := Rsum_n N e / INR N) in *. assert (PN : 0 < INR N) by (apply lt_0_INR; lia).
  eexists. split; [exact M|]. split; [exact Le|].
  assert (Near : forall k, Rabs (e k - INR n / 2) <= d) by (intros k; exact (proj1 (cos_energy_near sr n k fc Hr (sin_carrier sr fc Hr Hz)))).
  split.
  - intros H3. unfold textbook. rewrite Eq. split.
    + intros E. apply (equal_energies sr n fc Hr Hz); fold e; rewrite !E by lia; reflexivity.
    + intros (h & Hh) k Hk. assert (Ek : forall k, e k = INR n / 2) by (intros k'; exact (proj2 (cos_energy_near sr n k' fc Hr (sin_carrier sr fc Hr Hz)) h Hh)).
      unfold a. rewrite Ek, (Rsum_n_ext N e (fun _ => INR n / 2)) by (intros; apply Ek). rewrite Rsum_n_const. field. lra.
  - intros Hd. pose proof (Rsum_n_near N e (INR n / 2) d (fun k _ => Near k)) as Na.
    assert (Ua : a <= INR n / 2 + d).
    { apply Rmult_le_reg_l with (INR N); [exact PN|]. replace (INR N * a) with (Rsum_n N e) by (unfold a; field; lra). apply Flocq.Core.Raux.Rabs_le_inv in Na. lra. }
    assert (Pd : 0 < d) by (unfold d; apply Rinv_0_lt_compat; pose proof (Rabs_pos_lt _ (sin_carrier sr fc Hr Hz)); lra).
    assert (Pa : 0 < a).
    { apply Rdiv_lt_0_compat; [|exact PN]. apply Flocq.Core.Raux.Rabs_le_inv in Na. assert (0 < INR N * (INR n / 2 - d)) by (apply Rmult_lt_0_compat; lra). lra. }
    set (rho := (INR n / 2 - d) / (INR n / 2 + d)).
    assert (T : forall k, (k < N)%nat -> / 2 * (1 - H (sqrt (ratio * (e k / a)))) <= textbook (ratio * rho)).
    { intros k _. apply (increasing_error H); [exact HH|]. pose proof (Near k) as Nk. apply Flocq.Core.Raux.Rabs_le_inv in Nk.
      assert (P0 : 0 < rho) by (unfold rho; apply Rdiv_lt_0_compat; lra). split; [apply Rmult_le_pos; lra|]. apply Rmult_le_compat_l; [lra|]. unfold rho, Rdiv.
      apply Rle_trans with ((INR n * / 2 - d) * / a); [apply Rmult_le_compat_l; [lra|apply Rinv_le_contravar; lra]|apply Rmult_le_compat_r; [left; apply Rinv_0_lt_compat; exact Pa|lra]]. }
    apply (Rsum_n_le N _ (fun _ => textbook (ratio * rho))) in T. rewrite Rsum_n_const in T.
    apply Rmult_le_reg_l with (INR N); [exact PN|]. set (X := Rsum_n N _) in T |- *. replace (INR N * (X / INR N)) with X by (field; lra). exact T.
Qed.

(** With the script's rates and carrier the rate is above the textbook's, by no more than 4 % of the signal-to-noise ratio. *)
Theorem C111_script :
  forall H (N samples sample_rate : nat) (ratio : R) (rate : list R -> R),
    error_function H -> (3 <= N)%nat -> INR sample_rate = 65536 -> 0 < ratio -> uneven_law H N samples (bit_energy sample_rate 256 2121) ratio rate ->
    exists mean, normal_mean samples rate mean /\ / 2 * (1 - H (sqrt ratio)) < mean <= / 2 * (1 - H (sqrt (ratio * (96 / 100)))).
Proof.
  intros H N samples sr ratio rate HH HN Hr Hs U. assert (H1 : (1 <= sr)%nat) by (apply INR_le; rewrite Hr; cbn; lra).
  assert (Hz : ~ (exists z : Z, 2 * 2121 = IZR z * INR sr)).
  { rewrite Hr. intros [z E]. rewrite <- !mult_IZR in E. apply eq_IZR in E. lia. }
  destruct (C111_close H N samples sr 256 2121 ratio rate HH ltac:(lia) H1 ltac:(lia) Hs Hz U) as (mean & M & Le & Ex & Cl).
  assert (E256 : INR 256 = 256) by (rewrite INR_IZR_INZ; reflexivity). rewrite E256, Hr in *.
  exists mean. split; [exact M|]. split.
  - destruct Le as [Le|Le]; [exact Le|exfalso]. destruct (proj1 (Ex HN) (eq_sym Le)) as [h Hh]. rewrite <- !mult_IZR in Hh. apply eq_IZR in Hh. lia.
  - assert (S : 20 / 100 < sin (2 * PI * 2121 / 65536)).
    { set (x := 2 * PI * 2121 / 65536). destruct ErfReal.PI_close as [P3 P4]. assert (X1 : 203 / 1000 < x < 204 / 1000) by (unfold x; lra).
      destruct (sin_bound x 0 ltac:(lra) ltac:(clear - X1 P3; lra)) as [B _]. unfold sin_approx, sin_term in B. cbn [sum_f_R0 Nat.mul Nat.add pow fact] in B.
      assert (B2 : x - x * x * x / 6 <= sin x) by (cbn in B; lra). clearbody x. clear - X1 B2. assert (x * x < 5 / 100) by nra. assert (x * x * x < 5 / 100 * x) by nra. lra. }
    set (s := sin (2 * PI * 2121 / 65536)) in *. rewrite (Rabs_pos_eq s) in Cl by lra. assert (D : 0 < / (2 * s) < 25 / 10).
    { split; [apply Rinv_0_lt_compat; lra|]. replace (25 / 10) with (/ (10 / 25)) by field. apply Rinv_lt_contravar; [apply Rmult_lt_0_compat; lra|lra]. }
    set (d := / (2 * s)) in *. clearbody d. clear S. clearbody s. eapply Rle_trans; [apply Cl; lra|]. apply (increasing_error H _ _ HH). split; [lra|]. apply Rmult_le_compat_l; [lra|].
    apply Rmult_le_reg_r with (256 / 2 + d); [lra|]. replace ((256 / 2 - d) / (256 / 2 + d) * (256 / 2 + d)) with (256 / 2 - d); [lra|]. set (y := 256 / 2 + d). assert (y <> 0) by (unfold y; lra). field. assumption.
Qed.

(** The halved signal of ber_theory.py with its rates and carrier (lines 50-53 and 76-82), whatever the message. *)
Theorem C111_ber_theory :
  forall H (data : list bool) (standard : list R -> Iter R) (snr : R),
    error_function H -> (3 <= length data)%nat -> (forall z, streams (standard z) (fun i => nth i z 0)) -> 0 < snr ->
    exists it tx rate mean, tx_bpsk_signal (of_list data) BER_SAMPLE_RATE BER_SYMBOL_RATE (2121 : R) = Ret it /\ yields it tx /\
      (forall z, returns (fun fuel => kom_half_ber unchanged fuel BER_SAMPLE_RATE BER_SYMBOL_RATE (fun _ sigma => imap (fun x => sigma * x) (standard z)) data tx
                             (fun signal => py_rx_bpsk signal BER_SAMPLE_RATE BER_SYMBOL_RATE 2121 fuel) [snr]) [rate z]) /\
      normal_mean (length tx) rate mean /\ / 2 * (1 - H (sqrt snr)) < mean <= / 2 * (1 - H (sqrt (snr * (96 / 100)))).
Proof.
  intros H data standard snr HH H3 St Hs.
  assert (Er : INR BER_SAMPLE_RATE = 65536) by (unfold BER_SAMPLE_RATE; rewrite mult_INR, INR_IZR_INZ; change (Z.of_nat 256) with 256%Z; lra).
  assert (Ey : INR BER_SYMBOL_RATE = 256) by (unfold BER_SYMBOL_RATE; rewrite INR_IZR_INZ; reflexivity).
  assert (D : (BER_SAMPLE_RATE / BER_SYMBOL_RATE = 256)%nat) by (unfold BER_SAMPLE_RATE, BER_SYMBOL_RATE; apply Nat.div_mul; lia).
  destruct (tx_bpsk_ok (of_list data) 256 256 (2121 : R) ltac:(lia) eq_refl) as [it E].
  { unfold nyquist_ok. replace (nto_u64 (2121 : R)) with 2121%Z by (cbn [nto_u64 NumR]; rewrite Flocq.Core.Raux.Ztrunc_IZR; reflexivity).
    apply Z.leb_le. change (256 * 256)%nat with (256 * (128 * 2))%nat. rewrite Nat.mul_assoc, Nat.div_mul, Nat2Z.inj_mul by lia. change (Z.of_nat 256 * Z.of_nat 128)%Z with 32768%Z. lia. }
  fold BER_SAMPLE_RATE in E. change (tx_bpsk_signal (of_list data) BER_SAMPLE_RATE BER_SYMBOL_RATE (2121 : R) = Ret it) in E.
  destruct (tx_bpsk_inv _ _ _ _ _ E) as (_ & _ & _ & Y). specialize (Y ltac:(rewrite D; lia) data (of_list_yields data)). set (tx := bpsk_wave _ _ _ _) in Y. clearbody tx.
  assert (Hz : ~ (exists z : Z, 2 * 2121 = IZR z * INR BER_SAMPLE_RATE)).
  { rewrite Er. intros [z X]. rewrite <- !mult_IZR in X. apply eq_IZR in X. lia. }
  destruct (C111_half H data BER_SAMPLE_RATE BER_SYMBOL_RATE 2121 it tx standard snr HH ltac:(intros ->; cbn in H3; lia)
    ltac:(unfold BER_SAMPLE_RATE, BER_SYMBOL_RATE; apply Nat.mul_le_mono_r; lia) E Y Hz St Hs) as (rate & R1 & R2).
  rewrite D, Er, Ey in R2. replace (snr * (256 * 256 / 65536)) with snr in R2 by field.
  destruct (C111_script H (length data) (length tx) BER_SAMPLE_RATE snr rate HH H3 Er Hs R2) as (mean & M & B).
  exists it, tx, rate, mean. repeat (split; [assumption|]). exact B.
Qed.

(** ** Cases *)

Lemma cos_sixths i : cos (2 * PI * 1 * (INR i / INR 6)) = cos (PI / 3 * INR i).
Proof. f_equal. cbn [INR]. field. Qed.
(** Two samples to a bit, six to a period of the carrier: the bits have energies 5/4, 5/4 and 1/2, and the rate at a ratio of 1 is above
    the textbook's. *)
Example C111_case : exists H it tx rate mean, error_function H /\ tx_bpsk_signal (of_list [true; false; true]) 6 3 (1 : R) = Ret it /\ yields it tx /\
  (forall z, calculate_bers identity 4 [true; false; true] tx (fun signal => rx_bpsk_signal signal 6 3 1) (fun _ sigma => counting (fun i => sigma * nth i z 0)) [1] = Ret [rate z]) /\
  bit_energy 6 2 1 0 = 5 / 4 /\ bit_energy 6 2 1 2 = 1 / 2 /\ normal_mean (length tx) rate mean /\ / 2 * (1 - H (sqrt 1)) < mean.
Proof.
  destruct C107_error_function as ((H & HH) & _).
  destruct (tx_bpsk_ok (of_list [true; false; true]) 2 3 (1 : R) ltac:(discriminate) eq_refl) as [it E].
  { unfold nyquist_ok. replace (nto_u64 (1 : R)) with 1%Z by (cbn [nto_u64 NumR]; rewrite Flocq.Core.Raux.Ztrunc_IZR; reflexivity). reflexivity. }
  change (2 * 3)%nat with 6%nat in E. destruct (tx_bpsk_inv _ _ _ _ _ E) as (_ & _ & _ & Y). specialize (Y ltac:(cbn; lia) _ (of_list_yields _)). set (tx := bpsk_wave _ _ _ _) in Y.
  assert (Hz : ~ (exists z : Z, 2 * 1 = IZR z * INR 6)) by (intros [z X]; rewrite INR_IZR_INZ in X; change (Z.of_nat 6) with 6%Z in X; rewrite <- !mult_IZR in X; apply eq_IZR in X; lia).
  destruct (C111_bpsk H 4 [true; false; true] 6 3 1 it tx (fun z sigma => counting (fun i => sigma * nth i z 0)) 1 HH ltac:(discriminate) ltac:(cbn; lia) ltac:(lia) E Y Hz) as (rate & R1 & R2).
  { intros z sigma. apply counting_streams. } { lra. }
  change (6 / 3)%nat with 2%nat in R2.
  destruct (C111_close H (length [true; false; true]) (length tx) 6 2 1 1 rate HH ltac:(cbn; lia) ltac:(lia) ltac:(lia) ltac:(lra) Hz R2) as (mean & M & Le & Ex & _).
  exists H, it, tx, rate, mean. split; [exact HH|]. split; [exact E|]. split; [exact Y|]. split; [exact R1|].
  split; [|split; [|split; [exact M|]]].
  - unfold bit_energy. cbn [Rsum_n Nat.mul Nat.add]. rewrite !cos_sixths. cbn [INR]. rewrite Rmult_0_r, Rmult_1_r, cos_0, cos_PI3. field.
  - unfold bit_energy. cbn [Rsum_n Nat.mul Nat.add]. rewrite !cos_sixths. cbn [INR]. replace (PI / 3 * (1 + 1 + 1 + 1)) with (PI / 3 + PI) by field. replace (PI / 3 * (1 + 1 + 1 + 1 + 1)) with (- (PI / 3) + 2 * PI) by field.
    rewrite neg_cos, cos_plus, cos_2PI, sin_2PI, cos_neg, cos_PI3. field.
  - destruct Le as [Le|Le]; [exact Le|exfalso]. destruct (proj1 (Ex ltac:(cbn; lia)) (eq_sym Le)) as [h X]. rewrite !INR_IZR_INZ in X. cbn [Z.of_nat Pos.of_succ_nat Pos.succ] in X. rewrite <- !mult_IZR in X. apply eq_IZR in X. lia.
Qed.

(** ** Axioms used *)
Print Assumptions C111_bpsk.
Print Assumptions C111_python.
Print Assumptions C111_half.
Print Assumptions C111_close.
Print Assumptions C111_script.
Print Assumptions C111_ber_theory.
