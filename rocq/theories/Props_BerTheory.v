(** Property C100: what the error-rate experiments of tests/ber.rs, kom_py/ber.py and ber_theory.py measure, and
    what their theoretical curves say (exact arithmetic). *)
From Coq Require Import List Arith ZArith Reals Bool Lia Lra Psatz.
From Verif Require Import Base IterTheory IterModel IterProofs Spec SpecR Tab Num LibModel LibReal ChaosModel PskModel PskChain RSums PskReal
  CdmaModel CdmaProofs KomModel PyModel LabModel BerModel SscaModel SscaProofs Props_Lib Props_Psk Props_Pass Props_Jam Props_Energy Props_Harness
  Props_ChaosNoise Props_Py Props_Ber Props_Cdma.
Import ListNotations.
Local Open Scope R_scope.

(** [b] is the fraction of the [N] bits that are lost. *)
Definition lost_fraction (N : nat) (lost : nat -> Prop) (b : R) : Prop :=
  exists marks : list bool, length marks = N /\ b = INR (count_occ Bool.bool_dec marks true) / INR N /\
    forall k, (k < N)%nat -> (nth k marks false = true <-> lost k).

(** The energy per bit of a signal. *)
Definition energy_per_bit (tx : list R) (bits : nat) : R := fold_right Rplus 0 (map (fun s => s * s) tx) / INR bits.

(** ** The harness in exact arithmetic *)

Definition identity (x : R) : R := x.

(** A receiver whose output depends on what it is given, not on how. *)
Definition same_rx {A} (rx : Iter A -> outcome (Iter bool)) (l : list A) : Prop :=
  forall it it' r out, yields it l -> yields it' l -> rx it = Ret r -> yields r out -> exists r', rx it' = Ret r' /\ yields r' out.

Lemma rx_bpsk_same sr sy (fc : R) l : sy <> 0%nat -> (1 <= sr / sy)%nat -> same_rx (fun it => rx_bpsk_signal it sr sy fc) l.
Proof.
  intros Hy Hn it it' r out Y Y' E Yr. destruct (rx_bpsk_intro it sr sy fc Hy Hn) as (r1 & E1 & _ & D1). destruct (rx_bpsk_intro it' sr sy fc Hy Hn) as (r2 & E2 & _ & D2).
  rewrite E in E1. injection E1 as <-. exists r2. split; [exact E2|]. rewrite (yields_det _ _ _ Yr (D1 l 0 Y)). apply D2. exact Y'.
Qed.

Lemma rx_qpsk_same sr sy (fc : R) l K : sy <> 0%nat -> (1 <= sr / sy)%nat -> length l = (K * (sr / sy))%nat -> same_rx (fun it => rx_qpsk_signal it sr sy fc) l.
Proof.
  intros Hy Hn L it it' r out Y Y' E Yr. destruct (rx_qpsk_intro it sr sy fc Hy Hn) as (r1 & E1 & D1). destruct (rx_qpsk_intro it' sr sy fc Hy Hn) as (r2 & E2 & D2).
  rewrite E in E1. injection E1 as <-. exists r2. split; [exact E2|].
  assert (TL : l = tab (K * (sr / sy)) (fun i => nth i l 0)) by (rewrite <- L; symmetry; apply tab_nth_id).
  rewrite TL in Y, Y'. rewrite (yields_det _ _ _ Yr (D1 _ _ Y)). apply D2. exact Y'.
Qed.

Lemma rx_cdma_bpsk_same sr sy (fc : R) key l : same_rx (fun it => rx_cdma_bpsk_signal it sr sy fc key) l.
Proof.
  intros it it' r out Y Y' E Yr. unfold rx_cdma_bpsk_signal in *. destruct (cdma_rates sr sy fc key) as [p| |] eqn:Ep; try discriminate.
  destruct (cdma_rates_inv _ _ _ _ _ Ep) as (-> & Hy & Hk & Hr & Hc & _). cbn [bind] in *.
  assert (Hle : (sy <= sr)%nat) by (destruct key; [contradiction|cbn in Hr; nia]).
  assert (Hn : (1 <= sr / sy)%nat) by (apply Nat.div_le_lower_bound; lia).
  rewrite <- (tab_nth_id l 0) in Y, Y'.
  pose proof (chip_mul_yields (sr / sy / length key) key it _ _ ltac:(lia) Hk Y) as Z.
  pose proof (chip_mul_yields (sr / sy / length key) key it' _ _ ltac:(lia) Hk Y') as Z'.
  exact (rx_bpsk_same sr sy fc _ ltac:(lia) Hn _ _ r out Z Z' E Yr).
Qed.

Lemma errors_marks out data : length out = length data ->
  errors out data = count_occ Bool.bool_dec (map (fun p => xorb (fst p) (snd p)) (combine out data)) true.
Proof.
  revert data. induction out as [|r out IH]; intros [|d data] L; try discriminate; [reflexivity|].
  unfold errors in *. cbn [combine filter map fst snd]. cbn [length] in L. specialize (IH data ltac:(lia)).
  destruct (xorb r d); cbn [count_occ length]; destruct (Bool.bool_dec _ _); try discriminate; try contradiction; cbn [length]; auto.
Qed.

Lemma lost_of_errors out data (lost : nat -> Prop) : length out = length data ->
  (forall k b, nth_error data k = Some b -> (nth_error out k = Some b <-> ~ lost k)) ->
  (forall k, lost k \/ ~ lost k) ->
  lost_fraction (length data) lost (INR (errors out data) / INR (length data)).
Proof.
  intros L H Dec. exists (map (fun p => xorb (fst p) (snd p)) (combine out data)).
  split; [rewrite map_length, combine_length, L; lia|]. split; [rewrite errors_marks by exact L; reflexivity|].
  intros k Hk. destruct (nth_error data k) as [b|] eqn:Eb; [|apply nth_error_None in Eb; lia].
  destruct (nth_error out k) as [r|] eqn:Er; [|apply nth_error_None in Er; lia].
  assert (EN : nth_error (map (fun p => xorb (fst p) (snd p)) (combine out data)) k = Some (xorb r b)).
  { apply (map_nth_error (fun p : bool * bool => xorb (fst p) (snd p)) k (combine out data) (d := (r, b))).
    clear - Eb Er. revert data k Eb Er. induction out as [|o out IH]; intros [|d data] [|k] Eb Er; try discriminate; cbn in *; [congruence|]. apply IH; assumption. }
  rewrite (nth_error_nth _ _ _ EN). specialize (H k b Eb). rewrite Er in H.
  destruct (Dec k) as [D|D].
  - split; [intros _; exact D|]. intros _. destruct r, b; try reflexivity; exfalso; apply H; auto.
  - split; [|contradiction]. intros X. apply H in D. injection D as ->. rewrite xorb_nilpotent in X. discriminate.
Qed.

Lemma error_rate_R fuel (rx : Iter bool) out data : yields rx out -> (length data < fuel)%nat ->
  error_rate fuel rx data = Ret (INR (errors out data) / INR (length data)).
Proof.
  intros Y Hf. unfold error_rate. rewrite (collect_yields _ _ fuel (izip_yields _ _ _ _ Y (of_list_yields data))) by (rewrite combine_length; lia).
  cbn [bind]. unfold nofnat. cbn [ndiv nofZ NumR]. rewrite <- INR_IZR_INZ. f_equal. f_equal.
  unfold nsum. cbn [nsum0 NumR nofZ]. unfold errors.
  enough (G : forall l (a : R), fold_left nadd (map (fun '(rx0, tx) => if Bool.eqb rx0 tx then 0 else 1) l) a =
     a + INR (length (filter (fun p : bool * bool => xorb (fst p) (snd p)) l))) by (rewrite G; ring).
  induction l as [|[r t] l IH]; intros a; cbn [map fold_left filter length]; [cbn; ring|].
  rewrite IH. cbn [nadd NumR fst snd]. destruct r, t; cbn [Bool.eqb xorb length]; rewrite ?S_INR; ring.
Qed.

Lemma nsum_squares (tx : list R) : nsum (map nsqr tx) = fold_right Rplus 0 (map (fun s => s * s) tx).
Proof. unfold nsum. cbn [nsum0 NumR nofZ]. rewrite fold_symmetric by (cbn; intros; ring). reflexivity. Qed.

(** Deviation of the noise in the harness, for a signal and a signal-to-noise ratio (tests/ber.rs:71-74). *)
Definition harness_deviation (tx : list R) (bits : nat) (snr : R) : R := sqrt (2 * energy_per_bit tx bits / snr) / 2.

Lemma bers_R fuel data tx (it : Iter R) rx (noise : R -> R -> Iter R) (z : R -> nat -> R) snrs (lost : R -> nat -> Prop) :
  (length data < fuel)%nat -> yields it tx ->
  (forall snr, In snr snrs -> streams (noise snr (harness_deviation tx (length data) snr)) (z snr) /\ same_rx rx (disturbed nadd tx (z snr)) /\
     exists r out, rx (noisy it (map (z snr) (seq 0 (length tx)))) = Ret r /\ yields r out /\ length out = length data /\
       (forall k b, nth_error data k = Some b -> (nth_error out k = Some b <-> ~ lost snr k)) /\ forall k, lost snr k \/ ~ lost snr k) ->
  exists bers, calculate_bers identity fuel data tx rx noise snrs = Ret bers /\
    Forall2 (fun snr b => lost_fraction (length data) (lost snr) b) snrs bers.
Proof.
  intros Hf Y H. unfold calculate_bers. apply push_rows_f. intros snr Hsnr. destruct (H snr Hsnr) as (Hz & Sm & r & out & Er & Yr & L & D & Dec).
  cbv zeta. unfold normal_new, assert_then. cbn [nfinite NumR].
  match goal with |- context [noise snr ?s] => replace s with (harness_deviation tx (length data) snr)
    by (unfold harness_deviation, energy_per_bit, identity; rewrite nsum_squares; unfold nofnat; cbn [ndiv nmul nsqrt nofZ NumR]; rewrite <- INR_IZR_INZ; reflexivity) end.
  destruct (Sm (noisy it (map (z snr) (seq 0 (length tx)))) (imap (fun '(symb, noise0) => nadd symb noise0) (izip (of_list tx) (noise snr (harness_deviation tx (length data) snr)))) r out) as (r' & Er' & Yr').
  - unfold noisy, disturbed. apply imap_yields. apply izip_yields; [exact Y|apply of_list_yields].
  - unfold disturbed. apply imap_yields. apply (izip_stream_yields _ _ _ _ (of_list_yields tx) Hz).
  - exact Er.
  - exact Yr.
  - rewrite Er'. cbn [bind]. rewrite (error_rate_R fuel r' out data Yr' Hf). eexists. split; [reflexivity|]. apply lost_of_errors; assumption.
Qed.

(** ** Thresholds *)

Lemma root_ratio a b : 0 < a -> 0 < b -> sqrt a / sqrt b = sqrt (a / b).
Proof. intros Ha Hb. symmetry. apply sqrt_div_alt. exact Hb. Qed.

(** Noise of deviation [sigma] against a bit of energy n/2: only the noise along one unit vector counts, and the threshold
    is sqrt(n/2)/sigma. *)
Lemma threshold n sigma (H g : R) : 0 < n -> 0 < sigma -> g = sqrt (2 / n) * H ->
  exists c, 0 < c /\ sigma * H = c * g /\ n / 2 = c * (sqrt (n / 2) / sigma).
Proof.
  intros Pn Ps ->. assert (P2 : 0 < n / 2) by lra. exists (sigma * sqrt (n / 2)).
  assert (R0 : 0 < sqrt (n / 2)) by (apply sqrt_lt_R0; exact P2).
  assert (RR : sqrt (n / 2) * sqrt (2 / n) = 1).
  { rewrite <- sqrt_mult_alt by lra. replace (n / 2 * (2 / n)) with 1 by (field; lra). apply sqrt_1. }
  split; [apply Rmult_lt_0_compat; assumption|]. split.
  - rewrite <- Rmult_assoc, (Rmult_assoc sigma), RR. ring.
  - assert (S2 := sqrt_sqrt (n / 2) ltac:(lra)). apply Rmult_eq_reg_l with sigma; [|lra].
    transitivity (sigma * (sqrt (n / 2) * sqrt (n / 2))); [rewrite S2; reflexivity|field; lra].
Qed.

(** The level of the Rust harness makes it sqrt(2 snr), that of the Python scripts symbol_rate * sqrt(2 snr / sample_rate). *)
Lemma rust_threshold n snr : 0 < n -> 0 < snr -> 0 < sqrt (2 * (n / 2) / snr) / 2 /\ sqrt (n / 2) / (sqrt (2 * (n / 2) / snr) / 2) = sqrt (2 * snr).
Proof.
  intros Pn Ps. assert (P : 0 < 2 * (n / 2) / snr) by (apply Rdiv_lt_0_compat; lra). assert (P4 : 0 < sqrt (2 * (n / 2) / snr)) by (apply sqrt_lt_R0; exact P).
  split; [lra|].
  assert (E2 : sqrt (2 * (n / 2) / snr) / 2 = sqrt (n / (4 * snr))).
  { assert (S4 : sqrt 4 = 2) by (replace 4 with (2 * 2) by ring; apply sqrt_square; lra). replace (sqrt (2 * (n / 2) / snr) / 2) with (sqrt (2 * (n / 2) / snr) / sqrt 4) by (rewrite S4; reflexivity). rewrite root_ratio by lra. f_equal. field. lra. }
  rewrite E2, root_ratio by (try apply Rdiv_lt_0_compat; lra). f_equal. field. lra.
Qed.

Lemma python_threshold n snr (sr sy : nat) : 0 < n -> 0 < snr -> (1 <= sr)%nat -> (1 <= sy)%nat ->
  0 < sqrt (INR sr * (n / 2) / (2 * snr)) / INR sy /\ sqrt (n / 2) / (sqrt (INR sr * (n / 2) / (2 * snr)) / INR sy) = sqrt (2 * snr * (INR sy * INR sy / INR sr)).
Proof.
  intros Pn Ps Hr Hy. assert (0 < INR sr) by (apply lt_0_INR; lia). assert (PY : 0 < INR sy) by (apply lt_0_INR; lia).
  assert (P0 : 0 < INR sr * (n / 2)) by (apply Rmult_lt_0_compat; lra). assert (P : 0 < INR sr * (n / 2) / (2 * snr)) by (apply Rdiv_lt_0_compat; lra).
  split; [apply Rdiv_lt_0_compat; [apply sqrt_lt_R0; exact P|exact PY]|].
  replace (sqrt (INR sr * (n / 2) / (2 * snr)) / INR sy) with (sqrt (INR sr * (n / 2) / (2 * snr)) / sqrt (INR sy * INR sy)) by (rewrite sqrt_square by lra; reflexivity).
  assert (PS : 0 < INR sy * INR sy) by (apply Rmult_lt_0_compat; exact PY).
  rewrite root_ratio by assumption. rewrite root_ratio; [|lra|apply Rdiv_lt_0_compat; assumption]. f_equal. field. repeat split; lra.
Qed.

Lemma check_energy fuel N (it : Iter R) tx eb : yields it tx -> (length tx < fuel)%nat -> check_eb fuel N it = Ret eb -> energy_per_bit tx N = eb.
Proof.
  intros Y Hf E. unfold check_eb in E. rewrite (collect_yields _ _ fuel Y) in E by lia. cbn [bind] in E. injection E as <-.
  rewrite nsum_squares. unfold energy_per_bit, nofnat. cbn [ndiv nofZ NumR]. rewrite <- INR_IZR_INZ. reflexivity.
Qed.

(** What a unit vector sees of noise of deviation [sigma]. *)
Lemma hit_unit n sigma (x w u : nat -> R) : (1 <= n)%nat -> 0 < sigma -> (forall j, (j < n)%nat -> x j = sigma * w j * u j) ->
  exists c, 0 < c /\ Rsum_n n x = c * Rsum_n n (fun j => w j * (sqrt (2 / INR n) * u j)) /\ INR n / 2 = c * (sqrt (INR n / 2) / sigma).
Proof.
  intros Hn Ps Hx. assert (Pn : 0 < INR n) by (apply lt_0_INR; lia).
  destruct (threshold (INR n) sigma (Rsum_n n (fun j => w j * u j)) (Rsum_n n (fun j => w j * (sqrt (2 / INR n) * u j))) Pn Ps) as (c & Pc & E1 & E2).
  { rewrite <- Rsum_n_scale. apply Rsum_n_ext. intros; ring. }
  exists c. split; [exact Pc|]. split; [|exact E2]. rewrite <- E1, <- Rsum_n_scale. apply Rsum_n_ext. intros j Hj. rewrite (Hx j Hj). ring.
Qed.

Lemma unit_norm n (u : nat -> R) : (1 <= n)%nat -> Rsum_n n (fun j => u j * u j) = INR n / 2 ->
  Rsum_n n (fun j => (sqrt (2 / INR n) * u j) * (sqrt (2 / INR n) * u j)) = 1.
Proof.
  intros Hn E. assert (Pn : 0 < INR n) by (apply lt_0_INR; lia). assert (P : 0 <= 2 / INR n) by (left; apply Rdiv_lt_0_compat; lra).
  rewrite (Rsum_n_ext n _ (fun j => (sqrt (2 / INR n) * sqrt (2 / INR n)) * (u j * u j))) by (intros; ring).
  rewrite Rsum_n_scale, E, sqrt_sqrt by exact P. field. lra.
Qed.

(** ** BPSK, plain and spread *)

(** Noise [w] of deviation one along [u] carries a bit over a threshold [t]: a tie is decided 0. *)
Definition carried (b : bool) (g t : R) : Prop := if b then g <= - t else t < g.
(** A tie is decided 1. *)
Definition carried' (b : bool) (g t : R) : Prop := if b then g < - t else t <= g.

Lemma carried_dec b g t : carried b g t \/ ~ carried b g t.
Proof. unfold carried. destruct b; lra. Qed.
Lemma carried_dec' b g t : carried' b g t \/ ~ carried' b g t.
Proof. unfold carried'. destruct b; lra. Qed.

(** The rate reported for a signal-to-noise ratio is the fraction of the bits for which unit-deviation noise, along one unit
    vector of the bit's samples, passes sqrt(2 snr): a white Gaussian sequence passes it with probability Q(sqrt(2 snr)). *)
Theorem C100_bpsk :
  forall (fuel : nat) (data : list bool) (sample_rate symbol_rate : nat) (fc : R) (half_cycles : Z) it (tx : list R)
         (noise : R -> R -> Iter R) (w : R -> nat -> R) (snrs : list R),
    let sps := (sample_rate / symbol_rate)%nat in
    let u i := sqrt (2 / INR sps) * cos (2 * PI * fc * (INR i / INR sample_rate)) in
    data <> [] -> (length data < fuel)%nat -> (symbol_rate <= sample_rate)%nat ->
    tx_bpsk_signal (of_list data) sample_rate symbol_rate fc = Ret it -> yields it tx ->
    2 * fc * INR sps = IZR half_cycles * INR sample_rate -> ~ (exists z : Z, 2 * fc = IZR z * INR sample_rate) ->
    (forall snr, In snr snrs -> 0 < snr /\ forall sigma, streams (noise snr sigma) (fun i => sigma * w snr i)) ->
    (exists bers, calculate_bers identity fuel data tx (fun signal => rx_bpsk_signal signal sample_rate symbol_rate fc) noise snrs = Ret bers /\
       Forall2 (fun snr b => lost_fraction (length data) (fun k =>
         carried (nth k data false) (Rsum_n sps (fun j => w snr (k * sps + j)%nat * u (k * sps + j)%nat)) (sqrt (2 * snr))) b) snrs bers) /\
    forall k, Rsum_n sps (fun j => u (k * sps + j)%nat * u (k * sps + j)%nat) = 1.
Proof.
  intros fuel data sr sy fc h it tx noise w snrs n u Hd Hf Hle Et Y Hh Hz HN.
  destruct (tx_bpsk_inv _ _ _ _ _ Et) as (Hy & _ & _ & Yw).
  assert (Hn : (1 <= n)%nat) by (unfold n; apply Nat.div_le_lower_bound; lia).
  specialize (Yw Hn data (of_list_yields data)). pose proof (yields_det _ _ _ Y Yw) as Etx.
  assert (L : length tx = (length data * n)%nat) by (rewrite Etx; apply tab_length). clear Yw Etx.
  assert (Pn : 0 < INR n) by (apply lt_0_INR; lia).
  assert (Eb : energy_per_bit tx (length data) = INR n / 2).
  { destruct (C88_bpsk_eb (of_list data) data sr sy fc it (of_list_yields data) Hd Hle Et Hz) as (eb & Ce & _ & Cb). fold n in Ce, Cb.
    rewrite <- (Cb h Hh). destruct (Ce (S (length data * n)) ltac:(lia)) as [C _]. apply (check_energy (S (length data * n)) _ it); [exact Y|lia|exact C]. }
  assert (En : forall k, Rsum_n n (fun j => cos (2 * PI * fc * (INR (k * n + j) / INR sr)) * cos (2 * PI * fc * (INR (k * n + j) / INR sr))) = INR n / 2).
  { intros k. exact (proj2 (cos_energy_near sr n k fc ltac:(lia) (sin_carrier sr fc ltac:(lia) Hz)) h Hh). }
  split; [|intros k; apply (unit_norm n (fun j => cos (2 * PI * fc * (INR (k * n + j) / INR sr))) Hn (En k))].
  refine (bers_R fuel data tx it _ noise (fun snr i => harness_deviation tx (length data) snr * w snr i) snrs _ Hf Y _).
  intros snr Hs. destruct (HN snr Hs) as [Ps St]. split; [apply St|]. split; [apply rx_bpsk_same; assumption|].
  destruct (rust_threshold (INR n) snr Pn Ps) as [Pd Ed]. rewrite <- Eb in Pd, Ed at 2. fold (harness_deviation tx (length data) snr) in Pd, Ed.
  set (sigma := harness_deviation tx (length data) snr) in *.
  destruct (C78_bpsk_noise_exact (of_list data) data sr sy fc it (map (fun i => sigma * w snr i) (seq 0 (length tx))) (of_list_yields data) Et Hle) as (r & out & Er & Yr & Lo & D).
  { rewrite map_length, seq_length. exact L. }
  exists r, out. split; [exact Er|]. split; [exact Yr|]. split; [exact Lo|]. split; [|intros; apply carried_dec].
  intros k b Hb. specialize (D k b Hb). cbv zeta in D. fold n in D.
  assert (Hk : (k < length data)%nat) by (apply nth_error_Some; congruence). rewrite (nth_error_nth _ _ false Hb).
  destruct (hit_unit n sigma (fun j => nth (k * n + j) (map (fun i => sigma * w snr i) (seq 0 (length tx))) 0 * cos (2 * PI * fc * (INR (k * n + j) / INR sr)))
    (fun j => w snr (k * n + j)%nat) (fun j => cos (2 * PI * fc * (INR (k * n + j) / INR sr))) Hn Pd) as (c & Pc & E1 & E2).
  { intros j Hj. change (map (fun i => sigma * w snr i) (seq 0 (length tx))) with (tab (length tx) (fun i => sigma * w snr i)). rewrite tab_nth by (rewrite L; nia). reflexivity. }
  cbv beta in E1. rewrite Ed in E2. rewrite (En k), E1, E2 in D. rewrite D. unfold carried, u.
  set (g := Rsum_n n _) in *. set (t := sqrt (2 * snr)) in *. destruct b; split; intros X; nra.
Qed.

(** The same numbers for spread BPSK, whatever the key: spreading gains nothing against white noise. *)
Theorem C100_cdma_bpsk :
  forall (fuel : nat) (data : list bool) (sample_rate symbol_rate : nat) (fc : R) (key : list bool) (half_cycles : Z) it (tx : list R)
         (noise : R -> R -> Iter R) (w : R -> nat -> R) (snrs : list R),
    let sps := (sample_rate / symbol_rate)%nat in
    let chip i := if nth ((i / (sps / length key)) mod length key) key false then 1 else -1 in
    let u i := sqrt (2 / INR sps) * (chip i * cos (2 * PI * fc * (INR i / INR sample_rate))) in
    data <> [] -> (length data < fuel)%nat ->
    tx_cdma_bpsk_signal (of_list data) sample_rate symbol_rate fc key = Ret it -> yields it tx ->
    2 * fc * INR sps = IZR half_cycles * INR sample_rate -> ~ (exists z : Z, 2 * fc = IZR z * INR sample_rate) ->
    (forall snr, In snr snrs -> 0 < snr /\ forall sigma, streams (noise snr sigma) (fun i => sigma * w snr i)) ->
    (exists bers, calculate_bers identity fuel data tx (fun signal => rx_cdma_bpsk_signal signal sample_rate symbol_rate fc key) noise snrs = Ret bers /\
       Forall2 (fun snr b => lost_fraction (length data) (fun k =>
         carried (nth k data false) (Rsum_n sps (fun j => w snr (k * sps + j)%nat * u (k * sps + j)%nat)) (sqrt (2 * snr))) b) snrs bers) /\
    forall k, Rsum_n sps (fun j => u (k * sps + j)%nat * u (k * sps + j)%nat) = 1.
Proof.
  intros fuel data sr sy fc key h it tx noise w snrs n chip u Hd Hf Et Y Hh Hz HN.
  assert (Rates : sy <> 0%nat /\ (sy <= sr)%nat).
  { pose proof Et as E. unfold tx_cdma_bpsk_signal in E. destruct (cdma_rates sr sy fc key) as [p| |] eqn:Ep; try discriminate.
    destruct (cdma_rates_inv _ _ _ _ _ Ep) as (-> & Hy & Hk & Hr & Hc & _). split; [lia|]. destruct key; [contradiction|cbn in Hr; nia]. }
  destruct Rates as [Hy Hle]. assert (Hn : (1 <= n)%nat) by (unfold n; apply Nat.div_le_lower_bound; lia).
  assert (Pn : 0 < INR n) by (apply lt_0_INR; lia).
  destruct (C88_cdma_bpsk_power (of_list data) data sr sy fc key it (of_list_yields data) Et) as (tx' & Y' & L & _).
  rewrite <- (yields_det _ _ _ Y Y') in L. clear tx' Y'. fold n in L.
  assert (Eb : energy_per_bit tx (length data) = INR n / 2).
  { destruct (C88_cdma_bpsk_eb (of_list data) data sr sy fc key it (of_list_yields data) Hd Et Hz) as (eb & Ce & _ & Cb). fold n in Ce, Cb.
    rewrite <- (Cb h Hh). apply (check_energy (S (length data * n)) _ it); [exact Y|lia|apply Ce; lia]. }
  assert (En : forall k, Rsum_n n (fun j => cos (2 * PI * fc * (INR (k * n + j) / INR sr)) * cos (2 * PI * fc * (INR (k * n + j) / INR sr))) = INR n / 2).
  { intros k. exact (proj2 (cos_energy_near sr n k fc ltac:(lia) (sin_carrier sr fc ltac:(lia) Hz)) h Hh). }
  split.
  2:{ intros k. apply (unit_norm n (fun j => chip (k * n + j)%nat * cos (2 * PI * fc * (INR (k * n + j) / INR sr))) Hn). rewrite <- (En k).
      apply Rsum_n_ext. intros j _. unfold chip. destruct (nth _ key false); ring. }
  refine (bers_R fuel data tx it _ noise (fun snr i => harness_deviation tx (length data) snr * w snr i) snrs _ Hf Y _).
  intros snr Hs. destruct (HN snr Hs) as [Ps St]. split; [apply St|]. split; [apply rx_cdma_bpsk_same|].
  destruct (rust_threshold (INR n) snr Pn Ps) as [Pd Ed]. rewrite <- Eb in Pd, Ed at 2. fold (harness_deviation tx (length data) snr) in Pd, Ed.
  set (sigma := harness_deviation tx (length data) snr) in *.
  destruct (C80_cdma_bpsk_noise_exact (of_list data) data sr sy fc key it (map (fun i => sigma * w snr i) (seq 0 (length tx))) (of_list_yields data) Et) as (r & out & Er & Yr & Lo & D).
  { rewrite map_length, seq_length. exact L. }
  exists r, out. split; [exact Er|]. split; [exact Yr|]. split; [exact Lo|]. split; [|intros; apply carried_dec].
  intros k b Hb. specialize (D k b Hb). cbv zeta in D. fold n in D.
  assert (Hk : (k < length data)%nat) by (apply nth_error_Some; congruence). rewrite (nth_error_nth _ _ false Hb).
  destruct (hit_unit n sigma (fun j => nth (k * n + j) (map (fun i => sigma * w snr i) (seq 0 (length tx))) 0 * chip (k * n + j)%nat * cos (2 * PI * fc * (INR (k * n + j) / INR sr)))
    (fun j => w snr (k * n + j)%nat) (fun j => chip (k * n + j)%nat * cos (2 * PI * fc * (INR (k * n + j) / INR sr))) Hn Pd) as (c & Pc & E1 & E2).
  { intros j Hj. change (map (fun i => sigma * w snr i) (seq 0 (length tx))) with (tab (length tx) (fun i => sigma * w snr i)). rewrite tab_nth by (rewrite L; nia). ring. }
  cbv beta in E1. rewrite Ed in E2. unfold chip in E1 at 1. rewrite (En k), E1, E2 in D. rewrite D. unfold carried, u.
  set (g := Rsum_n n _) in *. set (t := sqrt (2 * snr)) in *. destruct b; split; intros X; nra.
Qed.

(** ** QPSK *)

(** Place i of a list of pairs. *)
Lemma even_odd i K : (i < 2 * K)%nat -> exists k, (k < K)%nat /\ (i = 2 * k \/ i = 2 * k + 1)%nat.
Proof.
  intros H. exists (i / 2)%nat. pose proof (Nat.div_mod_eq i 2) as D. pose proof (Nat.mod_upper_bound i 2 ltac:(lia)) as M. split; [lia|]. lia.
Qed.

(** The unit vector against which the harness plays each bit of a QPSK signal: the cosine for the first of a pair, minus the
    sine for the second.  They are orthogonal, so white noise hits the two bits independently. *)
Theorem C100_qpsk :
  forall (fuel : nat) (data : list bool) (sample_rate symbol_rate : nat) (fc : R) (half_cycles : Z) it (tx : list R)
         (noise : R -> R -> Iter R) (w : R -> nat -> R) (snrs : list R),
    let sps := (sample_rate / symbol_rate)%nat in
    let ph i := 2 * PI * fc * (INR i / INR sample_rate) in
    let u (second : bool) i := sqrt (2 / INR sps) * (if second then - sin (ph i) else cos (ph i)) in
    data <> [] -> Nat.even (length data) = true -> (length data < fuel)%nat -> (1 <= symbol_rate <= sample_rate)%nat ->
    tx_qpsk_signal (of_list data) sample_rate symbol_rate fc = Ret it -> yields it tx ->
    2 * fc * INR sps = IZR half_cycles * INR sample_rate -> ~ (exists z : Z, 2 * fc = IZR z * INR sample_rate) ->
    (forall snr, In snr snrs -> 0 < snr /\ forall sigma, streams (noise snr sigma) (fun i => sigma * w snr i)) ->
    (exists bers, calculate_bers identity fuel data tx (fun signal => rx_qpsk_signal signal sample_rate symbol_rate fc) noise snrs = Ret bers /\
       Forall2 (fun snr b => lost_fraction (length data) (fun k =>
         carried' (nth k data false) (Rsum_n sps (fun j => w snr (k / 2 * sps + j)%nat * u (Nat.odd k) (k / 2 * sps + j)%nat)) (sqrt (2 * snr))) b) snrs bers) /\
    forall k, Rsum_n sps (fun j => u false (k * sps + j)%nat * u false (k * sps + j)%nat) = 1 /\
      Rsum_n sps (fun j => u true (k * sps + j)%nat * u true (k * sps + j)%nat) = 1 /\
      Rsum_n sps (fun j => u false (k * sps + j)%nat * u true (k * sps + j)%nat) = 0.
Proof.
  intros fuel data sr sy fc h it tx noise w snrs n ph u Hd Ev Hf Hr Et Y Hh Hz HN.
  assert (Hn : (1 <= n)%nat) by (unfold n; apply Nat.div_le_lower_bound; lia).
  assert (Pn : 0 < INR n) by (apply lt_0_INR; lia).
  destruct (tx_qpsk_inv (of_list data) sr sy fc ltac:(lia) Hn) as (it' & Et' & Yt). rewrite Et in Et'. injection Et' as <-.
  specialize (Yt data (of_list_yields data)). unfold qpsk_wave in Yt. rewrite (pairs_length (length data) data eq_refl) in Yt. fold n in Yt.
  assert (L : length tx = (length data / 2 * n)%nat) by (rewrite (yields_det _ _ _ Y Yt); apply tab_length). clear Yt.
  assert (HK : exists K, length data = (2 * K)%nat) by (apply Nat.even_spec in Ev; destruct Ev as [K E]; exists K; lia).
  destruct HK as [K HK]. assert (DK : (length data / 2 = K)%nat) by (rewrite HK, (Nat.mul_comm 2 K); apply Nat.div_mul; lia).
  assert (Eb : energy_per_bit tx (length data) = INR n / 2).
  { destruct (C88_qpsk_eb (of_list data) data sr sy fc (of_list_yields data) Hd Hr Hz) as (it' & eb & Et' & Ce & _ & Cb). fold n in Ce, Cb.
    rewrite Et in Et'. injection Et' as <-. rewrite <- (proj2 (Cb h Hh) Ev). apply (check_energy (S (length data / 2 * n)) _ it); [exact Y|lia|apply Ce; lia]. }
  assert (Sums : forall k, _) by exact (fun k => qpsk_design_sums sr sy fc h k ltac:(lia) Hh Hz). fold n in Sums.
  split.
  2:{ intros k. destruct (Sums k) as (C & S & X). unfold u, ph. split; [|split].
      - exact (unit_norm n (fun j => cos (2 * PI * fc * (INR (k * n + j) / INR sr))) Hn C).
      - apply (unit_norm n (fun j => - sin (2 * PI * fc * (INR (k * n + j) / INR sr))) Hn). rewrite <- S. apply Rsum_n_ext. intros; ring.
      - rewrite (Rsum_n_ext n _ (fun j => (- (sqrt (2 / INR n) * sqrt (2 / INR n))) * (sin (2 * PI * fc * (INR (k * n + j) / INR sr)) * cos (2 * PI * fc * (INR (k * n + j) / INR sr)))))
          by (intros; ring). rewrite Rsum_n_scale, X. ring. }
  refine (bers_R fuel data tx it _ noise (fun snr i => harness_deviation tx (length data) snr * w snr i) snrs _ Hf Y _).
  intros snr Hs. destruct (HN snr Hs) as [Ps St]. split; [apply St|].
  split; [apply (rx_qpsk_same sr sy fc _ (length data / 2)); [lia|exact Hn|]; unfold disturbed; rewrite map_length; etransitivity; [apply zip_stream_length|exact L]|].
  destruct (rust_threshold (INR n) snr Pn Ps) as [Pd Ed]. rewrite <- Eb in Pd, Ed at 2. fold (harness_deviation tx (length data) snr) in Pd, Ed.
  set (sigma := harness_deviation tx (length data) snr) in *.
  destruct (C78_qpsk_noise_exact (of_list data) data sr sy fc (map (fun i => sigma * w snr i) (seq 0 (length tx))) (of_list_yields data) Hr) as (it' & r & out & Et' & Er & Yr & Lo & D).
  { rewrite map_length, seq_length. exact L. }
  rewrite Et in Et'. injection Et' as <-.
  exists r, out. split; [exact Er|]. split; [exact Yr|]. split; [rewrite Lo; lia|]. split; [|intros; apply carried_dec'].
  intros i b Hb. assert (Hi : (i < 2 * K)%nat) by (rewrite <- HK; apply nth_error_Some; congruence).
  rewrite (nth_error_nth _ _ false Hb). destruct (even_odd i K Hi) as (k & Hk & Eik).
  destruct (nth_error data (2 * k)) as [b1|] eqn:E1; [|apply nth_error_None in E1; lia].
  destruct (nth_error data (2 * k + 1)) as [b2|] eqn:E2; [|apply nth_error_None in E2; lia].
  specialize (D k b1 b2 E1 E2). cbv beta zeta in D. fold n in D. destruct (Sums k) as (SC & SS & SX). rewrite SC, SS, SX in D.
  assert (NT : forall j, (j < n)%nat -> nth (k * n + j) (map (fun i => sigma * w snr i) (seq 0 (length tx))) 0 = sigma * w snr (k * n + j)%nat).
  { intros j Hj. change (map (fun i => sigma * w snr i) (seq 0 (length tx))) with (tab (length tx) (fun i => sigma * w snr i)). rewrite tab_nth by (rewrite L, DK; nia). reflexivity. }
  destruct D as [D1 D2].
  destruct Eik as [-> | ->].
  - assert (b1 = b) as -> by congruence.
    replace (2 * k / 2)%nat with k by (rewrite (Nat.mul_comm 2 k), Nat.div_mul; lia). replace (Nat.odd (2 * k)) with false by (rewrite Nat.odd_mul; reflexivity).
    destruct (hit_unit n sigma (fun j => nth (k * n + j) (map (fun i => sigma * w snr i) (seq 0 (length tx))) 0 * cos (2 * PI * fc * (INR (k * n + j) / INR sr)))
      (fun j => w snr (k * n + j)%nat) (fun j => cos (2 * PI * fc * (INR (k * n + j) / INR sr))) Hn Pd) as (c & Pc & F1 & F2).
    { intros j Hj. rewrite NT by exact Hj. reflexivity. }
    cbv beta in F1. rewrite Ed in F2. rewrite F1, F2 in D1. rewrite D1. unfold carried', u, ph.
    set (g := Rsum_n n _) in *. set (t := sqrt (2 * snr)) in *. destruct b, b2; split; intros X; nra.
  - assert (b2 = b) as -> by congruence.
    replace ((2 * k + 1) / 2)%nat with k by (rewrite Nat.add_comm, (Nat.mul_comm 2 k), Nat.div_add by lia; reflexivity).
    replace (Nat.odd (2 * k + 1)) with true by (rewrite Nat.odd_add, Nat.odd_mul; reflexivity).
    destruct (hit_unit n sigma (fun j => - (nth (k * n + j) (map (fun i => sigma * w snr i) (seq 0 (length tx))) 0 * sin (2 * PI * fc * (INR (k * n + j) / INR sr))))
      (fun j => w snr (k * n + j)%nat) (fun j => - sin (2 * PI * fc * (INR (k * n + j) / INR sr))) Hn Pd) as (c & Pc & F1 & F2).
    { intros j Hj. rewrite NT by exact Hj. ring. }
    cbv beta in F1. rewrite Ed in F2.
    assert (F3 : Rsum_n n (fun j => nth (k * n + j) (map (fun i => sigma * w snr i) (seq 0 (length tx))) 0 * sin (2 * PI * fc * (INR (k * n + j) / INR sr))) =
      - Rsum_n n (fun j => - (nth (k * n + j) (map (fun i => sigma * w snr i) (seq 0 (length tx))) 0 * sin (2 * PI * fc * (INR (k * n + j) / INR sr))))).
    { rewrite <- (Rmult_1_l (Rsum_n n (fun j => - _))), Ropp_mult_distr_l, <- Rsum_n_scale. apply Rsum_n_ext. intros; ring. }
    rewrite F3, F1, F2 in D2. rewrite D2. unfold carried', u, ph.
    set (g := Rsum_n n _) in *. set (t := sqrt (2 * snr)) in *. destruct b, b1; split; intros X; nra.
Qed.

(** ** Baseband *)

Definition baseband_energy (tx : list (cpx R)) (bits : nat) : R := fold_right Rplus 0 (map (fun s => re s * re s + im s * im s) tx) / INR bits.
(** tests/ber.rs:98-106. *)
Definition baseband_deviation (tx : list (cpx R)) (bits : nat) (snr : R) : R := sqrt (baseband_energy tx bits / (2 * snr)).

Lemma nsum_norms (tx : list (cpx R)) : nsum (map cnorm_sqr tx) = fold_right Rplus 0 (map (fun s => re s * re s + im s * im s) tx).
Proof. unfold nsum. cbn [nsum0 NumR nofZ]. rewrite fold_symmetric by (cbn; intros; ring). reflexivity. Qed.

Lemma disturbed_tab {A B} (add : A -> B -> A) l z d : disturbed add l z = tab (length l) (fun i => add (nth i l d) (z i)).
Proof.
  unfold disturbed. rewrite <- (tab_nth_id l d) at 1. unfold tab. generalize (seq 0 (length l)) as s. induction s as [|a s IH]; [reflexivity|]. cbn [map combine]. rewrite IH. reflexivity.
Qed.

Lemma bers_bb_R fuel data (tx : list (cpx R)) rx decode (noise : R -> R -> Iter R) (z : R -> nat -> R) snrs (lost : R -> nat -> Prop) :
  (length data < fuel)%nat -> receives rx decode ->
  (forall snr, In snr snrs -> streams (noise snr (baseband_deviation tx (length data) snr)) (z snr) /\
     let out := decode (disturbed cadds tx (z snr)) in length out = length data /\
     (forall k b, nth_error data k = Some b -> (nth_error out k = Some b <-> ~ lost snr k)) /\ forall k, lost snr k \/ ~ lost snr k) ->
  exists bers, calculate_bers_baseband identity fuel data tx rx noise snrs = Ret bers /\
    Forall2 (fun snr b => lost_fraction (length data) (lost snr) b) snrs bers.
Proof.
  intros Hf Hrx H. unfold calculate_bers_baseband. apply push_rows_f. intros snr Hsnr. destruct (H snr Hsnr) as (Hz & L & D & Dec).
  cbv zeta. unfold normal_new, assert_then. cbn [nfinite NumR].
  match goal with |- context [noise snr ?s] => replace s with (baseband_deviation tx (length data) snr)
    by (unfold baseband_deviation, baseband_energy, identity; rewrite nsum_norms; unfold nofnat; cbn [ndiv nmul nsqrt nofZ NumR]; rewrite <- INR_IZR_INZ; reflexivity) end.
  destruct (Hrx (imap (fun '(symb, noise0) => cadds symb noise0) (izip (of_list tx) (noise snr (baseband_deviation tx (length data) snr)))) (disturbed cadds tx (z snr))) as (r & Er & Yr).
  { unfold disturbed. apply imap_yields. apply (izip_stream_yields _ _ _ _ (of_list_yields tx) Hz). }
  rewrite Er. cbn [bind]. rewrite (error_rate_R fuel r _ data Yr Hf). eexists. split; [reflexivity|]. apply lost_of_errors; assumption.
Qed.

Lemma const_energy (tx : list (cpx R)) e : Forall (fun s => re s * re s + im s * im s = e) tx ->
  fold_right Rplus 0 (map (fun s => re s * re s + im s * im s) tx) = INR (length tx) * e.
Proof. induction 1 as [|s tx Hs _ IH]; cbn [map fold_right length]; [cbn; ring|]. rewrite IH, Hs, S_INR. ring. Qed.

Lemma nleb_case (a b : R) : nleb a b = if Rle_dec a b then true else false.
Proof. destruct (nleb a b) eqn:E; destruct (Rle_dec a b) as [H|H]; try reflexivity; [apply nleb_R in E; contradiction|apply nleb_R in H; congruence]. Qed.

(** Baseband BPSK: one real noise value per bit against sqrt(2 snr), the same threshold. *)
Theorem C100_baseband_bpsk :
  forall (fuel : nat) (data : list bool) (tx : list (cpx R)) (noise : R -> R -> Iter R) (w : R -> nat -> R) (snrs : list R),
    data <> [] -> (length data < fuel)%nat -> yields (tx_baseband_bpsk_signal (of_list data)) tx ->
    (forall snr, In snr snrs -> 0 < snr /\ forall sigma, streams (noise snr sigma) (fun i => sigma * w snr i)) ->
    exists bers, calculate_bers_baseband identity fuel data tx (fun signal => Ret (rx_baseband_bpsk_signal signal)) noise snrs = Ret bers /\
      Forall2 (fun snr b => lost_fraction (length data) (fun k => carried' (nth k data false) (w snr k) (sqrt (2 * snr))) b) snrs bers.
Proof.
  intros fuel data tx noise w snrs Hd Hf Y HN.
  assert (Etx : tx = map (fun bit : bool => if bit then Cpx 1 0 else Cpx (- 1) 0) data) by (apply (yields_det _ _ _ Y); exact (imap_yields _ _ _ (of_list_yields data))).
  assert (PN : 0 < INR (length data)) by (apply lt_0_INR; destruct data; [contradiction|cbn; lia]).
  assert (Eb : baseband_energy tx (length data) = 1).
  { unfold baseband_energy. rewrite (const_energy tx 1); [rewrite Etx, map_length; field; lra|]. rewrite Etx. apply Forall_map, Forall_forall. intros [] _; cbn; ring. }
  apply (bers_bb_R fuel data tx _ (map (fun s => nleb (nofZ 0) (re s))) noise (fun snr i => baseband_deviation tx (length data) snr * w snr i)); [exact Hf| |].
  { intros it l Yl. eexists. split; [reflexivity|]. exact (imap_yields _ _ _ Yl). }
  intros snr Hs. destruct (HN snr Hs) as [Ps St]. split; [apply St|]. cbv zeta.
  assert (Lt : length tx = length data) by (rewrite Etx; apply map_length).
  rewrite (disturbed_tab cadds tx _ (Cpx 0 0)), tab_map. rewrite tab_length. split; [exact Lt|]. split; [|intros; apply carried_dec'].
  intros k b Hb. assert (Hk : (k < length data)%nat) by (apply nth_error_Some; congruence). rewrite (nth_error_nth _ _ false Hb).
  rewrite tab_nth_error. rewrite Lt. destruct (Nat.ltb_spec k (length data)) as [_|]; [|lia].
  assert (Ek : nth k tx (Cpx 0 0) = if b then Cpx 1 0 else Cpx (- 1) 0).
  { apply nth_error_nth. rewrite Etx. exact (map_nth_error (fun bit : bool => if bit then Cpx 1 0 else Cpx (- 1) 0) k data Hb). }
  rewrite Ek. unfold baseband_deviation. rewrite Eb.
  assert (T : sqrt (1 / (2 * snr)) * sqrt (2 * snr) = 1).
  { rewrite <- sqrt_mult_alt by (left; apply Rdiv_lt_0_compat; lra). replace (1 / (2 * snr) * (2 * snr)) with 1 by (field; lra). apply sqrt_1. }
  assert (Pt : 0 < sqrt (1 / (2 * snr))) by (apply sqrt_lt_R0, Rdiv_lt_0_compat; lra).
  set (sg := sqrt (1 / (2 * snr))) in *. set (t := sqrt (2 * snr)) in *. cbn [nofZ NumR]. unfold carried'.
  destruct b; cbn [cadds re im nadd NumR]; rewrite nleb_case; destruct (Rle_dec _ _) as [A|A]; split; intros X; try reflexivity; try (exfalso; injection X; discriminate);
    try (exfalso; apply X; nra); intros B; nra.
Qed.

(** Baseband QPSK: the amplitude of each part is sqrt 2 and not 1, yet so is the energy per bit twice as large, and the first
    bit of a pair again meets sqrt(2 snr).  The second is never lost, so the rate is half of what the first bits lose. *)
Theorem C100_baseband_qpsk :
  forall (fuel : nat) (data : list bool) (tx : list (cpx R)) (noise : R -> R -> Iter R) (w : R -> nat -> R) (snrs : list R),
    data <> [] -> Nat.even (length data) = true -> (length data < fuel)%nat -> yields (tx_baseband_qpsk_signal (of_list data)) tx ->
    (forall snr, In snr snrs -> 0 < snr /\ forall sigma, streams (noise snr sigma) (fun i => sigma * w snr i)) ->
    exists bers, calculate_bers_baseband identity fuel data tx (fun signal => Ret (rx_baseband_qpsk_signal signal)) noise snrs = Ret bers /\
      Forall2 (fun snr b => lost_fraction (length data) (fun k => Nat.even k = true /\ carried' (nth k data false) (w snr (k / 2)%nat) (sqrt (2 * snr))) b) snrs bers.
Proof.
  intros fuel data tx noise w snrs Hd Ev Hf Y HN.
  set (point := fun p : bool * bool => Cpx (if fst p then sqrt 2 else - sqrt 2) (if snd p then sqrt 2 else - sqrt 2)).
  assert (Etx : tx = map point (pairs data)).
  { rewrite (yields_det _ _ _ Y (imap_yields _ _ _ (ituples_yields _ _ (of_list_yields data)))). apply map_ext. intros [[] []]; reflexivity. }
  assert (HK : exists K, length data = (2 * K)%nat) by (apply Nat.even_spec in Ev; destruct Ev as [K E]; exists K; lia).
  destruct HK as [K HK]. assert (DK : (length data / 2 = K)%nat) by (rewrite HK, (Nat.mul_comm 2 K); apply Nat.div_mul; lia).
  assert (Lt : length tx = K) by (rewrite Etx, map_length, (pairs_length (length data) data eq_refl); exact DK).
  assert (PK : 0 < INR K) by (apply lt_0_INR; destruct data; [contradiction|cbn in HK; lia]).
  assert (S2 : sqrt 2 * sqrt 2 = 2) by (apply sqrt_sqrt; lra). assert (P2 : 0 < sqrt 2) by (apply sqrt_lt_R0; lra).
  assert (Eb : baseband_energy tx (length data) = 2).
  { unfold baseband_energy. rewrite (const_energy tx 4).
    - rewrite Lt, HK, mult_INR. cbn [INR]. field. lra.
    - rewrite Etx. apply Forall_map, Forall_forall. intros [[] []] _; cbn; lra. }
  set (row := fun s : cpx R => [nleb (nofZ 0) (re s); nleb (nofZ 0) (im s)]).
  apply (bers_bb_R fuel data tx _ (flat_map row) noise (fun snr i => baseband_deviation tx (length data) snr * w snr i)); [exact Hf| |].
  { intros it l Yl. eexists. split; [reflexivity|]. apply (iflat_pure_yields row _ _ Yl). intros; discriminate. }
  intros snr Hs. destruct (HN snr Hs) as [Ps St]. split; [apply St|]. cbv zeta.
  rewrite (disturbed_tab cadds tx _ (Cpx 0 0)), Lt. unfold tab. rewrite flat_map_concat_map, map_map, <- flat_map_concat_map.
  set (f := fun i => nleb (nofZ 0) (re (cadds (nth i tx (Cpx 0 0)) (baseband_deviation tx (length data) snr * w snr i)))).
  set (g := fun i => nleb (nofZ 0) (im (cadds (nth i tx (Cpx 0 0)) (baseband_deviation tx (length data) snr * w snr i)))).
  change (fun x => row _) with (fun i => [f i; g i]).
  assert (FL : forall K s, length (flat_map (fun i => [f i; g i]) (seq s K)) = (2 * K)%nat /\ forall k, (k < K)%nat ->
     nth_error (flat_map (fun i => [f i; g i]) (seq s K)) (2 * k) = Some (f (s + k)%nat) /\ nth_error (flat_map (fun i => [f i; g i]) (seq s K)) (2 * k + 1) = Some (g (s + k)%nat)).
  { clear. induction K as [|K IH]; intros s; [split; [reflexivity|intros; lia]|]. cbn [seq flat_map app]. destruct (IH (S s)) as [L N]. split; [cbn [length]; lia|].
    intros [|k] Hk; [cbn; rewrite Nat.add_0_r; auto|].
    replace (2 * S k)%nat with (S (S (2 * k))) by lia. replace (S (S (2 * k)) + 1)%nat with (S (S (2 * k + 1))) by lia.
    cbn [nth_error]. replace (s + S k)%nat with (S s + k)%nat by lia. apply N. lia. }
  destruct (FL K 0%nat) as [L N]. split; [rewrite L; lia|]. split.
  2:{ intros k. destruct (Nat.even k); [|right; intros [X _]; discriminate]. destruct (carried_dec' (nth k data false) (w snr (k / 2)%nat) (sqrt (2 * snr))); [left; auto|right; tauto]. }
  intros i b Hb. assert (Hi : (i < 2 * K)%nat) by (rewrite <- HK; apply nth_error_Some; congruence).
  rewrite (nth_error_nth _ _ false Hb). destruct (even_odd i K Hi) as (k & Hk & Eik). destruct (N k Hk) as [N1 N2]. cbn [Nat.add] in N1, N2.
  destruct (nth_error data (2 * k)) as [b1|] eqn:E1; [|apply nth_error_None in E1; lia].
  destruct (nth_error data (2 * k + 1)) as [b2|] eqn:E2; [|apply nth_error_None in E2; lia].
  assert (Ek : nth k tx (Cpx 0 0) = point (b1, b2)).
  { apply nth_error_nth. rewrite Etx. exact (map_nth_error point k (pairs data) (pairs_nth (length data) data k b1 b2 eq_refl E1 E2)). }
  destruct Eik as [-> | ->].
  - rewrite N1. assert (b1 = b) as -> by congruence. replace (Nat.even (2 * k)) with true by (rewrite Nat.even_mul; reflexivity).
    replace (2 * k / 2)%nat with k by (rewrite (Nat.mul_comm 2 k), Nat.div_mul; lia).
    unfold f. rewrite Ek. unfold baseband_deviation. rewrite Eb.
    assert (T : sqrt (2 / (2 * snr)) * sqrt (2 * snr) = sqrt 2).
    { rewrite <- sqrt_mult_alt by (left; apply Rdiv_lt_0_compat; lra). f_equal. field. lra. }
    assert (Pt : 0 < sqrt (2 / (2 * snr))) by (apply sqrt_lt_R0, Rdiv_lt_0_compat; lra).
    set (sg := sqrt (2 / (2 * snr))) in *. set (t := sqrt (2 * snr)) in *. cbn [nofZ NumR]. unfold point, carried'.
    destruct b; cbn [cadds re im nadd NumR fst snd]; rewrite nleb_case; destruct (Rle_dec _ _) as [A|A]; split; intros X; try reflexivity; try (exfalso; injection X; discriminate);
      try (exfalso; apply X; split; [reflexivity|nra]); intros [_ B]; nra.
  - rewrite N2. assert (b2 = b) as -> by congruence. replace (Nat.even (2 * k + 1)) with false by (rewrite Nat.even_add, Nat.even_mul; reflexivity).
    unfold g. rewrite Ek. cbn [nofZ NumR]. unfold point.
    split; [intros _ [X _]; discriminate|intros _]. destruct b; cbn [cadds re im fst snd]; rewrite nleb_case; destruct (Rle_dec _ _) as [A|A]; try reflexivity; exfalso; lra.
Qed.

(** ** The Python scripts *)

Lemma errors_sym a b : errors a b = errors b a.
Proof.
  revert b. induction a as [|x a IH]; intros [|y b]; try reflexivity. unfold errors in *. cbn [combine filter fst snd].
  rewrite (xorb_comm x y). destruct (xorb y x); cbn [length]; rewrite IH; reflexivity.
Qed.

Lemma kom_ber_R sent received : sent <> [] -> length received = length sent -> kom_ber sent received = Ret (INR (errors received sent) / INR (length sent)).
Proof.
  intros Hs L. unfold kom_ber. rewrite L, Nat.min_id. destruct (Nat.eqb_spec (length sent) 0) as [E|_]; [destruct sent; [contradiction|discriminate]|].
  f_equal. unfold nofnat. cbn [ndiv nofZ NumR]. rewrite <- !INR_IZR_INZ. f_equal. f_equal. rewrite errors_sym. unfold errors.
  enough (G : forall (l : list (bool * bool)) a, fold_left Nat.add (map (fun '(x, y) => if Bool.eqb x y then 0%nat else 1%nat) l) a =
     (a + length (filter (fun p => xorb (fst p) (snd p)) l))%nat) by apply G.
  induction l as [|[x y] l IH]; intros a; cbn [map fold_left filter length]; [lia|]. rewrite IH. cbn [fst snd]. destruct x, y; cbn [Bool.eqb xorb length]; lia.
Qed.

Lemma Forall2_at {A B} (P : A -> B -> Prop) l m : Forall2 P l m -> forall k a b, nth_error l k = Some a -> nth_error m k = Some b -> P a b.
Proof. induction 1 as [|x y l m H F IH]; intros [|k] a b Ha Hb; try discriminate; cbn in Ha, Hb; [congruence|]. eapply IH; eassumption. Qed.

(** calc_ber (ber.py:49-62): the level makes the threshold sqrt(2 snr * symbol_rate^2 / sample_rate), so the curve is the one of
    the Rust harness moved by symbol_rate^2 / sample_rate: not at all with ber.py's 65536 and 256. *)
Theorem C100_python_bpsk :
  forall (data : list bool) (sample_rate symbol_rate : nat) (fc : R) (half_cycles : Z) it (tx : list R)
         (noise : nat -> R -> Iter R) (w : nat -> nat -> R) (snrs : list R),
    let sps := (sample_rate / symbol_rate)%nat in
    let u i := sqrt (2 / INR sps) * cos (2 * PI * fc * (INR i / INR sample_rate)) in
    data <> [] -> (symbol_rate <= sample_rate)%nat ->
    tx_bpsk_signal (of_list data) sample_rate symbol_rate fc = Ret it -> yields it tx ->
    2 * fc * INR sps = IZR half_cycles * INR sample_rate -> ~ (exists z : Z, 2 * fc = IZR z * INR sample_rate) ->
    Forall (fun snr => 0 < snr) snrs -> (forall k n0, streams (noise k n0) (fun i => n0 * w k i)) ->
    exists bers, returns (fun fuel => kom_calc_ber unchanged fuel sample_rate symbol_rate noise data tx
                             (fun signal => py_rx_bpsk signal sample_rate symbol_rate fc fuel) snrs) bers /\
      length bers = length snrs /\
      forall i snr b, nth_error snrs i = Some snr -> nth_error bers i = Some b ->
        lost_fraction (length data) (fun k =>
          carried (nth k data false) (Rsum_n sps (fun j => w i (k * sps + j)%nat * u (k * sps + j)%nat))
            (sqrt (2 * snr * (INR symbol_rate * INR symbol_rate / INR sample_rate)))) b.
Proof.
  intros data sr sy fc h it tx noise w snrs n u Hd Hle Et Y Hh Hz Hs HN.
  destruct (tx_bpsk_inv _ _ _ _ _ Et) as (Hy & _ & _ & Yw).
  assert (Hn : (1 <= n)%nat) by (unfold n; apply Nat.div_le_lower_bound; lia).
  specialize (Yw Hn data (of_list_yields data)).
  assert (L : length tx = (length data * n)%nat) by (rewrite (yields_det _ _ _ Y Yw); apply tab_length). clear Yw.
  assert (Pn : 0 < INR n) by (apply lt_0_INR; lia).
  assert (Eb : energy_per_bit tx (length data) = INR n / 2).
  { destruct (C88_bpsk_eb (of_list data) data sr sy fc it (of_list_yields data) Hd Hle Et Hz) as (eb & Ce & _ & Cb). fold n in Ce, Cb.
    rewrite <- (Cb h Hh). destruct (Ce (S (length data * n)) ltac:(lia)) as [C _]. apply (check_energy (S (length data * n)) _ it); [exact Y|lia|exact C]. }
  assert (En : forall k, Rsum_n n (fun j => cos (2 * PI * fc * (INR (k * n + j) / INR sr)) * cos (2 * PI * fc * (INR (k * n + j) / INR sr))) = INR n / 2).
  { intros k. exact (proj2 (cos_energy_near sr n k fc ltac:(lia) (sin_carrier sr fc ltac:(lia) Hz)) h Hh). }
  set (level := fun snr => sqrt (INR sr * (INR n / 2) / (2 * snr)) / INR sy).
  assert (Lv : kom_noise_levels unchanged sr sy data tx snrs = Ret (map level snrs)).
  { unfold kom_noise_levels. destruct (Nat.eqb_spec (length data) 0) as [E|_]; [destruct data; [contradiction|discriminate]|]. f_equal. apply map_ext. intros snr.
    unfold unchanged, level. rewrite <- Eb. unfold energy_per_bit. rewrite <- nsum_squares. unfold nsum, nofnat. cbn [ndiv nmul nsqrt nofZ nsum0 NumR]. rewrite <- !INR_IZR_INZ. reflexivity. }
  set (lost := fun (i : nat) (t : R) (k : nat) => carried (nth k data false) (Rsum_n n (fun j => w i (k * n + j)%nat * u (k * n + j)%nat)) t).
  destruct (returns_rows (index_from 0 (map level snrs))
    (fun fuel '(k, n0) => kom_get_ber fuel data tx (fun signal => py_rx_bpsk signal sr sy fc fuel) (noise k) n0)
    (fun '(i, n0) b => lost_fraction (length data) (lost i (sqrt (INR n / 2) / n0)) b)) as (bers & Rb & Fb).
  { intros [i sigma] Hin. apply in_combine_r in Hin. apply in_map_iff in Hin. destruct Hin as (snr & <- & Hin).
    pose proof (proj1 (Forall_forall _ _) Hs snr Hin) as Ps. cbn beta in Ps.
    destruct (python_threshold (INR n) snr sr sy Pn Ps ltac:(lia) ltac:(lia)) as [Pd _]. fold (level snr) in Pd. set (sigma := level snr) in *.
    destruct (C78_bpsk_noise_exact (of_list data) data sr sy fc it (map (fun j => sigma * w i j) (seq 0 (length tx))) (of_list_yields data) Et Hle) as (r & out & Er & Yr & Lo & D).
    { rewrite map_length, seq_length. exact L. }
    destruct (rx_bpsk_same sr sy fc (disturbed nadd tx (fun j => sigma * w i j)) Hy Hn (noisy it (map (fun j => sigma * w i j) (seq 0 (length tx))))
      (of_list (disturbed nadd tx (fun j => sigma * w i j))) r out) as (r' & Er' & Yr').
    { unfold noisy, disturbed. apply imap_yields. apply izip_yields; [exact Y|apply of_list_yields]. }
    { apply of_list_yields. }
    { exact Er. }
    { exact Yr. }
    exists (INR (errors out data) / INR (length data)). split.
    - unfold kom_get_ber, awgn, normal_new, assert_then. cbn [nfinite NumR bind].
      eapply returns_bind with (a := disturbed nadd tx (fun j => sigma * w i j)).
      { exists (S (length tx)). intros fuel Hfu. apply collect_yields.
        - apply imap_yields. apply (izip_stream_yields _ _ _ _ (of_list_yields tx) (HN i sigma)).
        - unfold disturbed. rewrite map_length, combine_length, map_length, seq_length. lia. }
      cbn beta. eapply returns_bind with (a := out).
      { exists (S (length out)). intros fuel Hfu. unfold py_rx_bpsk, py_collect. rewrite Er'. cbn [bind]. apply collect_yields; [exact Yr'|lia]. }
      rewrite kom_ber_R by assumption. apply returns_now.
    - apply lost_of_errors; [exact Lo| |intros; apply carried_dec].
      intros k b Hb. specialize (D k b Hb). cbv zeta in D. fold n in D. unfold lost.
      assert (Hk : (k < length data)%nat) by (apply nth_error_Some; congruence). rewrite (nth_error_nth _ _ false Hb).
      destruct (hit_unit n sigma (fun j => nth (k * n + j) (map (fun j => sigma * w i j) (seq 0 (length tx))) 0 * cos (2 * PI * fc * (INR (k * n + j) / INR sr)))
        (fun j => w i (k * n + j)%nat) (fun j => cos (2 * PI * fc * (INR (k * n + j) / INR sr))) Hn Pd) as (c & Pc & E1 & E2).
      { intros j Hj. change (map (fun j => sigma * w i j) (seq 0 (length tx))) with (tab (length tx) (fun j => sigma * w i j)). rewrite tab_nth by (rewrite L; nia). reflexivity. }
      cbv beta in E1. rewrite (En k), E1, E2 in D. rewrite D. unfold carried, u.
      set (g := Rsum_n n _) in *. set (t := sqrt (INR n / 2) / sigma) in *. destruct b; split; intros X; nra. }
  assert (Li : length (index_from 0 (map level snrs)) = length snrs) by (unfold index_from; rewrite combine_length, seq_length, map_length; apply Nat.min_id).
  exists bers. split; [|split].
  - eapply returns_eq; [|exact Rb]. intros fuel. unfold kom_calc_ber. rewrite Lv. reflexivity.
  - apply Forall2_len in Fb. lia.
  - intros i snr b Hi Hb.
    assert (Ei : nth_error (index_from 0 (map level snrs)) i = Some (i, level snr)).
    { assert (Hl : (i < length snrs)%nat) by (apply nth_error_Some; congruence).
      unfold index_from. rewrite nth_error_combine, (map_nth_error level i snrs Hi), map_length, (nth_error_nth' (seq 0 (length snrs)) 0%nat) by (rewrite seq_length; exact Hl).
      rewrite seq_nth by exact Hl. reflexivity. }
    pose proof (Forall2_at _ _ _ Fb i _ _ Ei Hb) as F. cbn beta iota in F.
    assert (Ps : 0 < snr) by (apply (proj1 (Forall_forall _ _) Hs); eapply nth_error_In; exact Hi).
    destruct (python_threshold (INR n) snr sr sy Pn Ps ltac:(lia) ltac:(lia)) as [_ Et']. fold (level snr) in Et'. rewrite Et' in F. exact F.
Qed.

(** ** The theoretical curves *)

(** ber_qpsk is p - p^2 where ber_bpsk is p, with 0 < p: strictly below it at every signal-to-noise ratio, although by C100_bpsk and C100_qpsk the
    harness gives each bit of either signal the same threshold. *)
Theorem C100_curves (eb_nos : list R) (i : nat) (p q : R) : (forall x, In x eb_nos -> 0 <= x) ->
  nth_error (ber_bpsk eb_nos) i = Some p -> nth_error (ber_qpsk eb_nos) i = Some q -> 0 < p /\ q = p - p * p /\ q < p.
Proof.
  intros Hx Hp Hq. unfold ber_bpsk in Hp. unfold ber_qpsk in Hq. rewrite nth_error_map in Hp, Hq. destruct (nth_error eb_nos i) as [x|] eqn:Ex; [|discriminate].
  cbn [option_map] in Hp, Hq. injection Hp as <-. injection Hq as <-. destruct C18_erf_symmetry as (_ & _ & C & _).
  specialize (C (sqrt x) (sqrt_pos x)). unfold nlit, nsqr, erfc. cbn [nsub nmul ndiv nofZ nsqrt NumR]. set (e := erf (sqrt x)) in *.
  repeat split; try nra; lra.
Qed.

(** ** Concrete cases: eight samples a bit and one turn of the carrier *)

Definition counting (f : nat -> R) : Iter R := MkIter 0%nat (fun i => Ret (Some (f i), S i)).
Lemma counting_streams f : streams (counting f) f.
Proof.
  apply (streams_coind (next (counting f)) (fun s g => forall n, g n = f (s + n)%nat)); [|reflexivity].
  intros s g Hg. exists (S s). cbn. rewrite Hg, Nat.add_0_r. split; [reflexivity|]. intros n. rewrite Hg. f_equal. lia.
Qed.

Lemma eight_design : (8 / 1)%nat = 8%nat /\ 2 * 1 * INR 8 = IZR 2 * INR 8 /\ ~ (exists z : Z, 2 * 1 = IZR z * INR 8).
Proof.
  split; [reflexivity|]. split; [lra|]. intros [z Hz]. rewrite INR_IZR_INZ in Hz. change (Z.of_nat 8) with 8%Z in Hz. rewrite <- !mult_IZR in Hz. apply eq_IZR in Hz. lia.
Qed.

Lemma eight_bpsk data : exists it tx, tx_bpsk_signal (of_list data) 8 1 (1 : R) = Ret it /\ yields it tx.
Proof.
  destruct (tx_bpsk_ok (of_list data) 8 1 1 ltac:(discriminate) eq_refl) as [it E].
  { unfold nyquist_ok. replace (nto_u64 (1 : R)) with 1%Z by (cbn [nto_u64 NumR]; rewrite Flocq.Core.Raux.Ztrunc_IZR; reflexivity). reflexivity. }
  change (8 * 1)%nat with 8%nat in E. destruct (tx_bpsk_inv _ _ _ _ _ E) as (_ & _ & _ & Y). exists it. eexists. split; [exact E|]. apply Y; [cbn; lia|apply of_list_yields].
Qed.

Lemma two_marks (lost : nat -> Prop) b : lost_fraction 2 lost b -> (lost 0%nat -> ~ lost 1%nat -> b = 1 / 2) /\ (~ lost 0%nat -> ~ lost 1%nat -> b = 0).
Proof.
  intros (marks & L & -> & H). destruct marks as [|x [|y [|]]]; try discriminate. pose proof (H 0%nat ltac:(lia)) as H0. pose proof (H 1%nat ltac:(lia)) as H1. cbn in H0, H1.
  split; intros A B.
  - destruct x; [|discriminate (proj2 H0 A)]. destruct y; [destruct (B (proj1 H1 eq_refl))|]. cbn. lra.
  - destruct x; [destruct (A (proj1 H0 eq_refl))|]. destruct y; [destruct (B (proj1 H1 eq_refl))|]. cbn. lra.
Qed.

(** Noise of two deviations against the carrier: at a ratio of 1/2 the threshold is 1 and the bit 1 is lost, at 8 it is 4 and nothing is. *)
Example C100_bpsk_case : exists it tx (noise : R -> R -> Iter R), tx_bpsk_signal (of_list [true; false]) 8 1 (1 : R) = Ret it /\ yields it tx /\
  calculate_bers identity 3 [true; false] tx (fun signal => rx_bpsk_signal signal 8 1 1) noise [1 / 2; 8] = Ret [1 / 2; 0].
Proof.
  destruct (eight_bpsk [true; false]) as (it & tx & Et & Y). destruct eight_design as (D & H1 & H2).
  set (u := fun i => sqrt (2 / INR 8) * cos (2 * PI * 1 * (INR i / INR 8))).
  set (noise := fun snr sigma : R => counting (fun i => sigma * (-2 * u i))).
  exists it, tx, noise. split; [exact Et|]. split; [exact Y|].
  destruct (C100_bpsk 3 [true; false] 8 1 1 2 it tx noise (fun _ i => -2 * u i) [1 / 2; 8]) as [(bers & E & F) N]; try assumption; try (cbn; lia); try discriminate.
  { intros snr Hs. split; [destruct Hs as [<-|[<-|[]]]; lra|intros sigma; apply counting_streams]. }
  assert (N' : forall k, Rsum_n 8 (fun j => u (k * 8 + j)%nat * u (k * 8 + j)%nat) = 1) by exact N.
  assert (F0 : Forall2 (fun snr b => lost_fraction 2 (fun k => carried (nth k [true; false] false) (Rsum_n 8 (fun j => -2 * u (k * 8 + j)%nat * u (k * 8 + j)%nat)) (sqrt (2 * snr))) b) [1 / 2; 8] bers) by exact F.
  assert (G : forall k, Rsum_n 8 (fun j => -2 * u (k * 8 + j)%nat * u (k * 8 + j)%nat) = -2).
  { intros k. rewrite (Rsum_n_ext 8 _ (fun j => -2 * (u (k * 8 + j)%nat * u (k * 8 + j)%nat))) by (intros; ring). rewrite Rsum_n_scale. rewrite (N' k). ring. }
  rewrite E. f_equal. inversion F0 as [|? b1 ? bs F1 F']; subst. inversion F' as [|? b2 ? bs' F2 F'']; subst. inversion F''; subst.
  apply two_marks in F1, F2. rewrite !G in F1, F2. unfold carried in F1, F2. cbn [nth] in F1, F2.
  assert (S1 : sqrt (2 * (1 / 2)) = 1) by (replace (2 * (1 / 2)) with 1 by lra; apply sqrt_1).
  assert (S8 : sqrt (2 * 8) = 4) by (replace (2 * 8) with (4 * 4) by lra; apply sqrt_square; lra).
  rewrite S1 in F1. rewrite S8 in F2. f_equal; [|f_equal]; [apply F1; lra|apply F2; lra].
Qed.

(** The other theorems' hypotheses are met by the same kind of signal. *)
Example C100_qpsk_case : exists it tx, tx_qpsk_signal (of_list [true; false]) 8 1 (1 : R) = Ret it /\ yields it tx /\ Nat.even (length [true; false]) = true.
Proof.
  destruct (tx_qpsk_inv (of_list [true; false]) 8 1 (1 : R) ltac:(lia) ltac:(cbn; lia)) as (it & E & Y). exists it. eexists. split; [exact E|]. split; [apply Y, of_list_yields|reflexivity].
Qed.

(** Noise of three deviations: a bit 1 sent first is lost at a ratio of 2, the same bit sent second is not. *)
Example C100_baseband_case (first second : bool) : let noise := fun snr sigma : R => counting (fun _ => sigma * -3) in
  calculate_bers_baseband identity 3 [first; second] [Cpx (if first then sqrt 2 else - sqrt 2) (if second then sqrt 2 else - sqrt 2)]
    (fun signal => Ret (rx_baseband_qpsk_signal signal)) noise [2] = Ret [if first then 1 / 2 else 0].
Proof.
  intros noise.
  destruct (C100_baseband_qpsk 3 [first; second] [Cpx (if first then sqrt 2 else - sqrt 2) (if second then sqrt 2 else - sqrt 2)] noise (fun _ _ => -3) [2]) as (bers & E & F);
    try (cbn; lia); try discriminate; try reflexivity.
  { pose proof (imap_yields (fun '(bit1, bit2) => match bit1, bit2 with
       | true, true => Cpx (nsqrt (nofZ 2)) (nsqrt (nofZ 2)) | true, false => Cpx (nsqrt (nofZ 2)) (- nsqrt (nofZ 2))%num
       | false, true => Cpx (- nsqrt (nofZ 2))%num (nsqrt (nofZ 2)) | false, false => Cpx (- nsqrt (nofZ 2))%num (- nsqrt (nofZ 2))%num end : cpx R) _ _ (ituples_yields _ _ (of_list_yields [first; second]))) as Y.
    destruct first, second; exact Y. }
  { intros snr Hs. split; [destruct Hs as [<-|[]]; lra|intros sigma; apply counting_streams]. }
  rewrite E. f_equal. inversion F as [|? b1 ? bs F1 F']; subst. inversion F'; subst. f_equal. apply two_marks in F1. cbn [nth] in F1. unfold carried' in F1.
  assert (S4 : sqrt (2 * 2) = 2) by (apply sqrt_square; lra). rewrite S4 in F1. cbn [Nat.even] in F1.
  destruct first; [apply F1|apply F1]; try (split; [reflexivity|lra]); intros [X Y]; try discriminate; lra.
Qed.

(** Two chips a bit. *)
Example C100_cdma_case : exists it tx, tx_cdma_bpsk_signal (of_list [true; false]) 16 1 (1 : R) [true; false] = Ret it /\ yields it tx /\
  2 * 1 * INR (16 / 1) = IZR 2 * INR 16 /\ ~ (exists z : Z, 2 * 1 = IZR z * INR 16).
Proof.
  assert (Er : cdma_rates 16 1 (1 : R) [true; false] = Ret (16, 8)%nat).
  { rewrite cdma_rates_R_intro; [reflexivity|lia|discriminate|cbn; lia|exists 8%nat; reflexivity|unfold u64_max; lia|]. change (16 / 2)%nat with 8%nat. cbn. lra. }
  destruct (cdma_rates_inv _ _ _ _ _ Er) as (_ & _ & _ & _ & _ & Hny & Hi).
  assert (Et : exists it, tx_cdma_bpsk_signal (of_list [true; false]) 16 1 (1 : R) [true; false] = Ret it).
  { unfold tx_cdma_bpsk_signal. rewrite Er. cbn [bind]. unfold tx_bpsk_signal. rewrite usize_div_intro by lia. cbn [bind]. rewrite Hny, Hi. eexists. reflexivity. }
  destruct Et as [it Et]. destruct (C88_cdma_bpsk_power _ _ _ _ _ _ _ (of_list_yields [true; false]) Et) as (tx & Y & _).
  exists it, tx. split; [exact Et|]. split; [exact Y|]. change (16 / 1)%nat with 16%nat. split; [lra|].
  intros [z Hz]. rewrite INR_IZR_INZ, <- !mult_IZR in Hz. apply eq_IZR in Hz. lia.
Qed.

(** Sixty-four samples and eight symbols a second: as in ber.py the sample rate is the square of the symbol rate, and the factor is 1. *)
Example C100_python_case : exists it tx, tx_bpsk_signal (of_list [true; false]) 64 8 (8 : R) = Ret it /\ yields it tx /\
  2 * 8 * INR (64 / 8) = IZR 2 * INR 64 /\ ~ (exists z : Z, 2 * 8 = IZR z * INR 64) /\ INR 8 * INR 8 / INR 64 = 1.
Proof.
  destruct (tx_bpsk_ok (of_list [true; false]) 8 8 8 ltac:(discriminate) eq_refl) as [it E].
  { unfold nyquist_ok. replace (nto_u64 (8 : R)) with 8%Z by (cbn [nto_u64 NumR]; rewrite Flocq.Core.Raux.Ztrunc_IZR; reflexivity). reflexivity. }
  change (8 * 8)%nat with 64%nat in E. destruct (tx_bpsk_inv _ _ _ _ _ E) as (_ & _ & _ & Y). exists it. eexists. split; [exact E|]. split; [apply Y; [cbn; lia|apply of_list_yields]|].
  change (64 / 8)%nat with 8%nat. rewrite !INR_IZR_INZ. change (Z.of_nat 8) with 8%Z. change (Z.of_nat 64) with 64%Z. split; [lra|]. split; [|field].
  intros [z Hz]. rewrite <- !mult_IZR in Hz. apply eq_IZR in Hz. lia.
Qed.

Example C100_curves_case : exists p q, nth_error (ber_bpsk [1; 4 : R]) 1 = Some p /\ nth_error (ber_qpsk [1; 4 : R]) 1 = Some q /\ q < p.
Proof.
  do 2 eexists. split; [reflexivity|]. split; [reflexivity|]. apply (C100_curves [1; 4] 1); try reflexivity. intros x [<-|[<-|[]]]; lra.
Qed.

(** ** Axioms used *)
Print Assumptions C100_bpsk.
Print Assumptions C100_cdma_bpsk.
Print Assumptions C100_qpsk.
Print Assumptions C100_baseband_bpsk.
Print Assumptions C100_baseband_qpsk.
Print Assumptions C100_python_bpsk.
Print Assumptions C100_curves.
