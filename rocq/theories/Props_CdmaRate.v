(** C114: spreading by a key does not change the error rate in Gaussian noise, whatever the carrier. *)
From Coq Require Import List Arith ZArith Reals Bool Lia Lra Psatz.
From Verif Require Import Base IterTheory IterModel IterProofs Spec SpecR Tab Num LibModel LibReal PskModel PskChain RSums PskReal
  CdmaModel CdmaProofs KomModel PyModel LabModel BerModel Props_Lib Props_Psk Props_Pass Props_Jam Props_Energy Props_Harness Props_Py Props_Ber Props_Cdma Props_BerTheory Props_Erf Props_Expected Props_NoiseEnergy Props_AnyCarrier Props_QpskRate.
From Verif Require NormalMean NormalTail.
Import ListNotations.
Local Open Scope R_scope.

(** The sign the key gives sample i. *)
Definition chip_at (key : list bool) (sps i : nat) : R := if nth ((i / (sps / length key)) mod length key) key false then 1 else -1.
Lemma chip_square key n i : chip_at key n i * chip_at key n i = 1.
Proof. unfold chip_at. destruct (nth _ key false); ring. Qed.

Lemma rx_cdma_qpsk_same sr sy (fc : R) key l K : length l = (K * (sr / sy))%nat -> same_rx (fun it => rx_cdma_qpsk_signal it sr sy fc key) l.
Proof.
  intros L it it' r out Y Y' E Yr. unfold rx_cdma_qpsk_signal in *. destruct (cdma_rates sr sy fc key) as [p| |] eqn:Ep; try discriminate.
  destruct (cdma_rates_inv _ _ _ _ _ Ep) as (-> & Hy & Hk & Hr & Hc & _). cbn [bind] in *.
  assert (Hle : (sy <= sr)%nat) by (destruct key; [contradiction|cbn in Hr; nia]).
  assert (Hn : (1 <= sr / sy)%nat) by (apply Nat.div_le_lower_bound; lia).
  rewrite <- (tab_nth_id l 0) in Y, Y'.
  pose proof (chip_mul_yields (sr / sy / length key) key it _ _ ltac:(lia) Hk Y) as Z.
  pose proof (chip_mul_yields (sr / sy / length key) key it' _ _ ltac:(lia) Hk Y') as Z'.
  exact (rx_qpsk_same sr sy fc _ K ltac:(lia) Hn ltac:(rewrite tab_length; exact L) _ _ r out Z Z' E Yr).
Qed.

(** The signal before spreading. *)
Lemma cdma_qpsk_plain data sr sy (fc : R) key it (tx : list R) : tx_cdma_qpsk_signal (of_list data) sr sy fc key = Ret it -> yields it tx ->
  ((1 <= sy)%nat /\ (2 * sy <= sr)%nat) /\ exists it0 tx0, tx_qpsk_signal (of_list data) sr sy fc = Ret it0 /\ yields it0 tx0 /\ length tx0 = length tx /\ energy_per_bit tx (length data) = energy_per_bit tx0 (length data).
Proof.
  intros E Y. unfold tx_cdma_qpsk_signal in E. destruct (cdma_rates sr sy fc key) as [p| |] eqn:Ep; try discriminate.
  destruct (cdma_rates_inv _ _ _ _ _ Ep) as (-> & Hy & Hk & Hr & Hc & _). cbn [bind] in E.
  assert (H2 : (2 * sy <= sr)%nat) by (destruct key; [contradiction|cbn [length] in Hr; pose proof (Nat.mul_div_le sr 2 ltac:(lia)); nia]).
  assert (Hle : (sy <= sr)%nat) by (destruct key; [contradiction|cbn in Hr; nia]).
  assert (Hn : (1 <= sr / sy)%nat) by (apply Nat.div_le_lower_bound; lia).
  destruct (tx_qpsk_inv (of_list data) sr sy fc ltac:(lia) Hn) as (it0 & Et & Y0). specialize (Y0 data (of_list_yields data)). rewrite Et in E. cbn [bind] in E. injection E as <-.
  split; [split; [lia|exact H2]|]. set (tx0 := qpsk_wave _ _ _ _) in Y0. clearbody tx0. exists it0, tx0. split; [exact Et|]. split; [exact Y0|].
  rewrite <- (tab_nth_id tx0 0) in Y0. pose proof (chip_mul_yields (sr / sy / length key) key it0 _ _ ltac:(lia) Hk Y0) as Z. rewrite (yields_det _ _ _ Y Z).
  split; [symmetry; apply tab_length|]. unfold energy_per_bit. f_equal. match goal with |- fold_right Rplus 0 (map _ ?w) = _ => change (sumsq w = sumsq tx0) end.
  rewrite !sumsq_sum, tab_length. apply Rsum_n_ext. intros i Hi. rewrite !tab_nth by exact Hi. rewrite nrz_R. cbn [nmul NumR]. destruct (nth (_ mod _) key false); ring.
Qed.

Lemma cdma_bpsk_plain data sr sy (fc : R) key it (tx : list R) : tx_cdma_bpsk_signal (of_list data) sr sy fc key = Ret it -> yields it tx ->
  (2 * sy <= sr)%nat /\ exists it0 tx0, tx_bpsk_signal (of_list data) sr sy fc = Ret it0 /\ yields it0 tx0 /\ length tx0 = length tx /\ energy_per_bit tx (length data) = energy_per_bit tx0 (length data).
Proof.
  intros E Y. unfold tx_cdma_bpsk_signal in E. destruct (cdma_rates sr sy fc key) as [p| |] eqn:Ep; try discriminate.
  destruct (cdma_rates_inv _ _ _ _ _ Ep) as (-> & Hy & Hk & Hr & Hc & _). cbn [bind] in E.
  destruct (tx_bpsk_signal (of_list data) sr sy fc) as [it0| |] eqn:Et; try discriminate. cbn [bind] in E. injection E as <-.
  assert (H2 : (2 * sy <= sr)%nat) by (destruct key; [contradiction|cbn [length] in Hr; pose proof (Nat.mul_div_le sr 2 ltac:(lia)); nia]).
  assert (Hle : (sy <= sr)%nat) by (destruct key; [contradiction|cbn in Hr; nia]).
  assert (Hn : (1 <= sr / sy)%nat) by (apply Nat.div_le_lower_bound; lia).
  destruct (tx_bpsk_inv _ _ _ _ _ Et) as (_ & _ & _ & Y0). specialize (Y0 Hn data (of_list_yields data)).
  set (tx0 := bpsk_wave _ _ _ _) in Y0. clearbody tx0. split; [exact H2|]. exists it0, tx0. split; [reflexivity|]. split; [exact Y0|].
  rewrite <- (tab_nth_id tx0 0) in Y0. pose proof (chip_mul_yields (sr / sy / length key) key it0 _ _ ltac:(lia) Hk Y0) as Z. rewrite (yields_det _ _ _ Y Z).
  split; [symmetry; apply tab_length|]. unfold energy_per_bit. f_equal. match goal with |- fold_right Rplus 0 (map _ ?w) = _ => change (sumsq w = sumsq tx0) end.
  rewrite !sumsq_sum, tab_length. apply Rsum_n_ext. intros i Hi. rewrite !tab_nth by exact Hi. rewrite nrz_R. cbn [nmul NumR]. destruct (nth (_ mod _) key false); ring.
Qed.

(** ** QPSK: the law of C113, for every key *)
Theorem C114_cdma_qpsk :
  forall H (fuel : nat) (data : list bool) (sample_rate symbol_rate : nat) (fc : R) (key : list bool) it (tx : list R) (noise : list R -> R -> Iter R) (snr : R),
    let sps := (sample_rate / symbol_rate)%nat in
    error_function H -> data <> [] -> Nat.even (length data) = true -> (length data < fuel)%nat ->
    tx_cdma_qpsk_signal (of_list data) sample_rate symbol_rate fc key = Ret it -> yields it tx ->
    ~ (exists z : Z, 2 * fc = IZR z * INR sample_rate) -> made_of noise -> 0 < snr ->
    exists rate : list R -> R,
      (forall z, calculate_bers identity fuel data tx (fun signal => rx_cdma_qpsk_signal signal sample_rate symbol_rate fc key) (fun _ => noise z) [snr] = Ret [rate z]) /\
      qpsk_law H data sample_rate sps fc snr rate.
Proof.
  intros H fuel data sr sy fc key it tx noise snr n HH Hd Ev Hf Et Y Hz Mn Hs.
  destruct (cdma_qpsk_plain data sr sy fc key it tx Et Y) as ([Hy Hle] & it0 & tx0 & Et0 & Y0 & L0 & E0).
  destruct (qpsk_average data sr sy fc it0 tx0 Et0 Y0 ltac:(lia)) as [Eb L]. rewrite <- E0 in Eb. fold n in Eb, L.
  assert (Hn : (2 <= n)%nat) by (unfold n; apply Nat.div_le_lower_bound; lia).
  pose proof (qpsk_energy_positive data sr n fc Hd Ev ltac:(lia) Hn Hz) as Pa. set (a := qpsk_energy data sr n fc) in *.
  assert (Th : 0 < harness_deviation tx (length data) snr /\ 2 * (harness_deviation tx (length data) snr * harness_deviation tx (length data) snr) = a / snr).
  { unfold harness_deviation. rewrite Eb. assert (P : 0 < 2 * a / snr) by (apply Rdiv_lt_0_compat; lra). pose proof (sqrt_lt_R0 _ P) as P2. pose proof (sqrt_sqrt _ (Rlt_le _ _ P)) as S. split; [lra|].
    replace (2 * (sqrt (2 * a / snr) / 2 * (sqrt (2 * a / snr) / 2))) with (sqrt (2 * a / snr) * sqrt (2 * a / snr) / 2) by field. rewrite S. field. lra. }
  destruct Th as [Pd Ed]. set (sigma := harness_deviation tx (length data) snr) in *.
  set (u := fun second i => own_carrier sr fc second i / sqrt (own_energy sr n fc second (i / n))).
  set (t := fun i => margin data sr n fc i / (sigma * sqrt (own_energy sr n fc (Nat.odd i) (i / 2)))).
  set (c := chip_at key n). set (I := fun i => bit_hit true (nth i data false) (i / 2 * n) n (fun j => c j * u (Nat.odd i) j) (t i)).
  exists (fun z => Rsum_n (length data) (fun i => I i z) / INR (length data)). split.
  - intros z. destruct (bers_R fuel data tx it (fun signal => rx_cdma_qpsk_signal signal sr sy fc key) (fun _ => noise z) (fun _ i => sigma * nth i z 0) [snr]
      (fun _ i => carried' (nth i data false) (Rsum_n n (fun j => nth (i / 2 * n + j) z 0 * (c (i / 2 * n + j)%nat * u (Nat.odd i) (i / 2 * n + j)%nat))) (t i)) Hf Y) as (bers & E & F).
    { intros x [<-|[]]. fold sigma. split; [apply Mn|].
      split; [apply (rx_cdma_qpsk_same sr sy fc key _ (length data / 2)); fold n; unfold disturbed; rewrite map_length; etransitivity; [apply zip_stream_length|congruence]|].
      destruct (qpsk_bits_taken data sr sy fc it0 tx0 (fun i => c i * nth i z 0) sigma Et0 L Ev Hy Hle Hz Pd) as (r0 & out & Er0 & Yr0 & Lo & D). fold n in D.
      destruct (cdma_qpsk_reduce (of_list data) data sr sy fc key it (map (fun i => sigma * nth i z 0) (seq 0 (length tx))) (of_list_yields data) Et) as [_ Red].
      { rewrite map_length, seq_length. fold n. congruence. }
      destruct (Red it0 r0 out Et0) as (r & Er & Yr); [|exact Yr0|].
      { rewrite <- Er0. f_equal. f_equal. fold n. rewrite <- L. unfold tab. apply map_ext_in. intros i Hi. apply in_seq in Hi.
        change (map (fun i => sigma * nth i z 0) (seq 0 (length tx))) with (tab (length tx) (fun i => sigma * nth i z 0)). rewrite tab_nth by lia. unfold c, chip_at. ring. }
      exists r, out. split; [exact Er|]. split; [exact Yr|]. split; [exact Lo|]. split; [|intros; apply carried_dec']. intros i b Hb. rewrite (D i b Hb).
      rewrite (Rsum_n_ext n (fun j => c (i / 2 * n + j)%nat * nth (i / 2 * n + j) z 0 * _) (fun j => nth (i / 2 * n + j) z 0 * (c (i / 2 * n + j)%nat * u (Nat.odd i) (i / 2 * n + j)%nat))) by (intros; unfold u; ring). reflexivity. }
    rewrite E. f_equal. inversion F as [|? b ? bs F1 F2]; subst. inversion F2; subst. f_equal. apply (fraction_sum _ _ _ _ F1). intros k Hk. apply hits_carried'.
  - unfold qpsk_law. fold a. apply mean_scale. apply (mean_sum _ _ I). intros i Hi.
    pose proof (own_positive sr n fc (Nat.odd i) (i / 2) ltac:(lia) Hn Hz) as PE. pose proof (sqrt_lt_R0 _ PE) as R0. assert (R2 : 0 < sqrt 2) by (apply sqrt_lt_R0; lra).
    replace (/ 2 * _) with (NormalMean.Qt (t i)).
    + apply bit_mean.
      * assert (i / 2 < length data / 2)%nat; [|nia]. apply Nat.even_spec in Ev. destruct Ev as [K E]. rewrite E, (Nat.mul_comm 2 K), Nat.div_mul by lia. apply Nat.div_lt_upper_bound; lia.
      * rewrite <- (carrier_unit sr n fc (Nat.odd i) (i / 2) PE). apply Rsum_n_ext. intros j _. fold (u (Nat.odd i)). 
        transitivity (c (i / 2 * n + j)%nat * c (i / 2 * n + j)%nat * (u (Nat.odd i) (i / 2 * n + j)%nat * u (Nat.odd i) (i / 2 * n + j)%nat)); [ring|]. unfold c at 1 2. rewrite chip_square. unfold u. ring.
    + unfold t. rewrite (Qt_at H _ HH). do 3 f_equal. rewrite <- Ed, sqrt_mult by nra. rewrite (sqrt_mult 2) by nra. rewrite sqrt_square by lra. field. lra.
Qed.

(** ** BPSK: the law of C111, for every key *)
Theorem C114_cdma_bpsk :
  forall H (fuel : nat) (data : list bool) (sample_rate symbol_rate : nat) (fc : R) (key : list bool) it (tx : list R) (noise : list R -> R -> Iter R) (snr : R),
    let sps := (sample_rate / symbol_rate)%nat in
    error_function H -> data <> [] -> (length data < fuel)%nat ->
    tx_cdma_bpsk_signal (of_list data) sample_rate symbol_rate fc key = Ret it -> yields it tx ->
    ~ (exists z : Z, 2 * fc = IZR z * INR sample_rate) -> made_of noise -> 0 < snr ->
    exists rate : list R -> R,
      (forall z, calculate_bers identity fuel data tx (fun signal => rx_cdma_bpsk_signal signal sample_rate symbol_rate fc key) (fun _ => noise z) [snr] = Ret [rate z]) /\
      uneven_law H (length data) (length tx) (bit_energy sample_rate sps fc) snr rate.
Proof.
  intros H fuel data sr sy fc key it tx noise snr n HH Hd Hf Et Y Hz Mn Hs.
  destruct (cdma_bpsk_plain data sr sy fc key it tx Et Y) as (Hle & it0 & tx0 & Et0 & Y0 & L0 & E0).
  destruct (average_energy data sr sy fc it0 tx0 Et0 Y0 ltac:(lia)) as [Eb L]. rewrite <- E0 in Eb. fold n in Eb, L.
  destruct (tx_bpsk_inv _ _ _ _ _ Et0) as (Hy & _ & _ & _). assert (Hn : (2 <= n)%nat) by (unfold n; apply Nat.div_le_lower_bound; lia).
  assert (HN : (0 < length data)%nat) by (destruct data; [contradiction|cbn; lia]). assert (PN : 0 < INR (length data)) by (apply lt_0_INR; exact HN).
  assert (PE : forall k, 0 < bit_energy sr n fc k) by (intros k; apply energy_positive; [lia|exact Hn|exact Hz]).
  set (a := Rsum_n (length data) (bit_energy sr n fc) / INR (length data)) in *.
  assert (Pa : 0 < a).
  { apply Rdiv_lt_0_compat; [|exact PN]. clear - HN PE. destruct (length data) as [|N]; [lia|]. cbn [Rsum_n]. pose proof (Rsum_n_nonneg N (bit_energy sr n fc) ltac:(intros; left; apply PE)). specialize (PE N). lra. }
  set (u0 := fun i => cos (2 * PI * fc * (INR i / INR sr)) / sqrt (bit_energy sr n fc (i / n))). set (c := chip_at key n). set (u := fun i => c i * u0 i).
  set (t := fun k => sqrt (2 * snr * (bit_energy sr n fc k / a))).
  assert (Th : 0 < harness_deviation tx (length data) snr /\ forall k, sqrt (bit_energy sr n fc k) / harness_deviation tx (length data) snr = t k).
  { unfold harness_deviation. rewrite Eb. destruct (rust_threshold (2 * a) snr ltac:(lra) Hs) as [P Q]. replace (2 * a / 2) with a in P, Q by field. split; [exact P|].
    intros k. unfold t. rewrite sqrt_mult; [|lra|left; apply Rdiv_lt_0_compat; [apply PE|exact Pa]]. rewrite <- Q, (sqrt_div (bit_energy sr n fc k) a); [|left; apply PE|exact Pa]. pose proof (sqrt_lt_R0 a Pa). field. lra. }
  destruct Th as [Pd Ed]. set (sigma := harness_deviation tx (length data) snr) in *.
  set (rate := fun z => Rsum_n (length data) (fun k => bit_hit false (nth k data false) (k * n) n u (t k) z) / INR (length data)).
  exists rate. split.
  - intros z. destruct (bers_R fuel data tx it (fun signal => rx_cdma_bpsk_signal signal sr sy fc key) (fun _ => noise z) (fun _ i => sigma * nth i z 0) [snr]
      (fun _ k => carried (nth k data false) (Rsum_n n (fun j => nth (k * n + j) z 0 * u (k * n + j)%nat)) (t k)) Hf Y) as (bers & E & F).
    { intros x [<-|[]]. fold sigma. split; [apply Mn|]. split; [apply rx_cdma_bpsk_same|].
      destruct (bits_taken data sr sy fc it0 tx0 (fun i => c i * nth i z 0) sigma Et0 L Hle Hz Pd) as (r0 & out & Er0 & Yr0 & Lo & D). fold n in D.
      destruct (cdma_bpsk_reduce (of_list data) data sr sy fc key it (map (fun i => sigma * nth i z 0) (seq 0 (length tx))) (of_list_yields data) Et) as (it1 & Et1 & _ & Red).
      { rewrite map_length, seq_length. fold n. congruence. }
      rewrite Et0 in Et1. injection Et1 as <-.
      destruct (Red r0 out) as (r & Er & Yr); [|exact Yr0|].
      { rewrite <- Er0. f_equal. f_equal. fold n. rewrite <- L. unfold tab. apply map_ext_in. intros i Hi. apply in_seq in Hi.
        change (map (fun i => sigma * nth i z 0) (seq 0 (length tx))) with (tab (length tx) (fun i => sigma * nth i z 0)). rewrite tab_nth by lia. unfold c, chip_at. ring. }
      exists r, out. split; [exact Er|]. split; [exact Yr|]. split; [exact Lo|]. split; [|intros; apply carried_dec]. intros k b Hb. rewrite (D k b Hb), Ed.
      rewrite (Rsum_n_ext n (fun j => c (k * n + j)%nat * nth (k * n + j) z 0 * _) (fun j => nth (k * n + j) z 0 * u (k * n + j)%nat)) by (intros; unfold u, u0; ring). reflexivity. }
    rewrite E. f_equal. inversion F as [|? b ? bs F1 F2]; subst. inversion F2; subst. f_equal. apply (fraction_sum _ _ _ _ F1). intros k Hk. apply hits_carried.
  - rewrite <- L0, L. apply (uneven_blocks H (length data) n false (fun k => nth k data false) u); try assumption; [intros; apply PE| |reflexivity].
    intros k _. rewrite <- (own_unit sr n fc k (PE k)). apply Rsum_n_ext. intros j _. unfold u.
    transitivity (c (k * n + j)%nat * c (k * n + j)%nat * (u0 (k * n + j)%nat * u0 (k * n + j)%nat)); [ring|]. unfold c at 1 2. rewrite chip_square. unfold u0. ring.
Qed.

(** ** No gain: the plain and the spread transmission of one message have one mean rate *)
Theorem C114_no_gain_qpsk :
  forall (fuel : nat) (data : list bool) (sample_rate symbol_rate : nat) (fc : R) (key : list bool) it (tx : list R) it0 (tx0 : list R) (noise : list R -> R -> Iter R) (snr : R),
    data <> [] -> Nat.even (length data) = true -> (length data < fuel)%nat ->
    tx_cdma_qpsk_signal (of_list data) sample_rate symbol_rate fc key = Ret it -> yields it tx ->
    tx_qpsk_signal (of_list data) sample_rate symbol_rate fc = Ret it0 -> yields it0 tx0 ->
    ~ (exists z : Z, 2 * fc = IZR z * INR sample_rate) -> made_of noise -> 0 < snr ->
    exists (spread plain : list R -> R) (mean : R),
      (forall z, calculate_bers identity fuel data tx (fun signal => rx_cdma_qpsk_signal signal sample_rate symbol_rate fc key) (fun _ => noise z) [snr] = Ret [spread z]) /\
      (forall z, calculate_bers identity fuel data tx0 (fun signal => rx_qpsk_signal signal sample_rate symbol_rate fc) (fun _ => noise z) [snr] = Ret [plain z]) /\
      length tx = length tx0 /\ normal_mean (length tx) spread mean /\ normal_mean (length tx) plain mean.
Proof.
  intros fuel data sr sy fc key it tx it0 tx0 noise snr Hd Ev Hf Et Y Et0 Y0 Hz Mn Hs. destruct C107_error_function as ((H & HH) & _).
  destruct (cdma_qpsk_plain data sr sy fc key it tx Et Y) as ([Hy Hle] & it1 & tx1 & Et1 & Y1 & L1 & _). rewrite Et0 in Et1. injection Et1 as <-. rewrite <- (yields_det _ _ _ Y0 Y1) in L1.
  destruct (qpsk_average data sr sy fc it0 tx0 Et0 Y0 ltac:(lia)) as [_ L].
  destruct (C114_cdma_qpsk H fuel data sr sy fc key it tx noise snr HH Hd Ev Hf Et Y Hz Mn Hs) as (r1 & A1 & A2).
  destruct (C113_qpsk H fuel data sr sy fc it0 tx0 noise snr HH Hd Ev Hf Hy Hle Et0 Y0 Hz Mn Hs) as (r0 & B1 & B2).
  unfold qpsk_law in A2, B2. rewrite <- L, L1 in A2, B2. exists r1, r0. eexists. split; [exact A1|]. split; [exact B1|]. split; [symmetry; exact L1|]. split; [exact A2|exact B2].
Qed.
Theorem C114_no_gain_bpsk :
  forall (fuel : nat) (data : list bool) (sample_rate symbol_rate : nat) (fc : R) (key : list bool) it (tx : list R) it0 (tx0 : list R) (noise : list R -> R -> Iter R) (snr : R),
    data <> [] -> (length data < fuel)%nat ->
    tx_cdma_bpsk_signal (of_list data) sample_rate symbol_rate fc key = Ret it -> yields it tx ->
    tx_bpsk_signal (of_list data) sample_rate symbol_rate fc = Ret it0 -> yields it0 tx0 ->
    ~ (exists z : Z, 2 * fc = IZR z * INR sample_rate) -> made_of noise -> 0 < snr ->
    exists (spread plain : list R -> R) (mean variance : R),
      (forall z, calculate_bers identity fuel data tx (fun signal => rx_cdma_bpsk_signal signal sample_rate symbol_rate fc key) (fun _ => noise z) [snr] = Ret [spread z]) /\
      (forall z, calculate_bers identity fuel data tx0 (fun signal => rx_bpsk_signal signal sample_rate symbol_rate fc) (fun _ => noise z) [snr] = Ret [plain z]) /\
      length tx = length tx0 /\ normal_mean (length tx) spread mean /\ normal_mean (length tx) plain mean /\
      normal_mean (length tx) (fun z => (spread z - mean) * (spread z - mean)) variance /\ normal_mean (length tx) (fun z => (plain z - mean) * (plain z - mean)) variance.
Proof.
  intros fuel data sr sy fc key it tx it0 tx0 noise snr Hd Hf Et Y Et0 Y0 Hz Mn Hs. destruct C107_error_function as ((H & HH) & _).
  destruct (cdma_bpsk_plain data sr sy fc key it tx Et Y) as (Hle & it1 & tx1 & Et1 & Y1 & L1 & _). rewrite Et0 in Et1. injection Et1 as <-. rewrite <- (yields_det _ _ _ Y0 Y1) in L1.
  destruct (C114_cdma_bpsk H fuel data sr sy fc key it tx noise snr HH Hd Hf Et Y Hz Mn Hs) as (r1 & A1 & A2 & A3 & _).
  destruct (C111_bpsk H fuel data sr sy fc it0 tx0 noise snr HH Hd Hf Hle Et0 Y0 Hz Mn Hs) as (r0 & B1 & B2 & B3 & _).
  rewrite L1 in B2, B3. exists r1, r0. eexists. eexists. split; [exact A1|]. split; [exact B1|]. split; [symmetry; exact L1|]. split; [exact A2|]. split; [exact B2|]. split; [exact A3|exact B3].
Qed.

(** ** Cases: two chips to a symbol of four samples, twelve samples to a period of the carrier *)
Lemma twelfths i : phase_at 12 1 i = PI / 6 * INR i.
Proof. unfold phase_at. replace (INR 12) with 12 by (rewrite INR_IZR_INZ; reflexivity). field. Qed.
Lemma quarter_checks message : (exists it, tx_cdma_qpsk_signal message 12 3 (1 : R) [true; false] = Ret it) /\ ~ (exists z : Z, 2 * 1 = IZR z * INR 12).
Proof.
  split.
  - unfold tx_cdma_qpsk_signal. rewrite cdma_rates_R_intro; [eexists; reflexivity|lia|discriminate|cbn; lia|exists 2%nat; reflexivity| |].
    + unfold u64_max. lia.
    + change (12 / 2)%nat with 6%nat. cbn. lra.
  - intros [z X]. rewrite INR_IZR_INZ in X. change (Z.of_nat 12) with 12%Z in X. rewrite <- !mult_IZR in X. apply eq_IZR in X. lia.
Qed.
(** Both bits are received at 2 - sqrt 3 / 2 along carriers of energy 2. *)
Example C114_case : exists H it tx rate, error_function H /\ tx_cdma_qpsk_signal (of_list [true; true]) 12 3 (1 : R) [true; false] = Ret it /\ yields it tx /\
  (forall z, calculate_bers identity 3 [true; true] tx (fun signal => rx_cdma_qpsk_signal signal 12 3 1 [true; false]) (fun _ sigma => counting (fun i => sigma * nth i z 0)) [1] = Ret [rate z]) /\
  normal_mean 4 rate (/ 2 * (1 - H ((2 - sqrt 3 / 2) / sqrt (2 * (2 - sqrt 3 / 2))))).
Proof.
  destruct C107_error_function as ((H & HH) & _). destruct (quarter_checks (of_list [true; true])) as ((it & E) & Hz).
  assert (YE : exists tx, yields it tx).
  { pose proof E as E'. unfold tx_cdma_qpsk_signal in E'. destruct (cdma_rates 12 3 (1 : R) [true; false]) as [p| |] eqn:Ep; try discriminate.
    destruct (cdma_rates_inv _ _ _ _ _ Ep) as (-> & _). cbn [bind] in E'. destruct (tx_qpsk_inv (of_list [true; true]) 12 3 (1 : R) ltac:(lia) ltac:(cbn; lia)) as (it0 & Et & Y0). specialize (Y0 _ (of_list_yields _)).
    rewrite Et in E'. cbn [bind] in E'. injection E' as <-. rewrite <- (tab_nth_id (qpsk_wave _ _ _ _) 0) in Y0. eexists. apply (chip_mul_yields (12 / 3 / 2) [true; false] it0 _ _ ltac:(cbn; lia) ltac:(discriminate) Y0). }
  destruct YE as [tx Y].
  destruct (C114_cdma_qpsk H 3 [true; true] 12 3 1 [true; false] it tx (fun z sigma => counting (fun i => sigma * nth i z 0)) 1 HH ltac:(discriminate) eq_refl ltac:(cbn; lia) E Y Hz) as (rate & R1 & R2).
  { intros z sigma. apply counting_streams. } { lra. }
  exists H, it, tx, rate. split; [exact HH|]. split; [exact E|]. split; [exact Y|]. split; [exact R1|].
  unfold qpsk_law in R2. change (12 / 3)%nat with 4%nat in R2. cbn [length] in R2. change (2 / 2)%nat with 1%nat in R2. cbv zeta in R2.
  assert (Q3 : sqrt 3 * sqrt 3 = 3) by (apply sqrt_sqrt; lra).
  assert (A3 : PI / 6 * (1 + 1 + 1) = PI / 2) by field. assert (A2 : PI / 6 * (1 + 1) = PI / 3) by field.
  assert (Lk : leak 12 4 1 0 = sqrt 3 / 2).
  { unfold leak. cbn [Rsum_n Nat.mul Nat.add]. rewrite !twelfths. cbn [INR]. rewrite A3, A2, Rmult_0_r, Rmult_1_r, sin_0, cos_0, cos_PI3, sin_PI3, cos_PI2, sin_PI6, cos_PI6. field. }
  assert (E0 : own_energy 12 4 1 false 0 = 2).
  { unfold own_energy, own_carrier. cbn [Rsum_n Nat.mul Nat.add]. rewrite !twelfths. cbn [INR]. rewrite A3, A2, Rmult_0_r, Rmult_1_r, cos_0, cos_PI3, cos_PI2, cos_PI6. nra. }
  assert (E1 : own_energy 12 4 1 true 0 = 2). { pose proof (own_sum 12 4 1 0) as S. rewrite E0 in S. cbn [INR] in S. lra. }
  assert (Eq : qpsk_energy [true; true] 12 4 1 = 2 - sqrt 3 / 2).
  { unfold qpsk_energy. cbn [length]. change (2 / 2)%nat with 1%nat. cbn [Rsum_n]. rewrite Lk. unfold agree. cbn. field. }
  cbn [Rsum_n] in R2. unfold margin in R2. change (0 / 2)%nat with 0%nat in R2. change (1 / 2)%nat with 0%nat in R2. change (Nat.odd 0) with false in R2. change (Nat.odd 1) with true in R2.
  rewrite Lk, E0, E1, Eq in R2. change (agree [true; true] 0) with 1 in R2. cbn [Nat.mul] in R2.
  replace (2 - 1 * (sqrt 3 / 2)) with (2 - sqrt 3 / 2) in R2 by field. replace ((2 - sqrt 3 / 2) / 1) with (2 - sqrt 3 / 2) in R2 by field.
  match type of R2 with normal_mean _ _ ?v => replace v with (/ 2 * (1 - H ((2 - sqrt 3 / 2) / sqrt (2 * (2 - sqrt 3 / 2))))) in R2 by (cbn [INR]; field) end. exact R2.
Qed.
Example C114_bpsk_case : exists H it tx rate mean, error_function H /\ tx_cdma_bpsk_signal (of_list [true; false]) 12 3 (1 : R) [true; false] = Ret it /\ yields it tx /\
  (forall z, calculate_bers identity 3 [true; false] tx (fun signal => rx_cdma_bpsk_signal signal 12 3 1 [true; false]) (fun _ sigma => counting (fun i => sigma * nth i z 0)) [1] = Ret [rate z]) /\
  normal_mean (length tx) rate mean /\ / 2 * (1 - H 1) <= mean.
Proof.
  destruct C107_error_function as ((H & HH) & _). destruct (quarter_checks (of_list [true; false])) as (_ & Hz).
  assert (E : exists it, tx_cdma_bpsk_signal (of_list [true; false]) 12 3 (1 : R) [true; false] = Ret it).
  { unfold tx_cdma_bpsk_signal. rewrite cdma_rates_R_intro; [|lia|discriminate|cbn; lia|exists 2%nat; reflexivity|unfold u64_max; lia|change (12 / 2)%nat with 6%nat; cbn; lra].
    cbn [bind]. destruct (tx_bpsk_ok (of_list [true; false]) 4 3 (1 : R) ltac:(discriminate) eq_refl) as [it0 E0].
    { unfold nyquist_ok. replace (nto_u64 (1 : R)) with 1%Z by (cbn [nto_u64 NumR]; rewrite Flocq.Core.Raux.Ztrunc_IZR; reflexivity). reflexivity. }
    change (4 * 3)%nat with 12%nat in E0. rewrite E0. eexists. reflexivity. }
  destruct E as [it E]. destruct (C88_cdma_bpsk_power (of_list [true; false]) [true; false] 12 3 1 [true; false] it (of_list_yields _) E) as (tx & Y & _).
  destruct (C114_cdma_bpsk H 3 [true; false] 12 3 1 [true; false] it tx (fun z sigma => counting (fun i => sigma * nth i z 0)) 1 HH ltac:(discriminate) ltac:(cbn; lia) E Y Hz) as (rate & R1 & R2).
  { intros z sigma. apply counting_streams. } { lra. }
  destruct R2 as (M & _ & _ & Le & _). rewrite sqrt_1 in Le. exists H, it, tx, rate. eexists. split; [exact HH|]. split; [exact E|]. split; [exact Y|]. split; [exact R1|]. split; [exact M|exact Le].
Qed.

Example C114_no_gain_case : exists it tx it0 tx0 spread plain mean,
  tx_cdma_qpsk_signal (of_list [true; true]) 12 3 (1 : R) [true; false] = Ret it /\ yields it tx /\ tx_qpsk_signal (of_list [true; true]) 12 3 (1 : R) = Ret it0 /\ yields it0 tx0 /\
  (forall z, calculate_bers identity 3 [true; true] tx (fun signal => rx_cdma_qpsk_signal signal 12 3 1 [true; false]) (fun _ sigma => counting (fun i => sigma * nth i z 0)) [1] = Ret [spread z]) /\
  (forall z, calculate_bers identity 3 [true; true] tx0 (fun signal => rx_qpsk_signal signal 12 3 1) (fun _ sigma => counting (fun i => sigma * nth i z 0)) [1] = Ret [plain z]) /\
  normal_mean (length tx) spread mean /\ normal_mean (length tx) plain mean.
Proof.
  destruct C114_case as (H & it & tx & _ & _ & E & Y & _). destruct (quarter_checks (of_list [true; true])) as (_ & Hz).
  destruct (cdma_qpsk_plain [true; true] 12 3 1 [true; false] it tx E Y) as (_ & it0 & tx0 & E0 & Y0 & _).
  destruct (C114_no_gain_qpsk 3 [true; true] 12 3 1 [true; false] it tx it0 tx0 (fun z sigma => counting (fun i => sigma * nth i z 0)) 1 ltac:(discriminate) eq_refl ltac:(cbn; lia) E Y E0 Y0 Hz) as (a & b & m & A & B & _ & C & D).
  { intros z sigma. apply counting_streams. } { lra. }
  exists it, tx, it0, tx0, a, b, m. repeat (split; [assumption|]). assumption.
Qed.
Example C114_no_gain_bpsk_case : exists it tx it0 tx0 spread plain mean,
  tx_cdma_bpsk_signal (of_list [true; false]) 12 3 (1 : R) [true; false] = Ret it /\ yields it tx /\ tx_bpsk_signal (of_list [true; false]) 12 3 (1 : R) = Ret it0 /\ yields it0 tx0 /\
  (forall z, calculate_bers identity 3 [true; false] tx (fun signal => rx_cdma_bpsk_signal signal 12 3 1 [true; false]) (fun _ sigma => counting (fun i => sigma * nth i z 0)) [1] = Ret [spread z]) /\
  (forall z, calculate_bers identity 3 [true; false] tx0 (fun signal => rx_bpsk_signal signal 12 3 1) (fun _ sigma => counting (fun i => sigma * nth i z 0)) [1] = Ret [plain z]) /\
  normal_mean (length tx) spread mean /\ normal_mean (length tx) plain mean.
Proof.
  destruct C114_bpsk_case as (H & it & tx & _ & _ & _ & E & Y & _). destruct (quarter_checks (of_list [true; false])) as (_ & Hz).
  destruct (cdma_bpsk_plain [true; false] 12 3 1 [true; false] it tx E Y) as (_ & it0 & tx0 & E0 & Y0 & _).
  destruct (C114_no_gain_bpsk 3 [true; false] 12 3 1 [true; false] it tx it0 tx0 (fun z sigma => counting (fun i => sigma * nth i z 0)) 1 ltac:(discriminate) ltac:(cbn; lia) E Y E0 Y0 Hz) as (a & b & m & v & A & B & _ & C & D & _).
  { intros z sigma. apply counting_streams. } { lra. }
  exists it, tx, it0, tx0, a, b, m. repeat (split; [assumption|]). assumption.
Qed.

(** ** Axioms used *)
Print Assumptions C114_cdma_qpsk.
Print Assumptions C114_cdma_bpsk.
Print Assumptions C114_no_gain_qpsk.
Print Assumptions C114_no_gain_bpsk.
