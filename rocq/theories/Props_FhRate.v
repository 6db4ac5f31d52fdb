(** C112: the error rate of FH-BPSK (src/fh.rs) in Gaussian noise. *)
From Coq Require Import List Arith ZArith NArith Reals Bool Lia Lra Psatz Permutation.
From Verif Require Import Base IterTheory IterModel IterProofs Spec SpecR Tab Num LibModel LibReal ChaosModel PskModel PskChain RSums PskReal
  CdmaModel FhModel FhProofs LabModel BerModel Props_Psk Props_Pass Props_Jam Props_Energy Props_Fh Props_FhJam Props_Harness Props_Ber Props_BerTheory Props_Erf Props_Expected Props_NoiseEnergy Props_AnyCarrier.
From Verif Require NormalMean ErfReal.
Import ListNotations.
Local Open Scope R_scope.

(** The energy of a bit sent at frequency f: every bit restarts the carrier at phase 0. *)
Definition hop_energy (sample_rate sps : nat) (f : R) : R :=
  Rsum_n sps (fun j => cos (2 * PI * f * (INR j / INR sample_rate)) * cos (2 * PI * f * (INR j / INR sample_rate))).

Lemma hop_energy_positive sr n f : (1 <= n)%nat -> 0 < hop_energy sr n f.
Proof.
  intros Hn. apply (Rsum_n_sq_pos n (fun j => cos (2 * PI * f * (INR j / INR sr)))). exists 0%nat. split; [lia|]. change (INR 0) with 0. unfold Rdiv. rewrite Rmult_0_l, Rmult_0_r, cos_0. lra.
Qed.

Lemma fh_checks rng message (low high : R) n sr sy tx : tx_fh_bpsk_signal rng message low high n sr sy = Ret tx ->
  nyquist_ok sr high = true /\ is_int (ndiv (nofnat sr) (nofnat sy) : R) = true.
Proof.
  intros Htx. unfold tx_fh_bpsk_signal in Htx. destruct (nyquist_ok sr high); [|discriminate]. cbn [assert_then] in Htx. destruct (is_int (ndiv (nofnat sr) (nofnat sy))); [auto|discriminate].
Qed.

Lemma hops_in rng (low high : R) n hops f : (2 <= n)%nat -> HopTable_new rng low high n SEED = Ret hops -> streams hops f ->
  (forall k, In (f k) (grid low high n)) /\ forall e, Permutation (map (fun i => f (e * n + i)%nat) (seq 0 n)) (grid low high n).
Proof.
  intros Hn En St. destruct (hops_stream rng low high n SEED Hn) as (it & f' & E' & S' & In' & P'). rewrite En in E'. injection E' as <-.
  assert (B : forall k, f k = f' k) by (intros k; pose proof (behaves_from_det _ _ _ _ St S' k) as B; cbn in B; injection B as ->; reflexivity).
  split; [intros k; rewrite B; apply In'|]. intros e. rewrite (map_ext (fun i => f (e * n + i)%nat) (fun i => f' (e * n + i)%nat)) by (intros; apply B). apply P'.
Qed.

Lemma fh_average rng data (low high : R) n sr sy it tx hops f :
  tx_fh_bpsk_signal rng (of_list data) low high n sr sy = Ret it -> yields it tx -> low <= high -> (2 <= n)%nat -> (1 <= sy <= sr)%nat ->
  HopTable_new rng low high n SEED = Ret hops -> streams hops f ->
  energy_per_bit tx (length data) = Rsum_n (length data) (fun k => hop_energy sr (sr / sy) (f k)) / INR (length data) /\ length tx = (length data * (sr / sy))%nat.
Proof.
  intros Et Y Hlh Hn Hr En St. destruct (fh_checks _ _ _ _ _ _ _ _ Et) as [Hny _]. destruct (hops_in rng low high n hops f Hn En St) as [Hin _].
  pose proof (fh_tx_table rng (of_list data) data low high n sr sy it hops f (of_list_yields data) Et Hr En St (fun k => grid_nyquist low high n sr (f k) ltac:(lia) Hlh Hny (Hin k))) as Yt.
  rewrite (yields_det _ _ _ Y Yt). rewrite tab_length. split; [|reflexivity]. unfold energy_per_bit. f_equal. set (l := tab _ _). change (fold_right Rplus 0 (map (fun s => s * s) l)) with (sumsq l).
  rewrite sumsq_sum. unfold l. rewrite tab_length, Rsum_n_mul. apply Rsum_n_ext. intros k Hk. unfold hop_energy. apply Rsum_n_ext. intros j Hj. rewrite tab_nth by nia. rewrite block_div, block_mod by exact Hj.
  unfold ccos. rewrite phase_R, nrz_R. cbn [nmul ncos NumR]. destruct (nth k data false); ring.
Qed.

Lemma rx_fh_same rng (low high : R) n sr sy K l hops f : (1 <= sy <= sr)%nat -> nyquist_ok sr high = true -> is_int (ndiv (nofnat sr) (nofnat sy) : R) = true ->
  HopTable_new rng low high n SEED = Ret hops -> streams hops f -> length l = (K * (sr / sy))%nat ->
  same_rx (fun it => rx_fh_bpsk_signal rng it low high n sr sy) l.
Proof.
  intros Hr Hny Hi En St L it it' r out Y Y' E Yr.
  assert (TL : l = tab (K * (sr / sy)) (fun i => nth i l 0)) by (rewrite <- L; symmetry; apply tab_nth_id). rewrite TL in Y, Y'.
  destruct (fh_rx_table rng it K _ low high n sr sy hops f Y Hr Hny Hi En St) as (r1 & E1 & D1). destruct (fh_rx_table rng it' K _ low high n sr sy hops f Y' Hr Hny Hi En St) as (r2 & E2 & D2).
  rewrite E in E1. injection E1 as <-. exists r2. split; [exact E2|]. rewrite (yields_det _ _ _ Yr D1). exact D2.
Qed.

(** Which bits noise of deviation sigma takes. *)
Lemma fh_bits_taken rng data (low high : R) nf sr sy it (tx : list R) hops f (w : nat -> R) sigma : let n := (sr / sy)%nat in
  let u i := cos (2 * PI * f (i / n)%nat * (INR (i mod n) / INR sr)) / sqrt (hop_energy sr n (f (i / n)%nat)) in
  tx_fh_bpsk_signal rng (of_list data) low high nf sr sy = Ret it -> low <= high -> (2 <= nf)%nat -> (1 <= sy <= sr)%nat ->
  HopTable_new rng low high nf SEED = Ret hops -> streams hops f -> length tx = (length data * n)%nat -> 0 < sigma ->
  exists r out, rx_fh_bpsk_signal rng (noisy it (map (fun i => sigma * w i) (seq 0 (length tx)))) low high nf sr sy = Ret r /\ yields r out /\ length out = length data /\
    forall k b, nth_error data k = Some b -> (nth_error out k = Some b <->
      ~ carried (nth k data false) (Rsum_n n (fun j => w (k * n + j)%nat * u (k * n + j)%nat)) (sqrt (hop_energy sr n (f k)) / sigma)).
Proof.
  intros n u Et Hlh Hnf Hr En St L Ps. assert (Hn : (1 <= n)%nat) by (unfold n; apply Nat.div_le_lower_bound; lia).
  destruct (C98_fh_bpsk_noise_exact rng (of_list data) data low high nf sr sy it hops f (map (fun i => sigma * w i) (seq 0 (length tx))) (of_list_yields data) Et Hlh Hnf Hr En St) as (r & out & Er & Yr & Lo & D).
  { rewrite map_length, seq_length. exact L. }
  exists r, out. split; [exact Er|]. split; [exact Yr|]. split; [exact Lo|]. intros k b Hb. specialize (D k b Hb). cbv zeta in D. fold n in D. destruct D as [_ D].
  assert (Hk : (k < length data)%nat) by (apply nth_error_Some; congruence). rewrite (nth_error_nth _ _ false Hb).
  pose proof (hop_energy_positive sr n (f k) Hn) as PE. fold (hop_energy sr n (f k)) in D.
  set (g := Rsum_n n (fun j => w (k * n + j)%nat * u (k * n + j)%nat)).
  destruct (threshold2 (hop_energy sr n (f k)) sigma (Rsum_n n (fun j => w (k * n + j)%nat * cos (2 * PI * f k * (INR j / INR sr)))) g PE Ps) as (c & Pc & E1 & E2).
  { unfold g, Rdiv. rewrite Rmult_comm, <- Rsum_n_scale. apply Rsum_n_ext. intros j Hj. unfold u. rewrite block_div, block_mod by exact Hj. unfold Rdiv. ring. }
  assert (Eh : Rsum_n n (fun j => nth (k * n + j) (map (fun i => sigma * w i) (seq 0 (length tx))) 0 * cos (2 * PI * f k * (INR j / INR sr))) = c * g).
  { rewrite <- E1, <- Rsum_n_scale. apply Rsum_n_ext. intros j Hj. change (map (fun i => sigma * w i) (seq 0 (length tx))) with (tab (length tx) (fun i => sigma * w i)). rewrite tab_nth by (rewrite L; nia). ring. }
  set (t := sqrt (hop_energy sr n (f k)) / sigma) in *. rewrite Eh, E2 in D. rewrite D. unfold carried. clearbody g t. clear - Pc. destruct b; split; intros X; nra.
Qed.

Lemma hop_unit sr n (f : nat -> R) k : (1 <= n)%nat ->
  let u i := cos (2 * PI * f (i / n)%nat * (INR (i mod n) / INR sr)) / sqrt (hop_energy sr n (f (i / n)%nat)) in
  Rsum_n n (fun j => u (k * n + j)%nat * u (k * n + j)%nat) = 1.
Proof.
  intros Hn u. pose proof (hop_energy_positive sr n (f k) Hn) as PE. pose proof (sqrt_lt_R0 _ PE) as R0. pose proof (sqrt_sqrt _ (Rlt_le _ _ PE)) as S.
  rewrite (Rsum_n_ext n _ (fun j => / hop_energy sr n (f k) * (cos (2 * PI * f k * (INR j / INR sr)) * cos (2 * PI * f k * (INR j / INR sr))))).
  - rewrite Rsum_n_scale. fold (hop_energy sr n (f k)). field. lra.
  - intros j Hj. unfold u. rewrite block_div, block_mod by exact Hj. rewrite <- S at 3. field. lra.
Qed.

(** tests/ber.rs:66-92 measuring FH-BPSK: each bit is lost at the rate the energy of its own hop gives it, independently of the others. *)
Theorem C112_fh_bpsk :
  forall H (rng : Rng) (fuel : nat) (data : list bool) (low high : R) (num_freqs sample_rate symbol_rate : nat) it (tx : list R) hops (f : nat -> R) (noise : list R -> R -> Iter R) (snr : R),
    let sps := (sample_rate / symbol_rate)%nat in
    error_function H -> data <> [] -> (length data < fuel)%nat -> low <= high -> (2 <= num_freqs)%nat -> (1 <= symbol_rate <= sample_rate)%nat ->
    tx_fh_bpsk_signal rng (of_list data) low high num_freqs sample_rate symbol_rate = Ret it -> yields it tx ->
    HopTable_new rng low high num_freqs SEED = Ret hops -> streams hops f -> made_of noise -> 0 < snr ->
    exists rate : list R -> R,
      (forall z, calculate_bers identity fuel data tx (fun signal => rx_fh_bpsk_signal rng signal low high num_freqs sample_rate symbol_rate) (fun _ => noise z) [snr] = Ret [rate z]) /\
      uneven_law H (length data) (length tx) (fun k => hop_energy sample_rate sps (f k)) snr rate.
Proof.
  intros H rng fuel data low high nf sr sy it tx hops f noise snr n HH Hd Hf Hlh Hnf Hr Et Y En St Mn Hs.
  destruct (fh_average rng data low high nf sr sy it tx hops f Et Y Hlh Hnf Hr En St) as [Eb L]. fold n in Eb, L.
  destruct (fh_checks _ _ _ _ _ _ _ _ Et) as [Hny Hi]. assert (Hn : (1 <= n)%nat) by (unfold n; apply Nat.div_le_lower_bound; lia).
  assert (HN : (0 < length data)%nat) by (destruct data; [contradiction|cbn; lia]). assert (PN : 0 < INR (length data)) by (apply lt_0_INR; exact HN).
  set (e := fun k => hop_energy sr n (f k)) in *. assert (PE : forall k, 0 < e k) by (intros k; apply hop_energy_positive; exact Hn).
  set (a := Rsum_n (length data) e / INR (length data)) in *.
  assert (Pa : 0 < a).
  { apply Rdiv_lt_0_compat; [|exact PN]. clear - HN PE. destruct (length data) as [|N]; [lia|]. cbn [Rsum_n]. pose proof (Rsum_n_nonneg N e ltac:(intros; left; apply PE)). specialize (PE N). lra. }
  set (u := fun i => cos (2 * PI * f (i / n)%nat * (INR (i mod n) / INR sr)) / sqrt (hop_energy sr n (f (i / n)%nat))).
  set (t := fun k => sqrt (2 * snr * (e k / a))).
  assert (Th : 0 < harness_deviation tx (length data) snr /\ forall k, sqrt (e k) / harness_deviation tx (length data) snr = t k).
  { unfold harness_deviation. rewrite Eb. destruct (rust_threshold (2 * a) snr ltac:(lra) Hs) as [P Q]. replace (2 * a / 2) with a in P, Q by field. split; [exact P|].
    intros k. unfold t. rewrite sqrt_mult; [|lra|left; apply Rdiv_lt_0_compat; [apply PE|exact Pa]]. rewrite <- Q, (sqrt_div (e k) a); [|left; apply PE|exact Pa]. pose proof (sqrt_lt_R0 a Pa). field. lra. }
  destruct Th as [Pd Ed]. set (sigma := harness_deviation tx (length data) snr) in *.
  set (rate := fun z => Rsum_n (length data) (fun k => bit_hit false (nth k data false) (k * n) n u (t k) z) / INR (length data)).
  exists rate. split.
  - intros z. destruct (bers_R fuel data tx it (fun signal => rx_fh_bpsk_signal rng signal low high nf sr sy) (fun _ => noise z) (fun _ i => sigma * nth i z 0) [snr]
      (fun _ k => carried (nth k data false) (Rsum_n n (fun j => nth (k * n + j) z 0 * u (k * n + j)%nat)) (t k)) Hf Y) as (bers & E & F).
    { intros x [<-|[]]. fold sigma. split; [apply Mn|]. split.
      { apply (rx_fh_same rng low high nf sr sy (length data) _ hops f Hr Hny Hi En St). unfold disturbed. rewrite map_length, combine_length, map_length, seq_length, Nat.min_id. exact L. }
      destruct (fh_bits_taken rng data low high nf sr sy it tx hops f (fun i => nth i z 0) sigma Et Hlh Hnf Hr En St L Pd) as (r & out & Er & Yr & Lo & D). exists r, out.
      split; [exact Er|]. split; [exact Yr|]. split; [exact Lo|]. split; [|intros; apply carried_dec]. intros k b Hb. rewrite <- Ed. apply (D k b Hb). }
    rewrite E. f_equal. inversion F as [|? b ? bs F1 F2]; subst. inversion F2; subst. f_equal. apply (fraction_sum _ _ _ _ F1). intros k Hk. apply hits_carried.
  - rewrite L. apply (uneven_blocks H (length data) n false (fun k => nth k data false) u e snr rate HH HN Hs); [intros; apply PE|intros k _; apply hop_unit, Hn|reflexivity].
Qed.

(** ** Whole rounds through the hop table *)
Lemma round_sum (F : R -> R) (f : nat -> R) (low high : R) n E : (forall e, Permutation (map (fun i => f (e * n + i)%nat) (seq 0 n)) (grid low high n)) ->
  Rsum_n (E * n) (fun k => F (f k)) = INR E * Rsum (map F (grid low high n)).
Proof.
  intros P. rewrite Rsum_n_mul. rewrite (Rsum_n_ext E _ (fun _ => Rsum (map F (grid low high n)))); [apply Rsum_n_const|].
  intros e _. rewrite <- Rsum_tab. rewrite <- (Rsum_perm _ _ (Permutation_map F (P e))). unfold tab. rewrite map_map. reflexivity.
Qed.

Definition hop (low high : R) (num_freqs k : nat) : R := low + (high - low) / INR num_freqs * INR k.

Lemma grid_sum (F : R -> R) low high n : (1 <= n)%nat -> Rsum (map F (grid low high n)) = Rsum_n n (fun k => F (hop low high n k)).
Proof. intros Hn. unfold grid. rewrite tab_map, Rsum_tab. apply Rsum_n_ext. intros k _. f_equal. apply grid_R. exact Hn. Qed.

(** After whole rounds the mean depends neither on the message nor on the order of the hops: it is the average over the grid. *)
Theorem C112_rounds :
  forall H (rng : Rng) (fuel : nat) (data : list bool) (low high : R) (num_freqs sample_rate symbol_rate rounds : nat) it (tx : list R) (noise : list R -> R -> Iter R) (snr : R),
    let sps := (sample_rate / symbol_rate)%nat in
    let e k := hop_energy sample_rate sps (hop low high num_freqs k) in
    let a := Rsum_n num_freqs e / INR num_freqs in
    let p k := / 2 * (1 - H (sqrt (snr * (e k / a)))) in
    let mean := Rsum_n num_freqs p / INR num_freqs in
    error_function H -> (1 <= rounds)%nat -> length data = (rounds * num_freqs)%nat -> (length data < fuel)%nat -> low <= high -> (2 <= num_freqs)%nat -> (1 <= symbol_rate <= sample_rate)%nat ->
    tx_fh_bpsk_signal rng (of_list data) low high num_freqs sample_rate symbol_rate = Ret it -> yields it tx -> made_of noise -> 0 < snr ->
    exists rate : list R -> R,
      (forall z, calculate_bers identity fuel data tx (fun signal => rx_fh_bpsk_signal rng signal low high num_freqs sample_rate symbol_rate) (fun _ => noise z) [snr] = Ret [rate z]) /\
      normal_mean (length tx) rate mean /\
      normal_mean (length tx) (fun z => (rate z - mean) * (rate z - mean)) (Rsum_n num_freqs (fun k => p k * (1 - p k)) / INR num_freqs / INR (length data)) /\
      / 2 * (1 - H (sqrt snr)) <= mean /\ (mean = / 2 * (1 - H (sqrt snr)) <-> forall k, (k < num_freqs)%nat -> e k = a).
Proof.
  cbv beta zeta. intros H rng fuel data low high nf sr sy rounds it tx noise snr HH Hro Ld Hf Hlh Hnf Hr Et Y Mn Hs.
  set (n := (sr / sy)%nat). set (e := fun k => hop_energy sr n (hop low high nf k)). set (a := Rsum_n nf e / INR nf). set (p := fun k => / 2 * (1 - H (sqrt (snr * (e k / a))))).
  destruct (hops_stream rng low high nf SEED Hnf) as (hops & f & En & St & _ & _).
  assert (Hd : data <> []) by (intros ->; cbn in Ld; nia).
  destruct (C112_fh_bpsk H rng fuel data low high nf sr sy it tx hops f noise snr HH Hd Hf Hlh Hnf Hr Et Y En St Mn Hs) as (rate & R1 & R2).
  destruct (hops_in rng low high nf hops f Hnf En St) as [_ P]. fold n in R2.
  assert (PE : 0 < INR rounds) by (apply lt_0_INR; lia). assert (PF : 0 < INR nf) by (apply lt_0_INR; lia).
  cbv beta delta [uneven_law] in R2. cbv zeta in R2. rewrite Ld in R2.
  assert (Av : forall F, Rsum_n (rounds * nf) (fun k => F (f k)) = INR rounds * Rsum_n nf (fun k => F (hop low high nf k))) by (intros F; rewrite (round_sum F f low high nf rounds P), grid_sum by lia; reflexivity).
  assert (Ea : Rsum_n (rounds * nf) (fun k => hop_energy sr n (f k)) / INR (rounds * nf) = a).
  { rewrite (Av (hop_energy sr n)), mult_INR. unfold a, e. field. lra. }
  rewrite Ea in R2. destruct R2 as (M & V & _ & Le & Eq).
  set (q := fun x => / 2 * (1 - H (sqrt (snr * (hop_energy sr n x / a))))).
  assert (Em : Rsum_n (rounds * nf) (fun k => / 2 * (1 - H (sqrt (snr * (hop_energy sr n (f k) / a))))) / INR (rounds * nf) = Rsum_n nf p / INR nf).
  { change (fun k => / 2 * (1 - H (sqrt (snr * (hop_energy sr n (f k) / a))))) with (fun k => q (f k)). rewrite (Av q), mult_INR. unfold q, p, e. field. lra. }
  rewrite Em in M, V, Le, Eq.
  pose proof (Av (fun x => q x * (1 - q x))) as Aq. cbv beta in Aq.
  change (fun k => / 2 * (1 - H (sqrt (snr * (hop_energy sr n (f k) / a)))) * (1 - / 2 * (1 - H (sqrt (snr * (hop_energy sr n (f k) / a)))))) with (fun k => q (f k) * (1 - q (f k))) in V.
  rewrite Aq in V.
  exists rate. split; [exact R1|]. split; [exact M|]. split; [|split; [exact Le|]].
  - rewrite Ld. match type of V with normal_mean _ _ ?v => replace v with (Rsum_n nf (fun k => p k * (1 - p k)) / INR nf / INR (rounds * nf)) in V; [exact V|] end.
    rewrite mult_INR. change (fun k => q (hop low high nf k) * (1 - q (hop low high nf k))) with (fun k => p k * (1 - p k)). field. lra.
  - refine (iff_trans Eq _). change ((forall k, (k < rounds * nf)%nat -> hop_energy sr n (f k) = a) <-> forall k, (k < nf)%nat -> e k = a). split; intros X k Hk.
    + assert (I : In (hop low high nf k) (map (fun i => f (0 * nf + i)%nat) (seq 0 nf))).
      { eapply Permutation_in; [apply Permutation_sym, (P 0%nat)|]. unfold grid, tab. apply in_map_iff. exists k. split; [apply grid_R; lia|apply in_seq; lia]. }
      apply in_map_iff in I. destruct I as (i & Ei & Hi). apply in_seq in Hi. unfold e. rewrite <- Ei. apply X. nia.
    + destruct (hops_in rng low high nf hops f Hnf En St) as [G _]. specialize (G k). unfold grid, tab in G. apply in_map_iff in G. destruct G as (i & Ei & Hi). apply in_seq in Hi.
      rewrite grid_R in Ei by lia. fold (hop low high nf i) in Ei. rewrite <- Ei. apply X. lia.
Qed.

(** ** How far from the textbook rate *)
Lemma hop_energy_near sr n f : (1 <= sr)%nat -> sin (2 * PI * f / INR sr) <> 0 ->
  Rabs (hop_energy sr n f - (INR n / 2 + / 4)) <= / (4 * Rabs (sin (2 * PI * f / INR sr))).
Proof.
  intros Hr Ha. set (a := 2 * PI * f / INR sr) in *. assert (Hsr : INR sr <> 0) by (apply not_0_INR; lia).
  assert (F : 4 * sin a * (hop_energy sr n f - (INR n / 2 + / 4)) = sin (2 * a * INR n - a)).
  { pose proof (sum_cos a 0 n) as S. replace (0 + 2 * a * INR n - a) with (2 * a * INR n - a) in S by ring. replace (0 - a) with (- a) in S by ring. rewrite sin_neg in S.
    unfold hop_energy. rewrite (Rsum_n_ext n (fun j => cos (2 * PI * f * (INR j / INR sr)) * cos (2 * PI * f * (INR j / INR sr))) (fun j => 1 / 2 + 1 / 2 * cos (0 + 2 * a * INR j))).
    - rewrite Rsum_n_plus, Rsum_n_scale, Rsum_n_const. lra.
    - intros j _. rewrite cos_sq_half. replace (2 * (2 * PI * f * (INR j / INR sr))) with (0 + 2 * a * INR j) by (unfold a; field; exact Hsr). lra. }
  pose proof (Rabs_pos_lt _ Ha) as Pa. apply Rmult_le_reg_l with (4 * Rabs (sin a)); [lra|]. rewrite Rinv_r by lra.
  replace (4 * Rabs (sin a)) with (Rabs (4 * sin a)) by (rewrite Rabs_mult, (Rabs_pos_eq 4) by lra; reflexivity). rewrite <- Rabs_mult, F.
  apply Rabs_le. apply SIN_bound.
Qed.

(** If no hop is within arcsin s of a multiple of half the sample rate, the mean is between the textbook rate and the one of a ratio smaller by
    (c - d)/(c + d), with c = sps/2 + 1/4 and d = 1/(4 s). *)
Theorem C112_close :
  forall H (N samples sample_rate sps : nat) (f : nat -> R) (s ratio : R) (rate : list R -> R),
    let c := INR sps / 2 + / 4 in
    let d := / (4 * s) in
    let textbook x := / 2 * (1 - H (sqrt x)) in
    error_function H -> (1 <= N)%nat -> (1 <= sample_rate)%nat -> 0 < ratio -> 0 < s -> d < c ->
    (forall k, s <= Rabs (sin (2 * PI * f k / INR sample_rate))) ->
    uneven_law H N samples (fun k => hop_energy sample_rate sps (f k)) ratio rate ->
    exists mean, normal_mean samples rate mean /\ textbook ratio <= mean <= textbook (ratio * ((c - d) / (c + d))).
Proof.
  intros H N samples sr n f s ratio rate c d textbook HH HN Hr Hs Ps Hd Hf U. destruct U as (M & _ & _ & Le & _).
  set (e := fun k => hop_energy sr n (f k)) in *. set (a := Rsum_n N e / INR N) in *. assert (PN : 0 < INR N) by (apply lt_0_INR; lia).
  eexists. split; [exact M|]. split; [exact Le|].
  assert (Near : forall k, Rabs (e k - c) <= d).
  { intros k. specialize (Hf k). eapply Rle_trans; [apply hop_energy_near; [exact Hr|intros Z; rewrite Z, Rabs_R0 in Hf; lra]|]. unfold d. apply Rinv_le_contravar; lra. }
  pose proof (Rsum_n_near N e c d (fun k _ => Near k)) as Na. assert (Pd : 0 < d) by (unfold d; apply Rinv_0_lt_compat; lra).
  assert (Ua : a <= c + d).
  { apply Rmult_le_reg_l with (INR N); [exact PN|]. replace (INR N * a) with (Rsum_n N e) by (unfold a; field; lra). apply Flocq.Core.Raux.Rabs_le_inv in Na. lra. }
  assert (Pa : 0 < a).
  { apply Rdiv_lt_0_compat; [|exact PN]. apply Flocq.Core.Raux.Rabs_le_inv in Na. assert (0 < INR N * (c - d)) by (apply Rmult_lt_0_compat; lra). lra. }
  set (rho := (c - d) / (c + d)).
  assert (T : forall k, (k < N)%nat -> / 2 * (1 - H (sqrt (ratio * (e k / a)))) <= textbook (ratio * rho)).
  { intros k _. apply (increasing_error H); [exact HH|]. pose proof (Near k) as Nk. apply Flocq.Core.Raux.Rabs_le_inv in Nk. clearbody c d a.
    assert (P0 : 0 < rho) by (unfold rho; apply Rdiv_lt_0_compat; lra). split; [apply Rmult_le_pos; lra|]. apply Rmult_le_compat_l; [lra|]. unfold rho, Rdiv.
    apply Rle_trans with ((c - d) * / a); [apply Rmult_le_compat_l; [lra|apply Rinv_le_contravar; lra]|apply Rmult_le_compat_r; [left; apply Rinv_0_lt_compat; exact Pa|lra]]. }
  apply (Rsum_n_le N _ (fun _ => textbook (ratio * rho))) in T. rewrite Rsum_n_const in T.
  apply Rmult_le_reg_l with (INR N); [exact PN|]. set (X := Rsum_n N _) in T |- *. replace (INR N * (X / INR N)) with X by (field; lra). exact T.
Qed.

(** The rates and the grid of the test in fh.rs:184-224: at most the textbook rate at 85 % of the ratio. *)
Theorem C112_test :
  forall H (rng : Rng) (fuel : nat) (data : list bool) (sample_rate symbol_rate : nat) it (tx : list R) (noise : list R -> R -> Iter R) (snr : R),
    error_function H -> data <> [] -> (length data < fuel)%nat -> INR sample_rate = 44100 -> sample_rate = (49 * symbol_rate)%nat ->
    tx_fh_bpsk_signal rng (of_list data) 1000 2000 16 sample_rate symbol_rate = Ret it -> yields it tx -> made_of noise -> 0 < snr ->
    exists (rate : list R -> R) mean,
      (forall z, calculate_bers identity fuel data tx (fun signal => rx_fh_bpsk_signal rng signal 1000 2000 16 sample_rate symbol_rate) (fun _ => noise z) [snr] = Ret [rate z]) /\
      normal_mean (length tx) rate mean /\ / 2 * (1 - H (sqrt snr)) <= mean <= / 2 * (1 - H (sqrt (snr * (85 / 100)))).
Proof.
  intros H rng fuel data sr sy it tx noise snr HH Hd Hf E1 E2 Et Y Mn Hs.
  destruct (hops_stream rng (1000 : R) 2000 16 SEED ltac:(lia)) as (hops & f & En & St & _ & _).
  assert (Hy : (1 <= sy)%nat) by (destruct sy; [rewrite E2 in E1; cbn in E1; lra|lia]). assert (D : (sr / sy = 49)%nat) by (rewrite E2; apply Nat.div_mul; lia).
  destruct (C112_fh_bpsk H rng fuel data 1000 2000 16 sr sy it tx hops f noise snr HH Hd Hf ltac:(lra) ltac:(lia) ltac:(lia) Et Y En St Mn Hs) as (rate & R1 & R2). rewrite D in R2.
  assert (HN : (1 <= length data)%nat) by (destruct data; [contradiction|cbn; lia]).
  assert (Ef : forall k, 1000 <= f k <= 2000).
  { intros k. destruct (hops_in rng 1000 2000 16 hops f ltac:(lia) En St) as [G _]. specialize (G k). unfold grid, tab in G. apply in_map_iff in G. destruct G as (i & <- & Hi). apply in_seq in Hi.
    rewrite grid_R by lia. assert (I0 : 0 <= INR i <= 16) by (split; [apply pos_INR|replace 16 with (INR 16) by (rewrite INR_IZR_INZ; reflexivity); apply le_INR; lia]).
    replace (INR 16) with 16 by (rewrite INR_IZR_INZ; reflexivity). lra. }
  assert (E49 : INR 49 = 49) by (rewrite INR_IZR_INZ; reflexivity).
  destruct (C112_close H (length data) (length tx) sr 49 f (138 / 1000) snr rate HH HN ltac:(lia) Hs ltac:(lra) ltac:(rewrite E49; lra)) as (mean & M & Lo & Hi).
  - intros k. specialize (Ef k). rewrite E1. set (x := 2 * PI * f k / 44100). destruct ErfReal.PI_close as [P3 P4].
    assert (X1 : 142 / 1000 <= x <= 286 / 1000).
    { unfold x. split; [apply Rmult_le_reg_r with 44100; [lra|]; replace (2 * PI * f k / 44100 * 44100) with (2 * PI * f k) by field; nra|].
      apply Rmult_le_reg_r with 44100; [lra|]. replace (2 * PI * f k / 44100 * 44100) with (2 * PI * f k) by field. nra. }
    destruct (sin_bound x 0 ltac:(lra) ltac:(clear - X1 P3; lra)) as [B _]. unfold sin_approx, sin_term in B. cbn [sum_f_R0 Nat.mul Nat.add pow fact] in B.
    assert (B2 : x - x * x * x / 6 <= sin x) by (cbn in B; lra). clearbody x. clear - X1 B2. assert (x * (1 - x * x / 6) >= 138 / 1000) by nra. rewrite Rabs_pos_eq by lra. lra.
  - exact R2.
  - exists rate, mean. split; [exact R1|]. split; [exact M|]. split; [exact Lo|]. eapply Rle_trans; [exact Hi|]. apply (increasing_error H _ _ HH). split; [lra|]. apply Rmult_le_compat_l; [lra|]. rewrite E49. lra.
Qed.

(** ** A case: two hops at 0 and a quarter of the sample rate, two samples to a bit; the bits have energies 2 and 1, and the rate is above the textbook's. *)
Example C112_case : exists H it tx rate mean, error_function H /\
  tx_fh_bpsk_signal toy_rng (of_list [true; false]) (0 : R) 2 2 4 2 = Ret it /\ yields it tx /\ length tx = 4%nat /\
  (forall z, calculate_bers identity 3 [true; false] tx (fun signal => rx_fh_bpsk_signal toy_rng signal 0 2 2 4 2) (fun _ sigma => counting (fun i => sigma * nth i z 0)) [1] = Ret [rate z]) /\
  normal_mean (length tx) rate mean /\ / 2 * (1 - H (sqrt 1)) < mean.
Proof.
  destruct C107_error_function as ((H & HH) & _).
  assert (Hny : nyquist_ok 4 (2 : R) = true) by (apply Z.leb_le; cbn [nto_u64 NumR]; rewrite (Flocq.Core.Raux.Ztrunc_IZR 2); vm_compute; discriminate).
  assert (Hi : is_int (ndiv (nofnat 4) (nofnat 2) : R) = true).
  { unfold is_int, nofnat. cbn [ndiv nofZ NumR nto_u64 neqb]. replace (IZR (Z.of_nat 4) / IZR (Z.of_nat 2)) with 2 by (cbn; lra).
    rewrite (Flocq.Core.Raux.Ztrunc_IZR 2). destruct (Req_EM_T _ _) as [|N]; [reflexivity|]. exfalso. apply N. reflexivity. }
  destruct (hops_stream toy_rng (0 : R) 2 2 SEED ltac:(lia)) as (hops & f & En & St & _ & _).
  assert (Et : exists it, tx_fh_bpsk_signal toy_rng (of_list [true; false]) (0 : R) 2 2 4 2 = Ret it).
  { unfold tx_fh_bpsk_signal, assert_then. rewrite Hny, Hi, En. eexists. reflexivity. }
  destruct Et as [it Et]. destruct (hops_in toy_rng 0 2 2 hops f ltac:(lia) En St) as [Hin _].
  pose proof (fh_tx_table toy_rng (of_list [true; false]) [true; false] 0 2 2 4 2 it hops f (of_list_yields _) Et ltac:(lia) En St (fun k => grid_nyquist 0 2 2 4 (f k) ltac:(lia) ltac:(lra) Hny (Hin k))) as Y.
  set (tx := tab _ _) in Y. assert (L : length tx = 4%nat) by (unfold tx; rewrite tab_length; reflexivity). clearbody tx.
  destruct (C112_rounds H toy_rng 3 [true; false] 0 2 2 4 2 1 it tx (fun z sigma => counting (fun i => sigma * nth i z 0)) 1 HH ltac:(lia) eq_refl ltac:(cbn; lia) ltac:(lra) ltac:(lia) ltac:(lia) Et Y) as (rate & R1 & M & _ & Le & Eq).
  { intros z sigma. apply counting_streams. } { lra. }
  exists H, it, tx, rate. eexists. split; [exact HH|]. split; [exact Et|]. split; [exact Y|]. split; [exact L|]. split; [exact R1|]. split; [exact M|].
  destruct Le as [Le|Le]; [exact Le|exfalso]. pose proof (proj1 Eq (eq_sym Le)) as X.
  assert (E : hop_energy 4 2 (hop 0 2 2 0) = hop_energy 4 2 (hop 0 2 2 1)) by (change 2%nat with (4 / 2)%nat at 2 5; rewrite !X by lia; reflexivity).
  unfold hop_energy, hop in E. cbn [Rsum_n INR] in E. replace (2 * PI * (0 + (2 - 0) / (1 + 1) * 0) * (0 / (1 + 1 + 1 + 1))) with 0 in E by field.
  replace (2 * PI * (0 + (2 - 0) / (1 + 1) * 0) * (1 / (1 + 1 + 1 + 1))) with 0 in E by field. replace (2 * PI * (0 + (2 - 0) / (1 + 1) * 1) * (0 / (1 + 1 + 1 + 1))) with 0 in E by field.
  replace (2 * PI * (0 + (2 - 0) / (1 + 1) * 1) * (1 / (1 + 1 + 1 + 1))) with (PI / 2) in E by field. rewrite cos_0, cos_PI2 in E. lra.
Qed.

(** ** Axioms used *)
Print Assumptions C112_fh_bpsk.
Print Assumptions C112_rounds.
Print Assumptions C112_close.
Print Assumptions C112_test.
