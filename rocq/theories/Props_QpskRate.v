(** C113: the error rate of QPSK when a symbol does not hold a whole number of half periods of the carrier. *)
From Coq Require Import List Arith ZArith Reals Bool Lia Lra Psatz.
From Verif Require Import Base IterTheory IterModel IterProofs Spec SpecR Tab Num LibModel LibReal PskModel PskChain RSums PskReal
  CdmaModel CdmaProofs KomModel PyModel LabModel BerModel Props_Lib Props_Psk Props_Pass Props_Jam Props_Energy Props_Harness Props_Py Props_Ber Props_Cdma Props_BerTheory Props_Erf Props_Expected Props_NoiseEnergy Props_AnyCarrier.
From Verif Require NormalMean NormalTail.
Import ListNotations.
Local Open Scope R_scope.

(** ** What a symbol gives each of its two bits *)

Definition phase_at (sample_rate : nat) (fc : R) (i : nat) : R := 2 * PI * fc * (INR i / INR sample_rate).
(** The carrier of the first bit of a pair is the cosine, that of the second minus the sine. *)
Definition own_carrier (sample_rate : nat) (fc : R) (second : bool) (i : nat) : R := if second then - sin (phase_at sample_rate fc i) else cos (phase_at sample_rate fc i).
Definition own_energy (sample_rate sps : nat) (fc : R) (second : bool) (k : nat) : R :=
  Rsum_n sps (fun j => own_carrier sample_rate fc second (k * sps + j) * own_carrier sample_rate fc second (k * sps + j)).
(** What the carriers of symbol k have in common. *)
Definition leak (sample_rate sps : nat) (fc : R) (k : nat) : R :=
  Rsum_n sps (fun j => sin (phase_at sample_rate fc (k * sps + j)) * cos (phase_at sample_rate fc (k * sps + j))).
Definition agree (data : list bool) (k : nat) : R := if Bool.eqb (nth (2 * k) data false) (nth (2 * k + 1) data false) then 1 else -1.
(** What bit i is received at without noise: its own energy, less the share of the other bit of its pair. *)
Definition margin (data : list bool) (sample_rate sps : nat) (fc : R) (i : nat) : R :=
  own_energy sample_rate sps fc (Nat.odd i) (i / 2) - agree data (i / 2) * leak sample_rate sps fc (i / 2).
Definition qpsk_energy (data : list bool) (sample_rate sps : nat) (fc : R) : R :=
  Rsum_n (length data / 2) (fun k => INR sps - 2 * agree data k * leak sample_rate sps fc k) / INR (length data).

(** Two samples cannot both fall on zeros of a tone. *)
Lemma tone_energy_positive A B sr n fc k : (1 <= sr)%nat -> (2 <= n)%nat -> ~ (exists z : Z, 2 * fc = IZR z * INR sr) -> 0 < A * A + B * B ->
  let x i := A * cos (phase_at sr fc i) + B * sin (phase_at sr fc i) in 0 < Rsum_n n (fun j => x (k * n + j)%nat * x (k * n + j)%nat).
Proof.
  intros Hr Hn Hz PAB x. pose proof (sin_carrier sr fc Hr Hz) as Ha. set (a := 2 * PI * fc / INR sr) in *. assert (Hsr : INR sr <> 0) by (apply not_0_INR; lia).
  replace (Rsum_n n (fun j => x (k * n + j)%nat * x (k * n + j)%nat)) with (Rsum_n (2 + (n - 2)) (fun j => x (k * n + j)%nat * x (k * n + j)%nat)) by (f_equal; lia).
  rewrite Rsum_n_add. cbn [Rsum_n]. set (rest := Rsum_n (n - 2) _).
  assert (0 <= rest) by (apply Rsum_n_nonneg; intros; apply Rle_0_sqr). rewrite Nat.add_0_r. set (b := (k * n)%nat) in *.
  set (th := phase_at sr fc b). assert (Et : phase_at sr fc (b + 1) = th + a) by (unfold th, a, phase_at; rewrite plus_INR; cbn [INR]; field; exact Hsr).
  assert (X1 : x (b + 1)%nat = x b * cos a + sin a * (B * cos th - A * sin th)) by (unfold x; rewrite Et; fold th; rewrite cos_plus, sin_plus; ring).
  assert (X0 : x b * x b + (B * cos th - A * sin th) * (B * cos th - A * sin th) = A * A + B * B).
  { unfold x. fold th. pose proof (sin2_cos2 th) as Q. unfold Rsqr in Q. transitivity ((A * A + B * B) * (sin th * sin th + cos th * cos th)); [ring|]. rewrite Q. ring. }
  assert (0 < x b * x b + x (b + 1)%nat * x (b + 1)%nat); [|lra].
  pose proof (Rle_0_sqr (x b)) as S0. pose proof (Rle_0_sqr (x (b + 1)%nat)) as S1. unfold Rsqr in S0, S1.
  destruct (Req_dec (x b) 0) as [C|C]; [|assert (0 < x b * x b) by (apply Rsqr_pos_lt; exact C); lra].
  rewrite X1, C in S1 |- *. rewrite C in X0. set (y := B * cos th - A * sin th) in *.
  assert (Q : 0 < sin a * sin a) by (apply Rsqr_pos_lt; exact Ha). replace (0 * 0 + (0 * cos a + sin a * y) * (0 * cos a + sin a * y)) with ((sin a * sin a) * (0 * 0 + y * y)) by ring. rewrite X0. apply Rmult_lt_0_compat; assumption.
Qed.

Lemma own_positive sr n fc second k : (1 <= sr)%nat -> (2 <= n)%nat -> ~ (exists z : Z, 2 * fc = IZR z * INR sr) -> 0 < own_energy sr n fc second k.
Proof.
  intros Hr Hn Hz. unfold own_energy. destruct second.
  - rewrite (Rsum_n_ext n _ (fun j => (0 * cos (phase_at sr fc (k * n + j)) + -1 * sin (phase_at sr fc (k * n + j))) * (0 * cos (phase_at sr fc (k * n + j)) + -1 * sin (phase_at sr fc (k * n + j))))) by (intros; unfold own_carrier; ring).
    apply (tone_energy_positive 0 (-1) sr n fc k); try assumption. lra.
  - rewrite (Rsum_n_ext n _ (fun j => (1 * cos (phase_at sr fc (k * n + j)) + 0 * sin (phase_at sr fc (k * n + j))) * (1 * cos (phase_at sr fc (k * n + j)) + 0 * sin (phase_at sr fc (k * n + j))))) by (intros; unfold own_carrier; ring).
    apply (tone_energy_positive 1 0 sr n fc k); try assumption. lra.
Qed.

Lemma agree_cases data k : agree data k = 1 \/ agree data k = -1.
Proof. unfold agree. destruct (Bool.eqb _ _); auto. Qed.

Lemma pair_energy data sr n fc k : INR n - 2 * agree data k * leak sr n fc k =
  Rsum_n n (fun j => (1 * cos (phase_at sr fc (k * n + j)) + - agree data k * sin (phase_at sr fc (k * n + j))) * (1 * cos (phase_at sr fc (k * n + j)) + - agree data k * sin (phase_at sr fc (k * n + j)))).
Proof.
  rewrite (Rsum_n_ext n (fun j => (1 * _ + _) * _) (fun j => 1 + - (2 * agree data k) * (sin (phase_at sr fc (k * n + j)) * cos (phase_at sr fc (k * n + j))))).
  - rewrite Rsum_n_plus, Rsum_n_scale, Rsum_n_const. unfold leak. ring.
  - intros j _. set (p := phase_at sr fc (k * n + j)). pose proof (sin2_cos2 p) as Q. unfold Rsqr in Q. destruct (agree_cases data k) as [-> | ->]; lra.
Qed.

Lemma pair_positive data sr n fc k : (1 <= sr)%nat -> (2 <= n)%nat -> ~ (exists z : Z, 2 * fc = IZR z * INR sr) -> 0 < INR n - 2 * agree data k * leak sr n fc k.
Proof.
  intros Hr Hn Hz. rewrite pair_energy. apply (tone_energy_positive 1 (- agree data k) sr n fc k); try assumption. destruct (agree_cases data k) as [-> | ->]; lra.
Qed.

Lemma qpsk_average data sr sy fc it tx : tx_qpsk_signal (of_list data) sr sy fc = Ret it -> yields it tx -> (1 <= sy <= sr)%nat ->
  energy_per_bit tx (length data) = qpsk_energy data sr (sr / sy) fc /\ length tx = (length data / 2 * (sr / sy))%nat.
Proof.
  intros Et Y Hr. set (n := (sr / sy)%nat). assert (Hn : (1 <= n)%nat) by (unfold n; apply Nat.div_le_lower_bound; lia).
  destruct (tx_qpsk_inv (of_list data) sr sy fc ltac:(lia) Hn) as (it' & Et' & Yt). rewrite Et in Et'. injection Et' as <-.
  specialize (Yt data (of_list_yields data)). unfold qpsk_wave in Yt. rewrite (pairs_length (length data) data eq_refl) in Yt. fold n in Yt. rewrite (yields_det _ _ _ Y Yt). clear Yt Y.
  split; [|apply tab_length]. unfold energy_per_bit, qpsk_energy. f_equal.
  match goal with |- fold_right Rplus 0 (map _ ?w) = _ => change (sumsq w = Rsum_n (length data / 2) (fun k => INR n - 2 * agree data k * leak sr n fc k)) end.
  rewrite sumsq_sum, tab_length, Rsum_n_mul. apply Rsum_n_ext. intros k Hk. rewrite pair_energy. apply Rsum_n_ext. intros j Hj. rewrite !tab_nth by nia. rewrite block_div by exact Hj.
  pose proof (Nat.mul_div_le (length data) 2 ltac:(lia)) as M2.
  destruct (nth_error data (2 * k)) as [b1|] eqn:E1; [|apply nth_error_None in E1; lia].
  destruct (nth_error data (2 * k + 1)) as [b2|] eqn:E2; [|apply nth_error_None in E2; lia].
  rewrite (nth_error_nth (pairs data) k (false, false) (pairs_nth (length data) data k b1 b2 eq_refl E1 E2)).
  unfold agree. rewrite (nth_error_nth _ _ false E1), (nth_error_nth _ _ false E2). unfold ccos, csin. rewrite !phase_R, !nrz_R. fold (phase_at sr fc (k * n + j)). cbn [nmul nadd nopp ncos nsin NumR]. destruct b1, b2; cbn [Bool.eqb]; ring.
Qed.

(** Which bits noise of deviation sigma takes. *)
Lemma qpsk_bits_taken data sr sy fc it (tx : list R) (w : nat -> R) sigma : let n := (sr / sy)%nat in
  let u second i := own_carrier sr fc second i / sqrt (own_energy sr n fc second (i / n)) in
  tx_qpsk_signal (of_list data) sr sy fc = Ret it -> length tx = (length data / 2 * n)%nat -> Nat.even (length data) = true ->
  (1 <= sy)%nat -> (2 * sy <= sr)%nat -> ~ (exists z : Z, 2 * fc = IZR z * INR sr) -> 0 < sigma ->
  exists r out, rx_qpsk_signal (noisy it (map (fun i => sigma * w i) (seq 0 (length tx)))) sr sy fc = Ret r /\ yields r out /\ length out = length data /\
    forall i b, nth_error data i = Some b -> (nth_error out i = Some b <->
      ~ carried' (nth i data false) (Rsum_n n (fun j => w (i / 2 * n + j)%nat * u (Nat.odd i) (i / 2 * n + j)%nat))
          (margin data sr n fc i / (sigma * sqrt (own_energy sr n fc (Nat.odd i) (i / 2))))).
Proof.
  intros n u Et L Ev Hy Hle Hz Ps. assert (Hn : (2 <= n)%nat) by (unfold n; apply Nat.div_le_lower_bound; lia).
  assert (HK : exists K, length data = (2 * K)%nat) by (apply Nat.even_spec in Ev; destruct Ev as [K E]; exists K; lia).
  destruct HK as [K HK]. assert (DK : (length data / 2 = K)%nat) by (rewrite HK, (Nat.mul_comm 2 K); apply Nat.div_mul; lia).
  destruct (C78_qpsk_noise_exact (of_list data) data sr sy fc (map (fun i => sigma * w i) (seq 0 (length tx))) (of_list_yields data) ltac:(lia)) as (it' & r & out & Et' & Er & Yr & Lo & D).
  { rewrite map_length, seq_length. exact L. }
  rewrite Et in Et'. injection Et' as <-.
  exists r, out. split; [exact Er|]. split; [exact Yr|]. split; [rewrite Lo; lia|].
  intros i b Hb. assert (Hi : (i < 2 * K)%nat) by (rewrite <- HK; apply nth_error_Some; congruence).
  rewrite (nth_error_nth _ _ false Hb). destruct (even_odd i K Hi) as (k & Hk & Eik).
  destruct (nth_error data (2 * k)) as [b1|] eqn:E1; [|apply nth_error_None in E1; lia].
  destruct (nth_error data (2 * k + 1)) as [b2|] eqn:E2; [|apply nth_error_None in E2; lia].
  specialize (D k b1 b2 E1 E2). cbv beta zeta in D. fold n in D.
  assert (HS : forall second, exists c, 0 < c /\ sigma * Rsum_n n (fun j => w (k * n + j)%nat * own_carrier sr fc second (k * n + j)) = c * Rsum_n n (fun j => w (k * n + j)%nat * u second (k * n + j)%nat) /\
    forall x, x = c * (x / (sigma * sqrt (own_energy sr n fc second k)))).
  { intros second. pose proof (own_positive sr n fc second k ltac:(lia) Hn Hz) as PE. pose proof (sqrt_lt_R0 _ PE) as R0. exists (sigma * sqrt (own_energy sr n fc second k)).
    split; [apply Rmult_lt_0_compat; assumption|]. split; [|intros x; field; lra]. rewrite <- !Rsum_n_scale. apply Rsum_n_ext. intros j Hj. unfold u. rewrite block_div by exact Hj. field. lra. }
  assert (NT : forall f, Rsum_n n (fun j => nth (k * n + j) (map (fun i => sigma * w i) (seq 0 (length tx))) 0 * f (k * n + j)%nat) = sigma * Rsum_n n (fun j => w (k * n + j)%nat * f (k * n + j)%nat)).
  { intros f. rewrite <- Rsum_n_scale. apply Rsum_n_ext. intros j Hj. change (map (fun i => sigma * w i) (seq 0 (length tx))) with (tab (length tx) (fun i => sigma * w i)). rewrite tab_nth by (rewrite L, DK; nia). ring. }
  change (fun j => sin (2 * PI * fc * (INR (k * n + j) / INR sr)) * cos (2 * PI * fc * (INR (k * n + j) / INR sr))) with (fun j => sin (phase_at sr fc (k * n + j)) * cos (phase_at sr fc (k * n + j))) in D.
  fold (leak sr n fc k) in D.
  rewrite (NT (fun i => cos (2 * PI * fc * (INR i / INR sr)))), (NT (fun i => sin (2 * PI * fc * (INR i / INR sr)))) in D.
  assert (Ag : agree data k = if Bool.eqb b1 b2 then 1 else -1) by (unfold agree; rewrite (nth_error_nth _ _ false E1), (nth_error_nth _ _ false E2); reflexivity).
  destruct D as [D1 D2]. unfold margin.
  destruct Eik as [-> | ->].
  - assert (b1 = b) as -> by congruence.
    replace (2 * k / 2)%nat with k by (rewrite (Nat.mul_comm 2 k), Nat.div_mul; lia). replace (Nat.odd (2 * k)) with false by (rewrite Nat.odd_mul; reflexivity).
    destruct (HS false) as (c & Pc & F1 & F2). change (fun j => w (k * n + j)%nat * own_carrier sr fc false (k * n + j)) with (fun j => w (k * n + j)%nat * cos (2 * PI * fc * (INR (k * n + j) / INR sr))) in F1.
    rewrite F1 in D1. rewrite D1. change (Rsum_n n (fun j => cos (2 * PI * fc * (INR (k * n + j) / INR sr)) * cos (2 * PI * fc * (INR (k * n + j) / INR sr)))) with (own_energy sr n fc false k).
    specialize (F2 (own_energy sr n fc false k - agree data k * leak sr n fc k)). unfold carried'. rewrite Ag in F2 |- *.
    set (g := Rsum_n n _) in *. set (t := _ / (sigma * _)) in *. set (E := own_energy _ _ _ _ _) in *. set (l := leak _ _ _ _) in *. clearbody g t E l. clear - Pc F2.
    destruct b, b2; cbn [Bool.eqb] in F2; split; intros X; nra.
  - assert (b2 = b) as -> by congruence.
    replace ((2 * k + 1) / 2)%nat with k by (rewrite Nat.add_comm, (Nat.mul_comm 2 k), Nat.div_add by lia; reflexivity).
    replace (Nat.odd (2 * k + 1)) with true by (rewrite Nat.odd_add, Nat.odd_mul; reflexivity).
    destruct (HS true) as (c & Pc & F1 & F2).
    assert (F3 : sigma * Rsum_n n (fun j => w (k * n + j)%nat * sin (2 * PI * fc * (INR (k * n + j) / INR sr))) = - (sigma * Rsum_n n (fun j => w (k * n + j)%nat * own_carrier sr fc true (k * n + j)))).
    { rewrite Ropp_mult_distr_r, <- (Rmult_1_l (Rsum_n n (fun j => w (k * n + j)%nat * own_carrier _ _ _ _))), Ropp_mult_distr_l, <- (Rsum_n_scale n (- (1))). f_equal. apply Rsum_n_ext. intros j _. unfold own_carrier. fold (phase_at sr fc (k * n + j)). ring. }
    rewrite F3, F1 in D2. rewrite D2.
    replace (Rsum_n n (fun j => sin (2 * PI * fc * (INR (k * n + j) / INR sr)) * sin (2 * PI * fc * (INR (k * n + j) / INR sr)))) with (own_energy sr n fc true k)
      by (apply Rsum_n_ext; intros j _; unfold own_carrier; fold (phase_at sr fc (k * n + j)); ring).
    specialize (F2 (own_energy sr n fc true k - agree data k * leak sr n fc k)). unfold carried'. rewrite Ag in F2 |- *.
    set (g := Rsum_n n _) in *. set (t := _ / (sigma * _)) in *. set (E := own_energy _ _ _ _ _) in *. set (l := leak _ _ _ _) in *. clearbody g t E l. clear - Pc F2.
    destruct b, b1; cbn [Bool.eqb] in F2; split; intros X; nra.
Qed.

Lemma carrier_unit sr n fc second k : 0 < own_energy sr n fc second k ->
  let u i := own_carrier sr fc second i / sqrt (own_energy sr n fc second (i / n)) in
  Rsum_n n (fun j => u (k * n + j)%nat * u (k * n + j)%nat) = 1.
Proof.
  intros PE u. pose proof (sqrt_lt_R0 _ PE) as R0. pose proof (sqrt_sqrt _ (Rlt_le _ _ PE)) as S.
  rewrite (Rsum_n_ext n _ (fun j => / own_energy sr n fc second k * (own_carrier sr fc second (k * n + j) * own_carrier sr fc second (k * n + j)))).
  - rewrite Rsum_n_scale. fold (own_energy sr n fc second k). field. lra.
  - intros j Hj. unfold u. rewrite block_div by exact Hj. rewrite <- S at 3. field. lra.
Qed.

(** ** The mean rate *)

Lemma Qt_at H t : error_function H -> NormalMean.Qt t = / 2 * (1 - H (t / sqrt 2)).
Proof. intros HH. rewrite NormalMean.Qt_erf, (ErfGauss.erf_unique H HH). reflexivity. Qed.

(** What is claimed of a rate measured on the bits [data]: [ratio] is the effective signal-to-noise ratio. *)
Definition qpsk_law (H : R -> R) (data : list bool) (sample_rate sps : nat) (fc ratio : R) (rate : list R -> R) : Prop :=
  let eb := qpsk_energy data sample_rate sps fc in
  normal_mean (length data / 2 * sps) rate
    (Rsum_n (length data) (fun i => / 2 * (1 - H (margin data sample_rate sps fc i / sqrt (own_energy sample_rate sps fc (Nat.odd i) (i / 2) * (eb / ratio))))) / INR (length data)).

Lemma qpsk_energy_positive data sr n fc : data <> [] -> Nat.even (length data) = true -> (1 <= sr)%nat -> (2 <= n)%nat -> ~ (exists z : Z, 2 * fc = IZR z * INR sr) -> 0 < qpsk_energy data sr n fc.
Proof.
  intros Hd Ev Hr Hn Hz. unfold qpsk_energy. apply Rdiv_lt_0_compat; [|apply lt_0_INR; destruct data; [contradiction|cbn; lia]].
  apply Nat.even_spec in Ev. destruct Ev as [K E]. rewrite E, (Nat.mul_comm 2 K), Nat.div_mul by lia. destruct K as [|K]; [destruct data; [contradiction|discriminate]|].
  cbn [Rsum_n]. assert (P : forall k, 0 < INR n - 2 * agree data k * leak sr n fc k) by (intros k; apply pair_positive; assumption).
  pose proof (Rsum_n_nonneg K (fun k => INR n - 2 * agree data k * leak sr n fc k) ltac:(intros; left; apply P)). specialize (P K). lra.
Qed.

Lemma qpsk_blocks H data sr n fc sigma ratio : let u second i := own_carrier sr fc second i / sqrt (own_energy sr n fc second (i / n)) in
  error_function H -> data <> [] -> Nat.even (length data) = true -> (1 <= sr)%nat -> (2 <= n)%nat -> ~ (exists z : Z, 2 * fc = IZR z * INR sr) -> 0 < sigma -> 0 < ratio ->
  2 * (sigma * sigma) = qpsk_energy data sr n fc / ratio ->
  qpsk_law H data sr n fc ratio (fun z => Rsum_n (length data) (fun i => bit_hit true (nth i data false) (i / 2 * n) n (u (Nat.odd i)) (margin data sr n fc i / (sigma * sqrt (own_energy sr n fc (Nat.odd i) (i / 2)))) z) / INR (length data)).
Proof.
  intros u HH Hd Ev Hr Hn Hz Ps Hs Es. unfold qpsk_law. apply mean_scale.
  apply (mean_sum _ _ (fun i => bit_hit true (nth i data false) (i / 2 * n) n (u (Nat.odd i)) (margin data sr n fc i / (sigma * sqrt (own_energy sr n fc (Nat.odd i) (i / 2)))))). intros i Hi.
  pose proof (own_positive sr n fc (Nat.odd i) (i / 2) Hr Hn Hz) as PE. pose proof (sqrt_lt_R0 _ PE) as R0. assert (R2 : 0 < sqrt 2) by (apply sqrt_lt_R0; lra).
  replace (/ 2 * _) with (NormalMean.Qt (margin data sr n fc i / (sigma * sqrt (own_energy sr n fc (Nat.odd i) (i / 2))))).
  - apply bit_mean.
    + assert (i / 2 < length data / 2)%nat; [|nia]. apply Nat.even_spec in Ev. destruct Ev as [K E]. rewrite E, (Nat.mul_comm 2 K), Nat.div_mul by lia. apply Nat.div_lt_upper_bound; lia.
    + apply (carrier_unit sr n fc (Nat.odd i) (i / 2) PE).
  - rewrite (Qt_at H _ HH). do 3 f_equal. rewrite <- Es, sqrt_mult by nra. rewrite (sqrt_mult 2) by nra. rewrite sqrt_square by lra. field. lra.
Qed.

(** tests/ber.rs:66-92 for any carrier that does not meet all its zeros: bit i is lost at the rate of its margin, which depends on the other bit of its pair. *)
Theorem C113_qpsk :
  forall H (fuel : nat) (data : list bool) (sample_rate symbol_rate : nat) (fc : R) it (tx : list R) (noise : list R -> R -> Iter R) (snr : R),
    let sps := (sample_rate / symbol_rate)%nat in
    error_function H -> data <> [] -> Nat.even (length data) = true -> (length data < fuel)%nat -> (1 <= symbol_rate)%nat -> (2 * symbol_rate <= sample_rate)%nat ->
    tx_qpsk_signal (of_list data) sample_rate symbol_rate fc = Ret it -> yields it tx ->
    ~ (exists z : Z, 2 * fc = IZR z * INR sample_rate) -> made_of noise -> 0 < snr ->
    exists rate : list R -> R,
      (forall z, calculate_bers identity fuel data tx (fun signal => rx_qpsk_signal signal sample_rate symbol_rate fc) (fun _ => noise z) [snr] = Ret [rate z]) /\
      qpsk_law H data sample_rate sps fc snr rate.
Proof.
  intros H fuel data sr sy fc it tx noise snr n HH Hd Ev Hf Hy Hle Et Y Hz Mn Hs.
  destruct (qpsk_average data sr sy fc it tx Et Y ltac:(lia)) as [Eb L]. fold n in Eb, L.
  assert (Hn : (2 <= n)%nat) by (unfold n; apply Nat.div_le_lower_bound; lia).
  pose proof (qpsk_energy_positive data sr n fc Hd Ev ltac:(lia) Hn Hz) as Pa. set (a := qpsk_energy data sr n fc) in *.
  assert (Th : 0 < harness_deviation tx (length data) snr /\ 2 * (harness_deviation tx (length data) snr * harness_deviation tx (length data) snr) = a / snr).
  { unfold harness_deviation. rewrite Eb. assert (P : 0 < 2 * a / snr) by (apply Rdiv_lt_0_compat; lra). pose proof (sqrt_lt_R0 _ P) as P2. pose proof (sqrt_sqrt _ (Rlt_le _ _ P)) as S. split; [lra|].
    replace (2 * (sqrt (2 * a / snr) / 2 * (sqrt (2 * a / snr) / 2))) with (sqrt (2 * a / snr) * sqrt (2 * a / snr) / 2) by field. rewrite S. field. lra. }
  destruct Th as [Pd Ed]. set (sigma := harness_deviation tx (length data) snr) in *.
  pose proof (qpsk_blocks H data sr n fc sigma snr HH Hd Ev ltac:(lia) Hn Hz Pd Hs Ed) as B. cbv zeta beta in B.
  match type of B with qpsk_law _ _ _ _ _ _ ?r => exists r end. split; [|exact B].
  intros z. destruct (bers_R fuel data tx it (fun signal => rx_qpsk_signal signal sr sy fc) (fun _ => noise z) (fun _ i => sigma * nth i z 0) [snr]
    (fun _ i => carried' (nth i data false) (Rsum_n n (fun j => nth (i / 2 * n + j) z 0 * (own_carrier sr fc (Nat.odd i) (i / 2 * n + j) / sqrt (own_energy sr n fc (Nat.odd i) ((i / 2 * n + j) / n)))))
       (margin data sr n fc i / (sigma * sqrt (own_energy sr n fc (Nat.odd i) (i / 2))))) Hf Y) as (bers & E & F).
  { intros x [<-|[]]. fold sigma. split; [apply Mn|].
    split; [apply (rx_qpsk_same sr sy fc _ (length data / 2)); [lia|fold n; lia|]; unfold disturbed; rewrite map_length; etransitivity; [apply zip_stream_length|exact L]|].
    destruct (qpsk_bits_taken data sr sy fc it tx (fun i => nth i z 0) sigma Et L Ev Hy Hle Hz Pd) as (r & out & Er & Yr & Lo & D). exists r, out.
    split; [exact Er|]. split; [exact Yr|]. split; [exact Lo|]. split; [|intros; apply carried_dec']. intros k b Hb. apply (D k b Hb). }
  rewrite E. f_equal. inversion F as [|? b ? bs F1 F2]; subst. inversion F2; subst. f_equal. apply (fraction_sum _ _ _ _ F1). intros k Hk. apply hits_carried'.
Qed.

(** ** The Python scripts, whose 9001 bits leave one over *)

Lemma pairs_last K : forall l (x : bool), length l = (2 * K)%nat -> pairs (l ++ [x]) = pairs l.
Proof.
  induction K as [|K IH]; intros l x L; [destruct l; [reflexivity|discriminate]|]. destruct l as [|a [|b l]]; try (cbn in L; lia). cbn [app pairs]. f_equal. apply IH. cbn in L. lia.
Qed.

(** The bits that are sent. *)
Definition sent (data : list bool) : list bool := firstn (2 * (length data / 2)) data.
Lemma sent_pairs data : pairs (sent data) = pairs data /\ length (sent data) = (2 * (length data / 2))%nat.
Proof.
  pose proof (Nat.div_mod_eq (length data) 2) as D. pose proof (Nat.mod_upper_bound (length data) 2 ltac:(lia)) as M.
  assert (L : length (sent data) = (2 * (length data / 2))%nat) by (unfold sent; rewrite firstn_length; lia). split; [|exact L].
  pose proof (firstn_skipn (2 * (length data / 2)) data) as S. fold (sent data) in S. pose proof (skipn_length (2 * (length data / 2)) data) as SL. set (q := (length data / 2)%nat) in *.
  destruct (skipn (2 * q) data) as [|x [|y r]]; [rewrite app_nil_r in S; rewrite S; reflexivity| |cbn [length] in SL; lia]. pose proof (pairs_last q (sent data) x L) as P. rewrite S in P. symmetry. exact P.
Qed.

(** kom_py/ber.py:49-62 for any message of two bits or more: the rate over the bits that are sent, at the ratio scaled by symbol_rate^2 / sample_rate and,
    because the energy is divided by all the bits, by their number over that of the bits sent. *)
Theorem C113_python :
  forall H (data : list bool) (sample_rate symbol_rate : nat) (fc : R) it (tx : list R) (noise : list R -> R -> Iter R) (snr : R),
    let sps := (sample_rate / symbol_rate)%nat in
    error_function H -> (2 <= length data)%nat -> (1 <= symbol_rate)%nat -> (2 * symbol_rate <= sample_rate)%nat ->
    tx_qpsk_signal (of_list data) sample_rate symbol_rate fc = Ret it -> yields it tx ->
    ~ (exists z : Z, 2 * fc = IZR z * INR sample_rate) -> made_of noise -> 0 < snr ->
    exists rate : list R -> R,
      (forall z, returns (fun fuel => kom_calc_ber unchanged fuel sample_rate symbol_rate (fun _ => noise z) data tx
                             (fun signal => py_rx_qpsk signal sample_rate symbol_rate fc fuel) [snr]) [rate z]) /\
      qpsk_law H (sent data) sample_rate sps fc (snr * (INR symbol_rate * INR symbol_rate / INR sample_rate) * (INR (length data) / INR (2 * (length data / 2)))) rate.
Proof.
  intros H data0 sr sy fc it0 tx noise snr n HH H2 Hy Hle Et0 Y0 Hz Mn Hs. destruct (sent_pairs data0) as [Sp Sl].
  set (data := sent data0) in *. set (N := length data0) in *. assert (HN : (1 <= N / 2)%nat) by (apply Nat.div_le_lower_bound; lia).
  assert (Hn : (2 <= n)%nat) by (unfold n; apply Nat.div_le_lower_bound; lia).
  assert (HS : exists it, tx_qpsk_signal (of_list data) sr sy fc = Ret it /\ yields it tx).
  { destruct (tx_qpsk_inv (of_list data) sr sy fc ltac:(lia) ltac:(fold n; lia)) as (it & Et & Y). exists it. split; [exact Et|]. specialize (Y data (of_list_yields data)).
    destruct (tx_qpsk_inv (of_list data0) sr sy fc ltac:(lia) ltac:(fold n; lia)) as (it' & Et' & Y'). rewrite Et0 in Et'. injection Et' as <-. specialize (Y' data0 (of_list_yields data0)).
    rewrite (yields_det _ _ _ Y0 Y'). unfold qpsk_wave in *. rewrite Sp in Y. exact Y. }
  destruct HS as (it & Et & Y). assert (Hd : data <> []) by (intros E; rewrite E in Sl; cbn [length] in Sl; lia).
  assert (Ev : Nat.even (length data) = true) by (rewrite Sl; apply Nat.even_spec; exists (N / 2)%nat; reflexivity).
  destruct (qpsk_average data sr sy fc it tx Et Y ltac:(lia)) as [Eb L]. fold n in Eb, L.
  pose proof (qpsk_energy_positive data sr n fc Hd Ev ltac:(lia) Hn Hz) as Pa. set (a := qpsk_energy data sr n fc) in *.
  assert (Py : 0 < INR sy) by (apply lt_0_INR; lia). assert (Pr : 0 < INR sr) by (apply lt_0_INR; lia). assert (PN : 0 < INR N) by (apply lt_0_INR; unfold N; lia).
  assert (PK : 0 < INR (2 * (N / 2))) by (apply lt_0_INR; lia).
  set (c := INR sy * INR sy / INR sr). assert (Pc : 0 < c) by (apply Rdiv_lt_0_compat; [apply Rmult_lt_0_compat|]; assumption).
  set (o := INR N / INR (2 * (N / 2))). assert (Po : 0 < o) by (apply Rdiv_lt_0_compat; assumption).
  assert (Eo : energy_per_bit tx N = a / o).
  { rewrite <- Eb. unfold o, energy_per_bit. rewrite Sl. field. lra. }
  set (sigma := sqrt (INR sr * (a / o) / (2 * snr)) / INR sy).
  assert (Lv : kom_noise_levels unchanged sr sy data0 tx [snr] = Ret [sigma]).
  { unfold kom_noise_levels. destruct (Nat.eqb_spec (length data0) 0) as [E|_]; [lia|]. cbn [map]. f_equal. f_equal.
    unfold unchanged, sigma. rewrite <- Eo. unfold energy_per_bit. rewrite <- nsum_squares. unfold nsum, nofnat. cbn [ndiv nmul nsqrt nofZ nsum0 NumR]. rewrite <- !INR_IZR_INZ. reflexivity. }
  assert (P : 0 < INR sr * (a / o) / (2 * snr)) by (apply Rdiv_lt_0_compat; [apply Rmult_lt_0_compat; [assumption|apply Rdiv_lt_0_compat; assumption]|lra]).
  assert (Pd : 0 < sigma) by (unfold sigma; apply Rdiv_lt_0_compat; [apply sqrt_lt_R0; exact P|exact Py]).
  assert (Ed : 2 * (sigma * sigma) = a / (snr * c * o)).
  { pose proof (sqrt_sqrt _ (Rlt_le _ _ P)) as S. unfold sigma. set (q := sqrt (INR sr * (a / o) / (2 * snr))) in *. replace (2 * (q / INR sy * (q / INR sy))) with (2 * (q * q) / (INR sy * INR sy)) by (field; lra). rewrite S. unfold c. field. lra. }
  clearbody sigma. pose proof (qpsk_blocks H data sr n fc sigma (snr * c * o) HH Hd Ev ltac:(lia) Hn Hz Pd ltac:(apply Rmult_lt_0_compat; [apply Rmult_lt_0_compat|]; assumption) Ed) as B. cbv zeta beta in B.
  match type of B with qpsk_law _ _ _ _ _ _ ?r => set (rate := r) in B; exists rate end. split; [|exact B].
  intros z. destruct (qpsk_bits_taken data sr sy fc it tx (fun i => nth i z 0) sigma Et L Ev Hy Hle Hz Pd) as (r & out & Er & Yr & Lo & D). fold n in D.
  destruct (rx_qpsk_same sr sy fc (disturbed nadd tx (fun j => sigma * nth j z 0)) (length data / 2) ltac:(lia) ltac:(fold n; lia)
    ltac:(unfold disturbed; rewrite map_length; etransitivity; [apply zip_stream_length|exact L]) (noisy it (map (fun j => sigma * nth j z 0) (seq 0 (length tx))))
    (of_list (disturbed nadd tx (fun j => sigma * nth j z 0))) r out) as (r' & Er' & Yr').
  { unfold noisy, disturbed. apply imap_yields. apply izip_yields; [exact Y|apply of_list_yields]. }
  { apply of_list_yields. }
  { exact Er. }
  { exact Yr. }
  assert (Er2 : rate z = INR (errors out data) / INR (length data)).
  { symmetry. apply (fraction_sum (length data) (fun i => carried' (nth i data false) (Rsum_n n (fun j => nth (i / 2 * n + j) z 0 * (own_carrier sr fc (Nat.odd i) (i / 2 * n + j) / sqrt (own_energy sr n fc (Nat.odd i) ((i / 2 * n + j) / n)))))
       (margin data sr n fc i / (sigma * sqrt (own_energy sr n fc (Nat.odd i) (i / 2)))))).
    - apply lost_of_errors; [exact Lo| |intros; apply carried_dec']. intros k b Hb. apply (D k b Hb).
    - intros k Hk. apply hits_carried'. }
  assert (Ek : kom_ber data0 out = kom_ber (T := R) data out).
  { pose proof (Nat.mul_div_le N 2 ltac:(lia)) as M2. unfold kom_ber. fold N. rewrite Lo, Sl, Nat.min_id, (Nat.min_r N) by lia. rewrite (combine_firstn_r data0 out), Lo, Sl. fold (sent data0). fold data. reflexivity. }
  eapply returns_eq; [intros fuel; unfold kom_calc_ber; rewrite Lv; cbn [bind]; unfold index_from; cbn [length seq combine]; rewrite push_rows_cons; reflexivity|].
  cbv beta iota. eapply returns_bind with (a := rate z); [|exists 0%nat; intros; reflexivity].
  unfold kom_get_ber, awgn, normal_new, assert_then. cbn [nfinite NumR bind].
  eapply returns_bind with (a := disturbed nadd tx (fun j => sigma * nth j z 0)).
  { exists (S (length tx)). intros fuel Hfu. apply collect_yields.
    - apply imap_yields. apply (izip_stream_yields _ _ _ _ (of_list_yields tx) (Mn z sigma)).
    - unfold disturbed. rewrite map_length, combine_length, map_length, seq_length. lia. }
  cbn beta. eapply returns_bind with (a := out).
  { exists (S (length out)). intros fuel Hfu. unfold py_rx_qpsk, py_collect. rewrite Er'. cbn [bind]. apply collect_yields; [exact Yr'|lia]. }
  rewrite Ek, kom_ber_R by assumption. rewrite Er2. apply returns_now.
Qed.

(** ** How far the mean is from the textbook rate *)

Lemma own_sum sr n fc k : own_energy sr n fc false k + own_energy sr n fc true k = INR n.
Proof.
  unfold own_energy. rewrite <- Rsum_n_plus. rewrite (Rsum_n_ext n _ (fun _ => 1)); [rewrite Rsum_n_const; ring|].
  intros j _. unfold own_carrier. set (p := phase_at sr fc (k * n + j)). pose proof (sin2_cos2 p) as Q. unfold Rsqr in Q. lra.
Qed.

Lemma own_near sr n fc second k : (1 <= sr)%nat -> ~ (exists z : Z, 2 * fc = IZR z * INR sr) ->
  Rabs (own_energy sr n fc second k - INR n / 2) <= / (2 * Rabs (sin (2 * PI * fc / INR sr))) /\
  (forall h : Z, 2 * fc * INR n = IZR h * INR sr -> own_energy sr n fc second k = INR n / 2).
Proof.
  intros Hr Hz. destruct (cos_energy_near sr n k fc Hr (sin_carrier sr fc Hr Hz)) as [A B]. cbv zeta beta in A, B.
  change (Rsum_n n (fun j => cos (2 * PI * fc * (INR (k * n + j) / INR sr)) * cos (2 * PI * fc * (INR (k * n + j) / INR sr)))) with (own_energy sr n fc false k) in A, B.
  destruct second; [|split; [exact A|exact B]]. pose proof (own_sum sr n fc k) as S.
  split; [|intros h Hh; specialize (B h Hh); lra].
  replace (own_energy sr n fc true k - INR n / 2) with (- (own_energy sr n fc false k - INR n / 2)) by lra. rewrite Rabs_Ropp. exact A.
Qed.

Lemma root_of_square H ratio r : 0 < ratio -> 0 <= r -> / 2 * (1 - H (sqrt (ratio * (r * r)))) = / 2 * (1 - H (sqrt ratio * r)).
Proof. intros Hr Hp. rewrite sqrt_mult by nra. rewrite sqrt_square by exact Hp. reflexivity. Qed.

Lemma error_decreasing H x y : error_function H -> x <= y -> / 2 * (1 - H y) <= / 2 * (1 - H x).
Proof.
  intros HH Hx. assert (R2 : 0 < sqrt 2) by (apply sqrt_lt_R0; lra).
  replace (H x) with (H (x * sqrt 2 / sqrt 2)) by (f_equal; field; lra). replace (H y) with (H (y * sqrt 2 / sqrt 2)) by (f_equal; field; lra).
  rewrite <- !(Qt_at H _ HH). apply NormalMean.Qt_mono. apply Rmult_le_compat_r; lra.
Qed.

Lemma root_between e a lo hi : 0 < lo -> lo <= e <= hi -> lo <= a <= hi -> lo <= sqrt (e * a) <= hi.
Proof.
  intros Hl He Ha. split.
  - rewrite <- (sqrt_square lo) by lra. apply sqrt_le_1; nra.
  - rewrite <- (sqrt_square hi) by lra. apply sqrt_le_1; nra.
Qed.

(** With a whole number of half periods to a symbol the mean is the textbook rate; with d the most a symbol's energies can be off, and
    2 d < sps / 2, it is between the textbook rates at two multiples of the ratio. *)
Theorem C113_close :
  forall H (data : list bool) (sample_rate sps : nat) (fc ratio : R) (rate : list R -> R),
    let d := / (2 * Rabs (sin (2 * PI * fc / INR sample_rate))) in
    let textbook x := / 2 * (1 - H (sqrt x)) in
    let best := (INR sps / 2 + 2 * d) / (INR sps / 2 - d) in
    let worst := (INR sps / 2 - 2 * d) / (INR sps / 2 + d) in
    error_function H -> data <> [] -> Nat.even (length data) = true -> (1 <= sample_rate)%nat -> (2 <= sps)%nat -> 0 < ratio -> ~ (exists z : Z, 2 * fc = IZR z * INR sample_rate) ->
    qpsk_law H data sample_rate sps fc ratio rate ->
    exists mean, normal_mean (length data / 2 * sps) rate mean /\
      ((exists h : Z, 2 * fc * INR sps = IZR h * INR sample_rate) -> mean = textbook ratio) /\
      (2 * d < INR sps / 2 -> textbook (ratio * (best * best)) <= mean <= textbook (ratio * (worst * worst))).
Proof.
  intros H data sr n fc ratio rate d textbook best worst HH Hd Ev Hr Hn Hs Hz Lw. unfold qpsk_law in Lw. cbv zeta in Lw.
  set (a := qpsk_energy data sr n fc) in *. set (N := length data) in *.
  assert (HN : (0 < N)%nat) by (unfold N; destruct data; [contradiction|cbn; lia]). assert (PN : 0 < INR N) by (apply lt_0_INR; exact HN).
  assert (HK : exists K, N = (2 * K)%nat) by (apply Nat.even_spec in Ev; destruct Ev as [K E]; exists K; exact E). destruct HK as [K HK].
  assert (DK : (N / 2 = K)%nat) by (rewrite HK, (Nat.mul_comm 2 K); apply Nat.div_mul; lia). assert (PK : 0 < INR K) by (apply lt_0_INR; lia).
  assert (NK : INR N = 2 * INR K) by (rewrite HK, mult_INR; reflexivity).
  assert (Pn : 0 < INR n) by (apply lt_0_INR; lia).
  assert (Pd : 0 < d) by (unfold d; apply Rinv_0_lt_compat; pose proof (Rabs_pos_lt _ (sin_carrier sr fc Hr Hz)); lra).
  assert (Lk : forall k, Rabs (leak sr n fc k) <= d) by (intros k; exact (mixed_energy_near sr n k fc Hr (sin_carrier sr fc Hr Hz))).
  assert (Sl : forall k, - d <= agree data k * leak sr n fc k <= d).
  { intros k. specialize (Lk k). apply Flocq.Core.Raux.Rabs_le_inv in Lk. destruct (agree_cases data k) as [-> | ->]; lra. }
  pose proof (qpsk_energy_positive data sr n fc Hd Ev Hr Hn Hz) as Pa. fold a in Pa.
  assert (Ea : a = Rsum_n K (fun k => INR n - 2 * agree data k * leak sr n fc k) / INR N) by (unfold a, qpsk_energy; fold N; rewrite DK; reflexivity).
  eexists. split; [exact Lw|]. clear Lw. split.
  - intros (h & Hh). assert (Eo : forall second k, own_energy sr n fc second k = INR n / 2) by (intros second k; exact (proj2 (own_near sr n fc second k Hr Hz) h Hh)).
    assert (E0 : forall k, leak sr n fc k = 0).
    { intros k. pose proof (sin_carrier sr fc Hr Hz) as Ha. set (al := 2 * PI * fc / INR sr) in *. assert (Hsr : INR sr <> 0) by (apply not_0_INR; lia).
      destruct (sum_whole al (2 * (al * INR (k * n))) n h Ha) as [_ SS].
      { unfold al. replace (2 * (2 * PI * fc / INR sr) * INR n) with (2 * PI * (2 * fc * INR n) / INR sr) by (field; exact Hsr). rewrite Hh. field. exact Hsr. }
      unfold leak. rewrite (Rsum_n_ext n _ (fun j => 1 / 2 * sin (2 * (al * INR (k * n)) + 2 * al * INR j))).
      - rewrite Rsum_n_scale, SS. ring.
      - intros j _. rewrite sin_cos_half. replace (2 * phase_at sr fc (k * n + j)) with (2 * (al * INR (k * n)) + 2 * al * INR j) by (unfold al, phase_at; rewrite plus_INR; field; exact Hsr). lra. }
    assert (En : a = INR n / 2).
    { rewrite Ea, (Rsum_n_ext K _ (fun _ => INR n)) by (intros; rewrite E0; ring). rewrite Rsum_n_const, NK. field. lra. }
    rewrite (Rsum_n_ext N _ (fun _ => textbook ratio)); [rewrite Rsum_n_const; field; lra|]. intros i Hi. unfold textbook. do 3 f_equal.
    unfold margin. rewrite Eo, E0, En. pose proof (sqrt_lt_R0 _ Hs) as R0. pose proof (sqrt_sqrt ratio ltac:(lra)) as S.
    replace (INR n / 2 * (INR n / 2 / ratio)) with ((INR n / 2) * (INR n / 2) / ratio) by (field; lra). rewrite sqrt_div, sqrt_square; [|lra|nra|exact Hs]. field. lra.
  - intros Hb. assert (Ba : INR n / 2 - d <= a <= INR n / 2 + d).
    { assert (B1 : INR K * (INR n - 2 * d) <= Rsum_n K (fun k => INR n - 2 * agree data k * leak sr n fc k)).
      { rewrite <- (Rsum_n_const K (INR n - 2 * d)). apply Rsum_n_le. intros k _. specialize (Sl k). lra. }
      assert (B2 : Rsum_n K (fun k => INR n - 2 * agree data k * leak sr n fc k) <= INR K * (INR n + 2 * d)).
      { rewrite <- (Rsum_n_const K (INR n + 2 * d)). apply Rsum_n_le. intros k _. specialize (Sl k). lra. }
      set (T := Rsum_n K _) in *. assert (ET : T = 2 * INR K * a) by (rewrite Ea, NK; field; lra). clearbody T. rewrite ET in B1, B2. clear - B1 B2 PK. split; nra. }
    assert (P1 : 0 < best) by (unfold best; apply Rdiv_lt_0_compat; lra). assert (P2 : 0 < worst) by (unfold worst; apply Rdiv_lt_0_compat; lra).
    assert (T : forall i, textbook (ratio * (best * best)) <= / 2 * (1 - H (margin data sr n fc i / sqrt (own_energy sr n fc (Nat.odd i) (i / 2) * (a / ratio)))) <= textbook (ratio * (worst * worst))).
    { intros i. unfold textbook. rewrite !root_of_square by lra. pose proof (proj1 (own_near sr n fc (Nat.odd i) (i / 2) Hr Hz)) as No. fold d in No. apply Flocq.Core.Raux.Rabs_le_inv in No. specialize (Sl (i / 2)%nat).
      pose proof (own_positive sr n fc (Nat.odd i) (i / 2) Hr Hn Hz) as PE. unfold margin. set (E := own_energy _ _ _ _ _) in *. set (l := agree _ _ * _) in *. clearbody E l.
      pose proof (sqrt_lt_R0 _ Hs) as R0. destruct (root_between E a (INR n / 2 - d) (INR n / 2 + d) ltac:(lra) ltac:(lra) Ba) as [Q1 Q2].
      replace ((E - l) / sqrt (E * (a / ratio))) with (sqrt ratio * ((E - l) / sqrt (E * a))).
      2:{ replace (E * (a / ratio)) with (E * a / ratio) by (field; lra). rewrite (sqrt_div (E * a) ratio); [|nra|exact Hs]. field. lra. }
      set (q := sqrt (E * a)) in *. clearbody q.
      split; apply (error_decreasing H _ _ HH); (apply Rmult_le_compat_l; [lra|]); unfold best, worst.
      - apply Rle_trans with ((INR n / 2 + 2 * d) / q); unfold Rdiv; [apply Rmult_le_compat_r; [left; apply Rinv_0_lt_compat; lra|lra]|apply Rmult_le_compat_l; [lra|apply Rinv_le_contravar; lra]].
      - apply Rle_trans with ((INR n / 2 - 2 * d) / q); unfold Rdiv; [apply Rmult_le_compat_l; [lra|apply Rinv_le_contravar; lra]|apply Rmult_le_compat_r; [left; apply Rinv_0_lt_compat; lra|lra]]. }
    pose proof (Rsum_n_le N _ _ (fun i _ => proj1 (T i))) as T1. pose proof (Rsum_n_le N _ _ (fun i _ => proj2 (T i))) as T2. cbv beta in T1, T2. rewrite Rsum_n_const in T1, T2. set (X := Rsum_n N _) in *.
    split; (apply Rmult_le_reg_l with (INR N); [exact PN|]); replace (INR N * (X / INR N)) with X by (field; lra); assumption.
Qed.

(** The QPSK curve of kom_py/ber.py and ber_theory.py with their rates and carrier (ber.py:66-68 and 112-118, ber_theory.py:50-53 and 89-100): for every message of a thousand bits
    or more (the scripts send 9001) the mean rate is the textbook one to within 12.5 % of the signal-to-noise ratio. *)
Theorem C113_script :
  forall H (data : list bool) (noise : list R -> R -> Iter R) (snr : R),
    error_function H -> 1000 <= INR (length data) -> made_of noise -> 0 < snr ->
    exists it tx rate mean, tx_qpsk_signal (of_list data) BER_SAMPLE_RATE BER_SYMBOL_RATE (2121 : R) = Ret it /\ yields it tx /\
      (forall z, returns (fun fuel => kom_calc_ber unchanged fuel BER_SAMPLE_RATE BER_SYMBOL_RATE (fun _ => noise z) data tx
                             (fun signal => py_rx_qpsk signal BER_SAMPLE_RATE BER_SYMBOL_RATE 2121 fuel) [snr]) [rate z]) /\
      normal_mean (length tx) rate mean /\ / 2 * (1 - H (sqrt (snr * (1125 / 1000)))) <= mean <= / 2 * (1 - H (sqrt (snr * (875 / 1000)))).
Proof.
  intros H data noise snr HH Hlen Mn Hs.
  assert (Er : INR BER_SAMPLE_RATE = 65536) by (unfold BER_SAMPLE_RATE; rewrite mult_INR, INR_IZR_INZ; change (Z.of_nat 256) with 256%Z; lra).
  assert (Ey : INR BER_SYMBOL_RATE = 256) by (unfold BER_SYMBOL_RATE; rewrite INR_IZR_INZ; reflexivity).
  assert (D : (BER_SAMPLE_RATE / BER_SYMBOL_RATE = 256)%nat) by (unfold BER_SAMPLE_RATE, BER_SYMBOL_RATE; apply Nat.div_mul; lia).
  assert (Hy : (1 <= BER_SYMBOL_RATE)%nat) by (unfold BER_SYMBOL_RATE; lia).
  assert (H2 : (2 * BER_SYMBOL_RATE <= BER_SAMPLE_RATE)%nat) by (unfold BER_SAMPLE_RATE, BER_SYMBOL_RATE; apply Nat.mul_le_mono_r; lia).
  assert (H1 : (1 <= BER_SAMPLE_RATE)%nat) by lia.
  destruct (tx_qpsk_inv (of_list data) BER_SAMPLE_RATE BER_SYMBOL_RATE (2121 : R) ltac:(lia) ltac:(rewrite D; lia)) as (it & E & Y). specialize (Y data (of_list_yields data)). set (tx := qpsk_wave _ _ _ _) in Y. clearbody tx.
  assert (Hz : ~ (exists z : Z, 2 * 2121 = IZR z * INR BER_SAMPLE_RATE)).
  { rewrite Er. intros [z X]. rewrite <- !mult_IZR in X. apply eq_IZR in X. lia. }
  assert (L2 : (2 <= length data)%nat) by (apply INR_le; cbn [INR]; lra). set (N := length data) in *.
  destruct (C113_python H data BER_SAMPLE_RATE BER_SYMBOL_RATE 2121 it tx noise snr HH L2 Hy H2 E Y Hz Mn Hs) as (rate & R1 & R2). fold N in R2.
  destruct (sent_pairs data) as [_ Sl]. fold N in Sl. assert (HK : (1 <= N / 2)%nat) by (apply Nat.div_le_lower_bound; lia).
  assert (Hd : sent data <> []) by (intros X; rewrite X in Sl; cbn [length] in Sl; lia).
  assert (Ev : Nat.even (length (sent data)) = true) by (rewrite Sl; apply Nat.even_spec; exists (N / 2)%nat; reflexivity).
  set (o := INR N / INR (2 * (N / 2))) in *. assert (Bo : 1 <= o <= 1001 / 1000).
  { pose proof (Nat.div_mod_eq N 2) as Dm. pose proof (Nat.mod_upper_bound N 2 ltac:(lia)) as Mm. assert (PK : 0 < INR (2 * (N / 2))) by (apply lt_0_INR; lia).
    assert (A1 : INR (2 * (N / 2)) <= INR N) by (apply le_INR; lia). assert (A2 : INR N <= INR (2 * (N / 2)) + 1) by (rewrite <- S_INR; apply le_INR; lia).
    assert (A3 : 1000 <= INR (2 * (N / 2))).
    { rewrite INR_IZR_INZ in *. apply IZR_le. apply le_IZR in Hlen. lia. }
    assert (Eo : INR N = o * INR (2 * (N / 2))) by (unfold o; field; lra). clearbody o. split; nra. }
  destruct (qpsk_average data BER_SAMPLE_RATE BER_SYMBOL_RATE 2121 it tx E Y ltac:(lia)) as [_ L]. fold N in L.
  rewrite D, Er, Ey in R2. rewrite D in L. replace (snr * (256 * 256 / 65536) * o) with (snr * o) in R2 by field. clearbody o. assert (Hso : 0 < snr * o) by (apply Rmult_lt_0_compat; lra).
  destruct (C113_close H (sent data) BER_SAMPLE_RATE 256 2121 (snr * o) rate HH Hd Ev H1 ltac:(lia) Hso Hz R2) as (mean & M & _ & Cl).
  rewrite Sl in M. replace (2 * (N / 2) / 2)%nat with (N / 2)%nat in M by (rewrite (Nat.mul_comm 2), Nat.div_mul; lia). rewrite <- L in M.
  exists it, tx, rate, mean. repeat (split; [assumption|]).
  assert (E256 : INR 256 = 256) by (rewrite INR_IZR_INZ; reflexivity). rewrite E256, Er in Cl.
  assert (S : 20 / 100 < sin (2 * PI * 2121 / 65536)).
  { set (x := 2 * PI * 2121 / 65536). destruct ErfReal.PI_close as [P3 P4]. assert (X1 : 203 / 1000 < x < 204 / 1000) by (unfold x; lra).
    destruct (sin_bound x 0 ltac:(lra) ltac:(clear - X1 P3; lra)) as [B _]. unfold sin_approx, sin_term in B. cbn [sum_f_R0 Nat.mul Nat.add pow fact] in B.
    assert (B2 : x - x * x * x / 6 <= sin x) by (cbn in B; lra). clearbody x. clear - X1 B2. assert (x * x < 5 / 100) by nra. assert (x * x * x < 5 / 100 * x) by nra. lra. }
  set (s := sin (2 * PI * 2121 / 65536)) in *. rewrite (Rabs_pos_eq s) in Cl by lra. assert (Dd : 0 < / (2 * s) < 25 / 10).
  { split; [apply Rinv_0_lt_compat; lra|]. replace (25 / 10) with (/ (10 / 25)) by field. apply Rinv_lt_contravar; [apply Rmult_lt_0_compat; lra|lra]. }
  set (d := / (2 * s)) in *. clearbody d. clear S. clearbody s. destruct (Cl ltac:(lra)) as [C1 C2].
  set (b := (256 / 2 + 2 * d) / (256 / 2 - d)) in *. set (w := (256 / 2 - 2 * d) / (256 / 2 + d)) in *.
  assert (Bb : 0 < b <= 106 / 100).
  { split; [unfold b; apply Rdiv_lt_0_compat; lra|]. apply Rmult_le_reg_r with (256 / 2 - d); [lra|]. replace (b * (256 / 2 - d)) with (256 / 2 + 2 * d) by (unfold b; field; lra). lra. }
  assert (Bw : 94 / 100 <= w).
  { apply Rmult_le_reg_r with (256 / 2 + d); [lra|]. replace (w * (256 / 2 + d)) with (256 / 2 - 2 * d) by (unfold w; field; lra). lra. }
  clearbody b w. split.
  - eapply Rle_trans; [|exact C1]. apply (increasing_error H _ _ HH). split; [nra|]. rewrite Rmult_assoc. apply Rmult_le_compat_l; [lra|]. assert (b * b <= 11236 / 10000) by nra. assert (0 < b * b) by nra. nra.
  - eapply Rle_trans; [exact C2|]. apply (increasing_error H _ _ HH). split; [nra|]. rewrite Rmult_assoc. apply Rmult_le_compat_l; [lra|]. assert (8836 / 10000 <= w * w) by nra. nra.
Qed.

(** ** A case: two samples to a symbol, six to a period of the carrier.  Of two equal bits the first is received at (5 - sqrt 3)/4 along
    a carrier of energy 5/4, the second at (3 - sqrt 3)/4 along one of energy 3/4, and a bit costs 1 - sqrt 3 / 4. *)
Lemma sixths i : phase_at 6 1 i = PI / 3 * INR i.
Proof. unfold phase_at. cbn [INR]. field. Qed.
Example C113_case : exists H it tx rate, error_function H /\ tx_qpsk_signal (of_list [true; true]) 6 3 (1 : R) = Ret it /\ yields it tx /\
  (forall z, calculate_bers identity 3 [true; true] tx (fun signal => rx_qpsk_signal signal 6 3 1) (fun _ sigma => counting (fun i => sigma * nth i z 0)) [1] = Ret [rate z]) /\
  normal_mean 2 rate ((/ 2 * (1 - H ((5 - sqrt 3) / 4 / sqrt (5 / 4 * (1 - sqrt 3 / 4)))) + / 2 * (1 - H ((3 - sqrt 3) / 4 / sqrt (3 / 4 * (1 - sqrt 3 / 4))))) / 2).
Proof.
  destruct C107_error_function as ((H & HH) & _).
  destruct (tx_qpsk_inv (of_list [true; true]) 6 3 (1 : R) ltac:(lia) ltac:(cbn; lia)) as (it & E & Y). specialize (Y _ (of_list_yields _)). set (tx := qpsk_wave _ _ _ _) in Y.
  assert (Hz : ~ (exists z : Z, 2 * 1 = IZR z * INR 6)) by (intros [z X]; rewrite INR_IZR_INZ in X; change (Z.of_nat 6) with 6%Z in X; rewrite <- !mult_IZR in X; apply eq_IZR in X; lia).
  destruct (C113_qpsk H 3 [true; true] 6 3 1 it tx (fun z sigma => counting (fun i => sigma * nth i z 0)) 1 HH ltac:(discriminate) eq_refl ltac:(cbn; lia) ltac:(lia) ltac:(lia) E Y Hz) as (rate & R1 & R2).
  { intros z sigma. apply counting_streams. } { lra. }
  exists H, it, tx, rate. split; [exact HH|]. split; [exact E|]. split; [exact Y|]. split; [exact R1|].
  unfold qpsk_law in R2. change (6 / 3)%nat with 2%nat in R2. cbn [length] in R2. change (2 / 2)%nat with 1%nat in R2. cbv zeta in R2.
  assert (Lk : leak 6 2 1 0 = sqrt 3 / 4). { unfold leak. cbn [Rsum_n Nat.mul Nat.add]. rewrite !sixths. cbn [INR]. rewrite Rmult_0_r, Rmult_1_r, sin_0, cos_0, cos_PI3, sin_PI3. field. }
  assert (E0 : own_energy 6 2 1 false 0 = 5 / 4). { unfold own_energy, own_carrier. cbn [Rsum_n Nat.mul Nat.add]. rewrite !sixths. cbn [INR]. rewrite Rmult_0_r, Rmult_1_r, cos_0, cos_PI3. field. }
  assert (E1 : own_energy 6 2 1 true 0 = 3 / 4). { pose proof (own_sum 6 2 1 0) as S. rewrite E0 in S. cbn [INR] in S. lra. }
  assert (Eq : qpsk_energy [true; true] 6 2 1 = 1 - sqrt 3 / 4).
  { unfold qpsk_energy. cbn [length]. change (2 / 2)%nat with 1%nat. cbn [Rsum_n]. rewrite Lk. unfold agree. cbn. field. }
  cbn [Rsum_n] in R2. unfold margin in R2. change (0 / 2)%nat with 0%nat in R2. change (1 / 2)%nat with 0%nat in R2. change (Nat.odd 0) with false in R2. change (Nat.odd 1) with true in R2.
  rewrite Lk, E0, E1, Eq in R2. change (agree [true; true] 0) with 1 in R2. cbn [Nat.mul] in R2.
  replace (5 / 4 - 1 * (sqrt 3 / 4)) with ((5 - sqrt 3) / 4) in R2 by field. replace (3 / 4 - 1 * (sqrt 3 / 4)) with ((3 - sqrt 3) / 4) in R2 by field. replace ((1 - sqrt 3 / 4) / 1) with (1 - sqrt 3 / 4) in R2 by field. rewrite Rplus_0_l in R2. exact R2.
Qed.

(** The scripts' number of bits, 9001, is odd; C113_script applies to it. *)
Example C113_script_case : exists (data : list bool) H it tx rate mean, Z.of_nat (length data) = 9001%Z /\ error_function H /\
  tx_qpsk_signal (of_list data) BER_SAMPLE_RATE BER_SYMBOL_RATE (2121 : R) = Ret it /\ yields it tx /\
  (forall z, returns (fun fuel => kom_calc_ber unchanged fuel BER_SAMPLE_RATE BER_SYMBOL_RATE (fun _ sigma => counting (fun i => sigma * nth i z 0)) data tx
                         (fun signal => py_rx_qpsk signal BER_SAMPLE_RATE BER_SYMBOL_RATE 2121 fuel) [2]) [rate z]) /\
  normal_mean (length tx) rate mean /\ / 2 * (1 - H (sqrt (225 / 100))) <= mean <= / 2 * (1 - H (sqrt (175 / 100))).
Proof.
  destruct C107_error_function as ((H & HH) & _). set (n := Z.to_nat 9001). exists (repeat true n), H.
  assert (Ln : Z.of_nat (length (repeat true n)) = 9001%Z) by (rewrite repeat_length; apply Z2Nat.id; lia). generalize dependent (repeat true n). clear n. intros data Ln.
  destruct (C113_script H data (fun z sigma => counting (fun i => sigma * nth i z 0)) 2 HH) as (it & tx & rate & mean & E & Y & R1 & M & B).
  { rewrite INR_IZR_INZ, Ln. lra. } { intros z sigma. apply counting_streams. } { lra. }
  exists it, tx, rate, mean. split; [exact Ln|]. split; [exact HH|]. split; [exact E|]. split; [exact Y|]. split; [exact R1|]. split; [exact M|].
  replace (2 * (1125 / 1000)) with (225 / 100) in B by field. replace (2 * (875 / 1000)) with (175 / 100) in B by field. exact B.
Qed.

(** ** Axioms used *)
Print Assumptions C113_qpsk.
Print Assumptions C113_python.
Print Assumptions C113_close.
Print Assumptions C113_script.
