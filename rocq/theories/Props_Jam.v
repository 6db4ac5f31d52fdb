(** Property C80: noise and jamming on the CDMA links (src/cdma.rs), exact arithmetic and binary64. *)
From Coq Require Import List Arith ZArith Reals Bool Lia Lra Psatz.
From Flocq Require Import Core BinarySingleNaN.
From Verif Require Import Base IterTheory IterModel IterProofs Spec SpecR Tab Num F64Lib LibModel LibFloat LibReal
  ChaosModel ChaosProofs ChaosMod PskModel PskChain PskFloat RSums PskReal FhFloat FloatSum Props_Psk CdmaModel CdmaProofs
  Hadamard Props_Cdma Props_Pass Props_PassF.
Import ListNotations.
Local Open Scope R_scope.

(** ** Exact arithmetic *)

(** Despreading turns the noise into noise times the chips and leaves the rest a plain BPSK link. *)
Lemma cdma_bpsk_reduce (message : Iter bool) m (sr sy : nat) (fc : R) (key : list bool) tx (noise : list R) :
  let sps := (sr / sy)%nat in
  let chip i := if nth ((i / (sps / length key)) mod length key) key false then 1 else -1 in
  yields message m -> tx_cdma_bpsk_signal message sr sy fc key = Ret tx -> length noise = (length m * sps)%nat ->
  exists tx0, tx_bpsk_signal message sr sy fc = Ret tx0 /\ (sy <= sr)%nat /\
    forall rx0 out, rx_bpsk_signal (noisy tx0 (tab (length m * sps) (fun i => nth i noise 0 * chip i))) sr sy fc = Ret rx0 ->
      yields rx0 out -> exists rx, rx_cdma_bpsk_signal (noisy tx noise) sr sy fc key = Ret rx /\ yields rx out.
Proof.
  intros sps chip Hm E HL. unfold tx_cdma_bpsk_signal in E. destruct (cdma_rates sr sy fc key) as [p| |] eqn:Ep; try discriminate.
  destruct (cdma_rates_inv _ _ _ _ _ Ep) as (-> & Hy & Hk & Hr & Hc & _). cbn [bind] in E.
  destruct (tx_bpsk_signal message sr sy fc) as [tx0| |] eqn:Et; try discriminate. cbn [bind] in E. injection E as <-.
  assert (Hle : (sy <= sr)%nat) by (destruct key; [contradiction|cbn in Hr; nia]).
  assert (Hn : (1 <= sr / sy)%nat) by (apply Nat.div_le_lower_bound; lia).
  destruct (tx_bpsk_inv _ _ _ _ _ Et) as (_ & _ & _ & Y). specialize (Y Hn m Hm). unfold bpsk_wave in Y. fold sps in Y, Hc, Hn.
  exists tx0. split; [reflexivity|]. split; [exact Hle|]. intros rx0 out Er0 Yo. fold sps.
  pose proof (chip_mul_yields (sps / length key) key tx0 _ _ ltac:(lia) Hk Y) as Yc.
  pose proof (noisy_yields _ noise _ _ 0 Yc HL) as Yn.
  pose proof (chip_mul_yields (sps / length key) key _ _ _ ltac:(lia) Hk Yn) as Yd.
  pose proof (noisy_yields tx0 (tab (length m * sps) (fun i => nth i noise 0 * chip i)) _ _ 0 Y ltac:(apply tab_length)) as Y0.
  destruct (rx_bpsk_intro (noisy tx0 (tab (length m * sps) (fun i => nth i noise 0 * chip i))) sr sy fc ltac:(lia) Hn) as (rx1 & Er1 & Yr1 & _).
  rewrite Er0 in Er1. injection Er1 as <-.
  destruct (rx_bpsk_intro (chip_mul (sps / length key) key (noisy (chip_mul (sps / length key) key tx0) noise)) sr sy fc ltac:(lia) Hn)
    as (rx & Er & Yr & _). fold sps in Yr, Yr1.
  exists rx. split; [unfold rx_cdma_bpsk_signal; rewrite Ep; exact Er|].
  specialize (Yr _ _ Yd). rewrite (yields_det _ _ _ Yo (Yr1 _ _ Y0)).
  refine (eq_ind _ (fun x => yields _ x) Yr _ _). apply tab_ext. intros k Hkm. f_equal. rewrite !corr_R. apply Rsum_n_ext.
  intros j Hj. rewrite tab_nth by nia. rewrite !nrz_R. unfold chip. cbn [nmul nadd NumR].
  destruct (nth (_ mod _) key false); ring.
Qed.

Lemma cdma_qpsk_reduce (message : Iter bool) m (sr sy : nat) (fc : R) (key : list bool) tx (noise : list R) :
  let sps := (sr / sy)%nat in
  let chip i := if nth ((i / (sps / length key)) mod length key) key false then 1 else -1 in
  yields message m -> tx_cdma_qpsk_signal message sr sy fc key = Ret tx -> length noise = (length m / 2 * sps)%nat ->
  (1 <= sy <= sr)%nat /\
    forall tx0 rx0 out, tx_qpsk_signal message sr sy fc = Ret tx0 ->
      rx_qpsk_signal (noisy tx0 (tab (length m / 2 * sps) (fun i => nth i noise 0 * chip i))) sr sy fc = Ret rx0 ->
      yields rx0 out -> exists rx, rx_cdma_qpsk_signal (noisy tx noise) sr sy fc key = Ret rx /\ yields rx out.
Proof.
  intros sps chip Hm E HL. unfold tx_cdma_qpsk_signal in E. destruct (cdma_rates sr sy fc key) as [p| |] eqn:Ep; try discriminate.
  destruct (cdma_rates_inv _ _ _ _ _ Ep) as (-> & Hy & Hk & Hr & Hc & _). cbn [bind] in E.
  assert (Hle : (sy <= sr)%nat) by (destruct key; [contradiction|cbn in Hr; nia]).
  assert (Hn : (1 <= sr / sy)%nat) by (apply Nat.div_le_lower_bound; lia).
  destruct (tx_qpsk_inv message sr sy fc ltac:(lia) Hn) as (tx1 & Et & Y).
  specialize (Y m Hm). unfold qpsk_wave in Y. rewrite (pairs_length (length m) m eq_refl) in Y. fold sps in Y, Hc, Hn.
  rewrite Et in E. cbn [bind] in E. injection E as <-.
  split; [lia|]. intros tx0 rx0 out Et0 Er0 Yo. rewrite Et in Et0. injection Et0 as <-. fold sps.
  pose proof (chip_mul_yields (sps / length key) key tx1 _ _ ltac:(lia) Hk Y) as Yc.
  pose proof (noisy_yields _ noise _ _ 0 Yc HL) as Yn.
  pose proof (chip_mul_yields (sps / length key) key _ _ _ ltac:(lia) Hk Yn) as Yd.
  pose proof (noisy_yields tx1 (tab (length m / 2 * sps) (fun i => nth i noise 0 * chip i)) _ _ 0 Y ltac:(apply tab_length)) as Y0.
  destruct (rx_qpsk_intro (noisy tx1 (tab (length m / 2 * sps) (fun i => nth i noise 0 * chip i))) sr sy fc ltac:(lia) Hn) as (rx1 & Er1 & Yr1).
  rewrite Er0 in Er1. injection Er1 as <-.
  destruct (rx_qpsk_intro (chip_mul (sps / length key) key (noisy (chip_mul (sps / length key) key tx1) noise)) sr sy fc ltac:(lia) Hn)
    as (rx & Er & Yr). fold sps in Yr, Yr1.
  exists rx. split; [unfold rx_cdma_qpsk_signal; rewrite Ep; exact Er|].
  specialize (Yr _ _ Yd). rewrite (yields_det _ _ _ Yo (Yr1 _ _ Y0)).
  refine (eq_ind _ (fun x => yields _ x) Yr _ _). rewrite !flat_map_concat_map. f_equal. apply map_ext_in. intros k Hkm. apply in_seq in Hkm.
  rewrite !corr_R. 
  assert (Q : forall j, (j < sps)%nat -> forall (a z c : R), nmul (nmul (nadd (nmul a (bit_to_nrz (nth (((k * sps + j) / (sps / length key)) mod length key) key false))) z)
     (bit_to_nrz (nth (((k * sps + j) / (sps / length key)) mod length key) key false))) c = nmul (nadd a (z * chip (k * sps + j)%nat)) c).
  { intros j Hj a z c. rewrite !nrz_R. unfold chip. cbn [nmul nadd NumR]. destruct (nth (_ mod _) key false); ring. }
  f_equal; [|f_equal]; f_equal; apply Rsum_n_ext; intros j Hj; rewrite tab_nth by nia; apply Q; exact Hj.
Qed.

(** Exactly which noise flips which bit: what counts is the correlation with carrier times chips. *)
Theorem C80_cdma_bpsk_noise_exact :
  forall (message : Iter bool) m (sample_rate symbol_rate : nat) (fc : R) (key : list bool) tx (noise : list R),
    let sps := (sample_rate / symbol_rate)%nat in
    let spc := (sps / length key)%nat in
    let carrier i := cos (2 * PI * fc * (INR i / INR sample_rate)) in
    let chip i := if nth ((i / spc) mod length key) key false then 1 else -1 in
    yields message m -> tx_cdma_bpsk_signal message sample_rate symbol_rate fc key = Ret tx ->
    length noise = (length m * sps)%nat ->
    exists rx out, rx_cdma_bpsk_signal (noisy tx noise) sample_rate symbol_rate fc key = Ret rx /\
      yields rx out /\ length out = length m /\
      forall k b, nth_error m k = Some b ->
        let energy := Rsum_n sps (fun j => carrier (k * sps + j)%nat * carrier (k * sps + j)%nat) in
        let hit := Rsum_n sps (fun j => nth (k * sps + j) noise 0 * chip (k * sps + j)%nat * carrier (k * sps + j)%nat) in
        (nth_error out k = Some b <-> if b then - hit < energy else hit <= energy).
Proof.
  intros message m sr sy fc key tx noise sps spc carrier chip Hm Htx HL.
  destruct (cdma_bpsk_reduce message m sr sy fc key tx noise Hm Htx HL) as (tx0 & Et & Hle & Red). fold sps spc in Red.
  destruct (C78_bpsk_noise_exact message m sr sy fc tx0 (tab (length m * sps) (fun i => nth i noise 0 * chip i)) Hm Et Hle)
    as (rx0 & out & Er0 & Yo & L & D); [apply tab_length|].
  destruct (Red rx0 out Er0 Yo) as (rx & Er & Yr). exists rx, out. split; [exact Er|]. split; [exact Yr|]. split; [exact L|].
  intros k b Hb energy hit. specialize (D k b Hb). cbv zeta in D. fold sps in D.
  assert (Hk : (k < length m)%nat) by (apply nth_error_Some; congruence).
  rewrite (Rsum_n_ext sps (fun j => nth _ (tab _ _) 0 * _)
    (fun j => nth (k * sps + j) noise 0 * chip (k * sps + j)%nat * carrier (k * sps + j)%nat)) in D.
  2:{ intros j Hj. rewrite tab_nth by nia. reflexivity. }
  exact D.
Qed.

(** Noise with less energy per bit than the bit itself does no harm: nothing is lost against plain BPSK. *)
Theorem C80_cdma_bpsk_noise_energy :
  forall (message : Iter bool) m (sample_rate symbol_rate : nat) (fc : R) (key : list bool) tx (noise : list R),
    let sps := (sample_rate / symbol_rate)%nat in
    let carrier i := cos (2 * PI * fc * (INR i / INR sample_rate)) in
    yields message m -> tx_cdma_bpsk_signal message sample_rate symbol_rate fc key = Ret tx ->
    length noise = (length m * sps)%nat ->
    (forall k, (k < length m)%nat ->
       Rsum_n sps (fun j => nth (k * sps + j) noise 0 * nth (k * sps + j) noise 0) <
       Rsum_n sps (fun j => carrier (k * sps + j)%nat * carrier (k * sps + j)%nat)) ->
    exists rx, rx_cdma_bpsk_signal (noisy tx noise) sample_rate symbol_rate fc key = Ret rx /\ yields rx m.
Proof.
  intros message m sr sy fc key tx noise sps carrier Hm Htx HL Hw.
  destruct (cdma_bpsk_reduce message m sr sy fc key tx noise Hm Htx HL) as (tx0 & Et & Hle & Red). fold sps in Red.
  match type of Red with context [noisy tx0 ?z] => destruct (C78_bpsk_noise_energy message m sr sy fc tx0 z Hm Et Hle) as (rx0 & Er0 & Yo) end.
  - apply tab_length.
  - intros k Hk. fold sps. eapply Rle_lt_trans; [|exact (Hw k Hk)]. right. apply Rsum_n_ext. intros j Hj.
    rewrite tab_nth by nia. destruct (nth (_ mod _) key false); ring.
  - exact (Red rx0 m Er0 Yo).
Qed.

(** ** A jammer on the carrier *)

Lemma chips_sum (key : list bool) : Rsum_n (length key) (fun c => if nth c key false then 1 else -1) =
  INR (count_occ Bool.bool_dec key true) - INR (count_occ Bool.bool_dec key false).
Proof.
  induction key as [|b key IH] using rev_ind; [cbn; lra|].
  rewrite app_length. cbn [length]. rewrite Nat.add_1_r. cbn [Rsum_n]. rewrite nth_middle.
  rewrite (Rsum_n_ext (length key) _ (fun c => if nth c key false then 1 else -1)).
  2:{ intros j Hj. rewrite app_nth1 by exact Hj. reflexivity. }
  rewrite IH, !count_occ_app. destruct b; cbn [count_occ]; 
    repeat (destruct (Bool.bool_dec _ _); try congruence); rewrite !plus_INR; cbn; lra.
Qed.

(** Carrier against carrier over a stretch of whole half-cycles. *)
Lemma tone_sums (sr n : nat) (fc : R) (h : Z) start :
  (1 <= sr)%nat -> 2 * fc * INR n = IZR h * INR sr -> ~ (exists z : Z, 2 * fc = IZR z * INR sr) ->
  let ph j := 2 * PI * fc * (INR (start + j) / INR sr) in
  Rsum_n n (fun j => cos (ph j) * cos (ph j)) = INR n / 2 /\
  Rsum_n n (fun j => sin (ph j) * sin (ph j)) = INR n / 2 /\
  Rsum_n n (fun j => sin (ph j) * cos (ph j)) = 0.
Proof.
  intros Hr Hh Hz ph.
  assert (Hsr : INR sr <> 0) by (apply not_0_INR; lia).
  set (a := 2 * PI * fc / INR sr).
  assert (Ha : sin a <> 0).
  { intros E. apply sin_0_mult in E. destruct E as [z E]. apply Hz. exists z.
    apply (Rmult_eq_reg_l (PI / INR sr)).
    - unfold a in E. replace (PI / INR sr * (2 * fc)) with (2 * PI * fc / INR sr) by (field; exact Hsr). rewrite E. field. exact Hsr.
    - apply Rmult_integral_contrapositive_currified; [apply PI_neq0|apply Rinv_neq_0_compat; exact Hsr]. }
  assert (Hp : 2 * a * INR n = 2 * PI * IZR h).
  { unfold a. replace (2 * (2 * PI * fc / INR sr) * INR n) with (2 * PI * (2 * fc * INR n) / INR sr) by (field; exact Hsr).
    rewrite Hh. field. exact Hsr. }
  destruct (sum_whole a (2 * (a * INR start)) n h Ha Hp) as [SC SS].
  assert (P : forall j, 2 * ph j = 2 * (a * INR start) + 2 * a * INR j).
  { intros j. unfold ph, a. rewrite plus_INR. field. exact Hsr. }
  split; [|split].
  - rewrite (Rsum_n_ext n _ (fun j => 1 / 2 + 1 / 2 * cos (2 * (a * INR start) + 2 * a * INR j))).
    + rewrite Rsum_n_plus, Rsum_n_scale, Rsum_n_const, SC. lra.
    + intros j _. rewrite cos_sq_half, P. lra.
  - rewrite (Rsum_n_ext n _ (fun j => 1 / 2 + (- 1 / 2) * cos (2 * (a * INR start) + 2 * a * INR j))).
    + rewrite Rsum_n_plus, Rsum_n_scale, Rsum_n_const, SC. lra.
    + intros j _. rewrite sin_sq_half, P. lra.
  - rewrite (Rsum_n_ext n _ (fun j => 1 / 2 * sin (2 * (a * INR start) + 2 * a * INR j))).
    + rewrite Rsum_n_scale, SS. lra.
    + intros j _. rewrite sin_cos_half, P. lra.
Qed.

(** The chips of a symbol against a product of carriers. *)
Lemma chip_sums (sr sps : nat) (fc : R) (h : Z) (key : list bool) k :
  let n := length key in let spc := (sps / n)%nat in
  (1 <= n)%nat -> (1 <= spc)%nat -> sps = (spc * n)%nat ->
  (1 <= sr)%nat -> 2 * fc * INR spc = IZR h * INR sr -> ~ (exists z : Z, 2 * fc = IZR z * INR sr) ->
  let ph i := 2 * PI * fc * (INR i / INR sr) in
  let chip i := if nth ((i / spc) mod n) key false then 1 else -1 in
  let bias := INR (count_occ Bool.bool_dec key true) - INR (count_occ Bool.bool_dec key false) in
  let sum f := Rsum_n sps (fun j => f (k * sps + j)%nat) in
  sum (fun i => chip i * (cos (ph i) * cos (ph i))) = bias * (INR spc / 2) /\
  sum (fun i => chip i * (sin (ph i) * sin (ph i))) = bias * (INR spc / 2) /\
  sum (fun i => chip i * (sin (ph i) * cos (ph i))) = 0.
Proof.
  intros n spc Hn Hc Hs Hr Hh Hz ph chip bias sum.
  assert (G : forall f v, (forall start, Rsum_n spc (fun j => f (start + j)%nat) = v) -> sum (fun i => chip i * f i) = bias * v).
  { intros f v Hf. unfold sum. replace sps with (n * spc)%nat at 1 by (rewrite Hs; apply Nat.mul_comm). rewrite Rsum_n_mul.
    rewrite (Rsum_n_ext n _ (fun c => v * (if nth c key false then 1 else -1))).
    - rewrite Rsum_n_scale. unfold n. rewrite chips_sum. fold bias. ring.
    - intros c Hcn. rewrite <- (Hf (k * sps + c * spc)%nat), (Rmult_comm (Rsum_n _ _)), <- Rsum_n_scale. apply Rsum_n_ext.
      intros j Hj. replace (k * sps + (c * spc + j))%nat with (k * sps + c * spc + j)%nat by lia. f_equal. unfold chip.
      replace (((k * sps + c * spc + j) / spc) mod n)%nat with c; [reflexivity|].
      replace (k * sps + c * spc + j)%nat with (j + (c + k * n) * spc)%nat by (rewrite Hs; ring).
      rewrite Nat.div_add by lia. rewrite Nat.div_small by exact Hj. cbn [Nat.add].
      rewrite Nat.mod_add by lia. symmetry. apply Nat.mod_small. exact Hcn. }
  split; [|split].
  - apply (G (fun i => cos (ph i) * cos (ph i))). intros st. exact (proj1 (tone_sums sr spc fc h st Hr Hh Hz)).
  - apply (G (fun i => sin (ph i) * sin (ph i))). intros st. exact (proj1 (proj2 (tone_sums sr spc fc h st Hr Hh Hz))).
  - rewrite (G (fun i => sin (ph i) * cos (ph i)) 0); [ring|]. intros st. exact (proj2 (proj2 (tone_sums sr spc fc h st Hr Hh Hz))).
Qed.

(** A jammer that knows the carrier but not the key: in each symbol a tone of any amplitude and phase
    (A in phase, B in quadrature).  Only A counts, and only through the imbalance of the key. *)
Theorem C80_tone_jammer :
  forall (message : Iter bool) m (sample_rate symbol_rate : nat) (fc : R) (half_cycles : Z) (key : list bool) tx (A B : nat -> R),
    let sps := (sample_rate / symbol_rate)%nat in
    let spc := (sps / length key)%nat in
    let ph i := 2 * PI * fc * (INR i / INR sample_rate) in
    let jam := tab (length m * sps) (fun i => A (i / sps)%nat * cos (ph i) + B (i / sps)%nat * sin (ph i)) in
    let bias := INR (count_occ Bool.bool_dec key true) - INR (count_occ Bool.bool_dec key false) in
    yields message m -> tx_cdma_bpsk_signal message sample_rate symbol_rate fc key = Ret tx ->
    2 * fc * INR spc = IZR half_cycles * INR sample_rate ->
    ~ (exists z : Z, 2 * fc = IZR z * INR sample_rate) ->
    exists rx out, rx_cdma_bpsk_signal (noisy tx jam) sample_rate symbol_rate fc key = Ret rx /\
      yields rx out /\ length out = length m /\
      forall k b, nth_error m k = Some b ->
        (nth_error out k = Some b <-> if b then - (A k * bias) < INR (length key) else A k * bias <= INR (length key)).
Proof.
  intros message m sr sy fc h key tx A B sps spc ph jam bias Hm Htx Hh Hz.
  destruct (C80_cdma_bpsk_noise_exact message m sr sy fc key tx jam Hm Htx) as (rx & out & Er & Yr & L & D); [apply tab_length|].
  exists rx, out. split; [exact Er|]. split; [exact Yr|]. split; [exact L|].
  intros k b Hb. specialize (D k b Hb). cbv zeta in D. fold sps in D. fold spc in D.
  assert (Hk : (k < length m)%nat) by (apply nth_error_Some; congruence).
  unfold tx_cdma_bpsk_signal in Htx. destruct (cdma_rates sr sy fc key) as [p| |] eqn:Ep; try discriminate.
  destruct (cdma_rates_inv _ _ _ _ _ Ep) as (_ & Hy & Hkn & Hr & Hc & _).
  pose proof (cdma_rates_R_divide _ _ _ _ _ Ep) as Hs. fold sps in Hs, Hc. fold spc in Hs, Hc.
  assert (Hl : (1 <= length key)%nat) by (destruct key; [contradiction|cbn; lia]).
  assert (Hsr : (1 <= sr)%nat) by nia.
  destruct (chip_sums sr sps fc h key k Hl ltac:(fold spc; lia) Hs Hsr Hh Hz) as (S1 & S2 & S3). cbv zeta in S1, S2, S3. fold spc in S1, S2, S3.
  assert (EN : Rsum_n sps (fun j => cos (ph (k * sps + j)%nat) * cos (ph (k * sps + j)%nat)) = INR (length key) * (INR spc / 2)).
  { destruct (tone_sums sr sps fc (h * Z.of_nat (length key)) (k * sps) Hsr) as (Q & _ & _).
    - rewrite Hs, mult_INR, mult_IZR, <- INR_IZR_INZ, <- Rmult_assoc, Hh. ring.
    - exact Hz.
    - cbv zeta in Q. etransitivity; [exact Q|]. rewrite Hs, mult_INR. field. }
  unfold ph in EN. rewrite EN in D.
  assert (HT : Rsum_n sps (fun j => nth (k * sps + j) jam 0 * (if nth (((k * sps + j) / spc) mod length key) key false then 1 else -1) *
      cos (2 * PI * fc * (INR (k * sps + j) / INR sr))) = A k * bias * (INR spc / 2)).
  { rewrite (Rsum_n_ext sps _ (fun j => A k * ((if nth (((k * sps + j) / spc) mod length key) key false then 1 else -1) * (cos (ph (k * sps + j)%nat) * cos (ph (k * sps + j)%nat))) +
       B k * ((if nth (((k * sps + j) / spc) mod length key) key false then 1 else -1) * (sin (ph (k * sps + j)%nat) * cos (ph (k * sps + j)%nat))))).
    2:{ intros j Hj. unfold jam. rewrite tab_nth by nia. rewrite block_div by exact Hj. fold (ph (k * sps + j)%nat). ring. }
    rewrite Rsum_n_plus, !Rsum_n_scale. unfold ph. rewrite S1, S3. fold bias. ring. }
  rewrite HT in D. etransitivity; [exact D|].
  assert (P : 0 < INR spc / 2) by (assert (0 < INR spc) by (apply lt_0_INR; lia); lra).
  set (x := INR spc / 2) in *. clearbody x. destruct b.
  - replace (- (A k * bias * x)) with (- (A k * bias) * x) by ring. split; intros G; [apply Rmult_lt_reg_r in G; assumption|apply Rmult_lt_compat_r; assumption].
  - split; intros G; [apply Rmult_le_reg_r in G; assumption|apply Rmult_le_compat_r; lra].
Qed.

(** With a balanced key no such jammer does any harm, however strong; every key that HadamardMatrix::key
    hands out is balanced. *)
Theorem C80_hadamard_immune :
  forall (message : Iter bool) m (sample_rate symbol_rate : nat) (fc : R) (half_cycles : Z) (e i : nat) M (key : list bool) tx (A B : nat -> R),
    let sps := (sample_rate / symbol_rate)%nat in
    let spc := (sps / length key)%nat in
    let ph i := 2 * PI * fc * (INR i / INR sample_rate) in
    let jam := tab (length m * sps) (fun i => A (i / sps)%nat * cos (ph i) + B (i / sps)%nat * sin (ph i)) in
    HadamardMatrix_new (2 ^ e) = Ret M -> HadamardMatrix_key M i = Ret key ->
    yields message m -> tx_cdma_bpsk_signal message sample_rate symbol_rate fc key = Ret tx ->
    2 * fc * INR spc = IZR half_cycles * INR sample_rate ->
    ~ (exists z : Z, 2 * fc = IZR z * INR sample_rate) ->
    exists rx, rx_cdma_bpsk_signal (noisy tx jam) sample_rate symbol_rate fc key = Ret rx /\ yields rx m.
Proof.
  intros message m sr sy fc h e i M key tx A B sps spc ph jam HM HK Hm Htx Hh Hz.
  destruct (C80_tone_jammer message m sr sy fc h key tx A B Hm Htx Hh Hz) as (rx & out & Er & Yr & L & D).
  exists rx. split; [exact Er|]. replace m with out; [exact Yr|].
  destruct (C38_key_selection e M HM) as (_ & KS & _). destruct (KS i key HK) as (KI & _ & KB).
  assert (KL : length key = (2 ^ e)%nat).
  { destruct (C37_hadamard_orthogonal e) as (M' & EM & _ & RL & _). rewrite HM in EM. injection EM as <-. apply RL. exact KI. }
  assert (C1 : forall l : list bool, length (filter (fun b : bool => b) l) = count_occ Bool.bool_dec l true /\
     (count_occ Bool.bool_dec l true + count_occ Bool.bool_dec l false = length l)%nat).
  { induction l as [|[] l [I1 I2]]; cbn; [auto| |]; repeat (destruct (Bool.bool_dec _ _); try congruence); cbn; lia. }
  destruct (C1 key) as [C2 C3].
  assert (BZ : INR (count_occ Bool.bool_dec key true) - INR (count_occ Bool.bool_dec key false) = 0).
  { replace (count_occ Bool.bool_dec key false) with (count_occ Bool.bool_dec key true) by lia. lra. }
  assert (LP : 0 < INR (length key)).
  { apply lt_0_INR. rewrite KL. pose proof (pow2_ge1 e). lia. }
  apply nth_error_inj. intros k. destruct (nth_error m k) as [b|] eqn:Eb.
  2:{ apply nth_error_None. apply nth_error_None in Eb. lia. }
  apply (D k b Eb). cbv zeta in D. rewrite BZ, Rmult_0_r. destruct b; lra.
Qed.

(** ** CDMA/QPSK *)

Theorem C80_cdma_qpsk_noise_energy :
  forall (message : Iter bool) m (sample_rate symbol_rate : nat) (fc : R) (half_cycles : Z) (key : list bool) tx (noise : list R),
    let sps := (sample_rate / symbol_rate)%nat in
    yields message m -> tx_cdma_qpsk_signal message sample_rate symbol_rate fc key = Ret tx ->
    length noise = (length m / 2 * sps)%nat ->
    2 * fc * INR sps = IZR half_cycles * INR sample_rate ->
    ~ (exists z : Z, 2 * fc = IZR z * INR sample_rate) ->
    (forall k, (k < length m / 2)%nat ->
       Rsum_n sps (fun j => nth (k * sps + j) noise 0 * nth (k * sps + j) noise 0) < INR sps / 2) ->
    exists rx, rx_cdma_qpsk_signal (noisy tx noise) sample_rate symbol_rate fc key = Ret rx /\
      yields rx (firstn (2 * (length m / 2)) m).
Proof.
  intros message m sr sy fc h key tx noise sps Hm Htx HL Hh Hz Hw.
  destruct (cdma_qpsk_reduce message m sr sy fc key tx noise Hm Htx HL) as (Hr & Red). fold sps in Red.
  match type of Red with context [noisy _ ?z] =>
    destruct (C78_qpsk_noise_energy message m sr sy fc h z Hm Hr) as (tx0 & rx0 & Et0 & Er0 & Yo) end.
  - apply tab_length.
  - exact Hh.
  - exact Hz.
  - intros k Hk. fold sps. eapply Rle_lt_trans; [|exact (Hw k Hk)]. right. apply Rsum_n_ext. intros j Hj.
    rewrite tab_nth by nia. destruct (nth (_ mod _) key false); ring.
  - exact (Red tx0 rx0 _ Et0 Er0 Yo).
Qed.

(** The jammer against QPSK: each bit of a pair sees one of the two components; a balanced key removes both. *)
Theorem C80_qpsk_tone_jammer :
  forall (message : Iter bool) m (sample_rate symbol_rate : nat) (fc : R) (half_cycles : Z) (key : list bool) tx (A B : nat -> R),
    let sps := (sample_rate / symbol_rate)%nat in
    let spc := (sps / length key)%nat in
    let ph i := 2 * PI * fc * (INR i / INR sample_rate) in
    let jam := tab (length m / 2 * sps) (fun i => A (i / sps)%nat * cos (ph i) + B (i / sps)%nat * sin (ph i)) in
    let bias := INR (count_occ Bool.bool_dec key true) - INR (count_occ Bool.bool_dec key false) in
    yields message m -> tx_cdma_qpsk_signal message sample_rate symbol_rate fc key = Ret tx ->
    2 * fc * INR spc = IZR half_cycles * INR sample_rate ->
    ~ (exists z : Z, 2 * fc = IZR z * INR sample_rate) ->
    exists rx out, rx_cdma_qpsk_signal (noisy tx jam) sample_rate symbol_rate fc key = Ret rx /\
      yields rx out /\ length out = (2 * (length m / 2))%nat /\
      forall k b1 b2, nth_error m (2 * k) = Some b1 -> nth_error m (2 * k + 1) = Some b2 ->
        (nth_error out (2 * k) = Some b1 <-> if b1 then - (A k * bias) <= INR (length key) else A k * bias < INR (length key)) /\
        (nth_error out (2 * k + 1) = Some b2 <-> if b2 then B k * bias <= INR (length key) else - (B k * bias) < INR (length key)).
Proof.
  intros message m sr sy fc h key tx A B sps spc ph jam bias Hm Htx Hh Hz.
  destruct (cdma_qpsk_reduce message m sr sy fc key tx jam Hm Htx ltac:(apply tab_length)) as (Hr & Red). fold sps in Red. fold spc in Red.
  match type of Red with context [noisy _ ?z] =>
    destruct (C78_qpsk_noise_exact message m sr sy fc z Hm Hr ltac:(apply tab_length)) as (tx0 & rx0 & out & Et0 & Er0 & Yo & L & D) end.
  destruct (Red tx0 rx0 out Et0 Er0 Yo) as (rx & Er & Yr).
  exists rx, out. split; [exact Er|]. split; [exact Yr|]. split; [exact L|].
  intros k b1 b2 H1 H2. specialize (D k b1 b2 H1 H2). cbv beta zeta in D. fold sps in D.
  assert (Hk : (k < length m / 2)%nat).
  { assert (2 * k + 1 < length m)%nat by (apply nth_error_Some; congruence). apply Nat.div_le_lower_bound; lia. }
  unfold tx_cdma_qpsk_signal in Htx. destruct (cdma_rates sr sy fc key) as [p| |] eqn:Ep; try discriminate.
  destruct (cdma_rates_inv _ _ _ _ _ Ep) as (_ & Hy & Hkn & _ & Hc & _).
  pose proof (cdma_rates_R_divide _ _ _ _ _ Ep) as Hs. fold sps in Hs, Hc. fold spc in Hs, Hc.
  assert (Hl : (1 <= length key)%nat) by (destruct key; [contradiction|cbn; lia]).
  assert (Hsr : (1 <= sr)%nat) by lia.
  destruct (chip_sums sr sps fc h key k Hl ltac:(fold spc; lia) Hs Hsr Hh Hz) as (S1 & S2 & S3). cbv zeta in S1, S2, S3. fold spc in S1, S2, S3.
  destruct (tone_sums sr sps fc (h * Z.of_nat (length key)) (k * sps) Hsr) as (Q1 & Q2 & Q3).
  { rewrite Hs, mult_INR, mult_IZR, <- INR_IZR_INZ, <- Rmult_assoc, Hh. ring. }
  { exact Hz. }
  cbv zeta in Q1, Q2, Q3. rewrite Q1, Q2, Q3 in D.
  assert (HC : Rsum_n sps (fun j => nth (k * sps + j) (tab (length m / 2 * sps) (fun i => nth i jam 0 * (if nth ((i / spc) mod length key) key false then 1 else -1))) 0 *
      cos (2 * PI * fc * (INR (k * sps + j) / INR sr))) = A k * bias * (INR spc / 2)).
  { rewrite (Rsum_n_ext sps _ (fun j => A k * ((if nth (((k * sps + j) / spc) mod length key) key false then 1 else -1) * (cos (ph (k * sps + j)%nat) * cos (ph (k * sps + j)%nat))) +
       B k * ((if nth (((k * sps + j) / spc) mod length key) key false then 1 else -1) * (sin (ph (k * sps + j)%nat) * cos (ph (k * sps + j)%nat))))).
    2:{ intros j Hj. rewrite tab_nth by nia. unfold jam. rewrite tab_nth by nia. rewrite block_div by exact Hj. fold (ph (k * sps + j)%nat). ring. }
    rewrite Rsum_n_plus, !Rsum_n_scale. unfold ph. rewrite S1, S3. fold bias. ring. }
  assert (HS : Rsum_n sps (fun j => nth (k * sps + j) (tab (length m / 2 * sps) (fun i => nth i jam 0 * (if nth ((i / spc) mod length key) key false then 1 else -1))) 0 *
      sin (2 * PI * fc * (INR (k * sps + j) / INR sr))) = B k * bias * (INR spc / 2)).
  { rewrite (Rsum_n_ext sps _ (fun j => A k * ((if nth (((k * sps + j) / spc) mod length key) key false then 1 else -1) * (sin (ph (k * sps + j)%nat) * cos (ph (k * sps + j)%nat))) +
       B k * ((if nth (((k * sps + j) / spc) mod length key) key false then 1 else -1) * (sin (ph (k * sps + j)%nat) * sin (ph (k * sps + j)%nat))))).
    2:{ intros j Hj. rewrite tab_nth by nia. unfold jam. rewrite tab_nth by nia. rewrite block_div by exact Hj. fold (ph (k * sps + j)%nat). ring. }
    rewrite Rsum_n_plus, !Rsum_n_scale. unfold ph. rewrite S2, S3. fold bias. ring. }
  rewrite HC, HS in D.
  assert (SN : INR sps / 2 = INR (length key) * (INR spc / 2)) by (rewrite Hs, mult_INR; field).
  rewrite SN in D.
  assert (P : 0 < INR spc / 2) by (assert (0 < INR spc) by (apply lt_0_INR; lia); lra).
  set (x := INR spc / 2) in *. clearbody x. set (n := INR (length key)) in *. clearbody n bias. destruct D as [D1 D2].
  split; [etransitivity; [exact D1|]|etransitivity; [exact D2|]].
  - replace ((if b1 then 1 else -1) * (n * x) - (if b2 then 1 else -1) * 0 + A k * bias * x) with (((if b1 then 1 else -1) * n + A k * bias) * x) by ring.
    destruct b1; split; intros G; nra.
  - replace ((if b2 then 1 else -1) * (n * x) - (if b1 then 1 else -1) * 0 - B k * bias * x) with (((if b2 then 1 else -1) * n - B k * bias) * x) by ring.
    destruct b2; split; intros G; nra.
Qed.

(** ** Binary64 *)

Lemma mul_nrz libm b (x : F64) : let num := NumF libm in fin x = true ->
  fin (nmul x (bit_to_nrz b)) = true /\ val (nmul x (bit_to_nrz b)) = (if b then 1 else -1) * val x.
Proof.
  intros num Fx. destruct b.
  - change (nmul x (bit_to_nrz true)) with (Bmult mode_NE x (f64_ofZ 1)). rewrite mul_1_r. split; [exact Fx|ring].
  - change (nmul x (bit_to_nrz false)) with (Bmult mode_NE x (Bopp (f64_ofZ 1))). rewrite mul_m1_r.
    split; [unfold fin; rewrite is_finite_Bopp; exact Fx|]. unfold val. rewrite B2R_Bopp. ring.
Qed.

(** One sample spread, sent through the channel and despread. *)
Lemma chip_channel_err libm b (w z : F64) Z : let num := NumF libm in
  0 <= Z <= bpow radix2 700 -> fin w = true -> Rabs (val w) <= 3 -> fin z = true -> Rabs (val z) <= Z ->
  let r := nmul (nadd (nmul w (bit_to_nrz b)) z) (bit_to_nrz b) in
  fin r = true /\ Rabs (val r) <= 4 + 2 * Z /\ Rabs (val r - (val w + (if b then 1 else -1) * val z)) <= (4 + Z) * u53.
Proof.
  intros num HZ Fw Bw Fz Bz r. destruct (mul_nrz libm b w Fw) as [F1 V1]. fold num in F1, V1.
  assert (B1 : Rabs (val (nmul w (bit_to_nrz b))) <= 3).
  { rewrite V1. apply Rabs_le_inv in Bw. apply Rabs_le. destruct b; lra. }
  destruct (channel_err _ _ Z HZ F1 B1 Fz Bz) as (F2 & B2 & D2).
  change (Bplus mode_NE (nmul w (bit_to_nrz b)) z) with (nadd (nmul w (bit_to_nrz b)) z) in F2, B2, D2.
  destruct (mul_nrz libm b _ F2) as [F3 V3]. fold num in F3, V3. fold r in F3, V3. rewrite V1 in D2.
  set (v := val (nadd (nmul w (bit_to_nrz b)) z)) in *.
  split; [exact F3|]. rewrite V3. apply Rabs_le_inv in B2. apply Rabs_le_inv in D2.
  split; apply Rabs_le; destruct b; lra.
Qed.

(** Checks passed: the message spread, with noise, despread. *)
Theorem C80_cdma_bpsk_noise_f64 :
  forall (libm : Libm) (message : Iter bool) m (sample_rate symbol_rate : nat) (fc : F64) (key : list bool) tx (noise : list F64) (Z : R),
    let num := NumF libm in
    let phase i := (nofZ 2 * npi * fc * (nofnat i / nofnat sample_rate))%num in
    let c i := B2R (libm_cos libm (phase i)) in
    let z i := B2R (nth i noise (nofZ 0)) in
    let sps := (sample_rate / symbol_rate)%nat in
    let chip i := if nth ((i / (sps / length key)) mod length key) key false then 1 else -1 in
    yields message m -> tx_cdma_bpsk_signal message sample_rate symbol_rate fc key = Ret tx ->
    (Z.of_nat sps <= 2 ^ 50)%Z -> length noise = (length m * sps)%nat -> 0 <= Z <= bpow radix2 700 ->
    (forall x, In x noise -> is_finite x = true /\ Rabs (B2R x) <= Z) ->
    (forall i, (i < length m * sps)%nat -> is_finite (libm_cos libm (phase i)) = true /\ Rabs (c i) <= 1) ->
    exists rx out, rx_cdma_bpsk_signal (noisy tx noise) sample_rate symbol_rate fc key = Ret rx /\
      yields rx out /\ length out = length m /\
      forall k b, nth_error m k = Some b ->
        let energy := Rsum_n sps (fun j => c (k * sps + j)%nat * c (k * sps + j)%nat) in
        let hit := Rsum_n sps (fun j => z (k * sps + j)%nat * chip (k * sps + j)%nat * c (k * sps + j)%nat) in
        let slack := INR sps * (INR sps + 5) * (8 + 4 * Z) * bpow radix2 (-53) in
        ((if b then - hit else hit) + slack < energy -> nth_error out k = Some b) /\
        (energy < (if b then - hit else hit) - slack -> nth_error out k = Some (negb b)).
Proof.
  intros libm message m sr sy fc key tx noise Z num phase c z sps chip Hm E Hn HL HZ HN Hc.
  unfold tx_cdma_bpsk_signal in E. destruct (cdma_rates sr sy fc key) as [p| |] eqn:Ep; try discriminate.
  destruct (cdma_rates_inv _ _ _ _ _ Ep) as (-> & Hy & Hk & Hr & Hcn & _). cbn [bind] in E.
  destruct (tx_bpsk_signal message sr sy fc) as [tx0| |] eqn:Et; try discriminate. cbn [bind] in E. injection E as <-.
  assert (Hle : (sy <= sr)%nat) by (destruct key; [contradiction|cbn in Hr; nia]).
  assert (Hn1 : (1 <= sr / sy)%nat) by (apply Nat.div_le_lower_bound; lia).
  destruct (tx_bpsk_inv _ _ _ _ _ Et) as (_ & _ & _ & Y). specialize (Y Hn1 m Hm). unfold bpsk_wave in Y. fold sps in Y, Hcn, Hn1.
  pose proof (chip_mul_yields (sps / length key) key tx0 _ _ ltac:(lia) Hk Y) as Yc.
  pose proof (noisy_yields _ noise _ _ (nofZ 0) Yc HL) as Yn.
  pose proof (chip_mul_yields (sps / length key) key _ _ _ ltac:(lia) Hk Yn) as Yd.
  unfold rx_cdma_bpsk_signal. rewrite Ep. cbn [bind]. fold sps.
  apply (bpsk_link_f64 libm _ _ m sr sy fc (fun i => z i * chip i) Z Yd ltac:(lia) Hn HZ); [|exact Hc].
  intros k b j Hb Hj. fold sps. fold sps in Hj. cbv zeta.
  assert (Hkm : (k < length m)%nat) by (apply nth_error_Some; congruence).
  assert (I : (k * sps + j < length m * sps)%nat) by nia.
  rewrite block_div by exact Hj. rewrite (nth_error_nth _ _ false Hb).
  destruct (Hc _ I) as [Fc Bc]. destruct (nrz_mul libm b _ Fc) as [FW VW]. fold num in FW, VW.
  destruct (HN (nth (k * sps + j) noise (nofZ 0))) as [FZ BZ]; [apply nth_In; rewrite HL; exact I|].
  assert (BW : Rabs (val (nmul (bit_to_nrz b) (libm_cos libm (phase (k * sps + j)%nat)))) <= 3).
  { rewrite VW, Rabs_mult. unfold c in Bc. change (val (libm_cos libm (phase (k * sps + j)%nat))) with (B2R (libm_cos libm (phase (k * sps + j)%nat))).
    replace (Rabs (if b then 1 else -1)) with 1 by (destruct b; [rewrite Rabs_pos_eq|rewrite Rabs_left]; lra). lra. }
  destruct (chip_channel_err libm (nth (((k * sps + j) / (sps / length key)) mod length key) key false) _ _ Z HZ FW BW FZ BZ) as (FR & BR & DR).
  rewrite VW in DR. split; [exact FR|]. split; [exact BR|].
  rewrite (Rmult_comm (z _)). exact DR.
Qed.

Theorem C80_cdma_qpsk_noise_f64 :
  forall (libm : Libm) (message : Iter bool) m (sample_rate symbol_rate : nat) (fc : F64) (key : list bool) tx (noise : list F64) (Z : R),
    let num := NumF libm in
    let phase i := (nofZ 2 * npi * fc * (nofnat i / nofnat sample_rate))%num in
    let c i := B2R (libm_cos libm (phase i)) in
    let s i := B2R (libm_sin libm (phase i)) in
    let z i := B2R (nth i noise (nofZ 0)) in
    let sps := (sample_rate / symbol_rate)%nat in
    let chip i := if nth ((i / (sps / length key)) mod length key) key false then 1 else -1 in
    yields message m -> tx_cdma_qpsk_signal message sample_rate symbol_rate fc key = Ret tx ->
    (Z.of_nat sps <= 2 ^ 50)%Z -> length noise = (length m / 2 * sps)%nat -> 0 <= Z <= bpow radix2 700 ->
    (forall x, In x noise -> is_finite x = true /\ Rabs (B2R x) <= Z) ->
    (forall i, (i < length m / 2 * sps)%nat ->
       is_finite (libm_cos libm (phase i)) = true /\ Rabs (c i) <= 1 /\
       is_finite (libm_sin libm (phase i)) = true /\ Rabs (s i) <= 1) ->
    (forall k, (k < length m / 2)%nat ->
       let sum f := Rsum_n sps (fun j => f (k * sps + j)%nat) in
       let leak := Rabs (sum (fun i => s i * c i)) in
       let slack := INR sps * (INR sps + 5) * (8 + 4 * Z) * bpow radix2 (-53) in
       leak + Rabs (sum (fun i => z i * chip i * c i)) + slack < sum (fun i => c i * c i) /\
       leak + Rabs (sum (fun i => z i * chip i * s i)) + slack < sum (fun i => s i * s i)) ->
    exists rx, rx_cdma_qpsk_signal (noisy tx noise) sample_rate symbol_rate fc key = Ret rx /\
      yields rx (firstn (2 * (length m / 2)) m).
Proof.
  intros libm message m sr sy fc key tx noise Z num phase c s z sps chip Hm E Hn HL HZ HN Hc HE. pose proof u53_pos as U.
  unfold tx_cdma_qpsk_signal in E. destruct (cdma_rates sr sy fc key) as [p| |] eqn:Ep; try discriminate.
  destruct (cdma_rates_inv _ _ _ _ _ Ep) as (-> & Hy & Hk & Hr & Hcn & _). cbn [bind] in E.
  assert (Hle : (sy <= sr)%nat) by (destruct key; [contradiction|cbn in Hr; nia]).
  assert (Hn1 : (1 <= sr / sy)%nat) by (apply Nat.div_le_lower_bound; lia).
  destruct (tx_qpsk_inv message sr sy fc ltac:(lia) Hn1) as (tx0 & Et & Y).
  specialize (Y m Hm). unfold qpsk_wave in Y. rewrite (pairs_length (length m) m eq_refl) in Y. fold sps in Y, Hcn, Hn1.
  rewrite Et in E. cbn [bind] in E. injection E as <-.
  pose proof (chip_mul_yields (sps / length key) key tx0 _ _ ltac:(lia) Hk Y) as Yc.
  pose proof (noisy_yields _ noise _ _ (nofZ 0) Yc HL) as Yn.
  pose proof (chip_mul_yields (sps / length key) key _ _ _ ltac:(lia) Hk Yn) as Yd.
  unfold rx_cdma_qpsk_signal. rewrite Ep. cbn [bind]. fold sps.
  apply (qpsk_link_f64 libm _ _ m sr sy fc (fun i => z i * chip i) Z Yd ltac:(lia) Hn).
  - apply tab_length.
  - exact HZ.
  - intros k b1 b2 j Eb Hj.
    assert (Hkm : (k < length m / 2)%nat) by (rewrite <- (pairs_length (length m) m eq_refl); apply nth_error_Some; congruence).
    assert (I : (k * sps + j < length m / 2 * sps)%nat) by (fold sps in Hj; nia).
    fold sps. cbv zeta. rewrite tab_nth by exact I. rewrite block_div by exact Hj.
    rewrite (nth_error_nth _ _ (false, false) Eb).
    destruct (Hc _ I) as (F1 & B1 & F2 & B2).
    destruct (qpsk_sample_err libm b1 b2 _ _ F1 B1 F2 B2) as (F & B & D). fold num in F, B, D.
    destruct (HN (nth (k * sps + j) noise (nofZ 0))) as [FZ BZ]; [apply nth_In; rewrite HL; exact I|].
    destruct (chip_channel_err libm (nth (((k * sps + j) / (sps / length key)) mod length key) key false) _ _ Z HZ F B FZ BZ) as (FR & BR & DR).
    fold num in FR, BR, DR.
    split; [exact FR|]. split; [exact BR|].
    rewrite (Rmult_comm (z _)). fold (chip (k * sps + j)%nat) in DR.
    change (val (nth (k * sps + j) noise (nofZ 0))) with (z (k * sps + j)%nat) in DR.
    change (ccos sr fc (k * sps + j)%nat) with (libm_cos libm (phase (k * sps + j)%nat)) in *.
    change (csin sr fc (k * sps + j)%nat) with (libm_sin libm (phase (k * sps + j)%nat)) in *.
    set (w := nadd (nmul (bit_to_nrz b1) (libm_cos libm (phase (k * sps + j)%nat))) _) in *.
    set (r := nmul (nadd (nmul w _) _) _) in *. unfold c, s.
    set (e := (if b1 then 1 else -1) * B2R _ - (if b2 then 1 else -1) * B2R _) in *.
    change (Rabs (val w - e) <= 3 * u53) in D.
    match goal with |- Rabs (val r - (e + ?q)) <= _ => replace (val r - (e + q)) with ((val r - (val w + q)) + (val w - e)) by ring end.
    eapply Rle_trans; [apply Rabs_triang|]. lra.
  - exact Hc.
  - exact HE.
Qed.

(** The usual design in binary64: whole half-cycles per symbol, a sine and cosine right to 1/64, noise up to 1/8. *)
Theorem C80_cdma_bpsk_design_f64 :
  forall (libm : Libm) (message : Iter bool) m (sample_rate symbol_rate : nat) (fc : F64) (key : list bool) tx (half_cycles : Z) (noise : list F64),
    let num := NumF libm in
    let sps := (sample_rate / symbol_rate)%nat in
    let total := (length m * sps)%nat in
    libm_within libm (bpow radix2 45) -> yields message m ->
    tx_cdma_bpsk_signal message sample_rate symbol_rate fc key = Ret tx ->
    (Z.of_nat sample_rate < 2 ^ 53)%Z -> (Z.of_nat sps <= 2 ^ 46)%Z -> (Z.of_nat total < 2 ^ 53)%Z ->
    is_finite fc = true ->
    2 * B2R fc * INR sps = IZR half_cycles * INR sample_rate ->
    ~ (exists z : Z, 2 * B2R fc = IZR z * INR sample_rate) ->
    2 * PI * Rabs (B2R fc) * (INR total / INR sample_rate) <= bpow radix2 44 ->
    length noise = total -> (forall x, In x noise -> is_finite x = true /\ Rabs (B2R x) <= 1 / 8) ->
    exists rx, rx_cdma_bpsk_signal (noisy tx noise) sample_rate symbol_rate fc key = Ret rx /\ yields rx m.
Proof.
  intros libm message m sr sy fc key tx h noise num sps total Hlm Hm Htx Hs2 Hn HT Ff Hh Hz Hph HL HN.
  assert (Hr : (1 <= sy <= sr)%nat).
  { unfold tx_cdma_bpsk_signal in Htx. destruct (cdma_rates sr sy fc key) as [p| |] eqn:Ep; try discriminate.
    destruct (cdma_rates_inv _ _ _ _ _ Ep) as (_ & Hy & Hk & Hr & _). destruct key; [contradiction|cbn in Hr; nia]. }
  pose proof (fc_half _ _ _ _ Hr Hh Hz) as Bf.
  assert (Hn1 : (1 <= sps)%nat) by (apply Nat.div_le_lower_bound; lia).
  assert (Hc : forall i, (i < total)%nat -> let phase i := (nofZ 2 * npi * fc * (nofnat i / nofnat sr))%num in
       is_finite (libm_cos libm (phase i)) = true /\ Rabs (B2R (libm_cos libm (phase i))) <= 1).
  { intros i Hi. destruct (design_carrier libm fc sr total i Hlm Ff Bf ltac:(lia) Hs2 HT Hi Hph) as ((A & B & _) & _). auto. }
  destruct (C80_cdma_bpsk_noise_f64 libm message m sr sy fc key tx noise (1 / 8) Hm Htx) as (rx & out & Er & Yr & L & D).
  - fold sps. lia.
  - exact HL.
  - split; [lra|]. apply Rle_trans with 1; [lra|]. change 1 with (bpow radix2 0). apply bpow_le. lia.
  - exact HN.
  - exact Hc.
  - exists rx. split; [exact Er|]. replace m with out; [exact Yr|].
    apply nth_error_inj. intros k. destruct (nth_error m k) as [b|] eqn:Eb.
    2:{ apply nth_error_None. apply nth_error_None in Eb. lia. }
    assert (Hk : (k < length m)%nat) by (apply nth_error_Some; congruence).
    apply (D k b Eb).
    destruct (design_energy libm fc sr sy (length m) k h Hlm Ff Hr Hh Hz Hs2 HT Hk Hph) as (_ & E2 & _).
    fold sps. pose proof (slack_small sps (1 / 8) Hn1 Hn ltac:(lra)) as SL. change (bpow radix2 (-53)) with u53.
    match goal with |- _ < ?e => change (7 / 16 * INR sps <= e) in E2; set (energy := e) in * end.
    match goal with |- (if b then - ?e else _) + _ < _ => set (hit := e) end.
    assert (HB : Rabs hit <= INR sps / 8).
    { pose proof (Rsum_n_dist sps (fun j => B2R (nth (k * sps + j) noise (nofZ 0)) *
         (if nth (((k * sps + j) / (sps / length key)) mod length key) key false then 1 else -1) *
         B2R (libm_cos libm (nofZ 2 * npi * fc * (nofnat (k * sps + j) / nofnat sr))%num)) (fun _ => 0) (1 / 8)) as Q.
      rewrite (Rsum_n_0 sps (fun _ => 0)) in Q by reflexivity. rewrite Rminus_0_r in Q. eapply Rle_trans; [apply Q|lra].
      intros j Hj. rewrite Rminus_0_r, Rabs_mult. rewrite <- (Rmult_1_r (1 / 8)).
      assert (I : (k * sps + j < total)%nat) by (unfold total; nia).
      apply Rmult_le_compat; [apply Rabs_pos|apply Rabs_pos| |exact (proj2 (Hc _ I))].
      destruct (HN (nth (k * sps + j) noise (nofZ 0))) as [_ BZ]; [apply nth_In; rewrite HL; exact I|].
      apply Rabs_le_inv in BZ. apply Rabs_le. destruct (nth (_ mod _) key false); lra. }
    apply Rabs_le_inv in HB. apply le_INR in Hn1. change (INR 1) with 1 in Hn1. destruct b; lra.
Qed.

Theorem C80_cdma_qpsk_design_f64 :
  forall (libm : Libm) (message : Iter bool) m (sample_rate symbol_rate : nat) (fc : F64) (key : list bool) tx (half_cycles : Z) (noise : list F64),
    let num := NumF libm in
    let sps := (sample_rate / symbol_rate)%nat in
    let total := (length m / 2 * sps)%nat in
    libm_within libm (bpow radix2 45) -> yields message m ->
    tx_cdma_qpsk_signal message sample_rate symbol_rate fc key = Ret tx ->
    (Z.of_nat sample_rate < 2 ^ 53)%Z -> (Z.of_nat sps <= 2 ^ 46)%Z -> (Z.of_nat total < 2 ^ 53)%Z ->
    is_finite fc = true ->
    2 * B2R fc * INR sps = IZR half_cycles * INR sample_rate ->
    ~ (exists z : Z, 2 * B2R fc = IZR z * INR sample_rate) ->
    2 * PI * Rabs (B2R fc) * (INR total / INR sample_rate) <= bpow radix2 44 ->
    length noise = total -> (forall x, In x noise -> is_finite x = true /\ Rabs (B2R x) <= 1 / 8) ->
    exists rx rx', rx_cdma_qpsk_signal tx sample_rate symbol_rate fc key = Ret rx /\ yields rx (firstn (2 * (length m / 2)) m) /\
      rx_cdma_qpsk_signal (noisy tx noise) sample_rate symbol_rate fc key = Ret rx' /\ yields rx' (firstn (2 * (length m / 2)) m).
Proof.
  intros libm message m sr sy fc key tx h noise num sps total Hlm Hm Htx Hs2 Hn HT Ff Hh Hz Hph HL HN.
  assert (Ec := Htx). unfold tx_cdma_qpsk_signal in Ec. destruct (cdma_rates sr sy fc key) as [p| |] eqn:Ep; try discriminate.
  destruct (cdma_rates_inv _ _ _ _ _ Ep) as (-> & Hy & Hk & Hr0 & Hcn & _). cbn [bind] in Ec.
  assert (Hr : (1 <= sy <= sr)%nat) by (destruct key; [contradiction|cbn in Hr0; nia]).
  pose proof (fc_half _ _ _ _ Hr Hh Hz) as Bf.
  assert (Hn1 : (1 <= sps)%nat) by (apply Nat.div_le_lower_bound; lia).
  assert (Hc : forall i, (i < length m / 2 * sps)%nat -> let phase i := (nofZ 2 * npi * fc * (nofnat i / nofnat sr))%num in
       is_finite (libm_cos libm (phase i)) = true /\ Rabs (B2R (libm_cos libm (phase i))) <= 1 /\
       is_finite (libm_sin libm (phase i)) = true /\ Rabs (B2R (libm_sin libm (phase i))) <= 1).
  { intros i Hi. exact (proj1 (design_carrier libm fc sr total i Hlm Ff Bf ltac:(lia) Hs2 HT Hi Hph)). }
  assert (HE : forall k, (k < length m / 2)%nat -> _) by
    exact (fun k Hk => design_energy libm fc sr sy (length m / 2) k h Hlm Ff Hr Hh Hz Hs2 HT Hk Hph).
  assert (N0 : exists rx, rx_cdma_qpsk_signal tx sr sy fc key = Ret rx /\ yields rx (firstn (2 * (length m / 2)) m)).
  { destruct (C79_qpsk_design_f64 libm message m sr sy fc h noise Hlm Hm Hr Hs2 Hn HT Ff Hh Hz Hph HL HN) as (tx0 & rx0 & _ & Et & Er0 & Yr0 & _).
    fold num in Et, Er0, Yr0. rewrite Et in Ec. cbn [bind] in Ec. injection Ec as <-.
    destruct (tx_qpsk_inv message sr sy fc ltac:(lia) Hn1) as (tx1 & Et1 & Y). rewrite Et in Et1. injection Et1 as <-.
    specialize (Y m Hm). unfold qpsk_wave in Y. rewrite (pairs_length (length m) m eq_refl) in Y. fold sps in Y, Hcn.
    pose proof (@despread_yields F64 num (spread_F64 libm) (sps / length key) key tx0 _ _ ltac:(lia) Hk Y) as Yd.
    destruct (rx_qpsk_intro tx0 sr sy fc ltac:(lia) Hn1) as (rx1 & Er1 & Yr1). rewrite Er0 in Er1. injection Er1 as <-.
    destruct (rx_qpsk_intro (chip_mul (sps / length key) key (chip_mul (sps / length key) key tx0)) sr sy fc ltac:(lia) Hn1) as (rx & Er & Yr).
    exists rx. split; [unfold rx_cdma_qpsk_signal; rewrite Ep; exact Er|].
    rewrite (yields_det _ _ _ Yr0 (Yr1 _ _ Y)). apply Yr. exact Yd. }
  destruct N0 as (rx & Er & Yr). exists rx.
  destruct (C80_cdma_qpsk_noise_f64 libm message m sr sy fc key tx noise (1 / 8) Hm Htx) as (rx' & Er' & Yr').
  - fold sps. lia.
  - exact HL.
  - split; [lra|]. apply Rle_trans with 1; [lra|]. change 1 with (bpow radix2 0). apply bpow_le. lia.
  - exact HN.
  - exact Hc.
  - intros k Hkm. pose proof (HE k Hkm) as HEk. cbv zeta beta in HEk |- *. fold sps in HEk |- *. fold num in HEk.
    pose proof (slack_small sps (1 / 8) Hn1 Hn ltac:(lra)) as SL.
    change (bpow radix2 (-53)) with u53. destruct HEk as (E1 & E2 & E3).
    assert (HB : forall f : nat -> R, (forall j, (j < sps)%nat -> Rabs (f (k * sps + j)%nat) <= 1) ->
       Rabs (Rsum_n sps (fun j => B2R (nth (k * sps + j) noise (nofZ 0)) *
         (if nth (((k * sps + j) / (sps / length key)) mod length key) key false then 1 else -1) * f (k * sps + j)%nat)) <= INR sps / 8).
    { intros f Hf. pose proof (Rsum_n_dist sps (fun j => B2R (nth (k * sps + j) noise (nofZ 0)) *
         (if nth (((k * sps + j) / (sps / length key)) mod length key) key false then 1 else -1) * f (k * sps + j)%nat) (fun _ => 0) (1 / 8)) as Q.
      rewrite (Rsum_n_0 sps (fun _ => 0)) in Q by reflexivity. rewrite Rminus_0_r in Q. eapply Rle_trans; [apply Q|lra].
      intros j Hj. rewrite Rminus_0_r, Rabs_mult. rewrite <- (Rmult_1_r (1 / 8)).
      apply Rmult_le_compat; [apply Rabs_pos|apply Rabs_pos| |apply Hf; exact Hj].
      destruct (HN (nth (k * sps + j) noise (nofZ 0))) as [_ BZ]; [apply nth_In; rewrite HL; unfold total; nia|].
      apply Rabs_le_inv in BZ. apply Rabs_le. destruct (nth (_ mod _) key false); lra. }
    pose proof (HB (fun i => B2R (libm_cos libm (nofZ 2 * npi * fc * (nofnat i / nofnat sr))%num))) as B1.
    pose proof (HB (fun i => B2R (libm_sin libm (nofZ 2 * npi * fc * (nofnat i / nofnat sr))%num))) as B2.
    cbv beta in B1, B2.
    assert (B1' := B1 ltac:(intros j Hj; apply Hc; nia)). assert (B2' := B2 ltac:(intros j Hj; apply Hc; nia)).
    apply le_INR in Hn1. change (INR 1) with 1 in Hn1.
    match goal with |- Rabs ?a + Rabs ?x + _ < ?b /\ _ + Rabs ?y + _ < ?d => change (Rabs a <= INR sps / 16) in E1;
      change (7 / 16 * INR sps <= b) in E2; change (7 / 16 * INR sps <= d) in E3;
      change (Rabs x <= INR sps / 8) in B1'; change (Rabs y <= INR sps / 8) in B2' end.
    split; lra.
  - exists rx'. auto.
Qed.

(** ** Concrete cases *)

(** Key [true; false], 16 samples per bit, half a cycle per chip: a jammer more than a thousand times
    stronger than the signal does not change the bit; against the key [true; true] it does. *)
Example C80_jammer_case :
  let jam := tab 16 (fun i => -1000 * cos (2 * PI * 1 * (INR i / INR 16)) + 500 * sin (2 * PI * 1 * (INR i / INR 16))) in
  (exists tx rx, tx_cdma_bpsk_signal (of_list [true]) 16 1 (1 : R) [true; false] = Ret tx /\
    rx_cdma_bpsk_signal (noisy tx jam) 16 1 (1 : R) [true; false] = Ret rx /\ yields rx [true]) /\
  (exists tx rx, tx_cdma_bpsk_signal (of_list [true]) 16 1 (1 : R) [true; true] = Ret tx /\
    rx_cdma_bpsk_signal (noisy tx jam) 16 1 (1 : R) [true; true] = Ret rx /\ yields rx [false]).
Proof.
  intros jam.
  assert (T : forall key, length key = 2%nat -> exists tx, tx_cdma_bpsk_signal (of_list [true]) 16 1 (1 : R) key = Ret tx).
  { intros key L.
    assert (Er : cdma_rates 16 1 (1 : R) key = Ret (16, 8)%nat).
    { rewrite cdma_rates_R_intro; rewrite ?L; [reflexivity|lia|destruct key; discriminate|lia|exists 8%nat; reflexivity|unfold u64_max; lia|].
      change (16 / 2)%nat with 8%nat. cbn. lra. }
    destruct (cdma_rates_inv _ _ _ _ _ Er) as (_ & _ & _ & _ & _ & Hny & Hi).
    unfold tx_cdma_bpsk_signal. rewrite Er. cbn [bind]. unfold tx_bpsk_signal. rewrite usize_div_intro by lia. cbn [bind].
    rewrite Hny, Hi. eexists. reflexivity. }
  assert (Z : ~ (exists z : Z, 2 * 1 = IZR z * INR 16)).
  { intros [z Hz]. rewrite INR_IZR_INZ, <- !mult_IZR in Hz. apply eq_IZR in Hz. lia. }
  split.
  - destruct (T [true; false] eq_refl) as [tx Et]. exists tx.
    destruct (C80_hadamard_immune (of_list [true]) [true] 16 1 1 1 1 0 [[true; true]; [true; false]] [true; false] tx (fun _ => -1000) (fun _ => 500))
      as (rx & Er & Yr).
    + vm_compute. reflexivity.
    + vm_compute. reflexivity.
    + apply of_list_yields.
    + exact Et.
    + change (16 / 1 / length [true; false])%nat with 8%nat. cbn. lra.
    + exact Z.
    + exists rx. split; [exact Et|]. split; [exact Er|exact Yr].
  - destruct (T [true; true] eq_refl) as [tx Et]. exists tx.
    destruct (C80_tone_jammer (of_list [true]) [true] 16 1 1 1 [true; true] tx (fun _ => -1000) (fun _ => 500) (of_list_yields _) Et)
      as (rx & out & Er & Yr & L & D).
    + change (16 / 1 / length [true; true])%nat with 8%nat. cbn. lra.
    + exact Z.
    + exists rx. split; [exact Et|]. split; [exact Er|]. specialize (D 0%nat true eq_refl). cbn in D.
      destruct out as [|b [|? ?]]; try discriminate L. cbn in D.
      destruct b; [|exact Yr]. exfalso. destruct D as [D _]. specialize (D eq_refl). lra.
Qed.

(** Two chips of 8 samples per symbol, one carrier cycle per symbol, in binary64. *)
Example C80_qpsk_f64_case b1 b2 : let num := NumF libm_coarse in
  exists tx rx, tx_cdma_qpsk_signal (of_list [b1; b2]) 16 1 (f64_ofZ 1) [true; false] = Ret tx /\
    rx_cdma_qpsk_signal (noisy tx (repeat (Bdiv mode_NE (f64_ofZ 1) (f64_ofZ 8)) 16)) 16 1 (f64_ofZ 1) [true; false] = Ret rx /\
    yields rx [b1; b2].
Proof.
  intros num.
  assert (Et : exists tx, tx_cdma_qpsk_signal (of_list [b1; b2]) 16 1 (f64_ofZ 1) [true; false] = Ret tx).
  { destruct (proj1 (C34_cdma_checks libm_coarse (of_list [b1; b2]) (of_list []) 16 1 (f64_ofZ 1) [true; false] eq_refl)) as (tx & rx & E1 & _).
    - split; [lia|]. split; [discriminate|]. split; [cbn; lia|]. split; [exists 8%nat; reflexivity|]. right. vm_compute. reflexivity.
    - unfold tx_cdma_bpsk_signal in E1. fold num in E1. unfold tx_cdma_qpsk_signal.
      destruct (cdma_rates 16 1 (f64_ofZ 1) [true; false]) as [p| |]; try discriminate. cbn [bind].
      unfold tx_qpsk_signal. rewrite usize_div_intro by lia. cbn [bind]. destruct p. eexists. reflexivity. }
  destruct Et as [tx Et]. exists tx.
  destruct (ofZ_exact 1 ltac:(lia)) as (V & F & _). unfold val in V.
  assert (V8 : is_finite (Bdiv mode_NE (f64_ofZ 1) (f64_ofZ 8)) = true /\ B2R (Bdiv mode_NE (f64_ofZ 1) (f64_ofZ 8)) = 1 / 8).
  { destruct (lit_val 1 8 ltac:(lia) ltac:(lia)) as [F8 E8]. split; [exact F8|]. unfold val in E8. rewrite E8. apply rd_id.
    replace (1 / 8) with (bpow radix2 (-3)) by (cbn; lra). apply fmt_bpow. lia. }
  destruct (C80_cdma_qpsk_design_f64 libm_coarse (of_list [b1; b2]) [b1; b2] 16 1 (f64_ofZ 1) [true; false] tx 2
    (repeat (Bdiv mode_NE (f64_ofZ 1) (f64_ofZ 8)) 16)) as (rx & rx' & _ & _ & Er & Yr);
    change (16 / 1)%nat with 16%nat; rewrite ?V.
  - apply libm_coarse_within.
  - apply of_list_yields.
  - exact Et.
  - lia.
  - lia.
  - cbn. lia.
  - exact F.
  - cbn. lra.
  - intros [z Hz]. rewrite INR_IZR_INZ, <- !mult_IZR in Hz. apply eq_IZR in Hz. lia.
  - rewrite Rabs_pos_eq by lra. pose proof PI_3. apply Rle_trans with (bpow radix2 5); [|apply bpow_le; lia].
    change (bpow radix2 5) with 32. cbn. lra.
  - reflexivity.
  - intros x Hx. apply repeat_spec in Hx. subst x. destruct V8 as [F8 E8]. rewrite E8. split; [exact F8|]. rewrite Rabs_pos_eq; lra.
  - exists rx'. auto.
Qed.

(** ** Axioms used *)
Print Assumptions C80_cdma_bpsk_noise_exact.
Print Assumptions C80_cdma_bpsk_noise_energy.
Print Assumptions C80_tone_jammer.
Print Assumptions C80_hadamard_immune.
Print Assumptions C80_cdma_qpsk_noise_energy.
Print Assumptions C80_qpsk_tone_jammer.
Print Assumptions C80_cdma_bpsk_noise_f64.
Print Assumptions C80_cdma_qpsk_noise_f64.
Print Assumptions C80_cdma_bpsk_design_f64.
Print Assumptions C80_cdma_qpsk_design_f64.
