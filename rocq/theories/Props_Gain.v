(** Property C87: what an amplifier or attenuator in the channel does to every receiver (exact arithmetic).
    The signals are arbitrary: of any length, endless, or ending in a panic. *)
From Coq Require Import List Arith ZArith Reals Bool Lia Lra Psatz.
From Flocq Require Import Core.
From Verif Require Import Base IterTheory IterModel IterProofs IterRel Spec SpecR SpecC Tab Num LibModel LibReal
  ChaosModel PskModel PskChain RSums PskReal CdmaModel FhModel FskModel FftModel Dft OfdmModel OfdmReal FhOfdmModel
  CdmaProofs ChaosProofs ChaosMod Props_Chaos Props_Psk Props_Pass.
Import ListNotations.
Local Open Scope R_scope.

(** A channel multiplying every sample by g, and one multiplying every complex sample by z. *)
Definition amplified (g : R) (signal : Iter R) : Iter R := imap (fun x => g * x) signal.
Definition rotated (z : cpx R) (signal : Iter (cpx R)) : Iter (cpx R) := imap (cmul z) signal.

(** The two receivers fail in the same way, or their n-th calls of [next] agree for every n. *)
Definition same_bits (a b : outcome (Iter bool)) : Prop :=
  match a, b with
  | Ret x, Ret y => forall n, observed n x = observed n y
  | Panic, Panic => True
  | Diverge, Diverge => True
  | _, _ => False
  end.

Lemma same_bits_intro a b : orel (isim eq) a b -> same_bits a b.
Proof. destruct a, b; cbn; auto. intros H. apply isim_same. exact H. Qed.

Lemma nltb_gain g x : 0 < g -> nltb 0 (g * x) = nltb 0 x.
Proof. intros H. cbn. destruct (Rlt_dec 0 (g * x)), (Rlt_dec 0 x); auto; exfalso; nra. Qed.
Lemma nleb_gain g x : 0 < g -> nleb 0 (g * x) = nleb 0 x.
Proof. intros H. cbn. destruct (Rle_dec 0 (g * x)), (Rle_dec 0 x); auto; exfalso; nra. Qed.

Notation times g := (fun x y : R => y = g * x).

Lemma amplified_sim g s : isim (times g) s (amplified g s).
Proof. apply imap_sim_r. reflexivity. Qed.

Lemma bpsk_gain_sim g a b sr sy fc : 0 < g -> isim (times g) a b ->
  orel (isim eq) (rx_bpsk_signal a sr sy fc) (rx_bpsk_signal b sr sy fc).
Proof.
  intros Hg H. unfold rx_bpsk_signal. destruct (usize_div sr sy) as [n| |]; cbn [bind]; try exact I.
  apply (imap_sim (times g)).
  - apply integrate_and_dump_sim; [cbn; lra| |].
    + cbn. intros. subst. ring.
    + apply (imap_sim (fun x y => fst x = fst y /\ snd y = g * snd x)).
      * apply (ienum_sim (times g)). exact H.
      * intros [i x] [j y] [E1 E2]. cbn in E1, E2. subst. cbn. ring.
  - intros x y ->. symmetry. apply nltb_gain. exact Hg.
Qed.

Lemma qpsk_gain_sim g a b sr sy fc : 0 < g -> isim (times g) a b ->
  orel (isim eq) (rx_qpsk_signal a sr sy fc) (rx_qpsk_signal b sr sy fc).
Proof.
  intros Hg H. unfold rx_qpsk_signal. destruct (usize_div sr sy) as [n| |]; cbn [bind]; try exact I.
  apply (iflat_pure_sim (Forall2 (times g))).
  - apply nintegrate_and_dump_sim; [cbn; lra| |].
    + cbn. intros. subst. ring.
    + apply (imap_sim (fun x y => fst x = fst y /\ snd y = g * snd x)).
      * apply (ienum_sim (times g)). exact H.
      * intros [i x] [j y] [E1 E2]. cbn in E1, E2. subst. repeat constructor; cbn; ring.
  - intros x y HF. destruct HF as [|x1 y1 l m H1 HF]; [constructor|]. destruct HF as [|x2 y2 l m H2 HF]; [constructor|].
    destruct HF; [|constructor]. subst. repeat constructor; symmetry; apply nleb_gain; exact Hg.
Qed.

Lemma chip_gain_sim g n key a b : isim (times g) a b -> isim (times g) (chip_mul n key a) (chip_mul n key b).
Proof.
  intros H. apply (imap_sim (pairrel (times g) eq)).
  - apply izip_sim; [exact H|]. apply isim_refl. reflexivity.
  - intros [x k] [y k'] [E1 E2]. cbn in E1, E2. subst. cbn. ring.
Qed.

(** ** Positive gain: no receiver notices *)

Theorem C87_bpsk_gain : forall g (signal : Iter R) sample_rate symbol_rate fc, 0 < g ->
  same_bits (rx_bpsk_signal signal sample_rate symbol_rate fc)
            (rx_bpsk_signal (amplified g signal) sample_rate symbol_rate fc).
Proof. intros g s sr sy fc Hg. apply same_bits_intro. apply (bpsk_gain_sim g); [exact Hg|apply amplified_sim]. Qed.

Theorem C87_qpsk_gain : forall g (signal : Iter R) sample_rate symbol_rate fc, 0 < g ->
  same_bits (rx_qpsk_signal signal sample_rate symbol_rate fc)
            (rx_qpsk_signal (amplified g signal) sample_rate symbol_rate fc).
Proof. intros g s sr sy fc Hg. apply same_bits_intro. apply (qpsk_gain_sim g); [exact Hg|apply amplified_sim]. Qed.

Theorem C87_cdma_bpsk_gain : forall g (signal : Iter R) sample_rate symbol_rate fc key, 0 < g ->
  same_bits (rx_cdma_bpsk_signal signal sample_rate symbol_rate fc key)
            (rx_cdma_bpsk_signal (amplified g signal) sample_rate symbol_rate fc key).
Proof.
  intros g s sr sy fc key Hg. apply same_bits_intro. unfold rx_cdma_bpsk_signal.
  destruct (cdma_rates sr sy fc key) as [[sps spc]| |]; cbn [bind]; try exact I.
  apply (bpsk_gain_sim g); [exact Hg|]. apply chip_gain_sim. apply amplified_sim.
Qed.

Theorem C87_cdma_qpsk_gain : forall g (signal : Iter R) sample_rate symbol_rate fc key, 0 < g ->
  same_bits (rx_cdma_qpsk_signal signal sample_rate symbol_rate fc key)
            (rx_cdma_qpsk_signal (amplified g signal) sample_rate symbol_rate fc key).
Proof.
  intros g s sr sy fc key Hg. apply same_bits_intro. unfold rx_cdma_qpsk_signal.
  destruct (cdma_rates sr sy fc key) as [[sps spc]| |]; cbn [bind]; try exact I.
  apply (qpsk_gain_sim g); [exact Hg|]. apply chip_gain_sim. apply amplified_sim.
Qed.

Theorem C87_fh_bpsk_gain : forall g rng (signal : Iter R) low high num_freqs sample_rate symbol_rate, 0 < g ->
  same_bits (rx_fh_bpsk_signal rng signal low high num_freqs sample_rate symbol_rate)
            (rx_fh_bpsk_signal rng (amplified g signal) low high num_freqs sample_rate symbol_rate).
Proof.
  intros g rng s lo hi nf sr sy Hg. apply same_bits_intro. unfold rx_fh_bpsk_signal.
  destruct (usize_div sr sy) as [n| |]; cbn [bind]; try exact I. do 2 apply assert_rel.
  destruct (HopTable_new rng lo hi nf SEED) as [hops| |]; cbn [bind]; try exact I.
  apply (iflat_sim (pairrel (Forall2 (times g)) eq) eq eq); [|reflexivity|].
  - apply izip_sim; [apply chunks_sim; apply amplified_sim|]. apply isim_refl. reflexivity.
  - intros k k' [c f] [c' f'] -> [HC E]. cbn in HC, E. subst f'.
    rewrite <- (Forall2_len _ _ _ HC).
    apply (orel_bind (isim eq)); [apply (bpsk_gain_sim g); [exact Hg|]; apply of_list_sim; exact HC|].
    intros x y Hxy. apply (orel_bind _ _ _ _ _ _ (collect_rel eq _ _ _ Hxy)). intros l m HL. split; cbn; auto.
Qed.

(** ** Any gain other than zero, negative ones included *)

Theorem C87_dcsk_gain : forall g (signal : Iter R), g <> 0 ->
  same_bits (Ret (rx_baseband_dcsk signal)) (Ret (rx_baseband_dcsk (amplified g signal))).
Proof.
  intros g s Hg. apply same_bits_intro. cbn [orel]. unfold rx_baseband_dcsk.
  apply (imap_sim (pairrel (times g) (times g))); [apply ituples_sim; apply amplified_sim|].
  intros [x1 x2] [y1 y2] [E1 E2]. cbn in E1, E2. subst. cbn [nmul nofZ NumR].
  replace (g * x1 * (g * x2)) with (g * g * (x1 * x2)) by ring. symmetry. apply nltb_gain.
  destruct (Rdichotomy _ _ Hg); nra.
Qed.

Lemma fsk_sums g sr fc sep time l m : Forall2 (times g) l m -> forall i a0 a1 a2 a3,
  fold_left (fun '(a0, a1, a2, a3) '(v0, v1, v2, v3) => (nadd a0 v0, nadd a1 v1, nadd a2 v2, nadd a3 v3))
    (map (fun '(jdx, s_i) => fsk_products sr fc sep time jdx s_i) (index_from i m)) (g * a0, g * a1, g * a2, g * a3) =
  (let '(b0, b1, b2, b3) :=
  fold_left (fun '(a0, a1, a2, a3) '(v0, v1, v2, v3) => (nadd a0 v0, nadd a1 v1, nadd a2 v2, nadd a3 v3))
    (map (fun '(jdx, s_i) => fsk_products sr fc sep time jdx s_i) (index_from i l)) (a0, a1, a2, a3) in
   (g * b0, g * b1, g * b2, g * b3) : R * R * R * R).
Proof.
  unfold index_from. induction 1 as [|x y l m Hxy HF IH]; intros i a0 a1 a2 a3; [reflexivity|].
  cbn [length seq combine map fold_left]. subst y. unfold fsk_products at 2 4. cbv zeta. cbn [nadd nmul NumR].
  rewrite <- IH. f_equal. repeat (f_equal; try ring).
Qed.

Theorem C87_fsk_gain : forall g (signal : Iter R) sample_rate symbol_rate fc, g <> 0 ->
  same_bits (rx_fsk signal sample_rate symbol_rate fc) (rx_fsk (amplified g signal) sample_rate symbol_rate fc).
Proof.
  intros g s sr sy fc Hg. apply same_bits_intro. unfold rx_fsk.
  destruct (usize_div sr sy) as [n| |]; cbn [bind]; try exact I.
  apply (imap_sim (fun x y => fst x = fst y /\ Forall2 (times g) (snd x) (snd y))).
  - apply ienum_sim. apply chunks_sim. apply amplified_sim.
  - intros [i l] [j m] [E HF]. cbn in E, HF. subst j. unfold fsk_decide.
    pose proof (fsk_sums g sr fc (nmul (nlit 5 100) fc) (ndiv (nofnat i) (nofnat sr)) l m HF 0 0 0 0 0) as F.
    rewrite !Rmult_0_r in F. cbn [nofZ NumR]. rewrite F. clear F.
    destruct (fold_left _ _ _) as [[[b0 b1] b2] b3]. unfold nsqr. cbn [nadd nsub nmul NumR].
    replace (g * b0 * (g * b0) + g * b1 * (g * b1) - (g * b2 * (g * b2) + g * b3 * (g * b3)))
      with (g * g * (b0 * b0 + b1 * b1 - (b2 * b2 + b3 * b3))) by ring.
    symmetry. apply nleb_gain. destruct (Rdichotomy _ _ Hg); nra.
Qed.

(** ** Complex gain *)

Lemma slice_map {A B} (f : A -> B) l a b : slice (map f l) a b = (let? x := slice l a b in Ret (map f x)).
Proof. unfold slice. rewrite map_length. destruct (_ && _); cbn [bind]; [|reflexivity]. rewrite skipn_map, firstn_map. reflexivity. Qed.
Lemma idx_map {A B} (f : A -> B) l i : idx (map f l) i = (let? x := idx l i in Ret (f x)).
Proof. unfold idx. rewrite nth_error_map. destruct (nth_error l i); reflexivity. Qed.
Lemma fftshift_map {A B} (f : A -> B) l : fftshift (map f l) = map f (fftshift l).
Proof. unfold fftshift. rewrite map_length, skipn_map, firstn_map, map_app. reflexivity. Qed.
Lemma fft_process_map z n l : fft_process n dft (map (cmul z) l) = (let? x := fft_process n dft l in Ret (map (cmul z) x)).
Proof.
  unfold fft_process. rewrite map_length. destruct (n =? 0)%nat; [reflexivity|]. destruct (_ || _); [reflexivity|].
  cbn [bind]. f_equal. rewrite flat_map_concat_map, flat_map_concat_map, concat_map, map_map. f_equal.
  apply map_ext. intros i. rewrite skipn_map, firstn_map. apply dft_scale.
Qed.
Lemma set_idx_map {A B} (f : A -> B) l i v : set_idx (map f l) i (f v) = (let? x := set_idx l i v in Ret (map f x)).
Proof.
  revert i. induction l as [|x l IH]; intros [|i]; try reflexivity. cbn [map set_idx]. rewrite IH.
  destruct (set_idx l i v); reflexivity.
Qed.
Lemma for_each_ext {A S} (f g : S -> A -> outcome S) l : (forall s a, f s a = g s a) -> forall s, for_each l f s = for_each l g s.
Proof. intros H. induction l as [|a l IH]; intros s; [reflexivity|]. cbn [for_each]. rewrite H. destruct (g s a); cbn [bind]; auto. Qed.
Lemma cmul_c0 (z : cpx R) : cmul z c0 = c0.
Proof. destruct z. unfold cmul, c0. cbn. f_equal; ring. Qed.
Lemma dehop_map z rng l s : fod_dehop rng (map (cmul z) l) s =
  (let? (x, s1) := fod_dehop rng l s in Ret (map (cmul z) x, s1)).
Proof.
  unfold fod_dehop. destruct (shuffle rng _ s) as [[index s1]| |]; cbn [bind]; try reflexivity.
  replace (repeat c0 NUM_SUBCARRIERS) with (map (cmul z) (repeat c0 NUM_SUBCARRIERS)) at 1
    by (cbn; rewrite cmul_c0; reflexivity).
  generalize (repeat (c0 : cpx R) NUM_SUBCARRIERS) as acc. revert index.
  enough (G : forall index acc,
     for_each (combine (map (cmul z) l) index) (fun symbols '(c_i, i) => set_idx symbols i c_i) (map (cmul z) acc) =
     (let? x := for_each (combine l index) (fun symbols '(c_i, i) => set_idx symbols i c_i) acc in Ret (map (cmul z) x))).
  { intros index acc. rewrite G. destruct (for_each _ _ acc); reflexivity. }
  induction l as [|x l IH]; intros [|i index] acc; try reflexivity.
  cbn [map combine for_each]. rewrite set_idx_map. destruct (set_idx acc i x) as [acc'| |]; cbn [bind]; try reflexivity. apply IH.
Qed.

(** A differential receiver: any complex gain, that is any amplitude and any phase, and no reference needed. *)
Theorem C87_fh_ofdm_dcsk_gain : forall z rng (signal : Iter (cpx R)), z <> Cpx 0 0 ->
  same_bits (Ret (rx_baseband_fh_ofdm_dcsk_signal exact_fft rng signal))
            (Ret (rx_baseband_fh_ofdm_dcsk_signal exact_fft rng (rotated z signal))).
Proof.
  intros z rng s Hz. apply same_bits_intro. cbn [orel]. unfold rx_baseband_fh_ofdm_dcsk_signal.
  apply (iflat_sim (Forall2 (fun x y => y = cmul z x)) eq eq); [|reflexivity|].
  - apply chunks_sim. apply imap_sim_r. reflexivity.
  - intros k k' l m -> HF. assert (E : m = map (cmul z) l) by (induction HF; cbn; congruence). subst m. clear HF.
    unfold fod_demodulate. rewrite map_length, slice_map.
    destruct (slice l CP_LEN (length l)) as [b| |]; cbn [bind]; try exact I. cbn [fft_forward exact_fft].
    rewrite fft_process_map. destruct (fft_process NUM_SUBCARRIERS dft b) as [b'| |]; cbn [bind]; try exact I.
    rewrite fftshift_map, dehop_map. destruct (fod_dehop rng (fftshift b') k') as [[d s1]| |]; cbn [bind]; try exact I.
    rewrite idx_map. destruct (idx d 0) as [a| |]; cbn [bind]; try exact I.
    rewrite map_length, slice_map. destruct (slice d 1 (length d)) as [t| |]; cbn [bind]; try exact I.
    match goal with |- orel _ ?l ?r => replace r with l end.
    + destruct (for_each _ _ []) as [x| |]; cbn [bind]; try exact I. split; cbn; auto. induction x; constructor; auto.
    + f_equal. apply for_each_ext. intros acc j. rewrite idx_map. destruct (idx t j) as [v| |]; cbn [bind]; try reflexivity.
      do 3 f_equal.
      assert (P : 0 < re z * re z + im z * im z).
      { destruct z as [x y]. cbn. destruct (Req_dec x 0) as [->|Nx].
        - destruct (Req_dec y 0) as [->|Ny]; [contradiction|]. destruct (Rdichotomy _ _ Ny); nra.
        - pose proof (Rle_0_sqr y). unfold Rsqr in *. destruct (Rdichotomy _ _ Nx); nra. }
      replace (re (cmul (cconj (cmul z a)) (cmul z v))) with ((re z * re z + im z * im z) * re (cmul (cconj a) v))
        by (destruct z, a, v; cbn; ring).
      symmetry. apply (nleb_gain _ _ P).
Qed.

(** The OFDM receiver is linear: a complex gain comes out unchanged, on every symbol. *)
Definition scaled_symbols (z : cpx R) (a b : outcome (Iter (cpx R))) : Prop :=
  match a, b with
  | Ret x, Ret y => forall n, observed n y = (let? os := observed n x in Ret (map (option_map (cmul z)) os))
  | Panic, Panic => True
  | Diverge, Diverge => True
  | _, _ => False
  end.
Lemma scaled_symbols_intro z a b : orel (isim (fun x y => y = cmul z x)) a b -> scaled_symbols z a b.
Proof.
  destruct a as [x| |], b as [y| |]; cbn; auto. intros H n. pose proof (isim_observed _ _ _ n H) as O.
  destruct (observed n x) as [l| |], (observed n y) as [m| |]; cbn in O; try contradiction; cbn [bind]; auto.
  f_equal. induction O as [|u v l m Huv _ IH]; [reflexivity|]. cbn. rewrite <- IH. f_equal.
  destruct u, v; cbn in *; try contradiction; congruence.
Qed.
Lemma push_idx_map z (d : list (cpx R)) js : forall acc,
  for_each js (fun data_symbols carrier => let? v := idx (map (cmul z) d) carrier in Ret (data_symbols ++ [v])) (map (cmul z) acc) =
  (let? x := for_each js (fun data_symbols carrier => let? v := idx d carrier in Ret (data_symbols ++ [v])) acc in Ret (map (cmul z) x)).
Proof.
  induction js as [|j js IH]; intros acc; [reflexivity|]. cbn [for_each]. rewrite idx_map.
  destruct (idx d j) as [v| |]; cbn [bind]; try reflexivity. rewrite <- IH. rewrite map_app. reflexivity.
Qed.
Lemma ofdm_gain_sim z a b N P : isim (fun x y => y = cmul z x) a b ->
  orel (isim (fun x y => y = cmul z x)) (rx_baseband_ofdm_signal exact_fft a N P) (rx_baseband_ofdm_signal exact_fft b N P).
Proof.
  intros H. unfold rx_baseband_ofdm_signal. destruct (usize_sub N P) as [k| |]; cbn [bind]; try exact I.
  destruct (get_data_subcarriers N P) as [ds| |]; cbn [bind]; try exact I.
  apply (iflat_sim (Forall2 (fun x y => y = cmul z x)) _ eq); [|reflexivity|].
  - apply chunks_sim. exact H.
  - intros u u' l m -> HF. assert (E : m = map (cmul z) l) by (induction HF; cbn; congruence). subst m. clear HF.
    unfold ofdm_demodulate. rewrite map_length, slice_map.
    destruct (slice l _ (length l)) as [c| |]; cbn [bind]; try exact I. cbn [fft_forward exact_fft].
    rewrite fft_process_map. destruct (fft_process N dft c) as [c'| |]; cbn [bind]; try exact I.
    rewrite fftshift_map. pose proof (push_idx_map z (fftshift c') ds []) as E. cbn [map] in E. rewrite E. clear E.
    destruct (for_each ds _ []) as [x| |]; cbn [bind]; try exact I. split; cbn; [|reflexivity]. apply Forall2_map_l. reflexivity.
Qed.
Theorem C87_ofdm_linear : forall z (signal : Iter (cpx R)) subcarriers pilots,
  scaled_symbols z (rx_baseband_ofdm_signal exact_fft signal subcarriers pilots)
                   (rx_baseband_ofdm_signal exact_fft (rotated z signal) subcarriers pilots).
Proof. intros z s N P. apply scaled_symbols_intro. apply ofdm_gain_sim. apply imap_sim_r. reflexivity. Qed.

Theorem C87_ofdm_qpsk_gain : forall g (signal : Iter R) subcarriers pilots sample_rate symbol_rate fc, 0 < g ->
  same_bits (rx_ofdm_qpsk_signal exact_fft signal subcarriers pilots sample_rate symbol_rate fc)
            (rx_ofdm_qpsk_signal exact_fft (amplified g signal) subcarriers pilots sample_rate symbol_rate fc).
Proof.
  intros g s N P sr sy fc Hg. apply same_bits_intro. unfold rx_ofdm_qpsk_signal. apply assert_rel.
  destruct (usize_div sr sy) as [n| |]; cbn [bind]; try exact I.
  assert (ZR : forall x y, cmul (Cpx g 0) (Cpx x y) = Cpx (g * x) (g * y)) by (intros; unfold cmul; cbn; f_equal; ring).
  apply (orel_bind (isim (fun x y => y = cmul (Cpx g 0) x))).
  - apply ofdm_gain_sim. apply iskip_sim. apply take_every_sim.
    apply (imap_sim (Forall2 (times g))).
    + apply (convolve_sim (Forall2 (times g)) (Forall2 (times g))).
      * apply Forall2_repeat. cbn. ring.
      * intros. apply lanes_add_rel; auto. cbn. intros. subst. ring.
      * intros x y h HF. induction HF; cbn; constructor; auto. subst. ring.
      * apply (imap_sim (fun x y => fst x = fst y /\ snd y = g * snd x)); [apply (ienum_sim (times g)); apply amplified_sim|].
        intros [i x] [j y] [E1 E2]. cbn in E1, E2. subst. repeat constructor; cbn; ring.
    + intros x y HF. rewrite ZR. f_equal.
      * destruct HF as [|x0 y0 l m H0 HF]; cbn; [ring|exact H0].
      * destruct HF as [|x0 y0 l m H0 HF]; cbn; [ring|]. destruct HF as [|x1 y1 l m H1 HF]; cbn; [ring|exact H1].
  - intros x y H. apply (iflat_pure_sim (fun x y => y = cmul (Cpx g 0) x)); [exact H|].
    intros [a b] v ->. rewrite ZR. cbn [re im]. repeat constructor; symmetry; apply nleb_gain; exact Hg.
Qed.

Theorem C87_baseband_gain : forall g (signal : Iter (cpx R)), 0 < g ->
  same_bits (Ret (rx_baseband_bpsk_signal signal)) (Ret (rx_baseband_bpsk_signal (rotated (Cpx g 0) signal))) /\
  same_bits (Ret (rx_baseband_qpsk_signal signal)) (Ret (rx_baseband_qpsk_signal (rotated (Cpx g 0) signal))).
Proof.
  intros g s Hg.
  assert (ZR : forall x y, cmul (Cpx g 0) (Cpx x y) = Cpx (g * x) (g * y)) by (intros; unfold cmul; cbn; f_equal; ring).
  split; apply same_bits_intro; cbn [orel].
  - apply (imap_sim (fun x y => y = cmul (Cpx g 0) x)); [apply imap_sim_r; reflexivity|].
    intros [a b] v ->. rewrite ZR. symmetry. apply nleb_gain. exact Hg.
  - apply (iflat_pure_sim (fun x y => y = cmul (Cpx g 0) x)); [apply imap_sim_r; reflexivity|].
    intros [a b] v ->. rewrite ZR. repeat constructor; symmetry; apply nleb_gain; exact Hg.
Qed.

(** ** Negative gain: the coherent receivers read the complement *)

Theorem C87_bpsk_inverted :
  forall (message : Iter bool) m (sample_rate symbol_rate : nat) (fc : R) tx g,
    let sps := (sample_rate / symbol_rate)%nat in
    yields message m -> tx_bpsk_signal message sample_rate symbol_rate fc = Ret tx -> (symbol_rate <= sample_rate)%nat ->
    (forall k, (k < length m)%nat ->
       exists j, (j < sps)%nat /\ cos (2 * PI * fc * (INR (k * sps + j) / INR sample_rate)) <> 0) ->
    g < 0 ->
    exists rx, rx_bpsk_signal (amplified g tx) sample_rate symbol_rate fc = Ret rx /\ yields rx (map negb m).
Proof.
  intros message m sr sy fc tx g sps Hm Htx Hle Hc Hg.
  destruct (tx_bpsk_inv _ _ _ _ _ Htx) as (Hy & _ & _ & Y).
  assert (Hn : (1 <= sr / sy)%nat) by (apply Nat.div_le_lower_bound; lia).
  specialize (Y Hn m Hm). unfold bpsk_wave in Y. fold sps in Y, Hn.
  pose proof (imap_yields (fun x => g * x) _ _ Y) as Y2. rewrite tab_map in Y2.
  destruct (rx_bpsk_intro (amplified g tx) sr sy fc Hy Hn) as (rx & Er & Yr & _). fold sps in Yr.
  exists rx. split; [exact Er|]. specialize (Yr _ _ Y2). refine (eq_ind _ (fun x => yields _ x) Yr _ _).
  rewrite <- (tab_nth_id m false) at 2. rewrite tab_map. apply tab_ext. intros k Hk. rewrite corr_R.
  set (carrier := fun i => cos (2 * PI * fc * (INR i / INR sr))).
  set (b := nth k m false).
  rewrite (Rsum_n_ext sps _ (fun j => (g * (if b then 1 else -1)) * (carrier (k * sps + j)%nat * carrier (k * sps + j)%nat))).
  2:{ intros j Hj. rewrite block_div by exact Hj. fold b. unfold ccos. rewrite phase_R, nrz_R. fold (carrier (k * sps + j)%nat).
      cbn [nmul ncos NumR]. fold (carrier (k * sps + j)%nat). ring. }
  rewrite Rsum_n_scale.
  assert (P : 0 < Rsum_n sps (fun j => carrier (k * sps + j)%nat * carrier (k * sps + j)%nat)).
  { apply Rsum_n_sq_pos. apply Hc. exact Hk. }
  set (e := Rsum_n sps _) in *. clearbody e. cbn. destruct b; cbn; destruct (Rlt_dec _ _); auto; exfalso; nra.
Qed.

Theorem C87_qpsk_inverted :
  forall (message : Iter bool) m (sample_rate symbol_rate : nat) (fc : R) (half_cycles : Z) g,
    let sps := (sample_rate / symbol_rate)%nat in
    yields message m -> (1 <= symbol_rate <= sample_rate)%nat ->
    2 * fc * INR sps = IZR half_cycles * INR sample_rate ->
    ~ (exists z : Z, 2 * fc = IZR z * INR sample_rate) ->
    g < 0 ->
    exists tx rx, tx_qpsk_signal message sample_rate symbol_rate fc = Ret tx /\
      rx_qpsk_signal (amplified g tx) sample_rate symbol_rate fc = Ret rx /\
      yields rx (map negb (firstn (2 * (length m / 2)) m)).
Proof.
  intros message m sr sy fc h g sps Hm Hr Hh Hz Hg.
  assert (Hn : (1 <= sr / sy)%nat) by (apply Nat.div_le_lower_bound; lia).
  destruct (tx_qpsk_inv message sr sy fc ltac:(lia) Hn) as (tx & Et & Yt).
  specialize (Yt m Hm). unfold qpsk_wave in Yt. fold sps in Yt, Hn.
  pose proof (imap_yields (fun x => g * x) _ _ Yt) as Y2. rewrite tab_map in Y2.
  destruct (rx_qpsk_intro (amplified g tx) sr sy fc ltac:(lia) Hn) as (rx & Er & Yr). fold sps in Yr.
  exists tx, rx. split; [exact Et|]. split; [exact Er|].
  refine (eq_ind _ (fun x => yields _ x) (Yr _ _ Y2) _ _).
  rewrite <- (unpair (length m) m eq_refl). rewrite flat_map_concat_map, (flat_map_concat_map (fun '(a, b) => [a; b])), concat_map, map_map.
  rewrite <- !flat_map_concat_map.
  apply (flat_seq_nth _ _ _ (false, false)). intros k [b1 b2] Hb.
  destruct (qpsk_design_sums sr sy fc h k ltac:(lia) Hh Hz) as (HC & HS & HX). fold sps in HC, HS, HX.
  set (ph := fun i => 2 * PI * fc * (INR i / INR sr)).
  set (s1 := if b1 then 1 else -1). set (s2 := if b2 then 1 else -1).
  rewrite !corr_R.
  rewrite (Rsum_n_ext sps _ (fun j => (g * s1) * (cos (ph (k * sps + j)%nat) * cos (ph (k * sps + j)%nat)) +
     (- (g * s2)) * (sin (ph (k * sps + j)%nat) * cos (ph (k * sps + j)%nat)))).
  2:{ intros j Hj. rewrite block_div by exact Hj. rewrite (nth_error_nth _ _ (false, false) Hb).
      unfold ccos, csin. rewrite !phase_R, !nrz_R. fold (ph (k * sps + j)%nat) s1 s2. cbn [nmul nadd nopp ncos nsin NumR].
      fold (ph (k * sps + j)%nat). ring. }
  rewrite (Rsum_n_ext sps (fun j => nmul _ (nopp _)) (fun j => (g * s2) * (sin (ph (k * sps + j)%nat) * sin (ph (k * sps + j)%nat)) +
     (- (g * s1)) * (sin (ph (k * sps + j)%nat) * cos (ph (k * sps + j)%nat)))).
  2:{ intros j Hj. rewrite block_div by exact Hj. rewrite (nth_error_nth _ _ (false, false) Hb).
      unfold ccos, csin. rewrite !phase_R, !nrz_R. fold (ph (k * sps + j)%nat) s1 s2. cbn [nmul nadd nopp ncos nsin NumR].
      fold (ph (k * sps + j)%nat). ring. }
  rewrite !Rsum_n_plus, !Rsum_n_scale. unfold ph. rewrite HC, HS, HX.
  assert (N : 0 < INR sps / 2) by (assert (0 < INR sps) by (apply lt_0_INR; lia); lra).
  set (e := INR sps / 2) in *. clearbody e. cbn. unfold s1, s2.
  destruct b1, b2; cbn; f_equal; try f_equal; destruct (Rle_dec _ _); auto; exfalso; nra.
Qed.

(** ** Chaos shift keying compares with references of a fixed level: a gain of two loses a bit *)

Theorem C87_csk_refuted : exists (message : Iter bool) m g tx rx rx2, 0 < g /\ yields message m /\
  @tx_baseband_csk R _ message = Ret tx /\ rx_baseband_csk tx = Ret rx /\ yields rx m /\
  rx_baseband_csk (amplified g tx) = Ret rx2 /\ ~ yields rx2 m.
Proof.
  assert (A1 : nleb (nofZ 0) (nlit 1 10 : R) && nleb (nlit 1 10 : R) (nofZ 1) = true).
  { cbn. destruct (Rle_dec 0 (1/10)); destruct (Rle_dec (1/10) 1); try reflexivity; lra. }
  assert (A2 : nleb (nofZ 0) (nlit 15 100 : R) && nleb (nlit 15 100 : R) (nofZ 1) = true).
  { cbn. destruct (Rle_dec 0 (15/100)); destruct (Rle_dec (15/100) 1); try reflexivity; lra. }
  exists (of_list [true]), [true], 2.
  destruct (C25_csk_round_trip_exact (of_list [true]) [true] (of_list_yields _)) as (tx & rx & E1 & E2 & Y).
  destruct (csk_chain A1 A2 (of_list [true]) [true] (of_list_yields _)) as (tx' & _ & E1' & _ & Yt & _).
  assert (tx' = tx) by congruence. subst tx'. clear E1'.
  exists tx, rx. eexists. split; [lra|]. split; [apply of_list_yields|]. split; [exact E1|]. split; [exact E2|]. split; [exact Y|].
  split; [unfold rx_baseband_csk, LogisticMap_new; rewrite A1, A2; cbn [assert_then bind]; reflexivity|].
  pose proof (imap_yields (fun '((sample, chaos_1), chaos_2) => nltb (nabs (nsub sample chaos_1)) (nabs (nsub sample chaos_2))) _ _
     (izip_stream_yields _ _ _ _ (izip_stream_yields _ _ _ _ (imap_yields (fun x => 2 * x) _ _ Yt)
        (orbit_streams (logistic_map (nlit 39 10)) (nlit 1 10)))
        (orbit_streams (logistic_map (nlit 39 10)) (nlit 15 100)))) as HR.
  intros B. pose proof (yields_det _ _ _ HR B) as E. clear HR B. cbn in E. injection E as E. revert E.
  destruct (Rlt_dec _ _) as [L|L]; [|discriminate]. intros _. revert L. unfold csk_ref1, orbit_at, logistic_map, nlit. cbn.
  rewrite (Rabs_pos_eq (2 * _ - _)) by lra. rewrite (Rabs_pos_eq (2 * _ - _)) by lra. lra.
Qed.

(** What [same_bits] gives the caller: the same messages, streams and ends. *)
Theorem C87_same_behaviour : forall (a b : Iter bool), same_bits (Ret a) (Ret b) ->
  (forall m, yields a m <-> yields b m) /\ (forall f, streams a f <-> streams b f) /\
  (forall fuel, collect fuel a = collect fuel b).
Proof.
  intros a b H. cbn in H. assert (H' : forall n, observed n b = observed n a) by (intros; symmetry; apply H).
  split; [|split].
  - intros m. split; intros Y; [exact (observed_behaves a b H _ Y)|exact (observed_behaves b a H' _ Y)].
  - intros m. split; intros Y; [exact (observed_behaves a b H _ Y)|exact (observed_behaves b a H' _ Y)].
  - intros fuel. apply observed_collect. exact H.
Qed.

(** ** Concrete cases *)

(** 44100 samples and 900 symbols per second, carrier 1800 Hz: inverted and amplified by 30. *)
Example C87_qpsk_case b1 b2 :
  exists tx rx, tx_qpsk_signal (of_list [b1; b2]) (49 * 900) 900 (1800 : R) = Ret tx /\
    rx_qpsk_signal (amplified (-30) tx) (49 * 900) 900 1800 = Ret rx /\ yields rx [negb b1; negb b2].
Proof.
  assert (D : (49 * 900 / 900)%nat = 49%nat) by (apply Nat.div_mul; discriminate).
  destruct C32_design_case as [H1 H2].
  apply (C87_qpsk_inverted (of_list [b1; b2]) [b1; b2] (49 * 900) 900 1800 4 (-30)).
  - apply of_list_yields.
  - lia.
  - rewrite D. exact H1.
  - exact H2.
  - lra.
Qed.
(** The same link attenuated to a thousandth. *)
Example C87_qpsk_weak_case b1 b2 :
  exists tx rx, tx_qpsk_signal (of_list [b1; b2]) (49 * 900) 900 (1800 : R) = Ret tx /\
    rx_qpsk_signal (amplified (1 / 1000) tx) (49 * 900) 900 1800 = Ret rx /\ yields rx [b1; b2].
Proof.
  assert (D : (49 * 900 / 900)%nat = 49%nat) by (apply Nat.div_mul; discriminate).
  destruct C32_design_case as [H1 H2].
  destruct (C32_qpsk_round_trip (of_list [b1; b2]) [b1; b2] (49 * 900) 900 1800 4) as (tx & rx & Et & Er & Y).
  - apply of_list_yields.
  - lia.
  - rewrite D. exact H1.
  - exact H2.
  - pose proof (C87_qpsk_gain (1 / 1000) tx (49 * 900) 900 1800 ltac:(lra)) as S. rewrite Er in S.
    destruct (rx_qpsk_signal (amplified _ tx) _ _ _) as [rx2| |] eqn:E2; try contradiction.
    exists tx, rx2. split; [exact Et|]. split; [exact E2|]. apply (C87_same_behaviour rx rx2 S). exact Y.
Qed.
(** Two samples per bit at frequency 0, upside down. *)
Example C87_bpsk_case : forall tx, tx_bpsk_signal (of_list [true; false]) 2 1 (0 : R) = Ret tx ->
  exists rx, rx_bpsk_signal (amplified (-1) tx) 2 1 0 = Ret rx /\ yields rx [false; true].
Proof.
  intros tx E. apply (C87_bpsk_inverted (of_list [true; false]) [true; false] 2 1 0 tx (-1)); [apply of_list_yields|exact E|lia| |lra].
  intros k _. exists 0%nat. split; [change (2 / 1)%nat with 2%nat; lia|]. rewrite Rmult_0_r, Rmult_0_l, cos_0. lra.
Qed.
(** A quarter turn of the carrier. *)
Example C87_rotation_case : Cpx 0 1 <> Cpx 0 0 :> cpx R.
Proof. intros E. injection E as E. lra. Qed.

(** ** Axioms used *)
Print Assumptions C87_bpsk_gain.
Print Assumptions C87_qpsk_gain.
Print Assumptions C87_cdma_bpsk_gain.
Print Assumptions C87_cdma_qpsk_gain.
Print Assumptions C87_fh_bpsk_gain.
Print Assumptions C87_dcsk_gain.
Print Assumptions C87_fsk_gain.
Print Assumptions C87_fh_ofdm_dcsk_gain.
Print Assumptions C87_ofdm_linear.
Print Assumptions C87_ofdm_qpsk_gain.
Print Assumptions C87_baseband_gain.
Print Assumptions C87_bpsk_inverted.
Print Assumptions C87_qpsk_inverted.
Print Assumptions C87_csk_refuted.
Print Assumptions C87_same_behaviour.
