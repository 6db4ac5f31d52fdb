(** Property C98: noise and jamming on FH-BPSK (src/fh.rs), exact arithmetic. *)
From Coq Require Import List Arith ZArith NArith Reals Bool Lia Lra Psatz Permutation.
From Flocq Require Import Core.
From Verif Require Import Base IterTheory IterModel IterProofs Spec SpecR Tab Num LibModel LibReal
  ChaosModel PskModel PskChain RSums PskReal Props_Psk CdmaModel FhModel FhProofs FskReal Props_Pass Props_ChaosNoise.
Import ListNotations.
Local Open Scope R_scope.

(** ** The two ends of the link, any arithmetic *)

Section Ends.
Context {T : Type} `{Num T}.

Lemma zip_tab {X} (m : list bool) (f : nat -> X) : zip_stream m f = tab (length m) (fun k => (nth k m false, f k)).
Proof. apply zip_stream_tab. Qed.

Lemma fh_tx_table (rng : Rng) (message : Iter bool) m (low high : T) n sr sy tx hops f :
  yields message m -> tx_fh_bpsk_signal rng message low high n sr sy = Ret tx -> (1 <= sy <= sr)%nat ->
  HopTable_new rng low high n SEED = Ret hops -> streams hops f -> (forall k, nyquist_ok sr (f k) = true) ->
  yields tx (tab (length m * (sr / sy)) (fun i => nmul (bit_to_nrz (nth (i / (sr / sy)) m false)) (ccos sr (f (i / (sr / sy))%nat) (i mod (sr / sy))))).
Proof.
  intros Hm Htx Hr En St Hny. unfold tx_fh_bpsk_signal in Htx. destruct (nyquist_ok sr high); [|discriminate].
  destruct (is_int _) eqn:Hi in Htx; [|discriminate]. cbn [assert_then] in Htx. rewrite En in Htx. cbn [bind] in Htx. injection Htx as <-.
  set (sps := (sr / sy)%nat). assert (Hs : (1 <= sps)%nat) by (apply Nat.div_le_lower_bound; lia).
  pose (w := fun p : bool * T => tab sps (fun j => nmul (bit_to_nrz (fst p)) (ccos sr (snd p) j))).
  rewrite <- (flat_map_tab sps (length m) (fun k j => nmul (bit_to_nrz (nth k m false)) (ccos sr (f k) j)) w (fun k => (nth k m false, f k))) by reflexivity.
  rewrite <- zip_tab. apply iflat_fn_yields; [apply izip_stream_yields; assumption|].
  intros [b h] Hp. apply zip_stream_in in Hp. destruct Hp as (k & _ & ->).
  assert (Et : exists itx, tx_bpsk_signal (of_list [b]) sr sy (f k) = Ret itx).
  { unfold tx_bpsk_signal. rewrite usize_div_intro by lia. cbn [bind]. unfold assert_then. rewrite Hny, Hi. eexists. reflexivity. }
  destruct Et as (itx & Et). destruct (tx_bpsk_inv _ _ _ _ _ Et) as (_ & _ & _ & Y). specialize (Y Hs _ (of_list_yields [b])).
  fold sps in Y. unfold bpsk_wave in Y. cbn [length] in Y. rewrite Nat.mul_1_l in Y.
  assert (Ew : w (b, f k) = tab sps (fun i => nmul (bit_to_nrz (nth (i / sps) [b] false)) (ccos sr (f k) i))).
  { apply tab_ext. intros i Hi'. rewrite Nat.div_small by exact Hi'. reflexivity. }
  rewrite <- Ew in Y. rewrite Et. cbn [bind]. split.
  - fold sps. rewrite (collect_yields _ _ (sps + 1) Y) by (unfold w; rewrite tab_length; lia). reflexivity.
  - unfold w. destruct sps; [lia|]. rewrite tab_S. discriminate.
Qed.

Lemma fh_rx_table (rng : Rng) (received : Iter T) K g (low high : T) n sr sy hops f :
  yields received (tab (K * (sr / sy)) g) -> (1 <= sy <= sr)%nat ->
  nyquist_ok sr high = true -> is_int (ndiv (nofnat sr) (nofnat sy) : T) = true ->
  HopTable_new rng low high n SEED = Ret hops -> streams hops f ->
  exists rx, rx_fh_bpsk_signal rng received low high n sr sy = Ret rx /\
    yields rx (tab K (fun k => nltb (nofZ 0) (corr (sr / sy) 0 (fun j => nmul (g (k * (sr / sy) + j)%nat) (ccos sr (f k) j))))).
Proof.
  intros Hg Hr Hny Hi En St. unfold rx_fh_bpsk_signal. rewrite usize_div_intro by lia. cbn [bind]. unfold assert_then. rewrite Hny, Hi, En. cbn [bind].
  set (sps := (sr / sy)%nat) in *. assert (Hs : (1 <= sps)%nat) by (apply Nat.div_le_lower_bound; lia).
  eexists. split; [reflexivity|].
  pose proof (izip_stream_yields _ _ _ _ (chunks_yields sps _ _ Hs Hg) St) as Z. rewrite chunk_list_tab, tab_zip in Z by exact Hs.
  pose (w := fun p : list T * T => [nltb (nofZ 0) (corr sps 0 (fun j => nmul (nth j (fst p) (nofZ 0)) (ccos sr (snd p) j)))]).
  assert (Ew : flat_map w (tab K (fun k => (tab sps (fun j => g (k * sps + j)%nat), f k))) =
    tab K (fun k => nltb (nofZ 0) (corr sps 0 (fun j => nmul (g (k * sps + j)%nat) (ccos sr (f k) j))))).
  { rewrite (flat_map_tab 1 K (fun k _ => nltb (nofZ 0) (corr sps 0 (fun j => nmul (g (k * sps + j)%nat) (ccos sr (f k) j))))).
    - apply tab_eq; [lia|]. intros i _. rewrite Nat.div_1_r. reflexivity.
    - intros k _. unfold w. cbn [fst snd]. rewrite tab_S. cbn [tab seq map]. f_equal. f_equal. apply corr_ext. intros j Hj.
      cbn [Nat.mul Nat.add]. rewrite tab_nth by exact Hj. reflexivity. }
  rewrite <- Ew. apply iflat_fn_yields; [exact Z|].
  intros [c h] Hp. apply in_map_iff in Hp. destruct Hp as (k & E & _). injection E as <- <-.
  destruct (rx_bpsk_intro (of_list (tab sps (fun j => g (k * sps + j)%nat))) sr sy (f k) ltac:(lia) Hs) as (irx & Er & Y & _).
  rewrite Er. cbn [bind]. split; [|discriminate].
  specialize (Y 1%nat (fun j => nth j (tab sps (fun j => g (k * sps + j)%nat)) (nofZ 0))). rewrite Nat.mul_1_l in Y. fold sps in Y.
  assert (Y1 := Y ltac:(rewrite <- (tab_length sps (fun j => g (k * sps + j)%nat)) at 2; rewrite tab_nth_id; apply of_list_yields)).
  rewrite tab_S in Y1. rewrite (collect_yields _ _ (length (tab sps (fun j => g (k * sps + j)%nat)) + 1) Y1); [reflexivity|].
  cbn [length tab seq map]. rewrite tab_length. lia.
Qed.
End Ends.

(** ** Exact arithmetic *)

Lemma grid_R low high n k : (1 <= n)%nat ->
  (nadd low (nmul (ndiv (nsub high low) (nofnat n)) (nofnat k)) : R) = low + (high - low) / INR n * INR k.
Proof. intros Hn. unfold nofnat. cbn [nadd nmul ndiv nsub nofZ NumR]. rewrite <- !INR_IZR_INZ. reflexivity. Qed.

Lemma grid_nyquist (low high : R) n sr h : (1 <= n)%nat -> low <= high -> nyquist_ok sr high = true ->
  In h (grid low high n) -> nyquist_ok sr h = true.
Proof.
  intros Hn Hlh Hny Hh. unfold grid, tab in Hh. apply in_map_iff in Hh. destruct Hh as (k & Eh & Hk). apply in_seq in Hk.
  assert (Hhh : h <= high).
  { rewrite <- Eh, (grid_R low high n k Hn). assert (0 < INR n) by (apply lt_0_INR; lia). assert (INR k <= INR n) by (apply le_INR; lia).
    replace ((high - low) / INR n * INR k) with ((high - low) * (INR k / INR n)) by (field; lra).
    assert (INR k / INR n <= 1) by (apply Rmult_le_reg_r with (INR n); [lra|]; unfold Rdiv; rewrite Rmult_assoc, Rinv_l by lra; lra). nra. }
  apply Z.leb_le. apply Z.leb_le in Hny. eapply Z.le_trans; [|exact Hny]. cbn [nto_u64 NumR].
  pose proof (Ztrunc_le h high Hhh). unfold clamp_u64. lia.
Qed.

(** Exactly which noise flips which bit: only its correlation with the carrier of that bit's hop counts. *)
Theorem C98_fh_bpsk_noise_exact :
  forall (rng : Rng) (message : Iter bool) m (low high : R) (num_freqs sample_rate symbol_rate : nat) tx hops f (noise : list R),
    let sps := (sample_rate / symbol_rate)%nat in
    let carrier k j := cos (2 * PI * f k * (INR j / INR sample_rate)) in
    yields message m -> tx_fh_bpsk_signal rng message low high num_freqs sample_rate symbol_rate = Ret tx ->
    low <= high -> (2 <= num_freqs)%nat -> (1 <= symbol_rate <= sample_rate)%nat ->
    HopTable_new rng low high num_freqs SEED = Ret hops -> streams hops f ->
    length noise = (length m * sps)%nat ->
    exists rx out, rx_fh_bpsk_signal rng (noisy tx noise) low high num_freqs sample_rate symbol_rate = Ret rx /\
      yields rx out /\ length out = length m /\
      forall k b, nth_error m k = Some b ->
        let energy := Rsum_n sps (fun j => carrier k j * carrier k j) in
        let hit := Rsum_n sps (fun j => nth (k * sps + j) noise 0 * carrier k j) in
        0 < energy /\ (nth_error out k = Some b <-> if b then - hit < energy else hit <= energy).
Proof.
  intros rng message m low high n sr sy tx hops f noise sps carrier Hm Htx Hlh Hn Hr En St HL.
  assert (HC : nyquist_ok sr high = true /\ is_int (ndiv (nofnat sr) (nofnat sy) : R) = true).
  { unfold tx_fh_bpsk_signal in Htx. destruct (nyquist_ok sr high); [|discriminate]. cbn [assert_then] in Htx.
    destruct (is_int (ndiv (nofnat sr) (nofnat sy))); [auto|discriminate]. }
  destruct HC as (Hny & Hi).
  assert (Hs : (1 <= sps)%nat) by (apply Nat.div_le_lower_bound; lia).
  assert (Hin : forall k, In (f k) (grid low high n)).
  { destruct (hops_stream rng low high n SEED Hn) as (it & f' & E' & S' & In' & _). rewrite En in E'. injection E' as <-.
    intros k. pose proof (behaves_from_det _ _ _ _ St S' k) as B. cbn in B. injection B as ->. apply In'. }
  pose proof (fh_tx_table rng message m low high n sr sy tx hops f Hm Htx Hr En St
    (fun k => grid_nyquist low high n sr (f k) ltac:(lia) Hlh Hny (Hin k))) as Y. fold sps in Y.
  pose proof (noisy_yields tx noise _ _ 0 Y HL) as Yn.
  destruct (fh_rx_table rng (noisy tx noise) (length m) _ low high n sr sy hops f Yn Hr Hny Hi En St) as (rx & Er & Yr). fold sps in Yr.
  exists rx. eexists. split; [exact Er|]. split; [exact Yr|]. split; [apply tab_length|].
  intros k b Hb energy hit. assert (Hk : (k < length m)%nat) by (apply nth_error_Some; congruence). split.
  { apply Rsum_n_sq_pos. exists 0%nat. split; [lia|]. unfold carrier. change (INR 0) with 0. unfold Rdiv. rewrite Rmult_0_l, Rmult_0_r, cos_0. lra. }
  rewrite tab_nth_error. apply Nat.ltb_lt in Hk. rewrite Hk. rewrite corr_R.
  rewrite (Rsum_n_ext sps _ (fun j => (if b then 1 else -1) * (carrier k j * carrier k j) + nth (k * sps + j) noise 0 * carrier k j)).
  2:{ intros j Hj. cbn [Nat.mul Nat.add]. rewrite block_div, block_mod by exact Hj. rewrite (nth_error_nth _ _ false Hb).
      unfold ccos. rewrite phase_R, nrz_R. cbn [nmul nadd ncos NumR]. fold (carrier k j). ring. }
  rewrite Rsum_n_plus, Rsum_n_scale. fold energy hit. cbn [nofZ NumR].
  match goal with |- (Some ?t = Some b <-> _) => transitivity (t = b); [split; congruence|] end.
  rewrite (nltb_R_iff 0 _ b). destruct b; lra.
Qed.

(** Noise with less energy in each bit than the bit itself does no harm. *)
Theorem C98_fh_bpsk_noise_energy :
  forall (rng : Rng) (message : Iter bool) m (low high : R) (num_freqs sample_rate symbol_rate : nat) tx hops f (noise : list R),
    let sps := (sample_rate / symbol_rate)%nat in
    let carrier k j := cos (2 * PI * f k * (INR j / INR sample_rate)) in
    yields message m -> tx_fh_bpsk_signal rng message low high num_freqs sample_rate symbol_rate = Ret tx ->
    low <= high -> (2 <= num_freqs)%nat -> (1 <= symbol_rate <= sample_rate)%nat ->
    HopTable_new rng low high num_freqs SEED = Ret hops -> streams hops f ->
    length noise = (length m * sps)%nat ->
    (forall k, (k < length m)%nat ->
       Rsum_n sps (fun j => nth (k * sps + j) noise 0 * nth (k * sps + j) noise 0) < Rsum_n sps (fun j => carrier k j * carrier k j)) ->
    exists rx, rx_fh_bpsk_signal rng (noisy tx noise) low high num_freqs sample_rate symbol_rate = Ret rx /\ yields rx m.
Proof.
  intros rng message m low high n sr sy tx hops f noise sps carrier Hm Htx Hlh Hn Hr En St HL Hw.
  destruct (C98_fh_bpsk_noise_exact rng message m low high n sr sy tx hops f noise Hm Htx Hlh Hn Hr En St HL) as (rx & out & Er & Yr & L & D).
  exists rx. split; [exact Er|]. replace m with out; [exact Yr|].
  apply nth_error_inj. intros k. destruct (nth_error m k) as [b|] eqn:Eb.
  2:{ apply nth_error_None. rewrite L. apply nth_error_None. exact Eb. }
  assert (Hk : (k < length m)%nat) by (apply nth_error_Some; congruence). apply (D k b Eb).
  pose proof (weak_noise sps (fun j => nth (k * sps + j) noise 0) (fun j => carrier k j) _ eq_refl (Hw k Hk)) as W.
  apply Rabs_def2 in W. cbv beta in W. unfold carrier in W. fold sps. destruct b; lra.
Qed.

(** ** Tones that make whole turns in a symbol *)

Lemma whole_sums (N : nat) (d : Z) : (1 <= N)%nat -> (Z.abs d < Z.of_nat N)%Z ->
  Rsum_n N (fun j => cos (2 * PI * IZR d * (INR j / INR N))) = (if Z.eqb d 0 then INR N else 0) /\
  Rsum_n N (fun j => sin (2 * PI * IZR d * (INR j / INR N))) = 0.
Proof.
  intros HN Hd. assert (PN : 0 < INR N) by (apply lt_0_INR; lia). pose proof PI_RGT_0 as PP.
  set (x := 2 * PI * IZR d / INR N).
  rewrite (Rsum_n_ext N (fun j => cos _) (fun j => cos (0 + x * INR j))) by (intros; f_equal; unfold x; field; lra).
  rewrite (Rsum_n_ext N (fun j => sin _) (fun j => sin (0 + x * INR j))) by (intros; f_equal; unfold x; field; lra).
  rewrite sum_cos_kernel, sum_sin_kernel. destruct (Z.eqb_spec d 0) as [->|ND].
  - replace x with 0 by (unfold x; field; lra). rewrite kernel_0. rewrite Rmult_0_l, Rplus_0_l, cos_0, sin_0. lra.
  - assert (K0 : kernel N x = 0).
    { pose proof (kernel_closed N x) as KC. replace (INR N * (x / 2)) with (IZR d * PI) in KC by (unfold x; field; lra).
      rewrite (sin_eq_0_1 (IZR d * PI)) in KC by (exists d; reflexivity). apply Rmult_integral in KC. destruct KC as [KC|KC]; [|exact KC].
      exfalso. destruct (sin_0_mult _ KC) as [z Hz].
      assert (E : IZR d = IZR (z * Z.of_nat N)).
      { rewrite mult_IZR, <- INR_IZR_INZ. apply Rmult_eq_reg_r with (PI / INR N); [|unfold Rdiv; apply Rgt_not_eq, Rmult_lt_0_compat; [lra|apply Rinv_0_lt_compat; lra]].
        unfold x in Hz. transitivity (2 * PI * IZR d / INR N / 2); [field; lra|]. rewrite Hz. field. lra. }
      apply eq_IZR in E. assert (z = 0 \/ 1 <= Z.abs z)%Z as [->|Hz1] by lia; [lia|]. rewrite E, Z.abs_mul in Hd. nia. }
    rewrite K0. lra.
Qed.

Lemma tone_products (N p q : nat) : (1 <= N)%nat -> (2 * p < N)%nat -> (2 * q < N)%nat ->
  let c r j := cos (2 * PI * INR r * (INR j / INR N)) in let s r j := sin (2 * PI * INR r * (INR j / INR N)) in
  (p <> q -> Rsum_n N (fun j => c q j * c p j) = 0) /\ Rsum_n N (fun j => s q j * c p j) = 0.
Proof.
  intros HN Hp Hq c s.
  destruct (whole_sums N (Z.of_nat q - Z.of_nat p) HN ltac:(lia)) as [C1 S1].
  destruct (whole_sums N (Z.of_nat q + Z.of_nat p) HN ltac:(lia)) as [C2 S2]. split.
  - intros NE. rewrite (Rsum_n_ext N _ (fun j => /2 * cos (2 * PI * IZR (Z.of_nat q - Z.of_nat p) * (INR j / INR N)) + /2 * cos (2 * PI * IZR (Z.of_nat q + Z.of_nat p) * (INR j / INR N)))).
    + rewrite Rsum_n_plus, !Rsum_n_scale, C1, C2. replace (Z.of_nat q - Z.of_nat p =? 0)%Z with false by (symmetry; apply Z.eqb_neq; lia).
      replace (Z.of_nat q + Z.of_nat p =? 0)%Z with false by (symmetry; apply Z.eqb_neq; lia). lra.
    + intros j _. unfold c. rewrite minus_IZR, plus_IZR, <- !INR_IZR_INZ.
      replace (2 * PI * (INR q - INR p) * (INR j / INR N)) with (2 * PI * INR q * (INR j / INR N) - 2 * PI * INR p * (INR j / INR N)) by ring.
      replace (2 * PI * (INR q + INR p) * (INR j / INR N)) with (2 * PI * INR q * (INR j / INR N) + 2 * PI * INR p * (INR j / INR N)) by ring.
      rewrite cos_minus, cos_plus. lra.
  - rewrite (Rsum_n_ext N _ (fun j => /2 * sin (2 * PI * IZR (Z.of_nat q - Z.of_nat p) * (INR j / INR N)) + /2 * sin (2 * PI * IZR (Z.of_nat q + Z.of_nat p) * (INR j / INR N)))).
    + rewrite Rsum_n_plus, !Rsum_n_scale, S1, S2. lra.
    + intros j _. unfold c, s. rewrite minus_IZR, plus_IZR, <- !INR_IZR_INZ.
      replace (2 * PI * (INR q - INR p) * (INR j / INR N)) with (2 * PI * INR q * (INR j / INR N) - 2 * PI * INR p * (INR j / INR N)) by ring.
      replace (2 * PI * (INR q + INR p) * (INR j / INR N)) with (2 * PI * INR q * (INR j / INR N) + 2 * PI * INR p * (INR j / INR N)) by ring.
      rewrite sin_minus, sin_plus. lra.
Qed.

Lemma Rsum_map_swap {X} N (h : X -> nat -> R) (S : list X) :
  Rsum_n N (fun j => Rsum (map (fun q => h q j) S)) = Rsum (map (fun q => Rsum_n N (h q)) S).
Proof.
  induction S as [|q S IH]; cbn [map Rsum fold_right].
  - apply Rsum_n_0. reflexivity.
  - rewrite Rsum_n_plus, IH. reflexivity.
Qed.

Lemma Rsum_scale_r (c : R) l : Rsum l * c = Rsum (map (fun x => x * c) l).
Proof. induction l as [|x l IH]; cbn [map Rsum fold_right]; [ring|]. rewrite Rmult_plus_distr_r. f_equal. exact IH. Qed.

Lemma Rsum_pick (S : list nat) p (v : nat -> R) : NoDup S -> (forall q, q <> p -> v q = 0) ->
  (In p S -> Rsum (map v S) = v p) /\ (~ In p S -> Rsum (map v S) = 0).
Proof.
  intros ND Hv. induction S as [|q S IH]; [split; [intros []|reflexivity]|]. inversion_clear ND as [|? ? Nq ND'].
  specialize (IH ND'). cbn [map Rsum fold_right]. change (fold_right Rplus 0 (map v S)) with (Rsum (map v S)). split.
  - intros [->|Hp].
    + rewrite (proj2 IH Nq). lra.
    + rewrite (proj1 IH Hp), (Hv q) by (intros ->; contradiction). lra.
  - intros Np. rewrite (proj2 IH), (Hv q); [lra|intros ->; apply Np; left; reflexivity|intros X; apply Np; right; exact X].
Qed.

(** The hop frequencies make whole numbers of turns in a symbol and a jammer plays some of them, [jammed], each with
    any amplitude and phase (the cosine and sine parts [A] and [B], renewed each symbol).  Only bits sent on a jammed
    frequency can be lost, and those exactly when the cosine part opposes them with at least their own amplitude. *)
Theorem C98_jammer :
  forall (rng : Rng) (message : Iter bool) m (low high : R) (num_freqs sample_rate symbol_rate : nat) tx hops f
    (turns step : nat) (jammed : list nat) (A B : nat -> nat -> R),
    let sps := (sample_rate / symbol_rate)%nat in
    let freq q := low + (high - low) / INR num_freqs * INR q in
    let jam := tab (length m * sps) (fun i => Rsum (map (fun q =>
      A q (i / sps)%nat * cos (2 * PI * freq q * (INR i / INR sample_rate)) +
      B q (i / sps)%nat * sin (2 * PI * freq q * (INR i / INR sample_rate))) jammed)) in
    yields message m -> tx_fh_bpsk_signal rng message low high num_freqs sample_rate symbol_rate = Ret tx ->
    (2 <= num_freqs)%nat -> (1 <= symbol_rate <= sample_rate)%nat ->
    HopTable_new rng low high num_freqs SEED = Ret hops -> streams hops f ->
    low * INR sps = INR turns * INR sample_rate ->
    (high - low) * INR sps = INR num_freqs * INR step * INR sample_rate -> (1 <= step)%nat -> high <= INR sample_rate / 2 ->
    NoDup jammed -> (forall q, In q jammed -> (q < num_freqs)%nat) ->
    exists rx out, rx_fh_bpsk_signal rng (noisy tx jam) low high num_freqs sample_rate symbol_rate = Ret rx /\
      yields rx out /\ length out = length m /\
      forall k b q, nth_error m k = Some b -> (q < num_freqs)%nat -> f k = freq q ->
        (nth_error out k = Some b <-> (In q jammed -> if b then - A q k < 1 else A q k <= 1)).
Proof.
  intros rng message m low high n sr sy tx hops f a st S A B sps freq jam Hm Htx Hn Hr En Sf Ha Hst Hst1 Hhi ND HS.
  assert (Hs : (1 <= sps)%nat) by (apply Nat.div_le_lower_bound; lia).
  assert (Pn : 0 < INR n) by (apply lt_0_INR; lia). assert (Ps : 0 < INR sps) by (apply lt_0_INR; lia). assert (Psr : 0 < INR sr) by (apply lt_0_INR; lia).
  assert (Pst : 1 <= INR st) by (apply (le_INR 1); exact Hst1).
  assert (Hlh : low <= high).
  { assert (0 < (high - low) * INR sps) by (rewrite Hst; repeat apply Rmult_lt_0_compat; lra). nra. }
  destruct (C98_fh_bpsk_noise_exact rng message m low high n sr sy tx hops f jam Hm Htx Hlh Hn Hr En Sf ltac:(apply tab_length)) as (rx & out & Er & Yr & L & D).
  exists rx, out. split; [exact Er|]. split; [exact Yr|]. split; [exact L|].
  intros k b q Hb Hq Hf. specialize (D k b Hb). cbv zeta in D. fold sps in D.
  assert (Hk : (k < length m)%nat) by (apply nth_error_Some; congruence).
  set (P := fun q => (a + st * q)%nat).
  assert (HF : forall q, freq q = INR (P q) * INR sr / INR sps).
  { intros q'. unfold freq, P. rewrite plus_INR, mult_INR. apply Rmult_eq_reg_r with (INR sps); [|lra].
    transitivity (low * INR sps + ((high - low) * INR sps) * (INR q' / INR n)); [field; lra|]. rewrite Ha, Hst. field. lra. }
  assert (HP : forall q, (q < n)%nat -> (2 * P q < sps)%nat).
  { intros q' Hq'. apply INR_lt. rewrite mult_INR. change (INR 2) with 2.
    assert (Hh : high * INR sps = (INR a + INR n * INR st) * INR sr) by lra.
    assert (2 * (INR a + INR n * INR st) <= INR sps).
    { apply Rmult_le_reg_r with (INR sr); [lra|]. assert (high * INR sps <= INR sr / 2 * INR sps) by (apply Rmult_le_compat_r; lra). lra. }
    unfold P. rewrite plus_INR, mult_INR. assert (INR q' + 1 <= INR n) by (rewrite <- S_INR; apply le_INR; lia). nra. }
  assert (PHj : forall q j, 2 * PI * freq q * (INR j / INR sr) = 2 * PI * INR (P q) * (INR j / INR sps)) by (intros; rewrite HF; field; lra).
  assert (PHa : forall q j, 2 * PI * freq q * (INR (k * sps + j) / INR sr) = 2 * PI * INR (P q) * (INR j / INR sps) + 2 * PI * IZR (Z.of_nat (P q) * Z.of_nat k)).
  { intros q' j. rewrite HF, mult_IZR, <- !INR_IZR_INZ, plus_INR, mult_INR. field. lra. }
  set (c := fun r j => cos (2 * PI * INR r * (INR j / INR sps))) in *. set (s := fun r j => sin (2 * PI * INR r * (INR j / INR sps))) in *.
  rewrite Hf in D.
  rewrite (Rsum_n_ext sps (fun j => cos _ * cos _) (fun j => c (P q) j * c (P q) j)) in D by (intros; rewrite PHj; reflexivity).
  set (E := Rsum_n sps (fun j => c (P q) j * c (P q) j)) in *.
  assert (Hhit : Rsum_n sps (fun j => nth (k * sps + j) jam 0 * cos (2 * PI * freq q * (INR j / INR sr))) =
    Rsum (map (fun q' => A q' k * Rsum_n sps (fun j => c (P q') j * c (P q) j) + B q' k * Rsum_n sps (fun j => s (P q') j * c (P q) j)) S)).
  { rewrite (Rsum_n_ext sps _ (fun j => Rsum (map (fun q' => A q' k * (c (P q') j * c (P q) j) + B q' k * (s (P q') j * c (P q) j)) S))).
    - rewrite Rsum_map_swap. f_equal. apply map_ext. intros q'. rewrite Rsum_n_plus, !Rsum_n_scale. reflexivity.
    - intros j Hj. unfold jam. rewrite tab_nth by nia. rewrite block_div by exact Hj. rewrite Rsum_scale_r, map_map, PHj. f_equal. apply map_ext. intros q'.
      rewrite !PHa, cos_add_2pi, sin_add_2pi. unfold c, s. ring. }
  rewrite Hhit in D.
  assert (Hv : forall q', q' <> q -> In q' S -> A q' k * Rsum_n sps (fun j => c (P q') j * c (P q) j) + B q' k * Rsum_n sps (fun j => s (P q') j * c (P q) j) = 0).
  { intros q' Nq Iq. destruct (tone_products sps (P q) (P q') Hs (HP q Hq) (HP q' (HS q' Iq))) as [T1 T2].
    assert (NP : P q <> P q') by (unfold P; nia). specialize (T1 NP). fold (c (P q')) in T1. unfold c, s. rewrite T2. fold (c (P q')). rewrite T1. ring. }
  pose (v := fun q' => if Nat.eq_dec q' q then A q' k * E else 0).
  assert (Ev : Rsum (map (fun q' => A q' k * Rsum_n sps (fun j => c (P q') j * c (P q) j) + B q' k * Rsum_n sps (fun j => s (P q') j * c (P q) j)) S) = Rsum (map v S)).
  { f_equal. apply map_ext_in. intros q' Iq. unfold v. destruct (Nat.eq_dec q' q) as [->|Nq]; [|apply Hv; assumption].
    destruct (tone_products sps (P q) (P q) Hs (HP q Hq) (HP q Hq)) as [_ T2]. unfold c, s in *. rewrite T2. unfold E. ring. }
  rewrite Ev in D. destruct D as [PE D]. rewrite D.
  destruct (Rsum_pick S q v ND) as [V1 V2]; [intros q' Nq; unfold v; destruct (Nat.eq_dec q' q); [contradiction|reflexivity]|].
  destruct (in_dec Nat.eq_dec q S) as [I|I].
  - rewrite (V1 I). unfold v. destruct (Nat.eq_dec q q) as [_|X]; [|contradiction]. split.
    + intros X _. destruct b; nra.
    + intros X. specialize (X I). destruct b; nra.
  - rewrite (V2 I). split; [intros _ X; contradiction|]. intros _. destruct b; lra.
Qed.

(** So in every epoch of the hop table at most as many bits are lost as there are jammed frequencies. *)
Theorem C98_jammed_fraction :
  forall (rng : Rng) (message : Iter bool) m (low high : R) (num_freqs sample_rate symbol_rate : nat) tx
    (turns step : nat) (jammed : list nat) (A B : nat -> nat -> R),
    let sps := (sample_rate / symbol_rate)%nat in
    let freq q := low + (high - low) / INR num_freqs * INR q in
    let jam := tab (length m * sps) (fun i => Rsum (map (fun q =>
      A q (i / sps)%nat * cos (2 * PI * freq q * (INR i / INR sample_rate)) +
      B q (i / sps)%nat * sin (2 * PI * freq q * (INR i / INR sample_rate))) jammed)) in
    yields message m -> tx_fh_bpsk_signal rng message low high num_freqs sample_rate symbol_rate = Ret tx ->
    (2 <= num_freqs)%nat -> (1 <= symbol_rate <= sample_rate)%nat ->
    low * INR sps = INR turns * INR sample_rate ->
    (high - low) * INR sps = INR num_freqs * INR step * INR sample_rate -> (1 <= step)%nat -> high <= INR sample_rate / 2 ->
    NoDup jammed -> (forall q, In q jammed -> (q < num_freqs)%nat) ->
    exists rx out, rx_fh_bpsk_signal rng (noisy tx jam) low high num_freqs sample_rate symbol_rate = Ret rx /\
      yields rx out /\ length out = length m /\
      forall e, exists lost, NoDup lost /\ (length lost <= length jammed)%nat /\
        forall i, (i < num_freqs)%nat -> ~ In i lost -> nth_error out (e * num_freqs + i) = nth_error m (e * num_freqs + i).
Proof.
  intros rng message m low high n sr sy tx a st S A B sps freq jam Hm Htx Hn Hr Ha Hst Hst1 Hhi ND HS.
  destruct (hops_stream rng low high n SEED Hn) as (hops & f & En & Sf & Hin & Perm).
  destruct (C98_jammer rng message m low high n sr sy tx hops f a st S A B Hm Htx Hn Hr En Sf Ha Hst Hst1 Hhi ND HS) as (rx & out & Er & Yr & L & D).
  exists rx, out. split; [exact Er|]. split; [exact Yr|]. split; [exact L|]. intros e.
  assert (Hs : (1 <= sps)%nat) by (apply Nat.div_le_lower_bound; lia).
  assert (Pn : 0 < INR n) by (apply lt_0_INR; lia). assert (Ps : 0 < INR sps) by (apply lt_0_INR; lia). assert (Psr : 0 < INR sr) by (apply lt_0_INR; lia).
  assert (Pst : 1 <= INR st) by (apply (le_INR 1); exact Hst1).
  assert (Hlh : low < high).
  { assert (0 < (high - low) * INR sps) by (rewrite Hst; repeat apply Rmult_lt_0_compat; lra). nra. }
  assert (EG : grid low high n = map freq (seq 0 n)).
  { unfold grid, tab. apply map_ext. intros q. apply grid_R. lia. }
  assert (FI : forall q q', freq q = freq q' -> q = q').
  { intros q q' E. apply INR_eq. unfold freq in E. assert (0 < (high - low) / INR n) by (apply Rdiv_lt_0_compat; lra). nra. }
  assert (ND2 : NoDup (map (fun i => f (e * n + i)%nat) (seq 0 n))).
  { eapply Permutation_NoDup; [apply Permutation_sym, Perm|]. rewrite EG. apply FinFun.Injective_map_NoDup; [exact FI|apply seq_NoDup]. }
  pose (lost := filter (fun i => if in_dec Req_EM_T (f (e * n + i)%nat) (map freq S) then true else false) (seq 0 n)).
  exists lost. split; [apply NoDup_filter, seq_NoDup|]. split.
  - rewrite <- (map_length (fun i => f (e * n + i)%nat) lost), <- (map_length freq S). apply NoDup_incl_length.
    + unfold lost. clear - ND2. induction (seq 0 n) as [|i l IH]; [constructor|]. cbn [map filter] in *. inversion_clear ND2 as [|? ? N1 N2].
      specialize (IH N2). destruct (in_dec _ _ _); [|exact IH]. cbn [map]. constructor; [|exact IH].
      intros X. apply N1. apply in_map_iff in X. destruct X as (i' & E & I). apply filter_In in I. apply in_map_iff. exists i'. tauto.
    + intros x Hx. apply in_map_iff in Hx. destruct Hx as (i & <- & I). apply filter_In in I. destruct I as [_ I].
      destruct (in_dec _ _ _) as [J|]; [exact J|discriminate].
  - intros i Hi Nl. destruct (nth_error m (e * n + i)) as [b|] eqn:Eb.
    2:{ apply nth_error_None. rewrite L. apply nth_error_None. exact Eb. }
    pose proof (Hin (e * n + i)%nat) as I. rewrite EG in I. apply in_map_iff in I. destruct I as (q & Eq & Iq). apply in_seq in Iq.
    apply (D _ b q Eb); [lia|symmetry; exact Eq|]. intros J. exfalso. apply Nl. apply filter_In. split; [apply in_seq; lia|].
    destruct (in_dec _ _ _) as [|X]; [reflexivity|]. exfalso. apply X. rewrite <- Eq. apply in_map. exact J.
Qed.

(** ** Concrete cases *)

(** A tone of a hundred times the signal's amplitude on one of two hop frequencies: of each two bits one comes through. *)
Example C98_jammer_case (rng : Rng) :
  let m := [true; false; false; true] in
  let jam := tab 32 (fun i => Rsum (map (fun q : nat =>
      100 * cos (2 * PI * (1 + (3 - 1) / INR 2 * INR q) * (INR i / INR 8)) +
      0 * sin (2 * PI * (1 + (3 - 1) / INR 2 * INR q) * (INR i / INR 8))) [0%nat])) in
  exists tx rx out, tx_fh_bpsk_signal rng (of_list m) (1 : R) 3 2 8 1 = Ret tx /\
    rx_fh_bpsk_signal rng (noisy tx jam) 1 3 2 8 1 = Ret rx /\ yields rx out /\ length out = 4%nat /\
    (nth_error out 0 = Some true \/ nth_error out 1 = Some false) /\
    (nth_error out 2 = Some false \/ nth_error out 3 = Some true).
Proof.
  intros m jam.
  assert (E : exists tx, tx_fh_bpsk_signal rng (of_list m) (1 : R) 3 2 8 1 = Ret tx).
  { assert (Hny : nyquist_ok 8 (3 : R) = true).
    { apply Z.leb_le. cbn [nto_u64 NumR]. rewrite (Ztrunc_IZR 3). vm_compute. discriminate. }
    assert (Hi : is_int (ndiv (nofnat 8) (nofnat 1) : R) = true).
    { unfold is_int, nofnat. cbn [ndiv nofZ NumR nto_u64 neqb]. replace (IZR (Z.of_nat 8) / IZR (Z.of_nat 1)) with 8 by (cbn; lra).
      rewrite (Ztrunc_IZR 8). destruct (Req_EM_T _ _) as [|N]; [reflexivity|]. exfalso. apply N. reflexivity. }
    unfold tx_fh_bpsk_signal, assert_then. rewrite Hny, Hi.
    destruct (hops_stream rng (1 : R) 3 2 SEED ltac:(lia)) as (it & f & En & _). rewrite En. cbn [bind]. eexists. reflexivity. }
  destruct E as [tx Et]. exists tx.
  destruct (C98_jammed_fraction rng (of_list m) m 1 3 2 8 1 tx 1 1 [0%nat] (fun _ _ => 100) (fun _ _ => 0)) as (rx & out & Er & Yr & L & D).
  - apply of_list_yields.
  - exact Et.
  - lia.
  - lia.
  - change (8 / 1)%nat with 8%nat. cbn. lra.
  - change (8 / 1)%nat with 8%nat. cbn. lra.
  - lia.
  - cbn. lra.
  - repeat constructor. intros [].
  - intros q [<-|[]]. lia.
  - exists rx, out. split; [exact Et|]. split; [exact Er|]. split; [exact Yr|]. split; [exact L|].
    assert (G : forall lost : list nat, NoDup lost -> (length lost <= 1)%nat -> ~ In 0%nat lost \/ ~ In 1%nat lost).
    { intros [|x [|y l]] _ Ll; [left; intros []| |cbn in Ll; lia].
      destruct (Nat.eq_dec x 0) as [->|N]; [right|left]; intros [X|[]]; congruence. }
    split.
    + destruct (D 0%nat) as (lost & N1 & N2 & N3). destruct (G lost N1 N2) as [I|I]; [left; apply (N3 0%nat)|right; apply (N3 1%nat)]; auto.
    + destruct (D 1%nat) as (lost & N1 & N2 & N3). destruct (G lost N1 N2) as [I|I]; [left; apply (N3 0%nat)|right; apply (N3 1%nat)]; auto.
Qed.

(** ** Axioms used *)
Print Assumptions C98_fh_bpsk_noise_exact.
Print Assumptions C98_fh_bpsk_noise_energy.
Print Assumptions C98_jammer.
Print Assumptions C98_jammed_fraction.
