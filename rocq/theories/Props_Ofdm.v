(** Properties C42-C45 and C57: OFDM (src/ofdm.rs). *)
From Coq Require Import List Arith ZArith Reals Bool Lia Lra Psatz Sorted.
From Flocq Require Import Core.
From Verif Require Import Base IterTheory IterModel IterProofs PanicTheory Spec SpecR Tab Num LibModel LibReal
  ChaosModel PskModel PskChain CdmaModel FhProofs SpecC FftModel RSums PskReal Dft OfdmModel OfdmProofs OfdmReal OfdmWave
  OfdmLink OfdmPass.
Import ListNotations.
Local Open Scope R_scope.

(** ** C42 *)

Theorem C42_data_carriers :
  forall subcarriers pilots, (1 <= pilots <= subcarriers)%nat ->
    exists carriers, get_data_subcarriers subcarriers pilots = Ret carriers /\
      length carriers = (subcarriers - pilots)%nat /\ StronglySorted lt carriers /\
      (forall c, In c carriers -> (c < subcarriers)%nat /\ c <> (subcarriers / 2)%nat) /\
      (* the unused ones: the carrier in the middle, pilots/2 at the bottom, (pilots-1)/2 at the top *)
      (forall c, (c < subcarriers)%nat ->
         (~ In c carriers <-> c = (subcarriers / 2)%nat \/ (c < pilots / 2)%nat \/ (subcarriers - (pilots - 1) / 2 <= c)%nat)).
Proof.
  intros N P H. exists (carriers N P). split; [apply carriers_eq; exact H|]. split; [apply carriers_length; exact H|].
  split; [apply carriers_sorted|]. split.
  - intros c Hc. apply carriers_in in Hc; [lia|exact H].
  - intros c Hc. rewrite carriers_in by exact H. lia.
Qed.

(** No pilots, or more pilots than carriers: both ends panic (integer underflow). *)
Theorem C42_bad_counts_panic :
  forall (T : Type) (num : Num T) (fft : Fft T) (symbols : Iter (cpx T)) subcarriers pilots,
    (pilots = 0 \/ subcarriers < pilots)%nat ->
    tx_baseband_ofdm_signal fft symbols subcarriers pilots = Panic /\
    rx_baseband_ofdm_signal fft symbols subcarriers pilots = Panic.
Proof.
  intros T num fft symbols N P H. unfold tx_baseband_ofdm_signal, rx_baseband_ofdm_signal, get_data_subcarriers, usize_sub.
  destruct (Nat.leb_spec P N); [|split; reflexivity]. cbn [bind].
  destruct (Nat.leb_spec 1 P); [lia|split; reflexivity].
Qed.

Example C42_example : get_data_subcarriers 8 3 = Ret [1; 2; 3; 5; 6]%nat /\ get_data_subcarriers 5 5 = Ret [].
Proof. split; reflexivity. Qed.

(** ** C44 *)

Theorem C44_framing :
  forall (T : Type) (num : Num T) (fft : Fft T) (symbols : Iter (cpx T)) s N P,
    (1 <= P < N)%nat -> yields symbols s ->
    exists tx blocks, tx_baseband_ofdm_signal fft symbols N P = Ret tx /\ yields tx (concat blocks) /\
      (* one block per N - P symbols, rounded up *)
      (length s <= length blocks * (N - P) < length s + (N - P))%nat /\
      forall b, In b blocks -> length b = (N + N / 4)%nat /\ firstn (N / 4) b = skipn N b.
Proof.
  intros T num fft symbols s N P HP Hs. destruct (tx_ofdm_inv fft symbols N P HP) as (tx & Et & Yt).
  exists tx, (map (ofdm_block fft N P) (chunk_list (N - P) s)). split; [exact Et|]. split.
  { rewrite <- flat_map_concat_map. apply Yt. exact Hs. }
  split.
  { rewrite map_length. unfold chunk_list. rewrite map_length, seq_length. apply ceil_div_spec. lia. }
  intros b Hb. apply in_map_iff in Hb. destruct Hb as (chunk & <- & _). split; [apply ofdm_block_length; lia|].
  destruct (ofdm_block_spec fft N P chunk ltac:(lia)) as (d & (L & _) & E & _). rewrite E. unfold with_cp.
  pose proof (quarter N). pose proof (ofdm_body_length fft N d) as LB. rewrite L in LB.
  set (y := ofdm_body fft N d) in *. clearbody y.
  rewrite firstn_app, skipn_app, skipn_length. rewrite (firstn_all2 (skipn (N - N / 4) y)) by (rewrite skipn_length; lia).
  rewrite (skipn_all2 (skipn (N - N / 4) y)) by (rewrite skipn_length; lia).
  replace (N / 4 - (length y - (N - N / 4)))%nat with 0%nat by lia. cbn [firstn app]. rewrite app_nil_r. f_equal. lia.
Qed.

(** As many pilots as carriers: the transmitter silently sends nothing. *)
Theorem C44_all_pilots_sends_nothing :
  forall (T : Type) (num : Num T) (fft : Fft T) (symbols : Iter (cpx T)) N, (1 <= N)%nat ->
    exists tx, tx_baseband_ofdm_signal fft symbols N N = Ret tx /\ yields tx [].
Proof.
  intros T num fft symbols N HN. unfold tx_baseband_ofdm_signal, usize_sub. rewrite Nat.leb_refl. cbn [bind].
  rewrite carriers_eq by lia. cbn [bind]. eexists. split; [reflexivity|]. rewrite Nat.sub_diag.
  eapply iflat_yields; [apply chunks0|constructor|reflexivity].
Qed.

(** A signal that is not a whole number of blocks: the receiver gives the symbols of the whole
    blocks and then panics. *)
Theorem C44_incomplete_block_panics :
  forall (T : Type) (num : Num T) (fft : Fft T) (message : Iter (cpx T)) l N P,
    (1 <= P < N)%nat -> yields message l -> (length l mod (N + N / 4) <> 0)%nat ->
    exists rx out, rx_baseband_ofdm_signal fft message N P = Ret rx /\
      length out = (length l / (N + N / 4) * (N - P))%nat /\ panics_after rx (map Some out).
Proof.
  intros T num fft message l N P HP Hy Hl. set (M := (N + N / 4)%nat) in *.
  pose proof (Nat.div_mod (length l) M ltac:(lia)) as D. pose proof (Nat.mod_upper_bound (length l) M ltac:(lia)) as U.
  set (q := (length l / M)%nat) in *. set (r := (length l mod M)%nat) in *.
  assert (EC : chunk_list M l = map (fun i => block M i l) (seq 0 q) ++ [block M q l]).
  { unfold chunk_list. replace (ceil_div (length l) M) with (q + 1)%nat.
    - rewrite seq_app, map_app. reflexivity.
    - unfold ceil_div. apply (Nat.div_unique _ _ _ (r - 1)); lia. }
  unfold rx_baseband_ofdm_signal, usize_sub. destruct (Nat.leb_spec P N); [|lia]. cbn [bind].
  rewrite carriers_eq by lia. cbn [bind].
  exists (iflat_map tt (fun _ ofdm_symbol_data =>
         let? data_symbols := ofdm_demodulate fft N (carriers N P) ofdm_symbol_data in Ret (data_symbols, tt)) (chunks M message)).
  exists (flat_map (fun b => ofdm_read fft N P (skipn (N / 4) b)) (map (fun i => block M i l) (seq 0 q))).
  split; [reflexivity|].
  assert (FB : forall b, In b (map (fun i => block M i l) (seq 0 q)) -> length b = M).
  { intros b Hb. apply in_map_iff in Hb. destruct Hb as (i & <- & Hi). apply in_seq in Hi. rewrite block_length. nia. }
  split.
  - assert (LF : forall bs : list (list (cpx T)), length (flat_map (fun b => ofdm_read fft N P (skipn (N / 4) b)) bs) = (length bs * (N - P))%nat).
    { induction bs as [|b bs IH]; [reflexivity|]. cbn [flat_map length]. rewrite app_length, IH, ofdm_read_length by lia. lia. }
    rewrite LF, map_length, seq_length. reflexivity.
  - apply (iflat_panics _ tt (chunks M message) (map (fun i => block M i l) (seq 0 q)) (block M q l) [] _ 0).
    + rewrite <- EC. apply chunks_yields; [lia|exact Hy].
    + apply flat_ok_fn. intros b Hb. rewrite ofdm_demodulate_eq by (try apply FB; auto; lia). split; [reflexivity|].
      intros Z. pose proof (ofdm_read_length fft N P (skipn (N / 4) b) ltac:(lia)) as L. rewrite Z in L. cbn in L. lia.
    + intros c. rewrite ofdm_demodulate_short; [reflexivity|lia|]. rewrite block_length. fold M. nia.
    + reflexivity.
Qed.

Example C44_example : exists tx w, tx_baseband_ofdm_signal exact_fft (of_list [c0; c0; c0]) 4 2 = Ret tx /\ yields tx w /\ length w = 10%nat.
Proof.
  destruct (C44_framing R NumR exact_fft (of_list [c0; c0; c0]) [c0; c0; c0] 4 2 ltac:(lia) (of_list_yields _))
    as (tx & blocks & E & Y & L & B).
  exists tx, (concat blocks). split; [exact E|]. split; [exact Y|]. cbn in L.
  destruct blocks as [|b1 [|b2 [|b3 bs]]]; cbn [length] in L; try lia. cbn [concat]. rewrite !app_length.
  destruct (B b1) as [-> _]; [left; reflexivity|]. destruct (B b2) as [-> _]; [right; left; reflexivity|]. reflexivity.
Qed.
Example C44_incomplete_example : length [c0; c0; c0; c0; c0; c0 : cpx R] mod (4 + 4 / 4) <> 0%nat.
Proof. cbn. lia. Qed.

(** ** C43 *)

(** Exact arithmetic, the FFT as the exact transform: the symbols, then zeros up to a whole block. *)
Theorem C43_ofdm_round_trip :
  forall (symbols : Iter (cpx R)) s N P,
    Nat.even N = true -> (1 <= P < N)%nat -> yields symbols s ->
    exists tx rx zeros, tx_baseband_ofdm_signal exact_fft symbols N P = Ret tx /\
      rx_baseband_ofdm_signal exact_fft tx N P = Ret rx /\
      yields rx (s ++ repeat (Cpx 0 0) zeros) /\ (zeros < N - P)%nat /\ ((length s + zeros) mod (N - P) = 0)%nat.
Proof.
  intros symbols s N P He HP Hs. destruct (ofdm_round_trip symbols s N P He HP Hs) as (tx & rx & k & Et & Er & Hk & Hm & Y).
  exists tx, rx, k. auto.
Qed.

(** For every odd number of carriers it fails: of a block of non-zero symbols at least one comes back as
    zero. *)
Theorem C43_odd_carriers_fail :
  forall (symbols : Iter (cpx R)) s N P,
    Nat.odd N = true -> (1 <= P < N)%nat -> yields symbols s ->
    length s = (N - P)%nat -> ~ In (Cpx 0 0) s ->
    exists tx rx out, tx_baseband_ofdm_signal exact_fft symbols N P = Ret tx /\
      rx_baseband_ofdm_signal exact_fft tx N P = Ret rx /\ yields rx out /\
      length out = length s /\ In (Cpx 0 0) out /\ out <> s.
Proof.
  intros symbols s N P Ho HP Hs Ls Hnz.
  destruct (tx_ofdm_inv exact_fft symbols N P HP) as (tx & Et & Yt).
  destruct (rx_ofdm_inv exact_fft tx N P HP) as (rx & Er & Yr).
  assert (EC : chunk_list (N - P) s = [s]).
  { assert (s <> []) by (intros ->; cbn in Ls; lia). rewrite chunk_list_cons by (assumption || lia).
    rewrite firstn_all2, skipn_all2, chunk_list_nil by lia. reflexivity. }
  specialize (Yt s Hs). rewrite EC in Yt. cbn [flat_map] in Yt.
  specialize (Yr [ofdm_block exact_fft N P s] Yt). cbn [flat_map] in Yr. rewrite app_nil_r in Yr.
  exists tx, rx. eexists. split; [exact Et|]. split; [exact Er|]. split.
  { apply Yr. intros b [<-|[]]. apply ofdm_block_length. lia. }
  split; [rewrite ofdm_read_length by lia; lia|].
  assert (Z : In (Cpx 0 0) (ofdm_read exact_fft N P (skipn (N / 4) (ofdm_block exact_fft N P s)))).
  { destruct (ofdm_block_spec exact_fft N P s ltac:(lia)) as (d & (L & Hout & Hin) & E & _).
    rewrite E, skip_cp by (rewrite ofdm_body_length; exact L). rewrite read_body by (auto; lia).
    rewrite (fftshift_twice_odd d c0) by (rewrite L; exact Ho). rewrite L.
    pose proof (carriers_bounds N P ltac:(lia)) as CB.
    assert (HC : exists c, In c (carriers N P) /\ ~ In ((c + 1) mod N)%nat (carriers N P)).
    { destruct (Nat.lt_ge_cases (P / 2) (N / 2)) as [H|H].
      - exists (N / 2 - 1)%nat. rewrite !carriers_in by lia. replace (N / 2 - 1 + 1)%nat with (N / 2)%nat by lia.
        rewrite Nat.mod_small by (apply Nat.div_lt; lia). lia.
      - exists (N - (P - 1) / 2 - 1)%nat. rewrite !carriers_in by lia. split; [lia|].
        replace (N - (P - 1) / 2 - 1 + 1)%nat with (N - (P - 1) / 2)%nat by lia.
        destruct (Nat.eq_dec ((P - 1) / 2) 0) as [Z|Z].
        + rewrite Z, Nat.sub_0_r, Nat.mod_same by lia. lia.
        + rewrite Nat.mod_small by lia. lia. }
    destruct HC as (c & Hc & Hn). apply in_map_iff. exists c. split; [|exact Hc].
    rewrite tab_nth by (eapply carriers_lt; [|exact Hc]; lia). apply Hout. exact Hn. }
  split; [exact Z|]. intros Eq. apply Hnz. rewrite <- Eq. exact Z.
Qed.

(** The whole bit link under additive noise: the bits survive whenever, in every block, the noise on
    the samples after the prefix sums to less than sqrt 2.  Noise on the prefixes does not matter. *)
Theorem C43_ofdm_bits_with_noise :
  forall (message : Iter bool) m N P (noise : nat -> cpx R),
    Nat.even N = true -> (1 <= P < N)%nat -> yields message m ->
    (forall block, Rsum_n N (fun j => cmod (noise (block * (N + N / 4) + N / 4 + j)%nat)) < sqrt 2) ->
    exists tx w, tx_baseband_ofdm_signal exact_fft (tx_baseband_qpsk_signal message) N P = Ret tx /\ yields tx w /\
      forall noisy, yields noisy (map (fun '(i, x) => cadd x (noise i)) (combine (seq 0 (length w)) w)) ->
      exists rx extra, rx_baseband_ofdm_signal exact_fft noisy N P = Ret rx /\
        yields (rx_baseband_qpsk_signal rx) (firstn (2 * (length m / 2)) m ++ extra) /\
        (length extra < 2 * (N - P))%nat.
Proof.
  intros message m N P noise He HP Hm Hz. pose proof (tx_qpsk_sym message m Hm) as Hs.
  set (s := map qsym (pairs m)) in *. assert (Ls : length s = (length m / 2)%nat) by (unfold s; rewrite map_length; apply (pairs_len (length m)); reflexivity).
  destruct (tx_ofdm_wave _ s N P He HP Hs) as (tx & F & Et & HF & Yt).
  set (M := (N + N / 4)%nat) in *. set (B := ceil_div (length s) (N - P)) in *.
  eexists. eexists. split; [exact Et|]. split; [exact Yt|]. intros noisy Hn.
  rewrite tab_length in Hn. replace (seq 0 (B * M)) with (tab (B * M) (fun i => i)) in Hn by apply map_id.
  rewrite tab_combine, tab_map in Hn.
  destruct (rx_ofdm_wave noisy _ N P B HP Hn) as (rx & Er & Yr). apply rx_qpsk_dec in Yr. fold M in Yr.
  pose proof (ceil_div_spec (length s) (N - P) ltac:(lia)) as CS. fold B in CS. rewrite Ls in CS.
  destruct (dec_prefix m (B * (N - P)) (fun i =>
      Csum_n N (fun j => cmul (cadd (tone N (F ((i / (N - P) * M + N / 4 + j) / M)%nat) (Z.of_nat ((i / (N - P) * M + N / 4 + j) mod M) - Z.of_nat (N / 4)))
                                    (noise (i / (N - P) * M + N / 4 + j)%nat))
        (root N (- (Z.of_nat j * Z.of_nat (bin N (nth (i mod (N - P)) (carriers N P) 0%nat))))))) 1) as (extra & Le & E); [lra|lia| |].
  - intros i p Hp.
    assert (Hi : (i < length m / 2)%nat) by (rewrite <- (pairs_len (length m) m eq_refl); apply nth_error_Some; congruence).
    pose proof (Nat.div_mod i (N - P) ltac:(lia)) as D. pose proof (Nat.mod_upper_bound i (N - P) ltac:(lia)) as U.
    set (b := (i / (N - P))%nat) in *. set (r := (i mod (N - P))%nat) in *.
    assert (Hb : (b < B)%nat) by nia.
    set (k := bin N (nth r (carriers N P) 0%nat)). assert (Hk : (k < N)%nat) by (apply bin_lt; lia).
    rewrite (Csum_ext N _ (fun j => cadd (cmul (tone N (F b) (Z.of_nat j)) (root N (- (Z.of_nat j * Z.of_nat k))))
                                         (cmul (noise (b * M + N / 4 + j)%nat) (root N (- (Z.of_nat j * Z.of_nat k)))))).
    2:{ intros j Hj. replace ((b * M + N / 4 + j) / M)%nat with b by (apply (Nat.div_unique _ _ _ (N / 4 + j)); unfold M; lia).
        replace ((b * M + N / 4 + j) mod M)%nat with (N / 4 + j)%nat by (apply (Nat.mod_unique _ _ b); unfold M; lia).
        replace (Z.of_nat (N / 4 + j) - Z.of_nat (N / 4))%Z with (Z.of_nat j) by lia. fold k. ring. }
    rewrite Csum_plus, bin_of_tone by lia. destruct (HF b Hb) as (C1 & _). unfold k at 1 3. rewrite !C1 by exact U.
    replace (b * (N - P) + r)%nat with i by lia.
    replace (nth i s c0) with (qsym p).
    2:{ symmetry. apply nth_error_nth. unfold s. rewrite nth_error_map, Hp. reflexivity. }
    set (e := Csum_n N _). assert (Ce : cmod e < sqrt 2).
    { unfold e. eapply Rle_lt_trans; [apply cmod_sum|]. eapply Rle_lt_trans; [|apply (Hz b)]. right. apply Rsum_n_ext.
      intros j _. rewrite cmod_mul, cmod_root, Rmult_1_r. reflexivity. }
    pose proof (cmod_re e). pose proof (cmod_im e).
    unfold cadd. cbn [re im nadd NumR]. rewrite !Rmult_1_l.
    replace (re (qsym p) + re e - re (qsym p)) with (re e) by lra.
    replace (im (qsym p) + im e - im (qsym p)) with (im e) by lra. split; lra.
  - exists rx, extra. split; [exact Er|]. split; [|rewrite Le; lia].
    refine (eq_ind _ (fun x => yields _ x) Yr _ _). exact E.
Qed.

(** The bound is met by silence and by real noise. *)
Example C43_noise_example : forall block,
  Rsum_n 4 (fun j => cmod ((fun _ => Cpx (/ 4) 0) (block * (4 + 4 / 4) + 4 / 4 + j)%nat)) < sqrt 2.
Proof.
  intros blk. cbn [Rsum_n]. replace (cmod (Cpx (/ 4) 0)) with (/ 4); [pose proof sqrt2_bounds; lra|].
  unfold cmod. cbn. replace (/ 4 * / 4 + 0 * 0) with (/ 4 * / 4) by ring. rewrite sqrt_square; lra.
Qed.
Example C43_example : exists tx rx, tx_baseband_ofdm_signal exact_fft (of_list [Cpx 3 4]) 4 3 = Ret tx /\
  rx_baseband_ofdm_signal exact_fft tx 4 3 = Ret rx /\ yields rx [Cpx 3 4].
Proof.
  destruct (C43_ofdm_round_trip (of_list [Cpx 3 4]) [Cpx 3 4] 4 3 eq_refl ltac:(lia) (of_list_yields _))
    as (tx & rx & z & Et & Er & Y & Hz & _).
  exists tx, rx. split; [exact Et|]. split; [exact Er|]. replace z with 0%nat in Y by lia. exact Y.
Qed.
Example C43_odd_example : Nat.odd 5 = true /\ length [Cpx 3 4; Cpx 1 (-1)] = (5 - 3)%nat /\ ~ In (Cpx 0 0) [Cpx 3 4; Cpx 1 (-1)].
Proof. split; [reflexivity|]. split; [reflexivity|]. intros [H|[H|[]]]; injection H; lra. Qed.

(** ** C57 *)

(** The cyclic prefix: a multipath channel of at most N/4 + 1 taps only multiplies the symbol on each
    carrier c by the channel's gain at c's frequency, (c - N/2)/N cycles per sample. *)
Theorem C57_prefix_absorbs_multipath :
  forall (symbols : Iter (cpx R)) s N P (tap : nat -> cpx R) taps,
    Nat.even N = true -> (1 <= P < N)%nat -> yields symbols s -> (taps <= N / 4 + 1)%nat ->
    exists tx w carriers, tx_baseband_ofdm_signal exact_fft symbols N P = Ret tx /\ yields tx w /\
      get_data_subcarriers N P = Ret carriers /\
      forall received,
        yields received (map (fun i => Csum_n taps (fun l => cmul (tap l) (if (l <=? i)%nat then nth (i - l) w (Cpx 0 0) else Cpx 0 0)))
                             (seq 0 (length w))) ->
        exists rx out, rx_baseband_ofdm_signal exact_fft received N P = Ret rx /\ yields rx out /\
          forall i x, nth_error s i = Some x ->
            let c := nth (i mod (N - P)) carriers 0%nat in
            nth_error out i =
              Some (cmul (Csum_n taps (fun l => cmul (tap l) (root N (- (Z.of_nat l * (Z.of_nat c - Z.of_nat (N / 2))))))) x).
Proof.
  intros symbols s N P tap taps He HP Hs Ht.
  destruct (tx_ofdm_wave symbols s N P He HP Hs) as (tx & F & Et & HF & Yt).
  set (M := (N + N / 4)%nat) in *. set (B := ceil_div (length s) (N - P)) in *.
  eexists. eexists. exists (carriers N P). split; [exact Et|]. split; [exact Yt|]. split; [apply carriers_eq; lia|].
  intros received Hr. rewrite tab_length in Hr.
  destruct (rx_ofdm_wave received _ N P B HP Hr) as (rx & Er & Yr). fold M in Yr.
  exists rx. eexists. split; [exact Er|]. split; [exact Yr|]. intros i x Hx c.
  pose proof (ceil_div_spec (length s) (N - P) ltac:(lia)) as CS. fold B in CS.
  assert (Hi : (i < length s)%nat) by (apply nth_error_Some; congruence).
  rewrite tab_nth_error. destruct (Nat.ltb_spec i (B * (N - P))); [|lia]. f_equal.
  pose proof (Nat.div_mod i (N - P) ltac:(lia)) as D. pose proof (Nat.mod_upper_bound i (N - P) ltac:(lia)) as U.
  set (b := (i / (N - P))%nat) in *. fold c. set (r := (i mod (N - P))%nat) in *.
  assert (Hb : (b < B)%nat) by nia. set (k := bin N c). assert (Hk : (k < N)%nat) by (apply bin_lt; lia).
  rewrite (Csum_ext N _ (fun j => Csum_n taps (fun l => cmul (tap l) (cmul (tone N (F b) (Z.of_nat j - Z.of_nat l)) (root N (- (Z.of_nat j * Z.of_nat k))))))).
  2:{ intros j Hj. rewrite <- Csum_scale_r. apply Csum_ext. intros l Hl.
      destruct (Nat.leb_spec l (b * M + N / 4 + j)); [|lia]. rewrite tab_nth by (unfold M in *; nia).
      replace ((b * M + N / 4 + j - l) / M)%nat with b by (apply (Nat.div_unique _ _ _ (N / 4 + j - l)); unfold M; lia).
      replace ((b * M + N / 4 + j - l) mod M)%nat with (N / 4 + j - l)%nat by (apply (Nat.mod_unique _ _ b); unfold M; lia).
      replace (Z.of_nat (N / 4 + j - l) - Z.of_nat (N / 4))%Z with (Z.of_nat j - Z.of_nat l)%Z by lia. fold k. ring. }
  rewrite Csum_swap, <- Csum_scale_r. apply Csum_ext. intros l Hl.
  rewrite Csum_scale, bin_of_delay by lia. destruct (HF b Hb) as (C1 & _). unfold k at 2, c. rewrite C1 by exact U.
  replace (b * (N - P) + r)%nat with i by lia. rewrite (nth_error_nth s i _ Hx). fold c.
  replace (root N (- (Z.of_nat l * (Z.of_nat c - Z.of_nat (N / 2))))) with (root N (- (Z.of_nat l * Z.of_nat k))); [ring|].
  unfold k, bin. destruct (half_even N He) as [-> E2]. rewrite Nat2Z.inj_mod, Nat2Z.inj_add.
  set (u := (Z.of_nat c + Z.of_nat (N / 2))%Z). pose proof (Z.div_mod u (Z.of_nat N) ltac:(lia)) as DZ.
  replace (- (Z.of_nat l * (u mod Z.of_nat N)))%Z
    with (- (Z.of_nat l * (Z.of_nat c - Z.of_nat (N / 2))) + Z.of_nat N * (Z.of_nat l * (u / Z.of_nat N) - Z.of_nat l))%Z.
  - rewrite root_add, root_period by lia. ring.
  - replace (u mod Z.of_nat N)%Z with (u - Z.of_nat N * (u / Z.of_nat N))%Z by lia. unfold u.
    replace (Z.of_nat N) with (2 * Z.of_nat (N / 2))%Z by lia. ring.
Qed.

(** A direct path and an echo one sample later, N = 4, one data carrier (c = 1): the gain is 1 + i/2. *)
Example C57_example : exists tx w, tx_baseband_ofdm_signal exact_fft (of_list [Cpx 3 4]) 4 3 = Ret tx /\ yields tx w /\
  forall received, yields received (map (fun i => Csum_n 2 (fun l => cmul (if (l =? 0)%nat then Cpx 1 0 else Cpx (/ 2) 0)
      (if (l <=? i)%nat then nth (i - l) w (Cpx 0 0) else Cpx 0 0))) (seq 0 (length w))) ->
    exists rx out, rx_baseband_ofdm_signal exact_fft received 4 3 = Ret rx /\ yields rx out /\
      nth_error out 0 = Some (cmul (Cpx 1 (/ 2)) (Cpx 3 4)).
Proof.
  destruct (C57_prefix_absorbs_multipath (of_list [Cpx 3 4]) [Cpx 3 4] 4 3 (fun l => if (l =? 0)%nat then Cpx 1 0 else Cpx (/ 2) 0) 2
    eq_refl ltac:(lia) (of_list_yields _) ltac:(cbn; lia)) as (tx & w & cs & Et & Y & Ec & H).
  exists tx, w. split; [exact Et|]. split; [exact Y|]. intros received Hr. destruct (H received Hr) as (rx & out & Er & Yo & E).
  exists rx, out. split; [exact Er|]. split; [exact Yo|]. rewrite (E 0%nat _ eq_refl). injection Ec as <-. f_equal. f_equal.
  cbn [Csum_n Nat.eqb]. change (nth _ _ 0%nat) with 1%nat. change (4 / 2)%nat with 2%nat.
  change (- (Z.of_nat 0 * (Z.of_nat 1 - Z.of_nat 2)))%Z with 0%Z. change (- (Z.of_nat 1 * (Z.of_nat 1 - Z.of_nat 2)))%Z with 1%Z.
  unfold root, cis. replace (2 * PI * 1 / INR 4) with (PI / 2) by (cbn; field). replace (2 * PI * 0 / INR 4) with 0 by (cbn; field).
  rewrite cos_PI2, sin_PI2, cos_0, sin_0. apply cpx_eq; cbn; lra.
Qed.

(** ** C45 *)

Lemma is_int_rate sr sy : (1 <= sy)%nat -> (sr mod sy = 0)%nat -> (Z.of_nat sr < 2 ^ 64)%Z ->
  is_int (ndiv (nofnat sr) (nofnat sy) : R) = true.
Proof.
  intros Hy Hm Hs. assert (E : (sr = sr / sy * sy)%nat) by (pose proof (Nat.div_mod sr sy ltac:(lia)); lia).
  assert (0 < INR sy) by (apply lt_0_INR; lia).
  unfold is_int, nofnat. cbn [ndiv nofZ NumR nto_u64 neqb]. rewrite <- !INR_IZR_INZ.
  replace (INR sr / INR sy) with (IZR (Z.of_nat (sr / sy))).
  2:{ rewrite <- INR_IZR_INZ. apply Rmult_eq_reg_r with (INR sy); [|lra]. rewrite <- mult_INR, <- E. field. lra. }
  rewrite Ztrunc_IZR. assert (sr / sy <= sr)%nat by (apply Nat.div_le_upper_bound; nia).
  replace (clamp_u64 (Z.of_nat (sr / sy))) with (Z.of_nat (sr / sy)) by (unfold clamp_u64, u64_max; lia).
  destruct (Req_EM_T _ _) as [|NE]; [reflexivity|]. contradiction.
Qed.

Lemma sps_eq sr sy : sy <> 0%nat -> usize_div sr sy = Ret (sr / sy)%nat.
Proof. intros H. unfold usize_div. destruct (Nat.eqb_spec sy 0); [contradiction|reflexivity]. Qed.

(** The receiver's front end, for any input. *)
Lemma rx_front fft (signal : Iter R) g M N P sr sy fc :
  let L := (sr / sy)%nat in
  (1 <= sy)%nat -> (sr mod sy = 0)%nat -> (1 <= sr)%nat -> (Z.of_nat sr < 2 ^ 64)%Z -> yields signal (tab (M * L) g) ->
  let th i := 2 * PI * fc * (INR i / INR sr) in
  exists base, yields base (tab (if (L =? 1)%nat then M - 1 else M) (fun k =>
       Cpx (Rsum_n L (fun j => ext0 (M * L) (fun i => g i * cos (th i)) (k * L + 1 + j)%nat))
           (Rsum_n L (fun j => ext0 (M * L) (fun i => g i * - sin (th i)) (k * L + 1 + j)%nat)))) /\
    rx_ofdm_qpsk_signal fft signal N P sr sy fc =
      bind (rx_baseband_ofdm_signal fft base N P) (fun q => Ret (rx_baseband_qpsk_signal q)).
Proof.
  intros L Hy Hm Hr Hs Hyd th.
  assert (HL : (1 <= L)%nat) by (pose proof (Nat.div_mod sr sy ltac:(lia)) as D; fold L in D; destruct L; lia).
  eexists. split.
  2:{ unfold rx_ofdm_qpsk_signal, assert_then. rewrite is_int_rate, sps_eq by lia. cbn [bind]. reflexivity. }
  fold L. cbn [nadd nmul nofZ NumR]. change (fun b b0 : R => b + b0) with Rplus. change (fun b b0 : R => b * b0) with Rmult.
  apply matched_filter; [exact HL|].
  match goal with |- yields (imap ?f _) _ => pose proof (imap_yields f _ _ (ienum_yields _ _ Hyd)) as Y end.
  rewrite tab_index, tab_map in Y. match type of Y with yields _ ?l => match goal with |- yields _ ?l' => replace l' with l; [exact Y|] end end.
  apply tab_ext. intros i _. rewrite !nofnat_R. reflexivity.
Qed.

Lemma flat_map_nest {A B C} (g : B -> list C) (f : A -> list B) l :
  flat_map g (flat_map f l) = flat_map (fun a => flat_map g (f a)) l.
Proof. induction l as [|a l IH]; [reflexivity|]. cbn [flat_map]. rewrite flat_map_app, IH. reflexivity. Qed.

(** What the receiver makes of any signal of whole blocks, any FFT, two or more samples per symbol: symbol n is
    the sum of the mixed samples n*sps + 1 .. (n+1)*sps (the last of all symbols has one sample less),
    [sps] = samples per symbol.  So it is one sample late. *)
Theorem C45_receiver_one_sample_late :
  forall (fft : Fft R) (signal : Iter R) (x : nat -> R) blocks N P sample_rate symbol_rate fc,
    let sps := (sample_rate / symbol_rate)%nat in
    let block_len := (N + N / 4)%nat in
    let time i := INR i / INR sample_rate in
    (1 <= P < N)%nat -> (1 <= symbol_rate)%nat -> (sample_rate mod symbol_rate = 0)%nat -> (Z.of_nat sample_rate < 2 ^ 64)%Z ->
    (2 <= sps)%nat ->
    yields signal (map x (seq 0 (blocks * block_len * sps))) ->
    exists carriers rx, get_data_subcarriers N P = Ret carriers /\
      rx_ofdm_qpsk_signal fft signal N P sample_rate symbol_rate fc = Ret rx /\
      let sample i := if (i <? blocks * block_len * sps)%nat then x i else 0 in
      let symbol n := Cpx (Rsum_n sps (fun j => sample (n * sps + 1 + j)%nat * cos (2 * PI * fc * time (n * sps + 1 + j)%nat)))
                          (- Rsum_n sps (fun j => sample (n * sps + 1 + j)%nat * sin (2 * PI * fc * time (n * sps + 1 + j)%nat))) in
      yields rx (flat_map (fun b =>
        let spectrum := fft_forward fft (map (fun j => symbol (b * block_len + N / 4 + j)%nat) (seq 0 N)) in
        flat_map (fun c => let v := nth ((c + (N + 1) / 2) mod N) spectrum (Cpx 0 0) in
                           [if Rle_dec 0 (re v) then true else false; if Rle_dec 0 (im v) then true else false]) carriers)
        (seq 0 blocks)).
Proof.
  intros fft signal x B N P sr sy fc L M time HP Hy Hm Hs HL Yx.
  pose proof (quarter N) as HQ.
  assert (Hsr : (1 <= sr)%nat) by (destruct sr; [unfold L in HL; rewrite Nat.div_0_l in HL by lia; lia|lia]).
  destruct (rx_front fft signal x (B * M) N P sr sy fc Hy Hm Hsr Hs Yx) as (base & Yb & E). fold L in Yb, E.
  destruct (rx_ofdm_inv fft base N P HP) as (q & Eq & Yq). rewrite Eq in E. cbn [bind] in E.
  exists (carriers N P). eexists. split; [apply carriers_eq; lia|]. split; [exact E|]. intros sample symbol.
  destruct (Nat.eqb_spec L 1); [lia|].
  specialize (Yq (tab B (fun b => tab M (fun t => symbol (b * M + t)%nat)))).
  assert (EB : concat (tab B (fun b => tab M (fun t => symbol (b * M + t)%nat))) = tab (B * M) symbol).
  { rewrite <- (map_id (tab B _)), <- flat_map_concat_map.
    rewrite (flat_map_tab M B (fun b t => symbol (b * M + t)%nat)) by reflexivity. apply tab_ext. intros i Hi. f_equal.
    pose proof (Nat.div_mod i M ltac:(unfold M; lia)). lia. }
  rewrite EB in Yq.
  assert (Yq' : yields q (flat_map (fun b => ofdm_read fft N P (skipn (N / 4) b)) (tab B (fun b => tab M (fun t => symbol (b * M + t)%nat))))).
  { apply Yq; [|intros b Hb; apply in_map_iff in Hb; destruct Hb as (j & <- & _); apply tab_length].
    refine (eq_ind _ (fun z => yields _ z) Yb _ _). apply tab_ext. intros k Hk. unfold symbol.
    apply cpx_eq; cbn [re im].
    - apply Rsum_n_ext. intros j _. unfold ext0, sample, time. destruct (_ <? _)%nat; lra.
    - replace (- Rsum_n L _) with (-1 * Rsum_n L (fun j => sample (k * L + 1 + j)%nat * sin (2 * PI * fc * time (k * L + 1 + j)%nat))) by ring.
      rewrite <- Rsum_n_scale. apply Rsum_n_ext. intros j _. unfold ext0, sample, time. destruct (_ <? _)%nat; lra. }
  apply rx_qpsk_dec in Yq'. refine (eq_ind _ (fun z => yields _ z) Yq' _ _).
  unfold tab at 1. rewrite flat_map_map. rewrite (flat_map_nest dec). apply flat_map_ext_in. intros b Hb. apply in_seq in Hb.
  unfold ofdm_read. rewrite flat_map_map. apply flat_map_ext_in. intros c Hc. apply carriers_lt in Hc; [|lia].
  rewrite skipn_tab.
  replace (tab (M - N / 4) (fun i => symbol (b * M + (N / 4 + i))%nat)) with (tab N (fun j => symbol (b * M + N / 4 + j)%nat))
    by (unfold M; rewrite Nat.add_sub; apply tab_ext; intros; f_equal; lia).
  fold (tab N (fun j => symbol (b * M + N / 4 + j)%nat)). set (sp := fft_forward fft _).
  assert (Lsp : length sp = N) by (unfold sp; rewrite fft_forward_length; apply tab_length).
  rewrite <- (tab_nth_id sp c0) at 1. rewrite Lsp, fftshift_tab, tab_nth by exact Hc. reflexivity.
Qed.

(** The passband transmitter, for any message. *)
Lemma tx_front (message : Iter bool) m N P sr sy fc : Nat.even N = true -> (1 <= P < N)%nat ->
  (1 <= sy)%nat -> (sr mod sy = 0)%nat -> (1 <= sr)%nat -> (Z.of_nat sr < 2 ^ 64)%Z -> yields message m ->
  let M := (N + N / 4)%nat in let B := ceil_div (length m / 2) (N - P) in let L := (sr / sy)%nat in
  exists tx F, tx_ofdm_qpsk_signal exact_fft message N P sr sy fc = Ret tx /\
    (forall b, (b < B)%nat -> carries N P (fun i => nth (b * (N - P) + i) (map qsym (pairs m)) c0) (F b)) /\
    yields tx (tab (B * M * L) (pass_sample fc sr L (fun i => tone N (F (i / M)%nat) (Z.of_nat (i mod M) - Z.of_nat (N / 4))))).
Proof.
  intros He HP Hy Hm Hr Hs Ym M B L.
  assert (HL : (1 <= L)%nat) by (pose proof (Nat.div_mod sr sy ltac:(lia)) as D; fold L in D; destruct L; lia).
  destruct (tx_ofdm_wave _ _ N P He HP (tx_qpsk_sym message m Ym)) as (tx & F & Et & HF & Yt).
  rewrite map_length, (pairs_len (length m) m eq_refl) in HF, Yt. fold B M in HF, Yt.
  eexists. exists F. split; [|split].
  - unfold tx_ofdm_qpsk_signal, assert_then. rewrite is_int_rate, sps_eq by lia. cbn [bind]. fold L. rewrite Et. cbn [bind]. reflexivity.
  - exact HF.
  - pose proof (inflate_yields L tx _ HL Yt) as Yi. rewrite repeat_each_tab in Yi.
    match goal with |- yields (imap ?f _) _ => pose proof (imap_yields f _ _ (ienum_yields _ _ Yi)) as Y end.
    rewrite tab_index, tab_map in Y. match type of Y with yields _ ?l => match goal with |- yields _ ?l' => replace l' with l; [exact Y|] end end.
    apply tab_ext. intros i _. unfold pass_sample, cexp_i, cmul. rewrite !nofnat_R. cbn [re im nexp nofZ ncos nsin nmul nsub npi NumR ndiv].
    change (exp (IZR 0)) with (exp 0). rewrite exp_0, !Rmult_1_l. reflexivity.
Qed.

(** One sample per symbol: the receiver is one symbol short, so on what the transmitter sends it
    panics in the last block (the bits of the blocks before it are given). *)
Theorem C45_one_sample_per_symbol_panics :
  forall (message : Iter bool) m N P rate fc,
    Nat.even N = true -> (1 <= P < N)%nat -> (1 <= rate)%nat -> (Z.of_nat rate < 2 ^ 64)%Z ->
    yields message m -> (2 <= length m)%nat ->
    exists tx rx bits blocks, tx_ofdm_qpsk_signal exact_fft message N P rate rate fc = Ret tx /\
      rx_ofdm_qpsk_signal exact_fft tx N P rate rate fc = Ret rx /\
      (length m / 2 <= (blocks + 1) * (N - P) < length m / 2 + (N - P))%nat /\
      length bits = (2 * (blocks * (N - P)))%nat /\ panics_after rx (map Some bits).
Proof.
  intros message m N P r fc He HP Hr Hs Ym Lm. pose proof (quarter N).
  destruct (tx_front message m N P r r fc He HP Hr ltac:(apply Nat.mod_same; lia) Hr Hs Ym) as (tx & F & Et & _ & Yt).
  set (M := (N + N / 4)%nat) in *. set (B := ceil_div (length m / 2) (N - P)) in *.
  pose proof (ceil_div_spec (length m / 2) (N - P) ltac:(lia)) as CS. fold B in CS.
  assert (1 <= length m / 2)%nat by (apply Nat.div_le_lower_bound; lia).
  assert (HB : (1 <= B)%nat) by (destruct B; lia).
  destruct (rx_front exact_fft tx _ (B * M) N P r r fc Hr ltac:(apply Nat.mod_same; lia) Hr Hs Yt) as (base & Yb & E).
  rewrite Nat.div_same, Nat.eqb_refl in Yb by lia.
  assert (DM : (B * M - 1 = M * (B - 1) + (M - 1))%nat) by (unfold M; nia).
  destruct (C44_incomplete_block_panics R NumR exact_fft base _ N P HP Yb) as (q & out & Eq & Lo & Pq).
  { rewrite tab_length. fold M. replace ((B * M - 1) mod M)%nat with (M - 1)%nat by (apply (Nat.mod_unique _ _ (B - 1)); [unfold M; lia|exact DM]). unfold M. lia. }
  rewrite Eq in E. cbn [bind] in E. exists tx. eexists. exists (flat_map dec out), (B - 1)%nat.
  split; [exact Et|]. split; [exact E|]. split; [replace (B - 1 + 1)%nat with B by lia; lia|]. split.
  - assert (LF : forall l, length (flat_map dec l) = (2 * length l)%nat) by (induction l; cbn in *; lia). rewrite LF, Lo, tab_length.
    fold M. replace ((B * M - 1) / M)%nat with (B - 1)%nat by (apply (Nat.div_unique _ _ _ (M - 1)); [unfold M; lia|exact DM]). lia.
  - unfold rx_baseband_qpsk_signal. apply (iflat_source_panics (fun x => dec x)); [exact Pq|]. discriminate.
Qed.

(** Twelve or more samples per symbol, a whole number of carrier cycles per symbol, not at a
    multiple of half the sample rate: the message comes back (its last bit is lost if it is alone),
    followed by the padding of the last block. *)
Theorem C45_passband_round_trip :
  forall (message : Iter bool) m N P sample_rate symbol_rate fc (cycles : Z),
    let sps := (sample_rate / symbol_rate)%nat in
    Nat.even N = true -> (1 <= P < N)%nat -> yields message m ->
    (1 <= symbol_rate)%nat -> (sample_rate mod symbol_rate = 0)%nat -> (Z.of_nat sample_rate < 2 ^ 64)%Z -> (12 <= sps)%nat ->
    fc * INR sps = IZR cycles * INR sample_rate -> ~ (exists z : Z, 2 * fc = IZR z * INR sample_rate) ->
    exists tx rx extra, tx_ofdm_qpsk_signal exact_fft message N P sample_rate symbol_rate fc = Ret tx /\
      rx_ofdm_qpsk_signal exact_fft tx N P sample_rate symbol_rate fc = Ret rx /\
      yields rx (firstn (2 * (length m / 2)) m ++ extra) /\ (length extra < 2 * (N - P))%nat.
Proof.
  intros message m N P sr sy fc h L He HP Ym Hy Hm Hs HL Hcyc Hnyq. pose proof (quarter N) as HQ.
  assert (Hsr : (1 <= sr)%nat) by (destruct sr; [unfold L in HL; rewrite Nat.div_0_l in HL by lia; lia|lia]).
  destruct (tx_front message m N P sr sy fc He HP Hy Hm Hsr Hs Ym) as (tx & F & Et & HF & Yt). fold L in Yt.
  set (M := (N + N / 4)%nat) in *. set (B := ceil_div (length m / 2) (N - P)) in *.
  pose proof (ceil_div_spec (length m / 2) (N - P) ltac:(lia)) as CS. fold B in CS.
  destruct (rx_front exact_fft tx _ (B * M) N P sr sy fc Hy Hm Hsr Hs Yt) as (base & Yb & E). fold L in Yb.
  destruct (Nat.eqb_spec L 1); [lia|].
  destruct (rx_ofdm_wave base _ N P B HP Yb) as (q & Eq & Yq). rewrite Eq in E. cbn [bind] in E. apply rx_qpsk_dec in Yq.
  match type of Yq with yields _ (flat_map dec (tab ?n ?v)) => destruct (dec_prefix m n v (INR L / 2)) as (extra & Le & EX) end.
  { assert (0 < INR L) by (apply lt_0_INR; lia). lra. }
  { lia. }
  2:{ exists tx. eexists. exists extra. split; [exact Et|]. split; [exact E|]. split; [|rewrite Le; lia].
      refine (eq_ind _ (fun z => yields _ z) Yq _ _). exact EX. }
  intros i p Hp. cbv beta.
  assert (Hi : (i < length m / 2)%nat) by (rewrite <- (pairs_len (length m) m eq_refl); apply nth_error_Some; congruence).
  pose proof (Nat.div_mod i (N - P) ltac:(lia)) as D. pose proof (Nat.mod_upper_bound i (N - P) ltac:(lia)) as U.
  set (b := (i / (N - P))%nat) in *. set (r := (i mod (N - P))%nat) in *.
  assert (Hb : (b < B)%nat) by nia.
  set (k := bin N (nth r (carriers N P) 0%nat)). assert (Hk : (k < N)%nat) by (apply bin_lt; lia).
  set (x := fun i => tone N (F (i / M)%nat) (Z.of_nat (i mod M) - Z.of_nat (N / 4))) in *.
  assert (BF : forall b' z, (b' < B)%nat -> cmod (tone N (F b') z) <= 2).
  { intros b' z Hb'. apply tone_bound; [lia|]. eapply carries_bound; [lra| |apply HF; exact Hb']. intros j. apply nth_sym_mod. }
  assert (Ex : forall j, (j < N)%nat -> x (b * M + N / 4 + j)%nat = tone N (F b) (Z.of_nat j)).
  { intros j Hj. unfold x.
    replace ((b * M + N / 4 + j) / M)%nat with b by (apply (Nat.div_unique _ _ _ (N / 4 + j)); unfold M; lia).
    replace ((b * M + N / 4 + j) mod M)%nat with (N / 4 + j)%nat by (apply (Nat.mod_unique _ _ b); unfold M; lia).
    f_equal. lia. }
  set (xe := fun k : nat => if (k <? B * M)%nat then x k else C0).
  set (y := re (xe (b * M + N / 4 + (N - 1) + 1)%nat)).
  assert (Hyb : Rabs y <= 2).
  { unfold y, xe. destruct (Nat.ltb_spec (b * M + N / 4 + (N - 1) + 1) (B * M)) as [Hlt|Hge].
    - eapply Rle_trans; [apply cmod_re|]. unfold x. apply BF. apply Nat.div_lt_upper_bound; unfold M in *; lia.
    - cbn. rewrite Rabs_R0. lra. }
  set (V := Csum_n N _).
  assert (EV : V = cadd (cmul (RtoC (INR L / 2)) (qsym p))
     (Csum_n N (fun j => cmul (RtoC ((if (j =? N - 1)%nat then y else re (tone N (F b) (Z.of_nat j + 1))) - re (tone N (F b) (Z.of_nat j))))
                                (root N (- (Z.of_nat j * Z.of_nat k)))))).
  { assert (QP : qsym p = F b k).
    { destruct (HF b Hb) as (C1 & _). unfold k. rewrite C1 by exact U. replace (b * (N - P) + r)%nat with i by lia.
      symmetry. apply nth_error_nth. rewrite nth_error_map, Hp. reflexivity. }
    rewrite QP, <- (bin_of_tone N (F b) k ltac:(lia) Hk), <- Csum_scale, <- Csum_plus. unfold V. apply Csum_ext. intros j Hj.
    fold M. rewrite (received_symbol fc sr L h Hsr Hcyc Hnyq (B * M) x) by (unfold M in *; nia).
    rewrite Ex by exact Hj. fold k.
    replace (re (if (b * M + N / 4 + j + 1 <? B * M)%nat then x (b * M + N / 4 + j + 1)%nat else C0))
      with (if (j =? N - 1)%nat then y else re (tone N (F b) (Z.of_nat j + 1))); [ring|].
    destruct (Nat.eqb_spec j (N - 1)) as [->|NJ]; [reflexivity|].
    destruct (Nat.ltb_spec (b * M + N / 4 + j + 1) (B * M)); [|unfold M in *; nia].
    replace (b * M + N / 4 + j + 1)%nat with (b * M + N / 4 + (j + 1))%nat by lia. rewrite Ex by lia. f_equal. f_equal. lia. }
  set (e := Csum_n N _) in EV.
  assert (Be : cmod e <= 8).
  { unfold e. replace 8 with (4 * 2) by lra. apply isi_bound; [lia| |exact Hk|exact Hyb].
    intros k' Hk'. eapply carries_bound; [lra| |apply HF; exact Hb|exact Hk']. intros j. apply nth_sym_mod. }
  assert (HLR : 12 <= INR L) by (change 12 with (IZR (Z.of_nat 12)); rewrite <- INR_IZR_INZ; apply le_INR; exact HL).
  pose proof (cmod_re e). pose proof (cmod_im e). pose proof sqrt2_bounds as SB. rewrite EV.
  unfold cadd, cmul, RtoC. cbn [re im nadd nsub nmul NumR]. 
  replace (INR L / 2 * re (qsym p) - 0 * im (qsym p) + re e - INR L / 2 * re (qsym p)) with (re e) by ring.
  replace (INR L / 2 * im (qsym p) + 0 * re (qsym p) + im e - INR L / 2 * im (qsym p)) with (im e) by ring.
  assert (8 < INR L / 2 * sqrt 2) by nra. split; lra.
Qed.

Example C45_rates : (48 mod 4 = 0 /\ 48 / 4 = 12)%nat /\ 4 * INR (48 / 4) = IZR 1 * INR 48 /\ ~ (exists z : Z, 2 * 4 = IZR z * INR 48).
Proof.
  split; [split; reflexivity|]. split; [cbn; lra|]. intros (z & H). replace (INR 48) with 48 in H by (cbn; lra).
  assert (0 < z)%Z by (apply lt_IZR; lra). assert (z < 1)%Z by (apply lt_IZR; lra). lia.
Qed.
Example C45_example : exists tx rx extra, tx_ofdm_qpsk_signal exact_fft (of_list [true; false; false]) 8 3 48 4 4 = Ret tx /\
  rx_ofdm_qpsk_signal exact_fft tx 8 3 48 4 4 = Ret rx /\ yields rx ([true; false] ++ extra).
Proof.
  destruct C45_rates as (_ & H1 & H2).
  destruct (C45_passband_round_trip (of_list [true; false; false]) _ 8 3 48 4 4 1 eq_refl ltac:(lia) (of_list_yields _)
    ltac:(lia) eq_refl ltac:(lia) ltac:(cbn; lia) H1 H2) as (tx & rx & extra & Et & Er & Y & _).
  exists tx, rx, extra. auto.
Qed.

(** ** Axioms used *)
Print Assumptions C42_data_carriers.
Print Assumptions C42_bad_counts_panic.
Print Assumptions C44_framing.
Print Assumptions C44_all_pilots_sends_nothing.
Print Assumptions C44_incomplete_block_panics.
Print Assumptions C43_ofdm_round_trip.
Print Assumptions C43_odd_carriers_fail.
Print Assumptions C43_ofdm_bits_with_noise.
Print Assumptions C57_prefix_absorbs_multipath.
Print Assumptions C45_receiver_one_sample_late.
Print Assumptions C45_one_sample_per_symbol_panics.
Print Assumptions C45_passband_round_trip.
