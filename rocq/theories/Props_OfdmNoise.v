(** Property C104: noise and interference on the passband OFDM link (src/ofdm.rs:95-147), exact arithmetic. *)
From Coq Require Import List Arith ZArith Reals Bool Lia Lra Psatz.
From Flocq Require Import Core.
From Verif Require Import Base IterTheory IterModel IterProofs Spec SpecR Tab Num LibModel LibReal
  ChaosModel PskModel PskChain CdmaModel FhProofs SpecC FftModel RSums PskReal Dft OfdmModel OfdmProofs OfdmReal OfdmWave
  OfdmLink OfdmPass Props_Ofdm Props_Pass.
Import ListNotations.
Local Open Scope R_scope.

(** Noise on a signal: noise i is added to sample i. *)
Definition with_noise (noise : nat -> R) (w : list R) : list R := map (fun '(i, x) => x + noise i) (combine (seq 0 (length w)) w).

Lemma with_noise_tab n f noise : with_noise noise (tab n f) = tab n (fun i => f i + noise i).
Proof.
  unfold with_noise. rewrite tab_length. replace (seq 0 n) with (tab n (fun i => i)) by apply map_id.
  rewrite tab_combine, tab_map. reflexivity.
Qed.

Lemma pairs_nth (m : list bool) i : (i < 2 * (length m / 2))%nat ->
  exists p, nth_error (pairs m) (i / 2) = Some p /\ nth_error m i = Some (if Nat.even i then fst p else snd p).
Proof.
  intros Hi. revert m Hi. induction i as [i IH] using (well_founded_induction lt_wf). intros m Hi.
  destruct m as [|a [|b m]]; [cbn in Hi; lia|cbn in Hi; lia|].
  destruct i as [|[|i]]; [exists (a, b); split; reflexivity|exists (a, b); split; reflexivity|].
  destruct (IH i ltac:(lia) m) as (p & E1 & E2).
  { cbn [length] in Hi. replace (S (S (length m))) with (length m + 1 * 2)%nat in Hi by lia. rewrite Nat.div_add in Hi by lia. lia. }
  exists p. replace (S (S i) / 2)%nat with (S (i / 2)).
  - split; [exact E1|]. cbn [nth_error Nat.even]. exact E2.
  - replace (S (S i)) with (i + 1 * 2)%nat by lia. rewrite Nat.div_add by lia. lia.
Qed.

Lemma dec_nth (v : nat -> CR) n i : (i < 2 * n)%nat ->
  nth_error (flat_map dec (tab n v)) i = Some (if Rle_dec 0 (if Nat.even i then re (v (i / 2)%nat) else im (v (i / 2)%nat)) then true else false).
Proof.
  revert v i. induction n as [|n IH]; intros v i Hi; [lia|].
  replace (S n) with (1 + n)%nat by lia. rewrite tab_add. cbn [tab map seq app flat_map].
  destruct i as [|[|i]]; [reflexivity|reflexivity|].
  change (nth_error (dec (v 0%nat) ++ flat_map dec (tab n (fun i0 => v (1 + i0)%nat))) (S (S i))) with (nth_error (flat_map dec (tab n (fun i0 => v (1 + i0)%nat))) i).
  rewrite IH by lia. cbn [Nat.even].
  replace (S (S i) / 2)%nat with (1 + i / 2)%nat; [reflexivity|].
  replace (S (S i)) with (i + 1 * 2)%nat by lia. rewrite Nat.div_add by lia. lia.
Qed.

Section Link.
Variables (N P sr sy : nat) (fc : R) (cycles : Z).
Let L := (sr / sy)%nat.
Let M := (N + N / 4)%nat.
Hypothesis He : Nat.even N = true.
Hypothesis HP : (1 <= P < N)%nat.
Hypothesis Hy : (1 <= sy)%nat.
Hypothesis Hm : (sr mod sy = 0)%nat.
Hypothesis Hs : (Z.of_nat sr < 2 ^ 64)%Z.
Hypothesis HL : (2 <= L)%nat.
Hypothesis Hcyc : fc * INR L = IZR cycles * INR sr.
Hypothesis Hnyq : ~ (exists z : Z, 2 * fc = IZR z * INR sr).
Let th (i : nat) : R := 2 * PI * fc * (INR i / INR sr).
Let total (m : list bool) : nat := (ceil_div (length m / 2) (N - P) * M * L)%nat.

(** The carrier of data symbol r of a block, as a DFT bin. *)
Let kk (r : nat) : nat := bin N (nth r (carriers N P) 0%nat).

(** What noise z adds to the received data symbol i. *)
Definition noise_re (len : nat) (z : nat -> R) (b k : nat) : R :=
  Rsum_n N (fun j => Rsum_n L (fun l => let s := ((b * M + N / 4 + j) * L + 1 + l)%nat in
    ext0 len z s * cos (th s + 2 * PI * INR j * INR k / INR N))).
Definition noise_im (len : nat) (z : nat -> R) (b k : nat) : R :=
  Rsum_n N (fun j => Rsum_n L (fun l => let s := ((b * M + N / 4 + j) * L + 1 + l)%nat in
    ext0 len z s * - sin (th s + 2 * PI * INR j * INR k / INR N))).

Lemma ext0_plus len f g w s : ext0 len (fun i => (f i + g i) * w i) s = ext0 len (fun i => f i * w i) s + ext0 len g s * w s.
Proof. unfold ext0. destruct (_ <? _)%nat; ring. Qed.

Lemma noise_sum len z b k : 
  Csum_n N (fun j => cmul (Cpx (Rsum_n L (fun l => ext0 len z ((b * M + N / 4 + j) * L + 1 + l)%nat * cos (th ((b * M + N / 4 + j) * L + 1 + l)%nat)))
                               (Rsum_n L (fun l => ext0 len z ((b * M + N / 4 + j) * L + 1 + l)%nat * - sin (th ((b * M + N / 4 + j) * L + 1 + l)%nat))))
     (root N (- (Z.of_nat j * Z.of_nat k)))) = Cpx (noise_re len z b k) (noise_im len z b k).
Proof.
  assert (A : forall j : nat, 2 * PI * IZR (- (Z.of_nat j * Z.of_nat k)) / INR N = - (2 * PI * INR j * INR k / INR N)).
  { intros j. rewrite opp_IZR, mult_IZR, <- !INR_IZR_INZ. field. apply not_0_INR. lia. }
  apply cpx_eq; [rewrite Csum_re|rewrite Csum_im]; cbn [re im]; unfold noise_re, noise_im; apply Rsum_n_ext; intros j _;
    unfold root, cis; rewrite A, cos_neg, sin_neg; unfold cmul; cbn [re im nmul nsub nadd NumR]; set (t := 2 * PI * INR j * INR k / INR N).
  - match goal with |- ?a * cos t - ?b * - sin t = _ => replace (a * cos t - b * - sin t) with (cos t * a + sin t * b) by ring end.
    rewrite <- !Rsum_n_scale, <- Rsum_n_plus. apply Rsum_n_ext. intros l _. rewrite cos_plus. ring.
  - match goal with |- ?a * - sin t + ?b * cos t = _ => replace (a * - sin t + b * cos t) with (- sin t * a + cos t * b) by ring end.
    rewrite <- !Rsum_n_scale, <- Rsum_n_plus. apply Rsum_n_ext. intros l _. rewrite sin_plus. ring.
Qed.

(** The whole link: each received symbol is half the samples of a symbol times the sent one, an
    error of at most 8, and the noise. *)
Lemma noisy_link (message : Iter bool) m : yields message m ->
  exists tx w (e : nat -> CR), tx_ofdm_qpsk_signal exact_fft message N P sr sy fc = Ret tx /\ yields tx w /\ length w = total m /\
    (forall i, (i < length m / 2)%nat -> cmod (e i) <= 8) /\
    forall z noisy, yields noisy (with_noise z w) ->
    exists rx v, rx_ofdm_qpsk_signal exact_fft noisy N P sr sy fc = Ret rx /\
      yields rx (flat_map dec (tab (ceil_div (length m / 2) (N - P) * (N - P)) v)) /\
      forall i p, nth_error (pairs m) i = Some p ->
        v i = cadd (cadd (cmul (RtoC (INR L / 2)) (qsym p)) (e i))
                   (Cpx (noise_re (total m) z (i / (N - P)) (kk (i mod (N - P)))) (noise_im (total m) z (i / (N - P)) (kk (i mod (N - P))))).
Proof.
  intros Ym. pose proof (quarter N) as HQ.
  assert (Hsr : (1 <= sr)%nat) by (destruct sr; [unfold L in HL; rewrite Nat.div_0_l in HL by lia; lia|lia]).
  destruct (tx_front message m N P sr sy fc He HP Hy Hm Hsr Hs Ym) as (tx & F & Et & HF & Yt). fold L in Yt. fold M in Yt.
  unfold total. set (B := ceil_div (length m / 2) (N - P)) in *.
  pose proof (ceil_div_spec (length m / 2) (N - P) ltac:(lia)) as CS. fold B in CS.
  set (x := fun i => tone N (F (i / M)%nat) (Z.of_nat (i mod M) - Z.of_nat (N / 4))) in *.
  assert (BF : forall b' z, (b' < B)%nat -> cmod (tone N (F b') z) <= 2).
  { intros b' z0 Hb'. apply tone_bound; [lia|]. eapply carries_bound; [lra| |apply HF; exact Hb']. intros j. apply nth_sym_mod. }
  set (xe := fun k : nat => if (k <? B * M)%nat then x k else C0).
  set (y := fun b => re (xe (b * M + N / 4 + (N - 1) + 1)%nat)).
  assert (Hyb : forall b, Rabs (y b) <= 2).
  { intros b. unfold y, xe. destruct (Nat.ltb_spec (b * M + N / 4 + (N - 1) + 1) (B * M)) as [Hlt|Hge].
    - eapply Rle_trans; [apply cmod_re|]. unfold x. apply BF. apply Nat.div_lt_upper_bound; unfold M in *; lia.
    - cbn. rewrite Rabs_R0. lra. }
  set (e := fun i => Csum_n N (fun j => cmul (RtoC ((if (j =? N - 1)%nat then y (i / (N - P))%nat else re (tone N (F (i / (N - P))%nat) (Z.of_nat j + 1))) - re (tone N (F (i / (N - P))%nat) (Z.of_nat j))))
                                (root N (- (Z.of_nat j * Z.of_nat (kk (i mod (N - P)))))))).
  eexists. eexists. exists e. split; [exact Et|]. split; [exact Yt|]. split; [apply tab_length|]. split.
  { intros i Hi. pose proof (Nat.div_mod i (N - P) ltac:(lia)) as D. pose proof (Nat.mod_upper_bound i (N - P) ltac:(lia)) as U.
    assert (Hk : (kk (i mod (N - P)) < N)%nat) by (apply bin_lt; lia).
    unfold e. replace 8 with (4 * 2) by lra. apply isi_bound; [lia| |exact Hk|apply Hyb].
    intros k' Hk'. eapply carries_bound; [lra| |apply HF; nia|exact Hk']. intros j. apply nth_sym_mod. }
  intros z noisy Yn. rewrite with_noise_tab in Yn.
  destruct (rx_front exact_fft noisy _ (B * M) N P sr sy fc Hy Hm Hsr Hs Yn) as (base & Yb & E). fold L in Yb.
  destruct (Nat.eqb_spec L 1); [lia|].
  destruct (rx_ofdm_wave base _ N P B HP Yb) as (q & Eq & Yq). rewrite Eq in E. cbn [bind] in E. apply rx_qpsk_dec in Yq.
  eexists. eexists. split; [exact E|]. split; [exact Yq|]. clear Yq Yb Yn E Eq Yt Et.
  intros i p Hp. cbv beta.
  assert (Hi : (i < length m / 2)%nat) by (rewrite <- (pairs_len (length m) m eq_refl); apply nth_error_Some; congruence).
  pose proof (Nat.div_mod i (N - P) ltac:(lia)) as D. pose proof (Nat.mod_upper_bound i (N - P) ltac:(lia)) as U.
  set (b := (i / (N - P))%nat) in *. set (r := (i mod (N - P))%nat) in *.
  assert (Hb : (b < B)%nat) by nia.
  fold (kk r). set (k := kk r). assert (Hk : (k < N)%nat) by (apply bin_lt; lia).
  assert (Ex : forall j, (j < N)%nat -> x (b * M + N / 4 + j)%nat = tone N (F b) (Z.of_nat j)).
  { intros j Hj. unfold x.
    replace ((b * M + N / 4 + j) / M)%nat with b by (apply (Nat.div_unique _ _ _ (N / 4 + j)); unfold M; lia).
    replace ((b * M + N / 4 + j) mod M)%nat with (N / 4 + j)%nat by (apply (Nat.mod_unique _ _ b); unfold M; lia).
    f_equal. lia. }
  assert (QP : qsym p = F b k).
  { destruct (HF b Hb) as (C1 & _). unfold k, kk. rewrite C1 by exact U. replace (b * (N - P) + r)%nat with i by lia.
    symmetry. apply nth_error_nth. rewrite nth_error_map, Hp. reflexivity. }
  rewrite QP, <- (bin_of_tone N (F b) k ltac:(lia) Hk), <- Csum_scale, <- noise_sum. unfold e. fold b r k. rewrite <- !Csum_plus.
  apply Csum_ext. intros j Hj. fold M.
  match goal with |- cmul ?s _ = _ => replace s with (cadd
      (Cpx (Rsum_n L (fun l => ext0 (B * M * L) (fun i => pass_sample fc sr L x i * cos (th i)) ((b * M + N / 4 + j) * L + 1 + l)%nat))
           (Rsum_n L (fun l => ext0 (B * M * L) (fun i => pass_sample fc sr L x i * - sin (th i)) ((b * M + N / 4 + j) * L + 1 + l)%nat)))
      (Cpx (Rsum_n L (fun l => ext0 (B * M * L) z ((b * M + N / 4 + j) * L + 1 + l)%nat * cos (th ((b * M + N / 4 + j) * L + 1 + l)%nat)))
           (Rsum_n L (fun l => ext0 (B * M * L) z ((b * M + N / 4 + j) * L + 1 + l)%nat * - sin (th ((b * M + N / 4 + j) * L + 1 + l)%nat))))) end.
  2:{ unfold cadd. cbn [re im nadd NumR]. rewrite <- !Rsum_n_plus. f_equal; apply Rsum_n_ext; intros l _; rewrite <- ext0_plus; reflexivity. }
  unfold th at 1 2. rewrite (received_symbol fc sr L cycles Hsr Hcyc Hnyq (B * M) x) by (unfold M in *; nia).
  rewrite Ex by exact Hj.
  replace (re (if (b * M + N / 4 + j + 1 <? B * M)%nat then x (b * M + N / 4 + j + 1)%nat else C0))
    with (if (j =? N - 1)%nat then y b else re (tone N (F b) (Z.of_nat j + 1))); [ring|].
  destruct (Nat.eqb_spec j (N - 1)) as [->|NJ]; [reflexivity|].
  destruct (Nat.ltb_spec (b * M + N / 4 + j + 1) (B * M)); [|unfold M in *; nia].
  replace (b * M + N / 4 + j + 1)%nat with (b * M + N / 4 + (j + 1))%nat by lia. rewrite Ex by lia. f_equal. f_equal. lia.
Qed.

(** What noise z adds to the number whose sign is bit i. *)
Definition noise_at (len : nat) (z : nat -> R) (i : nat) : R :=
  (if Nat.even i then noise_re else noise_im) len z (i / 2 / (N - P))%nat (kk ((i / 2) mod (N - P))).

Lemma bit_rule (message : Iter bool) m : yields message m ->
  exists tx w (err : nat -> R), tx_ofdm_qpsk_signal exact_fft message N P sr sy fc = Ret tx /\ yields tx w /\ length w = total m /\
    (forall i, (i < 2 * (length m / 2))%nat -> Rabs (err i) <= 8) /\
    forall z noisy, yields noisy (with_noise z w) ->
    exists rx out, rx_ofdm_qpsk_signal exact_fft noisy N P sr sy fc = Ret rx /\ yields rx out /\
      (2 * (length m / 2) <= length out < 2 * (length m / 2) + 2 * (N - P))%nat /\
      forall i bit, (i < 2 * (length m / 2))%nat -> nth_error m i = Some bit ->
        nth_error out i = Some (if Rle_dec 0 ((if bit then 1 else -1) * (INR L / 2 * sqrt 2) + err i + noise_at (total m) z i) then true else false).
Proof.
  intros Ym. destruct (noisy_link message m Ym) as (tx & w & e & Et & Yt & Lw & He8 & H).
  exists tx, w, (fun i => if Nat.even i then re (e (i / 2)%nat) else im (e (i / 2)%nat)).
  split; [exact Et|]. split; [exact Yt|]. split; [exact Lw|]. 
  assert (H2 : forall i, (i < 2 * (length m / 2))%nat -> (i / 2 < length m / 2)%nat) by (intros i Hi; apply Nat.div_lt_upper_bound; lia).
  split.
  { intros i Hi. pose proof (He8 _ (H2 i Hi)) as E8. destruct (Nat.even i); eapply Rle_trans; [apply cmod_re|exact E8|apply cmod_im|exact E8]. }
  intros z noisy Yn. destruct (H z noisy Yn) as (rx & v & Er & Yr & Hv). eexists. eexists. split; [exact Er|]. split; [exact Yr|].
  pose proof (ceil_div_spec (length m / 2) (N - P) ltac:(lia)) as CS.
  split.
  { assert (LF : forall l, length (flat_map dec l) = (2 * length l)%nat) by (induction l; cbn in *; lia). rewrite LF, tab_length. lia. }
  intros i bit Hi Hbit. rewrite dec_nth by lia. f_equal.
  destruct (pairs_nth m i Hi) as (p & Ep & Eb). rewrite (Hv _ _ Ep). rewrite Hbit in Eb. injection Eb as Eb.
  assert (Q : re (qsym p) = (if fst p then 1 else -1) * sqrt 2 /\ im (qsym p) = (if snd p then 1 else -1) * sqrt 2).
  { destruct p as [[] []]; cbn; split; lra. }
  destruct Q as [Q1 Q2]. unfold noise_at, cadd, cmul, RtoC. cbn [re im nadd nsub nmul NumR]. rewrite Q1, Q2, Eb.
  match goal with |- (if Rle_dec 0 ?a then true else false) = (if Rle_dec 0 ?b then true else false) => replace a with b; [reflexivity|] end.
  destruct (Nat.even i); ring.
Qed.

(** The two waves a symbol is correlated with each have energy sps/2, wherever the window starts. *)
Lemma sr_pos' : 0 < INR sr.
Proof. apply lt_0_INR. destruct sr; [unfold L in HL; rewrite Nat.div_0_l in HL by lia; lia|lia]. Qed.

Lemma sin_step : sin (2 * PI * fc / INR sr) <> 0.
Proof.
  pose proof sr_pos' as Hp. intros Z. apply sin_0_mult in Z. destruct Z as [z Hz]. apply Hnyq. exists z. pose proof PI_RGT_0.
  apply (Rmult_eq_reg_l (PI / INR sr)).
  - replace (PI / INR sr * (2 * fc)) with (2 * PI * fc / INR sr) by (field; lra). rewrite Hz. field. lra.
  - unfold Rdiv. apply Rmult_integral_contrapositive. split; [lra|]. apply Rinv_neq_0_compat. lra.
Qed.

Lemma wave_energy s psi :
  Rsum_n L (fun l => cos (th (s + l) + psi) * cos (th (s + l) + psi)) = INR L / 2 /\
  Rsum_n L (fun l => - sin (th (s + l) + psi) * - sin (th (s + l) + psi)) = INR L / 2.
Proof.
  pose proof sr_pos' as Hp. set (a := 2 * PI * fc / INR sr).
  destruct (sum_whole a (2 * (th s + psi)) L (2 * cycles) sin_step) as [C _].
  { unfold a. rewrite mult_IZR. replace (2 * (2 * PI * fc / INR sr) * INR L) with (4 * PI * (fc * INR L) / INR sr) by (field; lra).
    rewrite Hcyc. field. lra. }
  assert (E : forall l, 2 * (th s + psi) + 2 * a * INR l = 2 * (th (s + l) + psi)).
  { intros l. unfold th, a. rewrite plus_INR. field. lra. }
  rewrite (Rsum_n_ext L _ (fun l => cos (2 * (th (s + l) + psi)))) in C by (intros l _; rewrite E; reflexivity).
  split.
  - rewrite (Rsum_n_ext L _ (fun l => / 2 + / 2 * cos (2 * (th (s + l) + psi)))) by (intros; rewrite cos_sq_half; lra).
    rewrite Rsum_n_plus, Rsum_n_scale, Rsum_n_const, C. lra.
  - rewrite (Rsum_n_ext L _ (fun l => / 2 + - / 2 * cos (2 * (th (s + l) + psi)))).
    + rewrite Rsum_n_plus, Rsum_n_scale, Rsum_n_const, C. lra.
    + intros l _. replace (- sin (th (s + l) + psi) * - sin (th (s + l) + psi)) with (sin (th (s + l) + psi) * sin (th (s + l) + psi)) by ring.
      rewrite sin_sq_half. lra.
Qed.

(** The wave behind bit i of a block, from the first sample the receiver uses: even bits cosines, odd bits sines. *)
Definition wave (i b q : nat) : R :=
  let x := th ((b * M + N / 4) * L + 1 + q) + 2 * PI * INR (q / L) * INR (kk ((i / 2) mod (N - P))) / INR N in
  if Nat.even i then cos x else - sin x.

Lemma noise_flat len z i : let b := (i / 2 / (N - P))%nat in
  noise_at len z i = Rsum_n (N * L) (fun q => ext0 len z ((b * M + N / 4) * L + 1 + q)%nat * wave i b q).
Proof.
  intros b. rewrite Rsum_n_mul. unfold noise_at, wave, noise_re, noise_im. fold b.
  assert (D : forall j l, (l < L)%nat -> ((j * L + l) / L = j)%nat) by (intros j l Hl; rewrite Nat.div_add_l, Nat.div_small by lia; lia).
  destruct (Nat.even i); apply Rsum_n_ext; intros j _; apply Rsum_n_ext; intros l Hl; cbv zeta; rewrite D by exact Hl;
    replace ((b * M + N / 4) * L + 1 + (j * L + l))%nat with ((b * M + N / 4 + j) * L + 1 + l)%nat by lia; reflexivity.
Qed.

Lemma wave_norm i b : Rsum_n (N * L) (fun q => wave i b q * wave i b q) = INR N * (INR L / 2).
Proof.
  rewrite Rsum_n_mul. rewrite <- Rsum_n_const. apply Rsum_n_ext. intros j _.
  set (psi := 2 * PI * INR j * INR (kk ((i / 2) mod (N - P))) / INR N).
  destruct (wave_energy ((b * M + N / 4 + j) * L + 1) psi) as [C S].
  assert (D : forall l, (l < L)%nat -> ((j * L + l) / L = j)%nat) by (intros l Hl; rewrite Nat.div_add_l, Nat.div_small by lia; lia).
  assert (A : forall l, ((b * M + N / 4) * L + 1 + (j * L + l))%nat = ((b * M + N / 4 + j) * L + 1 + l)%nat) by (intros; lia).
  unfold wave. destruct (Nat.even i); [rewrite <- C|rewrite <- S]; apply Rsum_n_ext; intros l Hl; cbv zeta; rewrite D, A by exact Hl; reflexivity.
Qed.

Lemma noise_energy len z i : let b := (i / 2 / (N - P))%nat in
  let E := Rsum_n (N * L) (fun q => z ((b * M + N / 4) * L + 1 + q)%nat * z ((b * M + N / 4) * L + 1 + q)%nat) in
  Rabs (noise_at len z i) <= sqrt (INR N * (INR L / 2) * E).
Proof.
  intros b E. pose proof (noise_flat len z i) as NF. cbv zeta in NF. fold b in NF.
  pose proof (cauchy_schwarz (N * L) (fun q => ext0 len z ((b * M + N / 4) * L + 1 + q)%nat) (wave i b)) as CS. cbv beta in CS.
  rewrite <- NF, wave_norm in CS.
  assert (LE : Rsum_n (N * L) (fun q => ext0 len z ((b * M + N / 4) * L + 1 + q)%nat * ext0 len z ((b * M + N / 4) * L + 1 + q)%nat) <= E).
  { apply Rsum_n_le. intros q _. unfold ext0. destruct (_ <? _)%nat; [lra|]. nra. }
  rewrite <- sqrt_Rsqr_abs. apply sqrt_le_1_alt. unfold Rsqr.
  assert (0 <= INR N * (INR L / 2)) by (pose proof (pos_INR N); pose proof (pos_INR L); nra). nra.
Qed.

Lemma in_signal m i q : (i < 2 * (length m / 2))%nat -> (q < N * L)%nat -> (i / 2 / (N - P) < (length m / 2 - 1) / (N - P) \/ q + 1 < N * L)%nat ->
  ((i / 2 / (N - P) * M + N / 4) * L + 1 + q < total m)%nat.
Proof.
  intros Hi Hq H. unfold total. pose proof (ceil_div_spec (length m / 2) (N - P) ltac:(lia)) as CS.
  set (B := ceil_div _ _) in *. set (b := (i / 2 / (N - P))%nat) in *. set (h := (length m / 2)%nat) in *.
  assert (Hi2 : (i / 2 < h)%nat) by (apply Nat.div_lt_upper_bound; lia).
  pose proof (Nat.div_mod (i / 2) (N - P) ltac:(lia)) as D1. fold b in D1.
  pose proof (Nat.div_mod (h - 1) (N - P) ltac:(lia)) as D2. pose proof (Nat.mod_upper_bound (h - 1) (N - P) ltac:(lia)).
  assert (Hb : (b < B)%nat) by nia.
  assert (E : (N / 4 * L + N * L = M * L)%nat) by (unfold M; lia).
  destruct H as [H|H].
  - assert ((b + 1 < B)%nat) by nia. assert (((b + 2) * M * L <= B * M * L)%nat) by nia. nia.
  - assert (((b + 1) * (M * L) <= B * (M * L))%nat) by nia. nia.
Qed.
End Link.

(** ** The theorems *)

(** The whole rule: bit i of the message, sent on carrier c of block b, comes back as the sign of
    +-sps/sqrt 2, an error that depends on the signal alone and is at most 8, and the correlation of
    the noise with one wave: the carrier frequency turned by the subcarrier's phase once per symbol.
    The receiver is one sample late, and the last of all its samples does not exist. *)
Theorem C104_rule :
  forall (message : Iter bool) m N P sample_rate symbol_rate fc (cycles : Z),
    let sps := (sample_rate / symbol_rate)%nat in
    let block_len := (N + N / 4)%nat in
    Nat.even N = true -> (1 <= P < N)%nat -> yields message m ->
    (1 <= symbol_rate)%nat -> (sample_rate mod symbol_rate = 0)%nat -> (Z.of_nat sample_rate < 2 ^ 64)%Z -> (2 <= sps)%nat ->
    fc * INR sps = IZR cycles * INR sample_rate -> ~ (exists z : Z, 2 * fc = IZR z * INR sample_rate) ->
    exists carriers tx w (err : nat -> R), get_data_subcarriers N P = Ret carriers /\
      tx_ofdm_qpsk_signal exact_fft message N P sample_rate symbol_rate fc = Ret tx /\ yields tx w /\
      (forall i, (i < 2 * (length m / 2))%nat -> Rabs (err i) <= 8) /\
      forall (noise : nat -> R) noisy, yields noisy (with_noise noise w) ->
      exists rx out, rx_ofdm_qpsk_signal exact_fft noisy N P sample_rate symbol_rate fc = Ret rx /\ yields rx out /\
        (2 * (length m / 2) <= length out < 2 * (length m / 2) + 2 * (N - P))%nat /\
        forall i bit, (i < 2 * (length m / 2))%nat -> nth_error m i = Some bit ->
          let block := (i / 2 / (N - P))%nat in
          let carrier := nth ((i / 2) mod (N - P)) carriers 0%nat in
          let correlation := Rsum_n N (fun j => Rsum_n sps (fun l =>
            let s := ((block * block_len + N / 4 + j) * sps + 1 + l)%nat in
            let angle := 2 * PI * fc * (INR s / INR sample_rate) + 2 * PI * INR j * INR ((carrier + N / 2) mod N) / INR N in
            (if (s <? length w)%nat then noise s else 0) * (if Nat.even i then cos angle else - sin angle))) in
          nth_error out i = Some (if Rle_dec 0 ((if bit then 1 else -1) * (INR sps / 2 * sqrt 2) + err i + correlation) then true else false).
Proof.
  intros message m N P sr sy fc cycles sps M He HP Ym Hy Hm Hs HL Hcyc Hnyq.
  destruct (bit_rule N P sr sy fc cycles He HP Hy Hm Hs HL Hcyc Hnyq message m Ym) as (tx & w & err & Et & Yt & Lw & E8 & H).
  exists (carriers N P), tx, w, err. split; [apply carriers_eq; lia|]. split; [exact Et|]. split; [exact Yt|]. split; [exact E8|].
  intros noise noisy Yn. destruct (H noise noisy Yn) as (rx & out & Er & Yr & Lo & Hb). exists rx, out.
  split; [exact Er|]. split; [exact Yr|]. split; [exact Lo|]. intros i bit Hi Hbit block carrier correlation. rewrite (Hb i bit Hi Hbit).
  replace correlation with (noise_at N P sr sy fc (length w) noise i); [rewrite Lw; reflexivity|].
  unfold correlation, noise_at, noise_re, noise_im. fold block carrier sps. unfold bin. destruct (half_even N He) as [-> _].
  fold carrier. destruct (Nat.even i); reflexivity.
Qed.

(** Every bit whose block has weak noise comes back.  Noise on the cyclic prefixes does not count. *)
Theorem C104_noise :
  forall (message : Iter bool) m N P sample_rate symbol_rate fc (cycles : Z),
    let sps := (sample_rate / symbol_rate)%nat in
    let block_len := (N + N / 4)%nat in
    Nat.even N = true -> (1 <= P < N)%nat -> yields message m ->
    (1 <= symbol_rate)%nat -> (sample_rate mod symbol_rate = 0)%nat -> (Z.of_nat sample_rate < 2 ^ 64)%Z -> (2 <= sps)%nat ->
    fc * INR sps = IZR cycles * INR sample_rate -> ~ (exists z : Z, 2 * fc = IZR z * INR sample_rate) ->
    exists tx w, tx_ofdm_qpsk_signal exact_fft message N P sample_rate symbol_rate fc = Ret tx /\ yields tx w /\
      forall (noise : nat -> R) noisy, yields noisy (with_noise noise w) ->
      exists rx out, rx_ofdm_qpsk_signal exact_fft noisy N P sample_rate symbol_rate fc = Ret rx /\ yields rx out /\
        (2 * (length m / 2) <= length out < 2 * (length m / 2) + 2 * (N - P))%nat /\
        forall i, (i < 2 * (length m / 2))%nat ->
          let first := ((i / 2 / (N - P) * block_len + N / 4) * sps + 1)%nat in
          let energy := Rsum_n (N * sps) (fun j => noise (first + j)%nat * noise (first + j)%nat) in
          sqrt (INR N * INR sps / 2 * energy) < INR sps / 2 * sqrt 2 - 8 ->
          nth_error out i = nth_error m i.
Proof.
  intros message m N P sr sy fc cycles sps M He HP Ym Hy Hm Hs HL Hcyc Hnyq.
  destruct (bit_rule N P sr sy fc cycles He HP Hy Hm Hs HL Hcyc Hnyq message m Ym) as (tx & w & err & Et & Yt & Lw & E8 & H).
  exists tx, w. split; [exact Et|]. split; [exact Yt|].
  intros noise noisy Yn. destruct (H noise noisy Yn) as (rx & out & Er & Yr & Lo & Hb). exists rx, out.
  split; [exact Er|]. split; [exact Yr|]. split; [exact Lo|]. intros i Hi first energy Hw.
  destruct (pairs_nth m i Hi) as (p & _ & Eb). rewrite Eb, (Hb i _ Hi Eb). f_equal.
  pose proof (noise_energy N P sr sy fc cycles HP Hy Hm Hs HL Hcyc Hnyq (length w) noise i) as NE. cbv zeta in NE. fold sps M first energy in NE.
  replace (INR N * (INR sps / 2) * energy) with (INR N * INR sps / 2 * energy) in NE by (unfold Rdiv; ring).
  rewrite Lw in NE. pose proof (E8 i Hi) as E.
  apply Rabs_le_inv in NE. apply Rabs_le_inv in E. fold sps M. fold sps M in NE.
  destruct (if Nat.even i then fst p else snd p), (Rle_dec _ _); try reflexivity; lra.
Qed.

(** A jammer on any other frequency with whole cycles per symbol, a constant offset included: however
    strong, only the last block can lose bits, and not even that one below sps/sqrt 2 - 8. *)
Theorem C104_tone :
  forall (message : Iter bool) m N P sample_rate symbol_rate fc (cycles : Z) (f a phi : R) (cycles' : Z),
    let sps := (sample_rate / symbol_rate)%nat in
    Nat.even N = true -> (1 <= P < N)%nat -> yields message m ->
    (1 <= symbol_rate)%nat -> (sample_rate mod symbol_rate = 0)%nat -> (Z.of_nat sample_rate < 2 ^ 64)%Z -> (12 <= sps)%nat ->
    fc * INR sps = IZR cycles * INR sample_rate -> ~ (exists z : Z, 2 * fc = IZR z * INR sample_rate) ->
    f * INR sps = IZR cycles' * INR sample_rate ->
    ~ (exists z : Z, f - fc = IZR z * INR sample_rate) -> ~ (exists z : Z, f + fc = IZR z * INR sample_rate) ->
    exists tx w, tx_ofdm_qpsk_signal exact_fft message N P sample_rate symbol_rate fc = Ret tx /\ yields tx w /\
      forall noisy, yields noisy (with_noise (fun s => a * cos (2 * PI * f * (INR s / INR sample_rate) + phi)) w) ->
      exists rx out, rx_ofdm_qpsk_signal exact_fft noisy N P sample_rate symbol_rate fc = Ret rx /\ yields rx out /\
        (2 * (length m / 2) <= length out < 2 * (length m / 2) + 2 * (N - P))%nat /\
        forall i, (i < 2 * (length m / 2))%nat ->
          (i / 2 / (N - P) < (length m / 2 - 1) / (N - P))%nat \/ Rabs a < INR sps / 2 * sqrt 2 - 8 ->
          nth_error out i = nth_error m i.
Proof.
  intros message m N P sr sy fc cycles f a phi cycles' sps He HP Ym Hy Hm Hs HL Hcyc Hnyq Hf Hd1 Hd2.
  assert (HL2 : (2 <= sr / sy)%nat) by (fold sps; lia).
  destruct (bit_rule N P sr sy fc cycles He HP Hy Hm Hs HL2 Hcyc Hnyq message m Ym) as (tx & w & err & Et & Yt & Lw & E8 & H).
  exists tx, w. split; [exact Et|]. split; [exact Yt|].
  intros noisy Yn. destruct (H _ noisy Yn) as (rx & out & Er & Yr & Lo & Hb). exists rx, out.
  split; [exact Er|]. split; [exact Yr|]. split; [exact Lo|]. intros i Hi Hc.
  destruct (pairs_nth m i Hi) as (p & _ & Eb). rewrite Eb, (Hb i _ Hi Eb). f_equal.
  set (z := fun s : nat => a * cos (2 * PI * f * (INR s / INR sr) + phi)) in *.
  pose proof (noise_flat N P sr sy fc HP Hy Hm HL2 (length w) z i) as NF. cbv zeta in NF. fold sps in NF.
  set (b := (i / 2 / (N - P))%nat) in *. set (M := (N + N / 4)%nat) in *. set (s0 := ((b * M + N / 4) * sps + 1)%nat) in *.
  pose proof (sr_pos' N P sr sy fc cycles HP Hy Hm Hs HL2 Hcyc Hnyq) as Hp.
  (* over whole symbols the correlation vanishes *)
  assert (Z0 : Rsum_n (N * sps) (fun q => z (s0 + q)%nat * wave N P sr sy fc i b q) = 0).
  { rewrite Rsum_n_mul. apply Rsum_n_0. intros j Hj. unfold wave. fold sps M s0.
    set (psi := 2 * PI * INR j * INR (bin N (nth ((i / 2) mod (N - P)) (carriers N P) 0%nat)) / INR N).
    set (s1 := (s0 + j * sps)%nat).
    assert (D : forall l, (l < sps)%nat -> ((j * sps + l) / sps = j)%nat) by (intros l Hl; rewrite Nat.div_add_l, Nat.div_small by lia; lia).
    assert (SN : forall g : R, ~ (exists z : Z, g = IZR z * INR sr) -> sin (PI * g / INR sr) <> 0).
    { intros g Hg Z. apply sin_0_mult in Z. destruct Z as [y Hz]. apply Hg. exists y. pose proof PI_RGT_0.
      apply (Rmult_eq_reg_l (PI / INR sr)).
      - replace (PI / INR sr * g) with (PI * g / INR sr) by (field; lra). rewrite Hz. field. lra.
      - unfold Rdiv. apply Rmult_integral_contrapositive. split; [lra|]. apply Rinv_neq_0_compat. lra. }
    set (A := 2 * PI * f * (INR s1 / INR sr) + phi). set (C := 2 * PI * fc * (INR s1 / INR sr) + psi).
    destruct (sum_whole (PI * (f - fc) / INR sr) (A - C) sps (cycles' - cycles) (SN _ Hd1)) as [C1 S1].
    { rewrite minus_IZR. replace (2 * (PI * (f - fc) / INR sr) * INR sps) with (2 * PI * (f * INR sps - fc * INR sps) / INR sr) by (field; lra).
      unfold sps in *. rewrite Hf, Hcyc. field. lra. }
    destruct (sum_whole (PI * (f + fc) / INR sr) (A + C) sps (cycles' + cycles) (SN _ Hd2)) as [C2 S2].
    { rewrite plus_IZR. replace (2 * (PI * (f + fc) / INR sr) * INR sps) with (2 * PI * (f * INR sps + fc * INR sps) / INR sr) by (field; lra).
      unfold sps in *. rewrite Hf, Hcyc. field. lra. }
    assert (EA : forall l, 2 * PI * f * (INR (s0 + (j * sps + l)) / INR sr) + phi = A + 2 * (PI * f / INR sr) * INR l).
    { intros l. unfold A, s1. rewrite Nat.add_assoc, (plus_INR _ l). field. lra. }
    assert (EC : forall l, 2 * PI * fc * (INR (s0 + (j * sps + l)) / INR sr) + psi = C + 2 * (PI * fc / INR sr) * INR l).
    { intros l. unfold C, s1. rewrite Nat.add_assoc, (plus_INR _ l). field. lra. }
    destruct (Nat.even i).
    - rewrite (Rsum_n_ext sps _ (fun l => a / 2 * cos (A - C + 2 * (PI * (f - fc) / INR sr) * INR l) + a / 2 * cos (A + C + 2 * (PI * (f + fc) / INR sr) * INR l))).
      + rewrite Rsum_n_plus, !Rsum_n_scale, C1, C2. ring.
      + intros l Hl. cbv zeta. rewrite D by exact Hl. fold psi. unfold z. rewrite EA, EC.
        set (u := A + 2 * (PI * f / INR sr) * INR l). set (v := C + 2 * (PI * fc / INR sr) * INR l).
        replace (A - C + 2 * (PI * (f - fc) / INR sr) * INR l) with (u - v) by (unfold u, v; field; lra).
        replace (A + C + 2 * (PI * (f + fc) / INR sr) * INR l) with (u + v) by (unfold u, v; field; lra).
        rewrite (cos_minus u v), (cos_plus u v). field.
    - rewrite (Rsum_n_ext sps _ (fun l => a / 2 * sin (A - C + 2 * (PI * (f - fc) / INR sr) * INR l) + - (a / 2) * sin (A + C + 2 * (PI * (f + fc) / INR sr) * INR l))).
      + rewrite Rsum_n_plus, !Rsum_n_scale, S1, S2. ring.
      + intros l Hl. cbv zeta. rewrite D by exact Hl. fold psi. unfold z. rewrite EA, EC.
        set (u := A + 2 * (PI * f / INR sr) * INR l). set (v := C + 2 * (PI * fc / INR sr) * INR l).
        replace (A - C + 2 * (PI * (f - fc) / INR sr) * INR l) with (u - v) by (unfold u, v; field; lra).
        replace (A + C + 2 * (PI * (f + fc) / INR sr) * INR l) with (u + v) by (unfold u, v; field; lra).
        rewrite (sin_minus u v), (sin_plus u v). field. }
  assert (NB : Rabs (noise_at N P sr sy fc (length w) z i) <= Rabs a /\
               ((b < (length m / 2 - 1) / (N - P))%nat -> noise_at N P sr sy fc (length w) z i = 0)).
  { rewrite NF. split.
    - assert (HN : (1 <= N * sps)%nat) by nia. replace (N * sps)%nat with (N * sps - 1 + 1)%nat in Z0 |- * by lia.
      rewrite Rsum_n_add in Z0 |- *. cbn [Rsum_n] in Z0 |- *. rewrite Nat.add_0_r in Z0 |- *.
      rewrite (Rsum_n_ext (N * sps - 1) (fun q => ext0 _ _ _ * _) (fun q => z (s0 + q)%nat * wave N P sr sy fc i b q)).
      2:{ intros q Hq. unfold ext0. rewrite Lw. pose proof (in_signal N P sr sy HP Hy Hm Hs HL2 m i q Hi ltac:(fold sps; lia) ltac:(right; fold sps; lia)) as I.
          match goal with |- context [if ?c then _ else _] => destruct c eqn:Hge end; [reflexivity|]. apply Nat.ltb_ge in Hge.
          exfalso. exact (Nat.lt_irrefl _ (Nat.lt_le_trans _ _ _ I Hge)). }
      set (X := Rsum_n _ _) in *. set (q := (N * sps - 1)%nat) in *. set (W := wave N P sr sy fc i b q) in *.
      assert (BW : Rabs (z (s0 + q)%nat * W) <= Rabs a).
      { unfold z. rewrite !Rabs_mult. set (c := cos _).
        assert (Rabs c <= 1) by (apply Rabs_le; apply COS_bound).
        assert (Rabs W <= 1).
        { unfold W, wave. destruct (Nat.even i); [apply Rabs_le, COS_bound|rewrite Rabs_Ropp; apply Rabs_le, SIN_bound]. }
        pose proof (Rabs_pos a). pose proof (Rabs_pos c). pose proof (Rabs_pos W).
        assert (Rabs a * Rabs c <= Rabs a) by nra. nra. }
      unfold ext0. destruct (_ <? _)%nat.
      + match goal with |- Rabs ?x <= _ => assert (EZ : x = 0) by lra; rewrite EZ, Rabs_R0; apply Rabs_pos end.
      + match goal with |- Rabs ?x <= _ => replace x with (- (z (s0 + q)%nat * W)); [rewrite Rabs_Ropp; exact BW|lra] end.
    - intros Hlt. rewrite <- Z0. apply Rsum_n_ext. intros q Hq. unfold ext0. rewrite Lw.
      pose proof (in_signal N P sr sy HP Hy Hm Hs HL2 m i q Hi Hq ltac:(left; exact Hlt)) as I.
      match goal with |- context [if ?c then _ else _] => destruct c eqn:Hge end; [reflexivity|]. apply Nat.ltb_ge in Hge.
      exfalso. exact (Nat.lt_irrefl _ (Nat.lt_le_trans _ _ _ I Hge)). }
  destruct NB as [NB1 NB2]. pose proof (E8 i Hi) as E. apply Rabs_le_inv in E. rewrite Lw in NB1, NB2. fold b in Hc.
  assert (HLR : 12 <= INR sps) by (change 12 with (IZR (Z.of_nat 12)); rewrite <- INR_IZR_INZ; apply le_INR; exact HL).
  pose proof sqrt2_bounds as SB. assert (8 < INR sps / 2 * sqrt 2) by nra.
  fold sps M. set (n := noise_at _ _ _ _ _ _ _ _).
  change (Rabs n <= Rabs a) in NB1. change ((b < (length m / 2 - 1) / (N - P))%nat -> n = 0) in NB2.
  assert (Rabs n < INR sps / 2 * sqrt 2 - 8).
  { destruct Hc as [Hc|Hc]; [rewrite (NB2 Hc), Rabs_R0; lra|lra]. }
  destruct (Rabs_def2 _ _ H1) as [B1 B2].
  destruct (if Nat.even i then fst p else snd p), (Rle_dec _ _); try reflexivity; lra.
Qed.

(** The bound on the energy is nearly sharp: for every bit there is noise on its block alone that
    inverts it, of amplitude about sqrt 2 / N and of energy about (sps / sqrt 2 + 9)^2 * 2 / (N sps). *)
Theorem C104_tight :
  forall (message : Iter bool) m N P sample_rate symbol_rate fc (cycles : Z) i,
    let sps := (sample_rate / symbol_rate)%nat in
    let block_len := (N + N / 4)%nat in
    Nat.even N = true -> (1 <= P < N)%nat -> yields message m ->
    (1 <= symbol_rate)%nat -> (sample_rate mod symbol_rate = 0)%nat -> (Z.of_nat sample_rate < 2 ^ 64)%Z -> (2 <= sps)%nat ->
    fc * INR sps = IZR cycles * INR sample_rate -> ~ (exists z : Z, 2 * fc = IZR z * INR sample_rate) ->
    (i < 2 * (length m / 2))%nat ->
    exists tx w (noise : nat -> R), tx_ofdm_qpsk_signal exact_fft message N P sample_rate symbol_rate fc = Ret tx /\ yields tx w /\
      let first := ((i / 2 / (N - P) * block_len + N / 4) * sps + 1)%nat in
      let amplitude := (INR sps / 2 * sqrt 2 + 9) / (INR N * INR sps / 2 - 1) in
      (forall s, Rabs (noise s) <= amplitude) /\ (forall s, ~ (first <= s < first + N * sps)%nat -> noise s = 0) /\
      Rsum_n (N * sps) (fun j => noise (first + j)%nat * noise (first + j)%nat) = INR N * INR sps / 2 * (amplitude * amplitude) /\
      forall noisy, yields noisy (with_noise noise w) ->
      exists rx out, rx_ofdm_qpsk_signal exact_fft noisy N P sample_rate symbol_rate fc = Ret rx /\ yields rx out /\
        nth_error out i = option_map negb (nth_error m i).
Proof.
  intros message m N P sr sy fc cycles i sps M He HP Ym Hy Hm Hs HL Hcyc Hnyq Hi.
  destruct (bit_rule N P sr sy fc cycles He HP Hy Hm Hs HL Hcyc Hnyq message m Ym) as (tx & w & err & Et & Yt & Lw & E8 & H).
  destruct (pairs_nth m i Hi) as (p & _ & Eb). set (bit := if Nat.even i then fst p else snd p) in *.
  set (b := (i / 2 / (N - P))%nat). set (s0 := ((b * M + N / 4) * sps + 1)%nat).
  set (c := (INR sps / 2 * sqrt 2 + 9) / (INR N * INR sps / 2 - 1)).
  set (sg := if bit then -1 else 1).
  set (z := fun s : nat => if ((s0 <=? s) && (s <? s0 + N * sps))%nat then sg * c * wave N P sr sy fc i b (s - s0) else 0).
  exists tx, w, z. split; [exact Et|]. split; [exact Yt|]. intros first amplitude.
  assert (HN2 : (2 <= N)%nat) by lia.
  assert (N2 : 2 <= INR N) by (change 2 with (INR 2); apply le_INR; exact HN2).
  assert (S2 : 2 <= INR sps) by (change 2 with (INR 2); apply le_INR; exact HL).
  pose proof sqrt2_bounds as SB.
  assert (DN : 0 < INR N * INR sps / 2 - 1) by nra.
  assert (Cp : 0 < c) by (unfold c; apply Rdiv_lt_0_compat; nra).
  assert (SG : sg * sg = 1 /\ Rabs sg = 1) by (unfold sg; destruct bit; split; [lra|rewrite Rabs_left; lra|lra|rewrite Rabs_right; lra]).
  assert (W1 : forall q, Rabs (wave N P sr sy fc i b q) <= 1).
  { intros q. unfold wave. destruct (Nat.even i); [apply Rabs_le, COS_bound|rewrite Rabs_Ropp; apply Rabs_le, SIN_bound]. }
  assert (Zin : forall q, (q < N * sps)%nat -> z (s0 + q)%nat = sg * c * wave N P sr sy fc i b q).
  { intros q Hq. unfold z. replace (s0 + q - s0)%nat with q by lia.
    destruct (Nat.leb_spec s0 (s0 + q)), (Nat.ltb_spec (s0 + q) (s0 + N * sps)); try lia. reflexivity. }
  pose proof (wave_norm N P sr sy fc cycles HP Hy Hm Hs HL Hcyc Hnyq i b) as WN. fold sps in WN.
  split; [|split; [|split]].
  - intros s. unfold z. change amplitude with c. destruct (_ && _).
    + rewrite !Rabs_mult. destruct SG as [_ ->]. rewrite (Rabs_pos_eq c) by lra. pose proof (W1 (s - s0)%nat). pose proof (Rabs_pos (wave N P sr sy fc i b (s - s0))). nra.
    + rewrite Rabs_R0. lra.
  - intros s Hout. unfold z. change first with s0 in Hout.
    destruct (Nat.leb_spec s0 s), (Nat.ltb_spec s (s0 + N * sps)); try reflexivity. lia.
  - change first with s0. change amplitude with c.
    rewrite (Rsum_n_ext (N * sps) _ (fun q => c * c * (wave N P sr sy fc i b q * wave N P sr sy fc i b q))).
    + rewrite Rsum_n_scale, WN. unfold Rdiv. ring.
    + intros q Hq. rewrite Zin by exact Hq. destruct SG as [SG _].
      replace (sg * c * wave N P sr sy fc i b q * (sg * c * wave N P sr sy fc i b q))
        with (sg * sg * (c * c * (wave N P sr sy fc i b q * wave N P sr sy fc i b q))) by ring. rewrite SG. ring.
  - intros noisy Yn. destruct (H _ noisy Yn) as (rx & out & Er & Yr & Lo & Hb). exists rx, out.
    split; [exact Er|]. split; [exact Yr|]. rewrite (Hb i bit Hi Eb), Eb. cbn [option_map]. f_equal.
    pose proof (noise_flat N P sr sy fc HP Hy Hm HL (length w) z i) as NF. cbv zeta in NF. fold b M sps s0 in NF.
    rewrite Lw in NF. set (n := noise_at N P sr sy fc _ z i) in *.
    change (INR (sr / sy)) with (INR sps).
    assert (Hn : INR sps / 2 * sqrt 2 + 9 <= sg * n).
    { assert (HN : (1 <= N * sps)%nat) by nia.
      rewrite NF. rewrite <- Rsum_n_scale.
      replace (N * sps)%nat with (N * sps - 1 + 1)%nat in WN |- * by lia. rewrite Rsum_n_add in WN |- *. cbn [Rsum_n] in WN |- *. rewrite Nat.add_0_r in WN |- *.
      rewrite (Rsum_n_ext (N * sps - 1) _ (fun q => c * (wave N P sr sy fc i b q * wave N P sr sy fc i b q))).
      2:{ intros q Hq. unfold ext0. pose proof (in_signal N P sr sy HP Hy Hm Hs HL m i q Hi ltac:(fold sps; lia) ltac:(right; fold sps; lia)) as I.
          match goal with |- context [if ?c then _ else _] => destruct c eqn:Hge end.
          - rewrite Zin by lia. destruct SG as [SG _].
            replace (sg * (sg * c * wave N P sr sy fc i b q * wave N P sr sy fc i b q)) with (sg * sg * (c * (wave N P sr sy fc i b q * wave N P sr sy fc i b q))) by ring.
            rewrite SG. ring.
          - apply Nat.ltb_ge in Hge. exfalso. exact (Nat.lt_irrefl _ (Nat.lt_le_trans _ _ _ I Hge)). }
      rewrite Rsum_n_scale. set (X := Rsum_n (N * sps - 1) _) in *. set (q := (N * sps - 1)%nat) in *. set (W := wave N P sr sy fc i b q) in *.
      assert (W2 : 0 <= W * W <= 1) by (pose proof (W1 q) as HW; fold W in HW; apply Rabs_le_inv in HW; nra).
      assert (LA : forall len, 0 <= sg * (ext0 len z (s0 + q) * W)).
      { intros len. unfold ext0. destruct (_ <? _)%nat; [|lra]. rewrite Zin by (unfold q; lia). fold W. destruct SG as [SG _].
        replace (sg * (sg * c * W * W)) with (sg * sg * (c * (W * W))) by ring. rewrite SG. nra. }
      assert (EC : c * (INR N * INR sps / 2 - 1) = INR sps / 2 * sqrt 2 + 9) by (unfold c; field; lra).
      assert (XE : X = INR N * INR sps / 2 - W * W) by lra.
      match goal with |- context [ext0 ?len z _] => specialize (LA len); set (u := sg * (ext0 len z (s0 + q) * W)) in * end. nra. }
    pose proof (E8 i Hi) as E. apply Rabs_le_inv in E. unfold sg in Hn.
    destruct bit; cbn [negb]; destruct (Rle_dec _ _); try reflexivity; lra.
Qed.

(** The rates of the unit test (src/ofdm.rs:182-216): 49 samples and two carrier cycles per symbol, 64
    subcarriers, 12 pilots.  Noise of at most 1/85 per sample loses no bit. *)
Example C104_test_rates : ((49 * 900) mod 900 = 0)%nat /\ (49 * 900 / 900 = 49)%nat /\ 1800 * INR 49 = IZR 2 * INR (49 * 900) /\
  ~ (exists z : Z, 2 * 1800 = IZR z * INR (49 * 900)).
Proof.
  split; [apply Nat.mod_mul; discriminate|]. split; [apply Nat.div_mul; discriminate|].
  rewrite mult_INR. replace (INR 49) with 49 by (rewrite INR_IZR_INZ; reflexivity). replace (INR 900) with 900 by (rewrite INR_IZR_INZ; reflexivity).
  split; [lra|]. intros (z & H).
  assert (0 < z)%Z by (apply lt_IZR; lra). assert (z < 1)%Z by (apply lt_IZR; lra). lia.
Qed.
Example C104_test_noise (message : Iter bool) m : yields message m ->
  exists tx w, tx_ofdm_qpsk_signal exact_fft message 64 12 (49 * 900) 900 1800 = Ret tx /\ yields tx w /\
    forall (noise : nat -> R) noisy, (forall s, Rabs (noise s) <= / 85) -> yields noisy (with_noise noise w) ->
    exists rx out, rx_ofdm_qpsk_signal exact_fft noisy 64 12 (49 * 900) 900 1800 = Ret rx /\ yields rx out /\
      forall i, (i < 2 * (length m / 2))%nat -> nth_error out i = nth_error m i.
Proof.
  intros Ym. destruct C104_test_rates as (R1 & R2 & R3 & R4).
  pose proof (C104_noise message m 64 12 (49 * 900) 900 1800 2) as T. cbv zeta in T. rewrite R2 in T.
  destruct T as (tx & w & Et & Yt & H); [reflexivity|split; apply Nat.leb_le; reflexivity|exact Ym|apply Nat.leb_le; reflexivity|exact R1
    |rewrite Nat2Z.inj_mul; apply Z.ltb_lt; reflexivity|apply Nat.leb_le; reflexivity|exact R3|exact R4|].
  exists tx, w. split; [exact Et|]. split; [exact Yt|]. intros noise noisy Hn Yn.
    destruct (H noise noisy Yn) as (rx & out & Er & Yr & _ & Hb). exists rx, out. split; [exact Er|]. split; [exact Yr|].
    intros i Hi. apply (Hb i Hi). set (E := Rsum_n _ _).
    assert (HE : E <= 3136 * (/ 85 * / 85)).
    { unfold E. replace 3136 with (INR (64 * 49)) by (rewrite mult_INR, !INR_IZR_INZ; cbn; lra). rewrite <- Rsum_n_const.
      apply Rsum_n_le. intros j _. pose proof (Hn ((i / 2 / (64 - 12) * (64 + 64 / 4) + 64 / 4) * 49 + 1 + j)%nat) as B. apply Rabs_le_inv in B. nra. }
    assert (E0 : 0 <= E) by (apply Rsum_n_nonneg; intros; nra).
    replace (INR 64) with 64 by (rewrite INR_IZR_INZ; reflexivity). replace (INR 49) with 49 by (rewrite INR_IZR_INZ; reflexivity).
    pose proof sqrt2_bounds as SB. apply Rle_lt_trans with (2662 / 100); [|lra].
    rewrite <- (sqrt_square (2662 / 100)) by lra. apply sqrt_le_1_alt. lra.
Qed.

(** A constant offset of 20 on that link: the tone of frequency 0, and 20 < 49 / sqrt 2 - 8. *)
Example C104_offset : 0 * INR 49 = IZR 0 * INR (49 * 900) /\ ~ (exists z : Z, 0 - 1800 = IZR z * INR (49 * 900)) /\
  ~ (exists z : Z, 0 + 1800 = IZR z * INR (49 * 900)) /\ Rabs 20 < INR 49 / 2 * sqrt 2 - 8.
Proof.
  rewrite mult_INR. replace (INR 49) with 49 by (rewrite INR_IZR_INZ; reflexivity). replace (INR 900) with 900 by (rewrite INR_IZR_INZ; reflexivity).
  split; [lra|]. split; [|split].
  - intros (z & H). assert (-1 < z)%Z by (apply lt_IZR; lra). assert (z < 0)%Z by (apply lt_IZR; lra). lia.
  - intros (z & H). assert (0 < z)%Z by (apply lt_IZR; lra). assert (z < 1)%Z by (apply lt_IZR; lra). lia.
  - rewrite Rabs_pos_eq by lra. pose proof sqrt2_bounds. lra.
Qed.

(** ** Axioms used *)
Print Assumptions C104_rule.
Print Assumptions C104_noise.
Print Assumptions C104_tone.
Print Assumptions C104_tight.
