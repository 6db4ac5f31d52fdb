(** Property C105: the passband OFDM link in binary64 (src/ofdm.rs:95-147). *)
From Coq Require Import List Arith ZArith Reals Bool Lia Lra Psatz.
From Flocq Require Import Core BinarySingleNaN.
From Verif Require Import Base IterTheory IterModel IterProofs Spec SpecR Tab Num F64Lib LibModel LibFloat LibReal
  ChaosModel ChaosProofs ChaosMod PskModel PskFloat CdmaModel FhProofs RSums PskReal FhFloat FloatSum SpecC FftModel Dft
  OfdmModel OfdmProofs OfdmReal OfdmWave OfdmLink OfdmPass Props_Psk Props_PassF Props_OfdmF Props_OfdmNoise OfdmPassF.
Import ListNotations.
Local Open Scope R_scope.

(** A binary64 transform of length N with relative error eps, for numbers of modulus up to top (C93 asks the same
    up to 8). *)
Definition accurate_to (top eps : R) (N : nat) (transform : list (cpx F64) -> list (cpx F64)) (exact : list (cpx R) -> list (cpx R)) : Prop :=
  forall x A, length x = N -> 1 <= A <= top -> (forall s, In s x -> cfinite s /\ cmod (cval s) <= A) ->
  forall k, (k < N)%nat -> cfinite (nth k (transform x) czero) /\
    cmod (csub (cval (nth k (transform x) czero)) (nth k (exact (map cval x)) (Cpx 0 0))) <= eps * (INR N * A).

Lemma accurate_8 top eps N t e : 8 <= top -> accurate_to top eps N t e -> accurate eps N t e.
Proof. intros H HA x A L B. apply HA; [exact L|lra]. Qed.

(** One transmitted baseband sample, prefix included. *)
Lemma cp_err libm fft N eps d t : (2 <= N)%nat -> (Z.of_nat N <= 2 ^ 40)%Z -> 0 <= eps -> INR N * eps <= 1 / 32 ->
  accurate eps N (fft_inverse fft) idft -> length d = N -> small d -> (t < N + N / 4)%nat ->
  let num := NumF libm in let y := nth t (with_cp N (ofdm_body fft N d)) czero in
  cfinite y /\ cmod (cval y) <= 4 /\ cmod (csub (cval y) (tone N (spectrum N d) (Z.of_nat t - Z.of_nat (N / 4)))) <= 3 * eps + bpow radix2 (-49).
Proof.
  intros H2 HN He HNe Hinv Ld Sd Ht num y. pose proof (quarter N) as Q.
  assert (LB : length (ofdm_body fft N d) = N) by (rewrite ofdm_body_length; exact Ld).
  assert (E : exists j, (j < N)%nat /\ y = nth j (ofdm_body fft N d) czero /\ exists q : Z, (Z.of_nat t - Z.of_nat (N / 4) = Z.of_nat j + q * Z.of_nat N)%Z).
  { unfold y, with_cp. destruct (Nat.lt_ge_cases t (N / 4)) as [H|H].
    - exists (N - N / 4 + t)%nat. split; [lia|]. split.
      + rewrite app_nth1 by (rewrite skipn_length; rewrite LB; lia). rewrite nth_skipn'. reflexivity.
      + exists (-1)%Z. lia.
    - exists (t - N / 4)%nat. split; [lia|]. split.
      + rewrite app_nth2 by (rewrite skipn_length; rewrite LB; lia). rewrite skipn_length, LB. f_equal. lia.
      + exists 0%Z. lia. }
  destruct E as (j & Hj & -> & q & ->). rewrite tone_period by lia.
  destruct (body_err libm fft N eps ltac:(lia) HN He HNe Hinv d j Ld Sd Hj) as [F E].
  split; [exact F|]. split; [|exact E]. apply (body_bound libm fft N eps ltac:(lia) HN He HNe Hinv d j Ld Sd Hj).
Qed.

Lemma decide_nth libm (v : nat -> cpx F64) n i : (i < 2 * n)%nat ->
  nth_error (flat_map (decide libm) (tab n v)) i = Some (Bleb (f64_ofZ 0) (if Nat.even i then re (v (i / 2)%nat) else im (v (i / 2)%nat))).
Proof.
  revert v i. induction n as [|n IH]; intros v i Hi; [lia|].
  replace (S n) with (1 + n)%nat by lia. rewrite tab_add. cbn [tab map seq app flat_map].
  destruct i as [|[|i]]; [reflexivity|reflexivity|].
  change (nth_error (decide libm (v 0%nat) ++ flat_map (decide libm) (tab n (fun i0 => v (1 + i0)%nat))) (S (S i))) with
    (nth_error (flat_map (decide libm) (tab n (fun i0 => v (1 + i0)%nat))) i).
  rewrite IH by lia. cbn [Nat.even].
  replace (S (S i) / 2)%nat with (1 + i / 2)%nat; [reflexivity|].
  replace (S (S i)) with (i + 1 * 2)%nat by lia. rewrite Nat.div_add by lia. lia.
Qed.

Lemma decide_length libm l : length (flat_map (decide libm) l) = (2 * length l)%nat.
Proof. induction l as [|a l IH]; [reflexivity|]. cbn [flat_map]. rewrite app_length, IH. cbn [length decide]. lia. Qed.

Lemma sign_level (x : F64) b h e : is_finite x = true -> 0 <= h -> Rabs (B2R x - h * B2R (level b)) <= e -> e < h * (181 / 128) -> Bleb (f64_ofZ 0) x = b.
Proof.
  intros F Hh V He. destruct (ofZ_exact 0 ltac:(lia)) as (V0 & F0 & _). destruct (level_val b) as [_ L]. apply Rabs_le_inv in V.
  destruct b.
  - apply leb_val; [exact F0|exact F|]. rewrite V0. change (val x) with (B2R x). nra.
  - destruct (Bleb (f64_ofZ 0) x) eqn:E; [|reflexivity]. apply leb_val in E; [|exact F0|exact F]. rewrite V0 in E. change (val x) with (B2R x) in E. nra.
Qed.

(** The budget: everything rounding adds to a received symbol is at most sps/16. *)
Lemma budget n l eps tau : 1 <= n -> 2 <= l -> 0 <= eps -> 0 <= tau -> n * l <= bpow radix2 38 -> n * eps <= 1 / 4096 -> n * tau <= 1 / 8192 ->
  eps * (n * (64 * l)) + n * (l * ((l + 4) * 64 * u53 + 64 * tau)) + n * l * (32 * u53 + 16 * tau + 2 * (3 * eps + bpow radix2 (-49))) <= l / 16.
Proof.
  intros Hn Hl He Ht Hnl Hne Hnt. pose proof u53_pos as U.
  assert (E49 : bpow radix2 (-49) = 16 * u53) by (change 16 with (bpow radix2 4); rewrite <- bpow_plus; reflexivity). rewrite E49.
  assert (U38 : bpow radix2 38 * u53 = / 32768) by (rewrite <- bpow_plus; cbn; lra).
  assert (B1 : n * l * u53 <= / 32768) by (rewrite <- U38; apply Rmult_le_compat_r; lra).
  assert (B2 : n * u53 <= / 32768).
  { apply Rle_trans with (2 := B1). apply Rmult_le_compat_r; [lra|]. nra. }
  replace (eps * (n * (64 * l)) + n * (l * ((l + 4) * 64 * u53 + 64 * tau)) + n * l * (32 * u53 + 16 * tau + 2 * (3 * eps + 16 * u53)))
    with (l * (70 * (n * eps) + 80 * (n * tau) + 64 * (n * l * u53) + 320 * (n * u53))) by ring.
  replace (l / 16) with (l * (1 / 16)) by field. apply Rmult_le_compat_l; [lra|]. lra.
Qed.

(** ** C105

    N subcarriers, P pilots, sps samples per symbol and a carrier with whole cycles per symbol, in binary64, with
    an FFT of relative error eps and a sine and cosine right to tau, N * eps <= 2^-12 and N * tau <= 2^-13: the
    transmitter sends finite samples below 3, and every bit whose block the channel changes by little comes back.
    The change is counted in energy, over the samples the receiver uses; each sample may be off by up to 8. *)
Theorem C105_passband_binary64 :
  forall (libm : Libm) (fft : Fft F64) N P eps tau (message : Iter bool) m sample_rate symbol_rate (fc : F64) (cycles : Z),
    let num := NumF libm in
    let sps := (sample_rate / symbol_rate)%nat in
    let block_len := (N + N / 4)%nat in
    let total := (ceil_div (length m / 2) (N - P) * block_len * sps)%nat in
    Nat.even N = true -> (1 <= P < N)%nat -> yields message m ->
    (1 <= symbol_rate)%nat -> (sample_rate mod symbol_rate = 0)%nat -> (Z.of_nat sample_rate < 2 ^ 53)%Z -> (2 <= sps)%nat ->
    (Z.of_nat (N * sps) <= 2 ^ 38)%Z -> (Z.of_nat total < 2 ^ 53)%Z ->
    is_finite fc = true -> B2R fc * INR sps = IZR cycles * INR sample_rate -> ~ (exists z : Z, 2 * B2R fc = IZR z * INR sample_rate) ->
    0 <= eps -> INR N * eps <= 1 / 4096 ->
    accurate_to (64 * INR sps) eps N (fft_inverse fft) idft -> accurate_to (64 * INR sps) eps N (fft_forward fft) dft ->
    libm_exp libm (f64_ofZ 0) = f64_ofZ 1 -> 0 <= tau -> INR N * tau <= 1 / 8192 -> libm_tol libm (bpow radix2 45) tau ->
    2 * PI * Rabs (B2R fc) * (INR total / INR sample_rate) <= tau * bpow radix2 50 ->
    exists tx w, tx_ofdm_qpsk_signal fft message N P sample_rate symbol_rate fc = Ret tx /\ yields tx w /\ length w = total /\
      (forall x, In x w -> is_finite x = true /\ Rabs (B2R x) <= 3) /\
      forall channel received, yields channel received -> length received = total ->
        (forall i, (i < total)%nat -> is_finite (nth i received (nofZ 0)) = true /\
           Rabs (B2R (nth i received (nofZ 0)) - B2R (nth i w (nofZ 0))) <= 8) ->
        exists rx out, rx_ofdm_qpsk_signal fft channel N P sample_rate symbol_rate fc = Ret rx /\ yields rx out /\
          (2 * (length m / 2) <= length out < 2 * (length m / 2) + 2 * (N - P))%nat /\
          forall i, (i < 2 * (length m / 2))%nat ->
            let first := ((i / 2 / (N - P) * block_len + N / 4) * sps + 1)%nat in
            let change j := B2R (nth j received (nofZ 0)) - B2R (nth j w (nofZ 0)) in
            let energy := Rsum_n (N * sps) (fun j => change (first + j)%nat * change (first + j)%nat) in
            sqrt (INR N * INR sps / 2 * energy) <= 5 / 8 * INR sps - 9 ->
            nth_error out i = nth_error m i.
Proof.
  intros libm fft N P eps tau message m sr sy fc cycles num L M total Hev HP Ym Hy Hm Hs HL HNL HT Ff Hcyc Hnyq Heps HNe Hinv Hfwd Hexp Htau HNt Hlm Hph.
  pose proof (quarter N) as QN. pose proof u53_pos as U. pose proof u53_small as US. change (IZR (2 ^ 40)) with 1099511627776 in US.
  assert (Hsr : (1 <= sr)%nat) by (destruct sr; [unfold L in HL; rewrite Nat.div_0_l in HL by lia; lia|lia]).
  assert (Hsy : (sy <= sr)%nat).
  { destruct (Nat.le_gt_cases sy sr); [assumption|]. unfold L in HL. rewrite Nat.div_small in HL by lia. lia. }
  assert (HN40 : (Z.of_nat N <= 2 ^ 40)%Z) by nia.
  assert (IL : 2 <= INR L) by (apply (le_INR 2); exact HL).
  assert (IN : 2 <= INR N) by (apply (le_INR 2); lia).
  assert (Ha8 : accurate eps N (fft_inverse fft) idft) by (apply (accurate_8 (64 * INR L)); [lra|exact Hinv]).
  assert (HNe32 : INR N * eps <= 1 / 32) by lra.
  assert (Hnl : INR N * INR L <= bpow radix2 38).
  { rewrite <- mult_INR, INR_IZR_INZ. change (bpow radix2 38) with (IZR (2 ^ 38)). apply IZR_le. exact HNL. }
  pose proof (budget (INR N) (INR L) eps tau ltac:(lra) IL Heps Htau Hnl HNe HNt) as BG.
  assert (Bf : 1 / 2 <= Rabs (B2R fc)).
  { apply (fc_half (B2R fc) sr sy (2 * cycles)); [lia| |exact Hnyq]. fold L. rewrite mult_IZR. lra. }
  assert (Ht64 : 0 <= tau <= 1 / 64) by (split; [exact Htau|nra]).
  assert (HC : forall i, (i < total)%nat -> _) by (intros i Hi; exact (carrier_tol libm fc sr total i tau Hlm Ht64 Ff Bf Hsr Hs HT Hi Hph)).
  cbv zeta in HC.
  (* the baseband symbols *)
  pose proof (tx_points libm message m Ym) as Hsym. set (s := map (qpsk_point libm) (pairs m)) in *.
  assert (Ls : length s = (length m / 2)%nat) by (unfold s; rewrite map_length; apply (pairs_len (length m)); reflexivity).
  assert (Ss : small s).
  { intros x Hx. apply in_map_iff in Hx. destruct Hx as (p & <- & _). apply point_small. }
  destruct (tx_stream libm fft _ s N P HP Hsym) as (txb & D & Eb & HD & Yb). fold M in Yb. rewrite Ls in HD, Yb.
  set (B := ceil_div (length m / 2) (N - P)) in *.
  pose proof (ceil_div_spec (length m / 2) (N - P) ltac:(lia)) as CS. fold B in CS.
  assert (SD : forall b, (b < B)%nat -> length (D b) = N /\ small (D b)).
  { intros b Hb. split; [apply (HD b Hb)|]. apply (freq_small libm N P (block (N - P) b s)); [exact HP| |apply HD; exact Hb].
    intros x Hx. apply Ss. eapply in_block. exact Hx. }
  set (F := fun b => spectrum N (D b)).
  assert (HF : forall b k, (b < B)%nat -> (k < N)%nat -> cmod (F b k) <= 2001 / 1000).
  { intros b k Hb Hk. unfold F, spectrum. destruct (HD b Hb) as (L1 & Hout & Hin). rewrite (c0_czero libm) in Hout, Hin.
    set (c := bin N k). destruct (in_dec Nat.eq_dec c (carriers N P)) as [I|I].
    - apply (In_nth _ _ 0%nat) in I. destruct I as (q & Hq & <-). rewrite carriers_length in Hq by lia. rewrite Hin by exact Hq.
      destruct (nth_in_or_default q (block (N - P) b s) czero) as [J| ->]; [|rewrite cval_zero, cmod_0; lra].
      apply in_block in J. apply in_map_iff in J. destruct J as (p & <- & _). apply point_2.
    - rewrite Hout by exact I. rewrite cval_zero, cmod_0. lra. }
  (* the passband samples *)
  destruct (tx_frontF libm fft sr sy N P fc Hy Hm Hs HL message txb _ _ Eb Yb) as (tx & Et & Yt). fold L in Yt.
  rewrite Hexp in Yt. cbv beta in Yt. fold total in Yt.
  set (y := fun q => nth (q mod M) (with_cp N (@ofdm_body F64 num fft N (D (q / M)%nat))) czero) in *.
  set (w := fun i => pass_f libm sr fc (f64_ofZ 1) (y (i / L)%nat) i).
  change (yields tx (tab total w)) in Yt.
  set (x := fun q => tone N (F (q / M)%nat) (Z.of_nat (q mod M) - Z.of_nat (N / 4))).
  set (th := fun i : nat => 2 * PI * B2R fc * (INR i / INR sr)).
  set (e1 := 3 * eps + bpow radix2 (-49)) in *.
  assert (He1 : 0 <= e1 <= 1 / 100).
  { unfold e1. assert (bpow radix2 (-49) = 16 * u53) as -> by (change 16 with (bpow radix2 4); rewrite <- bpow_plus; reflexivity). split; nra. }
  set (d1 := 32 * u53 + 16 * tau + 2 * e1) in *.
  assert (Hd1 : 0 <= d1 <= 1 / 10) by (unfold d1; split; nra).
  assert (HW : forall i, (i < total)%nat -> fin (w i) = true /\ Rabs (val (w i) - pass_sample (B2R fc) sr L x i) <= d1).
  { intros i Hi. assert (Hq : (i / L < B * M)%nat) by (apply Nat.div_lt_upper_bound; unfold total in Hi; lia).
    assert (Hb : (i / L / M < B)%nat) by (apply Nat.div_lt_upper_bound; lia).
    destruct (SD _ Hb) as [L1 L2].
    destruct (cp_err libm fft N eps (D (i / L / M)%nat) ((i / L) mod M) ltac:(lia) HN40 Heps HNe32 Ha8 L1 L2) as (Fy & By & Ey).
    { apply Nat.mod_upper_bound. lia. }
    destruct (HC i Hi) as ((C1 & C2 & C3 & C4) & C5 & C6).
    destruct (pass_err libm sr fc (y (i / L)%nat) i tau C1 C2 C3 C4 C5 C6 Fy By) as [Fw Ew].
    split; [exact Fw|]. fold (w i) in Ew. fold (th i) in Ew. unfold pass_sample. fold (th i).
    change (cmod (csub (cval (y (i / L)%nat)) (x (i / L)%nat)) <= e1) in Ey.
    set (a := y (i / L)%nat) in *. set (q := x (i / L)%nat) in *.
    pose proof (Rle_trans _ _ _ (cmod_re _) Ey) as Er. pose proof (Rle_trans _ _ _ (cmod_im _) Ey) as Ei.
    change (re (csub (cval a) q)) with (re (cval a) - re q) in Er. change (im (csub (cval a) q)) with (im (cval a) - im q) in Ei.
    assert (M1 : Rabs ((re (cval a) - re q) * cos (th i)) <= e1).
    { rewrite Rabs_mult, <- (Rmult_1_r e1). apply Rmult_le_compat; try apply Rabs_pos; [exact Er|apply Rabs_le, COS_bound]. }
    assert (M2 : Rabs ((im (cval a) - im q) * sin (th i)) <= e1).
    { rewrite Rabs_mult, <- (Rmult_1_r e1). apply Rmult_le_compat; try apply Rabs_pos; [exact Ei|apply Rabs_le, SIN_bound]. }
    apply Rabs_le_inv in M1. apply Rabs_le_inv in M2. apply Rabs_le_inv in Ew. apply Rabs_le. unfold d1. lra. }
  assert (HP2 : forall i, (i < total)%nat -> Rabs (pass_sample (B2R fc) sr L x i) <= 2001 / 1000).
  { intros i Hi. assert (Hq : (i / L < B * M)%nat) by (apply Nat.div_lt_upper_bound; unfold total in Hi; lia).
    assert (Hb : (i / L / M < B)%nat) by (apply Nat.div_lt_upper_bound; lia).
    assert (Bx : cmod (x (i / L)%nat) <= 2001 / 1000) by (apply tone_bound; [lia|]; intros; apply HF; assumption).
    apply Rle_trans with (2 := Bx). unfold pass_sample. fold (th i).
    rewrite <- (Rmult_1_r (cmod (x (i / L)%nat))), <- (cmod_cis (th i)), <- cmod_mul.
    apply Rle_trans with (2 := cmod_re _). apply Req_le. reflexivity. }
  exists tx, (tab total w). split; [exact Et|]. split; [exact Yt|]. split; [apply tab_length|]. split.
  { intros a Ha. apply in_map_iff in Ha. destruct Ha as (i & <- & Hi). apply in_seq in Hi.
    destruct (HW i ltac:(lia)) as [W1 W2]. split; [exact W1|]. pose proof (HP2 i ltac:(lia)) as W3.
    change (B2R (w i)) with (val (w i)). apply Rabs_le_inv in W2. apply Rabs_le_inv in W3. apply Rabs_le. lra. }
  (* the receiver *)
  intros channel received Yc Lr Hr.
  set (g := fun i => nth i received (f64_ofZ 0)).
  assert (Yc' : yields channel (tab (B * M * L) g)).
  { unfold g. fold total. rewrite <- Lr, tab_nth_id. exact Yc. }
  destruct (rx_frontF libm fft sr sy N P fc Hy Hm Hs HL channel g (B * M) Yc') as (base & Ybase & Erx). fold L in Ybase.
  match type of Ybase with yields _ (tab _ ?f) => set (v := f) in * end.
  destruct (rx_stream libm fft base v N P B HP Ybase) as (rxb & Erb & Yrb). apply (rx_decide libm) in Yrb. fold M in Yrb.
  exists (rx_baseband_qpsk_signal rxb). eexists. split; [|split; [exact Yrb|]].
  { etransitivity; [exact Erx|]. match goal with |- bind ?a _ = _ => replace a with (Ret rxb) by (symmetry; exact Erb) end. reflexivity. }
  match goal with |- context [flat_map _ (tab _ ?f)] => set (out := f) end.
  split.
  { rewrite decide_length, tab_length. clear - CS HP. lia. }
  intros i Hi first change energy HE.
  destruct (pairs_nth m i Hi) as (p & Ep & Em). rewrite Em, decide_nth by lia. f_equal.
  assert (Hi2 : (i / 2 < length m / 2)%nat) by (apply Nat.div_lt_upper_bound; lia).
  pose proof (Nat.div_mod (i / 2) (N - P) ltac:(lia)) as Dm. pose proof (Nat.mod_upper_bound (i / 2) (N - P) ltac:(lia)) as Um.
  unfold out. clear out.
  set (b := (i / 2 / (N - P))%nat) in *. set (r := ((i / 2) mod (N - P))%nat) in *.
  assert (Hb : (b < B)%nat) by nia. set (c := nth r (carriers N P) 0%nat).
  assert (Hc : (c < N)%nat) by (eapply carriers_lt; [|apply nth_In; rewrite carriers_length by lia; exact Um]; lia).
  set (k := bin N c). assert (Hk : (k < N)%nat) by (apply bin_lt; lia).
  set (yy := tab N (fun j => v (b * M + N / 4 + j)%nat)).
  assert (E0 : nth c (fftshift (fft_forward fft yy)) czero = nth k (fft_forward fft yy) czero).
  { rewrite (fftshift_nth N) by (rewrite fft_forward_length; apply tab_length). rewrite tab_nth by exact Hc. reflexivity. }
  rewrite E0. clear E0.
  (* received samples *)
  assert (HG : forall q, (q < B * M * L)%nat -> fin (g q) = true /\ Rabs (val (g q)) <= 16).
  { intros q Hq. fold total in Hq. destruct (Hr q Hq) as [R1 R2]. split; [exact R1|].
    rewrite tab_nth in R2 by exact Hq. destruct (HW q Hq) as [_ W2]. pose proof (HP2 q Hq) as W3.
    change (Rabs (val (g q) - val (w q)) <= 8) in R2. apply Rabs_le_inv in R2. apply Rabs_le_inv in W2. apply Rabs_le_inv in W3. apply Rabs_le. lra. }
  assert (HL50 : (Z.of_nat L <= 2 ^ 50)%Z) by nia.
  assert (HI : forall j, (j < N)%nat -> (b * M + N / 4 + j < B * M)%nat).
  { intros j Hj. apply Nat.lt_le_trans with (b * M + M)%nat; [clear - Hj; unfold M; lia|].
    replace (b * M + M)%nat with (S b * M)%nat by (clear; ring). apply Nat.mul_le_mono_r. exact Hb. }
  assert (SE : forall j, (j < N)%nat -> _) by
    (intros j Hj; exact (symbol_err libm sr fc g (B * M) L (b * M + N / 4 + j)%nat tau HL HL50 (HI j Hj) Htau HG HC)).
  cbv zeta in SE. fold th in SE.
  set (eb := INR L * ((INR L + 4) * 64 * u53 + 64 * tau)) in *.
  set (yx := fun q => Cpx (Rsum_n L (fun l => ext0 (B * M * L) (fun i => val (g i) * cos (th i)) (q * L + 1 + l)%nat))
                          (Rsum_n L (fun l => ext0 (B * M * L) (fun i => val (g i) * - sin (th i)) (q * L + 1 + l)%nat))).
  assert (SE' : forall j, (j < N)%nat -> cfinite (v (b * M + N / 4 + j)%nat) /\
     cmod (csub (cval (v (b * M + N / 4 + j)%nat)) (yx (b * M + N / 4 + j)%nat)) <= eb) by exact SE. clear SE.
  assert (Heb : 0 <= eb <= INR L).
  { unfold eb. assert (INR L * u53 <= 1 / 2048).
    { assert (U38 : bpow radix2 38 * u53 = / 32768) by (rewrite <- bpow_plus; cbn; lra).
      apply Rle_trans with (bpow radix2 38 * u53); [apply Rmult_le_compat_r; [lra|nra]|lra]. }
    assert (tau <= 1 / 8192) by nra. assert (0 <= INR L * u53) by nra. split; [nra|].
    rewrite <- (Rmult_1_r (INR L)) at 3. apply Rmult_le_compat_l; [lra|]. lra. }
  assert (BX : forall q, cmod (yx q) <= 32 * INR L).
  { intros q. apply Rle_trans with (1 := cmod_parts _). unfold yx. cbn [re im].
    assert (G : forall t : nat -> R, (forall n, Rabs (t n) <= 1) -> Rabs (Rsum_n L (fun l => ext0 (B * M * L) (fun i => val (g i) * t i) (q * L + 1 + l)%nat)) <= INR L * 16).
    { intros t Ht. match goal with |- Rabs (Rsum_n ?n ?f) <= _ => replace (Rsum_n n f) with (Rsum_n n f - Rsum_n n (fun _ => 0)) by (rewrite Rsum_n_const; ring) end.
      apply Rsum_n_dist. intros l _. rewrite Rminus_0_r. unfold ext0. destruct (Nat.ltb_spec (q * L + 1 + l) (B * M * L)) as [Hlt|]; [|rewrite Rabs_R0; lra].
      rewrite Rabs_mult, <- (Rmult_1_r 16). apply Rmult_le_compat; try apply Rabs_pos; [apply HG; exact Hlt|apply Ht]. }
    pose proof (G (fun i => cos (th i)) ltac:(intros; apply Rabs_le, COS_bound)).
    pose proof (G (fun i => - sin (th i)) ltac:(intros; cbv beta; rewrite Rabs_Ropp; apply Rabs_le, SIN_bound)). lra. }
  destruct (Hfwd yy (64 * INR L) (tab_length _ _) ltac:(lra)) with (k := k) as [Fo Eo]; [|exact Hk|].
  { intros a Ha. apply in_map_iff in Ha. destruct Ha as (j & <- & Hj). apply in_seq in Hj.
    destruct (SE' j ltac:(lia)) as [S1 S2]. split; [exact S1|].
    pose proof (cmod_near (cval (v (b * M + N / 4 + j)%nat)) (yx (b * M + N / 4 + j)%nat)). pose proof (BX (b * M + N / 4 + j)%nat). lra. }
  unfold yy in Eo. rewrite tab_map, dft_tab, tab_nth in Eo by exact Hk. fold yy in Eo.
  set (o := nth k (fft_forward fft yy) czero) in *.
  set (Y := Csum_n N _) in Eo.
  set (V := Csum_n N (fun j => cmul (yx (b * M + N / 4 + j)%nat) (root N (- (Z.of_nat j * Z.of_nat k))))).
  assert (EYV : cmod (csub Y V) <= INR N * eb).
  { unfold Y, V. rewrite Csum_minus. apply Rle_trans with (1 := cmod_sum _ _).
    rewrite <- Rsum_n_const. apply Rsum_n_le. intros j Hj.
    replace (csub (cmul (cval (v (b * M + N / 4 + j)%nat)) (root N (- (Z.of_nat j * Z.of_nat k)))) (cmul (yx (b * M + N / 4 + j)%nat) (root N (- (Z.of_nat j * Z.of_nat k)))))
      with (cmul (csub (cval (v (b * M + N / 4 + j)%nat)) (yx (b * M + N / 4 + j)%nat)) (root N (- (Z.of_nat j * Z.of_nat k)))) by ring.
    rewrite cmod_mul, cmod_root, Rmult_1_r. apply SE'. exact Hj. }
  (* the exact value *)
  set (nz := fun q => change q). set (dd := fun q => val (w q) - pass_sample (B2R fc) sr L x q).
  destruct (link_bins N P sr sy (B2R fc) cycles F (2001 / 1000) B (fun q => val (g q)) (fun q => nz q + dd q) b k HP Hy Hm HL Hcyc Hnyq ltac:(lra) HF)
    as (e & Be & EV); [|exact Hb|exact Hk|].
  { fold L M. intros q Hq. fold total in Hq. unfold nz, dd, change. rewrite (tab_nth total w) by exact Hq.
    change (val (g q) = pass_sample (B2R fc) sr L x q + (val (g q) - val (w q) + (val (w q) - pass_sample (B2R fc) sr L x q))). ring. }
  fold L M th in EV. change (V = cadd (cadd (cmul (RtoC (INR L / 2)) (F b k)) e)
    (Cpx (noise_re N sr sy (B2R fc) (B * M * L) (fun q => nz q + dd q) b k) (noise_im N sr sy (B2R fc) (B * M * L) (fun q => nz q + dd q) b k))) in EV.
  assert (EF : F b k = cval (qpsk_point libm p)).
  { unfold F, spectrum, k. rewrite bin_bin by assumption. destruct (HD b Hb) as (_ & _ & Hin). rewrite !(c0_czero libm) in Hin.
    unfold c. rewrite Hin by exact Um. rewrite nth_block by exact Um. replace (b * (N - P) + r)%nat with (i / 2)%nat by lia.
    f_equal. apply nth_error_nth. unfold s. rewrite nth_error_map, Ep. reflexivity. }
  assert (NB : Rabs (noise_at N P sr sy (B2R fc) (B * M * L) (fun q => nz q + dd q) i) <= (5 / 8 * INR L - 9) + INR N * INR L * d1).
  { rewrite noise_at_plus by assumption.
    pose proof (noise_energy N P sr sy (B2R fc) cycles HP Hy Hm ltac:(lia) HL Hcyc Hnyq (B * M * L) nz i) as NE. cbv zeta in NE.
    fold b L M first in NE. change (Rsum_n (N * L) (fun q => nz (first + q)%nat * nz (first + q)%nat)) with energy in NE.
    replace (INR N * (INR L / 2) * energy) with (INR N * INR L / 2 * energy) in NE by (unfold Rdiv; ring).
    pose proof (noise_at_sup N P sr sy (B2R fc) (B * M * L) dd i d1 HP Hy Hm HL ltac:(lra)) as NS. fold L in NS.
    specialize (NS (fun q Hq => proj2 (HW q Hq))).
    eapply Rle_trans; [apply Rabs_triang|]. lra. }
  assert (CL : Rabs (B2R (if Nat.even i then re o else im o) - INR L / 2 * B2R (level (if Nat.even i then fst p else snd p))) <=
     eps * (INR N * (64 * INR L)) + INR N * eb + 4 * (2001 / 1000) + ((5 / 8 * INR L - 9) + INR N * INR L * d1)).
  { pose proof (cmod_sub (cval o) Y V) as OV.
    assert (OV2 : cmod (csub (cval o) V) <= eps * (INR N * (64 * INR L)) + INR N * eb) by lra.
    rewrite EF, point_parts in EV. unfold noise_at in NB. fold b r c k in NB.
    change (bin N (nth r (carriers N P) 0%nat)) with k in NB.
    pose proof (Rle_trans _ _ _ (cmod_re _) OV2) as R1. pose proof (Rle_trans _ _ _ (cmod_im _) OV2) as R2.
    pose proof (Rle_trans _ _ _ (cmod_re _) Be) as R3. pose proof (Rle_trans _ _ _ (cmod_im _) Be) as R4.
    rewrite EV in R1, R2. unfold csub, cadd, cmul, RtoC, cval in R1, R2. cbn [re im nadd nsub nmul NumR] in R1, R2.
    destruct (Nat.even i).
    - set (n1 := noise_re N sr sy (B2R fc) (B * M * L) (fun q => nz q + dd q) b k) in *. set (rhs := eps * (INR N * (64 * INR L)) + INR N * eb) in *.
      set (lim := 5 / 8 * INR L - 9 + INR N * INR L * d1) in *. clearbody n1 rhs lim.
      apply Rabs_le_inv in R1. apply Rabs_le_inv in R3. apply Rabs_le_inv in NB. apply Rabs_le. lra.
    - set (n1 := noise_im N sr sy (B2R fc) (B * M * L) (fun q => nz q + dd q) b k) in *. set (rhs := eps * (INR N * (64 * INR L)) + INR N * eb) in *.
      set (lim := 5 / 8 * INR L - 9 + INR N * INR L * d1) in *. clearbody n1 rhs lim.
      apply Rabs_le_inv in R2. apply Rabs_le_inv in R4. apply Rabs_le_inv in NB. apply Rabs_le. lra. }
  apply (sign_level _ _ (INR L / 2) _) in CL; [exact CL| |lra|].
  - destruct Fo as [F1 F2]. destruct (Nat.even i); assumption.
  - change (eps * (INR N * (64 * INR L)) + INR N * eb + INR N * INR L * d1 <= INR L / 16) in BG. lra.
Qed.

(** What the hypotheses of C105 are, in one place. *)
Definition c105_setting (libm : Libm) (fft : Fft F64) N P eps tau bits sample_rate symbol_rate (fc : F64) (cycles : Z) : Prop :=
  let sps := (sample_rate / symbol_rate)%nat in
  let total := (ceil_div (bits / 2) (N - P) * (N + N / 4) * sps)%nat in
  Nat.even N = true /\ (1 <= P < N)%nat /\ (1 <= symbol_rate)%nat /\ (sample_rate mod symbol_rate = 0)%nat /\ (Z.of_nat sample_rate < 2 ^ 53)%Z /\
  (Z.of_nat (N * sps) <= 2 ^ 38)%Z /\ (Z.of_nat total < 2 ^ 53)%Z /\
  is_finite fc = true /\ B2R fc * INR sps = IZR cycles * INR sample_rate /\ ~ (exists z : Z, 2 * B2R fc = IZR z * INR sample_rate) /\
  0 <= eps /\ INR N * eps <= 1 / 4096 /\
  accurate_to (64 * INR sps) eps N (fft_inverse fft) idft /\ accurate_to (64 * INR sps) eps N (fft_forward fft) dft /\
  libm_exp libm (f64_ofZ 0) = f64_ofZ 1 /\ 0 <= tau /\ INR N * tau <= 1 / 8192 /\ libm_tol libm (bpow radix2 45) tau /\
  2 * PI * Rabs (B2R fc) * (INR total / INR sample_rate) <= tau * bpow radix2 50.

Lemma same_prefix (m out : list bool) n : (n <= length m)%nat -> (n <= length out)%nat ->
  (forall i, (i < n)%nat -> nth_error out i = nth_error m i) -> out = firstn n m ++ skipn n out.
Proof.
  revert m out. induction n as [|n IH]; intros m out H1 H2 H; [reflexivity|].
  destruct m as [|a m]; [cbn in H1; lia|]. destruct out as [|b out]; [cbn in H2; lia|].
  pose proof (H 0%nat ltac:(lia)) as H0. cbn in H0. injection H0 as ->. cbn [firstn skipn app]. f_equal.
  apply IH; [cbn in H1; lia|cbn in H2; lia|]. intros i Hi. apply (H (S i)). lia.
Qed.

(** Samples off by at most Z each, in any way, bring back every bit. *)
Theorem C105_bounded_change :
  forall (libm : Libm) (fft : Fft F64) N P eps tau (message : Iter bool) m sample_rate symbol_rate (fc : F64) (cycles : Z) Z,
    let num := NumF libm in let sps := (sample_rate / symbol_rate)%nat in
    c105_setting libm fft N P eps tau (length m) sample_rate symbol_rate fc cycles -> yields message m ->
    0 <= Z -> INR N * INR sps * Z <= 22 / 25 * INR sps - 1273 / 100 ->
    exists tx w, tx_ofdm_qpsk_signal fft message N P sample_rate symbol_rate fc = Ret tx /\ yields tx w /\
      (forall x, In x w -> is_finite x = true /\ Rabs (B2R x) <= 3) /\
      forall channel received, yields channel received -> length received = length w ->
        (forall i, (i < length w)%nat -> is_finite (nth i received (nofZ 0)) = true /\
           Rabs (B2R (nth i received (nofZ 0)) - B2R (nth i w (nofZ 0))) <= Z) ->
        exists rx extra, rx_ofdm_qpsk_signal fft channel N P sample_rate symbol_rate fc = Ret rx /\
          yields rx (firstn (2 * (length m / 2)) m ++ extra) /\ (length extra < 2 * (N - P))%nat.
Proof.
  intros libm fft N P eps tau message m sr sy fc cycles Z num L H Ym HZ HB.
  destruct H as (A1 & A2 & A3 & A4 & A5 & A6 & A7 & A8 & A9 & A10 & A11 & A12 & A13 & A14 & A15 & A16 & A17 & A18 & A19). fold L in A6, A9, A13, A14.
  assert (I2 : 2 <= INR N) by (apply (le_INR 2); lia).
  assert (NN : 0 <= INR N * INR L * Z) by (apply Rmult_le_pos; [apply Rmult_le_pos; apply pos_INR|exact HZ]).
  assert (IL : 14 <= INR L) by lra.
  assert (HL : (2 <= L)%nat) by (apply INR_le; cbn [INR]; lra).
  assert (Z8 : Z <= 22 / 50).
  { apply Rmult_le_reg_l with (INR N * INR L); [apply Rmult_lt_0_compat; lra|].
    assert (2 * INR L <= INR N * INR L) by (apply Rmult_le_compat_r; lra). lra. }
  destruct (C105_passband_binary64 libm fft N P eps tau message m sr sy fc cycles A1 A2 Ym A3 A4 A5 HL A6 A7 A8 A9 A10 A11 A12 A13 A14 A15 A16 A17 A18 A19)
    as (tx & w & Et & Yt & Lw & Fw & R).
  exists tx, w. split; [exact Et|]. split; [exact Yt|]. split; [exact Fw|].
  intros channel received Yc Lr Hr.
  destruct (R channel received Yc) as (rx & out & Er & Yr & Lo & Ho).
  { rewrite Lr. exact Lw. }
  { intros i Hi. destruct (Hr i) as [R1 R2]; [rewrite Lw; exact Hi|]. split; [exact R1|]. eapply Rle_trans; [exact R2|lra]. }
  exists rx, (skipn (2 * (length m / 2)) out). split; [exact Er|].
  pose proof (Nat.div_mod (length m) 2 ltac:(lia)) as DM.
  rewrite <- (same_prefix m out (2 * (length m / 2))); [|lia|lia|].
  - split; [exact Yr|]. rewrite skipn_length. lia.
  - intros i Hi. apply Ho; [exact Hi|]. fold L.
    match goal with |- sqrt (_ * ?E) <= _ => set (e := E) end.
    assert (He : e <= INR (N * L) * (Z * Z)).
    { unfold e. rewrite <- Rsum_n_const. apply Rsum_n_le. intros j _.
      match goal with |- ?a * ?a <= _ => set (d := a) end.
      assert (Hd : Rabs d <= Z).
      { match type of d with _ => unfold d end. match goal with |- Rabs (B2R (nth ?q _ _) - _) <= _ => destruct (Nat.lt_ge_cases q (length w)) as [Q|Q] end.
        - apply Hr. exact Q.
        - rewrite !nth_overflow by (rewrite ?Lr; exact Q). rewrite Rminus_diag_eq by reflexivity. rewrite Rabs_R0. exact HZ. }
      apply Rabs_le_inv in Hd. nra. }
    clearbody e. rewrite mult_INR in He.
    apply Rle_trans with (INR N * INR L * Z * (70711 / 100000)); [|nra].
    rewrite <- (sqrt_square (INR N * INR L * Z * (70711 / 100000))) by (pose proof (Rmult_le_pos (INR N) (INR L)); nra).
    apply sqrt_le_1_alt.
    apply Rle_trans with (INR N * INR L / 2 * (INR N * INR L * (Z * Z))).
    + apply Rmult_le_compat_l; [nra|exact He].
    + set (q := INR N * INR L * Z). replace (INR N * INR L / 2 * (INR N * INR L * (Z * Z))) with (/ 2 * (q * q)) by (unfold q; field).
      assert (0 <= q * q) by apply Rle_0_sqr. nra.
Qed.

(** Nothing added: from 15 samples per symbol on, every bit comes back. *)
Theorem C105_round_trip :
  forall (libm : Libm) (fft : Fft F64) N P eps tau (message : Iter bool) m sample_rate symbol_rate (fc : F64) (cycles : Z),
    let num := NumF libm in
    c105_setting libm fft N P eps tau (length m) sample_rate symbol_rate fc cycles -> yields message m ->
    (15 <= sample_rate / symbol_rate)%nat ->
    exists tx rx extra, tx_ofdm_qpsk_signal fft message N P sample_rate symbol_rate fc = Ret tx /\
      rx_ofdm_qpsk_signal fft tx N P sample_rate symbol_rate fc = Ret rx /\
      yields rx (firstn (2 * (length m / 2)) m ++ extra) /\ (length extra < 2 * (N - P))%nat.
Proof.
  intros libm fft N P eps tau message m sr sy fc cycles num H Ym HL.
  assert (IL : 15 <= INR (sr / sy)) by (replace 15 with (INR 15) by (cbn; lra); apply le_INR; exact HL).
  destruct (C105_bounded_change libm fft N P eps tau message m sr sy fc cycles 0 H Ym) as (tx & w & Et & Yt & Fw & R); [lra|lra|].
  destruct (R tx w Yt eq_refl) as (rx & extra & Er & Yr & Le).
  { intros i Hi. split; [apply Fw, nth_In; exact Hi|]. rewrite Rminus_diag_eq by reflexivity. rewrite Rabs_R0. lra. }
  exists tx, rx, extra. auto.
Qed.

(** Noise added in binary64, every draw at most Z: at sps = 49 the condition is N * Z <= 7/8 - 13/49. *)
Theorem C105_added_noise :
  forall (libm : Libm) (fft : Fft F64) N P eps tau (message : Iter bool) m sample_rate symbol_rate (fc : F64) (cycles : Z) Z,
    let num := NumF libm in let sps := (sample_rate / symbol_rate)%nat in
    c105_setting libm fft N P eps tau (length m) sample_rate symbol_rate fc cycles -> yields message m ->
    0 <= Z -> INR N * INR sps * Z <= 7 / 8 * INR sps - 13 ->
    exists tx w, tx_ofdm_qpsk_signal fft message N P sample_rate symbol_rate fc = Ret tx /\ yields tx w /\
      forall z : nat -> F64, (forall i, is_finite (z i) = true /\ Rabs (B2R (z i)) <= Z) ->
      forall channel, yields channel (map (fun '(i, x) => nadd x (z i)) (combine (seq 0 (length w)) w)) ->
        exists rx extra, rx_ofdm_qpsk_signal fft channel N P sample_rate symbol_rate fc = Ret rx /\
          yields rx (firstn (2 * (length m / 2)) m ++ extra) /\ (length extra < 2 * (N - P))%nat.
Proof.
  intros libm fft N P eps tau message m sr sy fc cycles Z num L H Ym HZ HB.
  assert (HN : INR N * INR L <= bpow radix2 38).
  { destruct H as (_ & _ & _ & _ & _ & A6 & _). fold L in A6. rewrite <- mult_INR, INR_IZR_INZ. change (bpow radix2 38) with (IZR (2 ^ 38)). apply IZR_le. exact A6. }
  assert (I2 : 2 <= INR N) by (apply (le_INR 2); destruct H as (_ & A2 & _); lia).
  assert (NN : 0 <= INR N * INR L * Z) by (apply Rmult_le_pos; [apply Rmult_le_pos; apply pos_INR|exact HZ]).
  assert (IL : 14 <= INR L) by lra.
  assert (Z8 : Z <= 1 / 2).
  { apply Rmult_le_reg_l with (INR N * INR L); [apply Rmult_lt_0_compat; lra|].
    assert (2 * INR L <= INR N * INR L) by (apply Rmult_le_compat_r; lra). lra. }
  pose proof u53_pos as U. pose proof u53_small as US. change (IZR (2 ^ 40)) with 1099511627776 in US.
  assert (U38 : bpow radix2 38 * u53 = / 32768) by (rewrite <- bpow_plus; cbn; lra).
  assert (B1 : INR N * INR L * u53 <= / 32768) by (rewrite <- U38; apply Rmult_le_compat_r; lra).
  destruct (C105_bounded_change libm fft N P eps tau message m sr sy fc cycles (Z + 5 * u53) H Ym) as (tx & w & Et & Yt & Fw & R); [lra|fold L; lra|].
  exists tx, w. split; [exact Et|]. split; [exact Yt|]. intros z Hz channel Yc.
  apply (R channel _ Yc).
  { rewrite map_length, combine_length, seq_length. lia. }
  intros i Hi.
  match goal with |- _ /\ Rabs (B2R ?a - _) <= _ => assert (E : a = Bplus mode_NE (nth i w (f64_ofZ 0)) (z i)) end.
  { apply nth_error_nth. rewrite nth_error_map, (nth_error_nth' _ (0%nat, f64_ofZ 0)) by (rewrite combine_length, seq_length; lia).
    rewrite combine_nth by apply seq_length. rewrite seq_nth by exact Hi. reflexivity. }
  rewrite E. destruct (Fw _ (nth_In w (f64_ofZ 0) Hi)) as [F1 F2]. destruct (Hz i) as [Z1 Z2].
  change (@nofZ F64 num 0) with (f64_ofZ 0). set (a := nth i w (f64_ofZ 0)) in *.
  assert (AB : Rabs (val a + val (z i)) <= 4).
  { assert (F3 : Rabs (val a) <= 3) by exact F2. assert (Z3 : Rabs (val (z i)) <= Z) by exact Z2.
    apply Rle_trans with (1 := Rabs_triang _ _). lra. }
  destruct (add_err a (z i) F1 Z1) as [G1 G2].
  { apply Rle_trans with (1 := AB). change 4 with (bpow radix2 2). apply bpow_le. lia. }
  split; [exact G1|].
  assert (T : bpow radix2 (-1075) <= u53) by (apply bpow_le; lia).
  assert (G3 : Rabs (val (Bplus mode_NE a (z i)) - (val a + val (z i))) <= 5 * u53) by nra.
  assert (Z3 : Rabs (val (z i)) <= Z) by exact Z2. clear Z2. rename Z3 into Z2.
  change (Rabs (val (Bplus mode_NE a (z i)) - val a) <= Z + 5 * u53). apply Rabs_le_inv in G3. apply Rabs_le_inv in Z2. apply Rabs_le. lra.
Qed.

(** ** A case: the two-point butterfly, a sine and cosine on a grid of 2^-14, and 44100 samples and 900 symbols
    per second with a carrier of 1800 Hz. *)
Definition fine (y : R) : F64 := Bdiv mode_NE (f64_ofZ (ZnearestE (16384 * y))) (f64_ofZ 16384).
Definition libm_fine : Libm :=
  {| libm_sin := fun x => fine (sin (B2R x)); libm_cos := fun x => fine (cos (B2R x));
     libm_exp := fun _ => f64_ofZ 1; libm_log10 := fun x => x; libm_pow := fun x _ => x; libm_sum_neg := false |}.

Lemma fine_ok y : -1 <= y <= 1 -> is_finite (fine y) = true /\ Rabs (B2R (fine y)) <= 1 /\ Rabs (B2R (fine y) - y) <= 1 / 16384.
Proof.
  intros Hy. unfold fine. set (z := ZnearestE (16384 * y)).
  pose proof (Znearest_half (fun x => negb (Z.even x)) (16384 * y)) as N. fold z in N. apply Rabs_le_inv in N.
  assert (B : (-16384 <= z <= 16384)%Z).
  { assert (-16385 < z)%Z by (apply lt_IZR; lra). assert (z < 16385)%Z by (apply lt_IZR; lra). lia. }
  destruct (ofZ_exact z ltac:(lia)) as (Vz & Fz & _). destruct (ofZ_exact 16384 ltac:(lia)) as (V6 & F6 & _).
  assert (E : rd (val (f64_ofZ z) / val (f64_ofZ 16384)) = IZR z / 16384).
  { rewrite Vz, V6. apply rd_id. replace (IZR z / 16384) with (IZR z * bpow radix2 (-14)) by (cbn; lra).
    apply fmt_scaled; lia. }
  assert (Bz : -16384 <= IZR z <= 16384) by (split; apply IZR_le; lia).
  assert (B1 : Rabs (IZR z / 16384) <= 1) by (apply Rabs_le; lra).
  destruct (div_fin (f64_ofZ z) (f64_ofZ 16384) Fz) as [V F].
  { rewrite V6. lra. }
  { rewrite E. apply Rle_lt_trans with (1 := B1). change 1 with (bpow radix2 0). apply bpow_lt. lia. }
  split; [exact F|]. change (B2R (Bdiv mode_NE (f64_ofZ z) (f64_ofZ 16384))) with (val (Bdiv mode_NE (f64_ofZ z) (f64_ofZ 16384))). rewrite V, E.
  split; [exact B1|]. apply Rabs_le. lra.
Qed.

Lemma libm_fine_tol B : libm_tol libm_fine B (1 / 16384).
Proof. intros x _ _. split; cbn [libm_cos libm_sin libm_fine]; apply fine_ok; [apply COS_bound|apply SIN_bound]. Qed.

Lemma part_rel (op : F64 -> F64 -> F64) (rop : R -> R -> R) (a b : F64) A :
  (op = Bplus mode_NE /\ rop = Rplus \/ op = Bminus mode_NE /\ rop = Rminus) -> 1 <= A <= 4096 ->
  is_finite a = true -> is_finite b = true -> Rabs (B2R a) <= A -> Rabs (B2R b) <= A ->
  is_finite (op a b) = true /\ Rabs (B2R (op a b) - rop (B2R a) (B2R b)) <= 1 / 8192 * A.
Proof.
  intros Ho HA Fa Fb Ha Hb.
  assert (T : Rabs (rop (B2R a) (B2R b)) <= 2 * A).
  { apply Rabs_le_inv in Ha. apply Rabs_le_inv in Hb. destruct Ho as [[_ ->]|[_ ->]]; apply Rabs_le; lra. }
  assert (Q : is_finite (op a b) = true /\ B2R (op a b) = rd (rop (B2R a) (B2R b))).
  { assert (Bd : Rabs (rd (rop (B2R a) (B2R b))) < bpow radix2 1024).
    { apply pow_1024. apply Rle_trans with (1 := T). apply Rle_trans with (bpow radix2 13); [cbn; lra|]. apply bpow_le. lia. }
    destruct Ho as [[-> ->]|[-> ->]]; [destruct (add_fin a b Fa Fb Bd)|destruct (sub_fin a b Fa Fb Bd)]; split; assumption. }
  destruct Q as [F V]. split; [exact F|]. rewrite V. apply Rle_trans with (1 := rd_err _).
  assert (bpow radix2 (-53) <= bpow radix2 (-16)) by (apply bpow_le; lia).
  assert (bpow radix2 (-1075) <= bpow radix2 (-16)) by (apply bpow_le; lia).
  assert (bpow radix2 (-16) = / 65536) by (cbn; lra). pose proof (bpow_gt_0 radix2 (-53)). nra.
Qed.

Lemma butterfly_to libm (exact : list (cpx R) -> list (cpx R)) top : top <= 4096 ->
  (forall a b, exact [a; b] = [cadd a b; csub a b]) -> accurate_to top (1 / 8192) 2 (butterfly libm) exact.
Proof.
  intros Ht Hex x A L HA Hx k Hk. destruct x as [|a [|b [|c x]]]; try discriminate L. clear L.
  destruct (Hx a ltac:(left; reflexivity)) as [[Fa1 Fa2] Ba]. destruct (Hx b ltac:(right; left; reflexivity)) as [[Fb1 Fb2] Bb]. clear Hx.
  pose proof (Rle_trans _ _ _ (cmod_re _) Ba) as A1. pose proof (Rle_trans _ _ _ (cmod_im _) Ba) as A2.
  pose proof (Rle_trans _ _ _ (cmod_re _) Bb) as B1. pose proof (Rle_trans _ _ _ (cmod_im _) Bb) as B2. cbn [cval re im] in A1, A2, B1, B2.
  assert (HA' : 1 <= A <= 4096) by lra.
  cbn [map]. rewrite Hex. replace (INR 2) with 2 by (cbn; ring).
  destruct k as [|[|k]]; [| |lia]; cbn [nth butterfly].
  - destruct (part_rel (Bplus mode_NE) Rplus (re a) (re b) A) as [G1 E1]; auto.
    destruct (part_rel (Bplus mode_NE) Rplus (im a) (im b) A) as [G2 E2]; auto.
    split; [split; [exact G1|exact G2]|]. apply Rle_trans with (1 := cmod_parts _).
    assert (Rabs (B2R (Bplus mode_NE (re a) (re b)) - (B2R (re a) + B2R (re b))) + Rabs (B2R (Bplus mode_NE (im a) (im b)) - (B2R (im a) + B2R (im b))) <= 1 / 8192 * (2 * A)) as G by lra. exact G.
  - destruct (part_rel (Bminus mode_NE) Rminus (re a) (re b) A) as [G1 E1]; auto.
    destruct (part_rel (Bminus mode_NE) Rminus (im a) (im b) A) as [G2 E2]; auto.
    split; [split; [exact G1|exact G2]|]. apply Rle_trans with (1 := cmod_parts _).
    assert (Rabs (B2R (Bminus mode_NE (re a) (re b)) - (B2R (re a) - B2R (re b))) + Rabs (B2R (Bminus mode_NE (im a) (im b)) - (B2R (im a) - B2R (im b))) <= 1 / 8192 * (2 * A)) as G by lra. exact G.
Qed.

Example C105_setting_case : c105_setting libm_fine (fft2 libm_fine) 2 1 (1 / 8192) (1 / 16384) 5 (49 * 900) 900 (f64_ofZ 1800) 2.
Proof.
  destruct C104_test_rates as (R1 & R2 & R3 & R4). destruct (ofZ_exact 1800 ltac:(lia)) as (V & F & _). unfold val in V.
  unfold c105_setting. rewrite R2, V. change (ceil_div (5 / 2) (2 - 1) * (2 + 2 / 4) * 49)%nat with 196%nat.
  assert (I49 : INR 49 = 49) by (rewrite INR_IZR_INZ; reflexivity).
  split; [reflexivity|]. split; [split; apply Nat.leb_le; reflexivity|]. split; [apply Nat.leb_le; reflexivity|]. split; [exact R1|].
  split; [rewrite Nat2Z.inj_mul; apply Z.ltb_lt; reflexivity|]. split; [apply Z.leb_le; reflexivity|]. split; [apply Z.ltb_lt; reflexivity|].
  split; [exact F|]. split; [exact R3|]. split; [exact R4|]. split; [lra|]. split; [cbn; lra|].
  split; [apply butterfly_to; [rewrite I49; lra|]; intros a b; exact (proj2 (dft_2 a b))|].
  split; [apply butterfly_to; [rewrite I49; lra|]; intros a b; exact (proj1 (dft_2 a b))|].
  split; [reflexivity|]. split; [lra|]. split; [cbn; lra|]. split; [apply libm_fine_tol|].
  rewrite mult_INR, I49. replace (INR 900) with 900 by (rewrite INR_IZR_INZ; reflexivity). replace (INR 196) with 196 by (rewrite INR_IZR_INZ; reflexivity).
  rewrite Rabs_pos_eq by lra. pose proof PI_4. replace (2 * PI * 1800 * (196 / (49 * 900))) with (16 * PI) by field.
  apply Rle_trans with (1 / 16384 * bpow radix2 20); [cbn; lra|]. apply Rmult_le_compat_l; [lra|]. apply bpow_le. lia.
Qed.

Example C105_case : let num := NumF libm_fine in
  exists tx rx extra, tx_ofdm_qpsk_signal (fft2 libm_fine) (of_list [true; false; false; true; true]) 2 1 (49 * 900) 900 (f64_ofZ 1800) = Ret tx /\
    rx_ofdm_qpsk_signal (fft2 libm_fine) tx 2 1 (49 * 900) 900 (f64_ofZ 1800) = Ret rx /\
    yields rx ([true; false; false; true] ++ extra) /\ (length extra < 2)%nat.
Proof.
  intros num. apply (C105_round_trip libm_fine (fft2 libm_fine) 2 1 (1 / 8192) (1 / 16384) (of_list [true; false; false; true; true]) [true; false; false; true; true]
    (49 * 900) 900 (f64_ofZ 1800) 2 C105_setting_case (of_list_yields _)).
  destruct C104_test_rates as (_ & -> & _). apply Nat.leb_le. reflexivity.
Qed.

(** A quarter added to every sample. *)
Definition quarter_f : F64 := @B754_finite 53 1024 false 4503599627370496 (-54) eq_refl.
Example C105_noise_case : let num := NumF libm_fine in
  exists tx w, tx_ofdm_qpsk_signal (fft2 libm_fine) (of_list [true; false; false; true; true]) 2 1 (49 * 900) 900 (f64_ofZ 1800) = Ret tx /\ yields tx w /\
    forall channel, yields channel (map (fun '(i, x) => nadd x quarter_f) (combine (seq 0 (length w)) w)) ->
    exists rx extra, rx_ofdm_qpsk_signal (fft2 libm_fine) channel 2 1 (49 * 900) 900 (f64_ofZ 1800) = Ret rx /\
      yields rx ([true; false; false; true] ++ extra) /\ (length extra < 2)%nat.
Proof.
  intros num. destruct C104_test_rates as (_ & R2 & _).
  destruct (C105_added_noise libm_fine (fft2 libm_fine) 2 1 (1 / 8192) (1 / 16384) (of_list [true; false; false; true; true]) [true; false; false; true; true]
    (49 * 900) 900 (f64_ofZ 1800) 2 (1 / 4) C105_setting_case (of_list_yields _)) as (tx & w & Et & Yt & R).
  - lra.
  - rewrite R2. replace (INR 49) with 49 by (rewrite INR_IZR_INZ; reflexivity). cbn [INR]. lra.
  - exists tx, w. split; [exact Et|]. split; [exact Yt|]. intros channel Yc. apply (R (fun _ => quarter_f)); [|exact Yc].
    intros i. split; [reflexivity|]. assert (E : B2R quarter_f = 1 / 4) by (unfold quarter_f; cbn; unfold F2R; cbn; lra). rewrite E, Rabs_pos_eq by lra. lra.
Qed.

(** ** Axioms used *)
Print Assumptions C105_passband_binary64.
Print Assumptions C105_bounded_change.
Print Assumptions C105_round_trip.
Print Assumptions C105_added_noise.
