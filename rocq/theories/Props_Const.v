(** Property C95: what the constellation plots of tests/bpsk.rs and tests/qpsk.rs show, and how the
    passband signals come from the baseband ones. *)
From Coq Require Import List Arith ZArith Reals Bool Lia Lra Psatz.
From Flocq Require Import Core.
From Verif Require Import Base IterTheory IterModel IterProofs Spec SpecR Tab Num LibModel LibReal
  ChaosModel PskModel PskChain RSums PskReal OfdmLink Props_Psk Props_Energy ConstModel ConstProofs.
Import ListNotations.
Local Open Scope R_scope.

(** ** Passband from baseband *)

(** In every arithmetic: sample i of the BPSK signal is the real part of baseband symbol i / sps times the carrier. *)
Theorem C95_bpsk_from_baseband :
  forall {T} {num : Num T} (message : Iter bool) m (sample_rate symbol_rate : nat) (fc : T) tx,
    let sps := (sample_rate / symbol_rate)%nat in
    yields message m -> (symbol_rate <= sample_rate)%nat ->
    tx_bpsk_signal message sample_rate symbol_rate fc = Ret tx ->
    exists base wave, yields (tx_baseband_bpsk_signal message) base /\ yields tx wave /\
      length base = length m /\ length wave = (length m * sps)%nat /\
      forall i s, nth_error base (i / sps) = Some s ->
        nth_error wave i = Some (nmul (re s) (ncos (nmul (nmul (nmul (nofZ 2) npi) fc) (ndiv (nofnat i) (nofnat sample_rate))))) /\
        im s = nofZ 0.
Proof.
  intros T num message m sr sy fc tx sps Hm Hr Htx.
  destruct (tx_bpsk_inv message sr sy fc tx Htx) as (Hy & _ & _ & Y).
  assert (Hn : (1 <= sps)%nat) by (apply Nat.div_le_lower_bound; lia).
  eexists. eexists. split; [apply imap_yields; exact Hm|]. split; [exact (Y Hn m Hm)|].
  split; [apply map_length|]. split; [apply tab_length|]. fold sps. intros i s Hs.
  rewrite nth_error_map in Hs. destruct (nth_error m (i / sps)) as [b|] eqn:Eb; [|discriminate]. injection Hs as <-.
  assert (Hi : (i < length m * sps)%nat).
  { assert ((i / sps < length m)%nat) by (apply nth_error_Some; congruence).
    pose proof (Nat.div_mod i sps ltac:(lia)). pose proof (Nat.mod_upper_bound i sps ltac:(lia)). nia. }
  unfold bpsk_wave. rewrite tab_nth_error. apply Nat.ltb_lt in Hi. rewrite Hi.
  rewrite (nth_error_nth _ _ false Eb). destruct b; split; reflexivity.
Qed.

(** Over the reals: sample i of the QPSK signal is the baseband symbol on the carrier, divided by sqrt 2. *)
Theorem C95_qpsk_from_baseband :
  forall (message : Iter bool) m (sample_rate symbol_rate : nat) (fc : R),
    let sps := (sample_rate / symbol_rate)%nat in
    let ph i := 2 * PI * fc * (INR i / INR sample_rate) in
    yields message m -> (1 <= symbol_rate <= sample_rate)%nat ->
    exists base tx wave, yields (tx_baseband_qpsk_signal message) base /\
      tx_qpsk_signal message sample_rate symbol_rate fc = Ret tx /\ yields tx wave /\
      length base = (length m / 2)%nat /\ length wave = (length m / 2 * sps)%nat /\
      forall i s, nth_error base (i / sps) = Some s ->
        nth_error wave i = Some ((re s * cos (ph i) - im s * sin (ph i)) / sqrt 2).
Proof.
  intros message m sr sy fc sps ph Hm Hr.
  assert (Hn : (1 <= sps)%nat) by (apply Nat.div_le_lower_bound; lia).
  destruct (tx_qpsk_inv message sr sy fc ltac:(lia) Hn) as (tx & Et & Yt). specialize (Yt m Hm). fold sps in Yt.
  eexists. exists tx. eexists. split; [apply imap_yields, ituples_yields; exact Hm|]. split; [exact Et|]. split; [exact Yt|].
  rewrite map_length, (pairs_length (length m) m eq_refl). split; [reflexivity|].
  split; [unfold qpsk_wave; rewrite tab_length, (pairs_length (length m) m eq_refl); reflexivity|].
  intros i s Hs. rewrite nth_error_map in Hs. destruct (nth_error (pairs m) (i / sps)) as [[b1 b2]|] eqn:Eb; [|discriminate].
  injection Hs as <-.
  assert (Hi : (i < length (pairs m) * sps)%nat).
  { assert ((i / sps < length (pairs m))%nat) by (apply nth_error_Some; congruence).
    pose proof (Nat.div_mod i sps ltac:(lia)). pose proof (Nat.mod_upper_bound i sps ltac:(lia)). nia. }
  unfold qpsk_wave. rewrite tab_nth_error. apply Nat.ltb_lt in Hi. rewrite Hi.
  rewrite (nth_error_nth _ _ (false, false) Eb). f_equal. unfold ccos, csin. rewrite phase_R, !nrz_R. fold (ph i).
  cbn [nadd nmul nopp ncos nsin nsqrt nofZ NumR].
  assert (S2 : sqrt 2 <> 0) by (apply Rgt_not_eq, sqrt_lt_R0; lra).
  destruct b1, b2; cbn [re im]; field; exact S2.
Qed.

Example C95_from_baseband_case :
  yields (tx_baseband_qpsk_signal (of_list [true; false; true])) [Cpx (sqrt 2) (- sqrt 2)].
Proof.
  unfold tx_baseband_qpsk_signal. match goal with |- yields (imap ?f _) _ =>
    exact (imap_yields f _ _ (ituples_yields _ _ (of_list_yields [true; false; true]))) end.
Qed.

(** ** The hand-made signal of [qpsk_from_baseband] *)

(** The claim commented out in the test is false of every message of two bits or more, at all rates: the
    very first samples differ by sqrt 2 - 1. *)
Theorem C95_manual_signal_refuted :
  forall b1 b2 rest (samp_rate symb_rate : nat) (fc : R),
    let data := b1 :: b2 :: rest in
    (1 <= symb_rate <= samp_rate)%nat ->
    exists tx w0 wave manual v0 values, tx_qpsk_signal (of_list data) samp_rate symb_rate fc = Ret tx /\ yields tx (w0 :: wave) /\
      manual_qpsk data samp_rate symb_rate fc = Ret manual /\ yields manual (v0 :: values) /\
      Rabs w0 = 1 /\ v0 = sqrt 2 * w0 /\ length values = length wave /\
      manual_agrees (v0 :: values) (w0 :: wave) = false.
Proof.
  intros b1 b2 rest sr sy fc data Hr.
  assert (Hn : (1 <= sr / sy)%nat) by (apply Nat.div_le_lower_bound; lia).
  destruct (tx_qpsk_inv (of_list data) sr sy fc ltac:(lia) Hn) as (tx & Et & Yt). specialize (Yt data (of_list_yields data)).
  set (n := (sr / sy)%nat) in *.
  pose proof (ienum_yields _ _ (inflate_yields n _ _ Hn (imap_yields (fun '(bit1, bit2) =>
          match bit1, bit2 with
          | true, true => Cpx (nsqrt (nofZ 2)) (nsqrt (nofZ 2))
          | true, false => Cpx (nsqrt (nofZ 2)) (nopp (nsqrt (nofZ 2)))
          | false, true => Cpx (nopp (nsqrt (nofZ 2))) (nsqrt (nofZ 2))
          | false, false => Cpx (nopp (nsqrt (nofZ 2))) (nopp (nsqrt (nofZ 2)))
          end) _ _ (ituples_yields _ _ (of_list_yields data))))) as Ym.
  assert (Em : exists manual, manual_qpsk data sr sy fc = Ret manual /\
    exists F, yields manual (tab (length (pairs data) * n) F) /\ F 0%nat = (if b1 then sqrt 2 else - sqrt 2)).
  { eexists. split; [unfold manual_qpsk; rewrite usize_div_intro by lia; reflexivity|].
    eexists. split; [|shelve].
    rewrite (repeat_each_list _ _ (Cpx 0 0)), tab_index, map_length in Ym.
    match goal with |- yields (imap ?f _) _ => apply (imap_yields f) in Ym end. rewrite tab_map in Ym. exact Ym.
    Unshelve. cbn beta. rewrite Nat.div_0_l by lia. unfold data. cbn [pairs map nth].
    cbn [nofnat nofZ Z.of_nat ndiv nmul nsub ncos nsin nsqrt npi nopp NumR].
    unfold nofnat. cbn [Z.of_nat nofZ NumR]. 
    assert (Z0 : forall x, 0 / x = 0) by (intros; unfold Rdiv; ring). rewrite !Z0, !Rmult_0_r, cos_0, sin_0, Rmult_0_r, Z0.
    destruct b1, b2; cbn [re im]; lra. }
  destruct Em as (manual & Em & F & YF & F0).
  assert (Hl : (length (pairs data) * n = S (length (pairs data) * n - 1))%nat) by (unfold data; cbn [pairs length]; lia).
  unfold qpsk_wave in Yt. rewrite Hl, tab_S in Yt, YF.
  match type of Yt with yields _ (?a :: ?l) => set (w0 := a) in *; set (wave := l) in * end.
  assert (E0 : w0 = if b1 then 1 else -1).
  { unfold w0. rewrite Nat.div_0_l by lia. unfold data. cbn [pairs nth]. unfold ccos, csin. rewrite phase_R, !nrz_R.
    cbn [INR nadd nmul nopp ncos nsin NumR]. unfold Rdiv. rewrite Rmult_0_l, Rmult_0_r, cos_0, sin_0. destruct b1, b2; lra. }
  assert (S2 : 1.41 < sqrt 2).
  { apply Rsqr_incrst_0; [rewrite Rsqr_sqrt by lra; unfold Rsqr; lra|lra|apply sqrt_pos]. }
  exists tx, w0, wave, manual, (F 0%nat). eexists. split; [exact Et|]. split; [exact Yt|]. split; [exact Em|]. split; [exact YF|].
  split; [rewrite E0; destruct b1; [apply Rabs_R1|rewrite Rabs_left by lra; lra]|].
  split; [rewrite E0, F0; destruct b1; lra|]. split; [unfold wave; rewrite !tab_length; reflexivity|].
  unfold manual_agrees. cbn [combine forallb]. apply andb_false_iff. left.
  match goal with |- ?b = false => destruct b eqn:B; [|reflexivity] end. apply nltb_R in B.
  unfold nlit in B. cbn [nabs nsub ndiv nofZ NumR] in B. rewrite F0, E0 in B. exfalso.
  destruct b1; [rewrite Rabs_pos_eq in B by lra|rewrite Rabs_left in B by lra]; lra.
Qed.

(** The length test of line 169 holds when the symbol rate divides the sample rate and the bits come in pairs ... *)
Theorem C95_time_axis :
  forall (data : list bool) (samp_rate symb_rate : nat) (fc : R),
    (1 <= symb_rate)%nat -> (symb_rate <= samp_rate)%nat -> (samp_rate mod symb_rate = 0)%nat -> (length data mod 2 = 0)%nat ->
    exists tx wave x, tx_qpsk_signal (of_list data) samp_rate symb_rate fc = Ret tx /\ yields tx wave /\
      time_axis data samp_rate symb_rate = Ret x /\ length x = length wave.
Proof.
  intros data sr sy fc Hy Hr Hd He.
  assert (Hn : (1 <= sr / sy)%nat) by (apply Nat.div_le_lower_bound; lia).
  destruct (tx_qpsk_inv (of_list data) sr sy fc ltac:(lia) Hn) as (tx & Et & Yt). specialize (Yt data (of_list_yields data)).
  exists tx. eexists. eexists. split; [exact Et|]. split; [exact Yt|].
  split; [unfold time_axis; rewrite usize_div_intro by lia; reflexivity|].
  rewrite map_length, seq_length. unfold qpsk_wave. rewrite tab_length, (pairs_length (length data) data eq_refl).
  pose proof (Nat.div_mod sr sy ltac:(lia)) as D. rewrite Hd, Nat.add_0_r in D. set (n := (sr / sy)%nat) in *.
  pose proof (Nat.div_mod (length data) 2 ltac:(lia)) as D2. rewrite He, Nat.add_0_r in D2. set (p := (length data / 2)%nat) in *.
  rewrite D, D2. replace (2 * p * (sy * n))%nat with (2 * p * n * sy)%nat by ring. rewrite Nat.div_mul by lia.
  replace (2 * p * n)%nat with (p * n * 2)%nat by ring. apply Nat.div_mul. lia.
Qed.
(** ... and fails for an odd number of bits, as soon as a symbol has two samples. *)
Theorem C95_time_axis_refuted :
  forall (data : list bool) (samp_rate symb_rate : nat) (fc : R),
    (1 <= symb_rate)%nat -> (samp_rate mod symb_rate = 0)%nat -> (2 * symb_rate <= samp_rate)%nat -> (length data mod 2 = 1)%nat ->
    exists tx wave x, tx_qpsk_signal (of_list data) samp_rate symb_rate fc = Ret tx /\ yields tx wave /\
      time_axis data samp_rate symb_rate = Ret x /\ (length wave < length x)%nat.
Proof.
  intros data sr sy fc Hy Hd Hr He.
  assert (Hn : (2 <= sr / sy)%nat) by (apply Nat.div_le_lower_bound; lia).
  destruct (tx_qpsk_inv (of_list data) sr sy fc ltac:(lia) ltac:(lia)) as (tx & Et & Yt). specialize (Yt data (of_list_yields data)).
  exists tx. eexists. eexists. split; [exact Et|]. split; [exact Yt|].
  split; [unfold time_axis; rewrite usize_div_intro by lia; reflexivity|].
  rewrite map_length, seq_length. unfold qpsk_wave. rewrite tab_length, (pairs_length (length data) data eq_refl).
  pose proof (Nat.div_mod sr sy ltac:(lia)) as D. rewrite Hd, Nat.add_0_r in D. set (n := (sr / sy)%nat) in *.
  pose proof (Nat.div_mod (length data) 2 ltac:(lia)) as D2. rewrite He in D2. set (p := (length data / 2)%nat) in *.
  rewrite D, D2. replace ((2 * p + 1) * (sy * n))%nat with ((2 * p + 1) * n * sy)%nat by ring. rewrite Nat.div_mul by lia.
  apply (Nat.lt_le_trans _ (p * n + 1)); [lia|]. apply Nat.div_le_lower_bound; nia.
Qed.
Example C95_time_axis_case : exists x : list R, time_axis [true; false; true] 4 2 = Ret x /\ length x = 3%nat.
Proof. eexists. split; reflexivity. Qed.

(** ** The points I2 and Q2 of [qpsk_graphs] *)

(** Any signal: point k is the last mixed sample of symbol k, not the sum over the symbol.  So whatever was
    sent the point lies on the line through the origin at minus the carrier's phase. *)
Theorem C95_last_points :
  forall (tx : list R) (samp_rate sps : nat) (fc : R),
    let ph i := 2 * PI * fc * (INR i / INR samp_rate) in
    (1 <= sps)%nat ->
    exists i2 q2, yields (points_last sps (mix_i tx samp_rate fc)) i2 /\ yields (points_last sps (mix_q tx samp_rate fc)) q2 /\
      length i2 = ((length tx + sps - 1) / sps)%nat /\ length q2 = length i2 /\
      forall k x y, nth_error i2 k = Some x -> nth_error q2 k = Some y ->
        let i := (Nat.min ((k + 1) * sps) (length tx) - 1)%nat in
        x = nth i tx 0 * cos (ph i) /\ y = - nth i tx 0 * sin (ph i) /\ x * sin (ph i) + y * cos (ph i) = 0.
Proof.
  intros tx sr L fc ph HL. eexists. eexists.
  split; [apply points_last_yields; [exact HL|apply (mix_i_yields tx sr fc 0)]|].
  split; [apply points_last_yields; [exact HL|apply (mix_q_yields tx sr fc 0)]|].
  rewrite !tab_length. split; [reflexivity|]. split; [reflexivity|]. intros k x y Hx Hy i.
  rewrite tab_nth_error in Hx, Hy. destruct (_ <? _)%nat; [|discriminate].
  assert (EX : forall a b : R, Some a = Some b -> b = a) by congruence. apply EX in Hx, Hy. subst x y. cbn beta.
  fold i. unfold ccos, csin. rewrite phase_R. fold (ph i). cbn [nmul nopp ncos nsin NumR]. repeat split; ring.
Qed.

(** Whole half-cycles per symbol, whole symbols: all points, of all four symbols, lie on one line. *)
Theorem C95_last_points_one_line :
  forall (tx : list R) (samp_rate sps symbols : nat) (fc : R) (half_cycles : Z),
    let step := 2 * PI * fc / INR samp_rate in
    (1 <= samp_rate)%nat -> (1 <= sps)%nat -> length tx = (symbols * sps)%nat -> 2 * fc * INR sps = IZR half_cycles * INR samp_rate ->
    exists i2 q2, yields (points_last sps (mix_i tx samp_rate fc)) i2 /\ yields (points_last sps (mix_q tx samp_rate fc)) q2 /\
      length i2 = symbols /\ length q2 = symbols /\
      forall k x y, nth_error i2 k = Some x -> nth_error q2 k = Some y -> x * sin step = y * cos step.
Proof.
  intros tx sr L M fc h step Hsr HL Ht Hh.
  destruct (C95_last_points tx sr L fc HL) as (i2 & q2 & Y1 & Y2 & L1 & L2 & P).
  assert (EM : ((length tx + L - 1) / L)%nat = M).
  { rewrite Ht. replace (M * L + L - 1)%nat with ((L - 1) + M * L)%nat by lia. rewrite Nat.div_add, Nat.div_small by lia. lia. }
  rewrite EM in L1. exists i2, q2. repeat split; try assumption; [congruence|].
  intros k x y Hx Hy. destruct (P k x y Hx Hy) as (_ & _ & E). cbv zeta in E.
  assert (Hk : (k < M)%nat) by (rewrite <- L1; apply nth_error_Some; congruence).
  set (i := (Nat.min ((k + 1) * L) (length tx) - 1)%nat) in *.
  assert (Ei : (i + 1 = (k + 1) * L)%nat) by (unfold i; rewrite Ht; nia).
  assert (Hs : INR sr <> 0) by (apply not_0_INR; lia).
  assert (Ep : 2 * PI * fc * (INR i / INR sr) = - step + PI * IZR (Z.of_nat (k + 1) * h)).
  { assert (EI : INR i + 1 = INR (k + 1) * INR L) by (rewrite <- mult_INR, <- Ei, plus_INR; reflexivity).
    rewrite mult_IZR, <- INR_IZR_INZ. unfold step.
    replace (INR i) with (INR (k + 1) * INR L - 1) by lra.
    replace (2 * PI * fc * ((INR (k + 1) * INR L - 1) / INR sr)) with
      (PI * INR (k + 1) * (2 * fc * INR L) / INR sr - 2 * PI * fc / INR sr) by (field; exact Hs).
    rewrite Hh. field. exact Hs. }
  rewrite Ep in E. set (z := (Z.of_nat (k + 1) * h)%Z) in *.
  assert (Sz : sin (PI * IZR z) = 0) by (rewrite Rmult_comm; apply sin_eq_0_1; eexists; reflexivity).
  assert (Cz : cos (PI * IZR z) * cos (PI * IZR z) = 1) by (pose proof (sin2_cos2 (PI * IZR z)) as Q; unfold Rsqr in Q; rewrite Sz in Q; lra).
  rewrite sin_plus, cos_plus, Sz, sin_neg, cos_neg in E.
  assert (cos (PI * IZR z) <> 0) by (intros Z0; rewrite Z0 in Cz; lra).
  apply (Rmult_eq_reg_l (cos (PI * IZR z))); [lra|assumption].
Qed.
(** One cycle in eight samples, two symbols. *)
Example C95_one_line_case : 2 * 1 * INR 8 = IZR 2 * INR 8 /\ length (map INR (seq 0 16)) = (2 * 8)%nat.
Proof. split; [lra|reflexivity]. Qed.

(** ** The points I3 and Q3 *)

(** Whole half-cycles: the sums over the symbols are the four corners, exactly. *)
Theorem C95_qpsk_corners :
  forall (message : Iter bool) m (samp_rate symb_rate : nat) (fc : R) (half_cycles : Z),
    let sps := (samp_rate / symb_rate)%nat in
    let sign (b : bool) := if b then 1 else -1 in
    yields message m -> (1 <= symb_rate <= samp_rate)%nat ->
    2 * fc * INR sps = IZR half_cycles * INR samp_rate ->
    ~ (exists z : Z, 2 * fc = IZR z * INR samp_rate) ->
    exists tx wave i3 q3, tx_qpsk_signal message samp_rate symb_rate fc = Ret tx /\ yields tx wave /\
      yields (points_dump sps (mix_i wave samp_rate fc)) i3 /\ yields (points_dump sps (mix_q wave samp_rate fc)) q3 /\
      length i3 = (length m / 2)%nat /\ length q3 = (length m / 2)%nat /\
      forall k b1 b2, nth_error m (2 * k) = Some b1 -> nth_error m (2 * k + 1) = Some b2 ->
        nth_error i3 k = Some (sign b1 * (INR sps / 2)) /\ nth_error q3 k = Some (sign b2 * (INR sps / 2)).
Proof.
  intros message m sr sy fc h sps sign Hm Hr Hh Hz.
  assert (Hn : (1 <= sps)%nat) by (apply Nat.div_le_lower_bound; lia).
  destruct (tx_qpsk_inv message sr sy fc ltac:(lia) Hn) as (tx & Et & Yt). specialize (Yt m Hm). fold sps in Yt.
  set (M := length (pairs m)).
  pose proof (mix_i_yields (qpsk_wave sr fc sps (pairs m)) sr fc 0) as Yi. pose proof (mix_q_yields (qpsk_wave sr fc sps (pairs m)) sr fc 0) as Yq.
  assert (LW : length (qpsk_wave sr fc sps (pairs m)) = (M * sps)%nat) by apply tab_length.
  rewrite LW in Yi, Yq.
  apply (integrate_and_dump_yields (nofZ 0) nadd sps _ _ Hn) in Yi. apply (integrate_and_dump_yields (nofZ 0) nadd sps _ _ Hn) in Yq.
  rewrite dump_list_tab in Yi, Yq by exact Hn.
  exists tx. eexists. eexists. eexists. split; [exact Et|]. split; [exact Yt|]. split; [exact Yi|]. split; [exact Yq|].
  rewrite !tab_length. unfold M. rewrite (pairs_length (length m) m eq_refl). split; [reflexivity|]. split; [reflexivity|].
  intros k b1 b2 H1 H2.
  assert (L2 : (2 * k + 1 < length m)%nat) by (apply nth_error_Some; congruence).
  assert (Hk : (k < length m / 2)%nat) by (apply Nat.div_le_lower_bound; lia).
  assert (Ep : nth_error (pairs m) k = Some (b1, b2)).
  { rewrite <- (tab_nth_id m false), pairs_tab, tab_nth_error. apply Nat.ltb_lt in Hk. rewrite Hk.
    rewrite (nth_error_nth _ _ false H1), (nth_error_nth _ _ false H2). reflexivity. }
  rewrite !tab_nth_error. pose proof Hk as Hk'. apply Nat.ltb_lt in Hk'. rewrite Hk'.
  destruct (carrier_sums sr sps fc h Hn ltac:(lia) Hh Hz k) as (HC & HS & HX).
  set (ph := fun i => 2 * PI * fc * (INR i / INR sr)) in *.
  assert (W : forall j, (j < sps)%nat -> nth (k * sps + j) (qpsk_wave sr fc sps (pairs m)) 0 = sign b1 * cos (ph (k * sps + j)%nat) - sign b2 * sin (ph (k * sps + j)%nat)).
  { intros j Hj. unfold qpsk_wave. rewrite tab_nth by (rewrite (pairs_length (length m) m eq_refl); nia).
    rewrite block_div by exact Hj. rewrite (nth_error_nth _ _ (false, false) Ep).
    unfold ccos, csin. rewrite phase_R, !nrz_R. cbn [nadd nmul nopp ncos nsin NumR]. unfold sign, ph. ring. }
  split; f_equal.
  - fold (corr sps k (fun i => nmul (nth i (qpsk_wave sr fc sps (pairs m)) 0) (ccos sr fc i))). rewrite corr_R.
    rewrite (Rsum_n_ext sps _ (fun j => sign b1 * (cos (ph (k * sps + j)%nat) * cos (ph (k * sps + j)%nat)) + (- sign b2) * (sin (ph (k * sps + j)%nat) * cos (ph (k * sps + j)%nat)))).
    + rewrite Rsum_n_plus, !Rsum_n_scale. unfold ph in *. rewrite HC, HX. ring.
    + intros j Hj. rewrite W by exact Hj. unfold ccos. rewrite phase_R. cbn [nmul ncos NumR]. unfold ph. ring.
  - fold (corr sps k (fun i => nmul (nth i (qpsk_wave sr fc sps (pairs m)) 0) (nopp (csin sr fc i)))). rewrite corr_R.
    rewrite (Rsum_n_ext sps _ (fun j => sign b2 * (sin (ph (k * sps + j)%nat) * sin (ph (k * sps + j)%nat)) + (- sign b1) * (sin (ph (k * sps + j)%nat) * cos (ph (k * sps + j)%nat)))).
    + rewrite Rsum_n_plus, !Rsum_n_scale. unfold ph in *. rewrite HS, HX. ring.
    + intros j Hj. rewrite W by exact Hj. unfold csin. rewrite phase_R. cbn [nmul nopp nsin NumR]. unfold ph. ring.
Qed.

Example C95_corners_case : 2 * 1 * INR (8 / 1) = IZR 2 * INR 8 /\ ~ (exists z : Z, 2 * 1 = IZR z * INR 8).
Proof.
  split; [change (8 / 1)%nat with 8%nat; lra|]. intros [z H].
  assert (E : INR 8 = IZR 8) by (cbn; lra). rewrite E, <- !mult_IZR in H. apply eq_IZR in H. lia.
Qed.

(** ** The three BPSK constellations *)

Lemma points_conv_yields L M (it : Iter R) f : (1 <= L)%nat -> yields it (tab (M * L) f) ->
  yields (points_conv L it) (tab (if (L =? 1)%nat then M - 1 else M) (fun k => Rsum_n L (fun j => ext0 (M * L) f (k * L + 1 + j)%nat))).
Proof.
  intros HL Y. unfold points_conv. rewrite ones_R.
  pose proof (iskip_yields 1 _ _ (take_every_yields L _ _ HL (convolve_yields (nofZ 0) nadd nmul (repeat 1 L) _ _ Y))) as Y2.
  refine (eq_ind _ (fun z => yields _ z) Y2 _ _). apply nth_error_inj. intros k. rewrite tab_nth_error.
  assert (SK : forall (A : Type) (l : list A), nth_error (skipn 1 l) k = nth_error l (k + 1)).
  { intros A l. destruct l as [|x l]; [destruct k; reflexivity|]. rewrite Nat.add_1_r. reflexivity. }
  rewrite SK, decim_nth by exact HL. rewrite Nat.add_0_l. apply (lane_filter f M L k HL).
Qed.

Lemma scan_tab (f : nat -> R) n : scan Rplus 0 (tab n f) = tab n (fun i => Rsum_n (S i) f).
Proof.
  apply nth_error_inj. intros i. rewrite scan_nth, tab_nth_error, tab_length.
  destruct (Nat.ltb_spec i n); [|reflexivity]. f_equal. rewrite firstn_tab, fold_Rsum. f_equal. lia.
Qed.

(** Any signal, any carrier: the points of the second plot are the sums over the symbols; those of the first are
    the same sums taken one sample late (the last one without its last sample); those of the third are running
    sums, as many as samples. *)
Theorem C95_three_plots :
  forall (tx : list R) (samp_rate sps symbols : nat) (fc : R),
    let ph i := 2 * PI * fc * (INR i / INR samp_rate) in
    let x i := if (i <? length tx)%nat then nth i tx 0 else 0 in
    (2 <= sps)%nat -> length tx = (symbols * sps)%nat ->
    yields (points_conv sps (mix_i tx samp_rate fc))
      (map (fun k => Rsum_n sps (fun j => x (k * sps + 1 + j)%nat * cos (ph (k * sps + 1 + j)%nat))) (seq 0 symbols)) /\
    yields (points_conv sps (mix_q tx samp_rate fc))
      (map (fun k => Rsum_n sps (fun j => - x (k * sps + 1 + j)%nat * sin (ph (k * sps + 1 + j)%nat))) (seq 0 symbols)) /\
    yields (points_dump sps (mix_i tx samp_rate fc))
      (map (fun k => Rsum_n sps (fun j => x (k * sps + j)%nat * cos (ph (k * sps + j)%nat))) (seq 0 symbols)) /\
    yields (points_dump sps (mix_q tx samp_rate fc))
      (map (fun k => Rsum_n sps (fun j => - x (k * sps + j)%nat * sin (ph (k * sps + j)%nat))) (seq 0 symbols)) /\
    yields (points_running (mix_i tx samp_rate fc))
      (map (fun i => Rsum_n (S i) (fun j => x j * cos (ph j))) (seq 0 (symbols * sps))) /\
    yields (points_running (mix_q tx samp_rate fc))
      (map (fun i => Rsum_n (S i) (fun j => - x j * sin (ph j))) (seq 0 (symbols * sps))).
Proof.
  intros tx sr L M fc ph x HL Ht.
  assert (Yi : yields (mix_i tx sr fc) (tab (M * L) (fun i => x i * cos (ph i)))).
  { refine (eq_ind _ (fun z => yields _ z) (mix_i_yields tx sr fc 0) _ _). rewrite <- Ht. apply tab_ext. intros i Hi.
    unfold x. apply Nat.ltb_lt in Hi. rewrite Hi. unfold ccos. rewrite phase_R. reflexivity. }
  assert (Yq : yields (mix_q tx sr fc) (tab (M * L) (fun i => - x i * sin (ph i)))).
  { refine (eq_ind _ (fun z => yields _ z) (mix_q_yields tx sr fc 0) _ _). rewrite <- Ht. apply tab_ext. intros i Hi.
    unfold x. apply Nat.ltb_lt in Hi. rewrite Hi. unfold csin. rewrite phase_R. cbn [nmul nopp nsin NumR]. fold (ph i). ring. }
  assert (X0 : forall i, (M * L <= i)%nat -> x i = 0).
  { intros i Hi. unfold x. rewrite Ht. destruct (Nat.ltb_spec i (M * L)); [lia|reflexivity]. }
  repeat split.
  - refine (eq_ind _ (fun z => yields _ z) (points_conv_yields L M _ _ ltac:(lia) Yi) _ _).
    destruct (Nat.eqb_spec L 1); [lia|]. apply tab_ext. intros k _. apply Rsum_n_ext. intros j _.
    unfold ext0. destruct (Nat.ltb_spec (k * L + 1 + j) (M * L)); [reflexivity|]. rewrite X0 by assumption. ring.
  - refine (eq_ind _ (fun z => yields _ z) (points_conv_yields L M _ _ ltac:(lia) Yq) _ _).
    destruct (Nat.eqb_spec L 1); [lia|]. apply tab_ext. intros k _. apply Rsum_n_ext. intros j _.
    unfold ext0. destruct (Nat.ltb_spec (k * L + 1 + j) (M * L)); [reflexivity|]. rewrite X0 by assumption. ring.
  - apply (integrate_and_dump_yields (nofZ 0) nadd L) in Yi; [|lia]. rewrite dump_list_tab in Yi by lia.
    refine (eq_ind _ (fun z => yields _ z) Yi _ _). apply tab_ext. intros k _. exact (corr_R L k (fun i => x i * cos (ph i))).
  - apply (integrate_and_dump_yields (nofZ 0) nadd L) in Yq; [|lia]. rewrite dump_list_tab in Yq by lia.
    refine (eq_ind _ (fun z => yields _ z) Yq _ _). apply tab_ext. intros k _. exact (corr_R L k (fun i => - x i * sin (ph i))).
  - apply (integrate_yields (nofZ 0) nadd) in Yi. change (scan nadd (nofZ 0)) with (scan Rplus 0) in Yi. rewrite scan_tab in Yi. exact Yi.
  - apply (integrate_yields (nofZ 0) nadd) in Yq. change (scan nadd (nofZ 0)) with (scan Rplus 0) in Yq. rewrite scan_tab in Yq. exact Yq.
Qed.

Lemma running_blocks L (f : nat -> R) c k : (forall i, (i < k)%nat -> Rsum_n L (fun j => f (i * L + j)%nat) = c i) ->
  Rsum_n (k * L) f = Rsum_n k c.
Proof. intros H. rewrite Rsum_n_mul. apply Rsum_n_ext. exact H. Qed.

(** BPSK with whole half-cycles per symbol.  Second plot: (+-sps/2, 0), two points.  First plot: the bit after
    leaks in, so a bit followed by its opposite is drawn at +-(sps/2 - 2), the last bit at +-(sps/2 - 1).  Third
    plot: at the end of symbol k the sum of all bits up to it. *)
Theorem C95_bpsk_constellations :
  forall (message : Iter bool) m (samp_rate symbol_rate : nat) (fc : R) (half_cycles : Z) tx,
    let sps := (samp_rate / symbol_rate)%nat in
    let sign (b : bool) := if b then 1 else -1 in
    yields message m -> (2 <= sps)%nat ->
    2 * fc * INR sps = IZR half_cycles * INR samp_rate ->
    ~ (exists z : Z, 2 * fc = IZR z * INR samp_rate) ->
    tx_bpsk_signal message samp_rate symbol_rate fc = Ret tx ->
    exists wave i01 q01 i02 q02 i03, yields tx wave /\
      yields (points_conv sps (mix_i wave samp_rate fc)) i01 /\ yields (points_conv sps (mix_q wave samp_rate fc)) q01 /\
      yields (points_dump sps (mix_i wave samp_rate fc)) i02 /\ yields (points_dump sps (mix_q wave samp_rate fc)) q02 /\
      yields (points_running (mix_i wave samp_rate fc)) i03 /\
      length i03 = (length m * sps)%nat /\
      i02 = map (fun b => sign b * (INR sps / 2)) m /\
      q02 = map (fun _ => 0) m /\
      q01 = map (fun _ => 0) m /\
      length i01 = length m /\
      forall k b, nth_error m k = Some b ->
        nth_error i01 k = Some (sign b * (INR sps / 2 - 1) + match nth_error m (k + 1) with Some b' => sign b' | None => 0 end) /\
        nth_error i03 (k * sps + sps - 1) = Some (INR sps / 2 * Rsum (map sign (firstn (k + 1) m))).
Proof.
  intros message m sr sy fc h tx sps sign Hm HL Hh Hz Htx.
  destruct (tx_bpsk_inv message sr sy fc tx Htx) as (Hy & _ & _ & Y). fold sps in Y. specialize (Y ltac:(lia) m Hm).
  assert (Hsr : (1 <= sr)%nat) by (destruct sr; [unfold sps in HL; rewrite Nat.div_0_l in HL by exact Hy; lia|lia]).
  set (W := bpsk_wave sr fc sps m) in *. set (M := length m).
  assert (LW : length W = (M * sps)%nat) by apply tab_length.
  destruct (C95_three_plots W sr sps M fc HL LW) as (Y1 & Y2 & Y3 & Y4 & Y5 & _).
  set (ph := fun i => 2 * PI * fc * (INR i / INR sr)) in *.
  set (x := fun i => if (i <? length W)%nat then nth i W 0 else 0) in *.
  set (D := fun k => if (k <? M)%nat then sign (nth k m false) else 0).
  assert (EX : forall i, x i = D (i / sps)%nat * cos (ph i)).
  { intros i. unfold x, D. rewrite LW. destruct (Nat.ltb_spec i (M * sps)) as [Hi|Hi].
    - assert (Hd : (i / sps < M)%nat) by (apply Nat.div_lt_upper_bound; nia). apply Nat.ltb_lt in Hd. rewrite Hd.
      unfold W, bpsk_wave. rewrite tab_nth by exact Hi. unfold ccos. rewrite phase_R, nrz_R. reflexivity.
    - assert (Hd : (M <= i / sps)%nat) by (apply Nat.div_le_lower_bound; nia). apply Nat.ltb_ge in Hd. rewrite Hd. ring. }
  assert (HLp : (1 <= sps)%nat) by lia.
  pose proof (carrier_sums sr sps fc h HLp Hsr Hh Hz) as CS. fold ph in CS.
  pose proof (sin_start sr sps fc h) as S0. pose proof (cos2_start sr sps fc h) as C0'.
  assert (Sst : forall k, sin (ph (k * sps)%nat) = 0) by (intros k; unfold ph; apply (sin_start sr sps fc h); assumption).
  assert (Cst : forall k, cos (ph (k * sps)%nat) * cos (ph (k * sps)%nat) = 1) by (intros k; unfold ph; apply (cos2_start sr sps fc h); assumption).
  clear S0 C0'.
  assert (E2 : forall k, Rsum_n sps (fun j => x (k * sps + j)%nat * cos (ph (k * sps + j)%nat)) = D k * (INR sps / 2)).
  { intros k. destruct (CS k) as (HC & _ & _). rewrite <- HC, <- Rsum_n_scale. apply Rsum_n_ext. intros j Hj.
    rewrite EX, block_div by exact Hj. ring. }
  assert (E4 : forall k, Rsum_n sps (fun j => - x (k * sps + j)%nat * sin (ph (k * sps + j)%nat)) = 0).
  { intros k. destruct (CS k) as (_ & _ & HX). transitivity (- D k * 0); [|ring]. rewrite <- HX, <- Rsum_n_scale. apply Rsum_n_ext. intros j Hj.
    rewrite EX, block_div by exact Hj. ring. }
  assert (LATE : forall (g : nat -> R) k, Rsum_n sps (fun j => g (k * sps + 1 + j)%nat) = Rsum_n sps (fun j => g (k * sps + j)%nat) + (g ((k + 1) * sps)%nat - g (k * sps)%nat)).
  { intros g k. rewrite (Rsum_n_ext sps _ (fun j => (fun i => g (k * sps + i)%nat) (S j))) by (intros; f_equal; lia).
    assert (LT : forall n (f : nat -> R), Rsum_n n (fun j => f (S j)) = Rsum_n n f + (f n - f 0%nat)).
    { clear. intros n f. induction n as [|n IH]; cbn [Rsum_n]; [lra|]. rewrite IH. lra. }
    rewrite (LT sps (fun i => g (k * sps + i)%nat)). replace (k * sps + sps)%nat with ((k + 1) * sps)%nat by lia. rewrite Nat.add_0_r. reflexivity. }
  assert (Xst : forall k, x (k * sps)%nat * cos (ph (k * sps)%nat) = D k).
  { intros k. rewrite EX, Nat.div_mul by lia. rewrite Rmult_assoc, Cst. ring. }
  assert (E1 : forall k, Rsum_n sps (fun j => x (k * sps + 1 + j)%nat * cos (ph (k * sps + 1 + j)%nat)) = D k * (INR sps / 2 - 1) + D (k + 1)%nat).
  { intros k. rewrite (LATE (fun i => x i * cos (ph i))), E2, !Xst. ring. }
  assert (E3 : forall k, Rsum_n sps (fun j => - x (k * sps + 1 + j)%nat * sin (ph (k * sps + 1 + j)%nat)) = 0).
  { intros k. rewrite (LATE (fun i => - x i * sin (ph i))), E4, !Sst. ring. }
  assert (DM : forall k b, nth_error m k = Some b -> D k = sign b).
  { intros k b Hb. unfold D. assert (Hk : (k < M)%nat) by (apply nth_error_Some; congruence). apply Nat.ltb_lt in Hk.
    rewrite Hk, (nth_error_nth _ _ false Hb). reflexivity. }
  exists W. eexists. eexists. eexists. eexists. eexists.
  split; [exact Y|]. split; [exact Y1|]. split; [exact Y2|]. split; [exact Y3|]. split; [exact Y4|]. split; [exact Y5|].
  split; [rewrite map_length, seq_length; reflexivity|].
  assert (CONST : forall (f : nat -> R) (g : bool -> R), (forall k b, nth_error m k = Some b -> f k = g b) -> map f (seq 0 M) = map g m).
  { intros f g H. apply nth_error_inj. intros k. fold (tab M f). rewrite tab_nth_error, nth_error_map.
    destruct (Nat.ltb_spec k M) as [Hk|Hk].
    - destruct (nth_error m k) as [b|] eqn:Eb; [|apply nth_error_None in Eb; unfold M in Hk; lia]. cbn. f_equal. apply H. exact Eb.
    - apply nth_error_None in Hk. rewrite Hk. reflexivity. }
  split; [apply CONST; intros k b Hb; etransitivity; [apply E2|]; rewrite (DM k b Hb); reflexivity|].
  split; [apply CONST; intros k b _; apply E4|]. split; [apply CONST; intros k b _; apply E3|].
  split; [rewrite map_length, seq_length; reflexivity|].
  intros k b Hb. assert (Hk : (k < M)%nat) by (apply nth_error_Some; congruence).
  match goal with |- nth_error (map ?f (seq 0 M)) k = _ /\ nth_error (map ?g (seq 0 (M * sps))) _ = _ => fold (tab M f); fold (tab (M * sps) g) end.
  rewrite !tab_nth_error. split.
  - apply Nat.ltb_lt in Hk. rewrite Hk. f_equal. etransitivity; [apply E1|]. rewrite (DM k b Hb). f_equal.
    destruct (nth_error m (k + 1)) as [b'|] eqn:Eb; [apply DM; exact Eb|]. unfold D. apply nth_error_None in Eb.
    apply Nat.ltb_ge in Eb. fold M in Eb. rewrite Eb. reflexivity.
  - assert (Hi : (k * sps + sps - 1 < M * sps)%nat) by nia. apply Nat.ltb_lt in Hi. rewrite Hi. f_equal.
    replace (S (k * sps + sps - 1)) with ((k + 1) * sps)%nat by nia.
    rewrite (running_blocks sps _ (fun i => INR sps / 2 * D i)) by (intros i _; etransitivity; [apply E2|]; ring).
    rewrite Rsum_n_scale. f_equal. rewrite <- Rsum_tab. f_equal. rewrite <- (tab_nth_id m false) at 1. rewrite firstn_tab, tab_map.
    apply tab_eq; [unfold M in Hk; lia|]. intros i Hi'. unfold D. assert (Q : (i < M)%nat) by lia. apply Nat.ltb_lt in Q. rewrite Q. reflexivity.
Qed.

(** Eight samples per bit, one cycle: drawn at 4 - 1 + 1 = 4, 4 - 1 - 1 = 2 and -(4 - 1). *)
Example C95_bpsk_case : exists tx wave, tx_bpsk_signal (of_list [true; true; false]) 8 1 1 = Ret tx /\ yields tx wave /\
  exists points, yields (points_conv 8 (mix_i wave 8 1)) points /\ length points = 3%nat /\
    nth_error points 0 = Some 4 /\ nth_error points 1 = Some 2 /\ nth_error points 2 = Some (-3).
Proof.
  assert (E : exists tx, tx_bpsk_signal (of_list [true; true; false]) 8 1 (1 : R) = Ret tx).
  { apply (tx_bpsk_ok _ 8 1 (1 : R)); [discriminate|reflexivity|]. unfold nyquist_ok.
    replace (nto_u64 (1 : R)) with 1%Z by (cbn [nto_u64 NumR]; rewrite Ztrunc_IZR; reflexivity). reflexivity. }
  destruct E as (tx & E). destruct C95_corners_case as [H1 H2].
  assert (E8 : INR (8 / 1) = 8) by (change (8 / 1)%nat with 8%nat; cbn; lra).
  destruct (C95_bpsk_constellations (of_list [true; true; false]) _ 8 1 1 2 tx (of_list_yields _) ltac:(change (8 / 1)%nat with 8%nat; lia) H1 H2 E)
    as (w & p & ? & ? & ? & i3 & Yw & Yp & _ & _ & _ & _ & _ & _ & _ & _ & Lp & P).
  exists tx, w. split; [exact E|]. split; [exact Yw|]. exists p. split; [exact Yp|]. split; [exact Lp|].
  destruct (P 0%nat true eq_refl) as [P0 _]. destruct (P 1%nat true eq_refl) as [P1 _]. destruct (P 2%nat false eq_refl) as [P2 _].
  rewrite P0, P1, P2, E8. cbn [nth_error Nat.add]. repeat split; f_equal; lra.
Qed.

(** ** Axioms used *)
Print Assumptions C95_bpsk_from_baseband.
Print Assumptions C95_qpsk_from_baseband.
Print Assumptions C95_manual_signal_refuted.
Print Assumptions C95_time_axis.
Print Assumptions C95_time_axis_refuted.
Print Assumptions C95_last_points.
Print Assumptions C95_last_points_one_line.
Print Assumptions C95_qpsk_corners.
Print Assumptions C95_three_plots.
Print Assumptions C95_bpsk_constellations.
