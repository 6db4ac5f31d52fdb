(** Property C97: noise and gain on the chaotic modems (src/csk.rs, src/dcsk.rs). *)
From Coq Require Import List Arith ZArith Reals Bool Lia Lra Psatz.
From Flocq Require Import Core BinarySingleNaN Plus_error.
From Verif Require Import Base IterTheory IterModel Spec SpecR Tab Num F64Lib LibModel LibFloat ChaosModel ChaosProofs ChaosMod
  RSums PskReal Props_Psk Props_Pass.
Import ListNotations.
Local Open Scope R_scope.

(** ** The transmitted samples as tables *)

Section Tables.
Context {T : Type} `{Num T}.
Hypothesis start1 : nleb (nofZ 0) (nlit 1 10) && nleb (nlit 1 10) (nofZ 1) = true.
Hypothesis start2 : nleb (nofZ 0) (nlit 15 100) && nleb (nlit 15 100) (nofZ 1) = true.

Lemma zip_stream_tab {X} (m : list bool) (f : nat -> X) :
  zip_stream m f = tab (length m) (fun n => (nth n m false, f n)).
Proof.
  apply nth_error_inj. intros n. rewrite tab_nth_error, zip_stream_nth. destruct (Nat.ltb_spec n (length m)) as [L|L].
  - rewrite (nth_error_nth' m false L). reflexivity.
  - rewrite (proj2 (nth_error_None m n) L). reflexivity.
Qed.

Definition dcsk_sample (m : list bool) (i : nat) : T :=
  if Nat.even i then dcsk_ref (i / 2) else nmul (dcsk_ref (i / 2)) (bit_to_nrz (nth (i / 2) m false)).

Lemma dcsk_table (message : Iter bool) m : yields message m ->
  exists tx, tx_baseband_dcsk message = Ret tx /\ yields tx (tab (length m * 2) (dcsk_sample m)).
Proof.
  intros Hm. destruct (dcsk_chain start1 message m Hm) as (tx & E & Y & _). exists tx. split; [exact E|].
  rewrite zip_stream_tab in Y.
  rewrite (flat_map_ext _ (fun a => [fst ((fun '(b, r) => (r, nmul r (bit_to_nrz b))) a); snd ((fun '(b, r) => (r, nmul r (bit_to_nrz b))) a)])) in Y
    by (intros [b r]; reflexivity).
  rewrite flat_pairs_tab in Y. exact Y.
Qed.

Lemma dcsk_rx_table (received : Iter T) m g : yields received (tab (m * 2) g) ->
  yields (rx_baseband_dcsk received) (tab m (fun k => nltb (nofZ 0) (nmul (g (2 * k)%nat) (g (2 * k + 1)%nat)))).
Proof.
  intros Y. pose proof (imap_yields (fun '(reference, information) => nltb (nofZ 0) (nmul reference information)) _ _ (ituples_yields _ _ Y)) as YR.
  rewrite pairs_tab, tab_map, Nat.div_mul in YR by lia. exact YR.
Qed.

Lemma dcsk_even m k : dcsk_sample m (2 * k) = dcsk_ref k.
Proof.
  unfold dcsk_sample. rewrite Nat.even_mul. cbn [orb Nat.even]. f_equal. rewrite Nat.mul_comm. apply Nat.div_mul. lia.
Qed.
Lemma dcsk_odd m k : dcsk_sample m (2 * k + 1) = nmul (dcsk_ref k) (bit_to_nrz (nth k m false)).
Proof.
  unfold dcsk_sample. rewrite Nat.even_add, Nat.even_mul. cbn [orb Nat.even xorb eqb].
  replace ((2 * k + 1) / 2)%nat with k; [reflexivity|].
  rewrite (Nat.add_comm (2 * k)), Nat.mul_comm, Nat.div_add by lia. reflexivity.
Qed.

Definition csk_sample (m : list bool) (k : nat) : T := if nth k m false then csk_ref1 k else csk_ref2 k.

Lemma csk_table (message : Iter bool) m : yields message m ->
  exists tx, tx_baseband_csk message = Ret tx /\ yields tx (tab (length m) (csk_sample m)).
Proof.
  intros Hm. destruct (csk_chain start1 start2 message m Hm) as (tx & _ & E & _ & Y & _). exists tx. split; [exact E|].
  refine (eq_ind _ (fun x => yields _ x) Y _ _). apply nth_error_inj. intros k.
  rewrite nth_error_map, !zip_stream_nth, tab_nth_error. destruct (Nat.ltb_spec k (length m)) as [L|L].
  - rewrite (nth_error_nth' m false L). reflexivity.
  - rewrite (proj2 (nth_error_None m k) L). reflexivity.
Qed.

Lemma csk_rx_table (received : Iter T) n g : yields received (tab n g) ->
  exists rx, rx_baseband_csk received = Ret rx /\
    yields rx (tab n (fun k => nltb (nabs (nsub (g k) (csk_ref1 k))) (nabs (nsub (g k) (csk_ref2 k))))).
Proof.
  intros Y. unfold rx_baseband_csk, LogisticMap_new. cbv zeta. rewrite start1, start2. cbn [assert_then bind].
  eexists. split; [reflexivity|].
  pose proof (imap_yields (fun '((sample, chaos_1), chaos_2) => nltb (nabs (nsub sample chaos_1)) (nabs (nsub sample chaos_2))) _ _
     (izip_stream_yields _ _ _ _ (izip_stream_yields _ _ _ _ Y (orbit_streams (logistic_map (nlit 39 10)) (nlit 1 10)))
        (orbit_streams (logistic_map (nlit 39 10)) (nlit 15 100)))) as HR.
  refine (eq_ind _ (fun x => yields _ x) HR _ _). apply nth_error_inj. intros k.
  rewrite nth_error_map, !zip_stream_nth, !tab_nth_error. destruct (k <? n)%nat; reflexivity.
Qed.

Lemma bits_tab n (m : list bool) f : length m = n -> (forall k b, nth_error m k = Some b -> f k = b) -> tab n f = m.
Proof.
  intros L D. apply nth_error_inj. intros k. rewrite tab_nth_error. destruct (Nat.ltb_spec k n) as [Hk|Hk].
  - rewrite (nth_error_nth' m false) by lia. f_equal. apply D. apply nth_error_nth'. lia.
  - symmetry. apply nth_error_None. lia.
Qed.
End Tables.

Lemma start1_R : nleb (nofZ 0 : R) (nlit 1 10) && nleb (nlit 1 10 : R) (nofZ 1) = true.
Proof. unfold nlit. cbn. destruct (Rle_dec 0 (1/10)); destruct (Rle_dec (1/10) 1); try reflexivity; lra. Qed.
Lemma start2_R : nleb (nofZ 0 : R) (nlit 15 100) && nleb (nlit 15 100 : R) (nofZ 1) = true.
Proof. unfold nlit. cbn. destruct (Rle_dec 0 (15/100)); destruct (Rle_dec (15/100) 1); try reflexivity; lra. Qed.

(** The chaotic samples never come near 0: the interval [39/10 * 0.975 * 0.025, 0.975] is mapped into itself. *)
Lemma dcsk_ref_R n : 950625/10000000 <= dcsk_ref n <= 975/1000.
Proof.
  unfold dcsk_ref, orbit_at. apply (iter_inv _ (fun x => 950625/10000000 <= x <= 975/1000)).
  - unfold nlit; cbn; lra.
  - intros x Hx. unfold logistic_map, nlit; cbn. assert (0 <= (x - 1/2) * (x - 1/2)) by apply Rle_0_sqr. nra.
Qed.

Lemma nltb_R_iff (x y : R) b : nltb x y = b <-> if b then x < y else y <= x.
Proof.
  destruct b; [apply nltb_R|]. cbn. destruct (Rlt_dec x y); split; intros; try lra; try discriminate; reflexivity.
Qed.

(** ** DCSK, exact arithmetic *)

(** Exactly which noise flips which bit: [z0] on the reference, [z1] on the information sample. *)
Theorem C97_dcsk_noise_exact :
  forall (message : Iter bool) m (noise : list R),
    yields message m -> length noise = (2 * length m)%nat ->
    exists tx chaos r out, tx_baseband_dcsk message = Ret tx /\
      LogisticMap_new (39 / 10) (1 / 10) = Ret chaos /\ streams chaos r /\
      yields (rx_baseband_dcsk (noisy tx noise)) out /\ length out = length m /\
      forall k b, nth_error m k = Some b ->
        let z0 := nth (2 * k) noise 0 in let z1 := nth (2 * k + 1) noise 0 in
        (nth_error out k = Some b <->
         if b then 0 < (r k + z0) * (r k + z1) else (r k + z0) * (- r k + z1) <= 0).
Proof.
  intros message m noise Hm HL. destruct (dcsk_table start1_R message m Hm) as (tx & E & Y).
  pose proof (noisy_yields tx noise _ _ 0 Y ltac:(lia)) as Yn. pose proof (dcsk_rx_table _ _ _ Yn) as Yr.
  exists tx. eexists. exists dcsk_ref. eexists. split; [exact E|].
  split; [unfold LogisticMap_new; change (1 / 10) with (@nlit R _ 1 10); rewrite start1_R; reflexivity|].
  split; [apply orbit_streams|]. split; [exact Yr|]. split; [apply tab_length|].
  intros k b Hb z0 z1. assert (Hk : (k < length m)%nat) by (apply nth_error_Some; congruence).
  rewrite tab_nth_error, (proj2 (Nat.ltb_lt _ _) Hk), dcsk_even, dcsk_odd, nrz_R, (nth_error_nth _ _ false Hb).
  fold z0 z1. cbn [nadd nmul nofZ NumR].
  match goal with |- (Some ?t = Some b <-> _) => transitivity (t = b); [split; congruence|] end.
  rewrite (nltb_R_iff 0 _ b). destruct b.
  - rewrite Rmult_1_r. reflexivity.
  - replace (dcsk_ref k * -1 + z1) with (- dcsk_ref k + z1) by ring. reflexivity.
Qed.

(** So noise that stays below 39/10 * 0.975 * 0.025 loses no bit. *)
Theorem C97_dcsk_noise_margin :
  forall (message : Iter bool) m (noise : list R),
    yields message m -> length noise = (2 * length m)%nat ->
    (forall z, In z noise -> Rabs z < 39 / 10 * (975 / 1000) * (1 - 975 / 1000)) ->
    exists tx, tx_baseband_dcsk message = Ret tx /\ yields (rx_baseband_dcsk (noisy tx noise)) m.
Proof.
  intros message m noise Hm HL Hz. destruct (C97_dcsk_noise_exact message m noise Hm HL) as (tx & c & r & out & E & Ec & Sr & Yo & Lo & D).
  exists tx. split; [exact E|]. replace m with out; [exact Yo|].
  assert (Hr : forall k, 950625/10000000 <= r k).
  { intros k. unfold LogisticMap_new in Ec. change (1 / 10) with (@nlit R _ 1 10) in Ec. rewrite start1_R in Ec. injection Ec as <-.
    pose proof (behaves_from_det _ _ _ _ Sr (orbit_streams (logistic_map (39 / 10)) (nlit 1 10)) k) as B. cbn beta in B.
    injection B as B. rewrite B. apply dcsk_ref_R. }
  apply nth_error_inj. intros k. destruct (nth_error m k) as [b|] eqn:Eb.
  2:{ apply nth_error_None. rewrite Lo. apply nth_error_None. exact Eb. }
  assert (Hk : (k < length m)%nat) by (apply nth_error_Some; congruence).
  apply (D k b Eb). pose proof (Hr k) as Rk.
  assert (Z0 := Hz (nth (2 * k) noise 0) ltac:(apply nth_In; lia)). assert (Z1 := Hz (nth (2 * k + 1) noise 0) ltac:(apply nth_In; lia)).
  apply Rabs_def2 in Z0, Z1. destruct b; [apply Rmult_lt_0_compat; lra|]. nra.
Qed.

(** A channel that multiplies the signal by an unknown nonzero gain, inverting it or not, loses no bit. *)
Theorem C97_dcsk_gain :
  forall (message : Iter bool) m (gain : R),
    yields message m -> gain <> 0 ->
    exists tx, tx_baseband_dcsk message = Ret tx /\ yields (rx_baseband_dcsk (imap (fun s => gain * s) tx)) m.
Proof.
  intros message m g Hm Hg. destruct (dcsk_table start1_R message m Hm) as (tx & E & Y).
  exists tx. split; [exact E|]. pose proof (imap_yields (fun s => g * s) _ _ Y) as Yg. rewrite tab_map in Yg.
  refine (eq_ind _ (fun x => yields _ x) (dcsk_rx_table _ _ _ Yg) _ _). apply bits_tab; [reflexivity|].
  intros k b Hb. rewrite dcsk_even, dcsk_odd, nrz_R, (nth_error_nth _ _ false Hb). apply nltb_R_iff. cbn [nmul nofZ NumR].
  pose proof (dcsk_ref_R k) as Hr. set (r := dcsk_ref k) in *. assert (0 < g * g) by nra. assert (0 < r * r) by nra.
  assert (0 < (g * g) * (r * r)) by (apply Rmult_lt_0_compat; assumption). destruct b; nra.
Qed.

(** ** DCSK, binary64 *)

Lemma Forall2_len {A B} (P : A -> B -> Prop) l l' : Forall2 P l l' -> length l = length l'.
Proof. induction 1; cbn; congruence. Qed.

Lemma sign_f64 (libm : Libm) (x y : F64) (b : bool) : let num := NumF libm in
  fin x = true -> fin y = true -> bpow radix2 (-1022) <= (if b then val x * val y else - (val x * val y)) <= bpow radix2 1020 ->
  nltb (nofZ 0) (nmul x y) = b.
Proof.
  intros num Fx Fy Hp. destruct val_0 as [V0 F0]. change (Bltb (f64_ofZ 0) (Bmult mode_NE x y) = b).
  assert (P22 : 0 < bpow radix2 (-1022)) by apply bpow_gt_0.
  assert (Q : forall p, bpow radix2 (-1022) <= p <= bpow radix2 1020 -> bpow radix2 (-1022) <= rd p <= bpow radix2 1020).
  { intros p [A B]. split; [apply rd_ge_fmt|apply rd_le_fmt]; try assumption; apply fmt_bpow; lia. }
  assert (M : bpow radix2 1020 < bpow radix2 1024) by (apply bpow_lt; lia).
  destruct b.
  - specialize (Q _ Hp). destruct (mul_fin x y Fx Fy) as [Vp Fp]; [rewrite Rabs_pos_eq; lra|].
    apply ltb_val; [exact F0|exact Fp|]. rewrite V0, Vp. lra.
  - specialize (Q _ Hp). rewrite rd_opp in Q. destruct (mul_fin x y Fx Fy) as [Vp Fp]; [rewrite Rabs_left; lra|].
    destruct (Bltb (f64_ofZ 0) (Bmult mode_NE x y)) eqn:Eb; [|reflexivity].
    apply ltb_val in Eb; [|exact F0|exact Fp]. rewrite V0, Vp in Eb. lra.
Qed.

Lemma dcsk_ref_f64 (libm : Libm) n : let num := NumF libm in fin (dcsk_ref n) = true /\ 94/1000 <= val (dcsk_ref n) <= 9751/10000.
Proof. intros num. destruct x01_val as [F0 H0]. exact (ref_range libm x01 n F0 H0). Qed.

(** Whatever the channel does, samples that arrive within 0.09 of those sent give the bits. *)
Theorem C97_dcsk_received_f64 :
  forall (libm : Libm) (message : Iter bool) m, let num := NumF libm in
    yields message m ->
    exists tx sent, tx_baseband_dcsk message = Ret tx /\ yields tx sent /\ length sent = (2 * length m)%nat /\
      forall (channel : Iter F64) received, yields channel received ->
        Forall2 (fun s s' => is_finite s' = true /\ Rabs (B2R s' - B2R s) <= 9 / 100) sent received ->
        yields (rx_baseband_dcsk channel) m.
Proof.
  intros libm message m num Hm. destruct (dcsk_table (dcsk_start_f64 libm) message m Hm) as (tx & E & Y).
  exists tx. eexists. split; [exact E|]. split; [exact Y|]. split; [rewrite tab_length; lia|].
  intros ch l Yl HF. assert (Ll : length l = (length m * 2)%nat) by (rewrite <- (tab_length (length m * 2) (dcsk_sample m)); symmetry; exact (Forall2_len _ _ _ HF)).
  rewrite <- (tab_nth_id l (nofZ 0)), Ll in Yl.
  refine (eq_ind _ (fun x => yields _ x) (dcsk_rx_table _ _ _ Yl) _ _). apply bits_tab; [reflexivity|].
  intros k b Hb. assert (Hk : (k < length m)%nat) by (apply nth_error_Some; congruence).
  assert (HP : forall i, (i < length m * 2)%nat -> fin (nth i l (nofZ 0)) = true /\ Rabs (val (nth i l (nofZ 0)) - val (dcsk_sample m i)) <= 9 / 100).
  { intros i Hi. assert (G : forall (A : list F64) B, Forall2 (fun s s' => is_finite s' = true /\ Rabs (B2R s' - B2R s) <= 9 / 100) A B ->
      forall i, (i < length A)%nat -> fin (nth i B (nofZ 0)) = true /\ Rabs (val (nth i B (nofZ 0)) - val (nth i A (nofZ 0))) <= 9 / 100).
    { clear. induction 1 as [|a b A B P F IH]; intros i Hi; [cbn in Hi; lia|]. destruct i as [|i]; [exact P|]. apply IH. cbn in Hi. lia. }
    specialize (G _ _ HF i ltac:(rewrite tab_length; exact Hi)). rewrite tab_nth in G by exact Hi. exact G. }
  destruct (HP (2 * k)%nat ltac:(lia)) as [F1 D1]. destruct (HP (2 * k + 1)%nat ltac:(lia)) as [F2 D2].
  rewrite dcsk_even in D1. rewrite dcsk_odd, (nth_error_nth _ _ false Hb) in D2.
  destruct (dcsk_ref_f64 libm k) as [Fr Hr]. fold num in Fr, Hr. destruct (mul_nrz libm _ b Fr) as [_ Vi]. fold num in Vi. rewrite Vi in D2.
  apply Rabs_le_inv in D1, D2. apply sign_f64; [exact F1|exact F2|].
  set (x := val (nth (2 * k) l (nofZ 0))) in *. set (y := val (nth (2 * k + 1) l (nofZ 0))) in *. set (r := val (dcsk_ref k)) in *.
  assert (HX : 4/1000 <= x <= 2) by lra. assert (HY : 4/1000 <= (if b then y else - y) <= 2) by (destruct b; lra).
  assert (HB : bpow radix2 (-1022) <= bpow radix2 (-16)) by (apply bpow_le; lia). assert (HB2 : bpow radix2 2 <= bpow radix2 1020) by (apply bpow_le; lia).
  change (bpow radix2 (-16)) with (/ 65536) in HB. change (bpow radix2 2) with 4 in HB2.
  replace (if b then x * y else - (x * y)) with (x * (if b then y else - y)) by (destruct b; ring).
  set (y' := if b then y else - y) in *. split; [apply Rle_trans with (/ 65536); nra|nra].
Qed.

Lemma gain_samples (libm : Libm) (g : F64) n b : let num := NumF libm in
  fin g = true -> Rabs (val g) <= bpow radix2 500 ->
  let r := dcsk_ref n in
  fin (nmul g r) = true /\ fin (nmul g (nmul r (bit_to_nrz b))) = true /\
  val (nmul g r) = rd (val g * val r) /\ val (nmul g (nmul r (bit_to_nrz b))) = if b then rd (val g * val r) else - rd (val g * val r).
Proof.
  intros num Fg Hg r. destruct (dcsk_ref_f64 libm n) as [Fr Hr]. fold num in Fr, Hr. fold r in Fr, Hr.
  destruct (mul_nrz libm r b Fr) as [Fi Vi]. fold num in Fi, Vi. set (i := nmul r (bit_to_nrz b)) in *.
  assert (B : forall v, Rabs v <= 1 -> Rabs (rd (val g * v)) < bpow radix2 1024).
  { intros v Hv. apply Rle_lt_trans with (bpow radix2 500); [|apply bpow_lt; lia].
    assert (Hgv : Rabs (val g * v) <= bpow radix2 500).
    { rewrite Rabs_mult. pose proof (Rabs_pos (val g)). pose proof (Rabs_pos v). pose proof (bpow_gt_0 radix2 500). nra. }
    apply Rabs_le_inv in Hgv. apply Rabs_le. split; [apply rd_ge_fmt; [apply generic_format_opp|lra]|apply rd_le_fmt; [|lra]]; apply fmt_bpow; lia. }
  destruct (mul_fin g r Fg Fr) as [V1 F1]; [apply B; apply Rabs_le; lra|].
  destruct (mul_fin g i Fg Fi) as [V2 F2]; [apply B; rewrite Vi; destruct b; apply Rabs_le; lra|].
  split; [exact F1|]. split; [exact F2|]. split; [exact V1|]. etransitivity; [exact V2|]. rewrite Vi. destruct b; [reflexivity|].
  replace (val g * - val r) with (- (val g * val r)) by ring. apply rd_opp.
Qed.

(** Gains of either sign, over a thousand powers of two. *)
Theorem C97_dcsk_gain_f64 :
  forall (libm : Libm) (message : Iter bool) m (gain : F64), let num := NumF libm in
    yields message m -> is_finite gain = true ->
    bpow radix2 (-500) <= Rabs (B2R gain) <= bpow radix2 500 ->
    exists tx, tx_baseband_dcsk message = Ret tx /\ yields (rx_baseband_dcsk (imap (fun s => gain * s)%num tx)) m.
Proof.
  intros libm message m g num Hm Fg Hg. destruct (dcsk_table (dcsk_start_f64 libm) message m Hm) as (tx & E & Y).
  exists tx. split; [exact E|]. pose proof (imap_yields (fun s => nmul g s) _ _ Y) as Yg. rewrite tab_map in Yg.
  refine (eq_ind _ (fun x => yields _ x) (dcsk_rx_table _ _ _ Yg) _ _). apply bits_tab; [reflexivity|].
  intros k b Hb. rewrite dcsk_even, dcsk_odd, (nth_error_nth _ _ false Hb).
  destruct (gain_samples libm g k b Fg (proj2 Hg)) as (F1 & F2 & V1 & V2). fold num in F1, F2, V1, V2.
  apply sign_f64; [exact F1|exact F2|]. fold num. rewrite V1, V2. set (p := rd (val g * val (dcsk_ref k))) in *.
  replace (if b then p * (if b then p else - p) else - (p * (if b then p else - p))) with (p * p) by (destruct b; ring).
  destruct (dcsk_ref_f64 libm k) as [_ Hr]. fold num in Hr. change (B2R g) with (val g) in Hg.
  assert (Hp : bpow radix2 (-504) <= Rabs p <= bpow radix2 500).
  { assert (A : Rabs p = rd (Rabs (val g * val (dcsk_ref k)))).
    { unfold p, Rabs at 2. destruct (Rcase_abs (val g * val (dcsk_ref k))) as [N|N].
      - rewrite rd_opp. apply Rabs_left1. rewrite <- rd_0. apply rd_le. lra.
      - apply Rabs_pos_eq. rewrite <- rd_0. apply rd_le. lra. }
    rewrite A, Rabs_mult, (Rabs_pos_eq (val (dcsk_ref k))) by lra. pose proof (bpow_gt_0 radix2 (-500)). pose proof (bpow_gt_0 radix2 500).
    split; [apply rd_ge_fmt|apply rd_le_fmt]; try (apply fmt_bpow; lia); [|nra].
    replace (-504)%Z with (-500 + -4)%Z by lia. rewrite bpow_plus. change (bpow radix2 (-4)) with (/ 16). nra. }
  rewrite <- (Rabs_pos_eq (p * p)) by nra. rewrite Rabs_mult.
  split.
  - apply Rle_trans with (bpow radix2 (-504) * bpow radix2 (-504)); [rewrite <- bpow_plus; apply bpow_le; lia|].
    pose proof (bpow_gt_0 radix2 (-504)). apply Rmult_le_compat; lra.
  - apply Rle_trans with (bpow radix2 500 * bpow radix2 500); [|rewrite <- bpow_plus; apply bpow_le; lia].
    pose proof (Rabs_pos p). apply Rmult_le_compat; lra.
Qed.

(** Below that the product underflows and every bit reads 0, however long the message. *)
Theorem C97_dcsk_too_weak_f64 :
  forall (libm : Libm) (message : Iter bool) m (gain : F64), let num := NumF libm in
    yields message m -> is_finite gain = true -> Rabs (B2R gain) <= bpow radix2 (-538) ->
    exists tx, tx_baseband_dcsk message = Ret tx /\
      yields (rx_baseband_dcsk (imap (fun s => gain * s)%num tx)) (repeat false (length m)).
Proof.
  intros libm message m g num Hm Fg Hg. destruct (dcsk_table (dcsk_start_f64 libm) message m Hm) as (tx & E & Y).
  exists tx. split; [exact E|]. pose proof (imap_yields (fun s => nmul g s) _ _ Y) as Yg. rewrite tab_map in Yg.
  refine (eq_ind _ (fun x => yields _ x) (dcsk_rx_table _ _ _ Yg) _ _). apply bits_tab; [apply repeat_length|].
  intros k b Hb. assert (b = false) as -> by (apply nth_error_In, repeat_spec in Hb; exact Hb). clear Hb.
  rewrite dcsk_even, dcsk_odd. set (b := nth k m false).
  change (B2R g) with (val g) in Hg.
  assert (Hg' : Rabs (val g) <= bpow radix2 500) by (eapply Rle_trans; [exact Hg|]; apply bpow_le; lia).
  destruct (gain_samples libm g k b Fg Hg') as (F1 & F2 & V1 & V2). fold num in F1, F2, V1, V2.
  destruct (dcsk_ref_f64 libm k) as [_ Hr]. fold num in Hr.
  set (x := nmul g (dcsk_ref k)) in *. set (y := nmul g (nmul (dcsk_ref k) (bit_to_nrz b))) in *.
  set (p := rd (val g * val (dcsk_ref k))) in *.
  assert (Hp : - bpow radix2 (-538) <= p <= bpow radix2 (-538)).
  { assert (A : Rabs (val g * val (dcsk_ref k)) <= bpow radix2 (-538)).
    { rewrite Rabs_mult, (Rabs_pos_eq (val (dcsk_ref k))) by lra. pose proof (Rabs_pos (val g)). nra. }
    apply Rabs_le_inv in A. split; [apply rd_ge_fmt; [apply generic_format_opp|lra]|apply rd_le_fmt; [|lra]]; apply fmt_bpow; lia. }
  assert (PP : p * p <= bpow radix2 (-1076)).
  { replace (-1076)%Z with (-538 + -538)%Z by lia. rewrite bpow_plus. pose proof (bpow_gt_0 radix2 (-538)). nra. }
  assert (RZ : forall q, - bpow radix2 (-1076) <= q <= bpow radix2 (-1076) -> rd q = 0).
  { intros q Hq. destruct (Req_dec q 0) as [->|NZ]; [apply rd_0|].
    destruct (mag radix2 q) as [ex He]. specialize (He NZ). apply (round_N_small radix2 fexp64 _ q ex He).
    assert (ex - 1 < -1075)%Z.
    { apply (lt_bpow radix2). eapply Rle_lt_trans; [apply He|]. apply Rle_lt_trans with (bpow radix2 (-1076)); [apply Rabs_le; lra|].
      apply bpow_lt. lia. }
    unfold FLT_exp. lia. }
  assert (VP : rd (val x * val y) = 0).
  { apply RZ. rewrite V1, V2. assert (0 <= p * p) by nra. pose proof (bpow_gt_0 radix2 (-1076)). destruct b; lra. }
  destruct (mul_fin x y F1 F2) as [Vz Fz]; [rewrite VP, Rabs_R0; apply bpow_gt_0|].
  destruct val_0 as [V0 F0]. change (Bltb (f64_ofZ 0) (Bmult mode_NE x y) = false).
  destruct (Bltb (f64_ofZ 0) (Bmult mode_NE x y)) eqn:Eb; [|reflexivity].
  apply ltb_val in Eb; [|exact F0|exact Fz]. rewrite V0, Vz, VP in Eb. lra.
Qed.

(** ** CSK *)

Lemma csk_new (x : R) : x = 1 / 10 \/ x = 15 / 100 -> LogisticMap_new (39 / 10) x = Ret (orbit (logistic_map (39 / 10)) x).
Proof. intros [->| ->]; unfold LogisticMap_new; [change (1 / 10) with (@nlit R _ 1 10); rewrite start1_R|change (15 / 100) with (@nlit R _ 15 100); rewrite start2_R]; reflexivity. Qed.

Lemma abs_lt_sq (x y : R) : Rabs x < Rabs y <-> x * x < y * y.
Proof. split; intros A; [apply Rsqr_lt_abs_1 in A|apply Rsqr_lt_abs_0]; exact A. Qed.
Lemma abs_le_sq (x y : R) : Rabs x <= Rabs y <-> x * x <= y * y.
Proof. split; intros A; [apply Rsqr_le_abs_1 in A|apply Rsqr_le_abs_0]; exact A. Qed.

(** Exactly which noise flips which bit: only its product with the gap between the two chaotic samples counts,
    against half the square of the gap. *)
Theorem C97_csk_noise_exact :
  forall (message : Iter bool) m (noise : list R),
    yields message m -> length noise = length m ->
    exists tx rx chaos_1 chaos_2 r1 r2 out, tx_baseband_csk message = Ret tx /\ rx_baseband_csk (noisy tx noise) = Ret rx /\
      LogisticMap_new (39 / 10) (1 / 10) = Ret chaos_1 /\ streams chaos_1 r1 /\
      LogisticMap_new (39 / 10) (15 / 100) = Ret chaos_2 /\ streams chaos_2 r2 /\
      yields rx out /\ length out = length m /\
      forall k b, nth_error m k = Some b ->
        let gap := r1 k - r2 k in let z := nth k noise 0 in
        gap <> 0 /\
        (nth_error out k = Some b <-> if b then - (z * gap) < gap * gap / 2 else z * gap <= gap * gap / 2).
Proof.
  intros message m noise Hm HL. destruct (csk_table start1_R start2_R message m Hm) as (tx & E & Y).
  pose proof (noisy_yields tx noise _ _ 0 Y HL) as Yn. destruct (csk_rx_table start1_R start2_R _ _ _ Yn) as (rx & Er & Yr).
  exists tx, rx. do 2 eexists. exists csk_ref1, csk_ref2. eexists. split; [exact E|]. split; [exact Er|].
  split; [apply csk_new; left; reflexivity|]. split; [apply orbit_streams|].
  split; [apply csk_new; right; reflexivity|]. split; [apply orbit_streams|]. split; [exact Yr|]. split; [apply tab_length|].
  intros k b Hb gap z. assert (Hk : (k < length m)%nat) by (apply nth_error_Some; congruence).
  split. { intros G. apply (orbits_differ (S k)). unfold gap in G. apply Rminus_diag_uniq. exact G. }
  rewrite tab_nth_error, (proj2 (Nat.ltb_lt _ _) Hk). unfold csk_sample. rewrite (nth_error_nth _ _ false Hb). fold z.
  cbn [nadd nsub nabs NumR].
  match goal with |- (Some ?t = Some b <-> _) => transitivity (t = b); [split; congruence|] end.
  rewrite (nltb_R_iff _ _ b). unfold gap. set (x := csk_ref1 k). set (y := csk_ref2 k). destruct b.
  - rewrite abs_lt_sq. nra.
  - rewrite abs_le_sq. nra.
Qed.

(** So noise below half the gap loses no bit. *)
Theorem C97_csk_noise_margin :
  forall (message : Iter bool) m (noise : list R) chaos_1 chaos_2 r1 r2,
    yields message m -> length noise = length m ->
    LogisticMap_new (39 / 10) (1 / 10) = Ret chaos_1 -> streams chaos_1 r1 ->
    LogisticMap_new (39 / 10) (15 / 100) = Ret chaos_2 -> streams chaos_2 r2 ->
    (forall k z, nth_error noise k = Some z -> Rabs z < Rabs (r1 k - r2 k) / 2) ->
    exists tx rx, tx_baseband_csk message = Ret tx /\ rx_baseband_csk (noisy tx noise) = Ret rx /\ yields rx m.
Proof.
  intros message m noise c1 c2 r1 r2 Hm HL E1 S1 E2 S2 Hz.
  destruct (C97_csk_noise_exact message m noise Hm HL) as (tx & rx & c1' & c2' & r1' & r2' & out & E & Er & E1' & S1' & E2' & S2' & Yo & Lo & D).
  rewrite E1 in E1'. rewrite E2 in E2'. injection E1' as <-. injection E2' as <-.
  assert (Q1 : forall k, r1' k = r1 k) by (intros k; pose proof (behaves_from_det _ _ _ _ S1' S1 k) as B; cbn in B; congruence).
  assert (Q2 : forall k, r2' k = r2 k) by (intros k; pose proof (behaves_from_det _ _ _ _ S2' S2 k) as B; cbn in B; congruence).
  exists tx, rx. split; [exact E|]. split; [exact Er|]. replace m with out; [exact Yo|].
  apply nth_error_inj. intros k. destruct (nth_error m k) as [b|] eqn:Eb.
  2:{ apply nth_error_None. rewrite Lo. apply nth_error_None. exact Eb. }
  assert (Hk : (k < length m)%nat) by (apply nth_error_Some; congruence).
  apply (D k b Eb). rewrite Q1, Q2. specialize (Hz k (nth k noise 0) ltac:(apply nth_error_nth'; lia)).
  set (g := r1 k - r2 k) in *. set (z := nth k noise 0) in *.
  assert (A : Rabs (z * g) < g * g / 2 \/ g = 0).
  { destruct (Req_dec g 0) as [->|N]; [right; reflexivity|left]. rewrite Rabs_mult.
    assert (0 < Rabs g) by (apply Rabs_pos_lt; exact N). replace (g * g) with (Rabs g * Rabs g) by (rewrite <- Rabs_mult; apply Rabs_pos_eq; nra). nra. }
  destruct A as [A|A]; [apply Rabs_def2 in A; destruct b; lra|]. exfalso. rewrite A, Rabs_R0 in Hz. pose proof (Rabs_pos z). lra.
Qed.

(** In binary64, anything arriving within a quarter of the gap. *)
Lemma gap_large (x y : F64) : fin x = true -> fin y = true -> 94/1000 <= val x -> val x < val y -> bpow radix2 (-56) <= val y - val x.
Proof.
  intros Fx Fy Hx Hxy. pose proof (succ_le_lt radix2 fexp64 (val x) (val y) (val_fmt x) (val_fmt y) Hxy) as S1.
  rewrite succ_eq_pos in S1 by lra.
  assert (U : ulp radix2 fexp64 (bpow radix2 (-4)) <= ulp radix2 fexp64 (val x)).
  { apply ulp_le_pos; [exact fexp64_valid|exact fexp64_monotone|apply bpow_ge_0|]. change (bpow radix2 (-4)) with (/ 16). lra. }
  rewrite ulp_bpow in U. change (bpow radix2 (-56)) with (bpow radix2 (fexp64 (-4 + 1))). lra.
Qed.

Lemma closer_f64 (libm : Libm) (s x y : F64) : let num := NumF libm in
  fin s = true -> fin x = true -> fin y = true -> 94/1000 <= val x <= 9751/10000 -> 94/1000 <= val y <= 9751/10000 ->
  4 * Rabs (val s - val x) < Rabs (val x - val y) ->
  nltb (nabs (nsub s x)) (nabs (nsub s y)) = true /\ nltb (nabs (nsub s y)) (nabs (nsub s x)) = false.
Proof.
  intros num Fs Fx Fy Hx Hy Hd.
  assert (NE : val x <> val y) by (intros E; rewrite E, (Rminus_diag_eq (val y) (val y) eq_refl), Rabs_R0 in Hd; pose proof (Rabs_pos (val s - val y)); lra).
  assert (HD : bpow radix2 (-56) <= Rabs (val x - val y)).
  { destruct (Rlt_le_dec (val x) (val y)) as [L|L].
    - rewrite Rabs_left by lra. pose proof (gap_large x y Fx Fy ltac:(lra) L). lra.
    - rewrite Rabs_pos_eq by lra. apply gap_large; auto; lra. }
  set (D := Rabs (val x - val y)) in *. assert (D0 : 0 < D) by (pose proof (bpow_gt_0 radix2 (-56)); lra).
  assert (D1 : D <= 1) by (unfold D; apply Rabs_le; lra).
  assert (HA : Rabs (val s - val x) < D / 4) by lra.
  assert (HC : 3 * D / 4 < Rabs (val s - val y)).
  { pose proof (Rabs_triang (val x - val s) (val s - val y)) as T. replace (val x - val s + (val s - val y)) with (val x - val y) in T by ring.
    rewrite (Rabs_minus_sym (val x) (val s)) in T. fold D in T. lra. }
  assert (HC2 : Rabs (val s - val y) <= 2).
  { pose proof (Rabs_triang (val s - val x) (val x - val y)) as T. replace (val s - val x + (val x - val y)) with (val s - val y) in T by ring. fold D in T. lra. }
  assert (AR : forall q, Rabs (rd q) = rd (Rabs q)).
  { intros q. unfold Rabs at 2. destruct (Rcase_abs q) as [N|N].
    - rewrite rd_opp. apply Rabs_left1. rewrite <- rd_0. apply rd_le. lra.
    - apply Rabs_pos_eq. rewrite <- rd_0. apply rd_le. lra. }
  destruct (sub_fin s x Fs Fx) as [V1 F1]; [apply small_no_overflow; lra|].
  destruct (sub_fin s y Fs Fy) as [V2 F2]; [apply small_no_overflow; lra|].
  assert (VA1 : val (nabs (nsub s x)) = rd (Rabs (val s - val x))).
  { change (nabs (nsub s x)) with (Babs (Bminus mode_NE s x)). unfold val at 1. rewrite B2R_Babs. fold (val (Bminus mode_NE s x)). rewrite V1. apply AR. }
  assert (VA2 : val (nabs (nsub s y)) = rd (Rabs (val s - val y))).
  { change (nabs (nsub s y)) with (Babs (Bminus mode_NE s y)). unfold val at 1. rewrite B2R_Babs. fold (val (Bminus mode_NE s y)). rewrite V2. apply AR. }
  assert (FA1 : fin (nabs (nsub s x)) = true) by (change (nabs (nsub s x)) with (Babs (Bminus mode_NE s x)); unfold fin; rewrite is_finite_Babs; exact F1).
  assert (FA2 : fin (nabs (nsub s y)) = true) by (change (nabs (nsub s y)) with (Babs (Bminus mode_NE s y)); unfold fin; rewrite is_finite_Babs; exact F2).
  assert (LT : rd (Rabs (val s - val x)) < rd (Rabs (val s - val y))).
  { destruct (mag radix2 D) as [e He]. specialize (He ltac:(lra)). rewrite Rabs_pos_eq in He by lra.
    assert (E1 : (-56 < e)%Z) by (apply (lt_bpow radix2); lra).
    assert (E2 : bpow radix2 e = 8 * bpow radix2 (e - 3)) by (replace e with (e - 3 + 3)%Z at 1 by lia; rewrite bpow_plus; change (bpow radix2 3) with 8; ring).
    assert (E3 : bpow radix2 (e - 1) = 4 * bpow radix2 (e - 3)) by (replace (e - 1)%Z with (e - 3 + 2)%Z by lia; rewrite bpow_plus; change (bpow radix2 2) with 4; ring).
    pose proof (bpow_gt_0 radix2 (e - 3)) as P3.
    assert (L1 : rd (Rabs (val s - val x)) <= 2 * bpow radix2 (e - 3)).
    { apply rd_le_fmt; [|lra]. apply (fmt_scaled 2); lia. }
    assert (L2 : 3 * bpow radix2 (e - 3) <= rd (Rabs (val s - val y))).
    { apply rd_ge_fmt; [|lra]. apply (fmt_scaled 3); lia. }
    lra. }
  split.
  - apply ltb_val; [exact FA1|exact FA2|]. rewrite VA1, VA2. exact LT.
  - destruct (nltb (nabs (nsub s y)) (nabs (nsub s x))) eqn:Eb; [|reflexivity].
    apply ltb_val in Eb; [|exact FA2|exact FA1]. rewrite VA1, VA2 in Eb. lra.
Qed.

Theorem C97_csk_received_f64 :
  forall (libm : Libm) (message : Iter bool) m, let num := NumF libm in
    yields message m ->
    exists tx sent chaos_1 chaos_2 r1 r2, tx_baseband_csk message = Ret tx /\ yields tx sent /\ length sent = length m /\
      LogisticMap_new (nlit 39 10) (nlit 1 10) = Ret chaos_1 /\ streams chaos_1 r1 /\
      LogisticMap_new (nlit 39 10) (nlit 15 100) = Ret chaos_2 /\ streams chaos_2 r2 /\
      forall (channel : Iter F64) received, yields channel received -> length received = length m ->
        (forall k s s', nth_error sent k = Some s -> nth_error received k = Some s' ->
           is_finite s' = true /\ 4 * Rabs (B2R s' - B2R s) < Rabs (B2R (r1 k) - B2R (r2 k))) ->
        exists rx, rx_baseband_csk channel = Ret rx /\ yields rx m.
Proof.
  intros libm message m num Hm. destruct (csk_table (dcsk_start_f64 libm) (csk_start_f64 libm) message m Hm) as (tx & E & Y).
  exists tx. do 3 eexists. exists csk_ref1, csk_ref2. split; [exact E|]. split; [exact Y|]. split; [apply tab_length|].
  split; [reflexivity|]. split; [apply orbit_streams|]. split; [reflexivity|]. split; [apply orbit_streams|].
  intros ch l Yl Ll HF. rewrite <- (tab_nth_id l (nofZ 0)), Ll in Yl.
  destruct (csk_rx_table (dcsk_start_f64 libm) (csk_start_f64 libm) _ _ _ Yl) as (rx & Er & Yr). exists rx. split; [exact Er|].
  refine (eq_ind _ (fun x => yields _ x) Yr _ _). apply bits_tab; [reflexivity|].
  intros k b Hb. assert (Hk : (k < length m)%nat) by (apply nth_error_Some; congruence).
  destruct (HF k (csk_sample m k) (nth k l (nofZ 0))) as [Fs Hs].
  - rewrite tab_nth_error, (proj2 (Nat.ltb_lt _ _) Hk). reflexivity.
  - apply nth_error_nth'. lia.
  - assert (HR1 : fin (csk_ref1 k) = true /\ 94/1000 <= val (csk_ref1 k) <= 9751/10000).
    { destruct x01_val as [F0 H0]. exact (ref_range libm x01 k F0 H0). }
    assert (HR2 : fin (csk_ref2 k) = true /\ 94/1000 <= val (csk_ref2 k) <= 9751/10000).
    { destruct x015_val as [F0 H0]. exact (ref_range libm x015 k F0 H0). }
    destruct HR1 as [F1 H1], HR2 as [F2 H2]. unfold csk_sample in Hs. rewrite (nth_error_nth _ _ false Hb) in Hs. destruct b.
    + apply (closer_f64 libm _ _ _ Fs F1 F2 H1 H2 Hs).
    + rewrite (Rabs_minus_sym (B2R (csk_ref1 k))) in Hs. apply (closer_f64 libm _ _ _ Fs F2 F1 H2 H1 Hs).
Qed.

(** Unlike DCSK it needs to know the gain: a signal arriving at half amplitude has its first 0 read as 1. *)
Theorem C97_csk_gain_refuted :
  forall (message : Iter bool) m, yields message (false :: m) ->
    exists tx rx out, tx_baseband_csk message = Ret tx /\ rx_baseband_csk (imap (fun s => 1 / 2 * s) tx) = Ret rx /\
      yields rx (true :: out) /\ length out = length m.
Proof.
  intros message m Hm. destruct (csk_table start1_R start2_R message _ Hm) as (tx & E & Y).
  pose proof (imap_yields (fun s => 1 / 2 * s) _ _ Y) as Yg. rewrite tab_map in Yg.
  destruct (csk_rx_table start1_R start2_R _ _ _ Yg) as (rx & Er & Yr). cbn [length] in Yr. rewrite tab_S in Yr.
  exists tx, rx. eexists. split; [exact E|]. split; [exact Er|].
  match type of Yr with yields _ (?b :: _) => replace b with true in Yr; [split; [exact Yr|apply tab_length]|] end.
  symmetry. apply nltb_R. unfold csk_sample, csk_ref1, csk_ref2, orbit_at. cbn [nth Nat.iter]. unfold logistic_map, nlit. cbn.
  apply abs_lt_sq. lra.
Qed.

Theorem C97_csk_gain_f64_refuted :
  forall (libm : Libm) (message : Iter bool) m, let num := NumF libm in yields message (false :: m) ->
    exists tx rx out, tx_baseband_csk message = Ret tx /\ rx_baseband_csk (imap (fun s => nlit 1 2 * s)%num tx) = Ret rx /\
      yields rx (true :: out) /\ length out = length m.
Proof.
  intros libm message m num Hm. destruct (csk_table (dcsk_start_f64 libm) (csk_start_f64 libm) message _ Hm) as (tx & E & Y).
  pose proof (imap_yields (fun s => nmul (nlit 1 2) s) _ _ Y) as Yg. rewrite tab_map in Yg.
  destruct (csk_rx_table (dcsk_start_f64 libm) (csk_start_f64 libm) _ _ _ Yg) as (rx & Er & Yr). cbn [length] in Yr. rewrite tab_S in Yr.
  exists tx, rx. eexists. split; [exact E|]. split; [exact Er|].
  match type of Yr with yields _ (?b :: _) => replace b with true in Yr; [split; [exact Yr|apply tab_length]|] end.
  symmetry. vm_compute. reflexivity.
Qed.

(** ** Concrete cases *)

(** Noise of alternating sign that is two thirds of the margin. *)
Example C97_dcsk_case :
  exists tx, tx_baseband_dcsk (of_list [true; false]) = Ret tx /\
    yields (rx_baseband_dcsk (noisy tx [3/50; -3/50; -3/50; 3/50])) [true; false].
Proof.
  apply C97_dcsk_noise_margin; [apply of_list_yields|reflexivity|].
  intros z Hz. cbn in Hz. repeat destruct Hz as [<-|Hz]; try contradiction; apply Rabs_def1; lra.
Qed.

(** A noise on the reference that exceeds it flips a bit: the first reference is 0.351. *)
Example C97_dcsk_flip_case :
  exists tx, tx_baseband_dcsk (of_list [true]) = Ret tx /\
    yields (rx_baseband_dcsk (noisy tx [-1/2; 0])) [false].
Proof.
  destruct (dcsk_table start1_R (of_list [true]) [true] (of_list_yields _)) as (tx & E & Y).
  exists tx. split; [exact E|].
  pose proof (noisy_yields tx [-1/2; 0] _ _ 0 Y eq_refl) as Yn. refine (eq_ind _ (fun x => yields _ x) (dcsk_rx_table _ _ _ Yn) _ _).
  cbn [tab length Nat.mul seq map app Nat.add]. f_equal. apply nltb_R_iff. unfold dcsk_sample, dcsk_ref, orbit_at. cbn [Nat.even Nat.mul Nat.add Nat.div Nat.divmod fst nth Nat.iter].
  unfold logistic_map, nlit, bit_to_nrz. cbn. lra.
Qed.

Example C97_gain_case (libm : Libm) : let num := NumF libm in
  exists tx, tx_baseband_dcsk (of_list [true; false]) = Ret tx /\
    yields (rx_baseband_dcsk (imap (fun s => (- nofZ 3) * s)%num tx)) [true; false].
Proof.
  apply C97_dcsk_gain_f64; [apply of_list_yields|reflexivity|].
  destruct (ofZ_exact 3) as [V3 _]; [lia|]. cbn [nopp nofZ NumF]. rewrite B2R_Bopp. fold (val (f64_ofZ 3)). rewrite V3, Rabs_left by lra.
  assert (bpow radix2 (-500) <= bpow radix2 0) by (apply bpow_le; lia). assert (bpow radix2 2 <= bpow radix2 500) by (apply bpow_le; lia).
  change (bpow radix2 0) with 1 in *. change (bpow radix2 2) with 4 in *. lra.
Qed.

(** The first gap of CSK is 0.14625. *)
Example C97_csk_case :
  exists tx rx, tx_baseband_csk (of_list [true]) = Ret tx /\ rx_baseband_csk (noisy tx [7/100]) = Ret rx /\ yields rx [true].
Proof.
  apply (C97_csk_noise_margin (of_list [true]) [true] [7/100] _ _ csk_ref1 csk_ref2 (of_list_yields _) eq_refl
    (csk_new _ (or_introl eq_refl)) (orbit_streams _ _) (csk_new _ (or_intror eq_refl)) (orbit_streams _ _)).
  intros [|k] z Hz; [|destruct k; discriminate]. injection Hz as <-.
  unfold csk_ref1, csk_ref2, orbit_at. cbn [Nat.iter]. unfold logistic_map, nlit. cbn.
  rewrite Rabs_pos_eq by lra. rewrite Rabs_left by lra. lra.
Qed.

(** ** Axioms used *)
Print Assumptions C97_dcsk_noise_exact.
Print Assumptions C97_dcsk_noise_margin.
Print Assumptions C97_dcsk_gain.
Print Assumptions C97_dcsk_received_f64.
Print Assumptions C97_dcsk_gain_f64.
Print Assumptions C97_dcsk_too_weak_f64.
Print Assumptions C97_csk_noise_exact.
Print Assumptions C97_csk_noise_margin.
Print Assumptions C97_csk_received_f64.
Print Assumptions C97_csk_gain_refuted.
Print Assumptions C97_csk_gain_f64_refuted.
