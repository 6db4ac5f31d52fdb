(** Properties C39-C41: the hop table and FH-BPSK (src/fh.rs), chirps (src/fh_css.rs). *)
From Coq Require Import List Arith ZArith NArith Reals Bool Lia Lra Psatz Permutation.
From Flocq Require Import Core BinarySingleNaN.
From Verif Require Import Base IterTheory IterModel IterProofs Spec SpecR Tab Num F64Lib LibModel LibDiscrete LibFloat LibReal
  ChaosModel ChaosProofs ChaosMod PskModel PskChain PskFloat RSums PskReal Props_Psk CdmaModel FhModel FhProofs FhFloat.
Import ListNotations.
Local Open Scope R_scope.

(** ** C39 *)

(** Every epoch of [num_freqs] hops visits the whole grid, each of its frequencies once; every
    generator, arithmetic, grid size, epoch. *)
Theorem C39_hop_epochs :
  forall (T : Type) (N : Num T) (rng : Rng) (low high : T) (num_freqs : nat) (seed : N.t),
    (2 <= num_freqs)%nat ->
    exists it f, HopTable_new rng low high num_freqs seed = Ret it /\ streams it f /\
      forall e, Permutation
        (map (fun i => f (e * num_freqs + i)%nat) (seq 0 num_freqs))
        (map (fun i => low + (high - low) / nofnat num_freqs * nofnat i)%num (seq 0 num_freqs)).
Proof.
  intros T N rng low high n seed Hn. destruct (hops_stream rng low high n seed Hn) as (it & f & E & S & _ & P).
  exists it, f. auto.
Qed.

(** On the reals with low <> high the frequencies of an epoch are pairwise distinct and each of the
    grid's [num_freqs] points is visited exactly once. *)
Theorem C39_hop_exactly_once :
  forall (rng : Rng) (low high : R) (num_freqs : nat) (seed : N.t),
    (2 <= num_freqs)%nat -> low <> high ->
    exists it f, HopTable_new rng low high num_freqs seed = Ret it /\ streams it f /\
      forall e k, (k < num_freqs)%nat -> exists! i, (i < num_freqs)%nat /\
        f (e * num_freqs + i)%nat = low + (high - low) * (INR k / INR num_freqs).
Proof.
  intros rng low high n seed Hn Hd. destruct (hops_stream rng low high n seed Hn) as (it & f & E & S & _ & P).
  exists it, f. split; [exact E|]. split; [exact S|]. intros e k Hk.
  assert (HnR : 0 < INR n) by (apply lt_0_INR; lia).
  assert (G : forall i, nadd low (nmul (ndiv (nsub high low) (nofnat n)) (nofnat i)) = low + (high - low) * (INR i / INR n)).
  { intros i. unfold nofnat. cbn [nadd nmul ndiv nsub nofZ NumR]. rewrite <- !INR_IZR_INZ. field. lra. }
  assert (ND : NoDup (map (fun i => f (e * n + i)%nat) (seq 0 n))).
  { eapply Permutation_NoDup; [apply Permutation_sym, P|]. unfold grid, tab.
    apply FinFun.Injective_map_NoDup; [|apply seq_NoDup].
    intros a b Eab. rewrite !G in Eab. apply INR_eq. apply Rmult_eq_reg_l with ((high - low) / INR n).
    - unfold Rdiv in *. lra.
    - unfold Rdiv. apply Rmult_integral_contrapositive. split; [lra|]. apply Rinv_neq_0_compat. lra. }
  assert (Hin : In (low + (high - low) * (INR k / INR n)) (map (fun i => f (e * n + i)%nat) (seq 0 n))).
  { eapply Permutation_in; [apply Permutation_sym, P|]. rewrite <- G. unfold grid, tab.
    apply (in_map (fun i => nadd low (nmul (ndiv (nsub high low) (nofnat n)) (nofnat i)))). apply in_seq. lia. }
  apply in_map_iff in Hin. destruct Hin as (i & Ei & Hi). apply in_seq in Hi. exists i. split; [split; [lia|exact Ei]|].
  intros i' [Hi' Ei'].
  assert (Ln : length (map (fun i => f (e * n + i)%nat) (seq 0 n)) = n) by (rewrite map_length, seq_length; reflexivity).
  refine (proj1 (NoDup_nth _ 0) ND i i' _ _ _).
  - rewrite Ln. lia.
  - rewrite Ln. lia.
  - rewrite !nth_map_seq by lia. congruence.
Qed.

(** Transmitter and receiver tables stay in step: the hops are determined by the parameters. *)
Theorem C39_hop_deterministic :
  forall (T : Type) (N : Num T) (rng : Rng) (low high : T) (num_freqs : nat) (seed : N.t) it1 it2 f1 f2,
    HopTable_new rng low high num_freqs seed = Ret it1 -> streams it1 f1 ->
    HopTable_new rng low high num_freqs seed = Ret it2 -> streams it2 f2 ->
    forall i, f1 i = f2 i.
Proof.
  intros T N rng low high n seed it1 it2 f1 f2 E1 S1 E2 S2 i. rewrite E1 in E2. injection E2 as <-.
  pose proof (behaves_from_det _ _ _ _ S1 S2 i) as B. cbn in B. congruence.
Qed.

Theorem C39_hop_panics :
  forall (T : Type) (N : Num T) (rng : Rng) (low high : T) (seed : N.t),
    (exists it, HopTable_new rng low high 0 seed = Ret it /\ panics_after it []) /\
    (exists it, HopTable_new rng low high 1 seed = Ret it /\
       panics_after it [Some (low + (high - low) / nofnat 1 * nofnat 0)%num]).
Proof.
  intros T N rng low high seed. split; rewrite HopTable_new_eq; eexists; (split; [reflexivity|]).
  - eexists. split; reflexivity.
  - eexists. split; reflexivity.
Qed.

(** The epochs are no more constrained than that: any order is the first epoch of some generator. *)
Theorem C39_every_order :
  forall (T : Type) (N : Num T) (low high : T) (num_freqs : nat) (seed : N.t) (order : list T),
    (2 <= num_freqs)%nat ->
    Permutation order (map (fun i => low + (high - low) / nofnat num_freqs * nofnat i)%num (seq 0 num_freqs)) ->
    exists (rng : Rng) it (f : nat -> T), HopTable_new rng low high num_freqs seed = Ret it /\ streams it f /\
      map f (seq 0 num_freqs) = order.
Proof.
  intros T N low high n seed order Hn P. change (Permutation order (grid low high n)) in P.
  destruct (shuffle_reaches _ _ (Permutation_sym P)) as (js & E).
  exists (scripted js). rewrite HopTable_new_eq. eexists. exists (hop_at (scripted js) (grid low high n) js).
  split; [reflexivity|]. split; [apply hop_streams_from; rewrite grid_length; exact Hn|].
  pose proof (hop_epoch (scripted js) (grid low high n) js 0) as HE. rewrite grid_length in HE. cbn [Nat.mul Nat.add] in HE.
  etransitivity; [exact (HE ltac:(lia))|]. cbn [epoch]. unfold shuffled. cbn [fst snd]. cbn [seed_from_u64 scripted] in E. rewrite E. reflexivity.
Qed.

(** A toy generator. *)
Definition toy_rng : Rng.
Proof.
  refine (MkRng N (fun s => s) (fun ub s => (N.to_nat (s mod N.of_nat ub), s * 5 + 3)%N) _).
  intros ub s H. cbn [fst]. pose proof (N.mod_upper_bound s (N.of_nat ub) ltac:(lia)). lia.
Defined.

(** Two epochs of the hops 0, 2, 4, 6. *)
Definition hops_as_Z (libm : Libm) (rng : Rng) (low high : Z) (n count : nat) : outcome (list (option Z)) :=
  let num := NumF libm in
  let? it := HopTable_new rng (f64_ofZ low) (f64_ofZ high) n SEED in
  let? (os, s) := calls (next it) count (cur it) in
  Ret (map (option_map (@Btrunc 53 1024)) os).
Example C39_example (libm : Libm) :
  hops_as_Z libm toy_rng 0 8 4 8 = Ret [Some 2; Some 6; Some 4; Some 0; Some 2; Some 4; Some 0; Some 6]%Z.
Proof. vm_compute. reflexivity. Qed.

(** ** C40 *)

Lemma hop_good_f64 (libm : Libm) (sr sy : nat) (h : F64) : let num := NumF libm in
  (1 <= sy <= sr)%nat -> is_int (ndiv (nofnat sr) (nofnat sy)) = true -> nyquist_ok sr h = true ->
  (forall i, (i < sr / sy)%nat -> is_nan (libm_cos libm (phase_at sr h i)) = false) ->
  libm_cos libm (phase_at sr h 0) = f64_ofZ 1 ->
  hop_good sr sy h.
Proof.
  intros num Hr Hi Hny Hnan H1 b.
  assert (Hs : (1 <= sr / sy)%nat) by (apply Nat.div_le_lower_bound; lia).
  assert (Et : exists itx, tx_bpsk_signal (of_list [b]) sr sy h = Ret itx).
  { unfold tx_bpsk_signal. rewrite usize_div_intro by lia. cbn [bind]. unfold assert_then. rewrite Hny, Hi. eexists. reflexivity. }
  destruct Et as (itx & Et).
  destruct (C29_bpsk_round_trip_f64 libm (of_list [b]) [b] sr sy h itx (of_list_yields _) Et ltac:(lia)) as (rx & w & Er & Yt & Lw & Yr).
  - intros i L. apply Hnan. cbn [length] in L. lia.
  - intros k Hk. cbn [length] in Hk. assert (k = 0)%nat by lia. subst k. exists 0%nat. split; [lia|].
    cbn [Nat.mul Nat.add]. change (@ncos F64 num) with (libm_cos libm) in H1.
    match goal with |- Bltb _ (Bmult _ ?a ?a) = true => change a with (libm_cos libm (phase_at sr h 0)) end.
    rewrite H1. vm_compute. reflexivity.
  - exists w. split; [rewrite Lw; cbn [length]; lia|]. split; [exists itx; auto|].
    destruct (rx_bpsk_intro (of_list w) sr sy h ltac:(lia) Hs) as (irx & Eir & _ & Yw).
    destruct (rx_bpsk_intro itx sr sy h ltac:(lia) Hs) as (irx' & Eir' & _ & Yw').
    exists irx. split; [exact Eir|]. pose proof (eq_trans (eq_sym Eir') Er) as X. injection X as <-.
    rewrite (yields_det _ _ _ Yr (Yw' _ (nofZ 0) Yt)). apply Yw. apply of_list_yields.
Qed.

(** Binary64, any grid whose frequencies pass the per-hop checks. *)
Theorem C40_fh_bpsk_round_trip_grid :
  forall (libm : Libm) (rng : Rng) (message : Iter bool) m (low high : F64) (num_freqs sample_rate symbol_rate : nat) tx,
    let num := NumF libm in
    let hop i := (low + (high - low) / nofnat num_freqs * nofnat i)%num in
    let carrier h i := libm_cos libm (nofZ 2 * npi * h * (nofnat i / nofnat sample_rate))%num in
    yields message m ->
    tx_fh_bpsk_signal rng message low high num_freqs sample_rate symbol_rate = Ret tx ->
    (2 <= num_freqs)%nat -> (1 <= symbol_rate <= sample_rate)%nat ->
    (forall k, (k < num_freqs)%nat -> nyquist_ok sample_rate (hop k) = true /\
       carrier (hop k) 0%nat = f64_ofZ 1 /\
       forall i, (i < sample_rate / symbol_rate)%nat -> is_nan (carrier (hop k) i) = false) ->
    exists rx w, rx_fh_bpsk_signal rng tx low high num_freqs sample_rate symbol_rate = Ret rx /\
      yields tx w /\ length w = (length m * (sample_rate / symbol_rate))%nat /\ yields rx m.
Proof.
  intros libm rng message m low high n sr sy tx num hop carrier Hm Htx Hn Hr Hk.
  apply (fh_bpsk_link rng message m low high n sr sy tx Hm Htx Hn Hr).
  assert (Hi : is_int (ndiv (nofnat sr) (nofnat sy)) = true).
  { unfold tx_fh_bpsk_signal in Htx. destruct (nyquist_ok sr high); [|discriminate]. cbn [assert_then] in Htx.
    destruct (is_int (ndiv (nofnat sr) (nofnat sy))); [reflexivity|discriminate]. }
  intros h Hh. unfold grid, tab in Hh. apply in_map_iff in Hh. destruct Hh as (k & <- & Hk2). apply in_seq in Hk2.
  destruct (Hk k ltac:(lia)) as (H1 & H2 & H3). apply hop_good_f64; assumption.
Qed.

(** Binary64, from the parameters alone: every hop of 0 <= low <= high passes the checks that high
    passed, and restarts its carrier at phase 0.  The cosine is any function that gives 1 at both
    zeros and never NaN on a finite argument. *)
Theorem C40_fh_bpsk_round_trip :
  forall (libm : Libm) (rng : Rng) (message : Iter bool) m (low high : F64) (num_freqs sample_rate symbol_rate : nat) tx,
    let num := NumF libm in
    (forall s, libm_cos libm (B754_zero s) = f64_ofZ 1) ->
    (forall x, is_finite x = true -> is_nan (libm_cos libm x) = false) ->
    yields message m ->
    tx_fh_bpsk_signal rng message low high num_freqs sample_rate symbol_rate = Ret tx ->
    Bleb (f64_ofZ 0) low = true -> Bleb low high = true ->
    (2 <= num_freqs)%nat -> (Z.of_nat num_freqs <= 2 ^ 50)%Z ->
    (1 <= symbol_rate <= sample_rate)%nat -> (Z.of_nat sample_rate < 2 ^ 64)%Z ->
    exists rx w, rx_fh_bpsk_signal rng tx low high num_freqs sample_rate symbol_rate = Ret rx /\
      yields tx w /\ length w = (length m * (sample_rate / symbol_rate))%nat /\ yields rx m.
Proof.
  intros libm rng message m low high n sr sy tx num Hc0 Hcf Hm Htx Hlow Hlh Hn Hn2 Hr Hs.
  apply (C40_fh_bpsk_round_trip_grid libm rng message m low high n sr sy tx Hm Htx Hn Hr).
  assert (Hny : (f64_to_u64 high <= Z.of_nat (sr / 2)%nat)%Z).
  { unfold tx_fh_bpsk_signal in Htx. destruct (nyquist_ok sr high) eqn:E; [|discriminate]. apply Z.leb_le. exact E. }
  intros k Hk. pose proof (grid_f64 libm low high n k sr Hlow Hlh Hs Hny ltac:(lia) Hn2 Hk) as G.
  cbv zeta in G. fold num in G. destruct G as (Fh & Vh & Nh).
  set (h := nadd low (nmul (ndiv (nsub high low) (nofnat n)) (nofnat k))) in *.
  split; [apply Z.leb_le; exact Nh|]. split.
  - destruct (phase_finite libm h sr 0 Fh Vh ltac:(lia) Hs) as (_ & Z0). destruct (Z0 eq_refl) as (s & Es).
    etransitivity; [|exact (Hc0 s)]. apply (f_equal (libm_cos libm)). exact Es.
  - intros i Hi.
    assert (Hi2 : (i < sr)%nat).
    { apply Nat.lt_le_trans with (sr / sy)%nat; [exact Hi|]. apply Nat.div_le_upper_bound; nia. }
    apply Hcf. apply (phase_finite libm h sr i Fh Vh Hi2 Hs).
Qed.

(** Exact arithmetic, the true cosine; negative frequencies included. *)
Theorem C40_fh_bpsk_exact :
  forall (rng : Rng) (message : Iter bool) m (low high : R) (num_freqs sample_rate symbol_rate : nat) tx,
    yields message m ->
    tx_fh_bpsk_signal rng message low high num_freqs sample_rate symbol_rate = Ret tx ->
    low <= high -> (2 <= num_freqs)%nat -> (1 <= symbol_rate <= sample_rate)%nat ->
    exists rx w, rx_fh_bpsk_signal rng tx low high num_freqs sample_rate symbol_rate = Ret rx /\
      yields tx w /\ length w = (length m * (sample_rate / symbol_rate))%nat /\ yields rx m.
Proof.
  intros rng message m low high n sr sy tx Hm Htx Hlh Hn Hr.
  assert (HC : nyquist_ok sr high = true /\ is_int (ndiv (nofnat sr) (nofnat sy)) = true).
  { unfold tx_fh_bpsk_signal in Htx. destruct (nyquist_ok sr high); [|discriminate]. cbn [assert_then] in Htx.
    destruct (is_int (ndiv (nofnat sr) (nofnat sy))); [auto|discriminate]. }
  destruct HC as (Hny & Hi).
  apply (fh_bpsk_link rng message m low high n sr sy tx Hm Htx Hn Hr).
  intros h Hh b. unfold grid, tab in Hh. apply in_map_iff in Hh. destruct Hh as (k & Eh & Hk). apply in_seq in Hk.
  assert (Hhh : h <= high).
  { rewrite <- Eh. unfold nofnat. cbn [nadd nmul ndiv nsub nofZ NumR]. rewrite <- !INR_IZR_INZ.
    assert (0 < INR n) by (apply lt_0_INR; lia). assert (INR k <= INR n) by (apply le_INR; lia).
    replace ((high - low) / INR n * INR k) with ((high - low) * (INR k / INR n)) by (field; lra).
    assert (INR k / INR n <= 1) by (apply Rmult_le_reg_r with (INR n); [lra|]; unfold Rdiv; rewrite Rmult_assoc, Rinv_l by lra; lra).
    nra. }
  assert (Hnh : nyquist_ok sr h = true).
  { apply Z.leb_le. apply Z.leb_le in Hny. eapply Z.le_trans; [|exact Hny]. cbn [nto_u64 NumR].
    pose proof (Ztrunc_le h high Hhh). unfold clamp_u64. lia. }
  assert (Hs : (1 <= sr / sy)%nat) by (apply Nat.div_le_lower_bound; lia).
  assert (Et : exists itx, tx_bpsk_signal (of_list [b]) sr sy h = Ret itx).
  { unfold tx_bpsk_signal. rewrite usize_div_intro by lia. cbn [bind]. unfold assert_then. rewrite Hnh, Hi. eexists. reflexivity. }
  destruct Et as (itx & Et).
  destruct (bpsk_link (of_list [b]) [b] sr sy h itx (of_list_yields _) Et ltac:(lia)) as (irx & Er & Yt & Yr).
  exists (bpsk_wave sr h (sr / sy) [b]). split; [unfold bpsk_wave; rewrite tab_length; cbn [length]; lia|].
  split; [exists itx; auto|].
  destruct (rx_bpsk_intro (of_list (bpsk_wave sr h (sr / sy) [b])) sr sy h ltac:(lia) Hs) as (irx2 & Er2 & Y2 & _).
  exists irx2. split; [exact Er2|].
  pose proof (Y2 1%nat (fun i => nmul (bit_to_nrz (nth (i / (sr / sy)) [b] false)) (ccos sr h i)) (of_list_yields _)) as Y.
  refine (eq_ind _ (fun x => yields _ x) Y _ _). unfold tab. cbn [seq map]. f_equal.
  rewrite corr_R.
  set (f := fun j => cos (2 * PI * h * (INR j / INR sr))).
  rewrite (Rsum_n_ext _ _ (fun j => (if b then 1 else -1) * (f j * f j))).
  2:{ intros j Hj. cbn [Nat.mul Nat.add]. rewrite Nat.div_small by exact Hj. cbn [nth]. unfold ccos. rewrite phase_R, nrz_R.
      cbn [nmul ncos NumR]. unfold f. ring. }
  rewrite Rsum_n_scale. pose proof (Rsum_n_sq_pos (sr / sy) f) as P.
  assert (0 < Rsum_n (sr / sy) (fun j => f j * f j)).
  { apply P. exists 0%nat. split; [lia|]. unfold f. change (INR 0) with 0. unfold Rdiv. rewrite Rmult_0_l, Rmult_0_r, cos_0. lra. }
  change (nofZ 0) with 0. destruct b.
  - apply nltb_R. lra.
  - destruct (nltb 0 (-1 * Rsum_n (sr / sy) (fun j => f j * f j))) eqn:E; [|reflexivity]. apply nltb_R in E. lra.
Qed.

(** With low > high the entry check only looks at high: the call succeeds and the first sample panics. *)
Theorem C40_low_above_high_panics :
  forall (rng : Rng), exists tx, tx_fh_bpsk_signal rng (of_list [true]) (40 : R) 0 2 2 1 = Ret tx /\ panics_after tx [].
Proof.
  intros rng.
  assert (Hny : nyquist_ok 2 0 = true).
  { apply Z.leb_le. cbn [nto_u64 NumR]. rewrite (Ztrunc_IZR 0). vm_compute. discriminate. }
  assert (Hi : is_int (ndiv (nofnat 2) (nofnat 1) : R) = true).
  { unfold is_int, nofnat. cbn [ndiv nofZ NumR nto_u64 neqb]. replace (IZR (Z.of_nat 2) / IZR (Z.of_nat 1)) with 2 by (cbn; lra).
    rewrite (Ztrunc_IZR 2). destruct (Req_EM_T _ _) as [|N]; [reflexivity|]. exfalso. apply N. reflexivity. }
  unfold tx_fh_bpsk_signal, assert_then. rewrite Hny, Hi.
  destruct (hops_stream rng (40 : R) 0 2 SEED ltac:(lia)) as (it & f & En & St & Hin & _). rewrite En. cbn [bind].
  eexists. split; [reflexivity|]. eexists. split; [reflexivity|].
  cbn [cur next iflat_map]. unfold iflat_next. cbn [izip].
  destruct (streams_inv _ _ _ St) as (s' & Es & _).
  assert (Hf : nyquist_ok 2 (f 0%nat) = false).
  { destruct (Hin 0%nat) as [E|[E|[]]]; rewrite <- E; apply Z.leb_gt; unfold nofnat; cbn [nadd nmul ndiv nsub nofZ NumR nto_u64].
    - replace (40 + (0 - 40) / IZR (Z.of_nat 2) * IZR (Z.of_nat 0)) with 40 by (cbn; lra). rewrite (Ztrunc_IZR 40). reflexivity.
    - replace (40 + (0 - 40) / IZR (Z.of_nat 2) * IZR (Z.of_nat 1)) with 20 by (cbn; lra). rewrite (Ztrunc_IZR 20). reflexivity. }
  rewrite (loops_pos _ 0 _ Panic); [reflexivity| |pose proof loop_bound_val; lia]. apply loops_stop.
  unfold iflat_body. cbn [fl_front fl_outer fl_clo]. cbn [izip izip_next of_list_next cur next of_list bind]. rewrite Es. cbn [bind].
  unfold tx_bpsk_signal. cbn [usize_div Nat.eqb bind]. unfold assert_then. rewrite Hf. reflexivity.
Qed.

(** A cosine that is constantly 1 meets the hypotheses; so does the true one on the reals. *)
Definition libm_one : Libm :=
  {| libm_sin := fun x => x; libm_cos := fun _ => f64_ofZ 1; libm_exp := fun x => x; libm_log10 := fun x => x;
     libm_pow := fun x _ => x; libm_sum_neg := false |}.
Example C40_example : let num := NumF libm_one in
  (exists tx, tx_fh_bpsk_signal toy_rng (of_list [true; false; true]) (f64_ofZ 1) (f64_ofZ 3) 2 8 2 = Ret tx /\
    exists rx, rx_fh_bpsk_signal toy_rng tx (f64_ofZ 1) (f64_ofZ 3) 2 8 2 = Ret rx /\ yields rx [true; false; true]) /\
  (forall s, libm_cos libm_one (B754_zero s) = f64_ofZ 1) /\
  (forall x, is_finite x = true -> is_nan (libm_cos libm_one x) = false) /\
  Bleb (f64_ofZ 0) (f64_ofZ 1) = true /\ Bleb (f64_ofZ 1) (f64_ofZ 3) = true.
Proof.
  intros num.
  assert (H1 : forall s, libm_cos libm_one (B754_zero s) = f64_ofZ 1) by reflexivity.
  assert (H2 : forall x, is_finite x = true -> is_nan (libm_cos libm_one x) = false) by (intros; vm_compute; reflexivity).
  assert (H3 : Bleb (f64_ofZ 0) (f64_ofZ 1) = true) by (vm_compute; reflexivity).
  assert (H4 : Bleb (f64_ofZ 1) (f64_ofZ 3) = true) by (vm_compute; reflexivity).
  split; [|auto].
  assert (Et : exists tx, tx_fh_bpsk_signal toy_rng (of_list [true; false; true]) (f64_ofZ 1) (f64_ofZ 3) 2 8 2 = Ret tx).
  { unfold tx_fh_bpsk_signal. rewrite HopTable_new_eq.
    replace (nyquist_ok 8 (f64_ofZ 3)) with true by (vm_compute; reflexivity).
    replace (is_int (ndiv (nofnat 8) (nofnat 2) : F64)) with true by (vm_compute; reflexivity).
    eexists. reflexivity. }
  destruct Et as (tx & Et). exists tx. split; [exact Et|].
  destruct (C40_fh_bpsk_round_trip libm_one toy_rng (of_list [true; false; true]) [true; false; true] (f64_ofZ 1) (f64_ofZ 3) 2 8 2 tx
    H1 H2 (of_list_yields _) Et H3 H4 ltac:(lia) ltac:(lia) ltac:(lia) ltac:(lia)) as (rx & w & Er & _ & _ & Yr).
  exists rx. auto.
Qed.

(** ** C41 *)

Lemma linspace_tab {T} `{Num T} (a b : T) n :
  yields (linspace a b n) (tab n (fun i => nadd a (nmul (ndiv (nsub b a) (nofnat n)) (nofnat i)))).
Proof. unfold linspace, tab. apply imap_yields. apply of_list_yields. Qed.

Lemma to_u64_floor (x : R) (n : nat) : INR n <= x < INR n + 1 -> (Z.of_nat n < 2 ^ 64)%Z -> Z.to_nat (nto_u64 x) = n.
Proof.
  intros Hx Hn. cbn [nto_u64 NumR]. pose proof (pos_INR n). rewrite Ztrunc_floor by lra.
  rewrite (Zfloor_imp (Z.of_nat n)) by (rewrite plus_IZR, <- INR_IZR_INZ; lra). unfold clamp_u64, u64_max. lia.
Qed.

Lemma quad_deriv (a b : R) (p : R -> R) (t d : R) :
  (forall x, p x = a * x + b * (x * x)) -> d = a + 2 * b * t -> derivable_pt_lim p t d.
Proof.
  intros E ->. apply (derivable_pt_lim_ext (fun x => a * x + b * (x * x))); [intros; symmetry; apply E|].
  replace (a + 2 * b * t) with (a * 1 + b * (1 * t + t * 1)) by ring.
  apply (derivable_pt_lim_plus (mult_real_fct a (fun x => x)) (mult_real_fct b (fun x => x * x))).
  - apply derivable_pt_lim_scal, derivable_pt_lim_id.
  - apply derivable_pt_lim_scal. apply (derivable_pt_lim_mult (fun x => x) (fun x => x)); apply derivable_pt_lim_id.
Qed.

Lemma Ret_inj {A} (a b : A) : Ret a = Ret b -> a = b.
Proof. congruence. Qed.

(** The samples of a chirp: n = floor(sample_rate / chirp_rate) of them, sample i at time
    i / (n * chirp_rate); a phase that starts at 0, whose derivative (2 pi times the frequency) goes
    linearly from f0 to f1 over the chirp period 1 / chirp_rate. *)
Theorem C41_linear_chirp :
  forall (chirp_rate : R) (sample_rate n : nat) (f0 f1 : R),
    0 < chirp_rate -> INR n <= INR sample_rate / chirp_rate < INR n + 1 -> (Z.of_nat n < 2 ^ 64)%Z ->
    exists (l : list R) (phase : R -> R),
      yields (linear_chirp chirp_rate sample_rate f0 f1) l /\ length l = n /\
      (forall i, (i < n)%nat -> nth_error l i = Some (cos (phase (INR i / (INR n * chirp_rate))))) /\
      phase 0 = 0 /\
      (forall t, derivable_pt_lim phase t (2 * PI * (f0 + (f1 - f0) * (t * chirp_rate)))) /\
      (forall x, In x l -> -1 <= x <= 1) /\ ((1 <= n)%nat -> nth_error l 0 = Some 1).
Proof.
  intros cr sr n f0 f1 Hc Hn Hb.
  set (phase := fun t => 2 * PI * (f0 + (f1 - f0) * cr * t / 2) * t).
  assert (Y : yields (linear_chirp cr sr f0 f1) (tab n (fun i => cos (phase (INR i / (INR n * cr)))))).
  { unfold linear_chirp. unfold nofnat. cbn [ndiv nofZ NumR]. rewrite <- INR_IZR_INZ, (to_u64_floor _ n Hn Hb).
    pose proof (imap_yields (fun t_i => ncos (nofZ 2 * npi * (f0 + (nsub f1 f0 / (1 / cr)) * t_i / nofZ 2) * t_i)%num) _ _
      (linspace_tab (IZR 0) (1 / cr) n)) as Y. rewrite tab_map in Y.
    refine (eq_ind _ (fun x => yields _ x) Y _ _). apply tab_ext. intros i Hi.
    unfold nofnat. cbn [nadd nmul ndiv nsub nofZ ncos npi NumR]. rewrite <- !INR_IZR_INZ.
    assert (0 < INR n) by (apply lt_0_INR; lia).
    unfold phase. f_equal. field. lra. }
  exists (tab n (fun i => cos (phase (INR i / (INR n * cr))))), phase.
  split; [exact Y|]. split; [apply tab_length|]. split; [|split; [|split; [|split]]].
  - intros i Hi. rewrite tab_nth_error. apply Nat.ltb_lt in Hi. rewrite Hi. reflexivity.
  - unfold phase. ring.
  - intros t. apply (quad_deriv (2 * PI * f0) (PI * (f1 - f0) * cr)); [intros x; unfold phase; field|field].
  - intros x Hx. unfold tab in Hx. apply in_map_iff in Hx. destruct Hx as (i & <- & _). apply COS_bound.
  - intros H1. rewrite tab_nth_error. destruct (Nat.ltb_spec 0 n); [|lia]. f_equal.
    replace (INR 0 / (INR n * cr)) with 0 by (cbn [INR]; unfold Rdiv; ring).
    replace (phase 0) with 0 by (unfold phase; ring). apply cos_0.
Qed.

(** Over any arithmetic the down-chirp is the up-chirp, sample for sample. *)
Theorem C41_downchirp_is_upchirp :
  forall (T : Type) (N : Num T) (chirp_rate center_freq bandwidth : T) (sample_rate : nat) l,
    yields (linear_upchirp_centered chirp_rate center_freq bandwidth sample_rate) l <->
    yields (linear_downchirp_centered chirp_rate center_freq bandwidth sample_rate) l.
Proof. intros. reflexivity. Qed.

(** So the down-chirp goes up: from bandwidth/2 below the centre to bandwidth/2 above. *)
Theorem C41_downchirp_goes_up :
  forall (chirp_rate center_freq bandwidth : R) (sample_rate n : nat),
    0 < chirp_rate -> 0 < bandwidth -> INR n <= INR sample_rate / chirp_rate < INR n + 1 -> (Z.of_nat n < 2 ^ 64)%Z ->
    exists (l : list R) (phase freq : R -> R),
      yields (linear_downchirp_centered chirp_rate center_freq bandwidth sample_rate) l /\
      (forall i, (i < n)%nat -> nth_error l i = Some (cos (phase (INR i / (INR n * chirp_rate))))) /\
      (forall t, derivable_pt_lim phase t (2 * PI * freq t)) /\
      freq 0 = center_freq - bandwidth / 2 /\ freq (1 / chirp_rate) = center_freq + bandwidth / 2 /\
      (forall s t, s < t -> freq s < freq t).
Proof.
  intros cr c bw sr n Hc Hb Hn H64.
  destruct (C41_linear_chirp cr sr n (c - bw / 2) (c + bw / 2) Hc Hn H64) as (l & phase & Y & _ & S & _ & D & _).
  exists l, phase, (fun t => (c - bw / 2) + ((c + bw / 2) - (c - bw / 2)) * (t * cr)).
  split; [exact Y|]. split; [exact S|]. split; [exact D|].
  split; [lra|]. split; [field; lra|]. intros s t Hst. assert (s * cr < t * cr) by (apply Rmult_lt_compat_r; lra). nra.
Qed.

(** FH-CSS: one chirp of sample_rate / symbol_rate samples per bit, sample j of each at time
    j / sample_rate, rising across the hop's band for a one and falling for a zero. *)
Theorem C41_fh_css_symbols :
  forall (rng : Rng) (message : Iter bool) m (sample_rate symbol_rate : nat) (low high : R) (num_freqs : nat) tx,
    let sps := (sample_rate / symbol_rate)%nat in
    let half_band := (high - low) / INR num_freqs / 2 in
    yields message m -> tx_fh_css_signal rng message sample_rate symbol_rate low high num_freqs = Ret tx ->
    (2 <= num_freqs)%nat -> (1 <= symbol_rate <= sample_rate)%nat -> (Z.of_nat sample_rate < 2 ^ 64)%Z ->
    exists w hops, yields tx w /\ length w = (length m * sps)%nat /\
      (forall e, Permutation (map (fun i => hops (e * num_freqs + i)%nat) (seq 0 num_freqs))
                   (map (fun i => low + (high - low) * (INR i / INR num_freqs)) (seq 0 num_freqs))) /\
      forall k b j, nth_error m k = Some b -> (j < sps)%nat ->
        let s := if b then 1 else -1 in
        let t := INR j / INR sample_rate in
        nth_error w (k * sps + j) =
          Some (cos (2 * PI * ((hops k - s * half_band) * t + s * half_band * INR symbol_rate * t * t))).
Proof.
  intros rng message m sr sy low high n tx sps hb Hm Htx Hn Hr H64.
  assert (Hs : (1 <= sps)%nat) by (apply Nat.div_le_lower_bound; lia).
  assert (HyR : 0 < INR sy) by (apply lt_0_INR; lia). assert (HsR : 0 < INR sr) by (apply lt_0_INR; lia).
  assert (HnR : 0 < INR n) by (apply lt_0_INR; lia).
  unfold tx_fh_css_signal, assert_then in Htx. destruct (nyquist_ok sr high); [|discriminate].
  destruct (is_int _) eqn:Hi; [|discriminate].
  assert (Ei : INR sr / INR sy = INR sps).
  { unfold is_int, nofnat in Hi. cbn [neqb nto_u64 ndiv nofZ NumR] in Hi. rewrite <- !INR_IZR_INZ in Hi.
    destruct (Req_EM_T _ _) as [E|]; [|discriminate].
    assert (Q : 0 <= INR sr / INR sy) by (apply Rmult_le_pos; [lra|left; apply Rinv_0_lt_compat; lra]).
    set (z := clamp_u64 (Ztrunc (INR sr / INR sy))) in *.
    assert (Hz : (0 <= z)%Z) by (unfold z, clamp_u64; lia).
    assert (Ez : sr = (Z.to_nat z * sy)%nat).
    { apply INR_eq. rewrite mult_INR. rewrite (INR_IZR_INZ (Z.to_nat z)), Z2Nat.id by exact Hz. rewrite <- E. field. lra. }
    unfold sps. rewrite Ez, Nat.div_mul by lia. rewrite mult_INR. field. lra. }
  assert (Eu : Z.to_nat (nto_u64 (ndiv (nofnat sr) (nofnat sy) : R)) = sps).
  { unfold nofnat. cbn [ndiv nofZ NumR]. rewrite <- !INR_IZR_INZ. apply to_u64_floor; [lra|].
    assert (sps <= sr)%nat by (apply Nat.div_le_upper_bound; nia). lia. }
  destruct (hops_stream rng low high n SEED Hn) as (it & f & En & St & _ & P). rewrite En in Htx. cbn [bind] in Htx.
  apply Ret_inj in Htx. rewrite <- Htx, Eu. clear Htx tx.
  pose (wave := fun p : bool * R => tab sps (fun j =>
    let s := if fst p then 1 else -1 in let t := INR j / INR sr in
    cos (2 * PI * ((snd p - s * hb) * t + s * hb * INR sy * t * t)))).
  assert (W : forall p, length (wave p) = sps) by (intros; apply tab_length).
  exists (flat_map wave (zip_stream m f)), f.
  assert (L : forall l : list (bool * R), length (flat_map wave l) = (length l * sps)%nat).
  { induction l as [|p l IH]; [reflexivity|]. cbn [flat_map length]. rewrite app_length, IH, W. lia. }
  split; [|split; [|split]].
  - apply iflat_fn_yields; [apply izip_stream_yields; assumption|]. intros [b h] _.
    split; [|intros E; pose proof (W (b, h)) as Wl; rewrite E in Wl; cbn in Wl; lia].
    assert (C : forall f0 f1, yields (linear_chirp (nofnat sy) sr f0 f1)
       (tab sps (fun j => cos (2 * PI * (f0 + (f1 - f0) * INR sy * (INR j / INR sr) / 2) * (INR j / INR sr))))).
    { intros f0 f1. unfold linear_chirp. rewrite Eu.
      pose proof (imap_yields (fun t_i => ncos (nofZ 2 * npi * (f0 + (nsub f1 f0 / (nofZ 1 / nofnat sy)) * t_i / nofZ 2) * t_i)%num) _ _
        (linspace_tab (nofZ 0) (nofZ 1 / nofnat sy)%num sps)) as Y. rewrite tab_map in Y.
      refine (eq_ind _ (fun x => yields _ x) Y _ _). apply tab_ext. intros i _.
      unfold nofnat. cbn [nadd nmul ndiv nsub nofZ ncos npi NumR]. rewrite <- !INR_IZR_INZ.
      assert (Et : 0 + (1 / INR sy - 0) / INR sps * INR i = INR i / INR sr).
      { rewrite <- Ei. field. lra. }
      rewrite Et. f_equal. field. lra. }
    cbv beta iota.
    assert (Hb : ndiv (ndiv (nsub high low) (nofnat n)) (nofZ 2) = hb).
    { unfold nofnat, hb. cbn [ndiv nsub nofZ NumR]. rewrite <- INR_IZR_INZ. reflexivity. }
    rewrite Hb. cbn [nadd nsub NumR]. change (nofZ 2 : R) with 2.
    destruct b; cbv beta iota.
    + rewrite (collect_yields _ _ (sps + 1) (C (h - hb) (h + hb))) by (rewrite tab_length; lia). cbn [bind].
      f_equal. f_equal. unfold wave. cbn [fst snd]. apply tab_ext. intros j _. cbv zeta. f_equal. field. lra.
    + rewrite (collect_yields _ _ (sps + 1) (C (h + hb) (h - hb))) by (rewrite tab_length; lia). cbn [bind].
      f_equal. f_equal. unfold wave. cbn [fst snd]. apply tab_ext. intros j _. cbv zeta. f_equal. field. lra.
  - rewrite L, zip_stream_length. reflexivity.
  - intros e. replace (map (fun i => low + (high - low) * (INR i / INR n)) (seq 0 n)) with (grid low high n); [apply P|].
    unfold grid, tab. apply map_ext. intros i. unfold nofnat. cbn [nadd nmul ndiv nsub nofZ NumR]. rewrite <- !INR_IZR_INZ. field. lra.
  - intros k b j Hk Hj s t.
    assert (Hz : nth_error (zip_stream m f) k = Some (b, f k)) by (rewrite zip_stream_nth, Hk; reflexivity).
    assert (G : forall l k p j, nth_error l k = Some p -> (j < sps)%nat -> nth_error (flat_map wave l) (k * sps + j) = nth_error (wave p) j).
    { clear - W. induction l as [|q l IH]; intros [|k] p j Hp Hj; try discriminate; cbn [flat_map].
      - injection Hp as ->. cbn [Nat.mul Nat.add]. apply nth_error_app1. rewrite W. exact Hj.
      - rewrite nth_error_app2 by (rewrite W; nia). rewrite W. cbn [nth_error] in Hp. rewrite <- (IH _ _ _ Hp Hj). f_equal. nia. }
    rewrite (G _ _ _ _ Hz Hj). unfold wave. rewrite tab_nth_error. apply Nat.ltb_lt in Hj. rewrite Hj. reflexivity.
Qed.

Example C41_example : exists l, yields (linear_downchirp_centered (1 : R) 10 4 2) l /\ length l = 2%nat /\ nth_error l 0 = Some 1.
Proof.
  destruct (C41_linear_chirp 1 2 2 (10 - 4 / 2) (10 + 4 / 2)) as (l & ph & Y & L & _ & _ & _ & _ & F); [lra|cbn [INR]; lra|reflexivity|].
  exists l. split; [exact Y|]. split; [exact L|]. apply F. lia.
Qed.

Lemma fh_checks_R sr sy (h : R) : (1 <= sy)%nat -> (sr mod sy = 0)%nat -> (Z.of_nat sr < 2 ^ 64)%Z -> h < INR (sr / 2) + 1 ->
  nyquist_ok sr h = true /\ is_int (ndiv (nofnat sr) (nofnat sy) : R) = true.
Proof.
  intros Hy Hm Hs Hh. split.
  - apply Z.leb_le. cbn [nto_u64 NumR]. unfold clamp_u64, u64_max.
    destruct (Rle_lt_dec 0 h) as [P|P].
    + rewrite Ztrunc_floor by exact P. assert (Zfloor h < Z.of_nat (sr / 2) + 1)%Z; [|lia].
      apply lt_IZR. rewrite plus_IZR, <- INR_IZR_INZ. pose proof (Zfloor_lb h). lra.
    + rewrite Ztrunc_ceil by lra. assert (Zceil h <= 0)%Z by (apply Zceil_glb; cbn; lra). lia.
  - assert (E : (sr = sr / sy * sy)%nat) by (pose proof (Nat.div_mod sr sy ltac:(lia)); lia).
    assert (0 < INR sy) by (apply lt_0_INR; lia).
    unfold is_int, nofnat. cbn [ndiv nofZ NumR nto_u64 neqb]. rewrite <- !INR_IZR_INZ.
    replace (INR sr / INR sy) with (IZR (Z.of_nat (sr / sy))).
    2:{ rewrite <- INR_IZR_INZ. apply Rmult_eq_reg_r with (INR sy); [|lra]. rewrite <- mult_INR, <- E. field. lra. }
    rewrite Ztrunc_IZR. assert (sr / sy <= sr)%nat by (apply Nat.div_le_upper_bound; nia).
    replace (clamp_u64 (Z.of_nat (sr / sy))) with (Z.of_nat (sr / sy)) by (unfold clamp_u64, u64_max; lia).
    destruct (Req_EM_T _ _) as [|N]; [reflexivity|]. contradiction.
Qed.

Example C41_css_example : exists tx, tx_fh_css_signal toy_rng (of_list [true; false]) 8 2 (1 : R) 3 2 = Ret tx.
Proof.
  destruct (fh_checks_R 8 2 3 ltac:(lia) eq_refl ltac:(lia)) as (H1 & H2); [cbn; lra|].
  unfold tx_fh_css_signal, assert_then. rewrite H1, H2. rewrite HopTable_new_eq. eexists. reflexivity.
Qed.
Example C40_exact_example : exists tx rx, tx_fh_bpsk_signal toy_rng (of_list [true; false]) (-2 : R) 3 5 8 2 = Ret tx /\
  rx_fh_bpsk_signal toy_rng tx (-2) 3 5 8 2 = Ret rx /\ yields rx [true; false].
Proof.
  destruct (fh_checks_R 8 2 3 ltac:(lia) eq_refl ltac:(lia)) as (H1 & H2); [cbn; lra|].
  assert (Et : exists tx, tx_fh_bpsk_signal toy_rng (of_list [true; false]) (-2 : R) 3 5 8 2 = Ret tx).
  { unfold tx_fh_bpsk_signal, assert_then. rewrite H1, H2, HopTable_new_eq. eexists. reflexivity. }
  destruct Et as (tx & Et).
  destruct (C40_fh_bpsk_exact toy_rng _ _ _ _ _ _ _ tx (of_list_yields [true; false]) Et ltac:(lra) ltac:(lia) ltac:(lia)) as (rx & _ & Er & _ & _ & Yr).
  exists tx, rx. auto.
Qed.

(** ** C56 *)

(** tx_fh_bpsk_signal_old: its clock moves on by one sample, not by one symbol, from a symbol to the
    next: sample j of symbol k is taken at time (k + j) / sample_rate. *)
Theorem C56_old_fh_bpsk_clock :
  forall (rng : Rng) (message : Iter bool) m (low high : R) (num_freqs sample_rate symbol_rate : nat) (fc : R) tx,
    let sps := (sample_rate / symbol_rate)%nat in
    yields message m -> tx_fh_bpsk_signal_old rng message low high num_freqs sample_rate symbol_rate fc = Ret tx ->
    (2 <= num_freqs)%nat -> (1 <= symbol_rate <= sample_rate)%nat ->
    exists w hops, yields tx w /\ length w = (length m * sps)%nat /\
      (forall e, Permutation (map (fun i => hops (e * num_freqs + i)%nat) (seq 0 num_freqs))
                   (map (fun i => low + (high - low) * (INR i / INR num_freqs)) (seq 0 num_freqs))) /\
      forall k b j, nth_error m k = Some b -> (j < sps)%nat ->
        let t := INR (k + j) / INR sample_rate in
        nth_error w (k * sps + j) =
          Some ((if b then 1 else -1) * cos (2 * PI * fc * t) * cos (2 * PI * hops k * t)).
Proof.
  intros rng message m low high n sr sy fc tx sps Hm Htx Hn Hr.
  assert (Hs : (1 <= sps)%nat) by (apply Nat.div_le_lower_bound; lia).
  assert (HsR : 0 < INR sr) by (apply lt_0_INR; lia). assert (HnR : 0 < INR n) by (apply lt_0_INR; lia).
  unfold tx_fh_bpsk_signal_old, assert_then in Htx. rewrite usize_div_intro in Htx by lia. cbn [bind] in Htx.
  destruct (nyquist_ok sr fc); [|discriminate]. destruct (is_int _); [|discriminate].
  destruct (hops_stream rng low high n SEED Hn) as (it & f & En & St & _ & P). rewrite En in Htx. cbn [bind] in Htx.
  apply Ret_inj in Htx. rewrite <- Htx. fold sps. clear Htx tx.
  set (F := fun '(idx, (msg_val, hop_freq)) =>
             let time0 := ndiv (nofnat idx) (nofnat sr) in
             map (fun idx =>
                    let time := nadd time0 (ndiv (nofnat idx) (nofnat sr)) in
                    let bpsk_val := nmul msg_val (ncos (nmul (nmul (nmul (nofZ 2) npi) fc) time)) in
                    let freq_hop := ncos (nmul (nmul (nmul (nofZ 2) npi) hop_freq) time) in
                    nmul bpsk_val freq_hop)
                 (seq 0 sps)) in *.
  assert (W : forall p, length (F p) = sps) by (intros (i & (v & h)); unfold F; rewrite map_length, seq_length; reflexivity).
  pose proof (ienum_yields _ _ (izip_stream_yields _ _ _ _ (imap_yields bit_to_nrz _ _ Hm) St)) as Y.
  assert (Hz : forall k, nth_error (index_from 0 (zip_stream (map bit_to_nrz m) f)) k =
                 option_map (fun b : bool => (k, ((if b then 1 else -1), f k))) (nth_error m k)).
  { intros k. unfold index_from. rewrite nth_error_combine, zip_stream_nth, nth_error_map.
    assert (L : length (zip_stream (map bit_to_nrz m) f) = length m) by (rewrite zip_stream_length, map_length; reflexivity).
    destruct (nth_error m k) as [b|] eqn:Ek; cbn [option_map].
    - assert (k < length m)%nat by (apply nth_error_Some; congruence).
      rewrite (nth_error_nth' _ 0%nat) by (rewrite seq_length; lia). rewrite seq_nth by lia. rewrite nrz_R. reflexivity.
    - destruct (nth_error (seq 0 _) k); reflexivity. }
  exists (flat_map F (index_from 0 (zip_stream (map bit_to_nrz m) f))), f.
  split; [|split; [|split]].
  - apply iflat_pure_yields; [exact Y|]. intros p _ E. pose proof (W p) as Wp. rewrite E in Wp. cbn in Wp. lia.
  - assert (L : forall l, length (flat_map F l) = (length l * sps)%nat).
    { induction l as [|p l IH]; [reflexivity|]. cbn [flat_map length]. rewrite app_length, IH, W. lia. }
    rewrite L. unfold index_from. rewrite combine_length, seq_length, zip_stream_length, map_length, Nat.min_id. reflexivity.
  - intros e. replace (map (fun i => low + (high - low) * (INR i / INR n)) (seq 0 n)) with (grid low high n); [apply P|].
    unfold grid, tab. apply map_ext. intros i. unfold nofnat. cbn [nadd nmul ndiv nsub nofZ NumR]. rewrite <- !INR_IZR_INZ. field. lra.
  - intros k b j Hk Hj t. specialize (Hz k). rewrite Hk in Hz. cbn [option_map] in Hz.
    assert (G : forall l k p j, nth_error l k = Some p -> (j < sps)%nat -> nth_error (flat_map F l) (k * sps + j) = nth_error (F p) j).
    { clear - W. induction l as [|q l IH]; intros [|k] p j Hp Hj; try discriminate; cbn [flat_map].
      - injection Hp as ->. cbn [Nat.mul Nat.add]. apply nth_error_app1. rewrite W. exact Hj.
      - rewrite nth_error_app2 by (rewrite W; nia). rewrite W. cbn [nth_error] in Hp. rewrite <- (IH _ _ _ Hp Hj). f_equal. nia. }
    rewrite (G _ _ _ _ Hz Hj). unfold F. rewrite nth_error_map, (nth_error_nth' _ 0%nat) by (rewrite seq_length; lia).
    rewrite seq_nth by lia. cbn [option_map]. unfold nofnat. cbn [nadd nmul ndiv nofZ ncos npi NumR]. rewrite <- !INR_IZR_INZ.
    assert (Et : INR k / INR sr + INR (0 + j) / INR sr = t) by (unfold t; rewrite !plus_INR; cbn [INR]; field; lra).
    rewrite Et. reflexivity.
Qed.

(** With a carrier at a quarter of the sample rate, symbol 1 begins at a zero crossing of the carrier, not at a peak. *)
Example C56_example : exists tx w, tx_fh_bpsk_signal_old toy_rng (of_list [true; true]) (0 : R) 0 2 4 1 1 = Ret tx /\
  yields tx w /\ nth_error w 4 = Some 0.
Proof.
  destruct (fh_checks_R 4 1 1 ltac:(lia) eq_refl ltac:(lia)) as (H1 & H2); [cbn; lra|].
  assert (Et : exists tx, tx_fh_bpsk_signal_old toy_rng (of_list [true; true]) (0 : R) 0 2 4 1 1 = Ret tx).
  { unfold tx_fh_bpsk_signal_old, assert_then. rewrite usize_div_intro by lia. cbn [bind]. rewrite H1, H2, HopTable_new_eq. eexists. reflexivity. }
  destruct Et as (tx & Et). exists tx.
  destruct (C56_old_fh_bpsk_clock toy_rng _ _ _ _ _ _ _ _ tx (of_list_yields [true; true]) Et ltac:(lia) ltac:(lia)) as (w & hops & Y & _ & P & S).
  exists w. split; [exact Et|]. split; [exact Y|]. specialize (S 1%nat true 0%nat eq_refl ltac:(cbn; lia)).
  change (1 * (4 / 1) + 0)%nat with 4%nat in S. rewrite S. f_equal.
  replace (2 * PI * 1 * (INR (1 + 0) / INR 4)) with (PI / 2) by (cbn; lra). rewrite cos_PI2. ring.
Qed.

(** ** Axioms used *)
Print Assumptions C39_hop_epochs.
Print Assumptions C39_hop_exactly_once.
Print Assumptions C39_hop_deterministic.
Print Assumptions C39_hop_panics.
Print Assumptions C39_every_order.
Print Assumptions C40_fh_bpsk_round_trip_grid.
Print Assumptions C40_fh_bpsk_round_trip.
Print Assumptions C40_fh_bpsk_exact.
Print Assumptions C40_low_above_high_panics.
Print Assumptions C41_linear_chirp.
Print Assumptions C41_downchirp_is_upchirp.
Print Assumptions C41_downchirp_goes_up.
Print Assumptions C41_fh_css_symbols.
Print Assumptions C56_old_fh_bpsk_clock.
