(** Properties C28-C32: BPSK (src/bpsk.rs) and QPSK (src/qpsk.rs). *)
From Coq Require Import List Arith ZArith Reals Bool Lia Lra Psatz.
From Flocq Require Import Core BinarySingleNaN.
From Verif Require Import Base IterTheory IterModel IterProofs Spec SpecR Tab Num F64Lib LibModel LibFloat LibReal
  ChaosModel ChaosProofs ChaosMod PskModel PskChain PskFloat RSums PskReal.
Import ListNotations.
Local Open Scope R_scope.

Lemma nleb_R (x y : R) : nleb x y = true <-> x <= y.
Proof. cbn. destruct (Rle_dec x y); split; auto; discriminate. Qed.
Lemma nltb_R (x y : R) : nltb x y = true <-> x < y.
Proof. cbn. destruct (Rlt_dec x y); split; auto; discriminate. Qed.

(** ** C28 *)

Theorem C28_baseband_bpsk_round_trip :
  forall (libm : Libm) (message : Iter bool) m, let num := NumF libm in
    yields message m -> yields (rx_baseband_bpsk_signal (tx_baseband_bpsk_signal message)) m.
Proof.
  intros libm message m num Hm.
  pose proof (imap_yields (fun sample : cpx F64 => nleb (nofZ 0) (re sample)) _ _
    (imap_yields (fun bit : bool => if bit then Cpx (nofZ 1) (nofZ 0) else Cpx (nopp (nofZ 1)) (nofZ 0)) _ _ Hm)) as Y.
  rewrite map_map in Y. refine (eq_ind _ (fun x => yields _ x) Y _ _).
  rewrite <- (map_id m) at 2. apply map_ext. intros []; reflexivity.
Qed.

(** Exactly which disturbances the decision survives: every real part that is not NaN, infinities included. *)
Theorem C28_baseband_bpsk_noise_exact :
  forall (libm : Libm) (message : Iter bool) m (noise : list (cpx F64)), let num := NumF libm in
    yields message m -> length noise = length m -> (forall z, In z noise -> is_nan (re z) = false) ->
    exists out,
      yields (rx_baseband_bpsk_signal
                (imap (fun '(s, z) => cadd s z) (izip (tx_baseband_bpsk_signal message) (of_list noise)))) out /\
      length out = length m /\
      forall i b z, nth_error m i = Some b -> nth_error noise i = Some z ->
        (nth_error out i = Some b <->
         if b then Bleb (Bopp (f64_ofZ 1)) (re z) = true else Bleb (f64_ofZ 1) (re z) = false).
Proof.
  intros libm message m noise num Hm HL Hn.
  pose proof (imap_yields (fun sample : cpx F64 => nleb (nofZ 0) (re sample)) _ _
    (imap_yields (fun '(s, z) => cadd s z) _ _
      (izip_yields _ _ _ _ (imap_yields (fun bit : bool => if bit then Cpx (nofZ 1) (nofZ 0) else Cpx (nopp (nofZ 1)) (nofZ 0)) _ _ Hm)
        (of_list_yields noise)))) as Y.
  eexists. split; [exact Y|]. split.
  { rewrite !map_length, combine_length, map_length. lia. }
  intros i b z Hb Hz. rewrite !nth_error_map.
  assert (E : nth_error (combine (map (fun bit : bool => if bit then Cpx (nofZ 1) (nofZ 0) else Cpx (nopp (nofZ 1)) (nofZ 0)) m) noise) i
              = Some ((if b then Cpx (nofZ 1) (nofZ 0) else Cpx (nopp (nofZ 1)) (nofZ 0)), z)).
  { rewrite nth_error_combine, nth_error_map, Hb, Hz. reflexivity. }
  rewrite E. cbn [option_map]. clear E.
  assert (N : is_nan (re z) = false) by (apply Hn; eapply nth_error_In; exact Hz).
  destruct val_1 as [V1 F1].
  assert (Fm : fin (Bopp (f64_ofZ 1)) = true) by (unfold fin; rewrite is_finite_Bopp; exact F1).
  destruct b.
  - change (Some (Bleb (f64_ofZ 0) (Bplus mode_NE (f64_ofZ 1) (re z))) = Some true <-> Bleb (Bopp (f64_ofZ 1)) (re z) = true).
    pose proof (add_sign (f64_ofZ 1) (re z) F1 N) as A. rewrite <- A. split; congruence.
  - change (Some (Bleb (f64_ofZ 0) (Bplus mode_NE (Bopp (f64_ofZ 1)) (re z))) = Some false <-> Bleb (f64_ofZ 1) (re z) = false).
    pose proof (add_sign (Bopp (f64_ofZ 1)) (re z) Fm N) as A. rewrite Bopp_involutive in A.
    destruct (Bleb (f64_ofZ 0) (Bplus mode_NE (Bopp (f64_ofZ 1)) (re z))), (Bleb (f64_ofZ 1) (re z)); split; intros; try reflexivity; try discriminate.
    + destruct A as [A _]. discriminate A. reflexivity.
    + destruct A as [_ A]. discriminate A. reflexivity.
Qed.

Theorem C28_baseband_bpsk_noise :
  forall (libm : Libm) (message : Iter bool) m (noise : list (cpx F64)), let num := NumF libm in
    yields message m -> length noise = length m ->
    (forall z, In z noise -> is_finite (re z) = true /\ Rabs (B2R (re z)) < 1) ->
    yields (rx_baseband_bpsk_signal
              (imap (fun '(s, z) => cadd s z) (izip (tx_baseband_bpsk_signal message) (of_list noise)))) m.
Proof.
  intros libm message m noise num Hm HL Hn.
  destruct (C28_baseband_bpsk_noise_exact libm message m noise Hm HL) as (out & Y & L & E).
  { intros z Hz. destruct (Hn z Hz) as [F _]. destruct (re z); try discriminate; reflexivity. }
  replace m with out; [exact Y|].
  apply nth_error_inj. intros i. destruct (nth_error m i) as [b|] eqn:Eb.
  - destruct (nth_error noise i) as [z|] eqn:Ez.
    2:{ apply nth_error_None in Ez. assert (i < length m)%nat by (apply nth_error_Some; congruence). lia. }
    apply (E i b z Eb Ez). destruct (Hn z (nth_error_In _ _ Ez)) as [F V]. apply Rabs_def2 in V.
    destruct val_1 as [V1 F1].
    assert (Fm : fin (Bopp (f64_ofZ 1)) = true) by (unfold fin; rewrite is_finite_Bopp; exact F1).
    destruct b.
    + apply leb_val; [exact Fm|exact F|]. unfold val at 1. rewrite B2R_Bopp. fold (val (f64_ofZ 1)). rewrite V1.
      unfold val. lra.
    + destruct (Bleb (f64_ofZ 1) (re z)) eqn:EE; [|reflexivity]. apply leb_val in EE; [|exact F1|exact F].
      rewrite V1 in EE. unfold val in EE. lra.
  - apply nth_error_None. apply nth_error_None in Eb. lia.
Qed.

(** A concrete case: noise 1/2 on a true and a false bit, and noise 1 flips a false bit. *)
Example C28_noise_case (libm : Libm) :
  let num := NumF libm in
  forall z, In z [Cpx half (f64_ofZ 7); Cpx half (f64_ofZ 0)] -> is_finite (re z) = true /\ Rabs (B2R (re z)) < 1.
Proof.
  cbv zeta. intros z Hz.
  assert (E : re z = half) by (destruct Hz as [<-|[<-|[]]]; reflexivity). rewrite E.
  destruct (lit_val 1 2 ltac:(lia) ltac:(lia)) as [F V]. split; [exact F|].
  change (B2R half) with (val (Bdiv mode_NE (f64_ofZ 1) (f64_ofZ 2))). rewrite V.
  rewrite rd_id.
  - rewrite Rabs_pos_eq; lra.
  - replace (IZR 1 / IZR 2) with (bpow radix2 (-1)) by (cbn; lra). apply fmt_bpow. lia.
Qed.
Example C28_noise_flip (libm : Libm) : let num := NumF libm in
  collect 5 (rx_baseband_bpsk_signal
              (imap (fun '(s, z) => cadd s z) (izip (tx_baseband_bpsk_signal (of_list [true; false; false]))
                 (of_list [Cpx half half; Cpx half half; Cpx (f64_ofZ 1) (f64_ofZ 0)])))) = Ret [true; false; true].
Proof. vm_compute. reflexivity. Qed.

(** ** C29, C30 *)

Lemma usize_div_ok sr sy n : usize_div sr sy = Ret n -> sy <> 0%nat /\ n = (sr / sy)%nat.
Proof. unfold usize_div. destruct (Nat.eqb_spec sy 0); [discriminate|]. intros E. injection E as <-. auto. Qed.
Lemma usize_div_intro sr sy : sy <> 0%nat -> usize_div sr sy = Ret (sr / sy)%nat.
Proof. intros H. unfold usize_div. destruct (Nat.eqb_spec sy 0); [contradiction|reflexivity]. Qed.

Lemma tx_bpsk_inv {T} `{Num T} (message : Iter bool) sr sy (fc : T) tx :
  tx_bpsk_signal message sr sy fc = Ret tx ->
  sy <> 0%nat /\ nyquist_ok sr fc = true /\ is_int (ndiv (nofnat sr) (nofnat sy)) = true /\
  ((1 <= sr / sy)%nat -> forall m, yields message m -> yields tx (bpsk_wave sr fc (sr / sy) m)).
Proof.
  unfold tx_bpsk_signal. intros E.
  destruct (usize_div sr sy) as [n| |] eqn:D; try discriminate. apply usize_div_ok in D. destruct D as [Hy ->].
  cbn [bind] in E. unfold assert_then in E.
  destruct (nyquist_ok sr fc); [|discriminate]. destruct (is_int _); [|discriminate].
  injection E as <-. repeat split; auto. intros Hn m Hm. apply tx_bpsk_yields; assumption.
Qed.
Lemma rx_bpsk_intro {T} `{Num T} (signal : Iter T) sr sy (fc : T) :
  sy <> 0%nat -> (1 <= sr / sy)%nat ->
  exists rx, rx_bpsk_signal signal sr sy fc = Ret rx /\
    (forall k g, yields signal (tab (k * (sr / sy)) g) ->
       yields rx (tab k (fun s => nltb (nofZ 0) (corr (sr / sy) s (fun i => nmul (g i) (ccos sr fc i)))))) /\
    (forall l d, yields signal l ->
       yields rx (tab (length l / (sr / sy)) (fun s => nltb (nofZ 0) (corr (sr / sy) s (fun i => nmul (nth i l d) (ccos sr fc i)))))).
Proof.
  intros Hy Hn. unfold rx_bpsk_signal. rewrite usize_div_intro by exact Hy. cbn [bind].
  eexists. split; [reflexivity|]. split.
  - intros k g Hs. apply rx_bpsk_yields; assumption.
  - intros l d Hs. apply rx_bpsk_any; assumption.
Qed.

(** Sending a message and receiving it: bit k becomes a decision on that bit alone. *)
Definition bpsk_decide {T} `{Num T} (sr : nat) (fc : T) (n k : nat) (b : bool) : bool :=
  nltb (nofZ 0) (corr n k (fun i => nmul (nmul (bit_to_nrz b) (ccos sr fc i)) (ccos sr fc i))).

Lemma bpsk_link {T} `{Num T} (message : Iter bool) m sr sy (fc : T) tx :
  yields message m -> tx_bpsk_signal message sr sy fc = Ret tx -> (sy <= sr)%nat ->
  exists rx, rx_bpsk_signal tx sr sy fc = Ret rx /\ yields tx (bpsk_wave sr fc (sr / sy) m) /\
    yields rx (tab (length m) (fun k => bpsk_decide sr fc (sr / sy) k (nth k m false))).
Proof.
  intros Hm Htx Hle. destruct (tx_bpsk_inv _ _ _ _ _ Htx) as (Hy & _ & _ & Y).
  assert (Hn : (1 <= sr / sy)%nat) by (apply Nat.div_le_lower_bound; lia).
  specialize (Y Hn m Hm). destruct (rx_bpsk_intro tx sr sy fc Hy Hn) as (rx & Er & Yr & _).
  exists rx. split; [exact Er|]. split; [exact Y|].
  refine (eq_ind _ (fun x => yields _ x) (Yr _ _ Y) _ _).
  apply tab_ext. intros k Hk. unfold bpsk_decide. f_equal. apply corr_ext. intros j Hj.
  rewrite block_div by exact Hj. reflexivity.
Qed.

Theorem C29_bpsk_round_trip_f64 :
  forall (libm : Libm) (message : Iter bool) m (sample_rate symbol_rate : nat) (fc : F64) tx,
    let num := NumF libm in
    let carrier i := libm_cos libm (nofZ 2 * npi * fc * (nofnat i / nofnat sample_rate))%num in
    let sps := (sample_rate / symbol_rate)%nat in
    yields message m -> tx_bpsk_signal message sample_rate symbol_rate fc = Ret tx ->
    (symbol_rate <= sample_rate)%nat ->
    (forall i, (i < length m * sps)%nat -> is_nan (carrier i) = false) ->
    (forall k, (k < length m)%nat -> exists j, (j < sps)%nat /\
       Bltb (f64_ofZ 0) (Bmult mode_NE (carrier (k * sps + j)%nat) (carrier (k * sps + j)%nat)) = true) ->
    exists rx w, rx_bpsk_signal tx sample_rate symbol_rate fc = Ret rx /\
      yields tx w /\ length w = (length m * sps)%nat /\ yields rx m.
Proof.
  intros libm message m sr sy fc tx num carrier sps Hm Htx Hle Hnan Hsq.
  destruct (bpsk_link message m sr sy fc tx Hm Htx Hle) as (rx & Er & Yt & Yr).
  exists rx. eexists. split; [exact Er|]. split; [exact Yt|]. split; [unfold bpsk_wave; rewrite tab_length; reflexivity|].
  rewrite tab_nth_eq in Yr; [exact Yr|]. intros k b Hb. rewrite (nth_error_nth _ _ false Hb).
  assert (Hk : (k < length m)%nat) by (apply nth_error_Some; congruence).
  unfold bpsk_decide, corr. fold sps.
  change (@nadd F64 num) with (@Bplus 53 1024 prec53 emax1024 mode_NE). change (@nltb F64 num) with (@Bltb 53 1024).
  change (@nofZ F64 num) with f64_ofZ.
  assert (Hin : forall j, (j < sps)%nat -> (k * sps + j < length m * sps)%nat) by (intros; nia).
  destruct b.
  - apply fold_nonneg; [reflexivity| |right].
    + apply Forall_forall. intros x Hx. unfold tab in Hx. apply in_map_iff in Hx. destruct Hx as (j & <- & Hj).
      apply in_seq in Hj. change (@bit_to_nrz F64 num true) with (f64_ofZ 1).
      change (@nmul F64 num) with (@Bmult 53 1024 prec53 emax1024 mode_NE). rewrite one_mul.
      apply sq_nonneg. apply Hnan. apply Hin. lia.
    + destruct (Hsq k Hk) as (j & Hj & P). apply Exists_exists. eexists. split.
      * unfold tab. apply in_map. apply (proj2 (in_seq sps 0 j)). lia.
      * change (@bit_to_nrz F64 num true) with (f64_ofZ 1).
        change (@nmul F64 num) with (@Bmult 53 1024 prec53 emax1024 mode_NE). rewrite one_mul. exact P.
  - apply nonpos_not_pos. apply fold_nonpos; [reflexivity|].
    apply Forall_forall. intros x Hx. unfold tab in Hx. apply in_map_iff in Hx. destruct Hx as (j & <- & Hj).
    apply in_seq in Hj. change (@bit_to_nrz F64 num false) with (Bopp (f64_ofZ 1)).
    change (@nmul F64 num) with (@Bmult 53 1024 prec53 emax1024 mode_NE). rewrite mul_m1.
    apply opp_sq_nonpos. apply Hnan. apply Hin. lia.
Qed.

(** Exact arithmetic: which bits are lost. *)
Theorem C29_bpsk_exact :
  forall (message : Iter bool) m (sample_rate symbol_rate : nat) (fc : R) tx,
    let sps := (sample_rate / symbol_rate)%nat in
    yields message m -> tx_bpsk_signal message sample_rate symbol_rate fc = Ret tx ->
    (symbol_rate <= sample_rate)%nat ->
    exists rx out, rx_bpsk_signal tx sample_rate symbol_rate fc = Ret rx /\ yields rx out /\ length out = length m /\
      forall k b, nth_error m k = Some b ->
        (nth_error out k = Some b <->
         b = false \/ exists j, (j < sps)%nat /\ cos (2 * PI * fc * (INR (k * sps + j) / INR sample_rate)) <> 0).
Proof.
  intros message m sr sy fc tx sps Hm Htx Hle.
  destruct (bpsk_link message m sr sy fc tx Hm Htx Hle) as (rx & Er & Yt & Yr). fold sps in Yr.
  exists rx. eexists. split; [exact Er|]. split; [exact Yr|]. split; [apply tab_length|].
  intros k b Hb. assert (Hk : (k < length m)%nat) by (apply nth_error_Some; congruence).
  rewrite tab_nth_error. apply Nat.ltb_lt in Hk. rewrite Hk. rewrite (nth_error_nth _ _ false Hb).
  unfold bpsk_decide. rewrite corr_R.
  rewrite (Rsum_n_ext sps _ (fun j => (if b then 1 else -1) * (cos (2 * PI * fc * (INR (k * sps + j) / INR sr)) * cos (2 * PI * fc * (INR (k * sps + j) / INR sr))))).
  2:{ intros j _. unfold ccos. rewrite phase_R, nrz_R. cbn [nmul ncos NumR]. ring. }
  rewrite Rsum_n_scale.
  set (f := fun j => cos (2 * PI * fc * (INR (k * sps + j) / INR sr))).
  change (Rsum_n sps (fun j => cos (2 * PI * fc * (INR (k * sps + j) / INR sr)) * cos (2 * PI * fc * (INR (k * sps + j) / INR sr))))
    with (Rsum_n sps (fun j => f j * f j)).
  pose proof (Rsum_n_sq_pos sps f) as P.
  assert (N : 0 <= Rsum_n sps (fun j => f j * f j)) by (apply Rsum_n_nonneg; intros; nra).
  set (S := Rsum_n sps (fun j => f j * f j)) in *. cbn [nofZ NumR].
  destruct b.
  - split.
    + intros E. right. apply P. injection E as E. apply nltb_R in E. lra.
    + intros [E|E]; [discriminate|]. apply P in E. f_equal. apply nltb_R. lra.
  - split; [auto|]. intros _. f_equal. destruct (nltb 0 (-1 * S)) eqn:E; [|reflexivity]. apply nltb_R in E. lra.
Qed.

(** With at least two samples per symbol no bit is ever lost, whatever the carrier. *)
Theorem C29_bpsk_exact_two_samples :
  forall (message : Iter bool) m (sample_rate symbol_rate : nat) (fc : R) tx,
    yields message m -> tx_bpsk_signal message sample_rate symbol_rate fc = Ret tx ->
    (2 * symbol_rate <= sample_rate)%nat ->
    exists rx, rx_bpsk_signal tx sample_rate symbol_rate fc = Ret rx /\ yields rx m.
Proof.
  intros message m sr sy fc tx Hm Htx Hle.
  destruct (C29_bpsk_exact message m sr sy fc tx Hm Htx ltac:(lia)) as (rx & out & Er & Yr & L & E).
  exists rx. split; [exact Er|]. replace m with out; [exact Yr|].
  apply nth_error_inj. intros k. destruct (nth_error m k) as [b|] eqn:Eb.
  2:{ apply nth_error_None. apply nth_error_None in Eb. lia. }
  apply (E k b Eb). right.
  destruct (tx_bpsk_inv _ _ _ _ _ Htx) as (Hy & _).
  set (sps := (sr / sy)%nat). assert (H2 : (2 <= sps)%nat) by (apply Nat.div_le_lower_bound; lia).
  set (t := 2 * PI * fc / INR sr).
  assert (R : forall i, 2 * PI * fc * (INR i / INR sr) = INR i * t) by (intros; unfold t, Rdiv; ring).
  destruct (Req_dec (cos (INR (k * sps) * t)) 0) as [Z|Z].
  - exists 1%nat. split; [lia|]. rewrite R. replace (k * sps + 1)%nat with (S (k * sps)) by lia.
    apply cos_consecutive. exact Z.
  - exists 0%nat. split; [lia|]. rewrite R, Nat.add_0_r. exact Z.
Qed.

(** What the receiver decides on any signal at all: bit k says whether the samples of block k
    correlate positively with the carrier; an incomplete last block is dropped. *)
Theorem C29_bpsk_receiver_exact :
  forall (signal : Iter R) l (sample_rate symbol_rate : nat) (fc : R),
    let sps := (sample_rate / symbol_rate)%nat in
    yields signal l -> (1 <= symbol_rate <= sample_rate)%nat ->
    exists rx out, rx_bpsk_signal signal sample_rate symbol_rate fc = Ret rx /\ yields rx out /\
      length out = (length l / sps)%nat /\
      forall k b, nth_error out k = Some b ->
        (b = true <-> 0 < Rsum_n sps (fun j => nth (k * sps + j) l 0 * cos (2 * PI * fc * (INR (k * sps + j) / INR sample_rate)))).
Proof.
  intros signal l sr sy fc sps Hs Hr.
  assert (Hn : (1 <= sr / sy)%nat) by (apply Nat.div_le_lower_bound; lia).
  destruct (rx_bpsk_intro signal sr sy fc ltac:(lia) Hn) as (rx & Er & _ & Yr).
  specialize (Yr l 0 Hs). exists rx. eexists. split; [exact Er|]. split; [exact Yr|]. split; [apply tab_length|].
  intros k b Hk. rewrite tab_nth_error in Hk. destruct (k <? length l / (sr / sy))%nat; [|discriminate].
  apply (f_equal (fun o => match o with Some x => x | None => b end)) in Hk. rewrite <- Hk, nltb_R, corr_R. cbn [nofZ NumR].
  rewrite (Rsum_n_ext _ _ (fun j => nth (k * sps + j) l 0 * cos (2 * PI * fc * (INR (k * sps + j) / INR sr)))); [reflexivity|].
  intros j _. unfold ccos. rewrite phase_R. reflexivity.
Qed.

(** The carrier at a quarter of the sample rate with one sample per symbol does lose bits. *)
Example C29_lost_bit :
  exists tx rx, tx_bpsk_signal (of_list [true; true]) 4 4 (1 : R) = Ret tx /\
    rx_bpsk_signal tx 4 4 1 = Ret rx /\ yields rx [true; false].
Proof.
  assert (E : exists tx, tx_bpsk_signal (of_list [true; true]) 4 4 (1 : R) = Ret tx).
  { unfold tx_bpsk_signal, usize_div, nyquist_ok. cbn [Nat.eqb bind].
    replace (nto_u64 (1 : R)) with 1%Z.
    2:{ cbn [nto_u64 NumR]. replace 1%R with (IZR 1) by reflexivity. rewrite Ztrunc_IZR. reflexivity. }
    replace (is_int (ndiv (nofnat 4) (nofnat 4) : R)) with true; [eexists; reflexivity|].
    symmetry. unfold is_int, nofnat. cbn [ndiv nofZ neqb nto_u64 NumR].
    replace (IZR (Z.of_nat 4) / IZR (Z.of_nat 4)) with 1 by (cbn; lra).
    replace 1%R with (IZR 1) at 2 by reflexivity. rewrite Ztrunc_IZR. destruct (Req_EM_T 1 _) as [_|N]; [reflexivity|].
    destruct N. reflexivity. }
  destruct E as (tx & Etx).
  destruct (C29_bpsk_exact _ _ _ _ _ _ (of_list_yields [true; true]) Etx ltac:(lia)) as (rx & out & Er & Yr & L & P).
  exists tx, rx. split; [exact Etx|]. split; [exact Er|].
  destruct out as [|a [|b [|? ?]]]; try discriminate.
  change (4 / 4)%nat with 1%nat in P.
  pose proof (P 0%nat true eq_refl) as P0. pose proof (P 1%nat true eq_refl) as P1. cbn [nth_error] in P0, P1.
  replace a with true in Yr.
  2:{ destruct P0 as [_ P0]. assert (Q : Some a = Some true); [|congruence]. apply P0. right. exists 0%nat. split; [lia|].
      cbn [Nat.mul Nat.add INR]. replace (2 * PI * 1 * (0 / (1 + 1 + 1 + 1))) with 0 by (unfold Rdiv; ring). rewrite cos_0. lra. }
  replace b with false in Yr; [exact Yr|].
  destruct b; [|reflexivity]. destruct P1 as [P1 _]. destruct (P1 eq_refl) as [|(j & Hj & N)]; [discriminate|].
  assert (j = 0)%nat by lia. subst j. destruct N. cbn [Nat.mul Nat.add INR].
  replace (2 * PI * 1 * (1 / (1 + 1 + 1 + 1))) with (PI / 2) by field. apply cos_PI2.
Qed.

Lemma u64_le_iff (x : F64) (h : nat) : (Z.of_nat h + 1 < 2 ^ 53)%Z ->
  (f64_to_u64 x <= Z.of_nat h)%Z <-> (is_nan x = true \/ Bltb x (f64_ofZ (Z.of_nat h + 1)) = true).
Proof.
  intros Hh.
  destruct (ofZ_exact (Z.of_nat h + 1) ltac:(lia)) as (V & F & _).
  assert (Hm : (Z.of_nat h < u64_max)%Z) by (unfold u64_max; lia).
  destruct (fin x) eqn:Fx.
  - rewrite to_u64_fin by exact Fx. rewrite (ltb_val x _ Fx F), V.
    unfold clamp_u64.
    assert (E : (Z.max 0 (Z.min u64_max (Ztrunc (val x))) <= Z.of_nat h)%Z <-> (Ztrunc (val x) <= Z.of_nat h)%Z) by lia.
    rewrite E. clear E. split.
    + intros L. right. destruct (Rle_lt_dec 0 (val x)) as [P|P].
      * rewrite Ztrunc_floor in L by exact P. pose proof (Zfloor_ub (val x)) as U.
        apply IZR_le in L. rewrite plus_IZR. lra.
      * rewrite plus_IZR. pose proof (IZR_le 0 (Z.of_nat h) ltac:(lia)). cbn in *. lra.
    + intros [N|L]; [destruct x; discriminate|].
      destruct (Rle_lt_dec 0 (val x)) as [P|P].
      * rewrite Ztrunc_floor by exact P. pose proof (Zfloor_lb (val x)) as B.
        assert (B2 : IZR (Zfloor (val x)) < IZR (Z.of_nat h + 1)) by lra. apply lt_IZR in B2. lia.
      * rewrite Ztrunc_ceil by lra. assert (Zceil (val x) <= 0)%Z; [|lia].
        apply Zceil_glb. cbn. lra.
  - assert (Ff : is_finite (f64_ofZ (Z.of_nat h + 1)) = true) by exact F.
    destruct x as [s|s| |s m e He]; try discriminate.
    + destruct s.
      * split; [|cbn; lia]. intros _. right. destruct (f64_ofZ (Z.of_nat h + 1)); try discriminate; reflexivity.
      * cbn [f64_to_u64]. split; [lia|]. intros [N|N]; [discriminate|].
        destruct (f64_ofZ (Z.of_nat h + 1)); discriminate.
    + cbn. split; [auto|lia].
Qed.

(** The transmitter's checks, on all parameters below 2^53 and every carrier (NaN passes). *)
Theorem C30_bpsk_checks :
  forall (libm : Libm) (message : Iter bool) (sample_rate symbol_rate : nat) (fc : F64), let num := NumF libm in
    (Z.of_nat sample_rate < 2 ^ 53)%Z -> (Z.of_nat symbol_rate < 2 ^ 53)%Z ->
    let ok := symbol_rate <> 0%nat /\ Nat.divide symbol_rate sample_rate /\
              (is_nan fc = true \/ Bltb fc (f64_ofZ (Z.of_nat (sample_rate / 2) + 1)) = true) in
    (ok -> exists tx, tx_bpsk_signal message sample_rate symbol_rate fc = Ret tx) /\
    (~ ok -> tx_bpsk_signal message sample_rate symbol_rate fc = Panic).
Proof.
  intros libm message sr sy fc num Hsr Hsy ok.
  assert (Hh : (Z.of_nat (sr / 2) + 1 < 2 ^ 53)%Z).
  { destruct (Nat.eq_dec sr 0) as [->|]; [reflexivity|].
    assert (sr / 2 < sr)%nat by (apply Nat.div_lt; lia). lia. }
  assert (Hny : nyquist_ok sr fc = true <-> (is_nan fc = true \/ Bltb fc (f64_ofZ (Z.of_nat (sr / 2) + 1)) = true)).
  { unfold nyquist_ok. change (@nto_u64 F64 num) with f64_to_u64. rewrite Z.leb_le. apply u64_le_iff. exact Hh. }
  assert (Hint : sy <> 0%nat -> is_int (ndiv (nofnat sr) (nofnat sy)) = true <-> Nat.divide sy sr).
  { intros Hy. unfold nofnat. change (@ndiv F64 num) with (@Bdiv 53 1024 prec53 emax1024 mode_NE).
    change (@nofZ F64 num) with f64_ofZ. unfold num. rewrite is_int_div_pos by lia.
    split.
    - intros [q Hq]. exists (Z.to_nat q). assert (0 <= q)%Z by nia. apply Nat2Z.inj. rewrite Nat2Z.inj_mul, Z2Nat.id by assumption. lia.
    - intros [q ->]. exists (Z.of_nat q). lia. }
  unfold tx_bpsk_signal, assert_then. split.
  - intros (Hy & Hd & Hf). rewrite usize_div_intro by exact Hy. cbn [bind].
    apply Hny in Hf. apply (Hint Hy) in Hd. rewrite Hf, Hd. eexists. reflexivity.
  - intros N. destruct (Nat.eq_dec sy 0) as [->|Hy]; [reflexivity|].
    rewrite usize_div_intro by exact Hy. cbn [bind].
    destruct (nyquist_ok sr fc) eqn:E1; [|reflexivity].
    destruct (is_int (ndiv (nofnat sr) (nofnat sy))) eqn:E2; [|reflexivity].
    destruct N. split; [exact Hy|]. split; [apply (Hint Hy); reflexivity|apply Hny; reflexivity].
Qed.

(** Both outcomes occur. *)
Example C30_pass : forall libm : Libm, let num := NumF libm in
  exists tx, tx_bpsk_signal (of_list [true]) 10 5 (f64_ofZ 5) = Ret tx.
Proof.
  intros libm num. refine (proj1 (C30_bpsk_checks libm (of_list [true]) 10 5 (f64_ofZ 5) eq_refl eq_refl) _).
  split; [lia|]. split; [exists 2%nat; reflexivity|]. right. vm_compute. reflexivity.
Qed.
Example C30_fail : forall libm : Libm, let num := NumF libm in
  tx_bpsk_signal (of_list [true]) 10 4 (f64_ofZ 5) = Panic /\ tx_bpsk_signal (of_list [true]) 10 5 (f64_ofZ 6) = Panic /\
  tx_bpsk_signal (of_list [true]) 10 0 (f64_ofZ 5) = Panic.
Proof.
  intros libm num. repeat split; vm_compute; reflexivity.
Qed.

(** The hypotheses of the binary64 round trip are met, e.g. by a cosine rounded to +1 and -1. *)
Definition libm_square : Libm :=
  {| libm_sin := fun x => x;
     libm_cos := fun x => if Bltb x (f64_ofZ 2) then f64_ofZ 1 else Bopp (f64_ofZ 1);
     libm_exp := fun x => x; libm_log10 := fun x => x; libm_pow := fun x _ => x; libm_sum_neg := false |}.
Example C29_f64_case : let num := NumF libm_square in
  exists tx rx, tx_bpsk_signal (of_list [true; false; true]) 10 5 (f64_ofZ 2) = Ret tx /\
    rx_bpsk_signal tx 10 5 (f64_ofZ 2) = Ret rx /\ yields rx [true; false; true].
Proof.
  intros num.
  destruct (proj1 (C30_bpsk_checks libm_square (of_list [true; false; true]) 10 5 (f64_ofZ 2) eq_refl eq_refl)) as [tx Etx].
  { split; [lia|]. split; [exists 2%nat; reflexivity|]. right. vm_compute. reflexivity. }
  assert (C : forall x, libm_cos libm_square x = f64_ofZ 1 \/ libm_cos libm_square x = Bopp (f64_ofZ 1)).
  { intros x. change (libm_cos libm_square x) with (if Bltb x (f64_ofZ 2) then f64_ofZ 1 else Bopp (f64_ofZ 1)).
    destruct (Bltb x (f64_ofZ 2)); [left|right]; reflexivity. }
  destruct (C29_bpsk_round_trip_f64 libm_square _ _ 10 5 (f64_ofZ 2) tx (of_list_yields [true; false; true]) Etx) as (rx & w & Er & _ & _ & Yr).
  - lia.
  - intros i _. match goal with |- context [libm_cos libm_square ?x] => destruct (C x) as [->| ->] end; reflexivity.
  - intros k _. exists 0%nat. split; [cbn; lia|].
    match goal with |- context [libm_cos libm_square ?x] => destruct (C x) as [->| ->] end; vm_compute; reflexivity.
  - exists tx, rx. auto.
Qed.

(** ** C31 *)

Lemma unpair {A} n : forall m : list A, length m = n ->
  flat_map (fun '(a, b) => [a; b]) (pairs m) = firstn (2 * (length m / 2)) m.
Proof.
  induction n as [n IH] using (well_founded_induction lt_wf). intros m L.
  destruct m as [|a [|b m]]; try reflexivity. cbn [pairs flat_map].
  rewrite (IH (length m)) by (try reflexivity; cbn in L; lia).
  replace (length (a :: b :: m)) with (length m + 1 * 2)%nat by (cbn; lia). rewrite Nat.div_add by lia.
  replace (2 * (length m / 2 + 1))%nat with (S (S (2 * (length m / 2)))) by lia. reflexivity.
Qed.
Lemma pairs_length {A} n : forall m : list A, length m = n -> length (pairs m) = (length m / 2)%nat.
Proof.
  induction n as [n IH] using (well_founded_induction lt_wf). intros m L.
  destruct m as [|a [|b m]]; try reflexivity. cbn [pairs length].
  rewrite (IH (length m)) by (try reflexivity; cbn in L; lia).
  replace (S (S (length m))) with (length m + 1 * 2)%nat by lia. rewrite Nat.div_add by lia. lia.
Qed.

Lemma sqrt2_f64 : fin (Bsqrt mode_NE (f64_ofZ 2)) = true /\ 1 <= val (Bsqrt mode_NE (f64_ofZ 2)).
Proof.
  destruct (ofZ_exact 2 ltac:(lia)) as (V & F & _).
  destruct (Bsqrt_correct 53 1024 _ _ mode_NE (f64_ofZ 2)) as (H1 & H2 & _). split.
  - unfold fin. rewrite H2. reflexivity.
  - unfold val. rewrite H1. fold (val (f64_ofZ 2)). rewrite V.
    change (1 <= rd (R_sqrt.sqrt (IZR 2))). apply rd_ge_fmt; [apply (fmt_IZR 1); lia|].
    rewrite <- sqrt_1 at 1. apply sqrt_le_1_alt. lra.
Qed.

Definition qpsk_point (libm : Libm) (p : bool * bool) : cpx F64 :=
  let num := NumF libm in
  let '(bit1, bit2) := p in
  match bit1, bit2 with
  | true, true => Cpx (nsqrt (nofZ 2)) (nsqrt (nofZ 2))
  | true, false => Cpx (nsqrt (nofZ 2)) (nopp (nsqrt (nofZ 2)))
  | false, true => Cpx (nopp (nsqrt (nofZ 2))) (nsqrt (nofZ 2))
  | false, false => Cpx (nopp (nsqrt (nofZ 2))) (nopp (nsqrt (nofZ 2)))
  end.

(** Noise below the transmitted amplitude on either component leaves the decisions unchanged. *)
Theorem C31_baseband_qpsk_noise :
  forall (libm : Libm) (message : Iter bool) m (noise : list (cpx F64)), let num := NumF libm in
    yields message m -> length noise = (length m / 2)%nat ->
    (forall z, In z noise -> is_finite (re z) = true /\ Rabs (B2R (re z)) < B2R (Bsqrt mode_NE (f64_ofZ 2)) /\
                             is_finite (im z) = true /\ Rabs (B2R (im z)) < B2R (Bsqrt mode_NE (f64_ofZ 2))) ->
    yields (rx_baseband_qpsk_signal
              (imap (fun '(s, z) => cadd s z) (izip (tx_baseband_qpsk_signal message) (of_list noise))))
           (firstn (2 * (length m / 2)) m).
Proof.
  intros libm message m noise num Hm HL Hn.
  pose proof (izip_yields _ _ _ _ (imap_yields (qpsk_point libm) _ _ (ituples_yields _ _ Hm)) (of_list_yields noise)) as Y0.
  pose proof (iflat_pure_yields (fun sample : cpx F64 => [nleb (nofZ 0) (re sample); nleb (nofZ 0) (im sample)]) _ _
               (imap_yields (fun '(s, z) => cadd s z) _ _ Y0)) as Y.
  refine (eq_ind _ (fun x => yields _ x) (Y _) _ _); [intros; discriminate|].
  clear Y Y0 Hm. rewrite <- (unpair (length m) m eq_refl).
  rewrite <- (pairs_length (length m) m eq_refl) in HL. revert noise HL Hn.
  induction (pairs m) as [|[b1 b2] ps IH]; intros [|z noise] HL Hn; try discriminate; [reflexivity|].
  cbn [map combine flat_map]. rewrite IH; [|cbn in HL; lia|intros; apply Hn; right; assumption].
  cbn [app]. clear IH. destruct (Hn z ltac:(left; reflexivity)) as (F1 & V1 & F2 & V2). clear Hn.
  destruct sqrt2_f64 as [Fs Vs].
  set (a := Bsqrt mode_NE (f64_ofZ 2)) in *.
  assert (Fo : fin (Bopp a) = true) by (unfold fin; rewrite is_finite_Bopp; exact Fs).
  assert (P : forall x, is_finite x = true -> Rabs (B2R x) < B2R a -> Bleb (f64_ofZ 0) (Bplus mode_NE a x) = true).
  { intros x Fx Vx. apply add_sign; [exact Fs|destruct x; try discriminate; reflexivity|].
    apply leb_val; [exact Fo|exact Fx|]. unfold val. rewrite B2R_Bopp. apply Rabs_def2 in Vx. lra. }
  assert (N : forall x, is_finite x = true -> Rabs (B2R x) < B2R a -> Bleb (f64_ofZ 0) (Bplus mode_NE (Bopp a) x) = false).
  { intros x Fx Vx. destruct (Bleb (f64_ofZ 0) (Bplus mode_NE (Bopp a) x)) eqn:E; [|reflexivity].
    apply add_sign in E; [|exact Fo|destruct x; try discriminate; reflexivity].
    rewrite Bopp_involutive in E. apply leb_val in E; [|exact Fs|exact Fx]. unfold val in E. apply Rabs_def2 in Vx. lra. }
  assert (Q : forall b1 b2, re (qpsk_point libm (b1, b2)) = (if b1 then a else Bopp a) /\
                            im (qpsk_point libm (b1, b2)) = (if b2 then a else Bopp a)) by (intros [] []; split; reflexivity).
  destruct (Q b1 b2) as [Qr Qi].
  change (re (cadd (qpsk_point libm (b1, b2)) z)) with (Bplus mode_NE (re (qpsk_point libm (b1, b2))) (re z)).
  change (im (cadd (qpsk_point libm (b1, b2)) z)) with (Bplus mode_NE (im (qpsk_point libm (b1, b2))) (im z)).
  rewrite Qr, Qi. change (@nleb F64 num) with (@Bleb 53 1024). change (@nofZ F64 num) with f64_ofZ.
  f_equal; [|f_equal].
  - destruct b1; [apply P|apply N]; assumption.
  - destruct b2; [apply P|apply N]; assumption.
Qed.

Theorem C31_baseband_qpsk_round_trip :
  forall (libm : Libm) (message : Iter bool) m, let num := NumF libm in
    yields message m ->
    yields (rx_baseband_qpsk_signal (tx_baseband_qpsk_signal message)) (firstn (2 * (length m / 2)) m) /\
    (Nat.even (length m) = true -> yields (rx_baseband_qpsk_signal (tx_baseband_qpsk_signal message)) m).
Proof.
  intros libm message m num Hm.
  assert (Y : yields (rx_baseband_qpsk_signal (tx_baseband_qpsk_signal message)) (firstn (2 * (length m / 2)) m)).
  { pose proof (iflat_pure_yields (fun sample : cpx F64 => [nleb (nofZ 0) (re sample); nleb (nofZ 0) (im sample)]) _ _
               (imap_yields (qpsk_point libm) _ _ (ituples_yields _ _ Hm))) as Y.
    refine (eq_ind _ (fun x => yields _ x) (Y _) _ _); [intros; discriminate|].
    rewrite <- (unpair (length m) m eq_refl), flat_map_map. apply flat_map_ext. intros [[] []]; vm_compute; reflexivity. }
  split; [exact Y|]. intros E. rewrite firstn_all2 in Y; [exact Y|].
  apply Nat.even_spec in E. destruct E as [q E]. rewrite E. rewrite (Nat.mul_comm 2 q), Nat.div_mul by lia. lia.
Qed.

Example C31_odd_case (libm : Libm) : let num := NumF libm in
  collect 5 (rx_baseband_qpsk_signal (tx_baseband_qpsk_signal (of_list [true; false; true]))) = Ret [true; false].
Proof. vm_compute. reflexivity. Qed.
Example C31_noise_case (libm : Libm) : let num := NumF libm in
  collect 5 (rx_baseband_qpsk_signal (imap (fun '(s, z) => cadd s z)
     (izip (tx_baseband_qpsk_signal (of_list [false; true])) (of_list [Cpx (f64_ofZ 1) (Bopp (f64_ofZ 1))])))) = Ret [false; true].
Proof. vm_compute. reflexivity. Qed.

(** ** C32 *)

Lemma tx_qpsk_inv {T} `{Num T} (message : Iter bool) sr sy (fc : T) :
  sy <> 0%nat -> (1 <= sr / sy)%nat ->
  exists tx, tx_qpsk_signal message sr sy fc = Ret tx /\
    (forall m, yields message m -> yields tx (qpsk_wave sr fc (sr / sy) (pairs m))).
Proof.
  intros Hy Hn. unfold tx_qpsk_signal. rewrite usize_div_intro by exact Hy. cbn [bind].
  eexists. split; [reflexivity|]. intros m Hm. apply tx_qpsk_yields; assumption.
Qed.
Lemma rx_qpsk_intro {T} `{Num T} (signal : Iter T) sr sy (fc : T) :
  sy <> 0%nat -> (1 <= sr / sy)%nat ->
  exists rx, rx_qpsk_signal signal sr sy fc = Ret rx /\
    (forall k g, yields signal (tab (k * (sr / sy)) g) ->
       yields rx (flat_map (fun s => [nleb (nofZ 0) (corr (sr / sy) s (fun i => nmul (g i) (ccos sr fc i)));
                         nleb (nofZ 0) (corr (sr / sy) s (fun i => nmul (g i) (nopp (csin sr fc i))))]) (seq 0 k))).
Proof.
  intros Hy Hn. unfold rx_qpsk_signal. rewrite usize_div_intro by exact Hy. cbn [bind].
  eexists. split; [reflexivity|]. intros k g Hs. apply rx_qpsk_yields; assumption.
Qed.

Lemma flat_seq_nth {A B} (f : nat -> list B) (g : A -> list B) (l : list A) (d : A) :
  (forall k a, nth_error l k = Some a -> f k = g a) -> flat_map f (seq 0 (length l)) = flat_map g l.
Proof.
  intros H. rewrite <- (tab_nth_id l d) at 2. unfold tab. rewrite flat_map_map. apply flat_map_ext_in.
  intros k Hk. apply in_seq in Hk. apply H. apply nth_error_nth'. lia.
Qed.

(** Energies of one symbol: in phase, quadrature, and the leakage between them. *)
Theorem C32_qpsk_round_trip_general :
  forall (message : Iter bool) m (sample_rate symbol_rate : nat) (fc : R),
    let sps := (sample_rate / symbol_rate)%nat in
    let ph i := 2 * PI * fc * (INR i / INR sample_rate) in
    yields message m -> (1 <= symbol_rate <= sample_rate)%nat ->
    (forall k, (k < length m / 2)%nat ->
       let leak := Rsum_n sps (fun j => sin (ph (k * sps + j)%nat) * cos (ph (k * sps + j)%nat)) in
       Rabs leak < Rsum_n sps (fun j => cos (ph (k * sps + j)%nat) * cos (ph (k * sps + j)%nat)) /\
       Rabs leak < Rsum_n sps (fun j => sin (ph (k * sps + j)%nat) * sin (ph (k * sps + j)%nat))) ->
    exists tx rx, tx_qpsk_signal message sample_rate symbol_rate fc = Ret tx /\
      rx_qpsk_signal tx sample_rate symbol_rate fc = Ret rx /\ yields rx (firstn (2 * (length m / 2)) m).
Proof.
  intros message m sr sy fc sps ph Hm Hr Hk.
  assert (Hn : (1 <= sr / sy)%nat) by (apply Nat.div_le_lower_bound; lia).
  destruct (tx_qpsk_inv message sr sy fc ltac:(lia) Hn) as (tx & Et & Yt).
  destruct (rx_qpsk_intro tx sr sy fc ltac:(lia) Hn) as (rx & Er & Yr).
  exists tx, rx. split; [exact Et|]. split; [exact Er|].
  refine (eq_ind _ (fun x => yields _ x) (Yr _ _ (Yt m Hm)) _ _).
  rewrite <- (unpair (length m) m eq_refl).
  apply (flat_seq_nth _ _ _ (false, false)). intros k [b1 b2] Hb.
  assert (Lk : (k < length m / 2)%nat).
  { rewrite <- (pairs_length (length m) m eq_refl). apply nth_error_Some. congruence. }
  specialize (Hk k Lk). cbv zeta in Hk.
  set (C := Rsum_n sps (fun j => cos (ph (k * sps + j)%nat) * cos (ph (k * sps + j)%nat))) in *.
  set (S := Rsum_n sps (fun j => sin (ph (k * sps + j)%nat) * sin (ph (k * sps + j)%nat))) in *.
  set (X := Rsum_n sps (fun j => sin (ph (k * sps + j)%nat) * cos (ph (k * sps + j)%nat))) in *.
  set (s1 := if b1 then 1 else -1). set (s2 := if b2 then 1 else -1).
  assert (E1 : corr (sr / sy) k (fun i => (let '(b1, b2) := nth (i / (sr / sy)) (pairs m) (false, false) in
     bit_to_nrz b1 * ccos sr fc i + (- bit_to_nrz b2) * csin sr fc i) * ccos sr fc i) = s1 * C - s2 * X).
  { rewrite corr_R. fold sps. unfold C, X. replace (s1 * _ - s2 * _) with
      (s1 * Rsum_n sps (fun j => cos (ph (k * sps + j)%nat) * cos (ph (k * sps + j)%nat)) +
       (- s2) * Rsum_n sps (fun j => sin (ph (k * sps + j)%nat) * cos (ph (k * sps + j)%nat))) by ring.
    rewrite <- !Rsum_n_scale, <- Rsum_n_plus. apply Rsum_n_ext. intros j Hj.
    rewrite block_div by exact Hj. rewrite (nth_error_nth _ _ (false, false) Hb).
    unfold ccos, csin. rewrite !phase_R, !nrz_R. fold (ph (k * sps + j)%nat) s1 s2. cbn [ncos nsin NumR]. ring. }
  assert (E2 : corr (sr / sy) k (fun i => (let '(b1, b2) := nth (i / (sr / sy)) (pairs m) (false, false) in
     bit_to_nrz b1 * ccos sr fc i + (- bit_to_nrz b2) * csin sr fc i) * (- csin sr fc i)) = s2 * S - s1 * X).
  { rewrite corr_R. fold sps. unfold S, X. replace (s2 * _ - s1 * _) with
      (s2 * Rsum_n sps (fun j => sin (ph (k * sps + j)%nat) * sin (ph (k * sps + j)%nat)) +
       (- s1) * Rsum_n sps (fun j => sin (ph (k * sps + j)%nat) * cos (ph (k * sps + j)%nat))) by ring.
    rewrite <- !Rsum_n_scale, <- Rsum_n_plus. apply Rsum_n_ext. intros j Hj.
    rewrite block_div by exact Hj. rewrite (nth_error_nth _ _ (false, false) Hb).
    unfold ccos, csin. rewrite !phase_R, !nrz_R. fold (ph (k * sps + j)%nat) s1 s2. cbn [ncos nsin NumR]. ring. }
  cbn [nadd nmul nopp NumR]. rewrite E1, E2. clear E1 E2.
  destruct Hk as [HC HS]. apply Rabs_def2 in HC. apply Rabs_def2 in HS.
  assert (D : forall x (b : bool), (if b then 0 <= x else x < 0) -> nleb (nofZ 0) x = b).
  { intros x b Hx. cbn [nofZ NumR]. destruct (nleb 0 x) eqn:E.
    - apply nleb_R in E. destruct b; [reflexivity|lra].
    - destruct b; [|reflexivity]. apply nleb_R in Hx. congruence. }
  rewrite (D _ b1), (D _ b2); [reflexivity| |]; unfold s1, s2; destruct b1, b2; lra.
Qed.

(** The usual design: whole half-cycles per symbol, carrier not a multiple of half the sample rate. *)
Theorem C32_qpsk_round_trip :
  forall (message : Iter bool) m (sample_rate symbol_rate : nat) (fc : R) (half_cycles : Z),
    let sps := (sample_rate / symbol_rate)%nat in
    yields message m -> (1 <= symbol_rate <= sample_rate)%nat ->
    2 * fc * INR sps = IZR half_cycles * INR sample_rate ->
    ~ (exists z : Z, 2 * fc = IZR z * INR sample_rate) ->
    exists tx rx, tx_qpsk_signal message sample_rate symbol_rate fc = Ret tx /\
      rx_qpsk_signal tx sample_rate symbol_rate fc = Ret rx /\ yields rx (firstn (2 * (length m / 2)) m).
Proof.
  intros message m sr sy fc h sps Hm Hr Hh Hz. apply C32_qpsk_round_trip_general; [exact Hm|exact Hr|].
  intros k Hk. cbv zeta. fold sps.
  assert (Hsps : (1 <= sps)%nat) by (apply Nat.div_le_lower_bound; lia).
  assert (Hsr : INR sr <> 0) by (apply not_0_INR; lia).
  set (a := 2 * PI * fc / INR sr).
  assert (Ha : sin a <> 0).
  { intros E. apply sin_0_mult in E. destruct E as [z E]. apply Hz. exists z.
    apply (Rmult_eq_reg_l (PI / INR sr)).
    - unfold a in E. replace (PI / INR sr * (2 * fc)) with (2 * PI * fc / INR sr) by (field; exact Hsr). rewrite E. field. exact Hsr.
    - apply Rmult_integral_contrapositive_currified; [apply PI_neq0|apply Rinv_neq_0_compat; exact Hsr]. }
  assert (Hp : 2 * a * INR sps = 2 * PI * IZR h).
  { unfold a. replace (2 * (2 * PI * fc / INR sr) * INR sps) with (2 * PI * (2 * fc * INR sps) / INR sr) by (field; exact Hsr).
    rewrite Hh. field. exact Hsr. }
  destruct (sum_whole a (2 * (a * INR (k * sps))) sps h Ha Hp) as [SC SS].
  assert (P : forall j, 2 * (2 * PI * fc * (INR (k * sps + j) / INR sr)) = 2 * (a * INR (k * sps)) + 2 * a * INR j).
  { intros j. unfold a. rewrite plus_INR. field. exact Hsr. }
  assert (HC : Rsum_n sps (fun j => cos (2 * PI * fc * (INR (k * sps + j) / INR sr)) * cos (2 * PI * fc * (INR (k * sps + j) / INR sr))) = INR sps / 2).
  { rewrite (Rsum_n_ext sps _ (fun j => 1 / 2 + 1 / 2 * cos (2 * (a * INR (k * sps)) + 2 * a * INR j))).
    - rewrite Rsum_n_plus, Rsum_n_scale, Rsum_n_const, SC. lra.
    - intros j _. rewrite cos_sq_half, P. lra. }
  assert (HS : Rsum_n sps (fun j => sin (2 * PI * fc * (INR (k * sps + j) / INR sr)) * sin (2 * PI * fc * (INR (k * sps + j) / INR sr))) = INR sps / 2).
  { rewrite (Rsum_n_ext sps _ (fun j => 1 / 2 + (- 1 / 2) * cos (2 * (a * INR (k * sps)) + 2 * a * INR j))).
    - rewrite Rsum_n_plus, Rsum_n_scale, Rsum_n_const, SC. lra.
    - intros j _. rewrite sin_sq_half, P. lra. }
  assert (HX : Rsum_n sps (fun j => sin (2 * PI * fc * (INR (k * sps + j) / INR sr)) * cos (2 * PI * fc * (INR (k * sps + j) / INR sr))) = 0).
  { rewrite (Rsum_n_ext sps _ (fun j => 1 / 2 * sin (2 * (a * INR (k * sps)) + 2 * a * INR j))).
    - rewrite Rsum_n_scale, SS. lra.
    - intros j _. rewrite sin_cos_half, P. lra. }
  rewrite HC, HS, HX, Rabs_R0. apply le_INR in Hsps. cbn in Hsps. lra.
Qed.

(** No check of the rates: fewer samples than symbols gives an endless signal repeating the first pair. *)
Theorem C32_qpsk_endless :
  forall {T} {num : Num T} (message : Iter bool) b1 b2 m (sample_rate symbol_rate : nat) (fc : T),
    yields message (b1 :: b2 :: m) -> (sample_rate < symbol_rate)%nat ->
    exists tx f, tx_qpsk_signal message sample_rate symbol_rate fc = Ret tx /\ streams tx f /\
      forall fuel, collect fuel tx = Diverge.
Proof.
  intros T num message b1 b2 m sr sy fc Hm Hr. unfold tx_qpsk_signal. rewrite usize_div_intro by lia. cbn [bind].
  rewrite Nat.div_small by exact Hr.
  pose proof (ituples_yields _ _ Hm) as Y. cbn [pairs] in Y.
  pose proof (inflate0_streams _ _ _ Y) as S.
  assert (S2 : streams (ienum (inflate 0 (ituples message))) (fun n => (n, (b1, b2)))).
  { apply ienum_streams. exact S. }
  pose proof (imap_streams (fun '(idx, (bit1, bit2)) =>
               let time := ndiv (nofnat idx) (nofnat sr) in
               let i_t := nmul (bit_to_nrz bit1) (ncos (nmul (nmul (nmul (nofZ 2) npi) fc) time)) in
               let q_t := nmul (nopp (bit_to_nrz bit2)) (nsin (nmul (nmul (nmul (nofZ 2) npi) fc) time)) in
               nadd i_t q_t) _ _ S2) as S3.
  eexists. eexists. split; [reflexivity|]. split; [exact S3|].
  intros fuel. exact (collect_from_streams _ _ _ fuel S3).
Qed.

(** 44100 samples and 900 symbols per second with a carrier of 1800 Hz is such a design. *)
Example C32_design_case :
  2 * 1800 * INR 49 = IZR 4 * INR (49 * 900) /\ ~ (exists z : Z, 2 * 1800 = IZR z * INR (49 * 900)).
Proof.
  rewrite mult_INR, !INR_IZR_INZ. split; [cbn; lra|].
  intros [z Hz]. change (Z.of_nat 49) with 49%Z in Hz. change (Z.of_nat 900) with 900%Z in Hz.
  rewrite <- !mult_IZR in Hz. apply eq_IZR in Hz. lia.
Qed.

(** ** Axioms used *)
Print Assumptions C28_baseband_bpsk_round_trip.
Print Assumptions C28_baseband_bpsk_noise_exact.
Print Assumptions C28_baseband_bpsk_noise.
Print Assumptions C29_bpsk_round_trip_f64.
Print Assumptions C29_bpsk_exact.
Print Assumptions C29_bpsk_exact_two_samples.
Print Assumptions C29_bpsk_receiver_exact.
Print Assumptions C30_bpsk_checks.
Print Assumptions C31_baseband_qpsk_noise.
Print Assumptions C31_baseband_qpsk_round_trip.
Print Assumptions C32_qpsk_round_trip_general.
Print Assumptions C32_qpsk_round_trip.
Print Assumptions C32_qpsk_endless.
