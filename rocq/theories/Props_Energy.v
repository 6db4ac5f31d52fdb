(** Property C88: the energy per bit measured by tests/eb.rs, for every message (exact arithmetic). *)
From Coq Require Import Permutation List Arith ZArith Reals Bool Lia Lra Psatz.
From Flocq Require Import Core.
From Verif Require Import Base IterTheory IterModel IterProofs Spec SpecR SpecC Tab Num LibModel LibReal
  ChaosModel PskModel PskChain RSums PskReal CdmaModel FskModel CdmaProofs LabModel Props_Psk Props_Pass Props_Fsk
  FftModel Dft OfdmModel OfdmProofs OfdmReal BpfProofs Props_Bpf.
Import ListNotations.
Local Open Scope R_scope.

Lemma eb_tab (tx : Iter R) N n g : yields tx (tab N g) -> forall fuel, (N < fuel)%nat ->
  check_eb fuel n tx = Ret (Rsum_n N (fun i => g i * g i) / INR n).
Proof.
  intros Y fuel Hf. unfold check_eb. rewrite (collect_yields _ _ fuel Y) by (rewrite tab_length; exact Hf). cbn [bind].
  rewrite nsum_R, tab_map, Rsum_tab. unfold nofnat, nsqr. cbn. rewrite <- INR_IZR_INZ. reflexivity.
Qed.
Lemma eb2_tab (tx : Iter R) N n g : yields tx (tab N g) -> forall fuel, (N < fuel)%nat ->
  bpsk_eb_2 fuel n tx = Ret (Rsum_n N (fun i => g i * g i) / INR N / INR n).
Proof.
  intros Y fuel Hf. unfold bpsk_eb_2. rewrite (collect_yields _ _ fuel Y) by (rewrite tab_length; exact Hf). cbn [bind].
  unfold avg_energy. rewrite nsum_R, tab_map, Rsum_tab, tab_length. unfold nofnat, nsqr. cbn. rewrite <- !INR_IZR_INZ. reflexivity.
Qed.

(** How far the energy of one symbol can be from half a unit per sample. *)
Lemma cos_energy_near (sr sps k : nat) (f : R) : (1 <= sr)%nat -> sin (2 * PI * f / INR sr) <> 0 ->
  let c j := cos (2 * PI * f * (INR (k * sps + j) / INR sr)) in
  Rabs (Rsum_n sps (fun j => c j * c j) - INR sps / 2) <= / (2 * Rabs (sin (2 * PI * f / INR sr))) /\
  (forall h : Z, 2 * f * INR sps = IZR h * INR sr -> Rsum_n sps (fun j => c j * c j) = INR sps / 2).
Proof.
  intros Hr. set (a := 2 * PI * f / INR sr). intros Ha c.
  assert (Hsr : INR sr <> 0) by (apply not_0_INR; lia).
  assert (P : forall j, 2 * (2 * PI * f * (INR (k * sps + j) / INR sr)) = 2 * (a * INR (k * sps)) + 2 * a * INR j).
  { intros j. unfold a. rewrite plus_INR. field. exact Hsr. }
  assert (E : Rsum_n sps (fun j => c j * c j) = INR sps / 2 + 1 / 2 * Rsum_n sps (fun j => cos (2 * (a * INR (k * sps)) + 2 * a * INR j))).
  { rewrite (Rsum_n_ext sps _ (fun j => 1 / 2 + 1 / 2 * cos (2 * (a * INR (k * sps)) + 2 * a * INR j))).
    - rewrite Rsum_n_plus, Rsum_n_scale, Rsum_n_const. lra.
    - intros j _. unfold c. rewrite cos_sq_half, P. lra. }
  split.
  - rewrite E. replace (_ - _) with (1 / 2 * Rsum_n sps (fun j => cos (2 * (a * INR (k * sps)) + 2 * a * INR j))) by lra.
    pose proof (sum_cos a (2 * (a * INR (k * sps))) sps) as S.
    set (X := Rsum_n sps (fun j => cos (2 * (a * INR (k * sps)) + 2 * a * INR j))) in *.
    assert (B : Rabs (2 * sin a * X) <= 2).
    { rewrite S. pose proof (SIN_bound (2 * (a * INR (k * sps)) + 2 * a * INR sps - a)). pose proof (SIN_bound (2 * (a * INR (k * sps)) - a)).
      apply Rabs_le. lra. }
    rewrite !Rabs_mult in B. rewrite Rabs_mult, (Rabs_pos_eq (1 / 2)) by lra. rewrite (Rabs_pos_eq 2) in B by lra.
    pose proof (Rabs_pos_lt _ Ha) as Q. apply (Rmult_le_reg_l (2 * Rabs (sin a))); [lra|].
    rewrite Rinv_r by lra. lra.
  - intros h Hh. rewrite E. destruct (sum_whole a (2 * (a * INR (k * sps))) sps h Ha) as [SC _]; [|rewrite SC; lra].
    unfold a. replace (2 * (2 * PI * f / INR sr) * INR sps) with (2 * PI * (2 * f * INR sps) / INR sr) by (field; exact Hsr).
    rewrite Hh. field. exact Hsr.
Qed.
Lemma mixed_energy_near (sr sps k : nat) (f : R) : (1 <= sr)%nat -> sin (2 * PI * f / INR sr) <> 0 ->
  let ph j := 2 * PI * f * (INR (k * sps + j) / INR sr) in
  Rabs (Rsum_n sps (fun j => sin (ph j) * cos (ph j))) <= / (2 * Rabs (sin (2 * PI * f / INR sr))).
Proof.
  intros Hr. set (a := 2 * PI * f / INR sr). intros Ha ph.
  assert (Hsr : INR sr <> 0) by (apply not_0_INR; lia).
  rewrite (Rsum_n_ext sps _ (fun j => 1 / 2 * sin (2 * (a * INR (k * sps)) + 2 * a * INR j))).
  2:{ intros j _. rewrite sin_cos_half. replace (2 * ph j) with (2 * (a * INR (k * sps)) + 2 * a * INR j); [lra|].
      unfold ph, a. rewrite plus_INR. field. exact Hsr. }
  rewrite Rsum_n_scale. pose proof (sum_sin a (2 * (a * INR (k * sps))) sps) as S.
  set (X := Rsum_n sps (fun j => sin (2 * (a * INR (k * sps)) + 2 * a * INR j))) in *.
  assert (B : Rabs (2 * sin a * X) <= 2).
  { rewrite S. pose proof (COS_bound (2 * (a * INR (k * sps)) + 2 * a * INR sps - a)). pose proof (COS_bound (2 * (a * INR (k * sps)) - a)).
    apply Rabs_le. lra. }
  rewrite !Rabs_mult in B. rewrite Rabs_mult, (Rabs_pos_eq (1 / 2)) by lra. rewrite (Rabs_pos_eq 2) in B by lra.
  pose proof (Rabs_pos_lt _ Ha) as Q. apply (Rmult_le_reg_l (2 * Rabs (sin a))); [lra|].
  rewrite Rinv_r by lra. lra.
Qed.
Lemma sin_carrier (sr : nat) (f : R) : (1 <= sr)%nat -> ~ (exists z : Z, 2 * f = IZR z * INR sr) -> sin (2 * PI * f / INR sr) <> 0.
Proof.
  intros Hr Hz E. assert (Hsr : INR sr <> 0) by (apply not_0_INR; lia).
  apply sin_0_mult in E. destruct E as [z E]. apply Hz. exists z.
  apply (Rmult_eq_reg_l (PI / INR sr)).
  - replace (PI / INR sr * (2 * f)) with (2 * PI * f / INR sr) by (field; exact Hsr). rewrite E. field. exact Hsr.
  - apply Rmult_integral_contrapositive_currified; [apply PI_neq0|apply Rinv_neq_0_compat; exact Hsr].
Qed.
Lemma Rsum_n_near n f e d : (forall j, (j < n)%nat -> Rabs (f j - e) <= d) -> Rabs (Rsum_n n f - INR n * e) <= INR n * d.
Proof.
  intros H. induction n as [|n IH]; [cbn; replace (0 - 0 * e) with 0 by ring; rewrite Rabs_R0; lra|].
  cbn [Rsum_n]. rewrite S_INR.
  replace (Rsum_n n f + f n - (INR n + 1) * e) with ((Rsum_n n f - INR n * e) + (f n - e)) by ring.
  eapply Rle_trans; [apply Rabs_triang|]. specialize (IH (fun j Hj => H j (Nat.lt_lt_succ_r _ _ Hj))). specialize (H n (Nat.lt_succ_diag_r n)). lra.
Qed.

(** ** BPSK, spread or not: the message cannot be seen in the power *)

Theorem C88_bpsk_power :
  forall (message : Iter bool) m (sample_rate symbol_rate : nat) (fc : R) tx,
    let sps := (sample_rate / symbol_rate)%nat in
    yields message m -> (symbol_rate <= sample_rate)%nat -> tx_bpsk_signal message sample_rate symbol_rate fc = Ret tx ->
    exists w, yields tx w /\ length w = (length m * sps)%nat /\
      forall i, (i < length w)%nat -> nth i w 0 * nth i w 0 = cos (2 * PI * fc * (INR i / INR sample_rate)) * cos (2 * PI * fc * (INR i / INR sample_rate)).
Proof.
  intros message m sr sy fc tx sps Hm Hle Et.
  destruct (tx_bpsk_inv _ _ _ _ _ Et) as (Hy & _ & _ & Y).
  assert (Hn : (1 <= sr / sy)%nat) by (apply Nat.div_le_lower_bound; lia).
  specialize (Y Hn m Hm). eexists. split; [exact Y|]. unfold bpsk_wave. rewrite tab_length. split; [reflexivity|].
  intros i Hi. rewrite tab_nth by exact Hi. unfold ccos. rewrite phase_R, nrz_R. cbn. destruct (nth _ m false); ring.
Qed.

Theorem C88_cdma_bpsk_power :
  forall (message : Iter bool) m (sample_rate symbol_rate : nat) (fc : R) key tx,
    let sps := (sample_rate / symbol_rate)%nat in
    yields message m -> tx_cdma_bpsk_signal message sample_rate symbol_rate fc key = Ret tx ->
    exists w, yields tx w /\ length w = (length m * sps)%nat /\
      forall i, (i < length w)%nat -> nth i w 0 * nth i w 0 = cos (2 * PI * fc * (INR i / INR sample_rate)) * cos (2 * PI * fc * (INR i / INR sample_rate)).
Proof.
  intros message m sr sy fc key tx sps Hm E. unfold tx_cdma_bpsk_signal in E.
  destruct (cdma_rates sr sy fc key) as [p| |] eqn:Ep; try discriminate.
  destruct (cdma_rates_inv _ _ _ _ _ Ep) as (-> & Hy & Hk & Hr & Hc & _). cbn [bind] in E.
  destruct (tx_bpsk_signal message sr sy fc) as [tx0| |] eqn:Et; try discriminate. cbn [bind] in E. injection E as <-.
  assert (Hle : (sy <= sr)%nat) by (destruct key; [contradiction|cbn in Hr; nia]).
  assert (Hn : (1 <= sr / sy)%nat) by (apply Nat.div_le_lower_bound; lia).
  destruct (tx_bpsk_inv _ _ _ _ _ Et) as (_ & _ & _ & Y). specialize (Y Hn m Hm). unfold bpsk_wave in Y. fold sps in Y, Hc, Hn.
  pose proof (chip_mul_yields (sps / length key) key tx0 _ _ ltac:(lia) Hk Y) as Yc.
  eexists. split; [exact Yc|]. rewrite tab_length. split; [reflexivity|].
  intros i Hi. rewrite tab_nth by exact Hi. unfold ccos. rewrite phase_R, !nrz_R. cbn.
  destruct (nth _ m false), (nth _ key false); ring.
Qed.

(** What both harness measures give for a signal of such a power. *)
Lemma bpsk_eb (m : list bool) (sr sps : nat) (fc : R) (tx : Iter R) w : (1 <= sr)%nat -> (1 <= sps)%nat -> m <> [] ->
  yields tx w -> length w = (length m * sps)%nat ->
  (forall i, (i < length w)%nat -> nth i w 0 * nth i w 0 = cos (2 * PI * fc * (INR i / INR sr)) * cos (2 * PI * fc * (INR i / INR sr))) ->
  ~ (exists z : Z, 2 * fc = IZR z * INR sr) ->
  exists eb, (forall fuel, (length w < fuel)%nat -> check_eb fuel (length m) tx = Ret eb /\
                 bpsk_eb_2 fuel (length m) tx = Ret (eb / (INR (length m) * INR sps))) /\
    Rabs (eb - INR sps / 2) <= / (2 * Rabs (sin (2 * PI * fc / INR sr))) /\
    (forall h : Z, 2 * fc * INR sps = IZR h * INR sr -> eb = INR sps / 2).
Proof.
  intros Hr Hs Hm Y L W Hz. rewrite <- (tab_nth_id w 0) in Y.
  exists (Rsum_n (length w) (fun i => nth i w 0 * nth i w 0) / INR (length m)).
  assert (P : 0 < INR (length m)) by (apply lt_0_INR; destruct m; [contradiction|cbn; lia]).
  assert (Q : 0 < INR sps) by (apply lt_0_INR; lia).
  split.
  { intros fuel Hf. split; [apply (eb_tab _ _ _ _ Y); exact Hf|].
    rewrite (eb2_tab _ _ (length m) _ Y) by exact Hf. f_equal. rewrite L, mult_INR. field. lra. }
  rewrite (Rsum_n_ext (length w) _ _ W), L, Rsum_n_mul.
  set (c := fun i => cos (2 * PI * fc * (INR i / INR sr))).
  pose proof (sin_carrier sr fc Hr Hz) as Ha.
  split.
  - pose proof (Rsum_n_near (length m) (fun k => Rsum_n sps (fun j => c (k * sps + j)%nat * c (k * sps + j)%nat)) (INR sps / 2)
      (/ (2 * Rabs (sin (2 * PI * fc / INR sr)))) (fun k _ => proj1 (cos_energy_near sr sps k fc Hr Ha))) as B.
    fold c. cbv beta in B. unfold c in B at 1 2. unfold c. set (X := Rsum_n (length m) _) in *.
    replace (X / INR (length m) - INR sps / 2) with ((X - INR (length m) * (INR sps / 2)) / INR (length m)) by (field; lra).
    unfold Rdiv at 1. rewrite Rabs_mult, (Rabs_pos_eq (/ INR (length m))) by (left; apply Rinv_0_lt_compat; exact P).
    apply (Rmult_le_reg_r (INR (length m))); [exact P|]. rewrite Rmult_assoc, Rinv_l, Rmult_1_r by lra. lra.
  - intros h Hh. rewrite (Rsum_n_ext (length m) _ (fun _ => INR sps / 2)).
    + rewrite Rsum_n_const. field. lra.
    + intros k _. exact (proj2 (cos_energy_near sr sps k fc Hr Ha) h Hh).
Qed.

(** The energy per bit is half the number of samples per symbol, exactly with whole half-cycles and nearly
    so otherwise; the second measure is smaller by the number of samples. *)
Theorem C88_bpsk_eb :
  forall (message : Iter bool) m (sample_rate symbol_rate : nat) (fc : R) tx,
    let sps := (sample_rate / symbol_rate)%nat in
    yields message m -> m <> [] -> (symbol_rate <= sample_rate)%nat ->
    tx_bpsk_signal message sample_rate symbol_rate fc = Ret tx ->
    ~ (exists z : Z, 2 * fc = IZR z * INR sample_rate) ->
    exists eb,
      (forall fuel, (length m * sps < fuel)%nat -> check_eb fuel (length m) tx = Ret eb /\
         bpsk_eb_2 fuel (length m) tx = Ret (eb / (INR (length m) * INR sps))) /\
      Rabs (eb - INR sps / 2) <= / (2 * Rabs (sin (2 * PI * fc / INR sample_rate))) /\
      (forall half_cycles : Z, 2 * fc * INR sps = IZR half_cycles * INR sample_rate -> eb = INR sps / 2).
Proof.
  intros message m sr sy fc tx sps Hm Hne Hle Et Hz.
  destruct (C88_bpsk_power message m sr sy fc tx Hm Hle Et) as (w & Y & L & W). fold sps in L. rewrite <- L.
  destruct (tx_bpsk_inv _ _ _ _ _ Et) as (Hy & _).
  assert (Hn : (1 <= sr / sy)%nat) by (apply Nat.div_le_lower_bound; lia).
  apply (bpsk_eb m sr sps fc tx w); auto. lia.
Qed.
Theorem C88_cdma_bpsk_eb :
  forall (message : Iter bool) m (sample_rate symbol_rate : nat) (fc : R) key tx,
    let sps := (sample_rate / symbol_rate)%nat in
    yields message m -> m <> [] -> tx_cdma_bpsk_signal message sample_rate symbol_rate fc key = Ret tx ->
    ~ (exists z : Z, 2 * fc = IZR z * INR sample_rate) ->
    exists eb,
      (forall fuel, (length m * sps < fuel)%nat -> check_eb fuel (length m) tx = Ret eb) /\
      Rabs (eb - INR sps / 2) <= / (2 * Rabs (sin (2 * PI * fc / INR sample_rate))) /\
      (forall half_cycles : Z, 2 * fc * INR sps = IZR half_cycles * INR sample_rate -> eb = INR sps / 2).
Proof.
  intros message m sr sy fc key tx sps Hm Hne Et Hz.
  destruct (C88_cdma_bpsk_power message m sr sy fc key tx Hm Et) as (w & Y & L & W). fold sps in L. rewrite <- L.
  unfold tx_cdma_bpsk_signal in Et. destruct (cdma_rates sr sy fc key) as [p| |] eqn:Ep; try discriminate.
  destruct (cdma_rates_inv _ _ _ _ _ Ep) as (-> & Hy & Hk & Hr & Hc & _).
  assert (Hle : (sy <= sr)%nat) by (destruct key; [contradiction|cbn in Hr; nia]).
  assert (Hn : (1 <= sr / sy)%nat) by (apply Nat.div_le_lower_bound; lia).
  destruct (bpsk_eb m sr sps fc tx w) as (eb & A & B & C); auto; [lia|]. exists eb. split; [|auto].
  intros fuel Hf. apply A. exact Hf.
Qed.

(** ** QPSK, spread or not *)

Lemma qpsk_eb (m : list bool) (sr sps : nat) (fc : R) (tx : Iter R) g : (1 <= sr)%nat -> (1 <= sps)%nat -> m <> [] ->
  let ph i := 2 * PI * fc * (INR i / INR sr) in
  yields tx (tab (length m / 2 * sps) g) ->
  (forall k b1 b2 j, nth_error m (2 * k) = Some b1 -> nth_error m (2 * k + 1) = Some b2 -> (j < sps)%nat ->
     g (k * sps + j)%nat * g (k * sps + j)%nat =
     1 + (if Bool.eqb b1 b2 then - (2) else 2) * (sin (ph (k * sps + j)%nat) * cos (ph (k * sps + j)%nat))) ->
  ~ (exists z : Z, 2 * fc = IZR z * INR sr) ->
  exists eb, (forall fuel, (length m / 2 * sps < fuel)%nat -> check_eb fuel (length m) tx = Ret eb) /\
    Rabs (eb - INR sps * INR (length m / 2) / INR (length m)) <= / (2 * Rabs (sin (2 * PI * fc / INR sr))) /\
    (forall h : Z, 2 * fc * INR sps = IZR h * INR sr -> eb = INR sps * INR (length m / 2) / INR (length m)).
Proof.
  intros Hr Hs Hm ph Y W Hz.
  exists (Rsum_n (length m / 2 * sps) (fun i => g i * g i) / INR (length m)).
  assert (P : 0 < INR (length m)) by (apply lt_0_INR; destruct m; [contradiction|cbn; lia]).
  assert (Q : 0 < INR sps) by (apply lt_0_INR; lia).
  split; [intros fuel Hf; apply (eb_tab _ _ _ _ Y); exact Hf|].
  rewrite Rsum_n_mul. pose proof (sin_carrier sr fc Hr Hz) as Ha.
  assert (SE : forall k, (k < length m / 2)%nat -> exists s, (s = 2 \/ s = - (2)) /\
    Rsum_n sps (fun j => g (k * sps + j)%nat * g (k * sps + j)%nat) =
    INR sps + s * Rsum_n sps (fun j => sin (ph (k * sps + j)%nat) * cos (ph (k * sps + j)%nat))).
  { intros k Hk. pose proof (Nat.mul_div_le (length m) 2 ltac:(lia)) as M2.
    destruct (nth_error m (2 * k)) as [b1|] eqn:E1; [|apply nth_error_None in E1; lia].
    destruct (nth_error m (2 * k + 1)) as [b2|] eqn:E2; [|apply nth_error_None in E2; lia].
    exists (if Bool.eqb b1 b2 then - (2) else 2). split; [destruct (Bool.eqb b1 b2); auto|].
    rewrite (Rsum_n_ext sps _ _ (fun j Hj => W k b1 b2 j E1 E2 Hj)), Rsum_n_plus, Rsum_n_scale, Rsum_n_const. ring. }
  split.
  - pose proof (Rsum_n_near (length m / 2) (fun k => Rsum_n sps (fun j => g (k * sps + j)%nat * g (k * sps + j)%nat)) (INR sps)
      (/ Rabs (sin (2 * PI * fc / INR sr)))) as B.
    assert (B' : forall k, (k < length m / 2)%nat -> Rabs (Rsum_n sps (fun j => g (k * sps + j)%nat * g (k * sps + j)%nat) - INR sps) <=
                 / Rabs (sin (2 * PI * fc / INR sr))).
    { intros k Hk. destruct (SE k Hk) as (s & Hs' & ->).
      pose proof (mixed_energy_near sr sps k fc Hr Ha) as N. cbv zeta in N. fold ph in N.
      set (X := Rsum_n sps (fun j => sin (ph (k * sps + j)%nat) * cos (ph (k * sps + j)%nat))).
      replace (INR sps + s * X - INR sps) with (s * X) by ring. rewrite Rabs_mult.
      replace (Rabs s) with 2 by (destruct Hs' as [-> | ->]; [rewrite Rabs_pos_eq by lra|rewrite Rabs_Ropp, Rabs_pos_eq by lra]; reflexivity).
      assert (N' : Rabs X <= / (2 * Rabs (sin (2 * PI * fc / INR sr)))) by exact N.
      rewrite Rinv_mult in N'. lra. }
    specialize (B B'). clear B' SE. set (X := Rsum_n (length m / 2) _) in *.
    replace (X / INR (length m) - INR sps * INR (length m / 2) / INR (length m))
      with ((X - INR (length m / 2) * INR sps) / INR (length m)) by (field; lra).
    unfold Rdiv at 1. rewrite Rabs_mult, (Rabs_pos_eq (/ INR (length m))) by (left; apply Rinv_0_lt_compat; exact P).
    apply (Rmult_le_reg_r (INR (length m))); [exact P|]. rewrite Rmult_assoc, Rinv_l, Rmult_1_r by lra.
    eapply Rle_trans; [exact B|]. rewrite Rinv_mult.
    assert (HL : INR (length m / 2) <= / 2 * INR (length m)).
    { pose proof (Nat.mul_div_le (length m) 2 ltac:(lia)) as M2. apply le_INR in M2. rewrite mult_INR in M2. cbn [INR] in M2. lra. }
    assert (0 < / Rabs (sin (2 * PI * fc / INR sr))) by (apply Rinv_0_lt_compat, Rabs_pos_lt, Ha). nra.
  - intros h Hh. rewrite (Rsum_n_ext (length m / 2) _ (fun _ => INR sps)).
    + rewrite Rsum_n_const. field. lra.
    + intros k Hk. destruct (SE k Hk) as (s & _ & ->).
      destruct (cos_energy_near sr sps k fc Hr Ha) as [_ _].
      set (a := 2 * PI * fc / INR sr) in *. assert (Hsr : INR sr <> 0) by (apply not_0_INR; lia).
      destruct (sum_whole a (2 * (a * INR (k * sps))) sps h Ha) as [_ SS].
      { unfold a. replace (2 * (2 * PI * fc / INR sr) * INR sps) with (2 * PI * (2 * fc * INR sps) / INR sr) by (field; exact Hsr).
        rewrite Hh. field. exact Hsr. }
      rewrite (Rsum_n_ext sps _ (fun j => 1 / 2 * sin (2 * (a * INR (k * sps)) + 2 * a * INR j))); [rewrite Rsum_n_scale, SS; ring|].
      intros j _. rewrite sin_cos_half. replace (2 * ph (k * sps + j)%nat) with (2 * (a * INR (k * sps)) + 2 * a * INR j); [lra|].
      unfold ph, a. rewrite plus_INR. field. exact Hsr.
Qed.

Lemma qpsk_square b1 b2 c s : c * c + s * s = 1 ->
  ((if b1 : bool then 1 else -1) * c + - (if b2 : bool then 1 else -1) * s) * ((if b1 then 1 else -1) * c + - (if b2 then 1 else -1) * s) =
  1 + (if Bool.eqb b1 b2 then - (2) else 2) * (s * c).
Proof. intros H. destruct b1, b2; cbn [Bool.eqb]; lra. Qed.

(** Two bits share a symbol of sps units: again half the samples per bit; a last odd bit sends nothing. *)
Theorem C88_qpsk_eb :
  forall (message : Iter bool) m (sample_rate symbol_rate : nat) (fc : R),
    let sps := (sample_rate / symbol_rate)%nat in
    yields message m -> m <> [] -> (1 <= symbol_rate <= sample_rate)%nat ->
    ~ (exists z : Z, 2 * fc = IZR z * INR sample_rate) ->
    exists tx eb, tx_qpsk_signal message sample_rate symbol_rate fc = Ret tx /\
      (forall fuel, (length m / 2 * sps < fuel)%nat -> check_eb fuel (length m) tx = Ret eb) /\
      Rabs (eb - INR sps * INR (length m / 2) / INR (length m)) <= / (2 * Rabs (sin (2 * PI * fc / INR sample_rate))) /\
      (forall half_cycles : Z, 2 * fc * INR sps = IZR half_cycles * INR sample_rate ->
         eb = INR sps * INR (length m / 2) / INR (length m) /\ (Nat.even (length m) = true -> eb = INR sps / 2)).
Proof.
  intros message m sr sy fc sps Hm Hne Hr Hz.
  assert (Hn : (1 <= sr / sy)%nat) by (apply Nat.div_le_lower_bound; lia).
  destruct (tx_qpsk_inv message sr sy fc ltac:(lia) Hn) as (tx & Et & Yt).
  specialize (Yt m Hm). unfold qpsk_wave in Yt. rewrite (pairs_length (length m) m eq_refl) in Yt. fold sps in Yt.
  exists tx. destruct (qpsk_eb m sr sps fc tx _ ltac:(lia) Hn Hne Yt) as (eb & A & B & C); [|exact Hz|].
  - intros k b1 b2 j H1 H2 Hj. rewrite block_div by exact Hj.
    rewrite (nth_error_nth (pairs m) k (false, false) (pairs_nth (length m) m k b1 b2 eq_refl H1 H2)).
    unfold ccos, csin. rewrite !phase_R, !nrz_R. cbn. apply qpsk_square. rewrite Rplus_comm. apply sin2_cos2.
  - exists eb. split; [exact Et|]. split; [exact A|]. split; [exact B|]. intros h Hh. specialize (C h Hh). split; [exact C|].
    intros Ev. rewrite C. apply Nat.even_spec in Ev. destruct Ev as [q Eq].
    assert (q <> 0%nat) by (intros ->; destruct m; [contradiction|discriminate]).
    rewrite Eq, (Nat.mul_comm 2 q), Nat.div_mul by lia. rewrite mult_INR. cbn [INR]. field. apply not_0_INR. exact H.
Qed.

Theorem C88_cdma_qpsk_eb :
  forall (message : Iter bool) m (sample_rate symbol_rate : nat) (fc : R) key tx,
    let sps := (sample_rate / symbol_rate)%nat in
    yields message m -> m <> [] -> tx_cdma_qpsk_signal message sample_rate symbol_rate fc key = Ret tx ->
    ~ (exists z : Z, 2 * fc = IZR z * INR sample_rate) ->
    exists eb,
      (forall fuel, (length m / 2 * sps < fuel)%nat -> check_eb fuel (length m) tx = Ret eb) /\
      Rabs (eb - INR sps * INR (length m / 2) / INR (length m)) <= / (2 * Rabs (sin (2 * PI * fc / INR sample_rate))) /\
      (forall half_cycles : Z, 2 * fc * INR sps = IZR half_cycles * INR sample_rate ->
         eb = INR sps * INR (length m / 2) / INR (length m)).
Proof.
  intros message m sr sy fc key tx sps Hm Hne E Hz. unfold tx_cdma_qpsk_signal in E.
  destruct (cdma_rates sr sy fc key) as [p| |] eqn:Ep; try discriminate.
  destruct (cdma_rates_inv _ _ _ _ _ Ep) as (-> & Hy & Hk & Hr & Hc & _). cbn [bind] in E.
  assert (Hle : (sy <= sr)%nat) by (destruct key; [contradiction|cbn in Hr; nia]).
  assert (Hn : (1 <= sr / sy)%nat) by (apply Nat.div_le_lower_bound; lia).
  destruct (tx_qpsk_inv message sr sy fc ltac:(lia) Hn) as (tx0 & Et & Yt). rewrite Et in E. cbn [bind] in E. injection E as <-.
  specialize (Yt m Hm). unfold qpsk_wave in Yt. rewrite (pairs_length (length m) m eq_refl) in Yt. fold sps in Yt, Hc, Hn.
  pose proof (chip_mul_yields (sps / length key) key tx0 _ _ ltac:(lia) Hk Yt) as Yc.
  refine (qpsk_eb m sr sps fc _ _ ltac:(lia) Hn Hne Yc _ Hz).
  intros k b1 b2 j H1 H2 Hj. rewrite block_div by exact Hj.
  rewrite (nth_error_nth (pairs m) k (false, false) (pairs_nth (length m) m k b1 b2 eq_refl H1 H2)).
  unfold ccos, csin. rewrite !phase_R, !nrz_R. cbn.
  match goal with |- ?x * ?y * (?x * ?y) = _ => replace (x * y * (x * y)) with (x * x * (y * y)) by ring end.
  rewrite qpsk_square by (rewrite Rplus_comm; apply sin2_cos2). destruct (nth (_ mod _) key false); lra.
Qed.

(** ** BFSK: each bit by its own frequency *)
Theorem C88_bfsk_eb :
  forall (message : Iter bool) m (sample_rate symbol_rate : nat) (freq_low freq_high : R) tx,
    let sps := (sample_rate / symbol_rate)%nat in
    yields message m -> m <> [] -> (symbol_rate <= sample_rate)%nat ->
    tx_bfsk_signal message sample_rate symbol_rate freq_low freq_high = Ret tx ->
    (forall f, In f [freq_low; freq_high] -> ~ (exists z : Z, 2 * f = IZR z * INR sample_rate)) ->
    exists eb,
      (forall fuel, (length m * sps < fuel)%nat -> check_eb fuel (length m) tx = Ret eb) /\
      (forall d, (forall f, In f [freq_low; freq_high] -> / (2 * Rabs (sin (2 * PI * f / INR sample_rate))) <= d) ->
         Rabs (eb - INR sps / 2) <= d) /\
      ((forall f, In f [freq_low; freq_high] -> exists half_cycles : Z, 2 * f * INR sps = IZR half_cycles * INR sample_rate) ->
         eb = INR sps / 2).
Proof.
  intros message m sr sy lo hi tx sps Hm Hne Hle Et Hz.
  destruct (C49_bfsk_wave message m sr sy lo hi tx Hm Hle Et) as (w & Y & L & W). fold sps in L, W.
  assert (Hsy : sy <> 0%nat) by (intros ->; unfold tx_bfsk_signal, usize_div in Et; discriminate).
  assert (Hn : (1 <= sps)%nat) by (apply Nat.div_le_lower_bound; lia).
  rewrite <- (tab_nth_id w 0), L in Y.
  exists (Rsum_n (length m * sps) (fun i => nth i w 0 * nth i w 0) / INR (length m)).
  assert (P : 0 < INR (length m)) by (apply lt_0_INR; destruct m; [contradiction|cbn; lia]).
  split; [intros fuel Hf; apply (eb_tab _ _ _ _ Y); exact Hf|]. rewrite Rsum_n_mul.
  set (fq := fun k => if nth k m false then hi else lo).
  assert (SE : forall k, (k < length m)%nat -> In (fq k) [lo; hi] /\
    Rsum_n sps (fun j => nth (k * sps + j) w 0 * nth (k * sps + j) w 0) =
    Rsum_n sps (fun j => cos (2 * PI * fq k * (INR (k * sps + j) / INR sr)) * cos (2 * PI * fq k * (INR (k * sps + j) / INR sr)))).
  { intros k Hk. split; [unfold fq; destruct (nth k m false); cbn; auto|].
    apply Rsum_n_ext. intros j Hj.
    rewrite (nth_error_nth w (k * sps + j) 0 (W k (nth k m false) j (nth_error_nth' m false Hk) Hj)).
    cbn. unfold nofnat. cbn. rewrite <- !INR_IZR_INZ. reflexivity. }
  split.
  - intros d Hd. pose proof (Rsum_n_near (length m) (fun k => Rsum_n sps (fun j => nth (k * sps + j) w 0 * nth (k * sps + j) w 0)) (INR sps / 2) d) as B.
    assert (B' : forall k, (k < length m)%nat -> Rabs (Rsum_n sps (fun j => nth (k * sps + j) w 0 * nth (k * sps + j) w 0) - INR sps / 2) <= d).
    { intros k Hk. destruct (SE k Hk) as [I ->]. eapply Rle_trans; [|apply (Hd _ I)].
      apply (cos_energy_near sr sps k (fq k) ltac:(lia)). apply sin_carrier; [lia|]. apply Hz. exact I. }
    specialize (B B'). set (X := Rsum_n (length m) _) in *.
    replace (X / INR (length m) - INR sps / 2) with ((X - INR (length m) * (INR sps / 2)) / INR (length m)) by (field; lra).
    unfold Rdiv at 1. rewrite Rabs_mult, (Rabs_pos_eq (/ INR (length m))) by (left; apply Rinv_0_lt_compat; exact P).
    apply (Rmult_le_reg_r (INR (length m))); [exact P|]. rewrite Rmult_assoc, Rinv_l, Rmult_1_r by lra. lra.
  - intros Hd. rewrite (Rsum_n_ext (length m) _ (fun _ => INR sps / 2)); [rewrite Rsum_n_const; field; lra|].
    intros k Hk. destruct (SE k Hk) as [I ->]. destruct (Hd _ I) as [h Hh].
    apply (cos_energy_near sr sps k (fq k) ltac:(lia)) with (h := h); [|exact Hh]. apply sin_carrier; [lia|]. apply Hz. exact I.
Qed.

(** ** OFDM: the energy of the symbols, spread over the block (Parseval) *)

Lemma Rsum_perm a b : Permutation a b -> Rsum a = Rsum b.
Proof. induction 1; cbn; lra. Qed.
Lemma Rsum_zero (l : list nat) f : (forall c, In c l -> f c = 0) -> Rsum (map f l) = 0.
Proof. induction l as [|c l IH]; intros H; cbn; [reflexivity|]. rewrite H, IH by (auto with datatypes). lra. Qed.
Lemma Rsum_filter (l : list nat) f p : Rsum (map f l) = Rsum (map f (filter p l)) + Rsum (map f (filter (fun c => negb (p c)) l)).
Proof. induction l as [|c l IH]; cbn; [lra|]. destruct (p c); cbn; lra. Qed.
Lemma Rsum_support (cs l : list nat) f : NoDup cs -> NoDup l -> (forall c, In c cs -> In c l) -> (forall c, ~ In c cs -> f c = 0) ->
  Rsum (map f l) = Rsum (map f cs).
Proof.
  intros N1 N2 I Z. rewrite (Rsum_filter l f (fun c => if in_dec Nat.eq_dec c cs then true else false)).
  rewrite (Rsum_zero (filter (fun c => negb _) l) f), Rplus_0_r.
  - apply Rsum_perm, Permutation_map, NoDup_Permutation; [apply NoDup_filter; exact N2|exact N1|].
    intros c. rewrite filter_In. specialize (I c). clear - I.
    destruct (in_dec Nat.eq_dec c cs); split; intuition congruence.
  - intros c Hc. apply filter_In in Hc. destruct Hc as [_ Hc]. apply Z. intros Hin.
    destruct (in_dec Nat.eq_dec c cs); [discriminate|contradiction].
Qed.

Lemma ofdm_body_energy N d : (N <> 0)%nat -> length d = N ->
  INR N * Rsum (map cabs2 (ofdm_body exact_fft N d)) = Rsum (map cabs2 d).
Proof.
  intros HN L. pose proof (ofdm_body_length exact_fft N d) as LB. rewrite L in LB.
  transitivity (Rsum (map cabs2 (fftshift d))).
  - rewrite <- (dft_body N d L). rewrite <- (tab_nth_id (ofdm_body exact_fft N d) C0), LB.
    set (x := fun i => nth i (ofdm_body exact_fft N d) C0). rewrite dft_tab, !tab_map, !Rsum_tab.
    symmetry. exact (parseval N x HN).
  - apply Rsum_perm, Permutation_map. unfold fftshift. etransitivity; [apply Permutation_app_comm|]. rewrite firstn_skipn. reflexivity.
Qed.

Theorem C88_ofdm_energy :
  forall (symbols : Iter (cpx R)) s N P, (1 <= P < N)%nat -> yields symbols s ->
    exists tx blocks, tx_baseband_ofdm_signal exact_fft symbols N P = Ret tx /\ yields tx (concat blocks) /\
      forall k b, nth_error blocks k = Some b ->
        Rsum (map (fun z => re z * re z + im z * im z) (skipn (N / 4) b)) =
        Rsum (map (fun z => re z * re z + im z * im z) (firstn (N - P) (skipn (k * (N - P)) s))) / INR N.
Proof.
  intros symbols s N P HP Hs. destruct (tx_ofdm_inv exact_fft symbols N P HP) as (tx & Et & Yt).
  exists tx, (map (ofdm_block exact_fft N P) (chunk_list (N - P) s)). split; [exact Et|]. split.
  { rewrite <- flat_map_concat_map. apply Yt. exact Hs. }
  intros k b Hb. unfold chunk_list in Hb. rewrite map_map in Hb.
  destruct (Nat.lt_ge_cases k (ceil_div (length s) (N - P))) as [Hk|Hk].
  2:{ rewrite (proj2 (nth_error_None _ k)) in Hb; [discriminate|]. rewrite map_length, seq_length. exact Hk. }
  pose proof (map_nth_error (fun i => ofdm_block exact_fft N P (block (N - P) i s)) k (seq 0 (ceil_div (length s) (N - P)))) as M.
  specialize (M k). rewrite M in Hb by (rewrite (nth_error_nth' _ 0%nat) by (rewrite seq_length; exact Hk); rewrite seq_nth by exact Hk; reflexivity).
  injection Hb as <-. unfold block. set (chunk := firstn (N - P) (skipn (k * (N - P)) s)).
  destruct (ofdm_block_spec exact_fft N P chunk ltac:(lia)) as (d & (L & Hz & Hd) & E & _). rewrite E. unfold with_cp.
  pose proof (quarter N). pose proof (ofdm_body_length exact_fft N d) as LB. rewrite L in LB.
  rewrite skipn_app, skipn_all2, skipn_length by (rewrite skipn_length; lia).
  replace (N / 4 - (length (ofdm_body exact_fft N d) - (N - N / 4)))%nat with 0%nat by lia. cbn [app skipn].
  change (fun z : cpx R => re z * re z + im z * im z) with cabs2.
  assert (HN : INR N <> 0) by (apply not_0_INR; lia).
  apply (Rmult_eq_reg_l (INR N)); [|exact HN]. rewrite ofdm_body_energy by (lia || exact L).
  replace (INR N * _) with (Rsum (map cabs2 chunk)) by (field; exact HN).
  assert (Lc : (length chunk <= N - P)%nat) by (unfold chunk; rewrite firstn_length; lia).
  rewrite <- (tab_nth_id d c0), L, tab_map. unfold tab.
  rewrite (Rsum_support (carriers N P) (seq 0 N) (fun c => cabs2 (nth c d c0))).
  - rewrite <- (tab_nth_id (carriers N P) 0%nat), carriers_length by lia. rewrite tab_map.
    rewrite (tab_ext _ _ (fun i => cabs2 (nth i chunk c0))) by (intros i Hi; rewrite Hd by exact Hi; reflexivity).
    rewrite Rsum_tab. replace (N - P)%nat with (length chunk + (N - P - length chunk))%nat by lia.
    rewrite Rsum_n_add. rewrite (Rsum_n_ext (N - P - length chunk) _ (fun _ => 0)).
    + rewrite Rsum_n_const. rewrite <- (tab_nth_id chunk c0) at 3. rewrite tab_map, Rsum_tab. lra.
    + intros i _. rewrite nth_overflow by lia. unfold cabs2. cbn. lra.
  - apply carriers_nodup.
  - apply seq_NoDup.
  - intros c Hc. apply in_seq. pose proof (carriers_lt N P c ltac:(lia) Hc). lia.
  - intros c Hc. rewrite Hz by exact Hc. unfold cabs2. cbn. lra.
Qed.

(** One symbol 3 + 4i on a full block of eight with two pilots: 25/8 units of energy. *)
Example C88_ofdm_case : exists tx blocks, tx_baseband_ofdm_signal exact_fft (of_list [Cpx 3 4]) 8 2 = Ret tx /\
  yields tx (concat blocks) /\ forall b, nth_error blocks 0 = Some b ->
    Rsum (map (fun z => re z * re z + im z * im z) (skipn 2 b)) = 25 / 8.
Proof.
  destruct (C88_ofdm_energy (of_list [Cpx 3 4]) _ 8 2 ltac:(lia) (of_list_yields _)) as (tx & bl & Et & Y & E).
  exists tx, bl. split; [exact Et|]. split; [exact Y|]. intros b Hb. change 2%nat with (8 / 4)%nat. rewrite (E 0%nat b Hb). cbn. lra.
Qed.

(** ** Concrete cases: the parameters of tests/eb.rs, 43200 samples and 90 symbols per second, carrier 180 Hz *)

Lemma eb_design : (480 * 90 / 90)%nat = 480%nat /\ ~ (exists z : Z, 2 * 180 = IZR z * INR (480 * 90)) /\
  2 * 180 * INR 480 = IZR 4 * INR (480 * 90).
Proof.
  split; [apply Nat.div_mul; discriminate|]. rewrite mult_INR, !INR_IZR_INZ.
  change (Z.of_nat 480) with 480%Z. change (Z.of_nat 90) with 90%Z. split; [|lra].
  intros [z Hz]. rewrite <- !mult_IZR in Hz. apply eq_IZR in Hz. lia.
Qed.
Example C88_qpsk_case (b : bool) : exists tx, tx_qpsk_signal (of_list [b; true]) (480 * 90) 90 (180 : R) = Ret tx /\
  forall fuel, (480 < fuel)%nat -> check_eb fuel 2 tx = Ret 240.
Proof.
  destruct eb_design as (D & H1 & H2).
  destruct (C88_qpsk_eb (of_list [b; true]) [b; true] (480 * 90) 90 180 (of_list_yields _) ltac:(discriminate) ltac:(lia) H1)
    as (tx & eb & Et & F & _ & E).
  exists tx. split; [exact Et|]. intros fuel Hf. rewrite D in E, F. cbn [length] in F. rewrite F by (cbn; lia). f_equal.
  destruct (E 4%Z H2) as [_ E2]. rewrite (E2 eq_refl), INR_IZR_INZ. change (Z.of_nat 480) with 480%Z. lra.
Qed.
Lemma is_int_mul (a b : nat) : b <> 0%nat -> (Z.of_nat a < 2 ^ 32)%Z -> is_int (ndiv (nofnat (a * b)) (nofnat b) : R) = true.
Proof.
  intros Hb Ha. unfold is_int, nofnat. cbn [ndiv nofZ neqb nto_u64 NumR]. rewrite Nat2Z.inj_mul, mult_IZR.
  replace (IZR (Z.of_nat a) * IZR (Z.of_nat b) / IZR (Z.of_nat b)) with (IZR (Z.of_nat a)) by (field; apply not_0_IZR; lia).
  rewrite Ztrunc_IZR. destruct (Req_EM_T _ _) as [_|N]; [reflexivity|]. destruct N. f_equal. unfold clamp_u64, u64_max. lia.
Qed.
Lemma tx_bpsk_ok message sps sy (fc : R) : sy <> 0%nat -> (Z.of_nat sps < 2 ^ 32)%Z -> nyquist_ok (sps * sy) fc = true ->
  exists tx, tx_bpsk_signal message (sps * sy) sy fc = Ret tx.
Proof.
  intros Hy Hs Hn. unfold tx_bpsk_signal. rewrite usize_div_intro by exact Hy. cbn [bind].
  rewrite Hn, (is_int_mul sps sy Hy Hs). cbn [assert_then]. eexists. reflexivity.
Qed.
Example C88_bpsk_case (b : bool) : exists tx, tx_bpsk_signal (of_list [b; true]) (480 * 90) 90 (180 : R) = Ret tx /\
  forall fuel, (960 < fuel)%nat -> check_eb fuel 2 tx = Ret 240 /\ bpsk_eb_2 fuel 2 tx = Ret (1 / 4).
Proof.
  destruct eb_design as (D & H1 & H2).
  assert (E : exists tx, tx_bpsk_signal (of_list [b; true]) (480 * 90) 90 (180 : R) = Ret tx).
  { apply tx_bpsk_ok; [discriminate|reflexivity|]. unfold nyquist_ok.
    replace (nto_u64 (180 : R)) with 180%Z by (cbn [nto_u64 NumR]; rewrite Ztrunc_IZR; reflexivity).
    apply Z.leb_le. rewrite Nat2Z.inj_div, Nat2Z.inj_mul. change (Z.of_nat 480) with 480%Z. change (Z.of_nat 90) with 90%Z.
    change (Z.of_nat 2) with 2%Z. vm_compute. discriminate. }
  destruct E as (tx & Et). exists tx. split; [exact Et|].
  destruct (C88_bpsk_eb (of_list [b; true]) [b; true] (480 * 90) 90 180 tx (of_list_yields _) ltac:(discriminate) ltac:(lia) Et H1)
    as (eb & F & _ & E).
  rewrite D in E, F. cbn [length] in F. rewrite (E 4%Z H2) in F.
  assert (S : INR 480 = 480) by (rewrite INR_IZR_INZ; change (Z.of_nat 480) with 480%Z; reflexivity). rewrite S in F.
  intros fuel Hf. destruct (F fuel ltac:(lia)) as [F1 F2]. rewrite F1, F2. split; f_equal; cbn [INR]; field.
Qed.

(** ** Axioms used *)
Print Assumptions C88_bpsk_power.
Print Assumptions C88_cdma_bpsk_power.
Print Assumptions C88_bpsk_eb.
Print Assumptions C88_cdma_bpsk_eb.
Print Assumptions C88_qpsk_eb.
Print Assumptions C88_cdma_qpsk_eb.
Print Assumptions C88_bfsk_eb.
Print Assumptions C88_ofdm_energy.
