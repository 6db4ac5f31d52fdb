(** Property C78: noise on the passband BPSK and QPSK signals (src/bpsk.rs, src/qpsk.rs), exact arithmetic. *)
From Coq Require Import List Arith ZArith Reals Bool Lia Lra Psatz.
From Flocq Require Import Core.
From Verif Require Import Base IterTheory IterModel IterProofs Spec SpecR Tab Num LibModel LibReal
  ChaosModel PskModel PskChain RSums PskReal Props_Psk.
Import ListNotations.
Local Open Scope R_scope.

(** A channel adding noise: sample i of the signal plus entry i of the noise. *)
Definition noisy {T} `{Num T} (signal : Iter T) (noise : list T) : Iter T :=
  imap (fun '(s, z) => nadd s z) (izip signal (of_list noise)).

Lemma noisy_yields {T} `{Num T} (signal : Iter T) noise n g d :
  yields signal (tab n g) -> length noise = n ->
  yields (noisy signal noise) (tab n (fun i => nadd (g i) (nth i noise d))).
Proof.
  intros Y L. pose proof (imap_yields (fun '(s, z) => nadd s z) _ _ (izip_yields _ _ _ _ Y (of_list_yields noise))) as Z.
  refine (eq_ind _ (fun x => yields _ x) Z _ _).
  rewrite <- (tab_nth_id noise d) at 1. rewrite L, tab_combine, tab_map. reflexivity.
Qed.

Lemma Rsum_n_minus n f g : Rsum_n n (fun j => f j - g j) = Rsum_n n f - Rsum_n n g.
Proof. induction n as [|n IH]; cbn; lra. Qed.

Lemma cauchy_schwarz n f g :
  Rsum_n n (fun j => f j * g j) * Rsum_n n (fun j => f j * g j) <=
  Rsum_n n (fun j => f j * f j) * Rsum_n n (fun j => g j * g j).
Proof.
  set (P := Rsum_n n (fun j => f j * g j)). set (F := Rsum_n n (fun j => f j * f j)). set (G := Rsum_n n (fun j => g j * g j)).
  assert (Q : forall t, 0 <= F - 2 * t * P + t * t * G).
  { intros t. replace (F - 2 * t * P + t * t * G) with (Rsum_n n (fun j => (f j - t * g j) * (f j - t * g j))).
    - apply Rsum_n_nonneg. intros. apply Rle_0_sqr.
    - rewrite (Rsum_n_ext n _ (fun j => (f j * f j + (- (2 * t)) * (f j * g j)) + (t * t) * (g j * g j))).
      + rewrite !Rsum_n_plus, !Rsum_n_scale. unfold F, P, G. ring.
      + intros; ring. }
  assert (HG : 0 <= G) by (apply Rsum_n_nonneg; intros; apply Rle_0_sqr).
  destruct (Rle_lt_or_eq_dec _ _ HG) as [L|E].
  - specialize (Q (P / G)). replace (F - 2 * (P / G) * P + P / G * (P / G) * G) with ((F * G - P * P) / G) in Q by (field; lra).
    apply Rmult_le_compat_r with (r := G) in Q; [|lra]. unfold Rdiv in Q. rewrite Rmult_assoc, Rinv_l in Q by lra. lra.
  - rewrite <- E in *. destruct (Req_dec P 0) as [->|NP]; [lra|].
    specialize (Q ((F + 1) / (2 * P))). replace (2 * ((F + 1) / (2 * P)) * P) with (F + 1) in Q by (field; lra). lra.
Qed.

(** Less energy than the reference means a smaller correlation with it. *)
Lemma weak_noise n z c E : Rsum_n n (fun j => c j * c j) = E -> Rsum_n n (fun j => z j * z j) < E ->
  Rabs (Rsum_n n (fun j => z j * c j)) < E.
Proof.
  intros HE HN. pose proof (cauchy_schwarz n z c) as CS. rewrite HE in CS.
  assert (0 <= Rsum_n n (fun j => z j * z j)) by (apply Rsum_n_nonneg; intros; apply Rle_0_sqr).
  set (P := Rsum_n n (fun j => z j * c j)) in *. set (Z := Rsum_n n (fun j => z j * z j)) in *.
  apply Rabs_def1; apply Rnot_le_lt; intros B.
  - assert (E * E <= P * P) by (apply Rmult_le_compat; lra). nra.
  - assert (E * E <= (- P) * (- P)) by (apply Rmult_le_compat; lra). nra.
Qed.

(** ** BPSK *)

(** Exactly which noise flips which bit: only its correlation with the carrier over that bit counts. *)
Theorem C78_bpsk_noise_exact :
  forall (message : Iter bool) m (sample_rate symbol_rate : nat) (fc : R) tx (noise : list R),
    let sps := (sample_rate / symbol_rate)%nat in
    let carrier i := cos (2 * PI * fc * (INR i / INR sample_rate)) in
    yields message m -> tx_bpsk_signal message sample_rate symbol_rate fc = Ret tx ->
    (symbol_rate <= sample_rate)%nat -> length noise = (length m * sps)%nat ->
    exists rx out, rx_bpsk_signal (noisy tx noise) sample_rate symbol_rate fc = Ret rx /\
      yields rx out /\ length out = length m /\
      forall k b, nth_error m k = Some b ->
        let energy := Rsum_n sps (fun j => carrier (k * sps + j)%nat * carrier (k * sps + j)%nat) in
        let hit := Rsum_n sps (fun j => nth (k * sps + j) noise 0 * carrier (k * sps + j)%nat) in
        (nth_error out k = Some b <-> if b then - hit < energy else hit <= energy).
Proof.
  intros message m sr sy fc tx noise sps carrier Hm Htx Hle HL.
  destruct (tx_bpsk_inv _ _ _ _ _ Htx) as (Hy & _ & _ & Y).
  assert (Hn : (1 <= sr / sy)%nat) by (apply Nat.div_le_lower_bound; lia).
  specialize (Y Hn m Hm). unfold bpsk_wave in Y. fold sps in Y, Hn.
  pose proof (noisy_yields tx noise _ _ 0 Y HL) as Y2.
  destruct (rx_bpsk_intro (noisy tx noise) sr sy fc Hy Hn) as (rx & Er & Yr & _).
  exists rx. eexists. split; [exact Er|]. split; [apply Yr; exact Y2|]. fold sps. split; [apply tab_length|].
  intros k b Hb energy hit. assert (Hk : (k < length m)%nat) by (apply nth_error_Some; congruence).
  rewrite tab_nth_error. apply Nat.ltb_lt in Hk. rewrite Hk. rewrite corr_R.
  rewrite (Rsum_n_ext sps _ (fun j => (if b then 1 else -1) * (carrier (k * sps + j)%nat * carrier (k * sps + j)%nat) +
    nth (k * sps + j) noise 0 * carrier (k * sps + j)%nat)).
  2:{ intros j Hj. rewrite block_div by exact Hj. rewrite (nth_error_nth _ _ false Hb).
      unfold ccos. rewrite phase_R, nrz_R. fold (carrier (k * sps + j)%nat). cbn [nmul nadd ncos NumR].
      fold (carrier (k * sps + j)%nat). ring. }
  rewrite Rsum_n_plus, Rsum_n_scale. fold energy hit. cbn [nofZ NumR].
  destruct b; destruct (nltb 0 _) eqn:E.
  - apply nltb_R in E. split; [lra|reflexivity].
  - assert (N : ~ 0 < 1 * energy + hit) by (intros X; apply nltb_R in X; congruence). split; [discriminate|lra].
  - apply nltb_R in E. split; [discriminate|lra].
  - assert (N : ~ 0 < -1 * energy + hit) by (intros X; apply nltb_R in X; congruence). split; [lra|reflexivity].
Qed.

(** Noise with less energy in each bit than the bit itself does no harm. *)
Theorem C78_bpsk_noise_energy :
  forall (message : Iter bool) m (sample_rate symbol_rate : nat) (fc : R) tx (noise : list R),
    let sps := (sample_rate / symbol_rate)%nat in
    let carrier i := cos (2 * PI * fc * (INR i / INR sample_rate)) in
    yields message m -> tx_bpsk_signal message sample_rate symbol_rate fc = Ret tx ->
    (symbol_rate <= sample_rate)%nat -> length noise = (length m * sps)%nat ->
    (forall k, (k < length m)%nat ->
       Rsum_n sps (fun j => nth (k * sps + j) noise 0 * nth (k * sps + j) noise 0) <
       Rsum_n sps (fun j => carrier (k * sps + j)%nat * carrier (k * sps + j)%nat)) ->
    exists rx, rx_bpsk_signal (noisy tx noise) sample_rate symbol_rate fc = Ret rx /\ yields rx m.
Proof.
  intros message m sr sy fc tx noise sps carrier Hm Htx Hle HL Hw.
  destruct (C78_bpsk_noise_exact message m sr sy fc tx noise Hm Htx Hle HL) as (rx & out & Er & Yr & L & E).
  exists rx. split; [exact Er|]. replace m with out; [exact Yr|].
  apply nth_error_inj. intros k. destruct (nth_error m k) as [b|] eqn:Eb.
  2:{ apply nth_error_None. apply nth_error_None in Eb. lia. }
  assert (Hk : (k < length m)%nat) by (apply nth_error_Some; congruence).
  apply (E k b Eb).
  pose proof (weak_noise sps (fun j => nth (k * sps + j) noise 0) (fun j => carrier (k * sps + j)%nat) _ eq_refl (Hw k Hk)) as W.
  apply Rabs_def2 in W. cbv beta in W. unfold carrier in W. fold sps. destruct b; lra.
Qed.

(** Noise with exactly the energy of a bit can lose it: the previous theorem cannot be improved. *)
Theorem C78_bpsk_noise_tight :
  forall (message : Iter bool) m (sample_rate symbol_rate : nat) (fc : R) tx k,
    let sps := (sample_rate / symbol_rate)%nat in
    let carrier i := cos (2 * PI * fc * (INR i / INR sample_rate)) in
    yields message m -> tx_bpsk_signal message sample_rate symbol_rate fc = Ret tx ->
    (symbol_rate <= sample_rate)%nat -> nth_error m k = Some true ->
    exists noise rx out, length noise = (length m * sps)%nat /\
      Rsum_n sps (fun j => nth (k * sps + j) noise 0 * nth (k * sps + j) noise 0) =
      Rsum_n sps (fun j => carrier (k * sps + j)%nat * carrier (k * sps + j)%nat) /\
      rx_bpsk_signal (noisy tx noise) sample_rate symbol_rate fc = Ret rx /\ yields rx out /\
      nth_error out k = Some false.
Proof.
  intros message m sr sy fc tx k sps carrier Hm Htx Hle Hb.
  assert (Hk : (k < length m)%nat) by (apply nth_error_Some; congruence).
  set (noise := tab (length m * sps) (fun i => - carrier i)).
  assert (HL : length noise = (length m * sps)%nat) by apply tab_length.
  assert (Z : forall j, (j < sps)%nat -> nth (k * sps + j) noise 0 = - carrier (k * sps + j)%nat).
  { intros j Hj. unfold noise. rewrite tab_nth by nia. reflexivity. }
  destruct (C78_bpsk_noise_exact message m sr sy fc tx noise Hm Htx Hle HL) as (rx & out & Er & Yr & L & E).
  exists noise, rx, out. split; [exact HL|]. split.
  { apply Rsum_n_ext. intros j Hj. rewrite (Z j Hj). ring. }
  split; [exact Er|]. split; [exact Yr|].
  specialize (E k true Hb). cbv zeta iota in E. fold sps in E.
  rewrite (Rsum_n_ext sps (fun j => nth (k * sps + j) noise 0 * _)
    (fun j => (-1) * (carrier (k * sps + j)%nat * carrier (k * sps + j)%nat))) in E.
  2:{ intros j Hj. rewrite (Z j Hj). unfold carrier. ring. }
  rewrite Rsum_n_scale in E. unfold carrier in E.
  assert (Hk' : (k < length out)%nat) by lia. apply nth_error_Some in Hk'.
  destruct (nth_error out k) as [[|]|]; [|reflexivity|congruence].
  exfalso. destruct E as [E _]. specialize (E eq_refl). lra.
Qed.

(** ** QPSK *)

Lemma pairs_nth {A} n : forall (m : list A) k a b, length m = n -> nth_error m (2 * k) = Some a -> nth_error m (2 * k + 1) = Some b ->
  nth_error (pairs m) k = Some (a, b).
Proof.
  induction n as [n IH] using lt_wf_ind. intros m k a b L H1 H2.
  destruct m as [|x [|y r]].
  - destruct k; discriminate.
  - destruct k; [discriminate|]. replace (2 * S k)%nat with (S (S (2 * k))) in H1 by lia. cbn in H1. destruct (2 * k)%nat; discriminate.
  - destruct k as [|k].
    + cbn in H1, H2 |- *. congruence.
    + replace (2 * S k)%nat with (S (S (2 * k))) in H1 by lia. replace (2 * S k + 1)%nat with (S (S (2 * k + 1))) in H2 by lia.
      cbn [nth_error] in H1, H2. cbn [pairs nth_error]. apply (IH (length r)); auto. cbn in L. lia.
Qed.

Lemma flat_map_pairs {B} (f g : nat -> B) n : forall s,
  length (flat_map (fun k => [f k; g k]) (seq s n)) = (2 * n)%nat /\
  forall k, (k < n)%nat -> nth_error (flat_map (fun k => [f k; g k]) (seq s n)) (2 * k) = Some (f (s + k)%nat) /\
    nth_error (flat_map (fun k => [f k; g k]) (seq s n)) (2 * k + 1) = Some (g (s + k)%nat).
Proof.
  induction n as [|n IH]; intros s.
  - split; [reflexivity|intros; lia].
  - cbn [seq flat_map app]. destruct (IH (S s)) as [L N]. split; [cbn [length]; lia|].
    intros [|k] Hk.
    + cbn. rewrite Nat.add_0_r. auto.
    + replace (2 * S k)%nat with (S (S (2 * k))) by lia. replace (S (S (2 * k)) + 1)%nat with (S (S (2 * k + 1))) by lia.
      cbn [nth_error]. replace (s + S k)%nat with (S s + k)%nat by lia. apply N. lia.
Qed.

(** The energies of a symbol of whole half-cycles. *)
Lemma qpsk_design_sums (sr sy : nat) (fc : R) (h : Z) k : let sps := (sr / sy)%nat in
  (1 <= sr)%nat -> 2 * fc * INR sps = IZR h * INR sr -> ~ (exists z : Z, 2 * fc = IZR z * INR sr) ->
  Rsum_n sps (fun j => cos (2 * PI * fc * (INR (k * sps + j) / INR sr)) * cos (2 * PI * fc * (INR (k * sps + j) / INR sr))) = INR sps / 2 /\
  Rsum_n sps (fun j => sin (2 * PI * fc * (INR (k * sps + j) / INR sr)) * sin (2 * PI * fc * (INR (k * sps + j) / INR sr))) = INR sps / 2 /\
  Rsum_n sps (fun j => sin (2 * PI * fc * (INR (k * sps + j) / INR sr)) * cos (2 * PI * fc * (INR (k * sps + j) / INR sr))) = 0.
Proof.
  intros sps Hr Hh Hz.
  assert (Hsr : INR sr <> 0) by (apply not_0_INR; lia).
  set (a := 2 * PI * fc / INR sr).
  assert (Ha : sin a <> 0).
  { intros E. apply sin_0_mult in E. destruct E as [z E]. apply Hz. exists z.
    apply (Rmult_eq_reg_l (PI / INR sr)).
    - unfold a in E. replace (PI / INR sr * (2 * fc)) with (2 * PI * fc / INR sr) by (field; exact Hsr). rewrite E. field. exact Hsr.
    - apply Rmult_integral_contrapositive_currified; [apply PI_neq0|apply Rinv_neq_0_compat; exact Hsr]. }
  assert (Hp : 2 * a * INR sps = 2 * PI * IZR h).
  { unfold a. replace (2 * (2 * PI * fc / INR sr) * INR sps) with (2 * PI * (2 * fc * INR sps) / INR sr) by (field; exact Hsr).
    rewrite Hh. field. exact Hsr. }
  destruct (sum_whole a (2 * (a * INR (k * sps))) sps h Ha Hp) as [SC SS].
  assert (P : forall j, 2 * (2 * PI * fc * (INR (k * sps + j) / INR sr)) = 2 * (a * INR (k * sps)) + 2 * a * INR j).
  { intros j. unfold a. rewrite plus_INR. field. exact Hsr. }
  split; [|split].
  - rewrite (Rsum_n_ext sps _ (fun j => 1 / 2 + 1 / 2 * cos (2 * (a * INR (k * sps)) + 2 * a * INR j))).
    + rewrite Rsum_n_plus, Rsum_n_scale, Rsum_n_const, SC. lra.
    + intros j _. rewrite cos_sq_half, P. lra.
  - rewrite (Rsum_n_ext sps _ (fun j => 1 / 2 + (- 1 / 2) * cos (2 * (a * INR (k * sps)) + 2 * a * INR j))).
    + rewrite Rsum_n_plus, Rsum_n_scale, Rsum_n_const, SC. lra.
    + intros j _. rewrite sin_sq_half, P. lra.
  - rewrite (Rsum_n_ext sps _ (fun j => 1 / 2 * sin (2 * (a * INR (k * sps)) + 2 * a * INR j))).
    + rewrite Rsum_n_scale, SS. lra.
    + intros j _. rewrite sin_cos_half, P. lra.
Qed.

(** Exactly which noise flips which bit of a pair. *)
Theorem C78_qpsk_noise_exact :
  forall (message : Iter bool) m (sample_rate symbol_rate : nat) (fc : R) (noise : list R),
    let sps := (sample_rate / symbol_rate)%nat in
    let ph i := 2 * PI * fc * (INR i / INR sample_rate) in
    yields message m -> (1 <= symbol_rate <= sample_rate)%nat -> length noise = (length m / 2 * sps)%nat ->
    exists tx rx out, tx_qpsk_signal message sample_rate symbol_rate fc = Ret tx /\
      rx_qpsk_signal (noisy tx noise) sample_rate symbol_rate fc = Ret rx /\
      yields rx out /\ length out = (2 * (length m / 2))%nat /\
      forall k b1 b2, nth_error m (2 * k) = Some b1 -> nth_error m (2 * k + 1) = Some b2 ->
        let sum f := Rsum_n sps (fun j => f (k * sps + j)%nat) in
        let leak := sum (fun i => sin (ph i) * cos (ph i)) in
        let sg (b : bool) := if b then 1 else -1 in
        let first := sg b1 * sum (fun i => cos (ph i) * cos (ph i)) - sg b2 * leak + sum (fun i => nth i noise 0 * cos (ph i)) in
        let second := sg b2 * sum (fun i => sin (ph i) * sin (ph i)) - sg b1 * leak - sum (fun i => nth i noise 0 * sin (ph i)) in
        (nth_error out (2 * k) = Some b1 <-> if b1 then 0 <= first else first < 0) /\
        (nth_error out (2 * k + 1) = Some b2 <-> if b2 then 0 <= second else second < 0).
Proof.
  intros message m sr sy fc noise sps ph Hm Hr HL.
  assert (Hn : (1 <= sr / sy)%nat) by (apply Nat.div_le_lower_bound; lia).
  destruct (tx_qpsk_inv message sr sy fc ltac:(lia) Hn) as (tx & Et & Yt).
  specialize (Yt m Hm). unfold qpsk_wave in Yt. rewrite (pairs_length (length m) m eq_refl) in Yt. fold sps in Yt.
  pose proof (noisy_yields tx noise _ _ 0 Yt HL) as Y2.
  destruct (rx_qpsk_intro (noisy tx noise) sr sy fc ltac:(lia) Hn) as (rx & Er & Yr). fold sps in Yr.
  exists tx, rx. eexists. split; [exact Et|]. split; [exact Er|]. split; [apply Yr; exact Y2|].
  match goal with |- context [flat_map (fun s => [@?f s; @?g s]) (seq 0 ?n)] => destruct (flat_map_pairs f g n 0) as [FL FN] end.
  cbv beta in FL, FN. split; [exact FL|].
  intros k b1 b2 H1 H2 sum leak sg first second.
  assert (Hk : (k < length m / 2)%nat).
  { assert (2 * k + 1 < length m)%nat by (apply nth_error_Some; congruence). apply Nat.div_le_lower_bound; lia. }
  assert (HP : nth k (pairs m) (false, false) = (b1, b2)).
  { apply nth_error_nth. apply (pairs_nth (length m)); auto. }
  destruct (FN k Hk) as [N1 N2]. rewrite N1, N2. clear FL FN N1 N2. cbn [Nat.add].
  rewrite !corr_R.
  rewrite (Rsum_n_ext sps _ (fun j => (sg b1 * (cos (ph (k * sps + j)%nat) * cos (ph (k * sps + j)%nat)) +
     (- sg b2) * (sin (ph (k * sps + j)%nat) * cos (ph (k * sps + j)%nat))) + nth (k * sps + j) noise 0 * cos (ph (k * sps + j)%nat))).
  2:{ intros j Hj. rewrite block_div by exact Hj. rewrite HP. unfold ccos, csin. rewrite !phase_R, !nrz_R.
      fold (ph (k * sps + j)%nat) (sg b1) (sg b2). cbn [nmul nadd nopp ncos nsin NumR]. ring. }
  rewrite (Rsum_n_ext sps (fun j => nmul _ (nopp _)) (fun j => (sg b2 * (sin (ph (k * sps + j)%nat) * sin (ph (k * sps + j)%nat)) +
     (- sg b1) * (sin (ph (k * sps + j)%nat) * cos (ph (k * sps + j)%nat))) + (-1) * (nth (k * sps + j) noise 0 * sin (ph (k * sps + j)%nat)))).
  2:{ intros j Hj. rewrite block_div by exact Hj. rewrite HP. unfold ccos, csin. rewrite !phase_R, !nrz_R.
      fold (ph (k * sps + j)%nat) (sg b1) (sg b2). cbn [nmul nadd nopp ncos nsin NumR]. ring. }
  rewrite !Rsum_n_plus, !Rsum_n_scale.
  match goal with |- (Some (nleb _ ?x) = _ <-> _) /\ (Some (nleb _ ?y) = _ <-> _) => 
    replace x with first by (unfold first, leak, sum; ring); replace y with second by (unfold second, leak, sum; ring) end.
  cbn [nofZ NumR].
  assert (D : forall x (b : bool), Some (nleb 0 x) = Some b <-> if b then 0 <= x else x < 0).
  { intros x b. destruct (nleb 0 x) eqn:E.
    - apply nleb_R in E. destruct b; split; intros; try reflexivity; try discriminate; lra.
    - assert (~ 0 <= x) by (intros X; apply nleb_R in X; congruence). destruct b; split; intros; try reflexivity; try discriminate; lra. }
  split; apply D.
Qed.

(** With whole half-cycles per symbol, noise with less energy per symbol than half the number of samples is harmless. *)
Theorem C78_qpsk_noise_energy :
  forall (message : Iter bool) m (sample_rate symbol_rate : nat) (fc : R) (half_cycles : Z) (noise : list R),
    let sps := (sample_rate / symbol_rate)%nat in
    yields message m -> (1 <= symbol_rate <= sample_rate)%nat -> length noise = (length m / 2 * sps)%nat ->
    2 * fc * INR sps = IZR half_cycles * INR sample_rate ->
    ~ (exists z : Z, 2 * fc = IZR z * INR sample_rate) ->
    (forall k, (k < length m / 2)%nat ->
       Rsum_n sps (fun j => nth (k * sps + j) noise 0 * nth (k * sps + j) noise 0) < INR sps / 2) ->
    exists tx rx, tx_qpsk_signal message sample_rate symbol_rate fc = Ret tx /\
      rx_qpsk_signal (noisy tx noise) sample_rate symbol_rate fc = Ret rx /\
      yields rx (firstn (2 * (length m / 2)) m).
Proof.
  intros message m sr sy fc h noise sps Hm Hr HL Hh Hz Hw.
  destruct (C78_qpsk_noise_exact message m sr sy fc noise Hm Hr HL) as (tx & rx & out & Et & Er & Yr & L & E).
  exists tx, rx. split; [exact Et|]. split; [exact Er|].
  replace (firstn (2 * (length m / 2)) m) with out; [exact Yr|].
  pose proof (Nat.mul_div_le (length m) 2 ltac:(lia)) as M2.
  apply nth_error_inj. intros i. destruct (Nat.lt_ge_cases i (2 * (length m / 2))) as [Hi|Hi].
  2:{ transitivity (@None bool); [|symmetry]; apply nth_error_None; [lia|]. rewrite firstn_length. lia. }
  rewrite nth_error_firstn by exact Hi.
  pose proof (Nat.div_mod_eq i 2) as DM. pose proof (Nat.mod_upper_bound i 2 ltac:(lia)) as MB.
  set (k := (i / 2)%nat) in *. assert (Hk : (k < length m / 2)%nat) by lia.
  destruct (nth_error m (2 * k)) as [b1|] eqn:E1; [|apply nth_error_None in E1; lia].
  destruct (nth_error m (2 * k + 1)) as [b2|] eqn:E2; [|apply nth_error_None in E2; lia].
  specialize (E k b1 b2 E1 E2). cbv beta zeta in E. fold sps in E.
  destruct (qpsk_design_sums sr sy fc h k ltac:(lia) Hh Hz) as (HC & HS & HX). fold sps in HC, HS, HX.
  pose proof (weak_noise sps (fun j => nth (k * sps + j) noise 0) (fun j => cos (2 * PI * fc * (INR (k * sps + j) / INR sr))) _ HC (Hw k Hk)) as W1.
  pose proof (weak_noise sps (fun j => nth (k * sps + j) noise 0) (fun j => sin (2 * PI * fc * (INR (k * sps + j) / INR sr))) _ HS (Hw k Hk)) as W2.
  rewrite HC, HS, HX in E. cbv beta in W1, W2. apply Rabs_def2 in W1. apply Rabs_def2 in W2.
  destruct E as [A1 A2].
  destruct (Nat.eq_dec (i mod 2) 0) as [Z|Z].
  - replace i with (2 * k)%nat by lia. rewrite E1. apply A1. destruct b1, b2; lra.
  - replace i with (2 * k + 1)%nat by lia. rewrite E2. apply A2. destruct b1, b2; lra.
Qed.

(** ** Concrete cases *)

(** Two samples per bit at frequency 0: noise of energy 1.62 per bit against 2. *)
Example C78_bpsk_case :
  exists tx rx, tx_bpsk_signal (of_list [true; false]) 2 1 (0 : R) = Ret tx /\
    rx_bpsk_signal (noisy tx [-9 / 10; -9 / 10; 9 / 10; 9 / 10]) 2 1 0 = Ret rx /\ yields rx [true; false].
Proof.
  assert (E : exists tx, tx_bpsk_signal (of_list [true; false]) 2 1 (0 : R) = Ret tx).
  { unfold tx_bpsk_signal, usize_div, nyquist_ok. cbn [Nat.eqb bind].
    replace (nto_u64 (0 : R)) with 0%Z.
    2:{ cbn [nto_u64 NumR]. replace 0%R with (IZR 0) by reflexivity. rewrite Ztrunc_IZR. reflexivity. }
    replace (is_int (ndiv (nofnat 2) (nofnat 1) : R)) with true; [eexists; reflexivity|].
    symmetry. unfold is_int, nofnat. cbn [ndiv nofZ neqb nto_u64 NumR].
    replace (IZR (Z.of_nat 2) / IZR (Z.of_nat 1)) with (IZR 2) by (cbn; lra).
    rewrite Ztrunc_IZR. destruct (Req_EM_T (IZR 2) _) as [_|N]; [reflexivity|]. destruct N. reflexivity. }
  destruct E as (tx & Etx). exists tx.
  destruct (C78_bpsk_noise_energy _ _ 2 1 0 tx [-9 / 10; -9 / 10; 9 / 10; 9 / 10] (of_list_yields [true; false]) Etx) as (rx & Er & Yr).
  - lia.
  - reflexivity.
  - intros k Hk. rewrite (Rsum_n_ext _ (fun j => cos _ * cos _) (fun _ => 1)).
    + change (2 / 1)%nat with 2%nat. cbn [length] in Hk. destruct k as [|[|k]]; [| |lia]; cbn; lra.
    + intros j _. rewrite Rmult_0_r, Rmult_0_l, cos_0. ring.
  - exists rx. auto.
Qed.

(** 44100 samples and 900 symbols per second, carrier 1800 Hz, noise of amplitude 1/2 on every sample. *)
Example C78_qpsk_case b1 b2 :
  exists tx rx, tx_qpsk_signal (of_list [b1; b2]) (49 * 900) 900 (1800 : R) = Ret tx /\
    rx_qpsk_signal (noisy tx (repeat (1 / 2) 49)) (49 * 900) 900 1800 = Ret rx /\ yields rx [b1; b2].
Proof.
  assert (D : (49 * 900 / 900)%nat = 49%nat) by (apply Nat.div_mul; discriminate).
  destruct C32_design_case as [H1 H2].
  apply (C78_qpsk_noise_energy (of_list [b1; b2]) [b1; b2] (49 * 900) 900 1800 4).
  - apply of_list_yields.
  - lia.
  - rewrite D. reflexivity.
  - rewrite D. exact H1.
  - exact H2.
  - rewrite D. intros k Hk. cbn [length] in Hk. change (2 / 2)%nat with 1%nat in Hk. assert (k = 0)%nat by lia. subst k.
    rewrite (Rsum_n_ext 49 _ (fun _ => 1 / 4)).
    + rewrite Rsum_n_const. assert (0 < INR 49) by (apply lt_0_INR; lia). lra.
    + intros j Hj. cbn [Nat.mul Nat.add].
      rewrite (nth_indep _ 0 (1 / 2)), nth_repeat by (rewrite repeat_length; exact Hj). lra.
Qed.

(** ** Axioms used *)
Print Assumptions C78_bpsk_noise_exact.
Print Assumptions C78_bpsk_noise_energy.
Print Assumptions C78_bpsk_noise_tight.
Print Assumptions C78_qpsk_noise_exact.
Print Assumptions C78_qpsk_noise_energy.
