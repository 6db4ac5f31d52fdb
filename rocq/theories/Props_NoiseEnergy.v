(** C110: the average energy of a signal in Gaussian noise, and what the energy detectors make of it. *)
From Coq Require Import List Arith ZArith Reals Bool Lia Lra Psatz.
From Verif Require Import Base IterTheory IterModel IterProofs Spec SpecR Tab Num LibModel LibReal RSums Props_Lib Props_Cdma Props_BerTheory Props_Expected.
From Verif Require NormalMean NormalMoments.
Import ListNotations.
Local Open Scope R_scope.

(** The event [bad] has (outer) probability at most [v] over n standard normal numbers: a function of mean v is at least 1 on it
    and nowhere negative. *)
Definition rarely (n : nat) (bad : list R -> Prop) (v : R) : Prop :=
  exists G, (forall z, 0 <= G z) /\ (forall z, length z = n -> bad z -> 1 <= G z) /\ normal_mean n G v.

(** It bounds the probability wherever that is an integral. *)
Lemma rarely_bounds n bad v F e : rarely n bad v -> normal_mean n F e -> (forall z, length z = n -> F z <= 1 /\ (~ bad z -> F z <= 0)) -> e <= v.
Proof.
  intros (G & G0 & G1 & M) MF HF. apply (NormalMoments.mean_le n F G e v MF M). intros z L. destruct (HF z L) as [A B].
  destruct (Rle_dec (F z) (G z)) as [X|X]; [exact X|]. exfalso. assert (Y : ~ bad z) by (intros Bz; specialize (G1 z L Bz); lra). specialize (B Y). specialize (G0 z). lra.
Qed.

(** Uncorrelated terms of mean 0. *)
Lemma sum_spread n N (d : nat -> list R -> R) (v : nat -> R) : (forall i, (i < N)%nat -> normal_mean n (fun z => d i z * d i z) (v i)) ->
  (forall i j, (i < N)%nat -> (j < N)%nat -> i <> j -> normal_mean n (fun z => d i z * d j z) 0) ->
  normal_mean n (fun z => Rsum_n N (fun i => d i z) * Rsum_n N (fun i => d i z)) (Rsum_n N v).
Proof.
  intros V C. assert (S2 : normal_mean n (fun z => Rsum_n N (fun i => Rsum_n N (fun j => d i z * d j z))) (Rsum_n N (fun i => Rsum_n N (fun j => if (j =? i)%nat then v i else 0)))).
  { apply (mean_sum n N (fun i z => Rsum_n N (fun j => d i z * d j z))). intros i Hi. apply (mean_sum n N (fun j z => d i z * d j z)). intros j Hj.
    destruct (Nat.eqb_spec j i) as [->|E]; [apply V, Hi|apply C; auto]. }
  rewrite (Rsum_n_ext N _ v) in S2 by (intros i Hi; apply Rsum_one, Hi).
  revert S2. apply NormalMean.mean_ext. intros z _. rewrite <- Rsum_n_scale. apply Rsum_n_ext. intros i _. rewrite Rsum_n_scale. ring.
Qed.

(** The energy of n samples s with the noise sigma z. *)
Section Energy.
Variables (N : nat) (s : nat -> R) (sigma : R).
Hypothesis HN : (0 < N)%nat.
Let nrg (z : list R) : R := Rsum_n N (fun i => (s i + sigma * nth i z 0) * (s i + sigma * nth i z 0)) / INR N.
Let S2 := Rsum_n N (fun i => s i * s i) / INR N.
Let dev (i : nat) (x : R) : R := 2 * s i * sigma * x + sigma * sigma * (x * x - 1).

Lemma dev_mean i : NormalMean.line_integral (fun z => NormalMean.normal_density z * dev i z) 0.
Proof.
  pose proof (NormalMean.line_lin _ _ (2 * s i * sigma) _ _ NormalMoments.moment1 (NormalMean.line_lin _ _ (sigma * sigma) _ _ NormalMoments.moment2 (NormalMean.line_scal _ (- (sigma * sigma)) _ NormalMean.line_phi))) as L.
  replace 0 with (2 * s i * sigma * 0 + (sigma * sigma * 1 + - (sigma * sigma) * 1)) by ring. revert L. apply NormalMean.line_ext. intros z. unfold dev. ring.
Qed.
Lemma dev_square i : NormalMean.line_integral (fun z => NormalMean.normal_density z * (dev i z * dev i z)) (4 * (s i * s i) * (sigma * sigma) + 2 * (sigma * sigma * (sigma * sigma))).
Proof.
  set (a := 2 * s i * sigma). set (b := sigma * sigma).
  pose proof (NormalMean.line_lin _ _ (a * a - 2 * (b * b)) _ _ NormalMoments.moment2 (NormalMean.line_lin _ _ (2 * a * b) _ _ NormalMoments.moment3
    (NormalMean.line_lin _ _ (b * b) _ _ NormalMoments.moment4 (NormalMean.line_lin _ _ (- (2 * a * b)) _ _ NormalMoments.moment1 (NormalMean.line_scal _ (b * b) _ NormalMean.line_phi))))) as L.
  replace (4 * (s i * s i) * b + 2 * (b * b)) with ((a * a - 2 * (b * b)) * 1 + (2 * a * b * 0 + (b * b * 3 + (- (2 * a * b) * 0 + b * b * 1)))) by (unfold a, b; ring).
  revert L. apply NormalMean.line_ext. intros z. unfold dev. fold a b. ring.
Qed.
Lemma nrg_dev z : nrg z - (S2 + sigma * sigma) = Rsum_n N (fun i => dev i (nth i z 0)) / INR N.
Proof.
  assert (PN : 0 < INR N) by (apply lt_0_INR, HN). unfold nrg, S2.
  rewrite (Rsum_n_ext N (fun i => (s i + sigma * nth i z 0) * (s i + sigma * nth i z 0)) (fun i => (s i * s i + dev i (nth i z 0)) + sigma * sigma)) by (intros i _; unfold dev; ring).
  rewrite !Rsum_n_plus, Rsum_n_const. field. lra.
Qed.
Lemma nrg_mean : normal_mean N nrg (S2 + sigma * sigma).
Proof.
  assert (PN : 0 < INR N) by (apply lt_0_INR, HN).
  pose proof (mean_scale N _ _ (INR N) (mean_sum N N (fun i z => dev i (nth i z 0)) (fun _ => 0) ltac:(intros i Hi; apply (NormalMoments.mean_at N i (dev i)); [exact Hi|apply dev_mean]))) as M.
  rewrite Rsum_n_const in M. pose proof (NormalMean.mean_lin N _ _ 1 _ _ M (NormalMean.mean_const N (S2 + sigma * sigma))) as K.
  replace (1 * (INR N * 0 / INR N) + (S2 + sigma * sigma)) with (S2 + sigma * sigma) in K by (field; lra).
  revert K. apply NormalMean.mean_ext. intros z _. rewrite <- nrg_dev. ring.
Qed.
Lemma nrg_spread : normal_mean N (fun z => (nrg z - (S2 + sigma * sigma)) * (nrg z - (S2 + sigma * sigma)))
  ((2 * (sigma * sigma * (sigma * sigma)) + 4 * (sigma * sigma) * S2) / INR N).
Proof.
  assert (PN : 0 < INR N) by (apply lt_0_INR, HN).
  pose proof (sum_spread N N (fun i z => dev i (nth i z 0)) (fun i => 4 * (s i * s i) * (sigma * sigma) + 2 * (sigma * sigma * (sigma * sigma)))
    ltac:(intros i Hi; apply (NormalMoments.mean_at N i (fun x => dev i x * dev i x)); [exact Hi|apply dev_square])) as M.
  assert (C : forall i j, (i < N)%nat -> (j < N)%nat -> i <> j -> normal_mean N (fun z => dev i (nth i z 0) * dev j (nth j z 0)) 0).
  { intros i j Hi Hj E. pose proof (NormalMoments.mean_two N i j (dev i) (dev j) 0 0 Hi Hj E (dev_mean i) (dev_mean j)) as T. rewrite Rmult_0_r in T. exact T. }
  specialize (M C). apply (mean_scale N _ _ (INR N * INR N)) in M.
  replace ((2 * (sigma * sigma * (sigma * sigma)) + 4 * (sigma * sigma) * S2) / INR N)
    with (Rsum_n N (fun i => 4 * (s i * s i) * (sigma * sigma) + 2 * (sigma * sigma * (sigma * sigma))) / (INR N * INR N)).
  - revert M. apply NormalMean.mean_ext. intros z _. rewrite !nrg_dev. field. lra.
  - rewrite Rsum_n_plus, Rsum_n_const. rewrite (Rsum_n_ext N _ (fun i => 4 * (sigma * sigma) * (s i * s i))) by (intros; ring). rewrite Rsum_n_scale. unfold S2. field. lra.
Qed.
(** Chebyshev. *)
Lemma nrg_rarely (bad : list R -> Prop) d : 0 < d -> (forall z, length z = N -> bad z -> d <= Rabs (nrg z - (S2 + sigma * sigma))) ->
  rarely N bad ((2 * (sigma * sigma * (sigma * sigma)) + 4 * (sigma * sigma) * S2) / (INR N * (d * d))).
Proof.
  intros Hd Hb. assert (PN : 0 < INR N) by (apply lt_0_INR, HN). assert (Dd : 0 < d * d) by nra.
  exists (fun z => (nrg z - (S2 + sigma * sigma)) * (nrg z - (S2 + sigma * sigma)) / (d * d)). split; [|split].
  - intros z. apply Rmult_le_pos; [apply Rle_0_sqr|apply Rlt_le, Rinv_0_lt_compat, Dd].
  - intros z L B. specialize (Hb z L B). set (x := nrg z - (S2 + sigma * sigma)) in *. clearbody x. apply Rmult_le_reg_r with (d * d); [exact Dd|].
    unfold Rdiv. rewrite Rmult_assoc, Rinv_l, Rmult_1_l, Rmult_1_r by lra. destruct (Rcase_abs x) as [Ng|Ng]; [rewrite Rabs_left in Hb by lra|rewrite Rabs_right in Hb by lra]; nra.
  - pose proof (mean_scale N _ _ (d * d) nrg_spread) as M. replace ((2 * (sigma * sigma * (sigma * sigma)) + 4 * (sigma * sigma) * S2) / (INR N * (d * d)))
      with ((2 * (sigma * sigma * (sigma * sigma)) + 4 * (sigma * sigma) * S2) / INR N / (d * d)) by (field; lra). exact M.
Qed.
End Energy.

Lemma sumsq_sum (l : list R) : sumsq l = Rsum_n (length l) (fun i => nth i l 0 * nth i l 0).
Proof.
  unfold sumsq. rewrite <- (tab_nth_id l 0) at 1. unfold tab. rewrite map_map. change (map (fun x => nth x l 0 * nth x l 0) (seq 0 (length l))) with (tab (length l) (fun x => nth x l 0 * nth x l 0)). apply Rsum_tab.
Qed.
Lemma avg_energy_sum (l : list R) : avg_energy l = Rsum_n (length l) (fun i => nth i l 0 * nth i l 0) / INR (length l).
Proof. rewrite (proj1 (C21_energy l 0)), sumsq_sum. reflexivity. Qed.

(** What awgn makes of the signal l with the numbers z. *)
Definition in_noise (l : list R) (sigma : R) (z : list R) : list R := map (fun '(i, x) => x + sigma * nth i z 0) (combine (seq 0 (length l)) l).

Lemma in_noise_nth l sigma z i : (i < length l)%nat -> nth i (in_noise l sigma z) 0 = nth i l 0 + sigma * nth i z 0.
Proof.
  intros Hi. unfold in_noise. set (f := fun '(i, x) => x + sigma * nth i z 0). rewrite (nth_indep _ 0 (f (0%nat, 0))) by (rewrite map_length, combine_length, seq_length; lia).
  rewrite map_nth, combine_nth by apply seq_length. rewrite seq_nth by exact Hi. reflexivity.
Qed.
Lemma in_noise_length l sigma z : length (in_noise l sigma z) = length l.
Proof. unfold in_noise. rewrite map_length, combine_length, seq_length. lia. Qed.
Lemma in_noise_energy l sigma z : avg_energy (in_noise l sigma z) =
  Rsum_n (length l) (fun i => (nth i l 0 + sigma * nth i z 0) * (nth i l 0 + sigma * nth i z 0)) / INR (length l).
Proof. rewrite avg_energy_sum, in_noise_length. f_equal. apply Rsum_n_ext. intros i Hi. rewrite in_noise_nth by exact Hi. reflexivity. Qed.

Theorem C110_channel noise (l : list R) sigma : made_of noise ->
  forall z, exists out, awgn (noise z) (of_list l) sigma = Ret out /\ yields out (in_noise l sigma z).
Proof.
  intros Mn z. destruct (C22_awgn R NumR (of_list l) (noise z) l (fun i => sigma * nth i z 0) sigma (of_list_yields l) (Mn z sigma)) as [A _].
  destruct (A eq_refl) as (out & E & o & Y & L & D). exists out. split; [exact E|]. replace (in_noise l sigma z) with o; [exact Y|].
  apply (nth_ext _ _ 0 0); [rewrite L, in_noise_length; reflexivity|]. intros i Hi. rewrite L in Hi. rewrite in_noise_nth by exact Hi.
  specialize (D i (nth i l 0) (nth_error_nth' l 0 Hi)). apply (nth_error_nth _ _ 0) in D. exact D.
Qed.

(** The mean of the average energy is that of the signal plus the square of the deviation; its spread falls with the number of samples. *)
Theorem C110_energy (l : list R) sigma : l <> [] ->
  let mu := avg_energy l + sigma * sigma in
  normal_mean (length l) (fun z => avg_energy (in_noise l sigma z)) mu /\
  normal_mean (length l) (fun z => (avg_energy (in_noise l sigma z) - mu) * (avg_energy (in_noise l sigma z) - mu))
    ((2 * (sigma * sigma * (sigma * sigma)) + 4 * (sigma * sigma) * avg_energy l) / INR (length l)).
Proof.
  intros Hl mu. assert (HN : (0 < length l)%nat) by (destruct l; [contradiction|cbn; lia]). unfold mu. rewrite (avg_energy_sum l). split.
  - pose proof (nrg_mean (length l) (fun i => nth i l 0) sigma HN) as M. revert M. apply NormalMean.mean_ext. intros z _. symmetry. apply in_noise_energy.
  - pose proof (nrg_spread (length l) (fun i => nth i l 0) sigma HN) as M. revert M. apply NormalMean.mean_ext. intros z _. rewrite in_noise_energy. reflexivity.
Qed.

(** The same of what awgn and pure_awgn return. *)
Theorem C110_awgn noise (l : list R) sigma : made_of noise -> l <> [] ->
  exists nrg : list R -> R,
    (forall z, exists out o, awgn (noise z) (of_list l) sigma = Ret out /\ yields out o /\ avg_energy o = nrg z) /\
    normal_mean (length l) nrg (avg_energy l + sigma * sigma) /\
    normal_mean (length l) (fun z => (nrg z - (avg_energy l + sigma * sigma)) * (nrg z - (avg_energy l + sigma * sigma)))
      ((2 * (sigma * sigma * (sigma * sigma)) + 4 * (sigma * sigma) * avg_energy l) / INR (length l)).
Proof.
  intros Mn Hl. exists (fun z => avg_energy (in_noise l sigma z)). split; [|exact (C110_energy l sigma Hl)].
  intros z. destruct (C110_channel noise l sigma Mn z) as (out & E & Y). exists out, (in_noise l sigma z). auto.
Qed.

Lemma zeros_energy N : avg_energy (repeat 0 N) = 0.
Proof.
  rewrite (proj1 (C21_energy _ 0)). replace (sumsq (repeat 0 N)) with 0; [unfold Rdiv; ring|]. symmetry. rewrite sumsq_sum. apply Rsum_n_0. intros i _. rewrite nth_repeat. ring.
Qed.

Theorem C110_pure_awgn noise (N : nat) sigma : made_of noise -> (0 < N)%nat ->
  exists nrg : list R -> R,
    (forall z, exists out o, pure_awgn (noise z) N sigma = Ret out /\ yields out o /\ avg_energy o = nrg z) /\
    normal_mean N nrg (sigma * sigma) /\
    normal_mean N (fun z => (nrg z - sigma * sigma) * (nrg z - sigma * sigma)) (2 * (sigma * sigma * (sigma * sigma)) / INR N).
Proof.
  intros Mn HN. exists (fun z => avg_energy (in_noise (repeat 0 N) sigma z)). split.
  - intros z. destruct (proj1 (C22_pure_awgn R NumR (noise z) (fun i => sigma * nth i z 0) N sigma (Mn z sigma)) eq_refl) as (out & E & Y).
    exists out, (in_noise (repeat 0 N) sigma z). split; [exact E|]. split; [|reflexivity].
    replace (in_noise (repeat 0 N) sigma z) with (map (fun i => sigma * nth i z 0) (seq 0 N)); [exact Y|]. change (map (fun i => sigma * nth i z 0) (seq 0 N)) with (tab N (fun i => sigma * nth i z 0)).
    apply (nth_ext _ _ 0 0); [rewrite tab_length, in_noise_length, repeat_length; reflexivity|]. intros i Hi. rewrite tab_length in Hi.
    rewrite tab_nth by exact Hi. rewrite in_noise_nth by (rewrite repeat_length; exact Hi). rewrite nth_repeat. ring.
  - assert (Hl : repeat 0 N <> []) by (destruct N; [lia|discriminate]). destruct (C110_energy (repeat 0 N) sigma Hl) as [A B].
    rewrite repeat_length, zeros_energy, Rplus_0_l in *. split; [exact A|].
    replace (2 * (sigma * sigma * (sigma * sigma)) + 4 * (sigma * sigma) * 0) with (2 * (sigma * sigma * (sigma * sigma))) in B by ring. exact B.
Qed.

Lemma energy_rarely (l : list R) sigma (bad : list R -> Prop) d : l <> [] -> 0 < d ->
  (forall z, length z = length l -> bad z -> d <= Rabs (avg_energy (in_noise l sigma z) - (avg_energy l + sigma * sigma))) ->
  rarely (length l) bad ((2 * (sigma * sigma * (sigma * sigma)) + 4 * (sigma * sigma) * avg_energy l) / (INR (length l) * (d * d))).
Proof.
  intros Hl Hd B. assert (HN : (0 < length l)%nat) by (destruct l; [contradiction|cbn; lia]). rewrite (avg_energy_sum l).
  apply (nrg_rarely (length l) (fun i => nth i l 0) sigma HN); [exact Hd|]. intros z L Bz. specialize (B z L Bz). rewrite in_noise_energy, (avg_energy_sum l) in B. exact B.
Qed.

(** Silence, as in tests/awgn.rs:32-33 and willie.rs:59-72: the root of the average energy is within d of sigma. *)
Theorem C110_noise_level (N : nat) sigma d : (0 < N)%nat -> 0 < sigma -> 0 < d ->
  rarely N (fun z => d <= Rabs (sqrt (avg_energy (in_noise (repeat 0 N) sigma z)) - sigma)) (2 * (sigma * sigma) / (INR N * (d * d))).
Proof.
  intros HN Hs Hd. assert (PN : 0 < INR N) by (apply lt_0_INR, HN).
  pose proof (energy_rarely (repeat 0 N) sigma (fun z => d <= Rabs (sqrt (avg_energy (in_noise (repeat 0 N) sigma z)) - sigma)) (d * sigma)) as E.
  rewrite repeat_length, zeros_energy in E. replace (2 * (sigma * sigma) / (INR N * (d * d))) with ((2 * (sigma * sigma * (sigma * sigma)) + 4 * (sigma * sigma) * 0) / (INR N * (d * sigma * (d * sigma)))) by (field; lra).
  apply E; [destruct N; [lia|discriminate]|nra|]. intros z _ B. set (e := avg_energy (in_noise (repeat 0 N) sigma z)) in *.
  assert (Pe : 0 <= e) by (unfold e; apply (C21_energy _ 1)). rewrite Rplus_0_l. rewrite <- (sqrt_sqrt e Pe). pose proof (sqrt_pos e) as Sp. set (r := sqrt e) in *. clearbody r.
  replace (r * r - sigma * sigma) with ((r - sigma) * (r + sigma)) by ring. rewrite Rabs_mult, (Rabs_right (r + sigma)) by lra. apply Rmult_le_compat; lra.
Qed.

(** willie.rs:21-24 set to the level of the noise overlooks a signal of average energy S only with probability (2 sigma^4 + 4 sigma^2 S) / (N S^2). *)
Theorem C110_detected (l : list R) sigma : l <> [] -> 0 <= sigma -> 0 < avg_energy l ->
  rarely (length l) (fun z => willie_energy_detector (in_noise l sigma z) sigma = false)
    ((2 * (sigma * sigma * (sigma * sigma)) + 4 * (sigma * sigma) * avg_energy l) / (INR (length l) * (avg_energy l * avg_energy l))).
Proof.
  intros Hl Hs Hp. apply energy_rarely; [exact Hl|exact Hp|]. intros z _ B. set (e := avg_energy (in_noise l sigma z)) in *.
  assert (Pe : 0 <= e) by (unfold e; apply (C21_energy _ 1)). assert (Le : sqrt e <= sigma).
  { destruct (Rle_dec (sqrt e) sigma) as [X|X]; [exact X|]. exfalso. pose proof (proj2 (C55_willie_detector (in_noise l sigma z) sigma)) as W. rewrite W in B; [discriminate|].
    rewrite <- (proj1 (C21_energy (in_noise l sigma z) 1)). fold e. lra. }
  pose proof (sqrt_pos e). assert (e <= sigma * sigma) by (rewrite <- (sqrt_sqrt e Pe); apply Rmult_le_compat; lra). rewrite Rabs_left1; lra.
Qed.
(** Set above it, it rarely takes noise for a signal. *)
Theorem C110_false_alarm (N : nat) sigma n0 : (0 < N)%nat -> 0 <= sigma < n0 ->
  rarely N (fun z => willie_energy_detector (in_noise (repeat 0 N) sigma z) n0 = true)
    (2 * (sigma * sigma * (sigma * sigma)) / (INR N * ((n0 * n0 - sigma * sigma) * (n0 * n0 - sigma * sigma)))).
Proof.
  intros HN Hs. pose proof (energy_rarely (repeat 0 N) sigma (fun z => willie_energy_detector (in_noise (repeat 0 N) sigma z) n0 = true) (n0 * n0 - sigma * sigma)) as E.
  rewrite repeat_length, zeros_energy in E. replace (2 * (sigma * sigma * (sigma * sigma)) + 4 * (sigma * sigma) * 0) with (2 * (sigma * sigma * (sigma * sigma))) in E by ring.
  apply E; [destruct N; [lia|discriminate]|nra|]. intros z _ B. apply C55_willie_detector in B. rewrite <- (proj1 (C21_energy (in_noise (repeat 0 N) sigma z) 1)) in B.
  set (e := avg_energy (in_noise (repeat 0 N) sigma z)) in *. assert (Pe : 0 <= e) by (unfold e; apply (C21_energy _ 1)).
  assert (n0 * n0 <= e) by (rewrite <- (sqrt_sqrt e Pe); apply Rmult_le_compat; lra).
  assert (sigma * sigma < n0 * n0) by (clear - Hs; nra). clearbody e. rewrite Rabs_right by lra. lra.
Qed.

(** awgn_complex (lib.rs:216-227) puts its noise on the real part: the energy grows by sigma^2, not twice that. *)
Theorem C110_complex noise (l : list (cpx R)) sigma : made_of noise -> l <> [] ->
  exists nrg : list R -> R,
    (forall z, exists out o, awgn_complex (noise z) (of_list l) sigma = Ret out /\ yields out o /\ length o = length l /\
       nrg z = Rsum_n (length l) (fun i => re (nth i o (Cpx 0 0)) * re (nth i o (Cpx 0 0)) + im (nth i o (Cpx 0 0)) * im (nth i o (Cpx 0 0))) / INR (length l)) /\
    normal_mean (length l) nrg
      (Rsum_n (length l) (fun i => re (nth i l (Cpx 0 0)) * re (nth i l (Cpx 0 0)) + im (nth i l (Cpx 0 0)) * im (nth i l (Cpx 0 0))) / INR (length l) + sigma * sigma).
Proof.
  intros Mn Hl. assert (HN : (0 < length l)%nat) by (destruct l; [contradiction|cbn; lia]). assert (PN : 0 < INR (length l)) by (apply lt_0_INR, HN).
  set (a := fun i => re (nth i l (Cpx 0 0))). set (b := fun i => im (nth i l (Cpx 0 0))).
  exists (fun z => Rsum_n (length l) (fun i => (a i + sigma * nth i z 0) * (a i + sigma * nth i z 0)) / INR (length l) + Rsum_n (length l) (fun i => b i * b i) / INR (length l)). split.
  - intros z. destruct (C22_awgn_complex R NumR (of_list l) (noise z) l (fun i => sigma * nth i z 0) sigma (of_list_yields l) (Mn z sigma)) as [A _].
    destruct (A eq_refl) as (out & E & o & Y & L & D). exists out, o. split; [exact E|]. split; [exact Y|]. split; [exact L|].
    rewrite (Rsum_n_ext (length l) (fun i => re (nth i o (Cpx 0 0)) * _ + _) (fun i => (a i + sigma * nth i z 0) * (a i + sigma * nth i z 0) + b i * b i)).
    + rewrite Rsum_n_plus. field. lra.
    + intros i Hi. specialize (D i _ (nth_error_nth' l (Cpx 0 0) Hi)). apply (nth_error_nth _ _ (Cpx 0 0)) in D. rewrite D. reflexivity.
  - pose proof (NormalMean.mean_lin _ _ _ 1 _ _ (nrg_mean (length l) a sigma HN) (NormalMean.mean_const (length l) (Rsum_n (length l) (fun i => b i * b i) / INR (length l)))) as M.
    rewrite Rsum_n_plus. fold (a 0%nat). 
    replace ((Rsum_n (length l) (fun i => re (nth i l (Cpx 0 0)) * re (nth i l (Cpx 0 0))) + Rsum_n (length l) (fun i => im (nth i l (Cpx 0 0)) * im (nth i l (Cpx 0 0)))) / INR (length l) + sigma * sigma)
      with (1 * (Rsum_n (length l) (fun i => a i * a i) / INR (length l) + sigma * sigma) + Rsum_n (length l) (fun i => b i * b i) / INR (length l)) by (unfold a, b; field; lra).
    revert M. apply NormalMean.mean_ext. intros; ring.
Qed.

(** The test of willie.rs:59-72, 100000 samples of deviation 6 and a tolerance of 1, fails with probability below one in a thousand. *)
Example C110_case (N : nat) : INR N = 100000 -> exists v, rarely N (fun z => 1 <= Rabs (sqrt (avg_energy (in_noise (repeat 0 N) 6 z)) - 6)) v /\ v < / 1000.
Proof.
  intros E. exists (2 * (6 * 6) / (INR N * (1 * 1))). split; [apply C110_noise_level; [destruct N; [cbn in E; lra|lia]|lra|lra]|]. rewrite E. lra.
Qed.
Example C110_case_samples : exists N, INR N = 100000. Proof. exists (Z.to_nat 100000). rewrite INR_IZR_INZ, Z2Nat.id by lia. reflexivity. Qed.
Example C110_signal_case : avg_energy [3; 4 : R] = 25 / 2 /\ 0 < avg_energy [3; 4 : R].
Proof. rewrite (proj1 (C21_energy [3; 4] 1)). unfold sumsq. cbn. lra. Qed.

(** ** Axioms used *)
Print Assumptions C110_channel.
Print Assumptions C110_energy.
Print Assumptions C110_awgn.
Print Assumptions C110_pure_awgn.
Print Assumptions C110_noise_level.
Print Assumptions C110_detected.
Print Assumptions C110_false_alarm.
Print Assumptions C110_complex.
