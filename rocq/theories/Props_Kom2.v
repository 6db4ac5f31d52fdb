(** Properties C72 and C74-C77: the chirps, the power-of-two helpers, the chaos transmitter, the
    statistics and the time formatter of the Python package kom_py. *)
From Coq Require Import List Arith ZArith Reals Bool Lia Lra Psatz Permutation.
From Verif Require Import Base Spec SpecR Tab Num LibModel LibDiscrete LibReal RSums FhModel FhProofs OfdmModel SscaModel SscaProofs OfdmReal
  KomModel KomProofs Props_Ssca Props_Detect Props_Fh Props_Kom.
Import ListNotations.
Local Open Scope R_scope.

(** ** C72: chirps, in exact arithmetic *)

(** Phase in cycles of a chirp from f0 to f1 that lasts 1 / rate, at time t. *)
Definition sweep (rate f0 f1 t : R) : R := f0 * t + (f1 - f0) * rate * (t * t) / 2.

Lemma sweep_frequency rate f0 f1 t : derivable_pt_lim (sweep rate f0 f1) t (f0 + (f1 - f0) * (t * rate)).
Proof.
  replace (f0 + (f1 - f0) * (t * rate)) with (f0 * 1 + ((f1 - f0) * rate / 2) * (1 * t + t * 1)) by field.
  assert (D : derivable_pt_lim (mult_real_fct f0 id + mult_real_fct ((f1 - f0) * rate / 2) (id * id))%F t
                (f0 * 1 + ((f1 - f0) * rate / 2) * (1 * t + t * 1))).
  { apply derivable_pt_lim_plus; apply derivable_pt_lim_scal; [apply derivable_pt_lim_id|].
    apply (derivable_pt_lim_mult id id t 1 1); apply derivable_pt_lim_id. }
  intros eps He. destruct (D eps He) as [d Hd]. exists d. intros h Hh Hd'. specialize (Hd h Hh Hd').
  unfold sweep. unfold mult_real_fct, plus_fct, mult_fct, id in Hd.
  match goal with |- Rabs ?x < _ => match type of Hd with Rabs ?y < _ => replace x with y by (field; exact Hh) end end. exact Hd.
Qed.

Lemma linspace0_R stop n : @np_linspace0 R NumR stop n =
  tab n (fun i => if (n =? 1)%nat then 0 else INR i * stop / INR (n - 1)).
Proof.
  unfold np_linspace0. apply tab_ext. intros i Hi. rewrite !nofnat_R. cbn [nofZ nmul nadd ndiv NumR].
  destruct (Nat.eqb_spec n 1) as [->|N1].
  - cbn [Nat.leb andb]. replace i with 0%nat by lia. cbn [INR]. ring.
  - replace (2 <=? n)%nat with true by (symmetry; apply Nat.leb_le; lia). cbn [andb].
    assert (INR (n - 1) <> 0) by (apply not_0_INR; lia).
    destruct (Nat.eqb_spec i (n - 1)) as [->|]; field; assumption.
Qed.

Lemma chirpz_R cr sr f0 f1 p ph : cr <> 0 -> -1 < sr / cr ->
  kom_chirpz cr sr f0 f1 p ph =
  Ret (map (fun t => sin (2 * PI * sweep cr f0 f1 t + ph)) (np_linspace0 (1 / cr) (Z.to_nat (nto_u64 (sr / cr))))).
Proof.
  intros Hc Hs. unfold kom_chirpz. cbn [neqb nleb nofZ ndiv nopp nmul nadd nsub nsin npi NumR].
  destruct (Req_EM_T cr 0) as [|_]; [contradiction|].
  destruct (Req_EM_T (1 / cr) 0) as [E|_].
  { exfalso. apply (Rinv_neq_0_compat cr Hc). unfold Rdiv in E. lra. }
  destruct (Rle_dec (sr / cr) (- (1))) as [|_]; [lra|]. f_equal. apply map_ext. intros t. unfold sweep, nsqr. cbn [nmul NumR].
  f_equal. f_equal. f_equal. field. exact Hc.
Qed.

Theorem C72_raises cr sr f0 f1 p ph : kom_chirpz cr sr f0 f1 p ph = Panic <-> cr = 0 \/ sr / cr <= -1.
Proof.
  split.
  - intros E. destruct (Req_dec cr 0) as [|Hc]; [left; assumption|]. right.
    destruct (Rle_dec (sr / cr) (-1)); [assumption|]. rewrite chirpz_R in E by lra. discriminate.
  - intros [->|Hs]; unfold kom_chirpz; cbn [neqb nleb nofZ ndiv nopp NumR].
    + destruct (Req_EM_T 0 0); [reflexivity|contradiction].
    + destruct (Req_EM_T cr 0); [reflexivity|]. destruct (Req_EM_T (1 / cr) 0); [reflexivity|].
      destruct (Rle_dec (sr / cr) (- (1))); [reflexivity|lra].
Qed.

(** The chirp covers its period from end to end: sample i of n is taken at time
    i / ((n - 1) rate), the last one at 1 / rate. *)
Theorem C72_samples cr sr f0 f1 p ph n : cr <> 0 -> INR n <= sr / cr < INR n + 1 -> (Z.of_nat n < 2 ^ 64)%Z ->
  exists l, kom_chirpz cr sr f0 f1 p ph = Ret l /\ length l = n /\
    (forall i, (i < n)%nat -> (2 <= n)%nat ->
       nth_error l i = Some (sin (2 * PI * sweep cr f0 f1 (INR i / (INR (n - 1) * cr)) + ph))) /\
    ((1 <= n)%nat -> nth_error l 0 = Some (sin ph)) /\
    (forall x, In x l -> -1 <= x <= 1).
Proof.
  intros Hc Hn Hb. pose proof (pos_INR n). eexists. split; [apply chirpz_R; lra|].
  rewrite (to_u64_floor _ n Hn Hb), linspace0_R, tab_map. split; [apply tab_length|]. split; [|split].
  - intros i Hi H2. rewrite tab_nth_error. apply Nat.ltb_lt in Hi. rewrite Hi.
    replace (n =? 1)%nat with false by (symmetry; apply Nat.eqb_neq; lia). do 5 f_equal. field.
    split; [exact Hc|apply not_0_INR; lia].
  - intros H1. rewrite tab_nth_error. apply Nat.ltb_lt in H1 as Hb1. rewrite Hb1. f_equal. f_equal. unfold sweep.
    destruct (Nat.eqb_spec n 1); [field|]. cbn [INR]. field. split; [exact Hc|apply not_0_INR; lia].
  - intros x Hx. apply in_map_iff in Hx. destruct Hx as (i & <- & _). pose proof (SIN_bound (2 * PI * sweep cr f0 f1 (if (n =? 1)%nat then 0 else INR i * (1 / cr) / INR (n - 1)) + ph)). lra.
Qed.

Theorem C72_empty cr sr f0 f1 p ph : cr <> 0 -> -1 < sr / cr < 1 -> kom_chirpz cr sr f0 f1 p ph = Ret [].
Proof.
  intros Hc Hs. destruct (Rle_dec 0 (sr / cr)) as [H0|H0].
  - destruct (C72_samples cr sr f0 f1 p ph 0 Hc) as (l & E & L & _); [cbn [INR]; lra|reflexivity|].
    destruct l; [exact E|discriminate].
  - rewrite chirpz_R by lra. cbn [nto_u64 NumR]. rewrite Flocq.Core.Raux.Ztrunc_ceil by lra.
    rewrite (Flocq.Core.Raux.Zceil_imp 0) by (cbn; lra). reflexivity.
Qed.

(** A steady tone of frequency f comes out at n/(n-1) times f on the sample clock. *)
Theorem C72_tone_is_sharp cr sr f p ph n : 0 < cr -> sr = INR n * cr -> (2 <= n)%nat -> (Z.of_nat n < 2 ^ 64)%Z ->
  kom_chirpz cr sr f f p ph =
  Ret (tab n (fun i => sin (2 * PI * (f * (INR n / INR (n - 1))) * (INR i / sr) + ph))).
Proof.
  intros Hc Hs H2 Hb. assert (Q : sr / cr = INR n) by (rewrite Hs; field; lra).
  assert (0 < INR n) by (apply lt_0_INR; lia).
  rewrite chirpz_R by lra. rewrite (to_u64_floor _ n) by (try exact Hb; lra). rewrite linspace0_R, tab_map. f_equal.
  apply tab_ext. intros i Hi. replace (n =? 1)%nat with false by (symmetry; apply Nat.eqb_neq; lia).
  f_equal. f_equal. unfold sweep. rewrite Hs. field. repeat split; try lra. apply not_0_INR. lia.
Qed.

(** So sample i is not the chirp at time i / sample_rate. *)
Theorem C72_sample_clock_refuted :
  exists cr sr f0 f1 l i, 0 < cr /\ kom_chirpz cr sr f0 f1 1 0 = Ret l /\ (i < length l)%nat /\
    nth_error l i <> Some (sin (2 * PI * sweep cr f0 f1 (INR i / sr))).
Proof.
  exists 1, 2, (1 / 2), (1 / 2). eexists. exists 1%nat. split; [lra|]. split.
  - apply (C72_tone_is_sharp 1 2 (1 / 2) 1 0 2); [lra|cbn; lra|lia|reflexivity].
  - rewrite tab_length. split; [lia|]. rewrite tab_nth_error. cbn [Nat.ltb Nat.leb]. intros E.
    assert (S : sin (2 * PI * (1 / 2 * (INR 2 / INR (2 - 1))) * (INR 1 / 2) + 0) = sin (2 * PI * sweep 1 (1 / 2) (1 / 2) (INR 1 / 2))) by congruence.
    unfold sweep in S. cbn [Nat.sub INR] in S.
    replace (2 * PI * (1 / 2 * ((1 + 1) / 1)) * (1 / 2) + 0) with PI in S by field.
    replace (2 * PI * (1 / 2 * (1 / 2) + (1 / 2 - 1 / 2) * 1 * (1 / 2 * (1 / 2)) / 2)) with (PI / 2) in S by field.
    rewrite sin_PI, sin_PI2 in S. lra.
Qed.

(** chirpCtr hands its sample rate over as the chirp rate: at any sample rate above the repetition
    rate the result is empty. *)
Theorem C72_chirpCtr_empty fs fc rep bw ph : 0 < fs -> 0 <= rep < fs -> kom_chirpCtr fs fc rep bw ph = Ret [].
Proof.
  intros Hf Hr. apply C72_empty; [lra|].
  split; [apply Rlt_le_trans with 0; [lra|apply Rmult_le_pos; [lra|apply Rlt_le, Rinv_0_lt_compat; exact Hf]]|].
  apply (Rmult_lt_reg_r fs); [exact Hf|]. unfold Rdiv. rewrite Rmult_assoc, Rinv_l, Rmult_1_r, Rmult_1_l by lra. lra.
Qed.
(** Its documented length is fs / rep samples. *)
Corollary C72_chirpCtr_length_refuted :
  exists fs rep fc bw ph n l, (1 <= n)%nat /\ fs = INR n * rep /\ 0 < rep /\
    kom_chirpCtr fs fc rep bw ph = Ret l /\ length l <> n.
Proof.
  exists 4, 1, 1, 1, 0, 4%nat, []. split; [lia|]. split; [cbn; lra|]. split; [lra|].
  split; [apply C72_chirpCtr_empty; lra|]. discriminate.
Qed.
(** The phase given to chirpCtr lands in the parameter [periods], which nothing reads.  In any arithmetic. *)
Theorem C72_phase_ignored {T} `{Num T} (fs fc rep bw ph ph' : T) : kom_chirpCtr fs fc rep bw ph = kom_chirpCtr fs fc rep bw ph'.
Proof. reflexivity. Qed.
Theorem C72_periods_ignored {T} `{Num T} (cr sr f0 f1 p p' ph : T) : kom_chirpz cr sr f0 f1 p ph = kom_chirpz cr sr f0 f1 p' ph.
Proof. reflexivity. Qed.

(** The plots of chirp.py: 1500 samples at 150 Hz of a sweep from 1 Hz to 6 Hz in 10 s. *)
Example C72_plot_chirp : exists l, kom_chirpz (1 / 10) 150 1 6 1 0 = Ret l /\ length l = (15 * 100)%nat /\ nth_error l 0 = Some 0.
Proof.
  destruct (C72_samples (1 / 10) 150 1 6 1 0 (15 * 100)) as (l & E & L & _ & Z & _).
  - lra.
  - rewrite mult_INR, !INR_IZR_INZ. cbn. lra.
  - reflexivity.
  - exists l. repeat split; try assumption. rewrite <- sin_0. apply Z. lia.
Qed.

(** ** C74: powers of two *)
Definition power_of_2 (x : nat) : Prop := exists k, x = (2 ^ k)%nat.

Theorem C74_next x :
  power_of_2 (next_power_of_2 x) /\ (x <= next_power_of_2 x)%nat /\
  forall y, power_of_2 y -> (x <= y)%nat -> (next_power_of_2 x <= y)%nat.
Proof.
  unfold next_power_of_2, bit_length. destruct (Nat.eqb_spec x 0) as [->|N0].
  { split; [exists 0%nat; reflexivity|]. split; [lia|]. intros y [k ->] _. pose proof (Nat.pow_nonzero 2 k). lia. }
  split; [eexists; reflexivity|]. destruct (Nat.eqb_spec (x - 1) 0) as [E|N1].
  { split; [cbn; lia|]. intros y [k ->] _. pose proof (Nat.pow_nonzero 2 k). cbn. lia. }
  destruct (Nat.log2_spec (x - 1) ltac:(lia)) as [L U]. rewrite Nat.add_1_r. split; [lia|].
  intros y [k ->] Hy. apply Nat.pow_le_mono_r; [lia|].
  apply Nat.le_succ_l. apply (Nat.pow_lt_mono_r_iff 2); [lia|]. lia.
Qed.

Lemma floor_not_power x : (2 <= x)%nat -> ~ power_of_2 x ->
  let y := (2 ^ (bit_length (x - 1) - 1))%nat in power_of_2 y /\ (y <= x)%nat /\ forall z, power_of_2 z -> (z <= x)%nat -> (z <= y)%nat.
Proof.
  intros H2 Hp. cbv zeta. unfold bit_length. replace (x - 1 =? 0)%nat with false by (symmetry; apply Nat.eqb_neq; lia).
  rewrite Nat.add_sub. destruct (Nat.log2_spec (x - 1) ltac:(lia)) as [L U]. split; [eexists; reflexivity|]. split; [lia|].
  intros z [k ->] Hz. apply Nat.pow_le_mono_r; [lia|]. apply Nat.lt_succ_r. apply (Nat.pow_lt_mono_r_iff 2); [lia|].
  assert ((2 ^ k)%nat <> x) by (intros E; apply Hp; exists k; congruence). lia.
Qed.
Lemma floor_power k : (1 <= k)%nat -> (2 ^ (bit_length (2 ^ k - 1) - 1) = 2 ^ (k - 1))%nat.
Proof.
  intros Hk. f_equal. unfold bit_length. assert (2 ^ 1 <= 2 ^ k)%nat by (apply Nat.pow_le_mono_r; lia). cbn [Nat.pow Nat.mul Nat.add] in H.
  replace (2 ^ k - 1 =? 0)%nat with false by (symmetry; apply Nat.eqb_neq; lia).
  rewrite Nat.add_sub. rewrite (Nat.log2_unique (2 ^ k - 1) (k - 1)); [reflexivity|lia|].
  replace (S (k - 1)) with k by lia. split; [|lia].
  assert (E : (2 ^ k = 2 * 2 ^ (k - 1))%nat) by (rewrite <- Nat.pow_succ_r'; f_equal; lia).
  pose proof (Nat.pow_nonzero 2 (k - 1)). lia.
Qed.

(** floor_power_of_2 gives the largest power of two up to x exactly when the test on the binary64
    logarithm tells whether x is a power of two. *)
Theorem C74_floor_iff (int_log2 : nat -> bool) x : (2 <= x)%nat ->
  let y := floor_power_of_2 int_log2 x in
  (power_of_2 y /\ (y <= x)%nat /\ forall z, power_of_2 z -> (z <= x)%nat -> (z <= y)%nat) <->
  (int_log2 x = true <-> power_of_2 x).
Proof.
  intros H2 y. unfold y, floor_power_of_2. replace (x =? 0)%nat with false by (symmetry; apply Nat.eqb_neq; lia).
  destruct (int_log2 x).
  - split; [intros (P & _); tauto|]. intros [P _]. split; [apply P; reflexivity|]. split; [lia|]. intros z _ Hz. exact Hz.
  - split.
    + intros (_ & _ & M). split; [discriminate|]. intros P. exfalso. pose proof (M x P (le_n x)) as C. destruct P as [k ->].
      assert (1 <= k)%nat by (destruct k; [cbn in H2; lia|lia]). rewrite floor_power in C by assumption.
      apply (Nat.pow_le_mono_r_iff 2) in C; lia.
    + intros [_ P]. apply floor_not_power; [exact H2|]. intros Q. apply P in Q. discriminate.
Qed.
(** Where the test misses a power of two the answer is half of it. *)
Theorem C74_floor_misses (int_log2 : nat -> bool) k : (1 <= k)%nat -> int_log2 (2 ^ k)%nat = false ->
  floor_power_of_2 int_log2 (2 ^ k) = (2 ^ (k - 1))%nat.
Proof.
  intros Hk E. unfold floor_power_of_2. pose proof (Nat.pow_nonzero 2 k).
  replace (2 ^ k =? 0)%nat with false by (symmetry; apply Nat.eqb_neq; lia). rewrite E. apply floor_power. exact Hk.
Qed.
Example C74_examples : next_power_of_2 0 = 1%nat /\ next_power_of_2 64 = 64%nat /\ next_power_of_2 65 = 128%nat /\
  floor_power_of_2 (fun x => x =? 64)%nat 64 = 64%nat /\ floor_power_of_2 (fun x => x =? 64)%nat 100 = 64%nat /\
  floor_power_of_2 (fun _ => false) 64 = 32%nat.
Proof. repeat split; reflexivity. Qed.

(** ** C76: statistics *)
Theorem C76_ber {T} `{Num T} (tx rx : list bool) :
  (tx <> [] -> rx <> [] -> kom_ber tx rx = Ret (ber tx rx)) /\ (tx = [] \/ rx = [] -> kom_ber tx rx = Panic).
Proof.
  split.
  - intros Ht Hr. unfold kom_ber. destruct tx; [contradiction|]. destruct rx; [contradiction|]. reflexivity.
  - intros [->| ->]; unfold kom_ber; cbn [length]; rewrite ?Nat.min_0_r; reflexivity.
Qed.
(** The fraction of positions, over the shorter list, where the bits differ. *)
Theorem C76_ber_counts tx rx : length tx = length rx -> tx <> [] ->
  exists v, kom_ber tx rx = Ret v /\ 0 <= v <= 1 /\ (v = 0 <-> tx = rx).
Proof.
  intros L Ht. assert (Hr : rx <> []) by (intros ->; destruct tx; [contradiction|discriminate]).
  exists (ber tx rx). split; [apply C76_ber; assumption|]. unfold ber. rewrite !nofnat_R. cbn [ndiv NumR]. rewrite L, Nat.min_id.
  assert (P : 0 < INR (length rx)) by (apply lt_0_INR; destruct rx; [contradiction|cbn; lia]).
  assert (G : forall tx rx, length tx = length rx -> forall a,
    let e := fold_left Nat.add (map (fun '(ti, ri) => if Bool.eqb ti ri then 0%nat else 1%nat) (combine tx rx)) a in
    (a <= e <= a + length rx)%nat /\ (e = a <-> tx = rx)).
  { clear. induction tx as [|t tx IH]; intros [|r rx] L a; try discriminate; cbn in L |- *; [split; [lia|tauto]|].
    destruct (IH rx ltac:(lia) (a + (if Bool.eqb t r then 0 else 1))%nat) as [B E]. destruct (Bool.eqb_spec t r) as [->|N].
    - rewrite Nat.add_0_r in *. split; [lia|]. rewrite E. split; [intros ->; reflexivity|congruence].
    - split; [lia|]. split; [lia|congruence]. }
  destruct (G tx rx L 0%nat) as [B E]. cbv zeta in B, E. set (e := fold_left _ _ _) in *. split.
  - split; [apply Rmult_le_pos; [apply pos_INR|apply Rlt_le, Rinv_0_lt_compat; exact P]|].
    apply (Rmult_le_reg_r (INR (length rx))); [exact P|]. unfold Rdiv. rewrite Rmult_assoc, Rinv_l by lra. rewrite Rmult_1_r, Rmult_1_l. apply le_INR. lia.
  - rewrite <- E. split; [|intros ->; unfold Rdiv; cbn [INR]; apply Rmult_0_l]. intros Z. apply Rmult_integral in Z. destruct Z as [Z|Z].
    + apply INR_eq. exact Z.
    + exfalso. apply Rinv_neq_0_compat in Z; [exact Z|lra].
Qed.

Theorem C76_avg_energy (l : list R) : kom_avg_energy l = if (length l =? 0)%nat then Panic else Ret (avg_energy l).
Proof.
  unfold kom_avg_energy, avg_energy. destruct (length l =? 0)%nat; [reflexivity|].
  rewrite nsum_R. cbn [nadd nofZ NumR]. rewrite fold_Rplus, Rplus_0_l. reflexivity.
Qed.
(** The complex version is half the mean of |s|^2. *)
Theorem C76_avg_energy_iq (l : list (cpx R)) : l <> [] ->
  kom_avg_energy_iq l = Ret (Rsum (map normsq l) / INR (length l) / 2).
Proof.
  intros Hl. unfold kom_avg_energy_iq. destruct (Nat.eqb_spec (length l) 0) as [E|_]; [destruct l; [contradiction|discriminate]|].
  rewrite nofnat_R. cbn [nadd nofZ ndiv nsqrt NumR]. rewrite fold_Rplus, Rplus_0_l. do 4 f_equal. apply map_ext. intros z.
  rewrite <- (sqrt_square (normsq z)) by apply normsq_nonneg. f_equal. unfold normsq. destruct z as [a b]. cbn. ring.
Qed.
(** A baseband BPSK stream has energy one half. *)
Example C76_bpsk_half data : data <> [] -> kom_avg_energy_iq (kom_tx_baseband_bpsk data) = Ret (1 / 2).
Proof.
  intros Hd. rewrite C76_avg_energy_iq by (destruct data; [contradiction|discriminate]). unfold kom_tx_baseband_bpsk. rewrite map_map, map_length.
  assert (S : Rsum (map (fun b : bool => normsq (if b then Cpx (nofZ 1) (nofZ 0) else Cpx (- nofZ 1)%num (nofZ 0))) data) = INR (length data)).
  { clear. induction data as [|b data IH]; [reflexivity|]. cbn [map Rsum length]. rewrite S_INR, IH. destruct b; unfold normsq; cbn; ring. }
  rewrite S. f_equal. field. apply not_0_INR. destruct data; [contradiction|discriminate].
Qed.
Example C76_one_error_in_four : @kom_ber R NumR [true; false; true; true] [true; true; true; true] = Ret (1 / 4).
Proof. reflexivity. Qed.

(** ** C77: the time formatter *)

(** The number of seconds a reader of the parts Y, d, h, m, s gets. *)
Definition read_secs (l : list (option Z)) : Z :=
  match map (fun o => match o with Some v => v | None => 0%Z end) l with
  | [y; d; h; m; s] => (y * 31557600 + d * 86400 + h * 3600 + m * 60 + s)%Z
  | _ => 0%Z
  end.

Lemma part_shown whole shown : (whole = 0 -> shown = 0)%Z ->
  match (if (whole =? 0)%Z then None else Some shown) with Some v => v | None => 0%Z end = shown.
Proof. intros H. destruct (Z.eqb_spec whole 0) as [E|_]; [symmetry; apply H; exact E|reflexivity]. Qed.
Ltac zdm a b := let q := fresh "q" in let r := fresh "r" in
  pose proof (Z.div_mod a b ltac:(lia)); pose proof (Z.mod_pos_bound a b ltac:(lia)); set (q := (a / b)%Z) in *; set (r := (a mod b)%Z) in *.

(** The string is right exactly when the number of whole years is a multiple of four: a year of
    365.25 days is six hours out of step with the days. *)
Theorem C77_reads_back_iff seconds : (0 <= seconds)%Z ->
  (read_secs (secs_fields seconds) = seconds <-> (seconds / 31557600 mod 4 = 0)%Z).
Proof.
  intros H0. unfold read_secs, secs_fields, SECS_Y. cbn [map]. change (60 * 60)%Z with 3600%Z. change (24 * 3600)%Z with 86400%Z.
  rewrite !part_shown.
  - assert (E1 : (seconds mod 86400 / 3600 * 3600 + seconds mod 3600 / 60 * 60 + seconds mod 60 = seconds mod 86400)%Z).
    { Z.to_euclidean_division_equations. lia. }
    assert (E2 : (seconds / 31557600 * 31557600 + seconds mod 31557600 = seconds)%Z) by (Z.to_euclidean_division_equations; lia).
    transitivity (seconds mod 31557600 / 86400 * 86400 + seconds mod 86400 = seconds mod 31557600)%Z; [lia|]. clear E1 E2.
    Z.to_euclidean_division_equations. lia.
  - intros ->. reflexivity.
  - intros E. Z.to_euclidean_division_equations. lia.
  - intros E. Z.to_euclidean_division_equations. lia.
  - intros E. Z.to_euclidean_division_equations. lia.
  - intros E. exact E.
Qed.
(** Below a year it is right, and every part is in its range. *)
Corollary C77_below_a_year seconds : (0 <= seconds < 31557600)%Z -> read_secs (secs_fields seconds) = seconds.
Proof. intros H. apply C77_reads_back_iff; [lia|]. rewrite Z.div_small by lia. reflexivity. Qed.
(** One year is shown as 1Y:0d:6h:0m:0s. *)
Theorem C77_reads_back_refuted : exists seconds, (0 <= seconds)%Z /\
  secs_fields seconds = [Some 1; Some 0; Some 6; Some 0; Some 0]%Z /\ seconds = 31557600%Z /\ read_secs (secs_fields seconds) <> seconds.
Proof. exists 31557600%Z. repeat split; [lia|discriminate]. Qed.
(** Zero seconds print nothing (the code then returns a fixed word). *)
Theorem C77_zero seconds : (0 <= seconds)%Z -> ((forall o, In o (secs_fields seconds) -> o = None) <-> seconds = 0%Z).
Proof.
  intros H0. split.
  - intros H. unfold secs_fields in H. specialize (H _ (or_intror (or_intror (or_intror (or_intror (or_introl eq_refl)))))).
    cbv zeta beta in H. destruct (Z.eqb_spec seconds 0); [assumption|discriminate].
  - intros ->. cbn. intros o [<-|[<-|[<-|[<-|[<-|[]]]]]]; reflexivity.
Qed.
Example C77_day : secs_fields 93784 = [None; Some 1; Some 2; Some 3; Some 4]%Z /\ read_secs (secs_fields 93784) = 93784%Z.
Proof. split; reflexivity. Qed.

(** ** C75: the chaos transmitter *)

(** A generator shuffles positions: what is on them does not matter. *)
Lemma swap_map {A B} (f : A -> B) l i j : swap (map f l) i j = let? l' := swap l i j in Ret (map f l').
Proof.
  assert (I : forall (l : list A) i, idx (map f l) i = let? x := idx l i in Ret (f x)).
  { clear. intros l i. unfold idx. rewrite nth_error_map. destruct (nth_error l i); reflexivity. }
  assert (S : forall (l : list A) i v, set_idx (map f l) i (f v) = let? x := set_idx l i v in Ret (map f x)).
  { clear. induction l as [|a l IH]; intros [|i] v; try reflexivity. cbn [map set_idx]. rewrite IH. destruct (set_idx l i v); reflexivity. }
  unfold swap. rewrite !I. destruct (idx l i); try reflexivity. cbn [bind]. destruct (idx l j); try reflexivity. cbn [bind].
  rewrite S. destruct (set_idx l i _); try reflexivity. cbn [bind]. apply S.
Qed.
Lemma shuffle_map {A B} (rng : Rng) (f : A -> B) l s :
  shuffle rng (map f l) s = let? (l', s') := shuffle rng l s in Ret (map f l', s').
Proof.
  unfold shuffle. rewrite map_length. generalize (rev (seq 1 (length l - 1))). intros is. revert l s.
  induction is as [|i is IH]; intros l s; [reflexivity|]. cbn [for_each]. destruct (gen_index rng (i + 1) s) as [j s1].
  rewrite swap_map. destruct (swap l i j) as [l1| |]; [|reflexivity|reflexivity]. cbn [bind]. apply IH.
Qed.

Lemma assign_column {A} b col (d : A) l : forall k (g : nat -> nat -> A), (col < b)%nat -> (k + length l <= b)%nat ->
  for_each (combine (seq k (length l)) l) (fun m '(row, v) => aset m row col v) (arr b b g) =
  Ret (arr b b (fun r c => if (c =? col)%nat && (k <=? r)%nat && (r <? k + length l)%nat then nth (r - k) l d else g r c)).
Proof.
  induction l as [|a l IH]; intros k g Hc Hk.
  - cbn [length combine seq for_each]. f_equal. apply arr_ext. intros r c _ _.
    destruct (Nat.leb_spec k r), (Nat.ltb_spec r (k + 0)), (c =? col)%nat; try reflexivity; lia.
  - cbn [length] in Hk. cbn [length seq combine for_each]. rewrite aset_arr by lia. cbn [bind]. rewrite IH by lia. f_equal.
    apply arr_ext. intros r c _ _. destruct (c =? col)%nat; cbn [andb]; [|rewrite andb_false_r; reflexivity].
    rewrite andb_true_r. destruct (Nat.eqb_spec r k) as [->|N].
    + replace (S k <=? k)%nat with false by (symmetry; apply Nat.leb_gt; lia). cbn [andb]. rewrite Nat.leb_refl, Nat.sub_diag.
      replace (k <? k + S (length l))%nat with true by (symmetry; apply Nat.ltb_lt; lia). reflexivity.
    + destruct (Nat.leb_spec (S k) r), (Nat.leb_spec k r); try lia; cbn [andb].
      * replace (r <? S k + length l)%nat with (r <? k + S (length l))%nat by (f_equal; lia).
        destruct (r <? k + S (length l))%nat; [|reflexivity]. replace (r - k)%nat with (S (r - S k)) by lia. reflexivity.
      * reflexivity.
Qed.

(** A rearrangement of 0 .. b-1. *)
Definition rearranges (b : nat) (p : nat -> nat) : Prop := Permutation (tab b p) (seq 0 b).

Lemma columns_shuffled {T} (rng : Rng) b cols : (forall c, In c cols -> (c < b)%nat) -> NoDup cols -> forall s,
  exists (p : nat -> nat -> nat) s', (forall c, rearranges b (p c)) /\ forall f : nat -> nat -> T,
    for_each cols (fun '(m, s) col =>
      let? new := for_each (seq 0 b) (fun new i => let? v := aget m i col in Ret (new ++ [v])) [] in
      let? (new, s) := shuffle rng new s in
      let? m := for_each (index_from 0 new) (fun m '(row, v) => aset m row col v) m in
      Ret (m, s)) (arr b b f, s)
    = Ret (arr b b (fun r c => if existsb (Nat.eqb c) cols then f (p c r) c else f r c), s').
Proof.
  induction cols as [|col cols IH]; intros Hb Nd s.
  - exists (fun _ r => r), s. split.
    + intros c. unfold rearranges, tab. rewrite map_id. apply Permutation_refl.
    + intros f. reflexivity.
  - inversion Nd as [|? ? Nin Nd']; subst. destruct (shuffle_perm rng (seq 0 b) s) as (l' & s1 & Es & P).
    assert (Ll : length l' = b) by (rewrite <- (Permutation_length P); apply seq_length).
    destruct (IH (fun c Hc => Hb c (or_intror Hc)) Nd' s1) as (p & s' & Hp & E).
    exists (fun c r => if (c =? col)%nat then nth r l' 0%nat else p c r), s'. split.
    + intros c. destruct (c =? col)%nat eqn:Ec; [|apply Hp]. unfold rearranges.
      rewrite <- Ll at 1. rewrite tab_nth_id. apply Permutation_sym. exact P.
    + intros f. cbn [for_each].
      pose proof (Hb col (or_introl eq_refl)) as Hcol.
      match goal with |- context [for_each (seq 0 b) ?g []] => change (for_each (seq 0 b) g []) with (push_rows (seq 0 b) (fun i => aget (arr b b f) i col)) end.
      rewrite (push_rows_seq b _ (fun i => f i col)) by (intros i Hi; apply aget_arr; assumption). cbn [bind].
      unfold tab at 1. rewrite shuffle_map, Es. cbn [bind].
      destruct b as [|b']; [lia|]. set (d := f 0%nat col).
      unfold index_from.
      rewrite (assign_column (S b') col d (map (fun i => f i col) l') 0 f Hcol) by (rewrite map_length; lia).
      cbn [bind]. rewrite E. do 2 f_equal. apply arr_ext. intros r c Hr Hc. rewrite map_length, Ll. cbn [existsb Nat.leb].
      rewrite andb_true_r, Nat.add_0_l.
      destruct (Nat.eqb_spec c col) as [->|Nc]; cbn [orb].
      * replace (existsb (Nat.eqb col) cols) with false.
        2: { symmetry. apply not_true_is_false. intros Ex. apply existsb_exists in Ex. destruct Ex as (x & Hx & Ex). apply Nat.eqb_eq in Ex. subst x. contradiction. }
        cbn [andb]. apply Nat.ltb_lt in Hr as Hrb. rewrite Hrb.
        rewrite (nth_indep _ d (f 0%nat col)) by (rewrite map_length; lia). rewrite Nat.sub_0_r. exact (map_nth (fun i => f i col) l' 0%nat r).
      * cbn [andb]. reflexivity.
Qed.

(** The orbit of the chaotic map. *)
Fixpoint orbit (c : nat) (x : R) : R := match c with 0%nat => x | S c => 1 - 2 * (orbit c x * orbit c x) end.
Lemma orbit_shift c x : orbit c (1 - 2 * (x * x)) = orbit (S c) x.
Proof. induction c as [|c IH]; [reflexivity|]. cbn [orbit]. rewrite IH. reflexivity. Qed.

Lemma chaos_row_R (d : R) b : forall x, kom_chaos_row (repeat d b) x = tab b (fun c => d * orbit c x).
Proof.
  induction b as [|b IH]; intros x; [reflexivity|]. rewrite tab_S. cbn [repeat kom_chaos_row orbit]. f_equal.
  rewrite IH. apply tab_ext. intros c _. f_equal. apply (orbit_shift c x).
Qed.

(** The value of bit i in column c before the shuffle. *)
Definition spread (data : list bool) (i c : nat) : R := pm (nth i data false) * orbit c (1 / 1000 + INR i / 10).

Lemma tx_rows data b : (b <= length data)%nat ->
  map (fun '(row, x0) => kom_chaos_row row x0)
    (combine (map (fun datum => repeat (@bit_to_nrz R NumR datum) b) (firstn b data))
             (map (fun i => (nlit 1 1000 + nofnat i / nofZ 10)%num) (seq 0 b)))
  = arr b b (spread data).
Proof.
  intros Hb. rewrite <- (tab_nth_id data false) at 1. rewrite firstn_tab.
  replace (Nat.min b (length data)) with b by lia. rewrite tab_map.
  match goal with |- context [map ?f (seq 0 b)] => change (map f (seq 0 b)) with (tab b f) end.
  rewrite tab_combine, tab_map. apply tab_ext. intros i Hi. cbn beta iota. rewrite chaos_row_R. apply tab_ext. intros c Hc.
  unfold spread, pm, bit_to_nrz. rewrite nofnat_R. cbn [nofZ nopp ndiv nadd NumR]. unfold nlit. cbn [nofZ ndiv NumR].
  destruct (nth i data false); f_equal; ring.
Qed.

(** The call raises when there are fewer than b bits; else column c of the result holds bit i's
    value, for every i, at a place the generator alone decides. *)
Theorem C75_raises {T} `{Num T} rng seed data b : (length data < b)%nat -> kom_tx_fh_dcsk rng seed data b = Panic.
Proof. intros Hl. unfold kom_tx_fh_dcsk. apply Nat.ltb_lt in Hl. rewrite Hl. reflexivity. Qed.

Theorem C75_tx (rng : Rng) (seed : rng_state rng) b :
  exists p, (forall c, rearranges b (p c)) /\
    forall data, (b <= length data)%nat ->
      kom_tx_fh_dcsk rng seed data b = Ret (tab b (fun r => tab b (fun c => spread data (p c r) c))).
Proof.
  destruct (@columns_shuffled R rng b (seq 0 b)) with (s := seed) as (p & s' & Hp & E).
  - intros c Hc. apply in_seq in Hc. lia.
  - apply seq_NoDup.
  - exists p. split; [exact Hp|]. intros data Hl. unfold kom_tx_fh_dcsk. replace (length data <? b)%nat with false by (symmetry; apply Nat.ltb_ge; exact Hl).
    rewrite tx_rows by exact Hl. rewrite E. cbn [bind]. f_equal. apply arr_ext. intros r c Hr Hc.
    replace (existsb (Nat.eqb c) (seq 0 b)) with true; [reflexivity|]. symmetry. apply existsb_exists. exists c. split; [apply in_seq; lia|apply Nat.eqb_refl].
Qed.

Lemma rearranges_lt b p r : rearranges b p -> (r < b)%nat -> (p r < b)%nat.
Proof.
  intros P Hr. assert (I : In (p r) (seq 0 b)).
  { eapply Permutation_in; [exact P|]. unfold tab. apply in_map, in_seq. lia. }
  apply in_seq in I. lia.
Qed.
Lemma rearranges_onto b p i : rearranges b p -> (i < b)%nat -> exists r, (r < b)%nat /\ p r = i.
Proof.
  intros P Hi. assert (I : In i (tab b p)).
  { eapply Permutation_in; [apply Permutation_sym, P|]. apply in_seq. lia. }
  apply in_map_iff in I. destruct I as (r & E & Hr). apply in_seq in Hr. exists r. split; [lia|exact E].
Qed.

(** Every column is a reordering of the b spread bits. *)
Corollary C75_columns rng seed data b : (b <= length data)%nat ->
  exists m, kom_tx_fh_dcsk rng seed data b = Ret m /\ shape b b m /\
    forall c, (c < b)%nat -> Permutation (map (fun row => nth c row 0) m) (tab b (fun i => spread data i c)).
Proof.
  intros Hl. destruct (C75_tx rng seed b) as (p & Hp & E). eexists. split; [apply E; exact Hl|]. split; [apply arr_shape|].
  intros c Hc. rewrite tab_map. rewrite (tab_ext b _ (fun r => spread data (p c r) c)) by (intros r Hr; apply (tab_nth b (fun c => spread data (p c r) c)); exact Hc).
  rewrite <- (tab_map (fun i => spread data i c) b (p c)). apply Permutation_map. apply Hp.
Qed.

(** The same generator never sends two different b-bit messages alike. *)
Theorem C75_injective rng seed b d1 d2 : (b <= length d1)%nat -> (b <= length d2)%nat ->
  @kom_tx_fh_dcsk R NumR rng seed d1 b = kom_tx_fh_dcsk rng seed d2 b -> firstn b d1 = firstn b d2.
Proof.
  intros L1 L2 E. destruct (C75_tx rng seed b) as (p & Hp & E'). rewrite !E' in E by assumption. apply Ret_inj in E.
  rewrite <- (tab_nth_id d1 false), <- (tab_nth_id d2 false), !firstn_tab. apply tab_eq; [lia|]. intros i Hi.
  destruct (rearranges_onto b (p 0%nat) i (Hp 0%nat) ltac:(lia)) as (r & Hr & Er).
  apply (f_equal (fun m => nth 0 (nth r m []) 0)) in E. rewrite !tab_nth in E by lia. rewrite Er in E.
  unfold spread in E. cbn [orbit] in E. pose proof (pos_INR i). unfold pm in E. destruct (nth i d1 false), (nth i d2 false); try reflexivity; exfalso; lra.
Qed.

Lemma orbit_inside c x : -1 <= x <= 1 -> -1 <= orbit c x <= 1.
Proof. intros Hx. induction c as [|c IH]; [exact Hx|]. cbn [orbit]. nra. Qed.
Lemma orbit_outside c e x : 0 <= e -> 1 + e <= Rabs x -> 1 + 4 ^ c * e <= Rabs (orbit c x).
Proof.
  intros He Hx. induction c as [|c IH]; [cbn; lra|]. cbn [orbit pow]. assert (0 <= 4 ^ c) by (apply pow_le; lra).
  set (k := 4 ^ c * e) in *. replace (4 * 4 ^ c * e) with (4 * k) by (unfold k; ring). assert (0 <= k) by (unfold k; apply Rmult_le_pos; assumption).
  assert (Q : orbit c x * orbit c x = Rabs (orbit c x) * Rabs (orbit c x)) by (rewrite <- Rabs_mult, Rabs_pos_eq; [reflexivity|apply Rle_0_sqr]).
  rewrite Q. set (y := Rabs (orbit c x)) in *. assert ((1 + k) * (1 + k) <= y * y) by (apply Rmult_le_compat; lra).
  rewrite Rabs_left by nra. nra.
Qed.

Lemma pm_abs b x : Rabs (pm b * x) = Rabs x.
Proof. rewrite Rabs_mult. unfold pm. destruct b; [rewrite Rabs_R1|rewrite (Rabs_left (-1)) by lra]; ring. Qed.

(** With up to ten bits (the default is eight) all samples are within -1 and 1. *)
Theorem C75_bounded rng seed data b m row v : (b <= 10)%nat ->
  kom_tx_fh_dcsk rng seed data b = Ret m -> In row m -> In v row -> -1 <= v <= 1.
Proof.
  intros Hb E Hr Hv. destruct (Nat.lt_ge_cases (length data) b) as [Hl|Hl]; [rewrite C75_raises in E by exact Hl; discriminate|].
  destruct (C75_tx rng seed b) as (p & Hp & E'). rewrite E' in E by exact Hl. apply Ret_inj in E. subst m.
  apply in_map_iff in Hr. destruct Hr as (r & <- & Hr). apply in_map_iff in Hv. destruct Hv as (c & <- & Hc). apply in_seq in Hr, Hc.
  pose proof (rearranges_lt b (p c) r (Hp c) ltac:(lia)) as Hi. set (i := p c r) in *.
  assert (B : INR i <= 9) by (replace 9 with (INR 9) by (cbn; lra); apply le_INR; lia). pose proof (pos_INR i).
  pose proof (orbit_inside c (1 / 1000 + INR i / 10) ltac:(lra)) as O. unfold spread, pm. destruct (nth i data false); lra.
Qed.
(** From eleven bits on, the eleventh starts outside the map's interval and its values grow
    geometrically from column to column. *)
Theorem C75_diverges rng seed data b m c : (11 <= b)%nat -> (c < b)%nat ->
  kom_tx_fh_dcsk rng seed data b = Ret m ->
  exists row v, In row m /\ nth_error row c = Some v /\ 1 + 4 ^ c / 1000 <= Rabs v.
Proof.
  intros Hb Hc E. destruct (Nat.lt_ge_cases (length data) b) as [Hl|Hl]; [rewrite C75_raises in E by exact Hl; discriminate|].
  destruct (C75_tx rng seed b) as (p & Hp & E'). rewrite E' in E by exact Hl. apply Ret_inj in E. subst m.
  destruct (rearranges_onto b (p c) 10 (Hp c) ltac:(lia)) as (r & Hr & Er).
  eexists. eexists. split; [apply in_map, in_seq; split; [lia|exact Hr]|]. split.
  - rewrite tab_nth_error. apply Nat.ltb_lt in Hc. rewrite Hc, Er. reflexivity.
  - unfold spread. rewrite pm_abs. replace (4 ^ c / 1000) with (4 ^ c * (1 / 1000)) by field. apply orbit_outside; [lra|].
    rewrite Rabs_pos_eq; rewrite INR_IZR_INZ; cbn; lra.
Qed.

(** Two bits; whichever way the columns fall, they hold these values. *)
Example C75_two_bits rng seed : exists m, kom_tx_fh_dcsk rng seed [true; false] 2 = Ret m /\
  Permutation (map (fun row => nth 0 row 0) m) [1 / 1000; - (101 / 1000)] /\
  Permutation (map (fun row => nth 1 row 0) m) [499999 / 500000; - (489799 / 500000)].
Proof.
  destruct (C75_columns rng seed [true; false] 2 ltac:(cbn; lia)) as (m & E & _ & P). exists m. split; [exact E|].
  pose proof (P 0%nat ltac:(lia)) as P0. pose proof (P 1%nat ltac:(lia)) as P1. unfold tab, spread in P0, P1. cbn [seq map nth pm orbit INR] in P0, P1. split.
  - replace [1 / 1000; - (101 / 1000)] with [1 * (1 / 1000 + 0 / 10); -1 * (1 / 1000 + 1 / 10)]; [exact P0|]. f_equal; [lra|f_equal; lra].
  - match type of P1 with Permutation _ [?a; ?b] => replace [499999 / 500000; - (489799 / 500000)] with [a; b] end; [exact P1|]. f_equal; [lra|f_equal; lra].
Qed.

(** ** Axioms used *)
Print Assumptions C72_raises.
Print Assumptions C72_samples.
Print Assumptions C72_empty.
Print Assumptions C72_tone_is_sharp.
Print Assumptions C72_sample_clock_refuted.
Print Assumptions C72_chirpCtr_empty.
Print Assumptions C72_chirpCtr_length_refuted.
Print Assumptions C72_phase_ignored.
Print Assumptions C72_periods_ignored.
Print Assumptions C74_next.
Print Assumptions C74_floor_iff.
Print Assumptions C74_floor_misses.
Print Assumptions C76_ber.
Print Assumptions C76_ber_counts.
Print Assumptions C76_avg_energy.
Print Assumptions C76_avg_energy_iq.
Print Assumptions C77_reads_back_iff.
Print Assumptions C77_below_a_year.
Print Assumptions C77_reads_back_refuted.
Print Assumptions C77_zero.
Print Assumptions C75_raises.
Print Assumptions C75_tx.
Print Assumptions C75_columns.
Print Assumptions C75_injective.
Print Assumptions C75_bounded.
Print Assumptions C75_diverges.
