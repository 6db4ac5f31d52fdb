(** C108: the rate the error-rate experiments can be expected to measure in Gaussian noise, and how far from it they stray. *)
From Coq Require Import List Arith ZArith Reals Bool Lia Lra Psatz.
From Verif Require Import Base IterTheory IterModel IterProofs Spec SpecR Tab Num LibModel LibReal PskModel PskChain RSums PskReal
  CdmaModel CdmaProofs KomModel PyModel LabModel BerModel Props_Lib Props_Psk Props_Pass Props_Jam Props_Energy Props_Harness Props_Py Props_Ber Props_Cdma Props_BerTheory Props_Erf.
From Verif Require NormalMean.
Import ListNotations.
Local Open Scope R_scope.

Notation normal_mean := NormalMean.normal_mean.

(** ** Sums and blocks *)
Lemma count_sum marks : INR (count_occ Bool.bool_dec marks true) = Rsum_n (length marks) (fun k => if nth k marks false then 1 else 0).
Proof.
  induction marks as [|b l IH] using rev_ind; [reflexivity|]. rewrite count_occ_app, plus_INR, IH, app_length. cbn [length]. rewrite Nat.add_1_r. cbn [Rsum_n].
  rewrite app_nth2, Nat.sub_diag by lia. f_equal.
  - apply Rsum_n_ext. intros j Hj. rewrite app_nth1 by exact Hj. reflexivity.
  - destruct b; reflexivity.
Qed.
Lemma fraction_sum N lost b (x : nat -> R) : lost_fraction N lost b -> (forall k, (k < N)%nat -> (lost k /\ x k = 1) \/ (~ lost k /\ x k = 0)) -> b = Rsum_n N x / INR N.
Proof.
  intros (marks & L & -> & M) Hx. rewrite count_sum, L. f_equal. apply Rsum_n_ext. intros k Hk. destruct (nth k marks false) eqn:E; destruct (Hx k Hk) as [[Y ->]|[Y ->]]; try reflexivity; exfalso.
  - apply Y, (M k Hk), E.
  - apply (M k Hk) in Y. congruence.
Qed.
Lemma mean_sum n N : forall (I : nat -> list R -> R) (e : nat -> R), (forall k, (k < N)%nat -> normal_mean n (I k) (e k)) -> normal_mean n (fun z => Rsum_n N (fun k => I k z)) (Rsum_n N e).
Proof.
  induction N as [|N IH]; intros I e H; cbn [Rsum_n]; [apply NormalMean.mean_const|].
  pose proof (NormalMean.mean_lin n _ _ 1 _ _ (IH I e ltac:(intros; apply H; lia)) (H N ltac:(lia))) as M. rewrite Rmult_1_l in M. revert M. apply NormalMean.mean_ext. intros; ring.
Qed.
Lemma mean_scale n F e c : normal_mean n F e -> normal_mean n (fun z => F z / c) (e / c).
Proof.
  intros H. pose proof (NormalMean.mean_lin n _ _ (/ c) _ _ H (NormalMean.mean_const n 0)) as M. rewrite Rplus_0_r in M. replace (e / c) with (/ c * e) by (unfold Rdiv; ring). revert M. apply NormalMean.mean_ext. intros; unfold Rdiv; ring.
Qed.

Definition inside (lo len i : nat) : bool := ((lo <=? i) && (i <? lo + len))%nat.
Definition block (n lo len : nat) (u : nat -> R) : list R := map (fun i => if inside lo len i then u i else 0) (seq 0 n).
Lemma dot_seq n : forall s f z, length z = n -> NormalMean.dot (map f (seq s n)) z = Rsum_n n (fun i => f (s + i)%nat * nth i z 0).
Proof.
  induction n as [|n IH]; intros s f [|y z] L; cbn [seq map NormalMean.dot]; try discriminate; [reflexivity|].
  change (S n) with (1 + n)%nat. rewrite Rsum_n_add. cbn [Rsum_n nth]. rewrite Nat.add_0_r, IH by (cbn in L; lia). rewrite Rplus_0_l. f_equal. apply Rsum_n_ext. intros i _. cbn [nth]. f_equal. f_equal. lia.
Qed.
Lemma block_length n lo len u : length (block n lo len u) = n. Proof. unfold block. rewrite map_length, seq_length. reflexivity. Qed.
Lemma block_dot n lo len u z : length z = n -> (lo + len <= n)%nat -> NormalMean.dot (block n lo len u) z = Rsum_n len (fun j => nth (lo + j) z 0 * u (lo + j)%nat).
Proof.
  intros L H. unfold block. rewrite dot_seq by exact L. replace n with (lo + (len + (n - lo - len)))%nat at 1 by lia. rewrite !Rsum_n_add.
  rewrite (Rsum_n_0 lo), (Rsum_n_0 (n - lo - len)).
  - rewrite Rplus_0_l, Rplus_0_r. apply Rsum_n_ext. intros j Hj. cbn [plus]. unfold inside.
    rewrite (proj2 (Nat.leb_le _ _)), (proj2 (Nat.ltb_lt _ _)) by lia. cbn [andb]. ring.
  - intros j Hj. unfold inside. rewrite (proj2 (Nat.ltb_ge _ _)) by lia. rewrite andb_false_r. ring.
  - intros j Hj. unfold inside. rewrite (proj2 (Nat.leb_gt _ _)) by lia. cbn [andb]. ring.
Qed.
Lemma block_unit n lo len u : (lo + len <= n)%nat -> Rsum_n len (fun j => u (lo + j)%nat * u (lo + j)%nat) = 1 -> NormalMean.dot (block n lo len u) (block n lo len u) = 1.
Proof.
  intros H U. rewrite block_dot; [|apply block_length|exact H]. rewrite <- U. apply Rsum_n_ext. intros j Hj. f_equal. unfold block.
  change (map (fun i => if inside lo len i then u i else 0) (seq 0 n)) with (tab n (fun i => if inside lo len i then u i else 0)). rewrite tab_nth by lia.
  unfold inside. rewrite (proj2 (Nat.leb_le _ _)), (proj2 (Nat.ltb_lt _ _)) by lia. reflexivity.
Qed.

(** ** One bit *)
(** 1 when the bit is lost, with ties decided 0 or 1. *)
Definition hits (tie1 b : bool) (g t : R) : R :=
  match tie1, b with
  | false, true => if Rle_dec g (- t) then 1 else 0
  | false, false => if Rlt_dec t g then 1 else 0
  | true, true => if Rlt_dec g (- t) then 1 else 0
  | true, false => if Rle_dec t g then 1 else 0
  end.
Lemma hits_carried b g t : (carried b g t /\ hits false b g t = 1) \/ (~ carried b g t /\ hits false b g t = 0).
Proof. unfold carried, hits. destruct b; [destruct (Rle_dec g (- t))|destruct (Rlt_dec t g)]; auto. Qed.
Lemma hits_carried' b g t : (carried' b g t /\ hits true b g t = 1) \/ (~ carried' b g t /\ hits true b g t = 0).
Proof. unfold carried', hits. destruct b; [destruct (Rlt_dec g (- t))|destruct (Rle_dec t g)]; auto. Qed.
Lemma hits_idem tie b g t : hits tie b g t * hits tie b g t = hits tie b g t.
Proof. unfold hits. destruct tie, b; match goal with |- context [if ?d then _ else _] => destruct d end; ring. Qed.

Definition bit_hit (tie b : bool) (lo len : nat) (u : nat -> R) (t : R) (z : list R) : R := hits tie b (Rsum_n len (fun j => nth (lo + j) z 0 * u (lo + j)%nat)) t.

Lemma bit_mean n tie b lo len u t : (lo + len <= n)%nat -> Rsum_n len (fun j => u (lo + j)%nat * u (lo + j)%nat) = 1 ->
  normal_mean n (bit_hit tie b lo len u t) (NormalMean.Qt t).
Proof.
  intros H U. pose proof (block_unit n lo len u H U) as N1. unfold bit_hit.
  destruct b; [apply NormalMean.unit_down with (block n lo len u)|apply NormalMean.unit_up with (block n lo len u)]; try apply block_length; try exact N1; intros z.
  all: try (intros Lz Hz; rewrite (block_dot n lo len u z Lz H) in Hz; unfold hits; destruct tie; match goal with |- context [if ?d then _ else _] => destruct d end; lra).
  all: intros z' Lz Lz' Hz; rewrite (block_dot n lo len u z Lz H), (block_dot n lo len u z' Lz' H) in Hz; rewrite Hz; reflexivity.
Qed.
Lemma bit_looks n tie b lo len u t : (lo + len <= n)%nat -> NormalMean.looks (map (inside lo len) (seq 0 n)) (bit_hit tie b lo len u t).
Proof.
  intros H z z' _ _ E. unfold bit_hit. f_equal. apply Rsum_n_ext. intros j Hj. f_equal. apply E.
  change (map (inside lo len) (seq 0 n)) with (tab n (inside lo len)). rewrite tab_nth by lia. unfold inside. rewrite (proj2 (Nat.leb_le _ _)), (proj2 (Nat.ltb_lt _ _)) by lia. reflexivity.
Qed.
Lemma bits_independent n tie b lo len u b' lo' len' u' t t' : (lo + len <= n)%nat -> (lo' + len' <= n)%nat -> (lo + len <= lo' \/ lo' + len' <= lo)%nat ->
  Rsum_n len (fun j => u (lo + j)%nat * u (lo + j)%nat) = 1 -> Rsum_n len' (fun j => u' (lo' + j)%nat * u' (lo' + j)%nat) = 1 ->
  normal_mean n (fun z => bit_hit tie b lo len u t z * bit_hit tie b' lo' len' u' t' z) (NormalMean.Qt t * NormalMean.Qt t').
Proof.
  intros H H' Dj U U'. pose proof (NormalMean.mean_product (map (inside lo len) (seq 0 n)) (bit_hit tie b lo len u t) (bit_hit tie b' lo' len' u' t') (NormalMean.Qt t) (NormalMean.Qt t')) as M.
  rewrite map_length, seq_length in M. apply M; [apply bit_looks, H| |apply bit_mean; assumption|apply bit_mean; assumption].
  intros z z' L L' E. rewrite !map_length, seq_length in L, L'. apply (bit_looks n tie b' lo' len' u' t' H'); try (rewrite map_length, seq_length; assumption).
  intros i Hi. apply E. destruct (Nat.ltb_spec i n) as [Li|Li].
  - rewrite map_map. change (map (inside lo' len') (seq 0 n)) with (tab n (inside lo' len')) in Hi. change (map (fun x => negb (inside lo len x)) (seq 0 n)) with (tab n (fun x => negb (inside lo len x))).
    rewrite tab_nth in Hi |- * by exact Li. unfold inside in *. apply andb_true_iff in Hi. destruct Hi as [A B]. apply Nat.leb_le in A. apply Nat.ltb_lt in B.
    destruct (Nat.leb_spec lo i); destruct (Nat.ltb_spec i (lo + len)); cbn; try reflexivity; lia.
  - rewrite nth_overflow in Hi by (rewrite map_length, seq_length; exact Li). discriminate.
Qed.

(** ** All the bits *)
Lemma Rsum_one N k c : (k < N)%nat -> Rsum_n N (fun l => if (l =? k)%nat then c else 0) = c.
Proof.
  intros H. rewrite (Rsum_n_split _ k N H), Nat.eqb_refl, Rsum_n_0; [ring|]. intros v _. destruct (v =? k)%nat; reflexivity.
Qed.
Lemma rate_spread n N (I : nat -> list R -> R) p : (0 < N)%nat -> (forall k z, I k z * I k z = I k z) -> (forall k, (k < N)%nat -> normal_mean n (I k) p) ->
  (forall k l, (k < N)%nat -> (l < N)%nat -> k <> l -> normal_mean n (fun z => I k z * I l z) (p * p)) ->
  normal_mean n (fun z => (Rsum_n N (fun k => I k z) / INR N - p) * (Rsum_n N (fun k => I k z) / INR N - p)) (p * (1 - p) / INR N).
Proof.
  intros HN Id M1 M2. assert (PN : 0 < INR N) by (apply lt_0_INR; exact HN).
  assert (S2 : normal_mean n (fun z => Rsum_n N (fun k => Rsum_n N (fun l => I k z * I l z))) (Rsum_n N (fun k => Rsum_n N (fun l => p * p + (if (l =? k)%nat then p - p * p else 0))))).
  { apply (mean_sum n N (fun k z => Rsum_n N (fun l => I k z * I l z))). intros k Hk. apply (mean_sum n N (fun l z => I k z * I l z)). intros l Hl. destruct (Nat.eqb_spec l k) as [->|E].
    - replace (p * p + (p - p * p)) with p by ring. apply NormalMean.mean_ext with (2 := M1 k Hk). intros; symmetry; apply Id.
    - rewrite Rplus_0_r. apply M2; auto. }
  assert (V : Rsum_n N (fun k => Rsum_n N (fun l => p * p + (if (l =? k)%nat then p - p * p else 0))) = INR N * (INR N * (p * p) + (p - p * p))).
  { rewrite (Rsum_n_ext N _ (fun _ => INR N * (p * p) + (p - p * p))); [apply Rsum_n_const|]. intros k Hk. rewrite Rsum_n_plus, Rsum_n_const, Rsum_one by exact Hk. reflexivity. }
  rewrite V in S2. pose proof (mean_sum n N I (fun _ => p) M1) as S1. rewrite Rsum_n_const in S1.
  pose proof (NormalMean.mean_lin n _ _ (- (2 * p / INR N)) _ _ S1 (NormalMean.mean_const n (p * p))) as T1.
  pose proof (NormalMean.mean_lin n _ _ (/ (INR N * INR N)) _ _ S2 T1) as T2.
  replace (p * (1 - p) / INR N) with (/ (INR N * INR N) * (INR N * (INR N * (p * p) + (p - p * p))) + (- (2 * p / INR N) * (INR N * p) + p * p)) by (field; lra).
  revert T2. apply NormalMean.mean_ext. intros z _. set (S := Rsum_n N (fun k => I k z)).
  assert (Sq : Rsum_n N (fun k => Rsum_n N (fun l => I k z * I l z)) = S * S).
  { rewrite (Rsum_n_ext N _ (fun k => S * I k z)); [rewrite Rsum_n_scale; reflexivity|]. intros k _. rewrite Rsum_n_scale. fold S. ring. }
  rewrite Sq. fold S. field. lra.
Qed.

(** Disjoint blocks of equal length, one for each bit. *)
Lemma blocks_law N len tie (data : nat -> bool) (u : nat -> R) t (rate : list R -> R) : (0 < N)%nat ->
  (forall k, Rsum_n len (fun j => u (k * len + j)%nat * u (k * len + j)%nat) = 1) ->
  (forall z, rate z = Rsum_n N (fun k => bit_hit tie (data k) (k * len) len u t z) / INR N) ->
  let p := NormalMean.Qt t in
  normal_mean (N * len) rate p /\ normal_mean (N * len) (fun z => (rate z - p) * (rate z - p)) (p * (1 - p) / INR N).
Proof.
  intros HN U Hr p. assert (PN : 0 < INR N) by (apply lt_0_INR; exact HN).
  assert (In : forall k, (k < N)%nat -> (k * len + len <= N * len)%nat) by (intros; nia).
  assert (M1 : forall k, (k < N)%nat -> normal_mean (N * len) (bit_hit tie (data k) (k * len) len u t) p) by (intros k Hk; apply bit_mean; [apply In, Hk|apply U]).
  split.
  - pose proof (mean_scale _ _ _ (INR N) (mean_sum (N * len) N (fun k => bit_hit tie (data k) (k * len) len u t) (fun _ => p) M1)) as S. rewrite Rsum_n_const in S.
    replace (INR N * p / INR N) with p in S by (field; lra). revert S. apply NormalMean.mean_ext. intros z _. symmetry. apply Hr.
  - pose proof (rate_spread (N * len) N (fun k => bit_hit tie (data k) (k * len) len u t) p HN ltac:(intros; apply hits_idem) M1) as S.
    eapply NormalMean.mean_ext; [|apply S].
    + intros z _. cbn beta. rewrite (Hr z). reflexivity.
    + intros k l Hk Hl E. apply bits_independent; [apply In, Hk|apply In, Hl|nia|apply U|apply U].
Qed.

Lemma Qt_H H t snr : error_function H -> t / sqrt 2 = sqrt snr -> NormalMean.Qt t = / 2 * (1 - H (sqrt snr)).
Proof. intros HH E. rewrite NormalMean.Qt_erf, E, (ErfGauss.erf_unique H HH). reflexivity. Qed.
Lemma root_two snr : 0 <= snr -> sqrt (2 * snr) / sqrt 2 = sqrt snr.
Proof. intros Hs. rewrite sqrt_mult by lra. field. apply Rgt_not_eq, sqrt_lt_R0. lra. Qed.

(** ** What the experiments can be expected to report *)

(** Noise of deviation sigma made from the numbers z. *)
Definition made_of (noise : list R -> R -> Iter R) : Prop := forall z sigma, streams (noise z sigma) (fun i => sigma * nth i z 0).

(** tests/ber.rs:66-92 with BPSK: over independent standard normal numbers, one for each sample, the reported rate has the mean
    erfc (sqrt snr) / 2 and the mean squared deviation p (1 - p) / N. *)
Theorem C108_bpsk :
  forall H (fuel : nat) (data : list bool) (sample_rate symbol_rate : nat) (fc : R) (half_cycles : Z) it (tx : list R) (noise : list R -> R -> Iter R) (snr : R),
    let sps := (sample_rate / symbol_rate)%nat in
    let p := / 2 * (1 - H (sqrt snr)) in
    error_function H -> data <> [] -> (length data < fuel)%nat -> (symbol_rate <= sample_rate)%nat ->
    tx_bpsk_signal (of_list data) sample_rate symbol_rate fc = Ret it -> yields it tx ->
    2 * fc * INR sps = IZR half_cycles * INR sample_rate -> ~ (exists z : Z, 2 * fc = IZR z * INR sample_rate) ->
    made_of noise -> 0 < snr ->
    exists rate : list R -> R,
      (forall z, calculate_bers identity fuel data tx (fun signal => rx_bpsk_signal signal sample_rate symbol_rate fc) (fun _ => noise z) [snr] = Ret [rate z]) /\
      normal_mean (length tx) rate p /\ normal_mean (length tx) (fun z => (rate z - p) * (rate z - p)) (p * (1 - p) / INR (length data)).
Proof.
  intros H fuel data sr sy fc h it tx noise snr n p HH Hd Hf Hle Et Y Hh Hz Mn Hs.
  destruct (tx_bpsk_inv _ _ _ _ _ Et) as (Hy & _ & _ & Yw). assert (Hn : (1 <= n)%nat) by (unfold n; apply Nat.div_le_lower_bound; lia).
  specialize (Yw Hn data (of_list_yields data)). assert (L : length tx = (length data * n)%nat) by (rewrite (yields_det _ _ _ Y Yw); apply tab_length). clear Yw.
  set (u := fun i => sqrt (2 / INR n) * cos (2 * PI * fc * (INR i / INR sr))).
  set (rate := fun z => Rsum_n (length data) (fun k => bit_hit false (nth k data false) (k * n) n u (sqrt (2 * snr)) z) / INR (length data)).
  assert (C : forall z, (exists bers, calculate_bers identity fuel data tx (fun signal => rx_bpsk_signal signal sr sy fc) (fun _ => noise z) [snr] = Ret bers /\
       Forall2 (fun snr b => lost_fraction (length data) (fun k => carried (nth k data false) (Rsum_n n (fun j => nth (k * n + j) z 0 * u (k * n + j)%nat)) (sqrt (2 * snr))) b) [snr] bers) /\
       forall k, Rsum_n n (fun j => u (k * n + j)%nat * u (k * n + j)%nat) = 1).
  { intros z. apply (C100_bpsk fuel data sr sy fc h it tx (fun _ => noise z) (fun _ i => nth i z 0) [snr]); try assumption.
    intros x [<-|[]]. split; [exact Hs|intros; apply Mn]. }
  exists rate. split.
  - intros z. destruct (C z) as [(bers & E & F) _]. rewrite E. f_equal. inversion F as [|? b ? bs F1 F2]; subst. inversion F2; subst. f_equal.
    apply (fraction_sum _ _ _ _ F1). intros k Hk. apply hits_carried.
  - rewrite L. unfold p. rewrite <- (Qt_H H _ snr HH (root_two snr ltac:(lra))).
    apply (blocks_law (length data) n false (fun k => nth k data false) u); [destruct data; [contradiction|cbn; lia]|apply (C [])|reflexivity].
Qed.

(** Spreading changes neither. *)
Theorem C108_cdma_bpsk :
  forall H (fuel : nat) (data : list bool) (sample_rate symbol_rate : nat) (fc : R) (key : list bool) (half_cycles : Z) it (tx : list R) (noise : list R -> R -> Iter R) (snr : R),
    let sps := (sample_rate / symbol_rate)%nat in
    let p := / 2 * (1 - H (sqrt snr)) in
    error_function H -> data <> [] -> (length data < fuel)%nat ->
    tx_cdma_bpsk_signal (of_list data) sample_rate symbol_rate fc key = Ret it -> yields it tx ->
    2 * fc * INR sps = IZR half_cycles * INR sample_rate -> ~ (exists z : Z, 2 * fc = IZR z * INR sample_rate) ->
    made_of noise -> 0 < snr ->
    exists rate : list R -> R,
      (forall z, calculate_bers identity fuel data tx (fun signal => rx_cdma_bpsk_signal signal sample_rate symbol_rate fc key) (fun _ => noise z) [snr] = Ret [rate z]) /\
      normal_mean (length data * sps) rate p /\ normal_mean (length data * sps) (fun z => (rate z - p) * (rate z - p)) (p * (1 - p) / INR (length data)).
Proof.
  intros H fuel data sr sy fc key h it tx noise snr n p HH Hd Hf Et Y Hh Hz Mn Hs.
  set (chip := fun i => if nth ((i / (n / length key)) mod length key) key false then 1 else -1).
  set (u := fun i => sqrt (2 / INR n) * (chip i * cos (2 * PI * fc * (INR i / INR sr)))).
  set (rate := fun z => Rsum_n (length data) (fun k => bit_hit false (nth k data false) (k * n) n u (sqrt (2 * snr)) z) / INR (length data)).
  assert (C : forall z, (exists bers, calculate_bers identity fuel data tx (fun signal => rx_cdma_bpsk_signal signal sr sy fc key) (fun _ => noise z) [snr] = Ret bers /\
       Forall2 (fun snr b => lost_fraction (length data) (fun k => carried (nth k data false) (Rsum_n n (fun j => nth (k * n + j) z 0 * u (k * n + j)%nat)) (sqrt (2 * snr))) b) [snr] bers) /\
       forall k, Rsum_n n (fun j => u (k * n + j)%nat * u (k * n + j)%nat) = 1).
  { intros z. apply (C100_cdma_bpsk fuel data sr sy fc key h it tx (fun _ => noise z) (fun _ i => nth i z 0) [snr]); try assumption.
    intros x [<-|[]]. split; [exact Hs|intros; apply Mn]. }
  exists rate. split.
  - intros z. destruct (C z) as [(bers & E & F) _]. rewrite E. f_equal. inversion F as [|? b ? bs F1 F2]; subst. inversion F2; subst. f_equal.
    apply (fraction_sum _ _ _ _ F1). intros k Hk. apply hits_carried.
  - unfold p. rewrite <- (Qt_H H _ snr HH (root_two snr ltac:(lra))).
    apply (blocks_law (length data) n false (fun k => nth k data false) u); [destruct data; [contradiction|cbn; lia]|apply (C [])|reflexivity].
Qed.

(** With QPSK the mean is the same. *)
Theorem C108_qpsk :
  forall H (fuel : nat) (data : list bool) (sample_rate symbol_rate : nat) (fc : R) (half_cycles : Z) it (tx : list R) (noise : list R -> R -> Iter R) (snr : R),
    let sps := (sample_rate / symbol_rate)%nat in
    error_function H -> data <> [] -> Nat.even (length data) = true -> (length data < fuel)%nat -> (1 <= symbol_rate <= sample_rate)%nat ->
    tx_qpsk_signal (of_list data) sample_rate symbol_rate fc = Ret it -> yields it tx ->
    2 * fc * INR sps = IZR half_cycles * INR sample_rate -> ~ (exists z : Z, 2 * fc = IZR z * INR sample_rate) ->
    made_of noise -> 0 < snr ->
    exists rate : list R -> R,
      (forall z, calculate_bers identity fuel data tx (fun signal => rx_qpsk_signal signal sample_rate symbol_rate fc) (fun _ => noise z) [snr] = Ret [rate z]) /\
      normal_mean (length data / 2 * sps) rate (/ 2 * (1 - H (sqrt snr))).
Proof.
  intros H fuel data sr sy fc h it tx noise snr n HH Hd Ev Hf Hr Et Y Hh Hz Mn Hs.
  set (ph := fun i => 2 * PI * fc * (INR i / INR sr)).
  set (u := fun (second : bool) i => sqrt (2 / INR n) * (if second then - sin (ph i) else cos (ph i))).
  assert (PN : 0 < INR (length data)) by (apply lt_0_INR; destruct data; [contradiction|cbn; lia]).
  set (rate := fun z => Rsum_n (length data) (fun k => bit_hit true (nth k data false) (k / 2 * n) n (u (Nat.odd k)) (sqrt (2 * snr)) z) / INR (length data)).
  assert (C : forall z, (exists bers, calculate_bers identity fuel data tx (fun signal => rx_qpsk_signal signal sr sy fc) (fun _ => noise z) [snr] = Ret bers /\
       Forall2 (fun snr b => lost_fraction (length data) (fun k => carried' (nth k data false) (Rsum_n n (fun j => nth (k / 2 * n + j) z 0 * u (Nat.odd k) (k / 2 * n + j)%nat)) (sqrt (2 * snr))) b) [snr] bers) /\
       forall k, Rsum_n n (fun j => u false (k * n + j)%nat * u false (k * n + j)%nat) = 1 /\
      Rsum_n n (fun j => u true (k * n + j)%nat * u true (k * n + j)%nat) = 1 /\
      Rsum_n n (fun j => u false (k * n + j)%nat * u true (k * n + j)%nat) = 0).
  { intros z. apply (C100_qpsk fuel data sr sy fc h it tx (fun _ => noise z) (fun _ i => nth i z 0) [snr]); try assumption.
    intros x [<-|[]]. split; [exact Hs|intros; apply Mn]. }
  exists rate. split.
  - intros z. destruct (C z) as [(bers & E & F) _]. rewrite E. f_equal. inversion F as [|? b ? bs F1 F2]; subst. inversion F2; subst. f_equal.
    apply (fraction_sum _ _ _ _ F1). intros k Hk. apply hits_carried'.
  - rewrite <- (Qt_H H _ snr HH (root_two snr ltac:(lra))). set (q := NormalMean.Qt (sqrt (2 * snr))).
    replace q with (Rsum_n (length data) (fun _ => q) / INR (length data)) by (rewrite Rsum_n_const; field; lra).
    apply mean_scale. apply (mean_sum _ _ (fun k => bit_hit true (nth k data false) (k / 2 * n) n (u (Nat.odd k)) (sqrt (2 * snr)))). intros k Hk.
    apply bit_mean.
    + assert (k / 2 < length data / 2)%nat; [|nia]. apply Nat.even_spec in Ev. destruct Ev as [K E]. rewrite E, (Nat.mul_comm 2 K), Nat.div_mul by lia. apply Nat.div_lt_upper_bound; lia.
    + destruct (C []) as [_ U]. destruct (U (k / 2)%nat) as (U0 & U1 & _). destruct (Nat.odd k); assumption.
Qed.

(** tests/ber.rs:94-124, the complex baseband: BPSK as before, QPSK at half the rate, for no noise is put on the second bit. *)
Theorem C108_baseband_bpsk :
  forall H (fuel : nat) (data : list bool) (tx : list (cpx R)) (noise : list R -> R -> Iter R) (snr : R),
    let p := / 2 * (1 - H (sqrt snr)) in
    error_function H -> data <> [] -> (length data < fuel)%nat -> yields (tx_baseband_bpsk_signal (of_list data)) tx -> made_of noise -> 0 < snr ->
    exists rate : list R -> R,
      (forall z, calculate_bers_baseband identity fuel data tx (fun signal => Ret (rx_baseband_bpsk_signal signal)) (fun _ => noise z) [snr] = Ret [rate z]) /\
      normal_mean (length data) rate p /\ normal_mean (length data) (fun z => (rate z - p) * (rate z - p)) (p * (1 - p) / INR (length data)).
Proof.
  intros H fuel data tx noise snr p HH Hd Hf Y Mn Hs.
  set (rate := fun z => Rsum_n (length data) (fun k => bit_hit true (nth k data false) (k * 1) 1 (fun _ => 1) (sqrt (2 * snr)) z) / INR (length data)).
  exists rate. split.
  - intros z. destruct (C100_baseband_bpsk fuel data tx (fun _ => noise z) (fun _ i => nth i z 0) [snr] Hd Hf Y) as (bers & E & F).
    { intros x [<-|[]]. split; [exact Hs|intros; apply Mn]. }
    rewrite E. f_equal. inversion F as [|? b ? bs F1 F2]; subst. inversion F2; subst. f_equal.
    apply (fraction_sum _ _ _ _ F1). intros k Hk. unfold bit_hit. cbn [Rsum_n]. rewrite Nat.mul_1_r, Nat.add_0_r, Rplus_0_l, Rmult_1_r. apply hits_carried'.
  - unfold p. rewrite <- (Qt_H H _ snr HH (root_two snr ltac:(lra))).
    pose proof (blocks_law (length data) 1 true (fun k => nth k data false) (fun _ => 1) (sqrt (2 * snr)) rate ltac:(destruct data; [contradiction|cbn; lia]) ltac:(intros; cbn [Rsum_n]; ring) ltac:(reflexivity)) as B.
    rewrite Nat.mul_1_r in B. exact B.
Qed.

Theorem C108_baseband_qpsk :
  forall H (fuel : nat) (data : list bool) (tx : list (cpx R)) (noise : list R -> R -> Iter R) (snr : R),
    error_function H -> data <> [] -> Nat.even (length data) = true -> (length data < fuel)%nat -> yields (tx_baseband_qpsk_signal (of_list data)) tx ->
    made_of noise -> 0 < snr ->
    exists rate : list R -> R,
      (forall z, calculate_bers_baseband identity fuel data tx (fun signal => Ret (rx_baseband_qpsk_signal signal)) (fun _ => noise z) [snr] = Ret [rate z]) /\
      normal_mean (length data / 2) rate (/ 2 * (/ 2 * (1 - H (sqrt snr)))).
Proof.
  intros H fuel data tx noise snr HH Hd Ev Hf Y Mn Hs.
  set (I := fun k z => if Nat.even k then bit_hit true (nth k data false) (k / 2) 1 (fun _ => 1) (sqrt (2 * snr)) z else 0).
  exists (fun z => Rsum_n (length data) (fun k => I k z) / INR (length data)). split.
  - intros z. destruct (C100_baseband_qpsk fuel data tx (fun _ => noise z) (fun _ i => nth i z 0) [snr] Hd Ev Hf Y) as (bers & E & F).
    { intros x [<-|[]]. split; [exact Hs|intros; apply Mn]. }
    rewrite E. f_equal. inversion F as [|? b ? bs F1 F2]; subst. inversion F2; subst. f_equal.
    apply (fraction_sum _ _ _ _ F1). intros k Hk. unfold I. destruct (Nat.even k).
    + unfold bit_hit. cbn [Rsum_n]. rewrite Nat.add_0_r, Rplus_0_l, Rmult_1_r. destruct (hits_carried' (nth k data false) (nth (k / 2) z 0) (sqrt (2 * snr))) as [[A B]|[A B]]; [left|right]; split; try exact B; [split; [reflexivity|exact A]|intros [_ X]; exact (A X)].
    + right. split; [intros [X _]; discriminate X|reflexivity].
  - rewrite <- (Qt_H H _ snr HH (root_two snr ltac:(lra))). set (q := NormalMean.Qt (sqrt (2 * snr))).
    apply Nat.even_spec in Ev. destruct Ev as [K E]. rewrite E, (Nat.mul_comm 2 K), Nat.div_mul by lia.
    assert (PK : 0 < INR K) by (apply lt_0_INR; destruct data; [contradiction|cbn [length] in E; lia]).
    replace (/ 2 * q) with (Rsum_n (K * 2) (fun k => if Nat.even k then q else 0) / INR (K * 2)).
    + apply mean_scale. apply (mean_sum _ _ I). intros k Hk. unfold I. destruct (Nat.even k); [|apply NormalMean.mean_const].
      apply bit_mean; [|cbn [Rsum_n]; ring]. assert (k / 2 < K)%nat by (apply Nat.div_lt_upper_bound; lia). lia.
    + rewrite Rsum_n_mul, mult_INR. rewrite (Rsum_n_ext K _ (fun _ => q)); [rewrite Rsum_n_const; cbn [INR]; field; lra|].
      intros i _. cbn [Rsum_n]. rewrite Nat.add_0_r. replace (Nat.even (i * 2)) with true by (symmetry; apply Nat.even_spec; exists i; lia).
      replace (Nat.even (i * 2 + 1)) with false; [ring|]. rewrite Nat.add_1_r, Nat.even_succ, <- Nat.negb_even. rewrite (proj2 (Nat.even_spec (i * 2))); [reflexivity|exists i; lia].
Qed.

(** kom_py/ber.py: the ratio is scaled by the square of the symbol rate over the sample rate. *)
Theorem C108_python_bpsk :
  forall H (data : list bool) (sample_rate symbol_rate : nat) (fc : R) (half_cycles : Z) it (tx : list R) (noise : list R -> R -> Iter R) (snr : R),
    let sps := (sample_rate / symbol_rate)%nat in
    let p := / 2 * (1 - H (sqrt (snr * (INR symbol_rate * INR symbol_rate / INR sample_rate)))) in
    error_function H -> data <> [] -> (symbol_rate <= sample_rate)%nat ->
    tx_bpsk_signal (of_list data) sample_rate symbol_rate fc = Ret it -> yields it tx ->
    2 * fc * INR sps = IZR half_cycles * INR sample_rate -> ~ (exists z : Z, 2 * fc = IZR z * INR sample_rate) ->
    made_of noise -> 0 < snr ->
    exists rate : list R -> R,
      (forall z, returns (fun fuel => kom_calc_ber unchanged fuel sample_rate symbol_rate (fun _ => noise z) data tx
                             (fun signal => py_rx_bpsk signal sample_rate symbol_rate fc fuel) [snr]) [rate z]) /\
      normal_mean (length tx) rate p /\ normal_mean (length tx) (fun z => (rate z - p) * (rate z - p)) (p * (1 - p) / INR (length data)).
Proof.
  intros H data sr sy fc h it tx noise snr n p HH Hd Hle Et Y Hh Hz Mn Hs.
  destruct (tx_bpsk_inv _ _ _ _ _ Et) as (Hy & _ & _ & Yw). assert (Hn : (1 <= n)%nat) by (unfold n; apply Nat.div_le_lower_bound; lia).
  specialize (Yw Hn data (of_list_yields data)). assert (L : length tx = (length data * n)%nat) by (rewrite (yields_det _ _ _ Y Yw); apply tab_length). clear Yw.
  set (u := fun i => sqrt (2 / INR n) * cos (2 * PI * fc * (INR i / INR sr))). set (c := INR sy * INR sy / INR sr) in *.
  assert (Pc : 0 <= c) by (unfold c; apply Rmult_le_pos; [apply Rmult_le_pos; apply pos_INR|apply Rlt_le, Rinv_0_lt_compat, lt_0_INR; lia]).
  set (rate := fun z => Rsum_n (length data) (fun k => bit_hit false (nth k data false) (k * n) n u (sqrt (2 * snr * c)) z) / INR (length data)).
  exists rate. split.
  - intros z. destruct (C100_python_bpsk data sr sy fc h it tx (fun _ => noise z) (fun _ i => nth i z 0) [snr] Hd Hle Et Y Hh Hz) as (bers & E & Lb & F).
    { repeat constructor. exact Hs. } { intros; apply Mn. }
    destruct bers as [|b [|]]; try discriminate. specialize (F 0%nat snr b eq_refl eq_refl). replace (rate z) with b; [exact E|].
    apply (fraction_sum _ _ _ _ F). intros k Hk. apply hits_carried.
  - rewrite L. unfold p. replace (sqrt (2 * snr * c)) with (sqrt (2 * (snr * c))) in * by (f_equal; ring).
    rewrite <- (Qt_H H _ (snr * c) HH (root_two (snr * c) ltac:(apply Rmult_le_pos; lra))).
    apply (blocks_law (length data) n false (fun k => nth k data false) u); [destruct data; [contradiction|cbn; lia]| |intros z; unfold rate; replace (2 * snr * c) with (2 * (snr * c)) by ring; reflexivity].
    intros k. destruct (C100_bpsk (S (length data)) data sr sy fc h it tx (fun _ s => counting (fun i => s * 0)) (fun _ _ => 0) [] Hd ltac:(lia) Hle Et Y Hh Hz ltac:(intros ? [])) as [_ U]. apply U.
Qed.

(** Against the curves of tests/ber.rs:27-39: the BPSK curve is the mean to 1.2e-7 of itself; the QPSK curve lies below the mean of
    the passband experiment and above the mean p/2 of the baseband one, save where the error of erfc hides it. *)
Theorem C108_curves H (snr b q : R) : error_function H -> 0 < snr -> ber_bpsk [snr] = [b] -> ber_qpsk [snr] = [q] ->
  let p := / 2 * (1 - H (sqrt snr)) in
  0 < p < / 2 /\ Rabs (b - p) <= 12 / 100000000 * p /\ Rabs (q - (p - p * p)) <= 12 / 100000000 * p /\
  (/ 5000000 < p -> q < p) /\ (p < 49 / 100 -> / 2 * p < q).
Proof.
  intros HH Hs Eb Eq p. pose proof (C107_bpsk_curve H HH [snr] 0 snr b eq_refl ltac:(lra) ltac:(rewrite Eb; reflexivity)) as B.
  pose proof (C107_qpsk_curve H HH [snr] 0 snr q eq_refl ltac:(lra) ltac:(rewrite Eq; reflexivity)) as Q. cbv zeta in Q. fold p in B, Q.
  assert (Pp : 0 < p < / 2).
  { destruct C107_error_function as (_ & _ & R1 & _). destruct (R1 H HH (sqrt snr)) as [_ A]. apply Rabs_def2 in A. assert (0 < H (sqrt snr)); [|unfold p; lra].
    destruct HH as [H0 HD]. pose proof (sqrt_lt_R0 snr Hs) as Sp. destruct (MVT_cor2 H (fun x => 2 / sqrt PI * exp (- (x * x))) 0 (sqrt snr) Sp ltac:(intros; apply HD)) as (c & E & _).
    rewrite H0, !Rminus_0_r in E. rewrite E. pose proof PI_RGT_0. repeat apply Rmult_lt_0_compat; try lra; [apply Rinv_0_lt_compat, sqrt_lt_R0; lra|apply exp_pos]. }
  apply Flocq.Core.Raux.Rabs_le_inv in Q. split; [exact Pp|]. split; [exact B|]. split; [apply Rabs_le; exact Q|]. split; intros G; nra.
Qed.

(** The means are well defined: at most one value, linear, of mass one, and with the Gaussian tail. *)
Theorem C108_normal_mean :
  (forall n F e e', normal_mean n F e -> normal_mean n F e' -> e = e') /\
  (forall n c, normal_mean n (fun _ => c) c) /\
  (forall n F G k e g, normal_mean n F e -> normal_mean n G g -> normal_mean n (fun z => k * F z + G z) (k * e + g)) /\
  (forall H c, error_function H -> normal_mean 1 (fun z => if Rlt_dec c (nth 0 z 0) then 1 else 0) (/ 2 * (1 - H (c / sqrt 2)))).
Proof.
  split; [exact NormalMean.mean_unique|]. split; [exact NormalMean.mean_const|]. split; [exact NormalMean.mean_lin|]. intros H c HH.
  rewrite (ErfGauss.erf_unique H HH), <- NormalMean.Qt_erf. pose proof (bit_mean 1 false false 0 1 (fun _ => 1) c ltac:(lia) ltac:(cbn [Rsum_n]; ring)) as B.
  revert B. apply NormalMean.mean_ext. intros z _. unfold bit_hit. cbn [Rsum_n plus]. rewrite Rplus_0_l, Rmult_1_r. reflexivity.
Qed.

(** The signals of C100_qpsk_case, C100_cdma_case, C100_baseband_case and C100_python_case meet the hypotheses of the other theorems.
    Two bits of eight samples at snr 1/2: a mean strictly between 0 and 1/2, so that the experiment does see errors. *)
Example C108_case : exists H it tx rate p, error_function H /\ tx_bpsk_signal (of_list [true; false]) 8 1 (1 : R) = Ret it /\ yields it tx /\
  (forall z, calculate_bers identity 3 [true; false] tx (fun signal => rx_bpsk_signal signal 8 1 1) (fun _ sigma => counting (fun i => sigma * nth i z 0)) [1 / 2] = Ret [rate z]) /\
  normal_mean (length tx) rate p /\ 0 < p < / 2 /\ exists z, rate z <> 0.
Proof.
  destruct C107_error_function as ((H & HH) & _). destruct (eight_bpsk [true; false]) as (it & tx & Et & Y). destruct eight_design as (D & H1 & H2).
  destruct (C108_bpsk H 3 [true; false] 8 1 1 2 it tx (fun z sigma => counting (fun i => sigma * nth i z 0)) (1 / 2) HH ltac:(discriminate) ltac:(cbn; lia) ltac:(lia) Et Y H1 H2) as (rate & E & M & _).
  { intros z sigma. apply counting_streams. } { lra. }
  exists H, it, tx, rate, (/ 2 * (1 - H (sqrt (1 / 2)))). repeat (split; [assumption|]).
  assert (Pp : 0 < / 2 * (1 - H (sqrt (1 / 2))) < / 2) by (destruct (C108_curves H (1 / 2) _ _ HH ltac:(lra) eq_refl eq_refl) as (A & _); exact A).
  split; [exact Pp|]. set (u := fun i => sqrt (2 / INR 8) * cos (2 * PI * 1 * (INR i / INR 8))).
  exists (map (fun i => -2 * u i) (seq 0 16)). intros Z0.
  destruct (C100_bpsk 3 [true; false] 8 1 1 2 it tx (fun _ sigma => counting (fun i => sigma * nth i (map (fun i => -2 * u i) (seq 0 16)) 0)) (fun _ i => nth i (map (fun i => -2 * u i) (seq 0 16)) 0) [1 / 2]) as [(bers & Eb & F) N];
    try assumption; try (cbn; lia); try discriminate.
  { intros snr [<-|[]]. split; [lra|intros; apply counting_streams]. }
  rewrite E, Z0 in Eb. injection Eb as <-. inversion F as [|? b ? bs F1 _]; subst. apply two_marks in F1. destruct F1 as [F1 _].
  assert (N' : forall k, Rsum_n 8 (fun j => u (k * 8 + j)%nat * u (k * 8 + j)%nat) = 1) by exact N.
  assert (G : forall k, (k < 2)%nat -> Rsum_n 8 (fun j => nth (k * 8 + j) (map (fun i => -2 * u i) (seq 0 16)) 0 * u (k * 8 + j)%nat) = -2).
  { intros k Hk. rewrite (Rsum_n_ext 8 _ (fun j => -2 * (u (k * 8 + j)%nat * u (k * 8 + j)%nat))).
    - rewrite Rsum_n_scale, (N' k). ring.
    - intros j Hj. change (map (fun i => -2 * u i) (seq 0 16)) with (tab 16 (fun i => -2 * u i)). rewrite tab_nth by lia. ring. }
  assert (S1 : sqrt (2 * (1 / 2)) = 1) by (replace (2 * (1 / 2)) with 1 by lra; apply sqrt_1).
  assert (X : 0 = 1 / 2); [|lra]. rewrite S1 in F1. apply F1.
  - pose proof (G 0%nat ltac:(lia)) as G0. change (carried true (Rsum_n 8 (fun j => nth (0 * 8 + j) (map (fun i => -2 * u i) (seq 0 16)) 0 * u (0 * 8 + j)%nat)) 1). rewrite G0. unfold carried. lra.
  - pose proof (G 1%nat ltac:(lia)) as G1. change (~ carried false (Rsum_n 8 (fun j => nth (1 * 8 + j) (map (fun i => -2 * u i) (seq 0 16)) 0 * u (1 * 8 + j)%nat)) 1). rewrite G1. unfold carried. lra.
Qed.

(** ** Axioms used *)
Print Assumptions C108_bpsk.
Print Assumptions C108_cdma_bpsk.
Print Assumptions C108_qpsk.
Print Assumptions C108_baseband_bpsk.
Print Assumptions C108_baseband_qpsk.
Print Assumptions C108_python_bpsk.
Print Assumptions C108_curves.
Print Assumptions C108_normal_mean.
