(** C109: in Gaussian noise the number of errors an error-rate experiment counts is binomial, and the measured rate settles. *)
From Coq Require Import List Arith ZArith Reals Bool Lia Lra Psatz.
From Verif Require Import Base IterTheory IterModel IterProofs Spec SpecR Tab Num LibModel LibReal PskModel PskChain RSums PskReal
  CdmaModel CdmaProofs KomModel PyModel LabModel BerModel Props_Lib Props_Psk Props_Pass Props_Jam Props_Energy Props_Harness Props_Py Props_Ber Props_Cdma
  Props_BerTheory Props_Erf Props_Expected.
From Verif Require NormalMean.
Import ListNotations.
Local Open Scope R_scope.

(** ** Independent trials *)
Fixpoint trials (N : nat) (p : R) (g : nat -> R) : R :=
  match N with O => g 0%nat | S N' => p * trials N' p (fun m => g (S m)) + (1 - p) * trials N' p g end.

Lemma trials_ext N p : forall g h, (forall m, (m <= N)%nat -> g m = h m) -> trials N p g = trials N p h.
Proof.
  induction N as [|N IH]; intros g h E; cbn [trials]; [apply E; lia|]. f_equal; f_equal; apply IH; intros m Hm; apply E; lia.
Qed.
Lemma trials_le N p : 0 <= p <= 1 -> forall g h, (forall m, (m <= N)%nat -> g m <= h m) -> trials N p g <= trials N p h.
Proof.
  intros Hp. induction N as [|N IH]; intros g h E; cbn [trials]; [apply E; lia|].
  apply Rplus_le_compat; apply Rmult_le_compat_l; try lra; apply IH; intros m Hm; apply E; lia.
Qed.
Lemma trials_scale N p c : forall g, trials N p (fun m => c * g m) = c * trials N p g.
Proof. induction N as [|N IH]; intros g; cbn [trials]; [reflexivity|]. rewrite (IH g), (IH (fun m => g (S m))). ring. Qed.

Lemma C_zero n : C n 0 = 1.
Proof. unfold C. rewrite Nat.sub_0_r. cbn [fact INR]. field. apply INR_fact_neq_0. Qed.
Lemma C_full n : C n n = 1.
Proof. unfold C. rewrite Nat.sub_diag. cbn [fact INR]. field. apply INR_fact_neq_0. Qed.

Lemma sum_first N f : Rsum_n (S N) f = f 0%nat + Rsum_n N (fun m => f (S m)).
Proof. change (S N) with (1 + N)%nat. rewrite Rsum_n_add. cbn [Rsum_n plus]. ring. Qed.
Lemma sum_last N f : Rsum_n (S N) f = Rsum_n N f + f N.
Proof. reflexivity. Qed.

(** The binomial law. *)
Lemma trials_binomial N p : forall g, trials N p g = Rsum_n (S N) (fun m => C N m * p ^ m * (1 - p) ^ (N - m) * g m).
Proof.
  induction N as [|N IH]; intros g.
  - cbn [trials Rsum_n]. rewrite C_zero. cbn. ring.
  - cbn [trials]. rewrite (IH g), (IH (fun m => g (S m))). set (q := 1 - p). rewrite <- !Rsum_n_scale.
    rewrite (sum_first (S N)), (sum_last N (fun m => C (S N) (S m) * _ * _ * _)), (sum_last N (fun m => p * _)), (sum_first N (fun m => q * _)).
    rewrite (Rsum_n_ext N (fun m => C (S N) (S m) * p ^ S m * q ^ (S N - S m) * g (S m))
      (fun m => p * (C N m * p ^ m * q ^ (N - m) * g (S m)) + q * (C N (S m) * p ^ S m * q ^ (N - S m) * g (S m)))).
    + rewrite Rsum_n_plus, !C_zero, !C_full, !Nat.sub_diag, !Nat.sub_0_r. cbn [pow]. ring.
    + intros m Hm. rewrite <- (pascal N m Hm). replace (S N - S m)%nat with (S (N - S m)) by lia. replace (N - m)%nat with (S (N - S m)) by lia. cbn [pow]. ring.
Qed.

(** ** Blocks one after the other *)
Lemma mean_app n1 n2 : forall (F : list R -> R) f e, (forall z1, length z1 = n1 -> normal_mean n2 (fun z2 => F (z1 ++ z2)) (f z1)) -> normal_mean n1 f e -> normal_mean (n1 + n2) F e.
Proof.
  induction n1 as [|n1 IH]; intros F f e HF Hf; cbn [NormalMean.normal_mean plus] in *.
  - rewrite <- Hf. exact (HF [] eq_refl).
  - destruct Hf as (h & Hh & L). exists h. split; [|exact L]. intros z. apply (IH (fun zs => F (z :: zs)) (fun zs => f (z :: zs))); [|apply Hh].
    intros z1 L1. apply (HF (z :: z1)). cbn. lia.
Qed.

(** How many of the N bits are lost. *)
Definition lost_count (N len : nat) (tie : bool) (data : nat -> bool) (u : nat -> R) (t : R) (z : list R) : nat :=
  length (filter (fun k => if Req_EM_T (bit_hit tie (data k) (k * len) len u t z) 1 then true else false) (seq 0 N)).

Lemma lost_count_sum N len tie data u t z : Rsum_n N (fun k => bit_hit tie (data k) (k * len) len u t z) = INR (lost_count N len tie data u t z).
Proof.
  unfold lost_count. induction N as [|N IH]; [reflexivity|]. rewrite seq_S, filter_app, app_length, plus_INR, <- IH. cbn [Rsum_n plus filter]. f_equal.
  destruct (Req_EM_T _ 1) as [->|Nq]; [reflexivity|]. cbn. pose proof (hits_idem tie (data N) (Rsum_n len (fun j => nth (N * len + j) z 0 * u (N * len + j)%nat)) t) as I.
  unfold bit_hit in *. nra.
Qed.

Lemma bit_first tie b len u t z1 z2 : length z1 = len -> bit_hit tie b 0 len u t (z1 ++ z2) = bit_hit tie b 0 len u t z1.
Proof. intros L. unfold bit_hit. f_equal. apply Rsum_n_ext. intros j Hj. cbn [plus]. rewrite app_nth1 by lia. reflexivity. Qed.
Lemma bit_later tie b k len u t z1 z2 : length z1 = len ->
  bit_hit tie b (S k * len) len u t (z1 ++ z2) = bit_hit tie b (k * len) len (fun i => u (len + i)%nat) t z2.
Proof.
  intros L. unfold bit_hit. f_equal. apply Rsum_n_ext. intros j Hj. rewrite app_nth2 by nia. f_equal; f_equal; cbn [Nat.mul]; lia.
Qed.
Lemma filter_seq_S (f : nat -> bool) N : length (filter f (seq 1 N)) = length (filter (fun k => f (S k)) (seq 0 N)).
Proof. rewrite <- seq_shift. induction (seq 0 N) as [|a l IH]; cbn; [reflexivity|]. destruct (f (S a)); cbn; lia. Qed.
Lemma lost_count_S N len tie data u t z1 z2 : length z1 = len ->
  lost_count (S N) len tie data u t (z1 ++ z2) =
  ((if Req_EM_T (bit_hit tie (data 0%nat) 0 len u t z1) 1 then 1 else 0) + lost_count N len tie (fun k => data (S k)) (fun i => u (len + i)%nat) t z2)%nat.
Proof.
  intros L. unfold lost_count. cbn [seq filter]. change (0 * len)%nat with 0%nat. rewrite (bit_first _ _ _ _ _ _ _ L).
  assert (E : length (filter (fun k => if Req_EM_T (bit_hit tie (data k) (k * len) len u t (z1 ++ z2)) 1 then true else false) (seq 1 N))
    = length (filter (fun k => if Req_EM_T (bit_hit tie (data (S k)) (k * len) len (fun i => u (len + i)%nat) t z2) 1 then true else false) (seq 0 N))).
  { rewrite filter_seq_S. f_equal. apply filter_ext. intros k. rewrite (bit_later _ _ _ _ _ _ _ _ L). reflexivity. }
  destruct (Req_EM_T _ 1); cbn [length]; rewrite E; reflexivity.
Qed.

Lemma count_law len tie t N : forall (data : nat -> bool) (u : nat -> R) (g : nat -> R),
  (forall k, Rsum_n len (fun j => u (k * len + j)%nat * u (k * len + j)%nat) = 1) ->
  normal_mean (N * len) (fun z => g (lost_count N len tie data u t z)) (trials N (NormalMean.Qt t) g).
Proof.
  induction N as [|N IH]; intros data u g U; [reflexivity|]. cbn [Nat.mul trials]. set (q := NormalMean.Qt t).
  assert (U' : forall k, Rsum_n len (fun j => u (len + (k * len + j))%nat * u (len + (k * len + j))%nat) = 1).
  { intros k. rewrite <- (U (S k)). apply Rsum_n_ext. intros j _. cbn [Nat.mul]. rewrite <- !Nat.add_assoc. reflexivity. }
  apply mean_app with (f := fun z1 => bit_hit tie (data 0%nat) 0 len u t z1 * (trials N q (fun m => g (S m)) - trials N q g) + trials N q g).
  - intros z1 L. destruct (Req_EM_T (bit_hit tie (data 0%nat) 0 len u t z1) 1) as [E|E].
    + rewrite E, Rmult_1_l. replace (trials N q (fun m => g (S m)) - trials N q g + trials N q g) with (trials N q (fun m => g (S m))) by ring.
      eapply NormalMean.mean_ext; [|apply (IH (fun k => data (S k)) (fun i => u (len + i)%nat) (fun m => g (S m)) U')].
      intros z2 _. cbn beta. rewrite (lost_count_S _ _ _ _ _ _ _ _ L). destruct (Req_EM_T _ 1); [reflexivity|contradiction].
    + assert (Z : bit_hit tie (data 0%nat) 0 len u t z1 = 0).
      { pose proof (hits_idem tie (data 0%nat) (Rsum_n len (fun j => nth (0 + j) z1 0 * u (0 + j)%nat)) t) as I. unfold bit_hit in *. nra. }
      rewrite Z, Rmult_0_l, Rplus_0_l.
      eapply NormalMean.mean_ext; [|apply (IH (fun k => data (S k)) (fun i => u (len + i)%nat) g U')].
      intros z2 _. cbn beta. rewrite (lost_count_S _ _ _ _ _ _ _ _ L). destruct (Req_EM_T _ 1); [contradiction|reflexivity].
  - pose proof (bit_mean len tie (data 0%nat) 0 len u t ltac:(lia) (U 0%nat)) as B.
    pose proof (NormalMean.mean_lin len _ _ (trials N q (fun m => g (S m)) - trials N q g) _ _ B (NormalMean.mean_const len (trials N q g))) as M.
    fold q in M. replace (q * trials N q (fun m => g (S m)) + (1 - q) * trials N q g) with ((trials N q (fun m => g (S m)) - trials N q g) * q + trials N q g) by ring.
    revert M. apply NormalMean.mean_ext. intros; ring.
Qed.

(** ** The law of an experiment *)

(** Over n standard normal numbers, [rate] is the fraction of [N] independent trials of probability [p] that fail: the mean of every
    function of their number is its mean under the binomial law; and the rate is farther than d from p with probability at most p (1 - p) / (N d^2). *)
Definition binomial_rate (n N : nat) (p : R) (rate : list R -> R) : Prop :=
  (exists count : list R -> nat, (forall z, (count z <= N)%nat /\ rate z = INR (count z) / INR N) /\
     forall g : nat -> R, normal_mean n (fun z => g (count z)) (Rsum_n (S N) (fun m => C N m * p ^ m * (1 - p) ^ (N - m) * g m))) /\
  forall d, 0 < d -> exists prob, normal_mean n (fun z => if Rle_dec d (Rabs (rate z - p)) then 1 else 0) prob /\ prob <= p * (1 - p) / (INR N * (d * d)).

Lemma blocks_binomial N len tie (data : nat -> bool) (u : nat -> R) t (rate : list R -> R) : (0 < N)%nat ->
  (forall k, Rsum_n len (fun j => u (k * len + j)%nat * u (k * len + j)%nat) = 1) ->
  (forall z, rate z = Rsum_n N (fun k => bit_hit tie (data k) (k * len) len u t z) / INR N) ->
  binomial_rate (N * len) N (NormalMean.Qt t) rate.
Proof.
  intros HN U Hr. set (p := NormalMean.Qt t). assert (PN : 0 < INR N) by (apply lt_0_INR; exact HN).
  assert (Pp : 0 <= p <= 1) by (unfold p, NormalMean.Qt; pose proof (NormalMean.P_lt t); lra).
  assert (Rc : forall z, rate z = INR (lost_count N len tie data u t z) / INR N) by (intros z; rewrite Hr, lost_count_sum; reflexivity).
  split.
  - exists (lost_count N len tie data u t). split.
    + intros z. split; [|apply Rc]. unfold lost_count. rewrite <- (seq_length N 0) at 2. generalize (seq 0 N). intros l. induction l as [|a l IH]; cbn; [lia|].
      destruct (Req_EM_T _ 1); cbn; lia.
    + intros g. rewrite <- trials_binomial. apply count_law, U.
  - intros d Hd. exists (trials N p (fun m => if Rle_dec d (Rabs (INR m / INR N - p)) then 1 else 0)). split.
    + eapply NormalMean.mean_ext; [|apply (count_law len tie t N data u _ U)]. intros z _. cbn beta. rewrite Rc. reflexivity.
    + assert (V : trials N p (fun m => (INR m / INR N - p) * (INR m / INR N - p)) = p * (1 - p) / INR N).
      { destruct (blocks_law N len tie data u t rate HN U Hr) as [_ M2]. apply (NormalMean.mean_unique (N * len) (fun z => (rate z - p) * (rate z - p))); [|exact M2].
        eapply NormalMean.mean_ext; [|apply (count_law len tie t N data u _ U)]. intros z _. cbn beta. rewrite Rc. reflexivity. }
      apply Rle_trans with (trials N p (fun m => / (d * d) * ((INR m / INR N - p) * (INR m / INR N - p)))).
      * apply trials_le; [exact Pp|]. intros m _. assert (Dd : 0 < d * d) by nra. pose proof (Rinv_0_lt_compat _ Dd) as Di.
        destruct (Rle_dec d (Rabs (INR m / INR N - p))) as [L|L].
        -- apply Rmult_le_reg_l with (d * d); [exact Dd|]. rewrite <- Rmult_assoc, Rinv_r, Rmult_1_l, Rmult_1_r by lra.
           set (x := INR m / INR N - p) in *. clearbody x. destruct (Rcase_abs x) as [Ng|Ng]; [rewrite Rabs_left in L by lra|rewrite Rabs_right in L by lra]; nra.
        -- apply Rmult_le_pos; [lra|]. apply Rle_0_sqr.
      * rewrite trials_scale, V. right. field. lra.
Qed.

Theorem C109_bpsk :
  forall H (fuel : nat) (data : list bool) (sample_rate symbol_rate : nat) (fc : R) (half_cycles : Z) it (tx : list R) (noise : list R -> R -> Iter R) (snr : R),
    let sps := (sample_rate / symbol_rate)%nat in
    error_function H -> data <> [] -> (length data < fuel)%nat -> (symbol_rate <= sample_rate)%nat ->
    tx_bpsk_signal (of_list data) sample_rate symbol_rate fc = Ret it -> yields it tx ->
    2 * fc * INR sps = IZR half_cycles * INR sample_rate -> ~ (exists z : Z, 2 * fc = IZR z * INR sample_rate) ->
    made_of noise -> 0 < snr ->
    exists rate : list R -> R,
      (forall z, calculate_bers identity fuel data tx (fun signal => rx_bpsk_signal signal sample_rate symbol_rate fc) (fun _ => noise z) [snr] = Ret [rate z]) /\
      binomial_rate (length tx) (length data) (/ 2 * (1 - H (sqrt snr))) rate.
Proof.
  intros H fuel data sr sy fc h it tx noise snr n HH Hd Hf Hle Et Y Hh Hz Mn Hs.
  destruct (tx_bpsk_inv _ _ _ _ _ Et) as (Hy & _ & _ & Yw). assert (Hn : (1 <= n)%nat) by (unfold n; apply Nat.div_le_lower_bound; lia).
  specialize (Yw Hn data (of_list_yields data)). assert (L : length tx = (length data * n)%nat) by (rewrite (yields_det _ _ _ Y Yw); apply tab_length). clear Yw.
  set (u := fun i => sqrt (2 / INR n) * cos (2 * PI * fc * (INR i / INR sr))).
  set (rate := fun z => Rsum_n (length data) (fun k => bit_hit false (nth k data false) (k * n) n u (sqrt (2 * snr)) z) / INR (length data)).
  assert (C : forall z, (exists bers, calculate_bers identity fuel data tx (fun signal => rx_bpsk_signal signal sr sy fc) (fun _ => noise z) [snr] = Ret bers /\
       Forall2 (fun snr b => lost_fraction (length data) (fun k => carried (nth k data false) (Rsum_n n (fun j => nth (k * n + j) z 0 * u (k * n + j)%nat)) (sqrt (2 * snr))) b) [snr] bers) /\
       forall k, Rsum_n n (fun j => u (k * n + j)%nat * u (k * n + j)%nat) = 1).
  { intros z. apply (C100_bpsk fuel data sr sy fc h it tx (fun _ => noise z) (fun _ i => nth i z 0) [snr]); try assumption.
    intros x [<-|[]]. split; [exact Hs|intros; apply Mn]. }
  exists rate. split.
  - intros z. destruct (C z) as [(bers & E & F) _]. rewrite E. f_equal. inversion F as [|? b ? bs F1 F2]; subst. inversion F2; subst. f_equal.
    apply (fraction_sum _ _ _ _ F1). intros k Hk. apply hits_carried.
  - rewrite L. rewrite <- (Qt_H H _ snr HH (root_two snr ltac:(lra))).
    apply (blocks_binomial (length data) n false (fun k => nth k data false) u); [destruct data; [contradiction|cbn; lia]|apply (C [])|reflexivity].
Qed.

Theorem C109_cdma_bpsk :
  forall H (fuel : nat) (data : list bool) (sample_rate symbol_rate : nat) (fc : R) (key : list bool) (half_cycles : Z) it (tx : list R) (noise : list R -> R -> Iter R) (snr : R),
    let sps := (sample_rate / symbol_rate)%nat in
    error_function H -> data <> [] -> (length data < fuel)%nat ->
    tx_cdma_bpsk_signal (of_list data) sample_rate symbol_rate fc key = Ret it -> yields it tx ->
    2 * fc * INR sps = IZR half_cycles * INR sample_rate -> ~ (exists z : Z, 2 * fc = IZR z * INR sample_rate) ->
    made_of noise -> 0 < snr ->
    exists rate : list R -> R,
      (forall z, calculate_bers identity fuel data tx (fun signal => rx_cdma_bpsk_signal signal sample_rate symbol_rate fc key) (fun _ => noise z) [snr] = Ret [rate z]) /\
      binomial_rate (length data * sps) (length data) (/ 2 * (1 - H (sqrt snr))) rate.
Proof.
  intros H fuel data sr sy fc key h it tx noise snr n HH Hd Hf Et Y Hh Hz Mn Hs.
  set (chip := fun i => if nth ((i / (n / length key)) mod length key) key false then 1 else -1).
  set (u := fun i => sqrt (2 / INR n) * (chip i * cos (2 * PI * fc * (INR i / INR sr)))).
  set (rate := fun z => Rsum_n (length data) (fun k => bit_hit false (nth k data false) (k * n) n u (sqrt (2 * snr)) z) / INR (length data)).
  assert (C : forall z, (exists bers, calculate_bers identity fuel data tx (fun signal => rx_cdma_bpsk_signal signal sr sy fc key) (fun _ => noise z) [snr] = Ret bers /\
       Forall2 (fun snr b => lost_fraction (length data) (fun k => carried (nth k data false) (Rsum_n n (fun j => nth (k * n + j) z 0 * u (k * n + j)%nat)) (sqrt (2 * snr))) b) [snr] bers) /\
       forall k, Rsum_n n (fun j => u (k * n + j)%nat * u (k * n + j)%nat) = 1).
  { intros z. apply (C100_cdma_bpsk fuel data sr sy fc key h it tx (fun _ => noise z) (fun _ i => nth i z 0) [snr]); try assumption.
    intros x [<-|[]]. split; [exact Hs|intros; apply Mn]. }
  exists rate. split.
  - intros z. destruct (C z) as [(bers & E & F) _]. rewrite E. f_equal. inversion F as [|? b ? bs F1 F2]; subst. inversion F2; subst. f_equal.
    apply (fraction_sum _ _ _ _ F1). intros k Hk. apply hits_carried.
  - rewrite <- (Qt_H H _ snr HH (root_two snr ltac:(lra))).
    apply (blocks_binomial (length data) n false (fun k => nth k data false) u); [destruct data; [contradiction|cbn; lia]|apply (C [])|reflexivity].
Qed.

Theorem C109_baseband_bpsk :
  forall H (fuel : nat) (data : list bool) (tx : list (cpx R)) (noise : list R -> R -> Iter R) (snr : R),
    error_function H -> data <> [] -> (length data < fuel)%nat -> yields (tx_baseband_bpsk_signal (of_list data)) tx -> made_of noise -> 0 < snr ->
    exists rate : list R -> R,
      (forall z, calculate_bers_baseband identity fuel data tx (fun signal => Ret (rx_baseband_bpsk_signal signal)) (fun _ => noise z) [snr] = Ret [rate z]) /\
      binomial_rate (length data) (length data) (/ 2 * (1 - H (sqrt snr))) rate.
Proof.
  intros H fuel data tx noise snr HH Hd Hf Y Mn Hs.
  set (rate := fun z => Rsum_n (length data) (fun k => bit_hit true (nth k data false) (k * 1) 1 (fun _ => 1) (sqrt (2 * snr)) z) / INR (length data)).
  exists rate. split.
  - intros z. destruct (C100_baseband_bpsk fuel data tx (fun _ => noise z) (fun _ i => nth i z 0) [snr] Hd Hf Y) as (bers & E & F).
    { intros x [<-|[]]. split; [exact Hs|intros; apply Mn]. }
    rewrite E. f_equal. inversion F as [|? b ? bs F1 F2]; subst. inversion F2; subst. f_equal.
    apply (fraction_sum _ _ _ _ F1). intros k Hk. unfold bit_hit. cbn [Rsum_n]. rewrite Nat.mul_1_r, Nat.add_0_r, Rplus_0_l, Rmult_1_r. apply hits_carried'.
  - rewrite <- (Qt_H H _ snr HH (root_two snr ltac:(lra))).
    pose proof (blocks_binomial (length data) 1 true (fun k => nth k data false) (fun _ => 1) (sqrt (2 * snr)) rate ltac:(destruct data; [contradiction|cbn; lia]) ltac:(intros; cbn [Rsum_n]; ring) ltac:(reflexivity)) as B.
    rewrite Nat.mul_1_r in B. exact B.
Qed.

(** In the baseband QPSK experiment only the first bit of each symbol can be lost: half as many trials. *)
Theorem C109_baseband_qpsk :
  forall H (fuel : nat) (data : list bool) (tx : list (cpx R)) (noise : list R -> R -> Iter R) (snr : R),
    error_function H -> data <> [] -> Nat.even (length data) = true -> (length data < fuel)%nat -> yields (tx_baseband_qpsk_signal (of_list data)) tx ->
    made_of noise -> 0 < snr ->
    exists rate : list R -> R,
      (forall z, calculate_bers_baseband identity fuel data tx (fun signal => Ret (rx_baseband_qpsk_signal signal)) (fun _ => noise z) [snr] = Ret [/ 2 * rate z]) /\
      binomial_rate (length data / 2) (length data / 2) (/ 2 * (1 - H (sqrt snr))) rate.
Proof.
  intros H fuel data tx noise snr HH Hd Ev Hf Y Mn Hs.
  pose proof Ev as Ev'. apply Nat.even_spec in Ev'. destruct Ev' as [K E0]. assert (K2 : (length data / 2 = K)%nat) by (rewrite E0, (Nat.mul_comm 2 K); apply Nat.div_mul; lia).
  assert (HK : (0 < K)%nat) by (destruct data; [contradiction|cbn [length] in E0; lia]). assert (PK : 0 < INR K) by (apply lt_0_INR; exact HK). rewrite K2. clear K2.
  set (rate := fun z => Rsum_n K (fun k => bit_hit true (nth (k * 2) data false) (k * 1) 1 (fun _ => 1) (sqrt (2 * snr)) z) / INR K).
  exists rate. split.
  - intros z. destruct (C100_baseband_qpsk fuel data tx (fun _ => noise z) (fun _ i => nth i z 0) [snr] Hd Ev Hf Y) as (bers & E & F).
    { intros x [<-|[]]. split; [exact Hs|intros; apply Mn]. }
    rewrite E. f_equal. inversion F as [|? b ? bs F1 F2]; subst. inversion F2; subst. f_equal.
    set (I := fun k => if Nat.even k then bit_hit true (nth k data false) (k / 2) 1 (fun _ => 1) (sqrt (2 * snr)) z else 0).
    rewrite (fraction_sum _ _ _ I F1).
    + rewrite E0, (Nat.mul_comm 2 K), Rsum_n_mul, mult_INR. unfold rate.
      rewrite (Rsum_n_ext K _ (fun k => bit_hit true (nth (k * 2) data false) (k * 1) 1 (fun _ => 1) (sqrt (2 * snr)) z)); [cbn [INR]; field; lra|].
      intros i _. cbn [Rsum_n]. rewrite Nat.add_0_r. unfold I. rewrite (proj2 (Nat.even_spec (i * 2))) by (exists i; lia).
      replace (Nat.even (i * 2 + 1)) with false by (rewrite Nat.add_1_r, Nat.even_succ, <- Nat.negb_even, (proj2 (Nat.even_spec (i * 2))) by (exists i; lia); reflexivity).
      rewrite Nat.div_mul, Nat.mul_1_r by lia. ring.
    + intros k Hk. unfold I. destruct (Nat.even k).
      * unfold bit_hit. cbn [Rsum_n]. rewrite Nat.add_0_r, Rplus_0_l, Rmult_1_r. destruct (hits_carried' (nth k data false) (nth (k / 2) z 0) (sqrt (2 * snr))) as [[A B]|[A B]]; [left|right]; split; try exact B; [split; [reflexivity|exact A]|intros [_ X]; exact (A X)].
      * right. split; [intros [X _]; discriminate X|reflexivity].
  - rewrite <- (Qt_H H _ snr HH (root_two snr ltac:(lra))).
    pose proof (blocks_binomial K 1 true (fun k => nth (k * 2) data false) (fun _ => 1) (sqrt (2 * snr)) rate HK ltac:(intros; cbn [Rsum_n]; ring) ltac:(reflexivity)) as B.
    rewrite Nat.mul_1_r in B. exact B.
Qed.

(** kom_py/ber.py:49-64. *)
Theorem C109_python_bpsk :
  forall H (data : list bool) (sample_rate symbol_rate : nat) (fc : R) (half_cycles : Z) it (tx : list R) (noise : list R -> R -> Iter R) (snr : R),
    let sps := (sample_rate / symbol_rate)%nat in
    error_function H -> data <> [] -> (symbol_rate <= sample_rate)%nat ->
    tx_bpsk_signal (of_list data) sample_rate symbol_rate fc = Ret it -> yields it tx ->
    2 * fc * INR sps = IZR half_cycles * INR sample_rate -> ~ (exists z : Z, 2 * fc = IZR z * INR sample_rate) ->
    made_of noise -> 0 < snr ->
    exists rate : list R -> R,
      (forall z, returns (fun fuel => kom_calc_ber unchanged fuel sample_rate symbol_rate (fun _ => noise z) data tx
                             (fun signal => py_rx_bpsk signal sample_rate symbol_rate fc fuel) [snr]) [rate z]) /\
      binomial_rate (length tx) (length data) (/ 2 * (1 - H (sqrt (snr * (INR symbol_rate * INR symbol_rate / INR sample_rate))))) rate.
Proof.
  intros H data sr sy fc h it tx noise snr n HH Hd Hle Et Y Hh Hz Mn Hs.
  destruct (tx_bpsk_inv _ _ _ _ _ Et) as (Hy & _ & _ & Yw). assert (Hn : (1 <= n)%nat) by (unfold n; apply Nat.div_le_lower_bound; lia).
  specialize (Yw Hn data (of_list_yields data)). assert (L : length tx = (length data * n)%nat) by (rewrite (yields_det _ _ _ Y Yw); apply tab_length). clear Yw.
  set (u := fun i => sqrt (2 / INR n) * cos (2 * PI * fc * (INR i / INR sr))). set (c := INR sy * INR sy / INR sr) in *.
  assert (Pc : 0 <= c) by (unfold c; apply Rmult_le_pos; [apply Rmult_le_pos; apply pos_INR|apply Rlt_le, Rinv_0_lt_compat, lt_0_INR; lia]).
  set (rate := fun z => Rsum_n (length data) (fun k => bit_hit false (nth k data false) (k * n) n u (sqrt (2 * snr * c)) z) / INR (length data)).
  exists rate. split.
  - intros z. destruct (C100_python_bpsk data sr sy fc h it tx (fun _ => noise z) (fun _ i => nth i z 0) [snr] Hd Hle Et Y Hh Hz) as (bers & E & Lb & F).
    { repeat constructor. exact Hs. } { intros; apply Mn. }
    destruct bers as [|b [|]]; try discriminate. specialize (F 0%nat snr b eq_refl eq_refl). replace (rate z) with b; [exact E|].
    apply (fraction_sum _ _ _ _ F). intros k Hk. apply hits_carried.
  - rewrite L. replace (sqrt (2 * snr * c)) with (sqrt (2 * (snr * c))) in * by (f_equal; ring).
    rewrite <- (Qt_H H _ (snr * c) HH (root_two (snr * c) ltac:(apply Rmult_le_pos; lra))).
    apply (blocks_binomial (length data) n false (fun k => nth k data false) u); [destruct data; [contradiction|cbn; lia]| |intros z; unfold rate; replace (2 * snr * c) with (2 * (snr * c)) by ring; reflexivity].
    intros k. destruct (C100_bpsk (S (length data)) data sr sy fc h it tx (fun _ s => counting (fun i => s * 0)) (fun _ _ => 0) [] Hd ltac:(lia) Hle Et Y Hh Hz ltac:(intros ? [])) as [_ U]. apply U.
Qed.

(** Two bits of eight samples: both arrive with probability (1 - p)^2, both are lost with probability p^2. *)
Example C109_case : exists H it tx rate p, error_function H /\ tx_bpsk_signal (of_list [true; false]) 8 1 (1 : R) = Ret it /\ yields it tx /\ 0 < p < / 2 /\
  (forall z, calculate_bers identity 3 [true; false] tx (fun signal => rx_bpsk_signal signal 8 1 1) (fun _ sigma => counting (fun i => sigma * nth i z 0)) [1 / 2] = Ret [rate z]) /\
  normal_mean (length tx) (fun z => if Req_EM_T (rate z) 0 then 1 else 0) ((1 - p) * (1 - p)) /\ normal_mean (length tx) (fun z => if Req_EM_T (rate z) 1 then 1 else 0) (p * p).
Proof.
  destruct C107_error_function as ((H & HH) & _). destruct (eight_bpsk [true; false]) as (it & tx & Et & Y). destruct eight_design as (D & H1 & H2).
  destruct (C109_bpsk H 3 [true; false] 8 1 1 2 it tx (fun z sigma => counting (fun i => sigma * nth i z 0)) (1 / 2) HH ltac:(discriminate) ltac:(cbn; lia) ltac:(lia) Et Y H1 H2) as (rate & E & (count & Hc & M) & _).
  { intros z sigma. apply counting_streams. } { lra. }
  exists H, it, tx, rate, (/ 2 * (1 - H (sqrt (1 / 2)))). do 3 (split; [assumption|]).
  assert (Pp : 0 < / 2 * (1 - H (sqrt (1 / 2))) < / 2) by (destruct (C108_curves H (1 / 2) _ _ HH ltac:(lra) eq_refl eq_refl) as (A & _); exact A).
  split; [exact Pp|]. split; [exact E|]. set (p := / 2 * (1 - H (sqrt (1 / 2)))) in *. change (length [true; false]) with 2%nat in *.
  assert (V : forall g, normal_mean (length tx) (fun z => g (count z)) ((1 - p) * (1 - p) * g 0%nat + 2 * p * (1 - p) * g 1%nat + p * p * g 2%nat)).
  { intros g. pose proof (M g) as G. rewrite <- trials_binomial in G. cbn [trials] in G.
    replace ((1 - p) * (1 - p) * g 0%nat + 2 * p * (1 - p) * g 1%nat + p * p * g 2%nat) with (p * (p * g 2%nat + (1 - p) * g 1%nat) + (1 - p) * (p * g 1%nat + (1 - p) * g 0%nat)) by ring. exact G. }
  split.
  - pose proof (V (fun m => if (m =? 0)%nat then 1 else 0)) as G. cbn [Nat.eqb] in G. rewrite !Rmult_0_r, !Rplus_0_r, Rmult_1_r in G. revert G. apply NormalMean.mean_ext. intros z _.
    destruct (Hc z) as [B ->]. destruct (count z) as [|[|[|]]]; [| | |lia]; cbn [Nat.eqb INR]; destruct (Req_EM_T _ _); lra.
  - pose proof (V (fun m => if (m =? 2)%nat then 1 else 0)) as G. cbn [Nat.eqb] in G. rewrite !Rmult_0_r, !Rplus_0_l, Rmult_1_r in G. revert G. apply NormalMean.mean_ext. intros z _.
    destruct (Hc z) as [B ->]. destruct (count z) as [|[|[|]]]; [| | |lia]; cbn [Nat.eqb INR]; destruct (Req_EM_T _ _); lra.
Qed.

(** ** Axioms used *)
Print Assumptions C109_bpsk.
Print Assumptions C109_cdma_bpsk.
Print Assumptions C109_baseband_bpsk.
Print Assumptions C109_baseband_qpsk.
Print Assumptions C109_python_bpsk.
