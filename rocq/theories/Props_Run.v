(** Property C96: the detection runs of kom_py/lambdas.py. *)
From Coq Require Import List Arith ZArith NArith Reals Bool Lia Lra.
From Flocq Require Import Core BinarySingleNaN.
From Verif Require Import Base IterTheory IterModel IterProofs Spec SpecR Tab RSums Num F64Lib LibModel LibFloat LibReal
  PskModel PskReal FhModel FftModel OfdmModel FhOfdmModel SscaModel SscaProofs DetectModel PyModel RunModel
  Props_Psk Props_Lib Props_Detect Props_Energy Props_Harness Props_Py Props_Ber.
Import ListNotations.
Local Open Scope R_scope.

(** A transmitter that, given time, turns n bits into [count n] samples, and never raises. *)
Definition dependable {T} (tx : list bool -> nat -> outcome (list T)) (count : nat -> nat) (n : nat) : Prop :=
  forall data, length data = n -> exists w, length w = count n /\ returns (tx data) w /\
    forall fuel, tx data fuel = Ret w \/ tx data fuel = Diverge.

Lemma collect_once {A X} (nx : X -> outcome (option A * X)) : forall big s l, collect_from big nx s = Ret l ->
  forall fuel, collect_from fuel nx s = Ret l \/ collect_from fuel nx s = Diverge.
Proof.
  induction big as [|big IH]; intros s l E [|fuel]; try discriminate; [right; reflexivity|]. cbn [collect_from] in *.
  destruct (nx s) as [[o s1]| |]; cbn [bind] in *; try discriminate. destruct o as [a|]; [|left; exact E].
  destruct (collect_from big nx s1) as [l1| |] eqn:E1; cbn [bind] in E; try discriminate.
  destruct (IH _ _ E1 fuel) as [->| ->]; [left; exact E|right; reflexivity].
Qed.
Lemma py_once {A} (make : outcome (Iter A)) w : returns (py_collect make) w -> forall fuel, py_collect make fuel = Ret w \/ py_collect make fuel = Diverge.
Proof.
  intros [n H] fuel. specialize (H n (le_n n)). unfold py_collect in *. destruct make as [it| |]; cbn [bind] in *; try discriminate.
  exact (collect_once _ _ _ _ H fuel).
Qed.

(** ** The first signal *)

Section First.
Context {T : Type}.
Variable tx : list bool -> nat -> outcome (list T).
Variable first : nat -> nat -> list bool.
Hypothesis Hf : forall k n, length (first k n) = n.
Variable count : nat -> nat.

Lemma first_found k : forall r bits,
  (forall j, (j <= k)%nat -> dependable tx count (bits + 10 * j)) ->
  (forall j, (j < k)%nat -> (Z.of_nat (count (bits + 10 * j)) < 4160)%Z) -> (4160 <= Z.of_nat (count (bits + 10 * k)))%Z ->
  exists w, returns (fun fuel => run_first tx first fuel fuel r bits) ((bits + 10 * k)%nat, w) /\
    returns (tx (first (r + k) (bits + 10 * k)))%nat w /\ length w = count (bits + 10 * k)%nat /\
    exists n, forall rounds fuel, (n <= rounds)%nat -> (n <= fuel)%nat -> run_first tx first rounds fuel r bits = Ret ((bits + 10 * k)%nat, w).
Proof.
  induction k as [|k IH]; intros r bits Hd Hs Hk.
  - destruct (Hd 0%nat (le_n 0) (first r (bits + 10 * 0)) (Hf _ _)) as (w & Lw & Rw & _). rewrite Nat.mul_0_r, Nat.add_0_r in *. exists w.
    assert (G : exists n, forall rounds fuel, (n <= rounds)%nat -> (n <= fuel)%nat -> run_first tx first rounds fuel r bits = Ret (bits, w)).
    { destruct Rw as [n Hn]. exists n. intros rounds fuel _ H. destruct rounds; cbn [run_first]; rewrite (Hn fuel H); cbn [bind];
      rewrite Lw; change (4096 + 64)%Z with 4160%Z; rewrite (proj2 (Z.ltb_ge _ _) Hk); reflexivity. }
    split; [|split; [|split; [exact Lw|exact G]]]; [destruct G as [n G]; exists n; intros fuel H; apply G; exact H|].
    rewrite Nat.add_0_r. exact Rw.
  - destruct (Hd 0%nat (Nat.le_0_l _) (first r (bits + 10 * 0)) (Hf _ _)) as (w0 & L0 & R0 & _).
    specialize (IH (S r) (bits + 10)%nat). destruct IH as (w & _ & Rw & Lw & n & Hn).
    + intros j Hj. replace (bits + 10 + 10 * j)%nat with (bits + 10 * S j)%nat by lia. apply Hd. lia.
    + intros j Hj. replace (bits + 10 + 10 * j)%nat with (bits + 10 * S j)%nat by lia. apply Hs. lia.
    + replace (bits + 10 + 10 * k)%nat with (bits + 10 * S k)%nat by lia. exact Hk.
    + replace (bits + 10 + 10 * k)%nat with (bits + 10 * S k)%nat in * by lia.
      replace (S r + k)%nat with (r + S k)%nat in Rw by lia. exists w.
      assert (G : exists n, forall rounds fuel, (n <= rounds)%nat -> (n <= fuel)%nat -> run_first tx first rounds fuel r bits = Ret ((bits + 10 * S k)%nat, w)).
      { destruct R0 as [n0 Hn0]. exists (S (n0 + n)). intros [|rounds] fuel H1 H2; [lia|]. cbn [run_first].
        specialize (Hs 0%nat (Nat.lt_0_succ k)). rewrite Nat.mul_0_r, Nat.add_0_r in *. rewrite (Hn0 fuel ltac:(lia)). cbn [bind].
        rewrite L0; change (4096 + 64)%Z with 4160%Z; rewrite (proj2 (Z.ltb_lt _ _) Hs). apply Hn; lia. }
      split; [destruct G as [n' G]; exists n'; intros fuel H; apply G; exact H|]. split; [exact Rw|]. split; [exact Lw|exact G].
Qed.

Lemma first_never : (forall bits, dependable tx count bits) ->
  forall bits, (forall j, (Z.of_nat (count (bits + 10 * j)) < 4160)%Z) -> forall rounds fuel r, run_first tx first rounds fuel r bits = Diverge.
Proof.
  intros Hd bits Hs rounds fuel. revert bits Hs. induction rounds as [|rounds IH]; intros bits Hs r;
    destruct (Hd bits (first r bits) (Hf _ _)) as (w & Lw & _ & Ew); pose proof (Hs 0%nat) as H0; rewrite Nat.mul_0_r, Nat.add_0_r in H0;
    cbn [run_first]; (destruct (Ew fuel) as [-> | ->]; cbn [bind]; [|reflexivity]); rewrite Lw; change (4096 + 64)%Z with 4160%Z; rewrite (proj2 (Z.ltb_lt _ _) H0); [reflexivity|].
  apply IH. intros j. replace (bits + 10 + 10 * j)%nat with (bits + 10 * S j)%nat by lia. apply Hs.
Qed.

(** The loop stops at the first of 120, 130, 140, ... bits whose signal fills the detectors' window of
    4096 + 64 samples, and never if there is none. *)
Theorem C96_first_signal :
  (forall bits, dependable tx count bits) ->
  (forall k, (forall j, (j < k)%nat -> (Z.of_nat (count (120 + 10 * j)) < 4160)%Z) -> (4160 <= Z.of_nat (count (120 + 10 * k)))%Z ->
     exists w, returns (fun fuel => run_first tx first fuel fuel 0 120) ((120 + 10 * k)%nat, w) /\
       returns (tx (first k (120 + 10 * k)))%nat w /\ length w = count (120 + 10 * k)%nat) /\
  ((forall j, (Z.of_nat (count (120 + 10 * j)) < 4160)%Z) -> hangs (fun fuel => run_first tx first fuel fuel 0 120)).
Proof.
  intros Hd. split.
  - intros k H1 H2. destruct (first_found k 0%nat 120%nat (fun j _ => Hd _) H1 H2) as (w & A & B & C & _). exists w. auto.
  - intros H fuel. apply first_never; assumption.
Qed.
End First.

(** ** The eight transmitters of [harness] *)

(** How many samples n bits become. *)
Definition samples (m : modulation) (n : nat) : nat :=
  match m with
  | M_BFSK | M_BPSK | M_CDMA | M_FH_CSS | M_CSK => 256 * n
  | M_DCSK => 256 * (2 * n)
  | M_OFDM => 256 * (10 * ((n / 2 + 1) / 2))
  | M_FH_OFDM_DCSK => 256 * (10 * (n / 7 + 1))
  end.

Section F64.
Variable libm : Libm.
Let num := NumF libm.
#[local] Existing Instance num.

Lemma lam_rates : (Z.of_nat LAM_SAMPLE_RATE < 2 ^ 53)%Z /\ (Z.of_nat LAM_SYMBOL_RATE < 2 ^ 53)%Z /\
  divides_rate LAM_SAMPLE_RATE LAM_SYMBOL_RATE /\ (LAM_SAMPLE_RATE / LAM_SYMBOL_RATE = 256)%nat /\
  below_half LAM_SAMPLE_RATE LAM_CARRIER_FREQ /\ below_half LAM_SAMPLE_RATE (f64_ofZ 10000).
Proof.
  assert (D : (LAM_SAMPLE_RATE / LAM_SYMBOL_RATE = 256)%nat) by (unfold LAM_SAMPLE_RATE, LAM_SYMBOL_RATE; apply Nat.div_mul; lia).
  assert (S : (Z.of_nat LAM_SAMPLE_RATE < 2 ^ 53)%Z) by (unfold LAM_SAMPLE_RATE; rewrite Nat2Z.inj_mul; reflexivity).
  assert (E : Z.of_nat (LAM_SAMPLE_RATE / 2) = 32768%Z).
  { unfold LAM_SAMPLE_RATE. change (256 * 256)%nat with (256 * (128 * 2))%nat. rewrite Nat.mul_assoc, Nat.div_mul by lia.
    rewrite Nat2Z.inj_mul. reflexivity. }
  split; [exact S|]. split; [reflexivity|]. split; [split; [discriminate|exists 256%nat; reflexivity]|]. split; [exact D|].
  split; right; rewrite E; vm_compute; reflexivity.
Qed.

Lemma ends_dependable {A} (call : nat -> outcome (list A)) (ok : Prop) count n :
  ends_by call ok count n -> ok -> (1 <= n)%nat -> exists w, length w = (n * count)%nat /\ returns call w.
Proof. intros (_ & _ & E) O H. destruct (E O (or_introl H)) as (w & R & L). exists w. split; [lia|exact R]. Qed.

Lemma once {A} (call : nat -> outcome (list A)) make (count : nat) : call = py_collect make -> (exists w, length w = count /\ returns call w) ->
  exists w, length w = count /\ returns call w /\ forall fuel, call fuel = Ret w \/ call fuel = Diverge.
Proof. intros -> (w & L & R). exists w. split; [exact L|]. split; [exact R|]. exact (py_once make w R). Qed.

Section Each.
Variables (fft : Fft F64) (rng : Rng) (data : list bool).
Let n := length data.
Lemma each_bfsk : exists w, length w = (256 * n)%nat /\ returns (lam_tx fft rng M_BFSK data) w.
Proof.
  destruct lam_rates as (S1 & S2 & D & Q & B & B').
  pose proof (C66_tx_bfsk libm data _ _ S1 S2 (LAM_CARRIER_FREQ * nlit 8 10)%num LAM_CARRIER_FREQ) as E. rewrite Q in E.
  exact (ends_dependable _ _ _ _ E (conj D B) ltac:(lia)).
Qed.
Lemma each_bpsk : exists w, length w = (256 * n)%nat /\ returns (lam_tx fft rng M_BPSK data) w.
Proof.
  destruct lam_rates as (S1 & S2 & D & Q & B & B').
  pose proof (C66_tx_bpsk libm data _ _ S1 S2 LAM_CARRIER_FREQ) as E. rewrite Q in E.
  exact (ends_dependable _ _ _ _ E (conj D B) ltac:(lia)).
Qed.
Lemma each_cdma : exists w, length w = (256 * n)%nat /\ returns (lam_tx fft rng M_CDMA data) w.
Proof.
  destruct lam_rates as (S1 & S2 & D & Q & B & B').
  destruct (C66_tx_cdma_bpsk libm data LAM_SAMPLE_RATE LAM_SYMBOL_RATE S1 LAM_CARRIER_FREQ) as [E _]. rewrite Q in E.
  apply (ends_dependable _ _ _ _ E); [|lia]. split; [apply D|].
  unfold LAM_SAMPLE_RATE, LAM_SYMBOL_RATE. split; [apply Nat.mul_le_mono_r; lia|]. split; [|exact B].
  exists 16%nat. rewrite Nat.mul_assoc. reflexivity.
Qed.
Lemma each_ofdm : exists w, length w = (256 * (10 * ((n / 2 + 1) / 2)))%nat /\ returns (lam_tx fft rng M_OFDM data) w.
Proof.
  destruct lam_rates as (S1 & S2 & D & Q & B & B').
  destruct (C66_tx_ofdm libm data _ _ S1 S2 fft 8 6 LAM_CARRIER_FREQ) as (blocks & Hb & _ & E). rewrite Q in E.
  specialize (Hb ltac:(lia)). fold n in Hb. replace ((n / 2 + 1) / 2)%nat with blocks.
  2: { apply (Nat.div_unique _ _ _ (n / 2 + 1 - 2 * blocks)); lia. }
  destruct (ends_dependable _ _ _ _ E) as (w & L & R); [split; [exact D|lia]|lia|]. exists w. split; [|exact R].
  rewrite L. change (8 + 8 / 4)%nat with 10%nat. rewrite (Nat.mul_comm blocks). reflexivity.
Qed.
Lemma each_fh_css : (Z.of_nat n < 2 ^ 64 - 1)%Z -> exists w, length w = (256 * n)%nat /\ returns (lam_tx fft rng M_FH_CSS data) w.
Proof.
  destruct lam_rates as (S1 & S2 & D & Q & B & B'). intros Hn.
  destruct (C66_tx_fh_css libm data _ _ S1 S2 rng (f64_ofZ 2000) (f64_ofZ 10000) 8 Hn) as [_ E]. rewrite Q in E.
  assert (H8 : (2 <= 8)%nat) by lia. destruct (E (conj D (conj B' (or_introl H8)))) as (w & R & L). exists w. split; [|exact R].
  rewrite L. apply Nat.mul_comm.
Qed.
Lemma each_csk : exists w, length w = (256 * n)%nat /\ returns (lam_tx fft rng M_CSK data) w.
Proof.
  destruct lam_rates as (S1 & S2 & D & Q & B & B').
  pose proof (C66_tx_csk libm data _ _ S1 S2) as E. rewrite Q in E.
  exact (ends_dependable _ _ _ _ E D ltac:(lia)).
Qed.
Lemma each_dcsk : exists w, length w = (256 * (2 * n))%nat /\ returns (lam_tx fft rng M_DCSK data) w.
Proof.
  destruct lam_rates as (S1 & S2 & D & Q & B & B').
  pose proof (C66_tx_dcsk libm data _ _ S1 S2) as E. rewrite Q in E.
  exact (ends_dependable _ _ _ _ E D ltac:(lia)).
Qed.
Lemma each_fh_ofdm_dcsk : exists w, length w = (256 * (10 * (n / 7 + 1)))%nat /\ returns (lam_tx fft rng M_FH_OFDM_DCSK data) w.
Proof.
  destruct lam_rates as (S1 & S2 & D & Q & B & B').
  pose proof (C66_tx_fh_ofdm_dcsk libm data _ _ S1 S2 fft rng LAM_CARRIER_FREQ) as E. rewrite Q in E.
  exact (ends_dependable _ _ _ _ E (conj D B) ltac:(lia)).
Qed.
End Each.

(** Every transmitter of the list accepts every message, and the number of samples depends on the
    number of bits only. *)
Theorem C96_transmitters (fft : Fft F64) (rng : Rng) (m : modulation) (n : nat) : (Z.of_nat n < 2 ^ 64 - 1)%Z ->
  dependable (lam_tx fft rng m) (samples m) n.
Proof.
  intros Hn data <-. destruct m; cbn [samples].
  - refine (once _ _ _ _ (each_bfsk fft rng data)). unfold lam_tx, py_tx_bfsk. reflexivity.
  - refine (once _ _ _ _ (each_bpsk fft rng data)). unfold lam_tx, py_tx_bpsk. reflexivity.
  - refine (once _ _ _ _ (each_cdma fft rng data)). unfold lam_tx, py_tx_cdma_bpsk. reflexivity.
  - refine (once _ _ _ _ (each_ofdm fft rng data)). unfold lam_tx, py_tx_ofdm. reflexivity.
  - refine (once _ _ _ _ (each_fh_css fft rng data Hn)). unfold lam_tx, py_tx_fh_css. reflexivity.
  - refine (once _ _ _ _ (each_csk fft rng data)). unfold lam_tx, py_tx_csk. reflexivity.
  - refine (once _ _ _ _ (each_dcsk fft rng data)). unfold lam_tx, py_tx_dcsk. reflexivity.
  - refine (once _ _ _ _ (each_fh_ofdm_dcsk fft rng data)). unfold lam_tx, py_tx_fh_ofdm_dcsk. reflexivity.
Qed.

(** So the loop that lengthens the message never runs: 120 bits are enough for all of them. *)
Theorem C96_enough_bits (fft : Fft F64) (rng : Rng) (m : modulation) (first : nat -> nat -> list bool) :
  (forall k n, length (first k n) = n) ->
  exists w, returns (fun fuel => run_first (lam_tx fft rng m) first fuel fuel 0 120) (120%nat, w) /\
    returns (lam_tx fft rng m (first 0%nat 120%nat)) w /\ length w = samples m 120.
Proof.
  intros Hf. destruct (first_found (lam_tx fft rng m) first Hf (samples m) 0 0%nat 120%nat) as (w & A & B & C & _).
  - intros j Hj. assert (j = 0%nat) as -> by lia. apply C96_transmitters. reflexivity.
  - intros j Hj. lia.
  - replace (120 + 10 * 0)%nat with 120%nat by reflexivity. destruct m; cbn [samples]; rewrite Nat2Z.inj_mul; vm_compute; discriminate.
  - exists w. auto.
Qed.
End F64.

(** ** The statistics *)

(** [row] holds, for each of [attempts] attempts, what [detect] says of its samples. *)
Definition statistics {T} (detect : list T -> outcome T) (heard : nat -> list T) (attempts : nat) (row : list T) : Prop :=
  Forall2 (fun j v => detect (heard j) = Ret v) (seq 0 attempts) row.

Lemma Forall2_map_l {A B C} (f : A -> B) (P : B -> C -> Prop) l k : Forall2 P (map f l) k <-> Forall2 (fun a c => P (f a) c) l k.
Proof.
  revert k. induction l as [|a l IH]; intros k; split; intros H; inversion H; subst; constructor; auto; apply IH; assumption.
Qed.
Lemma Forall2_eq_map {A B} (f : A -> B) l k : Forall2 (fun a b => b = f a) l k -> k = map f l.
Proof. induction 1 as [|a b l k -> _ IH]; [reflexivity|]. cbn. rewrite IH. reflexivity. Qed.

Lemma returns_for {A S} (l : list A) (body : nat -> S -> A -> outcome S) : forall (Q : list A -> S -> Prop) pre s,
  Q pre s ->
  (forall pre a s, In a l -> Q pre s -> exists s', returns (fun n => body n s a) s' /\ Q (pre ++ [a]) s') ->
  exists s', returns (fun n => for_each l (body n) s) s' /\ Q (pre ++ l) s'.
Proof.
  induction l as [|a l IH]; intros Q pre s H0 Hb; [exists s; split; [apply returns_now|rewrite app_nil_r; exact H0]|].
  destruct (Hb pre a s (or_introl eq_refl) H0) as (s1 & R1 & Q1).
  destruct (IH Q (pre ++ [a]) s1 Q1) as (s2 & R2 & Q2); [intros; eapply Hb; [right|]; eassumption|].
  exists s2. split; [|rewrite <- app_assoc in Q2; exact Q2].
  eapply returns_eq; [intros n; cbn [for_each]; reflexivity|]. eapply (returns_bind (fun n => body n s a) (fun n s' => for_each l (body n) s')); eassumption.
Qed.

Section Stats.
Context {T : Type} {num : Num T}.
Variable tx : list bool -> nat -> outcome (list T).
Variable draw : nat -> nat -> nat -> list bool.
Variables noise1 noise0 : nat -> nat -> T -> Iter T.
(** The values the random numbers take, and the clean signals. *)
Variables z1 z0 : nat -> nat -> T -> nat -> T.
Variable clean : nat -> nat -> list T.
Variables bits count attempts : nat.
Hypothesis Hz1 : forall i j n0, nfinite n0 = true -> streams (noise1 i j n0) (z1 i j n0).
Hypothesis Hz0 : forall i j n0, nfinite n0 = true -> streams (noise0 i j n0) (z0 i j n0).
Hypothesis Hc : forall i j, returns (tx (draw i j bits)) (clean i j) /\ length (clean i j) = count.

Definition with_signal i n0 j : list T := disturbed nadd (clean i j) (z1 i j n0).
Definition noise_only i n0 j : list T := tab count (z0 i j n0).

Lemma dist_len {A B} (add : A -> B -> A) s z : length (disturbed add s z) = length s.
Proof. unfold disturbed. rewrite map_length, combine_length, map_length, seq_length. apply Nat.min_id. Qed.

Lemma signals_ret i n0 : nfinite n0 = true ->
  returns (fun fuel => run_signals tx draw noise1 fuel attempts bits i n0) (map (with_signal i n0) (seq 0 attempts)).
Proof.
  intros Fn. destruct (returns_rows (seq 0 attempts) (fun fuel j =>
    let? s := tx (draw i j bits) fuel in let? noisy := awgn (noise1 i j) (of_list s) n0 in collect fuel noisy)
    (fun j s => s = with_signal i n0 j)) as (rows & R & F).
  - intros j _. eexists. split; [|reflexivity]. destruct (Hc i j) as [Rj Lj].
    eapply (returns_bind (tx (draw i j bits)) (fun fuel s => let? noisy := awgn (noise1 i j) (of_list s) n0 in collect fuel noisy)); [exact Rj|].
    unfold awgn, normal_new, assert_then. rewrite Fn. cbn [bind]. exists (S (length (clean i j))). intros f Hf.
    unfold with_signal. apply collect_yields; [|rewrite dist_len; lia]. apply imap_yields. apply izip_stream_yields; [apply of_list_yields|apply Hz1, Fn].
  - apply Forall2_eq_map in F. subst rows. exact R.
Qed.

Lemma noises_ret i n0 : nfinite n0 = true ->
  returns (fun fuel => run_noises noise0 fuel attempts i n0 (map (with_signal i n0) (seq 0 attempts))) (map (noise_only i n0) (seq 0 attempts)).
Proof.
  intros Fn. destruct (returns_rows (seq 0 attempts) (fun fuel j =>
    let? s := idx (map (with_signal i n0) (seq 0 attempts)) 0%nat in
    let? pure := pure_awgn (noise0 i j) (length s) n0 in collect fuel pure)
    (fun j s => s = noise_only i n0 j)) as (rows & R & F).
  - intros j Hj. eexists. split; [|reflexivity]. apply in_seq in Hj.
    assert (E : idx (map (with_signal i n0) (seq 0 attempts)) 0%nat = Ret (with_signal i n0 0%nat)).
    { destruct attempts as [|a]; [lia|]. reflexivity. }
    rewrite E. cbn [bind]. unfold with_signal. rewrite dist_len, (proj2 (Hc i 0%nat)).
    unfold pure_awgn, normal_new, assert_then. rewrite Fn. cbn [bind]. exists (S count). intros f Hf.
    apply collect_yields; [|unfold noise_only; rewrite tab_length; lia]. unfold noise_only, tab. apply itake_streams, Hz0, Fn.
  - apply Forall2_eq_map in F. subst rows. exact R.
Qed.

Lemma detect_rows (detect : list T -> outcome T) (heard : nat -> list T) :
  (forall j, (j < attempts)%nat -> exists v, detect (heard j) = Ret v) ->
  exists row, push_rows (map heard (seq 0 attempts)) detect = Ret row /\ statistics detect heard attempts row.
Proof.
  intros H. destruct (push_rows_f (map heard (seq 0 attempts)) detect (fun s v => detect s = Ret v)) as (row & E & F).
  - intros s Hs. apply in_map_iff in Hs. destruct Hs as (j & <- & Hj). apply in_seq in Hj. destruct (H j ltac:(lia)) as [v Ev]. exists v. auto.
  - exists row. split; [exact E|]. apply Forall2_map_l in F. exact F.
Qed.

(** What the run adds to a detector. *)
Definition grown (levels : list (nat * T)) (d d' : @detector T) : Prop :=
  detect_fn d' = detect_fn d /\
  exists r0 r1, h0s d' = h0s d ++ r0 /\ h1s d' = h1s d ++ r1 /\
    Forall2 (fun '(i, n0) => statistics (detect_fn d) (noise_only i n0) attempts) levels r0 /\
    Forall2 (fun '(i, n0) => statistics (detect_fn d) (with_signal i n0) attempts) levels r1.

Lemma level_ret (ds0 ds : list (@detector T)) pre i n0 : nfinite n0 = true ->
  (forall d j, In d ds0 -> (j < attempts)%nat -> (exists v, detect_fn d (noise_only i n0 j) = Ret v) /\ (exists v, detect_fn d (with_signal i n0 j) = Ret v)) ->
  Forall2 (grown pre) ds0 ds ->
  exists ds', returns (fun fuel => run_level tx draw noise1 noise0 fuel attempts bits ds i n0) ds' /\ Forall2 (grown (pre ++ [(i, n0)])) ds0 ds'.
Proof.
  intros Fn Hd G.
  assert (K : exists ds', push_rows ds (fun d =>
      let? h0 := push_rows (map (noise_only i n0) (seq 0 attempts)) (detect_fn d) in
      let? h1 := push_rows (map (with_signal i n0) (seq 0 attempts)) (detect_fn d) in
      Ret (Detector (detect_fn d) (h0s d ++ [h0]) (h1s d ++ [h1]))) = Ret ds' /\ Forall2 (grown (pre ++ [(i, n0)])) ds0 ds').
  { induction G as [|d0 d ds0 ds (E & r0 & r1 & E0 & E1 & F0 & F1) G IH]; [exists []; split; [reflexivity|constructor]|].
    destruct IH as (ds' & Ed & Gd); [intros; apply Hd; [right|]; assumption|]. rewrite push_rows_cons, E.
    destruct (detect_rows (detect_fn d0) (noise_only i n0) (fun j Hj => proj1 (Hd d0 j (or_introl eq_refl) Hj))) as (a & -> & Sa).
    destruct (detect_rows (detect_fn d0) (with_signal i n0) (fun j Hj => proj2 (Hd d0 j (or_introl eq_refl) Hj))) as (b & -> & Sb).
    cbn [bind]. rewrite Ed. cbn [bind]. eexists. split; [reflexivity|]. constructor; [|exact Gd].
    split; [reflexivity|]. exists (r0 ++ [a]), (r1 ++ [b]). cbn [h0s h1s]. rewrite E0, E1, !app_assoc.
    split; [reflexivity|]. split; [reflexivity|]. split; (apply Forall2_app; [assumption|constructor; [assumption|constructor]]). }
  destruct K as (ds' & E & G'). exists ds'. split; [|exact G']. unfold run_level.
  eapply returns_bind; [apply signals_ret, Fn|]. cbn beta. eapply returns_bind; [apply noises_ret, Fn|]. cbn beta. rewrite E. apply returns_now.
Qed.
End Stats.

(** With dependable signals, finite noise levels and detectors that accept what they are given, the run
    ends.  Each detector then has, for each signal-to-noise ratio, one row of statistics of noise and one of
    signals with noise of the same level; all inputs have the same number of samples. *)
Theorem C96_run {T} {num : Num T} (tx : list bool -> nat -> outcome (list T)) (first : nat -> nat -> list bool) (draw : nat -> nat -> nat -> list bool)
  (noise1 noise0 : nat -> nat -> T -> Iter T) (z1 z0 : nat -> nat -> T -> nat -> T) (clean : nat -> nat -> list T) (w : list T)
  (bits attempts : nat) (detectors : list detector) (snrs : list T) :
  returns (fun fuel => run_first tx first fuel fuel 0 120) (bits, w) ->
  (forall i j, returns (tx (draw i j bits)) (clean i j) /\ length (clean i j) = length w) ->
  (forall i j n0, nfinite n0 = true -> streams (noise1 i j n0) (z1 i j n0)) ->
  (forall i j n0, nfinite n0 = true -> streams (noise0 i j n0) (z0 i j n0)) ->
  let level i := (avg_energy w / nth i snrs (nofZ 0))%num in
  let signal i j := disturbed nadd (clean i j) (z1 i j (level i)) in
  let noise i j := tab (length w) (z0 i j (level i)) in
  (forall i, (i < length snrs)%nat -> nfinite (level i) = true) ->
  (forall d i j, In d detectors -> (i < length snrs)%nat -> (j < attempts)%nat ->
     (exists v, detect_fn d (noise i j) = Ret v) /\ (exists v, detect_fn d (signal i j) = Ret v)) ->
  exists results, returns (run tx draw noise1 noise0 first attempts detectors snrs) results /\
    Forall2 (fun d d' => detect_fn d' = detect_fn d /\ exists r0 r1, h0s d' = h0s d ++ r0 /\ h1s d' = h1s d ++ r1 /\
      Forall2 (fun i => statistics (detect_fn d) (noise i) attempts) (seq 0 (length snrs)) r0 /\
      Forall2 (fun i => statistics (detect_fn d) (signal i) attempts) (seq 0 (length snrs)) r1) detectors results /\
    forall i j, length (signal i j) = length w /\ length (noise i j) = length w.
Proof.
  intros Rf Hc H1 H0 level signal noise Hl Hd.
  assert (EL : index_from 0 (run_levels w snrs) = map (fun i => (i, level i)) (seq 0 (length snrs))).
  { unfold run_levels. rewrite (map_tab_nth _ snrs (nofZ 0)), tab_index. reflexivity. }
  assert (G0 : Forall2 (grown z1 z0 clean (length w) attempts []) detectors detectors).
  { clear. induction detectors as [|d l IH]; constructor; [|exact IH]. split; [reflexivity|]. exists [], []. rewrite !app_nil_r. repeat split; constructor. }
  destruct (returns_for (map (fun i => (i, level i)) (seq 0 (length snrs)))
     (fun fuel ds '(i, n0) => run_level tx draw noise1 noise0 fuel attempts bits ds i n0)
     (fun pre ds => Forall2 (grown z1 z0 clean (length w) attempts pre) detectors ds) [] detectors G0) as (results & R & G).
  - intros pre [i n0] ds Hin Hg. apply in_map_iff in Hin. destruct Hin as (i' & E & Hi). injection E as -> <-. apply in_seq in Hi.
    apply (level_ret tx draw noise1 noise0 z1 z0 clean bits (length w) attempts H1 H0 Hc detectors ds pre i (level i)); [apply Hl; lia| |exact Hg].
    intros d j Hin Hj. apply Hd; [exact Hin|lia|exact Hj].
  - exists results. split; [|split].
    + unfold run. eapply returns_bind; [exact Rf|]. cbn beta iota. rewrite EL. exact R.
    + cbn [app] in G. clear - G. induction G as [|d d' l l' (E & r0 & r1 & E0 & E1 & F0 & F1) G IH]; constructor; [|exact IH].
      split; [exact E|]. exists r0, r1. split; [exact E0|]. split; [exact E1|]. apply Forall2_map_l in F0. apply Forall2_map_l in F1. split; assumption.
    + intros i j. split; [|apply tab_length]. unfold signal. rewrite dist_len. apply Hc.
Qed.

(** A level that is not finite, as with a ratio of zero, makes the run raise. *)
Theorem C96_bad_level {T} {num : Num T} (tx : list bool -> nat -> outcome (list T)) (first : nat -> nat -> list bool) (draw : nat -> nat -> nat -> list bool)
  (noise1 noise0 : nat -> nat -> T -> Iter T) (clean w : list T) (bits attempts : nat) (detectors : list detector) (snr : T) (snrs : list T) :
  returns (fun fuel => run_first tx first fuel fuel 0 120) (bits, w) ->
  returns (tx (draw 0%nat 0%nat bits)) clean ->
  nfinite (avg_energy w / snr)%num = false -> (1 <= attempts)%nat ->
  raises (run tx draw noise1 noise0 first attempts detectors (snr :: snrs)).
Proof.
  intros Rf Rc Fn Ha. unfold run. eapply returns_raises; [exact Rf|]. cbn beta iota. unfold run_levels. cbv zeta. cbn [map].
  set (n0 := (avg_energy w / snr)%num) in *. set (rest := map _ snrs).
  change (index_from 0 (n0 :: rest)) with ((0%nat, n0) :: combine (seq 1 (length rest)) rest).
  cbn [for_each]. apply raises_bind. unfold run_level. apply raises_bind. unfold run_signals. destruct attempts as [|a]; [lia|]. cbn [seq].
  apply (raises_first 0%nat (seq 1 a) (fun fuel j => let? s := tx (draw 0%nat j bits) fuel in
    let? noisy := awgn (noise1 0%nat j) (of_list s) n0 in collect fuel noisy)).
  eapply (returns_raises (tx (draw 0%nat 0%nat bits)) (fun fuel s => let? noisy := awgn (noise1 0%nat 0%nat) (of_list s) n0 in collect fuel noisy)); [exact Rc|].
  unfold awgn, normal_new, assert_then. rewrite Fn. apply raises_now.
Qed.

Lemma two_rows {A B} (P : A -> B -> Prop) a b l : Forall2 P [a; b] l -> exists c d, l = [c; d] /\ P a c /\ P b d.
Proof.
  intros H. inversion H as [|? c ? l1 Pa G]; subst. inversion G as [|? d ? l2 Pb G']; subst. inversion G'; subst. exists c, d. auto.
Qed.
Lemma rows_map {A B} (g : A -> nat -> B) l n rows :
  Forall2 (fun i row => Forall2 (fun j v => Ret (g i j) = Ret v) (seq 0 n) row) l rows -> rows = map (fun i : A => map (g i) (seq 0 n)) l.
Proof.
  intros H. apply Forall2_eq_map. induction H as [|a row l rows H _ IH]; constructor; [|exact IH].
  apply Forall2_eq_map. clear - H. induction H as [|j v l k E _ IH]; constructor; [congruence|exact IH].
Qed.

Lemma both_detectors {T} {num : Num T} (cut : list T -> outcome T) (rad : list T -> T) (tx : list bool -> nat -> outcome (list T)) (first : nat -> nat -> list bool) (draw : nat -> nat -> nat -> list bool)
  (noise1 noise0 : nat -> nat -> T -> Iter T) (z1 z0 : nat -> nat -> T -> nat -> T) (clean : nat -> nat -> list T) (w : list T)
  (bits count attempts : nat) (snrs : list T) :
  length w = count ->
  returns (fun fuel => run_first tx first fuel fuel 0 120) (bits, w) ->
  (forall i j, returns (tx (draw i j bits)) (clean i j) /\ length (clean i j) = count) ->
  (forall i j n0, nfinite n0 = true -> streams (noise1 i j n0) (z1 i j n0)) ->
  (forall i j n0, nfinite n0 = true -> streams (noise0 i j n0) (z0 i j n0)) ->
  let level i := (avg_energy w / nth i snrs (nofZ 0))%num in
  let signal i j := disturbed nadd (clean i j) (z1 i j (level i)) in
  let noise i j := tab count (z0 i j (level i)) in
  (forall i, (i < length snrs)%nat -> nfinite (level i) = true) ->
  (forall i j, (i < length snrs)%nat -> (j < attempts)%nat ->
     (exists v, cut (noise i j) = Ret v) /\ (exists v, cut (signal i j) = Ret v)) ->
  exists cut0 cut1 rad0 rad1,
    returns (run tx draw noise1 noise0 first attempts [Detector cut [] []; Detector (fun s => Ret (rad s)) [] []] snrs)
      [Detector (cut) cut0 cut1; Detector (fun s => Ret (rad s)) rad0 rad1] /\
    Forall2 (fun i => statistics (cut) (noise i) attempts) (seq 0 (length snrs)) cut0 /\
    Forall2 (fun i => statistics (cut) (signal i) attempts) (seq 0 (length snrs)) cut1 /\
    rad0 = map (fun i => map (fun j => rad (noise i j)) (seq 0 attempts)) (seq 0 (length snrs)) /\
    rad1 = map (fun i => map (fun j => rad (signal i j)) (seq 0 attempts)) (seq 0 (length snrs)) /\
    forall i j, length (signal i j) = count.
Proof.
  intros <- Rw Hc H1 H0 level signal noise Hl Hd.
  destruct (C96_run tx first draw noise1 noise0 z1 z0 clean w bits attempts [Detector cut [] []; Detector (fun s => Ret (rad s)) [] []] snrs Rw Hc H1 H0 Hl) as (res & R & G & Ls).
  - intros d i j Hin Hi Hj. destruct Hin as [<-|[<-|[]]]; cbn [detect_fn]; [exact (Hd i j Hi Hj)|].
    split; eexists; reflexivity.
  - destruct (two_rows _ _ _ _ G) as (d & e & -> & (E & r0 & r1 & E0 & E1 & F0 & F1) & (E' & s0 & s1 & E0' & E1' & F0' & F1')).
    destruct d as [f a0 a1], e as [f' b0 b1]. cbn [detect_fn h0s h1s app] in *. subst f f' a0 a1 b0 b1.
    exists r0, r1, s0, s1. split; [exact R|]. split; [exact F0|]. split; [exact F1|].
    split; [exact (rows_map (fun i j => rad (noise i j)) _ _ _ F0')|].
    split; [exact (rows_map (fun i j => rad (signal i j)) _ _ _ F1')|].
    intros i j. apply Ls.
Qed.

(** The script's runs: whatever bits are drawn, if the levels are finite and the cycle-frequency detector
    meets no NaN, the run of every modulation ends with its statistics.  The radiometer accepts everything. *)
Theorem C96_harness (libm : Libm) (fft : Fft F64) (rng : Rng) (m : modulation) (first : nat -> nat -> list bool) (draw : nat -> nat -> nat -> list bool)
  (noise1 noise0 : nat -> nat -> F64 -> Iter F64) (z1 z0 : nat -> nat -> F64 -> nat -> F64) (w : list F64) (clean : nat -> nat -> list F64)
  (attempts : nat) (snrs : list F64) :
  let num := NumF libm in
  (forall k n, length (first k n) = n) -> (forall i j n, length (draw i j n) = n) ->
  (forall i j n0, is_finite n0 = true -> streams (noise1 i j n0) (z1 i j n0)) ->
  (forall i j n0, is_finite n0 = true -> streams (noise0 i j n0) (z0 i j n0)) ->
  returns (lam_tx fft rng m (first 0%nat 120%nat)) w -> (forall i j, returns (lam_tx fft rng m (draw i j 120%nat)) (clean i j)) ->
  let level i := Bdiv mode_NE (avg_energy w) (nth i snrs (f64_ofZ 0)) in
  let signal i j := disturbed nadd (clean i j) (z1 i j (level i)) in
  let noise i j := tab (samples m 120) (z0 i j (level i)) in
  (forall i, (i < length snrs)%nat -> is_finite (level i) = true) ->
  (forall i j, (i < length snrs)%nat -> (j < attempts)%nat ->
     (exists v, max_cut_detector fft (noise i j) = Ret v) /\ (exists v, max_cut_detector fft (signal i j) = Ret v)) ->
  exists cut0 cut1 rad0 rad1,
    returns (run (lam_tx fft rng m) draw noise1 noise0 first attempts (lam_detectors fft) snrs)
      [Detector (max_cut_detector fft) cut0 cut1; Detector (fun s => Ret (energy_detector s)) rad0 rad1] /\
    Forall2 (fun i => statistics (max_cut_detector fft) (noise i) attempts) (seq 0 (length snrs)) cut0 /\
    Forall2 (fun i => statistics (max_cut_detector fft) (signal i) attempts) (seq 0 (length snrs)) cut1 /\
    rad0 = map (fun i => map (fun j => energy_detector (noise i j)) (seq 0 attempts)) (seq 0 (length snrs)) /\
    rad1 = map (fun i => map (fun j => energy_detector (signal i j)) (seq 0 attempts)) (seq 0 (length snrs)) /\
    forall i j, length (signal i j) = samples m 120.
Proof.
  intros num Hf Hdr H1 H0 Rt Rc level signal noise Hl Hd.
  destruct (C96_enough_bits libm fft rng m first Hf) as (w' & Rw & Rt' & Lw). fold num in Rw, Rt'.
  assert (w' = w) as -> by exact (proj1 (ends_once (lam_tx fft rng m (first 0%nat 120%nat))) w' w Rt' Rt).
  assert (Lc : forall i j, length (clean i j) = samples m 120).
  { intros i j. destruct (C96_transmitters libm fft rng m 120 eq_refl (draw i j 120%nat) (Hdr i j 120%nat)) as (c & Lc & Rc' & _). fold num in Rc'.
    rewrite <- Lc. f_equal. exact (proj1 (ends_once (lam_tx fft rng m (draw i j 120%nat))) (clean i j) c (Rc i j) Rc'). }
  exact (both_detectors (max_cut_detector fft) energy_detector (lam_tx fft rng m) first draw noise1 noise0 z1 z0 clean w 120 (samples m 120) attempts snrs Lw Rw
    (fun i j => conj (Rc i j) (Lc i j)) H1 H0 Hl Hd).
Qed.

(** ** What the ratios mean (exact arithmetic) *)

(** A level is used as a standard deviation, so the ratio of the signal's power to the noise's variance is
    the square of the one asked for over the signal's power: in decibels twice as far from zero. *)
Theorem C96_true_ratio (w : list R) (snr : R) : 0 < snr -> 0 < avg_energy w ->
  exists n0, run_levels w [snr] = [n0] /\ avg_energy w / (n0 * n0) = snr * snr / avg_energy w /\
    db (avg_energy w / (n0 * n0)) = 2 * db snr - db (avg_energy w).
Proof.
  intros Hs Hw. unfold run_levels. cbv zeta. cbn [map]. eexists. split; [reflexivity|].
  change (@ndiv R NumR (avg_energy w) snr) with (avg_energy w / snr). set (e := avg_energy w) in *.
  assert (E : e / (e / snr * (e / snr)) = snr * snr / e) by (field; lra). split; [exact E|]. rewrite E.
  destruct C17_db_values as (_ & _ & _ & M).
  assert (I : 0 < / e) by (apply Rinv_0_lt_compat; exact Hw).
  assert (N : db (/ e) = - db e).
  { enough (db e + db (/ e) = 0) by lra. rewrite <- M by assumption. rewrite Rinv_r by lra. apply C17_db_values. }
  unfold Rdiv. rewrite (M (snr * snr) (/ e)), (M snr snr), N by (try assumption; apply Rmult_lt_0_compat; assumption). lra.
Qed.

Lemma lam_rate_R : INR LAM_SAMPLE_RATE = 65536 /\ (LAM_SAMPLE_RATE / LAM_SYMBOL_RATE = 256)%nat.
Proof.
  split; [unfold LAM_SAMPLE_RATE; rewrite mult_INR, INR_IZR_INZ; change (IZR (Z.of_nat 256)) with 256; lra|].
  unfold LAM_SAMPLE_RATE, LAM_SYMBOL_RATE. apply Nat.div_mul. lia.
Qed.

(** For BPSK every message of a whole number of bytes has power one half, the 120 bits among them: the
    levels do not depend on the bits drawn, and the true ratio is twice the square of the one asked for. *)
Theorem C96_bpsk_levels (fft : Fft R) (rng : Rng) (data : list bool) (w : list R) (bytes : nat) (snrs : list R) :
  (1 <= bytes)%nat -> length data = (8 * bytes)%nat -> returns (lam_tx fft rng M_BPSK data) w ->
  avg_energy w = / 2 /\ run_levels w snrs = map (fun snr => / (2 * snr)) snrs /\
  forall snr n0, 0 < snr -> run_levels w [snr] = [n0] -> avg_energy w / (n0 * n0) = 2 * (snr * snr).
Proof.
  intros Hb Hd Hw. unfold lam_tx, py_tx_bpsk in Hw. destruct (returns_make _ _ Hw) as [tx Et]. destruct lam_rate_R as [ER EQ].
  assert (HR : (LAM_SYMBOL_RATE <= LAM_SAMPLE_RATE)%nat).
  { unfold LAM_SAMPLE_RATE, LAM_SYMBOL_RATE. rewrite <- (Nat.mul_1_l 256) at 1. apply Nat.mul_le_mono_r. lia. }
  destruct (C88_bpsk_power _ data _ _ _ tx (of_list_yields data) HR Et) as (w' & Y & L & W).
  assert (w = w') as -> by (apply (returns_yields _ _ _ _ Hw Et Y)). rewrite EQ, Hd in L.
  assert (Hc : @LAM_CARRIER_FREQ R NumR = 2000) by reflexivity. rewrite Hc in W.
  assert (Hz : ~ (exists z : Z, 2 * 2000 = IZR z * INR LAM_SAMPLE_RATE)).
  { rewrite ER. intros [z Hz]. assert (H : (4000 = z * 65536)%Z) by (apply eq_IZR; rewrite mult_IZR; lra). lia. }
  assert (H1 : (1 <= LAM_SAMPLE_RATE)%nat) by (apply INR_le; rewrite ER; cbn; lra).
  assert (P : 0 < INR (length w')) by (apply lt_0_INR; lia).
  assert (E : avg_energy w' = / 2).
  { destruct (C21_energy w' 0) as [-> _]. unfold sumsq. rewrite (map_tab_nth _ w' 0), Rsum_tab.
    destruct (cos_energy_near LAM_SAMPLE_RATE (length w') 0 2000 H1 (sin_carrier _ _ H1 Hz)) as [_ C].
    rewrite (Rsum_n_ext _ _ _ W). cbn [Nat.mul Nat.add] in C. rewrite (C (125 * Z.of_nat bytes)%Z); [field; lra|].
    rewrite L, ER, !mult_INR, mult_IZR, <- INR_IZR_INZ, (INR_IZR_INZ 256), (INR_IZR_INZ 8).
    change (IZR (Z.of_nat 256)) with 256. change (IZR (Z.of_nat 8)) with 8. lra. }
  split; [exact E|]. split.
  - unfold run_levels. rewrite E. cbv zeta. apply map_ext. intros snr. change (/ 2 / snr = / (2 * snr)). unfold Rdiv. symmetry. apply Rinv_mult.
  - intros snr n0 Hs En. destruct (C96_true_ratio w' snr Hs ltac:(rewrite E; lra)) as (n1 & En1 & T & _).
    assert (n1 = n0) as -> by congruence. rewrite T, E. field.
Qed.

Lemma bpsk_R (fft : Fft R) (rng : Rng) (data : list bool) : exists w, length w = (256 * length data)%nat /\ returns (lam_tx fft rng M_BPSK data) w.
Proof.
  destruct lam_rate_R as [ER EQ].
  assert (E : exists tx, tx_bpsk_signal (of_list data) LAM_SAMPLE_RATE LAM_SYMBOL_RATE (2000 : R) = Ret tx).
  { unfold LAM_SAMPLE_RATE, LAM_SYMBOL_RATE. apply tx_bpsk_ok; [discriminate|reflexivity|]. unfold nyquist_ok.
    replace (nto_u64 (2000 : R)) with 2000%Z by (cbn [nto_u64 NumR]; rewrite Ztrunc_IZR; reflexivity).
    apply Z.leb_le. rewrite Nat2Z.inj_div, Nat2Z.inj_mul. change (Z.of_nat 256) with 256%Z. change (Z.of_nat 2) with 2%Z. vm_compute. discriminate. }
  destruct E as (tx & Et).
  assert (HR : (LAM_SYMBOL_RATE <= LAM_SAMPLE_RATE)%nat).
  { unfold LAM_SAMPLE_RATE, LAM_SYMBOL_RATE. rewrite <- (Nat.mul_1_l 256) at 1. apply Nat.mul_le_mono_r. lia. }
  destruct (C88_bpsk_power _ data _ _ _ tx (of_list_yields data) HR Et) as (w & Y & L & _). exists w.
  split; [rewrite L, EQ; apply Nat.mul_comm|]. unfold lam_tx, py_tx_bpsk. exact (py_returns _ tx w Et Y).
Qed.

Lemma window_filled (s : list R) : length s = (256 * 120)%nat -> exists v, max_cut_detector exact_fft s = Ret v.
Proof.
  intros L. destruct (C65_max_cut_value s) as (m & E & _); [|eexists; exact E]. rewrite L. apply Nat2Z.inj_le.
  unfold det_n, det_np. rewrite Nat2Z.inj_sub, Nat2Z.inj_add, !Z2Nat.id, Nat2Z.inj_mul by lia. vm_compute. discriminate.
Qed.

(** In exact arithmetic the BPSK run always ends, for any bits, noise and ratios. *)
Theorem C96_bpsk_run (rng : Rng) (first : nat -> nat -> list bool) (draw : nat -> nat -> nat -> list bool)
  (noise1 noise0 : nat -> nat -> R -> Iter R) (z1 z0 : nat -> nat -> R -> nat -> R) (clean : nat -> nat -> list R) (attempts : nat) (snrs : list R) :
  (forall k n, length (first k n) = n) -> (forall i j n, length (draw i j n) = n) ->
  (forall i j n0, streams (noise1 i j n0) (z1 i j n0)) -> (forall i j n0, streams (noise0 i j n0) (z0 i j n0)) ->
  (forall i j, returns (lam_tx exact_fft rng M_BPSK (draw i j 120%nat)) (clean i j)) ->
  let level i := / (2 * nth i snrs 0) in
  exists cut0 cut1 rad0 rad1,
    returns (run (lam_tx exact_fft rng M_BPSK) draw noise1 noise0 first attempts (lam_detectors exact_fft) snrs)
      [Detector (max_cut_detector exact_fft) cut0 cut1; Detector (fun s => Ret (energy_detector s)) rad0 rad1] /\
    Forall2 (fun i => statistics (max_cut_detector exact_fft) (fun j => tab (256 * 120) (z0 i j (level i))) attempts) (seq 0 (length snrs)) cut0 /\
    Forall2 (fun i => statistics (max_cut_detector exact_fft) (fun j => disturbed nadd (clean i j) (z1 i j (level i))) attempts) (seq 0 (length snrs)) cut1 /\
    rad0 = map (fun i => map (fun j => energy_detector (tab (256 * 120) (z0 i j (level i)))) (seq 0 attempts)) (seq 0 (length snrs)) /\
    rad1 = map (fun i => map (fun j => energy_detector (disturbed nadd (clean i j) (z1 i j (level i)))) (seq 0 attempts)) (seq 0 (length snrs)).
Proof.
  intros Hf Hdr H1 H0 Rc level.
  assert (D : forall data, length data = 120%nat -> forall w, returns (lam_tx exact_fft rng M_BPSK data) w -> length w = (256 * 120)%nat).
  { intros data Ld w Rw. destruct (bpsk_R exact_fft rng data) as (w' & L & Rw'). rewrite Ld in L. rewrite <- L. f_equal.
    exact (proj1 (ends_once (lam_tx exact_fft rng M_BPSK data)) w w' Rw Rw'). }
  assert (Lc : forall i j, length (clean i j) = (256 * 120)%nat) by (intros i j; exact (D _ (Hdr i j 120%nat) _ (Rc i j))).
  destruct (first_found (lam_tx exact_fft rng M_BPSK) first Hf (fun n => 256 * n)%nat 0 0%nat 120%nat) as (w & Rw & Rt & Lw & _).
  - intros j Hj data Ld. destruct (bpsk_R exact_fft rng data) as (w & L & Rw). exists w. rewrite <- Ld. split; [exact L|]. split; [exact Rw|].
    intros fuel. unfold lam_tx, py_tx_bpsk in Rw |- *. exact (py_once _ w Rw fuel).
  - intros j Hj. lia.
  - replace (120 + 10 * 0)%nat with 120%nat by reflexivity. rewrite Nat2Z.inj_mul. vm_compute. discriminate.
  - replace (120 + 10 * 0)%nat with 120%nat in * by reflexivity.
    destruct (C96_bpsk_levels exact_fft rng _ w 15 snrs ltac:(lia) (Hf _ _) Rt) as (Ew & _ & _).
    assert (El : forall i, @ndiv R NumR (avg_energy w) (nth i snrs 0) = level i).
    { intros i. rewrite Ew. change (/ 2 / nth i snrs 0 = / (2 * nth i snrs 0)). unfold Rdiv. symmetry. apply Rinv_mult. }
    assert (FR : forall x : R, nfinite x = true) by reflexivity.
    destruct (both_detectors (max_cut_detector exact_fft) energy_detector (lam_tx exact_fft rng M_BPSK) first draw noise1 noise0 z1 z0 clean w 120
      (256 * 120) attempts snrs Lw Rw (fun i j => conj (Rc i j) (Lc i j)) (fun i j n0 _ => H1 i j n0) (fun i j n0 _ => H0 i j n0)
      (fun i _ => FR _)) as (cut0 & cut1 & rad0 & rad1 & RR & C0 & C1 & E0 & E1 & _).
    + intros i j _ _. split; apply window_filled; [apply tab_length|]. rewrite dist_len. apply Lc.
    + exists cut0, cut1, rad0, rad1. split; [exact RR|].
      assert (X : forall (P Q : nat -> list R -> Prop) l rows, (forall i row, P i row -> Q i row) -> Forall2 P l rows -> Forall2 Q l rows).
      { clear. intros P Q l rows HPQ H. induction H; constructor; auto. }
      split; [|split; [|split]].
      * revert C0. apply X. intros i row. rewrite El. exact (fun h => h).
      * revert C1. apply X. intros i row. rewrite El. exact (fun h => h).
      * rewrite E0. apply map_ext. intros i. rewrite El. reflexivity.
      * rewrite E1. apply map_ext. intros i. rewrite El. reflexivity.
Qed.

(** So the ratio asked for is neither the ratio of the powers nor that of the amplitudes. *)
Theorem C96_asked_ratio_refuted (fft : Fft R) (rng : Rng) (data : list bool) (w : list R) :
  length data = 120%nat -> returns (lam_tx fft rng M_BPSK data) w ->
  exists snr n0, 0 < snr /\ run_levels w [snr] = [n0] /\ avg_energy w / (n0 * n0) <> snr /\ sqrt (avg_energy w) / n0 <> snr.
Proof.
  intros Hd Hw. destruct (C96_bpsk_levels fft rng data w 15 [/ 100] ltac:(lia) Hd Hw) as (Ew & El & T).
  exists (/ 100), (/ (2 * / 100)). split; [lra|]. split; [exact El|]. split.
  - rewrite (T (/ 100) _ ltac:(lra) El). lra.
  - rewrite Ew. replace (/ (2 * / 100)) with 50 by field. intros E. assert (S : sqrt (/ 2) = 1 / 2) by lra.
    pose proof (sqrt_sqrt (/ 2) ltac:(lra)) as Q. rewrite S in Q. lra.
Qed.

(** ** Concrete cases *)

(** With 16 samples per bit 120 bits are not enough: the loop goes on to 260. *)
Example C96_first_case (first : nat -> nat -> list bool) : (forall k n, length (first k n) = n) ->
  let tx := fun (data : list bool) (_ : nat) => Ret (repeat 1 (16 * length data)) in
  exists w, returns (fun fuel => run_first tx first fuel fuel 0 120) (260%nat, w) /\ Z.of_nat (length w) = 4160%Z.
Proof.
  intros Hf tx. assert (D : forall n, dependable tx (fun n => 16 * n)%nat n).
  { intros n data <-. eexists. split; [apply repeat_length|]. split; [apply returns_now|]. intros ?. left. reflexivity. }
  destruct (C96_first_signal tx first Hf (fun n => 16 * n)%nat D) as [C _].
  destruct (C 14%nat) as (w & Rw & _ & Lw); [intros j Hj; lia|apply Z.le_refl|].
  exists w. split; [exact Rw|]. rewrite Lw. reflexivity.
Qed.
(** A transmitter that says the same whatever the message is asked again for ever. *)
Example C96_never_case (first : nat -> nat -> list bool) : (forall k n, length (first k n) = n) ->
  hangs (fun fuel => run_first (fun (_ : list bool) (_ : nat) => Ret [1; 2; 3]) first fuel fuel 0 120).
Proof.
  intros Hf. apply (C96_first_signal _ first Hf (fun _ => 3%nat)); [|reflexivity].
  intros n data _. exists [1; 2; 3]. split; [reflexivity|]. split; [apply returns_now|]. intros ?. left. reflexivity.
Qed.
Example C96_samples_case :
  map (fun m => Z.of_nat (samples m 120)) [M_BFSK; M_BPSK; M_CDMA; M_OFDM; M_FH_CSS; M_CSK; M_DCSK; M_FH_OFDM_DCSK] =
  [30720; 30720; 30720; 76800; 30720; 30720; 61440; 46080]%Z.
Proof. cbn [map samples]. rewrite !Nat2Z.inj_mul. reflexivity. Qed.
(** Two ratios, three attempts, the same bits and constant noise. *)
Example C96_run_case (rng : Rng) (a b : R) : exists res,
  returns (run (lam_tx exact_fft rng M_BPSK) (fun _ _ n => repeat true n) (fun _ _ _ => always a) (fun _ _ _ => always b)
    (fun _ n => repeat false n) 3 (lam_detectors exact_fft) [/ 10; / 100]) res.
Proof.
  destruct (bpsk_R exact_fft rng (repeat true 120)) as (c & _ & Rc).
  destruct (C96_bpsk_run rng (fun _ n => repeat false n) (fun _ _ n => repeat true n) (fun _ _ _ => always a) (fun _ _ _ => always b)
    (fun _ _ _ _ => a) (fun _ _ _ _ => b) (fun _ _ => c) 3 [/ 10; / 100]) as (cut0 & cut1 & rad0 & rad1 & RR & _).
  - intros. apply repeat_length.
  - intros. apply repeat_length.
  - intros. apply always_streams.
  - intros. apply always_streams.
  - intros. exact Rc.
  - eexists. exact RR.
Qed.
(** A ratio of zero in binary64. *)
Example C96_bad_level_case (x : F64) : is_finite (Bdiv mode_NE x (f64_ofZ 0)) = false.
Proof. destruct x as [[]|[]| |[] m e He]; reflexivity. Qed.
Example C96_ratio_case : avg_energy [1; - 1; 1] = 1 /\ run_levels [1; - 1; 1] [/ 10] = [10].
Proof.
  assert (E : avg_energy [1; - 1; 1] = 1).
  { destruct (C21_energy [1; - 1; 1] 0) as [-> _]. unfold sumsq. cbn. lra. }
  split; [exact E|]. unfold run_levels. rewrite E. cbn [map]. f_equal. change (1 / (/ 10) = 10). field.
Qed.

(** ** Axioms used *)
Print Assumptions C96_first_signal.
Print Assumptions C96_transmitters.
Print Assumptions C96_enough_bits.
Print Assumptions C96_run.
Print Assumptions C96_bad_level.
Print Assumptions C96_harness.
Print Assumptions C96_true_ratio.
Print Assumptions C96_bpsk_levels.
Print Assumptions C96_bpsk_run.
Print Assumptions C96_asked_ratio_refuted.
