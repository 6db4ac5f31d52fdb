(** Properties C66-C68: the functions offered to Python (src/lib.rs). *)
From Coq Require Import List Arith ZArith NArith Reals Bool Lia Lra Psatz.
From Flocq Require Import Core BinarySingleNaN.
From Verif Require Import Base IterTheory IterModel IterProofs PanicTheory Spec SpecR Tab Num F64Lib LibModel LibFloat
  ChaosModel ChaosProofs ChaosMod RSums PskModel PskChain PskReal CdmaModel CdmaProofs FhModel FhProofs FskModel FftModel OfdmModel OfdmProofs
  FhOfdmModel SscaModel PyModel Props_Iter Props_Psk Props_Cdma Props_Fh Props_Fsk Props_Ofdm Props_FhOfdm Props_Chaos.
Import ListNotations.

(** How a call can end: with a value, with a panic (an exception in Python), or never. *)
Definition returns {A} (call : nat -> outcome A) (v : A) : Prop := exists n, forall fuel, n <= fuel -> call fuel = Ret v.
Definition raises {A} (call : nat -> outcome A) : Prop := exists n, forall fuel, n <= fuel -> call fuel = Panic.
Definition hangs {A} (call : nat -> outcome A) : Prop := forall fuel, call fuel = Diverge.

Lemma py_returns {A} make (it : Iter A) l : make = Ret it -> yields it l -> returns (py_collect make) l.
Proof. intros -> Y. exists (S (length l)). intros fuel H. cbn [py_collect bind]. apply collect_yields; [exact Y|lia]. Qed.
Lemma py_hangs {A} make (it : Iter A) f : make = Ret it -> streams it f -> hangs (py_collect make).
Proof. intros -> S fuel. cbn [py_collect bind]. exact (collect_from_streams _ _ _ fuel S). Qed.
Lemma py_raises {A} (make : outcome (Iter A)) : make = Panic -> raises (py_collect make).
Proof. intros ->. exists 0. reflexivity. Qed.
Lemma collect_panics {A X} (nx : X -> outcome (option A * X)) l : forall s, panics_from nx s (map Some l) ->
  forall fuel, length l < fuel -> collect_from fuel nx s = Panic.
Proof.
  induction l as [|a l IH]; intros s H fuel Hf; (destruct fuel as [|fuel]; [cbn in Hf; lia|]); cbn [collect_from].
  - cbn in H. rewrite H. reflexivity.
  - cbn [map panics_from] in H. destruct H as (s' & E & H). rewrite E. cbn [bind]. rewrite (IH s' H fuel) by (cbn in Hf; lia). reflexivity.
Qed.
Lemma py_raises_late {A} make (it : Iter A) l : make = Ret it -> panics_after it (map Some l) -> raises (py_collect make).
Proof.
  intros -> P. apply panics_from_after in P. exists (S (length l)). intros fuel H. cbn [py_collect bind].
  apply (collect_panics _ l); [exact P|lia].
Qed.

(** The three exclude each other, and a value is unique. *)
Lemma ends_once {A} (call : nat -> outcome A) :
  (forall v w, returns call v -> returns call w -> v = w) /\ (forall v, returns call v -> ~ raises call) /\
  (forall v, returns call v -> ~ hangs call) /\ (raises call -> ~ hangs call).
Proof.
  split; [|split; [|split]].
  - intros v w [n H1] [k H2]. specialize (H1 (n + k) ltac:(lia)). specialize (H2 (n + k) ltac:(lia)). congruence.
  - intros v [n H1] [k H2]. specialize (H1 (n + k) ltac:(lia)). specialize (H2 (n + k) ltac:(lia)). congruence.
  - intros v [n H1] H2. specialize (H1 n ltac:(lia)). specialize (H2 n). congruence.
  - intros [n H1] H2. specialize (H1 n ltac:(lia)). specialize (H2 n). congruence.
Qed.

(** A call that raises unless [ok]; otherwise, with [n] samples for each of [count] symbols, it never
    ends when there are symbols and no samples, and else returns [count * n] samples. *)
Definition ends_by {A} (call : nat -> outcome (list A)) (ok : Prop) (count n : nat) : Prop :=
  (~ ok -> raises call) /\
  (ok -> n = 0 -> 1 <= count -> hangs call) /\
  (ok -> 1 <= n \/ count = 0 -> exists w, returns call w /\ length w = count * n).

(** An iterator for every number n of samples per symbol, and [count] symbols. *)
Definition rate_iter {B} (F : nat -> Iter B) (count : nat) : Prop :=
  forall n, (1 <= n \/ count = 0 -> exists w, yields (F n) w /\ length w = count * n) /\
            (n = 0 -> 1 <= count -> exists f, streams (F n) f).

Lemma repeat_each_len {A} n (l : list A) : length (repeat_each n l) = length l * n.
Proof. unfold repeat_each. induction l as [|a l IH]; [reflexivity|]. cbn [flat_map length]. rewrite app_length, repeat_length, IH. lia. Qed.

Lemma rate_inflate {A} (it : Iter A) l : yields it l -> rate_iter (fun n => inflate n it) (length l).
Proof.
  intros Y n. split.
  - intros H. exists (repeat_each n l). split; [|apply repeat_each_len].
    destruct (Nat.eq_dec n 0) as [->|Hn]; [|apply inflate_yields; [lia|exact Y]].
    destruct H as [H|H]; [lia|]. destruct l; [|discriminate]. apply inflate0_empty. exact Y.
  - intros -> Hne. destruct l as [|a l]; [cbn in Hne; lia|]. eexists. apply (inflate0_streams it a l). exact Y.
Qed.
Lemma rate_map {A B} (g : nat * A -> B) (F : nat -> Iter A) c : rate_iter F c -> rate_iter (fun n => imap g (ienum (F n))) c.
Proof.
  intros R n. destruct (R n) as [R1 R2]. split.
  - intros H. destruct (R1 H) as (w & Y & L). eexists. split; [apply imap_yields, ienum_yields, Y|].
    rewrite map_length. unfold index_from. rewrite combine_length, seq_length, Nat.min_id. exact L.
  - intros H1 H2. destruct (R2 H1 H2) as [f S]. eexists. apply imap_streams, ienum_streams, S.
Qed.
Lemma py_rate {B} (F : nat -> Iter B) c n make (ok : Prop) :
  rate_iter F c -> (ok -> make = Ret (F n)) -> (~ ok -> make = Panic) -> ends_by (py_collect make) ok c n.
Proof.
  intros R HR HP. destruct (R n) as [R1 R2]. split; [|split].
  - intros N. apply py_raises, HP, N.
  - intros O E Hne. destruct (R2 E Hne) as [f S]. eapply py_hangs; [exact (HR O)|exact S].
  - intros O E. destruct (R1 E) as (w & Y & L). exists w. split; [|exact L]. eapply py_returns; [exact (HR O)|exact Y].
Qed.

Definition divides_rate (sample_rate symbol_rate : nat) : Prop := symbol_rate <> 0 /\ Nat.divide symbol_rate sample_rate.

(** Zipping with a source that panics too early; a flat_map whose source panics. *)
Lemma izip_panics {A B} (a : Iter A) (b : Iter B) la lb :
  yields a la -> panics_after b (map Some lb) -> length lb < length la -> panics_after (izip a b) (map Some (combine la lb)).
Proof.
  intros Ya Pb Hl. apply panics_from_after in Pb. apply panics_from_after. cbn [next cur izip].
  unfold yields, behaves in Ya. change (yields_from (next a) (cur a) la) in Ya.
  revert Ya Pb. generalize (cur a) as sa. generalize (cur b) as sb. revert la Hl.
  induction lb as [|y lb IH]; intros [|x la] Hl sb sa Ya Pb; try (cbn in Hl; lia); cbn [combine map panics_from] in *;
    apply yields_cons_inv in Ya; destruct Ya as (sa1 & Ea & Ya).
  - unfold izip_next. rewrite Ea. cbn [bind]. rewrite Pb. reflexivity.
  - destruct Pb as (sb1 & Eb & Pb). exists (sa1, sb1). split; [unfold izip_next; rewrite Ea; cbn [bind]; rewrite Eb; reflexivity|].
    apply IH; [cbn in Hl; lia|exact Ya|exact Pb].
Qed.
Lemma izip_short {A B} (a : Iter A) (b : Iter B) la lb :
  yields a la -> panics_after b (map Some lb) -> length la <= length lb -> yields (izip a b) (combine la lb).
Proof.
  intros Ya Pb Hl. apply panics_from_after in Pb.
  apply (yields_coind (next (izip a b))
    (fun s o => exists k j, yields_from (next a) (fst s) k /\ panics_from (next b) (snd s) (map Some j) /\ length k <= length j /\ o = combine k j)).
  - intros [s t] [k [j [Hk [Hj [L E]]]]]. cbn [fst snd] in *. destruct k as [|x k]; [|destruct j; [cbn in L; lia|discriminate]].
    apply yields_nil_inv in Hk. destruct Hk as [s' [E1 H1]]. exists (s', t). cbn. rewrite E1. cbn.
    split; [reflexivity|]. exists [], j. auto.
  - intros [s t] c o [k [j [Hk [Hj [L E]]]]]. cbn [fst snd] in *. destruct k as [|x k]; [discriminate|]. destruct j as [|y j]; [discriminate|].
    cbn [combine] in E. injection E as -> ->. cbn [map panics_from] in Hj. destruct Hj as (t' & E2 & H2).
    apply yields_cons_inv in Hk. destruct Hk as [s' [E1 H1]].
    exists (s', t'). cbn. rewrite E1. cbn. rewrite E2. cbn. split; [reflexivity|].
    exists k, j. cbn in L. repeat split; auto. lia.
  - exists la, lb. auto.
Qed.
Lemma iflat_panics_source {A B C} (f : C -> A -> outcome (list B * C)) c0 (it : Iter A) l bs e :
  panics_after it (map Some l) -> flat_ok f c0 l bs e -> (Z.of_nat e < 2 ^ 64 - 1)%Z ->
  panics_after (iflat_map c0 f it) (map Some bs).
Proof.
  intros Hp Hf He. apply panics_from_after. apply panics_from_after in Hp. cbn [next cur iflat_map].
  change bs with ([] ++ bs). apply fpanics_next with (e := e); [|exact He]. clear He.
  revert Hp. generalize (cur it) as s. induction Hf as [c|c b l1 c1 l bs e E Hf IH]; intros s Hp; cbn [map panics_from] in Hp.
  - apply fp_source. exact Hp.
  - destruct Hp as (s1 & E1 & Hp). eapply fp_item; [exact E1|exact E|]. apply IH. exact Hp.
Qed.

(** A flat_map over an endless source never ends. *)
Lemma flat_hangs {A B} (f : A -> list B) make (it : Iter A) g : make = Ret (iflat_map tt (pure_fn f) it) -> streams it g ->
  (forall n, f (g n) <> []) -> hangs (py_collect make).
Proof.
  intros -> St Hf fuel. cbn [py_collect bind]. unfold collect. cbn [next cur iflat_map]. pose proof loop_bound_val as HB.
  assert (I : forall fuel s fr g, streams_from (next it) s g -> (forall n, f (g n) <> []) ->
     collect_from fuel (iflat_next (pure_fn f) (next it)) (FlatSt (Some s) tt fr) = Diverge).
  { clear. pose proof loop_bound_val as HB. induction fuel as [|fuel IH]; intros s fr g St Hf; [reflexivity|]. cbn [collect_from].
    destruct fr as [|b fr].
    - pose proof St as S0. apply streams_inv in S0. destruct S0 as (s1 & E & S1).
      destruct (f (g 0)) as [|b r] eqn:Ef; [exfalso; exact (Hf 0 Ef)|].
      unfold iflat_next at 1. rewrite (loops_pos _ 1 _ (Ret (Some b, FlatSt (Some s1) tt r))).
      + cbn [bind]. rewrite (IH s1 r (fun n => g (S n)) S1) by (intros; apply Hf). reflexivity.
      + eapply loops_go; [unfold iflat_body; cbn [fl_front fl_outer fl_clo]; rewrite E; cbn; rewrite Ef; reflexivity|].
        apply loops_stop. reflexivity.
      + lia.
    - unfold iflat_next at 1. rewrite (loops_pos _ 0 _ (Ret (Some b, FlatSt (Some s) tt fr))).
      + cbn [bind]. rewrite (IH s fr g St Hf). reflexivity.
      + apply loops_stop. reflexivity.
      + lia. }
  exact (I fuel (cur it) [] g St Hf).
Qed.

(** ** C66 *)

Section Rates.
Variable libm : Libm.
Let num := NumF libm.
#[local] Existing Instance num.

Definition below_half (sample_rate : nat) (f : F64) : Prop :=
  is_nan f = true \/ Bltb f (f64_ofZ (Z.of_nat (sample_rate / 2) + 1)) = true.

Lemma rate_check sr sy : (Z.of_nat sr < 2 ^ 53)%Z -> (Z.of_nat sy < 2 ^ 53)%Z ->
  is_int (ndiv (nofnat sr) (nofnat sy)) = true <-> divides_rate sr sy.
Proof.
  intros Hsr Hsy. unfold divides_rate, nofnat. change (@ndiv F64 num) with (@Bdiv 53 1024 prec53 emax1024 mode_NE).
  change (@nofZ F64 num) with f64_ofZ. unfold num. destruct (Nat.eq_dec sy 0) as [->|Hy].
  - rewrite is_int_div_zero by lia. split; [discriminate|]. intros [H _]. contradiction.
  - rewrite is_int_div_pos by lia. split.
    + intros [q Hq]. split; [exact Hy|]. exists (Z.to_nat q). assert (0 <= q)%Z by nia. apply Nat2Z.inj. rewrite Nat2Z.inj_mul, Z2Nat.id by assumption. lia.
    + intros [_ [q ->]]. exists (Z.of_nat q). lia.
Qed.

Lemma half_check sr (f : F64) : (Z.of_nat sr < 2 ^ 53)%Z -> nyquist_ok sr f = true <-> below_half sr f.
Proof.
  intros Hsr. unfold nyquist_ok. change (@nto_u64 F64 num) with f64_to_u64. rewrite Z.leb_le. apply u64_le_iff.
  destruct (Nat.eq_dec sr 0) as [->|]; [reflexivity|]. assert (sr / 2 < sr) by (apply Nat.div_lt; lia). lia.
Qed.

Lemma rate_u64 sr sy : (Z.of_nat sr < 2 ^ 53)%Z -> (Z.of_nat sy < 2 ^ 53)%Z -> divides_rate sr sy ->
  Z.to_nat (nto_u64 (ndiv (nofnat sr) (nofnat sy))) = sr / sy.
Proof.
  intros Hsr Hsy [Hy [q ->]]. rewrite Nat.div_mul by exact Hy. unfold nofnat.
  change (@ndiv F64 num) with (@Bdiv 53 1024 prec53 emax1024 mode_NE). change (@nofZ F64 num) with f64_ofZ. change (@nto_u64 F64 num) with f64_to_u64.
  destruct (div_ofZ (Z.of_nat (q * sy)) (Z.of_nat sy)) as (V & Fq & _); [lia|lia|].
  rewrite to_u64_fin by exact Fq. rewrite V, (rd_quot_exact _ _ (Z.of_nat q)) by lia. rewrite Ztrunc_IZR. unfold clamp_u64, u64_max.
  assert (Z.of_nat q <= Z.of_nat (q * sy))%Z by nia. pose proof two53_lt. lia.
Qed.

Section Calls.
Variables (message : list bool) (sample_rate symbol_rate : nat).
Hypothesis Hsr : (Z.of_nat sample_rate < 2 ^ 53)%Z.
Hypothesis Hsy : (Z.of_nat symbol_rate < 2 ^ 53)%Z.
Let sps := sample_rate / symbol_rate.

(** BPSK: a zero sample rate passes the checks and the call never ends. *)
Theorem C66_tx_bpsk (fc : F64) :
  ends_by (py_tx_bpsk message sample_rate symbol_rate fc)
    (divides_rate sample_rate symbol_rate /\ below_half sample_rate fc) (length message) sps.
Proof.
  pose proof (rate_check _ _ Hsr Hsy) as HI. pose proof (half_check _ fc Hsr) as HN.
  apply (py_rate (fun n => imap (fun '(idx, msg_val) => msg_val * ncos (nofZ 2 * npi * fc * (nofnat idx / nofnat sample_rate)))%num
             (ienum (inflate n (imap bit_to_nrz (of_list message)))))).
  - apply rate_map. rewrite <- (map_length bit_to_nrz message). apply rate_inflate, imap_yields, of_list_yields.
  - intros [D N]. unfold tx_bpsk_signal. rewrite usize_div_intro by apply D. cbn [bind].
    rewrite (proj2 HN N), (proj2 HI D). reflexivity.
  - intros N. unfold tx_bpsk_signal, usize_div. destruct symbol_rate as [|sy]; [reflexivity|]. cbn [Nat.eqb bind].
    destruct (nyquist_ok sample_rate fc) eqn:E1; [|reflexivity]. destruct (is_int _) eqn:E2; [|reflexivity].
    exfalso. apply N. split; [apply HI|apply HN]; reflexivity.
Qed.

(** QPSK checks nothing: a sample rate below the symbol rate never ends. *)
Theorem C66_tx_qpsk (fc : F64) :
  ends_by (py_tx_qpsk message sample_rate symbol_rate fc) (symbol_rate <> 0) (length message / 2) sps.
Proof.
  clear Hsr Hsy.
  apply (py_rate (fun n => imap (fun '(idx, (bit1, bit2)) =>
               bit_to_nrz bit1 * ncos (nofZ 2 * npi * fc * (nofnat idx / nofnat sample_rate))
               + (- bit_to_nrz bit2) * nsin (nofZ 2 * npi * fc * (nofnat idx / nofnat sample_rate)))%num
            (ienum (inflate n (ituples (of_list message)))))).
  - apply rate_map. rewrite <- (pairs_length (length message) message eq_refl). apply rate_inflate, ituples_yields, of_list_yields.
  - intros D. unfold tx_qpsk_signal. rewrite usize_div_intro by exact D. reflexivity.
  - intros N. unfold tx_qpsk_signal, usize_div. destruct symbol_rate as [|sy]; [reflexivity|]. exfalso. apply N. discriminate.
Qed.

(** BFSK looks at the upper frequency only. *)
Theorem C66_tx_bfsk (freq_low freq_high : F64) :
  ends_by (py_tx_bfsk message sample_rate symbol_rate freq_low freq_high)
    (divides_rate sample_rate symbol_rate /\ below_half sample_rate freq_high) (length message) sps.
Proof.
  pose proof (rate_check _ _ Hsr Hsy) as HI. pose proof (half_check _ freq_high Hsr) as HN.
  apply (py_rate (fun n => imap (fun '(idx, freq) => ncos (nofZ 2 * npi * freq * (nofnat idx / nofnat sample_rate)))%num
             (ienum (inflate n (imap (fun bit : bool => if bit then freq_high else freq_low) (of_list message)))))).
  - apply rate_map. rewrite <- (map_length (fun bit : bool => if bit then freq_high else freq_low) message).
    apply rate_inflate, imap_yields, of_list_yields.
  - intros [D N]. unfold tx_bfsk_signal. rewrite usize_div_intro by apply D. cbn [bind].
    rewrite (proj2 HN N), (proj2 HI D). reflexivity.
  - intros N. unfold tx_bfsk_signal, usize_div. destruct symbol_rate as [|sy]; [reflexivity|]. cbn [Nat.eqb bind].
    destruct (nyquist_ok sample_rate freq_high) eqn:E1; [|reflexivity]. destruct (is_int _) eqn:E2; [|reflexivity].
    exfalso. apply N. split; [apply HI|apply HN]; reflexivity.
Qed.

(** CSK sends one chaos value a bit, DCSK two. *)
Theorem C66_tx_csk :
  ends_by (py_tx_csk message sample_rate symbol_rate) (divides_rate sample_rate symbol_rate) (length message) sps.
Proof.
  pose proof (rate_check _ _ Hsr Hsy) as HI.
  destruct (csk_chain (dcsk_start_f64 libm) (csk_start_f64 libm) (of_list message) message (of_list_yields _)) as (tx & _ & Et & _ & Y & _).
  apply (py_rate (fun n => inflate n tx)).
  - pose proof (rate_inflate _ _ Y) as R. rewrite map_length, !zip_stream_length in R. exact R.
  - intros D. unfold tx_csk, wrap_rate. rewrite (proj2 HI D). cbn [assert_then]. rewrite usize_div_intro by apply D.
    cbn [bind]. fold num in Et. rewrite Et. reflexivity.
  - intros N. unfold tx_csk, wrap_rate. destruct (is_int _) eqn:E2; [|reflexivity]. exfalso. apply N, HI. reflexivity.
Qed.
Theorem C66_tx_dcsk :
  ends_by (py_tx_dcsk message sample_rate symbol_rate) (divides_rate sample_rate symbol_rate) (2 * length message) sps.
Proof.
  pose proof (rate_check _ _ Hsr Hsy) as HI.
  destruct (C24_dcsk_round_trip_f64 libm (of_list message) message (of_list_yields _)) as (tx & s & Et & Y & L & _).
  apply (py_rate (fun n => inflate n tx)).
  - rewrite <- L. apply rate_inflate, Y.
  - intros D. unfold tx_dcsk, wrap_rate. rewrite (proj2 HI D). cbn [assert_then]. rewrite usize_div_intro by apply D.
    cbn [bind]. fold num in Et. rewrite Et. reflexivity.
  - intros N. unfold tx_dcsk, wrap_rate. destruct (is_int _) eqn:E2; [|reflexivity]. exfalso. apply N, HI. reflexivity.
Qed.

(** The Python CDMA key: row 1 of the 16 by 16 matrix, alternating chips. *)
Lemma py_key : exists M, HadamardMatrix_new 16 = Ret M /\ HadamardMatrix_key M 0 = Ret (tab 16 Nat.even).
Proof.
  exists (match HadamardMatrix_new 16 with Ret M => M | _ => [] end). split; vm_compute; reflexivity.
Qed.

(** CDMA's chip rate must be at most half the sample rate, so it always ends. *)
Theorem C66_tx_cdma_bpsk (fc : F64) :
  let ok := symbol_rate <> 0 /\ 32 * symbol_rate <= sample_rate /\ Nat.divide (16 * symbol_rate) sample_rate /\ below_half sample_rate fc in
  ends_by (py_tx_cdma_bpsk message sample_rate symbol_rate fc) ok (length message) sps /\ (ok -> 1 <= sps).
Proof.
  intros ok. assert (P : ok -> 1 <= sps) by (intros (A & B & _); apply Nat.div_le_lower_bound; lia). split; [|exact P].
  destruct py_key as (M & EM & EK). set (key := tab 16 Nat.even) in *. assert (LK : length key = 16) by reflexivity.
  destruct (C34_cdma_checks libm (of_list message) (of_list []) sample_rate symbol_rate fc key Hsr) as [CO CN].
  fold num in CO, CN. rewrite LK in CO, CN. fold (below_half sample_rate fc) in CO, CN.
  assert (Hk : key <> []) by discriminate.
  unfold py_tx_cdma_bpsk. rewrite EM. cbn [bind]. rewrite EK. cbn [bind].
  split; [|split].
  - intros N. apply py_raises. apply CN. intros (A1 & A2 & A3 & A4 & A5). apply N. split; [exact A1|]. split; [lia|]. split; assumption.
  - intros O E. specialize (P O). lia.
  - intros O _. destruct O as (A1 & A2 & A3 & A4).
    destruct CO as (tx & _ & Et & _). { repeat split; [exact A1|exact Hk|lia|exact A3|exact A4]. }
    destruct (@cdma_bpsk_link F64 num (spread_F64 libm) (of_list message) message sample_rate symbol_rate fc key tx (of_list_yields _) Et)
      as (_ & _ & _ & w & _ & _ & _ & _ & Yw & Lw & _).
    exists w. split; [eapply py_returns; [exact Et|exact Yw]|exact Lw].
Qed.

(** OFDM: one block of [N + N/4] samples for every [N - P] pairs of bits, none if all carriers are pilots. *)
Theorem C66_tx_ofdm (fft : Fft F64) (N P : nat) (fc : F64) :
  exists blocks, (P < N -> length message / 2 <= blocks * (N - P) < length message / 2 + (N - P)) /\ (N <= P -> blocks = 0) /\
  ends_by (py_tx_ofdm fft message N P sample_rate symbol_rate fc)
    (divides_rate sample_rate symbol_rate /\ 1 <= P <= N) (blocks * (N + N / 4)) sps.
Proof.
  pose proof (rate_check _ _ Hsr Hsy) as HI.
  assert (Ys : exists s, yields (tx_baseband_qpsk_signal (of_list message)) s /\ length s = length message / 2).
  { eexists. split; [apply imap_yields, ituples_yields, of_list_yields|]. rewrite map_length. apply (pairs_length (length message)). reflexivity. }
  destruct Ys as (s & Ys & Ls).
  assert (Body : forall tx c, tx_baseband_ofdm_signal fft (tx_baseband_qpsk_signal (of_list message)) N P = Ret tx -> 1 <= P <= N ->
      (exists b, yields tx b /\ length b = c) ->
      ends_by (py_tx_ofdm fft message N P sample_rate symbol_rate fc) (divides_rate sample_rate symbol_rate /\ 1 <= P <= N) c sps).
  { intros tx c Et HP (b & Yb & <-).
    apply (py_rate (fun n => imap (fun '(idx, ofdm_symbol) =>
                re (cmul ofdm_symbol (cexp_i (nofZ 2 * npi * fc * (nofnat idx / nofnat sample_rate)))))%num (ienum (inflate n tx)))).
    - apply rate_map, rate_inflate, Yb.
    - intros [D _]. unfold tx_ofdm_qpsk_signal. rewrite (proj2 HI D). cbn [assert_then]. rewrite usize_div_intro by apply D. cbn [bind].
      rewrite Et. reflexivity.
    - intros Nn. unfold tx_ofdm_qpsk_signal. destruct (is_int _) eqn:E2; [|reflexivity]. exfalso. apply Nn. split; [apply HI; reflexivity|exact HP]. }
  destruct (Nat.eq_dec P 0) as [HP|HP]; [|destruct (Nat.lt_trichotomy P N) as [L|[L|L]]].
  1, 4: (exists (if P <? N then ceil_div (length message / 2) (N - P) else 0); split; [|split];
         [intros L0; rewrite (proj2 (Nat.ltb_lt P N) L0); apply ceil_div_spec; lia
         |intros L0; destruct (Nat.ltb_spec P N); [lia|reflexivity]
         |split; [intros _|split; intros [_ ?]; lia]; apply py_raises; unfold tx_ofdm_qpsk_signal;
          destruct (is_int _) eqn:E2; [|reflexivity]; cbn [assert_then]; rewrite usize_div_intro by (apply HI; reflexivity); cbn [bind];
          rewrite (proj1 (C42_bad_counts_panic F64 num fft (tx_baseband_qpsk_signal (of_list message)) N P ltac:(lia))); reflexivity]).
  - destruct (C44_framing F64 num fft _ s N P ltac:(lia) Ys) as (tx & blocks & Et & Yt & Lt & Lb).
    exists (length blocks). split; [intros _; rewrite <- Ls; exact Lt|]. split; [lia|].
    apply (Body tx); [exact Et|lia|]. exists (concat blocks). split; [exact Yt|].
    clear - Lb. induction blocks as [|b l IH]; [reflexivity|]. cbn [concat length]. rewrite app_length, IH by (intros; apply Lb; right; assumption).
    rewrite (proj1 (Lb b (or_introl eq_refl))). lia.
  - subst P. exists 0. split; [lia|]. split; [reflexivity|].
    destruct (C44_all_pilots_sends_nothing F64 num fft (tx_baseband_qpsk_signal (of_list message)) N ltac:(lia)) as (tx & Et & Yt).
    apply (Body tx); [exact Et|lia|]. exists []. split; [exact Yt|reflexivity].
Qed.

(** FH-OFDM-DCSK pads the message to blocks of 7 bits, one more than it needs, and sends 10 samples a block:
    with a zero sample rate even the empty message never ends. *)
Theorem C66_tx_fh_ofdm_dcsk (fft : Fft F64) (rng : Rng) (fc : F64) :
  ends_by (py_tx_fh_ofdm_dcsk fft rng message sample_rate symbol_rate fc)
    (divides_rate sample_rate symbol_rate /\ below_half sample_rate fc) (10 * (length message / 7 + 1)) sps.
Proof.
  pose proof (rate_check _ _ Hsr Hsy) as HI. pose proof (half_check _ fc Hsr) as HN.
  assert (Eb : exists bb, tx_baseband_fh_ofdm_dcsk_signal fft rng (of_list message) = Ret bb) by (eexists; reflexivity).
  destruct Eb as [bb Eb]. destruct (baseband_any fft rng (of_list message) message bb (of_list_yields _) Eb) as (b & Yb & <-).
  apply (py_rate (fun n => imap (fun '(idx, symbol) =>
                re (cmul symbol (cexp_i (- nofZ 2 * npi * fc * (nofnat idx / nofnat sample_rate)))))%num (ienum (inflate n bb)))).
  - apply rate_map, rate_inflate, Yb.
  - intros [D N]. unfold tx_fh_ofdm_dcsk_signal_2. rewrite (proj2 HN N), (proj2 HI D). cbn [assert_then].
    rewrite usize_div_intro by apply D. cbn [bind]. rewrite Eb. reflexivity.
  - intros N. unfold tx_fh_ofdm_dcsk_signal_2.
    destruct (nyquist_ok sample_rate fc) eqn:E1; [|reflexivity]. destruct (is_int _) eqn:E2; [|reflexivity].
    exfalso. apply N. split; [apply HI|apply HN]; reflexivity.
Qed.

(** FH-CSS needs two hop frequencies, or as many as there are bits; with a zero sample rate it returns nothing. *)
Theorem C66_tx_fh_css (rng : Rng) (low high : F64) (num_freqs : nat) :
  let call := py_tx_fh_css rng message sample_rate symbol_rate low high num_freqs in
  let ok := divides_rate sample_rate symbol_rate /\ below_half sample_rate high /\ (2 <= num_freqs \/ length message <= num_freqs) in
  (Z.of_nat (length message) < 2 ^ 64 - 1)%Z ->
  (~ ok -> raises call) /\ (ok -> exists w, returns call w /\ length w = length message * sps).
Proof.
  intros call ok Hl. pose proof (rate_check _ _ Hsr Hsy) as HI. pose proof (half_check _ high Hsr) as HN.
  unfold call, py_tx_fh_css, tx_fh_css_signal.
  destruct (nyquist_ok sample_rate high) eqn:E1.
  2: { split; [intros _; apply py_raises; reflexivity|]. intros (_ & A & _). apply HN in A. discriminate. }
  destruct (is_int _) eqn:E2.
  2: { split; [intros _; apply py_raises; reflexivity|]. intros (A & _). apply HI in A. discriminate. }
  assert (D : divides_rate sample_rate symbol_rate) by (apply HI; reflexivity).
  assert (B : below_half sample_rate high) by (apply HN; reflexivity).
  rewrite (rate_u64 _ _ Hsr Hsy D). fold sps. cbn [assert_then]. clear HI HN E1 E2.
  set (bw := ndiv (nsub high low) (nofnat num_freqs)).
  set (f := fun (_ : unit) '(bit, hop_freq) =>
          let '(f0, f1) := if bit : bool
                           then (nsub hop_freq (ndiv bw (nofZ 2)), nadd hop_freq (ndiv bw (nofZ 2)))
                           else (nadd hop_freq (ndiv bw (nofZ 2)), nsub hop_freq (ndiv bw (nofZ 2))) in
          let? l := collect (sps + 1) (linear_chirp (nofnat symbol_rate) sample_rate f0 f1) in
          Ret (l, tt)).
  assert (Fl : forall l, exists bs e, flat_ok f tt l bs e /\ length bs = length l * sps /\ e <= length l).
  { induction l as [|[bit h] l (bs & e & Fb & Lb & Le)]; [exists [], 0; repeat split; [constructor|lia]|].
    assert (Fa : exists w, f tt (bit, h) = Ret (w, tt) /\ length w = sps).
    { unfold f. assert (Ch : forall f0 f1, exists w, collect (sps + 1) (linear_chirp (nofnat symbol_rate) sample_rate f0 f1) = Ret w /\ length w = sps).
      { intros f0 f1. eexists. split; [apply collect_yields; [apply imap_yields, linspace_tab|]|];
          rewrite map_length, tab_length, (rate_u64 _ _ Hsr Hsy D); fold sps; lia. }
      destruct bit; match goal with |- context [linear_chirp _ _ ?a ?b] => destruct (Ch a b) as (w & Ew & Lw) end;
        exists w; (split; [rewrite Ew; reflexivity|exact Lw]). }
    destruct Fa as (w & Ew & Lw). eexists. eexists. split; [eapply flat_cons; [exact Ew|exact Fb]|].
    rewrite app_length, Lw, Lb. cbn [length]. split; [lia|]. destruct w; lia. }
  assert (Long : forall k hops, HopTable_new rng low high num_freqs SEED = Ret hops -> panics_after hops (map Some k) -> length k < length message ->
     raises (py_collect (let? hops := HopTable_new rng low high num_freqs SEED in Ret (iflat_map tt f (izip (of_list message) hops))))).
  { intros k hops Eh Ph Lk. rewrite Eh. cbn [bind].
    pose proof (izip_panics _ _ _ _ (of_list_yields message) Ph Lk) as Pz.
    destruct (Fl (combine message k)) as (bs & e & Fb & _ & Le). rewrite combine_length in Le.
    eapply py_raises_late; [reflexivity|]. eapply iflat_panics_source; [exact Pz|exact Fb|]. lia. }
  assert (Short : forall hops z, HopTable_new rng low high num_freqs SEED = Ret hops -> yields (izip (of_list message) hops) z -> length z = length message ->
     exists w, returns (py_collect (let? hops := HopTable_new rng low high num_freqs SEED in Ret (iflat_map tt f (izip (of_list message) hops)))) w /\
       length w = length message * sps).
  { intros hops z Eh Yz Lz. rewrite Eh. cbn [bind]. destruct (Fl z) as (bs & e & Fb & Lb & Le). exists bs. rewrite <- Lz.
    split; [|exact Lb]. eapply py_returns; [reflexivity|]. eapply iflat_yields; [exact Yz|exact Fb|]. rewrite Lz in Le. lia. }
  destruct (Nat.le_gt_cases 2 num_freqs) as [H2|H2].
  { destruct (hops_stream rng low high num_freqs SEED H2) as (hops & h & Eh & Sh & _).
    split; [intros N; exfalso; apply N; split; [exact D|split; [exact B|left; exact H2]]|intros _].
    eapply (Short hops); [exact Eh|apply izip_stream_yields; [apply of_list_yields|exact Sh]|apply zip_stream_length]. }
  assert (Hk : exists hops k, HopTable_new rng low high num_freqs SEED = Ret hops /\ panics_after hops (map Some k) /\ length k = num_freqs).
  { destruct (C39_hop_panics F64 num rng low high SEED) as [(i0 & E0 & P0) (i1 & E1 & P1)].
    destruct num_freqs as [|[|?]]; [| |lia].
    - exists i0, []. auto.
    - exists i1. eexists [_]. split; [exact E1|]. split; [exact P1|reflexivity]. }
  destruct Hk as (hops & k & Eh & Ph & Lk).
  destruct (Nat.le_gt_cases (length message) num_freqs) as [H3|H3].
  - split; [intros N; exfalso; apply N; split; [exact D|split; [exact B|right; exact H3]]|intros _].
    eapply (Short hops); [exact Eh|eapply izip_short; [apply of_list_yields|exact Ph|lia]|]. rewrite combine_length. lia.
  - split; [intros _; apply (Long k hops Eh Ph); lia|]. intros (_ & _ & [A|A]); lia.
Qed.
End Calls.

(** The receivers of BPSK and QPSK check nothing either: below one sample per symbol they never end,
    even without a signal. *)
Theorem C66_rx_bpsk (signal : list F64) (sample_rate symbol_rate : nat) (fc : F64) :
  let call := py_rx_bpsk signal sample_rate symbol_rate fc in
  (symbol_rate = 0 -> raises call) /\ (sample_rate < symbol_rate -> hangs call) /\
  (1 <= symbol_rate <= sample_rate -> exists bits, returns call bits /\ length bits = length signal / (sample_rate / symbol_rate)).
Proof.
  intros call. unfold call, py_rx_bpsk. split; [|split].
  - intros ->. apply py_raises. reflexivity.
  - intros Hl. unfold rx_bpsk_signal. rewrite usize_div_intro by lia. rewrite Nat.div_small by exact Hl. cbn [bind].
    eapply py_hangs; [reflexivity|]. apply imap_streams. apply integrate_and_dump0.
  - intros Hr. destruct (rx_bpsk_intro (of_list signal) sample_rate symbol_rate fc ltac:(lia) ltac:(apply Nat.div_le_lower_bound; lia)) as (rx & Er & _ & Y).
    eexists. split; [eapply py_returns; [exact Er|exact (Y signal (nofZ 0) (of_list_yields _))]|]. apply tab_length.
Qed.
Theorem C66_rx_qpsk (signal : list F64) (sample_rate symbol_rate : nat) (fc : F64) :
  let call := py_rx_qpsk signal sample_rate symbol_rate fc in
  (symbol_rate = 0 -> raises call) /\ (sample_rate < symbol_rate -> hangs call) /\
  (1 <= symbol_rate <= sample_rate -> exists bits, returns call bits /\ length bits = 2 * (length signal / (sample_rate / symbol_rate))).
Proof.
  intros call. unfold call, py_rx_qpsk. split; [|split].
  - intros ->. apply py_raises. reflexivity.
  - intros Hl. unfold rx_qpsk_signal. rewrite usize_div_intro by lia. rewrite Nat.div_small by exact Hl. cbn [bind].
    eapply flat_hangs; [reflexivity|apply C07_ndump_zero_endless|]. intros n. discriminate.
  - intros Hr. unfold rx_qpsk_signal. rewrite usize_div_intro by lia. cbn [bind].
    set (sps := sample_rate / symbol_rate). assert (H1 : 1 <= sps) by (apply Nat.div_le_lower_bound; lia).
    match goal with |- context [nintegrate_and_dump 2 ?z ?a sps ?it] => set (rows := it); pose (d := z); pose (add := a) end.
    assert (Yr : exists l, yields rows l /\ length l = length signal).
    { eexists. split; [apply imap_yields, ienum_yields, of_list_yields|]. rewrite map_length. unfold index_from.
      rewrite combine_length, seq_length. apply Nat.min_id. }
    destruct Yr as (l & Yl & Ll). rewrite <- Ll.
    pose proof (integrate_and_dump_yields (repeat d 2) (lanes_add add) sps rows l H1 Yl) as Yd.
    assert (L2 : forall r, In r (dump_list (repeat d 2) (lanes_add add) sps l) -> length r = 2).
    { intros r Hin. unfold dump_list in Hin. apply in_map_iff in Hin. destruct Hin as (i & <- & _). rewrite fold_lanes_length. reflexivity. }
    assert (LL : length (dump_list (repeat d 2) (lanes_add add) sps l) = length l / sps) by (unfold dump_list; rewrite map_length, seq_length; reflexivity).
    rewrite <- LL.
    eexists. split; [eapply py_returns; [reflexivity|]; apply iflat_pure_yields; [exact Yd|]|].
    + intros r Hin. specialize (L2 r Hin). destruct r as [|x [|y [|? ?]]]; try discriminate.
    + clear LL Yd. induction (dump_list _ _ _ _) as [|r rs IH]; [reflexivity|]. cbn [flat_map length].
      rewrite app_length, IH by (intros; apply L2; right; assumption). specialize (L2 r (or_introl eq_refl)).
      destruct r as [|x [|y [|? ?]]]; try discriminate. cbn [length]. lia.
Qed.

(** The OFDM receiver checks the rate and the carriers, and a zero sample rate raises. *)
Theorem C66_rx_ofdm (fft : Fft F64) (signal : list F64) (N P sample_rate symbol_rate : nat) (fc : F64) :
  (Z.of_nat sample_rate < 2 ^ 53)%Z -> (Z.of_nat symbol_rate < 2 ^ 53)%Z ->
  ~ (divides_rate sample_rate symbol_rate /\ 1 <= P <= N /\ 1 <= sample_rate) ->
  raises (py_rx_ofdm fft signal N P sample_rate symbol_rate fc).
Proof.
  intros Hsr Hsy Nn. pose proof (rate_check _ _ Hsr Hsy) as HI. unfold py_rx_ofdm.
  destruct (is_int (ndiv (nofnat sample_rate) (nofnat symbol_rate))) eqn:E2.
  2: { apply py_raises. unfold rx_ofdm_qpsk_signal. rewrite E2. reflexivity. }
  assert (D : divides_rate sample_rate symbol_rate) by (apply HI; reflexivity).
  destruct (Nat.eq_dec P 0) as [HP|HP]; [|destruct (Nat.le_gt_cases P N) as [HL|HL]].
  1, 3: (apply py_raises; unfold rx_ofdm_qpsk_signal; rewrite E2; cbn [assert_then]; rewrite usize_div_intro by apply D; cbn [bind];
         rewrite (fun s => proj2 (C42_bad_counts_panic F64 num fft s N P ltac:(lia))); reflexivity).
  assert (sample_rate = 0) by (destruct sample_rate; [reflexivity|exfalso; apply Nn; repeat split; [apply D|apply D|lia|exact HL|lia]]).
  subst sample_rate. unfold rx_ofdm_qpsk_signal. rewrite E2. cbn [assert_then]. rewrite usize_div_intro by apply D. rewrite Nat.div_0_l by apply D. cbn [bind].
  unfold rx_baseband_ofdm_signal, usize_sub. rewrite (proj2 (Nat.leb_le P N) HL). cbn [bind].
  rewrite carriers_eq by lia. cbn [bind].
  eapply (py_raises_late _ _ []); [reflexivity|]. apply (iflat_source_panics _ _ []); [|contradiction].
  apply (iflat_panics_source _ _ _ [] [] 0); [|constructor|reflexivity].
  eexists. split; [reflexivity|]. replace (N + N / 4) with (S (N - 1 + N / 4)) by lia. reflexivity.
Qed.

(** A chirp has sample_rate / chirp_rate samples, rounded down. *)
Theorem C66_chirp (chirp_rate : F64) (sample_rate : nat) (f0 f1 : F64) :
  exists w, returns (py_chirp chirp_rate sample_rate f0 f1) w /\
    Z.of_nat (length w) = f64_to_u64 (Bdiv mode_NE (f64_ofZ (Z.of_nat sample_rate)) chirp_rate).
Proof.
  eexists. split; [eapply py_returns; [reflexivity|apply imap_yields, linspace_tab]|].
  rewrite map_length, tab_length. rewrite Z2Nat.id; [reflexivity|].
  change (0 <= f64_to_u64 (Bdiv mode_NE (f64_ofZ (Z.of_nat sample_rate)) chirp_rate))%Z.
  unfold f64_to_u64, clamp_u64, u64_max. destruct (Bdiv _ _ _) as [?|[]| |]; lia.
Qed.
End Rates.

(** ** C67 *)

Lemma returns_make {A} make (w : list A) : returns (py_collect make) w -> exists it, make = Ret it.
Proof.
  intros [n Hn]. specialize (Hn n (le_n n)). unfold py_collect in Hn. destruct make as [it| |]; [|discriminate|discriminate].
  exists it. reflexivity.
Qed.
Lemma returns_yields {A} make it (w l : list A) : returns (py_collect make) w -> make = Ret it -> yields it l -> w = l.
Proof. intros R E Y. exact (proj1 (ends_once _) _ _ R (py_returns make it l E Y)). Qed.

(** What [tx_bpsk] returned, [rx_bpsk] turns back into the message, with two samples per symbol. *)
Theorem C67_bpsk_exact :
  forall (message : list bool) (sample_rate symbol_rate : nat) (fc : R) w,
    returns (py_tx_bpsk message sample_rate symbol_rate fc) w -> 2 * symbol_rate <= sample_rate ->
    returns (py_rx_bpsk w sample_rate symbol_rate fc) message.
Proof.
  intros m sr sy fc w Hw H2. destruct (returns_make _ _ Hw) as [tx Et].
  destruct (tx_bpsk_inv _ _ _ _ _ Et) as (Hy & _).
  destruct (bpsk_link _ m _ _ _ _ (of_list_yields m) Et ltac:(lia)) as (_ & _ & Yt & _).
  rewrite (returns_yields _ _ _ _ Hw Et Yt).
  destruct (C29_bpsk_exact_two_samples _ m sr sy fc tx (of_list_yields m) Et H2) as (rx & Er & Yr).
  assert (Hn : 1 <= sr / sy) by (apply Nat.div_le_lower_bound; lia).
  destruct (rx_bpsk_intro tx sr sy fc Hy Hn) as (rx1 & Er1 & _ & Y1).
  destruct (rx_bpsk_intro (of_list (bpsk_wave sr fc (sr / sy) m)) sr sy fc Hy Hn) as (rx2 & Er2 & _ & Y2).
  specialize (Y1 _ 0%R Yt). specialize (Y2 _ 0%R (of_list_yields _)).
  rewrite Er in Er1. apply Ret_inj in Er1. subst rx1. rewrite <- (yields_det _ _ _ Yr Y1) in Y2.
  eapply py_returns; [exact Er2|exact Y2].
Qed.

(** In binary64, wherever the carrier samples are not NaN and every symbol has one whose square is positive. *)
Theorem C67_bpsk_f64 :
  forall (libm : Libm) (message : list bool) (sample_rate symbol_rate : nat) (fc : F64) w,
    let num := NumF libm in
    let carrier i := libm_cos libm (nofZ 2 * npi * fc * (nofnat i / nofnat sample_rate))%num in
    let sps := sample_rate / symbol_rate in
    returns (py_tx_bpsk message sample_rate symbol_rate fc) w -> symbol_rate <= sample_rate ->
    (forall i, i < length message * sps -> is_nan (carrier i) = false) ->
    (forall k, k < length message -> exists j, j < sps /\
       Bltb (f64_ofZ 0) (Bmult mode_NE (carrier (k * sps + j)) (carrier (k * sps + j))) = true) ->
    length w = length message * sps /\ returns (py_rx_bpsk w sample_rate symbol_rate fc) message.
Proof.
  intros libm m sr sy fc w num carrier sps Hw Hle Hnan Hsq. destruct (returns_make _ _ Hw) as [tx Et].
  destruct (tx_bpsk_inv _ _ _ _ _ Et) as (Hy & _).
  destruct (bpsk_link _ m _ _ _ _ (of_list_yields m) Et Hle) as (_ & _ & Yt & _).
  rewrite (returns_yields _ _ _ _ Hw Et Yt). split; [unfold bpsk_wave; apply tab_length|].
  destruct (C29_bpsk_round_trip_f64 libm _ m sr sy fc tx (of_list_yields m) Et Hle Hnan Hsq) as (rx & _ & Er & _ & _ & Yr).
  assert (Hn : 1 <= sr / sy) by (apply Nat.div_le_lower_bound; lia).
  destruct (rx_bpsk_intro tx sr sy fc Hy Hn) as (rx1 & Er1 & _ & Y1).
  destruct (rx_bpsk_intro (of_list (bpsk_wave sr fc (sr / sy) m)) sr sy fc Hy Hn) as (rx2 & Er2 & _ & Y2).
  specialize (Y1 _ (f64_ofZ 0) Yt). specialize (Y2 _ (f64_ofZ 0) (of_list_yields _)).
  fold num in Er. rewrite Er in Er1. apply Ret_inj in Er1. subst rx1. rewrite <- (yields_det _ _ _ Yr Y1) in Y2.
  eapply py_returns; [exact Er2|exact Y2].
Qed.

(** QPSK, with whole half cycles of the carrier per symbol: an odd last bit is lost. *)
Theorem C67_qpsk_exact :
  forall (message : list bool) (sample_rate symbol_rate : nat) (fc : R) (half_cycles : Z),
    (1 <= symbol_rate <= sample_rate) ->
    (2 * fc * INR (sample_rate / symbol_rate) = IZR half_cycles * INR sample_rate)%R ->
    ~ (exists z : Z, 2 * fc = IZR z * INR sample_rate)%R ->
    exists w, returns (py_tx_qpsk message sample_rate symbol_rate fc) w /\
      length w = length message / 2 * (sample_rate / symbol_rate) /\
      returns (py_rx_qpsk w sample_rate symbol_rate fc) (firstn (2 * (length message / 2)) message).
Proof.
  intros m sr sy fc h Hr Hh Hz.
  destruct (C32_qpsk_round_trip _ m sr sy fc h (of_list_yields m) Hr Hh Hz) as (tx & rx & Et & Er & Yr).
  assert (Hn : 1 <= sr / sy) by (apply Nat.div_le_lower_bound; lia).
  pose proof Et as Et0. unfold tx_qpsk_signal in Et0. rewrite usize_div_intro in Et0 by lia. cbn [bind] in Et0. apply Ret_inj in Et0.
  pose proof (tx_qpsk_yields sr fc (of_list m) m (sr / sy) Hn (of_list_yields m)) as Yt.
  assert (Yw : yields tx (qpsk_wave sr fc (sr / sy) (pairs m))) by (rewrite <- Et0; exact Yt). clear Yt Et0.
  exists (qpsk_wave sr fc (sr / sy) (pairs m)). split; [eapply py_returns; [exact Et|exact Yw]|].
  unfold qpsk_wave in *. rewrite (pairs_length (length m) m eq_refl) in *. split; [apply tab_length|].
  destruct (rx_qpsk_intro tx sr sy fc ltac:(lia) Hn) as (rx1 & Er1 & Y1).
  match goal with |- returns (py_rx_qpsk ?w _ _ _) _ => destruct (rx_qpsk_intro (of_list w) sr sy fc ltac:(lia) Hn) as (rx2 & Er2 & Y2) end.
  specialize (Y1 _ _ Yw). specialize (Y2 _ _ (of_list_yields _)).
  rewrite Er in Er1. apply Ret_inj in Er1. subst rx1. eapply py_returns; [exact Er2|].
  rewrite (yields_det _ _ _ Yr Y1). exact Y2.
Qed.

(** OFDM with the exact transform: the message comes back, followed by less than a block of padding. *)
Theorem C67_ofdm_exact :
  forall (message : list bool) N P sample_rate symbol_rate fc (cycles : Z),
    let sps := sample_rate / symbol_rate in
    Nat.even N = true -> 1 <= P < N -> 1 <= symbol_rate -> sample_rate mod symbol_rate = 0 -> (Z.of_nat sample_rate < 2 ^ 64)%Z ->
    12 <= sps -> (fc * INR sps = IZR cycles * INR sample_rate)%R -> ~ (exists z : Z, 2 * fc = IZR z * INR sample_rate)%R ->
    exists w extra, returns (py_tx_ofdm exact_fft message N P sample_rate symbol_rate fc) w /\
      returns (py_rx_ofdm exact_fft w N P sample_rate symbol_rate fc) (firstn (2 * (length message / 2)) message ++ extra) /\
      length extra < 2 * (N - P).
Proof.
  intros m N P sr sy fc h L He HP Hy Hm Hs HL Hc Hz.
  destruct (C45_passband_round_trip _ m N P sr sy fc h He HP (of_list_yields m) Hy Hm Hs HL Hc Hz) as (tx & rx & extra & Et & Er & Yr & Lx).
  assert (Hsr : 1 <= sr) by (destruct sr; [unfold L in HL; rewrite Nat.div_0_l in HL by lia; lia|lia]).
  destruct (tx_front (of_list m) m N P sr sy fc He HP Hy Hm Hsr Hs (of_list_yields m)) as (tx1 & F & Et1 & _ & Yt).
  rewrite Et in Et1. apply Ret_inj in Et1. subst tx1.
  match type of Yt with yields _ ?l => set (w := l) in * end.
  exists w, extra. split; [eapply py_returns; [exact Et|exact Yt]|]. split; [|exact Lx].
  destruct (C45_receiver_one_sample_late exact_fft tx _ _ N P sr sy fc HP Hy Hm Hs ltac:(fold L; lia) Yt) as (c1 & rx1 & Ec1 & Er1 & Y1).
  destruct (C45_receiver_one_sample_late exact_fft (of_list w) _ _ N P sr sy fc HP Hy Hm Hs ltac:(fold L; lia) (of_list_yields w)) as (c2 & rx2 & Ec2 & Er2 & Y2).
  rewrite Er in Er1. apply Ret_inj in Er1. subst rx1. rewrite Ec1 in Ec2. apply Ret_inj in Ec2. subst c2.
  eapply py_returns; [exact Er2|]. rewrite (yields_det _ _ _ Yr Y1). exact Y2.
Qed.

(** ** C68 *)

Definition sign (b : bool) : R := if b then 1%R else (-1)%R.

(** The samples [tx_cdma_bpsk] returns: the message times a square wave of half period [chip], times the carrier. *)
Theorem C68_alternating_chips :
  forall (message : list bool) (sample_rate symbol_rate : nat) (fc : R) w,
    let sps := sample_rate / symbol_rate in let chip := sps / 16 in
    returns (py_tx_cdma_bpsk message sample_rate symbol_rate fc) w ->
    2 <= chip /\ sps = 16 * chip /\ length w = length message * sps /\
    forall i b, nth_error message (i / sps) = Some b ->
      nth_error w i = Some (sign b * sign (Nat.even (i / chip)) * cos (2 * PI * fc * (INR i / INR sample_rate)))%R.
Proof.
  intros m sr sy fc w sps chip Hw. unfold py_tx_cdma_bpsk in Hw. destruct py_key as (M & EM & EK). rewrite EM in Hw. cbn [bind] in Hw.
  rewrite EK in Hw. cbn [bind] in Hw. destruct (returns_make _ _ Hw) as [tx Et].
  pose proof Et as E0. unfold tx_cdma_bpsk_signal in E0.
  remember (tab 16 Nat.even) as key eqn:Ek. clear EM EK. assert (LK : length key = 16) by (rewrite Ek; reflexivity).
  destruct (cdma_rates sr sy fc key) as [p| |] eqn:Ep; try discriminate.
  destruct (cdma_rates_inv _ _ _ _ _ Ep) as (-> & Hy & Hk & Hr & Hc & _). cbn [bind] in E0. rewrite LK in *. fold sps chip in Hc, E0, Ep.
  destruct (tx_bpsk_signal (of_list m) sr sy fc) as [tx0| |] eqn:Et0; try discriminate. cbn [bind] in E0. apply Ret_inj in E0.
  assert (Hs : sps = 16 * chip) by (pose proof (cdma_rates_R_divide _ _ _ _ _ Ep) as D; rewrite LK in D; unfold chip, sps; lia).
  destruct (tx_bpsk_inv _ _ _ _ _ Et0) as (_ & _ & _ & Y0). specialize (Y0 ltac:(fold sps; lia) _ (of_list_yields m)). fold sps in Y0. unfold bpsk_wave in Y0.
  pose proof (chip_mul_yields chip key tx0 _ _ ltac:(lia) Hk Y0) as Y. rewrite E0 in Y.
  rewrite (returns_yields _ _ _ _ Hw Et Y). split; [exact Hc|]. split; [exact Hs|]. split; [apply tab_length|].
  intros i b Hb. rewrite tab_nth_error.
  assert (Hi : i < length m * sps).
  { assert (L : i / sps < length m) by (apply nth_error_Some; congruence). apply Nat.nle_gt. intros G. apply Nat.lt_nge in L. apply L.
    apply Nat.div_le_lower_bound; lia. }
  rewrite (proj2 (Nat.ltb_lt _ _) Hi). f_equal. rewrite (nth_error_nth _ _ false Hb), LK, Ek.
  assert (Hm : (i / chip) mod 16 < 16) by (apply Nat.mod_upper_bound; lia).
  rewrite (tab_nth 16 Nat.even _ _ Hm).
  assert (Ev : Nat.even ((i / chip) mod 16) = Nat.even (i / chip)).
  { pose proof (Nat.div_mod (i / chip) 16 ltac:(lia)) as D. rewrite D at 2.
    replace (16 * (i / chip / 16) + (i / chip) mod 16) with ((i / chip) mod 16 + 2 * (8 * (i / chip / 16))) by lia.
    rewrite Nat.even_add_mul_2. reflexivity. }
  rewrite Ev. unfold ccos, phase_at, nofnat. cbn [nmul ndiv ncos npi nofZ NumR]. rewrite <- !INR_IZR_INZ.
  destruct b, (Nat.even (i / chip)); cbn; ring.
Qed.

(** The BPSK receiver without the key sees nothing of it: with whole half cycles of the carrier per
    chip every correlation is 0 and every bit is read as false. *)
Theorem C68_plain_receiver_blind :
  forall (message : list bool) (sample_rate symbol_rate : nat) (fc : R) (half_cycles : Z) w,
    returns (py_tx_cdma_bpsk message sample_rate symbol_rate fc) w ->
    (2 * fc * INR (sample_rate / symbol_rate / 16) = IZR half_cycles * INR sample_rate)%R ->
    ~ (exists z : Z, 2 * fc = IZR z * INR sample_rate)%R ->
    returns (py_rx_bpsk w sample_rate symbol_rate fc) (repeat false (length message)).
Proof.
  intros m sr sy fc h w Hw Hh Hz.
  destruct (C68_alternating_chips m sr sy fc w Hw) as (Hc & Hs & Lw & Sw).
  set (sps := sr / sy) in *. set (chip := sps / 16) in *.
  assert (Hy : sy <> 0) by (intros ->; unfold chip, sps in Hc; cbn in Hc; lia).
  assert (Hsr : 1 <= sr) by (destruct sr; [unfold chip, sps in Hc; rewrite Nat.div_0_l in Hc by exact Hy; cbn in Hc; lia|lia]).
  destruct (rx_bpsk_intro (of_list w) sr sy fc Hy ltac:(fold sps; lia)) as (rx & Er & _ & Yr).
  specialize (Yr w 0%R (of_list_yields w)). fold sps in Yr. rewrite Lw, Nat.div_mul in Yr by lia.
  eapply py_returns; [exact Er|]. refine (eq_ind _ (fun z => yields _ z) Yr _ _).
  rewrite repeat_tab. apply tab_ext. intros k Hk. rewrite corr_R.
  destruct (nth_error m k) as [b|] eqn:Eb; [|apply nth_error_None in Eb; lia].
  assert (Z0 : Rsum_n sps (fun j => nmul (nth (k * sps + j) w 0%R) (ccos sr fc (k * sps + j))) = 0%R).
  { rewrite Hs at 1. rewrite Rsum_n_mul.
    rewrite (Rsum_n_ext 16 _ (fun c => sign b * (INR chip / 2) * sign (Nat.even c))%R).
    - rewrite Rsum_n_scale. unfold Rsum_n, Rsum, sign. cbn [seq map fold_right Nat.even]. ring.
    - intros c Hcc. rewrite <- (half_energy sr fc chip h (k * sps + c * chip) Hsr Hh Hz).
      rewrite Rmult_comm, <- Rmult_assoc, (Rmult_comm _ (sign b)), <- Rsum_n_scale.
      apply Rsum_n_ext. intros j Hj.
      assert (Hi : (k * sps + (c * chip + j)) / sps = k) by (apply block_div; nia).
      pose proof (Sw (k * sps + (c * chip + j)) b) as S1. rewrite Hi in S1. specialize (S1 Eb).
      rewrite (nth_error_nth _ _ 0%R S1).
      replace ((k * sps + (c * chip + j)) / chip) with (16 * k + c).
      2: { rewrite Hs. replace (k * (16 * chip) + (c * chip + j)) with ((16 * k + c) * chip + j) by lia. symmetry. apply block_div. exact Hj. }
      replace (Nat.even (16 * k + c)) with (Nat.even c).
      2: { replace (16 * k + c) with (c + 2 * (8 * k)) by lia. rewrite Nat.even_add_mul_2. reflexivity. }
      rewrite Nat.add_assoc. unfold ccos, phase_at, nofnat. cbn [nmul ndiv ncos npi nofZ NumR]. rewrite <- !INR_IZR_INZ. ring. }
  rewrite Z0. cbn [nltb nofZ NumR]. destruct (Rlt_dec 0 0); [lra|reflexivity].
Qed.

(** ** Cases *)

(** 2 symbols a second at 8 samples a second return 12 samples for 3 bits; at 0 samples a second the call
    never ends; at 9 it raises. *)
Example C66_example (libm : Libm) : let num := NumF libm in
  (exists w, returns (py_tx_bpsk [true; false; true] 8 2 (f64_ofZ 1)) w /\ length w = 12) /\
  hangs (py_tx_bpsk [true] 0 2 (f64_ofZ 0)) /\
  raises (py_tx_bpsk [true] 9 2 (f64_ofZ 1)) /\
  hangs (py_tx_qpsk [true; false] 1 2 (f64_ofZ 1)) /\
  hangs (py_rx_bpsk [] 1 2 (f64_ofZ 1)).
Proof.
  intros num. split; [|split; [|split; [|split]]].
  - apply (C66_tx_bpsk libm [true; false; true] 8 2 eq_refl eq_refl (f64_ofZ 1)); [|left; cbn; lia].
    split; [split; [lia|exists 4; reflexivity]|right; vm_compute; reflexivity].
  - apply (C66_tx_bpsk libm [true] 0 2 eq_refl eq_refl (f64_ofZ 0)); [|reflexivity|cbn; lia].
    split; [split; [lia|exists 0; reflexivity]|right; vm_compute; reflexivity].
  - apply (C66_tx_bpsk libm [true] 9 2 eq_refl eq_refl (f64_ofZ 1)). intros [[_ [q Hq]] _]. lia.
  - apply (C66_tx_qpsk libm [true; false] 1 2 (f64_ofZ 1)); [lia|reflexivity|cbn; lia].
  - apply (C66_rx_bpsk libm [] 1 2 (f64_ofZ 1)). lia.
Qed.

Lemma rates_case : cdma_rates 32 1 8%R (tab 16 Nat.even) = Ret (32, 2).
Proof.
  change (Ret (32, 2)) with (@Ret (nat * nat) (32 / 1, 32 / 1 / length (tab 16 Nat.even))).
  apply cdma_rates_R_intro; [lia|discriminate|cbn; lia|exists 2; reflexivity|cbn; unfold u64_max; lia|cbn; lra].
Qed.
Example C68_example : exists w, returns (py_tx_cdma_bpsk [true; false] 32 1 8%R) w /\
  returns (py_rx_bpsk w 32 1 8%R) [false; false].
Proof.
  assert (E : exists tx w, tx_cdma_bpsk_signal (of_list [true; false]) 32 1 8%R (tab 16 Nat.even) = Ret tx /\ yields tx w).
  { destruct (cdma_rates_inv _ _ _ _ _ rates_case) as (_ & _ & Hk & _ & _ & Hn & Hi).
    unfold tx_cdma_bpsk_signal, tx_bpsk_signal. rewrite rates_case. cbn [bind]. rewrite usize_div_intro by lia. cbn [bind]. rewrite Hn, Hi.
    cbn [assert_then bind]. eexists. eexists. split; [reflexivity|]. apply chip_mul_yields; [lia|exact Hk|].
    apply (tx_bpsk_yields 32 8%R (of_list [true; false]) [true; false] 32); [lia|apply of_list_yields]. }
  destruct E as (tx & w & Et & Yt). destruct py_key as (M & EM & EK).
  assert (Rw : returns (py_tx_cdma_bpsk [true; false] 32 1 8%R) w).
  { eapply py_returns; [|exact Yt]. rewrite EM. cbn [bind]. rewrite EK. exact Et. }
  exists w. split; [exact Rw|].
  apply (C68_plain_receiver_blind [true; false] 32 1 8%R 1 w Rw).
  - replace (INR (32 / 1 / 16)) with 2%R by (cbn; lra). replace (INR 32) with 32%R by (cbn; lra). lra.
  - intros (z & H). replace (INR 32) with 32%R in H by (cbn; lra).
    assert (0 < z)%Z by (apply lt_IZR; lra). assert (z < 1)%Z by (apply lt_IZR; lra). lia.
Qed.

Example C67_example : exists w, returns (py_tx_bpsk [true; false; true] 32 1 8%R) w /\
  returns (py_rx_bpsk w 32 1 8%R) [true; false; true].
Proof.
  destruct (cdma_rates_inv _ _ _ _ _ rates_case) as (_ & _ & _ & _ & _ & Hn & Hi).
  assert (E : exists tx, tx_bpsk_signal (of_list [true; false; true]) 32 1 8%R = Ret tx).
  { unfold tx_bpsk_signal. rewrite usize_div_intro by lia. cbn [bind]. rewrite Hn, Hi. eexists. reflexivity. }
  destruct E as [tx Et]. destruct (bpsk_link _ _ _ _ _ _ (of_list_yields _) Et ltac:(lia)) as (_ & _ & Yt & _).
  pose proof (py_returns _ _ _ Et Yt) as Rw. eexists. split; [exact Rw|]. apply (C67_bpsk_exact _ _ _ _ _ Rw). lia.
Qed.

Example C67_ofdm_example : exists w extra, returns (py_tx_ofdm exact_fft [true; false; false] 8 3 48 4 4%R) w /\
  returns (py_rx_ofdm exact_fft w 8 3 48 4 4%R) ([true; false] ++ extra).
Proof.
  destruct C45_rates as (_ & H1 & H2).
  destruct (C67_ofdm_exact [true; false; false] 8 3 48 4 4%R 1 eq_refl ltac:(lia) ltac:(lia) eq_refl ltac:(lia) ltac:(cbn; lia) H1 H2)
    as (w & extra & Rt & Rr & _).
  exists w, extra. auto.
Qed.

(** ** Axioms used *)
Print Assumptions C66_tx_bpsk.
Print Assumptions C66_tx_qpsk.
Print Assumptions C66_tx_bfsk.
Print Assumptions C66_tx_csk.
Print Assumptions C66_tx_dcsk.
Print Assumptions C66_tx_cdma_bpsk.
Print Assumptions C66_tx_ofdm.
Print Assumptions C66_tx_fh_ofdm_dcsk.
Print Assumptions C66_tx_fh_css.
Print Assumptions C66_rx_bpsk.
Print Assumptions C66_rx_qpsk.
Print Assumptions C66_rx_ofdm.
Print Assumptions C66_chirp.
Print Assumptions C67_bpsk_exact.
Print Assumptions C67_bpsk_f64.
Print Assumptions C67_qpsk_exact.
Print Assumptions C67_ofdm_exact.
Print Assumptions C68_alternating_chips.
Print Assumptions C68_plain_receiver_blind.
