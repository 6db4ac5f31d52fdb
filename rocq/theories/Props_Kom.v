(** Properties C69-C71: the BPSK, QPSK and CDMA functions of the Python package kom_py. *)
From Coq Require Import List Arith ZArith Reals Bool Lia Lra Psatz.
From Verif Require Import Base IterTheory IterModel IterProofs Spec SpecR Tab Num LibModel LibReal RSums PskModel PskChain PskReal CdmaModel
  OfdmModel PyModel KomModel KomProofs Props_Psk Props_Cdma Props_Fh Props_Py.
Import ListNotations.
Local Open Scope R_scope.

Definition pm (b : bool) : R := if b then 1 else -1.
Definition carrier (fs : nat) (fc : R) (i : nat) : R := cos (2 * PI * fc * (INR i / INR fs)).
(** What every function of psk.py asserts of the rates. *)
Definition rates_ok (fs sr : nat) (fc : R) : Prop := (1 <= sr)%nat /\ Nat.divide sr fs /\ fc <= INR fs / 2.

Lemma kom_rates_ok fs sr fc : rates_ok fs sr fc -> kom_rates fs sr fc = Ret (fs / sr)%nat.
Proof.
  intros (H1 & H2 & H3). rewrite kom_rates_R. replace (sr =? 0)%nat with false by (symmetry; apply Nat.eqb_neq; lia).
  destruct (Rle_dec fc (INR fs / 2)); [|contradiction]. apply Nat.mod_divide in H2; [|lia]. rewrite H2. reflexivity.
Qed.
Lemma kom_rates_bad fs sr fc : ~ rates_ok fs sr fc -> kom_rates fs sr fc = Panic.
Proof.
  intros H. rewrite kom_rates_R. destruct (Nat.eqb_spec sr 0); [reflexivity|]. destruct (Rle_dec fc (INR fs / 2)); [|reflexivity].
  destruct (Nat.eqb_spec (fs mod sr) 0) as [E|]; [|reflexivity]. exfalso. apply H. repeat split; [lia| |assumption].
  apply Nat.mod_divide; assumption.
Qed.

Lemma tx_bpsk_tab data fs sr fc : rates_ok fs sr fc ->
  kom_tx_bpsk data fs sr fc = Ret (tab (length data * (fs / sr)) (fun i => pm (nth (i / (fs / sr)) data false) * carrier fs fc i)).
Proof.
  intros H. unfold kom_tx_bpsk. rewrite (kom_rates_ok _ _ _ H). cbn [bind]. f_equal.
  rewrite <- (tab_nth_id data false) at 1. rewrite tab_map, np_repeat_tab, index_map_tab. apply tab_ext. intros i _.
  unfold carrier, pm, bit_to_nrz, nofnat. cbn [nmul ncos nofZ npi ndiv nopp NumR]. rewrite <- !INR_IZR_INZ.
  destruct (nth _ data false); reflexivity.
Qed.

Lemma correlate_sum (signal : list R) n fs fc : signal <> [] -> (1 <= n)%nat ->
  kom_correlate signal n fs fc =
  Ret (tab ((length signal + n - 2) / n) (fun k => gt0 (late n k (length signal) (fun i => nth i signal 0 * carrier fs fc i)))).
Proof.
  intros Hs Hn. unfold kom_correlate. rewrite <- (tab_nth_id signal 0) at 1. rewrite index_map_tab.
  rewrite <- correlate_tab; [|destruct signal; [contradiction|cbn; lia]|exact Hn].
  replace (tab (length signal) (fun i => nmul (nth i signal 0) (ncos (nmul (nmul (nmul (nofZ 2) npi) fc) (ndiv (nofnat i) (nofnat fs))))))
    with (tab (length signal) (fun i => nth i signal 0 * carrier fs fc i)); [reflexivity|].
  apply tab_ext. intros i _. unfold carrier, nofnat. cbn [nmul ncos nofZ npi ndiv NumR]. rewrite <- !INR_IZR_INZ. reflexivity.
Qed.

(** ** C69: BPSK *)

(** Every check of the transmitter, and every sample. *)
Theorem C69_tx :
  forall (data : list bool) (fs sr : nat) (fc : R),
    (~ rates_ok fs sr fc -> kom_tx_bpsk data fs sr fc = Panic) /\
    (rates_ok fs sr fc -> exists w, kom_tx_bpsk data fs sr fc = Ret w /\ length w = (length data * (fs / sr))%nat /\
       forall i b, nth_error data (i / (fs / sr)) = Some b -> (i < length w)%nat ->
         nth_error w i = Some (pm b * cos (2 * PI * fc * (INR i / INR fs)))).
Proof.
  intros data fs sr fc. split.
  - intros H. unfold kom_tx_bpsk. rewrite (kom_rates_bad _ _ _ H). reflexivity.
  - intros H. rewrite (tx_bpsk_tab data fs sr fc H). eexists. split; [reflexivity|]. rewrite tab_length. split; [reflexivity|].
    intros i b Hb Hi. rewrite tab_nth_error. apply Nat.ltb_lt in Hi. rewrite Hi. rewrite (nth_error_nth _ _ _ Hb). reflexivity.
Qed.

(** The receiver on any signal: bit k is the sign of the correlation over samples k n + 1 ... (k+1) n,
    one sample later than symbol k. *)
Theorem C69_rx :
  forall (signal : list R) (fs sr : nat) (fc : R), let n := (fs / sr)%nat in
    (~ rates_ok fs sr fc \/ signal = [] \/ n = 0%nat -> kom_rx_bpsk signal fs sr fc = Panic) /\
    (rates_ok fs sr fc -> signal <> [] -> (1 <= n)%nat ->
       exists bits, kom_rx_bpsk signal fs sr fc = Ret bits /\ length bits = ((length signal + n - 2) / n)%nat /\
         forall k b, nth_error bits k = Some b ->
           (b = true <-> 0 < Rsum_n n (fun j => nth (k * n + 1 + j) signal 0 * carrier fs fc (k * n + 1 + j)))).
Proof.
  intros signal fs sr fc n. split.
  - intros H. unfold kom_rx_bpsk. destruct (kom_rates fs sr fc) as [m| |] eqn:E; try reflexivity.
    + assert (m = n /\ rates_ok fs sr fc) as [-> OK].
      { rewrite kom_rates_R in E. destruct (Nat.eqb_spec sr 0) as [|N0]; [discriminate|]. destruct (Rle_dec fc (INR fs / 2)) as [Hle|]; [|discriminate].
        destruct (Nat.eqb_spec (fs mod sr) 0) as [M|]; [|discriminate]. injection E as <-. split; [reflexivity|].
        repeat split; [lia|apply Nat.mod_divide; assumption|exact Hle]. }
      cbn [bind]. destruct H as [H|[->|H]]; [contradiction|reflexivity|]. rewrite H. unfold kom_correlate. cbn [repeat].
      destruct (map _ (index_from 0 signal)); reflexivity.
    + exfalso. rewrite kom_rates_R in E. destruct (sr =? 0)%nat; [discriminate|]. destruct (Rle_dec fc (INR fs / 2)); [|discriminate].
      destruct (fs mod sr =? 0)%nat; discriminate.
  - intros OK Hs Hn. unfold kom_rx_bpsk. rewrite (kom_rates_ok _ _ _ OK). cbn [bind]. fold n.
    rewrite correlate_sum by assumption. eexists. split; [reflexivity|]. rewrite tab_length. split; [reflexivity|].
    intros k b E. rewrite tab_nth_error in E. destruct (Nat.ltb_spec k ((length signal + n - 2) / n)) as [Hk|]; [|discriminate].
    injection E as <-. unfold late, gt0.
    match goal with |- (if Rlt_dec 0 ?a then _ else _) = true <-> 0 < ?b => replace a with b end.
    + destruct (Rlt_dec _ _); split; intros; auto; discriminate || contradiction.
    + apply Rsum_n_ext. intros j _. destruct (Nat.ltb_spec (k * n + 1 + j) (length signal)) as [|Hge]; [reflexivity|].
      rewrite nth_overflow by exact Hge. lra.
Qed.

(** What is read of a transmitted message. *)
Lemma rx_of_tx data fs sr fc : rates_ok fs sr fc -> data <> [] -> (2 <= fs / sr)%nat ->
  let n := (fs / sr)%nat in
  exists w, kom_tx_bpsk data fs sr fc = Ret w /\
  kom_rx_bpsk w fs sr fc = Ret (tab (length data) (fun k =>
    gt0 (pm (nth k data false) * Rsum_n (n - 1) (fun j => carrier fs fc (k * n + 1 + j) * carrier fs fc (k * n + 1 + j))
         + (if (S k <? length data)%nat then pm (nth (S k) data false) * (carrier fs fc (S k * n) * carrier fs fc (S k * n)) else 0)))).
Proof.
  intros OK Hd Hn n. rewrite (tx_bpsk_tab data fs sr fc OK). eexists. split; [reflexivity|].
  assert (L0 : (1 <= length data)%nat) by (destruct data; [contradiction|cbn; lia]).
  unfold kom_rx_bpsk. rewrite (kom_rates_ok _ _ _ OK). cbn [bind]. fold n. fold n in Hn.
  rewrite correlate_sum; [|intros E; apply (f_equal (@length _)) in E; rewrite tab_length in E; cbn in E; nia|lia].
  rewrite tab_length. f_equal. apply tab_eq; [apply late_count; exact Hn|]. intros k Hk. f_equal.
  rewrite late_count in Hk by exact Hn.
  rewrite <- (late_symbols n k (length data) (fun k => pm (nth k data false)) (fun i => carrier fs fc i * carrier fs fc i)) by lia.
  unfold late. apply Rsum_n_ext. intros j Hj. destruct (Nat.ltb_spec (k * n + 1 + j) (length data * n)) as [Hlt|]; [|reflexivity].
  rewrite tab_nth by exact Hlt. ring.
Qed.

Lemma gt0_true x : gt0 x = true <-> 0 < x.
Proof. unfold gt0. destruct (Rlt_dec 0 x); split; intros; auto; discriminate || contradiction. Qed.
Lemma gt0_false x : gt0 x = false <-> x <= 0.
Proof. unfold gt0. destruct (Rlt_dec 0 x); split; intros; auto; try discriminate; lra. Qed.

(** The energy that symbol k keeps must exceed what the next symbol's first sample adds. *)
Definition keeps_energy (fs n : nat) (fc : R) (m : nat) : Prop :=
  forall k, (k < m)%nat ->
    (if (S k <? m)%nat then carrier fs fc (S k * n) * carrier fs fc (S k * n) else 0)
    < Rsum_n (n - 1) (fun j => carrier fs fc (k * n + 1 + j) * carrier fs fc (k * n + 1 + j)).

(** All messages of one length come back exactly when this holds. *)
Theorem C69_round_trip :
  forall (fs sr : nat) (fc : R) (m : nat), let n := (fs / sr)%nat in
    rates_ok fs sr fc -> (1 <= m)%nat -> (2 <= n)%nat ->
    (forall data, length data = m -> exists w, kom_tx_bpsk data fs sr fc = Ret w /\ kom_rx_bpsk w fs sr fc = Ret data)
    <-> keeps_energy fs n fc m.
Proof.
  intros fs sr fc m n OK Hm Hn.
  assert (D : forall data : list bool, length data = m -> data <> []) by (intros [|]; cbn; [lia|discriminate]).
  split.
  - intros RT k Hk.
    set (data := tab m (fun i => (i =? k)%nat)).
    assert (Ld : length data = m) by apply tab_length.
    destruct (RT data Ld) as (w & Ew & Er). destruct (rx_of_tx data fs sr fc OK (D data Ld) Hn) as (w' & Ew' & Er').
    rewrite Ew in Ew'. injection Ew' as <-. rewrite Er in Er'. apply Ret_inj in Er'.
    pose proof (f_equal (fun l => nth_error l k) Er') as F. cbv beta in F.
    assert (Dk : nth k data false = true) by (unfold data; rewrite tab_nth by exact Hk; apply Nat.eqb_refl).
    rewrite (nth_error_nth' data false) in F by (rewrite Ld; exact Hk). rewrite Dk in F.
    rewrite tab_nth_error in F. rewrite Ld in F. replace (k <? m)%nat with true in F by (symmetry; apply Nat.ltb_lt; exact Hk).
    injection F as F. symmetry in F. apply gt0_true in F. rewrite Dk in F. fold n in F. unfold pm in F.
    destruct (S k <? m)%nat eqn:E; [|lra].
    apply Nat.ltb_lt in E. assert (Ds : nth (S k) data false = false).
    { unfold data. rewrite tab_nth by exact E. apply Nat.eqb_neq. lia. }
    rewrite Ds in F. change (n + k * n)%nat with (S k * n)%nat in F. unfold pm in F. lra.
  - intros KE data Ld. destruct (rx_of_tx data fs sr fc OK (D data Ld) Hn) as (w & Ew & Er). exists w. split; [exact Ew|].
    rewrite Er. f_equal. rewrite <- (tab_nth_id data false) at 2. apply tab_ext. intros k Hk.
    specialize (KE k ltac:(lia)). fold n. rewrite Ld.
    assert (P : 0 <= (if (S k <? m)%nat then carrier fs fc (S k * n) * carrier fs fc (S k * n) else 0))
      by (destruct (S k <? m)%nat; [apply Rle_0_sqr|lra]).
    destruct (nth k data false) eqn:B; unfold pm.
    + apply gt0_true. destruct (S k <? m)%nat; [destruct (nth (S k) data false); unfold pm; lra|lra].
    + apply gt0_false. destruct (S k <? m)%nat; [destruct (nth (S k) data false); unfold pm; lra|lra].
Qed.

(** The sum over a symbol but for its first sample. *)
Lemma inner_sum fs fc n k : (1 <= n)%nat ->
  Rsum_n (n - 1) (fun j => carrier fs fc (k * n + 1 + j) * carrier fs fc (k * n + 1 + j)) =
  Rsum_n n (fun j => carrier fs fc (k * n + j) * carrier fs fc (k * n + j)) - carrier fs fc (k * n) * carrier fs fc (k * n).
Proof.
  intros Hn. pose proof (tail_sum n (fun i => carrier fs fc (k * n + i) * carrier fs fc (k * n + i)) Hn) as E. cbv beta in E.
  rewrite Nat.add_0_r in E. rewrite <- E. apply Rsum_n_ext. intros j _. rewrite Nat.add_assoc. reflexivity.
Qed.

(** Whole half-cycles in a symbol: the symbol starts on a crest. *)
Lemma crest fs n fc (h : Z) k : (1 <= fs)%nat -> 2 * fc * INR n = IZR h * INR fs ->
  carrier fs fc (k * n) * carrier fs fc (k * n) = 1.
Proof.
  intros Hf Hh. unfold carrier. rewrite cos_sq_half.
  assert (F : INR fs <> 0) by (apply not_0_INR; lia).
  replace (2 * (2 * PI * fc * (INR (k * n) / INR fs))) with (0 + 2 * PI * IZR (h * Z.of_nat k)).
  - rewrite cos_add_2pi, cos_0. lra.
  - rewrite mult_IZR, <- INR_IZR_INZ, mult_INR.
    replace (2 * (2 * PI * fc * (INR k * INR n / INR fs))) with (2 * PI * INR k * (2 * fc * INR n) / INR fs) by (field; exact F).
    rewrite Hh. field. exact F.
Qed.

(** From five samples per symbol on, the usual design works for every non-empty message. *)
Theorem C69_standard_design :
  forall (data : list bool) (fs sr : nat) (fc : R) (half_cycles : Z), let n := (fs / sr)%nat in
    rates_ok fs sr fc -> data <> [] -> (5 <= n)%nat ->
    2 * fc * INR n = IZR half_cycles * INR fs -> ~ (exists z : Z, 2 * fc = IZR z * INR fs) ->
    exists w, kom_tx_bpsk data fs sr fc = Ret w /\ kom_rx_bpsk w fs sr fc = Ret data.
Proof.
  intros data fs sr fc h n OK Hd Hn Hh Hz.
  assert (Hfs : (1 <= fs)%nat). { destruct fs; [|lia]. exfalso. unfold n in Hn. rewrite Nat.div_0_l in Hn; [lia|]. destruct OK as [? _]. lia. }
  apply (proj2 (C69_round_trip fs sr fc (length data) OK ltac:(destruct data; [contradiction|cbn; lia]) ltac:(fold n; lia))); [|reflexivity].
  fold n. intros k Hk.
  rewrite inner_sum by lia.
  unfold carrier at 3 4. rewrite (half_energy fs fc n h (k * n) Hfs Hh Hz). rewrite (crest fs n fc h k Hfs Hh).
  assert (5 <= INR n) by (change 5 with (IZR (Z.of_nat 5)); rewrite <- INR_IZR_INZ; apply le_INR; exact Hn).
  destruct (S k <? length data)%nat; [rewrite (crest fs n fc h (S k) Hfs Hh)|]; lra.
Qed.

(** At four samples per symbol the same design loses a true bit followed by a false one. *)
Theorem C69_four_samples_refuted :
  forall (fs sr : nat) (fc : R) (half_cycles : Z),
    rates_ok fs sr fc -> (fs / sr = 4)%nat ->
    2 * fc * INR 4 = IZR half_cycles * INR fs -> ~ (exists z : Z, 2 * fc = IZR z * INR fs) ->
    exists w, kom_tx_bpsk [true; false] fs sr fc = Ret w /\ kom_rx_bpsk w fs sr fc = Ret [false; false].
Proof.
  intros fs sr fc h OK Hn Hh Hz.
  assert (Hfs : (1 <= fs)%nat). { destruct fs; [|lia]. exfalso. rewrite Nat.div_0_l in Hn; [lia|]. destruct OK as [? _]. lia. }
  assert (E : forall k, Rsum_n 3 (fun j => carrier fs fc (k * 4 + 1 + j) * carrier fs fc (k * 4 + 1 + j)) = 1).
  { intros k. pose proof (inner_sum fs fc 4 k ltac:(lia)) as I. change (4 - 1)%nat with 3%nat in I. rewrite I.
    rewrite (crest fs 4 fc h k Hfs Hh). unfold carrier. rewrite (half_energy fs fc 4 h (k * 4) Hfs Hh Hz). cbn [INR]. lra. }
  destruct (rx_of_tx [true; false] fs sr fc OK ltac:(discriminate) ltac:(rewrite Hn; lia)) as (w & Ew & Er).
  exists w. split; [exact Ew|]. rewrite Er. f_equal. rewrite Hn. change (4 - 1)%nat with 3%nat. cbn [length]. unfold tab. cbn [seq map].
  rewrite !E. change (1 <? 2)%nat with true. change (2 <? 2)%nat with false. cbn [nth]; unfold pm. rewrite (crest fs 4 fc h 1 Hfs Hh).
  repeat f_equal; apply gt0_false; lra.
Qed.

(** With one sample per symbol the first bit is lost. *)
Theorem C69_one_sample_drops_first_bit :
  forall (data : list bool) (fs : nat) (fc : R), (1 <= fs)%nat -> fc <= INR fs / 2 -> data <> [] ->
    (forall i, (i < length data)%nat -> carrier fs fc i <> 0) ->
    exists w, kom_tx_bpsk data fs fs fc = Ret w /\ kom_rx_bpsk w fs fs fc = Ret (tl data).
Proof.
  intros data fs fc Hf Hc Hd Hz. assert (OK : rates_ok fs fs fc) by (repeat split; [exact Hf|apply Nat.divide_refl|exact Hc]).
  rewrite (tx_bpsk_tab data fs fs fc OK). eexists. split; [reflexivity|].
  assert (L0 : (1 <= length data)%nat) by (destruct data; [contradiction|cbn; lia]).
  unfold kom_rx_bpsk. rewrite (kom_rates_ok _ _ _ OK). cbn [bind]. rewrite Nat.div_same by lia.
  rewrite correlate_sum; [|intros E; apply (f_equal (@length _)) in E; rewrite tab_length in E; cbn in E; lia|lia].
  rewrite tab_length, Nat.mul_1_r. f_equal. transitivity (tl (tab (length data) (fun i => nth i data false))); [|rewrite tab_nth_id; reflexivity]. rewrite tl_tab.
  rewrite Nat.div_1_r. apply tab_eq; [lia|]. intros k Hk. unfold late. cbn [Rsum_n].
  replace (k * 1 + 1 + 0)%nat with (S k) by lia. replace (S k <? length data)%nat with true by (symmetry; apply Nat.ltb_lt; lia).
  rewrite tab_nth by lia. rewrite Nat.div_1_r, Rplus_0_l. pose proof (Hz (S k) ltac:(lia)) as NZ.
  assert (0 < carrier fs fc (S k) * carrier fs fc (S k)) by (apply Rsqr_pos_lt in NZ; exact NZ).
  destruct (nth (S k) data false); unfold pm; [apply gt0_true|apply gt0_false]; lra.
Qed.

(** Any arithmetic (with one cosine for both): when both return, the Rust transmitter and the Python one give the same samples. *)
Theorem C69_same_as_rust :
  forall (T : Type) (num : Num T) (data : list bool) (fs sr : nat) (fc : T) w w',
    kom_tx_bpsk data fs sr fc = Ret w -> returns (py_tx_bpsk data fs sr fc) w' -> w' = w.
Proof.
  intros T num data fs sr fc w w' Hk Hr.
  unfold kom_tx_bpsk, kom_rates, int_div in Hk. destruct (Nat.eqb_spec sr 0) as [|N0]; [discriminate|]. cbn [bind] in Hk. unfold assert_then in Hk.
  destruct (nleb fc _); [|discriminate]. destruct (fs mod sr =? 0)%nat; [|discriminate]. cbn [bind] in Hk. apply Ret_inj in Hk. subst w.
  destruct (returns_make _ _ Hr) as [it Ei].
  unfold tx_bpsk_signal in Ei. rewrite usize_div_intro in Ei by exact N0. cbn [bind] in Ei. unfold assert_then in Ei.
  destruct (nyquist_ok fs fc) eqn:E1; [|discriminate]. destruct (is_int _) eqn:E2; [|discriminate]. apply Ret_inj in Ei.
  assert (Em : tx_bpsk_signal (of_list data) fs sr fc = Ret it).
  { unfold tx_bpsk_signal. rewrite usize_div_intro by exact N0. cbn [bind]. rewrite E1, E2, <- Ei. reflexivity. }
  assert (Y : forall l, yields (inflate (fs / sr) (imap bit_to_nrz (of_list data))) l ->
     w' = map (fun '(i, d) => nmul d (ncos (nmul (nmul (nmul (nofZ 2) npi) fc) (ndiv (nofnat i) (nofnat fs))))) (index_from 0 l)).
  { intros l Yl. apply (returns_yields _ it w' _ Hr Em). rewrite <- Ei. apply imap_yields, ienum_yields, Yl. }
  pose proof (imap_yields bit_to_nrz (of_list data) data (of_list_yields data)) as Yb.
  destruct (Nat.eq_dec (fs / sr) 0) as [Z|Z].
  - destruct data as [|b data].
    + rewrite (Y []); [reflexivity|]. rewrite Z. apply inflate0_empty. exact Yb.
    + exfalso. pose proof (inflate0_streams (imap bit_to_nrz (of_list (b :: data))) (bit_to_nrz b) (map bit_to_nrz data) Yb) as St.
      rewrite <- Z in St. destruct Hr as [f0 Hr]. specialize (Hr f0 (le_n _)).
      assert (Hg : hangs (py_tx_bpsk (b :: data) fs sr fc)).
      { eapply py_hangs; [exact Em|]. rewrite <- Ei. apply imap_streams, ienum_streams, St. }
      rewrite (Hg f0) in Hr. discriminate.
  - apply Y. apply inflate_yields; [lia|exact Yb].
Qed.

(** ** C70: QPSK *)

Lemma chunk2_tab {A} (fill : A) : forall n l, (length l <= n)%nat ->
  chunk2 fill l = tab ((length l + 1) / 2) (fun k => (nth (2 * k) l fill, nth (2 * k + 1) l fill)).
Proof.
  induction n as [|n IH]; intros l Hl; [destruct l; [reflexivity|cbn in Hl; lia]|].
  destruct l as [|a [|b r]]; [reflexivity|reflexivity|]. cbn [chunk2]. cbn [length] in *. rewrite IH by lia.
  replace ((S (S (length r)) + 1) / 2)%nat with (S ((length r + 1) / 2))
    by (replace (S (S (length r)) + 1)%nat with ((length r + 1) + 1 * 2)%nat by lia; rewrite Nat.div_add by lia; lia).
  rewrite tab_S. f_equal. apply tab_ext. intros k _.
  replace (2 * S k)%nat with (S (S (2 * k))) by lia. replace (S (S (2 * k)) + 1)%nat with (S (S (2 * k + 1))) by lia. reflexivity.
Qed.

(** Number of symbols, and the two bits of symbol k, an odd last bit being paired with a false one. *)
Definition symbols (data : list bool) : nat := ((length data + 1) / 2)%nat.
Definition ibit (data : list bool) (k : nat) : bool := nth (2 * k) data false.
Definition qbit (data : list bool) (k : nat) : bool := nth (2 * k + 1) data false.

(** Baseband: the data comes back, padded to an even length. *)
Theorem C70_baseband :
  forall data : list bool,
    kom_rx_baseband_bpsk (kom_tx_baseband_bpsk data : list (cpx R)) = data /\
    kom_rx_baseband_qpsk (kom_tx_baseband_qpsk data : list (cpx R)) = data ++ repeat false (length data mod 2).
Proof.
  intros data.
  assert (P : forall b : bool, nleb (nofZ 0) (nmul (bit_to_nrz b) (nsqrt (nofZ 2))) = b).
  { intros b. unfold bit_to_nrz. cbn [nleb nmul nsqrt nofZ nopp NumR]. pose proof (sqrt_lt_R0 2 ltac:(lra)).
    destruct b, (Rle_dec _ _); auto; exfalso; nra. }
  split.
  - unfold kom_rx_baseband_bpsk, kom_tx_baseband_bpsk. rewrite map_map. transitivity (map (fun b : bool => b) data); [|apply map_id].
    apply map_ext. intros b. destruct b; cbn [re nleb nofZ nopp NumR]; destruct (Rle_dec _ _); auto; exfalso; lra.
  - unfold kom_rx_baseband_qpsk, kom_tx_baseband_qpsk.
    assert (G : forall n l, (length l <= n)%nat ->
      flat_map (fun s_i : cpx R => [nleb (nofZ 0) (re s_i); nleb (nofZ 0) (im s_i)])
       (map (fun '(b1, b2) => Cpx (nmul (bit_to_nrz b1) (nsqrt (nofZ 2))) (nmul (bit_to_nrz b2) (nsqrt (nofZ 2)))) (chunk2 false l))
      = l ++ repeat false (length l mod 2)).
    { induction n as [|n IH]; intros l Hl; [destruct l; [reflexivity|cbn in Hl; lia]|].
      destruct l as [|a [|b r]]; [reflexivity| |].
      - cbn [chunk2 map flat_map re im app]. rewrite !P. reflexivity.
      - cbn [chunk2 map flat_map re im app]. cbn [length] in *. rewrite !P, IH by lia.
        replace (S (S (length r)) mod 2)%nat with (length r mod 2)%nat; [reflexivity|].
        replace (S (S (length r))) with (length r + 1 * 2)%nat by lia. rewrite Nat.mod_add by lia. reflexivity. }
    apply (G (length data)). lia.
Qed.

Definition half_phase (fs : nat) (fc : R) (i : nat) : R := PI * fc * (INR i / INR fs).

Lemma tx_qpsk_tab data fs sr fc : rates_ok fs sr fc ->
  kom_tx_qpsk data fs sr fc = Ret (tab (symbols data * (fs / sr)) (fun i =>
    sqrt 2 * (pm (ibit data (i / (fs / sr))) * cos (half_phase fs fc i) - pm (qbit data (i / (fs / sr))) * sin (half_phase fs fc i)))).
Proof.
  intros H. unfold kom_tx_qpsk. rewrite (kom_rates_ok _ _ _ H). cbn [bind]. f_equal.
  unfold kom_tx_baseband_qpsk. rewrite (chunk2_tab false (length data) data (le_n _)). rewrite tab_map, np_repeat_tab, index_map_tab.
  fold (symbols data). apply tab_ext. intros i _. fold (ibit data (i / (fs / sr))). fold (qbit data (i / (fs / sr))).
  unfold cmul, cexp_i, half_phase, pm, bit_to_nrz, nofnat. cbn [re im nmul nsub ncos nsin nexp nofZ npi ndiv nopp nsqrt NumR].
  rewrite <- !INR_IZR_INZ, exp_0. destruct (ibit _ _), (qbit _ _); ring.
Qed.

(** The transmitter: the sine and cosine have half the carrier frequency. *)
Theorem C70_tx_half_carrier :
  forall (data : list bool) (fs sr : nat) (fc : R),
    (~ rates_ok fs sr fc -> kom_tx_qpsk data fs sr fc = Panic) /\
    (rates_ok fs sr fc -> exists w, kom_tx_qpsk data fs sr fc = Ret w /\ length w = ((length data + 1) / 2 * (fs / sr))%nat /\
       forall i, (i < length w)%nat -> let k := (i / (fs / sr))%nat in
         nth i w 0 = sqrt 2 * (pm (nth (2 * k) data false) * cos (2 * PI * (fc / 2) * (INR i / INR fs))
                               - pm (nth (2 * k + 1) data false) * sin (2 * PI * (fc / 2) * (INR i / INR fs)))).
Proof.
  intros data fs sr fc. split.
  - intros H. unfold kom_tx_qpsk. rewrite (kom_rates_bad _ _ _ H). reflexivity.
  - intros H. rewrite (tx_qpsk_tab data fs sr fc H). eexists. split; [reflexivity|]. rewrite tab_length. split; [reflexivity|].
    intros i Hi k. rewrite tab_nth by exact Hi. fold k. unfold half_phase, ibit, qbit.
    replace (2 * PI * (fc / 2) * (INR i / INR fs)) with (PI * fc * (INR i / INR fs)) by lra. reflexivity.
Qed.

Lemma corr_parts L n (f : nat -> R) : (1 <= L)%nat -> (1 <= n)%nat -> exists sig th,
  np_convolve (tab L f) (repeat (nofZ 1) n) = Ret sig /\ every n sig = Ret th /\
  tl (map (fun x => nltb (nofZ 0) x) th) = tab ((L + n - 2) / n) (fun k => gt0 (late n k L f)).
Proof.
  intros HL Hn. pose proof (correlate_tab L n f HL Hn) as E. destruct (np_convolve _ _) as [sig| |]; try discriminate. cbn [bind] in E.
  destruct (every n sig) as [th| |] eqn:Et; try discriminate. cbn [bind] in E. apply Ret_inj in E. exists sig, th. auto.
Qed.

Lemma rx_qpsk_tab (signal : list R) fs sr fc : rates_ok fs sr fc -> signal <> [] -> (1 <= fs / sr)%nat ->
  let n := (fs / sr)%nat in
  kom_rx_qpsk signal fs sr fc = Ret (flat_map (fun k =>
    [gt0 (late n k (length signal) (fun i => nth i signal 0 * carrier fs fc i));
     gt0 (late n k (length signal) (fun i => nth i signal 0 * - sin (2 * PI * fc * (INR i / INR fs))))]) (seq 0 ((length signal + n - 2) / n))).
Proof.
  intros OK Hs Hn n. unfold kom_rx_qpsk. rewrite (kom_rates_ok _ _ _ OK). cbn [bind]. fold n. fold n in Hn.
  assert (HL : (1 <= length signal)%nat) by (destruct signal; [contradiction|cbn; lia]).
  assert (EI : map (fun '(i, s_i) => nmul s_i (ncos (nmul (nmul (nmul (nofZ 2) npi) fc) (ndiv (nofnat i) (nofnat fs))))) (index_from 0 signal)
             = tab (length signal) (fun i => nth i signal 0 * carrier fs fc i)).
  { rewrite <- (tab_nth_id signal 0) at 1. rewrite index_map_tab. apply tab_ext. intros i _. unfold carrier, nofnat.
    cbn [nmul ncos nofZ npi ndiv NumR]. rewrite <- !INR_IZR_INZ. reflexivity. }
  assert (EQ : map (fun '(i, s_i) => nmul s_i (nopp (nsin (nmul (nmul (nmul (nofZ 2) npi) fc) (ndiv (nofnat i) (nofnat fs)))))) (index_from 0 signal)
             = tab (length signal) (fun i => nth i signal 0 * - sin (2 * PI * fc * (INR i / INR fs)))).
  { rewrite <- (tab_nth_id signal 0) at 1. rewrite index_map_tab. apply tab_ext. intros i _. unfold nofnat.
    cbn [nmul nsin nopp nofZ npi ndiv NumR]. rewrite <- !INR_IZR_INZ. reflexivity. }
  rewrite EI, EQ.
  destruct (corr_parts (length signal) n (fun i => nth i signal 0 * carrier fs fc i) HL Hn) as (s1 & t1 & A1 & A2 & A3).
  destruct (corr_parts (length signal) n (fun i => nth i signal 0 * - sin (2 * PI * fc * (INR i / INR fs))) HL Hn) as (s2 & t2 & B1 & B2 & B3).
  rewrite A1, B1. cbn [bind]. rewrite A2, B2. cbn [bind]. rewrite A3, B3, tab_combine. f_equal.
  unfold tab. rewrite !flat_map_concat_map, map_map. reflexivity.
Qed.

(** The receiver on any signal. *)
Theorem C70_rx :
  forall (signal : list R) (fs sr : nat) (fc : R), let n := (fs / sr)%nat in
    rates_ok fs sr fc -> signal <> [] -> (1 <= n)%nat ->
    exists bits, kom_rx_qpsk signal fs sr fc = Ret bits /\ length bits = (2 * ((length signal + n - 2) / n))%nat /\
      forall k, (2 * k < length bits)%nat ->
        (nth (2 * k) bits false = true <-> 0 < Rsum_n n (fun j => nth (k * n + 1 + j) signal 0 * cos (2 * PI * fc * (INR (k * n + 1 + j) / INR fs)))) /\
        (nth (2 * k + 1) bits false = true <-> 0 < Rsum_n n (fun j => nth (k * n + 1 + j) signal 0 * - sin (2 * PI * fc * (INR (k * n + 1 + j) / INR fs)))).
Proof.
  intros signal fs sr fc n OK Hs Hn. rewrite (rx_qpsk_tab signal fs sr fc OK Hs Hn). fold n. eexists. split; [reflexivity|].
  set (K := ((length signal + n - 2) / n)%nat).
  assert (G : forall h : nat -> R, forall k, gt0 (late n k (length signal) (fun i => nth i signal 0 * h i)) = true
     <-> 0 < Rsum_n n (fun j => nth (k * n + 1 + j) signal 0 * h (k * n + 1 + j)%nat)).
  { intros h k. rewrite gt0_true. unfold late.
    match goal with |- 0 < ?a <-> 0 < ?b => replace a with b; [tauto|] end.
    apply Rsum_n_ext. intros j _. destruct (Nat.ltb_spec (k * n + 1 + j) (length signal)) as [|Hge]; [reflexivity|].
    rewrite nth_overflow by exact Hge. lra. }
  match goal with |- context [flat_map ?g (seq 0 K)] =>
    assert (E : flat_map g (seq 0 K) = tab (K * 2) (fun i => nth (i mod 2) (g (i / 2)%nat) false)) end.
  { rewrite <- (map_id (seq 0 K)) at 1. change (map (fun x => x) (seq 0 K)) with (tab K (fun k => k)).
    match goal with |- flat_map ?g _ = _ => rewrite (flat_map_tab 2 K (fun k i => nth i (g k) false) g (fun k => k)) end; [reflexivity|].
    intros k _. reflexivity. }
  rewrite E, tab_length. split; [lia|]. intros k Hk.
  rewrite !tab_nth by lia.
  replace (2 * k / 2)%nat with k by (rewrite Nat.mul_comm, Nat.div_mul; lia).
  replace (2 * k mod 2)%nat with 0%nat by (rewrite Nat.mul_comm, Nat.mod_mul; lia).
  replace ((2 * k + 1) / 2)%nat with k by (rewrite Nat.mul_comm, Nat.add_comm, Nat.div_add by lia; reflexivity).
  replace ((2 * k + 1) mod 2)%nat with 1%nat by (rewrite Nat.mul_comm, Nat.add_comm, Nat.mod_add by lia; reflexivity).
  cbn [nth]. split; [apply (G (carrier fs fc))|apply (G (fun i => - sin (2 * PI * fc * (INR i / INR fs))))].
Qed.

(** With an even number of cycles of the stated carrier in a symbol, receiver and half-rate
    transmitter are orthogonal and only the sample from the next symbol is left. *)
Lemma half_sums fs fc n q k (p : Z) : (1 <= fs)%nat -> fc * INR n = 2 * IZR q * INR fs -> 0 < fc -> fc <= INR fs / 2 -> (1 <= p <= 3)%Z ->
  Rsum_n n (fun j => cos (IZR p * half_phase fs fc (k * n + j))) = 0 /\ Rsum_n n (fun j => sin (IZR p * half_phase fs fc (k * n + j))) = 0.
Proof.
  intros Hf Hq H0 H1 Hp. assert (F : 0 < INR fs) by (apply lt_0_INR; lia). pose proof PI_RGT_0 as HP.
  set (a := IZR p * (PI * fc / INR fs) / 2).
  assert (P1 : 1 <= IZR p) by (apply IZR_le; lia). assert (P3 : IZR p <= 3) by (apply IZR_le; lia).
  assert (U : 0 < fc / INR fs <= 1 / 2).
  { split; [apply Rdiv_lt_0_compat; assumption|]. apply (Rmult_le_reg_r (INR fs)); [exact F|]. replace (fc / INR fs * INR fs) with fc by (field; lra). lra. }
  assert (Ea : a = PI * (IZR p * (fc / INR fs) / 2)) by (unfold a; field; lra).
  assert (Ha : sin a <> 0).
  { assert (0 < sin a); [|lra]. apply sin_gt_0; rewrite Ea.
    - apply Rmult_lt_0_compat; [exact HP|]. nra.
    - rewrite <- (Rmult_1_r PI) at 2. apply Rmult_lt_compat_l; [exact HP|]. nra. }
  assert (Hw : 2 * a * INR n = 2 * PI * IZR (p * q)).
  { rewrite mult_IZR. unfold a. replace (2 * (IZR p * (PI * fc / INR fs) / 2) * INR n) with (IZR p * PI * (fc * INR n) / INR fs) by (field; lra).
    rewrite Hq. field. lra. }
  destruct (sum_whole a (2 * a * INR (k * n)) n (p * q) Ha Hw) as [C S].
  split; [rewrite <- C|rewrite <- S]; apply Rsum_n_ext; intros j _; f_equal; unfold half_phase, a; rewrite plus_INR; field; lra.
Qed.

Lemma crest_half fs fc n q k : (1 <= fs)%nat -> fc * INR n = 2 * IZR q * INR fs -> exists z : Z, half_phase fs fc (k * n) = 0 + 2 * PI * IZR z.
Proof.
  intros Hf Hq. assert (F : INR fs <> 0) by (apply not_0_INR; lia). exists (q * Z.of_nat k)%Z. rewrite mult_IZR, <- INR_IZR_INZ.
  unfold half_phase. rewrite mult_INR. replace (PI * fc * (INR k * INR n / INR fs)) with (PI * INR k * (fc * INR n) / INR fs) by (field; exact F).
  rewrite Hq. field. exact F.
Qed.

Lemma late_plus n k L f g : late n k L (fun i => f i + g i) = late n k L f + late n k L g.
Proof. unfold late. rewrite <- Rsum_n_plus. apply Rsum_n_ext. intros j _. destruct (_ <? L)%nat; lra. Qed.
Lemma late_ext n k L f g : (forall i, (i < L)%nat -> f i = g i) -> late n k L f = late n k L g.
Proof. intros H. unfold late. apply Rsum_n_ext. intros j _. destruct (Nat.ltb_spec (k * n + 1 + j) L); [apply H; assumption|reflexivity]. Qed.

(** Weighting whole symbols with a function that sums to zero over each: what is left. *)
Lemma late_zero n k M D h : (1 <= n)%nat -> (k < M)%nat -> Rsum_n n (fun j => h (k * n + j)%nat) = 0 ->
  late n k (M * n) (fun i => D (i / n)%nat * h i) = (if (S k <? M)%nat then D (S k) * h (S k * n)%nat else 0) - D k * h (k * n)%nat.
Proof.
  intros Hn Hk Hs. rewrite late_symbols by assumption.
  pose proof (tail_sum n (fun i => h (k * n + i)%nat) Hn) as E. cbv beta in E. rewrite Hs, Nat.add_0_r in E.
  rewrite (Rsum_n_ext (n - 1) (fun j => h (k * n + 1 + j)%nat) (fun j => h (k * n + (1 + j))%nat)) by (intros j _; f_equal; lia).
  rewrite E. lra.
Qed.

Theorem C70_even_cycles :
  forall (data : list bool) (fs sr : nat) (fc : R) (q : Z), let n := (fs / sr)%nat in
    rates_ok fs sr fc -> 0 < fc -> data <> [] -> fc * INR n = 2 * IZR q * INR fs ->
    let M := ((length data + 1) / 2)%nat in
    exists w, kom_tx_qpsk data fs sr fc = Ret w /\
      kom_rx_qpsk w fs sr fc = Ret (flat_map (fun k =>
        [negb (nth (2 * k) data false) && (if (S k <? M)%nat then nth (2 * S k) data false else true); false]) (seq 0 M)).
Proof.
  intros data fs sr fc q n OK H0 Hd Hq M. destruct OK as (Hsr & Hdiv & Hfc).
  assert (Hfs : (1 <= fs)%nat) by (destruct fs; [cbn in Hfc; lra|lia]).
  assert (F : 0 < INR fs) by (apply lt_0_INR; lia).
  assert (Hn1 : (1 <= n)%nat).
  { unfold n. destruct Hdiv as [z Hz]. rewrite Hz. rewrite Nat.div_mul by lia. destruct z; [|lia]. rewrite Hz in Hfs. lia. }
  assert (Hn : (4 <= n)%nat).
  { assert (P : 0 < INR n) by (apply lt_0_INR; lia). assert (0 < IZR q) by nra. apply lt_IZR in H. assert (1 <= IZR q) by (apply IZR_le; lia).
    apply INR_le. change (INR 4) with (1 + 1 + 1 + 1). nra. }
  assert (OK : rates_ok fs sr fc) by (repeat split; assumption).
  rewrite (tx_qpsk_tab data fs sr fc OK). eexists. split; [reflexivity|]. fold n.
  assert (HM : (1 <= symbols data)%nat).
  { unfold symbols. destruct data as [|b r]; [contradiction|]. cbn [length]. apply Nat.div_le_lower_bound; lia. }
  rewrite rx_qpsk_tab; [|exact OK|intros E; apply (f_equal (@length _)) in E; rewrite tab_length in E; cbn [length] in E; nia|exact Hn1].
  fold n. rewrite tab_length, late_count by lia. unfold symbols. fold M. f_equal. rewrite !flat_map_concat_map. f_equal.
  apply map_ext_in. intros k Hk. apply in_seq in Hk. fold (symbols data) in HM.
  destruct (half_sums fs fc n q k 1 Hfs Hq H0 Hfc ltac:(lia)) as [C1 S1].
  destruct (half_sums fs fc n q k 3 Hfs Hq H0 Hfc ltac:(lia)) as [C3 S3].
  assert (TH : forall i, 2 * PI * fc * (INR i / INR fs) = 2 * half_phase fs fc i) by (intros i; unfold half_phase; lra).
  assert (T3 : forall x, cos (IZR 3 * x) = cos x * cos (2 * x) - sin x * sin (2 * x) /\ sin (IZR 3 * x) = sin x * cos (2 * x) + cos x * sin (2 * x)).
  { intros x. replace (IZR 3 * x) with (x + 2 * x) by lra. rewrite cos_plus, sin_plus. auto. }
  assert (T1 : forall x, cos (IZR 1 * x) = cos x * cos (2 * x) + sin x * sin (2 * x) /\ sin (IZR 1 * x) = cos x * sin (2 * x) - sin x * cos (2 * x)).
  { intros x. replace (IZR 1 * x) with (2 * x - x) by lra. rewrite cos_minus, sin_minus. split; ring. }
  assert (K0 : forall k', cos (half_phase fs fc (k' * n)) = 1 /\ sin (half_phase fs fc (k' * n)) = 0 /\
                cos (2 * half_phase fs fc (k' * n)) = 1 /\ sin (2 * half_phase fs fc (k' * n)) = 0).
  { intros k'. destruct (crest_half fs fc n q k' Hfs Hq) as [z ->]. rewrite cos_add_2pi, sin_add_2pi.
    replace (2 * (0 + 2 * PI * IZR z)) with (0 + 2 * PI * IZR (2 * z)) by (rewrite mult_IZR; lra).
    rewrite cos_add_2pi, sin_add_2pi, cos_0, sin_0. auto. }
  set (hp := half_phase fs fc) in *.
  assert (Z1 : Rsum_n n (fun j => cos (hp (k * n + j)%nat) * cos (2 * hp (k * n + j)%nat)) = 0).
  { rewrite (Rsum_n_ext n _ (fun j => 1 / 2 * cos (IZR 1 * hp (k * n + j)%nat) + 1 / 2 * cos (IZR 3 * hp (k * n + j)%nat))).
    - rewrite Rsum_n_plus, !Rsum_n_scale, C1, C3. lra.
    - intros j _. rewrite (proj1 (T1 _)), (proj1 (T3 _)). lra. }
  assert (Z2 : Rsum_n n (fun j => sin (hp (k * n + j)%nat) * cos (2 * hp (k * n + j)%nat)) = 0).
  { rewrite (Rsum_n_ext n _ (fun j => - 1 / 2 * sin (IZR 1 * hp (k * n + j)%nat) + 1 / 2 * sin (IZR 3 * hp (k * n + j)%nat))).
    - rewrite Rsum_n_plus, !Rsum_n_scale, S1, S3. lra.
    - intros j _. rewrite (proj2 (T1 _)), (proj2 (T3 _)). lra. }
  assert (Z3 : Rsum_n n (fun j => cos (hp (k * n + j)%nat) * sin (2 * hp (k * n + j)%nat)) = 0).
  { rewrite (Rsum_n_ext n _ (fun j => 1 / 2 * sin (IZR 1 * hp (k * n + j)%nat) + 1 / 2 * sin (IZR 3 * hp (k * n + j)%nat))).
    - rewrite Rsum_n_plus, !Rsum_n_scale, S1, S3. lra.
    - intros j _. rewrite (proj2 (T1 _)), (proj2 (T3 _)). lra. }
  assert (Z4 : Rsum_n n (fun j => sin (hp (k * n + j)%nat) * sin (2 * hp (k * n + j)%nat)) = 0).
  { rewrite (Rsum_n_ext n _ (fun j => 1 / 2 * cos (IZR 1 * hp (k * n + j)%nat) + - 1 / 2 * cos (IZR 3 * hp (k * n + j)%nat))).
    - rewrite Rsum_n_plus, !Rsum_n_scale, C1, C3. lra.
    - intros j _. rewrite (proj1 (T1 _)), (proj1 (T3 _)). lra. }
  assert (W : forall (c s : nat -> R) g,
     (forall i, g i = sqrt 2 * (pm (ibit data (i / n)) * c i - pm (qbit data (i / n)) * s i)) ->
     Rsum_n n (fun j => c (k * n + j)%nat) = 0 -> Rsum_n n (fun j => s (k * n + j)%nat) = 0 ->
     late n k (M * n) g = sqrt 2 * ((if (S k <? M)%nat then pm (ibit data (S k)) * c (S k * n)%nat - pm (qbit data (S k)) * s (S k * n)%nat else 0)
                             - (pm (ibit data k) * c (k * n)%nat - pm (qbit data k) * s (k * n)%nat))).
  { intros c s g Eg Zc Zs.
    rewrite (late_ext n k (M * n) g (fun i => (sqrt 2 * pm (ibit data (i / n))) * c i + (- sqrt 2 * pm (qbit data (i / n))) * s i))
      by (intros i _; rewrite Eg; ring).
    rewrite late_plus.
    rewrite (late_zero n k M (fun k => sqrt 2 * pm (ibit data k)) c Hn1 ltac:(lia) Zc).
    rewrite (late_zero n k M (fun k => - sqrt 2 * pm (qbit data k)) s Hn1 ltac:(lia) Zs).
    destruct (S k <? M)%nat; ring. }
  pose proof (sqrt_lt_R0 2 ltac:(lra)) as Q2.
  f_equal; [|f_equal].
  - rewrite (late_ext n k (M * n) _ (fun i => sqrt 2 * (pm (ibit data (i / n)) * (cos (hp i) * cos (2 * hp i)) - pm (qbit data (i / n)) * (sin (hp i) * cos (2 * hp i))))).
    2:{ intros i Hi. rewrite tab_nth by exact Hi. unfold carrier. rewrite TH. fold hp. ring. }
    rewrite (W (fun i => cos (hp i) * cos (2 * hp i)) (fun i => sin (hp i) * cos (2 * hp i)) _ (fun i => eq_refl) Z1 Z2).
    destruct (K0 k) as (a1 & a2 & a3 & a4). destruct (K0 (S k)) as (b1 & b2 & b3 & b4). rewrite a1, a2, a3, b1, b2, b3.
    change (nth (2 * k) data false) with (ibit data k). change (nth (2 * S k) data false) with (ibit data (S k)).
    unfold pm. destruct (S k <? M)%nat; destruct (ibit data k); try destruct (ibit data (S k)); destruct (qbit data k); try destruct (qbit data (S k));
      cbn [negb andb]; (apply gt0_true; lra) || (apply gt0_false; lra).
  - rewrite (late_ext n k (M * n) _ (fun i => sqrt 2 * (pm (ibit data (i / n)) * (- (cos (hp i) * sin (2 * hp i))) - pm (qbit data (i / n)) * (- (sin (hp i) * sin (2 * hp i)))))).
    2:{ intros i Hi. rewrite tab_nth by exact Hi. rewrite TH. fold hp. ring. }
    rewrite (W (fun i => - (cos (hp i) * sin (2 * hp i))) (fun i => - (sin (hp i) * sin (2 * hp i))) _ (fun i => eq_refl)).
    + destruct (K0 k) as (a1 & a2 & a3 & a4). destruct (K0 (S k)) as (b1 & b2 & b3 & b4). rewrite a2, a4, b2, b4.
      apply gt0_false. destruct (S k <? M)%nat; lra.
    + rewrite (Rsum_n_ext n _ (fun j => -1 * (cos (hp (k * n + j)%nat) * sin (2 * hp (k * n + j)%nat)))) by (intros; lra). rewrite Rsum_n_scale, Z3. lra.
    + rewrite (Rsum_n_ext n _ (fun j => -1 * (sin (hp (k * n + j)%nat) * sin (2 * hp (k * n + j)%nat)))) by (intros; lra). rewrite Rsum_n_scale, Z4. lra.
Qed.

(** So no message survives: the first bit of the last pair is always inverted. *)
Theorem C70_round_trip_refuted :
  forall (data : list bool) (fs sr : nat) (fc : R) (q : Z),
    rates_ok fs sr fc -> 0 < fc -> data <> [] -> fc * INR (fs / sr) = 2 * IZR q * INR fs ->
    exists w bits, kom_tx_qpsk data fs sr fc = Ret w /\ kom_rx_qpsk w fs sr fc = Ret bits /\
      bits <> data ++ repeat false (length data mod 2) /\
      nth ((length data - 1) / 2 * 2) bits false = negb (nth ((length data - 1) / 2 * 2) data false).
Proof.
  intros data fs sr fc q OK H0 Hd Hq.
  destruct (C70_even_cycles data fs sr fc q OK H0 Hd Hq) as (w & E1 & E2). cbv zeta in E2.
  exists w. eexists. split; [exact E1|]. split; [exact E2|].
  set (M := ((length data + 1) / 2)%nat) in *. set (k := ((length data - 1) / 2)%nat).
  assert (L : (1 <= length data)%nat) by (destruct data; [contradiction|cbn; lia]).
  assert (HM : M = S k) by (unfold M, k; replace (length data + 1)%nat with ((length data - 1) + 1 * 2)%nat by lia; rewrite Nat.div_add by lia; lia).
  assert (Hk : (k * 2 < length data)%nat) by (unfold k; pose proof (Nat.mul_div_le (length data - 1) 2 ltac:(lia)); lia).
  match goal with |- flat_map ?g _ <> _ /\ _ => set (f := g) end.
  assert (N : forall m j, (j < m)%nat -> nth (j * 2) (flat_map f (seq 0 m)) false = nth 0 (f j) false).
  { intros m j Hj. change (seq 0 m) with (map (fun x => x) (seq 0 m)) || idtac.
    replace (flat_map f (seq 0 m)) with (tab (m * 2) (fun i => nth (i mod 2) (f (i / 2)%nat) false)).
    - rewrite tab_nth by lia. rewrite Nat.mod_mul, Nat.div_mul by lia. reflexivity.
    - rewrite <- (map_id (seq 0 m)). change (map (fun x => x) (seq 0 m)) with (tab m (fun k => k)).
      rewrite (flat_map_tab 2 m (fun k i => nth i (f k) false) f (fun k => k)); [reflexivity|]. intros ? _. reflexivity. }
  assert (V : nth (k * 2) (flat_map f (seq 0 M)) false = negb (nth (k * 2) data false)).
  { rewrite N by lia. unfold f. cbn [nth]. replace (S k <? M)%nat with false by (symmetry; apply Nat.ltb_ge; lia).
    rewrite andb_true_r. rewrite (Nat.mul_comm 2 k). reflexivity. }
  split; [|exact V]. intros E. rewrite E in V. rewrite app_nth1 in V by exact Hk. destruct (nth (k * 2) data false); discriminate.
Qed.

(** ** C71: CDMA *)

(** What both functions of cdma.py assert of the rates: also 16 chips per symbol, each of two samples or more. *)
Definition cdma_ok (fs sr : nat) (fc : R) : Prop :=
  (1 <= sr)%nat /\ fc <= INR fs / 2 /\ (32 * sr <= fs)%nat /\ Nat.divide (16 * sr) fs.

Lemma cdma_rates fs sr fc : cdma_ok fs sr fc -> rates_ok fs sr fc.
Proof. intros (H1 & H2 & H3 & z & Hz). repeat split; [exact H1| |exact H2]. exists (z * 16)%nat. lia. Qed.

Lemma kom_key_length : length (KOM_KEY : list R) = 16%nat.
Proof. reflexivity. Qed.

Lemma cdma_checks_ok {A} fs sr fc (k : outcome A) : cdma_ok fs sr fc -> kom_cdma_checks fs sr fc k = k.
Proof.
  intros H. pose proof (cdma_rates _ _ _ H) as (_ & Hd & _). destruct H as (H1 & H2 & H3 & H4).
  unfold kom_cdma_checks, assert_then, div_is_integer. rewrite kom_key_length.
  unfold nofnat. cbn [nleb ndiv nofZ NumR]. rewrite <- !INR_IZR_INZ.
  destruct (Rle_dec fc (INR fs / 2)); [|contradiction].
  destruct (Rle_dec (INR (16 * sr)) (INR fs / 2)) as [_|N].
  2:{ exfalso. apply N. apply le_INR in H3. replace (32 * sr)%nat with (2 * (16 * sr))%nat in H3 by lia. rewrite mult_INR in H3. cbn [INR] in H3. lra. }
  apply Nat.mod_divide in Hd; [|lia]. rewrite Nat.mul_comm in H4. apply Nat.mod_divide in H4; [|lia].
  replace (sr =? 0)%nat with false by (symmetry; apply Nat.eqb_neq; lia). replace (sr * 16 =? 0)%nat with false by (symmetry; apply Nat.eqb_neq; lia).
  rewrite Hd. cbn [Nat.eqb bind]. rewrite H4. reflexivity.
Qed.
Lemma cdma_checks_bad {A} fs sr fc (k : outcome A) : (1 <= sr)%nat -> ~ cdma_ok fs sr fc -> kom_cdma_checks fs sr fc k = Panic.
Proof.
  intros H1 N. unfold kom_cdma_checks, assert_then, div_is_integer. rewrite kom_key_length.
  unfold nofnat. cbn [nleb ndiv nofZ NumR]. rewrite <- !INR_IZR_INZ.
  destruct (Rle_dec fc (INR fs / 2)) as [L|]; [|reflexivity].
  destruct (Rle_dec (INR (16 * sr)) (INR fs / 2)) as [L2|]; [|reflexivity].
  replace (sr =? 0)%nat with false by (symmetry; apply Nat.eqb_neq; lia). replace (sr * 16 =? 0)%nat with false by (symmetry; apply Nat.eqb_neq; lia).
  destruct (fs mod sr =? 0)%nat; [|reflexivity]. cbn [bind].
  destruct (Nat.eqb_spec (fs mod (sr * 16)) 0) as [E|]; [|reflexivity]. exfalso. apply N. repeat split; [exact H1|exact L| |].
  - apply INR_le. replace (32 * sr)%nat with (2 * (16 * sr))%nat by lia. rewrite mult_INR. cbn [INR]. lra.
  - rewrite Nat.mul_comm. apply Nat.mod_divide; [lia|exact E].
Qed.

(** The receiver never looks at the key: it is the plain BPSK receiver. *)
Theorem C71_rx_is_plain_bpsk :
  forall (signal : list R) (fs sr : nat) (fc : R),
    (cdma_ok fs sr fc -> kom_rx_bpsk_cdma signal fs sr fc = kom_rx_bpsk signal fs sr fc) /\
    (~ cdma_ok fs sr fc -> kom_rx_bpsk_cdma signal fs sr fc = Panic).
Proof.
  intros signal fs sr fc. split; intros H.
  - unfold kom_rx_bpsk_cdma, kom_rx_bpsk. rewrite (kom_rates_ok _ _ _ (cdma_rates _ _ _ H)).
    unfold int_div. replace (sr =? 0)%nat with false by (symmetry; apply Nat.eqb_neq; destruct H; lia). cbn [bind].
    rewrite cdma_checks_ok by exact H. reflexivity.
  - unfold kom_rx_bpsk_cdma, int_div. destruct (Nat.eqb_spec sr 0); [reflexivity|]. cbn [bind]. apply cdma_checks_bad; [lia|exact H].
Qed.

(** Chips two by two: + + - -. *)
Definition chip (m : nat) : R := if Nat.even (m / 2) then 1 else -1.

Lemma key_chips : KOM_KEY = tab 16 chip.
Proof. reflexivity. Qed.

Lemma tile_tab {A} m n (f : nat -> A) : (1 <= m)%nat -> np_tile (tab m f) n = tab (n * m) (fun i => f (i mod m)%nat).
Proof.
  intros Hm. unfold np_tile. rewrite <- (flat_map_tab m n (fun _ => f) (fun _ : nat => tab m f) (fun k => k)) by reflexivity.
  rewrite flat_map_concat_map, tab_map. f_equal. symmetry. rewrite <- repeat_tab. reflexivity.
Qed.

Lemma tx_cdma_tab data fs sr fc : cdma_ok fs sr fc -> let n := (fs / sr)%nat in let c := (n / 16)%nat in
  n = (16 * c)%nat /\ (2 <= c)%nat /\
  kom_tx_bpsk_cdma data fs sr fc = Ret (tab (length data * n) (fun i => pm (nth (i / n) data false) * carrier fs fc i * chip (i mod n / c))).
Proof.
  intros H n c. pose proof (cdma_rates _ _ _ H) as OK.
  assert (Hn : n = (16 * c)%nat /\ (2 <= c)%nat).
  { destruct H as (H1 & _ & H3 & z & Hz). unfold c, n. replace fs with ((z * 16) * sr)%nat by lia. rewrite Nat.div_mul by lia. rewrite Nat.div_mul by lia.
    split; [lia|]. nia. }
  destruct Hn as [Hn Hc]. split; [exact Hn|]. split; [exact Hc|].
  unfold kom_tx_bpsk_cdma, int_div. replace (sr =? 0)%nat with false by (symmetry; apply Nat.eqb_neq; destruct H; lia). cbn [bind].
  rewrite kom_key_length. cbn [Nat.eqb bind]. rewrite cdma_checks_ok by exact H. rewrite (tx_bpsk_tab data fs sr fc OK). cbn [bind]. fold n. fold c.
  replace (c =? 0)%nat with false by (symmetry; apply Nat.eqb_neq; lia).
  rewrite tab_length. rewrite key_chips, np_repeat_tab, <- Hn, tile_tab by lia.
  replace (length data * n / c / 16)%nat with (length data).
  2:{ rewrite Nat.div_div by lia. rewrite (Nat.mul_comm c 16), <- Hn. rewrite Nat.div_mul by lia. reflexivity. }
  rewrite tab_length, Nat.eqb_refl. cbn [assert_then]. rewrite tab_combine, tab_map. reflexivity.
Qed.

Theorem C71_tx :
  forall (data : list bool) (fs sr : nat) (fc : R),
    (~ cdma_ok fs sr fc -> kom_tx_bpsk_cdma data fs sr fc = Panic) /\
    (cdma_ok fs sr fc -> let n := (fs / sr)%nat in
       exists w, kom_tx_bpsk_cdma data fs sr fc = Ret w /\ length w = (length data * n)%nat /\
         forall i, (i < length w)%nat ->
           nth i w 0 = pm (nth (i / n) data false) * cos (2 * PI * fc * (INR i / INR fs))
                       * nth (i mod n / (n / 16)) [1; 1; -1; -1; 1; 1; -1; -1; 1; 1; -1; -1; 1; 1; -1; -1] 0).
Proof.
  intros data fs sr fc. split; intros H.
  - unfold kom_tx_bpsk_cdma, int_div. destruct (Nat.eqb_spec sr 0); [reflexivity|]. cbn [bind]. rewrite kom_key_length. cbn [Nat.eqb bind].
    apply cdma_checks_bad; [lia|exact H].
  - intros n. destruct (tx_cdma_tab data fs sr fc H) as (Hn & Hc & E). fold n in Hn, Hc, E. rewrite E. eexists. split; [reflexivity|].
    rewrite tab_length. split; [reflexivity|]. intros i Hi. rewrite tab_nth by exact Hi. unfold carrier. f_equal.
    assert (B : (i mod n / (n / 16) < 16)%nat) by (apply Nat.div_lt_upper_bound; [lia|]; pose proof (Nat.mod_upper_bound i n ltac:(lia)); lia).
    remember (i mod n / (n / 16))%nat as m eqn:Em. clear Em E. unfold chip. do 16 (destruct m as [|m]; [cbn; reflexivity|]). lia.
Qed.

(** Whole half-cycles in a chip: the chips cancel, and the bit read is the rising edge after symbol k
    (and the inverse of the last bit). *)
Theorem C71_reads_edges :
  forall (data : list bool) (fs sr : nat) (fc : R) (half_cycles : Z),
    cdma_ok fs sr fc -> data <> [] ->
    2 * fc * INR (fs / sr / 16) = IZR half_cycles * INR fs -> ~ (exists z : Z, 2 * fc = IZR z * INR fs) ->
    exists w, kom_tx_bpsk_cdma data fs sr fc = Ret w /\
      kom_rx_bpsk_cdma w fs sr fc =
      Ret (map (fun k => negb (nth k data false) && (if (S k <? length data)%nat then nth (S k) data false else true)) (seq 0 (length data))).
Proof.
  intros data fs sr fc h OK Hd Hh Hz. destruct (tx_cdma_tab data fs sr fc OK) as (Hn & Hc & E). rewrite E. eexists. split; [reflexivity|].
  set (n := (fs / sr)%nat) in *. set (c := (n / 16)%nat) in *.
  assert (Hfs : (1 <= fs)%nat) by (destruct OK as (? & _ & ? & _); lia).
  assert (L : (1 <= length data)%nat) by (destruct data; [contradiction|cbn; lia]).
  rewrite (proj1 (C71_rx_is_plain_bpsk _ fs sr fc) OK).
  unfold kom_rx_bpsk. rewrite (kom_rates_ok _ _ _ (cdma_rates _ _ _ OK)). cbn [bind]. fold n.
  rewrite correlate_sum; [|intros E0; apply (f_equal (@length _)) in E0; rewrite tab_length in E0; cbn [length] in E0; nia|lia].
  rewrite tab_length. f_equal. change (map ?f (seq 0 (length data))) with (tab (length data) f).
  apply tab_eq; [apply late_count; lia|]. intros k Hk. rewrite late_count in Hk by lia.
  set (g := fun i => carrier fs fc i * carrier fs fc i * chip (i mod n / c)).
  rewrite (late_ext n k (length data * n) _ (fun i => pm (nth (i / n) data false) * g i)).
  2:{ intros i Hi. rewrite tab_nth by exact Hi. unfold g. ring. }
  assert (CH : forall m, Rsum_n c (fun j => g (k * n + m * c + j)%nat) = (if (m <? 16)%nat then chip m * (INR c / 2) else Rsum_n c (fun j => g (k * n + m * c + j)%nat))).
  { intros m. destruct (Nat.ltb_spec m 16) as [Hm|]; [|reflexivity].
    rewrite <- (half_energy fs fc c h (k * n + m * c) Hfs Hh Hz). rewrite <- Rsum_n_scale. apply Rsum_n_ext. intros j Hj. unfold g, carrier.
    replace ((k * n + m * c + j) mod n)%nat with (m * c + j)%nat.
    2:{ replace (k * n + m * c + j)%nat with ((m * c + j) + k * n)%nat by lia. rewrite Nat.mod_add by lia. rewrite Nat.mod_small; nia. }
    replace ((m * c + j) / c)%nat with m by (rewrite Nat.add_comm, Nat.div_add by lia; rewrite Nat.div_small; lia). ring. }
  assert (Z : Rsum_n n (fun j => g (k * n + j)%nat) = 0).
  { assert (B : forall m, (m <= 4)%nat -> Rsum_n (4 * m * c) (fun j => g (k * n + j)%nat) = 0).
    { induction m as [|m IH]; intros Hm; [reflexivity|].
      replace (4 * S m * c)%nat with ((((4 * m * c + c) + c) + c) + c)%nat by lia. rewrite !Rsum_n_add, IH by lia.
      assert (CC : forall r, (r < 4)%nat -> Rsum_n c (fun j => g (k * n + (4 * m * c + r * c + j))%nat) = chip r * (INR c / 2)).
      { intros r Hr. rewrite (Rsum_n_ext c _ (fun j => g (k * n + (4 * m + r) * c + j)%nat)) by (intros j _; f_equal; lia).
        rewrite CH. replace (4 * m + r <? 16)%nat with true by (symmetry; apply Nat.ltb_lt; lia). f_equal.
        unfold chip. destruct m as [|[|[|[|m]]]]; [| | | |lia]; destruct r as [|[|[|[|r]]]]; try lia; reflexivity. }
      rewrite (Rsum_n_ext c (fun j => g (k * n + (4 * m * c + j))%nat) (fun j => g (k * n + (4 * m * c + 0 * c + j))%nat)) by (intros j _; f_equal; lia).
      rewrite (Rsum_n_ext c (fun j => g (k * n + (4 * m * c + c + j))%nat) (fun j => g (k * n + (4 * m * c + 1 * c + j))%nat)) by (intros j _; f_equal; lia).
      rewrite (Rsum_n_ext c (fun j => g (k * n + (4 * m * c + c + c + j))%nat) (fun j => g (k * n + (4 * m * c + 2 * c + j))%nat)) by (intros j _; f_equal; lia).
      rewrite (Rsum_n_ext c (fun j => g (k * n + (4 * m * c + c + c + c + j))%nat) (fun j => g (k * n + (4 * m * c + 3 * c + j))%nat)) by (intros j _; f_equal; lia).
      rewrite !CC by lia. unfold chip. cbn [Nat.div Nat.divmod fst Nat.even]. lra. }
    specialize (B 4%nat (le_n _)). replace (4 * 4 * c)%nat with n in B by lia. exact B. }
  rewrite (late_zero n k (length data) (fun k => pm (nth k data false)) g ltac:(lia) Hk Z).
  assert (G : forall k', g (k' * n)%nat = 1).
  { intros k'. unfold g. rewrite Nat.mod_mul by lia. rewrite Nat.div_0_l by lia.
    assert (Hh' : 2 * fc * INR n = IZR (16 * h) * INR fs) by (rewrite Hn, mult_INR, mult_IZR; replace (INR 16) with 16 by (cbn; lra); nra).
    rewrite (crest fs n fc (16 * h) k' Hfs Hh'). unfold chip. cbn. lra. }
  rewrite !G. unfold pm. destruct (S k <? length data)%nat; destruct (nth k data false); try destruct (nth (S k) data false); cbn [negb andb];
    (apply gt0_true; lra) || (apply gt0_false; lra).
Qed.

(** So no message survives: the last bit is always inverted. *)
Theorem C71_round_trip_refuted :
  forall (data : list bool) (b : bool) (fs sr : nat) (fc : R) (half_cycles : Z),
    cdma_ok fs sr fc ->
    2 * fc * INR (fs / sr / 16) = IZR half_cycles * INR fs -> ~ (exists z : Z, 2 * fc = IZR z * INR fs) ->
    exists w bits, kom_tx_bpsk_cdma (data ++ [b]) fs sr fc = Ret w /\ kom_rx_bpsk_cdma w fs sr fc = Ret (bits ++ [negb b]) /\ length bits = length data.
Proof.
  intros data b fs sr fc h OK Hh Hz.
  destruct (C71_reads_edges (data ++ [b]) fs sr fc h OK ltac:(destruct data; discriminate) Hh Hz) as (w & E1 & E2).
  exists w. eexists. split; [exact E1|]. rewrite E2. rewrite app_length. cbn [length]. rewrite seq_app, map_app. cbn [seq map plus].
  rewrite app_nth2 by lia. rewrite Nat.sub_diag. cbn [nth].
  replace (S (length data) <? length data + 1)%nat with false by (symmetry; apply Nat.ltb_ge; lia). rewrite andb_true_r.
  split; [reflexivity|]. rewrite map_length, seq_length. reflexivity.
Qed.

(** ** Concrete cases *)

Lemma no_alias (a b : Z) : (b <> 0)%Z -> (a mod b <> 0)%Z -> ~ (exists z : Z, IZR a = IZR z * IZR b).
Proof.
  intros Hb Hm (z & E). rewrite <- mult_IZR in E. apply eq_IZR in E. apply Hm. rewrite E. apply Z.mod_mul. exact Hb.
Qed.
Ltac inr := rewrite ?INR_IZR_INZ; cbn [Z.of_nat Pos.of_succ_nat Pos.succ].

Lemma rates_8_1_1 : rates_ok 8 1 1.
Proof. repeat split; [lia|exists 8%nat; reflexivity|inr; lra]. Qed.

(** Eight samples per symbol, one cycle. *)
Example C69_example_round_trip :
  exists w, kom_tx_bpsk [true; false; true] 8 1 1 = Ret w /\ length w = 24%nat /\ kom_rx_bpsk w 8 1 1 = Ret [true; false; true].
Proof.
  destruct (C69_standard_design [true; false; true] 8 1 1 2 rates_8_1_1 ltac:(discriminate)) as (w & E1 & E2).
  - cbn. lia.
  - change (8 / 1)%nat with 8%nat. inr. lra.
  - inr. rewrite Rmult_1_r. apply (no_alias 2 8); discriminate.
  - exists w. split; [exact E1|]. split; [|exact E2].
    destruct (proj2 (C69_tx [true; false; true] 8 1 1) rates_8_1_1) as (w' & E & L & _). rewrite E1 in E. apply Ret_inj in E. subst w'. exact L.
Qed.
(** Four samples per symbol, half a cycle: what was sent is [true; false]. *)
Example C69_example_four :
  exists w, kom_tx_bpsk [true; false] 8 2 1 = Ret w /\ kom_rx_bpsk w 8 2 1 = Ret [false; false].
Proof.
  apply (C69_four_samples_refuted 8 2 1 1).
  - repeat split; [lia|exists 4%nat; reflexivity|inr; lra].
  - reflexivity.
  - inr. lra.
  - inr. rewrite Rmult_1_r. apply (no_alias 2 8); discriminate.
Qed.
Example C69_example_one :
  exists w, kom_tx_bpsk [true; false] 4 4 (1 / 2) = Ret w /\ kom_rx_bpsk w 4 4 (1 / 2) = Ret [false].
Proof.
  apply (C69_one_sample_drops_first_bit [true; false] 4 (1 / 2)); [lia|inr; lra|discriminate|].
  intros i Hi. unfold carrier. destruct i as [|[|i]]; [| |cbn in Hi; lia].
  - replace (2 * PI * (1 / 2) * (INR 0 / INR 4)) with 0 by (cbn; field; lra). rewrite cos_0. lra.
  - replace (2 * PI * (1 / 2) * (INR 1 / INR 4)) with (PI / 4) by (inr; field). rewrite cos_PI4.
    apply Rgt_not_eq, Rdiv_lt_0_compat; [lra|apply sqrt_lt_R0; lra].
Qed.
(** What the receiver reads of [0, 1, 0, 0]: with four samples per symbol, the sample 1. *)
Example C69_example_rx : kom_rx_bpsk [0; 1; 0; 0] 4 1 0 = Ret [true] /\ kom_rx_bpsk [1; 0; 0; 0] 4 1 0 = Ret [false] /\
  kom_rx_bpsk [] 4 1 0 = Panic /\ kom_tx_bpsk [true] 4 3 0 = Panic.
Proof.
  assert (OK : rates_ok 4 1 0) by (repeat split; [lia|exists 4%nat; reflexivity|inr; lra]).
  split; [|split; [|split]].
  - destruct (proj2 (C69_rx [0; 1; 0; 0] 4 1 0) OK ltac:(discriminate) ltac:(cbn; lia)) as (bits & E & L & B). rewrite E. f_equal.
    cbn in L. destruct bits as [|b [|]]; try discriminate. f_equal. apply (B 0%nat b eq_refl).
    change (4 / 1)%nat with 4%nat. unfold carrier. cbn [Rsum_n nth Nat.mul Nat.add]. replace (2 * PI * 0 * (INR 1 / INR 4)) with 0 by lra. rewrite cos_0. lra.
  - destruct (proj2 (C69_rx [1; 0; 0; 0] 4 1 0) OK ltac:(discriminate) ltac:(cbn; lia)) as (bits & E & L & B). rewrite E. f_equal.
    cbn in L. destruct bits as [|b [|]]; try discriminate. f_equal. destruct b; [|reflexivity]. exfalso.
    pose proof (proj1 (B 0%nat true eq_refl) eq_refl) as P. change (4 / 1)%nat with 4%nat in P. cbn [Rsum_n nth Nat.mul Nat.add] in P. lra.
  - apply (C69_rx [] 4 1 0). auto.
  - apply (C69_tx [true] 4 3 0). intros (_ & (z & Hz) & _). lia.
Qed.
Example C69_example_energy : ~ keeps_energy 8 4 1 2.
Proof.
  intros K. assert (OK : rates_ok 8 2 1) by (repeat split; [lia|exists 4%nat; reflexivity|inr; lra]).
  destruct (proj2 (C69_round_trip 8 2 1 2 OK ltac:(lia) ltac:(cbn; lia)) K [true; false] eq_refl) as (w & E1 & E2).
  destruct C69_example_four as (w' & F1 & F2). rewrite E1 in F1. apply Ret_inj in F1. subst w'. rewrite E2 in F2. discriminate.
Qed.

Example C70_example_baseband :
  kom_rx_baseband_qpsk (kom_tx_baseband_qpsk [true; false; true] : list (cpx R)) = [true; false; true; false].
Proof. apply (C70_baseband [true; false; true]). Qed.
(** Eight samples and two cycles of the carrier per symbol. *)
Example C70_example :
  exists w, kom_tx_qpsk [false; true; true; true] 8 1 2 = Ret w /\ length w = 16%nat /\ nth 2 w 0 = - sqrt 2 /\
    kom_rx_qpsk w 8 1 2 = Ret [true; false; false; false].
Proof.
  assert (OK : rates_ok 8 1 2) by (repeat split; [lia|exists 8%nat; reflexivity|inr; lra]).
  destruct (C70_even_cycles [false; true; true; true] 8 1 2 1 OK ltac:(lra) ltac:(discriminate)) as (w & E1 & E2);
    [change (8 / 1)%nat with 8%nat; inr; lra|].
  exists w. split; [exact E1|]. destruct (proj2 (C70_tx_half_carrier [false; true; true; true] 8 1 2) OK) as (w' & E & L & S).
  rewrite E1 in E. apply Ret_inj in E. subst w'. cbn in L. split; [exact L|]. split; [|exact E2].
  specialize (S 2%nat ltac:(rewrite L; lia)). cbv zeta in S. change (2 / (8 / 1))%nat with 0%nat in S. rewrite S. cbn [nth Nat.mul Nat.add pm].
  replace (2 * PI * (2 / 2) * (INR 2 / INR 8)) with (PI / 2) by (inr; field). rewrite cos_PI2, sin_PI2.
  ring.
Qed.

(** The rates of psk_test.py (44100 = 49 * 900 samples, 900 symbols, carrier 1800): every message
    passes its BPSK test, none would pass one for QPSK. *)
Theorem C70_psk_test_rates :
  forall data : list bool, data <> [] ->
    (exists w, kom_tx_bpsk data (49 * 900) 900 1800 = Ret w /\ kom_rx_bpsk w (49 * 900) 900 1800 = Ret data) /\
    (exists w bits, kom_tx_qpsk data (49 * 900) 900 1800 = Ret w /\ kom_rx_qpsk w (49 * 900) 900 1800 = Ret bits /\
       bits <> data ++ repeat false (length data mod 2)).
Proof.
  intros data Hd.
  assert (N : (49 * 900 / 900 = 49)%nat) by (apply Nat.div_mul; discriminate).
  assert (F : INR (49 * 900) = 44100) by (rewrite mult_INR, !INR_IZR_INZ, <- mult_IZR; reflexivity).
  assert (N' : INR 49 = 49) by (rewrite INR_IZR_INZ; reflexivity).
  assert (OK : rates_ok (49 * 900) 900 1800) by (split; [lia|]; split; [exists 49%nat; reflexivity|rewrite F; lra]).
  split.
  - apply (C69_standard_design data (49 * 900) 900 1800 4 OK Hd); rewrite ?N, ?N', ?F; [lia|lra|].
    intros (z & E). apply (no_alias 3600 44100); [discriminate|discriminate|]. exists z. rewrite <- E. lra.
  - destruct (C70_round_trip_refuted data (49 * 900) 900 1800 1 OK ltac:(lra) Hd) as (w & bits & E1 & E2 & E3 & _);
      [rewrite N, N', F; lra|]. exists w, bits. auto.
Qed.

(** Four samples per chip, half a cycle each. *)
Example C71_example :
  exists w, kom_tx_bpsk_cdma [true; false; true; true] 64 1 8 = Ret w /\ length w = 256%nat /\
    kom_rx_bpsk_cdma w 64 1 8 = Ret [false; true; false; false].
Proof.
  assert (OK : cdma_ok 64 1 8) by (repeat split; [lia|inr; lra|lia|exists 4%nat; reflexivity]).
  destruct (C71_reads_edges [true; false; true; true] 64 1 8 1 OK ltac:(discriminate)) as (w & E1 & E2).
  - change (64 / 1 / 16)%nat with 4%nat. inr. lra.
  - inr. rewrite <- (mult_IZR 2 8). apply (no_alias 16 64); discriminate.
  - exists w. split; [exact E1|]. split; [|exact E2].
    destruct (proj2 (C71_tx [true; false; true; true] 64 1 8) OK) as (w' & E & L & _). rewrite E1 in E. apply Ret_inj in E. subst w'. exact L.
Qed.
Example C71_example_rejects : kom_tx_bpsk_cdma [true] 16 1 2 = Panic /\ kom_rx_bpsk_cdma [1] 16 1 2 = Panic.
Proof. split; [apply C71_tx|apply C71_rx_is_plain_bpsk]; intros (_ & _ & H & _); lia. Qed.

Print Assumptions C69_tx.
Print Assumptions C69_rx.
Print Assumptions C69_round_trip.
Print Assumptions C69_standard_design.
Print Assumptions C69_four_samples_refuted.
Print Assumptions C69_one_sample_drops_first_bit.
Print Assumptions C69_same_as_rust.
Print Assumptions C70_baseband.
Print Assumptions C70_tx_half_carrier.
Print Assumptions C70_rx.
Print Assumptions C70_even_cycles.
Print Assumptions C70_round_trip_refuted.
Print Assumptions C70_psk_test_rates.
Print Assumptions C71_rx_is_plain_bpsk.
Print Assumptions C71_tx.
Print Assumptions C71_reads_edges.
Print Assumptions C71_round_trip_refuted.
