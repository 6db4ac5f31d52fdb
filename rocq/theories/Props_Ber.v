(** Property C92: the error-rate curves of kom_py/ber.py and ber_theory.py. *)
From Coq Require Import List Arith ZArith NArith Reals Bool Lia Lra.
From Flocq Require Import Core BinarySingleNaN.
From Verif Require Import Base IterTheory IterModel IterProofs IterRel PanicTheory Spec SpecR Tab Num F64Lib LibModel LibFloat
  PskModel FftModel OfdmModel PyModel SscaModel SscaProofs KomModel LabModel BerModel Props_Kom2 Props_Harness Props_Gain Props_Py Props_OfdmRx.
Import ListNotations.
Local Open Scope R_scope.

(** ** Calls that return and calls that raise *)

Lemma push_rows_cons {A B} a l (f : A -> outcome B) : push_rows (a :: l) f = let? b := f a in let? bs := push_rows l f in Ret (b :: bs).
Proof.
  assert (G : forall l acc, for_each l (fun rows i => let? row := f i in Ret (rows ++ [row])) acc =
     let? bs := push_rows l f in Ret (acc ++ bs)).
  { clear. induction l as [|a l IH]; intros acc; unfold push_rows in *; cbn [for_each bind]; [rewrite app_nil_r; reflexivity|].
    destruct (f a) as [b| |]; cbn [bind]; try reflexivity. rewrite (IH (acc ++ [b])), (IH ([] ++ [b])).
    destruct (for_each l _ []) as [bs| |]; cbn [bind]; try reflexivity. rewrite <- app_assoc. reflexivity. }
  unfold push_rows at 1. cbn [for_each]. destruct (f a) as [b| |]; cbn [bind]; try reflexivity. rewrite G. reflexivity.
Qed.

Lemma returns_bind {A B} (x : nat -> outcome A) (k : nat -> A -> outcome B) a b :
  returns x a -> returns (fun n => k n a) b -> returns (fun n => bind (x n) (k n)) b.
Proof. intros [n Hn] [m Hm]. exists (n + m)%nat. intros f Hf. rewrite (Hn f ltac:(lia)). cbn [bind]. apply Hm. lia. Qed.
Lemma raises_bind {A B} (x : nat -> outcome A) (k : nat -> A -> outcome B) : raises x -> raises (fun n => bind (x n) (k n)).
Proof. intros [n Hn]. exists n. intros f Hf. rewrite (Hn f Hf). reflexivity. Qed.
Lemma returns_raises {A B} (x : nat -> outcome A) (k : nat -> A -> outcome B) a :
  returns x a -> raises (fun n => k n a) -> raises (fun n => bind (x n) (k n)).
Proof. intros [n Hn] [m Hm]. exists (n + m)%nat. intros f Hf. rewrite (Hn f ltac:(lia)). cbn [bind]. apply Hm. lia. Qed.
Lemma returns_now {A} (v : A) : returns (fun _ => Ret v) v.
Proof. exists 0%nat. reflexivity. Qed.
Lemma raises_now {A} : raises (fun _ => @Panic A).
Proof. exists 0%nat. reflexivity. Qed.
Lemma returns_eq {A} (x y : nat -> outcome A) v : (forall n, x n = y n) -> returns y v -> returns x v.
Proof. intros E [n H]. exists n. intros f Hf. rewrite E. apply H. exact Hf. Qed.
Lemma raises_eq {A} (x y : nat -> outcome A) : (forall n, x n = y n) -> raises y -> raises x.
Proof. intros E [n H]. exists n. intros f Hf. rewrite E. apply H. exact Hf. Qed.

Lemma returns_rows {A B} (l : list A) (body : nat -> A -> outcome B) (P : A -> B -> Prop) :
  (forall a, In a l -> exists b, returns (fun n => body n a) b /\ P a b) ->
  exists bs, returns (fun n => push_rows l (body n)) bs /\ Forall2 P l bs.
Proof.
  induction l as [|a l IH]; intros H; [exists []; split; [apply returns_now|constructor]|].
  destruct (H a (or_introl eq_refl)) as (b & Rb & Pb). destruct IH as (bs & Rbs & Pbs); [intros; apply H; right; assumption|].
  exists (b :: bs). split; [|constructor; assumption]. eapply returns_eq; [intros n; apply push_rows_cons|].
  eapply returns_bind; [exact Rb|]. eapply (returns_bind _ (fun n bs => Ret (b :: bs))); [exact Rbs|apply returns_now].
Qed.
Lemma raises_first {A B} a (l : list A) (body : nat -> A -> outcome B) : raises (fun n => body n a) -> raises (fun n => push_rows (a :: l) (body n)).
Proof. intros H. eapply raises_eq; [intros n; apply push_rows_cons|]. apply raises_bind. exact H. Qed.

(** ** One curve, in binary64 *)

Lemma nan_to_num_finite x : is_finite (nan_to_num x) = true.
Proof.
  destruct x as [s|s| |s m e He]; try reflexivity; apply C84_not_inf; reflexivity.
Qed.

(** What [b] tells of two lists of bits: the fraction of the places they both have where they differ. *)
Definition fraction (sent received : list bool) (b : F64) : Prop :=
  let n := Nat.min (length sent) (length received) in
  is_finite b = true /\ B2R b = rd (INR (errors sent received) / INR n) /\ 0 <= B2R b <= 1 /\
  (B2R b = 0 <-> forall i, (i < n)%nat -> nth_error sent i = nth_error received i).

Section F64.
Variable libm : Libm.
Let num := NumF libm.
#[local] Existing Instance num.

Lemma kom_ber_fraction sent received : sent <> [] -> received <> [] -> (Z.of_nat (length sent) < 2 ^ 53)%Z ->
  exists b, kom_ber sent received = Ret b /\ fraction sent received b.
Proof.
  intros Hs Hr Hb. exists (ber sent received). split; [apply C76_ber; assumption|].
  assert (H1 : (1 <= Nat.min (length sent) (length received))%nat) by (destruct sent, received; try contradiction; cbn; lia).
  destruct (ber_value libm sent received H1 ltac:(lia)) as [F V].
  destruct (rd_frac (mismatches sent received) _ (mismatches_le _ _) H1 ltac:(lia)) as (R & R0 & _).
  assert (V' : B2R (@ber F64 num sent received) = rd (INR (mismatches sent received) / INR (Nat.min (length sent) (length received)))) by exact V.
  unfold fraction. rewrite errors_mismatches, V'. repeat split; try assumption; try apply R; rewrite R0; apply mismatches_0.
Qed.

(** The noise level of the scripts at a signal-to-noise ratio (ber.py:51-54): sqrt(fs eb / (2 snr)) / symbol rate, made finite,
    with the squared samples added up from the left. *)
Definition script_level (sample_rate symbol_rate bits : nat) (tx : list F64) (snr : F64) : F64 :=
  let energy := fold_left (fun e s => Bplus mode_NE e (Bmult mode_NE s s)) tx (f64_ofZ 0) in
  let eb := Bdiv mode_NE energy (f64_ofZ (Z.of_nat bits)) in
  nan_to_num (Bdiv mode_NE (nsqrt (Bdiv mode_NE (Bmult mode_NE (f64_ofZ (Z.of_nat sample_rate)) eb) (Bmult mode_NE (f64_ofZ 2) snr)))
    (f64_ofZ (Z.of_nat symbol_rate))).

Lemma levels_eq (sample_rate symbol_rate : nat) (data : list bool) (tx snrs : list F64) : data <> [] ->
  kom_noise_levels nan_to_num sample_rate symbol_rate data tx snrs = Ret (map (script_level sample_rate symbol_rate (length data) tx) snrs).
Proof.
  intros Hd. unfold kom_noise_levels. destruct (Nat.eqb_spec (length data) 0) as [E|_]; [destruct data; [contradiction|discriminate]|].
  f_equal. apply map_ext. intros snr. unfold script_level. cbv zeta.
  assert (G : forall a, fold_left nadd (map nsqr tx) a = fold_left (fun e s => Bplus mode_NE e (Bmult mode_NE s s)) tx a).
  { clear. induction tx as [|x tx IH]; intros a; [reflexivity|]. cbn [map fold_left]. exact (IH _). }
  rewrite (G (nofZ 0)). reflexivity.
Qed.

Lemma levels_at (sample_rate symbol_rate : nat) (data : list bool) (tx snrs : list F64) : data <> [] ->
  exists levels, kom_noise_levels nan_to_num sample_rate symbol_rate data tx snrs = Ret levels /\ length levels = length snrs /\
    Forall (fun n0 => is_finite n0 = true) levels /\ levels = map (script_level sample_rate symbol_rate (length data) tx) snrs.
Proof.
  intros Hd. rewrite levels_eq by exact Hd. eexists. split; [reflexivity|]. split; [apply map_length|]. split; [|reflexivity].
  apply Forall_map, Forall_forall. intros. apply nan_to_num_finite.
Qed.

Lemma kom_noisy (tx : list F64) (noise : F64 -> Iter F64) (z : nat -> F64) n0 : is_finite n0 = true -> streams (noise n0) z ->
  exists chan, awgn noise (of_list tx) n0 = Ret chan /\ returns (fun fuel => collect fuel chan) (disturbed nadd tx z).
Proof.
  intros Fn Hz. eexists. split; [unfold awgn, normal_new, assert_then; change (nfinite n0) with (is_finite n0); rewrite Fn; reflexivity|].
  assert (Ld : length (disturbed nadd tx z) = length tx) by (unfold disturbed; rewrite map_length; apply zip_stream_length).
  exists (S (length tx)). intros f Hf. apply collect_yields; [|lia]. apply imap_yields. apply izip_stream_yields; [apply of_list_yields|exact Hz].
Qed.

(** A curve has one point for each signal-to-noise ratio, whatever the signal holds: the noise level is
    always finite.  Point k is the fraction of wrong bits after noise of the level of ratio k. *)
Theorem C92_calc_ber (sample_rate symbol_rate : nat) (data : list bool) (tx : list F64)
  (rx : nat -> list F64 -> outcome (list bool)) (noise : nat -> F64 -> Iter F64) (z : nat -> F64 -> nat -> F64) (snrs : list F64) :
  data <> [] -> (Z.of_nat (length data) < 2 ^ 53)%Z ->
  (forall s, length s = length tx -> exists bits, returns (fun fuel => rx fuel s) bits /\ bits <> []) ->
  (forall k n0, is_finite n0 = true -> streams (noise k n0) (z k n0)) ->
  exists bers, returns (fun fuel => kom_calc_ber nan_to_num fuel sample_rate symbol_rate noise data tx (rx fuel) snrs) bers /\
    length bers = length snrs /\
    forall k b, nth_error bers k = Some b ->
      exists snr bits, nth_error snrs k = Some snr /\
        let n0 := script_level sample_rate symbol_rate (length data) tx snr in
        is_finite n0 = true /\ returns (fun fuel => rx fuel (disturbed nadd tx (z k n0))) bits /\ fraction data bits b.
Proof.
  intros Hd Hb Hrx Hz. destruct (levels_at sample_rate symbol_rate data tx snrs Hd) as (levels & El & Ll & Fl & Ev).
  destruct (returns_rows (index_from 0 levels) (fun fuel '(k, n0) => kom_get_ber fuel data tx (rx fuel) (noise k) n0)
    (fun '(k, n0) b => exists bits, is_finite n0 = true /\ returns (fun fuel => rx fuel (disturbed nadd tx (z k n0))) bits /\ fraction data bits b))
    as (bers & Rb & Fb).
  { intros [k n0] Hin. assert (Fn : is_finite n0 = true) by (apply in_combine_r in Hin; exact (proj1 (Forall_forall _ _) Fl n0 Hin)).
    destruct (kom_noisy tx (noise k) (z k n0) n0 Fn (Hz k n0 Fn)) as (chan & Ec & Rc).
    assert (Ld : length (disturbed nadd tx (z k n0)) = length tx) by (unfold disturbed; rewrite map_length; apply zip_stream_length).
    destruct (Hrx _ Ld) as (bits & Rx & Nx). destruct (kom_ber_fraction data bits Hd Nx Hb) as (b & Eb & Fb).
    exists b. split; [|exists bits; repeat split; try assumption; apply Fb]. unfold kom_get_ber. rewrite Ec. cbn [bind].
    eapply returns_bind; [exact Rc|]. cbn beta. eapply returns_bind; [exact Rx|]. rewrite Eb. apply returns_now. }
  exists bers. split; [|split].
  - eapply returns_eq; [|exact Rb]. intros fuel. unfold kom_calc_ber. rewrite El. reflexivity.
  - apply Forall2_len in Fb. rewrite <- Fb, <- Ll. unfold index_from. rewrite combine_length, seq_length. apply Nat.min_id.
  - intros k b Hk. assert (Hn : exists a, nth_error (index_from 0 levels) k = Some a /\
      (let '(k, n0) := a in exists bits, is_finite n0 = true /\ returns (fun fuel => rx fuel (disturbed nadd tx (z k n0))) bits /\ fraction data bits b)).
    { clear - Fb Hk. revert k Hk. induction Fb as [|[i a] b' l m H F IH]; intros [|k] Hk; try discriminate; cbn in Hk |- *.
      - injection Hk as <-. exists (i, a). split; [reflexivity|exact H].
      - apply IH. exact Hk. }
    destruct Hn as ([k' n0] & E & bits & H). unfold index_from in E. rewrite nth_error_combine in E.
    destruct (nth_error (seq 0 (length levels)) k) as [j|] eqn:Ej; [|discriminate]. destruct (nth_error levels k) as [n1|] eqn:En1; [|discriminate]. injection E as E1 E2. subst n1.
    rewrite Ev, nth_error_map in En1. destruct (nth_error snrs k) as [snr|]; [|discriminate]. cbn [option_map] in En1. injection En1 as <-.
    assert (k' = k) as ->; [|exists snr, bits; split; [reflexivity|exact H]]. rewrite <- E1. pose proof (nth_error_nth _ _ 0%nat Ej) as En.
    assert (Hl : (k < length (seq 0 (length levels)))%nat) by (apply nth_error_Some; rewrite Ej; discriminate). rewrite seq_length in Hl.
    rewrite seq_nth in En by exact Hl. exact (eq_sym En).
Qed.

(** A receiver that raises, or finds no bits, makes the curve raise. *)
Lemma calc_raises (sample_rate symbol_rate : nat) (data : list bool) (tx : list F64)
  (rx : nat -> list F64 -> outcome (list bool)) (noise : nat -> F64 -> Iter F64) (z : nat -> F64 -> nat -> F64) (snrs : list F64) :
  snrs <> [] ->
  (forall s, length s = length tx -> raises (fun fuel => rx fuel s) \/ returns (fun fuel => rx fuel s) []) ->
  (forall k n0, is_finite n0 = true -> streams (noise k n0) (z k n0)) ->
  raises (fun fuel => kom_calc_ber nan_to_num fuel sample_rate symbol_rate noise data tx (rx fuel) snrs).
Proof.
  intros Hs Hrx Hz. destruct data as [|d0 data']; [apply raises_now|]. set (data := d0 :: data') in *.
  destruct (levels_at sample_rate symbol_rate data tx snrs ltac:(discriminate)) as (levels & El & Ll & Fl & _).
  destruct levels as [|n0 levels]; [destruct snrs; [contradiction|discriminate]|]. assert (Fn := Forall_inv Fl). cbn beta in Fn.
  destruct (kom_noisy tx (noise 0%nat) (z 0%nat n0) n0 Fn (Hz 0%nat n0 Fn)) as (chan & Ec & Rc).
  assert (Ld : length (disturbed nadd tx (z 0%nat n0)) = length tx) by (unfold disturbed; rewrite map_length; apply zip_stream_length).
  eapply raises_eq; [intros fuel; unfold kom_calc_ber; rewrite El; cbn [bind]; change (index_from 0 (n0 :: levels)) with ((0%nat, n0) :: combine (seq 1 (length levels)) levels); reflexivity|].
  apply (raises_first _ _ (fun fuel '(k, n1) => kom_get_ber fuel data tx (rx fuel) (noise k) n1)). unfold kom_get_ber. rewrite Ec. cbn [bind].
  eapply returns_raises; [exact Rc|]. cbn beta. destruct (Hrx _ Ld) as [R|R].
  - apply raises_bind. exact R.
  - eapply returns_raises; [exact R|]. apply raises_now.
Qed.

(** ** The script *)

Lemma ber_rates : (Z.of_nat BER_SAMPLE_RATE < 2 ^ 53)%Z /\ (Z.of_nat BER_SYMBOL_RATE < 2 ^ 53)%Z /\
  divides_rate BER_SAMPLE_RATE BER_SYMBOL_RATE /\ (BER_SAMPLE_RATE / BER_SYMBOL_RATE = 256)%nat /\
  below_half BER_SAMPLE_RATE BER_CARRIER_FREQ /\ (1 <= BER_SYMBOL_RATE <= BER_SAMPLE_RATE)%nat.
Proof.
  assert (D : (BER_SAMPLE_RATE / BER_SYMBOL_RATE = 256)%nat) by (unfold BER_SAMPLE_RATE, BER_SYMBOL_RATE; apply Nat.div_mul; lia).
  assert (S : (Z.of_nat BER_SAMPLE_RATE < 2 ^ 53)%Z) by (unfold BER_SAMPLE_RATE; rewrite Nat2Z.inj_mul; reflexivity).
  split; [exact S|]. split; [reflexivity|]. split; [split; [discriminate|exists 256%nat; reflexivity]|]. split; [exact D|]. split.
  - right. replace (Z.of_nat (BER_SAMPLE_RATE / 2)) with 32768%Z; [vm_compute; reflexivity|].
    unfold BER_SAMPLE_RATE. change (256 * 256)%nat with (256 * (128 * 2))%nat. rewrite Nat.mul_assoc, Nat.div_mul by lia.
    rewrite Nat2Z.inj_mul. reflexivity.
  - unfold BER_SAMPLE_RATE, BER_SYMBOL_RATE. rewrite <- (Nat.mul_1_l 256) at 2. split; [lia|]. apply Nat.mul_le_mono_r. lia.
Qed.

(** For n bits the script makes its three curves if one more than the last of them falls on a whole number of OFDM blocks of 20 symbols of
    256 samples, counting bits as samples, since ofdm_rx decodes the bits themselves.  Otherwise it raises. *)
Theorem C92_ber_main (fft : Fft F64) (noise : nat -> nat -> F64 -> Iter F64) (z : nat -> nat -> F64 -> nat -> F64) (data : list bool) (snrs : list F64) :
  (Z.of_nat (length data) < 2 ^ 53)%Z -> snrs <> [] ->
  (forall m k n0, is_finite n0 = true -> streams (noise m k n0) (z m k n0)) ->
  let call := fun fuel => kom_ber_main nan_to_num fft fuel noise data snrs in
  let ok := exists blocks, (1 <= blocks /\ (length data + 254) / 256 = 20 * blocks)%nat in
  (~ ok -> raises call) /\
  (ok -> exists bpsk qpsk ofdm, returns call [bpsk; qpsk; ofdm] /\
     length bpsk = length snrs /\ length qpsk = length snrs /\ length ofdm = length snrs /\
     Forall (fun b => is_finite b = true /\ 0 <= B2R b <= 1) (bpsk ++ qpsk ++ ofdm)).
Proof.
  intros Hn Hs Hz call ok. destruct ber_rates as (S1 & S2 & D & Q & B & O). set (n := length data) in *.
  destruct (C66_tx_bpsk libm data _ _ S1 S2 BER_CARRIER_FREQ) as (_ & _ & T1).
  destruct (C66_tx_qpsk libm data BER_SAMPLE_RATE BER_SYMBOL_RATE BER_CARRIER_FREQ) as (_ & _ & T2).
  destruct (C66_tx_ofdm libm data _ _ S1 S2 fft BER_SUBCARRIERS BER_PILOTS BER_CARRIER_FREQ) as (blocks & _ & _ & _ & _ & T3).
  rewrite Q in T1, T2, T3.
  destruct (T1 (conj D B) ltac:(lia)) as (w1 & R1 & L1). destruct (T2 ltac:(discriminate) ltac:(lia)) as (w2 & R2 & L2).
  destruct (T3 ltac:(split; [exact D|unfold BER_SUBCARRIERS, BER_PILOTS; lia]) ltac:(lia)) as (w3 & R3 & _). clear T1 T2 T3.
  assert (RX1 : forall s, length s = length w1 -> exists bits, returns (py_rx_bpsk s BER_SAMPLE_RATE BER_SYMBOL_RATE BER_CARRIER_FREQ) bits /\ length bits = n).
  { intros s Ls. destruct (C66_rx_bpsk libm s BER_SAMPLE_RATE BER_SYMBOL_RATE BER_CARRIER_FREQ) as (_ & _ & C). destruct (C O) as (bits & Rb & Lb).
    exists bits. split; [exact Rb|]. rewrite Lb, Ls, L1, Q. apply Nat.div_mul. lia. }
  assert (RX2 : forall s, length s = length w2 -> exists bits, returns (py_rx_qpsk s BER_SAMPLE_RATE BER_SYMBOL_RATE BER_CARRIER_FREQ) bits /\ length bits = (2 * (n / 2))%nat).
  { intros s Ls. destruct (C66_rx_qpsk libm s BER_SAMPLE_RATE BER_SYMBOL_RATE BER_CARRIER_FREQ) as (_ & _ & C). destruct (C O) as (bits & Rb & Lb).
    exists bits. split; [exact Rb|]. rewrite Lb, Ls, L2, Q, Nat.div_mul by lia. reflexivity. }
  pose proof (C91_rx_ofdm libm fft (map float_of_bool data) BER_SUBCARRIERS BER_PILOTS BER_SAMPLE_RATE BER_SYMBOL_RATE BER_CARRIER_FREQ S1 S2
    ltac:(rewrite map_length; fold n; lia)) as C. cbv zeta in C. rewrite map_length, Q in C. fold n in C.
  change (BER_SUBCARRIERS + BER_SUBCARRIERS / 4)%nat with 20%nat in C.
  set (symbols := (if (n <=? 256)%nat then if (2 * n - 1 <=? 256)%nat then 0%nat else 1%nat else ((n - 1 + (256 - 1)) / 256)%nat)) in C.
  assert (Sok : ok -> exists k, (1 <= k /\ symbols = 20 * k)%nat).
  { intros (k & Hk & E). exists k. split; [exact Hk|]. unfold symbols. destruct (Nat.leb_spec n 256) as [H|H].
    - exfalso. assert ((n + 254) / 256 < 20)%nat by (apply Nat.div_lt_upper_bound; lia). lia.
    - rewrite <- E. f_equal. lia. }
  assert (Sno : ~ ok -> symbols = 0%nat \/ ~ Nat.divide 20 symbols).
  { intros N. unfold symbols. destruct (Nat.leb_spec n 256) as [H|H].
    - destruct (2 * n - 1 <=? 256)%nat; [left; reflexivity|right]. intros [k Hk]. lia.
    - right. intros [k Hk]. apply N. exists k. replace (n + 254)%nat with (n - 1 + (256 - 1))%nat by lia. split; [|lia].
      assert (1 <= (n - 1 + (256 - 1)) / 256)%nat by (apply Nat.div_le_lower_bound; lia). lia. }
  assert (K : forall m w (rx : nat -> list F64 -> outcome (list bool)), data <> [] ->
     (forall s, length s = length w -> exists bits, returns (fun fuel => rx fuel s) bits /\ bits <> []) ->
     exists bers, returns (fun fuel => kom_calc_ber nan_to_num fuel BER_SAMPLE_RATE BER_SYMBOL_RATE (noise m) data w (rx fuel) snrs) bers /\
       length bers = length snrs /\ Forall (fun b => is_finite b = true /\ 0 <= B2R b <= 1) bers).
  { intros m w rx Hd Hrx. destruct (C92_calc_ber BER_SAMPLE_RATE BER_SYMBOL_RATE data w rx (noise m) (z m) snrs Hd Hn Hrx (Hz m)) as (bers & Rb & Lb & Fb).
    exists bers. split; [exact Rb|]. split; [exact Lb|]. apply Forall_forall. intros b Hin. apply In_nth_error in Hin. destruct Hin as [k Hk].
    destruct (Fb k b Hk) as (snr & bits & _ & _ & _ & F1 & _ & F2 & _). split; assumption. }
  assert (Ed : n = 0%nat \/ data <> []) by (unfold n; destruct data; [left; reflexivity|right; discriminate]).
  assert (RX1' : data <> [] -> forall s, length s = length w1 -> exists bits, returns (fun fuel => py_rx_bpsk s BER_SAMPLE_RATE BER_SYMBOL_RATE BER_CARRIER_FREQ fuel) bits /\ bits <> []).
  { intros Hd s Ls. destruct (RX1 s Ls) as (bits & Rb & Lb). exists bits. split; [exact Rb|]. intros ->. cbn in Lb. destruct data; [contradiction|discriminate]. }
  assert (RX2' : (2 <= n)%nat -> forall s, length s = length w2 -> exists bits, returns (fun fuel => py_rx_qpsk s BER_SAMPLE_RATE BER_SYMBOL_RATE BER_CARRIER_FREQ fuel) bits /\ bits <> []).
  { intros H2 s Ls. destruct (RX2 s Ls) as (bits & Rb & Lb). exists bits. split; [exact Rb|]. intros ->. cbn [length] in Lb.
    assert (1 <= n / 2)%nat by (apply Nat.div_le_lower_bound; lia). lia. }
  split; intros Hok.
  - unfold call, kom_ber_main. eapply returns_raises; [exact R1|cbn beta]. eapply returns_raises; [exact R2|cbn beta]. eapply returns_raises; [exact R3|cbn beta].
    destruct Ed as [E0|Hd]; [destruct data; [apply raises_bind, raises_now|discriminate]|].
    destruct (K 0%nat w1 _ Hd (RX1' Hd)) as (b1 & Rb1 & _). eapply returns_raises; [exact Rb1|]. cbn beta.
    destruct (le_dec 2 n) as [H2|H2].
    + destruct (K 1%nat w2 _ Hd (RX2' H2)) as (b2 & Rb2 & _). eapply returns_raises; [exact Rb2|]. cbn beta. apply raises_bind.
      apply (calc_raises _ _ data w3 (fun fuel => kom_ofdm_rx fft fuel data BER_SUBCARRIERS BER_PILOTS BER_SAMPLE_RATE BER_SYMBOL_RATE BER_CARRIER_FREQ) (noise 2%nat) (z 2%nat) snrs Hs);
        [|exact (Hz 2%nat)]. intros s _. unfold kom_ofdm_rx. destruct (Sno Hok) as [E|E].
      * right. rewrite E in C. destruct C as [_ C]. destruct C as (bits & Rb & Lb).
        { split; [discriminate|]. split; [apply D|]. split; [lia|]. split; [unfold BER_SUBCARRIERS, BER_PILOTS; lia|exists 0%nat; reflexivity]. }
        rewrite Nat.div_0_l in Lb by lia. destruct bits; [exact Rb|discriminate].
      * left. apply C. intros (_ & _ & _ & _ & H). contradiction.
    + apply raises_bind. apply (calc_raises _ _ data w2 (fun fuel signal => py_rx_qpsk signal BER_SAMPLE_RATE BER_SYMBOL_RATE BER_CARRIER_FREQ fuel) (noise 1%nat) (z 1%nat) snrs Hs);
        [|exact (Hz 1%nat)]. intros s Ls. right. destruct (RX2 s Ls) as (bits & Rb & Lb).
      rewrite Nat.div_small in Lb by lia. destruct bits; [exact Rb|discriminate].
  - assert (H2 : (2 <= n)%nat).
    { destruct Hok as (k & Hk & E). destruct (le_dec 2 n) as [H|H]; [exact H|exfalso]. rewrite Nat.div_small in E by lia. lia. }
    destruct Ed as [E0|Hd]; [lia|].
    destruct (K 0%nat w1 _ Hd (RX1' Hd)) as (b1 & Rb1 & Lb1 & Fb1). destruct (K 1%nat w2 _ Hd (RX2' H2)) as (b2 & Rb2 & Lb2 & Fb2).
    destruct (K 2%nat w3 (fun fuel => kom_ofdm_rx fft fuel data BER_SUBCARRIERS BER_PILOTS BER_SAMPLE_RATE BER_SYMBOL_RATE BER_CARRIER_FREQ) Hd) as (b3 & Rb3 & Lb3 & Fb3).
    { intros s _. unfold kom_ofdm_rx. destruct (Sok Hok) as (k & Hk & Ek). rewrite Ek in C. destruct C as [_ C]. destruct C as (bits & Rb & Lb).
      { split; [discriminate|]. split; [apply D|]. split; [lia|]. split; [unfold BER_SUBCARRIERS, BER_PILOTS; lia|exists k; lia]. }
      exists bits. split; [exact Rb|]. intros ->. rewrite (Nat.mul_comm 20 k), Nat.div_mul in Lb by lia. unfold BER_SUBCARRIERS, BER_PILOTS in Lb. cbn [length] in Lb. lia. }
    exists b1, b2, b3. split; [|split; [exact Lb1|split; [exact Lb2|split; [exact Lb3|]]]].
    + unfold call, kom_ber_main. eapply returns_bind; [exact R1|cbn beta]. eapply returns_bind; [exact R2|cbn beta]. eapply returns_bind; [exact R3|cbn beta].
      eapply returns_bind; [exact Rb1|cbn beta]. eapply returns_bind; [exact Rb2|cbn beta]. eapply returns_bind; [exact Rb3|cbn beta]. apply returns_now.
    + apply Forall_app. split; [exact Fb1|]. apply Forall_app. split; [exact Fb2|exact Fb3].
Qed.

(** With the script's 9001 bits it always raises, whatever the bits, the noise and the transform. *)
Theorem C92_ber_never (fft : Fft F64) (noise : nat -> nat -> F64 -> Iter F64) (z : nat -> nat -> F64 -> nat -> F64) (data : list bool) (snrs : list F64) :
  Z.of_nat (length data) = 9001%Z -> snrs <> [] ->
  (forall m k n0, is_finite n0 = true -> streams (noise m k n0) (z m k n0)) ->
  raises (fun fuel => kom_ber_main nan_to_num fft fuel noise data snrs).
Proof.
  intros Hl Hs Hz. apply (C92_ber_main fft noise z data snrs); [rewrite Hl; reflexivity|exact Hs|exact Hz|].
  intros (k & Hk & E). apply (f_equal Z.of_nat) in E. rewrite Nat2Z.inj_div, Nat2Z.inj_add, Nat2Z.inj_mul, Hl in E.
  change ((9001 + Z.of_nat 254) / Z.of_nat 256)%Z with 36%Z in E. lia.
Qed.
End F64.

(** ** The OFDM curve is a constant *)

(** ofdm_rx never looks at the signal: every point of every curve made with it has the same value, fixed by
    the bits and the receiver's settings, whatever the signal, the noise and the signal-to-noise ratios. *)
Theorem C92_ofdm_constant {T} `{Num T} (fft : Fft T) (fuel : nat) (data : list bool) (N P sr sy : nat) (fc : T) :
  exists b, forall (nan0 : T -> T) sample_rate symbol_rate noise tx snrs bers,
    kom_calc_ber nan0 fuel sample_rate symbol_rate noise data tx (kom_ofdm_rx fft fuel data N P sr sy fc) snrs = Ret bers ->
    bers = repeat b (length snrs).
Proof.
  exists (match (let? bits := kom_ofdm_rx fft fuel data N P sr sy fc [] in kom_ber data bits) with Ret b => b | _ => nofZ 0 end).
  set (b := match _ with Ret b => b | _ => _ end). intros nan0 sample_rate symbol_rate noise tx snrs bers E. unfold kom_calc_ber in E.
  assert (L : forall levels, kom_noise_levels nan0 sample_rate symbol_rate data tx snrs = Ret levels -> length levels = length snrs).
  { unfold kom_noise_levels. destruct (length data =? 0)%nat; [discriminate|]. intros levels EE. injection EE as <-. apply map_length. }
  destruct (kom_noise_levels nan0 sample_rate symbol_rate data tx snrs) as [levels| |]; cbn [bind] in E; try discriminate.
  rewrite <- (L levels eq_refl). clear L.
  assert (Li : length levels = length (index_from 0 levels)) by (unfold index_from; rewrite combine_length, seq_length; symmetry; apply Nat.min_id).
  rewrite Li. clear Li. revert bers E. generalize (index_from 0 levels). intros l. induction l as [|[k n0] l IH]; intros bers E.
  - cbn in E. injection E as <-. reflexivity.
  - rewrite push_rows_cons in E. cbn beta iota in E. destruct (kom_get_ber _ _ _ _ _ _) as [v| |] eqn:Ev; cbn [bind] in E; try discriminate.
    destruct (push_rows l _) as [bs| |] eqn:El; cbn [bind] in E; try discriminate. injection E as <-. cbn [length repeat].
    rewrite (IH bs eq_refl). f_equal. unfold b. unfold kom_get_ber in Ev.
    destruct (awgn _ _ _) as [chan| |]; cbn [bind] in Ev; try discriminate. destruct (collect fuel chan); cbn [bind] in Ev; try discriminate.
    change (kom_ofdm_rx fft fuel data N P sr sy fc []) with (kom_ofdm_rx fft fuel data N P sr sy fc a). rewrite Ev. reflexivity.
Qed.

(** ** Gain, over the reals *)

(** Gaussian noise of level n0: n0 times a sequence that does not depend on it. *)
Definition scaled_noise (std : nat -> Iter R) (k : nat) (n0 : R) : Iter R := amplified n0 (std k).

(** A receiver that decides the same on a signal and on g times it. *)
Definition ignores_gain (rx : list R -> outcome (list bool)) : Prop := forall g s, 0 < g -> rx (map (Rmult g) s) = rx s.

Lemma collect_eq {A} (a b : Iter A) fuel : isim eq a b -> collect fuel a = collect fuel b.
Proof.
  intros S. pose proof (collect_rel eq fuel a b S) as C. destruct (collect fuel a) as [x| |], (collect fuel b) as [y| |]; cbn in C; try contradiction; try reflexivity.
  f_equal. induction C; congruence.
Qed.

Lemma times_map g (a b : list R) : Forall2 (times g) a b -> b = map (Rmult g) a.
Proof. induction 1; cbn; congruence. Qed.
Lemma times_list g (l : list R) : Forall2 (times g) l (map (Rmult g) l).
Proof. induction l; cbn; constructor; auto. Qed.

Lemma energy_gain g (tx : list R) : fold_left nadd (map nsqr (map (Rmult g) tx)) (nofZ 0) = g * g * fold_left nadd (map nsqr tx) (nofZ 0).
Proof.
  assert (G : forall acc, fold_left nadd (map nsqr (map (Rmult g) tx)) (g * g * acc) = g * g * fold_left nadd (map nsqr tx) acc).
  { induction tx as [|x tx IH]; intros acc; [reflexivity|]. cbn [map fold_left]. rewrite <- IH. f_equal. unfold nsqr. cbn. ring. }
  rewrite <- (G (nofZ 0)). f_equal. cbn. ring.
Qed.
Lemma sqrt_gain g x : 0 < g -> sqrt (g * g * x) = g * sqrt x.
Proof.
  intros Hg. destruct (Rle_dec 0 x) as [H|H].
  - rewrite sqrt_mult by nra. rewrite sqrt_square by lra. reflexivity.
  - rewrite !sqrt_neg by nra. ring.
Qed.

Definition unchanged (x : R) : R := x.

Lemma levels_gain sr sy data g tx snrs : 0 < g ->
  kom_noise_levels unchanged sr sy data (map (Rmult g) tx) snrs =
  let? n0s := kom_noise_levels unchanged sr sy data tx snrs in Ret (map (Rmult g) n0s).
Proof.
  intros Hg. unfold kom_noise_levels. destruct (length data =? 0)%nat; cbn [bind]; [reflexivity|]. f_equal. rewrite (map_map _ (Rmult g)). apply map_ext. intros snr.
  rewrite energy_gain. unfold unchanged. set (e := fold_left _ _ _). change ((sqrt (nofnat sr * (g * g * e / nofnat (length data)) / (2 * snr)) / nofnat sy) =
    g * (sqrt (nofnat sr * (e / nofnat (length data)) / (2 * snr)) / nofnat sy)). unfold Rdiv at 1 4. rewrite <- Rmult_assoc. f_equal.
  rewrite <- sqrt_gain by exact Hg. f_equal. unfold Rdiv. ring.
Qed.

Lemma get_gain fuel data g tx rx std k n0 : 0 < g -> ignores_gain rx ->
  kom_get_ber fuel data (map (Rmult g) tx) rx (scaled_noise std k) (g * n0) = kom_get_ber fuel data tx rx (scaled_noise std k) n0.
Proof.
  intros Hg Hrx. unfold kom_get_ber, awgn, normal_new, assert_then. cbn [nfinite NumR bind].
  match goal with |- bind (collect fuel ?a) _ = bind (collect fuel ?b) _ => assert (S : isim (times g) b a) end.
  { apply (imap_sim (pairrel (times g) (times g))).
    - apply izip_sim; [apply of_list_sim, times_list|]. apply (imap_sim eq); [apply isim_refl; reflexivity|]. intros x y <-. ring.
    - intros [x1 x2] [y1 y2] [H1 H2]. cbn in *. subst. ring. }
  pose proof (collect_rel (times g) fuel _ _ S) as C. clear S.
  match goal with |- bind ?a _ = bind ?b _ => destruct a as [x| |], b as [y| |] end; cbn in C |- *; try contradiction; try reflexivity.
  rewrite (times_map _ _ _ C), Hrx by exact Hg. reflexivity.
Qed.

(** The curve does not depend on the transmitted power: the noise level follows the energy of the signal. *)
Theorem C92_gain fuel sample_rate symbol_rate (std : nat -> Iter R) data tx rx snrs g : 0 < g -> ignores_gain rx ->
  kom_calc_ber unchanged fuel sample_rate symbol_rate (scaled_noise std) data (map (Rmult g) tx) rx snrs =
  kom_calc_ber unchanged fuel sample_rate symbol_rate (scaled_noise std) data tx rx snrs.
Proof.
  intros Hg Hrx. unfold kom_calc_ber. rewrite levels_gain by exact Hg.
  destruct (kom_noise_levels unchanged sample_rate symbol_rate data tx snrs) as [n0s| |]; cbn [bind]; try reflexivity.
  unfold index_from. rewrite map_length. generalize 0%nat. induction n0s as [|n0 n0s IH]; intros i; [reflexivity|].
  cbn [map length seq combine]. rewrite !push_rows_cons. cbn beta iota. rewrite get_gain by assumption. rewrite IH. reflexivity.
Qed.

Lemma list_gain (make : Iter R -> outcome (Iter bool)) g s fuel :
  orel (isim eq) (make (of_list s)) (make (of_list (map (Rmult g) s))) ->
  py_collect (make (of_list (map (Rmult g) s))) fuel = py_collect (make (of_list s)) fuel.
Proof.
  unfold py_collect. destruct (make (of_list s)) as [a| |], (make (of_list (map (Rmult g) s))) as [b| |]; cbn; try contradiction; try reflexivity.
  intros H. symmetry. apply collect_eq. exact H.
Qed.

(** The receivers of the library are such receivers, and so the halved signal of ber_theory.py gives the
    curve of the signal itself. *)
Theorem C92_bpsk_ignores_gain sr sy fc fuel : ignores_gain (fun s => py_rx_bpsk s sr sy fc fuel).
Proof. intros g s Hg. apply (list_gain (fun it => rx_bpsk_signal it sr sy fc)). apply (bpsk_gain_sim g); [exact Hg|apply of_list_sim, times_list]. Qed.
Theorem C92_qpsk_ignores_gain sr sy fc fuel : ignores_gain (fun s => py_rx_qpsk s sr sy fc fuel).
Proof. intros g s Hg. cbn beta. unfold py_rx_qpsk. apply (list_gain (fun it => rx_qpsk_signal it sr sy fc)). apply (qpsk_gain_sim g); [exact Hg|apply of_list_sim, times_list]. Qed.

Theorem C92_half fuel sample_rate symbol_rate (std : nat -> Iter R) data tx fc snrs :
  let rx := fun s => py_rx_bpsk s sample_rate symbol_rate fc fuel in
  kom_half_ber unchanged fuel sample_rate symbol_rate (scaled_noise std) data tx rx snrs =
  kom_calc_ber unchanged fuel sample_rate symbol_rate (scaled_noise std) data tx rx snrs.
Proof.
  intros rx. unfold kom_half_ber. rewrite <- (C92_gain fuel sample_rate symbol_rate std data tx rx snrs (1 / 2)); [|lra|apply C92_bpsk_ignores_gain].
  f_equal.
Qed.

(** The noise level agrees with the one of the Rust harness, sqrt(eb / (2 snr)), exactly if the sample rate
    is the square of the symbol rate, as it happens to be in ber.py. *)
Theorem C92_noise_scale sample_rate symbol_rate data tx snr : data <> [] -> (1 <= symbol_rate)%nat -> 0 < snr -> Exists (fun x => x <> 0) tx ->
  let eb := fold_right Rplus 0 (map (fun x => x * x) tx) / INR (length data) in
  exists level, kom_noise_levels unchanged sample_rate symbol_rate data tx [snr] = Ret [level] /\
    level = sqrt (INR sample_rate * eb / (2 * snr)) / INR symbol_rate /\
    (level = sqrt (eb / (2 * snr)) <-> sample_rate = (symbol_rate * symbol_rate)%nat).
Proof.
  intros Hd Hy Hs Hx eb. unfold kom_noise_levels. destruct (Nat.eqb_spec (length data) 0) as [E|Hl]; [destruct data; [contradiction|discriminate]|].
  eexists. split; [reflexivity|].
  assert (Ee : fold_left nadd (map nsqr tx) (nofZ 0) = fold_right Rplus 0 (map (fun x => x * x) tx)).
  { cbn [nofZ NumR]. rewrite fold_symmetric by (cbn; intros; ring). cbn [nofZ NumR nadd]. f_equal. }
  assert (Hp : 0 < fold_right Rplus 0 (map (fun x => x * x) tx)).
  { assert (Q : forall l, 0 <= fold_right Rplus 0 (map (fun x => x * x) l)) by (induction l; cbn; nra).
    clear - Hx Q. induction Hx as [x l Hx|x l _ IH]; cbn; [specialize (Q l); pose proof (Rsqr_pos_lt x Hx) as X; unfold Rsqr in X; lra|nra]. }
  assert (Hn : 0 < INR (length data)) by (apply lt_0_INR; lia). assert (Hsy : 1 <= INR symbol_rate) by (apply (le_INR 1); exact Hy).
  assert (Heb : 0 < eb) by (unfold eb; apply Rdiv_lt_0_compat; assumption).
  unfold unchanged. cbn [map nsqrt ndiv nmul NumR] in *. rewrite Ee. unfold nofnat. cbn [nofZ NumR]. rewrite <- !INR_IZR_INZ. fold eb.
  split; [reflexivity|].
  assert (P : 0 < eb / (2 * snr)) by (apply Rdiv_lt_0_compat; lra). assert (Hsr : 0 <= INR sample_rate) by apply pos_INR.
  replace (INR sample_rate * eb / (2 * snr)) with (INR sample_rate * (eb / (2 * snr))) by (field; lra).
  rewrite sqrt_mult by lra. set (q := sqrt (eb / (2 * snr))). assert (Hq : 0 < q) by (apply sqrt_lt_R0; exact P). split.
  - intros E. assert (E2 : sqrt (INR sample_rate) = INR symbol_rate).
    { apply (Rmult_eq_reg_r q); [|lra]. apply (Rmult_eq_reg_r (/ INR symbol_rate)); [|apply Rinv_neq_0_compat; lra].
      replace (INR symbol_rate * q * / INR symbol_rate) with q by (field; lra). exact E. }
    apply INR_eq. rewrite mult_INR, <- E2. symmetry. apply sqrt_sqrt. exact Hsr.
  - intros ->. rewrite mult_INR, sqrt_square by lra. field. lra.
Qed.

(** ** Concrete cases *)

(** Three bits at two samples per symbol: a curve with two points. *)
Example C92_calc_case libm (noise : F64) : let num := NumF libm in
  exists w bers, returns (py_tx_bpsk [true; false; true] 4 2 (f64_ofZ 1)) w /\ length bers = 2%nat /\
    returns (fun fuel => kom_calc_ber nan_to_num fuel 4 2 (fun _ _ => always noise) [true; false; true] w
               (fun s => py_rx_bpsk s 4 2 (f64_ofZ 1) fuel) [f64_ofZ 0; B754_nan]) bers.
Proof.
  intros num. assert (D : divides_rate 4 2) by (split; [lia|exists 2%nat; reflexivity]).
  destruct (C66_tx_bpsk libm [true; false; true] 4 2 eq_refl eq_refl (f64_ofZ 1)) as (_ & _ & E).
  destruct E as (w & Rw & Lw); [split; [exact D|right; vm_compute; reflexivity]|left; cbn; lia|].
  destruct (C92_calc_ber libm 4 2 [true; false; true] w (fun fuel s => py_rx_bpsk s 4 2 (f64_ofZ 1) fuel) (fun _ _ => always noise) (fun _ _ _ => noise)
    [f64_ofZ 0; B754_nan]) as (bers & Rb & Lb & _).
  - discriminate.
  - reflexivity.
  - intros s Ls. destruct (C66_rx_bpsk libm s 4 2 (f64_ofZ 1)) as (_ & _ & C). destruct (C ltac:(lia)) as (bits & R & L).
    exists bits. split; [exact R|]. intros ->. rewrite Ls, Lw in L. discriminate.
  - intros. apply always_streams.
  - exists w, bers. split; [exact Rw|]. split; [exact Lb|exact Rb].
Qed.

(** 19 * 256 + 2 bits just make 20 symbols, and the script ends; one bit less and it raises. *)
Example C92_main_case libm (fft : Fft F64) (noise snr : F64) : let num := NumF libm in
  (exists curves, returns (fun fuel => kom_ber_main nan_to_num fft fuel (fun _ _ _ => always noise) (repeat true (19 * 256 + 2)) [snr]) curves) /\
  raises (fun fuel => kom_ber_main nan_to_num fft fuel (fun _ _ _ => always noise) (repeat true (19 * 256 + 1)) [snr]).
Proof.
  intros num. split.
  - destruct (C92_ber_main libm fft (fun _ _ _ => always noise) (fun _ _ _ _ => noise) (repeat true (19 * 256 + 2)) [snr]) as [_ C].
    + rewrite repeat_length, Nat2Z.inj_add, Nat2Z.inj_mul. reflexivity.
    + discriminate.
    + intros. apply always_streams.
    + destruct C as (b1 & b2 & b3 & R & _); [|exists [b1; b2; b3]; exact R]. exists 1%nat. split; [lia|]. rewrite repeat_length.
      rewrite <- Nat.add_assoc. change (2 + 254)%nat with 256%nat. rewrite (Nat.add_comm (19 * 256)), Nat.div_add by lia. reflexivity.
  - destruct (C92_ber_main libm fft (fun _ _ _ => always noise) (fun _ _ _ _ => noise) (repeat true (19 * 256 + 1)) [snr]) as [C _].
    + rewrite repeat_length, Nat2Z.inj_add, Nat2Z.inj_mul. reflexivity.
    + discriminate.
    + intros. apply always_streams.
    + apply C. intros (k & Hk & E). rewrite repeat_length, <- Nat.add_assoc in E. change (1 + 254)%nat with 255%nat in E.
      rewrite (Nat.add_comm (19 * 256)), Nat.div_add in E by lia. change (255 / 256)%nat with 0%nat in E. lia.
Qed.
Example C92_scale_case : BER_SAMPLE_RATE = (BER_SYMBOL_RATE * BER_SYMBOL_RATE)%nat /\ (49 * 900 <> 900 * 900)%nat.
Proof. split; [reflexivity|]. intros E. apply Nat.mul_cancel_r in E; discriminate. Qed.
(** Three bits at 2 samples per symbol, a signal amplified tenfold. *)
Example C92_gain_case std tx fuel :
  kom_calc_ber unchanged fuel 4 2 (scaled_noise std) [true; false; true] (map (Rmult 10) tx) (fun s => py_rx_bpsk s 4 2 1 fuel) [1; 2] =
  kom_calc_ber unchanged fuel 4 2 (scaled_noise std) [true; false; true] tx (fun s => py_rx_bpsk s 4 2 1 fuel) [1; 2].
Proof. apply C92_gain; [lra|apply C92_bpsk_ignores_gain]. Qed.

(** ** Axioms used *)
Print Assumptions C92_calc_ber.
Print Assumptions C92_ber_main.
Print Assumptions C92_ber_never.
Print Assumptions C92_ofdm_constant.
Print Assumptions C92_gain.
Print Assumptions C92_bpsk_ignores_gain.
Print Assumptions C92_qpsk_ignores_gain.
Print Assumptions C92_half.
Print Assumptions C92_noise_scale.
