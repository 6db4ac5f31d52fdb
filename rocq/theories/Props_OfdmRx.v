(** Property C91: the OFDM receivers end in one of two ways, decided by the length of the signal. *)
From Coq Require Import List Arith ZArith NArith Reals Bool Lia Lra.
From Flocq Require Import Core BinarySingleNaN.
From Verif Require Import Base IterTheory IterModel IterProofs PanicTheory Spec SpecR Tab Num F64Lib LibModel
  PskModel CdmaModel FftModel OfdmModel OfdmProofs FhModel FhProofs PyModel Props_Iter Props_Psk Props_Bch Props_Ofdm Props_Py.
Import ListNotations.

(** ** Lengths *)

Lemma conv_run_length {A B C} (zero : C) add (mul : A -> B -> C) h (l : list A) : 1 <= length h -> forall buf, length buf <= length h ->
  length (conv_run zero add mul h buf l) = length l + (Nat.min (length h) (length buf + length l) - 1).
Proof.
  intros Hh. induction l as [|a l IH]; intros buf Hb; cbn [conv_run length].
  - rewrite map_length, seq_length. lia.
  - rewrite IH by (rewrite firstn_length; cbn [length]; lia). rewrite firstn_length. cbn [length]. lia.
Qed.

Lemma decim_length {A} n (l : list A) : 1 <= n -> length (decim n 0 l) = ceil_div (length l) n.
Proof.
  intros Hn. pose proof (ceil_div_spec (length l) n Hn) as S.
  destruct (Nat.lt_trichotomy (length (decim n 0 l)) (ceil_div (length l) n)) as [H|[H|H]]; [exfalso| exact H|exfalso].
  - assert (E : nth_error (decim n 0 l) (length (decim n 0 l)) = None) by (apply nth_error_None; lia).
    rewrite decim_nth in E by lia. apply nth_error_None in E. nia.
  - assert (E : nth_error (decim n 0 l) (ceil_div (length l) n) <> None) by (apply nth_error_Some; lia).
    rewrite decim_nth in E by lia. apply nth_error_Some in E. nia.
Qed.

(** ** The baseband receiver *)

Section Generic.
Context {T : Type} `{Num T}.
Variable fft : Fft T.

Theorem C91_baseband :
  forall (message : Iter (cpx T)) l N P, 1 <= P <= N -> yields message l -> (Z.of_nat (length l) < 2 ^ 64 - 1)%Z ->
    let block_len := N + N / 4 in
    exists rx out, rx_baseband_ofdm_signal fft message N P = Ret rx /\ length out = length l / block_len * (N - P) /\
      (length l mod block_len = 0 -> yields rx out) /\
      (length l mod block_len <> 0 -> panics_after rx (map Some out)).
Proof.
  intros message l N P HP Hy HZ M. pose proof (Nat.div_mod (length l) M ltac:(unfold M; lia)) as D.
  pose proof (Nat.mod_upper_bound (length l) M ltac:(unfold M; lia)) as U.
  set (q := length l / M) in *. set (r := length l mod M) in *. set (whole := map (fun i => block M i l) (seq 0 q)).
  assert (HM : 1 <= M) by (unfold M; lia).
  assert (FB : forall b, In b whole -> length b = M).
  { intros b Hb. apply in_map_iff in Hb. destruct Hb as (i & <- & Hi). apply in_seq in Hi. rewrite block_length. nia. }
  unfold rx_baseband_ofdm_signal, usize_sub. destruct (Nat.leb_spec P N); [|lia]. cbn [bind].
  rewrite carriers_eq by lia. cbn [bind].
  set (f := fun (_ : unit) ofdm_symbol_data =>
         let? data_symbols := ofdm_demodulate fft N (carriers N P) ofdm_symbol_data in Ret (data_symbols, tt)).
  exists (iflat_map tt f (chunks M message)), (flat_map (fun b => ofdm_read fft N P (skipn (N / 4) b)) whole).
  split; [reflexivity|]. split.
  { assert (LF : forall bs : list (list (cpx T)), length (flat_map (fun b => ofdm_read fft N P (skipn (N / 4) b)) bs) = length bs * (N - P)).
    { induction bs as [|b bs IH]; [reflexivity|]. cbn [flat_map length]. rewrite app_length, IH, ofdm_read_length by lia. lia. }
    rewrite LF. unfold whole. rewrite map_length, seq_length. reflexivity. }
  destruct (flat_ok_total f (fun b => ofdm_read fft N P (skipn (N / 4) b)) whole) as (e & He & Hf).
  { intros b Hb. unfold f. rewrite ofdm_demodulate_eq by (try apply FB; auto; lia). reflexivity. }
  assert (Hw : length whole <= length l) by (unfold whole; rewrite map_length, seq_length; nia).
  pose proof (chunks_yields M _ _ HM Hy) as Yc.
  split; intros R.
  - eapply iflat_yields; [|exact Hf|lia]. refine (eq_ind _ (fun z => yields _ z) Yc _ _).
    unfold chunk_list, whole. f_equal. f_equal. unfold ceil_div. symmetry. apply (Nat.div_unique _ _ _ (M - 1)); lia.
  - apply (iflat_panics _ tt (chunks M message) whole (block M q l) [] _ e); [|exact Hf| |lia].
    + refine (eq_ind _ (fun z => yields _ z) Yc _ _). unfold chunk_list, whole. replace (ceil_div (length l) M) with (q + 1).
      * rewrite seq_app, map_app. reflexivity.
      * unfold ceil_div. apply (Nat.div_unique _ _ _ (r - 1)); lia.
    + intros c. unfold f.
      assert (LB : length (block M q l) = r) by (rewrite block_length; lia).
      assert (EP : ofdm_demodulate fft N (carriers N P) (block M q l) = Panic).
      { unfold ofdm_demodulate, slice. rewrite LB. rewrite Nat.leb_refl. destruct (Nat.leb_spec (N / 4) r); [|reflexivity]. cbn [andb bind].
        unfold fft_process. destruct (Nat.eqb_spec N 0); [lia|].
        match goal with |- context [length ?b <? N] => assert (length b < N) as L by (rewrite firstn_length, skipn_length; unfold M in *; lia);
          rewrite (proj2 (Nat.ltb_lt _ _) L) end. reflexivity. }
      rewrite EP. reflexivity.
Qed.

(** ** The passband receiver *)

(** How many symbols the receiver sees in n samples, sps samples per symbol. *)
Lemma front_length (signal : Iter T) l N P sample_rate symbol_rate fc :
  let sps := sample_rate / symbol_rate in
  is_int (ndiv (nofnat sample_rate) (nofnat symbol_rate)) = true -> symbol_rate <> 0 -> 1 <= sps -> yields signal l ->
  exists base b, yields base b /\ length b = ceil_div (length l + (Nat.min sps (length l) - 1)) sps - 1 /\
    rx_ofdm_qpsk_signal fft signal N P sample_rate symbol_rate fc =
      bind (rx_baseband_ofdm_signal fft base N P) (fun q => Ret (rx_baseband_qpsk_signal q)).
Proof.
  intros L Hi Hy HL Y. eexists. eexists. split; [|split].
  3:{ unfold rx_ofdm_qpsk_signal. rewrite Hi. cbn [assert_then]. rewrite usize_div_intro by exact Hy. cbn [bind]. reflexivity. }
  - fold L. apply iskip_yields, take_every_yields; [exact HL|]. apply imap_yields. unfold nonvolve. apply convolve_yields.
    apply imap_yields, ienum_yields, Y.
  - rewrite skipn_length, decim_length by exact HL. rewrite map_length, conv_run_length.
    + rewrite !map_length, !seq_length. cbn [length Nat.add]. unfold index_from. rewrite combine_length, seq_length, Nat.min_id. reflexivity.
    + rewrite map_length, seq_length. exact HL.
    + cbn; lia.
Qed.
End Generic.

Lemma dec_length {T} `{Num T} (f : cpx T -> list bool) (l : list (cpx T)) : (forall s, length (f s) = 2) -> length (flat_map f l) = 2 * length l.
Proof. intros Hf. induction l as [|a l IH]; [reflexivity|]. cbn [flat_map length]. rewrite app_length, IH, Hf. lia. Qed.

(** ** rx_ofdm of the Python module, in binary64 *)

Section Py.
Variable libm : Libm.
Let num := NumF libm.
#[local] Existing Instance num.

(** [symbols] is the number of symbols in the signal: the length of the convolution, decimated,
    without its first.  The call raises unless it is a whole number of blocks. *)
Theorem C91_rx_ofdm (fft : Fft F64) (signal : list F64) (N P sample_rate symbol_rate : nat) (fc : F64) :
  (Z.of_nat sample_rate < 2 ^ 53)%Z -> (Z.of_nat symbol_rate < 2 ^ 53)%Z -> (Z.of_nat (length signal) < 2 ^ 63)%Z ->
  let n := length signal in
  let sps := sample_rate / symbol_rate in
  let symbols := if n <=? sps then (if 2 * n - 1 <=? sps then 0 else 1) else (n - 1 + (sps - 1)) / sps in
  let block_len := N + N / 4 in
  let ok := symbol_rate <> 0 /\ Nat.divide symbol_rate sample_rate /\ 1 <= sample_rate /\ 1 <= P <= N /\ Nat.divide block_len symbols in
  (~ ok -> raises (py_rx_ofdm fft signal N P sample_rate symbol_rate fc)) /\
  (ok -> exists bits, returns (py_rx_ofdm fft signal N P sample_rate symbol_rate fc) bits /\
                      length bits = 2 * (symbols / block_len * (N - P))).
Proof.
  intros Hsr Hsy HZ n L symbols M ok.
  destruct (Nat.eq_dec sample_rate 0) as [E0|E0];
    [split; [intros _; apply C66_rx_ofdm; [exact Hsr|exact Hsy|lia]|intros (_ & _ & ? & _); lia]|].
  destruct (Nat.eq_dec symbol_rate 0) as [Ey|Ey];
    [split; [intros _; apply C66_rx_ofdm; [exact Hsr|exact Hsy|intros [[? _] _]; lia]|intros (? & _); lia]|].
  destruct (Nat.eq_dec (sample_rate mod symbol_rate) 0) as [Em|Em];
    [|split; [intros _; apply C66_rx_ofdm; [exact Hsr|exact Hsy|intros [[_ D] _]; apply Em, Nat.mod_divide; assumption]
             |intros (_ & D & _); exfalso; apply Em, Nat.mod_divide; assumption]].
  assert (D : Nat.divide symbol_rate sample_rate) by (apply Nat.mod_divide; assumption).
  destruct (le_dec 1 P) as [P1|P1]; [destruct (le_dec P N) as [P2|P2]|];
    [|split; [intros _; apply C66_rx_ofdm; [exact Hsr|exact Hsy|lia]|intros (_ & _ & _ & ? & _); lia]..].
  assert (HL : 1 <= L) by (destruct D as [k ->]; unfold L; rewrite Nat.div_mul by exact Ey; destruct k; lia).
  assert (Hi : is_int (ndiv (nofnat sample_rate) (nofnat symbol_rate)) = true) by (apply (rate_check libm _ _ Hsr Hsy); split; assumption).
  destruct (front_length fft (of_list signal) signal N P sample_rate symbol_rate fc Hi Ey HL (of_list_yields signal)) as (base & b & Yb & Lb & E).
  fold L in Lb. fold n in Lb.
  assert (LS : length b = symbols).
  { rewrite Lb. unfold symbols, ceil_div. destruct (Nat.leb_spec n L) as [Hn|Hn].
    - rewrite Nat.min_r by lia. destruct (Nat.leb_spec (2 * n - 1) L).
      + assert ((n + (n - 1) + L - 1) / L < 2) by (apply Nat.div_lt_upper_bound; lia). lia.
      + replace ((n + (n - 1) + L - 1) / L) with 2 by (apply (Nat.div_unique _ _ _ (2 * n - 2 - L)); lia). reflexivity.
    - rewrite Nat.min_l by lia. replace (n + (L - 1) + L - 1) with (n - 1 + (L - 1) + 1 * L) by lia. rewrite Nat.div_add by lia. lia. }
  assert (HS : symbols <= n).
  { rewrite <- LS, Lb. pose proof (ceil_div_spec (n + (Nat.min L n - 1)) L HL). nia. }
  destruct (C91_baseband fft base b N P ltac:(lia) Yb ltac:(lia)) as (q & out & Eq & Lo & Ro & Po). fold M in Lo, Ro, Po.
  rewrite LS in *. rewrite Eq in E. cbn [bind] in E.
  assert (HM : M <> 0) by (unfold M; lia).
  split.
  - intros Nok. eapply py_raises_late; [exact E|]. apply iflat_source_panics; [|discriminate]. apply Po. intros R. apply Nok.
    repeat split; try assumption; try lia. apply Nat.mod_divide; assumption.
  - intros (_ & _ & _ & _ & Dv). eexists. split; [eapply py_returns; [exact E|]|].
    + apply iflat_pure_yields; [apply Ro, Nat.mod_divide; assumption|discriminate].
    + rewrite dec_length by reflexivity. rewrite Lo. reflexivity.
Qed.

(** What [tx_ofdm] returned is accepted by [rx_ofdm] (with any transform, and whatever rounding did)
    from two samples per symbol on, and always refused with one. *)
Theorem C91_own_signal (fft fft' : Fft F64) (message : list bool) (N P sample_rate symbol_rate : nat) (fc fc' : F64) w :
  let sps := sample_rate / symbol_rate in
  (Z.of_nat sample_rate < 2 ^ 53)%Z -> (Z.of_nat symbol_rate < 2 ^ 53)%Z -> (Z.of_nat (length w) < 2 ^ 63)%Z ->
  P < N -> 2 <= length message ->
  returns (py_tx_ofdm fft message N P sample_rate symbol_rate fc) w ->
  (2 <= sps -> exists bits, returns (py_rx_ofdm fft' w N P sample_rate symbol_rate fc') bits /\
     2 * (length message / 2) <= length bits < 2 * (length message / 2) + 2 * (N - P)) /\
  (sps = 1 -> raises (py_rx_ofdm fft' w N P sample_rate symbol_rate fc')).
Proof.
  intros L Hsr Hsy Hw HP Hm Rw.
  destruct (C66_tx_ofdm libm message sample_rate symbol_rate Hsr Hsy fft N P fc) as (B & HB & _ & (E1 & E2 & E3)).
  specialize (HB HP). set (M := N + N / 4) in *. fold L in E2, E3.
  destruct (ends_once (py_tx_ofdm fft message N P sample_rate symbol_rate fc)) as (U & NR & NH & _).
  set (ok := divides_rate sample_rate symbol_rate /\ 1 <= P <= N) in *.
  assert (Hok : ok).
  { unfold ok, divides_rate. destruct (Nat.eq_dec symbol_rate 0) as [Ey|Ey]; [exfalso; apply (NR _ Rw), E1; intros [[? _] _]; lia|].
    destruct (Nat.eq_dec (sample_rate mod symbol_rate) 0) as [Em|Em];
      [|exfalso; apply (NR _ Rw), E1; intros [[_ D] _]; apply Em, Nat.mod_divide; assumption].
    destruct (le_dec 1 P) as [P1|P1]; [|exfalso; apply (NR _ Rw), E1; intros [_ ?]; lia].
    split; [split; [exact Ey|apply Nat.mod_divide; assumption]|lia]. }
  assert (Hc : 1 <= length message / 2) by (apply Nat.div_le_lower_bound; lia).
  assert (HB1 : 1 <= B) by (destruct B; lia). pose proof Hok as [[Dy Dd] HPP].
  assert (HM : 2 <= M) by (unfold M; lia).
  assert (HBM : M <= B * M) by (destruct B; [lia|cbn; lia]).
  assert (Len : 1 <= L -> length w = B * M * L).
  { intros HL. destruct (E3 Hok (or_introl HL)) as (w' & Rw' & Lw'). rewrite (U _ _ Rw Rw'). exact Lw'. }
  pose proof (C91_rx_ofdm fft' w N P sample_rate symbol_rate fc' Hsr Hsy Hw) as C. cbv zeta in C. fold L in C. fold M in C.
  split; intros HL; rewrite (Len ltac:(lia)) in C.
  - assert (n1 : L < B * M * L) by nia.
    destruct (Nat.leb_spec (B * M * L) L) as [?|_]; [lia|].
    replace ((B * M * L - 1 + (L - 1)) / L) with (B * M) in C by (apply (Nat.div_unique _ _ _ (L - 2)); lia).
    destruct C as [_ C]. destruct C as (bits & Rb & Lb).
    { split; [exact Dy|]. split; [exact Dd|]. split; [destruct sample_rate; [unfold L in HL; rewrite Nat.div_0_l in HL by exact Dy; lia|lia]|].
      split; [lia|]. exists B. reflexivity. }
    exists bits. split; [exact Rb|]. rewrite Lb, Nat.div_mul by lia. nia.
  - destruct C as [C _]. apply C. intros (_ & _ & _ & _ & Dv). rewrite HL in Dv.
    destruct (Nat.leb_spec (B * M * 1) 1) as [?|_]; [lia|].
    replace ((B * M * 1 - 1 + (1 - 1)) / 1) with (B * M - 1) in Dv by (rewrite Nat.div_1_r; lia).
    assert (D1 : Nat.divide M 1).
    { replace 1 with (B * M - (B * M - 1)) by lia. apply Nat.divide_sub_r; [exists B; reflexivity|exact Dv]. }
    apply Nat.divide_1_r in D1. lia.
Qed.

(** Shortening such a signal at its end: up to [sps - 2] samples fewer make no difference to the number of
    bits; from [sps - 1] samples on, until a whole block less one sample is gone, the call raises. *)
Theorem C91_cut_short (fft : Fft F64) (signal : list F64) (blocks lost N P sample_rate symbol_rate : nat) (fc : F64) :
  let sps := sample_rate / symbol_rate in
  let block_len := N + N / 4 in
  (Z.of_nat sample_rate < 2 ^ 53)%Z -> (Z.of_nat symbol_rate < 2 ^ 53)%Z -> (Z.of_nat (length signal) < 2 ^ 63)%Z ->
  1 <= symbol_rate -> Nat.divide symbol_rate sample_rate -> 1 <= P < N -> 2 <= sps -> 2 <= blocks ->
  length signal + lost = blocks * block_len * sps ->
  (lost <= sps - 2 -> exists bits, returns (py_rx_ofdm fft signal N P sample_rate symbol_rate fc) bits /\ length bits = 2 * (blocks * (N - P))) /\
  (sps - 1 <= lost < block_len * sps - 1 -> raises (py_rx_ofdm fft signal N P sample_rate symbol_rate fc)).
Proof.
  intros L M Hsr Hsy Hw Hy Dd HP HL HB Len.
  pose proof (C91_rx_ofdm fft signal N P sample_rate symbol_rate fc Hsr Hsy Hw) as C. cbv zeta in C. fold L in C. fold M in C.
  assert (HM : 2 <= M) by (unfold M; lia). assert (1 <= sample_rate) by (destruct sample_rate; [unfold L in HL; rewrite Nat.div_0_l in HL by lia; lia|lia]).
  set (n := length signal) in *.
  assert (S1 : M * L <= blocks * M * L - M * L) by nia.
  split; intros Hl.
  - assert (n1 : L < n) by nia. destruct (Nat.leb_spec n L) as [?|_]; [lia|].
    replace ((n - 1 + (L - 1)) / L) with (blocks * M) in C by (apply (Nat.div_unique _ _ _ (L - 2 - lost)); lia).
    destruct C as [_ C]. destruct C as (bits & Rb & Lb); [repeat split; try assumption; try lia; exists blocks; reflexivity|].
    exists bits. split; [exact Rb|]. rewrite Lb, Nat.div_mul by lia. reflexivity.
  - assert (n1 : L < n) by nia. destruct (Nat.leb_spec n L) as [?|_]; [lia|].
    destruct C as [C _]. apply C. intros (_ & _ & _ & _ & (k & Dv)).
    pose proof (Nat.div_mod (n - 1 + (L - 1)) L ltac:(lia)) as DM. pose proof (Nat.mod_upper_bound (n - 1 + (L - 1)) L ltac:(lia)) as U.
    rewrite Dv in DM.
    assert (k < blocks) by nia. assert (blocks - 1 <= k -> False) by (intros; assert (k = blocks - 1) by lia; subst k; nia). nia.
Qed.
End Py.

(** ** Concrete cases: 4 subcarriers, 1 pilot, 2 samples per symbol, so 5 symbols and 10 samples for a block. *)
Example C91_block_case libm (fft : Fft F64) (s : F64) : let num := NumF libm in
  (exists bits, returns (py_rx_ofdm fft (repeat s 10) 4 1 2 1 s) bits /\ length bits = 6) /\
  raises (py_rx_ofdm fft (repeat s 9) 4 1 2 1 s) /\
  returns (py_rx_ofdm fft [s] 4 1 2 1 s) [].
Proof.
  intros num. assert (D : Nat.divide 1 2) by (exists 2; reflexivity).
  destruct (C91_rx_ofdm libm fft (repeat s 10) 4 1 2 1 s eq_refl eq_refl eq_refl) as [_ A].
  destruct (C91_rx_ofdm libm fft (repeat s 9) 4 1 2 1 s eq_refl eq_refl eq_refl) as [B _].
  destruct (C91_rx_ofdm libm fft [s] 4 1 2 1 s eq_refl eq_refl eq_refl) as [_ C].
  split; [|split].
  - apply A. split; [lia|]. split; [exact D|]. split; [lia|]. split; [lia|]. exists 1. reflexivity.
  - apply B. intros (_ & _ & _ & _ & [k Hk]). cbn in Hk. lia.
  - destruct C as (bits & Rb & Lb).
    + split; [lia|]. split; [exact D|]. split; [lia|]. split; [lia|]. exists 0. reflexivity.
    + destruct bits; [exact Rb|discriminate].
Qed.
Example C91_own_case libm (fft : Fft F64) (fc : F64) : let num := NumF libm in
  exists w bits, returns (py_tx_ofdm fft [true; false; true] 4 1 2 1 fc) w /\ returns (py_rx_ofdm fft w 4 1 2 1 fc) bits /\ 2 <= length bits < 8.
Proof.
  intros num. assert (D : Nat.divide 1 2) by (exists 2; reflexivity).
  destruct (C66_tx_ofdm libm [true; false; true] 2 1 eq_refl eq_refl fft 4 1 fc) as (B & HB & _ & (_ & _ & E)).
  destruct E as (w & Rw & Lw); [split; [split; [lia|exact D]|lia]|left; cbn; lia|].
  assert (B = 1) as -> by (specialize (HB ltac:(lia)); cbn in HB; lia).
  destruct (C91_own_signal libm fft fft [true; false; true] 4 1 2 1 fc fc w eq_refl eq_refl ltac:(rewrite Lw; reflexivity) ltac:(lia) ltac:(cbn; lia) Rw) as [C _].
  destruct (C ltac:(cbn; lia)) as (bits & Rb & Lb). exists w, bits. split; [exact Rw|]. split; [exact Rb|exact Lb].
Qed.
Example C91_cut_case libm (fft : Fft F64) (s : F64) : let num := NumF libm in
  (exists bits, returns (py_rx_ofdm fft (repeat s 20) 4 1 2 1 s) bits /\ length bits = 12) /\ raises (py_rx_ofdm fft (repeat s 19) 4 1 2 1 s).
Proof.
  intros num. assert (D : Nat.divide 1 2) by (exists 2; reflexivity). split.
  - apply (C91_cut_short libm fft (repeat s 20) 2 0 4 1 2 1 s); try exact D; try reflexivity; cbn; lia.
  - apply (C91_cut_short libm fft (repeat s 19) 2 1 4 1 2 1 s); try exact D; try reflexivity; cbn; lia.
Qed.

(** ** Axioms used *)
Print Assumptions C91_baseband.
Print Assumptions C91_rx_ofdm.
Print Assumptions C91_own_signal.
Print Assumptions C91_cut_short.
