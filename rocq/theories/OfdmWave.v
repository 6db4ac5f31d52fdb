(** OFDM with exact transforms, sample by sample: the transmitted waveform and the receiver's
    correlations. *)
From Coq Require Import List Arith ZArith Reals Bool Lia Lra Psatz.
From Verif Require Import Base IterTheory IterModel IterProofs Spec SpecR Tab Num LibModel LibReal
  ChaosModel PskModel CdmaModel FhProofs SpecC FftModel RSums PskReal Dft OfdmModel OfdmProofs OfdmReal.
Import ListNotations.
Local Open Scope R_scope.

(** The sum of the carriers [F] at time [z], with period N. *)
Definition tone (N : nat) (F : nat -> CR) (z : Z) : CR :=
  cmul (RtoC (/ INR N)) (Csum_n N (fun i => cmul (F i) (root N (Z.of_nat i * z)))).

Lemma tone_period N F z k : (N <> 0)%nat -> tone N F (z + k * Z.of_nat N) = tone N F z.
Proof.
  intros HN. unfold tone. f_equal. apply Csum_ext. intros i _. f_equal.
  replace (Z.of_nat i * (z + k * Z.of_nat N))%Z with (Z.of_nat i * z + Z.of_nat N * (Z.of_nat i * k))%Z by ring.
  rewrite root_add, root_period by exact HN. ring.
Qed.

Lemma bin_of_tone N F k : (N <> 0)%nat -> (k < N)%nat ->
  Csum_n N (fun j => cmul (tone N F (Z.of_nat j)) (root N (- (Z.of_nat j * Z.of_nat k)))) = F k.
Proof.
  intros HN Hk. assert (HR : INR N <> 0) by (apply not_0_INR; exact HN).
  rewrite (Csum_ext N _ (fun j => cmul (RtoC (/ INR N))
     (cmul (Csum_n N (fun i => cmul (F i) (root N (Z.of_nat i * Z.of_nat j)))) (root N (- (Z.of_nat j * Z.of_nat k)))))).
  - rewrite Csum_scale, dft_idft by assumption. apply cpx_eq; cbn; field; exact HR.
  - intros j _. unfold tone. ring.
Qed.

(** FFT bin of carrier c. *)
Definition bin (N c : nat) : nat := ((c + div_ceil2 N) mod N)%nat.

Lemma bin_lt N c : (N <> 0)%nat -> (bin N c < N)%nat.
Proof. intros H. apply Nat.mod_upper_bound. exact H. Qed.

Lemma half_even N : Nat.even N = true -> div_ceil2 N = (N / 2)%nat /\ (2 * (N / 2) = N)%nat.
Proof.
  intros He. apply Nat.even_spec in He. destruct He as [k ->]. unfold div_ceil2.
  rewrite (Nat.mul_comm 2 k), Nat.div_mul by lia. rewrite Nat.div_add_l by lia. cbn. lia.
Qed.

Lemma bin_bin N c : Nat.even N = true -> (c < N)%nat -> bin N (bin N c) = c.
Proof.
  intros He Hc. unfold bin. destruct (half_even N He) as [-> E]. rewrite Nat.add_mod_idemp_l by lia.
  replace (c + N / 2 + N / 2)%nat with (c + 1 * N)%nat by lia. rewrite Nat.mod_add by lia. apply Nat.mod_small. exact Hc.
Qed.

(** What the bins [F] of a block carry. *)
Definition carries (N P : nat) (data : nat -> CR) (F : nat -> CR) : Prop :=
  (forall i, (i < N - P)%nat -> F (bin N (nth i (carriers N P) 0%nat)) = data i) /\
  (forall k, (k < N)%nat -> F k = c0 \/ exists i, (i < N - P)%nat /\ F k = data i).

Lemma block_wave N P chunk : Nat.even N = true -> (1 <= P < N)%nat ->
  exists F, carries N P (fun i => nth i chunk c0) F /\
    ofdm_block exact_fft N P chunk = tab (N + N / 4) (fun t => tone N F (Z.of_nat t - Z.of_nat (N / 4))).
Proof.
  intros He HP. pose proof (quarter N) as Hq.
  destruct (ofdm_block_spec exact_fft N P chunk ltac:(lia)) as (d & (L & Hout & Hin) & E & _).
  assert (HN : N <> 0%nat) by lia. assert (HR : INR N <> 0) by (apply not_0_INR; exact HN).
  exists (fun k => nth (bin N k) d c0). split; [split|].
  - intros i Hi. rewrite bin_bin; [apply Hin; exact Hi|exact He|].
    eapply carriers_lt; [|apply nth_In; rewrite carriers_length by lia; exact Hi]. lia.
  - intros k Hk. destruct (in_dec Nat.eq_dec (bin N k) (carriers N P)) as [I|I].
    + right. apply (In_nth _ _ 0%nat) in I. destruct I as (i & Hi & Ei). rewrite carriers_length in Hi by lia.
      exists i. split; [exact Hi|]. rewrite <- Ei. apply Hin. exact Hi.
    + left. apply Hout. exact I.
  - rewrite E. unfold with_cp.
    assert (EB : ofdm_body exact_fft N d = tab N (fun j => tone N (fun k => nth (bin N k) d c0) (Z.of_nat j))).
    { unfold ofdm_body. cbn [fft_inverse exact_fft]. rewrite <- (tab_nth_id d c0) at 1. rewrite L, fftshift_tab, idft_tab, tab_map.
      apply tab_ext. intros j Hj. rewrite nofnat_R, cdivs_mul by exact HR. reflexivity. }
    rewrite EB, skipn_tab. replace (N - (N - N / 4))%nat with (N / 4)%nat by lia.
    rewrite (Nat.add_comm N (N / 4)), tab_add. f_equal; apply tab_ext; intros t Ht.
    + rewrite <- (tone_period N _ (Z.of_nat t - Z.of_nat (N / 4)) 1) by exact HN. f_equal. lia.
    + f_equal. lia.
Qed.

Lemma chunk_list_map {A} n (l : list A) (d : A) : chunk_list n l = tab (ceil_div (length l) n) (fun i => block n i l).
Proof. reflexivity. Qed.

Lemma nth_firstn_lt {A} (l : list A) n i d : (i < n)%nat -> nth i (firstn n l) d = nth i l d.
Proof.
  revert n i. induction l as [|a l IH]; intros [|n] [|i] H; cbn; try reflexivity; try lia. apply IH. lia.
Qed.
Lemma nth_skipn' {A} (l : list A) n i d : nth i (skipn n l) d = nth (n + i) l d.
Proof. revert n. induction l as [|a l IH]; intros [|n]; cbn; try reflexivity; [destruct i; reflexivity|apply IH]. Qed.
Lemma nth_block {A} n b (l : list A) i d : (i < n)%nat -> nth i (block n b l) d = nth (b * n + i) l d.
Proof. intros H. unfold block. rewrite nth_firstn_lt by exact H. apply nth_skipn'. Qed.

Lemma choice_nat {A} (Q : nat -> A -> Prop) (d : A) n : (forall i, (i < n)%nat -> exists a, Q i a) ->
  exists f, forall i, (i < n)%nat -> Q i (f i).
Proof.
  intros H. induction n as [|n IH]; [exists (fun _ => d); intros; lia|].
  destruct IH as [f Hf]; [intros; apply H; lia|]. destruct (H n ltac:(lia)) as [a Ha].
  exists (fun i => if (i =? n)%nat then a else f i). intros i Hi. destruct (Nat.eqb_spec i n) as [->|]; [exact Ha|]. apply Hf. lia.
Qed.

(** The transmitted waveform. *)
Lemma tx_ofdm_wave symbols s N P : Nat.even N = true -> (1 <= P < N)%nat -> yields symbols s ->
  let M := (N + N / 4)%nat in let B := ceil_div (length s) (N - P) in
  exists tx F, tx_baseband_ofdm_signal exact_fft symbols N P = Ret tx /\
    (forall b, (b < B)%nat -> carries N P (fun i => nth (b * (N - P) + i) s c0) (F b)) /\
    yields tx (tab (B * M) (fun i => tone N (F (i / M)%nat) (Z.of_nat (i mod M) - Z.of_nat (N / 4)))).
Proof.
  intros He HP Hs M B. destruct (tx_ofdm_inv exact_fft symbols N P HP) as (tx & Et & Yt).
  destruct (choice_nat (fun b F => carries N P (fun i => nth (b * (N - P) + i) s c0) F /\
     ofdm_block exact_fft N P (block (N - P) b s) = tab M (fun t => tone N F (Z.of_nat t - Z.of_nat (N / 4)))) (fun _ => c0) B) as (F & HF).
  { intros b Hb. destruct (block_wave N P (block (N - P) b s) He HP) as (F & (C1 & C2) & E). exists F. split; [|exact E].
    split.
    - intros i Hi. rewrite C1 by exact Hi. apply nth_block. exact Hi.
    - intros k Hk. destruct (C2 k Hk) as [Z|(i & Hi & Z)]; [left; exact Z|right]. exists i. split; [exact Hi|].
      rewrite Z. apply nth_block. exact Hi. }
  exists tx, F. split; [exact Et|]. split; [intros b Hb; apply HF; exact Hb|].
  specialize (Yt s Hs). rewrite (chunk_list_map _ _ c0) in Yt. fold B in Yt.
  rewrite (flat_map_tab M B (fun b t => tone N (F b) (Z.of_nat t - Z.of_nat (N / 4)))) in Yt; [exact Yt|].
  intros b Hb. apply HF. exact Hb.
Qed.

(** What the receiver computes from any signal of whole blocks. *)
Lemma fftshift_dft_nth N y c : (c < N)%nat ->
  nth c (fftshift (dft (tab N y))) c0 =
  Csum_n N (fun j => cmul (y j) (root N (- (Z.of_nat j * Z.of_nat (bin N c))))).
Proof.
  intros Hc. rewrite dft_tab, fftshift_tab, tab_nth by exact Hc. reflexivity.
Qed.

Lemma rx_ofdm_wave message g N P B : (1 <= P < N)%nat ->
  let M := (N + N / 4)%nat in
  yields message (tab (B * M) g) ->
  exists rx, rx_baseband_ofdm_signal exact_fft message N P = Ret rx /\
    yields rx (tab (B * (N - P)) (fun i =>
      Csum_n N (fun j => cmul (g (i / (N - P) * M + N / 4 + j)%nat)
        (root N (- (Z.of_nat j * Z.of_nat (bin N (nth (i mod (N - P)) (carriers N P) 0%nat)))))))).
Proof.
  intros HP M Hy. pose proof (quarter N). destruct (rx_ofdm_inv exact_fft message N P HP) as (rx & Er & Yr).
  exists rx. split; [exact Er|]. specialize (Yr (tab B (fun b => tab M (fun t => g (b * M + t)%nat)))).
  assert (E : concat (tab B (fun b => tab M (fun t => g (b * M + t)%nat))) = tab (B * M) g).
  { rewrite <- (map_id (tab B _)), <- flat_map_concat_map.
    rewrite (flat_map_tab M B (fun b t => g (b * M + t)%nat)) by reflexivity. apply tab_ext. intros i Hi. f_equal.
    rewrite (Nat.div_mod i M) at 3 by lia. lia. }
  rewrite E in Yr. specialize (Yr Hy).
  refine (eq_ind _ (fun x => yields _ x) (Yr _) _ _).
  - intros b Hb. apply in_map_iff in Hb. destruct Hb as (i & <- & _). apply tab_length.
  - apply (flat_map_tab (N - P) B (fun b r =>
      Csum_n N (fun j => cmul (g (b * M + N / 4 + j)%nat)
        (root N (- (Z.of_nat j * Z.of_nat (bin N (nth r (carriers N P) 0%nat)))))))).
    intros b Hb. unfold ofdm_read. rewrite (map_tab_in _ _ 0%nat), carriers_length by lia. apply tab_ext. intros r Hr.
    cbn [fft_forward exact_fft]. rewrite skipn_tab. replace (M - N / 4)%nat with N by lia. rewrite fftshift_dft_nth.
    + apply Csum_ext. intros j Hj. rewrite Nat.add_assoc. reflexivity.
    + eapply carriers_lt; [|apply nth_In; rewrite carriers_length by lia; exact Hr]. lia.
Qed.
