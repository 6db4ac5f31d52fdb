(** FH-OFDM-DCSK (src/fh_ofdm_dcsk.rs): one block, then the stream. *)
From Coq Require Import List Arith ZArith Reals Bool Lia Lra Permutation.
From Verif Require Import Base IterTheory IterModel IterProofs Spec SpecR Tab Num LibModel
  ChaosModel ChaosProofs PskModel CdmaModel FhModel FhProofs SpecC FftModel Dft OfdmModel OfdmProofs OfdmReal FhOfdmModel.
Import ListNotations.

(** ** chunks over an endless source *)

Lemma fill_buf_streams {A X} (nx : X -> outcome (option A * X)) n : forall s f, streams_from nx s f ->
  exists s', fill_buf n nx s = Ret (tab n f, s') /\ streams_from nx s' (fun i => f (n + i)).
Proof.
  induction n as [|n IH]; intros s f Hs.
  - exists s. split; [reflexivity|]. exact Hs.
  - apply streams_inv in Hs. destruct Hs as (s1 & E & Hs). destruct (IH s1 _ Hs) as (s2 & E2 & H2).
    exists s2. cbn [fill_buf]. rewrite E. cbn [bind]. rewrite E2. cbn [bind]. split.
    + rewrite tab_S. reflexivity.
    + exact H2.
Qed.

Lemma chunks_streams {A} n (it : Iter A) f : 1 <= n -> streams it f ->
  streams (chunks n it) (fun k => tab n (fun j => f (k * n + j))).
Proof.
  intros Hn Hs. apply (streams_coind (next (chunks n it))
    (fun s g => exists h, streams_from (next it) s h /\ forall k, g k = tab n (fun j => h (k * n + j)))).
  - intros s g (h & Hh & Eg). destruct (fill_buf_streams (next it) n s h Hh) as (s1 & E1 & H1).
    exists s1. cbn [next chunks]. unfold chunks_next. rewrite E1. cbn [bind]. split.
    + rewrite Eg. destruct n; [lia|]. reflexivity.
    + exists (fun i => h (n + i)). split; [exact H1|]. intros k. rewrite Eg. apply tab_ext. intros j _. f_equal. lia.
  - exists f. split; [exact Hs|]. reflexivity.
Qed.

(** ** One block *)

Section Block.
Context {T : Type} `{Num T} `{SignPos T}.
Variable fft : Fft T.
Variable rng : Rng.

(** The reference carrier, then the data carriers. *)
Definition dcsk_carriers (sy : list (cpx T)) (ch : nat -> T) : list (cpx T) :=
  tab 8 (fun i => match i with 0 => Cpx (ch 0) (nofZ 0) | S j => cmul (nth j sy c0) (Cpx (ch i) (nofZ 0)) end).

Lemma pre_hop_eq sy ch : length sy = 7 -> fod_pre_hop sy (tab 8 ch) = Ret (dcsk_carriers sy ch).
Proof.
  intros L. do 7 (destruct sy as [|? sy]; [discriminate|]). destruct sy; [|discriminate]. reflexivity.
Qed.

Lemma index_lt (index : list nat) n i : Permutation (seq 0 n) index -> In i index -> i < n.
Proof. intros P Hi. apply (Permutation_in _ (Permutation_sym P)), in_seq in Hi. lia. Qed.

Lemma hop_eq (pre : list (cpx T)) index s s' : length pre = 8 ->
  shuffle rng (seq 0 8) s = Ret (index, s') -> Permutation (seq 0 8) index ->
  fod_hop rng pre s = Ret (map (fun i => nth i pre c0) index, s').
Proof.
  intros L E P. unfold fod_hop, NUM_SUBCARRIERS. rewrite E. cbn [bind].
  rewrite (push_map (idx pre) (fun i => nth i pre c0)).
  - reflexivity.
  - intros i Hi. apply (index_lt _ 8) in Hi; [|exact P]. unfold idx.
    destruct (nth_error pre i) as [v|] eqn:En; [rewrite (nth_error_nth _ _ _ En); reflexivity|].
    apply nth_error_None in En. lia.
Qed.

Lemma tx_block s sy ch : length sy = 7 -> exists index s', shuffle rng (seq 0 8) s = Ret (index, s') /\
  Permutation (seq 0 8) index /\
  fod_modulate fft rng s (sy, tab 8 ch) =
    Ret (with_cp 8 (ofdm_body fft 8 (map (fun i => nth i (dcsk_carriers sy ch) c0) index)), s').
Proof.
  intros L. destruct (shuffle_perm rng (seq 0 8) s) as (index & s' & E & P). exists index, s'. split; [exact E|]. split; [exact P|].
  unfold fod_modulate. rewrite pre_hop_eq by exact L. cbn [bind].
  rewrite (hop_eq _ index s s') by (exact E || exact P || apply tab_length). cbn [bind].
  set (h := map _ index).
  assert (Lh : length h = 8) by (unfold h; rewrite map_length; apply Permutation_length in P; rewrite <- P; apply seq_length).
  rewrite fftshift_length, Lh. unfold NUM_SUBCARRIERS. cbn [Nat.eqb assert_then].
  rewrite fft_process_one by (rewrite ?fftshift_length; lia). cbn [bind].
  set (y := fft_inverse fft (fftshift h)).
  assert (Ly : length y = 8) by (unfold y; rewrite fft_inverse_length, fftshift_length; exact Lh).
  unfold slice. rewrite Ly. change ((8 - CP_LEN <=? 8) && (8 <=? 8)) with true. cbn [bind].
  unfold with_cp, ofdm_body. fold y. rewrite skipn_map, <- map_app.
  change (8 - (8 - CP_LEN)) with 2. change (8 - CP_LEN) with 6. change (8 - 8 / 4) with 6.
  rewrite (firstn_all2 (skipn 6 y)) by (rewrite skipn_length; lia). reflexivity.
Qed.

Lemma for_each_swap {A} (f : list A -> nat -> A -> outcome (list A)) (l : list A) (index : list nat) : forall x,
  for_each (combine l index) (fun x '(c, i) => f x i c) x = for_each (combine index l) (fun x '(i, c) => f x i c) x.
Proof.
  revert index. induction l as [|a l IH]; intros [|i index] x; try reflexivity. cbn [combine for_each].
  destruct (f x i a); cbn [bind]; auto.
Qed.

Lemma dehop_eq (pre : list (cpx T)) index s s' : length pre = 8 ->
  shuffle rng (seq 0 8) s = Ret (index, s') -> Permutation (seq 0 8) index ->
  fod_dehop rng (map (fun i => nth i pre c0) index) s = Ret (pre, s').
Proof.
  intros L E P. unfold fod_dehop, NUM_SUBCARRIERS. rewrite E. cbn [bind].
  rewrite (for_each_swap (fun x i c => set_idx x i c)).
  destruct (place_data index (repeat c0 8) (map (fun i => nth i pre c0) index) c0) as (y & Ey & Ly & _ & Hin).
  - apply (Permutation_NoDup P), seq_NoDup.
  - intros c Hc. rewrite repeat_length. apply (index_lt _ 8 _ P Hc).
  - rewrite Ey. cbn [bind]. f_equal. f_equal. rewrite repeat_length in Ly. apply nth_ext with (d := c0) (d' := c0); [lia|].
    intros c Hc. rewrite Ly in Hc.
    assert (Hc2 : In c index) by (apply (Permutation_in _ P), in_seq; lia).
    apply (In_nth _ _ 0) in Hc2. destruct Hc2 as (i & Hi & <-). rewrite Hin by exact Hi. rewrite map_length.
    apply Nat.ltb_lt in Hi. rewrite Hi. apply Nat.ltb_lt in Hi.
    rewrite (nth_indep _ c0 (nth 0 pre c0)) by (rewrite map_length; exact Hi).
    apply (map_nth (fun i => nth i pre c0)).
Qed.
End Block.

Local Open Scope R_scope.

Definition dcsk_bits (pre : list CR) : list bool :=
  tab 7 (fun j => sign_positive (re (cmul (cconj (nth 0 pre c0)) (nth (S j) pre c0)))).

Lemma slice_from {A} (l : list A) k : (k <= length l)%nat -> slice l k (length l) = Ret (skipn k l).
Proof.
  intros Hk. unfold slice. apply Nat.leb_le in Hk. rewrite Hk, Nat.leb_refl. cbn [andb].
  rewrite firstn_all2 by (rewrite skipn_length; lia). reflexivity.
Qed.

Lemma rx_block rng s s' (pre : list CR) index : length pre = 8%nat ->
  shuffle rng (seq 0 8) s = Ret (index, s') -> Permutation (seq 0 8) index ->
  fod_demodulate exact_fft rng s (with_cp 8 (ofdm_body exact_fft 8 (map (fun i => nth i pre c0) index))) =
    Ret (dcsk_bits pre, s').
Proof.
  intros L E P. set (h := map (fun i => nth i pre c0) index).
  assert (Lh : length h = 8%nat) by (unfold h; rewrite map_length; apply Permutation_length in P; rewrite <- P; apply seq_length).
  assert (Lb : length (ofdm_body exact_fft 8 h) = 8%nat) by (rewrite ofdm_body_length; exact Lh).
  unfold fod_demodulate. rewrite slice_from by (rewrite (with_cp_length 8) by exact Lb; cbn; lia). cbn [bind].
  change CP_LEN with (8 / 4)%nat. rewrite (skip_cp 8 _ Lb).
  rewrite fft_process_one by (try exact Lb; unfold NUM_SUBCARRIERS; lia). cbn [bind fft_forward exact_fft].
  rewrite dft_body by exact Lh. rewrite fftshift_twice_even by (rewrite Lh; reflexivity).
  unfold h. rewrite (dehop_eq rng pre index s s' L E P). cbn [bind].
  do 8 (destruct pre as [|? pre]; [discriminate|]). destruct pre; [|discriminate]. reflexivity.
Qed.

(** ** The stream *)

Lemma dcsk_stream rng (blocks : list (list CR * (nat -> R))) : forall s,
  (forall b, In b blocks -> length (fst b) = 7%nat) ->
  exists frames,
    length frames = length blocks /\ (forall f, In f frames -> length f = 10%nat) /\
    flat_ok (fod_modulate exact_fft rng) s (map (fun b => (fst b, tab 8 (snd b))) blocks) (concat frames) 0 /\
    flat_ok (fod_demodulate exact_fft rng) s frames (flat_map (fun b => dcsk_bits (dcsk_carriers (fst b) (snd b))) blocks) 0.
Proof.
  induction blocks as [|[sy ch] blocks IH]; intros s Hb.
  - exists []. split; [reflexivity|]. split; [intros f []|]. split; constructor.
  - assert (L : length sy = 7%nat) by (apply (Hb (sy, ch)); left; reflexivity).
    destruct (tx_block exact_fft rng s sy ch L) as (index & s' & E & P & Et).
    destruct (IH s' ltac:(intros; apply Hb; right; assumption)) as (frames & Lf & Lf2 & Ft & Fr).
    pose proof (rx_block rng s s' (dcsk_carriers sy ch) index (tab_length _ _) E P) as Er.
    set (h := map (fun i => nth i (dcsk_carriers sy ch) c0) index) in *.
    set (frame := with_cp 8 (ofdm_body exact_fft 8 h)) in *.
    assert (Lframe : length frame = 10%nat).
    { unfold frame. rewrite (with_cp_length 8); [reflexivity|]. rewrite ofdm_body_length. unfold h. rewrite map_length.
      apply Permutation_length in P. rewrite <- P. apply seq_length. }
    exists (frame :: frames). split; [cbn; lia|]. split; [intros f [<-|Hf]; auto|]. split.
    + pose proof (flat_cons _ _ _ _ _ _ _ 0%nat Et Ft) as F. destruct frame; [discriminate|]. exact F.
    + cbn [flat_map fst snd]. eapply (flat_cons _ _ _ _ _ _ _ 0%nat Er Fr).
Qed.
