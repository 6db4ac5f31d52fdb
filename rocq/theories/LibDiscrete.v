(** Proofs about the discrete helpers of LibModel.v: bit packing, fftshift, no_nans. *)
From Coq Require Import List Arith ZArith NArith Bool Lia Permutation.
From Verif Require Import Base IterTheory IterModel IterProofs Spec Num LibModel.
From Flocq Require Import BinarySingleNaN.
Import ListNotations.

(** ** bit packing *)

(** All lists of n booleans. *)
Fixpoint bools_of (n : nat) : list (list bool) :=
  match n with
  | 0 => [[]]
  | S n' => flat_map (fun l => [true :: l; false :: l]) (bools_of n')
  end.

Lemma bools_of_complete n l : length l = n -> In l (bools_of n).
Proof.
  revert l; induction n as [|n IH]; intros [|b l] H; cbn in *; try discriminate; [auto|].
  injection H as H. apply in_flat_map. exists l. split; [apply IH; exact H|].
  destruct b; cbn; auto.
Qed.

Definition upto8 : list (list bool) := flat_map bools_of (seq 0 9).

Lemma upto8_complete l : length l <= 8 -> In l upto8.
Proof.
  intros H. apply in_flat_map. exists (length l). split; [apply in_seq; lia|]. apply bools_of_complete. reflexivity.
Qed.

Lemma eqb_list_true (l m : list bool) : (if list_eq_dec bool_dec l m then true else false) = true -> l = m.
Proof. destruct (list_eq_dec bool_dec l m); [auto|discriminate]. Qed.

Lemma pack_unpack l : length l <= 8 -> u8_to_bools (bool_to_u8 l) = l ++ repeat false (8 - length l).
Proof.
  intros H. apply upto8_complete in H. revert l H.
  assert (Hall : forallb (fun l => if list_eq_dec bool_dec (u8_to_bools (bool_to_u8 l)) (l ++ repeat false (8 - length l))
                                   then true else false) upto8 = true) by (vm_compute; reflexivity).
  rewrite forallb_forall in Hall. intros l H. apply eqb_list_true. apply Hall. exact H.
Qed.

Lemma pack_byte l : length l <= 8 -> (bool_to_u8 l < 256)%N.
Proof.
  intros H. apply upto8_complete in H. revert l H.
  assert (Hall : forallb (fun l => (bool_to_u8 l <? 256)%N) upto8 = true) by (vm_compute; reflexivity).
  rewrite forallb_forall in Hall. intros l H. apply N.ltb_lt. apply Hall. exact H.
Qed.

Lemma unpack_pack (d : N) : (d < 256)%N -> bool_to_u8 (u8_to_bools d) = d.
Proof.
  intros H.
  assert (Hall : forallb (fun n => (bool_to_u8 (u8_to_bools (N.of_nat n)) =? N.of_nat n)%N) (seq 0 256) = true)
    by (vm_compute; reflexivity).
  rewrite forallb_forall in Hall. specialize (Hall (N.to_nat d)). rewrite N2Nat.id in Hall.
  apply N.eqb_eq. apply Hall. apply in_seq. lia.
Qed.

Lemma u8_to_bools_length d : length (u8_to_bools d) = 8.
Proof. reflexivity. Qed.

Lemma pad_loop_id fuel chunk : length chunk <= 8 -> pad_loop fuel chunk = chunk.
Proof.
  intros H. destruct fuel as [|fuel]; [reflexivity|]. cbn [pad_loop].
  destruct (Z.ltb_spec (two64 - 1 - Z.of_nat (length chunk)) 8); [|reflexivity].
  change two64 with 18446744073709551616%Z in *. lia.
Qed.

Lemma bools_to_u8s_yields it l :
  yields it l -> yields (bools_to_u8s it) (map bool_to_u8 (chunk_list 8 l)).
Proof.
  intros Hy. unfold bools_to_u8s.
  erewrite map_ext_in.
  - apply imap_yields. apply chunks_yields; [lia|exact Hy].
  - intros c Hc. cbn beta. unfold chunk_list in Hc. apply in_map_iff in Hc. destruct Hc as [i [<- Hi]].
    rewrite pad_loop_id by (rewrite block_length; lia). destruct (negb _); reflexivity.
Qed.

Lemma pack_stream l :
  flat_map u8_to_bools (map bool_to_u8 (chunk_list 8 l)) =
  l ++ repeat false (8 * ceil_div (length l) 8 - length l).
Proof.
  remember (length l) as n eqn:En. revert l En.
  induction n as [n IH] using (well_founded_induction lt_wf). intros l En.
  destruct l as [|b l].
  - subst n. rewrite chunk_list_nil by lia. reflexivity.
  - rewrite chunk_list_cons by (lia || discriminate). cbn [map flat_map].
    rewrite pack_unpack by (rewrite firstn_length; lia).
    assert (Hs : length (skipn 8 (b :: l)) < n) by (subst n; rewrite skipn_length; cbn; lia).
    rewrite (IH _ Hs (skipn 8 (b :: l)) eq_refl). rewrite skipn_length, firstn_length, <- En.
    rewrite (ceil_div_S n) by (subst n; cbn; lia).
    destruct (Nat.le_gt_cases 8 n) as [Hle|Hgt].
    + replace (8 - Nat.min 8 n) with 0 by lia. cbn [repeat]. rewrite app_nil_r, app_assoc, firstn_skipn.
      do 2 f_equal. lia.
    + replace (n - 8) with 0 by lia. rewrite ceil_div_0 by lia.
      replace (8 - Nat.min 8 n) with (8 * 1 - n) by lia. replace (8 * 0 - 0) with 0 by lia.
      rewrite firstn_all2, skipn_all2 by (rewrite <- En; lia).
      cbn [repeat]. rewrite !app_nil_r. reflexivity.
Qed.

Lemma u8s_to_bools_yields it l : yields it l -> yields (u8s_to_bools it) (flat_map u8_to_bools l).
Proof.
  intros Hy. apply iflat_pure_yields; [exact Hy|]. intros d _ E.
  apply (f_equal (@length bool)) in E. rewrite u8_to_bools_length in E. discriminate.
Qed.

(** ** fftshift *)

Lemma div_ceil2_le n : div_ceil2 n <= n.
Proof. unfold div_ceil2. destruct n; [cbn; lia|]. apply Nat.div_le_upper_bound; lia. Qed.

Lemma div_ceil2_spec n : n <= 2 * div_ceil2 n <= n + 1.
Proof.
  unfold div_ceil2. pose proof (Nat.div_mod (n + 1) 2 ltac:(lia)).
  pose proof (Nat.mod_upper_bound (n + 1) 2 ltac:(lia)). lia.
Qed.

Lemma fftshift_length {A} (x : list A) : length (fftshift x) = length x.
Proof. unfold fftshift. rewrite app_length, skipn_length, firstn_length. pose proof (div_ceil2_le (length x)). lia. Qed.

Lemma rotate_rotate {A} i j (x : list A) :
  i + j <= length x -> rotate_left j (rotate_left i x) = rotate_left (i + j) x.
Proof.
  intros H. unfold rotate_left. rewrite skipn_app, firstn_app, skipn_length.
  replace (j - (length x - i)) with 0 by lia. cbn [skipn firstn]. rewrite app_nil_r.
  rewrite skipn_add, <- app_assoc. f_equal.
  rewrite <- (firstn_skipn i x) at 3. rewrite firstn_app, firstn_length.
  rewrite (firstn_all2 (n := i + j)) by (rewrite firstn_length; lia).
  f_equal. f_equal. lia.
Qed.

Lemma rotate_all {A} (x : list A) : rotate_left (length x) x = x.
Proof. unfold rotate_left. rewrite skipn_all, firstn_all. reflexivity. Qed.

Lemma rotate_length {A} i (x : list A) : length (rotate_left i x) = length x.
Proof. unfold rotate_left. rewrite app_length, skipn_length, firstn_length. lia. Qed.

Lemma fftshift_twice_even {A} (x : list A) : Nat.even (length x) = true -> fftshift (fftshift x) = x.
Proof.
  intros He. unfold fftshift at 1. rewrite fftshift_length. cbn zeta.
  change (rotate_left (div_ceil2 (length x)) (rotate_left (div_ceil2 (length x)) x) = x).
  pose proof (div_ceil2_spec (length x)). apply Nat.even_spec in He. destruct He as [k Hk].
  rewrite rotate_rotate by lia. replace (_ + _) with (length x) by lia. apply rotate_all.
Qed.

Lemma fftshift_twice_odd {A} (x : list A) : Nat.odd (length x) = true -> fftshift (fftshift x) = rotate_left 1 x.
Proof.
  intros He. unfold fftshift at 1. rewrite fftshift_length. cbn zeta.
  pose proof (div_ceil2_spec (length x)) as Hs. apply Nat.odd_spec in He. destruct He as [k Hk].
  set (p := div_ceil2 (length x)) in *.
  change (rotate_left p (fftshift x) = rotate_left 1 x).
  change (fftshift x) with (rotate_left p x).
  assert (Hp : p = S k) by lia.
  (* first rotate by 1, then by p-1 + p = len *)
  replace (rotate_left p (rotate_left p x)) with (rotate_left (p - 1) (rotate_left p (rotate_left 1 x))).
  - rewrite rotate_rotate by (rewrite rotate_length; lia). rewrite <- (rotate_length 1 x) in Hk.
    replace (p + (p - 1)) with (length (rotate_left 1 x)) by lia. apply rotate_all.
  - destruct (Nat.eq_dec p (length x)) as [E|E].
    + assert (length x = 1) by lia. assert (p = 1) by lia. rewrite H0. cbn [Nat.sub].
      unfold rotate_left at 1. cbn [skipn firstn]. rewrite app_nil_r. reflexivity.
    + replace (rotate_left p (rotate_left 1 x)) with (rotate_left 1 (rotate_left p x)).
      * rewrite rotate_rotate by (rewrite rotate_length; lia). f_equal. lia.
      * rewrite !rotate_rotate by lia. f_equal. lia.
Qed.

Lemma fftshift_perm {A} (x : list A) : Permutation (fftshift x) x.
Proof.
  unfold fftshift. rewrite Permutation_app_comm. rewrite firstn_skipn. reflexivity.
Qed.

(** ** fftshift_mut *)

Lemma set_idx_spec {A} (l : list A) i v : i < length l ->
  set_idx l i v = Ret (firstn i l ++ v :: skipn (S i) l).
Proof.
  revert i; induction l as [|a l IH]; intros i H; cbn in H; [lia|].
  destruct i as [|i]; [reflexivity|]. cbn [set_idx]. rewrite IH by lia. reflexivity.
Qed.

(** Writing back the first p items of the original. *)
Lemma write_back {A} (v : list A) : forall i x, i + length v <= length x ->
  for_each (combine (seq i (length v)) v) (fun x '(i, item) => set_idx x i item) x =
  Ret (firstn i x ++ v ++ skipn (i + length v) x).
Proof.
  induction v as [|a v IH]; intros i x H.
  - cbn. rewrite Nat.add_0_r, firstn_skipn. reflexivity.
  - cbn [length seq combine for_each] in *. rewrite set_idx_spec by lia. cbn [bind].
    rewrite IH by (rewrite app_length, firstn_length; cbn [length]; rewrite skipn_length; lia).
    f_equal.
    assert (HL : length (firstn i x) = i) by (rewrite firstn_length; lia).
    rewrite firstn_app, HL. replace (S i - i) with 1 by lia. rewrite (firstn_all2 (n := S i)) by lia.
    rewrite <- app_assoc. cbn [firstn app]. f_equal. f_equal. f_equal.
    rewrite skipn_app, HL. rewrite skipn_all2 by lia. cbn [app].
    replace (S i + length v - i) with (S (length v)) by lia.
    change (skipn (S (length v)) (a :: skipn (S i) x)) with (skipn (length v) (skipn (S i) x)).
    rewrite skipn_add. f_equal. lia.
Qed.

Lemma for_each_copy {A} (x0 : list A) js : forall i (x : list A),
  length x = length x0 -> (forall j, In j js -> j < length x0) -> i + length js <= length x0 ->
  exists x1, for_each (combine (seq i (length js)) js) (fun x '(i, j) => let? a := idx x j in set_idx x i a) x
             = Ret x1 /\ length x1 = length x0 /\ skipn (i + length js) x1 = skipn (i + length js) x.
Proof.
  induction js as [|j js IH]; intros i x Hx Hj Hi.
  - exists x. cbn. auto.
  - cbn [length seq combine for_each] in *.
    unfold idx at 1. destruct (nth_error x j) as [a|] eqn:E.
    2: { apply nth_error_None in E. specialize (Hj j (or_introl eq_refl)). lia. }
    cbn [bind]. rewrite set_idx_spec by lia. cbn [bind].
    set (x' := firstn i x ++ a :: skipn (S i) x).
    assert (Hx' : length x' = length x0).
    { unfold x'. rewrite app_length, firstn_length. cbn [length]. rewrite skipn_length. lia. }
    destruct (IH (S i) x' Hx') as [x1 [E1 [H1 H2]]].
    + intros j' Hj'. apply Hj. right; exact Hj'.
    + lia.
    + exists x1. split; [exact E1|]. split; [exact H1|].
      replace (i + S (length js)) with (S i + length js) by lia. rewrite H2.
      unfold x'. rewrite skipn_app, firstn_length.
      rewrite skipn_all2 by (rewrite firstn_length; lia). cbn [app].
      replace (S i + length js - Nat.min i (length x)) with (S (length js)) by lia.
      change (skipn (S (length js)) (a :: skipn (S i) x)) with (skipn (length js) (skipn (S i) x)).
      rewrite skipn_add. f_equal.
Qed.

Lemma fftshift_mut_id {A} (x : list A) : fftshift_mut x = Ret x.
Proof.
  unfold fftshift_mut. cbn zeta. pose proof (div_ceil2_spec (length x)) as Hs.
  set (p := div_ceil2 (length x)) in *.
  assert (HL : length (firstn p x) = p) by (rewrite firstn_length; lia).
  destruct (for_each_copy x (seq p (length x - p)) 0 x eq_refl) as [x1 [E1 [H1 H2]]].
  - intros j Hj. apply in_seq in Hj. lia.
  - rewrite seq_length. lia.
  - unfold index_from. rewrite E1. cbn [bind].
    replace (seq 0 p) with (seq 0 (length (firstn p x))) by (rewrite HL; reflexivity).
    rewrite write_back by lia. rewrite HL. cbn [firstn app Nat.add].
    rewrite seq_length in H2. cbn [Nat.add] in H2.
    assert (E : skipn p x1 = skipn p x).
    { replace p with ((length x - p) + (p - (length x - p))) by lia.
      rewrite <- !skipn_add. rewrite H2. reflexivity. }
    rewrite E, firstn_skipn. reflexivity.
Qed.

(** ** no_nans *)

(** An infinity of either sign. *)
Definition is_inf (x : F64) : bool := match x with B754_infinity _ => true | _ => false end.

Lemma isnan_f64_spec x : isnan_f64 x = is_inf x.
Proof. destruct x as [s|s| |s m e H]; destruct s || idtac; reflexivity. Qed.

Lemma isnan_complex_spec z : isnan_complex z = is_inf (re z) || is_inf (im z).
Proof.
  destruct z as [x y]. unfold isnan_complex. cbn [re im].
  destruct x as [[|]|[|]| |[|] ? ? ?]; destruct y as [[|]|[|]| |[|] ? ? ?]; reflexivity.
Qed.

Lemma no_nans_spec {A} (p : A -> bool) v : no_nans p v = true <-> forall x, In x v -> p x = false.
Proof.
  unfold no_nans. rewrite negb_true_iff. split.
  - intros H x Hx. destruct (p x) eqn:E; [|reflexivity].
    assert (existsb p v = true) by (apply existsb_exists; eauto). congruence.
  - intros H. destruct (existsb p v) eqn:E; [|reflexivity].
    apply existsb_exists in E. destruct E as [x [Hx Hp]]. rewrite (H x Hx) in Hp. discriminate.
Qed.
