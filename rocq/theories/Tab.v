(** Lists given by a function of the index, and how the list functions of the adapters act on them. *)
From Coq Require Import List Arith Lia.
From Verif Require Import Base IterTheory IterProofs Spec.
Import ListNotations.

Lemma tab_length {A} n (f : nat -> A) : length (tab n f) = n.
Proof. unfold tab. rewrite map_length, seq_length. reflexivity. Qed.

Lemma tab_nth_error {A} n (f : nat -> A) i : nth_error (tab n f) i = if i <? n then Some (f i) else None.
Proof.
  unfold tab. rewrite nth_error_map. destruct (Nat.ltb_spec i n) as [H|H].
  - rewrite (nth_error_nth' _ 0) by (rewrite seq_length; exact H). rewrite seq_nth by exact H. reflexivity.
  - replace (nth_error (seq 0 n) i) with (@None nat); [reflexivity|].
    symmetry. apply nth_error_None. rewrite seq_length. exact H.
Qed.

Lemma tab_nth {A} n (f : nat -> A) i d : i < n -> nth i (tab n f) d = f i.
Proof. intros H. apply nth_error_nth. rewrite tab_nth_error. apply Nat.ltb_lt in H. rewrite H. reflexivity. Qed.

Lemma tab_ext {A} n (f g : nat -> A) : (forall i, i < n -> f i = g i) -> tab n f = tab n g.
Proof. intros H. apply map_ext_in. intros i Hi. apply in_seq in Hi. apply H. lia. Qed.

Lemma tab_eq {A} n m (f g : nat -> A) : n = m -> (forall i, i < n -> f i = g i) -> tab n f = tab m g.
Proof. intros <-. apply tab_ext. Qed.

Lemma tab_nth_id {A} (l : list A) d : tab (length l) (fun i => nth i l d) = l.
Proof.
  apply nth_error_inj. intros i. rewrite tab_nth_error. destruct (Nat.ltb_spec i (length l)) as [H|H].
  - symmetry. apply nth_error_nth'. exact H.
  - symmetry. apply nth_error_None. exact H.
Qed.

Lemma tab_map {A B} (g : A -> B) n f : map g (tab n f) = tab n (fun i => g (f i)).
Proof. unfold tab. apply map_map. Qed.

Lemma map_tab_nth {A B} (g : A -> B) (l : list A) d : map g l = tab (length l) (fun i => g (nth i l d)).
Proof. rewrite <- tab_map, tab_nth_id. reflexivity. Qed.

Lemma tab_seq_shift {A} a n (f : nat -> A) : map f (seq a n) = tab n (fun i => f (a + i)).
Proof.
  unfold tab. revert a; induction n as [|n IH]; intros a; [reflexivity|]. cbn [seq map].
  rewrite Nat.add_0_r. f_equal. rewrite IH, <- seq_shift, map_map. apply map_ext. intros i. f_equal. lia.
Qed.

Lemma tab_S {A} n (f : nat -> A) : tab (S n) f = f 0 :: tab n (fun i => f (S i)).
Proof. unfold tab. cbn [seq map]. f_equal. rewrite <- seq_shift, map_map. reflexivity. Qed.

Lemma tab_add {A} n m (f : nat -> A) : tab (n + m) f = tab n f ++ tab m (fun i => f (n + i)).
Proof. unfold tab at 1. rewrite seq_app, map_app. f_equal. apply tab_seq_shift. Qed.

Lemma tab_combine {A B} n (f : nat -> A) (g : nat -> B) : combine (tab n f) (tab n g) = tab n (fun i => (f i, g i)).
Proof.
  unfold tab. generalize 0. induction n as [|n IH]; intros k; [reflexivity|]. cbn. f_equal. apply IH.
Qed.

Lemma tab_index {A} n (f : nat -> A) : index_from 0 (tab n f) = tab n (fun i => (i, f i)).
Proof.
  unfold index_from. rewrite tab_length. replace (seq 0 n) with (tab n (fun i => i)) by apply map_id.
  apply tab_combine.
Qed.

Lemma tab_zip {A B} n (f : nat -> A) (g : nat -> B) : zip_stream (tab n f) g = tab n (fun i => (f i, g i)).
Proof. unfold zip_stream. rewrite tab_length. apply (tab_combine n f g). Qed.

Lemma firstn_tab {A} k n (f : nat -> A) : firstn k (tab n f) = tab (Nat.min k n) f.
Proof.
  revert k f; induction n as [|n IH]; intros k f.
  - rewrite Nat.min_0_r. destruct k; reflexivity.
  - destruct k; [reflexivity|]. rewrite tab_S. cbn [firstn Nat.min]. rewrite IH, tab_S. reflexivity.
Qed.

Lemma skipn_tab {A} k n (f : nat -> A) : skipn k (tab n f) = tab (n - k) (fun i => f (k + i)).
Proof.
  revert k f; induction n as [|n IH]; intros k f.
  - destruct k; reflexivity.
  - destruct k; [reflexivity|]. rewrite tab_S. cbn [skipn]. rewrite IH. reflexivity.
Qed.

Lemma block_tab {A} n k m (f : nat -> A) : k < m -> block n k (tab (m * n) f) = tab n (fun j => f (k * n + j)).
Proof.
  intros H. unfold block. rewrite skipn_tab, firstn_tab. apply tab_eq; [nia|]. reflexivity.
Qed.

(** Items arranged in m blocks of n: item i is [f (i / n) (i mod n)]. *)
Lemma flat_tab {A} n m (f : nat -> nat -> A) :
  flat_map (fun i => tab n (f i)) (seq 0 m) = tab (m * n) (fun i => f (i / n) (i mod n)).
Proof.
  destruct (Nat.eq_dec n 0) as [->|Hn].
  - rewrite Nat.mul_0_r. induction (seq 0 m); cbn; auto.
  - induction m as [|m IH]; [reflexivity|].
    rewrite seq_S, flat_map_app, IH. cbn [flat_map]. rewrite app_nil_r, Nat.add_0_l.
    replace (S m * n) with (m * n + n) by lia. rewrite tab_add. f_equal.
    apply tab_ext. intros i Hi. rewrite Nat.div_add_l by lia. rewrite (Nat.div_small i n) by exact Hi.
    rewrite (Nat.add_comm (m * n) i), Nat.mod_add by lia. rewrite Nat.mod_small by exact Hi. f_equal. lia.
Qed.

Lemma flat_map_tab {A B} n m (f : nat -> nat -> A) (g : B -> list A) (h : nat -> B) :
  (forall i, i < m -> g (h i) = tab n (f i)) ->
  flat_map g (tab m h) = tab (m * n) (fun i => f (i / n) (i mod n)).
Proof.
  intros H. rewrite <- flat_tab. unfold tab at 1. rewrite flat_map_concat_map, map_map, <- flat_map_concat_map.
  apply flat_map_ext_in. intros i Hi. apply in_seq in Hi. apply H. lia.
Qed.

Lemma repeat_tab {A} (a : A) n : repeat a n = tab n (fun _ => a).
Proof. induction n as [|n IH]; [reflexivity|]. rewrite tab_S. cbn. rewrite IH. reflexivity. Qed.

Lemma repeat_each_tab {A} n m (f : nat -> A) : repeat_each n (tab m f) = tab (m * n) (fun i => f (i / n)).
Proof.
  unfold repeat_each. rewrite (flat_map_tab n m (fun i _ => f i)); [reflexivity|].
  intros i _. apply repeat_tab.
Qed.

Lemma dump_list_tab {A} (d : A) add n m (f : nat -> A) : 1 <= n ->
  dump_list d add n (tab (m * n) f) = tab m (fun k => fold_left add (tab n (fun j => f (k * n + j))) d).
Proof.
  intros Hn. unfold dump_list. rewrite tab_length, Nat.div_mul by lia.
  apply tab_ext. intros k Hk. rewrite (block_tab n k m f Hk). reflexivity.
Qed.

Lemma chunk_list_tab {A} n m (f : nat -> A) : 1 <= n ->
  chunk_list n (tab (m * n) f) = tab m (fun k => tab n (fun j => f (k * n + j))).
Proof.
  intros Hn. unfold chunk_list. rewrite tab_length.
  replace (ceil_div (m * n) n) with m.
  - apply tab_ext. intros k Hk. apply block_tab. exact Hk.
  - pose proof (ceil_div_spec (m * n) n ltac:(lia)). nia.
Qed.

Lemma pairs_tab {A} n (f : nat -> A) : pairs (tab n f) = tab (n / 2) (fun i => (f (2 * i), f (2 * i + 1))).
Proof.
  revert f. induction n as [n IH] using (well_founded_induction lt_wf). intros f.
  destruct n as [|[|n]]; try reflexivity.
  rewrite !tab_S. cbn [pairs]. rewrite IH by lia.
  replace (S (S n) / 2) with (S (n / 2)).
  - rewrite tab_S. f_equal. apply tab_ext. intros i _. f_equal; f_equal; lia.
  - replace (S (S n)) with (n + 1 * 2) by lia. rewrite Nat.div_add by lia. lia.
Qed.

(** Two-element pieces. *)
Lemma flat_pairs_tab {A B} m (h : nat -> B) (g : B -> A * A) :
  flat_map (fun b => [fst (g b); snd (g b)]) (tab m h) =
  tab (m * 2) (fun i => if Nat.even i then fst (g (h (i / 2))) else snd (g (h (i / 2)))).
Proof.
  rewrite (flat_map_tab 2 m (fun i j => if j =? 0 then fst (g (h i)) else snd (g (h i)))).
  - apply tab_ext. intros i _.
    replace (i mod 2 =? 0) with (Nat.even i); [reflexivity|].
    destruct (Nat.even i) eqn:E.
    + apply Nat.even_spec in E. destruct E as [k ->]. rewrite Nat.mul_comm, Nat.mod_mul by lia. reflexivity.
    + assert (O : Nat.odd i = true) by (rewrite <- Nat.negb_even, E; reflexivity).
      apply Nat.odd_spec in O. destruct O as [k ->]. rewrite Nat.mul_comm, Nat.add_comm, Nat.mod_add by lia. reflexivity.
  - intros i _. reflexivity.
Qed.

Lemma nth_error_combine {A B} (l : list A) (m : list B) i :
  nth_error (combine l m) i =
  match nth_error l i, nth_error m i with Some a, Some b => Some (a, b) | _, _ => None end.
Proof.
  revert m i. induction l as [|a l IH]; intros [|b m] [|i]; cbn; try reflexivity.
  - destruct (nth_error l i); reflexivity.
  - apply IH.
Qed.

Lemma ienum_streams {A} (it : Iter A) f : streams it f -> streams (ienum it) (fun n => (n, f n)).
Proof.
  intros H. apply (streams_coind (next (ienum it))
    (fun s m => exists k, streams_from (next it) (fst s) k /\ forall n, m n = (snd s + n, k n))).
  - intros [s i] m [k [Hk E]]. apply streams_inv in Hk. destruct Hk as [s' [E1 H1]].
    exists (s', S i). cbn. cbn in E1. rewrite E1. cbn. rewrite E. cbn. rewrite Nat.add_0_r. split; [reflexivity|].
    exists (fun n => k (S n)). cbn. split; [exact H1|]. intros n. rewrite E. cbn. f_equal. lia.
  - exists f. cbn. auto.
Qed.
