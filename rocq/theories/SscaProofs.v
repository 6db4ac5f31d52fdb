(** Lemmas about SscaModel.v: shapes and contents for any number type and any FFT. *)
From Coq Require Import List Arith ZArith Bool Lia.
From Verif Require Import Base Spec Num LibModel LibDiscrete Tab Hadamard FftModel OfdmModel OfdmProofs SscaModel.
Import ListNotations.

(** The array of shape (a, b) given by a function of the two indices. *)
Definition arr {A} (a b : nat) (f : nat -> nat -> A) : list (list A) := tab a (fun i => tab b (f i)).

Lemma arr_ext {A} a b (f g : nat -> nat -> A) : (forall i j, i < a -> j < b -> f i j = g i j) -> arr a b f = arr a b g.
Proof. intros H. apply tab_ext. intros i Hi. apply tab_ext. intros j Hj. apply H; assumption. Qed.
Lemma arr_repeat {A} a b (v : A) : repeat (repeat v b) a = arr a b (fun _ _ => v).
Proof.
  assert (R : forall (X : Type) n (x : X), repeat x n = tab n (fun _ => x)).
  { intros X n x. induction n as [|n IH]; [reflexivity|]. rewrite tab_S. cbn [repeat]. f_equal. exact IH. }
  rewrite !R. reflexivity.
Qed.
Lemma aget_arr {A} a b (f : nat -> nat -> A) i j : i < a -> j < b -> aget (arr a b f) i j = Ret (f i j).
Proof. intros Hi Hj. unfold aget, arr. rewrite idx_tab by exact Hi. cbn [bind]. apply idx_tab. exact Hj. Qed.
Lemma aset_arr {A} a b (f : nat -> nat -> A) i j v : i < a -> j < b ->
  aset (arr a b f) i j v = Ret (arr a b (fun x y => if (x =? i) && (y =? j) then v else f x y)).
Proof.
  intros Hi Hj. unfold aset, arr. rewrite idx_tab by exact Hi. cbn [bind]. rewrite set_idx_tab by exact Hj. cbn [bind].
  rewrite set_idx_tab by exact Hi. f_equal. apply tab_ext. intros x _. destruct (Nat.eqb_spec x i) as [->|N].
  - apply tab_ext. intros y _. reflexivity.
  - reflexivity.
Qed.
Lemma column_arr {A} (d : A) a b f j : j < b -> column d (arr a b f) j = tab a (fun i => f i j).
Proof. intros Hj. unfold column, arr. rewrite tab_map. apply tab_ext. intros i _. apply tab_nth. exact Hj. Qed.
Lemma arr_shape {A} a b (f : nat -> nat -> A) : length (arr a b f) = a /\ Forall (fun row => length row = b) (arr a b f).
Proof.
  split; [apply tab_length|]. apply Forall_forall. intros row Hin. unfold arr, tab in Hin. apply in_map_iff in Hin.
  destruct Hin as (i & <- & _). rewrite map_length, seq_length. reflexivity.
Qed.
Lemma nth_arr {A} a b (f : nat -> nat -> A) i j d e : i < a -> j < b -> nth j (nth i (arr a b f) d) e = f i j.
Proof. intros Hi Hj. unfold arr. rewrite tab_nth by exact Hi. apply tab_nth. exact Hj. Qed.

Lemma push_rows_map {A B} (l : list A) (body : A -> outcome B) g : (forall a, In a l -> body a = Ret (g a)) ->
  push_rows l body = Ret (map g l).
Proof. intros E. unfold push_rows. rewrite (push_map body g l E []). reflexivity. Qed.
Lemma push_rows_seq {B} n (body : nat -> outcome B) g : (forall i, i < n -> body i = Ret (g i)) ->
  push_rows (seq 0 n) body = Ret (tab n g).
Proof. intros E. apply push_rows_map. intros i Hi. apply in_seq in Hi. apply E. lia. Qed.

(** A loop whose bodies return or panic panics as soon as one of them does. *)
Lemma push_rows_panic {A B} (l : list A) (body : A -> outcome B) a :
  (forall a, In a l -> body a = Panic \/ exists v, body a = Ret v) -> In a l -> body a = Panic ->
  push_rows l body = Panic.
Proof.
  intros Ht Hin Hp. unfold push_rows.
  enough (G : forall acc, for_each l (fun rows i => let? row := body i in Ret (rows ++ [row])) acc = Panic) by apply G.
  revert Ht Hin. induction l as [|x l IH]; intros Ht Hin acc; [destruct Hin|].
  cbn [for_each]. destruct (Ht x (or_introl eq_refl)) as [->|(v & E)]; [reflexivity|].
  rewrite E. cbn [bind]. destruct Hin as [->|Hin]; [rewrite E in Hp; discriminate|].
  apply IH; [|exact Hin]. intros y Hy. apply Ht. right. exact Hy.
Qed.

Lemma slice_tab {A} (d : A) (l : list A) a m : a + m <= length l -> slice l a (a + m) = Ret (tab m (fun r => nth (a + r) l d)).
Proof.
  intros Hl. unfold slice. replace (a <=? a + m) with true by (symmetry; apply Nat.leb_le; lia).
  apply Nat.leb_le in Hl as Hb. rewrite Hb. cbn [andb]. f_equal. replace (a + m - a) with m by lia.
  rewrite <- (tab_nth_id l d) at 1. rewrite skipn_tab, firstn_tab. apply tab_eq; [lia|]. reflexivity.
Qed.

Section Base.
Context {T : Type} `{Num T}.
Variable fft : Fft T.
Local Open Scope num_scope.

(** hamming_window(len)\[i\]. *)
Definition ham (len i : nat) : T := nlit 54 100 - nlit 46 100 * ncos (nofZ 2 * npi * nofnat i / nofnat len).

Definition cell_row (s : list T) (n np i j : nat) : cpx T :=
  cmul (cmul (cmul
    (nth j (fftshift (fft_forward fft (tab np (fun r => cscale (Cpx (ham np r) (nofZ 0)) (nth (i + r) s (nofZ 0)))))) c0)
    (cexp_i (- nofZ 2 * npi * (nofnat j - nofnat np / nofZ 2) * nofnat i / nofnat np)))
    (cconj (Cpx (nth (np / 2 + i)%nat s (nofZ 0)) (nofZ 0))))
    (Cpx (ham n i) (nofZ 0)).

Lemma ssca_row_ok s n np i : (1 <= np)%nat -> (i < n)%nat -> (i + np <= length s)%nat ->
  ssca_row fft s n np i = Ret (tab np (cell_row s n np i)).
Proof.
  intros Hnp Hi Hl. unfold ssca_row. rewrite (slice_tab (nofZ 0)) by exact Hl. cbn [bind].
  change (hamming_window_complex np) with (tab np (fun r => Cpx (ham np r) (nofZ 0))).
  rewrite tab_combine, tab_map. cbn beta iota.
  rewrite fft_process_one by (try apply tab_length; exact Hnp). cbn [bind].
  change (hamming_window n) with (tab n (ham n)). rewrite idx_tab by exact Hi. cbn [bind].
  assert (Hh : (np / 2 + i < length s)%nat).
  { pose proof (Nat.div_lt np 2). lia. }
  rewrite (push_rows_seq np _ (fun _ => cconj (Cpx (nth (np / 2 + i)%nat s (nofZ 0)) (nofZ 0)))).
  2: { intros j _. unfold idx. rewrite (nth_error_nth' s (nofZ 0) Hh). reflexivity. }
  cbn [bind]. f_equal.
  set (F := fft_forward fft _).
  assert (LF : length (fftshift F) = np).
  { rewrite fftshift_length. unfold F. rewrite fft_forward_length. apply tab_length. }
  rewrite <- (tab_nth_id (fftshift F) c0), LF.
  match goal with |- context [map ?f (seq 0 np)] => change (map f (seq 0 np)) with (tab np f) end.
  rewrite !tab_combine, tab_map. apply tab_ext. intros j Hj. cbn beta iota. unfold cell_row. fold F. reflexivity.
Qed.

Lemma ssca_row_short s n np i : (length s < i + np)%nat -> ssca_row fft s n np i = Panic.
Proof.
  intros Hl. unfold ssca_row, slice. apply Nat.leb_gt in Hl. rewrite Hl, andb_false_r. reflexivity.
Qed.

(** Entry (q, j) of the result. *)
Definition sx_val (s : list T) (n np q j : nat) : cpx T :=
  nth q (fftshift (fft_forward fft (tab n (fun i => cell_row s n np i j)))) c0.

Lemma ssca_base_ok s n np : (1 <= np)%nat -> (np < n)%nat -> (n + np <= length s + 1)%nat ->
  ssca_base fft s n np = Ret (arr n np (sx_val s n np)).
Proof.
  intros Hnp Hn Hl. unfold ssca_base. apply Nat.ltb_lt in Hn as Hb. rewrite Hb. cbn [assert_then].
  rewrite (push_rows_seq n _ (fun i => tab np (cell_row s n np i))) by (intros i Hi; apply ssca_row_ok; lia).
  cbn [bind]. fold (arr n np (cell_row s n np)).
  rewrite (push_rows_seq np _ (fun j => tab n (fun q => sx_val s n np q j))).
  - cbn [bind]. f_equal. fold (arr np n (fun j q => sx_val s n np q j)). unfold arr at 2. apply map_ext_in.
    intros q Hq. apply in_seq in Hq. rewrite column_arr by lia. reflexivity.
  - intros j Hj. rewrite column_arr by exact Hj. rewrite fft_process_one by (try apply tab_length; lia). cbn [bind]. f_equal.
    set (F := fft_forward fft _). rewrite <- (tab_nth_id (fftshift F) c0). rewrite fftshift_length. unfold F at 1.
    rewrite fft_forward_length, tab_length. reflexivity.
Qed.

Lemma ssca_base_panics s n np : (1 <= np)%nat -> (n <= np)%nat \/ (length s + 1 < n + np)%nat -> ssca_base fft s n np = Panic.
Proof.
  intros Hnp Hbad. unfold ssca_base. destruct (Nat.ltb_spec np n) as [Hn|Hn]; [|reflexivity]. cbn [assert_then].
  rewrite (push_rows_panic _ _ (n - 1)%nat).
  - reflexivity.
  - intros i Hi. apply in_seq in Hi. destruct (Nat.le_gt_cases (i + np) (length s)).
    + right. eexists. apply ssca_row_ok; lia.
    + left. apply ssca_row_short. lia.
  - apply in_seq. lia.
  - apply ssca_row_short. lia.
Qed.

(** ** The mapped output *)
Definition hits (n np k q : nat) (p : nat * nat) : bool :=
  let '(k', q') := ssca_cell n np (fst p) (snd p) in (k =? k')%nat && (q =? q')%nat.

(** What cell (k, q) holds: the value of the last entry written there. *)
Definition mapped_val (s : list T) (n np k q : nat) : cpx T :=
  match find (hits n np k q) (rev (list_prod (seq 0 n) (seq 0 np))) with
  | Some (q_p, k_p) => sx_val s n np q_p k_p
  | None => c0
  end.

Lemma for_each_app {A S} (f : S -> A -> outcome S) l1 l2 s :
  for_each (l1 ++ l2) f s = bind (for_each l1 f s) (for_each l2 f).
Proof.
  revert s; induction l1 as [|a l1 IH]; intros s; [reflexivity|]. cbn [app for_each].
  destruct (f s a) as [s'| |]; [apply IH|reflexivity|reflexivity].
Qed.
Lemma for_each_map {A B S} (f : S -> B -> outcome S) (g : A -> B) l s :
  for_each (map g l) f s = for_each l (fun s a => f s (g a)) s.
Proof.
  revert s; induction l as [|a l IH]; intros s; [reflexivity|]. cbn [map for_each].
  destruct (f s (g a)) as [s'| |]; [apply IH|reflexivity|reflexivity].
Qed.
Lemma for_each_prod {A B S} (f : S -> A * B -> outcome S) l1 l2 s :
  for_each l1 (fun s a => for_each l2 (fun s b => f s (a, b)) s) s = for_each (list_prod l1 l2) f s.
Proof.
  revert s; induction l1 as [|a l1 IH]; intros s; [reflexivity|]. cbn [list_prod for_each].
  rewrite for_each_app, for_each_map. destruct (for_each l2 _ s) as [s'| |]; [apply IH|reflexivity|reflexivity].
Qed.

Lemma find_app {A} (f : A -> bool) l1 l2 : find f (l1 ++ l2) = match find f l1 with Some x => Some x | None => find f l2 end.
Proof. induction l1 as [|a l1 IH]; [reflexivity|]. cbn. destruct (f a); [reflexivity|exact IH]. Qed.

Lemma writes_ok {A} (cell : nat * nat -> nat * nat) (v : nat -> nat -> A) n np a b l : forall g,
  (forall p, In p l -> fst p < n /\ snd p < np /\ fst (cell p) < a /\ snd (cell p) < b)%nat ->
  for_each l (fun m p => let '(k, q) := cell p in let? x := aget (arr n np v) (fst p) (snd p) in aset m k q x) (arr a b g)
  = Ret (arr a b (fun k q => match find (fun p => let '(k', q') := cell p in (k =? k')%nat && (q =? q')%nat) (rev l) with
                            | Some (x, y) => v x y | None => g k q end)).
Proof.
  induction l as [|p l IH]; intros g Hb; [reflexivity|]. cbn [for_each rev].
  destruct (Hb p (or_introl eq_refl)) as (H1 & H2 & H3 & H4). destruct (cell p) as [k0 q0] eqn:Ec. cbn [fst snd] in H3, H4.
  rewrite aget_arr by assumption. cbn [bind]. rewrite aset_arr by assumption. cbn [bind]. rewrite IH by (intros p' Hp'; apply Hb; right; exact Hp').
  f_equal. apply arr_ext. intros k q _ _. rewrite find_app. destruct (find _ (rev l)) as [[x y]|]; [reflexivity|].
  cbn [find]. rewrite Ec. destruct ((k =? k0)%nat && (q =? q0)%nat); [|reflexivity]. destruct p; reflexivity.
Qed.

Lemma ssca_mapped_ok s n np : (1 <= np)%nat -> (np < n)%nat -> (n + np <= length s + 1)%nat ->
  (forall q_p k_p, q_p < n -> k_p < np -> fst (ssca_cell n np q_p k_p) <= np /\ snd (ssca_cell n np q_p k_p) <= 2 * n)%nat ->
  ssca_mapped fft s n np = Ret (arr (np + 1) (2 * n + 1) (mapped_val s n np)).
Proof.
  intros Hnp Hn Hl Hc. unfold ssca_mapped. rewrite ssca_base_ok by assumption. cbn [bind].
  rewrite arr_repeat.
  etransitivity; [|apply (writes_ok (fun p => ssca_cell n np (fst p) (snd p)) (sx_val s n np) n np (np + 1) (2 * n + 1)
     (list_prod (seq 0 n) (seq 0 np)) (fun _ _ => c0))].
  - rewrite <- for_each_prod. reflexivity.
  - intros [q_p k_p] Hin. apply in_prod_iff in Hin. destruct Hin as [I1 I2]. apply in_seq in I1, I2. cbn [fst snd].
    destruct (Hc q_p k_p) as [C1 C2]; [lia|lia|]. lia.
Qed.

(** When no two entries share a cell, each one is found in its own, and the other cells are zero. *)
Lemma mapped_val_inj s n np :
  (forall q1 k1 q2 k2, q1 < n -> k1 < np -> q2 < n -> k2 < np -> ssca_cell n np q1 k1 = ssca_cell n np q2 k2 -> q1 = q2 /\ k1 = k2)%nat ->
  (forall q_p k_p, q_p < n -> k_p < np ->
     mapped_val s n np (fst (ssca_cell n np q_p k_p)) (snd (ssca_cell n np q_p k_p)) = sx_val s n np q_p k_p)%nat /\
  (forall k q, (forall q_p k_p, q_p < n -> k_p < np -> ssca_cell n np q_p k_p <> (k, q))%nat -> mapped_val s n np k q = c0).
Proof.
  intros Hinj. split.
  - intros q_p k_p Hq Hk. unfold mapped_val. destruct (find _ _) as [[q2 k2]|] eqn:F.
    + apply find_some in F. destruct F as [Hin Hh]. apply in_rev, in_prod_iff in Hin. destruct Hin as [I1 I2]. apply in_seq in I1, I2.
      unfold hits in Hh. cbn [fst snd] in Hh. destruct (ssca_cell n np q2 k2) as [k' q'] eqn:E2.
      apply andb_prop in Hh. destruct Hh as [A1 A2]. apply Nat.eqb_eq in A1, A2.
      destruct (Hinj q_p k_p q2 k2) as [-> ->]; [lia|lia|lia|lia| |reflexivity].
      rewrite E2, <- A1, <- A2. destruct (ssca_cell n np q_p k_p); reflexivity.
    + exfalso. apply (find_none _ _) with (x := (q_p, k_p)) in F.
      * unfold hits in F. cbn [fst snd] in F. destruct (ssca_cell n np q_p k_p). cbn [fst snd] in F.
        rewrite !Nat.eqb_refl in F. discriminate.
      * rewrite <- in_rev. apply in_prod_iff. split; apply in_seq; lia.
  - intros k q Hno. unfold mapped_val. destruct (find _ _) as [[q2 k2]|] eqn:F; [|reflexivity].
    apply find_some in F. destruct F as [Hin Hh]. apply in_rev, in_prod_iff in Hin. destruct Hin as [I1 I2]. apply in_seq in I1, I2.
    exfalso. apply (Hno q2 k2); [lia|lia|]. unfold hits in Hh. cbn [fst snd] in Hh. destruct (ssca_cell n np q2 k2) as [k' q'].
    apply andb_prop in Hh. destruct Hh as [A1 A2]. apply Nat.eqb_eq in A1, A2. congruence.
Qed.
End Base.
