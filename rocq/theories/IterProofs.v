(** Proofs about the iterator adapters of IterModel.v. *)
From Coq Require Import List Arith Bool Lia PArith ZArith.
From Verif Require Import Base IterTheory IterModel Spec.
Import ListNotations.
Local Arguments Nat.ltb : simpl never.

(** ** inflate *)

Lemma inflate_yields {A} n (it : Iter A) l :
  1 <= n -> yields it l -> yields (inflate n it) (repeat_each n l).
Proof.
  intros Hn H.
  apply (yields_coind (next (inflate n it))
    (fun s m => exists k, yields_from (next it) (inf_source s) k /\
       match inf_curr s with
       | None => m = repeat_each n k
       | Some a => 1 <= inf_curr_copy s <= n /\ m = repeat a (n - inf_curr_copy s) ++ repeat_each n k
       end)).
  - intros [s c [a|]] [k [Hk E]]; cbn in Hk, E; cbn [next inflate]; unfold inflate_next; cbn.
    + destruct E as [Hc E]. symmetry in E. apply app_eq_nil in E. destruct E as [E1 E2].
      assert (c = n) as ->.
      { destruct (Nat.eq_dec c n) as [|Hne]; [assumption|]. exfalso.
        destruct (n - c) eqn:En; [lia|discriminate]. }
      destruct k as [|x k]; [|cbn in E2; destruct n; [lia|discriminate]].
      apply yields_nil_inv in Hk. destruct Hk as [s1 [E3 H3]].
      rewrite Nat.eqb_refl, E3. cbn. eexists. split; [reflexivity|]. exists []. auto.
    + destruct k as [|x k]; [|cbn in E; destruct n; [lia|discriminate]].
      apply yields_nil_inv in Hk. destruct Hk as [s1 [E3 H3]].
      rewrite E3. cbn. eexists. split; [reflexivity|]. exists []. auto.
  - intros [s c [a|]] b m [k [Hk E]]; cbn in Hk, E; cbn [next inflate]; unfold inflate_next; cbn.
    + destruct E as [Hc E]. destruct (Nat.eqb_spec c n) as [->|Hne].
      * rewrite Nat.sub_diag in E. cbn in E. destruct k as [|x k]; [discriminate|].
        apply yields_cons_inv in Hk. destruct Hk as [s1 [E3 H3]]. rewrite E3. cbn.
        cbn in E. destruct n as [|n]; [lia|]. cbn in E. injection E as -> ->.
        eexists. split; [reflexivity|]. exists k. cbn. split; [exact H3|]. split; [lia|].
        rewrite Nat.sub_0_r. reflexivity.
      * replace (n - c) with (S (n - (c + 1))) in E by lia. cbn in E. injection E as -> ->.
        eexists. split; [reflexivity|]. exists k. cbn. split; [exact Hk|]. split; [lia|]. reflexivity.
    + destruct k as [|x k]; [discriminate|].
      apply yields_cons_inv in Hk. destruct Hk as [s1 [E3 H3]]. rewrite E3. cbn.
      cbn in E. destruct n as [|n]; [lia|]. cbn in E. injection E as -> ->.
      eexists. split; [reflexivity|]. exists k. cbn. split; [exact H3|]. split; [lia|].
      rewrite Nat.sub_0_r. reflexivity.
  - exists l. split; [exact H|]. reflexivity.
Qed.

Lemma inflate_streams {A} n (it : Iter A) f :
  1 <= n -> streams it f -> streams (inflate n it) (fun i => f (i / n)).
Proof.
  intros Hn H.
  apply (streams_coind (next (inflate n it))
    (fun s g => exists k, streams_from (next it) (inf_source s) k /\
       match inf_curr s with
       | None => forall i, g i = k (i / n)
       | Some a => 1 <= inf_curr_copy s <= n /\
                   forall i, g i = if i <? n - inf_curr_copy s then a else k ((i - (n - inf_curr_copy s)) / n)
       end)).
  - intros [s c [a|]] g [k [Hk E]]; cbn in Hk, E; cbn [next inflate]; unfold inflate_next; cbn.
    + destruct E as [Hc E]. destruct (Nat.eqb_spec c n) as [->|Hne].
      * apply streams_inv in Hk. destruct Hk as [s1 [E3 H3]]. rewrite E3. cbn.
        eexists. split.
        { rewrite E, Nat.sub_diag. destruct (Nat.ltb_spec 0 0); [lia|]. cbn [Nat.sub]. rewrite Nat.div_small by lia. reflexivity. }
        eexists. split; [exact H3|]. cbn. split; [lia|]. intros i. rewrite E, Nat.sub_diag.
        destruct (Nat.ltb_spec (S i) 0); [lia|]. rewrite Nat.sub_0_r. destruct (Nat.ltb_spec i (n - 1)).
        -- rewrite Nat.div_small by lia. reflexivity.
        -- f_equal. replace (S i) with ((i - (n - 1)) + 1 * n) by lia. rewrite Nat.div_add by lia. lia.
      * eexists. split.
        { rewrite E. destruct (Nat.ltb_spec 0 (n - c)); [|lia]. reflexivity. }
        eexists. split; [exact Hk|]. cbn. split; [lia|]. intros i. rewrite E.
        destruct (Nat.ltb_spec (S i) (n - c)), (Nat.ltb_spec i (n - (c + 1))); try lia; [reflexivity|].
        do 2 f_equal. lia.
    + apply streams_inv in Hk. destruct Hk as [s1 [E3 H3]]. rewrite E3. cbn.
      eexists. split.
      { rewrite E, Nat.div_small by lia. reflexivity. }
      eexists. split; [exact H3|]. cbn. split; [lia|]. intros i. rewrite E.
      destruct (Nat.ltb_spec i (n - 1)).
      -- rewrite Nat.div_small by lia. reflexivity.
      -- f_equal. replace (S i) with ((i - (n - 1)) + 1 * n) by lia. rewrite Nat.div_add by lia. lia.
  - exists f. split; [exact H|]. cbn. intros i. reflexivity.
Qed.

(** inflate(0) needs only the first call of the source to return an item. *)
Lemma inflate0_streams_from {A} (it : Iter A) a s1 :
  next it (cur it) = Ret (Some a, s1) -> streams (inflate 0 it) (fun _ => a).
Proof.
  intros E.
  apply (streams_coind (next (inflate 0 it))
    (fun s g => (forall i, g i = a) /\
       (s = InflateSt (cur it) 0 None \/ (inf_curr s = Some a /\ 1 <= inf_curr_copy s)))).
  - intros [s c o] g [Hg Hs]. cbn in Hs. cbn [next inflate]. unfold inflate_next.
    rewrite Hg. destruct Hs as [Hs|[-> Hc]].
    + injection Hs as -> -> ->. cbn. rewrite E. cbn. eexists. split; [reflexivity|].
      split; [intros i; apply Hg|]. right. cbn. auto.
    + cbn. destruct (Nat.eqb_spec c 0); [lia|]. eexists. split; [reflexivity|].
      split; [intros i; apply Hg|]. right. cbn. split; [reflexivity|lia].
  - split; [reflexivity|]. left; reflexivity.
Qed.

Lemma inflate0_streams {A} (it : Iter A) a l : yields it (a :: l) -> streams (inflate 0 it) (fun _ => a).
Proof. intros H. apply yields_cons_inv in H. destruct H as [s [E _]]. eapply inflate0_streams_from; eauto. Qed.

Lemma inflate0_empty {A} (it : Iter A) : yields it [] -> yields (inflate 0 it) [].
Proof.
  intros H.
  apply (yields_dead (next (inflate 0 it))
    (fun s => inf_curr s = None /\ yields_from (next it) (inf_source s) [])).
  - intros [s c o] [Ho Hs]. cbn in Ho, Hs. subst o. apply yields_nil_inv in Hs.
    destruct Hs as [s1 [E H1]]. cbn [next inflate]. unfold inflate_next. cbn. rewrite E. cbn.
    eexists. split; [reflexivity|]. split; [reflexivity|]. exact H1.
  - split; [reflexivity|exact H].
Qed.

(** ** blocks *)

Lemma block_S {A} n i (l : list A) : block n (S i) l = block n i (skipn n l).
Proof. unfold block. rewrite skipn_add. do 2 f_equal. Qed.

Lemma block_0 {A} n (l : list A) : block n 0 l = firstn n l.
Proof. reflexivity. Qed.

Lemma block_length {A} n i (l : list A) : length (block n i l) = Nat.min n (length l - i * n).
Proof. unfold block. rewrite firstn_length, skipn_length. reflexivity. Qed.

Lemma concat_blocks {A} n c (l : list A) :
  concat (map (fun i => block n i l) (seq 0 c)) = firstn (c * n) l.
Proof.
  revert l; induction c as [|c IH]; intros l; [reflexivity|].
  cbn [seq map concat]. rewrite <- seq_shift, map_map. cbn [Nat.mul].
  rewrite (map_ext _ (fun i => block n i (skipn n l))) by (intros; apply block_S).
  rewrite IH, block_0. rewrite <- (firstn_skipn n l) at 3.
  destruct (Nat.le_gt_cases n (length l)) as [Hle|Hgt].
  - rewrite firstn_app, firstn_length_le by lia.
    rewrite (firstn_all2 (n:=n + c * n)) by (rewrite firstn_length; lia).
    do 2 f_equal. lia.
  - rewrite (skipn_all2 (n:=n)) by lia. rewrite firstn_nil, !app_nil_r.
    rewrite (firstn_all2 (n := n + c * n)); [reflexivity|]. rewrite firstn_length. lia.
Qed.

Definition ceil_div (a n : nat) : nat := (a + n - 1) / n.

Lemma ceil_div_0 n : 1 <= n -> ceil_div 0 n = 0.
Proof. intros H. unfold ceil_div. apply Nat.div_small. lia. Qed.

Lemma ceil_div_S a n : 1 <= n -> 1 <= a -> ceil_div a n = S (ceil_div (a - n) n).
Proof.
  intros Hn Ha. unfold ceil_div. destruct (Nat.le_gt_cases n a).
  - replace (a + n - 1) with ((a - n + n - 1) + 1 * n) by lia. rewrite Nat.div_add by lia. lia.
  - replace (a - n) with 0 by lia. rewrite (Nat.div_small (0 + n - 1)) by lia.
    replace (a + n - 1) with ((a - 1) + 1 * n) by lia. rewrite Nat.div_add, Nat.div_small by lia. lia.
Qed.

Lemma ceil_div_spec a n : 1 <= n -> a <= ceil_div a n * n < a + n.
Proof.
  intros Hn. unfold ceil_div.
  pose proof (Nat.div_mod (a + n - 1) n ltac:(lia)). pose proof (Nat.mod_upper_bound (a + n - 1) n ltac:(lia)). nia.
Qed.

(** ** chunks *)

Lemma fill_buf_yields {A X} (nx : X -> outcome (option A * X)) n s l :
  yields_from nx s l ->
  exists s', fill_buf n nx s = Ret (firstn n l, s') /\ yields_from nx s' (skipn n l).
Proof.
  revert s l; induction n as [|n IH]; intros s l H.
  - exists s. auto.
  - destruct l as [|a l].
    + apply yields_nil_inv in H. destruct H as [s' [E H]]. exists s'. cbn. rewrite E. auto.
    + apply yields_cons_inv in H. destruct H as [s' [E H]]. destruct (IH _ _ H) as [s2 [E2 H2]].
      exists s2. cbn. rewrite E. cbn. rewrite E2. auto.
Qed.

Definition chunk_list {A} (n : nat) (l : list A) : list (list A) :=
  map (fun i => block n i l) (seq 0 (ceil_div (length l) n)).

Lemma chunk_list_nil {A} n : 1 <= n -> chunk_list n (@nil A) = [].
Proof. intros H. unfold chunk_list. cbn [length]. rewrite ceil_div_0 by lia. reflexivity. Qed.

Lemma chunk_list_cons {A} n (l : list A) :
  1 <= n -> l <> [] -> chunk_list n l = firstn n l :: chunk_list n (skipn n l).
Proof.
  intros Hn Hl. unfold chunk_list. rewrite skipn_length.
  rewrite (ceil_div_S (length l)) by (destruct l; [congruence|cbn; lia]).
  cbn [seq map]. rewrite block_0. f_equal. rewrite <- seq_shift, map_map.
  apply map_ext. intros i. apply block_S.
Qed.

Lemma chunks_yields {A} n (it : Iter A) l :
  1 <= n -> yields it l -> yields (chunks n it) (chunk_list n l).
Proof.
  intros Hn H.
  apply (yields_coind (next (chunks n it))
    (fun s m => exists k, yields_from (next it) s k /\ m = chunk_list n k)).
  - intros s [k [Hk E]]. destruct k as [|a k]; [|rewrite chunk_list_cons in E by (lia || discriminate); discriminate].
    destruct (fill_buf_yields _ n _ _ Hk) as [s1 [E1 H1]]. rewrite firstn_nil in E1. rewrite skipn_nil in H1.
    exists s1. cbn. unfold chunks_next. rewrite E1. split; [reflexivity|]. exists []. auto.
  - intros s c m [k [Hk E]]. destruct k as [|a k].
    { rewrite chunk_list_nil in E by lia. discriminate. }
    rewrite chunk_list_cons in E by (lia || discriminate). injection E as -> ->.
    destruct (fill_buf_yields _ n _ _ Hk) as [s1 [E1 H1]].
    exists s1. cbn [next chunks]. unfold chunks_next. rewrite E1. cbn [bind].
    destruct n as [|n]; [lia|]. cbn [firstn]. split; [reflexivity|]. eexists. split; [exact H1|]. reflexivity.
  - exists l. auto.
Qed.

Lemma chunks0 {A} (it : Iter A) : yields (chunks 0 it) [].
Proof.
  apply (yields_dead (next (chunks 0 it)) (fun _ => True)); [|exact I].
  intros s _. exists s. auto.
Qed.

(** ** wchunks *)

Lemma fill_whole_yields {A X} (d : A) (nx : X -> outcome (option A * X)) n s l done :
  yields_from nx s l ->
  exists s', fill_whole d n nx s done =
             Ret (firstn n l ++ repeat d (n - length l), s', orb done (length l <? n))
             /\ yields_from nx s' (skipn n l).
Proof.
  revert s l done; induction n as [|n IH]; intros s l done H.
  - exists s. cbn. replace (length l <? 0) with false by (symmetry; apply Nat.ltb_ge; lia).
    rewrite orb_false_r. auto.
  - destruct l as [|a l].
    + apply yields_nil_inv in H. destruct H as [s' [E H]]. cbn. rewrite E. cbn.
      destruct (IH s' [] true H) as [s2 [E2 H2]]. rewrite E2. cbn.
      exists s2. rewrite firstn_nil, skipn_nil in *. cbn. rewrite Nat.sub_0_r.
      rewrite orb_true_r. auto.
    + apply yields_cons_inv in H. destruct H as [s' [E H]]. destruct (IH _ _ done H) as [s2 [E2 H2]].
      exists s2. cbn. rewrite E. cbn. rewrite E2. auto.
Qed.

Definition wchunk_list {A} (d : A) (n : nat) (l : list A) : list (list A) :=
  map (fun i => block n i l ++ repeat d (n - length (block n i l))) (seq 0 (length l / n + 1)).

Lemma wchunk_list_step {A} (d : A) n (l : list A) :
  1 <= n ->
  wchunk_list d n l =
  (firstn n l ++ repeat d (n - length l)) :: (if length l <? n then [] else wchunk_list d n (skipn n l)).
Proof.
  intros Hn. unfold wchunk_list. rewrite Nat.add_1_r. cbn [seq map].
  rewrite block_length. f_equal.
  - rewrite block_0. do 2 f_equal. lia.
  - rewrite <- seq_shift, map_map. destruct (Nat.ltb_spec (length l) n) as [Hlt|Hge].
    + rewrite Nat.div_small by lia. reflexivity.
    + rewrite skipn_length.
      replace (length l / n) with ((length l - n) / n + 1).
      * apply map_ext. intros i. rewrite block_S. reflexivity.
      * replace (length l) with ((length l - n) + 1 * n) at 2 by lia. rewrite Nat.div_add by lia. lia.
Qed.

Lemma wchunks_yields {A} (d : A) n (it : Iter A) l :
  1 <= n -> yields it l -> yields (wchunks d n it) (wchunk_list d n l).
Proof.
  intros Hn H.
  apply (yields_coind (next (wchunks d n it))
    (fun s m => if snd s then m = [] else exists k, yields_from (next it) (fst s) k /\ m = wchunk_list d n k)).
  - intros [s [|]] Hs; cbn in Hs.
    + exists (s, true). auto.
    + destruct Hs as [k [Hk E]]. rewrite wchunk_list_step in E by lia. discriminate.
  - intros [s [|]] c m Hs; cbn in Hs; [discriminate|].
    destruct Hs as [k [Hk E]]. rewrite wchunk_list_step in E by lia. injection E as -> ->.
    destruct (fill_whole_yields d _ n _ _ false Hk) as [s1 [E1 H1]].
    exists (s1, length k <? n). cbn [next wchunks wchunks_next]. rewrite E1. cbn [bind orb]. split.
    + destruct (firstn n k ++ repeat d (n - length k)) eqn:E2; [|reflexivity].
      exfalso. apply (f_equal (@length A)) in E2. rewrite app_length, firstn_length, repeat_length in E2.
      cbn in E2. lia.
    + cbn. destruct (length k <? n); [reflexivity|]. eauto.
  - exists l. auto.
Qed.

(** ** take_every *)

Fixpoint decim {A} (n j : nat) (l : list A) : list A :=
  match l with
  | [] => []
  | a :: r => match j with 0 => a :: decim n (n - 1) r | S j' => decim n j' r end
  end.

Lemma decim_nth {A} n (l : list A) : 1 <= n -> forall j i, nth_error (decim n j l) i = nth_error l (j + i * n).
Proof.
  intros Hn. induction l as [|a l IH]; intros j i; cbn [decim].
  - destruct i; destruct (j + _ * n); reflexivity.
  - destruct j as [|j].
    + destruct i as [|i]; [reflexivity|]. cbn [nth_error]. rewrite IH.
      replace (0 + S i * n) with (S (n - 1 + i * n)) by lia. reflexivity.
    + rewrite IH. reflexivity.
Qed.

(** How many items are skipped before the next one is taken. *)
Definition te_skip (n c : nat) : nat := (n - c mod n) mod n.

Lemma take_every_loop_spec {A X} n (nx : X -> outcome (option A * X)) :
  1 <= n -> forall fuel s c l, yields_from nx s l -> te_skip n c < fuel ->
  exists s' c', take_every_loop fuel n nx s c = Ret (nth_error l (te_skip n c), (s', c')) /\
    te_skip n c' = n - 1 /\ yields_from nx s' (skipn (te_skip n c + 1) l).
Proof.
  intros Hn. induction fuel as [|fuel IH]; intros s c l H Hf; [lia|].
  cbn [take_every_loop]. destruct n as [|n']; [lia|]. set (n := S n') in *.
  pose proof (Nat.mod_upper_bound c n ltac:(lia)) as Hm.
  assert (Hskip : te_skip n c = if c mod n =? 0 then 0 else n - c mod n).
  { unfold te_skip. destruct (Nat.eqb_spec (c mod n) 0) as [E|E].
    - rewrite E, Nat.sub_0_r, Nat.mod_same; lia.
    - apply Nat.mod_small. lia. }
  assert (Hnext : te_skip n (c + 1) = if c mod n =? 0 then n - 1 else (n - c mod n) - 1).
  { unfold te_skip. rewrite Nat.add_mod by lia.
    destruct (Nat.eqb_spec (c mod n) 0) as [E|E].
    - rewrite E. destruct (Nat.eq_dec n 1) as [->|]; [reflexivity|].
      rewrite (Nat.mod_small 1) by lia. cbn [Nat.add]. rewrite (Nat.mod_small 1) by lia. apply Nat.mod_small. lia.
    - destruct (Nat.eq_dec n 1) as [E1|]; [lia|]. rewrite (Nat.mod_small 1) by lia.
      destruct (Nat.eq_dec (c mod n + 1) n) as [E2|E2].
      + rewrite E2, Nat.mod_same, Nat.sub_0_r, Nat.mod_same by lia. lia.
      + rewrite (Nat.mod_small (c mod n + 1)) by lia. rewrite Nat.mod_small by lia. lia. }
  rewrite Hskip in Hf. rewrite Hskip.
  destruct (Nat.eqb_spec (c mod n) 0) as [E|E].
  - destruct l as [|a l].
    + apply yields_nil_inv in H. destruct H as [s' [E1 H1]]. rewrite E1. cbn [bind].
      exists s', (c + 1). auto.
    + apply yields_cons_inv in H. destruct H as [s' [E1 H1]]. rewrite E1. cbn [bind].
      exists s', (c + 1). auto.
  - destruct l as [|a l].
    + apply yields_nil_inv in H. destruct H as [s' [E1 H1]]. rewrite E1. cbn [bind].
      destruct (IH s' (c + 1) [] H1) as [s2 [c2 [E2 [H2 H3]]]]; [rewrite Hnext; lia|].
      exists s2, c2. rewrite E2. rewrite skipn_nil in *. split; [|auto].
      destruct (te_skip n (c + 1)), (n - c mod n); reflexivity.
    + apply yields_cons_inv in H. destruct H as [s' [E1 H1]]. rewrite E1. cbn [bind].
      destruct (IH s' (c + 1) l H1) as [s2 [c2 [E2 [H2 H3]]]]; [rewrite Hnext; lia|].
      rewrite Hnext in E2, H3. exists s2, c2. rewrite E2.
      replace (n - c mod n) with (S (n - c mod n - 1)) by lia. cbn [nth_error Nat.sub Nat.add skipn].
      rewrite Nat.sub_0_r. auto.
Qed.

Lemma decim_S {A} n (l : list A) : forall j,
  decim n j l = match nth_error l j with None => [] | Some a => a :: decim n (n - 1) (skipn (j + 1) l) end.
Proof.
  induction l as [|a l IH]; intros j.
  - destruct j; reflexivity.
  - destruct j as [|j]; [reflexivity|]. cbn [decim nth_error Nat.add skipn]. apply IH.
Qed.

Lemma take_every_yields {A} n (it : Iter A) l :
  1 <= n -> yields it l -> yields (take_every n it) (decim n 0 l).
Proof.
  intros Hn H.
  assert (Hlt : forall c, te_skip n c < S n).
  { intros c. unfold te_skip. pose proof (Nat.mod_upper_bound (n - c mod n) n ltac:(lia)). lia. }
  apply (yields_coind (next (take_every n it))
    (fun s m => exists k, yields_from (next it) (fst s) k /\ m = decim n (te_skip n (snd s)) k)).
  - intros [s c] [k [Hk E]]. cbn in Hk, E.
    destruct (take_every_loop_spec n _ Hn (S n) s c k Hk (Hlt c)) as [s' [c' [E1 [E2 H1]]]].
    exists (s', c'). cbn [next take_every]. unfold take_every_next. cbn [fst snd]. rewrite E1.
    rewrite decim_S in E. destruct (nth_error k (te_skip n c)) eqn:En; [discriminate|].
    split; [reflexivity|]. exists []. cbn. split; [|reflexivity].
    apply nth_error_None in En. rewrite skipn_all2 in H1 by lia. exact H1.
  - intros [s c] a m [k [Hk E]]. cbn in Hk, E.
    destruct (take_every_loop_spec n _ Hn (S n) s c k Hk (Hlt c)) as [s' [c' [E1 [E2 H1]]]].
    exists (s', c'). cbn [next take_every]. unfold take_every_next. cbn [fst snd]. rewrite E1.
    rewrite decim_S in E. destruct (nth_error k (te_skip n c)) eqn:En; [|discriminate].
    injection E as -> ->. split; [reflexivity|]. eexists. split; [exact H1|]. cbn. rewrite E2. reflexivity.
  - exists l. split; [exact H|]. cbn [take_every cur snd]. f_equal. unfold te_skip.
    rewrite Nat.mod_0_l, Nat.sub_0_r, Nat.mod_same by lia. reflexivity.
Qed.

Lemma take_every0 {A} (it : Iter A) : panics_after (take_every 0 it) [].
Proof. exists (cur it, 0). split; reflexivity. Qed.

(** ** integrate *)

Fixpoint scan {A} (add : A -> A -> A) (sum : A) (l : list A) : list A :=
  match l with
  | [] => []
  | a :: r => add sum a :: scan add (add sum a) r
  end.

Lemma scan_nth {A} (add : A -> A -> A) l : forall sum i,
  nth_error (scan add sum l) i = if i <? length l then Some (fold_left add (firstn (S i) l) sum) else None.
Proof.
  induction l as [|a l IH]; intros sum i.
  - destruct i; reflexivity.
  - destruct i as [|i]; [reflexivity|]. cbn [scan nth_error]. rewrite IH. reflexivity.
Qed.

Lemma scan_length {A} (add : A -> A -> A) l : forall sum, length (scan add sum l) = length l.
Proof. induction l as [|a l IH]; intros sum; cbn; [reflexivity|]. rewrite IH; reflexivity. Qed.

Lemma integrate_yields {A} d (add : A -> A -> A) (it : Iter A) l :
  yields it l -> yields (integrate d add it) (scan add d l).
Proof.
  intros H.
  apply (yields_coind (next (integrate d add it))
    (fun s m => exists k, yields_from (next it) (fst s) k /\ m = scan add (snd s) k)).
  - intros [s c] [k [Hk E]]. cbn in Hk, E. destruct k; [|discriminate].
    apply yields_nil_inv in Hk. destruct Hk as [s' [E1 H1]]. exists (s', c). cbn. rewrite E1.
    split; [reflexivity|]. exists []. auto.
  - intros [s c] a m [k [Hk E]]. cbn in Hk, E. destruct k as [|x k]; [discriminate|].
    cbn in E. injection E as -> ->.
    apply yields_cons_inv in Hk. destruct Hk as [s' [E1 H1]]. eexists. cbn. rewrite E1.
    split; [reflexivity|]. exists k. auto.
  - exists l. auto.
Qed.

Lemma lanes_add_length {A} (add : A -> A -> A) : forall s r, length (lanes_add add s r) = length s.
Proof. induction s as [|a s IH]; intros [|b r]; cbn; auto. Qed.

Lemma lanes_add_nth {A} (add : A -> A -> A) (d : A) : forall s r j,
  j < length s -> j < length r -> nth j (lanes_add add s r) d = add (nth j s d) (nth j r d).
Proof.
  induction s as [|a s IH]; intros [|b r] j Hs Hr; cbn in *; try lia.
  destruct j; [reflexivity|]. apply IH; lia.
Qed.

Lemma fold_lanes_length {A} (add : A -> A -> A) rows : forall s, length (fold_left (lanes_add add) rows s) = length s.
Proof. induction rows as [|r rows IH]; intros s; cbn; [reflexivity|]. rewrite IH, lanes_add_length; reflexivity. Qed.

Lemma fold_lanes_nth {A} (add : A -> A -> A) (d : A) N j rows : forall s,
  length s = N -> Forall (fun r => length r = N) rows -> j < N ->
  nth j (fold_left (lanes_add add) rows s) d = fold_left add (map (fun r => nth j r d) rows) (nth j s d).
Proof.
  induction rows as [|r rows IH]; intros s Hs Hr Hj; cbn; [reflexivity|].
  inversion Hr as [|? ? H1 H2]; subst. rewrite IH; auto.
  - rewrite lanes_add_nth by lia. reflexivity.
  - apply lanes_add_length.
Qed.

(** ** integrate_and_dump *)

Lemma dump_loop_yields {A X} (add : A -> A -> A) (nx : X -> outcome (option A * X)) n s l sum :
  yields_from nx s l ->
  exists s', dump_loop add n nx s sum =
             Ret (if n <=? length l then Some (fold_left add (firstn n l) sum) else None, s')
             /\ yields_from nx s' (skipn n l).
Proof.
  revert s l sum; induction n as [|n IH]; intros s l sum H.
  - exists s. auto.
  - destruct l as [|a l].
    + apply yields_nil_inv in H. destruct H as [s' [E H]]. exists s'. cbn. rewrite E. auto.
    + apply yields_cons_inv in H. destruct H as [s' [E H]]. destruct (IH s' l (add sum a) H) as [s2 [E2 H2]].
      exists s2. cbn. rewrite E. cbn. rewrite E2. auto.
Qed.

Definition dump_list {A} (d : A) (add : A -> A -> A) (n : nat) (l : list A) : list A :=
  map (fun i => fold_left add (block n i l) d) (seq 0 (length l / n)).

Lemma dump_list_step {A} (d : A) add n (l : list A) :
  1 <= n ->
  dump_list d add n l =
  if n <=? length l then fold_left add (firstn n l) d :: dump_list d add n (skipn n l) else [].
Proof.
  intros Hn. unfold dump_list. destruct (Nat.leb_spec n (length l)) as [Hle|Hgt].
  - rewrite skipn_length. replace (length l / n) with (S ((length l - n) / n)).
    + cbn [seq map]. f_equal. rewrite <- seq_shift, map_map. apply map_ext. intros i. rewrite block_S. reflexivity.
    + replace (length l) with ((length l - n) + 1 * n) at 2 by lia. rewrite Nat.div_add by lia. lia.
  - rewrite Nat.div_small by lia. reflexivity.
Qed.

Lemma integrate_and_dump_yields {A} (d : A) add n (it : Iter A) l :
  1 <= n -> yields it l -> yields (integrate_and_dump d add n it) (dump_list d add n l).
Proof.
  intros Hn H.
  apply (yields_coind (next (integrate_and_dump d add n it))
    (fun s m => exists k, yields_from (next it) s k /\ m = dump_list d add n k)).
  - intros s [k [Hk E]]. rewrite dump_list_step in E by lia.
    destruct (dump_loop_yields add _ n _ _ d Hk) as [s' [E1 H1]]. cbn [next integrate_and_dump]. rewrite E1.
    destruct (Nat.leb_spec n (length k)); [discriminate|]. exists s'. split; [reflexivity|].
    exists []. rewrite skipn_all2 in H1 by lia. split; [exact H1|]. rewrite dump_list_step by lia.
    cbn [length]. destruct n; [lia|reflexivity].
  - intros s a m [k [Hk E]]. rewrite dump_list_step in E by lia.
    destruct (dump_loop_yields add _ n _ _ d Hk) as [s' [E1 H1]]. cbn [next integrate_and_dump]. rewrite E1.
    destruct (Nat.leb_spec n (length k)); [|discriminate]. injection E as -> ->.
    exists s'. split; [reflexivity|]. eauto.
  - exists l. auto.
Qed.

Lemma integrate_and_dump0 {A} (d : A) add (it : Iter A) :
  streams (integrate_and_dump d add 0 it) (fun _ => d).
Proof.
  apply (streams_coind (next (integrate_and_dump d add 0 it)) (fun s g => forall i, g i = d)).
  - intros s g Hg. exists s. cbn. rewrite Hg. split; [reflexivity|]. intros i; apply Hg.
  - reflexivity.
Qed.

(** ** convolution *)

Lemma removelast_firstn_len {A} (l : list A) : removelast l = firstn (length l - 1) l.
Proof.
  induction l as [|a l IH]; [reflexivity|]. destruct l as [|b l]; [reflexivity|].
  change (removelast (a :: b :: l)) with (a :: removelast (b :: l)). rewrite IH.
  cbn [length Nat.sub]. rewrite Nat.sub_0_r. reflexivity.
Qed.

Section Conv.
Context {A B C : Type} (zero : C) (add : C -> C -> C) (mul : A -> B -> C) (h : list B).

(** What the machine does on the rest of the input, given its buffer. *)
Fixpoint conv_run (buf l : list A) : list C :=
  match l with
  | a :: r => let buf2 := firstn (length h) (a :: buf) in
              convolve_sum zero add mul buf2 h :: conv_run buf2 r
  | [] => map (fun j => convolve_sum zero add mul (firstn (length buf - 1 - j) buf) h)
              (seq 0 (length buf - 1))
  end.

Lemma convolve_yields (it : Iter A) l :
  yields it l -> yields (convolve zero add mul h it) (conv_run [] l).
Proof.
  intros H.
  apply (yields_coind (next (convolve zero add mul h it))
    (fun s m => exists k, yields_from (next it) (fst s) k /\ length (snd s) <= length h /\
                          m = conv_run (snd s) k)).
  - intros [s buf] [k [Hk [Hb E]]]. cbn in Hk, E, Hb. destruct k as [|x k]; [|discriminate].
    cbn in E. destruct (length buf - 1) eqn:El; [|discriminate].
    apply yields_nil_inv in Hk. destruct Hk as [s' [E1 H1]]. exists (s', buf). cbn. rewrite E1. cbn.
    destruct (Nat.leb_spec (length buf) 1); [|lia]. split; [reflexivity|]. exists []. cbn. rewrite El. auto.
  - intros [s buf] c m [k [Hk [Hb E]]]. cbn in Hk, E, Hb. destruct k as [|x k].
    + cbn in E. destruct (length buf - 1) as [|j] eqn:El; [discriminate|].
      cbn [seq map] in E. injection E as -> ->.
      apply yields_nil_inv in Hk. destruct Hk as [s' [E1 H1]].
      exists (s', removelast buf). cbn [next convolve convolve_next]. rewrite E1. cbn [bind].
      destruct (Nat.leb_spec (length buf) 1); [lia|]. rewrite removelast_firstn_len, El.
      split; [reflexivity|]. exists []. cbn [fst snd]. split; [exact H1|].
      rewrite firstn_length_le by lia. split; [lia|].
      cbn [conv_run]. rewrite firstn_length_le by lia. cbn [Nat.sub]. rewrite Nat.sub_0_r.
      rewrite <- seq_shift, map_map. apply map_ext_in. intros i Hi. apply in_seq in Hi.
      f_equal. rewrite firstn_firstn. f_equal. lia.
    + cbn [conv_run] in E. injection E as -> ->.
      apply yields_cons_inv in Hk. destruct Hk as [s' [E1 H1]].
      exists (s', firstn (length h) (x :: buf)). cbn [next convolve convolve_next]. rewrite E1. cbn [bind].
      assert (Hbuf : (if length h <? length (x :: buf) then removelast (x :: buf) else x :: buf)
              = firstn (length h) (x :: buf)).
      { destruct (Nat.ltb_spec (length h) (length (x :: buf))) as [Hlt|Hge].
        - rewrite removelast_firstn_len. f_equal. cbn in *. lia.
        - rewrite firstn_all2 by lia. reflexivity. }
      rewrite Hbuf. split; [reflexivity|]. exists k. cbn [fst snd]. split; [exact H1|].
      split; [rewrite firstn_length; lia|]. reflexivity.
  - exists l. cbn. repeat split; auto. lia.
Qed.

Lemma conv_run_shape l : forall buf, length buf <= length h ->
  conv_run buf l =
  map (fun i => convolve_sum zero add mul (firstn (length h) (rev (firstn (S i) l) ++ buf)) h) (seq 0 (length l)) ++
  (let last := firstn (length h) (rev l ++ buf) in
   map (fun j => convolve_sum zero add mul (firstn (length last - 1 - j) last) h) (seq 0 (length last - 1))).
Proof.
  induction l as [|a l IH]; intros buf Hb.
  - cbn. rewrite firstn_all2 by lia. reflexivity.
  - cbn [conv_run]. rewrite IH by (rewrite firstn_length; lia).
    assert (HF : forall r, firstn (length h) (r ++ firstn (length h) (a :: buf))
                 = firstn (length h) ((r ++ [a]) ++ buf)).
    { intros r. rewrite <- app_assoc. cbn [app]. rewrite !firstn_app, firstn_firstn.
      do 2 f_equal. lia. }
    cbn [seq length map app]. rewrite <- seq_shift, map_map. f_equal. f_equal.
    + apply map_ext. intros i. cbn [firstn rev]. rewrite <- HF. reflexivity.
    + cbn zeta. cbn [rev]. rewrite HF. reflexivity.
Qed.

(** Number of outputs. *)
Lemma conv_run_length l :
  length (conv_run [] l) = length l + (Nat.min (length l) (length h) - 1).
Proof.
  rewrite conv_run_shape by (cbn; lia). cbn zeta.
  rewrite app_length, !map_length, !seq_length, firstn_length, app_nil_r, rev_length. f_equal. lia.
Qed.

End Conv.

(** Sum of products, by index: sum over k ascending, k < len, of [mul x.(top-k) h.(L-1-k)]. *)
Definition corr_terms {A B C} (mul : A -> B -> C) (x : list A) (h : list B) (top len : nat) : list C :=
  flat_map (fun k => match nth_error x (top - k), nth_error h (length h - 1 - k) with
                     | Some a, Some b => [mul a b]
                     | _, _ => []
                     end) (seq 0 len).

Lemma nth_error_rev {A} (l : list A) k : k < length l -> nth_error (rev l) k = nth_error l (length l - 1 - k).
Proof.
  revert k; induction l as [|a l IH] using rev_ind; intros k Hk; [cbn in Hk; lia|].
  rewrite rev_app_distr. rewrite app_length in *. cbn in Hk. cbn [rev app length].
  destruct k as [|k].
  - cbn. rewrite nth_error_app2 by lia. replace (length l + 1 - 1 - 0 - length l) with 0 by lia. reflexivity.
  - cbn [nth_error]. rewrite IH by lia. rewrite nth_error_app1 by lia. f_equal. lia.
Qed.

Lemma map_combine_terms {A B C} (mul : A -> B -> C) : forall (x : list A) (h : list B),
  map (fun '(a, b) => mul a b) (combine x h) =
  flat_map (fun k => match nth_error x k, nth_error h k with
                     | Some a, Some b => [mul a b] | _, _ => [] end) (seq 0 (length x)).
Proof.
  induction x as [|a x IH]; intros [|b h]; try reflexivity.
  - cbn [combine map]. symmetry. clear IH. generalize (length (a :: x)) as n. generalize 0 as s.
    intros s n; revert s; induction n as [|n IHn]; intros s; [reflexivity|]. cbn [seq flat_map].
    destruct (nth_error (a :: x) s); destruct s; cbn; apply IHn.
  - cbn [combine map length seq flat_map nth_error app]. f_equal. rewrite IH.
    rewrite <- seq_shift. rewrite (flat_map_concat_map _ (map S _)), map_map, <- flat_map_concat_map. reflexivity.
Qed.

Lemma flat_map_ext_in {A B} (f g : A -> list B) l :
  (forall a, In a l -> f a = g a) -> flat_map f l = flat_map g l.
Proof.
  induction l as [|a l IH]; intros H; [reflexivity|]. cbn. rewrite H by (left; reflexivity).
  rewrite IH; [reflexivity|]. intros x Hx. apply H. right; exact Hx.
Qed.

Lemma nth_error_firstn {A} (l : list A) n k : k < n -> nth_error (firstn n l) k = nth_error l k.
Proof.
  revert n k; induction l as [|a l IH]; intros n k H; [rewrite firstn_nil; reflexivity|].
  destruct n as [|n]; [lia|]. destruct k as [|k]; [reflexivity|]. cbn. apply IH. lia.
Qed.

(** The buffer contents [firstn m (rev (firstn (S i) x))] against the reversed taps. *)
Lemma window_terms {A B C} (mul : A -> B -> C) (x : list A) (h : list B) i m :
  i < length x -> m <= S i -> m <= length h ->
  map (fun '(a, b) => mul a b) (combine (firstn m (rev (firstn (S i) x))) (rev h)) = corr_terms mul x h i m.
Proof.
  intros Hi Hm Hh. rewrite map_combine_terms.
  rewrite firstn_length, rev_length, firstn_length. replace (Nat.min m (Nat.min (S i) (length x))) with m by lia.
  apply flat_map_ext_in. intros k Hk. apply in_seq in Hk.
  rewrite nth_error_firstn by lia.
  rewrite nth_error_rev by (rewrite firstn_length; lia). rewrite firstn_length.
  replace (Nat.min (S i) (length x)) with (S i) by lia.
  rewrite nth_error_firstn by lia.
  rewrite (nth_error_rev h) by lia. replace (S i - 1 - k) with (i - k) by lia. reflexivity.
Qed.

Section ConvThms.
Context {A B C : Type} (zero : C) (add : C -> C -> C) (mul : A -> B -> C) (h : list B).

Lemma conv_response x :
  conv_run zero add mul h [] x =
  map (fun i => fold_left add (corr_terms mul x h i (Nat.min (S i) (length h))) zero) (seq 0 (length x)) ++
  map (fun j => fold_left add (corr_terms mul x h (length x - 1) (Nat.min (length x) (length h) - 1 - j)) zero)
      (seq 0 (Nat.min (length x) (length h) - 1)).
Proof.
  rewrite conv_run_shape by (cbn; lia). cbn zeta. rewrite app_nil_r. f_equal.
  - apply map_ext_in. intros i Hi. apply in_seq in Hi. rewrite app_nil_r. unfold convolve_sum. f_equal.
    rewrite <- window_terms by lia. do 2 f_equal.
    destruct (Nat.le_gt_cases (length h) (S i)).
    + f_equal. lia.
    + replace (Nat.min (S i) (length h)) with (S i) by lia.
      assert (HL : length (rev (firstn (S i) x)) = S i) by (rewrite rev_length, firstn_length; lia).
      rewrite !(firstn_all2 (rev (firstn (S i) x))) by lia. reflexivity.
  - rewrite firstn_length, rev_length. replace (Nat.min (length h) (length x)) with (Nat.min (length x) (length h)) by lia.
    apply map_ext_in. intros j Hj. apply in_seq in Hj. unfold convolve_sum. f_equal.
    rewrite <- window_terms by lia. do 2 f_equal.
    rewrite firstn_firstn. replace (S (length x - 1)) with (length x) by lia. rewrite firstn_all. f_equal. lia.
Qed.

End ConvThms.

Lemma flat_map_nil_in {A B} (f : A -> list B) l : (forall a, In a l -> f a = []) -> flat_map f l = [].
Proof.
  induction l as [|a l IH]; intros H; [reflexivity|]. cbn. rewrite H by (left; reflexivity).
  apply IH. intros x Hx. apply H. right; exact Hx.
Qed.

Lemma flat_map_map {A B C} (f : B -> list C) (g : A -> B) l : flat_map f (map g l) = flat_map (fun a => f (g a)) l.
Proof. rewrite !flat_map_concat_map, map_map. reflexivity. Qed.

Lemma seq_shift_by n len : forall s, seq (s + n) len = map (fun k => n + k) (seq s len).
Proof.
  induction len as [|len IH]; intros s; [reflexivity|]. cbn [seq map]. f_equal; [lia|].
  rewrite <- IH. reflexivity.
Qed.

(** While input is arriving and the filter is its own mirror image, the output is the linear convolution. *)
Lemma corr_lin_conv {A B C} (mul : A -> B -> C) (x : list A) (h : list B) i :
  rev h = h -> i < length x ->
  corr_terms mul x h i (Nat.min (S i) (length h)) = lin_conv_terms mul x h i.
Proof.
  intros Hp Hi. unfold lin_conv_terms, corr_terms.
  set (m := Nat.min (S i) (length h)).
  replace (seq 0 (length h)) with (seq 0 m ++ seq m (length h - m))
    by (change m with (0 + m) at 2; rewrite <- seq_app; f_equal; lia).
  rewrite flat_map_app.
  match goal with |- ?a = ?b ++ ?c => assert (Hc : c = []); [|rewrite Hc, app_nil_r] end.
  2: symmetry.
  2: { apply flat_map_ext_in. intros k Hk. apply in_seq in Hk.
    destruct (Nat.leb_spec k i); [|lia]. rewrite <- nth_error_rev by lia. rewrite Hp. reflexivity. }
  apply flat_map_nil_in. intros k Hk. apply in_seq in Hk.
    destruct (Nat.leb_spec k i); [lia|]. reflexivity.
Qed.

Lemma nth_error_repeat_lt {A} (c : A) n k : k < n -> nth_error (repeat c n) k = Some c.
Proof. revert k; induction n as [|n IH]; intros [|k] H; cbn; try lia; [reflexivity|]. apply IH. lia. Qed.

Lemma rev_repeat {A} (c : A) n : rev (repeat c n) = repeat c n.
Proof.
  induction n as [|n IH]; [reflexivity|]. cbn. rewrite IH. clear IH.
  induction n as [|n IH]; [reflexivity|]. cbn. rewrite IH. reflexivity.
Qed.

Lemma flush_lin_conv {A B C} (mul : A -> B -> C) (x : list A) (c : B) L j :
  L <= length x -> j < L - 1 ->
  corr_terms mul x (repeat c L) (length x - 1) (L - 1 - j) = lin_conv_terms mul x (repeat c L) (length x + j).
Proof.
  intros HL Hj. unfold lin_conv_terms, corr_terms. rewrite !repeat_length.
  replace (seq 0 L) with (seq 0 (S j) ++ seq (0 + S j) (L - 1 - j))
    by (rewrite <- seq_app; f_equal; lia).
  rewrite flat_map_app.
  rewrite (flat_map_nil_in _ (seq 0 (S j))).
  2: { intros k Hk. apply in_seq in Hk. destruct (Nat.leb_spec k (length x + j)); [|reflexivity].
       replace (nth_error x (length x + j - k)) with (@None A); [reflexivity|].
       symmetry. apply nth_error_None. lia. }
  cbn [app]. rewrite (seq_shift_by (S j) (L - 1 - j) 0), flat_map_map.
  apply flat_map_ext_in. intros k Hk. apply in_seq in Hk.
  destruct (Nat.leb_spec (S j + k) (length x + j)); [|lia].
  replace (length x + j - (S j + k)) with (length x - 1 - k) by lia.
  rewrite !nth_error_repeat_lt by lia. reflexivity.
Qed.

Lemma convolve_constant {A B C} (zero : C) add (mul : A -> B -> C) (c : B) L (x : list A) :
  1 <= L -> L <= length x ->
  conv_run zero add mul (repeat c L) [] x = lin_conv zero add mul x (repeat c L).
Proof.
  intros HL Hn. rewrite conv_response. unfold lin_conv. rewrite repeat_length.
  replace (length x + L - 1) with (length x + (L - 1)) by lia.
  rewrite seq_app, map_app. f_equal.
  - apply map_ext_in. intros i Hi. apply in_seq in Hi. unfold lin_conv_at. f_equal.
    replace L with (length (repeat c L)) at 2 by apply repeat_length.
    apply corr_lin_conv; [apply rev_repeat|lia].
  - replace (Nat.min (length x) L) with L by lia.
    replace (0 + length x) with (0 + length x) by lia. rewrite (seq_shift_by (length x) (L - 1) 0), map_map.
    apply map_ext_in. intros j Hj. apply in_seq in Hj. unfold lin_conv_at. f_equal.
    apply flush_lin_conv; lia.
Qed.

(** ** lanes *)

Lemma nth_repeat_lt {A} (a d : A) j n : j < n -> nth j (repeat a n) d = a.
Proof. revert j; induction n as [|n IH]; intros [|j] H; cbn; try lia; auto. apply IH; lia. Qed.

Lemma Forall_firstn' {A} (P : A -> Prop) n l : Forall P l -> Forall P (firstn n l).
Proof.
  intros H. revert n; induction H as [|a l Ha H IH]; intros [|n]; cbn; constructor; auto.
Qed.

Lemma Forall_skipn' {A} (P : A -> Prop) n l : Forall P l -> Forall P (skipn n l).
Proof.
  intros H. revert n; induction H as [|a l Ha H IH]; intros [|n]; cbn; auto.
Qed.


Definition lane {A} (d : A) (j : nat) (row : list A) : A := nth j row d.

Section Lanes.
Context {A B : Type} (zero : A) (add : A -> A -> A) (mul : A -> B -> A) (N : nat).
Let lmul (lanes : list A) (f : B) := map (fun b => mul b f) lanes.

Lemma conv_sum_rows buf h :
  Forall (fun r => length r = N) buf ->
  length (convolve_sum (repeat zero N) (lanes_add add) lmul buf h) = N /\
  forall d j, j < N ->
   lane d j (convolve_sum (repeat zero N) (lanes_add add) lmul buf h) =
   convolve_sum zero add mul (map (lane d j) buf) h.
Proof.
  intros Hb. unfold convolve_sum. split.
  - rewrite fold_lanes_length. apply repeat_length.
  - intros d j Hj. unfold lane at 1. rewrite (fold_lanes_nth add d N); auto using repeat_length.
    + f_equal.
      * rewrite map_map. generalize (rev h) as g. revert Hb. induction buf as [|r buf IH]; intros Hb [|b g]; try reflexivity.
        pose proof (Forall_inv Hb) as H1; cbn in H1. pose proof (Forall_inv_tail Hb) as H2. cbn. f_equal; [|apply IH; exact H2].
        unfold lmul, lane. rewrite (nth_indep _ d (mul d b)) by (rewrite map_length; lia).
        apply (map_nth (fun x => mul x b)).
      * apply nth_repeat_lt; exact Hj.
    + apply Forall_forall. intros r Hr. apply in_map_iff in Hr. destruct Hr as [[r0 b] [E Hr]]. subst r.
      unfold lmul. rewrite map_length. apply in_combine_l in Hr. rewrite Forall_forall in Hb. apply Hb; exact Hr.
Qed.

Lemma conv_run_rows h l : forall buf,
  Forall (fun r => length r = N) buf -> Forall (fun r => length r = N) l ->
  Forall (fun r => length r = N) (conv_run (repeat zero N) (lanes_add add) lmul h buf l) /\
  forall d j, j < N ->
   map (lane d j) (conv_run (repeat zero N) (lanes_add add) lmul h buf l) =
   conv_run zero add mul h (map (lane d j) buf) (map (lane d j) l).
Proof.
  induction l as [|r l IH]; intros buf Hb Hl.
  - cbn [conv_run map]. split.
    + apply Forall_forall. intros x Hx. apply in_map_iff in Hx. destruct Hx as [k [<- _]].
      apply conv_sum_rows. apply Forall_firstn'; exact Hb.
    + intros d j Hj. rewrite map_map, map_length. apply map_ext. intros k.
      rewrite (proj2 (conv_sum_rows _ h (Forall_firstn' _ _ _ Hb))) by exact Hj.
      rewrite firstn_map. reflexivity.
  - pose proof (Forall_inv Hl) as H1. pose proof (Forall_inv_tail Hl) as H2.
    assert (Hb2 : Forall (fun r0 => length r0 = N) (firstn (length h) (r :: buf)))
      by (apply Forall_firstn'; constructor; auto).
    cbn [conv_run map]. split.
    + constructor; [apply conv_sum_rows; exact Hb2|]. apply IH; auto.
    + intros d j Hj. cbn zeta. rewrite (proj2 (conv_sum_rows _ h Hb2)) by exact Hj.
      rewrite (proj2 (IH _ Hb2 H2)) by exact Hj.
      rewrite <- firstn_map. reflexivity.
Qed.
End Lanes.

(** ** causality *)

(** Extending the source extends the output. *)
Definition causal {A B} (F : Iter A -> Iter B) : Prop :=
  forall (it it' : Iter A) l more, yields it l -> yields it' (l ++ more) ->
  exists out rest, yields (F it) out /\ yields (F it') (out ++ rest).

Lemma causal_of_list_fun {A B} (F : Iter A -> Iter B) (f : list A -> list B) :
  (forall it l, yields it l -> yields (F it) (f l)) ->
  (forall l more, exists rest, f (l ++ more) = f l ++ rest) -> causal F.
Proof.
  intros H1 H2 it it' l more Hl Hm. destruct (H2 l more) as [rest E].
  exists (f l), rest. split; [auto|]. rewrite <- E. auto.
Qed.

Lemma prefix_of_nth {A} (a b : list A) :
  (forall i x, nth_error a i = Some x -> nth_error b i = Some x) -> exists rest, b = a ++ rest.
Proof.
  revert b; induction a as [|x a IH]; intros b H.
  - exists b. reflexivity.
  - destruct b as [|y b]; [specialize (H 0 x eq_refl); discriminate|].
    pose proof (H 0 x eq_refl) as H0. cbn in H0. injection H0 as ->.
    destruct (IH b) as [rest ->]; [intros i z Hz; exact (H (S i) z Hz)|]. exists rest. reflexivity.
Qed.

Lemma repeat_each_app {A} n (l m : list A) : repeat_each n (l ++ m) = repeat_each n l ++ repeat_each n m.
Proof. apply flat_map_app. Qed.

Lemma scan_app {A} (add : A -> A -> A) l m : forall d,
  scan add d (l ++ m) = scan add d l ++ scan add (fold_left add l d) m.
Proof. induction l as [|a l IH]; intros d; cbn; [reflexivity|]. rewrite IH. reflexivity. Qed.

Lemma block_app_l {A} n i (l m : list A) : S i * n <= length l -> block n i (l ++ m) = block n i l.
Proof.
  intros H. unfold block. rewrite skipn_app, firstn_app, skipn_length.
  replace (n - (length l - i * n)) with 0 by (cbn in H; lia). rewrite firstn_O, app_nil_r. reflexivity.
Qed.

Lemma dump_list_app {A} (d : A) add n l m : 1 <= n ->
  exists rest, dump_list d add n (l ++ m) = dump_list d add n l ++ rest.
Proof.
  intros Hn. unfold dump_list. rewrite app_length.
  assert (Hle : length l / n <= (length l + length m) / n) by (apply Nat.div_le_mono; lia).
  replace ((length l + length m) / n) with (length l / n + ((length l + length m) / n - length l / n)) by lia.
  rewrite seq_app, map_app. eexists. f_equal.
  apply map_ext_in. intros i Hi. apply in_seq in Hi. f_equal. apply block_app_l.
  pose proof (Nat.mul_div_le (length l) n ltac:(lia)). nia.
Qed.

Lemma decim_app {A} n (l m : list A) : 1 <= n ->
  exists rest, decim n 0 (l ++ m) = decim n 0 l ++ rest.
Proof.
  intros Hn. apply prefix_of_nth. intros i x Hx. rewrite decim_nth in * by lia.
  rewrite nth_error_app1; [exact Hx|]. apply nth_error_Some. congruence.
Qed.
