(** Theory of iterators: coinduction principles and the behaviour of the standard adapters. *)
From Coq Require Import List Arith Lia PArith ZArith.
From Verif Require Import Base.
Import ListNotations.

Section Calls.
Context {A X : Type} (nx : X -> outcome (option A * X)).

Lemma calls_S n s :
  calls nx (S n) s =
  (let? (o, s1) := nx s in let? (os, s2) := calls nx n s1 in Ret (o :: os, s2)).
Proof. reflexivity. Qed.

Lemma calls_length n s os s' : calls nx n s = Ret (os, s') -> length os = n.
Proof.
  revert s os s'; induction n as [|n IH]; intros s os s' H; cbn in H.
  - injection H as <- <-; reflexivity.
  - destruct (nx s) as [[o s1]| |]; cbn in H; try discriminate.
    destruct (calls nx n s1) as [[os1 s2]| |] eqn:E; cbn in H; try discriminate.
    injection H as <- <-. cbn. f_equal. eapply IH; eauto.
Qed.

Lemma calls_app n m s os s' :
  calls nx n s = Ret (os, s') ->
  calls nx (n + m) s = (let? (os2, s2) := calls nx m s' in Ret (os ++ os2, s2)).
Proof.
  revert s os s'; induction n as [|n IH]; intros s os s' H; cbn in H.
  - injection H as <- <-. cbn. destruct (calls nx m s) as [[a b]| |]; reflexivity.
  - destruct (nx s) as [[o s1]| |] eqn:E1; cbn in H; try discriminate.
    destruct (calls nx n s1) as [[os1 s2]| |] eqn:E2; cbn in H; try discriminate.
    injection H as <- <-. cbn [Nat.add]. rewrite calls_S, E1. cbn [bind].
    rewrite (IH _ _ _ E2). destruct (calls nx m s2) as [[a b]| |]; reflexivity.
Qed.

Lemma behaves_from_step s b :
  behaves_from nx s b <->
  exists s', nx s = Ret (b 0, s') /\ behaves_from nx s' (fun n => b (S n)).
Proof.
  unfold behaves_from; split.
  - intros H. destruct (H 1) as [s1 H1]. cbn in H1.
    destruct (nx s) as [[o s']| |] eqn:E; cbn in H1; try discriminate.
    injection H1 as -> ->. exists s1; split; [reflexivity|].
    intros n. destruct (H (S n)) as [s2 H2]. rewrite calls_S, E in H2. cbn [bind] in H2.
    destruct (calls nx n s1) as [[os s3]| |]; cbn in H2; try discriminate.
    injection H2 as -> ->. exists s2. rewrite <- seq_shift, map_map. reflexivity.
  - intros [s' [E H]] [|n].
    + exists s. reflexivity.
    + destruct (H n) as [s2 H2]. exists s2. rewrite calls_S, E. cbn [bind]. rewrite H2. cbn.
      rewrite <- seq_shift, map_map. reflexivity.
Qed.

Lemma behaves_from_ext s b b' :
  (forall n, b n = b' n) -> behaves_from nx s b -> behaves_from nx s b'.
Proof.
  intros E H n. destruct (H n) as [s' H']. exists s'. rewrite H'.
  do 2 f_equal. apply map_ext; intros; apply E.
Qed.

Lemma behaves_from_det s b b' :
  behaves_from nx s b -> behaves_from nx s b' -> forall n, b n = b' n.
Proof.
  intros H H' n. revert s b b' H H'; induction n as [|n IH]; intros s b b' H H';
    apply behaves_from_step in H; destruct H as [s1 [E H]];
    apply behaves_from_step in H'; destruct H' as [s1' [E' H']];
    rewrite E in E'; injection E' as E1 <-.
  - exact E1.
  - exact (IH _ _ _ H H').
Qed.

(** Coinduction on the behaviour. *)
Lemma behaves_coind (R : X -> (nat -> option A) -> Prop) :
  (forall s b, R s b -> exists s', nx s = Ret (b 0, s') /\ R s' (fun n => b (S n))) ->
  forall s b, R s b -> behaves_from nx s b.
Proof.
  intros HR s b H n. revert s b H; induction n as [|n IH]; intros s b H.
  - exists s; reflexivity.
  - destruct (HR _ _ H) as [s1 [E H1]]. destruct (IH _ _ H1) as [s2 H2].
    exists s2. rewrite calls_S, E. cbn [bind]. rewrite H2. cbn.
    rewrite <- seq_shift, map_map. reflexivity.
Qed.

Lemma yields_nil_inv s : yields_from nx s [] -> exists s', nx s = Ret (None, s') /\ yields_from nx s' [].
Proof.
  intros H. apply behaves_from_step in H. destruct H as [s' [E H]]. exists s'; split; [exact E|].
  eapply behaves_from_ext; [|exact H]. intros [|n]; reflexivity.
Qed.

Lemma yields_cons_inv s a l :
  yields_from nx s (a :: l) -> exists s', nx s = Ret (Some a, s') /\ yields_from nx s' l.
Proof.
  intros H. apply behaves_from_step in H. destruct H as [s' [E H]]. exists s'; split; [exact E|exact H].
Qed.

Lemma yields_nil_intro s s' : nx s = Ret (None, s') -> yields_from nx s' [] -> yields_from nx s [].
Proof.
  intros E H. apply behaves_from_step. exists s'. split; [exact E|].
  eapply behaves_from_ext; [|exact H]. intros [|n]; reflexivity.
Qed.

Lemma yields_cons_intro s s' a l :
  nx s = Ret (Some a, s') -> yields_from nx s' l -> yields_from nx s (a :: l).
Proof. intros E H. apply behaves_from_step. exists s'. split; [exact E|exact H]. Qed.

Lemma yields_coind (R : X -> list A -> Prop) :
  (forall s, R s [] -> exists s', nx s = Ret (None, s') /\ R s' []) ->
  (forall s a l, R s (a :: l) -> exists s', nx s = Ret (Some a, s') /\ R s' l) ->
  forall s l, R s l -> yields_from nx s l.
Proof.
  intros H0 H1 s l H.
  apply (behaves_coind (fun s b => exists l, R s l /\ forall n, b n = nth_error l n)).
  - clear s l H. intros s b [l [H E]]. destruct l as [|a l].
    + destruct (H0 _ H) as [s' [E1 H2]]. exists s'. rewrite E1, E. split; [reflexivity|].
      exists []. split; [exact H2|]. intros n. rewrite E. destruct n; reflexivity.
    + destruct (H1 _ _ _ H) as [s' [E1 H2]]. exists s'. rewrite E1, E. split; [reflexivity|].
      exists l. split; [exact H2|]. intros n. rewrite E. reflexivity.
  - exists l. split; [exact H|reflexivity].
Qed.

(** It is enough to reach a state that has ended for good. *)
Lemma yields_dead (R : X -> Prop) :
  (forall s, R s -> exists s', nx s = Ret (None, s') /\ R s') ->
  forall s, R s -> yields_from nx s [].
Proof.
  intros H s Hs. apply (yields_coind (fun s l => R s /\ l = [])).
  - intros s1 [H1 _]. destruct (H _ H1) as [s' [E H']]. exists s'; auto.
  - intros s1 a l [_ H1]; discriminate.
  - auto.
Qed.

Lemma streams_inv s f :
  streams_from nx s f -> exists s', nx s = Ret (Some (f 0), s') /\ streams_from nx s' (fun n => f (S n)).
Proof. intros H. apply behaves_from_step in H. exact H. Qed.

Lemma streams_coind (R : X -> (nat -> A) -> Prop) :
  (forall s f, R s f -> exists s', nx s = Ret (Some (f 0), s') /\ R s' (fun n => f (S n))) ->
  forall s f, R s f -> streams_from nx s f.
Proof.
  intros HR s f H.
  apply (behaves_coind (fun s b => exists f, R s f /\ forall n, b n = Some (f n))).
  - clear s f H. intros s b [f [H E]]. destruct (HR _ _ H) as [s' [E1 H1]]. exists s'.
    rewrite E1, E. split; [reflexivity|]. exists (fun n => f (S n)). split; [exact H1|].
    intros n; apply E.
  - exists f; auto.
Qed.

Lemma streams_ext s f g : (forall n, f n = g n) -> streams_from nx s f -> streams_from nx s g.
Proof. intros E. apply behaves_from_ext. intros n; rewrite E; reflexivity. Qed.

Lemma collect_from_yields s l fuel :
  yields_from nx s l -> length l < fuel -> collect_from fuel nx s = Ret l.
Proof.
  revert s fuel; induction l as [|a l IH]; intros s [|fuel] H Hf; cbn in Hf; try lia.
  - apply yields_nil_inv in H. destruct H as [s' [E _]]. cbn. rewrite E. reflexivity.
  - apply yields_cons_inv in H. destruct H as [s' [E H]]. cbn. rewrite E. cbn.
    rewrite (IH _ _ H) by lia. reflexivity.
Qed.

(** An iterator that streams never stops a [collect]. *)
Lemma collect_from_streams s f fuel : streams_from nx s f -> collect_from fuel nx s = Diverge.
Proof.
  revert s f; induction fuel as [|fuel IH]; intros s f H; [reflexivity|].
  apply streams_inv in H. destruct H as [s' [E H]]. cbn. rewrite E. cbn.
  rewrite (IH _ _ H). reflexivity.
Qed.

End Calls.

Lemma nth_error_inj {A} (l l' : list A) : (forall n, nth_error l n = nth_error l' n) -> l = l'.
Proof.
  revert l'; induction l as [|a l IH]; intros [|b l'] H.
  - reflexivity.
  - specialize (H 0); discriminate.
  - specialize (H 0); discriminate.
  - pose proof (H 0) as H0. cbn in H0. injection H0 as ->. f_equal. apply IH. intros n. apply (H (S n)).
Qed.

Lemma yields_det {A} (it : Iter A) l l' : yields it l -> yields it l' -> l = l'.
Proof. intros H H'. apply nth_error_inj. exact (behaves_from_det _ _ _ _ H H'). Qed.

Lemma collect_yields {A} (it : Iter A) l fuel :
  yields it l -> length l < fuel -> collect fuel it = Ret l.
Proof. apply collect_from_yields. Qed.

(** ** Standard adapters *)

Lemma of_list_yields_from {A} (l : list A) : yields_from of_list_next l l.
Proof.
  apply (yields_coind _ (fun s m => s = m)).
  - intros s ->. exists []. auto.
  - intros s a m ->. exists m. auto.
  - reflexivity.
Qed.
Lemma of_list_yields {A} (l : list A) : yields (of_list l) l.
Proof. exact (of_list_yields_from l). Qed.

Lemma imap_yields {A B} (f : A -> B) it l : yields it l -> yields (imap f it) (map f l).
Proof.
  intros H. apply (yields_coind (next (imap f it)) (fun s m => exists k, yields_from (next it) s k /\ m = map f k)).
  - intros s [k [Hk E]]. destruct k; try discriminate.
    apply yields_nil_inv in Hk. destruct Hk as [s' [E1 H1]]. exists s'. cbn. unfold imap_next. rewrite E1.
    split; [reflexivity|]. exists []. auto.
  - intros s b m [k [Hk E]]. destruct k as [|a k]; try discriminate. cbn in E. injection E as -> ->.
    apply yields_cons_inv in Hk. destruct Hk as [s' [E1 H1]]. exists s'. cbn. unfold imap_next. rewrite E1.
    split; [reflexivity|]. exists k. auto.
  - exists l. auto.
Qed.

Lemma imap_streams {A B} (f : A -> B) it g : streams it g -> streams (imap f it) (fun n => f (g n)).
Proof.
  intros H. apply (streams_coind (next (imap f it))
    (fun s m => exists k, streams_from (next it) s k /\ forall n, m n = f (k n))).
  - intros s m [k [Hk E]]. apply streams_inv in Hk. destruct Hk as [s' [E1 H1]].
    exists s'. cbn. unfold imap_next. rewrite E1. cbn. rewrite E. split; [reflexivity|].
    exists (fun n => k (S n)). auto.
  - exists g. auto.
Qed.


Lemma ienum_yields {A} (it : Iter A) l : yields it l -> yields (ienum it) (index_from 0 l).
Proof.
  intros H. apply (yields_coind (next (ienum it))
    (fun s m => exists k, yields_from (next it) (fst s) k /\ m = index_from (snd s) k)).
  - intros [s i] [k [Hk E]]. destruct k; try discriminate.
    apply yields_nil_inv in Hk. destruct Hk as [s' [E1 H1]]. exists (s', i). cbn. cbn in E1. rewrite E1.
    split; [reflexivity|]. exists []. auto.
  - intros [s i] b m [k [Hk E]]. destruct k as [|a k]; try discriminate. cbn in E. injection E as -> ->.
    apply yields_cons_inv in Hk. destruct Hk as [s' [E1 H1]]. exists (s', S i). cbn. cbn in E1. rewrite E1.
    split; [reflexivity|]. exists k. auto.
  - exists l. auto.
Qed.

Lemma izip_yields {A B} (a : Iter A) (b : Iter B) l m :
  yields a l -> yields b m -> yields (izip a b) (combine l m).
Proof.
  intros Ha Hb. apply (yields_coind (next (izip a b))
    (fun s o => exists k j, yields_from (next a) (fst s) k /\ yields_from (next b) (snd s) j /\ o = combine k j)).
  - intros [s t] [k [j [Hk [Hj E]]]]. cbn in Hk, Hj. destruct k as [|x k].
    + apply yields_nil_inv in Hk. destruct Hk as [s' [E1 H1]]. exists (s', t). cbn. rewrite E1. cbn.
      split; [reflexivity|]. exists [], j. auto.
    + destruct j as [|y j]; try discriminate.
      apply yields_cons_inv in Hk. destruct Hk as [s' [E1 H1]].
      apply yields_nil_inv in Hj. destruct Hj as [t' [E2 H2]].
      exists (s', t'). cbn. rewrite E1. cbn. rewrite E2. cbn. split; [reflexivity|].
      exists k, []. repeat split; auto. destruct k; reflexivity.
  - intros [s t] c o [k [j [Hk [Hj E]]]]. cbn in Hk, Hj. destruct k as [|x k]; try discriminate.
    destruct j as [|y j]; try discriminate. cbn in E. injection E as -> ->.
    apply yields_cons_inv in Hk. destruct Hk as [s' [E1 H1]].
    apply yields_cons_inv in Hj. destruct Hj as [t' [E2 H2]].
    exists (s', t'). cbn. rewrite E1. cbn. rewrite E2. cbn. split; [reflexivity|].
    exists k, j. auto.
  - exists l, m. auto.
Qed.

(** Pair a list with the first elements of a stream. *)
Definition zip_stream {A B} (l : list A) (f : nat -> B) : list (A * B) :=
  combine l (map f (seq 0 (length l))).

Lemma zip_stream_cons {A B} (a : A) l (f : nat -> B) :
  zip_stream (a :: l) f = (a, f 0) :: zip_stream l (fun n => f (S n)).
Proof. unfold zip_stream. cbn. rewrite <- seq_shift, map_map. reflexivity. Qed.

Lemma zip_stream_ext {A B} (l : list A) (f g : nat -> B) :
  (forall n, n < length l -> f n = g n) -> zip_stream l f = zip_stream l g.
Proof.
  intros H. unfold zip_stream. f_equal. apply map_ext_in. intros n Hn. apply in_seq in Hn. apply H. lia.
Qed.

Lemma zip_stream_length {A B} (l : list A) (f : nat -> B) : length (zip_stream l f) = length l.
Proof. unfold zip_stream. rewrite combine_length, map_length, seq_length. lia. Qed.

Lemma zip_stream_nth {A B} (l : list A) (f : nat -> B) n :
  nth_error (zip_stream l f) n = option_map (fun a => (a, f n)) (nth_error l n).
Proof.
  revert f n; induction l as [|a l IH]; intros f n.
  - destruct n; reflexivity.
  - rewrite zip_stream_cons. destruct n as [|n]; [reflexivity|]. exact (IH (fun n => f (S n)) n).
Qed.

Lemma izip_stream_yields {A B} (a : Iter A) (b : Iter B) l f :
  yields a l -> streams b f -> yields (izip a b) (zip_stream l f).
Proof.
  intros Ha Hb. apply (yields_coind (next (izip a b))
    (fun s o => exists k g, yields_from (next a) (fst s) k /\ streams_from (next b) (snd s) g /\ o = zip_stream k g)).
  - intros [s t] [k [j [Hk [Hj E]]]]. cbn in Hk, Hj. destruct k as [|x k]; [|rewrite zip_stream_cons in E; discriminate].
    apply yields_nil_inv in Hk. destruct Hk as [s' [E1 H1]]. exists (s', t). cbn. rewrite E1. cbn.
    split; [reflexivity|]. exists [], j. auto.
  - intros [s t] c o [k [j [Hk [Hj E]]]]. cbn in Hk, Hj. destruct k as [|x k]; try discriminate.
    rewrite zip_stream_cons in E. injection E as -> ->.
    apply yields_cons_inv in Hk. destruct Hk as [s' [E1 H1]].
    apply streams_inv in Hj. destruct Hj as [t' [E2 H2]].
    exists (s', t'). cbn. rewrite E1. cbn. rewrite E2. cbn. split; [reflexivity|].
    exists k, (fun n => j (S n)). auto.
  - exists l, f. auto.
Qed.

Lemma izip_streams {A B} (a : Iter A) (b : Iter B) f g :
  streams a f -> streams b g -> streams (izip a b) (fun n => (f n, g n)).
Proof.
  intros Ha Hb. apply (streams_coind (next (izip a b))
    (fun s o => exists k j, streams_from (next a) (fst s) k /\ streams_from (next b) (snd s) j /\
                            forall n, o n = (k n, j n))).
  - intros [s t] o [k [j [Hk [Hj E]]]]. cbn in Hk, Hj.
    apply streams_inv in Hk. destruct Hk as [s' [E1 H1]].
    apply streams_inv in Hj. destruct Hj as [t' [E2 H2]].
    exists (s', t'). cbn. rewrite E1. cbn. rewrite E2. cbn. rewrite E. split; [reflexivity|].
    exists (fun n => k (S n)), (fun n => j (S n)). auto.
  - exists f, g. auto.
Qed.

Lemma skipn_add {A} n m (l : list A) : skipn n (skipn m l) = skipn (m + n) l.
Proof.
  revert l; induction m as [|m IH]; intros l; [reflexivity|].
  destruct l as [|a l]; [rewrite !skipn_nil; reflexivity|]. cbn. apply IH.
Qed.

(** Cycling a non-empty finite iterator repeats it for ever. *)
Lemma icycle_streams {A} (d : A) (it : Iter A) l :
  yields it l -> l <> [] -> streams (icycle it) (fun n => nth (n mod length l) l d).
Proof.
  intros H Hl.
  assert (HL : length l <> 0) by (destruct l; [congruence|discriminate]).
  apply (streams_coind (next (icycle it))
    (fun s o => exists i, i <= length l /\ yields_from (next it) s (skipn i l) /\
                          forall n, o n = nth ((i + n) mod length l) l d)).
  - intros s o [i [Hi [Hs E]]].
    destruct (Nat.eq_dec i (length l)) as [->|Hne].
    + rewrite skipn_all in Hs. apply yields_nil_inv in Hs. destruct Hs as [s1 [E1 _]].
      pose proof H as H0. destruct l as [|a l]; [congruence|].
      apply yields_cons_inv in H0. destruct H0 as [s2 [E2 H2]].
      exists s2. cbn [next icycle]. unfold icycle_next. rewrite E1. cbn [bind]. rewrite E2.
      split.
      * do 3 f_equal. rewrite E. rewrite Nat.add_0_r, Nat.mod_same by lia. reflexivity.
      * exists 1. split; [cbn; lia|]. split; [exact H2|]. intros n. rewrite E.
        f_equal. rewrite <- Nat.add_1_r, Nat.add_assoc.
        replace (length (a :: l) + n + 1) with ((1 + n) + 1 * length (a :: l)) by lia.
        rewrite Nat.mod_add by lia. reflexivity.
    + assert (Hlt : i < length l) by lia.
      destruct (skipn i l) as [|x r] eqn:Er.
      { apply (f_equal (@length A)) in Er. rewrite skipn_length in Er. cbn in Er. lia. }
      apply yields_cons_inv in Hs. destruct Hs as [s1 [E1 H1]].
      exists s1. cbn [next icycle]. unfold icycle_next. rewrite E1. cbn [bind]. split.
      * do 3 f_equal. rewrite E, Nat.add_0_r, Nat.mod_small by lia.
        rewrite <- (firstn_skipn i l), app_nth2; rewrite firstn_length_le by lia; [|lia].
        rewrite Nat.sub_diag, Er. reflexivity.
      * exists (S i). split; [lia|]. split.
        -- assert (skipn (S i) l = r) as ->; [|exact H1].
           replace r with (skipn 1 (skipn i l)) by (rewrite Er; reflexivity).
           rewrite skipn_add. f_equal. lia.
        -- intros n. rewrite E. do 2 f_equal. lia.
  - exists 0. split; [lia|]. split; [exact H|]. reflexivity.
Qed.

(** ** skip, take, tuples *)

Lemma drop_items_yields {A X} (nx : X -> outcome (option A * X)) n s l :
  yields_from nx s l ->
  exists b s', drop_items n nx s = Ret (b, s') /\ yields_from nx s' (skipn n l) /\
               (b = false -> skipn n l = []).
Proof.
  revert s l; induction n as [|n IH]; intros s l H.
  - exists true, s. cbn. repeat split; auto. discriminate.
  - destruct l as [|a l].
    + apply yields_nil_inv in H. destruct H as [s' [E H]]. exists false, s'. cbn. rewrite E. auto.
    + apply yields_cons_inv in H. destruct H as [s' [E H]]. cbn. rewrite E. cbn. apply IH. exact H.
Qed.

Lemma iskip_yields {A} n (it : Iter A) l : yields it l -> yields (iskip n it) (skipn n l).
Proof.
  intros H.
  apply (yields_coind (next (iskip n it))
    (fun s m => exists k, yields_from (next it) (fst s) k /\ m = skipn (snd s) k)).
  - intros [s i] [k [Hk E]]. cbn in Hk, E.
    destruct (drop_items_yields _ i _ _ Hk) as [b [s1 [E1 [H1 H2]]]]. rewrite <- E in H1.
    cbn [next iskip iskip_next]. rewrite E1. cbn [bind]. destruct b.
    + apply yields_nil_inv in H1. destruct H1 as [s2 [E2 H3]]. rewrite E2. exists (s2, 0). split; [reflexivity|].
      exists []. auto.
    + exists (s1, 0). split; [reflexivity|]. exists []. auto.
  - intros [s i] a m [k [Hk E]]. cbn in Hk, E.
    destruct (drop_items_yields _ i _ _ Hk) as [b [s1 [E1 [H1 H2]]]]. rewrite <- E in H1, H2.
    cbn [next iskip iskip_next]. rewrite E1. cbn [bind]. destruct b.
    + apply yields_cons_inv in H1. destruct H1 as [s2 [E2 H3]]. rewrite E2. exists (s2, 0). split; [reflexivity|].
      exists m. auto.
    + specialize (H2 eq_refl). discriminate.
  - exists l. auto.
Qed.

Lemma itake_yields {A} n (it : Iter A) l : yields it l -> yields (itake n it) (firstn n l).
Proof.
  intros H.
  apply (yields_coind (next (itake n it))
    (fun s m => exists k, yields_from (next it) (fst s) k /\ m = firstn (snd s) k)).
  - intros [s i] [k [Hk E]]. cbn in Hk, E. cbn. destruct i as [|i].
    + exists (s, 0). split; [reflexivity|]. exists k. auto.
    + destruct k; try discriminate. apply yields_nil_inv in Hk. destruct Hk as [s1 [E1 H1]].
      rewrite E1. exists (s1, i). split; [reflexivity|]. exists []. cbn. rewrite firstn_nil. auto.
  - intros [s i] a m [k [Hk E]]. cbn in Hk, E. cbn. destruct i as [|i]; try discriminate.
    destruct k as [|x k]; try discriminate. cbn in E. injection E as -> ->.
    apply yields_cons_inv in Hk. destruct Hk as [s1 [E1 H1]].
    rewrite E1. exists (s1, i). split; [reflexivity|]. exists k. auto.
  - exists l. auto.
Qed.

Lemma itake_streams {A} n (it : Iter A) f : streams it f -> yields (itake n it) (map f (seq 0 n)).
Proof.
  intros H.
  apply (yields_coind (next (itake n it))
    (fun s m => exists g, streams_from (next it) (fst s) g /\ m = map g (seq 0 (snd s)))).
  - intros [s i] [k [Hk E]]. cbn in Hk, E. cbn. destruct i as [|i]; try discriminate.
    exists (s, 0). split; [reflexivity|]. exists k. auto.
  - intros [s i] a m [k [Hk E]]. cbn in Hk, E. cbn. destruct i as [|i]; try discriminate.
    cbn in E. injection E as -> ->.
    apply streams_inv in Hk. destruct Hk as [s1 [E1 H1]].
    rewrite E1. exists (s1, i). split; [reflexivity|]. exists (fun n => k (S n)).
    rewrite <- seq_shift, map_map. auto.
  - exists f. auto.
Qed.

(** Consecutive pairs of a list; an odd last element is dropped. *)
Fixpoint pairs {A} (l : list A) : list (A * A) :=
  match l with
  | a :: b :: r => (a, b) :: pairs r
  | _ => []
  end.

Lemma ituples_yields {A} (it : Iter A) l : yields it l -> yields (ituples it) (pairs l).
Proof.
  intros H.
  apply (yields_coind (next (ituples it))
    (fun s m => match s with
                | None => m = []
                | Some s0 => exists k, yields_from (next it) s0 k /\ m = pairs k
                end)).
  - intros [s|] Hs.
    + destruct Hs as [k [Hk E]]. exists None. cbn. destruct k as [|a [|b k]]; try discriminate.
      * apply yields_nil_inv in Hk. destruct Hk as [s1 [E1 H1]]. rewrite E1. auto.
      * apply yields_cons_inv in Hk. destruct Hk as [s1 [E1 H1]].
        apply yields_nil_inv in H1. destruct H1 as [s2 [E2 H2]]. rewrite E1. cbn. rewrite E2. auto.
    + exists None. auto.
  - intros [s|] p m Hs; [|discriminate].
    destruct Hs as [k [Hk E]]. destruct k as [|a [|b k]]; try discriminate. cbn in E. injection E as -> ->.
    apply yields_cons_inv in Hk. destruct Hk as [s1 [E1 H1]].
    apply yields_cons_inv in H1. destruct H1 as [s2 [E2 H2]].
    exists (Some s2). cbn. rewrite E1. cbn. rewrite E2. split; [reflexivity|]. exists k. auto.
  - exists l. auto.
Qed.

(** ** flat_map *)

Fixpoint loop_nat {X R} (n : nat) (body : X -> R + X) (s : X) : R + X :=
  match n with
  | 0 => inr s
  | S n' => match body s with inl r => inl r | inr s1 => loop_nat n' body s1 end
  end.

Lemma loop_nat_add {X R} n m (body : X -> R + X) s :
  loop_nat (n + m) body s =
  match loop_nat n body s with inl r => inl r | inr s1 => loop_nat m body s1 end.
Proof.
  revert s; induction n as [|n IH]; intros s; cbn; [reflexivity|].
  destruct (body s); [reflexivity|]. apply IH.
Qed.

Lemma loop_pos_nat {X R} p (body : X -> R + X) s :
  loop_pos p body s = loop_nat (Pos.to_nat p) body s.
Proof.
  revert s; induction p as [p IH|p IH|]; intros s.
  - rewrite Pos2Nat.inj_xI. replace (S (2 * Pos.to_nat p)) with (1 + (Pos.to_nat p + Pos.to_nat p)) by lia.
    cbn [loop_pos]. rewrite loop_nat_add. cbn [loop_nat]. destruct (body s) as [r|s1]; [reflexivity|].
    rewrite IH, loop_nat_add. destruct (loop_nat (Pos.to_nat p) body s1); [reflexivity|apply IH].
  - rewrite Pos2Nat.inj_xO. replace (2 * Pos.to_nat p) with (Pos.to_nat p + Pos.to_nat p) by lia.
    cbn [loop_pos]. rewrite loop_nat_add, IH. destruct (loop_nat (Pos.to_nat p) body s); [reflexivity|apply IH].
  - change (Pos.to_nat 1) with 1. cbn. destruct (body s); reflexivity.
Qed.

(** [loops body k s r]: starting at [s] the loop goes round k times and then finishes with [r]. *)
Inductive loops {X R} (body : X -> R + X) : nat -> X -> R -> Prop :=
| loops_stop s r : body s = inl r -> loops body 0 s r
| loops_go k s s1 r : body s = inr s1 -> loops body k s1 r -> loops body (S k) s r.

Lemma loops_nat {X R} (body : X -> R + X) k s r n : loops body k s r -> k < n -> loop_nat n body s = inl r.
Proof.
  intros H. revert n; induction H as [s r E|k s s1 r E H IH]; intros [|n] Hn; try lia; cbn; rewrite E.
  - reflexivity.
  - apply IH. lia.
Qed.

Lemma loops_pos {X R} (body : X -> R + X) k s r p :
  loops body k s r -> k < Pos.to_nat p -> loop_pos p body s = inl r.
Proof. intros H Hk. rewrite loop_pos_nat. eapply loops_nat; eauto. Qed.

(** [flat_ok f c l bs e]: running the closure [f] from captured state [c] over [l] never panics,
    gives [bs] in all, and returns an empty inner iterator [e] times. *)
Inductive flat_ok {A B C} (f : C -> A -> outcome (list B * C)) : C -> list A -> list B -> nat -> Prop :=
| flat_nil c : flat_ok f c [] [] 0
| flat_cons c a l1 c1 l bs e :
    f c a = Ret (l1, c1) -> flat_ok f c1 l bs e ->
    flat_ok f c (a :: l) (l1 ++ bs) (match l1 with [] => S e | _ => e end).

Lemma loop_bound_val : Z.of_nat (Pos.to_nat loop_bound) = (2 ^ 64)%Z.
Proof. rewrite positive_nat_Z. reflexivity. Qed.

Section Flat.
Context {A B C X : Type} (f : C -> A -> outcome (list B * C)) (nx : X -> outcome (option A * X)).

Lemma flat_loops c s l bs e :
  yields_from nx s l -> flat_ok f c l bs e ->
  (bs = [] /\ exists s', loops (iflat_body f nx) e (FlatSt (Some s) c []) (Ret (None, FlatSt None s' []))) \/
  (exists k b r s' c' l' bs' e',
     bs = b :: r ++ bs' /\ k <= S e /\ e' <= e /\
     loops (iflat_body f nx) k (FlatSt (Some s) c []) (Ret (Some b, FlatSt (Some s') c' r)) /\
     yields_from nx s' l' /\ flat_ok f c' l' bs' e').
Proof.
  intros Hy H. revert s Hy; induction H as [c|c a l1 c1 l bs e E H IH]; intros s Hy.
  - apply yields_nil_inv in Hy. destruct Hy as [s' [E _]]. left. split; [reflexivity|].
    exists c. apply loops_stop. unfold iflat_body. cbn. rewrite E. reflexivity.
  - apply yields_cons_inv in Hy. destruct Hy as [s1 [E1 Hy]].
    assert (Hb : iflat_body f nx (FlatSt (Some s) c []) = inr (FlatSt (Some s1) c1 l1)).
    { unfold iflat_body. cbn. rewrite E1, E. reflexivity. }
    destruct l1 as [|b l1].
    + destruct (IH _ Hy) as [[-> [s' HL]]|(k & b & r & s' & c' & l' & bs' & e' & Ebs & Hk & He & HL & Hy' & Hf)].
      * left. split; [reflexivity|]. exists s'. eapply loops_go; eauto.
      * right. exists (S k), b, r, s', c', l', bs', e'. subst bs. repeat split; auto; try lia.
        eapply loops_go; eauto.
    + right. exists 1, b, l1, s1, c1, l, bs, e. repeat split; auto; try lia.
      eapply loops_go; [exact Hb|]. apply loops_stop. reflexivity.
Qed.

End Flat.

Lemma iflat_yields {A B C} (f : C -> A -> outcome (list B * C)) c0 (it : Iter A) l bs e :
  yields it l -> flat_ok f c0 l bs e -> (Z.of_nat e < 2 ^ 64 - 1)%Z ->
  yields (iflat_map c0 f it) bs.
Proof.
  intros Hy Hf He. pose proof loop_bound_val as HB.
  apply (yields_coind (next (iflat_map c0 f it))
    (fun s m => match fl_outer s with
                | None => m = fl_front s
                | Some so => exists l bs e, yields_from (next it) so l /\ flat_ok f (fl_clo s) l bs e /\
                               (Z.of_nat e < 2 ^ 64 - 1)%Z /\ m = fl_front s ++ bs
                end)).
  - intros [[so|] c fr] Hs; cbn in Hs.
    + destruct Hs as (l' & bs' & e' & Hy' & Hf' & He' & E). symmetry in E. apply app_eq_nil in E. destruct E as [-> ->].
      destruct (flat_loops _ _ _ _ _ _ _ Hy' Hf') as [[_ [s' HL]]|(k & b & r & ? & ? & ? & ? & ? & Ebs & _)];
        [|discriminate].
      exists (FlatSt None s' []). cbn [next iflat_map]. unfold iflat_next.
      rewrite (loops_pos _ _ _ _ _ HL) by lia. split; reflexivity.
    + subst fr. exists (FlatSt None c []). split; [|reflexivity]. cbn [next iflat_map]. unfold iflat_next.
      rewrite (loops_pos _ 0 _ (Ret (None, FlatSt None c []))); [reflexivity| |lia]. apply loops_stop. reflexivity.
  - intros [[so|] c fr] b m Hs; cbn in Hs.
    + destruct Hs as (l' & bs' & e' & Hy' & Hf' & He' & E).
      destruct fr as [|b0 fr].
      * destruct (flat_loops _ _ _ _ _ _ _ Hy' Hf')
          as [[-> _]|(k & b1 & r & s' & c' & l1 & bs1 & e1 & Ebs & Hk & Hee & HL & Hy1 & Hf1)]; [discriminate|].
        cbn in E. rewrite Ebs in E. injection E as -> ->.
        exists (FlatSt (Some s') c' r). cbn [next iflat_map]. unfold iflat_next.
        rewrite (loops_pos _ _ _ _ _ HL) by lia. split; [reflexivity|]. cbn.
        exists l1, bs1, e1. repeat split; auto. lia.
      * cbn in E. injection E as -> ->. exists (FlatSt (Some so) c fr). split.
        -- cbn [next iflat_map]. unfold iflat_next.
           rewrite (loops_pos _ 0 _ (Ret (Some b0, FlatSt (Some so) c fr))); [reflexivity| |lia].
           apply loops_stop. reflexivity.
        -- cbn. exists l', bs', e'. auto.
    + subst fr. exists (FlatSt None c m). split; [|reflexivity]. cbn [next iflat_map]. unfold iflat_next.
      rewrite (loops_pos _ 0 _ (Ret (Some b, FlatSt None c m))); [reflexivity| |lia]. apply loops_stop. reflexivity.
  - cbn. exists l, bs, e. auto.
Qed.

(** Closures without state: the concatenation, provided there are fewer than 2^64-1 empty pieces. *)
Lemma flat_ok_pure {A B} (f : A -> list B) l :
  exists e, e <= length l /\ ((forall a, In a l -> f a <> []) -> e = 0) /\
            flat_ok (pure_fn f) tt l (flat_map f l) e.
Proof.
  induction l as [|a l [e [He [H0 H]]]].
  - exists 0. repeat split; auto. constructor.
  - exists (match f a with [] => S e | _ => e end). split; [destruct (f a); cbn; lia|]. split.
    + intros Hne. destruct (f a) eqn:E; [exfalso; apply (Hne a); [left; reflexivity|exact E]|].
      apply H0. intros x Hx. apply Hne. right; exact Hx.
    + cbn [flat_map]. eapply flat_cons; [reflexivity|exact H].
Qed.

Lemma iflat_pure_yields {A B} (f : A -> list B) (it : Iter A) l :
  yields it l -> (forall a, In a l -> f a <> []) ->
  yields (iflat_map tt (pure_fn f) it) (flat_map f l).
Proof.
  intros Hy Hne. destruct (flat_ok_pure f l) as [e [He [H0 H]]].
  eapply iflat_yields; eauto. rewrite (H0 Hne). cbn. lia.
Qed.

Lemma iflat_pure_yields_bounded {A B} (f : A -> list B) (it : Iter A) l :
  yields it l -> (Z.of_nat (length l) < 2 ^ 64 - 1)%Z ->
  yields (iflat_map tt (pure_fn f) it) (flat_map f l).
Proof.
  intros Hy Hl. destruct (flat_ok_pure f l) as [e [He [H0 H]]].
  eapply iflat_yields; eauto. lia.
Qed.
