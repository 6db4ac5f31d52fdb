(** How much of its source an iterator has read: sources that give some items and then either panic or go on. *)
From Coq Require Import List Arith ZArith Bool Lia.
From Verif Require Import Base IterTheory IterModel IterProofs Spec PanicTheory.
Import ListNotations.

(** [runs b nx s l]: the next calls return the items of [l]; if b, the call after them panics. *)
Fixpoint runs {A X} (b : bool) (nx : X -> outcome (option A * X)) (s : X) (l : list A) : Prop :=
  match l with
  | [] => b = true -> nx s = Panic
  | a :: l' => exists s', nx s = Ret (Some a, s') /\ runs b nx s' l'
  end.

(** [begins it l]: the first calls return the items of [l]; nothing is said about later calls. *)
Definition begins {A} (it : Iter A) (l : list A) : Prop :=
  exists s, calls (next it) (length l) (cur it) = Ret (map Some l, s).

Lemma runs_panics {A} (it : Iter A) l : runs true (next it) (cur it) l <-> panics_after it (map Some l).
Proof.
  rewrite <- panics_from_after. generalize (cur it) as s. induction l as [|a l IH]; intros s; cbn [runs panics_from map].
  - split; auto.
  - split; intros (s' & E & H); exists s'; (split; [exact E|]); apply IH; exact H.
Qed.
Lemma runs_begins {A} (it : Iter A) l : runs false (next it) (cur it) l <-> begins it l.
Proof.
  unfold begins. generalize (cur it) as s. induction l as [|a l IH]; intros s; cbn [runs map length calls].
  - split; [intros _; exists s; reflexivity|discriminate].
  - split.
    + intros (s' & E & H). apply IH in H. destruct H as (s2 & H). exists s2. rewrite E. cbn [bind]. rewrite H. reflexivity.
    + intros (s2 & H). destruct (next it s) as [[o s1]| |]; cbn [bind] in H; try discriminate.
      destruct (calls (next it) (length l) s1) as [[os s3]| |] eqn:E; cbn [bind] in H; try discriminate.
      injection H as -> E2 ->. exists s1. split; [reflexivity|]. apply IH. exists s2. rewrite E, E2. reflexivity.
Qed.

Lemma yields_begins {A} (it : Iter A) l rest : yields it (l ++ rest) -> begins it l.
Proof.
  intros H. apply runs_begins. unfold yields, behaves in H.
  change (yields_from (next it) (cur it) (l ++ rest)) in H. revert H. generalize (cur it) as s.
  induction l as [|a l IH]; intros s H; cbn [runs]; [discriminate|]. cbn [app] in H.
  apply yields_cons_inv in H. destruct H as (s' & E & H). exists s'. split; [exact E|]. apply IH. exact H.
Qed.
Lemma streams_begins {A} (it : Iter A) f n : streams it f -> begins it (map f (seq 0 n)).
Proof. intros H. destruct (H n) as (s & E). exists s. rewrite map_length, seq_length, map_map. exact E. Qed.

(** [prompt F count]: with a source that gives l and then fails, the result gives exactly [count (length l)]
    items and then fails; they are the items it gives with any source that begins with l. *)
Definition prompt {A B} (F : Iter A -> outcome (Iter B)) (count : nat -> nat) : Prop :=
  forall failing source l, panics_after failing (map Some l) -> begins source l ->
  exists rf rs out, F failing = Ret rf /\ F source = Ret rs /\ length out = count (length l) /\
    panics_after rf (map Some out) /\ begins rs out.

(** An adapter that maps l to g l. *)
Definition tracks {A B} (ad : Iter A -> Iter B) (g : list A -> list B) : Prop :=
  forall b it l, runs b (next it) (cur it) l -> runs b (next (ad it)) (cur (ad it)) (g l).

Lemma tracks_prompt {A B} (ad : Iter A -> Iter B) g c : tracks ad g -> (forall l, length (g l) = c (length l)) ->
  prompt (fun it => Ret (ad it)) c.
Proof.
  intros T L failing source l Hf Hs. exists (ad failing), (ad source), (g l). split; [reflexivity|]. split; [reflexivity|].
  split; [apply L|]. split; [apply runs_panics, T, runs_panics|apply runs_begins, T, runs_begins]; assumption.
Qed.
Lemma tracks_comp {A B C} (ad1 : Iter A -> Iter B) (ad2 : Iter B -> Iter C) g1 g2 :
  tracks ad1 g1 -> tracks ad2 g2 -> tracks (fun it => ad2 (ad1 it)) (fun l => g2 (g1 l)).
Proof. intros T1 T2 b it l H. apply (T2 b (ad1 it)). apply T1. exact H. Qed.
Lemma prompt_ext {A B} (F G : Iter A -> outcome (Iter B)) c d : (forall it, F it = G it) -> (forall n, c n = d n) -> prompt F c -> prompt G d.
Proof.
  intros E1 E2 P failing source l Hf Hs. destruct (P failing source l Hf Hs) as (rf & rs & out & H1 & H2 & H3 & H4).
  exists rf, rs, out. rewrite <- E1, <- E1, <- E2. auto.
Qed.
Lemma prompt_comp {A B C} (F : Iter A -> outcome (Iter B)) (G : Iter B -> outcome (Iter C)) c d :
  prompt F c -> prompt G d -> prompt (fun it => let? x := F it in G x) (fun n => d (c n)).
Proof.
  intros PF PG failing source l Hf Hs. destruct (PF failing source l Hf Hs) as (rf & rs & out & E1 & E2 & L & H1 & H2).
  destruct (PG rf rs out H1 H2) as (qf & qs & out2 & E3 & E4 & L2 & H3 & H4).
  exists qf, qs, out2. rewrite E1, E2. cbn [bind]. rewrite <- L. auto.
Qed.

(** ** The adapters *)

Lemma imap_tracks {A B} (f : A -> B) : tracks (imap f) (map f).
Proof.
  intros b it l. cbn [imap next cur]. generalize (cur it) as s. induction l as [|a l IH]; intros s H; cbn [runs map] in *.
  - intros Hb. unfold imap_next. rewrite (H Hb). reflexivity.
  - destruct H as (s' & E & H). exists s'. split; [unfold imap_next; rewrite E; reflexivity|]. apply IH. exact H.
Qed.

Lemma ienum_tracks {A} : tracks (@ienum A) (index_from 0).
Proof.
  intros b it l. cbn [ienum next cur]. generalize (cur it) as s. generalize 0 as i. induction l as [|a l IH]; intros i s H.
  - cbn [runs] in *. intros Hb. cbn. rewrite (H Hb). reflexivity.
  - destruct H as (s' & E & H). exists (s', S i). split; [cbn; rewrite E; reflexivity|]. apply (IH (S i)). exact H.
Qed.

Lemma zip_tracks {A B} (other : Iter B) f : streams other f -> tracks (fun it : Iter A => izip it other) (fun l => zip_stream l f).
Proof.
  intros Ho b it l. cbn [izip next cur]. unfold streams, behaves in Ho.
  change (streams_from (next other) (cur other) f) in Ho. revert Ho. generalize (cur it) as s. generalize (cur other) as o. revert f.
  induction l as [|a l IH]; intros f o s Ho H.
  - intros Hb. cbn in H. cbn. rewrite (H Hb). reflexivity.
  - destruct H as (s' & E & H). apply streams_inv in Ho. destruct Ho as (o' & Eo & Ho). rewrite zip_stream_cons.
    exists (s', o'). split; [cbn; rewrite E; cbn [bind]; rewrite Eo; reflexivity|]. apply (IH (fun n => f (S n))); assumption.
Qed.

Lemma inflate_tracks {A} n : 1 <= n -> tracks (@inflate A n) (repeat_each n).
Proof.
  intros Hn b it l H. cbn [inflate next cur].
  assert (G : forall l s, runs b (next it) s l -> forall k o, (o = None \/ k = n) -> runs b (inflate_next n (next it)) (InflateSt s k o) (repeat_each n l)).
  { clear l H. induction l as [|a l IH]; intros s H k o Hk.
    - cbn [runs] in H. cbn [repeat_each flat_map runs]. intros Hb. unfold inflate_next. cbn [inf_curr inf_curr_copy inf_source].
      replace (match o with None => true | Some _ => false end || (k =? n)) with true.
      2:{ destruct Hk as [->| ->]; [reflexivity|]. rewrite Nat.eqb_refl, orb_true_r. reflexivity. }
      rewrite (H Hb). reflexivity.
    - destruct H as (s' & E & H).
      assert (R : forall j, 1 <= j <= n -> runs b (inflate_next n (next it)) (InflateSt s' j (Some a)) (repeat a (n - j) ++ repeat_each n l)).
      { intros j. remember (n - j) as q eqn:Eq. revert j Eq. induction q as [|q IQ]; intros j Eq Hj; cbn [repeat app].
        - apply IH; [exact H|right; lia].
        - exists (InflateSt s' (j + 1) (Some a)). split; [|apply IQ; lia]. unfold inflate_next. cbn [inf_curr inf_curr_copy inf_source].
          destruct (Nat.eqb_spec j n); [lia|]. reflexivity. }
      change (repeat_each n (a :: l)) with (repeat a n ++ repeat_each n l). destruct n as [|n]; [lia|]. cbn [repeat app].
      exists (InflateSt s' 1 (Some a)). split.
      + unfold inflate_next at 1. cbn [inf_curr inf_curr_copy inf_source].
        replace (match o with None => true | Some _ => false end || (k =? S n)) with true.
        2:{ destruct Hk as [->| ->]; [reflexivity|]. rewrite Nat.eqb_refl, orb_true_r. reflexivity. }
        rewrite E. reflexivity.
      + specialize (R 1 ltac:(lia)). replace (S n - 1) with n in R by lia. exact R. }
  apply G; [exact H|left; reflexivity].
Qed.

Lemma tuples_tracks {A} : tracks (@ituples A) pairs.
Proof.
  intros b it l. cbn [ituples next cur]. generalize (cur it) as s. remember (length l) as n eqn:En. revert l En.
  induction n as [n IH] using (well_founded_induction lt_wf). intros l En s H.
  destruct l as [|a [|a' l]]; cbn [pairs].
  - intros Hb. cbn in *. rewrite (H Hb). reflexivity.
  - destruct H as (s1 & E & H). intros Hb. cbn. rewrite E. cbn [bind]. cbn in H. rewrite (H Hb). reflexivity.
  - destruct H as (s1 & E1 & s2 & E2 & H). exists (Some s2). split; [cbn; rewrite E1; cbn [bind]; rewrite E2; reflexivity|].
    eapply IH; [|reflexivity|exact H]. cbn in En. lia.
Qed.

(** The items in whole runs of n. *)
Fixpoint whole_runs {A} (fuel n : nat) (l : list A) : list (list A) :=
  match fuel with
  | 0 => []
  | S k => if length l <? n then [] else firstn n l :: whole_runs k n (skipn n l)
  end.
Definition wholes {A} n (l : list A) : list (list A) := whole_runs (length l) n l.

Lemma whole_runs_fuel {A} n : 1 <= n -> forall fuel (l : list A), length l <= fuel -> whole_runs fuel n l = whole_runs (length l) n l.
Proof.
  intros Hn fuel. induction fuel as [fuel IH] using (well_founded_induction lt_wf). intros l Hl.
  destruct fuel as [|k]; [destruct l; [reflexivity|cbn in Hl; lia]|]. destruct (length l) as [|q] eqn:E.
  - cbn [whole_runs]. rewrite E. destruct (Nat.ltb_spec 0 n); [reflexivity|lia].
  - cbn [whole_runs]. destruct (Nat.ltb_spec (length l) n); [reflexivity|]. f_equal.
    rewrite (IH k ltac:(lia)) by (rewrite skipn_length; lia). symmetry. apply IH; rewrite ?skipn_length; lia.
Qed.
Lemma wholes_short {A} n (l : list A) : length l < n -> wholes n l = [].
Proof. intros H. unfold wholes. destruct (length l) eqn:E; [reflexivity|]. cbn [whole_runs]. rewrite E. destruct (Nat.ltb_spec (S n0) n); [reflexivity|lia]. Qed.
Lemma wholes_long {A} n (l : list A) : 1 <= n -> n <= length l -> wholes n l = firstn n l :: wholes n (skipn n l).
Proof.
  intros Hn H. unfold wholes. destruct (length l) eqn:E; [lia|]. cbn [whole_runs]. rewrite E.
  destruct (Nat.ltb_spec (S n0) n); [lia|]. f_equal. apply whole_runs_fuel; [exact Hn|]. rewrite skipn_length. lia.
Qed.
Lemma wholes_length {A} n (l : list A) : 1 <= n -> length (wholes n l) = length l / n.
Proof.
  intros Hn. remember (length l) as k eqn:E. revert l E. induction k as [k IH] using (well_founded_induction lt_wf). intros l E.
  destruct (Nat.lt_ge_cases k n) as [H|H].
  - rewrite wholes_short by lia. symmetry. apply Nat.div_small. exact H.
  - rewrite wholes_long by lia. cbn [length]. rewrite (IH (k - n)) by (rewrite ?skipn_length; lia).
    replace k with (k - n + 1 * n) at 2 by lia. rewrite Nat.div_add by lia. lia.
Qed.
Lemma wholes_in {A} n (l : list A) c : 1 <= n -> In c (wholes n l) -> length c = n.
Proof.
  intros Hn. remember (length l) as k eqn:E. revert l E. induction k as [k IH] using (well_founded_induction lt_wf). intros l E H.
  destruct (Nat.lt_ge_cases k n) as [H1|H1]; [rewrite wholes_short in H by lia; destruct H|].
  rewrite wholes_long in H by lia. destruct H as [<-|H]; [apply firstn_length_le; lia|].
  apply (IH (k - n) ltac:(lia) (skipn n l)); [rewrite skipn_length; lia|exact H].
Qed.

Lemma fill_runs {A X} (nx : X -> outcome (option A * X)) b n : forall s l, runs b nx s l ->
  (n <= length l -> exists s', fill_buf n nx s = Ret (firstn n l, s') /\ runs b nx s' (skipn n l)) /\
  (length l < n -> b = true -> fill_buf n nx s = Panic).
Proof.
  induction n as [|n IH]; intros s l H.
  - split; [|lia]. intros _. exists s. split; [reflexivity|exact H].
  - destruct l as [|a l].
    + split; [cbn; lia|]. intros _ Hb. cbn in *. rewrite (H Hb). reflexivity.
    + destruct H as (s1 & E & H). destruct (IH s1 l H) as [I1 I2]. split.
      * intros Hl. destruct (I1 ltac:(cbn in Hl; lia)) as (s2 & F & R). exists s2. cbn [fill_buf]. rewrite E. cbn [bind]. rewrite F. split; [reflexivity|exact R].
      * intros Hl Hb. cbn [fill_buf]. rewrite E. cbn [bind]. rewrite I2 by (cbn in Hl; lia || exact Hb). reflexivity.
Qed.
Lemma chunks_tracks {A} n : 1 <= n -> tracks (@chunks A n) (wholes n).
Proof.
  intros Hn b it l. cbn [chunks next cur]. generalize (cur it) as s. remember (length l) as k eqn:Ek. revert l Ek.
  induction k as [k IH] using (well_founded_induction lt_wf). intros l Ek s H.
  destruct (fill_runs (next it) b n s l H) as [F1 F2]. destruct (Nat.lt_ge_cases (length l) n) as [Hl|Hl].
  - rewrite wholes_short by exact Hl. intros Hb. unfold chunks_next. rewrite F2 by assumption. reflexivity.
  - rewrite wholes_long by assumption. destruct (F1 Hl) as (s' & E & R). exists s'. split.
    + unfold chunks_next. rewrite E. cbn [bind]. destruct (firstn n l) eqn:Ef; [|reflexivity].
      apply (f_equal (@length A)) in Ef. rewrite firstn_length_le in Ef by exact Hl. cbn in Ef. lia.
    + eapply (IH (length l - n)); [lia|rewrite skipn_length; reflexivity|exact R].
Qed.

Lemma dump_runs {A X} (add : A -> A -> A) (nx : X -> outcome (option A * X)) b n : forall s l sum, runs b nx s l ->
  (n <= length l -> exists s', dump_loop add n nx s sum = Ret (Some (fold_left add (firstn n l) sum), s') /\ runs b nx s' (skipn n l)) /\
  (length l < n -> b = true -> dump_loop add n nx s sum = Panic).
Proof.
  induction n as [|n IH]; intros s l sum H.
  - split; [|lia]. intros _. exists s. split; [reflexivity|exact H].
  - destruct l as [|a l].
    + split; [cbn; lia|]. intros _ Hb. cbn in *. rewrite (H Hb). reflexivity.
    + destruct H as (s1 & E & H). destruct (IH s1 l (add sum a) H) as [I1 I2]. split.
      * intros Hl. destruct (I1 ltac:(cbn in Hl; lia)) as (s2 & F & R). exists s2. cbn [dump_loop]. rewrite E. cbn [bind]. rewrite F. split; [reflexivity|exact R].
      * intros Hl Hb. cbn [dump_loop]. rewrite E. cbn [bind]. apply I2; [cbn in Hl; lia|exact Hb].
Qed.
Lemma dump_tracks {A} (d : A) add n : 1 <= n -> tracks (integrate_and_dump d add n) (fun l => map (fun r => fold_left add r d) (wholes n l)).
Proof.
  intros Hn b it l. cbn [integrate_and_dump next cur]. generalize (cur it) as s. remember (length l) as k eqn:Ek. revert l Ek.
  induction k as [k IH] using (well_founded_induction lt_wf). intros l Ek s H.
  destruct (dump_runs add (next it) b n s l d H) as [F1 F2]. destruct (Nat.lt_ge_cases (length l) n) as [Hl|Hl].
  - rewrite wholes_short by exact Hl. intros Hb. apply F2; assumption.
  - rewrite wholes_long by assumption. destruct (F1 Hl) as (s' & E & R). exists s'. split; [exact E|].
    eapply (IH (length l - n)); [lia|rewrite skipn_length; reflexivity|exact R].
Qed.

Lemma integrate_tracks {A} (d : A) add : tracks (integrate d add) (scan add d).
Proof.
  intros b it l. cbn [integrate next cur]. generalize (cur it) as s. revert d. induction l as [|a l IH]; intros d s H.
  - intros Hb. cbn in *. rewrite (H Hb). reflexivity.
  - destruct H as (s' & E & H). exists (s', add d a). split; [cbn; rewrite E; reflexivity|]. apply (IH (add d a)). exact H.
Qed.

Lemma flat_tracks {A B} (f : unit -> A -> outcome (list B * unit)) (w : A -> list B) :
  forall b (it : Iter A) l, runs b (next it) (cur it) l -> (forall a, In a l -> f tt a = Ret (w a, tt) /\ w a <> []) ->
  runs b (next (iflat_map tt f it)) (cur (iflat_map tt f it)) (flat_map w l).
Proof.
  intros b it l. cbn [iflat_map next cur]. pose proof loop_bound_val as HB.
  assert (G : forall l s fr, runs b (next it) s l -> (forall a, In a l -> f tt a = Ret (w a, tt) /\ w a <> []) ->
    runs b (iflat_next f (next it)) (FlatSt (Some s) tt fr) (fr ++ flat_map w l)).
  2:{ intros H Hw. apply (G l (cur it) []); assumption. }
  clear l. induction l as [|a l IH]; intros s fr H Hw.
  - induction fr as [|x fr IF].
    + intros Hb. cbn in H. unfold iflat_next. rewrite (loops_pos _ 0 _ Panic); [reflexivity| |lia].
      apply loops_stop. unfold iflat_body. cbn. rewrite (H Hb). reflexivity.
    + cbn [app]. exists (FlatSt (Some s) tt fr). split; [|exact IF]. unfold iflat_next.
      rewrite (loops_pos _ 0 _ (Ret (Some x, FlatSt (Some s) tt fr))); [reflexivity| |lia]. apply loops_stop. reflexivity.
  - induction fr as [|x fr IF].
    + destruct H as (s' & E & H). destruct (Hw a ltac:(left; reflexivity)) as [Ef Hne]. cbn [flat_map app].
      destruct (w a) as [|x r] eqn:Ew; [congruence|]. cbn [app]. exists (FlatSt (Some s') tt r). split.
      * unfold iflat_next. rewrite (loops_pos _ 1 _ (Ret (Some x, FlatSt (Some s') tt r))); [reflexivity| |lia].
        apply loops_go with (s1 := FlatSt (Some s') tt (x :: r)).
        -- unfold iflat_body. cbn. rewrite E, Ef. reflexivity.
        -- apply loops_stop. reflexivity.
      * apply IH; [exact H|]. intros; apply Hw; right; assumption.
    + cbn [app]. exists (FlatSt (Some s) tt fr). split; [|exact IF]. unfold iflat_next.
      rewrite (loops_pos _ 0 _ (Ret (Some x, FlatSt (Some s) tt fr))); [reflexivity| |lia]. apply loops_stop. reflexivity.
Qed.
Lemma flat_pure_tracks {A B} (f : A -> list B) : (forall a, f a <> []) -> tracks (iflat_map tt (pure_fn f)) (flat_map f).
Proof. intros Hf b it l H. apply flat_tracks; [exact H|]. intros a _. split; [reflexivity|apply Hf]. Qed.

Lemma take_every_runs {A X} n (nx : X -> outcome (option A * X)) b : 1 <= n -> forall fuel s c l, runs b nx s l -> te_skip n c < fuel ->
  (te_skip n c < length l -> exists s' c', take_every_loop fuel n nx s c = Ret (nth_error l (te_skip n c), (s', c')) /\
    te_skip n c' = n - 1 /\ runs b nx s' (skipn (te_skip n c + 1) l)) /\
  (length l <= te_skip n c -> b = true -> take_every_loop fuel n nx s c = Panic).
Proof.
  intros Hn. induction fuel as [|fuel IH]; intros s c l H Hf; [lia|].
  cbn [take_every_loop]. destruct n as [|n']; [lia|]. set (n := S n') in *.
  pose proof (Nat.mod_upper_bound c n ltac:(lia)) as Hm.
  assert (Hskip : te_skip n c = if c mod n =? 0 then 0 else n - c mod n).
  { unfold te_skip. destruct (Nat.eqb_spec (c mod n) 0) as [E|E].
    - rewrite E, Nat.sub_0_r, Nat.mod_same; lia.
    - apply Nat.mod_small. lia. }
  assert (Hnext : te_skip n (c + 1) = if c mod n =? 0 then n - 1 else (n - c mod n) - 1).
  { unfold te_skip. rewrite Nat.add_mod by lia.
    destruct (Nat.eqb_spec (c mod n) 0) as [E|E].
    - rewrite E. destruct (Nat.eq_dec n 1) as [->|]; [reflexivity|].
      rewrite (Nat.mod_small 1) by lia. cbn [Nat.add]. rewrite (Nat.mod_small 1) by lia. apply Nat.mod_small. lia.
    - destruct (Nat.eq_dec n 1) as [E1|]; [lia|]. rewrite (Nat.mod_small 1) by lia.
      destruct (Nat.eq_dec (c mod n + 1) n) as [E2|E2].
      + rewrite E2, Nat.mod_same, Nat.sub_0_r, Nat.mod_same by lia. lia.
      + rewrite (Nat.mod_small (c mod n + 1)) by lia. rewrite Nat.mod_small by lia. lia. }
  rewrite Hskip in Hf. rewrite Hskip.
  destruct (Nat.eqb_spec (c mod n) 0) as [E|E].
  - destruct l as [|a l].
    + split; [cbn; lia|]. intros _ Hb. rewrite (H Hb). reflexivity.
    + destruct H as (s' & E1 & H1). split; [|cbn; lia]. intros _. rewrite E1. cbn [bind].
      exists s', (c + 1). auto.
  - destruct l as [|a l].
    + split; [cbn; lia|]. intros _ Hb. rewrite (H Hb). reflexivity.
    + destruct H as (s' & E1 & H1). rewrite E1. cbn [bind].
      destruct (IH s' (c + 1) l H1) as [I1 I2]; [rewrite Hnext; lia|]. rewrite Hnext in I1, I2. cbn [length]. split.
      * intros Hl. destruct (I1 ltac:(lia)) as (s2 & c2 & E2 & H2 & H3). exists s2, c2. rewrite E2.
        replace (n - c mod n) with (S (n - c mod n - 1)) by lia. cbn [nth_error Nat.sub Nat.add skipn].
        rewrite Nat.sub_0_r. auto.
      * intros Hl Hb. apply I2; [lia|exact Hb].
Qed.
Lemma take_every_tracks {A} n : 1 <= n -> tracks (@take_every A n) (decim n 0).
Proof.
  intros Hn b it l H. cbn [take_every next cur].
  assert (Hlt : forall c, te_skip n c < S n).
  { intros c. unfold te_skip. pose proof (Nat.mod_upper_bound (n - c mod n) n ltac:(lia)). lia. }
  assert (G : forall k l s c, length l = k -> runs b (next it) s l -> runs b (take_every_next n (next it)) (s, c) (decim n (te_skip n c) l)).
  { clear l H. induction k as [k IH] using (well_founded_induction lt_wf). intros l s c Ek H.
    destruct (take_every_runs n (next it) b Hn (S n) s c l H (Hlt c)) as [I1 I2]. rewrite decim_S.
    destruct (nth_error l (te_skip n c)) as [a|] eqn:En.
    - assert (Hl : te_skip n c < length l) by (apply nth_error_Some; rewrite En; discriminate).
      destruct (I1 Hl) as (s' & c' & E1 & E2 & H1). exists (s', c'). split; [exact E1|]. rewrite <- E2.
      apply (IH (length l - (te_skip n c + 1)) ltac:(lia)); [apply skipn_length|exact H1].
    - apply nth_error_None in En. intros Hb. apply I2; assumption. }
  replace 0 with (te_skip n 0) at 2; [apply (G (length l)); [reflexivity|exact H]|].
  unfold te_skip. rewrite Nat.mod_0_l, Nat.sub_0_r, Nat.mod_same by lia. reflexivity.
Qed.

Lemma iskip_tracks {A} n : tracks (@iskip A n) (skipn n).
Proof.
  intros b it l. cbn [iskip next cur].
  assert (D : forall l s, runs b (next it) s l -> runs b (iskip_next (next it)) (s, 0) l).
  { clear l. induction l as [|a l IH]; intros s H.
    - intros Hb. cbn in *. rewrite (H Hb). reflexivity.
    - destruct H as (s' & E & H). exists (s', 0). split; [cbn; rewrite E; reflexivity|]. apply IH. exact H. }
  generalize (cur it) as s. revert n. induction l as [|a l IH]; intros n s H.
  - destruct n; intros Hb; cbn in *; rewrite (H Hb); reflexivity.
  - destruct n as [|n]; [apply (D (a :: l)); exact H|]. destruct H as (s' & E & H). cbn [skipn].
    specialize (IH n s' H). assert (EN : iskip_next (next it) (s, S n) = iskip_next (next it) (s', n)) by (cbn; rewrite E; reflexivity).
    destruct (skipn n l) as [|x r]; cbn [runs] in *; rewrite EN; exact IH.
Qed.

(** What the convolution gives for the items of l, with buf the latest items before them. *)
Fixpoint conv_head {A B C} (zero : C) (add : C -> C -> C) (mul : A -> B -> C) (h : list B) (buf l : list A) : list C :=
  match l with
  | [] => []
  | a :: r =>
      let buf2 := if length h <? length (a :: buf) then removelast (a :: buf) else a :: buf in
      convolve_sum zero add mul buf2 h :: conv_head zero add mul h buf2 r
  end.
Lemma conv_head_length {A B C} (zero : C) add (mul : A -> B -> C) h l : forall buf, length (conv_head zero add mul h buf l) = length l.
Proof. induction l as [|a l IH]; intros buf; cbn [conv_head length]; [reflexivity|]. rewrite IH. reflexivity. Qed.
Lemma convolve_tracks {A B C} (zero : C) add (mul : A -> B -> C) h : tracks (convolve zero add mul h) (conv_head zero add mul h []).
Proof.
  intros b it l. cbn [convolve next cur]. generalize (cur it) as s. generalize (@nil A) as buf.
  induction l as [|a l IH]; intros buf s H.
  - intros Hb. cbn in *. rewrite (H Hb). reflexivity.
  - destruct H as (s' & E & H). eexists. split; [unfold convolve_next; rewrite E; reflexivity|]. apply IH. exact H.
Qed.
