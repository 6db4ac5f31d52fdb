(** Iterators that give some items and then panic. *)
From Coq Require Import List Arith ZArith Lia.
From Verif Require Import Base IterTheory.
Import ListNotations.

Fixpoint panics_from {A X} (nx : X -> outcome (option A * X)) (s : X) (os : list (option A)) : Prop :=
  match os with
  | [] => nx s = Panic
  | o :: os' => exists s', nx s = Ret (o, s') /\ panics_from nx s' os'
  end.

Lemma panics_from_after {A} (it : Iter A) os : panics_from (next it) (cur it) os <-> panics_after it os.
Proof.
  unfold panics_after. generalize (cur it) as s. induction os as [|o os IH]; intros s; cbn [panics_from length calls].
  - split.
    + intros H. exists s. split; [reflexivity|exact H].
    + intros (s' & E & H). injection E as <-. exact H.
  - split.
    + intros (s' & E & H). apply IH in H. destruct H as (s2 & E2 & H2). exists s2. split; [|exact H2].
      rewrite E. cbn [bind]. rewrite E2. reflexivity.
    + intros (s2 & E & H2). destruct (next it s) as [[o1 s1]| |]; cbn [bind] in E; try discriminate.
      destruct (calls (next it) (length os) s1) as [[os1 s1']| |] eqn:E1; cbn [bind] in E; try discriminate.
      injection E as -> -> ->. exists s1. split; [reflexivity|]. apply IH. exists s2. auto.
Qed.

(** A source that gives the items [l] and then panics, or gives an item on which the closure panics. *)
Section FlatPanic.
Context {A B C X : Type} (f : C -> A -> outcome (list B * C)) (nx : X -> outcome (option A * X)).

Inductive fpanics : X -> C -> list B -> nat -> Prop :=
| fp_source s c : nx s = Panic -> fpanics s c [] 0
| fp_closure s c a s1 : nx s = Ret (Some a, s1) -> f c a = Panic -> fpanics s c [] 0
| fp_item s c a s1 l1 c1 bs e : nx s = Ret (Some a, s1) -> f c a = Ret (l1, c1) -> fpanics s1 c1 bs e ->
    fpanics s c (l1 ++ bs) (match l1 with [] => S e | _ => e end).

Lemma fpanics_loops s c bs e : fpanics s c bs e ->
  (bs = [] /\ loops (iflat_body f nx) e (FlatSt (Some s) c []) Panic) \/
  (exists k b r s' c' bs' e', bs = b :: r ++ bs' /\ k <= S e /\ e' <= e /\
     loops (iflat_body f nx) k (FlatSt (Some s) c []) (Ret (Some b, FlatSt (Some s') c' r)) /\ fpanics s' c' bs' e').
Proof.
  induction 1 as [s c E|s c a s1 E E1|s c a s1 l1 c1 bs e E E1 H IH].
  - left. split; [reflexivity|]. apply loops_stop. unfold iflat_body. cbn. rewrite E. reflexivity.
  - left. split; [reflexivity|]. apply loops_stop. unfold iflat_body. cbn. rewrite E, E1. reflexivity.
  - assert (Hb : iflat_body f nx (FlatSt (Some s) c []) = inr (FlatSt (Some s1) c1 l1)).
    { unfold iflat_body. cbn. rewrite E, E1. reflexivity. }
    destruct l1 as [|b l1].
    + destruct IH as [[-> HL]|(k & b & r & s' & c' & bs' & e' & Ebs & Hk & He & HL & Hf)].
      * left. split; [reflexivity|]. eapply loops_go; eauto.
      * right. exists (S k), b, r, s', c', bs', e'. subst bs. repeat split; auto; try lia. eapply loops_go; eauto.
    + right. exists 1, b, l1, s1, c1, bs, e. repeat split; auto; try lia.
      eapply loops_go; [exact Hb|]. apply loops_stop. reflexivity.
Qed.

Lemma fpanics_next s c fr bs e : fpanics s c bs e -> (Z.of_nat e < 2 ^ 64 - 1)%Z ->
  panics_from (iflat_next f nx) (FlatSt (Some s) c fr) (map Some (fr ++ bs)).
Proof.
  pose proof loop_bound_val as HB.
  remember (length (fr ++ bs)) as n eqn:En. revert s c fr bs e En.
  induction n as [|n IH]; intros s c fr bs e En H He.
  - destruct fr; [|discriminate]. destruct bs; [|discriminate]. cbn [app map panics_from].
    destruct (fpanics_loops _ _ _ _ H) as [[_ HL]|(k & b & r & ? & ? & ? & ? & Ebs & _)]; [|discriminate].
    unfold iflat_next. rewrite (loops_pos _ _ _ _ _ HL) by lia. reflexivity.
  - destruct fr as [|b fr].
    + destruct (fpanics_loops _ _ _ _ H) as [[-> _]|(k & b & r & s' & c' & bs' & e' & Ebs & Hk & Hee & HL & Hf)]; [discriminate|].
      subst bs. cbn [app map panics_from]. exists (FlatSt (Some s') c' r). split.
      * unfold iflat_next. rewrite (loops_pos _ _ _ _ _ HL) by lia. reflexivity.
      * eapply IH; [|exact Hf|lia]. cbn [app length] in En. lia.
    + cbn [app map panics_from]. exists (FlatSt (Some s) c fr). split.
      * unfold iflat_next. rewrite (loops_pos _ 0 _ (Ret (Some b, FlatSt (Some s) c fr))); [reflexivity| |lia].
        apply loops_stop. reflexivity.
      * eapply IH; [|exact H|exact He]. cbn [app length] in En. lia.
Qed.
End FlatPanic.

(** A source that gives [l] and then an item on which the closure panics. *)
Lemma iflat_panics {A B C} (f : C -> A -> outcome (list B * C)) c0 (it : Iter A) l a rest bs e :
  yields it (l ++ a :: rest) -> flat_ok f c0 l bs e -> (forall c, f c a = Panic) -> (Z.of_nat e < 2 ^ 64 - 1)%Z ->
  panics_after (iflat_map c0 f it) (map Some bs).
Proof.
  intros Hy Hf Ha He. apply panics_from_after. cbn [next cur iflat_map].
  change bs with ([] ++ bs). apply fpanics_next with (e := e); [|exact He]. clear He.
  unfold yields, behaves in Hy. change (behaves_from (next it) (cur it) (nth_error (l ++ a :: rest)))
    with (yields_from (next it) (cur it) (l ++ a :: rest)) in Hy.
  revert Hy. generalize (cur it) as s. induction Hf as [c|c b l1 c1 l bs e E Hf IH]; intros s Hy.
  - apply yields_cons_inv in Hy. destruct Hy as (s1 & E & _). eapply fp_closure; eauto.
  - apply yields_cons_inv in Hy. destruct Hy as (s1 & E1 & Hy). eapply fp_item; eauto.
Qed.

(** A source that itself panics after [l]. *)
Lemma iflat_source_panics {A B} (f : A -> list B) (it : Iter A) l :
  panics_after it (map Some l) -> (forall a, In a l -> f a <> []) ->
  panics_after (iflat_map tt (pure_fn f) it) (map Some (flat_map f l)).
Proof.
  intros Hp Hne. apply panics_from_after. apply panics_from_after in Hp. cbn [next cur iflat_map].
  change (flat_map f l) with ([] ++ flat_map f l). apply fpanics_next with (e := 0); [|reflexivity].
  revert Hp. generalize (cur it) as s. induction l as [|a l IH]; intros s Hp; cbn [map panics_from flat_map] in *.
  - apply fp_source. exact Hp.
  - destruct Hp as (s1 & E & Hp). replace 0 with (match f a with [] => 1 | _ => 0 end).
    + eapply fp_item; [exact E|reflexivity|]. apply IH; [|exact Hp]. intros b Hb. apply Hne. right. exact Hb.
    + destruct (f a) eqn:Ef; [|reflexivity]. exfalso. apply (Hne a); [left; reflexivity|exact Ef].
Qed.
