(** Property C83: the ROC table, Youden's J and the threshold of kom_py/lambdas.py. *)
From Coq Require Import List Arith ZArith Reals Bool Lia Lra Permutation Sorted.
From Verif Require Import Base Num LibModel LabModel.
Import ListNotations.
Local Open Scope R_scope.

(** ** The quantities meant *)

(** How many samples of class [y] lie at or above [t]. *)
Definition above (y : bool) (t : R) (l : list (R * bool)) : nat :=
  length (filter (fun s => Bool.eqb (snd s) y && if Rle_dec t (fst s) then true else false) l).
(** How many samples are of class [y]. *)
Definition class (y : bool) (l : list (R * bool)) : nat := length (filter (fun s => Bool.eqb (snd s) y) l).
(** True and false positive rate, and Youden's J, of the test "at or above t". *)
Definition tpr_at (l : list (R * bool)) (t : R) : R := INR (above true t l) / INR (class true l).
Definition fpr_at (l : list (R * bool)) (t : R) : R := INR (above false t l) / INR (class false l).
Definition J_at (l : list (R * bool)) (t : R) : R := tpr_at l t - fpr_at l t.

(** What is asked of the two sorts: the same rows, in order.  Equal keys may come in any order. *)
Definition sorts {A} (key : A -> R) (sort : list A -> list A) : Prop :=
  forall l, Permutation (sort l) l /\ StronglySorted (fun a b => key a <= key b) (sort l).
Definition sorts_desc {A} (key : A -> R) (sort : list A -> list A) : Prop :=
  forall l, Permutation (sort l) l /\ StronglySorted (fun a b => key b <= key a) (sort l).

(** ** Counting *)
Definition score (r : row R) : R * bool := (r_proba r, r_y r).

Lemma filter_perm {A} (f : A -> bool) l l' : Permutation l l' -> length (filter f l) = length (filter f l').
Proof.
  induction 1; cbn; try lia.
  - destruct (f x); cbn; lia.
  - destruct (f x), (f y); reflexivity.
Qed.
Lemma above_perm y t l l' : Permutation l l' -> above y t l = above y t l'.
Proof. apply filter_perm. Qed.
Lemma class_perm y l l' : Permutation l l' -> class y l = class y l'.
Proof. apply filter_perm. Qed.

Lemma above_cons y t s l : above y t (s :: l) = ((if Bool.eqb (snd s) y then if Rle_dec t (fst s) then 1 else 0 else 0) + above y t l)%nat.
Proof. unfold above. cbn. destruct (Bool.eqb (snd s) y), (Rle_dec t (fst s)); reflexivity. Qed.
Lemma class_cons y s l : class y (s :: l) = ((if Bool.eqb (snd s) y then 1 else 0) + class y l)%nat.
Proof. unfold class. cbn. destruct (Bool.eqb (snd s) y); reflexivity. Qed.
Lemma above_none y t l : (forall s, In s l -> fst s < t) -> above y t l = 0%nat.
Proof.
  induction l as [|s l IH]; intros Hs; [reflexivity|]. rewrite above_cons, IH by (intros s' Hs'; apply Hs; right; exact Hs').
  pose proof (Hs s (or_introl eq_refl)). destruct (Bool.eqb (snd s) y); [|reflexivity]. destruct (Rle_dec t (fst s)); [lra|reflexivity].
Qed.
Lemma above_ext y t t' l : (forall s, In s l -> t <= fst s <-> t' <= fst s) -> above y t l = above y t' l.
Proof.
  induction l as [|s l IH]; intros Hs; [reflexivity|]. rewrite !above_cons, IH by (intros s' Hs'; apply Hs; right; exact Hs').
  pose proof (Hs s (or_introl eq_refl)) as E. destruct (Bool.eqb (snd s) y); [|reflexivity].
  destruct (Rle_dec t (fst s)), (Rle_dec t' (fst s)); tauto.
Qed.
Lemma above_all y t l : (forall s, In s l -> t <= fst s) -> above y t l = class y l.
Proof.
  induction l as [|s l IH]; intros Hs; [reflexivity|]. rewrite above_cons, class_cons, IH by (intros s' Hs'; apply Hs; right; exact Hs').
  pose proof (Hs s (or_introl eq_refl)). destruct (Bool.eqb (snd s) y); [|reflexivity]. destruct (Rle_dec t (fst s)); [reflexivity|lra].
Qed.

(** ** The curve *)
Definition desc_le (a b : row R) : Prop := r_proba b <= r_proba a.

Lemma diff_zero (a b : R) : @neqb R NumR (@nsub R NumR a b) (nofZ 0) = if Req_EM_T a b then true else false.
Proof. cbn [neqb nsub nofZ NumR]. destruct (Req_EM_T (a - b) 0), (Req_EM_T a b); try reflexivity; lra. Qed.

Lemma clf_length l : StronglySorted desc_le l -> forall fp tp,
  length (clf_curve fp tp l) = length (nodup Req_EM_T (map r_proba l)).
Proof.
  induction 1 as [|a l Hs IH Ha]; intros fp tp; [reflexivity|]. cbn [clf_curve map nodup].
  destruct l as [|b l]; [reflexivity|]. rewrite diff_zero. destruct (Req_EM_T (r_proba b) (r_proba a)) as [E|E].
  - rewrite IH. destruct (in_dec Req_EM_T (r_proba a) (map r_proba (b :: l))) as [_|N]; [reflexivity|].
    exfalso. apply N. left. exact E.
  - cbn [length]. rewrite IH. destruct (in_dec Req_EM_T (r_proba a) (map r_proba (b :: l))) as [I|_]; [|reflexivity].
    exfalso. inversion_clear Ha as [|? ? Hab Hal]. unfold desc_le in Hab.
    apply in_map_iff in I. destruct I as (c & Ec & [->|Hc]); [congruence|].
    inversion_clear Hs as [|? ? Hs' Hb]. rewrite Forall_forall in Hb. pose proof (Hb c Hc) as Hbc. unfold desc_le in Hbc. lra.
Qed.

Lemma clf_last l d : l <> [] -> forall fp tp,
  last (clf_curve fp tp l) d = ((fp + class false (map score l))%nat, (tp + class true (map score l))%nat).
Proof.
  intros Hl. induction l as [|a l IH]; [congruence|]. intros fp tp. cbn [clf_curve map]. rewrite !class_cons.
  destruct l as [|b l].
  - cbn [last]. destruct (r_y a) eqn:E; cbn [score snd]; rewrite E; cbn; f_equal; lia.
  - assert (G : last (clf_curve (if r_y a then fp else S fp) (if r_y a then S tp else tp) (b :: l)) d =
       ((fp + ((if Bool.eqb (snd (score a)) false then 1 else 0) + class false (map score (b :: l))))%nat,
        (tp + ((if Bool.eqb (snd (score a)) true then 1 else 0) + class true (map score (b :: l))))%nat)).
    { rewrite IH by discriminate. destruct (r_y a) eqn:E; cbn [score snd]; rewrite E; cbn [Bool.eqb]; f_equal; lia. }
    destruct (neqb _ _); [exact G|].
    assert (N : clf_curve (if r_y a then fp else S fp) (if r_y a then S tp else tp) (b :: l) <> []).
    { intros E. rewrite E in G. assert (L : forall fp tp m, m <> [] -> @clf_curve R NumR fp tp m <> []).
      { clear. intros fp tp m. revert fp tp. induction m as [|x m IH]; intros fp tp Hm; [congruence|]. cbn [clf_curve].
        destruct m as [|y m]; [discriminate|]. destruct (neqb _ _); [apply IH; discriminate|discriminate]. }
      exact (L _ _ (b :: l) ltac:(discriminate) E). }
    destruct (clf_curve (if r_y a then fp else S fp) (if r_y a then S tp else tp) (b :: l)) as [|p q] eqn:E; [congruence|].
    cbn [last]. exact G.
Qed.

(** On distinct scores the curve has a point for every row: the counts at or above its score. *)
Lemma clf_strict l : StronglySorted desc_le l -> NoDup (map r_proba l) -> forall fp tp,
  clf_curve fp tp l = map (fun r => ((fp + above false (r_proba r) (map score l))%nat, (tp + above true (r_proba r) (map score l))%nat)) l.
Proof.
  induction 1 as [|a l Hs IH Ha]; intros Hn fp tp; [reflexivity|]. inversion_clear Hn as [|? ? Hna Hn']. specialize (IH Hn').
  rewrite Forall_forall in Ha.
  assert (Hlt : forall r, In r l -> r_proba r < r_proba a).
  { intros r Hr. pose proof (Ha r Hr) as H1. unfold desc_le in H1. destruct (Req_EM_T (r_proba r) (r_proba a)) as [E|]; [|lra].
    exfalso. apply Hna. rewrite <- E. apply in_map. exact Hr. }
  assert (Top : forall y, above y (r_proba a) (map score (a :: l)) = if Bool.eqb (r_y a) y then 1%nat else 0%nat).
  { intros y. cbn [map]. rewrite above_cons, above_none.
    - cbn [score fst snd]. destruct (Bool.eqb (r_y a) y); [|reflexivity]. destruct (Rle_dec (r_proba a) (r_proba a)); [reflexivity|lra].
    - intros s Hs'. apply in_map_iff in Hs'. destruct Hs' as (r & <- & Hr). apply Hlt, Hr. }
  assert (Rest : forall y r, In r l -> above y (r_proba r) (map score (a :: l)) = ((if Bool.eqb (r_y a) y then 1 else 0) + above y (r_proba r) (map score l))%nat).
  { intros y r Hr. cbn [map]. rewrite above_cons. cbn [score fst snd]. destruct (Bool.eqb (r_y a) y); [|reflexivity].
    destruct (Rle_dec (r_proba r) (r_proba a)); [reflexivity|]. pose proof (Hlt r Hr). lra. }
  assert (Head : ((if r_y a then fp else S fp), (if r_y a then S tp else tp)) =
                 ((fp + above false (r_proba a) (map score (a :: l)))%nat, (tp + above true (r_proba a) (map score (a :: l)))%nat)).
  { rewrite !Top. destruct (r_y a); cbn [Bool.eqb]; f_equal; lia. }
  assert (Tail : clf_curve (if r_y a then fp else S fp) (if r_y a then S tp else tp) l =
    map (fun r => ((fp + above false (r_proba r) (map score (a :: l)))%nat, (tp + above true (r_proba r) (map score (a :: l)))%nat)) l).
  { rewrite IH. apply map_ext_in. intros r Hr. rewrite !Rest by exact Hr. destruct (r_y a); cbn [Bool.eqb]; f_equal; lia. }
  cbn [clf_curve]. cbn [map] in Head, Tail |- *. rewrite <- Head, <- Tail. destruct l as [|b l]; [reflexivity|].
  rewrite diff_zero. destruct (Req_EM_T (r_proba b) (r_proba a)) as [E|E]; [|reflexivity].
  exfalso. pose proof (Hlt b (or_introl eq_refl)). lra.
Qed.

Lemma sorted_rev (l : list (row R)) : StronglySorted (fun a b => r_proba a <= r_proba b) l -> StronglySorted desc_le (rev l).
Proof.
  induction 1 as [|a l Hs IH Ha]; [constructor|]. cbn [rev].
  assert (App : forall m, StronglySorted desc_le m -> (forall r, In r m -> r_proba a <= r_proba r) -> StronglySorted desc_le (m ++ [a])).
  { clear. intros m. induction 1 as [|b m Hm IH Hb]; intros Hr; cbn [app]; [repeat constructor|]. constructor.
    - apply IH. intros r H. apply Hr. right. exact H.
    - apply Forall_app. split; [exact Hb|]. constructor; [|constructor]. apply Hr. left. reflexivity. }
  apply App; [exact IH|]. intros r Hr. apply in_rev in Hr. rewrite Forall_forall in Ha. apply Ha, Hr.
Qed.

Lemma map_rev' {A B} (f : A -> B) l : rev (map f l) = map f (rev l).
Proof. symmetry. apply map_rev. Qed.

Lemma combine_map {A B C} (f : A -> B) (g : A -> C) l : combine (map f l) (map g l) = map (fun a => (f a, g a)) l.
Proof. induction l as [|a l IH]; [reflexivity|]. cbn. rewrite IH. reflexivity. Qed.
Lemma combine_self {A B} (f : A -> B) l : combine l (map f l) = map (fun a => (a, f a)) l.
Proof. rewrite <- (map_id l) at 1. apply combine_map. Qed.

Lemma nodup_perm_length (l l' : list R) : Permutation l l' -> length (nodup Req_EM_T l) = length (nodup Req_EM_T l').
Proof.
  intros P. apply Permutation_length. apply NoDup_Permutation; [apply NoDup_nodup|apply NoDup_nodup|].
  intros x. rewrite !nodup_In. split; intros H; [apply (Permutation_in _ P H)|apply (Permutation_in _ (Permutation_sym P) H)].
Qed.

Section Table.
Variable test : list (R * bool) -> list (R * bool).
Variable proba : R -> R.
Variable sort : list (row R) -> list (row R).
Hypothesis Hsort : sorts r_proba sort.
Variables h0 h1 : list R.

(** The samples the table is about, and their scores. *)
Definition samples : list (R * bool) := test (map (fun x => (x, false)) h0 ++ map (fun x => (x, true)) h1).
Definition scored : list (R * bool) := map (fun s => (proba (fst s), snd s)) samples.
(** The number of different scores. *)
Definition distinct : nat := length (nodup Req_EM_T (map fst scored)).

Let df := map (fun '(x, y) => Row x y (proba x)) samples.

Lemma df_score : map score df = scored.
Proof. unfold df, scored. rewrite map_map. apply map_ext. intros [x y]. reflexivity. Qed.
Lemma df_proba : map r_proba df = map fst scored.
Proof. unfold df, scored. rewrite !map_map. apply map_ext. intros [x y]. reflexivity. Qed.
Lemma desc_perm : Permutation (rev (sort df)) df.
Proof. apply Permutation_trans with (sort df); [apply Permutation_sym, Permutation_rev|apply Hsort]. Qed.
Lemma desc_sorted : StronglySorted desc_le (rev (sort df)).
Proof. apply sorted_rev, Hsort. Qed.
Lemma curve_length : length (clf_curve 0 0 (rev (sort df))) = distinct.
Proof.
  rewrite (clf_length _ desc_sorted). unfold distinct. rewrite <- df_proba. apply nodup_perm_length, Permutation_map, desc_perm.
Qed.
Lemma df_length : length (sort df) = length samples.
Proof. rewrite (Permutation_length (proj1 (Hsort df))). unfold df. apply map_length. Qed.

Lemma curve_pairs : exists P N : nat, roc_curve (rev (sort df)) =
   (map (fun p => INR (fst p) / INR N) ((0, 0)%nat :: clf_curve 0 0 (rev (sort df))),
    map (fun p => INR (snd p) / INR P) ((0, 0)%nat :: clf_curve 0 0 (rev (sort df)))) /\
   (samples <> [] -> P = class true samples /\ N = class false samples).
Proof.
  unfold roc_curve. destruct (last _ _) as [fp tp] eqn:E. exists tp, fp. split.
  - f_equal; apply map_ext; intros p; unfold nofnat; cbn [ndiv nofZ NumR]; rewrite <- !INR_IZR_INZ; reflexivity.
  - intros Hs. assert (Hd : rev (sort df) <> []).
    { intros E0. apply Hs. apply length_zero_iff_nil. rewrite <- df_length, <- rev_length, E0. reflexivity. }
    pose proof (clf_last (rev (sort df)) (0, 0)%nat Hd 0%nat 0%nat) as L.
    assert (Hne : clf_curve 0 0 (rev (sort df)) <> []).
    { intros E0. assert (distinct = 0%nat) as D0 by (rewrite <- curve_length, E0; reflexivity). unfold distinct in D0.
      apply length_zero_iff_nil in D0. destruct (map fst scored) as [|v vs] eqn:Ev.
      - unfold scored in Ev. rewrite map_map in Ev. apply map_eq_nil in Ev. contradiction.
      - assert (I : In v (nodup Req_EM_T (v :: vs))) by (apply nodup_In; left; reflexivity). rewrite D0 in I. destruct I. }
    destruct (clf_curve 0 0 (rev (sort df))) as [|p q]; [congruence|]. cbn [last] in E. cbn [last] in L. rewrite E in L.
    injection L as -> ->. cbn [Nat.add].
    assert (C : forall y, class y (map score (rev (sort df))) = class y samples).
    { intros y. rewrite (class_perm y _ (map score df)) by apply Permutation_map, desc_perm. rewrite df_score. unfold scored, class.
      clear. induction samples as [|s l IH]; [reflexivity|]. cbn. destruct (Bool.eqb (snd s) y); cbn; rewrite IH; reflexivity. }
    split; apply C.
Qed.

(** The call returns a table exactly when the curve's length fits: every score different, or, where
    the number of H0 samples is that of the table, exactly one pair of equal scores.  Otherwise
    pandas raises. *)
Theorem C83_returns :
  let n := length samples in
  if ((distinct + 1 =? length h0) && (distinct + 1 =? n) || negb (distinct + 1 =? length h0) && (distinct =? n))%nat%bool
  then exists lr, log_regress test proba sort h0 h1 = Ret lr /\ map f_row lr = sort df
  else log_regress test proba sort h0 h1 = Panic.
Proof.
  cbv zeta. unfold log_regress. fold samples. change (map (fun '(x, y) => {| r_x := x; r_y := y; r_proba := proba x |}) samples) with df.
  destruct curve_pairs as (P & N & -> & _). unfold column_of. rewrite df_length. set (pts := clf_curve 0 0 (rev (sort df))).
  assert (Lp : length pts = distinct) by apply curve_length. cbn [map tl]. cbn [length]. rewrite !map_length, Lp.
  replace (distinct + 1)%nat with (S distinct) by lia.
  destruct (Nat.eqb_spec (S distinct) (length h0)) as [E|E]; cbn [andb orb negb].
  - rewrite !rev_length. cbn [length]. rewrite !map_length, Lp. destruct (Nat.eqb_spec (S distinct) (length samples)) as [E2|E2]; cbn [orb assert_then bind]; [|reflexivity].
    eexists. split; [reflexivity|]. rewrite map_map.
    match goal with |- map _ (combine ?a ?b) = _ => assert (L : length b = length a) end.
    { rewrite combine_length, !rev_length. cbn [length]. rewrite !map_length, Lp, df_length. lia. }
    revert L. generalize (combine (rev (INR (snd (0%nat, 0%nat)) / INR P :: map (fun p => INR (snd p) / INR P) pts)) (rev (INR (fst (0%nat, 0%nat)) / INR N :: map (fun p => INR (fst p) / INR N) pts))) as q.
    generalize (sort df) as a. clear. induction a as [|r a IH]; intros q L; [reflexivity|]. destruct q as [|[t f] q]; [discriminate L|]. cbn. f_equal. apply IH. cbn in L. lia.
  - rewrite !rev_length, !map_length, Lp. destruct (Nat.eqb_spec distinct (length samples)) as [E2|E2]; cbn [assert_then bind]; [|reflexivity].
    eexists. split; [reflexivity|]. rewrite map_map.
    match goal with |- map _ (combine ?a ?b) = _ => assert (L : length b = length a) end.
    { rewrite combine_length, !rev_length, !map_length, Lp, df_length. lia. }
    revert L. generalize (combine (rev (map (fun p => INR (snd p) / INR P) pts)) (rev (map (fun p => INR (fst p) / INR N) pts))) as q.
    generalize (sort df) as a. clear. induction a as [|r a IH]; intros q L; [reflexivity|]. destruct q as [|[t f] q]; [discriminate L|]. cbn. f_equal. apply IH. cbn in L. lia.
Qed.

(** All scores different: the rows are the samples in order of score, and the columns are the rates
    of the test at each row's own score. *)
Lemma table_strict : NoDup (map fst scored) -> length h0 <> S (length samples) ->
  log_regress test proba sort h0 h1 =
  Ret (map (fun r => FullRow r (tpr_at scored (r_proba r)) (fpr_at scored (r_proba r)) (J_at scored (r_proba r))) (sort df)).
Proof.
  intros Hn Hl. unfold log_regress. fold samples. change (map (fun '(x, y) => {| r_x := x; r_y := y; r_proba := proba x |}) samples) with df.
  destruct curve_pairs as (P & N & -> & HPN). unfold column_of. rewrite df_length.
  assert (Hd : distinct = length samples).
  { unfold distinct. rewrite nodup_fixed_point by exact Hn. unfold scored. rewrite !map_length. reflexivity. }
  assert (Hnd : NoDup (map r_proba (rev (sort df)))).
  { apply (Permutation_NoDup (l := map r_proba df)); [apply Permutation_map, Permutation_sym, desc_perm|]. rewrite df_proba. exact Hn. }
  cbn [map tl]. cbn [length]. rewrite !map_length, curve_length, Hd.
  destruct (Nat.eqb_spec (S (length samples)) (length h0)) as [E|_]; [congruence|].
  rewrite !rev_length, !map_length, curve_length, Hd, Nat.eqb_refl. cbn [assert_then bind]. f_equal.
  rewrite (clf_strict _ desc_sorted Hnd), !map_map, !map_rev', rev_involutive.
  rewrite combine_map, combine_self, map_map. apply map_ext_in. intros r Hr. cbn [fst snd Nat.add].
  assert (Hs : samples <> []). { intros E. pose proof df_length as L. rewrite E in L. destruct (sort df); [destruct Hr|discriminate L]. }
  destruct (HPN Hs) as [-> ->].
  assert (A : forall y t, above y t (map score (rev (sort df))) = above y t scored).
  { intros y t. rewrite <- df_score. apply above_perm, Permutation_map, desc_perm. }
  assert (C : forall y, class y scored = class y samples).
  { intros y. unfold scored, class. clear. induction samples as [|s l IH]; [reflexivity|]. cbn. destruct (Bool.eqb (snd s) y); cbn; rewrite IH; reflexivity. }
  rewrite !A. unfold J_at, tpr_at, fpr_at. rewrite !C. reflexivity.
Qed.

Theorem C83_table lr : NoDup (map fst scored) -> length h0 = length samples -> log_regress test proba sort h0 h1 = Ret lr ->
  Permutation (map (fun r => (r_x (f_row r), r_y (f_row r))) lr) samples /\
  forall r, In r lr -> f_tpr r = tpr_at scored (r_proba (f_row r)) /\ f_fpr r = fpr_at scored (r_proba (f_row r)) /\
                       f_j r = J_at scored (r_proba (f_row r)) /\ r_proba (f_row r) = proba (r_x (f_row r)).
Proof.
  intros Hn Hl E. rewrite table_strict in E by (auto; lia). injection E as <-. split.
  - rewrite map_map. cbn [f_row]. apply Permutation_trans with (map (fun r => (r_x r, r_y r)) df); [apply Permutation_map, Hsort|].
    unfold df. rewrite map_map. rewrite <- (map_id samples) at 2. replace (map _ samples) with (map (fun s : R * bool => s) samples); [reflexivity|].
    apply map_ext. intros [x y]. reflexivity.
  - intros r Hr. apply in_map_iff in Hr. destruct Hr as (r0 & <- & Hr). cbn. repeat split.
    apply (Permutation_in _ (proj1 (Hsort df))) in Hr. unfold df in Hr. apply in_map_iff in Hr. destruct Hr as ([x y] & <- & _). reflexivity.
Qed.

(** One pair of equal scores, with as many rows as H0 samples: the branch of lambdas.py:103 keeps the
    curve's origin, so every row gets the rates of the next higher score; the row with the highest
    score gets 0 and 0, though the test at its own score answers yes to at least that row. *)
Theorem C83_tie_shifts : (distinct + 1)%nat = length samples -> length h0 = length samples -> 
  exists lr r, log_regress test proba sort h0 h1 = Ret (lr ++ [r]) /\
    (forall s, In s scored -> fst s <= r_proba (f_row r)) /\
    f_tpr r = 0 /\ f_fpr r = 0 /\ (0 < tpr_at scored (r_proba (f_row r)) \/ 0 < fpr_at scored (r_proba (f_row r))).
Proof.
  intros Hd Hl. unfold log_regress. fold samples. change (map (fun '(x, y) => {| r_x := x; r_y := y; r_proba := proba x |}) samples) with df.
  destruct curve_pairs as (P & N & -> & HPN). unfold column_of. rewrite df_length.
  set (pts := clf_curve 0 0 (rev (sort df))). assert (Lp : length pts = distinct) by apply curve_length.
  cbn [map]. cbn [length]. rewrite !map_length, Lp. replace (S distinct) with (length samples) by lia. rewrite Hl, Nat.eqb_refl, !rev_length.
  cbn [length]. rewrite !map_length, Lp. replace (S distinct) with (length samples) by lia. rewrite Nat.eqb_refl. cbn [assert_then bind rev].
  destruct (@exists_last _ (sort df)) as (asc & top & Etop).
  { intros E. pose proof df_length as L. rewrite E in L. cbn in L. lia. }
  rewrite Etop. set (T := rev (map (fun p => INR (snd p) / INR P) pts)). set (F := rev (map (fun p => INR (fst p) / INR N) pts)).
  assert (La : length asc = distinct). { pose proof df_length as L. rewrite Etop, app_length in L. cbn in L. lia. }
  assert (LT : length T = distinct) by (unfold T; rewrite rev_length, map_length; exact Lp).
  assert (LF : length F = distinct) by (unfold F; rewrite rev_length, map_length; exact Lp).
  assert (Capp : forall {A B} (a : list A) (b : list B) x y, length a = length b -> combine (a ++ [x]) (b ++ [y]) = combine a b ++ [(x, y)]).
  { clear. intros A B a. induction a as [|u a IH]; intros [|v b] x y L; try discriminate L; [reflexivity|]. cbn. f_equal. apply IH. cbn in L. lia. }
  rewrite Capp by (rewrite LT, LF; reflexivity). rewrite Capp by (rewrite combine_length, LT, LF, La; lia). rewrite map_app. cbn [map].
  eexists. eexists. split; [reflexivity|]. cbn [f_row f_tpr f_fpr fst snd INR].
  assert (Htop : forall s, In s scored -> fst s <= r_proba top).
  { intros s Hs. rewrite <- df_score in Hs. apply in_map_iff in Hs. destruct Hs as (r & <- & Hr). cbn [score fst].
    apply (Permutation_in _ (Permutation_sym (proj1 (Hsort df)))) in Hr. pose proof (proj2 (Hsort df)) as Ss. rewrite Etop in Hr, Ss.
    apply in_app_or in Hr. destruct Hr as [Hr|[<-|[]]]; [|lra]. revert Ss Hr. clear. induction asc as [|b asc IH]; intros Ss Hr; [destruct Hr|].
    inversion_clear Ss as [|? ? Ss' Hb]. destruct Hr as [->|Hr]; [|apply IH; assumption]. rewrite Forall_forall in Hb. apply Hb, in_or_app. right. left. reflexivity. }
  split; [exact Htop|]. split; [unfold Rdiv; ring|]. split; [unfold Rdiv; ring|].
  assert (Hin : In (score top) scored).
  { rewrite <- df_score. apply in_map. apply (Permutation_in _ (proj1 (Hsort df))). rewrite Etop. apply in_or_app. right. left. reflexivity. }
  assert (G : forall y, r_y top = y -> (0 < above y (r_proba top) scored)%nat /\ (0 < class y scored)%nat).
  { intros y Ey. revert Hin. clear -Ey. induction scored as [|s l IH]; intros Hin; [destruct Hin|]. rewrite above_cons, class_cons. destruct Hin as [->|Hin].
    - cbn [score fst snd]. rewrite Ey, eqb_reflx. destruct (Rle_dec _ _); [lia|lra].
    - destruct (IH Hin). lia. }
  destruct (r_y top) eqn:Ey.
  - left. destruct (G true eq_refl) as [A C]. unfold tpr_at. apply Rdiv_lt_0_compat; apply lt_0_INR; assumption.
  - right. destruct (G false eq_refl) as [A C]. unfold fpr_at. apply Rdiv_lt_0_compat; apply lt_0_INR; assumption.
Qed.

End Table.

(** ** What the columns are for *)

Definition cntf (y : bool) (f : R * bool -> bool) (l : list (R * bool)) : nat := length (filter (fun s => Bool.eqb (snd s) y && f s) l).
Definition Jset (f : R * bool -> bool) (l : list (R * bool)) : R :=
  INR (cntf true f l) / INR (class true l) - INR (cntf false f l) / INR (class false l).

Lemma cntf_ext y f g l : (forall s, In s l -> f s = g s) -> cntf y f l = cntf y g l.
Proof.
  unfold cntf. induction l as [|s l IH]; intros E; [reflexivity|]. cbn. rewrite (E s (or_introl eq_refl)).
  specialize (IH (fun s' H => E s' (or_intror H))). destruct (Bool.eqb (snd s) y && g s); cbn; rewrite IH; reflexivity.
Qed.
Lemma Jset_ext f g l : (forall s, In s l -> f s = g s) -> Jset f l = Jset g l.
Proof. intros E. unfold Jset. rewrite !(cntf_ext _ f g l E). reflexivity. Qed.
Lemma cntf_compl y f l : (cntf y f l + cntf y (fun s => negb (f s)) l = class y l)%nat.
Proof. unfold cntf, class. induction l as [|s l IH]; [reflexivity|]. cbn. destruct (Bool.eqb (snd s) y), (f s); cbn; lia. Qed.
Lemma Jset_compl f l : (0 < class true l)%nat -> (0 < class false l)%nat -> Jset (fun s => negb (f s)) l = - Jset f l.
Proof.
  intros HP HN. unfold Jset. pose proof (f_equal INR (cntf_compl true f l)) as A. pose proof (f_equal INR (cntf_compl false f l)) as B.
  rewrite plus_INR in A, B. apply lt_0_INR in HP. apply lt_0_INR in HN.
  replace (INR (cntf true (fun s => negb (f s)) l)) with (INR (class true l) - INR (cntf true f l)) by lra.
  replace (INR (cntf false (fun s => negb (f s)) l)) with (INR (class false l) - INR (cntf false f l)) by lra.
  field. lra.
Qed.
Lemma Jset_empty f l : (forall s, In s l -> f s = false) -> Jset f l = 0.
Proof.
  intros E. rewrite (Jset_ext f (fun _ => false) l E). unfold Jset. assert (Z : forall y, cntf y (fun _ => false) l = 0%nat).
  { intros y. unfold cntf. clear. induction l as [|s l IH]; [reflexivity|]. cbn. rewrite andb_false_r. exact IH. }
  rewrite !Z. cbn [INR]. unfold Rdiv. ring.
Qed.

Definition at_least (k : R * bool -> R) (t : R) (s : R * bool) : bool := if Rle_dec t (k s) then true else false.
Lemma at_least_true k t s : at_least k t s = true <-> t <= k s.
Proof. unfold at_least. destruct (Rle_dec _ _); split; (congruence || tauto). Qed.
Lemma bool_iff a b : (a = true <-> b = true) -> a = b.
Proof. destruct a, b; intros [H1 H2]; try reflexivity; [symmetry; apply H1|apply H2]; reflexivity. Qed.

Lemma J_at_set l t : J_at l t = Jset (at_least fst t) l.
Proof. reflexivity. Qed.

Lemma upclosed (k : R * bool -> R) (f : R * bool -> bool) l :
  (forall s s', In s l -> In s' l -> f s = true -> k s <= k s' -> f s' = true) ->
  (forall s, In s l -> f s = false) \/ exists s0, In s0 l /\ forall s, In s l -> f s = at_least k (k s0) s.
Proof.
  intros Up. assert (M : (forall s, In s l -> f s = false) \/ exists s0, In s0 l /\ f s0 = true /\ forall s, In s l -> f s = true -> k s0 <= k s).
  { clear Up. induction l as [|a l IH]; [left; intros s []|]. destruct IH as [IH|(s0 & I0 & F0 & M0)].
    - destruct (f a) eqn:Fa; [right|left; intros s [<-|Hs]; auto]. exists a. split; [left; reflexivity|]. split; [exact Fa|].
      intros s [<-|Hs] Fs; [lra|]. rewrite IH in Fs by exact Hs. discriminate.
    - right. destruct (f a) eqn:Fa.
      + destruct (Rle_lt_dec (k s0) (k a)) as [L|L].
        * exists s0. split; [right; exact I0|]. split; [exact F0|]. intros s [<-|Hs] Fs; [exact L|apply M0; assumption].
        * exists a. split; [left; reflexivity|]. split; [exact Fa|]. intros s [<-|Hs] Fs; [lra|]. pose proof (M0 s Hs Fs). lra.
      + exists s0. split; [right; exact I0|]. split; [exact F0|]. intros s [<-|Hs] Fs; [congruence|apply M0; assumption]. }
  destruct M as [M|(s0 & I0 & F0 & M0)]; [left; exact M|right]. exists s0. split; [exact I0|]. intros s Hs. apply bool_iff. rewrite at_least_true. split.
  - intros Fs. apply M0; assumption.
  - intros L. apply (Up s0 s); assumption.
Qed.

Lemma fold_max (l : list R) : forall a, let m := fold_left (fun m x => if @nltb R NumR m x then x else m) l a in
  In m (a :: l) /\ forall x, In x (a :: l) -> x <= m.
Proof.
  induction l as [|b l IH]; intros a; cbn [fold_left].
  - split; [left; reflexivity|]. intros x [<-|[]]. lra.
  - set (a' := if nltb a b then b else a). destruct (IH a') as [I M]. split.
    + destruct I as [E|I]; [|right; right; exact I]. rewrite <- E. unfold a'. cbn [nltb NumR]. destruct (Rlt_dec a b); [right; left|left]; reflexivity.
    + assert (A : a <= a' /\ b <= a') by (unfold a'; cbn [nltb NumR]; destruct (Rlt_dec a b); lra).
      pose proof (M a' (or_introl eq_refl)). intros x [<-|[<-|Hx]]; [lra|lra|]. apply M. right. exact Hx.
Qed.

Section Use.
Variable test : list (R * bool) -> list (R * bool).
Variable proba : R -> R.
Variable sort : list (row R) -> list (row R).
Hypothesis Hsort : sorts r_proba sort.
Variables h0 h1 : list R.
Let l := samples test h0 h1.
Hypothesis Hsize : length h0 = length l.
Hypothesis Hdiff : NoDup (map fst l).
Hypothesis Hpos : (0 < class true l)%nat.
Hypothesis Hneg : (0 < class false l)%nat.

Let k (s : R * bool) : R := proba (fst s).

Lemma J_scored t : J_at (scored test proba h0 h1) t = Jset (at_least k t) l.
Proof.
  unfold J_at, tpr_at, fpr_at, Jset, scored. fold l.
  assert (A : forall y m, above y t (map (fun s => (proba (fst s), snd s)) m) = cntf y (at_least k t) m).
  { intros y m. induction m as [|s m IH]; [reflexivity|]. cbn [map]. rewrite above_cons. unfold cntf, at_least, k in *. cbn. 
    destruct (Bool.eqb (snd s) y), (Rle_dec t (proba (fst s))); cbn; rewrite IH; reflexivity. }
  assert (C : forall y m, class y (map (fun s => (proba (fst s), snd s)) m) = class y m).
  { intros y m. unfold class. induction m as [|s m IH]; [reflexivity|]. cbn. destruct (Bool.eqb (snd s) y); cbn; rewrite IH; reflexivity. }
  rewrite !A, !C. reflexivity.
Qed.

Lemma table_rows (Hinj : forall a b, In a l -> In b l -> k a = k b -> fst a = fst b) :
  exists lr, log_regress test proba sort h0 h1 = Ret lr /\
    (forall r, In r lr -> exists s, In s l /\ r_x (f_row r) = fst s /\ f_j r = Jset (at_least k (k s)) l) /\
    (forall s, In s l -> exists r, In r lr /\ r_x (f_row r) = fst s /\ f_j r = Jset (at_least k (k s)) l).
Proof.
  assert (Hn : NoDup (map fst (scored test proba h0 h1))).
  { unfold scored. fold l. rewrite map_map. cbn [fst]. revert Hdiff Hinj. clear. unfold k. induction l as [|s m IH]; intros Hd Hi; [constructor|].
    cbn [map] in *. inversion_clear Hd as [|? ? Hs Hd']. constructor.
    - intros I. apply in_map_iff in I. destruct I as (s' & E & I). apply Hs. apply in_map_iff. exists s'. split; [|exact I]. apply Hi; [right; exact I|left; reflexivity|exact E].
    - apply IH; [exact Hd'|]. intros a b Ia Ib. apply Hi; right; assumption. }
  eexists. split; [apply (table_strict test proba sort Hsort h0 h1 Hn); rewrite Hsize; unfold l; lia|].
  set (df := map (fun '(x, y) => Row x y (proba x)) (samples test h0 h1)). split.
  - intros r Hr. apply in_map_iff in Hr. destruct Hr as (r0 & <- & Hr). cbn [f_row f_j].
    apply (Permutation_in _ (proj1 (Hsort df))) in Hr. unfold df in Hr. apply in_map_iff in Hr. destruct Hr as ([x y] & <- & Hs). cbn [r_x r_proba].
    exists (x, y). split; [exact Hs|]. split; [reflexivity|]. apply J_scored.
  - intros [x y] Hs. eexists. split.
    + apply in_map_iff. exists (Row x y (proba x)). split; [reflexivity|]. apply (Permutation_in _ (Permutation_sym (proj1 (Hsort df)))).
      unfold df. apply in_map_iff. exists (x, y). split; [reflexivity|exact Hs].
    + cbn [f_row r_x f_j r_proba]. split; [reflexivity|]. apply J_scored.
Qed.

Lemma l_some : exists s, In s l.
Proof.
  assert (G : forall m, (0 < class true m)%nat -> exists s, In s m) by (intros [|s m] P; [cbn in P; lia|exists s; left; reflexivity]).
  apply G, Hpos.
Qed.

(** The lowest sample's J is 0: everything is at or above it. *)
Lemma J_lowest (g : R * bool -> R) : exists s, In s l /\ Jset (at_least g (g s)) l = 0.
Proof.
  destruct (upclosed g (fun _ => true) l) as [E|(s0 & I0 & E)]; [reflexivity| |].
  - exfalso. destruct l_some as [s Is]. discriminate (E s Is).
  - exists s0. split; [exact I0|]. rewrite <- (Jset_ext (fun _ => true) (at_least g (g s0)) l E).
    assert (Z : - Jset (fun _ => true) l = 0); [|lra]. rewrite <- (Jset_compl (fun _ => true) l Hpos Hneg). apply Jset_empty. reflexivity.
Qed.

(** Where a higher statistic means a higher probability, the threshold the script reports is a
    sample that maximises Youden's J over every threshold whatsoever. *)
Theorem C83_best (sort_j : list (full_row R) -> list (full_row R)) : sorts_desc f_j sort_j -> (forall a b, a < b -> proba a < proba b) ->
  exists lr c, log_regress test proba sort h0 h1 = Ret lr /\ best_threshold sort_j lr = Ret c /\
    In c (map fst l) /\ forall t, J_at l t <= J_at l c.
Proof.
  intros Hj Hinc. assert (Hle : forall a b, proba a <= proba b <-> a <= b).
  { intros a b. destruct (Rtotal_order a b) as [L|[->|L]]; [|lra|]; apply Hinc in L as L'; split; lra. }
  destruct table_rows as (lr & E & R1 & R2).
  { unfold k. intros a b _ _ Eab. apply Rle_antisym; apply Hle; lra. }
  exists lr. unfold best_threshold. destruct (Hj lr) as [Pj Sj]. destruct (sort_j lr) as [|r rest] eqn:Ej.
  - exfalso. destruct l_some as [s Is]. destruct (R2 s Is) as (r & Hr & _).
    apply (Permutation_in _ (Permutation_sym Pj)) in Hr. destruct Hr.
  - exists (r_x (f_row r)). split; [exact E|]. split; [reflexivity|].
    assert (Hr : In r lr) by (apply (Permutation_in _ Pj); left; reflexivity).
    assert (Max : forall r', In r' lr -> f_j r' <= f_j r).
    { intros r' Hr'. apply (Permutation_in _ (Permutation_sym Pj)) in Hr'. destruct Hr' as [<-|Hr']; [lra|].
      inversion_clear Sj as [|? ? _ F]. rewrite Forall_forall in F. apply F, Hr'. }
    assert (Same : forall s, Jset (at_least k (k s)) l = J_at l (fst s)).
    { intros s. rewrite J_at_set. apply Jset_ext. intros s' _. apply bool_iff. rewrite !at_least_true. apply Hle. }
    destruct (R1 r Hr) as (s & Is & Ex & Ev). split; [rewrite Ex; apply in_map, Is|]. intros t. rewrite Ex, <- Same, <- Ev.
    destruct (upclosed fst (at_least fst t) l) as [Z|(s0 & I0 & Z)].
    + intros a b _ _. rewrite !at_least_true. lra.
    + rewrite J_at_set, Jset_empty by exact Z. destruct (J_lowest k) as (s1 & I1 & Z1). destruct (R2 s1 I1) as (r1 & Hr1 & _ & V1).
      rewrite <- Z1, <- V1. apply Max, Hr1.
    + destruct (R2 s0 I0) as (r0 & Hr0 & _ & V0). replace (J_at l t) with (f_j r0); [apply Max, Hr0|]. rewrite V0, Same, !J_at_set.
      apply Jset_ext. intros s' Hs'. symmetry. apply Z, Hs'.
Qed.

(** The number the script plots is the largest difference of the two rates over every threshold, in
    absolute value, whether the fitted probability rises or falls with the statistic. *)
Theorem C83_youden : (forall a b, a < b -> proba a < proba b) \/ (forall a b, a < b -> proba b < proba a) ->
  exists lr v, log_regress test proba sort h0 h1 = Ret lr /\ youden_j lr = Ret v /\
    (forall t, Rabs (J_at l t) <= v) /\ exists t, Rabs (J_at l t) = v.
Proof.
  intros Hmono. destruct table_rows as (lr & E & R1 & R2).
  { unfold k. intros a b _ _ Eab. destruct (Rtotal_order (fst a) (fst b)) as [L|[L|L]]; [exfalso|exact L|exfalso]; destruct Hmono as [M|M]; apply M in L; lra. }
  exists lr. unfold youden_j. destruct lr as [|r1 lr'] eqn:El.
  { exfalso. destruct l_some as [s Is]. destruct (R2 s Is) as (r & [] & _). }
  rewrite <- El in *. assert (Em : map (fun r => @nabs R NumR (f_j r)) lr = Rabs (f_j r1) :: map (fun r => Rabs (f_j r)) lr') by (rewrite El; reflexivity).
  rewrite Em. eexists. split; [exact E|]. split; [reflexivity|].
  destruct (fold_max (map (fun r => Rabs (f_j r)) lr') (Rabs (f_j r1))) as [I M]. set (v := fold_left _ _ _) in *.
  change (Rabs (f_j r1) :: map (fun r => Rabs (f_j r)) lr') with (map (fun r => Rabs (f_j r)) (r1 :: lr')) in I, M. rewrite <- El in I, M.
  assert (Mx : forall s, In s l -> Rabs (Jset (at_least k (k s)) l) <= v).
  { intros s Hs. destruct (R2 s Hs) as (r & Hr & _ & <-). apply M. apply in_map_iff. exists r. auto. }
  assert (V0 : 0 <= v). { destruct (J_lowest k) as (s & Is & Z). rewrite <- Rabs_R0, <- Z. apply Mx, Is. }
  assert (Up : forall f, (forall s s', In s l -> In s' l -> f s = true -> k s <= k s' -> f s' = true) -> Rabs (Jset f l) <= v).
  { intros f Hf. destruct (upclosed k f l Hf) as [Z|(s0 & I0 & Z)].
    - rewrite Jset_empty by exact Z. rewrite Rabs_R0. exact V0.
    - rewrite (Jset_ext _ _ l Z). apply Mx, I0. }
  apply in_map_iff in I. destruct I as (r & Ev & Hr). destruct (R1 r Hr) as (s & Is & _ & Js). rewrite Js in Ev.
  destruct Hmono as [Hm|Hm].
  - assert (Hle : forall a b, proba a <= proba b <-> a <= b).
    { intros a b. destruct (Rtotal_order a b) as [L|[->|L]]; [|lra|]; apply Hm in L as L'; split; lra. }
    split.
    + intros t. rewrite J_at_set. apply Up. unfold k. intros a b _ _. rewrite !at_least_true, Hle. lra.
    + exists (fst s). rewrite <- Ev, J_at_set. f_equal. apply Jset_ext. intros s' _. apply bool_iff. rewrite !at_least_true. unfold k. rewrite Hle. tauto.
  - assert (Hle : forall a b, proba a <= proba b <-> b <= a).
    { intros a b. destruct (Rtotal_order a b) as [L|[->|L]]; [|lra|]; apply Hm in L as L'; split; lra. }
    split.
    + intros t. rewrite J_at_set, <- Rabs_Ropp, <- (Jset_compl _ l Hpos Hneg). apply Up. unfold k. intros a b _ _ Fa. rewrite Hle. intros L.
      apply negb_true_iff in Fa. apply negb_true_iff. destruct (at_least fst t b) eqn:B; [|reflexivity]. apply at_least_true in B.
      rewrite (proj2 (at_least_true fst t a)) in Fa by lra. discriminate.
    + rewrite <- Ev, <- Rabs_Ropp, <- (Jset_compl _ l Hpos Hneg).
      destruct (upclosed fst (fun s' => negb (at_least k (k s) s')) l) as [Z|(s1 & I1 & Z)].
      * intros a b _ _ Fa L. apply negb_true_iff in Fa. apply negb_true_iff. destruct (at_least k (k s) b) eqn:B; [|reflexivity].
        apply at_least_true in B. unfold k in B. rewrite Hle in B. rewrite (proj2 (at_least_true k (k s) a)) in Fa; [discriminate|]. unfold k. rewrite Hle. lra.
      * exists (fst s + 1). rewrite (Jset_empty _ l Z), J_at_set, Jset_empty; [reflexivity|]. intros s' Hs'.
        pose proof (Z s' Hs') as B. apply negb_false_iff, at_least_true in B. unfold k in B. rewrite Hle in B.
        destruct (at_least fst (fst s + 1) s') eqn:C; [|reflexivity]. apply at_least_true in C. lra.
      * exists (fst s1). rewrite J_at_set. f_equal. apply Jset_ext. intros s' Hs'. symmetry. apply Z, Hs'.
Qed.

End Use.

(** ** Cases *)

(** Sorts as asked for exist. *)
Fixpoint insert {A} (key : A -> R) (a : A) (l : list A) : list A :=
  match l with
  | [] => [a]
  | b :: r => if Rle_dec (key a) (key b) then a :: l else b :: insert key a r
  end.
Fixpoint isort {A} (key : A -> R) (l : list A) : list A :=
  match l with [] => [] | a :: r => insert key a (isort key r) end.

Lemma insert_perm {A} (key : A -> R) a l : Permutation (insert key a l) (a :: l).
Proof.
  induction l as [|b l IH]; [reflexivity|]. cbn. destruct (Rle_dec _ _); [reflexivity|].
  apply Permutation_trans with (b :: a :: l); [constructor; exact IH|constructor].
Qed.
Lemma isort_sorts {A} (key : A -> R) : sorts key (isort key).
Proof.
  intros l. induction l as [|a l [P S]]; [split; constructor|]. cbn [isort]. split.
  - apply Permutation_trans with (1 := insert_perm key a (isort key l)). constructor. exact P.
  - clear P. induction S as [|b m S IH Hb]; [repeat constructor|]. cbn. destruct (Rle_dec (key a) (key b)) as [L|L].
    + constructor; [constructor; assumption|]. constructor; [exact L|]. rewrite Forall_forall in *. intros x Hx. specialize (Hb x Hx). cbv beta in *. lra.
    + constructor; [exact IH|]. rewrite Forall_forall in *. intros x Hx. apply (Permutation_in _ (insert_perm key a m)) in Hx.
      destruct Hx as [<-|Hx]; [lra|apply Hb, Hx].
Qed.
Lemma isort_sorts_desc {A} (key : A -> R) : sorts_desc key (isort (fun a => - key a)).
Proof.
  intros l. destruct (isort_sorts (fun a => - key a) l) as [P S]. split; [exact P|]. revert S. generalize (isort (fun a => - key a) l) as m. clear. intros m S.
  induction S as [|a m S IH H]; constructor; [exact IH|]. revert H. apply Forall_impl. intros b H. lra.
Qed.

(** Test samples 5 (noise), 5 and 7 (signal), from three H0 and three H1 values: one pair of equal
    scores.  The script reports J = 1/2 at the threshold 5, where J is 0; the best threshold is 7. *)
Definition tie_test (_ : list (R * bool)) : list (R * bool) := [(5, false); (5, true); (7, true)].
Theorem C83_tie_refuted : exists test h0 h1 lr c,
  log_regress test (fun x => x) (isort r_proba) h0 h1 = Ret lr /\ length h0 = length h1 /\ length h0 = length (samples test h0 h1) /\
  best_threshold (isort (fun r => - f_j r)) lr = Ret c /\ J_at (samples test h0 h1) c < J_at (samples test h0 h1) 7.
Proof.
  exists tie_test, [5; 1; 2], [5; 7; 9]. unfold log_regress. cbn [tie_test].
  change (tie_test _) with [(5, false); (5, true); (7, true)]. cbn [map].
  assert (S : isort r_proba [Row 5 false 5; Row 5 true 5; Row 7 true 7] = [Row 5 false 5; Row 5 true 5; Row 7 true 7]).
  { cbn [isort]. repeat (cbn [insert r_proba]; destruct (Rle_dec _ _); [|lra]). reflexivity. }
  rewrite S. cbn [rev app]. unfold roc_curve. cbn [clf_curve r_y r_proba]. rewrite !diff_zero.
  destruct (Req_EM_T 5 7); [lra|]. destruct (Req_EM_T 5 5); [|lra]. cbn [last map fst snd]. unfold column_of. cbn [length Nat.eqb rev app assert_then bind combine map].
  do 2 eexists. split; [reflexivity|]. split; [reflexivity|]. split; [reflexivity|].
  unfold nofnat. cbn [Z.of_nat Pos.of_succ_nat Pos.succ ndiv nofZ nsub NumR].
  unfold best_threshold. cbn [isort].
  do 3 (cbn [insert f_j]; repeat match goal with |- context [Rle_dec ?a ?b] => destruct (Rle_dec a b); try (exfalso; lra) end).
  split; [reflexivity|]. cbn [f_row r_x]. unfold J_at, tpr_at, fpr_at, samples. change (tie_test _) with [(5, false); (5, true); (7, true)].
  rewrite !above_cons, !class_cons. cbn [fst snd Bool.eqb].
  repeat match goal with |- context [Rle_dec ?a ?b] => destruct (Rle_dec a b); try (exfalso; lra) end.
  unfold above, class. cbn. lra.
Qed.

(** Without ties: noise 1, 4; signal 3, 5, tested on 1, 3: threshold 3. *)
Example C83_case :
  let test := fun _ : list (R * bool) => [(3, true); (1, false)] in
  let h0 := [1; 4] in let h1 := [3; 5] in
  exists lr c, log_regress test (fun x => 2 * x) (isort r_proba) h0 h1 = Ret lr /\
    best_threshold (isort (fun r => - f_j r)) lr = Ret c /\ (forall t, J_at (samples test h0 h1) t <= J_at (samples test h0 h1) c).
Proof.
  cbv zeta. destruct (C83_best (fun _ => [(3, true); (1, false)]) (fun x => 2 * x) (isort r_proba) (isort_sorts _) [1; 4] [3; 5]) with (sort_j := isort (fun r => - @f_j R r)) as (lr & c & E & B & _ & M).
  - reflexivity.
  - cbn. constructor; [intros [H|[]]; lra|]. constructor; [intros []|constructor].
  - cbn. lia.
  - cbn. lia.
  - apply isort_sorts_desc.
  - intros a b Hab. lra.
  - exists lr, c. auto.
Qed.

(** ** Axioms used *)
Print Assumptions C83_returns.
Print Assumptions C83_table.
Print Assumptions C83_tie_shifts.
Print Assumptions C83_best.
Print Assumptions C83_youden.
Print Assumptions C83_tie_refuted.
