(** Two runs of the same code on related inputs: a relation between outcomes and between iterators,
    kept by every adapter.  Proofs only; nothing here models code. *)
From Coq Require Import List Arith Bool PArith Lia.
From Verif Require Import Base IterModel.
Import ListNotations.

Definition orel {A B} (R : A -> B -> Prop) (x : outcome A) (y : outcome B) : Prop :=
  match x, y with
  | Ret a, Ret b => R a b
  | Panic, Panic => True
  | Diverge, Diverge => True
  | _, _ => False
  end.
Definition optrel {A B} (R : A -> B -> Prop) (x : option A) (y : option B) : Prop :=
  match x, y with Some a, Some b => R a b | None, None => True | _, _ => False end.
Definition pairrel {A B C D} (R : A -> B -> Prop) (S : C -> D -> Prop) (x : A * C) (y : B * D) : Prop :=
  R (fst x) (fst y) /\ S (snd x) (snd y).

Lemma orel_bind {A B C D} (R : A -> B -> Prop) (S : C -> D -> Prop) x y k k' :
  orel R x y -> (forall a b, R a b -> orel S (k a) (k' b)) -> orel S (bind x k) (bind y k').
Proof. destruct x, y; cbn; auto; contradiction. Qed.
Lemma orel_weaken {A B} (R S : A -> B -> Prop) x y : orel R x y -> (forall a b, R a b -> S a b) -> orel S x y.
Proof. destruct x, y; cbn; auto. Qed.
Lemma orel_refl {A} (R : A -> A -> Prop) x : (forall a, R a a) -> orel R x x.
Proof. destruct x; cbn; auto. Qed.
Lemma orel_eq {A} (x y : outcome A) : orel eq x y -> x = y.
Proof. destruct x, y; cbn; try contradiction; congruence. Qed.
Lemma optrel_eq {A} (x y : option A) : optrel eq x y -> x = y.
Proof. destruct x, y; cbn; try contradiction; congruence. Qed.
Lemma assert_rel {A B} (R : A -> B -> Prop) c x y : orel R x y -> orel R (assert_then c x) (assert_then c y).
Proof. destruct c; cbn; auto. Qed.
Lemma Forall2_eq {A} (l m : list A) : Forall2 eq l m -> l = m.
Proof. induction 1; congruence. Qed.
Lemma Forall2_map_l {A B} (R : A -> B -> Prop) (f : A -> B) l : (forall a, R a (f a)) -> Forall2 R l (map f l).
Proof. intros H. induction l; cbn; auto. Qed.
Lemma Forall2_len {A B} (R : A -> B -> Prop) l m : Forall2 R l m -> length l = length m.
Proof. induction 1; cbn; congruence. Qed.

(** [next] of the two iterators, on related states. *)
Definition step_rel {A B X Y} (R : A -> B -> Prop) (S : X -> Y -> Prop)
  (na : X -> outcome (option A * X)) (nb : Y -> outcome (option B * Y)) : Prop :=
  forall s t, S s t -> orel (pairrel (optrel R) S) (na s) (nb t).
Definition isim {A B} (R : A -> B -> Prop) (a : Iter A) (b : Iter B) : Prop :=
  exists S : state a -> state b -> Prop, S (cur a) (cur b) /\ step_rel R S (next a) (next b).

Lemma step_inv {A B X Y} (R : A -> B -> Prop) (S : X -> Y -> Prop) na nb s t : step_rel R S na nb -> S s t ->
  (exists a b s' t', na s = Ret (Some a, s') /\ nb t = Ret (Some b, t') /\ R a b /\ S s' t') \/
  (exists s' t', na s = Ret (None, s') /\ nb t = Ret (None, t') /\ S s' t') \/
  (na s = Panic /\ nb t = Panic) \/ (na s = Diverge /\ nb t = Diverge).
Proof.
  intros H HS. specialize (H s t HS). destruct (na s) as [[oa s']| |], (nb t) as [[ob t']| |]; cbn in H; try contradiction; auto.
  destruct H as [Ho Hs]. cbn in Ho, Hs. destruct oa as [a|], ob as [b|]; cbn in Ho; try contradiction.
  - left. exists a, b, s', t'. auto.
  - right. left. exists s', t'. auto.
Qed.
Ltac step H HS :=
  let a := fresh "a" in let b := fresh "b" in let s' := fresh "s" in let t' := fresh "t" in
  let E1 := fresh "E" in let E2 := fresh "E" in let HR := fresh "HR" in let HS' := fresh "HS" in
  destruct (step_inv _ _ _ _ _ _ H HS) as [(a & b & s' & t' & E1 & E2 & HR & HS')|[(s' & t' & E1 & E2 & HS')|[(E1 & E2)|(E1 & E2)]]];
  rewrite E1, E2; cbn [bind].

Lemma isim_refl {A} (R : A -> A -> Prop) (it : Iter A) : (forall a, R a a) -> isim R it it.
Proof.
  intros HR. exists eq. split; [reflexivity|]. intros s t ->. apply orel_refl. intros [o x]. split; cbn; [|reflexivity].
  destruct o; cbn; auto.
Qed.
Lemma isim_weaken {A B} (R R' : A -> B -> Prop) a b : isim R a b -> (forall x y, R x y -> R' x y) -> isim R' a b.
Proof.
  intros (S & H0 & H) W. exists S. split; [exact H0|]. intros s t HS. eapply orel_weaken; [apply H; exact HS|].
  intros [o s'] [o' t'] [Ho Hs]. split; cbn in *; [|exact Hs]. destruct o, o'; cbn in *; auto.
Qed.

Lemma of_list_sim {A B} (R : A -> B -> Prop) l m : Forall2 R l m -> isim R (of_list l) (of_list m).
Proof.
  intros H. exists (Forall2 R). split; [exact H|]. intros s t HS. destruct HS; cbn; split; cbn; auto.
Qed.

Lemma imap_sim {A B C D} (R : A -> B -> Prop) (Q : C -> D -> Prop) (f : A -> C) (g : B -> D) a b :
  isim R a b -> (forall x y, R x y -> Q (f x) (g y)) -> isim Q (imap f a) (imap g b).
Proof.
  intros (S & H0 & H) W. exists S. split; [exact H0|]. intros s t HS. cbn. unfold imap_next.
  step H HS; try exact I; split; cbn; auto.
Qed.
(** The source against its image. *)
Lemma imap_sim_r {A B} (R : A -> B -> Prop) (f : A -> B) a : (forall x, R x (f x)) -> isim R a (imap f a).
Proof.
  intros W. exists eq. split; [reflexivity|]. intros s t ->. cbn. unfold imap_next.
  destruct (next a t) as [[o s']| |]; cbn; auto. split; cbn; [|reflexivity]. destruct o; cbn; auto.
Qed.

Lemma ienum_sim {A B} (R : A -> B -> Prop) a b : isim R a b ->
  isim (fun x y => fst x = fst y /\ R (snd x) (snd y)) (ienum a) (ienum b).
Proof.
  intros (S & H0 & H). exists (fun x y => S (fst x) (fst y) /\ snd x = snd y). split; [split; [exact H0|reflexivity]|].
  intros [s i] [t j] [HS E]. cbn in HS, E. subst j. cbn. step H HS; try exact I; repeat split; cbn; auto.
Qed.

Lemma izip_sim {A B C D} (R : A -> B -> Prop) (Q : C -> D -> Prop) a b c d :
  isim R a b -> isim Q c d -> isim (pairrel R Q) (izip a c) (izip b d).
Proof.
  intros (S & H0 & H) (P & G0 & G). exists (fun x y => S (fst x) (fst y) /\ P (snd x) (snd y)). split; [split; assumption|].
  intros [s u] [t v] [HS HP]. cbn in HS, HP. cbn. step H HS; try exact I; [|repeat split; cbn; auto].
  step G HP; try exact I; repeat split; cbn; auto.
Qed.

Lemma fill_buf_rel {A B X Y} (R : A -> B -> Prop) (S : X -> Y -> Prop) na nb (H : step_rel R S na nb) n : forall s t, S s t ->
  orel (pairrel (Forall2 R) S) (fill_buf n na s) (fill_buf n nb t).
Proof.
  induction n as [|n IH]; intros s t HS; cbn [fill_buf]; [split; cbn; auto|].
  step H HS; try exact I; [|split; cbn; auto].
  apply (orel_bind _ _ _ _ _ _ (IH _ _ HS0)). intros [l s'] [m t'] [HL HS1]. cbn in *. split; cbn; auto.
Qed.
Lemma chunks_sim {A B} (R : A -> B -> Prop) n a b : isim R a b -> isim (Forall2 R) (chunks n a) (chunks n b).
Proof.
  intros (S & H0 & H). exists S. split; [exact H0|]. intros s t HS. cbn. unfold chunks_next.
  apply (orel_bind _ _ _ _ _ _ (fill_buf_rel R S _ _ H n s t HS)). intros [l s'] [m t'] [HL HS1]. cbn in *.
  destruct HL; split; cbn; auto.
Qed.

Lemma inflate_sim {A B} (R : A -> B -> Prop) n a b : isim R a b -> isim R (inflate n a) (inflate n b).
Proof.
  intros (S & H0 & H).
  exists (fun x y => S (inf_source x) (inf_source y) /\ inf_curr_copy x = inf_curr_copy y /\ optrel R (inf_curr x) (inf_curr y)).
  split; [repeat split; auto|]. intros [s i o] [t j p] (HS & E & HO). cbn in HS, E, HO. subst j. cbn. unfold inflate_next.
  cbn [inf_source inf_curr_copy inf_curr].
  replace (match p with None => true | Some _ => false end) with (match o with None => true | Some _ => false end)
    by (destruct o, p; cbn in HO; auto; contradiction).
  destruct (_ || _).
  - step H HS; try exact I; repeat split; cbn; auto.
  - repeat split; cbn; auto.
Qed.

Lemma dump_loop_rel {A B X Y} (R : A -> B -> Prop) (S : X -> Y -> Prop) add add' na nb (H : step_rel R S na nb)
  (W : forall a b c d, R a b -> R c d -> R (add a c) (add' b d)) n : forall s t x y, S s t -> R x y ->
  orel (pairrel (optrel R) S) (dump_loop add n na s x) (dump_loop add' n nb t y).
Proof.
  induction n as [|n IH]; intros s t x y HS HX; cbn [dump_loop]; [split; cbn; auto|].
  step H HS; try exact I; [|split; cbn; auto]. apply IH; auto.
Qed.
Lemma integrate_and_dump_sim {A B} (R : A -> B -> Prop) d d' add add' n a b :
  R d d' -> (forall a b c d, R a b -> R c d -> R (add a c) (add' b d)) -> isim R a b ->
  isim R (integrate_and_dump d add n a) (integrate_and_dump d' add' n b).
Proof.
  intros HD W (S & H0 & H). exists S. split; [exact H0|]. intros s t HS. cbn. apply (dump_loop_rel R S); auto.
Qed.
Lemma lanes_add_rel {A B} (R : A -> B -> Prop) add add' :
  (forall a b c d, R a b -> R c d -> R (add a c) (add' b d)) -> forall s s' r r', Forall2 R s s' -> Forall2 R r r' ->
  Forall2 R (lanes_add add s r) (lanes_add add' s' r').
Proof.
  intros W s s' r r' HS. revert r r'. induction HS; intros r r' HR; cbn; [constructor|].
  destruct HR; cbn; constructor; auto.
Qed.
Lemma Forall2_repeat {A B} (R : A -> B -> Prop) x y n : R x y -> Forall2 R (repeat x n) (repeat y n).
Proof. intros H. induction n; cbn; auto. Qed.
Lemma nintegrate_and_dump_sim {A B} (R : A -> B -> Prop) N d d' add add' n a b :
  R d d' -> (forall a b c d, R a b -> R c d -> R (add a c) (add' b d)) -> isim (Forall2 R) a b ->
  isim (Forall2 R) (nintegrate_and_dump N d add n a) (nintegrate_and_dump N d' add' n b).
Proof.
  intros HD W H. apply integrate_and_dump_sim; [apply Forall2_repeat; exact HD| |exact H].
  intros. apply lanes_add_rel; auto.
Qed.

Lemma take_every_sim {A B} (R : A -> B -> Prop) n a b : isim R a b -> isim R (take_every n a) (take_every n b).
Proof.
  intros (S & H0 & H). exists (fun x y => S (fst x) (fst y) /\ snd x = snd y). split; [split; auto|].
  intros [s c] [t c'] [HS E]. cbn in HS, E. subst c'. cbn [next take_every]. unfold take_every_next. cbn [fst snd].
  generalize (Datatypes.S n) as fuel. intros fuel. revert s t c HS. induction fuel as [|f IH]; intros s t c HS; [exact I|].
  cbn [take_every_loop]. destruct n as [|n']; [exact I|]. destruct (c mod _ =? 0).
  - step H HS; try exact I; repeat split; cbn; auto.
  - step H HS; try exact I; apply IH; auto.
Qed.

Lemma drop_items_rel {A B X Y} (R : A -> B -> Prop) (S : X -> Y -> Prop) na nb (H : step_rel R S na nb) n : forall s t, S s t ->
  orel (pairrel eq S) (drop_items n na s) (drop_items n nb t).
Proof.
  induction n as [|n IH]; intros s t HS; cbn [drop_items]; [split; cbn; auto|].
  step H HS; try exact I; [|split; cbn; auto]. apply IH; auto.
Qed.
Lemma iskip_sim {A B} (R : A -> B -> Prop) n a b : isim R a b -> isim R (iskip n a) (iskip n b).
Proof.
  intros (S & H0 & H). exists (fun x y => S (fst x) (fst y) /\ snd x = snd y). split; [split; auto|].
  intros [s c] [t c'] [HS E]. cbn in HS, E. subst c'. cbn.
  apply (orel_bind _ _ _ _ _ _ (drop_items_rel R S _ _ H c s t HS)). intros [lv s'] [lv' t'] [E HS1]. cbn in E, HS1. subst lv'.
  destruct lv; [|repeat split; cbn; auto]. step H HS1; try exact I; repeat split; cbn; auto.
Qed.

Lemma ituples_sim {A B} (R : A -> B -> Prop) a b : isim R a b -> isim (pairrel R R) (ituples a) (ituples b).
Proof.
  intros (S & H0 & H). exists (optrel S). split; [exact H0|]. intros [s|] [t|] HS; cbn in HS; try contradiction; cbn; [|repeat split; cbn; auto].
  step H HS; try exact I; [|repeat split; cbn; auto].
  step H HS0; try exact I; repeat split; cbn; auto.
Qed.

Lemma icycle_sim {A B} (R : A -> B -> Prop) a b : isim R a b -> isim R (icycle a) (icycle b).
Proof.
  intros (S & H0 & H). exists S. split; [exact H0|]. intros s t HS. cbn. unfold icycle_next.
  step H HS; try exact I; [split; cbn; auto|]. apply H. exact H0.
Qed.

Lemma loop_pos_rel {X Y P Q} (S : X -> Y -> Prop) (R : P -> Q -> Prop) body body' :
  (forall s t, S s t -> match body s, body' t with inl r, inl r' => R r r' | inr u, inr v => S u v | _, _ => False end) ->
  forall p s t, S s t -> match loop_pos p body s, loop_pos p body' t with inl r, inl r' => R r r' | inr u, inr v => S u v | _, _ => False end.
Proof.
  intros HB. induction p as [p IH|p IH|]; intros s t HS; cbn [loop_pos].
  - specialize (HB s t HS). destruct (body s) as [r|u], (body' t) as [r'|v]; try contradiction; auto.
    pose proof (IH u v HB) as H1. destruct (loop_pos p body u) as [r|u1], (loop_pos p body' v) as [r'|v1]; try contradiction; [exact H1|apply IH; exact H1].
  - pose proof (IH s t HS) as H1. destruct (loop_pos p body s) as [r|u1], (loop_pos p body' t) as [r'|v1]; try contradiction; [exact H1|apply IH; exact H1].
  - apply HB. exact HS.
Qed.
Lemma iflat_sim {A B A' B' C C'} (R : A -> A' -> Prop) (Q : B -> B' -> Prop) (K : C -> C' -> Prop) c c' f f' a b :
  isim R a b -> K c c' ->
  (forall k k' x y, K k k' -> R x y -> orel (pairrel (Forall2 Q) K) (f k x) (f' k' y)) ->
  isim Q (iflat_map c f a) (iflat_map c' f' b).
Proof.
  intros (S & H0 & H) HK W.
  set (P := fun (x : flat_state (state a) C B) (y : flat_state (state b) C' B') =>
    optrel S (fl_outer x) (fl_outer y) /\ K (fl_clo x) (fl_clo y) /\ Forall2 Q (fl_front x) (fl_front y)).
  exists P. split; [repeat split; cbn; auto|]. intros s t HP. cbn. unfold iflat_next.
  assert (HB : forall s t, P s t -> match iflat_body f (next a) s, iflat_body f' (next b) t with
     inl r, inl r' => orel (pairrel (optrel Q) P) r r' | inr u, inr v => P u v | _, _ => False end).
  { clear s t HP. intros [so k fr] [to k' fr'] (HS & HKK & HF). cbn in HS, HKK, HF. unfold iflat_body. cbn [fl_front fl_outer fl_clo].
    destruct HF as [|x y r r' Hxy HF].
    2:{ repeat split; cbn; auto. }
    destruct so as [so|], to as [to|]; cbn in HS; try contradiction.
    2:{ repeat split; cbn; auto. }
    step H HS; try exact I.
    - specialize (W k k' _ _ HKK HR). destruct (f k _) as [[l c1]| |], (f' k' _) as [[l' c1']| |]; cbn in W; try contradiction; try exact I.
      destruct W as [W1 W2]. repeat split; cbn; auto.
    - repeat split; cbn; auto. }
  pose proof (loop_pos_rel P (orel (pairrel (optrel Q) P)) _ _ HB loop_bound s t HP) as L.
  destruct (loop_pos loop_bound (iflat_body f (next a)) s), (loop_pos loop_bound (iflat_body f' (next b)) t); try contradiction; [exact L|exact I].
Qed.
Lemma iflat_pure_sim {A B A' B'} (R : A -> A' -> Prop) (Q : B -> B' -> Prop) f f' a b :
  isim R a b -> (forall x y, R x y -> Forall2 Q (f x) (f' y)) -> isim Q (iflat_map tt (pure_fn f) a) (iflat_map tt (pure_fn f') b).
Proof. intros H W. apply (iflat_sim R Q eq); auto. intros k k' x y _ HR. split; cbn; auto. Qed.

Lemma Forall2_removelast {A B} (R : A -> B -> Prop) l m : Forall2 R l m -> Forall2 R (removelast l) (removelast m).
Proof. induction 1 as [|x y l m Hxy HF IH]; cbn; [constructor|]. destruct HF; cbn in *; constructor; auto. Qed.
Lemma convolve_sum_rel {A B C A' C'} (R : A -> A' -> Prop) (Q : C -> C' -> Prop) z z' add add' (mul : A -> B -> C) (mul' : A' -> B -> C') filt :
  Q z z' -> (forall a b c d, Q a b -> Q c d -> Q (add a c) (add' b d)) -> (forall x y h, R x y -> Q (mul x h) (mul' y h)) ->
  forall l m, Forall2 R l m -> Q (convolve_sum z add mul l filt) (convolve_sum z' add' mul' m filt).
Proof.
  intros Hz Ha Hm l m H. unfold convolve_sum. generalize (rev filt) as h. revert z z' Hz.
  induction H as [|x y l m Hxy HF IH]; intros z z' Hz [|k h]; cbn; auto. 
Qed.
Lemma convolve_sim {A B C A' C'} (R : A -> A' -> Prop) (Q : C -> C' -> Prop) z z' add add' (mul : A -> B -> C) (mul' : A' -> B -> C') filt a b :
  Q z z' -> (forall a b c d, Q a b -> Q c d -> Q (add a c) (add' b d)) -> (forall x y h, R x y -> Q (mul x h) (mul' y h)) ->
  isim R a b -> isim Q (convolve z add mul filt a) (convolve z' add' mul' filt b).
Proof.
  intros Hz Ha Hm (S & H0 & H). exists (fun x y => S (fst x) (fst y) /\ Forall2 R (snd x) (snd y)). split; [split; cbn; auto|].
  intros [s l] [t m] [HS HL]. cbn in HS, HL. cbn [next convolve convolve_next].
  step H HS; try exact I.
  - assert (HL1 : Forall2 R (a0 :: l) (b0 :: m)) by (constructor; auto).
    rewrite (Forall2_len _ _ _ HL1).
    destruct (_ <? _); repeat split; cbn [fst snd optrel]; auto.
    + apply (convolve_sum_rel R Q); auto. apply Forall2_removelast. exact HL1.
    + apply Forall2_removelast. exact HL1.
    + apply (convolve_sum_rel R Q); auto.
  - rewrite (Forall2_len _ _ _ HL). destruct (_ <=? _); repeat split; cbn [fst snd optrel]; auto.
    + apply (convolve_sum_rel R Q); auto. apply Forall2_removelast. exact HL.
    + apply Forall2_removelast. exact HL.
Qed.

Lemma collect_rel {A B} (R : A -> B -> Prop) fuel a b : isim R a b -> orel (Forall2 R) (collect fuel a) (collect fuel b).
Proof.
  intros (S & H0 & H). unfold collect. generalize (cur a) (cur b) H0. clear H0. induction fuel as [|k IH]; intros s t HS; [exact I|].
  cbn [collect_from]. step H HS; try exact I; [|constructor].
  apply (orel_bind _ _ _ _ _ _ (IH _ _ HS0)). intros l m HL. cbn. constructor; auto.
Qed.

(** ** What it means for the caller *)

(** What the first n calls of [next] return. *)
Definition observed {A} (n : nat) (it : Iter A) : outcome (list (option A)) :=
  let? (os, _) := calls (next it) n (cur it) in Ret os.

Lemma calls_rel {A B X Y} (R : A -> B -> Prop) (S : X -> Y -> Prop) na nb (H : step_rel R S na nb) n : forall s t, S s t ->
  orel (pairrel (Forall2 (optrel R)) S) (calls na n s) (calls nb n t).
Proof.
  induction n as [|n IH]; intros s t HS; cbn [calls]; [split; cbn; auto|].
  step H HS; try exact I; apply (orel_bind _ _ _ _ _ _ (IH _ _ HS0)); intros [l s'] [m t'] [HL HS1]; cbn in *; split; cbn; auto.
  constructor; cbn; auto.
Qed.
Lemma isim_observed {A B} (R : A -> B -> Prop) a b n : isim R a b -> orel (Forall2 (optrel R)) (observed n a) (observed n b).
Proof.
  intros (S & H0 & H). unfold observed. apply (orel_bind _ _ _ _ _ _ (calls_rel R S _ _ H n _ _ H0)).
  intros [l s'] [m t'] [HL _]. exact HL.
Qed.
Lemma isim_same {A} (a b : Iter A) : isim eq a b -> forall n, observed n a = observed n b.
Proof.
  intros H n. apply orel_eq. eapply orel_weaken; [apply isim_observed; exact H|].
  intros l m HL. apply Forall2_eq. induction HL; constructor; auto. apply optrel_eq. assumption.
Qed.
Lemma observed_behaves {A} (a b : Iter A) : (forall n, observed n a = observed n b) -> forall f, behaves a f -> behaves b f.
Proof.
  intros H f HB n. specialize (H n). destruct (HB n) as [s E]. unfold observed in H. unfold behaves, behaves_from in *. rewrite E in H. cbn in H.
  destruct (calls (next b) n (cur b)) as [[os s']| |]; try discriminate. cbn in H. injection H as <-. eauto.
Qed.
Lemma calls_collect {A X Y} (nx : X -> outcome (option A * X)) (ny : Y -> outcome (option A * Y)) fuel : forall x y,
  (forall n, (let? (os, _) := calls nx n x in Ret os) = (let? (os, _) := calls ny n y in Ret os)) ->
  collect_from fuel nx x = collect_from fuel ny y.
Proof.
  induction fuel as [|k IH]; intros x y H; [reflexivity|]. cbn [collect_from].
  pose proof (H 1%nat) as H1. cbn [calls] in H1.
  destruct (nx x) as [[o x1]| |] eqn:Ex, (ny y) as [[o' y1]| |] eqn:Ey; cbn [bind] in *; try discriminate; auto.
  injection H1 as <-. destruct o as [v|]; [|reflexivity]. rewrite (IH x1 y1); [reflexivity|].
  intros n. specialize (H (S n)). cbn [calls] in H. rewrite Ex, Ey in H. cbn [bind] in H.
  destruct (calls nx n x1) as [[l s]| |], (calls ny n y1) as [[l' s']| |]; cbn [bind] in *; try discriminate; auto.
  injection H as <-. reflexivity.
Qed.
Lemma observed_collect {A} (a b : Iter A) : (forall n, observed n a = observed n b) -> forall fuel, collect fuel a = collect fuel b.
Proof. intros H fuel. apply calls_collect. exact H. Qed.
