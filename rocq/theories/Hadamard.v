(** The Hadamard matrix loop computes the Sylvester matrix; orthogonality of its rows. *)
From Coq Require Import List Arith ZArith Bool Reals Lia Lra Psatz.
From Verif Require Import Base Spec SpecR Tab Num LibModel RSums CdmaModel.
Import ListNotations.

(** ** Matrices given by a function *)
Definition mat (n : nat) (f : nat -> nat -> bool) : list (list bool) := tab n (fun i => tab n (fun j => f i j)).

Lemma mat_ext n f g : (forall i j, i < n -> j < n -> f i j = g i j) -> mat n f = mat n g.
Proof. intros H. apply tab_ext. intros i Hi. apply tab_ext. intros j Hj. apply H; assumption. Qed.

Lemma idx_tab {A} n (f : nat -> A) i : i < n -> idx (tab n f) i = Ret (f i).
Proof. intros H. unfold idx. rewrite tab_nth_error. apply Nat.ltb_lt in H. rewrite H. reflexivity. Qed.
Lemma idx_tab_out {A} n (f : nat -> A) i : n <= i -> idx (tab n f) i = Panic.
Proof. intros H. unfold idx. rewrite tab_nth_error. apply Nat.ltb_ge in H. rewrite H. reflexivity. Qed.
Lemma set_idx_tab {A} n (f : nat -> A) i v : i < n ->
  set_idx (tab n f) i v = Ret (tab n (fun k => if k =? i then v else f k)).
Proof.
  revert f i. induction n as [|n IH]; intros f i H; [lia|]. rewrite !tab_S.
  destruct i as [|i]; [reflexivity|]. cbn [set_idx]. rewrite IH by lia. reflexivity.
Qed.
Lemma mget_mat n f i j : i < n -> j < n -> mget (mat n f) i j = Ret (f i j).
Proof. intros Hi Hj. unfold mget, mat. rewrite idx_tab by exact Hi. cbn [bind]. apply idx_tab. exact Hj. Qed.
Lemma mset_mat n f i j v : i < n -> j < n ->
  mset (mat n f) i j v = Ret (mat n (fun a b => if (a =? i) && (b =? j) then v else f a b)).
Proof.
  intros Hi Hj. unfold mset, mat. rewrite idx_tab by exact Hi. cbn [bind]. rewrite set_idx_tab by exact Hj. cbn [bind].
  rewrite set_idx_tab by exact Hi. f_equal. apply tab_ext. intros a Ha.
  destruct (Nat.eqb_spec a i) as [->|N]; [apply tab_ext; reflexivity|]. reflexivity.
Qed.

Lemma for_seq {X} (P : nat -> X -> Prop) (body : X -> nat -> outcome X) n s :
  P 0 s -> (forall c s, c < n -> P c s -> exists s', body s c = Ret s' /\ P (S c) s') ->
  exists s', for_each (seq 0 n) body s = Ret s' /\ P n s'.
Proof.
  intros H0 HS.
  enough (G : forall k c s, c + k = n -> P c s -> exists s', for_each (seq c k) body s = Ret s' /\ P n s') by (apply (G n 0); auto).
  induction k as [|k IH]; intros c s1 E Pc.
  - exists s1. split; [reflexivity|]. rewrite Nat.add_0_r in E. subst. exact Pc.
  - destruct (HS c s1 ltac:(lia) Pc) as (s2 & E2 & P2). destruct (IH (S c) s2 ltac:(lia) P2) as (s3 & E3 & P3).
    exists s3. split; [|exact P3]. cbn [seq for_each]. rewrite E2. exact E3.
Qed.

(** ** One round of the while loop *)
Section Round.
Variables (n i1 : nat) (f : nat -> nat -> bool).
Hypothesis Hi1 : 1 <= i1.
Hypothesis Hn : i1 + i1 <= n.

(** The top-left square copied to the right and below, and negated on the diagonal. *)
Definition dbl (a b : nat) : bool := xorb ((i1 <=? a) && (i1 <=? b)) (f (a mod i1) (b mod i1)).
Definition st (D : nat -> nat -> bool) (a b : nat) : bool :=
  if (a <? 2 * i1) && (b <? 2 * i1) && D (a mod i1) (b mod i1) then dbl a b else f a b.

Lemma mod_cases a : a < 2 * i1 -> (a < i1 /\ a mod i1 = a) \/ (i1 <= a /\ a mod i1 = a - i1).
Proof using Hi1.
  clear Hn.
  intros H. destruct (Nat.lt_ge_cases a i1) as [L|L]; [left; split; [exact L|apply Nat.mod_small; exact L]|right].
  split; [exact L|]. replace a with (a - i1 + 1 * i1) at 1 by lia. rewrite Nat.mod_add by lia. apply Nat.mod_small. lia.
Qed.

Lemma cell_step D i2 i3 : i2 < i1 -> i3 < i1 ->
  had_cell i1 i2 (mat n (st D)) i3 =
  Ret (mat n (st (fun x y => D x y || ((x =? i2) && (y =? i3))))).
Proof.
  intros H2 H3. unfold had_cell.
  assert (Base : forall E x y, x < i1 -> y < i1 -> st E x y = f x y).
  { intros E x y Hx Hy. unfold st, dbl. destruct ((x <? 2 * i1) && (y <? 2 * i1) && E (x mod i1) (y mod i1)); [|reflexivity].
    rewrite !Nat.mod_small by assumption. apply Nat.leb_gt in Hx. rewrite Hx. apply xorb_false_l. }
  rewrite mget_mat by lia. cbn [bind]. rewrite Base by assumption.
  rewrite mset_mat by lia. cbn [bind].
  rewrite mget_mat by lia. cbn [bind].
  replace (i2 =? i1 + i2) with false by (symmetry; apply Nat.eqb_neq; lia). cbn [andb]. rewrite Base by assumption.
  rewrite mset_mat by lia. cbn [bind].
  rewrite mget_mat by lia. cbn [bind].
  replace (i3 =? i1 + i3) with false by (symmetry; apply Nat.eqb_neq; lia).
  replace (i2 =? i1 + i2) with false by (symmetry; apply Nat.eqb_neq; lia). rewrite andb_false_r. cbn [andb].
  rewrite Base by assumption.
  rewrite mset_mat by lia. f_equal. apply mat_ext. intros a b Ha Hb.
  unfold st at 2. 
  destruct (Nat.ltb_spec a (2 * i1)) as [La|La]; cbn [andb].
  2:{ replace (a =? i1 + i2) with false by (symmetry; apply Nat.eqb_neq; lia).
      replace (a =? i2) with false by (symmetry; apply Nat.eqb_neq; lia). cbn [andb].
      unfold st. apply Nat.ltb_ge in La. rewrite La. reflexivity. }
  destruct (Nat.ltb_spec b (2 * i1)) as [Lb|Lb]; cbn [andb].
  2:{ replace (b =? i1 + i3) with false by (symmetry; apply Nat.eqb_neq; lia).
      replace (b =? i3) with false by (symmetry; apply Nat.eqb_neq; lia). rewrite !andb_false_r.
      unfold st. apply Nat.ltb_ge in Lb. rewrite Lb, andb_false_r. reflexivity. }
  destruct (D (a mod i1) (b mod i1)) eqn:ED; cbn [orb].
  - (* already written: rewritten with the same value *)
    assert (Es : st D a b = dbl a b).
    { unfold st. apply Nat.ltb_lt in La, Lb. rewrite La, Lb, ED. reflexivity. }
    rewrite Es. unfold dbl.
    destruct (mod_cases a La) as [[A1 A2]|[A1 A2]], (mod_cases b Lb) as [[B1 B2]|[B1 B2]]; rewrite ?A2, ?B2;
      destruct (Nat.leb_spec i1 a); try lia; destruct (Nat.leb_spec i1 b); try lia; cbn [andb];
      destruct (Nat.eqb_spec a (i1 + i2)), (Nat.eqb_spec b (i1 + i3)), (Nat.eqb_spec a i2), (Nat.eqb_spec b i3);
      try lia; cbn [andb]; rewrite ?xorb_false_l, ?xorb_true_l; try reflexivity; try (repeat f_equal; lia).
    replace (a - i1) with i2 by lia. replace (b - i1) with i3 by lia. destruct (f i2 i3); reflexivity.
  - assert (Es : st D a b = f a b).
    { unfold st. apply Nat.ltb_lt in La, Lb. rewrite La, Lb, ED. reflexivity. }
    rewrite Es. unfold dbl.
    destruct (mod_cases a La) as [[A1 A2]|[A1 A2]], (mod_cases b Lb) as [[B1 B2]|[B1 B2]]; rewrite ?A2, ?B2;
      destruct (Nat.leb_spec i1 a); try lia; destruct (Nat.leb_spec i1 b); try lia; cbn [andb].
    + replace (a =? i1 + i2) with false by (symmetry; apply Nat.eqb_neq; lia).
      replace (b =? i1 + i3) with false by (symmetry; apply Nat.eqb_neq; lia). rewrite !andb_false_r. cbn [andb].
      destruct ((a =? i2) && (b =? i3)); [|reflexivity]. destruct (f a b); reflexivity.
    + replace (a =? i1 + i2) with false by (symmetry; apply Nat.eqb_neq; lia). cbn [andb].
      destruct (Nat.eqb_spec a i2) as [->|]; cbn [andb]; [|reflexivity].
      destruct (Nat.eqb_spec b (i1 + i3)) as [->|N].
      * replace (i1 + i3 - i1) with i3 by lia. rewrite Nat.eqb_refl. destruct (f i2 i3); reflexivity.
      * destruct (Nat.eqb_spec (b - i1) i3); [lia|reflexivity].
    + replace (b =? i1 + i3) with false by (symmetry; apply Nat.eqb_neq; lia). rewrite !andb_false_r.
      destruct (Nat.eqb_spec a (i1 + i2)) as [->|N]; cbn [andb].
      * replace (i1 + i2 - i1) with i2 by lia. rewrite Nat.eqb_refl. cbn [andb].
        destruct (Nat.eqb_spec b i3) as [->|]; [|reflexivity]. destruct (f i2 i3); reflexivity.
      * destruct (Nat.eqb_spec (a - i1) i2); [lia|reflexivity].
    + replace (a =? i2) with false by (symmetry; apply Nat.eqb_neq; lia).
      replace (b =? i3) with false by (symmetry; apply Nat.eqb_neq; lia). rewrite !andb_false_r. cbn [andb].
      destruct (Nat.eqb_spec a (i1 + i2)) as [->|N]; cbn [andb].
      * replace (i1 + i2 - i1) with i2 by lia. rewrite Nat.eqb_refl. cbn [andb].
        destruct (Nat.eqb_spec b (i1 + i3)) as [->|N].
        -- replace (i1 + i3 - i1) with i3 by lia. rewrite Nat.eqb_refl. destruct (f i2 i3); reflexivity.
        -- destruct (Nat.eqb_spec (b - i1) i3); [lia|reflexivity].
      * destruct (Nat.eqb_spec (a - i1) i2); [lia|reflexivity].
Qed.

Lemma st_ext D E a b : (forall x y, x < i1 -> y < i1 -> D x y = E x y) -> st D a b = st E a b.
Proof. intros H. unfold st. rewrite H by (apply Nat.mod_upper_bound; lia). reflexivity. Qed.

Lemma row_loop r : r < i1 ->
  for_each (seq 0 i1) (had_cell i1 r) (mat n (st (fun x _ => x <? r))) = Ret (mat n (st (fun x _ => x <? S r))).
Proof.
  intros Hr.
  destruct (for_seq (fun c s => s = mat n (st (fun x y => (x <? r) || ((x =? r) && (y <? c))))) (had_cell i1 r) i1
     (mat n (st (fun x _ => x <? r)))) as (s & E & P).
  - apply mat_ext. intros a b _ _. apply st_ext. intros x y _ _. cbn. rewrite andb_false_r, orb_false_r. reflexivity.
  - intros c s Hc ->. eexists. split; [apply cell_step; assumption|]. apply mat_ext. intros a b _ _. apply st_ext.
    intros x y _ _. destruct (x <? r); cbn [orb]; [reflexivity|]. destruct (x =? r); cbn [andb orb]; [|reflexivity].
    destruct (Nat.ltb_spec y c), (Nat.eqb_spec y c), (Nat.ltb_spec y (S c)); try lia; reflexivity.
  - rewrite E, P. f_equal. apply mat_ext. intros a b _ _. apply st_ext. intros x y Hx Hy.
    apply Nat.ltb_lt in Hy. rewrite Hy, andb_true_r.
    destruct (Nat.ltb_spec x r), (Nat.eqb_spec x r), (Nat.ltb_spec x (S r)); try lia; reflexivity.
Qed.

Lemma round_loop :
  for_each (seq 0 i1) (fun m i2 => for_each (seq 0 i1) (had_cell i1 i2) m) (mat n f) =
  Ret (mat n (fun a b => if (a <? 2 * i1) && (b <? 2 * i1) then dbl a b else f a b)).
Proof.
  destruct (for_seq (fun r s => s = mat n (st (fun x _ => x <? r)))
     (fun m i2 => for_each (seq 0 i1) (had_cell i1 i2) m) i1 (mat n f)) as (s & E & P).
  - apply mat_ext. intros a b _ _. unfold st. cbn. rewrite andb_false_r. reflexivity.
  - intros r s Hr ->. eexists. split; [apply row_loop; exact Hr|reflexivity].
  - rewrite E, P. f_equal. apply mat_ext. intros a b _ _. unfold st.
    assert (L : a mod i1 < i1) by (apply Nat.mod_upper_bound; lia). apply Nat.ltb_lt in L. rewrite L, andb_true_r. reflexivity.
Qed.
End Round.

(** ** The whole loop *)

(** Sylvester's matrix of size 2^k. *)
Fixpoint had (k a b : nat) : bool :=
  match k with
  | 0 => true
  | S k' => xorb ((2 ^ k' <=? a) && (2 ^ k' <=? b)) (had k' (a mod 2 ^ k') (b mod 2 ^ k'))
  end.

Lemma pow2_ge1 k : 1 <= 2 ^ k.
Proof. induction k; cbn; lia. Qed.

Lemma had_loop_spec K : forall d j fuel f, j + d = K -> d < fuel ->
  (forall a b, a < 2 ^ j -> b < 2 ^ j -> f a b = had j a b) ->
  had_loop fuel (2 ^ K) (2 ^ j) (mat (2 ^ K) f) = Ret (mat (2 ^ K) (had K)).
Proof.
  induction d as [|d IH]; intros j fuel f E F Hf; destruct fuel as [|fuel]; try lia; cbn [had_loop].
  - rewrite Nat.add_0_r in E. subst j. rewrite Nat.ltb_irrefl. f_equal. apply mat_ext. exact Hf.
  - assert (P : 2 ^ j + 2 ^ j <= 2 ^ K).
    { replace (2 ^ j + 2 ^ j) with (2 ^ S j) by (cbn; lia). apply Nat.pow_le_mono_r; lia. }
    pose proof (pow2_ge1 j) as P1.
    destruct (Nat.ltb_spec (2 ^ j) (2 ^ K)) as [_|]; [|lia].
    rewrite round_loop by assumption. cbn [bind].
    replace (2 ^ j + 2 ^ j) with (2 ^ S j) by (cbn; lia). apply IH; [lia|lia|].
    intros a b Ha Hb. assert (Q : 2 * 2 ^ j = 2 ^ S j) by (cbn; lia). rewrite Q.
    apply Nat.ltb_lt in Ha, Hb. rewrite Ha, Hb. cbn [andb]. unfold dbl. cbn [had]. rewrite Hf by (apply Nat.mod_upper_bound; lia).
    reflexivity.
Qed.

Lemma land_pow2 k : Nat.land (2 ^ k) (2 ^ k - 1) = 0.
Proof.
  replace (2 ^ k - 1) with (Nat.ones k) by (rewrite Nat.ones_equiv; lia).
  rewrite Nat.land_ones. apply Nat.mod_same. apply Nat.pow_nonzero. lia.
Qed.
Lemma land_pred_0 n : 1 <= n -> Nat.land n (n - 1) = 0 -> n = 2 ^ Nat.log2 n.
Proof.
  intros Hn H. destruct (Nat.log2_spec n ltac:(lia)) as [L1 L2].
  destruct (Nat.eq_dec n (2 ^ Nat.log2 n)) as [E|N]; [exact E|exfalso].
  assert (Nat.log2 (n - 1) = Nat.log2 n).
  { apply Nat.log2_unique; [lia|]. split; [lia|]. lia. }
  pose proof (Nat.bit_log2 n ltac:(lia)) as B1.
  pose proof (pow2_ge1 (Nat.log2 n)).
  assert (n - 1 <> 0) as N1 by lia.
  pose proof (Nat.bit_log2 (n - 1) N1) as B2. rewrite H0 in B2.
  pose proof (Nat.land_spec n (n - 1) (Nat.log2 n)) as B3. rewrite H, B1, B2, Nat.bits_0 in B3. discriminate.
Qed.

Lemma new_pow2 k : HadamardMatrix_new (2 ^ k) = Ret (mat (2 ^ k) (had k)).
Proof.
  unfold HadamardMatrix_new, usize_sub. pose proof (pow2_ge1 k) as P. apply Nat.leb_le in P. rewrite P. cbn [bind].
  rewrite land_pow2. cbn [Nat.eqb assert_then].
  replace (repeat (repeat true (2 ^ k)) (2 ^ k)) with (mat (2 ^ k) (fun _ _ => true)).
  2:{ unfold mat. rewrite !repeat_tab. apply tab_ext. intros i _. reflexivity. }
  apply (had_loop_spec k k 0 (S (2 ^ k))); [lia| |].
  - assert (k < 2 ^ k) by (apply Nat.pow_gt_lin_r; lia). lia.
  - intros a b _ _. reflexivity.
Qed.
Lemma new_other n : (forall k, n <> 2 ^ k) -> HadamardMatrix_new n = Panic.
Proof.
  intros H. unfold HadamardMatrix_new, usize_sub. destruct (Nat.leb_spec 1 n) as [L|L]; [|reflexivity]. cbn [bind].
  destruct (Nat.eqb_spec (Nat.land n (n - 1)) 0) as [E|E]; [|reflexivity].
  apply land_pred_0 in E; [|exact L]. destruct (H _ E).
Qed.

(** ** Properties of the Sylvester matrix *)
Lemma had_sym k : forall a b, had k a b = had k b a.
Proof. induction k as [|k IH]; intros a b; cbn [had]; [reflexivity|]. rewrite IH, andb_comm. reflexivity. Qed.
Lemma had_row0 k : forall b, had k 0 b = true.
Proof.
  induction k as [|k IH]; intros b; cbn [had]; [reflexivity|].
  rewrite Nat.mod_0_l by (apply Nat.pow_nonzero; lia). rewrite IH.
  pose proof (pow2_ge1 k). destruct (Nat.leb_spec (2 ^ k) 0); [lia|]. reflexivity.
Qed.

Local Open Scope R_scope.
Definition sgn (b : bool) : R := if b then 1 else -1.
Lemma sgn_xor a b : sgn (xorb a b) = - sgn a * sgn b.
Proof. destruct a, b; cbn; lra. Qed.
Lemma sgn_sq b : sgn b * sgn b = 1.
Proof. destruct b; cbn; lra. Qed.

Lemma had_orth k : forall i j, (i < 2 ^ k)%nat -> (j < 2 ^ k)%nat ->
  Rsum_n (2 ^ k) (fun c => sgn (had k i c) * sgn (had k j c)) = if (i =? j)%nat then INR (2 ^ k) else 0.
Proof.
  induction k as [|k IH]; intros i j Hi Hj.
  - replace i with 0%nat by (cbn in Hi; lia). replace j with 0%nat by (cbn in Hj; lia). cbn. lra.
  - pose proof (pow2_ge1 k) as P. set (N := (2 ^ k)%nat) in *.
    assert (E : (2 ^ S k = N + N)%nat) by (unfold N; cbn; lia). rewrite E in *.
    rewrite Rsum_n_add.
    set (i' := (i mod N)%nat). set (j' := (j mod N)%nat).
    assert (Li : (i' < N)%nat) by (apply Nat.mod_upper_bound; lia).
    assert (Lj : (j' < N)%nat) by (apply Nat.mod_upper_bound; lia).
    rewrite (Rsum_n_ext N (fun c => sgn (had (S k) i c) * sgn (had (S k) j c)) (fun c => sgn (had k i' c) * sgn (had k j' c))).
    2:{ intros c Hc. cbn [had]. fold N i' j'. rewrite (Nat.mod_small c N Hc). apply Nat.leb_gt in Hc. rewrite Hc, !andb_false_r, !xorb_false_l. reflexivity. }
    rewrite (Rsum_n_ext N (fun c => sgn (had (S k) i (N + c)) * sgn (had (S k) j (N + c)))
       (fun c => (sgn (N <=? i)%nat * sgn (N <=? j)%nat) * (sgn (had k i' c) * sgn (had k j' c)))).
    2:{ intros c Hc. cbn [had]. fold N i' j'.
        replace ((N + c) mod N)%nat with c by (rewrite Nat.add_comm, <- (Nat.mul_1_l N) at 1; rewrite Nat.mod_add by lia; symmetry; apply Nat.mod_small; exact Hc).
        replace (N <=? N + c)%nat with true by (symmetry; apply Nat.leb_le; lia). rewrite !andb_true_r, !sgn_xor. ring. }
    rewrite Rsum_n_scale, (IH i' j' Li Lj), plus_INR.
    assert (Ci : (i < N /\ i' = i \/ N <= i /\ i' = i - N)%nat) by (apply (mod_cases N P); lia).
    assert (Cj : (j < N /\ j' = j \/ N <= j /\ j' = j - N)%nat) by (apply (mod_cases N P); lia).
    destruct Ci as [[A1 A2]|[A1 A2]], Cj as [[B1 B2]|[B1 B2]];
      destruct (Nat.leb_spec N i), (Nat.leb_spec N j); try lia; cbn [sgn];
      destruct (Nat.eqb_spec i' j'), (Nat.eqb_spec i j); try lia; lra.
Qed.

Lemma agree_count n (f g : nat -> bool) :
  2 * INR (length (filter (fun c => Bool.eqb (f c) (g c)) (seq 0 n))) = INR n + Rsum_n n (fun c => sgn (f c) * sgn (g c)).
Proof.
  induction n as [|n IH]; [cbn; lra|]. rewrite seq_S, filter_app, app_length, plus_INR, S_INR. cbn [Nat.add Rsum_n filter].
  destruct (f n), (g n); cbn; lra.
Qed.
