(** Finite sums of reals. *)
From Coq Require Import List Arith ZArith Reals Lia Lra Psatz.
From Verif Require Import Base Spec SpecR Tab Num LibReal PskChain.
Import ListNotations.
Local Open Scope R_scope.

Lemma Rsum_tab n f : Rsum (tab n f) = Rsum_n n f.
Proof.
  induction n as [|n IH]; [reflexivity|].
  replace (S n) with (n + 1)%nat by lia. rewrite tab_add, Rsum_app, IH.
  replace (n + 1)%nat with (S n) by lia. cbn. rewrite Nat.add_0_r. lra.
Qed.

Lemma corr_R n k (g : nat -> R) : corr n k g = Rsum_n n (fun j => g (k * n + j)%nat).
Proof.
  unfold corr. rewrite <- Rsum_tab. change (@nadd R NumR) with Rplus. rewrite fold_Rplus. cbn. lra.
Qed.

Lemma Rsum_n_ext n f g : (forall j, (j < n)%nat -> f j = g j) -> Rsum_n n f = Rsum_n n g.
Proof. intros H. induction n as [|n IH]; [reflexivity|]. cbn. rewrite IH by (intros; apply H; lia). rewrite H by lia. reflexivity. Qed.
Lemma Rsum_n_plus n f g : Rsum_n n (fun j => f j + g j) = Rsum_n n f + Rsum_n n g.
Proof. induction n as [|n IH]; cbn; lra. Qed.
Lemma Rsum_n_scale n c f : Rsum_n n (fun j => c * f j) = c * Rsum_n n f.
Proof. induction n as [|n IH]; cbn; lra. Qed.
Lemma Rsum_n_const n c : Rsum_n n (fun _ => c) = INR n * c.
Proof. induction n as [|n IH]; [cbn; lra|]. rewrite S_INR. cbn. lra. Qed.
Lemma Rsum_n_nonneg n f : (forall j, (j < n)%nat -> 0 <= f j) -> 0 <= Rsum_n n f.
Proof. intros H. induction n as [|n IH]; cbn; [lra|]. pose proof (H n ltac:(lia)). specialize (IH ltac:(intros; apply H; lia)). lra. Qed.
Lemma Rsum_n_ge n f k : (k < n)%nat -> (forall j, (j < n)%nat -> 0 <= f j) -> f k <= Rsum_n n f.
Proof.
  intros Hk H. induction n as [|n IH]; [lia|]. cbn.
  assert (0 <= f n) by (apply H; lia).
  destruct (Nat.eq_dec k n) as [->|N].
  - assert (0 <= Rsum_n n f) by (apply Rsum_n_nonneg; intros; apply H; lia). lra.
  - specialize (IH ltac:(lia) ltac:(intros; apply H; lia)). lra.
Qed.
Lemma Rsum_n_le n f g : (forall j, (j < n)%nat -> f j <= g j) -> Rsum_n n f <= Rsum_n n g.
Proof. intros H. induction n as [|n IH]; cbn; [lra|]. pose proof (H n ltac:(lia)). specialize (IH ltac:(intros; apply H; lia)). lra. Qed.
Lemma Rsum_n_0 n f : (forall j, (j < n)%nat -> f j = 0) -> Rsum_n n f = 0.
Proof. intros H. rewrite (Rsum_n_ext n f (fun _ => 0) H), Rsum_n_const. lra. Qed.
Lemma Rsum_n_telescope n f : Rsum_n n (fun j => f (S j) - f j) = f n - f 0%nat.
Proof. induction n as [|n IH]; cbn; lra. Qed.
Lemma Rsum_n_add a b f : Rsum_n (a + b) f = Rsum_n a f + Rsum_n b (fun j => f (a + j)%nat).
Proof.
  induction b as [|b IH]; [rewrite Nat.add_0_r; cbn; lra|]. rewrite Nat.add_succ_r. cbn. rewrite IH. lra.
Qed.
Lemma Rsum_n_mul a b f : Rsum_n (a * b) f = Rsum_n a (fun i => Rsum_n b (fun j => f (i * b + j)%nat)).
Proof.
  induction a as [|a IH]; [reflexivity|]. replace (S a * b)%nat with (a * b + b)%nat by lia.
  rewrite Rsum_n_add, IH. reflexivity.
Qed.
Lemma Rsum_n_swap a b (f : nat -> nat -> R) :
  Rsum_n a (fun i => Rsum_n b (fun j => f i j)) = Rsum_n b (fun j => Rsum_n a (fun i => f i j)).
Proof.
  induction a as [|a IH]; cbn.
  - symmetry. apply Rsum_n_0. reflexivity.
  - rewrite IH, <- Rsum_n_plus. reflexivity.
Qed.
Lemma Rsum_n_sq_pos n f : 0 < Rsum_n n (fun j => f j * f j) <-> exists j, (j < n)%nat /\ f j <> 0.
Proof.
  split.
  - intros H. induction n as [|n IH]; [cbn in H; lra|]. cbn in H.
    destruct (Req_dec (f n) 0) as [Z|Z].
    + rewrite Z in H. destruct IH as (j & Hj & N); [lra|]. exists j. split; [lia|exact N].
    + exists n. split; [lia|exact Z].
  - intros (j & Hj & N). eapply Rlt_le_trans; [|apply (Rsum_n_ge n (fun j => f j * f j) j Hj)].
    + cbv beta. nra.
    + intros. nra.
Qed.
