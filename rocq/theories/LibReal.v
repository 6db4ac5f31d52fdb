(** Real-arithmetic facts about the helpers of LibModel.v. *)
From Coq Require Import List Arith ZArith Reals Bool Lia Lra Psatz.
From Verif Require Import Base IterTheory IterModel Num SpecR LibModel.
Import ListNotations.
Local Open Scope R_scope.

Lemma fold_Rplus l : forall a, fold_left Rplus l a = a + Rsum l.
Proof. induction l as [|x l IH]; intros a; cbn; [lra|]. rewrite IH. lra. Qed.

Lemma nsum_R (l : list R) : nsum l = Rsum l.
Proof. unfold nsum. cbn. rewrite fold_Rplus. lra. Qed.

Lemma Rsum_app a b : Rsum (a ++ b) = Rsum a + Rsum b.
Proof. induction a as [|x a IH]; cbn; [lra|]. rewrite IH. lra. Qed.

Lemma Rsum_nonneg l : (forall x, In x l -> 0 <= x) -> 0 <= Rsum l.
Proof.
  induction l as [|x l IH]; intros H; cbn; [lra|].
  pose proof (H x (or_introl eq_refl)). assert (0 <= Rsum l) by (apply IH; intros; apply H; right; assumption). lra.
Qed.

Lemma Rsum_scale c l : Rsum (map (fun x => c * x) l) = c * Rsum l.
Proof. induction l as [|x l IH]; cbn; [lra|]. rewrite IH. lra. Qed.

Lemma sumsq_nonneg l : 0 <= sumsq l.
Proof.
  apply Rsum_nonneg. intros x Hx. apply in_map_iff in Hx. destruct Hx as [y [<- _]]. apply Rle_0_sqr.
Qed.

Lemma sumsq_scale a l : sumsq (map (fun x => a * x) l) = a * a * sumsq l.
Proof.
  unfold sumsq. rewrite map_map, <- Rsum_scale, map_map. f_equal. apply map_ext. intros x. ring.
Qed.

Lemma sumsq_0 l : sumsq l = 0 <-> (forall x, In x l -> x = 0).
Proof.
  induction l as [|x l IH]; cbn.
  - split; [intros _ x []|reflexivity].
  - fold (sumsq l). pose proof (sumsq_nonneg l) as Hn. pose proof (Rle_0_sqr x) as Hx. unfold Rsqr in Hx. split.
    + intros H y [<-|Hy]; [nra|]. apply IH; [lra|exact Hy].
    + intros H. rewrite (proj2 IH) by (intros; apply H; auto). rewrite (H x) by auto. lra.
Qed.

Lemma nsum_nsqr (l : list R) : nsum (map nsqr l) = sumsq l.
Proof. rewrite nsum_R. reflexivity. Qed.

(** ** linspace *)
Lemma linspace_yields start stop num :
  yields (linspace start stop num)
         (map (fun i => start + (stop - start) / INR num * INR i) (seq 0 num)).
Proof.
  unfold linspace. erewrite map_ext.
  - apply imap_yields. apply of_list_yields.
  - intros i. cbn. unfold nofnat. cbn. rewrite !INR_IZR_INZ. reflexivity.
Qed.

Lemma nth_map_seq {A} (f : nat -> A) n i d : (i < n)%nat -> nth i (map f (seq 0 n)) d = f i.
Proof.
  intros H. rewrite nth_indep with (d' := f 0%nat) by (rewrite map_length, seq_length; exact H).
  rewrite map_nth, seq_nth by exact H. reflexivity.
Qed.

(** ** db *)
Lemma ln10_pos : 0 < ln 10.
Proof. rewrite <- ln_1. apply ln_increasing; lra. Qed.

Lemma db_undb (x : R) : db (undb x) = x.
Proof. unfold db, undb. cbn. unfold Rpower. rewrite ln_exp. pose proof ln10_pos. field. lra. Qed.

Lemma undb_db (x : R) : 0 < x -> undb (db x) = x.
Proof.
  intros Hx. unfold db, undb. cbn. unfold Rpower. pose proof ln10_pos.
  replace (10 * (ln x / ln 10) / 10 * ln 10) with (ln x) by (field; lra). apply exp_ln. exact Hx.
Qed.

(** ** erf *)
Lemma erf_tau_even (x : R) : erf_tau (- x) = erf_tau x.
Proof.
  unfold erf_tau, nsqr. cbn [nabs nmul NumR]. rewrite Rabs_Ropp.
  replace (- x * - x) with (x * x) by ring. reflexivity.
Qed.

Lemma erf_tau_pos (x : R) : 0 < erf_tau x.
Proof.
  unfold erf_tau. cbn [nmul nexp NumR]. apply Rmult_lt_0_compat; [|apply exp_pos].
  cbn. apply Rdiv_lt_0_compat; [lra|]. pose proof (Rabs_pos x). unfold nlit; cbn. lra.
Qed.

Lemma erf_tau_0 : 1 < erf_tau (0 : R).
Proof.
  unfold erf_tau.
  replace (nofZ 1 / (nofZ 1 + nlit 1 2 * nabs 0))%num with 1 by (cbn; unfold nlit; cbn; rewrite Rabs_R0; field).
  cbn [nmul nexp NumR]. rewrite Rmult_1_l. rewrite <- exp_0 at 1. apply exp_increasing.
  unfold npowi, npowi_loop, nsqr, nlit. cbn. lra.
Qed.

Lemma erf_nonneg (x : R) : 0 <= x -> erf x = 1 - erf_tau x.
Proof. intros H. unfold erf. cbn [nleb nofZ NumR]. destruct (Rle_dec 0 x); [reflexivity|contradiction]. Qed.
Lemma erf_neg (x : R) : x < 0 -> erf x = erf_tau x - 1.
Proof. intros H. unfold erf. cbn [nleb nofZ NumR]. destruct (Rle_dec 0 x); [lra|reflexivity]. Qed.

Lemma erf_odd (x : R) : x <> 0 -> erf (- x) = - erf x.
Proof.
  intros Hx. destruct (Rlt_le_dec x 0) as [H|H].
  - rewrite (erf_neg x) by exact H. rewrite erf_nonneg by lra. rewrite erf_tau_even. lra.
  - rewrite (erf_nonneg x) by exact H. rewrite erf_neg by lra. rewrite erf_tau_even. lra.
Qed.

(** ** Hamming window *)
Lemma hamming_nth n i : (i < n)%nat ->
  nth i (hamming_window n) 0 = 54 / 100 - 46 / 100 * cos (2 * PI * INR i / INR n).
Proof.
  intros H. unfold hamming_window. rewrite nth_map_seq by exact H. cbn. unfold nlit, nofnat. cbn.
  rewrite !INR_IZR_INZ. reflexivity.
Qed.

Lemma cos_sym n i : (0 < n)%nat -> (i <= n)%nat -> cos (2 * PI * INR (n - i) / INR n) = cos (2 * PI * INR i / INR n).
Proof.
  intros Hn Hi. rewrite minus_INR by exact Hi. assert (0 < INR n) by (apply lt_0_INR; exact Hn).
  replace (2 * PI * (INR n - INR i) / INR n) with (- (2 * PI * INR i / INR n) + 2 * PI) by (field; lra).
  rewrite <- (cos_neg (2 * PI * INR i / INR n)). replace (2 * PI) with (2 * INR 1 * PI) at 2 by (cbn; ring).
  apply cos_period.
Qed.

(** ** power *)
Lemma power_fold (l : list R) : forall k c (p : R),
  fold_left (fun acc '(idx, sample) => (idx, nadd (snd acc) (nsqr sample))) (index_from k l) (c, p) =
  (match l with [] => c | _ => k + length l - 1 end%nat, p + sumsq l).
Proof.
  induction l as [|x l IH]; intros k c p.
  - cbn. f_equal. unfold sumsq; cbn; ring.
  - unfold index_from in *. cbn [length seq combine fold_left snd]. rewrite IH. f_equal.
    + destruct l; cbn; lia.
    + unfold sumsq. cbn. unfold nsqr. cbn. ring.
Qed.

Lemma power_R (l : list R) sr : power l sr = sumsq l / INR (length l - 1) / sr.
Proof.
  unfold power. change (nofZ 0) with 0. rewrite power_fold. unfold nofnat. cbn [ndiv nofZ NumR].
  rewrite <- INR_IZR_INZ. rewrite Rplus_0_l. destruct l; reflexivity.
Qed.

(** ** energy detector *)
Lemma log10_le a b : 0 < a -> a <= b -> ln a / ln 10 <= ln b / ln 10.
Proof.
  intros Ha Hb. apply Rmult_le_compat_r; [left; apply Rinv_0_lt_compat, ln10_pos|].
  destruct Hb as [Hb| ->]; [left; apply ln_increasing; assumption|right; reflexivity].
Qed.
