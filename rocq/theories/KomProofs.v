(** The Python package's receivers over the reals, as sums over windows of samples. *)
From Coq Require Import List Arith ZArith Reals Bool Lia Lra Psatz.
From Verif Require Import Base Spec SpecR Tab Num LibModel LibReal RSums PskChain PskReal OfdmModel KomModel.
Import ListNotations.
Local Open Scope R_scope.

Lemma filter_multiples k n : (1 <= k)%nat ->
  filter (fun i => (i mod k =? 0)%nat) (seq 0 n) = tab ((n + k - 1) / k) (fun i => (i * k)%nat).
Proof.
  intros Hk. induction n as [|n IH].
  - replace ((0 + k - 1) / k)%nat with 0%nat; [reflexivity|]. symmetry. apply Nat.div_small. lia.
  - rewrite seq_S, filter_app, IH. cbn [filter Nat.add].
    pose proof (Nat.div_mod n k ltac:(lia)) as D. pose proof (Nat.mod_upper_bound n k ltac:(lia)) as B.
    set (q := (n / k)%nat) in *. set (r := (n mod k)%nat) in *.
    assert (E1 : ((S n + k - 1) / k = S q)%nat).
    { replace (S n + k - 1)%nat with (r + (S q) * k)%nat by nia. rewrite Nat.div_add by lia. rewrite Nat.div_small by lia. lia. }
    change (S (n + k) - 1)%nat with (S n + k - 1)%nat. rewrite E1.
    destruct (Nat.eqb_spec r 0) as [Z|Z].
    + assert (E2 : ((n + k - 1) / k = q)%nat).
      { replace (n + k - 1)%nat with ((k - 1) + q * k)%nat by nia. rewrite Nat.div_add by lia. rewrite Nat.div_small by lia. lia. }
      rewrite E2. replace (S q) with (q + 1)%nat by lia. rewrite tab_add. f_equal. cbn. f_equal. lia.
    + assert (E2 : ((n + k - 1) / k = S q)%nat).
      { replace (n + k - 1)%nat with ((r - 1) + (S q) * k)%nat by nia. rewrite Nat.div_add by lia. rewrite Nat.div_small by lia. lia. }
      rewrite E2. apply app_nil_r.
Qed.

Lemma filter_tab {A} (p : nat -> bool) (f : nat -> A) l :
  map snd (filter (fun '(i, _) => p i) (map (fun i => (i, f i)) l)) = map f (filter p l).
Proof. induction l as [|i l IH]; [reflexivity|]. cbn. destruct (p i); cbn; rewrite IH; reflexivity. Qed.

Lemma every_tab {A} k n (f : nat -> A) : (1 <= k)%nat ->
  every k (tab n f) = Ret (tab ((n + k - 1) / k) (fun i => f (i * k)%nat)).
Proof.
  intros Hk. unfold every. replace (k =? 0)%nat with false by (symmetry; apply Nat.eqb_neq; lia).
  rewrite tab_index. unfold tab at 1. rewrite (filter_tab (fun i => (i mod k =? 0)%nat)).
  rewrite filter_multiples by exact Hk. rewrite tab_map. reflexivity.
Qed.

Lemma tl_tab {A} n (f : nat -> A) : tl (tab n f) = tab (n - 1) (fun i => f (S i)).
Proof. destruct n; [reflexivity|]. rewrite tab_S. cbn [tl]. f_equal. lia. Qed.

Lemma Rsum_n_rev n f : Rsum_n n f = Rsum_n n (fun j => f (n - 1 - j)%nat).
Proof.
  revert f. induction n as [|n IH]; intros f; [reflexivity|].
  change (S n) with (1 + n)%nat at 2. rewrite Rsum_n_add. cbn [Rsum_n]. rewrite IH.
  replace (S n - 1 - 0)%nat with n by lia. rewrite (Rsum_n_ext n (fun j => f (n - 1 - j)%nat) (fun j => f (S n - 1 - (1 + j))%nat)); [lra|].
  intros j Hj. f_equal. lia.
Qed.

Lemma convolve_ones L n (f : nat -> R) : (1 <= L)%nat -> (1 <= n)%nat ->
  np_convolve (tab L f) (repeat (nofZ 1) n) =
  Ret (tab (L + n - 1) (fun i => Rsum_n n (fun k => if ((k <=? i) && (i - k <? L))%nat%bool then f (i - k)%nat else 0))).
Proof.
  intros HL Hn. unfold np_convolve.
  assert (Ea : tab L f = f 0%nat :: tab (L - 1) (fun i => f (S i))) by (replace L with (S (L - 1)) at 1 by lia; apply tab_S).
  assert (Ev : repeat (nofZ 1 : R) n = nofZ 1 :: repeat (nofZ 1) (n - 1)) by (replace n with (S (n - 1)) at 1 by lia; reflexivity).
  rewrite Ea, Ev at 1. f_equal. rewrite tab_length, repeat_length. apply tab_ext. intros i _.
  change (@nadd R NumR) with Rplus. rewrite fold_Rplus. change (nofZ 0) with 0. rewrite Rplus_0_l.
  change (map ?g (seq 0 n)) with (tab n g). rewrite Rsum_tab. apply Rsum_n_ext. intros k Hk.
  destruct ((k <=? i) && (i - k <? L))%nat%bool eqn:E; [|reflexivity].
  apply andb_true_iff in E. destruct E as [_ E]. apply Nat.ltb_lt in E.
  rewrite tab_nth by exact E. rewrite (nth_indep _ _ (nofZ 1)) by (rewrite repeat_length; exact Hk). rewrite nth_repeat.
  change (nofZ 1) with 1. apply Rmult_1_r.
Qed.

(** The window of n samples from k n + 1 to (k + 1) n of a signal of L samples. *)
Definition late (n k L : nat) (f : nat -> R) : R :=
  Rsum_n n (fun j => if (k * n + 1 + j <? L)%nat then f (k * n + 1 + j)%nat else 0).

Definition gt0 (x : R) : bool := if Rlt_dec 0 x then true else false.

Lemma correlate_tab L n (f : nat -> R) : (1 <= L)%nat -> (1 <= n)%nat ->
  (let? sig := np_convolve (tab L f) (repeat (nofZ 1) n) in
   let? th := every n sig in Ret (tl (map (fun x => nltb (nofZ 0) x) th))) =
  Ret (tab ((L + n - 2) / n) (fun k => gt0 (late n k L f))).
Proof.
  intros HL Hn. rewrite convolve_ones by assumption. cbn [bind]. rewrite every_tab by exact Hn. cbn [bind].
  rewrite tab_map, tl_tab. f_equal.
  assert (C : ((L + n - 1 + n - 1) / n - 1 = (L + n - 2) / n)%nat).
  { replace (L + n - 1 + n - 1)%nat with ((L + n - 2) + 1 * n)%nat by lia. rewrite Nat.div_add by lia. lia. }
  apply tab_eq; [exact C|]. intros k Hk. unfold gt0. cbn [nltb NumR nofZ].
  match goal with |- (if Rlt_dec 0 ?a then _ else _) = (if Rlt_dec 0 ?b then _ else _) => replace a with b; [reflexivity|] end.
  unfold late. rewrite Rsum_n_rev. apply Rsum_n_ext. intros j Hj.
  replace (k * n + 1 + (n - 1 - j))%nat with (S k * n - j)%nat by nia.
  replace (j <=? S k * n)%nat with true by (symmetry; apply Nat.leb_le; nia). reflexivity.
Qed.

(** A signal of M symbols of n samples: symbol k weighs h with D k. *)
Lemma late_symbols n k M (D : nat -> R) (h : nat -> R) : (1 <= n)%nat -> (k < M)%nat ->
  late n k (M * n) (fun i => D (i / n)%nat * h i) =
  D k * Rsum_n (n - 1) (fun j => h (k * n + 1 + j)%nat) + (if (S k <? M)%nat then D (S k) * h (S k * n)%nat else 0).
Proof.
  intros Hn Hk. unfold late. replace n with ((n - 1) + 1)%nat at 1 by lia. rewrite Rsum_n_add. f_equal.
  - rewrite <- Rsum_n_scale. apply Rsum_n_ext. intros j Hj.
    replace (k * n + 1 + j <? M * n)%nat with true by (symmetry; apply Nat.ltb_lt; nia).
    replace ((k * n + 1 + j) / n)%nat with k; [reflexivity|].
    replace (k * n + 1 + j)%nat with ((1 + j) + k * n)%nat by lia. rewrite Nat.div_add by lia. rewrite Nat.div_small by lia. lia.
  - cbn [Rsum_n]. rewrite Rplus_0_l. replace (k * n + 1 + (n - 1 + 0))%nat with (S k * n)%nat by nia.
    replace (S k * n / n)%nat with (S k) by (rewrite Nat.div_mul; lia).
    replace (S k * n <? M * n)%nat with (S k <? M)%nat; [reflexivity|].
    destruct (Nat.ltb_spec (S k) M); symmetry; [apply Nat.ltb_lt|apply Nat.ltb_ge]; nia.
Qed.

Lemma tail_sum n f : (1 <= n)%nat -> Rsum_n (n - 1) (fun j => f (1 + j)%nat) = Rsum_n n f - f 0%nat.
Proof. intros Hn. replace n with (1 + (n - 1))%nat at 2 by lia. rewrite Rsum_n_add. cbn [Rsum_n]. lra. Qed.

(** The count of decisions for whole symbols. *)
Lemma late_count M n : (2 <= n)%nat -> ((M * n + n - 2) / n = M)%nat.
Proof. intros H. replace (M * n + n - 2)%nat with ((n - 2) + M * n)%nat by lia. rewrite Nat.div_add by lia. rewrite Nat.div_small by lia. lia. Qed.

(** The rates. *)
Lemma kom_rates_R fs sr (fc : R) :
  kom_rates fs sr fc = (if (sr =? 0)%nat then Panic else if Rle_dec fc (INR fs / 2) then if (fs mod sr =? 0)%nat then Ret (fs / sr)%nat else Panic else Panic).
Proof.
  unfold kom_rates, int_div, assert_then. destruct (sr =? 0)%nat; [reflexivity|]. cbn [bind].
  unfold nofnat. cbn [nleb ndiv nofZ NumR]. rewrite <- INR_IZR_INZ. destruct (Rle_dec fc (INR fs / 2)); [|reflexivity].
  destruct (fs mod sr =? 0)%nat; reflexivity.
Qed.

Lemma index_map_tab {A B} (f : nat -> A) n (g : nat * A -> B) : map g (index_from 0 (tab n f)) = tab n (fun i => g (i, f i)).
Proof. rewrite tab_index, tab_map. reflexivity. Qed.

Lemma np_repeat_tab {A} m n (f : nat -> A) : np_repeat (tab m f) n = tab (m * n) (fun i => f (i / n)%nat).
Proof. exact (repeat_each_tab n m f). Qed.
