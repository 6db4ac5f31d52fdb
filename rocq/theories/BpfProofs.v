(** The band-pass filter in exact arithmetic. *)
From Coq Require Import List Arith ZArith Reals Bool Lia Lra Ring.
From Verif Require Import Base IterTheory IterModel IterProofs Spec SpecR Tab Num SpecC RSums LibModel FhProofs
  FftModel Dft BpfModel.
Import ListNotations.
Local Open Scope R_scope.

(** ** Transforms of index functions *)

Definition FT (n : nat) (x : nat -> CR) (k : nat) : CR :=
  Csum_n n (fun j => cmul (x j) (root n (- (Z.of_nat j * Z.of_nat k)))).
Definition IT (n : nat) (x : nat -> CR) (k : nat) : CR :=
  Csum_n n (fun j => cmul (x j) (root n (Z.of_nat j * Z.of_nat k))).

Lemma FT_ext n x y k : (forall j, (j < n)%nat -> x j = y j) -> FT n x k = FT n y k.
Proof. intros E. apply Csum_ext. intros j Hj. rewrite E by exact Hj. reflexivity. Qed.
Lemma IT_ext n x y k : (forall j, (j < n)%nat -> x j = y j) -> IT n x k = IT n y k.
Proof. intros E. apply Csum_ext. intros j Hj. rewrite E by exact Hj. reflexivity. Qed.
Lemma FT_IT n x k : (n <> 0)%nat -> (k < n)%nat -> FT n (IT n x) k = cmul (RtoC (INR n)) (x k).
Proof. intros Hn Hk. apply dft_idft; assumption. Qed.
Lemma IT_FT n x k : (n <> 0)%nat -> (k < n)%nat -> IT n (FT n x) k = cmul (RtoC (INR n)) (x k).
Proof.
  intros Hn Hk. unfold IT, FT.
  rewrite (Csum_ext n _ (fun j => Csum_n n (fun i => cmul (x i) (root n ((Z.of_nat k - Z.of_nat i) * Z.of_nat j))))).
  - rewrite Csum_swap. rewrite (Csum_single n k).
    + rewrite Csum_scale, root_sum, mod_diff_0, Nat.eqb_refl by assumption. ring.
    + exact Hk.
    + intros i Hi N. rewrite Csum_scale, root_sum, mod_diff_0 by assumption.
      rewrite (proj2 (Nat.eqb_neq k i)) by congruence. ring.
  - intros j Hj. rewrite <- Csum_scale_r. apply Csum_ext. intros i Hi.
    replace ((Z.of_nat k - Z.of_nat i) * Z.of_nat j)%Z with (- (Z.of_nat i * Z.of_nat j) + Z.of_nat j * Z.of_nat k)%Z by ring.
    rewrite root_add. ring.
Qed.
Lemma FT_scale n c x k : FT n (fun j => cmul c (x j)) k = cmul c (FT n x k).
Proof. unfold FT. rewrite <- Csum_scale. apply Csum_ext. intros. ring. Qed.
Lemma IT_scale n c x k : IT n (fun j => cmul c (x j)) k = cmul c (IT n x k).
Proof. unfold IT. rewrite <- Csum_scale. apply Csum_ext. intros. ring. Qed.
Lemma FT_plus n x y k : FT n (fun j => cadd (x j) (y j)) k = cadd (FT n x k) (FT n y k).
Proof. unfold FT. rewrite <- Csum_plus. apply Csum_ext. intros. ring. Qed.
Lemma IT_plus n x y k : IT n (fun j => cadd (x j) (y j)) k = cadd (IT n x k) (IT n y k).
Proof. unfold IT. rewrite <- Csum_plus. apply Csum_ext. intros. ring. Qed.

Lemma cconj_mul a b : cconj (cmul a b) = cmul (cconj a) (cconj b).
Proof. apply cpx_eq; cbn; ring. Qed.

(** Conjugate symmetry of the transform of a real signal. *)
Lemma FT_hermitian n (x : nat -> R) k : (n <> 0)%nat -> (k <= n)%nat ->
  FT n (fun j => RtoC (x j)) (n - k) = cconj (FT n (fun j => RtoC (x j)) k).
Proof.
  intros Hn Hk. unfold FT. rewrite <- Csum_conj. apply Csum_ext. intros j _.
  rewrite cconj_mul, root_conj, Z.opp_involutive.
  replace (- (Z.of_nat j * Z.of_nat (n - k)))%Z with (Z.of_nat j * Z.of_nat k + Z.of_nat n * - Z.of_nat j)%Z
    by (rewrite Nat2Z.inj_sub by exact Hk; ring).
  rewrite root_add, root_period by exact Hn. apply cpx_eq; cbn; ring.
Qed.
Lemma FT_period n x k : (n <> 0)%nat -> FT n x (k + n) = FT n x k.
Proof.
  intros Hn. unfold FT. apply Csum_ext. intros j _.
  replace (- (Z.of_nat j * Z.of_nat (k + n)))%Z with (- (Z.of_nat j * Z.of_nat k) + Z.of_nat n * - Z.of_nat j)%Z
    by (rewrite Nat2Z.inj_add; ring).
  rewrite root_add, root_period by exact Hn. ring.
Qed.

Lemma Rsum_n_rev n f : Rsum_n n (fun j => f (n - 1 - j)%nat) = Rsum_n n f.
Proof.
  induction n as [|n IH]; [reflexivity|].
  replace (S n) with (1 + n)%nat at 1 by lia. rewrite Rsum_n_add.
  rewrite (Rsum_n_ext n (fun j => f (S n - 1 - (1 + j))%nat) (fun j => f (n - 1 - j)%nat)) by (intros; f_equal; lia).
  rewrite IH. cbn [Rsum_n]. replace (S n - 1 - 0)%nat with n by lia. lra.
Qed.

(** A sum of conjugate-symmetric terms is real. *)
Lemma Csum_hermitian n f : (1 <= n)%nat -> im (f 0%nat) = 0 ->
  (forall k, (1 <= k < n)%nat -> f (n - k)%nat = cconj (f k)) -> im (Csum_n n f) = 0.
Proof.
  intros Hn H0 H. destruct n as [|p]; [lia|]. replace (S p) with (1 + p)%nat by lia.
  rewrite Csum_im, Rsum_n_add. cbn [Rsum_n]. rewrite H0.
  pose proof (Rsum_n_rev p (fun j => im (f (1 + j)%nat))) as E.
  rewrite (Rsum_n_ext p _ (fun j => -1 * im (f (1 + j)%nat))) in E.
  - rewrite Rsum_n_scale in E. lra.
  - intros j Hj. replace (1 + (p - 1 - j))%nat with (S p - (1 + j))%nat by lia. rewrite H by lia. cbn. ring.
Qed.

(** ** One block *)

(** The bins that stay: [m k] for bins 0..n/2, and the mirror images of those. *)
Definition keep (n : nat) (m : nat -> bool) (k : nat) : bool := m (Nat.min k (n - k)).
Definition masked (n : nat) (m : nat -> bool) (X : nat -> CR) (k : nat) : CR := if keep n m k then X k else C0.
Definition bp_out (n : nat) (m : nat -> bool) (x : nat -> R) (j : nat) : R :=
  re (IT n (masked n m (FT n (fun i => RtoC (x i)))) j) / INR n.

Lemma masked_hermitian n m (x : nat -> R) k : (n <> 0)%nat -> (k <= n)%nat ->
  masked n m (FT n (fun i => RtoC (x i))) (n - k) = cconj (masked n m (FT n (fun i => RtoC (x i))) k).
Proof.
  intros Hn Hk. unfold masked, keep. replace (Nat.min (n - k) (n - (n - k))) with (Nat.min k (n - k)) by lia.
  destruct (m (Nat.min k (n - k))).
  - apply FT_hermitian; assumption.
  - apply cpx_eq; cbn; ring.
Qed.

Lemma self_conj (a : CR) : a = cconj a -> im a = 0.
Proof. intros E. apply (f_equal im) in E. cbn in E. lra. Qed.

Lemma masked_dc n m x : (n <> 0)%nat -> im (masked n m (FT n (fun i => RtoC (x i))) 0) = 0.
Proof.
  intros Hn. unfold masked. destruct (keep n m 0); [|reflexivity]. apply self_conj.
  rewrite <- FT_hermitian by lia. rewrite Nat.sub_0_r. symmetry. apply (FT_period n _ 0 Hn).
Qed.

Lemma bp_out_real n m x j : (n <> 0)%nat ->
  RtoC (bp_out n m x j) = cmul (RtoC (/ INR n)) (IT n (masked n m (FT n (fun i => RtoC (x i)))) j).
Proof.
  intros Hn. assert (I : im (IT n (masked n m (FT n (fun i => RtoC (x i)))) j) = 0).
  - unfold IT. apply Csum_hermitian; [lia| |].
    + replace (Z.of_nat 0 * Z.of_nat j)%Z with 0%Z by lia. rewrite root_0. cbn. rewrite masked_dc by exact Hn. ring.
    + intros k Hk. rewrite masked_hermitian, cconj_mul, root_conj by lia. f_equal.
      replace (Z.of_nat (n - k) * Z.of_nat j)%Z with (- (Z.of_nat k * Z.of_nat j) + Z.of_nat n * Z.of_nat j)%Z
        by (rewrite Nat2Z.inj_sub by lia; ring).
      rewrite root_add, root_period by exact Hn. ring.
  - unfold bp_out. apply cpx_eq; cbn; rewrite I; unfold Rdiv; ring.
Qed.

(** The transform of the output: the bins that stay. *)
Lemma FT_bp_out n m x k : (n <> 0)%nat -> (k < n)%nat ->
  FT n (fun j => RtoC (bp_out n m x j)) k = masked n m (FT n (fun i => RtoC (x i))) k.
Proof.
  intros Hn Hk. rewrite (FT_ext n _ (fun j => cmul (RtoC (/ INR n)) (IT n (masked n m (FT n (fun i => RtoC (x i)))) j)))
    by (intros; apply bp_out_real; exact Hn).
  rewrite FT_scale, FT_IT by assumption. assert (INR n <> 0) by (apply not_0_INR; exact Hn).
  apply cpx_eq; cbn; field; assumption.
Qed.

Lemma bp_out_ext n m x y j : (forall i, (i < n)%nat -> x i = y i) -> bp_out n m x j = bp_out n m y j.
Proof.
  intros E. unfold bp_out. f_equal. f_equal. apply IT_ext. intros k Hk. unfold masked. destruct (keep n m k); [|reflexivity].
  apply FT_ext. intros i Hi. rewrite E by exact Hi. reflexivity.
Qed.
Lemma bp_out_idem n m x j : (n <> 0)%nat -> bp_out n m (bp_out n m x) j = bp_out n m x j.
Proof.
  intros Hn. unfold bp_out at 1 3. f_equal. f_equal. apply IT_ext. intros k Hk. unfold masked at 1.
  rewrite FT_bp_out by assumption. unfold masked. destruct (keep n m k); reflexivity.
Qed.
Lemma bp_out_linear n m a b x y j : bp_out n m (fun i => a * x i + b * y i) j = a * bp_out n m x j + b * bp_out n m y j.
Proof.
  unfold bp_out.
  rewrite (IT_ext n _ (fun k => cadd (cmul (RtoC a) (masked n m (FT n (fun i => RtoC (x i))) k))
                                      (cmul (RtoC b) (masked n m (FT n (fun i => RtoC (y i))) k)))).
  - rewrite IT_plus, !IT_scale. cbn. unfold Rdiv. ring.
  - intros k Hk. unfold masked. destruct (keep n m k); [|ring].
    rewrite <- !FT_scale, <- FT_plus. apply FT_ext. intros i _. apply cpx_eq; cbn; ring.
Qed.
(** Nothing removed: the identity. *)
Lemma bp_out_pass n m x j : (j < n)%nat ->
  (forall k, (k < n)%nat -> keep n m k = false -> FT n (fun i => RtoC (x i)) k = C0) -> bp_out n m x j = x j.
Proof.
  intros Hj E. unfold bp_out. rewrite (IT_ext n _ (FT n (fun i => RtoC (x i)))).
  - rewrite IT_FT by lia. cbn. field. apply not_0_INR. lia.
  - intros k Hk. unfold masked. destruct (keep n m k) eqn:K; [reflexivity|]. symmetry. apply E; assumption.
Qed.
(** Everything removed. *)
Lemma bp_out_stop n m x j : (j < n)%nat ->
  (forall k, (k < n)%nat -> keep n m k = true -> FT n (fun i => RtoC (x i)) k = C0) -> bp_out n m x j = 0.
Proof.
  intros Hj E. unfold bp_out. rewrite (IT_ext n _ (fun _ => C0)).
  - unfold IT. rewrite Csum_0 by (intros; ring). cbn. unfold Rdiv. ring.
  - intros k Hk. unfold masked. destruct (keep n m k) eqn:K; [|reflexivity]. apply E; assumption.
Qed.

(** ** The closure computes it *)

Definition in_band (low high : R) (sr n k : nat) : bool :=
  negb (nltb (INR (k * sr) / INR n) low || nltb high (INR (k * sr) / INR n)).

Lemma nofnat_R k : @nofnat R NumR k = INR k.
Proof. unfold nofnat. cbn. symmetry. apply INR_IZR_INZ. Qed.

Lemma bp_mask_tab low high sr n p (z : nat -> CR) : (p <= n)%nat ->
  bp_mask low high (tab p z) (bp_frequencies sr n) = tab p (fun k => if in_band low high sr n k then z k else C0).
Proof.
  intros Hp. unfold bp_frequencies, tab. unfold in_band. generalize 0%nat as a. revert n Hp z.
  assert (G : forall p q n a (z : nat -> CR), (p <= q)%nat ->
    bp_mask low high (map z (seq a p)) (map (fun i => ndiv (nofnat (i * sr)) (nofnat n)) (seq a q)) =
    map (fun k => if negb (nltb (INR (k * sr) / INR n) low || nltb high (INR (k * sr) / INR n)) then z k else C0) (seq a p)).
  { induction p0 as [|p0 IH]; intros q n a z Hq; [destruct q; reflexivity|]. destruct q as [|q]; [lia|].
    cbn [seq map bp_mask]. rewrite IH by lia. f_equal.
    change (@ndiv R NumR) with Rdiv. rewrite !nofnat_R. destruct (_ || _); reflexivity. }
  intros n Hp z a. apply G. exact Hp.
Qed.

Lemma bp_block_R low high sr n (x : nat -> R) : (1 <= n)%nat ->
  bp_block exact_real_fft low high sr n (tab n x) = Ret (tab n (bp_out n (in_band low high sr n) x)).
Proof.
  intros Hn. unfold bp_block. rewrite tab_length, Nat.eqb_refl. cbn [assert_then].
  cbn [rfft_forward rfft_inverse exact_real_fft].
  set (X := FT n (fun i => RtoC (x i))). set (m := in_band low high sr n).
  assert (H2 : (n / 2 < n)%nat) by (apply Nat.div_lt; lia).
  assert (E : real_forward (tab n x) = tab (n / 2 + 1) X).
  { unfold real_forward. rewrite tab_length, tab_map, dft_tab. rewrite firstn_app, tab_length.
    replace (n / 2 + 1 - n)%nat with 0%nat by lia. rewrite firstn_O, app_nil_r, firstn_tab.
    apply tab_eq; [lia|]. reflexivity. }
  rewrite E, bp_mask_tab by lia. fold m.
  set (z := tab (n / 2 + 1) (fun k => if m k then X k else C0)).
  assert (Z : forall k, (k <= n / 2)%nat -> nth k z (Cpx 0 0) = masked n m X k).
  { intros k Hk. unfold z. rewrite tab_nth by lia. unfold masked, keep.
    assert (k <= n - k)%nat by (pose proof (Nat.div_mod n 2 ltac:(lia)); lia).
    rewrite Nat.min_l by assumption. reflexivity. }
  assert (X0 : half_extend n z = tab n (masked n m X)).
  { unfold half_extend. apply tab_ext. intros k Hk. destruct (Nat.leb_spec k (n / 2)) as [L|L]; [apply Z; exact L|].
    assert (n - k <= n / 2)%nat by (pose proof (Nat.div_mod n 2 ltac:(lia)); pose proof (Nat.mod_upper_bound n 2 ltac:(lia)); lia).
    rewrite Z by assumption. transitivity (masked n m X (n - (n - k))); [symmetry; apply masked_hermitian; lia|]. f_equal. lia. }
  assert (I : real_inverse n z = Some (map re (idft (tab n (masked n m X))))).
  { unfold real_inverse. rewrite X0.
    destruct (Req_EM_T _ 0) as [_|N]; [|exfalso; apply N; rewrite Z by lia; apply masked_dc; lia].
    destruct (Nat.even n) eqn:Ev; [|reflexivity].
    destruct (Req_EM_T _ 0) as [_|N]; [reflexivity|]. exfalso. apply N. rewrite Z by lia. apply self_conj.
    transitivity (masked n m X (n - n / 2)); [|apply masked_hermitian; lia]. f_equal.
    apply Nat.even_spec in Ev. destruct Ev as [h ->]. rewrite Nat.mul_comm, Nat.div_mul by lia. lia. }
  rewrite I. f_equal. rewrite idft_tab, !tab_map. apply tab_ext. intros j Hj.
  rewrite nofnat_R. reflexivity.
Qed.

(** ** The stream *)

Lemma bandpass_yields low high sr n (it : Iter R) q (x : nat -> R) : (1 <= n)%nat -> yields it (tab (q * n) x) ->
  yields (bandpass exact_real_fft low high it sr n)
         (tab (q * n) (fun i => bp_out n (in_band low high sr n) (fun j => x (i / n * n + j)%nat) (i mod n))).
Proof.
  intros Hn Hy. pose proof (chunks_yields n it _ Hn Hy) as Hc. rewrite chunk_list_tab in Hc by exact Hn.
  unfold bandpass.
  pose proof (iflat_fn_yields
    (fun _ chunk => let? l := bp_block exact_real_fft low high sr n chunk in Ret (l, tt))
    (fun chunk => match bp_block exact_real_fft low high sr n chunk with Ret l => l | _ => [] end) _ _ Hc) as Y.
  rewrite (flat_map_tab n q (fun k => bp_out n (in_band low high sr n) (fun j => x (k * n + j)%nat))) in Y.
  - apply Y. intros c Hin. unfold tab in Hin at 1. apply in_map_iff in Hin. destruct Hin as (k & <- & _).
    rewrite bp_block_R by exact Hn. cbn [bind]. split; [reflexivity|]. destruct n; [lia|]. rewrite tab_S. discriminate.
  - intros i Hi. rewrite bp_block_R by exact Hn. reflexivity.
Qed.
