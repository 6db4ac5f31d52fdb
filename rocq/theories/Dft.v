(** Complex sums and the discrete Fourier transform over the reals. *)
From Coq Require Import List Arith ZArith Reals Lia Lra Ring Psatz.
From Verif Require Import Spec SpecR Tab Num SpecC RSums PskReal FftModel.
Import ListNotations.
Local Open Scope R_scope.

(** ** The ring of complex numbers *)

Notation CR := (cpx R).
Definition C0 : CR := Cpx 0 0.
Definition C1 : CR := Cpx 1 0.
Definition copp (a : CR) : CR := Cpx (- re a) (- im a).
Definition RtoC (x : R) : CR := Cpx x 0.

Lemma cpx_eq (a b : CR) : re a = re b -> im a = im b -> a = b.
Proof. destruct a, b; cbn. intros -> ->. reflexivity. Qed.

Lemma cpx_ring_theory : ring_theory C0 C1 (@cadd R _) (@cmul R _) (@csub R _) copp eq.
Proof. constructor; intros; apply cpx_eq; cbn; ring. Qed.
Add Ring CpxRing : cpx_ring_theory.

Lemma cmul_integral (a b : CR) : cmul a b = C0 -> a <> C0 -> b = C0.
Proof.
  intros E N. destruct a as [x y], b as [u v]. unfold cmul, C0 in E. cbn in E. injection E as E1 E2.
  assert (P : 0 < x * x + y * y).
  { destruct (Req_dec x 0) as [X|X]; destruct (Req_dec y 0) as [Y|Y]; try nra. exfalso. apply N. subst. reflexivity. }
  assert (Hu : (x * x + y * y) * u = 0) by (replace ((x * x + y * y) * u) with (x * (x * u - y * v) + y * (x * v + y * u)) by ring; rewrite E1, E2; ring).
  assert (Hv : (x * x + y * y) * v = 0) by (replace ((x * x + y * y) * v) with (x * (x * v + y * u) - y * (x * u - y * v)) by ring; rewrite E1, E2; ring).
  apply cpx_eq; cbn.
  - apply Rmult_integral in Hu. destruct Hu; lra.
  - apply Rmult_integral in Hv. destruct Hv; lra.
Qed.

(** ** Sums *)

Lemma Csum_ext n f g : (forall j, (j < n)%nat -> f j = g j) -> Csum_n n f = Csum_n n g.
Proof. intros H. induction n as [|n IH]; [reflexivity|]. cbn [Csum_n]. rewrite IH by (intros; apply H; lia). rewrite H by lia. reflexivity. Qed.
Lemma Csum_0 n f : (forall j, (j < n)%nat -> f j = C0) -> Csum_n n f = C0.
Proof.
  intros H. induction n as [|n IH]; [reflexivity|]. cbn [Csum_n]. rewrite IH by (intros; apply H; lia). rewrite H by lia. ring.
Qed.
Lemma Csum_plus n f g : Csum_n n (fun j => cadd (f j) (g j)) = cadd (Csum_n n f) (Csum_n n g).
Proof. induction n as [|n IH]; cbn [Csum_n]; [change (Cpx 0 0) with C0; ring|]. rewrite IH. ring. Qed.
Lemma Csum_scale n c f : Csum_n n (fun j => cmul c (f j)) = cmul c (Csum_n n f).
Proof. induction n as [|n IH]; cbn [Csum_n]; [change (Cpx 0 0) with C0; ring|]. rewrite IH. ring. Qed.
Lemma Csum_scale_r n c f : Csum_n n (fun j => cmul (f j) c) = cmul (Csum_n n f) c.
Proof. induction n as [|n IH]; cbn [Csum_n]; [change (Cpx 0 0) with C0; ring|]. rewrite IH. ring. Qed.
Lemma Csum_swap a b (f : nat -> nat -> CR) :
  Csum_n a (fun i => Csum_n b (fun j => f i j)) = Csum_n b (fun j => Csum_n a (fun i => f i j)).
Proof.
  induction a as [|a IH]; cbn [Csum_n].
  - symmetry. apply Csum_0. reflexivity.
  - rewrite IH, <- Csum_plus. reflexivity.
Qed.
Lemma Csum_const n c : Csum_n n (fun _ => c) = cmul (RtoC (INR n)) c.
Proof.
  induction n as [|n IH]; cbn [Csum_n].
  - apply cpx_eq; cbn; ring.
  - rewrite IH, S_INR. apply cpx_eq; cbn; ring.
Qed.
Lemma Csum_single n k f : (k < n)%nat -> (forall j, (j < n)%nat -> j <> k -> f j = C0) -> Csum_n n f = f k.
Proof.
  intros Hk H. induction n as [|n IH]; [lia|]. cbn [Csum_n]. destruct (Nat.eq_dec k n) as [->|N].
  - rewrite Csum_0 by (intros; apply H; lia). ring.
  - rewrite IH by (try (intros; apply H); lia). rewrite (H n) by lia. ring.
Qed.
Lemma Csum_re n f : re (Csum_n n f) = Rsum_n n (fun j => re (f j)).
Proof. induction n as [|n IH]; [reflexivity|]. cbn [Csum_n Rsum_n]. rewrite <- IH. reflexivity. Qed.
Lemma Csum_im n f : im (Csum_n n f) = Rsum_n n (fun j => im (f j)).
Proof. induction n as [|n IH]; [reflexivity|]. cbn [Csum_n Rsum_n]. rewrite <- IH. reflexivity. Qed.
Lemma Csum_add a b f : Csum_n (a + b) f = cadd (Csum_n a f) (Csum_n b (fun j => f (a + j)%nat)).
Proof.
  induction b as [|b IH]; [rewrite Nat.add_0_r; cbn [Csum_n]; change (Cpx 0 0) with C0; ring|].
  rewrite Nat.add_succ_r. cbn [Csum_n]. rewrite IH. ring.
Qed.
Lemma Csum_conj n f : Csum_n n (fun j => cconj (f j)) = cconj (Csum_n n f).
Proof. induction n as [|n IH]; cbn [Csum_n]; [apply cpx_eq; cbn; ring|]. rewrite IH. apply cpx_eq; cbn; ring. Qed.

(** A sum over a whole period does not depend on where it starts. *)
Lemma Csum_rotate n f : (forall j, f (j + n)%nat = f j) -> forall k, Csum_n n (fun j => f (k + j)%nat) = Csum_n n f.
Proof.
  intros P k. induction k as [|k IH]; [reflexivity|]. rewrite <- IH. destruct n as [|n]; [reflexivity|].
  replace (S n) with (n + 1)%nat at 1 by lia. replace (S n) with (1 + n)%nat at 1 by lia.
  rewrite (Csum_add n 1), (Csum_add 1 n). cbn [Csum_n].
  replace (S k + (n + 0))%nat with (k + 0 + S n)%nat by lia. rewrite P.
  rewrite (Csum_ext n (fun j => f (k + (1 + j))%nat) (fun j => f (S k + j)%nat)) by (intros; f_equal; lia).
  change (Cpx 0 0) with C0. ring.
Qed.

(** ** Roots of unity *)

Lemma cis_add x y : cis (x + y) = cmul (cis x) (cis y).
Proof. apply cpx_eq; cbn; [apply cos_plus|]. rewrite sin_plus. ring. Qed.
Lemma cis_0 : cis 0 = C1.
Proof. apply cpx_eq; cbn; [apply cos_0|apply sin_0]. Qed.
Lemma cis_2pi (z : Z) : cis (2 * PI * IZR z) = C1.
Proof.
  unfold cis. replace (2 * PI * IZR z) with (0 + 2 * PI * IZR z) by ring.
  rewrite cos_add_2pi, sin_add_2pi, cos_0, sin_0. reflexivity.
Qed.

Lemma root_add n a b : root n (a + b) = cmul (root n a) (root n b).
Proof. unfold root. rewrite <- cis_add. f_equal. rewrite plus_IZR. unfold Rdiv. ring. Qed.
Lemma root_0 n : root n 0 = C1.
Proof. unfold root. rewrite <- cis_0. f_equal. unfold Rdiv. ring. Qed.
Lemma root_period n z : (n <> 0)%nat -> root n (Z.of_nat n * z) = C1.
Proof.
  intros Hn. unfold root. rewrite <- (cis_2pi z). f_equal. rewrite mult_IZR, <- INR_IZR_INZ. field.
  apply not_0_INR. exact Hn.
Qed.
Lemma root_mod n z : (n <> 0)%nat -> root n (z mod Z.of_nat n) = root n z.
Proof.
  intros Hn. rewrite (Z.div_mod z (Z.of_nat n)) at 2 by lia. rewrite root_add, root_period by exact Hn. ring.
Qed.
Lemma root_inv n z : cmul (root n z) (root n (- z)) = C1.
Proof. rewrite <- root_add, Z.add_opp_diag_r. apply root_0. Qed.
Lemma root_conj n z : cconj (root n z) = root n (- z).
Proof.
  unfold root, cis, cconj. cbn. rewrite opp_IZR.
  replace (2 * PI * - IZR z / INR n) with (- (2 * PI * IZR z / INR n)) by (unfold Rdiv; ring).
  rewrite cos_neg, sin_neg. reflexivity.
Qed.

Lemma root_1 n z : (n <> 0)%nat -> root n z = C1 -> (Z.of_nat n | z)%Z.
Proof.
  intros Hn E. unfold root, cis, C1 in E. injection E as Ec Es.
  set (x := 2 * PI * IZR z / INR n) in *.
  assert (Hs : sin (x / 2) = 0).
  { pose proof (cos_2a_sin (x / 2)) as P. replace (2 * (x / 2)) with x in P by field. rewrite Ec in P. nra. }
  apply sin_0_mult in Hs. destruct Hs as [k Hk]. exists k. apply eq_IZR. rewrite mult_IZR, <- INR_IZR_INZ.
  assert (INR n <> 0) by (apply not_0_INR; exact Hn). pose proof PI_RGT_0 as PP.
  unfold x in Hk. apply (Rmult_eq_reg_l (PI / INR n)).
  - replace (PI / INR n * IZR z) with (2 * PI * IZR z / INR n / 2) by (field; assumption). rewrite Hk. field. assumption.
  - unfold Rdiv. apply Rmult_integral_contrapositive. split; [lra|]. apply Rinv_neq_0_compat. assumption.
Qed.

(** Geometric sum. *)
Lemma root_geometric n z m : cmul (csub (root n z) C1) (Csum_n m (fun j => root n (z * Z.of_nat j))) =
  csub (root n (z * Z.of_nat m)) C1.
Proof.
  induction m as [|m IH].
  - cbn [Csum_n]. rewrite Z.mul_0_r, root_0. change (Cpx 0 0) with C0. ring.
  - cbn [Csum_n]. rewrite Nat2Z.inj_succ, <- Z.add_1_r, Z.mul_add_distr_l, Z.mul_1_r, root_add.
    transitivity (cadd (cmul (csub (root n z) C1) (Csum_n m (fun j => root n (z * Z.of_nat j))))
                       (cmul (csub (root n z) C1) (root n (z * Z.of_nat m)))); [ring|].
    rewrite IH. ring.
Qed.

Lemma root_sum n z : (n <> 0)%nat ->
  Csum_n n (fun j => root n (z * Z.of_nat j)) = if (z mod Z.of_nat n =? 0)%Z then RtoC (INR n) else C0.
Proof.
  intros Hn. destruct (Z.eqb_spec (z mod Z.of_nat n) 0) as [E|E].
  - rewrite (Csum_ext n _ (fun _ => C1)).
    + rewrite Csum_const. ring.
    + intros j _. apply Z.mod_divide in E; [|lia]. destruct E as [k ->].
      replace (k * Z.of_nat n * Z.of_nat j)%Z with (Z.of_nat n * (k * Z.of_nat j))%Z by ring. apply root_period. exact Hn.
  - apply (cmul_integral (csub (root n z) C1)).
    + rewrite root_geometric. rewrite Z.mul_comm, root_period by exact Hn. ring.
    + intros H. apply E. apply Z.mod_divide; [lia|]. apply root_1; [exact Hn|].
      transitivity (cadd (csub (root n z) C1) C1); [ring|]. rewrite H. ring.
Qed.

(** ** The transform *)

Lemma dft_tab n x : dft (tab n x) =
  tab n (fun k => Csum_n n (fun j => cmul (x j) (root n (- (Z.of_nat j * Z.of_nat k))))).
Proof.
  unfold dft. rewrite tab_length. apply tab_ext. intros k Hk. apply Csum_ext. intros j Hj. rewrite tab_nth by exact Hj. reflexivity.
Qed.
Lemma idft_tab n x : idft (tab n x) =
  tab n (fun k => Csum_n n (fun j => cmul (x j) (root n (Z.of_nat j * Z.of_nat k)))).
Proof.
  unfold idft. rewrite tab_length. apply tab_ext. intros k Hk. apply Csum_ext. intros j Hj. rewrite tab_nth by exact Hj. reflexivity.
Qed.

Lemma mod_diff_0 n (a b : nat) : (a < n)%nat -> (b < n)%nat ->
  ((Z.of_nat a - Z.of_nat b) mod Z.of_nat n =? 0)%Z = (a =? b)%nat.
Proof.
  intros Ha Hb. destruct (Nat.eqb_spec a b) as [->|N].
  - rewrite Z.sub_diag, Z.mod_0_l by lia. reflexivity.
  - apply Z.eqb_neq. intros E. apply Z.mod_divide in E; [|lia]. destruct E as [k E].
    assert (k = 0)%Z by nia. subst k. lia.
Qed.

Lemma dft_idft n x : (n <> 0)%nat ->
  forall k, (k < n)%nat ->
  Csum_n n (fun j => cmul (Csum_n n (fun i => cmul (x i) (root n (Z.of_nat i * Z.of_nat j))))
                          (root n (- (Z.of_nat j * Z.of_nat k)))) = cmul (RtoC (INR n)) (x k).
Proof.
  intros Hn k Hk.
  rewrite (Csum_ext n _ (fun j => Csum_n n (fun i => cmul (x i) (root n ((Z.of_nat i - Z.of_nat k) * Z.of_nat j))))).
  - rewrite Csum_swap. rewrite (Csum_single n k).
    + rewrite Csum_scale, root_sum, mod_diff_0, Nat.eqb_refl by assumption. ring.
    + exact Hk.
    + intros i Hi N. rewrite Csum_scale, root_sum, mod_diff_0 by assumption. apply Nat.eqb_neq in N. rewrite N. ring.
  - intros j Hj. rewrite <- Csum_scale_r. apply Csum_ext. intros i Hi.
    replace ((Z.of_nat i - Z.of_nat k) * Z.of_nat j)%Z with (Z.of_nat i * Z.of_nat j + - (Z.of_nat j * Z.of_nat k))%Z by ring.
    rewrite root_add. ring.
Qed.

Lemma dft_idft_list x : dft (idft x) = map (cmul (RtoC (INR (length x)))) x.
Proof.
  destruct (Nat.eq_dec (length x) 0) as [L|L]; [destruct x; [reflexivity|discriminate]|].
  unfold idft. rewrite dft_tab. rewrite (map_tab_nth _ x C0). apply tab_ext. intros k Hk. apply dft_idft; assumption.
Qed.
