(** The passband OFDM link over the reals. *)
From Coq Require Import List Arith ZArith Reals Bool Lia Lra Psatz.
From Verif Require Import Base IterTheory IterModel IterProofs Spec SpecR Tab Num LibModel LibReal
  ChaosModel PskModel PskChain CdmaModel FhProofs SpecC FftModel RSums PskReal Dft OfdmModel OfdmProofs OfdmReal OfdmWave OfdmLink.
Import ListNotations.
Local Open Scope R_scope.

Section Pass.
Variables (fc : R) (sr L : nat) (h : Z).
Hypothesis Hsr : (1 <= sr)%nat.
Hypothesis Hcyc : fc * INR L = IZR h * INR sr.
Hypothesis Hnyq : ~ (exists z : Z, 2 * fc = IZR z * INR sr).
Let th (i : nat) : R := 2 * PI * fc * (INR i / INR sr).

Lemma sr_pos : 0 < INR sr.
Proof. apply lt_0_INR. lia. Qed.

Lemma th_whole k : th (k * L) = 0 + 2 * PI * IZR (Z.of_nat k * h).
Proof.
  pose proof sr_pos. unfold th. rewrite mult_INR, mult_IZR, <- INR_IZR_INZ.
  replace (2 * PI * fc * (INR k * INR L / INR sr)) with (2 * PI * INR k * (fc * INR L) / INR sr) by (field; lra).
  rewrite Hcyc. field. lra.
Qed.
Lemma th_add k j : th (k * L + j) = th j + 2 * PI * IZR (Z.of_nat k * h).
Proof.
  replace (th (k * L + j)) with (th (k * L) + th j); [rewrite th_whole; lra|].
  pose proof sr_pos. unfold th. rewrite plus_INR. field. lra.
Qed.
Lemma cos_whole k : cos (th (k * L)) = 1.
Proof. rewrite th_whole, cos_add_2pi. apply cos_0. Qed.
Lemma sin_whole k : sin (th (k * L)) = 0.
Proof. rewrite th_whole, sin_add_2pi. apply sin_0. Qed.

Lemma double_sums : Rsum_n L (fun j => cos (2 * th j)) = 0 /\ Rsum_n L (fun j => sin (2 * th j)) = 0.
Proof.
  pose proof sr_pos as Hp. set (a := 2 * PI * fc / INR sr).
  assert (E : forall j, 2 * th j = 0 + 2 * a * INR j) by (intros j; unfold th, a; field; lra).
  destruct (sum_whole a 0 L (2 * h)) as [C S].
  - intros Z. apply sin_0_mult in Z. destruct Z as [z Hz]. apply Hnyq. exists z. unfold a in Hz. pose proof PI_RGT_0.
    apply (Rmult_eq_reg_l (PI / INR sr)).
    + replace (PI / INR sr * (2 * fc)) with (2 * PI * fc / INR sr) by (field; lra). rewrite Hz. field. lra.
    + unfold Rdiv. apply Rmult_integral_contrapositive. split; [lra|]. apply Rinv_neq_0_compat. lra.
  - unfold a. rewrite mult_IZR. replace (2 * (2 * PI * fc / INR sr) * INR L) with (4 * PI * (fc * INR L) / INR sr) by (field; lra).
    rewrite Hcyc. field. lra.
  - split; [rewrite <- C|rewrite <- S]; apply Rsum_n_ext; intros j _; rewrite E; reflexivity.
Qed.

Lemma sum_cc : Rsum_n L (fun j => cos (th j) * cos (th j)) = INR L / 2.
Proof.
  rewrite (Rsum_n_ext L _ (fun j => / 2 + / 2 * cos (2 * th j))) by (intros; rewrite cos_sq_half; lra).
  rewrite Rsum_n_plus, Rsum_n_scale, Rsum_n_const. destruct double_sums as [-> _]. lra.
Qed.
Lemma sum_ss : Rsum_n L (fun j => sin (th j) * sin (th j)) = INR L / 2.
Proof.
  rewrite (Rsum_n_ext L _ (fun j => / 2 + - / 2 * cos (2 * th j))) by (intros; rewrite sin_sq_half; lra).
  rewrite Rsum_n_plus, Rsum_n_scale, Rsum_n_const. destruct double_sums as [-> _]. lra.
Qed.
Lemma sum_sc : Rsum_n L (fun j => sin (th j) * cos (th j)) = 0.
Proof.
  rewrite (Rsum_n_ext L _ (fun j => / 2 * sin (2 * th j))) by (intros; rewrite sin_cos_half; lra).
  rewrite Rsum_n_scale. destruct double_sums as [_ ->]. lra.
Qed.

(** One transmitted sample, and the received symbol: the filter is one sample late. *)
Variables (M : nat) (x : nat -> CR).
Definition pass_sample (i : nat) : R := re (x (i / L)) * cos (th i) - im (x (i / L)) * sin (th i).
Let xe (k : nat) : CR := if (k <? M)%nat then x k else C0.

Lemma Rsum_n_late n f : Rsum_n n (fun j => f (S j)) = Rsum_n n f + (f n - f 0%nat).
Proof. induction n as [|n IH]; cbn [Rsum_n]; [lra|]. rewrite IH. lra. Qed.

Lemma late_sum (w : nat -> R) k : (1 <= L)%nat -> (k < M)%nat ->
  Rsum_n L (fun j => ext0 (M * L) (fun i => pass_sample i * w i) (k * L + 1 + j)) =
  Rsum_n L (fun j => (re (x k) * cos (th j) - im (x k) * sin (th j)) * w (k * L + j)%nat) +
  (re (xe (k + 1)) * w ((k + 1) * L)%nat - re (x k) * w (k * L)%nat).
Proof.
  intros HL Hk.
  set (f := fun j => ext0 (M * L) (fun i => pass_sample i * w i) (k * L + j)).
  rewrite (Rsum_n_ext L _ (fun j => f (S j))) by (intros; unfold f; f_equal; lia).
  rewrite Rsum_n_late. 
  assert (EF : forall j, (j < L)%nat -> f j = (re (x k) * cos (th j) - im (x k) * sin (th j)) * w (k * L + j)%nat).
  { intros j Hj. unfold f, ext0. destruct (Nat.ltb_spec (k * L + j) (M * L)); [|nia]. unfold pass_sample.
    rewrite Nat.div_add_l, Nat.div_small, Nat.add_0_r by lia. rewrite th_add, cos_add_2pi, sin_add_2pi. reflexivity. }
  f_equal; [apply Rsum_n_ext; exact EF|].
  assert (E0 : f 0%nat = re (x k) * w (k * L)%nat).
  { rewrite EF by lia. rewrite Nat.add_0_r. unfold th. cbn [INR]. replace (2 * PI * fc * (0 / INR sr)) with 0 by (unfold Rdiv; ring).
    rewrite cos_0, sin_0. ring. }
  assert (E1 : f L = re (xe (k + 1)) * w ((k + 1) * L)%nat).
  { unfold f, ext0, xe. replace (k * L + L)%nat with ((k + 1) * L)%nat by lia.
    destruct (Nat.ltb_spec ((k + 1) * L) (M * L)); destruct (Nat.ltb_spec (k + 1) M); try nia; [|cbn; ring].
    unfold pass_sample. rewrite Nat.div_mul by lia. rewrite cos_whole, sin_whole. ring. }
  rewrite E0, E1. reflexivity.
Qed.

Lemma received_symbol k : (1 <= L)%nat -> (k < M)%nat ->
  Cpx (Rsum_n L (fun j => ext0 (M * L) (fun i => pass_sample i * cos (th i)) (k * L + 1 + j)))
      (Rsum_n L (fun j => ext0 (M * L) (fun i => pass_sample i * - sin (th i)) (k * L + 1 + j))) =
  cadd (cmul (RtoC (INR L / 2)) (x k)) (RtoC (re (xe (k + 1)) - re (x k))).
Proof.
  intros HL Hk. rewrite !late_sum by assumption. rewrite !cos_whole, !sin_whole.
  rewrite (Rsum_n_ext L _ (fun j => re (x k) * (cos (th j) * cos (th j)) + - im (x k) * (sin (th j) * cos (th j))))
    by (intros; rewrite th_add, cos_add_2pi; ring).
  rewrite (Rsum_n_ext L (fun j => _ * - sin _) (fun j => - re (x k) * (sin (th j) * cos (th j)) + im (x k) * (sin (th j) * sin (th j))))
    by (intros; rewrite th_add, sin_add_2pi; ring).
  rewrite !Rsum_n_plus, !Rsum_n_scale, sum_cc, sum_ss, sum_sc. apply cpx_eq; cbn; ring.
Qed.

End Pass.

(** The error of one carrier: intersymbol interference from the late filter. *)
Section Isi.
Variables (N : nat) (F : nat -> CR) (A : R).
Hypothesis HN : (N <> 0)%nat.
Hypothesis HF : forall k, (k < N)%nat -> cmod (F k) <= A.

Lemma re_bin k : (k < N)%nat ->
  cmod (Csum_n N (fun j => cmul (RtoC (re (tone N F (Z.of_nat j)))) (root N (- (Z.of_nat j * Z.of_nat k))))) <= A.
Proof.
  intros Hk. set (G := Csum_n _ _).
  assert (E : cmul (RtoC 2) G = cadd (F k) (cconj (F ((N - k) mod N)%nat))).
  { rewrite <- (bin_of_tone N F k HN Hk).
    rewrite <- (bin_of_tone N F ((N - k) mod N)%nat HN) by (apply Nat.mod_upper_bound; exact HN).
    rewrite <- Csum_conj, <- Csum_plus. unfold G. rewrite <- Csum_scale. apply Csum_ext. intros j _.
    set (z := tone N F (Z.of_nat j)).
    assert (R1 : root N (- (Z.of_nat j * Z.of_nat ((N - k) mod N))) = root N (Z.of_nat j * Z.of_nat k)).
    { rewrite Nat2Z.inj_mod, Nat2Z.inj_sub by lia.
      pose proof (Z.div_mod (Z.of_nat N - Z.of_nat k) (Z.of_nat N) ltac:(lia)) as D.
      set (q := ((Z.of_nat N - Z.of_nat k) / Z.of_nat N)%Z) in *. set (r := ((Z.of_nat N - Z.of_nat k) mod Z.of_nat N)%Z) in *.
      replace (- (Z.of_nat j * r))%Z with (Z.of_nat j * Z.of_nat k + Z.of_nat N * (Z.of_nat j * q - Z.of_nat j))%Z by nia.
      rewrite root_add, root_period by exact HN. ring. }
    rewrite R1. rewrite <- (root_conj N (Z.of_nat j * Z.of_nat k)). apply cpx_eq; cbn; ring. }
  assert (C : cmod (cmul (RtoC 2) G) <= A + A).
  { rewrite E. eapply Rle_trans; [apply cmod_triangle|]. rewrite cmod_conj.
    pose proof (HF k Hk). pose proof (HF ((N - k) mod N)%nat ltac:(apply Nat.mod_upper_bound; exact HN)). lra. }
  rewrite cmod_mul, cmod_RtoC, Rabs_pos_eq in C by lra. lra.
Qed.

Lemma isi_bound k (y : R) : (k < N)%nat -> Rabs y <= A ->
  cmod (Csum_n N (fun j => cmul (RtoC ((if (j =? N - 1)%nat then y else re (tone N F (Z.of_nat j + 1))) - re (tone N F (Z.of_nat j))))
                                (root N (- (Z.of_nat j * Z.of_nat k))))) <= 4 * A.
Proof.
  intros Hk Hy.
  set (g := fun j : nat => cmul (RtoC (re (tone N F (Z.of_nat j)))) (root N (- (Z.of_nat j * Z.of_nat k)))).
  set (e := cmul (RtoC (y - re (tone N F (Z.of_nat N)))) (root N (- (Z.of_nat (N - 1) * Z.of_nat k)))).
  assert (E : Csum_n N (fun j => cmul (RtoC ((if (j =? N - 1)%nat then y else re (tone N F (Z.of_nat j + 1))) - re (tone N F (Z.of_nat j))))
                                (root N (- (Z.of_nat j * Z.of_nat k)))) =
     cadd (cmul (cadd (root N (Z.of_nat k)) (copp C1)) (Csum_n N g)) e).
  { rewrite (Csum_ext N _ (fun j => cadd (cadd
       (cmul (root N (Z.of_nat k)) (cmul (RtoC (re (tone N F (Z.of_nat j + 1)))) (root N (- ((Z.of_nat j + 1) * Z.of_nat k)))))
       (cmul (copp C1) (g j))) (if (j =? N - 1)%nat then e else C0))).
    - rewrite !Csum_plus, !Csum_scale.
      rewrite (Csum_shift_up N (fun z => cmul (RtoC (re (tone N F z))) (root N (- (z * Z.of_nat k))))); [|exact HN|].
      + fold g. rewrite (Csum_single N (N - 1) (fun j => if (j =? N - 1)%nat then e else C0)).
        * rewrite Nat.eqb_refl. ring.
        * lia.
        * intros j _ Hj. apply Nat.eqb_neq in Hj. rewrite Hj. reflexivity.
      + intros z. replace (z + Z.of_nat N)%Z with (z + 1 * Z.of_nat N)%Z by lia. rewrite tone_period by exact HN. f_equal.
        replace (- ((z + 1 * Z.of_nat N) * Z.of_nat k))%Z with (- (z * Z.of_nat k) + Z.of_nat N * - Z.of_nat k)%Z by ring.
        rewrite root_add, root_period by exact HN. ring.
    - intros j Hj. unfold g.
      replace (- (Z.of_nat j * Z.of_nat k))%Z with (Z.of_nat k + - ((Z.of_nat j + 1) * Z.of_nat k))%Z at 1 by ring.
      rewrite root_add.
      assert (Rt : root N (- (Z.of_nat j * Z.of_nat k)) = cmul (root N (Z.of_nat k)) (root N (- ((Z.of_nat j + 1) * Z.of_nat k)))).
      { rewrite <- root_add. f_equal. ring. }
      destruct (Nat.eqb_spec j (N - 1)) as [->|N1].
      + unfold e. rewrite Rt. replace (Z.of_nat (N - 1) + 1)%Z with (Z.of_nat N) by lia. apply cpx_eq; cbn; ring.
      + rewrite Rt. apply cpx_eq; cbn; ring. }
  rewrite E. eapply Rle_trans; [apply cmod_triangle|]. rewrite cmod_mul.
  assert (B1 : cmod (cadd (root N (Z.of_nat k)) (copp C1)) <= 2).
  { eapply Rle_trans; [apply cmod_triangle|]. rewrite cmod_opp, cmod_root. unfold C1. change (Cpx 1 0) with (RtoC 1).
    rewrite cmod_RtoC, Rabs_R1. lra. }
  assert (B2 : cmod (Csum_n N g) <= A) by (apply re_bin; exact Hk).
  assert (B3 : cmod e <= A + A).
  { unfold e. rewrite cmod_mul, cmod_root, cmod_RtoC, Rmult_1_r. eapply Rle_trans; [apply Rabs_triang|]. rewrite Rabs_Ropp.
    pose proof (cmod_re (tone N F (Z.of_nat N))). pose proof (tone_bound N F A (Z.of_nat N) HN HF). lra. }
  pose proof (cmod_nonneg (cadd (root N (Z.of_nat k)) (copp C1))). pose proof (cmod_nonneg (Csum_n N g)). nra.
Qed.
End Isi.
