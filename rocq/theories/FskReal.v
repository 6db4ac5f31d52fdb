(** Tone energies, for the FSK theorems. *)
From Coq Require Import List Arith ZArith Reals Bool Lia Lra Psatz.
From Verif Require Import Base IterTheory IterModel IterProofs Spec SpecR Tab Num LibModel LibReal ChaosModel PskModel PskChain RSums PskReal FskModel.
Import ListNotations.
Local Open Scope R_scope.

(** The response of an n-sample correlator to a tone x radians per sample away (the Dirichlet kernel). *)
Definition kernel (n : nat) (x : R) : R := Rsum_n n (fun j => cos ((INR j - (INR n - 1) / 2) * x)).

Lemma Rsum_n_rev n f : Rsum_n n f = Rsum_n n (fun j => f (n - 1 - j)%nat).
Proof.
  induction n as [|n IH]; [reflexivity|]. change (S n) with (1 + n)%nat at 2. rewrite Rsum_n_add. cbn [Rsum_n].
  replace (S n - 1 - 0)%nat with n by lia. rewrite IH.
  rewrite (Rsum_n_ext n (fun j => f (S n - 1 - (1 + j))%nat) (fun j => f (n - 1 - j)%nat)) by (intros; f_equal; lia). lra.
Qed.

Lemma kernel_odd n x : Rsum_n n (fun j => sin ((INR j - (INR n - 1) / 2) * x)) = 0.
Proof.
  set (S := Rsum_n n _). assert (E : S = - S); [|lra]. unfold S at 1. rewrite Rsum_n_rev.
  replace (- S) with (-1 * S) by lra. unfold S. rewrite <- Rsum_n_scale. apply Rsum_n_ext. intros j Hj.
  replace ((INR (n - 1 - j) - (INR n - 1) / 2) * x) with (- ((INR j - (INR n - 1) / 2) * x)); [rewrite sin_neg; lra|].
  rewrite minus_INR, minus_INR by lia. cbn [INR]. lra.
Qed.

Lemma sum_cos_kernel n a x : Rsum_n n (fun j => cos (a + x * INR j)) = cos (a + x * ((INR n - 1) / 2)) * kernel n x.
Proof.
  set (c := (INR n - 1) / 2).
  rewrite (Rsum_n_ext n _ (fun j => cos (a + x * c) * cos ((INR j - c) * x) + - sin (a + x * c) * sin ((INR j - c) * x))).
  - rewrite Rsum_n_plus, !Rsum_n_scale. unfold c. rewrite kernel_odd. unfold kernel. lra.
  - intros j _. replace (a + x * INR j) with ((a + x * c) + (INR j - c) * x) by lra. rewrite cos_plus. lra.
Qed.
Lemma sum_sin_kernel n a x : Rsum_n n (fun j => sin (a + x * INR j)) = sin (a + x * ((INR n - 1) / 2)) * kernel n x.
Proof.
  set (c := (INR n - 1) / 2).
  rewrite (Rsum_n_ext n _ (fun j => sin (a + x * c) * cos ((INR j - c) * x) + cos (a + x * c) * sin ((INR j - c) * x))).
  - rewrite Rsum_n_plus, !Rsum_n_scale. unfold c. rewrite kernel_odd. unfold kernel. lra.
  - intros j _. replace (a + x * INR j) with ((a + x * c) + (INR j - c) * x) by lra. rewrite sin_plus. lra.
Qed.

Lemma kernel_closed n x : sin (x / 2) * kernel n x = sin (INR n * (x / 2)).
Proof.
  pose proof (sum_cos (x / 2) (- ((INR n - 1) / 2) * x) n) as S.
  replace (- ((INR n - 1) / 2) * x + 2 * (x / 2) * INR n - x / 2) with (INR n * (x / 2)) in S by lra.
  replace (- ((INR n - 1) / 2) * x - x / 2) with (- (INR n * (x / 2))) in S by lra. rewrite sin_neg in S.
  unfold kernel. rewrite (Rsum_n_ext n _ (fun j => cos (- ((INR n - 1) / 2) * x + 2 * (x / 2) * INR j))); [lra|].
  intros j _. f_equal. lra.
Qed.
Lemma kernel_0 n : kernel n 0 = INR n.
Proof.
  unfold kernel. rewrite (Rsum_n_ext n _ (fun _ => 1)); [rewrite Rsum_n_const; lra|]. intros j _. rewrite Rmult_0_r. apply cos_0.
Qed.
Lemma kernel_neg n x : kernel n (- x) = kernel n x.
Proof.
  unfold kernel. apply Rsum_n_ext. intros j _.
  replace ((INR j - (INR n - 1) / 2) * - x) with (- ((INR j - (INR n - 1) / 2) * x)) by lra. apply cos_neg.
Qed.

(** The energy a non-coherent correlator at w2 finds in a tone at w1. *)
Lemma tone_energy n a b w1 w2 :
  let I := Rsum_n n (fun j => cos (a + w1 * INR j) * cos (b + w2 * INR j)) in
  let Q := Rsum_n n (fun j => cos (a + w1 * INR j) * sin (b + w2 * INR j)) in
  4 * (I * I + Q * Q) =
  kernel n (w1 - w2) * kernel n (w1 - w2) + kernel n (w1 + w2) * kernel n (w1 + w2) +
  2 * kernel n (w1 - w2) * kernel n (w1 + w2) * cos (2 * a + w1 * (INR n - 1)).
Proof.
  intros I Q. set (c := (INR n - 1) / 2).
  assert (EI : 2 * I = cos (a - b + (w1 - w2) * c) * kernel n (w1 - w2) + cos (a + b + (w1 + w2) * c) * kernel n (w1 + w2)).
  { unfold c. rewrite <- !sum_cos_kernel, <- Rsum_n_plus. unfold I. rewrite <- Rsum_n_scale. apply Rsum_n_ext. intros j _.
    replace (a - b + (w1 - w2) * INR j) with ((a + w1 * INR j) - (b + w2 * INR j)) by lra.
    replace (a + b + (w1 + w2) * INR j) with ((a + w1 * INR j) + (b + w2 * INR j)) by lra.
    rewrite (cos_plus (a + w1 * INR j) (b + w2 * INR j)), (cos_minus (a + w1 * INR j) (b + w2 * INR j)). lra. }
  assert (EQ : 2 * Q = sin (a + b + (w1 + w2) * c) * kernel n (w1 + w2) + -1 * (sin (a - b + (w1 - w2) * c) * kernel n (w1 - w2))).
  { unfold c. rewrite <- !sum_sin_kernel, <- (Rsum_n_scale _ (-1)), <- Rsum_n_plus. unfold Q. rewrite <- Rsum_n_scale. apply Rsum_n_ext. intros j _.
    replace (a - b + (w1 - w2) * INR j) with ((a + w1 * INR j) - (b + w2 * INR j)) by lra.
    replace (a + b + (w1 + w2) * INR j) with ((a + w1 * INR j) + (b + w2 * INR j)) by lra.
    rewrite (sin_plus (a + w1 * INR j) (b + w2 * INR j)), (sin_minus (a + w1 * INR j) (b + w2 * INR j)). lra. }
  set (u := a - b + (w1 - w2) * c) in *. set (v := a + b + (w1 + w2) * c) in *.
  replace (2 * a + w1 * (INR n - 1)) with (u + v) by (unfold u, v, c; lra).
  set (d := kernel n (w1 - w2)) in *. set (s := kernel n (w1 + w2)) in *.
  replace (4 * (I * I + Q * Q)) with ((2 * I) * (2 * I) + (2 * Q) * (2 * Q)) by ring. rewrite EI, EQ, cos_plus.
  pose proof (sin2_cos2 u) as Pu. pose proof (sin2_cos2 v) as Pv. unfold Rsqr in Pu, Pv.
  transitivity (d * d * (sin u * sin u + cos u * cos u) + s * s * (sin v * sin v + cos v * cos v) + 2 * d * s * (cos u * cos v - sin u * sin v)); [ring|].
  rewrite Pu, Pv. ring.
Qed.

(** The four sums of the receiver. *)
Lemma fold4 n (f0 f1 f2 f3 : nat -> R) :
  fold_left (fun '(a0, a1, a2, a3) '(v0, v1, v2, v3) => (nadd a0 v0, nadd a1 v1, nadd a2 v2, nadd a3 v3))
    (tab n (fun j => (f0 j, f1 j, f2 j, f3 j))) (0, 0, 0, 0) = (Rsum_n n f0, Rsum_n n f1, Rsum_n n f2, Rsum_n n f3).
Proof.
  induction n as [|n IH]; [reflexivity|]. replace (S n) with (n + 1)%nat by lia. rewrite tab_add, fold_left_app, IH.
  cbn [tab seq map fold_left]. rewrite Nat.add_0_r. replace (n + 1)%nat with (S n) by lia. reflexivity.
Qed.

Lemma fsk_decide_R sr (fc sep : R) idx n (x : nat -> R) :
  let w f := 2 * PI * f / INR sr in
  let I f := Rsum_n n (fun j => x j * cos (w f * INR idx + w f * INR j)) in
  let Q f := Rsum_n n (fun j => x j * sin (w f * INR idx + w f * INR j)) in
  fsk_decide sr fc sep idx (tab n x) =
  if Rle_dec 0 (I (fc + sep / 2) * I (fc + sep / 2) + Q (fc + sep / 2) * Q (fc + sep / 2) -
                (I (fc - sep / 2) * I (fc - sep / 2) + Q (fc - sep / 2) * Q (fc - sep / 2))) then true else false.
Proof.
  intros w I Q. unfold fsk_decide. rewrite tab_index, tab_map. unfold fsk_products.
  change (@nofZ R NumR 0) with 0. rewrite fold4. cbn [nleb nsqr nadd nsub nmul ndiv ncos nsin nofZ npi NumR].
  assert (EI : forall f, Rsum_n n (fun j => x j * cos (2 * PI * f * (nofnat idx / nofnat sr + nofnat j / nofnat sr))) = I f).
  { intros f. apply Rsum_n_ext. intros j _. f_equal. f_equal. unfold w, nofnat. cbn. rewrite <- !INR_IZR_INZ. unfold Rdiv. ring. }
  assert (EQ : forall f, Rsum_n n (fun j => x j * sin (2 * PI * f * (nofnat idx / nofnat sr + nofnat j / nofnat sr))) = Q f).
  { intros f. apply Rsum_n_ext. intros j _. f_equal. f_equal. unfold w, nofnat. cbn. rewrite <- !INR_IZR_INZ. unfold Rdiv. ring. }
  rewrite !EI, !EQ. reflexivity.
Qed.
