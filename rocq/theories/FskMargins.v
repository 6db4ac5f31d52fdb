(** The FSK link at the parameters of the test in src/fm.rs:88-117: by how much each symbol is won or lost. *)
From Coq Require Import List Arith ZArith Reals Bool Lia Lra Psatz.
From Flocq Require Import Core.
From Verif Require Import Base RSums PskReal FskReal Props_Fsk.
Import ListNotations.
Local Open Scope R_scope.

Section Test.
Variable sr : nat.
Hypothesis Hr : 1800 / INR sr = 2 / 49.
Let u := PI / 490.

Lemma test_tone b : tone sr 1800 b = (if b then 41 else 39) * u.
Proof.
  unfold tone, u. replace (1800 + (if b then 1 else -1) * (5 / 100 * 1800 / 2)) with ((if b then 41 else 39) / 40 * 1800) by (destruct b; lra).
  replace (2 * PI * ((if b then 41 else 39) / 40 * 1800) / INR sr) with (2 * PI * ((if b then 41 else 39) / 40) * (1800 / INR sr)) by (unfold Rdiv; ring).
  rewrite Hr. destruct b; field.
Qed.

Lemma u_bounds : 64 / 10000 < u < 643 / 100000 /\ PI = 490 * u.
Proof. pose proof PI_bounds as PB. split; [unfold u; lra|unfold u; field]. Qed.

(** The kernels. *)
Definition test_p (b : bool) : R := kernel 49 (2 * ((if b then 41 else 39) * u)).
Definition test_d : R := kernel 49 (2 * u).

Lemma sin_upper5 x : 0 <= x <= PI -> sin x <= x - x * x * x / 6 + x * x * x * x * x / 120.
Proof. intros [H1 H2]. destruct (sin_bound x 0 H1 H2) as [_ B]. unfold sin_approx, sin_term in B. cbn in B. lra. Qed.

Lemma test_kernels : 4818 / 100 <= test_d <= 4825 / 100 /\ 1235 / 1000 <= - test_p false <= 129 / 100 /\ 118 / 100 <= test_p true <= 123 / 100 /\
  kernel 49 (80 * u) = 0.
Proof.
  destruct u_bounds as [Hu Hpi]. assert (N49 : INR 49 = 49) by (rewrite INR_IZR_INZ; reflexivity).
  set (s := sin (49 * u)).
  assert (Kd : sin u * test_d = s).
  { pose proof (kernel_closed 49 (2 * u)) as K. rewrite N49 in K. replace (2 * u / 2) with u in K by field. exact K. }
  assert (Kp : sin (39 * u) * test_p false = - s).
  { pose proof (kernel_closed 49 (2 * (39 * u))) as K. rewrite N49 in K. replace (2 * (39 * u) / 2) with (39 * u) in K by field.
    change (kernel 49 (2 * (39 * u))) with (test_p false) in K. rewrite K. unfold s.
    rewrite <- sin_neg. replace (49 * (39 * u)) with (- (49 * u) + 2 * PI * IZR 2) by (rewrite Hpi; cbn; ring). apply sin_add_2pi. }
  assert (Kq : sin (41 * u) * test_p true = s).
  { pose proof (kernel_closed 49 (2 * (41 * u))) as K. rewrite N49 in K. replace (2 * (41 * u) / 2) with (41 * u) in K by field.
    change (kernel 49 (2 * (41 * u))) with (test_p true) in K. rewrite K. unfold s.
    replace (49 * (41 * u)) with (49 * u + 2 * PI * IZR 2) by (rewrite Hpi; cbn; ring). apply sin_add_2pi. }
  assert (Ks : kernel 49 (80 * u) = 0) by (apply (kernel_whole 49 _ 4); [lra|]; rewrite N49, Hpi; lra).
  assert (S1 : 49 * u - 49 * u * (49 * u) * (49 * u) / 6 <= s) by (apply sin_lower; lra).
  assert (S2 : s <= 49 * u - 49 * u * (49 * u) * (49 * u) / 6 + 49 * u * (49 * u) * (49 * u) * (49 * u) * (49 * u) / 120) by (apply sin_upper5; lra).
  assert (U1 : sin u <= u) by (apply sin_upper; lra).
  assert (U2 : u - u * u * u / 6 <= sin u) by (apply sin_lower; lra).
  assert (W1 : sin (39 * u) <= 39 * u) by (apply sin_upper; lra).
  assert (W0 : 39 * u - 39 * u * (39 * u) * (39 * u) / 6 <= sin (39 * u)) by (apply sin_lower; lra).
  assert (X1 : sin (41 * u) <= 41 * u - 41 * u * (41 * u) * (41 * u) / 6 + 41 * u * (41 * u) * (41 * u) * (41 * u) * (41 * u) / 120) by (apply sin_upper5; lra).
  assert (X0 : 41 * u - 41 * u * (41 * u) * (41 * u) / 6 <= sin (41 * u)) by (apply sin_lower; lra).
  set (d := test_d) in *. set (p0 := test_p false) in *. set (p1 := test_p true) in *. split; [|split; [|split; [|exact Ks]]]; clear Ks; clearbody d p0 p1.
  all: set (su := sin u) in *; set (sw := sin (39 * u)) in *; set (sx := sin (41 * u)) in *; clearbody su sw sx s u; clear Hpi N49 Hr.
  all: assert (u2 : 4096 / 100000000 < u * u < 4135 / 100000000) by nra.
  all: assert (Hs1 : (48187 / 1000) * u <= s) by nra.
  all: assert (Hs2 : s <= (48208 / 1000) * u).
  1, 3, 5: (replace (49 * u - 49 * u * (49 * u) * (49 * u) / 6 + 49 * u * (49 * u) * (49 * u) * (49 * u) * (49 * u) / 120)
    with (u * (49 - 49 ^ 3 / 6 * (u * u) + 49 ^ 5 / 120 * ((u * u) * (u * u)))) in S2 by field; nra).
  all: assert (Hu0 : 0 < u) by lra.
  - assert (Hsu : (99999 / 100000) * u <= su) by nra. split.
    + assert (0 < d) by nra. assert (s <= u * d) by nra. nra.
    + assert (0 < d) by nra. assert ((99999 / 100000) * u * d <= s) by nra. nra.
  - assert (38 * u < sw) by nra. split; nra.
  - assert (405 / 10 * u <= sx) by nra. assert (sx <= 406 / 10 * u) by nra. split; nra.
Qed.

Lemma cos_upper4 x : - PI / 2 <= x <= PI / 2 -> cos x <= 1 - x * x / 2 + x * x * x * x / 24.
Proof. intros [H1 H2]. destruct (cos_bound x 0 H1 H2) as [_ B]. unfold cos_approx, cos_term in B. cbn in B. lra. Qed.

Lemma cos_near x : Rabs x <= 108 -> 3 / 4 <= cos (x * u).
Proof.
  intros Hx. destruct u_bounds as [Hu Hpi]. apply Flocq.Core.Raux.Rabs_le_inv in Hx.
  assert (L : 1 - (x * u) * (x * u) / 2 <= cos (x * u)) by (apply cos_lower; nra).
  assert (x * x <= 108 * 108) by nra. assert (0 <= u * u <= 4135 / 100000000) by (clear - Hu; nra).
  replace (x * u * (x * u)) with (x * x * (u * u)) in L by ring. assert (x * x * (u * u) <= 108 * 108 * (4135 / 100000000)) by (apply Rmult_le_compat; nra). lra.
Qed.

Lemma cos_far x : 186 <= Rabs x <= 490 -> cos (x * u) <= 4 / 10.
Proof.
  intros Hx. destruct u_bounds as [Hu Hpi].
  assert (E : cos (x * u) = cos (Rabs x * u)).
  { unfold Rabs. destruct (Rcase_abs x); [|reflexivity]. rewrite <- cos_neg. f_equal. ring. }
  rewrite E. apply Rle_trans with (cos (186 * u)).
  - apply cos_decr_1; nra.
  - assert (L : cos (186 * u) <= 1 - (186 * u) * (186 * u) / 2 + (186 * u) * (186 * u) * (186 * u) * (186 * u) / 24) by (apply cos_upper4; lra).
    apply Rle_trans with (1 := L). assert (u2 : 4096 / 100000000 < u * u < 4135 / 100000000) by (clear - Hu; nra).
    replace (1 - (186 * u) * (186 * u) / 2 + (186 * u) * (186 * u) * (186 * u) * (186 * u) / 24)
      with (1 - 186 * 186 * (u * u) / 2 + 186 * 186 * 186 * 186 * ((u * u) * (u * u)) / 24) by field.
    assert ((u * u) * (u * u) <= 4135 / 100000000 * (4135 / 100000000)) by (apply Rmult_le_compat; lra). lra.
Qed.

(** The symbols that are lost: a 0 in place 0, 8 or 9 of every ten, a 1 in place 4, 5 or 6. *)
Definition lost (k : nat) (b : bool) : bool :=
  if b then (4 <=? k mod 10)%nat && (k mod 10 <=? 6)%nat else (k mod 10 =? 0)%nat || (8 <=? k mod 10)%nat.

Lemma test_cos k (b : bool) : let w := (if b then 41 else 39) * u in
  exists c, cos (2 * w * INR (k * 49) + w * (49 - 1)) = (if b then - c else c) /\ (if lost k b then 3 / 4 <= c else c <= 4 / 10).
Proof.
  intros w. destruct u_bounds as [Hu Hpi]. unfold lost.
  pose proof (Nat.div_mod_eq k 10) as DM. pose proof (Nat.mod_upper_bound k 10 ltac:(lia)) as MB.
  set (r := (k mod 10)%nat) in *. set (q := (k / 10)%nat) in *.
  assert (Ek : INR (k * 49) = 49 * (10 * INR q + INR r)).
  { rewrite mult_INR, DM, plus_INR, mult_INR. replace (INR 49) with 49 by (rewrite INR_IZR_INZ; reflexivity).
    replace (INR 10) with 10 by (rewrite INR_IZR_INZ; reflexivity). ring. }
  assert (Rt : forall x, (r = x)%nat -> INR r = IZR (Z.of_nat x)) by (intros x ->; apply INR_IZR_INZ).
  set (X := if b then 98 * INR r + 8 - 490 else 98 * INR r + 88).
  exists (cos (X * u)). split.
  - rewrite Ek. destruct b; unfold X, w.
    + transitivity (cos (98 * INR r * u + 8 * u + 2 * PI * IZR (41 * Z.of_nat q + 4 * Z.of_nat r + 2))).
      * f_equal. rewrite !plus_IZR, !mult_IZR, <- !INR_IZR_INZ, Hpi. ring.
      * rewrite cos_add_2pi. rewrite <- neg_cos. f_equal. rewrite Hpi. ring.
    + transitivity (cos (- ((98 * INR r + 88) * u) + 2 * PI * IZR (39 * Z.of_nat q + 4 * Z.of_nat r + 2))).
      * f_equal. rewrite !plus_IZR, !mult_IZR, <- !INR_IZR_INZ, Hpi. ring.
      * rewrite cos_add_2pi. apply cos_neg.
  - assert (W : forall y, cos (y * u) = cos ((y - 980) * u)).
    { intros y. rewrite <- (cos_add_2pi ((y - 980) * u) 1). f_equal. rewrite Hpi. ring. }
    clearbody r q. destruct b; unfold X; clear X w Ek DM.
    + do 10 (destruct r as [|r]; [cbn [Nat.leb Nat.eqb andb orb]; rewrite (Rt _ eq_refl); cbn [Z.of_nat Pos.of_succ_nat Pos.succ];
        first [apply cos_near; apply Rabs_le; lra | apply cos_far; unfold Rabs; destruct (Rcase_abs _); lra]|]). lia.
    + do 10 (destruct r as [|r]; [cbn [Nat.leb Nat.eqb andb orb]; rewrite (Rt _ eq_refl); cbn [Z.of_nat Pos.of_succ_nat Pos.succ];
        first [apply cos_near; apply Rabs_le; lra | apply cos_far; unfold Rabs; destruct (Rcase_abs _); lra |
               rewrite W; first [apply cos_near; apply Rabs_le; lra | apply cos_far; unfold Rabs; destruct (Rcase_abs _); lra]]|]). lia.
Qed.

(** No symbol is close to the edge. *)
Lemma test_margins k b : if lost k b then fsk_margin sr 49 1800 k b <= -5 else 20 <= fsk_margin sr 49 1800 k b.
Proof.
  destruct test_kernels as (Hd & Hp0 & Hp1 & Ks). destruct (test_cos k b) as (c & Ec & Hc).
  unfold fsk_margin. rewrite !test_tone. replace (INR 49) with 49 by (rewrite INR_IZR_INZ; reflexivity).
  rewrite Ec. fold (test_p b).
  replace ((if b then 41 else 39) * u + (if negb b then 41 else 39) * u) with (80 * u) by (destruct b; cbn [negb]; ring).
  rewrite Ks.
  assert (Kd : kernel 49 ((if b then 41 else 39) * u - (if negb b then 41 else 39) * u) = test_d).
  { unfold test_d. destruct b; cbn [negb]; [f_equal; ring|]. rewrite <- kernel_neg. f_equal. ring. }
  rewrite Kd. destruct b; destruct (lost _ _); set (d := test_d) in *; set (p := test_p _) in *; clearbody d p; nra.
Qed.
End Test.
