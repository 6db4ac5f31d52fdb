(** GF(2^8) with the polynomial x^8+x^4+x^3+x^2+1 (0x11d) and the Reed-Solomon code over it with roots
    2^0 .. 2^(ecc-1): what the crate reed-solomon implements, by its documentation.  Used only to show
    that the contract [corrects] of SpecCode.v can be met; bch.rs is proved for every codec that meets it. *)
From Coq Require Import List Arith NArith Bool Lia Ring Eqdep_dec.
From Verif Require Import Spec Tab BchModel SpecCode.
Import ListNotations.
Local Open Scope N_scope.

(** Multiplication by x. *)
Definition xt (a : N) : N := N.lxor (N.shiftl a 1) (if N.testbit a 7 then 285 else 0).

Lemma xt_lxor a b : xt (N.lxor a b) = N.lxor (xt a) (xt b).
Proof.
  unfold xt. rewrite N.shiftl_lxor, N.lxor_spec.
  assert (E : (if xorb (N.testbit a 7) (N.testbit b 7) then 285 else 0) =
     N.lxor (if N.testbit a 7 then 285 else 0) (if N.testbit b 7 then 285 else 0)).
  { destruct (N.testbit a 7), (N.testbit b 7); reflexivity. }
  rewrite E, !N.lxor_assoc. f_equal. rewrite <- !N.lxor_assoc. f_equal. apply N.lxor_comm.
Qed.

Definition all_bytes : list N := map N.of_nat (seq 0 256).
Lemma all_bytes_in a : a < 256 -> In a all_bytes.
Proof. intros H. unfold all_bytes. apply in_map_iff. exists (N.to_nat a). split; [lia|]. apply in_seq. lia. Qed.
Lemma by_bytes (p : N -> bool) : forallb p all_bytes = true -> forall a, a < 256 -> p a = true.
Proof. intros H a Ha. rewrite forallb_forall in H. apply H. apply all_bytes_in. exact Ha. Qed.

Lemma xt_byte a : a < 256 -> xt a < 256.
Proof. intros H. apply N.ltb_lt. revert a H. apply (by_bytes (fun a => xt a <? 256)). vm_compute. reflexivity. Qed.
Lemma xt_0 : xt 0 = 0. Proof. reflexivity. Qed.

Lemma lxor_byte a b : a < 256 -> b < 256 -> N.lxor a b < 256.
Proof.
  intros Ha Hb. destruct (N.eq_dec (N.lxor a b) 0) as [->|NZ]; [lia|]. change 256 with (2 ^ 8). apply N.log2_lt_pow2; [lia|].
  eapply N.le_lt_trans; [apply N.log2_lxor|].
  assert (L : forall c, c < 256 -> N.log2 c < 8).
  { intros c Hc. destruct (N.eq_dec c 0) as [->|]; [cbn; lia|]. apply N.log2_lt_pow2; [lia|exact Hc]. }
  pose proof (L a Ha). pose proof (L b Hb). lia.
Qed.

(** Powers of x; their table gives logarithms. *)
Fixpoint xpow (i : nat) (a : N) : N := match i with O => a | S i => xt (xpow i a) end.
Lemma xpow_add i j a : xpow (i + j) a = xpow i (xpow j a).
Proof. induction i as [|i IH]; cbn; [reflexivity|]. rewrite IH. reflexivity. Qed.
Lemma xpow_lxor i a b : xpow i (N.lxor a b) = N.lxor (xpow i a) (xpow i b).
Proof. induction i as [|i IH]; cbn; [reflexivity|]. rewrite IH. apply xt_lxor. Qed.
Lemma xpow_0 i : xpow i 0 = 0.
Proof. induction i as [|i IH]; cbn; [reflexivity|]. rewrite IH. reflexivity. Qed.
Lemma xpow_byte i a : a < 256 -> xpow i a < 256.
Proof. intros H. induction i as [|i IH]; cbn; [exact H|]. apply xt_byte. exact IH. Qed.

(** x^0 .. x^254 *)
Fixpoint orbit (n : nat) (a : N) : list N := match n with O => [] | S n => a :: orbit n (xt a) end.
Lemma orbit_nth n : forall a i, (i < n)%nat -> nth i (orbit n a) 0 = xpow i a.
Proof.
  induction n as [|n IH]; intros a i Hi; [lia|]. cbn [orbit]. destruct i as [|i]; [reflexivity|]. cbn [nth].
  rewrite IH by lia. replace (S i) with (i + 1)%nat by lia. rewrite xpow_add. reflexivity.
Qed.
Lemma orbit_length n : forall a, length (orbit n a) = n.
Proof. induction n; intros; cbn; auto. Qed.
Definition exp_table : list N := orbit 255 1.

Definition index_of (a : N) : list N -> nat :=
  fix go l := match l with [] => O | b :: l => if b =? a then O else S (go l) end.
Definition glog (a : N) : nat := index_of a exp_table.

Lemma glog_ok a : a < 256 -> a <> 0 -> (glog a < 255)%nat /\ nth (glog a) exp_table 0 = a.
Proof.
  assert (C : forallb (fun a => (a =? 0) || ((glog a <? 255)%nat && (nth (glog a) exp_table 0 =? a))) all_bytes = true)
    by (vm_compute; reflexivity).
  intros Ha N0. pose proof (by_bytes _ C a Ha) as H. cbv beta in H. apply orb_prop in H. destruct H as [H|H].
  - apply N.eqb_eq in H. contradiction.
  - apply andb_prop in H. destruct H as [H1 H2]. apply Nat.ltb_lt in H1. apply N.eqb_eq in H2. auto.
Qed.
Lemma glog_exp a : a < 256 -> a <> 0 -> xpow (glog a) 1 = a.
Proof. intros Ha N0. destruct (glog_ok a Ha N0) as [L E]. unfold exp_table in E. rewrite orbit_nth in E by exact L. exact E. Qed.

Lemma exp_nodup : forall i j, (i < 255)%nat -> (j < 255)%nat -> xpow i 1 = xpow j 1 -> i = j.
Proof.
  assert (C : forallb (fun i => Nat.eqb (glog (nth i exp_table 0)) i) (seq 0 255) = true) by (vm_compute; reflexivity).
  assert (G : forall i, (i < 255)%nat -> glog (xpow i 1) = i).
  { intros i Hi. rewrite forallb_forall in C. specialize (C i ltac:(apply in_seq; lia)). apply Nat.eqb_eq in C.
    unfold exp_table in C at 1. rewrite orbit_nth in C by exact Hi. exact C. }
  intros i j Hi Hj E. rewrite <- (G i Hi), <- (G j Hj), E. reflexivity.
Qed.
Lemma xpow_nonzero i : xpow i 1 <> 0.
Proof.
  assert (X : forall a, a < 256 -> a <> 0 -> xt a <> 0).
  { intros a Ha N0 E. assert (C : forallb (fun a => (a =? 0) || negb (xt a =? 0)) all_bytes = true) by (vm_compute; reflexivity).
    pose proof (by_bytes _ C a Ha) as H. cbv beta in H. apply orb_prop in H. destruct H as [H|H].
    - apply N.eqb_eq in H. contradiction.
    - rewrite E in H. discriminate. }
  induction i as [|i IH]; cbn; [discriminate|]. apply X; [|exact IH]. apply xpow_byte. reflexivity.
Qed.

(** Multiplication through the tables. *)
Definition gmul (a b : N) : N := if (a =? 0) || (b =? 0) then 0 else xpow (glog a + glog b) 1.

Lemma gmul_exp a b : a < 256 -> b < 256 -> a <> 0 -> gmul a b = xpow (glog a) b.
Proof.
  intros Ha Hb N0. unfold gmul. destruct (N.eqb_spec a 0); [contradiction|]. destruct (N.eqb_spec b 0) as [->|NB]; cbn [orb].
  - rewrite xpow_0. reflexivity.
  - rewrite xpow_add, glog_exp by assumption. reflexivity.
Qed.
Lemma gmul_comm a b : gmul a b = gmul b a.
Proof. unfold gmul. rewrite orb_comm, Nat.add_comm. reflexivity. Qed.
Lemma gmul_byte a b : gmul a b < 256.
Proof. unfold gmul. destruct (_ || _); [reflexivity|]. apply xpow_byte. reflexivity. Qed.
Lemma gmul_0_l b : gmul 0 b = 0. Proof. reflexivity. Qed.
Lemma gmul_1_l b : b < 256 -> gmul 1 b = b.
Proof. intros Hb. rewrite gmul_exp by (reflexivity || discriminate || assumption). reflexivity. Qed.
Lemma gmul_lxor_r a b c : a < 256 -> b < 256 -> c < 256 -> gmul a (N.lxor b c) = N.lxor (gmul a b) (gmul a c).
Proof.
  intros Ha Hb Hc. destruct (N.eq_dec a 0) as [->|N0]; [reflexivity|].
  rewrite !gmul_exp by (assumption || (apply lxor_byte; assumption)). apply xpow_lxor.
Qed.
Lemma gmul_nonzero a b : a <> 0 -> b <> 0 -> gmul a b <> 0.
Proof.
  intros Ha Hb. unfold gmul. destruct (N.eqb_spec a 0); [contradiction|]. destruct (N.eqb_spec b 0); [contradiction|].
  apply xpow_nonzero.
Qed.
Lemma gmul_assoc a b c : a < 256 -> b < 256 -> c < 256 -> gmul a (gmul b c) = gmul (gmul a b) c.
Proof.
  intros Ha Hb Hc. destruct (N.eq_dec a 0) as [->|NA]; [reflexivity|]. destruct (N.eq_dec b 0) as [->|NB].
  - rewrite (gmul_comm a 0), !gmul_0_l, gmul_comm. reflexivity.
  - destruct (N.eq_dec c 0) as [->|NC].
    + rewrite (gmul_comm b 0), gmul_0_l, (gmul_comm a 0), gmul_0_l, (gmul_comm _ 0). reflexivity.
    + rewrite (gmul_exp a) by (try apply gmul_byte; assumption). rewrite (gmul_exp b) by assumption.
      rewrite (gmul_comm (gmul a b) c), (gmul_exp c) by (try apply gmul_byte; assumption). rewrite (gmul_exp a b) by assumption.
      rewrite <- (glog_exp c) at 1 by assumption. rewrite <- (glog_exp b) at 2 by assumption.
      rewrite <- !xpow_add. f_equal. lia.
Qed.

(** ** The field as a type *)
Definition GF : Type := { a : N | (a <? 256) = true }.
Definition gv (x : GF) : N := proj1_sig x.
Lemma gf_eq (x y : GF) : gv x = gv y -> x = y.
Proof.
  destruct x as [a Ha], y as [b Hb]. cbn. intros <-. f_equal. apply UIP_dec. apply bool_dec.
Qed.
Lemma gv_lt (x : GF) : gv x < 256.
Proof. apply N.ltb_lt. exact (proj2_sig x). Qed.
Definition mk (a : N) (H : a < 256) : GF := exist _ a (proj2 (N.ltb_lt a 256) H).
Definition g0 : GF := mk 0 eq_refl.
Definition g1 : GF := mk 1 eq_refl.
Definition ga (x y : GF) : GF := mk (N.lxor (gv x) (gv y)) (lxor_byte _ _ (gv_lt x) (gv_lt y)).
Definition gm (x y : GF) : GF := mk (gmul (gv x) (gv y)) (gmul_byte _ _).

Lemma gf_ring : ring_theory g0 g1 ga gm ga (fun x => x) eq.
Proof.
  constructor; intros; apply gf_eq; cbn -[gmul N.lxor].
  - apply N.lxor_0_l.
  - apply N.lxor_comm.
  - symmetry. apply N.lxor_assoc.
  - apply gmul_1_l. apply gv_lt.
  - apply gmul_comm.
  - apply gmul_assoc; apply gv_lt.
  - rewrite gmul_comm, gmul_lxor_r, !(gmul_comm (gv z)) by (apply gv_lt). reflexivity.
  - reflexivity.
  - apply N.lxor_nilpotent.
Qed.
Add Ring GfRing : gf_ring.
Lemma ga_same x : ga x x = g0. Proof. apply gf_eq. apply N.lxor_nilpotent. Qed.
Lemma ga_0 x y : ga x y = g0 -> x = y.
Proof. intros H. apply gf_eq. apply (f_equal gv) in H. apply N.lxor_eq. exact H. Qed.
Lemma gm_integral x y : gm x y = g0 -> x = g0 \/ y = g0.
Proof.
  intros H. apply (f_equal gv) in H. cbn -[gmul] in H.
  destruct (N.eq_dec (gv x) 0) as [E|NX]; [left; apply gf_eq; exact E|].
  destruct (N.eq_dec (gv y) 0) as [E|NY]; [right; apply gf_eq; exact E|]. exfalso. apply (gmul_nonzero _ _ NX NY H).
Qed.
Definition gf_dec (x y : GF) : {x = y} + {x <> y}.
Proof. destruct (N.eq_dec (gv x) (gv y)) as [E|E]; [left; apply gf_eq; exact E|right; intros ->; apply E; reflexivity]. Defined.

Fixpoint gpow (x : GF) (n : nat) : GF := match n with O => g1 | S n => gm x (gpow x n) end.
Lemma gpow_add x i j : gpow x (i + j) = gm (gpow x i) (gpow x j).
Proof. induction i as [|i IH]; cbn; [ring|]. rewrite IH. ring. Qed.
Lemma gpow_mul x i j : gpow x (i * j) = gpow (gpow x i) j.
Proof. induction j as [|j IH]; [rewrite Nat.mul_0_r; reflexivity|]. cbn. rewrite <- IH, <- gpow_add. f_equal. lia. Qed.
Lemma gpow_comm x i j : gpow (gpow x i) j = gpow (gpow x j) i.
Proof. rewrite <- !gpow_mul. f_equal. lia. Qed.
Definition alpha : GF := mk 2 eq_refl.
Lemma gv_alpha_pow i : gv (gpow alpha i) = xpow i 1.
Proof.
  induction i as [|i IH]; [reflexivity|]. cbn [gpow gm gv proj1_sig mk]. change (proj1_sig (gpow alpha i)) with (gv (gpow alpha i)).
  change (gmul 2 (gv (gpow alpha i)) = xt (xpow i 1)). rewrite gmul_exp by (reflexivity || discriminate || apply gv_lt). rewrite IH. reflexivity.
Qed.
Lemma alpha_inj i j : (i < 255)%nat -> (j < 255)%nat -> gpow alpha i = gpow alpha j -> i = j.
Proof. intros Hi Hj E. apply exp_nodup; try assumption. rewrite <- !gv_alpha_pow, E. reflexivity. Qed.

(** ** Vandermonde *)
Fixpoint gsum (l : list (GF * GF)) (i : nat) : GF :=
  match l with [] => g0 | (c, x) :: l => ga (gm c (gpow x i)) (gsum l i) end.

Lemma gsum_shift x0 l i : ga (gsum l (S i)) (gm x0 (gsum l i)) = gsum (map (fun p => (gm (fst p) (ga (snd p) x0), snd p)) l) i.
Proof. induction l as [|(c, x) l IH]; cbn [gsum map fst snd gpow]; [ring|]. rewrite <- IH. ring. Qed.

Lemma vandermonde n : forall l : list (GF * GF), (length l <= n)%nat -> NoDup (map snd l) ->
  (forall i, (i < n)%nat -> gsum l i = g0) -> forall p, In p l -> fst p = g0.
Proof.
  induction n as [|n IH]; intros l Hl Hd Hs p Hp.
  - destruct l; [contradiction|cbn in Hl; lia].
  - destruct l as [|(c0, x0) l]; [contradiction|]. cbn in Hl. inversion Hd as [|? ? Hx Hd']; subst.
    assert (T : forall q, In q l -> fst q = g0).
    { intros (c, x) Hq. specialize (IH (map (fun p => (gm (fst p) (ga (snd p) x0), snd p)) l)).
      rewrite map_length, map_map in IH. specialize (IH ltac:(lia) Hd').
      assert (Z : forall i, (i < n)%nat -> gsum (map (fun p => (gm (fst p) (ga (snd p) x0), snd p)) l) i = g0).
      { intros i Hi. rewrite <- gsum_shift. pose proof (Hs i ltac:(lia)) as S1. pose proof (Hs (S i) ltac:(lia)) as S2. cbn [gsum gpow] in S1, S2.
        assert (E : ga (ga (gm c0 (gm x0 (gpow x0 i))) (gsum l (S i))) (gm x0 (ga (gm c0 (gpow x0 i)) (gsum l i))) = g0) by (rewrite S1, S2; ring).
        rewrite <- E. pose proof (ga_same (gm c0 (gm x0 (gpow x0 i)))) as A.
        transitivity (ga (ga (gm c0 (gm x0 (gpow x0 i))) (gm c0 (gm x0 (gpow x0 i)))) (ga (gsum l (S i)) (gm x0 (gsum l i)))); [rewrite A; ring|ring]. }
      specialize (IH Z (gm c (ga x x0), x) ltac:(apply in_map_iff; exists (c, x); split; [reflexivity|exact Hq])). cbn [fst snd] in IH |- *.
      apply gm_integral in IH. destruct IH as [E|E]; [exact E|]. apply ga_0 in E. subst x0. exfalso. apply Hx.
      cbn [snd]. apply in_map_iff. exists (c, x). split; [reflexivity|exact Hq]. }
    destruct Hp as [<-|Hp]; [|apply T; exact Hp]. cbn [fst]. pose proof (Hs O ltac:(lia)) as S0. cbn [gsum gpow] in S0.
    assert (Z : gsum l 0 = g0).
    { clear -T. induction l as [|(c, x) l IH]; [reflexivity|]. cbn [gsum]. rewrite IH by (intros; apply T; right; assumption).
      pose proof (T (c, x) (or_introl eq_refl)) as E. cbn in E. rewrite E. ring. }
    rewrite Z in S0. rewrite <- S0. ring.
Qed.
