(** Integer polynomials with a checked bound on an interval, and the polynomial behind the approximation of the
    complementary error function of /repo/src/lib.rs:162-186 (C107).  Proof support, no model of code. *)
From Coq Require Import List ZArith Reals Lia Lra Psatz.
Import ListNotations.
Local Open Scope R_scope.

(** ** Polynomials: coefficients from the constant one upwards. *)
Fixpoint pev (l : list Z) (t : R) : R := match l with [] => 0 | a :: l' => IZR a + t * pev l' t end.
Fixpoint padd (a b : list Z) : list Z :=
  match a, b with [], _ => b | _, [] => a | x :: a', y :: b' => (x + y)%Z :: padd a' b' end.
Definition pscal (c : Z) (a : list Z) : list Z := map (Z.mul c) a.
Fixpoint pmul (a b : list Z) : list Z := match a with [] => [] | x :: a' => padd (pscal x b) (0%Z :: pmul a' b) end.
(** The derivative: of a + t l it is l + t l'. *)
Fixpoint pder (l : list Z) : list Z := match l with [] => [] | _ :: l' => padd l' (0%Z :: pder l') end.
(** p(u + 1). *)
Fixpoint shift1 (l : list Z) : list Z := match l with [] => [] | a :: l' => let r := shift1 l' in padd [a] (padd r (0%Z :: r)) end.
(** M^n p(u / M), n the degree. *)
Fixpoint pscale (M : Z) (l : list Z) : list Z := match l with [] => [] | a :: l' => (a * M ^ Z.of_nat (length l'))%Z :: pscale M l' end.
Fixpoint upper (l : list Z) : Z := match l with [] => 0 | a :: l' => (Z.max a 0 + upper l')%Z end.
Fixpoint lower (l : list Z) : Z := match l with [] => 0 | a :: l' => (Z.min a 0 + lower l')%Z end.
(** |p| <= B on [0, n], unit interval by unit interval. *)
Fixpoint chk (n : nat) (l : list Z) (B : Z) : bool :=
  match n with
  | O => true
  | S n' => match l with [] => (0 <=? B)%Z | a :: l' => (a + upper l' <=? B)%Z && (- B <=? a + lower l')%Z end && chk n' (shift1 l) B
  end.
Fixpoint shifts (k : nat) (l : list Z) : list Z := match k with O => l | S k' => shifts k' (shift1 l) end.

Lemma pev_add a : forall b t, pev (padd a b) t = pev a t + pev b t.
Proof.
  induction a as [|x a IH]; intros [|y b] t; cbn [padd pev]; try ring. rewrite plus_IZR, IH. ring.
Qed.
Lemma pev_scal c a t : pev (pscal c a) t = IZR c * pev a t.
Proof. induction a as [|x a IH]; cbn [pscal map pev]; [ring|]. unfold pscal in IH. rewrite mult_IZR, IH. ring. Qed.
Lemma pev_mul a : forall b t, pev (pmul a b) t = pev a t * pev b t.
Proof. induction a as [|x a IH]; intros b t; cbn [pmul pev]; [ring|]. rewrite pev_add, pev_scal. cbn [pev]. rewrite IH. ring. Qed.
Lemma pev_shift1 l t : pev (shift1 l) t = pev l (t + 1).
Proof. induction l as [|a l IH]; cbn [shift1]; [reflexivity|]. cbv zeta. rewrite !pev_add. cbn [pev]. rewrite IH. ring. Qed.
Lemma pev_shifts k : forall l t, pev (shifts k l) t = pev l (t + INR k).
Proof. induction k as [|k IH]; intros l t; cbn [shifts]; [f_equal; cbn; ring|]. rewrite IH, pev_shift1, S_INR. f_equal. ring. Qed.
Lemma pev_scale M l t : pev (pscale M l) (IZR M * t) = IZR M ^ (length l - 1) * pev l t.
Proof.
  induction l as [|a l IH]; cbn [pscale pev length]; [ring|]. rewrite mult_IZR, <- pow_IZR, IH.
  replace (S (length l) - 1)%nat with (length l) by lia. destruct l as [|b l]; [cbn; ring|].
  set (n := length (b :: l)) in *. assert (E : n = S (n - 1)) by (unfold n; cbn [length]; lia).
  assert (P : IZR M ^ n = IZR M * IZR M ^ (n - 1)) by (rewrite E at 1; reflexivity). rewrite P. ring.
Qed.
Lemma pev_der l t : derivable_pt_lim (pev l) t (pev (pder l) t).
Proof.
  induction l as [|a l IH]; cbn [pder pev]; [apply (derivable_pt_lim_const 0)|].
  replace (pev (padd l (0%Z :: pder l)) t) with (0 + (1 * pev l t + t * pev (pder l) t)) by (rewrite pev_add; cbn [pev]; ring).
  apply (derivable_pt_lim_plus (fun _ => IZR a) (fun t => t * pev l t)); [apply derivable_pt_lim_const|].
  apply (derivable_pt_lim_mult (fun t => t) (pev l)); [apply derivable_pt_lim_id|exact IH].
Qed.

Lemma pev_range l t : 0 <= t <= 1 -> IZR (lower l) <= pev l t <= IZR (upper l).
Proof.
  intros Ht. induction l as [|a l IH]; cbn [lower upper pev]; [lra|]. rewrite !plus_IZR.
  assert (A : IZR (Z.min a 0) <= IZR a <= IZR (Z.max a 0)) by (split; apply IZR_le; lia).
  assert (L0 : IZR (lower l) <= 0). { apply (IZR_le _ 0). clear. induction l; cbn [lower]; lia. }
  assert (U0 : 0 <= IZR (upper l)). { apply (IZR_le 0). clear. induction l; cbn [upper]; lia. }
  nra.
Qed.

Lemma chk_ok n : forall l B, chk n l B = true -> forall u, 0 <= u <= INR n -> Rabs (pev l u) <= IZR B \/ n = O.
Proof.
  induction n as [|n IH]; intros l B H u Hu; [right; reflexivity|]. left. cbn [chk] in H. apply andb_prop in H as [H1 H2].
  assert (K : 0 <= u <= 1 -> Rabs (pev l u) <= IZR B).
  { intros Hu1. destruct l as [|a l].
    - cbn [pev]. rewrite Rabs_R0. apply (IZR_le 0). apply Z.leb_le. exact H1.
    - apply andb_prop in H1 as [A1 A2]. apply Z.leb_le in A1, A2. apply IZR_le in A1, A2. rewrite plus_IZR in A1, A2. rewrite opp_IZR in A2.
      cbn [pev]. pose proof (pev_range l u Hu1) as P.
      assert (L0 : IZR (lower l) <= 0). { apply (IZR_le _ 0). clear. induction l; cbn [lower]; lia. }
      assert (U0 : 0 <= IZR (upper l)). { apply (IZR_le 0). clear. induction l; cbn [upper]; lia. }
      apply Rabs_le. nra. }
  destruct (Rle_dec u 1) as [U|U]; [apply K; lra|]. rewrite S_INR in Hu.
  destruct (IH (shift1 l) B H2 (u - 1)) as [Q|Q]; [lra| |subst n; cbn in Hu; lra].
  rewrite pev_shift1 in Q. replace (u - 1 + 1) with u in Q by ring. exact Q.
Qed.

(** On [a/M, b/M]. *)
Lemma chk_scaled (M : positive) (k n : nat) (l : list Z) (B : Z) :
  chk n (shifts k (pscale (Z.pos M) l)) (B * Z.pos M ^ Z.of_nat (length l - 1)) = true -> (1 <= n)%nat ->
  forall t, INR k <= IZR (Z.pos M) * t <= INR k + INR n -> Rabs (pev l t) <= IZR B.
Proof.
  intros H Hn t Ht. destruct (chk_ok _ _ _ H (IZR (Z.pos M) * t - INR k)) as [Q|Q]; [lra| |lia].
  rewrite pev_shifts in Q. replace (IZR (Z.pos M) * t - INR k + INR k) with (IZR (Z.pos M) * t) in Q by ring.
  rewrite pev_scale, mult_IZR, <- pow_IZR, Rabs_mult in Q.
  assert (P : 0 < IZR (Z.pos M) ^ (length l - 1)) by (apply pow_lt, (IZR_lt 0); lia).
  rewrite (Rabs_pos_eq (_ ^ _)) in Q by lra. apply Rmult_le_reg_l with (1 := P). lra.
Qed.

(** ** The polynomial of the code times 10^8, and a closer one times 2^44. *)
Definition code_poly : list Z :=
  [-126551223; 100002368; 37409196; 9678418; -18628806; 27886807; -113520398; 148851587; -82215223; 17087277]%Z.
Definition near_poly : list Z :=
  [-22263124717806; 17592186044136; 6597069812280; 1466012519093; -1511724046415; -2531135795730; -1581997740337; 178933562505;
   4955575010398; -13085963574533; 67901301917502; -243022618545166; 652053066969641; -1398313426215025; 2314791320907021;
   -2868289771433873; 2623509667627340; -1748805801294897; 828807801763830; -265523518423321; 51711237701078; -4635092047720]%Z.
Definition two44 : Z := 17592186044416.

(** The two differ by at most 1.13e-7 on [0, 1]: 1.13e-7 * 10^8 * 2^44 = 198791702301901. *)
Definition diff_poly : list Z := padd (pscal 100000000 near_poly) (pscal (- two44) code_poly).
Lemma diff_check : chk 48 (shifts 0 (pscale 512 diff_poly)) (198791702301901 * 512 ^ Z.of_nat (length diff_poly - 1)) = true /\
  chk 58 (shifts 6 (pscale 64 diff_poly)) (198791702301901 * 64 ^ Z.of_nat (length diff_poly - 1)) = true.
Proof. split; vm_compute; reflexivity. Qed.

(** Q = t^2/2 (1 + t p') + 4 (1 - t), times 2^45; its logarithmic derivative plus p', times Q and 2^89. *)
Definition q_poly : list Z := padd (0 :: 0 :: padd [two44] (0 :: pder near_poly))%Z [8 * two44; -8 * two44]%Z.
Definition n_poly : list Z := padd (pscal two44 (pder q_poly)) (pmul (pder near_poly) q_poly).
(** 5.2e-9 * 2^89 = 3218686402 * 10^9 and some. *)
Lemma n_check : chk 32 (shifts 0 (pscale 32 n_poly)) (3218000000000000000 * 32 ^ Z.of_nat (length n_poly - 1)) = true.
Proof. vm_compute. reflexivity. Qed.
