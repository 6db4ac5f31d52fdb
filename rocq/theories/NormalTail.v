(** The tail of the standard normal law as a function of the square of its argument lies above its tangents.  Proof support for C111, no
    model of code. *)
From Coq Require Import Reals Lra.
From Coquelicot Require Import Coquelicot.
From Coq Require Import Psatz.
From Verif Require Import NormalMean.
Local Open Scope R_scope.

Lemma phi_decreasing a b : 0 < a -> a < b -> phi b < phi a.
Proof.
  intros Ha Hb. unfold phi. apply Rmult_lt_compat_r; [apply Rinv_0_lt_compat, sqrt_lt_R0; pose proof PI_RGT_0; lra|].
  apply exp_increasing. assert (a * a < b * b) by nra. lra.
Qed.
Lemma phi_slope a b : 0 < a -> a < b -> phi b / b < phi a / a.
Proof.
  intros Ha Hb. pose proof (phi_decreasing a b Ha Hb) as D. pose proof (phi_pos b) as Pb. pose proof (phi_pos a) as Pa.
  apply Rlt_trans with (phi a / b).
  - apply Rmult_lt_compat_r; [apply Rinv_0_lt_compat; lra|exact D].
  - apply Rmult_lt_compat_l; [exact Pa|]. apply Rinv_lt_contravar; [apply Rmult_lt_0_compat; lra|exact Hb].
Qed.

Lemma Qt_tangent t0 t : 0 < t0 -> 0 < t -> t <> t0 -> Qt t0 - phi t0 / (2 * t0) * (t * t - t0 * t0) < Qt t.
Proof.
  intros H0 Ht Hne. set (k := phi t0 / (2 * t0)). set (h := fun x => Qt x + k * (x * x)). set (h' := fun x => - phi x + k * (2 * x)).
  assert (D : forall x, derivable_pt_lim h x (h' x)).
  { intros x. unfold h, h'. apply (derivable_pt_lim_plus Qt (fun y => k * (y * y))); [apply is_derive_Reals, Qt_der|].
    apply is_derive_Reals. auto_derive; [exact I|ring]. }
  assert (Dh : forall c, 0 < c -> h' c = c * (phi t0 / t0 - phi c / c)) by (intros c Hc; unfold h', k; field; lra).
  assert (Goal' : h t0 < h t).
  { destruct (Rlt_dec t t0) as [L|L].
    - destruct (MVT_cor2 h h' t t0 L ltac:(intros; apply D)) as (c & E & Hc). rewrite Dh in E by lra. pose proof (phi_slope c t0 ltac:(lra) ltac:(lra)) as S.
      assert (0 < c * (phi c / c - phi t0 / t0)) by (apply Rmult_lt_0_compat; lra). assert (0 < (t0 - t) * (c * (phi c / c - phi t0 / t0))) by (apply Rmult_lt_0_compat; lra). nra.
    - assert (G : t0 < t) by lra. destruct (MVT_cor2 h h' t0 t G ltac:(intros; apply D)) as (c & E & Hc). rewrite Dh in E by lra. pose proof (phi_slope t0 c ltac:(lra) ltac:(lra)) as S.
      assert (0 < c * (phi t0 / t0 - phi c / c)) by (apply Rmult_lt_0_compat; lra). assert (0 < c * (phi t0 / t0 - phi c / c) * (t - t0)) by (apply Rmult_lt_0_compat; lra). lra. }
  unfold h in Goal'. lra.
Qed.
