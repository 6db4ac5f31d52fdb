(** C65: the cyclostationary detectors. *)
From Coq Require Import List Arith ZArith Reals Bool Lia Lra Psatz.
From Flocq Require Import Core BinarySingleNaN.
From Verif Require Import Base Spec SpecR Num F64Lib LibModel LibFloat LibReal Tab SpecC FftModel Dft OfdmModel SscaModel SscaProofs SscaCells
  Props_Ssca RSums DetectModel.
Import ListNotations.

(** ** The maximum *)
Definition is_max (l : list R) (m : R) : Prop := In m l /\ forall x, In x l -> (x <= m)%R.

Lemma cmp_R (a b : R) :
  @cmp_unwrap R NumR a b = Ret (if Rlt_dec b a then Gt else if Rlt_dec a b then Lt else Eq).
Proof.
  unfold cmp_unwrap. cbn [neqb nltb NumR]. destruct (Req_EM_T a b), (Rlt_dec a b), (Rlt_dec b a); try lra; reflexivity.
Qed.

Lemma max_fold_R l : forall x, exists m,
  for_each l (fun m y => let? c := @cmp_unwrap R NumR m y in Ret (match c with Gt => m | _ => y end)) x = Ret m /\ is_max (x :: l) m.
Proof.
  induction l as [|y l IH]; intros x.
  - exists x. split; [reflexivity|]. split; [left; reflexivity|]. intros z [<-|[]]. lra.
  - cbn [for_each]. rewrite cmp_R. cbn [bind].
    set (w := match (if Rlt_dec y x then Gt else if Rlt_dec x y then Lt else Eq) with Gt => x | _ => y end).
    assert (W : (w = x \/ w = y) /\ (x <= w)%R /\ (y <= w)%R) by (unfold w; destruct (Rlt_dec y x), (Rlt_dec x y); repeat split; auto; lra).
    destruct W as (Wi & Wx & Wy). destruct (IH w) as (m & E & Hin & Hmax).
    exists m. split; [exact E|]. split.
    + destruct Hin as [<-|Hin]; [destruct Wi as [-> | ->]; [left|right; left]; reflexivity|right; right; exact Hin].
    + intros z [<-|[<-|Hz]].
      * apply Rle_trans with w; [exact Wx|apply Hmax; left; reflexivity].
      * apply Rle_trans with w; [exact Wy|apply Hmax; left; reflexivity].
      * apply Hmax. right. exact Hz.
Qed.

Lemma max_by_R l : l <> [] -> exists m, @max_by_cmp R NumR l = Ret (Some m) /\ is_max l m.
Proof.
  destruct l as [|x l]; [contradiction|]. intros _. destruct (max_fold_R l x) as (m & E & M). exists m. split; [|exact M].
  unfold max_by_cmp. rewrite E. reflexivity.
Qed.

Lemma is_max_det l a b : is_max l a -> is_max l b -> a = b.
Proof. intros [Ia Ma] [Ib Mb]. apply Rle_antisym; [apply Mb, Ia|apply Ma, Ib]. Qed.

Lemma is_max_scale c l m : (0 < c)%R -> is_max l m -> is_max (map (Rmult c) l) (c * m).
Proof.
  intros Hc [Hin Hm]. split; [apply in_map; exact Hin|]. intros x Hx. apply in_map_iff in Hx. destruct Hx as (y & <- & Hy).
  apply Rmult_le_compat_l; [lra|apply Hm; exact Hy].
Qed.

(** ** Binary64: a NaN is fatal *)
Lemma nan_cmp libm (a b : F64) : is_nan a || is_nan b = true -> @cmp_unwrap F64 (NumF libm) a b = Panic.
Proof. intros Hn. destruct a, b; try discriminate; reflexivity. Qed.

Lemma fin_cmp libm (a b : F64) : fin a = true -> fin b = true ->
  @cmp_unwrap F64 (NumF libm) a b = Ret (if Rlt_dec (val b) (val a) then Gt else if Rlt_dec (val a) (val b) then Lt else Eq).
Proof.
  intros Fa Fb. unfold cmp_unwrap. change (@neqb F64 (NumF libm)) with (@Beqb 53 1024). change (@nltb F64 (NumF libm)) with (@Bltb 53 1024).
  pose proof (eqb_val a b Fa Fb) as E. pose proof (ltb_val a b Fa Fb) as L. pose proof (ltb_val b a Fb Fa) as G.
  destruct (Beqb a b), (Bltb a b), (Bltb b a), (Rlt_dec (val b) (val a)), (Rlt_dec (val a) (val b)); try reflexivity; exfalso;
    repeat match goal with H : true = true <-> _ |- _ => pose proof (proj1 H eq_refl); clear H
                      | H : false = true <-> ?P |- _ => assert (~ P) by (intros ?; destruct H as [_ H]; discriminate H; assumption); clear H end; lra.
Qed.

Lemma ok_cmp libm (a b : F64) : is_nan a || is_nan b = false -> exists c, @cmp_unwrap F64 (NumF libm) a b = Ret c.
Proof.
  intros Hn. destruct (fin a) eqn:Fa, (fin b) eqn:Fb; [eexists; apply fin_cmp; assumption| | |];
    destruct a as [s|s| |s m e], b as [s'|s'| |s' m' e']; try discriminate; try destruct s; try destruct s'; eexists; reflexivity.
Qed.

(** [max_by] over binary64: with two items or more it panics exactly when one of them is NaN. *)
Theorem C65_max_panics_iff_nan libm (l : list F64) : (2 <= length l)%nat ->
  (@max_by_cmp F64 (NumF libm) l = Panic <-> exists x, In x l /\ is_nan x = true) /\
  ((forall x, In x l -> is_nan x = false) -> exists m, @max_by_cmp F64 (NumF libm) l = Ret (Some m) /\ In m l).
Proof.
  assert (G : forall (l : list F64) (x : F64), l <> [] ->
    ((exists y, In y (x :: l) /\ is_nan y = true) ->
      for_each l (fun (m y : F64) => let? c := @cmp_unwrap F64 (NumF libm) m y in Ret (match c with Gt => m | _ => y end)) x = Panic) /\
    ((forall y, In y (x :: l) -> is_nan y = false) -> exists m,
      for_each l (fun (m y : F64) => let? c := @cmp_unwrap F64 (NumF libm) m y in Ret (match c with Gt => m | _ => y end)) x = Ret m /\ In m (x :: l))).
  { clear l. induction l as [|y l IH]; intros x Hne; [contradiction|]. clear Hne. cbn [for_each].
    destruct (is_nan x || is_nan y) eqn:Hxy.
    - rewrite nan_cmp by exact Hxy. split; [reflexivity|]. intros Hall. exfalso.
      rewrite (Hall x), (Hall y) in Hxy by (cbn; auto). discriminate.
    - destruct (ok_cmp libm x y Hxy) as [c Ec]. rewrite Ec. cbn [bind]. set (w := match c with Gt => x | _ => y end).
      apply orb_false_iff in Hxy as [Hx Hy].
      assert (Wi : w = x \/ w = y) by (unfold w; destruct c; auto).
      assert (Wn : is_nan w = false) by (destruct Wi as [-> | ->]; assumption).
      destruct l as [|z l].
      + split.
        * intros (u & [<-|[<-|[]]] & Hu); congruence.
        * intros _. exists w. split; [reflexivity|]. destruct Wi as [-> | ->]; cbn; auto.
      + destruct (IH w ltac:(discriminate)) as [I1 I2]. split.
        * intros (u & Hu & Hnu). apply I1. exists u. split; [|exact Hnu].
          destruct Hu as [<-|[<-|Hu]]; [congruence|congruence|right; exact Hu].
        * intros Hall. destruct I2 as (m & E & Hm).
          { intros u [<-|Hu]; [exact Wn|apply Hall; right; right; exact Hu]. }
          exists m. split; [exact E|]. destruct Hm as [<-|Hm]; [destruct Wi as [-> | ->]; cbn; auto|right; right; exact Hm]. }
  intros Hl. destruct l as [|x [|y l]]; [cbn in Hl; lia|cbn in Hl; lia|].
  destruct (G (y :: l) x ltac:(discriminate)) as [G1 G2]. unfold max_by_cmp. split; [split|].
  - intros E. destruct (existsb is_nan (x :: y :: l)) eqn:Ex.
    + apply existsb_exists in Ex. exact Ex.
    + exfalso. destruct G2 as (m & Em & _).
      * intros u Hu. destruct (is_nan u) eqn:Nu; [|reflexivity]. rewrite <- Ex. symmetry. apply existsb_exists. exists u. auto.
      * rewrite Em in E. discriminate.
  - intros Hn. rewrite G1 by exact Hn. reflexivity.
  - intros Hall. destruct (G2 Hall) as (m & Em & Hm). exists m. rewrite Em. split; [reflexivity|exact Hm].
Qed.

(** ** What the detectors compute, in exact arithmetic *)
Local Open Scope R_scope.

Definition normsq (a : cpx R) : R := re a * re a + im a * im a.
Lemma normsq_nonneg a : 0 <= normsq a.
Proof. unfold normsq. pose proof (Rle_0_sqr (re a)). pose proof (Rle_0_sqr (im a)). unfold Rsqr in *. lra. Qed.
Lemma normsq_pos a : a <> Cpx 0 0 -> 0 < normsq a.
Proof.
  intros Ha. destruct (Rle_lt_or_eq_dec _ _ (normsq_nonneg a)) as [H|H]; [exact H|]. exfalso. apply Ha.
  unfold normsq in H. apply cpx_eq; cbn; nra.
Qed.
Lemma normsq_scale c a : normsq (cmul (RtoC c) a) = c * c * normsq a.
Proof. unfold normsq, RtoC. cbn. ring. Qed.

Lemma concat_arr_in {A} a b (f : nat -> nat -> A) x : In x (concat (arr a b f)) <-> exists i j, (i < a /\ j < b)%nat /\ x = f i j.
Proof.
  rewrite in_concat. split.
  - intros (row & Hr & Hx). unfold arr, tab in Hr. apply in_map_iff in Hr. destruct Hr as (i & <- & Hi).
    apply in_map_iff in Hx. destruct Hx as (j & <- & Hj). apply in_seq in Hi, Hj. exists i, j. split; [lia|reflexivity].
  - intros (i & j & [Hi Hj] & ->). exists (tab b (f i)). split.
    + apply in_map_iff. exists i. split; [reflexivity|apply in_seq; lia].
    + apply in_map_iff. exists j. split; [reflexivity|apply in_seq; lia].
Qed.

Lemma max_cut_R a b (f : nat -> nat -> cpx R) : (1 <= a)%nat -> (1 <= b)%nat ->
  exists m, max_cut_detector_sxf (arr a b f) = Ret (10 * (ln m / ln 10)) /\
    (forall i j, (i < a)%nat -> (j < b)%nat -> normsq (f i j) <= m) /\ (exists i j, (i < a)%nat /\ (j < b)%nat /\ m = normsq (f i j)).
Proof.
  intros Ha Hb. unfold max_cut_detector_sxf.
  destruct (max_by_R (map cnorm_sqr (concat (arr a b f)))) as (m & E & Hin & Hm).
  { intros C. apply map_eq_nil in C. assert (I : In (f 0%nat 0%nat) (concat (arr a b f))) by (apply concat_arr_in; exists 0%nat, 0%nat; split; [lia|reflexivity]).
    rewrite C in I. exact I. }
  exists m. rewrite E. split; [reflexivity|]. split.
  - intros i j Hi Hj. apply Hm. change (normsq (f i j)) with (cnorm_sqr (f i j)). apply in_map, concat_arr_in. exists i, j. auto.
  - apply in_map_iff in Hin. destruct Hin as (x & <- & Hx). apply concat_arr_in in Hx. destruct Hx as (i & j & [Hi Hj] & ->).
    exists i, j. repeat split; assumption.
Qed.

(** Energy of column j over the energy of its first entry. *)
Definition column_ratio (a : nat) (f : nat -> nat -> cpx R) (j : nat) : R := Rsum_n a (fun i => normsq (f i j)) / normsq (f 0%nat j).

Lemma dcs_R sum a b (f : nat -> nat -> cpx R) : (forall l, sum l = Rsum l) -> (1 <= a)%nat -> (1 <= b)%nat ->
  exists m, dcs_detector_sxf sum (arr a b f) = Ret (10 * (ln m / ln 10)) /\
    (forall j, (j < b)%nat -> column_ratio a f j <= m) /\ (exists j, (j < b)%nat /\ m = column_ratio a f j).
Proof.
  intros Hsum Ha Hb. unfold dcs_detector_sxf.
  assert (E0 : idx (arr a b f) 0 = Ret (tab b (f 0%nat))) by (apply (Hadamard.idx_tab a (fun i => tab b (f i))); lia).
  rewrite E0. cbn [bind]. rewrite tab_length.
  match goal with |- context [max_by_cmp ?l] => replace l with (tab b (column_ratio a f)) end.
  2: { match goal with |- _ = map _ (combine ?l _) => replace l with (tab b (fun j => Rsum_n a (fun i => normsq (f i j)))) end.
    - rewrite tab_map, tab_combine, tab_map. reflexivity.
    - apply map_ext_in. intros j Hj. apply in_seq in Hj. rewrite Hsum, column_arr by lia. rewrite tab_map, Rsum_tab. reflexivity. }
  destruct (max_by_R (tab b (column_ratio a f))) as (m & E & Hin & Hm).
  { intros C. apply (f_equal (@length R)) in C. rewrite tab_length in C. cbn in C. lia. }
  rewrite E. exists m. split; [reflexivity|]. split.
  - intros j Hj. apply Hm. apply in_map_iff. exists j. split; [reflexivity|apply in_seq; lia].
  - apply in_map_iff in Hin. destruct Hin as (j & <- & Hj). apply in_seq in Hj. exists j. split; [lia|reflexivity].
Qed.

Lemma det_sizes : (1 <= det_np < det_n)%nat.
Proof. unfold det_np, det_n. lia. Qed.

Lemma base_arr s n np : (1 <= np < n)%nat -> (n + np - 1 <= length s)%nat ->
  ssca_base exact_fft s n np = Ret (arr n np (cyclic_periodogram (fun i => nth i s 0) n np)).
Proof. apply C63_ssca_base_formula. Qed.

Lemma ratio_cancel k t b : k <> 0 -> b <> 0 -> k * t / (k * b) = t / b.
Proof. intros Hk Hb. field. auto. Qed.

(** max_cut_detector is 10 log10 of the largest squared magnitude of the spectrum. *)
Theorem C65_max_cut_value s : (det_n + det_np - 1 <= length s)%nat ->
  let sx := cyclic_periodogram (fun i => nth i s 0) det_n det_np in
  exists m, max_cut_detector exact_fft s = Ret (10 * (ln m / ln 10)) /\
    (forall q j, (q < det_n)%nat -> (j < det_np)%nat -> normsq (sx q j) <= m) /\
    (exists q j, (q < det_n)%nat /\ (j < det_np)%nat /\ m = normsq (sx q j)).
Proof.
  intros Hl sx. pose proof det_sizes. unfold max_cut_detector. rewrite base_arr by lia. cbn [bind].
  apply (max_cut_R det_n det_np sx); lia.
Qed.

(** dcs_detector is 10 log10 of the largest ratio of a column's energy to that of its first entry. *)
Theorem C65_dcs_value sum s : (forall l, sum l = Rsum l) -> (det_n + det_np - 1 <= length s)%nat ->
  let sx := cyclic_periodogram (fun i => nth i s 0) det_n det_np in
  let ratio j := Rsum_n det_n (fun q => normsq (sx q j)) / normsq (sx 0%nat j) in
  exists m, dcs_detector exact_fft sum s = Ret (10 * (ln m / ln 10)) /\
    (forall j, (j < det_np)%nat -> ratio j <= m) /\ (exists j, (j < det_np)%nat /\ m = ratio j).
Proof.
  intros Hsum Hl sx ratio. pose proof det_sizes. unfold dcs_detector. rewrite base_arr by lia. cbn [bind].
  apply (dcs_R sum det_n det_np sx); [exact Hsum|lia|lia].
Qed.

(** It is never negative when every column starts with a nonzero entry. *)
Theorem C65_dcs_nonnegative sum s v : (forall l, sum l = Rsum l) -> (det_n + det_np - 1 <= length s)%nat ->
  (forall j, (j < det_np)%nat -> cyclic_periodogram (fun i => nth i s 0) det_n det_np 0 j <> Cpx 0 0) ->
  dcs_detector exact_fft sum s = Ret v -> 0 <= v.
Proof.
  intros Hsum Hl Hnz E. pose proof det_sizes as DS. destruct (C65_dcs_value sum s Hsum Hl) as (m & Em & Hm & _).
  rewrite Em in E. apply (f_equal (fun o => match o with Ret x => x | _ => 0 end)) in E. subst v.
  assert (L10 : 0 < ln 10) by (rewrite <- ln_1; apply ln_increasing; lra).
  assert (M1 : 1 <= m).
  { apply Rle_trans with (2 := Hm 0%nat ltac:(lia)).
    set (sx := cyclic_periodogram _ _ _). pose proof (normsq_pos _ (Hnz 0%nat ltac:(lia))) as P. fold sx in P.
    apply Rmult_le_reg_r with (normsq (sx 0%nat 0%nat)); [exact P|]. unfold Rdiv. rewrite Rmult_assoc, Rinv_l, Rmult_1_l, Rmult_1_r by lra.
    apply (Rsum_n_ge det_n (fun q => normsq (sx q 0%nat)) 0); [lia|]. intros; apply normsq_nonneg. }
  assert (0 <= ln m) by (rewrite <- ln_1; destruct (Rle_lt_or_eq_dec _ _ M1) as [H|<-]; [left; apply ln_increasing; lra|lra]).
  apply Rmult_le_pos; [lra|]. apply Rmult_le_pos; [assumption|]. left. apply Rinv_0_lt_compat. exact L10.
Qed.

(** Turning up the gain by c adds 40 log10 |c| to max_cut_detector and nothing to dcs_detector. *)
Theorem C65_max_cut_gain c s v : c <> 0 -> (det_n + det_np - 1 <= length s)%nat ->
  (exists q j, (q < det_n)%nat /\ (j < det_np)%nat /\ cyclic_periodogram (fun i => nth i s 0) det_n det_np q j <> Cpx 0 0) ->
  max_cut_detector exact_fft s = Ret v ->
  max_cut_detector exact_fft (map (Rmult c) s) = Ret (v + 40 * (ln (Rabs c) / ln 10)).
Proof.
  intros Hc Hl (q0 & j0 & Hq0 & Hj0 & Hnz) E.
  destruct (C65_max_cut_value s Hl) as (m & Em & Hm & (q1 & j1 & Hq1 & Hj1 & M1)).
  destruct (C65_max_cut_value (map (Rmult c) s)) as (m' & Em' & Hm' & (q2 & j2 & Hq2 & Hj2 & M2)); [rewrite map_length; exact Hl|].
  rewrite Em in E. apply (f_equal (fun o => match o with Ret x => x | _ => 0 end)) in E. subst v. rewrite Em'. f_equal.
  set (sx := cyclic_periodogram (fun i => nth i s 0) det_n det_np) in *.
  assert (SC : forall q j, normsq (cyclic_periodogram (fun i => nth i (map (Rmult c) s) 0) det_n det_np q j) = c * c * (c * c) * normsq (sx q j)).
  { intros q j. rewrite <- normsq_scale. unfold sx. rewrite <- cyclic_scale. f_equal.
    apply Csum_ext. intros p _. apply Csum_ext. intros r _.
    assert (NM : forall i, nth i (map (Rmult c) s) 0 = c * nth i s 0).
    { intros i. rewrite <- (Rmult_0_r c) at 1. apply map_nth. }
    rewrite !NM. reflexivity. }
  assert (K : 0 < c * c * (c * c)) by (assert (0 < c * c) by nra; nra).
  assert (EM : m' = c * c * (c * c) * m).
  { apply Rle_antisym.
    - rewrite M2, SC. apply Rmult_le_compat_l; [lra|]. apply Hm; assumption.
    - rewrite M1, <- SC. apply Hm'; assumption. }
  assert (MP : 0 < m) by (apply Rlt_le_trans with (normsq (sx q0 j0)); [apply normsq_pos; exact Hnz|apply Hm; assumption]).
  assert (AP : 0 < Rabs c) by (apply Rabs_pos_lt; exact Hc).
  assert (SQ : c * c = Rabs c * Rabs c) by (rewrite <- Rabs_mult; symmetry; apply Rabs_pos_eq, Rle_0_sqr).
  rewrite EM, SQ. rewrite !ln_mult by (repeat apply Rmult_lt_0_compat; assumption).
  assert (0 < ln 10) by (rewrite <- ln_1; apply ln_increasing; lra). field. lra.
Qed.

Theorem C65_dcs_gain sum c s : (forall l, sum l = Rsum l) -> c <> 0 -> (det_n + det_np - 1 <= length s)%nat ->
  (forall j, (j < det_np)%nat -> cyclic_periodogram (fun i => nth i s 0) det_n det_np 0 j <> Cpx 0 0) ->
  dcs_detector exact_fft sum (map (Rmult c) s) = dcs_detector exact_fft sum s.
Proof.
  intros Hsum Hc Hl Hnz.
  destruct (C65_dcs_value sum s Hsum Hl) as (m & Em & Hm & (j1 & Hj1 & M1)).
  destruct (C65_dcs_value sum (map (Rmult c) s) Hsum) as (m' & Em' & Hm' & (j2 & Hj2 & M2)); [rewrite map_length; exact Hl|].
  rewrite Em, Em'. set (sx := cyclic_periodogram (fun i => nth i s 0) det_n det_np) in *.
  assert (SC : forall q j, normsq (cyclic_periodogram (fun i => nth i (map (Rmult c) s) 0) det_n det_np q j) = c * c * (c * c) * normsq (sx q j)).
  { intros q j. rewrite <- normsq_scale. unfold sx. rewrite <- cyclic_scale. f_equal.
    apply Csum_ext. intros p _. apply Csum_ext. intros r _.
    assert (NM : forall i, nth i (map (Rmult c) s) 0 = c * nth i s 0).
    { intros i. rewrite <- (Rmult_0_r c) at 1. apply map_nth. }
    rewrite !NM. reflexivity. }
  assert (K : 0 < c * c * (c * c)) by (assert (0 < c * c) by nra; nra).
  assert (RT : forall j, (j < det_np)%nat ->
    Rsum_n det_n (fun q => normsq (cyclic_periodogram (fun i => nth i (map (Rmult c) s) 0) det_n det_np q j))
      / normsq (cyclic_periodogram (fun i => nth i (map (Rmult c) s) 0) det_n det_np 0 j)
    = Rsum_n det_n (fun q => normsq (sx q j)) / normsq (sx 0%nat j)).
  { intros j Hj. rewrite SC. rewrite (Rsum_n_ext _ _ (fun q => c * c * (c * c) * normsq (sx q j))) by (intros q _; apply SC).
    rewrite Rsum_n_scale. pose proof (normsq_pos _ (Hnz j Hj)). apply ratio_cancel; [lra|]. apply Rgt_not_eq. assumption. }
  replace m' with m; [reflexivity|]. apply Rle_antisym.
  - rewrite M1, <- RT by exact Hj1. apply Hm'. exact Hj1.
  - rewrite M2. rewrite RT by exact Hj2. apply Hm. exact Hj2.
Qed.

(** Signals shorter than 4159 samples. *)
Theorem C65_short_signal_panics {T} `{Num T} (fft : Fft T) sum s : (length s < Z.to_nat 4159)%nat ->
  dcs_detector fft sum s = Panic /\ max_cut_detector fft s = Panic.
Proof.
  intros Hl. pose proof det_sizes. unfold dcs_detector, max_cut_detector.
  rewrite C52_base_panics; [split; reflexivity|lia|]. right. unfold det_n, det_np. lia.
Qed.

(** ** Silence, in binary64 *)

(** Plus or minus zero. *)
Definition isz (x : F64) : Prop := exists s, x = B754_zero s.
Definition czero (c : cpx F64) : Prop := isz (re c) /\ isz (im c).

Lemma isz_mul a b : isz a -> fin b = true -> isz (Bmult mode_NE a b).
Proof. intros [s ->] Fb. destruct b as [s'|s'| |s' m e Hb]; try discriminate; eexists; reflexivity. Qed.
Lemma isz_mul_r a b : fin a = true -> isz b -> isz (Bmult mode_NE a b).
Proof. intros Fa [s ->]. destruct a as [s'|s'| |s' m e Hb]; try discriminate; eexists; reflexivity. Qed.
Lemma isz_fin a : isz a -> fin a = true.
Proof. intros [s ->]. reflexivity. Qed.
Lemma isz_add a b : isz a -> isz b -> isz (Bplus mode_NE a b).
Proof. intros [s ->] [s' ->]. destruct s, s'; eexists; reflexivity. Qed.
Lemma isz_sub a b : isz a -> isz b -> isz (Bminus mode_NE a b).
Proof. intros [s ->] [s' ->]. destruct s, s'; eexists; reflexivity. Qed.

Lemma czero_mul libm a b : czero a -> fin (re b) = true -> fin (im b) = true -> czero (@cmul F64 (NumF libm) a b).
Proof.
  intros [Ra Ia] Fr Fi. split; [apply (isz_sub (Bmult mode_NE _ _) (Bmult mode_NE _ _))|apply (isz_add (Bmult mode_NE _ _) (Bmult mode_NE _ _))]; apply isz_mul; assumption.
Qed.
Lemma czero_norm libm a : czero a -> isz (@cnorm_sqr F64 (NumF libm) a).
Proof.
  intros [Ra Ia]. apply (isz_add (Bmult mode_NE _ _) (Bmult mode_NE _ _)); apply isz_mul; try assumption; apply isz_fin; assumption.
Qed.

(** Finite, at most 2^e in magnitude. *)
Definition bd (e : Z) (x : F64) : Prop := fin x = true /\ Rabs (val x) <= bpow radix2 e.

Lemma rd_bd e x : (-1074 <= e < 1024)%Z -> Rabs x <= bpow radix2 e -> Rabs (rd x) <= bpow radix2 e /\ Rabs (rd x) < bpow radix2 1024.
Proof.
  intros He Hx. assert (B : Rabs (rd x) <= bpow radix2 e).
  { apply Rabs_le_inv in Hx. apply Rabs_le. split.
    - apply rd_ge_fmt; [apply generic_format_opp, fmt_bpow; lia|apply Hx].
    - apply rd_le_fmt; [apply fmt_bpow; lia|apply Hx]. }
  split; [exact B|]. apply Rle_lt_trans with (1 := B). apply bpow_lt. lia.
Qed.
Lemma bd_mul e f x y : (-1000 <= e + f < 1000)%Z -> bd e x -> bd f y -> bd (e + f) (Bmult mode_NE x y).
Proof.
  intros H [Fx Bx] [Fy By]. destruct (rd_bd (e + f) (val x * val y)) as [B1 B2]; [lia| |].
  - rewrite Rabs_mult, bpow_plus. apply Rmult_le_compat; try apply Rabs_pos; assumption.
  - destruct (mul_fin x y Fx Fy B2) as [V F]. split; [exact F|rewrite V; exact B1].
Qed.
Lemma bd_div e x y : (-1000 <= e < 1000)%Z -> bd e x -> 1 <= val y -> bd e (Bdiv mode_NE x y).
Proof.
  intros H [Fx Bx] Hy. destruct (rd_bd e (val x / val y)) as [B1 B2]; [lia| |].
  - unfold Rdiv. rewrite Rabs_mult. rewrite <- (Rmult_1_r (bpow radix2 e)). apply Rmult_le_compat; try apply Rabs_pos; try assumption.
    rewrite Rabs_pos_eq by (left; apply Rinv_0_lt_compat; lra). rewrite <- Rinv_1. apply Rinv_le_contravar; lra.
  - destruct (div_fin x y Fx ltac:(lra) B2) as [V F]. split; [exact F|rewrite V; exact B1].
Qed.
Lemma bd_sub e x y : (-1000 <= e < 1000)%Z -> bd e x -> bd e y -> bd (e + 1) (Bminus mode_NE x y).
Proof.
  intros H [Fx Bx] [Fy By]. destruct (rd_bd (e + 1) (val x - val y)) as [B1 B2]; [lia| |].
  - rewrite bpow_plus. change (bpow radix2 1) with 2. apply Rabs_le_inv in Bx, By. apply Rabs_le. lra.
  - destruct (sub_fin x y Fx Fy B2) as [V F]. split; [exact F|rewrite V; exact B1].
Qed.
Lemma bd_le e f x : (e <= f)%Z -> bd e x -> bd f x.
Proof. intros H [Fx Bx]. split; [exact Fx|]. apply Rle_trans with (1 := Bx). apply bpow_le. exact H. Qed.
Lemma bd_ofZ e z : (0 <= e <= 53)%Z -> (Z.abs z <= 2 ^ e)%Z -> bd e (f64_ofZ z).
Proof.
  intros He Hz. destruct (ofZ_exact z) as (V & F & _).
  - apply Z.le_trans with (1 := Hz). apply Z.pow_le_mono_r; lia.
  - split; [exact F|]. rewrite V, <- abs_IZR. rewrite <- (IZR_Zpower radix2) by lia. apply IZR_le. exact Hz.
Qed.
Lemma bd_cmp e x : fin x = true -> (0 <= e <= 53)%Z -> Bleb (Babs x) (f64_ofZ (2 ^ e)) = true -> bd e x.
Proof.
  intros Fx He H. destruct (ofZ_exact (2 ^ e)) as (V & F & _).
  - rewrite Z.abs_eq by (apply Z.pow_nonneg; lia). apply Z.pow_le_mono_r; lia.
  - split; [exact Fx|]. apply leb_val in H; [|unfold fin; rewrite is_finite_Babs; exact Fx|exact F].
    unfold val at 1 in H. rewrite B2R_Babs in H. rewrite V in H. rewrite <- (IZR_Zpower radix2) by lia. exact H.
Qed.
Lemma bd_pi : bd 2 f64_pi.
Proof. apply bd_cmp; [reflexivity|lia|vm_compute; reflexivity]. Qed.

(** A mathematics library whose sine and cosine stay within [-1, 1] on finite arguments, and for
    which e^0 = 1: every one in use. *)
Record tame (libm : Libm) : Prop := {
  tame_cos : forall x, fin x = true -> bd 0 (libm_cos libm x);
  tame_sin : forall x, fin x = true -> bd 0 (libm_sin libm x);
  tame_exp : libm_exp libm (f64_ofZ 0) = f64_ofZ 1
}.

Lemma ofnat_ge1 n : (1 <= n)%nat -> (Z.of_nat n <= 2 ^ 12)%Z -> 1 <= val (f64_ofZ (Z.of_nat n)).
Proof. intros H U. destruct (ofZ_exact (Z.of_nat n)) as (V & _ & _); [lia|]. rewrite V. apply (IZR_le 1). lia. Qed.

Lemma ham_fin libm len i : tame libm -> (i < len)%nat -> (Z.of_nat len <= 2 ^ 12)%Z -> fin (@ham F64 (NumF libm) len i) = true.
Proof.
  intros Ht Hi Hl. change (@ham F64 (NumF libm) len i) with
    (Bminus mode_NE (Bdiv mode_NE (f64_ofZ 54) (f64_ofZ 100)) (Bmult mode_NE (Bdiv mode_NE (f64_ofZ 46) (f64_ofZ 100))
       (libm_cos libm (Bdiv mode_NE (Bmult mode_NE (Bmult mode_NE (f64_ofZ 2) f64_pi) (f64_ofZ (Z.of_nat i))) (f64_ofZ (Z.of_nat len)))))).
  apply (bd_sub 0); [lia| |].
  - apply bd_cmp; [reflexivity|lia|vm_compute; reflexivity].
  - apply (bd_mul 0 0); [lia|apply bd_cmp; [reflexivity|lia|vm_compute; reflexivity]|]. apply (tame_cos libm Ht).
    apply (bd_div 15); [lia| |apply ofnat_ge1; lia].
    apply (bd_mul 3 12); [lia| |apply bd_ofZ; lia]. apply (bd_mul 1 2); [lia|apply bd_ofZ; cbn; lia|exact bd_pi].
Qed.

Lemma em_fin libm np i j : tame libm -> (j < np)%nat -> (Z.of_nat np <= 2 ^ 12)%Z -> (Z.of_nat i <= 2 ^ 12)%Z ->
  let num := NumF libm in
  let e := cexp_i (- nofZ 2 * npi * (nofnat j - nofnat np / nofZ 2) * nofnat i / nofnat np)%num in
  fin (re e) = true /\ fin (im e) = true.
Proof.
  intros Ht Hj Hp Hi num e.
  set (x := Bdiv mode_NE (Bmult mode_NE (Bmult mode_NE (Bmult mode_NE (Bopp (f64_ofZ 2)) f64_pi)
     (Bminus mode_NE (f64_ofZ (Z.of_nat j)) (Bdiv mode_NE (f64_ofZ (Z.of_nat np)) (f64_ofZ 2)))) (f64_ofZ (Z.of_nat i))) (f64_ofZ (Z.of_nat np))).
  change (re e) with (Bmult mode_NE (libm_exp libm (f64_ofZ 0)) (libm_cos libm x)).
  change (im e) with (Bmult mode_NE (libm_exp libm (f64_ofZ 0)) (libm_sin libm x)).
  rewrite (tame_exp libm Ht).
  assert (Fx : fin x = true).
  { apply (bd_div (((1 + 2) + (12 + 1)) + 12)); [lia| |apply ofnat_ge1; lia].
    apply bd_mul; [lia| |apply bd_ofZ; lia]. apply bd_mul; [lia| |].
    - apply bd_mul; [lia|apply bd_cmp; [reflexivity|lia|vm_compute; reflexivity]|exact bd_pi].
    - apply bd_sub; [lia|apply bd_ofZ; lia|]. apply bd_div; [lia|apply bd_ofZ; lia|].
      destruct (ofZ_exact 2) as (V & _ & _); [cbn; lia|]. rewrite V. lra. }
  split; apply (bd_mul 0 0); try lia; try (apply bd_ofZ; cbn; lia); [apply (tame_cos libm Ht)|apply (tame_sin libm Ht)]; exact Fx.
Qed.

(** An FFT that sends zeros to zeros, and a sum that does. *)
Definition zero_fft (fft : Fft F64) : Prop := forall l, (forall c, In c l -> czero c) -> forall c, In c (fft_forward fft l) -> czero c.
Definition zero_sum (sum : list F64 -> F64) : Prop := forall l, (forall x, In x l -> isz x) -> isz (sum l).

Lemma fftshift_in {A} (l : list A) x : In x (fftshift l) -> In x l.
Proof.
  unfold fftshift. intros H. apply in_app_iff in H. rewrite <- (firstn_skipn (div_ceil2 (length l)) l). apply in_app_iff. tauto.
Qed.
Lemma nth_czero libm (l : list (cpx F64)) i : (forall c, In c l -> czero c) -> czero (nth i l (@c0 F64 (NumF libm))).
Proof.
  intros H. destruct (nth_in_or_default i l (@c0 F64 (NumF libm))) as [Hin|E]; [apply H; exact Hin|].
  rewrite E. split; exists false; reflexivity.
Qed.
Lemma in_tab {A} n (f : nat -> A) x : In x (tab n f) -> exists i, (i < n)%nat /\ x = f i.
Proof. intros H. apply in_map_iff in H. destruct H as (i & <- & Hi). apply in_seq in Hi. exists i. split; [lia|reflexivity]. Qed.

Lemma silent_row libm fft s n np i j : tame libm -> zero_fft fft -> (forall x, In x s -> isz x) ->
  (i < n)%nat -> (j < np)%nat -> (Z.of_nat n <= 2 ^ 12)%Z -> (Z.of_nat np <= 2 ^ 12)%Z ->
  czero (@cell_row F64 (NumF libm) fft s n np i j).
Proof.
  intros Ht Hf Hs Hi Hj Bn Bp.
  assert (ZS : forall k, isz (nth k s (@nofZ F64 (NumF libm) 0))).
  { intros k. destruct (nth_in_or_default k s (@nofZ F64 (NumF libm) 0)) as [Hin|E]; [apply Hs; exact Hin|].
    rewrite E. exists false. reflexivity. }
  unfold cell_row. apply czero_mul; [apply czero_mul; [apply czero_mul|..]|..].
  - apply nth_czero. intros c Hc. apply fftshift_in in Hc. revert c Hc. apply Hf. intros c Hc. apply in_tab in Hc.
    destruct Hc as (r & Hr & ->). split; cbn [cscale re im].
    + apply isz_mul_r; [apply ham_fin; assumption|apply ZS].
    + apply isz_mul_r; [reflexivity|apply ZS].
  - apply (em_fin libm np i j Ht Hj Bp). lia.
  - apply (em_fin libm np i j Ht Hj Bp). lia.
  - apply isz_fin, ZS.
  - reflexivity.
  - apply ham_fin; assumption.
  - reflexivity.
Qed.

Lemma silent_sx libm fft s n np q j : tame libm -> zero_fft fft -> (forall x, In x s -> isz x) ->
  (j < np)%nat -> (Z.of_nat n <= 2 ^ 12)%Z -> (Z.of_nat np <= 2 ^ 12)%Z ->
  czero (@sx_val F64 (NumF libm) fft s n np q j).
Proof.
  intros Ht Hf Hs Hj Bn Bp. apply nth_czero. intros c Hc. apply fftshift_in in Hc. revert c Hc. apply Hf. intros c Hc.
  apply in_tab in Hc. destruct Hc as (i & Hi & ->). apply silent_row; assumption.
Qed.

(** On a silent signal dcs_detector divides 0 by 0 in every column and panics; max_cut_detector
    returns ten times the logarithm of zero. *)
Theorem C65_silence libm fft sum s : tame libm -> zero_fft fft -> zero_sum sum ->
  (forall x, In x s -> isz x) -> (det_n + det_np - 1 <= length s)%nat ->
  let num := NumF libm in
  dcs_detector fft sum s = Panic /\
  exists z, isz z /\ max_cut_detector fft s = Ret (nofZ 10 * nlog10 z)%num.
Proof.
  intros Ht Hf Hsum Hs Hl num. pose proof det_sizes as DS.
  assert (Bn : (Z.of_nat det_n <= 2 ^ 12)%Z) by (unfold det_n; lia).
  assert (Bp : (Z.of_nat det_np <= 2 ^ 12)%Z) by (unfold det_np; lia).
  assert (B2 : (2 <= det_np)%nat) by (unfold det_np; lia).
  assert (Z : forall q j, (j < det_np)%nat -> czero (@sx_val F64 num fft s det_n det_np q j)) by (intros q j Hj; apply silent_sx; assumption).
  unfold dcs_detector, max_cut_detector. rewrite ssca_base_ok by lia. cbn [bind].
  set (f := sx_val fft s det_n det_np) in *. clearbody f. revert DS Bn Bp B2 Z. clear Hl. generalize det_n det_np. intros n np DS Bn Bp B2 Z.
  split.
  - unfold dcs_detector_sxf.
    assert (E0 : idx (arr n np f) 0 = Ret (tab np (f 0%nat))) by (apply (Hadamard.idx_tab n (fun i => tab np (f i))); lia).
    rewrite E0. cbn [bind]. rewrite tab_length.
    match goal with |- context [max_by_cmp ?l] => set (ratios := l) end.
    assert (LR : length ratios = np).
    { unfold ratios. rewrite map_length, combine_length, !map_length, seq_length, tab_length. lia. }
    assert (NR : forall x, In x ratios -> is_nan x = true).
    { intros x Hx. apply in_map_iff in Hx. destruct Hx as ([t b] & <- & Hin).
      pose proof (in_combine_l _ _ _ _ Hin) as Ht'. pose proof (in_combine_r _ _ _ _ Hin) as Hb'.
      assert (Zt : isz t).
      { apply in_map_iff in Ht'. destruct Ht' as (j & <- & Hj). apply in_seq in Hj. apply Hsum. intros y Hy.
        apply in_map_iff in Hy. destruct Hy as (c & <- & Hc). apply (czero_norm libm). rewrite column_arr in Hc by lia.
        apply in_tab in Hc. destruct Hc as (i & Hi & ->). apply Z. lia. }
      assert (Zb : isz b).
      { apply in_map_iff in Hb'. destruct Hb' as (c & <- & Hc). apply (czero_norm libm). apply in_tab in Hc. destruct Hc as (j & Hj & ->).
        apply Z. exact Hj. }
      destruct Zt as [s1 ->], Zb as [s2 ->]. reflexivity. }
    destruct (C65_max_panics_iff_nan libm ratios ltac:(lia)) as [[_ P] _].
    assert (PR : @max_by_cmp F64 num ratios = Panic).
    { apply P. clearbody ratios. destruct ratios as [|x r]; [cbn in LR; lia|]. exists x. split; [left; reflexivity|apply NR; left; reflexivity]. }
    rewrite PR. reflexivity.
  - unfold max_cut_detector_sxf. match goal with |- context [max_by_cmp ?l] => set (cells := l) end.
    assert (ZC : forall x, In x cells -> isz x).
    { intros x Hx. apply in_map_iff in Hx. destruct Hx as (c & <- & Hc). apply (czero_norm libm). apply concat_arr_in in Hc.
      destruct Hc as (i & j & [Hi Hj] & ->). apply Z. exact Hj. }
    assert (I0 : In (cnorm_sqr (f 0%nat 0%nat)) cells) by (apply in_map, concat_arr_in; exists 0%nat, 0%nat; split; [lia|reflexivity]).
    assert (LC : (2 <= length cells)%nat).
    { unfold cells. rewrite map_length. destruct n as [|n]; [lia|]. unfold arr. rewrite tab_S. cbn [concat]. rewrite app_length, tab_length. lia. }
    destruct (C65_max_panics_iff_nan libm cells LC) as [_ P]. destruct P as (m & Em & Hm).
    { intros x Hx. destruct (ZC x Hx) as [s0 ->]. reflexivity. }
    exists m. split; [apply ZC; exact Hm|]. fold num in Em. rewrite Em. reflexivity.
Qed.

(** ** Cases *)

Lemma normsq_turn h x : normsq (cmul (Cpx h 0) (cis x)) = h * h.
Proof.
  unfold normsq, cis. cbn. pose proof (sin2_cos2 x) as SC. unfold Rsqr in SC.
  transitivity (h * h * (sin x * sin x + cos x * cos x)); [ring|]. rewrite SC. ring.
Qed.

(** A unit impulse: one product of samples is left, so every entry has the same magnitude. *)
Lemma impulse_spectrum n np p0 q j : (1 <= np)%nat -> (p0 < n)%nat ->
  normsq (cyclic_periodogram (fun i => if (i =? p0 + np / 2)%nat then 1 else 0) n np q j)
  = (hamming n p0 * hamming np (np / 2)) * (hamming n p0 * hamming np (np / 2)).
Proof.
  intros Hnp Hp0. assert (HL : (np / 2 < np)%nat) by (apply Nat.div_lt; lia).
  unfold cyclic_periodogram. rewrite (Csum_single n p0).
  - rewrite (Csum_single np (np / 2)).
    + rewrite Nat.eqb_refl, normsq_turn. ring.
    + exact HL.
    + intros r Hr Hne. replace (p0 + r =? p0 + np / 2)%nat with false by (symmetry; apply Nat.eqb_neq; lia).
      rewrite Rmult_0_r. unfold C0. apply cpx_eq; cbn; ring.
  - exact Hp0.
  - intros p Hp Hne. rewrite Csum_0; [reflexivity|]. intros r Hr.
    replace (p + np / 2 =? p0 + np / 2)%nat with false by (symmetry; apply Nat.eqb_neq; lia).
    rewrite Rmult_0_r, Rmult_0_l. unfold C0. apply cpx_eq; cbn; ring.
Qed.

Lemma hamming_pos len i : 0 < hamming len i.
Proof. unfold hamming. pose proof (COS_bound (2 * PI * INR i / INR len)). lra. Qed.

Definition impulse (len t : nat) : list R := tab len (fun i => if (i =? t)%nat then 1 else 0).
Lemma impulse_cyclic len t n np q j : (n + np <= len + 1)%nat ->
  cyclic_periodogram (fun i => nth i (impulse len t) 0) n np q j = cyclic_periodogram (fun i => if (i =? t)%nat then 1 else 0) n np q j.
Proof.
  intros Hl. apply Csum_ext. intros p Hp. apply Csum_ext. intros r Hr. unfold impulse.
  assert (np / 2 < np)%nat by (apply Nat.div_lt; lia). rewrite !tab_nth by lia. reflexivity.
Qed.

(** An impulse meets the hypotheses of the gain theorems; all columns are flat, so dcs_detector
    gives 10 log10 4096. *)
Example C65_impulse sum : (forall l, sum l = Rsum l) ->
  let s := impulse (det_n + det_np - 1) (det_np / 2) in
  (forall q j, cyclic_periodogram (fun i => nth i s 0) det_n det_np q j <> Cpx 0 0) /\
  dcs_detector exact_fft sum s = Ret (10 * (ln (INR det_n) / ln 10)).
Proof.
  intros Hsum s. pose proof det_sizes as DS.
  assert (N : forall q j, normsq (cyclic_periodogram (fun i => nth i s 0) det_n det_np q j)
     = (hamming det_n 0 * hamming det_np (det_np / 2)) * (hamming det_n 0 * hamming det_np (det_np / 2))).
  { intros q j. unfold s. rewrite impulse_cyclic by lia. apply (impulse_spectrum det_n det_np 0 q j); lia. }
  set (h := hamming det_n 0 * hamming det_np (det_np / 2)) in *.
  assert (HP : 0 < h) by (apply Rmult_lt_0_compat; apply hamming_pos).
  split.
  - intros q j E. pose proof (N q j) as Nq. rewrite E in Nq. unfold normsq in Nq. cbn [re im] in Nq. nra.
  - destruct (C65_dcs_value sum s Hsum) as (m & Em & _ & (j & Hj & Mj)); [unfold s, impulse; rewrite tab_length; lia|].
    rewrite Em. replace m with (INR det_n); [reflexivity|]. rewrite Mj, N.
    rewrite (Rsum_n_ext _ _ (fun _ => h * h)) by (intros q _; apply N). rewrite Rsum_n_const. field. lra.
Qed.

Definition libm_flat : Libm :=
  {| libm_sin := fun _ => f64_ofZ 0; libm_cos := fun _ => f64_ofZ 1; libm_exp := fun _ => f64_ofZ 1; libm_log10 := fun x => x;
     libm_pow := fun x _ => x; libm_sum_neg := true |}.
Definition plain_fft : Fft F64 :=
  {| fft_forward := fun x => x; fft_inverse := fun x => x; fft_forward_length := fun _ => eq_refl; fft_inverse_length := fun _ => eq_refl |}.
Example C65_silence_case :
  tame libm_flat /\ zero_fft plain_fft /\ zero_sum (@nsum F64 (NumF libm_flat)) /\
  (forall x, In x (repeat (f64_ofZ 0) (det_n + det_np - 1)) -> isz x).
Proof.
  split; [|split; [|split]].
  - constructor; intros; try reflexivity; apply bd_ofZ; cbn; lia.
  - intros l H c Hc. apply H. exact Hc.
  - intros l. unfold nsum. change (@nsum0 F64 (NumF libm_flat)) with (B754_zero true : F64).
    assert (G : forall a, isz a -> (forall x, In x l -> isz x) -> isz (fold_left (@nadd F64 (NumF libm_flat)) l a)).
    { induction l as [|x l IH]; intros a Ha Hl; [exact Ha|]. cbn [fold_left]. apply IH; [|intros y Hy; apply Hl; right; exact Hy].
      apply isz_add; [exact Ha|apply Hl; left; reflexivity]. }
    apply G. exists true. reflexivity.
  - intros x Hx. apply repeat_spec in Hx. subst x. exists false. reflexivity.
Qed.

Example C65_nan_case libm : exists x, In x [f64_ofZ 1; B754_nan; f64_ofZ 2] /\ is_nan x = true /\
  @max_by_cmp F64 (NumF libm) [f64_ofZ 1; B754_nan; f64_ofZ 2] = Panic.
Proof. exists B754_nan. split; [right; left; reflexivity|]. split; [reflexivity|]. apply C65_max_panics_iff_nan; [cbn; lia|]. exists B754_nan. split; [right; left; reflexivity|reflexivity]. Qed.
