(** Properties C53 and C54: the Costas loop (src/costas.rs) and the root-raised-cosine filter (src/filters.rs). *)
From Coq Require Import List Arith ZArith Reals Bool Lia Lra Psatz.
From Flocq Require Import Core BinarySingleNaN.
From Verif Require Import Base Num F64Lib FilterModel.
Import ListNotations.

(** ** C53 *)

Definition finite2 (s : cpx F64) : Prop := is_finite (re s) = true /\ is_finite (im s) = true.
Definition zero2 (s : cpx F64) : Prop := Beqb (re s) (f64_ofZ 0) = true /\ Beqb (im s) (f64_ofZ 0) = true.
Definition nan2 (s : cpx F64) : Prop := is_nan (re s) = true /\ is_nan (im s) = true.

Definition isz (x : F64) : Prop := exists s, x = B754_zero s.

Lemma isz_eqb x : isz x -> Beqb x (f64_ofZ 0) = true.
Proof. intros [[] ->]; reflexivity. Qed.
Lemma mul_fz x z : is_finite x = true -> isz z -> isz (Bmult mode_NE x z).
Proof. intros Hx [s ->]. destruct x; try discriminate; eexists; reflexivity. Qed.
Lemma mul_zf x z : is_finite x = true -> isz z -> isz (Bmult mode_NE z x).
Proof. intros Hx [s ->]. destruct x; try discriminate; eexists; reflexivity. Qed.
Lemma isz_fin x : isz x -> is_finite x = true.
Proof. intros [s ->]. reflexivity. Qed.
Lemma add_zz x y : isz x -> isz y -> isz (Bplus mode_NE x y).
Proof. intros [[] ->] [[] ->]; eexists; reflexivity. Qed.
Lemma sub_zz x y : isz x -> isz y -> isz (Bminus mode_NE x y).
Proof. intros [[] ->] [[] ->]; eexists; reflexivity. Qed.

Section Costas.
Variable libm : Libm.
Let num : Num F64 := NumF libm.

Definition idle (c : CostasLoop F64) : Prop :=
  is_finite (alpha c) = true /\ is_finite (beta c) = true /\ isz (vco_phase c) /\ isz (vco_freq c).
Definition dead (c : CostasLoop F64) : Prop := vco_phase c = B754_nan.

Lemma vco_zero c : idle c -> isz (re (@scalec F64 num (vco_phase c) (Cpx (@nofZ F64 num 0) (@nopp F64 num (@nofZ F64 num 1))))) /\
  isz (im (@scalec F64 num (vco_phase c) (Cpx (@nofZ F64 num 0) (@nopp F64 num (@nofZ F64 num 1))))).
Proof.
  intros (_ & _ & [s ->] & _). split; [exists (xorb s false)|exists (xorb s true)]; reflexivity.
Qed.

Lemma update_idle c s : idle c -> finite2 s ->
  isz (re (fst (@costas_update F64 num c s))) /\ isz (im (fst (@costas_update F64 num c s))) /\ idle (snd (@costas_update F64 num c s)).
Proof.
  intros Hi [F1 F2]. destruct (vco_zero c Hi) as [V1 V2]. destruct Hi as (Fa & Fb & Zp & Zf).
  unfold costas_update. set (v := scalec _ _) in *. set (out := cmul s v).
  assert (O1 : isz (re out)) by (apply sub_zz; apply mul_fz; assumption).
  assert (O2 : isz (im out)) by (apply add_zz; apply mul_fz; assumption).
  cbn [fst snd]. split; [exact O1|]. split; [exact O2|].
  assert (E : isz (@nmul F64 num (re out) (im out))) by (apply mul_fz; [apply isz_fin; exact O1|exact O2]).
  set (e := nmul (re out) (im out)) in *.
  assert (Q : isz (@nadd F64 num (vco_freq c) (@nmul F64 num (beta c) e))) by (apply add_zz; [exact Zf|apply mul_fz; assumption]).
  split; [exact Fa|]. split; [exact Fb|]. split; [|exact Q].
  apply add_zz; [exact Zp|]. apply add_zz; [apply mul_fz; assumption|exact Q].
Qed.

Lemma add_nan_l x : Bplus mode_NE (B754_nan : F64) x = B754_nan.
Proof. destruct x; reflexivity. Qed.
Lemma add_nan_r x : Bplus mode_NE x (B754_nan : F64) = B754_nan.
Proof. destruct x; reflexivity. Qed.
Lemma sub_nan_l x : Bminus mode_NE (B754_nan : F64) x = B754_nan.
Proof. destruct x; reflexivity. Qed.
Lemma sub_nan_r x : Bminus mode_NE x (B754_nan : F64) = B754_nan.
Proof. destruct x; reflexivity. Qed.
Lemma mul_nan_l x : Bmult mode_NE (B754_nan : F64) x = B754_nan.
Proof. destruct x; reflexivity. Qed.
Lemma mul_nan_r x : Bmult mode_NE x (B754_nan : F64) = B754_nan.
Proof. destruct x; reflexivity. Qed.

Lemma nan_error c s : re (@cmul F64 num s (@scalec F64 num (vco_phase c) (Cpx (@nofZ F64 num 0) (@nopp F64 num (@nofZ F64 num 1))))) = B754_nan ->
  vco_phase (snd (@costas_update F64 num c s)) = B754_nan.
Proof.
  intros E. unfold costas_update. cbn [snd vco_phase]. rewrite E. cbn [nadd nmul num NumF].
  rewrite mul_nan_l, !mul_nan_r, !add_nan_r. reflexivity.
Qed.

Lemma update_bad c s : idle c -> ~ finite2 s -> nan2 (fst (@costas_update F64 num c s)) /\ dead (snd (@costas_update F64 num c s)).
Proof.
  intros Hi Hs. destruct (vco_zero c Hi) as [V1 V2].
  set (v := @scalec F64 num (vco_phase c) (Cpx (@nofZ F64 num 0) (@nopp F64 num (@nofZ F64 num 1)))) in *.
  assert (G : forall x z, is_finite x = false -> isz z -> Bmult mode_NE x z = B754_nan).
  { intros x z Fx [sz ->]. destruct x; try discriminate; reflexivity. }
  assert (O : re (@cmul F64 num s v) = B754_nan /\ im (@cmul F64 num s v) = B754_nan).
  { unfold cmul. cbn [re im nadd nsub nmul num NumF]. unfold finite2 in Hs.
    destruct (is_finite (re s)) eqn:E1.
    - assert (E2 : is_finite (im s) = false) by (destruct (is_finite (im s)); [exfalso; auto|reflexivity]).
      rewrite (G _ _ E2 V1), (G _ _ E2 V2), sub_nan_r, add_nan_r. auto.
    - rewrite (G _ _ E1 V1), (G _ _ E1 V2), sub_nan_l, add_nan_l. auto. }
  destruct O as [O1 O2]. split.
  - unfold costas_update, nan2. cbn [fst]. fold v. rewrite O1, O2. split; reflexivity.
  - apply nan_error. exact O1.
Qed.

Lemma update_dead c s : dead c -> nan2 (fst (@costas_update F64 num c s)) /\ dead (snd (@costas_update F64 num c s)).
Proof.
  intros D. unfold dead in D.
  assert (E : @scalec F64 num (vco_phase c) (Cpx (@nofZ F64 num 0) (@nopp F64 num (@nofZ F64 num 1))) = Cpx B754_nan B754_nan).
  { rewrite D. unfold scalec. cbn [re im nmul num NumF]. rewrite !mul_nan_l. reflexivity. }
  assert (O : @cmul F64 num s (Cpx B754_nan B754_nan) = Cpx B754_nan B754_nan).
  { unfold cmul. cbn [re im nadd nsub nmul num NumF]. rewrite !mul_nan_r, sub_nan_l, add_nan_l. reflexivity. }
  split; [|apply nan_error; rewrite E, O; reflexivity].
  unfold costas_update. cbn [fst]. rewrite E, O. split; reflexivity.
Qed.

Lemma run_idle samples : forall c, idle c -> Forall finite2 samples ->
  Forall zero2 (@costas_run F64 num c samples) /\
  (forall more, exists c', idle c' /\ @costas_run F64 num c (samples ++ more) = @costas_run F64 num c samples ++ @costas_run F64 num c' more).
Proof.
  induction samples as [|s l IH]; intros c Hc Hf.
  - split; [constructor|]. intros more. exists c. auto.
  - inversion_clear Hf as [|? ? Hs Hl]. destruct (update_idle c s Hc Hs) as (Z1 & Z2 & Hi). cbn [costas_run].
    destruct (@costas_update F64 num c s) as [o c1] eqn:E. cbn [fst snd] in *. destruct (IH c1 Hi Hl) as [I1 I2]. split.
    + constructor; [split; apply isz_eqb; assumption|exact I1].
    + intros more. destruct (I2 more) as (c' & Hc' & Eq). exists c'. split; [exact Hc'|]. cbn [app costas_run]. rewrite E, Eq. reflexivity.
Qed.

Lemma run_dead samples : forall c, dead c -> Forall nan2 (@costas_run F64 num c samples).
Proof.
  induction samples as [|s l IH]; intros c Hc; cbn [costas_run]; [constructor|].
  destruct (update_dead c s Hc) as [N D]. destruct (@costas_update F64 num c s) as [o c1]. constructor; [exact N|apply IH; exact D].
Qed.

End Costas.

Lemma new_idle libm : idle (@CostasLoop_new F64 (NumF libm)).
Proof. split; [vm_compute; reflexivity|]. split; [vm_compute; reflexivity|]. split; eexists; reflexivity. Qed.

Lemma costas_length {T} {num : Num T} samples : forall c, length (costas_run c samples) = length samples.
Proof. induction samples as [|s l IH]; intros c; cbn [costas_run]; [reflexivity|]. destruct (costas_update c s). cbn. f_equal. apply IH. Qed.

(** A new loop answers finite samples with zeros, for ever. *)
Theorem C53_never_starts :
  forall (libm : Libm) (samples : list (cpx F64)), let num := NumF libm in
    Forall finite2 samples ->
    length (costas_run CostasLoop_new samples) = length samples /\ Forall zero2 (costas_run CostasLoop_new samples).
Proof.
  intros libm samples num Hf. split; [apply costas_length|]. apply (run_idle libm samples _ (new_idle libm) Hf).
Qed.

(** One sample that is not finite, and every output from there on is NaN. *)
Theorem C53_poisoned_for_ever :
  forall (libm : Libm) (before after : list (cpx F64)) (bad : cpx F64), let num := NumF libm in
    Forall finite2 before -> ~ finite2 bad ->
    exists zeros nans, costas_run CostasLoop_new (before ++ bad :: after) = zeros ++ nans /\
      length zeros = length before /\ Forall zero2 zeros /\ Forall nan2 nans.
Proof.
  intros libm before after bad num Hf Hb. destruct (run_idle libm before _ (new_idle libm) Hf) as [Z A].
  destruct (A (bad :: after)) as (c' & Hc' & E). eexists. eexists. split; [exact E|]. split; [apply costas_length|]. split; [exact Z|].
  cbn [costas_run]. destruct (update_bad libm c' bad Hc' Hb) as [N D]. destruct (@costas_update F64 (NumF libm) c' bad) as [o c1].
  constructor; [exact N|]. apply run_dead. exact D.
Qed.

(** The same in exact arithmetic: the output is exactly zero. *)
Theorem C53_never_starts_exact :
  forall samples : list (cpx R), Forall (fun o => o = Cpx 0%R 0%R) (costas_run CostasLoop_new samples).
Proof.
  intros samples. enough (G : forall c, vco_phase c = 0%R -> vco_freq c = 0%R -> Forall (fun o => o = Cpx 0%R 0%R) (costas_run c samples)) by (apply G; reflexivity).
  induction samples as [|s l IH]; intros c Hp Hq; [constructor|]. cbn [costas_run costas_update].
  assert (E : cmul s (scalec (vco_phase c) (Cpx (nofZ 0) (nopp (nofZ 1)))) = Cpx 0%R 0%R).
  { rewrite Hp. unfold cmul, scalec. cbn. f_equal; ring. }
  unfold costas_update. rewrite E. constructor; [reflexivity|]. apply IH; cbn; rewrite ?Hp, ?Hq; ring.
Qed.

(** The zero phase is what keeps it there: from any other phase the loop does answer. *)
Example C53_other_phase : fst (costas_update (MkCostas 0 0 1 0)%R (Cpx 1 2)%R) = Cpx 2%R (-1)%R.
Proof. unfold costas_update, cmul, scalec. cbn. f_equal; lra. Qed.

Example C53_case : forall libm, let num := NumF libm in
  Forall finite2 [Cpx (f64_ofZ 3) (f64_ofZ 4); Cpx (Bopp (f64_ofZ 1)) (f64_ofZ 2)] /\ ~ finite2 (Cpx (f64_ofZ 3) (B754_infinity false)).
Proof. intros libm num. split; [repeat constructor|]. intros [_ H]. discriminate. Qed.

(** ** C54 *)

Lemma eqb_one q : Beqb q (f64_ofZ 1) = true -> q = f64_ofZ 1.
Proof.
  intros E. destruct (is_finite q) eqn:F; [|destruct q as [| [] | |]; discriminate].
  apply eqb_val in E; [|exact F|reflexivity]. apply B2R_inj; [| |exact E].
  - destruct q; try discriminate; [|reflexivity]. exfalso. vm_compute in E. lra.
  - vm_compute. reflexivity.
Qed.
Lemma eqb_mone q : Beqb q (Bopp (f64_ofZ 1)) = true -> q = Bopp (f64_ofZ 1).
Proof.
  intros E. destruct (is_finite q) eqn:F; [|destruct q as [| [] | |]; discriminate].
  apply eqb_val in E; [|exact F|reflexivity]. apply B2R_inj; [| |exact E].
  - destruct q; try discriminate; [|reflexivity]. exfalso. vm_compute in E. lra.
  - vm_compute. reflexivity.
Qed.

Lemma div_zero_not_finite (x y : F64) : is_finite (Bdiv mode_NE x (Bmult mode_NE y (B754_zero false))) = false.
Proof.
  assert (E : Bmult mode_NE y (B754_zero false) = B754_nan \/ exists s, Bmult mode_NE y (B754_zero false) = B754_zero s).
  { destruct y; [right|left|left|right]; try reflexivity; eexists; reflexivity. }
  destruct E as [-> | [s ->]]; destruct x; reflexivity.
Qed.

(** A tap at which 4*beta*t/ts computes to 1 or -1 and neither special case applies: not a finite number, whatever the
    sine and the cosine return. *)
Theorem C54_singular_tap_not_finite :
  forall (libm : Libm) (taps : nat) (beta ts samp_rate : F64) (i : nat),
    let num := NumF libm in
    let t := ((nofnat i - nofnat taps / nofZ 2) / samp_rate)%num in
    let q := (nofZ 4 * beta * t / ts)%num in
    i < taps -> neqb t (nofZ 0) = false ->
    (neqb q (nofZ 1) = true \/ neqb q (- nofZ 1)%num = true) ->
    neqb t (ts / (nofZ 2 * beta))%num = false -> neqb ts (- ts / (nofZ 2 * beta))%num = false ->
    exists x, nth_error (rrcosfilter taps beta ts samp_rate) i = Some x /\ is_finite x = false.
Proof.
  intros libm taps beta ts sr i num t q Hi Ht Hq H1 H2. eexists. split.
  - unfold rrcosfilter. rewrite nth_error_map. rewrite (nth_error_nth' _ 0) by (rewrite seq_length; exact Hi). rewrite seq_nth by exact Hi. reflexivity.
  - unfold rrcos_tap. cbn [Nat.add]. fold t. rewrite Ht, H1, H2, orb_false_r, andb_false_r. fold q.
    assert (E : nsub (nofZ 1) (nsqr q) = B754_zero false).
    { destruct Hq as [Hq|Hq]; [apply eqb_one in Hq|apply eqb_mone in Hq]; rewrite Hq; vm_compute; reflexivity. }
    rewrite E. apply div_zero_not_finite.
Qed.

Lemma exact_tap (libm : Libm) (h d : Z) : (0 <= h)%Z -> (2 * h < 2 ^ 53)%Z -> (d = 1 \/ d = -1)%Z -> (0 <= h + d)%Z ->
  let num := NumF libm in
  ((nofZ (h + d) - nofZ (2 * h) / nofZ 2) / nofZ 1)%num = f64_ofZ d.
Proof.
  intros H0 H1 Hd H2 num. cbn [nsub ndiv nofZ num NumF].
  destruct (ofZ_exact (h + d) ltac:(lia)) as (V1 & F1 & _). destruct (ofZ_exact (2 * h) ltac:(lia)) as (V2 & F2 & _).
  destruct (ofZ_exact 2 ltac:(lia)) as (V3 & F3 & _). destruct (ofZ_exact 1 ltac:(lia)) as (V4 & F4 & _).
  destruct (ofZ_exact d ltac:(lia)) as (V5 & F5 & _).
  assert (Big : forall z, (Z.abs z <= 2 ^ 53)%Z -> (Rabs (IZR z) < bpow radix2 1024)%R).
  { intros z Hz. eapply Rlt_le_trans; [|exact bpow1024_big]. rewrite <- abs_IZR. apply IZR_lt. lia. }
  assert (E1 : rd (val (f64_ofZ (2 * h)) / val (f64_ofZ 2)) = IZR h).
  { rewrite V2, V3, mult_IZR. replace (2 * IZR h / 2)%R with (IZR h) by field. apply rd_id, fmt_IZR. lia. }
  destruct (div_fin (f64_ofZ (2 * h)) (f64_ofZ 2) F2) as [D2 D1]; [rewrite V3; lra|rewrite E1; apply Big; lia|]. rewrite E1 in *.
  set (a := Bdiv mode_NE (f64_ofZ (2 * h)) (f64_ofZ 2)) in *.
  assert (E2 : rd (val (f64_ofZ (h + d)) - val a) = IZR d).
  { rewrite V1, D2, <- minus_IZR. replace (h + d - h)%Z with d by lia. apply rd_id, fmt_IZR. lia. }
  destruct (sub_fin (f64_ofZ (h + d)) a F1 D1) as [S2 S1]; [rewrite E2; apply Big; lia|]. rewrite E2 in S2.
  set (b := Bminus mode_NE (f64_ofZ (h + d)) a) in *.
  assert (E3 : rd (val b / val (f64_ofZ 1)) = IZR d).
  { rewrite S2, V4. replace (IZR d / 1)%R with (IZR d) by field. apply rd_id, fmt_IZR. lia. }
  destruct (div_fin b (f64_ofZ 1) S1) as [D4 D3]; [rewrite V4; lra|rewrite E3; apply Big; lia|]. rewrite E3 in D4.
  assert (N : IZR d <> 0%R) by (apply IZR_neq; lia).
  assert (St : forall x : F64, is_finite x = true -> B2R x <> 0%R -> is_finite_strict x = true).
  { intros x Fx Vx. destruct x; try discriminate; [|reflexivity]. exfalso. apply Vx. reflexivity. }
  apply B2R_inj; [apply St; [exact D3|]|apply St; [exact F5|]|]; unfold val in *; congruence.
Qed.

(** beta = 1/4, one sample per second, one second per symbol, any even number of taps from 4 on: the two taps next to the
    middle are not finite. *)
Theorem C54_quarter_rolloff_not_finite :
  forall (libm : Libm) (half : nat), let num := NumF libm in
    2 <= half -> (2 * Z.of_nat half < 2 ^ 53)%Z ->
    forall i, i = half - 1 \/ i = half + 1 ->
      exists x, nth_error (rrcosfilter (2 * half) (nlit 1 4) (nofZ 1) (nofZ 1)) i = Some x /\ is_finite x = false.
Proof.
  intros libm h num Hh Hb i Hi.
  assert (Et : exists d, (d = 1 \/ d = -1)%Z /\ ((nofnat i - nofnat (2 * h) / nofZ 2) / nofZ 1)%num = f64_ofZ d).
  { destruct Hi as [-> | ->].
    - exists (-1)%Z. split; [auto|]. rewrite <- (exact_tap libm (Z.of_nat h) (-1)) by lia. unfold nofnat. do 4 f_equal; lia.
    - exists 1%Z. split; [auto|]. rewrite <- (exact_tap libm (Z.of_nat h) 1) by lia. unfold nofnat. do 4 f_equal; lia. }
  destruct Et as (d & Hd & Et).
  apply (C54_singular_tap_not_finite libm (2 * h) (nlit 1 4) (nofZ 1) (nofZ 1) i); [lia| | | |];
    fold num; rewrite ?Et; destruct Hd as [-> | ->]; try (vm_compute; reflexivity).
  - left. vm_compute. reflexivity.
  - right. vm_compute. reflexivity.
Qed.

(** ** C61 *)

Local Open Scope R_scope.

Lemma ratio_neg (a b : R) : - a / - b = a / b.
Proof. unfold Rdiv. rewrite Rinv_opp. ring. Qed.

Lemma rrcos_even (beta ts t : R) :
  (1 / ts * sin (PI * t / ts * (1 - beta)) + 4 * beta * t / ts * cos (PI * t / ts * (1 + beta))) /
  (PI * t / ts * (1 - 4 * beta * t / ts * (4 * beta * t / ts))) =
  (1 / ts * sin (PI * - t / ts * (1 - beta)) + 4 * beta * - t / ts * cos (PI * - t / ts * (1 + beta))) /
  (PI * - t / ts * (1 - 4 * beta * - t / ts * (4 * beta * - t / ts))).
Proof.
  replace (PI * - t / ts * (1 - beta)) with (- (PI * t / ts * (1 - beta))) by (unfold Rdiv; ring).
  replace (PI * - t / ts * (1 + beta)) with (- (PI * t / ts * (1 + beta))) by (unfold Rdiv; ring).
  rewrite sin_neg, cos_neg, <- ratio_neg. f_equal; unfold Rdiv; ring.
Qed.

Lemma tap_R taps (beta ts sr : R) i : (i < taps)%nat ->
  nth_error (rrcosfilter taps beta ts sr) i = Some (rrcos_tap taps beta ts sr i).
Proof.
  intros Hi. unfold rrcosfilter. rewrite nth_error_map. rewrite (nth_error_nth' _ 0%nat) by (rewrite seq_length; exact Hi).
  rewrite seq_nth by exact Hi. reflexivity.
Qed.

(** In exact arithmetic the filter is symmetric about its middle (tap i and tap taps - i), away from the one instant
    t = ts/(2 beta) that is special-cased on one side only. *)
Theorem C61_rrcos_symmetric :
  forall (taps : nat) (beta ts samp_rate : R) (i : nat),
    let t := (INR i - INR taps / 2) / samp_rate in
    (1 <= i < taps)%nat -> t <> ts / (2 * beta) -> - t <> ts / (2 * beta) ->
    nth_error (rrcosfilter taps beta ts samp_rate) i = nth_error (rrcosfilter taps beta ts samp_rate) (taps - i).
Proof.
  intros taps beta ts sr i t Hi H1 H2. rewrite !tap_R by lia. f_equal. unfold rrcos_tap.
  assert (E1 : ndiv (nsub (nofnat i) (ndiv (nofnat taps) (nofZ 2))) sr = t).
  { unfold t, nofnat. cbn [nofZ ndiv nsub NumR]. rewrite <- !INR_IZR_INZ. reflexivity. }
  assert (E2 : ndiv (nsub (nofnat (taps - i)) (ndiv (nofnat taps) (nofZ 2))) sr = - t).
  { unfold t, nofnat. cbn [nofZ ndiv nsub NumR]. rewrite <- !INR_IZR_INZ, minus_INR by lia. unfold Rdiv. lra. }
  rewrite E1, E2. cbn [nofZ ndiv nsub nadd nmul nopp neqb nsin ncos npi nsqrt NumR].
  destruct (Req_EM_T t 0) as [T0|T0], (Req_EM_T (- t) 0) as [T1|T1]; try (exfalso; lra); [reflexivity|].
  destruct (Req_EM_T t (ts / (2 * beta))); [contradiction|]. destruct (Req_EM_T (- t) (ts / (2 * beta))); [contradiction|].
  cbn [orb]. destruct (negb _ && _); [reflexivity|]. apply rrcos_even.
Qed.

(** At that instant the two sides differ: roll-off 1/2, 4 taps. *)
Theorem C61_rrcos_symmetry_refuted :
  exists (taps : nat) (beta ts samp_rate : R) (i : nat), (1 <= i < taps)%nat /\ 0 < beta < 1 /\ 0 < ts /\ 0 < samp_rate /\
    nth_error (rrcosfilter taps beta ts samp_rate) i <> nth_error (rrcosfilter taps beta ts samp_rate) (taps - i).
Proof.
  exists 4%nat, (1 / 2), 1, 1, 3%nat. split; [lia|]. split; [lra|]. split; [lra|]. split; [lra|].
  rewrite !tap_R by lia. intros E. injection E as E. unfold rrcos_tap in E.
  change (4 - 3)%nat with 1%nat in E. unfold nofnat in E. cbn [Z.of_nat Pos.of_succ_nat Pos.succ nofZ ndiv nsub nadd nmul nopp neqb nsin ncos npi nsqrt nsqr NumR] in E.
  destruct (Req_EM_T ((3 - 4 / 2) / 1) 0) as [C|_] in E; [lra|]. destruct (Req_EM_T ((1 - 4 / 2) / 1) 0) as [C|_] in E; [lra|].
  destruct (Req_EM_T (1 / 2) 0) as [C|_] in E; [lra|]. destruct (Req_EM_T 1 (- (1) / (2 * (1 / 2)))) as [C|_] in E; [lra|].
  destruct (Req_EM_T ((3 - 4 / 2) / 1) (1 / (2 * (1 / 2)))) as [_|C] in E; [|lra].
  destruct (Req_EM_T ((1 - 4 / 2) / 1) (1 / (2 * (1 / 2)))) as [C|_] in E; [lra|]. cbn [negb andb orb] in E.
  replace (PI / (4 * (1 / 2))) with (PI / 2) in E by field. rewrite sin_PI2, cos_PI2 in E.
  replace (PI * ((1 - 4 / 2) / 1) / 1 * (1 - 1 / 2)) with (- (PI / 2)) in E by field.
  replace (PI * ((1 - 4 / 2) / 1) / 1 * (1 + 1 / 2)) with (- (3 * (PI / 2))) in E by field.
  rewrite sin_neg, cos_neg, sin_PI2, cos_3PI2 in E. pose proof PI_RGT_0 as PP.
  assert (L : 0 < 1 / 2 / (1 * sqrt 2) * ((1 + 2 / PI) * 1 + (1 - 2 / PI) * 0)).
  { apply Rmult_lt_0_compat.
    - apply Rdiv_lt_0_compat; [lra|]. assert (0 < sqrt 2) by (apply sqrt_lt_R0; lra). lra.
    - assert (0 < 2 / PI) by (apply Rdiv_lt_0_compat; lra). lra. }
  rewrite E in L. revert L. apply Rle_not_lt.
  match goal with |- ?n / ?d <= 0 => replace (n / d) with (- (1 / (3 * PI))) by (field; lra) end.
  assert (0 < 1 / (3 * PI)) by (apply Rdiv_lt_0_compat; lra). lra.
Qed.

Example C61_case : nth_error (rrcosfilter 4 (35/100) 1 1) 1 = nth_error (rrcosfilter 4 (35/100) 1 1) 3.
Proof. apply (C61_rrcos_symmetric 4 (35/100) 1 1 1); [lia|cbn; lra|cbn; lra]. Qed.

Example C54_case : forall libm, let num := NumF libm in
  exists x, nth_error (rrcosfilter 4 (nlit 1 4) (nofZ 1) (nofZ 1)) 3 = Some x /\ is_finite x = false.
Proof. intros libm num. apply (C54_quarter_rolloff_not_finite libm 2); [lia|reflexivity|right; reflexivity]. Qed.

(** ** Axioms used *)
Print Assumptions C53_never_starts.
Print Assumptions C53_poisoned_for_ever.
Print Assumptions C53_never_starts_exact.
Print Assumptions C54_singular_tap_not_finite.
Print Assumptions C54_quarter_rolloff_not_finite.
Print Assumptions C61_rrcos_symmetric.
Print Assumptions C61_rrcos_symmetry_refuted.
