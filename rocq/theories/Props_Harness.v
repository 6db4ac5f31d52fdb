(** Properties C84 and C85: the bit error harness of tests/ber.rs and the radiometer of
    tests/billiam.rs. *)
From Coq Require Import List Arith ZArith Reals Bool Lia Lra Psatz.
From Flocq Require Import Core BinarySingleNaN.
From Verif Require Import Base Spec SpecR Tab Num F64Lib LibModel LibFloat LibReal RSums IterTheory SscaModel SscaProofs PskModel PskFloat
  PskChain LabModel ChaosProofs ChaosMod Props_Psk Props_Pass Props_PassF.
Import ListNotations.
Local Open Scope R_scope.

(** How many of the received bits differ from the sent bit at the same place. *)
Definition errors (received data : list bool) : nat :=
  length (filter (fun p => xorb (fst p) (snd p)) (combine received data)).

Lemma errors_mismatches received data : errors received data = mismatches received data.
Proof.
  revert data. induction received as [|r l IH]; intros [|d m]; try reflexivity. unfold errors in *. cbn [combine filter fst snd mismatches].
  destruct r, d; cbn [xorb Bool.eqb length Nat.add]; rewrite IH; reflexivity.
Qed.
Lemma errors_le received data : (errors received data <= length data)%nat.
Proof. rewrite errors_mismatches. pose proof (mismatches_le received data). lia. Qed.

(** ** C84 *)

(** [not_inf] leaves finite numbers alone and gives a finite number unless its argument is nan. *)
Theorem C84_not_inf (x : F64) :
  (fin x = true -> not_inf x = x) /\ (is_nan x = false -> fin (not_inf x) = true) /\ (is_nan x = true -> not_inf x = x) /\
  not_inf (B754_infinity true) = Bopp (not_inf (B754_infinity false)).
Proof.
  assert (G : fin x = true -> not_inf x = x).
  { intros Fx. unfold not_inf. destruct x as [s|s| |s m e He]; try discriminate; try reflexivity; destruct s; reflexivity. }
  repeat split; [exact G| |]. 
  - intros Nx. destruct (fin x) eqn:Fx; [rewrite (G eq_refl); exact Fx|]. destruct x as [s|s| |s m e He]; try discriminate. destruct s; vm_compute; reflexivity.
  - intros Nx. destruct x; try discriminate. reflexivity.
Qed.
(** The greatest finite binary64 number. *)
Lemma f64_max_greatest (x : F64) : fin x = true -> fin f64_max = true /\ val x <= val f64_max.
Proof.
  intros Fx. split; [vm_compute; reflexivity|].
  pose proof (binary_normalize_correct 53 1024 _ _ mode_NE (2 ^ 53 - 1) 971 false) as C. cbv zeta in C.
  assert (E : bpow radix2 1024 - bpow radix2 971 = F2R (Float radix2 (2 ^ 53 - 1) 971)).
  { unfold F2R. cbn [Fnum Fexp]. rewrite minus_IZR. change (IZR (2 ^ 53)) with (IZR (Zpower radix2 53)). rewrite IZR_Zpower by lia.
    rewrite Rmult_minus_distr_r, <- bpow_plus, Rmult_1_l. reflexivity. }
  assert (Fm : fmt (F2R (Float radix2 (2 ^ 53 - 1) 971))).
  { rewrite <- E. apply generic_format_FLT. exists (Float radix2 (2 ^ 53 - 1) 971); [symmetry; rewrite E; reflexivity| |]; cbn; lia. }
  rewrite round_generic in C; [|apply valid_rnd_N|exact Fm]. rewrite <- E in C.
  assert (B : 0 < bpow radix2 971 < bpow radix2 1024) by (split; [apply bpow_gt_0|apply bpow_lt; lia]).
  rewrite Rlt_bool_true in C by (rewrite Rabs_pos_eq; lra). destruct C as (C & _). unfold val. fold f64_max in C. rewrite C.
  apply Rle_trans with (Rabs (B2R x)); [apply Rle_abs|]. apply (abs_B2R_le_emax_minus_prec 53 1024 _ x).
Qed.

Lemma div_nonneg (x y : F64) : Bleb (f64_ofZ 0) x = true -> fin y = true -> 0 < val y -> Bleb (f64_ofZ 0) (Bdiv mode_NE x y) = true.
Proof.
  intros Hx Fy Hy. apply nonneg_iff in Hx. destruct Hx as [->|[Fx Vx]].
  - assert (S := sign_pos y Hy). destruct y as [s|s| |s m e He]; try discriminate; [unfold val in Hy; cbn in Hy; lra|]. cbn in S. subst s. reflexivity.
  - pose proof (Bdiv_correct 53 1024 _ _ mode_NE x y ltac:(unfold val in Hy; lra)) as C.
    change (round radix2 (SpecFloat.fexp 53 1024) (round_mode mode_NE) (B2R x / B2R y)) with (rd (val x / val y)) in C.
    destruct (Rlt_bool_spec (Rabs (rd (val x / val y))) (bpow radix2 1024)) as [L|L].
    + destruct C as (V & F & _). apply nonneg_iff. right. unfold fin, val in *. rewrite F, V. split; [exact Fx|].
      rewrite <- rd_0. apply rd_le. apply Rmult_le_pos; [exact Vx|]. left. apply Rinv_0_lt_compat, Hy.
    + assert (S := sign_pos y Hy). apply nonneg_iff. left.
      destruct (Rle_lt_or_eq_dec 0 (val x) Vx) as [P|P].
      * rewrite (sign_pos x P), S in C. destruct (Bdiv mode_NE x y) as [s|s| |s m e He]; try discriminate C. cbn in C. congruence.
      * rewrite <- P in L. unfold Rdiv in L. rewrite Rmult_0_l, rd_0, Rabs_R0 in L. pose proof (bpow_gt_0 radix2 1024). lra.
Qed.

Lemma mul2_nonneg (x : F64) : Bleb (f64_ofZ 0) x = true -> Bleb (f64_ofZ 0) (Bmult mode_NE (f64_ofZ 2) x) = true.
Proof.
  intros Hx. apply nonneg_iff in Hx. destruct Hx as [->|[Fx Vx]]; [vm_compute; reflexivity|].
  destruct (ofZ_exact 2 ltac:(lia)) as (V2 & F2 & _).
  pose proof (Bmult_correct 53 1024 _ _ mode_NE (f64_ofZ 2) x) as C.
  change (round radix2 (SpecFloat.fexp 53 1024) (round_mode mode_NE) (B2R (f64_ofZ 2) * B2R x)) with (rd (val (f64_ofZ 2) * val x)) in C.
  destruct (Rlt_bool_spec (Rabs (rd (val (f64_ofZ 2) * val x))) (bpow radix2 1024)) as [L|L].
  - destruct C as (V & F & _). apply nonneg_iff. right. unfold fin, val in *. rewrite F, V, Fx, F2. split; [reflexivity|].
    rewrite <- rd_0. apply rd_le. rewrite V2. lra.
  - apply nonneg_iff. left. destruct (Rle_lt_or_eq_dec 0 (val x) Vx) as [P|P].
    + rewrite (sign_pos x P) in C. change (Bsign (f64_ofZ 2)) with false in C.
      destruct (Bmult mode_NE (f64_ofZ 2) x) as [s|s| |s m e He]; try discriminate C. cbn in C. congruence.
    + rewrite <- P in L. rewrite Rmult_0_r, rd_0, Rabs_R0 in L. pose proof (bpow_gt_0 radix2 1024). lra.
Qed.

Lemma sqrt_nonneg (x : F64) : Bleb (f64_ofZ 0) x = true -> is_nan (Bsqrt mode_NE x) = false.
Proof.
  intros Hx. pose proof (Bsqrt_correct 53 1024 _ _ mode_NE x) as (_ & F & _).
  destruct x as [s|s| |s m e He]; try discriminate; try reflexivity.
  - destruct s; [discriminate|reflexivity].
  - destruct s; [exfalso|destruct (Bsqrt mode_NE _); [reflexivity|reflexivity|discriminate F|reflexivity]].
    apply nonneg_iff in Hx. destruct Hx as [Hx|[_ Hx]]; [discriminate|]. unfold val in Hx. cbn in Hx.
    pose proof (F2R_lt_0 radix2 (Float radix2 (Z.neg m) e) eq_refl). cbn in *. lra.
Qed.

Lemma nsum_nonneg libm (l : list F64) : Forall (fun x => Bleb (f64_ofZ 0) x = true) l -> Bleb (f64_ofZ 0) (@nsum F64 (NumF libm) l) = true.
Proof. intros Hl. apply fold_nonneg; [|exact Hl]. cbn [nsum0 NumF]. destruct (libm_sum_neg libm); reflexivity. Qed.

Lemma len_pos {A} (l : list A) : l <> [] -> (Z.of_nat (length l) < 2 ^ 53)%Z ->
  fin (f64_ofZ (Z.of_nat (length l))) = true /\ val (f64_ofZ (Z.of_nat (length l))) = INR (length l) /\ 0 < INR (length l).
Proof.
  intros Hl Hb. destruct (ofZ_exact (Z.of_nat (length l)) ltac:(lia)) as (V & F & _). rewrite V, <- INR_IZR_INZ. repeat split; [exact F|].
  apply lt_0_INR. destruct l; [congruence|cbn; lia].
Qed.

(** The deviation handed to Normal::new: finite in binary64 for every signal without nans (infinite
    samples and overflowing sums included) and every finite snr > 0. *)
Lemma sigma_fin libm (e : F64) {A} (data : list A) (snr : F64) : data <> [] -> (Z.of_nat (length data) < 2 ^ 53)%Z ->
  Bleb (f64_ofZ 0) e = true -> fin snr = true -> 0 < val snr ->
  let eb := @ndiv F64 (NumF libm) e (@nofnat F64 (NumF libm) (length data)) in
  fin (@ndiv F64 (NumF libm) (not_inf (Bsqrt mode_NE (Bdiv mode_NE (Bmult mode_NE (f64_ofZ 2) eb) snr))) (f64_ofZ 2)) = true /\
  (val snr <= bpow radix2 1022 -> fin (not_inf (Bsqrt mode_NE (Bdiv mode_NE eb (Bmult mode_NE (f64_ofZ 2) snr)))) = true).
Proof.
  intros Hd Hb He Fs Vs eb. destruct (len_pos data Hd Hb) as (Fn & Vn & Pn).
  assert (Heb : Bleb (f64_ofZ 0) eb = true). { apply div_nonneg; [exact He|exact Fn|unfold nofnat; cbn [nofZ NumF]; rewrite Vn; exact Pn]. }
  split.
  - destruct (ofZ_exact 2 ltac:(lia)) as (V2 & F2 & _). cbn [ndiv NumF].
    assert (Fq : fin (not_inf (Bsqrt mode_NE (Bdiv mode_NE (Bmult mode_NE (f64_ofZ 2) eb) snr))) = true).
    { apply C84_not_inf, sqrt_nonneg, div_nonneg; [apply mul2_nonneg, Heb|exact Fs|exact Vs]. }
    set (q := not_inf _) in *. apply (proj2 (div_fin q (f64_ofZ 2) Fq ltac:(rewrite V2; lra) ltac:(
      rewrite V2; apply Rle_lt_trans with (Rabs (val q)); [|apply val_lt_max];
      rewrite <- (rd_id (Rabs (val q))) by (apply generic_format_abs, val_fmt);
      unfold rd at 1; rewrite <- round_NE_abs by typeclasses eauto; apply rd_le; unfold Rdiv; rewrite Rabs_mult, (Rabs_pos_eq (/ 2)) by lra;
      pose proof (Rabs_pos (val q)); lra))).
  - intros Hs. apply C84_not_inf, sqrt_nonneg.
    destruct (ofZ_exact 2 ltac:(lia)) as (V2 & F2 & _).
    destruct (mul_fin (f64_ofZ 2) snr F2 Fs) as [V F].
    { apply Rle_lt_trans with (bpow radix2 1023); [|apply bpow_lt; lia]. rewrite Rabs_pos_eq.
      - apply rd_le_fmt; [apply fmt_bpow; lia|]. rewrite V2. change (bpow radix2 1023) with (bpow radix2 (1 + 1022)). rewrite bpow_plus.
        change (bpow radix2 1) with 2. lra.
      - rewrite <- rd_0. apply rd_le. rewrite V2. lra. }
    apply div_nonneg; [exact Heb|exact F|]. rewrite V, V2.
    apply Rlt_le_trans with (val snr); [exact Vs|]. rewrite <- (rd_id (val snr)) at 1 by apply val_fmt. apply rd_le. lra.
Qed.

Lemma count_f64 (l : list (bool * bool)) : forall (k : nat) (a : F64), fin a = true -> val a = INR k ->
  (Z.of_nat (k + length l) < 2 ^ 53)%Z ->
  let s := fold_left (Bplus mode_NE) (map (fun '(rx, tx) => if Bool.eqb rx tx then f64_ofZ 0 else f64_ofZ 1) l) a in
  fin s = true /\ val s = INR (k + length (filter (fun p => xorb (fst p) (snd p)) l)).
Proof.
  induction l as [|[r t] l IH]; intros k a Fa Va Hb; cbn [map fold_left filter length] in *.
  - rewrite Nat.add_0_r. auto.
  - assert (B : forall z, (0 <= z <= 1)%Z -> val (Bplus mode_NE a (f64_ofZ z)) = INR (k + Z.to_nat z) /\ fin (Bplus mode_NE a (f64_ofZ z)) = true).
    { intros z Hz. destruct (ofZ_exact z ltac:(lia)) as (Vz & Fz & _).
      assert (E : rd (val a + val (f64_ofZ z)) = INR (k + Z.to_nat z)).
      { rewrite Va, Vz, plus_INR, (INR_IZR_INZ (Z.to_nat z)), Z2Nat.id by lia. rewrite INR_IZR_INZ, <- plus_IZR. apply rd_id, fmt_IZR. lia. }
      destruct (add_fin a (f64_ofZ z) Fa Fz) as [V F]; [|rewrite V; auto].
      rewrite E, Rabs_pos_eq by apply pos_INR. rewrite INR_IZR_INZ. apply Rlt_trans with (IZR (2 ^ 53)); [apply IZR_lt; lia|].
      change (IZR (2 ^ 53)) with (IZR (Zpower radix2 53)). rewrite IZR_Zpower by lia. apply bpow_lt. lia. }
    cbn [fst snd]. destruct r, t; cbn [Bool.eqb xorb length]; cbn [length] in Hb.
    + destruct (B 0%Z ltac:(lia)) as [V F]. cbn [Z.to_nat] in V. rewrite Nat.add_0_r in V. apply (IH k); [exact F|exact V|lia].
    + destruct (B 1%Z ltac:(lia)) as [V F]. rewrite <- Nat.add_succ_comm. replace (S k) with (k + Z.to_nat 1)%nat by lia. apply IH; [exact F|exact V|]. cbn. lia.
    + destruct (B 1%Z ltac:(lia)) as [V F]. rewrite <- Nat.add_succ_comm. replace (S k) with (k + Z.to_nat 1)%nat by lia. apply IH; [exact F|exact V|]. cbn. lia.
    + destruct (B 0%Z ltac:(lia)) as [V F]. cbn [Z.to_nat] in V. rewrite Nat.add_0_r in V. apply (IH k); [exact F|exact V|lia].
Qed.

(** What [b] reports of the received bits: the errors among them over the number of bits sent; zero
    exactly when every received bit is right, one exactly when all are there and all are wrong. *)
Definition reports (received data : list bool) (b : F64) : Prop :=
  is_finite b = true /\ B2R b = rd (INR (errors received data) / INR (length data)) /\ 0 <= B2R b <= 1 /\
  (B2R b = 0 <-> forall i r t, nth_error received i = Some r -> nth_error data i = Some t -> r = t) /\
  (B2R b = 1 <-> errors received data = length data).

Lemma error_rate_f64 libm fuel (rx : Iter bool) received data : yields rx received -> data <> [] -> (Z.of_nat (length data) < 2 ^ 53)%Z ->
  (length data < fuel)%nat ->
  exists b, @error_rate F64 (NumF libm) fuel rx data = Ret b /\ reports received data b.
Proof.
  intros Y Hd Hb Hf. unfold error_rate. rewrite (collect_yields _ _ fuel (izip_yields _ _ _ _ Y (of_list_yields data))).
  2:{ rewrite combine_length. lia. }
  cbn [bind]. eexists. split; [reflexivity|]. destruct (len_pos data Hd Hb) as (Fn & Vn & Pn).
  assert (L : (length (combine received data) <= length data)%nat) by (rewrite combine_length; lia).
  destruct (count_f64 (combine received data) 0 (B754_zero (libm_sum_neg libm)) eq_refl eq_refl ltac:(lia)) as [Fs Vs]. cbn [Nat.add] in Vs.
  fold (errors received data) in Vs. unfold nsum. cbn [nsum0 NumF nadd ndiv nofZ].
  set (s := fold_left _ _ _) in *. unfold nofnat. cbn [nofZ NumF].
  pose proof (errors_le received data) as Le.
  destruct (rd_frac (errors received data) (length data) Le ltac:(destruct data; [congruence|cbn; lia]) Hb) as (R & R0 & R1).
  destruct (div_fin s (f64_ofZ (Z.of_nat (length data))) Fs) as [V F].
  { rewrite Vn. lra. }
  { rewrite Vs, Vn. apply Rle_lt_trans with 1; [rewrite Rabs_pos_eq; lra|]. change 1 with (bpow radix2 0). apply bpow_lt. lia. }
  rewrite Vs, Vn in V. unfold reports. unfold fin in F. unfold val at 1 in V. rewrite F, V. repeat split; try tauto.
  - intros Z i r t Hr Ht. apply R0 in Z. rewrite errors_mismatches in Z. apply mismatches_0 with (i := i) in Z; [congruence|].
    apply Nat.min_glb_lt; apply nth_error_Some; congruence.
  - intros Z. apply R0. rewrite errors_mismatches. apply mismatches_0. intros i Hi.
    destruct (nth_error received i) as [r|] eqn:Er; [|apply nth_error_None in Er; lia].
    destruct (nth_error data i) as [t|] eqn:Et; [|apply nth_error_None in Et; lia]. f_equal. eauto.
Qed.

(** A receiver that always answers: whatever list its input yields, it yields the bits [decode]. *)
Definition receives {A} (rx : Iter A -> outcome (Iter bool)) (decode : list A -> list bool) : Prop :=
  forall it l, yields it l -> exists r, rx it = Ret r /\ yields r (decode l).

(** The samples with the first numbers of an endless noise sequence added. *)
Definition disturbed {A B} (add : A -> B -> A) (signal : list A) (z : nat -> B) : list A :=
  map (fun '(s, w) => add s w) (combine signal (map z (seq 0 (length signal)))).

Lemma push_rows_f {A B} (l : list A) (body : A -> outcome B) (P : A -> B -> Prop) : (forall a, In a l -> exists b, body a = Ret b /\ P a b) ->
  exists bs, push_rows l body = Ret bs /\ Forall2 P l bs.
Proof.
  intros H. assert (G : exists bs, Forall2 (fun a b => body a = Ret b /\ P a b) l bs).
  { induction l as [|a l IH]; [exists []; constructor|]. destruct (H a (or_introl eq_refl)) as (b & Hb). destruct IH as (bs & Hbs); [intros; apply H; right; assumption|].
    exists (b :: bs). constructor; assumption. }
  destruct G as (bs & G). exists bs. split.
  - unfold push_rows. enough (K : forall acc, for_each l (fun rows i => let? row := body i in Ret (rows ++ [row])) acc = Ret (acc ++ bs)) by apply (K []).
    induction G as [|a b l bs [E _] G IH]; intros acc; cbn [for_each]; [rewrite app_nil_r; reflexivity|]. rewrite E. cbn [bind]. rewrite IH.
    + rewrite <- app_assoc. reflexivity.
    + intros; apply H; right; assumption.
  - clear H. induction G as [|a b l bs [_ Hp] G IH]; constructor; assumption.
Qed.

(** The deviation of the noise at a signal-to-noise ratio (tests/ber.rs:71-75): passband half of
    sqrt(2 eb / snr), baseband sqrt(eb / (2 snr)), infinities made finite. *)
Definition pass_level libm (energy : F64) (bits : nat) (snr : F64) : F64 :=
  Bdiv mode_NE (not_inf (@nsqrt F64 (NumF libm) (Bdiv mode_NE (Bmult mode_NE (f64_ofZ 2) (Bdiv mode_NE energy (f64_ofZ (Z.of_nat bits)))) snr))) (f64_ofZ 2).
Definition base_level libm (energy : F64) (bits : nat) (snr : F64) : F64 :=
  not_inf (@nsqrt F64 (NumF libm) (Bdiv mode_NE (Bdiv mode_NE energy (f64_ofZ (Z.of_nat bits))) (Bmult mode_NE (f64_ofZ 2) snr))).
(** The energies they start from: squared samples added up from the left. *)
Definition pass_energy libm (tx : list F64) : F64 :=
  fold_left (fun e s => Bplus mode_NE e (Bmult mode_NE s s)) tx (B754_zero (libm_sum_neg libm)).
Definition base_energy libm (tx : list (cpx F64)) : F64 :=
  fold_left (fun e s => Bplus mode_NE e (Bplus mode_NE (Bmult mode_NE (re s) (re s)) (Bmult mode_NE (im s) (im s)))) tx (B754_zero (libm_sum_neg libm)).

Lemma pass_energy_eq libm tx : pass_energy libm tx = @nsum F64 (NumF libm) (map (@nsqr F64 (NumF libm)) tx).
Proof. unfold pass_energy, nsum. cbn [nsum0 NumF]. generalize (B754_zero (libm_sum_neg libm) : F64). induction tx as [|s tx IH]; intros e; [reflexivity|]. cbn [map fold_left]. exact (IH _). Qed.
Lemma base_energy_eq libm tx : base_energy libm tx = @nsum F64 (NumF libm) (map (@cnorm_sqr F64 (NumF libm)) tx).
Proof. unfold base_energy, nsum. cbn [nsum0 NumF]. generalize (B754_zero (libm_sum_neg libm) : F64). induction tx as [|s tx IH]; intros e; [reflexivity|]. cbn [map fold_left]. exact (IH _). Qed.

(** The harness never panics on a signal without nans and finite snrs > 0, and its rates are those of
    [reports] at every snr.  Bits that never arrive count as correct: a receiver yielding nothing has
    rate 0. *)
Theorem C84_bers_f64 libm fuel data (tx : list F64) rx decode (noise : F64 -> F64 -> Iter F64) (z : F64 -> nat -> F64) (snrs : list F64) :
  let num := NumF libm in
  data <> [] -> (Z.of_nat (length data) < 2 ^ 53)%Z -> (length data < fuel)%nat -> receives rx decode ->
  (forall x, In x tx -> is_nan x = false) ->
  (forall snr, In snr snrs -> is_finite snr = true /\ 0 < B2R snr /\ streams (noise snr (pass_level libm (pass_energy libm tx) (length data) snr)) (z snr)) ->
  exists bers, calculate_bers not_inf fuel data tx rx noise snrs = Ret bers /\
    Forall2 (fun snr b => reports (decode (disturbed nadd tx (z snr))) data b) snrs bers.
Proof.
  intros num Hd Hb Hf Hrx Htx Hs. unfold calculate_bers. apply push_rows_f. intros snr Hsnr. destruct (Hs snr Hsnr) as (Fs & Vs & Hz). cbv zeta.
  unfold normal_new. rewrite pass_energy_eq in Hz.
  assert (He : Bleb (f64_ofZ 0) (nsum (map nsqr tx)) = true).
  { apply nsum_nonneg. apply Forall_forall. intros x Hx. apply in_map_iff in Hx. destruct Hx as (y & <- & Hy). apply sq_nonneg, Htx, Hy. }
  destruct (sigma_fin libm _ data snr Hd Hb He Fs Vs) as [F _].
  unfold assert_then. match goal with |- context [if ?b then _ else _] => replace b with true by (symmetry; exact F) end.
  match goal with |- context [izip (of_list tx) ?n] => destruct (Hrx (imap (fun '(symb, noise0) => nadd symb noise0) (izip (of_list tx) n)) (disturbed nadd tx (z snr))) as (r & Er & Yr) end.
  { apply imap_yields. apply (izip_stream_yields _ _ _ _ (of_list_yields tx) Hz). }
  rewrite Er. cbn [bind]. apply error_rate_f64; assumption.
Qed.

Theorem C84_bers_baseband_f64 libm fuel data (tx : list (cpx F64)) rx decode (noise : F64 -> F64 -> Iter F64) (z : F64 -> nat -> F64) (snrs : list F64) :
  let num := NumF libm in
  data <> [] -> (Z.of_nat (length data) < 2 ^ 53)%Z -> (length data < fuel)%nat -> receives rx decode ->
  (forall x, In x tx -> is_nan (re x) = false /\ is_nan (im x) = false) ->
  (forall snr, In snr snrs -> is_finite snr = true /\ 0 < B2R snr <= bpow radix2 1022 /\ streams (noise snr (base_level libm (base_energy libm tx) (length data) snr)) (z snr)) ->
  exists bers, calculate_bers_baseband not_inf fuel data tx rx noise snrs = Ret bers /\
    Forall2 (fun snr b => reports (decode (disturbed (fun s w => Cpx (nadd (re s) w) (im s)) tx (z snr))) data b) snrs bers.
Proof.
  intros num Hd Hb Hf Hrx Htx Hs. unfold calculate_bers_baseband. apply push_rows_f. intros snr Hsnr. destruct (Hs snr Hsnr) as (Fs & Vs & Hz). cbv zeta.
  unfold normal_new. rewrite base_energy_eq in Hz.
  assert (He : Bleb (f64_ofZ 0) (nsum (map cnorm_sqr tx)) = true).
  { apply nsum_nonneg. apply Forall_forall. intros x Hx. apply in_map_iff in Hx. destruct Hx as (y & <- & Hy). destruct (Htx y Hy).
    unfold cnorm_sqr. apply add_nonneg; apply sq_nonneg; assumption. }
  destruct (sigma_fin libm _ data snr Hd Hb He Fs (proj1 Vs)) as [_ F]. specialize (F (proj2 Vs)).
  unfold assert_then. match goal with |- context [if ?b then _ else _] => replace b with true by (symmetry; exact F) end.
  match goal with |- context [izip (of_list tx) ?n] => destruct (Hrx (imap (fun '(symb, noise0) => cadds symb noise0) (izip (of_list tx) n)) (disturbed (fun s w => Cpx (nadd (re s) w) (im s)) tx (z snr))) as (r & Er & Yr) end.
  { apply imap_yields. apply (izip_stream_yields _ _ _ _ (of_list_yields tx) Hz). }
  rewrite Er. cbn [bind]. apply error_rate_f64; assumption.
Qed.

(** One nan sample is enough for a panic at the first snr. *)
Theorem C84_nan_panics libm fuel data (tx : list F64) rx (noise : F64 -> F64 -> Iter F64) (snr : F64) snrs :
  let num := NumF libm in
  (exists x, In x tx /\ is_nan x = true) -> calculate_bers not_inf fuel data tx rx noise (snr :: snrs) = Panic.
Proof.
  intros num (x & Hx & Nx). unfold calculate_bers, push_rows. cbn [for_each]. cbv zeta.
  assert (G : forall l a, is_nan a = true \/ In x l -> is_nan (fold_left (Bplus mode_NE) (map (@nsqr F64 num) l) a) = true).
  { induction l as [|y l IH]; intros a Ha; cbn [map fold_left]; [destruct Ha as [Ha|[]]; exact Ha|]. apply IH.
    destruct Ha as [Ha|[->|Ha]]; [left; destruct a; try discriminate; reflexivity|left|right; exact Ha].
    destruct x; try discriminate Nx. unfold nsqr. cbn [nmul num NumF]. destruct a as [[]|[]| |]; reflexivity. }
  specialize (G tx (B754_zero (libm_sum_neg libm)) (or_intror Hx)).
  match goal with |- context [normal_new ?s _] => assert (E : @nfinite F64 num s = false) end.
  { change (@nsum F64 num (map nsqr tx)) with (fold_left (Bplus mode_NE) (map (@nsqr F64 num) tx) (B754_zero (libm_sum_neg libm))).
    set (e := fold_left _ _ _) in *. clearbody e. destruct e; try discriminate. cbn [ndiv num NumF nofnat nmul nsqrt nofZ].
    change (Bdiv mode_NE B754_nan (f64_ofZ (Z.of_nat (length data)))) with (B754_nan : F64).
    replace (Bmult mode_NE (f64_ofZ 2) B754_nan) with (B754_nan : F64) by reflexivity. reflexivity. }
  unfold normal_new. rewrite E. reflexivity.
Qed.

(** Baseband QPSK: the harness adds noise to the real part only, so the second bit of every pair is
    always right and no noise, nan included, brings the rate above 1/2. *)
Lemma pairs_errors n : forall (data : list bool), length data = n -> forall l : list bool,
  (2 * errors (flat_map (fun fp : bool * (bool * bool) => [fst fp; snd (snd fp)]) (combine l (pairs data))) data <= length data)%nat.
Proof.
  induction n as [n IH] using (well_founded_induction lt_wf). intros data L l.
  destruct data as [|a [|b data]]; [destruct l; cbn; lia|destruct l; cbn; lia|]. destruct l as [|f l]; [cbn; lia|].
  cbn [pairs combine flat_map app fst snd]. specialize (IH (length data) ltac:(cbn in L; lia) data eq_refl l).
  unfold errors in *. cbn [combine filter fst snd length].
  rewrite xorb_nilpotent. destruct (xorb f a); cbn [length]; lia.
Qed.

Lemma rd_half (e n : nat) : (2 * e <= n)%nat -> (1 <= n)%nat -> rd (INR e / INR n) <= 1 / 2.
Proof.
  intros H Hn. apply rd_le_fmt. { replace (1 / 2) with (bpow radix2 (-1)) by (cbn; lra). apply fmt_bpow. lia. }
  assert (0 < INR n) by (apply lt_0_INR; lia). apply Rmult_le_reg_r with (INR n); [assumption|]. unfold Rdiv. rewrite Rmult_assoc, Rinv_l by lra.
  apply le_INR in H. rewrite mult_INR in H. cbn in H. lra.
Qed.

Theorem C84_baseband_qpsk_half libm fuel data (tx : list (cpx F64)) (noise : F64 -> F64 -> Iter F64) (z : F64 -> nat -> F64) (snrs : list F64) :
  let num := NumF libm in
  data <> [] -> (Z.of_nat (length data) < 2 ^ 53)%Z -> (length data < fuel)%nat ->
  yields (tx_baseband_qpsk_signal (of_list data)) tx ->
  (forall snr, In snr snrs -> is_finite snr = true /\ 0 < B2R snr <= bpow radix2 1022 /\ streams (noise snr (base_level libm (base_energy libm tx) (length data) snr)) (z snr)) ->
  exists bers, calculate_bers_baseband not_inf fuel data tx (fun it => Ret (rx_baseband_qpsk_signal it)) noise snrs = Ret bers /\
    length bers = length snrs /\ forall b, In b bers -> is_finite b = true /\ 0 <= B2R b <= 1 / 2.
Proof.
  intros num Hd Hb Hf Ytx Hs.
  assert (Etx : tx = map (qpsk_point libm) (pairs data)).
  { apply (yields_det _ _ _ Ytx). exact (imap_yields (qpsk_point libm) _ _ (ituples_yields _ _ (of_list_yields data))). }
  destruct (C84_bers_baseband_f64 libm fuel data tx (fun it => Ret (rx_baseband_qpsk_signal it))
    (flat_map (fun sample : cpx F64 => [Bleb (f64_ofZ 0) (re sample); Bleb (f64_ofZ 0) (im sample)])) noise z snrs Hd Hb Hf) as (bers & E & R).
  - intros it l Y. eexists. split; [reflexivity|].
    apply (iflat_pure_yields (fun sample : cpx F64 => [Bleb (f64_ofZ 0) (re sample); Bleb (f64_ofZ 0) (im sample)]) _ _ Y). intros; discriminate.
  - intros x Hx. subst tx. apply in_map_iff in Hx. destruct Hx as ([[] []] & <- & _); split; vm_compute; reflexivity.
  - exact Hs.
  - exists bers. split; [exact E|]. split; [clear - R; induction R; cbn; congruence|]. intros b Hin.
    assert (G : exists snr, reports (flat_map (fun sample : cpx F64 => [Bleb (f64_ofZ 0) (re sample); Bleb (f64_ofZ 0) (im sample)])
      (disturbed (fun s w => Cpx (Bplus mode_NE (re s) w) (im s)) tx (z snr))) data b).
    { clear - R Hin. induction R as [|snr c ss bs H R IH]; [destruct Hin|]. destruct Hin as [<-|Hin]; [exists snr; exact H|apply IH, Hin]. }
    destruct G as (snr & F & V & B & _). split; [exact F|]. split; [apply B|]. rewrite V. apply rd_half; [|destruct data; [congruence|cbn; lia]].
    assert (K : exists l, flat_map (fun sample : cpx F64 => [Bleb (f64_ofZ 0) (re sample); Bleb (f64_ofZ 0) (im sample)])
      (disturbed (fun s w => Cpx (Bplus mode_NE (re s) w) (im s)) tx (z snr)) =
      flat_map (fun fp : bool * (bool * bool) => [fst fp; snd (snd fp)]) (combine l (pairs data))).
    2:{ destruct K as (l & ->). apply (pairs_errors (length data)). reflexivity. }
    rewrite Etx. generalize (z snr) as w. generalize (pairs data) as ps. clear. induction ps as [|p ps IH]; intros w; [exists []; reflexivity|].
    destruct (IH (fun i => w (S i))) as (l & El). exists (Bleb (f64_ofZ 0) (Bplus mode_NE (re (qpsk_point libm p)) (w 0%nat)) :: l).
    unfold disturbed in El |- *. cbn [map length seq combine flat_map fst snd re im app]. rewrite <- seq_shift, map_map, El.
    f_equal. f_equal. destruct p as [[] []]; vm_compute; reflexivity.
Qed.

(** Passband BPSK as tests/ber.rs runs it: noise of at most 1/8 gives rate 0 at every snr. *)
Theorem C84_bpsk_zero libm fuel data (sample_rate symbol_rate : nat) (fc : F64) it (tx : list F64) (half_cycles : Z)
  (noise : F64 -> F64 -> Iter F64) (z : F64 -> nat -> F64) (snrs : list F64) :
  let num := NumF libm in
  let sps := (sample_rate / symbol_rate)%nat in
  let total := (length data * sps)%nat in
  data <> [] -> (Z.of_nat (length data) < 2 ^ 53)%Z -> (length data < fuel)%nat ->
  libm_within libm (bpow radix2 45) -> tx_bpsk_signal (of_list data) sample_rate symbol_rate fc = Ret it -> yields it tx ->
  (symbol_rate <= sample_rate)%nat ->
  (Z.of_nat sample_rate < 2 ^ 53)%Z -> (Z.of_nat sps <= 2 ^ 46)%Z -> (Z.of_nat total < 2 ^ 53)%Z ->
  is_finite fc = true ->
  2 * B2R fc * INR sps = IZR half_cycles * INR sample_rate ->
  ~ (exists z : Z, 2 * B2R fc = IZR z * INR sample_rate) ->
  2 * PI * Rabs (B2R fc) * (INR total / INR sample_rate) <= bpow radix2 44 ->
  (forall snr, In snr snrs -> is_finite snr = true /\ 0 < B2R snr /\ streams (noise snr (pass_level libm (pass_energy libm tx) (length data) snr)) (z snr) /\
     forall i, (i < total)%nat -> is_finite (z snr i) = true /\ Rabs (B2R (z snr i)) <= 1 / 8) ->
  exists bers, calculate_bers not_inf fuel data tx (fun it => rx_bpsk_signal it sample_rate symbol_rate fc) noise snrs = Ret bers /\
    length bers = length snrs /\ forall b, In b bers -> is_finite b = true /\ B2R b = 0.
Proof.
  intros num sps total Hd Hb Hf Hlm Htx Ytx Hle Hs2 Hn HT Ff Hh Hz Hph Hs.
  destruct (tx_bpsk_inv _ _ _ _ _ Htx) as (Hy & _ & _ & Yw). assert (Hr : (1 <= symbol_rate <= sample_rate)%nat) by lia.
  assert (Hn1 : (1 <= sps)%nat) by (apply Nat.div_le_lower_bound; lia).
  specialize (Yw Hn1 data (of_list_yields data)). fold sps in Yw.
  pose proof (yields_det _ _ _ Ytx Yw) as Etx.
  pose proof (fc_half _ _ _ _ Hr Hh Hz) as Bf.
  set (decode := fun l : list F64 => tab (length l / sps) (fun s => nltb (nofZ 0) (corr sps s (fun i => nmul (nth i l (nofZ 0)) (ccos sample_rate fc i))))).
  assert (Hrx : receives (fun it => rx_bpsk_signal it sample_rate symbol_rate fc) decode).
  { intros it' l Y. destruct (rx_bpsk_intro it' sample_rate symbol_rate fc Hy Hn1) as (r & Er & _ & Yr). exists r. split; [exact Er|]. apply (Yr l (nofZ 0) Y). }
  destruct (C84_bers_f64 libm fuel data tx _ decode noise z snrs Hd Hb Hf Hrx) as (bers & E & R).
  - intros x Hx. rewrite Etx in Hx. unfold bpsk_wave in Hx. unfold tab in Hx. apply in_map_iff in Hx. destruct Hx as (i & <- & Hi). apply in_seq in Hi.
    destruct (design_carrier libm fc sample_rate total i Hlm Ff Bf ltac:(lia) Hs2 HT ltac:(lia) Hph) as ((Fc & _) & _).
    unfold ccos, phase_at in *. cbn [ncos num NumF] in *. set (c := libm_cos libm _) in *. clearbody c.
    unfold bit_to_nrz. destruct (nth _ _ _); destruct c as [s|s| |s m e He]; try discriminate Fc; cbn [nmul nofZ nopp num NumF];
      match goal with |- is_nan (Bmult mode_NE ?a ?b) = false => destruct (Bmult_sign a b ltac:(reflexivity) ltac:(reflexivity) ltac:(left; split; reflexivity)) as [N _]; exact N end.
  - intros snr Hsnr. destruct (Hs snr Hsnr) as (A & B & C & _). auto.
  - exists bers. split; [exact E|]. split; [clear - R; induction R; cbn; congruence|].
    assert (L : length tx = total) by (rewrite Etx; apply tab_length).
    assert (K : forall snr, In snr snrs -> decode (disturbed nadd tx (z snr)) = data).
    { intros snr Hsnr. destruct (Hs snr Hsnr) as (_ & _ & _ & Zb).
      destruct (C79_bpsk_design_f64 libm (of_list data) data sample_rate symbol_rate fc it half_cycles (map (z snr) (seq 0 total)) Hlm (of_list_yields data) Htx Hle Hs2 Hn HT Ff Hh Hz Hph)
        as (r & Er & Yr).
      - rewrite map_length, seq_length. reflexivity.
      - intros x Hx. apply in_map_iff in Hx. destruct Hx as (i & <- & Hi). apply in_seq in Hi. apply Zb. fold sps total in Hi. lia.
      - destruct (Hrx (noisy it (map (z snr) (seq 0 total))) (disturbed nadd tx (z snr))) as (r' & Er' & Yr').
        { unfold noisy, disturbed. apply imap_yields. rewrite L. apply izip_yields; [exact Ytx|apply of_list_yields]. }
        pose proof (eq_trans (eq_sym Er) Er') as Q. injection Q as <-. apply (yields_det _ _ _ Yr' Yr). }
    clear - R K. induction R as [|snr c ss bs H R IH]; intros b Hb; [destruct Hb|]. destruct Hb as [<-|Hb].
    + rewrite K in H by (left; reflexivity). destruct H as (F & _ & _ & Z & _). split; [exact F|]. apply Z. congruence.
    + apply IH; [|exact Hb]. intros; apply K; right; assumption.
Qed.

(** A receiver that never answers has rate 0 whatever was sent. *)
Theorem C84_silent_receiver libm fuel data (tx : list F64) (noise : F64 -> F64 -> Iter F64) (z : F64 -> nat -> F64) (snrs : list F64) :
  let num := NumF libm in
  data <> [] -> (Z.of_nat (length data) < 2 ^ 53)%Z -> (length data < fuel)%nat ->
  (forall x, In x tx -> is_nan x = false) ->
  (forall snr, In snr snrs -> is_finite snr = true /\ 0 < B2R snr /\ streams (noise snr (pass_level libm (pass_energy libm tx) (length data) snr)) (z snr)) ->
  exists bers, calculate_bers not_inf fuel data tx (fun _ => Ret (of_list [])) noise snrs = Ret bers /\
    length bers = length snrs /\ forall b, In b bers -> B2R b = 0.
Proof.
  intros num Hd Hb Hf Htx Hs. destruct (C84_bers_f64 libm fuel data tx (fun _ => Ret (of_list [])) (fun _ => []) noise z snrs Hd Hb Hf) as (bers & E & R).
  - intros it l _. eexists. split; [reflexivity|apply of_list_yields].
  - exact Htx.
  - exact Hs.
  - exists bers. split; [exact E|]. split; [clear - R; induction R; cbn; congruence|]. clear - R.
    induction R as [|snr c ss bs H R IH]; intros b Hb; [destruct Hb|]. destruct Hb as [<-|Hb]; [|apply IH, Hb].
    destruct H as (_ & _ & _ & Z & _). apply Z. intros [|i] r t Hr; discriminate Hr.
Qed.

(** An endless constant. *)
Definition always {A} (a : A) : Iter A := MkIter tt (fun s => Ret (Some a, s)).
Lemma always_streams {A} (a : A) : streams (always a) (fun _ => a).
Proof.
  apply (streams_coind (next (always a)) (fun _ f => forall n, f n = a)); [|reflexivity].
  intros s f Hf. exists s. cbn. rewrite Hf. split; [reflexivity|]. intros n. apply Hf.
Qed.

(** The bound 1/2 is reached: noise -10 turns the first bit over and cannot touch the second. *)
Example C84_half_case libm : let num := NumF libm in
  exists tx b, yields (tx_baseband_qpsk_signal (of_list [true; true])) tx /\
    calculate_bers_baseband not_inf 10 [true; true] tx (fun it => Ret (rx_baseband_qpsk_signal it)) (fun _ _ => always (f64_ofZ (-10))) [f64_ofZ 1] = Ret [b] /\
    B2R b = 1 / 2.
Proof.
  intros num.
  destruct (C84_bers_baseband_f64 libm 10 [true; true] [qpsk_point libm (true, true)] (fun it => Ret (rx_baseband_qpsk_signal it))
    (flat_map (fun sample : cpx F64 => [Bleb (f64_ofZ 0) (re sample); Bleb (f64_ofZ 0) (im sample)]))
    (fun _ _ => always (f64_ofZ (-10))) (fun _ _ => f64_ofZ (-10)) [f64_ofZ 1]) as (bers & E & R).
  - discriminate.
  - cbn. lia.
  - cbn. lia.
  - intros it l Y. eexists. split; [reflexivity|].
    apply (iflat_pure_yields (fun sample : cpx F64 => [Bleb (f64_ofZ 0) (re sample); Bleb (f64_ofZ 0) (im sample)]) _ _ Y). intros; discriminate.
  - intros x [<-|[]]. split; vm_compute; reflexivity.
  - intros snr [<-|[]]. destruct val_1 as [V F]. split; [exact F|]. split; [unfold val in V; rewrite V; split; [lra|]; change 1 with (bpow radix2 0); apply bpow_le; lia|apply always_streams].
  - inversion R as [|snr b ss bs H R' E1 E2]. subst. inversion R'. subst. exists [qpsk_point libm (true, true)], b. split.
    { exact (imap_yields (qpsk_point libm) _ _ (ituples_yields _ _ (of_list_yields [true; true]))). }
    split; [exact E|]. destruct H as (F & V & _).
    rewrite V. replace (errors _ _) with 1%nat by (vm_compute; reflexivity). rewrite rd_id; [cbn; lra|].
    replace (INR 1 / INR (length [true; true])) with (bpow radix2 (-1)) by (cbn; lra). apply fmt_bpow. lia.
Qed.

Example C84_case libm : let num := NumF libm in
  exists b, calculate_bers not_inf 10 [true; false; true] [f64_ofZ 1; f64_ofZ (-1); f64_ofZ 1] (fun it => Ret (imap (fun x => Bleb (f64_ofZ 0) x) it))
    (fun _ _ => always (f64_ofZ 2)) [f64_ofZ 4] = Ret [b] /\ is_finite b = true /\ B2R b = rd (1 / 3).
Proof.
  intros num. destruct (C84_bers_f64 libm 10 [true; false; true] [f64_ofZ 1; f64_ofZ (-1); f64_ofZ 1] (fun it => Ret (imap (fun x => Bleb (f64_ofZ 0) x) it))
    (map (fun x => Bleb (f64_ofZ 0) x)) (fun _ _ => always (f64_ofZ 2)) (fun _ _ => f64_ofZ 2) [f64_ofZ 4]) as (bers & E & R).
  - discriminate.
  - cbn. lia.
  - cbn. lia.
  - intros it l Y. eexists. split; [reflexivity|]. apply imap_yields, Y.
  - intros x [<-|[<-|[<-|[]]]]; reflexivity.
  - intros snr [<-|[]]. destruct (ofZ_exact 4 ltac:(lia)) as (V & F & _). split; [exact F|]. split; [unfold val in V; rewrite V; lra|apply always_streams].
  - inversion R as [|snr b ss bs H R' E1 E2]. subst. inversion R'. subst. exists b. split; [exact E|]. destruct H as (F & V & _). split; [exact F|].
    rewrite V. f_equal. replace (errors _ _) with 1%nat by (vm_compute; reflexivity). cbn. lra.
Qed.

(** ** C85 *)

(** How many energies are at most [t], and how many above. *)
Definition at_most (t : R) (l : list R) : nat := length (filter (fun e => if Rle_dec e t then true else false) l).

Lemma fold_add_count {A} (f : A -> nat) (g : A -> bool) (l : list A) : (forall a, f a = if g a then 1%nat else 0%nat) ->
  forall k, fold_left Nat.add (map f l) k = (k + length (filter g l))%nat.
Proof.
  intros E. induction l as [|a l IH]; intros k; cbn [map fold_left filter]; [cbn; lia|]. rewrite IH, E. destruct (g a); cbn [length]; lia.
Qed.

Lemma p_d_R t n l : p_d t n l = INR (at_most t l) / INR n.
Proof.
  unfold p_d, nofnat. rewrite (fold_add_count _ (fun e => if Rle_dec e t then true else false)). { cbn [nofZ ndiv NumR]. rewrite <- !INR_IZR_INZ. reflexivity. }
  intros e. cbn [nltb NumR]. destruct (Rlt_dec t e), (Rle_dec e t); try reflexivity; lra.
Qed.
Lemma p_md_R t n l : p_md t n l = INR (length l - at_most t l) / INR n.
Proof.
  unfold p_md, nofnat. rewrite (fold_add_count _ (fun e => negb (if Rle_dec e t then true else false))).
  2:{ intros e. cbn [nltb NumR]. destruct (Rlt_dec t e), (Rle_dec e t); try reflexivity; lra. }
  cbn [nofZ ndiv NumR]. rewrite <- !INR_IZR_INZ. f_equal. f_equal. cbn [Nat.add]. unfold at_most.
  assert (G : forall g : R -> bool, (length (filter g l) + length (filter (fun e => negb (g e)) l) = length l)%nat).
  { intros g. induction l as [|a l IH]; [reflexivity|]. cbn. destruct (g a); cbn; lia. }
  specialize (G (fun e => if Rle_dec e t then true else false)). cbv beta in G. lia.
Qed.

(** The two estimates add up to one when the constant is the number of energies, but what is called
    the probability of detection counts the energies that do not exceed the threshold: it falls as the
    energies rise, it is 1 when none exceeds the threshold and 0 when all do. *)
Theorem C85_estimates (t : R) (energies : list R) : energies <> [] ->
  let n := length energies in
  p_d t n energies + p_md t n energies = 1 /\ 0 <= p_d t n energies <= 1 /\
  (p_d t n energies = 1 <-> Forall (fun e => e <= t) energies) /\
  (p_d t n energies = 0 <-> Forall (fun e => t < e) energies).
Proof.
  intros He n. rewrite p_d_R, p_md_R. fold n. assert (P : 0 < INR n) by (apply lt_0_INR; unfold n; destruct energies; [congruence|cbn; lia]).
  assert (C : (at_most t energies <= n)%nat /\ (at_most t energies = n <-> Forall (fun e => e <= t) energies) /\
    (at_most t energies = 0%nat <-> Forall (fun e => t < e) energies)).
  { unfold n. clear. unfold at_most. induction energies as [|e l (L & A & B)]; [repeat split; intros; try constructor; reflexivity|].
    cbn [filter length]. rewrite !Forall_cons_iff. destruct (Rle_dec e t) as [H|H]; cbn [length].
    - split; [lia|]. split; [rewrite <- A; split; [intros; split; [exact H|lia]|intros [_ ->]; reflexivity]|].
      split; [discriminate|intros [K _]; lra].
    - split; [lia|]. split; [split; [lia|intros [K _]; lra]|]. rewrite <- B. split; [intros; split; [lra|assumption]|tauto]. }
  destruct C as (L & A & B). rewrite minus_INR by exact L. pose proof (le_INR _ _ L) as L'. pose proof (pos_INR (at_most t energies)) as L0.
  assert (K : forall x, 0 <= x <= INR n -> 0 <= x / INR n <= 1).
  { intros x Hx. split; [apply Rmult_le_pos; [lra|left; apply Rinv_0_lt_compat, P]|]. apply Rmult_le_reg_r with (INR n); [exact P|].
    unfold Rdiv. rewrite Rmult_assoc, Rinv_l by lra. lra. }
  split; [field; lra|]. split; [apply K; lra|]. rewrite <- A, <- B. split; split; intros H.
  - apply INR_eq. apply (f_equal (fun x => x * INR n)) in H. unfold Rdiv in H. rewrite Rmult_assoc, Rinv_l in H by lra. lra.
  - rewrite H. field. lra.
  - apply INR_eq. apply (f_equal (fun x => x * INR n)) in H. unfold Rdiv in H. rewrite Rmult_assoc, Rinv_l in H by lra. cbn. lra.
  - rewrite H. cbn. field. lra.
Qed.

Theorem C85_falls (t : R) (n : nat) (e e' : list R) : Forall2 Rle e e' -> p_d t n e' <= p_d t n e /\ p_md t n e <= p_md t n e'.
Proof.
  intros H. rewrite !p_d_R, !p_md_R.
  assert (G : (at_most t e' <= at_most t e)%nat /\ length e = length e' /\ (at_most t e <= length e)%nat).
  { unfold at_most. induction H as [|a b l l' Hab H IH]; [cbn; lia|]. cbn [filter length]. destruct (Rle_dec a t), (Rle_dec b t); cbn [length]; try lra; lia. }
  destruct G as (G & L & M). assert (0 <= / INR n) by (destruct n; [cbn; rewrite Rinv_0; lra|left; apply Rinv_0_lt_compat, lt_0_INR; lia]).
  split; apply Rmult_le_compat_r; try assumption; apply le_INR; lia.
Qed.

Lemma Rsum_sq_pos (l : list R) : (exists x, In x l /\ x <> 0) -> 0 < Rsum (map (fun x => x * x) l).
Proof.
  intros (x & Hx & Nx). induction l as [|a l IH]; [destruct Hx|]. cbn.
  assert (0 <= Rsum (map (fun x => x * x) l)) by (apply Rsum_nonneg; intros y Hy; apply in_map_iff in Hy; destruct Hy as (u & <- & _); apply Rle_0_sqr).
  destruct Hx as [->|Hx].
  - pose proof (Rsqr_pos_lt x Nx) as K. unfold Rsqr in K. lra.
  - specialize (IH Hx). pose proof (Rle_0_sqr a) as K. unfold Rsqr in K. lra.
Qed.

(** [get_pds] compares the received energy with the snr itself, and divides by the constant
    [attempts] whatever the number of attempts made: the OFDM call, made with ten times as many, has
    "probabilities" up to 10. *)
Theorem C85_get_pds (fuel attempts attempts_var num_bits samp_rate : nat) (tx : list R) (noise : R -> nat -> R -> Iter R) (z : R -> nat -> nat -> R) (snrs : list R) :
  (exists x, In x tx /\ x <> 0) -> (1 <= samp_rate * num_bits)%nat -> (length tx < fuel)%nat ->
  (forall snr, In snr snrs -> snr <> 0 /\ forall i, streams (noise snr i (Rsum (map (fun x => x * x) tx) / INR (samp_rate * num_bits) / snr)) (z snr i)) ->
  let received snr i := disturbed Rplus tx (z snr i) in
  let energy l := Rsum (map (fun x => x * x) l) / INR (length l) in
  get_pds fuel attempts noise snrs attempts_var num_bits samp_rate tx =
    Ret (map (fun snr => INR (at_most snr (map (fun i => energy (received snr i)) (seq 0 attempts_var))) / INR attempts) snrs).
Proof.
  intros Hx Hn Hf Hs received energy. unfold get_pds. cbv zeta.
  apply push_rows_map. intros snr Hsnr. destruct (Hs snr Hsnr) as [Hn0 Hz]. set (e_b := ndiv (nsum _) _).
  assert (He : e_b <> 0).
  { unfold e_b. cbn [ndiv NumR]. rewrite nsum_R. unfold nofnat. cbn [nofZ NumR]. rewrite <- INR_IZR_INZ.
    assert (0 < INR (samp_rate * num_bits)) by (apply lt_0_INR; lia).
    apply Rgt_not_eq. exact (Rdiv_lt_0_compat _ _ (Rsum_sq_pos tx Hx) H). }
  assert (El : ndiv e_b snr = Rsum (map (fun x => x * x) tx) / INR (samp_rate * num_bits) / snr).
  { unfold e_b, nofnat. cbn [ndiv nofZ NumR]. rewrite nsum_R, <- INR_IZR_INZ. reflexivity. }
  rewrite (push_rows_map _ _ (fun i => energy (received snr i))).
  2:{ intros i _. unfold awgn, normal_new. cbn [nfinite NumR assert_then bind]. rewrite El.
      rewrite (collect_yields _ (received snr i) fuel); [|unfold received, disturbed; apply imap_yields; apply (izip_stream_yields _ _ _ _ (of_list_yields tx) (Hz i))|].
      2:{ unfold received, disturbed. rewrite map_length, combine_length, map_length, seq_length. lia. }
      cbn [bind]. unfold avg_energy, energy. cbn [ndiv NumR]. rewrite nsum_R. unfold nofnat. cbn [nofZ NumR]. rewrite <- INR_IZR_INZ. reflexivity. }
  cbn [bind]. rewrite p_d_R. do 5 f_equal. cbn [ndiv NumR]. field. split; assumption.
Qed.

Definition is_zero (x : F64) : Prop := exists s, x = B754_zero s.
Lemma zero_div (x y : F64) : is_zero x -> fin y = true -> val y <> 0 -> is_zero (Bdiv mode_NE x y).
Proof.
  intros [s ->] Fy Hy. destruct y as [t|t| |t m e He]; try discriminate; [exfalso; apply Hy; reflexivity|]. eexists. reflexivity.
Qed.
Lemma zero_energy libm (tx : list F64) : (forall x, In x tx -> is_finite x = true /\ B2R x = 0) -> is_zero (@nsum F64 (NumF libm) (map (@nsqr F64 (NumF libm)) tx)).
Proof.
  intros H. unfold nsum. assert (Z0 : is_zero (@nsum0 F64 (NumF libm))) by (eexists; reflexivity). revert Z0. generalize (@nsum0 F64 (NumF libm)).
  induction tx as [|x tx IH]; intros a Ha; cbn [map fold_left]; [exact Ha|]. apply IH; [intros; apply H; right; assumption|].
  destruct (H x (or_introl eq_refl)) as [Fx Vx]. destruct Ha as [s ->]. destruct x as [t|t| |t m e He]; try discriminate.
  - unfold nsqr. cbn [nmul nadd NumF]. destruct s, t; eexists; reflexivity.
  - exfalso. apply eq_0_F2R in Vx. destruct t; discriminate Vx.
Qed.

(** Silence is always "detected": without a signal the threshold is 0 / 0, and no energy exceeds it. *)
Theorem C85_silence_f64 libm (fuel attempts attempts_var num_bits samp_rate : nat) (tx : list F64) (noise : F64 -> nat -> F64 -> Iter F64)
  (z : F64 -> nat -> F64 -> nat -> F64) (snrs : list F64) :
  let num := NumF libm in
  (forall x, In x tx -> is_finite x = true /\ B2R x = 0) -> (1 <= samp_rate * num_bits)%nat -> (Z.of_nat (samp_rate * num_bits) < 2 ^ 53)%Z ->
  (length tx < fuel)%nat -> (1 <= attempts)%nat -> (Z.of_nat attempts < 2 ^ 53)%Z -> (Z.of_nat attempts_var < 2 ^ 53)%Z ->
  (forall snr, In snr snrs -> is_finite snr = true /\ 0 < B2R snr /\ forall i sigma, streams (noise snr i sigma) (z snr i sigma)) ->
  exists p, get_pds fuel attempts noise snrs attempts_var num_bits samp_rate tx = Ret (map (fun _ => p) snrs) /\
    is_finite p = true /\ B2R p = rd (INR attempts_var / INR attempts).
Proof.
  intros num Htx Hn Hn2 Hf Ha Ha2 Hv Hs.
  exists (Bdiv mode_NE (f64_ofZ (Z.of_nat attempts_var)) (f64_ofZ (Z.of_nat attempts))).
  destruct (ofZ_exact (Z.of_nat attempts_var) ltac:(lia)) as (Vv & Fv & _).
  destruct (ofZ_exact (Z.of_nat attempts) ltac:(lia)) as (Va & Fa & _).
  destruct (ofZ_exact (Z.of_nat (samp_rate * num_bits)) ltac:(lia)) as (Vn & Fn & _).
  assert (Pa : 1 <= INR attempts) by (apply (le_INR 1); exact Ha).
  split.
  - unfold get_pds. cbv zeta. apply push_rows_map. intros snr Hsnr. destruct (Hs snr Hsnr) as (Fs & Vs & Hz).
    set (e_b := ndiv (nsum _) _). assert (Z1 : is_zero e_b).
    { apply zero_div; [apply zero_energy, Htx|exact Fn|]. unfold nofnat. cbn [nofZ num NumF]. rewrite Vn. apply IZR_neq. lia. }
    assert (Z2 : is_zero (ndiv e_b snr)) by (apply zero_div; [exact Z1|exact Fs|unfold val; lra]).
    assert (G : exists es, push_rows (seq 0 attempts_var) (fun i => let? chan := awgn (noise snr i) (of_list tx) (ndiv e_b snr) in
        let? chan_sig := collect fuel chan in Ret (avg_energy chan_sig)) = Ret es /\ length es = attempts_var).
    { destruct (push_rows_f (seq 0 attempts_var) (fun i => let? chan := awgn (noise snr i) (of_list tx) (ndiv e_b snr) in
        let? chan_sig := collect fuel chan in Ret (avg_energy chan_sig)) (fun _ _ => True)) as (es & E & F2).
      - intros i _. unfold awgn, normal_new. destruct Z2 as [s ->]. cbn [nfinite num NumF is_finite assert_then bind].
        rewrite (collect_yields _ (disturbed nadd tx (z snr i (B754_zero s))) fuel).
        + eexists. split; [reflexivity|exact I].
        + apply imap_yields. apply (izip_stream_yields _ _ _ _ (of_list_yields tx) (Hz i _)).
        + unfold disturbed. rewrite map_length, combine_length, map_length, seq_length. lia.
      - exists es. split; [exact E|].
        rewrite <- (seq_length attempts_var 0). clear E. induction F2; cbn; congruence. }
    destruct G as (es & -> & L). cbn [bind]. f_equal. unfold p_d, nofnat. cbn [ndiv nofZ num NumF]. f_equal. f_equal. f_equal.
    rewrite (fold_add_count _ (fun _ => true)).
    + cbn [Nat.add]. rewrite <- L. clear. induction es; cbn; congruence.
    + intros e. destruct Z1 as [s1 E1]. destruct Z2 as [s2 E2]. cbn [ndiv num NumF] in E2 |- *. rewrite E2, E1. reflexivity.
  - destruct (div_fin (f64_ofZ (Z.of_nat attempts_var)) (f64_ofZ (Z.of_nat attempts)) Fv) as [V F].
    + rewrite Va, <- INR_IZR_INZ. lra.
    + rewrite Va, Vv, <- !INR_IZR_INZ. apply Rle_lt_trans with (bpow radix2 53); [|apply bpow_lt; lia].
      assert (B : 0 <= INR attempts_var / INR attempts <= bpow radix2 53).
      { split; [apply Rmult_le_pos; [apply pos_INR|left; apply Rinv_0_lt_compat; lra]|].
        apply Rle_trans with (INR attempts_var).
        - apply Rmult_le_reg_r with (INR attempts); [lra|]. unfold Rdiv. rewrite Rmult_assoc, Rinv_l by lra. pose proof (pos_INR attempts_var). nra.
        - rewrite INR_IZR_INZ, <- (IZR_Zpower radix2 53) by lia. apply IZR_le. cbn. lia. }
      rewrite Rabs_pos_eq; [apply rd_le_fmt; [apply fmt_bpow; lia|apply B]|]. rewrite <- rd_0. apply rd_le, B.
    + split; [exact F|]. unfold val at 1 in V. rewrite V, Va, Vv, <- !INR_IZR_INZ. reflexivity.
Qed.


(** Ten attempts against the constant 1, as the OFDM call does on a larger scale: "probability" 10.
    The same sample above the threshold: 0. *)
Example C85_case :
  get_pds 5 1 (fun _ _ _ => always 0) [2] 10 1 1 [1] = Ret [10] /\ get_pds 5 1 (fun _ _ _ => always 0) [1 / 2] 10 1 1 [1] = Ret [0].
Proof.
  assert (X : exists x : R, In x [1] /\ x <> 0) by (exists 1; split; [left; reflexivity|lra]).
  split; rewrite (C85_get_pds 5 1 10 1 1 [1] (fun _ _ _ => always 0) (fun _ _ _ => 0) _ X ltac:(cbn; lia) ltac:(cbn; lia)).
  1, 3: unfold disturbed; cbn [map seq length combine Rsum INR]; unfold at_most; cbn [map seq filter];
    repeat match goal with |- context [Rle_dec ?a ?b] => destruct (Rle_dec a b); try (exfalso; lra) end; cbn [length INR]; do 2 f_equal; lra.
  all: intros snr [<-|[]]; split; [lra|]; intros i; apply always_streams.
Qed.
Example C85_silence_case libm : let num := NumF libm in
  exists p, get_pds 5 1000 (fun _ _ _ => always (f64_ofZ 7)) [f64_ofZ 1] 1000 1 1 [f64_ofZ 0] = Ret [p] /\ B2R p = 1.
Proof.
  intros num. destruct (C85_silence_f64 libm 5 1000 1000 1 1 [f64_ofZ 0] (fun _ _ _ => always (f64_ofZ 7)) (fun _ _ _ _ => f64_ofZ 7) [f64_ofZ 1]) as (p & E & _ & V);
    try (apply Nat.leb_le; reflexivity); try (apply Z.ltb_lt; reflexivity); try (apply Nat.ltb_lt; reflexivity).
  - intros x [<-|[]]. split; reflexivity.
  - intros snr [<-|[]]. destruct val_1 as [V F]. split; [exact F|]. split; [unfold val in V; rewrite V; lra|]. intros i sigma. apply always_streams.
  - exists p. split; [exact E|]. rewrite V. unfold Rdiv. rewrite Rinv_r; [|apply not_0_INR; discriminate]. rewrite rd_id; [reflexivity|].
    change 1 with (bpow radix2 0). apply fmt_bpow. lia.
Qed.

(** ** Axioms used *)
Print Assumptions C84_not_inf.
Print Assumptions C84_bers_f64.
Print Assumptions C84_bers_baseband_f64.
Print Assumptions C84_nan_panics.
Print Assumptions C84_baseband_qpsk_half.
Print Assumptions C84_bpsk_zero.
Print Assumptions C84_silent_receiver.
Print Assumptions C85_estimates.
Print Assumptions C85_falls.
Print Assumptions C85_get_pds.
Print Assumptions C85_silence_f64.
