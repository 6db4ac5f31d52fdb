(** Properties C23-C27: chaotic generators (src/chaos), CSK and DCSK (src/csk.rs, src/dcsk.rs). *)
From Coq Require Import List Arith ZArith Reals Bool Lia Lra Psatz.
From Flocq Require Import Core BinarySingleNaN Plus_error.
From Verif Require Import Base IterTheory IterModel IterProofs Spec Num F64Lib LibModel LibFloat ChaosModel ChaosProofs ChaosMod.
Import ListNotations.
Local Open Scope R_scope.

(** ** C23 *)

Theorem C23_logistic_range_exact :
  forall mu x0 : R, 0 <= mu <= 4 ->
    (0 <= x0 <= 1 ->
       exists it f, LogisticMap_new mu x0 = Ret it /\ streams it f /\
         f 0%nat = mu * x0 * (1 - x0) /\
         (forall n, f (S n) = mu * f n * (1 - f n)) /\
         (forall n, 0 <= f n <= 1)) /\
    (x0 < 0 \/ 1 < x0 -> LogisticMap_new mu x0 = Panic).
Proof.
  intros mu x0 Hmu. unfold LogisticMap_new. cbn [nleb nofZ NumR]. split.
  - intros Hx. destruct (Rle_dec 0 x0); [|lra]. destruct (Rle_dec x0 1); [|lra].
    eexists. eexists. split; [reflexivity|]. split; [apply orbit_streams|]. split; [reflexivity|].
    split; [reflexivity|]. intros n. apply (iter_inv _ (fun x => 0 <= x <= 1)); [exact Hx|].
    intros x H. apply logistic_R; assumption.
  - intros Hx. destruct (Rle_dec 0 x0); destruct (Rle_dec x0 1); try reflexivity. lra.
Qed.

Theorem C23_logistic_range_f64 :
  forall (libm : Libm) (mu x0 : F64), let num := NumF libm in
    is_finite mu = true -> 0 <= B2R mu <= 4 ->
    (is_finite x0 = true /\ 0 <= B2R x0 <= 1 ->
       exists it f, LogisticMap_new mu x0 = Ret it /\ streams it f /\
         f 0%nat = (mu * x0 * (nofZ 1 - x0))%num /\
         (forall n, f (S n) = (mu * f n * (nofZ 1 - f n))%num) /\
         (forall n, is_finite (f n) = true /\ 0 <= B2R (f n) <= 1)) /\
    (~ (is_finite x0 = true /\ 0 <= B2R x0 <= 1) -> LogisticMap_new mu x0 = Panic).
Proof.
  intros libm mu x0 num Fm Hm. destruct val_0 as [V0 F0], val_1 as [V1 F1].
  assert (Hc : nleb (nofZ 0) x0 && nleb x0 (nofZ 1) = true <-> is_finite x0 = true /\ 0 <= B2R x0 <= 1).
  { cbn [nleb nofZ num NumF]. rewrite andb_true_iff. split.
    - intros [H1 H2]. assert (Fx : is_finite x0 = true).
      { destruct x0 as [s|[|]| |s m e He]; try reflexivity; vm_compute in H1; vm_compute in H2; discriminate. }
      apply leb_val in H1; [|exact F0|exact Fx]. apply leb_val in H2; [|exact Fx|exact F1].
      rewrite V0 in H1. rewrite V1 in H2. auto.
    - intros [Fx [H1 H2]]. split; (apply leb_val; [assumption|assumption|]); rewrite ?V0, ?V1; assumption. }
  unfold LogisticMap_new. split.
  - intros Hx. rewrite (proj2 Hc Hx). cbn [assert_then].
    eexists. eexists. split; [reflexivity|]. split; [apply orbit_streams|]. split; [reflexivity|].
    split; [reflexivity|]. intros n. apply (iter_inv _ (fun x => is_finite x = true /\ 0 <= B2R x <= 1)); [exact Hx|].
    intros x [Fx H]. destruct (logistic_f64 libm mu x Fm Fx Hm H) as [H1 [H2 _]]. split; assumption.
  - intros Hx. destruct (_ && _) eqn:E; [|reflexivity]. exfalso. apply Hx. apply Hc. reflexivity.
Qed.

Example C23_case : is_finite (f64_ofZ 4) = true /\ 0 <= B2R (f64_ofZ 4) <= 4 /\
  is_finite half = true /\ 0 <= B2R half <= 1.
Proof.
  destruct (ofZ_exact 4) as [V [F _]]; [lia|]. unfold val in V. rewrite V. split; [exact F|]. split; [lra|].
  destruct (lit_val 1 2) as [Fh Vh]; [lia|lia|]. split; [exact Fh|]. unfold half. unfold val in Vh. rewrite Vh.
  rewrite rd_id; [lra|]. replace (1 / 2) with (bpow radix2 (-1)) by (cbn; lra). apply fmt_bpow. lia.
Qed.

(** ** C24 *)

Theorem C24_dcsk_round_trip_f64 :
  forall (libm : Libm) (message : Iter bool) (m : list bool), let num := NumF libm in
    yields message m ->
    exists tx signal, tx_baseband_dcsk message = Ret tx /\
      yields tx signal /\ length signal = (2 * length m)%nat /\
      yields (rx_baseband_dcsk tx) m.
Proof.
  intros libm message m num Hm.
  destruct (dcsk_chain (dcsk_start_f64 libm) message m Hm) as [tx [E [Hs _]]].
  destruct (dcsk_round_trip_gen (dcsk_start_f64 libm) message m Hm) as [tx' [E' Hr]].
  - intros n b _. destruct x01_val as [F0 H0]. destruct (ref_range libm x01 n F0 H0) as [Fr Hr].
    exact (dcsk_decide_f64 libm _ b Fr Hr).
  - rewrite E in E'. injection E' as <-. eexists tx, _. split; [exact E|]. split; [exact Hs|]. split; [|exact Hr].
    assert (HL : forall l : list (bool * F64), length (flat_map (fun '(b, r) => [r; nmul r (bit_to_nrz b)]) l) = (2 * length l)%nat).
    { induction l as [|[b r] l IH]; [reflexivity|]. cbn [flat_map app length]. rewrite IH. lia. }
    etransitivity; [apply HL|]. rewrite zip_stream_length. reflexivity.
Qed.

Theorem C24_dcsk_round_trip_exact :
  forall (message : Iter bool) (m : list bool), yields message m ->
    exists tx, @tx_baseband_dcsk R _ message = Ret tx /\ yields (rx_baseband_dcsk tx) m.
Proof.
  intros message m Hm. apply dcsk_round_trip_gen; [|exact Hm|].
  - cbn. unfold nlit; cbn. destruct (Rle_dec 0 (1/10)); destruct (Rle_dec (1/10) 1); try reflexivity; lra.
  - intros n b _. apply dcsk_decide_R. unfold dcsk_ref, orbit_at.
    apply (iter_inv _ (fun x => 0 < x < 1)).
    + unfold nlit; cbn; lra.
    + intros x Hx. unfold logistic_map, nlit; cbn. assert (0 < x * (1 - x)) by nra.
      assert (0 <= (x - 1/2) * (x - 1/2)) by apply Rle_0_sqr. nra.
Qed.

Example C24_case : yields (of_list [true; false; false]) [true; false; false].
Proof. apply of_list_yields. Qed.

(** ** C25 *)

Theorem C25_csk_round_trip_exact :
  forall (message : Iter bool) (m : list bool), yields message m ->
    exists tx rx, @tx_baseband_csk R _ message = Ret tx /\ rx_baseband_csk tx = Ret rx /\ yields rx m.
Proof.
  intros message m Hm. destruct (@csk_round_trip_gen R _) with (message := message) (m := m) as [tx [rx [E1 [E2 [_ Hy]]]]].
  - cbn. unfold nlit; cbn. destruct (Rle_dec 0 (1/10)); destruct (Rle_dec (1/10) 1); try reflexivity; lra.
  - cbn. unfold nlit; cbn. destruct (Rle_dec 0 (15/100)); destruct (Rle_dec (15/100) 1); try reflexivity; lra.
  - exact Hm.
  - intros n. unfold csk_decide. cbn [nltb nabs nsub NumR]. destruct (Rlt_dec _ _) as [H|H]; [|reflexivity].
    rewrite (Rminus_diag_eq (csk_ref2 n) (csk_ref2 n) eq_refl), Rabs_R0 in H.
    pose proof (Rabs_pos (csk_ref2 n - csk_ref1 n)). lra.
  - exists tx, rx. split; [exact E1|]. split; [exact E2|]. apply Hy. intros n _. unfold csk_decide. cbn [nltb nabs nsub NumR].
    destruct (Rlt_dec _ _) as [H|H]; [reflexivity|]. exfalso. apply H.
    rewrite (Rminus_diag_eq (csk_ref1 n) (csk_ref1 n) eq_refl), Rabs_R0. apply Rabs_pos_lt.
    apply Rminus_eq_contra. apply (orbits_differ (S n)).
Qed.

(** In binary64 the round trip holds exactly when the two computed reference values differ wherever a
    true bit was sent.  [reference x0 n]: n-th value of the generator started at x0. *)
Theorem C25_csk_round_trip_f64 :
  forall (libm : Libm) (message : Iter bool) (m : list bool), let num := NumF libm in
    yields message m ->
    exists tx rx c1 c2 r1 r2,
      tx_baseband_csk message = Ret tx /\ rx_baseband_csk tx = Ret rx /\
      LogisticMap_new (nlit 39 10) (nlit 1 10) = Ret c1 /\ streams c1 r1 /\
      LogisticMap_new (nlit 39 10) (nlit 15 100) = Ret c2 /\ streams c2 r2 /\
      (yields rx m <-> forall n, nth_error m n = Some true -> r1 n <> r2 n).
Proof.
  intros libm message m num Hm.
  assert (HR1 : forall n, fin (csk_ref1 n) = true /\ 94/1000 <= val (csk_ref1 n) <= 9751/10000).
  { intros n. destruct x01_val as [F0 H0]. exact (ref_range libm x01 n F0 H0). }
  assert (HR2 : forall n, fin (csk_ref2 n) = true /\ 94/1000 <= val (csk_ref2 n) <= 9751/10000).
  { intros n. destruct x015_val as [F0 H0]. exact (ref_range libm x015 n F0 H0). }
  assert (Hsub : forall x y : F64, fin x = true -> fin y = true -> 94/1000 <= val x <= 9751/10000 -> 94/1000 <= val y <= 9751/10000 ->
            val (Babs (Bminus mode_NE x y)) = Rabs (rd (val x - val y)) /\ fin (Babs (Bminus mode_NE x y)) = true).
  { intros x y Fx Fy Hx Hy. destruct (sub_fin x y Fx Fy) as [V F].
    - apply small_no_overflow. apply Rabs_le. lra.
    - unfold val, fin in *. rewrite B2R_Babs, is_finite_Babs, V. auto. }
  destruct (@csk_round_trip_gen F64 num (dcsk_start_f64 libm) (csk_start_f64 libm) message m Hm) as [tx [rx [E1 [E2 Hy]]]].
  - intros n. unfold csk_decide. cbn [nltb nabs nsub num NumF].
    destruct (HR1 n) as [F1 H1], (HR2 n) as [F2 H2].
    destruct (Hsub _ _ F2 F1 H2 H1) as [Va Fa]. destruct (Hsub _ _ F2 F2 H2 H2) as [Vb Fb].
    destruct (Bltb _ _) eqn:E; [|reflexivity].
    apply (proj1 (ltb_val _ _ Fa Fb)) in E. rewrite Va, Vb in E.
    replace (val (csk_ref2 n) - val (csk_ref2 n)) with 0 in E by ring. rewrite rd_0, Rabs_R0 in E.
    match type of E with Rabs ?z < 0 => pose proof (Rabs_pos z) end. lra.
  - exists tx, rx. eexists. eexists. exists csk_ref1, csk_ref2.
    split; [exact E1|]. split; [exact E2|].
    split; [reflexivity|]. split; [apply orbit_streams|].
    split; [reflexivity|]. split; [apply orbit_streams|].
    rewrite Hy. split; intros H n En; specialize (H n En).
    + intros Heq. unfold csk_decide in H. rewrite Heq in H. destruct (HR2 n) as [F2 H2].
      cbn [nltb nabs nsub num NumF] in H. destruct (Hsub _ _ F2 F2 H2 H2) as [Vb Fb].
      apply (proj1 (ltb_val _ _ Fb Fb)) in H. lra.
    + unfold csk_decide. cbn [nltb nabs nsub num NumF].
      destruct (HR1 n) as [F1 H1], (HR2 n) as [F2 H2].
      destruct (Hsub _ _ F1 F1 H1 H1) as [Va Fa]. destruct (Hsub _ _ F1 F2 H1 H2) as [Vb Fb].
      apply (proj2 (ltb_val _ _ Fa Fb)). rewrite Va, Vb.
      replace (val (csk_ref1 n) - val (csk_ref1 n)) with 0 by ring. rewrite rd_0, Rabs_R0.
      apply Rabs_pos_lt. apply round_plus_neq_0; try typeclasses eauto.
      * apply val_fmt.
      * apply generic_format_opp, val_fmt.
      * intros E. apply H. unfold val in E. apply B2R_inj.
        -- apply fin_strict; [exact F1|lra].
        -- apply fin_strict; [exact F2|lra].
        -- lra.
Qed.

(** The condition holds for the first values (a test, not a claim for all n). *)
Example C25_case : forall libm, let num := NumF libm in
  forallb (fun n => negb (Beqb (csk_ref1 n) (csk_ref2 n))) (seq 0 20) = true.
Proof. intros libm. vm_compute. reflexivity. Qed.

(** ** C26 *)

Theorem C26_chebyshev_diverges_exact :
  forall x0 : R, -1 <= x0 <= 1 ->
    exists it f, Chebyshev_new x0 = Ret it /\ streams it f /\
      (x0 = 0 -> forall n, f n = 0) /\
      (x0 <> 0 -> forall bound, exists n0, forall n, (n0 <= n)%nat -> bound < Rabs (f n)).
Proof.
  intros x0 Hx. unfold Chebyshev_new. cbn [nleb nofZ nopp NumR].
  destruct (Rle_dec (- (1)) x0); [|lra]. destruct (Rle_dec x0 1); [|lra]. cbn [andb assert_then].
  eexists. eexists. split; [reflexivity|]. split; [apply orbit_streams|]. split.
  - intros -> n. apply (iter_inv _ (fun x => x = 0)); [reflexivity|]. intros x ->. rewrite chebyshev_R. ring.
  - intros Hne bound. assert (Hpos : 0 < Rabs x0) by (apply Rabs_pos_lt; exact Hne).
    destruct (Pow_x_infinity 2 ltac:(rewrite Rabs_pos_eq; lra) ((Rabs bound + 1) / Rabs x0)) as [n0 Hn0].
    exists n0. intros n Hn. specialize (Hn0 (S n) ltac:(lia)).
    rewrite Rabs_pos_eq in Hn0 by (apply pow_le; lra).
    pose proof (chebyshev_orbit_grows x0 (S n)) as HG.
    assert (Hb : Rabs bound + 1 <= 2 ^ S n * Rabs x0).
    { replace (Rabs bound + 1) with ((Rabs bound + 1) / Rabs x0 * Rabs x0) by (field; lra).
      apply Rmult_le_compat_r; lra. }
    pose proof (Rle_abs bound). lra.
Qed.

Theorem C26_chebyshev_overflows_f64 :
  forall libm : Libm, let num := NumF libm in
    exists it f, Chebyshev_new (nlit 1 2) = Ret it /\ streams it f /\
      (forall n, (n < 7)%nat -> is_finite (f n) = true) /\
      (forall n, (7 <= n)%nat -> f n = B754_infinity false).
Proof.
  intros libm num. eexists. eexists. split; [reflexivity|]. split; [apply orbit_streams|]. split.
  - intros n Hn. do 7 (destruct n as [|n]; [vm_compute; reflexivity|]). lia.
  - intros n Hn. replace n with (7 + (n - 7))%nat by lia. induction (n - 7)%nat as [|k IH].
    + apply chebyshev_half_8.
    + replace (7 + S k)%nat with (S (7 + k)) by lia. rewrite iter_S.
      rewrite IH. apply chebyshev_inf.
Qed.

Theorem C26_chebyshev_never_nan_f64 :
  forall (libm : Libm) (x0 : F64) it, let num := NumF libm in
    Chebyshev_new x0 = Ret it -> exists f, streams it f /\ forall n, is_nan (f n) = false.
Proof.
  intros libm x0 it num H. unfold Chebyshev_new, assert_then in H. destruct (_ && _) eqn:E; [|discriminate].
  injection H as <-. eexists. split; [apply orbit_streams|]. intros n.
  apply (iter_inv _ (fun x => is_nan x = false)).
  - destruct x0; try reflexivity. vm_compute in E. discriminate.
  - intros x Hx. apply chebyshev_no_nan. exact Hx.
Qed.

Example C26_case : -1 <= 1/2 <= 1 /\ 1/2 <> 0 /\
  forall libm, exists it, @Chebyshev_new F64 (NumF libm) half = Ret it.
Proof. split; [lra|]. split; [lra|]. intros libm. eexists. reflexivity. Qed.

(** ** C27 *)

Theorem C27_tent_bernoulli_exact :
  (forall mu x : R, 0 <= mu <= 1 -> -1 <= x <= 1 -> -1 <= tent_map mu x <= 1) /\
  (forall mu x : R, 0 <= mu <= 2 -> -1 <= x <= 1 -> -1 <= bernoulli_map mu x <= 1).
Proof.
  split; intros mu x Hm Hx.
  - unfold tent_map. cbn. assert (0 <= Rabs x <= 1) by (split; [apply Rabs_pos|apply Rabs_le; lra]). nra.
  - unfold bernoulli_map. cbn. destruct (Rlt_dec x 0); nra.
Qed.

Theorem C27_tent_bernoulli_f64 :
  forall (libm : Libm) (mu x : F64), let num := NumF libm in
    is_finite mu = true -> is_finite x = true -> -1 <= B2R x <= 1 ->
    (0 <= B2R mu <= 1 -> is_finite (tent_map mu x) = true /\ -1 <= B2R (tent_map mu x) <= 1) /\
    (0 <= B2R mu <= 2 -> is_finite (bernoulli_map mu x) = true /\ -1 <= B2R (bernoulli_map mu x) <= 1).
Proof.
  intros libm mu x num Fm Fx Hx. destruct val_1 as [V1 F1]. destruct val_0 as [V0 F0].
  destruct (ofZ_exact 2) as [V2 [F2 _]]; [lia|].
  assert (FZ : forall z, (Z.abs z <= 100)%Z -> fmt (IZR z)) by (intros; apply fmt_IZR; lia).
  assert (RB : forall lo hi y, (Z.abs lo <= 100)%Z -> (Z.abs hi <= 100)%Z -> IZR lo <= y <= IZR hi -> IZR lo <= rd y <= IZR hi).
  { intros lo hi y Hl Hh [H1 H2]. split; [apply rd_ge_fmt|apply rd_le_fmt]; auto. }
  split; intros Hm.
  - unfold tent_map. cbn [nmul nsub nabs nofZ num NumF].
    destruct (mul_fin (f64_ofZ 2) mu F2 Fm) as [Va Fa]; [apply small_no_overflow; rewrite V2; apply Rabs_le; unfold val; lra|].
    assert (Ba : 0 <= val (Bmult mode_NE (f64_ofZ 2) mu) <= 2) by (rewrite Va; apply (RB 0%Z 2%Z); try lia; rewrite V2; unfold val; lra).
    assert (Vx : 0 <= val (Babs x) <= 1).
    { unfold val. rewrite B2R_Babs. split; [apply Rabs_pos|apply Rabs_le; lra]. }
    assert (Fax : fin (Babs x) = true) by (unfold fin; rewrite is_finite_Babs; exact Fx).
    destruct (sub_fin (f64_ofZ 1) (Babs x) F1 Fax) as [Vb Fb]; [apply small_no_overflow; rewrite V1; apply Rabs_le; lra|].
    assert (Bb : 0 <= val (Bminus mode_NE (f64_ofZ 1) (Babs x)) <= 1) by (rewrite Vb; apply (RB 0%Z 1%Z); try lia; rewrite V1; lra).
    destruct (mul_fin _ _ Fa Fb) as [Vc Fc]; [apply small_no_overflow; apply Rabs_le; nra|].
    set (c := Bmult mode_NE (Bmult mode_NE (f64_ofZ 2) mu) _) in *.
    assert (Bc : 0 <= val c <= 2) by (rewrite Vc; apply (RB 0%Z 2%Z); try lia; nra).
    destruct (sub_fin c (f64_ofZ 1) Fc F1) as [Vd Fd]; [apply small_no_overflow; rewrite V1; apply Rabs_le; lra|].
    split; [exact Fd|]. fold (val (Bminus mode_NE c (f64_ofZ 1))). rewrite Vd. apply (RB (-1)%Z 1%Z); try lia. rewrite V1. lra.
  - unfold bernoulli_map. cbn [nltb nmul nsub nadd nofZ num NumF].
    destruct (mul_fin mu x Fm Fx) as [Va Fa]; [apply small_no_overflow; apply Rabs_le; unfold val; nra|].
    set (a := Bmult mode_NE mu x) in *.
    destruct (Bltb x (f64_ofZ 0)) eqn:E.
    + apply ltb_val in E; [|exact Fx|exact F0]. rewrite V0 in E.
      assert (Ba : -2 <= val a <= 0) by (rewrite Va; apply (RB (-2)%Z 0%Z); try lia; unfold val in *; nra).
      destruct (add_fin a (f64_ofZ 1) Fa F1) as [Vd Fd]; [apply small_no_overflow; rewrite V1; apply Rabs_le; lra|].
      split; [exact Fd|]. fold (val (Bplus mode_NE a (f64_ofZ 1))). rewrite Vd. apply (RB (-1)%Z 1%Z); try lia. rewrite V1. lra.
    + assert (E' : ~ val x < 0).
      { intros H. rewrite <- V0 in H. apply ltb_val in H; [|exact Fx|exact F0]. congruence. }
      assert (Ba : 0 <= val a <= 2) by (rewrite Va; apply (RB 0%Z 2%Z); try lia; unfold val in *; nra).
      destruct (sub_fin a (f64_ofZ 1) Fa F1) as [Vd Fd]; [apply small_no_overflow; rewrite V1; apply Rabs_le; lra|].
      split; [exact Fd|]. fold (val (Bminus mode_NE a (f64_ofZ 1))). rewrite Vd. apply (RB (-1)%Z 1%Z); try lia. rewrite V1. lra.
Qed.

Example C27_case : 0 <= 9/10 <= 1 /\ -1 <= -1/3 <= 1 /\ is_finite half = true.
Proof. split; [lra|]. split; [lra|]. reflexivity. Qed.

Print Assumptions C23_logistic_range_exact.
Print Assumptions C23_logistic_range_f64.
Print Assumptions C24_dcsk_round_trip_f64.
Print Assumptions C24_dcsk_round_trip_exact.
Print Assumptions C25_csk_round_trip_exact.
Print Assumptions C25_csk_round_trip_f64.
Print Assumptions C26_chebyshev_diverges_exact.
Print Assumptions C26_chebyshev_overflows_f64.
Print Assumptions C26_chebyshev_never_nan_f64.
Print Assumptions C27_tent_bernoulli_exact.
Print Assumptions C27_tent_bernoulli_f64.
