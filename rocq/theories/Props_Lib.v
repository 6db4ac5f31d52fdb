(** Properties C11-C22 and C55: the helpers of src/lib.rs and the detector of src/willie.rs. *)
From Coq Require Import List Arith ZArith NArith Reals Bool Lia Lra Permutation.
From Flocq Require Import Core BinarySingleNaN.
From Verif Require Import Base IterTheory IterModel IterProofs Spec SpecR Num F64Lib LibModel LibDiscrete LibFloat LibReal.
Import ListNotations.

(** ** C11 *)

Theorem C11_byte_round_trip :
  forall d : N, (d < 256)%N ->
    bool_to_u8 (u8_to_bools d) = d /\
    length (u8_to_bools d) = 8 /\
    (forall i, i < 8 -> nth_error (u8_to_bools d) i = Some (N.testbit d (N.of_nat i))).
Proof.
  intros d Hd. split; [apply unpack_pack; exact Hd|]. split; [reflexivity|].
  assert (Hall : forallb (fun n => forallb (fun i =>
            match nth_error (u8_to_bools (N.of_nat n)) i with
            | Some b => Bool.eqb b (N.testbit (N.of_nat n) (N.of_nat i)) | None => false end) (seq 0 8))
          (seq 0 256) = true) by (vm_compute; reflexivity).
  intros i Hi. rewrite forallb_forall in Hall. specialize (Hall (N.to_nat d)). rewrite N2Nat.id in Hall.
  rewrite forallb_forall in Hall. specialize (Hall ltac:(apply in_seq; lia) i ltac:(apply in_seq; lia)).
  destruct (nth_error (u8_to_bools d) i) as [b|]; [|discriminate].
  apply eqb_prop in Hall. congruence.
Qed.

Theorem C11_stream_round_trip :
  forall (bits : Iter bool) (l : list bool), yields bits l ->
    exists (bytes : list N) (padding : nat),
      yields (bools_to_u8s bits) bytes /\
      (forall b, In b bytes -> (b < 256)%N) /\
      yields (u8s_to_bools (bools_to_u8s bits)) (l ++ repeat false padding) /\
      padding < 8 /\ length l + padding = 8 * length bytes.
Proof.
  intros it l Hy. pose proof (ceil_div_spec (length l) 8 ltac:(lia)) as Hc.
  exists (map bool_to_u8 (chunk_list 8 l)), (8 * ceil_div (length l) 8 - length l).
  split; [apply bools_to_u8s_yields; exact Hy|]. split; [|split; [|split]].
  - intros b Hb. apply in_map_iff in Hb. destruct Hb as [c [<- Hc']]. apply pack_byte.
    unfold chunk_list in Hc'. apply in_map_iff in Hc'. destruct Hc' as [i [<- _]]. rewrite block_length. lia.
  - rewrite <- pack_stream. apply u8s_to_bools_yields. apply bools_to_u8s_yields. exact Hy.
  - destruct (length l); lia.
  - rewrite map_length. unfold chunk_list. rewrite map_length, seq_length. lia.
Qed.

(** The padding loop of bools_to_u8s never runs. *)
Theorem C11_padding_loop_is_dead :
  forall fuel chunk, length chunk <= 8 -> pad_loop fuel chunk = chunk.
Proof. exact pad_loop_id. Qed.

Example C11_case : (200 < 256)%N /\ u8_to_bools 200 = [false; false; false; true; false; false; true; true] /\
  yields (of_list [true; false; true]) [true; false; true].
Proof. repeat split; apply of_list_yields. Qed.

(** ** C12 *)

Theorem C12_rate_check_is_divisibility :
  forall (libm : Libm) (sample_rate symbol_rate : Z),
    (0 <= sample_rate < 2 ^ 53)%Z -> (0 <= symbol_rate < 2 ^ 53)%Z ->
    let num := NumF libm in
    is_int (nofZ sample_rate / nofZ symbol_rate)%num = true <->
    (symbol_rate <> 0 /\ (symbol_rate | sample_rate))%Z.
Proof.
  intros m a b Ha Hb. cbn zeta. destruct (Z.eq_dec b 0) as [->|Hne].
  - cbn [ndiv nofZ NumF]. rewrite is_int_div_zero by exact Ha. split; [discriminate|]. intros [H _]. congruence.
  - cbn [ndiv nofZ NumF]. rewrite is_int_div_pos by lia. tauto.
Qed.

(** Above 2^53 the check accepts a rate that is not a multiple. *)
Theorem C12_above_2_53_refuted :
  exists (sample_rate symbol_rate : Z), (0 <= sample_rate < 2 ^ 54)%Z /\ (0 < symbol_rate)%Z /\
    (forall libm, let num := NumF libm in is_int (nofZ sample_rate / nofZ symbol_rate)%num = true) /\
    ~ (symbol_rate | sample_rate)%Z.
Proof.
  exists (2 ^ 53 + 1)%Z, 2%Z. split; [split; vm_compute; congruence|]. split; [lia|]. split.
  - intros m. vm_compute. reflexivity.
  - intros [k Hk]. lia.
Qed.

Example C12_case : (0 <= 48000 < 2 ^ 53)%Z /\ (0 <= 1000 < 2 ^ 53)%Z /\ (1000 | 48000)%Z.
Proof. split; [split; vm_compute; congruence|]. split; [split; vm_compute; congruence|]. exists 48%Z. reflexivity. Qed.

(** ** C13 *)

Theorem C13_no_nans_f64 :
  forall v : list F64,
    no_nans isnan_f64 v = true <->
    forall x, In x v -> x <> B754_infinity false /\ x <> B754_infinity true.
Proof.
  intros v. rewrite no_nans_spec. split; intros H x Hx; specialize (H x Hx).
  - rewrite isnan_f64_spec in H. split; intros ->; discriminate.
  - rewrite isnan_f64_spec. destruct x as [s|[|]| |s mm e He]; try reflexivity; destruct H; congruence.
Qed.

Theorem C13_no_nans_complex :
  forall v : list (cpx F64),
    no_nans isnan_complex v = true <->
    forall z, In z v -> forall s, re z <> B754_infinity s /\ im z <> B754_infinity s.
Proof.
  intros v. rewrite no_nans_spec. split; intros H x Hx; specialize (H x Hx).
  - rewrite isnan_complex_spec in H. apply orb_false_iff in H. destruct H as [H1 H2].
    intros s. split; intros E; rewrite E in *; discriminate.
  - rewrite isnan_complex_spec. apply orb_false_iff. split.
    + destruct (re x) as [s|s| |s mm e He]; try reflexivity. destruct (H s) as [H1 _]. congruence.
    + destruct (im x) as [s|s| |s mm e He]; try reflexivity. destruct (H s) as [_ H1]. congruence.
Qed.

Theorem C13_nan_is_accepted : no_nans isnan_f64 [f64_nan; f64_ofZ 1] = true /\
  no_nans isnan_complex [Cpx f64_nan f64_nan] = true.
Proof. split; reflexivity. Qed.

Example C13_case : no_nans isnan_f64 [f64_ofZ 3; f64_neg_inf] = false.
Proof. reflexivity. Qed.

(** ** C14 *)

Theorem C14_fftshift_rotation :
  forall (A : Type) (x : list A),
    Permutation (fftshift x) x /\
    (forall k, 2 * k = length x \/ 2 * k = length x + 1 -> fftshift x = rotate_left k x) /\
    (Nat.Even (length x) -> fftshift (fftshift x) = x) /\
    (Nat.Odd (length x) -> fftshift (fftshift x) = rotate_left 1 x).
Proof.
  intros A x. split; [apply fftshift_perm|]. split; [|split].
  - intros k Hk. pose proof (div_ceil2_spec (length x)). unfold fftshift, rotate_left.
    replace (div_ceil2 (length x)) with k by lia. reflexivity.
  - intros H. apply fftshift_twice_even. apply Nat.even_spec. exact H.
  - intros H. apply fftshift_twice_odd. apply Nat.odd_spec. exact H.
Qed.

Example C14_case : fftshift [0; 1; 2; 3; 4] = [3; 4; 0; 1; 2] /\ fftshift [0; 1; 2; 3] = [2; 3; 0; 1].
Proof. split; reflexivity. Qed.

(** ** C15 *)

Theorem C15_fftshift_mut_is_identity : forall (A : Type) (x : list A), fftshift_mut x = Ret x.
Proof. exact @fftshift_mut_id. Qed.

Theorem C15_disagrees_with_fftshift :
  forall (A : Type) (x : list A), fftshift x <> x -> fftshift_mut x <> Ret (fftshift x).
Proof. intros A x H. rewrite fftshift_mut_id. intros E. apply H. congruence. Qed.

Example C15_case : fftshift [0; 1; 2] <> [0; 1; 2] /\ fftshift_mut [0; 1; 2] = Ret [0; 1; 2].
Proof. split; [discriminate|reflexivity]. Qed.

(** ** C16 *)

Theorem C16_linspace_grid :
  forall (start stop : R) (num : nat),
    exists l, yields (linspace start stop num) l /\
      length l = num /\
      (0 < num -> nth 0 l 0%R = start) /\
      (forall i, S i < num -> (nth (S i) l 0 - nth i l 0 = (stop - start) / INR num)%R) /\
      ((start < stop)%R -> forall x, In x l -> (start <= x < stop)%R).
Proof.
  intros start stop num. eexists. split; [apply linspace_yields|]. split; [|split; [|split]].
  - rewrite map_length, seq_length. reflexivity.
  - intros H. rewrite nth_map_seq by exact H. cbn. ring.
  - intros i Hi. rewrite !nth_map_seq by lia. rewrite S_INR. ring.
  - intros Hs x Hx. apply in_map_iff in Hx. destruct Hx as [i [<- Hi]]. apply in_seq in Hi.
    assert (Hn : (0 < INR num)%R) by (apply lt_0_INR; lia).
    assert (Hi0 : (0 <= INR i)%R) by apply pos_INR.
    assert (Hi1 : (INR i < INR num)%R) by (apply lt_INR; lia).
    assert (Hq : (0 < (stop - start) / INR num)%R) by (apply Rdiv_lt_0_compat; lra).
    split; [pose proof (Rmult_le_pos _ _ (Rlt_le _ _ Hq) Hi0); lra|].
    replace stop with (start + (stop - start) / INR num * INR num)%R at 2 by (field; lra).
    apply Rplus_lt_compat_l, Rmult_lt_compat_l; assumption.
Qed.

Example C16_case : (1 < 3)%R /\ 0 < 4.
Proof. split; [lra|lia]. Qed.

(** ** C17 *)

Theorem C17_db_undb_inverse :
  (forall x : R, db (undb x) = x) /\ (forall x : R, (0 < x)%R -> undb (db x) = x).
Proof. split; [exact db_undb|exact undb_db]. Qed.

(** The two are the textbook conversions. *)
Theorem C17_db_values :
  db 1%R = 0%R /\ db 10%R = 10%R /\ undb 0%R = 1%R /\ (forall x y : R, (0 < x)%R -> (0 < y)%R -> db (x * y)%R = (db x + db y)%R).
Proof.
  pose proof ln10_pos as H. unfold db, undb. cbn. repeat split.
  - rewrite ln_1. field. lra.
  - field. lra.
  - replace (0 / 10)%R with 0%R by field. apply Rpower_O. lra.
  - intros x y Hx Hy. rewrite ln_mult by assumption. field. lra.
Qed.

Example C17_case : (0 < 2)%R.
Proof. lra. Qed.

(** ** C18 *)

Theorem C18_erf_symmetry :
  (forall x : R, x <> 0%R -> erf (- x)%R = (- erf x)%R) /\
  (forall x : R, x <> 0%R -> (erfc x + erfc (- x)%R = 2)%R) /\
  (forall x : R, (0 <= x)%R -> (erf x < 1)%R) /\
  (forall x : R, (x < 0)%R -> (-1 < erf x)%R) /\
  (erf 0%R < 0)%R.
Proof.
  repeat split.
  - exact erf_odd.
  - intros x Hx. unfold erfc. cbn [nsub nofZ NumR]. rewrite erf_odd by exact Hx. ring.
  - intros x Hx. rewrite erf_nonneg by exact Hx. pose proof (erf_tau_pos x). lra.
  - intros x Hx. rewrite erf_neg by exact Hx. pose proof (erf_tau_pos x). lra.
  - rewrite erf_nonneg by lra. pose proof erf_tau_0. lra.
Qed.

(** So oddness fails at zero. *)
Theorem C18_odd_at_zero_refuted : exists x : R, erf (- x)%R <> (- erf x)%R.
Proof.
  exists 0%R. rewrite Ropp_0. destruct C18_erf_symmetry as [_ [_ [_ [_ H]]]]. lra.
Qed.

Example C18_case : (1 / 2 <> 0)%R /\ (-1 < 0)%R.
Proof. split; lra. Qed.

(** ** C19 *)

Theorem C19_hamming_shape :
  forall n : nat,
    length (hamming_window n : list R) = n /\
    (forall w : R, In w (hamming_window n) -> (8 / 100 <= w <= 1)%R) /\
    (0 < n -> nth 0 (hamming_window n) 0%R = (8 / 100)%R) /\
    (forall i, 0 < i < n -> nth i (hamming_window n) 0%R = nth (n - i) (hamming_window n) 0%R) /\
    hamming_window_complex n = map (fun w : R => Cpx w 0%R) (hamming_window n).
Proof.
  intros n. split; [|split; [|split; [|split]]].
  - unfold hamming_window. rewrite map_length, seq_length. reflexivity.
  - intros w Hw. unfold hamming_window in Hw. apply in_map_iff in Hw. destruct Hw as [i [<- _]].
    unfold nlit. cbn. match goal with |- context [cos ?a] => pose proof (COS_bound a) end. lra.
  - intros H. rewrite hamming_nth by exact H. cbn [INR]. replace (2 * PI * 0 / INR n)%R with 0%R.
    + rewrite cos_0. lra.
    + unfold Rdiv. ring.
  - intros i Hi. rewrite !hamming_nth by lia. rewrite cos_sym by lia. reflexivity.
  - unfold hamming_window, hamming_window_complex. rewrite map_map. reflexivity.
Qed.

Example C19_case : 0 < 3 < 8.
Proof. lia. Qed.

(** ** C20 *)

Theorem C20_ber :
  forall (libm : Libm) (tx rx : list bool),
    let num := NumF libm in
    let common := Nat.min (length tx) (length rx) in
    (Z.of_nat common < 2 ^ 53)%Z ->
    (is_nan (ber tx rx) = true <-> tx = [] \/ rx = []) /\
    (common <> 0 ->
       is_finite (ber tx rx) = true /\ (0 <= B2R (ber tx rx) <= 1)%R /\
       (B2R (ber tx rx) = 0%R <-> forall i, i < common -> nth_error tx i = nth_error rx i) /\
       (B2R (ber tx rx) = 1%R <-> forall i, i < common -> nth_error tx i <> nth_error rx i)) /\
    ber tx rx = ber rx tx /\
    ber tx rx = ber (firstn common tx) (firstn common rx).
Proof.
  intros m tx rx num common Hc.
  assert (Hfin : common <> 0 -> is_finite (ber tx rx) = true /\
                 B2R (ber tx rx) = rd (INR (mismatches tx rx) / INR common)).
  { intros H. apply ber_value; unfold common in *; [lia|exact Hc]. }
  assert (H0 : common = 0 <-> tx = [] \/ rx = []).
  { unfold common. destruct tx, rx; cbn; split; intros H; auto; try lia; try (destruct H; discriminate). }
  split; [|split; [|split]].
  - rewrite <- H0. split.
    + intros Hn. destruct (Nat.eq_dec common 0) as [E|E]; [exact E|]. destruct (Hfin E) as [Hf _].
      destruct (ber tx rx); discriminate.
    + intros E. apply ber_nan. exact E.
  - intros H. destruct (Hfin H) as [Hf Hv]. split; [exact Hf|]. rewrite !Hv.
    destruct (rd_frac (mismatches tx rx) common) as [H1 [H2 H3]]; [apply mismatches_le|lia|exact Hc|].
    split; [exact H1|]. split; [rewrite H2; apply mismatches_0|rewrite H3; apply mismatches_all].
  - unfold num. rewrite !ber_unfold. rewrite mismatches_sym, Nat.min_comm. reflexivity.
  - unfold num. rewrite !ber_unfold. rewrite !firstn_length.
    replace (Nat.min (Nat.min common (length tx)) (Nat.min common (length rx))) with common by (unfold common; lia).
    replace (mismatches (firstn common tx) (firstn common rx)) with (mismatches tx rx); [reflexivity|].
    unfold common. clear. revert rx. induction tx as [|a tx IH]; intros [|b rx]; try reflexivity.
    cbn. rewrite IH. reflexivity.
Qed.

Example C20_case : (Z.of_nat (Nat.min (length [true; false; true]) (length [true; true])) < 2 ^ 53)%Z /\
  Nat.min (length [true; false; true]) (length [true; true]) <> 0.
Proof. split; [reflexivity|discriminate]. Qed.

(** ** C21 *)

Theorem C21_energy :
  forall (l : list R) (sample_rate : R),
    avg_energy l = (sumsq l / INR (length l))%R /\
    energy l sample_rate = (sumsq l / sample_rate)%R /\
    (0 <= avg_energy l)%R /\
    ((0 < sample_rate)%R -> (0 <= energy l sample_rate)%R) /\
    (forall a, avg_energy (map (Rmult a) l) = (a * a * avg_energy l)%R) /\
    (forall a, energy (map (Rmult a) l) sample_rate = (a * a * energy l sample_rate)%R).
Proof.
  intros l sr.
  assert (HA : forall l : list R, avg_energy l = (sumsq l / INR (length l))%R).
  { intros k. unfold avg_energy. rewrite nsum_nsqr. cbn. unfold nofnat. cbn. rewrite <- INR_IZR_INZ. reflexivity. }
  assert (HE : forall l : list R, energy l sr = (sumsq l / sr)%R).
  { intros k. unfold energy. rewrite nsum_nsqr. reflexivity. }
  pose proof (sumsq_nonneg l) as HN.
  split; [apply HA|]. split; [apply HE|]. split; [|split; [|split]].
  - rewrite HA. destruct l as [|x l]; [cbn; unfold Rdiv, sumsq; cbn; lra|].
    apply Rmult_le_pos; [exact HN|]. left. apply Rinv_0_lt_compat, lt_0_INR. cbn; lia.
  - intros H. rewrite HE. apply Rmult_le_pos; [exact HN|]. left. apply Rinv_0_lt_compat. exact H.
  - intros a. rewrite !HA. rewrite sumsq_scale, map_length. unfold Rdiv. ring.
  - intros a. rewrite !HE. rewrite sumsq_scale. unfold Rdiv. ring.
Qed.

(** power divides by len - 1. *)
Theorem C21_power_divisor :
  forall (l : list R) (sample_rate : R),
    power l sample_rate = (sumsq l / INR (length l - 1) / sample_rate)%R.
Proof. exact power_R. Qed.

Theorem C21_power_is_not_mean_refuted :
  exists (l : list R) (sample_rate : R),
    power l sample_rate <> (sumsq l / INR (length l) / sample_rate)%R.
Proof. exists [1%R; 1%R], 1%R. rewrite power_R. cbn. lra. Qed.

(** On one sample the f64 result is never finite; it is +infinity when the square does not underflow. *)
Theorem C21_power_one_sample_f64 :
  forall (libm : Libm) (x sample_rate : F64),
    let num := NumF libm in
    is_finite (power [x] sample_rate) = false /\
    (is_finite x = true -> (1 <= Rabs (B2R x))%R -> is_finite sample_rate = true -> (0 < B2R sample_rate)%R ->
     power [x] sample_rate = B754_infinity false).
Proof.
  intros m x sr num.
  assert (Hp : power [x] sr = Bdiv mode_NE (Bdiv mode_NE (Bplus mode_NE (B754_zero false) (Bmult mode_NE x x)) (B754_zero false)) sr) by reflexivity.
  rewrite Hp.
  assert (Hs : forall s, Bmult mode_NE x x <> B754_infinity true /\ (Bmult mode_NE x x <> B754_zero true) /\
                         (forall mm e He, Bmult mode_NE x x = B754_finite s mm e He -> s = false)).
  { intros s. pose proof (Bmult_correct 53 1024 _ _ mode_NE x x) as HC. cbv zeta in HC.
    destruct x as [sx|sx| |sx mx ex Hx].
    - destruct sx; cbn; repeat split; congruence.
    - destruct sx; cbn; repeat split; congruence.
    - cbn; repeat split; congruence.
    - match type of HC with if ?c then _ else _ => destruct c end.
      + destruct HC as [_ [H2 H3]]. cbn [is_finite andb is_nan] in *.
        set (p := Bmult mode_NE _ _) in *. split; [|split].
        * intros E. rewrite E in H2. discriminate.
        * intros E. rewrite E in H3. specialize (H3 eq_refl). cbn in H3. rewrite xorb_nilpotent in H3. discriminate.
        * intros mm e He E. rewrite E in H3. specialize (H3 eq_refl). cbn in H3. rewrite xorb_nilpotent in H3. exact H3.
      + cbn [Bsign] in HC. rewrite xorb_nilpotent in HC.
        set (p := Bmult mode_NE _ _) in *. destruct p; try discriminate; cbn in HC; repeat split; congruence. }
  split.
  - set (p := Bmult mode_NE x x) in *. clearbody p. clear - Hs.
    destruct p as [s|s| |s mm e He].
    + destruct s; [destruct (Hs true) as [_ [H _]]; congruence|]. destruct sr as [[|]|[|]| |[|] ? ? ?]; reflexivity.
    + destruct s; [destruct (Hs true) as [H _]; congruence|]. destruct sr as [[|]|[|]| |[|] ? ? ?]; reflexivity.
    + destruct sr as [[|]|[|]| |[|] ? ? ?]; reflexivity.
    + destruct (Hs s) as [_ [_ H]]. specialize (H mm e He eq_refl). subst s.
      destruct sr as [[|]|[|]| |[|] ? ? ?]; reflexivity.
  - intros Hx H1 Hsr Hsr0.
    assert (Hp2 : Bmult mode_NE x x = B754_infinity false \/ (exists mm e He, Bmult mode_NE x x = B754_finite false mm e He)).
    { pose proof (Bmult_correct 53 1024 _ _ mode_NE x x) as HC. cbv zeta in HC.
      match type of HC with if ?c then _ else _ => destruct c end.
      - destruct HC as [H3 [H2 _]]. rewrite Hx in H2. cbn in H2.
        change (B2R (Bmult mode_NE x x) = rd (B2R x * B2R x)) in H3.
        assert (H4 : (1 <= rd (B2R x * B2R x))%R).
        { apply rd_ge_fmt; [apply (fmt_IZR 1); lia|]. replace (B2R x * B2R x)%R with (Rabs (B2R x) * Rabs (B2R x))%R.
          - nra.
          - rewrite <- Rabs_mult. apply Rabs_pos_eq. apply Rle_0_sqr. }
        destruct (Hs true) as [S1 [S2 S3]].
        destruct (Bmult mode_NE x x) as [s|s| |s mm e He]; try discriminate; [cbn in H3; lra|].
        destruct s; [specialize (S3 _ _ _ eq_refl); discriminate|]. right. eauto.
      - destruct (Hs true) as [S1 [S2 S3]].
        destruct x as [sx|sx| |sx mx ex Hx']; try discriminate.
        cbn [Bsign] in HC. rewrite xorb_nilpotent in HC.
        set (p := Bmult mode_NE _ _) in *. destruct p as [s|s| |s mm e He]; try discriminate.
        left. cbn in HC. congruence. }
    assert (Hs2 : Bsign sr = false /\ (exists mm e He, sr = B754_finite false mm e He)).
    { destruct sr as [s|s| |s mm e He]; try discriminate; [cbn in Hsr0; lra|].
      destruct s; [|split; [reflexivity|eauto]].
      exfalso. cbn [B2R] in Hsr0.
      assert (F2R (Float radix2 (cond_Zopp true (Z.pos mm)) e) < 0)%R by (apply F2R_lt_0; reflexivity). lra. }
    destruct Hs2 as [_ [m2 [e2 [He2 ->]]]].
    destruct Hp2 as [-> | [mm [e [He ->]]]]; reflexivity.
Qed.

Example C21_case : is_finite (f64_ofZ 3) = true /\ (1 <= Rabs (B2R (f64_ofZ 3)))%R /\ (0 < B2R (f64_ofZ 3))%R.
Proof.
  destruct (ofZ_exact 3) as [V [F _]]; [lia|]. unfold val in V. rewrite V. split; [exact F|].
  rewrite Rabs_pos_eq; lra.
Qed.

(** ** C22 *)

Theorem C22_awgn :
  forall (T : Type) (num : Num T) (signal : Iter T) (noise : T -> Iter T) (l : list T) (n : nat -> T) (sigma : T),
    yields signal l -> streams (noise sigma) n ->
    (nfinite sigma = true ->
       exists out, awgn noise signal sigma = Ret out /\
         exists o, yields out o /\ length o = length l /\
           forall i x, nth_error l i = Some x -> nth_error o i = Some (x + n i)%num) /\
    (nfinite sigma = false -> awgn noise signal sigma = Panic).
Proof.
  intros T num signal noise l n sigma Hs Hn. unfold awgn, normal_new, assert_then. split; intros ->; [|reflexivity].
  eexists. split; [reflexivity|]. eexists. split; [apply imap_yields; apply izip_stream_yields; eassumption|].
  rewrite map_length, zip_stream_length. split; [reflexivity|].
  intros i x Hx. rewrite nth_error_map, zip_stream_nth, Hx. reflexivity.
Qed.

Theorem C22_awgn_complex :
  forall (T : Type) (num : Num T) (signal : Iter (cpx T)) (noise : T -> Iter T) (l : list (cpx T)) (n : nat -> T) (sigma : T),
    yields signal l -> streams (noise sigma) n ->
    (nfinite sigma = true ->
       exists out, awgn_complex noise signal sigma = Ret out /\
         exists o, yields out o /\ length o = length l /\
           forall i x, nth_error l i = Some x -> nth_error o i = Some (Cpx (re x + n i)%num (im x))) /\
    (nfinite sigma = false -> awgn_complex noise signal sigma = Panic).
Proof.
  intros T num signal noise l n sigma Hs Hn. unfold awgn_complex, normal_new, assert_then. split; intros ->; [|reflexivity].
  eexists. split; [reflexivity|]. eexists. split; [apply imap_yields; apply izip_stream_yields; eassumption|].
  rewrite map_length, zip_stream_length. split; [reflexivity|].
  intros i x Hx. rewrite nth_error_map, zip_stream_nth, Hx. reflexivity.
Qed.

(** pure_awgn_py draws exactly [size] values of the noise. *)
Theorem C22_pure_awgn :
  forall (T : Type) (num : Num T) (noise : T -> Iter T) (n : nat -> T) (size : nat) (sigma : T),
    streams (noise sigma) n ->
    (nfinite sigma = true -> exists out, pure_awgn noise size sigma = Ret out /\ yields out (map n (seq 0 size))) /\
    (nfinite sigma = false -> pure_awgn noise size sigma = Panic).
Proof.
  intros T num noise n size sigma Hn. unfold pure_awgn, normal_new, assert_then. split; intros ->; [|reflexivity].
  eexists. split; [reflexivity|]. apply itake_streams. exact Hn.
Qed.

Example C22_case :
  yields (of_list [f64_ofZ 1; f64_ofZ 2]) [f64_ofZ 1; f64_ofZ 2] /\
  (forall libm, @nfinite F64 (NumF libm) (f64_ofZ 2) = true) /\
  (forall libm, @nfinite F64 (NumF libm) f64_inf = false).
Proof. split; [apply of_list_yields|]. split; reflexivity. Qed.

(** ** C55 *)

Theorem C55_energy_detector :
  (forall l : list R, energy_detector l = (10 * (ln (sumsq l) / ln 10))%R) /\
  (forall l k : list R, (0 < sumsq l)%R -> (sumsq l <= sumsq k)%R -> (energy_detector l <= energy_detector k)%R) /\
  (forall (l : list R) (a : R), (0 < sumsq l)%R -> a <> 0%R ->
     energy_detector (map (Rmult a) l) = (energy_detector l + 20 * (ln (Rabs a) / ln 10))%R).
Proof.
  assert (H : forall l : list R, energy_detector l = (10 * (ln (sumsq l) / ln 10))%R).
  { intros l. unfold energy_detector. rewrite nsum_nsqr. reflexivity. }
  split; [exact H|]. split.
  - intros l k H0 Hle. rewrite !H. apply Rmult_le_compat_l; [lra|]. apply log10_le; assumption.
  - intros l a H0 Ha. rewrite !H, sumsq_scale. pose proof ln10_pos.
    assert (Hpa : (0 < Rabs a)%R) by (apply Rabs_pos_lt; exact Ha).
    replace (a * a)%R with (Rabs a * Rabs a)%R by (rewrite <- Rabs_mult; apply Rabs_pos_eq, Rle_0_sqr).
    rewrite ln_mult by nra. rewrite ln_mult by lra. field. lra.
Qed.

Theorem C55_willie_detector :
  forall (l : list R) (n0 : R),
    willie_energy_detector l n0 = true <-> (n0 < sqrt (sumsq l / INR (length l)))%R.
Proof.
  intros l n0. unfold willie_energy_detector. rewrite nsum_nsqr. cbn. unfold nofnat. cbn. rewrite <- INR_IZR_INZ.
  destruct (Rlt_dec n0 _); split; auto; try discriminate; contradiction.
Qed.

Example C55_case : (0 < sumsq [1%R; 2%R])%R /\ (sumsq [1%R; 2%R] <= sumsq [3%R; 0%R])%R /\ (-2 <> 0)%R.
Proof. unfold sumsq; cbn. repeat split; lra. Qed.

Print Assumptions C11_byte_round_trip.
Print Assumptions C11_stream_round_trip.
Print Assumptions C12_rate_check_is_divisibility.
Print Assumptions C12_above_2_53_refuted.
Print Assumptions C13_no_nans_f64.
Print Assumptions C13_no_nans_complex.
Print Assumptions C14_fftshift_rotation.
Print Assumptions C15_fftshift_mut_is_identity.
Print Assumptions C16_linspace_grid.
Print Assumptions C17_db_undb_inverse.
Print Assumptions C18_erf_symmetry.
Print Assumptions C19_hamming_shape.
Print Assumptions C20_ber.
Print Assumptions C21_energy.
Print Assumptions C21_power_divisor.
Print Assumptions C21_power_one_sample_f64.
Print Assumptions C22_awgn.
Print Assumptions C22_awgn_complex.
Print Assumptions C22_pure_awgn.
Print Assumptions C55_energy_detector.
Print Assumptions C55_willie_detector.
