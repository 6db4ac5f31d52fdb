(** Property C89: a receiver that starts late. *)
From Coq Require Import List Arith ZArith Reals Bool Lia Lra Psatz.
From Flocq Require Import Core BinarySingleNaN.
From Verif Require Import Base IterTheory IterModel IterProofs Spec SpecR SpecC Tab Num F64Lib LibModel LibReal LibFloat
  ChaosModel ChaosProofs ChaosMod PskModel PskChain RSums PskReal CdmaModel CdmaProofs Props_Psk Props_Pass Props_Cdma
  Props_Jam.
Import ListNotations.
Local Open Scope R_scope.

(** ** Correlations with a shifted carrier *)

Lemma shifted_sums (sr sy : nat) (fc : R) (h : Z) k th : let sps := (sr / sy)%nat in
  let ph j := 2 * PI * fc * (INR (k * sps + j) / INR sr) in
  (1 <= sr)%nat -> 2 * fc * INR sps = IZR h * INR sr -> ~ (exists z : Z, 2 * fc = IZR z * INR sr) ->
  Rsum_n sps (fun j => cos (ph j + th) * cos (ph j)) = INR sps / 2 * cos th /\
  Rsum_n sps (fun j => sin (ph j + th) * cos (ph j)) = INR sps / 2 * sin th /\
  Rsum_n sps (fun j => cos (ph j + th) * sin (ph j)) = - (INR sps / 2 * sin th) /\
  Rsum_n sps (fun j => sin (ph j + th) * sin (ph j)) = INR sps / 2 * cos th.
Proof.
  intros sps ph Hr Hh Hz. destruct (qpsk_design_sums sr sy fc h k Hr Hh Hz) as (HC & HS & HX). fold sps in HC, HS, HX.
  change (Rsum_n sps (fun j => cos (ph j) * cos (ph j)) = INR sps / 2) in HC.
  change (Rsum_n sps (fun j => sin (ph j) * sin (ph j)) = INR sps / 2) in HS.
  change (Rsum_n sps (fun j => sin (ph j) * cos (ph j)) = 0) in HX.
  repeat split.
  - rewrite (Rsum_n_ext sps _ (fun j => cos th * (cos (ph j) * cos (ph j)) + (- sin th) * (sin (ph j) * cos (ph j)))).
    + rewrite Rsum_n_plus, !Rsum_n_scale, HC, HX. ring.
    + intros j _. rewrite cos_plus. ring.
  - rewrite (Rsum_n_ext sps _ (fun j => sin th * (cos (ph j) * cos (ph j)) + cos th * (sin (ph j) * cos (ph j)))).
    + rewrite Rsum_n_plus, !Rsum_n_scale, HC, HX. ring.
    + intros j _. rewrite sin_plus. ring.
  - rewrite (Rsum_n_ext sps _ (fun j => cos th * (sin (ph j) * cos (ph j)) + (- sin th) * (sin (ph j) * sin (ph j)))).
    + rewrite Rsum_n_plus, !Rsum_n_scale, HS, HX. ring.
    + intros j _. rewrite cos_plus. ring.
  - rewrite (Rsum_n_ext sps _ (fun j => cos th * (sin (ph j) * sin (ph j)) + sin th * (sin (ph j) * cos (ph j)))).
    + rewrite Rsum_n_plus, !Rsum_n_scale, HS, HX. ring.
    + intros j _. rewrite sin_plus. ring.
Qed.

(** The last r of n terms, each at most c in size. *)
Lemma tail_bound n r g c : (r <= n)%nat -> (forall j, (j < n)%nat -> Rabs (g j) <= c) ->
  Rabs (Rsum_n n (fun j => if (j <? n - r)%nat then 0 else g j)) <= INR r * c.
Proof.
  intros Hr Hg. replace n with (n - r + r)%nat at 1 by lia. rewrite Rsum_n_add, Rsum_n_0, Rplus_0_l.
  2:{ intros j Hj. destruct (Nat.ltb_spec j (n - r)); [reflexivity|lia]. }
  assert (G : forall k, (k <= r)%nat ->
    Rabs (Rsum_n k (fun j => if (n - r + j <? n - r)%nat then 0 else g (n - r + j)%nat)) <= INR k * c).
  { induction k as [|k IH]; intros Hk; cbn [Rsum_n].
    - rewrite Rabs_R0. cbn. lra.
    - rewrite S_INR. eapply Rle_trans; [apply Rabs_triang|]. specialize (IH ltac:(lia)).
      destruct (Nat.ltb_spec (n - r + k) (n - r)); [lia|]. specialize (Hg (n - r + k)%nat ltac:(lia)). lra. }
  apply G. lia.
Qed.

Lemma late_index sps d s j : (1 <= sps)%nat -> (j < sps)%nat ->
  ((d + (s * sps + j)) / sps = d / sps + s + (if (j <? sps - d mod sps)%nat then 0 else 1))%nat.
Proof.
  intros Hs Hj. pose proof (Nat.div_mod d sps ltac:(lia)) as D. pose proof (Nat.mod_upper_bound d sps ltac:(lia)) as U.
  set (q := (d / sps)%nat) in *. set (r := (d mod sps)%nat) in *. symmetry.
  destruct (Nat.ltb_spec j (sps - r)).
  - apply (Nat.div_unique _ _ _ (r + j)); nia.
  - apply (Nat.div_unique _ _ _ (r + j - sps)); nia.
Qed.
Lemma late_count L sps d s : (1 <= sps)%nat -> (s < (L * sps - d) / sps)%nat ->
  (d / sps + s < L)%nat /\ ((d mod sps <> 0)%nat -> (d / sps + s + 1 < L)%nat).
Proof.
  intros Hs Hk. pose proof (Nat.div_mod d sps ltac:(lia)) as D. pose proof (Nat.mod_upper_bound d sps ltac:(lia)) as U.
  pose proof (Nat.mul_div_le (L * sps - d) sps ltac:(lia)) as M.
  set (q := (d / sps)%nat) in *. set (r := (d mod sps)%nat) in *.
  assert (S : (sps * (s + 1) <= L * sps - d)%nat) by nia. split; [nia|intros Hr; nia].
Qed.

Lemma sign_small x e : Rabs e < Rabs x -> (0 < x + e <-> 0 < x).
Proof. intros H. unfold Rabs in H. destruct (Rcase_abs e), (Rcase_abs x); split; lra. Qed.

(** ** BPSK *)

(** Starting d samples late: the bits from number d / sps on, all of them inverted if the carrier has turned
    past a quarter of a period meanwhile; right for every message as long as the d mod sps samples of the
    wrong bit do not outweigh the rest. *)
Theorem C89_bpsk_late :
  forall (message : Iter bool) m (sample_rate symbol_rate : nat) (fc : R) tx (half_cycles : Z) (d : nat),
    let sps := (sample_rate / symbol_rate)%nat in
    let phi := 2 * PI * fc * (INR d / INR sample_rate) in
    yields message m -> tx_bpsk_signal message sample_rate symbol_rate fc = Ret tx -> (symbol_rate <= sample_rate)%nat ->
    2 * fc * INR sps = IZR half_cycles * INR sample_rate -> ~ (exists z : Z, 2 * fc = IZR z * INR sample_rate) ->
    4 * INR (d mod sps) < INR sps * Rabs (cos phi) ->
    exists rx out, rx_bpsk_signal (iskip d tx) sample_rate symbol_rate fc = Ret rx /\ yields rx out /\
      length out = ((length m * sps - d) / sps)%nat /\
      forall k b, nth_error out k = Some b ->
        (0 < cos phi -> nth_error m (d / sps + k) = Some b) /\ (cos phi < 0 -> nth_error m (d / sps + k) = Some (negb b)).
Proof.
  intros message m sr sy fc tx h d sps phi Hm Htx Hle Hh Hz Hd.
  destruct (tx_bpsk_inv _ _ _ _ _ Htx) as (Hy & _ & _ & Y).
  assert (Hn : (1 <= sr / sy)%nat) by (apply Nat.div_le_lower_bound; lia).
  specialize (Y Hn m Hm). unfold bpsk_wave in Y. fold sps in Y, Hn.
  pose proof (iskip_yields d _ _ Y) as Yk. rewrite skipn_tab in Yk.
  destruct (C29_bpsk_receiver_exact (iskip d tx) _ sr sy fc Yk ltac:(lia)) as (rx & out & Er & Yr & L & E).
  rewrite tab_length in L. fold sps in L, E.
  exists rx, out. split; [exact Er|]. split; [exact Yr|]. split; [exact L|]. intros k b Hb.
  assert (Hk : (k < (length m * sps - d) / sps)%nat) by (rewrite <- L; apply nth_error_Some; congruence).
  destruct (late_count _ _ _ _ Hn Hk) as [C1 C2].
  assert (Hlen : ((k + 1) * sps <= length m * sps - d)%nat).
  { pose proof (Nat.mul_div_le (length m * sps - d) sps ltac:(lia)). nia. }
  specialize (E k b Hb).
  set (p := fun j => 2 * PI * fc * (INR (k * sps + j) / INR sr)) in *.
  set (sg := fun c : bool => if c then 1 else -1).
  set (b0 := nth (d / sps + k) m false). set (b1 := nth (d / sps + k + 1) m false).
  assert (Hsr : INR sr <> 0) by (apply not_0_INR; lia).
  rewrite (Rsum_n_ext sps _ (fun j => sg b0 * (cos (p j + phi) * cos (p j)) +
     (if (j <? sps - d mod sps)%nat then 0 else (sg b1 - sg b0) * (cos (p j + phi) * cos (p j))))) in E.
  2:{ intros j Hj. rewrite tab_nth by nia. rewrite late_index by lia. unfold ccos. rewrite phase_R, nrz_R. cbn [nmul ncos NumR].
      replace (2 * PI * fc * (INR (d + (k * sps + j)) / INR sr)) with (p j + phi) by (unfold p, phi; rewrite (plus_INR d); field; exact Hsr).
      fold (p j). destruct (j <? sps - d mod sps)%nat; rewrite ?Nat.add_0_r; fold b0 b1; fold (sg b0) (sg b1); ring. }
  rewrite Rsum_n_plus, Rsum_n_scale in E.
  destruct (shifted_sums sr sy fc h k phi ltac:(lia) Hh Hz) as (S1 & _). fold sps in S1.
  change (Rsum_n sps (fun j => cos (p j + phi) * cos (p j)) = INR sps / 2 * cos phi) in S1. rewrite S1 in E.
  pose proof (tail_bound sps (d mod sps) (fun j => (sg b1 - sg b0) * (cos (p j + phi) * cos (p j))) 2
    ltac:(pose proof (Nat.mod_upper_bound d sps ltac:(lia)); lia)) as TB.
  assert (TB' : forall j, (j < sps)%nat -> Rabs ((sg b1 - sg b0) * (cos (p j + phi) * cos (p j))) <= 2).
  { intros j _. rewrite !Rabs_mult.
    assert (A : Rabs (sg b1 - sg b0) <= 2) by (unfold sg; apply Rabs_le; destruct b0, b1; lra).
    assert (B : Rabs (cos (p j + phi)) <= 1) by (apply Rabs_le; pose proof (COS_bound (p j + phi)); lra).
    assert (C : Rabs (cos (p j)) <= 1) by (apply Rabs_le; pose proof (COS_bound (p j)); lra).
    pose proof (Rabs_pos (sg b1 - sg b0)). pose proof (Rabs_pos (cos (p j + phi))). pose proof (Rabs_pos (cos (p j))).
    assert (Rabs (cos (p j + phi)) * Rabs (cos (p j)) <= 1) by nra. nra. }
  specialize (TB TB'). set (e := Rsum_n sps (fun j => if (j <? sps - d mod sps)%nat then _ else _)) in *.
  assert (Hs : 0 < INR sps) by (apply lt_0_INR; lia).
  assert (M : Rabs e < Rabs (sg b0 * (INR sps / 2 * cos phi))).
  { rewrite !Rabs_mult. replace (Rabs (sg b0)) with 1 by (unfold sg, Rabs; destruct b0, (Rcase_abs _); lra).
    rewrite (Rabs_pos_eq (INR sps / 2)) by lra. lra. }
  rewrite (sign_small _ _ M) in E.
  rewrite (nth_error_nth' m false C1). fold b0. clear - E Hs.
  assert (Q : 0 < INR sps / 2) by lra. set (q := INR sps / 2) in *. clearbody q.
  split; intros P; f_equal; unfold sg in E; destruct b0, b; try reflexivity; exfalso.
  - assert (false = true) by (apply E; nra). discriminate.
  - assert (0 < -1 * (q * cos phi)) by (apply E; reflexivity). nra.
  - assert (0 < 1 * (q * cos phi)) by (apply E; reflexivity). nra.
  - assert (false = true) by (apply E; nra). discriminate.
Qed.

(** Whole symbols late. *)
Lemma cos_pi_Z (z : Z) : cos (IZR z * PI) = if Z.odd z then -1 else 1.
Proof.
  destruct (Z.odd z) eqn:E.
  - apply Z.odd_spec in E. destruct E as [k ->]. rewrite plus_IZR, mult_IZR.
    replace ((2 * IZR k + 1) * PI) with (PI + 2 * PI * IZR k) by ring. rewrite cos_add_2pi. apply cos_PI.
  - assert (E2 : Z.even z = true) by (rewrite <- Z.negb_odd, E; reflexivity).
    apply Z.even_spec in E2. destruct E2 as [k ->]. rewrite mult_IZR.
    replace (2 * IZR k * PI) with (0 + 2 * PI * IZR k) by ring. rewrite cos_add_2pi. apply cos_0.
Qed.
Lemma sin_pi_Z (z : Z) : sin (IZR z * PI) = 0.
Proof. apply sin_eq_0_1. exists z. reflexivity. Qed.

Lemma whole_phase (sr sps k : nat) fc (h : Z) : (1 <= sr)%nat -> 2 * fc * INR sps = IZR h * INR sr ->
  2 * PI * fc * (INR (k * sps) / INR sr) = IZR (h * Z.of_nat k) * PI.
Proof.
  intros Hr Hh. assert (Hsr : INR sr <> 0) by (apply not_0_INR; lia). rewrite mult_INR, mult_IZR, <- INR_IZR_INZ.
  replace (2 * PI * fc * (INR k * INR sps / INR sr)) with (PI * INR k * (2 * fc * INR sps) / INR sr) by (field; exact Hsr).
  rewrite Hh. field. exact Hsr.
Qed.

Theorem C89_bpsk_late_symbols :
  forall (message : Iter bool) m (sample_rate symbol_rate : nat) (fc : R) tx (half_cycles : Z) (k : nat),
    let sps := (sample_rate / symbol_rate)%nat in
    yields message m -> tx_bpsk_signal message sample_rate symbol_rate fc = Ret tx -> (symbol_rate <= sample_rate)%nat ->
    2 * fc * INR sps = IZR half_cycles * INR sample_rate -> ~ (exists z : Z, 2 * fc = IZR z * INR sample_rate) ->
    exists rx, rx_bpsk_signal (iskip (k * sps) tx) sample_rate symbol_rate fc = Ret rx /\
      yields rx (map (xorb (Z.odd (half_cycles * Z.of_nat k))) (skipn k m)).
Proof.
  intros message m sr sy fc tx h k sps Hm Htx Hle Hh Hz.
  assert (Hy : sy <> 0%nat) by (apply (tx_bpsk_inv _ _ _ _ _ Htx)).
  assert (Hn : (1 <= sps)%nat) by (apply Nat.div_le_lower_bound; lia).
  pose proof (whole_phase sr sps k fc h ltac:(lia) Hh) as W.
  assert (Hs : 0 < INR sps) by (apply lt_0_INR; lia).
  destruct (C89_bpsk_late message m sr sy fc tx h (k * sps) Hm Htx Hle Hh Hz) as (rx & out & Er & Yr & L & E).
  { fold sps. rewrite Nat.mod_mul by lia. rewrite W, cos_pi_Z. cbn [INR].
    destruct (Z.odd _); [rewrite Rabs_left|rewrite Rabs_pos_eq]; lra. }
  exists rx. split; [exact Er|]. fold sps in L, E. rewrite W, cos_pi_Z in E. rewrite Nat.div_mul in E by lia.
  replace (length m * sps - k * sps)%nat with ((length m - k) * sps)%nat in L by nia. rewrite Nat.div_mul in L by lia.
  replace (map _ (skipn k m)) with out; [exact Yr|]. apply nth_error_inj. intros i. rewrite nth_error_map.
  destruct (nth_error out i) as [b|] eqn:Eb.
  - destruct (E i b Eb) as [E1 E2].
    replace (nth_error (skipn k m) i) with (nth_error m (k + i)).
    + destruct (Z.odd _); [rewrite E2 by lra; cbn; destruct b; reflexivity|rewrite E1 by lra; cbn; destruct b; reflexivity].
    + rewrite <- (firstn_skipn k m) at 1. rewrite nth_error_app2; rewrite firstn_length_le; [f_equal; lia|..].
      all: assert (i < length out)%nat by (apply nth_error_Some; congruence); lia.
  - apply nth_error_None in Eb. rewrite (proj2 (nth_error_None (skipn k m) i)); [reflexivity|]. rewrite skipn_length. lia.
Qed.

Lemma nth_skip {A} (l : list A) n i : nth_error (skipn n l) i = nth_error l (n + i).
Proof. revert l. induction n as [|n IH]; intros [|a l]; cbn; try reflexivity; [destruct i; reflexivity|apply IH]. Qed.

(** ** QPSK *)


Lemma dump_list_cut {A} (z : A) add n L f : (1 <= n)%nat ->
  dump_list z add n (tab L f) = dump_list z add n (tab (L / n * n) f).
Proof.
  intros Hn. unfold dump_list. rewrite !tab_length, Nat.div_mul by lia. apply map_ext_in. intros k Hk. apply in_seq in Hk.
  f_equal. unfold block. rewrite !skipn_tab, !firstn_tab. pose proof (Nat.mul_div_le L n ltac:(lia)). f_equal. nia.
Qed.

(** An incomplete last symbol is dropped. *)
Lemma rx_qpsk_any {T} `{Num T} sr (fc : T) (signal : Iter T) L g n : let k := (L / n)%nat in
  (1 <= n)%nat -> yields signal (tab L g) ->
  yields (iflat_map tt
         (pure_fn (fun row => match row with
                              | [val1; val2] => [nleb (nofZ 0) val1; nleb (nofZ 0) val2]
                              | _ => []
                              end))
         (nintegrate_and_dump 2 (nofZ 0) nadd n
            (imap (fun '(idx, sample) =>
                     let time := ndiv (nofnat idx) (nofnat sr) in
                     let ii := nmul sample (ncos (nmul (nmul (nmul (nofZ 2) npi) fc) time)) in
                     let qi := nmul sample (nopp (nsin (nmul (nmul (nmul (nofZ 2) npi) fc) time))) in
                     [ii; qi])
                  (ienum signal))))
    (flat_map (fun s => [nleb (nofZ 0) (corr n s (fun i => nmul (g i) (ccos sr fc i)));
                         nleb (nofZ 0) (corr n s (fun i => nmul (g i) (nopp (csin sr fc i))))]) (seq 0 k)).
Proof.
  intros k Hn Hs. pose proof (ienum_yields _ _ Hs) as Y. rewrite tab_index in Y.
  pose proof (imap_yields (fun '(idx, sample) =>
                     let time := ndiv (nofnat idx) (nofnat sr) in
                     let ii := nmul sample (ncos (nmul (nmul (nmul (nofZ 2) npi) fc) time)) in
                     let qi := nmul sample (nopp (nsin (nmul (nmul (nmul (nofZ 2) npi) fc) time))) in
                     [ii; qi]) _ _ Y) as Y2.
  rewrite tab_map in Y2. cbv zeta in Y2.
  pose proof (integrate_and_dump_yields (repeat (nofZ 0) 2) (lanes_add nadd) n _ _ Hn Y2) as Y3.
  rewrite dump_list_cut in Y3 by exact Hn. fold k in Y3.
  rewrite dump_list_tab in Y3 by exact Hn.
  assert (E : forall s, fold_left (lanes_add nadd)
      (tab n (fun j => [nmul (g (s * n + j)%nat) (ccos sr fc (s * n + j)%nat); nmul (g (s * n + j)%nat) (nopp (csin sr fc (s * n + j)%nat))]))
      (repeat (nofZ 0) 2) = [corr n s (fun i => nmul (g i) (ccos sr fc i)); corr n s (fun i => nmul (g i) (nopp (csin sr fc i)))]).
  { intros s. unfold corr, tab. cbn [repeat].
    enough (G : forall (f1 f2 : nat -> T) l a b, fold_left (lanes_add nadd) (map (fun j => [f1 j; f2 j]) l) [a; b] =
                [fold_left nadd (map f1 l) a; fold_left nadd (map f2 l) b]) by apply G.
    intros f1 f2. induction l as [|j l IH]; intros a b; [reflexivity|]. cbn [map fold_left lanes_add]. apply IH. }
  assert (Y4 : yields (nintegrate_and_dump 2 (nofZ 0) nadd n
            (imap (fun '(idx, sample) =>
                     let time := ndiv (nofnat idx) (nofnat sr) in
                     let ii := nmul sample (ncos (nmul (nmul (nmul (nofZ 2) npi) fc) time)) in
                     let qi := nmul sample (nopp (nsin (nmul (nmul (nmul (nofZ 2) npi) fc) time))) in
                     [ii; qi])
                  (ienum signal)))
     (tab k (fun s => [corr n s (fun i => nmul (g i) (ccos sr fc i)); corr n s (fun i => nmul (g i) (nopp (csin sr fc i)))]))).
  { refine (eq_ind _ (fun x => yields _ x) Y3 _ _). apply tab_ext. intros s _. apply E. }
  pose proof (iflat_pure_yields (fun row => match row with
                              | [val1; val2] => [nleb (nofZ 0) val1; nleb (nofZ 0) val2]
                              | _ => []
                              end) _ _ Y4) as Y5.
  refine (eq_ind _ (fun x => yields _ x) (Y5 _) _ _).
  - intros a Ha. unfold tab in Ha. apply in_map_iff in Ha. destruct Ha as (s & <- & _). discriminate.
  - unfold tab. rewrite flat_map_map. reflexivity.
Qed.

Lemma flat_pair_nth {A} (f g : nat -> A) K k : (k < K)%nat ->
  nth_error (flat_map (fun s => [f s; g s]) (seq 0 K)) (2 * k) = Some (f k) /\
  nth_error (flat_map (fun s => [f s; g s]) (seq 0 K)) (2 * k + 1) = Some (g k).
Proof.
  intros Hk. replace K with (k + S (K - k - 1))%nat by lia. rewrite seq_app, flat_map_app. cbn [Nat.add seq flat_map app].
  assert (L : forall a n, length (flat_map (fun s => [f s; g s]) (seq a n)) = (2 * n)%nat).
  { intros a n. revert a. induction n as [|n IH]; intros a; [reflexivity|]. cbn [seq flat_map app length]. rewrite IH. lia. }
  split; rewrite nth_error_app2 by (rewrite L; lia); rewrite L.
  - replace (2 * k - 2 * k)%nat with 0%nat by lia. reflexivity.
  - replace (2 * k + 1 - 2 * k)%nat with 1%nat by lia. reflexivity.
Qed.
Lemma flat_pair_length {A} (f g : nat -> A) K : length (flat_map (fun s => [f s; g s]) (seq 0 K)) = (2 * K)%nat.
Proof.
  assert (H : forall a, length (flat_map (fun s => [f s; g s]) (seq a K)) = (2 * K)%nat); [|apply H].
  induction K as [|K IH]; intros a; [reflexivity|]. cbn [seq flat_map app length]. rewrite IH. lia.
Qed.

Lemma some_bool (x y : bool) : Some x = Some y -> x = y.
Proof. congruence. Qed.

(** A symbol difference seen through one branch of the receiver: at most 3. *)
Lemma branch_diff (a1 a2 b1 b2 : bool) x y : let sg (c : bool) := if c then 1 else -1 in
  Rabs ((sg b1 - sg a1) * (cos x * y) - (sg b2 - sg a2) * (sin x * y)) <= 3 * Rabs y.
Proof.
  intros sg.
  replace ((sg b1 - sg a1) * (cos x * y) - (sg b2 - sg a2) * (sin x * y))
    with (((sg b1 - sg a1) * cos x - (sg b2 - sg a2) * sin x) * y) by ring.
  rewrite Rabs_mult. apply Rmult_le_compat_r; [apply Rabs_pos|].
  pose proof (sin2_cos2 x) as SC. unfold Rsqr in SC.
  assert (0 <= (cos x - sin x) * (cos x - sin x)) by apply Rle_0_sqr.
  assert (0 <= (cos x + sin x) * (cos x + sin x)) by apply Rle_0_sqr.
  assert (Q : forall z, z * z <= 9 -> Rabs z <= 3) by (intros z Hz; apply Rabs_le; nra).
  apply Q. unfold sg. destruct a1, a2, b1, b2; nra.
Qed.

Theorem C89_qpsk_late :
  forall (message : Iter bool) m (sample_rate symbol_rate : nat) (fc : R) (half_cycles : Z) (d : nat),
    let sps := (sample_rate / symbol_rate)%nat in
    let phi := 2 * PI * fc * (INR d / INR sample_rate) in
    yields message m -> (1 <= symbol_rate <= sample_rate)%nat ->
    2 * fc * INR sps = IZR half_cycles * INR sample_rate -> ~ (exists z : Z, 2 * fc = IZR z * INR sample_rate) ->
    exists tx rx out, tx_qpsk_signal message sample_rate symbol_rate fc = Ret tx /\
      rx_qpsk_signal (iskip d tx) sample_rate symbol_rate fc = Ret rx /\ yields rx out /\
      length out = (2 * ((length m / 2 * sps - d) / sps))%nat /\
      forall k a1 a2, nth_error out (2 * k) = Some a1 -> nth_error out (2 * k + 1) = Some a2 ->
        let sent b1 b2 := nth_error m (2 * (d / sps + k)) = Some b1 /\ nth_error m (2 * (d / sps + k) + 1) = Some b2 in
        let margin := 6 * INR (d mod sps) / INR sps in
        (margin < cos phi - Rabs (sin phi) -> sent a1 a2) /\
        (margin < - cos phi - Rabs (sin phi) -> sent (negb a1) (negb a2)) /\
        (margin < sin phi - Rabs (cos phi) -> sent a2 (negb a1)) /\
        (margin < - sin phi - Rabs (cos phi) -> sent (negb a2) a1).
Proof.
  intros message m sr sy fc h d sps phi Hm Hr Hh Hz.
  assert (Hn : (1 <= sr / sy)%nat) by (apply Nat.div_le_lower_bound; lia).
  destruct (tx_qpsk_inv message sr sy fc ltac:(lia) Hn) as (tx & Et & Yt).
  specialize (Yt m Hm). unfold qpsk_wave in Yt. rewrite (pairs_length (length m) m eq_refl) in Yt. fold sps in Yt, Hn.
  pose proof (iskip_yields d _ _ Yt) as Yk. rewrite skipn_tab in Yk.
  assert (Er : exists rx, rx_qpsk_signal (iskip d tx) sr sy fc = Ret rx /\
     yields rx (flat_map (fun s => [nleb (nofZ 0) (corr sps s (fun i => nmul
       (let '(b1, b2) := nth ((d + i) / sps) (pairs m) (false, false) in
        nadd (nmul (bit_to_nrz b1) (ccos sr fc (d + i))) (nmul (nopp (bit_to_nrz b2)) (csin sr fc (d + i)))) (ccos sr fc i)));
       nleb (nofZ 0) (corr sps s (fun i => nmul
       (let '(b1, b2) := nth ((d + i) / sps) (pairs m) (false, false) in
        nadd (nmul (bit_to_nrz b1) (ccos sr fc (d + i))) (nmul (nopp (bit_to_nrz b2)) (csin sr fc (d + i)))) (nopp (csin sr fc i))))])
       (seq 0 ((length m / 2 * sps - d) / sps)))).
  { unfold rx_qpsk_signal. rewrite usize_div_intro by lia. cbn [bind]. eexists. split; [reflexivity|].
    exact (rx_qpsk_any sr fc (iskip d tx) _ _ sps Hn Yk). }
  destruct Er as (rx & Er & Yr). exists tx, rx. eexists. split; [exact Et|]. split; [exact Er|]. split; [exact Yr|].
  split; [apply flat_pair_length|]. intros k a1 a2 H1 H2.
  set (K := ((length m / 2 * sps - d) / sps)%nat) in *.
  assert (Hk : (k < K)%nat).
  { assert (X : (2 * k + 1 < 2 * K)%nat) by (rewrite <- (flat_pair_length (fun s : nat => nleb (nofZ 0) (corr sps s (fun i => nmul
       (let '(b1, b2) := nth ((d + i) / sps) (pairs m) (false, false) in
        nadd (nmul (bit_to_nrz b1) (ccos sr fc (d + i))) (nmul (nopp (bit_to_nrz b2)) (csin sr fc (d + i)))) (ccos sr fc i))))
       (fun s => nleb (nofZ 0) (corr sps s (fun i => nmul
       (let '(b1, b2) := nth ((d + i) / sps) (pairs m) (false, false) in
        nadd (nmul (bit_to_nrz b1) (ccos sr fc (d + i))) (nmul (nopp (bit_to_nrz b2)) (csin sr fc (d + i)))) (nopp (csin sr fc i)))))
       K); apply nth_error_Some; congruence). lia. }
  destruct (flat_pair_nth (fun s : nat => nleb (nofZ 0) (corr sps s (fun i => nmul
       (let '(b1, b2) := nth ((d + i) / sps) (pairs m) (false, false) in
        nadd (nmul (bit_to_nrz b1) (ccos sr fc (d + i))) (nmul (nopp (bit_to_nrz b2)) (csin sr fc (d + i)))) (ccos sr fc i))))
       (fun s => nleb (nofZ 0) (corr sps s (fun i => nmul
       (let '(b1, b2) := nth ((d + i) / sps) (pairs m) (false, false) in
        nadd (nmul (bit_to_nrz b1) (ccos sr fc (d + i))) (nmul (nopp (bit_to_nrz b2)) (csin sr fc (d + i)))) (nopp (csin sr fc i)))))
       K k Hk) as [F1 F2].
  rewrite F1 in H1. rewrite F2 in H2. apply some_bool in H1. apply some_bool in H2. clear F1 F2 Yr.
  destruct (late_count _ _ _ _ Hn Hk) as [C1 C2].
  pose proof (Nat.mul_div_le (length m) 2 ltac:(lia)) as M2.
  destruct (nth_error m (2 * (d / sps + k))) as [b1|] eqn:E1; [|apply nth_error_None in E1; lia].
  destruct (nth_error m (2 * (d / sps + k) + 1)) as [b2|] eqn:E2; [|apply nth_error_None in E2; lia].
  pose proof (nth_error_nth (pairs m) _ (false, false) (pairs_nth (length m) m (d / sps + k) b1 b2 eq_refl E1 E2)) as N0.
  destruct (nth (d / sps + k + 1) (pairs m) (false, false)) as [c1 c2] eqn:N1.
  set (p := fun j => 2 * PI * fc * (INR (k * sps + j) / INR sr)) in *.
  set (sg := fun c : bool => if c then 1 else -1).
  assert (Hsr : INR sr <> 0) by (apply not_0_INR; lia).
  assert (SIG : forall j, (j < sps)%nat ->
    (let '(q1, q2) := nth ((d + (k * sps + j)) / sps) (pairs m) (false, false) in
        nadd (nmul (bit_to_nrz q1) (ccos sr fc (d + (k * sps + j)))) (nmul (nopp (bit_to_nrz q2)) (csin sr fc (d + (k * sps + j))))) =
    (sg b1 * cos (p j + phi) - sg b2 * sin (p j + phi)) +
    (if (j <? sps - d mod sps)%nat then 0 else (sg c1 - sg b1) * cos (p j + phi) - (sg c2 - sg b2) * sin (p j + phi))).
  { intros j Hj. rewrite late_index by lia. unfold ccos, csin. rewrite phase_R, !nrz_R. cbn [nmul nadd nopp ncos nsin NumR].
    replace (2 * PI * fc * (INR (d + (k * sps + j)) / INR sr)) with (p j + phi) by (unfold p, phi; rewrite (plus_INR d); field; exact Hsr).
    destruct (j <? sps - d mod sps)%nat; rewrite ?Nat.add_0_r; [rewrite N0|rewrite N1];
      rewrite !nrz_R; fold (sg b1) (sg b2) (sg c1) (sg c2); ring. }
  destruct (shifted_sums sr sy fc h k phi ltac:(lia) Hh Hz) as (S1 & S2 & S3 & S4). fold sps in S1, S2, S3, S4.
  change (Rsum_n sps (fun j => cos (p j + phi) * cos (p j)) = INR sps / 2 * cos phi) in S1.
  change (Rsum_n sps (fun j => sin (p j + phi) * cos (p j)) = INR sps / 2 * sin phi) in S2.
  change (Rsum_n sps (fun j => cos (p j + phi) * sin (p j)) = - (INR sps / 2 * sin phi)) in S3.
  change (Rsum_n sps (fun j => sin (p j + phi) * sin (p j)) = INR sps / 2 * cos phi) in S4.
  pose proof (Nat.mod_upper_bound d sps ltac:(lia)) as U.
  assert (X1 : exists e, Rabs e <= INR (d mod sps) * 3 /\
    nleb (nofZ 0) (INR sps / 2 * (sg b1 * cos phi - sg b2 * sin phi) + e) = a1).
  { exists (Rsum_n sps (fun j => if (j <? sps - d mod sps)%nat then 0 else
       (sg c1 - sg b1) * (cos (p j + phi) * cos (p j)) - (sg c2 - sg b2) * (sin (p j + phi) * cos (p j)))). split.
    - apply (tail_bound sps (d mod sps) (fun j => (sg c1 - sg b1) * (cos (p j + phi) * cos (p j)) - (sg c2 - sg b2) * (sin (p j + phi) * cos (p j)))).
      + lia.
      + intros j _. eapply Rle_trans; [apply branch_diff|].
        assert (Rabs (cos (p j)) <= 1) by (apply Rabs_le; pose proof (COS_bound (p j)); lra). lra.
    - rewrite <- H1. f_equal. rewrite corr_R.
      symmetry. transitivity (Rsum_n sps (fun j => (sg b1 * (cos (p j + phi) * cos (p j)) + (- sg b2) * (sin (p j + phi) * cos (p j))) +
        (if (j <? sps - d mod sps)%nat then 0 else (sg c1 - sg b1) * (cos (p j + phi) * cos (p j)) - (sg c2 - sg b2) * (sin (p j + phi) * cos (p j))))).
      2:{ rewrite !Rsum_n_plus, !Rsum_n_scale, S1, S2. ring. }
      apply Rsum_n_ext. intros j Hj. rewrite SIG by exact Hj. unfold ccos. rewrite phase_R. cbn [nmul ncos NumR]. fold (p j).
      destruct (j <? sps - d mod sps)%nat; ring. }
  assert (X2 : exists e, Rabs e <= INR (d mod sps) * 3 /\
    nleb (nofZ 0) (INR sps / 2 * (sg b1 * sin phi + sg b2 * cos phi) + e) = a2).
  { exists (Rsum_n sps (fun j => if (j <? sps - d mod sps)%nat then 0 else
       (sg c1 - sg b1) * (cos (p j + phi) * - sin (p j)) - (sg c2 - sg b2) * (sin (p j + phi) * - sin (p j)))). split.
    - apply (tail_bound sps (d mod sps) (fun j => (sg c1 - sg b1) * (cos (p j + phi) * - sin (p j)) - (sg c2 - sg b2) * (sin (p j + phi) * - sin (p j)))).
      + lia.
      + intros j _. eapply Rle_trans; [apply branch_diff|].
        assert (Rabs (- sin (p j)) <= 1) by (apply Rabs_le; pose proof (SIN_bound (p j)); lra). lra.
    - rewrite <- H2. f_equal. rewrite corr_R.
      symmetry. transitivity (Rsum_n sps (fun j => ((- sg b1) * (cos (p j + phi) * sin (p j)) + sg b2 * (sin (p j + phi) * sin (p j))) +
        (if (j <? sps - d mod sps)%nat then 0 else (sg c1 - sg b1) * (cos (p j + phi) * - sin (p j)) - (sg c2 - sg b2) * (sin (p j + phi) * - sin (p j))))).
      2:{ rewrite !Rsum_n_plus, !Rsum_n_scale, S3, S4. ring. }
      apply Rsum_n_ext. intros j Hj. rewrite SIG by exact Hj. unfold csin. rewrite phase_R. cbn [nmul nopp nsin NumR]. fold (p j).
      destruct (j <? sps - d mod sps)%nat; ring. }
  clear SIG S1 S2 S3 S4 H1 H2 N0 N1.
  destruct X1 as (e1 & B1 & D1). destruct X2 as (e2 & B2 & D2).
  assert (Hs : 0 < INR sps) by (apply lt_0_INR; lia). cbn [nofZ NumR] in D1, D2.
  set (r := INR (d mod sps)) in *. set (C := cos phi) in *. set (S := sin phi) in *.
  assert (T : forall x e v a, Rabs e <= r * 3 -> nleb 0 (INR sps / 2 * x + e) = a -> 6 * r / INR sps < v ->
    (v <= x -> a = true) /\ (v <= - x -> a = false)).
  { intros x e v a He Ha Hv. assert (HV : r * 3 < INR sps / 2 * v).
    { apply (Rmult_lt_compat_l (INR sps / 2)) in Hv; [|lra].
      replace (INR sps / 2 * (6 * r / INR sps)) with (r * 3) in Hv by (field; lra). exact Hv. }
    pose proof (Rle_abs e). pose proof (Rle_abs (- e)) as Q. rewrite Rabs_Ropp in Q. rewrite <- Ha.
    assert (Z : nleb 0 (INR sps / 2 * x + e) = true <-> 0 <= INR sps / 2 * x + e) by apply nleb_R.
    split; intros HX; apply (Rmult_le_compat_l (INR sps / 2)) in HX; try lra.
    - apply Z. lra.
    - destruct (nleb 0 (INR sps / 2 * x + e)) eqn:EN; [|reflexivity]. destruct Z as [Z _]. specialize (Z eq_refl). lra. }
  pose proof (Rle_abs C). pose proof (Rle_abs (- C)) as QC. rewrite Rabs_Ropp in QC.
  pose proof (Rle_abs S). pose proof (Rle_abs (- S)) as QS. rewrite Rabs_Ropp in QS.
  assert (G : forall v, 6 * r / INR sps < v ->
     ((v <= sg b1 * C - sg b2 * S -> a1 = true) /\ (v <= - (sg b1 * C - sg b2 * S) -> a1 = false)) /\
     ((v <= sg b1 * S + sg b2 * C -> a2 = true) /\ (v <= - (sg b1 * S + sg b2 * C) -> a2 = false))).
  { intros v Hv. split; [exact (T _ _ v _ B1 D1 Hv)|exact (T _ _ v _ B2 D2 Hv)]. }
  clear T B1 B2 D1 D2. intros sent margin. unfold sent. clear sent. unfold margin. clear margin.
  split; [|split; [|split]]; intros Hv; split; f_equal; destruct (G _ Hv) as ((G1 & G2) & (G3 & G4)); clear G Hv; unfold sg in *;
    destruct b1, b2; try (rewrite G1 by lra); try (rewrite G2 by lra); try (rewrite G3 by lra); try (rewrite G4 by lra); reflexivity.
Qed.

Theorem C89_qpsk_late_symbols :
  forall (message : Iter bool) m (sample_rate symbol_rate : nat) (fc : R) (half_cycles : Z) (k : nat),
    let sps := (sample_rate / symbol_rate)%nat in
    yields message m -> (1 <= symbol_rate <= sample_rate)%nat ->
    2 * fc * INR sps = IZR half_cycles * INR sample_rate -> ~ (exists z : Z, 2 * fc = IZR z * INR sample_rate) ->
    exists tx rx, tx_qpsk_signal message sample_rate symbol_rate fc = Ret tx /\
      rx_qpsk_signal (iskip (k * sps) tx) sample_rate symbol_rate fc = Ret rx /\
      yields rx (map (xorb (Z.odd (half_cycles * Z.of_nat k))) (skipn (2 * k) (firstn (2 * (length m / 2)) m))).
Proof.
  intros message m sr sy fc h k sps Hm Hr Hh Hz.
  assert (Hn : (1 <= sps)%nat) by (apply Nat.div_le_lower_bound; lia).
  pose proof (whole_phase sr sps k fc h ltac:(lia) Hh) as W.
  destruct (C89_qpsk_late message m sr sy fc h (k * sps) Hm Hr Hh Hz) as (tx & rx & out & Et & Er & Yr & L & E).
  exists tx, rx. split; [exact Et|]. split; [exact Er|]. fold sps in L, E. rewrite W, cos_pi_Z, sin_pi_Z in E.
  rewrite Nat.mod_mul, Nat.div_mul in E by lia.
  replace (length m / 2 * sps - k * sps)%nat with ((length m / 2 - k) * sps)%nat in L by nia. rewrite Nat.div_mul in L by lia.
  pose proof (Nat.mul_div_le (length m) 2 ltac:(lia)) as M2.
  replace (map _ _) with out; [exact Yr|]. apply nth_error_inj. intros i. rewrite nth_error_map, nth_skip.
  assert (Z0 : 6 * INR 0 / INR sps = 0) by (cbn [INR]; field; apply not_0_INR; lia). rewrite Z0 in E. rewrite Rabs_R0 in E.
  destruct (Nat.lt_ge_cases i (2 * (length m / 2 - k))) as [Hi|Hi].
  - rewrite nth_error_firstn by lia.
    set (s := (i / 2)%nat). pose proof (Nat.div_mod i 2 ltac:(lia)) as DM. fold s in DM. pose proof (Nat.mod_upper_bound i 2 ltac:(lia)) as MB.
    destruct (nth_error out (2 * s)) as [a1|] eqn:E1; [|apply nth_error_None in E1; lia].
    destruct (nth_error out (2 * s + 1)) as [a2|] eqn:E2; [|apply nth_error_None in E2; lia].
    destruct (E s a1 a2 E1 E2) as (P & N & _). 
    assert (Q : nth_error m (2 * (k + s)) = Some (xorb (Z.odd (h * Z.of_nat k)) a1) /\
                nth_error m (2 * (k + s) + 1) = Some (xorb (Z.odd (h * Z.of_nat k)) a2)).
    { destruct (Z.odd (h * Z.of_nat k)); [rewrite !xorb_true_l; apply N|rewrite !xorb_false_l; apply P]; lra. }
    destruct Q as [Q1 Q2]. destruct (i mod 2)%nat as [|[|x]] eqn:Em; [| |lia].
    + replace i with (2 * s)%nat at 1 by lia. rewrite E1. replace (2 * k + i)%nat with (2 * (k + s))%nat by lia. rewrite Q1.
      cbn. destruct (Z.odd _), a1; reflexivity.
    + replace i with (2 * s + 1)%nat at 1 by lia. rewrite E2. replace (2 * k + i)%nat with (2 * (k + s) + 1)%nat by lia. rewrite Q2.
      cbn. destruct (Z.odd _), a2; reflexivity.
  - replace (nth_error out i) with (@None bool) by (symmetry; apply nth_error_None; lia).
    replace (nth_error (firstn _ m) _) with (@None bool); [reflexivity|]. symmetry. apply nth_error_None. rewrite firstn_length. lia.
Qed.

(** ** CDMA: starting in the middle of a code word *)

(** A receiver that starts [q] whole symbols and [r] chips late.  Each decision mixes two neighbouring
    bits, weighted by the two halves of the key's correlation with itself [r] chips away. *)
Theorem C89_cdma_bpsk_late :
  forall (message : Iter bool) m (sample_rate symbol_rate : nat) (fc : R) (half_cycles : Z) (key : list bool) tx (q r : nat),
    let n := length key in
    let spc := (sample_rate / symbol_rate / n)%nat in
    let nrz (b : bool) := if b then 1 else -1 in
    let chip j := nrz (nth j key false) in
    let head := Rsum_n (n - r) (fun j => chip j * chip (r + j)%nat) in
    let wrap := Rsum_n r (fun j => chip (n - r + j)%nat * chip j) in
    let turn := if Z.odd (half_cycles * Z.of_nat (q * n + r)) then -1 else 1 in
    yields message m -> tx_cdma_bpsk_signal message sample_rate symbol_rate fc key = Ret tx -> (r < n)%nat ->
    2 * fc * INR spc = IZR half_cycles * INR sample_rate -> ~ (exists z : Z, 2 * fc = IZR z * INR sample_rate) ->
    exists rx out, rx_cdma_bpsk_signal (iskip ((q * n + r) * spc) tx) sample_rate symbol_rate fc key = Ret rx /\
      yields rx out /\ length out = (length m - q - (if (r =? 0)%nat then 0 else 1))%nat /\
      forall k b, nth_error out k = Some b ->
        (b = true <-> 0 < turn * (nrz (nth (q + k) m false) * head + nrz (nth (q + k + 1) m false) * wrap)).
Proof.
  intros message m sr sy fc h key tx q r n spc nrz chip head wrap turn Hm Htx Hrn Hh Hz.
  unfold tx_cdma_bpsk_signal in Htx. destruct (cdma_rates sr sy fc key) as [p| |] eqn:Ep; try discriminate.
  destruct (cdma_rates_inv _ _ _ _ _ Ep) as (-> & Hy & Hk & Hr & Hc & _). cbn [bind] in Htx.
  pose proof (cdma_rates_R_divide _ _ _ _ _ Ep) as Hs.
  destruct (tx_bpsk_signal message sr sy fc) as [tx0| |] eqn:Et; try discriminate. cbn [bind] in Htx. injection Htx as <-.
  fold n in Hr, Hc, Hs. set (sps := (sr / sy)%nat) in *. fold spc in Hc, Hs.
  assert (Hsn : (1 <= sps)%nat) by nia.
  destruct (tx_bpsk_inv _ _ _ _ _ Et) as (_ & _ & _ & Y). specialize (Y Hsn m Hm). unfold bpsk_wave in Y. fold sps in Y.
  fold n. fold spc.
  pose proof (chip_mul_yields spc key tx0 _ _ ltac:(lia) Hk Y) as Yc.
  pose proof (iskip_yields ((q * n + r) * spc) _ _ Yc) as Yk. rewrite skipn_tab in Yk.
  pose proof (chip_mul_yields spc key _ _ _ ltac:(lia) Hk Yk) as Yd. fold n in Yd.
  assert (Hle : (sy <= sr)%nat) by nia.
  destruct (C29_bpsk_receiver_exact _ _ sr sy fc Yd ltac:(lia)) as (rx & out & Er & Yr & L & E).
  rewrite tab_length in L. fold sps in L, E.
  exists rx, out. split; [unfold rx_cdma_bpsk_signal; rewrite Ep; exact Er|]. split; [exact Yr|].
  assert (L' : length out = (length m - q - (if (r =? 0)%nat then 0 else 1))%nat).
  { rewrite L, Hs. replace (length m * (spc * n) - (q * n + r) * spc)%nat with (spc * ((length m - q) * n - r))%nat by nia.
    rewrite Nat.div_mul_cancel_l by lia. destruct (Nat.eqb_spec r 0) as [->|Hr0].
    - rewrite Nat.sub_0_r, Nat.div_mul by lia. lia.
    - destruct (length m - q)%nat as [|x]; [cbn; apply Nat.div_0_l; lia|].
      replace (S x * n - r)%nat with (n - r + x * n)%nat by nia. rewrite Nat.div_add by lia. rewrite Nat.div_small by lia. lia. }
  split; [exact L'|]. intros k b Hb. rewrite (E k b Hb). clear E.
  assert (Hkl : (k < length out)%nat) by (apply nth_error_Some; congruence).
  assert (Hsr : (1 <= sr)%nat) by nia. assert (Hsr' : INR sr <> 0) by (apply not_0_INR; lia).
  assert (Hlen : (k * sps + sps <= length m * sps - (q * n + r) * spc)%nat).
  { pose proof (Nat.mul_div_le (length m * sps - (q * n + r) * spc) sps ltac:(lia)). rewrite <- L in *. nia. }
  set (ph := fun i : nat => 2 * PI * fc * (INR i / INR sr)).
  assert (W : forall i, cos (ph ((q * n + r) * spc + i)%nat) = turn * cos (ph i)).
  { intros i. unfold ph. rewrite plus_INR.
    replace (2 * PI * fc * ((INR ((q * n + r) * spc) + INR i) / INR sr))
      with (2 * PI * fc * (INR ((q * n + r) * spc) / INR sr) + 2 * PI * fc * (INR i / INR sr)) by (field; exact Hsr').
    rewrite (whole_phase sr spc (q * n + r) fc h Hsr Hh), cos_plus, cos_pi_Z, sin_pi_Z. unfold turn. ring. }
  assert (SUM : Rsum_n sps (fun j => nth (k * sps + j)
      (tab (length m * sps - (q * n + r) * spc) (fun i => nmul (nmul (nmul (bit_to_nrz (nth (((q * n + r) * spc + i) / sps) m false)) (ccos sr fc ((q * n + r) * spc + i)))
          (bit_to_nrz (nth ((((q * n + r) * spc + i) / spc) mod n) key false))) (bit_to_nrz (nth ((i / spc) mod n) key false)))) 0 *
      cos (2 * PI * fc * (INR (k * sps + j) / INR sr))) =
    turn * (INR spc / 2) * Rsum_n n (fun c => nrz (nth (q + k + (r + c) / n) m false) * (chip ((r + c) mod n)%nat * chip c))).
  { rewrite Hs at 1. rewrite (Nat.mul_comm spc n), Rsum_n_mul, <- Rsum_n_scale. apply Rsum_n_ext. intros c Hcn.
    rewrite (Rsum_n_ext spc _ (fun j => turn * nrz (nth (q + k + (r + c) / n) m false) * (chip ((r + c) mod n)%nat * chip c) *
      (cos (ph (k * sps + c * spc + j)%nat) * cos (ph (k * sps + c * spc + j)%nat)))).
    - rewrite Rsum_n_scale. destruct (tone_sums sr spc fc h (k * sps + c * spc) Hsr Hh Hz) as (Q & _). cbv zeta in Q. fold (ph (k * sps + c * spc)%nat) in Q.
      change (Rsum_n spc (fun j => cos (ph (k * sps + c * spc + j)%nat) * cos (ph (k * sps + c * spc + j)%nat)) = INR spc / 2) in Q. rewrite Q. ring.
    - intros j Hj. rewrite tab_nth by (rewrite Hs in *; nia). unfold ccos. rewrite phase_R, !nrz_R. cbn [nmul ncos NumR].
      replace (k * sps + (c * spc + j))%nat with (k * sps + c * spc + j)%nat by lia. fold (ph (k * sps + c * spc + j)%nat).
      fold (ph ((q * n + r) * spc + (k * sps + c * spc + j))%nat). rewrite W.
      assert (I1 : ((k * sps + c * spc + j) / spc = c + k * n)%nat).
      { replace (k * sps + c * spc + j)%nat with (j + (c + k * n) * spc)%nat by (rewrite Hs; ring). rewrite Nat.div_add, Nat.div_small by lia. lia. }
      assert (I2 : (((q * n + r) * spc + (k * sps + c * spc + j)) / spc = r + c + (q + k) * n)%nat).
      { replace ((q * n + r) * spc + (k * sps + c * spc + j))%nat with (j + (r + c + (q + k) * n) * spc)%nat by (rewrite Hs; ring).
        rewrite Nat.div_add, Nat.div_small by lia. lia. }
      assert (I3 : (((q * n + r) * spc + (k * sps + c * spc + j)) / sps = q + k + (r + c) / n)%nat).
      { rewrite Hs at 2. rewrite <- Nat.div_div by lia. rewrite I2, Nat.div_add by lia. lia. }
      rewrite I1, I2, I3, !Nat.mod_add, (Nat.mod_small c n) by lia.
      fold (nrz (nth (q + k + (r + c) / n) m false)). fold (nrz (nth ((r + c) mod n) key false)). fold (nrz (nth c key false)).
      fold (chip ((r + c) mod n)%nat). fold (chip c). ring. }
  rewrite SUM. clear SUM.
  assert (SP : Rsum_n n (fun c => nrz (nth (q + k + (r + c) / n) m false) * (chip ((r + c) mod n)%nat * chip c)) =
     nrz (nth (q + k) m false) * head + nrz (nth (q + k + 1) m false) * wrap).
  { replace n with (n - r + r)%nat at 1 by lia. rewrite Rsum_n_add. unfold head, wrap. rewrite <- !Rsum_n_scale. f_equal; apply Rsum_n_ext; intros j Hj.
    - rewrite Nat.div_small, Nat.mod_small, Nat.add_0_r by lia. ring.
    - replace (r + (n - r + j))%nat with (j + 1 * n)%nat by lia. rewrite Nat.div_add, Nat.mod_add, Nat.div_small, Nat.mod_small by lia.
      rewrite Nat.add_0_l. ring. }
  rewrite SP. assert (P : 0 < INR spc / 2) by (assert (0 < INR spc) by (apply lt_0_INR; lia); lra).
  set (x := INR spc / 2) in *. set (y := _ + _). rewrite (Rmult_comm turn x), Rmult_assoc. clearbody x y turn. clear - P. split; intros Q.
  - apply (Rmult_lt_reg_l x); [exact P|]. lra.
  - apply Rmult_lt_0_compat; assumption.
Qed.

(** Whole symbols late: the receiver's key is in step, so the plain links decide. *)
Lemma respread (sps n : nat) (key : list bool) (it : Iter R) N g k :
  n = length key -> (1 <= sps / n)%nat -> sps = (sps / n * n)%nat -> key <> [] -> yields it (tab N g) ->
  exists g', yields (iskip (k * sps) it) (tab (N - k * sps) g') /\
    yields (chip_mul (sps / n) key (iskip (k * sps) (chip_mul (sps / n) key it))) (tab (N - k * sps) g').
Proof.
  intros -> Hc Hs Hk Y. set (n := length key) in *. set (spc := (sps / n)%nat) in *.
  assert (Hn : (1 <= n)%nat) by (unfold n; destruct key; [contradiction|cbn; lia]).
  pose proof (iskip_yields (k * sps) _ _ Y) as Y0. rewrite skipn_tab in Y0.
  eexists. split; [exact Y0|].
  pose proof (chip_mul_yields spc key it _ _ Hc Hk Y) as Yc.
  pose proof (iskip_yields (k * sps) _ _ Yc) as Yk. rewrite skipn_tab in Yk.
  pose proof (chip_mul_yields spc key _ _ _ Hc Hk Yk) as Yd. fold n in Yd.
  refine (eq_ind _ (fun x => yields _ x) Yd _ _). apply tab_ext. intros i _. rewrite !nrz_R. cbn [nmul NumR].
  replace ((k * sps + i) / spc)%nat with (i / spc + k * n)%nat.
  2:{ rewrite Hs. replace (k * (spc * n) + i)%nat with (i + k * n * spc)%nat by ring. rewrite Nat.div_add by lia. reflexivity. }
  rewrite Nat.mod_add by lia. destruct (nth _ key false); ring.
Qed.

Theorem C89_cdma_bpsk_late_symbols :
  forall (message : Iter bool) m (sample_rate symbol_rate : nat) (fc : R) (key : list bool) tx (half_cycles : Z) (k : nat),
    let sps := (sample_rate / symbol_rate)%nat in
    yields message m -> tx_cdma_bpsk_signal message sample_rate symbol_rate fc key = Ret tx ->
    2 * fc * INR sps = IZR half_cycles * INR sample_rate -> ~ (exists z : Z, 2 * fc = IZR z * INR sample_rate) ->
    exists rx, rx_cdma_bpsk_signal (iskip (k * sps) tx) sample_rate symbol_rate fc key = Ret rx /\
      yields rx (map (xorb (Z.odd (half_cycles * Z.of_nat k))) (skipn k m)).
Proof.
  intros message m sr sy fc key tx h k sps Hm Htx Hh Hz.
  unfold tx_cdma_bpsk_signal in Htx. destruct (cdma_rates sr sy fc key) as [p| |] eqn:Ep; try discriminate.
  destruct (cdma_rates_inv _ _ _ _ _ Ep) as (-> & Hy & Hk & Hr & Hc & _). cbn [bind] in Htx.
  pose proof (cdma_rates_R_divide _ _ _ _ _ Ep) as Hs.
  destruct (tx_bpsk_signal message sr sy fc) as [tx0| |] eqn:Et; try discriminate. cbn [bind] in Htx. injection Htx as <-.
  assert (Hl : (1 <= length key)%nat) by (destruct key; [contradiction|cbn; lia]).
  assert (Hle : (sy <= sr)%nat) by nia. fold sps in Hc, Hs.
  assert (Hsn : (1 <= sps)%nat) by nia.
  destruct (C89_bpsk_late_symbols message m sr sy fc tx0 h k Hm Et Hle Hh Hz) as (rx0 & E0 & Y0).
  destruct (tx_bpsk_inv _ _ _ _ _ Et) as (_ & _ & _ & Y). specialize (Y Hsn m Hm). unfold bpsk_wave in Y. fold sps in Y.
  destruct (respread sps _ key tx0 _ _ k eq_refl ltac:(lia) Hs Hk Y) as (g & Yg & Yr).
  fold sps in E0. destruct (rx_bpsk_intro (iskip (k * sps) tx0) sr sy fc ltac:(lia) Hsn) as (rx1 & E1 & _ & F1).
  rewrite E0 in E1. injection E1 as <-. rewrite (yields_det _ _ _ Y0 (F1 _ 0 Yg)).
  destruct (rx_bpsk_intro (chip_mul (sps / length key) key (iskip (k * sps) (chip_mul (sps / length key) key tx0))) sr sy fc ltac:(lia) Hsn)
    as (rx & Er & _ & F).
  exists rx. fold sps. split; [unfold rx_cdma_bpsk_signal; rewrite Ep; exact Er|]. exact (F _ 0 Yr).
Qed.

Theorem C89_cdma_qpsk_late_symbols :
  forall (message : Iter bool) m (sample_rate symbol_rate : nat) (fc : R) (key : list bool) tx (half_cycles : Z) (k : nat),
    let sps := (sample_rate / symbol_rate)%nat in
    yields message m -> tx_cdma_qpsk_signal message sample_rate symbol_rate fc key = Ret tx ->
    2 * fc * INR sps = IZR half_cycles * INR sample_rate -> ~ (exists z : Z, 2 * fc = IZR z * INR sample_rate) ->
    exists rx, rx_cdma_qpsk_signal (iskip (k * sps) tx) sample_rate symbol_rate fc key = Ret rx /\
      yields rx (map (xorb (Z.odd (half_cycles * Z.of_nat k))) (skipn (2 * k) (firstn (2 * (length m / 2)) m))).
Proof.
  intros message m sr sy fc key tx h k sps Hm Htx Hh Hz.
  unfold tx_cdma_qpsk_signal in Htx. destruct (cdma_rates sr sy fc key) as [p| |] eqn:Ep; try discriminate.
  destruct (cdma_rates_inv _ _ _ _ _ Ep) as (-> & Hy & Hk & Hr & Hc & _). cbn [bind] in Htx.
  pose proof (cdma_rates_R_divide _ _ _ _ _ Ep) as Hs.
  assert (Hl : (1 <= length key)%nat) by (destruct key; [contradiction|cbn; lia]).
  assert (Hle : (sy <= sr)%nat) by nia. fold sps in Hc, Hs.
  assert (Hsn : (1 <= sps)%nat) by nia.
  destruct (tx_qpsk_inv message sr sy fc ltac:(lia) Hsn) as (tx0 & Et & Y). specialize (Y m Hm). unfold qpsk_wave in Y. fold sps in Y.
  rewrite Et in Htx. cbn [bind] in Htx. injection Htx as <-.
  destruct (C89_qpsk_late_symbols message m sr sy fc h k Hm ltac:(lia) Hh Hz) as (tx1 & rx0 & Et1 & E0 & Y0).
  rewrite Et in Et1. injection Et1 as <-.
  destruct (respread sps _ key tx0 _ _ k eq_refl ltac:(lia) Hs Hk Y) as (g & Yg & Yr). fold sps in E0. fold sps.
  assert (Q : forall it, yields it (tab (length (pairs m) * sps - k * sps) g) ->
    exists rx, rx_qpsk_signal it sr sy fc = Ret rx /\
      yields rx (flat_map (fun s => [nleb (nofZ 0) (corr sps s (fun i => nmul (g i) (ccos sr fc i)));
                         nleb (nofZ 0) (corr sps s (fun i => nmul (g i) (nopp (csin sr fc i))))])
         (seq 0 ((length (pairs m) * sps - k * sps) / sps)))).
  { intros it Yi. unfold rx_qpsk_signal. rewrite usize_div_intro by lia. cbn [bind]. eexists. split; [reflexivity|].
    exact (rx_qpsk_any sr fc it _ _ sps Hsn Yi). }
  destruct (Q _ Yg) as (rx1 & E1 & F1). rewrite E0 in E1. injection E1 as <-.
  destruct (Q _ Yr) as (rx & Er & F). exists rx. split; [unfold rx_cdma_qpsk_signal; rewrite Ep; exact Er|].
  rewrite (yields_det _ _ _ Y0 F1). exact F.
Qed.

(** ** DCSK: any lateness at all *)

(** The statistic of a late receiver is a product of two references, both positive. *)
Lemma dcsk_cross_f64 (libm : Libm) (r r' : F64) b : let num := NumF libm in
  fin r = true -> 94/1000 <= val r <= 9751/10000 -> fin r' = true -> 94/1000 <= val r' <= 9751/10000 ->
  nltb (nofZ 0) (nmul r' (nmul r (bit_to_nrz b))) = b /\ nltb (nofZ 0) (nmul (nmul r (bit_to_nrz b)) r') = b.
Proof.
  intros num Fr Hr Fr' Hr'. unfold num. destruct (ChaosMod.mul_nrz libm r b Fr) as [Fi Vi]. destruct val_0 as [V0 F0].
  set (i := nmul r (bit_to_nrz b)) in *. cbn [nltb nmul nofZ NumF].
  assert (Hlow : / 1024 <= rd (val r' * val r)).
  { change (/ 1024) with (bpow radix2 (-10)). apply rd_ge_fmt; [apply fmt_bpow; lia|].
    change (bpow radix2 (-10)) with (/ 1024). nra. }
  assert (Hp : val r' * val i = if b then val r' * val r else - (val r' * val r)) by (rewrite Vi; destruct b; ring).
  assert (Hq : val i * val r' = if b then val r' * val r else - (val r' * val r)) by (rewrite Vi; destruct b; ring).
  assert (SM : Rabs (if b then val r' * val r else - (val r' * val r)) <= 1).
  { destruct b; [|rewrite Rabs_Ropp]; rewrite Rabs_pos_eq; nra. }
  assert (G : forall x y, fin x = true -> fin y = true -> val x * val y = (if b then val r' * val r else - (val r' * val r)) ->
    Bltb (f64_ofZ 0) (Bmult mode_NE x y) = b).
  { intros x y Fx Fy Hxy. destruct (mul_fin x y Fx Fy) as [Vp Fp]; [apply small_no_overflow; rewrite Hxy; lra|].
    rewrite Hxy in Vp. destruct b.
    - apply ltb_val; [exact F0|exact Fp|]. rewrite V0, Vp. lra.
    - destruct (Bltb (f64_ofZ 0) (Bmult mode_NE x y)) eqn:E; [|reflexivity].
      apply ltb_val in E; [|exact F0|exact Fp]. rewrite V0, Vp, rd_opp in E. lra. }
  split; apply G; assumption.
Qed.

Lemma dcsk_late_gen {T} `{Num T} (start_ok : nleb (nofZ 0) (nlit 1 10) && nleb (nlit 1 10) (nofZ 1) = true)
  (message : Iter bool) m (d : nat) : yields message m ->
  (forall n n' b, nltb (nofZ 0) (nmul (dcsk_ref n') (nmul (dcsk_ref n) (bit_to_nrz b))) = b /\
                  nltb (nofZ 0) (nmul (nmul (dcsk_ref n) (bit_to_nrz b)) (dcsk_ref n')) = b) ->
  exists tx, tx_baseband_dcsk message = Ret tx /\
    yields (rx_baseband_dcsk (iskip d tx)) (firstn ((2 * length m - d) / 2) (skipn (d / 2) m)).
Proof.
  intros Hm Hd. destruct (dcsk_chain start_ok message m Hm) as (tx & E & Y & _). exists tx. split; [exact E|].
  replace (zip_stream m dcsk_ref) with (tab (length m) (fun n => (nth n m false, dcsk_ref n))) in Y.
  2:{ apply nth_error_inj. intros n. rewrite tab_nth_error, zip_stream_nth. destruct (Nat.ltb_spec n (length m)) as [L|L].
      - rewrite (nth_error_nth' m false L). reflexivity.
      - rewrite (proj2 (nth_error_None m n) L). reflexivity. }
  rewrite (flat_map_ext _ (fun a => [fst ((fun '(b, r) => (r, nmul r (bit_to_nrz b))) a); snd ((fun '(b, r) => (r, nmul r (bit_to_nrz b))) a)])) in Y
    by (intros [b r]; reflexivity).
  rewrite flat_pairs_tab in Y. cbn [fst snd] in Y.
  pose proof (iskip_yields d _ _ Y) as Yk. rewrite skipn_tab in Yk.
  pose proof (imap_yields (fun '(reference, information) => nltb (nofZ 0) (nmul reference information)) _ _ (ituples_yields _ _ Yk)) as YR.
  rewrite pairs_tab, tab_map in YR. refine (eq_ind _ (fun x => yields _ x) YR _ _).
  rewrite (Nat.mul_comm 2 (length m)). set (K := ((length m * 2 - d) / 2)%nat).
  assert (HK : forall i, (i < K)%nat -> (d / 2 + i < length m)%nat).
  { intros i Hi. unfold K in Hi. pose proof (Nat.mul_div_le (length m * 2 - d) 2 ltac:(lia)). pose proof (Nat.mul_div_le d 2 ltac:(lia)). lia. }
  apply nth_error_inj. intros i. rewrite tab_nth_error. destruct (Nat.ltb_spec i K) as [Hi|Hi].
  2:{ symmetry. apply nth_error_None. rewrite firstn_length. lia. }
  rewrite nth_error_firstn, nth_skip by exact Hi. rewrite (nth_error_nth' m false) by (apply HK; exact Hi). f_equal.
  pose proof (Nat.div_mod d 2 ltac:(lia)) as DM. destruct (d mod 2)%nat as [|[|x]] eqn:Em.
  - replace (d + 2 * i)%nat with (2 * (d / 2 + i))%nat by lia. replace (d + (2 * i + 1))%nat with (1 + 2 * (d / 2 + i))%nat by lia.
    rewrite Nat.even_mul. cbn [orb Nat.even]. replace (Nat.even (1 + 2 * (d / 2 + i))) with false
      by (symmetry; rewrite Nat.even_add, Nat.even_mul; reflexivity).
    replace ((2 * (d / 2 + i)) / 2)%nat with (d / 2 + i)%nat by (symmetry; rewrite Nat.mul_comm; apply Nat.div_mul; lia).
    replace ((1 + 2 * (d / 2 + i)) / 2)%nat with (d / 2 + i)%nat by (rewrite (Nat.mul_comm 2), Nat.div_add by lia; reflexivity).
    cbn [fst snd]. apply Hd.
  - replace (d + 2 * i)%nat with (1 + 2 * (d / 2 + i))%nat by lia. replace (d + (2 * i + 1))%nat with (2 * (d / 2 + i + 1))%nat by lia.
    rewrite Nat.even_mul. cbn [orb Nat.even]. replace (Nat.even (1 + 2 * (d / 2 + i))) with false
      by (symmetry; rewrite Nat.even_add, Nat.even_mul; reflexivity).
    replace ((2 * (d / 2 + i + 1)) / 2)%nat with (d / 2 + i + 1)%nat by (symmetry; rewrite Nat.mul_comm; apply Nat.div_mul; lia).
    replace ((1 + 2 * (d / 2 + i)) / 2)%nat with (d / 2 + i)%nat by (rewrite (Nat.mul_comm 2), Nat.div_add by lia; reflexivity).
    cbn [fst snd]. apply Hd.
  - pose proof (Nat.mod_upper_bound d 2 ltac:(lia)). lia.
Qed.

Theorem C89_dcsk_late_f64 :
  forall (libm : Libm) (message : Iter bool) m (d : nat), let num := NumF libm in
    yields message m ->
    exists tx, tx_baseband_dcsk message = Ret tx /\
      yields (rx_baseband_dcsk (iskip d tx)) (firstn ((2 * length m - d) / 2) (skipn (d / 2) m)).
Proof.
  intros libm message m d num Hm. apply (dcsk_late_gen (dcsk_start_f64 libm)); [exact Hm|].
  intros n n' b. destruct x01_val as [F0 H0]. destruct (ref_range libm x01 n F0 H0) as [Fr Hr].
  destruct (ref_range libm x01 n' F0 H0) as [Fr' Hr']. exact (dcsk_cross_f64 libm _ _ b Fr Hr Fr' Hr').
Qed.

Theorem C89_dcsk_late_exact :
  forall (message : Iter bool) m (d : nat), yields message m ->
    exists tx, @tx_baseband_dcsk R _ message = Ret tx /\
      yields (rx_baseband_dcsk (iskip d tx)) (firstn ((2 * length m - d) / 2) (skipn (d / 2) m)).
Proof.
  intros message m d Hm. apply dcsk_late_gen; [|exact Hm|].
  - cbn. unfold nlit; cbn. destruct (Rle_dec 0 (1/10)); destruct (Rle_dec (1/10) 1); try reflexivity; lra.
  - assert (P : forall n, 0 < @dcsk_ref R _ n).
    { intros n. unfold dcsk_ref, orbit_at. apply (iter_inv _ (fun x => 0 < x < 1)).
      - unfold nlit; cbn; lra.
      - intros x Hx. unfold logistic_map, nlit; cbn. assert (0 < x * (1 - x)) by nra.
        assert (0 <= (x - 1/2) * (x - 1/2)) by apply Rle_0_sqr. nra. }
    intros n n' b. pose proof (Rmult_lt_0_compat _ _ (P n) (P n')) as PP. rewrite nrz_R. cbn [nmul NumR].
    split; destruct b; try (apply nltb_R; cbn [nofZ NumR]; nra);
      (match goal with |- ?t = false => destruct t eqn:E; [|reflexivity] end; apply nltb_R in E; cbn [nofZ NumR] in E; nra).
Qed.

(** ** Concrete cases *)

(** One eighth of a carrier period late: the bits come through, the cut-off one is lost. *)
Example C89_bpsk_case :
  exists tx rx, tx_bpsk_signal (of_list [true; false; true]) 8 1 (1 : R) = Ret tx /\
    rx_bpsk_signal (iskip 1 tx) 8 1 1 = Ret rx /\ yields rx [true; false].
Proof.
  assert (E : exists tx, tx_bpsk_signal (of_list [true; false; true]) 8 1 (1 : R) = Ret tx).
  { assert (Er : cdma_rates 8 1 (1 : R) [true; false] = Ret (8, 4)%nat).
    { rewrite cdma_rates_R_intro; cbn [length]; [reflexivity|lia|discriminate|lia|exists 4%nat; reflexivity|unfold u64_max; lia|].
      change (8 / 2)%nat with 4%nat. cbn. lra. }
    destruct (cdma_rates_inv _ _ _ _ _ Er) as (_ & _ & _ & _ & _ & Hny & Hi).
    unfold tx_bpsk_signal. rewrite usize_div_intro by lia. cbn [bind]. rewrite Hny, Hi. eexists. reflexivity. }
  destruct E as [tx Et]. exists tx.
  assert (PH : 2 * PI * 1 * (INR 1 / INR 8) = PI / 4) by (cbn; lra).
  assert (C : 1 / 2 < cos (PI / 4)).
  { rewrite cos_PI4. pose proof Rlt_sqrt2_0. pose proof (sqrt_sqrt 2 ltac:(lra)). 
    apply (Rmult_lt_reg_r (sqrt 2)); [lra|]. replace (1 / sqrt 2 * sqrt 2) with 1 by (field; lra). nra. }
  destruct (C89_bpsk_late (of_list [true; false; true]) [true; false; true] 8 1 1 tx 2 1) as (rx & out & Er & Yr & L & D).
  - apply of_list_yields.
  - exact Et.
  - lia.
  - change (8 / 1)%nat with 8%nat. cbn. lra.
  - intros [z Hz]. rewrite INR_IZR_INZ, <- !mult_IZR in Hz. apply eq_IZR in Hz. lia.
  - rewrite PH. change (1 mod (8 / 1))%nat with 1%nat. change (8 / 1)%nat with 8%nat. rewrite Rabs_pos_eq by lra. cbn. lra.
  - exists rx. split; [exact Et|]. split; [exact Er|]. rewrite PH in D. change ((length [true; false; true] * (8 / 1) - 1) / (8 / 1))%nat with 2%nat in L.
    change (1 / (8 / 1))%nat with 0%nat in D.
    destruct out as [|a [|b [|]]]; try discriminate L.
    destruct (D 0%nat a eq_refl) as [D0 _]. destruct (D 1%nat b eq_refl) as [D1 _].
    specialize (D0 ltac:(lra)). specialize (D1 ltac:(lra)). cbn in D0, D1. injection D0 as <-. injection D1 as <-. exact Yr.
Qed.

(** A quarter of a carrier period late, QPSK turns the pair (b1, b2) into (not b2, b1). *)
Example C89_qpsk_case :
  exists tx rx, tx_qpsk_signal (of_list [true; true; false; true]) 32 1 (8 : R) = Ret tx /\
    rx_qpsk_signal (iskip 1 tx) 32 1 8 = Ret rx /\ yields rx [false; true].
Proof.
  assert (PH : 2 * PI * 8 * (INR 1 / INR 32) = PI / 2) by (cbn; lra).
  destruct (C89_qpsk_late (of_list [true; true; false; true]) [true; true; false; true] 32 1 8 16 1) as (tx & rx & out & Et & Er & Yr & L & D).
  - apply of_list_yields.
  - lia.
  - change (32 / 1)%nat with 32%nat. cbn. lra.
  - intros [z Hz]. rewrite INR_IZR_INZ, <- !mult_IZR in Hz. apply eq_IZR in Hz. lia.
  - exists tx, rx. split; [exact Et|]. split; [exact Er|]. rewrite PH, cos_PI2, sin_PI2 in D.
    change (2 * ((length [true; true; false; true] / 2 * (32 / 1) - 1) / (32 / 1)))%nat with 2%nat in L.
    change (1 / (32 / 1))%nat with 0%nat in D. change (1 mod (32 / 1))%nat with 1%nat in D. change (32 / 1)%nat with 32%nat in D.
    destruct out as [|a [|b [|]]]; try discriminate L.
    destruct (D 0%nat a b eq_refl eq_refl) as (_ & _ & D0 & _).
    destruct D0 as [D1 D2]; [rewrite Rabs_R0; cbn; lra|]. cbn in D1, D2. injection D1 as <-. destruct a; [discriminate D2|]. exact Yr.
Qed.

(** One chip late with the key (1, 0): every decision is the AND of two neighbouring bits. *)
Example C89_cdma_case :
  exists tx rx, tx_cdma_bpsk_signal (of_list [true; true; false]) 16 1 (1 : R) [true; false] = Ret tx /\
    rx_cdma_bpsk_signal (iskip 8 tx) 16 1 (1 : R) [true; false] = Ret rx /\ yields rx [true; false].
Proof.
  assert (E : exists tx, tx_cdma_bpsk_signal (of_list [true; true; false]) 16 1 (1 : R) [true; false] = Ret tx).
  { assert (Er : cdma_rates 16 1 (1 : R) [true; false] = Ret (16, 8)%nat).
    { rewrite cdma_rates_R_intro; cbn [length]; [reflexivity|lia|discriminate|lia|exists 8%nat; reflexivity|unfold u64_max; lia|].
      change (16 / 2)%nat with 8%nat. cbn. lra. }
    destruct (cdma_rates_inv _ _ _ _ _ Er) as (_ & _ & _ & _ & _ & Hny & Hi).
    unfold tx_cdma_bpsk_signal. rewrite Er. cbn [bind]. unfold tx_bpsk_signal. rewrite usize_div_intro by lia. cbn [bind].
    rewrite Hny, Hi. eexists. reflexivity. }
  destruct E as [tx Et]. exists tx.
  destruct (C89_cdma_bpsk_late (of_list [true; true; false]) [true; true; false] 16 1 1 1 [true; false] tx 0 1) as (rx & out & Er & Yr & L & D).
  - apply of_list_yields.
  - exact Et.
  - cbn; lia.
  - change (16 / 1 / length [true; false])%nat with 8%nat. cbn. lra.
  - intros [z Hz]. rewrite INR_IZR_INZ, <- !mult_IZR in Hz. apply eq_IZR in Hz. lia.
  - exists rx. split; [exact Et|]. split; [exact Er|]. cbn [length Nat.eqb Nat.sub] in L.
    destruct out as [|a [|b [|]]]; try discriminate L.
    pose proof (D 0%nat a eq_refl) as D0. pose proof (D 1%nat b eq_refl) as D1.
    change (Z.odd (1 * Z.of_nat (0 * length [true; false] + 1))) with true in D0, D1.
    cbn [Nat.add length Nat.sub Rsum_n nth] in D0, D1.
    assert (A : a = true) by (apply D0; lra). assert (B : b = false).
    { destruct b; [|reflexivity]. destruct D1 as [D1 _]. specialize (D1 eq_refl). lra. }
    subst. exact Yr.
Qed.

(** Three samples late: one bit is lost whole, the next two decided across the pair boundary. *)
Example C89_dcsk_case (libm : Libm) : let num := NumF libm in
  exists tx, tx_baseband_dcsk (of_list [true; false; true; true]) = Ret tx /\
    yields (rx_baseband_dcsk (iskip 3 tx)) [false; true].
Proof. intros num. exact (C89_dcsk_late_f64 libm _ _ 3 (of_list_yields [true; false; true; true])). Qed.

(** ** Axioms used *)
Print Assumptions C89_bpsk_late.
Print Assumptions C89_bpsk_late_symbols.
Print Assumptions C89_qpsk_late.
Print Assumptions C89_qpsk_late_symbols.
Print Assumptions C89_cdma_bpsk_late.
Print Assumptions C89_cdma_bpsk_late_symbols.
Print Assumptions C89_cdma_qpsk_late_symbols.
Print Assumptions C89_dcsk_late_f64.
Print Assumptions C89_dcsk_late_exact.
