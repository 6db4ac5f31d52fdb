(** Property C79: the passband BPSK and QPSK links in binary64 (src/bpsk.rs, src/qpsk.rs). *)
From Coq Require Import List Arith ZArith Reals Bool Lia Lra Psatz.
From Flocq Require Import Core BinarySingleNaN.
From Verif Require Import Base IterTheory IterModel IterProofs Spec SpecR Tab Num F64Lib LibModel LibFloat LibReal
  ChaosModel ChaosProofs ChaosMod PskModel PskChain PskFloat RSums PskReal FhFloat FloatSum Props_Psk Props_Pass.
Import ListNotations.
Local Open Scope R_scope.

Lemma Rsum_n_dist n f g d : (forall j, (j < n)%nat -> Rabs (f j - g j) <= d) ->
  Rabs (Rsum_n n f - Rsum_n n g) <= INR n * d.
Proof.
  intros H. induction n as [|n IH]; [cbn; rewrite Rminus_0_r, Rabs_R0; lra|].
  rewrite S_INR. cbn [Rsum_n]. specialize (IH ltac:(intros; apply H; lia)). pose proof (H n ltac:(lia)) as Hn.
  replace (Rsum_n n f + f n - (Rsum_n n g + g n)) with ((Rsum_n n f - Rsum_n n g) + (f n - g n)) by ring.
  eapply Rle_trans; [apply Rabs_triang|]. lra.
Qed.

Lemma small_exp e : (e <= -1000)%Z -> bpow radix2 e <= u53.
Proof. intros H. apply bpow_le. lia. Qed.

(** One product of a received sample with a reference sample. *)
Lemma prod_err (r c : F64) A : 1 <= A <= bpow radix2 800 -> fin r = true -> fin c = true ->
  Rabs (val r) <= A -> Rabs (val c) <= 1 ->
  fin (Bmult mode_NE r c) = true /\ Rabs (val (Bmult mode_NE r c) - val r * val c) <= 2 * A * u53 /\
  Rabs (val (Bmult mode_NE r c)) <= 2 * A.
Proof.
  intros HA Fr Fc Br Bc. pose proof u53_pos as U. pose proof u53_small as US. change (IZR (2 ^ 40)) with 1099511627776 in US.
  assert (P : Rabs (val r * val c) <= A).
  { rewrite Rabs_mult. rewrite <- (Rmult_1_r A). apply Rmult_le_compat; try apply Rabs_pos; assumption. }
  destruct (mul_err r c Fr Fc) as [F E].
  { apply Rle_trans with (bpow radix2 800); [lra|]. apply bpow_le. lia. }
  pose proof (small_exp (-1075) ltac:(lia)) as S.
  assert (Rabs (val r * val c) * u53 <= A * u53) by (apply Rmult_le_compat_r; lra).
  assert (u53 * 1 <= u53 * A) by (apply Rmult_le_compat_l; lra).
  assert (E2 : Rabs (val (Bmult mode_NE r c) - val r * val c) <= 2 * A * u53) by lra.
  split; [exact F|]. split; [exact E2|].
  replace (val (Bmult mode_NE r c)) with ((val (Bmult mode_NE r c) - val r * val c) + val r * val c) by ring.
  eapply Rle_trans; [apply Rabs_triang|]. assert (2 * A * u53 <= A) by nra. lra.
Qed.

(** A correlator: n products summed from left to right. *)
Lemma corr_f64 (libm : Libm) n k (r c : nat -> F64) A : let num := NumF libm in
  1 <= A <= bpow radix2 800 -> (Z.of_nat n <= 2 ^ 50)%Z ->
  (forall j, (j < n)%nat -> fin (r (k * n + j)%nat) = true /\ Rabs (val (r (k * n + j)%nat)) <= A) ->
  (forall j, (j < n)%nat -> fin (c (k * n + j)%nat) = true /\ Rabs (val (c (k * n + j)%nat)) <= 1) ->
  let s := corr n k (fun i => nmul (r i) (c i)) in
  fin s = true /\ Rabs (val s - Rsum_n n (fun j => val (r (k * n + j)%nat) * val (c (k * n + j)%nat))) <=
    INR n * (INR n + 4) * (2 * A) * u53.
Proof.
  intros num HA Hn Hr Hc s.
  assert (P : forall j, (j < n)%nat -> fin (Bmult mode_NE (r (k * n + j)%nat) (c (k * n + j)%nat)) = true /\
     Rabs (val (Bmult mode_NE (r (k * n + j)%nat) (c (k * n + j)%nat)) - val (r (k * n + j)%nat) * val (c (k * n + j)%nat)) <= 2 * A * u53 /\
     Rabs (val (Bmult mode_NE (r (k * n + j)%nat) (c (k * n + j)%nat))) <= 2 * A).
  { intros j Hj. destruct (Hr j Hj), (Hc j Hj). apply prod_err; assumption. }
  destruct (sum_err (fun j => Bmult mode_NE (r (k * n + j)%nat) (c (k * n + j)%nat)) (2 * A)) with (n := n) as (F & E & _).
  - split.
    + apply Rle_trans with 1; [|lra]. change 1 with (bpow radix2 0). apply bpow_le. lia.
    + apply Rle_trans with (bpow radix2 1 * bpow radix2 800); [change (bpow radix2 1) with 2; lra|].
      rewrite <- bpow_plus. apply bpow_le. lia.
  - exact Hn.
  - intros j Hj. destruct (P j Hj) as (P1 & _ & P3). auto.
  - split; [exact F|].
    change (val s) with (val (fold_left (Bplus mode_NE) (tab n (fun j => Bmult mode_NE (r (k * n + j)%nat) (c (k * n + j)%nat))) (f64_ofZ 0))).
    cbv beta in E. match type of E with Rabs (?y - _) <= _ => match goal with |- Rabs (?x - _) <= _ => change x with y; set (t := y) in * end end.
    assert (D : Rabs (Rsum_n n (fun j => val (Bmult mode_NE (r (k * n + j)%nat) (c (k * n + j)%nat))) -
                Rsum_n n (fun j => val (r (k * n + j)%nat) * val (c (k * n + j)%nat))) <= INR n * (2 * A * u53)).
    { apply Rsum_n_dist. intros j Hj. apply P. exact Hj. }
    match type of D with Rabs (?x - ?y) <= _ => set (X := x) in *; set (Y := y) in * end.
    replace (t - Y) with ((t - X) + (X - Y)) by ring. eapply Rle_trans; [apply Rabs_triang|]. lra.
Qed.

(** The receivers on any finite signal: away from 0 by the rounding slack, the exact correlation decides. *)
Theorem C79_qpsk_receiver_f64 :
  forall (libm : Libm) (signal : Iter F64) l (sample_rate symbol_rate pairs : nat) (fc : F64) (A : R),
    let num := NumF libm in
    let phase i := (nofZ 2 * npi * fc * (nofnat i / nofnat sample_rate))%num in
    let c i := B2R (libm_cos libm (phase i)) in
    let s i := B2R (libm_sin libm (phase i)) in
    let sps := (sample_rate / symbol_rate)%nat in
    yields signal l -> (1 <= symbol_rate <= sample_rate)%nat -> (Z.of_nat sps <= 2 ^ 50)%Z ->
    length l = (pairs * sps)%nat -> 1 <= A <= bpow radix2 800 ->
    (forall x, In x l -> is_finite x = true /\ Rabs (B2R x) <= A) ->
    (forall i, (i < pairs * sps)%nat ->
       is_finite (libm_cos libm (phase i)) = true /\ Rabs (c i) <= 1 /\
       is_finite (libm_sin libm (phase i)) = true /\ Rabs (s i) <= 1) ->
    exists rx out, rx_qpsk_signal signal sample_rate symbol_rate fc = Ret rx /\ yields rx out /\
      length out = (2 * pairs)%nat /\
      forall k, (k < pairs)%nat ->
        let x i := B2R (nth i l (nofZ 0)) in
        let first := Rsum_n sps (fun j => x (k * sps + j)%nat * c (k * sps + j)%nat) in
        let second := - Rsum_n sps (fun j => x (k * sps + j)%nat * s (k * sps + j)%nat) in
        let slack := INR sps * (INR sps + 4) * (2 * A) * bpow radix2 (-53) in
        (slack <= first -> nth_error out (2 * k) = Some true) /\
        (first < - slack -> nth_error out (2 * k) = Some false) /\
        (slack <= second -> nth_error out (2 * k + 1) = Some true) /\
        (second < - slack -> nth_error out (2 * k + 1) = Some false).
Proof.
  intros libm signal l sr sy K fc A num phase c s sps Hl Hr Hn HL HA Hx Hc.
  assert (Hn1 : (1 <= sr / sy)%nat) by (apply Nat.div_le_lower_bound; lia). fold sps in Hn1.
  destruct (rx_qpsk_intro signal sr sy fc ltac:(lia) Hn1) as (rx & Er & Yr). fold sps in Yr.
  specialize (Yr K (fun i => nth i l (nofZ 0))).
  rewrite <- (tab_nth_id l (nofZ 0)), HL in Hl. specialize (Yr Hl).
  exists rx. eexists. split; [exact Er|]. split; [exact Yr|].
  match goal with |- context [flat_map (fun s => [@?f s; @?g s]) (seq 0 ?n)] => destruct (flat_map_pairs f g n 0) as [FL FN] end.
  cbv beta in FL, FN. split; [exact FL|].
  intros k Hk x first second slack. destruct (FN k Hk) as [N1 N2]. rewrite N1, N2. clear FL FN N1 N2 Yr. cbn [Nat.add].
  assert (I : forall j, (j < sps)%nat -> (k * sps + j < K * sps)%nat) by (intros; nia).
  assert (R : forall j, (j < sps)%nat -> fin (nth (k * sps + j) l (nofZ 0)) = true /\ Rabs (val (nth (k * sps + j) l (nofZ 0))) <= A).
  { intros j Hj. apply Hx. apply nth_In. rewrite HL. apply I. exact Hj. }
  destruct (corr_f64 libm sps k (fun i => nth i l (nofZ 0)) (fun i => libm_cos libm (phase i)) A HA Hn R) as [F1 E1].
  { intros j Hj. destruct (Hc _ (I j Hj)) as (? & ? & _). auto. }
  destruct (corr_f64 libm sps k (fun i => nth i l (nofZ 0)) (fun i => Bopp (libm_sin libm (phase i))) A HA Hn R) as [F2 E2].
  { intros j Hj. destruct (Hc _ (I j Hj)) as (_ & _ & F & B). split; [unfold fin; rewrite is_finite_Bopp; exact F|].
    unfold val. rewrite B2R_Bopp, Rabs_Ropp. exact B. }
  change (corr sps k (fun i => nmul (nth i l (nofZ 0)) (ccos sr fc i))) with
    (corr sps k (fun i => nmul (nth i l (nofZ 0)) (libm_cos libm (phase i)))).
  change (corr sps k (fun i => nmul (nth i l (nofZ 0)) (nopp (csin sr fc i)))) with
    (corr sps k (fun i => nmul (nth i l (nofZ 0)) (Bopp (libm_sin libm (phase i))))).
  set (v1 := corr sps k (fun i => nmul (nth i l (nofZ 0)) (libm_cos libm (phase i)))) in *.
  set (v2 := corr sps k (fun i => nmul (nth i l (nofZ 0)) (Bopp (libm_sin libm (phase i))))) in *.
  cbv beta in E1, E2. change (Rsum_n sps (fun j => val (nth (k * sps + j) l (nofZ 0)) * val (libm_cos libm (phase (k * sps + j)%nat)))) with first in E1.
  replace (Rsum_n sps (fun j => val (nth (k * sps + j) l (nofZ 0)) * val (Bopp (libm_sin libm (phase (k * sps + j)%nat))))) with second in E2.
  2:{ unfold second. rewrite <- (Rmult_1_l (Rsum_n _ _)), Ropp_mult_distr_l, <- Rsum_n_scale. apply Rsum_n_ext. intros j _.
      unfold val at 2. rewrite B2R_Bopp. unfold x, s. change (val (nth (k * sps + j) l (nofZ 0))) with (B2R (nth (k * sps + j) l (nofZ 0))). ring. }
  change (bpow radix2 (-53)) with u53 in slack. fold slack in E1, E2.
  apply Rabs_le_inv in E1. apply Rabs_le_inv in E2.
  destruct val_0 as [V0 F0].
  assert (D1 : forall v, fin v = true -> 0 <= val v -> nleb (nofZ 0) v = true).
  { intros v Fv Hv. apply (leb_val (f64_ofZ 0) v F0 Fv). rewrite V0. exact Hv. }
  assert (D2 : forall v, fin v = true -> val v < 0 -> nleb (nofZ 0) v = false).
  { intros v Fv Hv. destruct (nleb (nofZ 0) v) eqn:E; [|reflexivity]. apply (leb_val (f64_ofZ 0) v F0 Fv) in E. rewrite V0 in E. lra. }
  split; [|split; [|split]]; intros H; f_equal; first [apply D1; [assumption|lra] | apply D2; [assumption|lra]].
Qed.

(** ** The links *)

Lemma nrz_mul libm b (c : F64) : let num := NumF libm in fin c = true ->
  fin (nmul (bit_to_nrz b) c) = true /\ val (nmul (bit_to_nrz b) c) = (if b then 1 else -1) * val c.
Proof.
  intros num Fc. destruct b.
  - change (nmul (bit_to_nrz true) c) with (Bmult mode_NE (f64_ofZ 1) c). rewrite one_mul. split; [exact Fc|ring].
  - change (nmul (bit_to_nrz false) c) with (Bmult mode_NE (Bopp (f64_ofZ 1)) c). rewrite mul_m1.
    split; [unfold fin; rewrite is_finite_Bopp; exact Fc|]. unfold val. rewrite B2R_Bopp. ring.
Qed.
Lemma neg_nrz_mul libm b (c : F64) : let num := NumF libm in fin c = true ->
  fin (nmul (nopp (bit_to_nrz b)) c) = true /\ val (nmul (nopp (bit_to_nrz b)) c) = - (if b then 1 else -1) * val c.
Proof.
  intros num Fc. destruct b.
  - change (nmul (nopp (bit_to_nrz true)) c) with (Bmult mode_NE (Bopp (f64_ofZ 1)) c). rewrite mul_m1.
    split; [unfold fin; rewrite is_finite_Bopp; exact Fc|]. unfold val. rewrite B2R_Bopp. ring.
  - change (nmul (nopp (bit_to_nrz false)) c) with (Bmult mode_NE (Bopp (Bopp (f64_ofZ 1))) c).
    rewrite Bopp_involutive, one_mul. split; [exact Fc|ring].
Qed.

Lemma bpow_700_1000 x : Rabs x <= 8 + 8 * bpow radix2 700 -> Rabs x <= bpow radix2 1000.
Proof.
  intros H. eapply Rle_trans; [exact H|].
  assert (1 <= bpow radix2 700) by (change 1 with (bpow radix2 0); apply bpow_le; lia).
  apply Rle_trans with (bpow radix2 (4 + 700)); [|apply bpow_le; lia].
  rewrite bpow_plus. change (bpow radix2 4) with 16. lra.
Qed.

(** One transmitted QPSK sample. *)
Lemma qpsk_sample_err libm b1 b2 (c s : F64) : let num := NumF libm in
  fin c = true -> Rabs (val c) <= 1 -> fin s = true -> Rabs (val s) <= 1 ->
  let w := nadd (nmul (bit_to_nrz b1) c) (nmul (nopp (bit_to_nrz b2)) s) in
  fin w = true /\ Rabs (val w) <= 3 /\
  Rabs (val w - ((if b1 then 1 else -1) * val c - (if b2 then 1 else -1) * val s)) <= 3 * u53.
Proof.
  intros num Fc Bc Fs Bs w. pose proof u53_pos as U. pose proof u53_small as US. change (IZR (2 ^ 40)) with 1099511627776 in US.
  destruct (nrz_mul libm b1 c Fc) as [F1 V1]. destruct (neg_nrz_mul libm b2 s Fs) as [F2 V2]. fold num in F1, V1, F2, V2.
  assert (B : Rabs (val (nmul (bit_to_nrz b1) c) + val (nmul (nopp (bit_to_nrz b2)) s)) <= 2).
  { rewrite V1, V2. apply Rabs_le_inv in Bc. apply Rabs_le_inv in Bs. apply Rabs_le. destruct b1, b2; lra. }
  destruct (add_err _ _ F1 F2) as [F E].
  { apply Rle_trans with 2; [exact B|]. change 2 with (bpow radix2 1). apply bpow_le. lia. }
  pose proof (small_exp (-1075) ltac:(lia)) as S.
  change (Bplus mode_NE (nmul (bit_to_nrz b1) c) (nmul (nopp (bit_to_nrz b2)) s)) with w in F, E.
  rewrite V1, V2 in E, B.
  replace ((if b1 then 1 else -1) * val c - (if b2 then 1 else -1) * val s)
    with ((if b1 then 1 else -1) * val c + - (if b2 then 1 else -1) * val s) by ring.
  set (e := (if b1 then 1 else -1) * val c + - (if b2 then 1 else -1) * val s) in *.
  assert (Rabs e * u53 <= 2 * u53) by (apply Rmult_le_compat_r; lra).
  split; [exact F|]. split; [|lra].
  replace (val w) with ((val w - e) + e) by ring. eapply Rle_trans; [apply Rabs_triang|]. lra.
Qed.

(** One sample through a channel adding noise. *)
Lemma channel_err (w z : F64) Z : 0 <= Z <= bpow radix2 700 -> fin w = true -> Rabs (val w) <= 3 ->
  fin z = true -> Rabs (val z) <= Z ->
  let r := Bplus mode_NE w z in
  fin r = true /\ Rabs (val r) <= 4 + 2 * Z /\ Rabs (val r - (val w + val z)) <= (4 + Z) * u53.
Proof.
  intros HZ Fw Bw Fz Bz r. pose proof u53_pos as U. pose proof u53_small as US. change (IZR (2 ^ 40)) with 1099511627776 in US.
  assert (B : Rabs (val w + val z) <= 3 + Z) by (eapply Rle_trans; [apply Rabs_triang|]; lra).
  destruct (add_err w z Fw Fz) as [F E]; [apply bpow_700_1000; lra|]. fold r in F, E.
  pose proof (small_exp (-1075) ltac:(lia)) as S.
  assert (Rabs (val w + val z) * u53 <= (3 + Z) * u53) by (apply Rmult_le_compat_r; lra).
  split; [exact F|]. split; [|lra].
  replace (val r) with ((val r - (val w + val z)) + (val w + val z)) by ring. eapply Rle_trans; [apply Rabs_triang|].
  assert (Z * u53 <= Z * (1 / 2)) by (apply Rmult_le_compat_l; lra). lra.
Qed.

Lemma qpsk_link_f64 (libm : Libm) (signal : Iter F64) l (m : list bool) (sr sy : nat) (fc : F64) (z : nat -> R) (Z : R) :
    let num := NumF libm in
    let phase i := (nofZ 2 * npi * fc * (nofnat i / nofnat sr))%num in
    let c i := B2R (libm_cos libm (phase i)) in
    let s i := B2R (libm_sin libm (phase i)) in
    let sps := (sr / sy)%nat in
    yields signal l -> (1 <= sy <= sr)%nat -> (Z.of_nat sps <= 2 ^ 50)%Z ->
    length l = (length m / 2 * sps)%nat -> 0 <= Z <= bpow radix2 700 ->
    (forall k b1 b2 j, nth_error (pairs m) k = Some (b1, b2) -> (j < sps)%nat ->
       let i := (k * sps + j)%nat in let r := nth i l (nofZ 0) in
       fin r = true /\ Rabs (val r) <= 4 + 2 * Z /\
       Rabs (val r - ((if b1 then 1 else -1) * c i - (if b2 then 1 else -1) * s i + z i)) <= (7 + Z) * u53) ->
    (forall i, (i < length m / 2 * sps)%nat ->
       is_finite (libm_cos libm (phase i)) = true /\ Rabs (c i) <= 1 /\
       is_finite (libm_sin libm (phase i)) = true /\ Rabs (s i) <= 1) ->
    (forall k, (k < length m / 2)%nat ->
       let sum f := Rsum_n sps (fun j => f (k * sps + j)%nat) in
       let leak := Rabs (sum (fun i => s i * c i)) in
       let slack := INR sps * (INR sps + 5) * (8 + 4 * Z) * bpow radix2 (-53) in
       leak + Rabs (sum (fun i => z i * c i)) + slack < sum (fun i => c i * c i) /\
       leak + Rabs (sum (fun i => z i * s i)) + slack < sum (fun i => s i * s i)) ->
    exists rx, rx_qpsk_signal signal sr sy fc = Ret rx /\ yields rx (firstn (2 * (length m / 2)) m).
Proof.
  intros num phase c s sps Hl Hr Hn HL HZ HR Hc HE. pose proof u53_pos as U.
  pose proof (Nat.mul_div_le (length m) 2 ltac:(lia)) as M2.
  assert (HP : forall k, (k < length m / 2)%nat -> exists b1 b2, nth_error m (2 * k) = Some b1 /\ nth_error m (2 * k + 1) = Some b2 /\
     nth_error (pairs m) k = Some (b1, b2)).
  { intros k Hk. destruct (nth_error m (2 * k)) as [b1|] eqn:E1; [|apply nth_error_None in E1; lia].
    destruct (nth_error m (2 * k + 1)) as [b2|] eqn:E2; [|apply nth_error_None in E2; lia].
    exists b1, b2. split; [reflexivity|]. split; [reflexivity|]. apply (pairs_nth (length m)); auto. }
  assert (Hsps : (1 <= sps)%nat) by (apply Nat.div_le_lower_bound; lia).
  destruct (C79_qpsk_receiver_f64 libm signal l sr sy (length m / 2) fc (4 + 2 * Z) Hl Hr Hn HL) as (rx & out & Er & Yr & L & D).
  - split; [lra|]. apply Rle_trans with (bpow radix2 (3 + 700)); [|apply bpow_le; lia]. rewrite bpow_plus. change (bpow radix2 3) with 8.
    assert (1 <= bpow radix2 700) by (change 1 with (bpow radix2 0); apply bpow_le; lia). lra.
  - intros x Hx. apply (In_nth _ _ (nofZ 0)) in Hx. destruct Hx as (i & Hi & <-). rewrite HL in Hi.
    assert (Hk : (i / sps < length m / 2)%nat) by (apply Nat.div_lt_upper_bound; lia).
    destruct (HP _ Hk) as (b1 & b2 & _ & _ & E). pose proof (Nat.mod_upper_bound i sps ltac:(lia)) as HM.
    destruct (HR _ _ _ _ E HM) as (F & B & _). pose proof (Nat.div_mod_eq i sps) as DM.
    replace (i / sps * sps + i mod sps)%nat with i in F, B by lia. auto.
  - exact Hc.
  - exists rx. split; [exact Er|]. replace (firstn (2 * (length m / 2)) m) with out; [exact Yr|].
    apply nth_error_inj. intros i. destruct (Nat.lt_ge_cases i (2 * (length m / 2))) as [Hi|Hi].
    2:{ transitivity (@None bool); [|symmetry]; apply nth_error_None; [lia|]. rewrite firstn_length. lia. }
    rewrite nth_error_firstn by exact Hi.
    pose proof (Nat.div_mod_eq i 2) as DM. pose proof (Nat.mod_upper_bound i 2 ltac:(lia)) as MB.
    set (k := (i / 2)%nat) in *. assert (Hk : (k < length m / 2)%nat) by lia.
    destruct (HP k Hk) as (b1 & b2 & E1 & E2 & E12). specialize (D k Hk). cbv zeta in D. fold sps in D.
    specialize (HE k Hk). cbv zeta beta in HE.
    assert (I : forall j, (j < sps)%nat -> (k * sps + j < length m / 2 * sps)%nat) by (intros; nia).
    set (g1 := if b1 then 1 else -1). set (g2 := if b2 then 1 else -1).
    assert (X1 : Rabs (Rsum_n sps (fun j => B2R (nth (k * sps + j) l (nofZ 0)) * c (k * sps + j)%nat) -
       (g1 * Rsum_n sps (fun j => c (k * sps + j)%nat * c (k * sps + j)%nat) - g2 * Rsum_n sps (fun j => s (k * sps + j)%nat * c (k * sps + j)%nat) +
        Rsum_n sps (fun j => z (k * sps + j)%nat * c (k * sps + j)%nat))) <= INR sps * ((7 + Z) * u53)).
    { replace (g1 * Rsum_n sps _ - g2 * Rsum_n sps _ + _) with
        (Rsum_n sps (fun j => (g1 * c (k * sps + j)%nat - g2 * s (k * sps + j)%nat + z (k * sps + j)%nat) * c (k * sps + j)%nat)).
      2:{ unfold Rminus. rewrite Ropp_mult_distr_l, <- !Rsum_n_scale, <- !Rsum_n_plus. apply Rsum_n_ext. intros; ring. }
      apply Rsum_n_dist. intros j Hj. destruct (HR k b1 b2 j E12 Hj) as (_ & _ & HD). destruct (Hc _ (I j Hj)) as (_ & Bc & _).
      rewrite <- Rmult_minus_distr_r, Rabs_mult. rewrite <- (Rmult_1_r ((7 + Z) * u53)).
      apply Rmult_le_compat; [apply Rabs_pos|apply Rabs_pos|exact HD|exact Bc]. }
    assert (X2 : Rabs (- Rsum_n sps (fun j => B2R (nth (k * sps + j) l (nofZ 0)) * s (k * sps + j)%nat) -
       (g2 * Rsum_n sps (fun j => s (k * sps + j)%nat * s (k * sps + j)%nat) - g1 * Rsum_n sps (fun j => s (k * sps + j)%nat * c (k * sps + j)%nat) -
        Rsum_n sps (fun j => z (k * sps + j)%nat * s (k * sps + j)%nat))) <= INR sps * ((7 + Z) * u53)).
    { rewrite <- Rabs_Ropp. replace (- (- _ - _)) with (Rsum_n sps (fun j => B2R (nth (k * sps + j) l (nofZ 0)) * s (k * sps + j)%nat) -
        Rsum_n sps (fun j => (g1 * c (k * sps + j)%nat - g2 * s (k * sps + j)%nat + z (k * sps + j)%nat) * s (k * sps + j)%nat)).
      2:{ rewrite (Rsum_n_ext sps (fun j => (g1 * _ - _ + _) * _) (fun j => (g1 * (s (k * sps + j)%nat * c (k * sps + j)%nat) +
            (- g2) * (s (k * sps + j)%nat * s (k * sps + j)%nat)) + z (k * sps + j)%nat * s (k * sps + j)%nat)) by (intros; ring).
          rewrite !Rsum_n_plus, !Rsum_n_scale. ring. }
      apply Rsum_n_dist. intros j Hj. destruct (HR k b1 b2 j E12 Hj) as (_ & _ & HD). destruct (Hc _ (I j Hj)) as (_ & _ & _ & Bs).
      rewrite <- Rmult_minus_distr_r, Rabs_mult. rewrite <- (Rmult_1_r ((7 + Z) * u53)).
      apply Rmult_le_compat; [apply Rabs_pos|apply Rabs_pos|exact HD|exact Bs]. }
    unfold c, s in X1, X2, HE. unfold phase in X1, X2, HE. fold num in D.
    match type of X1 with Rabs (?a - (_ * ?b - _ * ?d + ?e)) <= _ => set (F1 := a) in *; set (CC := b) in *; set (SC := d) in *; set (ZC := e) in * end.
    match type of X2 with Rabs (?a - (_ * ?b - _ * _ - ?e)) <= _ => set (F2 := a) in *; set (SS := b) in *; set (ZS := e) in * end.
    set (n := INR sps) in *. assert (Hn0 : 0 <= n) by apply pos_INR.
    assert (Sl : n * ((7 + Z) * u53) + n * (n + 4) * (2 * (4 + 2 * Z)) * u53 <= n * (n + 5) * (8 + 4 * Z) * u53).
    { replace (n * (n + 5) * (8 + 4 * Z) * u53) with (n * (n + 4) * (2 * (4 + 2 * Z)) * u53 + n * ((8 + 4 * Z) * u53)) by ring.
      assert (n * ((7 + Z) * u53) <= n * ((8 + 4 * Z) * u53)); [|lra].
      apply Rmult_le_compat_l; [exact Hn0|]. apply Rmult_le_compat_r; lra. }
    change (bpow radix2 (-53)) with u53 in D, HE.
    set (sl := n * (n + 4) * (2 * (4 + 2 * Z)) * u53) in *. set (sl2 := n * (n + 5) * (8 + 4 * Z) * u53) in *. set (sd := n * ((7 + Z) * u53)) in *.
    clearbody sl sl2 sd. apply Rabs_le_inv in X1. apply Rabs_le_inv in X2. destruct HE as [HE1 HE2].
    pose proof (Rle_abs SC). pose proof (Rle_abs (- SC)) as A1. rewrite Rabs_Ropp in A1.
    pose proof (Rle_abs ZC). pose proof (Rle_abs (- ZC)) as A2. rewrite Rabs_Ropp in A2.
    pose proof (Rle_abs ZS). pose proof (Rle_abs (- ZS)) as A3. rewrite Rabs_Ropp in A3.
    destruct D as (D1 & D2 & D3 & D4).
    destruct (Nat.eq_dec (i mod 2) 0) as [Z0|Z0].
    + replace i with (2 * k)%nat by lia. rewrite E1. unfold g1, g2 in X1. destruct b1; [apply D1|apply D2]; destruct b2; lra.
    + replace i with (2 * k + 1)%nat by lia. rewrite E2. unfold g1, g2 in X2. destruct b2; [apply D3|apply D4]; destruct b1; lra.
Qed.

(** The sums a QPSK receiver forms, computed exactly from the carrier samples the library actually uses.
    If they leave room for the rounding slack, the message comes back. *)
Theorem C79_qpsk_round_trip_f64 :
  forall (libm : Libm) (message : Iter bool) m (sample_rate symbol_rate : nat) (fc : F64),
    let num := NumF libm in
    let phase i := (nofZ 2 * npi * fc * (nofnat i / nofnat sample_rate))%num in
    let c i := B2R (libm_cos libm (phase i)) in
    let s i := B2R (libm_sin libm (phase i)) in
    let sps := (sample_rate / symbol_rate)%nat in
    yields message m -> (1 <= symbol_rate <= sample_rate)%nat -> (Z.of_nat sps <= 2 ^ 50)%Z ->
    (forall i, (i < length m / 2 * sps)%nat ->
       is_finite (libm_cos libm (phase i)) = true /\ Rabs (c i) <= 1 /\
       is_finite (libm_sin libm (phase i)) = true /\ Rabs (s i) <= 1) ->
    (forall k, (k < length m / 2)%nat ->
       let sum f := Rsum_n sps (fun j => f (k * sps + j)%nat) in
       let leak := Rabs (sum (fun i => s i * c i)) in
       let slack := INR sps * (INR sps + 5) * 8 * bpow radix2 (-53) in
       leak + slack < sum (fun i => c i * c i) /\ leak + slack < sum (fun i => s i * s i)) ->
    exists tx rx, tx_qpsk_signal message sample_rate symbol_rate fc = Ret tx /\
      rx_qpsk_signal tx sample_rate symbol_rate fc = Ret rx /\ yields rx (firstn (2 * (length m / 2)) m).
Proof.
  intros libm message m sr sy fc num phase c s sps Hm Hr Hn Hc HE. pose proof u53_pos as U.
  assert (Hn1 : (1 <= sr / sy)%nat) by (apply Nat.div_le_lower_bound; lia).
  destruct (tx_qpsk_inv message sr sy fc ltac:(lia) Hn1) as (tx & Et & Yt). exists tx.
  specialize (Yt m Hm). unfold qpsk_wave in Yt. rewrite (pairs_length (length m) m eq_refl) in Yt. fold sps in Yt.
  destruct (qpsk_link_f64 libm tx _ m sr sy fc (fun _ => 0) 0 Yt Hr Hn) as (rx & Er & Yr).
  - apply tab_length.
  - split; [lra|]. apply bpow_ge_0.
  - intros k b1 b2 j E Hj.
    assert (Hk : (k < length m / 2)%nat) by (rewrite <- (pairs_length (length m) m eq_refl); apply nth_error_Some; congruence).
    assert (I : (k * sps + j < length m / 2 * sps)%nat) by (fold sps in Hj; nia).
    fold sps. cbv zeta. rewrite tab_nth by exact I. rewrite block_div by exact Hj.
    rewrite (nth_error_nth _ _ (false, false) E).
    destruct (Hc _ I) as (F1 & B1 & F2 & B2).
    destruct (qpsk_sample_err libm b1 b2 _ _ F1 B1 F2 B2) as (F & B & D). fold num in F, B, D.
    split; [exact F|]. split; [eapply Rle_trans; [exact B|lra]|].
    rewrite Rplus_0_r. eapply Rle_trans; [exact D|]. lra.
  - exact Hc.
  - intros k Hk. specialize (HE k Hk). cbv zeta beta in HE |- *. fold sps.
    rewrite !(Rsum_n_0 sps (fun j => 0 * _)) by (intros; ring). rewrite Rabs_R0.
    replace (8 + 4 * 0) with 8 by ring. rewrite Rplus_0_r. exact HE.
  - exists rx. auto.
Qed.

(** The same with noise of amplitude at most Z added on the way. *)
Theorem C79_qpsk_noise_f64 :
  forall (libm : Libm) (message : Iter bool) m (sample_rate symbol_rate : nat) (fc : F64) (noise : list F64) (Z : R),
    let num := NumF libm in
    let phase i := (nofZ 2 * npi * fc * (nofnat i / nofnat sample_rate))%num in
    let c i := B2R (libm_cos libm (phase i)) in
    let s i := B2R (libm_sin libm (phase i)) in
    let z i := B2R (nth i noise (nofZ 0)) in
    let sps := (sample_rate / symbol_rate)%nat in
    yields message m -> (1 <= symbol_rate <= sample_rate)%nat -> (Z.of_nat sps <= 2 ^ 50)%Z ->
    length noise = (length m / 2 * sps)%nat -> 0 <= Z <= bpow radix2 700 ->
    (forall x, In x noise -> is_finite x = true /\ Rabs (B2R x) <= Z) ->
    (forall i, (i < length m / 2 * sps)%nat ->
       is_finite (libm_cos libm (phase i)) = true /\ Rabs (c i) <= 1 /\
       is_finite (libm_sin libm (phase i)) = true /\ Rabs (s i) <= 1) ->
    (forall k, (k < length m / 2)%nat ->
       let sum f := Rsum_n sps (fun j => f (k * sps + j)%nat) in
       let leak := Rabs (sum (fun i => s i * c i)) in
       let slack := INR sps * (INR sps + 5) * (8 + 4 * Z) * bpow radix2 (-53) in
       leak + Rabs (sum (fun i => z i * c i)) + slack < sum (fun i => c i * c i) /\
       leak + Rabs (sum (fun i => z i * s i)) + slack < sum (fun i => s i * s i)) ->
    exists tx rx, tx_qpsk_signal message sample_rate symbol_rate fc = Ret tx /\
      rx_qpsk_signal (noisy tx noise) sample_rate symbol_rate fc = Ret rx /\
      yields rx (firstn (2 * (length m / 2)) m).
Proof.
  intros libm message m sr sy fc noise Z num phase c s z sps Hm Hr Hn HL HZ HN Hc HE. pose proof u53_pos as U.
  assert (Hn1 : (1 <= sr / sy)%nat) by (apply Nat.div_le_lower_bound; lia).
  destruct (tx_qpsk_inv message sr sy fc ltac:(lia) Hn1) as (tx & Et & Yt). exists tx.
  specialize (Yt m Hm). unfold qpsk_wave in Yt. rewrite (pairs_length (length m) m eq_refl) in Yt. fold sps in Yt.
  pose proof (noisy_yields tx noise _ _ (nofZ 0) Yt HL) as Y2.
  destruct (qpsk_link_f64 libm (noisy tx noise) _ m sr sy fc z Z Y2 Hr Hn) as (rx & Er & Yr).
  - apply tab_length.
  - exact HZ.
  - intros k b1 b2 j E Hj.
    assert (Hk : (k < length m / 2)%nat) by (rewrite <- (pairs_length (length m) m eq_refl); apply nth_error_Some; congruence).
    assert (I : (k * sps + j < length m / 2 * sps)%nat) by (fold sps in Hj; nia).
    fold sps. cbv zeta. rewrite tab_nth by exact I. rewrite block_div by exact Hj.
    rewrite (nth_error_nth _ _ (false, false) E).
    destruct (Hc _ I) as (F1 & B1 & F2 & B2).
    destruct (qpsk_sample_err libm b1 b2 _ _ F1 B1 F2 B2) as (F & B & D). fold num in F, B, D.
    destruct (HN (nth (k * sps + j) noise (nofZ 0))) as [FZ BZ]; [apply nth_In; rewrite HL; exact I|].
    destruct (channel_err _ _ Z HZ F B FZ BZ) as (FR & BR & DR).
    split; [exact FR|]. split; [exact BR|].
    unfold z, c, s, phase. change (ccos sr fc (k * sps + j)%nat) with (libm_cos libm (phase (k * sps + j)%nat)) in *.
    change (csin sr fc (k * sps + j)%nat) with (libm_sin libm (phase (k * sps + j)%nat)) in *.
    set (w := nadd (nmul (bit_to_nrz b1) (libm_cos libm (phase (k * sps + j)%nat))) _) in *.
    set (zz := nth (k * sps + j) noise (nofZ 0)) in *. change (nadd w zz) with (Bplus mode_NE w zz).
    set (r := Bplus mode_NE w zz) in *. fold (val zz) (val r).
    set (e := (if b1 then 1 else -1) * B2R _ - (if b2 then 1 else -1) * B2R _) in *.
    change (Rabs (val w - e) <= 3 * u53) in D.
    replace (val r - (e + val zz)) with ((val r - (val w + val zz)) + (val w - e)) by ring.
    eapply Rle_trans; [apply Rabs_triang|]. lra.
  - exact Hc.
  - exact HE.
  - exists rx. auto.
Qed.

(** ** The usual designs *)

(** A sine and cosine that are right to 1/64 on [-B, B], and never outside [-1, 1]. *)
Definition libm_within (libm : Libm) (B : R) : Prop :=
  forall x, is_finite x = true -> Rabs (B2R x) <= B ->
    (is_finite (libm_cos libm x) = true /\ Rabs (B2R (libm_cos libm x)) <= 1 /\
     Rabs (B2R (libm_cos libm x) - cos (B2R x)) <= 1 / 64) /\
    (is_finite (libm_sin libm x) = true /\ Rabs (B2R (libm_sin libm x)) <= 1 /\
     Rabs (B2R (libm_sin libm x) - sin (B2R x)) <= 1 / 64).

Lemma design_carrier (libm : Libm) (fc : F64) (sr N i : nat) :
  let num := NumF libm in
  let phase := (nofZ 2 * npi * fc * (nofnat i / nofnat sr))%num in
  let exact := 2 * PI * B2R fc * (INR i / INR sr) in
  libm_within libm (bpow radix2 45) -> is_finite fc = true -> 1 / 2 <= Rabs (B2R fc) ->
  (1 <= sr)%nat -> (Z.of_nat sr < 2 ^ 53)%Z -> (Z.of_nat N < 2 ^ 53)%Z -> (i < N)%nat ->
  2 * PI * Rabs (B2R fc) * (INR N / INR sr) <= bpow radix2 44 ->
  (is_finite (libm_cos libm phase) = true /\ Rabs (B2R (libm_cos libm phase)) <= 1 /\
   is_finite (libm_sin libm phase) = true /\ Rabs (B2R (libm_sin libm phase)) <= 1) /\
  Rabs (B2R (libm_cos libm phase) - cos exact) <= 1 / 32 /\ Rabs (B2R (libm_sin libm phase) - sin exact) <= 1 / 32.
Proof.
  intros num phase exact Hlm Ff Bf Hs Hs2 HN Hi Hph.
  pose proof PI_3 as P3. pose proof u53_pos as U.
  assert (Hsr : 1 <= INR sr) by (change 1 with (INR 1); apply le_INR; lia).
  assert (HN1 : 1 <= INR N) by (change 1 with (INR 1); apply le_INR; lia).
  assert (Isr : INR sr <= bpow radix2 53).
  { rewrite INR_IZR_INZ. change (bpow radix2 53) with (IZR (2 ^ 53)). apply IZR_le. lia. }
  assert (Bf2 : Rabs (val fc) <= bpow radix2 500).
  { assert (Q : u53 <= INR N / INR sr).
    { change u53 with (bpow radix2 (- (53))). rewrite bpow_opp. apply Rle_trans with (/ INR sr).
      - apply Rinv_le; lra.
      - rewrite <- (Rmult_1_l (/ INR sr)). apply Rmult_le_compat_r; [left; apply Rinv_0_lt_compat; lra|exact HN1]. }
    apply Rle_trans with (bpow radix2 (44 + 53)); [|apply bpow_le; lia].
    rewrite bpow_plus. apply Rmult_le_reg_r with u53; [exact U|].
    rewrite Rmult_assoc, <- bpow_plus. change (bpow radix2 (53 + -53)) with 1. rewrite Rmult_1_r.
    eapply Rle_trans; [|exact Hph]. apply Rmult_le_compat; [apply Rabs_pos|lra| |exact Q].
    pose proof (Rabs_pos (B2R fc)). change (Rabs (val fc)) with (Rabs (B2R fc)). nra. }
  destruct (phase_err fc sr i Ff (conj Bf Bf2) Hs Hs2 ltac:(lia)) as [Fp Ep].
  change (fin phase = true) in Fp. change (Rabs (val phase - exact) <= Rabs exact * (8 * u53)) in Ep.
  assert (Be : Rabs exact <= bpow radix2 44).
  { eapply Rle_trans; [|exact Hph]. unfold exact. assert (Iq : 0 <= INR i / INR sr).
    { apply Rmult_le_pos; [apply pos_INR|left; apply Rinv_0_lt_compat; lra]. }
    rewrite !Rabs_mult, (Rabs_pos_eq 2), (Rabs_pos_eq PI), (Rabs_pos_eq (INR i / INR sr)) by lra.
    apply Rmult_le_compat_l; [pose proof (Rabs_pos (B2R fc)); nra|].
    apply Rmult_le_compat_r; [left; apply Rinv_0_lt_compat; lra|]. apply le_INR. lia. }
  assert (Ee : Rabs (val phase - exact) <= 1 / 64).
  { eapply Rle_trans; [exact Ep|]. apply Rle_trans with (bpow radix2 44 * (8 * u53)).
    - apply Rmult_le_compat_r; lra.
    - replace (bpow radix2 44 * (8 * u53)) with (8 * (bpow radix2 44 * u53)) by ring. rewrite <- bpow_plus.
      change (bpow radix2 (44 + -53)) with (/ 512). lra. }
  assert (Bp : Rabs (B2R phase) <= bpow radix2 45).
  { change 45%Z with (44 + 1)%Z. rewrite bpow_plus. change (bpow radix2 1) with 2.
    assert (1 <= bpow radix2 44) by (change 1 with (bpow radix2 0); apply bpow_le; lia).
    replace (B2R phase) with ((val phase - exact) + exact) by (unfold val; ring).
    eapply Rle_trans; [apply Rabs_triang|]. lra. }
  destruct (Hlm phase Fp Bp) as ((C1 & C2 & C3) & (S1 & S2 & S3)).
  split; [auto|]. split.
  - replace (B2R (libm_cos libm phase) - cos exact) with ((B2R (libm_cos libm phase) - cos (B2R phase)) + (cos (B2R phase) - cos exact)) by ring.
    eapply Rle_trans; [apply Rabs_triang|]. pose proof (cos_lip (B2R phase) exact) as LL. unfold val in Ee. lra.
  - replace (B2R (libm_sin libm phase) - sin exact) with ((B2R (libm_sin libm phase) - sin (B2R phase)) + (sin (B2R phase) - sin exact)) by ring.
    eapply Rle_trans; [apply Rabs_triang|]. pose proof (sin_lip (B2R phase) exact) as LL. unfold val in Ee. lra.
Qed.

Lemma prod_near a b x y d : Rabs a <= 1 -> Rabs y <= 1 -> Rabs (a - x) <= d -> Rabs (b - y) <= d -> Rabs (a * b - x * y) <= 2 * d.
Proof.
  intros Ha Hy Hx Hb. replace (a * b - x * y) with (a * (b - y) + y * (a - x)) by ring.
  eapply Rle_trans; [apply Rabs_triang|]. rewrite !Rabs_mult.
  assert (Rabs a * Rabs (b - y) <= 1 * d) by (apply Rmult_le_compat; try apply Rabs_pos; assumption).
  assert (Rabs y * Rabs (a - x) <= 1 * d) by (apply Rmult_le_compat; try apply Rabs_pos; assumption). lra.
Qed.

Lemma fc_half (fc : R) (sr sy : nat) (h : Z) : (1 <= sy <= sr)%nat ->
  2 * fc * INR (sr / sy) = IZR h * INR sr -> ~ (exists z : Z, 2 * fc = IZR z * INR sr) -> 1 / 2 <= Rabs fc.
Proof.
  intros Hr Hh Hz. assert (Hsps : (sr / sy <= sr)%nat).
  { apply Nat.div_le_upper_bound; [lia|]. nia. }
  assert (Hn : (1 <= sr / sy)%nat) by (apply Nat.div_le_lower_bound; lia).
  set (n := (sr / sy)%nat) in *. apply le_INR in Hsps. apply le_INR in Hn. change (INR 1) with 1 in Hn.
  assert (Nh : (h <> 0)%Z).
  { intros ->. apply Hz. exists 0%Z. rewrite Rmult_0_l in Hh |- *.
    apply Rmult_integral in Hh. destruct Hh as [Hh|Hh]; lra. }
  assert (A : 1 <= Rabs (IZR h)) by (rewrite <- abs_IZR; apply IZR_le; lia).
  assert (E : 2 * Rabs fc * INR n = Rabs (IZR h) * INR sr).
  { rewrite <- (Rabs_pos_eq (INR n)) by lra. rewrite <- (Rabs_pos_eq (INR sr)) by lra.
    rewrite <- (Rabs_pos_eq 2) by lra. rewrite <- !Rabs_mult, Hh. reflexivity. }
  assert (INR n <= 2 * Rabs fc * INR n) by (rewrite E; nra).
  assert (1 * INR n <= 2 * Rabs fc * INR n) by lra. apply Rmult_le_reg_r in H0; lra.
Qed.

Lemma design_energy (libm : Libm) (fc : F64) (sr sy K k : nat) (h : Z) :
  let num := NumF libm in
  let phase i := (nofZ 2 * npi * fc * (nofnat i / nofnat sr))%num in
  let c i := B2R (libm_cos libm (phase i)) in
  let s i := B2R (libm_sin libm (phase i)) in
  let sps := (sr / sy)%nat in
  libm_within libm (bpow radix2 45) -> is_finite fc = true -> (1 <= sy <= sr)%nat ->
  2 * B2R fc * INR sps = IZR h * INR sr -> ~ (exists z : Z, 2 * B2R fc = IZR z * INR sr) ->
  (Z.of_nat sr < 2 ^ 53)%Z -> (Z.of_nat (K * sps) < 2 ^ 53)%Z -> (k < K)%nat ->
  2 * PI * Rabs (B2R fc) * (INR (K * sps) / INR sr) <= bpow radix2 44 ->
  let sum f := Rsum_n sps (fun j => f (k * sps + j)%nat) in
  Rabs (sum (fun i => s i * c i)) <= INR sps / 16 /\
  7 / 16 * INR sps <= sum (fun i => c i * c i) /\ 7 / 16 * INR sps <= sum (fun i => s i * s i).
Proof.
  intros num phase c s sps Hlm Ff Hr Hh Hz Hs2 HK Hk Hph sum.
  pose proof (fc_half _ _ _ _ Hr Hh Hz) as Bf.
  destruct (qpsk_design_sums sr sy (B2R fc) h k ltac:(lia) Hh Hz) as (HC & HS & HX). fold sps in HC, HS, HX.
  assert (D : forall j, (j < sps)%nat -> Rabs (c (k * sps + j)%nat) <= 1 /\ Rabs (s (k * sps + j)%nat) <= 1 /\
    Rabs (c (k * sps + j)%nat - cos (2 * PI * B2R fc * (INR (k * sps + j) / INR sr))) <= 1 / 32 /\
    Rabs (s (k * sps + j)%nat - sin (2 * PI * B2R fc * (INR (k * sps + j) / INR sr))) <= 1 / 32).
  { intros j Hj. assert (I : (k * sps + j < K * sps)%nat) by nia.
    destruct (design_carrier libm fc sr (K * sps) (k * sps + j) Hlm Ff Bf ltac:(lia) Hs2 HK I Hph) as ((_ & A1 & _ & A2) & A3 & A4).
    auto. }
  assert (BC : forall x, Rabs (cos x) <= 1) by (intros x; apply Rabs_le; pose proof (COS_bound x); lra).
  assert (BS : forall x, Rabs (sin x) <= 1) by (intros x; apply Rabs_le; pose proof (SIN_bound x); lra).
  unfold sum. split; [|split].
  - match type of HX with Rsum_n _ ?g = 0 => pose proof (Rsum_n_dist sps (fun j => s (k * sps + j)%nat * c (k * sps + j)%nat) g (2 * (1 / 32))) as Q end.
    rewrite HX, Rminus_0_r in Q. eapply Rle_trans; [apply Q|lra].
    intros j Hj. destruct (D j Hj) as (D1 & D2 & D3 & D4). apply prod_near; auto.
  - match type of HC with Rsum_n _ ?g = _ => pose proof (Rsum_n_dist sps (fun j => c (k * sps + j)%nat * c (k * sps + j)%nat) g (2 * (1 / 32))) as Q end.
    rewrite HC in Q. assert (Q' := Q ltac:(intros j Hj; destruct (D j Hj) as (D1 & D2 & D3 & D4); apply prod_near; auto)).
    apply Rabs_le_inv in Q'. lra.
  - match type of HS with Rsum_n _ ?g = _ => pose proof (Rsum_n_dist sps (fun j => s (k * sps + j)%nat * s (k * sps + j)%nat) g (2 * (1 / 32))) as Q end.
    rewrite HS in Q. assert (Q' := Q ltac:(intros j Hj; destruct (D j Hj) as (D1 & D2 & D3 & D4); apply prod_near; auto)).
    apply Rabs_le_inv in Q'. lra.
Qed.

Lemma slack_small n Z : (1 <= n)%nat -> (Z.of_nat n <= 2 ^ 46)%Z -> 0 <= Z <= 1 / 8 ->
  INR n * (INR n + 5) * (8 + 4 * Z) * u53 < INR n / 8.
Proof.
  intros H1 Hn HZ. assert (B : INR n <= IZR (2 ^ 46)) by (rewrite INR_IZR_INZ; apply IZR_le; exact Hn).
  assert (B1 : 1 <= INR n) by (change 1 with (INR 1); apply le_INR; exact H1).
  rewrite bpow_m53. change (IZR (2 ^ 53)) with 9007199254740992. change (IZR (2 ^ 46)) with 70368744177664 in B.
  assert ((INR n + 5) * (8 + 4 * Z) <= 70368744177669 * 9) by (apply Rmult_le_compat; lra).
  replace (INR n * (INR n + 5) * (8 + 4 * Z) * / 9007199254740992) with (INR n * ((INR n + 5) * (8 + 4 * Z) * / 9007199254740992)) by ring.
  apply Rmult_lt_compat_l; lra.
Qed.

(** Whole half-cycles per symbol, as in C32: with any sine and cosine right to 1/64, the message comes back
    in binary64 - also through a channel adding up to 1/8 to every sample. *)
Theorem C79_qpsk_design_f64 :
  forall (libm : Libm) (message : Iter bool) m (sample_rate symbol_rate : nat) (fc : F64) (half_cycles : Z) (noise : list F64),
    let num := NumF libm in
    let sps := (sample_rate / symbol_rate)%nat in
    let total := (length m / 2 * sps)%nat in
    libm_within libm (bpow radix2 45) -> yields message m -> (1 <= symbol_rate <= sample_rate)%nat ->
    (Z.of_nat sample_rate < 2 ^ 53)%Z -> (Z.of_nat sps <= 2 ^ 46)%Z -> (Z.of_nat total < 2 ^ 53)%Z ->
    is_finite fc = true ->
    2 * B2R fc * INR sps = IZR half_cycles * INR sample_rate ->
    ~ (exists z : Z, 2 * B2R fc = IZR z * INR sample_rate) ->
    2 * PI * Rabs (B2R fc) * (INR total / INR sample_rate) <= bpow radix2 44 ->
    length noise = total -> (forall x, In x noise -> is_finite x = true /\ Rabs (B2R x) <= 1 / 8) ->
    exists tx rx rx', tx_qpsk_signal message sample_rate symbol_rate fc = Ret tx /\
      rx_qpsk_signal tx sample_rate symbol_rate fc = Ret rx /\ yields rx (firstn (2 * (length m / 2)) m) /\
      rx_qpsk_signal (noisy tx noise) sample_rate symbol_rate fc = Ret rx' /\ yields rx' (firstn (2 * (length m / 2)) m).
Proof.
  intros libm message m sr sy fc h noise num sps total Hlm Hm Hr Hs2 Hn HT Ff Hh Hz Hph HL HN.
  pose proof (fc_half _ _ _ _ Hr Hh Hz) as Bf.
  assert (Hn1 : (1 <= sps)%nat) by (apply Nat.div_le_lower_bound; lia).
  assert (Hc : forall i, (i < length m / 2 * sps)%nat -> let phase i := (nofZ 2 * npi * fc * (nofnat i / nofnat sr))%num in
       is_finite (libm_cos libm (phase i)) = true /\ Rabs (B2R (libm_cos libm (phase i))) <= 1 /\
       is_finite (libm_sin libm (phase i)) = true /\ Rabs (B2R (libm_sin libm (phase i))) <= 1).
  { intros i Hi. exact (proj1 (design_carrier libm fc sr total i Hlm Ff Bf ltac:(lia) Hs2 HT Hi Hph)). }
  assert (HE : forall k, (k < length m / 2)%nat -> _) by
    exact (fun k Hk => design_energy libm fc sr sy (length m / 2) k h Hlm Ff Hr Hh Hz Hs2 HT Hk Hph).
  destruct (C79_qpsk_round_trip_f64 libm message m sr sy fc Hm Hr) as (tx & rx & Et & Er & Yr).
  - fold sps. lia.
  - exact Hc.
  - intros k Hk. specialize (HE k Hk). cbv zeta beta in HE |- *. fold sps in HE |- *. fold num in HE.
    pose proof (slack_small sps 0 Hn1 Hn ltac:(lra)) as SL. replace (8 + 4 * 0) with 8 in SL by ring.
    change (bpow radix2 (-53)) with u53. destruct HE as (E1 & E2 & E3).
    apply le_INR in Hn1. change (INR 1) with 1 in Hn1.
    match goal with |- Rabs ?a + _ < ?b /\ _ < ?d => change (Rabs a <= INR sps / 16) in E1;
      change (7 / 16 * INR sps <= b) in E2; change (7 / 16 * INR sps <= d) in E3 end.
    split; lra.
  - destruct (C79_qpsk_noise_f64 libm message m sr sy fc noise (1 / 8) Hm Hr) as (tx' & rx' & Et' & Er' & Yr').
    + fold sps. lia.
    + exact HL.
    + split; [lra|]. apply Rle_trans with 1; [lra|]. change 1 with (bpow radix2 0). apply bpow_le. lia.
    + exact HN.
    + exact Hc.
    + intros k Hk. pose proof (HE k Hk) as HEk. cbv zeta beta in HEk |- *. fold sps in HEk |- *. fold num in HEk.
      pose proof (slack_small sps (1 / 8) Hn1 Hn ltac:(lra)) as SL.
      change (bpow radix2 (-53)) with u53. destruct HEk as (E1 & E2 & E3).
      assert (HB : forall f : nat -> R, (forall j, (j < sps)%nat -> Rabs (f (k * sps + j)%nat) <= 1) ->
         Rabs (Rsum_n sps (fun j => B2R (nth (k * sps + j) noise (nofZ 0)) * f (k * sps + j)%nat)) <= INR sps / 8).
      { intros f Hf. pose proof (Rsum_n_dist sps (fun j => B2R (nth (k * sps + j) noise (nofZ 0)) * f (k * sps + j)%nat) (fun _ => 0) (1 / 8)) as Q.
        rewrite (Rsum_n_0 sps (fun _ => 0)) in Q by reflexivity. rewrite Rminus_0_r in Q. eapply Rle_trans; [apply Q|lra].
        intros j Hj. rewrite Rminus_0_r, Rabs_mult. rewrite <- (Rmult_1_r (1 / 8)).
        apply Rmult_le_compat; [apply Rabs_pos|apply Rabs_pos| |apply Hf; exact Hj].
        apply HN. apply nth_In. rewrite HL. unfold total. nia. }
      pose proof (HB (fun i => B2R (libm_cos libm (nofZ 2 * npi * fc * (nofnat i / nofnat sr))%num))) as B1.
      pose proof (HB (fun i => B2R (libm_sin libm (nofZ 2 * npi * fc * (nofnat i / nofnat sr))%num))) as B2.
      cbv beta in B1, B2.
      assert (B1' := B1 ltac:(intros j Hj; apply Hc; nia)). assert (B2' := B2 ltac:(intros j Hj; apply Hc; nia)).
      apply le_INR in Hn1. change (INR 1) with 1 in Hn1.
      match goal with |- Rabs ?a + Rabs ?x + _ < ?b /\ _ + Rabs ?y + _ < ?d => change (Rabs a <= INR sps / 16) in E1;
        change (7 / 16 * INR sps <= b) in E2; change (7 / 16 * INR sps <= d) in E3;
        change (Rabs x <= INR sps / 8) in B1'; change (Rabs y <= INR sps / 8) in B2' end.
      split; lra.
    + assert (tx' = tx) by congruence. subst tx'. exists tx, rx, rx'. auto.
Qed.

(** ** BPSK *)

Lemma bpsk_link_f64 (libm : Libm) (signal : Iter F64) (r : nat -> F64) (m : list bool) (sr sy : nat) (fc : F64) (z : nat -> R) (Z : R) :
    let num := NumF libm in
    let phase i := (nofZ 2 * npi * fc * (nofnat i / nofnat sr))%num in
    let c i := B2R (libm_cos libm (phase i)) in
    let sps := (sr / sy)%nat in
    yields signal (tab (length m * sps) r) -> (1 <= sy <= sr)%nat -> (Z.of_nat sps <= 2 ^ 50)%Z -> 0 <= Z <= bpow radix2 700 ->
    (forall k b j, nth_error m k = Some b -> (j < sps)%nat ->
       let i := (k * sps + j)%nat in
       fin (r i) = true /\ Rabs (val (r i)) <= 4 + 2 * Z /\
       Rabs (val (r i) - ((if b then 1 else -1) * c i + z i)) <= (4 + Z) * u53) ->
    (forall i, (i < length m * sps)%nat -> is_finite (libm_cos libm (phase i)) = true /\ Rabs (c i) <= 1) ->
    exists rx out, rx_bpsk_signal signal sr sy fc = Ret rx /\
      yields rx out /\ length out = length m /\
      forall k b, nth_error m k = Some b ->
        let energy := Rsum_n sps (fun j => c (k * sps + j)%nat * c (k * sps + j)%nat) in
        let hit := Rsum_n sps (fun j => z (k * sps + j)%nat * c (k * sps + j)%nat) in
        let slack := INR sps * (INR sps + 5) * (8 + 4 * Z) * bpow radix2 (-53) in
        ((if b then - hit else hit) + slack < energy -> nth_error out k = Some b) /\
        (energy < (if b then - hit else hit) - slack -> nth_error out k = Some (negb b)).
Proof.
  intros num phase c sps Y2 Hr Hn HZ HR Hc. pose proof u53_pos as U.
  assert (Hn1 : (1 <= sr / sy)%nat) by (apply Nat.div_le_lower_bound; lia).
  destruct (rx_bpsk_intro signal sr sy fc ltac:(lia) Hn1) as (rx & Er & Yr & _). fold sps in Hn1.
  exists rx. eexists. split; [exact Er|]. split; [apply Yr; exact Y2|]. fold sps. split; [apply tab_length|].
  intros k b Hb energy hit slack. assert (Hk : (k < length m)%nat) by (apply nth_error_Some; congruence).
  rewrite tab_nth_error. apply Nat.ltb_lt in Hk. rewrite Hk. apply Nat.ltb_lt in Hk.
  assert (I : forall j, (j < sps)%nat -> (k * sps + j < length m * sps)%nat) by (intros; nia).
  assert (R := fun j => HR k b j Hb). cbv zeta in R.
  destruct (corr_f64 libm sps k r (fun i => libm_cos libm (phase i)) (4 + 2 * Z)) as [F1 E1].
  - split; [lra|]. apply Rle_trans with (bpow radix2 (3 + 700)); [|apply bpow_le; lia]. rewrite bpow_plus. change (bpow radix2 3) with 8.
    assert (1 <= bpow radix2 700) by (change 1 with (bpow radix2 0); apply bpow_le; lia). lra.
  - exact Hn.
  - intros j Hj. destruct (R j Hj) as (? & ? & _). auto.
  - intros j Hj. exact (Hc _ (I j Hj)).
  - match goal with |- context [corr sps k ?f] => change (corr sps k f) with (corr sps k (fun i => nmul (r i) (libm_cos libm (phase i)))) end.
    fold num in F1, E1. set (v := corr sps k (fun i => nmul (r i) (libm_cos libm (phase i)))) in *.
    set (g := if b then 1 else -1).
    assert (X1 : Rabs (Rsum_n sps (fun j => val (r (k * sps + j)%nat) * val (libm_cos libm (phase (k * sps + j)%nat))) - (g * energy + hit)) <= INR sps * ((4 + Z) * u53)).
    { replace (g * energy + hit) with (Rsum_n sps (fun j => (g * c (k * sps + j)%nat + z (k * sps + j)%nat) * c (k * sps + j)%nat)).
      2:{ unfold energy, hit. rewrite <- Rsum_n_scale, <- Rsum_n_plus. apply Rsum_n_ext. intros; ring. }
      apply Rsum_n_dist. intros j Hj. destruct (R j Hj) as (_ & _ & HD). destruct (Hc _ (I j Hj)) as (_ & Bc).
      change (val (libm_cos libm (phase (k * sps + j)%nat))) with (c (k * sps + j)%nat).
      rewrite <- Rmult_minus_distr_r, Rabs_mult. rewrite <- (Rmult_1_r ((4 + Z) * u53)).
      apply Rmult_le_compat; [apply Rabs_pos|apply Rabs_pos|exact HD|exact Bc]. }
    cbv beta in E1. match type of X1 with Rabs (?x - _) <= _ => set (T := x) in * end.
    change (bpow radix2 (-53)) with u53 in slack.
    set (n := INR sps) in *. assert (Hn0 : 0 <= n) by apply pos_INR.
    assert (Sl : n * ((4 + Z) * u53) + n * (n + 4) * (2 * (4 + 2 * Z)) * u53 <= slack).
    { unfold slack. replace (n * (n + 5) * (8 + 4 * Z) * u53) with (n * (n + 4) * (2 * (4 + 2 * Z)) * u53 + n * ((8 + 4 * Z) * u53)) by ring.
      assert (n * ((4 + Z) * u53) <= n * ((8 + 4 * Z) * u53)); [|lra].
      apply Rmult_le_compat_l; [exact Hn0|]. apply Rmult_le_compat_r; lra. }
    set (sl := n * (n + 4) * (2 * (4 + 2 * Z)) * u53) in *. set (sd := n * ((4 + Z) * u53)) in *.
    clearbody sl sd slack energy hit T. apply Rabs_le_inv in X1. apply Rabs_le_inv in E1.
    destruct val_0 as [V0 F0].
    assert (D1 : 0 < val v -> nltb (nofZ 0) v = true).
    { intros Hv. apply (ltb_val (f64_ofZ 0) v F0 F1). rewrite V0. exact Hv. }
    assert (D2 : val v <= 0 -> nltb (nofZ 0) v = false).
    { intros Hv. destruct (nltb (nofZ 0) v) eqn:E; [|reflexivity]. apply (ltb_val (f64_ofZ 0) v F0 F1) in E. rewrite V0 in E. lra. }
    unfold g in X1. destruct b; cbn [negb]; split; intros H; f_equal; first [apply D1; lra | apply D2; lra].
Qed.

Theorem C79_bpsk_noise_f64 :
  forall (libm : Libm) (message : Iter bool) m (sample_rate symbol_rate : nat) (fc : F64) tx (noise : list F64) (Z : R),
    let num := NumF libm in
    let phase i := (nofZ 2 * npi * fc * (nofnat i / nofnat sample_rate))%num in
    let c i := B2R (libm_cos libm (phase i)) in
    let z i := B2R (nth i noise (nofZ 0)) in
    let sps := (sample_rate / symbol_rate)%nat in
    yields message m -> tx_bpsk_signal message sample_rate symbol_rate fc = Ret tx ->
    (symbol_rate <= sample_rate)%nat -> (Z.of_nat sps <= 2 ^ 50)%Z ->
    length noise = (length m * sps)%nat -> 0 <= Z <= bpow radix2 700 ->
    (forall x, In x noise -> is_finite x = true /\ Rabs (B2R x) <= Z) ->
    (forall i, (i < length m * sps)%nat -> is_finite (libm_cos libm (phase i)) = true /\ Rabs (c i) <= 1) ->
    exists rx out, rx_bpsk_signal (noisy tx noise) sample_rate symbol_rate fc = Ret rx /\
      yields rx out /\ length out = length m /\
      forall k b, nth_error m k = Some b ->
        let energy := Rsum_n sps (fun j => c (k * sps + j)%nat * c (k * sps + j)%nat) in
        let hit := Rsum_n sps (fun j => z (k * sps + j)%nat * c (k * sps + j)%nat) in
        let slack := INR sps * (INR sps + 5) * (8 + 4 * Z) * bpow radix2 (-53) in
        ((if b then - hit else hit) + slack < energy -> nth_error out k = Some b) /\
        (energy < (if b then - hit else hit) - slack -> nth_error out k = Some (negb b)).
Proof.
  intros libm message m sr sy fc tx noise Z num phase c z sps Hm Htx Hle Hn HL HZ HN Hc. pose proof u53_pos as U.
  destruct (tx_bpsk_inv _ _ _ _ _ Htx) as (Hy & _ & _ & Y).
  assert (Hn1 : (1 <= sr / sy)%nat) by (apply Nat.div_le_lower_bound; lia).
  specialize (Y Hn1 m Hm). unfold bpsk_wave in Y. fold sps in Y, Hn1.
  pose proof (noisy_yields tx noise _ _ (nofZ 0) Y HL) as Y2.
  apply (bpsk_link_f64 libm _ _ m sr sy fc z Z Y2 ltac:(lia) Hn HZ); [|exact Hc].
  intros k b j Hb Hj. fold sps. fold sps in Hj. cbv zeta.
  assert (Hk : (k < length m)%nat) by (apply nth_error_Some; congruence).
  assert (I : (k * sps + j < length m * sps)%nat) by nia.
  rewrite block_div by exact Hj. rewrite (nth_error_nth _ _ false Hb).
    destruct (Hc _ I) as [Fc Bc]. destruct (nrz_mul libm b _ Fc) as [FW VW]. fold num in FW, VW.
    destruct (HN (nth (k * sps + j) noise (nofZ 0))) as [FZ BZ]; [apply nth_In; rewrite HL; exact I|].
    assert (BW : Rabs (val (nmul (bit_to_nrz b) (libm_cos libm (phase (k * sps + j)%nat)))) <= 3).
    { rewrite VW, Rabs_mult. unfold c in Bc. change (val (libm_cos libm (phase (k * sps + j)%nat))) with (B2R (libm_cos libm (phase (k * sps + j)%nat))).
      replace (Rabs (if b then 1 else -1)) with 1 by (destruct b; [rewrite Rabs_pos_eq|rewrite Rabs_left]; lra). lra. }
    destruct (channel_err _ _ Z HZ FW BW FZ BZ) as (FR & BR & DR). rewrite VW in DR.
    split; [exact FR|]. split; [exact BR|exact DR].
Qed.

(** Whole half-cycles per bit: noise up to 1/8 on every sample does no harm in binary64. *)
Theorem C79_bpsk_design_f64 :
  forall (libm : Libm) (message : Iter bool) m (sample_rate symbol_rate : nat) (fc : F64) tx (half_cycles : Z) (noise : list F64),
    let num := NumF libm in
    let sps := (sample_rate / symbol_rate)%nat in
    let total := (length m * sps)%nat in
    libm_within libm (bpow radix2 45) -> yields message m ->
    tx_bpsk_signal message sample_rate symbol_rate fc = Ret tx -> (symbol_rate <= sample_rate)%nat ->
    (Z.of_nat sample_rate < 2 ^ 53)%Z -> (Z.of_nat sps <= 2 ^ 46)%Z -> (Z.of_nat total < 2 ^ 53)%Z ->
    is_finite fc = true ->
    2 * B2R fc * INR sps = IZR half_cycles * INR sample_rate ->
    ~ (exists z : Z, 2 * B2R fc = IZR z * INR sample_rate) ->
    2 * PI * Rabs (B2R fc) * (INR total / INR sample_rate) <= bpow radix2 44 ->
    length noise = total -> (forall x, In x noise -> is_finite x = true /\ Rabs (B2R x) <= 1 / 8) ->
    exists rx, rx_bpsk_signal (noisy tx noise) sample_rate symbol_rate fc = Ret rx /\ yields rx m.
Proof.
  intros libm message m sr sy fc tx h noise num sps total Hlm Hm Htx Hle Hs2 Hn HT Ff Hh Hz Hph HL HN.
  destruct (tx_bpsk_inv _ _ _ _ _ Htx) as (Hy & _ & _ & _). assert (Hr : (1 <= sy <= sr)%nat) by lia.
  pose proof (fc_half _ _ _ _ Hr Hh Hz) as Bf.
  assert (Hn1 : (1 <= sps)%nat) by (apply Nat.div_le_lower_bound; lia).
  assert (Hc : forall i, (i < total)%nat -> let phase i := (nofZ 2 * npi * fc * (nofnat i / nofnat sr))%num in
       is_finite (libm_cos libm (phase i)) = true /\ Rabs (B2R (libm_cos libm (phase i))) <= 1).
  { intros i Hi. destruct (design_carrier libm fc sr total i Hlm Ff Bf ltac:(lia) Hs2 HT Hi Hph) as ((A & B & _) & _). auto. }
  destruct (C79_bpsk_noise_f64 libm message m sr sy fc tx noise (1 / 8) Hm Htx Hle) as (rx & out & Er & Yr & L & D).
  - fold sps. lia.
  - exact HL.
  - split; [lra|]. apply Rle_trans with 1; [lra|]. change 1 with (bpow radix2 0). apply bpow_le. lia.
  - exact HN.
  - exact Hc.
  - exists rx. split; [exact Er|]. replace m with out; [exact Yr|].
    apply nth_error_inj. intros k. destruct (nth_error m k) as [b|] eqn:Eb.
    2:{ apply nth_error_None. apply nth_error_None in Eb. lia. }
    assert (Hk : (k < length m)%nat) by (apply nth_error_Some; congruence).
    apply (D k b Eb).
    destruct (design_energy libm fc sr sy (length m) k h Hlm Ff Hr Hh Hz Hs2 HT Hk Hph) as (_ & E2 & _).
    fold sps. pose proof (slack_small sps (1 / 8) Hn1 Hn ltac:(lra)) as SL. change (bpow radix2 (-53)) with u53.
    match goal with |- _ < ?e => change (7 / 16 * INR sps <= e) in E2; set (energy := e) in * end.
    match goal with |- (if b then - ?e else _) + _ < _ => set (hit := e) end.
    assert (HB : Rabs hit <= INR sps / 8).
    { pose proof (Rsum_n_dist sps (fun j => B2R (nth (k * sps + j) noise (nofZ 0)) * B2R (libm_cos libm (nofZ 2 * npi * fc * (nofnat (k * sps + j) / nofnat sr))%num)) (fun _ => 0) (1 / 8)) as Q.
      rewrite (Rsum_n_0 sps (fun _ => 0)) in Q by reflexivity. rewrite Rminus_0_r in Q. eapply Rle_trans; [apply Q|lra].
      intros j Hj. rewrite Rminus_0_r, Rabs_mult. rewrite <- (Rmult_1_r (1 / 8)).
      assert (I : (k * sps + j < total)%nat) by (unfold total; nia).
      apply Rmult_le_compat; [apply Rabs_pos|apply Rabs_pos| |exact (proj2 (Hc _ I))].
      apply HN. apply nth_In. rewrite HL. exact I. }
    apply Rabs_le_inv in HB. apply le_INR in Hn1. change (INR 1) with 1 in Hn1. destruct b; lra.
Qed.

(** ** Concrete cases *)

(** A sine and cosine kept to multiples of 1/64. *)
Definition coarse (y : R) : F64 := Bdiv mode_NE (f64_ofZ (ZnearestE (64 * y))) (f64_ofZ 64).
Definition libm_coarse : Libm :=
  {| libm_sin := fun x => coarse (sin (B2R x)); libm_cos := fun x => coarse (cos (B2R x));
     libm_exp := fun x => x; libm_log10 := fun x => x; libm_pow := fun x _ => x; libm_sum_neg := false |}.

Lemma coarse_ok y : -1 <= y <= 1 -> is_finite (coarse y) = true /\ Rabs (B2R (coarse y)) <= 1 /\ Rabs (B2R (coarse y) - y) <= 1 / 64.
Proof.
  intros Hy. unfold coarse. set (z := ZnearestE (64 * y)).
  pose proof (Znearest_half (fun x => negb (Z.even x)) (64 * y)) as N. fold z in N. apply Rabs_le_inv in N.
  assert (B : (-64 <= z <= 64)%Z).
  { split; apply Z.lt_succ_r || apply Z.le_succ_l; apply lt_IZR; rewrite ?succ_IZR; lra || idtac.
    all: rewrite ?pred_IZR; try lra. }
  destruct (ofZ_exact z ltac:(lia)) as (Vz & Fz & _). destruct (ofZ_exact 64 ltac:(lia)) as (V6 & F6 & _).
  assert (E : rd (val (f64_ofZ z) / val (f64_ofZ 64)) = IZR z / 64).
  { rewrite Vz, V6. apply rd_id. replace (IZR z / 64) with (IZR z * bpow radix2 (-6)) by (cbn; lra).
    apply fmt_scaled; lia. }
  assert (Bz : -64 <= IZR z <= 64) by (split; apply IZR_le; lia).
  destruct (div_fin (f64_ofZ z) (f64_ofZ 64) Fz) as [V F].
  { rewrite V6. lra. }
  { rewrite E. apply Rle_lt_trans with 1.
    - apply Rabs_le. lra.
    - change 1 with (bpow radix2 0). apply bpow_lt. lia. }
  rewrite E in V. split; [exact F|]. unfold val in V. rewrite V. split; apply Rabs_le; lra.
Qed.

Lemma libm_coarse_within B : libm_within libm_coarse B.
Proof.
  intros x _ _. split; cbn [libm_cos libm_sin libm_coarse]; apply coarse_ok; [apply COS_bound|apply SIN_bound].
Qed.

(** 44100 samples and 900 symbols per second with a carrier of 1800 Hz. *)
Example C79_qpsk_case b1 b2 : let num := NumF libm_coarse in
  exists tx rx, tx_qpsk_signal (of_list [b1; b2]) (49 * 900) 900 (f64_ofZ 1800) = Ret tx /\
    rx_qpsk_signal tx (49 * 900) 900 (f64_ofZ 1800) = Ret rx /\ yields rx [b1; b2].
Proof.
  intros num. assert (D : (49 * 900 / 900)%nat = 49%nat) by (apply Nat.div_mul; discriminate).
  destruct (ofZ_exact 1800 ltac:(lia)) as (V & F & _). destruct C32_design_case as [H1 H2].
  destruct val_0 as [V0 F0].
  destruct (C79_qpsk_design_f64 libm_coarse (of_list [b1; b2]) [b1; b2] (49 * 900) 900 (f64_ofZ 1800) 4 (repeat (f64_ofZ 0) 49))
    as (tx & rx & rx' & Et & Er & Yr & _).
  - apply libm_coarse_within.
  - apply of_list_yields.
  - lia.
  - lia.
  - rewrite D. lia.
  - rewrite D. cbn. lia.
  - exact F.
  - rewrite D. unfold val in V. rewrite V. exact H1.
  - unfold val in V. rewrite V. exact H2.
  - rewrite D. unfold val in V. rewrite V. change (length [b1; b2] / 2 * 49)%nat with 49%nat.
    rewrite mult_INR, !INR_IZR_INZ. change (IZR (Z.of_nat 49)) with 49. change (IZR (Z.of_nat 900)) with 900.
    rewrite Rabs_pos_eq by lra. pose proof PI_3. apply Rle_trans with (bpow radix2 5); [|apply bpow_le; lia].
    change (bpow radix2 5) with 32. replace (2 * PI * 1800 * (49 / (49 * 900))) with (4 * PI) by field. lra.
  - rewrite D, repeat_length. reflexivity.
  - intros x Hx. apply repeat_spec in Hx. subst x. unfold val in V0. rewrite V0. split; [exact F0|]. rewrite Rabs_R0. lra.
  - exists tx, rx. auto.
Qed.

(** 8 samples per bit, one carrier cycle per bit. *)
Example C79_bpsk_case b1 b2 : let num := NumF libm_coarse in
  exists tx rx, tx_bpsk_signal (of_list [b1; b2]) 8 1 (f64_ofZ 1) = Ret tx /\
    rx_bpsk_signal (noisy tx (repeat (Bdiv mode_NE (f64_ofZ 1) (f64_ofZ 8)) 16)) 8 1 (f64_ofZ 1) = Ret rx /\ yields rx [b1; b2].
Proof.
  intros num.
  destruct (proj1 (C30_bpsk_checks libm_coarse (of_list [b1; b2]) 8 1 (f64_ofZ 1) eq_refl eq_refl)) as [tx Etx].
  { split; [lia|]. split; [exists 8%nat; reflexivity|]. right. vm_compute. reflexivity. }
  destruct (ofZ_exact 1 ltac:(lia)) as (V & F & _). unfold val in V. exists tx.
  assert (V8 : is_finite (Bdiv mode_NE (f64_ofZ 1) (f64_ofZ 8)) = true /\ B2R (Bdiv mode_NE (f64_ofZ 1) (f64_ofZ 8)) = 1 / 8).
  { destruct (lit_val 1 8 ltac:(lia) ltac:(lia)) as [F8 E8]. split; [exact F8|]. unfold val in E8. rewrite E8. apply rd_id.
    replace (1 / 8) with (bpow radix2 (-3)) by (cbn; lra). apply fmt_bpow. lia. }
  destruct (C79_bpsk_design_f64 libm_coarse (of_list [b1; b2]) [b1; b2] 8 1 (f64_ofZ 1) tx 2 (repeat (Bdiv mode_NE (f64_ofZ 1) (f64_ofZ 8)) 16)) as (rx & Er & Yr);
    change (8 / 1)%nat with 8%nat; rewrite ?V.
  - apply libm_coarse_within.
  - apply of_list_yields.
  - exact Etx.
  - lia.
  - lia.
  - lia.
  - cbn. lia.
  - exact F.
  - cbn. lra.
  - intros [z Hz]. rewrite INR_IZR_INZ, <- !mult_IZR in Hz. apply eq_IZR in Hz. lia.
  - rewrite Rabs_pos_eq by lra. pose proof PI_3. apply Rle_trans with (bpow radix2 5); [|apply bpow_le; lia].
    change (bpow radix2 5) with 32. cbn. lra.
  - reflexivity.
  - intros x Hx. apply repeat_spec in Hx. subst x. destruct V8 as [F8 E8]. rewrite E8. split; [exact F8|]. rewrite Rabs_pos_eq; lra.
  - exists rx. auto.
Qed.

(** ** Axioms used *)
Print Assumptions C79_qpsk_receiver_f64.
Print Assumptions C79_qpsk_round_trip_f64.
Print Assumptions C79_qpsk_noise_f64.
Print Assumptions C79_qpsk_design_f64.
Print Assumptions C79_bpsk_noise_f64.
Print Assumptions C79_bpsk_design_f64.
