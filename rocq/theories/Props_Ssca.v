(** C52, C63, C64: the strip spectral correlation analyser, /repo/src/ssca.rs. *)
From Coq Require Import List Arith ZArith Reals Bool Lia Lra Psatz.
From Flocq Require Import Core BinarySingleNaN.
From Verif Require Import Base Spec Num F64Lib LibModel LibDiscrete LibFloat Tab SpecC FftModel Dft BpfProofs
  OfdmModel OfdmProofs OfdmReal SscaModel SscaProofs SscaCells.
Import ListNotations.

(** A list of a rows of b items. *)
Definition shape {A} (a b : nat) (m : list (list A)) : Prop := length m = a /\ Forall (fun row => length row = b) m.

(** ** C52: when the functions return, for any number type and any FFT *)
Theorem C52_base_defined {T} `{Num T} (fft : Fft T) s n np :
  (1 <= np < n)%nat -> (n + np - 1 <= length s)%nat ->
  exists sx, ssca_base fft s n np = Ret sx /\ shape n np sx.
Proof.
  intros Hn Hl. eexists. split; [apply ssca_base_ok; lia|]. apply arr_shape.
Qed.

Theorem C52_base_panics {T} `{Num T} (fft : Fft T) s n np :
  (1 <= np)%nat -> (n <= np)%nat \/ (length s < n + np - 1)%nat -> ssca_base fft s n np = Panic.
Proof. intros Hnp Hb. apply ssca_base_panics; lia. Qed.

(** Binary64: every cell written is inside the (np+1) by (2n+1) array. *)
Theorem C52_mapped_f64 libm (fft : Fft F64) s n np :
  let num := NumF libm in
  (1 <= np < n)%nat -> (Z.of_nat n <= 2 ^ 52)%Z -> (n + np - 1 <= length s)%nat ->
  exists sxf, ssca_mapped fft s n np = Ret sxf /\ shape (np + 1) (2 * n + 1) sxf.
Proof.
  intros num Hn Bn Hl. eexists. split; [|apply arr_shape]. apply ssca_mapped_ok; try lia.
  intros q k Hq Hk. apply cell_f64_bounds; lia.
Qed.

Theorem C52_mapped_exact (fft : Fft R) s n np :
  (1 <= np < n)%nat -> (2 * Z.of_nat n <= u64_max)%Z -> (n + np - 1 <= length s)%nat ->
  exists sxf, ssca_mapped fft s n np = Ret sxf /\ shape (np + 1) (2 * n + 1) sxf.
Proof.
  intros Hn Bn Hl. eexists. split; [|apply arr_shape]. apply ssca_mapped_ok; try lia.
  intros q k Hq Hk. rewrite cell_R by lia. cbn [fst snd].
  pose proof (cell_k_lt n np q k ltac:(lia) ltac:(lia) Hk). pose proof (cell_q_lt n np q k ltac:(lia) ltac:(lia) Hk Hq). lia.
Qed.

Theorem C52_mapped_panics {T} `{Num T} (fft : Fft T) s n np :
  (1 <= np)%nat -> (n <= np)%nat \/ (length s < n + np - 1)%nat -> ssca_mapped fft s n np = Panic.
Proof. intros Hnp Hb. unfold ssca_mapped. rewrite ssca_base_panics by lia. reflexivity. Qed.

Example C52_shortest_signal libm (fft : Fft F64) :
  let num := NumF libm in
  (exists sx, ssca_base fft (repeat (nofZ 1) 5) 4 2 = Ret sx /\ shape 4 2 sx) /\
  ssca_base fft (repeat (nofZ 1) 4) 4 2 = Panic.
Proof.
  intros num. split.
  - apply (@C52_base_defined F64 num); rewrite ?repeat_length; lia.
  - apply (@C52_base_panics F64 num); [lia|]. right. rewrite repeat_length. lia.
Qed.

(** ** C63: what [ssca_base] computes, over the reals *)
Local Open Scope R_scope.

(** The Hamming window. *)
Definition hamming (len i : nat) : R := 54 / 100 - 46 / 100 * cos (2 * PI * INR i / INR len).

(** Every product of two samples, windowed and turned by its phase. *)
Definition cyclic_periodogram (s : nat -> R) (n np q j : nat) : cpx R :=
  Csum_n n (fun p => Csum_n np (fun r =>
    cmul (Cpx (hamming n p * hamming np r * s (p + np / 2)%nat * s (p + r)%nat) 0)
         (cis (- (2 * PI) * ((INR j - INR np / 2) * INR p / INR np
                             + (INR j - INR (np / 2)) * INR r / INR np
                             + (INR q - INR (n / 2)) * INR p / INR n))))).

Lemma ceil_floor n : (div_ceil2 n + n / 2 = n)%nat.
Proof. unfold div_ceil2. pose proof (Nat.div_mod (n + 1) 2 ltac:(lia)). pose proof (Nat.div_mod n 2 ltac:(lia)).
  pose proof (Nat.mod_upper_bound (n + 1) 2 ltac:(lia)). pose proof (Nat.mod_upper_bound n 2 ltac:(lia)). lia. Qed.

Lemma root_shifted n (p q : nat) : (n <> 0)%nat ->
  root n (- (Z.of_nat p * Z.of_nat ((q + div_ceil2 n) mod n))) = cis (- (2 * PI) * ((INR q - INR (n / 2)) * INR p / INR n)).
Proof.
  intros Hn. pose proof (ceil_floor n) as CF.
  transitivity (root n (- (Z.of_nat p * (Z.of_nat q - Z.of_nat (n / 2))))).
  - rewrite <- (root_mod n (- (Z.of_nat p * Z.of_nat _))) by exact Hn. rewrite <- (root_mod n (- (Z.of_nat p * (_ - _)))) by exact Hn.
    f_equal. rewrite Nat2Z.inj_mod, Nat2Z.inj_add. set (N := Z.of_nat n).
    assert (E : Z.of_nat (div_ceil2 n) = (N - Z.of_nat (n / 2))%Z) by (unfold N; lia). rewrite E.
    set (h := Z.of_nat (n / 2)). set (P := Z.of_nat p). set (Q := Z.of_nat q). assert (N0 : N <> 0%Z) by (unfold N; lia).
    rewrite (Z.mod_eq (Q + (N - h)) N) by exact N0.
    replace (- (P * (Q + (N - h) - N * ((Q + (N - h)) / N))))%Z with (- (P * (Q - h)) + (P * ((Q + (N - h)) / N) - P) * N)%Z by ring.
    apply Z.mod_add. exact N0.
  - unfold root. f_equal. rewrite opp_IZR, mult_IZR, minus_IZR, <- !INR_IZR_INZ. field. apply not_0_INR. exact Hn.
Qed.

Lemma cexp_i_R x : @cexp_i R NumR x = cis x.
Proof. unfold cexp_i, cis. cbn [nexp ncos nsin nmul nofZ NumR]. rewrite exp_0, !Rmult_1_l. reflexivity. Qed.

Theorem C63_ssca_base_formula s n np : (1 <= np < n)%nat -> (n + np - 1 <= length s)%nat ->
  ssca_base exact_fft s n np = Ret (tab n (fun q => tab np (fun j => cyclic_periodogram (fun i => nth i s 0) n np q j))).
Proof.
  intros Hn Hl. rewrite ssca_base_ok by lia. f_equal. apply arr_ext. intros q j Hq Hj.
  unfold sx_val. cbn [fft_forward exact_fft]. rewrite dft_tab, fftshift_tab, tab_nth by exact Hq.
  apply Csum_ext. intros p Hp. rewrite root_shifted by lia.
  unfold cell_row. cbn [fft_forward exact_fft]. rewrite dft_tab, fftshift_tab, tab_nth by exact Hj.
  assert (HAM : forall len i, @ham R NumR len i = hamming len i).
  { intros len i. unfold ham, hamming, nlit. rewrite !nofnat_R. reflexivity. }
  rewrite cexp_i_R, HAM.
  set (S := Csum_n np _).
  assert (ES : S = Csum_n np (fun r => cmul (RtoC (hamming np r * nth (p + r) s 0))
                                (cis (- (2 * PI) * ((INR j - INR (np / 2)) * INR r / INR np))))).
  { apply Csum_ext. intros r Hr. rewrite root_shifted by lia. f_equal. rewrite HAM. apply cpx_eq; unfold cscale, RtoC; cbn; ring. }
  clearbody S. subst S.
  match goal with |- cmul (cmul (cmul (cmul _ ?a) ?b) ?c) ?d = _ =>
    transitivity (Csum_n np (fun r => cmul (cmul (RtoC (hamming np r * nth (p + r) s 0))
                                (cis (- (2 * PI) * ((INR j - INR (np / 2)) * INR r / INR np)))) (cmul (cmul (cmul a b) c) d))) end.
  { rewrite Csum_scale_r. ring. }
  apply Csum_ext. intros r Hr.
  rewrite Rmult_plus_distr_l, cis_add, Rmult_plus_distr_l, cis_add.
  match goal with |- context [cis (@ndiv R NumR ?a ?b)] =>
    replace (cis (@ndiv R NumR a b)) with (cis (- (2 * PI) * ((INR j - INR np / 2) * INR p / INR np))) end.
  2: { f_equal. rewrite !nofnat_R. cbn [nofZ nmul nadd nsub ndiv nopp npi NumR]. field. apply not_0_INR. lia. }
  set (e1 := cis _). set (e2 := cis _). set (e3 := cis _).
  replace (Cpx (hamming n p * hamming np r * nth (p + np / 2) s 0 * nth (p + r) s 0) 0) with
    (cmul (RtoC (hamming np r * nth (p + r) s 0)) (cmul (RtoC (nth (np / 2 + p) s 0)) (RtoC (hamming n p)))).
  2: { rewrite (Nat.add_comm p (np / 2)). apply cpx_eq; unfold RtoC; cbn; ring. }
  replace (cconj (@Cpx R (nth (np / 2 + p) s (nofZ 0)) (nofZ 0))) with (RtoC (nth (np / 2 + p) s 0)).
  2: { apply cpx_eq; unfold RtoC; cbn; ring. }
  change (@Cpx R (hamming n p) (@nofZ R NumR 0)) with (RtoC (hamming n p)). ring.
Qed.

(** Even sizes: each sample pair is turned by frequency (j - np/2)/np at time p + r and by cycle
    frequency (q - n/2)/n at time p. *)
Corollary C63_even s n np q j : (1 <= np < n)%nat -> Nat.even n = true -> Nat.even np = true ->
  cyclic_periodogram s n np q j =
  Csum_n n (fun p => Csum_n np (fun r =>
    cmul (Cpx (hamming n p * hamming np r * s (p + np / 2)%nat * s (p + r)%nat) 0)
         (cis (- (2 * PI) * ((INR j / INR np - 1 / 2) * INR (p + r) + (INR q / INR n - 1 / 2) * INR p))))).
Proof.
  intros Hn En Ep. apply Csum_ext. intros p _. apply Csum_ext. intros r _. do 2 f_equal.
  assert (HALF : forall m, Nat.even m = true -> INR (m / 2) = INR m / 2).
  { intros m Em. apply Nat.even_spec in Em. destruct Em as [h ->]. rewrite Nat.mul_comm, Nat.div_mul by lia. rewrite mult_INR. cbn [INR]. field. }
  rewrite !HALF by assumption. rewrite plus_INR. field. split; apply not_0_INR; lia.
Qed.

(** The analyser is quadratic in the amplitude. *)
Lemma cyclic_scale c s n np q j :
  cyclic_periodogram (fun i => c * s i) n np q j = cmul (RtoC (c * c)) (cyclic_periodogram s n np q j).
Proof.
  unfold cyclic_periodogram. rewrite <- Csum_scale. apply Csum_ext. intros p _. rewrite <- Csum_scale. apply Csum_ext. intros r _.
  set (e := cis _). set (h1 := hamming n p). set (h2 := hamming np r).
  replace (Cpx (h1 * h2 * (c * s (p + np / 2)%nat) * (c * s (p + r)%nat)) 0) with
    (cmul (RtoC (c * c)) (Cpx (h1 * h2 * s (p + np / 2)%nat * s (p + r)%nat) 0)) by (apply cpx_eq; unfold RtoC; cbn; ring).
  ring.
Qed.

Theorem C63_scale c s n np sx : (1 <= np)%nat ->
  ssca_base exact_fft s n np = Ret sx ->
  ssca_base exact_fft (map (Rmult c) s) n np = Ret (map (map (cmul (Cpx (c * c) 0))) sx).
Proof.
  intros Hnp E. destruct (Nat.le_gt_cases n np) as [Hn|Hn].
  { rewrite C52_base_panics in E by lia. discriminate. }
  destruct (Nat.lt_ge_cases (length s) (n + np - 1)) as [Hl|Hl].
  { rewrite C52_base_panics in E by lia. discriminate. }
  rewrite C63_ssca_base_formula in E by lia. apply (f_equal (fun o => match o with Ret v => v | _ => [] end)) in E. subst sx.
  rewrite C63_ssca_base_formula by (rewrite ?map_length; lia). f_equal. rewrite tab_map. apply tab_ext. intros q Hq.
  rewrite tab_map. apply tab_ext. intros j Hj. change (Cpx (c * c) 0) with (RtoC (c * c)). rewrite <- cyclic_scale.
  apply Csum_ext. intros p Hp. apply Csum_ext. intros r Hr.
  assert (NM : forall i, nth i (map (Rmult c) s) 0 = c * nth i s 0).
  { intros i. rewrite <- (Rmult_0_r c) at 1. apply map_nth. }
  rewrite !NM. reflexivity.
Qed.

Lemma hamming_ends : hamming 1 0 = 2 / 25 /\ hamming 2 0 = 2 / 25 /\ hamming 2 1 = 1.
Proof.
  unfold hamming. cbn [INR].
  replace (2 * PI * 0 / 1) with 0 by field. replace (2 * PI * 0 / (1 + 1)) with 0 by field.
  replace (2 * PI * 1 / (1 + 1)) with PI by field. rewrite cos_0, cos_PI. lra.
Qed.

Example C63_two_samples (a b : R) :
  ssca_base exact_fft [a; b] 2 1 =
  Ret [[Cpx (4 / 625 * (a * a) + 2 / 25 * (b * b)) 0]; [Cpx (4 / 625 * (a * a) - 2 / 25 * (b * b)) 0]].
Proof.
  rewrite C63_ssca_base_formula by (cbn; lia).
  destruct hamming_ends as (H1 & H2 & H3).
  assert (P0 : cis 0 = Cpx 1 0) by (unfold cis; rewrite cos_0, sin_0; reflexivity).
  assert (P2 : cis (2 * PI) = Cpx 1 0) by (unfold cis; rewrite cos_2PI, sin_2PI; reflexivity).
  assert (P1 : cis PI = Cpx (-1) 0) by (unfold cis; rewrite cos_PI, sin_PI; reflexivity).
  cbn [tab map seq]. unfold cyclic_periodogram.
  change (1 / 2)%nat with 0%nat. change (2 / 2)%nat with 1%nat. cbn [Csum_n Nat.add nth]. rewrite H1, H2, H3.
  do 2 f_equal; [|f_equal]; f_equal.
  - match goal with |- cadd (cadd _ (cadd _ (cmul _ (cis ?x)))) (cadd _ (cmul _ (cis ?y))) = _ =>
      replace x with 0 by (cbn [INR]; field); replace y with (2 * PI) by (cbn [INR]; field) end.
    rewrite P0, P2. apply cpx_eq; cbn; field.
  - match goal with |- cadd (cadd _ (cadd _ (cmul _ (cis ?x)))) (cadd _ (cmul _ (cis ?y))) = _ =>
      replace x with 0 by (cbn [INR]; field); replace y with PI by (cbn [INR]; field) end.
    rewrite P0, P1. apply cpx_eq; cbn; field.
Qed.

(** ** C64: which entries survive the mapping *)

(** Cells of the mapped output in whole-number arithmetic. *)
Definition dest (n np q_p k_p : nat) : nat * nat :=
  ((np * n + k_p * n - q_p * np) / (2 * n), (n * k_p + q_p * np) / np)%nat.

(** Every entry of sx is in its cell of sxf, and the other cells are zero. *)
Definition faithful {T} `{Num T} (n np : nat) (sx sxf : list (list (cpx T))) : Prop :=
  (forall q_p k_p, q_p < n -> k_p < np ->
     aget sxf (fst (dest n np q_p k_p)) (snd (dest n np q_p k_p)) = aget sx q_p k_p)%nat /\
  (forall k q, k <= np -> q <= 2 * n -> (forall q_p k_p, q_p < n -> k_p < np -> dest n np q_p k_p <> (k, q)) ->
     aget sxf k q = Ret c0)%nat.

Lemma mapped_faithful {T} `{Num T} (fft : Fft T) s n np :
  (1 <= np < n)%nat -> (exists r, n = r * np)%nat -> (n + np - 1 <= length s)%nat ->
  (forall q k, q < n -> k < np -> ssca_cell n np q k = dest n np q k)%nat ->
  exists sx sxf, ssca_base fft s n np = Ret sx /\ ssca_mapped fft s n np = Ret sxf /\ faithful n np sx sxf.
Proof.
  intros Hn Hr Hl EC.
  assert (BK : forall q k, (k < np -> fst (dest n np q k) < np)%nat) by (intros q k Hk; apply (cell_k_lt n np q k); lia).
  assert (BQ : forall q k, (q < n -> k < np -> snd (dest n np q k) < 2 * n)%nat) by (intros q k Hq Hk; apply (cell_q_lt n np q k); lia).
  assert (INJ : forall q1 k1 q2 k2, (q1 < n -> k1 < np -> q2 < n -> k2 < np ->
      ssca_cell n np q1 k1 = ssca_cell n np q2 k2 -> q1 = q2 /\ k1 = k2)%nat).
  { intros q1 k1 q2 k2 Q1 K1 Q2 K2 E. rewrite !EC in E by assumption. injection E as E1 E2.
    apply (cell_inj n np); try lia; assumption. }
  eexists. eexists. split; [apply ssca_base_ok; lia|]. split.
  - apply ssca_mapped_ok; try lia. intros q k Hq Hk. rewrite EC by assumption.
    pose proof (BK q k Hk). pose proof (BQ q k Hq Hk). lia.
  - destruct (mapped_val_inj fft s n np INJ) as [MV M0]. split.
    + intros q k Hq Hk. pose proof (BK q k Hk). pose proof (BQ q k Hq Hk). rewrite !aget_arr by lia. f_equal.
      rewrite <- EC by assumption. apply MV; assumption.
    + intros k q Hk Hq Hno. rewrite aget_arr by lia. f_equal. apply M0. intros q1 k1 Q1 K1. rewrite EC by assumption. apply Hno; assumption.
Qed.

(** Exact arithmetic: the mapping is one to one whenever np divides n. *)
Theorem C64_faithful_exact (fft : Fft R) s n np :
  (1 <= np < n)%nat -> Nat.divide np n -> (2 * Z.of_nat n <= u64_max)%Z -> (n + np - 1 <= length s)%nat ->
  exists sx sxf, ssca_base fft s n np = Ret sx /\ ssca_mapped fft s n np = Ret sxf /\ faithful n np sx sxf.
Proof.
  intros Hn Hd Bn Hl. apply mapped_faithful; try assumption. intros q k Hq Hk. apply cell_R; lia.
Qed.

(** Binary64: it is one to one when both sizes are powers of two (the defaults are 4096 and 64). *)
Theorem C64_faithful_f64 libm (fft : Fft F64) s a b :
  let num := NumF libm in
  (b < a <= 52)%nat -> (2 ^ a + 2 ^ b - 1 <= length s)%nat ->
  exists sx sxf, ssca_base fft s (2 ^ a) (2 ^ b) = Ret sx /\ ssca_mapped fft s (2 ^ a) (2 ^ b) = Ret sxf /\
    faithful (2 ^ a) (2 ^ b) sx sxf.
Proof.
  intros num Hab Hl. apply mapped_faithful.
  - split; [pose proof (Nat.pow_nonzero 2 b); lia|]. apply Nat.pow_lt_mono_r; lia.
  - exists (2 ^ (a - b))%nat. rewrite <- Nat.pow_add_r. f_equal. lia.
  - exact Hl.
  - intros q k Hq Hk. apply cell_f64_pow2; lia.
Qed.

(** In binary64 the mapping loses entries for sizes where it is exactly one to one: with n = 6 and
    np = 3, entries (3, 2) and (4, 1) land on the same cell, and only the second is left. *)
Theorem C64_f64_loses_entries_refuted libm (fft : Fft F64) s :
  let num := NumF libm in
  (8 <= length s)%nat ->
  dest 6 3 3 2 <> dest 6 3 4 1 /\
  ssca_cell 6 3 3 2 = ssca_cell 6 3 4 1 /\
  exists sx sxf, ssca_base fft s 6 3 = Ret sx /\ ssca_mapped fft s 6 3 = Ret sxf /\
    let '(k, q) := ssca_cell 6 3 3 2 in aget sxf k q = aget sx 4 1.
Proof.
  intros num Hl. split; [discriminate|].
  assert (E1 : ssca_cell 6 3 3 2 = (1, 6)%nat) by (vm_compute; reflexivity).
  assert (E2 : ssca_cell 6 3 4 1 = (1, 6)%nat) by (vm_compute; reflexivity).
  split; [rewrite E1, E2; reflexivity|].
  eexists. eexists. split; [apply ssca_base_ok; lia|]. split.
  - apply ssca_mapped_ok; try lia. intros q k Hq Hk. apply cell_f64_bounds; lia.
  - rewrite E1, !aget_arr by lia. apply (f_equal (@Ret (cpx F64))). unfold mapped_val.
    replace (find (hits 6 3 1 6) (rev (list_prod (seq 0 6) (seq 0 3)))) with (Some (4, 1)%nat) by (vm_compute; reflexivity).
    reflexivity.
Qed.

(** When np does not divide n, exact arithmetic loses entries too. *)
Theorem C64_exact_loses_entries_refuted :
  exists n np q1 k1 q2 k2, (1 <= np < n /\ q1 < n /\ k1 < np /\ q2 < n /\ k2 < np /\ (q1, k1) <> (q2, k2))%nat /\
    @ssca_cell R NumR n np q1 k1 = @ssca_cell R NumR n np q2 k2.
Proof.
  exists 6%nat, 4%nat, 2%nat, 1%nat, 3%nat, 0%nat. split; [repeat split; try lia; discriminate|].
  rewrite !cell_R by (try (unfold u64_max; cbn); lia). reflexivity.
Qed.

Example C64_small libm (fft : Fft F64) :
  let num := NumF libm in
  exists sx sxf, ssca_base fft (repeat (nofZ 1) 11) 8 4 = Ret sx /\ ssca_mapped fft (repeat (nofZ 1) 11) 8 4 = Ret sxf /\
    faithful 8 4 sx sxf.
Proof. intros num. apply (C64_faithful_f64 libm fft _ 3 2); rewrite ?repeat_length; cbn; lia. Qed.
