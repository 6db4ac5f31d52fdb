(** Property C99: noise, gain and phase on the FSK link (src/fm.rs), exact arithmetic. *)
From Coq Require Import List Arith ZArith Reals Bool Lia Lra Psatz.
From Verif Require Import Base IterTheory IterModel IterProofs Spec SpecR Tab Num LibModel LibReal ChaosModel PskModel PskChain RSums PskReal
  FskModel FskReal Props_Fsk Props_Pass Props_ChaosNoise.
Import ListNotations.
Local Open Scope R_scope.

(** ** Bessel's inequality for four tones *)

Lemma peel n (z e : nat -> R) h : 0 < h -> Rsum_n n (fun j => e j * e j) = h ->
  exists r : nat -> R,
  Rsum_n n (fun j => r j * r j) = Rsum_n n (fun j => z j * z j) - Rsum_n n (fun j => z j * e j) * Rsum_n n (fun j => z j * e j) / h /\
  forall e', Rsum_n n (fun j => e j * e' j) = 0 -> Rsum_n n (fun j => r j * e' j) = Rsum_n n (fun j => z j * e' j).
Proof.
  intros Hh He. set (a := Rsum_n n (fun j => z j * e j)). exists (fun j => z j - a / h * e j). split.
  - rewrite (Rsum_n_ext n _ (fun j => z j * z j + (- (2 * (a / h))) * (z j * e j) + (a / h * (a / h)) * (e j * e j))) by (intros; ring).
    rewrite !Rsum_n_plus, !Rsum_n_scale, He. fold a. field. lra.
  - intros e' O. rewrite (Rsum_n_ext n _ (fun j => z j * e' j + (- (a / h)) * (e j * e' j))) by (intros; ring).
    rewrite Rsum_n_plus, Rsum_n_scale, O. ring.
Qed.

Lemma bessel4 n (z e1 e2 e3 e4 : nat -> R) h : 0 < h ->
  let dot x y := Rsum_n n (fun j => x j * y j) in
  dot e1 e1 = h -> dot e2 e2 = h -> dot e3 e3 = h -> dot e4 e4 = h ->
  dot e1 e2 = 0 -> dot e1 e3 = 0 -> dot e1 e4 = 0 -> dot e2 e3 = 0 -> dot e2 e4 = 0 -> dot e3 e4 = 0 ->
  dot z e1 * dot z e1 + dot z e2 * dot z e2 + (dot z e3 * dot z e3 + dot z e4 * dot z e4) <= h * dot z z.
Proof.
  intros Hh dot N1 N2 N3 N4 O12 O13 O14 O23 O24 O34.
  destruct (peel n z e1 h Hh N1) as (r1 & E1 & P1).
  destruct (peel n r1 e2 h Hh N2) as (r2 & E2 & P2).
  destruct (peel n r2 e3 h Hh N3) as (r3 & E3 & P3).
  destruct (peel n r3 e4 h Hh N4) as (r4 & E4 & P4).
  assert (P : 0 <= Rsum_n n (fun j => r4 j * r4 j)) by (apply Rsum_n_nonneg; intros; apply Rle_0_sqr).
  rewrite E4, E3, E2, E1, (P3 e4 O34), (P2 e4 O24), (P2 e3 O23), (P1 e4 O14), (P1 e3 O13), (P1 e2 O12) in P.
  fold (dot z e1) (dot z e2) (dot z e3) (dot z e4) (dot z z) in P |- *.
  apply Rmult_le_compat_l with (r := h) in P; [|lra]. rewrite Rmult_0_r in P.
  replace (h * (dot z z - dot z e1 * dot z e1 / h - dot z e2 * dot z e2 / h - dot z e3 * dot z e3 / h - dot z e4 * dot z e4 / h))
    with (h * dot z z - dot z e1 * dot z e1 - dot z e2 * dot z e2 - dot z e3 * dot z e3 - dot z e4 * dot z e4) in P by (field; lra). lra.
Qed.

(** Orthogonal tones, whatever the phase they start with. *)
Lemma pair_sums n a b w v : kernel n (w - v) = 0 -> kernel n (w + v) = 0 ->
  Rsum_n n (fun j => cos (a + w * INR j) * cos (b + v * INR j)) = 0 /\
  Rsum_n n (fun j => cos (a + w * INR j) * sin (b + v * INR j)) = 0 /\
  Rsum_n n (fun j => sin (a + w * INR j) * cos (b + v * INR j)) = 0 /\
  Rsum_n n (fun j => sin (a + w * INR j) * sin (b + v * INR j)) = 0.
Proof.
  intros K1 K2.
  assert (D : forall c x, kernel n x = 0 -> Rsum_n n (fun j => cos (c + x * INR j)) = 0 /\ Rsum_n n (fun j => sin (c + x * INR j)) = 0).
  { intros c x K. rewrite sum_cos_kernel, sum_sin_kernel, K. lra. }
  destruct (D (a - b) _ K1) as [C1 S1]. destruct (D (a + b) _ K2) as [C2 S2].
  assert (X1 : forall j, a - b + (w - v) * INR j = (a + w * INR j) - (b + v * INR j)) by (intros; ring).
  assert (X2 : forall j, a + b + (w + v) * INR j = (a + w * INR j) + (b + v * INR j)) by (intros; ring).
  rewrite (Rsum_n_ext n _ (fun j => cos ((a + w * INR j) - (b + v * INR j)))) in C1 by (intros; rewrite X1; reflexivity).
  rewrite (Rsum_n_ext n _ (fun j => sin ((a + w * INR j) - (b + v * INR j)))) in S1 by (intros; rewrite X1; reflexivity).
  rewrite (Rsum_n_ext n _ (fun j => cos ((a + w * INR j) + (b + v * INR j)))) in C2 by (intros; rewrite X2; reflexivity).
  rewrite (Rsum_n_ext n _ (fun j => sin ((a + w * INR j) + (b + v * INR j)))) in S2 by (intros; rewrite X2; reflexivity).
  set (p := fun j => a + w * INR j) in *. set (q := fun j => b + v * INR j) in *.
  repeat split.
  - rewrite (Rsum_n_ext n _ (fun j => / 2 * cos (p j - q j) + / 2 * cos (p j + q j))) by (intros j _; rewrite (cos_minus (p j) (q j)), (cos_plus (p j) (q j)); unfold p, q; field).
    rewrite Rsum_n_plus, !Rsum_n_scale. unfold p, q in *. rewrite C1, C2. ring.
  - rewrite (Rsum_n_ext n _ (fun j => / 2 * sin (p j + q j) + - / 2 * sin (p j - q j))) by (intros j _; rewrite (sin_minus (p j) (q j)), (sin_plus (p j) (q j)); unfold p, q; field).
    rewrite Rsum_n_plus, !Rsum_n_scale. unfold p, q in *. rewrite S1, S2. ring.
  - rewrite (Rsum_n_ext n _ (fun j => / 2 * sin (p j + q j) + / 2 * sin (p j - q j))) by (intros j _; rewrite (sin_minus (p j) (q j)), (sin_plus (p j) (q j)); unfold p, q; field).
    rewrite Rsum_n_plus, !Rsum_n_scale. unfold p, q in *. rewrite S1, S2. ring.
  - rewrite (Rsum_n_ext n _ (fun j => / 2 * cos (p j - q j) + - / 2 * cos (p j + q j))) by (intros j _; rewrite (cos_minus (p j) (q j)), (cos_plus (p j) (q j)); unfold p, q; field).
    rewrite Rsum_n_plus, !Rsum_n_scale. unfold p, q in *. rewrite C1, C2. ring.
Qed.

Lemma self_sums n b w : kernel n (2 * w) = 0 ->
  Rsum_n n (fun j => cos (b + w * INR j) * cos (b + w * INR j)) = INR n / 2 /\
  Rsum_n n (fun j => sin (b + w * INR j) * sin (b + w * INR j)) = INR n / 2 /\
  Rsum_n n (fun j => cos (b + w * INR j) * sin (b + w * INR j)) = 0.
Proof.
  intros K.
  assert (C : Rsum_n n (fun j => cos (2 * b + (2 * w) * INR j)) = 0) by (rewrite sum_cos_kernel, K; ring).
  assert (S : Rsum_n n (fun j => sin (2 * b + (2 * w) * INR j)) = 0) by (rewrite sum_sin_kernel, K; ring).
  assert (X : forall j, 2 * b + (2 * w) * INR j = 2 * (b + w * INR j)) by (intros; ring).
  repeat split.
  - rewrite (Rsum_n_ext n _ (fun j => / 2 + / 2 * cos (2 * b + (2 * w) * INR j))) by (intros; rewrite X, cos_sq_half; field).
    rewrite Rsum_n_plus, Rsum_n_scale, C, Rsum_n_const. field.
  - rewrite (Rsum_n_ext n _ (fun j => / 2 + - / 2 * cos (2 * b + (2 * w) * INR j))) by (intros; rewrite X, sin_sq_half; field).
    rewrite Rsum_n_plus, Rsum_n_scale, C, Rsum_n_const. field.
  - rewrite (Rsum_n_ext n _ (fun j => / 2 * sin (2 * b + (2 * w) * INR j))) by (intros; rewrite X, (Rmult_comm (cos _)), sin_cos_half; field).
    rewrite Rsum_n_scale, S. ring.
Qed.

(** The receiver as a table: the energy found at either tone. *)
Definition tone_hits (sr n : nat) (fc : R) (k : nat) (b : bool) (x : nat -> R) : R :=
  let w := tone sr fc b in
  let I := Rsum_n n (fun j => x j * cos (w * INR k + w * INR j)) in
  let Q := Rsum_n n (fun j => x j * sin (w * INR k + w * INR j)) in I * I + Q * Q.

Lemma rx_fsk_table (received : Iter R) K g sr sy (fc : R) : (1 <= sy <= sr)%nat ->
  yields received (tab (K * (sr / sy)) g) ->
  exists rx, rx_fsk received sr sy fc = Ret rx /\
    yields rx (tab K (fun k => let x j := g (k * (sr / sy) + j)%nat in
      nleb (tone_hits sr (sr / sy) fc k false x) (tone_hits sr (sr / sy) fc k true x))).
Proof.
  intros Hs Y. unfold rx_fsk, usize_div. destruct (Nat.eqb_spec sy 0) as [|_]; [lia|]. cbn [bind]. set (n := (sr / sy)%nat) in *.
  assert (Hn : (1 <= n)%nat) by (apply Nat.div_le_lower_bound; lia). assert (Hsr : INR sr <> 0) by (apply not_0_INR; lia).
  set (sep := nmul (nlit 5 100) fc). assert (Esep : sep = 5 / 100 * fc) by reflexivity.
  eexists. split; [reflexivity|].
  pose proof (ienum_yields _ _ (chunks_yields n _ _ Hn Y)) as Z. rewrite chunk_list_tab, tab_index in Z by exact Hn.
  apply (imap_yields (fun '(idx, chunk) => fsk_decide sr fc sep idx chunk)) in Z. rewrite tab_map in Z.
  refine (eq_ind _ (fun x => yields _ x) Z _ _). apply tab_ext. intros k Hk. cbn zeta beta iota. rewrite fsk_decide_R. cbn zeta.
  assert (Tp : 2 * PI * (fc + sep / 2) / INR sr = tone sr fc true) by (unfold tone; rewrite Esep; f_equal; ring).
  assert (Tm : 2 * PI * (fc - sep / 2) / INR sr = tone sr fc false) by (unfold tone; rewrite Esep; f_equal; field).
  rewrite !Tp, !Tm. fold (tone_hits sr n fc k true (fun j => g (k * n + j)%nat)). fold (tone_hits sr n fc k false (fun j => g (k * n + j)%nat)).
  set (A := tone_hits sr n fc k true _). set (B := tone_hits sr n fc k false _). cbn [nleb NumR].
  destruct (Rle_dec 0 (A - B)), (Rle_dec B A); try reflexivity; lra.
Qed.

Lemma tx_fsk_table (message : Iter bool) m sr sy (fc : R) : (1 <= sy <= sr)%nat -> yields message m ->
  exists tx, tx_fsk message sr sy fc = Ret tx /\
    yields tx (tab (length m * (sr / sy)) (fun i => cos (tone sr fc (nth (i / (sr / sy)) m false) * INR i))).
Proof.
  intros Hs Hm. unfold tx_fsk, usize_div. destruct (Nat.eqb_spec sy 0) as [|_]; [lia|]. cbn [bind]. set (n := (sr / sy)%nat) in *.
  assert (Hn : (1 <= n)%nat) by (apply Nat.div_le_lower_bound; lia). assert (Hsr : INR sr <> 0) by (apply not_0_INR; lia).
  set (sep := nmul (nlit 5 100) fc). assert (Esep : sep = 5 / 100 * fc) by reflexivity.
  eexists. split; [reflexivity|].
  pose proof (imap_yields (fun '(idx, sig) =>
               let time := ndiv (nofnat idx) (nofnat sr) in
               ncos (nmul (nmul (nmul (nofZ 2) npi) (nadd fc (nmul sig (ndiv sep (nofZ 2))))) time)) _ _
    (ienum_yields _ _ (inflate_yields n _ _ Hn (imap_yields bit_to_nrz _ _ Hm)))) as Y.
  rewrite (repeat_each_list _ _ (bit_to_nrz false)), tab_index, tab_map, map_length in Y.
  refine (eq_ind _ (fun x => yields _ x) Y _ _). apply tab_ext. intros i Hi. cbv beta iota zeta.
  rewrite map_nth, nrz_R. cbn [ncos nmul nadd ndiv nofZ npi NumR]. f_equal.
  unfold tone, nofnat. cbn [nofZ NumR]. rewrite <- !INR_IZR_INZ, Esep. unfold Rdiv. ring.
Qed.

Section Orthogonal.
Variables (sr n : nat) (fc : R).
Hypothesis Hn : (1 <= n)%nat.
Hypothesis K2w : forall b, kernel n (2 * tone sr fc b) = 0.
Hypothesis Kd : kernel n (tone sr fc true - tone sr fc false) = 0.
Hypothesis Ks : kernel n (tone sr fc true + tone sr fc false) = 0.

Lemma Kd' b : kernel n (tone sr fc b - tone sr fc (negb b)) = 0 /\ kernel n (tone sr fc b + tone sr fc (negb b)) = 0.
Proof.
  destruct b; cbn [negb]; split; auto.
  - rewrite <- kernel_neg. replace (- (tone sr fc false - tone sr fc true)) with (tone sr fc true - tone sr fc false) by ring. exact Kd.
  - rewrite Rplus_comm. exact Ks.
Qed.

(** What the correlators find in a tone of any amplitude and phase, with anything added. *)
Lemma faded_hits k b gain theta (z : nat -> R) :
  let x j := gain * cos (theta + tone sr fc b * INR j) + z j in
  let w := tone sr fc b in let v := tone sr fc (negb b) in
  let zI u := Rsum_n n (fun j => z j * cos (u * INR k + u * INR j)) in
  let zQ u := Rsum_n n (fun j => z j * sin (u * INR k + u * INR j)) in
  exists alpha, cos alpha = cos (theta - w * INR k) /\
  tone_hits sr n fc k b x = (gain * (INR n / 2) * cos alpha + zI w) * (gain * (INR n / 2) * cos alpha + zI w) +
                            (- gain * (INR n / 2) * sin alpha + zQ w) * (- gain * (INR n / 2) * sin alpha + zQ w) /\
  tone_hits sr n fc k (negb b) x = zI v * zI v + zQ v * zQ v.
Proof.
  intros x w v zI zQ. exists (theta - w * INR k). split; [reflexivity|].
  set (al := theta - w * INR k). destruct (self_sums n (w * INR k) w (K2w b)) as (C & S & CS).
  destruct (Kd' b) as [D1 D2]. fold w v in D1, D2.
  assert (XE : forall j, x j = gain * cos al * cos (w * INR k + w * INR j) + - gain * sin al * sin (w * INR k + w * INR j) + z j).
  { intros j. unfold x. fold w. replace (theta + w * INR j) with (al + (w * INR k + w * INR j)) by (unfold al; ring). rewrite cos_plus. ring. }
  unfold tone_hits. fold w v. split.
  - replace (Rsum_n n (fun j => x j * cos (w * INR k + w * INR j))) with (gain * (INR n / 2) * cos al + zI w).
    2:{ rewrite (Rsum_n_ext n (fun j => x j * _) (fun j => (gain * cos al) * (cos (w * INR k + w * INR j) * cos (w * INR k + w * INR j)) +
          (- gain * sin al) * (cos (w * INR k + w * INR j) * sin (w * INR k + w * INR j)) + z j * cos (w * INR k + w * INR j))) by (intros; rewrite XE; ring).
        rewrite !Rsum_n_plus, !Rsum_n_scale, C, CS. unfold zI. ring. }
    replace (Rsum_n n (fun j => x j * sin (w * INR k + w * INR j))) with (- gain * (INR n / 2) * sin al + zQ w).
    2:{ rewrite (Rsum_n_ext n (fun j => x j * _) (fun j => (gain * cos al) * (cos (w * INR k + w * INR j) * sin (w * INR k + w * INR j)) +
          (- gain * sin al) * (sin (w * INR k + w * INR j) * sin (w * INR k + w * INR j)) + z j * sin (w * INR k + w * INR j))) by (intros; rewrite XE; ring).
        rewrite !Rsum_n_plus, !Rsum_n_scale, S, CS. unfold zQ. ring. }
    reflexivity.
  - destruct (pair_sums n (w * INR k) (v * INR k) w v D1 D2) as (O1 & O2 & O3 & O4).
    replace (Rsum_n n (fun j => x j * cos (v * INR k + v * INR j))) with (zI v).
    2:{ rewrite (Rsum_n_ext n (fun j => x j * _) (fun j => (gain * cos al) * (cos (w * INR k + w * INR j) * cos (v * INR k + v * INR j)) +
          (- gain * sin al) * (sin (w * INR k + w * INR j) * cos (v * INR k + v * INR j)) + z j * cos (v * INR k + v * INR j))) by (intros; rewrite XE; ring).
        rewrite !Rsum_n_plus, !Rsum_n_scale, O1, O3. unfold zI. ring. }
    replace (Rsum_n n (fun j => x j * sin (v * INR k + v * INR j))) with (zQ v).
    2:{ rewrite (Rsum_n_ext n (fun j => x j * _) (fun j => (gain * cos al) * (cos (w * INR k + w * INR j) * sin (v * INR k + v * INR j)) +
          (- gain * sin al) * (sin (w * INR k + w * INR j) * sin (v * INR k + v * INR j)) + z j * sin (v * INR k + v * INR j))) by (intros; rewrite XE; ring).
        rewrite !Rsum_n_plus, !Rsum_n_scale, O2, O4. unfold zQ. ring. }
    reflexivity.
Qed.

Lemma noise_hits k b (z : nat -> R) :
  let w := tone sr fc b in let v := tone sr fc (negb b) in
  let zI u := Rsum_n n (fun j => z j * cos (u * INR k + u * INR j)) in
  let zQ u := Rsum_n n (fun j => z j * sin (u * INR k + u * INR j)) in
  zI w * zI w + zQ w * zQ w + (zI v * zI v + zQ v * zQ v) <= INR n / 2 * Rsum_n n (fun j => z j * z j).
Proof.
  intros w v zI zQ. assert (0 < INR n) by (apply lt_0_INR; lia).
  destruct (self_sums n (w * INR k) w (K2w b)) as (C & S & CS). destruct (self_sums n (v * INR k) v (K2w (negb b))) as (C' & S' & CS').
  destruct (Kd' b) as [D1 D2]. fold w v in D1, D2. destruct (pair_sums n (w * INR k) (v * INR k) w v D1 D2) as (O1 & O2 & O3 & O4).
  apply (bessel4 n z (fun j => cos (w * INR k + w * INR j)) (fun j => sin (w * INR k + w * INR j))
    (fun j => cos (v * INR k + v * INR j)) (fun j => sin (v * INR k + v * INR j))); try assumption. lra.
Qed.

Lemma faded_right k b gain theta (z : nat -> R) :
  gain <> 0 -> Rsum_n n (fun j => z j * z j) < gain * gain * (INR n / 4) ->
  let x j := gain * cos (theta + tone sr fc b * INR j) + z j in
  tone_hits sr n fc k (negb b) x < tone_hits sr n fc k b x.
Proof.
  intros Hg Hz x. destruct (faded_hits k b gain theta z) as (al & _ & E1 & E2). fold x in E1, E2. rewrite E1, E2.
  pose proof (noise_hits k b z) as B. cbv beta zeta in B.
  set (p := Rsum_n n (fun j => z j * cos (tone sr fc b * INR k + _))) in *. set (q := Rsum_n n (fun j => z j * sin (tone sr fc b * INR k + _))) in *.
  set (p' := Rsum_n n (fun j => z j * cos (tone sr fc (negb b) * INR k + _))) in *. set (q' := Rsum_n n (fun j => z j * sin (tone sr fc (negb b) * INR k + _))) in *.
  set (Z := Rsum_n n (fun j => z j * z j)) in *. set (u := gain * (INR n / 2) * cos al). set (y := - gain * (INR n / 2) * sin al).
  assert (PN : 0 < INR n) by (apply lt_0_INR; lia).
  assert (U : u * u + y * y = gain * gain * (INR n / 2) * (INR n / 2)).
  { pose proof (sin2_cos2 al) as SC. unfold Rsqr in SC. unfold u, y.
    transitivity (gain * gain * (INR n / 2) * (INR n / 2) * (sin al * sin al + cos al * cos al)); [ring|]. rewrite SC. ring. }
  assert (L : INR n / 2 * Z < (u * u + y * y) / 2) by (rewrite U; nra).
  assert (0 <= (u + 2 * p) * (u + 2 * p)) by apply Rle_0_sqr. assert (0 <= (y + 2 * q) * (y + 2 * q)) by apply Rle_0_sqr. nra.
Qed.
Lemma hits_ext k b (x x' : nat -> R) : (forall j, (j < n)%nat -> x j = x' j) -> tone_hits sr n fc k b x = tone_hits sr n fc k b x'.
Proof.
  intros E. unfold tone_hits.
  rewrite (Rsum_n_ext n (fun j => x j * cos _) (fun j => x' j * cos (tone sr fc b * INR k + tone sr fc b * INR j))) by (intros; rewrite E by assumption; reflexivity).
  rewrite (Rsum_n_ext n (fun j => x j * sin _) (fun j => x' j * sin (tone sr fc b * INR k + tone sr fc b * INR j))) by (intros; rewrite E by assumption; reflexivity).
  reflexivity.
Qed.

Lemma lone_hits k b g t : tone_hits sr n fc k b (fun j => g * cos (t + tone sr fc b * INR j)) = g * g * (INR n / 2) * (INR n / 2).
Proof.
  destruct (faded_hits k b g t (fun _ => 0)) as (al & _ & E & _). cbv beta zeta in E.
  rewrite (hits_ext k b _ (fun j => g * cos (t + tone sr fc b * INR j) + 0)) by (intros; ring). rewrite E.
  assert (Z0 : forall f : nat -> R, Rsum_n n (fun j => 0 * f j) = 0) by (intros f; rewrite Rsum_n_scale; ring).
  rewrite (Z0 (fun j => cos (tone sr fc b * INR k + tone sr fc b * INR j))), (Z0 (fun j => sin (tone sr fc b * INR k + tone sr fc b * INR j))).
  pose proof (sin2_cos2 al) as SC. unfold Rsqr in SC.
  transitivity (g * g * (INR n / 2) * (INR n / 2) * (sin al * sin al + cos al * cos al)); [ring|]. rewrite SC. ring.
Qed.

Lemma two_tones k b g1 t1 g2 t2 :
  let x j := g1 * cos (t1 + tone sr fc b * INR j) + g2 * cos (t2 + tone sr fc (negb b) * INR j) in
  tone_hits sr n fc k b x = g1 * g1 * (INR n / 2) * (INR n / 2) /\
  tone_hits sr n fc k (negb b) x = g2 * g2 * (INR n / 2) * (INR n / 2).
Proof.
  intros x. split.
  - destruct (faded_hits k (negb b) g2 t2 (fun j => g1 * cos (t1 + tone sr fc b * INR j))) as (al & _ & _ & E). cbv beta zeta in E.
    rewrite !negb_involutive in E. rewrite <- (lone_hits k b g1 t1). rewrite (hits_ext k b x _ (fun j _ => Rplus_comm _ _)). exact E.
  - destruct (faded_hits k b g1 t1 (fun j => g2 * cos (t2 + tone sr fc (negb b) * INR j))) as (al & _ & _ & E). cbv beta zeta in E.
    rewrite <- (lone_hits k (negb b) g2 t2). exact E.
Qed.
End Orthogonal.

Lemma orthogonal_tones (sr n : nat) (fc : R) (a : nat) : (1 <= n)%nat -> (1 <= sr)%nat -> (1 <= a)%nat ->
  fc * INR n = 20 * INR a * INR sr -> fc * (1 + 5 / 100 / 2) < INR sr / 2 ->
  (forall b, kernel n (2 * tone sr fc b) = 0) /\ kernel n (tone sr fc true - tone sr fc false) = 0 /\
  kernel n (tone sr fc true + tone sr fc false) = 0.
Proof.
  intros Hn Hsr Ha Hfc Hny.
  assert (N1 : 1 <= INR n) by (apply (le_INR 1); exact Hn). assert (S1 : 1 <= INR sr) by (apply (le_INR 1); lia).
  assert (A1 : 1 <= INR a) by (apply (le_INR 1); exact Ha). pose proof PI_RGT_0 as PP.
  assert (F0 : 0 < fc) by nra.
  assert (Zs : forall q x (z : Z), 0 < q < INR sr -> x / 2 = PI * (q / INR sr) -> q * INR n = IZR z * INR sr -> kernel n x = 0).
  { intros q x z Hq Ex Ez. apply (kernel_whole n x z).
    - rewrite Ex. assert (0 < q / INR sr < 1).
      { split; [apply Rdiv_lt_0_compat; lra|]. apply Rmult_lt_reg_r with (INR sr); [lra|]. unfold Rdiv. rewrite Rmult_assoc, Rinv_l by lra. lra. }
      nra.
    - rewrite Ex. replace (INR n * (PI * (q / INR sr))) with (PI * (q * INR n) / INR sr) by (unfold Rdiv; ring). rewrite Ez. field. lra. }
  split; [|split].
  - intros [|].
    + apply (Zs (2 * (fc + 5 / 100 * fc / 2)) _ (41 * Z.of_nat a)%Z ltac:(lra)); [unfold tone; field; lra|]. rewrite mult_IZR, <- INR_IZR_INZ. lra.
    + apply (Zs (2 * (fc - 5 / 100 * fc / 2)) _ (39 * Z.of_nat a)%Z ltac:(lra)); [unfold tone; field; lra|]. rewrite mult_IZR, <- INR_IZR_INZ. lra.
  - apply (Zs (5 / 100 * fc) _ (Z.of_nat a) ltac:(lra)); [unfold tone; field; lra|]. rewrite <- INR_IZR_INZ. lra.
  - apply (Zs (2 * fc) _ (40 * Z.of_nat a)%Z ltac:(lra)); [unfold tone; field; lra|]. rewrite mult_IZR, <- INR_IZR_INZ. lra.
Qed.

(** ** C99 *)

Lemma tone_ph sr fc b k n j : tone sr fc b * INR (k * n + j) = tone sr fc b * INR (k * n) + tone sr fc b * INR j.
Proof. rewrite plus_INR. ring. Qed.

Lemma decide_of A B (b : bool) : (if b then B < A else A < B) -> nleb B A = b.
Proof. intros H. cbn [nleb NumR]. destruct b, (Rle_dec B A); try reflexivity; lra. Qed.

Lemma nth_tab {A} N (f : nat -> A) i d : (i < N)%nat -> nth i (tab N f) d = f i.
Proof. intros L. apply nth_error_nth. rewrite tab_nth_error. destruct (Nat.ltb_spec i N); [reflexivity|lia]. Qed.

(** The receiver's rule for whatever is received: bit [k] is true when the upper tone has at least as much of the symbol's
    energy as the lower, each tone found with a cosine and a sine. *)
Theorem C99_fsk_rule (received : Iter R) (ys : list R) K sr sy (fc : R) : (1 <= sy <= sr)%nat ->
  yields received ys -> length ys = (K * (sr / sy))%nat ->
  exists rx bits, rx_fsk received sr sy fc = Ret rx /\ yields rx bits /\ length bits = K /\
    forall k, (k < K)%nat ->
      let hits f := let w := 2 * PI * f / INR sr in
        let I := Rsum_n (sr / sy) (fun j => nth (k * (sr / sy) + j) ys 0 * cos (w * INR (k + j))) in
        let Q := Rsum_n (sr / sy) (fun j => nth (k * (sr / sy) + j) ys 0 * sin (w * INR (k + j))) in I * I + Q * Q in
      (nth k bits false = true <-> hits (fc - fc / 40) <= hits (fc + fc / 40)).
Proof.
  intros Hs Y L. rewrite <- (tab_nth_id ys 0), L in Y. destruct (rx_fsk_table received K _ sr sy fc Hs Y) as (rx & E & YR).
  eexists rx, _. split; [exact E|]. split; [exact YR|]. split; [apply tab_length|]. intros k Hk hits.
  rewrite nth_tab by exact Hk. cbn zeta beta.
  assert (H : forall b, tone_hits sr (sr / sy) fc k b (fun j => nth (k * (sr / sy) + j) ys 0) = hits (if b then fc + fc / 40 else fc - fc / 40)).
  { intros b. unfold tone_hits, hits. cbn zeta.
    assert (W : tone sr fc b = 2 * PI * (if b then fc + fc / 40 else fc - fc / 40) / INR sr).
    { unfold tone. f_equal. destruct b; field. }
    rewrite W. set (w := 2 * PI * _ / INR sr).
    rewrite (Rsum_n_ext _ (fun j => nth _ ys 0 * cos (w * INR k + w * INR j)) (fun j => nth (k * (sr / sy) + j) ys 0 * cos (w * INR (k + j))))
      by (intros; rewrite plus_INR, Rmult_plus_distr_l; reflexivity).
    rewrite (Rsum_n_ext _ (fun j => nth _ ys 0 * sin (w * INR k + w * INR j)) (fun j => nth (k * (sr / sy) + j) ys 0 * sin (w * INR (k + j))))
      by (intros; rewrite plus_INR, Rmult_plus_distr_l; reflexivity). reflexivity. }
  rewrite (H false), (H true). cbn [nleb NumR]. destruct (Rle_dec _ _); split; intros; try assumption; try reflexivity; try discriminate; contradiction.
Qed.

(** Tones that keep apart over a symbol: any gain and any phase for each symbol, and noise of less than half the symbol's
    energy, lose no bit. *)
Theorem C99_fsk_faded (received : Iter R) (m : list bool) sr sy (fc : R) (a : nat) (gain theta z : nat -> R) :
  (1 <= sy <= sr)%nat -> (1 <= a)%nat ->
  fc * INR (sr / sy) = 20 * INR a * INR sr -> fc * (1 + 1 / 40) < INR sr / 2 ->
  let n := (sr / sy)%nat in
  yields received (tab (length m * n) (fun i =>
    gain (i / n)%nat * cos (2 * PI * (if nth (i / n) m false then fc + fc / 40 else fc - fc / 40) * INR i / INR sr + theta (i / n)%nat) + z i)) ->
  (forall k, (k < length m)%nat -> gain k <> 0 /\
    Rsum_n n (fun j => z (k * n + j)%nat * z (k * n + j)%nat) < (gain k) ^ 2 * INR n / 4) ->
  exists rx, rx_fsk received sr sy fc = Ret rx /\ yields rx m.
Proof.
  intros Hs Ha Hfc Hny n Y Hz. assert (Hn : (1 <= n)%nat) by (apply Nat.div_le_lower_bound; lia).
  destruct (orthogonal_tones sr n fc a Hn ltac:(lia) Ha Hfc ltac:(lra)) as (K2w & Kd & Ks).
  assert (Hsr : INR sr <> 0) by (apply not_0_INR; lia).
  destruct (rx_fsk_table received _ _ sr sy fc Hs Y) as (rx & E & YR). exists rx. split; [exact E|].
  rewrite <- (tab_nth_id m false) at 1. refine (eq_ind _ (fun x => yields _ x) YR _ _). apply tab_ext. intros k Hk. cbn zeta.
  destruct (Hz k Hk) as [Hg HE]. fold n.
  pose proof (faded_right sr n fc Hn K2w Kd Ks k (nth k m false) (gain k) (theta k + tone sr fc (nth k m false) * INR (k * n))
    (fun j => z (k * n + j)%nat) Hg ltac:(cbv beta; lra)) as D. cbv zeta in D.
  apply decide_of.
  assert (X : forall b, tone_hits sr n fc k b (fun j => gain (((k * n + j) / n)%nat) *
     cos (2 * PI * (if nth ((k * n + j) / n) m false then fc + fc / 40 else fc - fc / 40) * INR (k * n + j) / INR sr + theta (((k * n + j) / n)%nat)) + z (k * n + j)%nat) =
     tone_hits sr n fc k b (fun j => gain k * cos (theta k + tone sr fc (nth k m false) * INR (k * n) + tone sr fc (nth k m false) * INR j) + z (k * n + j)%nat)).
  { intros b. apply hits_ext. intros j Hj. rewrite block_div by exact Hj. f_equal. f_equal. f_equal.
    unfold tone. rewrite plus_INR. destruct (nth k m false); field; exact Hsr. }
  rewrite !X. destruct (nth k m false); exact D.
Qed.

(** The link of src/fm.rs with noise added: less than half the energy of each symbol is harmless. *)
Theorem C99_fsk_noise (message : Iter bool) (m : list bool) (noise : list R) sr sy (fc : R) (a : nat) :
  yields message m -> (1 <= sy <= sr)%nat -> (1 <= a)%nat ->
  fc * INR (sr / sy) = 20 * INR a * INR sr -> fc * (1 + 1 / 40) < INR sr / 2 ->
  length noise = (length m * (sr / sy))%nat ->
  (forall k, (k < length m)%nat ->
    Rsum_n (sr / sy) (fun j => (nth (k * (sr / sy) + j) noise 0) ^ 2) < INR (sr / sy) / 4) ->
  exists tx rx, tx_fsk message sr sy fc = Ret tx /\ rx_fsk (noisy tx noise) sr sy fc = Ret rx /\ yields rx m.
Proof.
  intros Hm Hs Ha Hfc Hny Hl Hz. assert (Hsr : INR sr <> 0) by (apply not_0_INR; lia).
  destruct (tx_fsk_table message m sr sy fc Hs Hm) as (tx & Et & Yt). exists tx.
  pose proof (noisy_yields tx noise _ _ 0 Yt Hl) as Y.
  destruct (C99_fsk_faded (noisy tx noise) m sr sy fc a (fun _ => 1) (fun _ => 0) (fun i => nth i noise 0) Hs Ha Hfc Hny) as (rx & E & YR).
  - refine (eq_ind _ (fun x => yields _ x) Y _ _). apply tab_ext. intros i Hi. cbn [nadd NumR]. f_equal. rewrite Rmult_1_l, Rplus_0_r. f_equal.
    unfold tone. destruct (nth (i / (sr / sy)) m false); field; exact Hsr.
  - intros k Hk. split; [lra|]. specialize (Hz k Hk).
    rewrite (Rsum_n_ext _ _ (fun j => (nth (k * (sr / sy) + j) noise 0) ^ 2)) by (intros; ring). lra.
  - exists rx. auto.
Qed.

(** Half is the most that can be said: at any greater energy some noise within one symbol turns its bit, and a false bit is
    already lost at exactly half. *)
Theorem C99_fsk_tight (message : Iter bool) (m : list bool) sr sy (fc : R) (a k : nat) (E : R) :
  yields message m -> (1 <= sy <= sr)%nat -> (1 <= a)%nat ->
  fc * INR (sr / sy) = 20 * INR a * INR sr -> fc * (1 + 1 / 40) < INR sr / 2 ->
  (k < length m)%nat -> INR (sr / sy) / 4 < E \/ (nth k m false = false /\ INR (sr / sy) / 4 = E) ->
  exists noise tx rx bits, length noise = (length m * (sr / sy))%nat /\
    (forall i, (i / (sr / sy) <> k)%nat -> nth i noise 0 = 0) /\
    Rsum_n (sr / sy) (fun j => (nth (k * (sr / sy) + j) noise 0) ^ 2) = E /\
    tx_fsk message sr sy fc = Ret tx /\ rx_fsk (noisy tx noise) sr sy fc = Ret rx /\ yields rx bits /\ length bits = length m /\
    forall i, (i < length m)%nat -> nth i bits false = (if Nat.eqb i k then negb (nth i m false) else nth i m false).
Proof.
  intros Hm Hs Ha Hfc Hny Hk HE. set (n := (sr / sy)%nat) in *.
  assert (Hn : (1 <= n)%nat) by (apply Nat.div_le_lower_bound; lia). assert (PN : 0 < INR n) by (apply lt_0_INR; lia).
  destruct (orthogonal_tones sr n fc a Hn ltac:(lia) Ha Hfc ltac:(lra)) as (K2w & Kd & Ks).
  destruct (tx_fsk_table message m sr sy fc Hs Hm) as (tx & Et & Yt). fold n in Yt.
  set (b := nth k m false) in *. set (lam := sqrt (4 * E / INR n)).
  assert (E0 : INR n / 4 <= E) by lra.
  assert (L2 : lam * lam = 4 * E / INR n).
  { apply sqrt_sqrt. apply Rmult_le_pos; [lra|]. left. apply Rinv_0_lt_compat. exact PN. }
  assert (L0 : 0 <= lam) by apply sqrt_pos.
  assert (LE : lam * lam * INR n = 4 * E) by (rewrite L2; field; lra).
  assert (L1 : 1 <= lam).
  { apply Rnot_lt_le. intros B. assert (lam * lam < 1) by nra. assert (lam * lam * INR n < INR n) by nra. lra. }
  assert (L1' : INR n / 4 < E -> 1 < lam).
  { intros G. apply Rnot_le_lt. intros B. assert (lam * lam <= 1) by nra. assert (lam * lam * INR n <= INR n) by nra. lra. }
  set (z := fun i => if Nat.eqb (i / n) k then - (lam / 2) * cos (tone sr fc b * INR i) + lam / 2 * cos (tone sr fc (negb b) * INR i) else 0).
  set (noise := tab (length m * n) z).
  assert (Nz : forall q j, (q < length m)%nat -> (j < n)%nat -> nth (q * n + j) noise 0 = z (q * n + j)%nat).
  { intros q j Hq Hj. unfold noise. apply nth_tab. nia. }
  pose proof (noisy_yields tx noise _ _ 0 Yt (tab_length _ _)) as Y.
  destruct (rx_fsk_table (noisy tx noise) _ _ sr sy fc Hs Y) as (rx & Er & YR). fold n in YR.
  eexists noise, tx, rx, _. split; [apply tab_length|]. split; [|split; [|split; [exact Et|split; [exact Er|split; [exact YR|split; [apply tab_length|]]]]]].
  - intros i Hi. destruct (Nat.lt_ge_cases i (length m * n)) as [L|G].
    + unfold noise. rewrite nth_tab by exact L. unfold z. destruct (Nat.eqb_spec (i / n) k); [contradiction|reflexivity].
    + apply nth_overflow. unfold noise. rewrite tab_length. exact G.
  - destruct (self_sums n (tone sr fc b * INR (k * n)) _ (K2w b)) as (C & _ & _).
    destruct (self_sums n (tone sr fc (negb b) * INR (k * n)) _ (K2w (negb b))) as (C' & _ & _).
    destruct (Kd' sr n fc Kd Ks b) as [D1 D2].
    destruct (pair_sums n (tone sr fc b * INR (k * n)) (tone sr fc (negb b) * INR (k * n)) _ _ D1 D2) as (O & _ & _ & _).
    set (u := fun j => cos (tone sr fc b * INR (k * n) + tone sr fc b * INR j)) in *.
    set (v := fun j => cos (tone sr fc (negb b) * INR (k * n) + tone sr fc (negb b) * INR j)) in *.
    rewrite (Rsum_n_ext n _ (fun j => (lam / 2 * (lam / 2)) * (u j * u j) + (lam / 2 * (lam / 2)) * (v j * v j) + (- (2 * (lam / 2 * (lam / 2)))) * (u j * v j))).
    2:{ intros j Hj. rewrite Nz by assumption. unfold z. rewrite block_div, Nat.eqb_refl, !tone_ph by exact Hj. unfold u, v. ring. }
    rewrite !Rsum_n_plus, !Rsum_n_scale. unfold u, v. rewrite C, C', O. lra.
  - intros i Hi. rewrite nth_tab by exact Hi. cbv zeta. set (c := nth i m false).
    assert (X : forall b', tone_hits sr n fc i b' (fun j => nadd (cos (tone sr fc (nth ((i * n + j) / n) m false) * INR (i * n + j))) (nth (i * n + j) noise 0)) =
       tone_hits sr n fc i b' (fun j => (if Nat.eqb i k then 1 - lam / 2 else 1) * cos (tone sr fc c * INR (i * n) + tone sr fc c * INR j) +
         (if Nat.eqb i k then lam / 2 else 0) * cos (tone sr fc (negb c) * INR (i * n) + tone sr fc (negb c) * INR j))).
    { intros b'. apply hits_ext. intros j Hj. rewrite Nz by assumption. unfold z. rewrite block_div by exact Hj. fold c. cbn [nadd NumR]. rewrite !tone_ph.
      destruct (Nat.eqb_spec i k) as [->|NE]; [unfold c; fold b|]; ring. }
    rewrite !X. clear X.
    destruct (two_tones sr n fc K2w Kd Ks i c (if Nat.eqb i k then 1 - lam / 2 else 1) (tone sr fc c * INR (i * n))
       (if Nat.eqb i k then lam / 2 else 0) (tone sr fc (negb c) * INR (i * n))) as [T1 T2]. cbv zeta in T1, T2.
    set (H1 := tone_hits sr n fc i c _) in *. set (H2 := tone_hits sr n fc i (negb c) _) in *.
    destruct (Nat.eqb_spec i k) as [->|NE].
    + assert (LT : if c then H1 < H2 else H1 <= H2).
      { rewrite T1, T2. 
        assert (0 < INR n * INR n) by nra.
        destruct c eqn:Ec.
        - assert (1 < lam) by (destruct HE as [HE|[HE _]]; [auto|unfold c in Ec; fold b in Ec; congruence]). nra.
        - nra. }
      destruct c; cbn [negb] in *; cbn [nleb NumR]; destruct (Rle_dec _ _) as [L|L]; try reflexivity; exfalso; fold H1 H2 in L; lra.
    + apply decide_of. assert (0 < INR n * INR n) by nra. destruct c; cbn [negb] in *; fold H1 H2; rewrite T1, T2; nra.
Qed.

(** A continuous tone on the upper frequency, at any phase: below the transmitter's own amplitude it does nothing, from that
    amplitude on every bit is received as true. *)
Theorem C99_fsk_tone_jammer (message : Iter bool) (m : list bool) sr sy (fc A phi : R) (a : nat) :
  yields message m -> (1 <= sy <= sr)%nat -> (1 <= a)%nat ->
  fc * INR (sr / sy) = 20 * INR a * INR sr -> fc * (1 + 1 / 40) < INR sr / 2 -> 0 <= A ->
  let noise := map (fun i => A * cos (2 * PI * (fc + fc / 40) * INR i / INR sr + phi)) (seq 0 (length m * (sr / sy))) in
  exists tx rx, tx_fsk message sr sy fc = Ret tx /\ rx_fsk (noisy tx noise) sr sy fc = Ret rx /\
    (A < 1 -> yields rx m) /\ (1 <= A -> yields rx (repeat true (length m))).
Proof.
  intros Hm Hs Ha Hfc Hny HA noise. set (n := (sr / sy)%nat) in *.
  assert (Hn : (1 <= n)%nat) by (apply Nat.div_le_lower_bound; lia). assert (PN : 0 < INR n) by (apply lt_0_INR; lia).
  assert (Hsr : INR sr <> 0) by (apply not_0_INR; lia).
  destruct (orthogonal_tones sr n fc a Hn ltac:(lia) Ha Hfc ltac:(lra)) as (K2w & Kd & Ks).
  destruct (tx_fsk_table message m sr sy fc Hs Hm) as (tx & Et & Yt). fold n in Yt.
  change noise with (tab (length m * n) (fun i => A * cos (2 * PI * (fc + fc / 40) * INR i / INR sr + phi))) in *.
  set (z := fun i => A * cos (2 * PI * (fc + fc / 40) * INR i / INR sr + phi)) in *.
  pose proof (noisy_yields tx (tab (length m * n) z) _ _ 0 Yt (tab_length _ _)) as Y.
  destruct (rx_fsk_table _ _ _ sr sy fc Hs Y) as (rx & Er & YR). fold n in YR.
  exists tx, rx. split; [exact Et|]. split; [exact Er|].
  assert (Dec : forall k, (k < length m)%nat -> let x j := nadd (cos (tone sr fc (nth ((k * n + j) / n) m false) * INR (k * n + j))) (nth (k * n + j) (tab (length m * n) z) 0) in
     (nth k m false = true -> nleb (tone_hits sr n fc k false x) (tone_hits sr n fc k true x) = true) /\
     (nth k m false = false -> A < 1 -> nleb (tone_hits sr n fc k false x) (tone_hits sr n fc k true x) = false) /\
     (nth k m false = false -> 1 <= A -> nleb (tone_hits sr n fc k false x) (tone_hits sr n fc k true x) = true)).
  { intros k Hk x. assert (Px : forall j, (j < n)%nat -> x j = cos (tone sr fc (nth k m false) * INR (k * n) + tone sr fc (nth k m false) * INR j) +
       A * cos ((phi + tone sr fc true * INR (k * n)) + tone sr fc true * INR j)).
    { intros j Hj. unfold x. rewrite block_div by exact Hj. rewrite (nth_tab (length m * n) z) by nia.
      cbn [nadd NumR]. rewrite tone_ph. f_equal. unfold z. f_equal. f_equal. unfold tone. rewrite plus_INR. field. exact Hsr. }
    assert (NN : 0 < INR n * INR n) by nra.
    split; [|split].
    - intros Eb. rewrite Eb in Px.
      destruct (faded_hits sr n fc K2w Kd Ks k true 1 (tone sr fc true * INR (k * n))
        (fun j => A * cos ((phi + tone sr fc true * INR (k * n)) + tone sr fc true * INR j))) as (al & _ & _ & F). cbn [negb] in F. cbv beta zeta in F.
      destruct (two_tones sr n fc K2w Kd Ks k true A (phi + tone sr fc true * INR (k * n)) 0 0) as [_ G]. cbn [negb] in G. cbv zeta in G.
      rewrite (hits_ext sr n fc k false _ (fun j => A * cos (phi + tone sr fc true * INR (k * n) + tone sr fc true * INR j))) in G by (intros; ring).
      rewrite (hits_ext sr n fc k false x (fun j => 1 * cos (tone sr fc true * INR (k * n) + tone sr fc true * INR j) +
        A * cos ((phi + tone sr fc true * INR (k * n)) + tone sr fc true * INR j))) by (intros j Hj; rewrite Px by exact Hj; ring).
      rewrite F. unfold tone_hits at 1 in G. cbv zeta in G. rewrite G. cbn [nleb NumR]. destruct (Rle_dec _ _) as [|N]; [reflexivity|].
      exfalso. apply N. replace (0 * 0 * (INR n / 2) * (INR n / 2)) with 0 by ring. unfold tone_hits. cbv zeta.
      match goal with |- 0 <= ?p * ?p + ?q * ?q => pose proof (Rle_0_sqr p); pose proof (Rle_0_sqr q) end. unfold Rsqr in *. lra.
    - intros Eb HA1. rewrite Eb in Px.
      destruct (two_tones sr n fc K2w Kd Ks k false 1 (tone sr fc false * INR (k * n)) A (phi + tone sr fc true * INR (k * n))) as [T1 T2]. cbn [negb] in T1, T2. cbv zeta in T1, T2.
      rewrite (hits_ext sr n fc k false x (fun j => 1 * cos (tone sr fc false * INR (k * n) + tone sr fc false * INR j) +
        A * cos ((phi + tone sr fc true * INR (k * n)) + tone sr fc true * INR j))) by (intros j Hj; rewrite Px by exact Hj; ring).
      rewrite (hits_ext sr n fc k true x (fun j => 1 * cos (tone sr fc false * INR (k * n) + tone sr fc false * INR j) +
        A * cos ((phi + tone sr fc true * INR (k * n)) + tone sr fc true * INR j))) by (intros j Hj; rewrite Px by exact Hj; ring).
      rewrite T1, T2. apply decide_of. assert (A * A < 1) by nra. nra.
    - intros Eb HA1. rewrite Eb in Px.
      destruct (two_tones sr n fc K2w Kd Ks k false 1 (tone sr fc false * INR (k * n)) A (phi + tone sr fc true * INR (k * n))) as [T1 T2]. cbn [negb] in T1, T2. cbv zeta in T1, T2.
      rewrite (hits_ext sr n fc k false x (fun j => 1 * cos (tone sr fc false * INR (k * n) + tone sr fc false * INR j) +
        A * cos ((phi + tone sr fc true * INR (k * n)) + tone sr fc true * INR j))) by (intros j Hj; rewrite Px by exact Hj; ring).
      rewrite (hits_ext sr n fc k true x (fun j => 1 * cos (tone sr fc false * INR (k * n) + tone sr fc false * INR j) +
        A * cos ((phi + tone sr fc true * INR (k * n)) + tone sr fc true * INR j))) by (intros j Hj; rewrite Px by exact Hj; ring).
      rewrite T1, T2. cbn [nleb NumR]. destruct (Rle_dec _ _) as [|N]; [reflexivity|]. exfalso. apply N.
      assert (1 <= A * A) by nra. nra. }
  split; intros HA1.
  - rewrite <- (tab_nth_id m false) at 1. refine (eq_ind _ (fun x => yields _ x) YR _ _). apply tab_ext. intros k Hk. cbv zeta.
    destruct (Dec k Hk) as (D1 & D2 & D3). cbv zeta in D1, D2, D3. destruct (nth k m false) eqn:Eb; [apply D1|apply D2]; auto.
  - assert (ER : repeat true (length m) = tab (length m) (fun _ => true)).
    { apply repeat_tab. }
    rewrite ER. refine (eq_ind _ (fun x => yields _ x) YR _ _). apply tab_ext. intros k Hk. cbv zeta.
    destruct (Dec k Hk) as (D1 & D2 & D3). cbv zeta in D1, D2, D3. destruct (nth k m false) eqn:Eb; [apply D1|apply D3]; auto.
Qed.

(** Fifty samples a symbol and the carrier at twenty turns a symbol; noise of 0.49 on every sample. *)
Example C99_example (b : bool) : exists tx rx, tx_fsk (of_list [true; b; false]) 50 1 20 = Ret tx /\
  rx_fsk (noisy tx (map (fun _ => 49 / 100) (seq 0 150))) 50 1 20 = Ret rx /\ yields rx [true; b; false].
Proof.
  apply (C99_fsk_noise _ [true; b; false] _ 50 1 20 1).
  - apply of_list_yields.
  - lia.
  - lia.
  - change (50 / 1)%nat with 50%nat. rewrite !INR_IZR_INZ. cbn [Z.of_nat Pos.of_succ_nat Pos.succ]. lra.
  - rewrite !INR_IZR_INZ. cbn [Z.of_nat Pos.of_succ_nat Pos.succ]. lra.
  - rewrite map_length, seq_length. reflexivity.
  - intros k Hk. change (50 / 1)%nat with 50%nat.
    rewrite (Rsum_n_ext 50 _ (fun _ => (49 / 100) ^ 2)).
    2:{ intros j Hj. rewrite (nth_tab 150 (fun _ => 49 / 100)) by (cbn [length] in Hk; lia). reflexivity. }
    rewrite Rsum_n_const, !INR_IZR_INZ. cbn [Z.of_nat Pos.of_succ_nat Pos.succ]. lra.
Qed.

(** ** Axioms used *)
Print Assumptions C99_fsk_rule.
Print Assumptions C99_fsk_faded.
Print Assumptions C99_fsk_noise.
Print Assumptions C99_fsk_tight.
Print Assumptions C99_fsk_tone_jammer.
