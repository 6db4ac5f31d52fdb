(** OFDM links over the reals: noise, channels, and the passband receiver. *)
From Coq Require Import List Arith ZArith Reals Bool Lia Lra Psatz.
From Verif Require Import Base IterTheory IterModel IterProofs Spec SpecR Tab Num LibModel LibReal
  ChaosModel PskModel PskChain CdmaModel FhProofs SpecC FftModel RSums PskReal Dft OfdmModel OfdmProofs OfdmReal OfdmWave.
Import ListNotations.
Local Open Scope R_scope.

(** ** The receiver's matched filter *)

Lemma fold_Rsum f n : fold_left Rplus (tab n f) 0 = Rsum_n n f.
Proof. rewrite fold_Rplus, Rsum_tab. lra. Qed.

Lemma Rsum_n_rev n f : Rsum_n n f = Rsum_n n (fun j => f (n - 1 - j)%nat).
Proof.
  induction n as [|n IH]; [reflexivity|]. cbn [Rsum_n]. rewrite IH.
  rewrite (Rsum_n_ext n (fun j => f (n - 1 - j)%nat) (fun j => f (S n - 1 - S j)%nat)) by (intros; f_equal; lia).
  replace (S n - 1 - n)%nat with 0%nat by lia.
  assert (G : forall g : nat -> R, Rsum_n n (fun j => g (S j)) + g 0%nat = Rsum_n n g + g n).
  { intros g. clear. induction n as [|n IH]; cbn [Rsum_n]; [reflexivity|]. lra. }
  specialize (G (fun j => f (S n - 1 - j)%nat)). cbn beta in G.
  replace (f (S n - 1 - 0)%nat) with (f n) in G by (f_equal; lia).
  replace (f (S n - 1 - n)%nat) with (f 0%nat) in G by (f_equal; lia). exact G.
Qed.

Lemma corr_ones (a : nat -> R) n L top len : (len <= L)%nat -> (top < n)%nat -> (len <= top + 1)%nat ->
  fold_left Rplus (corr_terms Rmult (tab n a) (repeat 1 L) top len) 0 = Rsum_n len (fun j => a (top + 1 - len + j)%nat).
Proof.
  intros H1 H2 H3.
  assert (E : corr_terms Rmult (tab n a) (repeat 1 L) top len = tab len (fun k => a (top - k)%nat)).
  { unfold corr_terms, tab at 2. rewrite repeat_length.
    transitivity (flat_map (fun k => [a (top - k)%nat]) (seq 0 len)).
    - apply flat_map_ext_in. intros k Hk. apply in_seq in Hk. rewrite tab_nth_error.
      destruct (Nat.ltb_spec (top - k) n); [|lia]. rewrite nth_error_repeat_lt by lia. rewrite Rmult_1_r. reflexivity.
    - rewrite flat_map_concat_map. induction (seq 0 len) as [|k l IH]; [reflexivity|]. cbn. f_equal. exact IH. }
  rewrite E, fold_Rsum, Rsum_n_rev. apply Rsum_n_ext. intros j Hj. f_equal. lia.
Qed.

(** Samples after the end of the signal count as zero. *)
Definition ext0 (n : nat) (a : nat -> R) (i : nat) : R := if (i <? n)%nat then a i else 0.

Lemma lane_filter (a : nat -> R) M L k : (1 <= L)%nat ->
  nth_error (conv_run 0 Rplus Rmult (repeat 1 L) [] (tab (M * L) a)) ((k + 1) * L) =
  if (k <? (if (L =? 1)%nat then M - 1 else M))%nat
  then Some (Rsum_n L (fun j => ext0 (M * L) a (k * L + 1 + j)%nat)) else None.
Proof.
  intros HL. rewrite conv_response, tab_length, repeat_length.
  destruct (Nat.lt_ge_cases (k + 1) M) as [H|H].
  - assert (HI : ((k + 1) * L < M * L)%nat) by nia.
    rewrite nth_error_app1 by (rewrite map_length, seq_length; exact HI).
    rewrite (nth_error_nth' _ 0) by (rewrite map_length, seq_length; exact HI).
    fold (tab (M * L) (fun i => fold_left Rplus (corr_terms Rmult (tab (M * L) a) (repeat 1 L) i (Nat.min (S i) L)) 0)).
    rewrite tab_nth by exact HI. replace (Nat.min (S ((k + 1) * L)) L) with L by nia.
    rewrite corr_ones by nia. destruct (Nat.ltb_spec k (if (L =? 1)%nat then M - 1 else M)) as [_|X]; [|destruct (L =? 1)%nat; lia].
    f_equal. apply Rsum_n_ext. intros j Hj. unfold ext0. destruct (Nat.ltb_spec (k * L + 1 + j) (M * L)); [|nia]. f_equal. nia.
  - destruct (Nat.eq_dec (k + 1) M) as [E|E].
    + rewrite nth_error_app2 by (rewrite map_length, seq_length; nia). rewrite map_length, seq_length.
      replace ((k + 1) * L - M * L)%nat with 0%nat by nia. replace (Nat.min (M * L) L) with L by nia.
      destruct (Nat.eqb_spec L 1) as [->|N1].
      * cbn [Nat.sub seq map nth_error]. destruct (Nat.ltb_spec k (M - 1)); [lia|reflexivity].
      * destruct (Nat.ltb_spec k M); [|lia]. destruct L as [|[|L]]; [lia|lia|]. cbn [Nat.sub seq map nth_error].
        rewrite corr_ones by nia. f_equal. cbn [Rsum_n]. 
        assert (Z : ext0 (M * S (S L)) a (k * S (S L) + 1 + S L) = 0).
        { unfold ext0. destruct (Nat.ltb_spec (k * S (S L) + 1 + S L) (M * S (S L))); [nia|reflexivity]. }
        rewrite Z, Rplus_0_r. change (Rsum_n (S L) (fun j => a (M * S (S L) - 1 + 1 - (S L - 0) + j)%nat) =
          Rsum_n (S L) (fun j => ext0 (M * S (S L)) a (k * S (S L) + 1 + j)%nat)).
        apply Rsum_n_ext. intros j Hj. unfold ext0. destruct (Nat.ltb_spec (k * S (S L) + 1 + j) (M * S (S L))); [|nia]. f_equal. nia.
    + destruct (Nat.ltb_spec k (if (L =? 1)%nat then M - 1 else M)) as [X|_]; [destruct (L =? 1)%nat; lia|].
      apply nth_error_None. rewrite app_length, !map_length, !seq_length. nia.
Qed.

Lemma map_nth_error_opt {A B} (f : A -> B) l i : nth_error (map f l) i = option_map f (nth_error l i).
Proof. apply nth_error_map. Qed.

Lemma rows_map l : Forall (fun r : list R => length r = 2%nat) l ->
  map (fun s_i => Cpx (nth 0 s_i 0) (nth 1 s_i 0)) l =
  map (fun '(x, y) => Cpx x y) (combine (map (lane 0 0) l) (map (lane 0 1) l)).
Proof. induction 1 as [|r l Hr H IH]; [reflexivity|]. cbn [map combine]. f_equal. exact IH. Qed.

Lemma matched_filter (rows : Iter (list R)) (a b : nat -> R) M L : (1 <= L)%nat ->
  yields rows (tab (M * L) (fun i => [a i; b i])) ->
  yields (iskip 1 (take_every L (imap (fun s_i => Cpx (nth 0 s_i 0) (nth 1 s_i 0))
            (nonvolve 2 0 Rplus Rmult (map (fun _ => 1) (seq 0 L)) rows))))
    (tab (if (L =? 1)%nat then M - 1 else M) (fun k =>
       Cpx (Rsum_n L (fun j => ext0 (M * L) a (k * L + 1 + j)%nat)) (Rsum_n L (fun j => ext0 (M * L) b (k * L + 1 + j)%nat)))).
Proof.
  intros HL Hy.
  assert (EF : map (fun _ : nat => 1) (seq 0 L) = repeat 1 L) by (symmetry; apply repeat_tab).
  rewrite EF. unfold nonvolve.
  pose proof (convolve_yields (repeat 0 2) (lanes_add Rplus) (fun lanes f => map (fun b => b * f) lanes) (repeat 1 L) rows _ Hy) as Y1.
  pose proof (iskip_yields 1 _ _ (take_every_yields L _ _ HL (imap_yields (fun s_i => Cpx (nth 0 s_i 0) (nth 1 s_i 0)) _ _ Y1))) as Y2.
  refine (eq_ind _ (fun x => yields _ x) Y2 _ _). clear Y1 Y2.
  destruct (conv_run_rows 0 Rplus Rmult 2 (repeat 1 L) (tab (M * L) (fun i => [a i; b i])) [] (Forall_nil _)) as [F2 EL].
  { apply Forall_forall. intros r Hr. apply in_map_iff in Hr. destruct Hr as (i & <- & _). reflexivity. }
  rewrite rows_map by exact F2. rewrite (EL 0 0%nat), (EL 0 1%nat) by lia.
  rewrite !tab_map. cbn [map lane nth]. unfold lane. cbn [nth].
  apply nth_error_inj. intros k. rewrite tab_nth_error.
  assert (SK : forall (A : Type) (l : list A), nth_error (skipn 1 l) k = nth_error l (k + 1)).
  { intros A l. destruct l as [|x l]; [destruct k; reflexivity|]. rewrite Nat.add_1_r. reflexivity. }
  rewrite SK, decim_nth by exact HL. rewrite Nat.add_0_l, nth_error_map, nth_error_combine, !lane_filter by exact HL.
  destruct (k <? (if (L =? 1)%nat then M - 1 else M))%nat; reflexivity.
Qed.

(** ** Modulus *)

Lemma cmod_nonneg a : 0 <= cmod a.
Proof. apply sqrt_pos. Qed.
Lemma cmod_sq a : cmod a * cmod a = re a * re a + im a * im a.
Proof. apply sqrt_sqrt. nra. Qed.
Lemma cmod_le a x : 0 <= x -> re a * re a + im a * im a <= x * x -> cmod a <= x.
Proof. intros Hx H. rewrite <- (sqrt_square x) by exact Hx. apply sqrt_le_1_alt. exact H. Qed.
Lemma cmod_mul a b : cmod (cmul a b) = cmod a * cmod b.
Proof. unfold cmod. rewrite <- sqrt_mult by nra. f_equal. cbn. ring. Qed.
Lemma cmod_triangle a b : cmod (cadd a b) <= cmod a + cmod b.
Proof.
  pose proof (cmod_nonneg a) as Ha. pose proof (cmod_nonneg b) as Hb.
  apply cmod_le; [lra|]. cbn.
  pose proof (cmod_sq a) as Qa. pose proof (cmod_sq b) as Qb.
  assert (D : re a * re b + im a * im b <= cmod a * cmod b).
  { destruct (Rle_lt_dec (re a * re b + im a * im b) 0) as [N|N]; [nra|].
    apply Rsqr_incr_0_var; [|nra]. unfold Rsqr.
    replace (cmod a * cmod b * (cmod a * cmod b)) with ((cmod a * cmod a) * (cmod b * cmod b)) by ring.
    rewrite Qa, Qb. pose proof (Rle_0_sqr (re a * im b - im a * re b)) as S. unfold Rsqr in S. nra. }
  nra.
Qed.
Lemma cmod_re a : Rabs (re a) <= cmod a.
Proof.
  unfold cmod. rewrite <- sqrt_Rsqr_abs. apply sqrt_le_1_alt. unfold Rsqr. nra.
Qed.
Lemma cmod_im a : Rabs (im a) <= cmod a.
Proof.
  unfold cmod. rewrite <- sqrt_Rsqr_abs. apply sqrt_le_1_alt. unfold Rsqr. nra.
Qed.
Lemma cmod_cis x : cmod (cis x) = 1.
Proof.
  unfold cmod. cbn. pose proof (sin2_cos2 x) as P. unfold Rsqr in P.
  replace (cos x * cos x + sin x * sin x) with 1 by lra. apply sqrt_1.
Qed.
Lemma cmod_root n z : cmod (root n z) = 1.
Proof. apply cmod_cis. Qed.
Lemma cmod_RtoC x : cmod (RtoC x) = Rabs x.
Proof. unfold cmod. cbn. rewrite Rmult_0_l, Rplus_0_r. apply sqrt_Rsqr_abs. Qed.
Lemma cmod_0 : cmod C0 = 0.
Proof. unfold C0. change (Cpx 0 0) with (RtoC 0). rewrite cmod_RtoC. apply Rabs_R0. Qed.
Lemma cmod_conj a : cmod (cconj a) = cmod a.
Proof. unfold cmod. cbn. f_equal. ring. Qed.
Lemma cmod_opp a : cmod (copp a) = cmod a.
Proof. unfold cmod. cbn. f_equal. ring. Qed.
Lemma cmod_sum n f : cmod (Csum_n n f) <= Rsum_n n (fun j => cmod (f j)).
Proof.
  induction n as [|n IH]; cbn [Csum_n Rsum_n].
  - change (Cpx 0 0) with C0. rewrite cmod_0. lra.
  - pose proof (cmod_triangle (Csum_n n f) (f n)). lra.
Qed.
Lemma cmod_parts a : cmod a <= Rabs (re a) + Rabs (im a).
Proof.
  pose proof (Rabs_pos (re a)). pose proof (Rabs_pos (im a)). apply cmod_le; [lra|].
  assert (re a * re a = Rabs (re a) * Rabs (re a)) by (rewrite <- Rabs_mult; symmetry; apply Rabs_pos_eq; nra).
  assert (im a * im a = Rabs (im a) * Rabs (im a)) by (rewrite <- Rabs_mult; symmetry; apply Rabs_pos_eq; nra). nra.
Qed.

Lemma tone_bound N F A z : (N <> 0)%nat -> (forall k, (k < N)%nat -> cmod (F k) <= A) -> cmod (tone N F z) <= A.
Proof.
  intros HN HF. assert (HR : 0 < INR N) by (apply lt_0_INR; lia). unfold tone. rewrite cmod_mul, cmod_RtoC.
  rewrite Rabs_pos_eq by (left; apply Rinv_0_lt_compat; exact HR).
  apply (Rmult_le_reg_l (INR N)); [exact HR|]. rewrite <- Rmult_assoc, Rinv_r, Rmult_1_l by lra.
  eapply Rle_trans; [apply cmod_sum|]. rewrite <- Rsum_n_const. apply Rsum_n_le. intros j Hj.
  rewrite cmod_mul, cmod_root, Rmult_1_r. apply HF. exact Hj.
Qed.

(** ** Decisions *)

Definition dec (v : CR) : list bool := [nleb (nofZ 0) (re v); nleb (nofZ 0) (im v)].
Definition qsym (p : bool * bool) : CR :=
  Cpx (if fst p then sqrt 2 else - sqrt 2) (if snd p then sqrt 2 else - sqrt 2).

Lemma sqrt2_bounds : 1414 / 1000 < sqrt 2 < 1415 / 1000.
Proof.
  split.
  - rewrite <- (sqrt_square (1414 / 1000)) by lra. apply sqrt_lt_1_alt. lra.
  - rewrite <- (sqrt_square (1415 / 1000)) by lra. apply sqrt_lt_1_alt. lra.
Qed.

Lemma qsym_mod p : cmod (qsym p) = 2.
Proof.
  unfold cmod, qsym. cbn. assert (S : sqrt 2 * sqrt 2 = 2) by (apply sqrt_sqrt; lra).
  replace ((if fst p then sqrt 2 else - sqrt 2) * (if fst p then sqrt 2 else - sqrt 2)) with 2 by (destruct (fst p); lra).
  replace ((if snd p then sqrt 2 else - sqrt 2) * (if snd p then sqrt 2 else - sqrt 2)) with 2 by (destruct (snd p); lra).
  replace (2 + 2) with (2 * 2) by lra. apply sqrt_square. lra.
Qed.

Lemma dec_close a p v : 0 < a -> Rabs (re v - a * re (qsym p)) < a * sqrt 2 -> Rabs (im v - a * im (qsym p)) < a * sqrt 2 ->
  dec v = [fst p; snd p].
Proof.
  intros Ha H1 H2. apply Rabs_def2 in H1. apply Rabs_def2 in H2. unfold dec, qsym in *. cbn in *.
  destruct sqrt2_bounds as [S1 S2].
  assert (D : forall b x : R, forall t : bool, - (a * sqrt 2) < x - a * (if t then sqrt 2 else - sqrt 2) < a * sqrt 2 ->
    (if Rle_dec 0 x then true else false) = t).
  { intros _ x t Hx. destruct t, (Rle_dec 0 x); try reflexivity; nra. }
  f_equal; [|f_equal]; apply (D 0); lra.
Qed.

Lemma pairs_len {A} n : forall m : list A, length m = n -> length (pairs m) = (length m / 2)%nat.
Proof.
  induction n as [n IH] using (well_founded_induction lt_wf). intros m L.
  destruct m as [|a [|b m]]; try reflexivity. cbn [pairs length].
  rewrite (IH (length m)) by (try reflexivity; cbn in L; lia).
  replace (S (S (length m))) with (length m + 1 * 2)%nat by lia. rewrite Nat.div_add by lia. lia.
Qed.
Lemma unpairs {A} n : forall m : list A, length m = n ->
  flat_map (fun p => [fst p; snd p]) (pairs m) = firstn (2 * (length m / 2)) m.
Proof.
  induction n as [n IH] using (well_founded_induction lt_wf). intros m L.
  destruct m as [|a [|b m]]; try reflexivity. cbn [pairs flat_map].
  rewrite (IH (length m)) by (try reflexivity; cbn in L; lia).
  replace (length (a :: b :: m)) with (length m + 1 * 2)%nat by (cbn; lia). rewrite Nat.div_add by lia.
  replace (2 * (length m / 2 + 1))%nat with (S (S (2 * (length m / 2)))) by lia. reflexivity.
Qed.

(** Enough close symbols: the message, then whatever the padding decodes to. *)
Lemma dec_prefix (m : list bool) n (v : nat -> CR) a : 0 < a -> (length m / 2 <= n)%nat ->
  (forall i p, nth_error (pairs m) i = Some p ->
     Rabs (re (v i) - a * re (qsym p)) < a * sqrt 2 /\ Rabs (im (v i) - a * im (qsym p)) < a * sqrt 2) ->
  exists extra, length extra = (2 * (n - length m / 2))%nat /\
    flat_map dec (tab n v) = firstn (2 * (length m / 2)) m ++ extra.
Proof.
  intros Ha Hn Hv. exists (flat_map dec (tab (n - length m / 2) (fun i => v (length m / 2 + i)%nat))). split.
  - generalize (n - length m / 2)%nat as k. intros k.
    assert (L : forall l, length (flat_map dec l) = (2 * length l)%nat) by (induction l; cbn in *; lia).
    rewrite L, tab_length. reflexivity.
  - replace n with (length m / 2 + (n - length m / 2))%nat at 1 by lia. rewrite tab_add, flat_map_app. f_equal.
    rewrite <- (unpairs (length m) m eq_refl).
    rewrite <- (tab_nth_id (pairs m) (false, false)) , (pairs_len (length m) m eq_refl).
    unfold tab. rewrite !flat_map_map. apply flat_map_ext_in. intros i Hi. apply in_seq in Hi.
    apply (dec_close a); try exact Ha; apply Hv; apply nth_error_nth'; rewrite (pairs_len (length m) m eq_refl); lia.
Qed.

Lemma rx_qpsk_dec (it : Iter CR) l : yields it l -> yields (rx_baseband_qpsk_signal it) (flat_map dec l).
Proof.
  intros Hy. unfold rx_baseband_qpsk_signal. apply iflat_pure_yields; [exact Hy|]. discriminate.
Qed.
Lemma tx_qpsk_sym (it : Iter bool) m : yields it m -> yields (tx_baseband_qpsk_signal it) (map qsym (pairs m)).
Proof.
  intros Hy. unfold tx_baseband_qpsk_signal. pose proof (imap_yields (fun '(bit1, bit2) => match bit1, bit2 with
          | true, true => Cpx (nsqrt (nofZ 2)) (nsqrt (nofZ 2))
          | true, false => Cpx (nsqrt (nofZ 2)) (nopp (nsqrt (nofZ 2)))
          | false, true => Cpx (nopp (nsqrt (nofZ 2))) (nsqrt (nofZ 2))
          | false, false => Cpx (nopp (nsqrt (nofZ 2))) (nopp (nsqrt (nofZ 2)))
          end) _ _ (ituples_yields it m Hy)) as Y.
  refine (eq_ind _ (fun x => yields _ x) Y _ _). apply map_ext. intros [[] []]; reflexivity.
Qed.

Lemma nth_sym_mod m i : cmod (nth i (map qsym (pairs m)) c0) <= 2.
Proof.
  destruct (nth_in_or_default i (map qsym (pairs m)) c0) as [I| ->].
  - apply in_map_iff in I. destruct I as (p & <- & _). rewrite qsym_mod. lra.
  - change (@c0 R NumR) with C0. rewrite cmod_0. lra.
Qed.

Lemma carries_bound N P data F A : 0 <= A -> (forall i, cmod (data i) <= A) -> carries N P data F ->
  forall k, (k < N)%nat -> cmod (F k) <= A.
Proof.
  intros HA Hd (_ & C2) k Hk. destruct (C2 k Hk) as [->|(i & _ & ->)]; [|apply Hd].
  change (@c0 R NumR) with C0. rewrite cmod_0. exact HA.
Qed.

(** ** Periodic sums *)

Lemma Csum_shift N (G : Z -> CR) (l : nat) : (N <> 0)%nat -> (forall z, G (z + Z.of_nat N)%Z = G z) ->
  Csum_n N (fun j => G (Z.of_nat j - Z.of_nat l)%Z) = Csum_n N (fun j => G (Z.of_nat j)).
Proof.
  intros HN HG. rewrite <- (Csum_rotate N (fun j => G (Z.of_nat j - Z.of_nat l)%Z)) with (k := l).
  - apply Csum_ext. intros j _. f_equal. lia.
  - intros j. rewrite <- (HG (Z.of_nat j - Z.of_nat l)%Z). f_equal. lia.
Qed.
Lemma Csum_shift_up N (G : Z -> CR) : (N <> 0)%nat -> (forall z, G (z + Z.of_nat N)%Z = G z) ->
  Csum_n N (fun j => G (Z.of_nat j + 1)%Z) = Csum_n N (fun j => G (Z.of_nat j)).
Proof.
  intros HN HG. rewrite <- (Csum_rotate N (fun j => G (Z.of_nat j))) with (k := 1%nat).
  - apply Csum_ext. intros j _. f_equal. lia.
  - intros j. rewrite <- (HG (Z.of_nat j)). f_equal. lia.
Qed.

(** A delayed tone. *)
Lemma bin_of_delay N F k (l : nat) : (N <> 0)%nat -> (k < N)%nat ->
  Csum_n N (fun j => cmul (tone N F (Z.of_nat j - Z.of_nat l)) (root N (- (Z.of_nat j * Z.of_nat k)))) =
  cmul (root N (- (Z.of_nat l * Z.of_nat k))) (F k).
Proof.
  intros HN Hk. rewrite <- (bin_of_tone N F k HN Hk), <- Csum_scale.
  set (G := fun z => cmul (root N (- (Z.of_nat l * Z.of_nat k))) (cmul (tone N F z) (root N (- (z * Z.of_nat k))))).
  rewrite (Csum_ext N _ (fun j => G (Z.of_nat j - Z.of_nat l)%Z)).
  - rewrite Csum_shift; [reflexivity|exact HN|]. intros z. unfold G. f_equal.
    replace (z + Z.of_nat N)%Z with (z + 1 * Z.of_nat N)%Z by lia. rewrite tone_period by exact HN. f_equal.
    replace (- ((z + 1 * Z.of_nat N) * Z.of_nat k))%Z with (- (z * Z.of_nat k) + Z.of_nat N * - Z.of_nat k)%Z by ring.
    rewrite root_add, root_period by exact HN. ring.
  - intros j _. unfold G.
    replace (- (Z.of_nat j * Z.of_nat k))%Z with (- (Z.of_nat l * Z.of_nat k) + - ((Z.of_nat j - Z.of_nat l) * Z.of_nat k))%Z by ring.
    rewrite root_add. ring.
Qed.
