(** Property C51: the FFT band-pass filter (src/bpf.rs). *)
From Coq Require Import List Arith ZArith Reals Bool Lia Lra Ring.
From Verif Require Import Base IterTheory IterModel IterProofs Spec SpecR Tab Num SpecC RSums LibModel PanicTheory
  FhProofs FftModel Dft BpfModel BpfProofs.
Import ListNotations.
Local Open Scope R_scope.

(** ** Lengths and panics, for every transform library and every number format *)

Lemma chunk_list_cut {A} n q (l : list A) : (1 <= n)%nat -> (length l = q * n + length (skipn (q * n) l))%nat ->
  (0 < length (skipn (q * n) l) < n)%nat ->
  chunk_list n l = map (fun i => block n i l) (seq 0 q) ++ [skipn (q * n) l].
Proof.
  intros Hn Hl Hr. unfold chunk_list.
  replace (ceil_div (length l) n) with (q + 1)%nat.
  - rewrite seq_app, map_app. f_equal. cbn [seq map Nat.add]. f_equal. unfold block. apply firstn_all2. lia.
  - pose proof (ceil_div_spec (length l) n ltac:(lia)). nia.
Qed.
Lemma chunk_list_whole {A} n q (l : list A) : (1 <= n)%nat -> (length l = q * n)%nat ->
  chunk_list n l = map (fun i => block n i l) (seq 0 q).
Proof.
  intros Hn Hl. unfold chunk_list. replace (ceil_div (length l) n) with q; [reflexivity|].
  pose proof (ceil_div_spec (length l) n ltac:(lia)). nia.
Qed.
Lemma block_length {A} n i q (l : list A) : (i < q)%nat -> (q * n <= length l)%nat -> length (block n i l) = n.
Proof. intros Hi Hl. unfold block. rewrite firstn_length, skipn_length. nia. Qed.

Lemma flat_map_const_length {A B} (w : A -> list B) n l : (forall a, In a l -> length (w a) = n) ->
  length (flat_map w l) = (length l * n)%nat.
Proof.
  induction l as [|a l IH]; intros Hl; [reflexivity|]. cbn [flat_map length].
  rewrite app_length, IH, (Hl a) by auto using in_eq, in_cons. reflexivity.
Qed.

(** The filter gives as many samples as it takes while whole blocks arrive; an incomplete last
    block panics after the output of the whole ones.  The hypothesis says that the crate's inverse
    transform takes the spectra it is given. *)
Theorem C51_length_any_fft {T} `{Num T} (fft : RealFft T) low high sr n (it : Iter T) x : (1 <= n)%nat ->
  (forall c, length c = n -> rfft_inverse fft n (bp_mask low high (rfft_forward fft c) (bp_frequencies sr n)) <> None) ->
  yields it x ->
  (length x mod n = 0 ->
     exists y, yields (bandpass fft low high it sr n) y /\ length y = length x)%nat /\
  (length x mod n <> 0 ->
     exists y, length y = length x / n * n /\ panics_after (bandpass fft low high it sr n) (map Some y))%nat.
Proof.
  intros Hn Acc Hy. pose proof (chunks_yields n it x Hn Hy) as Hc.
  pose proof (Nat.div_mod (length x) n ltac:(lia)) as D. pose proof (Nat.mod_upper_bound (length x) n ltac:(lia)) as M.
  set (q := (length x / n)%nat) in *.
  set (f := fun (_ : unit) chunk => let? l := bp_block fft low high sr n chunk in Ret (l, tt)).
  set (w := fun chunk => match bp_block fft low high sr n chunk with Ret l => l | _ => [] end).
  assert (W : forall c, length c = n -> f tt c = Ret (w c, tt) /\ length (w c) = n).
  { intros c Lc. unfold f, w, bp_block. rewrite Lc, Nat.eqb_refl. cbn [assert_then].
    specialize (Acc c Lc). destruct (rfft_inverse fft n _) as [y|] eqn:E; [|contradiction].
    cbn [bind]. split; [reflexivity|]. rewrite map_length. apply (rfft_inverse_length fft _ _ _ E). }
  assert (B : forall c, In c (map (fun i => block n i x) (seq 0 q)) -> length c = n).
  { intros c Hin. apply in_map_iff in Hin. destruct Hin as (i & <- & Hi). apply in_seq in Hi. apply (block_length n i q); lia. }
  assert (F : flat_ok f tt (map (fun i => block n i x) (seq 0 q)) (flat_map w (map (fun i => block n i x) (seq 0 q))) 0).
  { apply flat_ok_fn. intros c Hin. destruct (W c (B c Hin)) as [W1 W2]. split; [exact W1|].
    intros N. rewrite N in W2. cbn in W2. lia. }
  assert (L : length (flat_map w (map (fun i => block n i x) (seq 0 q))) = (q * n)%nat).
  { rewrite (flat_map_const_length w n).
    - rewrite map_length, seq_length. reflexivity.
    - intros a Ha. apply W, B, Ha. }
  split; intros R0.
  - rewrite (chunk_list_whole n q) in Hc by lia.
    eexists. split; [eapply iflat_yields; [exact Hc|exact F|reflexivity]|]. rewrite L. lia.
  - rewrite (chunk_list_cut n q) in Hc by (try rewrite skipn_length; lia).
    exists (flat_map w (map (fun i => block n i x) (seq 0 q))). split; [exact L|].
    eapply iflat_panics; [exact Hc|exact F| |reflexivity].
    intros u. unfold f, bp_block. replace (length (skipn (q * n) x) =? n)%nat with false; [reflexivity|].
    symmetry. apply Nat.eqb_neq. rewrite skipn_length. lia.
Qed.

(** ** Exact arithmetic *)

Lemma list_tab {A} (d : A) (l : list A) m : length l = m -> l = tab m (fun i => nth i l d).
Proof. intros <-. symmetry. apply tab_nth_id. Qed.
Lemma exact_accepts low high sr n c : (1 <= n)%nat -> length c = n ->
  rfft_inverse exact_real_fft n (bp_mask low high (rfft_forward exact_real_fft c) (bp_frequencies sr n)) <> None.
Proof.
  intros Hn Lc E. pose proof (bp_block_R low high sr n (fun i => nth i c 0) Hn) as B.
  rewrite <- (list_tab 0 c n Lc) in B. unfold bp_block in B. rewrite Lc, Nat.eqb_refl in B. cbn [assert_then] in B.
  rewrite E in B. discriminate.
Qed.

(** [bandpass] is defined exactly on whole numbers of blocks. *)
Theorem C51_bandpass_defined low high sr n (it : Iter R) x : (1 <= n)%nat -> yields it x ->
  (length x mod n = 0 ->
     exists y, yields (bandpass exact_real_fft low high it sr n) y /\ length y = length x)%nat /\
  (length x mod n <> 0 ->
     exists y, length y = length x / n * n /\
               panics_after (bandpass exact_real_fft low high it sr n) (map Some y))%nat.
Proof. intros Hn Hy. apply C51_length_any_fft; [exact Hn| |exact Hy]. intros c Lc. apply exact_accepts; assumption. Qed.

Lemma in_band_true low high sr n k : in_band low high sr n k = true <-> low <= INR (k * sr) / INR n <= high.
Proof.
  unfold in_band. rewrite negb_true_iff, orb_false_iff. cbn.
  destruct (Rlt_dec (INR (k * sr) / INR n) low) as [A|A], (Rlt_dec high (INR (k * sr) / INR n)) as [B|B];
    split; intros X; try (destruct X; discriminate); try (exfalso; lra); try (split; reflexivity); lra.
Qed.

Lemma div_mod_block n b j : (j < n)%nat -> ((b * n + j) / n = b /\ (b * n + j) mod n = j)%nat.
Proof.
  intros Hj. rewrite Nat.add_comm. split.
  - rewrite Nat.div_add, Nat.div_small by lia. reflexivity.
  - rewrite Nat.mod_add, Nat.mod_small by lia. reflexivity.
Qed.

(** What it does: in the spectrum of each block, the bins whose frequency is in the band stay and
    the others become zero.  Bin i of n and its mirror image n - i have frequency
    min(i, n - i) * sample_rate / n. *)
Theorem C51_bandpass_spectrum low high sr n (it : Iter R) x q : (1 <= n)%nat -> (length x = q * n)%nat -> yields it x ->
  exists y, yields (bandpass exact_real_fft low high it sr n) y /\ length y = length x /\
    forall b i, (b < q)%nat -> (i < n)%nat ->
      let spectrum l := dft (map (fun v => Cpx v 0) (block n b l)) in
      let f := INR (Nat.min i (n - i)) * INR sr / INR n in
      (low <= f <= high -> nth i (spectrum y) (Cpx 0 0) = nth i (spectrum x) (Cpx 0 0)) /\
      (~ (low <= f <= high) -> nth i (spectrum y) (Cpx 0 0) = Cpx 0 0).
Proof.
  intros Hn Hl Hy. pose proof (list_tab 0 x _ Hl) as Ex. revert Ex. generalize (fun i => nth i x 0) as g. intros g ->. clear Hl.
  pose proof (bandpass_yields low high sr n it q _ Hn Hy) as Y.
  eexists. split; [exact Y|]. split; [rewrite !tab_length; reflexivity|]. intros b i Hb Hi. cbv beta zeta.
  rewrite !block_tab by exact Hb. rewrite !tab_map, !dft_tab, !tab_nth by exact Hi.
  set (u := fun j => g (b * n + j)%nat).
  set (X := FT n (fun j => RtoC (u j)) i).
  match goal with |- (_ -> ?Y0 = ?X0) /\ _ => assert (EX : X0 = X); [|assert (EY : Y0 = masked n (in_band low high sr n) (FT n (fun j => RtoC (u j))) i)] end.
  - reflexivity.
  - rewrite <- FT_bp_out by lia. unfold FT at 1. apply Csum_ext. intros j Hj. f_equal. unfold RtoC. f_equal.
    destruct (div_mod_block n b j Hj) as [-> ->]. reflexivity.
  - rewrite EX, EY. unfold masked, keep. rewrite <- mult_INR.
    pose proof (in_band_true low high sr n (Nat.min i (n - i))) as B.
    destruct (in_band low high sr n (Nat.min i (n - i))).
    + split; [reflexivity|]. intros N. exfalso. apply N, B. reflexivity.
    + split; [|reflexivity]. intros N. apply B in N. discriminate.
Qed.

Lemma bandpass_out low high sr n it x q y : (1 <= n)%nat -> (length x = q * n)%nat -> yields it x ->
  yields (bandpass exact_real_fft low high it sr n) y ->
  y = tab (q * n) (fun i => bp_out n (in_band low high sr n) (fun j => nth (i / n * n + j) x 0) (i mod n)).
Proof.
  intros Hn Hl Hx Hy. rewrite (list_tab 0 x _ Hl) in Hx. pose proof (bandpass_yields low high sr n it q _ Hn Hx) as Y.
  exact (yields_det _ _ _ Hy Y).
Qed.

(** Filtering twice is filtering once. *)
Theorem C51_bandpass_idempotent low high sr n (it it2 : Iter R) x y : (1 <= n)%nat -> (length x mod n = 0)%nat ->
  yields it x -> yields (bandpass exact_real_fft low high it sr n) y -> yields it2 y ->
  yields (bandpass exact_real_fft low high it2 sr n) y.
Proof.
  intros Hn Hm Hx Hy H2. pose proof (Nat.div_mod (length x) n ltac:(lia)) as D. set (q := (length x / n)%nat) in *.
  assert (Hl : (length x = q * n)%nat) by lia.
  pose proof (bandpass_out _ _ _ _ _ _ _ _ Hn Hl Hx Hy) as E. rewrite E in H2 |- * at 1.
  pose proof (bandpass_yields low high sr n it2 q _ Hn H2) as Y.
  match goal with |- yields _ ?a => match type of Y with yields _ ?b => replace a with b; [exact Y|] end end.
  apply tab_ext. intros i Hi. set (b := (i / n)%nat).
  assert (Hj : (i mod n < n)%nat) by (apply Nat.mod_upper_bound; lia).
  symmetry. rewrite <- (bp_out_idem n _ _ (i mod n)) by lia. apply bp_out_ext. intros j Hj2.
  destruct (div_mod_block n b j Hj2) as [-> ->]. reflexivity.
Qed.

(** The filter is linear. *)
Theorem C51_bandpass_linear low high sr n (it1 it2 it : Iter R) a b x1 x2 y1 y2 : (1 <= n)%nat ->
  (length x1 mod n = 0)%nat -> length x2 = length x1 ->
  yields it1 x1 -> yields it2 x2 ->
  yields it (map (fun '(u, v) => a * u + b * v) (combine x1 x2)) ->
  yields (bandpass exact_real_fft low high it1 sr n) y1 ->
  yields (bandpass exact_real_fft low high it2 sr n) y2 ->
  yields (bandpass exact_real_fft low high it sr n) (map (fun '(u, v) => a * u + b * v) (combine y1 y2)).
Proof.
  intros Hn Hm L2 H1 H2 H Y1 Y2. pose proof (Nat.div_mod (length x1) n ltac:(lia)) as D. set (q := (length x1 / n)%nat) in *.
  assert (Hl1 : (length x1 = q * n)%nat) by lia. assert (Hl2 : (length x2 = q * n)%nat) by lia.
  rewrite (bandpass_out _ _ _ _ _ _ _ _ Hn Hl1 H1 Y1), (bandpass_out _ _ _ _ _ _ _ _ Hn Hl2 H2 Y2).
  rewrite (list_tab 0 x1 _ Hl1), (list_tab 0 x2 _ Hl2) in H.
  rewrite tab_combine, tab_map in H |- *. pose proof (bandpass_yields low high sr n it q _ Hn H) as Y.
  match goal with |- yields _ ?a => match type of Y with yields _ ?b => replace a with b; [exact Y|] end end.
  apply tab_ext. intros i Hi. rewrite <- bp_out_linear. reflexivity.
Qed.

(** ** Tones *)

Lemma FT_root n (m : Z) k : (n <> 0)%nat ->
  FT n (fun j => root n (m * Z.of_nat j)) k = if ((m - Z.of_nat k) mod Z.of_nat n =? 0)%Z then RtoC (INR n) else C0.
Proof.
  intros Hn. rewrite <- root_sum by exact Hn. unfold FT. apply Csum_ext. intros j _. rewrite <- root_add. f_equal. ring.
Qed.

Lemma tone_split n (m : nat) A phi j :
  RtoC (A * cos (2 * PI * INR m * INR j / INR n + phi)) =
  cadd (cmul (cmul (RtoC (A / 2)) (cis phi)) (root n (Z.of_nat m * Z.of_nat j)))
       (cmul (cmul (RtoC (A / 2)) (cis (- phi))) (root n (- Z.of_nat m * Z.of_nat j))).
Proof.
  unfold root. rewrite Z.mul_opp_l, opp_IZR, mult_IZR, <- !INR_IZR_INZ.
  replace (2 * PI * - (INR m * INR j) / INR n) with (- (2 * PI * INR m * INR j / INR n)) by (unfold Rdiv; ring).
  replace (2 * PI * (INR m * INR j) / INR n) with (2 * PI * INR m * INR j / INR n) by (unfold Rdiv; ring).
  set (t := 2 * PI * INR m * INR j / INR n). rewrite cos_plus.
  apply cpx_eq; cbn; rewrite ?cos_neg, ?sin_neg; field.
Qed.

Lemma tone_bins n m A phi k : (n <> 0)%nat -> (2 * m <= n)%nat -> (k < n)%nat -> Nat.min k (n - k) <> m ->
  FT n (fun j => RtoC (A * cos (2 * PI * INR m * INR j / INR n + phi))) k = C0.
Proof.
  intros Hn Hm Hk N. rewrite (FT_ext n _ _ k (fun j _ => tone_split n m A phi j)).
  rewrite FT_plus, !FT_scale, !FT_root by exact Hn.
  assert (M1 : ((Z.of_nat m - Z.of_nat k) mod Z.of_nat n =? 0)%Z = false).
  { apply Z.eqb_neq. intros E. apply Z.mod_divide in E; [|lia]. destruct E as [c E].
    assert (c = 0)%Z by nia. subst c. lia. }
  assert (M2 : ((- Z.of_nat m - Z.of_nat k) mod Z.of_nat n =? 0)%Z = false).
  { apply Z.eqb_neq. intros E. apply Z.mod_divide in E; [|lia]. destruct E as [c E].
    assert (c = 0 \/ c = -1)%Z by nia. destruct H; subst c; lia. }
  rewrite M1, M2. ring.
Qed.

Definition tone (n m : nat) (A phi : R) (i : nat) : R := A * cos (2 * PI * INR m * INR i / INR n + phi).

Lemma tone_block n m A phi b j : (n <> 0)%nat -> tone n m A phi (b * n + j) = tone n m A phi j.
Proof.
  intros Hn. unfold tone. f_equal. rewrite plus_INR, mult_INR.
  replace (2 * PI * INR m * (INR b * INR n + INR j) / INR n + phi)
    with (2 * PI * INR m * INR j / INR n + phi + 2 * INR (m * b) * PI)
    by (rewrite mult_INR; field; apply not_0_INR; exact Hn).
  apply cos_period.
Qed.

(** A tone on a bin goes through unchanged if its frequency is in the band, and is removed if not. *)
Theorem C51_bandpass_tone low high sr n m A phi q (it : Iter R) : (1 <= n)%nat -> (2 * m <= n)%nat ->
  yields it (tab (q * n) (fun i => A * cos (2 * PI * INR m * INR i / INR n + phi))) ->
  let f := INR m * INR sr / INR n in
  (low <= f <= high ->
     yields (bandpass exact_real_fft low high it sr n)
            (tab (q * n) (fun i => A * cos (2 * PI * INR m * INR i / INR n + phi)))) /\
  (~ (low <= f <= high) -> yields (bandpass exact_real_fft low high it sr n) (repeat 0 (q * n))).
Proof.
  intros Hn Hm Hy f. pose proof (bandpass_yields low high sr n it q _ Hn Hy) as Y.
  assert (B : in_band low high sr n m = true <-> low <= f <= high) by (unfold f; rewrite <- mult_INR; apply in_band_true).
  assert (Blk : forall i, bp_out n (in_band low high sr n) (fun j => A * cos (2 * PI * INR m * INR (i / n * n + j) / INR n + phi)) (i mod n)
     = bp_out n (in_band low high sr n) (tone n m A phi) (i mod n)).
  { intros i. apply bp_out_ext. intros j _. apply (tone_block n m A phi). lia. }
  split; intros Hf.
  - match goal with |- yields _ ?a => match type of Y with yields _ ?b => replace a with b; [exact Y|] end end.
    apply tab_ext. intros i Hi. rewrite Blk. assert (Hj : (i mod n < n)%nat) by (apply Nat.mod_upper_bound; lia).
    rewrite bp_out_pass; [|exact Hj|].
    + rewrite <- (tone_block n m A phi (i / n)) by lia. unfold tone. do 5 f_equal. f_equal.
      pose proof (Nat.div_mod i n ltac:(lia)). lia.
    + intros k Hk K. apply tone_bins; try lia. intros E. unfold keep in K. rewrite E in K. apply B in Hf. congruence.
  - rewrite repeat_tab.
    match goal with |- yields _ ?a => match type of Y with yields _ ?b => replace a with b; [exact Y|] end end.
    apply tab_ext. intros i Hi. rewrite Blk. assert (Hj : (i mod n < n)%nat) by (apply Nat.mod_upper_bound; lia).
    apply bp_out_stop; [exact Hj|]. intros k Hk K. apply tone_bins; try lia. intros E. unfold keep in K. rewrite E in K.
    apply Hf, B, K.
Qed.

(** ** Energy *)

Definition cabs2 (a : CR) : R := re a * re a + im a * im a.

Lemma parseval n x : (n <> 0)%nat -> Rsum_n n (fun k => cabs2 (FT n x k)) = INR n * Rsum_n n (fun j => cabs2 (x j)).
Proof.
  intros Hn.
  assert (E : Csum_n n (fun k => cmul (FT n x k) (cconj (FT n x k))) =
              cmul (RtoC (INR n)) (Csum_n n (fun j => cmul (x j) (cconj (x j))))).
  { rewrite (Csum_ext n _ (fun k => Csum_n n (fun j => cmul (cconj (x j)) (cmul (FT n x k) (root n (Z.of_nat k * Z.of_nat j)))))).
    - rewrite Csum_swap, <- Csum_scale. apply Csum_ext. intros j Hj. rewrite Csum_scale.
      pose proof (IT_FT n x j Hn Hj) as I. unfold IT in I. rewrite I. ring.
    - intros k Hk. transitivity (cmul (FT n x k) (Csum_n n (fun j => cmul (cconj (x j)) (root n (Z.of_nat k * Z.of_nat j))))).
      + f_equal. unfold FT. rewrite <- Csum_conj. apply Csum_ext. intros j _. rewrite cconj_mul, root_conj. f_equal. f_equal. ring.
      + rewrite <- Csum_scale. apply Csum_ext. intros j _. ring. }
  apply (f_equal re) in E. rewrite Csum_re in E. cbn [re cmul RtoC] in E.
  rewrite (Rsum_n_ext n _ (fun k => cabs2 (FT n x k))) in E by (intros; unfold cabs2; cbn; ring).
  rewrite E. cbn. rewrite Csum_re, Csum_im.
  rewrite (Rsum_n_ext n (fun j => re _) (fun j => cabs2 (x j))) by (intros; unfold cabs2; cbn; ring). ring.
Qed.

Lemma bp_out_energy n m x : (n <> 0)%nat ->
  Rsum_n n (fun j => bp_out n m x j * bp_out n m x j) <= Rsum_n n (fun j => x j * x j).
Proof.
  intros Hn. assert (P : 0 < INR n) by (apply lt_0_INR; lia).
  pose proof (parseval n (fun j => RtoC (x j)) Hn) as P1.
  pose proof (parseval n (fun j => RtoC (bp_out n m x j)) Hn) as P2.
  assert (L : Rsum_n n (fun k => cabs2 (FT n (fun j => RtoC (bp_out n m x j)) k)) <=
              Rsum_n n (fun k => cabs2 (FT n (fun j => RtoC (x j)) k))).
  { apply Rsum_n_le. intros k Hk. rewrite FT_bp_out by assumption. unfold masked. destruct (keep n m k); [lra|].
    unfold cabs2. cbn. set (a := FT n _ k). pose proof (Rle_0_sqr (re a)). pose proof (Rle_0_sqr (im a)). unfold Rsqr in *. lra. }
  rewrite P1, P2 in L. apply Rmult_le_reg_l in L; [|exact P].
  rewrite (Rsum_n_ext n _ (fun j => bp_out n m x j * bp_out n m x j)) in L by (intros; unfold cabs2; cbn; ring).
  rewrite (Rsum_n_ext n (fun j => cabs2 (RtoC (x j))) (fun j => x j * x j)) in L by (intros; unfold cabs2; cbn; ring).
  exact L.
Qed.

(** The filter never adds energy. *)
Theorem C51_bandpass_energy low high sr n (it : Iter R) x y : (1 <= n)%nat -> (length x mod n = 0)%nat ->
  yields it x -> yields (bandpass exact_real_fft low high it sr n) y ->
  Rsum (map (fun v => v * v) y) <= Rsum (map (fun v => v * v) x).
Proof.
  intros Hn Hm Hx Hy. pose proof (Nat.div_mod (length x) n ltac:(lia)) as D. set (q := (length x / n)%nat) in *.
  assert (Hl : (length x = q * n)%nat) by lia.
  rewrite (bandpass_out _ _ _ _ _ _ _ _ Hn Hl Hx Hy).
  replace (map (fun v => v * v) x) with (map (fun v => v * v) (tab (q * n) (fun i => nth i x 0)))
    by (rewrite <- (list_tab 0 x _ Hl); reflexivity).
  rewrite !tab_map, !Rsum_tab, !Rsum_n_mul. apply Rsum_n_le. intros b Hb.
  refine (Rle_trans _ _ _ _ (bp_out_energy n (in_band low high sr n) (fun i => nth (b * n + i) x 0) ltac:(lia))).
  apply Req_le, Rsum_n_ext. intros j Hj. destruct (div_mod_block n b j Hj) as [-> ->]. reflexivity.
Qed.

(** ** Concrete cases *)

(** Two blocks of 8 samples at 80 samples per second: a tone at 10 Hz plus one at 30 Hz
    through the band 9..11 Hz leaves the first tone. *)
Definition tone_10 := tab (2 * 8) (fun i => 1 * cos (2 * PI * INR 1 * INR i / INR 8 + 0)).
Definition tone_30 := tab (2 * 8) (fun i => 5 * cos (2 * PI * INR 3 * INR i / INR 8 + PI)).
Example C51_two_tones :
  yields (bandpass exact_real_fft 9 11
            (of_list (map (fun '(u, v) => 1 * u + 1 * v) (combine tone_10 tone_30))) 80 8) tone_10.
Proof.
  assert (E8 : INR 8 = 8) by (cbn; lra). assert (ES : INR 80 = 80) by (rewrite INR_IZR_INZ; reflexivity).
  destruct (C51_bandpass_tone 9 11 80 8 1 1 0 2 (of_list tone_10) ltac:(lia) ltac:(lia) (of_list_yields _)) as [P _].
  destruct (C51_bandpass_tone 9 11 80 8 3 5 PI 2 (of_list tone_30) ltac:(lia) ltac:(lia) (of_list_yields _)) as [_ S].
  specialize (P ltac:(rewrite ES, E8; cbn [INR]; lra)).
  specialize (S ltac:(rewrite ES, E8; cbn [INR]; lra)).
  pose proof (C51_bandpass_linear 9 11 80 8 (of_list tone_10) (of_list tone_30)
    (of_list (map (fun '(u, v) => 1 * u + 1 * v) (combine tone_10 tone_30))) 1 1 tone_10 tone_30 tone_10 (repeat 0 (2 * 8))
    ltac:(lia) ltac:(reflexivity) ltac:(reflexivity) (of_list_yields _) (of_list_yields _) (of_list_yields _) P S) as L.
  assert (E : map (fun '(u, v) => 1 * u + 1 * v) (combine tone_10 (repeat 0 (2 * 8))) = tone_10); [|rewrite E in L; exact L].
  unfold tone_10. rewrite repeat_tab, tab_combine, tab_map. apply tab_ext. intros i _. ring.
Qed.

(** Its output has no more energy than its input, and filtering it again changes nothing. *)
Example C51_two_tones_again : yields (bandpass exact_real_fft 9 11 (of_list tone_10) 80 8) tone_10.
Proof. eapply C51_bandpass_idempotent; [| | |exact C51_two_tones|]; [lia| |apply of_list_yields|apply of_list_yields]. reflexivity. Qed.

(** 11 samples are not a whole number of blocks of 8: the filter panics after 8. *)
Example C51_short_block : exists y, length y = 8%nat /\
  panics_after (bandpass exact_real_fft 9 11 (of_list (repeat 1 11)) 80 8) (map Some y).
Proof.
  destruct (C51_bandpass_defined 9 11 80 8 (of_list (repeat 1 11)) _ ltac:(lia) (of_list_yields _)) as [_ P].
  apply P. discriminate.
Qed.

(** ** Axioms used *)
Print Assumptions C51_length_any_fft.
Print Assumptions C51_bandpass_defined.
Print Assumptions C51_bandpass_spectrum.
Print Assumptions C51_bandpass_idempotent.
Print Assumptions C51_bandpass_linear.
Print Assumptions C51_bandpass_tone.
Print Assumptions C51_bandpass_energy.
