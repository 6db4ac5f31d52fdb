(** Lemmas for the constellations of tests/bpsk.rs and tests/qpsk.rs. *)
From Coq Require Import List Arith ZArith Reals Bool Lia Lra Psatz.
From Verif Require Import Base IterTheory IterModel IterProofs Spec SpecR Tab Num LibModel LibReal
  ChaosModel PskModel PskChain RSums PskReal OfdmLink ConstModel.
Import ListNotations.
Local Open Scope R_scope.

(** ** Mixers *)

Lemma mix_i_yields {T} `{Num T} (tx : list T) sr fc d :
  yields (mix_i tx sr fc) (tab (length tx) (fun i => nmul (nth i tx d) (ccos sr fc i))).
Proof.
  unfold mix_i. pose proof (ienum_yields _ _ (of_list_yields tx)) as Y.
  rewrite <- (tab_nth_id tx d) in Y at 2. rewrite tab_index in Y.
  apply (imap_yields (fun '(idx, sample) =>
     let time := ndiv (nofnat idx) (nofnat sr) in nmul sample (ncos (nmul (nmul (nmul (nofZ 2) npi) fc) time)))) in Y.
  rewrite tab_map in Y. exact Y.
Qed.
Lemma mix_q_yields {T} `{Num T} (tx : list T) sr fc d :
  yields (mix_q tx sr fc) (tab (length tx) (fun i => nmul (nth i tx d) (nopp (csin sr fc i)))).
Proof.
  unfold mix_q. pose proof (ienum_yields _ _ (of_list_yields tx)) as Y.
  rewrite <- (tab_nth_id tx d) in Y at 2. rewrite tab_index in Y.
  apply (imap_yields (fun '(idx, sample) =>
     let time := ndiv (nofnat idx) (nofnat sr) in nmul sample (nopp (nsin (nmul (nmul (nmul (nofZ 2) npi) fc) time))))) in Y.
  rewrite tab_map in Y. exact Y.
Qed.

(** ** The last item of a convolution with ones *)

Lemma ones_R L : (ones L : list R) = repeat 1 L.
Proof. symmetry. apply repeat_tab. Qed.

Lemma conv_ones_last (c : list R) L : (1 <= L)%nat -> (1 <= length c)%nat ->
  exists l, conv_run 0 Rplus Rmult (repeat 1 L) [] c = l ++ [nth (length c - 1) c 0].
Proof.
  intros HL Hc. rewrite conv_response, repeat_length.
  assert (E : fold_left Rplus (corr_terms Rmult c (repeat 1 L) (length c - 1) 1) 0 = nth (length c - 1) c 0).
  { unfold corr_terms. cbn [seq flat_map]. rewrite Nat.sub_0_r, (nth_error_nth' c 0) by lia.
    rewrite repeat_length, nth_error_repeat_lt by lia. cbn. lra. }
  destruct (Nat.eq_dec (Nat.min (length c) L) 1) as [E1|N1].
  - rewrite E1. cbn [Nat.sub seq map]. rewrite app_nil_r.
    assert (ES : seq 0 (length c) = seq 0 (length c - 1) ++ [(length c - 1)%nat])
      by (replace (length c) with (S (length c - 1)) at 1 by lia; apply seq_S).
    rewrite ES, map_app. cbn [map].
    replace (Nat.min (S (length c - 1)) L) with 1%nat by lia. rewrite E. eexists. reflexivity.
  - assert (ES : seq 0 (Nat.min (length c) L - 1) = seq 0 (Nat.min (length c) L - 2) ++ [(0 + (Nat.min (length c) L - 2))%nat])
      by (replace (Nat.min (length c) L - 1)%nat with (S (Nat.min (length c) L - 2)) by lia; apply seq_S).
    rewrite ES, map_app, app_assoc. cbn [map].
    replace (Nat.min (length c) L - 1 - (0 + (Nat.min (length c) L - 2)))%nat with 1%nat by lia. rewrite E. eexists. reflexivity.
Qed.

Lemma last_unwrap_ones (c : list R) L : (1 <= L)%nat -> (1 <= length c)%nat ->
  last_unwrap (S (length c + length c)) (convolve (nofZ 0) nadd nmul (ones L) (of_list c)) = Ret (nth (length c - 1) c 0).
Proof.
  intros HL Hc. unfold last_unwrap. rewrite ones_R.
  pose proof (convolve_yields (nofZ 0) nadd nmul (repeat 1 L) _ _ (of_list_yields c)) as Y.
  change (conv_run (nofZ 0) nadd nmul (repeat 1 L) [] c) with (conv_run 0 Rplus Rmult (repeat 1 L) [] c) in Y.
  rewrite (collect_yields _ _ _ Y).
  - cbn [bind]. destruct (conv_ones_last c L HL Hc) as [l ->]. rewrite rev_app_distr. reflexivity.
  - rewrite conv_run_length, repeat_length. lia.
Qed.

Lemma flat_ok_single {A B} (f : unit -> A -> outcome (list B * unit)) (w : A -> B) l :
  (forall a, In a l -> f tt a = Ret ([w a], tt)) -> flat_ok f tt l (map w l) 0%nat.
Proof.
  induction l as [|a l IH]; intros H; [constructor|]. cbn [map]. change (w a :: map w l) with ([w a] ++ map w l).
  refine (flat_cons f tt a [w a] tt l (map w l) 0 _ (IH _)); [apply H; left; reflexivity|].
  intros; apply H; right; assumption.
Qed.

Lemma points_last_yields L (it : Iter R) n f : (1 <= L)%nat -> yields it (tab n f) ->
  yields (points_last L it) (tab ((n + L - 1) / L) (fun k => f (Nat.min ((k + 1) * L) n - 1)%nat)).
Proof.
  intros HL Y. pose proof (chunks_yields L _ _ HL Y) as Yc.
  refine (eq_ind _ (fun z => yields _ z) (iflat_yields _ tt _ _ _ _ Yc (flat_ok_single _ (fun c => nth (length c - 1) c 0) _ _) _) _ _).
  - intros c Hc. unfold chunk_list in Hc. apply in_map_iff in Hc. destruct Hc as (k & <- & Hk). apply in_seq in Hk.
    rewrite tab_length in Hk. pose proof (ceil_div_spec n L HL).
    rewrite last_unwrap_ones; [reflexivity|exact HL|]. rewrite block_length, tab_length.
    assert ((k * L + 1 <= n)%nat) by nia. lia.
  - reflexivity.
  - unfold chunk_list. rewrite map_map, tab_length. unfold ceil_div, tab at 3. apply map_ext_in. intros k Hk. apply in_seq in Hk.
    pose proof (ceil_div_spec n L HL) as S. unfold ceil_div in S.
    assert (Hb : (k * L + 1 <= n)%nat) by nia.
    rewrite block_length, tab_length. unfold block. rewrite skipn_tab, firstn_tab, tab_nth by lia. f_equal. nia.
Qed.

(** ** Whole half-cycles of the carrier *)

Section Carrier.
Variables (sr L : nat) (fc : R) (h : Z).
Hypotheses (HL : (1 <= L)%nat) (Hsr : (1 <= sr)%nat) (Hh : 2 * fc * INR L = IZR h * INR sr)
  (Hz : ~ exists z : Z, 2 * fc = IZR z * INR sr).
Let ph (i : nat) : R := 2 * PI * fc * (INR i / INR sr).

Lemma carrier_sums k :
  Rsum_n L (fun j => cos (ph (k * L + j)) * cos (ph (k * L + j))) = INR L / 2 /\
  Rsum_n L (fun j => sin (ph (k * L + j)) * sin (ph (k * L + j))) = INR L / 2 /\
  Rsum_n L (fun j => sin (ph (k * L + j)) * cos (ph (k * L + j))) = 0.
Proof.
  assert (Hs : INR sr <> 0) by (apply not_0_INR; lia).
  set (a := 2 * PI * fc / INR sr).
  assert (Ha : sin a <> 0).
  { intros E. apply sin_0_mult in E. destruct E as [z E]. apply Hz. exists z.
    apply (Rmult_eq_reg_l (PI / INR sr)).
    - unfold a in E. replace (PI / INR sr * (2 * fc)) with (2 * PI * fc / INR sr) by (field; exact Hs). rewrite E. field. exact Hs.
    - apply Rmult_integral_contrapositive_currified; [apply PI_neq0|apply Rinv_neq_0_compat; exact Hs]. }
  assert (Hp : 2 * a * INR L = 2 * PI * IZR h).
  { unfold a. replace (2 * (2 * PI * fc / INR sr) * INR L) with (2 * PI * (2 * fc * INR L) / INR sr) by (field; exact Hs).
    rewrite Hh. field. exact Hs. }
  destruct (sum_whole a (2 * (a * INR (k * L))) L h Ha Hp) as [SC SS].
  assert (P : forall j, 2 * ph (k * L + j) = 2 * (a * INR (k * L)) + 2 * a * INR j).
  { intros j. unfold ph, a. rewrite plus_INR. field. exact Hs. }
  repeat split.
  - rewrite (Rsum_n_ext L _ (fun j => 1 / 2 + 1 / 2 * cos (2 * (a * INR (k * L)) + 2 * a * INR j))).
    + rewrite Rsum_n_plus, Rsum_n_scale, Rsum_n_const, SC. lra.
    + intros j _. rewrite cos_sq_half, P. lra.
  - rewrite (Rsum_n_ext L _ (fun j => 1 / 2 + (- 1 / 2) * cos (2 * (a * INR (k * L)) + 2 * a * INR j))).
    + rewrite Rsum_n_plus, Rsum_n_scale, Rsum_n_const, SC. lra.
    + intros j _. rewrite sin_sq_half, P. lra.
  - rewrite (Rsum_n_ext L _ (fun j => 1 / 2 * sin (2 * (a * INR (k * L)) + 2 * a * INR j))).
    + rewrite Rsum_n_scale, SS. lra.
    + intros j _. rewrite sin_cos_half, P. lra.
Qed.

(** At the first sample of every symbol the phase is a multiple of PI. *)
Lemma start_phase k : ph (k * L) = PI * IZR (Z.of_nat k * h).
Proof.
  assert (Hs : INR sr <> 0) by (apply not_0_INR; lia).
  unfold ph. rewrite mult_INR, mult_IZR, <- INR_IZR_INZ.
  replace (2 * PI * fc * (INR k * INR L / INR sr)) with (PI * INR k * (2 * fc * INR L) / INR sr) by (field; exact Hs).
  rewrite Hh. field. exact Hs.
Qed.
Lemma sin_start k : sin (ph (k * L)) = 0.
Proof. rewrite start_phase, Rmult_comm. apply sin_eq_0_1. eexists. reflexivity. Qed.
Lemma cos2_start k : cos (ph (k * L)) * cos (ph (k * L)) = 1.
Proof. pose proof (sin2_cos2 (ph (k * L))) as E. unfold Rsqr in E. rewrite sin_start in E. lra. Qed.

End Carrier.
