(** Property C73: the strip spectral correlation analyser and the detectors of kom_py/ssca.py. *)
From Coq Require Import List Arith ZArith Reals Bool Lia Lra Psatz.
From Verif Require Import Base Spec SpecR Num F64Lib LibModel LibDiscrete LibReal RSums Tab Hadamard SpecC FftModel Dft OfdmModel OfdmProofs OfdmReal
  SscaModel SscaProofs SscaCells DetectModel KomModel KomProofs Props_Ssca Props_Detect Props_Fh.
Import ListNotations.

(** ** When the functions return, for any number type and any FFT *)
Section Base.
Context {T : Type} `{Num T}.
Variable fft : Fft T.
Local Open Scope num_scope.

Definition kham (M i : nat) : T :=
  if (M =? 1)%nat then nofZ 1 else nlit 54 100 + nlit 46 100 * ncos (npi * nofZ (1 - Z.of_nat M + 2 * Z.of_nat i) / nofnat (M - 1)).
Lemma np_hamming_tab M : np_hamming M = tab M (kham M).
Proof. unfold np_hamming, kham. destruct (Nat.eqb_spec M 1) as [->|]; reflexivity. Qed.

Definition kom_cell_row (s : list T) (N Np i j : nat) : cpx T :=
  cmul (cmul (cmul
    (nth j (fftshift (fft_forward fft (tab Np (fun r => Cpx (nth (i + r) s (nofZ 0) * kham Np r) (nofZ 0))))) c0)
    (cexp_i (- nofZ 2 * npi * nofnat i * nofZ (Z.of_nat j - Z.of_nat ((Np + 1) / 2)) / nofnat Np)))
    (cconj (Cpx (nth (Np / 2 + i)%nat s (nofZ 0)) (nofZ 0))))
    (Cpx (kham N i) (nofZ 0)).

Lemma kom_row_ok s N Np i : (1 <= Np)%nat -> (i < N)%nat -> (N + Np <= length s)%nat ->
  kom_ssca_row fft s N Np i = Ret (tab Np (kom_cell_row s N Np i)).
Proof.
  intros Hnp Hi Hl. unfold kom_ssca_row. rewrite (slice_tab (nofZ 0)) by lia. cbn [bind].
  rewrite !np_hamming_tab, tab_combine, tab_map. cbn beta iota.
  rewrite fft_process_one by (try apply tab_length; exact Hnp). cbn [bind].
  rewrite idx_tab by exact Hi. cbn [bind].
  assert (Hh : (Np / 2 + i < length s)%nat) by (pose proof (Nat.div_lt Np 2); lia).
  unfold idx. rewrite (nth_error_nth' s (nofZ 0) Hh). cbn [bind]. f_equal.
  set (F := fft_forward fft _).
  assert (LF : length (fftshift F) = Np).
  { rewrite fftshift_length. unfold F. rewrite fft_forward_length. apply tab_length. }
  rewrite <- (tab_nth_id (fftshift F) c0), LF.
  match goal with |- context [map ?f (seq 0 Np)] => change (map f (seq 0 Np)) with (tab Np f) end.
  rewrite tab_combine, tab_map. apply tab_ext. intros j Hj. cbn beta iota. unfold kom_cell_row. fold F. reflexivity.
Qed.

Definition kom_sx_val (s : list T) (N Np q j : nat) : cpx T :=
  nth q (fftshift (fft_forward fft (tab N (fun i => kom_cell_row s N Np i j)))) c0.

Lemma kom_base_ok s N Np : (1 <= Np)%nat -> (1 <= N)%nat -> (N + Np <= length s)%nat ->
  kom_ssca_base fft s N Np = Ret (arr N Np (kom_sx_val (firstn (N + Np) s) N Np)).
Proof.
  intros Hnp Hn Hl. unfold kom_ssca_base.
  replace (length s <? N + Np)%nat with false by (symmetry; apply Nat.ltb_ge; lia).
  replace (N =? 0)%nat with false by (symmetry; apply Nat.eqb_neq; lia).
  replace (Np =? 0)%nat with false by (symmetry; apply Nat.eqb_neq; lia). cbn [orb].
  set (w := firstn (N + Np) s). assert (Lw : length w = (N + Np)%nat) by (unfold w; rewrite firstn_length; lia).
  rewrite (push_rows_seq N _ (fun i => tab Np (kom_cell_row w N Np i))) by (intros i Hi; apply kom_row_ok; lia).
  cbn [bind]. fold (arr N Np (kom_cell_row w N Np)).
  rewrite (push_rows_seq Np _ (fun j => tab N (fun q => kom_sx_val w N Np q j))).
  - cbn [bind]. f_equal. fold (arr Np N (fun j q => kom_sx_val w N Np q j)). unfold arr at 2. apply map_ext_in.
    intros q Hq. apply in_seq in Hq. rewrite column_arr by lia. reflexivity.
  - intros j Hj. rewrite column_arr by exact Hj. rewrite fft_process_one by (try apply tab_length; lia). cbn [bind]. f_equal.
    set (F := fft_forward fft _). rewrite <- (tab_nth_id (fftshift F) c0). rewrite fftshift_length. unfold F at 1.
    rewrite fft_forward_length, tab_length. reflexivity.
Qed.

Definition kom_mapped_val (s : list T) (N Np k q : nat) : cpx T :=
  match find (hits N Np k q) (rev (list_prod (seq 0 N) (seq 0 Np))) with
  | Some (q_p, k_p) => kom_sx_val s N Np q_p k_p
  | None => c0
  end.
Lemma kom_mapped_ok s N Np : (1 <= Np)%nat -> (1 <= N)%nat -> (N + Np <= length s)%nat ->
  (forall q_p k_p, q_p < N -> k_p < Np -> fst (ssca_cell N Np q_p k_p) <= Np /\ snd (ssca_cell N Np q_p k_p) <= 2 * N)%nat ->
  kom_ssca_mapped fft s N Np = Ret (arr (Np + 1) (2 * N + 1) (kom_mapped_val (firstn (N + Np) s) N Np)).
Proof.
  intros Hnp Hn Hl Hc. unfold kom_ssca_mapped. rewrite kom_base_ok by assumption. cbn [bind].
  rewrite arr_repeat.
  etransitivity; [|apply (writes_ok (fun p => ssca_cell N Np (fst p) (snd p)) (kom_sx_val (firstn (N + Np) s) N Np) N Np (Np + 1) (2 * N + 1)
     (list_prod (seq 0 N) (seq 0 Np)) (fun _ _ => c0))].
  - rewrite <- for_each_prod. reflexivity.
  - intros [q_p k_p] Hin. apply in_prod_iff in Hin. destruct Hin as [I1 I2]. apply in_seq in I1, I2. cbn [fst snd].
    destruct (Hc q_p k_p) as [C1 C2]; [lia|lia|]. lia.
Qed.

Lemma kom_mapped_inj s N Np :
  (forall q1 k1 q2 k2, q1 < N -> k1 < Np -> q2 < N -> k2 < Np -> ssca_cell N Np q1 k1 = ssca_cell N Np q2 k2 -> q1 = q2 /\ k1 = k2)%nat ->
  (forall q_p k_p, q_p < N -> k_p < Np ->
     kom_mapped_val s N Np (fst (ssca_cell N Np q_p k_p)) (snd (ssca_cell N Np q_p k_p)) = kom_sx_val s N Np q_p k_p)%nat /\
  (forall k q, (forall q_p k_p, q_p < N -> k_p < Np -> ssca_cell N Np q_p k_p <> (k, q))%nat -> kom_mapped_val s N Np k q = c0).
Proof.
  intros Hinj. split.
  - intros q_p k_p Hq Hk. unfold kom_mapped_val. destruct (find _ _) as [[q2 k2]|] eqn:F.
    + apply find_some in F. destruct F as [Hin Hh]. apply in_rev, in_prod_iff in Hin. destruct Hin as [I1 I2]. apply in_seq in I1, I2.
      unfold hits in Hh. cbn [fst snd] in Hh. destruct (ssca_cell N Np q2 k2) as [k' q'] eqn:E2.
      apply andb_prop in Hh. destruct Hh as [A1 A2]. apply Nat.eqb_eq in A1, A2.
      destruct (Hinj q_p k_p q2 k2) as [-> ->]; [lia|lia|lia|lia| |reflexivity].
      rewrite E2, <- A1, <- A2. destruct (ssca_cell N Np q_p k_p); reflexivity.
    + exfalso. apply (find_none _ _) with (x := (q_p, k_p)) in F.
      * unfold hits in F. cbn [fst snd] in F. destruct (ssca_cell N Np q_p k_p). cbn [fst snd] in F.
        rewrite !Nat.eqb_refl in F. discriminate.
      * rewrite <- in_rev. apply in_prod_iff. split; apply in_seq; lia.
  - intros k q Hno. unfold kom_mapped_val. destruct (find _ _) as [[q2 k2]|] eqn:F; [|reflexivity].
    apply find_some in F. destruct F as [Hin Hh]. apply in_rev, in_prod_iff in Hin. destruct Hin as [I1 I2]. apply in_seq in I1, I2.
    exfalso. apply (Hno q2 k2); [lia|lia|]. unfold hits in Hh. cbn [fst snd] in Hh. destruct (ssca_cell N Np q2 k2) as [k' q'].
    apply andb_prop in Hh. destruct Hh as [A1 A2]. apply Nat.eqb_eq in A1, A2. congruence.
Qed.
End Base.

(** The analyser raises exactly when a size is zero or the signal shorter than N + Np: one sample more
    than the Rust function needs.  Unlike it, it takes any Np. *)
Theorem C73_raises {T} `{Num T} (fft : Fft T) s N Np :
  (kom_ssca_base fft s N Np = Panic <-> (length s < N + Np \/ N = 0 \/ Np = 0)%nat) /\
  ((1 <= N)%nat -> (1 <= Np)%nat -> (N + Np <= length s)%nat -> exists sx, kom_ssca_base fft s N Np = Ret sx /\ shape N Np sx).
Proof.
  assert (G : (1 <= N)%nat -> (1 <= Np)%nat -> (N + Np <= length s)%nat -> exists sx, kom_ssca_base fft s N Np = Ret sx /\ shape N Np sx).
  { intros H1 H2 H3. eexists. split; [apply kom_base_ok; assumption|apply arr_shape]. }
  split; [|exact G]. split.
  - intros E. destruct (Nat.lt_ge_cases (length s) (N + Np)); [auto|]. destruct (Nat.eq_dec N 0); [auto|]. destruct (Nat.eq_dec Np 0); [auto|].
    destruct G as (sx & E' & _); [lia|lia|lia|]. rewrite E in E'. discriminate.
  - intros B. unfold kom_ssca_base.
    replace ((length s <? N + Np) || (N =? 0) || (Np =? 0))%nat%bool with true; [reflexivity|]. symmetry.
    destruct B as [B|[->| ->]]; [apply Nat.ltb_lt in B; rewrite B; reflexivity|rewrite Nat.eqb_refl, orb_true_r; reflexivity|apply orb_true_r].
Qed.

(** Samples after the first N + Np do not matter. *)
Theorem C73_one_window {T} `{Num T} (fft : Fft T) s more N Np : (N + Np <= length s)%nat ->
  kom_ssca_base fft (s ++ more) N Np = kom_ssca_base fft s N Np /\ kom_ssca_mapped fft (s ++ more) N Np = kom_ssca_mapped fft s N Np.
Proof.
  intros Hl. assert (E : kom_ssca_base fft (s ++ more) N Np = kom_ssca_base fft s N Np).
  { unfold kom_ssca_base. rewrite firstn_app. replace (N + Np - length s)%nat with 0%nat by lia. cbn [firstn]. rewrite app_nil_r.
    replace (length (s ++ more) <? N + Np)%nat with false by (symmetry; apply Nat.ltb_ge; rewrite app_length; lia).
    replace (length s <? N + Np)%nat with false by (symmetry; apply Nat.ltb_ge; lia). reflexivity. }
  split; [exact E|]. unfold kom_ssca_mapped. rewrite E. reflexivity.
Qed.

(** Binary64: every cell written is inside the (Np+1) by (2N+1) array. *)
Theorem C73_mapped_f64 libm (fft : Fft F64) s N Np :
  let num := NumF libm in
  (1 <= N)%nat -> (1 <= Np)%nat -> (Z.of_nat N <= 2 ^ 52)%Z -> (Z.of_nat Np <= 2 ^ 52)%Z -> (N + Np <= length s)%nat ->
  exists sxf, kom_ssca_mapped fft s N Np = Ret sxf /\ shape (Np + 1) (2 * N + 1) sxf.
Proof.
  intros num H1 H2 B1 B2 Hl. eexists. split; [|apply arr_shape]. apply kom_mapped_ok; try lia.
  intros q k Hq Hk. apply cell_f64_bounds; lia.
Qed.

Lemma kom_faithful {T} `{Num T} (fft : Fft T) s N Np :
  (1 <= N)%nat -> (1 <= Np)%nat -> (exists r, N = r * Np)%nat -> (N + Np <= length s)%nat ->
  (forall q k, q < N -> k < Np -> ssca_cell N Np q k = dest N Np q k)%nat ->
  exists sx sxf, kom_ssca_base fft s N Np = Ret sx /\ kom_ssca_mapped fft s N Np = Ret sxf /\ faithful N Np sx sxf.
Proof.
  intros HN Hn Hr Hl EC.
  assert (BK : forall q k, (k < Np -> fst (dest N Np q k) < Np)%nat) by (intros q k Hk; apply (cell_k_lt N Np q k); lia).
  assert (BQ : forall q k, (q < N -> k < Np -> snd (dest N Np q k) < 2 * N)%nat) by (intros q k Hq Hk; apply (cell_q_lt N Np q k); lia).
  assert (INJ : forall q1 k1 q2 k2, (q1 < N -> k1 < Np -> q2 < N -> k2 < Np ->
      ssca_cell N Np q1 k1 = ssca_cell N Np q2 k2 -> q1 = q2 /\ k1 = k2)%nat).
  { intros q1 k1 q2 k2 Q1 K1 Q2 K2 E. rewrite !EC in E by assumption. injection E as E1 E2.
    apply (cell_inj N Np); try lia; assumption. }
  eexists. eexists. split; [apply kom_base_ok; lia|]. split.
  - apply kom_mapped_ok; try lia. intros q k Hq Hk. rewrite EC by assumption.
    pose proof (BK q k Hk). pose proof (BQ q k Hq Hk). lia.
  - destruct (kom_mapped_inj fft (firstn (N + Np) s) N Np INJ) as [MV M0]. split.
    + intros q k Hq Hk. pose proof (BK q k Hk). pose proof (BQ q k Hq Hk). rewrite !aget_arr by lia. f_equal.
      rewrite <- EC by assumption. apply MV; assumption.
    + intros k q Hk Hq Hno. rewrite aget_arr by lia. f_equal. apply M0. intros q1 k1 Q1 K1. rewrite EC by assumption. apply Hno; assumption.
Qed.

(** No entry is lost when Np divides N (exactly), and in binary64 for powers of two. *)
Theorem C73_faithful_exact (fft : Fft R) s N Np :
  (1 <= N)%nat -> (1 <= Np)%nat -> Nat.divide Np N -> (2 * Z.of_nat N <= u64_max)%Z -> (N + Np <= length s)%nat ->
  exists sx sxf, kom_ssca_base fft s N Np = Ret sx /\ kom_ssca_mapped fft s N Np = Ret sxf /\ faithful N Np sx sxf.
Proof.
  intros H1 H2 Hd Bn Hl. assert (Np <= N)%nat by (apply Nat.divide_pos_le; [lia|exact Hd]).
  apply kom_faithful; try assumption. intros q k Hq Hk. apply cell_R; lia.
Qed.
Theorem C73_faithful_f64 libm (fft : Fft F64) s a b :
  let num := NumF libm in
  (b < a <= 52)%nat -> (2 ^ a + 2 ^ b <= length s)%nat ->
  exists sx sxf, kom_ssca_base fft s (2 ^ a) (2 ^ b) = Ret sx /\ kom_ssca_mapped fft s (2 ^ a) (2 ^ b) = Ret sxf /\
    faithful (2 ^ a) (2 ^ b) sx sxf.
Proof.
  intros num Hab Hl. pose proof (Nat.pow_nonzero 2 a). pose proof (Nat.pow_nonzero 2 b). apply kom_faithful.
  - lia.
  - lia.
  - exists (2 ^ (a - b))%nat. rewrite <- Nat.pow_add_r. f_equal. lia.
  - exact Hl.
  - intros q k Hq Hk. apply cell_f64_pow2; lia.
Qed.

(** ** What it computes, over the reals *)
Local Open Scope R_scope.

(** The symmetric Hamming window: its two ends are equal. *)
Definition sym_hamming (M i : nat) : R := if (M =? 1)%nat then 1 else 54 / 100 - 46 / 100 * cos (2 * PI * INR i / INR (M - 1)).

Lemma kham_R M i : (1 <= M)%nat -> @kham R NumR M i = sym_hamming M i.
Proof.
  intros H1. unfold kham, sym_hamming. destruct (Nat.eqb_spec M 1) as [->|N1]; [reflexivity|].
  unfold nlit. rewrite nofnat_R. cbn [nofZ nmul nadd ndiv ncos npi NumR].
  replace (PI * IZR (1 - Z.of_nat M + 2 * Z.of_nat i) / INR (M - 1)) with (- (PI - 2 * PI * INR i / INR (M - 1))).
  - rewrite cos_neg. replace (PI - 2 * PI * INR i / INR (M - 1)) with (- (2 * PI * INR i / INR (M - 1)) + PI) by ring.
    rewrite neg_cos, cos_neg. ring.
  - rewrite plus_IZR, minus_IZR, mult_IZR, <- !INR_IZR_INZ. replace (INR M) with (INR (M - 1) + 1) by (rewrite minus_INR by lia; cbn [INR]; ring).
    field. apply not_0_INR. lia.
Qed.

(** Every product of two samples, windowed, turned by frequency f at time p + r and by cycle
    frequency a at time p. *)
Definition correlation (s : nat -> R) (N Np : nat) (f a : R) : cpx R :=
  Csum_n N (fun p => Csum_n Np (fun r =>
    cmul (Cpx (sym_hamming N p * sym_hamming Np r * s (p + Np / 2)%nat * s (p + r)%nat) 0)
         (cis (- (2 * PI) * (f * INR (p + r) + a * INR p))))).

(** Entry (q, j) is the correlation at frequency (j - floor(Np/2)) / Np and cycle frequency
    (q - floor(N/2)) / N, the latter less 1 / Np when Np is odd: the phases of ssca.py:65 start at
    floor(-Np/2), one bin below the first bin of the shifted transform. *)
Theorem C73_formula s N Np : (1 <= N)%nat -> (1 <= Np)%nat -> (N + Np <= length s)%nat ->
  kom_ssca_base exact_fft s N Np = Ret (tab N (fun q => tab Np (fun j =>
    correlation (fun i => nth i s 0) N Np ((INR j - INR (Np / 2)) / INR Np)
      ((INR q - INR (N / 2)) / INR N - (if Nat.even Np then 0 else 1 / INR Np))))).
Proof.
  intros HN Hn Hl. rewrite kom_base_ok by lia. f_equal. apply arr_ext. intros q j Hq Hj.
  assert (NTH : forall i, (i < N + Np)%nat -> nth i (firstn (N + Np) s) 0 = nth i s 0).
  { intros i Hi. rewrite <- (firstn_skipn (N + Np) s) at 2. rewrite app_nth1; [reflexivity|]. rewrite firstn_length. lia. }
  unfold kom_sx_val. cbn [fft_forward exact_fft]. rewrite dft_tab, fftshift_tab, tab_nth by exact Hq.
  apply Csum_ext. intros p Hp. rewrite root_shifted by lia.
  unfold kom_cell_row. cbn [fft_forward exact_fft]. rewrite dft_tab, fftshift_tab, tab_nth by exact Hj.
  rewrite cexp_i_R, kham_R by lia.
  set (S := Csum_n Np _).
  assert (ES : S = Csum_n Np (fun r => cmul (RtoC (sym_hamming Np r * nth (p + r) s 0))
                                (cis (- (2 * PI) * ((INR j - INR (Np / 2)) * INR r / INR Np))))).
  { apply Csum_ext. intros r Hr. rewrite root_shifted by lia. f_equal. rewrite kham_R by lia. cbn [nofZ NumR]. rewrite NTH by lia.
    apply cpx_eq; unfold RtoC; cbn; ring. }
  clearbody S. subst S.
  match goal with |- cmul (cmul (cmul (cmul _ ?a) ?b) ?c) ?d = _ =>
    transitivity (Csum_n Np (fun r => cmul (cmul (RtoC (sym_hamming Np r * nth (p + r) s 0))
                                (cis (- (2 * PI) * ((INR j - INR (Np / 2)) * INR r / INR Np)))) (cmul (cmul (cmul a b) c) d))) end.
  { rewrite Csum_scale_r. ring. }
  apply Csum_ext. intros r Hr.
  assert (Hh : (Np / 2 + p < N + Np)%nat) by (pose proof (Nat.div_lt Np 2); lia).
  set (e2 := cis (- (2 * PI) * ((INR j - INR (Np / 2)) * INR r / INR Np))).
  set (e3 := cis (- (2 * PI) * ((INR q - INR (N / 2)) * INR p / INR N))).
  match goal with |- context [cis (@ndiv R NumR ?a ?b)] => set (e1 := cis (@ndiv R NumR a b)) end.
  match goal with |- _ = cmul _ ?e => replace e with (cmul (cmul e1 e2) e3) end.
  2: { unfold e1, e2, e3. rewrite <- !cis_add. f_equal. rewrite !nofnat_R. cbn [nofZ nmul nadd nsub ndiv nopp npi NumR].
    rewrite minus_IZR, <- !INR_IZR_INZ, plus_INR.
    assert (HALF : INR ((Np + 1) / 2) = INR (Np / 2) + (if Nat.even Np then 0 else 1)).
    { pose proof (ceil_floor Np) as CF. unfold div_ceil2 in CF. destruct (Nat.even Np) eqn:Ev.
      - apply Nat.even_spec in Ev. destruct Ev as [h ->]. replace ((2 * h + 1) / 2)%nat with h by (apply (Nat.div_unique _ _ _ 1); lia).
        replace (2 * h / 2)%nat with h by (apply (Nat.div_unique _ _ _ 0); lia). ring.
      - assert (Od : Nat.odd Np = true) by (unfold Nat.odd; rewrite Ev; reflexivity). apply Nat.odd_spec in Od. destruct Od as [h ->].
        replace ((2 * h + 1 + 1) / 2)%nat with (h + 1)%nat by (apply (Nat.div_unique _ _ _ 0); lia).
        replace ((2 * h + 1) / 2)%nat with h by (apply (Nat.div_unique _ _ _ 1); lia). rewrite plus_INR. reflexivity. }
    rewrite HALF. assert (INR Np <> 0) by (apply not_0_INR; lia). assert (INR N <> 0) by (apply not_0_INR; lia).
    destruct (Nat.even Np); field; auto. }
  replace (Cpx (sym_hamming N p * sym_hamming Np r * nth (p + Np / 2) s 0 * nth (p + r) s 0) 0) with
    (cmul (RtoC (sym_hamming Np r * nth (p + r) s 0)) (cmul (RtoC (nth (Np / 2 + p) s 0)) (RtoC (sym_hamming N p)))).
  2: { rewrite (Nat.add_comm p (Np / 2)). apply cpx_eq; unfold RtoC; cbn; ring. }
  cbn [nofZ NumR]. rewrite NTH by exact Hh.
  replace (cconj (@Cpx R (nth (Np / 2 + p) s 0) 0)) with (RtoC (nth (Np / 2 + p) s 0)).
  2: { apply cpx_eq; unfold RtoC; cbn; ring. }
  change (@Cpx R (sym_hamming N p) 0) with (RtoC (sym_hamming N p)). ring.
Qed.

(** The windows are symmetric and stay between 0.08 and 1. *)
Theorem C73_window M i : (i < M)%nat -> sym_hamming M i = sym_hamming M (M - 1 - i) /\ 8 / 100 <= sym_hamming M i <= 1.
Proof.
  intros Hi. unfold sym_hamming. destruct (Nat.eqb_spec M 1) as [->|N1]; [split; [reflexivity|lra]|]. split.
  - rewrite cos_sym by lia. reflexivity.
  - pose proof (COS_bound (2 * PI * INR i / INR (M - 1))). lra.
Qed.

(** ** The detectors *)
Lemma shape_arr {A} (d : A) a b m : shape a b m -> m = arr a b (fun i j => nth j (nth i m []) d).
Proof.
  intros [L F]. rewrite <- (tab_nth_id m []) at 1. rewrite L. apply tab_ext. intros i Hi.
  rewrite <- (tab_nth_id (nth i m []) d) at 1. f_equal. rewrite Forall_forall in F. apply F. apply nth_In. lia.
Qed.
Lemma sq_norm (z : cpx R) : @nsqr R NumR (nsqrt (cnorm_sqr z)) = normsq z.
Proof. unfold nsqr. cbn [nmul nsqrt NumR]. change (cnorm_sqr z) with (normsq z). apply sqrt_sqrt, normsq_nonneg. Qed.

(** dcs: for each column, the energy of the column over that of its first entry, in dB. *)
Lemma kom_dcs_arr a b (f : nat -> nat -> cpx R) : (1 <= a)%nat ->
  kom_dcs (arr a b f) = Ret (tab b (fun j => 10 * (ln (column_ratio a f j) / ln 10))).
Proof.
  intros Ha. unfold kom_dcs. assert (E0 : idx (arr a b f) 0 = Ret (tab b (f 0%nat))) by (apply (idx_tab a (fun i => tab b (f i))); lia).
  rewrite E0. cbn [bind]. f_equal. rewrite index_map_tab. apply tab_ext. intros j Hj.
  cbn [nofZ nmul nlog10 ndiv nadd NumR]. rewrite fold_Rplus, Rplus_0_l, sq_norm. unfold column_ratio. do 5 f_equal.
  unfold arr. rewrite tab_map. rewrite <- Rsum_tab. f_equal. apply tab_ext. intros i Hi. rewrite sq_norm, tab_nth by exact Hj. reflexivity.
Qed.

Theorem C73_dcs sum sx a b : (forall l, sum l = Rsum l) -> (1 <= a)%nat -> (1 <= b)%nat -> shape a b sx ->
  (forall z, In z (nth 0 sx []) -> z <> Cpx 0 0) ->
  exists l m, kom_dcs sx = Ret l /\ length l = b /\
    (forall j, (j < b)%nat -> nth_error l j =
       Some (10 * (ln (Rsum (map (fun row => normsq (nth j row (Cpx 0 0))) sx) / normsq (nth j (nth 0 sx []) (Cpx 0 0))) / ln 10))) /\
    (forall x, In x l -> 0 <= x) /\
    dcs_detector_sxf sum sx = Ret m /\ is_max l m.
Proof.
  intros Hsum Ha Hb Sh Hz. set (f := fun i j => nth j (nth i sx []) (Cpx 0 0)). pose proof (shape_arr (Cpx 0 0) a b sx Sh) as E. fold f in E. clearbody f.
  subst sx.
  assert (Hrow : nth 0 (arr a b f) [] = tab b (f 0%nat)) by (apply (tab_nth a (fun i => tab b (f i)) 0%nat []); lia).
  rewrite Hrow in *.
  assert (P0 : forall j, (j < b)%nat -> 0 < normsq (f 0%nat j)).
  { intros j Hj. apply normsq_pos, Hz. apply in_map, in_seq. lia. }
  assert (R1 : forall j, (j < b)%nat -> 1 <= column_ratio a f j).
  { intros j Hj. unfold column_ratio. apply (Rmult_le_reg_r (normsq (f 0%nat j))); [apply P0; exact Hj|]. unfold Rdiv. pose proof (P0 j Hj).
    rewrite Rmult_assoc, Rinv_l, Rmult_1_r, Rmult_1_l by lra.
    rewrite <- Rsum_tab. destruct a as [|a']; [lia|]. rewrite tab_S. cbn [Rsum].
    enough (0 <= Rsum (tab a' (fun i => normsq (f (S i) j)))) by lra. apply Rsum_nonneg. intros x Hx. apply in_map_iff in Hx.
    destruct Hx as (i & <- & _). apply normsq_nonneg. }
  assert (L0 : forall x, 1 <= x -> 0 <= 10 * (ln x / ln 10)).
  { intros x Hx. pose proof ln10_pos. pose proof (log10_le 1 x ltac:(lra) Hx) as L. rewrite ln_1 in L. unfold Rdiv in L at 1. rewrite Rmult_0_l in L. lra. }
  destruct (dcs_R sum a b f Hsum Ha Hb) as (m & Em & Mx & (j0 & Hj0 & M0)).
  exists (tab b (fun j => 10 * (ln (column_ratio a f j) / ln 10))), (10 * (ln m / ln 10)).
  split; [apply kom_dcs_arr; exact Ha|]. split; [apply tab_length|]. split; [|split; [|split]].
  - intros j Hj. rewrite tab_nth_error. apply Nat.ltb_lt in Hj as Hjb. rewrite Hjb. do 4 f_equal. unfold column_ratio. rewrite tab_nth by exact Hj. f_equal.
    unfold arr. rewrite tab_map, <- Rsum_tab. f_equal. apply tab_ext. intros i Hi. rewrite tab_nth by exact Hj. reflexivity.
  - intros x Hx. apply in_map_iff in Hx. destruct Hx as (j & <- & Hj). apply in_seq in Hj. apply L0, R1. lia.
  - exact Em.
  - split.
    + rewrite M0. apply in_map_iff. exists j0. split; [reflexivity|apply in_seq; lia].
    + intros x Hx. apply in_map_iff in Hx. destruct Hx as (j & <- & Hj). apply in_seq in Hj. pose proof (R1 j ltac:(lia)).
      apply Rmult_le_compat_l; [lra|]. apply log10_le; [lra|apply Mx; lia].
Qed.

(** max_cut takes the greatest entry of each row by real part, then imaginary part. *)
Definition lex_le (z w : cpx R) : Prop := re z < re w \/ (re z = re w /\ im z <= im w).

Lemma lex_step a b : exists m, @lex_max R NumR a b = m /\ (m = a \/ m = b) /\ lex_le a m /\ lex_le b m.
Proof.
  unfold lex_max, lex_le. cbn [nltb neqb NumR]. eexists. split; [reflexivity|].
  destruct (Rlt_dec (re a) (re b)), (Req_EM_T (re a) (re b)), (Rlt_dec (im a) (im b)); cbn [orb andb]; repeat split; try tauto; try lra; auto;
    right; split; try lra; auto.
Qed.
Lemma lex_trans a b c : lex_le a b -> lex_le b c -> lex_le a c.
Proof. unfold lex_le. intros [H1|H1] [H2|H2]; try (left; lra). right; lra. Qed.
Lemma lex_fold l : forall z, let m := fold_left (@lex_max R NumR) l z in In m (z :: l) /\ forall w, In w (z :: l) -> lex_le w m.
Proof.
  induction l as [|y l IH]; intros z; cbn [fold_left].
  - split; [left; reflexivity|]. intros w [<-|[]]. right. split; [reflexivity|apply Rle_refl].
  - destruct (lex_step z y) as (m & E & Hm & L1 & L2). rewrite E. destruct (IH m) as [I1 I2]. split.
    + destruct I1 as [I1|I1]; [|right; right; exact I1]. rewrite <- I1. destruct Hm as [-> | ->]; [left|right; left]; reflexivity.
    + intros w [<-|[<-|Hw]].
      * apply lex_trans with m; [exact L1|apply I2; left; reflexivity].
      * apply lex_trans with m; [exact L2|apply I2; left; reflexivity].
      * apply I2. right. exact Hw.
Qed.

Theorem C73_max_cut_value sx : (forall row, In row sx -> row <> []) ->
  exists zs, kom_max_cut sx = Ret (map (fun z => 10 * (ln (normsq z) / ln 10)) zs) /\
    Forall2 (fun row z => In z row /\ forall w, In w row -> lex_le w z) sx zs.
Proof.
  intros Hne. exists (map (fun row => match row with [] => Cpx 0 0 | z :: r => fold_left lex_max r z end) sx). split.
  - unfold kom_max_cut. rewrite (push_rows_map sx _ (fun row => 10 * (ln (normsq (match row with [] => Cpx 0 0 | z :: r => fold_left lex_max r z end)) / ln 10))).
    + rewrite map_map. reflexivity.
    + intros row Hr. specialize (Hne row Hr). destruct row as [|z r]; [contradiction|]. rewrite sq_norm. reflexivity.
  - induction sx as [|row sx IH]; constructor.
    + specialize (Hne row (or_introl eq_refl)). destruct row as [|z r]; [contradiction|]. apply lex_fold.
    + apply IH. intros r Hr. apply Hne. right. exact Hr.
Qed.
Theorem C73_max_cut_raises {T} `{Num T} (sx : list (list (cpx T))) : In [] sx -> kom_max_cut sx = Panic.
Proof.
  intros Hin. unfold kom_max_cut. apply (push_rows_panic _ _ []).
  - intros row _. destruct row; [left; reflexivity|right; eexists; reflexivity].
  - exact Hin.
  - reflexivity.
Qed.

(** It never exceeds the documented 10 log10 (max |S|^2) of its row. *)
Theorem C73_max_cut_at_most sx i row v top l : kom_max_cut sx = Ret l -> nth_error sx i = Some row -> nth_error l i = Some v ->
  (forall w, In w row -> w <> Cpx 0 0) -> is_max (map normsq row) top -> v <= 10 * (ln top / ln 10).
Proof.
  intros E Hr Hv Hz [_ Ht]. 
  assert (Hne : forall row, In row sx -> row <> []).
  { intros r Hin ->. rewrite C73_max_cut_raises in E by exact Hin. discriminate. }
  destruct (C73_max_cut_value sx Hne) as (zs & E' & F). rewrite E in E'. apply Ret_inj in E'. subst l. clear E.
  assert (G : exists z, In z row /\ v = 10 * (ln (normsq z) / ln 10)).
  { clear Hne Hz Ht. revert i Hr Hv. induction F as [|r z sx zs [Iz _] F IH]; intros [|i] Hr Hv; cbn in Hr, Hv; try discriminate.
    - injection Hr as <-. injection Hv as <-. exists z. split; [exact Iz|reflexivity].
    - apply (IH i); assumption. }
  destruct G as (z & Iz & ->). apply Rmult_le_compat_l; [lra|]. apply log10_le; [apply normsq_pos, Hz; exact Iz|]. apply Ht, in_map, Iz.
Qed.
(** On rows of non-negative real numbers it is that value. *)
Theorem C73_max_cut_nonnegative sx i row v top l : kom_max_cut sx = Ret l -> nth_error sx i = Some row -> nth_error l i = Some v ->
  (forall w, In w row -> 0 <= re w /\ im w = 0) -> is_max (map normsq row) top -> v = 10 * (ln top / ln 10).
Proof.
  intros E Hr Hv Hz Ht.
  assert (Hne : forall row, In row sx -> row <> []).
  { intros r Hin ->. rewrite C73_max_cut_raises in E by exact Hin. discriminate. }
  destruct (C73_max_cut_value sx Hne) as (zs & E' & F). rewrite E in E'. apply Ret_inj in E'. subst l. clear E.
  assert (G : exists z, (In z row /\ forall w, In w row -> lex_le w z) /\ v = 10 * (ln (normsq z) / ln 10)).
  { clear Hne Hz Ht. revert i Hr Hv. induction F as [|r z sx zs Iz F IH]; intros [|i] Hr Hv; cbn in Hr, Hv; try discriminate.
    - injection Hr as <-. injection Hv as <-. exists z. split; [exact Iz|reflexivity].
    - apply (IH i); assumption. }
  destruct G as (z & [Iz Lz] & ->). do 3 f_equal. apply (is_max_det (map normsq row)); [|exact Ht]. split; [apply in_map; exact Iz|].
  intros x Hx. apply in_map_iff in Hx. destruct Hx as (w & <- & Hw). destruct (Hz w Hw) as [W1 W2], (Hz z Iz) as [Z1 Z2].
  assert (re w <= re z) by (destruct (Lz w Hw) as [|[]]; lra). unfold normsq. rewrite W2, Z2. nra.
Qed.
(** In general it is not: a row whose largest entry points the other way is read as a smaller one, and
    turning the whole spectrum by half a cycle, which leaves every magnitude, changes the answer. *)
Theorem C73_max_cut_refuted :
  exists row v v' top, is_max (map normsq row) top /\ is_max (map normsq (map copp row)) top /\
    kom_max_cut [row] = Ret [v] /\ v < 10 * (ln top / ln 10) /\ kom_max_cut [map copp row] = Ret [v'] /\ v' <> v.
Proof.
  exists [Cpx (-2) 0; Cpx 1 0], (10 * (ln 1 / ln 10)), (10 * (ln 4 / ln 10)), 4.
  assert (N1 : normsq (Cpx (-2) 0) = 4) by (unfold normsq; cbn; ring).
  assert (N2 : normsq (Cpx 1 0) = 1) by (unfold normsq; cbn; ring).
  assert (N3 : normsq (copp (Cpx (-2) 0)) = 4) by (unfold normsq; cbn; ring).
  assert (N4 : normsq (copp (Cpx 1 0)) = 1) by (unfold normsq; cbn; ring).
  assert (L : 10 * (ln 1 / ln 10) < 10 * (ln 4 / ln 10)).
  { apply Rmult_lt_compat_l; [lra|]. apply Rmult_lt_compat_r; [apply Rinv_0_lt_compat, ln10_pos|]. apply ln_increasing; lra. }
  split; [|split; [|split; [|split; [exact L|split]]]].
  - cbn [map]. rewrite N1, N2. split; [left; reflexivity|]. intros x [<-|[<-|[]]]; lra.
  - cbn [map]. rewrite N3, N4. split; [left; reflexivity|]. intros x [<-|[<-|[]]]; lra.
  - unfold kom_max_cut, push_rows. cbn [for_each bind app fold_left]. rewrite sq_norm. unfold lex_max. cbn [re im nltb NumR].
    destruct (Rlt_dec (-2) 1); [|lra]. cbn [orb]. rewrite N2. reflexivity.
  - unfold kom_max_cut, push_rows. cbn [map for_each bind app fold_left]. rewrite sq_norm. unfold lex_max, copp. cbn [re im nltb neqb nopp NumR].
    destruct (Rlt_dec (- (-2)) (- (1))); [lra|]. destruct (Req_EM_T (- (-2)) (- (1))); [lra|]. cbn [orb andb].
    unfold normsq. cbn [re im]. replace (- (-2) * - (-2) + - 0 * - 0) with 4 by ring. reflexivity.
  - lra.
Qed.

(** The shortest signal for sizes 4 and 2, which has one sample more than the Rust function needs. *)
Example C73_shortest (fft : Fft R) :
  kom_ssca_base fft (repeat 1 5) 4 2 = Panic /\ (exists sx, kom_ssca_base fft (repeat 1 6) 4 2 = Ret sx /\ shape 4 2 sx) /\
  (exists sx, ssca_base fft (repeat 1 5) 4 2 = Ret sx /\ shape 4 2 sx).
Proof.
  split; [|split].
  - apply (C73_raises fft (repeat 1 5) 4 2). left. cbn. lia.
  - apply C73_raises; cbn; lia.
  - apply C52_base_defined; cbn; lia.
Qed.
(** A window of one sample: the entry is the square of the first sample. *)
Example C73_one_sample (a b : R) : kom_ssca_base exact_fft [a; b] 1 1 = Ret [[Cpx (a * a) 0]].
Proof.
  rewrite C73_formula by (cbn; lia). unfold tab. cbn [seq map]. do 4 f_equal. unfold correlation, sym_hamming.
  change (1 / 2)%nat with 0%nat. cbn [Csum_n Nat.add Nat.eqb Nat.even nth INR].
  match goal with |- context [cis ?x] => replace x with 0 by field end.
  unfold cis. rewrite cos_0, sin_0. apply cpx_eq; cbn; ring.
Qed.
Example C73_dcs_example : exists l, kom_dcs [[Cpx 1 0]; [Cpx 3 0]] = Ret l /\ l = [10].
Proof.
  destruct (C73_dcs Rsum [[Cpx 1 0]; [Cpx 3 0]] 2 1) as (l & m & E & L & V & _).
  - reflexivity.
  - lia.
  - lia.
  - split; [reflexivity|repeat constructor].
  - intros z [<-|[]] C. injection C. lra.
  - exists l. split; [exact E|]. destruct l as [|x [|? ?]]; try discriminate. specialize (V 0%nat ltac:(lia)). cbn [nth_error] in V.
    assert (X : x = 10 * (ln (Rsum (map (fun row => normsq (nth 0 row (Cpx 0 0))) [[Cpx 1 0]; [Cpx 3 0]]) / normsq (nth 0 (nth 0 [[Cpx 1 0]; [Cpx 3 0]] []) (Cpx 0 0))) / ln 10)) by congruence.
    assert (Q : Rsum (map (fun row => normsq (nth 0 row (Cpx 0 0))) [[Cpx 1 0]; [Cpx 3 0]]) / normsq (nth 0 (nth 0 [[Cpx 1 0]; [Cpx 3 0]] []) (Cpx 0 0)) = 10)
      by (unfold normsq; cbn; field).
    rewrite X, Q. f_equal. pose proof ln10_pos. field. lra.
Qed.
Example C73_max_cut_example : exists l, kom_max_cut [[Cpx 1 0; Cpx 10 0]; [Cpx 0 0; Cpx 1 0]] = Ret l /\ l = [20; 0].
Proof.
  destruct (C73_max_cut_value [[Cpx 1 0; Cpx 10 0]; [Cpx 0 0; Cpx 1 0]]) as (zs & E & _).
  { intros row [<-|[<-|[]]]; discriminate. }
  clear zs E. unfold kom_max_cut, push_rows. cbn [for_each bind app fold_left]. rewrite !sq_norm. unfold lex_max. cbn [re im nltb neqb NumR].
  destruct (Rlt_dec 1 10); [|lra]. destruct (Rlt_dec 0 1); [|lra]. cbn [orb]. eexists. split; [reflexivity|].
  unfold normsq. cbn [re im nofZ nmul nlog10 NumR]. pose proof ln10_pos. f_equal; [|f_equal].
  - replace (10 * 10 + 0 * 0) with (10 * 10) by ring. rewrite ln_mult by lra. field. lra.
  - replace (1 * 1 + 0 * 0) with 1 by ring. rewrite ln_1. field. lra.
Qed.

(** The Rust and the Python analyser use different windows: they do not give the same spectrum. *)
Theorem C73_same_as_rust_refuted :
  exists s N Np sx sx', ssca_base exact_fft s N Np = Ret sx /\ kom_ssca_base exact_fft s N Np = Ret sx' /\ sx <> sx'.
Proof.
  exists [1; 0; 0], 2%nat, 1%nat. eexists. eexists. split; [apply C63_ssca_base_formula; cbn; lia|]. split; [apply C73_formula; cbn; lia|].
  intros E. apply (f_equal (fun m => re (nth 0 (nth 0 m []) (Cpx 0 0)))) in E. unfold tab in E. cbn [seq map nth] in E.
  destruct hamming_ends as (H1 & H2 & H3).
  unfold cyclic_periodogram, correlation, sym_hamming in E. change (1 / 2)%nat with 0%nat in E. change (2 / 2)%nat with 1%nat in E.
  cbn [Csum_n Nat.add Nat.eqb Nat.sub Nat.even nth] in E. rewrite H1, H2, H3 in E.
  repeat match type of E with context [cis (- (2 * PI) * ?x)] => let c := fresh "c" in set (c := cis (- (2 * PI) * x)) in E end.
  assert (C0 : forall x, x = 0 -> re (cis x) = 1) by (intros x ->; unfold cis; cbn [re]; apply cos_0).
  assert (A : re c = 1) by (apply C0; cbn [INR]; field). assert (B : re c1 = 1) by (apply C0; cbn [INR]; field).
  clearbody c c0 c1 c2. replace (cos (2 * PI * INR 0 / INR 1)) with 1 in E by (symmetry; rewrite <- cos_0; f_equal; cbn [INR]; field).
  cbn in E. rewrite A, B in E. lra.
Qed.

(** ** Axioms used *)
Print Assumptions C73_raises.
Print Assumptions C73_one_window.
Print Assumptions C73_mapped_f64.
Print Assumptions C73_faithful_exact.
Print Assumptions C73_faithful_f64.
Print Assumptions C73_formula.
Print Assumptions C73_window.
Print Assumptions C73_dcs.
Print Assumptions C73_max_cut_value.
Print Assumptions C73_max_cut_raises.
Print Assumptions C73_max_cut_at_most.
Print Assumptions C73_max_cut_nonnegative.
Print Assumptions C73_max_cut_refuted.
Print Assumptions C73_same_as_rust_refuted.
