(** Property C48: FH-OFDM-DCSK (src/fh_ofdm_dcsk.rs). *)
From Coq Require Import List Arith ZArith NArith Reals Bool Lia Lra Psatz Permutation.
From Flocq Require Import Core BinarySingleNaN.
From Verif Require Import Base IterTheory IterModel IterProofs Spec SpecR Tab Num F64Lib LibModel Props_Iter
  ChaosModel ChaosProofs ChaosMod PskModel CdmaModel FhModel FhProofs Props_Fh SpecC FftModel Dft OfdmModel OfdmProofs OfdmReal
  FhOfdmModel FhOfdmProofs.
Import ListNotations.

(** ** The round trip, in exact arithmetic *)

Local Open Scope R_scope.

Lemma cheb_half : exists it, Chebyshev_new (nlit 1 2) = Ret it /\ streams it (fun n => Nat.iter (S n) chebyshev (1 / 2)).
Proof.
  exists (orbit chebyshev (1 / 2)). split; [|apply orbit_streams].
  unfold Chebyshev_new. replace (@nlit R NumR 1 2) with (1 / 2) by (cbn; lra). cbn [nleb nofZ nopp NumR].
  destruct (Rle_dec (- (1)) (1 / 2)); [|lra]. destruct (Rle_dec (1 / 2) 1); [|lra]. reflexivity.
Qed.

Lemma cheb_pos n : 0 < Nat.iter n chebyshev (1 / 2).
Proof.
  induction n as [|n IH]; [cbn; lra|]. change (Nat.iter (S n) chebyshev (1 / 2)) with (chebyshev (Nat.iter n chebyshev (1 / 2))).
  rewrite chebyshev_R. set (x := Nat.iter n chebyshev (1 / 2)) in *. assert (0 < x * x * x) by (repeat apply Rmult_lt_0_compat; exact IH). lra.
Qed.

Definition nonneg (s : CR) : bool := if Rle_dec 0 (re s) then true else false.

Lemma dcsk_bits_pos sy ch : length sy = 7%nat -> (forall i, 0 < ch i) ->
  dcsk_bits (dcsk_carriers sy ch) = map nonneg sy.
Proof.
  intros L P.
  assert (G : forall j, (j < 7)%nat -> sign_positive (re (cmul (cconj (nth 0 (dcsk_carriers sy ch) c0)) (nth (S j) (dcsk_carriers sy ch) c0))) = nonneg (nth j sy c0)).
  { intros j Hj. unfold dcsk_carriers. rewrite !tab_nth by lia. cbn [cconj cmul re im nofZ NumR nmul nsub nadd nopp].
    set (z := re (nth j sy c0)). unfold sign_positive, SignR, nonneg. fold z.
    match goal with |- (if Rle_dec 0 ?e then _ else _) = _ => replace e with (ch 0%nat * ch (S j) * z) by (cbn; unfold z; ring) end.
    assert (Pc : 0 < ch 0%nat * ch (S j)) by (apply Rmult_lt_0_compat; apply P).
    destruct (Rle_dec 0 z), (Rle_dec 0 (ch 0%nat * ch (S j) * z)); try reflexivity; exfalso.
    - apply n. apply Rmult_le_pos; lra.
    - apply n. apply Rnot_lt_le. intros N. pose proof (Rmult_lt_compat_l _ _ _ Pc N). lra. }
  unfold dcsk_bits. rewrite (map_tab_nth nonneg sy c0), L. apply tab_ext. exact G.
Qed.

Lemma combine_fst_stream {A B} (l : list A) (f : nat -> B) : map fst (zip_stream l f) = l.
Proof.
  unfold zip_stream. generalize 0%nat. induction l as [|a l IH]; intros k; [reflexivity|]. cbn. f_equal. apply IH.
Qed.
Lemma zip_stream_map_snd {A B C} (g : B -> C) (l : list A) (f : nat -> B) :
  zip_stream l (fun n => g (f n)) = map (fun b => (fst b, g (snd b))) (zip_stream l f).
Proof.
  unfold zip_stream. generalize 0%nat. induction l as [|a l IH]; intros k; [reflexivity|]. cbn. f_equal. apply IH.
Qed.
Lemma zip_stream_in_snd {A B} (l : list A) (f : nat -> B) p : In p (zip_stream l f) -> In (fst p) l /\ exists k, snd p = f k.
Proof.
  unfold zip_stream. generalize 0%nat. induction l as [|a l IH]; intros k; [intros []|]. cbn. intros [<-|Hp].
  - split; [left; reflexivity|]. exists k. reflexivity.
  - destruct (IH _ Hp) as [I1 I2]. split; [right; exact I1|exact I2].
Qed.
Lemma flat_map_single {A B C} (w : A -> B) (g : list A -> list B) (h : C -> list A) (l : list C) :
  (forall c, In c l -> g (h c) = map w (h c)) -> flat_map (fun c => g (h c)) l = map w (concat (map h l)).
Proof.
  induction l as [|c l IH]; intros Hl; [reflexivity|]. cbn [flat_map map concat].
  rewrite map_app, IH, Hl by auto using in_eq, in_cons. reflexivity.
Qed.

(** For every message and every generator: the bits come back first, followed by the bits of the
    padding (7 more when the message is a whole number of blocks). *)
Theorem C48_fh_ofdm_dcsk_round_trip (rng : Rng) (message : Iter bool) m : yields message m ->
  exists tx s, tx_baseband_fh_ofdm_dcsk_signal exact_fft rng message = Ret tx /\
    yields tx s /\ (length s = 10 * (length m / 7 + 1))%nat /\
    forall signal, yields signal s ->
      yields (rx_baseband_fh_ofdm_dcsk_signal exact_fft rng signal) (m ++ repeat true (7 - length m mod 7)).
Proof.
  intros Hm. destruct cheb_half as (cit & Ec & Sc).
  set (bpsk := fun bit : bool => if bit then Cpx 1 0 else Cpx (- (1)) 0 : CR).
  pose proof (imap_yields bpsk message m Hm) as Yb.
  destruct (C04_wchunks_pads _ (c0 : CR) 7 _ _ ltac:(lia) Yb) as (cs & Yc & Lc & Nc & Cc). rewrite map_length in Nc, Cc.
  set (ch := fun k j => Nat.iter (S (k * 8 + j)) chebyshev (1 / 2) : R).
  assert (Sk : streams (chunks 8 cit) (fun k => tab 8 (ch k))) by exact (chunks_streams 8 cit _ ltac:(lia) Sc).
  pose proof (izip_stream_yields _ _ _ _ Yc Sk) as Yz.
  rewrite (zip_stream_map_snd (tab 8) cs ch) in Yz.
  destruct (dcsk_stream rng (zip_stream cs ch) (seed_from_u64 rng SEED)) as (frames & Lf & Lf2 & Ft & Fr).
  { intros b Hb. apply Lc. apply zip_stream_in_snd in Hb. apply Hb. }
  unfold tx_baseband_fh_ofdm_dcsk_signal. rewrite Ec. cbn [bind]. eexists. exists (concat frames). split; [reflexivity|].
  split; [eapply iflat_yields; [exact Yz|exact Ft|reflexivity]|]. split.
  - rewrite zip_stream_length, Nc in Lf. rewrite <- Lf. clear - Lf2.
    induction frames as [|f frames IH]; [reflexivity|]. cbn [concat length]. rewrite app_length, IH, (Lf2 f) by auto using in_eq, in_cons. lia.
  - intros signal Hs. unfold rx_baseband_fh_ofdm_dcsk_signal. change (NUM_SUBCARRIERS + CP_LEN)%nat with 10%nat.
    pose proof (chunks_yields 10 signal _ ltac:(lia) Hs) as Yk.
    replace (concat frames) with (flat_map (fun f => f) frames) in Yk by (rewrite flat_map_concat_map, map_id; reflexivity).
    rewrite (chunk_list_flat 10 (fun f => f)), map_id in Yk by (auto; lia).
    match type of Fr with flat_ok _ _ _ ?bs _ => replace bs with (m ++ repeat true (7 - length m mod 7)) in Fr end.
    + eapply iflat_yields; [exact Yk|exact Fr|reflexivity].
    + rewrite (flat_map_eq_in _ (fun b => map nonneg (fst b))).
      * rewrite (flat_map_single nonneg (map nonneg) fst) by reflexivity. rewrite combine_fst_stream, Cc, map_app, map_map.
        f_equal.
        -- rewrite <- (map_id m) at 1. apply map_ext. intros []; unfold nonneg; cbn;
             [destruct (Rle_dec 0 1)|destruct (Rle_dec 0 (- (1)))]; lra || reflexivity.
        -- generalize (7 - length m mod 7)%nat as k. induction k as [|k IH]; [reflexivity|]. cbn [repeat map]. f_equal; [|exact IH].
           unfold nonneg. cbn. destruct (Rle_dec 0 0); [reflexivity|lra].
      * intros b Hb. apply zip_stream_in_snd in Hb. destruct Hb as [Hb1 (k & Hb2)]. rewrite Hb2. apply dcsk_bits_pos; [apply Lc; exact Hb1|].
        intros i. apply cheb_pos.
Qed.

(** The first len(m) bits, as the property says it. *)
Corollary C48_first_bits (rng : Rng) (message : Iter bool) m : yields message m ->
  exists tx s bits, tx_baseband_fh_ofdm_dcsk_signal exact_fft rng message = Ret tx /\ yields tx s /\
    yields (rx_baseband_fh_ofdm_dcsk_signal exact_fft rng tx) bits /\ firstn (length m) bits = m.
Proof.
  intros Hm. destruct (C48_fh_ofdm_dcsk_round_trip rng message m Hm) as (tx & s & Et & Ys & _ & Hr).
  exists tx, s. eexists. split; [exact Et|]. split; [exact Ys|]. split; [apply Hr, Ys|].
  rewrite firstn_app, Nat.sub_diag, firstn_all, firstn_O. apply app_nil_r.
Qed.

(** The ignored test of the repository (fh_ofdm_dcsk.rs:160-181: 14 bits, the last 7 decoded bits
    dropped) would pass in exact arithmetic. *)
Example C48_ignored_test (rng : Rng) (bits : list bool) : length bits = 14%nat ->
  exists tx s, tx_baseband_fh_ofdm_dcsk_signal exact_fft rng (of_list bits) = Ret tx /\ yields tx s /\ length s = 30%nat /\
    exists rx, yields (rx_baseband_fh_ofdm_dcsk_signal exact_fft rng (of_list s)) rx /\
               firstn (length rx - 7) rx = bits.
Proof.
  intros L. destruct (C48_fh_ofdm_dcsk_round_trip rng _ _ (of_list_yields bits)) as (tx & s & Et & Ys & Ls & Hr).
  rewrite L in Ls, Hr. exists tx, s. split; [exact Et|]. split; [exact Ys|]. split; [exact Ls|].
  eexists. split; [apply Hr, of_list_yields|]. rewrite app_length. change (14 mod 7)%nat with 0%nat. cbn [Nat.sub]. rewrite repeat_length.
  replace (length bits + 7 - 7)%nat with (length bits) by lia.
  rewrite firstn_app, Nat.sub_diag, firstn_all, firstn_O. apply app_nil_r.
Qed.

(** ** binary64 *)

Local Close Scope R_scope.

Definition poisoned (a : cpx F64) : Prop := is_finite (re a) = false /\ is_finite (im a) = false.

(** What is asked of the FFT: a carrier with both parts non-finite makes every sample non-finite.
    No sum of products can avoid it (see [naive_spreads]). *)
Definition spreads (fft : Fft F64) : Prop := forall x, Exists poisoned x -> Forall poisoned (fft_inverse fft x).

Lemma nf_add_l x y : is_finite x = false -> is_finite (Bplus mode_NE x y : F64) = false.
Proof. destruct x as [[]|[]| |[]], y as [[]|[]| |[]]; try discriminate; reflexivity. Qed.
Lemma nf_add_r x y : is_finite y = false -> is_finite (Bplus mode_NE x y : F64) = false.
Proof. destruct x as [[]|[]| |[]], y as [[]|[]| |[]]; try discriminate; reflexivity. Qed.
Lemma nf_sub_l x y : is_finite x = false -> is_finite (Bminus mode_NE x y : F64) = false.
Proof. destruct x as [[]|[]| |[]], y as [[]|[]| |[]]; try discriminate; reflexivity. Qed.
Lemma nf_mul_l x y : is_finite x = false -> is_finite (Bmult mode_NE x y : F64) = false.
Proof. destruct x as [[]|[]| |[]], y as [[]|[]| |[]]; try discriminate; reflexivity. Qed.
Lemma nf_mul_r x y : is_finite y = false -> is_finite (Bmult mode_NE x y : F64) = false.
Proof. destruct x as [[]|[]| |[]], y as [[]|[]| |[]]; try discriminate; reflexivity. Qed.
Lemma nf_div_l x y : is_finite x = false -> is_finite (Bdiv mode_NE x y : F64) = false.
Proof. destruct x as [[]|[]| |[]], y as [[]|[]| |[]]; try discriminate; reflexivity. Qed.

Section Poison.
Variable libm : Libm.
Let num : Num F64 := NumF libm.
Local Existing Instance num.

Lemma poison_mul (a w : cpx F64) : poisoned a -> poisoned (cmul a w).
Proof.
  intros [A B]. split; cbn.
  - apply nf_sub_l, nf_mul_l, A.
  - apply nf_add_l, nf_mul_l, A.
Qed.
Lemma poison_add_l (a w : cpx F64) : poisoned a -> poisoned (cadd a w).
Proof. intros [A B]. split; cbn; apply nf_add_l; assumption. Qed.
Lemma poison_add_r (a w : cpx F64) : poisoned w -> poisoned (cadd a w).
Proof. intros [A B]. split; cbn; apply nf_add_r; assumption. Qed.
Lemma poison_div (a : cpx F64) d : poisoned a -> poisoned (cdivs a d).
Proof. intros [A B]. split; cbn; apply nf_div_l; assumption. Qed.

(** Transforms computed as sums of products, with any factors in any sizes. *)
Definition naive (w : nat -> nat -> cpx F64) (x : list (cpx F64)) : list (cpx F64) :=
  map (fun k => fold_left cadd (map (fun '(j, v) => cmul v (w j k)) (combine (seq 0 (length x)) x)) c0) (seq 0 (length x)).
Definition naive_fft (wf wi : nat -> nat -> cpx F64) : Fft F64.
Proof. refine {| fft_forward := naive wf; fft_inverse := naive wi |}; intros x; unfold naive; rewrite map_length; apply seq_length. Defined.

Lemma fold_poison l : forall acc, poisoned acc \/ Exists poisoned l -> poisoned (fold_left cadd l acc).
Proof.
  induction l as [|a l IH]; intros acc [Ha|Hl]; cbn [fold_left]; auto.
  - inversion Hl.
  - apply IH. left. apply poison_add_l, Ha.
  - inversion Hl as [? ? Ha|? ? Hl']; subst; apply IH; [left; apply poison_add_r; exact Ha|right; exact Hl'].
Qed.

Lemma naive_spreads wf wi : spreads (naive_fft wf wi).
Proof.
  intros x Hx. cbn [fft_inverse naive_fft]. unfold naive. apply Forall_forall. intros y Hy. apply in_map_iff in Hy.
  destruct Hy as (k & <- & _). apply fold_poison. right.
  revert Hx. generalize 0 as a. induction x as [|v x IH]; intros a Hx; [inversion Hx|]. cbn [length seq combine map].
  inversion Hx as [? ? Hv|? ? Hx']; subst; [left; apply poison_mul; exact Hv|right; apply IH; exact Hx'].
Qed.

(** The last carrier of every block carries an infinite chaotic value. *)
Lemma bpsk_inf (s : cpx F64) : im s = B754_zero false ->
  (re s = f64_ofZ 1 \/ re s = Bopp (f64_ofZ 1) \/ re s = B754_zero false) ->
  poisoned (cmul s (Cpx (B754_infinity false) (nofZ 0))).
Proof.
  destruct s as [x y]. cbn [re im]. intros -> [->|[->| ->]]; split; vm_compute; reflexivity.
Qed.

Lemma poisoned_block fft rng s sy (ch : nat -> F64) : spreads fft -> length sy = 7 ->
  im (nth 6 sy c0) = B754_zero false ->
  (re (nth 6 sy c0) = f64_ofZ 1 \/ re (nth 6 sy c0) = Bopp (f64_ofZ 1) \/ re (nth 6 sy c0) = B754_zero false) ->
  ch 7 = B754_infinity false ->
  exists frame s', fod_modulate fft rng s (sy, tab 8 ch) = Ret (frame, s') /\ length frame = 10 /\ Forall poisoned frame.
Proof.
  intros Sp L H1 H2 H3. destruct (tx_block fft rng s sy ch L) as (index & s' & E & P & Et). eexists. exists s'. split; [exact Et|].
  set (h := map (fun i => nth i (dcsk_carriers sy ch) c0) index).
  assert (Lh : length h = 8) by (unfold h; rewrite map_length; apply Permutation_length in P; rewrite <- P; apply seq_length).
  split; [rewrite (with_cp_length 8); [reflexivity|rewrite ofdm_body_length; exact Lh]|].
  assert (Ex : Exists poisoned (fftshift h)).
  { apply Exists_exists. exists (nth 7 (dcsk_carriers sy ch) c0). split.
    - unfold fftshift. assert (I : In (nth 7 (dcsk_carriers sy ch) c0) h).
      { unfold h. apply (in_map (fun i => nth i (dcsk_carriers sy ch) c0)). apply (Permutation_in _ P), in_seq. lia. }
      rewrite <- (firstn_skipn (div_ceil2 (length h)) h) in I. apply in_app_iff. apply in_app_iff in I. tauto.
    - unfold dcsk_carriers. rewrite tab_nth by lia. rewrite H3. apply bpsk_inf; assumption. }
  assert (Fb : Forall poisoned (ofdm_body fft 8 h)).
  { unfold ofdm_body. apply Forall_forall. intros y Hy. apply in_map_iff in Hy. destruct Hy as (z & <- & Hz).
    apply poison_div. pose proof (Sp _ Ex) as F. rewrite Forall_forall in F. apply F, Hz. }
  unfold with_cp. apply Forall_app. split; [|exact Fb]. apply Forall_forall. intros y Hy. rewrite Forall_forall in Fb. apply Fb.
  rewrite <- (firstn_skipn (8 - 8 / 4) (ofdm_body fft 8 h)). apply in_app_iff. right. exact Hy.
Qed.
End Poison.

(** The transmitter as it runs: not one of its samples is a number, whatever the message, the
    generator, libm and the FFT. *)
Theorem C48_f64_never_finite (libm : Libm) (fft : Fft F64) (rng : Rng) (message : Iter bool) m :
  let num := NumF libm in spreads fft -> yields message m ->
  exists tx s, tx_baseband_fh_ofdm_dcsk_signal fft rng message = Ret tx /\ yields tx s /\
    length s = 10 * (length m / 7 + 1) /\
    Forall (fun z => is_finite (re z) = false /\ is_finite (im z) = false) s.
Proof.
  intros num Sp Hm.
  set (ch0 := fun n => Nat.iter (S n) (@chebyshev F64 num) half).
  assert (Ec : exists cit, Chebyshev_new (nlit 1 2) = Ret cit /\ streams cit ch0)
    by (eexists; split; [reflexivity|apply orbit_streams]).
  destruct Ec as (cit & Ec & Sc).
  assert (Inf : forall n, 7 <= n -> ch0 n = B754_infinity false).
  { intros n Hn. replace n with (7 + (n - 7)) by lia. induction (n - 7) as [|k IH]; [exact (chebyshev_half_8 libm)|].
    replace (7 + S k) with (S (7 + k)) by lia. unfold ch0 in *. rewrite iter_S, IH. apply chebyshev_inf. }
  set (bpsk := fun bit : bool => if bit then Cpx (nofZ 1) (nofZ 0) else Cpx (nopp (nofZ 1)) (nofZ 0) : cpx F64).
  pose proof (imap_yields bpsk message m Hm) as Yb.
  destruct (C04_wchunks_pads _ (c0 : cpx F64) 7 _ _ ltac:(lia) Yb) as (cs & Yc & Lc & Nc & Cc). rewrite map_length in Nc, Cc.
  set (ch := fun k j => ch0 (k * 8 + j)).
  assert (Sk : streams (chunks 8 cit) (fun k => tab 8 (ch k))) by exact (chunks_streams 8 cit _ ltac:(lia) Sc).
  pose proof (izip_stream_yields _ _ _ _ Yc Sk) as Yz.
  rewrite (zip_stream_map_snd (tab 8) cs ch) in Yz.
  unfold tx_baseband_fh_ofdm_dcsk_signal. rewrite Ec. cbn [bind].
  assert (Sy : forall c s, In c cs -> In s c -> im s = B754_zero false /\
      (re s = f64_ofZ 1 \/ re s = Bopp (f64_ofZ 1) \/ re s = B754_zero false)).
  { intros c s Hc Hs. assert (I : In s (concat cs)) by (apply in_concat; exists c; auto). rewrite Cc in I.
    apply in_app_iff in I. destruct I as [I|I].
    - apply in_map_iff in I. destruct I as ([] & <- & _); cbn; auto.
    - apply repeat_spec in I. subst s. cbn. auto. }
  assert (B : forall blocks s, (forall b, In b blocks -> In (fst b) cs /\ exists k, snd b = ch k) ->
    exists out, flat_ok (fod_modulate fft rng) s (map (fun b => (fst b, tab 8 (snd b))) blocks) out 0 /\
      length out = 10 * length blocks /\ Forall poisoned out).
  { induction blocks as [|[sy c] blocks IH]; intros s Hb; [exists []; repeat split; constructor|].
    destruct (Hb (sy, c) (or_introl eq_refl)) as [I (k & Ek)]. cbn [fst snd] in I, Ek. subst c.
    pose proof (Lc sy I) as L.
    destruct (Sy sy (nth 6 sy c0) I) as [S1 S2]; [apply nth_In; lia|].
    destruct (poisoned_block libm fft rng s sy (ch k) Sp L S1 S2) as (frame & s' & E & Lf & Ff); [apply Inf; lia|].
    destruct (IH s') as (out & Fo & Lo & Po); [intros; apply Hb; right; assumption|].
    exists (frame ++ out). split; [|split].
    - pose proof (flat_cons _ _ _ _ _ _ _ 0 E Fo) as F. destruct frame; [discriminate|]. exact F.
    - rewrite app_length. cbn [length]. lia.
    - apply Forall_app. auto. }
  destruct (B (zip_stream cs ch) (seed_from_u64 rng SEED)) as (out & Fo & Lo & Po).
  { intros b Hb. apply zip_stream_in_snd, Hb. }
  eexists. exists out. split; [reflexivity|]. split; [eapply iflat_yields; [exact Yz|exact Fo|reflexivity]|].
  split; [rewrite Lo, zip_stream_length, Nc; reflexivity|exact Po].
Qed.

(** Transforms that meet the condition: any sums of products. *)
Example C48_spreading_fft (libm : Libm) wf wi : spreads (naive_fft libm wf wi).
Proof. apply naive_spreads. Qed.

(** ** C62: the passband transmitters *)

Section Wave.
Context {T : Type} `{Num T} `{SignPos T}.
Variable fft : Fft T.
Variable rng : Rng.

(** Over any arithmetic and any FFT the baseband transmitter gives 10 samples per started block. *)
Lemma baseband_any message m bb : yields message m -> tx_baseband_fh_ofdm_dcsk_signal fft rng message = Ret bb ->
  exists s, yields bb s /\ length s = 10 * (length m / 7 + 1).
Proof.
  intros Hm Hb. unfold tx_baseband_fh_ofdm_dcsk_signal, Chebyshev_new, assert_then in Hb.
  destruct (_ && _); [|discriminate]. cbn [bind] in Hb. injection Hb as <-.
  set (bpsk := fun bit : bool => if bit then Cpx (nofZ 1) (nofZ 0) else Cpx (nopp (nofZ 1)) (nofZ 0) : cpx T).
  pose proof (imap_yields bpsk message m Hm) as Yb.
  destruct (C04_wchunks_pads _ (c0 : cpx T) 7 _ _ ltac:(lia) Yb) as (cs & Yc & Lc & Nc & _). rewrite map_length in Nc.
  set (ch0 := fun n => Nat.iter (S n) chebyshev (nlit 1 2) : T).
  set (ch := fun k j => ch0 (k * 8 + j)).
  assert (Sk : streams (chunks 8 (orbit chebyshev (nlit 1 2))) (fun k => tab 8 (ch k)))
    by exact (chunks_streams 8 _ _ ltac:(lia) (orbit_streams _ _)).
  pose proof (izip_stream_yields _ _ _ _ Yc Sk) as Yz. rewrite (zip_stream_map_snd (tab 8) cs ch) in Yz.
  assert (B : forall blocks s, (forall b, In b blocks -> In (fst b) cs) ->
    exists out, flat_ok (fod_modulate fft rng) s (map (fun b => (fst b, tab 8 (snd b))) blocks) out 0 /\
      length out = 10 * length blocks).
  { induction blocks as [|[sy c] blocks IH]; intros s Hb; [exists []; repeat split; constructor|].
    pose proof (Lc sy (Hb (sy, c) (or_introl eq_refl))) as L.
    destruct (tx_block fft rng s sy c L) as (index & s' & E & P & Et).
    destruct (IH s') as (out & Fo & Lo); [intros; apply Hb; right; assumption|].
    assert (Lf : length (with_cp 8 (ofdm_body fft 8 (map (fun i => nth i (dcsk_carriers sy c) c0) index))) = 10).
    { rewrite (with_cp_length 8); [reflexivity|]. rewrite ofdm_body_length, map_length. apply Permutation_length in P. rewrite <- P. apply seq_length. }
    eexists. split; [|rewrite app_length, Lf, Lo; cbn [length]; lia].
    pose proof (flat_cons _ _ _ _ _ _ _ 0 Et Fo) as F. cbn [map fst snd].
    destruct (with_cp 8 _); [discriminate|]. exact F. }
  destruct (B (zip_stream cs ch) (seed_from_u64 rng SEED)) as (out & Fo & Lo).
  { intros b Hb. apply zip_stream_in_snd in Hb. apply Hb. }
  exists out. split; [eapply iflat_yields; [exact Yz|exact Fo|reflexivity]|]. rewrite Lo, zip_stream_length, Nc. reflexivity.
Qed.

(** Sample i belongs to baseband sample i / sps; every baseband sample (not every OFDM block) has a
    hop frequency of its own. *)
Theorem C62_hopped_wave message m low high num_freqs sample_rate symbol_rate tx :
  yields message m -> 2 <= num_freqs -> 1 <= sample_rate / symbol_rate ->
  tx_fh_ofdm_dcsk_signal fft rng message low high num_freqs sample_rate symbol_rate = Ret tx ->
  exists bb s hops f, tx_baseband_fh_ofdm_dcsk_signal fft rng message = Ret bb /\ yields bb s /\
    length s = 10 * (length m / 7 + 1) /\
    HopTable_new rng low high num_freqs SEED = Ret hops /\ streams hops f /\
    let sps := sample_rate / symbol_rate in
    yields tx (map (fun i =>
      re (cmul (nth (i / sps) s c0)
               (cexp_i (- nofZ 2 * npi * f (i / sps)%nat * (nofnat i / nofnat sample_rate))%num)))
      (seq 0 (length s * sps))).
Proof.
  intros Hm Hf Hs Htx. unfold tx_fh_ofdm_dcsk_signal, assert_then in Htx.
  destruct (nyquist_ok _ _); [|discriminate]. destruct (is_int _); [|discriminate].
  unfold usize_div in Htx. destruct (Nat.eqb_spec symbol_rate 0) as [->|Hsy]; [cbn in Hs; lia|]. cbn [bind] in Htx.
  destruct (tx_baseband_fh_ofdm_dcsk_signal fft rng message) as [bb| |] eqn:Eb; try discriminate. cbn [bind] in Htx.
  destruct (baseband_any message m bb Hm Eb) as (s & Ys & Ls).
  destruct (hops_stream rng low high num_freqs SEED Hf) as (hops & f & Eh & Sf & _). rewrite Eh in Htx. cbn [bind] in Htx.
  injection Htx as <-. exists bb, s, hops, f. repeat (split; [assumption || reflexivity|]). cbv zeta.
  set (sps := sample_rate / symbol_rate) in *.
  pose proof (izip_stream_yields _ _ _ _ Ys Sf) as Yz.
  rewrite <- (tab_nth_id s c0) in Yz. rewrite tab_zip in Yz.
  pose proof (ienum_yields _ _ (inflate_yields sps _ _ Hs Yz)) as Ye. rewrite repeat_each_tab, tab_index in Ye.
  match goal with |- yields (imap ?g _) _ => pose proof (imap_yields g _ _ Ye) as Yi end.
  rewrite tab_map in Yi. exact Yi.
Qed.

Theorem C62_fixed_wave message m sample_rate symbol_rate fc tx :
  yields message m -> 1 <= sample_rate / symbol_rate ->
  tx_fh_ofdm_dcsk_signal_2 fft rng message sample_rate symbol_rate fc = Ret tx ->
  exists bb s, tx_baseband_fh_ofdm_dcsk_signal fft rng message = Ret bb /\ yields bb s /\
    length s = 10 * (length m / 7 + 1) /\
    let sps := sample_rate / symbol_rate in
    yields tx (map (fun i =>
      re (cmul (nth (i / sps) s c0)
               (cexp_i (- nofZ 2 * npi * fc * (nofnat i / nofnat sample_rate))%num)))
      (seq 0 (length s * sps))).
Proof.
  intros Hm Hs Htx. unfold tx_fh_ofdm_dcsk_signal_2, assert_then in Htx.
  destruct (nyquist_ok _ _); [|discriminate]. destruct (is_int _); [|discriminate].
  unfold usize_div in Htx. destruct (Nat.eqb_spec symbol_rate 0) as [->|Hsy]; [cbn in Hs; lia|]. cbn [bind] in Htx.
  destruct (tx_baseband_fh_ofdm_dcsk_signal fft rng message) as [bb| |] eqn:Eb; try discriminate. cbn [bind] in Htx.
  destruct (baseband_any message m bb Hm Eb) as (s & Ys & Ls).
  injection Htx as <-. exists bb, s. repeat (split; [assumption || reflexivity|]). cbv zeta.
  set (sps := sample_rate / symbol_rate) in *.
  pose proof Ys as Yz. rewrite <- (tab_nth_id s c0) in Yz.
  pose proof (ienum_yields _ _ (inflate_yields sps _ _ Hs Yz)) as Ye. rewrite repeat_each_tab, tab_index in Ye.
  match goal with |- yields (imap ?g _) _ => pose proof (imap_yields g _ _ Ye) as Yi end.
  rewrite tab_map in Yi. exact Yi.
Qed.
End Wave.

(** In binary64 a poisoned baseband makes every passband sample non-finite as well. *)
Theorem C62_f64_never_finite (libm : Libm) (fft : Fft F64) (rng : Rng) (message : Iter bool) m
  (sample_rate symbol_rate : nat) (fc : F64) tx :
  let num := NumF libm in spreads fft -> yields message m -> 1 <= sample_rate / symbol_rate ->
  tx_fh_ofdm_dcsk_signal_2 fft rng message sample_rate symbol_rate fc = Ret tx ->
  exists w, yields tx w /\ length w = 10 * (length m / 7 + 1) * (sample_rate / symbol_rate) /\
    Forall (fun x => is_finite x = false) w.
Proof.
  intros num Sp Hm Hs Htx.
  destruct (C62_fixed_wave fft rng message m sample_rate symbol_rate fc tx Hm Hs Htx) as (bb & s & Eb & Ys & Ls & Yt).
  destruct (C48_f64_never_finite libm fft rng message m Sp Hm) as (bb' & s' & Eb' & Ys' & Ls' & F).
  fold num in Eb'. rewrite Eb in Eb'. injection Eb' as <-. pose proof (yields_det _ _ _ Ys Ys') as <-.
  eexists. split; [exact Yt|]. split; [rewrite map_length, seq_length, Ls; reflexivity|].
  apply Forall_forall. intros x Hx. apply in_map_iff in Hx. destruct Hx as (i & <- & Hi). apply in_seq in Hi.
  set (sps := sample_rate / symbol_rate) in *.
  assert (I : In (nth (i / sps) s c0) s) by (apply nth_In, Nat.div_lt_upper_bound; lia).
  rewrite Forall_forall in F. destruct (F _ I) as [F1 F2]. cbn. apply nf_sub_l, nf_mul_l, F1.
Qed.

(** The same in exact arithmetic: in-phase part on the cosine, quadrature part on the sine. *)
Theorem C62_exact_wave (rng : Rng) (message : Iter bool) m (sample_rate symbol_rate : nat) (fc : R) tx :
  yields message m -> 1 <= sample_rate / symbol_rate ->
  tx_fh_ofdm_dcsk_signal_2 exact_fft rng message sample_rate symbol_rate fc = Ret tx ->
  exists bb s, tx_baseband_fh_ofdm_dcsk_signal exact_fft rng message = Ret bb /\ yields bb s /\
    let sps := sample_rate / symbol_rate in
    yields tx (map (fun i =>
      let z := nth (i / sps) s (Cpx 0 0) in
      let theta := 2 * PI * fc * (INR i / INR sample_rate) in
      re z * cos theta + im z * sin theta)%R (seq 0 (length s * sps))).
Proof.
  intros Hm Hs Htx.
  destruct (C62_fixed_wave exact_fft rng message m sample_rate symbol_rate fc tx Hm Hs Htx) as (bb & s & Eb & Ys & Ls & Yt).
  exists bb, s. split; [exact Eb|]. split; [exact Ys|]. cbv zeta in *.
  match type of Yt with yields _ ?b => match goal with |- yields _ ?a => replace a with b; [exact Yt|] end end.
  apply map_ext. intros i. rewrite !nofnat_R. unfold cexp_i. cbn [nofZ nexp ncos nsin npi nmul nopp ndiv NumR re im cmul nsub].
  rewrite exp_0.
  replace (- (2) * PI * fc * (INR i / INR sample_rate))%R with (- (2 * PI * fc * (INR i / INR sample_rate)))%R by ring.
  rewrite cos_neg, sin_neg. change (@c0 R NumR) with (Cpx 0 0)%R. ring.
Qed.

(** A case: four bits, two samples per baseband sample. *)
Example C62_case : exists tx w,
  tx_fh_ofdm_dcsk_signal_2 exact_fft (scripted [3; 1; 2]) (of_list [true; false; true; true]) 8 4 1%R = Ret tx /\
  yields tx w /\ length w = 20.
Proof.
  destruct (C48_fh_ofdm_dcsk_round_trip (scripted [3; 1; 2]) _ _ (of_list_yields [true; false; true; true])) as (bb & s & Eb & _).
  assert (E : exists tx, tx_fh_ofdm_dcsk_signal_2 exact_fft (scripted [3; 1; 2]) (of_list [true; false; true; true]) 8 4 1%R = Ret tx).
  { unfold tx_fh_ofdm_dcsk_signal_2. rewrite Eb.
    destruct (fh_checks_R 8 4 1 ltac:(lia) eq_refl ltac:(lia)) as (H1 & H2); [cbn; lra|].
    unfold assert_then. rewrite H1, H2. eexists. reflexivity. }
  destruct E as (tx & E). exists tx.
  destruct (C62_fixed_wave exact_fft (scripted [3; 1; 2]) _ _ 8 4 1%R tx (of_list_yields [true; false; true; true]) ltac:(cbn; lia) E)
    as (bb' & s' & _ & _ & Ls & Yt). eexists. split; [exact E|]. split; [exact Yt|]. rewrite map_length, seq_length, Ls. reflexivity.
Qed.

(** ** Axioms used *)
Print Assumptions C48_fh_ofdm_dcsk_round_trip.
Print Assumptions C48_first_bits.
Print Assumptions C48_f64_never_finite.
Print Assumptions C62_hopped_wave.
Print Assumptions C62_fixed_wave.
Print Assumptions C62_f64_never_finite.
Print Assumptions C62_exact_wave.
