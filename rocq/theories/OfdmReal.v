(** OFDM with exact transforms. *)
From Coq Require Import List Arith ZArith Reals Bool Lia Lra Psatz.
From Verif Require Import Base IterTheory IterModel IterProofs Spec SpecR Tab Num LibModel LibReal
  ChaosModel PskModel CdmaModel FhProofs SpecC FftModel RSums PskReal Dft OfdmModel OfdmProofs.
Import ListNotations.

Lemma div_ceil2_bounds n : 1 <= n -> 1 <= div_ceil2 n <= n /\ n <= 2 * div_ceil2 n <= n + 1.
Proof.
  intros Hn. unfold div_ceil2. pose proof (Nat.div_mod (n + 1) 2 ltac:(lia)).
  pose proof (Nat.mod_upper_bound (n + 1) 2 ltac:(lia)). lia.
Qed.

Lemma fftshift_tab {A} n (x : nat -> A) : fftshift (tab n x) = tab n (fun i => x ((i + div_ceil2 n) mod n)).
Proof.
  destruct (Nat.eq_dec n 0) as [->|Hn]; [reflexivity|]. pose proof (div_ceil2_bounds n ltac:(lia)).
  unfold fftshift. rewrite tab_length. set (p := div_ceil2 n) in *. rewrite skipn_tab, firstn_tab.
  replace (Nat.min p n) with p by lia.
  replace (tab n (fun i => x ((i + p) mod n))) with (tab ((n - p) + p) (fun i => x ((i + p) mod n))) by (f_equal; lia).
  rewrite tab_add. f_equal; apply tab_ext; intros i Hi; f_equal.
  - rewrite Nat.mod_small by lia. lia.
  - replace (n - p + i + p) with (i + 1 * n) by lia. rewrite Nat.mod_add by lia. rewrite Nat.mod_small by lia. reflexivity.
Qed.

Lemma fftshift_twice_even {A} (x : list A) : Nat.even (length x) = true -> fftshift (fftshift x) = x.
Proof.
  intros He. destruct x as [|a x']; [reflexivity|]. set (x := a :: x') in *.
  assert (Hn : length x <> 0) by discriminate. rewrite <- (tab_nth_id x a) at 1. set (n := length x) in *.
  rewrite !fftshift_tab. transitivity (tab n (fun i => nth i x a)); [|apply tab_nth_id]. apply tab_ext. intros i Hi.
  rewrite Nat.add_mod_idemp_l by exact Hn. f_equal.
  assert (E : 2 * div_ceil2 n = n).
  { apply Nat.even_spec in He. destruct He as [k Hk]. pose proof (div_ceil2_bounds n ltac:(lia)). lia. }
  replace (i + div_ceil2 n + div_ceil2 n) with (i + 1 * n) by lia.
  rewrite Nat.mod_add by exact Hn. apply Nat.mod_small. exact Hi.
Qed.

Lemma fftshift_twice_odd {A} (x : list A) d : Nat.odd (length x) = true ->
  fftshift (fftshift x) = tab (length x) (fun i => nth ((i + 1) mod length x) x d).
Proof.
  intros He. rewrite <- (tab_nth_id x d) at 1. set (n := length x) in *.
  assert (Hn : n <> 0) by (intros Z; rewrite Z in He; discriminate).
  rewrite !fftshift_tab. apply tab_ext. intros i Hi. rewrite Nat.add_mod_idemp_l by exact Hn. f_equal.
  assert (E : 2 * div_ceil2 n = n + 1).
  { apply Nat.odd_spec in He. destruct He as [k Hk]. pose proof (div_ceil2_bounds n ltac:(lia)). lia. }
  replace (i + div_ceil2 n + div_ceil2 n) with (i + 1 + 1 * n) by lia.
  apply Nat.mod_add. exact Hn.
Qed.

Local Open Scope R_scope.

Lemma cdivs_mul (a : CR) (x : R) : x <> 0 -> cdivs a x = cmul (RtoC (/ x)) a.
Proof. intros Hx. apply cpx_eq; cbn; field; exact Hx. Qed.

Lemma dft_scale c x : dft (map (cmul c) x) = map (cmul c) (dft x).
Proof.
  unfold dft. rewrite tab_map, map_length. apply tab_ext. intros k Hk. rewrite <- Csum_scale. apply Csum_ext. intros j Hj.
  rewrite (nth_indep _ (Cpx 0 0) (cmul c (Cpx 0 0))) by (rewrite map_length; exact Hj). rewrite map_nth. ring.
Qed.

Lemma nofnat_R n : @nofnat R _ n = INR n.
Proof. unfold nofnat. cbn. symmetry. apply INR_IZR_INZ. Qed.

Lemma dft_body N d : length d = N -> dft (ofdm_body exact_fft N d) = fftshift d.
Proof.
  intros L. destruct (Nat.eq_dec N 0) as [->|HN]; [destruct d; [reflexivity|discriminate]|].
  assert (HR : INR N <> 0) by (apply not_0_INR; exact HN).
  unfold ofdm_body. rewrite nofnat_R. rewrite (map_ext _ (cmul (RtoC (/ INR N)))) by (intros; apply cdivs_mul; exact HR).
  rewrite dft_scale. cbn [fft_inverse exact_fft]. rewrite dft_idft_list, map_map, fftshift_length, L.
  rewrite <- (map_id (fftshift d)) at 2. apply map_ext. intros a. apply cpx_eq; cbn; field; exact HR.
Qed.

Lemma read_body N P d : (1 <= P <= N)%nat -> length d = N ->
  ofdm_read exact_fft N P (ofdm_body exact_fft N d) = map (fun c => nth c (fftshift (fftshift d)) c0) (carriers N P).
Proof. intros HP L. unfold ofdm_read. cbn [fft_forward exact_fft]. rewrite dft_body by exact L. reflexivity. Qed.

Lemma skip_cp N (y : list CR) : length y = N -> skipn (N / 4) (with_cp N y) = y.
Proof.
  intros L. pose proof (quarter N). unfold with_cp. rewrite skipn_app, skipn_length, L.
  rewrite skipn_all2 by (rewrite skipn_length; lia). replace (N / 4 - (N - (N - N / 4)))%nat with 0%nat by lia. reflexivity.
Qed.

Definition pad (n : nat) (l : list CR) : list CR := l ++ repeat c0 (n - length l).

Lemma map_tab_in {A B} (f : A -> B) l (d : A) : map f l = tab (length l) (fun i => f (nth i l d)).
Proof. apply map_tab_nth. Qed.

Lemma tab_pad n (l : list CR) : (length l <= n)%nat -> tab n (fun i => nth i l c0) = pad n l.
Proof.
  intros H. unfold pad. replace n with (length l + (n - length l))%nat at 1 by lia. rewrite tab_add, tab_nth_id. f_equal.
  rewrite repeat_tab. apply tab_ext. intros i _. apply nth_overflow. lia.
Qed.

Lemma block_round_trip N P chunk : Nat.even N = true -> (1 <= P < N)%nat -> (length chunk <= N - P)%nat ->
  ofdm_read exact_fft N P (skipn (N / 4) (ofdm_block exact_fft N P chunk)) = pad (N - P) chunk.
Proof.
  intros He HP HL. destruct (ofdm_block_spec exact_fft N P chunk ltac:(lia)) as (d & (L & Hout & Hin) & E & _).
  rewrite E, skip_cp by (rewrite ofdm_body_length; exact L). rewrite read_body by (auto; lia).
  rewrite fftshift_twice_even by (rewrite L; exact He).
  rewrite (map_tab_in _ _ 0%nat), carriers_length by lia. rewrite <- tab_pad by exact HL. apply tab_ext. exact Hin.
Qed.

Lemma chunk_list_le {A} n (l : list A) c : In c (chunk_list n l) -> (length c <= n)%nat.
Proof.
  unfold chunk_list. intros H. apply in_map_iff in H. destruct H as (i & <- & _). rewrite block_length. lia.
Qed.

Lemma pad_chunks n l : (1 <= n)%nat -> exists k, (k < n)%nat /\ ((length l + k) mod n = 0)%nat /\
  flat_map (pad n) (chunk_list n l) = l ++ repeat c0 k.
Proof.
  intros Hn. induction l as [l IH] using (well_founded_induction (well_founded_ltof _ (@length CR))).
  destruct l as [|a l'].
  - exists 0%nat. rewrite chunk_list_nil by exact Hn. repeat split; [lia|]. apply Nat.mod_0_l. lia.
  - set (l := a :: l') in *. rewrite chunk_list_cons by (exact Hn || discriminate). cbn [flat_map].
    destruct (IH (skipn n l)) as (k & Hk & Hm & E).
    { unfold ltof. rewrite skipn_length. unfold l. cbn [length]. lia. }
    rewrite E. clear IH. destruct (Nat.le_gt_cases n (length l)) as [H|H].
    + exists k. split; [exact Hk|]. split.
      * rewrite skipn_length in Hm. replace (length l + k)%nat with ((length l - n + k) + 1 * n)%nat by lia.
        rewrite Nat.mod_add by lia. exact Hm.
      * unfold pad. rewrite firstn_length_le by exact H. rewrite Nat.sub_diag, app_nil_r, app_assoc, firstn_skipn. reflexivity.
    + exists (n - length l)%nat. rewrite skipn_all2 in * by lia. cbn [length] in Hm.
      assert (k = 0)%nat. { destruct (Nat.eq_dec k 0); [assumption|]. cbn in Hm. rewrite Nat.mod_small in Hm by lia. lia. }
      subst k. split; [unfold l; cbn [length]; lia|]. split.
      * replace (length l + (n - length l))%nat with n by lia. apply Nat.mod_same. lia.
      * unfold pad. rewrite firstn_all2 by lia. cbn [repeat app]. rewrite app_nil_r. reflexivity.
Qed.

Lemma flat_map_eq_in {A B} (f g : A -> list B) l : (forall a, In a l -> f a = g a) -> flat_map f l = flat_map g l.
Proof. apply flat_map_ext_in. Qed.

Lemma ofdm_round_trip symbols s N P : Nat.even N = true -> (1 <= P < N)%nat -> yields symbols s ->
  exists tx rx k, tx_baseband_ofdm_signal exact_fft symbols N P = Ret tx /\
    rx_baseband_ofdm_signal exact_fft tx N P = Ret rx /\
    (k < N - P)%nat /\ ((length s + k) mod (N - P) = 0)%nat /\ yields rx (s ++ repeat c0 k).
Proof.
  intros He HP Hs. destruct (tx_ofdm_inv exact_fft symbols N P HP) as (tx & Et & Yt).
  destruct (rx_ofdm_inv exact_fft tx N P HP) as (rx & Er & Yr).
  destruct (pad_chunks (N - P) s ltac:(lia)) as (k & Hk & Hm & E).
  exists tx, rx, k. repeat split; try assumption. rewrite <- E.
  specialize (Yt s Hs). rewrite flat_map_concat_map in Yt. specialize (Yr _ Yt).
  rewrite flat_map_concat_map, map_map, <- flat_map_concat_map in Yr.
  refine (eq_ind _ (fun x => yields _ x) (Yr _) _ _).
  - intros b Hb. apply in_map_iff in Hb. destruct Hb as (c & <- & _). apply ofdm_block_length. lia.
  - apply flat_map_ext_in. intros c Hc. apply block_round_trip; auto. eapply chunk_list_le. exact Hc.
Qed.
