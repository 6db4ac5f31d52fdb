(** C94: every modem gives each output as soon as its input allows, and never reads ahead.
    The modems are compared on two sources with the same first items: one that panics when asked for
    more, and any other (one that ends, goes on for ever, or fails later).  Fed with the first, the
    modem gives exactly as many items as the stated count before failing, so it has asked for nothing
    beyond what they need; fed with the other it gives the same ones. *)
From Coq Require Import List Arith ZArith Bool Lia Lra Reals.
From Verif Require Import Base IterTheory IterModel IterProofs Spec Num LibModel ChaosModel ChaosMod ChaosProofs PskModel CdmaModel FskModel
  FftModel OfdmModel OfdmProofs PanicTheory Demand Props_Psk Props_Cdma Props_OfdmRx.
Import ListNotations.

(** ** Helpers *)

Lemma prompt_by {A B} (F : Iter A -> outcome (Iter B)) ad g c : (forall it, F it = Ret (ad it)) -> tracks ad g ->
  (forall l, length (g l) = c (length l)) -> prompt F c.
Proof. intros E T L. eapply prompt_ext; [intros it; symmetry; apply E|reflexivity|]. eapply tracks_prompt; eassumption. Qed.

Lemma prompt_pre {A B C} (ad : Iter A -> Iter B) (G : Iter B -> outcome (Iter C)) c d :
  prompt (fun it => Ret (ad it)) c -> prompt G d -> prompt (fun it => G (ad it)) (fun n => d (c n)).
Proof. exact (prompt_comp (fun it => Ret (ad it)) G c d). Qed.

Lemma index_length {A} (l : list A) : length (index_from 0 l) = length l.
Proof. unfold index_from. rewrite combine_length, seq_length. apply Nat.min_id. Qed.
Lemma repeat_each_length' {A} n (l : list A) : length (repeat_each n l) = length l * n.
Proof. induction l as [|a l IH]; [reflexivity|]. cbn [repeat_each flat_map length]. rewrite app_length, repeat_length. fold (repeat_each n l). rewrite IH. lia. Qed.
Lemma pairs_length {A} (l : list A) : length (pairs l) = length l / 2.
Proof.
  assert (G : forall n (l : list A), length l <= n -> length (pairs l) = length l / 2).
  { induction n as [|n IH]; intros k Hk.
    - destruct k; [reflexivity|cbn in Hk; lia].
    - destruct k as [|a [|b k]]; [reflexivity|reflexivity|]. cbn [pairs length]. rewrite IH by (cbn in Hk; lia).
      replace (S (S (length k))) with (length k + 1 * 2) by lia. rewrite Nat.div_add by lia. lia. }
  apply (G (length l)). lia.
Qed.
Lemma zip_stream_length {A B} (l : list A) (f : nat -> B) : length (zip_stream l f) = length l.
Proof. unfold zip_stream. rewrite combine_length, map_length, seq_length. apply Nat.min_id. Qed.
Lemma flat_const_length {A B} (f : A -> list B) n l : (forall a, In a l -> length (f a) = n) -> length (flat_map f l) = length l * n.
Proof.
  induction l as [|a l IH]; intros H; [reflexivity|]. cbn [flat_map length]. rewrite app_length, H by (left; reflexivity).
  rewrite IH by (intros; apply H; right; assumption). lia.
Qed.
Lemma scan_length {A} add (l : list A) : forall d, length (scan add d l) = length l.
Proof. induction l as [|a l IH]; intros d; cbn; [reflexivity|]. rewrite IH. reflexivity. Qed.

Ltac lens := cbn beta; repeat first [rewrite map_length | rewrite index_length | rewrite repeat_each_length' | rewrite pairs_length
  | rewrite zip_stream_length | rewrite scan_length | rewrite conv_head_length | rewrite skipn_length].
(** Drop the checks of a function that returned. *)
Ltac accepted H :=
  repeat match type of H with
  | context [assert_then ?b _] => let E := fresh "Ea" in destruct b eqn:E; cbn [assert_then bind] in H; [|discriminate H]
  end.

Section Any.
Context {T : Type} `{Num T}.

Theorem C94_tx_baseband_bpsk : prompt (fun message => Ret (tx_baseband_bpsk_signal (T := T) message)) (fun n => n).
Proof. eapply prompt_by; [reflexivity|unfold tx_baseband_bpsk_signal; apply imap_tracks|intros; apply map_length]. Qed.
Theorem C94_rx_baseband_bpsk : prompt (fun message => Ret (rx_baseband_bpsk_signal (T := T) message)) (fun n => n).
Proof. eapply prompt_by; [reflexivity|unfold rx_baseband_bpsk_signal; apply imap_tracks|intros; apply map_length]. Qed.
Theorem C94_tx_baseband_qpsk : prompt (fun message => Ret (tx_baseband_qpsk_signal (T := T) message)) (fun n => n / 2).
Proof. eapply prompt_by; [reflexivity|unfold tx_baseband_qpsk_signal; eapply tracks_comp; [apply tuples_tracks|apply imap_tracks]|]. intros; lens. reflexivity. Qed.
Theorem C94_rx_baseband_qpsk : prompt (fun message => Ret (rx_baseband_qpsk_signal (T := T) message)) (fun n => 2 * n).
Proof.
  eapply prompt_by; [reflexivity|unfold rx_baseband_qpsk_signal; apply flat_pure_tracks; discriminate|].
  intros l. rewrite (flat_const_length _ 2) by reflexivity. lia.
Qed.

(** sps samples per symbol. *)
Section Rates.
Variables (sample_rate symbol_rate : nat).
Hypothesis rate_pos : 1 <= symbol_rate.
Hypothesis rate_le : symbol_rate <= sample_rate.
Let sps := sample_rate / symbol_rate.
Lemma sps_pos : 1 <= sps.
Proof. unfold sps. apply Nat.div_le_lower_bound; lia. Qed.
Lemma sps_div : usize_div sample_rate symbol_rate = Ret sps.
Proof. apply usize_div_intro. lia. Qed.

Theorem C94_tx_bpsk fc : forall message0 tx0, tx_bpsk_signal message0 sample_rate symbol_rate fc = Ret tx0 ->
  prompt (fun message => tx_bpsk_signal message sample_rate symbol_rate fc) (fun n => n * sps).
Proof.
  intros message0 tx0 E. unfold tx_bpsk_signal in *. rewrite sps_div in *. cbn [bind] in *. accepted E.
  eapply prompt_by; [reflexivity| |].
  - eapply tracks_comp; [|apply imap_tracks]. eapply tracks_comp; [|apply ienum_tracks]. eapply tracks_comp; [apply imap_tracks|]. apply inflate_tracks, sps_pos.
  - intros l. lens. reflexivity.
Qed.
Theorem C94_rx_bpsk fc : prompt (fun signal => rx_bpsk_signal signal sample_rate symbol_rate fc) (fun n => n / sps).
Proof.
  unfold rx_bpsk_signal. rewrite sps_div. cbn [bind]. eapply prompt_by; [reflexivity| |].
  - eapply tracks_comp; [|apply imap_tracks]. eapply tracks_comp; [|apply dump_tracks, sps_pos].
    eapply tracks_comp; [|apply imap_tracks]. apply ienum_tracks.
  - intros l. cbn beta. rewrite !map_length, wholes_length by apply sps_pos. lens. reflexivity.
Qed.
Theorem C94_tx_qpsk fc : prompt (fun message => tx_qpsk_signal message sample_rate symbol_rate fc) (fun n => n / 2 * sps).
Proof.
  unfold tx_qpsk_signal. rewrite sps_div. cbn [bind]. eapply prompt_by; [reflexivity| |].
  - eapply tracks_comp; [|apply imap_tracks]. eapply tracks_comp; [|apply ienum_tracks]. eapply tracks_comp; [apply tuples_tracks|]. apply inflate_tracks, sps_pos.
  - intros l. lens. reflexivity.
Qed.

Lemma lanes_fold_len (add : T -> T -> T) (r : list (list T)) : forall d, (forall a, In a r -> length a = 2) -> length d = 2 ->
  length (fold_left (lanes_add add) r d) = 2.
Proof.
  induction r as [|a r IH]; intros d Ha Hd; [exact Hd|]. cbn [fold_left]. apply IH; [intros; apply Ha; right; assumption|].
  specialize (Ha a (or_introl eq_refl)). destruct a as [|? [|? [|]]]; try discriminate. destruct d as [|? [|? [|]]]; try discriminate. reflexivity.
Qed.
Lemma wholes_incl {A} n (l : list A) c x : 1 <= n -> In c (wholes n l) -> In x c -> In x l.
Proof.
  intros Hn. remember (length l) as k eqn:E. revert l E. induction k as [k IH] using (well_founded_induction lt_wf). intros l E Hc Hx.
  destruct (Nat.lt_ge_cases k n) as [H1|H1]; [rewrite wholes_short in Hc by lia; destruct Hc|].
  rewrite wholes_long in Hc by lia. rewrite <- (firstn_skipn n l). apply in_or_app. destruct Hc as [<-|Hc]; [left; exact Hx|right].
  apply (IH (k - n) ltac:(lia) (skipn n l)); [rewrite skipn_length; lia|exact Hc|exact Hx].
Qed.
Theorem C94_rx_qpsk fc : prompt (fun signal => rx_qpsk_signal signal sample_rate symbol_rate fc) (fun n => 2 * (n / sps)).
Proof.
  unfold rx_qpsk_signal. rewrite sps_div. cbn [bind].
  set (mix := fun '(idx, sample) => _).
  set (dec := fun row : list T => match row with [val1; val2] => [nleb (nofZ 0) val1; nleb (nofZ 0) val2] | _ => [] end).
  assert (R2 : forall l c, In c (map (fun r => fold_left (lanes_add nadd) r (repeat (nofZ 0) 2)) (wholes sps (map mix (index_from 0 l)))) -> length c = 2).
  { intros l c Hc. apply in_map_iff in Hc. destruct Hc as (r & <- & Hr). apply lanes_fold_len; [|reflexivity].
    intros a Ha. pose proof (wholes_incl _ _ _ _ sps_pos Hr Ha) as Hm. apply in_map_iff in Hm. destruct Hm as ([i s] & <- & _). reflexivity. }
  eapply prompt_by with (g := fun l => flat_map dec (map (fun r => fold_left (lanes_add nadd) r (repeat (nofZ 0) 2)) (wholes sps (map mix (index_from 0 l))))); [reflexivity| |].
  - intros b it l Hr. apply flat_tracks.
    + unfold nintegrate_and_dump. apply dump_tracks; [apply sps_pos|]. apply imap_tracks, ienum_tracks, Hr.
    + intros a Ha. split; [reflexivity|]. specialize (R2 l a Ha). destruct a as [|? [|? [|]]]; try discriminate.
  - intros l. rewrite (flat_const_length _ 2).
    + rewrite map_length, wholes_length by apply sps_pos. lens. lia.
    + intros a Ha. specialize (R2 l a Ha). destruct a as [|? [|? [|]]]; try discriminate. reflexivity.
Qed.

(** *** FSK and FM *)

Theorem C94_tx_bfsk low high : forall message0 tx0, tx_bfsk_signal message0 sample_rate symbol_rate low high = Ret tx0 ->
  prompt (fun message => tx_bfsk_signal message sample_rate symbol_rate low high) (fun n => n * sps).
Proof.
  intros message0 tx0 E. unfold tx_bfsk_signal in *. rewrite sps_div in *. cbn [bind] in *. accepted E.
  eapply prompt_by; [reflexivity| |].
  - eapply tracks_comp; [|apply imap_tracks]. eapply tracks_comp; [|apply ienum_tracks]. eapply tracks_comp; [apply imap_tracks|]. apply inflate_tracks, sps_pos.
  - intros l. lens. reflexivity.
Qed.
Theorem C94_tx_mfsk low high num_freqs : forall message0 tx0, tx_mfsk_signal message0 sample_rate symbol_rate low high num_freqs = Ret tx0 ->
  prompt (fun message => tx_mfsk_signal message sample_rate symbol_rate low high num_freqs) (fun n => n * sps).
Proof.
  intros message0 tx0 E. unfold tx_mfsk_signal in *. rewrite sps_div in *. cbn [bind] in *. accepted E.
  eapply prompt_by; [reflexivity| |].
  - eapply tracks_comp; [|apply imap_tracks]. eapply tracks_comp; [|apply ienum_tracks]. eapply tracks_comp; [apply imap_tracks|]. apply inflate_tracks, sps_pos.
  - intros l. lens. reflexivity.
Qed.
Theorem C94_tx_fsk_freqs freqs : forall message0 tx0, tx_fsk_signal message0 sample_rate symbol_rate freqs = Ret tx0 ->
  prompt (fun message => tx_fsk_signal message sample_rate symbol_rate freqs) (fun n => n * sps).
Proof.
  intros message0 tx0 E. unfold tx_fsk_signal in *. rewrite sps_div in *. cbn [bind] in *.
  destruct (freq_at freqs 0); cbn [bind] in *; try discriminate. destruct (freq_at freqs 1); cbn [bind] in *; try discriminate. accepted E.
  eapply prompt_by; [reflexivity| |].
  - eapply tracks_comp; [|apply imap_tracks]. eapply tracks_comp; [|apply ienum_tracks]. eapply tracks_comp; [apply imap_tracks|]. apply inflate_tracks, sps_pos.
  - intros l. lens. reflexivity.
Qed.
Theorem C94_tx_fsk fc : prompt (fun message => tx_fsk message sample_rate symbol_rate fc) (fun n => n * sps).
Proof.
  unfold tx_fsk. rewrite sps_div. cbn [bind]. eapply prompt_by; [reflexivity| |].
  - eapply tracks_comp; [|apply imap_tracks]. eapply tracks_comp; [|apply ienum_tracks]. eapply tracks_comp; [apply imap_tracks|]. apply inflate_tracks, sps_pos.
  - intros l. lens. reflexivity.
Qed.
Theorem C94_rx_fsk fc : prompt (fun signal => rx_fsk signal sample_rate symbol_rate fc) (fun n => n / sps).
Proof.
  unfold rx_fsk. rewrite sps_div. cbn [bind]. eapply prompt_by; [reflexivity| |].
  - eapply tracks_comp; [|apply imap_tracks]. eapply tracks_comp; [|apply ienum_tracks]. apply chunks_tracks, sps_pos.
  - intros l. lens. apply wholes_length, sps_pos.
Qed.
Theorem C94_tx_fm fc : prompt (fun signal => tx_fm signal sample_rate symbol_rate fc) (fun n => n * sps).
Proof.
  unfold tx_fm. rewrite sps_div. cbn [bind]. eapply prompt_by; [reflexivity| |].
  - eapply tracks_comp; [|apply imap_tracks]. eapply tracks_comp; [|apply ienum_tracks]. eapply tracks_comp; [|apply integrate_tracks]. apply inflate_tracks, sps_pos.
  - intros l. lens. reflexivity.
Qed.
End Rates.

(** *** CDMA *)

Lemma chip_tracks spc key : 1 <= spc -> key <> [] ->
  exists g, tracks (chip_mul (T := T) spc key) g /\ forall l, length (g l) = length l.
Proof.
  intros Hs Hk.
  assert (Y : yields (inflate spc (of_list key)) (repeat_each spc key)) by (apply inflate_yields; [exact Hs|apply of_list_yields]).
  assert (Hne : repeat_each spc key <> []).
  { intros E. apply (f_equal (@length bool)) in E. rewrite repeat_each_length' in E. destruct key; [congruence|]. cbn in E. nia. }
  pose proof (icycle_streams false _ _ Y Hne) as S.
  eexists. split.
  - unfold chip_mul. eapply tracks_comp; [apply zip_tracks, S|apply imap_tracks].
  - intros l. lens. reflexivity.
Qed.
Lemma cdma_rates_inv sample_rate symbol_rate fc key r : 1 <= length key -> cdma_rates (T := T) sample_rate symbol_rate fc key = Ret r ->
  1 <= symbol_rate -> 1 <= snd r /\ symbol_rate <= sample_rate.
Proof.
  intros Hk E Hsy. unfold cdma_rates in E. unfold usize_mul in E. destruct (_ <? _)%Z; cbn [bind] in E; [|discriminate].
  destruct (Nat.leb_spec (length key * symbol_rate) (sample_rate / 2)) as [Hc|]; cbn [assert_then] in E; [|discriminate].
  accepted E. rewrite (usize_div_intro sample_rate) in E by lia. cbn [bind] in E. rewrite usize_div_intro in E by lia. cbn [bind] in E.
  injection E as <-. cbn [snd].
  assert (H2 : sample_rate / 2 <= sample_rate) by (apply Nat.div_le_upper_bound; lia).
  split; [|nia]. rewrite Nat.div_div by lia. apply Nat.div_le_lower_bound; nia.
Qed.

Theorem C94_tx_baseband_cdma key : key <> [] -> prompt (fun message => Ret (tx_baseband_cdma message key)) (fun n => n * length key).
Proof.
  intros Hk. assert (1 <= length key) by (destruct key; [congruence|cbn; lia]).
  eapply prompt_by; [reflexivity| |].
  - unfold tx_baseband_cdma. eapply tracks_comp; [|apply imap_tracks].
    apply (tracks_comp (inflate (length key)) (fun it => izip it (icycle (of_list key)))); [apply inflate_tracks; assumption|].
    apply zip_tracks, (icycle_streams false); [apply of_list_yields|exact Hk].
  - intros l. lens. reflexivity.
Qed.
Theorem C94_rx_baseband_cdma key : key <> [] -> prompt (fun bits => Ret (rx_baseband_cdma bits key)) (fun n => n / length key).
Proof.
  intros Hk. assert (1 <= length key) by (destruct key; [congruence|cbn; lia]).
  eapply prompt_by; [reflexivity| |].
  - unfold rx_baseband_cdma. eapply tracks_comp; [|apply imap_tracks]. eapply tracks_comp; [|apply chunks_tracks; assumption].
    eapply tracks_comp; [|apply imap_tracks]. apply zip_tracks, (icycle_streams false); [apply of_list_yields|exact Hk].
  - intros l. cbn beta. rewrite map_length, wholes_length by assumption. lens. reflexivity.
Qed.

Section Keyed.
Variables (sample_rate symbol_rate : nat) (fc : T) (key : list bool).
Hypothesis key_ok : key <> [].
Hypothesis rate_pos : 1 <= symbol_rate.
Let sps := sample_rate / symbol_rate.
Lemma key_pos : 1 <= length key.
Proof. destruct key; [congruence|cbn; lia]. Qed.

Theorem C94_tx_cdma_bpsk : forall message0 tx0, tx_cdma_bpsk_signal message0 sample_rate symbol_rate fc key = Ret tx0 ->
  prompt (fun message => tx_cdma_bpsk_signal message sample_rate symbol_rate fc key) (fun n => n * sps).
Proof.
  intros message0 tx0 E. unfold tx_cdma_bpsk_signal in *.
  destruct (cdma_rates sample_rate symbol_rate fc key) as [[a spc]| |] eqn:ER; cbn [bind] in *; try discriminate.
  destruct (cdma_rates_inv _ _ _ _ _ key_pos ER rate_pos) as [H1 H2].
  destruct (tx_bpsk_signal message0 sample_rate symbol_rate fc) as [t| |] eqn:EB; cbn [bind] in E; try discriminate.
  destruct (chip_tracks spc key H1 key_ok) as (g & Tg & Lg).
  apply (prompt_comp _ (fun tx => Ret (chip_mul spc key tx)) (fun n => n * sps) (fun n => n)).
  - eapply C94_tx_bpsk; eassumption.
  - eapply prompt_by; [reflexivity|exact Tg|exact Lg].
Qed.
Theorem C94_rx_cdma_bpsk : forall signal0 rx0, rx_cdma_bpsk_signal signal0 sample_rate symbol_rate fc key = Ret rx0 ->
  prompt (fun signal => rx_cdma_bpsk_signal signal sample_rate symbol_rate fc key) (fun n => n / sps).
Proof.
  intros signal0 rx0 E. unfold rx_cdma_bpsk_signal in *.
  destruct (cdma_rates sample_rate symbol_rate fc key) as [[a spc]| |] eqn:ER; cbn [bind] in *; try discriminate.
  destruct (cdma_rates_inv _ _ _ _ _ key_pos ER rate_pos) as [H1 H2].
  destruct (chip_tracks spc key H1 key_ok) as (g & Tg & Lg).
  apply (prompt_pre (chip_mul spc key) (fun s => rx_bpsk_signal s sample_rate symbol_rate fc) (fun n => n) (fun n => n / sps)).
  - eapply prompt_by; [reflexivity|exact Tg|exact Lg].
  - apply C94_rx_bpsk; assumption.
Qed.
Theorem C94_tx_cdma_qpsk : forall message0 tx0, tx_cdma_qpsk_signal message0 sample_rate symbol_rate fc key = Ret tx0 ->
  prompt (fun message => tx_cdma_qpsk_signal message sample_rate symbol_rate fc key) (fun n => n / 2 * sps).
Proof.
  intros message0 tx0 E. unfold tx_cdma_qpsk_signal in *.
  destruct (cdma_rates sample_rate symbol_rate fc key) as [[a spc]| |] eqn:ER; cbn [bind] in *; try discriminate.
  destruct (cdma_rates_inv _ _ _ _ _ key_pos ER rate_pos) as [H1 H2].
  destruct (chip_tracks spc key H1 key_ok) as (g & Tg & Lg).
  apply (prompt_comp _ (fun tx => Ret (chip_mul spc key tx)) (fun n => n / 2 * sps) (fun n => n)).
  - apply C94_tx_qpsk; assumption.
  - eapply prompt_by; [reflexivity|exact Tg|exact Lg].
Qed.
Theorem C94_rx_cdma_qpsk : forall signal0 rx0, rx_cdma_qpsk_signal signal0 sample_rate symbol_rate fc key = Ret rx0 ->
  prompt (fun signal => rx_cdma_qpsk_signal signal sample_rate symbol_rate fc key) (fun n => 2 * (n / sps)).
Proof.
  intros signal0 rx0 E. unfold rx_cdma_qpsk_signal in *.
  destruct (cdma_rates sample_rate symbol_rate fc key) as [[a spc]| |] eqn:ER; cbn [bind] in *; try discriminate.
  destruct (cdma_rates_inv _ _ _ _ _ key_pos ER rate_pos) as [H1 H2].
  destruct (chip_tracks spc key H1 key_ok) as (g & Tg & Lg).
  apply (prompt_pre (chip_mul spc key) (fun s => rx_qpsk_signal s sample_rate symbol_rate fc) (fun n => n) (fun n => 2 * (n / sps))).
  - eapply prompt_by; [reflexivity|exact Tg|exact Lg].
  - apply C94_rx_qpsk; assumption.
Qed.
End Keyed.

(** *** Chaos keying *)

Theorem C94_tx_baseband_csk : forall message0 tx0, tx_baseband_csk (T := T) message0 = Ret tx0 ->
  prompt (fun message => tx_baseband_csk (T := T) message) (fun n => n).
Proof.
  intros message0 tx0 E. unfold tx_baseband_csk, LogisticMap_new in *. accepted E. cbn [bind].
  eapply prompt_by; [reflexivity| |].
  - eapply tracks_comp; [|apply imap_tracks]. eapply (tracks_comp (fun it => izip it _) (fun it => izip it _)); apply zip_tracks, orbit_streams.
  - intros l. lens. reflexivity.
Qed.
Theorem C94_rx_baseband_csk : forall signal0 rx0, rx_baseband_csk (T := T) signal0 = Ret rx0 ->
  prompt (fun signal => rx_baseband_csk (T := T) signal) (fun n => n).
Proof.
  intros signal0 rx0 E. unfold rx_baseband_csk, LogisticMap_new in *. accepted E. cbn [bind].
  eapply prompt_by; [reflexivity| |].
  - eapply tracks_comp; [|apply imap_tracks]. eapply (tracks_comp (fun it => izip it _) (fun it => izip it _)); apply zip_tracks, orbit_streams.
  - intros l. lens. reflexivity.
Qed.
Theorem C94_tx_baseband_dcsk : forall message0 tx0, tx_baseband_dcsk (T := T) message0 = Ret tx0 ->
  prompt (fun message => tx_baseband_dcsk (T := T) message) (fun n => 2 * n).
Proof.
  intros message0 tx0 E. unfold tx_baseband_dcsk, LogisticMap_new in *. accepted E. cbn [bind].
  eapply prompt_by; [reflexivity| |].
  - eapply tracks_comp; [apply zip_tracks, orbit_streams|]. apply flat_pure_tracks. intros []; discriminate.
  - intros l. cbn beta. rewrite (flat_const_length _ 2) by (intros [] _; reflexivity). lens. lia.
Qed.
Theorem C94_rx_baseband_dcsk : prompt (fun signal => Ret (rx_baseband_dcsk (T := T) signal)) (fun n => n / 2).
Proof.
  eapply prompt_by; [reflexivity| |].
  - unfold rx_baseband_dcsk. eapply tracks_comp; [apply tuples_tracks|apply imap_tracks].
  - intros l. lens. reflexivity.
Qed.
Lemma wrap_prompt (tx : Iter bool -> outcome (Iter T)) c sample_rate symbol_rate :
  1 <= symbol_rate -> symbol_rate <= sample_rate -> (forall m0 t0, tx m0 = Ret t0 -> prompt tx c) ->
  forall m0 t0, wrap_rate tx m0 sample_rate symbol_rate = Ret t0 ->
  prompt (fun m => wrap_rate tx m sample_rate symbol_rate) (fun n => c n * (sample_rate / symbol_rate)).
Proof.
  intros H1 H2 HP m0 t0 E. unfold wrap_rate in *. accepted E. rewrite sps_div in * by assumption. cbn [bind] in *.
  destruct (tx m0) as [t| |] eqn:Et; try discriminate.
  apply (prompt_comp tx (fun it => Ret (inflate _ it)) c (fun n => n * (sample_rate / symbol_rate))).
  - eapply HP; eassumption.
  - eapply prompt_by; [reflexivity|apply inflate_tracks, sps_pos; assumption|apply repeat_each_length'].
Qed.
Theorem C94_tx_csk sample_rate symbol_rate : 1 <= symbol_rate -> symbol_rate <= sample_rate ->
  forall message0 tx0, tx_csk (T := T) message0 sample_rate symbol_rate = Ret tx0 ->
  prompt (fun message => tx_csk (T := T) message sample_rate symbol_rate) (fun n => n * (sample_rate / symbol_rate)).
Proof. intros H1 H2. apply wrap_prompt; [assumption|assumption|exact C94_tx_baseband_csk]. Qed.
Theorem C94_tx_dcsk sample_rate symbol_rate : 1 <= symbol_rate -> symbol_rate <= sample_rate ->
  forall message0 tx0, tx_dcsk (T := T) message0 sample_rate symbol_rate = Ret tx0 ->
  prompt (fun message => tx_dcsk (T := T) message sample_rate symbol_rate) (fun n => 2 * n * (sample_rate / symbol_rate)).
Proof. intros H1 H2. apply wrap_prompt; [assumption|assumption|exact C94_tx_baseband_dcsk]. Qed.

(** *** OFDM, for any FFT *)

Section Ofdm.
Variables (fft : Fft T) (N P : nat).
Hypothesis pilots : 1 <= P < N.
Let block_len := N + N / 4.

Theorem C94_tx_baseband_ofdm : prompt (fun symbols => tx_baseband_ofdm_signal fft symbols N P) (fun n => n / (N - P) * block_len).
Proof.
  unfold tx_baseband_ofdm_signal, usize_sub. destruct (Nat.leb_spec P N); [|lia]. cbn [bind].
  rewrite carriers_eq by lia. cbn [bind].
  assert (LB : forall c, length (ofdm_block fft N P c) = block_len).
  { intros c. destruct (ofdm_block_spec fft N P c ltac:(lia)) as (d & (Ld & _) & -> & _). apply with_cp_length.
    rewrite ofdm_body_length. exact Ld. }
  eapply prompt_by with (g := fun l => flat_map (ofdm_block fft N P) (wholes (N - P) l)); [reflexivity| |].
  - intros b it l Hr. apply flat_tracks; [apply chunks_tracks; [lia|exact Hr]|].
    intros c _. destruct (ofdm_block_spec fft N P c ltac:(lia)) as (d & _ & _ & ->). split; [reflexivity|].
    intros E. specialize (LB c). rewrite E in LB. cbn in LB. unfold block_len in LB. lia.
  - intros l. rewrite (flat_const_length _ block_len) by (intros; apply LB). rewrite wholes_length by lia. reflexivity.
Qed.
Theorem C94_rx_baseband_ofdm : prompt (fun signal => rx_baseband_ofdm_signal fft signal N P) (fun n => n / block_len * (N - P)).
Proof.
  unfold rx_baseband_ofdm_signal, usize_sub. destruct (Nat.leb_spec P N); [|lia]. cbn [bind].
  rewrite carriers_eq by lia. cbn [bind].
  eapply prompt_by with (g := fun l => flat_map (fun blk => ofdm_read fft N P (skipn (N / 4) blk)) (wholes block_len l)); [reflexivity| |].
  - intros b it l Hr. apply flat_tracks; [apply chunks_tracks; [lia|exact Hr]|].
    intros c Hc. apply wholes_in in Hc; [|unfold block_len; lia]. rewrite ofdm_demodulate_eq by (assumption || lia). split; [reflexivity|].
    intros E. apply (f_equal (@length (cpx T))) in E. rewrite ofdm_read_length in E by lia. cbn in E. lia.
  - intros l. rewrite (flat_const_length _ (N - P)) by (intros; apply ofdm_read_length; lia).
    rewrite wholes_length by (unfold block_len; lia). reflexivity.
Qed.

Section Passband.
Variables (sample_rate symbol_rate : nat) (fc : T).
Hypothesis rate_pos : 1 <= symbol_rate.
Hypothesis rate_le : symbol_rate <= sample_rate.
Let sps := sample_rate / symbol_rate.

Theorem C94_tx_ofdm : forall message0 tx0, tx_ofdm_qpsk_signal fft message0 N P sample_rate symbol_rate fc = Ret tx0 ->
  prompt (fun message => tx_ofdm_qpsk_signal fft message N P sample_rate symbol_rate fc) (fun n => n / 2 / (N - P) * block_len * sps).
Proof.
  intros message0 tx0 E. unfold tx_ofdm_qpsk_signal in *. accepted E. rewrite sps_div in * by assumption. cbn [bind] in *. clear E tx0 message0.
  apply (prompt_comp (fun m => tx_baseband_ofdm_signal fft (tx_baseband_qpsk_signal m) N P) (fun s => Ret (imap _ (ienum (inflate _ s))))
           (fun n => n / 2 / (N - P) * block_len) (fun n => n * sps)).
  - apply (prompt_pre tx_baseband_qpsk_signal (fun s => tx_baseband_ofdm_signal fft s N P) (fun n => n / 2) (fun n => n / (N - P) * block_len)).
    + exact C94_tx_baseband_qpsk.
    + exact C94_tx_baseband_ofdm.
  - eapply prompt_by; [reflexivity| |].
    + eapply tracks_comp; [|apply imap_tracks]. eapply tracks_comp; [|apply ienum_tracks]. apply inflate_tracks, sps_pos; assumption.
    + intros l. lens. reflexivity.
Qed.

(** The receiver keeps one sample in sps, the first sample of each symbol, and drops the first of those:
    of n samples, (n + sps - 1) / sps - 1 symbols. *)
Theorem C94_rx_ofdm : forall signal0 rx0, rx_ofdm_qpsk_signal fft signal0 N P sample_rate symbol_rate fc = Ret rx0 ->
  prompt (fun signal => rx_ofdm_qpsk_signal fft signal N P sample_rate symbol_rate fc)
    (fun n => 2 * (((n + sps - 1) / sps - 1) / block_len * (N - P))).
Proof.
  intros signal0 rx0 E. unfold rx_ofdm_qpsk_signal in *. accepted E. rewrite sps_div in * by assumption. cbn [bind] in *. clear E rx0 signal0.
  cbn zeta.
  set (fr := fun s : Iter T => iskip 1 (take_every (sample_rate / symbol_rate)
       (imap (fun s_i => Cpx (nth 0 s_i (nofZ 0)) (nth 1 s_i (nofZ 0)))
         (nonvolve 2 (nofZ 0) nadd nmul (map (fun _ => nofZ 1) (seq 0 (sample_rate / symbol_rate)))
           (imap (fun '(idx, sample) =>
                    let time := ndiv (nofnat idx) (nofnat sample_rate) in
                    let ii := nmul sample (ncos (nmul (nmul (nmul (nofZ 2) npi) fc) time)) in
                    let qi := nmul sample (nopp (nsin (nmul (nmul (nmul (nofZ 2) npi) fc) time))) in
                    [ii; qi])
                 (ienum s)))))).
  change (prompt (fun s => let? q := rx_baseband_ofdm_signal fft (fr s) N P in Ret (rx_baseband_qpsk_signal q))
    (fun n => 2 * (((n + sps - 1) / sps - 1) / block_len * (N - P)))).
  apply (prompt_comp (fun s => rx_baseband_ofdm_signal fft (fr s) N P) (fun q => Ret (rx_baseband_qpsk_signal q))
           (fun n => ((n + sps - 1) / sps - 1) / block_len * (N - P)) (fun n => 2 * n)).
  - apply (prompt_pre fr (fun q => rx_baseband_ofdm_signal fft q N P) (fun n => (n + sps - 1) / sps - 1) (fun n => n / block_len * (N - P))).
    + eapply prompt_by; [reflexivity| |].
      * unfold fr. eapply tracks_comp; [|apply iskip_tracks]. eapply tracks_comp; [|apply take_every_tracks, sps_pos; assumption].
        eapply tracks_comp; [|apply imap_tracks]. unfold nonvolve. eapply tracks_comp; [|apply convolve_tracks].
        eapply tracks_comp; [apply ienum_tracks|apply imap_tracks].
      * intros l. cbn beta. rewrite skipn_length, decim_length by (apply sps_pos; assumption). lens. reflexivity.
    + exact C94_rx_baseband_ofdm.
  - exact C94_rx_baseband_qpsk.
Qed.
End Passband.
End Ofdm.
End Any.

(** ** Cases *)

(** A source that gives l and then fails, and one that gives l and then x for ever. *)
Definition then_fail {A} (l : list A) : Iter A :=
  MkIter l (fun s => match s with [] => Panic | a :: r => Ret (Some a, r) end).
Definition then_forever {A} (l : list A) (x : A) : Iter A :=
  MkIter l (fun s => match s with [] => Ret (Some x, []) | a :: r => Ret (Some a, r) end).
Lemma then_fail_panics {A} (l : list A) : panics_after (then_fail l) (map Some l).
Proof. apply runs_panics. cbn [then_fail next cur]. induction l as [|a l IH]; [intros _; reflexivity|]. exists l. split; [reflexivity|exact IH]. Qed.
Lemma then_forever_begins {A} (l : list A) x : begins (then_forever l x) l.
Proof. apply runs_begins. cbn [then_forever next cur]. induction l as [|a l IH]; [discriminate|]. exists l. split; [reflexivity|exact IH]. Qed.

(** Five chips of a two-chip key: two bits, whether the source then fails or never ends. *)
Example C94_cdma_case : exists out, length out = 2 /\
  panics_after (rx_baseband_cdma (then_fail [true; false; false; true; true]) [true; false]) (map Some out) /\
  begins (rx_baseband_cdma (then_forever [true; false; false; true; true] true) [true; false]) out.
Proof.
  destruct (C94_rx_baseband_cdma [true; false] ltac:(discriminate) _ _ _ (then_fail_panics [true; false; false; true; true])
    (then_forever_begins [true; false; false; true; true] true)) as (rf & rs & out & E1 & E2 & L & H1 & H2).
  injection E1 as <-. injection E2 as <-. exists out. auto.
Qed.

(** The OFDM receiver with any FFT: 8 subcarriers, 2 pilots, blocks of 10 samples.  From 25 samples it
    decides two blocks, 12 symbols. *)
Example C94_ofdm_case {T} `{Num T} (fft : Fft T) (x y : cpx T) : exists rf rs out,
  rx_baseband_ofdm_signal fft (then_fail (repeat x 25)) 8 2 = Ret rf /\
  rx_baseband_ofdm_signal fft (then_forever (repeat x 25) y) 8 2 = Ret rs /\
  length out = 12 /\ panics_after rf (map Some out) /\ begins rs out.
Proof.
  destruct (C94_rx_baseband_ofdm fft 8 2 ltac:(lia) _ _ _ (then_fail_panics (repeat x 25)) (then_forever_begins (repeat x 25) y))
    as (rf & rs & out & H1 & H2 & L & H3 & H4). exists rf, rs, out. auto.
Qed.

(** CDMA-QPSK over the reals, 12 samples per symbol: the parameters are accepted, and five bits make two symbols. *)
Example C94_cdma_qpsk_case : exists tx0, tx_cdma_qpsk_signal (of_list []) 24 2 4%R [true; false; true] = Ret tx0 /\
  exists rf rs out, tx_cdma_qpsk_signal (then_fail [true; false; true; true; false]) 24 2 4%R [true; false; true] = Ret rf /\
    tx_cdma_qpsk_signal (then_forever [true; false; true; true; false] true) 24 2 4%R [true; false; true] = Ret rs /\
    length out = 24 /\ panics_after rf (map Some out) /\ begins rs out.
Proof.
  assert (E : exists tx, tx_cdma_qpsk_signal (of_list []) 24 2 4%R [true; false; true] = Ret tx).
  { unfold tx_cdma_qpsk_signal. rewrite cdma_rates_R_intro; [eexists; reflexivity|lia|discriminate|cbn; lia|exists 4%nat; reflexivity| |].
    - unfold u64_max. lia.
    - change (24 / 2)%nat with 12%nat. cbn. lra. }
  destruct E as (tx0 & E). exists tx0. split; [exact E|].
  destruct (C94_tx_cdma_qpsk 24 2 4%R [true; false; true] ltac:(discriminate) ltac:(lia) _ _ E _ _ _
    (then_fail_panics [true; false; true; true; false]) (then_forever_begins [true; false; true; true; false] true))
    as (rf & rs & out & H). exists rf, rs, out. exact H.
Qed.

(** An adapter that reads one item ahead ([Iterator::peekable] with a peek at every step) is not prompt. *)
Definition peeking_next {A X} (nx : X -> outcome (option A * X)) (s : option A * bool * X) : outcome (option A * (option A * bool * X)) :=
  let '(held, started, s0) := s in
  if started then let? (o, s1) := nx s0 in Ret (held, (o, true, s1))
  else let? (o, s1) := nx s0 in let? (o2, s2) := nx s1 in Ret (o, (o2, true, s2)).
Definition peeking {A} (it : Iter A) : Iter A := MkIter (None, false, cur it) (peeking_next (next it)).
Example C94_peeking : ~ prompt (fun it : Iter bool => Ret (peeking it)) (fun n => n).
Proof.
  intros C. destruct (C _ _ _ (then_fail_panics [true]) (then_forever_begins [true] true)) as (rf & rs & out & E1 & _ & L & H & _).
  injection E1 as <-. destruct out as [|x [|]]; try discriminate. destruct H as (s & H & _). cbn in H. discriminate.
Qed.

(** ** Axioms used *)
Print Assumptions C94_tx_baseband_bpsk.
Print Assumptions C94_rx_baseband_bpsk.
Print Assumptions C94_tx_baseband_qpsk.
Print Assumptions C94_rx_baseband_qpsk.
Print Assumptions C94_tx_bpsk.
Print Assumptions C94_rx_bpsk.
Print Assumptions C94_tx_qpsk.
Print Assumptions C94_rx_qpsk.
Print Assumptions C94_tx_bfsk.
Print Assumptions C94_tx_mfsk.
Print Assumptions C94_tx_fsk_freqs.
Print Assumptions C94_tx_fsk.
Print Assumptions C94_rx_fsk.
Print Assumptions C94_tx_fm.
Print Assumptions C94_tx_baseband_cdma.
Print Assumptions C94_rx_baseband_cdma.
Print Assumptions C94_tx_cdma_bpsk.
Print Assumptions C94_rx_cdma_bpsk.
Print Assumptions C94_tx_cdma_qpsk.
Print Assumptions C94_rx_cdma_qpsk.
Print Assumptions C94_tx_baseband_csk.
Print Assumptions C94_rx_baseband_csk.
Print Assumptions C94_tx_baseband_dcsk.
Print Assumptions C94_rx_baseband_dcsk.
Print Assumptions C94_tx_csk.
Print Assumptions C94_tx_dcsk.
Print Assumptions C94_tx_baseband_ofdm.
Print Assumptions C94_rx_baseband_ofdm.
Print Assumptions C94_tx_ofdm.
Print Assumptions C94_rx_ofdm.
