(** OFDM (src/ofdm.rs): carriers, framing, exact transforms. *)
From Coq Require Import List Arith ZArith Reals Bool Lia Lra Psatz Sorted.
From Verif Require Import Base IterTheory IterModel IterProofs Spec SpecR Tab Num LibModel
  ChaosModel PskModel CdmaModel FhProofs SpecC FftModel Dft OfdmModel.
Import ListNotations.

(** ** Carriers *)

Definition carriers (N P : nat) : list nat := range (P / 2) (N / 2) ++ range (N / 2 + 1) (N - (P - 1) / 2).

Lemma carriers_eq N P : 1 <= P <= N -> get_data_subcarriers N P = Ret (carriers N P).
Proof.
  intros H. unfold get_data_subcarriers, usize_sub, carriers.
  destruct (Nat.leb_spec 1 P); [|lia]. cbn [bind].
  pose proof (Nat.div_le_upper_bound (P - 1) 2 (P - 1) ltac:(lia) ltac:(lia)).
  destruct (Nat.leb_spec ((P - 1) / 2) (P - 1)); [|lia]. cbn [bind].
  destruct (Nat.leb_spec ((P - 1) / 2) N); [|lia]. cbn [bind].
  replace (P - 1 - (P - 1) / 2) with (P / 2); [reflexivity|].
  pose proof (Nat.div_mod P 2 ltac:(lia)). pose proof (Nat.mod_upper_bound P 2 ltac:(lia)).
  pose proof (Nat.div_mod (P - 1) 2 ltac:(lia)). pose proof (Nat.mod_upper_bound (P - 1) 2 ltac:(lia)). lia.
Qed.

Lemma carriers_bounds N P : 1 <= P <= N ->
  P / 2 <= N / 2 /\ N / 2 + 1 <= N - (P - 1) / 2 /\ P / 2 + (P - 1) / 2 = P - 1.
Proof.
  intros H.
  pose proof (Nat.div_mod P 2 ltac:(lia)). pose proof (Nat.mod_upper_bound P 2 ltac:(lia)).
  pose proof (Nat.div_mod (P - 1) 2 ltac:(lia)). pose proof (Nat.mod_upper_bound (P - 1) 2 ltac:(lia)).
  pose proof (Nat.div_mod N 2 ltac:(lia)). pose proof (Nat.mod_upper_bound N 2 ltac:(lia)). lia.
Qed.

Lemma carriers_length N P : 1 <= P <= N -> length (carriers N P) = N - P.
Proof.
  intros H. pose proof (carriers_bounds N P H). unfold carriers, range.
  rewrite app_length, !seq_length. lia.
Qed.

Lemma carriers_in N P c : 1 <= P <= N ->
  (In c (carriers N P) <-> P / 2 <= c < N - (P - 1) / 2 /\ c <> N / 2).
Proof.
  intros H. pose proof (carriers_bounds N P H). unfold carriers, range. rewrite in_app_iff, !in_seq. lia.
Qed.
Lemma carriers_lt N P c : 1 <= P <= N -> In c (carriers N P) -> c < N.
Proof. intros H Hc. apply carriers_in in Hc; [|exact H]. lia. Qed.

Lemma seq_sorted n : forall a, StronglySorted lt (seq a n).
Proof.
  induction n as [|n IH]; intros a; [constructor|]. cbn. constructor; [apply IH|].
  apply Forall_forall. intros x Hx. apply in_seq in Hx. lia.
Qed.
Lemma sorted_app (l m : list nat) : StronglySorted lt l -> StronglySorted lt m ->
  (forall a b, In a l -> In b m -> a < b) -> StronglySorted lt (l ++ m).
Proof.
  intros Hl Hm H. induction Hl as [|a l Hl IH Ha]; [exact Hm|]. cbn. constructor.
  - apply IH. intros x y Hx Hy. apply H; [right; exact Hx|exact Hy].
  - apply Forall_app. split; [exact Ha|]. apply Forall_forall. intros b Hb. apply H; [left; reflexivity|exact Hb].
Qed.
Lemma carriers_sorted N P : StronglySorted lt (carriers N P).
Proof.
  unfold carriers, range. apply sorted_app; try apply seq_sorted.
  intros a b Ha Hb. apply in_seq in Ha. apply in_seq in Hb. lia.
Qed.
Lemma sorted_nodup (l : list nat) : StronglySorted lt l -> NoDup l.
Proof.
  induction 1 as [|a l Hl IH Ha]; constructor; [|exact IH]. intros Hin. rewrite Forall_forall in Ha.
  specialize (Ha a Hin). lia.
Qed.
Lemma carriers_nodup N P : NoDup (carriers N P).
Proof. apply sorted_nodup, carriers_sorted. Qed.

(** ** Placing the data, reading it back *)

Lemma set_idx_nth {A} (l : list A) : forall i v, i < length l ->
  exists l', set_idx l i v = Ret l' /\ length l' = length l /\
    forall k d, nth k l' d = if k =? i then v else nth k l d.
Proof.
  induction l as [|a l IH]; intros i v Hi; [cbn in Hi; lia|]. destruct i as [|i]; cbn [set_idx].
  - eexists. split; [reflexivity|]. split; [reflexivity|]. intros [|k] d; reflexivity.
  - destruct (IH i v ltac:(cbn in Hi; lia)) as (l' & E & L & Hk). rewrite E. cbn [bind].
    eexists. split; [reflexivity|]. split; [cbn; lia|]. intros [|k] d; [reflexivity|]. cbn [nth]. rewrite Hk. reflexivity.
Qed.

Lemma place_data {A} (ds : list nat) : forall (x data : list A) (d : A),
  NoDup ds -> (forall c, In c ds -> c < length x) ->
  exists y, for_each (combine ds data) (fun x '(carrier, datum) => set_idx x carrier datum) x = Ret y /\
    length y = length x /\
    (forall c, ~ In c ds -> nth c y d = nth c x d) /\
    (forall i, i < length ds -> nth (nth i ds 0) y d = if i <? length data then nth i data d else nth (nth i ds 0) x d).
Proof.
  induction ds as [|c ds IH]; intros x data d Hnd Hlt.
  - exists x. cbn. repeat split; auto. intros i Hi; lia.
  - inversion Hnd as [|c' ds' Hc Hnd']; subst. destruct data as [|v data].
    + exists x. cbn. repeat split; auto.
    + destruct (set_idx_nth x c v) as (x1 & E & L & Hk); [apply Hlt; left; reflexivity|].
      destruct (IH x1 data d Hnd') as (y & Ey & Ly & Hout & Hin).
      { intros b Hb. rewrite L. apply Hlt. right. exact Hb. }
      exists y. cbn [combine for_each bind]. rewrite E. cbn [bind]. split; [exact Ey|]. split; [lia|]. split.
      * intros b Hb. rewrite Hout by (intros Hi; apply Hb; right; exact Hi). rewrite Hk.
        destruct (Nat.eqb_spec b c) as [->|]; [exfalso; apply Hb; left; reflexivity|reflexivity].
      * intros [|i] Hi; cbn [nth length] in *.
        -- rewrite Hout by exact Hc. rewrite Hk, Nat.eqb_refl. reflexivity.
        -- rewrite Hin by lia. change (S i <? S (length data)) with (i <? length data).
           destruct (i <? length data); [reflexivity|]. rewrite Hk.
           destruct (Nat.eqb_spec (nth i ds 0) c) as [E1|]; [|reflexivity].
           exfalso. apply Hc. rewrite <- E1. apply nth_In. lia.
Qed.

(** The frequency-domain block: [data] on the carriers, zero elsewhere. *)
Lemma push_map {A B} (f : A -> outcome B) (g : A -> B) l : (forall a, In a l -> f a = Ret (g a)) ->
  forall acc, for_each l (fun acc a => let? d := f a in Ret (acc ++ [d])) acc = Ret (acc ++ map g l).
Proof.
  induction l as [|a l IH]; intros H acc; cbn [for_each map].
  - rewrite app_nil_r. reflexivity.
  - rewrite H by (left; reflexivity). cbn [bind]. rewrite IH by (intros; apply H; right; assumption).
    rewrite <- app_assoc. reflexivity.
Qed.

Lemma fft_process_one {T} n (f : list (cpx T) -> list (cpx T)) buf : 1 <= n -> length buf = n ->
  fft_process n f buf = Ret (f buf).
Proof.
  intros Hn L. unfold fft_process. destruct (Nat.eqb_spec n 0); [lia|].
  rewrite L, Nat.ltb_irrefl, Nat.mod_same by lia. cbn [orb negb Nat.eqb]. rewrite Nat.div_same by lia.
  cbn [seq flat_map Nat.mul skipn]. rewrite app_nil_r, firstn_all2 by lia. reflexivity.
Qed.

Lemma fftshift_length {A} (x : list A) : length (fftshift x) = length x.
Proof. unfold fftshift. rewrite app_length, skipn_length, firstn_length. unfold div_ceil2.
  pose proof (Nat.div_le_upper_bound (length x + 1) 2 (length x + 1) ltac:(lia) ltac:(lia)). 
  destruct (Nat.le_gt_cases ((length x + 1) / 2) (length x)); lia.
Qed.

Section Generic.
Context {T : Type} `{Num T} (fft : Fft T).

(** The samples of one block, before the prefix. *)
Definition ofdm_body (N : nat) (d : list (cpx T)) : list (cpx T) :=
  map (fun s => cdivs s (nofnat N)) (fft_inverse fft (fftshift d)).

Lemma ofdm_body_length N d : length (ofdm_body N d) = length d.
Proof. unfold ofdm_body. rewrite map_length, fft_inverse_length. apply fftshift_length. Qed.

Definition with_cp (N : nat) (y : list (cpx T)) : list (cpx T) := skipn (N - N / 4) y ++ y.

Lemma quarter N : N / 4 <= N.
Proof. apply Nat.div_le_upper_bound; lia. Qed.

Lemma with_cp_length N y : length y = N -> length (with_cp N y) = N + N / 4.
Proof. intros L. pose proof (quarter N). unfold with_cp. rewrite app_length, skipn_length. lia. Qed.

(** The frequency-domain block of one chunk. *)
Definition ofdm_freq (N P : nat) (chunk d : list (cpx T)) : Prop :=
  length d = N /\ (forall c, ~ In c (carriers N P) -> nth c d c0 = c0) /\
  (forall i, i < N - P -> nth (nth i (carriers N P) 0) d c0 = nth i chunk c0).

Lemma ofdm_modulate_eq N P chunk : 1 <= P <= N -> exists d, ofdm_freq N P chunk d /\
  ofdm_modulate fft N (carriers N P) chunk = Ret (with_cp N (ofdm_body N d)).
Proof.
  intros HP. pose proof (quarter N).
  destruct (place_data (carriers N P) (repeat c0 N) chunk c0 (carriers_nodup N P)) as (d & E & L & Hout & Hin).
  { intros c Hc. rewrite repeat_length. eapply carriers_lt; eassumption. }
  rewrite repeat_length in L. exists d. split.
  - split; [exact L|]. split.
    + intros c Hc. rewrite Hout by exact Hc. destruct (Nat.lt_ge_cases c N).
      * apply nth_repeat_lt. lia.
      * apply nth_overflow. rewrite repeat_length. lia.
    + intros i Hi. rewrite Hin by (rewrite carriers_length; lia). destruct (Nat.ltb_spec i (length chunk)); [reflexivity|].
      rewrite nth_repeat_lt. 2: { eapply carriers_lt; [exact HP|]. apply nth_In. rewrite carriers_length; lia. }
      symmetry. apply nth_overflow. lia.
  - unfold ofdm_modulate. rewrite E. cbn [bind].
    rewrite fft_process_one by (rewrite ?fftshift_length; lia). cbn [bind].
    unfold usize_sub. destruct (Nat.leb_spec (N / 4) N); [|lia]. cbn [bind]. unfold slice.
    destruct (Nat.leb_spec (N - N / 4) N); [|lia].
    rewrite fft_inverse_length, fftshift_length, L, Nat.leb_refl. cbn [andb bind].
    unfold with_cp, ofdm_body. rewrite skipn_map, <- map_app.
    rewrite firstn_all2 by (rewrite skipn_length, fft_inverse_length, fftshift_length; lia). reflexivity.
Qed.

Definition ofdm_read (N P : nat) (y : list (cpx T)) : list (cpx T) :=
  map (fun c => nth c (fftshift (fft_forward fft y)) c0) (carriers N P).

Lemma ofdm_demodulate_eq N P blk : 1 <= P <= N -> length blk = N + N / 4 ->
  ofdm_demodulate fft N (carriers N P) blk = Ret (ofdm_read N P (skipn (N / 4) blk)).
Proof.
  intros HP L. unfold ofdm_demodulate, slice.
  destruct (Nat.leb_spec (N / 4) (length blk)); [|lia]. rewrite Nat.leb_refl. cbn [andb bind].
  rewrite firstn_all2 by (rewrite skipn_length; lia).
  rewrite fft_process_one by (rewrite ?skipn_length; lia). cbn [bind].
  rewrite (push_map _ (fun c => nth c (fftshift (fft_forward fft (skipn (N / 4) blk))) c0)); [reflexivity|].
  intros c Hc. unfold idx. rewrite (nth_error_nth' _ c0); [reflexivity|].
  rewrite fftshift_length, fft_forward_length, skipn_length. apply carriers_lt in Hc; lia.
Qed.

Lemma ofdm_demodulate_short N P blk : 1 <= P <= N -> length blk < N + N / 4 ->
  ofdm_demodulate fft N (carriers N P) blk = Panic.
Proof.
  intros HP L. unfold ofdm_demodulate, slice.
  destruct (Nat.leb_spec (N / 4) (length blk)); [|reflexivity]. rewrite Nat.leb_refl. cbn [andb bind].
  rewrite firstn_all2 by (rewrite skipn_length; lia). unfold fft_process.
  destruct (Nat.eqb_spec N 0); [lia|]. rewrite skipn_length.
  destruct (Nat.ltb_spec (length blk - N / 4) N); [reflexivity|lia].
Qed.

Lemma ofdm_read_length N P y : 1 <= P <= N -> length (ofdm_read N P y) = N - P.
Proof. intros HP. unfold ofdm_read. rewrite map_length. apply carriers_length. exact HP. Qed.

(** The transmitter as a list function. *)
Definition ofdm_block (N P : nat) (chunk : list (cpx T)) : list (cpx T) :=
  match ofdm_modulate fft N (carriers N P) chunk with Ret l => l | _ => [] end.

Lemma ofdm_block_spec N P chunk : 1 <= P <= N -> exists d, ofdm_freq N P chunk d /\
  ofdm_block N P chunk = with_cp N (ofdm_body N d) /\
  ofdm_modulate fft N (carriers N P) chunk = Ret (ofdm_block N P chunk).
Proof.
  intros HP. destruct (ofdm_modulate_eq N P chunk HP) as (d & Hd & E). exists d. split; [exact Hd|].
  unfold ofdm_block. rewrite E. split; reflexivity.
Qed.
Lemma ofdm_block_length N P chunk : 1 <= P <= N -> length (ofdm_block N P chunk) = N + N / 4.
Proof.
  intros HP. destruct (ofdm_block_spec N P chunk HP) as (d & (L & _) & E & _). rewrite E.
  apply with_cp_length. rewrite ofdm_body_length. exact L.
Qed.

Lemma tx_ofdm_inv symbols N P : 1 <= P < N ->
  exists tx, tx_baseband_ofdm_signal fft symbols N P = Ret tx /\
    forall s, yields symbols s -> yields tx (flat_map (ofdm_block N P) (chunk_list (N - P) s)).
Proof.
  intros HP. unfold tx_baseband_ofdm_signal, usize_sub. destruct (Nat.leb_spec P N); [|lia]. cbn [bind].
  rewrite carriers_eq by lia. cbn [bind]. eexists. split; [reflexivity|]. intros s Hs.
  apply (iflat_fn_yields (fun _ data_chunk =>
         let? cp_symbol := ofdm_modulate fft N (carriers N P) data_chunk in Ret (cp_symbol, tt))).
  - apply chunks_yields; [lia|exact Hs].
  - intros chunk _. destruct (ofdm_block_spec N P chunk ltac:(lia)) as (d & _ & _ & E). rewrite E. cbn [bind].
    split; [reflexivity|]. intros Z. pose proof (ofdm_block_length N P chunk ltac:(lia)) as L. rewrite Z in L. cbn in L. lia.
Qed.

Lemma rx_ofdm_inv message N P : 1 <= P < N ->
  exists rx, rx_baseband_ofdm_signal fft message N P = Ret rx /\
    forall blocks, yields message (concat blocks) -> (forall b, In b blocks -> length b = N + N / 4) ->
      yields rx (flat_map (fun b => ofdm_read N P (skipn (N / 4) b)) blocks).
Proof.
  intros HP. unfold rx_baseband_ofdm_signal, usize_sub. destruct (Nat.leb_spec P N); [|lia]. cbn [bind].
  rewrite carriers_eq by lia. cbn [bind]. eexists. split; [reflexivity|]. intros blocks Hy HL.
  apply (iflat_fn_yields (fun _ ofdm_symbol_data =>
         let? data_symbols := ofdm_demodulate fft N (carriers N P) ofdm_symbol_data in Ret (data_symbols, tt))).
  - pose proof (chunks_yields (N + N / 4) _ _ ltac:(lia) Hy) as Y.
    replace (concat blocks) with (flat_map (fun b => b) blocks) in Y by (rewrite flat_map_concat_map, map_id; reflexivity).
    rewrite chunk_list_flat in Y by (auto; lia). rewrite map_id in Y. exact Y.
  - intros b Hb. rewrite ofdm_demodulate_eq by (auto; lia). cbn [bind]. split; [reflexivity|].
    intros Z. pose proof (ofdm_read_length N P (skipn (N / 4) b) ltac:(lia)) as L. rewrite Z in L. cbn in L. lia.
Qed.

End Generic.
