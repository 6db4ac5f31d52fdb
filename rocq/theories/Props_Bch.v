(** Properties C46 and C47: the coded stream (src/bch.rs) and coded CDMA (src/cdma.rs), and C58: the
    Reed-Solomon contract can be met. *)
From Coq Require Import List Arith NArith ZArith Reals Bool Lia.
From Flocq Require Import Core BinarySingleNaN.
From Verif Require Import Base IterTheory IterModel IterProofs PanicTheory Spec Tab Num F64Lib LibModel LibDiscrete PskModel CdmaModel
  PskFloat FhProofs OfdmReal OfdmWave BchModel SpecCode BchProofs RsCode Props_Psk Props_Cdma.
Import ListNotations.

(** ** C58 *)

(** A codec exists: the systematic Reed-Solomon code over GF(2^8), any number of parity bytes. *)
Theorem C58_reed_solomon_corrects : forall ecc, corrects ref_codec ecc.
Proof. exact ref_codec_corrects. Qed.

(** Its minimum distance is ecc + 1: two code words of the same length that differ in at most ecc
    bytes carry the same data. *)
Theorem C58_minimum_distance :
  forall ecc a b, bytes a -> bytes b -> length a = length b -> length a + ecc <= 255 ->
    differ N.eq_dec (rs_encode ref_codec ecc a) (rs_encode ref_codec ecc b) <= ecc -> a = b.
Proof.
  intros e a b Ha Hb L L255 D. destruct (rs_word_spec e (map to_gf a)) as [La Wa]. destruct (rs_word_spec e (map to_gf b)) as [Lb Wb].
  assert (E : rs_word e (map to_gf a) = rs_word e (map to_gf b)).
  { apply (rs_distance e); [unfold rs_word; rewrite !app_length, !map_length; lia|unfold rs_word; rewrite app_length, map_length; lia|exact Wa|exact Wb|].
    rewrite <- (map_id (rs_word e (map to_gf a))). rewrite (map_ext _ _ (fun x => eq_sym (to_gf_gv x))), <- map_map.
    rewrite differ_to; [exact D| |unfold rs_word; rewrite !app_length, !map_length; unfold rs_word; rewrite app_length, map_length; lia].
    intros x Hx. apply in_map_iff in Hx. destruct Hx as (y & <- & _). apply Gf256.gv_lt. }
  assert (F : firstn (length a) (rs_word e (map to_gf a)) = firstn (length a) (rs_word e (map to_gf b))) by (rewrite E; reflexivity).
  unfold rs_word in F. rewrite !firstn_app, !map_length, L, !Nat.sub_diag, !app_nil_r in F.
  rewrite !firstn_all2 in F by (rewrite map_length; lia).
  rewrite <- (map_gv_to a Ha), <- (map_gv_to b Hb), F. reflexivity.
Qed.

Example C58_example : rs_encode ref_codec 2 [1]%N = [1; 3; 2]%N /\ rs_correct ref_codec 2 [1; 200; 2]%N = Some [1]%N.
Proof.
  split; [vm_compute; reflexivity|]. destruct (C58_reed_solomon_corrects 2 [1]%N) as (_ & H).
  - intros b [<-|[]]. reflexivity.
  - cbn. lia.
  - apply H; [|reflexivity|vm_compute; lia]. intros b Hb. cbn in Hb. intuition (subst; reflexivity).
Qed.

(** ** C46 *)

Theorem C46_coded_stream_round_trip :
  forall (rs : Codec) (message : Iter bool) m,
    corrects rs 5 -> yields message m ->
    exists sent, yields (bch_stream_encode rs message) sent /\
      (* every 7 bytes gain 5 *)
      (exists n, n * 8 = length sent /\ n = (length m + 7) / 8 + 5 * (((length m + 7) / 8 + 6) / 7)) /\
      forall (channel : Iter bool) received,
        yields channel received -> length received = length sent ->
        (* at most two wrong bytes in every frame of 12 bytes *)
        (forall frame, differ (list_eq_dec bool_dec)
                         (map (fun j => block 8 (12 * frame + j) received) (seq 0 12))
                         (map (fun j => block 8 (12 * frame + j) sent) (seq 0 12)) <= 2) ->
        exists padding, padding < 8 /\ (length m + padding) mod 8 = 0 /\
          yields (bch_stream_decode rs channel) (m ++ repeat false padding).
Proof.
  intros rs message m Hrs Hm. set (B := map bool_to_u8 (chunk_list 8 m)).
  assert (HB : bytes B) by (apply bytes_map; intros c Hc; apply (chunk_list_le 8 m c Hc)).
  assert (LB : length B = (length m + 7) / 8) by (unfold B, chunk_list; rewrite !map_length, seq_length; unfold ceil_div; f_equal; lia).
  exists (flat_map u8_to_bools (enc_bytes rs B)). split; [apply encode_yields; assumption|]. split.
  - exists (length (enc_bytes rs B)). rewrite unpacked_length. split; [lia|]. rewrite <- LB. unfold enc_bytes, chunk_list.
    change DAT_VALUE with 7.
    assert (G : forall n l, length l = n -> bytes l -> length (flat_map (rs_encode rs ECC_VALUE) (map (fun i => block 7 i l) (seq 0 (ceil_div n 7)))) = n + 5 * ceil_div n 7).
    { induction n as [n IH] using (well_founded_induction lt_wf). intros l Ln Hl. destruct l as [|x l0].
      - cbn in Ln. subst n. reflexivity.
      - set (l := x :: l0) in *. assert (1 <= n) by (subst n; cbn; lia). rewrite ceil_div_S by lia. cbn [seq map flat_map].
        rewrite app_length, block_0. destruct (enc_length rs Hrs (firstn 7 l)) as [LE _]; [apply bytes_firstn; exact Hl|rewrite firstn_length; lia|].
        rewrite LE, firstn_length, <- seq_shift, map_map. rewrite (map_ext _ (fun i => block 7 i (skipn 7 l))) by (intros; apply block_S).
        rewrite (IH (n - 7)); [lia|lia|rewrite skipn_length; lia|apply bytes_skipn; exact Hl]. }
    rewrite G by (reflexivity || exact HB). unfold ceil_div. replace (length B + 7 - 1) with (length B + 6) by lia. reflexivity.
  - intros channel r Hr Lr HE. pose proof (enc_bytes_bytes rs Hrs B HB) as HEB.
    exists (8 * ceil_div (length m) 8 - length m). pose proof (ceil_div_spec (length m) 8 ltac:(lia)) as CS.
    split; [destruct (length m); [rewrite ceil_div_0 by lia; lia|lia]|]. split.
    { replace (length m + (8 * ceil_div (length m) 8 - length m)) with (ceil_div (length m) 8 * 8) by lia. apply Nat.mod_mul. lia. }
    rewrite <- pack_stream. fold B. apply (decode_yields rs channel r); [exact Hr|].
    apply (frames_decode rs Hrs (length B)); [reflexivity|exact HB|apply bytes_map; intros c Hc; apply (chunk_list_le 8 r c Hc)| |].
    + unfold chunk_list. rewrite !map_length, seq_length, Lr, unpacked_length. unfold ceil_div.
      replace (8 * length (enc_bytes rs B) + 8 - 1) with (7 + length (enc_bytes rs B) * 8) by lia. rewrite Nat.div_add by lia. reflexivity.
    + intros f. rewrite <- (repack (enc_bytes rs B) HEB) at 1. eapply Nat.le_trans; [apply byte_errors; exact Lr|apply HE].
Qed.

(** No errors at all: a special case. *)
Corollary C46_coded_stream_clean :
  forall (rs : Codec) (message : Iter bool) m, corrects rs 5 -> yields message m ->
    exists padding, padding < 8 /\ (length m + padding) mod 8 = 0 /\
      yields (bch_stream_decode rs (bch_stream_encode rs message)) (m ++ repeat false padding).
Proof.
  intros rs message m Hrs Hm. destruct (C46_coded_stream_round_trip rs message m Hrs Hm) as (sent & Y & _ & H).
  apply (H _ sent Y eq_refl). intros f. rewrite differ_refl. lia.
Qed.

(** Whatever the codec: frames it cannot correct come out uncorrected, without their last 5 bytes. *)
Lemma flat_ok_total {A B} (f : unit -> A -> outcome (list B * unit)) (w : A -> list B) l :
  (forall a, In a l -> f tt a = Ret (w a, tt)) -> exists e, e <= length l /\ flat_ok f tt l (flat_map w l) e.
Proof.
  induction l as [|a l IH]; intros H; [exists 0; split; [lia|constructor]|].
  destruct IH as (e & He & IH); [intros; apply H; right; assumption|].
  eexists. split; [|cbn [flat_map]; eapply flat_cons; [apply H; left; reflexivity|exact IH]]. cbn. destruct (w a); lia.
Qed.

Lemma flat_map_nest {A B C} (g : B -> list C) (f : A -> list B) l :
  flat_map g (flat_map f l) = flat_map (fun a => flat_map g (f a)) l.
Proof. induction l as [|a l IH]; [reflexivity|]. cbn [flat_map]. rewrite flat_map_app, IH. reflexivity. Qed.
Lemma frame_bytes r k : length r = 96 * k ->
  chunk_list 12 (map bool_to_u8 (chunk_list 8 r)) = tab k (fun f => map bool_to_u8 (chunk_list 8 (block 96 f r))).
Proof.
  intros L.
  assert (E8 : map bool_to_u8 (chunk_list 8 r) = tab (k * 12) (fun i => bool_to_u8 (block 8 i r))).
  { unfold chunk_list. rewrite map_map, L. replace (ceil_div (96 * k) 8) with (k * 12); [reflexivity|].
    unfold ceil_div. replace (96 * k + 8 - 1) with (7 + (k * 12) * 8) by lia. rewrite Nat.div_add by lia. reflexivity. }
  rewrite E8, chunk_list_tab by lia. apply tab_ext. intros f Hf. unfold chunk_list. rewrite block_length, L.
  replace (ceil_div (Nat.min 96 (96 * k - f * 96)) 8) with 12 by (replace (Nat.min 96 (96 * k - f * 96)) with 96 by lia; reflexivity).
  rewrite map_map. fold (tab 12 (fun i => bool_to_u8 (block 8 i (block 96 f r)))). apply tab_ext. intros j Hj. f_equal.
  unfold block. rewrite skipn_firstn_comm, firstn_firstn, skipn_add. replace (Nat.min 8 (96 - j * 8)) with 8 by lia. f_equal. f_equal. lia.
Qed.

Theorem C46_uncorrectable_frames_pass :
  forall (rs : Codec) (channel : Iter bool) r frames,
    yields channel r -> length r = 96 * frames -> (Z.of_nat frames < 2 ^ 64 - 1)%Z ->
    (forall msg, rs_correct rs 5 msg = None) ->
    yields (bch_stream_decode rs channel) (flat_map (fun f => firstn 56 (block 96 f r)) (seq 0 frames)).
Proof.
  intros rs channel r k Hr L Hk Hno. unfold bch_stream_decode.
  pose proof (chunks_yields FRAME_VALUE _ _ ltac:(unfold FRAME_VALUE, DAT_VALUE; lia) (bools_to_u8s_yields channel r Hr)) as Yc.
  change FRAME_VALUE with 12 in *. rewrite frame_bytes with (k := k) in Yc by exact L.
  set (bs := tab k (fun f => map bool_to_u8 (chunk_list 8 (block 96 f r)))) in *.
  destruct (flat_ok_total (fun _ chunk => let? decoded := decode_frame rs chunk in Ret (decoded, tt)) (fun c => firstn 7 c) bs) as (e & He & Hok).
  { intros c Hc. apply in_map_iff in Hc. destruct Hc as (f & <- & Hf). apply in_seq in Hf. unfold decode_frame. rewrite Hno. unfold usize_sub.
    assert (LC : length (map bool_to_u8 (chunk_list 8 (block 96 f r))) = 12).
    { unfold chunk_list. rewrite !map_length, seq_length, block_length, L. replace (Nat.min 96 (96 * k - f * 96)) with 96 by lia. reflexivity. }
    rewrite LC. reflexivity. }
  assert (Lb : length bs = k) by apply tab_length.
  refine (eq_ind _ (fun x => yields _ x) (u8s_to_bools_yields _ _ (iflat_yields _ _ _ _ _ _ Yc Hok ltac:(lia))) _ _).
  unfold bs, tab. rewrite flat_map_map. rewrite (flat_map_nest u8_to_bools). apply flat_map_ext_in. intros f Hf. apply in_seq in Hf.
  set (b := block 96 f r). assert (Lbk : length b = 96) by (unfold b; rewrite block_length; lia).
  pose proof (pack_stream b) as PS. rewrite Lbk in PS. change (8 * ceil_div 96 8 - 96) with 0 in PS. cbn [repeat] in PS. rewrite app_nil_r in PS.
  set (c := map bool_to_u8 (chunk_list 8 b)) in *. rewrite <- (firstn_skipn 7 c), flat_map_app in PS. rewrite <- PS.
  rewrite firstn_app, unpacked_length.
  assert (LC : length (firstn 7 c) = 7) by (rewrite firstn_length; unfold c, chunk_list; rewrite !map_length, seq_length, Lbk; reflexivity).
  rewrite LC. change (56 - 8 * 7) with 0. rewrite firstn_O, app_nil_r. rewrite (firstn_all2 (flat_map u8_to_bools (firstn 7 c))) by (rewrite unpacked_length; lia). reflexivity.
Qed.

(** A stream that ends in a piece of fewer than 5 bytes which the codec rejects: panic. *)
Theorem C46_short_last_frame_panics :
  forall (rs : Codec) (channel : Iter bool) r frames rest,
    yields channel r -> length r = 96 * frames + rest -> 1 <= rest <= 32 -> (Z.of_nat frames < 2 ^ 64 - 1)%Z ->
    (forall msg, length msg < 5 -> rs_correct rs 5 msg = None) ->
    exists out, panics_after (bch_stream_decode rs channel) (map Some out).
Proof.
  intros rs channel r k rest Hr L Hrest Hk Hno. unfold bch_stream_decode.
  pose proof (chunks_yields FRAME_VALUE _ _ ltac:(unfold FRAME_VALUE, DAT_VALUE; lia) (bools_to_u8s_yields channel r Hr)) as Yc.
  change FRAME_VALUE with 12 in *.
  set (c8 := map bool_to_u8 (chunk_list 8 r)) in *.
  set (q := (rest + 7) / 8). assert (Hq : 1 <= q <= 4).
  { unfold q. split; [apply Nat.div_le_lower_bound; lia|]. apply Nat.lt_succ_r. apply Nat.div_lt_upper_bound; lia. }
  assert (L8 : length c8 = k * 12 + q).
  { unfold c8, chunk_list. rewrite !map_length, seq_length, L. unfold ceil_div, q.
    replace (96 * k + rest + 8 - 1) with (rest + 7 + (k * 12) * 8) by lia. rewrite Nat.div_add by lia. lia. }
  assert (EC : chunk_list 12 c8 = map (fun i => block 12 i c8) (seq 0 k) ++ [block 12 k c8]).
  { unfold chunk_list. rewrite L8. replace (ceil_div (k * 12 + q) 12) with (k + 1); [rewrite seq_app, map_app; reflexivity|].
    unfold ceil_div. replace (k * 12 + q + 12 - 1) with (q - 1 + (k + 1) * 12) by lia. rewrite Nat.div_add, Nat.div_small by lia. lia. }
  rewrite EC in Yc.
  set (w := fun c => match rs_correct rs 5 c with Some d => d | None => firstn 7 c end).
  destruct (flat_ok_total (fun _ chunk => let? decoded := decode_frame rs chunk in Ret (decoded, tt)) w
     (map (fun i => block 12 i c8) (seq 0 k))) as (e & He & Hok).
  { intros c Hc. apply in_map_iff in Hc. destruct Hc as (f & <- & Hf). apply in_seq in Hf. unfold decode_frame, w. change ECC_VALUE with 5.
    destruct (rs_correct rs 5 (block 12 f c8)); [reflexivity|]. unfold usize_sub.
    replace (length (block 12 f c8)) with 12 by (rewrite block_length, L8; lia). reflexivity. }
  rewrite map_length, seq_length in He.
  exists (flat_map u8_to_bools (flat_map w (map (fun i => block 12 i c8) (seq 0 k)))).
  apply (iflat_source_panics u8_to_bools).
  - eapply iflat_panics; [exact Yc|exact Hok| |lia].
    intros c. unfold decode_frame. change ECC_VALUE with 5.
    assert (LL : length (block 12 k c8) = q) by (rewrite block_length, L8; lia). rewrite Hno by lia. unfold usize_sub. rewrite LL.
    destruct (Nat.leb_spec 5 q); [lia|reflexivity].
  - intros a _ E. apply (f_equal (@length bool)) in E. rewrite u8_to_bools_length in E. discriminate.
Qed.

Example C46_example : exists padding,
  yields (bch_stream_decode ref_codec (bch_stream_encode ref_codec (of_list [true; false; true])))
    ([true; false; true] ++ repeat false padding).
Proof.
  destruct (C46_coded_stream_clean ref_codec (of_list [true; false; true]) _ (C58_reed_solomon_corrects 5) (of_list_yields _)) as (p & _ & _ & Y).
  exists p. exact Y.
Qed.

Lemma differ_two {A} (eqd : forall x y : A, {x = y} + {x <> y}) a b c d l : differ eqd (a :: b :: l) (c :: d :: l) <= 2.
Proof.
  pose proof (differ_refl eqd l) as E. unfold differ in *. cbn [combine filter fst snd].
  destruct (eqd a c), (eqd b d); cbn [length]; lia.
Qed.

(** Two wrong bytes in a frame: the case the bound allows. *)
Example C46_example_errors : exists sent, yields (bch_stream_encode ref_codec (of_list [true; false; true])) sent /\
  exists padding, yields (bch_stream_decode ref_codec (of_list (map negb (firstn 9 sent) ++ skipn 9 sent)))
                    ([true; false; true] ++ repeat false padding).
Proof.
  destruct (C46_coded_stream_round_trip ref_codec (of_list [true; false; true]) _ (C58_reed_solomon_corrects 5) (of_list_yields _))
    as (sent & Y & (n & L & En) & H).
  exists sent. split; [exact Y|]. change (n = 6) in En. subst n. 
  destruct (H (of_list (map negb (firstn 9 sent) ++ skipn 9 sent)) _ (of_list_yields _)) as (p & _ & _ & Yp); [| |exists p; exact Yp].
  - rewrite app_length, map_length, firstn_length, skipn_length. lia.
  - intros f. set (r := map negb (firstn 9 sent) ++ skipn 9 sent).
    assert (Same : forall i, 2 <= i -> block 8 i r = block 8 i sent).
    { intros i Hi. unfold block, r. f_equal. rewrite skipn_app, map_length, firstn_length.
      rewrite (skipn_all2 (map negb (firstn 9 sent))) by (rewrite map_length, firstn_length; lia). rewrite skipn_add. cbn [app]. f_equal. lia. }
    destruct f as [|f].
    + change (12 * 0) with 0. cbn [Nat.add seq map]. rewrite (Same 2), (Same 3), (Same 4), (Same 5), (Same 6), (Same 7), (Same 8), (Same 9), (Same 10), (Same 11) by lia. clear.
      apply differ_two.
    + rewrite (map_ext_in _ (fun j => block 8 (12 * S f + j) sent)); [rewrite differ_refl; lia|]. intros j Hj. apply Same. lia.
Qed.

(** ** C47 *)

(** The number of bits the code sends for a message of n bits. *)
Notation coded_bits n := (8 * ((n + 7) / 8 + 5 * (((n + 7) / 8 + 6) / 7))) (only parsing).

Theorem C47_coded_cdma_round_trip :
  forall (libm : Libm) (rs : Codec) (message : Iter bool) m (sample_rate symbol_rate : nat) (fc : F64) (key : list bool) tx,
    let num := NumF libm in
    let carrier i := libm_cos libm (nofZ 2 * npi * fc * (nofnat i / nofnat sample_rate))%num in
    let sps := sample_rate / symbol_rate in
    corrects rs 5 -> yields message m ->
    tx_coded_cdma_bpsk_signal rs message sample_rate symbol_rate fc key = Ret tx ->
    (forall i, i < coded_bits (length m) * sps -> is_nan (carrier i) = false) ->
    (forall k, k < coded_bits (length m) -> exists j, j < sps /\
       Bltb (f64_ofZ 0) (Bmult mode_NE (carrier (k * sps + j)) (carrier (k * sps + j))) = true) ->
    exists rx w padding, rx_coded_cdma_bpsk_signal rs tx sample_rate symbol_rate fc key = Ret rx /\
      yields tx w /\ length w = coded_bits (length m) * sps /\
      padding < 8 /\ (length m + padding) mod 8 = 0 /\ yields rx (m ++ repeat false padding).
Proof.
  intros libm rs message m sr sy fc key tx num carrier sps Hrs Hm Htx Hnan Hsq.
  destruct (C46_coded_stream_round_trip rs message m Hrs Hm) as (sent & Ys & (n & Ln & En) & H).
  assert (Ls : length sent = coded_bits (length m)) by (rewrite <- Ln, En; apply Nat.mul_comm). rewrite <- Ls in Hnan, Hsq.
  destruct (C34_cdma_bpsk_round_trip libm (bch_stream_encode rs message) sent sr sy fc key tx Ys Htx Hnan Hsq)
    as (bits & w & Er & Yw & Lw & Yb).
  destruct (H bits sent Yb eq_refl) as (p & Hp & Hp8 & Y); [intros f; rewrite differ_refl; lia|].
  exists (bch_stream_decode rs bits), w, p. rewrite <- Ls. repeat split; try assumption.
  unfold rx_coded_cdma_bpsk_signal. fold num in Er. rewrite Er. reflexivity.
Qed.

Theorem C47_coded_cdma_exact :
  forall (rs : Codec) (message : Iter bool) m (sample_rate symbol_rate : nat) (fc : R) (key : list bool) tx,
    corrects rs 5 -> yields message m ->
    tx_coded_cdma_bpsk_signal rs message sample_rate symbol_rate fc key = Ret tx ->
    exists rx padding, rx_coded_cdma_bpsk_signal rs tx sample_rate symbol_rate fc key = Ret rx /\
      padding < 8 /\ (length m + padding) mod 8 = 0 /\ yields rx (m ++ repeat false padding).
Proof.
  intros rs message m sr sy fc key tx Hrs Hm Htx.
  destruct (C46_coded_stream_round_trip rs message m Hrs Hm) as (sent & Ys & _ & H).
  destruct (C34_cdma_bpsk_exact (bch_stream_encode rs message) sent sr sy fc key tx Ys Htx) as (bits & Er & Yb).
  destruct (H bits sent Yb eq_refl) as (p & Hp & Hp8 & Y); [intros f; rewrite differ_refl; lia|].
  exists (bch_stream_decode rs bits), p. unfold rx_coded_cdma_bpsk_signal. rewrite Er. auto.
Qed.

Example C47_case : let num := NumF libm_square in
  exists tx rx padding, tx_coded_cdma_bpsk_signal ref_codec (of_list [true; false; true]) 12 2 (f64_ofZ 2) [true; false; true] = Ret tx /\
    rx_coded_cdma_bpsk_signal ref_codec tx 12 2 (f64_ofZ 2) [true; false; true] = Ret rx /\
    yields rx ([true; false; true] ++ repeat false padding).
Proof.
  intros num.
  destruct (proj1 (C34_cdma_checks libm_square (bch_stream_encode ref_codec (of_list [true; false; true])) (of_list []) 12 2 (f64_ofZ 2) [true; false; true] eq_refl)) as (tx & _ & Etx & _).
  { split; [lia|]. split; [discriminate|]. split; [cbn; lia|]. split; [exists 2; reflexivity|]. right. vm_compute. reflexivity. }
  assert (C : forall x, libm_cos libm_square x = f64_ofZ 1 \/ libm_cos libm_square x = Bopp (f64_ofZ 1)).
  { intros x. change (libm_cos libm_square x) with (if Bltb x (f64_ofZ 2) then f64_ofZ 1 else Bopp (f64_ofZ 1)).
    destruct (Bltb x (f64_ofZ 2)); [left|right]; reflexivity. }
  destruct (C47_coded_cdma_round_trip libm_square ref_codec _ _ 12 2 (f64_ofZ 2) _ tx (C58_reed_solomon_corrects 5) (of_list_yields [true; false; true]) Etx)
    as (rx & w & p & Er & _ & _ & _ & _ & Yr).
  - intros i _. match goal with |- context [libm_cos libm_square ?x] => destruct (C x) as [->| ->] end; reflexivity.
  - intros k _. exists 0%nat. split; [cbn; lia|].
    match goal with |- context [libm_cos libm_square ?x] => destruct (C x) as [->| ->] end; vm_compute; reflexivity.
  - exists tx, rx, p. auto.
Qed.

(** ** Axioms used *)
Print Assumptions C58_reed_solomon_corrects.
Print Assumptions C58_minimum_distance.
Print Assumptions C46_coded_stream_round_trip.
Print Assumptions C46_coded_stream_clean.
Print Assumptions C46_uncorrectable_frames_pass.
Print Assumptions C46_short_last_frame_panics.
Print Assumptions C47_coded_cdma_round_trip.
Print Assumptions C47_coded_cdma_exact.
