(** bch.rs: proofs. *)
From Coq Require Import List Arith NArith ZArith Bool Lia.
From Verif Require Import Base IterTheory IterModel IterProofs PanicTheory Spec Tab Num LibModel LibDiscrete CdmaModel
  FhProofs OfdmReal OfdmWave BchModel SpecCode.
Import ListNotations.

Lemma differ_map {A B} da db (f : A -> B) a : forall b, differ db (map f a) (map f b) <= differ da a b.
Proof.
  induction a as [|x a IH]; intros [|y b]; try (cbn; lia). specialize (IH b). unfold differ in *. cbn [map combine filter fst snd].
  destruct (da x y) as [E|E], (db (f x) (f y)) as [E'|E']; cbn [length]; try lia. congruence.
Qed.
Lemma differ_firstn {A} d k (a : list A) : forall b, differ d (firstn k a) (firstn k b) <= differ d a b.
Proof.
  revert k. induction a as [|x a IH]; intros [|k] [|y b]; try (cbn; lia). specialize (IH k b). unfold differ in *. cbn [firstn combine filter fst snd].
  destruct (d x y); cbn [length]; lia.
Qed.
Lemma differ_refl {A} d (a : list A) : differ d a a = 0.
Proof. induction a as [|x a IH]; [reflexivity|]. unfold differ in *. cbn. destruct (d x x); [exact IH|contradiction]. Qed.

Lemma in_firstn {A} k (l : list A) x : In x (firstn k l) -> In x l.
Proof. intros H. rewrite <- (firstn_skipn k l). apply in_or_app. left. exact H. Qed.
Lemma bytes_map l : (forall c, In c l -> length c <= 8) -> bytes (map bool_to_u8 l).
Proof. intros H b Hb. apply in_map_iff in Hb. destruct Hb as (c & <- & Hc). apply pack_byte. apply H. exact Hc. Qed.
Lemma bytes_firstn k l : bytes l -> bytes (firstn k l).
Proof. intros H b Hb. apply H. eapply in_firstn. exact Hb. Qed.
Lemma bytes_skipn k l : bytes l -> bytes (skipn k l).
Proof. intros H b Hb. apply H. rewrite <- (firstn_skipn k l). apply in_or_app. right. exact Hb. Qed.
Lemma bytes_app a b : bytes a -> bytes b -> bytes (a ++ b).
Proof. intros Ha Hb x Hx. apply in_app_or in Hx. destruct Hx; auto. Qed.

Lemma chunk_list_short {A} n (l : list A) : 1 <= n -> l <> [] -> length l <= n -> chunk_list n l = [l].
Proof. intros Hn Hl HL. rewrite chunk_list_cons, firstn_all2, skipn_all2, chunk_list_nil by assumption. reflexivity. Qed.
Lemma chunk_list_nonempty {A} n (l : list A) c : 1 <= n -> In c (chunk_list n l) -> c <> [].
Proof.
  intros Hn Hc ->. unfold chunk_list in Hc. apply in_map_iff in Hc. destruct Hc as (i & E & Hi). apply in_seq in Hi.
  apply (f_equal (@length A)) in E. rewrite block_length in E. cbn in E.
  assert (ceil_div (length l) n * n < length l + n); [|nia].
  pose proof (ceil_div_spec (length l) n Hn). destruct (length l); [|lia]. rewrite ceil_div_0 in Hi by exact Hn. lia.
Qed.

(** ** Frames *)

Section Frames.
Variable rs : Codec.
Hypothesis Hrs : corrects rs ECC_VALUE.

Definition enc_bytes (B : list N) : list N := flat_map (rs_encode rs ECC_VALUE) (chunk_list DAT_VALUE B).

Lemma enc_length d : bytes d -> length d <= 7 -> length (rs_encode rs ECC_VALUE d) = length d + 5 /\ bytes (rs_encode rs ECC_VALUE d).
Proof.
  intros Hb Hl. destruct (Hrs d Hb) as ((p & E & Lp & Bp) & _); [unfold ECC_VALUE; lia|]. rewrite E, app_length, Lp.
  split; [reflexivity|]. apply bytes_app; assumption.
Qed.

Lemma frames_decode n : forall B RB, length B = n -> bytes B -> bytes RB -> length RB = length (enc_bytes B) ->
  (forall f, differ N.eq_dec (block 12 f RB) (block 12 f (enc_bytes B)) <= 2) ->
  map (rs_correct rs ECC_VALUE) (chunk_list FRAME_VALUE RB) = map Some (chunk_list DAT_VALUE B).
Proof.
  change FRAME_VALUE with 12. change DAT_VALUE with 7.
  induction n as [n IH] using (well_founded_induction lt_wf). intros B RB Ln HB HRB LRB HE.
  destruct B as [|b0 B0]; [cbn in LRB; destruct RB; [reflexivity|discriminate]|]. set (B := b0 :: B0) in *.
  assert (NB : B <> []) by discriminate.
  assert (EE : enc_bytes B = rs_encode rs ECC_VALUE (firstn 7 B) ++ enc_bytes (skipn 7 B)).
  { unfold enc_bytes. change DAT_VALUE with 7. rewrite chunk_list_cons by (lia || assumption). reflexivity. }
  assert (L7 : length (firstn 7 B) <= 7) by (rewrite firstn_length; lia).
  assert (L1 : 1 <= length (firstn 7 B)) by (rewrite firstn_length; unfold B; cbn; lia).
  destruct (enc_length (firstn 7 B) (bytes_firstn 7 B HB) L7) as [LE _].
  destruct (Hrs (firstn 7 B) (bytes_firstn 7 B HB)) as (_ & Hcor); [unfold ECC_VALUE; lia|].
  change ECC_VALUE with 5 in *.
  assert (LRB' : length RB = length (firstn 7 B) + 5 + length (enc_bytes (skipn 7 B))) by (rewrite LRB, EE, app_length, LE; reflexivity).
  assert (NR : RB <> []) by (destruct RB; [cbn in LRB'; lia|discriminate]).
  rewrite (chunk_list_cons 7) by (lia || assumption). rewrite (chunk_list_cons 12) by (lia || assumption). cbn [map].
  destruct (Nat.le_gt_cases (length B) 7) as [Hs|Hl].
  - (* the last frame *)
    assert (Z : skipn 7 B = []) by (apply skipn_all2; exact Hs).
    rewrite Z in *. change (enc_bytes []) with (@nil N) in *. rewrite app_nil_r in EE. cbn [length] in LRB'.
    rewrite (firstn_all2 RB), (skipn_all2 RB) by lia. rewrite !chunk_list_nil by lia. cbn [map]. f_equal.
    apply Hcor; [exact HRB|lia|]. specialize (HE 0). rewrite !block_0, !firstn_all2 in HE by (rewrite ?EE; lia).
    rewrite <- EE. lia.
  - assert (L7' : length (firstn 7 B) = 7) by (rewrite firstn_length; lia). rewrite L7' in *. f_equal.
    + apply Hcor; [apply bytes_firstn; exact HRB|rewrite firstn_length; lia|]. specialize (HE 0). rewrite !block_0 in HE.
      rewrite EE, firstn_app, LE, Nat.sub_diag, app_nil_r, (firstn_all2 (rs_encode _ _ _)) in HE by lia. lia.
    + apply (IH (length (skipn 7 B))); try reflexivity.
      * rewrite skipn_length. lia.
      * apply bytes_skipn; exact HB.
      * apply bytes_skipn; exact HRB.
      * rewrite skipn_length. lia.
      * intros f. specialize (HE (S f)). rewrite !block_S in HE. rewrite EE in HE. rewrite skipn_app, LE in HE.
        rewrite (skipn_all2 (rs_encode _ _ _)) in HE by lia. exact HE.
Qed.

Lemma enc_bytes_bytes B : bytes B -> bytes (enc_bytes B).
Proof.
  intros HB b Hb. unfold enc_bytes in Hb. apply in_flat_map in Hb. destruct Hb as (c & Hc & Hb).
  assert (bytes c).
  { intros x Hx. apply HB. unfold chunk_list in Hc. apply in_map_iff in Hc. destruct Hc as (i & <- & _). unfold block in Hx.
    apply in_firstn in Hx. rewrite <- (firstn_skipn (i * DAT_VALUE) B). apply in_or_app. right. exact Hx. }
  apply (proj2 (enc_length c H (chunk_list_le 7 B c Hc))). exact Hb.
Qed.

Lemma encode_yields data m : yields data m ->
  yields (bch_stream_encode rs data) (flat_map u8_to_bools (enc_bytes (map bool_to_u8 (chunk_list 8 m)))).
Proof.
  intros Hy. apply u8s_to_bools_yields. pose proof (bools_to_u8s_yields data m Hy) as Yb.
  set (B := map bool_to_u8 (chunk_list 8 m)) in *.
  assert (HB : bytes B) by (apply bytes_map; intros c Hc; apply (chunk_list_le 8 m c Hc)).
  apply (iflat_pure_yields (fun chunk => rs_encode rs ECC_VALUE chunk)); [apply chunks_yields; [unfold DAT_VALUE; lia|exact Yb]|].
  intros c Hc E. assert (Bc : bytes c).
  { intros x Hx. apply HB. unfold chunk_list in Hc. apply in_map_iff in Hc. destruct Hc as (i & <- & _). unfold block in Hx.
    apply in_firstn in Hx. rewrite <- (firstn_skipn (i * DAT_VALUE) B). apply in_or_app. right. exact Hx. }
  destruct (enc_length c Bc (chunk_list_le 7 B c Hc)) as [L _]. rewrite E in L. cbn in L. lia.
Qed.

Lemma decode_yields data r B : yields data r ->
  map (rs_correct rs ECC_VALUE) (chunk_list FRAME_VALUE (map bool_to_u8 (chunk_list 8 r))) = map Some (chunk_list DAT_VALUE B) ->
  yields (bch_stream_decode rs data) (flat_map u8_to_bools B).
Proof.
  intros Hy E. apply u8s_to_bools_yields. pose proof (bools_to_u8s_yields data r Hy) as Yb.
  set (RB := map bool_to_u8 (chunk_list 8 r)) in *.
  pose proof (chunks_yields FRAME_VALUE _ _ ltac:(unfold FRAME_VALUE, DAT_VALUE; lia) Yb) as Yc.
  set (w := fun c => match rs_correct rs ECC_VALUE c with Some d => d | None => [] end).
  assert (EW : flat_map w (chunk_list FRAME_VALUE RB) = B).
  { assert (EB : concat (chunk_list DAT_VALUE B) = B).
    { unfold chunk_list. rewrite concat_blocks. apply firstn_all2. pose proof (ceil_div_spec (length B) DAT_VALUE ltac:(unfold DAT_VALUE; lia)). nia. }
    rewrite <- EB. rewrite flat_map_concat_map. f_equal. revert E. generalize (chunk_list DAT_VALUE B), (chunk_list FRAME_VALUE RB).
    intros bs cs. revert bs. induction cs as [|c cs IH]; intros [|b bs] E; cbn in E; try discriminate; [reflexivity|].
    injection E as E1 E2. cbn. rewrite (IH bs E2). unfold w. rewrite E1. reflexivity. }
  rewrite <- EW. apply iflat_fn_yields; [exact Yc|]. intros c Hc.
  assert (HS : In (rs_correct rs ECC_VALUE c) (map Some (chunk_list DAT_VALUE B))) by (rewrite <- E; apply in_map; exact Hc).
  apply in_map_iff in HS. destruct HS as (d & Ed & Hd). unfold decode_frame, w. rewrite <- Ed. split; [reflexivity|].
  apply (chunk_list_nonempty DAT_VALUE B); [unfold DAT_VALUE; lia|exact Hd].
Qed.
End Frames.

(** Bit groups and bytes. *)
Lemma block_of_tab {A} n f k (g : nat -> A) : block n f (tab k g) = tab (Nat.min n (k - f * n)) (fun j => g (f * n + j)).
Proof. unfold block. rewrite skipn_tab, firstn_tab. reflexivity. Qed.

Lemma byte_errors r s f : length r = length s ->
  differ N.eq_dec (block 12 f (map bool_to_u8 (chunk_list 8 r))) (block 12 f (map bool_to_u8 (chunk_list 8 s))) <=
  differ (list_eq_dec bool_dec) (map (fun j => block 8 (12 * f + j) r) (seq 0 12)) (map (fun j => block 8 (12 * f + j) s) (seq 0 12)).
Proof.
  intros L. rewrite !(chunk_list_map 8 _ false), !tab_map, !block_of_tab, <- L.
  fold (tab 12 (fun j => block 8 (12 * f + j) r)). fold (tab 12 (fun j => block 8 (12 * f + j) s)).
  set (k := Nat.min 12 _). assert (Hk : k <= 12) by (unfold k; lia).
  eapply Nat.le_trans; [|apply (differ_firstn _ k)]. rewrite !firstn_tab. replace (Nat.min k 12) with k by lia.
  rewrite <- (tab_map bool_to_u8 k (fun j => block 8 (f * 12 + j) r)), <- (tab_map bool_to_u8 k (fun j => block 8 (f * 12 + j) s)).
  eapply Nat.le_trans; [apply (differ_map (list_eq_dec bool_dec))|]. rewrite (Nat.mul_comm f 12). lia.
Qed.

(** Packing what was unpacked. *)
Lemma repack B : bytes B -> map bool_to_u8 (chunk_list 8 (flat_map u8_to_bools B)) = B.
Proof.
  intros HB. rewrite chunk_list_flat by (lia || (intros; apply u8_to_bools_length)). rewrite map_map.
  rewrite <- (map_id B) at 2. apply map_ext_in. intros b Hb. apply unpack_pack. apply HB. exact Hb.
Qed.
Lemma unpacked_length B : length (flat_map u8_to_bools B) = 8 * length B.
Proof. induction B as [|b B IH]; [reflexivity|]. cbn [flat_map length]. rewrite app_length, IH, u8_to_bools_length. lia. Qed.
