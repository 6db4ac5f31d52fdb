(** The Reed-Solomon code over [GF]: systematic encoder, distance, and a reference decoder.  It
    meets the contract [corrects] for every number of parity bytes. *)
From Coq Require Import List Arith NArith Bool Lia Ring.
From Verif Require Import Spec Tab BchModel SpecCode Gf256.
Import ListNotations.

(** Polynomials: coefficients, highest first. *)
Fixpoint ev (x : GF) (p : list GF) : GF :=
  match p with [] => g0 | c :: p => ga (gm c (gpow x (length p))) (ev x p) end.
Definition padd (a b : list GF) : list GF := map (fun q => ga (fst q) (snd q)) (combine a b).

Lemma ev_app x a b : ev x (a ++ b) = ga (gm (ev x a) (gpow x (length b))) (ev x b).
Proof. induction a as [|c a IH]; cbn [ev app]; [ring|]. rewrite IH, app_length, gpow_add. ring. Qed.
Lemma ev_scale x c p : ev x (map (gm c) p) = gm c (ev x p).
Proof. induction p as [|d p IH]; cbn [ev map]; [ring|]. rewrite IH, map_length. ring. Qed.
Lemma padd_length a b : length a = length b -> length (padd a b) = length a.
Proof. intros H. unfold padd. rewrite map_length, combine_length. lia. Qed.
Lemma ev_padd x a : forall b, length a = length b -> ev x (padd a b) = ga (ev x a) (ev x b).
Proof.
  induction a as [|c a IH]; intros [|d b] L; try discriminate; [cbn; ring|]. cbn in L. change (padd (c :: a) (d :: b)) with (ga c d :: padd a b).
  cbn [ev]. rewrite IH, padd_length by lia. replace (length b) with (length a) by lia. ring.
Qed.

(** The generator: the product of (x - alpha^i), i < ecc. *)
Fixpoint gen (e : nat) : list GF :=
  match e with O => [g1] | S e => padd (gen e ++ [g0]) (g0 :: map (gm (gpow alpha e)) (gen e)) end.
Lemma gen_length e : length (gen e) = S e.
Proof.
  induction e as [|e IH]; [reflexivity|]. cbn [gen]. rewrite padd_length; rewrite ?app_length; cbn [length]; rewrite ?map_length, IH; lia.
Qed.
Lemma gen_head e : exists t, gen e = g1 :: t.
Proof.
  induction e as [|e (t & IH)]; [exists []; reflexivity|]. cbn [gen]. rewrite IH. cbn [app]. unfold padd. cbn [combine map fst snd].
  eexists. f_equal. ring.
Qed.
Lemma gen_root e i : i < e -> ev (gpow alpha i) (gen e) = g0.
Proof.
  induction e as [|e IH]; intros Hi; [lia|]. cbn [gen].
  rewrite ev_padd by (rewrite app_length; cbn [length]; rewrite map_length, gen_length; lia).
  rewrite ev_app. cbn [ev length gpow]. rewrite ev_scale.
  destruct (Nat.eq_dec i e) as [->|Ne].
  - transitivity (ga (gm (gpow alpha e) (ev (gpow alpha e) (gen e))) (gm (gpow alpha e) (ev (gpow alpha e) (gen e)))); [ring|apply ga_same].
  - rewrite IH by lia. ring.
Qed.

(** Division by the generator, one data byte at a time; the register holds the remainder. *)
Definition rs_step (e : nat) (r : list GF) (d : GF) : list GF :=
  padd (tl r ++ [g0]) (map (gm (ga d (hd g0 r))) (tl (gen e))).
Definition rs_parity (e : nat) (data : list GF) : list GF := fold_left (rs_step e) data (repeat g0 e).
Definition rs_word (e : nat) (data : list GF) : list GF := data ++ rs_parity e data.

Lemma tl_gen_length e : length (tl (gen e)) = e.
Proof. destruct (gen_head e) as (t & E). pose proof (gen_length e) as L. rewrite E in *. cbn in *. lia. Qed.

Lemma rs_step_spec e x r d pre : ev x (gen e) = g0 -> 1 <= e -> length r = e -> ev x (pre ++ r) = g0 ->
  length (rs_step e r d) = e /\ ev x ((pre ++ [d]) ++ rs_step e r d) = g0.
Proof.
  intros Hg He Lr Hinv. destruct r as [|r0 t]; [cbn in Lr; lia|]. cbn in Lr. unfold rs_step. cbn [tl hd].
  assert (L2 : length (t ++ [g0]) = length (map (gm (ga d r0)) (tl (gen e)))) by (rewrite app_length, map_length, tl_gen_length; cbn; lia).
  assert (L3 : length (padd (t ++ [g0]) (map (gm (ga d r0)) (tl (gen e)))) = e) by (rewrite padd_length, app_length by exact L2; cbn; lia).
  split; [exact L3|]. rewrite ev_app, L3, ev_padd by exact L2. rewrite ev_scale, !ev_app. cbn [ev length gpow].
  rewrite ev_app in Hinv. cbn [ev length] in Hinv.
  assert (EG : ev x (tl (gen e)) = gpow x e).
  { destruct (gen_head e) as (t' & E). pose proof (gen_length e) as L. rewrite E in *. cbn [ev tl length] in *. apply ga_0. rewrite <- Hg.
    replace (length t') with e by lia. ring. }
  rewrite EG. replace e with (S (length t)) in * by lia. cbn [gpow] in *. set (X := gpow x (length t)) in *. set (E := ev x pre) in *.
  set (tt := ev x t) in *.
  transitivity (ga (gm x (ga (gm E (gm x X)) (ga (gm r0 X) tt))) (ga (gm d (gm x X)) (gm d (gm x X)))).
  - replace (length [g0]) with 1 by reflexivity. cbn [gpow]. ring.
  - rewrite Hinv, ga_same. ring.
Qed.
Lemma ev_zeros x n : ev x (repeat g0 n) = g0.
Proof. induction n as [|n IH]; [reflexivity|]. cbn [repeat ev]. rewrite IH. ring. Qed.

Lemma rs_word_spec e data : length (rs_parity e data) = e /\ forall i, i < e -> ev (gpow alpha i) (rs_word e data) = g0.
Proof.
  destruct e as [|e].
  - split; [|intros; lia]. unfold rs_parity. change (repeat g0 0) with (@nil GF).
    assert (F : forall l, fold_left (rs_step 0) l [] = []) by (induction l; [reflexivity|cbn [fold_left]; unfold rs_step at 2; exact IHl]).
    rewrite F. reflexivity.
  - assert (G : forall l pre r, length r = S e -> (forall i, i < S e -> ev (gpow alpha i) (pre ++ r) = g0) ->
       length (fold_left (rs_step (S e)) l r) = S e /\
       forall i, i < S e -> ev (gpow alpha i) ((pre ++ l) ++ fold_left (rs_step (S e)) l r) = g0).
    { induction l as [|d l IH]; intros pre r Lr Hr; [rewrite app_nil_r; split; assumption|]. cbn [fold_left].
      destruct (IH (pre ++ [d]) (rs_step (S e) r d)) as [A B].
      - apply (rs_step_spec (S e) (gpow alpha 0) r d pre); [apply gen_root; lia|lia|exact Lr|apply Hr; lia].
      - intros i Hi. apply rs_step_spec; [apply gen_root; exact Hi|lia|exact Lr|apply Hr; exact Hi].
      - replace ((pre ++ [d]) ++ l) with (pre ++ d :: l) in B by (rewrite <- app_assoc; reflexivity). split; assumption. }
    destruct (G data [] (repeat g0 (S e))) as [A B].
    + apply repeat_length.
    + intros i _. apply ev_zeros.
    + split; assumption.
Qed.

(** ** Distance *)
Fixpoint locs (w : list GF) : list (GF * GF) := match w with [] => [] | c :: w => (c, gpow alpha (length w)) :: locs w end.
Lemma ev_locs i w : ev (gpow alpha i) w = gsum (locs w) i.
Proof. induction w as [|c w IH]; [reflexivity|]. cbn [ev locs gsum]. rewrite IH, gpow_comm. reflexivity. Qed.
Definition nz (p : GF * GF) : bool := if gf_dec (fst p) g0 then false else true.
Lemma gsum_filter l i : gsum (filter nz l) i = gsum l i.
Proof.
  induction l as [|(c, x) l IH]; [reflexivity|]. cbn [filter nz fst]. unfold nz at 1. cbn [fst]. destruct (gf_dec c g0) as [->|N].
  - cbn [gsum]. rewrite IH. ring.
  - cbn [gsum]. rewrite IH. reflexivity.
Qed.
Lemma locs_snd w x : In x (map snd (locs w)) -> exists k, k < length w /\ x = gpow alpha k.
Proof.
  induction w as [|c w IH]; cbn; [contradiction|]. intros [<-|H]; [exists (length w); split; [lia|reflexivity]|].
  destruct (IH H) as (k & Hk & E). exists k. split; [lia|exact E].
Qed.
Lemma locs_nodup w : length w <= 255 -> NoDup (map snd (locs w)).
Proof.
  induction w as [|c w IH]; cbn; intros L; constructor; [|apply IH; lia].
  intros H. apply locs_snd in H. destruct H as (k & Hk & E). apply alpha_inj in E; lia.
Qed.
Lemma filter_snd_nodup (l : list (GF * GF)) : NoDup (map snd l) -> NoDup (map snd (filter nz l)).
Proof.
  induction l as [|p l IH]; cbn; intros H; [constructor|]. inversion H as [|? ? Hn Hd]; subst. destruct (nz p); [|auto].
  cbn. constructor; [|auto]. intros Hi. apply Hn. apply in_map_iff in Hi. destruct Hi as (q & Eq & Hq). apply filter_In in Hq.
  apply in_map_iff. exists q. tauto.
Qed.

Lemma weight_differ u : forall v, length u = length v -> length (filter nz (locs (padd u v))) = differ gf_dec u v.
Proof.
  induction u as [|a u IH]; intros [|b v] L; try discriminate; [reflexivity|]. cbn in L.
  change (padd (a :: u) (b :: v)) with (ga a b :: padd u v). cbn [locs filter]. unfold differ in *. cbn [combine filter fst snd].
  specialize (IH v ltac:(lia)). unfold nz at 1. cbn [fst].
  destruct (gf_dec (ga a b) g0) as [E|E], (gf_dec a b) as [E'|E']; cbn [length]; try (rewrite IH; reflexivity).
  - apply ga_0 in E. contradiction.
  - subst b. exfalso. apply E. apply ga_same.
Qed.

(** Two words with zero syndromes that differ in at most e places are equal. *)
Lemma rs_distance e u v : length u = length v -> length u <= 255 ->
  (forall i, i < e -> ev (gpow alpha i) u = g0) -> (forall i, i < e -> ev (gpow alpha i) v = g0) ->
  differ gf_dec u v <= e -> u = v.
Proof.
  intros L L255 Hu Hv Hd. set (w := padd u v). assert (Lw : length w = length u) by (apply padd_length; exact L).
  assert (V : forall p, In p (filter nz (locs w)) -> fst p = g0).
  { apply (vandermonde e); [unfold w; rewrite weight_differ by exact L; exact Hd|apply filter_snd_nodup, locs_nodup; lia|].
    intros i Hi. rewrite gsum_filter, <- ev_locs. unfold w. rewrite ev_padd, Hu, Hv by assumption. ring. }
  assert (Z : differ gf_dec u v = 0).
  { rewrite <- weight_differ by exact L. fold w. destruct (filter nz (locs w)) as [|p l] eqn:E; [reflexivity|exfalso].
    assert (Hp : In p (filter nz (locs w))) by (rewrite E; left; reflexivity).
    pose proof (V p ltac:(left; reflexivity)) as F. apply filter_In in Hp. destruct Hp as [_ Hn]. unfold nz in Hn. rewrite F in Hn.
    destruct (gf_dec g0 g0); [discriminate|contradiction]. }
  clear -L Z. revert v L Z. induction u as [|a u IH]; intros [|b v] L Z; try discriminate; [reflexivity|].
  unfold differ in *. cbn [combine filter fst snd] in Z. destruct (gf_dec a b) as [->|]; [|discriminate]. f_equal. apply IH; [cbn in L; lia|exact Z].
Qed.

(** ** Reference decoder: the first word of the ball with zero syndromes *)
Definition all_gf : list GF := map (fun n => mk (N.of_nat n mod 256) (N.mod_lt _ 256 ltac:(discriminate))) (seq 0 256).
Lemma all_gf_in x : In x all_gf.
Proof.
  unfold all_gf. apply in_map_iff. exists (N.to_nat (gv x)). pose proof (gv_lt x). split.
  - apply gf_eq. cbn [gv mk proj1_sig]. rewrite N2Nat.id. apply N.mod_small. exact H.
  - apply in_seq. lia.
Qed.
Fixpoint ball (t : nat) (w : list GF) : list (list GF) :=
  match w with
  | [] => [[]]
  | c :: w => map (cons c) (ball t w) ++ match t with O => [] | S t => flat_map (fun b => map (cons b) (ball t w)) all_gf end
  end.
Lemma ball_sound w : forall t v, In v (ball t w) -> length v = length w /\ differ gf_dec w v <= t.
Proof.
  induction w as [|c w IH]; intros t v H; cbn [ball] in H.
  - destruct H as [<-|[]]. split; [reflexivity|cbn; lia].
  - apply in_app_or in H. destruct H as [H|H].
    + apply in_map_iff in H. destruct H as (v' & <- & H). destruct (IH _ _ H) as [A B]. split; [cbn; lia|].
      unfold differ in *. cbn [combine filter fst snd]. destruct (gf_dec c c); [exact B|contradiction].
    + destruct t as [|t]; [contradiction|]. apply in_flat_map in H. destruct H as (b & _ & H). apply in_map_iff in H.
      destruct H as (v' & <- & H). destruct (IH _ _ H) as [A B]. split; [cbn; lia|].
      unfold differ in *. cbn [combine filter fst snd]. destruct (gf_dec c b); cbn [length]; lia.
Qed.
Lemma ball_complete w : forall t v, length v = length w -> differ gf_dec w v <= t -> In v (ball t w).
Proof.
  induction w as [|c w IH]; intros t [|b v] L D; try discriminate; [left; reflexivity|]. cbn in L. cbn [ball].
  unfold differ in D. cbn [combine filter fst snd] in D. apply in_or_app. destruct (gf_dec c b) as [<-|N].
  - left. apply in_map. apply IH; [lia|exact D].
  - right. cbn [length] in D. destruct t as [|t]; [lia|]. apply in_flat_map. exists b. split; [apply all_gf_in|]. apply in_map. apply IH; [lia|unfold differ; lia].
Qed.
Definition clean (e : nat) (w : list GF) : bool := forallb (fun i => if gf_dec (ev (gpow alpha i) w) g0 then true else false) (seq 0 e).
Lemma clean_spec e w : clean e w = true <-> forall i, i < e -> ev (gpow alpha i) w = g0.
Proof.
  unfold clean. rewrite forallb_forall. split.
  - intros H i Hi. specialize (H i ltac:(apply in_seq; lia)). destruct (gf_dec _ _); [assumption|discriminate].
  - intros H i Hi. apply in_seq in Hi. rewrite H by lia. destruct (gf_dec g0 g0); [reflexivity|contradiction].
Qed.

Definition to_gf (b : N) : GF := mk (b mod 256) (N.mod_lt _ 256 ltac:(discriminate)).
Lemma gv_to_gf b : (b < 256)%N -> gv (to_gf b) = b.
Proof. intros H. apply N.mod_small. exact H. Qed.
Lemma to_gf_gv x : to_gf (gv x) = x.
Proof. apply gf_eq. apply gv_to_gf. apply gv_lt. Qed.

Definition ref_codec : Codec := {|
  rs_encode e data := map gv (rs_word e (map to_gf data));
  rs_correct e msg := match find (clean e) (ball (e / 2) (map to_gf msg)) with
                      | Some w => Some (map gv (firstn (length msg - e) w))
                      | None => None
                      end |}.

Lemma differ_triangle {A} d (r : list A) : forall u v, length u = length r -> length v = length r ->
  differ d u v <= differ d r u + differ d r v.
Proof.
  induction r as [|c r IH]; intros [|a u] [|b v] Lu Lv; try discriminate; [cbn; lia|]. cbn in Lu, Lv.
  specialize (IH u v ltac:(lia) ltac:(lia)). unfold differ in *. cbn [combine filter fst snd].
  destruct (d a b), (d c a), (d c b); cbn [length]; try lia. congruence.
Qed.
Lemma map_gv_to l : bytes l -> map gv (map to_gf l) = l.
Proof. intros H. rewrite map_map. rewrite <- (map_id l) at 2. apply map_ext_in. intros b Hb. apply gv_to_gf. apply H. exact Hb. Qed.
Lemma differ_to r (w : list GF) : bytes r -> length r = length w ->
  differ gf_dec (map to_gf r) w = differ N.eq_dec r (map gv w).
Proof.
  revert w. induction r as [|b r IH]; intros [|c w] Hb L; try discriminate; [reflexivity|]. cbn in L.
  specialize (IH w ltac:(intros x Hx; apply Hb; right; exact Hx) ltac:(lia)). unfold differ in *. cbn [map combine filter fst snd].
  assert (B : (b < 256)%N) by (apply Hb; left; reflexivity).
  destruct (gf_dec (to_gf b) c) as [E|E], (N.eq_dec b (gv c)) as [E'|E']; cbn [length]; try lia.
  - exfalso. apply E'. rewrite <- E. symmetry. apply gv_to_gf. exact B.
  - exfalso. apply E. rewrite E'. apply to_gf_gv.
Qed.

Theorem ref_codec_corrects e : corrects ref_codec e.
Proof.
  intros data Hb Hl. destruct (rs_word_spec e (map to_gf data)) as [Lp Hw]. cbn [ref_codec rs_encode rs_correct]. split.
  - exists (map gv (rs_parity e (map to_gf data))). unfold rs_word. rewrite map_app, map_gv_to by exact Hb. split; [reflexivity|].
    split; [rewrite map_length; exact Lp|]. intros b H. apply in_map_iff in H. destruct H as (x & <- & _). apply gv_lt.
  - intros r Hr Lr Hd. set (u := rs_word e (map to_gf data)) in *.
    assert (Lu : length u = length data + e) by (unfold u, rs_word; rewrite app_length, map_length, Lp; reflexivity).
    rewrite <- differ_to in Hd by (assumption || lia).
    assert (Iu : In u (ball (e / 2) (map to_gf r))).
    { apply ball_complete; [rewrite map_length; lia|]. apply Nat.div_le_lower_bound; lia. }
    destruct (find (clean e) (ball (e / 2) (map to_gf r))) as [v|] eqn:F.
    + apply find_some in F. destruct F as [Iv Cv]. destruct (ball_sound _ _ _ Iv) as [Lv Dv]. rewrite map_length in Lv.
      assert (E : v = u).
      { apply (rs_distance e); [lia|lia|apply clean_spec; exact Cv|exact Hw|].
        eapply Nat.le_trans; [apply (differ_triangle _ (map to_gf r)); rewrite map_length; lia|].
        assert (2 * (e / 2) <= e) by (apply Nat.mul_div_le; lia). lia. }
      rewrite E. unfold u, rs_word. rewrite Lr. replace (length data + e - e) with (length (map to_gf data)) by (rewrite map_length; lia).
      rewrite firstn_app, Nat.sub_diag, app_nil_r, firstn_all. rewrite map_gv_to by exact Hb. reflexivity.
    + exfalso. pose proof (find_none _ _ F u Iu) as Cn. assert (C : clean e u = true) by (apply clean_spec; exact Hw). congruence.
Qed.
