(** Properties C01-C10: the iterator adapters of src/iter.  The vocabulary: [yields it l] means the
    calls of [next] return exactly the items of [l] and then [None] for ever; [streams it f] means
    call i returns [Some (f i)] and the iterator never ends (Base.v). *)
From Coq Require Import List Arith Lia ZArith.
From Verif Require Import Base IterTheory IterModel IterProofs Spec.
Import ListNotations.

(** C01 *)
Theorem C01_inflate_repeats_each_item :
  forall (A : Type) (copies : nat) (it : Iter A) (l : list A),
    1 <= copies -> yields it l ->
    yields (inflate copies it) (flat_map (fun a => repeat a copies) l).
Proof. exact (@inflate_yields). Qed.

(** C01, endless sources: output i is source item i / copies. *)
Theorem C01_inflate_endless_source :
  forall (A : Type) (copies : nat) (it : Iter A) (f : nat -> A),
    1 <= copies -> streams it f -> streams (inflate copies it) (fun i => f (i / copies)).
Proof. exact (@inflate_streams). Qed.

Example C01_case : 1 <= 3 /\ yields (of_list [true; false]) [true; false].
Proof. split; [lia|apply of_list_yields]. Qed.

(** C02: the documented equivalence with [flat_map(repeat(x).take(copies))] fails for zero copies. *)
Theorem C02_inflate_zero_never_ends :
  forall (A : Type) (it : Iter A) (a : A) (l : list A),
    yields it (a :: l) -> streams (inflate 0 it) (fun _ => a).
Proof. exact (@inflate0_streams). Qed.

Theorem C02_inflate_zero_empty_source :
  forall (A : Type) (it : Iter A), yields it [] -> yields (inflate 0 it) [].
Proof. exact (@inflate0_empty). Qed.

Theorem C02_documented_equivalence_refuted :
  exists (A : Type) (it : Iter A) (l : list A),
    yields it l /\ ~ yields (inflate 0 it) (flat_map (fun a => repeat a 0) l).
Proof.
  exists nat, (of_list [7]), [7]. split; [apply of_list_yields|]. intros H.
  pose proof (inflate0_streams (of_list [7]) 7 [] (of_list_yields _)) as H2.
  pose proof (behaves_from_det _ _ _ _ H H2 0). discriminate.
Qed.

Example C02_case : yields (of_list [7; 8]) (7 :: [8]).
Proof. apply of_list_yields. Qed.

(** C03 *)
Theorem C03_chunks_partition :
  forall (A : Type) (n : nat) (it : Iter A) (l : list A),
    1 <= n -> yields it l ->
    exists cs : list (list A),
      yields (chunks n it) cs /\
      concat cs = l /\
      (forall c, In c cs -> c <> [] /\ length c <= n) /\
      (forall i c, S i < length cs -> nth_error cs i = Some c -> length c = n).
Proof.
  intros A n it l Hn Hy. exists (chunk_list n l). split; [apply chunks_yields; assumption|].
  pose proof (ceil_div_spec (length l) n Hn) as Hc. split; [|split].
  - unfold chunk_list. rewrite concat_blocks. apply firstn_all2. lia.
  - intros c Hin. unfold chunk_list in Hin. apply in_map_iff in Hin. destruct Hin as [i [<- Hi]].
    apply in_seq in Hi. pose proof (block_length n i l) as HL.
    assert (i * n < length l) by nia.
    split; [intros E; rewrite E in HL; cbn in HL; lia|lia].
  - intros i c Hi E. unfold chunk_list in *. rewrite map_length, seq_length in Hi.
    rewrite nth_error_map in E.
    assert (Hs : nth_error (seq 0 (ceil_div (length l) n)) i = Some i).
    { rewrite (nth_error_nth' _ 0) by (rewrite seq_length; lia). rewrite seq_nth by lia. reflexivity. }
    rewrite Hs in E. cbn in E. injection E as <-. rewrite block_length. nia.
Qed.

Theorem C03_chunks_zero_loses_everything :
  forall (A : Type) (it : Iter A), yields (chunks 0 it) [].
Proof. exact (@chunks0). Qed.

Example C03_case : 1 <= 2 /\ yields (of_list [1; 2; 3]) [1; 2; 3] /\ chunk_list 2 [1; 2; 3] = [[1; 2]; [3]].
Proof. repeat split; try lia. apply of_list_yields. Qed.

(** C04: [d] is the item type's default value. *)
Theorem C04_wchunks_pads :
  forall (A : Type) (d : A) (n : nat) (it : Iter A) (l : list A),
    1 <= n -> yields it l ->
    exists cs : list (list A),
      yields (wchunks d n it) cs /\
      (forall c, In c cs -> length c = n) /\
      length cs = length l / n + 1 /\
      concat cs = l ++ repeat d (n - length l mod n).
Proof.
  intros A d n it l Hn Hy. exists (wchunk_list d n l). split; [apply wchunks_yields; assumption|].
  split; [|split].
  - intros c Hin. unfold wchunk_list in Hin. apply in_map_iff in Hin. destruct Hin as [i [<- Hi]].
    rewrite app_length, repeat_length, block_length. lia.
  - unfold wchunk_list. rewrite map_length, seq_length. reflexivity.
  - clear Hy it. remember (length l / n) as q eqn:Eq. revert l Eq. induction q as [|q IH]; intros l Eq.
    + rewrite wchunk_list_step by lia.
      assert (Hlt : length l < n) by (apply Nat.div_small_iff; lia).
      destruct (Nat.ltb_spec (length l) n); [|lia]. cbn. rewrite app_nil_r, firstn_all2 by lia.
      rewrite Nat.mod_small by lia. reflexivity.
    + rewrite wchunk_list_step by lia.
      assert (Hge : n <= length l).
      { destruct (Nat.le_gt_cases n (length l)); [assumption|]. rewrite Nat.div_small in Eq by lia. discriminate. }
      destruct (Nat.ltb_spec (length l) n); [lia|]. cbn [concat].
      replace (n - length l) with 0 by lia. cbn [repeat]. rewrite app_nil_r.
      rewrite IH.
      * rewrite app_assoc, firstn_skipn. rewrite skipn_length. do 3 f_equal.
        replace (length l) with ((length l - n) + 1 * n) at 2 by lia. rewrite Nat.mod_add by lia. reflexivity.
      * rewrite skipn_length.
        replace (length l) with ((length l - n) + 1 * n) in Eq by lia. rewrite Nat.div_add in Eq by lia. lia.
Qed.

Example C04_case : 1 <= 2 /\ yields (of_list [5; 6]) [5; 6] /\ wchunk_list 0 2 [5; 6] = [[5; 6]; [0; 0]].
Proof. repeat split; try lia. apply of_list_yields. Qed.

(** C05: item i of the output is item i * frequency of the source (and the output ends when there is none). *)
Theorem C05_take_every_decimates :
  forall (A : Type) (frequency : nat) (it : Iter A) (l : list A),
    1 <= frequency -> yields it l ->
    exists out, yields (take_every frequency it) out /\
                forall i, nth_error out i = nth_error l (i * frequency).
Proof.
  intros A f it l Hf Hy. exists (decim f 0 l). split; [apply take_every_yields; assumption|].
  intros i. apply decim_nth. exact Hf.
Qed.

Theorem C05_take_every_zero_panics :
  forall (A : Type) (it : Iter A), panics_after (take_every 0 it) [].
Proof. exact (@take_every0). Qed.

Example C05_case : 1 <= 2 /\ yields (of_list [1; 2; 3; 4]) [1; 2; 3; 4].
Proof. split; [lia|apply of_list_yields]. Qed.

(** C06: [d] is the default value, [add] the addition, of which no law is assumed. *)
Theorem C06_integrate_running_sums :
  forall (A : Type) (d : A) (add : A -> A -> A) (it : Iter A) (l : list A),
    yields it l ->
    exists out, yields (integrate d add it) out /\ length out = length l /\
      forall i, i < length l -> nth_error out i = Some (fold_left add (firstn (S i) l) d).
Proof.
  intros A d add it l Hy. exists (scan add d l). split; [apply integrate_yields; assumption|].
  split; [apply scan_length|]. intros i Hi. rewrite scan_nth.
  destruct (Nat.ltb_spec i (length l)); [reflexivity|lia].
Qed.

Theorem C06_nintegrate_lanewise :
  forall (A : Type) (N : nat) (d : A) (add : A -> A -> A) (it : Iter (list A)) (rows : list (list A)),
    yields it rows -> (forall r, In r rows -> length r = N) ->
    exists out, yields (nintegrate N d add it) out /\ length out = length rows /\
      forall i j, i < length rows -> j < N ->
        nth j (nth i out []) d = fold_left add (map (fun r => nth j r d) (firstn (S i) rows)) d.
Proof.
  intros A N d add it rows Hy HN. exists (scan (lanes_add add) (repeat d N) rows).
  split; [apply integrate_yields; assumption|]. split; [apply scan_length|].
  intros i j Hi Hj.
  pose proof (scan_nth (lanes_add add) rows (repeat d N) i) as E.
  destruct (Nat.ltb_spec i (length rows)); [|lia].
  rewrite (nth_error_nth _ _ [] E).
  rewrite (fold_lanes_nth add d N); auto using repeat_length.
  - rewrite nth_repeat_lt by exact Hj. reflexivity.
  - apply Forall_firstn'. apply Forall_forall. exact HN.
Qed.

Example C06_case : yields (of_list [[1; 2]; [3; 4]]) [[1; 2]; [3; 4]] /\
  (forall r, In r [[1; 2]; [3; 4]] -> length r = 2).
Proof. split; [apply of_list_yields|]. intros r [<-|[<-|[]]]; reflexivity. Qed.

(** C07 *)
Theorem C07_integrate_and_dump_blocks :
  forall (A : Type) (d : A) (add : A -> A -> A) (n : nat) (it : Iter A) (l : list A),
    1 <= n -> yields it l ->
    exists out, yields (integrate_and_dump d add n it) out /\ length out = length l / n /\
      forall i, i < length l / n ->
        nth_error out i = Some (fold_left add (firstn n (skipn (i * n) l)) d).
Proof.
  intros A d add n it l Hn Hy. exists (dump_list d add n l).
  split; [apply integrate_and_dump_yields; assumption|]. unfold dump_list.
  split; [rewrite map_length, seq_length; reflexivity|]. intros i Hi.
  rewrite nth_error_map, (nth_error_nth' _ 0) by (rewrite seq_length; exact Hi).
  rewrite seq_nth by exact Hi. reflexivity.
Qed.

Theorem C07_nintegrate_and_dump_blocks :
  forall (A : Type) (N : nat) (d : A) (add : A -> A -> A) (n : nat) (it : Iter (list A)) (rows : list (list A)),
    1 <= n -> yields it rows -> (forall r, In r rows -> length r = N) ->
    exists out, yields (nintegrate_and_dump N d add n it) out /\ length out = length rows / n /\
      forall i j, i < length rows / n -> j < N ->
        nth j (nth i out []) d =
        fold_left add (map (fun r => nth j r d) (firstn n (skipn (i * n) rows))) d.
Proof.
  intros A N d add n it rows Hn Hy HN.
  destruct (C07_integrate_and_dump_blocks (list A) (repeat d N) (lanes_add add) n it rows Hn Hy)
    as [out [H1 [H2 H3]]].
  exists out. split; [exact H1|]. split; [exact H2|]. intros i j Hi Hj.
  rewrite (nth_error_nth _ _ [] (H3 i Hi)).
  rewrite (fold_lanes_nth add d N); auto using repeat_length.
  - rewrite nth_repeat_lt by exact Hj. reflexivity.
  - apply Forall_firstn', Forall_skipn', Forall_forall. exact HN.
Qed.

Theorem C07_dump_zero_endless :
  forall (A : Type) (d : A) (add : A -> A -> A) (it : Iter A),
    streams (integrate_and_dump d add 0 it) (fun _ => d).
Proof. exact (@integrate_and_dump0). Qed.

Theorem C07_ndump_zero_endless :
  forall (A : Type) (N : nat) (d : A) (add : A -> A -> A) (it : Iter (list A)),
    streams (nintegrate_and_dump N d add 0 it) (fun _ => repeat d N).
Proof. intros A N d add it. apply integrate_and_dump0. Qed.

Example C07_case : 1 <= 2 /\ yields (of_list [1; 2; 3; 4; 5]) [1; 2; 3; 4; 5] /\
  dump_list 0 Nat.add 2 [1; 2; 3; 4; 5] = [3; 7].
Proof. repeat split; try lia. apply of_list_yields. Qed.

(** C08.  Equal taps and at least as many samples as taps: the textbook linear convolution
    ([lin_conv], Spec.v), even for additions without any law. *)
Theorem C08_convolve_equal_taps :
  forall (A B C : Type) (zero : C) (add : C -> C -> C) (mul : A -> B -> C) (tap : B) (L : nat)
         (it : Iter A) (x : list A),
    1 <= L -> L <= length x -> yields it x ->
    yields (convolve zero add mul (repeat tap L) it) (lin_conv zero add mul x (repeat tap L)) /\
    length (lin_conv zero add mul x (repeat tap L)) = length x + L - 1.
Proof.
  intros A B C zero add mul tap L it x HL Hn Hy. split.
  - rewrite <- convolve_constant by assumption. apply convolve_yields. exact Hy.
  - unfold lin_conv. rewrite map_length, seq_length, repeat_length. reflexivity.
Qed.

(** For every filter: the number of outputs. *)
Theorem C08_convolve_count :
  forall (A B C : Type) (zero : C) (add : C -> C -> C) (mul : A -> B -> C) (h : list B)
         (it : Iter A) (x : list A),
    yields it x ->
    exists out, yields (convolve zero add mul h it) out /\
      length out = length x + (Nat.min (length x) (length h) - 1).
Proof.
  intros. eexists. split; [apply convolve_yields; eassumption|]. apply conv_run_length.
Qed.

(** For every filter: output i, while input is arriving, is the sum of x[i-k] * h[L-1-k]. *)
Theorem C08_convolve_response :
  forall (A B C : Type) (zero : C) (add : C -> C -> C) (mul : A -> B -> C) (h : list B)
         (it : Iter A) (x : list A) (da : A) (db : B),
    yields it x ->
    exists out, yields (convolve zero add mul h it) out /\
      forall i, i < length x ->
        nth_error out i =
        Some (fold_left add
               (map (fun k => mul (nth (i - k) x da) (nth (length h - 1 - k) h db))
                    (seq 0 (Nat.min (S i) (length h)))) zero).
Proof.
  intros A B C zero add mul h it x da db Hy.
  eexists. split; [apply convolve_yields; eassumption|]. intros i Hi.
  rewrite conv_response, nth_error_app1 by (rewrite map_length, seq_length; exact Hi).
  rewrite nth_error_map, (nth_error_nth' _ 0) by (rewrite seq_length; exact Hi).
  rewrite seq_nth by exact Hi. cbn [option_map Nat.add]. do 2 f_equal.
  unfold corr_terms. rewrite flat_map_concat_map.
  rewrite (map_ext_in _ (fun k => [mul (nth (i - k) x da) (nth (length h - 1 - k) h db)])).
  - clear. induction (seq 0 (Nat.min (S i) (length h))) as [|a l IH]; [reflexivity|]. cbn. f_equal. exact IH.
  - intros k Hk. apply in_seq in Hk.
    rewrite (nth_error_nth' x da) by lia. rewrite (nth_error_nth' h db) by lia. reflexivity.
Qed.

(** For a filter that is its own mirror image the outputs made while input is arriving are right. *)
Theorem C08_convolve_symmetric_filter :
  forall (A B C : Type) (zero : C) (add : C -> C -> C) (mul : A -> B -> C) (h : list B)
         (it : Iter A) (x : list A),
    rev h = h -> yields it x ->
    exists out, yields (convolve zero add mul h it) out /\
      forall i, i < length x -> nth_error out i = Some (lin_conv_at zero add mul x h i).
Proof.
  intros A B C zero add mul h it x Hp Hy.
  eexists. split; [apply convolve_yields; eassumption|]. intros i Hi.
  rewrite conv_response, nth_error_app1 by (rewrite map_length, seq_length; exact Hi).
  rewrite nth_error_map, (nth_error_nth' _ 0) by (rewrite seq_length; exact Hi).
  rewrite seq_nth by exact Hi. cbn [option_map Nat.add]. f_equal. unfold lin_conv_at. f_equal.
  apply corr_lin_conv; assumption.
Qed.

(** It is not linear convolution in general (even on integers, even with n >= L). *)
Theorem C08_linear_convolution_refuted :
  exists (h x : list Z), length h <= length x /\
    ~ yields (convolve 0%Z Z.add Z.mul h (of_list x)) (lin_conv 0%Z Z.add Z.mul x h).
Proof.
  exists [1; 2]%Z, [1; 0]%Z. split; [cbn; lia|]. intros H.
  pose proof (yields_det _ _ _ H (convolve_yields _ _ _ _ _ _ (of_list_yields _))) as E.
  vm_compute in E. discriminate.
Qed.

Example C08_case : 1 <= 2 /\ 2 <= length [1; 2; 3]%Z /\ yields (of_list [1; 2; 3]%Z) [1; 2; 3]%Z /\
  lin_conv 0%Z Z.add Z.mul [1; 2; 3]%Z (repeat 1%Z 2) = [1; 3; 5; 3]%Z /\ rev [1; 2; 1]%Z = [1; 2; 1]%Z.
Proof. repeat split; try (cbn; lia). apply of_list_yields. Qed.

(** C09: lane j of what nonvolve yields is what convolve yields on lane j of the source. *)
Theorem C09_nonvolve_lanewise :
  forall (A B : Type) (N : nat) (zero : A) (add : A -> A -> A) (mul : A -> B -> A) (h : list B)
         (it : Iter (list A)) (rows : list (list A)) (d : A),
    yields it rows -> (forall r, In r rows -> length r = N) ->
    exists out, yields (nonvolve N zero add mul h it) out /\
      (forall r, In r out -> length r = N) /\
      forall j, j < N ->
        yields (convolve zero add mul h (imap (fun r => nth j r d) it)) (map (fun r => nth j r d) out).
Proof.
  intros A B N zero add mul h it rows d Hy HN.
  eexists. split; [apply convolve_yields; eassumption|].
  destruct (conv_run_rows zero add mul N h rows [] (Forall_nil _)) as [H1 H2];
    [apply Forall_forall; exact HN|].
  split; [apply Forall_forall; exact H1|]. intros j Hj.
  change (fun r => nth j r d) with (lane d j) at 2.
  pose proof (H2 d j Hj) as E. cbn zeta in E. rewrite E.
  apply convolve_yields. apply imap_yields. exact Hy.
Qed.

Example C09_case : yields (of_list [[1; 2]; [3; 4]]) [[1; 2]; [3; 4]] /\
  (forall r, In r [[1; 2]; [3; 4]] -> length r = 2).
Proof. exact C06_case. Qed.

(** C10: [causal F] (IterProofs.v): whenever a source yields l and another yields l followed by more,
    the output on the second is the output on the first followed by more. *)
Theorem C10_causal :
  forall (A : Type),
    (forall copies, 1 <= copies -> causal (@inflate A copies)) /\
    (forall d add, causal (@integrate A d add)) /\
    (forall d add n, 1 <= n -> causal (@integrate_and_dump A d add n)) /\
    (forall n, 1 <= n -> causal (@take_every A n)) /\
    (forall (B : Type) (mul : A -> B -> A) scalar, causal (@scale A B mul scalar)).
Proof.
  intros A. repeat split; intros.
  - eapply causal_of_list_fun; [intros; apply inflate_yields; eassumption|].
    intros l more. rewrite repeat_each_app. eauto.
  - eapply causal_of_list_fun; [intros; apply integrate_yields; eassumption|].
    intros l more. rewrite scan_app. eauto.
  - eapply causal_of_list_fun; [intros; apply integrate_and_dump_yields; eassumption|].
    intros l more. apply dump_list_app. assumption.
  - eapply causal_of_list_fun; [intros; apply take_every_yields; eassumption|].
    intros l more. apply decim_app. assumption.
  - eapply causal_of_list_fun; [intros; apply imap_yields; eassumption|].
    intros l more. rewrite map_app. eauto.
Qed.

(** Adapters that end with the end of the source are not causal: an incomplete chunk is padded or cut. *)
Theorem C10_wchunks_not_causal : ~ causal (@wchunks nat 0 2).
Proof.
  intros H. destruct (H (of_list [1]) (of_list [1; 2]) [1] [2]) as [out [rest [H1 H2]]];
    try apply of_list_yields.
  pose proof (yields_det _ _ _ H1 (wchunks_yields 0 2 _ _ ltac:(lia) (of_list_yields [1]))) as E1.
  pose proof (yields_det _ _ _ H2 (wchunks_yields 0 2 _ _ ltac:(lia) (of_list_yields [1; 2]))) as E2.
  subst out. discriminate.
Qed.

Example C10_case : yields (of_list [1]) [1] /\ yields (of_list [1; 2]) ([1] ++ [2]).
Proof. split; apply of_list_yields. Qed.

Print Assumptions C01_inflate_repeats_each_item.
Print Assumptions C01_inflate_endless_source.
Print Assumptions C02_inflate_zero_never_ends.
Print Assumptions C02_documented_equivalence_refuted.
Print Assumptions C03_chunks_partition.
Print Assumptions C04_wchunks_pads.
Print Assumptions C05_take_every_decimates.
Print Assumptions C06_integrate_running_sums.
Print Assumptions C06_nintegrate_lanewise.
Print Assumptions C07_integrate_and_dump_blocks.
Print Assumptions C07_nintegrate_and_dump_blocks.
Print Assumptions C08_convolve_equal_taps.
Print Assumptions C08_convolve_response.
Print Assumptions C08_convolve_symmetric_filter.
Print Assumptions C08_linear_convolution_refuted.
Print Assumptions C09_nonvolve_lanewise.
Print Assumptions C10_causal.
