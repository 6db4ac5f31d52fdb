(** What the CDMA functions yield. *)
From Coq Require Import List Arith ZArith Bool Lia.
From Verif Require Import Base IterTheory IterModel IterProofs Spec Tab Num LibModel ChaosModel PskModel PskChain CdmaModel.
Import ListNotations.

Lemma mod_div_swap i k n : 1 <= n -> 1 <= k -> i mod (k * n) / n = (i / n) mod k.
Proof.
  intros Hn Hk. rewrite (Nat.mul_comm k n), Nat.mod_mul_r by lia.
  rewrite (Nat.mul_comm n), Nat.div_add by lia.
  rewrite Nat.div_small by (apply Nat.mod_upper_bound; lia). reflexivity.
Qed.

(** Chip i of a repeated key, n samples per chip. *)
Lemma key_stream (key : list bool) n : 1 <= n -> key <> [] ->
  streams (icycle (inflate n (of_list key))) (fun i => nth ((i / n) mod length key) key false).
Proof.
  intros Hn Hk. pose proof (inflate_yields n _ _ Hn (of_list_yields key)) as Y.
  assert (Hl : 1 <= length key) by (destruct key; [contradiction|cbn; lia]).
  rewrite (repeat_each_list n key false) in Y.
  assert (NE : tab (length key * n) (fun i => nth (i / n) key false) <> []).
  { intros E. apply (f_equal (@length bool)) in E. rewrite tab_length in E. cbn in E. nia. }
  pose proof (icycle_streams false _ _ Y NE) as S. rewrite tab_length in S.
  apply (streams_ext _ _ _ _ (fun i => eq_trans (tab_nth _ _ _ _ (Nat.mod_upper_bound i (length key * n) ltac:(nia)))
    (f_equal (fun x => nth x key false) (mod_div_swap i (length key) n Hn Hl))) S).
Qed.

Lemma key_cycle (key : list bool) : key <> [] ->
  streams (icycle (of_list key)) (fun i => nth (i mod length key) key false).
Proof. intros Hk. apply icycle_streams; [apply of_list_yields|exact Hk]. Qed.

(** ** Bit level *)

Lemma xor_key_yields (it : Iter bool) N g key : key <> [] -> yields it (tab N g) ->
  yields (imap (fun '(bit, k) => xorb bit k) (izip it (icycle (of_list key))))
         (tab N (fun i => xorb (g i) (nth (i mod length key) key false))).
Proof.
  intros Hk Y. pose proof (izip_stream_yields _ _ _ _ Y (key_cycle key Hk)) as Z. rewrite tab_zip in Z.
  pose proof (imap_yields (fun '(bit, k) => xorb bit k) _ _ Z) as W. rewrite tab_map in W. exact W.
Qed.

Lemma tx_baseband_cdma_yields (message : Iter bool) m key : key <> [] -> yields message m ->
  yields (tx_baseband_cdma message key)
    (tab (length m * length key) (fun i => xorb (nth (i / length key) m false) (nth (i mod length key) key false))).
Proof.
  intros Hk Hm. assert (Hl : 1 <= length key) by (destruct key; [contradiction|cbn; lia]).
  pose proof (inflate_yields (length key) _ _ Hl Hm) as Y. rewrite (repeat_each_list _ _ false) in Y.
  exact (xor_key_yields _ _ _ _ Hk Y).
Qed.

Definition trues (l : list bool) : nat := length (filter (fun b => b) l).

Lemma trueness l : forall a, fold_left Nat.add (map (fun bit : bool => if bit then 1 else 0) l) a = a + trues l.
Proof.
  induction l as [|b l IH]; intros a; unfold trues in *; cbn; [lia|]. rewrite IH. destruct b; cbn; lia.
Qed.

Lemma rx_baseband_cdma_yields (it : Iter bool) k g key : key <> [] -> yields it (tab (k * length key) g) ->
  yields (rx_baseband_cdma it key)
    (tab k (fun s => length key <?
       2 * trues (tab (length key) (fun j => xorb (g (s * length key + j)) (nth j key false))))).
Proof.
  intros Hk Y. assert (Hl : 1 <= length key) by (destruct key; [contradiction|cbn; lia]).
  pose proof (chunks_yields (length key) _ _ Hl (xor_key_yields _ _ _ _ Hk Y)) as Z.
  rewrite chunk_list_tab in Z by exact Hl.
  pose proof (imap_yields (fun data_bit : list bool =>
          let trueness := fold_left Nat.add (map (fun bit : bool => if bit then 1 else 0) data_bit) 0 in
          (length key <? trueness * 2)) _ _ Z) as W. rewrite tab_map in W.
  refine (eq_ind _ (fun x => yields _ x) W _ _). apply tab_ext. intros s _. cbv zeta.
  rewrite trueness, Nat.add_0_l, (Nat.mul_comm _ 2). f_equal. f_equal. f_equal. apply tab_ext. intros j Hj.
  rewrite block_mod by exact Hj. reflexivity.
Qed.

(** A zip with an iterator that has nothing ends at once. *)
Lemma icycle_nil {A} : yields (icycle (of_list (@nil A))) [].
Proof.
  apply (yields_dead (next (icycle (of_list (@nil A)))) (fun s => s = [])); [|reflexivity].
  intros s ->. exists []. auto.
Qed.
Lemma izip_streams_nil {A B} (a : Iter A) (b : Iter B) f : streams a f -> yields b [] -> yields (izip a b) [].
Proof.
  intros Ha Hb. apply (yields_dead (next (izip a b))
    (fun s => (exists f, streams_from (next a) (fst s) f) /\ yields_from (next b) (snd s) [])).
  - intros [s t] [[g Hg] Ht]. cbn in *. apply streams_inv in Hg. destruct Hg as [s' [E1 H1]].
    apply yields_nil_inv in Ht. destruct Ht as [t' [E2 H2]].
    exists (s', t'). unfold izip_next. rewrite E1. cbn. rewrite E2. cbn. split; [reflexivity|]. split; [|exact H2].
    eexists. exact H1.
  - split; [exists f; exact Ha|exact Hb].
Qed.

(** ** Passband *)
Section Pass.
Context {T : Type} `{Num T}.

Lemma chip_mul_yields n key (it : Iter T) N g : 1 <= n -> key <> [] -> yields it (tab N g) ->
  yields (chip_mul n key it) (tab N (fun i => nmul (g i) (bit_to_nrz (nth ((i / n) mod length key) key false)))).
Proof.
  intros Hn Hk Y. pose proof (izip_stream_yields _ _ _ _ Y (key_stream key n Hn Hk)) as Z. rewrite tab_zip in Z.
  pose proof (imap_yields (fun '(s_i, keybit) => nmul s_i (bit_to_nrz keybit)) _ _ Z) as W. rewrite tab_map in W. exact W.
Qed.

Lemma usize_div_inv a b n : usize_div a b = Ret n -> b <> 0 /\ n = a / b.
Proof. unfold usize_div. destruct (Nat.eqb_spec b 0); [discriminate|]. intros E. injection E as <-. auto. Qed.

(** What passing the checks means for the integers. *)
Lemma cdma_rates_inv sr sy (fc : T) key p : cdma_rates sr sy fc key = Ret p ->
  p = (sr / sy, sr / sy / length key) /\ 1 <= sy /\ key <> [] /\ 2 * (length key * sy) <= sr /\
  2 <= sr / sy / length key /\ nyquist_ok sr fc = true /\ is_int (ndiv (nofnat sr) (nofnat sy)) = true.
Proof.
  unfold cdma_rates, usize_mul, assert_then. intros E.
  destruct (Z.of_nat (length key) * Z.of_nat sy <? two64)%Z; [|discriminate]. cbn [bind] in E.
  destruct (Nat.leb_spec (length key * sy) (sr / 2)) as [L|]; [|discriminate].
  destruct (nyquist_ok sr fc); [|discriminate]. destruct (is_int (ndiv (nofnat sr) (nofnat sy))); [|discriminate].
  destruct (is_int _); [|discriminate].
  destruct (usize_div sr sy) as [n| |] eqn:D1; try discriminate. apply usize_div_inv in D1. destruct D1 as [Hy ->]. cbn [bind] in E.
  destruct (usize_div (sr / sy) (length key)) as [n| |] eqn:D2; try discriminate. apply usize_div_inv in D2. destruct D2 as [Hk ->]. cbn [bind] in E.
  injection E as <-.
  assert (L2 : 2 * (length key * sy) <= sr) by (pose proof (Nat.mul_div_le sr 2); lia).
  repeat split; try lia.
  - intros ->. apply Hk. reflexivity.
  - apply Nat.div_le_lower_bound; [exact Hk|]. apply Nat.div_le_lower_bound; [exact Hy|]. nia.
Qed.

End Pass.
