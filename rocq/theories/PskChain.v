(** What the BPSK and QPSK transmitters and receivers yield, over any arithmetic. *)
From Coq Require Import List Arith ZArith Bool Lia.
From Verif Require Import Base IterTheory IterModel IterProofs Spec Tab Num LibModel ChaosModel PskModel.
Import ListNotations.

Section Chain.
Context {T : Type} `{Num T}.
Variables (sr : nat) (fc : T).

(** The carrier samples. *)
Definition phase_at (i : nat) : T := nmul (nmul (nmul (nofZ 2) npi) fc) (ndiv (nofnat i) (nofnat sr)).
Definition ccos (i : nat) : T := ncos (phase_at i).
Definition csin (i : nat) : T := nsin (phase_at i).

(** The sum a receiver accumulates over symbol k of n samples. *)
Definition corr (n k : nat) (g : nat -> T) : T :=
  fold_left nadd (tab n (fun j => g (k * n + j))) (nofZ 0).

Definition bpsk_wave (n : nat) (m : list bool) : list T :=
  tab (length m * n) (fun i => nmul (bit_to_nrz (nth (i / n) m false)) (ccos i)).

Lemma repeat_each_list {A} n (l : list A) d : repeat_each n l = tab (length l * n) (fun i => nth (i / n) l d).
Proof. rewrite <- (tab_nth_id l d) at 1. rewrite repeat_each_tab. reflexivity. Qed.

Lemma div_lt_len i k n : i < k * n -> i / n < k.
Proof. intros H1. destruct n; [lia|]. apply Nat.div_lt_upper_bound; lia. Qed.

Lemma tx_bpsk_yields (message : Iter bool) m n :
  1 <= n -> yields message m ->
  yields (imap (fun '(idx, msg_val) =>
                let time := ndiv (nofnat idx) (nofnat sr) in
                nmul msg_val (ncos (nmul (nmul (nmul (nofZ 2) npi) fc) time)))
             (ienum (inflate n (imap bit_to_nrz message)))) (bpsk_wave n m).
Proof.
  intros Hn Hm.
  pose proof (imap_yields (fun '(idx, msg_val) =>
                let time := ndiv (nofnat idx) (nofnat sr) in
                nmul msg_val (ncos (nmul (nmul (nmul (nofZ 2) npi) fc) time))) _ _
    (ienum_yields _ _ (inflate_yields n _ _ Hn (imap_yields bit_to_nrz _ _ Hm)))) as Y.
  rewrite (repeat_each_list _ _ (bit_to_nrz false)), tab_index, tab_map, map_length in Y.
  replace (bpsk_wave n m) with
    (tab (length m * n) (fun i => nmul (nth (i / n) (map bit_to_nrz m) (bit_to_nrz false)) (ccos i))); [exact Y|].
  apply tab_ext. intros i Hi. rewrite map_nth. reflexivity.
Qed.

Lemma rx_bpsk_yields (signal : Iter T) k g n :
  1 <= n -> yields signal (tab (k * n) g) ->
  yields (imap (fun thresh_val => nltb (nofZ 0) thresh_val)
         (integrate_and_dump (nofZ 0) nadd n
            (imap (fun '(idx, sample) =>
                     let time := ndiv (nofnat idx) (nofnat sr) in
                     nmul sample (ncos (nmul (nmul (nmul (nofZ 2) npi) fc) time)))
                  (ienum signal))))
    (tab k (fun s => nltb (nofZ 0) (corr n s (fun i => nmul (g i) (ccos i))))).
Proof.
  intros Hn Hs. pose proof (ienum_yields _ _ Hs) as Y. rewrite tab_index in Y.
  pose proof (imap_yields (fun '(idx, sample) =>
                     let time := ndiv (nofnat idx) (nofnat sr) in
                     nmul sample (ncos (nmul (nmul (nmul (nofZ 2) npi) fc) time))) _ _ Y) as Y2.
  rewrite tab_map in Y2.
  pose proof (imap_yields (fun t => nltb (nofZ 0) t) _ _ (integrate_and_dump_yields (nofZ 0) nadd n _ _ Hn Y2)) as Y3.
  rewrite dump_list_tab, tab_map in Y3 by exact Hn. exact Y3.
Qed.

(** Any signal, whole number of symbols or not: the incomplete last symbol is dropped. *)
Lemma rx_bpsk_any (signal : Iter T) l n d :
  1 <= n -> yields signal l ->
  yields (imap (fun thresh_val => nltb (nofZ 0) thresh_val)
         (integrate_and_dump (nofZ 0) nadd n
            (imap (fun '(idx, sample) =>
                     let time := ndiv (nofnat idx) (nofnat sr) in
                     nmul sample (ncos (nmul (nmul (nmul (nofZ 2) npi) fc) time)))
                  (ienum signal))))
    (tab (length l / n) (fun s => nltb (nofZ 0) (corr n s (fun i => nmul (nth i l d) (ccos i))))).
Proof.
  intros Hn Hs. pose proof (ienum_yields _ _ Hs) as Y. rewrite <- (tab_nth_id l d), tab_index in Y.
  pose proof (imap_yields (fun '(idx, sample) =>
                     let time := ndiv (nofnat idx) (nofnat sr) in
                     nmul sample (ncos (nmul (nmul (nmul (nofZ 2) npi) fc) time))) _ _ Y) as Y2.
  rewrite tab_map in Y2.
  pose proof (imap_yields (fun t => nltb (nofZ 0) t) _ _ (integrate_and_dump_yields (nofZ 0) nadd n _ _ Hn Y2)) as Y3.
  unfold dump_list in Y3. rewrite tab_length, map_map in Y3.
  refine (eq_ind _ (fun x => yields _ x) Y3 _ _).
  apply tab_ext. intros k Hk. f_equal. unfold corr. f_equal.
  unfold block. rewrite skipn_tab, firstn_tab. apply tab_eq; [|reflexivity].
  pose proof (Nat.mul_div_le (length l) n). nia.
Qed.

Lemma corr_ext n k g h : (forall j, j < n -> g (k * n + j) = h (k * n + j)) -> corr n k g = corr n k h.
Proof. intros E. unfold corr. f_equal. apply tab_ext. exact E. Qed.

Lemma tab_nth_eq {A} (l : list A) (f : nat -> A) : (forall i a, nth_error l i = Some a -> f i = a) -> tab (length l) f = l.
Proof.
  intros E. apply nth_error_inj. intros i. rewrite tab_nth_error.
  destruct (Nat.ltb_spec i (length l)) as [L|L].
  - destruct (nth_error l i) as [a|] eqn:N; [|apply nth_error_None in N; lia]. f_equal. apply E. exact N.
  - symmetry. apply nth_error_None. exact L.
Qed.

Lemma block_div n k j : j < n -> (k * n + j) / n = k.
Proof. intros L. rewrite Nat.div_add_l by lia. rewrite Nat.div_small by exact L. lia. Qed.
Lemma block_mod n k j : j < n -> (k * n + j) mod n = j.
Proof. intros L. rewrite Nat.add_comm, Nat.mod_add by lia. apply Nat.mod_small. exact L. Qed.

(** ** QPSK *)

Definition qpsk_wave (n : nat) (ps : list (bool * bool)) : list T :=
  tab (length ps * n) (fun i =>
    let '(b1, b2) := nth (i / n) ps (false, false) in
    nadd (nmul (bit_to_nrz b1) (ccos i)) (nmul (nopp (bit_to_nrz b2)) (csin i))).

Lemma tx_qpsk_yields (message : Iter bool) m n :
  1 <= n -> yields message m ->
  yields (imap (fun '(idx, (bit1, bit2)) =>
               let time := ndiv (nofnat idx) (nofnat sr) in
               let i_t := nmul (bit_to_nrz bit1) (ncos (nmul (nmul (nmul (nofZ 2) npi) fc) time)) in
               let q_t := nmul (nopp (bit_to_nrz bit2)) (nsin (nmul (nmul (nmul (nofZ 2) npi) fc) time)) in
               nadd i_t q_t)
            (ienum (inflate n (ituples message)))) (qpsk_wave n (pairs m)).
Proof.
  intros Hn Hm.
  pose proof (imap_yields (fun '(idx, (bit1, bit2)) =>
               let time := ndiv (nofnat idx) (nofnat sr) in
               let i_t := nmul (bit_to_nrz bit1) (ncos (nmul (nmul (nmul (nofZ 2) npi) fc) time)) in
               let q_t := nmul (nopp (bit_to_nrz bit2)) (nsin (nmul (nmul (nmul (nofZ 2) npi) fc) time)) in
               nadd i_t q_t) _ _
    (ienum_yields _ _ (inflate_yields n _ _ Hn (ituples_yields _ _ Hm)))) as Y.
  rewrite (repeat_each_list _ _ (false, false)), tab_index, tab_map in Y. exact Y.
Qed.

Lemma rx_qpsk_yields (signal : Iter T) k g n :
  1 <= n -> yields signal (tab (k * n) g) ->
  yields (iflat_map tt
         (pure_fn (fun row => match row with
                              | [val1; val2] => [nleb (nofZ 0) val1; nleb (nofZ 0) val2]
                              | _ => []
                              end))
         (nintegrate_and_dump 2 (nofZ 0) nadd n
            (imap (fun '(idx, sample) =>
                     let time := ndiv (nofnat idx) (nofnat sr) in
                     let ii := nmul sample (ncos (nmul (nmul (nmul (nofZ 2) npi) fc) time)) in
                     let qi := nmul sample (nopp (nsin (nmul (nmul (nmul (nofZ 2) npi) fc) time))) in
                     [ii; qi])
                  (ienum signal))))
    (flat_map (fun s => [nleb (nofZ 0) (corr n s (fun i => nmul (g i) (ccos i)));
                         nleb (nofZ 0) (corr n s (fun i => nmul (g i) (nopp (csin i))))]) (seq 0 k)).
Proof.
  intros Hn Hs. pose proof (ienum_yields _ _ Hs) as Y. rewrite tab_index in Y.
  pose proof (imap_yields (fun '(idx, sample) =>
                     let time := ndiv (nofnat idx) (nofnat sr) in
                     let ii := nmul sample (ncos (nmul (nmul (nmul (nofZ 2) npi) fc) time)) in
                     let qi := nmul sample (nopp (nsin (nmul (nmul (nmul (nofZ 2) npi) fc) time))) in
                     [ii; qi]) _ _ Y) as Y2.
  rewrite tab_map in Y2. cbv zeta in Y2.
  pose proof (integrate_and_dump_yields (repeat (nofZ 0) 2) (lanes_add nadd) n _ _ Hn Y2) as Y3.
  rewrite dump_list_tab in Y3 by exact Hn.
  assert (E : forall s, fold_left (lanes_add nadd)
      (tab n (fun j => [nmul (g (s * n + j)) (ccos (s * n + j)); nmul (g (s * n + j)) (nopp (csin (s * n + j)))]))
      (repeat (nofZ 0) 2) = [corr n s (fun i => nmul (g i) (ccos i)); corr n s (fun i => nmul (g i) (nopp (csin i)))]).
  { intros s. unfold corr, tab. cbn [repeat].
    enough (G : forall (f1 f2 : nat -> T) l a b, fold_left (lanes_add nadd) (map (fun j => [f1 j; f2 j]) l) [a; b] =
                [fold_left nadd (map f1 l) a; fold_left nadd (map f2 l) b]) by apply G.
    intros f1 f2. induction l as [|j l IH]; intros a b; [reflexivity|]. cbn [map fold_left lanes_add]. apply IH. }
  assert (Y4 : yields (nintegrate_and_dump 2 (nofZ 0) nadd n
            (imap (fun '(idx, sample) =>
                     let time := ndiv (nofnat idx) (nofnat sr) in
                     let ii := nmul sample (ncos (nmul (nmul (nmul (nofZ 2) npi) fc) time)) in
                     let qi := nmul sample (nopp (nsin (nmul (nmul (nmul (nofZ 2) npi) fc) time))) in
                     [ii; qi])
                  (ienum signal)))
     (tab k (fun s => [corr n s (fun i => nmul (g i) (ccos i)); corr n s (fun i => nmul (g i) (nopp (csin i)))]))).
  { refine (eq_ind _ (fun x => yields _ x) Y3 _ _). apply tab_ext. intros s _. apply E. }
  pose proof (iflat_pure_yields (fun row => match row with
                              | [val1; val2] => [nleb (nofZ 0) val1; nleb (nofZ 0) val2]
                              | _ => []
                              end) _ _ Y4) as Y5.
  refine (eq_ind _ (fun x => yields _ x) (Y5 _) _ _).
  - intros a Ha. unfold tab in Ha. apply in_map_iff in Ha. destruct Ha as (s & <- & _). discriminate.
  - unfold tab. rewrite flat_map_map. reflexivity.
Qed.

End Chain.
