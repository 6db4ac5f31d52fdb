(** What the hop table and the hopping transmitters yield, over any arithmetic. *)
From Coq Require Import List Arith ZArith NArith Bool Lia Permutation.
From Verif Require Import Base IterTheory IterModel IterProofs Spec Tab Num LibModel LibDiscrete ChaosModel PskModel PskChain CdmaModel FhModel.
Import ListNotations.

(** ** The shuffle *)

Lemma nth_set {A} (l : list A) i v k d : i < length l ->
  nth k (firstn i l ++ v :: skipn (S i) l) d = if k =? i then v else nth k l d.
Proof.
  revert i k; induction l as [|a l IH]; intros [|i] k H; cbn in H; try lia.
  - destruct k; reflexivity.
  - destruct k; [reflexivity|]. cbn [firstn skipn app nth Nat.eqb]. apply IH. lia.
Qed.
Lemma set_length {A} (l : list A) i v : i < length l -> length (firstn i l ++ v :: skipn (S i) l) = length l.
Proof. intros H. rewrite app_length, firstn_length. cbn [length]. rewrite skipn_length. lia. Qed.

Lemma idx_nth {A} (l : list A) i d : i < length l -> idx l i = Ret (nth i l d).
Proof. intros H. unfold idx. rewrite (nth_error_nth' l d H). reflexivity. Qed.

Lemma swap_perm {A} (l : list A) i j : i < length l -> j < length l ->
  exists l', swap l i j = Ret l' /\ Permutation l l' /\
    (forall d k, nth k l' d = nth (if k =? j then i else if k =? i then j else k) l d).
Proof.
  intros Hi Hj. destruct l as [|d0 l0] eqn:El; [cbn in Hi; lia|]. rewrite <- El in *. clear El l0.
  unfold swap. rewrite (idx_nth l i d0), (idx_nth l j d0) by assumption. cbn [bind].
  rewrite set_idx_spec by exact Hi. cbn [bind].
  rewrite set_idx_spec by (rewrite set_length; assumption).
  eexists. split; [reflexivity|].
  assert (N : forall d k, nth k (firstn j (firstn i l ++ nth j l d0 :: skipn (S i) l) ++ nth i l d0 ::
                skipn (S j) (firstn i l ++ nth j l d0 :: skipn (S i) l)) d
              = nth (if k =? j then i else if k =? i then j else k) l d).
  { intros d k. rewrite nth_set by (rewrite set_length; assumption). rewrite nth_set by exact Hi.
    destruct (k =? j); [apply nth_indep; exact Hi|]. destruct (k =? i); [apply nth_indep; exact Hj|reflexivity]. }
  split; [|exact N].
  apply (Permutation_nth l _ d0). cbv zeta. rewrite !set_length by (rewrite ?set_length; assumption). split; [reflexivity|].
  exists (fun k => if k =? j then i else if k =? i then j else k). split; [|split].
  - intros k Hk. destruct (k =? j); [exact Hi|]. destruct (k =? i); assumption.
  - intros x y Hx Hy.
    destruct (Nat.eqb_spec x j), (Nat.eqb_spec y j), (Nat.eqb_spec x i), (Nat.eqb_spec y i); lia.
  - intros k Hk. apply N.
Qed.

Lemma shuffle_loop {A} (rng : Rng) is : forall (l : list A) s, Forall (fun i => i < length l) is ->
  exists l' s', for_each is
    (fun '(x, s) i =>
       let '(j, s1) := gen_index rng (i + 1) s in
       let? x1 := swap x i j in
       Ret (x1, s1)) (l, s) = Ret (l', s') /\ Permutation l l'.
Proof.
  induction is as [|i is IH]; intros l s Hi.
  - exists l, s. split; [reflexivity|apply Permutation_refl].
  - inversion Hi as [|? ? H1 H2]; subst. cbn [for_each].
    pose proof (gen_index_lt rng (i + 1) s ltac:(lia)) as G. destruct (gen_index rng (i + 1) s) as [j s1]. cbn [fst] in G.
    destruct (swap_perm l i j H1 ltac:(lia)) as (l1 & E1 & P1 & _). rewrite E1. cbn [bind].
    destruct (IH l1 s1) as (l' & s' & E' & P').
    { rewrite <- (Permutation_length P1). exact H2. }
    exists l', s'. split; [exact E'|]. eapply Permutation_trans; eassumption.
Qed.

Lemma shuffle_perm {A} (rng : Rng) (l : list A) s : exists l' s', shuffle rng l s = Ret (l', s') /\ Permutation l l'.
Proof.
  apply shuffle_loop. apply Forall_forall. intros i Hi. apply in_rev in Hi. apply in_seq in Hi. lia.
Qed.

(** Every order is the outcome of some generator. *)
Definition scripted (js : list nat) : Rng.
Proof.
  refine (MkRng (list nat) (fun _ => js)
    (fun ub s => match s with [] => (0, []) | j :: s' => (Nat.min j (ub - 1), s') end) _).
  intros ub [|j s] Hu; cbn [fst]; lia.
Defined.

Lemma skipn_ext {A} (l l' : list A) k : length l = length l' ->
  (forall d i, k <= i -> nth i l d = nth i l' d) -> skipn k l = skipn k l'.
Proof.
  revert l l'; induction k as [|k IH]; intros [|a l] [|a' l'] L E; cbn in L; try lia; try reflexivity.
  - cbn [skipn]. apply (nth_ext _ _ a a); [cbn; lia|]. intros i _. apply E. lia.
  - cbn [skipn]. apply IH; [lia|]. intros d i Hi. apply (E d (S i)). lia.
Qed.

Lemma nth_plus_skipn {A} q r (m : list A) d : nth (q + r) m d = nth r (skipn q m) d.
Proof.
  revert m; induction q as [|q IH]; intros [|a m]; try reflexivity; [destruct r; reflexivity|]. apply IH.
Qed.

Lemma script_loop {A} js0 k : forall (l l' : list A), Permutation l l' -> S k <= length l -> skipn (S k) l = skipn (S k) l' ->
  exists js, length js = k /\ for_each (rev (seq 1 k))
    (fun '(x, s) i =>
       let '(j, s1) := gen_index (scripted js0) (i + 1) s in
       let? x1 := swap x i j in
       Ret (x1, s1)) (l, js) = Ret (l', []).
Proof.
  induction k as [|k IH]; intros l l' P L E.
  - exists []. split; [reflexivity|]. cbn. do 2 f_equal. destruct l as [|a l], l' as [|b l']; cbn in *; try lia.
    + apply Permutation_length in P. discriminate.
    + subst l'. pose proof (Permutation_app_inv_r l [a] [b] P) as Q. apply Permutation_length_1 in Q. congruence.
  - pose proof (Permutation_length P) as LL.
    assert (PF : Permutation (firstn (S (S k)) l) (firstn (S (S k)) l')).
    { apply (Permutation_app_inv_r (skipn (S (S k)) l)). rewrite E at 2. rewrite !firstn_skipn. exact P. }
    destruct l' as [|d0 l0] eqn:El; [cbn in LL; lia|]. rewrite <- El in *. clear El l0.
    assert (Hx : In (nth (S k) l' d0) (firstn (S (S k)) l)).
    { eapply Permutation_in; [apply Permutation_sym, PF|].
      assert (LF : length (firstn (S (S k)) l') = S (S k)) by (rewrite firstn_length; lia).
      replace (nth (S k) l' d0) with (nth (S k) (firstn (S (S k)) l') d0); [apply nth_In; lia|].
      rewrite <- (firstn_skipn (S (S k)) l') at 2. rewrite app_nth1 by lia. reflexivity. }
    apply (In_nth _ _ d0) in Hx. destruct Hx as (j & Hj & Ej). rewrite firstn_length in Hj.
    assert (Ej' : nth j l d0 = nth (S k) l' d0).
    { rewrite <- Ej. rewrite <- (firstn_skipn (S (S k)) l) at 1. rewrite app_nth1 by (rewrite firstn_length; lia). reflexivity. }
    destruct (swap_perm l (S k) j ltac:(lia) ltac:(lia)) as (l1 & E1 & P1 & N1).
    pose proof (Permutation_length P1) as L1.
    destruct (IH l1 l') as (js & Ljs & Lp).
    { eapply Permutation_trans; [apply Permutation_sym, P1|exact P]. }
    { lia. }
    { apply skipn_ext; [lia|]. intros d i Hi. rewrite N1.
      destruct (Nat.eq_dec i (S k)) as [->|Ni].
      - rewrite (nth_indep l' d d0) by lia. rewrite <- Ej'.
        destruct (Nat.eqb_spec (S k) j) as [<-|_]; [apply nth_indep; lia|].
        rewrite Nat.eqb_refl. apply nth_indep; lia.
      - destruct (Nat.eqb_spec i j) as [->|_]; [lia|]. destruct (Nat.eqb_spec i (S k)) as [->|_]; [lia|].
        assert (Q : forall m : list A, nth i m d = nth (i - S (S k)) (skipn (S (S k)) m) d).
        { intros m. transitivity (nth (S (S k) + (i - S (S k))) m d); [f_equal; lia|].
          apply nth_plus_skipn. }
        rewrite (Q l), (Q l'), E. reflexivity. }
    exists (j :: js). split; [cbn; lia|].
    rewrite seq_S, rev_app_distr. cbn [rev app for_each]. cbn [gen_index scripted].
    replace (Nat.min j (1 + k + 1 - 1)) with j by lia. change (1 + k) with (S k). rewrite E1. cbn [bind]. exact Lp.
Qed.

Lemma shuffle_reaches {A} (l l' : list A) : Permutation l l' ->
  exists js, shuffle (scripted js) l (seed_from_u64 (scripted js) 0%N) = Ret (l', []).
Proof.
  intros P. destruct l as [|a l].
  - apply Permutation_nil in P. subst l'. exists []. reflexivity.
  - destruct (script_loop [] (length l) (a :: l) l' P) as (js & _ & E).
    + cbn. lia.
    + pose proof (Permutation_length P) as L. cbn in L. rewrite !skipn_all2 by (cbn; lia). reflexivity.
    + exists js. unfold shuffle. cbn [seed_from_u64 scripted length]. rewrite Nat.sub_succ, Nat.sub_0_r. exact E.
Qed.

Section Hop.
Context {T : Type} `{Num T}.

Definition grid (low high : T) (n : nat) : list T :=
  tab n (fun i => nadd low (nmul (ndiv (nsub high low) (nofnat n)) (nofnat i))).

Lemma grid_length low high n : length (grid low high n) = n.
Proof. apply tab_length. Qed.

Lemma HopTable_new_eq (rng : Rng) low high n seed :
  HopTable_new rng low high n seed = Ret (MkIter (HopSt (seed_from_u64 rng seed) (grid low high n) 0) (hop_next rng)).
Proof.
  unfold HopTable_new.
  rewrite (collect_yields _ (grid low high n)).
  - reflexivity.
  - unfold linspace, grid, tab. apply imap_yields. apply of_list_yields.
  - rewrite grid_length. lia.
Qed.

(** The table and generator at the start of epoch e. *)
Section Epoch.
Variables (rng : Rng) (g : list T) (s0 : rng_state rng).

Definition shuffled (p : list T * rng_state rng) : list T * rng_state rng :=
  match shuffle rng (fst p) (snd p) with Ret q => q | _ => p end.
Fixpoint epoch (e : nat) : list T * rng_state rng :=
  match e with 0 => (g, s0) | S e' => shuffled (epoch e') end.

Lemma shuffled_spec p : shuffle rng (fst p) (snd p) = Ret (shuffled p) /\ Permutation (fst p) (fst (shuffled p)).
Proof.
  unfold shuffled. destruct (shuffle_perm rng (fst p) (snd p)) as (l' & s' & E & P). rewrite E. auto.
Qed.
Lemma epoch_perm e : Permutation g (fst (epoch e)).
Proof.
  induction e as [|e IH]; [apply Permutation_refl|]. cbn [epoch].
  eapply Permutation_trans; [exact IH|]. apply shuffled_spec.
Qed.
Lemma epoch_length e : length (fst (epoch e)) = length g.
Proof. symmetry. apply Permutation_length, epoch_perm. Qed.

Definition hop_at (i : nat) : T :=
  nth (i mod length g) (fst (epoch (S (i / length g)))) (nofZ 0).

Definition hop_state (e r : nat) : hop_st rng :=
  if r =? 0 then HopSt (snd (epoch e)) (fst (epoch e)) 0
  else HopSt (snd (epoch (S e))) (fst (epoch (S e))) r.

Lemma hop_streams_from : 2 <= length g -> streams_from (hop_next rng) (HopSt s0 g 0) hop_at.
Proof.
  intros Hn. set (n := length g) in *.
  apply (streams_coind _ (fun s f => exists e r, r < n /\ s = hop_state e r /\ forall k, f k = hop_at (e * n + r + k))).
  2:{ exists 0, 0. split; [lia|]. split; [reflexivity|]. intros k. reflexivity. }
  intros s f (e & r & Hr & -> & Hf).
  assert (F0 : f 0 = nth r (fst (epoch (S e))) (nofZ 0)).
  { rewrite Hf, Nat.add_0_r. unfold hop_at. fold n. rewrite block_mod, block_div by exact Hr. reflexivity. }
  assert (I : idx (fst (epoch (S e))) r = Ret (f 0)).
  { rewrite F0. apply idx_nth. rewrite epoch_length. exact Hr. }
  destruct (Nat.eq_dec r 0) as [->|Hr0].
  - exists (hop_state e 1). split.
    + unfold hop_state. cbn [Nat.eqb]. unfold hop_next. cbn [hop_idx hop_table hop_rng Nat.eqb].
      destruct (shuffled_spec (epoch e)) as [E _]. rewrite E. cbn [epoch] in *.
      destruct (shuffled (epoch e)) as [t' s']. cbn [bind fst snd] in *. cbn [Nat.add Nat.sub]. rewrite I. reflexivity.
    + exists e, 1. split; [lia|]. split; [reflexivity|]. intros k. rewrite Hf. f_equal. lia.
  - unfold hop_state at 1. destruct (Nat.eqb_spec r 0) as [E|_]; [contradiction|].
    unfold hop_next. cbn [hop_idx hop_table hop_rng]. destruct (Nat.eqb_spec r 0) as [E|_]; [contradiction|].
    unfold usize_sub. rewrite epoch_length. fold n. destruct (Nat.leb_spec 1 n) as [_|L]; [|lia]. cbn [bind].
    destruct (Nat.eqb_spec r (n - 1)) as [E|Ne].
    + rewrite <- E, I. cbn [bind]. exists (hop_state (S e) 0). split; [reflexivity|].
      exists (S e), 0. split; [lia|]. split; [reflexivity|]. intros k. rewrite Hf. f_equal. nia.
    + replace (r + 1 - 1) with r by lia. rewrite I. cbn [bind]. exists (hop_state e (S r)). split.
      * unfold hop_state. cbn [Nat.eqb]. rewrite Nat.add_1_r. reflexivity.
      * exists e, (S r). split; [lia|]. split; [reflexivity|]. intros k. rewrite Hf. f_equal. lia.
Qed.

Lemma hop_epoch e : 1 <= length g ->
  map (fun i => hop_at (e * length g + i)) (seq 0 (length g)) = fst (epoch (S e)).
Proof.
  intros Hn. rewrite <- (tab_nth_id (fst (epoch (S e))) (nofZ 0)). rewrite epoch_length. apply tab_ext.
  intros i Hi. unfold hop_at. rewrite block_mod, block_div by exact Hi. reflexivity.
Qed.

Lemma hop_at_in i : 1 <= length g -> In (hop_at i) g.
Proof.
  intros Hn. eapply Permutation_in; [apply Permutation_sym, (epoch_perm (S (i / length g)))|].
  apply nth_In. rewrite epoch_length. apply Nat.mod_upper_bound. lia.
Qed.
End Epoch.

Lemma hops_stream (rng : Rng) low high n seed : 2 <= n ->
  exists it f, HopTable_new rng low high n seed = Ret it /\ streams it f /\ (forall i, In (f i) (grid low high n)) /\
    forall e, Permutation (map (fun i => f (e * n + i)) (seq 0 n)) (grid low high n).
Proof.
  intros Hn. rewrite HopTable_new_eq. eexists. exists (hop_at rng (grid low high n) (seed_from_u64 rng seed)).
  split; [reflexivity|]. split; [|split].
  - apply hop_streams_from. rewrite grid_length. exact Hn.
  - intros i. apply hop_at_in. rewrite grid_length. lia.
  - intros e. pose proof (hop_epoch rng (grid low high n) (seed_from_u64 rng seed) e) as E. rewrite grid_length in E.
    rewrite E by lia. apply Permutation_sym, epoch_perm.
Qed.

(** ** One inner iterator per item *)

Lemma flat_ok_fn {A B} (f : unit -> A -> outcome (list B * unit)) (w : A -> list B) l :
  (forall a, In a l -> f tt a = Ret (w a, tt) /\ w a <> []) -> flat_ok f tt l (flat_map w l) 0.
Proof.
  induction l as [|a l IH]; intros Hl; [constructor|]. cbn [flat_map].
  destruct (Hl a (or_introl eq_refl)) as [E N].
  replace 0 with (match w a with [] => 1 | _ => 0 end) at 1 by (destruct (w a); [contradiction|reflexivity]).
  eapply flat_cons; [exact E|]. apply IH. intros b Hb. apply Hl. right. exact Hb.
Qed.

Lemma iflat_fn_yields {A B} (f : unit -> A -> outcome (list B * unit)) (w : A -> list B) it l :
  yields it l -> (forall a, In a l -> f tt a = Ret (w a, tt) /\ w a <> []) ->
  yields (iflat_map tt f it) (flat_map w l).
Proof. intros Hy Hl. eapply iflat_yields; [exact Hy|apply flat_ok_fn; exact Hl|reflexivity]. Qed.

Lemma chunk_list_flat {A B} n (w : A -> list B) l : 1 <= n -> (forall a, In a l -> length (w a) = n) ->
  chunk_list n (flat_map w l) = map w l.
Proof.
  intros Hn. induction l as [|a l IH]; intros Hl; [apply chunk_list_nil; exact Hn|].
  assert (La : length (w a) = n) by (apply Hl; left; reflexivity).
  cbn [flat_map map]. rewrite chunk_list_cons by (exact Hn || (destruct (w a); [cbn in La; lia|discriminate])).
  rewrite firstn_app, skipn_app, La, Nat.sub_diag, skipn_all2, firstn_all2 by lia. cbn [firstn skipn app].
  rewrite app_nil_r. f_equal. apply IH. intros b Hb. apply Hl. right. exact Hb.
Qed.

(** A hop frequency at which one bit gets through the BPSK modem. *)
Definition hop_good (sr sy : nat) (h : T) : Prop := forall b, exists w,
  length w = (sr / sy) /\
  (exists itx, tx_bpsk_signal (of_list [b]) sr sy h = Ret itx /\ yields itx w) /\
  (exists irx, rx_bpsk_signal (of_list w) sr sy h = Ret irx /\ yields irx [b]).

Lemma zip_stream_in {A B} (l : list A) (f : nat -> B) a b : In (a, b) (zip_stream l f) -> exists k, nth_error l k = Some a /\ b = f k.
Proof.
  intros Hi. apply In_nth_error in Hi. destruct Hi as [k Hk]. rewrite zip_stream_nth in Hk. exists k.
  destruct (nth_error l k) as [x|]; [|discriminate]. cbn in Hk. injection Hk as -> ->. auto.
Qed.

Lemma zip_stream_map {A A' B} (g : A * B -> A') (l : list A) (f : nat -> B) :
  zip_stream (map g (zip_stream l f)) f = map (fun p => (g p, snd p)) (zip_stream l f).
Proof.
  apply nth_error_inj. intros k. rewrite zip_stream_nth, !nth_error_map, zip_stream_nth.
  destruct (nth_error l k); reflexivity.
Qed.

Lemma fh_bpsk_link (rng : Rng) (message : Iter bool) m low high n sr sy tx :
  yields message m -> tx_fh_bpsk_signal rng message low high n sr sy = Ret tx ->
  2 <= n -> 1 <= sy <= sr ->
  (forall h, In h (grid low high n) -> hop_good sr sy h) ->
  exists rx w, rx_fh_bpsk_signal rng tx low high n sr sy = Ret rx /\ yields tx w /\
    length w = length m * (sr / sy) /\ yields rx m.
Proof.
  intros Hm Htx Hn Hr Hg. set (sps := sr / sy).
  assert (Hs : 1 <= sps) by (apply Nat.div_le_lower_bound; lia).
  unfold tx_fh_bpsk_signal in Htx. unfold rx_fh_bpsk_signal.
  destruct (nyquist_ok sr high); [|discriminate]. cbn [assert_then] in *.
  destruct (is_int _); [|discriminate]. cbn [assert_then] in *.
  destruct (hops_stream rng low high n SEED Hn) as (it & f & En & St & Hin & _).
  rewrite En in *. cbn [bind] in Htx. injection Htx as <-.
  assert (Ud : usize_div sr sy = Ret sps) by (unfold usize_div; destruct sy; [lia|reflexivity]).
  rewrite Ud. cbn [bind].
  pose (wave := fun p : bool * T =>
    match (let? symbol := tx_bpsk_signal (of_list [fst p]) sr sy (snd p) in collect (sr / sy + 1) symbol) with
    | Ret l => l | _ => [] end).
  assert (W : forall p, In p (zip_stream m f) ->
     (let? symbol := tx_bpsk_signal (of_list [fst p]) sr sy (snd p) in
      let? l := collect (sr / sy + 1) symbol in Ret (l, tt)) = Ret (wave p, tt) /\
     length (wave p) = sps /\
     (let? bits := rx_bpsk_signal (of_list (wave p)) sr sy (snd p) in
      let? l := collect (length (wave p) + 1) bits in Ret (l, tt)) = Ret ([fst p], tt)).
  { intros [b h] Hp. apply zip_stream_in in Hp. destruct Hp as (k & Hk & ->). cbn [fst snd].
    destruct (Hg (f k) (Hin k) b) as (w & Lw & (itx & Et & Yt) & (irx & Er & Yr)).
    assert (Ew : wave (b, f k) = w).
    { unfold wave. cbn [fst snd]. rewrite Et. cbn [bind]. rewrite (collect_yields _ w) by (auto; lia). reflexivity. }
    rewrite Ew. split; [|split].
    - rewrite Et. cbn [bind]. rewrite (collect_yields _ w) by (auto; lia). reflexivity.
    - exact Lw.
    - rewrite Er. cbn [bind]. rewrite (collect_yields _ [b]) by (auto; cbn [length]; lia). reflexivity. }
  eexists. exists (flat_map wave (zip_stream m f)). split; [reflexivity|].
  assert (Yt : yields (iflat_map tt (fun _ '(msg_val, hop_freq) =>
          let? symbol := tx_bpsk_signal (of_list [msg_val]) sr sy hop_freq in
          let? l := collect (sr / sy + 1) symbol in Ret (l, tt)) (izip message it)) (flat_map wave (zip_stream m f))).
  { apply iflat_fn_yields; [apply izip_stream_yields; assumption|]. intros [b h] Hp. destruct (W _ Hp) as (W1 & W2 & _).
    split; [exact W1|]. intros E. rewrite E in W2. cbn in W2. lia. }
  split; [exact Yt|]. split.
  - rewrite <- (zip_stream_length m f).
    assert (L : forall p, In p (zip_stream m f) -> length (wave p) = sps) by (intros; apply W; assumption).
    clear - L. induction (zip_stream m f) as [|p l IH]; [reflexivity|]. cbn [flat_map length]. rewrite app_length, IH, (L p) by auto using in_eq, in_cons. reflexivity.
  - pose proof (izip_stream_yields _ _ _ _ (chunks_yields sps _ _ Hs Yt) St) as Z.
    rewrite chunk_list_flat in Z by (auto; intros; apply W; assumption).
    rewrite zip_stream_map in Z.
    pose proof (iflat_fn_yields (fun _ '(signal_chunk, hop_freq) =>
          let? bits := rx_bpsk_signal (of_list signal_chunk) sr sy hop_freq in
          let? l := collect (length signal_chunk + 1) bits in Ret (l, tt))
        (fun p => match (let? bits := rx_bpsk_signal (of_list (fst p)) sr sy (snd p) in collect (length (fst p) + 1) bits) with
                  | Ret l => l | _ => [] end) _ _ Z) as Y.
    assert (V : forall p, In p (zip_stream m f) ->
        (let? bits := rx_bpsk_signal (of_list (wave p)) sr sy (snd p) in collect (length (wave p) + 1) bits) = Ret [fst p]).
    { intros p Hp. destruct (W p Hp) as (_ & _ & W3).
      destruct (rx_bpsk_signal (of_list (wave p)) sr sy (snd p)) as [bits| |]; cbn [bind] in *; try discriminate.
      destruct (collect (length (wave p) + 1) bits); cbn [bind] in *; try discriminate. congruence. }
    refine (eq_ind _ (fun x => yields _ x) (Y _) _ _).
    + intros [c h] Hp. apply in_map_iff in Hp. destruct Hp as ([b h'] & E & Hp). cbn [snd] in E. injection E as <- <-.
      cbn [fst snd]. pose proof (V _ Hp) as Vp. cbn [fst snd] in Vp. rewrite Vp.
      destruct (W _ Hp) as (_ & _ & W3). split; [exact W3|discriminate].
    + rewrite flat_map_concat_map, map_map.
      rewrite (map_ext_in _ (fun p : bool * T => [fst p])).
      2:{ intros p Hp. cbn [fst snd]. rewrite (V p Hp). reflexivity. }
      transitivity (map fst (zip_stream m f)).
      { clear. induction (zip_stream m f) as [|p l IH]; [reflexivity|]. cbn [map concat app]. rewrite IH. reflexivity. }
      apply nth_error_inj. intros k. rewrite nth_error_map, zip_stream_nth. destruct (nth_error m k); reflexivity.
Qed.
End Hop.
