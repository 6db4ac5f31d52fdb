(** Round trips of CSK and DCSK, Chebyshev orbits, tent and Bernoulli maps. *)
From Coq Require Import List Arith ZArith Reals Bool Lia Lra Psatz.
From Flocq Require Import Core BinarySingleNaN Plus_error Sterbenz.
From Verif Require Import Base IterTheory IterModel Num F64Lib LibModel LibFloat ChaosModel ChaosProofs.
Import ListNotations.
Local Open Scope R_scope.

(** The n-th value of an orbit (n = 0 is the first value yielded). *)
Definition orbit_at {X} (f : X -> X) (x0 : X) (n : nat) : X := Nat.iter (S n) f x0.

Lemma pairs_flat_map {A B} (f : A -> B * B) l :
  pairs (flat_map (fun a => [fst (f a); snd (f a)]) l) = map f l.
Proof. induction l as [|a l IH]; cbn; [reflexivity|]. rewrite IH. destruct (f a); reflexivity. Qed.

Section Dcsk.
Context {T : Type} `{Num T}.
Variables (x1 : T).
Hypothesis start_ok : nleb (nofZ 0) (nlit 1 10) && nleb (nlit 1 10) (nofZ 1) = true.
(** What the receiver decides for a reference value and a bit. *)
Definition dcsk_decide (r : T) (b : bool) : bool := nltb (nofZ 0) (nmul r (nmul r (bit_to_nrz b))).
Definition dcsk_ref (n : nat) : T := orbit_at (logistic_map (nlit 39 10)) (nlit 1 10) n.

Lemma dcsk_chain (message : Iter bool) m : yields message m ->
  exists tx, tx_baseband_dcsk message = Ret tx /\
    yields tx (flat_map (fun '(b, r) => [r; nmul r (bit_to_nrz b)]) (zip_stream m dcsk_ref)) /\
    yields (rx_baseband_dcsk tx) (map (fun '(b, r) => dcsk_decide r b) (zip_stream m dcsk_ref)).
Proof.
  intros Hm. unfold tx_baseband_dcsk, LogisticMap_new. rewrite start_ok. cbn [assert_then bind].
  eexists. split; [reflexivity|].
  assert (Hy : yields (iflat_map tt (pure_fn (fun '(bit, reference) => [reference; nmul reference (bit_to_nrz bit)]))
                       (izip message (orbit (logistic_map (nlit 39 10)) (nlit 1 10))))
               (flat_map (fun '(b, r) => [r; nmul r (bit_to_nrz b)]) (zip_stream m dcsk_ref))).
  { apply iflat_pure_yields.
    - apply izip_stream_yields; [exact Hm|]. apply orbit_streams.
    - intros [b r] _. discriminate. }
  split; [exact Hy|].
  unfold rx_baseband_dcsk.
  pose proof (imap_yields (fun '(reference, information) => nltb (nofZ 0) (nmul reference information)) _ _
                (ituples_yields _ _ Hy)) as HR.
  replace (map (fun '(b, r) => dcsk_decide r b) (zip_stream m dcsk_ref))
    with (map (fun '(reference, information) => nltb (nofZ 0) (nmul reference information))
          (pairs (flat_map (fun '(b, r) => [r; nmul r (bit_to_nrz b)]) (zip_stream m dcsk_ref)))); [exact HR|].
  rewrite (flat_map_ext _ (fun a => [fst ((fun '(b, r) => (r, nmul r (bit_to_nrz b))) a); snd ((fun '(b, r) => (r, nmul r (bit_to_nrz b))) a)]))
    by (intros [b r]; reflexivity).
  rewrite pairs_flat_map, map_map. apply map_ext. intros [b r]. reflexivity.
Qed.

Lemma dcsk_round_trip_gen (message : Iter bool) m : yields message m ->
  (forall n b, (n < length m)%nat -> dcsk_decide (dcsk_ref n) b = b) ->
  exists tx, tx_baseband_dcsk message = Ret tx /\ yields (rx_baseband_dcsk tx) m.
Proof.
  intros Hm Hd. destruct (dcsk_chain message m Hm) as [tx [E [_ Hy]]]. exists tx. split; [exact E|].
  replace m with (map (fun '(b, r) => dcsk_decide r b) (zip_stream m dcsk_ref)); [exact Hy|].
  apply nth_error_inj. intros n. rewrite nth_error_map, zip_stream_nth.
  destruct (nth_error m n) as [b|] eqn:En; [|reflexivity]. cbn. f_equal. apply Hd.
  apply nth_error_Some. congruence.
Qed.
End Dcsk.

(** Literals. *)
Lemma dcsk_start_f64 (libm : Libm) :
  let num := NumF libm in nleb (nofZ 0) (nlit 1 10) && nleb (nlit 1 10) (nofZ 1) = true.
Proof. reflexivity. Qed.
Lemma csk_start_f64 (libm : Libm) :
  let num := NumF libm in nleb (nofZ 0) (nlit 15 100) && nleb (nlit 15 100) (nofZ 1) = true.
Proof. reflexivity. Qed.

Lemma ref_range (libm : Libm) x0 n :
  fin x0 = true -> 94/1000 <= val x0 <= 9751/10000 ->
  let r := orbit_at (@logistic_map F64 (NumF libm) mu39) x0 n in
  fin r = true /\ 94/1000 <= val r <= 9751/10000.
Proof.
  intros F0 H0 r. unfold r, orbit_at.
  apply (iter_inv _ (fun x => fin x = true /\ 94/1000 <= val x <= 9751/10000)); [auto|].
  intros x [Fx Hx]. apply logistic39_invariant; assumption.
Qed.

(** Multiplying a float by +-1 is exact. *)
Lemma mul_nrz (libm : Libm) (x : F64) b : fin x = true ->
  let y := @nmul F64 (NumF libm) x (@bit_to_nrz F64 (NumF libm) b) in
  fin y = true /\ val y = if b then val x else - val x.
Proof.
  intros Fx y. destruct val_1 as [V1 F1].
  assert (Hb : Rabs (val x) < bpow radix2 1024) by apply (abs_B2R_lt_emax 53 1024).
  destruct b.
  - change y with (Bmult mode_NE x (f64_ofZ 1)). destruct (mul_fin x (f64_ofZ 1) Fx F1) as [V F]; rewrite V1, Rmult_1_r, rd_id in * by apply val_fmt; auto.
  - assert (Vn : val (Bopp (f64_ofZ 1)) = -1) by (unfold val; rewrite B2R_Bopp; fold (val (f64_ofZ 1)); rewrite V1; reflexivity).
    assert (Fn : fin (Bopp (f64_ofZ 1)) = true) by (unfold fin; rewrite is_finite_Bopp; exact F1).
    destruct (mul_fin x (Bopp (f64_ofZ 1)) Fx Fn) as [V F].
    + rewrite Vn. replace (val x * -1) with (- val x) by ring. rewrite rd_opp, rd_id by apply val_fmt.
      rewrite Rabs_Ropp. exact Hb.
    + change y with (Bmult mode_NE x (Bopp (f64_ofZ 1))). split; [exact F|]. rewrite V, Vn. replace (val x * -1) with (- val x) by ring.
      rewrite rd_opp, rd_id by apply val_fmt. reflexivity.
Qed.

Lemma dcsk_decide_f64 (libm : Libm) (r : F64) b :
  fin r = true -> 94/1000 <= val r <= 9751/10000 -> @dcsk_decide F64 (NumF libm) r b = b.
Proof.
  intros Fr Hr. unfold dcsk_decide. destruct (mul_nrz libm r b Fr) as [Fi Vi]. destruct val_0 as [V0 F0].
  set (i := nmul r (bit_to_nrz b)) in *. cbn [nltb nmul nofZ NumF].
  assert (Hlow : / 1024 <= rd (val r * val r)).
  { change (/ 1024) with (bpow radix2 (-10)). apply rd_ge_fmt; [apply fmt_bpow; lia|].
    change (bpow radix2 (-10)) with (/ 1024). nra. }
  assert (Hp : val r * val i = if b then val r * val r else - (val r * val r)) by (rewrite Vi; destruct b; ring).
  destruct (mul_fin r i Fr Fi) as [Vp Fp].
  { apply small_no_overflow. rewrite Hp. destruct b; [|rewrite Rabs_Ropp]; rewrite Rabs_pos_eq; nra. }
  rewrite Hp in Vp.
  destruct b.
  - apply ltb_val; [exact F0|exact Fp|]. rewrite V0, Vp. lra.
  - destruct (Bltb (f64_ofZ 0) (Bmult mode_NE r i)) eqn:E; [|reflexivity].
    apply ltb_val in E; [|exact F0|exact Fp]. rewrite V0, Vp, rd_opp in E. lra.
Qed.

(** ** DCSK over the reals *)
Lemma dcsk_decide_R (r : R) b : 0 < r -> dcsk_decide r b = b.
Proof.
  intros Hr. unfold dcsk_decide. cbn. unfold bit_to_nrz. cbn. destruct (Rlt_dec _ _) as [H|H]; destruct b; auto; nra.
Qed.

(** ** CSK *)
Section Csk.
Context {T : Type} `{Num T}.
Hypothesis start1 : nleb (nofZ 0) (nlit 1 10) && nleb (nlit 1 10) (nofZ 1) = true.
Hypothesis start2 : nleb (nofZ 0) (nlit 15 100) && nleb (nlit 15 100) (nofZ 1) = true.
Definition csk_ref1 (n : nat) : T := orbit_at (logistic_map (nlit 39 10)) (nlit 1 10) n.
Definition csk_ref2 (n : nat) : T := orbit_at (logistic_map (nlit 39 10)) (nlit 15 100) n.
Definition csk_decide (c1 c2 : T) (b : bool) : bool :=
  let s := if b then c1 else c2 in nltb (nabs (nsub s c1)) (nabs (nsub s c2)).

Lemma csk_chain (message : Iter bool) m : yields message m ->
  exists tx rx, tx_baseband_csk message = Ret tx /\ rx_baseband_csk tx = Ret rx /\
    yields tx (map (fun '((b, c1), c2) => if b : bool then c1 else c2) (zip_stream (zip_stream m csk_ref1) csk_ref2)) /\
    yields rx (map (fun '((b, c1), c2) => csk_decide c1 c2 b) (zip_stream (zip_stream m csk_ref1) csk_ref2)).
Proof.
  intros Hm. unfold tx_baseband_csk, LogisticMap_new. cbv zeta. rewrite start1, start2. cbn [assert_then bind].
  eexists. eexists. split; [reflexivity|].
  unfold rx_baseband_csk, LogisticMap_new. cbv zeta. rewrite start1, start2. cbn [assert_then bind].
  split; [reflexivity|].
  match goal with |- yields ?t _ /\ _ => set (tx := t) end.
  assert (Hy : yields tx (map (fun '((b, c1), c2) => if b : bool then c1 else c2)
                              (zip_stream (zip_stream m csk_ref1) csk_ref2))).
  { apply imap_yields. apply izip_stream_yields; [apply izip_stream_yields; [exact Hm|]|]; apply orbit_streams. }
  split; [exact Hy|].
  pose proof (imap_yields (fun '((sample, chaos_1), chaos_2) => nltb (nabs (nsub sample chaos_1)) (nabs (nsub sample chaos_2))) _ _
     (izip_stream_yields _ _ _ _ (izip_stream_yields _ _ _ _ Hy (orbit_streams (logistic_map (nlit 39 10)) (nlit 1 10)))
        (orbit_streams (logistic_map (nlit 39 10)) (nlit 15 100)))) as HR.
  match type of HR with yields _ ?l => replace (map (fun '((b, c1), c2) => csk_decide c1 c2 b) (zip_stream (zip_stream m csk_ref1) csk_ref2)) with l; [exact HR|] end.
  apply nth_error_inj. intros n. rewrite !nth_error_map, !zip_stream_nth, nth_error_map, !zip_stream_nth.
  destruct (nth_error m n) as [b|]; reflexivity.
Qed.

Lemma csk_round_trip_gen (message : Iter bool) m : yields message m ->
  (forall n, csk_decide (csk_ref1 n) (csk_ref2 n) false = false) ->
  exists tx rx, tx_baseband_csk message = Ret tx /\ rx_baseband_csk tx = Ret rx /\
    (yields rx m <-> forall n, nth_error m n = Some true -> csk_decide (csk_ref1 n) (csk_ref2 n) true = true).
Proof.
  intros Hm Hf. destruct (csk_chain message m Hm) as [tx [rx [E1 [E2 [_ Hy]]]]]. exists tx, rx. split; [exact E1|].
  split; [exact E2|]. split.
  - intros Hy2 n En. pose proof (yields_det _ _ _ Hy Hy2) as E. apply (f_equal (fun l => nth_error l n)) in E.
    rewrite nth_error_map, !zip_stream_nth, En in E. cbn [option_map] in E. injection E as E. exact E.
  - intros Hd. replace m with (map (fun '((b, c1), c2) => csk_decide c1 c2 b) (zip_stream (zip_stream m csk_ref1) csk_ref2)); [exact Hy|].
    apply nth_error_inj. intros n. rewrite nth_error_map, !zip_stream_nth.
    destruct (nth_error m n) as [[|]|] eqn:En; [| |reflexivity]; cbn; f_equal; [apply Hd; exact En|apply Hf].
Qed.
End Csk.

(** *** exact arithmetic: the two orbits have different 2-adic valuations *)

(** x = p / (2^a q) with p, q odd. *)
Definition val2 (a : nat) (x : R) : Prop :=
  exists p q : Z, Z.Odd p /\ Z.Odd q /\ x * (IZR (2 ^ Z.of_nat a) * IZR q) = IZR p.

Lemma odd_nonzero z : Z.Odd z -> z <> 0%Z.
Proof. intros [k Hk]. lia. Qed.

Lemma pow2_pos a : (0 < 2 ^ Z.of_nat a)%Z.
Proof. apply Z.pow_pos_nonneg; lia. Qed.

Lemma val2_lt x a b : val2 a x -> val2 b x -> (a < b)%nat -> False.
Proof.
  intros [p [q [Op [Oq E]]]] [p' [q' [Op' [Oq' E']]]] H.
  assert (EZ : (p * q' * 2 ^ Z.of_nat (b - a) = p' * q)%Z).
  { apply eq_IZR. rewrite !mult_IZR. rewrite <- E, <- E'.
    replace (2 ^ Z.of_nat b)%Z with (2 ^ Z.of_nat (b - a) * 2 ^ Z.of_nat a)%Z.
    - rewrite mult_IZR. ring.
    - rewrite <- Z.pow_add_r by lia. f_equal. lia. }
  replace (b - a)%nat with (S (b - a - 1)) in EZ by lia. rewrite Nat2Z.inj_succ, Z.pow_succ_r in EZ by lia.
  assert (Z.Odd (p' * q)) as [k Hk] by (apply Z.odd_spec; rewrite Z.odd_mul; apply andb_true_iff; split; apply Z.odd_spec; assumption).
  lia.
Qed.

Lemma val2_unique x a b : val2 a x -> val2 b x -> a = b.
Proof.
  intros Ha Hb. destruct (lt_eq_lt_dec a b) as [[H|H]|H]; [|exact H|];
    [destruct (val2_lt x a b Ha Hb H)|destruct (val2_lt x b a Hb Ha H)].
Qed.

Lemma val2_step a x : (1 <= a)%nat -> val2 a x -> val2 (2 * a + 1) (logistic_map (39 / 10) x).
Proof.
  intros Ha [p [q [Op [Oq E]]]].
  exists (39 * p * (2 ^ Z.of_nat a * q - p))%Z, (5 * q * q)%Z. split; [|split].
  - apply Z.odd_spec. rewrite !Z.odd_mul, Z.odd_sub, Z.odd_mul.
    apply Z.odd_spec in Op, Oq. rewrite Op, Oq.
    replace (Z.odd (2 ^ Z.of_nat a)) with false; [reflexivity|].
    symmetry. replace a with (S (a - 1)) by lia. rewrite Nat2Z.inj_succ, Z.pow_succ_r by lia. rewrite Z.odd_mul. reflexivity.
  - apply Z.odd_spec. rewrite !Z.odd_mul. apply Z.odd_spec in Oq. rewrite Oq. reflexivity.
  - rewrite !mult_IZR, minus_IZR, mult_IZR, <- E.
    replace (2 ^ Z.of_nat (2 * a + 1))%Z with (2 * (2 ^ Z.of_nat a * 2 ^ Z.of_nat a))%Z.
    + rewrite !mult_IZR. unfold logistic_map. cbn. field.
    + rewrite <- Z.pow_add_r by lia. rewrite <- Z.pow_succ_r by lia. f_equal. lia.
Qed.

Lemma orbits_differ n : Nat.iter n (logistic_map (39 / 10)) (1 / 10) <> Nat.iter n (logistic_map (39 / 10)) (15 / 100).
Proof.
  assert (H : exists a b, (1 <= a < b)%nat /\ val2 a (Nat.iter n (logistic_map (39 / 10)) (1 / 10)) /\
                                       val2 b (Nat.iter n (logistic_map (39 / 10)) (15 / 100))).
  { induction n as [|n [a [b [Hab [H1 H2]]]]].
    - exists 1%nat, 2%nat. split; [lia|]. split.
      + exists 1%Z, 5%Z. split; [exists 0%Z; lia|]. split; [exists 2%Z; lia|]. cbn. lra.
      + exists 3%Z, 5%Z. split; [exists 1%Z; lia|]. split; [exists 2%Z; lia|]. cbn. lra.
    - exists (2 * a + 1)%nat, (2 * b + 1)%nat. split; [lia|]. split; apply val2_step; try lia; assumption. }
  destruct H as [a [b [Hab [H1 H2]]]]. intros E. rewrite E in H1. pose proof (val2_unique _ _ _ H1 H2). lia.
Qed.

(** ** Chebyshev *)

Lemma chebyshev_R (x : R) : chebyshev x = 3 * (x * x * x) + 2 * x.
Proof. unfold chebyshev, npowi. cbn. ring. Qed.

Lemma chebyshev_grows (x : R) : 2 * Rabs x <= Rabs (chebyshev x).
Proof.
  rewrite chebyshev_R. replace (3 * (x * x * x) + 2 * x) with (x * (3 * (x * x) + 2)) by ring.
  rewrite Rabs_mult. assert (0 <= x * x) by apply Rle_0_sqr. rewrite (Rabs_pos_eq (3 * (x * x) + 2)) by lra.
  pose proof (Rabs_pos x). nra.
Qed.

Lemma chebyshev_orbit_grows (x : R) n : 2 ^ n * Rabs x <= Rabs (Nat.iter n chebyshev x).
Proof.
  induction n as [|n IH]; [cbn; lra|].
  change (Nat.iter (S n) chebyshev x) with (chebyshev (Nat.iter n chebyshev x)). rewrite <- tech_pow_Rmult.
  pose proof (chebyshev_grows (Nat.iter n chebyshev x)). lra.
Qed.

(** *** binary64: never NaN *)

Lemma Bmult_sign (x y : F64) :
  is_nan x = false -> is_nan y = false ->
  (is_finite x = true /\ is_finite y = true) \/ (is_finite_strict x = true /\ is_finite y = false) \/
  (is_finite_strict y = true /\ is_finite x = false) \/ (is_finite x = false /\ is_finite y = false) ->
  is_nan (Bmult mode_NE x y) = false /\ Bsign (Bmult mode_NE x y) = xorb (Bsign x) (Bsign y).
Proof.
  intros Nx Ny H. pose proof (Bmult_correct 53 1024 _ _ mode_NE x y) as HC. cbv zeta in HC.
  destruct (is_finite x) eqn:Fx; destruct (is_finite y) eqn:Fy.
  - match type of HC with if ?c then _ else _ => destruct c end.
    + destruct HC as [_ [H2 H3]]. cbn [andb] in H2.
      assert (N : is_nan (Bmult mode_NE x y) = false) by (destruct (Bmult mode_NE x y); try discriminate; reflexivity).
      split; [exact N|]. apply H3. exact N.
    + destruct (Bmult mode_NE x y); try discriminate. cbn in HC. split; [reflexivity|]. cbn. congruence.
  - clear HC; destruct x, y; try discriminate; repeat (destruct H as [H|H]); destruct H; try discriminate; split; reflexivity.
  - clear HC; destruct x, y; try discriminate; repeat (destruct H as [H|H]); destruct H; try discriminate; split; reflexivity.
  - clear HC; destruct x, y; try discriminate; split; reflexivity.
Qed.

Lemma Bminus_opp_sign (x y : F64) :
  is_nan x = false -> is_nan y = false -> Bsign x <> Bsign y -> is_nan (Bminus mode_NE x y) = false.
Proof.
  intros Nx Ny Hs. pose proof (Bminus_correct 53 1024 _ _ mode_NE x y) as HC.
  destruct (is_finite x) eqn:Fx; destruct (is_finite y) eqn:Fy.
  - specialize (HC eq_refl eq_refl).
    match type of HC with if ?c then _ else _ => destruct c end.
    + destruct HC as [_ [H2 _]]. destruct (Bminus mode_NE x y); try discriminate; reflexivity.
    + destruct HC as [HC _]. destruct (Bminus mode_NE x y); try discriminate; reflexivity.
  - clear HC; destruct x as [?|?| |? ? ? ?], y as [?|?| |? ? ? ?]; try discriminate; reflexivity.
  - clear HC; destruct x as [?|?| |? ? ? ?], y as [?|?| |? ? ? ?]; try discriminate; reflexivity.
  - clear HC; destruct x as [[|]|[|]| |? ? ? ?], y as [[|]|[|]| |? ? ? ?]; try discriminate; try reflexivity; congruence.
Qed.

Lemma one_mul (x : F64) : Bmult mode_NE (f64_ofZ 1) x = x.
Proof.
  destruct (is_nan x) eqn:Nx.
  { destruct x; try discriminate. reflexivity. }
  destruct x as [s|s| |s m e He]; try discriminate; try (destruct s; reflexivity).
  destruct val_1 as [V1 F1].
  assert (Fx : fin (B754_finite s m e He) = true) by reflexivity.
  set (x := B754_finite s m e He) in *.
  destruct (mul_fin (f64_ofZ 1) x F1 Fx) as [V F].
  - rewrite V1, Rmult_1_l, rd_id by apply val_fmt. apply (abs_B2R_lt_emax 53 1024).
  - rewrite V1, Rmult_1_l, rd_id in V by apply val_fmt.
    assert (Vx : val x <> 0).
    { unfold val, x. cbn [B2R]. destruct s.
      - apply Rlt_not_eq. apply F2R_lt_0. reflexivity.
      - apply Rgt_not_eq. apply F2R_gt_0. reflexivity. }
    assert (Sx : is_finite_strict (Bmult mode_NE (f64_ofZ 1) x) = true).
    { destruct (Bmult mode_NE (f64_ofZ 1) x) as [?|?| |? ? ? ?]; try discriminate; [|reflexivity]. destruct Vx. symmetry. exact V. }
    apply B2R_inj; [exact Sx|reflexivity|exact V].
Qed.

Lemma chebyshev_no_nan (libm : Libm) (x : F64) :
  is_nan x = false -> is_nan (@chebyshev F64 (NumF libm) x) = false.
Proof.
  intros Nx. unfold chebyshev, npowi. cbn [npowi_loop nmul nsub nofZ NumF]. rewrite one_mul.
  destruct x as [s|s| |s m e He]; [destruct s; vm_compute; reflexivity|destruct s; vm_compute; reflexivity|discriminate|].
  assert (K3 : is_nan (f64_ofZ 3) = false /\ is_finite_strict (f64_ofZ 3) = true /\ is_finite (f64_ofZ 3) = true /\
               Bsign (f64_ofZ 3) = false) by (vm_compute; auto).
  assert (K2 : is_nan (Bminus mode_NE (f64_ofZ 1) (f64_ofZ 3)) = false /\
               is_finite (Bminus mode_NE (f64_ofZ 1) (f64_ofZ 3)) = true /\
               Bsign (Bminus mode_NE (f64_ofZ 1) (f64_ofZ 3)) = true) by (vm_compute; auto).
  generalize dependent (Bminus mode_NE (f64_ofZ 1) (f64_ofZ 3)). generalize dependent (f64_ofZ 3).
  intros c3 [K31 [K32 [K33 K34]]] c2 [K21 [K22 K23]].
  pose proof (eq_refl : is_finite (B754_finite s m e He) = true) as Fx.
  pose proof (eq_refl : is_finite_strict (B754_finite s m e He) = true) as Sx.
  generalize dependent (B754_finite s m e He). intros x Nx Fx Sx.
  destruct (Bmult_sign x x Nx Nx (or_introl (conj Fx Fx))) as [N1 S1].
  generalize dependent (Bmult mode_NE x x). intros a N1 S1.
  destruct (Bmult_sign x a Nx N1) as [N2 S2].
  { destruct (is_finite a); auto. }
  generalize dependent (Bmult mode_NE x a). intros r N2 S2.
  destruct (Bmult_sign c3 r K31 N2) as [N3 S3].
  { destruct (is_finite r); auto. }
  destruct (Bmult_sign c2 x K21 Nx (or_introl (conj K22 Fx))) as [N4 S4].
  apply Bminus_opp_sign; [exact N3|exact N4|]. rewrite S3, S4, S2, S1, K34, K23.
  destruct (Bsign x); discriminate.
Qed.

(** From 0.5: +infinity from the 8th value on. *)
Definition half : F64 := Bdiv mode_NE (f64_ofZ 1) (f64_ofZ 2).
Lemma chebyshev_half_7 (libm : Libm) : is_finite (Nat.iter 7 (@chebyshev F64 (NumF libm)) half) = true.
Proof. vm_compute. reflexivity. Qed.
Lemma chebyshev_half_8 (libm : Libm) : Nat.iter 8 (@chebyshev F64 (NumF libm)) half = B754_infinity false.
Proof. vm_compute. reflexivity. Qed.
Lemma chebyshev_inf (libm : Libm) : @chebyshev F64 (NumF libm) (B754_infinity false) = B754_infinity false.
Proof. reflexivity. Qed.
