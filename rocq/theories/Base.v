(** Base: outcomes, Rust iterators as state machines, and the std / itertools
    adapters the code uses.  Definitions only; the theory is in IterTheory.v.

    Everything here models Rust's standard library (core::iter) or the crate
    itertools 0.13, as used throughout /repo/src. *)
From Coq Require Import List Arith ZArith PArith.
Import ListNotations.

(** The result of running a piece of Rust code: a value, a panic, or (only from
    an unbounded loop) no result within 2^64 iterations. *)
Inductive outcome (A : Type) : Type :=
| Ret (a : A)
| Panic
| Diverge.
Arguments Ret {A} a.
Arguments Panic {A}.
Arguments Diverge {A}.

Definition bind {A B} (m : outcome A) (k : A -> outcome B) : outcome B :=
  match m with
  | Ret a => k a
  | Panic => Panic
  | Diverge => Diverge
  end.

Declare Scope outcome_scope.
Delimit Scope outcome_scope with outcome.
Notation "'let?' x ':=' m 'in' k" := (bind m (fun x => k))
  (at level 200, x pattern, m at level 100, k at level 200, right associativity) : outcome_scope.
Open Scope outcome_scope.

(** Rust [assert!(b); k]. *)
Definition assert_then {A} (b : bool) (k : outcome A) : outcome A := if b then k else Panic.

(** A value of a type implementing [Iterator<Item = A>]: a state and [fn next(&mut self)]. *)
Record Iter (A : Type) : Type := MkIter {
  state : Type;
  cur : state;
  next : state -> outcome (option A * state)
}.
Arguments MkIter {A state} cur next.
Arguments state {A} _.
Arguments cur {A} _.
Arguments next {A} _ _.

(** ** What a consumer can observe *)

(** Call [next] n times, keeping what each call returned. *)
Fixpoint calls {A X} (nx : X -> outcome (option A * X)) (n : nat) (s : X)
  : outcome (list (option A) * X) :=
  match n with
  | 0 => Ret ([], s)
  | S n' =>
      let? (o, s1) := nx s in
      let? (os, s2) := calls nx n' s1 in
      Ret (o :: os, s2)
  end.

(** [behaves it b]: for every n, the first n calls return [b 0 .. b (n-1)] (no panic). *)
Definition behaves_from {A X} (nx : X -> outcome (option A * X)) (s : X) (b : nat -> option A) : Prop :=
  forall n, exists s', calls nx n s = Ret (map b (seq 0 n), s').
Definition behaves {A} (it : Iter A) (b : nat -> option A) : Prop :=
  behaves_from (next it) (cur it) b.

(** [yields it l]: the elements of [l] in order, then [None] on every later call. *)
Definition yields_from {A X} (nx : X -> outcome (option A * X)) (s : X) (l : list A) : Prop :=
  behaves_from nx s (nth_error l).
Definition yields {A} (it : Iter A) (l : list A) : Prop := behaves it (nth_error l).

(** [streams it f]: never ends; call n returns [f n]. *)
Definition streams_from {A X} (nx : X -> outcome (option A * X)) (s : X) (f : nat -> A) : Prop :=
  behaves_from nx s (fun n => Some (f n)).
Definition streams {A} (it : Iter A) (f : nat -> A) : Prop := behaves it (fun n => Some (f n)).

(** [panics_after it os]: the first calls return [os]; the one after that panics. *)
Definition panics_after {A} (it : Iter A) (os : list (option A)) : Prop :=
  exists s, calls (next it) (length os) (cur it) = Ret (os, s) /\ next it s = Panic.

(** [Iterator::collect::<Vec<_>>], with fuel: at most [fuel] calls of [next]. *)
Fixpoint collect_from {A X} (fuel : nat) (nx : X -> outcome (option A * X)) (s : X)
  : outcome (list A) :=
  match fuel with
  | 0 => Diverge
  | S k =>
      let? (o, s1) := nx s in
      match o with
      | None => Ret []
      | Some a => let? l := collect_from k nx s1 in Ret (a :: l)
      end
  end.
Definition collect {A} (fuel : nat) (it : Iter A) : outcome (list A) :=
  collect_from fuel (next it) (cur it).

(** ** Standard-library iterators *)

(** [Vec::into_iter], [slice.iter().cloned()], [\[a, b\].into_iter()]. *)
Definition of_list_next {A} (l : list A) : outcome (option A * list A) :=
  match l with
  | [] => Ret (None, [])
  | a :: l' => Ret (Some a, l')
  end.
Definition of_list {A} (l : list A) : Iter A := MkIter l of_list_next.

(** [core::iter::Map] with a closure that keeps no state. *)
Definition imap_next {A B X} (f : A -> B) (nx : X -> outcome (option A * X)) (s : X)
  : outcome (option B * X) :=
  let? (o, s1) := nx s in Ret (option_map f o, s1).
Definition imap {A B} (f : A -> B) (it : Iter A) : Iter B :=
  MkIter (cur it) (imap_next f (next it)).

(** The list [(i, l0); (i+1, l1); ...]. *)
Definition index_from {A} (i : nat) (l : list A) : list (nat * A) := combine (seq i (length l)) l.

(** [core::iter::Enumerate].  The counter is an unbounded [nat]. *)
Definition ienum_next {A X} (nx : X -> outcome (option A * X)) (s : X * nat)
  : outcome (option (nat * A) * (X * nat)) :=
  let '(s0, i) := s in
  let? (o, s1) := nx s0 in
  match o with
  | None => Ret (None, (s1, i))
  | Some a => Ret (Some (i, a), (s1, S i))
  end.
Definition ienum {A} (it : Iter A) : Iter (nat * A) :=
  MkIter (cur it, 0) (ienum_next (next it)).

(** [core::iter::Zip]: [let x = self.a.next()?; let y = self.b.next()?; Some((x, y))]. *)
Definition izip_next {A B X Y} (na : X -> outcome (option A * X)) (nb : Y -> outcome (option B * Y))
  (s : X * Y) : outcome (option (A * B) * (X * Y)) :=
  let '(sa, sb) := s in
  let? (oa, sa1) := na sa in
  match oa with
  | None => Ret (None, (sa1, sb))
  | Some a =>
      let? (ob, sb1) := nb sb in
      match ob with
      | None => Ret (None, (sa1, sb1))
      | Some b => Ret (Some (a, b), (sa1, sb1))
      end
  end.
Definition izip {A B} (a : Iter A) (b : Iter B) : Iter (A * B) :=
  MkIter (cur a, cur b) (izip_next (next a) (next b)).

(** [core::iter::Cycle]: when the inner iterator ends it is replaced by a clone of the
    original and asked once more. *)
Definition icycle_next {A X} (orig : X) (nx : X -> outcome (option A * X)) (s : X)
  : outcome (option A * X) :=
  let? (o, s1) := nx s in
  match o with
  | None => nx orig
  | Some a => Ret (Some a, s1)
  end.
Definition icycle {A} (it : Iter A) : Iter A :=
  MkIter (cur it) (icycle_next (cur it) (next it)).

(** [core::iter::Skip]: the first [next] is [iter.nth(n)], i.e. n items are dropped first
    (stopping if the source ends). *)
Fixpoint drop_items {A X} (n : nat) (nx : X -> outcome (option A * X)) (s : X) : outcome (bool * X) :=
  match n with
  | 0 => Ret (true, s)
  | S n' =>
      let? (o, s1) := nx s in
      match o with
      | None => Ret (false, s1)
      | Some _ => drop_items n' nx s1
      end
  end.
Definition iskip_next {A X} (nx : X -> outcome (option A * X)) (s : X * nat)
  : outcome (option A * (X * nat)) :=
  let '(s0, n) := s in
  let? (live, s1) := drop_items n nx s0 in
  if live then let? (o, s2) := nx s1 in Ret (o, (s2, 0)) else Ret (None, (s1, 0)).
Definition iskip {A} (n : nat) (it : Iter A) : Iter A :=
  MkIter (cur it, n) (iskip_next (next it)).

(** [core::iter::Take]. *)
Definition itake_next {A X} (nx : X -> outcome (option A * X)) (s : X * nat)
  : outcome (option A * (X * nat)) :=
  let '(s0, n) := s in
  match n with
  | 0 => Ret (None, (s0, 0))
  | S n' => let? (o, s1) := nx s0 in Ret (o, (s1, n'))
  end.
Definition itake {A} (n : nat) (it : Iter A) : Iter A :=
  MkIter (cur it, n) (itake_next (next it)).

(** A Rust [loop { ... }] whose body either finishes ([inl]) or goes round again ([inr]),
    cut off after [p] iterations.  The recursion is on the binary representation
    so that a bound of 2^64 costs nothing when the loop ends early. *)
Fixpoint loop_pos {X R} (p : positive) (body : X -> R + X) (s : X) : R + X :=
  match p with
  | xH => body s
  | xO q =>
      match loop_pos q body s with inl r => inl r | inr s1 => loop_pos q body s1 end
  | xI q =>
      match body s with
      | inl r => inl r
      | inr s1 =>
          match loop_pos q body s1 with inl r => inl r | inr s2 => loop_pos q body s2 end
      end
  end.

Definition two64 : Z := (2 ^ 64)%Z.
Definition loop_bound : positive := (2 ^ 64)%positive.

(** [core::iter::FlatMap]: the inner iterators are given as the lists they yield, and the
    closure may keep state ([FnMut], e.g. a captured RNG) and may panic.  The outer iterator is
    [Fuse]d: once it has returned [None] it is not asked again.
    [next] loops until an inner iterator is non-empty or the outer one ends. *)
Record flat_state (X C B : Type) : Type := FlatSt {
  fl_outer : option X;   (* None once fused *)
  fl_clo : C;            (* the closure's captured state *)
  fl_front : list B      (* what is left of the current inner iterator *)
}.
Arguments FlatSt {X C B} _ _ _.
Arguments fl_outer {X C B} _.
Arguments fl_clo {X C B} _.
Arguments fl_front {X C B} _.

Definition iflat_body {A B C X} (f : C -> A -> outcome (list B * C))
  (nx : X -> outcome (option A * X)) (s : flat_state X C B)
  : (outcome (option B * flat_state X C B)) + flat_state X C B :=
  match fl_front s with
  | b :: r => inl (Ret (Some b, FlatSt (fl_outer s) (fl_clo s) r))
  | [] =>
      match fl_outer s with
      | None => inl (Ret (None, s))
      | Some so =>
          match nx so with
          | Ret (None, _) => inl (Ret (None, FlatSt None (fl_clo s) []))
          | Ret (Some a, so1) =>
              match f (fl_clo s) a with
              | Ret (l, c1) => inr (FlatSt (Some so1) c1 l)
              | Panic => inl Panic
              | Diverge => inl Diverge
              end
          | Panic => inl Panic
          | Diverge => inl Diverge
          end
      end
  end.
Definition iflat_next {A B C X} (f : C -> A -> outcome (list B * C))
  (nx : X -> outcome (option A * X)) (s : flat_state X C B)
  : outcome (option B * flat_state X C B) :=
  match loop_pos loop_bound (iflat_body f nx) s with
  | inl r => r
  | inr _ => Diverge
  end.
Definition iflat_map {A B C} (c0 : C) (f : C -> A -> outcome (list B * C)) (it : Iter A) : Iter B :=
  MkIter (FlatSt (Some (cur it)) c0 []) (iflat_next f (next it)).

(** A closure without state that cannot panic. *)
Definition pure_fn {A B} (f : A -> list B) : unit -> A -> outcome (list B * unit) :=
  fun _ a => Ret (f a, tt).

(** [itertools::Itertools::tuples] for pairs: an incomplete last tuple is not returned.  The
    source is [Fuse]d. *)
Definition ituples_next {A X} (nx : X -> outcome (option A * X)) (s : option X)
  : outcome (option (A * A) * option X) :=
  match s with
  | None => Ret (None, None)
  | Some s0 =>
      let? (o1, s1) := nx s0 in
      match o1 with
      | None => Ret (None, None)
      | Some a =>
          let? (o2, s2) := nx s1 in
          match o2 with
          | None => Ret (None, None)
          | Some b => Ret (Some (a, b), Some s2)
          end
      end
  end.
Definition ituples {A} (it : Iter A) : Iter (A * A) :=
  MkIter (Some (cur it)) (ituples_next (next it)).
