(** Small, independent specifications used by the theorem statements.  Nothing here refers to the
    model of the code. *)
From Coq Require Import List Arith.
Import ListNotations.

(** Every item n times, in order. *)
Definition repeat_each {A} (n : nat) (l : list A) : list A := flat_map (fun a => repeat a n) l.

(** The i-th block of n consecutive items (shorter, or empty, at the end of the list). *)
Definition block {A} (n i : nat) (l : list A) : list A := firstn n (skipn (i * n) l).

(** Linear convolution: out i = sum over k of h[k] x[i-k], k ascending, indices in range.
    [mul] takes (sample, tap). *)
Definition lin_conv_terms {A B C} (mul : A -> B -> C) (x : list A) (h : list B) (i : nat) : list C :=
  flat_map (fun k =>
    match (if k <=? i then nth_error x (i - k) else None), nth_error h k with
    | Some a, Some b => [mul a b]
    | _, _ => []
    end) (seq 0 (length h)).
Definition lin_conv_at {A B C} (zero : C) (add : C -> C -> C) (mul : A -> B -> C)
  (x : list A) (h : list B) (i : nat) : C :=
  fold_left add (lin_conv_terms mul x h i) zero.
Definition lin_conv {A B C} (zero : C) (add : C -> C -> C) (mul : A -> B -> C)
  (x : list A) (h : list B) : list C :=
  map (lin_conv_at zero add mul x h) (seq 0 (length x + length h - 1)).

(** Left rotation by k places. *)
Definition rotate_left {A} (k : nat) (l : list A) : list A := skipn k l ++ firstn k l.

(** The list [f 0; ...; f (n-1)]. *)
Definition tab {A} (n : nat) (f : nat -> A) : list A := map f (seq 0 n).
