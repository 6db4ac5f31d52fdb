(** Textbook notions over the reals used in theorem statements. *)
From Coq Require Import List Reals.
Import ListNotations.
Local Open Scope R_scope.

(** Sum of a list. *)
Fixpoint Rsum (l : list R) : R := match l with [] => 0 | x :: r => x + Rsum r end.
(** Sum of squares. *)
Definition sumsq (l : list R) : R := Rsum (map (fun x => x * x) l).
(** Sum of f 0 ... f (n-1). *)
Fixpoint Rsum_n (n : nat) (f : nat -> R) : R := match n with O => 0 | S n' => Rsum_n n' f + f n' end.
