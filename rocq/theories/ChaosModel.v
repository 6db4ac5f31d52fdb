(** /repo/src/chaos/, /repo/src/csk.rs, /repo/src/dcsk.rs and the rate wrappers of /repo/src/lib.rs.
    Definitions only. *)
From Coq Require Import List Arith ZArith Bool.
From Verif Require Import Base IterModel Num LibModel.
Import ListNotations.
Local Open Scope num_scope.

(** [impl Iterator] of LogisticMap and Chebyshev: [self.xn = f(self.xn); Some(self.xn)]
    (chaos/logistic_map.rs:20-23, chaos/chebyshev.rs:24-27). *)
Definition orbit {X} (f : X -> X) (x0 : X) : Iter X :=
  MkIter x0 (fun x => let xn := f x in Ret (Some xn, xn)).

Section Chaos.
Context {T : Type} `{Num T}.

(** chaos/logistic_map.rs:2-4. *)
Definition logistic_map (mu x0 : T) : T := mu * x0 * (nofZ 1 - x0).
(** chaos/logistic_map.rs:12-15. *)
Definition LogisticMap_new (mu x0 : T) : outcome (Iter T) :=
  assert_then (nleb (nofZ 0) x0 && nleb x0 (nofZ 1)) (Ret (orbit (logistic_map mu) x0)).

(** chaos/chebyshev.rs:3-8. *)
Definition chebyshev (xn : T) : T :=
  let mu := nofZ 3 in
  mu * npowi xn 3 - (nofZ 1 - mu) * xn.
(** chaos/chebyshev.rs:15-18. *)
Definition Chebyshev_new (x0 : T) : outcome (Iter T) :=
  assert_then (nleb (- nofZ 1) x0 && nleb x0 (nofZ 1)) (Ret (orbit chebyshev x0)).

(** chaos/mod.rs:6-8. *)
Definition tent_map (mu x0 : T) : T := nofZ 2 * mu * (nofZ 1 - nabs x0) - nofZ 1.
(** chaos/mod.rs:10-16. *)
Definition bernoulli_map (mu x0 : T) : T :=
  if nltb x0 (nofZ 0) then mu * x0 + nofZ 1 else mu * x0 - nofZ 1.

(** csk.rs:3-11. *)
Definition tx_baseband_csk (message : Iter bool) : outcome (Iter T) :=
  let mu := nlit 39 10 in
  let x0_1 := nlit 1 10 in
  let x0_2 := nlit 15 100 in
  let? c1 := LogisticMap_new mu x0_1 in
  let? c2 := LogisticMap_new mu x0_2 in
  Ret (imap (fun '((bit, chaos_1), chaos_2) => if bit : bool then chaos_1 else chaos_2)
            (izip (izip message c1) c2)).

(** csk.rs:13-21. *)
Definition rx_baseband_csk (message : Iter T) : outcome (Iter bool) :=
  let mu := nlit 39 10 in
  let x0_1 := nlit 1 10 in
  let x0_2 := nlit 15 100 in
  let? c1 := LogisticMap_new mu x0_1 in
  let? c2 := LogisticMap_new mu x0_2 in
  Ret (imap (fun '((sample, chaos_1), chaos_2) => nltb (nabs (sample - chaos_1)) (nabs (sample - chaos_2)))
            (izip (izip message c1) c2)).

(** dcsk.rs:4-8. *)
Definition tx_baseband_dcsk (message : Iter bool) : outcome (Iter T) :=
  let? c := LogisticMap_new (nlit 39 10) (nlit 1 10) in
  Ret (iflat_map tt (pure_fn (fun '(bit, reference) => [reference; reference * bit_to_nrz bit]))
                 (izip message c)).

(** dcsk.rs:10-14. *)
Definition rx_baseband_dcsk (message : Iter T) : Iter bool :=
  imap (fun '(reference, information) => nltb (nofZ 0) (reference * information)) (ituples message).

(** lib.rs:577-593, before collect: [sample_rate / symbol_rate] is an integer division
    (a zero divisor panics). *)
Definition usize_div (a b : nat) : outcome nat := if (b =? 0)%nat then Panic else Ret (a / b)%nat.
Definition wrap_rate (tx : Iter bool -> outcome (Iter T)) (message : Iter bool) (sample_rate symbol_rate : nat)
  : outcome (Iter T) :=
  assert_then (is_int (nofnat sample_rate / nofnat symbol_rate))
    (let? samples_per_symbol := usize_div sample_rate symbol_rate in
     let? it := tx message in
     Ret (inflate samples_per_symbol it)).
Definition tx_csk := wrap_rate tx_baseband_csk.
Definition tx_dcsk := wrap_rate tx_baseband_dcsk.

End Chaos.
