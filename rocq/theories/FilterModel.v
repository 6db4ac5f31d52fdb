(** /repo/src/costas.rs and /repo/src/filters.rs.  Definitions only. *)
From Coq Require Import List Arith ZArith Bool.
From Verif Require Import Base Num.
Import ListNotations.
Local Open Scope num_scope.

Section Filters.
Context {T : Type} `{Num T}.

(** costas.rs:2-7. *)
Record CostasLoop : Type := MkCostas { alpha : T; beta : T; vco_phase : T; vco_freq : T }.

(** costas.rs:10-17. *)
Definition CostasLoop_new : CostasLoop :=
  MkCostas (nlit 132 1000) (nlit 932 100000) (nofZ 0) (nofZ 0).

(** costas.rs:19-29: the output and the state after. *)
Definition costas_update (self : CostasLoop) (sample : cpx T) : cpx T * CostasLoop :=
  let vco_out := scalec (vco_phase self) (Cpx (nofZ 0) (- nofZ 1)) in
  let out := cmul sample vco_out in
  let error := re out * im out in
  let freq := vco_freq self + beta self * error in
  let phase := vco_phase self + (alpha self * error + freq) in
  (out, MkCostas (alpha self) (beta self) phase freq).

(** A caller that feeds samples to one loop, one after the other (no such caller in the repository). *)
Fixpoint costas_run (self : CostasLoop) (samples : list (cpx T)) : list (cpx T) :=
  match samples with
  | [] => []
  | s :: r => let '(out, self') := costas_update self s in out :: costas_run self' r
  end.

(** filters.rs:6-19: the closure. *)
Definition rrcos_tap (taps : nat) (beta symbol_length samp_rate : T) (i : nat) : T :=
  let ts := symbol_length in
  let t := (nofnat i - nofnat taps / nofZ 2) / samp_rate in
  if neqb t (nofZ 0) then
    nofZ 1 / ts + beta * (nofZ 4 / npi - nofZ 1)
  else if negb (neqb beta (nofZ 0)) &&
          (neqb t (ts / (nofZ 2 * beta)) || neqb ts (- ts / (nofZ 2 * beta))) then
    beta / (ts * nsqrt (nofZ 2))
    * ((nofZ 1 + nofZ 2 / npi) * nsin (npi / (nofZ 4 * beta))
       + (nofZ 1 - nofZ 2 / npi) * ncos (npi / (nofZ 4 * beta)))
  else
    ((nofZ 1 / ts) * nsin (npi * t / ts * (nofZ 1 - beta))
     + nofZ 4 * beta * t / ts * ncos (npi * t / ts * (nofZ 1 + beta)))
    / (npi * t / ts * (nofZ 1 - nsqr (nofZ 4 * beta * t / ts))).

(** filters.rs:3-21. *)
Definition rrcosfilter (taps : nat) (beta symbol_length samp_rate : T) : list T :=
  map (rrcos_tap taps beta symbol_length samp_rate) (seq 0 taps).

End Filters.
Arguments CostasLoop T : clear implicits.
