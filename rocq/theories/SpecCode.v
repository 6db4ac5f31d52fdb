(** Specifications for coding: error counts and what a codec must do. *)
From Coq Require Import List Arith NArith Bool.
From Verif Require Import Spec BchModel.
Import ListNotations.

(** In how many places two lists differ. *)
Definition differ {A} (eqd : forall x y : A, {x = y} + {x <> y}) (a b : list A) : nat :=
  length (filter (fun p => if eqd (fst p) (snd p) then false else true) (combine a b)).

Definition bytes (l : list N) : Prop := forall b, In b l -> (b < 256)%N.

(** The contract of a Reed-Solomon codec with [ecc] parity bytes: the code word is the data followed
    by the parity, and up to ecc/2 wrong bytes are corrected. *)
Definition corrects (rs : Codec) (ecc : nat) : Prop :=
  forall data, bytes data -> length data + ecc <= 255 ->
    (exists parity, rs_encode rs ecc data = data ++ parity /\ length parity = ecc /\ bytes parity) /\
    forall received, bytes received -> length received = length data + ecc ->
      2 * differ N.eq_dec received (rs_encode rs ecc data) <= ecc ->
      rs_correct rs ecc received = Some data.
