(** /repo/src/cdma.rs (without the coded variants) and /repo/src/hadamard.rs.  Definitions only. *)
From Coq Require Import List Arith ZArith Bool.
From Verif Require Import Base IterModel Num LibModel ChaosModel PskModel.
Import ListNotations.
Local Open Scope num_scope.

(** usize multiplication: an overflow panics (as in debug builds; release builds wrap). *)
Definition usize_mul (a b : nat) : outcome nat :=
  if (Z.of_nat a * Z.of_nat b <? two64)%Z then Ret (a * b)%nat else Panic.
(** usize subtraction and remainder: panics below zero, and on a zero divisor. *)
Definition usize_sub (a b : nat) : outcome nat := if (b <=? a)%nat then Ret (a - b)%nat else Panic.
Definition usize_rem (a b : nat) : outcome nat := if (b =? 0)%nat then Panic else Ret (a mod b)%nat.

(** cdma.rs:9-17. *)
Definition tx_baseband_cdma (message : Iter bool) (key : list bool) : Iter bool :=
  imap (fun '(bit, k) => xorb bit k) (izip (inflate (length key) message) (icycle (of_list key))).

(** cdma.rs:20-38. *)
Definition rx_baseband_cdma (bitstream : Iter bool) (key : list bool) : Iter bool :=
  imap (fun data_bit : list bool =>
          let trueness := fold_left Nat.add (map (fun bit : bool => if bit then 1%nat else 0%nat) data_bit) 0%nat in
          (length key <? trueness * 2)%nat)
       (chunks (length key)
          (imap (fun '(bit, k) => xorb bit k) (izip bitstream (icycle (of_list key))))).

Section Cdma.
Context {T : Type} `{Num T}.

(** The four assertions and two divisions at the head of the passband functions:
    cdma.rs:50-57, 74-81, 137-144 and 161-168.  Returns (samples_per_symbol, samples_per_chip). *)
Definition cdma_rates (sample_rate symbol_rate : nat) (carrier_freq : T) (key : list bool) : outcome (nat * nat) :=
  let? chip_rate := usize_mul (length key) symbol_rate in
  assert_then (chip_rate <=? sample_rate / 2)%nat
  (assert_then (nyquist_ok sample_rate carrier_freq)
  (assert_then (is_int (nofnat sample_rate / nofnat symbol_rate))
  (assert_then (is_int (nofnat sample_rate / (nofnat symbol_rate * nofnat (length key))))
  (let? samples_per_symbol := usize_div sample_rate symbol_rate in
   let? samples_per_chip := usize_div samples_per_symbol (length key) in
   Ret (samples_per_symbol, samples_per_chip))))).

(** [signal.zip(key.iter().inflate(samples_per_chip).cycle()).map(|(s_i, &keybit)| s_i * bit_to_nrz(keybit))]:
    cdma.rs:60-61, 82-84, 147-148 and 169-171. *)
Definition chip_mul (samples_per_chip : nat) (key : list bool) (signal : Iter T) : Iter T :=
  imap (fun '(s_i, keybit) => s_i * bit_to_nrz keybit)
       (izip signal (icycle (inflate samples_per_chip (of_list key)))).

(** cdma.rs:43-62. *)
Definition tx_cdma_bpsk_signal (message : Iter bool) (sample_rate symbol_rate : nat) (carrier_freq : T)
  (key : list bool) : outcome (Iter T) :=
  let? (_, samples_per_chip) := cdma_rates sample_rate symbol_rate carrier_freq key in
  let? tx := tx_bpsk_signal message sample_rate symbol_rate carrier_freq in
  Ret (chip_mul samples_per_chip key tx).

(** cdma.rs:67-87. *)
Definition rx_cdma_bpsk_signal (signal : Iter T) (sample_rate symbol_rate : nat) (carrier_freq : T)
  (key : list bool) : outcome (Iter bool) :=
  let? (_, samples_per_chip) := cdma_rates sample_rate symbol_rate carrier_freq key in
  rx_bpsk_signal (chip_mul samples_per_chip key signal) sample_rate symbol_rate carrier_freq.

(** cdma.rs:130-149. *)
Definition tx_cdma_qpsk_signal (message : Iter bool) (sample_rate symbol_rate : nat) (carrier_freq : T)
  (key : list bool) : outcome (Iter T) :=
  let? (_, samples_per_chip) := cdma_rates sample_rate symbol_rate carrier_freq key in
  let? tx := tx_qpsk_signal message sample_rate symbol_rate carrier_freq in
  Ret (chip_mul samples_per_chip key tx).

(** cdma.rs:154-174. *)
Definition rx_cdma_qpsk_signal (signal : Iter T) (sample_rate symbol_rate : nat) (carrier_freq : T)
  (key : list bool) : outcome (Iter bool) :=
  let? (_, samples_per_chip) := cdma_rates sample_rate symbol_rate carrier_freq key in
  rx_qpsk_signal (chip_mul samples_per_chip key signal) sample_rate symbol_rate carrier_freq.

(** The channel of the multi-user tests (cdma.rs:384-387): every user's samples added onto a
    buffer of zeros; a user with fewer samples leaves the rest untouched. *)
Definition channel_add (acc tx : list T) : list T :=
  map (fun '(i, s_i) => match nth_error tx i with Some tx_i => s_i + tx_i | None => s_i end) (index_from 0 acc).
Definition channel (num_samples : nat) (txs : list (list T)) : list T :=
  fold_left channel_add txs (repeat (nofZ 0) num_samples).

End Cdma.

(** ** hadamard.rs *)

(** matrix[i][j] and matrix[i][j] = v. *)
Definition mget (m : list (list bool)) (i j : nat) : outcome bool := let? row := idx m i in idx row j.
Definition mset (m : list (list bool)) (i j : nat) (v : bool) : outcome (list (list bool)) :=
  let? row := idx m i in
  let? row' := set_idx row j v in
  set_idx m i row'.

(** hadamard.rs:16-20: the body of the inner loop. *)
Definition had_cell (i1 i2 : nat) (m : list (list bool)) (i3 : nat) : outcome (list (list bool)) :=
  let? v1 := mget m i2 i3 in
  let? m1 := mset m (i1 + i2) i3 v1 in
  let? v2 := mget m1 i2 i3 in
  let? m2 := mset m1 i2 (i1 + i3) v2 in
  let? v3 := mget m2 i2 i3 in
  mset m2 (i1 + i2) (i1 + i3) (negb v3).
(** hadamard.rs:14-23: the while loop; i1 at least doubles, so [fuel] = n rounds suffice. *)
Fixpoint had_loop (fuel n i1 : nat) (m : list (list bool)) : outcome (list (list bool)) :=
  match fuel with
  | 0 => Diverge
  | S fuel' =>
      if i1 <? n then
        let? m' := for_each (seq 0 i1) (fun m i2 => for_each (seq 0 i1) (had_cell i1 i2) m) m in
        had_loop fuel' n (i1 + i1) m'
      else Ret m
  end.
(** hadamard.rs:9-26.  [n - 1] underflows (panics in debug builds) for n = 0. *)
Definition HadamardMatrix_new (n : nat) : outcome (list (list bool)) :=
  let? n1 := usize_sub n 1 in
  assert_then (Nat.land n n1 =? 0)%nat
    (had_loop (S n) n 1 (repeat (repeat true n) n)).
(** hadamard.rs:27-30. *)
Definition HadamardMatrix_key (matrix : list (list bool)) (n : nat) : outcome (list bool) :=
  let? r := usize_rem n (length matrix) in
  idx matrix (r + 1).
