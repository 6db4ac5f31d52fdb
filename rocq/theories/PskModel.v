(** /repo/src/bpsk.rs and /repo/src/qpsk.rs.  Definitions only. *)
From Coq Require Import List Arith ZArith Bool.
From Verif Require Import Base IterModel Num LibModel ChaosModel.
Import ListNotations.
Local Open Scope num_scope.

Section Psk.
Context {T : Type} `{Num T}.

(** The test [sample_rate / 2 >= carrier_freq as usize] (bpsk.rs:30 and elsewhere). *)
Definition nyquist_ok (sample_rate : nat) (carrier_freq : T) : bool :=
  (nto_u64 carrier_freq <=? Z.of_nat (sample_rate / 2)%nat)%Z.

(** bpsk.rs:5-15. *)
Definition tx_baseband_bpsk_signal (message : Iter bool) : Iter (cpx T) :=
  imap (fun bit : bool => if bit then Cpx (nofZ 1) (nofZ 0) else Cpx (- nofZ 1) (nofZ 0)) message.

(** bpsk.rs:17-21. *)
Definition rx_baseband_bpsk_signal (message : Iter (cpx T)) : Iter bool :=
  imap (fun sample => nleb (nofZ 0) (re sample)) message.

(** bpsk.rs:23-41. *)
Definition tx_bpsk_signal (message : Iter bool) (sample_rate symbol_rate : nat) (carrier_freq : T)
  : outcome (Iter T) :=
  let? samples_per_symbol := usize_div sample_rate symbol_rate in
  assert_then (nyquist_ok sample_rate carrier_freq)
  (assert_then (is_int (nofnat sample_rate / nofnat symbol_rate))
  (Ret (imap (fun '(idx, msg_val) =>
                let time := nofnat idx / nofnat sample_rate in
                msg_val * ncos (nofZ 2 * npi * carrier_freq * time))
             (ienum (inflate samples_per_symbol (imap bit_to_nrz message)))))).

(** bpsk.rs:43-58. *)
Definition rx_bpsk_signal (message : Iter T) (sample_rate symbol_rate : nat) (carrier_freq : T)
  : outcome (Iter bool) :=
  let? samples_per_symbol := usize_div sample_rate symbol_rate in
  Ret (imap (fun thresh_val => nltb (nofZ 0) thresh_val)
         (integrate_and_dump (nofZ 0) nadd samples_per_symbol
            (imap (fun '(idx, sample) =>
                     let time := nofnat idx / nofnat sample_rate in
                     sample * ncos (nofZ 2 * npi * carrier_freq * time))
                  (ienum message)))).

(** qpsk.rs:6-15. *)
Definition tx_baseband_qpsk_signal (message : Iter bool) : Iter (cpx T) :=
  imap (fun '(bit1, bit2) =>
          match bit1, bit2 with
          | true, true => Cpx (nsqrt (nofZ 2)) (nsqrt (nofZ 2))
          | true, false => Cpx (nsqrt (nofZ 2)) (- nsqrt (nofZ 2))
          | false, true => Cpx (- nsqrt (nofZ 2)) (nsqrt (nofZ 2))
          | false, false => Cpx (- nsqrt (nofZ 2)) (- nsqrt (nofZ 2))
          end)
       (ituples message).

(** qpsk.rs:17-21. *)
Definition rx_baseband_qpsk_signal (message : Iter (cpx T)) : Iter bool :=
  iflat_map tt (pure_fn (fun sample => [nleb (nofZ 0) (re sample); nleb (nofZ 0) (im sample)])) message.

(** qpsk.rs:23-42. *)
Definition tx_qpsk_signal (message : Iter bool) (sample_rate symbol_rate : nat) (carrier_freq : T)
  : outcome (Iter T) :=
  let? samples_per_symbol := usize_div sample_rate symbol_rate in
  Ret (imap (fun '(idx, (bit1, bit2)) =>
               let time := nofnat idx / nofnat sample_rate in
               let i_t := bit_to_nrz bit1 * ncos (nofZ 2 * npi * carrier_freq * time) in
               let q_t := (- bit_to_nrz bit2) * nsin (nofZ 2 * npi * carrier_freq * time) in
               i_t + q_t)
            (ienum (inflate samples_per_symbol (ituples message)))).

(** qpsk.rs:44-64.  An array [f64; 2] is a list of length 2. *)
Definition rx_qpsk_signal (message : Iter T) (sample_rate symbol_rate : nat) (carrier_freq : T)
  : outcome (Iter bool) :=
  let? samples_per_symbol := usize_div sample_rate symbol_rate in
  Ret (iflat_map tt
         (pure_fn (fun row => match row with
                              | [val1; val2] => [nleb (nofZ 0) val1; nleb (nofZ 0) val2]
                              | _ => []
                              end))
         (nintegrate_and_dump 2 (nofZ 0) nadd samples_per_symbol
            (imap (fun '(idx, sample) =>
                     let time := nofnat idx / nofnat sample_rate in
                     let ii := sample * ncos (nofZ 2 * npi * carrier_freq * time) in
                     let qi := sample * (- nsin (nofZ 2 * npi * carrier_freq * time)) in
                     [ii; qi])
                  (ienum message)))).

End Psk.
