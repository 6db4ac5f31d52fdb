(** /repo/src/fsk.rs and /repo/src/fm.rs.  Definitions only. *)
From Coq Require Import List Arith ZArith Bool.
From Verif Require Import Base IterTheory IterModel Num LibModel ChaosModel PskModel.
Import ListNotations.
Local Open Scope num_scope.

Section Fsk.
Context {T : Type} `{Num T}.

(** fsk.rs:4-23. *)
Definition tx_bfsk_signal (message : Iter bool) (sample_rate symbol_rate : nat) (freq_low freq_high : T) : outcome (Iter T) :=
  let? samples_per_symbol := usize_div sample_rate symbol_rate in
  assert_then (nyquist_ok sample_rate freq_high)
  (assert_then (is_int (nofnat sample_rate / nofnat symbol_rate))
  (Ret (imap (fun '(idx, freq) =>
                let time := nofnat idx / nofnat sample_rate in
                ncos (nofZ 2 * npi * freq * time))
             (ienum (inflate samples_per_symbol (imap (fun bit : bool => if bit then freq_high else freq_low) message)))))).

(** fsk.rs:25-46. *)
Definition tx_mfsk_signal (message : Iter bool) (sample_rate symbol_rate : nat) (freq_low freq_high : T) (num_freqs : nat)
  : outcome (Iter T) :=
  let? samples_per_symbol := usize_div sample_rate symbol_rate in
  assert_then (nyquist_ok sample_rate freq_high)
  (assert_then (is_int (nofnat sample_rate / nofnat symbol_rate))
  (Ret (imap (fun '(idx, freq) =>
                let time := nofnat idx / nofnat sample_rate in
                ncos (nofZ 2 * npi * freq * time))
             (ienum (inflate samples_per_symbol (imap (fun bit : bool => if bit then freq_high else freq_low) message)))))).

(** [freqs[i]]: panics out of bounds. *)
Definition freq_at (freqs : list T) (i : nat) : outcome T :=
  match nth_error freqs i with Some f => Ret f | None => Panic end.

(** fsk.rs:48-68. *)
Definition tx_fsk_signal (message : Iter bool) (sample_rate symbol_rate : nat) (freqs : list T) : outcome (Iter T) :=
  let? samples_per_symbol := usize_div sample_rate symbol_rate in
  let? freq_high := freq_at freqs 0 in
  let? freq_low := freq_at freqs 1 in
  assert_then (nyquist_ok sample_rate freq_high)
  (assert_then (is_int (nofnat sample_rate / nofnat symbol_rate))
  (Ret (imap (fun '(idx, freq) =>
                let time := nofnat idx / nofnat sample_rate in
                ncos (nofZ 2 * npi * freq * time))
             (ienum (inflate samples_per_symbol (imap (fun bit : bool => if bit then freq_high else freq_low) message)))))).

(** fsk.rs:69-77. *)
Definition rx_bfsk_signal (signal : Iter T) (sample_rate symbol_rate : nat) (freq_low freq_high : T) : Iter bool :=
  of_list [true].

(** fm.rs:4-22. *)
Definition tx_fsk (message : Iter bool) (sample_rate symbol_rate : nat) (carrier_freq : T) : outcome (Iter T) :=
  let? samples_per_symbol := usize_div sample_rate symbol_rate in
  let sep := nlit 5 100 * carrier_freq in
  Ret (imap (fun '(idx, sig) =>
               let time := nofnat idx / nofnat sample_rate in
               ncos (nofZ 2 * npi * (carrier_freq + sig * (sep / nofZ 2)) * time))
            (ienum (inflate samples_per_symbol (imap bit_to_nrz message)))).

(** fm.rs:42-50: the four products of one sample. *)
Definition fsk_products (sample_rate : nat) (carrier_freq sep time : T) (jdx : nat) (s_i : T) : T * T * T * T :=
  let t_i := time + nofnat jdx / nofnat sample_rate in
  (s_i * ncos (nofZ 2 * npi * (carrier_freq + sep / nofZ 2) * t_i),
   s_i * nsin (nofZ 2 * npi * (carrier_freq + sep / nofZ 2) * t_i),
   s_i * ncos (nofZ 2 * npi * (carrier_freq - sep / nofZ 2) * t_i),
   s_i * nsin (nofZ 2 * npi * (carrier_freq - sep / nofZ 2) * t_i)).

(** fm.rs:36-57: the closure applied to chunk number [idx].  The time of the chunk is idx / sample_rate. *)
Definition fsk_decide (sample_rate : nat) (carrier_freq sep : T) (idx : nat) (chunk : list T) : bool :=
  let time := nofnat idx / nofnat sample_rate in
  let '(s0, s1, s2, s3) :=
    fold_left (fun '(a0, a1, a2, a3) '(v0, v1, v2, v3) => (a0 + v0, a1 + v1, a2 + v2, a3 + v3))
      (map (fun '(jdx, s_i) => fsk_products sample_rate carrier_freq sep time jdx s_i) (index_from 0 chunk))
      (nofZ 0, nofZ 0, nofZ 0, nofZ 0) in
  nleb (nofZ 0) ((nsqr s0 + nsqr s1) - (nsqr s2 + nsqr s3)).

(** fm.rs:24-58. *)
Definition rx_fsk (signal : Iter T) (sample_rate symbol_rate : nat) (carrier_freq : T) : outcome (Iter bool) :=
  let? samples_per_symbol := usize_div sample_rate symbol_rate in
  let sep := nlit 5 100 * carrier_freq in
  Ret (imap (fun '(idx, chunk) => fsk_decide sample_rate carrier_freq sep idx chunk)
            (ienum (chunks samples_per_symbol signal))).

(** fm.rs:60-77. *)
Definition tx_fm (signal : Iter T) (sample_rate symbol_rate : nat) (carrier_freq : T) : outcome (Iter T) :=
  let? samples_per_symbol := usize_div sample_rate symbol_rate in
  let k := nlit 5 100 in
  Ret (imap (fun '(idx, msg_cumsum) =>
               let time := nofnat idx / nofnat sample_rate in
               ncos (nofZ 2 * npi * carrier_freq * time + k * msg_cumsum))
            (ienum (integrate (nofZ 0) nadd (inflate samples_per_symbol signal)))).

End Fsk.
