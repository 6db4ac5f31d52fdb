(** The bit-error-rate curves of /repo/kom_py/ber.py and ber_theory.py.  Definitions only.

    Simplified: multiprocessing's starmap is a map in order; an exception anywhere is [Panic].  The
    noise drawn by the k-th call at level n0 is the parameter [noise k n0].  [fuel] bounds the number
    of items collected by the compiled functions.  Python's OverflowError when the square of a sample
    overflows, numpy's warnings and the plots are left out.  noise_sig (ber.py:45-46) is never called. *)
From Coq Require Import List Arith ZArith Bool.
From Flocq Require Import Core BinarySingleNaN.
From Verif Require Import Base IterModel Num LibModel PskModel FftModel OfdmModel PyModel SscaModel KomModel LabModel.
Import ListNotations.
Local Open Scope num_scope.

(** [np.nan_to_num]: NaN becomes 0, the infinities the finite numbers of greatest magnitude. *)
Definition nan_to_num (x : F64) : F64 :=
  match x with B754_nan => B754_zero false | _ => not_inf x end.

Section Ber.
Context {T : Type} `{Num T}.
(** [np.nan_to_num] at the number type. *)
Variable nan0 : T -> T.

(** ber.py:51-54, and ber_theory.py:77-80 and 91-94, where len(data) is NUM_BITS: the energy per bit and one noise
    level for each signal-to-noise ratio.  Dividing by no bits raises. *)
Definition kom_noise_levels (sample_rate symbol_rate : nat) (data : list bool) (tx_sig snrs : list T) : outcome (list T) :=
  if (length data =? 0)%nat then Panic
  else
    let eb := fold_left nadd (map nsqr tx_sig) (nofZ 0) / nofnat (length data) in
    Ret (map (fun snr => nan0 (nsqrt (nofnat sample_rate * eb / (nofZ 2 * snr)) / nofnat symbol_rate)) snrs).

(** ber.py:39-42 and ber_theory.py:35-38. *)
Definition kom_get_ber (fuel : nat) (data : list bool) (tx_sig : list T) (rx_func : list T -> outcome (list bool))
  (noise : T -> Iter T) (n0 : T) : outcome T :=
  let? chan := awgn noise (of_list tx_sig) n0 in
  let? noisy_sig := collect fuel chan in
  let? sig_hat := rx_func noisy_sig in
  kom_ber data sig_hat.

(** ber.py:49-62. *)
Definition kom_calc_ber (fuel sample_rate symbol_rate : nat) (noise : nat -> T -> Iter T) (data : list bool) (tx_sig : list T)
  (rx_fn : list T -> outcome (list bool)) (snrs : list T) : outcome (list T) :=
  let? n0s := kom_noise_levels sample_rate symbol_rate data tx_sig snrs in
  push_rows (index_from 0 n0s) (fun '(k, n0) => kom_get_ber fuel data tx_sig rx_fn (noise k) n0).

(** ber_theory.py:76-82, the halved BPSK signal. *)
Definition kom_half_ber (fuel sample_rate symbol_rate : nat) (noise : nat -> T -> Iter T) (data : list bool) (tx_sig : list T)
  (rx_fn : list T -> outcome (list bool)) (snrs : list T) : outcome (list T) :=
  kom_calc_ber fuel sample_rate symbol_rate noise data (map (fun s_i => nlit 1 2 * s_i) tx_sig) rx_fn snrs.

Variable fft : Fft T.

(** A Python bool passed where a Vec<f64> is wanted: True is 1.0, False is 0.0. *)
Definition float_of_bool (b : bool) : T := if b then nofZ 1 else nofZ 0.

(** ber.py:91-96: the argument [signal] is not used, [data] is the script's message. *)
Definition kom_ofdm_rx (fuel : nat) (data : list bool) (subcarriers pilots sample_rate symbol_rate : nat) (carrier_freq : T)
  (signal : list T) : outcome (list bool) :=
  py_rx_ofdm fft (map float_of_bool data) subcarriers pilots sample_rate symbol_rate carrier_freq fuel.

(** ber.py:66-69 and 85-86; int(16 * 0.8) is 12. *)
Definition BER_SAMPLE_RATE : nat := (256 * 256)%nat.
Definition BER_SYMBOL_RATE : nat := 256.
Definition BER_CARRIER_FREQ : T := nofZ 2121.
Definition BER_SUBCARRIERS : nat := 16.
Definition BER_PILOTS : nat := 12.

(** ber.py:98-125 for one message: the three signals, then the three curves. *)
Definition kom_ber_main (fuel : nat) (noise : nat -> nat -> T -> Iter T) (data : list bool) (snrs : list T)
  : outcome (list (list T)) :=
  let? bpsk := py_tx_bpsk data BER_SAMPLE_RATE BER_SYMBOL_RATE BER_CARRIER_FREQ fuel in
  let? qpsk := py_tx_qpsk data BER_SAMPLE_RATE BER_SYMBOL_RATE BER_CARRIER_FREQ fuel in
  let? ofdm := py_tx_ofdm fft data BER_SUBCARRIERS BER_PILOTS BER_SAMPLE_RATE BER_SYMBOL_RATE BER_CARRIER_FREQ fuel in
  let? bpsk_bers := kom_calc_ber fuel BER_SAMPLE_RATE BER_SYMBOL_RATE (noise 0%nat) data bpsk
    (fun signal => py_rx_bpsk signal BER_SAMPLE_RATE BER_SYMBOL_RATE BER_CARRIER_FREQ fuel) snrs in
  let? qpsk_bers := kom_calc_ber fuel BER_SAMPLE_RATE BER_SYMBOL_RATE (noise 1%nat) data qpsk
    (fun signal => py_rx_qpsk signal BER_SAMPLE_RATE BER_SYMBOL_RATE BER_CARRIER_FREQ fuel) snrs in
  let? ofdm_bers := kom_calc_ber fuel BER_SAMPLE_RATE BER_SYMBOL_RATE (noise 2%nat) data ofdm
    (kom_ofdm_rx fuel data BER_SUBCARRIERS BER_PILOTS BER_SAMPLE_RATE BER_SYMBOL_RATE BER_CARRIER_FREQ) snrs in
  Ret [bpsk_bers; qpsk_bers; ofdm_bers].
End Ber.
