(** /repo/src/lib.rs:372-609, the functions offered to Python.  Definitions only.

    Simplified: pyo3's conversions of arguments and results are not modelled, a [Vec] is a list.  A
    call takes the number of [next] calls its [collect] may make, and is [Diverge] when they do not
    suffice.  [random_data] (lib.rs:388-392) is left out: it only draws random bits.  avg_energy_py,
    energy_detector, awgn_py and pure_awgn are in LibModel.v, the detectors in DetectModel.v. *)
From Coq Require Import List Arith ZArith NArith Bool.
From Verif Require Import Base IterModel Num LibModel ChaosModel PskModel CdmaModel FhModel FskModel FftModel OfdmModel
  FhOfdmModel SscaModel.
Import ListNotations.

(** [make().collect()]. *)
Definition py_collect {A} (make : outcome (Iter A)) (fuel : nat) : outcome (list A) :=
  let? it := make in collect fuel it.

Section Py.
Context {T : Type} `{Num T} `{SignPos T}.
Variable fft : Fft T.
Variable rng : Rng.

(** lib.rs:372-386. *)
Definition py_ssca (s : list T) (n np : nat) (map_output : bool) : outcome (list (list (cpx T))) :=
  if map_output then ssca_mapped fft s n np else ssca_base fft s n np.

(** lib.rs:422-425. *)
Definition py_chirp (chirp_rate : T) (sample_rate : nat) (f0 f1 : T) :=
  py_collect (Ret (linear_chirp chirp_rate sample_rate f0 f1)).

(** lib.rs:430-434. *)
Definition py_tx_baseband_bpsk (message : list bool) : nat -> outcome (list (cpx T)) :=
  py_collect (Ret (tx_baseband_bpsk_signal (of_list message))).

(** lib.rs:436-445. *)
Definition py_tx_bpsk (message : list bool) (sample_rate symbol_rate : nat) (carrier_freq : T) :=
  py_collect (tx_bpsk_signal (of_list message) sample_rate symbol_rate carrier_freq).

(** lib.rs:447-455. *)
Definition py_rx_bpsk (signal : list T) (sample_rate symbol_rate : nat) (carrier_freq : T) :=
  py_collect (rx_bpsk_signal (of_list signal) sample_rate symbol_rate carrier_freq).

(** lib.rs:457-466. *)
Definition py_tx_qpsk (message : list bool) (sample_rate symbol_rate : nat) (carrier_freq : T) :=
  py_collect (tx_qpsk_signal (of_list message) sample_rate symbol_rate carrier_freq).

(** lib.rs:468-476. *)
Definition py_rx_qpsk (signal : list T) (sample_rate symbol_rate : nat) (carrier_freq : T) :=
  py_collect (rx_qpsk_signal (of_list signal) sample_rate symbol_rate carrier_freq).

(** lib.rs:478-497. *)
Definition py_tx_ofdm (message : list bool) (subcarriers pilots sample_rate symbol_rate : nat) (carrier_freq : T) :=
  py_collect (tx_ofdm_qpsk_signal fft (of_list message) subcarriers pilots sample_rate symbol_rate carrier_freq).

(** lib.rs:499-517. *)
Definition py_rx_ofdm (signal : list T) (subcarriers pilots sample_rate symbol_rate : nat) (carrier_freq : T) :=
  py_collect (rx_ofdm_qpsk_signal fft (of_list signal) subcarriers pilots sample_rate symbol_rate carrier_freq).

(** lib.rs:519-537. *)
Definition py_tx_cdma_bpsk (message : list bool) (sample_rate symbol_rate : nat) (carrier_freq : T) :=
  py_collect (let? walsh_codes := HadamardMatrix_new 16 in
              let? key := HadamardMatrix_key walsh_codes 0 in
              tx_cdma_bpsk_signal (of_list message) sample_rate symbol_rate carrier_freq key).

(** lib.rs:539-555. *)
Definition py_tx_bfsk (message : list bool) (sample_rate symbol_rate : nat) (freq_low freq_high : T) :=
  py_collect (tx_bfsk_signal (of_list message) sample_rate symbol_rate freq_low freq_high).

(** lib.rs:557-575. *)
Definition py_tx_fh_css (message : list bool) (sample_rate symbol_rate : nat) (freq_low freq_high : T) (num_freqs : nat) :=
  py_collect (tx_fh_css_signal rng (of_list message) sample_rate symbol_rate freq_low freq_high num_freqs).

(** lib.rs:577-584 and 586-593: [tx_csk] and [tx_dcsk] of ChaosModel.v. *)
Definition py_tx_csk (message : list bool) (sample_rate symbol_rate : nat) :=
  py_collect (tx_csk (of_list message) sample_rate symbol_rate).
Definition py_tx_dcsk (message : list bool) (sample_rate symbol_rate : nat) :=
  py_collect (tx_dcsk (of_list message) sample_rate symbol_rate).

(** lib.rs:595-607, without the [println!]. *)
Definition py_tx_fh_ofdm_dcsk (message : list bool) (sample_rate symbol_rate : nat) (carrier_freq : T) :=
  py_collect (tx_fh_ofdm_dcsk_signal_2 fft rng (of_list message) sample_rate symbol_rate carrier_freq).
End Py.
