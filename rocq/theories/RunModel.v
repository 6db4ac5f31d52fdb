(** The detection runs of /repo/kom_py/lambdas.py: the eight transmitters of [harness] and [__run].
    Definitions only.

    Simplified: multiprocessing's map is a map in order; an exception anywhere is [Panic].  The bits
    drawn and the noise are parameters.  [fuel] bounds the number of items collected by the compiled
    functions and the rounds of the while loop.  The logistic regressions (269-274) are in LabModel.v;
    the progress bar, the log and the plots are left out. *)
From Coq Require Import List Arith ZArith Bool.
From Verif Require Import Base IterModel Num LibModel FhModel FftModel OfdmModel FhOfdmModel SscaModel DetectModel PyModel.
Import ListNotations.
Local Open Scope num_scope.

(** lambdas.py:291-292; 2**16 is written as a product. *)
Definition LAM_SAMPLE_RATE : nat := (256 * 256)%nat.
Definition LAM_SYMBOL_RATE : nat := 256.

(** lambdas.py:337-346: the entries of [harness]. *)
Inductive modulation := M_BFSK | M_BPSK | M_CDMA | M_OFDM | M_FH_CSS | M_CSK | M_DCSK | M_FH_OFDM_DCSK.

Section Run.
Context {T : Type} `{Num T} `{SignPos T}.

(** lambdas.py:293. *)
Definition LAM_CARRIER_FREQ : T := nofZ 2000.

(** lambdas.py:295-334.  In [ofdm_signal] int(8 * 0.8) is 6.  0.8 is the quotient 8 / 10. *)
Definition lam_tx (fft : Fft T) (rng : Rng) (m : modulation) (data : list bool) : nat -> outcome (list T) :=
  match m with
  | M_BFSK => py_tx_bfsk data LAM_SAMPLE_RATE LAM_SYMBOL_RATE (LAM_CARRIER_FREQ * nlit 8 10) LAM_CARRIER_FREQ
  | M_BPSK => py_tx_bpsk data LAM_SAMPLE_RATE LAM_SYMBOL_RATE LAM_CARRIER_FREQ
  | M_CDMA => py_tx_cdma_bpsk data LAM_SAMPLE_RATE LAM_SYMBOL_RATE LAM_CARRIER_FREQ
  | M_OFDM => py_tx_ofdm fft data 8 6 LAM_SAMPLE_RATE LAM_SYMBOL_RATE LAM_CARRIER_FREQ
  | M_FH_CSS => py_tx_fh_css rng data LAM_SAMPLE_RATE LAM_SYMBOL_RATE (nofZ 2000) (nofZ 10000) 8
  | M_CSK => py_tx_csk data LAM_SAMPLE_RATE LAM_SYMBOL_RATE
  | M_DCSK => py_tx_dcsk data LAM_SAMPLE_RATE LAM_SYMBOL_RATE
  | M_FH_OFDM_DCSK => py_tx_fh_ofdm_dcsk fft rng data LAM_SAMPLE_RATE LAM_SYMBOL_RATE LAM_CARRIER_FREQ
  end.

(** lambdas.py:67 and 73, [modulation.tx_func]. *)
Variable tx_func : list bool -> nat -> outcome (list T).

(** lambdas.py:229-235.  [first k n] is what random_data(n) gives in round k. *)
Fixpoint run_first (first : nat -> nat -> list bool) (rounds fuel k num_bits : nat) : outcome (nat * list T) :=
  let? signal := tx_func (first k num_bits) fuel in
  if (Z.of_nat (length signal) <? 4096 + 64)%Z then
    match rounds with
    | O => Diverge
    | S rounds => run_first first rounds fuel (S k) (num_bits + 10)
    end
  else Ret (num_bits, signal).

(** lambdas.py:238-240. *)
Definition run_levels (signal snrs : list T) : list T :=
  let eb := avg_energy signal in map (fun snr => eb / snr) snrs.

(** lambdas.py:48-53, without the name and the regressions. *)
Record detector := Detector { detect_fn : list T -> outcome T; h0s : list (list T); h1s : list (list T) }.

(** lambdas.py:56-61. *)
Definition lam_detectors (fft : Fft T) : list detector :=
  [Detector (max_cut_detector fft) [] []; Detector (fun s => Ret (energy_detector s)) [] []].

(** What attempt j at level i draws: the bits, the noise added to the signal, and the noise alone. *)
Variable draw : nat -> nat -> nat -> list bool.
Variables noise1 noise0 : nat -> nat -> T -> Iter T.

(** lambdas.py:251-254. *)
Definition run_signals (fuel num_attempts num_bits i : nat) (n0 : T) : outcome (list (list T)) :=
  push_rows (seq 0 num_attempts) (fun j =>
    let? s := tx_func (draw i j num_bits) fuel in
    let? noisy := awgn (noise1 i j) (of_list s) n0 in collect fuel noisy).

(** lambdas.py:255-257. *)
Definition run_noises (fuel num_attempts i : nat) (n0 : T) (signals : list (list T)) : outcome (list (list T)) :=
  push_rows (seq 0 num_attempts) (fun j =>
    let? s := idx signals 0%nat in
    let? pure := pure_awgn (noise0 i j) (length s) n0 in collect fuel pure).

(** lambdas.py:247-264, for one level. *)
Definition run_level (fuel num_attempts num_bits : nat) (detectors : list detector) (i : nat) (n0 : T) : outcome (list detector) :=
  let? signals := run_signals fuel num_attempts num_bits i n0 in
  let? noises := run_noises fuel num_attempts i n0 signals in
  push_rows detectors (fun d =>
    let? h0 := push_rows noises (detect_fn d) in
    let? h1 := push_rows signals (detect_fn d) in
    Ret (Detector (detect_fn d) (h0s d ++ [h0]) (h1s d ++ [h1]))).

(** lambdas.py:223-267. *)
Definition run (first : nat -> nat -> list bool) (num_attempts : nat) (detectors : list detector) (snrs : list T) (fuel : nat)
  : outcome (list detector) :=
  let? (num_bits, signal) := run_first first fuel fuel 0 120 in
  for_each (index_from 0 (run_levels signal snrs))
           (fun detectors '(i, n0) => run_level fuel num_attempts num_bits detectors i n0) detectors.
End Run.
