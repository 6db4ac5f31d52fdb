(** The constellations and hand-made waveforms of /repo/tests/bpsk.rs and /repo/tests/qpsk.rs.
    Definitions only.  The spectra, the noise, the Butterworth filter and the plots are not modelled. *)
From Coq Require Import List Arith ZArith Bool.
From Verif Require Import Base IterModel Num LibModel ChaosModel PskModel.
Import ListNotations.
Local Open Scope num_scope.

Section Const.
Context {T : Type} `{Num T}.

(** The mixers: tests/bpsk.rs:97-101 (and 121-125, 143-147), tests/qpsk.rs:92-95 and 113-120;
    the signal [tx] is a Vec. *)
Definition mix_i (tx : list T) (samp_rate : nat) (fc : T) : Iter T :=
  imap (fun '(idx, sample) =>
          let time := nofnat idx / nofnat samp_rate in
          sample * ncos (nofZ 2 * npi * fc * time))
       (ienum (of_list tx)).

(** tests/bpsk.rs:109-113 (and 132-136, 154-158), tests/qpsk.rs:102-105 and 123-131. *)
Definition mix_q (tx : list T) (samp_rate : nat) (fc : T) : Iter T :=
  imap (fun '(idx, sample) =>
          let time := nofnat idx / nofnat samp_rate in
          sample * (- nsin (nofZ 2 * npi * fc * time)))
       (ienum (of_list tx)).

(** The filter of ones: tests/bpsk.rs:93, tests/qpsk.rs:72. *)
Definition ones (samples_per_symbol : nat) : list T := map (fun _ => nofZ 1) (seq 0 samples_per_symbol).

(** tests/bpsk.rs:102-105 and 114-117: the points i_01 and q_01 of [bpsk_constellation]. *)
Definition points_conv (samples_per_symbol : nat) (mixed : Iter T) : Iter T :=
  iskip 1 (take_every samples_per_symbol (convolve (nofZ 0) nadd nmul (ones samples_per_symbol) mixed)).

(** tests/bpsk.rs:126-128 and 137-139 (i_02, q_02), tests/qpsk.rs:120-121 and 131-132 (I3, Q3). *)
Definition points_dump (samples_per_symbol : nat) (mixed : Iter T) : Iter T :=
  integrate_and_dump (nofZ 0) nadd samples_per_symbol mixed.

(** tests/bpsk.rs:148-150 and 159-161: i_03 and q_03. *)
Definition points_running (mixed : Iter T) : Iter T := integrate (nofZ 0) nadd mixed.

(** [Iterator::last] and the [unwrap] after it.  [fuel] bounds the calls of [next]. *)
Definition last_unwrap {A} (fuel : nat) (it : Iter A) : outcome A :=
  let? l := collect fuel it in
  match rev l with
  | [] => Panic
  | a :: _ => Ret a
  end.

(** tests/qpsk.rs:91-99 and 101-109: the points I2 and Q2 of [qpsk_graphs].  The [map] over the chunks
    is written as a [flat_map] to one-item lists, the closure being able to panic.  The fuel is more
    than the number of items a convolution of the chunk gives. *)
Definition points_last (samples_per_symbol : nat) (mixed : Iter T) : Iter T :=
  iflat_map tt
    (fun _ chunk =>
       let? point := last_unwrap (S (length chunk + length chunk))
                       (convolve (nofZ 0) nadd nmul (ones samples_per_symbol) (of_list chunk)) in
       Ret ([point], tt))
    (chunks samples_per_symbol mixed).

(** tests/qpsk.rs:154-164: the hand-made signal of [qpsk_from_baseband]. *)
Definition manual_qpsk (data : list bool) (samp_rate symb_rate : nat) (fc : T) : outcome (Iter T) :=
  let? copies := usize_div samp_rate symb_rate in
  Ret (imap (fun '(i, s_i) =>
               let time := nofnat i / nofnat samp_rate in
               let w0 := nofZ 2 * npi * fc * nofZ 4 in
               re s_i * ncos (w0 * time) - im s_i * nsin (w0 * time) / nsqrt (nofZ 2))
            (ienum (inflate copies (tx_baseband_qpsk_signal (of_list data))))).

(** tests/qpsk.rs:273-276, commented out there: every pair of samples closer than 10e-3. *)
Definition manual_agrees (manual tx_normal : list T) : bool :=
  forallb (fun '(m_i, s_i) => nltb (nabs (m_i - s_i)) (nlit 10 1000)) (combine manual tx_normal).

(** tests/qpsk.rs:166-168: the time axis [x] of [qpsk_from_baseband]; line 169 asserts that it is as
    long as [tx_normal]. *)
Definition time_axis (data : list bool) (samp_rate symb_rate : nat) : outcome (list T) :=
  let? n := usize_div (length data * samp_rate) symb_rate in
  Ret (map (fun i => nofnat i / nofnat samp_rate) (seq 0 (n / 2)%nat)).

End Const.
