(** The radiometer experiments of /repo/tests/billiam.rs that draw new data for each attempt.
    Definitions only.

    Simplified: the parallel iterator over the thresholds is a loop, the plots, the pickled files and
    the fitted curve are left out.  [bits eb i j] is bit j drawn for attempt i at the threshold eb,
    [noise eb i sigma] the noise of that attempt at deviation sigma; the constants 43200, 900 and 1800 are parameters. *)
From Coq Require Import List Arith ZArith Bool.
From Verif Require Import Base IterModel Num LibModel SscaModel PskModel CdmaModel LabModel.
Import ListNotations.
Local Open Scope num_scope.

Section Radio.
Context {T : Type} `{Num T}.
Variable fuel : nat.
Variable bits : T -> nat -> nat -> bool.
Variable noise : T -> nat -> T -> Iter T.

(** billiam.rs:222-248 [get_pds] of radiometer_pd; [attempts] is the constant of line 255, not the
    parameter [attempts_var].  [tx] is one of the closures of lines 262-300. *)
Definition radiometer_pds (attempts : nat) (ebs : list T) (attempts_var num_bits : nat)
  (tx : list bool -> T -> outcome (list T)) : outcome (list T) :=
  push_rows ebs (fun eb =>
    let? energies := push_rows (seq 0 attempts_var) (fun i =>
      let data := map (bits eb i) (seq 0 num_bits) in
      let? sent := tx data eb in
      let? chan := awgn (noise eb i) (of_list sent) (nofZ 1) in
      let? chan_sig := collect fuel chan in
      Ret (avg_energy chan_sig)) in
    Ret (p_d eb attempts energies)).

(** billiam.rs:262-263, 268-269 and 282-286: the closures for BPSK, QPSK and CDMA BPSK; lines 296-300
    are the last with tx_cdma_qpsk_signal.  The second argument is not used. *)
Definition bpsk_closure (fs sr : nat) (fc : T) (x : list bool) (e : T) : outcome (list T) :=
  let? tx := tx_bpsk_signal (of_list x) fs sr fc in collect fuel tx.
Definition qpsk_closure (fs sr : nat) (fc : T) (x : list bool) (e : T) : outcome (list T) :=
  let? tx := tx_qpsk_signal (of_list x) fs sr fc in collect fuel tx.
Definition cdma_closure (spread : Iter bool -> nat -> nat -> T -> list bool -> outcome (Iter T)) (fs sr : nat) (fc : T)
  (x : list bool) (e : T) : outcome (list T) :=
  let? h := HadamardMatrix_new 16 in
  let? key := HadamardMatrix_key h 2 in
  let? tx := spread (of_list x) fs sr fc key in collect fuel tx.

(** billiam.rs:361-429 radiometer_pmd_cdma with [spread] = tx_cdma_bpsk_signal, and 435-482
    radiometer_pmd_cdma_qpsk with tx_cdma_qpsk_signal. *)
Definition radiometer_pmds (spread : Iter bool -> nat -> nat -> T -> list bool -> outcome (Iter T))
  (samp_rate symbol_rate : nat) (carrier_freq : T) (num_bits attempts : nat) (ebs : list T) : outcome (list T) :=
  push_rows ebs (fun eb =>
    let? h := HadamardMatrix_new 16 in
    let? key := HadamardMatrix_key h 2 in
    let? energies := push_rows (seq 0 attempts) (fun i =>
      let data := map (bits eb i) (seq 0 num_bits) in
      let? sent := spread (of_list data) samp_rate symbol_rate carrier_freq key in
      let? chan := awgn (noise eb i) sent (nofZ 1) in
      let? chan_sig := collect fuel chan in
      Ret (avg_energy chan_sig)) in
    Ret (p_md eb attempts energies)).
End Radio.
