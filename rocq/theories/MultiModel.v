(** The experiments with many CDMA users: the unit test bpsk_cdma_multi_user (src/cdma.rs:340-404) and
    the figure mai_plot (tests/cdma.rs:185-256).  Definitions only.

    The random messages are parameters.  rayon's par_iter is a plain map.  Every transmitter is
    collected before it is added to the channel, where the code stops asking it after num_samples
    samples; [fuel] bounds the number of items collected and plays no part once it is large enough. *)
From Coq Require Import List Arith ZArith Bool.
From Verif Require Import Base IterModel Num LibModel ChaosModel PskModel CdmaModel SscaModel.
Import ListNotations.
Local Open Scope num_scope.

(** assert_eq! on vectors of bits, and on vectors of those (cdma.rs:403). *)
Fixpoint bits_eqb (a b : list bool) : bool :=
  match a, b with
  | [], [] => true
  | x :: a', y :: b' => Bool.eqb x y && bits_eqb a' b'
  | _, _ => false
  end.
Fixpoint rows_eqb (a b : list (list bool)) : bool :=
  match a, b with
  | [], [] => true
  | x :: a', y :: b' => bits_eqb x y && rows_eqb a' b'
  | _, _ => false
  end.

Section Multi.
Context {T : Type} `{Num T}.

(** cdma.rs:371-387 and tests/cdma.rs:212-228: what every user sends, added up. *)
Definition users_channel (fuel num_samples samp_rate symbol_rate : nat) (carrier_freq : T)
    (datas keys : list (list bool)) : outcome (list T) :=
  let? txs := push_rows (combine datas keys) (fun '(data, key) =>
    let? tx := tx_cdma_bpsk_signal (of_list data) samp_rate symbol_rate carrier_freq key in
    collect fuel tx) in
  Ret (channel num_samples txs).

(** One receiver on the channel, collected (cdma.rs:392-399, tests/cdma.rs:233-240). *)
Definition user_receive (fuel samp_rate symbol_rate : nat) (carrier_freq : T) (chan : list T) (key : list bool)
    : outcome (list bool) :=
  let? rx := rx_cdma_bpsk_signal (of_list chan) samp_rate symbol_rate carrier_freq key in
  collect fuel rx.

(** The rates of the test (cdma.rs:353-358). *)
Definition multi_user_samp_rate (matrix_size : nat) : nat :=
  (match matrix_size with 32 | 64 => 256 | _ => 80 end * 1000)%nat.

(** cdma.rs:346-404 with the messages given: returns, or panics when an assertion fails. *)
Definition bpsk_cdma_multi_user (fuel matrix_size num_users num_bits : nat) (datas : list (list bool)) : outcome unit :=
  assert_then (num_users <=? matrix_size)%nat
    (let samp_rate := multi_user_samp_rate matrix_size in
     let symbol_rate := 1000%nat in
     let carrier_freq := nofZ 2500 in
     let? m := usize_mul num_bits samp_rate in
     let num_samples := (m / symbol_rate)%nat in
     let? walsh_codes := HadamardMatrix_new matrix_size in
     let? keys := push_rows (seq 0 num_users) (HadamardMatrix_key walsh_codes) in
     let? chan := users_channel fuel num_samples samp_rate symbol_rate carrier_freq datas keys in
     let? rxs := push_rows keys (user_receive fuel samp_rate symbol_rate carrier_freq chan) in
     assert_then (rows_eqb rxs datas) (Ret tt)).

(** tests/cdma.rs:231-250: the error rate averaged over the first user_count users. *)
Definition mai_average (fuel samp_rate symbol_rate : nat) (carrier_freq : T) (datas keys : list (list bool))
    (chan : list T) (user_count : nat) : outcome T :=
  let? bers := push_rows (seq 0 user_count) (fun i =>
    let? key := idx keys i in
    let? rx := user_receive fuel samp_rate symbol_rate carrier_freq chan key in
    let? data := idx datas i in
    let errors := fold_left Nat.add (map (fun '(rxi, txi) => if Bool.eqb rxi txi then 0%nat else 1%nat) (combine rx data)) 0%nat in
    Ret (nofnat errors / nofnat (length rx))) in
  Ret (nsum bers / nofnat (length bers)).

(** tests/cdma.rs:186-252: the plotted error rates, one for every user_count; the plot is not
    modelled.  [num_users], [num_bits] and [samp_rate] are 63, 1000 and 128000 in the code. *)
Definition mai_plot (fuel num_users num_bits samp_rate : nat) (datas : list (list bool)) : outcome (list T) :=
  let symbol_rate := 1000%nat in
  let carrier_freq := nofZ 2500 in
  let? m := usize_mul num_bits samp_rate in
  let num_samples := (m / symbol_rate)%nat in
  let? walsh_codes := HadamardMatrix_new (num_users + 1) in
  let? keys := push_rows (seq 0 num_users) (HadamardMatrix_key walsh_codes) in
  push_rows (seq 0 num_users) (fun user_count =>
    let? chan := users_channel fuel num_samples samp_rate symbol_rate carrier_freq (firstn (user_count + 1) datas) keys in
    mai_average fuel samp_rate symbol_rate carrier_freq datas keys chan user_count).

End Multi.
