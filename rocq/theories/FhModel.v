(** /repo/src/fh.rs and /repo/src/fh_css.rs.  Definitions only. *)
From Coq Require Import List Arith ZArith NArith Bool.
From Verif Require Import Base IterModel Num LibModel ChaosModel PskModel CdmaModel.
Import ListNotations.
Local Open Scope num_scope.

(** The crate rand 0.8: some seeded generator, of which only [gen_index] (seq/mod.rs: an index
    below the bound) is used.  Every theorem quantifies over all such generators. *)
Record Rng : Type := MkRng {
  rng_state : Set;
  seed_from_u64 : N -> rng_state;
  gen_index : nat -> rng_state -> nat * rng_state;
  gen_index_lt : forall ubound s, (1 <= ubound)%nat -> (fst (gen_index ubound s) < ubound)%nat
}.

(** slice::swap. *)
Definition swap {A} (x : list A) (i j : nat) : outcome (list A) :=
  let? a := idx x i in
  let? b := idx x j in
  let? x1 := set_idx x i b in
  set_idx x1 j a.

(** rand 0.8 SliceRandom::shuffle:
    [for i in (1..self.len()).rev() { self.swap(i, gen_index(rng, i + 1)); }]. *)
Definition shuffle {A} (rng : Rng) (x : list A) (s : rng_state rng) : outcome (list A * rng_state rng) :=
  for_each (rev (seq 1 (length x - 1)))
    (fun '(x, s) i =>
       let '(j, s1) := gen_index rng (i + 1) s in
       let? x1 := swap x i j in
       Ret (x1, s1))
    (x, s).

(** fh.rs:8 and fh_css.rs:5. *)
Definition SEED : N := 64.

Section Fh.
Context {T : Type} `{Num T}.

(** fh.rs:12-17, struct HopTable. *)
Record hop_st (rng : Rng) : Type := HopSt {
  hop_rng : rng_state rng;
  hop_table : list T;
  hop_idx : nat
}.
Arguments HopSt {rng} _ _ _.
Arguments hop_rng {rng} _.
Arguments hop_table {rng} _.
Arguments hop_idx {rng} _.

(** fh.rs:42-54, HopTable::next. *)
Definition hop_next (rng : Rng) (s : hop_st rng) : outcome (option T * hop_st rng) :=
  if (hop_idx s =? 0)%nat then
    let? (table, r) := shuffle rng (hop_table s) (hop_rng s) in
    let i := (hop_idx s + 1)%nat in
    let? f := idx table (i - 1)%nat in
    Ret (Some f, HopSt r table i)
  else
    let? last := usize_sub (length (hop_table s)) 1 in
    if (hop_idx s =? last)%nat then
      let? f := idx (hop_table s) last in
      Ret (Some f, HopSt (hop_rng s) (hop_table s) 0)
    else
      let i := (hop_idx s + 1)%nat in
      let? f := idx (hop_table s) (i - 1)%nat in
      Ret (Some f, HopSt (hop_rng s) (hop_table s) i).

(** fh.rs:20-36, HopTable::new.  The collected linspace is written as the list it yields
    (lib.rs:127-132 through [linspace] of LibModel, collected with enough fuel). *)
Definition HopTable_new (rng : Rng) (low high : T) (num_freqs : nat) (seed : N) : outcome (Iter T) :=
  let? hopping_table := collect (num_freqs + 1) (linspace low high num_freqs) in
  Ret (MkIter (HopSt (seed_from_u64 rng seed) hopping_table 0) (hop_next rng)).

(** fh.rs:58-74.  The inner iterators of flat_map are given as the lists they yield: the inner
    transmitter is built (its assertions may panic) and run to its end when its bit is reached,
    where the code runs it on demand.  With sample_rate = 0 the inner iterator is endless
    and the model diverges. *)
Definition tx_fh_bpsk_signal (rng : Rng) (message : Iter bool) (low_freq high_freq : T) (num_freqs sample_rate symbol_rate : nat)
  : outcome (Iter T) :=
  assert_then (nyquist_ok sample_rate high_freq)
  (assert_then (is_int (nofnat sample_rate / nofnat symbol_rate))
  (let? hops := HopTable_new rng low_freq high_freq num_freqs SEED in
   Ret (iflat_map tt (fun _ '(msg_val, hop_freq) =>
          let? symbol := tx_bpsk_signal (of_list [msg_val]) sample_rate symbol_rate hop_freq in
          let? l := collect (sample_rate / symbol_rate + 1) symbol in
          Ret (l, tt))
        (izip message hops)))).

(** fh.rs:76-94; the same remark on flat_map (a chunk of n samples gives at most n bits). *)
Definition rx_fh_bpsk_signal (rng : Rng) (signal : Iter T) (low_freq high_freq : T) (num_freqs sample_rate symbol_rate : nat)
  : outcome (Iter bool) :=
  let? samples_per_symbol := usize_div sample_rate symbol_rate in
  assert_then (nyquist_ok sample_rate high_freq)
  (assert_then (is_int (nofnat sample_rate / nofnat symbol_rate))
  (let? hops := HopTable_new rng low_freq high_freq num_freqs SEED in
   Ret (iflat_map tt (fun _ '(signal_chunk, hop_freq) =>
          let? bits := rx_bpsk_signal (of_list signal_chunk) sample_rate symbol_rate hop_freq in
          let? l := collect (length signal_chunk + 1) bits in
          Ret (l, tt))
        (izip (chunks samples_per_symbol signal) hops)))).

(** fh.rs:96-156.  The locals bandwidth, sum_freq, _low and _high are unused. *)
Definition tx_fh_bpsk_signal_old (rng : Rng) (message : Iter bool) (low_freq high_freq : T)
  (num_freqs sample_rate symbol_rate : nat) (carrier_freq : T) : outcome (Iter T) :=
  let? samples_per_symbol := usize_div sample_rate symbol_rate in
  assert_then (nyquist_ok sample_rate carrier_freq)
  (assert_then (is_int (nofnat sample_rate / nofnat symbol_rate))
  (let? hops := HopTable_new rng low_freq high_freq num_freqs SEED in
   Ret (iflat_map tt
          (pure_fn (fun '(idx, (msg_val, hop_freq)) =>
             let time0 := nofnat idx / nofnat sample_rate in
             map (fun idx =>
                    let time := time0 + nofnat idx / nofnat sample_rate in
                    let bpsk_val := msg_val * ncos (nofZ 2 * npi * carrier_freq * time) in
                    let freq_hop := ncos (nofZ 2 * npi * hop_freq * time) in
                    bpsk_val * freq_hop)
                 (seq 0 samples_per_symbol)))
        (ienum (izip (imap bit_to_nrz message) hops))))).

(** fh_css.rs:7-19. *)
Definition linear_chirp (chirp_rate : T) (sample_rate : nat) (f0 f1 : T) : Iter T :=
  let chirp_period := nofZ 1 / chirp_rate in
  let k := (f1 - f0) / chirp_period in
  let samps_per_chirp := Z.to_nat (nto_u64 (nofnat sample_rate / chirp_rate)) in
  imap (fun t_i => ncos (nofZ 2 * npi * (f0 + k * t_i / nofZ 2) * t_i))
       (linspace (nofZ 0) chirp_period samps_per_chirp).

(** fh_css.rs:21-30. *)
Definition linear_upchirp_centered (chirp_rate center_freq bandwidth : T) (sample_rate : nat) : Iter T :=
  let f0 := center_freq - bandwidth / nofZ 2 in
  let f1 := center_freq + bandwidth / nofZ 2 in
  linear_chirp chirp_rate sample_rate f0 f1.
(** fh_css.rs:31-40. *)
Definition linear_downchirp_centered (chirp_rate center_freq bandwidth : T) (sample_rate : nat) : Iter T :=
  let f0 := center_freq - bandwidth / nofZ 2 in
  let f1 := center_freq + bandwidth / nofZ 2 in
  linear_chirp chirp_rate sample_rate f0 f1.

(** fh_css.rs:42-65; the same remark on flat_map. *)
Definition tx_fh_css_signal (rng : Rng) (message : Iter bool) (sample_rate symbol_rate : nat) (low_freq high_freq : T)
  (num_freqs : nat) : outcome (Iter T) :=
  assert_then (nyquist_ok sample_rate high_freq)
  (assert_then (is_int (nofnat sample_rate / nofnat symbol_rate))
  (let bandwidth := (high_freq - low_freq) / nofnat num_freqs in
   let? hops := HopTable_new rng low_freq high_freq num_freqs SEED in
   Ret (iflat_map tt (fun _ '(bit, hop_freq) =>
          let '(f0, f1) := if bit : bool
                           then (hop_freq - bandwidth / nofZ 2, hop_freq + bandwidth / nofZ 2)
                           else (hop_freq + bandwidth / nofZ 2, hop_freq - bandwidth / nofZ 2) in
          let? l := collect (Z.to_nat (nto_u64 (nofnat sample_rate / nofnat symbol_rate)) + 1)
                      (linear_chirp (nofnat symbol_rate) sample_rate f0 f1) in
          Ret (l, tt))
        (izip message hops)))).

End Fh.
Arguments HopSt {T rng} _ _ _.
Arguments hop_rng {T rng} _.
Arguments hop_table {T rng} _.
Arguments hop_idx {T rng} _.
