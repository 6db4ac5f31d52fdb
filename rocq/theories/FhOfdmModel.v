(** /repo/src/fh_ofdm_dcsk.rs.  Definitions only. *)
From Coq Require Import List Arith ZArith Reals Bool.
From Flocq Require Import BinarySingleNaN.
From Verif Require Import Base IterModel Num LibModel ChaosModel PskModel CdmaModel FhModel FftModel OfdmModel.
Import ListNotations.
Local Open Scope num_scope.

(** [f64::is_sign_positive].  Over the reals zero counts as positive; in binary64 the sign bit of a
    NaN is not modelled (taken as positive). *)
Class SignPos (T : Type) := sign_positive : T -> bool.
#[global] Instance SignR : SignPos R := fun x => if Rle_dec 0 x then true else false.
#[global] Instance SignF : SignPos F64 := fun x => negb (Bsign x).

(** fh_ofdm_dcsk.rs:11-12. *)
Definition NUM_SUBCARRIERS : nat := 8.
Definition CP_LEN : nat := NUM_SUBCARRIERS / 4.

Section FhOfdm.
Context {T : Type} `{Num T} `{SignPos T}.
Variable fft : Fft T.
Variable rng : Rng.

(** fh_ofdm_dcsk.rs:30-39: [Complex::from(x)] is x + 0i. *)
Definition fod_pre_hop (bpsk_symbols : list (cpx T)) (chaotic_sequence : list T) : outcome (list (cpx T)) :=
  let? first := idx chaotic_sequence 0 in
  let? rest := slice chaotic_sequence 1 (length chaotic_sequence) in
  Ret (Cpx first (nofZ 0) ::
       map (fun '(c_i, s_i) => cmul s_i (Cpx c_i (nofZ 0))) (combine rest bpsk_symbols)).

(** fh_ofdm_dcsk.rs:41-49. *)
Definition fod_hop (pre_hop_symbols : list (cpx T)) (s : rng_state rng) : outcome (list (cpx T) * rng_state rng) :=
  let? (index, s1) := shuffle rng (seq 0 NUM_SUBCARRIERS) s in
  let? symbols := for_each index (fun symbols i =>
    let? v := idx pre_hop_symbols i in Ret (symbols ++ [v])) [] in
  Ret (symbols, s1).

(** The closure of fh_ofdm_dcsk.rs:29-65. *)
Definition fod_modulate (s : rng_state rng) (block : list (cpx T) * list T)
  : outcome (list (cpx T) * rng_state rng) :=
  let '(bpsk_symbols, chaotic_sequence) := block in
  let? pre_hop_symbols := fod_pre_hop bpsk_symbols chaotic_sequence in
  let? (freq_hopped_symbols, s1) := fod_hop pre_hop_symbols s in
  let ifft_symbols := fftshift freq_hopped_symbols in
  assert_then (length ifft_symbols =? NUM_SUBCARRIERS)%nat
    (let? ifft_symbols := fft_process NUM_SUBCARRIERS (fft_inverse fft) ifft_symbols in
     let? cp := slice ifft_symbols (NUM_SUBCARRIERS - CP_LEN)%nat NUM_SUBCARRIERS in
     Ret (map (fun s_i => cdivs s_i (nofnat NUM_SUBCARRIERS)) (cp ++ ifft_symbols), s1)).

(** fh_ofdm_dcsk.rs:16-66. *)
Definition tx_baseband_fh_ofdm_dcsk_signal (message : Iter bool) : outcome (Iter (cpx T)) :=
  let? chaos := Chebyshev_new (nlit 1 2) in
  Ret (iflat_map (seed_from_u64 rng SEED) fod_modulate
         (izip (wchunks c0 (NUM_SUBCARRIERS - 1) (tx_baseband_bpsk_signal message))
               (chunks NUM_SUBCARRIERS chaos))).

(** fh_ofdm_dcsk.rs:85-93. *)
Definition fod_dehop (demoded : list (cpx T)) (s : rng_state rng) : outcome (list (cpx T) * rng_state rng) :=
  let? (index, s1) := shuffle rng (seq 0 NUM_SUBCARRIERS) s in
  let? symbols := for_each (combine demoded index) (fun symbols '(c_i, i) => set_idx symbols i c_i)
                           (repeat c0 NUM_SUBCARRIERS) in
  Ret (symbols, s1).

(** The closure of fh_ofdm_dcsk.rs:79-103.  The inner iterator is given as the list it yields. *)
Definition fod_demodulate (s : rng_state rng) (chunk : list (cpx T)) : outcome (list bool * rng_state rng) :=
  let? buffer := slice chunk CP_LEN (length chunk) in
  let? buffer := fft_process NUM_SUBCARRIERS (fft_forward fft) buffer in
  let demoded := fftshift buffer in
  let? (dehopped_symbols, s1) := fod_dehop demoded s in
  let? a := idx dehopped_symbols 0 in
  let? b := slice dehopped_symbols 1 (length dehopped_symbols) in
  let? bits := for_each (seq 0 (length dehopped_symbols - 1)) (fun bits i =>
    let? b_i := idx b i in Ret (bits ++ [sign_positive (re (cmul (cconj a) b_i))])) [] in
  Ret (bits, s1).

(** fh_ofdm_dcsk.rs:68-105. *)
Definition rx_baseband_fh_ofdm_dcsk_signal (signal : Iter (cpx T)) : Iter bool :=
  iflat_map (seed_from_u64 rng SEED) fod_demodulate (chunks (NUM_SUBCARRIERS + CP_LEN) signal).

(** fh_ofdm_dcsk.rs:107-130. *)
Definition tx_fh_ofdm_dcsk_signal (message : Iter bool) (low_freq high_freq : T)
  (num_freqs sample_rate symbol_rate : nat) : outcome (Iter T) :=
  assert_then (nyquist_ok sample_rate high_freq)
  (assert_then (is_int (nofnat sample_rate / nofnat symbol_rate))
  (let? samples_per_symbol := usize_div sample_rate symbol_rate in
   let? baseband := tx_baseband_fh_ofdm_dcsk_signal message in
   let? hops := HopTable_new rng low_freq high_freq num_freqs SEED in
   Ret (imap (fun '(idx, (symbol, hop_freq)) =>
                let time := nofnat idx / nofnat sample_rate in
                re (cmul symbol (cexp_i (- nofZ 2 * npi * hop_freq * time))))
             (ienum (inflate samples_per_symbol (izip baseband hops)))))).

(** fh_ofdm_dcsk.rs:132-152. *)
Definition tx_fh_ofdm_dcsk_signal_2 (message : Iter bool) (sample_rate symbol_rate : nat) (carrier_freq : T)
  : outcome (Iter T) :=
  assert_then (nyquist_ok sample_rate carrier_freq)
  (assert_then (is_int (nofnat sample_rate / nofnat symbol_rate))
  (let? samples_per_symbol := usize_div sample_rate symbol_rate in
   let? baseband := tx_baseband_fh_ofdm_dcsk_signal message in
   Ret (imap (fun '(idx, symbol) =>
                let time := nofnat idx / nofnat sample_rate in
                re (cmul symbol (cexp_i (- nofZ 2 * npi * carrier_freq * time))))
             (ienum (inflate samples_per_symbol baseband))))).
End FhOfdm.
