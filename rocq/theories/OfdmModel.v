(** /repo/src/ofdm.rs.  Definitions only. *)
From Coq Require Import List Arith ZArith Bool.
From Verif Require Import Base IterModel Num LibModel ChaosModel PskModel CdmaModel FftModel.
Import ListNotations.
Local Open Scope num_scope.

(** A slice [l\[a..b\]]: panics if a > b or b > len. *)
Definition slice {A} (l : list A) (a b : nat) : outcome (list A) :=
  if ((a <=? b) && (b <=? length l))%nat%bool then Ret (firstn (b - a) (skipn a l)) else Panic.
(** The range [a..b]. *)
Definition range (a b : nat) : list nat := seq a (b - a).

(** ofdm.rs:8-18.  Underflow panics (debug builds). *)
Definition get_data_subcarriers (num_subcarriers num_pilots : nat) : outcome (list nat) :=
  let m := (num_subcarriers / 2)%nat in
  let? p1 := usize_sub num_pilots 1 in
  let back := (p1 / 2)%nat in
  let? front := usize_sub p1 back in
  let? stop := usize_sub num_subcarriers back in
  Ret (range front m ++ range (m + 1) stop).

Section Ofdm.
Context {T : Type} `{Num T}.
Variable fft : Fft T.

(** The closure of ofdm.rs:36-57: one OFDM symbol. *)
Definition ofdm_modulate (subcarriers : nat) (data_subcarriers : list nat) (data_chunk : list (cpx T))
  : outcome (list (cpx T)) :=
  let cp_len := (subcarriers / 4)%nat in
  let? ofdm_symbol_data :=
    for_each (combine data_subcarriers data_chunk)
             (fun x '(carrier, datum) => set_idx x carrier datum) (repeat c0 subcarriers) in
  let? ofdm_symbols := fft_process subcarriers (fft_inverse fft) (fftshift ofdm_symbol_data) in
  let? from := usize_sub subcarriers cp_len in
  let? cp := slice ofdm_symbols from subcarriers in
  Ret (map (fun s_i => cdivs s_i (nofnat subcarriers)) (cp ++ ofdm_symbols)).

(** ofdm.rs:20-60. *)
Definition tx_baseband_ofdm_signal (symbols : Iter (cpx T)) (subcarriers pilots : nat)
  : outcome (Iter (cpx T)) :=
  let? num_data_subcarriers := usize_sub subcarriers pilots in
  let? data_subcarriers := get_data_subcarriers subcarriers pilots in
  Ret (iflat_map tt (fun _ data_chunk =>
         let? cp_symbol := ofdm_modulate subcarriers data_subcarriers data_chunk in Ret (cp_symbol, tt))
       (chunks num_data_subcarriers symbols)).

(** The closure of ofdm.rs:79-92. *)
Definition ofdm_demodulate (subcarriers : nat) (data_subcarriers : list nat) (ofdm_symbol_data : list (cpx T))
  : outcome (list (cpx T)) :=
  let cp_len := (subcarriers / 4)%nat in
  let? buffer := slice ofdm_symbol_data cp_len (length ofdm_symbol_data) in
  let? buffer := fft_process subcarriers (fft_forward fft) buffer in
  let demoded := fftshift buffer in
  for_each data_subcarriers (fun data_symbols carrier =>
    let? d := idx demoded carrier in Ret (data_symbols ++ [d])) [].

(** ofdm.rs:62-93. *)
Definition rx_baseband_ofdm_signal (message : Iter (cpx T)) (subcarriers pilots : nat)
  : outcome (Iter (cpx T)) :=
  let? num_data_subcarriers := usize_sub subcarriers pilots in
  let cp_len := (subcarriers / 4)%nat in
  let? data_subcarriers := get_data_subcarriers subcarriers pilots in
  Ret (iflat_map tt (fun _ ofdm_symbol_data =>
         let? data_symbols := ofdm_demodulate subcarriers data_subcarriers ofdm_symbol_data in
         Ret (data_symbols, tt))
       (chunks (subcarriers + cp_len) message)).

(** [Complex::new(0, x).exp()] (num-complex 0.4): from_polar(0.exp(), x). *)
Definition cexp_i (x : T) : cpx T := Cpx (nexp (nofZ 0) * ncos x) (nexp (nofZ 0) * nsin x).

(** ofdm.rs:95-117. *)
Definition tx_ofdm_qpsk_signal (message : Iter bool) (subcarriers pilots sample_rate symbol_rate : nat)
  (carrier_freq : T) : outcome (Iter T) :=
  assert_then (is_int (nofnat sample_rate / nofnat symbol_rate))
  (let? samples_per_symbol := usize_div sample_rate symbol_rate in
   let? ofdm_symbols := tx_baseband_ofdm_signal (tx_baseband_qpsk_signal message) subcarriers pilots in
   Ret (imap (fun '(idx, ofdm_symbol) =>
                let time := nofnat idx / nofnat sample_rate in
                re (cmul ofdm_symbol (cexp_i (nofZ 2 * npi * carrier_freq * time))))
             (ienum (inflate samples_per_symbol ofdm_symbols)))).

(** ofdm.rs:119-147.  An array [f64; 2] is a list of length 2. *)
Definition rx_ofdm_qpsk_signal (message : Iter T) (subcarriers pilots sample_rate symbol_rate : nat)
  (carrier_freq : T) : outcome (Iter bool) :=
  assert_then (is_int (nofnat sample_rate / nofnat symbol_rate))
  (let? samples_per_symbol := usize_div sample_rate symbol_rate in
   let filter := map (fun _ => nofZ 1) (seq 0 samples_per_symbol) in
   let ofdm_symbols :=
     iskip 1 (take_every samples_per_symbol
       (imap (fun s_i => Cpx (nth 0 s_i (nofZ 0)) (nth 1 s_i (nofZ 0)))
         (nonvolve 2 (nofZ 0) nadd nmul filter
           (imap (fun '(idx, sample) =>
                    let time := nofnat idx / nofnat sample_rate in
                    let ii := sample * ncos (nofZ 2 * npi * carrier_freq * time) in
                    let qi := sample * (- nsin (nofZ 2 * npi * carrier_freq * time)) in
                    [ii; qi])
                 (ienum message))))) in
   let? qpsk_symbols := rx_baseband_ofdm_signal ofdm_symbols subcarriers pilots in
   Ret (rx_baseband_qpsk_signal qpsk_symbols)).

End Ofdm.
