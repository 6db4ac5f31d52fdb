(** /repo/kom_py: the signal processing of the Python package (psk.py, cdma.py, chirp.py, ssca.py,
    fh_ofdm_dcsk.py, and helpers of util.py, willie.py and ber.py).  Definitions only.

    A Python exception is [Panic]; a list or one-dimensional numpy array is a list, a
    two-dimensional one the list of its rows.  Simplified: Python's ints are [nat] (the rates and
    sizes; negative ones are not modelled), numpy's own integer widths are not modelled, and the
    order in which numpy adds products is not that of the model (in exact arithmetic, where the
    theorems are, it does not matter). *)
From Coq Require Import List Arith ZArith Bool.
From Verif Require Import Base Num LibModel CdmaModel FhModel FftModel OfdmModel SscaModel.
Import ListNotations.
Local Open Scope num_scope.

(** [np.repeat(l, n)]. *)
Definition np_repeat {A} (l : list A) (n : nat) : list A := flat_map (fun a => repeat a n) l.
(** [np.tile(l, n)]. *)
Definition np_tile {A} (l : list A) (n : nat) : list A := concat (repeat l n).
(** [l\[::k\]]: raises if k = 0. *)
Definition every {A} (k : nat) (l : list A) : outcome (list A) :=
  if (k =? 0)%nat then Panic else Ret (map snd (filter (fun '(i, _) => (i mod k =? 0)%nat) (index_from 0 l))).

(** util.py:40-42 [chunk] with n = 2: zip_longest pads the last pair. *)
Fixpoint chunk2 {A} (fill : A) (l : list A) : list (A * A) :=
  match l with
  | [] => []
  | [a] => [(a, fill)]
  | a :: b :: r => (a, b) :: chunk2 fill r
  end.

(** int.bit_length() of n >= 0. *)
Definition bit_length (n : nat) : nat := if (n =? 0)%nat then 0%nat else (Nat.log2 n + 1)%nat.
(** util.py:18-19. *)
Definition next_power_of_2 (x : nat) : nat := if (x =? 0)%nat then 1%nat else (2 ^ bit_length (x - 1))%nat.
(** util.py:22-29 for an int x.  [int_log2 x] is the test [log(x, 2).is_integer()] on the binary64
    quotient of two logarithms, which rounds: any test.  For x = 1 and a test that fails the
    result would be 2 ** -1 = 0.5; log(1, 2) is exactly 0, and the model gives 1 there. *)
Definition floor_power_of_2 (int_log2 : nat -> bool) (x : nat) : nat :=
  if (x =? 0)%nat then 0%nat else if int_log2 x then x else (2 ^ (bit_length (x - 1) - 1))%nat.

(** [int(a / b)] and [(a / b).is_integer()] of two ints.  Simplified: true division rounds quotients
    above 2^53; the model does not. *)
Definition int_div (a b : nat) : outcome nat := if (b =? 0)%nat then Panic else Ret (a / b)%nat.
Definition div_is_integer (a b : nat) : outcome bool := if (b =? 0)%nat then Panic else Ret (a mod b =? 0)%nat.

(** util.py:53-76 for a whole number of seconds: the numbers printed before Y, d, h, m and s, or
    [None] for a part that is left out.  The year of util.py:58 is 365.25 days, a whole number of
    seconds.  Simplified: fractions of a second are not modelled. *)
Definition SECS_Y : Z := 31557600.
Definition secs_fields (seconds : Z) : list (option Z) :=
  let s_m := 60%Z in
  let s_h := (60 * s_m)%Z in
  let s_d := (24 * s_h)%Z in
  let s_y := SECS_Y in
  let part (whole shown : Z) := if (whole =? 0)%Z then None else Some shown in
  [part (seconds / s_y) (seconds / s_y); part (seconds / s_d) (seconds mod s_y / s_d);
   part (seconds / s_h) (seconds mod s_d / s_h); part (seconds / s_m) (seconds mod s_h / s_m);
   part seconds (seconds mod s_m)]%Z.

Section Kom.
Context {T : Type} `{Num T}.

(** [np.convolve(a, v)], mode full: raises if one is empty. *)
Definition np_convolve (a v : list T) : outcome (list T) :=
  match a, v with
  | [], _ | _, [] => Panic
  | _, _ =>
      Ret (map (fun n =>
             fold_left nadd
               (map (fun k => if ((k <=? n) && (n - k <? length a))%nat%bool
                              then nth (n - k) a (nofZ 0) * nth k v (nofZ 0) else nofZ 0)
                    (seq 0 (length v))) (nofZ 0))
           (seq 0 (length a + length v - 1)))
  end.

(** ber.py:32-36 and ber_theory.py:20-24. *)
Definition kom_ber (tx rx : list bool) : outcome T :=
  let len := Nat.min (length tx) (length rx) in
  if (len =? 0)%nat then Panic
  else Ret (nofnat (fold_left Nat.add (map (fun '(tx_i, rx_i) => if Bool.eqb tx_i rx_i then 0%nat else 1%nat)
                                           (combine tx rx)) 0%nat) / nofnat len).

(** willie.py:18-20. *)
Definition kom_avg_energy (signal : list T) : outcome T :=
  if (length signal =? 0)%nat then Panic
  else Ret (fold_left nadd (map nsqr signal) (nofZ 0) / nofnat (length signal)).
(** willie.py:23-25: [abs] of the square of a complex number. *)
Definition kom_avg_energy_iq (signal : list (cpx T)) : outcome T :=
  if (length signal =? 0)%nat then Panic
  else Ret (fold_left nadd (map (fun s_i => nsqrt (cnorm_sqr (cmul s_i s_i))) signal) (nofZ 0)
            / nofnat (length signal) / nofZ 2).

(** ** psk.py *)

(** psk.py:7-8. *)
Definition kom_tx_baseband_bpsk (data : list bool) : list (cpx T) :=
  map (fun bit : bool => if bit then Cpx (nofZ 1) (nofZ 0) else Cpx (- nofZ 1) (nofZ 0)) data.
(** psk.py:11-12. *)
Definition kom_rx_baseband_bpsk (signal : list (cpx T)) : list bool :=
  map (fun s_i => nleb (nofZ 0) (re s_i)) signal.

(** psk.py:15-19. *)
Definition kom_tx_baseband_qpsk (data : list bool) : list (cpx T) :=
  map (fun '(b1, b2) => Cpx (bit_to_nrz b1 * nsqrt (nofZ 2)) (bit_to_nrz b2 * nsqrt (nofZ 2))) (chunk2 false data).
(** psk.py:22-23. *)
Definition kom_rx_baseband_qpsk (signal : list (cpx T)) : list bool :=
  flat_map (fun s_i => [nleb (nofZ 0) (re s_i); nleb (nofZ 0) (im s_i)]) signal.

(** The first lines of psk.py:26-33, 44-49, 62-67 and 80-85. *)
Definition kom_rates (samp_rate symb_rate : nat) (carrier_freq : T) : outcome nat :=
  let? samples_per_symbol := int_div samp_rate symb_rate in
  assert_then (nleb carrier_freq (nofnat samp_rate / nofZ 2))
  (assert_then (samp_rate mod symb_rate =? 0)%nat (Ret samples_per_symbol)).

(** psk.py:26-41. *)
Definition kom_tx_bpsk (data : list bool) (samp_rate symb_rate : nat) (carrier_freq : T) : outcome (list T) :=
  let? samples_per_symbol := kom_rates samp_rate symb_rate carrier_freq in
  let datums := np_repeat (map bit_to_nrz data) samples_per_symbol in
  Ret (map (fun '(i, d) => d * ncos (nofZ 2 * npi * carrier_freq * (nofnat i / nofnat samp_rate))) (index_from 0 datums)).

(** psk.py:52-59 and cdma.py:42-49. *)
Definition kom_correlate (signal : list T) (samples_per_symbol samp_rate : nat) (carrier_freq : T) : outcome (list bool) :=
  let filter := repeat (nofZ 1) samples_per_symbol in
  let if_sig := map (fun '(i, s_i) => s_i * ncos (nofZ 2 * npi * carrier_freq * (nofnat i / nofnat samp_rate)))
                    (index_from 0 signal) in
  let? sig := np_convolve if_sig filter in
  let? th := every samples_per_symbol sig in
  Ret (tl (map (fun th_i => nltb (nofZ 0) th_i) th)).

(** psk.py:44-59. *)
Definition kom_rx_bpsk (signal : list T) (samp_rate symb_rate : nat) (carrier_freq : T) : outcome (list bool) :=
  let? samples_per_symbol := kom_rates samp_rate symb_rate carrier_freq in
  kom_correlate signal samples_per_symbol samp_rate carrier_freq.

(** psk.py:62-77.  [c * np.exp(1j * x)] has the real part of the product. *)
Definition kom_tx_qpsk (data : list bool) (samp_rate symb_rate : nat) (carrier_freq : T) : outcome (list T) :=
  let? samples_per_symbol := kom_rates samp_rate symb_rate carrier_freq in
  let symbols := np_repeat (kom_tx_baseband_qpsk data) samples_per_symbol in
  Ret (map (fun '(i, c_i) => re (cmul c_i (cexp_i (npi * carrier_freq * (nofnat i / nofnat samp_rate)))))
           (index_from 0 symbols)).

(** psk.py:80-107. *)
Definition kom_rx_qpsk (signal : list T) (samp_rate symb_rate : nat) (carrier_freq : T) : outcome (list bool) :=
  let? samples_per_symbol := kom_rates samp_rate symb_rate carrier_freq in
  let filter := repeat (nofZ 1) samples_per_symbol in
  let? ii := np_convolve (map (fun '(i, s_i) => s_i * ncos (nofZ 2 * npi * carrier_freq * (nofnat i / nofnat samp_rate)))
                              (index_from 0 signal)) filter in
  let? qi := np_convolve (map (fun '(i, s_i) => s_i * - nsin (nofZ 2 * npi * carrier_freq * (nofnat i / nofnat samp_rate)))
                              (index_from 0 signal)) filter in
  let? ii := every samples_per_symbol ii in
  let? qi := every samples_per_symbol qi in
  let i_bits := tl (map (fun i => nltb (nofZ 0) i) ii) in
  let q_bits := tl (map (fun i => nltb (nofZ 0) i) qi) in
  Ret (flat_map (fun '(i, q) => [i; q]) (combine i_bits q_bits)).

(** ** cdma.py *)

(** cdma.py:7. *)
Definition KOM_KEY : list T :=
  map bit_to_nrz [true; true; false; false; true; true; false; false; true; true; false; false; true; true; false; false].

(** The assertions of cdma.py:15-19 and 35-39. *)
Definition kom_cdma_checks {A} (samp_rate symb_rate : nat) (carrier_freq : T) (k : outcome A) : outcome A :=
  assert_then (nleb carrier_freq (nofnat samp_rate / nofZ 2))
  (assert_then (nleb (nofnat (length KOM_KEY * symb_rate)) (nofnat samp_rate / nofZ 2))
  (assert_then (samp_rate mod symb_rate =? 0)%nat
  (let? c1 := div_is_integer samp_rate symb_rate in assert_then c1
  (let? c2 := div_is_integer samp_rate (symb_rate * length KOM_KEY) in assert_then c2 k)))).

(** cdma.py:10-28, without the [print]. *)
Definition kom_tx_bpsk_cdma (data : list bool) (samp_rate symb_rate : nat) (carrier_freq : T) : outcome (list T) :=
  let? samples_per_symbol := int_div samp_rate symb_rate in
  let? samples_per_chip := int_div samples_per_symbol (length KOM_KEY) in
  kom_cdma_checks samp_rate symb_rate carrier_freq
  (let? bpsk := kom_tx_bpsk data samp_rate symb_rate carrier_freq in
   if (samples_per_chip =? 0)%nat then Panic else
   let spreading_code := np_tile (np_repeat KOM_KEY samples_per_chip) (length bpsk / samples_per_chip / length KOM_KEY) in
   assert_then (length bpsk =? length spreading_code)%nat
   (Ret (map (fun '(a, b) => a * b) (combine bpsk spreading_code)))).

(** cdma.py:31-49. *)
Definition kom_rx_bpsk_cdma (signal : list T) (samp_rate symb_rate : nat) (carrier_freq : T) : outcome (list bool) :=
  let? samples_per_symbol := int_div samp_rate symb_rate in
  kom_cdma_checks samp_rate symb_rate carrier_freq
  (kom_correlate signal samples_per_symbol samp_rate carrier_freq).

(** ** chirp.py *)

(** [np.linspace(0, stop, n)]: the last of two or more points is [stop] itself.  Simplified: numpy
    divides before it multiplies if the step underflows to 0. *)
Definition np_linspace0 (stop : T) (n : nat) : list T :=
  map (fun i => if ((2 <=? n) && (i =? n - 1))%nat%bool then stop
                else nofnat i * (if (2 <=? n)%nat then stop / nofnat (n - 1) else stop) + nofZ 0) (seq 0 n).

(** chirp.py:61-75.  [periods] is not used by the code either.  A quotient of -1 or less makes
    np.linspace raise; int() of an infinity or NaN, which raises too, is not modelled. *)
Definition kom_chirpz (chirp_rate sample_rate f0 f1 periods phase_rad : T) : outcome (list T) :=
  if neqb chirp_rate (nofZ 0) then Panic else
  let chirp_period := nofZ 1 / chirp_rate in
  if neqb chirp_period (nofZ 0) then Panic else
  let c := (f1 - f0) / chirp_period in
  if nleb (sample_rate / chirp_rate) (- nofZ 1) then Panic else
  let samps_per_chirp := Z.to_nat (nto_u64 (sample_rate / chirp_rate)) in
  let t_s := np_linspace0 chirp_period samps_per_chirp in
  Ret (map (fun t => let phi_Hz := (c * nsqr t) / nofZ 2 + (f0 * t) in
                     let phi_rad := nofZ 2 * npi * phi_Hz + phase_rad in
                     nsin phi_rad) t_s).

(** chirp.py:78-92: the call passes (fs_Hz, rep_Hz, f0_Hz, f1_Hz, phase_rad) by position. *)
Definition kom_chirpCtr (fs_Hz fc_Hz rep_Hz bw_Hz phase_rad : T) : outcome (list T) :=
  let f0_Hz := fc_Hz - bw_Hz / nofZ 2 in
  let f1_Hz := fc_Hz + bw_Hz / nofZ 2 in
  kom_chirpz fs_Hz rep_Hz f0_Hz f1_Hz phase_rad (nofZ 0).

(** ** fh_ofdm_dcsk.py *)

(** fh_ofdm_dcsk.py:25-27. *)
Definition kom_chebyshev (xn : T) : T := nofZ 1 - nofZ 2 * nsqr xn.

(** fh_ofdm_dcsk.py:50-54: the inner loop over the columns of one row. *)
Fixpoint kom_chaos_row (row : list T) (xn : T) : list T :=
  match row with
  | [] => []
  | d :: r => d * xn :: kom_chaos_row r (kom_chebyshev xn)
  end.

(** fh_ofdm_dcsk.py:38-66.  [random.shuffle] is the loop of rand's shuffle over another generator
    ([for i in reversed(range(1, len(x)))], x\[i\] and x\[randbelow(i + 1)\] swapped).  A generator
    that runs out in [_take] raises. *)
Definition kom_tx_fh_dcsk (rng : Rng) (seed : rng_state rng) (data : list bool) (b : nat) : outcome (list (list T)) :=
  if (length data <? b)%nat then Panic else
  let dat_array := map (fun datum => repeat (bit_to_nrz datum) b) (firstn b data) in
  let x0s := map (fun i => nlit 1 1000 + nofnat i / nofZ 10) (seq 0 b) in
  let dat_array := map (fun '(row, x0) => kom_chaos_row row x0) (combine dat_array x0s) in
  let? (dat_array, _) := for_each (seq 0 b) (fun '(dat_array, s) col =>
    let? new := for_each (seq 0 b) (fun new i => let? v := aget dat_array i col in Ret (new ++ [v])) [] in
    let? (new, s) := shuffle rng new s in
    let? dat_array := for_each (index_from 0 new) (fun dat_array '(row, new_dat) => aset dat_array row col new_dat) dat_array in
    Ret (dat_array, s)) (dat_array, seed) in
  Ret dat_array.

(** ** ssca.py *)

(** [np.hamming(M)]. *)
Definition np_hamming (M : nat) : list T :=
  if (M =? 1)%nat then [nofZ 1] else
  map (fun i => nlit 54 100 + nlit 46 100 * ncos (npi * nofZ (1 - Z.of_nat M + 2 * Z.of_nat i) / nofnat (M - 1))) (seq 0 M).

Variable fft : Fft T.

(** Row i of xg (ssca.py:53-75). *)
Definition kom_ssca_row (s : list T) (N Np i : nat) : outcome (list (cpx T)) :=
  let a := np_hamming Np in
  let? xi := slice s i (i + Np)%nat in
  let? xa := fft_process Np (fft_forward fft) (map (fun '(x, a) => Cpx (x * a) (nofZ 0)) (combine xi a)) in
  let xat := fftshift xa in
  let em := map (fun j => let k := (Z.of_nat j - Z.of_nat ((Np + 1) / 2))%Z in
                          cexp_i (- nofZ 2 * npi * nofnat i * nofZ k / nofnat Np)) (seq 0 Np) in
  let? g := idx (np_hamming N) i in
  let? x := idx s (Np / 2 + i)%nat in
  Ret (map (fun '(x1, e) => cmul (cmul (cmul x1 e) (cconj (Cpx x (nofZ 0)))) (Cpx g (nofZ 0))) (combine xat em)).

(** ssca.py:49-82 and 97-98.  Without rows ([N = 0]) or columns an assertion or the FFT raises. *)
Definition kom_ssca_base (s : list T) (N Np : nat) : outcome (list (list (cpx T))) :=
  if ((length s <? N + Np) || (N =? 0) || (Np =? 0))%nat%bool then Panic else
  let s := firstn (N + Np) s in
  let? xg := push_rows (seq 0 N) (kom_ssca_row s N Np) in
  let? sx := push_rows (seq 0 Np) (fun j =>
               let? xgi := fft_process N (fft_forward fft) (column c0 xg j) in Ret (fftshift xgi)) in
  Ret (map (column c0 sx) (seq 0 N)).

(** ssca.py:84-96.  The indices k and q are those of ssca.rs ([ssca_cell]), on the same expressions. *)
Definition kom_ssca_mapped (s : list T) (N Np : nat) : outcome (list (list (cpx T))) :=
  let? sx := kom_ssca_base s N Np in
  let Sxf := repeat (repeat c0 (2 * N + 1)) (Np + 1) in
  for_each (seq 0 N) (fun Sxf q_p =>
    for_each (seq 0 Np) (fun Sxf k_p =>
      let '(k, q) := ssca_cell N Np q_p k_p in
      let? v := aget sx q_p k_p in
      aset Sxf k q v) Sxf) Sxf.

(** ssca.py:101-105: np.max of complex numbers compares real parts, then imaginary parts. *)
Definition lex_max (a b : cpx T) : cpx T :=
  if nltb (re a) (re b) || (neqb (re a) (re b) && nltb (im a) (im b)) then b else a.
Definition kom_max_cut (sx : list (list (cpx T))) : outcome (list T) :=
  push_rows sx (fun row =>
    match row with
    | [] => Panic
    | z :: r => Ret (nofZ 10 * nlog10 (nsqr (nsqrt (cnorm_sqr (fold_left lex_max r z)))))
    end).

(** ssca.py:109-112. *)
Definition kom_dcs (sx : list (list (cpx T))) : outcome (list T) :=
  let? row0 := idx sx 0%nat in
  Ret (map (fun '(j, b) => nofZ 10 * nlog10 (fold_left nadd (map (fun row => nsqr (nsqrt (cnorm_sqr (nth j row c0)))) sx) (nofZ 0)
                                              / nsqr (nsqrt (cnorm_sqr b))))
           (index_from 0 row0)).
End Kom.
