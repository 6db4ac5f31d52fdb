# Komunikilo in Rocq: design

## 1. What is modelled and how

Source: `/repo/src/**/*.rs` (Rust). The code is read as text; nothing is run.

* **Panics and divergence.** `outcome A = Ret a | Panic | Diverge` (`Base.v`).
* **Iterators.** A Rust iterator is a state machine `Iter A` (a state type, a
  current state, `next : state -> outcome (option A * state)`). Every adapter in
  `src/iter/` is modelled by its own state record and `next`, statement by
  statement (`IterModel.v`), and so are the std/itertools adapters the code uses
  (`map zip enumerate flat_map cycle skip take tuples`, `Base.v`). Transmitters and
  receivers are compositions of these machines over an *arbitrary* source machine.
* **What a consumer observes.** `calls n it` performs `n` calls of `next`.
  `yields it l` = for every n, the first n calls return the elements of `l` and
  `None` from then on (so: no panic, ends exactly after `l`, stays ended).
  `streams it f` = call n returns `Some (f n)` for ever. `panics it n` = call n panics.
* **Numbers.** Numeric code is written once, over a record of operations `Num T`,
  and instantiated twice:
  * `F64`: IEEE-754 binary64 with round-to-nearest-even, from Flocq
    (`BinarySingleNaN`, precision 53, emax 1024): every operation rounds, overflows and
    produces NaN exactly as the hardware does (NaN payloads/signs are not
    modelled). `sin, cos, exp, log10, pow` are an arbitrary `Libm` record, so a
    theorem about F64 holds for **every** implementation of libm.
  * `R`: exact real arithmetic with the real `sin, cos, ...`.
  A theorem stated on F64 is about the code as it runs; a theorem on R is about
  the algorithm and says nothing on rounding (the manifest note says so).
* **Integers.** `usize` values are `nat`, unbounded, except where wrap-around or saturation
  matters to a property (`!len` in `bools_to_u8s`, `as usize` casts which
  saturate at 2^64-1, `n - 1` underflow = panic as in debug builds, overflow of the chip-rate
  product in `cdma.rs` = panic likewise); those are written out.
* **External crates** are parameters: `rand` (an arbitrary state machine producing
  indices below a bound; `shuffle` is rand 0.8's Fisher-Yates), `rustfft`/`realfft` (the
  exact unnormalised DFT over R for the theorems that need values; an arbitrary
  length-preserving function for those that do not), `reed-solomon` (a Section
  hypothesis: it corrects up to floor(ecc/2) byte errors), `rand_distr` (an arbitrary noise sequence for each deviation).

## 2. Properties: plan

| id | modelled | proof |
|----|----------|-------|
| C01-C07, C10 | adapters as machines over any source | coinduction on `next` against list specifications |
| C08, C09 | Convolver/Nonvolver machines | exact response by coinduction, then algebra against a textbook convolution; counterexample by computation |
| C11 | bit packing over `N` bytes with the 64-bit `!len` guard | exhaustive 256-case sweep lifted, induction over chunks |
| C12 | `is_int` on F64 | Flocq rounding argument (a non-integer quotient below 2^53 never rounds to an integer) |
| C13 | `IsNan`/`no_nans` on F64 | case analysis on the float |
| C14, C15 | fftshift on lists, fftshift_mut as two update loops | list algebra, loop invariant |
| C16-C19, C21, C27, C55 | lib.rs numeric code on R | real analysis |
| C20 | `ber` on F64 | Flocq division correctness |
| C22 | awgn over arbitrary noise | coinduction |
| C23, C24 | logistic map, DCSK on F64 and R | invariant interval, rounding error bounds |
| C25 | CSK on R, on F64 conditionally | 2-adic valuation of the two orbits |
| C26 | Chebyshev on R and F64 | growth invariant; computation of the first 8 values then a fixed point |
| C28-C31, C34, C40 | BPSK/CDMA/FH chain on F64 | sign-symmetric float sums |
| C32, C35, C36, C50 | QPSK, CDMA, FSK on R | trigonometric sums, Hadamard orthogonality |
| C33 | bit-level CDMA | counting |
| C37, C38 | triple loop on a matrix of bits | loop invariant = Sylvester recursion, orthogonality by induction on log2 n |
| C39 | HopTable machine over any RNG | epoch invariant, permutation of Fisher-Yates |
| C41, C49 | chirps, FSK | unfolding machines + list specs |
| C42-C45 | OFDM | index arithmetic; DFT inversion over R |
| C46, C47 | bch over a codec contract | induction over frames |
| C48 | FH-OFDM-DCSK | permutation inverse + DFT inversion + positivity on R; float orbit on F64 |
| C51 | bandpass with exact real DFT | projection argument |
| C52 | SSCA indices | interval arithmetic |
| C53, C54, C61 | Costas, rrcos on F64 and R | invariant; division by exact zero |
| C56 | old FH-BPSK transmitter | unfolding the machines |
| C57 | OFDM with a prefix over a multipath channel, on R | circular convolution theorem |
| C58 | a Reed-Solomon code over GF(256) | field laws by sweep, minimum distance, exhaustive decoder |
| C59, C60 | FSK and FM | evaluation at the test's parameters; unfolding |
| C62 | FH-OFDM-DCSK passband | unfolding; non-finite values propagate on F64 |
| C63, C64 | SSCA values and cell map | loops as index functions; injectivity of the map, counterexamples |
| C65 | cyclostationary detectors | loops as index functions; NaN and zero propagation on F64 |
| C66 | Python calls return, raise or hang | `rate_iter`: an iterator for every sample count; panics from the checks, endless inflate |
| C67 | Python round trips | from C29, C32, C45 |
| C68 | Python CDMA signal | row 1 of the Sylvester matrix; chips of equal energy cancel |
| C69 | kom_py BPSK | `np.convolve` with ones and `[::n][1:]` as a window one sample late; energy of a symbol but its first sample |
| C70 | kom_py QPSK | products of carrier and half carrier sum to zero over a symbol; only first samples are left |
| C71 | kom_py CDMA | the same window over chips of equal energy |
| C72 | kom_py chirps | closed form of the linspace; the sweep's derivative is its frequency |
| C73 | kom_py analyser and detectors | as C63 and C64 with the symmetric window and the other phase; lexicographic maximum by induction |
| C74 | kom_py power-of-two helpers | bounds of `log2` |
| C75 | kom_py chaos transmitter | a shuffle commutes with `map`; the orbit stays in or leaves the interval |
| C76 | kom_py statistics | the same folds as Rust |
| C77 | kom_py time formatter | division with remainder |
| C78 | noise on passband BPSK and QPSK | linearity of the correlators; Cauchy-Schwarz |
| C79 | passband BPSK and QPSK in binary64 | forward error analysis of phase, products and left-to-right sums; Machin's formula for the stored PI |
| C80 | Noise and jamming on the CDMA links | reduction to the BPSK/QPSK link with noise times chips; sums over chips; error analysis of C79 |
| C81 | The Neyman-Pearson test cannot detect | the ratio in closed form; x exp(1-x) bound; halving per factor in binary64 |
| C82 | The two normality detectors contradict each other | case analysis on the comparisons |
| C83 | The ROC table of lambdas.py | cumulative counts along the sorted list; upper sets of scores |
| C84 | The bit error harness of tests/ber.rs | signs and finiteness through the float operations; exact counting; C79 for the last part |
| C85 | The radiometer's probability of detection is the one of missing | counting; 0/0 is nan |
| C86 | The example curves of pd_ber_snr_example.py | real analysis; induction on fuel |
| C87 | Amplifiers, attenuators and inverted wires | relational proof (simulation between the two runs, IterRel.v); linearity of the DFT |
| C88 | Energy per bit of the transmitted signals | trigonometric sums; Parseval |
| C89 | Receivers that start late | trigonometric sums; chip-wise splitting; sign of products of orbit values |
| C90 | Many CDMA users at once: when Walsh codes interfere | induction on the bits of the row number; worst-case messages; half-angle bounds |
| C91 | Which signals the OFDM receiver accepts | counting through the convolution and the decimation; panics_after for the incomplete block |
| C92 | The error-rate curves of the Python scripts | composition of returning and raising calls; relation between iterators on a signal and its multiple |
| C93 | Baseband OFDM in binary64 with any accurate FFT | forward error analysis against the exact transforms, then the sign decisions |
| C94 | Modems give each output at once and never read ahead | each adapter is shown to map a partial source to a partial result; the modems are compositions |
| C95 | What the constellation plots show, and passband from baseband | the adapters' list functions; sums of the squared carrier over half-cycles |
| C96 | The detection runs of lambdas.py | C66 for each transmitter; induction over levels and detectors; the squared carrier over half-cycles |
| C97 | Noise and gain on the chaotic modems | invariant interval of the logistic map; sign of a rounded product; squares of distances |
| C98 | Noise and jamming on FH-BPSK | tables of both ends; orthogonality of whole-turn tones; each epoch is a permutation of the grid (C39) |
| C99 | Noise, fading and a tone jammer on the FSK link | Bessel's inequality for the four orthogonal references; parallelogram bound; extremal noise |
| C100 | What the bit-error-rate experiments measure | exact noise rules of C78/C80, energies of C88, and square-root algebra |
| C101 | Receivers with the wrong carrier phase or frequency | closed form of the beat of two carriers over a symbol, bounds on sine and cosine |
| C102 | Several links at once, each on its own carrier | exact noise rules of C78 and the closed form of the beat of two carriers |
| C103 | What the radiometer experiments count | energies of C88 and the triangle inequality for mean squares |
| C104 | Noise and interference on the passband OFDM link | linearity of the receiver over the exact DFT; Cauchy-Schwarz; closed form of sums of tones |
| C105 | The passband OFDM link in binary64 | rounding bounds for mixing, filter and transform around the exact link of C104 |
| C106 | The FSK link in binary64, and the verdict of its unit test | rounding bounds for frequencies, times, phases and the four correlations around the exact energies of C50 and C99; kernel values at the test's parameters bracketed with Taylor bounds |
| C107 | erf and erfc are within 1.2e-7 of the true functions, in binary64 too | a degree-21 polynomial closer to the true exponent, enclosed against the code's with integer arithmetic; the derivative of its tail compared with the Gaussian; the Gaussian integral by differentiation under the integral sign; rounding bounds for binary64 |
| C108 | The mean and the spread of the measured error rate in Gaussian noise | the half-space probability by induction on the dimension, differentiating the tail integral in its threshold and completing the square; independence of disjoint blocks by induction on the dimension; then C100 and C107 |
| C109 | The number of counted errors is binomial and the measured rate settles | the first block integrated out by Fubini on iterated integrals, then induction on the number of bits; Pascal's rule; the variance of C108 for the deviation bound |
| C110 | The average energy of a signal in Gaussian noise and the error probabilities of the energy detector | moments of the normal density by primitives, product of coordinates in iterated integrals, the variance of a sum of uncorrelated terms, Chebyshev |
| C111 | The error rate of BPSK when a symbol does not hold a whole number of half periods of the carrier | energy of each bit, independence of disjoint blocks with different thresholds, convexity of the normal tail in the energy by its tangents, the sum of cosines in closed form |
| C112 | The error rate of FH-BPSK in Gaussian noise | bit rule of C98, independence of disjoint blocks and convexity of the tail from C111, permutation of the grid from C39, the sum of cosines in closed form |
| C113 | The error rate of QPSK with any carrier | exact bit rule of C78, mean of a half-space under the normal law (C108), a tone cannot vanish at two neighbouring samples, bounds on the sums of cos^2 and sin cos from C88, monotonicity of the tail |
| C114 | Spreading does not change the error rate in Gaussian noise | despreading turns noise into noise times the chips (C80); chip signs keep the unit vectors of C111 and C113 unit vectors and the blocks disjoint |

## 3. Trusted base

### 3.1 What has to be trusted

* **Coq 8.16.1's kernel** (and `coqchk`, which rechecks the compiled files). Closed
  computations (binary64 literals, the GF(256) sweep, small examples) use `vm_compute`, so its
  virtual machine is trusted too where `coqchk` does not recheck by plain conversion. Nothing is
  extracted; no plugin outside Coq's own distribution is used.
* **Axioms**: only the standard library's, listed per theorem in 3.4. No axiom, parameter or
  admitted proof is added by this development.
* **Flocq's definition of IEEE-754 binary64** (`BinarySingleNaN`), a library of definitions and
  proofs without axioms of its own beyond those of `Coq.Reals`.
* **The reading of the Rust code.** The model was written by hand from the text of `/repo`; each
  definition cites the lines it stands for. Nothing connects the two mechanically.

### 3.2 What is assumed of external crates

| crate | in the model | assumption |
|-------|--------------|------------|
| `rustfft` | `Fft` record (`FftModel.v`) | keeps lengths; panics unless the buffer is a positive whole number of runs (`fft_process`). Theorems about values over R use `exact_fft`, the unnormalised DFT. The binary64 theorems C48_f64_never_finite and C62_f64_never_finite assume `spreads`, C65_silence assumes `zero_fft`; both are written out beside the theorems. |
| `realfft` | `RealFft` record (`BpfModel.v`) | lengths and error conditions as documented; `exact_real_fft` over R |
| `rand` | `Rng` record: any state machine giving an index below a bound | `SliceRandom::shuffle` is the Fisher-Yates loop of rand 0.8. No distribution is assumed. |
| `rand_distr` | the noise is an arbitrary endless sequence for each deviation that is passed to `Normal::new` | in exact arithmetic, where a theorem speaks of levels: the sequence at deviation s is s times a fixed sequence (that is how the crate draws) |
| `reed-solomon` | `Codec` record, any pair of functions; theorems assume the contract `corrects` (`SpecCode.v`) | systematic, corrects up to floor(ecc/2) wrong bytes per word of at most 255; a panic inside the crate is not expressible; C58 builds a code over GF(256) meeting it |
| std's `f64` functions (sin, cos, exp, log10, powf) | `Libm` record: arbitrary functions on F64 | none, except where a theorem states one (C40: cos 0 = 1 and no NaN from finite arguments; C65_silence: `tame`; others state a condition on the carrier samples). Whether `Iterator::sum` starts at 0.0 or -0.0 is also left open |
| `ndarray` | lists of rows; indexing out of bounds panics | the sum used by the detectors is any function on lists (C65); theorems state what they need of it |
| `num-complex` | `cpx` record with the crate's formulas | none |
| std iterators, `itertools::tuples`, `zip`, `flat_map`, `cycle`, `max_by` | state machines or list functions of `Base.v`, `DetectModel.v` | written from the documented behaviour |

### 3.3 What is modelled, file by file

| source | model | not modelled |
|--------|-------|--------------|
| `iter/*.rs` | `IterModel.v`: every adapter | size hints |
| `lib.rs` | `LibModel.v`: packing, checks, fftshift, windows, erf, ber, energies, awgn; `DetectModel.v`: the four cyclostationary detectors; `PyModel.v`: the Python entry points `ssca_py`, `chirp`, `tx_*`, `rx_*` (`tx_csk`, `tx_dcsk` in `ChaosModel.v`) | `random_data`, pyo3's conversions, the `println!` in `tx_fh_ofdm_dcsk` |
| `chaos/*.rs`, `csk.rs`, `dcsk.rs` | `ChaosModel.v` | - |
| `bpsk.rs`, `qpsk.rs` | `PskModel.v` | - |
| `cdma.rs`, `hadamard.rs` | `CdmaModel.v` | `Display` of a matrix |
| `fh.rs`, `fh_css.rs` | `FhModel.v` | - |
| `ofdm.rs` | `OfdmModel.v` | - |
| `bch.rs` | `BchModel.v` | - |
| `fsk.rs`, `fm.rs` | `FskModel.v` | - |
| `costas.rs`, `filters.rs` | `FilterModel.v` | - |
| `bpf.rs` | `BpfModel.v` | `butterpass` (filter design by the crate sci-rs) |
| `fh_ofdm_dcsk.rs` | `FhOfdmModel.v` | - |
| `ssca.rs` | `SscaModel.v` | - |
| `willie.rs` | energy detector in `LibModel.v`; `normaltest`, `normal_detector` in `LabModel.v`, scipy's p-value a parameter | - |
| `mpsk.rs`, `util/mod.rs` | nothing to model (imports only; a test macro) | - |
| `kom_py/psk.py`, `cdma.py`, `chirp.py` (chirpz, chirpCtr), `fh_ofdm_dcsk.py` (tx), `ssca.py`, helpers of `util.py`, `willie.py`, `ber.py` | `KomModel.v`; `LabModel.v`: `neyman_pearson`, `p_value`, the curves of `pd_ber_snr_example.py`, `log_regress` and its two summaries of `lambdas.py` (`roc.py` is the same table), scipy and sklearn as parameters; `BerModel.v`: the curves and the main script of `ber.py`, the halved signal of `ber_theory.py`; `RunModel.v`: the transmitters and `__run` of `lambdas.py` | plots, `timeit`, `awgn`, `bpf.py` (scipy), the plots of `lambdas.py`, `roc.py`, the theory part of `ber_theory.py`, `rs_ssca.py`, `ssca_debug.py`, `speed_test_ssca.py`, `fm.py`, `fh_css.py`, `bpsk_plot.py` |
| tests | `LabModel.v`: the two error-rate macros, `not_inf` and theory curves of `tests/ber.rs`, the radiometer of `tests/billiam.rs` (`RadioModel.v`: the experiments that draw new data for each attempt), the two energy measures of `tests/eb.rs`; `MultiModel.v`: the unit test `bpsk_cdma_multi_user` of `cdma.rs` and `mai_plot` of `tests/cdma.rs` with the messages as parameters; `ConstModel.v`: the constellation points of `tests/bpsk.rs` and `tests/qpsk.rs` and the hand-made signal of `qpsk_from_baseband` | the other tests |

Simplifications that hold throughout and are not repeated at every definition: memory and time are
unlimited; `usize` is an unbounded `nat` except where section 1 says otherwise, so overflow of sums
and products of sizes (near 2^64) is not modelled; the sign and payload of a NaN are not modelled.
Simplifications of a single function are stated in the comment of its definition.

### 3.4 Assumptions of each theorem

From `Print Assumptions` of every theorem of `MANIFEST.json`.

**No axioms** (closed under the global context):

C01_inflate_endless_source, C01_inflate_repeats_each_item, C02_documented_equivalence_refuted, C02_inflate_zero_empty_source, C02_inflate_zero_never_ends, C03_chunks_partition, C03_chunks_zero_loses_everything, C04_wchunks_pads, C05_take_every_decimates, C05_take_every_zero_panics, C06_integrate_running_sums, C06_nintegrate_lanewise, C07_dump_zero_endless, C07_integrate_and_dump_blocks, C07_ndump_zero_endless, C07_nintegrate_and_dump_blocks, C08_convolve_count, C08_convolve_equal_taps, C08_convolve_response, C08_convolve_symmetric_filter, C08_linear_convolution_refuted, C09_nonvolve_lanewise, C10_causal, C10_wchunks_not_causal, C11_byte_round_trip, C11_padding_loop_is_dead, C11_stream_round_trip, C13_no_nans_complex, C13_no_nans_f64, C14_fftshift_rotation, C15_disagrees_with_fftshift, C15_fftshift_mut_is_identity, C22_awgn, C22_awgn_complex, C22_pure_awgn, C32_qpsk_endless, C33_cdma_chip_errors, C33_cdma_chip_errors_exact, C33_cdma_empty_key, C33_cdma_round_trip, C37_hadamard_entries, C37_hadamard_panics, C39_every_order, C39_hop_deterministic, C39_hop_epochs, C39_hop_panics, C41_downchirp_is_upchirp, C42_bad_counts_panic, C42_data_carriers, C44_all_pilots_sends_nothing, C44_framing, C44_incomplete_block_panics, C46_coded_stream_clean, C46_coded_stream_round_trip, C46_short_last_frame_panics, C46_uncorrectable_frames_pass, C49_bfsk_round_trip_refuted, C49_bfsk_wave, C49_fsk_uses_two_frequencies, C49_mfsk_ignores_the_count, C49_receiver_is_a_stub, C51_length_any_fft, C52_base_defined, C52_base_panics, C52_mapped_panics, C58_minimum_distance, C58_reed_solomon_corrects, C60_fm_wave, C62_fixed_wave, C62_hopped_wave, C65_short_signal_panics, C69_same_as_rust, C72_periods_ignored, C72_phase_ignored, C73_max_cut_raises, C73_one_window, C73_raises, C74_floor_iff, C74_floor_misses, C74_next, C75_raises, C76_ber, C77_below_a_year, C77_reads_back_iff, C77_reads_back_refuted, C77_zero, C82_exception, C86_search, C87_same_behaviour, C91_baseband, C92_ofdm_constant, C94_rx_baseband_bpsk, C94_rx_baseband_cdma, C94_rx_baseband_csk, C94_rx_baseband_dcsk, C94_rx_baseband_ofdm, C94_rx_baseband_qpsk, C94_rx_bpsk, C94_rx_cdma_bpsk, C94_rx_cdma_qpsk, C94_rx_fsk, C94_rx_ofdm, C94_rx_qpsk, C94_tx_baseband_bpsk, C94_tx_baseband_cdma, C94_tx_baseband_csk, C94_tx_baseband_dcsk, C94_tx_baseband_ofdm, C94_tx_baseband_qpsk, C94_tx_bfsk, C94_tx_bpsk, C94_tx_cdma_bpsk, C94_tx_cdma_qpsk, C94_tx_csk, C94_tx_dcsk, C94_tx_fm, C94_tx_fsk, C94_tx_fsk_freqs, C94_tx_mfsk, C94_tx_ofdm, C94_tx_qpsk, C95_bpsk_from_baseband, C96_bad_level, C96_first_signal, C96_run.

**`ClassicalDedekindReals.sig_forall_dec`, `FunctionalExtensionality.functional_extensionality_dep`**:

C37_hadamard_orthogonal, C38_key_selection, C38_single_row.

**`ClassicalDedekindReals.sig_forall_dec`, `ClassicalDedekindReals.sig_not_dec`, `FunctionalExtensionality.functional_extensionality_dep`**:

C73_window, C90_walsh_crosstalk.

**`ClassicalDedekindReals.sig_forall_dec`, `ClassicalDedekindReals.sig_not_dec`, `Classical_Prop.classic`, `FunctionalExtensionality.functional_extensionality_dep`**:

C12_above_2_53_refuted, C12_rate_check_is_divisibility, C13_nan_is_accepted, C16_linspace_grid, C17_db_undb_inverse, C17_db_values, C18_erf_symmetry, C18_odd_at_zero_refuted, C19_hamming_shape, C20_ber, C21_energy, C21_power_divisor, C21_power_is_not_mean_refuted, C21_power_one_sample_f64, C23_logistic_range_exact, C23_logistic_range_f64, C24_dcsk_round_trip_exact, C24_dcsk_round_trip_f64, C25_csk_round_trip_exact, C25_csk_round_trip_f64, C26_chebyshev_diverges_exact, C26_chebyshev_never_nan_f64, C26_chebyshev_overflows_f64, C27_tent_bernoulli_exact, C27_tent_bernoulli_f64, C28_baseband_bpsk_noise, C28_baseband_bpsk_noise_exact, C28_baseband_bpsk_round_trip, C29_bpsk_exact, C29_bpsk_exact_two_samples, C29_bpsk_receiver_exact, C29_bpsk_round_trip_f64, C30_bpsk_checks, C31_baseband_qpsk_noise, C31_baseband_qpsk_round_trip, C32_qpsk_round_trip, C32_qpsk_round_trip_general, C34_cdma_bpsk_exact, C34_cdma_bpsk_round_trip, C34_cdma_checks, C34_spread_despread, C35_cdma_qpsk_general, C35_cdma_qpsk_round_trip, C36_crosstalk, C36_hadamard_design, C36_hadamard_users, C39_hop_exactly_once, C40_fh_bpsk_exact, C40_fh_bpsk_round_trip, C40_fh_bpsk_round_trip_grid, C40_low_above_high_panics, C41_downchirp_goes_up, C41_fh_css_symbols, C41_linear_chirp, C43_odd_carriers_fail, C43_ofdm_bits_with_noise, C43_ofdm_round_trip, C45_one_sample_per_symbol_panics, C45_passband_round_trip, C45_receiver_one_sample_late, C47_coded_cdma_exact, C47_coded_cdma_round_trip, C48_f64_never_finite, C48_fh_ofdm_dcsk_round_trip, C48_first_bits, C49_bfsk_checks, C50_fsk_decision, C50_fsk_orthogonal_round_trip, C50_fsk_round_trip, C51_bandpass_defined, C51_bandpass_energy, C51_bandpass_idempotent, C51_bandpass_linear, C51_bandpass_spectrum, C51_bandpass_tone, C52_mapped_exact, C52_mapped_f64, C53_never_starts, C53_never_starts_exact, C53_poisoned_for_ever, C54_quarter_rolloff_not_finite, C54_singular_tap_not_finite, C55_energy_detector, C55_willie_detector, C56_old_fh_bpsk_clock, C57_prefix_absorbs_multipath, C59_test_parameters_fail, C61_rrcos_symmetric, C61_rrcos_symmetry_refuted, C62_exact_wave, C62_f64_never_finite, C63_even, C63_scale, C63_ssca_base_formula, C64_exact_loses_entries_refuted, C64_f64_loses_entries_refuted, C64_faithful_exact, C64_faithful_f64, C65_dcs_gain, C65_dcs_nonnegative, C65_dcs_value, C65_max_cut_gain, C65_max_cut_value, C65_max_panics_iff_nan, C65_silence, C66_chirp, C66_rx_bpsk, C66_rx_ofdm, C66_rx_qpsk, C66_tx_bfsk, C66_tx_bpsk, C66_tx_cdma_bpsk, C66_tx_csk, C66_tx_dcsk, C66_tx_fh_css, C66_tx_fh_ofdm_dcsk, C66_tx_ofdm, C66_tx_qpsk, C67_bpsk_exact, C67_bpsk_f64, C67_ofdm_exact, C67_qpsk_exact, C68_alternating_chips, C68_plain_receiver_blind, C69_four_samples_refuted, C69_one_sample_drops_first_bit, C69_round_trip, C69_rx, C69_standard_design, C69_tx, C70_baseband, C70_even_cycles, C70_psk_test_rates, C70_round_trip_refuted, C70_rx, C70_tx_half_carrier, C71_reads_edges, C71_round_trip_refuted, C71_rx_is_plain_bpsk, C71_tx, C72_chirpCtr_empty, C72_chirpCtr_length_refuted, C72_empty, C72_raises, C72_sample_clock_refuted, C72_samples, C72_tone_is_sharp, C73_dcs, C73_faithful_exact, C73_faithful_f64, C73_formula, C73_mapped_f64, C73_max_cut_at_most, C73_max_cut_nonnegative, C73_max_cut_refuted, C73_max_cut_value, C73_same_as_rust_refuted, C75_bounded, C75_columns, C75_diverges, C75_injective, C75_tx, C76_avg_energy, C76_avg_energy_iq, C76_ber_counts, C78_bpsk_noise_energy, C78_bpsk_noise_exact, C78_bpsk_noise_tight, C78_qpsk_noise_energy, C78_qpsk_noise_exact, C79_bpsk_design_f64, C79_bpsk_noise_f64, C79_qpsk_design_f64, C79_qpsk_noise_f64, C79_qpsk_receiver_f64, C79_qpsk_round_trip_f64, C80_cdma_bpsk_design_f64, C80_cdma_bpsk_noise_energy, C80_cdma_bpsk_noise_exact, C80_cdma_bpsk_noise_f64, C80_cdma_qpsk_design_f64, C80_cdma_qpsk_noise_energy, C80_cdma_qpsk_noise_f64, C80_hadamard_immune, C80_qpsk_tone_jammer, C80_tone_jammer, C81_always, C81_answer, C81_long_f64, C81_never, C81_ratio, C82_level, C82_opposite, C82_opposite_f64, C83_best, C83_returns, C83_table, C83_tie_refuted, C83_tie_shifts, C83_youden, C84_baseband_qpsk_half, C84_bers_baseband_f64, C84_bers_f64, C84_bpsk_zero, C84_nan_panics, C84_not_inf, C84_silent_receiver, C85_estimates, C85_falls, C85_get_pds, C85_silence_f64, C86_logistic, C87_baseband_gain, C87_bpsk_gain, C87_bpsk_inverted, C87_cdma_bpsk_gain, C87_cdma_qpsk_gain, C87_csk_refuted, C87_dcsk_gain, C87_fh_bpsk_gain, C87_fh_ofdm_dcsk_gain, C87_fsk_gain, C87_ofdm_linear, C87_ofdm_qpsk_gain, C87_qpsk_gain, C87_qpsk_inverted, C88_bfsk_eb, C88_bpsk_eb, C88_bpsk_power, C88_cdma_bpsk_eb, C88_cdma_bpsk_power, C88_cdma_qpsk_eb, C88_ofdm_energy, C88_qpsk_eb, C89_bpsk_late, C89_bpsk_late_symbols, C89_cdma_bpsk_late, C89_cdma_bpsk_late_symbols, C89_cdma_qpsk_late_symbols, C89_dcsk_late_exact, C89_dcsk_late_f64, C89_qpsk_late, C89_qpsk_late_symbols, C90_crosstalk_exact, C90_mai_clean, C90_mai_errors, C90_mai_first_f64, C90_multi_user_large_refuted, C90_multi_user_small, C91_cut_short, C91_own_signal, C91_rx_ofdm, C92_ber_main, C92_ber_never, C92_bpsk_ignores_gain, C92_calc_ber, C92_gain, C92_half, C92_noise_scale, C92_qpsk_ignores_gain, C93_added_noise, C93_ofdm_binary64, C93_round_trip, C95_bpsk_constellations, C95_last_points, C95_last_points_one_line, C95_manual_signal_refuted, C95_qpsk_corners, C95_qpsk_from_baseband, C95_three_plots, C95_time_axis, C95_time_axis_refuted, C96_asked_ratio_refuted, C96_bpsk_levels, C96_bpsk_run, C96_enough_bits, C96_harness, C96_transmitters, C96_true_ratio, C97_csk_gain_f64_refuted, C97_csk_gain_refuted, C97_csk_noise_exact, C97_csk_noise_margin, C97_csk_received_f64, C97_dcsk_gain, C97_dcsk_gain_f64, C97_dcsk_noise_exact, C97_dcsk_noise_margin, C97_dcsk_received_f64, C97_dcsk_too_weak_f64, C98_fh_bpsk_noise_energy, C98_fh_bpsk_noise_exact, C98_jammed_fraction, C98_jammer, C99_fsk_faded, C99_fsk_noise, C99_fsk_rule, C99_fsk_tight, C99_fsk_tone_jammer, C100_baseband_bpsk, C100_baseband_qpsk, C100_bpsk, C100_cdma_bpsk, C100_curves, C100_python_bpsk, C100_qpsk, C101_bpsk_detuned, C101_bpsk_detuned_lost, C101_bpsk_detuned_start, C101_bpsk_phase, C101_qpsk_detuned_lost, C101_qpsk_phase, C102_bpsk_channels, C102_bpsk_unsynchronised, C102_empty_channel, C102_half_spacing, C102_qpsk_channels, C103_bpsk_flat, C103_complement, C103_new_step, C103_pds, C103_pmds, C103_powers, C103_rises, C103_step, C104_noise, C104_rule, C104_tight, C104_tone, C105_added_noise, C105_bounded_change, C105_passband_binary64, C105_round_trip, C106_fm_test, C106_fm_test_exact, C106_fsk_decision, C106_fsk_noise, C106_fsk_receiver, C106_fsk_round_trip, C107_bpsk_curve, C107_bpsk_curve_f64, C107_erf, C107_erf_f64, C107_erfc, C107_erfc_f64, C107_erfc_zero_f64, C107_error_function, C107_qpsk_curve, C108_baseband_bpsk, C108_baseband_qpsk, C108_bpsk, C108_cdma_bpsk, C108_curves, C108_normal_mean, C108_python_bpsk, C108_qpsk, C109_baseband_bpsk, C109_baseband_qpsk, C109_bpsk, C109_cdma_bpsk, C109_python_bpsk, C110_awgn, C110_channel, C110_complex, C110_detected, C110_energy, C110_false_alarm, C110_noise_level, C110_pure_awgn, C111_ber_theory, C111_bpsk, C111_close, C111_half, C111_python, C111_script, C112_close, C112_fh_bpsk, C112_rounds, C112_test, C113_close, C113_python, C113_qpsk, C113_script, C114_cdma_bpsk, C114_cdma_qpsk, C114_no_gain_bpsk, C114_no_gain_qpsk.
