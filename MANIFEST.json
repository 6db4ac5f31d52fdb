{
 "claims": [
  {
   "property": "C01",
   "status": "proved",
   "theorems": [
    "C01_inflate_repeats_each_item",
    "C01_inflate_endless_source"
   ],
   "note": ""
  },
  {
   "property": "C02",
   "status": "proved",
   "theorems": [
    "C02_inflate_zero_never_ends",
    "C02_inflate_zero_empty_source",
    "C02_documented_equivalence_refuted"
   ],
   "note": ""
  },
  {
   "property": "C03",
   "status": "proved",
   "theorems": [
    "C03_chunks_partition",
    "C03_chunks_zero_loses_everything"
   ],
   "note": ""
  },
  {
   "property": "C04",
   "status": "proved",
   "theorems": [
    "C04_wchunks_pads"
   ],
   "note": ""
  },
  {
   "property": "C05",
   "status": "proved",
   "theorems": [
    "C05_take_every_decimates",
    "C05_take_every_zero_panics"
   ],
   "note": ""
  },
  {
   "property": "C06",
   "status": "proved",
   "theorems": [
    "C06_integrate_running_sums",
    "C06_nintegrate_lanewise"
   ],
   "note": ""
  },
  {
   "property": "C07",
   "status": "proved",
   "theorems": [
    "C07_integrate_and_dump_blocks",
    "C07_nintegrate_and_dump_blocks",
    "C07_dump_zero_endless",
    "C07_ndump_zero_endless"
   ],
   "note": ""
  },
  {
   "property": "C08",
   "status": "proved",
   "theorems": [
    "C08_convolve_equal_taps",
    "C08_convolve_count",
    "C08_convolve_response",
    "C08_convolve_symmetric_filter",
    "C08_linear_convolution_refuted"
   ],
   "note": ""
  },
  {
   "property": "C09",
   "status": "proved",
   "theorems": [
    "C09_nonvolve_lanewise"
   ],
   "note": ""
  },
  {
   "property": "C10",
   "status": "proved",
   "theorems": [
    "C10_causal",
    "C10_wchunks_not_causal"
   ],
   "note": ""
  },
  {
   "property": "C11",
   "status": "proved",
   "theorems": [
    "C11_byte_round_trip",
    "C11_stream_round_trip",
    "C11_padding_loop_is_dead"
   ],
   "note": "Bytes are N below 256."
  },
  {
   "property": "C12",
   "status": "proved",
   "theorems": [
    "C12_rate_check_is_divisibility",
    "C12_above_2_53_refuted"
   ],
   "note": "IEEE binary64 (Flocq); true for every Libm."
  },
  {
   "property": "C13",
   "status": "proved",
   "theorems": [
    "C13_no_nans_f64",
    "C13_no_nans_complex",
    "C13_nan_is_accepted"
   ],
   "note": ""
  },
  {
   "property": "C14",
   "status": "proved",
   "theorems": [
    "C14_fftshift_rotation"
   ],
   "note": ""
  },
  {
   "property": "C15",
   "status": "proved",
   "theorems": [
    "C15_fftshift_mut_is_identity",
    "C15_disagrees_with_fftshift"
   ],
   "note": ""
  },
  {
   "property": "C16",
   "status": "proved",
   "theorems": [
    "C16_linspace_grid"
   ],
   "note": "Exact arithmetic (reals)."
  },
  {
   "property": "C17",
   "status": "proved",
   "theorems": [
    "C17_db_undb_inverse",
    "C17_db_values"
   ],
   "note": "Exact arithmetic (reals)."
  },
  {
   "property": "C18",
   "status": "proved",
   "theorems": [
    "C18_erf_symmetry",
    "C18_odd_at_zero_refuted"
   ],
   "note": "Exact arithmetic (reals)."
  },
  {
   "property": "C19",
   "status": "proved",
   "theorems": [
    "C19_hamming_shape"
   ],
   "note": "Exact arithmetic (reals)."
  },
  {
   "property": "C20",
   "status": "proved",
   "theorems": [
    "C20_ber"
   ],
   "note": "IEEE binary64; value is the correctly rounded ratio."
  },
  {
   "property": "C21",
   "status": "proved",
   "theorems": [
    "C21_energy",
    "C21_power_divisor",
    "C21_power_is_not_mean_refuted",
    "C21_power_one_sample_f64"
   ],
   "note": "Exact arithmetic, and binary64 for the one-sample case."
  },
  {
   "property": "C22",
   "status": "proved",
   "theorems": [
    "C22_awgn",
    "C22_awgn_complex",
    "C22_pure_awgn"
   ],
   "note": "Any number type; noise is an arbitrary endless sequence."
  },
  {
   "property": "C23",
   "status": "proved",
   "theorems": [
    "C23_logistic_range_exact",
    "C23_logistic_range_f64"
   ],
   "note": "Exact arithmetic and IEEE binary64."
  },
  {
   "property": "C24",
   "status": "proved",
   "theorems": [
    "C24_dcsk_round_trip_f64",
    "C24_dcsk_round_trip_exact"
   ],
   "note": "IEEE binary64 (and exact arithmetic)."
  },
  {
   "property": "C25",
   "status": "proved",
   "theorems": [
    "C25_csk_round_trip_exact",
    "C25_csk_round_trip_f64"
   ],
   "note": "Exact arithmetic unconditionally; binary64 as an equivalence with the orbits differing at true bits (whether the f64 orbits ever merge is not decided; none in 4e9 steps by a search outside the proof)."
  },
  {
   "property": "C26",
   "status": "proved",
   "theorems": [
    "C26_chebyshev_diverges_exact",
    "C26_chebyshev_overflows_f64",
    "C26_chebyshev_never_nan_f64"
   ],
   "note": "Exact arithmetic and binary64."
  },
  {
   "property": "C27",
   "status": "proved",
   "theorems": [
    "C27_tent_bernoulli_exact",
    "C27_tent_bernoulli_f64"
   ],
   "note": "Exact arithmetic and binary64."
  },
  {
   "property": "C28",
   "status": "proved",
   "theorems": [
    "C28_baseband_bpsk_round_trip",
    "C28_baseband_bpsk_noise_exact",
    "C28_baseband_bpsk_noise"
   ],
   "note": "IEEE binary64, every Libm; exact characterisation of the tolerated noise."
  },
  {
   "property": "C29",
   "status": "proved",
   "theorems": [
    "C29_bpsk_round_trip_f64",
    "C29_bpsk_exact",
    "C29_bpsk_exact_two_samples",
    "C29_bpsk_receiver_exact"
   ],
   "note": "IEEE binary64 for every cosine without NaN, and exact arithmetic (there no carrier condition is needed from two samples per symbol on)."
  },
  {
   "property": "C30",
   "status": "proved",
   "theorems": [
    "C30_bpsk_checks"
   ],
   "note": "IEEE binary64."
  },
  {
   "property": "C31",
   "status": "proved",
   "theorems": [
    "C31_baseband_qpsk_noise",
    "C31_baseband_qpsk_round_trip"
   ],
   "note": "IEEE binary64, with noise tolerance."
  },
  {
   "property": "C32",
   "status": "proved",
   "theorems": [
    "C32_qpsk_round_trip_general",
    "C32_qpsk_round_trip",
    "C32_qpsk_endless"
   ],
   "note": "Exact arithmetic; a general energy condition and the standard design; endless case for any number type."
  },
  {
   "property": "C33",
   "status": "proved",
   "theorems": [
    "C33_cdma_chip_errors_exact",
    "C33_cdma_chip_errors",
    "C33_cdma_round_trip",
    "C33_cdma_empty_key"
   ],
   "note": "Exact characterisation of the tolerated chip errors, ties included."
  },
  {
   "property": "C34",
   "status": "proved",
   "theorems": [
    "C34_spread_despread",
    "C34_cdma_bpsk_round_trip",
    "C34_cdma_bpsk_exact",
    "C34_cdma_checks"
   ],
   "note": "IEEE binary64 for every cosine without NaN; exact arithmetic unconditionally; the checks as an equivalence."
  },
  {
   "property": "C35",
   "status": "proved",
   "theorems": [
    "C35_cdma_qpsk_general",
    "C35_cdma_qpsk_round_trip"
   ],
   "note": "Exact arithmetic; general energy condition and the standard design."
  },
  {
   "property": "C36",
   "status": "proved",
   "theorems": [
    "C36_crosstalk",
    "C36_hadamard_users",
    "C36_hadamard_design"
   ],
   "note": "Exact arithmetic; a cross-talk theorem for arbitrary keys, Hadamard rows with equal chip energy, and the standard design."
  },
  {
   "property": "C37",
   "status": "proved",
   "theorems": [
    "C37_hadamard_orthogonal",
    "C37_hadamard_entries",
    "C37_hadamard_panics"
   ],
   "note": "Includes a closed form for every entry."
  },
  {
   "property": "C38",
   "status": "proved",
   "theorems": [
    "C38_key_selection",
    "C38_single_row"
   ],
   "note": ""
  },
  {
   "property": "C39",
   "status": "proved",
   "theorems": [
    "C39_hop_epochs",
    "C39_hop_exactly_once",
    "C39_hop_deterministic",
    "C39_hop_panics",
    "C39_every_order"
   ],
   "note": "Any number type, every generator (rand is a parameter; the Fisher-Yates shuffle is modelled); every order is reachable."
  },
  {
   "property": "C40",
   "status": "proved",
   "theorems": [
    "C40_fh_bpsk_round_trip_grid",
    "C40_fh_bpsk_round_trip",
    "C40_fh_bpsk_exact",
    "C40_low_above_high_panics"
   ],
   "note": "IEEE binary64 for every cosine with cos(0)=1 and no NaN, and exact arithmetic; needs 0 <= low <= high (with low > high a panic is proved)."
  },
  {
   "property": "C41",
   "status": "proved",
   "theorems": [
    "C41_linear_chirp",
    "C41_downchirp_is_upchirp",
    "C41_downchirp_goes_up",
    "C41_fh_css_symbols"
   ],
   "note": "Exact arithmetic; the down-chirp identity for any number type."
  },
  {
   "property": "C42",
   "status": "proved",
   "theorems": [
    "C42_data_carriers",
    "C42_bad_counts_panic"
   ],
   "note": "Both bad cases (no pilots, more pilots than carriers) are proved to panic."
  },
  {
   "property": "C43",
   "status": "proved",
   "theorems": [
    "C43_ofdm_round_trip",
    "C43_odd_carriers_fail",
    "C43_ofdm_bits_with_noise"
   ],
   "note": "Exact arithmetic, the FFT as the exact DFT; odd counts always fail; the bit link tolerates noise."
  },
  {
   "property": "C44",
   "status": "proved",
   "theorems": [
    "C44_framing",
    "C44_all_pilots_sends_nothing",
    "C44_incomplete_block_panics"
   ],
   "note": "Any number type and any length-preserving FFT; receiver panics on incomplete blocks."
  },
  {
   "property": "C45",
   "status": "proved",
   "theorems": [
    "C45_receiver_one_sample_late",
    "C45_one_sample_per_symbol_panics",
    "C45_passband_round_trip"
   ],
   "note": "Exact arithmetic; timing for any FFT; end-to-end passband round trip from 12 samples per symbol on."
  },
  {
   "property": "C46",
   "status": "proved",
   "theorems": [
    "C46_coded_stream_round_trip",
    "C46_coded_stream_clean",
    "C46_uncorrectable_frames_pass",
    "C46_short_last_frame_panics"
   ],
   "note": "For every codec meeting the contract (two wrong bytes in every frame, any bits of them); plus, for every codec, what happens to uncorrectable frames and the panic on a short uncorrectable last piece."
  },
  {
   "property": "C47",
   "status": "proved",
   "theorems": [
    "C47_coded_cdma_round_trip",
    "C47_coded_cdma_exact"
   ],
   "note": "binary64 under the carrier condition of C34 over the coded length; exact arithmetic without it."
  },
  {
   "property": "C48",
   "status": "proved",
   "theorems": [
    "C48_fh_ofdm_dcsk_round_trip",
    "C48_first_bits",
    "C48_f64_never_finite"
   ],
   "note": "Round trip in exact arithmetic for every RNG. In binary64 more than stated: no sample of any block is finite, for every libm, RNG and every FFT that lets a non-finite carrier reach all samples (any sum of products does)."
  },
  {
   "property": "C49",
   "status": "proved",
   "theorems": [
    "C49_bfsk_wave",
    "C49_mfsk_ignores_the_count",
    "C49_fsk_uses_two_frequencies",
    "C49_receiver_is_a_stub",
    "C49_bfsk_round_trip_refuted",
    "C49_bfsk_checks"
   ],
   "note": "Over any arithmetic; the checks in binary64."
  },
  {
   "property": "C50",
   "status": "proved",
   "theorems": [
    "C50_fsk_decision",
    "C50_fsk_round_trip",
    "C50_fsk_orthogonal_round_trip"
   ],
   "note": "Exact arithmetic. The decision of every bit is characterised exactly (iff); a kernel condition and orthogonal tones are two sufficient cases."
  },
  {
   "property": "C51",
   "status": "proved",
   "theorems": [
    "C51_length_any_fft",
    "C51_bandpass_defined",
    "C51_bandpass_spectrum",
    "C51_bandpass_idempotent",
    "C51_bandpass_linear",
    "C51_bandpass_tone",
    "C51_bandpass_energy"
   ],
   "note": "Lengths and panics for every transform library; the rest in exact arithmetic with the exact real DFT: spectrum, linearity, idempotence, tones, energy. butterpass (external sci-rs filter design) is not modelled."
  },
  {
   "property": "C52",
   "status": "proved",
   "theorems": [
    "C52_base_defined",
    "C52_base_panics",
    "C52_mapped_f64",
    "C52_mapped_exact",
    "C52_mapped_panics"
   ],
   "note": "Shapes and panics for any number type and any FFT; the mapped output in binary64 up to n = 2^52, and exactly."
  },
  {
   "property": "C53",
   "status": "proved",
   "theorems": [
    "C53_never_starts",
    "C53_poisoned_for_ever",
    "C53_never_starts_exact"
   ],
   "note": "binary64 for every libm, plus what one non-finite sample does; the exact version too."
  },
  {
   "property": "C54",
   "status": "proved",
   "theorems": [
    "C54_singular_tap_not_finite",
    "C54_quarter_rolloff_not_finite"
   ],
   "note": "binary64, every sin and cos."
  },
  {
   "property": "C55",
   "status": "proved",
   "theorems": [
    "C55_energy_detector",
    "C55_willie_detector"
   ],
   "note": "Exact arithmetic (reals)."
  },
  {
   "property": "C56",
   "status": "proved",
   "theorems": [
    "C56_old_fh_bpsk_clock"
   ],
   "note": "Exact arithmetic."
  },
  {
   "property": "C57",
   "status": "proved",
   "theorems": [
    "C57_prefix_absorbs_multipath"
   ],
   "note": "Exact arithmetic, the FFT as the exact DFT."
  },
  {
   "property": "C58",
   "status": "proved",
   "theorems": [
    "C58_reed_solomon_corrects",
    "C58_minimum_distance"
   ],
   "note": "The reference code is not the crate: it shows the contract is satisfiable. Same field polynomial (0x11d)."
  },
  {
   "property": "C59",
   "status": "proved",
   "theorems": [
    "C59_test_parameters_fail"
   ],
   "note": "Exact arithmetic."
  },
  {
   "property": "C60",
   "status": "proved",
   "theorems": [
    "C60_fm_wave"
   ],
   "note": "Over any arithmetic."
  },
  {
   "property": "C61",
   "status": "proved",
   "theorems": [
    "C61_rrcos_symmetric",
    "C61_rrcos_symmetry_refuted"
   ],
   "note": "Exact arithmetic; the asymmetry at ts/(2 beta) is proved as a refutation of unconditional symmetry."
  },
  {
   "property": "C62",
   "status": "proved",
   "theorems": [
    "C62_hopped_wave",
    "C62_fixed_wave",
    "C62_f64_never_finite",
    "C62_exact_wave"
   ],
   "note": "Waveforms over any arithmetic and FFT; the binary64 part for FFTs as in C48."
  },
  {
   "property": "C63",
   "status": "proved",
   "theorems": [
    "C63_ssca_base_formula",
    "C63_even",
    "C63_scale"
   ],
   "note": "Exact arithmetic, the FFT as the exact DFT."
  },
  {
   "property": "C64",
   "status": "proved",
   "theorems": [
    "C64_faithful_exact",
    "C64_faithful_f64",
    "C64_f64_loses_entries_refuted",
    "C64_exact_loses_entries_refuted"
   ],
   "note": "The full claim (one to one for all sizes) is false; both counterexamples are theorems (_refuted)."
  },
  {
   "property": "C65",
   "status": "proved",
   "theorems": [
    "C65_max_panics_iff_nan",
    "C65_max_cut_value",
    "C65_dcs_value",
    "C65_dcs_nonnegative",
    "C65_max_cut_gain",
    "C65_dcs_gain",
    "C65_short_signal_panics",
    "C65_silence"
   ],
   "note": "Exact arithmetic for the values; binary64 for panics, for every libm with |sin|,|cos| <= 1 and e^0 = 1 and every FFT and summation order keeping zeros zero."
  },
  {
   "property": "C66",
   "status": "proved",
   "theorems": [
    "C66_tx_bpsk",
    "C66_tx_qpsk",
    "C66_tx_bfsk",
    "C66_tx_csk",
    "C66_tx_dcsk",
    "C66_tx_cdma_bpsk",
    "C66_tx_ofdm",
    "C66_tx_fh_ofdm_dcsk",
    "C66_tx_fh_css",
    "C66_rx_bpsk",
    "C66_rx_qpsk",
    "C66_rx_ofdm",
    "C66_chirp"
   ],
   "note": "binary64. rx_ofdm: only the arguments that always raise are classified; when it returns is C67 and C44/C45."
  },
  {
   "property": "C67",
   "status": "proved",
   "theorems": [
    "C67_bpsk_exact",
    "C67_bpsk_f64",
    "C67_qpsk_exact",
    "C67_ofdm_exact"
   ],
   "note": "Exact arithmetic; BPSK in binary64 too."
  },
  {
   "property": "C68",
   "status": "proved",
   "theorems": [
    "C68_alternating_chips",
    "C68_plain_receiver_blind"
   ],
   "note": "Exact arithmetic."
  },
  {
   "property": "C69",
   "status": "proved",
   "theorems": [
    "C69_tx",
    "C69_rx",
    "C69_round_trip",
    "C69_standard_design",
    "C69_four_samples_refuted",
    "C69_one_sample_drops_first_bit",
    "C69_same_as_rust"
   ],
   "note": "Exact arithmetic; transmitter samples against Rust in any arithmetic with one cosine."
  },
  {
   "property": "C70",
   "status": "proved",
   "theorems": [
    "C70_baseband",
    "C70_tx_half_carrier",
    "C70_rx",
    "C70_even_cycles",
    "C70_round_trip_refuted",
    "C70_psk_test_rates"
   ],
   "note": "Exact arithmetic. The round trip is false; what is read is proved instead, and the failure for every message."
  },
  {
   "property": "C71",
   "status": "proved",
   "theorems": [
    "C71_rx_is_plain_bpsk",
    "C71_tx",
    "C71_reads_edges",
    "C71_round_trip_refuted"
   ],
   "note": "Exact arithmetic. The round trip is false; what is read is proved instead."
  },
  {
   "property": "C72",
   "status": "proved",
   "theorems": [
    "C72_raises",
    "C72_samples",
    "C72_empty",
    "C72_tone_is_sharp",
    "C72_sample_clock_refuted",
    "C72_chirpCtr_empty",
    "C72_chirpCtr_length_refuted",
    "C72_phase_ignored",
    "C72_periods_ignored"
   ],
   "note": "Exact arithmetic. The sample clock and the length of chirpCtr are refuted."
  },
  {
   "property": "C73",
   "status": "proved",
   "theorems": [
    "C73_raises",
    "C73_one_window",
    "C73_mapped_f64",
    "C73_faithful_exact",
    "C73_faithful_f64",
    "C73_formula",
    "C73_window",
    "C73_dcs",
    "C73_max_cut_value",
    "C73_max_cut_raises",
    "C73_max_cut_at_most",
    "C73_max_cut_nonnegative",
    "C73_max_cut_refuted",
    "C73_same_as_rust_refuted"
   ],
   "note": "Formula and detectors in exact arithmetic with an exact FFT; definedness for any FFT, mapping in binary64. The documented maximum of max_cut and equality with the Rust spectrum are refuted."
  },
  {
   "property": "C74",
   "status": "proved",
   "theorems": [
    "C74_next",
    "C74_floor_iff",
    "C74_floor_misses"
   ],
   "note": "The logarithm test is a parameter; the answer is right exactly when the test is."
  },
  {
   "property": "C75",
   "status": "proved",
   "theorems": [
    "C75_raises",
    "C75_tx",
    "C75_columns",
    "C75_injective",
    "C75_bounded",
    "C75_diverges"
   ],
   "note": "Exact arithmetic, any generator."
  },
  {
   "property": "C76",
   "status": "proved",
   "theorems": [
    "C76_ber",
    "C76_ber_counts",
    "C76_avg_energy",
    "C76_avg_energy_iq"
   ],
   "note": "ber in any arithmetic, energies exact."
  },
  {
   "property": "C77",
   "status": "proved",
   "theorems": [
    "C77_reads_back_iff",
    "C77_below_a_year",
    "C77_reads_back_refuted",
    "C77_zero"
   ],
   "note": "Whole seconds. The general claim is false; the exact condition is proved."
  },
  {
   "property": "C78",
   "status": "proved",
   "theorems": [
    "C78_bpsk_noise_exact",
    "C78_bpsk_noise_energy",
    "C78_bpsk_noise_tight",
    "C78_qpsk_noise_exact",
    "C78_qpsk_noise_energy"
   ],
   "note": "Exact arithmetic; noise is any list of the length of the signal."
  },
  {
   "property": "C79",
   "status": "proved",
   "theorems": [
    "C79_qpsk_receiver_f64",
    "C79_qpsk_round_trip_f64",
    "C79_qpsk_noise_f64",
    "C79_qpsk_design_f64",
    "C79_bpsk_noise_f64",
    "C79_bpsk_design_f64"
   ],
   "note": "Binary64. The accuracy of sine and cosine (1/64 on [-2^45, 2^45], never outside [-1,1]) is a hypothesis on libm."
  },
  {
   "property": "C80",
   "status": "proved",
   "theorems": [
    "C80_cdma_bpsk_noise_exact",
    "C80_cdma_bpsk_noise_energy",
    "C80_tone_jammer",
    "C80_hadamard_immune",
    "C80_cdma_qpsk_noise_energy",
    "C80_qpsk_tone_jammer",
    "C80_cdma_bpsk_noise_f64",
    "C80_cdma_qpsk_noise_f64",
    "C80_cdma_bpsk_design_f64",
    "C80_cdma_qpsk_design_f64"
   ],
   "note": "Exact arithmetic for the noise conditions and the jammer; binary64 for the design theorems, with the accuracy of sine and cosine as a hypothesis on libm."
  },
  {
   "property": "C81",
   "status": "proved",
   "theorems": [
    "C81_answer",
    "C81_ratio",
    "C81_never",
    "C81_always",
    "C81_long_f64"
   ],
   "note": "The quantile function of scipy is a parameter; numpy sums in pairs, the model from left to right."
  },
  {
   "property": "C82",
   "status": "proved",
   "theorems": [
    "C82_opposite",
    "C82_level",
    "C82_opposite_f64",
    "C82_exception"
   ],
   "note": "scipy's test is a parameter."
  },
  {
   "property": "C83",
   "status": "proved",
   "theorems": [
    "C83_returns",
    "C83_table",
    "C83_tie_shifts",
    "C83_best",
    "C83_youden",
    "C83_tie_refuted"
   ],
   "note": "Exact arithmetic. scikit-learn's fit and split are parameters, roc_curve is written out."
  },
  {
   "property": "C84",
   "status": "proved",
   "theorems": [
    "C84_not_inf",
    "C84_bers_f64",
    "C84_bers_baseband_f64",
    "C84_nan_panics",
    "C84_baseband_qpsk_half",
    "C84_bpsk_zero",
    "C84_silent_receiver"
   ],
   "note": "Binary64. The noise is an arbitrary endless sequence; rayon keeps the order of results."
  },
  {
   "property": "C85",
   "status": "proved",
   "theorems": [
    "C85_estimates",
    "C85_falls",
    "C85_get_pds",
    "C85_silence_f64"
   ],
   "note": "Exact arithmetic except C85_silence_f64."
  },
  {
   "property": "C86",
   "status": "proved",
   "theorems": [
    "C86_logistic",
    "C86_search"
   ],
   "note": "Exact arithmetic for the curve."
  },
  {
   "property": "C87",
   "status": "proved",
   "theorems": [
    "C87_bpsk_gain",
    "C87_qpsk_gain",
    "C87_cdma_bpsk_gain",
    "C87_cdma_qpsk_gain",
    "C87_fh_bpsk_gain",
    "C87_dcsk_gain",
    "C87_fsk_gain",
    "C87_fh_ofdm_dcsk_gain",
    "C87_ofdm_linear",
    "C87_ofdm_qpsk_gain",
    "C87_baseband_gain",
    "C87_bpsk_inverted",
    "C87_qpsk_inverted",
    "C87_csk_refuted",
    "C87_same_behaviour"
   ],
   "note": "Exact arithmetic. C87_csk_refuted is the counterexample for CSK."
  },
  {
   "property": "C88",
   "status": "proved",
   "theorems": [
    "C88_bpsk_power",
    "C88_cdma_bpsk_power",
    "C88_bpsk_eb",
    "C88_cdma_bpsk_eb",
    "C88_qpsk_eb",
    "C88_cdma_qpsk_eb",
    "C88_bfsk_eb",
    "C88_ofdm_energy"
   ],
   "note": "Exact arithmetic. The carrier must not be a multiple of half the sample rate (there cosine samples are +-1 throughout)."
  },
  {
   "property": "C89",
   "status": "proved",
   "theorems": [
    "C89_bpsk_late",
    "C89_bpsk_late_symbols",
    "C89_qpsk_late",
    "C89_qpsk_late_symbols",
    "C89_cdma_bpsk_late",
    "C89_cdma_bpsk_late_symbols",
    "C89_cdma_qpsk_late_symbols",
    "C89_dcsk_late_f64",
    "C89_dcsk_late_exact"
   ],
   "note": "Exact arithmetic except DCSK, which is also proved in binary64. The CDMA chip theorem needs a whole number of half cycles per chip."
  },
  {
   "property": "C90",
   "status": "proved",
   "theorems": [
    "C90_walsh_crosstalk",
    "C90_crosstalk_exact",
    "C90_multi_user_small",
    "C90_multi_user_large_refuted",
    "C90_mai_clean",
    "C90_mai_errors",
    "C90_mai_first_f64"
   ],
   "note": "Exact arithmetic; the first point of the figure in binary64. The unit test draws its messages at random: the refutation says failing messages exist, not how often they are drawn."
  },
  {
   "property": "C91",
   "status": "proved",
   "theorems": [
    "C91_baseband",
    "C91_rx_ofdm",
    "C91_own_signal",
    "C91_cut_short"
   ],
   "note": "Counts and acceptance, not the values of the bits (C67 has those in exact arithmetic)."
  },
  {
   "property": "C92",
   "status": "proved",
   "theorems": [
    "C92_calc_ber",
    "C92_ber_main",
    "C92_ber_never",
    "C92_ofdm_constant",
    "C92_gain",
    "C92_bpsk_ignores_gain",
    "C92_qpsk_ignores_gain",
    "C92_half",
    "C92_noise_scale"
   ],
   "note": "Noise is a parameter of the model; the curves are statements about every noise, not about probabilities. multiprocessing is a map in order."
  },
  {
   "property": "C93",
   "status": "proved",
   "theorems": [
    "C93_ofdm_binary64",
    "C93_round_trip",
    "C93_added_noise"
   ],
   "note": "rustfft is not modelled: its accuracy is the hypothesis, shown satisfiable by a two-point butterfly in binary64."
  },
  {
   "property": "C94",
   "status": "proved",
   "theorems": [
    "C94_tx_baseband_bpsk",
    "C94_rx_baseband_bpsk",
    "C94_tx_baseband_qpsk",
    "C94_rx_baseband_qpsk",
    "C94_tx_bpsk",
    "C94_rx_bpsk",
    "C94_tx_qpsk",
    "C94_rx_qpsk",
    "C94_tx_bfsk",
    "C94_tx_mfsk",
    "C94_tx_fsk_freqs",
    "C94_tx_fsk",
    "C94_rx_fsk",
    "C94_tx_fm",
    "C94_tx_baseband_cdma",
    "C94_rx_baseband_cdma",
    "C94_tx_cdma_bpsk",
    "C94_rx_cdma_bpsk",
    "C94_tx_cdma_qpsk",
    "C94_rx_cdma_qpsk",
    "C94_tx_baseband_csk",
    "C94_rx_baseband_csk",
    "C94_tx_baseband_dcsk",
    "C94_rx_baseband_dcsk",
    "C94_tx_csk",
    "C94_tx_dcsk",
    "C94_tx_baseband_ofdm",
    "C94_rx_baseband_ofdm",
    "C94_tx_ofdm",
    "C94_rx_ofdm"
   ],
   "note": "The frequency-hopping transmitters and the FH-OFDM-DCSK modem are not covered."
  },
  {
   "property": "C95",
   "status": "proved",
   "theorems": [
    "C95_bpsk_from_baseband",
    "C95_qpsk_from_baseband",
    "C95_manual_signal_refuted",
    "C95_time_axis",
    "C95_time_axis_refuted",
    "C95_last_points",
    "C95_last_points_one_line",
    "C95_qpsk_corners",
    "C95_three_plots",
    "C95_bpsk_constellations"
   ],
   "note": "The spectra, the noise, the Butterworth filter and the plotting calls of these tests are not modelled."
  },
  {
   "property": "C96",
   "status": "proved",
   "theorems": [
    "C96_first_signal",
    "C96_transmitters",
    "C96_enough_bits",
    "C96_run",
    "C96_bad_level",
    "C96_harness",
    "C96_true_ratio",
    "C96_bpsk_levels",
    "C96_bpsk_run",
    "C96_asked_ratio_refuted"
   ],
   "note": "The regressions, the progress bar, multiprocessing and the plots are not part of this model (the regression table is C83). That MaxCut meets no NaN in binary64 is a hypothesis of C96_harness."
  },
  {
   "property": "C97",
   "status": "proved",
   "theorems": [
    "C97_dcsk_noise_exact",
    "C97_dcsk_noise_margin",
    "C97_dcsk_gain",
    "C97_dcsk_received_f64",
    "C97_dcsk_gain_f64",
    "C97_dcsk_too_weak_f64",
    "C97_csk_noise_exact",
    "C97_csk_noise_margin",
    "C97_csk_received_f64",
    "C97_csk_gain_refuted",
    "C97_csk_gain_f64_refuted"
   ],
   "note": "Exact arithmetic and binary64. The margins are sufficient for all messages; the exact conditions are in C97_dcsk_noise_exact and C97_csk_noise_exact."
  },
  {
   "property": "C98",
   "status": "proved",
   "theorems": [
    "C98_fh_bpsk_noise_exact",
    "C98_fh_bpsk_noise_energy",
    "C98_jammer",
    "C98_jammed_fraction"
   ],
   "note": "Exact arithmetic. The random generator is a parameter."
  },
  {
   "property": "C99",
   "status": "proved",
   "theorems": [
    "C99_fsk_rule",
    "C99_fsk_faded",
    "C99_fsk_noise",
    "C99_fsk_tight",
    "C99_fsk_tone_jammer"
   ],
   "note": "Exact arithmetic, orthogonal tones (C99_fsk_rule needs no such hypothesis)."
  },
  {
   "property": "C100",
   "status": "proved",
   "theorems": [
    "C100_bpsk",
    "C100_cdma_bpsk",
    "C100_qpsk",
    "C100_baseband_bpsk",
    "C100_baseband_qpsk",
    "C100_python_bpsk",
    "C100_curves"
   ],
   "note": "Exact arithmetic; not_inf and nan_to_num are the identity there. Which fraction of the bits random noise hits is not modelled: the theorem says what has to be counted."
  },
  {
   "property": "C101",
   "status": "proved",
   "theorems": [
    "C101_bpsk_phase",
    "C101_qpsk_phase",
    "C101_bpsk_detuned",
    "C101_bpsk_detuned_start",
    "C101_bpsk_detuned_lost",
    "C101_qpsk_detuned_lost"
   ],
   "note": "Exact arithmetic. The loop of costas.rs that should remove such errors is the subject of C53."
  },
  {
   "property": "C102",
   "status": "proved",
   "theorems": [
    "C102_bpsk_channels",
    "C102_qpsk_channels",
    "C102_empty_channel",
    "C102_half_spacing",
    "C102_bpsk_unsynchronised"
   ],
   "note": "Exact arithmetic; QPSK receivers among neighbours out of step are not covered."
  },
  {
   "property": "C103",
   "status": "proved",
   "theorems": [
    "C103_powers",
    "C103_pds",
    "C103_pmds",
    "C103_step",
    "C103_rises",
    "C103_complement",
    "C103_new_step",
    "C103_bpsk_flat"
   ],
   "note": "Exact arithmetic; the BFSK and OFDM curves are not covered."
  },
  {
   "property": "C104",
   "status": "proved",
   "theorems": [
    "C104_rule",
    "C104_noise",
    "C104_tone",
    "C104_tight"
   ],
   "note": "Exact arithmetic with the exact DFT; the error of at most 8 comes from the filter being one sample late (C45)."
  },
  {
   "property": "C105",
   "status": "proved",
   "theorems": [
    "C105_passband_binary64",
    "C105_bounded_change",
    "C105_round_trip",
    "C105_added_noise"
   ],
   "note": "FFT and sine are parameters with stated accuracy; exp 0 = 1 is assumed of libm. Signals of up to 2^53 samples whose carrier phase is at most tau 2^50, N sps at most 2^38."
  },
  {
   "property": "C106",
   "status": "proved",
   "theorems": [
    "C106_fsk_receiver",
    "C106_fsk_decision",
    "C106_fsk_round_trip",
    "C106_fsk_noise",
    "C106_fm_test_exact",
    "C106_fm_test"
   ],
   "note": "The sine and cosine are parameters accurate to tau for arguments up to 2^45. For the test tau is at most 2^-17."
  },
  {
   "property": "C107",
   "status": "proved",
   "theorems": [
    "C107_error_function",
    "C107_erf",
    "C107_erfc",
    "C107_bpsk_curve",
    "C107_qpsk_curve",
    "C107_erf_f64",
    "C107_erfc_f64",
    "C107_erfc_zero_f64",
    "C107_bpsk_curve_f64"
   ],
   "note": "The exp of libm is a parameter: relative error at most 1e-10 (2^-1070 absolute near underflow) on arguments up to 1, and 0 at minus infinity; C107_libm shows such a function exists."
  },
  {
   "property": "C108",
   "status": "proved",
   "theorems": [
    "C108_bpsk",
    "C108_cdma_bpsk",
    "C108_qpsk",
    "C108_baseband_bpsk",
    "C108_baseband_qpsk",
    "C108_python_bpsk",
    "C108_curves",
    "C108_normal_mean"
   ],
   "note": "Exact arithmetic. Normal(0, sigma).sample_iter is taken to be sigma times independent standard normals; the pseudo-random generator is not modelled."
  },
  {
   "property": "C109",
   "status": "proved",
   "theorems": [
    "C109_bpsk",
    "C109_cdma_bpsk",
    "C109_baseband_bpsk",
    "C109_baseband_qpsk",
    "C109_python_bpsk"
   ],
   "note": "Exact arithmetic, independent standard normal noise as in C108. Passband QPSK is left out: there the two bits of a symbol share their samples."
  },
  {
   "property": "C110",
   "status": "proved",
   "theorems": [
    "C110_channel",
    "C110_energy",
    "C110_awgn",
    "C110_pure_awgn",
    "C110_noise_level",
    "C110_detected",
    "C110_false_alarm",
    "C110_complex"
   ],
   "note": "Exact arithmetic, independent standard normal noise as in C108. Probabilities of the detector are bounded from above by the mean of a majorising function, not computed."
  },
  {
   "property": "C111",
   "status": "proved",
   "theorems": [
    "C111_bpsk",
    "C111_python",
    "C111_half",
    "C111_close",
    "C111_script",
    "C111_ber_theory"
   ],
   "note": "Exact arithmetic, independent standard normal noise as in C108. C111_ber_theory is for the script's constants (carrier 2121, rates 65536 and 256)."
  },
  {
   "property": "C112",
   "status": "proved",
   "theorems": [
    "C112_fh_bpsk",
    "C112_rounds",
    "C112_close",
    "C112_test"
   ],
   "note": "Exact arithmetic, independent standard normal noise as in C108. tests/ber.rs does not itself measure FH-BPSK; its macro is applied to the transmitter and receiver of fh.rs."
  },
  {
   "property": "C113",
   "status": "proved",
   "theorems": [
    "C113_qpsk",
    "C113_python",
    "C113_close",
    "C113_script"
   ],
   "note": "Exact arithmetic, independent standard normal noise as in C108. Means only: with a leak the two bits of a symbol are hit by correlated noise, and no variance is claimed."
  },
  {
   "property": "C114",
   "status": "proved",
   "theorems": [
    "C114_cdma_qpsk",
    "C114_cdma_bpsk",
    "C114_no_gain_qpsk",
    "C114_no_gain_bpsk"
   ],
   "note": "Exact arithmetic, independent standard normal noise as in C108. tests/ber.rs measures CDMA-BPSK with an inlined copy of its macro; CDMA-QPSK is put through the macro here."
  }
 ]
}