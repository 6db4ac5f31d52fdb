{"id": "C01", "title": "inflate repeats each item", "statement": "For copies >= 1, source.inflate(copies) yields every source item exactly `copies` times, in order, and then None on every later call.", "quantifier": "every item type, every finite source, every copies >= 1, every number of next() calls", "why_tests_cant": "unit tests exercise one source, one count and one length; the claim is about every source and every later call of next()", "anchors": ["src/iter/inflate.rs:Inflate::next", "src/iter/mod.rs:Iter::inflate"]}
{"id": "C02", "title": "inflate(0) does not behave like zero copies", "statement": "The documented equivalence of inflate(copies) with flat_map(repeat.take(copies)) fails at copies = 0: on a non-empty source inflate(0) returns the first item on every call and never ends; on an empty source it yields nothing.", "quantifier": "every non-empty source, every number of next() calls", "why_tests_cant": "the doc test only runs copies = 5; non-termination is not observable by a finite test", "anchors": ["src/iter/inflate.rs:Inflate::next"]}
{"id": "C03", "title": "chunks partitions the stream", "statement": "For n >= 1, chunks(n) yields non-empty vectors whose concatenation is the source, all of length n except possibly the last; chunks(0) yields nothing at all, losing the whole source.", "quantifier": "every finite source, every n", "why_tests_cant": "unit tests exercise one source, one count and one length; the claim is about every source and every later call of next()", "anchors": ["src/iter/chunks.rs:Chunks::next"]}
{"id": "C04", "title": "wchunks pads to whole chunks", "statement": "For n >= 1, wchunks(n) yields only vectors of length exactly n, whose concatenation is the source followed by default values, and it yields floor(len/n)+1 of them: one full chunk of pure padding is emitted when n divides the source length (including for an empty source).", "quantifier": "every finite source, every n >= 1", "why_tests_cant": "the extra padding chunk only shows at lengths that are multiples of n, and the claim is for all lengths", "anchors": ["src/iter/chunks.rs:WholeChunks::next"]}
{"id": "C05", "title": "take_every decimates", "statement": "For frequency >= 1, take_every(frequency) yields exactly the items whose index is a multiple of frequency; take_every(0) panics at the first next().", "quantifier": "every finite source, every frequency", "why_tests_cant": "unit tests exercise one source, one count and one length; the claim is about every source and every later call of next()", "anchors": ["src/iter/take_every.rs:Take::next"]}
{"id": "C06", "title": "integrate yields running sums", "statement": "integrate() yields, at position i, the left-to-right sum of items 0..i starting from the default value; nintegrate() does so independently in each of the N lanes.", "quantifier": "every source, every addition operation (no algebraic law assumed, so floats included), every lane count", "why_tests_cant": "unit tests exercise one source, one count and one length; the claim is about every source and every later call of next()", "anchors": ["src/iter/integrate.rs:Integrate::next", "src/iter/integrate.rs:Nintegrate::next"]}
{"id": "C07", "title": "integrate_and_dump sums whole blocks", "statement": "For n >= 1, integrate_and_dump(n) and nintegrate_and_dump(n) yield the left-to-right sum of each consecutive complete block of n items, floor(len/n) values in all; a trailing incomplete block is dropped. For n = 0 they yield the zero value for ever whatever the source is.", "quantifier": "every source, every n, every addition", "why_tests_cant": "length/rounding corner cases and non-termination at n = 0 are outside the reach of samples", "anchors": ["src/iter/integrate.rs:IntegrateDump::next", "src/iter/integrate.rs:NintegrateDump::next"]}
{"id": "C08", "title": "convolve computes a moving weighted sum", "statement": "With L taps and n samples (n >= L >= 1) convolve yields n+L-1 values and equals linear convolution whenever all taps are equal; it is not linear convolution for all filters, and for n < L it yields only 2n-1 values.", "quantifier": "every signal, every filter, every length", "why_tests_cant": "the tests use one all-ones filter, the only shape for which the code and the specification agree", "anchors": ["src/iter/convolution.rs:Convolver::next", "src/iter/convolution.rs:Convolver::_convolve"]}
{"id": "C09", "title": "nonvolve is convolve in every lane", "statement": "nonvolve(filter) on N-lane items yields, lane by lane, exactly what convolve(filter) yields on that lane.", "quantifier": "every signal, filter, lane count", "why_tests_cant": "unit tests exercise one source, one count and one length; the claim is about every source and every later call of next()", "anchors": ["src/iter/convolution.rs:Nonvolver::next"]}
{"id": "C10", "title": "Adapters are causal", "statement": "inflate, integrate, integrate_and_dump, take_every and scale are causal: what they yield for a source is a prefix of what they yield for any extension of that source.", "quantifier": "every source and every extension of it", "why_tests_cant": "quantifies over all continuations of a stream", "anchors": ["src/iter/*.rs"]}
{"id": "C11", "title": "Bit and byte packing round-trip", "statement": "Unpacking any byte into 8 bits (LSB first) and packing gives the byte back; packing any bit stream into bytes and unpacking gives the stream followed by fewer than 8 false bits, although the explicit padding loop of bools_to_u8s never runs.", "quantifier": "every byte, every bit stream of every length", "why_tests_cant": "a random 33-bit stream is one sample", "anchors": ["src/lib.rs:bool_to_u8", "src/lib.rs:u8_to_bools", "src/lib.rs:bools_to_u8s", "src/lib.rs:u8s_to_bools"]}
{"id": "C12", "title": "Rate check means divisibility", "statement": "For sample_rate, symbol_rate < 2^53 with symbol_rate > 0 the check is_int(sample_rate as f64 / symbol_rate as f64) is true exactly when symbol_rate divides sample_rate, in IEEE binary64 arithmetic; above 2^53 it can accept non-multiples.", "quantifier": "every pair of rates", "why_tests_cant": "2^106 pairs; rounding of the quotient to an integer would be a rare event", "anchors": ["src/lib.rs:is_int"]}
{"id": "C13", "title": "no_nans rejects infinities but accepts NaN", "statement": "no_nans(v) is true exactly when no entry (or component) is an infinity; in particular it is true for a slice that contains NaN, contrary to its name.", "quantifier": "every f64 and complex slice", "why_tests_cant": "claim is about every bit pattern", "anchors": ["src/lib.rs:no_nans", "src/lib.rs:IsNan"]}
{"id": "C14", "title": "fftshift is a rotation", "statement": "fftshift(x) is a permutation of x, namely the left rotation by ceil(len/2); applied twice it is the identity for every even length and the left rotation by one for every odd length.", "quantifier": "every vector of every length", "why_tests_cant": "parity-dependent behaviour for all lengths", "anchors": ["src/lib.rs:fftshift"]}
{"id": "C15", "title": "fftshift_mut does nothing", "statement": "fftshift_mut leaves every slice unchanged, so it disagrees with fftshift on every slice fftshift changes.", "quantifier": "every slice", "why_tests_cant": "universal claim", "anchors": ["src/lib.rs:fftshift_mut"]}
{"id": "C16", "title": "linspace grid", "statement": "linspace(start, stop, num) yields num points, the first is start, consecutive points differ by (stop-start)/num, and when start < stop all lie in [start, stop) (exact arithmetic).", "quantifier": "every start, stop, num", "why_tests_cant": "continuous inputs", "anchors": ["src/lib.rs:linspace"]}
{"id": "C17", "title": "db and undb are inverse", "statement": "db(undb(x)) = x for every x, and undb(db(x)) = x for every x > 0 (exact arithmetic).", "quantifier": "every real", "why_tests_cant": "continuous inputs", "anchors": ["src/lib.rs:db", "src/lib.rs:undb"]}
{"id": "C18", "title": "erf symmetry", "statement": "The erf approximation satisfies erf(-x) = -erf(x) and erfc(x)+erfc(-x) = 2 for every x <> 0, is below 1 for x >= 0 and above -1 for x < 0; at 0 the symmetry fails since erf(0) is negative (exact arithmetic).", "quantifier": "every real", "why_tests_cant": "continuous inputs", "anchors": ["src/lib.rs:erf", "src/lib.rs:erfc"]}
{"id": "C19", "title": "Hamming window shape", "statement": "hamming_window(n) has n values, all in [0.08, 1], starts at 0.08 and satisfies w[i] = w[n-i]; the complex variant has the same real parts and zero imaginary parts (exact arithmetic).", "quantifier": "every n and index", "why_tests_cant": "all lengths", "anchors": ["src/lib.rs:hamming_window", "src/lib.rs:hamming_window_complex"]}
{"id": "C20", "title": "Bit error rate", "statement": "ber(tx, rx) is NaN exactly when one slice is empty, and otherwise lies in [0,1], is 0 exactly when the slices agree on their common prefix, is 1 exactly when they differ everywhere there, and is symmetric (IEEE binary64; lengths below 2^53). Bits beyond the common prefix never count.", "quantifier": "every pair of bit slices", "why_tests_cant": "all lengths; f64 rounding of the quotient", "anchors": ["src/lib.rs:ber"]}
{"id": "C21", "title": "Signal energy and power", "statement": "avg_energy is the mean square and energy the sum of squares over the sample rate; both are non-negative and scale with the square of the amplitude (exact arithmetic). power divides by the index of the last sample, that is by len-1 instead of len, and in f64 yields +infinity or NaN on one-sample signals.", "quantifier": "every signal", "why_tests_cant": "the shipped test hides the off-by-one behind a tolerance", "anchors": ["src/lib.rs:avg_energy", "src/lib.rs:energy", "src/lib.rs:power"]}
{"id": "C22", "title": "Additive noise", "statement": "awgn and awgn_complex yield exactly one output per input sample, each the sample plus one noise value drawn at the given sigma, for every noise sequence; the constructor panics for a sigma that is not finite.", "quantifier": "every signal, every noise sequence", "why_tests_cant": "randomised", "anchors": ["src/lib.rs:awgn", "src/lib.rs:awgn_complex", "src/lib.rs:awgn_py"]}
{"id": "C23", "title": "Logistic map stays in [0,1]", "statement": "For 0 <= mu <= 4 and x0 in [0,1] every value of LogisticMap lies in [0,1], in exact arithmetic and in IEEE binary64 with all roundings; construction panics for x0 outside [0,1] or NaN.", "quantifier": "every mu, x0, every iteration count", "why_tests_cant": "unbounded iteration with rounding", "anchors": ["src/chaos/logistic_map.rs"]}
{"id": "C24", "title": "DCSK round-trip", "statement": "rx_baseband_dcsk(tx_baseband_dcsk(m)) = m for every message of every length, in IEEE binary64 arithmetic: the chaotic reference never reaches a value whose square underflows.", "quantifier": "every message", "why_tests_cant": "the orbit is infinite; a test covers 9001 steps", "anchors": ["src/dcsk.rs", "src/chaos/logistic_map.rs"]}
{"id": "C25", "title": "CSK round-trip", "statement": "rx_baseband_csk(tx_baseband_csk(m)) = m for every message in exact arithmetic, because the two reference orbits never meet; in binary64 the round trip holds exactly as long as the two computed orbits differ at the positions of the true bits.", "quantifier": "every message", "why_tests_cant": "infinite orbits", "anchors": ["src/csk.rs"]}
{"id": "C26", "title": "Chebyshev generator diverges", "statement": "The Chebyshev iterator does not stay in [-1,1]: in exact arithmetic every non-zero start grows without bound, and in binary64 Chebyshev::new(0.5) yields +infinity from its 8th value on for ever; from any admissible start it never yields NaN.", "quantifier": "every start value, every iteration count", "why_tests_cant": "unbounded iteration", "anchors": ["src/chaos/chebyshev.rs"]}
{"id": "C27", "title": "Tent and Bernoulli maps are self-maps", "statement": "tent_map with 0 <= mu <= 1 and bernoulli_map with 0 <= mu <= 2 map [-1,1] into [-1,1] (exact arithmetic).", "quantifier": "every mu and x0", "why_tests_cant": "continuous inputs", "anchors": ["src/chaos/mod.rs"]}
{"id": "C28", "title": "Baseband BPSK decisions", "statement": "rx_baseband_bpsk(tx_baseband_bpsk(m)) = m for every message, and the same bits are decided after adding to each symbol any complex noise whose real part is finite and has magnitude below 1, in binary64.", "quantifier": "every message and noise sequence", "why_tests_cant": "all noise values", "anchors": ["src/bpsk.rs:tx_baseband_bpsk_signal", "src/bpsk.rs:rx_baseband_bpsk_signal"]}
{"id": "C29", "title": "Passband BPSK round-trip", "statement": "For every message and all rates passing the transmitter's checks, rx_bpsk(tx_bpsk(m)) = m in IEEE binary64, provided cos never returns NaN and in each symbol some carrier sample has a square that does not underflow; the signal has len(m)*samples_per_symbol samples. In exact arithmetic a symbol is lost exactly when all its carrier samples are zero and its bit is true.", "quantifier": "every message, rate pair, carrier, and every cosine implementation", "why_tests_cant": "all parameters; rounding", "anchors": ["src/bpsk.rs:tx_bpsk_signal", "src/bpsk.rs:rx_bpsk_signal"]}
{"id": "C30", "title": "Transmitter precondition checks", "statement": "tx_bpsk_signal returns normally exactly when symbol_rate <> 0, the truncated carrier is at most sample_rate/2, and symbol_rate divides sample_rate (rates < 2^53); otherwise it panics before producing a sample.", "quantifier": "every parameter combination", "why_tests_cant": "all parameters", "anchors": ["src/bpsk.rs:tx_bpsk_signal"]}
{"id": "C31", "title": "Baseband QPSK round-trip", "statement": "rx_baseband_qpsk(tx_baseband_qpsk(m)) = m for every message of even length; for odd length exactly the last bit is lost, in binary64.", "quantifier": "every message", "why_tests_cant": "all lengths", "anchors": ["src/qpsk.rs:tx_baseband_qpsk_signal", "src/qpsk.rs:rx_baseband_qpsk_signal"]}
{"id": "C32", "title": "Passband QPSK round-trip", "statement": "If each symbol spans a whole number of half carrier cycles and the carrier is not a multiple of half the sample rate, rx_qpsk(tx_qpsk(m)) = m up to a dropped odd bit, for every message (exact arithmetic). Without the sample-rate check that BPSK has, sample_rate < symbol_rate gives an endless signal.", "quantifier": "every message, rates, carrier", "why_tests_cant": "all parameters", "anchors": ["src/qpsk.rs:tx_qpsk_signal", "src/qpsk.rs:rx_qpsk_signal"]}
{"id": "C33", "title": "Baseband CDMA round-trip and chip error tolerance", "statement": "For every non-empty key, rx_baseband_cdma(tx_baseband_cdma(m, key), key) = m, and this survives flipping chips as long as in every key-length block fewer than half of the chips flip; with an empty key nothing is transmitted.", "quantifier": "every message, key, error pattern", "why_tests_cant": "2^(chips) error patterns", "anchors": ["src/cdma.rs:tx_baseband_cdma", "src/cdma.rs:rx_baseband_cdma"]}
{"id": "C34", "title": "CDMA/BPSK single-user round-trip", "statement": "Spreading and despreading with any key is the identity on finite samples in binary64, so for parameters passing the checks rx_cdma_bpsk(tx_cdma_bpsk(m)) = m under the BPSK condition.", "quantifier": "every message, key, rates, carrier, cosine implementation", "why_tests_cant": "all parameters; rounding", "anchors": ["src/cdma.rs:tx_cdma_bpsk_signal", "src/cdma.rs:rx_cdma_bpsk_signal"]}
{"id": "C35", "title": "CDMA/QPSK single-user round-trip", "statement": "Under the QPSK condition rx_cdma_qpsk(tx_cdma_qpsk(m)) = m up to a dropped odd bit (exact arithmetic).", "quantifier": "every message, key, rates, carrier", "why_tests_cant": "all parameters", "anchors": ["src/cdma.rs:tx_cdma_qpsk_signal", "src/cdma.rs:rx_cdma_qpsk_signal"]}
{"id": "C36", "title": "Multi-user CDMA separation", "statement": "When users transmit simultaneously with pairwise distinct rows of one Hadamard matrix as keys and the carrier energy is equal in every chip, the receiver of each user recovers exactly that user's message, for any number of users up to the matrix size (exact arithmetic).", "quantifier": "every set of users, messages, matrix size, rates", "why_tests_cant": "exponentially many user/message combinations", "anchors": ["src/cdma.rs", "src/hadamard.rs"]}
{"id": "C37", "title": "Hadamard matrix orthogonality", "statement": "For every power of two n, HadamardMatrix::new(n) is an n by n symmetric matrix whose first row is all true and any two distinct rows of which agree in exactly n/2 positions; new(n) panics for other n >= 1.", "quantifier": "every n", "why_tests_cant": "tests check a weak parity condition for six sizes", "anchors": ["src/hadamard.rs:HadamardMatrix::new"]}
{"id": "C38", "title": "Hadamard key selection", "statement": "key(i) never returns the all-true row, returns pairwise distinct (hence orthogonal) rows for distinct i < n-1, and panics exactly when i mod n = n-1; so a one-row matrix has no usable key.", "quantifier": "every n and index", "why_tests_cant": "all indices; panic branch", "anchors": ["src/hadamard.rs:HadamardMatrix::key"]}
{"id": "C39", "title": "Hop table epochs", "statement": "With num_freqs >= 2 a hop table yields, in every consecutive epoch of num_freqs hops, each frequency of the grid exactly once; two tables with the same parameters and seed yield identical hop sequences; with num_freqs = 1 the second hop panics, with 0 the first.", "quantifier": "every grid size, seed, RNG, number of hops", "why_tests_cant": "infinite sequence, every RNG output", "anchors": ["src/fh.rs:HopTable"]}
{"id": "C40", "title": "FH-BPSK round-trip", "statement": "For num_freqs >= 2 and parameters passing the checks, rx_fh_bpsk(tx_fh_bpsk(m)) = m for every message, every RNG and every cosine with cos(0)=1 and no NaN, in binary64 arithmetic: no carrier condition is needed since every hop restarts at phase 0.", "quantifier": "every message, hop sequence, parameters", "why_tests_cant": "all hop sequences", "anchors": ["src/fh.rs:tx_fh_bpsk_signal", "src/fh.rs:rx_fh_bpsk_signal"]}
{"id": "C41", "title": "Chirps", "statement": "linear_chirp yields floor(sample_rate/chirp_rate) samples in [-1,1] starting at 1; linear_downchirp_centered yields exactly the same samples as linear_upchirp_centered, i.e. it does not chirp down; tx_fh_css yields one chirp per bit.", "quantifier": "every parameter", "why_tests_cant": "all parameters", "anchors": ["src/fh_css.rs"]}
{"id": "C42", "title": "OFDM carrier allocation", "statement": "For 1 <= pilots <= subcarriers the data carriers are strictly increasing indices below subcarriers, exactly subcarriers - pilots of them, and never the DC carrier subcarriers/2.", "quantifier": "every subcarrier and pilot count", "why_tests_cant": "all counts", "anchors": ["src/ofdm.rs:get_data_subcarriers"]}
{"id": "C43", "title": "Baseband OFDM round-trip", "statement": "For every even number of subcarriers and 1 <= pilots < subcarriers, rx_baseband_ofdm(tx_baseband_ofdm(s)) is s followed by zeros up to a whole OFDM symbol, for every symbol stream (exact arithmetic, FFT as the exact DFT); for odd subcarrier counts the round trip fails.", "quantifier": "every symbol stream and carrier configuration", "why_tests_cant": "all sizes; the test runs 64/12 only", "anchors": ["src/ofdm.rs:tx_baseband_ofdm_signal", "src/ofdm.rs:rx_baseband_ofdm_signal"]}
{"id": "C44", "title": "OFDM framing", "statement": "Every transmitted OFDM block has subcarriers + subcarriers/4 samples and starts with a copy of its own last subcarriers/4 samples; there is one block per subcarriers - pilots symbols, rounded up.", "quantifier": "every stream, every FFT", "why_tests_cant": "all sizes", "anchors": ["src/ofdm.rs:tx_baseband_ofdm_signal"]}
{"id": "C45", "title": "Passband OFDM symbol timing", "statement": "The OFDM receiver's matched filter output k is the sum of the mixed samples (k*sps+1 .. (k+1)*sps), one sample late with respect to the symbol; for sps >= 2 it produces as many baseband samples as were transmitted, for sps = 1 one fewer (so the last OFDM block is incomplete and the receiver panics).", "quantifier": "every signal and samples-per-symbol", "why_tests_cant": "off-by-one at all sizes", "anchors": ["src/ofdm.rs:rx_ofdm_qpsk_signal"]}
{"id": "C46", "title": "Coded stream round-trip", "statement": "If the Reed-Solomon codec corrects its guaranteed number of byte errors, bch_stream_decode(bch_stream_encode(m)) is m padded with false to a whole number of bytes, for every message, and this survives up to two corrupted bytes in every 12-byte frame.", "quantifier": "every message and error pattern", "why_tests_cant": "all error patterns", "anchors": ["src/bch.rs"]}
{"id": "C47", "title": "Coded CDMA round-trip", "statement": "rx_coded_cdma_bpsk(tx_coded_cdma_bpsk(m)) is m padded to whole bytes under the CDMA/BPSK condition.", "quantifier": "every message, key, parameters", "why_tests_cant": "all parameters", "anchors": ["src/cdma.rs:tx_coded_cdma_bpsk_signal", "src/cdma.rs:rx_coded_cdma_bpsk_signal"]}
{"id": "C48", "title": "FH-OFDM-DCSK round-trip", "statement": "In exact arithmetic the first len(m) bits of rx_baseband_fh_ofdm_dcsk(tx_baseband_fh_ofdm_dcsk(m)) are m, for every message and every shuffling RNG, and the signal has 10*(floor(len/7)+1) samples; in binary64 the chaotic reference overflows to infinity within the first block, so the real transmitter emits non-finite carrier values from the second block on.", "quantifier": "every message, every RNG", "why_tests_cant": "the repository's own test is ignored because it fails", "anchors": ["src/fh_ofdm_dcsk.rs"]}
{"id": "C49", "title": "BFSK transmitters", "statement": "tx_bfsk_signal has len(m)*samples_per_symbol samples, every sample is cos of the symbol's own frequency at that sample's time; tx_mfsk_signal ignores its frequency count and equals tx_bfsk_signal; the receiver rx_bfsk_signal returns one true bit whatever was sent.", "quantifier": "every message and parameter", "why_tests_cant": "all inputs", "anchors": ["src/fsk.rs"]}
{"id": "C50", "title": "Non-coherent FSK round-trip", "statement": "If both tones complete whole half-cycles per symbol in sum and difference frequency (orthogonal tones), rx_fsk(tx_fsk(m)) = m for every message (exact arithmetic).", "quantifier": "every message and parameters", "why_tests_cant": "all parameters", "anchors": ["src/fm.rs:tx_fsk", "src/fm.rs:rx_fsk"]}
{"id": "C51", "title": "FFT band-pass is a projection", "statement": "bandpass is defined only on streams whose length is a multiple of fft_len (it panics otherwise), preserves the length, is linear, and is idempotent (exact arithmetic, FFT as the exact DFT).", "quantifier": "every stream, band, size", "why_tests_cant": "all signals", "anchors": ["src/bpf.rs:bandpass"]}
{"id": "C52", "title": "SSCA memory bounds", "statement": "ssca_base panics exactly when n <= np or the signal has fewer than n+np-1 samples; ssca_mapped never indexes outside its (np+1) by (2n+1) output, for every n > np >= 1 (exact index arithmetic).", "quantifier": "every size and signal", "why_tests_cant": "all sizes", "anchors": ["src/ssca.rs"]}
{"id": "C53", "title": "Costas loop never starts", "statement": "CostasLoop::new() outputs zero for every sequence of finite samples: phase and frequency stay zero for ever, in binary64.", "quantifier": "every sample sequence", "why_tests_cant": "unbounded history", "anchors": ["src/costas.rs"]}
{"id": "C54", "title": "Root-raised-cosine singularity", "statement": "rrcosfilter does not special-case the removable singularity t = ts/(4 beta): at such a tap the binary64 result is never finite, whatever sin and cos return.", "quantifier": "every sin/cos implementation, every even tap count >= 4", "why_tests_cant": "all implementations", "anchors": ["src/filters.rs:rrcosfilter"]}
{"id": "C55", "title": "Detectors", "statement": "energy_detector (in dB) is monotone in the signal energy and shifts by 20 log10 |a| when the signal is scaled by a (exact arithmetic); the willie energy detector decides rms > n0.", "quantifier": "every signal", "why_tests_cant": "continuous inputs", "anchors": ["src/lib.rs:energy_detector", "src/willie.rs:energy_detector"]}
{"id": "C56", "title": "Old FH-BPSK transmitter's clock", "statement": "tx_fh_bpsk_signal_old yields sample_rate/symbol_rate samples per bit, and sample j of symbol k is +-cos(2 pi fc t) cos(2 pi hop_k t) at time t = (k + j)/sample_rate: the clock advances by one sample, not one symbol, between symbols.", "quantifier": "every message, RNG, hop range, rates, carrier", "why_tests_cant": "no test looks at this function's timing; all parameters", "anchors": ["src/fh.rs:tx_fh_bpsk_signal_old"]}
{"id": "C57", "title": "The cyclic prefix absorbs multipath", "statement": "If the transmitted OFDM signal (even N, 1 <= P < N) goes through any FIR channel of at most N/4 + 1 taps, every symbol is received as itself times the channel's frequency response at its own carrier: no interference between carriers or blocks (exact arithmetic, FFT as the exact DFT).", "quantifier": "every symbol stream, channel and carrier configuration", "why_tests_cant": "all channels; no test uses a channel", "anchors": ["src/ofdm.rs:tx_baseband_ofdm_signal", "src/ofdm.rs:rx_baseband_ofdm_signal"]}
{"id": "C58", "title": "The codec contract is satisfiable", "statement": "The contract C46 and C47 assume of the reed-solomon crate is met by a concrete systematic Reed-Solomon code over GF(2^8) for every number of parity bytes, and that code has minimum distance ecc + 1.", "quantifier": "every parity count, data word and error pattern", "why_tests_cant": "all words and error patterns of every length up to 255", "anchors": ["src/bch.rs"]}
{"id": "C59", "title": "FSK with the repository's own test parameters loses bits", "statement": "With the parameters of the fsk test in fm.rs (44100 samples/s, 900 symbols/s, 1800 Hz carrier), the first bit of every message that starts with 0 is received as 1 (exact arithmetic): the two tones are not orthogonal over a symbol and the test cannot pass.", "quantifier": "every message starting with 0", "why_tests_cant": "the test only reports that some random message fails; this says which bits fail for every message, and why", "anchors": ["src/fm.rs:tx_fsk", "src/fm.rs:rx_fsk"]}
{"id": "C60", "title": "FM transmitter", "statement": "tx_fm has len*samples_per_symbol samples and sample i is the cosine of the carrier phase at i/sample_rate plus 0.05 times the running sum of the repeated input up to and including sample i.", "quantifier": "every input stream and parameters, any arithmetic", "why_tests_cant": "all inputs; the repository has no test of tx_fm", "anchors": ["src/fm.rs:tx_fm"]}
{"id": "C61", "title": "Root-raised-cosine symmetry", "statement": "In exact arithmetic rrcosfilter is symmetric about its middle tap (tap i equals tap taps-i) except at t = ts/(2 beta), which is special-cased on the positive side only (the second test compares ts instead of t): there the two sides differ.", "quantifier": "every tap count, roll-off, symbol length and sample rate", "why_tests_cant": "all parameters; the repository's test uses one roll-off that misses the instant", "anchors": ["src/filters.rs:rrcosfilter"]}
{"id": "C62", "title": "FH-OFDM-DCSK passband waveforms", "statement": "tx_fh_ofdm_dcsk_signal_2 sends, at sample i, Re(s[i/sps] e^(-2 pi i fc t)) for the baseband samples s (in exact arithmetic re*cos + im*sin); tx_fh_ofdm_dcsk_signal does the same with the hop frequency number i/sps, one hop per baseband sample. In binary64 no sample of the fixed-carrier transmitter is finite.", "quantifier": "every message, rates, carrier, hop range, RNG, FFT; binary64 part for every libm", "why_tests_cant": "no test calls either transmitter", "anchors": ["src/fh_ofdm_dcsk.rs:tx_fh_ofdm_dcsk_signal", "src/fh_ofdm_dcsk.rs:tx_fh_ofdm_dcsk_signal_2"]}
{"id": "C63", "title": "SSCA formula", "statement": "In exact arithmetic ssca_base returns, at (q, j), the sum over p < n and r < np of g_p a_r s[p+np/2] s[p+r] e^(-2 pi i ((j-np/2)p/np + (j-floor(np/2))r/np + (q-floor(n/2))p/n)), g and a the Hamming windows of n and np points; for even sizes the phase is (j/np-1/2)(p+r) + (q/n-1/2)p. Scaling the signal by c scales the result by c^2.", "quantifier": "every signal, every n > np >= 1", "why_tests_cant": "no test compares the analyser with its definition; all sizes", "anchors": ["src/ssca.rs:ssca_base"]}
{"id": "C64", "title": "SSCA mapping keeps or loses entries", "statement": "ssca_mapped puts entry (q', k') of ssca_base in cell (floor((np n + k' n - q' np)/(2n)), floor((n k' + q' np)/np)). In exact arithmetic no two entries share a cell when np divides n, so every entry is kept and the other cells are zero. In binary64 the same holds when n and np are powers of two. It is false in binary64 for n = 6, np = 3, where rounding makes one entry overwrite another, and in exact arithmetic for n = 6, np = 4.", "quantifier": "every signal, every FFT, every libm, all sizes of the stated kind", "why_tests_cant": "overwritten entries are silent; depends on rounding for each size", "anchors": ["src/ssca.rs:ssca_mapped"]}
{"id": "C65", "title": "Cyclostationary detectors", "statement": "In exact arithmetic max_cut_detector is 10 log10 of the largest squared magnitude of the spectral correlation, dcs_detector 10 log10 of the largest ratio of a column's energy to its first entry's (never negative); gain c adds 40 log10|c| to the first and nothing to the second. Both panic on fewer than 4159 samples. In binary64 max_by(partial_cmp.unwrap) over two or more items panics exactly when one is NaN, so dcs_detector panics on a silent signal (0/0), while max_cut_detector takes the logarithm of zero.", "quantifier": "every signal, gain, libm, FFT", "why_tests_cant": "no Rust test calls the detectors; silence is the untested case", "anchors": ["src/lib.rs:dcs_detector", "src/lib.rs:max_cut_detector", "src/lib.rs:dcs_detector_sxf", "src/lib.rs:max_cut_detector_sxf"]}
{"id": "C66", "title": "Python calls return, raise or hang", "statement": "Each tx_*/rx_* function offered to Python ends in one of three ways, decided by its arguments: it raises exactly when a check fails (e.g. tx_bpsk: symbol rate zero or not dividing the sample rate, or carrier not below half the sample rate); when the checks pass but there are zero samples per symbol and at least one symbol it never returns (tx with a sample rate of 0, tx_qpsk and the PSK receivers with a sample rate below the symbol rate); otherwise it returns a list of exactly (symbols x samples per symbol) values. chirp always returns trunc(fs/chirp_rate) samples.", "quantifier": "all messages, signals, rates, carriers (any f64), every libm, FFT and generator", "why_tests_cant": "a hang cannot be observed by a test; all rates", "anchors": ["src/lib.rs:tx_bpsk", "src/lib.rs:rx_bpsk", "src/lib.rs:tx_qpsk", "src/lib.rs:rx_qpsk", "src/lib.rs:tx_ofdm", "src/lib.rs:rx_ofdm", "src/lib.rs:tx_cdma_bpsk", "src/lib.rs:tx_bfsk", "src/lib.rs:tx_fh_css", "src/lib.rs:tx_csk", "src/lib.rs:tx_dcsk", "src/lib.rs:tx_fh_ofdm_dcsk", "src/lib.rs:chirp"]}
{"id": "C67", "title": "Python round trips", "statement": "Feeding the list returned by tx_bpsk to rx_bpsk with the same arguments returns the message (exactly: from two samples per symbol on, no carrier condition; binary64: whenever the carrier samples are not NaN and each symbol has one non-vanishing square). tx_qpsk/rx_qpsk return the message without its odd last bit; tx_ofdm/rx_ofdm return it followed by fewer than 2(N-P) padding bits.", "quantifier": "all messages and rates meeting the stated conditions", "why_tests_cant": "the Python functions have no round-trip test; all lengths and rates", "anchors": ["src/lib.rs:tx_bpsk", "src/lib.rs:rx_bpsk", "src/lib.rs:tx_qpsk", "src/lib.rs:rx_qpsk", "src/lib.rs:tx_ofdm", "src/lib.rs:rx_ofdm"]}
{"id": "C68", "title": "Python CDMA signal", "statement": "The signal of the Python tx_cdma_bpsk is the BPSK carrier with the sign alternating from chip to chip (16 chips per bit), whatever the message. In exact arithmetic, when every chip holds a whole number of carrier half-cycles, the plain rx_bpsk reads false for every bit, so Python has no receiver for it.", "quantifier": "all messages, rates, carriers for which the call returns", "why_tests_cant": "no test decodes the Python CDMA signal; all messages", "anchors": ["src/lib.rs:tx_cdma_bpsk", "src/lib.rs:rx_bpsk", "src/hadamard.rs:HadamardMatrix"]}
{"id": "C69", "title": "kom_py BPSK", "statement": "psk.py's tx_bpsk and rx_bpsk raise exactly when the symbol rate is zero or does not divide the sample rate, the carrier exceeds half the sample rate, or (rx) the signal is empty or a symbol has no samples. The receiver decides bit k by the correlation over samples kn+1..(k+1)n, one sample later than symbol k. So all messages of a given length come back if and only if every symbol's carrier energy without its first sample exceeds the square of the next symbol's first carrier sample: true from five samples per symbol on with whole half-cycles per symbol, false at four (a true bit before a false one is lost), and with one sample per symbol the first bit disappears. When both return, the transmitter's samples are those of the Rust tx_bpsk.", "quantifier": "all messages, signals, rates, carriers (exact arithmetic; the comparison with Rust in any arithmetic)", "why_tests_cant": "psk_test.py runs 49 samples per symbol only; all rates, exact boundary", "anchors": ["kom_py/psk.py:tx_bpsk", "kom_py/psk.py:rx_bpsk", "src/lib.rs:tx_bpsk"]}
{"id": "C70", "title": "kom_py QPSK", "statement": "The baseband functions return the data, padded with false to an even length. tx_qpsk transmits at half the stated carrier (the factor 2 is missing) while rx_qpsk correlates at the stated one, so the passband round trip is false: with an even number of carrier cycles per symbol (as at the rates of psk_test.py) the bits read do not depend on the second bit of any pair, and the first bit of the last pair is always inverted, so no non-empty message comes back.", "quantifier": "all messages and rates meeting the stated condition (exact arithmetic)", "why_tests_cant": "the repository has no passband QPSK test for Python; all messages", "anchors": ["kom_py/psk.py:tx_qpsk", "kom_py/psk.py:rx_qpsk", "kom_py/psk.py:tx_baseband_qpsk", "kom_py/psk.py:rx_baseband_qpsk", "kom_py/util.py:chunk"]}
{"id": "C71", "title": "kom_py CDMA", "statement": "cdma.py's transmitter gives the BPSK samples times the key chip, raising exactly when a rate check fails; the receiver is the plain BPSK receiver and never uses the key. With whole carrier half-cycles per chip it reads true exactly where a false bit is followed by a true one, or is last: every message comes back with its last bit inverted.", "quantifier": "all messages, signals and rates meeting the stated condition (exact arithmetic)", "why_tests_cant": "no test decodes it; all messages", "anchors": ["kom_py/cdma.py:tx_bpsk_cdma", "kom_py/cdma.py:rx_bpsk_cdma"]}
{"id": "C72", "title": "kom_py chirps", "statement": "chirpz raises exactly when chirp_rate is 0 or sample_rate/chirp_rate is -1 or less; otherwise it returns floor(sample_rate/chirp_rate) samples in [-1,1], sample i of n >= 2 being the sine of the phase of a linear sweep at time i/((n-1) chirp_rate). The samples thus span the whole period: they are not at i/sample_rate, and a steady tone f comes out at f n/(n-1). The parameter `periods` is ignored. chirpCtr passes its sample rate as the chirp rate: it returns an empty array for every sample rate above the repetition rate, and ignores its phase.", "quantifier": "all rates, frequencies and phases (exact arithmetic; the ignored parameters in any arithmetic)", "why_tests_cant": "no test calls either function; all reals", "anchors": ["kom_py/chirp.py:chirpz", "kom_py/chirp.py:chirpCtr"]}
{"id": "C73", "title": "kom_py analyser and detectors", "statement": "ssca raises exactly when a size is 0 or the signal has fewer than N+Np samples, whatever Np is, and reads only the first N+Np. Its entry (q,j) is the doubly windowed correlation at frequency (j-floor(Np/2))/Np and cycle frequency (q-floor(N/2))/N, less 1/Np for odd Np, with symmetric Hamming windows; so it differs from the Rust spectrum. The mapped output is inside its array in binary64 up to size 2^52, and loses no entry when Np divides N (exact) or both are powers of two (binary64). dcs is in dB the energy of each column over that of its first entry, and its maximum is Rust's dcs_detector_sxf. max_cut compares complex numbers by real part: it is at most the documented 10 log10 max |S|^2 of the row, equal on rows of non-negative reals, and different in general, even between a spectrum and its negative.", "quantifier": "all signals, sizes and arrays (formula and detectors in exact arithmetic with an exact FFT; definedness for any FFT)", "why_tests_cant": "the scripts plot one size of one random signal; all inputs", "anchors": ["kom_py/ssca.py:ssca", "kom_py/ssca.py:max_cut", "kom_py/ssca.py:dcs"]}
{"id": "C74", "title": "kom_py power-of-two helpers", "statement": "next_power_of_2(x) is the least power of two that is at least x, for every x >= 0. floor_power_of_2(x), x >= 2, is the greatest power of two up to x if and only if its test `log(x, 2).is_integer()` tells powers of two from other numbers at x; where the test misses a power of two the answer is half of it.", "quantifier": "all natural numbers and all tests", "why_tests_cant": "unbounded integers; depends on a rounded logarithm", "anchors": ["kom_py/util.py:next_power_of_2", "kom_py/util.py:floor_power_of_2"]}
{"id": "C75", "title": "kom_py chaos transmitter", "statement": "tx_fh_dcsk raises when there are fewer than b bits. Otherwise the b by b result has in column c, for each of the first b bits, that bit's sign times the c-th iterate of x -> 1-2x^2 from 0.001+i/10, at a place that depends on the generator only; so the same generator never sends two different messages alike. All samples are in [-1,1] for b <= 10; from b = 11 on each column c has a sample of magnitude at least 1 + 4^c/1000.", "quantifier": "all messages, sizes and generators (exact arithmetic)", "why_tests_cant": "the script runs b = 8 with one seed; all sizes and shuffles", "anchors": ["kom_py/fh_ofdm_dcsk.py:tx_fh_dcsk", "kom_py/fh_ofdm_dcsk.py:_chebyshev"]}
{"id": "C76", "title": "kom_py statistics", "statement": "ber equals Rust's ber when neither list is empty and raises otherwise; for equal lengths it is in [0,1] and 0 exactly for equal lists. avg_energy equals Rust's on non-empty signals and raises on empty ones. avg_energy_iq is half the mean of |s|^2.", "quantifier": "all lists (ber in any arithmetic, the rest exact)", "why_tests_cant": "all lists", "anchors": ["kom_py/ber.py:ber", "kom_py/willie.py:avg_energy", "kom_py/willie.py:avg_energy_iq", "src/lib.rs:ber"]}
{"id": "C77", "title": "kom_py time formatter", "statement": "For a whole number of seconds, the parts Y, d, h, m, s printed by secs_to_str add up to it if and only if the number of whole years (of 365.25 days) is a multiple of four: below a year it is right, and exactly one year reads 1Y:0d:6h:0m:0s. All parts are left out exactly for 0.", "quantifier": "all non-negative integers", "why_tests_cant": "unbounded; the fault shows from one year on", "anchors": ["kom_py/util.py:secs_to_str"]}
{"id": "C78", "title": "Noise on passband BPSK and QPSK", "statement": "A bit of a passband BPSK signal with noise added is decided right exactly when the correlation of the noise with the carrier over that bit does not push against it by more than the bit's energy (strictly less for a one). So noise with less energy in each bit than the bit itself never causes an error, and noise of exactly that energy can. For QPSK the exact condition is given for each bit of a pair, leakage included; with whole half-cycles per symbol, noise with energy below half the number of samples in each symbol is harmless.", "quantifier": "all messages, rates, carriers and noise sequences (exact arithmetic)", "why_tests_cant": "the tests draw random noise of a few variances and look at the error rate", "anchors": ["src/bpsk.rs:rx_bpsk_signal", "src/qpsk.rs:rx_qpsk_signal", "src/bpsk.rs:tx_bpsk_signal", "src/qpsk.rs:tx_qpsk_signal"]}
{"id": "C79", "title": "Passband BPSK and QPSK in binary64", "statement": "In binary64, with any sine and cosine, the QPSK receiver decides by the sign of the exact correlation whenever that exceeds the rounding slack n(n+4) 2A 2^-53 (n samples per symbol, samples up to A). A link with whole half-cycles per symbol (carrier not a multiple of half the sample rate) returns the message for every sine and cosine right to 1/64, up to 2^46 samples per symbol and phases up to 2^44, also with noise up to 1/8 on every sample; the same for BPSK.", "quantifier": "all messages, rates and carriers, all libm within the stated accuracy, all bounded noise (binary64)", "why_tests_cant": "unbounded messages and all roundings; tests run one libm at one rate", "anchors": ["src/qpsk.rs:tx_qpsk_signal", "src/qpsk.rs:rx_qpsk_signal", "src/bpsk.rs:tx_bpsk_signal", "src/bpsk.rs:rx_bpsk_signal"]}
{"id": "C80", "title": "Noise and jamming on the CDMA links", "statement": "A bit of a CDMA/BPSK signal with noise added is decided right exactly when the noise's correlation with carrier times chips does not push against it by more than the bit's energy; noise with less energy per bit than the bit is harmless, as for plain BPSK (the same for CDMA/QPSK). Against a jammer on the carrier frequency, of any amplitude and phase, new in every symbol, with whole half-cycles per chip, a bit is right exactly when amplitude times key imbalance stays within the key length; so the keys of HadamardMatrix::key make it harmless at any strength. In binary64 the same links with whole half-cycles per symbol return the message for every sine and cosine right to 1/64, with noise up to 1/8 on every sample.", "quantifier": "all messages, keys, rates, carriers, noise and jammer amplitudes (exact arithmetic); all libm within the stated accuracy (binary64)", "why_tests_cant": "the tests send random bits through one noise level and never jam", "anchors": ["src/cdma.rs:tx_cdma_bpsk_signal", "src/cdma.rs:rx_cdma_bpsk_signal", "src/cdma.rs:tx_cdma_qpsk_signal", "src/cdma.rs:rx_cdma_qpsk_signal", "src/hadamard.rs:key"]}
{"id": "C81", "title": "The Neyman-Pearson test cannot detect", "statement": "kom_py's neyman_pearson says yes exactly when the likelihood of the noise divided by the likelihood of the normal law fitted to the samples exceeds the quantile. That ratio never exceeds 1. So with a quantile of 1 or more (the default alpha 0.05 has 1.645) the test never detects anything, however loud; with a quantile of 0 or less it detects every signal that is not constant. In binary64, at least 1075 finite samples and noise of deviation 1 or more make the product of densities underflow and the answer no for every threshold >= 0.", "quantifier": "all sample lists, noise deviations > 0, levels and quantile functions (exact arithmetic); all finite binary64 samples and every exp with values in [0,1] (binary64)", "why_tests_cant": "the script prints two random runs; no test asserts the answer", "anchors": ["kom_py/willie.py:neyman_pearson"]}
{"id": "C82", "title": "The two normality detectors contradict each other", "statement": "For the same p-value of scipy's normaltest and the same level 0.05, kom_py's p_value and src/willie.rs's normal_detector give opposite answers unless the p-value is exactly the level (both say no); a nan p-value makes both say no; an exception of scipy is one of both.", "quantifier": "all signals and all outcomes of scipy's test (exact arithmetic and binary64)", "why_tests_cant": "the two are never run side by side", "anchors": ["kom_py/willie.py:p_value", "src/willie.rs:normal_detector"]}
{"id": "C83", "title": "The ROC table of lambdas.py", "statement": "__log_regress returns a table exactly when the test samples have pairwise different scores (up to one tie when there are as many H0 samples as test samples) and raises otherwise. Without ties every row's rates are those of the detector thresholded at its score; __best_threshold maximises Youden's J over all thresholds and __youden_j is the largest |J| of any threshold. With one tie the rates are shifted by a row against the scores, and the reported threshold can be strictly worse than another.", "quantifier": "all H0 and H1 samples, splits, sorts and monotone fitted probabilities (exact arithmetic)", "why_tests_cant": "the script is only run on random data where ties have probability about zero and the plots are judged by eye", "anchors": ["kom_py/lambdas.py:__log_regress", "kom_py/lambdas.py:__youden_j", "kom_py/lambdas.py:__best_threshold", "kom_py/roc.py"]}
{"id": "C84", "title": "The bit error harness of tests/ber.rs", "statement": "In binary64, for every signal without nans (infinite samples and overflowing energies included) and finite snr > 0 the macros never panic, and report the number of wrong bits among those received over the number sent, between 0 and 1; bits that never arrive count as right, so a receiver that yields nothing has rate 0. One nan sample panics. In the baseband macro the noise reaches the real part only: the second bit of a QPSK pair is never wrong and no noise brings the rate above 1/2. Passband BPSK with noise of at most 1/8 has rate 0.", "quantifier": "all messages, signals, receivers, snrs and noise sequences", "why_tests_cant": "the tests plot the rates and compare nothing; noise is random", "anchors": ["tests/ber.rs:calculate_bers", "tests/ber.rs:calculate_bers_baseband", "tests/util/mod.rs:not_inf", "src/qpsk.rs:rx_baseband_qpsk_signal", "src/bpsk.rs:rx_bpsk_signal"]}
{"id": "C85", "title": "The radiometer's probability of detection is the one of missing", "statement": "What tests/billiam.rs calls p_d counts the energies that do not exceed the threshold: p_d + p_md = 1, p_d falls as energies rise, is 1 when none exceeds the threshold and 0 when all do. get_pds compares the received energy with the snr itself and divides by a constant, not by its number of attempts, so its values reach attempts_var / attempts (10 for the OFDM call). In binary64 silence is always detected, under any noise.", "quantifier": "all signals, noise sequences, snrs and attempt counts (exact arithmetic; binary64 for silence)", "why_tests_cant": "the tests are ignored by default and only plot", "anchors": ["tests/billiam.rs:radiometer_pd_new", "tests/billiam.rs:radiometer_pd", "tests/billiam.rs:radiometer_pmd_cdma_qpsk"]}
{"id": "C86", "title": "The example curves of pd_ber_snr_example.py", "statement": "logistic_curve stays strictly between 0 and L, is strictly increasing, L/2 at its midpoint, symmetric about it, and takes each value p in between at exactly x0 + ln(p/(L-p))/k. find_idx_closest_to_point never answers: it raises on an empty list and loops for ever on any other.", "quantifier": "all real parameters with L, k > 0; all points and lists over any number type", "why_tests_cant": "nothing tests the script", "anchors": ["kom_py/pd_ber_snr_example.py:logistic_curve", "kom_py/pd_ber_snr_example.py:find_idx_closest_to_point"]}
{"id": "C87", "title": "Amplifiers, attenuators and inverted wires", "statement": "Multiplying every sample by a gain g > 0 changes no bit that the BPSK, QPSK, CDMA-BPSK, CDMA-QPSK, FH-BPSK, OFDM-QPSK and both baseband PSK receivers return, call by call, whatever the signal; DCSK and FSK also survive every negative gain, and FH-OFDM-DCSK every complex gain other than 0. The baseband OFDM receiver multiplies its symbols by the same complex gain. A negative gain makes BPSK (any symbol with a nonzero carrier sample) and QPSK (whole half-cycles per symbol) return the complement of the message. CSK is not invariant: a gain of 2 turns a sent true into false.", "quantifier": "all signals of any length or behaviour (endless and panicking ones included), all gains, rates, keys, hop generators and carrier frequencies (exact arithmetic)", "why_tests_cant": "tests use unit gain only", "anchors": ["src/bpsk.rs:rx_bpsk_signal", "src/qpsk.rs:rx_qpsk_signal", "src/cdma.rs:rx_cdma_bpsk_signal", "src/cdma.rs:rx_cdma_qpsk_signal", "src/fh.rs:rx_fh_bpsk_signal", "src/fm.rs:rx_fsk", "src/dcsk.rs:rx_baseband_dcsk", "src/csk.rs:rx_baseband_csk", "src/ofdm.rs:rx_baseband_ofdm_signal", "src/ofdm.rs:rx_ofdm_qpsk_signal", "src/fh_ofdm_dcsk.rs:rx_baseband_fh_ofdm_dcsk_signal"]}
{"id": "C88", "title": "Energy per bit of the transmitted signals", "statement": "The energy per bit computed by tests/eb.rs (check_eb) is samples-per-symbol / 2 for BPSK, QPSK with an even number of bits, their CDMA versions and BFSK whenever a symbol holds a whole number of half cycles of the carrier, whatever the message and the key; at any other carrier it differs from that by at most 1/(2|sin(2 pi fc/fs)|), a bound that does not grow with the message or the symbol length. A last odd bit of a QPSK message adds nothing. The other measure of eb.rs (average energy over the number of bits) is 1/(2 bits). One OFDM block after its cyclic prefix carries exactly the energy of its symbols divided by the number of subcarriers.", "quantifier": "all messages, all rates, carriers and keys the transmitters accept, all OFDM symbol streams, every N and 1 <= P < N (exact arithmetic)", "why_tests_cant": "eb.rs is an ignored test, prints the figures for one random message and asserts nothing", "anchors": ["tests/eb.rs:check_eb", "tests/eb.rs:bpsk_eb", "src/lib.rs:avg_energy", "src/bpsk.rs:tx_bpsk_signal", "src/qpsk.rs:tx_qpsk_signal", "src/cdma.rs:tx_cdma_bpsk_signal", "src/cdma.rs:tx_cdma_qpsk_signal", "src/fsk.rs:tx_bfsk_signal", "src/ofdm.rs:tx_baseband_ofdm_signal"]}
{"id": "C89", "title": "Receivers that start late", "statement": "A receiver that misses the first d samples. BPSK, with a whole number of half cycles per symbol: it returns the bits from the interrupted one on, all inverted when cos(phi) < 0, where phi is the carrier phase of d samples, provided 4 (d mod sps) < sps |cos phi|; the incomplete last symbol is dropped. Whole symbols late, only the missed bits are lost and the parity of half_cycles * k decides about inversion. QPSK: the four quarter turns give (b1,b2), (not b1,not b2), (not b2,b1), (b2,not b1) with margin 6 (d mod sps)/sps. CDMA with BPSK or QPSK whole symbols late behaves the same; q symbols and r chips late each decision is the sign of the two neighbouring bits weighted by the two halves of the key's cyclic autocorrelation at r. DCSK is immune to any lateness, even an odd one, because every reference is positive: it returns all bits from bit d/2 on except an incomplete last pair.", "quantifier": "all messages, rates, carriers meeting the design condition, all keys the links accept, all d, k, q, r; DCSK also in binary64 with any math library", "why_tests_cant": "every test hands the receiver the very iterator the transmitter returned, so no sample is ever missed", "anchors": ["src/bpsk.rs:rx_bpsk_signal", "src/qpsk.rs:rx_qpsk_signal", "src/cdma.rs:rx_cdma_bpsk_signal", "src/cdma.rs:rx_cdma_qpsk_signal", "src/dcsk.rs:rx_baseband_dcsk"]}
{"id": "C90", "title": "Many CDMA users at once: when Walsh codes interfere", "statement": "With any keys of one length, bit k of user u survives every choice of messages if and only if the sum of the absolute cross-talk of the other users is below the energy of the symbol. For rows u and v of a Hadamard matrix the cross-talk is a product with one factor per bit of the row number (sin where the bits of u and v differ, cos where they agree) and a phase. Hence the unit test bpsk_cdma_multi_user passes for every choice of messages with 4 and 8 chips, and there are messages on which its assertion fails with 16, 32 and 64 chips, so the claim of the test is false there. In the figure mai_plot (63 users, 64 chips, 128 samples per symbol) points 1 to 30 are exactly 0 for every choice of messages, the last point is positive for some, and in binary64 point 0 is the average of nothing and not a number.", "quantifier": "all messages and message lengths; any keys, rates, carriers and numbers of users for the criterion; all matrix sizes and carriers for the closed form; the figure's first point in binary64 with any math library", "why_tests_cant": "the test draws one random set of messages per run, and the worst set is one in 2^(users-1); the figure has no assertion", "anchors": ["src/cdma.rs:tests::bpsk_cdma_multi_user", "tests/cdma.rs:mai_plot", "src/cdma.rs:tx_cdma_bpsk_signal", "src/cdma.rs:rx_cdma_bpsk_signal", "src/hadamard.rs:key"]}
{"id": "C91", "title": "Which signals the OFDM receiver accepts", "statement": "The compiled rx_ofdm returns exactly for 1 <= pilots <= subcarriers, a symbol rate that divides the sample rate, and a signal whose symbols (counted by a formula in the number of samples, with the first one dropped) fill whole blocks; otherwise it raises. The number of bits is given. A signal made by tx_ofdm is accepted with two or more samples per symbol and refused with one; cut at its end it still decodes to the same number of bits up to samples-per-symbol minus 2 lost samples, and raises from then until a block is gone. The baseband receiver yields the bits of whole blocks and panics on a part of a block.", "quantifier": "all signals, block sizes, rates, carriers and FFTs, in binary64 with any math library; the baseband part over any arithmetic", "why_tests_cant": "the unit tests decode whole signals with one configuration; the off-by-one of the dropped first symbol only matters at particular lengths", "anchors": ["src/ofdm.rs:rx_ofdm_qpsk_signal", "src/ofdm.rs:rx_baseband_ofdm_signal", "src/lib.rs:rx_ofdm", "src/lib.rs:tx_ofdm"]}
{"id": "C92", "title": "The error-rate curves of the Python scripts", "statement": "In ber.py the noise level is always finite thanks to nan_to_num, so with a receiver that returns bits every curve has one point per signal-to-noise ratio, the fraction of wrong bits. The script's OFDM receiver decodes the message instead of the signal: its curve is one constant. The script ends if and only if (bits + 254) / 256 is a positive multiple of 20, otherwise it raises; with its own 9001 bits it always raises. Over the reals the curve does not change if the signal is amplified, so the halved signal of ber_theory.py gives the same curve; the noise level equals that of the Rust harness if and only if the sample rate is the square of the symbol rate.", "quantifier": "all messages, noises, signal-to-noise ratios and transforms; the exact arithmetic part for all gains, rates, signals and receivers that ignore gain", "why_tests_cant": "the scripts are not run by any test, and a run takes random data and random noise", "anchors": ["kom_py/ber.py:calc_ber", "kom_py/ber.py:ofdm_rx", "kom_py/ber_theory.py:get_ber", "src/lib.rs:rx_ofdm"]}
{"id": "C93", "title": "Baseband OFDM in binary64 with any accurate FFT", "statement": "If the FFT of length N returns finite values with relative error eps and N * eps <= 1/32, then in binary64 every sample transmitted for a QPSK message is finite and has modulus at most 4, and the receiver returns every bit pair of the message, followed by fewer than 2 * (N - pilots) bits of padding, from any signal of the same length whose samples after the prefixes are finite and differ from the sent ones by at most 1 in total in each block. So the round trip is exact, and noise added in binary64 is harmless up to 9/10 in total per block. Samples in the prefixes may be anything, NaN included.", "quantifier": "all messages, even block sizes up to 2^40, pilot counts, math libraries, FFTs of that accuracy and received signals", "why_tests_cant": "the tests use one FFT, one block size and no perturbation, and compare bits only", "anchors": ["src/ofdm.rs:tx_baseband_ofdm_signal", "src/ofdm.rs:rx_baseband_ofdm_signal", "src/qpsk.rs:tx_baseband_qpsk_signal", "src/qpsk.rs:rx_baseband_qpsk_signal"]}
{"id": "C94", "title": "Modems give each output at once and never read ahead", "statement": "Fed with a source that fails after n items, each transmitter and receiver returns exactly the number of items those n determine, then fails; fed with any other source that starts with the same n items (it may end, never end, or fail later) it returns the same items first. The number, with sps samples per symbol, is: n for baseband BPSK and CSK; n/2 and 2n for baseband QPSK; n * sps and n / sps for BPSK, FSK and CDMA-BPSK; n/2 * sps and 2 * (n / sps) for QPSK and CDMA-QPSK; n * sps for FM, BFSK, MFSK and CSK, 2n * sps for DCSK; 2n and n/2 for baseband DCSK; n * |key| and n / |key| for baseband CDMA; n / (N - P) blocks of N + N/4 for OFDM transmission and n / (N + N/4) blocks of N - P for reception, the passband versions included.", "quantifier": "all sources, finite or endless, all accepted parameters, all numbers (reals or binary64, any math library) and all FFTs", "why_tests_cant": "tests collect finite messages, so they cannot see when an item is returned or whether the source is asked for more", "anchors": ["src/bpsk.rs", "src/qpsk.rs", "src/fsk.rs", "src/fm.rs", "src/cdma.rs", "src/csk.rs", "src/dcsk.rs", "src/ofdm.rs", "src/iter/mod.rs"]}
{"id": "C95", "title": "What the constellation plots show, and passband from baseband", "statement": "Sample i of the BPSK signal is the real part of baseband symbol i/sps times the carrier (in every arithmetic), and sample i of the QPSK signal is the baseband symbol on the carrier divided by sqrt 2. The points I2/Q2 of qpsk_graphs are the last mixed sample of each symbol, so whatever was sent each lies on a line through the origin fixed by the carrier phase, and with whole half-cycles per symbol all lie on one line; I3/Q3 are then exactly the four corners (+-sps/2, +-sps/2). The plots of bpsk_constellation are: exactly (+-sps/2, 0) for the dumped sums; the sums one sample late for the convolution, so that bit k is drawn at sign(k)*(sps/2 - 1) + sign(k+1); and running sums for the third. The hand-made signal of qpsk_from_baseband differs from the transmitter's by sqrt 2 - 1 at its first sample for every message (the commented-out assertion is false), and the time axis of that test is as long as the signal exactly for messages of an even number of bits at two or more samples per symbol.", "quantifier": "all messages, all signals, all rates with the stated divisibility, all carriers; reals (first claim: every arithmetic)", "why_tests_cant": "the tests draw the pictures and never check them; they use one message at one set of rates", "anchors": ["tests/bpsk.rs:77-168", "tests/qpsk.rs:15-280", "src/bpsk.rs", "src/qpsk.rs"]}
{"id": "C96", "title": "The detection runs of lambdas.py", "statement": "__run lengthens the message from 120 bits by tens until its signal fills the detectors' window of 4096 + 64 samples, and never ends if no length does. Each of the eight transmitters of the harness accepts every message and turns n bits into a number of samples fixed by n (256n, 512n for DCSK, 2560*ceil(floor(n/2)/2) for OFDM, 2560*(floor(n/7)+1) for FH-OFDM-DCSK), so 120 bits are always enough. The run then ends, and every detector holds for each ratio one row of statistics of noise alone and one of signals in noise of the same level, all over equally many samples; a level that is not finite makes it raise. The level eb/snr is used as a standard deviation, so the true ratio of signal power to noise variance is snr^2/eb, in decibels 2*db(snr) - db(eb). For BPSK any whole number of bytes has power exactly 1/2 whatever the bits, so the true ratio is 2*snr^2, and the ratio asked for is neither that of powers nor that of amplitudes. In exact arithmetic the BPSK run always ends.", "quantifier": "all modulations of the harness, all bits drawn, all noise, all ratios and numbers of attempts; binary64 for the run, reals for the ratios", "why_tests_cant": "the script draws random bits and noise, takes hours, and only plots", "anchors": ["kom_py/lambdas.py:48-73", "kom_py/lambdas.py:223-267", "kom_py/lambdas.py:291-346", "src/lib.rs:316-609"]}
{"id": "C97", "title": "Noise and gain on the chaotic modems", "statement": "Exactly which noise flips which DCSK bit is known: bit k is right when the noisy reference and the noisy information sample still have a product of the right sign. The logistic orbit never goes below 39/10*0.975*0.025, so noise below that on every sample loses no bit; in binary64 any samples arriving within 0.09 of those sent decode correctly. DCSK needs no knowledge of the channel's gain, even of its sign: every nonzero gain works in exact arithmetic and every gain between 2^-500 and 2^500 in binary64, while below 2^-538 the receiver's product underflows and every bit reads 0. CSK bit k is right exactly when the noise times the gap between the two chaotic samples stays within half the squared gap, so noise below half the gap (a quarter of it in binary64) loses nothing; but a signal at half amplitude has its first 0 read as 1.", "quantifier": "all messages, all noise and all channels meeting the bound; reals and binary64", "why_tests_cant": "the tests have no noise, no gain and 9001 random bits", "anchors": ["src/csk.rs:3-21", "src/dcsk.rs:4-14", "src/chaos/logistic_map.rs:2-24"]}
{"id": "C98", "title": "Noise and jamming on FH-BPSK", "statement": "Exactly which noise flips which bit of an FH-BPSK signal is known: only its correlation with the carrier of the hop in force counts, against the energy of that carrier. Noise with less energy in every bit than the bit has loses nothing. When the hop frequencies make whole numbers of turns per symbol, a jammer playing tones on any set of J hop frequencies, with any amplitudes and phases renewed each symbol, can only lose bits sent on those frequencies (and loses them exactly when its in-phase part opposes the bit with at least the bit's amplitude), so of every epoch of num_freqs bits at most J are lost, however strong the jammer and whatever the random generator.", "quantifier": "all generators, messages, grids, rates, noise, jammed sets and amplitudes; exact arithmetic", "why_tests_cant": "no test adds noise to a hopping signal", "anchors": ["src/fh.rs:14-94", "src/bpsk.rs:22-58"]}
{"id": "C99", "title": "Noise, fading and a tone jammer on the FSK link", "statement": "For whatever is received, bit k of the FSK receiver is true exactly when the upper tone holds at least as much of the symbol as the lower, each measured with a cosine and a sine. When the tones keep apart over a symbol (fc*n = 20*a*sample_rate, upper tone below half the sample rate) any nonzero gain and any phase, new for each symbol, together with any noise of less than half the received symbol's energy loses no bit. Half cannot be improved: at every greater energy some noise inside one symbol turns that bit and no other, and a false bit is lost at exactly half. A continuous tone on the upper frequency at any phase does nothing below the transmitter's amplitude and from that amplitude on makes every bit true.", "quantifier": "all messages, rates, gains, phases, noise, and jammer amplitudes; exact arithmetic", "why_tests_cant": "the test has one carrier, no noise, no gain and no phase", "anchors": ["src/fm.rs:4-58"]}
{"id": "C100", "title": "What the bit-error-rate experiments measure", "statement": "With whole half-cycles of carrier per symbol, the rate the harness of tests/ber.rs reports at a signal-to-noise ratio snr is the fraction of bits for which the drawn noise, divided by its deviation and taken along one unit vector of the bit's samples, passes sqrt(2 snr). This holds alike for BPSK, for spread BPSK with any key, and for both bits of QPSK, whose two vectors are orthogonal. Baseband BPSK has the same threshold for its one noise value per bit, and so has the first bit of a baseband QPSK pair, while the second is never lost. calc_ber of kom_py/ber.py has the threshold sqrt(2 snr symbol_rate^2 / sample_rate). The theoretical curve ber_qpsk is p - p^2 where ber_bpsk is p, and strictly below it.", "quantifier": "all messages, rates, carriers with whole half-cycles, keys, noise sequences and lists of positive ratios; exact arithmetic", "why_tests_cant": "the tests draw random noise and plot the curves", "anchors": ["tests/ber.rs:27-124", "kom_py/ber.py:32-62", "src/bpsk.rs:5-58", "src/qpsk.rs:6-64", "src/cdma.rs"]}
{"id": "C101", "title": "Receivers with the wrong carrier phase or frequency", "statement": "A BPSK signal heard with a constant phase error is decoded right below a quarter turn, wholly inverted beyond it, and read as all false exactly there; a QPSK signal is right below an eighth of a turn and in each further quadrant its two bits come out rotated. With a frequency error, bit k of BPSK is right or inverted as the sign of the cosine of the carrier's turn in the middle of the bit says, unless the sum frequency drowns it; the bits over before a sixth of a turn are right, and however small the error, some bit before two thirds of a turn is inverted in every message, and some QPSK symbol keeps both its bits in none.", "quantifier": "all messages, gains, phase errors, rates and pairs of carriers with at most a third of a turn per symbol; exact arithmetic", "why_tests_cant": "the tests transmit and receive on the same carrier", "anchors": ["src/bpsk.rs:5-58", "src/qpsk.rs:6-64", "src/costas.rs"]}
{"id": "C102", "title": "Several links at once, each on its own carrier", "statement": "With the carriers whole cycles per symbol apart, any number of BPSK and QPSK neighbours of any loudness, in step with the receiver, leave a BPSK or QPSK message exactly as sent, and a receiver on an empty channel reads all false. An odd number of half cycles apart, a neighbour is heard with the weight of one sample: with an amplitude below half the samples of a symbol it is harmless, above that every bit received is the neighbour's (with alternating sign). Neighbours out of step on any other carriers are harmless while their amplitudes, weighted by how near the carriers are, add up to less than the energy of a symbol.", "quantifier": "all messages, rates, carriers, amplitudes, delays and numbers of neighbours; exact arithmetic", "why_tests_cant": "the tests have one transmitter on the air", "anchors": ["src/bpsk.rs:17-58", "src/qpsk.rs:23-64"]}
{"id": "C103", "title": "What the radiometer experiments count", "statement": "With whole half cycles per symbol a BPSK signal has average power 1/2 and a QPSK signal 1, spread or not, whatever the message. The experiments of tests/billiam.rs then count exactly the attempts where that power, the power of the noise and twice their correlation do not exceed the threshold: every curve is 0 below and attempts_var / attempts above a band around the signal power as wide as the root mean square of the noise, it never falls as eb grows (only the threshold moves, the signal ignores eb), and the missed-detection experiments report its complement. In radiometer_pd_new noise and threshold both come from the energy per bit, so the BPSK and CDMA BPSK curves are constant over the whole plotted range unless the unit noise has a root mean square above 300.", "quantifier": "all messages, noises, thresholds, rates and numbers of attempts; exact arithmetic", "why_tests_cant": "the tests plot a curve from random noise and assert nothing about it, or compare a fit with constants within 0.5", "anchors": ["tests/billiam.rs:20-54", "tests/billiam.rs:222-302", "tests/billiam.rs:361-482"]}
{"id": "C104", "title": "Noise and interference on the passband OFDM link", "statement": "With whole carrier cycles per symbol each bit comes back from rx_ofdm_qpsk_signal as the sign of +-sps/sqrt 2, an error of the receiver's late sampling that depends on the signal alone and is at most 8, and the correlation of the noise with one wave (sps = samples per symbol). So a bit survives if the noise energy E of its block after the prefix satisfies sqrt(N sps/2 E) < sps/sqrt 2 - 8; noise on the cyclic prefixes does not count. This is nearly sharp: for each bit there is noise of amplitude about sqrt 2/N on its block alone that inverts it. A tone of any strength on another frequency with whole cycles per symbol, or a constant offset, can only hurt the last block, and not even that one below sps/sqrt 2 - 8.", "quantifier": "all messages, even numbers of subcarriers, pilots, rates, carriers with whole cycles per symbol, and all noises; exact arithmetic", "why_tests_cant": "the unit test sends 2080 random bits over a perfect channel and no test receives a noisy one", "anchors": ["src/ofdm.rs:95-117", "src/ofdm.rs:119-147", "src/ofdm.rs:182-216"]}
{"id": "C105", "title": "The passband OFDM link in binary64", "statement": "The passband OFDM link in the f64 arithmetic the code computes with, for any FFT of relative error eps and any sine and cosine right to tau, with N eps <= 2^-12 and N tau <= 2^-13: the transmitter sends finite samples of size at most 3, the receiver ends with the right number of bits, and each bit comes back whenever the energy E by which the channel changes its block after the prefix satisfies sqrt(N sps/2 E) <= 5/8 sps - 9 (sps = samples per symbol). So from 15 samples per symbol on every bit comes back over a perfect channel, and with noise added in f64 of at most Z a sample when N sps Z <= 7/8 sps - 13.", "quantifier": "all messages, even numbers of subcarriers, pilots, rates, finite carriers with whole cycles per symbol, FFTs and sines of that accuracy, and all channels; binary64", "why_tests_cant": "the unit test runs one random message on one machine's FFT and sine, and no test bounds what rounding adds", "anchors": ["src/ofdm.rs:95-117", "src/ofdm.rs:119-147", "src/ofdm.rs:182-216"]}
{"id": "C106", "title": "The FSK link in binary64, and the verdict of its unit test", "statement": "The FSK link of src/fm.rs in the f64 arithmetic the code computes with, for any sine and cosine right to tau. Whatever is received, a symbol is decided as in exact arithmetic unless the two tone energies differ by less than 12 (nA)^2 (tau + (16B+2n+15) 2^-53), n the samples per symbol, A the largest sample, B the largest carrier phase. So the message comes back when the tones are kept apart by more than that slack, and, for orthogonal tones, under noise added in f64 whose energy on each symbol is at most e n/4 with 1-e above 480 (1+Z)^2 times the slack's factor. At the parameters of the unit test (44100, 900, 1800) the received bits are known exactly: false at a position ending in 0, 8 or 9 is read as true, true at a position ending in 4, 5 or 6 is read as false, every other bit comes back; the test's assertion holds if and only if its random message has no such bit.", "quantifier": "all messages (up to 2^24 bits for the test), rates, finite carriers of at least 1/2 Hz in size, sines of the stated accuracy, finite noise and received samples; binary64, and exact arithmetic for the test", "why_tests_cant": "the unit test draws one random message of 4000 bits on one machine; its outcome depends on the draw and on rounding, and it cannot say which messages pass", "anchors": ["src/fm.rs:4-22", "src/fm.rs:24-58", "src/fm.rs:79-114"]}
{"id": "C107", "title": "erf and erfc are within 1.2e-7 of the true functions, in binary64 too", "statement": "The error function - the function that is 0 at 0 and has derivative 2/sqrt(pi) exp(-x^2) - exists, is unique, odd, below 1 and tends to 1. Over the reals the erf of src/lib.rs differs from it by at most 1.2e-7 times (1 - |erf|), and erfc for x >= 0 has relative error at most 1.2e-7 however small it is; hence the BPSK and QPSK curves of tests/ber.rs are right to 1.2e-7 relative. In f64, for any exp accurate to 1e-10 relative, erf is finite and within 1.21e-7, erfc within 1.22e-7, for every finite x. The relative accuracy of erfc is lost there: from x = 7 on erf is 1 and erfc exactly 0, so the BPSK curve is exactly 0 from Eb/N0 = 49 on.", "quantifier": "every real x, every finite f64 x, every list of signal-to-noise ratios, every exp of the stated accuracy", "why_tests_cant": "the tests only plot curves made with erfc and compare it with nothing; sampled comparisons with a library could miss the worst argument and say nothing about the ones not sampled", "anchors": ["src/lib.rs:161-186", "tests/ber.rs:27-39"]}
{"id": "C108", "title": "The mean and the spread of the measured error rate in Gaussian noise", "statement": "Let the noise of tests/ber.rs be sigma times independent standard normal numbers, one for each sample, and let p = erfc(sqrt snr)/2 with the true error function. The rate that calculate_bers! reports is a function of those numbers; its mean over them (the iterated improper integral against the normal density, which is unique) is p for BPSK, for BPSK spread by any key and for QPSK, and p again for baseband BPSK, but p/2 for baseband QPSK; for kom_py/ber.py it is p with snr scaled by symbol_rate^2/sample_rate. For the BPSK experiments the mean squared deviation from p is p(1-p)/N over N bits. The curve ber_bpsk is the mean to 1.2e-7 of itself; ber_qpsk is p - p^2 to that accuracy, hence below the mean of the passband QPSK experiment it is plotted against whenever p > 2e-7, and above the mean of the baseband one whenever p < 0.49.", "quantifier": "every message, rate, carrier with a whole number of half periods in a symbol, spreading key, positive signal-to-noise ratio and receiver fuel above the message length; all noise vectors through the integral", "why_tests_cant": "a test draws one noise vector: it sees one value of the rate, not its mean or its spread, and cannot tell p from p - p^2 at small p", "anchors": ["tests/ber.rs:27-39", "tests/ber.rs:66-124", "kom_py/ber.py:49-64", "src/lib.rs:161-186"]}
{"id": "C109", "title": "The number of counted errors is binomial and the measured rate settles", "statement": "With the noise of C108 and p = erfc(sqrt snr)/2, the rate calculate_bers! reports for BPSK over N bits, plain, spread or at baseband, is K/N where K has the binomial law of N independent trials of probability p: the mean of every function of K is its binomial mean. The same holds for kom_py/ber.py with its scaled ratio; the baseband QPSK experiment reports half of such a rate over N/2 trials. Consequently the rate is at distance d or more from p with probability at most p(1-p)/(N d^2).", "quantifier": "every message, rate, carrier with a whole number of half periods in a symbol, spreading key, positive signal-to-noise ratio; every function of the count; every d > 0", "why_tests_cant": "a test sees one draw; no number of draws establishes a law, and nothing in the tests says how many bits a point of the curve needs", "anchors": ["tests/ber.rs:66-124", "kom_py/ber.py:49-64"]}
{"id": "C110", "title": "The average energy of a signal in Gaussian noise and the error probabilities of the energy detector", "statement": "Over independent standard normal numbers, the average energy of N samples with average energy S after awgn of deviation sigma has mean S + sigma^2 and variance (2 sigma^4 + 4 sigma^2 S)/N; for pure_awgn these are sigma^2 and 2 sigma^4/N. The root of the average energy of pure noise is d or more away from sigma with probability at most 2 sigma^2/(N d^2). Willie's energy detector with its threshold at the noise level overlooks a signal of average energy S with probability at most (2 sigma^4 + 4 sigma^2 S)/(N S^2), and with a threshold n0 > sigma takes noise for a signal with probability at most 2 sigma^4/(N (n0^2 - sigma^2)^2). awgn_complex adds sigma^2, not 2 sigma^2, to the mean energy.", "quantifier": "every non-empty signal, deviation, number of samples, d > 0 and threshold", "why_tests_cant": "the tests draw one sequence per setting and compare with a tolerance, or plot it; the probability that they fail is not observable from a run", "anchors": ["src/lib.rs:216-242", "src/lib.rs:414-420", "src/willie.rs:21-24", "src/willie.rs:59-72", "tests/awgn.rs:32-33"]}
{"id": "C111", "title": "The error rate of BPSK when a symbol does not hold a whole number of half periods of the carrier", "statement": "Over independent standard normal numbers the rate measured for BPSK by tests/ber.rs has the mean of the bits' own rates p_k = erfc(sqrt(snr E_k/E))/2, where E_k is the energy of bit k and E the average energy, and the variance sum p_k (1 - p_k)/N^2, no more than a binomial count of that mean has. The mean is at least erfc(sqrt snr)/2, and equal to it exactly if the bits have equal energies; over three bits or more that is exactly if a symbol holds a whole number of half periods. It is at most the rate at a ratio smaller by (sps/2 - d)/(sps/2 + d), d = 1/(2 |sin(2 pi fc/fs)|). The same holds for ber.py at the ratio scaled by symbol_rate^2/sample_rate, and for the halved signal of ber_theory.py; with the rates and carrier of the script the mean is above the textbook curve and at most the curve at 0.96 of the ratio.", "quantifier": "every message, sample and symbol rate with two samples or more per symbol, carrier not a multiple of half the sample rate, positive ratio", "why_tests_cant": "ber_theory.py plots one noisy run against the curve to be judged by eye; a systematic excess of a fraction of a percent is hidden in the scatter, and no finite set of messages and carriers gives the condition for equality", "anchors": ["tests/ber.rs:66-92", "kom_py/ber.py:49-62", "kom_py/ber_theory.py:50-53", "kom_py/ber_theory.py:74-87", "src/bpsk.rs:23-58"]}
{"id": "C112", "title": "The error rate of FH-BPSK in Gaussian noise", "statement": "Measured by the harness of tests/ber.rs over independent standard normal numbers, FH-BPSK has the mean of the bits' own rates p_k = erfc(sqrt(snr E_k/E))/2, where E_k is the energy of a bit at the frequency of its hop and E the average energy, and the variance sum p_k (1 - p_k)/N^2. The mean is at least erfc(sqrt snr)/2, with equality exactly if the energies are equal. After whole rounds through the hop table the mean and the variance depend neither on the message nor on the seed or the generator: they are averages over the grid. If no hop is near a multiple of half the sample rate (|sin(2 pi f/fs)| >= s), the mean is at most the textbook rate at a ratio smaller by (c - d)/(c + d), c = sps/2 + 1/4, d = 1/(4 s); with the rates and grid of the test in fh.rs that is the rate at 0.85 of the ratio.", "quantifier": "every generator, message, grid low <= high of two frequencies or more, sample and symbol rate, positive ratio", "why_tests_cant": "fh.rs tests one noiseless run with one seed; that every order of the hops gives the same expected rate, and that hopping always costs something against a single carrier of equal energies, are statements over all shuffles and noises", "anchors": ["src/fh.rs:12-94", "src/fh.rs:184-224", "tests/ber.rs:66-92"]}
{"id": "C113", "title": "The error rate of QPSK with any carrier", "statement": "If a symbol does not hold a whole number of half periods of the carrier, the two bits of a QPSK symbol do not have equal energies and each leaks into the other. Measured over independent standard normal noise by the harness of tests/ber.rs, the mean rate is the average over the bits of erfc(m_i / sqrt(E_i eb/snr))/2, where E_i is the energy of the bit's own carrier in its symbol, m_i = E_i - s L its margin, L the sum of sin cos over the symbol, s = 1 if the bits of the pair agree and -1 otherwise, and eb the energy per bit, which depends on the message too. With kom_py/ber.py the same holds at snr symbol_rate^2/sample_rate, and a last odd bit, which is not sent, raises the ratio by its share. With whole half periods the mean is erfc(sqrt snr)/2; otherwise, for d = 1/(2 |sin(2 pi fc/fs)|) and 2 d < sps/2, it is between the textbook rates at snr ((sps/2 + 2 d)/(sps/2 - d))^2 and snr ((sps/2 - 2 d)/(sps/2 + d))^2. With the rates and carrier of ber.py and ber_theory.py and a thousand bits or more that is within 12.5 % of the ratio.", "quantifier": "every message (even length for the Rust harness, two bits or more for the Python one), sample rate at least twice the symbol rate, carrier not a multiple of half the sample rate, positive ratio", "why_tests_cant": "the scripts plot one run of 9001 bits; the dependence of the mean on pairs of bits through the leak, and a bound for all messages and all noises, cannot be sampled", "anchors": ["src/qpsk.rs:23-42", "src/qpsk.rs:44-64", "tests/ber.rs:66-92", "kom_py/ber.py:32-62", "kom_py/ber_theory.py:89-100"]}
{"id": "C114", "title": "Spreading does not change the error rate in Gaussian noise", "statement": "Measured by the harness of tests/ber.rs over independent standard normal noise, CDMA-QPSK with any key the transmitter accepts has exactly the mean rate C113 gives plain QPSK with the same message, rates and carrier, and CDMA-BPSK exactly the mean and the variance C111 gives plain BPSK: neither the key nor its length enters, whatever the carrier, so despreading gains nothing against white noise.", "quantifier": "every message (even length for QPSK), key, sample and symbol rate the transmitter accepts, carrier not a multiple of half the sample rate, positive ratio", "why_tests_cant": "tests/ber.rs plots one key at one carrier; that the distribution of the measured rate is the same for all keys is a statement over all keys and all noises", "anchors": ["src/cdma.rs:43-87", "src/cdma.rs:130-174", "tests/ber.rs:66-92", "tests/ber.rs:201-261"]}
