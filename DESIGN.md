# Formal model of CommPy in Rocq (Coq 8.16.1)

## 1. Approach

* The model is shallow, executable Gallina, one model file per Python module (`*Model.v`, plus `ViterbiReal.v` and
  `LdpcDecModel.v`). Every definition carries a comment citing file and lines of `/repo` and naming its simplifications.
* Layers: `*Model.v` (the code) / `*Spec.v` or the specification section of `P_*.v` (independent definitions: polynomials, shift
  registers, paths, likelihoods, ...) / proof files / `*Top.v` (the property lemmas) / `P_*.v` (the property theorems, each closed by
  `exact` of a Top lemma, followed by `Print Assumptions` and a concrete non-trivial `Example` meeting its hypotheses).
* Exceptions are values: `res A := Ok a | Err exn`. Python indexing (negative indices wrap, otherwise IndexError) is `py_get` / `py_set`.
  Uninitialised memory (`np.empty`) is a universally quantified "garbage" parameter, or a `None` cell where the theorem says that it has
  been written. Arguments that the code mutates are returned as an extra component of the result.
* `while` loops take fuel; exhausted fuel is the error `OutOfFuel`, which is not a Python exception. Theorems claiming termination show
  that it never occurs, theorems claiming non-termination show that it occurs for every fuel.
* Where the natural English property is false of the code, the theorem with suffix `_refuted` proves its negation by a witness, and a
  companion theorem proves what does hold, with the exact condition when it could be found.

## 2. Trusted base

1. Coq's kernel (8.16.1) and the standard library. No axiom, `Admitted`, `Parameter`, functor, module type or plugin is added; no kernel
   check is switched off. `vm_compute` is used inside proofs (kernel virtual machine).
2. mathcomp is used as a library in the proofs about GF(2^m) (`GFPoly.v`, `GFField.v`, `GFTop.v`): polynomials over F2, quotient fields. `vcheck` lists, under `library_axioms`, the fields of mathcomp's sealed modules (`BigOp.bigop`, `FinfunDef.finfun`, ...) and
   of `ssrunder`: these are opaque *definitions* behind module signatures of the library, not assumptions; `Print Assumptions` of our
   theorems lists none of them.
3. What `Print Assumptions` lists for each theorem of `P_*.v` (all are axioms of Coq's standard library of real numbers, plus
   functional extensionality and, where a classical lemma of the library is used, excluded middle):

* **Closed under the global context** (139 theorems): C01_int_to_bits_and_back, C02_array_form, C02_bits_to_int_and_back, C03_negative, C03_too_wide, C04_decimal2bitarray_aliasing_refuted, C04_history_independent, C05_hamming_counts, C05_hamming_metric, C05_hamming_shape, C07_upsample, C09_pn_errors, C09_pn_linear, C09_pn_prefix, C09_pn_recurrence, C10_last_tap_needed_refuted, C10_pn_periodic, C10_zero_seed, C12_deinterleave_roundtrip, C12_interleave_roundtrip, C12_positions_and_lengths, C13_polydivide, C13_polydivide_hangs, C13_polydivide_unique, C14_constructor, C14_field_laws, C14_length_mismatch, C14_operations, C15_out_of_range_hangs, C15_power_to_tuple, C15_roundtrip, C15_roundtrip_m7_refuted, C15_tuple_to_power, C15_zero_roundtrip_refuted, C16_order, C17_cosets, C18_minimal_polynomials, C19_even_rejected, C19_generators_divide, C19_generators_total, C19_proper_divisor_refuted, C20_poly_to_string, C21_memory_dependent_refuted, C21_memory_independent, C21_step_unique, C21_trellis_tables, C22_incoming, C22_singular_feedback_refuted, C23_convolution, C24_linear, C25_condition, C25_restart, C25_terminates, C25_unequal_memories_refuted, C26_recursive_termination, C26_several_lines_refuted, C26_tail, C26_tail_several_lines, C27_any_length, C27_length, C27_puncturing, C27_rounding_refuted, C28_legacy_tables, C28_parity, C28_parity_refuted, C28_systematic, C29_hard_maximum_likelihood, C29_hard_ties, C29_hard_window, C30_cont_prefix, C30_cont_refuted, C30_hard_terminated, C30_round_trip, C31_hard_overwrites, C32_default_depth_refuted, C32_depth_too_small, C32_more_inputs_than_states, C32_nothing_written, C32_rate_1_n_default_depth, C33_unknown_type, C34_depuncture_after_puncture, C34_depuncturing, C34_empty_vector, C34_puncture_after_depuncture, C34_puncturing, C35_constructors, C35_matrix_constructor, C35_memoryless_refuted, C35_streams, C37_codewords, C37_odd_determinant_refuted, C37_singular, C38_no_overwrite, C38_numbers, C38_numbers_only, C38_round_trip, C38_zero_line, C39_clips_in_place, C39_codeword, C39_decisions, C39_errors, C39_singular_code, C39_stops_on_codewords, C40_blocks_independent, C40_shapes, C55_chunk_rounding, C55_function, C56_ber, C56_no_transmission, C56_terminates, C56_transmission, C57_bit_error_ratio_refuted, C57_metrics, C57_ratio, C59_catastrophic, C59_encoding, C59_generators, C59_standard_refuted, C60_float_rate, C60_lengths, C60_schemes, C60_unknown_mcs, C65_code_133_171, C65_code_5_7, C65_corrects_errors, C65_end_to_end, C65_sparse_errors, C65_symbol_corrected, C65_terminated_distance_refuted, C66_any_seed, C66_autocorrelation, C66_balance, C66_exact_period, C66_windows, C75_empty_first_register, C75_feedback_refuted, C75_first_register_refuted, C75_long_register_rejected, C75_one_cell_no_feedback
* `sig_forall_dec` (4 theorems): C06_shape, C48_odd, C58_no_iteration, C60_depuncturing
* `functional_extensionality_dep`, `sig_forall_dec` (14 theorems): C29_unquantized_window, C30_unquantized_signs, C31_unquantized_overwrites, C48_bit_level, C49_max_log, C49_zero_noise, C50_bec, C50_bsc, C50_certain, C50_zero_refuted, C55_float_rate, C56_ratio, C58_idd, C73_margins
* `functional_extensionality_dep`, `sig_forall_dec`, `sig_not_dec` (65 theorems): C06_metric, C08_power, C08_upsample, C11_accepts, C11_cazac, C11_cross_correlation, C11_exact_shift_refuted, C11_floats, C11_shift, C41_bad_length, C41_gray_labels, C41_order_kept, C41_psk, C41_qam, C41_sizes, C42_modulate, C44_energy, C44_psk_qam, C45_errors, C45_ml, C45_noiseless, C46_errors, C46_full_width, C46_noiseless, C46_soft, C47_equal_magnitudes, C47_magnitude, C47_max_log_refuted, C47_ml, C47_tall, C51_constructor, C51_documented_condition_refuted, C51_propagate, C51_propagate_errors, C51_setter, C52_constructor, C52_mean_gain, C52_nan_mean, C52_rayleigh, C52_rejected, C52_rician, C52_wrong_mean, C54_errors, C54_propagate, C61_nyquist_samples, C61_raised_cosine, C61_root_raised_cosine, C61_times, C62_offset, C62_zero_rate, C63_ofdm, C64_small_t_refuted, C64_specular, C73_any_width, C73_best_first, C73_ml, C73_soft, C74_energy, C74_full_band_refuted, C74_multipath, C74_odd, C74_receiver, C74_roundtrip, C74_waveform, C74_zero_prefix_refuted
* `classic`, `functional_extensionality_dep`, `sig_forall_dec`, `sig_not_dec` (64 theorems): C29_soft_window, C30_soft_erasures, C30_soft_signs, C31_soft_untouched, C36_corrects, C36_no_iteration, C36_posterior, C36_prior_length, C36_single_prior, C36_turbo_noiseless, C39_belief_propagation, C39_tanh_rule, C42_errors, C42_nearest, C42_psk_qam, C42_round_trip, C43_llr, C43_two_points, C47_demapper, C49_sign, C51_failed_call, C51_history, C51_k_factor, C52_failed_call_refuted, C52_history, C53_awgn, C53_dB_lin, C53_mimo_noise, C53_noise_std, C53_noise_std_mimo, C53_siso_noise, C53_type_change, C60_noiseless, C60_short_input, C61_gaussian, C64_valid_correlation, C67_min_sum, C67_sum_product, C68_decision_regions, C68_margin, C68_max_log, C68_psk, C68_qam, C68_soft_signs, C69_hard, C69_ldpc, C69_soft, C69_wifi_chain, C69_wifi_default_channel_refuted, C69_wifi_link, C70_llr, C70_variance, C71_codeword_symmetry, C71_min_sum_scale, C72_erasures, C72_errors, C72_stopping_sets, C76_any_detector, C76_bpsk, C76_kbest, C76_ml, C76_siso, C77_any_detector, C77_best_first

   Here `sig_forall_dec`, `sig_not_dec` are `Coq.Reals.ClassicalDedekindReals.*`, `functional_extensionality_dep` is
   `Coq.Logic.FunctionalExtensionality.*`, `classic` is `Coq.Logic.Classical_Prop.classic`.
4. The faithfulness of the model: it was written by reading `/repo`; nothing was run. `Conformance.v` checks the model against the input /
   output vectors contained in the repository's own tests (`/repo/commpy/**/tests`, and the docstrings), by computation in the kernel.

## 3. Numbers

* Python ints are `Z`. NumPy fixed-width integers are `Z`, except where wrap-around or overflow decides a property: `2**i` in
  `power_to_tuple` (int64), the int8 sums of the trellis constructor, the int32 conversion of the LDPC reader, and `bitarray2dec` of 64 or
  more bits (result becomes a float64; NumPy 1.x promotion rules).
* Floats are exact reals (`R`), i.e. rounding, overflow and underflow are **not** modelled, except:
  * `int(len * rate)`, `int(len / rate)`, `Fraction(rate)`, `ceil(len / rate)` (conv_encode, viterbi_decode, links, Wi-Fi), where rounding decides an
    integer: there binary64 round-to-nearest-even is modelled by integer arithmetic (`rnd64` in `TrellisModel.v`), and the theorems say for which
    lengths the result is exact;
  * `ldpc_bp_decode`, which is generic in a record of *arbitrary* elementary operations: C39 and C40 (except the theorems that name real
    functions) hold for binary64, NaN and infinities included;
  * the generic theorems on puncturing, interleaving, links and idd_decoder, which hold for any value type.
* inf and NaN: explicit where reachable and observable (`ext` in max_log_approx; `NaNs` in the channels; `None` samples of the filters; `None`
  path metrics of Viterbi; counters of best_first_detector).

## 4. What is modelled, file by file

| /repo/commpy | modelled | not modelled |
|---|---|---|
| utilities.py | dec2bitarray, decimal2bitarray with its LRU cache and aliasing, bitarray2dec, hamming_dist, euclid_dist, upsample, signal_power | non-array-like arguments; multi-dimensional arrays |
| sequences.py | pnsequence, zcsequence | string seeds (their digits are the list) |
| channelcoding/interleavers.py | interlv, deinterlv | the Mersenne Twister behind RandInterlv (any permutation) |
| channelcoding/gfields.py | the whole module (GF class, polydivide, polymultiply, poly_to_string) | negative operands |
| channelcoding/algcode.py | cyclic_code_genpoly | n = 0 |
| channelcoding/convcode.py | Trellis constructor (matrix, None or int feedback, for every k), conv_encode, viterbi_decode with its helpers and its writes into the caller's array, puncturing, depuncturing | Trellis.visualize (plotting), negative tb_depth |
| channelcoding/turbo.py | the whole module | exceptions of mismatched array ranks |
| channelcoding/ldpc.py | the whole module: file format as text, file system as a finite map, matrices, encoder, decoder | SciPy's floating point inverse is an exact rational inverse; a single check node (SciPy returns a 1-d array) is excluded by hypothesis |
| modulation.py | Modem, PSKModem, QAMModem, ofdm_tx, ofdm_rx, mimo_ml, kbest, best_first_detector, bit_lvl_repr, max_log_approx | plot_constellation; numpy's `qr` and `argsort` are parameters with their contracts as hypotheses (any QR factorisation, any sorting permutation); NumPy's handling of float sizes and slice bounds (raise / truncate) is a parameter of the OFDM model, its FFT is the exact DFT |
| channels.py | bec, bsc, awgn, SISOFlatChannel, MIMOFlatChannel (all setters, propagate, k_factor, correlation and specular helpers) | the random generator (draws are parameters; expectations are taken under any normalised linear functional with the stated first and second moments); `sqrtm` is a parameter with "its square is the matrix" as contract; int `t`, t = 0; reassigning nb_tx / nb_rx in the middle of a history |
| links.py | link_performance (function and method), link_performance_full_metrics, the chunk rounding, idd_decoder | the modulate / propagate / receive / decoder callables are arbitrary functions that may raise and may change the world; three instances are modelled fully: Wifi80211 over a SISO channel (`WifiLinkModel.v`), uncoded SISO and MIMO links with hard receivers (`UncodedLinkModel.v`), LDPC-coded MIMO links with the best-first receiver (`LdpcLinkModel.v`) |
| wifi80211.py | trellis, puncturing, rate and modem tables, coding and decoding chain | modem and link loop: `WifiLinkModel.v` |
| filters.py, impairments.py | all functions | float arguments are reals, sizes are naturals |
| examples/, plotting | - | not modelled |

Library routines that the code calls and that are modelled by their documented algorithm: `sympy` Gray code generator, `bisect.insort`,
`fractions.Fraction.limit_denominator`, `numpy.convolve`, NumPy broadcasting of 1-D arrays, slice assignment, `str.split`, `int(str)`,
`scipy.sparse.linalg.inv` (Gauss-Jordan over Q).

## 5. Per property: model and proof

* **C01-C03** `d2b_loop` with its wrap-around write; each cell characterised by `Z.testbit`, induction on the loop. C03 gives the exact
  behaviour for too large integers (OR of two windows, IndexError from 2^(2w) on) and for negative ones.
* **C04** state machine heap + LRU cache + references handed out; invariant over all histories: cached arrays are never reachable through
  a reference returned by dec2bitarray. The negative result for decimal2bitarray is a history.
* **C05, C06, C08** sums over lists; triangle inequality for C06 by Cauchy-Schwarz.
* **C07** strided writes, every cell written exactly once.
* **C09, C10** LFSR state at time t = last `order` outputs; periodicity by pigeonhole on the 2^order - 1 nonzero states and injectivity of the step.
* **C11** complex exponentials, geometric sums of N-th roots of unity, quadratic phases modulo 2N.
* **C12, C34** index bookkeeping (filter / count of transmitted positions), any element type.
* **C13-C20** `GFPoly.v`: carry-less polynomials on Z, degree measure, remainder; `GFField.v`: transfer to mathcomp polynomials over F2 and the quotient field;
  primitivity of the sixteen polynomials by a computed order certificate; cosets as orbits of Frobenius; C19 enumerates all subsets of minimal polynomials.
* **C21, C22, C23-C28** shift-register specification as functions of time (`TrellisSpec.v`), the table entries proved equal to it, encoder runs by induction
  on the number of blocks, C23 by the feed-forward register contents = last inputs. C27 uses the binary64 rate model (`FloatRate.v`).
* **C29-C33** add-compare-select invariant: after t steps column 0 holds, for every state, the minimum over all paths from state 0 and the survivor memory
  holds one minimising path; traceback reads that path; windowed output by induction on t. C30: a unique minimiser when D^0 is injective.
* **C35, C36** the forward/backward recursions are sums over path weights up to positive normalisation constants; noiseless turbo decoding by
  sign-symmetry and linearity of the trellis.
* **C37-C40** integer inverse implies H c = 0 mod 2; text round trip by parsing what was printed; BP iterations against a Tanner-graph specification.
* **C75** (and C28) the integer-feedback constructor with Python slices and NumPy broadcasting (`LegacyModel.v`); for one input it equals a closed form (`LegacyGen.one_input`), for several the loop over the registers is followed to the failing product (`several_inputs`) or to the end (`LegacyOnes.v`).
* **C63, C74** slices with Python's bounds, Strict/Truncating index rule; DFT orthogonality (sums of roots of unity); a multipath channel turns the waveform of a column into the waveform of the attenuated column inside the block (`OfdmProofs.v`).
* **C41-C44** Gray sequence = i xor i/2, argsort inverts it; serpentine of QAM; distances; exact LLR; energies as sums of squares.
* **C45-C49** exhaustive enumeration; K-best induction over layers (with QR and argsort contracts only); best-first: invariants of the stack search, termination by a
  potential; max-log as minima over lists.
* **C50-C54, C64** draws as parameters, histories as lists of operations, moments under an abstract expectation; positive semidefiniteness by
  an explicit Gram representation.
* **C55-C58** loops over arbitrary callables; termination measure send_max - bit_send.
* **C59, C60** computed tables + the theorems on conv_encode, puncturing and Viterbi.
* **C61, C62** limits of the quotient at the singular points (continuity), values at multiples of Ts.
* **C65** the decided symbol comes from a path of minimal Hamming distance over the decoder's window (C31); two streams that differ in that symbol are
  `window_distance` apart, so fewer than half as many errors cannot prefer the wrong one.
  `C65_sparse_errors`: take the excursion of the decided path from the sent one around symbol b (last common state before b, first after); exchanging only this stretch
  gives a competing path, so the stretch has at least half the excursion's weight in errors. `C65_code_5_7`: weight of every excursion of the (5,7) code grows at least
  like half its length (induction over the excursion), so two errors per 26 bits never suffice. `C65_code_133_171`: the same for the 64-state code; the weights of
  all excursions of up to 48 words from a per-state table, beyond by a potential (13 weight >= 4 words + 17), both checked edge by edge (`excursion_bound`). `C65_terminated_distance_refuted`: 3-bit message, distance 5, two errors.
* **C66** a full-period LFSR visits all nonzero states; counts of windows and the shift-and-add property by induction on the recurrence.
* **C67** generalised distributive law over a commutative semiring on the unrolled tree (`BPTree.v`), instantiated with (R, +, *) for sum-product and
  with (R with infinity, min, +) for min-sum; messages of the decoder are log-ratios (differences) of the semiring messages; |message| <= sum of |LLR| excludes saturation.
* **C68** decision regions: argmin over the constellation is the sent label; chord lengths 2 sin(k pi/m) for PSK, odd-integer grid for QAM; max-log bound by
  counting the 2^(b-1) labels with a given bit and bounding each likelihood between its largest term and 2^(b-1) times it.
* **C69** composition of C30/C60/C65/C39 with C68: bounded noise keeps every soft output's sign (or all but `bad` hard decisions), the decoders' theorems do the rest;
  the link statement (`WifiLinkModel.v`) by an invariant on the channel object through the SNR and transmission loops.
* **C71** over the textbook form of C39: both check rules are odd in every argument, the signs of a codeword multiply to 1 over each check, so messages and beliefs
  change sign with the variable and the stopping iteration is the same; min-sum is positively homogeneous (`LdpcSym.v`).
* **C72** by the symmetry of C71 the zero codeword was sent; (a) bounds the first iteration's beliefs by counting the checks spoilt by other errors (pairwise distinct
  errors, since columns meet at most once), (b) all messages are nonnegative, known variables stay known and a non-stopping set loses a variable per iteration;
  a decision on a codeword before the end differs from the sent one on a stopping set; (c) invariant: messages of a stopping set are 0 (`LdpcGuar.v`).
* **C73** |Hd|^2 <= 2|w + Hd|^2 + 2|w|^2 gives uniqueness of the maximum-likelihood decision (then C45-C47); for any width, back substitution turns the QR-free margin into
  |r_jj (a - b)|^2 > 4|w|^2 and Bessel's inequality bounds the rotated noise, so the sent suffix is the strict minimum of the partial metric at every level (`MimoMargin`).
* **C76** `UncodedLinkModel.v` instantiates the link model with the channel, modem and detector models; invariant on the channel object through the SNR, transmission and
  vector loops; each received vector by C73, the bits by C42 (modulation commutes with cutting the message into vectors). `C76_bpsk`: a link whose errors per transmission are known
  (`Counting`), the errors of BPSK being the noise draws that cross the origin.
* **C77** `LdpcLinkModel.v`, same method; the code dictionary is part of the state (invariant: untouched, or with the matrices of C37), the received values have the signs of a codeword
  (C73 for the best-first receiver, with the bound m^n on its rounds), so the decoder returns it (C39).
* **C70** direct computation of the standard deviation set by set_SNR_lin, C43 for two points.

No property of the list is left unexpressed; statements whose naive form is false carry a `_refuted` theorem next to the positive ones.

## 6. Wrong programs

`seeded/LOG.jsonl` records the edited models (one line per attempt). Procedure: a scratch copy is edited, rebuilt; every lemma whose proof no longer goes
through is replaced by `Admitted`, and the property theorems whose `Print Assumptions` then mentions an admitted lemma are "failed". A mutant with no
failed theorem would show a theorem that is too weak (or an equivalent mutant); see the log for those that led to new or tightened theorems.
