{"id": "C01", "title": "Integer to bits and back", "statement": "bitarray2dec(dec2bitarray(n, w)) == n, and the bit array has exactly w entries, each 0 or 1, most significant first.", "quantifier": "every integer n and width w with 0 <= n < 2**w, w unbounded", "why_tests_cant": "infinitely many (n, w) pairs", "anchors": ["commpy/utilities.py:dec2bitarray", "commpy/utilities.py:decimal2bitarray", "commpy/utilities.py:bitarray2dec"]}
{"id": "C02", "title": "Bits to integer and back", "statement": "dec2bitarray(bitarray2dec(b), len(b)) == b, and bitarray2dec(b) lies in [0, 2**len(b)). The array form of dec2bitarray is the concatenation of the per-element forms.", "quantifier": "every 0/1 array b of any length; every list of integers that fit", "why_tests_cant": "infinitely many arrays", "anchors": ["commpy/utilities.py:dec2bitarray", "commpy/utilities.py:bitarray2dec"]}
{"id": "C03", "title": "Integers that do not fit the width", "statement": "When n >= 2**w, dec2bitarray does not report it until n >= 2**(2*w) (IndexError): for 2**w <= n < 2**(2*w) it silently returns the bitwise OR of the low w bits and the next w bits, so the returned array never decodes to n.", "quantifier": "every w >= 1 and n >= 2**w", "why_tests_cant": "the failure depends on the size relation of n and w over an unbounded range", "anchors": ["commpy/utilities.py:decimal2bitarray"]}
{"id": "C04", "title": "Bit conversion is independent of call history", "statement": "Whatever sequence of dec2bitarray calls (on the shared 128-entry LRU cache) and in-place writes to previously returned arrays came before, dec2bitarray returns the correct bits. decimal2bitarray does not have this property: writing to its result changes what later calls return.", "quantifier": "every history of calls and caller writes, every cache content and eviction pattern", "why_tests_cant": "ranges over all histories and cache states", "anchors": ["commpy/utilities.py:dec2bitarray", "commpy/utilities.py:decimal2bitarray"]}
{"id": "C05", "title": "Hamming distance is the number of differing positions", "statement": "hamming_dist(a, b) equals the count of differing positions for 0/1 arrays of equal length, and is a metric (zero iff equal, symmetric, triangle inequality); arrays of incompatible lengths raise.", "quantifier": "all pairs/triples of 0/1 arrays of any length", "why_tests_cant": "infinitely many arrays", "anchors": ["commpy/utilities.py:hamming_dist"]}
{"id": "C06", "title": "Euclidean distance", "statement": "For real arrays of equal length euclid_dist(a, b) is the sum of the squared differences; it is nonnegative, symmetric, zero exactly for equal arrays, and its square root satisfies the triangle inequality. Arrays of different lengths raise ValueError, except that an array of length 1 is compared with every entry of the other.", "quantifier": "all pairs/triples of real arrays of any lengths", "why_tests_cant": "uncountable domain", "anchors": ["commpy/utilities.py:euclid_dist"]}
{"id": "C07", "title": "Upsampling inserts exactly n-1 zeros", "statement": "upsample(x, n) has length n*len(x), holds x[i] at position n*i and 0 elsewhere; n = 0 raises.", "quantifier": "every signal and every factor n >= 1", "why_tests_cant": "infinitely many sizes", "anchors": ["commpy/utilities.py:upsample"]}
{"id": "C08", "title": "Signal power", "statement": "signal_power is the mean squared magnitude of a nonempty signal: nonnegative, zero only for the zero signal, multiplied by |c|^2 when the signal is multiplied by c, the length-weighted mean of the powers under concatenation, and divided by n under upsample(x, n). An empty signal raises ValueError.", "quantifier": "every nonempty complex signal", "why_tests_cant": "uncountable domain", "anchors": ["commpy/utilities.py:signal_power", "commpy/utilities.py:upsample"]}
{"id": "C09", "title": "PN sequence follows its LFSR recurrence", "statement": "pnsequence raises ValueError exactly on length mismatch; otherwise it emits seq_length bits, the first ones being the reversed seed and each later bit the parity of the masked preceding pn_order bits; a longer request extends a shorter one; output is linear in the seed.", "quantifier": "every order >= 1, 0/1 seed, 0/1 mask and sequence length", "why_tests_cant": "infinitely many registers and lengths", "anchors": ["commpy/sequences.py:pnsequence"]}
{"id": "C10", "title": "PN sequence is periodic with period at most 2**order - 1", "statement": "If the last mask tap is 1, the (unboundedly long) PN sequence is purely periodic with a period between 1 and 2**order - 1 (nonzero seed); an all-zero seed only produces zeros.", "quantifier": "every order, nonzero seed and mask with the last tap set; all output positions", "why_tests_cant": "period claim covers infinite sequences and all registers", "anchors": ["commpy/sequences.py:pnsequence"]}
{"id": "C11", "title": "Zadoff-Chu sequence is CAZAC", "statement": "zcsequence(u, N, q) accepts integers exactly if 0 < u < N, gcd(u, N) = 1 and raises ValueError otherwise (and on a non-integer argument; an integer-valued float u or N raises TypeError). Every sample has modulus 1, the periodic autocorrelation is 0 at every lag that is not a multiple of N, the spectrum is flat, and two sequences whose roots differ by a number coprime to N have cross-correlation magnitude sqrt(N) at every lag. Changing q shifts the sequence cyclically up to a constant factor of magnitude 1, but not exactly, contrary to the documentation.", "quantifier": "every u, N, q (integers or floats), every lag", "why_tests_cant": "number-theoretic identity over all roots and lengths", "anchors": ["commpy/sequences.py:zcsequence"]}
{"id": "C12", "title": "Interleaving is lossless", "statement": "For every permutation drawn by RandInterlv, interlv(x)[i] == x[p[i]], deinterlv(interlv(x)) == x and interlv(deinterlv(x)) == x for arrays of the interleaver's length, and interlv only permutes the entries. Shorter arrays raise IndexError; of a longer one interlv drops the entries beyond the interleaver's length and deinterlv replaces them by 0.", "quantifier": "every length, every permutation the generator can draw, every array of that length", "why_tests_cant": "factorially many permutations", "anchors": ["commpy/channelcoding/interleavers.py:_Interleaver.interlv", "commpy/channelcoding/interleavers.py:_Interleaver.deinterlv", "commpy/channelcoding/interleavers.py:RandInterlv"]}
{"id": "C13", "title": "Binary polynomial division", "statement": "polydivide(x, y) terminates for every divisor y >= 2 and returns the unique remainder of lower degree; for y in {0, 1} it never terminates.", "quantifier": "every nonnegative x and every y", "why_tests_cant": "termination and correctness over unbounded integers", "anchors": ["commpy/channelcoding/gfields.py:polydivide"]}
{"id": "C14", "title": "GF(2^m) arithmetic obeys the field laws", "statement": "For 1 <= m <= 16, GF multiplication and addition of in-range elements are closed, commutative, associative, distributive, have identities, and every nonzero element has an inverse; operands with different numbers of elements raise ValueError. GF(x, m) of an int stores x iff 0 <= x < 2**m (otherwise every operation raises AttributeError), of a nonempty array stores it unchanged, and m > 16 raises IndexError.", "quantifier": "every m in 1..16, all elements, element arrays of every length", "why_tests_cant": "2**48 triples for m = 16", "anchors": ["commpy/channelcoding/gfields.py:GF.__add__", "commpy/channelcoding/gfields.py:GF.__mul__", "commpy/channelcoding/gfields.py:polymultiply"]}
{"id": "C15", "title": "Power and tuple representations are inverse", "statement": "tuple_to_power terminates on every in-range element and gives the discrete logarithm to base alpha (0 for the zero element); power_to_tuple inverts it for exponents below 63, so the round trip is the identity on nonzero elements for m <= 6 (the zero element always comes back as 1). For m = 7 it is not (2**i overflows 64 bits at i = 63). tuple_to_power of an out-of-range element never terminates.", "quantifier": "every m in 1..16 and every element / exponent", "why_tests_cant": "loop termination and overflow boundary over the entire field", "anchors": ["commpy/channelcoding/gfields.py:GF.tuple_to_power", "commpy/channelcoding/gfields.py:GF.power_to_tuple"]}
{"id": "C16", "title": "Element orders", "statement": "GF.order returns, for each nonzero element, the least positive exponent e with x**e == 1, and 1 for the zero element.", "quantifier": "every m in 1..16 and every nonzero element", "why_tests_cant": "order is a least-exponent claim over the whole group", "anchors": ["commpy/channelcoding/gfields.py:GF.order"]}
{"id": "C17", "title": "Cyclotomic cosets partition the field", "statement": "GF.cosets terminates and partitions the given distinct elements; for the full multiplicative group two elements share a coset exactly when one is a 2**j-th power of the other.", "quantifier": "every m in 1..16, every list of distinct in-range elements", "why_tests_cant": "classes over the entire field, loop termination", "anchors": ["commpy/channelcoding/gfields.py:GF.cosets"]}
{"id": "C18", "title": "Minimal polynomials", "statement": "GF.minpolys returns, for every field element x, the binary polynomial of least degree that has x as a root.", "quantifier": "every m in 1..16 and every element", "why_tests_cant": "minimality quantifies over all polynomials", "anchors": ["commpy/channelcoding/gfields.py:GF.minpolys"]}
{"id": "C19", "title": "Cyclic code generators divide X^n - 1", "statement": "For n = 2**m - 1, m <= 16, every polynomial returned by cyclic_code_genpoly(n, k) has degree n - k and divides X**n - 1, and for k < n all such polynomials are returned; no exception occurs for m <= 5 and for larger m the only one is TypeError. For odd n that is a proper divisor of 2**m - 1 this fails: (5, 1) returns x^4+x+1, which does not divide X^5 - 1. Even n raises ValueError.", "quantifier": "every (n, k)", "why_tests_cant": "divisibility over all block lengths", "anchors": ["commpy/channelcoding/algcode.py:cyclic_code_genpoly"]}
{"id": "C20", "title": "Polynomial printing", "statement": "poly_to_string(x) lists exactly the exponents of the set bits of x, in increasing order.", "quantifier": "every nonnegative integer", "why_tests_cant": "unbounded integers", "anchors": ["commpy/channelcoding/gfields.py:poly_to_string"]}
{"id": "C21", "title": "Trellis tables realise the shift-register encoder", "statement": "For every memory profile, generator matrix whose row degrees fit the memories, and feedback matrix, every next_state_table entry is a valid state, every output_table entry is below 2**n, and both are the GF(2) shift-register equations; in particular they do not depend on uninitialised memory. If a row's polynomial exceeds its own register, the table does depend on uninitialised memory.", "quantifier": "all k, n, memories, generators, feedback matrices, states and inputs, all contents of uninitialised memory", "why_tests_cant": "unbounded parameter space and uninitialised memory", "anchors": ["commpy/channelcoding/convcode.py:Trellis.__init__"]}
{"id": "C22", "title": "Every trellis state has exactly 2^k incoming branches", "statement": "For every feed-forward trellis, and every feedback trellis whose D^0 matrices make the input recoverable, every state has exactly number_inputs incoming (state, input) pairs, so the decoder's add-compare-select never reads a stale or out-of-range metric. With a singular feedback matrix a state may have no incoming branch.", "quantifier": "all feed-forward trellises and states", "why_tests_cant": "counting claim over all codes", "anchors": ["commpy/channelcoding/convcode.py:Trellis.__init__", "commpy/channelcoding/convcode.py:_where_c", "commpy/channelcoding/convcode.py:_acs_traceback"]}
{"id": "C23", "title": "Convolutional encoding is polynomial multiplication", "statement": "For a feed-forward trellis, output bit j at time t of conv_encode(..., 'cont') is the GF(2) sum over inputs i and delays d of coefficient d of G[i,j] times the input bit of stream i at time t-d, for the MSB and the LSB/Matlab polynomial formats.", "quantifier": "all codes, all messages with length a multiple of k, all times", "why_tests_cant": "unbounded messages and codes", "anchors": ["commpy/channelcoding/convcode.py:Trellis.__init__", "commpy/channelcoding/convcode.py:conv_encode"]}
{"id": "C24", "title": "Convolutional encoding is linear", "statement": "conv_encode(a xor b) == conv_encode(a) xor conv_encode(b) for equal-length messages and any puncturing row, for every termination mode except recursive 'term', including matrix feedback (message lengths below 2**49 / n, rates whose float quotient is safe).", "quantifier": "all codes, puncturing rows and message pairs", "why_tests_cant": "infinitely many message pairs", "anchors": ["commpy/channelcoding/convcode.py:conv_encode"]}
{"id": "C25", "title": "Termination returns the encoder to state zero", "statement": "With termination='term' a feed-forward encoder ends in state 0 whenever max memory + ceil(L/k) <= floor((L + M + M mod k)/k) for message length L, in particular always for k = 1 and for equal memories with k dividing L; encoding then restarts afresh: encoding msg, tail and a second message in one go is the concatenation of the two encodings. It fails to reach state 0 for e.g. memory = (3, 1).", "quantifier": "all feed-forward codes and message lengths", "why_tests_cant": "final state over all messages", "anchors": ["commpy/channelcoding/convcode.py:conv_encode"]}
{"id": "C26", "title": "Recursive termination", "statement": "With code_type='rsc' and termination='term' the appended tail is the state read from its last bit to its first (oldest cell to newest, for one register), k bits per step, then zeros; for a rate 1/n recursive encoder it returns every message to state 0 if and only if the feedback polynomial is 1 + D^M. With two registers even the feedback 1 + D does not return to state 0.", "quantifier": "all recursive codes of the family; witness for failure", "why_tests_cant": "final state over all messages", "anchors": ["commpy/channelcoding/convcode.py:conv_encode"]}
{"id": "C27", "title": "conv_encode output length and puncturing", "statement": "conv_encode returns n output bits per k input bits (plus tail) for every rate whose binary64 quotient k/n passes a computable test (all denominators up to 10 do); a message whose length L is not a multiple of k gives the output of its whole groups padded with zeros to floor(L n / k) bits, the remaining input bits being dropped without warning; with a puncture matrix it keeps exactly the bits selected by row 0 but the array is not shortened: the removed positions reappear as trailing zeros. For some rates (e.g. 3/17 with 21 bits) float rounding makes the length one too short and encoding raises ValueError.", "quantifier": "all codes, messages and puncture rows", "why_tests_cant": "unbounded lengths, float rounding", "anchors": ["commpy/channelcoding/convcode.py:conv_encode"]}
{"id": "C28", "title": "Legacy recursive systematic trellis", "statement": "With an int feedback polynomial and code_type='rsc' the constructor overwrites the caller's g_matrix diagonal, and a rate 1/n trellis with the top feedback bit set is systematic: the first output bit is the input bit in every state. Parity outputs are those of the recursive encoder with generator g/feedback when g has a D^0 term; without it they are not.", "quantifier": "all memories, generators, feedbacks, states and inputs for k = 1", "why_tests_cant": "unbounded parameter space", "anchors": ["commpy/channelcoding/convcode.py:Trellis.__init__"]}
{"id": "C29", "title": "Viterbi decoding is maximum likelihood", "statement": "With a usable traceback depth, each group of k decoded bits is the decision of a path that starts in state 0 and minimises the total metric (bit mismatches for 'hard', squared distance for 'unquantized', negative log-likelihood of the clipped LLRs for 'soft') over all input sequences, given what had been received by the time of the decision; with depth steps + 1 the whole output is one such minimising path (maximum likelihood).", "quantifier": "all trellises, received sequences, traceback depths and contents of uninitialised memory", "why_tests_cant": "exponentially many paths, unbounded lengths", "anchors": ["commpy/channelcoding/convcode.py:viterbi_decode", "commpy/channelcoding/convcode.py:_acs_traceback", "commpy/channelcoding/convcode.py:_compute_branch_metrics"]}
{"id": "C30", "title": "Viterbi decoding inverts the encoder without noise", "statement": "Decoding a noise-free terminated code stream returns the message followed by the tail zeros, for every code whose D^0 coefficient matrix is injective, hard bits and unquantized or soft values with the right signs, and every usable depth. Soft decoding also works without termination and with erasures as long as the remaining outputs determine the input; hard decoding without termination is right only for the bits decided before the end (an example with memory 4, generators 1 and 30, loses the last bit).", "quantifier": "all such codes, messages, signed values, erasure patterns and traceback depths", "why_tests_cant": "unbounded messages, codes and windows", "anchors": ["commpy/channelcoding/convcode.py:conv_encode", "commpy/channelcoding/convcode.py:viterbi_decode"]}
{"id": "C31", "title": "Viterbi decoding and its input array", "statement": "viterbi_decode('hard'/'unquantized') overwrites the last n received values of the caller's array (with 0 resp. -1) exactly if total_memory >= 2k; otherwise, and for soft inputs always, the caller's array is unchanged.", "quantifier": "all codes and received arrays", "why_tests_cant": "side effect over all inputs", "anchors": ["commpy/channelcoding/convcode.py:viterbi_decode"]}
{"id": "C32", "title": "Every decoded bit is written", "statement": "For rate 1/n codes and the default tb_depth every returned bit has been written by the traceback. If tb_depth exceeds the number of trellis steps + 1 (possible with the default depth for k >= 2) nothing is written and the returned array is uninitialised memory; tb_depth <= 1, or total_memory < k, raises IndexError.", "quantifier": "all codes, lengths, depths", "why_tests_cant": "depends on uninitialised memory, unbounded lengths", "anchors": ["commpy/channelcoding/convcode.py:viterbi_decode", "commpy/channelcoding/convcode.py:_acs_traceback"]}
{"id": "C33", "title": "Unknown decoding type", "statement": "The documented ValueError for an unknown decoding_type is never raised on nonempty input: a TypeError from the metric computation comes first.", "quantifier": "all non-documented decoding types and nonempty inputs", "why_tests_cant": "all strings", "anchors": ["commpy/channelcoding/convcode.py:viterbi_decode", "commpy/channelcoding/convcode.py:_compute_branch_metrics"]}
{"id": "C34", "title": "Puncturing and depuncturing", "statement": "puncturing keeps exactly the items at positions where the periodic puncturing vector is 1, and depuncturing puts received values back at those positions with 0 elsewhere, raising IndexError exactly when there are too few; each is inverted by the other on the transmitted positions. An empty puncturing vector raises IndexError.", "quantifier": "all messages and puncturing vectors", "why_tests_cant": "infinitely many lengths/patterns, index arithmetic with negative wrap-around", "anchors": ["commpy/channelcoding/convcode.py:puncturing", "commpy/channelcoding/convcode.py:depuncturing"]}
{"id": "C35", "title": "Turbo encoder streams", "statement": "For systematic rate 1/2 trellises with memory >= 1, turbo_encode returns the message as systematic stream and the two parity streams of the message and of the interleaved message; the third stream is not trimmed to the message length (its length is 2L + M and the excess is zeros). The documented constructors give such trellises. With a memoryless trellis the message is discarded.", "quantifier": "all messages, interleavers, memories, generators and feedbacks", "why_tests_cant": "unbounded messages", "anchors": ["commpy/channelcoding/turbo.py:turbo_encode"]}
{"id": "C36", "title": "MAP decoder computes the exact posterior ratio", "statement": "The value map_decode returns for bit t is the logarithm of the ratio of the total path weight (likelihood times priors) of all trellis paths with input 1 at t to those with input 0; the decision is 1 exactly when the former is larger; with equal priors, received values closer to one message's streams than to those of any other message by more than 2*noise_variance*(N-1)*ln 2 in squared distance are decoded to that message. turbo_decode of received values whose signs agree with the transmitted streams returns the message, for every linear systematic trellis, interleaver, noise variance and number of iterations >= 1; with 0 iterations it raises UnboundLocalError, and a prior of wrong length ValueError.", "quantifier": "all trellises, received values, priors, noise variances, interleavers and iteration counts", "why_tests_cant": "sums over exponentially many paths, real arithmetic", "anchors": ["commpy/channelcoding/turbo.py:map_decode", "commpy/channelcoding/turbo.py:_backward_recursion", "commpy/channelcoding/turbo.py:_forward_recursion_decoding"]}
{"id": "C37", "title": "LDPC encoding yields codewords", "statement": "triang_ldpc_systematic_encode returns blocks that start with the (padded) message bits and satisfy every parity check, whenever the last n_cnodes columns of H are invertible over the integers (e.g. unit triangular); the first call stores the matrices and later calls give the same result; length mismatch with pad=False raises ValueError. If these columns are singular over the rationals the call raises RuntimeError; if their determinant is odd but not 1 or -1 the output may violate a parity check.", "quantifier": "all parity matrices of that shape and all messages", "why_tests_cant": "unbounded codes and messages", "anchors": ["commpy/channelcoding/ldpc.py:triang_ldpc_systematic_encode", "commpy/channelcoding/ldpc.py:build_matrix"]}
{"id": "C38", "title": "LDPC design file round trip", "statement": "Writing a 0/1 parity-check matrix without zero row or column and reading it back yields the same matrix, and no other file changes; an existing file is never overwritten (FileExistsError). A number in a design file is accepted exactly if it is a nonempty digit sequence with optional sign and surrounding blanks. A zero row or column raises IndexError and leaves a truncated file behind, which blocks a second attempt.", "quantifier": "all such matrices of any size", "why_tests_cant": "unbounded matrices", "anchors": ["commpy/channelcoding/ldpc.py:write_ldpc_params", "commpy/channelcoding/ldpc.py:get_ldpc_code_params", "commpy/channelcoding/ldpc.py:build_matrix"]}
{"id": "C39", "title": "LDPC decoding of a codeword", "statement": "If the hard decision of the input is a codeword, ldpc_bp_decode returns it and the clipped LLRs unchanged, for any iteration count and algorithm name. Otherwise it runs textbook belief propagation (sum-product on nonzero messages, or min-sum on checks of degree >= 2) until the hard decisions form a codeword or the iterations are used up; codeword outputs are final under more iterations; decisions are the signs of the returned LLRs; the caller's array is clipped in place to [-500, 500] even when the call raises. An unknown algorithm raises NameError only when an iteration is needed.", "quantifier": "all codes, LLR vectors, iteration counts", "why_tests_cant": "fixpoint over all inputs", "anchors": ["commpy/channelcoding/ldpc.py:ldpc_bp_decode"]}
{"id": "C40", "title": "LDPC blocks are decoded independently", "statement": "Decoding several concatenated blocks gives the decodings of the individual blocks, exceptions included; a length that is not a positive multiple of the block length raises ValueError.", "quantifier": "all numbers of blocks, codes, algorithms and LLRs", "why_tests_cant": "unbounded", "anchors": ["commpy/channelcoding/ldpc.py:ldpc_bp_decode"]}
{"id": "C41", "title": "Modem Gray labelling", "statement": "With reorder_as_gray, points given at consecutive positions (cyclically) get labels differing in exactly one bit, and the relabelling is a permutation; hence cyclic neighbours of a PSKModem and all horizontal and vertical neighbours of a QAMModem differ in one bit. Without reordering labels are positions. Exactly the sizes 2, 4, 8, ... (PSK) and 4, 16, 64, ... (QAM) are accepted.", "quantifier": "all constellation sizes 2**b / 4**p", "why_tests_cant": "all sizes", "anchors": ["commpy/modulation.py:Modem.__init__", "commpy/modulation.py:PSKModem", "commpy/modulation.py:QAMModem"]}
{"id": "C42", "title": "Hard demodulation inverts modulation", "statement": "demodulate(modulate(bits), 'hard') == bits for every constellation of distinct points and every bit array whose length is a multiple of the bits per symbol (otherwise the last group comes back zero-padded on its left); hard demodulation picks a nearest constellation point (the smallest label on ties). No bits: ValueError; one-point constellation: ZeroDivisionError.", "quantifier": "all constellations of distinct points with power-of-two size, all bit arrays of multiple length, all received points", "why_tests_cant": "uncountable inputs", "anchors": ["commpy/modulation.py:Modem.modulate", "commpy/modulation.py:Modem.demodulate"]}
{"id": "C43", "title": "Soft demodulation computes the LLR", "statement": "demodulate(y, 'soft', v) returns, for the j-th bit of each symbol, log of the sum over labels with bit j = 1 of exp(-|y-s|^2/v) divided by the same sum over labels with bit j = 0.", "quantifier": "all constellations, symbols, noise variances > 0", "why_tests_cant": "real arithmetic over all inputs", "anchors": ["commpy/modulation.py:Modem.demodulate"]}
{"id": "C44", "title": "Average symbol energy", "statement": "Es of PSKModem(m) is 1 and of QAMModem(m) is 2(m-1)/3.", "quantifier": "all m = 2**b, resp. all squares of even numbers", "why_tests_cant": "all sizes", "anchors": ["commpy/modulation.py:PSKModem", "commpy/modulation.py:QAMModem", "commpy/utilities.py:signal_power"]}
{"id": "C45", "title": "MIMO ML detection is optimal", "statement": "mimo_ml returns a vector of constellation points minimising the distance to y over all vectors; without noise and with a channel that separates the candidates it returns the sent vector; an empty constellation or mismatched heights raise ValueError.", "quantifier": "all channels, constellations, received vectors, antenna numbers", "why_tests_cant": "exponentially many candidates", "anchors": ["commpy/modulation.py:mimo_ml"]}
{"id": "C46", "title": "K-best detection", "statement": "kbest with K >= m**(n-1) returns a maximum-likelihood decision, and without noise on an injective channel any K >= 1 returns the sent vector; whatever QR factors, tie-breaking and uninitialised memory. Soft output is the max-log LLR over a list of at most K vectors (all vectors if K >= m**n). More columns than rows, a bad output type, or K = 0 raise ValueError.", "quantifier": "all channels, QR factors, constellations, K", "why_tests_cant": "exponentially many candidates", "anchors": ["commpy/modulation.py:kbest"]}
{"id": "C47", "title": "Best-first detector LLRs", "statement": "best_first_detector terminates after at most m**n rounds and all the LLRs it returns have the same magnitude, at most llr_max, with the signs of the bits of one vector of points, which is a maximum-likelihood decision if the channel is square and the stacks never overflow (then no LLR is zero if that decision is the only one, and with distinct points the common magnitude is the gap to the nearest vector that differs beyond the first entry, clipped to llr_max); so they are in general not proportional to max-log LLRs. More rows than columns, or a single row, always raise TypeError.", "quantifier": "all search trees, stack sizes and metrics", "why_tests_cant": "search over all executions", "anchors": ["commpy/modulation.py:best_first_detector"]}
{"id": "C48", "title": "Bit-level representation", "statement": "bit_lvl_repr(H, w) times a bit vector equals H times the vector of weighted bit sums; odd weight length raises ValueError.", "quantifier": "all matrices and weights", "why_tests_cant": "all matrices", "anchors": ["commpy/modulation.py:bit_lvl_repr"]}
{"id": "C49", "title": "Max-log approximation", "statement": "max_log_approx returns (min over listed points with bit k = 1 of |y-Hx|^2 minus the same with bit 0) / (2 noise_var), infinite if one side is absent; with noise_var 0 it returns signed infinities, or NaN on a tie. Its sign convention (positive means 0) is the opposite of Modem.demodulate's soft output: for two points the latter is exactly -2 times the former.", "quantifier": "all point lists, channels", "why_tests_cant": "all inputs", "anchors": ["commpy/modulation.py:max_log_approx", "commpy/modulation.py:Modem.demodulate"]}
{"id": "C50", "title": "Binary channels", "statement": "bec erases and bsc flips exactly the bits whose random draw is <= p, returning a new array and leaving the caller's unchanged; probability 1 affects all bits; probability 0 can still affect a bit (draws may be exactly 0).", "quantifier": "all inputs and random draws", "why_tests_cant": "all random outcomes", "anchors": ["commpy/channels.py:bec", "commpy/channels.py:bsc"]}
{"id": "C51", "title": "SISO channel state machine", "statement": "After any sequence of constructor, attribute and propagate calls (including failing ones) the stored fading parameters satisfy variance + |mean|^2 = 1 and the channel is complex exactly if the mean is; the constructor stores exactly what it is given or raises ValueError; a failed call leaves the channel unchanged; the output is gain*message + noise with unit mean gain power; propagate raises AssertionError without a noise level, TypeError for a complex message on a real channel, IndexError on an empty message. k_factor is the ratio of fixed to random energy (infinite for variance 0). The documented condition |variance| + |mean|^2 = 1 is not what is checked: negative variances are accepted and yield NaN.", "quantifier": "all histories", "why_tests_cant": "histories", "anchors": ["commpy/channels.py:SISOFlatChannel", "commpy/channels.py:_FlatChannel"]}
{"id": "C52", "title": "MIMO fading setters keep the energy normalised", "statement": "After any history of calls the stored parameters satisfy |trace(Rt) trace(Rr) + |mean|^2 - nb_tx nb_rx| <= 1e-3 (unless the mean is NaN); the constructor stores the given antenna counts, noise level and parameters (uncorrelated real Rayleigh by default); the Rayleigh and Rician setters normalise exactly and give the requested k-factor, and the expected energy of every drawn channel matrix is that of the parameters. |t| or |r| above 1 + 1e-4, or a wrong energy, or a Rician mean with the wrong number of entries (k above 1/999), raise ValueError with the channel unchanged; a negative beta raises ValueError only after the fading parameters have been replaced; a zero mean or -1 < k < 0 yields an accepted NaN mean.", "quantifier": "all histories, antenna numbers, means, k-factors, correlations and random draws", "why_tests_cant": "real arithmetic, all sizes", "anchors": ["commpy/channels.py:MIMOFlatChannel"]}
{"id": "C53", "title": "SNR setters", "statement": "set_SNR_dB(s) equals set_SNR_lin(10**(s/10)); the resulting mean noise power per receive antenna is nb_tx*Es/(code_rate*SNR) for real and for complex channels, and awgn adds noise of mean power P/(rate*SNR). The noise level is not adapted when the channel later changes between real and complex (factor 2).", "quantifier": "all SNRs, rates, energies", "why_tests_cant": "real arithmetic", "anchors": ["commpy/channels.py:_FlatChannel.set_SNR_dB", "commpy/channels.py:_FlatChannel.set_SNR_lin", "commpy/channels.py:_FlatChannel.generate_noises"]}
{"id": "C54", "title": "MIMO propagation shape", "statement": "MIMO propagate sends ceil(len/nb_tx) vectors, zero-padding only the last; vector number a is multiplied by its own stored channel matrix and the stored noise is added. Empty message: IndexError; complex message on real channel: TypeError; no noise level: AssertionError.", "quantifier": "all messages and antenna numbers", "why_tests_cant": "all lengths", "anchors": ["commpy/channels.py:MIMOFlatChannel.propagate"]}
{"id": "C55", "title": "Link chunk rounding", "statement": "link_performance rounds send_chunk down to the largest positive size whose coded length is a whole number of symbol vectors, or takes the smallest such size if none is below; the module-level function is the method, with err_min as chunk when none (or 0) is given. A code rate given as a float within 1/20000 of a fraction p/q with q <= 100 gives exactly the results of Fraction(p, q).", "quantifier": "all chunk sizes, code rates, modulation orders, antenna numbers", "why_tests_cant": "all parameters", "anchors": ["commpy/links.py:LinkModel.link_performance"]}
{"id": "C56", "title": "link_performance terminates with a valid BER", "statement": "For every SNR the send loop terminates after fewer than send_max + send_chunk bits, stops as soon as err_min errors are seen, and the BER is errors/bits in [0,1]; later SNRs are skipped (0) only after an SNR with fewer than err_min errors. In each transmission the decoder gets the receiver's output; on a MIMO channel the outputs for the successive received vectors, in order.", "quantifier": "all error patterns (random messages, channels, decoders)", "why_tests_cant": "all random outcomes", "anchors": ["commpy/links.py:LinkModel.link_performance"]}
{"id": "C57", "title": "Full metrics", "statement": "link_performance_full_metrics: BER is total errors / (transmissions * send_chunk), which is the bit error ratio only for one chunk per send and can exceed 1 otherwise; CEs is a 0/1 indicator per transmission, not the number of erroneous chunks.", "quantifier": "all error patterns", "why_tests_cant": "all outcomes", "anchors": ["commpy/links.py:LinkModel.link_performance_full_metrics"]}
{"id": "C58", "title": "IDD decoder", "statement": "idd_decoder's decode leaves its a-priori argument unchanged and returns the decision on the last detector output after alternating detector and decoder with extrinsic information exchange; n_it = 0 raises UnboundLocalError.", "quantifier": "all detectors, decoders", "why_tests_cant": "higher-order", "anchors": ["commpy/links.py:idd_decoder"]}
{"id": "C59", "title": "802.11 generator polynomials", "statement": "The trellis of Wifi80211 is built from decimal 133 and 171, whose high bits do not fit the 7-bit width, and equals the trellis of generators 5 and 43 (1 + D^2 and 1 + D + D^3 + D^5); it is not the standard's 133/171 octal code, and it is catastrophic: an all-ones message of any length differs from the all-zero one in 5 coded bits.", "quantifier": "all states and inputs", "why_tests_cant": "exhaustive", "anchors": ["commpy/wifi80211.py:Wifi80211"]}
{"id": "C60", "title": "802.11 puncturing rates", "statement": "For each MCS, number of antennas and every chunk size the link model uses, the punctured stream has length chunk/rate, fills whole symbol vectors, and depuncturing restores the coded length with each transmitted value at its place; soft values with the right signs are decoded to the message (at least 5 bits). A float rate p/q with q <= 100 is recovered exactly. Schemes 0..9 have the modulation and rate of the documentation, and the puncturing vector keeps the coded bits the standard keeps. An array shorter than its expected coded length needs is decoded without depuncturing. MCS >= 10 raises IndexError.", "quantifier": "all MCS, chunk sizes", "why_tests_cant": "all sizes", "anchors": ["commpy/wifi80211.py:Wifi80211.link_performance", "commpy/links.py:LinkModel.link_performance_full_metrics"]}
{"id": "C61", "title": "Pulse-shaping filters sample the right functions", "statement": "The samples of rcosfilter and rrcosfilter are the values, at times (x - N/2)/Fs, of one continuous even function (the raised cosine resp. its root, singularities removed); the raised cosine is 1 at 0 and 0 at every other multiple of Ts, so that with a whole number of samples per symbol the symbol-spaced samples are exactly 1, 0, 0, ... gaussianfilter is positive, even and strictly decreasing away from 0; rectfilter is constant 1. Fs = 0 raises ZeroDivisionError.", "quantifier": "all N, roll-offs, symbol periods, sampling frequencies", "why_tests_cant": "real analysis", "anchors": ["commpy/filters.py:rcosfilter", "commpy/filters.py:rrcosfilter", "commpy/filters.py:gaussianfilter", "commpy/filters.py:rectfilter"]}
{"id": "C62", "title": "Frequency offset preserves magnitude", "statement": "add_frequency_offset multiplies sample i by exp(2 pi j d i / Fs): magnitudes and power are kept, offsets add, the opposite offset undoes it, and offsets differing by a multiple of Fs are indistinguishable. Fs = 0 raises ZeroDivisionError.", "quantifier": "all waveforms and offsets", "why_tests_cant": "real arithmetic", "anchors": ["commpy/impairments.py:add_frequency_offset"]}
{"id": "C63", "title": "OFDM calls on any complete symbol fail", "statement": "With NumPy 1.12 or later, ofdm_tx and ofdm_rx raise TypeError as soon as the input holds one OFDM symbol (nfft >= 1), because they use floats as array sizes and slice bounds; only inputs without a complete symbol return. nfft = 0 raises ValueError (ZeroDivisionError with cp_length = 0).", "quantifier": "all inputs, FFT sizes, numbers of carriers, prefix lengths", "why_tests_cant": "all input sizes", "anchors": ["commpy/modulation.py:ofdm_tx", "commpy/modulation.py:ofdm_rx"]}
{"id": "C64", "title": "Correlation matrices and specular component", "statement": "For |t| = |r| = 1 and nonnegative betas, the correlation matrices set by expo_corr_rayleigh_fading / expo_corr_rician_fading are Hermitian and positive semidefinite for every number of antennas; for |t| < 1 (accepted although documented as an error) they need not be. specular_compo returns entries of magnitude 1, so a mean of energy nb_rx*nb_tx, and raises ValueError for a negative distance.", "quantifier": "all antenna numbers, t, r, betas, angles, distances", "why_tests_cant": "all matrix sizes, real arithmetic", "anchors": ["commpy/channels.py:MIMOFlatChannel.expo_corr_rayleigh_fading", "commpy/channels.py:MIMOFlatChannel.expo_corr_rician_fading", "commpy/channels.py:MIMOFlatChannel.specular_compo"]}
{"id": "C65", "title": "Hard Viterbi decoding corrects errors up to half the distance", "statement": "Let d be a lower bound on the weight of the code streams that carry a nonzero symbol b within the window the decoder uses to decide symbol b. Whatever bits are flipped in a terminated code stream, as long as their number is less than d/2, viterbi_decode('hard') returns the message followed by the tail; likewise symbol by symbol, counting only the errors within the symbol's own window, also for unterminated streams. The number of errors in the whole stream is not what matters: symbol b is right whenever every stretch of the stream over which a wrong path can leave the right one around b has fewer than half as many errors as the weight of that path (ties with a path that has not returned to state 0 at the end of a terminated stream being won by the right path). For the (5,7) code at the default depth this means: every message of at least 5 bits is recovered, whatever its length, if no 26 consecutive bits of the stream carry more than 2 errors; for the 64-state code with octal generators 133 and 171, in either polynomial format: every message of at least 16 bits is recovered if no 94 consecutive bits carry more than 4 errors and the last 24 no more than 3. It is not true that fewer than half the minimum distance of the terminated code words of the block is enough.", "quantifier": "all codes (recursive or not), messages, error patterns, traceback depths and contents of uninitialised memory", "why_tests_cant": "all error patterns and message lengths", "anchors": ["commpy/channelcoding/convcode.py:viterbi_decode", "commpy/channelcoding/convcode.py:conv_encode"]}
{"id": "C66", "title": "Maximal-length PN sequences", "statement": "If no p < 2**order - 1 is a period of pnsequence's output (last tap 1, nonzero seed), then the output has period exactly 2**order - 1; every nonzero window of order bits occurs exactly once per period; every period holds 2**(order-1) ones; the antipodal autocorrelation over a period is -1 at every lag that is not a multiple of the period; and every other nonzero seed yields a shift of the same sequence.", "quantifier": "all orders, masks, seeds, lags and lengths", "why_tests_cant": "all orders and lags", "anchors": ["commpy/sequences.py:pnsequence"]}
{"id": "C67", "title": "Belief propagation is exact on cycle-free codes", "statement": "If the parity-check graph is a tree, every check has at least two variables, and the iterations suffice to cross the tree, then unless an earlier iteration already ended on a codeword: ldpc_bp_decode with 'SPA' returns for every bit the exact log-likelihood ratio obtained by summing over all codewords (no zero message, no saturation), hence bitwise maximum a posteriori decisions; with 'MSA' the returned LLRs are the differences of the least costs over the codewords with that bit 1 and 0, and a codeword cheaper than all others (the maximum-likelihood codeword) is returned.", "quantifier": "all tree codes, sizes, depths and real LLRs", "why_tests_cant": "all codes and LLR values; the specification sums over exponentially many codewords", "anchors": ["commpy/channelcoding/ldpc.py:ldpc_bp_decode"]}
{"id": "C68", "title": "Noise margins of demodulation", "statement": "If every received value is strictly closer to the transmitted point than to any other constellation point, hard demodulation of the noisy symbols returns the transmitted bits; this holds for noise of magnitude below half the minimum distance, below sin(pi/m) for PSKModem(m), and for noise with real and imaginary parts below 1 in magnitude for QAMModem(m). Soft outputs differ from the max-log approximation by at most ln(m/2), and for bounded noise and a small enough noise_var every soft output has the sign of the transmitted bit.", "quantifier": "all constellations, bit arrays, noise values and noise variances", "why_tests_cant": "real-valued noise", "anchors": ["commpy/modulation.py:Modem.demodulate", "commpy/modulation.py:PSKModem", "commpy/modulation.py:QAMModem"]}
{"id": "C69", "title": "End-to-end coded transmission", "statement": "Coded transmission over a bounded-noise channel is error free: for every 802.11 scheme, encode, puncture, modulate, noise of magnitude at most r on every symbol, soft demodulation, depuncturing and soft Viterbi decoding return the message, and Wifi80211.link_performance over a complex AWGN channel with such draws reports BER 0; with the default (real) SISOFlatChannel it raises TypeError instead. For a convolutional code of distance d with hard decisions, wrong decisions on fewer than d/(2 b) of the b-bit symbols are corrected; soft decisions decode under bounded noise. The soft outputs of demodulate must be negated before ldpc_bp_decode: then the coded blocks come back, without the negation every bit is wrong when all checks have even weight.", "quantifier": "all schemes, codes, constellations, messages, noise values within the bound, frame counts and SNR lists", "why_tests_cant": "composition of encoder, modem, channel and decoder over real-valued noise", "anchors": ["commpy/wifi80211.py:Wifi80211.link_performance", "commpy/links.py:LinkModel.link_performance_full_metrics", "commpy/channelcoding/convcode.py:viterbi_decode", "commpy/channelcoding/ldpc.py:ldpc_bp_decode", "commpy/modulation.py:Modem.demodulate"]}
{"id": "C70", "title": "Noise variance handed to the receiver", "statement": "After set_SNR_lin, noise_std**2 (the variance LinkModel hands to its receiver) is twice the mean power of the noise on complex channels and equal to it on real channels. Consequently, for two-point constellations, soft demodulation with it returns half of the channel's log-likelihood ratio on complex channels and twice the ratio on real ones.", "quantifier": "all SNRs, rates, energies, antenna counts and received values", "why_tests_cant": "real-valued; statistical quantity", "anchors": ["commpy/channels.py:_FlatChannel.set_SNR_lin", "commpy/channels.py:_FlatChannel.generate_noises", "commpy/links.py:LinkModel.link_performance", "commpy/modulation.py:Modem.demodulate"]}
{"id": "C71", "title": "LDPC decoder symmetry and scaling", "statement": "Inverting the received LLRs at the ones of a codeword inverts the word and the LLRs returned by ldpc_bp_decode exactly there (either algorithm, any iteration count), so the decoder's error behaviour does not depend on which codeword was sent, provided no LLR met is exactly zero. For min-sum, multiplying the LLRs by a positive factor (below the clipping level) multiplies the returned LLRs by it and leaves the word unchanged: no noise variance is needed.", "quantifier": "all codes, codewords, received LLRs, iteration counts, scale factors", "why_tests_cant": "all real vectors, unbounded iterations", "anchors": ["commpy/channelcoding/ldpc.py:ldpc_bp_decode"]}
{"id": "C72", "title": "LDPC error and erasure correction", "statement": "With the min-sum algorithm and checks of at least two variables: (a) if all received magnitudes are equal and no two variables share two checks, any number of errors up to half of the least column weight is corrected, with one or more iterations; (b) if some positions are received as erasures (LLR 0) and the others correctly, the codeword is recovered with as many iterations as erasures whenever the erased positions contain no stopping set; (c) the positions of an erased stopping set are never resolved: their returned LLR is 0 and their bit 0 for every iteration count.", "quantifier": "all codes, codewords, error and erasure patterns, iteration counts", "why_tests_cant": "exponentially many patterns, all codes", "anchors": ["commpy/channelcoding/ldpc.py:ldpc_bp_decode"]}
{"id": "C73", "title": "Noise margins of the MIMO detectors", "statement": "If the noise is shorter than half the distance from the sent noise-free signal H x to every other noise-free signal, mimo_ml and kbest with K >= m^(n-1) return x and best_first_detector (stacks that never overflow, square channel) returns values with the signs of the bits of x. If it is shorter than half of |H v| for every v whose last non-zero entry is a difference of two points, kbest returns x for every K >= 1, its soft values all have the sign of the sent bit, and best_first_detector (square channel) gives non-zero values with the signs of the bits of x whatever the sizes of its stacks.", "quantifier": "all channels, constellations, sent vectors, noises, K, QR factors", "why_tests_cant": "all real noise vectors and channels", "anchors": ["commpy/modulation.py:mimo_ml", "commpy/modulation.py:kbest", "commpy/modulation.py:best_first_detector", "commpy/modulation.py:max_log_approx"]}
{"id": "C74", "title": "OFDM with a truncating NumPy", "statement": "With the older NumPy releases that requirements.txt also admits (>= 1.9.2: float sizes and slice bounds are truncated), for an even number nsc < nfft of carriers and 1 <= cp_length <= nfft: ofdm_tx sends, for every column, nfft + cp_length samples of the sum of the carriers -nsc/2..-1, 1..nsc/2 with the column's entries as amplitudes; ofdm_rx inverts it; and a multipath channel with at most cp_length + 1 taps multiplies every row by the channel's frequency response at its carrier. Every symbol has 1/nfft times the energy of its column. cp_length = 0 sends every symbol twice, nsc = nfft loses a row, odd nsc raises ValueError.", "quantifier": "all symbol matrices, FFT sizes, carrier counts, prefix lengths, channel taps", "why_tests_cant": "all sizes and all complex amplitudes and taps", "anchors": ["commpy/modulation.py:ofdm_tx", "commpy/modulation.py:ofdm_rx", "requirements.txt"]}
{"id": "C75", "title": "Integer feedback with several inputs", "statement": "Trellis(memory, g_matrix, feedback: int) with k > 1 inputs: if a register other than the first has two or more cells (the ones between having one) the constructor raises ValueError, whatever the polynomials, and so it does if the first register is empty and there are at least three cells (IndexError if there is none); with feedback 0 and one cell in every register it builds exactly the trellis of the feed-forward encoder; otherwise the warning of the source is justified: with a longer first register the outputs read cells of the wrong register, and with a nonzero feedback the later registers are not the recursive ones.", "quantifier": "all memories, generator matrices, feedback integers, input counts", "why_tests_cant": "all shapes and polynomials", "anchors": ["commpy/channelcoding/convcode.py:Trellis.__init__"]}
{"id": "C76", "title": "Uncoded links: exact error counts", "statement": "LinkModel.link_performance and link_performance_full_metrics of a link without channel code report bit error rate 0 (and no bit or chunk errors in any transmission) at the first SNR, and nothing for the later ones, whenever the drawn noise is small against the distances of the drawn noise-free signals: SISO channel without fading and hard demodulation with every noise value below half the minimum distance; MIMO channel and mimo_ml, or kbest with K >= m^(nb_tx-1), with every noise vector shorter than half the distance between any two signals H x; kbest with any K >= 1 when it is shorter than half of |H v| for every v whose last non-zero entry is a difference of two points. link_performance then sends the least multiple of the chunk that reaches send_max. More generally so for every detector that finds the sent vectors. For BPSK over the SISO channel without fading, whatever the draws, the reported bit error rates are exact: at every simulated SNR the number of bits whose noise draw carries the symbol over the origin, divided by the number of bits sent, each transmission with its own draws.", "quantifier": "all constellations of distinct points, channels and correlation matrices, antenna counts, SNRs, message bits, noise and gain draws of every transmission, chunk sizes", "why_tests_cant": "all draws of a Monte Carlo simulation of any length", "anchors": ["commpy/links.py:LinkModel.link_performance", "commpy/links.py:LinkModel.link_performance_full_metrics", "commpy/channels.py:MIMOFlatChannel", "commpy/modulation.py:kbest", "commpy/modulation.py:mimo_ml", "commpy/modulation.py:Modem"]}
{"id": "C77", "title": "Error-free LDPC-coded MIMO links", "statement": "LinkModel.link_performance and link_performance_full_metrics of a link that modulates triang_ldpc_systematic_encode(bits) and decodes ldpc_bp_decode(llrs) (rates 1/2, 2/3, 3/4, 5/6, chunk a multiple of the message block, any algorithm and number of iterations, matrices computed beforehand or on first use) report bit error rate 0 at the first SNR, and nothing for the later ones, whenever the receiver's soft values have the signs of the coded bits; in particular with best_first_detector, stacks of any positive sizes and as many receive as transmit antennas, when every noise vector is shorter than half of |H v| for every v whose last non-zero entry is a difference of two points.", "quantifier": "all such codes, constellations of distinct points, channels, random draws, SNRs, chunk sizes and simulation lengths", "why_tests_cant": "an end-to-end statement over all random draws, codes and simulation lengths", "anchors": ["commpy/links.py:LinkModel", "commpy/channelcoding/ldpc.py:triang_ldpc_systematic_encode", "commpy/channelcoding/ldpc.py:ldpc_bp_decode", "commpy/modulation.py:best_first_detector", "commpy/channels.py:MIMOFlatChannel", "commpy/tests/test_links.py"]}
