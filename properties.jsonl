{"id": "C01", "title": "Multiplication is correctly rounded", "statement": "mul<wE,wFR>(x,y), when the result fraction is narrow enough that rounding can be needed, returns the product of the two decoded operands rounded to nearest-even at wFR fraction bits, flushed to a signed zero below the smallest exponent and to a signed infinity above the largest; zero*inf and NaN operands give NaN, inf*finite gives inf, zero*finite gives zero, and the sign is the xor of the signs. Nothing in the payload bits of non-normal operands can influence the decoded result, and no run-time assertion fires.", "quantifier": "all exponent widths wE>=2, all fraction widths wFX,wFY>=1 and wFR with 1<=wFR<wFX+wFY+1, and all bit patterns of both operands", "why_tests_cant": "the bit-pattern space for single precision is 2^68 per width combination, and the width combinations are unbounded; the repo's tests exhaust only tiny formats", "anchors": ["include/thls/tops/fp_flopoco_mul_v1.hpp:mul_v1", "include/thls/tops/fp_flopoco_primitives.hpp:mul"]}
{"id": "C02", "title": "Exact (widening) multiplication never loses the product", "statement": "mul<wE,wFR>(x,y) with wFR>=wFX+wFY+1 returns exactly x*y whenever its exponent is representable, infinity on exponent overflow and zero on exponent underflow.", "quantifier": "all widths with wFR>=wFX+wFY+1 and all operand bit patterns", "why_tests_cant": "underflow corner cases need specific exponent sums; widths unbounded", "anchors": ["include/thls/tops/fp_flopoco_mul_v1.hpp:mul_v1 (lines 98-117)"]}
{"id": "C03", "title": "Single-path addition is correctly rounded", "statement": "add_single(x,y) returns the sum of the decoded operands rounded to nearest-even at the result fraction width, with flush-to-zero underflow and overflow to infinity; exact cancellation gives +0, equal-signed zeros keep their sign, inf-inf and NaN operands give NaN; no assertion fires.", "quantifier": "all widths wE,wF for which the shift-count width is smaller than wE, all operand bit patterns (including garbage payloads of zero/inf/NaN)", "why_tests_cant": "2^68 operand pairs per format, alignment/sticky/cancellation corner cases, unbounded family of formats", "anchors": ["include/thls/tops/fp_flopoco_add_single_v1.hpp:add_single", "include/thls/tops/fp_flopoco_add_single_v2.hpp:add_single_v2"]}
{"id": "C04", "title": "Dual-path addition (the default add operator) is correctly rounded", "statement": "add(x,y) = add_dual returns the sum of the decoded operands rounded to nearest-even with the same special-case rules as C03.", "quantifier": "all exponent widths wE>3, all supported fraction widths and all operand bit patterns", "why_tests_cant": "as C03; in addition the close/far path split makes the failing region a thin set", "anchors": ["include/thls/tops/fp_flopoco_add_dual_v1.hpp:add_dual_v1", "include/thls/tops/fp_flopoco_primitives.hpp:add"]}
{"id": "C05", "title": "Addition never trips a run-time assertion for any legal width", "statement": "add and add_single return a value (no fw_uint assertion fires, no undefined shift) for every pair of widths the static_asserts admit.", "quantifier": "every legal (wE,wF) and every operand pair", "why_tests_cant": "tests instantiate a handful of widths; the widths that fail are isolated (wF=61 in the dual-path adder, wF+3 a power of two in the single-path adder)", "anchors": ["include/thls/tops/fp_flopoco_add_dual_v1.hpp:350", "include/thls/tops/fp_flopoco_add_single_v1.hpp:add_single"]}
{"id": "C06", "title": "Division is correctly rounded", "statement": "div(x,y) returns the quotient of the decoded operands rounded to nearest-even, with flush-to-zero and overflow to infinity; 0/0, inf/inf and NaN give NaN, finite/0 gives signed infinity, finite/inf gives signed zero.", "quantifier": "all exponent widths wE>=3 and fraction widths wF>=3, all operand bit patterns", "why_tests_cant": "SRT digit-selection tables fail on thin sets of operands (the Pentium FDIV bug); no test set covers all partial remainders", "anchors": ["include/thls/tops/fp_flopoco_div_v1.hpp:div_v1", "include/thls/tops/fp_flopoco_primitives.hpp:div"]}
{"id": "C07", "title": "Reciprocal", "statement": "inv(x) returns 1/x rounded to nearest-even for every x (1/0 = inf, 1/inf = 0), and never aborts.", "quantifier": "all widths, all operand bit patterns", "why_tests_cant": "claim over all widths and operands", "anchors": ["include/thls/tops/fp_flopoco_inv_v1.hpp:inv_v1"]}
{"id": "C08", "title": "Squaring agrees with multiplication", "statement": "square(x) returns the correctly rounded x*x, whose sign is never negative.", "quantifier": "all widths, all bit patterns", "why_tests_cant": "all inputs", "anchors": ["include/thls/tops/fp_flopoco_primitives.hpp:square"]}
{"id": "C09", "title": "Negation is exact and an involution", "statement": "neg(x) flips the sign of x and changes nothing else when the format is unchanged; neg(neg(x)) is bit-identical to x; the decoded value is the exact negation.", "quantifier": "all widths, all bit patterns", "why_tests_cant": "all bit patterns of all formats", "anchors": ["include/thls/tops/fp_flopoco_neg_v1.hpp:neg_v1"]}
{"id": "C10", "title": "Addition and multiplication are commutative; x+(-x) is +0; x-y mirrors y-x", "statement": "For every x,y the decoded results of add(x,y) and add(y,x) agree (likewise mul), add(x,neg x) is +0 for every finite x, and add(neg x, neg y) is the negation of add(x,y) except for the sign of a zero produced by cancellation.", "quantifier": "all widths, all bit patterns of both operands", "why_tests_cant": "pairs of inputs over unbounded formats; the adder swaps operands internally", "anchors": ["include/thls/tops/fp_flopoco_add_single_v1.hpp", "include/thls/tops/fp_flopoco_add_dual_v1.hpp", "include/thls/tops/fp_flopoco_mul_v1.hpp"]}
{"id": "C11", "title": "Comparison operators implement the IEEE order", "statement": "less_than, less_than_equal, greater_than, greater_than_equal, equal and not_equal return the order of the decoded real values, including infinities, with both zeros equal and NaN unordered, also for operands of different formats.", "quantifier": "all pairs of formats and all operand bit patterns", "why_tests_cant": "failing patterns are garbage payloads and mixed-format infinities; 2^64+ pairs", "anchors": ["include/thls/tops/fp_flopoco_ordering.hpp", "include/thls/tops/policy_flopoco.hpp"]}
{"id": "C12", "title": "Comparison operators are mutually consistent", "statement": "On non-NaN operands exactly one of less_than, equal, greater_than holds, less_than_equal is the disjunction of less_than and equal, not_equal is the complement of equal, greater_than(a,b)=less_than(b,a), and less_than is transitive.", "quantifier": "all formats, all pairs/triples of operands", "why_tests_cant": "triples of inputs: 2^102 for single precision", "anchors": ["include/thls/tops/fp_flopoco_ordering.hpp"]}
{"id": "C13", "title": "equals() is value identity", "statement": "x.equals(y) is true exactly when both decode to the same datum (same class, same sign, same value, all NaNs identified), so it is an equivalence relation that ignores payload bits of non-normals.", "quantifier": "all formats, all pairs of bit patterns", "why_tests_cant": "all pairs/triples", "anchors": ["include/thls/tops/fp_flopoco.hpp:equals (210-224)"]}
{"id": "C14", "title": "nextup is the least larger value", "statement": "nextup(x) is the smallest representable value strictly greater than x in the extended line -inf < normals < zero < normals < +inf; NaN stays NaN and +inf stays +inf.", "quantifier": "all formats, all x, and all candidate values in between", "why_tests_cant": "minimality quantifies over all intermediate values", "anchors": ["include/thls/tops/fp_flopoco.hpp:nextup"]}
{"id": "C15", "title": "nextdown is the greatest smaller value", "statement": "nextdown(x) is the largest representable value strictly smaller than x; nextdown(nextup(x)) = x for finite x.", "quantifier": "all formats, all x", "why_tests_cant": "as C14", "anchors": ["include/thls/tops/fp_flopoco.hpp:nextdown"]}
{"id": "C16", "title": "promote is lossless", "statement": "promote to a format with at least as many exponent and fraction bits decodes to exactly the same datum; likewise from flopoco to a strictly wider-exponent IEEE format.", "quantifier": "all source and destination widths with dst>=src, all bit patterns", "why_tests_cant": "width pairs unbounded", "anchors": ["include/thls/tops/fp_promote.hpp:promote"]}
{"id": "C17", "title": "Promoting IEEE to a wider IEEE preserves the datum", "statement": "promote from fp_ieee<E,F> to a wider fp_ieee decodes to the same datum, including infinities, NaN and zeros.", "quantifier": "all widths, all bit patterns", "why_tests_cant": "special encodings at every width", "anchors": ["include/thls/tops/fp_promote.hpp:promote_impl::to_ieee (67-76)"]}
{"id": "C18", "title": "convert is correctly rounded", "statement": "convert between flopoco formats returns the source datum rounded to nearest-even in the destination format, with flush-to-zero underflow and overflow to infinity; special values keep class and sign.", "quantifier": "all pairs of widths (wider, equal or narrower exponent, wider, equal or narrower fraction), all bit patterns", "why_tests_cant": "a four-parameter family of formats, rounding carry into the exponent and boundary exponents", "anchors": ["include/thls/tops/fp_convert.hpp:convert (134-191)", "include/thls/tops/fp_convert.hpp:convert_frac"]}
{"id": "C19", "title": "IEEE <-> flopoco same-format conversion round trips", "statement": "Converting an fp_ieee<E,F> to flopoco and back yields an IEEE value that equals() the original: normals and infinities are bit-identical, NaN stays NaN, denormals and zeros become zero of the same sign; flopoco to IEEE flushes the exponents IEEE reserves.", "quantifier": "all E,F and all IEEE bit patterns", "why_tests_cant": "2^32 patterns for binary32 and unbounded formats", "anchors": ["include/thls/tops/fp_convert.hpp (16-53)", "include/thls/tops/fp_ieee.hpp:get_flags"]}
{"id": "C20", "title": "IEEE wrapper operators are IEEE round-to-nearest operations with flush-to-zero", "statement": "For the IEEE-on-flopoco policy, a*b, a+b, a/b decode to the correctly rounded exact result of the decoded operands (denormal inputs read as zero), results below the minimum normal exponent flush to signed zero, above the maximum go to signed infinity, and special cases follow IEEE 754.", "quantifier": "all E,F in the supported range and all bit patterns", "why_tests_cant": "2^64 pairs for binary32", "anchors": ["include/thls/tops/policy_ieee_on_flopoco.hpp", "include/thls/tops/fp_convert.hpp"]}
{"id": "C21", "title": "fma rounds once", "statement": "fma(x,y,z) returns x*y+z rounded once to the result format.", "quantifier": "all widths, all triples", "why_tests_cant": "double-rounding failures are rare triples", "anchors": ["include/thls/tops/fp_flopoco_fma.hpp:fma"]}
{"id": "C22", "title": "dot2_pos_rndd is the exactly rounded-down two-term dot product", "statement": "dot2_pos_rndd(a0,b0,a1,b1) on positive normal inputs returns the largest representable value not exceeding a0*b0+a1*b1 (zero if below the smallest normal, infinity above the largest exponent).", "quantifier": "all widths WE, WF and all positive normal inputs", "why_tests_cant": "quadruples of inputs: 2^124 for single precision", "anchors": ["include/thls/tops/fp_flopoco_dot2_pos_rndd.hpp:dot2_pos_rndd"]}
{"id": "C23", "title": "dot4_pos_rndd is the rounded-down four-term dot product", "statement": "dot4_pos_rndd on positive normal inputs returns the largest representable value not exceeding the exact four-term dot product.", "quantifier": "all widths, all octuples of positive normals", "why_tests_cant": "octuples of inputs; lost carries of truncated terms only show up on thin sets", "anchors": ["include/thls/tops/fp_flopoco_dot4_pos_rndd.hpp:dot4_pos_rndd"]}
{"id": "C24", "title": "Bit-heap construction, merging, shifting and padding preserve the value", "statement": "A heap built from an fw_uint has that value; merging two heaps gives a heap whose value is the sum modulo the result width; shifting left by k multiplies by 2^k; padding does not change the value.", "quantifier": "all heap shapes (any number of columns of any height) and all bit contents", "why_tests_cant": "shapes and contents are unbounded", "anchors": ["include/thls/tops/bit_heap.hpp"]}
{"id": "C25", "title": "Bit-heap compression preserves the value and reaches height two", "statement": "Each compression step preserves the heap value modulo 2^width, does not increase the maximum height, and iterating terminates in a heap of height at most two; collapsing that heap returns the value as an fw_uint.", "quantifier": "all heap shapes and contents", "why_tests_cant": "termination and value preservation for unbounded shapes", "anchors": ["include/thls/tops/bit_heap.hpp:compress", "include/thls/tops/bit_heap.hpp:bit_heap_collapse"]}
{"id": "C26", "title": "Bit-heap multiplication computes the product", "statement": "bit_heap_mul<TILE>(a,b) produces a heap whose value is exactly a*b, for every tile size and operand widths.", "quantifier": "all tile sizes, all operand widths and values", "why_tests_cant": "three unbounded parameters", "anchors": ["include/thls/tops/bit_heap_mul.hpp"]}
{"id": "C27", "title": "Row-heap addition, compression and collapse preserve the sum", "statement": "operator+ of row heaps adds values, compress produces at most two rows with the same sum modulo 2^W, collapse returns the sum modulo 2^W.", "quantifier": "any number of rows, any width, all contents", "why_tests_cant": "unbounded rows and widths", "anchors": ["include/thls/tops/row_heap.hpp"]}
{"id": "C28", "title": "Compile-time LCG mod 2^32 skipping equals iterated stepping", "statement": "ct_rng skip_by<n> yields the state obtained by n single steps for n>=0, and for n<0 the state from which |n| steps lead back; skip_by<a> then skip_by<b> equals skip_by<a+b>.", "quantifier": "all seeds, all int distances", "why_tests_cant": "2^64 (seed, distance) pairs", "anchors": ["include/thls/tops/ct/ct_rng_lcg_mod_2y32.hpp"]}
{"id": "C29", "title": "Compile-time LCG mod p skipping equals iterated stepping", "statement": "The two-component multiplicative generator's skip multiplier for n>=0 is A^n mod M, and for n<0 its inverse; skipping forward n then back n is the identity.", "quantifier": "all states, all int distances for which -n is defined", "why_tests_cant": "2^64 pairs per component", "anchors": ["include/thls/tops/ct/ct_rng_lcg_mod_p.hpp"]}
{"id": "C30", "title": "Compile-time vector permute is a permutation, swap/read/write obey array laws", "statement": "ct_vec read-after-write laws hold for every in-range index, swap exchanges exactly two elements, and permute yields a rearrangement of the same elements for every random seed.", "quantifier": "all vector lengths/tree shapes, indices, seeds", "why_tests_cant": "unbounded lengths and seeds", "anchors": ["include/thls/tops/ct/ct_vec.hpp", "include/thls/tops/ct/ct_vec_permute.hpp"]}
{"id": "C31", "title": "Compile-time unique sorts and deduplicates", "statement": "unique of a vector contains exactly the distinct elements of the vector in strictly increasing order.", "quantifier": "all vectors", "why_tests_cant": "unbounded", "anchors": ["include/thls/tops/ct/ct_vec_unique.hpp"]}
{"id": "C32", "title": "LUT-optimised generator step is GF(2)-linear", "statement": "lut_opt step(s) XOR step(t) = step(s XOR t) and step(0)=0, and each output bit depends only on the state bits its taps name.", "quantifier": "all N,T,S and all states", "why_tests_cant": "2^N states", "anchors": ["include/thls/tops/lut_opt.hpp"]}
{"id": "C33", "title": "fw_uint slicing, concatenation and padding obey bit-vector laws", "statement": "get_bits<Hi,Lo> of a concatenation returns the part it covers, concat(take_msbs,take_lsbs) is the identity, pads and resizes keep the value, and every result is within its width.", "quantifier": "all widths and all values", "why_tests_cant": "unbounded widths", "anchors": ["include/thls/tops/fw_uint.hpp", "include/thls/tops/fw_uint_on_masked_uint.hpp"]}
{"id": "C34", "title": "fw_uint arithmetic and comparison agree with integers", "statement": "+,- wrap modulo 2^W, full_mul is the exact product, add_with_cin/add_sub/add_cin compute the wrapped sum, comparisons are integer comparisons, bitwise operators act bit by bit, and shifts with a distance in range multiply/divide by powers of two.", "quantifier": "all widths and values", "why_tests_cant": "unbounded widths", "anchors": ["include/thls/tops/fw_uint.hpp", "include/thls/tops/fw_uint_on_masked_uint.hpp"]}
{"id": "C35", "title": "fw_uint text and mpz conversion round trip", "statement": "Constructing an fw_uint from its own to_string, or from its to_mpz, gives back the same value; out-of-range integers are rejected.", "quantifier": "all widths and values", "why_tests_cant": "unbounded widths", "anchors": ["include/thls/tops/fw_uint_on_masked_uint.hpp (389-489,628-690)"]}
{"id": "C36", "title": "The 128-bit fallback multiplication is exact modulo 2^128", "statement": "The composite 128-bit integer used when the compiler has no native 128-bit type multiplies modulo 2^128.", "quantifier": "all 2^256 operand pairs", "why_tests_cant": "2^256 pairs", "anchors": ["include/thls/tops/fw_uint_on_masked_uint.hpp (61-185)"]}
{"id": "C37", "title": "fixval arithmetic stays in its static range", "statement": "For fixval operands the sum, product and right shift lie within the statically computed result range and equal the exact (truncated, for shifts) value.", "quantifier": "all shift/low/high parameters and all in-range values", "why_tests_cant": "five unbounded integer parameters", "anchors": ["include/thls/types/fixval.hpp"]}
{"id": "C38", "title": "Compile-time fixed-point comparison is correct", "statement": "ctFixCompare<eA,vA,eB,vB> is the sign of vA*2^eA - vB*2^eB.", "quantifier": "all exponents and 64-bit values for which the shifts do not overflow", "why_tests_cant": "four integer parameters", "anchors": ["include/thls/core/constfunc_helpers.hpp:ctFixCompare"]}
{"id": "C39", "title": "round_frac rounds to nearest even", "statement": "The fraction rounding helper used by the Newton reciprocal rounds to nearest, ties to even.", "quantifier": "all widths and values", "why_tests_cant": "unbounded widths", "anchors": ["include/thls/tops/fp_flopoco_inv_nr.hpp:round_frac"]}
{"id": "C40", "title": "Newton/table reciprocal handles exponent extremes", "statement": "inv_table_newton and inv_direct return zero when the reciprocal is below the smallest normal and never a huge value.", "quantifier": "all widths, all bit patterns", "why_tests_cant": "corner exponents at each width", "anchors": ["include/thls/tops/fp_flopoco_inv_nr.hpp:inv_table_newton", "include/thls/tops/fp_flopoco_inv_nr.hpp:inv_direct"]}
{"id": "C41", "title": "Conversion to double is exact", "statement": "to_double(x) returns the exact value when the format fits in a double, with the right sign.", "quantifier": "all formats with wE<=11, wF<=52, all bit patterns", "why_tests_cant": "all bit patterns", "anchors": ["include/thls/tops/fp_flopoco.hpp:to_double"]}
{"id": "C42", "title": "Alternative implementations agree", "statement": "add_single_v2, v3, v4, v5 agree with add_single_v1, and div_v2 agrees with div_v1, on every input.", "quantifier": "all shared widths, all operand pairs", "why_tests_cant": "equivalence over all inputs", "anchors": ["include/thls/tops/fp_flopoco_add_single_v2.hpp", "include/thls/tops/fp_flopoco_add_single_v3.hpp", "include/thls/tops/fp_flopoco_add_single_v4.hpp", "include/thls/tops/fp_flopoco_add_single_v5.hpp", "include/thls/tops/fp_flopoco_div_v2.hpp"]}
{"id": "C43", "title": "numeric_limits constants are extremal", "statement": "numeric_limits max()/lowest()/min() are the largest, most negative and smallest positive normal values of the format, infinity() and quiet_NaN() decode as such, digits, min_exponent, max_exponent and epsilon() are what the C++ standard defines for the format.", "quantifier": "all formats, and all values they are compared with", "why_tests_cant": "extremality quantifies over all values", "anchors": ["include/thls/tops/fp_flopoco.hpp:numeric_limits", "include/thls/tops/fp_ieee.hpp:numeric_limits"]}
{"id": "C44", "title": "Construction from an MPFR value and get() round trip", "statement": "Reading a flopoco value into a wide enough MPFR number and constructing a flopoco value from it gives an equal value; construction rounds correctly in range and saturates to zero/infinity out of range.", "quantifier": "all formats, all bit patterns", "why_tests_cant": "all patterns", "anchors": ["include/thls/tops/fp_flopoco.hpp (498-610)"]}
{"id": "C45", "title": "within_1ulp holds exactly for neighbours", "statement": "x.within_1ulp(y) is true exactly when x and y are equal or adjacent representable values.", "quantifier": "all formats, all pairs", "why_tests_cant": "all pairs", "anchors": ["include/thls/tops/fp_flopoco.hpp:within_1ulp (226-262)"]}
{"id": "C46", "title": "equals() on the IEEE type identifies exactly equal data and the two zeros", "statement": "For any two fp_ieee<E,F> values, equals() is 1 exactly when they decode to the same datum (denormals read as zero, any two NaNs the same) or both decode to a zero, and 0 otherwise.", "quantifier": "every exponent and fraction width, every pair of bit patterns", "why_tests_cant": "The pair space is exponential in the format and the format is a template parameter; NaN payloads, denormals and zero signs multiply the cases.", "anchors": ["include/thls/tops/fp_ieee.hpp: fp_ieee::equals"]}
{"id": "C47", "title": "Random fw_uint values are the generator's bits", "statement": "random_fw_uint<W> returns the top W bits of the ceil(W/32) 32-bit words it draws (first word uppermost), draws no more, and every W-bit value can occur.", "quantifier": "all widths, all word sequences", "why_tests_cant": "all widths and values", "anchors": ["include/thls/tops/fw_uint.hpp (703-742)"]}
{"id": "C48", "title": "A lut returns what it was initialised with", "statement": "lut<WD,WA>(init)(a) equals init(a) for every address a, and construction aborts if an entry does not fit WD bits.", "quantifier": "all widths, initialisers and addresses", "why_tests_cant": "arbitrary initialisers", "anchors": ["include/thls/tops/fw_uint.hpp (685-705)"]}
{"id": "C49", "title": "thls_ctLog2Ceil is the ceiling of the binary logarithm", "statement": "thls_ctLog2Ceil(x) is the least p with x <= 2^p.", "quantifier": "all x", "why_tests_cant": "unbounded", "anchors": ["include/thls/tops/fw_uint.hpp (131-141)"]}
{"id": "C50", "title": "The shipped compile-time LCG mod 2^32 has full period", "statement": "Stepping the generator made by make_quick_and_dirty returns to a state only after a multiple of 2^32 steps, so two different int skip distances from the same seed never give the same sample, and every 32-bit value is reached by some distance.", "quantifier": "all seeds, all int distances, all target values", "why_tests_cant": "needs 2^32 steps per seed and 2^32 seeds", "anchors": ["include/thls/tops/ct/ct_rng_lcg_mod_2y32.hpp:10-11", "include/thls/tops/ct/ct_rng_lcg_mod_2y32.hpp:skip_by"]}
{"id": "C51", "title": "The shipped prime-modulus generators have maximal period", "statement": "minstd_rand0 (modulus 2^31-1) and the generator modulo 2^32-5 return to a non-zero state only after a multiple of M-1 steps; two skip distances give the same sample only if they differ by a multiple of M-1; a non-zero state never becomes zero.", "quantifier": "all non-zero states, all int distances", "why_tests_cant": "needs M-1 steps from each of M-1 states", "anchors": ["include/thls/tops/ct/ct_rng_lcg_mod_p.hpp"]}
{"id": "C52", "title": "Compile-time vectors are created and traversed like arrays", "statement": "create<n> holds n copies, create_rotation<o,n> holds o, o+1, ... modulo n, for_each visits each element once in order with its index, and map_reduce with an associative reduction gives the left-to-right reduction whatever the shape of the tree.", "quantifier": "all lengths, offsets, tree shapes, functors", "why_tests_cant": "unbounded lengths, shapes and functors", "anchors": ["include/thls/tops/ct/ct_vec.hpp", "include/thls/tops/ct/ct_vec_create.hpp", "include/thls/tops/ct/ct_vec_algorithms.hpp"]}
{"id": "C53", "title": "Reciprocals are faithfully rounded", "statement": "inv_table_newton (and inv_faithful, which is the same function) and inv_direct return, for every normal input whose reciprocal is in range, one of the two numbers of the result format next to the true reciprocal (the reciprocal itself when it is a number of the format); inv_direct returns the nearest one.", "quantifier": "all exponent widths, all fraction widths the functions support, all bit patterns", "why_tests_cant": "the number of inputs grows exponentially with the width; the error analysis must cover every one", "anchors": ["include/thls/tops/fp_flopoco_inv_nr.hpp:inv_table_newton", "include/thls/tops/fp_flopoco_inv_nr.hpp:inv_direct", "include/thls/tops/fp_flopoco_primitives.hpp:inv_faithful"]}
{"id": "C54", "title": "Reference functions are correctly rounded", "statement": "Each reference function the tests compare the operators with (ref_mul, ref_add, ref_div, ref_fma, ref_square, ref_inv, ref_convert, ref_neg, ref_ldexp_const, and ref_mul and ref_add of fp_ieee) returns the exact result rounded once to nearest even, zero below and infinity above the range, for operands and results of any formats.", "quantifier": "all formats with wE<=30 and wF<=128, all bit patterns", "why_tests_cant": "the tests take these functions as the truth; nothing tests them", "anchors": ["include/thls/tops/fp_flopoco.hpp (615-976)", "include/thls/tops/fp_ieee.hpp (410-461)"]}
{"id": "C55", "title": "Construction from double", "statement": "fp_flopoco<wE,wF>(double) gives a number with the value of the double whenever the format has that value (in particular zeros, infinities and NaN keep their class and sign), and otherwise the double truncated to wF+1 bits; converting a number to double and back gives the number.", "quantifier": "all formats, all 2^64 doubles", "why_tests_cant": "all doubles for all formats", "anchors": ["include/thls/tops/fp_flopoco.hpp:fp_flopoco(double)", "include/thls/tops/fw_uint.hpp"]}
{"id": "C56", "title": "Approximate conversion to double is the nearest double", "statement": "to_double_approx of a number or of a fw_uint is the double nearest to its value, ties to even, and its value exactly when that is a double.", "quantifier": "all formats with wE<=30, wF<=128; all words; all bit patterns", "why_tests_cant": "ties and double rounding happen for single bit patterns of wide formats", "anchors": ["include/thls/tops/fp_flopoco.hpp:to_double_approx", "include/thls/tops/fw_uint.hpp:to_double_approx"]}
{"id": "C57", "title": "Arithmetic is real arithmetic rounded once", "statement": "On finite operands mul, div, add and conversion, their IEEE wrappers and the reference fused multiply-add return the real-number result rounded to nearest even at the result's precision (as Flocq defines rounding), zero below and infinity above the exponent range, hence with relative error at most 2^-(wF+1).", "quantifier": "all formats in the stated width ranges, all finite operands", "why_tests_cant": "statement about real numbers, all formats and operands", "anchors": ["include/thls/tops/fp_flopoco_mul_v1.hpp", "include/thls/tops/fp_flopoco_div_v1.hpp", "include/thls/tops/fp_flopoco_add_dual_v1.hpp", "include/thls/tops/fp_flopoco_convert.hpp:convert", "include/thls/tops/fp_ieee.hpp"]}
{"id": "C58", "title": "SoftFloat addition and multiplication are correctly rounded", "statement": "For float32_t and float64_t (and fp_softfloat32) a+b and a*b are the IEEE 754 result: the exact sum or product of the values rounded once to nearest even, with gradual underflow, overflow to infinity, and NaN for invalid operations. No operand pair makes the C code undefined.", "quantifier": "all 2^64 pairs of binary32 words and all 2^128 pairs of binary64 words, for every width of uint_fast32_t from 32 up", "why_tests_cant": "2^128 pairs; the rounding boundaries, subnormal results and cancellations are single points", "anchors": ["include/thls/tops/softfloat/src/f32_add.c", "include/thls/tops/softfloat/src/f32_mul.c", "include/thls/tops/softfloat/src/f64_add.c", "include/thls/tops/softfloat/src/f64_mul.c", "include/thls/tops/softfloat/src/s_roundPackToF32.c", "include/thls/tops/softfloat/src/s_addMagsF32.c", "include/thls/tops/softfloat/src/s_subMagsF32.c", "include/thls/tops/policy_softfloat.hpp", "include/thls/tops/fp_softfloat.hpp"]}
{"id": "C59", "title": "SoftFloat comparisons compare the values", "statement": "==, !=, <, >, <=, >= on float32_t and float64_t are the comparison of the represented values; zeros of either sign are equal, and a NaN compares false with everything under all of them except !=.", "quantifier": "all pairs of words", "why_tests_cant": "all pairs", "anchors": ["include/thls/tops/softfloat/src/f32_eq.c", "include/thls/tops/softfloat/src/f32_lt.c", "include/thls/tops/softfloat/src/f32_le.c", "include/thls/tops/softfloat/src/f64_eq.c", "include/thls/tops/softfloat/src/f64_lt.c", "include/thls/tops/softfloat/src/f64_le.c", "include/thls/tops/policy_softfloat.hpp"]}
{"id": "C60", "title": "SoftFloat division is correctly rounded", "statement": "For float32_t and float64_t a/b is the exact quotient rounded once to nearest even, with gradual underflow; division by zero gives infinity, 0/0 and inf/inf give NaN. The reciprocal approximation and the correction step never lose a case.", "quantifier": "all pairs of words", "why_tests_cant": "the error of the reciprocal approximation depends on every bit of the divisor; a missed correction shows only for single quotients close to a boundary", "anchors": ["include/thls/tops/softfloat/src/f32_div.c", "include/thls/tops/softfloat/src/f64_div.c", "include/thls/tops/softfloat/src/s_approxRecip32_1.c", "include/thls/tops/softfloat/src/s_approxRecip32_1.c"]}
{"id": "C61", "title": "SoftFloat arithmetic is real arithmetic rounded once", "statement": "On finite words the SoftFloat sum, product and quotient are the real-number results rounded to nearest even in the IEEE format (as Flocq defines it), infinity when the rounded result is 2^128 (2^1024) or more; the comparisons are those of the real numbers.", "quantifier": "all pairs of finite words", "why_tests_cant": "statement about real numbers, all pairs", "anchors": ["include/thls/tops/policy_softfloat.hpp", "include/thls/tops/fp_softfloat.hpp"]}
{"id": "C62", "title": "Limits of fp_softfloat32", "statement": "numeric_limits<fp_softfloat32>: max is the largest finite number and lowest its negation, min the smallest positive normal number, denorm_min the smallest positive number, epsilon the distance from 1 to the next number, round_error 0.5, infinity infinite and quiet_NaN a quiet NaN.", "quantifier": "all words (max, lowest, denorm_min are extremal over the type)", "why_tests_cant": "extremality is over the whole type", "anchors": ["include/thls/tops/fp_softfloat.hpp:numeric_limits"]}
{"id": "C63", "title": "The sum and dot product examples have a bounded error", "statement": "sum(n,data) and dot_product(n,a,b) return, for arrays of any length, the in-order accumulation with one rounding per operation. When the result is finite it differs from the exact sum by at most ((1+2^-24)^(n-1)-1) times the sum of magnitudes (n for the dot product) plus (2n+1)(1+2^-24)^n 2^-126 for flushed denormals and underflow. Inputs whose magnitudes stay below a stated bound never overflow, and no assertion fires.", "quantifier": "all array lengths, all 2^32 words in every position", "why_tests_cant": "unbounded lengths; the error depends on the whole sequence of partial sums", "anchors": ["src/examples/sum.cpp", "src/examples/dot_product.cpp", "include/thls/tops/policy_flopoco.hpp"]}
{"id": "C64", "title": "The benchmark kernels compute matrix products and product sums within a bounded error", "statement": "mat_mul with the full, round and SoftFloat traits returns in each entry the accumulated dot product of a row and a column, with relative error growing as (1+u)^N on the sum of magnitudes plus underflow terms; dot_product_par4 the balanced sum of four products likewise. Every shipped combination of accumulator and operand types runs.", "quantifier": "all sizes, all formats with the stated widths, all matrices of words", "why_tests_cant": "2^(32*2*N^2) inputs; the bound must hold for every cancellation pattern", "anchors": ["src/benchmarks/mat_mul/mat_mul_16x16.hpp", "src/benchmarks/mat_mul/sweep_types.hpp", "src/benchmarks/dot_product/dot_product_par4_tl.hpp", "src/benchmarks/dot_product/sweep_types.hpp"]}
{"id": "C65", "title": "The operator test accepts exactly the right operators", "statement": "Given a list of inputs without NaN, the test program's comparison of a type's operators with its reference reports no failure if and only if ==, !=, <, <=, >, >=, *, + and / are right on every pair of the inputs (up to the sign of a zero): it neither misses a wrong result nor blames a right one. The library's own operators pass on every such list. Correct operators on a list with NaN pass too.", "quantifier": "all operator implementations, all lists of words, all formats with wE<=30 and wF<=128 (FloPoCo and IEEE wrapper), float and double", "why_tests_cant": "a test program cannot test itself against all wrong operators and all inputs", "anchors": ["include/thls/tops/policy_test.hpp", "include/thls/tops/policy_flopoco.hpp", "include/thls/tops/policy_ieee_on_flopoco.hpp", "include/thls/tops/policy_native.hpp", "include/thls/tops/policy_softfloat.hpp"]}
{"id": "C66", "title": "The self test passes for every format and every random draw", "statement": "test_arithmetic with the library's operators builds its inputs without an exception and reports no failure, for every format, requested number of inputs, and sequence of random numbers.", "quantifier": "all formats, all counts, all random sequences", "why_tests_cant": "each run draws one sequence for one format", "anchors": ["include/thls/tops/policy_test.hpp"]}
{"id": "C67", "title": "The synthesis back ends compute what the software back end computes", "statement": "Every operation on fixed-width integers (arithmetic, bitwise, comparison, shift, slice, concatenation, conversion, text, and the helpers built on them) gives the same result whether fw_uint is built for software or on the synthesis tools' ac_int or ap_uint, at every width.", "quantifier": "all widths, all values, both synthesis back ends", "why_tests_cant": "the tests run one back end at a time, at a few widths; a disagreement shows up only as hardware that differs from the simulation", "anchors": ["include/thls/tops/fw_uint_on_ac_uint.hpp: fw_uint, get_bits, concat, checked_cast, square", "include/thls/tops/fw_uint_on_ap_uint.hpp: fw_uint, get_bits, concat, checked_cast, square", "include/thls/tops/fw_uint.hpp: take_lsbs, zpad_hi, resize, add_sub, concat_array"]}
{"id": "C68", "title": "Multi-operand adders and the heap multiplier give the sum and the product", "statement": "Adding four or eight numbers through a chain of sums, through a compressed bit heap or through a compressed row heap gives the sum modulo the width; compressing and collapsing a product's bit heap gives the product, and the multiplier program prints equal numbers.", "quantifier": "all operands, all widths from one bit, all tile sizes, all operand widths", "why_tests_cant": "the programs are compiled for a few widths and never compared over all operands; carries across a 32 or 64 bit heap cannot be enumerated", "anchors": ["src/fp_ops/mp/compressor/add32x4_compressor.cpp", "src/fp_ops/mp/compressor/add32x8_row_heap.cpp", "src/fp_ops/mp/compressor/add64x8_compressor.cpp", "src/fp_ops/test_bit_heap_mul.cpp: main"]}
{"id": "C69", "title": "The random test source delivers exactly the enabled classes", "statement": "The random source of floating-point test values delivers only values of enabled classes, each in proportion to its weight, with exponent and fraction taken from the generator, and can deliver every word of every enabled class.", "quantifier": "all generator outputs, all sets of disabled classes, all formats up to 128-bit fields", "why_tests_cant": "a class boundary hit with probability 2^-53 is never sampled, yet a test relying on the exclusion aborts when it is", "anchors": ["include/thls/tops/fp_flopoco.hpp: fp_flopoco_random_test_source, disable_class, operator()"]}
{"id": "C70", "title": "The dot products' reference functions are right and their self-tests accept", "statement": "The reference functions of the two- and four-term dot products of positive numbers return the exact value rounded down once; the random self-tests of both dot products pass for every number of rounds and generator, and accept exactly when every result they look at is right; the exhaustive self-tests visit every combination of positive numbers and accept.", "quantifier": "all formats, all positive normal operands, all generator outputs, all numbers of rounds", "why_tests_cant": "the reference is what the tests compare with: nothing checks it, and a double rounding or a range error in it shows only for particular operands", "anchors": ["include/thls/tops/fp_flopoco_dot2_pos_rndd.hpp: dot2_pos_rndd_ref, test_dot2_pos_rndd, exhaust_dot2_pos_rndd", "include/thls/tops/fp_flopoco_dot4_pos_rndd.hpp: dot4_pos_rndd_ref, test_dot4_pos_rndd, exhaust_dot4_pos_rndd"]}
{"id": "C71", "title": "The test programs accept exactly the right operations", "statement": "Each test program makes valid operands whatever its generator draws, accepts an operation if and only if its results on those operands are the specified ones (or next to them, where the program says so), rejects one that returns NaN for numbers, accepts the library's own operations, reads no memory out of bounds, and does not accept an operation that is wrong on some operand.", "quantifier": "all formats with at least four exponent bits, all operations, all sequences of draws, all numbers of operands", "why_tests_cant": "the tests are random and finite: no run says what they would accept, nor that they pass for every draw", "anchors": ["include/thls/tops/make_input.hpp:make_input", "src/fp_ops/test_mul.cpp", "src/fp_ops/test_div.cpp", "src/fp_ops/test_add_dual.cpp", "src/fp_ops/test_add_single.cpp", "src/fp_ops/test_fp_convert.cpp", "src/fp_ops/test_fma.cpp", "src/fp_ops/test_inv_nr.cpp"]}
{"id": "C72", "title": "The composite kernels compute sums, dot products and matrix products", "statement": "The kernels that sum an array, form a dot product (one or two products a turn), add four numbers in a tree and multiply matrices return what their names say: accumulated with one rounding per operation, within the standard error bound of the exact result, reading only inside their arrays.", "quantifier": "all array lengths and matrix sizes, all element values, all formats for which the adder is right", "why_tests_cant": "loops of unbounded length over all values; the kernels have no tests", "anchors": ["src/fp_ops/mp/fp/composite/fp_sum_array.cpp", "src/fp_ops/mp/fp/composite/fp_dot_product.cpp:fp_dot_product", "src/fp_ops/mp/fp/composite/fp_dot_product_u2.cpp:fp_dot_product_u2", "src/fp_ops/mp/fp/composite/fp_mmm.cpp:mmm", "src/fp_ops/mp/fp/composite/fp_mmm_u2.cpp:mmm", "src/fp_ops/mp/fp/composite/fp_sum_vec4_balanced.cpp"]}
{"id": "C73", "title": "Software and hardware builds compute the same words", "statement": "Multiplication, addition, fused multiply-add, the dot products, division, comparison, conversion and negation return the same encoded word, the correctly rounded one of their own properties, whichever integer type the library is built on: the machine words of the software build, the vendor type ap_uint, or ac_int.", "quantifier": "all formats, all operand encodings, all three back ends of the fixed-width integer class", "why_tests_cant": "the hardware back ends run only inside vendor tools, and agreement is over all encodings of all formats", "anchors": ["include/thls/tops/fw_uint_on_masked_uint.hpp", "include/thls/tops/fw_uint_on_ap_uint.hpp", "include/thls/tops/fw_uint_on_ac_uint.hpp", "include/thls/tops/fp_flopoco_mul_v1.hpp:mul_v1", "include/thls/tops/fp_flopoco_add_single_v1.hpp:add_single", "include/thls/tops/fp_flopoco_add_dual_v1.hpp:add_dual", "include/thls/tops/fp_flopoco_fma.hpp", "include/thls/tops/fp_flopoco_dot2_pos_rndd.hpp:dot2_pos_rndd", "include/thls/tops/fp_flopoco_dot4_pos_rndd.hpp:dot4_pos_rndd", "include/thls/tops/fp_flopoco_div_v1.hpp:div_v1", "include/thls/tops/fp_flopoco_ordering.hpp", "include/thls/tops/fp_convert.hpp:convert", "include/thls/tops/fp_flopoco_neg_v1.hpp:neg_v1"]}
{"id": "C74", "title": "The operations respect the order of their operands", "statement": "If x <= y then x+z <= y+z; x*z <= y*z for z >= 0 and x*z >= y*z for z <= 0; x/z <= y/z for z > 0; z/y <= z/x for 0 < x and z >= 0; converting, promoting and nextup keep the order, negation reverses it, and a fused multiply-add keeps the order of its addend and of a factor; unless a result is not a number. In particular the single-path adder keeps the order although it misrounds.", "quantifier": "all formats the operators accept, all encodings x <= y and z", "why_tests_cant": "ranges over triples of encodings of every format, including overflow, underflow and ties", "anchors": ["include/thls/tops/fp_flopoco_add_dual_v1.hpp:add_dual", "include/thls/tops/fp_flopoco_add_single_v1.hpp:add_single", "include/thls/tops/fp_flopoco_mul_v1.hpp:mul_v1", "include/thls/tops/fp_flopoco_div_v1.hpp:div_v1", "include/thls/tops/fp_convert.hpp:convert", "include/thls/tops/fp_flopoco_fma.hpp", "include/thls/tops/fp_flopoco_ordering.hpp", "include/thls/tops/fp_flopoco.hpp:nextup", "include/thls/tops/fp_ieee.hpp"]}
{"id": "C75", "title": "Results the format can hold are exact", "statement": "When the exact sum, product, quotient, conversion or fused multiply-add of finite operands is a number of the result format, that number is what the operation returns, as its unique encoding if it is not zero. In particular x+0, x*1 and x/1 give back the encoding x, x/x gives one, x*(-1) gives neg(x), multiplying or dividing by a power of two and doubling are exact unless the result leaves the range, numbers within a factor of two of each other subtract exactly or to zero, and x-y is zero only if x = y unless the operands are near the bottom of the range.", "quantifier": "all formats the operators accept, all finite encodings", "why_tests_cant": "ranges over pairs and triples of encodings of every format", "anchors": ["include/thls/tops/fp_flopoco_add_dual_v1.hpp:add_dual", "include/thls/tops/fp_flopoco_mul_v1.hpp:mul_v1", "include/thls/tops/fp_flopoco_div_v1.hpp:div_v1", "include/thls/tops/fp_flopoco_neg_v1.hpp:neg_v1", "include/thls/tops/fp_flopoco_fma.hpp:fma", "include/thls/tops/fp_convert.hpp:convert", "include/thls/tops/fp_ieee.hpp"]}
{"id": "C76", "title": "Rounding errors can be recovered exactly", "statement": "The classical error-free transformations work with the library's operators: Fast2Sum and 2Sum (add and neg) return the rounded sum and a second number such that the two add up to x+y exactly, and 2Product (mul, neg and fma) returns the rounded product and a second number such that the two add up to x*y exactly, as long as nothing overflows or falls near the bottom of the range.", "quantifier": "all formats the operators accept, all finite operands within the stated magnitude bounds", "why_tests_cant": "ranges over pairs of encodings of every format, through sequences of up to eight roundings", "anchors": ["include/thls/tops/fp_flopoco_add_dual_v1.hpp:add_dual", "include/thls/tops/fp_flopoco_mul_v1.hpp:mul_v1", "include/thls/tops/fp_flopoco_div_v1.hpp:div_v1", "include/thls/tops/fp_flopoco_neg_v1.hpp:neg_v1", "include/thls/tops/fp_flopoco_fma.hpp:fma"]}
{"id": "C77", "title": "SoftFloat arithmetic respects the order and loses no difference", "statement": "For float32_t and float64_t: a <= b gives a+c <= b+c, a*c <= b*c for c >= 0, a*c >= b*c for c <= 0 and a/c <= b/c for c > 0, by the library's own <=, unless a result is a NaN. A sum, product or quotient of finite numbers that the format can hold, subnormal numbers included, is returned exactly and, if not zero, as its only word. Numbers within a factor of two of each other subtract exactly; a-b compares equal to zero exactly when a == b; Fast2Sum and 2Sum return the exact rounding error whenever the sum is finite, with no lower bound on the operands; for 2Sum the second operand must not be the largest number or its negative, where the algorithm can return a NaN.", "quantifier": "all words of both formats, infinities and subnormal numbers included where the statement does not say finite", "why_tests_cant": "pairs and triples of 32- and 64-bit words cannot be enumerated, and monotonicity relates two runs", "anchors": ["include/thls/tops/softfloat/src/f32_add.c", "include/thls/tops/softfloat/src/f32_mul.c", "include/thls/tops/softfloat/src/f32_div.c", "include/thls/tops/softfloat/src/f64_add.c", "include/thls/tops/softfloat/src/f64_mul.c", "include/thls/tops/softfloat/src/f64_div.c", "include/thls/tops/fp_softfloat.hpp"]}
{"id": "C78", "title": "Switching between the SoftFloat and the IEEE-on-flopoco policy changes only subnormal numbers", "statement": "In binary32 and binary64, +, * and / of the ieee_on_flopoco policy return the word SoftFloat returns on the same operands with subnormal operands replaced by zeros of their sign, except that a NaN may be another NaN, a subnormal result is the zero of its sign, and the smallest normal number may be returned as that zero. All six comparisons give the same answers.", "quantifier": "all pairs of 32-bit and of 64-bit words", "why_tests_cant": "2^64 and 2^128 pairs of words, with a difference at a single result value", "anchors": ["include/thls/tops/policy_ieee_on_flopoco.hpp:fp_ieee_on_flopoco_wrapper", "include/thls/tops/policy_softfloat.hpp", "include/thls/tops/softfloat/src/f32_add.c", "include/thls/tops/softfloat/src/f64_add.c", "include/thls/tops/fp_convert.hpp"]}
{"id": "C79", "title": "The self-tests of the number formats accept the library whatever they draw", "statement": "The programs test_fp_flopoco and test_fp_ieee leave with exit code 0 for every sequence of random numbers their generators may return, in every format they test, so that a failure means a defect of the library.", "quantifier": "all sequences of draws from [0,1), all formats", "why_tests_cant": "a run of the program sees one sequence of draws; the claim is about every seed and every standard library's generator", "anchors": ["src/fp_ops/test_fp_flopoco.cpp:test1,test2,test_single,main", "src/fp_ops/test_fp_ieee.cpp:test1,test2,test_single,main", "include/thls/tops/fp_flopoco.hpp:fp_flopoco(mpfr_t,bool),get,to_double,ref_mul", "include/thls/tops/fp_ieee.hpp:fp_ieee(mpfr_t,bool),get,ref_mul"]}
{"id": "C80", "title": "Every generated arithmetic core is right", "statement": "Each of the cores the build generates for synthesis (multiplier, dividers, single-path and dual-path adders, their IEEE versions and the mixed-precision ones, for exponents of 4 to 13 bits and fractions of 4 to 112 bits) delivers, for all operands, the exact result rounded once to its format.", "quantifier": "all generated cores, all operand words", "why_tests_cant": "1090 formats per core and up to 2^256 operand pairs each; the cores are never run, only synthesised", "anchors": ["src/fp_ops/mp/fp/primitive/CMakeLists.txt:fp_primitive_add_instance,fp_primitive_ratio_add_instance", "src/fp_ops/mp/fp/primitive/fp_{mul,add,div}_flopoco*_EEE_FFF.cpp", "src/fp_ops/mp/fp/primitive/fp_{mul,add,div}_ieee_on_flopoco_EEE_FFF.cpp", "src/fp_ops/mp/fp/primitive/fp_{mul_flopoco_ratio,add_flopoco_single_ratio}_EEE1_FFF1_EEE2_FFF2.cpp"]}
{"id": "C81", "title": "SoftFloat results are determined to the bit, NaNs included", "statement": "Every word the SoftFloat addition, multiplication and division return is determined by the operands: a NaN result is quiet; with no NaN operand it is the default NaN; with one NaN operand it is that operand, made quiet, sign and payload kept; with two it is chosen by a rule that does not depend on their order. Addition and multiplication are therefore commutative bit for bit.", "quantifier": "all pairs of 32-bit and of 64-bit words, all widths of uint_fast32_t from 32 on", "why_tests_cant": "2^64 and 2^128 operand pairs; a NaN payload lost or a NaN left signalling shows only for single words, and tests compare NaNs as equal", "anchors": ["include/thls/tops/softfloat/src/s_propagateNaNF32UI.c:softfloat_propagateNaNF32UI", "include/thls/tops/softfloat/src/s_propagateNaNF64UI.c:softfloat_propagateNaNF64UI", "include/thls/tops/softfloat/src/specialize.h:defaultNaNF32UI,softfloat_isSigNaNF32UI", "include/thls/tops/softfloat/src/f32_{add,mul,div}.c", "include/thls/tops/softfloat/src/f64_{add,mul,div}.c", "include/thls/tops/fp_softfloat.hpp"]}
{"id": "C82", "title": "Computing in a wider format and converting back changes nothing", "statement": "If both operands are converted to a format with more exponent bits and at least 2F+2 fraction bits, added, multiplied or divided there, and the result is converted back, the result is the same datum as that of the operation in the narrow format, although it was rounded twice; overflow, underflow, zeros, infinities and NaNs included. One fraction bit less is not enough for sums.", "quantifier": "all pairs of formats with enough bits in the wider one, all operand words", "why_tests_cant": "double rounding goes wrong only for results next to a half-way point, a vanishing part of the operand pairs, and the formats are unbounded in number", "anchors": ["include/thls/tops/fp_flopoco_convert.hpp:convert", "include/thls/tops/fp_flopoco_mul_v1.hpp", "include/thls/tops/fp_flopoco_div_v1.hpp", "include/thls/tops/fp_flopoco_add_dual_v1.hpp"]}
{"id": "C83", "title": "SoftFloat's integer primitives do what their header documents", "statement": "The leading zero counts (table, 16, 32 and 64 bits), the shifts that jam the bits shifted off into the last bit or into an extra word, the shifts, comparisons, sums, differences and products of 128-bit integers held in two words, the 64 by 64 bit product and the approximate reciprocal return what the comments in primitives.h say, for every operand and every permitted distance; the portable versions agree with the ones the library selects instead.", "quantifier": "all words, all distances the comments permit, every width of uint_fast32_t of at least 32 bits", "why_tests_cant": "the operands are pairs of 64-bit words", "anchors": ["include/thls/tops/softfloat/src/primitives.h", "include/thls/tops/softfloat/src/s_countLeadingZeros32.c", "include/thls/tops/softfloat/src/s_countLeadingZeros64.c", "include/thls/tops/softfloat/src/s_mul64To128M.c", "include/thls/tops/softfloat/src/s_shortShiftRightJam64.c", "include/thls/tops/softfloat/src/s_shiftRightJam32.c", "include/thls/tops/softfloat/src/s_approxRecip32_1.c", "include/thls/tops/softfloat/softfloat_inline.hpp"]}
{"id": "C84", "title": "The settings of SoftFloat do not change a result", "statement": "f32_mul, f32_div, f64_mul and f64_div return the same word, NaNs included, whichever of SOFTFLOAT_FAST_INT64 and SOFTFLOAT_FAST_DIV64TO32 is defined, with the portable or the selected 128-bit product, and with the multiplication f32_mul had before it was optimised; f64_div returns the same word with any approximate reciprocal that meets its documentation.", "quantifier": "all operand words, all settings, every width of uint_fast32_t of at least 32 bits, every reciprocal within the documented error", "why_tests_cant": "2^64 and 2^128 operand pairs for each setting; the intermediate significands differ", "anchors": ["include/thls/tops/softfloat/src/f32_mul.c", "include/thls/tops/softfloat/src/f32_div.c", "include/thls/tops/softfloat/src/f64_mul.c", "include/thls/tops/softfloat/src/f64_div.c", "include/thls/tops/softfloat/src/platform.h:SOFTFLOAT_FAST_DIV64TO32", "include/thls/tops/softfloat/src/primitives.h:softfloat_approxRecip32_1", "include/thls/tops/softfloat/src/s_mul64To128M.c"]}
{"id": "C85", "title": "The boolean members of numeric_limits describe the type", "statement": "is_signed, is_integer, is_exact, has_infinity, has_quiet_NaN, has_denorm and is_bounded are true exactly when the set of values of the type has the property the C++ standard names, and a type claiming is_iec559 has infinities, quiet and signalling NaNs and says so.", "quantifier": "all formats; all values of the type (has no subnormals, is not closed under addition, is finite)", "why_tests_cant": "each flag is a statement about the whole set of values of every format", "anchors": ["include/thls/tops/fp_flopoco.hpp:numeric_limits", "include/thls/tops/fp_ieee.hpp:numeric_limits", "include/thls/tops/fp_softfloat.hpp:numeric_limits", "include/thls/tops/policy_flopoco.hpp:numeric_limits", "include/thls/tops/policy_ieee_on_flopoco.hpp:numeric_limits", "include/thls/tops/policy_softfloat.hpp:numeric_limits"]}
{"id": "C86", "title": "Adding many numbers through a heap gives their sum, whatever the order and the widths", "statement": "Numbers of any widths merged into a bit heap or a row heap, in any order and with any grouping, give a heap whose value, before and after compression and at the output of the final adder, is the exact sum modulo two to the widest width. The library's own test programs for the heaps find no mismatch, with and without QUICK; a program that finds one fails.", "quantifier": "all lists of operands with their widths and all ways to group the additions; all runs of the two programs", "why_tests_cant": "groupings, widths and values are unbounded", "anchors": ["include/thls/tops/bit_heap.hpp:merge_bit_heaps", "include/thls/tops/bit_heap.hpp:compress", "include/thls/tops/bit_heap.hpp:bit_heap_collapse", "include/thls/tops/row_heap.hpp", "src/fp_ops/test_bit_heap.cpp", "src/fp_ops/test_row_heap.cpp"]}
{"id": "C87", "title": "Arithmetic on integers of known range never overflows once it compiles", "statement": "An expression of constants, ranged variables, sums, products and constant shifts over intval compiles exactly when all its intermediate ranges fit an int64_t; if it compiles and the inputs are within their ranges, it stops at no assertion and returns the exact integer, within the range in its type. An input outside its range is rejected. callN passes the elements of an array in order, each once.", "quantifier": "all expressions of any depth, all ranges, all inputs; all array lengths", "why_tests_cant": "expressions, ranges and inputs are unbounded", "anchors": ["include/thls/types/intval.hpp:constant_intval", "include/thls/types/intval.hpp:make_intval", "include/thls/types/fixval.hpp", "include/thls/core/base_ops.hpp:shift_right_const", "include/thls/tops/function_utils.hpp:callN"]}
{"id": "C88", "title": "SoftFloat rounds correctly in every rounding mode", "statement": "With softfloat_roundingMode set to any of near_even, minMag, min, max, near_maxMag, or odd where SOFTFLOAT_ROUND_ODD is defined, f32_add, f32_mul, f32_div, f64_add, f64_mul and f64_div return the exact result rounded once in that direction, subnormal results, overflow and the sign of an exact zero sum included. In near_even they are the delivered functions word for word. Where the macro is not defined, as here, odd is accepted and truncates.", "quantifier": "all rounding modes, all pairs of words, every width of uint_fast32_t from 32 up", "why_tests_cant": "2^64 and 2^128 pairs of words in six modes; directed modes differ only on inexact results, at overflow and at exact zeros", "anchors": ["include/thls/tops/softfloat/src/softfloat.h:softfloat_roundingMode", "include/thls/tops/softfloat/src/s_roundPackToF32.c", "include/thls/tops/softfloat/src/s_roundPackToF64.c", "include/thls/tops/softfloat/src/s_subMagsF32.c", "include/thls/tops/softfloat/src/s_subMagsF64.c"]}
{"id": "C89", "title": "Reference square root is correctly rounded", "statement": "ref_sqrt returns the square root of a positive number rounded once to nearest even into the result format; with the exponent width of the operand it never overflows or underflows; the root of an exact square is exact; the root of a zero is that zero, of +inf is +inf, and of a negative number, -inf or NaN is NaN.", "quantifier": "all operand and result formats with wE<=30 and wF<=128, all bit patterns", "why_tests_cant": "it is the truth tests compare with, over all bit patterns of every pair of formats", "anchors": ["include/thls/tops/fp_flopoco.hpp (ref_sqrt, 931-949)"]}
{"id": "C90", "title": "Equality class orders values, and nextafter steps to the neighbour", "statement": "get_equality_class numbers NaN, -inf, negative numbers, zeros, positive numbers and +inf from 0 to 5, so that of two values with different classes (neither NaN) the one with the lower class is the smaller, and equal values have equal classes. nextafter towards +inf or -inf gives the adjacent value in that direction, and any other target is refused.", "quantifier": "all formats, all bit patterns, all targets", "why_tests_cant": "all bit patterns of every format", "anchors": ["include/thls/tops/fp_flopoco.hpp (get_equality_class, 138-155)", "include/thls/tops/fp_flopoco.hpp (nextafter, 479-496)"]}
{"id": "C91", "title": "Directed rounding encloses the exact result, and interval arithmetic on it is sound", "statement": "For finite operands (a nonzero divisor), f32_add, f32_mul, f32_div and their f64 counterparts under round-min and round-max return two values around the exact result with no finite value of the format strictly between either and the result; every other supported rounding mode returns one of these two values. Hence an interval sum computed with the lower ends rounded down and the upper ends rounded up contains every sum of points, and likewise for products and for quotients by an interval without zero, over the four pairs of end points.", "quantifier": "all pairs of finite words, all real points of all intervals, all rounding modes, every width of uint_fast32_t from 32 up", "why_tests_cant": "it speaks of all real numbers between end points and of all other words of the format", "anchors": ["include/thls/tops/softfloat/src/softfloat.h:softfloat_roundingMode", "include/thls/tops/softfloat/src/s_roundPackToF32.c", "include/thls/tops/softfloat/src/s_roundPackToF64.c", "include/thls/tops/softfloat/src/s_subMagsF32.c", "include/thls/tops/softfloat/src/s_subMagsF64.c"]}
{"id": "C92", "title": "The exception flags requested by the SoftFloat operations are those of IEEE 754", "statement": "f32_add, f32_mul, f32_div and their f64 counterparts call softfloat_raiseFlags with invalid exactly for a signalling NaN operand or Inf-Inf, 0*Inf, 0/0, Inf/Inf; with infinite exactly for a nonzero number divided by zero; with overflow exactly when the exact result rounded with an unbounded exponent is too large for the format; with underflow exactly when that rounding is below the least normal number and the delivered result is not exact, hence never for a sum. Equality requests invalid only for signalling NaNs, the order comparisons for every NaN. Inexact is requested only together with overflow: a rounded result alone requests nothing, which is not what IEEE 754 asks.", "quantifier": "all pairs of words of both formats, every width of uint_fast32_t from 32 up", "why_tests_cant": "overflow and underflow are decided by the exact real result, for 2^128 pairs of words", "anchors": ["include/thls/tops/softfloat/src/s_roundPackToF32.c: softfloat_roundPackToF32", "include/thls/tops/softfloat/src/s_roundPackToF64.c: softfloat_roundPackToF64", "include/thls/tops/softfloat/src: f32_add, f32_mul, f32_div, f64_add, f64_mul, f64_div, f32_eq, f32_lt, f32_le and f64 counterparts", "include/thls/tops/softfloat/src/softfloat.h: softfloat_flag_*, softfloat_raiseFlags"]}
{"id": "C93", "title": "The flags of a SoftFloat operation tell what happened to its result", "statement": "For f32_add, f32_mul, f32_div and their f64 counterparts: the result is a NaN exactly if an operand is one or invalid is requested; with finite operands the result is infinite exactly if overflow or infinite (division by zero) is requested; if underflow is requested the result is finite, at most the least normal number in magnitude, and differs from the exact result; a result below the least normal number for which underflow is not requested is exact.", "quantifier": "all pairs of words of both formats, every width of uint_fast32_t from 32 up", "why_tests_cant": "it relates flags to the exact real result for 2^128 pairs of words", "anchors": ["include/thls/tops/softfloat/src: f32_add, f32_mul, f32_div, f64_add, f64_mul, f64_div", "include/thls/tops/softfloat/src/softfloat.h: softfloat_flag_*, softfloat_raiseFlags"]}
{"id": "C94", "title": "The exception flags requested by the SoftFloat operations are those of IEEE 754 in every rounding mode", "statement": "Whatever softfloat_roundingMode is, f32_add, f32_mul, f32_div and their f64 counterparts request invalid and infinite (division by zero) exactly when IEEE 754 signals them, overflow exactly when the exact result rounded in that mode with unbounded exponent exceeds the largest finite number, and underflow exactly when that rounding is below the least normal number and the result in the format is inexact. The word returned is that of C88. No sum requests underflow, and inexact is requested exactly together with overflow.", "quantifier": "all rounding modes, with and without SOFTFLOAT_ROUND_ODD, all pairs of words of both formats, every width of uint_fast32_t from 32 up", "why_tests_cant": "it relates flags to the exact real result for 2^128 pairs of words in six modes", "anchors": ["include/thls/tops/softfloat/src: f32_add, f32_mul, f32_div, f64_add, f64_mul, f64_div", "include/thls/tops/softfloat/src/s_roundPackToF32.c, s_roundPackToF64.c: softfloat_roundPackToF32, softfloat_roundPackToF64", "include/thls/tops/softfloat/src/softfloat.h: softfloat_roundingMode, softfloat_flag_*, softfloat_raiseFlags"]}
{"id": "C95", "title": "The SoftFloat operations obey the standard model of floating-point arithmetic unless a flag says otherwise", "statement": "For finite operands (and a divisor that is not zero), in every rounding mode: if overflow is not requested the result of f32_add, f32_mul, f32_div and their f64 counterparts is finite; if it is requested the result is the infinity or largest number that the mode prescribes, with the sign of the exact result; if underflow is not requested either, it differs from the exact result by at most the unit roundoff times the exact result, where the unit roundoff is 2^-(F+1) in the two nearest modes and 2^-F in the others (F fraction bits); if underflow is requested it differs by at most the unit roundoff times the least normal number.", "quantifier": "all rounding modes, all pairs of finite words of both formats, every width of uint_fast32_t from 32 up", "why_tests_cant": "it bounds the distance to a real number for 2^128 pairs of words in six modes, including the results that reach the least normal number only by rounding", "anchors": ["include/thls/tops/softfloat/src: f32_add, f32_mul, f32_div, f64_add, f64_mul, f64_div", "include/thls/tops/softfloat/src/softfloat.h: softfloat_roundingMode, softfloat_flag_*, softfloat_raiseFlags"]}
{"id": "C96", "title": "In every rounding mode SoftFloat arithmetic respects the order and returns exact results exactly", "statement": "For finite words and whatever softfloat_roundingMode is: a <= b (f32_le, f64_le) gives a+c <= b+c; a*c <= b*c if 0 <= c and b*c <= a*c if c <= 0; a/c <= b/c if 0 < c, overflow included. If the exact sum, product or quotient is the number of some word w, a word of that number is returned, and w itself unless it is zero.", "quantifier": "all rounding modes, all triples of finite words of both formats, every width of uint_fast32_t from 32 up", "why_tests_cant": "it relates two operations on any three words, through overflow and subnormal results, in six modes", "anchors": ["include/thls/tops/softfloat/src: f32_add, f32_mul, f32_div, f64_add, f64_mul, f64_div, f32_le, f32_lt, f64_le, f64_lt", "include/thls/tops/softfloat/src/softfloat.h: softfloat_roundingMode"]}
