{"id": "C01", "title": "VPREC rounds to nearest-even in the normal range", "statement": "With the VPREC backend in relative-error mode, a finite value whose magnitude is at least the smallest normal number of the emulated format (range r, precision p) is replaced by the IEEE round-to-nearest, ties-to-even of that value to p fraction bits, with its sign kept; both for binary32 and for binary64 operations.", "quantifier": "every finite binary32/binary64 bit pattern in the emulated normal range, every range and every precision strictly below the native fraction width", "why_tests_cant": "2^32 (2^64) inputs times every (range, precision) pair; rounding bugs sit on ties and on carries into the next binade.", "anchors": ["src/backends/interflop-backend-vprec/common/vprec_tools.c:round_binary32_normal", "src/backends/interflop-backend-vprec/common/vprec_tools.c:round_binary64_normal", "src/backends/interflop-backend-vprec/common/vprec_tools.c:check_if_binary32_needs_rounding", "src/backends/interflop-backend-vprec/interflop_vprec.c:_vprec_round_binary32", "src/backends/interflop-backend-vprec/interflop_vprec.c:_vprec_round_binary64"]}
{"id": "C02", "title": "VPREC rounds gradually in the emulated subnormal range", "statement": "With DAZ/FTZ off, a finite value below the smallest normal number of the emulated format is replaced by the nearest multiple of the smallest emulated subnormal, ties to even, with its sign kept.", "quantifier": "every finite binary32/binary64 bit pattern below the emulated normal range, every range and precision", "why_tests_cant": "Subnormal inputs go through three different code paths (native underflow, quad underflow, quad rounding) chosen by exponent comparisons; only a proof covers every boundary.", "anchors": ["src/backends/interflop-backend-vprec/common/vprec_tools.c:round_binary_denormal", "src/backends/interflop-backend-vprec/common/vprec_tools.c:round_binary128_underflow", "src/backends/interflop-backend-vprec/common/vprec_tools.c:round_binary32_underflow", "src/backends/interflop-backend-vprec/common/vprec_tools.c:round_binary64_underflow", "src/backends/interflop-backend-vprec/common/vprec_tools.c:handle_binary32_denormal"]}
{"id": "C03", "title": "VPREC overflows exactly when the rounded value leaves the emulated range", "statement": "A finite value becomes the infinity of the same sign if and only if its rounding to p bits has magnitude at least 2^(emax+1) of the emulated format; infinities and NaNs are returned bit for bit.", "quantifier": "every bit pattern, every range and precision", "why_tests_cant": "The overflow decision depends on a carry produced by rounding; the boundary value differs for every (range, precision).", "anchors": ["src/backends/interflop-backend-vprec/interflop_vprec.c:_vprec_round_binary32", "src/backends/interflop-backend-vprec/interflop_vprec.c:_vprec_round_binary64"]}
{"id": "C04", "title": "VPREC results are representable in the emulated format and rounding is idempotent", "statement": "The value returned by a VPREC rounding is always a value of the emulated format (range, precision) and rounding it again returns the same value.", "quantifier": "every finite input, range and precision", "why_tests_cant": "A second rounding of an already rounded value may take a different code path (e.g. after promotion to a normal number).", "anchors": ["src/backends/interflop-backend-vprec/interflop_vprec.c:_vprec_round_binary32", "src/backends/interflop-backend-vprec/interflop_vprec.c:_vprec_round_binary64"]}
{"id": "C05", "title": "VPREC rounding is monotone", "statement": "If x <= y then the VPREC rounding of x is <= the VPREC rounding of y (infinities included).", "quantifier": "every pair of finite inputs, every range and precision", "why_tests_cant": "Quantifies over pairs of inputs across all branches (underflow, subnormal, normal, overflow).", "anchors": ["src/backends/interflop-backend-vprec/interflop_vprec.c:_vprec_round_binary32", "src/backends/interflop-backend-vprec/interflop_vprec.c:_vprec_round_binary64"]}
{"id": "C06", "title": "VPREC treats x and -x symmetrically, including the sign of zero results", "statement": "Rounding -x gives the negation of rounding x, and a negative value that underflows becomes -0 as the code comments promise (\"round to zero while preserving the sign\").", "quantifier": "every finite input, range and precision", "why_tests_cant": "The sign of an underflowed result is only visible on inputs smaller than half the smallest emulated subnormal.", "anchors": ["src/backends/interflop-backend-vprec/common/vprec_tools.c:round_binary32_underflow", "src/backends/interflop-backend-vprec/common/vprec_tools.c:round_binary128_underflow"]}
{"id": "C07", "title": "VPREC modes round exactly the advertised operands", "statement": "For add, sub, mul, div and fma: mode ieee returns the native result; mode ib rounds each operand and not the result; mode ob rounds the result only; mode full rounds operands and result. No other value influences the result.", "quantifier": "every operation, every operand bit pattern, every context", "why_tests_cant": "Four modes by five operations by two types over all inputs.", "anchors": ["src/backends/interflop-backend-vprec/interflop_vprec.c:_vprec_binary32_binary_op", "src/backends/interflop-backend-vprec/interflop_vprec.c:_vprec_binary64_binary_op", "src/backends/interflop-backend-vprec/interflop_vprec.c:_vprec_binary32_ternary_op", "src/backends/interflop-backend-vprec/interflop_vprec.c:_vprec_binary64_ternary_op"]}
{"id": "C08", "title": "VPREC configuration stays within bounds for every call history", "statement": "After initialisation, after parsing any option list and after any sequence of interflop_call requests, either the process has exited with an error or 1 <= precision32 <= 23, 2 <= range32 <= 8, 1 <= precision64 <= 52, 2 <= range64 <= 11, and each successful request changes exactly the requested parameter.", "quantifier": "every sequence of configuration requests with arbitrary integers", "why_tests_cant": "Histories are unbounded; one unchecked setter would let later operations shift by out-of-range amounts.", "anchors": ["src/backends/interflop-backend-vprec/interflop_vprec.c:_set_vprec_precision_binary32", "src/backends/interflop-backend-vprec/interflop_vprec.c:_set_vprec_range_binary64", "src/backends/interflop-backend-vprec/interflop_vprec.c:INTERFLOP_VPREC_API(user_call)", "src/backends/interflop-backend-vprec/interflop_vprec.c:INTERFLOP_VPREC_API(configure)", "src/backends/interflop-backend-vprec/interflop_vprec.c:parse_opt"]}
{"id": "C09", "title": "VPREC default configuration is transparent and free of undefined behaviour", "statement": "With the default precision and range (23/8 and 52/11) every operation returns the native IEEE result and executes no undefined C operation.", "quantifier": "every operand bit pattern", "why_tests_cant": "Undefined shifts are invisible to tests on one compiler and target.", "anchors": ["src/backends/interflop-backend-vprec/common/vprec_tools.c:check_if_binary32_needs_rounding", "src/backends/interflop-backend-vprec/common/vprec_tools.c:check_if_binary64_needs_rounding", "src/backends/interflop-backend-vprec/interflop_vprec.h"]}
{"id": "C10", "title": "VPREC DAZ/FTZ flush exactly the emulated subnormals and keep the sign", "statement": "With daz (resp. ftz) set, an operand (resp. result) whose magnitude is below the smallest emulated normal number becomes a zero of the same sign; all other values are rounded as if the flag was off; daz never affects results and ftz never affects operands.", "quantifier": "every finite input, range, precision and flag combination", "why_tests_cant": "Needs every value around the subnormal threshold for every emulated format.", "anchors": ["src/backends/interflop-backend-vprec/interflop_vprec.c:_vprec_round_binary32", "src/backends/interflop-backend-vprec/interflop_vprec.c:_vprec_round_binary64"]}
{"id": "C11", "title": "VPREC double-to-float casts round once", "statement": "A double to float cast in ob/full mode returns the float whose value is the single round-to-nearest-even of the double to (range32, precision32) - no double rounding - and in ieee mode the native conversion.", "quantifier": "every double bit pattern and every binary32 range and precision", "why_tests_cant": "Double rounding only shows on values within a tiny neighbourhood of midpoints.", "anchors": ["src/backends/interflop-backend-vprec/interflop_vprec.c:INTERFLOP_VPREC_API(cast_double_to_float)"]}
{"id": "C12", "title": "VPREC absolute-error mode bounds the absolute error", "statement": "In abs error mode the difference between a value in the normal range and its rounding is at most half of 2^max_abs_err_exponent and the result is a multiple of it (or the value itself when already more accurate than the native format allows).", "quantifier": "every finite input and every maximal absolute error exponent", "why_tests_cant": "Boundaries between the three exponent-difference cases move with both the input and the parameter.", "anchors": ["src/backends/interflop-backend-vprec/interflop_vprec.c:handle_binary32_normal_absErr", "src/backends/interflop-backend-vprec/interflop_vprec.c:handle_binary64_normal_absErr", "src/backends/interflop-backend-vprec/interflop_vprec.c:compute_absErr_vprec_binary32"]}
{"id": "C13", "title": "Function instrumentation restores the caller's precision", "statement": "For any well-nested sequence of function enters and exits, on exit the precision and range in force are again those that were in force in the caller.", "quantifier": "every well-nested call history and every per-function configuration", "why_tests_cant": "Arbitrary nesting depth and configuration.", "anchors": ["src/backends/interflop-backend-vprec/interflop_vprec_function_instrumentation.c:_vfi_enter_function", "src/backends/interflop-backend-vprec/interflop_vprec_function_instrumentation.c:_vfi_exit_function", "src/vfcwrapper/funcinstr.c"]}
{"id": "C14", "title": "Instrumented array arguments are rounded element by element", "statement": "When a pointer argument of n elements is instrumented with a rounding mode, each of its n elements is replaced by its rounding, and the recorded exponent bounds cover all of its elements.", "quantifier": "every array length and content", "why_tests_cant": "Length is unbounded; tests with one-element arrays cannot see it.", "anchors": ["src/backends/interflop-backend-vprec/interflop_vprec_function_instrumentation.c:_vfi_enter_function", "src/backends/interflop-backend-vprec/interflop_vprec_function_instrumentation.c:_vfi_exit_function", "src/backends/interflop-backend-vprec/interflop_vprec_function_instrumentation.c:_vprec_round_binary", "src/backends/interflop-backend-vprec/interflop_vprec_function_instrumentation.c:_update_range_bounds"]}
{"id": "C15", "title": "Function profile files round-trip", "statement": "A profile written at exit by VPREC and read back at start-up through the input-file option yields the same function table (identifiers, precisions, ranges, argument descriptors).", "quantifier": "every function table with well-formed names", "why_tests_cant": "All tables, all integer values, all names.", "anchors": ["src/backends/interflop-backend-vprec/interflop_vprec_function_instrumentation.c:_vfi_write_hasmap", "src/backends/interflop-backend-vprec/interflop_vprec_function_instrumentation.c:_vfi_read_hasmap"]}
{"id": "C16", "title": "Seeding is injective and never leaves the generator stuck", "statement": "Distinct user seeds give distinct generator states; distinct threads of one run get distinct states; the generator state is never the all-zero fixed point, and from a nonzero state no sequence of draws reaches it.", "quantifier": "every 64-bit seed, thread number and number of draws", "why_tests_cant": "2^64 seeds; the bad seed has probability 2^-64 in a random test.", "anchors": ["src/interflop-stdlib/rng/splitmix64.c:next_seed", "src/interflop-stdlib/rng/xoroshiro128.c:next", "src/interflop-stdlib/rng/vfc_rng.c"]}
{"id": "C17", "title": "Uniform draws lie in [0,1)", "statement": "Every double returned by the random generator is at least 0, strictly less than 1 and a multiple of 2^-52 (so that noise of the form draw - 0.5 lies in [-0.5, 0.5)).", "quantifier": "every generator state", "why_tests_cant": "2^128 states.", "anchors": ["src/interflop-stdlib/rng/xoroshiro128.c:to_double", "src/interflop-stdlib/rng/vfc_rng.c"]}
{"id": "C18", "title": "A fixed seed makes each thread's noise reproducible", "statement": "With a user-fixed seed, the stream of random numbers a thread draws depends only on the seed and the order in which threads obtained their identifiers - not on the interleaving of draws of other threads.", "quantifier": "every interleaving of draws by any number of threads", "why_tests_cant": "Schedules cannot be enumerated by tests.", "anchors": ["src/interflop-stdlib/rng/vfc_rng.c:_init_rng_state_struct", "src/interflop-stdlib/rng/vfc_rng.c:get_rand_double01"]}
{"id": "C19", "title": "MCA never perturbs special values and is exact in IEEE mode", "statement": "In mode ieee every operation of both MCA backends returns the IEEE result; in every mode NaNs, infinities and zeros are never perturbed.", "quantifier": "every operation, operand bit patterns, random stream and context", "why_tests_cant": "All inputs and all random draws.", "anchors": ["src/backends/interflop-backend-mcaquad/interflop_mca.c:_MUST_NOT_BE_NOISED", "src/backends/interflop-backend-mcaquad/interflop_mca.c:_INEXACT", "src/backends/interflop-backend-mcaint/interflop_mca_int.c:_MUST_NOT_BE_NOISED", "src/backends/interflop-backend-mcaint/interflop_mca_int.c:_INEXACT"]}
{"id": "C20", "title": "Random rounding leaves exactly representable results unchanged", "statement": "In mode rr an operation whose exact result is representable at the virtual precision returns that result unperturbed, whatever the random draws.", "quantifier": "every operand pair, precision and random stream", "why_tests_cant": "All operands and random draws.", "anchors": ["src/backends/interflop-backend-mcaquad/interflop_mca.c:_IS_REPRESENTABLE", "src/interflop-stdlib/common/float_utils.h:_is_representable_binary64"]}
{"id": "C21", "title": "MCA noise is bounded by half a unit at the virtual precision", "statement": "In relative mode the noise added to a value v with exponent e at virtual precision t has magnitude at most 2^(e-t) (t <= native precision), for every random draw, and with a finite result.", "quantifier": "every finite value, every virtual precision and every random draw", "why_tests_cant": "The bound must hold for every draw, including the extreme and the zero ones.", "anchors": ["src/backends/interflop-backend-mcaquad/interflop_mca.c:_noise_binary64", "src/backends/interflop-backend-mcaquad/interflop_mca.c:_noise_binary128", "src/backends/interflop-backend-mcaint/interflop_mca_int.c:_noise_binary64", "src/backends/interflop-backend-mcaint/interflop_mca_int.c:_noise_binary128"]}
{"id": "C22", "title": "Sparsity skips exactly the requested share of operations", "statement": "With sparsity 1 every operation is perturbed; with sparsity s an operation is skipped iff its draw exceeds s, and a skipped operation returns the IEEE result without drawing noise.", "quantifier": "every sequence of operations and random stream", "why_tests_cant": "All draws.", "anchors": ["src/interflop-stdlib/common/options.h:_mca_skip_eval", "src/backends/interflop-backend-mcaquad/interflop_mca.c:_INEXACT"]}
{"id": "C23", "title": "Bitmask perturbs only the bits below the virtual precision", "statement": "Whatever the operator (zero, one, rand) and random draw, the perturbed value has the same sign and exponent and the same leading `precision` significant bits as the original; specials, ieee mode and values already representable (ob mode) are returned bit for bit.", "quantifier": "every bit pattern, precision, operator and random draw", "why_tests_cant": "2^64 patterns times 52 precisions times all draws.", "anchors": ["src/backends/interflop-backend-bitmask/interflop_bitmask.c:_INEXACT", "src/backends/interflop-backend-bitmask/interflop_bitmask.c:_MUST_NOT_BE_NOISED", "src/backends/interflop-backend-bitmask/interflop_bitmask.c:_set_bitmask_precision"]}
{"id": "C24", "title": "Bitmask error is below one unit at the virtual precision", "statement": "The perturbation has magnitude strictly less than one unit in the last place at the virtual precision; operator zero never increases the magnitude, operator one never decreases it, and a finite nonzero value stays finite and (unless subnormal with operator zero) nonzero.", "quantifier": "every finite bit pattern, precision, operator and draw", "why_tests_cant": "As above.", "anchors": ["src/backends/interflop-backend-bitmask/interflop_bitmask.c:_INEXACT"]}
{"id": "C25", "title": "Cancellation backend perturbs only cancelling additions and subtractions", "statement": "mul, div, fma, cast and comparisons return the IEEE result; an addition or subtraction whose result exponent drops by fewer bits than the tolerance returns the IEEE result; otherwise the perturbation is at most one unit of the last bit of the larger operand.", "quantifier": "every operand pair, tolerance and random draw", "why_tests_cant": "Needs every exponent difference, including results that are exactly zero.", "anchors": ["src/backends/interflop-backend-cancellation/interflop_cancellation.c:cancell", "src/backends/interflop-backend-cancellation/interflop_cancellation.c:_noise_binary64"]}
{"id": "C26", "title": "IEEE backend comparisons implement the sixteen LLVM predicates", "statement": "For each of the 16 floating-point predicates the IEEE backend returns the truth value that LLVM's fcmp assigns to that predicate.", "quantifier": "all 16 predicates and every operand pair, NaNs included", "why_tests_cant": "Operand pairs are unbounded for a test; unordered predicates with ordered operands are easily missed.", "anchors": ["src/backends/interflop-backend-ieee/interflop_ieee.c:SELECT_FLOAT_CMP"]}
{"id": "C27", "title": "Operation counts are exact under any interleaving", "statement": "With count-op the numbers printed at exit equal the number of additions, subtractions, multiplications, divisions and fmas executed by all threads.", "quantifier": "every interleaving of any number of threads", "why_tests_cant": "Lost updates only appear on particular schedules.", "anchors": ["src/backends/interflop-backend-ieee/interflop_ieee.c:INTERFLOP_IEEE_API(add_float)", "src/backends/interflop-backend-ieee/interflop_ieee.c:INTERFLOP_IEEE_API(finalize)"]}
{"id": "C28", "title": "Binary printing is faithful", "statement": "The %b style debug printing of a float or double determines the printed number: distinct finite values print distinct text, and the text denotes the value (sign, leading bit, fraction bits, exponent).", "quantifier": "every float and double bit pattern", "why_tests_cant": "2^64 patterns.", "anchors": ["src/backends/interflop-backend-ieee/common/printf_specifier.c:REAL_TO_BINARY"]}
{"id": "C29", "title": "Hash map without removals behaves as a finite map", "statement": "For any sequence of insertions of new keys with legal, pairwise different values (addresses of distinct objects), lookup of a key returns its value, lookup of any other key reports absence, and the item count equals the number of insertions; growth never loses or duplicates an entry and every operation terminates.", "quantifier": "every insertion history of any length and every key", "why_tests_cant": "Rehashing happens at unbounded sizes and probing order depends on all earlier keys.", "anchors": ["src/interflop-stdlib/hashmap/vfc_hashmap.c:vfc_hashmap_insert", "src/interflop-stdlib/hashmap/vfc_hashmap.c:vfc_hashmap_get", "src/interflop-stdlib/hashmap/vfc_hashmap.c:vfc_hashmap_have", "src/interflop-stdlib/hashmap/vfc_hashmap.c:maybe_rehash_map"]}
{"id": "C30", "title": "Hash map removal removes the key", "statement": "After removing a key, lookup reports it absent, other keys are unaffected and the item count drops by one exactly if the key was present.", "quantifier": "every history of insertions and removals", "why_tests_cant": "Depends on tombstones met during probing.", "anchors": ["src/interflop-stdlib/hashmap/vfc_hashmap.c:vfc_hashmap_remove", "src/interflop-stdlib/hashmap/vfc_hashmap.c:vfc_hashmap_get", "src/interflop-stdlib/hashmap/vfc_hashmap.c:vfc_hashmap_have"]}
{"id": "C31", "title": "Hash set behaves as a finite set", "statement": "For any sequence of add/remove requests, membership, the return codes of add/remove and the item count coincide with those of a mathematical set.", "quantifier": "every history of adds and removes", "why_tests_cant": "Unbounded histories.", "anchors": ["src/vfcwrapper/hashset.c:hashset_add", "src/vfcwrapper/hashset.c:hashset_remove", "src/vfcwrapper/hashset.c:hashset_is_member"]}
{"id": "C32", "title": "Every probe is exported exactly once", "statement": "Dumping probes writes one line per successfully inserted probe, with the inserted value and accuracy, whatever their number and even when names collide in the hash; names with a comma are refused.", "quantifier": "every sequence of probe insertions", "why_tests_cant": "Hash collisions and table growth.", "anchors": ["src/common/vfc_probes.c:vfc_probe_kernel", "src/common/vfc_probes.c:vfc_dump_probes", "src/common/vfc_probes.c:validate_probe_key"]}
{"id": "C33", "title": "Duplicate probes are refused", "statement": "Inserting a probe whose (test, variable) pair was already inserted is always refused with an error and never overwrites or duplicates the first one.", "quantifier": "every sequence of probe insertions", "why_tests_cant": "Needs specific hash collisions.", "anchors": ["src/common/vfc_probes.c:vfc_probe_kernel", "src/common/vfc_probes.c:gen_probe_key"]}
{"id": "C34", "title": "Each backend sees each operation exactly once, in load order, and the last one decides", "statement": "For every instrumented operation every loaded backend implementing it is called exactly once, in the order of VFC_BACKENDS, with the original operands; the value returned to the program is that of the last implementing backend.", "quantifier": "every backend list, operation and operands", "why_tests_cant": "All backend lists and operand values.", "anchors": ["src/vfcwrapper/main.c.in:define_arithmetic_wrapper", "src/vfcwrapper/main.c.in:vfc_init"]}
{"id": "C35", "title": "Vector operations are element-wise scalar operations", "statement": "A vector operation of width 2, 4, 8 or 16 returns, in each lane, exactly the result of the scalar operation on that lane, lanes being processed in index order.", "quantifier": "every width, operand vector and backend state", "why_tests_cant": "Backend state (random stream) threads through lanes.", "anchors": ["src/vfcwrapper/main.c.in:define_vectorized_arithmetic_wrapper"]}
{"id": "C36", "title": "Delta-debug filters select exactly the requested call sites", "statement": "An arithmetic operation is passed to the backends iff its call site is not in the exclusion list and (when an inclusion list is given) is in the inclusion list; other sites compute the native IEEE operation; the generated list contains exactly the executed non-excluded sites, once each.", "quantifier": "every filter files, every execution trace", "why_tests_cant": "Traces and filter sets are unbounded.", "anchors": ["src/vfcwrapper/main.c.in:ddebug", "src/vfcwrapper/main.c.in:vfc_read_filter_file", "src/vfcwrapper/main.c.in:ddebug_generate_inclusion"]}
{"id": "C37", "title": "Backend list parsing is memory safe and faithful", "statement": "Parsing VFC_BACKENDS loads each listed backend with exactly the arguments written after it, refuses more than 16 backends or more arguments than the argument array can hold, and never writes outside its arrays.", "quantifier": "every configuration string", "why_tests_cant": "The overflow needs an exact argument count.", "anchors": ["src/vfcwrapper/main.c.in:vfc_init", "src/vfcwrapper/main.c.in:parse_vfc_backends_env"]}
{"id": "C38", "title": "Variadic arguments reach every backend", "statement": "For interflop_call and for function enter/exit instrumentation every loaded backend receives the complete argument list, independently of what other backends consumed.", "quantifier": "every backend list and argument list", "why_tests_cant": "Depends on how many arguments earlier backends consume.", "anchors": ["src/vfcwrapper/main.c.in:interflop_call", "src/vfcwrapper/funcinstr.c:vfc_enter_function", "src/vfcwrapper/funcinstr.c:vfc_exit_function"]}
{"id": "C39", "title": "The instrumentation call stack mirrors the program's call stack", "statement": "For any well-nested enter/exit history the stack handed to backends is exactly the list of active functions, innermost first; its depth never exceeds the capacity (the process exits instead).", "quantifier": "every well-nested history", "why_tests_cant": "Unbounded depth and recursion.", "anchors": ["src/vfcwrapper/funcinstr.c:vfc_call_stack_push", "src/vfcwrapper/funcinstr.c:vfc_call_stack_pop"]}
{"id": "C40", "title": "ddmin returns a 1-minimal failing set", "statement": "Given a deterministic test that fails on the initial set and passes on the empty set, minimisation terminates and returns a subset of the initial set that still fails and such that removing any single element makes it pass.", "quantifier": "every deterministic (not nec. monotone) test outcome function and every initial set", "why_tests_cant": "Ranges over all test functions on all finite sets.", "anchors": ["src/tools/ddebug/DD.py:interflop_dd_min"]}
{"id": "C41", "title": "ddmax returns a 1-maximal passing set", "statement": "Under the same conditions maximisation terminates; the returned set, when removed from the initial set, passes, and the result cannot be shrunk by any single element.", "quantifier": "every deterministic test function and initial set", "why_tests_cant": "Same.", "anchors": ["src/tools/ddebug/DD.py:interflop_dd_max"]}
{"id": "C42", "title": "rddmin returns disjoint minimal failing sets whose removal passes", "statement": "Repeated minimisation terminates and returns pairwise disjoint, individually failing and 1-minimal sets; when all are removed the remaining set passes.", "quantifier": "every deterministic test function and initial set", "why_tests_cant": "Same.", "anchors": ["src/tools/ddebug/DD_stoch.py:RDDMin"]}
{"id": "C43", "title": "Set splitting is a partition", "statement": "Splitting a list of n deltas into k parts yields k consecutive sublists whose concatenation is the list and whose sizes differ by at most one, none empty if k <= n.", "quantifier": "every list and every number of parts", "why_tests_cant": "All lengths and part counts.", "anchors": ["src/tools/ddebug/DD.py:_split"]}
{"id": "C44", "title": "The outcome cache returns the outcome last recorded for the same configuration", "statement": "A lookup returns an outcome iff that exact configuration was recorded, and then the recorded outcome, whatever other configurations were recorded.", "quantifier": "every sequence of additions and lookups", "why_tests_cant": "Trie sharing between configurations.", "anchors": ["src/tools/ddebug/DD.py:OutcomeCache"]}
{"id": "C45", "title": "Sample cache never turns a failure into a success", "statement": "For a delta-debug configuration the verdict FAIL is returned as soon as one of the requested samples failed and PASS only after the requested number of samples passed; verdicts are stable across re-tests.", "quantifier": "every sample outcome sequence and every sequence of requests", "why_tests_cant": "Depends on the history of earlier, partially completed tests.", "anchors": ["src/tools/ddebug/DD_stoch.py:InterflopTask.run", "src/tools/ddebug/DD_stoch.py:InterflopTask.sampleToComputeToGetFailure"]}
{"id": "C46", "title": "Precision exploration returns the minimal valid precision", "statement": "If validity is monotone in the precision and the maximal precision is valid, the dichotomic search terminates with the smallest valid precision; if the maximal precision is not valid it terminates with an error.", "quantifier": "every validity predicate and every bound", "why_tests_cant": "All predicates.", "anchors": ["src/tools/optimize/precexp.py:dich_search_operations", "src/tools/optimize/precexp.py:dich_search_arguments"]}
{"id": "C47", "title": "Precision exploration covers each argument type with its own bounds", "statement": "For each function argument the search uses the bounds of its type: 23/8 for float and float arrays, 52/11 for double and double arrays.", "quantifier": "every argument type", "why_tests_cant": "Depends on agreement between two independently maintained encodings.", "anchors": ["src/tools/optimize/precexp.py:search_minimum_arguments", "src/interflop-stdlib/interflop.h:FTYPES"]}
{"id": "C48", "title": "Function selection follows the include/exclude files", "statement": "A function is instrumented iff it matches the inclusion list, or it does not match the exclusion list and (no inclusion list is given or an exclusion list is given); inclusion has precedence; patterns treat * as a wildcard and every other character literally.", "quantifier": "every pair of list files and every function and module name", "why_tests_cant": "All patterns and names.", "anchors": ["src/libvfcinstrument/libVFCInstrument.cpp:parseFunctionSetFile", "src/libvfcinstrument/libVFCInstrument.cpp:escape_regex", "src/libvfcinstrument/libVFCInstrument.cpp:runOnModule"]}
{"id": "C49", "title": "Powers of two are exact", "statement": "The float and double power-of-two helpers return exactly 2^i for every i in the representable exponent range (subnormals included), +0 below it and +infinity above it.", "quantifier": "every int argument", "why_tests_cant": "Subnormal boundary cases.", "anchors": ["src/interflop-stdlib/interflop_stdlib.c:fpow2i", "src/interflop-stdlib/interflop_stdlib.c:pow2i"]}
{"id": "C50", "title": "Library floating-point classification is right", "statement": "The runtime's isnan/isinf report true exactly on NaNs/infinities.", "quantifier": "every bit pattern", "why_tests_cant": "2^64 patterns.", "anchors": ["src/interflop-stdlib/interflop_stdlib.c:interflop_fpclassifyf", "src/interflop-stdlib/interflop_stdlib.c:interflop_fpclassifyd", "src/interflop-stdlib/interflop_stdlib.c:interflop_isnanf", "src/interflop-stdlib/interflop_stdlib.c:interflop_isinfd"]}
{"id": "C51", "title": "Representability test is exact", "statement": "The helper deciding whether a value is representable at precision t answers true exactly when the significand of the value fits in t bits.", "quantifier": "every finite bit pattern and precision", "why_tests_cant": "All mantissas.", "anchors": ["src/interflop-stdlib/common/float_utils.h:_is_representable_binary32", "src/interflop-stdlib/common/float_utils.h:_is_representable_binary64"]}
{"id": "C52", "title": "Hash map entries may share a value", "statement": "Inserting the same value under two different keys makes both keys retrievable.", "quantifier": "every insertion history with legal values", "why_tests_cant": "Only fails when the shared value happens to lie on the probe path of the second key.", "anchors": ["src/interflop-stdlib/hashmap/vfc_hashmap.c:hashmap_add_member", "src/interflop-stdlib/hashmap/vfc_hashmap.c:vfc_hashmap_insert"]}
{"id": "C53", "title": "VPREC numeric options outside the documented range are rejected", "statement": "A --precision-binary32/64 or --range-binary32/64 option is accepted exactly when the integer written on the command line lies in the documented range; every other integer ends the program with an error.", "quantifier": "every integer written as an option value", "why_tests_cant": "Values beyond 32 bits are never tried; truncation maps some of them into the legal range.", "anchors": ["src/backends/interflop-backend-vprec/interflop_vprec.c:parse_opt"]}
{"id": "C54", "title": "A pushed seed is installed and popped again", "statement": "push_seed(s) makes the following draws depend on s as if the thread had been seeded with s, and pop_seed brings back the generator that was in use before.", "quantifier": "every generator state and pushed seed", "why_tests_cant": "The hooks are only used by one client (Verrou) and not exercised by the test-suite.", "anchors": ["src/backends/interflop-backend-mcaquad/interflop_mca.c:mcaquad_push_seed", "src/interflop-stdlib/rng/vfc_rng.c:_init_rng_state_struct"]}
{"id": "C55", "title": "A precision above the maximum means no noise", "statement": "When a virtual precision above the documented maximum is set (the warning says that no noise will be added) every operation returns the IEEE result.", "quantifier": "every precision above the maximum, operand pair, mode and random stream", "why_tests_cant": "The set of precisions is unbounded and the failure depends on exponent fields wrapping around.", "anchors": ["src/interflop-stdlib/common/options.h:_set_precision", "src/backends/interflop-backend-mcaquad/interflop_mca.c:_INEXACT", "src/backends/interflop-backend-mcaquad/interflop_mca.c:_noise_binary64", "src/backends/interflop-backend-mcaint/interflop_mca_int.c:_noise_binary64"]}
{"id": "C56", "title": "The user call inexact perturbs at the requested precision", "statement": "interflop_call(INTERFLOP_INEXACT_ID, type, &x, p) replaces a finite nonzero x by x plus a noise bounded by half a unit in the t-th digit, t = p if p > 0 and the backend's precision + p otherwise, and leaves other values alone.", "quantifier": "every value, precision argument, mode, sparsity and generator state", "why_tests_cant": "All values, arguments and draws.", "anchors": ["src/backends/interflop-backend-mcaquad/interflop_mca.c:_interflop_usercall_inexact", "src/backends/interflop-backend-mcaquad/interflop_mca.c:_FAST_INEXACT"]}
{"id": "C57", "title": "Asking for the default precision is the same as not asking", "statement": "A bitmask run without precision options returns IEEE results for every operation (operator zero or one, precision at the maximum), and giving the default precision explicitly changes nothing.", "quantifier": "every operand pair, operation, operator and generator state", "why_tests_cant": "All operands; the two ways of reaching the same precision use different masks.", "anchors": ["src/backends/interflop-backend-bitmask/interflop_bitmask.c:_set_bitmask_precision_binary32", "src/backends/interflop-backend-bitmask/interflop_bitmask.c:INTERFLOP_BITMASK_API(init)", "src/backends/interflop-backend-bitmask/interflop_bitmask.c:_bitmask_init_context"]}
{"id": "C58", "title": "DAZ and FTZ flush exactly the subnormals and keep the sign", "statement": "With --daz (--ftz) every subnormal input (output) of an operation of the MCA and bitmask backends is replaced by a zero of the same sign and every other value is left unchanged.", "quantifier": "every bit pattern and operation", "why_tests_cant": "All bit patterns; the sign of a flushed operand only shows through a division.", "anchors": ["src/interflop-stdlib/common/float_utils.h:DAZ", "src/backends/interflop-backend-bitmask/interflop_bitmask.c:_bitmask_binary32_binary_op", "src/backends/interflop-backend-mcaquad/interflop_mca.c:_MCAQUAD_BINARY_OP"]}
{"id": "C59", "title": "An accepted configuration never leads to undefined behaviour", "statement": "If the bitmask backend accepts its options (or a configuration structure) then no operation reaches an undefined state, whatever the operands.", "quantifier": "every accepted configuration and every operand", "why_tests_cant": "Configurations and operands are unbounded.", "anchors": ["src/backends/interflop-backend-bitmask/interflop_bitmask.c:INTERFLOP_BITMASK_API(configure)", "src/backends/interflop-backend-bitmask/interflop_bitmask.c:_set_bitmask_operator", "src/backends/interflop-backend-bitmask/interflop_bitmask.c:_INEXACT"]}
{"id": "C60", "title": "Monotony queries of the outcome cache answer exactly", "statement": "lookup_superset (lookup_subset) returns an outcome iff one is recorded for a superset (subset) of the queried configuration, and then such an outcome.", "quantifier": "every sequence of recorded configurations and every query", "why_tests_cant": "The set of recorded histories is unbounded; the defect shows only for particular insertion histories.", "anchors": ["src/tools/ddebug/DD.py:OutcomeCache.lookup_superset", "src/tools/ddebug/DD.py:OutcomeCache.lookup_subset"]}
{"id": "C61", "title": "srddmin finds disjoint minimal failing sets whose removal passes", "statement": "With an increasing table of sample counts, srddmin terminates and returns disjoint sets, each failing and 1-minimal for the largest count, and once all are removed the rest passes with the largest count.", "quantifier": "every sample outcome function, initial set, table and consistent sample cache", "why_tests_cant": "Quantifies over all stochastic outcomes and cache states.", "anchors": ["src/tools/ddebug/DD_stoch.py:DDStoch.SRDDMin", "src/tools/ddebug/DD.py:interflop_dd_min"]}
{"id": "C62", "title": "drddmin, the default algorithm, finds disjoint minimal failing sets whose removal passes", "statement": "The dichotomy followed by srddmin terminates for every granularity and returns disjoint sets, each failing and 1-minimal for the largest count, and once all are removed the rest passes.", "quantifier": "every sample outcome function, initial set, tables, granularity and consistent sample cache", "why_tests_cant": "Quantifies over all stochastic outcomes and cache states; termination cannot be tested.", "anchors": ["src/tools/ddebug/DD_stoch.py:DDStoch.DRDDMin", "src/tools/ddebug/DD_stoch.py:DDStoch.splitDeltas", "src/tools/ddebug/DD_stoch.py:DDStoch.SsplitDeltas"]}
{"id": "C63", "title": "The IEEE backend returns the correctly rounded native result", "statement": "Every +, -, *, /, fma and double-to-float cast executed through the IEEE backend returns the correctly rounded IEEE-754 result, whatever the debug and counting options.", "quantifier": "all operand patterns and options", "why_tests_cant": "Operand pairs are too many to enumerate.", "anchors": ["src/backends/interflop-backend-ieee/interflop_ieee.c:INTERFLOP_IEEE_API(add_float)", "src/backends/interflop-backend-ieee/interflop_ieee.c:INTERFLOP_IEEE_API(fma_double)", "src/interflop-stdlib/fma/interflop_fma.c"]}
{"id": "C64", "title": "VPREC can read the configurations the precision exploration tries", "statement": "Every configuration file precexp writes is read by the VPREC backend, which then uses the precisions the search chose, so that the exploration of a program ends.", "quantifier": "every profile, every state of the search", "why_tests_cant": "Two programs in two languages share an unversioned text format; whether the search ends cannot be tested.", "anchors": ["src/tools/optimize/precexp.py:save", "src/tools/optimize/precexp.py:Check", "src/backends/interflop-backend-vprec/interflop_vprec_function_instrumentation.c:_vfi_scan_input"]}
{"id": "C65", "title": "The precision exploration reads the VPREC profile faithfully", "statement": "From the profile VPREC wrote, precexp keeps exactly the functions whose name or parent is in the list (all without a list), each with its own arguments, by decreasing number of calls; the configuration it writes has each function followed by its own arguments.", "quantifier": "every profile, every function list", "why_tests_cant": "Rows of functions and of arguments are sorted separately; agreement depends on stability and ties over all profiles.", "anchors": ["src/tools/optimize/precexp.py:getProfile", "src/tools/optimize/precexp.py:getFunctionInfo", "src/tools/optimize/precexp.py:save", "src/backends/interflop-backend-vprec/interflop_vprec_function_instrumentation.c:_vfi_write_hasmap"]}
{"id": "C66", "title": "--function instruments exactly that function", "statement": "With --function=f exactly the functions of the module named f are instrumented, whatever the inclusion and exclusion lists.", "quantifier": "every name f, every module, every pair of list files", "why_tests_cant": "The option goes through a regular expression engine together with the lists; all names and lists.", "anchors": ["src/libvfcinstrument/libVFCInstrument.cpp:runOnModule", "src/libvfcinstrument/libVFCInstrument.cpp:parseFunctionSetFile"]}
{"id": "C67", "title": "The instrumentation pass replaces exactly the supported operations and computes what the backends answer", "statement": "In every block, each +, -, *, /, (with the options) comparison, fma and double-to-float cast on float, double and vectors of 2, 4, 8 or 16 of them becomes a call of the matching wrapper, lane by lane, on the same operands with its result used instead; every other instruction is unchanged; the order in which the pass visits instructions does not matter.", "quantifier": "every well-typed block, option combination, visiting order, list of backends, machine state", "why_tests_cant": "All programs; whether a result is used or dropped is invisible with a backend that returns IEEE results.", "anchors": ["src/libvfcinstrument/libVFCInstrument.cpp:runOnBasicBlock", "src/libvfcinstrument/libVFCInstrument.cpp:mustReplace", "src/libvfcinstrument/libVFCInstrument.cpp:replaceWithMCACall", "src/libvfcinstrument/libVFCInstrument.cpp:updateReturn", "src/libvfcinstrument/libVFCInstrument.cpp:getMCAFunctionName", "src/vfcwrapper/main.c.in:define_arithmetic_wrapper"]}
{"id": "C68", "title": "A program instrumented with the IEEE backend computes what it computed before", "statement": "Running an instrumented block with the IEEE backend gives every value, the memory and every other effect of the uninstrumented block.", "quantifier": "every well-typed block, option combination, register and memory contents", "why_tests_cant": "All programs and operands.", "anchors": ["src/libvfcinstrument/libVFCInstrument.cpp:runOnBasicBlock", "src/backends/interflop-backend-ieee/interflop_ieee.c", "src/vfcwrapper/main.c.in"]}
{"id": "C69", "title": "Backend options are refused when invalid and otherwise change exactly what they name", "statement": "For the MCA, bitmask and cancellation backends, a command-line option, configure hook or user call with a value outside its documented domain ends the program; otherwise it sets exactly the fields it names to the value given and leaves every other setting as it was, so that whatever the history the settings in force are valid ones.", "quantifier": "every history of options, configure hooks and user calls, every argument string", "why_tests_cant": "Unbounded argument values and orders; a setting silently altered by another option gives plausible results.", "anchors": ["src/backends/interflop-backend-mcaquad/interflop_mca.c:parse_opt", "src/backends/interflop-backend-mcaquad/interflop_mca.c:INTERFLOP_MCAQUAD_API", "src/backends/interflop-backend-mcaint/interflop_mca_int.c:parse_opt", "src/backends/interflop-backend-bitmask/interflop_bitmask.c:parse_opt", "src/backends/interflop-backend-cancellation/interflop_cancellation.c:parse_opt"]}
{"id": "C70", "title": "Instrumenting a program sends exactly the operations of the selected functions to the backends", "statement": "A program whose functions contain loops, branches, recursion and calls, compiled with any selection of functions, behaves as the original in which every supported operation of the selected functions, and no operation of the other functions, is computed by the backends.", "quantifier": "every module, selection, option combination, visiting order, list of backends, entry function, arguments and memory; executions of any length", "why_tests_cant": "Executions are unbounded and depend on the backends; an operation missed or redirected in one branch only shows when the branch is taken.", "anchors": ["src/libvfcinstrument/libVFCInstrument.cpp:runOnModule", "src/libvfcinstrument/libVFCInstrument.cpp:runOnFunction", "src/libvfcinstrument/libVFCInstrument.cpp:runOnBasicBlock"]}
{"id": "C71", "title": "A program compiled with verificarlo and run with the IEEE backend ends as the original does", "statement": "The instrumented program run with the IEEE backend terminates exactly when the original does, with the same result and memory.", "quantifier": "every module, selection, option combination, entry function, arguments and memory; executions of any length", "why_tests_cant": "All programs and all executions; non-termination cannot be tested.", "anchors": ["src/libvfcinstrument/libVFCInstrument.cpp:runOnModule", "src/backends/interflop-backend-ieee/interflop_ieee.c", "src/vfcwrapper/main.c.in"]}
{"id": "C72", "title": "Function instrumentation tells the backends of every call, and the program sees what they answer", "statement": "In a program compiled with --inst-func, around every direct call that has a source location (in a function with debug information; not a debug call, not an intrinsic without floating point) the backends receive, before, the identifier FILE/CALLER/CALLEE/LINE/NUMBER, the flags library/intrinsic/float/double and the type, name, number of elements and value (or address) of the float, double and pointer arguments in order, and, after, the same for the result and the pointers; the callee receives the values they leave, the caller gets the result they leave; main runs between one enter and one exit; nothing else changes.", "quantifier": "every module, debug information, entry function, arguments, memory, answers of the backends; executions of any length", "why_tests_cant": "The hooks depend on the signature of each callee and their effect on values chosen by the backends at run time; all programs and all answers cannot be tried.", "anchors": ["src/libvfcfuncinstrument/libVFCFuncInstrument.cpp:runOnModule", "src/libvfcfuncinstrument/libVFCFuncInstrument.cpp:InstrumentFunction", "src/libvfcfuncinstrument/libVFCFuncInstrument.cpp:initializeInputArgs", "src/libvfcfuncinstrument/libVFCFuncInstrument.cpp:initializeOutputArgs", "src/libvfcfuncinstrument/libVFCFuncInstrument.cpp:getArgName", "src/libvfcfuncinstrument/libVFCFuncInstrument.cpp:getSizeOf", "src/libvfcfuncinstrument/libVFCFuncInstrument.cpp:haveFloatingPointArithmetic"]}
{"id": "C73", "title": "Function instrumentation with backends that only look does not change the program", "statement": "If the enter and exit hooks leave the arguments and the program's memory alone, a program compiled with --inst-func computes what the original computes: same result, same memory, same termination.", "quantifier": "every module, debug information, entry function, arguments and memory; executions of any length", "why_tests_cant": "All programs and executions; non-termination cannot be tested.", "anchors": ["src/libvfcfuncinstrument/libVFCFuncInstrument.cpp:runOnModule", "src/libvfcfuncinstrument/libVFCFuncInstrument.cpp:InstrumentFunction"]}
{"id": "C74", "title": "Two instrumented calls never share an identifier", "statement": "The identifiers given to the backends for the calls of a program (and for main) are pairwise different, so that VPREC keeps one configuration per call.", "quantifier": "every module and debug information (false across modules)", "why_tests_cant": "A collision needs particular names, lines and counters.", "anchors": ["src/libvfcfuncinstrument/libVFCFuncInstrument.cpp:runOnModule", "src/backends/interflop-backend-vprec/interflop_vprec_function_instrumentation.c"]}
{"id": "C75", "title": "The function instrumentation pass ends with a module whatever the program", "statement": "The function instrumentation pass terminates without a fault on every program, and describes pointer arguments by the type and number of the elements they point to.", "quantifier": "every module and debug information", "why_tests_cant": "The recursion that looks for the origin of a pointer is unbounded; whether it ends depends on the order of uses in the whole function.", "anchors": ["src/libvfcfuncinstrument/libVFCFuncInstrument.cpp:getSizeOf", "src/libvfcfuncinstrument/libVFCFuncInstrument.cpp:getArgName", "src/libvfcfuncinstrument/libVFCFuncInstrument.cpp:ftypesFromType", "verificarlo.in.in"]}
{"id": "C76", "title": "The text of a probe's value determines it", "statement": "A double written by vfc_dump_probes (%a) and read by vfc_ci test (float.fromhex) comes back with the same bits: subnormal numbers, zeros of both signs and infinities included.", "quantifier": "every binary64 value that is not a NaN", "why_tests_cant": "2^64 values.", "anchors": ["src/common/vfc_probes.c:vfc_dump_probes", "src/tools/ci/test.py:read_probes_csv"]}
{"id": "C77", "title": "vfc_ci reads back exactly the probes of an execution", "statement": "When a program records probes and dumps them, vfc_ci test reads one row per probe, with its test and variable names, its value and threshold bit for bit and its check mode, and a warning only if there was none.", "quantifier": "every sequence of probes (false for names pandas takes for numbers or missing values, for NaN values, for files where all values are infinite)", "why_tests_cant": "The reader infers the type of each column from all its cells: one cell changes the meaning of the others.", "anchors": ["src/common/vfc_probes.c:vfc_probe", "src/common/vfc_probes.c:vfc_dump_probes", "src/tools/ci/test.py:read_probes_csv"]}
{"id": "C78", "title": "Samples are grouped by test, variable and backend", "statement": "vfc_ci test ends with exactly one set of samples per test, variable and backend: the values of all repetitions in the order of execution, with the threshold and the check mode of the first one; it records a warning for each execution that left no record, and no other.", "quantifier": "every configuration and every content of the probes files (false for two executables with a variable of the same name)", "why_tests_cant": "All configurations and all results of the executions.", "anchors": ["src/tools/ci/test.py:run_tests", "src/tools/ci/test.py:run_non_deterministic", "src/tools/ci/test.py:run_deterministic", "src/tools/ci/test.py:read_probes_csv"]}
{"id": "C79", "title": "A probes file cut short gives true rows or none", "statement": "If an execution is killed while its probes are written, or the disk is full, every row vfc_ci reads is a probe of that execution with its exact value, in the order they were written; only the last row may differ, in its threshold and by not being checked; missing rows are reported.", "quantifier": "every sequence of probes and every cut (the last part is false)", "why_tests_cant": "The cut may be at any byte of any file.", "anchors": ["src/common/vfc_probes.c:vfc_dump_probes", "src/tools/ci/test.py:read_probes_csv", "src/tools/ci/test_data_processing.py:validate_deterministic_probe"]}
{"id": "C80", "title": "Checks of deterministic backends compare each probe with its reference", "statement": "For a deterministic backend, if some probe has a threshold, each probe is compared with the value of the same probe in the reference run: an absolute check passes exactly if the rounded difference is below the threshold (and then so is the exact difference), a relative check if the rounded quotient is; without a reference the check fails; a probe without a check passes.", "quantifier": "every content of the two files (false for thresholds of both signs, for references in another order, for references equal to zero)", "why_tests_cant": "All values, thresholds and references; the effect of rounding on each comparison.", "anchors": ["src/tools/ci/test.py:run_deterministic", "src/tools/ci/test_data_processing.py:validate_deterministic_probe"]}
{"id": "C81", "title": "Checks on samples compare their deviation with the threshold", "statement": "For a non-deterministic backend, an absolute check passes exactly if the standard deviation is below the threshold, a relative one if the rounded quotient by the mean is (and then the deviation is below threshold times mean); never for a mean of zero; a probe without a check always passes.", "quantifier": "every mean, standard deviation and threshold", "why_tests_cant": "All values; zero means and rounding are easily missed.", "anchors": ["src/tools/ci/test_data_processing.py:data_processing"]}
{"id": "C82", "title": "Every source file of the command line is instrumented before it is linked", "statement": "When verificarlo links, each source file (other than assembly) goes through the front end, the instrumentation passes and the back end, in this order; the object of this chain is the one the link command reads, no later command overwrites it; the wrappers given to the pass and those that are linked are compiled by the driver. The same holds for the object or bitcode of -c and --emit-llvm.", "quantifier": "every command line with plain file names and distinct objects (false for the extension .c++, for a.c with a.cpp, for -S and -E)", "why_tests_cant": "The driver builds shell commands by concatenation: all command lines, all option combinations.", "anchors": ["verificarlo.in.in:compiler_mode", "verificarlo.in.in:linker_mode", "verificarlo.in.in:parse_extra_args", "verificarlo.in.in:main"]}
{"id": "C83", "title": "verificarlo passes the other arguments on unchanged", "statement": "An argument the driver does not know is never lost; options reach the front end and the linker, libraries the linker, as single words equal to what the user wrote (blanks, $, * included) and in their order.", "quantifier": "every command line (false for options with a single quote, for file names with a blank, for -l followed by a name)", "why_tests_cant": "All texts of arguments, through argparse and two levels of shell words.", "anchors": ["verificarlo.in.in:parse_extra_args", "verificarlo.in.in:shell_escape", "verificarlo.in.in:parse_args", "verificarlo.in.in:compiler_mode", "verificarlo.in.in:linker_mode"]}
{"id": "C84", "title": "The passes and the wrappers agree on what is instrumented", "statement": "--inst-fcmp, --inst-fma, --inst-cast, --inst-func, --ddebug and --verbose define the macros of both compilations of the wrappers and the options of every run of the passes exactly when they are on the command line; the last --function, --include-file or --exclude-file is the one every run gets.", "quantifier": "every command line", "why_tests_cant": "All orders and combinations of options; a hook used by the pass but not compiled in the wrappers only fails in some of them.", "anchors": ["verificarlo.in.in:compile_vfcwrapper", "verificarlo.in.in:apply_mca_instrumentation_pass", "verificarlo.in.in:apply_function_instrumentation_pass", "verificarlo.in.in:compiler_mode"]}
{"id": "C85", "title": "A failed step stops the compilation", "statement": "If a command fails, verificarlo exits with status 1 after this command, having run the same commands before it as in a successful run; status 0 means that every command has succeeded.", "quantifier": "every command line, every command that may fail", "why_tests_cant": "Every possible failure of every tool.", "anchors": ["verificarlo.in.in:shell", "verificarlo.in.in:fail", "verificarlo.in.in:main"]}
{"id": "C86", "title": "Contradictory command lines are refused before anything is run", "statement": "-o with several sources under -c, -S or -E, and --function with --include-file or --exclude-file, end with status 1 and no command is run.", "quantifier": "every command line (false for --emit-llvm with -o and several sources, for a command line without any input)", "why_tests_cant": "All command lines.", "anchors": ["verificarlo.in.in:main", "verificarlo.in.in:parse_args"]}
{"id": "C87", "title": "The PRISM pass replaces exactly the operations the library has, and changes nothing else", "statement": "A module instrumented by the PRISM pass computes, for every function, argument and state of the world, what the original module computes when each operation on a supported type (f32, f64, vectors of 2, 4, 8, 16, 32 or 64 of them) in a chosen function is done by the function of the library for this operation and type: same results, same calls in the same order, whatever the order in which the pass visits the instructions; nothing else differs. Which instructions are replaced is determined by the module and the library.", "quantifier": "every module, library, worklist order, function, arguments, state of the library, number of steps", "why_tests_cant": "All programs, with loops and recursion, on all values; operands of vectors go through stack slots that are shared by instructions and must not interfere.", "anchors": ["src/libvfcinstrumentprism/libVFCInstrumentPRISM.cpp:replaceWithPRCall", "src/libvfcinstrumentprism/libVFCInstrumentPRISM.cpp:replaceArithmeticWithPRCall", "src/libvfcinstrumentprism/libVFCInstrumentPRISM.cpp:getOperands", "src/libvfcinstrumentprism/libVFCInstrumentPRISM.cpp:getAllocaForVec", "src/libvfcinstrumentprism/libVFCInstrumentPRISM.cpp:runOnBasicBlock"]}
{"id": "C88", "title": "A function of the PRISM library is never called for another operation, type, mode or dispatching", "statement": "The names under which the pass looks for a function are different for different modes, dispatchings, operations, types and (for vectors) ways of passing; each call inserted stands for an instruction of the function, goes to a function defined in the library of the chosen dispatching, whose demangled name is that of the operation and type of the instruction, and its arguments have the types of the parameters of the callee.", "quantifier": "every library, module and instruction", "why_tests_cant": "All pairs of operations and types, all contents of the IR file.", "anchors": ["src/libvfcinstrumentprism/libVFCInstrumentPRISM.cpp:getFunctionName", "src/libvfcinstrumentprism/libVFCInstrumentPRISM.cpp:getPrismFunction", "src/libvfcinstrumentprism/libVFCInstrumentPRISM.cpp:getDemangledNames", "src/libvfcinstrumentprism/libVFCInstrumentPRISM.cpp:getOperandScalar"]}
{"id": "C89", "title": "The PRISM pass never calls a function whose instruction set extensions the caller lacks", "statement": "The target features of an attribute text are read back as written; a function of the library is accepted for a caller exactly when the features of the function are among those of the caller, or the caller has all the SSE/AVX/AVX512 extensions of the function.", "quantifier": "every attribute text with the extensions enabled up to some level (false for the other features, for the registers of vectors, for a caller without the attribute)", "why_tests_cant": "All combinations of target features of caller and callee.", "anchors": ["src/libvfcinstrumentprism/TargetFeatures.hpp:TargetFeatures", "src/libvfcinstrumentprism/TargetFeatures.hpp:isIncludeIn", "src/libvfcinstrumentprism/TargetFeatures.hpp:areABICompatible"]}
{"id": "C90", "title": "With the strict ABI option no operation on a supported type stays without its PRISM function", "statement": "With the strict option the pass succeeds exactly when the library has a function for every operation on the supported types in the chosen functions; without it the pass always succeeds and leaves the others as they are.", "quantifier": "every module and library (false for incompatible functions and for other types, which are left silently)", "why_tests_cant": "All modules and libraries.", "anchors": ["src/libvfcinstrumentprism/libVFCInstrumentPRISM.cpp:replaceWithPRCall", "src/libvfcinstrumentprism/libVFCInstrumentPRISM.cpp:getPrismFunction", "src/libvfcinstrumentprism/libVFCInstrumentPRISM.cpp:isValidInstruction"]}
{"id": "C91", "title": "The PRISM pass selects the same functions as the other pass and never instruments its own library", "statement": "The functions instrumented are those --function, --include-file and --exclude-file select in the pass of the wrappers, without the functions that the IR files of the library define; each of them once.", "quantifier": "every module, option and selection file", "why_tests_cant": "All names, patterns and files.", "anchors": ["src/libvfcinstrumentprism/libVFCInstrumentPRISM.cpp:runOnModule", "src/libvfcinstrumentprism/libVFCInstrumentPRISM.cpp:parseFunctionSetFile"]}
{"id": "C92", "title": "The driver gives the PRISM pass a mode, a dispatching and options that it knows, and links the matching library", "statement": "With --prism-backend every run of the pass loads the PRISM pass with the mode of the last --prism-backend and the dispatching of the last --prism-backend-dispatch (dynamic without one), both known to the pass, and with the IR files of the library; the library linked is the one of this dispatching; the strict option is given exactly when it is on the command line; the pass declares all the options it is given exactly when --inst-fcmp and --inst-cast are not on the command line.", "quantifier": "every command line that links (false with --inst-fcmp or --inst-cast)", "why_tests_cant": "All orders and combinations of options.", "anchors": ["verificarlo.in.in:apply_mca_instrumentation_pass", "verificarlo.in.in:linker_mode", "verificarlo.in.in:main", "src/libvfcinstrumentprism/libVFCInstrumentPRISMOptions.hpp:VfclibInstMode"]}
{"id": "C93", "title": "vfc_ddebug takes exactly the documented values of its variables, with the documented defaults", "statement": "A variable INTERFLOP_DD_* that is not set keeps its documented default, each documented value has its documented meaning (stoch is s, dicho is d, strict is the empty variant, DD_NUM_THREADS below DD_NRUNS is ignored), and with any other value no session starts; the command line must name two executable scripts. With at least one run the table of sample numbers of the rddmin variants ends with DD_NRUNS, its largest entry, and no entry of the dichotomy table is larger.", "quantifier": "every environment and command line (false for DD_DICHO_TAB, documented to take an integer: integers are refused)", "why_tests_cant": "All combinations of eight variables with arbitrary text.", "anchors": ["src/tools/ddebug/dd_config.py:read_environ", "src/tools/ddebug/dd_config.py:readOneOption", "src/tools/ddebug/dd_config.py:parseArgv", "src/tools/ddebug/dd_config.py:get_rddMinTab", "src/tools/ddebug/dd_config.py:get_splitTab", "src/tools/ddebug/dd_config.py:exponentialRange"]}
{"id": "C94", "title": "vfc_ddebug reports sets of call sites that are minimal (or maximal) for the program, end to end", "statement": "For every program whose outcome depends on the instrumented call sites only, with the list of sites written by its reference run and samples run one after the other: if the instrumented program fails one of the DD_NRUNS samples and the uninstrumented one none, the tool ends. With the rddmin algorithms it reports disjoint groups of executed sites such that instrumenting one group fails, one group without any one of its sites passes, and all executed sites outside the groups pass; with ddmax it reports a passing set of executed sites to which no executed site can be added. If the instrumented program passes, it stops without a report. A report is made only after a successful reference run whose result the comparison script accepts, and it is a maximal set exactly when ddmax was asked for.", "quantifier": "every program, execution, environment, order of the directories, starting without results of earlier sessions (false with results of an older program left in the directory; granularity 1 never ends)", "why_tests_cant": "All programs and all numbers of call sites; the property goes through the filter files, the hash map of the wrapper, the names of configurations and the cache of samples.", "anchors": ["src/tools/ddebug/main.py:DDline", "src/tools/ddebug/DD_stoch.py:DDStoch.run", "src/tools/ddebug/DD_stoch.py:mergeList", "src/tools/ddebug/DD_stoch.py:_test", "src/vfcwrapper/main.c.in:vfc_read_filter_file", "src/vfcwrapper/main.c.in:DDEBUG"]}
{"id": "C95", "title": "Mode rr of the MCA backends is stochastic rounding", "statement": "With mcaquad or mcaint in mode rr, relative error, no sparsity, and the precision of the format (24 for floats, 53 for doubles), every +, -, *, / and fma of finite operands whose exact result E is not a number of the format returns one of the two neighbours of E in the format. Which one is decided by the draw: over all values of the draw, the fraction that gives the upper neighbour (for mcaint the one with the larger magnitude) is the place of E between its neighbours, within 2^-29 + 2^-51 for floats and 2^-60 + 2^-51 for doubles (mcaint: 2^-28 + 2^-64 and 2^-59 + 2^-64). Conversions from double to float in mode rr are the IEEE ones and draw nothing.", "quantifier": "every operand, state of the generator and option setting of this kind, E normal, neither neighbour overflowing, and the neighbour nearer to zero not a power of two (false at the power of two and for subnormal results: refuted)", "why_tests_cant": "A probability over 2^52 or 2^64 draws for every pair of operands.", "anchors": ["src/backends/interflop-backend-mcaquad/interflop_mca.c:_INEXACT", "src/backends/interflop-backend-mcaquad/interflop_mca.c:_MUST_NOT_BE_NOISED", "src/backends/interflop-backend-mcaquad/interflop_mca.c:_noise_binary64", "src/backends/interflop-backend-mcaquad/interflop_mca.c:_noise_binary128", "src/backends/interflop-backend-mcaquad/interflop_mca.c:INTERFLOP_MCAQUAD_API(cast_double_to_float)", "src/backends/interflop-backend-mcaint/interflop_mca_int.c:_INEXACT", "src/backends/interflop-backend-mcaint/interflop_mca_int.c:_noise_binary64", "src/backends/interflop-backend-mcaint/interflop_mca_int.c:_noise_binary128", "doc/02-Backends.md"]}
{"id": "C96", "title": "No missing library function at start-up or later", "statement": "The backends reach the C library only through handlers installed by interflop_set_handler, which gives the pointer to exactly the handler named (any other name, or none, changes nothing). In a program linked with vfcwrapper, for every list of backends, start-up finds every handler it checks, and no call that the code of the loaded backends or of the logger can make later is a call of a null pointer. In any other host, once pre_init of ieee, mcaquad, mcaint or vprec has returned, none of their later calls is one either.", "quantifier": "every name, handler table, list of backends (in any order, with repetitions) and later sequence of calls (false for bitmask and cancellation in other hosts, and for comparing names of 2050 bytes or more: refuted)", "why_tests_cant": "Every combination of loaded backends and of handlers installed by the host.", "anchors": ["src/interflop-stdlib/interflop_stdlib.c:interflop_set_handler", "src/interflop-stdlib/interflop_stdlib.c:__string_equal", "src/interflop-stdlib/interflop_stdlib.h:INTERFLOP_CHECK_IMPL", "src/vfcwrapper/main.c.in:vfc_set_handlers", "src/vfcwrapper/main.c.in:vfc_init", "src/interflop-stdlib/iostream/logger.c:_logger_check_stdlib", "src/backends/interflop-backend-vprec/interflop_vprec.c:_vprec_check_stdlib", "src/backends/interflop-backend-bitmask/interflop_bitmask.c:_bitmask_check_stdlib", "src/backends/interflop-backend-cancellation/interflop_cancellation.c:_cancellation_check_stdlib"]}
{"id": "C97", "title": "Messages of the logger", "statement": "After any history of initialisations (program and backends) and messages: a debug or information message is written exactly when VFC_BACKENDS_LOGGER and VFC_BACKENDS_LOGGER_LEVEL, as read at the last initialisation, ask for it, to the file VFC_BACKENDS_LOGFILE.<tid> of the first initialisation (standard error if unset), after the label \"Level [name]: \", coloured exactly when VFC_BACKENDS_COLORED_LOGGER is true (case ignored). The text of a warning or error always reaches standard error; an error ends the program with status 1 and nothing later is written. All output goes to standard error or to that one file.", "quantifier": "every history of logger_init and message calls, environment at each initialisation, thread identifier, text and label without escape characters", "why_tests_cant": "Every environment and every history of initialisations and messages.", "anchors": ["src/interflop-stdlib/iostream/logger.c:logger_init", "src/interflop-stdlib/iostream/logger.c:is_logger_enabled", "src/interflop-stdlib/iostream/logger.c:is_logger_colored", "src/interflop-stdlib/iostream/logger.c:get_logger_level", "src/interflop-stdlib/iostream/logger.c:set_logger_logfile", "src/interflop-stdlib/iostream/logger.c:logger_header", "src/interflop-stdlib/iostream/logger.c:logger_debug", "src/interflop-stdlib/iostream/logger.c:logger_info", "src/interflop-stdlib/iostream/logger.c:logger_warning", "src/interflop-stdlib/iostream/logger.c:logger_error", "doc/02-Backends.md"]}
{"id": "C98", "title": "vfc-vtk adds exactly the accuracy arrays", "statement": "For every VTK file and set of traces such that the Float32 arrays have distinct names, each present with the same number of readable values in all traces: the output has all arrays of the reference in their places, in order and unchanged (with --mean, the values replaced by the means), preceded in their section by one array <name>_vfc_accuracy for each Float32 array (in the first PointData for arrays below Points) with its attributes and the accuracy of each value over the traces, and nothing else. An existing output directory is never touched.", "quantifier": "every file, number of traces and options (names without quotes; false for Python 3, other types, -r, repeated names and Points without PointData: refuted)", "why_tests_cant": "Every tree of arrays and every number of traces; the arrays are found again by name after each insertion.", "anchors": ["src/tools/vtk/__main__.py:merge_vtu", "src/tools/vtk/__main__.py:postprocess", "src/tools/vtk/__main__.py:find_vtu", "src/tools/vfc-vtk.py:merge_vtu", "doc/06-Postprocessing.md"]}
{"id": "C99", "title": "The accuracy reported by vfc-vtk bounds the spread of the traces", "statement": "For a value with mean m > 0 over n traces the number of digits s is between 0 and 17; every trace is within sqrt(n) m 10^-s of the mean if s > 0, and some trace is at least m 10^-s away if s < 17. With --std, every trace is within sqrt(n) times the reported deviation, and some trace at least at that distance. Neither depends on the order of the traces, and the digits do not depend on the unit.", "quantifier": "every nonempty list of real values with positive mean (false for negative means and for zeros: refuted); arithmetic taken as exact", "why_tests_cant": "Every list of values.", "anchors": ["src/tools/vtk/__main__.py:merge_vtu", "src/tools/vfc-vtk.py:merge_vtu"]}
{"id": "C100", "title": "Which runs the report of vfc_ci serve shows", "statement": "For every directory of run files with distinct timestamps, every --max-files and every --ignore-recent smaller than the number of files: the report has, in chronological order, exactly the runs older than the ignored ones and with fewer than max-files runs before them, and the data of exactly these runs. Without an excess of files these are all runs but the ignored ones.", "quantifier": "every list of run files and every pair of options (the documented choice of the most recent runs is false, and ignoring all files raises: refuted)", "why_tests_cant": "Every number of files, order of the directory and pair of options.", "anchors": ["src/tools/ci/vfc_ci_report/main.py", "src/tools/ci/__main__.py:serve"]}
{"id": "C101", "title": "Names of the runs", "statement": "The name of a run states its age in the largest unit it reaches, rounded down, and its commit. Names of different runs differ and each selects its run, for runs that are all outside git, all of one commit, or all of different commits; the last name of the selector is the most recent run.", "quantifier": "every list of runs with distinct timestamps (mixed git and other runs, and two runs in the same second: refuted)", "why_tests_cant": "Every list of ages and commits; the numbering depends on the previous names.", "anchors": ["src/tools/ci/vfc_ci_report/helper.py:get_run_name", "src/tools/ci/vfc_ci_report/helper.py:gen_runs_selection", "src/tools/ci/vfc_ci_report/main.py"]}
{"id": "C102", "title": "The comparison plots show the latest runs in order", "statement": "For every test, variable and backend with data and every number n of runs, the points of a comparison plot are the n latest runs (all for 0 or less data) in chronological order, each with the name of its run, its own value, number of samples and colour (red if its check failed); the deterministic plot has also the reference value of exactly the failed checks.", "quantifier": "every set of rows, selection and n (the deterministic plot with the filter of outliers raises: refuted)", "why_tests_cant": "Every history of runs and every order of the rows.", "anchors": ["src/tools/ci/vfc_ci_report/compare_runs.py:update_plots", "src/tools/ci/vfc_ci_report/deterministic_compare.py:update_plots", "src/tools/ci/vfc_ci_report/helper.py:gen_x_series"]}
{"id": "C103", "title": "The filter of outliers", "statement": "For every series with a non-zero value, the filter removes exactly the values at 3 standard deviations or more from the mean: at most a ninth of them and none of nine or fewer. Names and values stay aligned.", "quantifier": "every list of real values (series of zeros and the other columns of the plot: refuted); arithmetic taken as exact", "why_tests_cant": "Every list of values.", "anchors": ["src/tools/ci/vfc_ci_report/helper.py:detect_outliers", "src/tools/ci/vfc_ci_report/helper.py:remove_outliers", "src/tools/ci/vfc_ci_report/compare_runs.py:update_plots"]}
{"id": "C104", "title": "Repositories of the report", "statement": "If each repository has one branch and no two share it, every repository gets the name owner/project:branch (None outside git), and selecting a name shows exactly the rows of the runs of the repositories of that name.", "quantifier": "every list of runs and URLs (repositories that share a branch or have several: refuted)", "why_tests_cant": "Every order and number of repositories.", "anchors": ["src/tools/ci/vfc_ci_report/helper.py:gen_repo_names", "src/tools/ci/vfc_ci_report/helper.py:filterby_repo", "src/tools/ci/vfc_ci_report/main.py:ViewsMaster"]}
{"id": "C105", "title": "The options of vfc_ci serve reach the report", "statement": "The report reads the directory, logo and numbers given on the command line, or the defaults, for every combination of options whose texts are words that os.path.normpath leaves alone and that are not names of options.", "quantifier": "every combination of options (URLs with //, directories with a component to remove and directories named as options: refuted)", "why_tests_cant": "Every text; the options are joined to a shell command which is normalised as one path.", "anchors": ["src/tools/ci/serve.py:run", "src/tools/ci/vfc_ci_report/main.py"]}
{"id": "C106", "title": "The inspect view shows the selected run as selected", "statement": "If every run has data, the view opens with the most recent run and no selection raises. After every history of selections the widgets have their last values, the factors of grouping and filtering differ, the value of the filter occurs in the run, and the plots have exactly one box for each value of the grouping factor among the rows of the run with the value of the filter. Each box has the number of its rows, their minimum and maximum, ordered quartiles with their share of the values on each side, and means between the bounds.", "quantifier": "every set of runs and rows and every history of selections (runs without data, labels of more than 39 characters and the filter by minimum: refuted); arithmetic taken as exact", "why_tests_cant": "Every history of selections; the callbacks change each other's widgets.", "anchors": ["src/tools/ci/vfc_ci_report/inspect_runs.py:update_run", "src/tools/ci/vfc_ci_report/inspect_runs.py:update_groupby", "src/tools/ci/vfc_ci_report/inspect_runs.py:update_filterby", "src/tools/ci/vfc_ci_report/inspect_runs.py:update_plots", "src/tools/ci/vfc_ci_report/inspect_runs.py:data_processing", "src/tools/ci/vfc_ci_report/helper.py:remove_boxplot_outliers"]}
{"id": "C107", "title": "The tables of checks show the selected run", "statement": "After every history of selections the table of non-deterministic checks has exactly the rows with a non-zero threshold of the run selected last, and so should the table of deterministic checks and a click on a point of the deterministic comparison.", "quantifier": "every set of runs and rows and every history (the deterministic table and the click: refuted)", "why_tests_cant": "Every history of selections in two selectors.", "anchors": ["src/tools/ci/vfc_ci_report/checks.py:update_non_deterministic_run", "src/tools/ci/vfc_ci_report/checks.py:update_deterministic_run", "src/tools/ci/vfc_ci_report/checks.py:switch_view", "src/tools/ci/vfc_ci_report/deterministic_compare.py:checks_callback"]}
{"id": "C108", "title": "vfc_report presents every call site of the exploration with its own results", "statement": "From the four result files of a complete exploration vfc_report writes the report. Its chart has each called function once with the sum of the calls of its call sites, by decreasing number of calls. Each function has one block with exactly its call sites, by decreasing number of calls, each with its file, line and number of calls; its links to arguments are active exactly when it has arguments, those to operations exactly when it is compiled with verificarlo, and each opens an image of the results for this call site. With names on the command line only these functions are presented.", "quantifier": "every content of the result files, every list of names and every order in which sort_values leaves equal rows (installed program, names on the command line, operations only, files of the same name: refuted)", "why_tests_cant": "Every set of IDs and precisions: the dictionaries, sorts and image names of all call sites together; image files are overwritten silently.", "anchors": ["src/tools/optimize/report.py:main", "src/tools/optimize/report.py:GetFunctionInfo", "src/tools/optimize/report.py:FilterFunctions", "src/tools/optimize/report.py:PlotArgs", "src/tools/optimize/report.py:PlotOps", "src/tools/vfc_report"]}
{"id": "C109", "title": "The page of vfc_report displays what was chosen", "statement": "After any sequence of clicks the one function whose call sites are displayed is the function chosen last in the chart, and the information of a call site is displayed exactly when its heading was clicked an odd number of times.", "quantifier": "every report and every sequence of clicks (functions with the same name but for the case of letters: refuted)", "why_tests_cant": "Every history of clicks.", "anchors": ["src/tools/optimize/report.py:AddMainChart", "src/tools/optimize/report.py:ReportString", "src/tools/vfc_report"]}
{"id": "C110", "title": "Delta-debug in a program with threads", "statement": "With inclusion and exclusion files, each thread sends to the backends exactly the operations whose call site the files select, whatever the other threads do and in whatever order the memory accesses happen. With VFC_DDEBUG_GEN the list only has call sites that some thread executed and that are not excluded, and no other operation is changed; with one thread it has all of them. With several threads it may miss executed sites, write into freed memory or never end.", "quantifier": "any number of threads, any sequences of call sites, any exclusion and inclusion files, every interleaving of single memory accesses (completeness and absence of invalid accesses with VFC_DDEBUG_GEN and two threads: refuted)", "why_tests_cant": "The number of interleavings is unbounded; the failures need a particular one, so runs of a test pass by chance.", "anchors": ["src/vfcwrapper/main.c.in:ddebug", "src/vfcwrapper/main.c.in:ddebug_generate_inclusion", "src/interflop-stdlib/hashmap/vfc_hashmap.c:hashmap_add_member", "src/interflop-stdlib/hashmap/vfc_hashmap.c:maybe_rehash_map", "src/interflop-stdlib/hashmap/vfc_hashmap.c:vfc_hashmap_insert", "src/interflop-stdlib/hashmap/vfc_hashmap.c:vfc_hashmap_have"]}
{"id": "C111", "title": "What vfc_ci setup does to a repository and its origin", "statement": "A first vfc_ci setup on a clean branch that is in step with its upstream adds one commit with the workflow to the branch and to the origin, creates a CI branch of a single commit with a README, and comes back to the branch with the files as they were. When the branch is dirty, has no upstream or differs from it, nothing changes. Wherever it stops, every branch keeps its commits, the origin only moves forward, and no file but the workflow and README.md differs. The message of success means that the origin has the workflow, and only the workflow is published.", "quantifier": "every repository (files, branches, ignore rules), both hosts, every answer of the origin, every point at which the program stops (that only the workflow is published, that success means the origin took it, and that a second run keeps the results: refuted)", "why_tests_cant": "The states of a repository and of its origin are unbounded and the program stops at any of fifteen places; a test sets up one fresh repository.", "anchors": ["src/tools/ci/setup.py:run", "src/tools/ci/setup.py:gen_workflow", "src/tools/ci/setup.py:gen_readme"]}
{"id": "C112", "title": "The results that the CI jobs put on the CI branch", "statement": "Under every schedule of the jobs of the workflow that vfc_ci setup installs, the CI branch only gains the commits of jobs that succeeded, it has the run file of each of them, and nothing else on it changes. Jobs that run one after the other all succeed. A job during which another one uploads fails and its results reach no branch. The gitlab job pushes to the origin.", "quantifier": "any number of jobs, any interleaving of their copy, test and upload steps, both hosts, any remote address (that every job whose tests pass uploads, and that the gitlab address is the origin when it ends with .git: refuted)", "why_tests_cant": "Which job overtakes which depends on the schedule of the CI service.", "anchors": ["src/tools/ci/workflow_templates/vfc_test_workflow.j2.yml:Commit test results", "src/tools/ci/workflow_templates/gitlab-ci.j2.yml:script", "src/tools/ci/setup.py:gen_workflow"]}
{"id": "C113", "title": "The memory of the probes over their life, and probes from Fortran", "statement": "Any sequence of probes followed by one vfc_free_probes or vfc_dump_probes uses no freed memory, frees nothing twice and frees every probe. The structure can then be used again. A Fortran program that passes a name records that name, and reads the number of probes.", "quantifier": "every sequence of probes, with or without VFC_PROBES_OUTPUT, whatever follows a name in memory (use after a dump, freeing of the table, Fortran names without a final c_null_char and the Fortran count: refuted)", "why_tests_cant": "Invalid accesses after a dump and unterminated names often have no visible effect; what follows a string in memory is not under the control of a test.", "anchors": ["src/common/vfc_probes.c:vfc_free_probes", "src/common/vfc_probes.c:vfc_dump_probes", "src/common/vfc_probes.c:vfc_probe_kernel", "src/common/vfc_probes.c:vfc_num_probes", "src/common/vfc_probes.c:vfc_probe_f", "src/interflop-stdlib/hashmap/vfc_hashmap.c:vfc_hashmap_free", "src/common/vfc_probes_f.f90:vfc_probe", "src/common/vfc_probes_f.f90:vfc_num_probes"]}
{"id": "C114", "title": "The call stack in a program with threads", "statement": "Whatever the threads call and however they interleave, no access to the call stack is outside of its array, its depth is the number of calls in progress, a backend is shown the function that its thread enters or leaves, and when every call has ended the stack is as it was at the start.", "quantifier": "every number of threads, every programs of the threads, every schedule of the single accesses to top and to the array (the function shown, and depth and sentinel when changes overlap: refuted; stores out of the array: refuted when top is read twice, proved impossible when it is read once)", "why_tests_cant": "The losing interleavings are a few instructions wide; tests do not choose the schedule.", "anchors": ["src/vfcwrapper/funcinstr.c:vfc_call_stack_push", "src/vfcwrapper/funcinstr.c:vfc_call_stack_pop", "src/vfcwrapper/funcinstr.c:vfc_enter_function", "src/vfcwrapper/funcinstr.c:vfc_exit_function", "src/backends/interflop-backend-vprec/interflop_vprec_function_instrumentation.c:_vfi_enter_function", "src/backends/interflop-backend-vprec/interflop_vprec_function_instrumentation.c:_vfi_exit_function"]}
{"id": "C115", "title": "The hash map under threads", "statement": "Threads that insert into and look up one table at the same time never read or write outside of it; a look-up answers the value inserted with its key or NULL; when all have finished every key has its value and the count is right.", "quantifier": "every number of threads, every sequences of insertions and look-ups, every schedule of the single accesses, every table with room for the insertions (keys with the same first cell, the count, and growth of the table: refuted)", "why_tests_cant": "The losing interleavings are a few instructions wide and need keys that meet in the table; tests do not choose the schedule.", "anchors": ["src/interflop-stdlib/hashmap/vfc_hashmap.c:hashmap_add_member", "src/interflop-stdlib/hashmap/vfc_hashmap.c:vfc_hashmap_insert", "src/interflop-stdlib/hashmap/vfc_hashmap.c:vfc_hashmap_get", "src/interflop-stdlib/hashmap/vfc_hashmap.c:maybe_rehash_map", "src/vfcwrapper/funcinstr.c:vfc_func_table_get", "src/vfcwrapper/funcinstr.c:vfc_func_table_add", "src/vfcwrapper/funcinstr.c:vfc_enter_function", "src/backends/interflop-backend-vprec/interflop_vprec_function_instrumentation.c:_vfi_enter_function"]}
