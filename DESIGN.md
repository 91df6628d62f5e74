# Formal model of Verificarlo's run-time and tools: design

Source modelled: `/repo` (verificarlo/verificarlo at the pinned commit), read as text.
Prover: Rocq/Coq 8.16.1; Flocq 4.1 is used for the real-number semantics of floats (definitions and lemmas, no axiom of its own).

## Layout

| layer | files (`rocq/theories`) | contents |
|---|---|---|
| outcomes, text | `Common.v`, `Text.v` | outcomes (`Ok`, `UB`, `Exit`, `Diverge`), machine words, text helpers |
| floats | `Bits.v`, `BitsFacts.v`, `FloatReal.v`, `FloatValue.v`, `FloatOps.v`, `DoubleRound.v` | IEEE 754 interchange bit patterns as `Z`, fields, classification, value in `R`, correct rounding (`encodes`), a computable IEEE arithmetic (`soft`) proved to be one, innocuous double rounding |
| models | `*Model.v`, `VprecConfig.v`, `DDModel.v` | total computable definitions, each citing file and lines of `/repo` |
| proofs | `*Proofs.v` and the other files | lemmas |
| properties | `Prop_*.v` | the specifications and the property theorems, each followed by `Print Assumptions` and an `Example` showing a non-trivial instance of its hypotheses |

Conventions. C undefined behaviour, process exit, non-termination and normal results are distinct outcomes. Machine words are
`Z` with explicit `mod 2^w`. External calls (compiler-generated IEEE arithmetic, libm, the operating system, other programs) are
universally quantified functions, recorded in the trusted base. Where a property is false of the faithful model, the theorem is
named `..._refuted` and has a computed witness; it is listed in "Findings" below. What does hold is proved separately.

## Plan per property

| id | modelled | proof |
|---|---|---|
| C01 | `round_binary{32,64}_normal`, `_vprec_round_binary{32,64}` on bit patterns, generic in the format | value of the result = Flocq's nearest-even rounding |
| C02 | the denormal helpers with the binary128 detour | same specification; the exception (half of the smallest subnormal) characterised |
| C03 | overflow branch | iff with the rounded value |
| C04-C06 | as C01-C03 | representability and idempotence; monotonicity; symmetry, except the sign of zero |
| C07 | `_vprec_binary*_op`; the native operation is an arbitrary function | case analysis over modes and operations |
| C08, C53 | setters, user call, `parse_opt`, configure as a state machine with outcome Exit | invariant by induction over the request list |
| C09 | shifts with out-of-range counts: strict C gives UB, x86 takes the count modulo the width | refuted in strict C; identity with x86 shifts |
| C10, C11 | DAZ/FTZ branch, cast hook | case analysis and value lemmas |
| C12 | `compute_absErr`, `handle_*_normal_absErr` | error bound in each branch; refuted where the emulated range is left |
| C13, C14 | VPREC function instrumentation: enter/exit, argument loops | induction over well-nested histories; loops over arguments |
| C15 | text format of the profile, writer and reader | round trip by induction over lines |
| C16, C17, C18, C54 | splitmix64, xoroshiro128+, per-thread states, global counter, push/pop of seeds | explicit inverses; the stuck seed; projection of any interleaving |
| C19-C22, C55, C56 | mcaquad and mcaint `_INEXACT`, noise builders, all operations, sparsity, user call `inexact` | case analysis; exponent-field arithmetic; error bounds in `R` |
| C23, C24, C57-C59 | bitmask `_INEXACT`, masks, all operations | testbit reasoning, then value bounds |
| C25 | `cancell` | exponents of exact results; refuted as stated |
| C26-C28, C63 | IEEE backend: comparisons, counters, binary printing, operations | LLVM's truth table; interleavings; decoding of the printed text |
| C29-C33, C52 | open-addressing tables, probes | invariant and refinement to finite map/set; termination by the odd probe step |
| C34-C39 | wrapper dispatch, vector loops, delta-debug filter, environment parsing, va_list, call stack | induction over backend lists and traces |
| C40-C45, C60-C62 | `DD.py`, `DD_stoch.py`: ddmin, ddmax, rddmin, srddmin, drddmin, outcome cache, sample cache | fuelled functions with termination measures; minimality invariants |
| C46, C47, C64, C65 | `precexp.py`: dichotomic search, exploration, files exchanged with VPREC | loop invariants; text round trip |
| C48, C66 | selection of functions: list files, patterns, an ECMAScript matcher for the patterns built | glob matching |
| C67, C68 | `libVFCInstrument.cpp` on blocks of a typed LLVM fragment | simulation of the original block by the instrumented one |
| C69 | options, configure hooks and user calls of the MCA, bitmask and cancellation backends | case analysis against documented domains; invariant over histories |
| C70, C71 | whole modules: `runOnModule`, `runOnFunction`, execution of functions made of blocks | simulation between executions with the same budget; budget monotonicity |
| C72-C75 | function instrumentation: `libVFCFuncInstrument.cpp`, execution of hooks | hooks by induction over parameters; simulation between the program with hooks and the program with marked calls |
| C76-C81 | `vfc_ci test`: printf %a, float.fromhex, pandas reader, grouping, checks | round trip through exact rounding; induction over lines and cuts of the file; comparisons in the reals |
| C82-C86 | `verificarlo` driver: argparse, shell commands as texts, words of the shell | commands as lists of words through a tokenizer; who writes which file; simulation of runs with and without a failure |
| C87-C91 | PRISM instrumentation pass: modules over the IR of C70, stack slots for vectors, target features as texts | simulation of functions by induction on fuel; invariant of the map of allocas (keys and slots in bijection, new slots fresh) |
| C92 | driver of C82-C86 with a PRISM backend, options declared by the PRISM pass | words of the commands |
| C93 | the environment as a function from names to texts, int() and log arbitrary | equivalence of reading and a declarative description |
| C94 | composition of C36 (filters), C40-C45, C61, C62 (algorithms and cache) and C93 | lines and call sites in bijection; name of a configuration determines the sites it instruments; transfer of the results on lines to call sites |
| C95 | the composition of C20-C22 (noise, exponent, representability test) with the roundings to the computation and storage formats | neighbours in FLT (Flocq); noise added before rounding moves the result across the midpoint exactly when the draw exceeds 1 - place, up to the roundings of the computation format; counting over a permutation of the draws |
| C96 | `set_handler` (handler table), `checked`/`uses` (lists of each backend), `startup` as a script of installations, checks and calls | tables only grow, so a handler installed or checked once is there for every later call; induction over the list of backends; inclusion of name lists by computation |
| C97 | `LogModel.v`: the static variables of the logger, its five entry points, a history as a list of events | invariant by induction over histories: the state is that of the last initialisation, the stream that of the first; case-insensitive comparison characterised letter by letter |
| C98 | `VtkModel.v`: files as sections of arrays, `merge_name` with the searches by name, insertions at the front | the state after a prefix of the names has a closed form (`state`); each search finds the only array of that name because inserted names differ |
| C99 | `mean`, `std`, `digits` of one column over the reals | sums of squares; powers and logarithms of the reals |
| C100 | `ReportModel.v`: `load` on lists of run files | position of a run in the sorted list = number of older runs |
| C101 | `base_name`, `next_name`, `run_names`, `runs_selection` | ages do not increase along the list, so equal labels are adjacent; numbered names end differently |
| C102 | `compare_dots`, `compare_deterministic`, `gen_x_series` | the loop from the end = suffix of the history |
| C103 | `detect_outliers` over the reals | sum of squares of the removed values (Chebyshev) |
| C104, C105 | `repositories`, `rows_of_repository`; `command`, `normpath`, `read_args` | induction over the distinct URLs; components and words of the command |
| C106 | `ReportViews.v`: state of the inspect view, `step` for each callback | invariant of the sessions (`consistent`); order statistics of sorted lists |
| C107 | `checks`, `step_checks` | invariant over the histories |
| C108 | `ExpReportModel.v`: `vfc_report` on the rows of the four CSV files; images as a history of writes | invariant of the dictionaries; any descending sort; image names are injective in the number |
| C109 | `screen`, `on_click`: the script of the page | invariant over the clicks |
| C110 | `ConcHashModel.v`: the hash map and `ddebug` as programs of single memory accesses, run by any schedule of any number of threads | read-only programs evaluate as alone; an invariant of memory kept by each access; refinement of the sequential model for one thread |
| C111 | `SetupModel.v`: `setup.py` as fifteen statements on a git repository (branches, index, work tree) and its origin | invariant of every state between two statements; closed form of the final state |
| C112 | `SetupModel.v`: the jobs of the two workflow templates as steps of any schedule | invariant: copies are suffixes of the branch, identifiers are unique, so a push succeeds only on the current branch |
| C113 | `ProbesLifeModel.v`: the blocks of the probes, alive or not, over any history of calls; Fortran arguments as memory | the table has each address exactly once (from the hash map proofs), so each block is freed exactly once |
| C114 | `StackThreadsModel.v`: every access to `top` and to the array is a step of a thread | invariants over any schedule (range of top and of the values read) and over schedules without overlap (depth, cells, sentinel); explicit schedules for the refutations |
| C115 | `HashThreadsModel.v`: every access to a cell and to nitems is a step of a thread | invariant on values, indices and pending counts over any schedule; ownership of first cells (permutation of insertions done and open); explicit schedules for the refutations |
| C49-C51 | stdlib helpers `fpow2i`, `pow2i`, `fpclassify`, `is_representable` | bit arithmetic |

## Trusted base

* The Coq 8.16.1 kernel (`coqc`); no plugin beyond those the standard library, Flocq and std++ load.
* The axioms of Coq's standard library listed under "Assumptions" below, and no others.
* The reading of the C, C++ and Python source: nothing is extracted or executed.
* Hypotheses visible in theorem statements about external components:
  * `ieee_arith n`: the compiler's float, double and quad operations, conversions and `fma` are correctly rounded to nearest, ties
    to even (IEEE 754). `soft` in `FloatOps.v` is a computable arithmetic proved to satisfy it (`soft_ieee`), so it is not vacuous.
  * shifts: theorems about VPREC name the semantics they use (`Strict` = ISO C, `X86` = count modulo the width).
  * `strtol`/`strtod` of the library (value, error flag), the clock, thread identifiers, `os.listdir`, the test program of delta
    debugging, the application run by precexp, the other backends: universally quantified functions or relations.
  * sequential consistency of C11 atomics for the IEEE counters.

### Modelled

| source | functions modelled | file |
|---|---|---|
| `src/interflop-stdlib/hashmap/vfc_hashmap.c` | all | `HashModel.v` |
| `src/vfcwrapper/hashset.c` | all | `HashModel.v` |
| `src/common/vfc_probes.c` | all but the fixed-format `fprintf` of the values | `ProbesModel.v` |
| `src/interflop-stdlib/common/{float_utils,generic_builtin,float_struct,float_const,options}.h` | `fpow2i`, `pow2i`, classification, exponents, representability, setters | `Bits.v`, `StdlibModel.v` |
| `src/interflop-stdlib/rng/*` | all | `RngModel.v` |
| `src/backends/interflop-backend-vprec/{interflop_vprec.c,common/vprec_tools.c}` | rounding, operations, casts, FMA, DAZ/FTZ, error modes, options, configure, user calls | `VprecModel.v`, `VprecConfig.v` |
| `src/backends/interflop-backend-vprec/interflop_vprec_function_instrumentation.c` | enter, exit, argument rounding, bounds, profile writer and reader | `VfiModel.v` |
| `src/backends/interflop-backend-mcaquad/interflop_mca.c` | noise, `_INEXACT`, all operations, user call, options, configure | `McaModel.v`, `ConfigModel.v` |
| `src/backends/interflop-backend-mcaint/interflop_mca_int.c` | same | `McaModel.v`, `ConfigModel.v` |
| `src/backends/interflop-backend-bitmask/interflop_bitmask.c` | masks, `_INEXACT`, operations, options, configure | `BitmaskModel.v`, `ConfigModel.v` |
| `src/backends/interflop-backend-cancellation/interflop_cancellation.c` | all but the warning text | `CancelModel.v`, `ConfigModel.v` |
| `src/backends/interflop-backend-ieee/*` | operations, comparisons, counters, `printf_specifier.c` binary text | `IeeeModel.v` |
| `src/vfcwrapper/main.c.in` | parsing of VFC_BACKENDS, dispatch of every scalar and vector wrapper, delta-debug filters and generation | `WrapModel.v`, `DdebugModel.v` |
| `src/vfcwrapper/funcinstr.c` | all | `FuncModel.v` |
| `src/tools/ddebug/DD.py` | split, ddmin (`_dd`/`dd`/`ddmin`), ddmax, outcome cache, monotony queries | `DDModel.v` |
| `src/tools/ddebug/DD_stoch.py` | rddmin, srddmin, drddmin, dichotomies, sample directories, test with cache | `DDModel.v`, `DDSample.v`, `DDCache.v` |
| `src/tools/optimize/precexp.py` | profile reader, configuration writer, searches, exploration | `PrecexpModel.v` |
| `src/libvfcinstrument/libVFCInstrument.cpp` | list files, patterns, selection, `runOnBasicBlock` and all it calls | `SelectModel.v`, `InstrModel.v` |
| `src/libvfcinstrument/libVFCInstrument.cpp` | `runOnModule`, `runOnFunction`; execution of modules (phi nodes, branches, switches, returns, calls) | `ModuleModel.v` |
| `src/libvfcfuncinstrument/libVFCFuncInstrument.cpp` | all; debug information, library and intrinsic predicates, origins and uses of pointers are arbitrary functions; execution of hooks as part of the call they replace | `FuncPassModel.v` |
| `src/tools/ci/test.py`, `src/tools/ci/test_data_processing.py`, `%a` of `vfc_probes.c` | `read_probes_csv`, `run_deterministic`, `run_non_deterministic`, `run_tests`, `validate_deterministic_probe`, checks of `data_processing`; not modelled: git, metadata, HDF5 files, normality tests, significant digits, order of groups, quotes and non-ASCII bytes in the csv, chunks of the reader | `CiModel.v` |
| `verificarlo.in.in` | the whole script: argparse options (no prefix matching), classification of arguments, commands as texts, temporary names (random part arbitrary), exit status. Not modelled: `--help`, `--version` and `--` (outcome `Outside`), deletion of temporary files, stdout of --show-cmd | `DriverModel.v` |
| `src/libvfcinstrumentprism/libVFCInstrumentPRISM.cpp`, `TargetFeatures.hpp`, `libVFCInstrumentPRISMOptions.hpp` | names of types and operations, lookup in the IR file by demangled name (demangler arbitrary), passing of vectors by value or pointer, allocas, casts of <2 x float>, ABI test, selection, strict mode, order of the worklist arbitrary. Not modelled: cloning of the functions of the library into the module with their globals (calls go to the library by name), debug printing, scalable vectors (the pass stops) | `PrismModel.v` |
| `src/tools/ddebug/dd_config.py`, `DD_stoch.py` (`DDStoch.__init__`, `mergeList`, `run`), `main.py` | the whole configuration and session, with the program and the comparison script as one arbitrary function of the set of instrumented sites and the number of the sample. Not modelled: MD5 collisions, carriage returns in lines, DD_NRUNS above 2^53, symbolic links, messages, ASLR, exec_stat | `DDMainModel.v` |
| the same backend code as for C20-C22 | no new model: `StochRound.v` analyses `McaModel.v` | `StochRound.v` |
| `src/interflop-stdlib/interflop_stdlib.c`, `INTERFLOP_CHECK_IMPL`, `vfc_set_handlers`, the handlers of `vfc_init`, `_*_check_stdlib` and `pre_init` of the six backends | handlers are numbers, 0 for Null; the bodies of the backends are represented by the set of handlers they call; a panic handler that returns is not modelled | `HandlerModel.v` |
| `src/interflop-stdlib/iostream/logger.c` | formatted texts; one thread; writes succeed; calling `fopen` through a pointer with three parameters passes the first two | `LogModel.v` |
| `src/tools/vtk/__main__.py`, `src/tools/vfc-vtk.py` | XML files as the list of parents of arrays; reading and printing of numbers arbitrary; numpy arithmetic exact, with the special values of the division and the logarithm; `Element.copy` exists in Python 2 only | `VtkModel.v` |
| `src/tools/ci/serve.py`, `src/tools/ci/vfc_ci_report/{main,helper,compare_runs,deterministic_compare}.py` | dataframes as lists of rows, statistics as real numbers; Bokeh and HDF5 not modelled | `ReportModel.v` |
| `src/tools/ci/vfc_ci_report/{inspect_runs,checks}.py` | callbacks run when the value of their widget changes; a session ends at the first exception; the order of the boxes, titles, axes and `change_repo` not modelled | `ReportViews.v` |
| `src/tools/optimize/report.py`, `src/tools/vfc_report` | HTML as a structure (chart, blocks, headings, links), images as what they show; CSV reading, style and layout not modelled; sorting is any descending sort | `ExpReportModel.v` |
| `vfc_hashmap.c`, macro `ddebug`, `ddebug_generate_inclusion` with threads | each access of a field or item is one atomic step in a sequentially consistent memory (C11: these races are undefined, so real behaviours include these); calloc succeeds and never returns a freed block | `ConcHashModel.v` |
| `setup.py` | all of `run`, `gen_workflow`, `gen_readme`; a branch is the list of its commits, a tree a finite map; a reference refused by the origin does not raise in GitPython, a push without a status line does; `input`, messages, file modes, submodules, detached heads not modelled | `SetupModel.v` |
| `vfc_test_workflow.j2.yml`, `gitlab-ci.j2.yml` | copy of the CI branch, tests (pass or fail), commit of one run file, push; triggers, containers, artifacts not modelled | `SetupModel.v` |
| `vfc_free_probes`, `vfc_dump_probes`, `vfc_hashmap_free`, `vfc_probes_f.f90` | which blocks are alive; the blocks of the items during a rehash are not followed; malloc succeeds | `ProbesLifeModel.v` |
| `vfc_call_stack_push`, `vfc_call_stack_pop` as called by `vfc_enter_function`, `vfc_exit_function` from several threads | sequentially consistent memory; `top` read once or twice in each change; the function table is not included | `StackThreadsModel.v` |
| `hashmap_add_member`, `vfc_hashmap_insert`, `vfc_hashmap_get` from several threads | sequentially consistent memory; the reads of one value by one loop test are one step; tables with room; of `maybe_rehash_map` only the states after L165 and L167 | `HashThreadsModel.v` |

### Not modelled

* Of the web report of `src/tools/ci`: `change_repo` of the views, the callbacks of the selectors of the comparison views, layout,
  tooltips and JavaScript. Fortran bindings.
* Headers printed at load time, `--count-op` text, debug printing other than the binary format; concurrent use of the logger.
* `dlopen`/`dlsym` beyond success or failure; argp's splitting of an option from its argument (its effect is the input of the models).
* Thread interleavings inside one non-atomic C function, except for the delta-debug tables (C110) and the sites listed above: the hash set and the call stack of functions are modelled sequentially
  (the code takes no lock; concurrent use is a data race, that is, undefined).
* Floating-point exceptions flags and rounding modes other than to nearest; signalling NaN payloads.
* `double _Complex`, `long double` and `_Float16` operations (not instrumented by the tool).
* LLVM itself: the passes are modelled on a typed fragment (arithmetic, comparisons, casts, fma, memory, calls, phi nodes, branches,
  switches, returns; no invoke, no exceptions), executed on bit patterns.

## Findings

Each line is a theorem with a computed witness, traced to the source.

| theorem | what happens |
|---|---|
| `C02_subnormal_tie_refuted` | VPREC: exactly half of the smallest emulated subnormal rounds away from even |
| `C06_negative_underflow_sign_refuted` | VPREC: a negative value that underflows becomes +0 |
| `C09_default_no_ub_refuted` | VPREC: at the default precision every normal result executes `1 << -1` |
| `C12_subnormal_abs_error_refuted`, `C12_abs_range_refuted` | VPREC abs mode: below the normal range the error exponent is used as a precision; the range is not enforced after the absolute rounding |
| `C13_*_refuted` | VPREC function instrumentation: precision of the caller is not restored after functions without floating-point operands, after library functions that call back, at the outermost function; functions are told apart by a hash |
| `C14_array_refuted`, `C14_special_value_refuted` | only element 0 of an array is rounded (n times) and bounded; NaN, infinities and values from 2^31 make the recording undefined |
| `C15_*_refuted` | profile: ids of 256-511 bytes overflow the reader's buffer, unnamed arguments break it, unfinished functions come back with an empty output array that is later written, the reader may loop at end of file |
| `C16_stuck_refuted` | RNG: seed 0x61C8864680B583EB xor thread id gives the all-zero state, draws 0 for ever |
| `C16_cross_thread_refuted`, `C16_clock_refuted` | seed s thread 1 and seed s^3 thread 2 share their stream; clock seeds collide |
| `C17_open_interval_refuted` | 0 is drawn although the documentation says (0,1) |
| `C18_order_matters_refuted` | which thread draws first decides who gets which stream |
| `C19_ieee_fma_refuted` | mcaquad mode ieee: fma is rounded twice |
| `C21_half_draw_refuted` | mcaquad: the draw 1/2 makes the noise 0 whose exponent field wraps: 1 + 2^-30 becomes +infinity |
| `C21_int_exponent_of_operand_refuted` | mcaint: near the top of a binade the noise is up to twice the bound |
| `C22_operation_skipped_refuted` | sparsity decides for each operand and result, not once per operation |
| `C23_subnormal_representable_refuted` | bitmask ob: representable subnormals are perturbed |
| `C25_*_refuted` | cancellation: noise 2^(e_z - c) grows when less is cancelled; exact zero 1-1 becomes about -1.35; near underflow a tiny result becomes about -2^1016 |
| `C26_unordered_predicates_refuted` | IEEE backend: the six "unordered or" predicates only test for unordered |
| `C28_nan_sign_refuted` | binary printing drops the sign of NaN |
| `C30_*_refuted`, `C31_hashset_removal_refuted`, `C52_shared_value_refuted`, `C33_duplicate_refused_refuted` | hash map: removed keys are still found, removing an absent key decrements the count, a value already present in the probe chain drops the insertion; probes: colliding names are refused |
| `C36_*_refuted` | delta-debug: generation does not truncate an older file, lines over 2047 bytes are split, an excluded fma is computed unfused |
| `C37_overflow_refuted` | 256 words for a backend write `backend_argv[256]` |
| `C38_function_instrumentation_refuted` | enter/exit hand one `va_list` to all backends |
| `C39_call_stack_refuted` | functions with equal 31-hash are confused |
| `C44_order_refuted`, `C60_*_refuted` | outcome cache: keyed by unsorted lists; subset query misses recorded subsets; superset query raises TypeError (`dict.keys()[0]`) or misses |
| `C45_*_refuted` | a killed session, or parallel sampling with an early failure, leaves sample directories on which later tests raise |
| `C62_granularity_one_refuted` | INTERFLOP_DD granularity 1 never ends |
| `C46_no_valid_value_refuted`, `C47_*_refuted`, `C64_*_refuted` | precexp: endless when no precision is valid; type codes 2/3 instead of 3/4; argument lines VPREC cannot read, so that the exploration never ends |
| `C48_*_refuted`, `C66_function_dot_refuted` | list files: `$`, `+` and so on are not literal, indented entries select nothing, `*` does not match sources without '.'; `--function` is a raw regular expression |
| `C49_pow2i_overflow_refuted`, `C50_isnan_isinf_refuted`, `C51_representable_subnormal_refuted` | stdlib: signed overflow; isnan/isinf constantly false; representability incomplete on subnormals |
| `C53_option_wraps_refuted`, `C69_large_precision_refuted` | precision options are cut to 32 bits before being tested |
| `C54_push_seed_refuted` | a pushed seed is not installed once a draw was made |
| `C55_quad_refuted`, `C55_int_undefined_refuted` | a precision above the maximum is not "no noise": mcaquad gives -infinity at 1100, mcaint is undefined |
| `C57_explicit_default_refuted` | bitmask: asking for the default precision loses a bit |
| `C58_flush_keeps_sign_refuted` | DAZ/FTZ of mca and bitmask drop the sign |
| `C58_cast_ftz_refuted` | with --ftz the cast of a double to a float of mca and bitmask still returns subnormal floats: the flush is done on the double |
| `C59_accepted_configuration_refuted` | bitmask configure accepts the operator sentinel, then undefined |
| `C67_two_floats_refuted`, `C67_two_floats_comparison_refuted` | x86-64: results of `<2 x float>` wrappers are dropped; comparisons of `<2 x float>` are undefined |
| `C68_unordered_or_equal_refuted` | with --inst-fcmp and the IEEE backend `ueq 2, 2` is false |
| `C69_nan_sparsity_refuted`, `C69_warning_argument_refuted`, `C69_configure_tolerance_refuted` | NaN sparsity is accepted; `--warning=false` enables warnings; cancellation configure accepts a negative tolerance |
| `C74_across_modules_refuted` | --inst-func: the number in an identifier restarts in each module, so that calls of two modules may share an identifier |
| `C75_pass_through_refuted`, `C75_indirect_call_refuted` | --inst-func: the search for the size of a pointer parameter handed on at the same position never ends (stack overflow of the compiler); a null pointer is dereferenced for a callee with an indirect call |
| `C75_double_array_refuted` | --inst-func with LLVM 17-21: every pointer is described as an array of floats; VPREC rounds the low half of the first double as a float |
| `C75_main_not_selected_refuted` | --inst-func with --function main: main's body has moved to a clone that the option does not select |
| `C77_nan_aborts_refuted`, `C77_infinite_aborts_refuted` | vfc_ci test: one NaN probe, or an execution whose probes are all infinite, stops the tool on a TypeError (the cell is not a text), and the results of all other executions are lost |
| `C77_name_lost_refuted`, `C77_numeric_names_merged_refuted`, `C77_boolean_names_refuted` | vfc_ci test: a test or variable named NA, null, None... disappears without a warning; tests named 1.0 and 1.00 are merged; when all the tests of an execution are named by boolean words, they are read as truth values, and True and true become one test |
| `C78_executables_merged_refuted` | vfc_ci test: the samples of two executables with a variable of the same name under one backend are merged, the threshold of the second is lost |
| `C79_missing_probes_unnoticed_refuted`, `C79_failed_check_passes_refuted` | vfc_ci test: missing lines of a cut probes file are not reported; a check that fails on the whole file passes when the file is cut in the word absolute |
| `C80_cancelling_thresholds_refuted` | vfc_ci test, deterministic backends: thresholds whose sum is zero switch all checks off |
| `C80_zero_reference_aborts_refuted` | vfc_ci test: a relative check against a reference of zero stops the tool on ZeroDivisionError |
| `C80_reference_by_position_refuted` | vfc_ci test: references are taken by row number and rows are in hash order: one more probe in the reference run compares variables with one another |
| `C81_exact_samples_fail_refuted` | vfc_ci test: a relative check of samples that are all zero fails |
| `C82_cxx_extension_refuted` | driver: `CXX_EXTENSIONS` lists c++ without the dot; q.c++ goes to the link command as it is and is compiled without instrumentation |
| `C82_same_object_refuted` | driver: a.c and a.cpp on one command line share a.o; the first object is overwritten and linked twice |
| `C82_assembly_refuted` | driver: -S gives the assembly code of the program without instrumentation |
| `C83_quote_refuted` | driver: an option with a single quote is not quoted for the shell (-DC='x' becomes -DC=x) |
| `C83_blank_in_name_refuted` | driver: source names are not quoted, a blank cuts them in two |
| `C83_separate_library_refuted` | driver: with `-l m` in two arguments, -l takes the object of the wrappers as the name of the library |
| `C86_emit_llvm_refuted` | driver: --emit-llvm with -o and several sources writes all of them to the same file and reports success |
| `C86_no_input_refuted` | driver: without any input the wrappers are compiled and the linker is run, the check for input files is after an option has been added to the text it tests |
| `C87_modified_refuted` | PRISM pass: `runOnModule` returns false also when it has changed the module (LLVM may keep stale analyses) |
| `C87_vector2_refuted` | PRISM pass: operands of <2 x float> passed by value are always cast to double, also when the parameter of the function is a vector; the call is ill typed |
| `C88_overload_refuted` | PRISM pass: of two functions with the same demangled name up to the parameters the last one wins, whatever the parameters |
| `C89_other_features_refuted` | PRISM pass: +fma, +bmi... of the callee are not compared, the callee may use instructions the caller does not have |
| `C89_registers_refuted` | PRISM pass: a caller with AVX may call a function without AVX although they pass <4 x double> by value differently |
| `C89_no_attribute_refuted` | PRISM pass: a caller without target-features is compatible with everything |
| `C90_incompatible_refuted` | PRISM pass, strict ABI: an operation whose function is not compatible is left uninstrumented without an error |
| `C90_other_types_refuted` | PRISM pass, strict ABI: operations on fp128, half or vectors of 3 are left uninstrumented without an error |
| `C92_fcmp_refuted` | driver: --inst-fcmp and --inst-cast are passed on to the PRISM pass, which does not declare them: opt stops on an unknown option |
| `C93_dicho_int_refuted` | vfc_ddebug: INTERFLOP_DD_DICHO_TAB is documented to take an integer, any integer stops the tool ("int/string" is tested as "string/int") |
| `C94_granularity_one_refuted` | vfc_ddebug: DD_DICHO_GRANULARITY=1 is accepted and the tool never ends |
| `C94_stale_results_refuted` | vfc_ddebug: only dd.line/ref is cleared; failures recorded for an older version of the program are reported for the new one |
| `C95_power_of_two_refuted` | mcaquad, mode rr, precision 24: when the neighbour nearer to zero is a power of two, the result may lie outside the two neighbours (1 + 2^-30 becomes 1 - 2^-24): mode rr is not stochastic rounding there |
| `C95_subnormal_refuted` | mcaquad, mode rr: for subnormal results the noise is relative to the exponent of the result and not to the spacing of the format, so that one neighbour is never chosen |
| `C95_cast_deterministic` | mcaquad and mcaint, mode rr: casts from double to float are never randomly rounded (the value is converted first and then found representable) |
| `C96_checks_refuted` | bitmask and cancellation do not check `strtol` and `gettimeofday` in `pre_init`: with a host that installs exactly what they check, the first draw without a seed calls a null pointer |
| `C96_long_equal_refuted` | `__string_equal` says that two equal texts of 2050 bytes or more differ (no handler has such a name) |
| `C97_suppress_refuted` | `VFC_BACKENDS_LOGGER=False` (documented to suppress the messages) and `VFC_BACKENDS_LOGGER_LEVEL=error` do not suppress warnings: the text is still printed, without its label |
| `C97_label_refuted` | the label of a message is the name of the component initialised last: with two backends, all messages of the first carry the name of the second |
| `C97_long_name_refuted` | a `VFC_BACKENDS_LOGFILE` of 1024 bytes or more overflows the buffer of `set_logger_logfile` |
| `C97_open_message_refuted` | the message of a log file that cannot be opened is that of error 0 ("Success"): the handler is libc's `fopen`, which does not set the third argument |
| `C97_info` | colours are off unless `VFC_BACKENDS_COLORED_LOGGER` is true, while the documentation describes the variable as the way to remove colours |
| `C98_python3_refuted` | `vfc_vtk` (Python 3) calls `Element.copy`, which does not exist there: every file with a Float32 array ends in an AttributeError, after the output directory has been created |
| `C98_float64_refuted` | arrays of type Float64 get no accuracy, though the documentation says each floating point array does |
| `C98_reference_refuted` | option -r copies the reference over the path of the output directory, so that no .vtu file can be opened below it |
| `C98_same_name_refuted`, `C98_points_refuted` | arrays with the same name in two sections or pieces: the first gets all the accuracy arrays; an array below Points in a file without PointData ends in an exception |
| `C99_negative_refuted`, `C99_zero_refuted` | values with negative mean are always reported with 0 significant digits (logarithm of std/mean without absolute value), and so are exact zeros |
| `C100_most_recent_refuted`, `C100_nothing_left_refuted` | with more files than --max-files, serve keeps the oldest (`head`), never the most recent as documented; ignoring all files ends in an exception |
| `C101_mixed_refuted`, `C101_same_second_refuted` | a run of a commit between two others of the same age: two runs have the same name and one cannot be selected; two runs in the same second end in an exception |
| `C102_filter_deterministic_refuted` | the filter of outliers of the deterministic view reads the column `%value_x`, which does not exist: it always raises KeyError |
| `C103_zeros_refuted`, `C103_tooltip_refuted` | a series of zeros is removed entirely by the filter of outliers; the columns of tooltips and colours are not filtered and belong to other points |
| `C104_same_branch_refuted`, `C104_branch_refuted` | two repositories on branches of the same name end in an IndexError; a repository may be shown with the branch of another |
| `C105_logo_refuted`, `C105_directory_refuted` | normpath on the whole command turns https:// into https:/, and a .. in the directory removes words of the command; a directory named max_files ends in an exception |
| `C106_empty_run_refuted` | selecting a run without data of non-deterministic backends in the inspect view ends in an IndexError |
| `C106_labels_refuted` | two long names can be shortened to the same label and share a place on the axis |
| `C106_minimum_refuted` | `remove_boxplot_outliers` ignores the outliers it is given and uses the maxima again: boxes are never filtered by their minimum |
| `C107_deterministic_refuted`, `C107_click_refuted` | the table of deterministic checks always shows the most recent run (`current_run` is never updated); a click in the deterministic comparison ends in a KeyError (no widget `select_check_run`) |
| `C108_installed_refuted` | the installed `vfc_report` (`main` of `report.py`) never writes a report: `ReportString` is a local variable of `main`, used before it is assigned (UnboundLocalError). The script `src/tools/vfc_report` works |
| `C108_selection_refuted` | the functions given to `vfc_report` are ignored: `FilterFunctions` discards what `Dataset.drop` returns |
| `C108_operations_only_refuted` | "Operations Only" shows the results of the exploration of arguments and operations; the precisions in `OperationsResults.csv` are never shown |
| `C108_overwritten_refuted` | call sites in two files with the same base name and number share their images, the second overwrites the first |
| `C108_argument_name_refuted` | a parameter named `nan` or `null` (a missing value for pandas) ends `vfc_report` with a TypeError |
| `C109_case_refuted` | of two functions whose names differ by case only, the page never displays the call sites of one |
| `C110_lost_refuted` | two threads that execute an operation at the same time under `VFC_DDEBUG_GEN` can leave one of the two call sites out of the list: the table has no lock. Delta-debug then never tries that site |
| `C110_use_after_free_refuted` | `maybe_rehash_map` of one thread frees the items while another thread is about to store in them |
| `C110_hang_refuted` | lost increments of `nitems` let the table fill up without growing; the next new call site searches a free slot for ever |
| `C111_untracked_refuted` | `is_dirty()` does not look at untracked files and `git add .` adds them: `vfc_ci setup` commits and pushes every untracked file that is not ignored |
| `C111_silent_refuted` | the result of `push` is not read: when the origin refuses both pushes (protected branch, rights) setup still prints that the workflow has been set up |
| `C111_again_refuted` | a second `vfc_ci setup` from the same clone commits a tree with the README only on top of the CI branch: the run files disappear from its tip (`parent_commits=None` is the current commit, not no parent) |
| `C111_refused` | the check with three dots also refuses a branch that is ahead of its upstream, with a message that says it is behind |
| `C112_overlap_refuted` | two CI jobs that overlap: the second push is refused, the job fails and its run file is lost; with GitHub the window is the whole duration of the tests, since the CI branch is copied before them |
| `C112_gitlab_address_refuted` | the gitlab template appends `.git` to the remote address: a usual address ending with `.git` becomes `.git.git`; an ssh address is not converted |
| `C113_twice_refuted`, `C113_reuse_refuted` | after `vfc_dump_probes` or `vfc_free_probes` the table still holds the freed nodes: a second dump or free reads and frees them again, a probe with an old name compares with a freed key, and `vfc_num_probes` still counts them |
| `C113_life_partial` | `vfc_free_probes` calls `vfc_hashmap_free`, which frees the values, and never `vfc_hashmap_destroy`: the table and its items leak. `vfc_hashmap_free` tests twice for 0 where the second test should be for the mark of a deleted item, 1 |
| `C113_fortran_unterminated_refuted` | the Fortran interface passes names without their length: a name written without `//c_null_char` (the documentation does not mention it) is read on into what follows |
| `C113_fortran_count_refuted` | `vfc_num_probes` returns `unsigned int`, the Fortran interface declares `C_SIZE_T`: the upper half is unspecified |
| `C114_own_function_refuted` | the call stack is shared by all threads: a backend is told of the end of a function with the structure of a function of another thread, so VPREC rounds the results with the wrong configuration, even when the changes of the stack never overlap |
| `C114_unwritten_refuted`, `C114_lost_push_refuted` | overlapping changes: a backend can follow a pointer that was never written, or find NULL (VPREC then ends the program with `Call stack error`); the stack does not return to its initial depth |
| `C114_read_twice_refuted` | `vfc_call_stack_push` and `vfc_call_stack_pop` test `top` and read it again: six calls in three threads can store out of the array. Reading `top` once excludes this (`C114_read_once`) |
| `C115_torn_refuted` | two threads that insert at once can leave a cell with the value of one and the key of the other: the instrumentation then takes one function for another |
| `C115_count_refuted`, `C115_half_entry_refuted`, `C115_same_function_refuted` | lost counts, entries seen before their key is written, and a function entered for the first time by two threads added twice |
| `C115_growth_refuted` | `maybe_rehash_map` writes `mask` before `items`: a look-up by another thread in between reads outside of the old cells; after that, until the copy ends, keys that are in the table are not found |

Read in the source, not stated as theorems: VPREC's KEY_PREC_B32 is 0 = ARGP_KEY_ARG, so that a positional argument sets
precision-binary32; `strtol` users accept trailing garbage where `endptr` is not tested; the preset list in the help mentions
`binary64`, which is not accepted; bitmask's help lists the modes of MCA; the documentation gives 24/53 and `rand` as bitmask
defaults, the code 23/52 and `zero`; mcaquad's configure compares an int with `(unsigned)-1`; mcaint's header ignores
VFC_BACKENDS_SILENT_LOAD; seeds from 2^63 cannot be given on the command line; a blank word in VFC_BACKENDS calls `dlopen(NULL)`;
a missing filter file is ignored; `allDeltaFailedMsg` raises NameError (DD_stoch.py L498-509); `report_progress` tests a method
object; precexp ignores its time-out option, may deadlock on `stdout=PIPE` with `wait()`, and offers `--vprec_mode all`, which is
no mode; `areFunctionArgsABICompatible` returns the opposite of its name; scalable vectors end the pass.
vfc_ci: the behaviour of pandas (missing-value words, type inference of columns, short rows, blank lines), numpy and CPython is modelled as documented; pandas is not installed here. `fmt_a` and `fromhex` were compared with glibc and CPython on 246 values outside the proofs. Which texts pandas reads as numbers is an arbitrary function, constrained by the hypotheses of each theorem only.
driver: the shell is a tokenizer for blanks and single quotes; a text with another character special to the shell outside quotes has no words in the model (`sh_words` = None), so the theorems that give the words also prove that there is none. argparse is modelled as CPython 3.8-3.11 behaves, without prefix matching.
PRISM pass: the option `vfclibinst-inst-fma` has no effect (llvm.fma is always instrumented, llvm.fmuladd never). The fact is in the model (`get_op`, `prism_fma`), no theorem is about it.
vfc_ddebug: the reference run is given VFC_DDEBUG_GEN=.../dd.line.%%p; the wrapper expands nothing, so that all processes of one run write the same file (and see `C36_generate_over_old_file_refuted`). DD_NRUNS <= 0 is accepted; the tool then raises or stops without a report.

## Wrong programs

`seeded/LOG.jsonl` records every seeded fault: the edited definition, the edit, the claim it breaks, the theorems that failed and
those that were tightened because they had survived.

## Assumptions

What `Print Assumptions` lists, for every theorem of `MANIFEST.json`. All axioms are in Coq's standard library:
`ClassicalDedekindReals.sig_forall_dec`, `ClassicalDedekindReals.sig_not_dec` (construction of `R`),
`FunctionalExtensionality.functional_extensionality_dep` (used by `Reals`), `Classical_Prop.classic` (used by `Reals` and Flocq).

### Closed under the global context (no axiom)

`C03_specials_unchanged`, `C06_negative_underflow_sign_refuted`, `C08_config_accepted`, `C08_config_bounds`, `C08_config_effect`, `C09_default_no_ub_refuted`, `C100_all`, `C100_most_recent_refuted`, `C100_nothing_left_refuted`, `C100_selection_partial`, `C101_age`, `C101_mixed_refuted`, `C101_names_made`, `C101_names_partial`, `C101_same_second_refuted`, `C101_selectors`, `C102_deterministic`, `C102_filter_deterministic_refuted`, `C103_aligned`, `C104_branch_refuted`, `C104_names_partial`, `C104_rows`, `C104_same_branch_refuted`, `C105_directory_refuted`, `C105_logo_refuted`, `C105_options_partial`, `C106_labels`, `C107_click_refuted`, `C107_deterministic_refuted`, `C107_table_partial`, `C108_argument_name_refuted`, `C108_images_partial`, `C108_installed_refuted`, `C108_operations_only_refuted`, `C108_overwritten_refuted`, `C108_report_partial`, `C108_selection_refuted`, `C109_calls_partial`, `C109_case_refuted`, `C109_functions_partial`, `C110_filters_partial`, `C110_generated_partial`, `C110_hang_refuted`, `C110_lost_refuted`, `C110_one_thread`, `C110_use_after_free_refuted`, `C111_again_refuted`, `C111_any_stop`, `C111_installed`, `C111_other_clone`, `C111_refused`, `C111_silent_refuted`, `C111_untracked_refuted`, `C112_branch`, `C112_gitlab_address_partial`, `C112_gitlab_address_refuted`, `C112_one_by_one`, `C112_overlap_refuted`, `C112_overtaken`, `C113_fortran_count_refuted`, `C113_fortran_name`, `C113_fortran_unterminated_refuted`, `C113_life_partial`, `C113_reuse_refuted`, `C113_twice_refuted`, `C114_lost_push_refuted`, `C114_no_overlap_partial`, `C114_own_function_refuted`, `C114_read_once`, `C114_read_twice_refuted`, `C114_told`, `C114_undisturbed`, `C114_unwritten_refuted`, `C115_answers_partial`, `C115_apart`, `C115_count_refuted`, `C115_growth_refuted`, `C115_half_entry_refuted`, `C115_same_function_refuted`, `C115_torn_refuted`, `C13_collision_refuted`, `C13_library_caller_refuted`, `C13_other_modes`, `C13_outermost_refuted`, `C13_precision_in_force_partial`, `C13_return_partial`, `C13_untold_caller_refuted`, `C14_array_refuted`, `C14_special_value_refuted`, `C15_end_of_file_refuted`, `C15_long_name_refuted`, `C15_round_trip_partial`, `C15_stable_partial`, `C15_unfinished_function_refuted`, `C15_unnamed_argument_refuted`, `C16_clock_refuted`, `C16_cross_thread_refuted`, `C16_seeds_distinct`, `C16_stuck_iff`, `C16_stuck_refuted`, `C16_threads_distinct`, `C17_open_interval_refuted`, `C18_order_matters_refuted`, `C18_reproducible_threads`, `C23_configuration`, `C27_counts_exact`, `C27_counts_modulo`, `C27_not_counting`, `C28_fits_buffer`, `C28_nan_sign_refuted`, `C29_hashmap_finite_map`, `C29_hashmap_multimap`, `C29_hashmap_terminates`, `C30_hashmap_removal_partial`, `C30_remove_absent_count_refuted`, `C30_removed_key_absent_refuted`, `C31_hashset_adds`, `C31_hashset_history_partial`, `C31_hashset_removal_refuted`, `C32_probes_exported_once`, `C33_duplicate_refused_refuted`, `C33_duplicates_refused_partial`, `C33_refusals_sound`, `C34_always_a_result`, `C34_each_backend_once`, `C34_last_decides`, `C34_last_decides_others`, `C34_load_order`, `C35_lane_states`, `C35_lanes_in_order`, `C36_excluded_fma_refuted`, `C36_filters`, `C36_generate_over_old_file_refuted`, `C36_generate_then_include`, `C36_generated_sites`, `C36_long_line_refuted`, `C37_blank_part_refused`, `C37_loaded_as_written`, `C37_memory_safe_partial`, `C37_overflow_refuted`, `C37_precedence`, `C37_sound`, `C37_too_many_refused`, `C38_function_instrumentation_partial`, `C38_function_instrumentation_refuted`, `C38_user_call_independent`, `C39_any_history`, `C39_call_stack_partial`, `C39_call_stack_refuted`, `C40_ddmin_one_minimal`, `C40_preconditions_checked`, `C41_ddmax_one_maximal`, `C42_rddmin`, `C43_split_balanced`, `C43_split_partition`, `C44_lookup_last_recorded`, `C44_order_refuted`, `C45_interrupted_session_refuted`, `C45_parallel_retest_refuted`, `C45_retest_stable`, `C45_session_verdicts`, `C46_exploration`, `C46_no_valid_value_refuted`, `C46_search_any_oracle`, `C46_search_arguments`, `C46_search_operations`, `C47_double_array_refuted`, `C47_float_array_refuted`, `C47_scalar_bounds_partial`, `C47_scalar_minimum_partial`, `C48_any_module_refuted`, `C48_errors`, `C48_indented_entry_refuted`, `C48_selection_partial`, `C48_special_characters_refuted`, `C49_pow2i_overflow_refuted`, `C50_isnan_isinf_refuted`, `C52_shared_value_refuted`, `C53_option_values_partial`, `C53_option_wraps_refuted`, `C54_push_seed_refuted`, `C60_queries_sound`, `C60_subset_missed_refuted`, `C60_superset_missed_refuted`, `C60_superset_raises_refuted`, `C61_srddmin`, `C62_drddmin`, `C62_granularity_one_refuted`, `C64_arguments_refuted`, `C64_exploration_never_ends_refuted`, `C64_operations_readable_partial`, `C65_configuration_written`, `C65_profile_read`, `C66_function_dot_refuted`, `C66_function_partial`, `C67_block_partial`, `C67_order_independent`, `C67_role_unique`, `C67_two_floats_comparison_refuted`, `C67_two_floats_refuted`, `C68_unordered_or_equal_refuted`, `C69_bitmask_partial`, `C69_cancellation_partial`, `C69_cancellation_tolerance`, `C69_configure_tolerance_refuted`, `C69_large_precision_refuted`, `C69_mca_invariant`, `C69_warning_argument_refuted`, `C70_budget`, `C70_marking_unique`, `C70_module_partial`, `C72_function_pass_partial`, `C73_passive_transparent_partial`, `C74_across_modules_refuted`, `C74_call_ids_unique`, `C74_ids_unique`, `C75_double_array_refuted`, `C75_indirect_call_refuted`, `C75_main_not_selected_refuted`, `C75_never_double_array`, `C75_pass_succeeds`, `C75_pass_through_refuted`, `C77_infinite_aborts_refuted`, `C77_nan_aborts_refuted`, `C78_executables_merged_refuted`, `C78_samples_grouped_partial`, `C78_silent_runs_reported`, `C79_failed_check_passes_refuted`, `C80_cancelling_thresholds_refuted`, `C80_reference_by_position_refuted`, `C82_assembly_refuted`, `C82_cxx_extension_refuted`, `C82_objects_instrumented_partial`, `C82_same_object_refuted`, `C82_sources_instrumented_partial`, `C83_blank_in_name_refuted`, `C83_no_argument_lost`, `C83_options_unchanged_partial`, `C83_quote_refuted`, `C83_separate_library_refuted`, `C84_options_agree_partial`, `C84_selection_partial`, `C85_failure_stops`, `C85_success_means_all`, `C86_conflicts_refused`, `C86_emit_llvm_refuted`, `C86_no_input_refuted`, `C87_marking_unique`, `C87_modified_refuted`, `C87_module_partial`, `C87_vector2_refuted`, `C88_calls`, `C88_names_injective`, `C88_no_confusion`, `C88_overload_refuted`, `C89_callee_runs`, `C89_extensions`, `C89_no_attribute_refuted`, `C89_other_features_refuted`, `C89_parsed`, `C89_registers_refuted`, `C90_incompatible_refuted`, `C90_lenient`, `C90_other_types_refuted`, `C90_strict`, `C91_selection`, `C92_driver_partial`, `C92_fcmp_refuted`, `C93_command_line`, `C93_dicho_int_refuted`, `C93_environment`, `C93_tables`, `C94_granularity_one_refuted`, `C94_maximal_set`, `C94_merged_list`, `C94_minimal_groups`, `C94_nothing_to_debug`, `C94_report_conditions`, `C94_stale_results_refuted`, `C96_checks_refuted`, `C96_checks_sufficient`, `C96_long_equal_refuted`, `C96_program`, `C96_set_handler`, `C96_string_equal`, `C97_info`, `C97_init`, `C97_label_refuted`, `C97_long_name_refuted`, `C97_one_place`, `C97_open_message_refuted`, `C97_suppress_refuted`, `C97_warning_error`, `C98_points_refuted`

### `ClassicalDedekindReals.sig_forall_dec`, `FunctionalExtensionality.functional_extensionality_dep`

`C106_boxes`, `C106_empty_run_refuted`, `C106_labels_refuted`, `C106_view_partial`, `C10_flags_otherwise_irrelevant`, `C12_abs_range_refuted`, `C12_subnormal_abs_error_refuted`, `C14_bounds_exact`, `C14_input_bounds_partial`, `C14_output_bounds_partial`, `C19_special_values_unperturbed`, `C23_representable_unchanged_partial`, `C23_specials_unchanged`, `C23_subnormal_representable_refuted`, `C26_predicates_partial`, `C26_unordered_predicates`, `C26_unordered_predicates_refuted`, `C28_injective`, `C28_special`, `C28_text_denotes_value`, `C28_text_unambiguous`, `C49_pow2i_exact_partial`, `C50_fpclassify_partial`, `C51_representable_normal_partial`, `C51_representable_sound`, `C51_representable_subnormal_refuted`, `C58_daz_operands_zero`, `C58_flush_exactly_subnormals`, `C68_ieee_transparent_partial`, `C69_nan_sparsity_refuted`, `C71_ieee_program_partial`, `C81_exact_samples_fail_refuted`

### `ClassicalDedekindReals.sig_forall_dec`, `ClassicalDedekindReals.sig_not_dec`, `FunctionalExtensionality.functional_extensionality_dep`

`C102_compare`, `C103_compare`, `C103_outliers_partial`, `C103_tooltip_refuted`, `C103_zeros_refuted`, `C106_minimum_refuted`, `C99_mean_std`

### `ClassicalDedekindReals.sig_forall_dec`, `ClassicalDedekindReals.sig_not_dec`, `Classical_Prop.classic`, `FunctionalExtensionality.functional_extensionality_dep`

`C01_vprec_rne_normal`, `C02_subnormal_rne_partial`, `C02_subnormal_tie_refuted`, `C03_overflow_iff`, `C04_idempotent`, `C04_members_fixed`, `C04_representable`, `C05_monotone`, `C06_sign_symmetry_partial`, `C07_binary_op_modes`, `C07_fma_modes`, `C07_image_unique`, `C09_default_transparent_partial`, `C10_flush_keeps_sign`, `C11_cast_single_rounding`, `C12_abs_error_bound_partial`, `C14_inputs_partial`, `C14_outputs_partial`, `C17_all_values_attained`, `C17_draw_in_unit_interval`, `C19_ieee_cast`, `C19_ieee_fma_refuted`, `C19_ieee_mode_exact`, `C19_special_operands_partial`, `C20_rr_exact_results`, `C21_cast_partial`, `C21_fma_partial`, `C21_half_draw_refuted`, `C21_int_exponent_of_operand_refuted`, `C21_noise_bound`, `C21_operation_partial`, `C22_each_value`, `C22_operation_skipped_refuted`, `C22_rr_operation_partial`, `C23_cast`, `C23_fma`, `C23_leading_bits`, `C23_operation`, `C24_error_bound`, `C24_one_largest`, `C24_rand_reaches_all`, `C24_zero_truncates`, `C25_cancellation_noise_partial`, `C25_exact_zero_refuted`, `C25_near_underflow_refuted`, `C25_no_cancellation_ieee`, `C25_other_operations_ieee`, `C25_small_cancellation_refuted`, `C55_high_precision_no_noise_partial`, `C55_int_undefined_refuted`, `C55_quad_refuted`, `C56_untouched`, `C56_user_inexact_partial`, `C57_defaults_ieee`, `C57_explicit_default_refuted`, `C58_cast_ftz_refuted`, `C58_flush_keeps_sign_refuted`, `C58_ftz_no_subnormal_result`, `C59_accepted_configuration_refuted`, `C59_valid_operator_safe`, `C63_cast_correctly_rounded`, `C63_results_correctly_rounded`, `C69_mca_partial`, `C76_value_text_roundtrip`, `C77_boolean_names_refuted`, `C77_name_lost_refuted`, `C77_numeric_names_merged_refuted`, `C77_probes_read_back_partial`, `C78_repetitions_end_to_end_partial`, `C79_missing_probes_unnoticed_refuted`, `C79_truncated_file_partial`, `C80_deterministic_checks_partial`, `C80_zero_reference_aborts_refuted`, `C81_sample_checks`, `C95_cast_deterministic`, `C95_fma_partial`, `C95_int_fma_partial`, `C95_int_partial`, `C95_int_probability_partial`, `C95_power_of_two_refuted`, `C95_probability_partial`, `C95_stochastic_rounding_partial`, `C95_subnormal_refuted`, `C98_float64_refuted`, `C98_postprocess`, `C98_python3_refuted`, `C98_reference_refuted`, `C98_same_name_refuted`, `C98_structure_partial`, `C99_digits_partial`, `C99_invariant`, `C99_negative_refuted`, `C99_zero_refuted`
