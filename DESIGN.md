# Formal model of onexAdditional/onex in Rocq

Source modelled: `/repo/src` (including `lib/trillionDTW.cpp` and the parts of `lib/util.cpp` it uses) and `/repo/cli/OnexCLI.cpp`.
Everything is in `rocq/theories`, logical name `Verif`, plain Coq 8.16 + Flocq (for the laws of binary64).

## 1. How the code is modelled

* **Outcome monad** (`Outcome.v`). A C++ function is a total Gallina function into
  `outcome A := Ok a | Throw e | UB why | NoFuel`. `Throw` is a C++ exception (OnexException or a
  standard one), `UB` is undefined behaviour (array index out of range, use after free, null or
  uninitialised read, bad float-to-int conversion, division by zero, signed overflow) and is a *distinct* outcome, never a
  default value. `NoFuel` is only produced by unbounded C++ loops that exceed the number of
  iterations any terminating run can need.
* **Integers** are `Z`; C++ division is `Z.quot`. 32-bit overflow is modelled in
  `Ints.v` for every operation: there an `int` expression that does not fit is the undefined behaviour
  `IntOverflow`; C67 and C68 give the sizes for which it does not happen. `Search32.v` does the same for the UCR
  search (C71). In all other files integers are unbounded (assumption: sizes within the bounds of C67, C68 and C71).
* **Numbers** (`Num.v`). The code is written once over a record `NumOps` (carrier, + - * / sqrt,
  `<`, `==`, INF, int->double, floor, ...) and instantiated three times:
  - `F64` (`Num.v`, laws in `F64Base.v`, `F64Laws.v`): IEEE binary64 with round-to-nearest-even, i.e. the standard library's executable
    `SpecFloat` operations at precision 53 / emax 1024. Theorems about `F64` are about the rounded
    computation, including infinities and NaN.
  - `RX` (`RX.v`): "IEEE with infinite precision": real numbers plus +INF, -INF, NaN. Used for the
    properties that only hold in exact arithmetic (triangle inequality, exact early abandoning).
  - `F32` (`Single.v`, laws in `F32Base.v`, `F32Laws.v`): the build with SINGLE_PRECISION, floats with the conversions of C++
    (C69, C70). `C69_arithmetic` states what its operations compute.
  `pow(x,2)` is modelled as `x*x` (correctly rounded by glibc/gcc).
* **Memory**. Dataset buffers live in a heap `buffer id -> option (list number)`; a `TimeSeries` is either a
  view into a buffer or owns its values, and carries its mutable Keogh cache. Freed buffers make
  reads `UB UseAfterFree`.
* **Group structure**: the shared `memberMap` array of back links is modelled as an array; groups hold
  the last member coordinate, count and centroid `TimeSeries`.
* **Files**: a map path -> contents (string). Tokenizing, `%g` printing with 6 / 16 digits,
  `stod`, `operator>>` are modelled concretely.
* **API**: a state machine over `list (option dataset)`, counter, warping ratio, heap, file system.
* **CLI**: `processLine` and the exception handling of `main`'s loop on top of the API.

### Not modelled
What readline writes, elapsed times (an input of Console.v), allocation failure. The memory of series is modelled in SeriesMem.v (C59), that of datasets and
groups in SessionMem.v (C63). `delete` for arrays from `new[]` (TimeSeries.cpp:53,
TimeSeriesSet.cpp:307) is undefined behaviour only in the strict reading of SeriesMem.v; everywhere else it frees.
Also not modelled: concurrent use. Of SINGLE_PRECISION builds only what C69 and C70 say is covered: distances, groups and matches, with
the float overload of `sqrt`; `kimLowerBound` (unused by the program) accumulates in double there and is not covered.

## 2. Proof method
Loops are `for`/`while` combinators in the monad with invariant rules (`Outcome.v`). Each function gets a
specification lemma (total correctness: result `Ok`, hence no UB). Numeric facts needed by proofs are collected
in a record of laws `CostLaws` (`Laws.v`) (monotone addition, squared distance, norm, ordering) proved for `F64` (through
Flocq) and `RX`. Property theorems are in `Properties_*.v` files, with examples that show that
their hypotheses can be met; the vocabulary of their statements is in `*Spec.v` files. `Print Assumptions` for each theorem: section 5.

## 3. Properties
(see properties.jsonl for the statements; model files in brackets)

| id | modelled / proof |
|----|------------------|
| C01 | lower_upper_lemire with both circular deques [Lemire.v]; loop invariant over monotone deques, result = window min/max spec |
| C02 | circular array deque [Deque.v]; abstraction function to lists, one lemma per operation |
| C03 | warpedDistance with full matrix [Distance.v]; invariant cost[i][j] = min over path costs; warping paths specified inductively [Spec.v] |
| C04 | from C03 by transposing paths; pairwise by symmetry of squared difference |
| C05 | diagonal path has cost 0; positivity laws |
| C06 | Keogh sum <= every path cost by monotone rounding; every row of a path visits an in-window cell |
| C07 | case split on cascade + C06 + monotone norm |
| C08 | row-minimum invariant: every path crosses every row; exact inversion of the norm in RX; relative error bound in F64 |
| C09 | prefix sums; exact inversion in RX |
| C10 | Minkowski via Cauchy-Schwarz on lists of reals |
| C11 | vm_compute witnesses; `match_with` (ShortSpec) takes the distance as a parameter: every distance that agrees with the cascade on series of 2 or more points gives the same session and answer, by an invariant of all reachable sessions (ShortProofs, Properties_Short) |
| C12 | vm_compute witness; magnitude bound for F64 |
| C13 | exact arithmetic path argument; the partial sums only grow, so a dropout that cuts one cuts the bound (any arithmetic with the cost laws); vm_compute / real witnesses for failures |
| C14 | floor arithmetic |
| C15 | fuel bound + characterisation of the loop by induction |
| C16 | C15 + C03 (no path) |
| C17 | invariant on memberMap chains; permutation of all coordinates |
| C18 | invariant on insertion; dropout soundness of pairwise distance |
| C19 | C18 + C10 |
| C20,C21 | invariants on insertion |
| C22 | functional model: determinism, sums |
| C23,C24 | case analysis; witness |
| C25 | invariant of member walk |
| C26,C27 | C08 + arg-min invariants through nested loops with shrinking dropout |
| C28 | witness |
| C29 | case analysis of the API step |
| C30 | safety invariant of grouped spaces; witness family for long queries |
| C31 | histories of requests and additions over a heap and a list of series (CacheSpec); invariant: every cache is the envelope of the current values (CacheProofs, Properties_Cache); vm_compute witnesses for the stale cases |
| C32 | loop invariant of doPAA |
| C33 | heap generation: freed buffer; theorem for all grouped datasets |
| C34,C35 | min/max scan invariant with parity; F64 laws of subtraction and division |
| C36,C37,C38 | parser loop invariant over tokenised lines |
| C39, C55 | the saved text is a table of printed numbers (loop invariant); printed doubles are decimal numerals of the value rounded to P digits (`print_g_spec`), numerals are read as the nearest double (`stod_dec`); 6 digits survive rounding to double |
| C40, C43 | a grammar of group files (`group_file` in GroupFileSpec.v); the saved text is in it (loop invariants, printed numerals); loading a file of the grammar either runs out of the member table or builds the links of the last occurrence of each member (`loadGroup_spec`), which are chains if nothing is listed twice and cycles otherwise |
| C41 | case analysis of the header and of the distance name |
| C42 | Flocq: the double nearest to a decimal of at most 16 digits is also nearest to its own 16-digit rounding, unless it is a power of two with uneven neighbours; bound of the relative error of the two roundings; vm_compute witnesses; composed with C40 for whole files |
| C44-C47 | invariants of the API state machine |
| C48 | `safe` (SafeSpec.v) says when a call is safe, from its arguments, the datasets, the file read and the earlier calls; invariant of sessions: buffers of the right size, ratio in [0,1], and, unless reduced since, groups whose member lists are complete and whose cached envelopes have the right shape though maybe old values (SafeMatch.v, SafeProofs.v); representatives may be loaded values instead of views; a boolean checker of safety and of group files (SafeCheck.v) shows that long mixed histories with saves and reloads are safe; files saved after grouping fit; vm_compute witnesses that each condition is needed |
| C49 | case analysis of processLine and of the loop of main (Cli.v) against a table of commands and a relation from words to API operations (CliSpec.v); induction over the typed lines for reachability |
| C50 | invariant: each cell of the rolling row holds a value not above any path cost and equal to one if below 1e20 (TrillionProofs.v, any arithmetic with the cost laws); an abandoned row bounds every path through it; bounds: one cell per row or column of a path is enough (TrillionBounds.v, exact arithmetic) |
| C56 | invariant of the scan: the running sums are the sums of the current window, the doubled circular array holds the last m values at k mod m and k mod m + m, and the best so far is the nearest of the windows seen (SearchProofs.v); one window by C50; chunks: each starts m-1 values before the end of the previous; exact arithmetic |
| C51 | `cand_ltb`; what it compares over reals, irreflexivity and asymmetry for all doubles, strict weak order on lists of spread-out distances, witnesses of a cycle and of intransitive equivalence (Properties_Order) |
| C52 | case analysis of the progress condition in the grouping loop |
| C53 | relational calculus on outcomes [Indep.v]: two heaps holding the same values; invariant over histories against a reference heap [SessionIndep.v] |
| C57 | the search proofs of C25-C29 again for spaces whose representatives are arbitrary values (RepMatch.v); invariant over histories after the load that groups keep the values of the file (LoadedMatch.v); specification in LoadedSpec.v |
| C58 | series as an array and an offset; invariant of the addition loop: positions below the counter hold the sums, the other series is unchanged from the counter on (Properties_Access.v) |
| C59 | second model of the class with blocks, pointers, owner flags and explicit `new`/`delete` (SeriesMem.v); forward simulation to the value model used everywhere else (SeriesSpec.v, SeriesProofs.v: every live block has exactly one owner; SeriesSim.v), counting forgotten blocks (Properties_Series.v) |
| C60 | relation between two sessions whose groups have the same representatives, kept by the whole search (RepIndep.v, no assumption on the numbers); text of a save for arbitrary representatives and its reading (ReloadProofs.v); specification in ReloadSpec.v |
| C61 | text of a size-only save from the groups of a session (SizeSpec.v, same method as C40 and C60); sizes add up because members are exactly the subsequences (C17); no exception: calculus of outcomes that do not throw, over the whole loader |
| C62 | every call is one of seven effects on datasets and arrays (LifeProofs.v); invariants: allocated arrays are accounted for by a dataset, freed arrays stay freed, a dataset keeps array and shape until a call that frees it; the answer of a match is a result of getTimeSeries (LifeSpec.v, Properties_Life.v) |
| C63 | second model with blocks that are allocated and released (SessionMem.v); the blocks of a session are the disjoint union of the trees of its datasets and of the lost arrays (SessionMemProofs.v, lists of owned blocks as in separation logic); each call of Api.v determines the shape of the trees after it (SessionMemLink.v); induction over histories (SessionMemReach.v, Properties_SessionMem.v) |
| C64 | second model of the command line in which every command also has its text and the digits of cout (Console.v); erasing the text gives Cli.v (ConsoleProofs.v); the text of a line is that of its API call, no line of it begins with "Error! " by accident, because names and words are parts of single lines (ConsoleLines.v); the formats are injective (ConsoleRead.v); induction over the typed lines |
| C65 | cells of a path are distinct, so a column is visited at most min(m, 2r+1) times; Minkowski's inequality along the optimal path of one series bounds the cost of the other (ApproxProofs.v); with the radius rule of C18 and C27 this bounds the answer; for doubles a negative threshold gives singleton groups (C23) |
| C66 | [C32_PAA] gives block means; Cauchy-Schwarz per block, summed over the blocks (PaaProofs.v), gives the distance; sums of means for mean and composition; monotone rounding of sums of values in [0,1]; witnesses by computation |
| C67 | Ints.v repeats the dataset operations with checked ints; a simulation shows that a checked call does what the unbounded one does or overflows; loop invariants (counter, offsets, running total) give the exact bounds; an invariant of sessions (rows times length fits) for the calls after loading; witnesses by proof, not computation |
| C68 | Ints.v covers every operation; for each function a loop-by-loop equality of the checked and the unbounded version under an invariant that bounds the indices (deque cells, band, places of members, running totals); lifted to sessions with the invariant of C48 and the size invariant of C67 by induction on the history; a count of characters bounds the groups of a file |
| C69 | a second instance of the arithmetic: floats, doubles and ints with the conversions of C++ (Single.v); the laws used by the proofs of C01-C09 are proved for binary32 through Flocq, so the same loop invariants apply; witness for the difference to the double build |
| C70 | the group invariants and the search of C17, C18, C25 and C26 are proved for any arithmetic that meets a few laws; F32Laws.v proves the laws for floats and F32Numeric.v the rounding margin of early abandoning, so the theorems are instances |
| C71 | the search once more with every int that grows with the file checked (Search32.v), including the counters of pruned windows; simulation by the unbounded search with an invariant that bounds the counters by the windows seen; with C56 this decides for every file whether it overflows |
| C72 | the counters of Search32.v and a count of the calls of dtw: by induction over points and chunks their sum is the number of windows seen; the numbers of the report from them, in exact arithmetic by field, in doubles by monotonicity of rounding |
| C73 | the definitions of C56 and C71 in doubles: the queues of the envelope hold increasing indices of the window and share at most the last one, whatever the comparison says; sizes of all arrays as invariants of the loops; a NaN or infinity stays in the running sums, so the deviation and with it the first bound are NaN, which prunes; for constant queries and windows, sums of whole numbers below 2^53 are exact, also the running ones, so the deviation is 0 [ConstQuery.v] |
| C54 | [api_group] on item length <= -2; [traverse_inv] for the first length searched, which is outside the empty vector |

### Coverage of the source
Every function of `/repo/src` and `/repo/cli` is modelled, with the exception of the following.
* Destructors and `reset` of the group classes, of the datasets and of the API object are modelled in SessionMem.v (C63) only; in Groups.v and Api.v
  the value is dropped. The destructor of the deque (deque.cpp:15-18) is not modelled.
* What readline writes: the prompt, the question of `wantToQuitByEOF`, the echo. The text written to cout is in Console.v (C64) only.
* `getIdentifierString` (TimeSeries.cpp:126-131, unused), `printArray` and `error` (util.cpp:9-34), the text of the report of the UCR search
  (trillionDTW.cpp:371, 556-570; its numbers are in C72).
* `countNumberOfLines` (TimeSeriesSet.cpp:22-30) is the length of the list of lines.
* Getters of the headers that return a field, `group_index_t` (Group.hpp, unused), `Group::distanceFromCentroid` (Group.cpp:31-35, inlined at its only call).
* `qsort` in the UCR search, called with `Index::comp` (util.cpp:39-44): the model takes any function that returns an order of the query.

## 4. Trusted base
Coq's kernel (coqc/coqchk 8.16.1), the transcription of the C++ into Gallina (each definition cites
file and lines), the statements in `Properties_*.v` and the definitions they use, and the axioms of
the standard library's classical reals listed per theorem by `Print Assumptions` (section 5).

## 5. Assumptions per theorem
Output of `Print Assumptions` for every theorem listed in MANIFEST.json (Coq 8.16.1). No other axioms occur.

**Closed under the global context** (167 theorems): C02_deque_is_a_queue, C09_pairwise_different_lengths, C11_no_short_series, C11_reduced_witness, C12_overflow_breaks_warped, C13_kim_length_one, C15_traverse_terminates, C17_groups_partition, C20_representative_is_first, C22_returns_number_of_groups, C22_regrouping, C22_grouping_changes_only_groups, C22_depends_only_on_data, C24_infinite_threshold_ub_witness, C24_finite_threshold_no_ub, C28_copy_not_found_witness, C29_bad_request_rejected, C31_assign_witness, C31_assign_longer_witness, C31_write_witness, C31_shared_witness, C31_normalize_witness, C32_PAA, C32_bad_block, C33_still_grouped, C33_match_never_returns, C34_outside_witness, C36_table_total, C36_load, C37_missing_file, C37_malformed, C37_outcomes, C37_stod_ok, C38_negative_start, C38_start_beyond, C38_empty_file, C38_blank_lines, C39_lossy_witness, C40_largest_witness, C41_missing_file, C41_version, C41_not_a_number, C41_blank_file, C41_version_too_large, C42_power_witness, C42_witness, C44_load, C44_unload, C44_unload_all, C44_others, C44_failed_load, C44_list, C44_count, C45_reachable, C45_frame, C46_unknown_ids, C47_failing_operations, C48_each_condition, C49_words, C49_blank, C49_comment, C49_help, C49_unknown, C49_argument_count, C49_executes, C49_timer, C49_not_numeric, C49_threshold_not_numeric, C49_match_without_end, C49_quit, C49_every_line, C49_ends, C49_crashes, C49_session_reachable, C49_end_of_input, C49_infinite_threshold_witness, C49_match_without_end_witness, C50_empty_undefined, C51_irreflexive, C51_cycle_witness, C51_equivalence_witness, C51_not_strict_weak, C52_grouping_returns, C52_grouping_divides_by_zero, C52_five_series_suffice, C53_match_depends_only_on_values, C53_asking_again, C54_group_negative_length, C56_short_query, C56_no_query, C56_comparison_witness, C58_read, C58_range, C58_write, C58_add, C58_add_length, C58_overlap_witness, C59_values, C59_leaks, C59_no_leak, C59_groups_leak, C59_self_assign_witness, C59_moved_witness, C59_delete_strict, C59_delete_witness, C60_tie_witness, C61_group_access, C61_load_witness, C62_answer_stays, C62_answer_dangles, C62_arrays, C62_all_freed, C63_every_history, C63_no_misuse, C63_lost, C63_nothing_lost, C63_end, C63_lost_for_ever, C63_all_released_refuted, C64_program, C64_typed_run, C64_session, C64_digits, C64_match, C64_done, C64_log, C64_thrown, C64_timer, C64_help, C64_match_read, C64_error, C64_list, C64_list_read, C64_other_digits_witness, C66_distance_witness, C66_compose_witness, C66_range_witness, C67_same_or_overflow, C67_load_in_range, C67_load_overflows, C67_load_witness, C67_load_small, C67_load_smallest, C67_after_loading, C67_group_in_range, C67_group_overflows, C67_small_datasets, C67_first_grouping, C67_first_grouping_witness, C68_envelope, C68_band_overflows, C68_ratio_witness, C68_group_file_witness, C69_overflow_witness, C71_same_or_overflow, C72_every_window_counted, C72_which_count, C72_empty_file_witness, C73_any_doubles, C73_any_doubles_int, C73_hides_rest_of_chunk, C73_found_is_finite, C73_hides_rest, C73_query_not_finite, C73_envelope_of_anything, C73_comparison_of_nan, C73_two_numbers_witness.

**`ClassicalDedekindReals.sig_forall_dec`, `FunctionalExtensionality.functional_extensionality_dep`** (1 theorems): C39_tiny_witness.

**`ClassicalDedekindReals.sig_forall_dec`, `ClassicalDedekindReals.sig_not_dec`, `FunctionalExtensionality.functional_extensionality_dep`** (41 theorems): C03_warped_is_optimum_exact, C04_warped_symmetric_exact, C08_early_abandon_exact, C09_pairwise_exact, C10_pairwise_metric, C13_kim_lower_bound, C13_kim_throws_on_length_two, C13_kim_prunes_safely, C14_band_in_range_exact, C19_diameter_exact, C20_representatives_separated_exact, C21_joins_nearest_exact, C21_founders_exact, C23_zero_threshold_exact, C26_best_group_best_member_exact, C27_as_good_as_representatives_exact, C32_mean_exact, C50_decides, C50_kim, C50_keogh, C50_keogh_data, C50_window, C56_nearest, C56_unique, C56_affine, C56_finds_copy, C56_short_data, C56_never_ends, C56_wide_band, C65_warped_close_exact, C65_within_quarter_exact, C65_copy_exact, C65_best_exact, C66_distance_exact, C66_mean_kept_exact, C66_compose_exact, C71_nearest, C71_overflow, C71_bad_file_overflows, C72_report, C72_short_file.

**`ClassicalDedekindReals.sig_forall_dec`, `ClassicalDedekindReals.sig_not_dec`, `Classical_Prop.classic`, `FunctionalExtensionality.functional_extensionality_dep`** (109 theorems): C01_envelope_is_window_minmax, C03_warped_is_optimum_f64, C04_warped_symmetric, C04_pairwise_symmetric, C05_self_distance_zero, C05_never_negative_or_nan, C06_keogh_admissible, C07_cascade_inf_or_warped, C08_early_abandon_f64, C08_float_discard_witness, C09_pairwise_f64, C11_length_one_breaks_band_and_dropout, C12_bounded_data_safe, C13_kim_not_admissible_short, C13_kim_dropout, C14_band_in_range_f64, C14_band_large_ratio, C15_traverse_order, C16_skipped_lengths_have_no_match, C18_members_within_half_threshold, C23_negative_threshold, C25_match_is_real, C26_best_group_best_member, C30_long_query_out_of_bounds, C30_match_returns, C31_coherent, C31_copy, C32_PAA_one, C33_match_undefined, C33_regroup, C34_extremes, C34_values, C35_idempotent, C36_numeral, C37_overflow, C39_savable, C39_reload, C40_file, C40_save, C40_reload, C40_printable, C41_count, C41_length, C41_unknown_distance, C41_match_after, C42_exact, C42_error, C42_reload, C43_out_of_range, C43_duplicate, C48_safe_histories, C48_every_call, C48_saved_files, C50_below_best_is_optimal, C50_no_false_dismissal, C50_kim_short_refuted, C50_large_cost_witness, C51_meaning, C51_asymmetric, C51_spread, C54_match_after, C55_same_file, C56_short_windows_refuted, C57_match_loaded, C57_match_member, C57_out_of_reach, C57_empty_group_witness, C57_no_group_witness, C60_same_answer, C60_resave, C60_round, C60_one_round, C60_two_rounds, C60_same_group, C61_save, C61_body_unchecked, C61_not_recognised, C61_total, C64_one_line_numbers, C64_match_values, C65_exhaustive, C66_range, C66_normalized_range, C67_negative_threshold_number, C67_number_overflows, C67_number_witness, C68_distance, C68_safe_sessions, C68_every_call, C68_small_within, C68_small_sessions, C69_envelope, C69_warped_is_optimum, C69_symmetric, C69_self_zero, C69_never_negative_or_nan, C69_keogh_admissible, C69_early_abandon, C69_pairwise, C69_no_overflow, C69_arithmetic, C69_conversions, C70_groups_partition, C70_members_within_half_threshold, C70_match_is_real, C70_best_group_best_member, C72_percentages, C73_constant_query, C73_constant_window.

`sig_forall_dec`, `sig_not_dec` (Coq.Reals.ClassicalDedekindReals) and `functional_extensionality_dep` come with the real numbers of the standard
library, `classic` (Coq.Logic.Classical_Prop) with lemmas about them that Flocq uses.

## 6. Files

| file | contents |
|------|----------|
| Outcome.v | Outcomes of C++ functions, arrays, loops |
| Num.v | Numbers: the operations on [data_t] used by the code, as a record |
| RX.v | [RX]: the exact-arithmetic instance: real numbers with +INF, -INF and NaN |
| Deque.v | Model of src/lib/deque.{h,cpp}: circular array deque of ints |
| Lemire.v | Model of src/lib/trillionDTW.cpp:19-64 [lower_upper_lemire] |
| Distance.v | Model of src/distance/Distance.cpp on series given by their values |
| TimeSeries.v | Model of src/TimeSeries.{hpp,cpp}: views into dataset buffers, owned series, and the mutable Keogh cache; and of the distances of src/distance/Distance.cpp on such series |
| Text.v | Text: lines, tokens, and conversion between numbers and text as done by the C++ standard library (iostream, std::stod, std::stoi) and boost::tokenizer on behalf of the modelled code |
| Dataset.v | Model of src/TimeSeriesSet.{hpp,cpp} |
| Groups.v | Model of src/Group.{hpp,cpp}, src/LocalLengthGroupSpace.{hpp,cpp} and src/GlobalGroupSpace.{hpp,cpp} |
| Api.v | Model of src/GroupableTimeSeriesSet.{hpp,cpp} and src/OnexAPI.{hpp,cpp}: the session state and the public operations |
| Laws.v | Laws of the number operations used by the proofs (not a model of a file of /repo) |
| F64Base.v | binary64 arithmetic of [F64] related to real numbers (proofs, through Flocq) |
| RXLaws.v | The laws of Laws.v for exact arithmetic |
| F64Laws.v | The laws of Laws.v for binary64 |
| Spec.v | Specifications, independent of the model of the code |
| DtwProofs.v | Proofs about warpedDistance (Distance.v) for any arithmetic satisfying [CostLaws] |
| DequeProofs.v | The circular deque behaves like a list |
| LemireProofs.v | The envelope computed by lower_upper_lemire is the sliding window minimum / maximum |
| KeoghProofs.v | Symmetry, early abandoning, Keogh lower bounds and the cascade, for any arithmetic satisfying [CostLaws] |
| SafeDist.v | Distances never go wrong on finite data: always a value, never negative or NaN, and 0 on equal series |
| Band.v | The warping band size (Distance.cpp:132-136) in both arithmetics |
| Numeric.v | Facts about the distances that are specific to one arithmetic: absence of overflow, and how much the rounding of the dropout can cost |
| Metric.v | Exact arithmetic: the triangle inequality of the pairwise distance and the Kim bound |
| Kim.v | The Kim bound (Distance.cpp:138-194) in exact arithmetic |
| TraverseProofs.v | The order in which lengths are visited (GlobalGroupSpace.cpp:116-153) |
| TsProofs.v | Series as values: reading, and distances on series with caches |
| GroupSpec.v | Specification vocabulary for datasets, groups and matches |
| GroupProofs.v | Grouping: what [generateGroups] builds |
| GlobalGroup.v | Grouping all lengths of a dataset |
| GroupFacts.v | Groups: facts about thresholds and distances in binary64 and exact arithmetic |
| MatchProofs.v | Matching: the search for the best group and the best member |
| SimProofs.v | A match changes nothing but the cached envelopes, whatever the numbers are |
| Indep.v | Grouping and matching depend only on values: a relation between two sessions that may keep the same values in different buffers, with different caches |
| SessionProofs.v | Sessions: reachable states, buffers and the effect of operations on other datasets |
| SessionMatch.v | Matching after grouping, in every later session |
| RepMatch.v | Matching against groups whose representatives are any series of the right length, for instance groups loaded from a file |
| LoadedMatch.v | Matching in every session after loading groups: the counterpart of SessionMatch.v for RepMatch.v |
| SessionIndep.v | What grouping and matching depend on: the values, the threshold and the ratio; nothing else of the session and its history |
| RepIndep.v | Matching depends only on the groups: two sessions whose datasets have the same values and whose groups have the same representatives search the same group, and give the same answer if the groups also have the same members in the same order |
| ApiProofs.v | Sessions: number of datasets, identifiers, exceptions, owners of representatives |
| DataProofs.v | Facts about PAA and normalization |
| NormProofs.v | Normalization in binary64 |
| FileSpec.v | Specification of the text tables read by loadDataset: lines, columns, rows read |
| LoadProofs.v | Lines, columns and loadData |
| DecSpec.v | Specification of decimal numbers in text: what a string of digits denotes, integers and decimal fractions with an optional exponent |
| NumSpec.v | Specification of reading and printing doubles: which double a real number becomes, words of a text |
| GroupFileSpec.v | Specification of group files: their header, and groups restored from a file |
| LoadedSpec.v | Specification of matching against groups that were loaded from a file |
| DecProofs.v | Reading and printing decimal numbers (Text.v) meets DecSpec.v |
| PrintProofs.v | Printing numbers (Text.v) meets DecSpec.v |
| SaveProofs.v | Proofs about saveDataset: the text that is written and its reading back |
| StreamProofs.v | Proofs about reading numbers and words from a stream |
| GroupFileProofs.v | Proofs about writing groups to a file and reading them back |
| ReloadSpec.v | Specification of saving and reloading groups in rounds |
| ReloadProofs.v | Saving groups that may have been loaded from a file |
| DangleProofs.v | Groups whose representatives refer to freed memory (after PAA on a grouped dataset) |
| CacheSpec.v | Histories of envelope requests and additions on series that do not share memory |
| AccessSpec.v | What a series contains, and which elements of two series are the same cell of memory |
| CacheProofs.v | The cached envelopes in such histories |
| ShortSpec.v | getBestMatch with the distance as a parameter |
| ShortProofs.v | No match compares a series of one point |
| Cli.v | Model of cli/OnexCLI.cpp: the command interpreter around one OnexAPI object |
| CliSpec.v | Specification of the command line (C49): which API operation a line asks for, how many arguments the commands take |
| CliProofs.v | Proofs about the command line |
| Trillion.v | Model of src/lib/trillionDTW.cpp:66-242: the lower bounds and the distance of the UCR suite |
| TrillionSpec.v | Specification for the UCR suite (C50): cumulative bounds, sorted copies, normalised windows |
| TrillionProofs.v | Proofs about the distance of the UCR suite: the two rolling rows hold the costs of the band |
| TrillionBounds.v | The bounds of the UCR suite in exact arithmetic |
| Search.v | Model of calculate (src/lib/trillionDTW.cpp:245-572): the search of the UCR suite |
| SearchSpec.v | Specification of the nearest-window search (C56), over real numbers |
| SearchProofs.v | The search of the UCR suite in exact arithmetic |
| SeriesMem.v | Model of the memory behind src/TimeSeries.{hpp,cpp}: allocation, copying, assignment, moving and destruction |
| SeriesSpec.v | Series as values: what programs that use series may rely on |
| SeriesProofs.v | The series of values are refined by the series of pointers: proofs |
| SeriesSim.v | The series of pointers simulate the series of values, call by call |
| DigitsProofs.v | Printing with few digits and reading back: when the same double returns |
| SafeMatch.v | Matching never goes wrong on groups whose cached envelopes may be out of date |
| SafeSpec.v | Specification of the calls that are safe at some point of a session |
| SafeProofs.v | Proofs about safe calls: each keeps an invariant of the session |
| SafeCheck.v | A program that decides (a part of) [fitting_file], to show that files of interest fit |
| LifeSpec.v | Specification of lifetimes: calls that free the array of a dataset |
| LifeProofs.v | Memory of sessions: what each call does to the arrays of the datasets |
| Properties_Groups.v | Properties C17-C24, C52: grouping |
| Properties_Match.v | Properties C25-C30: matching |
| Properties_Indep.v | Properties C22 (what grouping depends on) and C53 (what a match depends on) |
| Properties_Api.v | Properties C44 (identifiers), C45 (frame), C46 (unknown identifiers), C47 (failing operations) |
| Properties_Data.v | Properties C32 (PAA), C34 and C35 (normalization) |
| Properties_Load.v | Properties C36, C37, C38: loading text tables |
| Properties_Save.v | Properties C36 and C37 (numerals), C39, C55 (saving and reloading datasets), C42 (16 digits) |
| Properties_GroupFile.v | Properties C40, C41, C43: group files |
| Properties_Digits.v | Property C42: representatives are saved with 16 digits |
| Properties_Loaded.v | Property C57: matching against groups loaded from a file |
| Properties_Reload.v | Property C60: saving and reloading groups does not change the answers of matches |
| Properties_Dangling.v | C33: reducing a grouped dataset (PAA) leaves groups in freed memory |
| Properties_Order.v | Property C51: the order of candidates |
| Properties_Cache.v | Property C31: cached envelopes |
| SizeSpec.v | Specification of group files that hold only the sizes of the groups |
| Properties_Size.v | Property C61: group files that hold only the sizes of the groups, and access to single groups |
| Properties_Access.v | Property C58: element access and addition of series |
| Properties_Series.v | Property C59: the memory of series |
| Properties_Short.v | Property C11, second part: no match calls the warped distance with a series of one point |
| Properties_Cli.v | Property C49: the command line |
| Properties_Trillion.v | Property C50: the distance and the lower bounds of the UCR suite (trillionDTW.cpp) |
| Properties_Search.v | Property C56: the search of the UCR suite (calculate, trillionDTW.cpp:245-572) finds the nearest window |
| Properties_Distance.v | Properties C01-C16: envelope, deque, distances, lower bounds, band, traverse order |
| Properties_Safe.v | C48: a history of safe calls never has undefined behaviour and never hangs |
| Properties_Life.v | C62: how long the answer of a match can be read, and which arrays are allocated |
| SessionMem.v | Model of the memory behind the session: which objects and arrays are allocated and released, and when |
| SessionMemProofs.v | The memory of sessions: trees of objects are built and released without errors; only the first array of each group is lost |
| SessionMemSpec.v | Specification of the memory of sessions |
| SessionMemLink.v | The memory actions of API calls fit the session: they are ones that [reshape] allows |
| SessionMemReach.v | From trees of objects to what the program can still reach |
| Properties_SessionMem.v | C63: the memory of sessions: nothing is released twice or used after its release, and exactly what is lost |
| Console.v | Model of what the program cli/OnexCLI.cpp writes to the console |
| ConsoleSpec.v | Specification of the console (C64) |
| ConsoleProofs.v | Proofs about the console |
| ConsoleLines.v | Proofs about the lines of the console |
| ConsoleRead.v | Reading the console back: the texts determine what they report |
| ConsoleLog.v | The text of successful commands and the log of a grouping |
| Properties_Console.v | C64: what the console shows |
| ApproxProofs.v | Exact arithmetic: how much the warped distance changes when one series changes |
| Properties_Approx.v | Property C65: how far from the best the answer of a match can be |
| PaaProofs.v | What block means keep: distances, composition, ranges |
| Properties_Paa.v | Property C66: what PAA keeps |
| Ints.v | The operations with their 32-bit [int] arithmetic |
| IntsProofs.v | The checked operations against the unbounded ones |
| Properties_Ints.v | Property C67: the 32-bit integers of the program |
| IntsMatch.v | The checked distances, searches and group files against the unbounded ones: no overflow for moderate lengths |
| IntsLoad.v | The checked loading of group files against the unbounded one: no overflow for files whose members are subsequences of the dataset |
| IntsSafe.v | The checked program on safe histories: no overflow when the sizes that the calls create fit 32 bits |
| Ints2Spec.v | Specification of the calls whose sizes fit the program's 32-bit integers |
| Properties_Ints2.v | Property C68: the 32-bit integers of whole sessions |
| Single.v | The single-precision build: the operations on [data_t] = float |
| F32Base.v | binary32 arithmetic related to real numbers (proofs, through Flocq): F64Base.v for binary32 |
| F32Laws.v | The laws of Laws.v for binary32 and for the values of the single-precision build: F64Laws.v for binary32 (integers are rounded, so a length above 2^24 is not exact) |
| F32Numeric.v | Facts about the distances in binary32: absence of overflow, and how much the rounding of the dropout can cost (Numeric.v for binary32) |
| SingleProofs.v | The series of the single-precision build: costs and comparisons of floats (proofs) |
| Properties_Single.v | Property C69: the distances of the single-precision build |
| Properties_Single2.v | Property C70: grouping and matching in the single-precision build |
| Properties_SingleArith.v | Property C69: what the operations on floats compute |
| Search32.v | The search of the UCR suite with its 32-bit [int] arithmetic (src/lib/trillionDTW.cpp:245-572) |
| Search32Proofs.v | The search with 32-bit ints against the search with unbounded ints |
| Properties_Search32.v | Property C71: how many points the search of the UCR suite can scan with 32-bit ints |
| KimDropout.v | The Kim bound (Distance.cpp:138-194) with a dropout, in any arithmetic with the cost laws |
| Properties_Kim.v | C13: the Kim bound with a dropout (Distance.cpp:138-194) |
| Properties_Report.v | Property C72: what the search of the UCR suite reports about its windows (trillionDTW.cpp:559-570) |
| SafeLemire.v | lower_upper_lemire on arbitrary numbers: no assumption on the comparison, so that a series may hold NaN |
| SafeSearch.v | The search of the UCR suite in any arithmetic: every access is inside its array and the search ends, whatever the numbers |
| NanSearch.v | The search of the UCR suite on doubles that may be NaN |
| NanFree.v | The windows that the search of the UCR suite finds hold only finite numbers |
| ConstQuery.v | A constant query of the UCR search: its deviation is 0, so every number of the normalised query is 0/0 |
| Properties_AnySearch.v | Property C73: the search of the UCR suite on any doubles, NaN and infinities included |
