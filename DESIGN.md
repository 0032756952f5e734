# Formal model of stereo-parallel in Rocq (Coq 8.16.1)

The source in `/repo` is read as text; nothing of it is built or run.  The model
lives in `rocq/theories` (logical name `Verif`).  C-numbers refer to
`properties.jsonl`; `MANIFEST.json` names the theorems of each property.

## 1. What is modelled and how

### Machine and data

* **Integers.**  `ULONG` values are `N`; every C++ arithmetic operation on them
  is written with its wrap-around (`uadd`, `umul`, `usub`: modulo `wmod`), where
  `wmod` is `2^64` for the host and the OpenCL build and `2^32` for the CUDA
  build.  The 32-bit counter of `image_valid` wraps modulo `2^32`.
* **Floating point.**  `FLOAT` is a parameter of the model (record `target` of
  `Target.v`: carrier, `+ - *`, comparisons, conversion from integers, epsilon).
  Instances: `cpu` (IEEE binary64, Flocq `BinarySingleNaN`, round to nearest
  even), `opencl` and `cuda` (IEEE binary32; CUDA's `__int2float_rn` takes a
  signed `int`) and `exact` (real numbers; not a build of the code, used by the
  energy statements C23, C24, C128 only).  The laws needed by the generic proofs are a
  predicate (`Laws.v`), *proved* for the three IEEE instances
  (`Target_proofs.v`).  NaN payloads are not distinguished.
* **Undefined behaviour** is a distinct outcome.  Arrays are lists with checked
  access; an access outside is `Stop Undef`; sorting a NaN is `Stop Undef`.
  Exceptions are `Stop (Throw e)`.  `Stop Diverge` means that the fuel of a loop
  ran out; theorems show where this cannot happen (C10, C35, C42, C52).
* **Availability memory.**  The functions that work on `nodes_availability` are
  written once, as programs of a small command language (`Cmd.v`: `Ret`, `Fail`,
  `Read`, `Write`); a handler gives the single-threaded semantics (`exec`, `run`)
  and small-step relations give the interleaved semantics of OpenMP (`Concur.v`)
  and of the kernels (`Gpu.v`).
* **Streams** are byte lists with `eofbit`/`failbit`; `operator>>(string)`,
  `get`, `ignore`, `stoul` after the standard and libstdc++, in the C locale.
* **Sorting** (`std::sort`) is an arbitrary function returning an ordered
  permutation of its input; theorems quantify over all of them (`sorts`), and
  C64 shows that the choice does not matter.

### Threads

* `Concur.v`: any number of jobs interleave arbitrarily.  Changing an element of
  `std::vector<bool>` loads its word and later stores it with one bit changed, so
  that updates can be lost (`wb` elements per word, 64 for libstdc++).  With
  `sc = true` loads see the latest store; with `sc = false` they may see any
  contents since the start of the round.  Such races are formally undefined
  behaviour in C++; the model assumes that loads and stores of words are the
  machine's.
* A round of `solve_csp` starts `bound` jobs, each of which assumes that there
  are `jobs` of them.  Both numbers are `THREADS_NUMBER`
  (`lib/constraint_graph.cpp` 37-41), but the first is evaluated for the loop
  bound - by GCC outside the inner team, i.e. in a team of one - and the second
  inside.  The model leaves both open (`team` of `MainOmp.v`); the theorems say
  which relation they need, C77 shows what goes wrong otherwise.
* `Gpu.v`: one work-item per pixel, barriers that wait for the whole group or for
  those that reach them (`barrier_kind`), an arbitrary partition into groups, the
  host loop around the OpenCL kernel, conversion of the problem to `float` and to
  the `unsigned` of CUDA.
* `Broken.v`: files may break after any number of characters (an error of the operating system, or a directory), in
  all builds. As in libstdc++, an error sets `badbit`, which `fail()` and `good()` see and `eof()`
  does not; in libraries that take an error for the end of the file, the file is the part read before it (`Pgm.v`).
* `Memory.v`: any allocation may fail, in the build with one thread and without GPUs. Words of up to 15 characters
  are read without allocating (libstdc++); in longer ones `operator>>` keeps a part of the word and sets `badbit`.
  The solution of the problem is one step. `std::ofstream` opens the file before it allocates its buffer. Writing and
  the handlers allocate nothing, except `what()` of Boost.Program_options, which must not throw.
* `Memory_builds.v`: the same for the builds with OpenMP, OpenCL and CUDA. libgomp ends the process with the status 1
  when it has no memory for a team or cannot start its threads; the libraries of the devices fail as in `MainFail.v`.
* `Troubles.v`: scarce memory, files that break and output files that take only some characters in the same run,
  in all builds.
* `MainFail.v` adds failures of the libraries: with OpenCL any call may throw; with
  CUDA any call may fail, any kernel may be refused (always, if its configuration
  exceeds the limits of the device) or fail while running, after which all calls
  fail; `assert` works or not (`NDEBUG`).  The kernel of `lib/solve_csp.cu` waits for
  the whole grid although it is not launched with `cudaLaunchCooperativeKernel`; what
  the device makes of it is one of: works, is refused, fails while running.

### Code and model

| code | model | simplifications |
|---|---|---|
| `include/types.hpp` | `Target.v`, `Base.v` | |
| `include/image.hpp`, `lib/image.cpp` | `Image.v` | |
| `lib/indexing.cpp`, `lib/indexing_checks.cpp` | `Indexing.v` | |
| `lib/disparity_graph.cpp` | `Disparity.v` | the constructor and penalties of the host; the device entry points that only copy are in `Gpu.v` |
| `lib/lowest_penalties.cpp` | `Lowest.v` | |
| `lib/constraint_graph.cpp` | `Cmd.v`, `Constraint.v`, `Concur.v` | |
| `lib/labeling_finder.cpp` | `Labeling.v`; with OpenMP `MainOmp.v`; on devices `Gpu.v` | |
| `lib/pgm_io.cpp` | `Pgm.v`; with scarce memory `Memory.v`; with input files that break `Broken.v`; with output files that take only some characters `Disk.v` | in `Pgm.v` output streams do not fail |
| `include/pgm_io.hpp`, the members of the class, and the pointers to images | `Objects.v` | one thread; the image of `operator>>` is made also if the format code is wrong; destroyed images keep their numbers, which are not used again |
| `lib/main.cpp` | `MainProg.v`; with scarce memory `Memory.v`, `Memory_builds.v`; with input files that break `Broken.v`; GPU builds `MainGpu.v`, with failures `MainFail.v`; OpenMP `MainOmp.v`; with output files that take only some characters `Disk.v`, `Disk_omp.v`; with several failures in one run `Troubles.v`; with the texts of messages `Console.v`, `Console_omp.v` | `Args.v` parses the command line, the other files start from its result; messages are represented by their kind, except in `Console.v` |
| Boost.Program_options (not in `/repo`), as used by `lib/main.cpp` 35-77 | `Args.v` | from knowledge of Boost 1.60-1.74; default style, options with no value or one string, no positional options |
| `lib/compile_cl.cpp` | `Sources.v` | the compiler is not modelled |
| `lib/solve_csp.cl`, `lib/solve_csp.cu`, `lib/gpu_csp.cpp`, `lib/cuda_csp.cu` | `Gpu.v`; failures `MainFail.v` | see above |

Every definition of these files carries a comment with the lines of the code.
Not modelled: the texts of messages of other libraries (arbitrary in `Console.v`), timing, failures of allocations
with the texts of messages (`Memory.v` and `Memory_builds.v` have kinds of messages), the CMake files (except which options exist)
and the documentation (except the iteration that it describes, C127, and the energy that it defines, C23, C24, C128, C129).

### Specification and proofs

`Spec.v`, `Pgm_spec.v`, `Main_spec.v`, `Exact_spec.v`, `Energy_spec.v`,
`Gpu_spec.v`, `Omp_spec.v`, `Lattice_spec.v`, `Scale_spec.v`, `Args_spec.v`, `Special_spec.v`, `Fail_spec.v`, `Runs_spec.v`, `Disk_spec.v`, `Series_spec.v`, `Console_spec.v`, `Work_spec.v`, `Levels_spec.v`, `Crop_spec.v`, `Stiff_spec.v`, `Noise_spec.v`, `Memory_spec.v`, `Memory_builds_spec.v`, `Broken_spec.v`, `Rows_spec.v`, `Rows_omp_spec.v`, `Builds_spec.v`, `Console_omp_spec.v`, `Builds_args_spec.v`, `Troubles_spec.v`, `Toil_spec.v`, `Objects_spec.v`, `Doc_spec.v`, `Total_spec.v`, `Factor_spec.v` define the words of the properties: pixels, neighbors,
matches, labelings, bounds, tokens, runs.  They use the data types of the model
and, where a property is about a function, that function, but none of the
lemmas' helpers.  `*_proofs.v` hold the lemmas, `Samples.v`, `Checks.v`,
`*_witness.v`, `Schedule.v`, `Gpu_schedule.v` the concrete problems, files and
schedules behind examples and refutations.  `Properties_*.v` contain only the
property theorems, each closed by `exact`, followed by `Print Assumptions` and an
`Example` showing a concrete case that meets its hypotheses.

`Model_tests.v` runs the project's own unit tests (`tests/*.cpp`, all but the
empty `api.cpp` and `create_image`, which only reads back a literal) on the
model; every check of every test holds.  These are tests of the model, not
proofs.

A property that the code violates has a theorem `..._refuted` that exhibits the
violation, and theorems that say what does hold.

## 2. Approach per group of properties

* C01-C08 index functions and existence checks: arithmetic on `N` with wrap;
  injectivity by mixed-radix uniqueness of division.
* C09, C10 `image_valid`: fuelled loop with a counter modulo `2^32`.
* C11-C20 PGM: the reader is characterised through token streams, the writer by
  induction over rows; refutations by concrete files.
* C21, C22, C25, C26, C56, C62 problems, penalties, minima, array sizes.
* C23, C24 energy: real arithmetic, sums over lists.
* C27-C38 solver: the programs are shown equal to functions on lists; invariants
  "keeps every supported set of nodes", "only removes"; monotonicity by
  simulation; refutations by computation.
* C39, C40, C63 jobs: invariants of the interleaved semantics.
* C41-C50 thresholds and labelings: sorted lists, binary search, greedy choice.
* C49-C55, C64-C68 the application as a function of world and options.
* C57-C59, C69-C74 kernels, devices, GPU builds.
* C60, C61 exactness: `B2R` reasoning for integers below `2^53` and `2^24`.
* C81-C87 lattice: the constraints are closed under minimum and maximum because
  edge penalties grow with the distance of the disparities (`order_laws`), hence
  arc consistency decides; one row is a chain.
* C88 devices: each propagation ends in the largest arc-consistent set, whatever the
  schedule; induction over the choices.
* C75-C79 the OpenMP build; C80 characterises the written map among all optimal
  ones and is the reason why all runs that write something write the same.
* C89-C92 proportional problems: availability, candidates and choices of the two runs
  agree step by step (simulation).
* C93-C96 command lines: the parser against a grammar of words (`gives`), both ways.
* C98-C100 functions of the library on their own; problems whose map is known beforehand;
  images upside down.
* C103 launches: before the first store of a launch every read that says available is
  true of the contents at its start, so that the first store removes a match (memory of
  any kind only decreases); without a store nobody marks the second flag. A schedule
  in which all work-items move in step ends on every kind of device.
* C104, C105 incomplete files: the tokens of the first part of a text are first tokens
  of the text, the last one possibly cut; counting the characters that are not white
  space tells how many digits are missing.
* C123 runs of different builds: as C106; every build's map has the size of the left
  image and ends with disparity 0, so that sizes that suit CUDA are kept.
* C106 series of runs: a run depends on the files it names only, and the text of a map
  is usable again.
* C110-C112 two problems: `Across_proofs.v` follows the sweep of one problem and the sweep of another one
  over a part of the pixels and shows that a node available in the first stays available in the second.
  With the same problem and two thresholds this gives C111, with more levels C110, with fewer pixels C112.
* C113 stiff problems: a labeling with a step costs more than the flat one, so the exact optimality (C44, C66) leaves
  the flat map only. For a moved scene the moved match of the first pixel is still available after the first
  sweep and `find_labeling` takes it, as it is cheaper than the one the flat map needs.
* C119, C120 no smoothness: vertical edges are always within the threshold, so a labeling is a choice of one chain per
  row; a sweep that succeeds leaves a chain to the left of every node (the argument of C84), and a chain of one row can
  be replaced without touching the others.
* C121 independent rows with OpenMP: a job for a row reads and changes elements of that row only and finds nothing to
  remove in the other rows, so that in every interleaving it follows the run it would make alone; words that are not
  shared make a stale word harmless. A round therefore ends with the contents the sequential round computes.
* C118 broken files: the reader of `Broken.v` and the one of `Pgm.v` go hand in hand until the first needs a character
  that it does not get; from then on its stream is bad, and `eof()` never holds, so that `check_file_end` does not
  clear the state.
* C116, C117, C122 scarce memory: `Memory.v` follows the reader word by word; after a failed allocation the stream is bad, so
  that every later read fails and the image is refused.
* C124 several troubles: the reader of `Troubles.v` is that of `Memory.v` for files that do not break; for the others both go
  hand in hand as in C118, and a bad stream is the same whatever made it bad.
* C125 the work of threads: the longest path through the tree of a program bounds its steps whatever it reads; the rows
  of the jobs add up to those of the image.
* C126 objects: the numbers of owners are the numbers of variables that hold the image, which every statement keeps;
  programs and an ideal memory without owners simulate each other.
* C127 the documented iteration is written down from the comments and not from the code; both forms and the solvers
  are compared through the union of arc-consistent sets.
* C128 the energies of two labelings are compared term by term; the number of terms is that of a concrete enumeration.
* C129 a family of rows with one bright pixel: the greedy choice zigzags and pays for every pair of neighbors.
* C114, C115 two problems with penalties that differ by at most `d`: `Across_proofs.v` with the thresholds `b` and
  `b + d`; noise changes a squared difference of intensities up to `m` by at most `4em`, the lowest one as well.
* C109 work: `accesses` counts the steps of a program of `Cmd.v`; the bounds are structural, except that
  two sweeps are enough (C35) and that a success has swept the whole image.
* C107, C108 messages: `Console.v` repeats the program with the texts; forgetting the texts
  gives the other model.  Fixed words and the end of a number can be recognised in a text.
  For OpenMP, up to the graph the two builds do the same.
* C101, C102 failing libraries: invariants of the host program (an error stays pending
  until the next check, a lost device stays lost).

## 3. Trusted base

* Coq's kernel (8.16.1), including its `vm_compute`.
* The axioms below, all from the standard library.
* The reading of the C++ text described in section 1, in particular:
  floating-point expressions are evaluated in the declared format without
  contraction or extended precision; memory allocation succeeds up to
  `vector::max_size` (except in C116, C117, C122 and C124), and files do not break while they are read (except in C118 and C124); the C locale and `isspace` of it; races on words behave as
  the machine's loads and stores; opening the output file either succeeds or
  fails, and writing to it succeeds (except in C105 and C124, where only some first part of
  the text may arrive).
* For C93-C96, the reading of Boost.Program_options described in `Args.v`; for C101
  and C102, the reading of the CUDA runtime and of Boost.Compute described in
  `MainFail.v`.
* The specifications, as the meaning of the words in `properties.jsonl`.

No axioms are added, no kernel check is switched off, nothing is admitted.

## 4. Testing against wrong programs

`seeded/LOG.jsonl` has one line per wrong program: the definition edited in a
scratch copy, the edit, the claim it breaks, the theorems whose proofs then fail,
and the theorems tightened because of it.  In the scratch copy every lemma whose
proof fails is admitted and the build goes on, so that the log names the property
theorems that depend on a failed lemma, or fail themselves.

## 5. Print Assumptions

Closed under the global context:

`C01_pixel_addressing`, `C02_reparametrization_addressing`, `C03_node_addressing`,
`C04_neighborhood_addressing`, `C05_neighbor_slots`, `C06_neighborhood_exists`,
`C07_node_exists`, `C08_edge_exists`, `C09_image_valid_decides`, `C103_counted`, `C103_ends`,
`C103_launches`, `C103_launches_levels`, `C103_relaunches`, `C109_labeling`, `C109_map`,
`C109_quadratic`, `C109_solve`, `C109_threshold`, `C10_image_valid_total_refuted`,
`C10_iterations_enough`, `C110_excess`, `C110_labelings`, `C110_threshold`, `C111_decides`,
`C112_part`, `C119_device`, `C119_labeling`, `C119_separate`, `C119_solvable`, `C119_threshold`,
`C120_labelings`, `C120_stacked`, `C121_apart`, `C121_labeling`, `C121_solver`, `C125_counted`,
`C125_launch`, `C125_round`, `C125_solve`, `C125_thread`, `C125_turns`, `C127_device`,
`C127_documented_decides`, `C127_documented_ends`, `C127_documented_result`,
`C127_edges_follow_nodes`, `C127_ends_together`, `C127_frugal_ends`, `C127_frugal_result`,
`C127_one_call`, `C127_repeated_calls`, `C127_same_result`, `C127_steps`, `C128_energy_exists`,
`C128_maps`, `C128_two_maps`, `C14_tokens_unique`, `C22_edge_penalty_formula`,
`C22_node_penalty_formula`, `C25_lowest_pixel`, `C26_lowest_neighborhood`,
`C26_lowest_neighborhood_zero`, `C27_initial_availability`, `C28_set_availability`,
`C29_edge_availability`, `C29_symmetric`, `C31_removal_test`, `C32_jobs_keep_labelings`,
`C32_solving_keeps_labelings`, `C33_jobs_only_remove`, `C33_solving_only_removes`,
`C34_all_or_nothing`, `C35_jobs_terminate`, `C35_solve_csp_terminates`, `C38_monotone`,
`C38_monotone_fresh`, `C39_every_schedule_safe`, `C41_candidates`, `C42_minimal_threshold`,
`C44_threshold_lower_bound`, `C45_choose_best_node`, `C47_found_labeling`, `C48_disparity_map`,
`C49_minimax`, `C50_solvable_at_threshold`, `C54_as_given_refuted`, `C54_kinds`, `C56_snapshot`,
`C57_every_execution_safe`, `C57_propagation`, `C58_arc_consistent`, `C59_when`,
`C62_array_sizes`, `C66_cheapest`, `C66_equal_images`, `C69_device_labeling`, `C70_one_group`,
`C71_bounded`, `C71_stuck`, `C81_labelings_form_a_lattice`, `C81_made_plain`,
`C82_consistent_solvable`, `C82_extreme_labelings`, `C83_repeated_calls_decide`,
`C83_unchanged_call`, `C84_backward_support`, `C84_one_row_solvable`, `C84_one_row_threshold`,
`C85_one_row_labeling`, `C86_device_decides`, `C87_one_row_device`, `C88_runs_agree`,
`C93_settings`, `C93_unambiguous`, `C97_missing_refuted`, `C97_source`, `C98_edge_penalties`,
`C98_nodes_left`, `C98_pixel_penalties`, `C98_potentials`, `C98_slots`.

`Classical_Prop.classic`:

`C21_construction`.

`ClassicalDedekindReals.sig_forall_dec`, `FunctionalExtensionality.functional_extensionality_dep`:

`C128_bound`, `C128_dual`, `C128_some_threshold`, `C23_energy_invariant`, `C24_dual_bound`,
`C24_lower_bound`.

`ClassicalDedekindReals.sig_forall_dec`, `ClassicalDedekindReals.sig_not_dec`, `Classical_Prop.classic`, `FunctionalExtensionality.functional_extensionality_dep`:

`C100_equally_good`, `C100_upside_down_refuted`, `C101_contained`, `C101_happens`,
`C101_unfailing`, `C102_no_room`, `C102_status_refuted`, `C103_runs`, `C104_incomplete`,
`C104_recognised_refuted`, `C105_maps`, `C105_omp_maps`, `C105_omp_room`, `C105_omp_unnoticed`,
`C105_reported_refuted`, `C105_room`, `C105_unnoticed`, `C106_again`,
`C106_images_kept_refuted`, `C106_map_as_image`, `C106_order`, `C106_series`,
`C107_omp_technology`, `C107_omp_unknown`, `C107_technology`, `C107_unknown`, `C108_appear`,
`C108_file_named_refuted`, `C108_files`, `C108_identified`, `C108_lines`, `C108_omp_appear`,
`C108_omp_appear_refuted`, `C108_omp_early`, `C108_omp_files`, `C108_omp_identified`,
`C108_omp_lines`, `C108_omp_reported`, `C108_omp_requirement`, `C108_option_named_refuted`,
`C108_pixel`, `C108_reported`, `C108_requirement`, `C110_more_levels_refuted`,
`C112_columns_refuted`, `C113_flat`, `C113_flat_device`, `C113_message`, `C113_moved_refuted`,
`C113_steps`, `C114_costs`, `C114_maps`, `C114_weights`, `C115_maps`, `C115_noise_refuted`,
`C115_thresholds`, `C116_effects`, `C116_enough`, `C116_map`, `C116_old_output_refuted`,
`C117_blame_refuted`, `C117_status`, `C118_devices_reported`, `C118_devices_runs`, `C118_map`,
`C118_one_thread`, `C118_reported`, `C118_runs`, `C118_threads_reported`, `C118_threads_runs`,
`C119_application`, `C119_builds`, `C119_map_refuted`, `C119_two_levels`, `C11_round_trip`,
`C121_application`, `C121_shared_words_refuted`, `C121_smoothness_refuted`,
`C122_blame_refuted`, `C122_devices`, `C122_devices_enough`, `C122_devices_map`,
`C122_devices_status`, `C122_old_output_refuted`, `C122_omp`, `C122_omp_enough`, `C122_omp_map`,
`C122_omp_status`, `C122_plain`, `C123_independent`, `C123_map_as_image`, `C123_no_fault`,
`C123_order`, `C123_series`, `C124_devices`, `C124_devices_broken`, `C124_devices_map`,
`C124_devices_scarce`, `C124_omp`, `C124_omp_broken`, `C124_omp_fragile`, `C124_omp_map`,
`C124_omp_scarce`, `C124_told_refuted`, `C125_packed_refuted`, `C126_altering`, `C126_as_ideal`,
`C126_as_if`, `C126_assigning`, `C126_destroying`, `C126_making`, `C126_moving`,
`C126_no_dangling`, `C126_no_leak`, `C126_owners`, `C126_reading`, `C126_reading_value`,
`C126_writing`, `C127_nodes_alone_refuted`, `C127_one_call_refuted`, `C128_device`,
`C128_lowest_energy_refuted`, `C128_openmp`, `C128_written`, `C129_closest_map`,
`C129_closest_row`, `C129_device`, `C129_factor_refuted`, `C129_openmp`, `C129_written`,
`C12_line_length`, `C13_complete_file`, `C13_nothing_written`, `C14_read_success`, `C15_layout`,
`C16_defects`, `C17_failed_read`, `C17_failure_keeps_refuted`, `C18_exceptions`,
`C18_never_throws_refuted`, `C19_read_memory_refuted`, `C19_read_safe`,
`C20_read_valid_refuted`, `C22_exact`, `C26_left_neighborhood_refuted`,
`C30_edge_symmetry_refuted`, `C36_arc_consistency_refuted`, `C37_true_means_labeling_refuted`,
`C40_schedule_independent_refuted`, `C43_threshold_admits_labeling_refuted`,
`C46_negative_penalties_refuted`, `C49_written`, `C51_map_for_every_problem_refuted`,
`C52_all_files_refuted`, `C52_no_undefined_behaviour`, `C53_lost_map_refuted`, `C53_silent`,
`C53_status`, `C53_unread`, `C54_leading_number`, `C54_rejected`, `C55_help_refuted`,
`C58_skipping_barriers_refuted`, `C59_barriers_meet_refuted`, `C60_comparisons`, `C60_minima`,
`C60_optimal`, `C60_threshold`, `C60_written`, `C61_all_problems_refuted`, `C61_same_penalties`,
`C61_signs_refuted`, `C62_array_sizes_refuted`, `C63_packed_rounds_progress_refuted`,
`C64_sorting_irrelevant`, `C65_bad_problem`, `C65_good_problem`, `C67_equal_images`,
`C68_deep_map_refuted`, `C68_readable`, `C69_device_map`, `C70_several_groups_refuted`,
`C72_larger_penalties_refuted`, `C72_optimal`, `C72_written`, `C73_conversely_refuted`,
`C73_same_file`, `C73_same_map`, `C74_accounted`, `C74_without_devices`, `C75_no_fault`,
`C75_otherwise`, `C75_reports`, `C75_some_run`, `C76_matched`, `C77_loop_bound_refuted`,
`C77_optimal`, `C78_one_thread`, `C79_as_sequential`, `C79_found_or_not_refuted`,
`C79_same_file`, `C80_first_map`, `C81_builds`, `C85_labeling_refuted`, `C87_device_refuted`,
`C88_devices_agree`, `C88_same_file`, `C88_skipping_barriers_refuted`, `C89_proportional`,
`C89_rounding_refuted`, `C90_proportional_devices`, `C91_brighter`, `C91_linear_change`,
`C91_negative`, `C91_weights`, `C92_proportional_files`, `C94_any_order`,
`C95_option_as_value_refuted`, `C95_stray_word_refuted`, `C96_builds_no_images`,
`C96_builds_status`, `C96_no_images`, `C96_status`, `C96_total`, `C96_written`, `C99_closest`,
`C99_zero`.

The axioms come with the real numbers of the standard library
(`sig_forall_dec`, `sig_not_dec`, `functional_extensionality_dep`) and with Flocq's
use of `classic`; the theorems about `cpu`, `opencl` and `cuda` mention Flocq's
operations, whose correctness proofs use them.
