{
 "claims": [
  {
   "property": "C01",
   "status": "proved",
   "theorems": [
    "C01_pixel_addressing"
   ],
   "note": ""
  },
  {
   "property": "C02",
   "status": "proved",
   "theorems": [
    "C02_reparametrization_addressing"
   ],
   "note": ""
  },
  {
   "property": "C03",
   "status": "proved",
   "theorems": [
    "C03_node_addressing"
   ],
   "note": ""
  },
  {
   "property": "C04",
   "status": "proved",
   "theorems": [
    "C04_neighborhood_addressing"
   ],
   "note": ""
  },
  {
   "property": "C05",
   "status": "proved",
   "theorems": [
    "C05_neighbor_slots"
   ],
   "note": ""
  },
  {
   "property": "C06",
   "status": "proved",
   "theorems": [
    "C06_neighborhood_exists"
   ],
   "note": ""
  },
  {
   "property": "C07",
   "status": "proved",
   "theorems": [
    "C07_node_exists"
   ],
   "note": ""
  },
  {
   "property": "C08",
   "status": "proved",
   "theorems": [
    "C08_edge_exists"
   ],
   "note": ""
  },
  {
   "property": "C09",
   "status": "proved",
   "theorems": [
    "C09_image_valid_decides"
   ],
   "note": ""
  },
  {
   "property": "C10",
   "status": "proved",
   "theorems": [
    "C10_image_valid_total_refuted",
    "C10_iterations_enough"
   ],
   "note": "Violated by the code; the theorem named _refuted proves the violation on a concrete witness; C10_iterations_enough proves termination and memory safety for images of fewer than 2^32 pixels whose data has width*height elements."
  },
  {
   "property": "C11",
   "status": "proved",
   "theorems": [
    "C11_round_trip"
   ],
   "note": ""
  },
  {
   "property": "C12",
   "status": "proved",
   "theorems": [
    "C12_line_length"
   ],
   "note": ""
  },
  {
   "property": "C13",
   "status": "proved",
   "theorems": [
    "C13_nothing_written",
    "C13_complete_file"
   ],
   "note": "The images are assumed to have fewer than 2^32 pixels and data of the right size (C10 shows that image_valid may not end otherwise)."
  },
  {
   "property": "C14",
   "status": "proved",
   "theorems": [
    "C14_read_success",
    "C14_tokens_unique"
   ],
   "note": ""
  },
  {
   "property": "C15",
   "status": "proved",
   "theorems": [
    "C15_layout"
   ],
   "note": ""
  },
  {
   "property": "C16",
   "status": "proved",
   "theorems": [
    "C16_defects"
   ],
   "note": ""
  },
  {
   "property": "C17",
   "status": "proved",
   "theorems": [
    "C17_failure_keeps_refuted",
    "C17_failed_read"
   ],
   "note": "Violated by the code; the theorem named _refuted proves the violation on a concrete witness; C17_failed_read proves that trailing tokens are the only way."
  },
  {
   "property": "C18",
   "status": "proved",
   "theorems": [
    "C18_never_throws_refuted",
    "C18_exceptions"
   ],
   "note": "Violated by the code; the theorem named _refuted proves the violation on a concrete witness; C18_exceptions proves that these two exceptions are the only ones, and when they occur."
  },
  {
   "property": "C19",
   "status": "proved",
   "theorems": [
    "C19_read_safe",
    "C19_read_memory_refuted"
   ],
   "note": "Violated by the code; the theorem named _refuted proves the violation on a concrete witness; C19_read_safe proves that these are the only two ways and that reading ends."
  },
  {
   "property": "C20",
   "status": "proved",
   "theorems": [
    "C20_read_valid_refuted"
   ],
   "note": "Violated by the code; the theorem named _refuted proves the violation on a concrete witness; C14_read_success states what does hold of an image read."
  },
  {
   "property": "C21",
   "status": "proved",
   "theorems": [
    "C21_construction"
   ],
   "note": "For images with fewer than 2^32 pixels whose data holds width*height elements and sizes that neither wrap nor exceed the largest vector."
  },
  {
   "property": "C22",
   "status": "proved",
   "theorems": [
    "C22_exact",
    "C22_node_penalty_formula",
    "C22_edge_penalty_formula"
   ],
   "note": "The formulas hold for every build and reparametrization; C22_exact gives their exact values for zero reparametrization and small integer weights."
  },
  {
   "property": "C23",
   "status": "proved",
   "theorems": [
    "C23_energy_invariant"
   ],
   "note": "On the reference build with real numbers."
  },
  {
   "property": "C24",
   "status": "proved",
   "theorems": [
    "C24_lower_bound",
    "C24_dual_bound"
   ],
   "note": "On the reference build with real numbers; C24_dual_bound bounds the energy of the problem as given."
  },
  {
   "property": "C25",
   "status": "proved",
   "theorems": [
    "C25_lowest_pixel"
   ],
   "note": ""
  },
  {
   "property": "C26",
   "status": "proved",
   "theorems": [
    "C26_lowest_neighborhood",
    "C26_lowest_neighborhood_zero",
    "C26_left_neighborhood_refuted"
   ],
   "note": "Violated by the code; the theorem named _refuted proves the violation on a concrete witness for the left neighbor; C26_lowest_neighborhood proves the claim for the other three and C26_lowest_neighborhood_zero for all four if the reparametrization is zero."
  },
  {
   "property": "C27",
   "status": "proved",
   "theorems": [
    "C27_initial_availability"
   ],
   "note": ""
  },
  {
   "property": "C28",
   "status": "proved",
   "theorems": [
    "C28_set_availability"
   ],
   "note": ""
  },
  {
   "property": "C29",
   "status": "proved",
   "theorems": [
    "C29_edge_availability",
    "C29_symmetric"
   ],
   "note": "Symmetry is proved for zero reparametrization, finite penalties and non-negative weights."
  },
  {
   "property": "C30",
   "status": "proved",
   "theorems": [
    "C30_edge_symmetry_refuted"
   ],
   "note": "Violated by the code; the theorem named _refuted proves the violation on a concrete witness; C29_symmetric is the restricted positive statement."
  },
  {
   "property": "C31",
   "status": "proved",
   "theorems": [
    "C31_removal_test"
   ],
   "note": ""
  },
  {
   "property": "C32",
   "status": "proved",
   "theorems": [
    "C32_jobs_keep_labelings",
    "C32_solving_keeps_labelings"
   ],
   "note": ""
  },
  {
   "property": "C33",
   "status": "proved",
   "theorems": [
    "C33_jobs_only_remove",
    "C33_solving_only_removes"
   ],
   "note": ""
  },
  {
   "property": "C34",
   "status": "proved",
   "theorems": [
    "C34_all_or_nothing"
   ],
   "note": ""
  },
  {
   "property": "C35",
   "status": "proved",
   "theorems": [
    "C35_jobs_terminate",
    "C35_solve_csp_terminates"
   ],
   "note": "For several jobs: sequentially consistent memory with separately addressed elements; C63 shows that packed words break it."
  },
  {
   "property": "C36",
   "status": "proved",
   "theorems": [
    "C36_arc_consistency_refuted"
   ],
   "note": "Violated by the code; the theorem named _refuted proves the violation on a concrete witness."
  },
  {
   "property": "C37",
   "status": "proved",
   "theorems": [
    "C37_true_means_labeling_refuted"
   ],
   "note": "Violated by the code; the theorem named _refuted proves the violation on a concrete witness."
  },
  {
   "property": "C38",
   "status": "proved",
   "theorems": [
    "C38_monotone",
    "C38_monotone_fresh"
   ],
   "note": ""
  },
  {
   "property": "C39",
   "status": "proved",
   "theorems": [
    "C39_every_schedule_safe"
   ],
   "note": ""
  },
  {
   "property": "C40",
   "status": "proved",
   "theorems": [
    "C40_schedule_independent_refuted"
   ],
   "note": "Violated by the code; the theorem named _refuted proves the violation on a concrete witness."
  },
  {
   "property": "C41",
   "status": "proved",
   "theorems": [
    "C41_candidates"
   ],
   "note": ""
  },
  {
   "property": "C42",
   "status": "proved",
   "theorems": [
    "C42_minimal_threshold"
   ],
   "note": ""
  },
  {
   "property": "C43",
   "status": "proved",
   "theorems": [
    "C43_threshold_admits_labeling_refuted"
   ],
   "note": "Violated by the code; the theorem named _refuted proves the violation on a concrete witness; C44 proves that the threshold is a lower bound."
  },
  {
   "property": "C44",
   "status": "proved",
   "theorems": [
    "C44_threshold_lower_bound"
   ],
   "note": ""
  },
  {
   "property": "C45",
   "status": "proved",
   "theorems": [
    "C45_choose_best_node"
   ],
   "note": ""
  },
  {
   "property": "C46",
   "status": "proved",
   "theorems": [
    "C46_negative_penalties_refuted"
   ],
   "note": "Violated by the code; the theorem named _refuted proves the violation on a concrete witness; C45 proves the claim for non-negative penalties."
  },
  {
   "property": "C47",
   "status": "proved",
   "theorems": [
    "C47_found_labeling"
   ],
   "note": ""
  },
  {
   "property": "C48",
   "status": "proved",
   "theorems": [
    "C48_disparity_map"
   ],
   "note": ""
  },
  {
   "property": "C49",
   "status": "proved",
   "theorems": [
    "C49_minimax",
    "C49_written"
   ],
   "note": "The images come with data of the right size and fewer than 2^32 pixels (usable_files)."
  },
  {
   "property": "C50",
   "status": "proved",
   "theorems": [
    "C50_solvable_at_threshold"
   ],
   "note": ""
  },
  {
   "property": "C51",
   "status": "proved",
   "theorems": [
    "C51_map_for_every_problem_refuted"
   ],
   "note": "Violated by the code; the theorem named _refuted proves the violation on a concrete witness; C65 proves that this is the only failure on good problems, C66 and C67 give problems for which a map is written."
  },
  {
   "property": "C52",
   "status": "proved",
   "theorems": [
    "C52_no_undefined_behaviour",
    "C52_all_files_refuted"
   ],
   "note": "usable_files excludes files whose sizes wrap around and files with bytes 128-254 after the image; C52_all_files_refuted shows that the latter are needed. One thread, memory never exhausted."
  },
  {
   "property": "C53",
   "status": "proved",
   "theorems": [
    "C53_status",
    "C53_silent",
    "C53_unread",
    "C53_lost_map_refuted"
   ],
   "note": "C53_lost_map_refuted: an output file that cannot be opened is not reported."
  },
  {
   "property": "C54",
   "status": "proved",
   "theorems": [
    "C54_leading_number",
    "C54_kinds",
    "C54_rejected",
    "C54_as_given_refuted"
   ],
   "note": "Violated by the code; the theorem named _refuted proves the violation on a concrete witness; C54_leading_number, C54_kinds and C54_rejected state what does hold."
  },
  {
   "property": "C55",
   "status": "proved",
   "theorems": [
    "C55_help_refuted"
   ],
   "note": "Violated by the code; the theorem named _refuted proves the violation on a concrete witness."
  },
  {
   "property": "C56",
   "status": "proved",
   "theorems": [
    "C56_snapshot"
   ],
   "note": ""
  },
  {
   "property": "C57",
   "status": "proved",
   "theorems": [
    "C57_every_execution_safe",
    "C57_propagation"
   ],
   "note": "Interleavings with stores of single elements; sc=false also covers loads of old values."
  },
  {
   "property": "C58",
   "status": "proved",
   "theorems": [
    "C58_arc_consistent",
    "C58_skipping_barriers_refuted"
   ],
   "note": "Proved for one group whose barriers wait for all; C58_skipping_barriers_refuted shows what happens otherwise."
  },
  {
   "property": "C59",
   "status": "proved",
   "theorems": [
    "C59_barriers_meet_refuted",
    "C59_when"
   ],
   "note": "Violated by the code; the theorem named _refuted proves the violation on a concrete witness (equal images, the first launch of either kernel); C59_when states exactly when it may happen."
  },
  {
   "property": "C60",
   "status": "proved",
   "theorems": [
    "C60_minima",
    "C60_comparisons",
    "C60_threshold",
    "C60_optimal",
    "C60_written"
   ],
   "note": "For every IEEE 754 build; small_penalties states the bounds, 2^53 for the CPU build."
  },
  {
   "property": "C61",
   "status": "proved",
   "theorems": [
    "C61_same_penalties",
    "C61_all_problems_refuted",
    "C61_signs_refuted"
   ],
   "note": "Violated by the code; the theorem named _refuted proves the violation on a concrete witness; C61_same_penalties proves the claim while the penalties stay at most 2^24. C61_signs_refuted: CUDA takes intensities of 2^31 and more, which images made by a program may have, for negative numbers."
  },
  {
   "property": "C62",
   "status": "proved",
   "theorems": [
    "C62_array_sizes",
    "C62_array_sizes_refuted"
   ],
   "note": "Violated by the code; the theorem named _refuted proves the violation on a concrete witness; C62_array_sizes proves the claim below the bound."
  },
  {
   "property": "C63",
   "status": "proved",
   "theorems": [
    "C63_packed_rounds_progress_refuted"
   ],
   "note": "Violated by the code; the theorem named _refuted proves the violation on a concrete witness; C35_jobs_terminate proves termination if the elements are separate."
  },
  {
   "property": "C64",
   "status": "proved",
   "theorems": [
    "C64_sorting_irrelevant"
   ],
   "note": "For every function that sorts numbers as std::sort must."
  },
  {
   "property": "C65",
   "status": "proved",
   "theorems": [
    "C65_good_problem",
    "C65_bad_problem"
   ],
   "note": ""
  },
  {
   "property": "C66",
   "status": "proved",
   "theorems": [
    "C66_cheapest",
    "C66_equal_images"
   ],
   "note": ""
  },
  {
   "property": "C67",
   "status": "proved",
   "theorems": [
    "C67_equal_images"
   ],
   "note": ""
  },
  {
   "property": "C68",
   "status": "proved",
   "theorems": [
    "C68_readable",
    "C68_deep_map_refuted"
   ],
   "note": "Violated by the code; the theorem named _refuted proves the violation on a concrete witness; C68_readable proves the claim for at most 65536 levels."
  },
  {
   "property": "C69",
   "status": "proved",
   "theorems": [
    "C69_device_labeling",
    "C69_device_map"
   ],
   "note": "About runs in which no call of the OpenCL and CUDA libraries fails; C101 is about the others."
  },
  {
   "property": "C70",
   "status": "proved",
   "theorems": [
    "C70_several_groups_refuted",
    "C70_one_group"
   ],
   "note": "Violated by the code; the theorem named _refuted proves the violation on a concrete witness; C70_one_group proves the claim for one group."
  },
  {
   "property": "C71",
   "status": "proved",
   "theorems": [
    "C71_bounded",
    "C71_stuck"
   ],
   "note": ""
  },
  {
   "property": "C72",
   "status": "proved",
   "theorems": [
    "C72_optimal",
    "C72_written",
    "C72_larger_penalties_refuted"
   ],
   "note": "Violated by the code; the theorem named _refuted proves the violation on a concrete witness; C72_optimal and C72_written prove the claim while the penalties are at most 2^24."
  },
  {
   "property": "C73",
   "status": "proved",
   "theorems": [
    "C73_same_map",
    "C73_same_file",
    "C73_conversely_refuted"
   ],
   "note": "Violated by the code; the theorem named _refuted proves the violation on a concrete witness where the CPU fails; C73_same_map and C73_same_file prove the claim where it does not, for devices whose barriers wait for all."
  },
  {
   "property": "C74",
   "status": "proved",
   "theorems": [
    "C74_accounted",
    "C74_without_devices"
   ],
   "note": "usable_files as for C52; for CUDA the arrays must have fewer than 2^32 elements."
  },
  {
   "property": "C75",
   "status": "proved",
   "theorems": [
    "C75_no_fault",
    "C75_some_run",
    "C75_reports",
    "C75_otherwise"
   ],
   "note": "About runs that come to an end; C63 shows that packed elements may keep a run from it. usable_files as for C52."
  },
  {
   "property": "C76",
   "status": "proved",
   "theorems": [
    "C76_matched"
   ],
   "note": "The bound of the node penalties is not claimed for the edges; see C77."
  },
  {
   "property": "C77",
   "status": "proved",
   "theorems": [
    "C77_optimal",
    "C77_loop_bound_refuted"
   ],
   "note": "Violated by the code; the theorem named _refuted proves the violation on a concrete witness if the loop starts fewer jobs than each job assumes; C77_optimal proves the claim for all other teams with loads that see the latest stores, lost updates of packed elements included."
  },
  {
   "property": "C78",
   "status": "proved",
   "theorems": [
    "C78_one_thread"
   ],
   "note": ""
  },
  {
   "property": "C79",
   "status": "proved",
   "theorems": [
    "C79_same_file",
    "C79_as_sequential",
    "C79_found_or_not_refuted"
   ],
   "note": "Violated by the code; the theorem named _refuted proves the violation on a concrete witness as to whether a map is found; C79_same_file and C79_as_sequential prove that the maps found are the same."
  },
  {
   "property": "C80",
   "status": "proved",
   "theorems": [
    "C80_first_map"
   ],
   "note": ""
  },
  {
   "property": "C81",
   "status": "proved",
   "theorems": [
    "C81_made_plain",
    "C81_labelings_form_a_lattice",
    "C81_builds"
   ],
   "note": "order_laws (monotone conversion and products) is proved for the three builds and for real numbers by C81_builds."
  },
  {
   "property": "C82",
   "status": "proved",
   "theorems": [
    "C82_extreme_labelings",
    "C82_consistent_solvable"
   ],
   "note": ""
  },
  {
   "property": "C83",
   "status": "proved",
   "theorems": [
    "C83_repeated_calls_decide",
    "C83_unchanged_call"
   ],
   "note": ""
  },
  {
   "property": "C84",
   "status": "proved",
   "theorems": [
    "C84_backward_support",
    "C84_one_row_solvable",
    "C84_one_row_threshold"
   ],
   "note": "C43 shows that the threshold need not admit a labeling for images of several rows."
  },
  {
   "property": "C85",
   "status": "proved",
   "theorems": [
    "C85_one_row_labeling",
    "C85_labeling_refuted"
   ],
   "note": "Violated by the code; the theorem named _refuted proves the violation on a concrete witness for images of two rows; C85_one_row_labeling proves the claim for images of one row."
  },
  {
   "property": "C86",
   "status": "proved",
   "theorems": [
    "C86_device_decides"
   ],
   "note": "About propagations that end; C59 shows that a launch may get stuck."
  },
  {
   "property": "C87",
   "status": "proved",
   "theorems": [
    "C87_one_row_device",
    "C87_device_refuted"
   ],
   "note": "Violated by the code; the theorem named _refuted proves the violation on a concrete witness for images of two rows; C87_one_row_device proves the claim for images of one row."
  },
  {
   "property": "C88",
   "status": "proved",
   "theorems": [
    "C88_runs_agree",
    "C88_devices_agree",
    "C88_same_file",
    "C88_skipping_barriers_refuted"
   ],
   "note": "Violated by the code; the theorem named _refuted proves the violation on a concrete witness if barriers skip work-items that have left; C88_runs_agree, C88_devices_agree and C88_same_file prove the claim for orderly devices."
  },
  {
   "property": "C89",
   "status": "proved",
   "theorems": [
    "C89_proportional",
    "C89_rounding_refuted"
   ],
   "note": "Violated by the code; the theorem named _refuted proves the violation on a concrete witness for penalties above 2^53; C89_proportional proves the claim up to there."
  },
  {
   "property": "C90",
   "status": "proved",
   "theorems": [
    "C90_proportional_devices"
   ],
   "note": ""
  },
  {
   "property": "C91",
   "status": "proved",
   "theorems": [
    "C91_linear_change",
    "C91_brighter",
    "C91_negative",
    "C91_weights"
   ],
   "note": "Hypotheses on the problem after the change are needed only for the bound 2^53."
  },
  {
   "property": "C92",
   "status": "proved",
   "theorems": [
    "C92_proportional_files"
   ],
   "note": ""
  },
  {
   "property": "C93",
   "status": "proved",
   "theorems": [
    "C93_settings",
    "C93_unambiguous"
   ],
   "note": ""
  },
  {
   "property": "C94",
   "status": "proved",
   "theorems": [
    "C94_any_order"
   ],
   "note": ""
  },
  {
   "property": "C95",
   "status": "proved",
   "theorems": [
    "C95_stray_word_refuted",
    "C95_option_as_value_refuted"
   ],
   "note": "Violated by the code; the theorem named _refuted proves the violation on a concrete witness; C93_settings says exactly which words are skipped and which are taken as values."
  },
  {
   "property": "C96",
   "status": "proved",
   "theorems": [
    "C96_total",
    "C96_status",
    "C96_written",
    "C96_no_images",
    "C96_builds_status",
    "C96_builds_no_images"
   ],
   "note": "C96_total and C96_written are about the sequential build, C96_builds_status and C96_builds_no_images about all builds; maps of the others are the subject of C72, C76 and C77."
  },
  {
   "property": "C97",
   "status": "proved",
   "theorems": [
    "C97_source",
    "C97_missing_refuted"
   ],
   "note": "Violated by the code; the theorem named _refuted proves the violation on a concrete witness if files are missing or incomplete; C97_source proves the claim otherwise."
  },
  {
   "property": "C98",
   "status": "proved",
   "theorems": [
    "C98_pixel_penalties",
    "C98_edge_penalties",
    "C98_potentials",
    "C98_slots",
    "C98_nodes_left"
   ],
   "note": "About well-formed graphs, which the constructor makes (C21)."
  },
  {
   "property": "C99",
   "status": "proved",
   "theorems": [
    "C99_closest",
    "C99_zero"
   ],
   "note": "C66 is the same in floating-point terms, without the bound 2^53."
  },
  {
   "property": "C100",
   "status": "proved",
   "theorems": [
    "C100_upside_down_refuted",
    "C100_equally_good"
   ],
   "note": "Violated by the code; the theorem named _refuted proves the violation on a concrete witness; C100_equally_good states what does hold."
  },
  {
   "property": "C101",
   "status": "proved",
   "theorems": [
    "C101_contained",
    "C101_unfailing",
    "C101_happens"
   ],
   "note": "usable_files as for C52. A kernel that fails without any call of the library reporting it is modelled for CUDA and not for OpenCL."
  },
  {
   "property": "C102",
   "status": "proved",
   "theorems": [
    "C102_status_refuted",
    "C102_no_room"
   ],
   "note": "Violated by the code; the theorem named _refuted proves the violation on a concrete witness; C101_contained and C101_unfailing state what does hold. The refutation covers devices with fewer than 2^30 - 1 threads per block (known devices have 1024)."
  },
  {
   "property": "C103",
   "status": "proved",
   "theorems": [
    "C103_relaunches",
    "C103_launches",
    "C103_launches_levels",
    "C103_counted",
    "C103_ends",
    "C103_runs"
   ],
   "note": "Launches that end are counted; that every launch of a sequentially consistent device ends or is stuck at a barrier is C71."
  },
  {
   "property": "C104",
   "status": "proved",
   "theorems": [
    "C104_incomplete",
    "C104_recognised_refuted"
   ],
   "note": "Violated by the code; the theorem named _refuted proves the violation on a concrete witness if the last intensity has several digits; C104_incomplete states exactly what is read."
  },
  {
   "property": "C105",
   "status": "proved",
   "theorems": [
    "C105_omp_unnoticed",
    "C105_omp_room",
    "C105_omp_maps",
    "C105_unnoticed",
    "C105_reported_refuted",
    "C105_room",
    "C105_maps"
   ],
   "note": "Violated by the code; the theorem named _refuted proves the violation on a concrete witness; C105_room proves that a map is complete if there is room for it, C105_maps and C105_omp_maps that readers notice an incomplete map. The status is 0 also if nothing could be written (C53)."
  },
  {
   "property": "C106",
   "status": "proved",
   "theorems": [
    "C106_series",
    "C106_map_as_image",
    "C106_again",
    "C106_images_kept_refuted",
    "C106_order"
   ],
   "note": "Violated by the code; the theorem named _refuted proves the violation on a concrete witness if a run writes to one of its images; C106_again proves the claim otherwise. Runs of the build without OpenCL and CUDA (C123 has the others); paths name the same file only if they are equal."
  },
  {
   "property": "C107",
   "status": "proved",
   "theorems": [
    "C107_technology",
    "C107_unknown",
    "C107_omp_technology",
    "C107_omp_unknown"
   ],
   "note": "About runs in which no call of the OpenCL and CUDA libraries fails; the C107_omp theorems are about the build with OpenMP, whatever the threads do."
  },
  {
   "property": "C108",
   "status": "proved",
   "theorems": [
    "C108_reported",
    "C108_lines",
    "C108_files",
    "C108_requirement",
    "C108_identified",
    "C108_pixel",
    "C108_appear",
    "C108_option_named_refuted",
    "C108_file_named_refuted",
    "C108_omp_reported",
    "C108_omp_lines",
    "C108_omp_early",
    "C108_omp_files",
    "C108_omp_requirement",
    "C108_omp_identified",
    "C108_omp_appear",
    "C108_omp_appear_refuted"
   ],
   "note": "Violated by the code; the theorem named _refuted proves the violation on a concrete witness for options that are not numbers and for numbers in files that do not fit; C108_files, C108_requirement, C108_identified and C108_pixel prove the rest. Texts of Boost, of std::length_error and of numbers with a fraction are arbitrary; \"stoul\" is what libstdc++ gives. C108_appear is about usable files and the sequential build, C108_omp_appear and the other C108_omp theorems about the build with OpenMP, where C108_omp_appear_refuted shows a message that cannot appear otherwise."
  },
  {
   "property": "C109",
   "status": "proved",
   "theorems": [
    "C109_solve",
    "C109_labeling",
    "C109_quadratic",
    "C109_map",
    "C109_threshold"
   ],
   "note": "Accesses to the availability array by one thread are counted; the penalties computed between them, the lists of candidates and their sorting are not. The bound on the calls of solve_csp is for problems with zero potentials and weights that are not negative, as the application makes them."
  },
  {
   "property": "C110",
   "status": "proved",
   "theorems": [
    "C110_more_levels_refuted",
    "C110_excess",
    "C110_labelings",
    "C110_threshold"
   ],
   "note": "Violated by the code; the theorem named _refuted proves the violation on a concrete witness if a new match fits better than all old ones of its pixel; C110_threshold proves the claim otherwise, and C110_excess that the excess of an old match never shrinks."
  },
  {
   "property": "C111",
   "status": "proved",
   "theorems": [
    "C111_decides"
   ],
   "note": "Generalises the minimality in C43 and the bound in C44."
  },
  {
   "property": "C112",
   "status": "proved",
   "theorems": [
    "C112_part",
    "C112_columns_refuted"
   ],
   "note": "Violated by the code; the theorem named _refuted proves the violation on a concrete witness for columns at the right; C112_part proves the claim for rows and for columns at the left."
  },
  {
   "property": "C113",
   "status": "proved",
   "theorems": [
    "C113_flat",
    "C113_flat_device",
    "C113_steps",
    "C113_moved_refuted",
    "C113_message"
   ],
   "note": "Violated by the code; the theorem named _refuted proves the violation on a concrete witness for scenes moved by some columns, for which nothing is found although the flat map is optimal; C113_flat, C113_flat_device and C113_steps prove what holds of the maps found."
  },
  {
   "property": "C114",
   "status": "proved",
   "theorems": [
    "C114_costs",
    "C114_weights",
    "C114_maps"
   ],
   "note": "The problems must have the same size and levels; C110 and C112 are about others."
  },
  {
   "property": "C115",
   "status": "proved",
   "theorems": [
    "C115_thresholds",
    "C115_maps",
    "C115_noise_refuted"
   ],
   "note": "Violated by the code; the theorem named _refuted proves the violation on a concrete witness as to whether a map is found; C115_thresholds and C115_maps prove the rest. The constants 8 and 16 are not claimed to be the least ones."
  },
  {
   "property": "C116",
   "status": "proved",
   "theorems": [
    "C116_effects",
    "C116_map",
    "C116_enough",
    "C116_old_output_refuted"
   ],
   "note": "Violated by the code; the theorem named _refuted proves the violation on a concrete witness as to the old output, which may be emptied; C116_effects and C116_map prove the rest. Whether an allocation fails is arbitrary; what the library does then is that of libstdc++."
  },
  {
   "property": "C117",
   "status": "proved",
   "theorems": [
    "C117_status",
    "C117_blame_refuted"
   ],
   "note": "Violated by the code; the theorem named _refuted proves the violation on a concrete witness for files with words of more than 15 characters; C117_status proves the claim otherwise (an abort included)."
  },
  {
   "property": "C118",
   "status": "proved",
   "theorems": [
    "C118_reported",
    "C118_runs",
    "C118_map",
    "C118_devices_reported",
    "C118_devices_runs",
    "C118_threads_reported",
    "C118_threads_runs",
    "C118_one_thread"
   ],
   "note": "The behaviour of streams is that of libstdc++: an error of the operating system sets badbit. The exit status is 0, as after all exceptions in the try block (C53)."
  },
  {
   "property": "C119",
   "status": "proved",
   "theorems": [
    "C119_separate",
    "C119_builds",
    "C119_solvable",
    "C119_threshold",
    "C119_application",
    "C119_labeling",
    "C119_device",
    "C119_two_levels",
    "C119_map_refuted"
   ],
   "note": "Violated by the code; the theorem named _refuted proves the violation on a concrete witness for three or more levels (C119_map_refuted): the threshold is right, but the constraint graph given to find_labeling is not arc consistent, so that a match without continuation may be chosen. All other parts are proved."
  },
  {
   "property": "C120",
   "status": "proved",
   "theorems": [
    "C120_stacked",
    "C120_labelings"
   ],
   "note": "The problem of each part needs no hypothesis on its penalties; they are those of the whole."
  },
  {
   "property": "C121",
   "status": "proved",
   "theorems": [
    "C121_solver",
    "C121_labeling",
    "C121_apart",
    "C121_application",
    "C121_shared_words_refuted",
    "C121_smoothness_refuted"
   ],
   "note": "Violated by the code; the theorem named _refuted proves the violation on a concrete witness for rows that share words (C121_shared_words_refuted); C121_application proves the claim for one row and for numbers of levels that are multiples of the words' size. C121_smoothness_refuted shows that a smoothness must be absent."
  },
  {
   "property": "C122",
   "status": "proved",
   "theorems": [
    "C122_omp",
    "C122_omp_map",
    "C122_omp_status",
    "C122_omp_enough",
    "C122_devices",
    "C122_devices_map",
    "C122_devices_status",
    "C122_devices_enough",
    "C122_plain",
    "C122_old_output_refuted",
    "C122_blame_refuted"
   ],
   "note": "Violated by the code; the theorem named _refuted proves the violation on a concrete witness as to the old output and the file to blame; C122_omp, C122_devices and the theorems after them prove the rest. libgomp is assumed to call exit(1) when it cannot start a team."
  },
  {
   "property": "C123",
   "status": "proved",
   "theorems": [
    "C123_series",
    "C123_no_fault",
    "C123_map_as_image",
    "C123_independent",
    "C123_order"
   ],
   "note": "Paths name the same file only if they are equal. For CUDA the tables of every image must be addressable with 32 bits; on devices a run may also not end (C71), which is no part of a series."
  },
  {
   "property": "C124",
   "status": "proved",
   "theorems": [
    "C124_omp",
    "C124_omp_map",
    "C124_omp_broken",
    "C124_omp_scarce",
    "C124_omp_fragile",
    "C124_devices",
    "C124_devices_map",
    "C124_devices_broken",
    "C124_devices_scarce",
    "C124_told_refuted"
   ],
   "note": "Violated by the code; the theorem named _refuted proves the violation on a concrete witness as to reporting a file that ends early; C124_omp, C124_devices and the theorems after them prove the rest. The trusted readings are those of C105, C118 and C122."
  },
  {
   "property": "C125",
   "status": "proved",
   "theorems": [
    "C125_round",
    "C125_thread",
    "C125_turns",
    "C125_solve",
    "C125_counted",
    "C125_packed_refuted",
    "C125_launch"
   ],
   "note": "Violated by the code; the theorem named _refuted proves the violation on a concrete witness for calls of solve_csp with elements packed into words (C125_packed_refuted); the bounds for rounds and threads hold for every memory, C125_solve for separate elements on sequentially consistent memory, C125_launch for sequentially consistent devices. Accesses to the availability array are counted, not time."
  },
  {
   "property": "C126",
   "status": "proved",
   "theorems": [
    "C126_as_if",
    "C126_as_ideal",
    "C126_owners",
    "C126_no_leak",
    "C126_no_dangling",
    "C126_reading",
    "C126_reading_value",
    "C126_writing",
    "C126_altering",
    "C126_assigning",
    "C126_moving",
    "C126_making",
    "C126_destroying"
   ],
   "note": "One thread; the pointers are those of libstdc++. A reading of a file with something after the image stores the image although it fails (C17)."
  },
  {
   "property": "C127",
   "status": "proved",
   "theorems": [
    "C127_edges_follow_nodes",
    "C127_steps",
    "C127_frugal_ends",
    "C127_documented_ends",
    "C127_ends_together",
    "C127_frugal_result",
    "C127_documented_result",
    "C127_same_result",
    "C127_documented_decides",
    "C127_nodes_alone_refuted",
    "C127_repeated_calls",
    "C127_one_call",
    "C127_one_call_refuted",
    "C127_device"
   ],
   "note": "Violated by the code; the theorem named _refuted proves the violation on a concrete witness for one call of solve_csp, which may leave more (C127_one_call_refuted): it leaves at least what the iteration leaves and at most what one iteration leaves. Also, the iteration may not stop as soon as no node changes (C127_nodes_alone_refuted); the documentation says that edges have to stay, too."
  },
  {
   "property": "C128",
   "status": "proved",
   "theorems": [
    "C128_energy_exists",
    "C128_maps",
    "C128_written",
    "C128_lowest_energy_refuted",
    "C128_bound",
    "C128_dual",
    "C128_some_threshold",
    "C128_two_maps",
    "C128_device",
    "C128_openmp"
   ],
   "note": "Violated by the code; the theorem named _refuted proves the violation on a concrete witness as to minimizing the energy in general (C128_lowest_energy_refuted: energy 12 instead of 9); the bounds hold. The theorems about maps are in integers and need penalties below 2^53 (2^24 for C128_device, which also needs the arrays to be addressable); C128_openmp is about orderly teams; the theorems about potentials are in real numbers."
  },
  {
   "property": "C129",
   "status": "proved",
   "theorems": [
    "C129_closest_row",
    "C129_closest_map",
    "C129_factor_refuted",
    "C129_openmp",
    "C129_written",
    "C129_device"
   ],
   "note": "Violated by the code; the theorem named _refuted proves the violation on a concrete witness as to the factor (C129_factor_refuted: for every factor up to 2^23 a problem where the energy of the map is larger than so many times that of another labeling); the claim about closest matches holds. Penalties below 2^53 in integers; the closest matches are those of the smallest disparity."
  }
 ]
}