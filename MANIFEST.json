{
 "claims": [
  {
   "property": "C01",
   "status": "proved",
   "theorems": [
    "C01_cell",
    "C01_cell_exists",
    "C01_cell_geometry",
    "C01_weight_sum"
   ],
   "note": "Generic in the arithmetic (binary64 included); sum identity in exact arithmetic."
  },
  {
   "property": "C02",
   "status": "proved",
   "theorems": [
    "C02_resample_mean",
    "C02_resample_frame"
   ],
   "note": "Mean in exact arithmetic; frame in every arithmetic."
  },
  {
   "property": "C03",
   "status": "proved",
   "theorems": [
    "C03_cell_total"
   ],
   "note": "Exact arithmetic."
  },
  {
   "property": "C04",
   "status": "proved",
   "theorems": [
    "C04_run_total",
    "C04_any_seeds",
    "C04_run_succeeds"
   ],
   "note": "Exact arithmetic; one thread (threads: C05)."
  },
  {
   "property": "C05",
   "status": "proved",
   "theorems": [
    "C05_linearizable",
    "C05_total",
    "C05_end_is_quiescent"
   ],
   "note": "All thread counts, seed assignments and schedules of reads, lock acquisitions, writes and releases. Linearizability in any arithmetic, with at most one cell per seed; totals in exact reals (binary64: C61_any_schedule)."
  },
  {
   "property": "C06",
   "status": "proved",
   "theorems": [
    "C06_no_deadlock",
    "C06_only_waits",
    "C06_terminates",
    "C06_completes"
   ],
   "note": "No deadlock, no panic, explicit step bound, for all schedules."
  },
  {
   "property": "C07",
   "status": "proved",
   "theorems": [
    "C07_no_negative",
    "C07_naive_is_complete",
    "C07_tree_is_complete",
    "C07_any_distance",
    "C07_any_distance_b64"
   ],
   "note": "Exact arithmetic, one thread. C07_any_distance: the tree search finds all points for any nonnegative distance below the limit, metric or not; C07_any_distance_b64: also in binary64 arithmetic, with any limit. In binary64 C07_no_negative is false: C62_run_refuted."
  },
  {
   "property": "C08",
   "status": "partial",
   "theorems": [
    "C08_refuted",
    "C08_one_thread",
    "C08_one_thread_no_negative_partial",
    "C08_apart_no_negative_partial"
   ],
   "note": "REFUTED for two threads: stale unlocked reads let two cells count the same positive event; explicit schedule. True for one thread, and for any number of threads if the cells around the seeds do not overlap."
  },
  {
   "property": "C09",
   "status": "proved",
   "theorems": [
    "C09_sign"
   ],
   "note": "Exact arithmetic. In binary64 it is false: C62_cell_refuted."
  },
  {
   "property": "C10",
   "status": "proved",
   "theorems": [
    "C10_shrinks",
    "C10_run_shrinks",
    "C10_any_schedule"
   ],
   "note": "Per cell, per run and for every concurrent schedule (exact reals)."
  },
  {
   "property": "C11",
   "status": "partial",
   "theorems": [
    "C11_positive_seed_ignored_partial",
    "C11_refuted"
   ],
   "note": "REFUTED as documented: a seed of weight exactly 0 still forms a cell (src/resampler.rs:96 tests > 0). Proved for strictly positive seeds."
  },
  {
   "property": "C12",
   "status": "proved",
   "theorems": [
    "C12_select_seeds",
    "C12_select_seeds_succeeds",
    "C12_default_strategy"
   ],
   "note": "Any correct unstable sort; any arithmetic with a total order on the weights (binary64 without NaN)."
  },
  {
   "property": "C13",
   "status": "proved",
   "theorems": [
    "C13_unequal_panics",
    "C13_equal_succeeds",
    "C13_single_succeeds"
   ],
   "note": "Every arithmetic."
  },
  {
   "property": "C14",
   "status": "proved",
   "theorems": [
    "C14_naive_exact"
   ],
   "note": "Every arithmetic with total order on the distances, binary64 with infinities included."
  },
  {
   "property": "C15",
   "status": "proved",
   "theorems": [
    "C15_build"
   ],
   "note": "Every arithmetic with a total order on the distances; all depths, sorts and corner choices."
  },
  {
   "property": "C16",
   "status": "proved",
   "theorems": [
    "C16_tree_exact",
    "C16_tree_exact_rounded",
    "C16_tree_exact_B64",
    "C16_depth_limit",
    "C16_depth_limit_refuted"
   ],
   "note": "Exact reals, any monotone rounding, and IEEE binary64 (via Flocq) for finite distances. C16_depth_limit_refuted: trees built with a depth limit below log2 of the number of points miss points (finding)."
  },
  {
   "property": "C17",
   "status": "proved",
   "theorems": [
    "C17_tree_naive",
    "C17_same_run"
   ],
   "note": "Exact arithmetic."
  },
  {
   "property": "C18",
   "status": "partial",
   "theorems": [
    "C18_refuted",
    "C18_only_omissions_partial"
   ],
   "note": "REFUTED: infinity - infinity is NaN; debug builds panic, release builds skip half of the tree. What is delivered is still correct (partial)."
  },
  {
   "property": "C19",
   "status": "proved",
   "theorems": [
    "C19_par_build"
   ],
   "note": "Thresholds of at least 2 (the code uses 1000)."
  },
  {
   "property": "C20",
   "status": "proved",
   "theorems": [
    "C20_pseudometric",
    "C20_zero",
    "C20_assumptions",
    "C20_symmetry_binary64_refuted"
   ],
   "note": "Exact arithmetic, as the property says; in binary64 symmetry fails in the last bit (witness)"
  },
  {
   "property": "C21",
   "status": "proved",
   "theorems": [
    "C21_documented",
    "C21_spatial_only"
   ],
   "note": "Assumes of the external assignment algorithm that it returns an optimum (km_ok)"
  },
  {
   "property": "C22",
   "status": "proved",
   "theorems": [
    "C22_same",
    "C22_enumeration_binary64"
   ],
   "note": "Any number of momenta; the enumeration also in binary64"
  },
  {
   "property": "C23",
   "status": "proved",
   "theorems": [
    "C23_build",
    "C23_domains"
   ],
   "note": "Any arithmetic whose comparisons fit together (reals; binary64 without NaN); any correct sort; example C23_case"
  },
  {
   "property": "C24",
   "status": "proved",
   "theorems": [
    "C24_lookup"
   ],
   "note": "Including the binary search"
  },
  {
   "property": "C25",
   "status": "proved",
   "theorems": [
    "C25_order_irrelevant",
    "C25_order_irrelevant_exact"
   ],
   "note": "In binary64 momenta compare equal (signs of zeros may differ); over the reals the events are identical"
  },
  {
   "property": "C26",
   "status": "proved",
   "theorems": [
    "C26_unweight",
    "C26_total_refuted",
    "C26_bad_minimum_panics"
   ],
   "note": "Exact arithmetic, any summation order; the total is lost if no event survives (witness), outside the stated property"
  },
  {
   "property": "C27",
   "status": "proved",
   "theorems": [
    "C27_identity"
   ],
   "note": "Any number type, in particular binary64; example C27_case"
  },
  {
   "property": "C28",
   "status": "proved",
   "theorems": [
    "C28_weights_table",
    "C28_library"
   ],
   "note": "Any converter, clustering, resampler, unweighter and completion order; examples C28_case"
  },
  {
   "property": "C29",
   "status": "partial",
   "theorems": [
    "C29_refuted",
    "C29_no_unweighting_partial",
    "C29_unweighting_partial"
   ],
   "note": "REFUTED as stated in both configurations (witnesses); the partial theorems give the exact deficit"
  },
  {
   "property": "C30",
   "status": "proved",
   "theorems": [
    "C30_error_reported",
    "C30_all_used"
   ],
   "note": "Any completion order; examples C30_case"
  },
  {
   "property": "C31",
   "status": "proved",
   "theorems": [
    "C31_lossless",
    "C31_any_bytes",
    "C31_unique",
    "C31_no_event",
    "C31_trailing_marker_refuted",
    "C31_invalid_utf8_refuted"
   ],
   "note": "Files outside the hypotheses: without an event the last byte of the header is lost (C31_no_event), a final marker loses its 'E', invalid UTF-8 panics (the two _refuted theorems)."
  },
  {
   "property": "C32",
   "status": "partial",
   "theorems": [
    "C32_single",
    "C32_file",
    "C32_unnamed",
    "C32_named",
    "C32_named_partial",
    "C32_duplicate_name_refuted",
    "C32_missing_names_refuted",
    "C32_central_overwritten_refuted",
    "C32_no_weights_refuted"
   ],
   "note": "One weight: proved for every record that can be read and for whole files. Named weights: proved if every name was found exactly once, up to the central weight being overwritten when the first weight is itself selected by name (REFUTED in general by the witnesses); an error is excluded if the record lists as many names as it announces (C32_named). Numbers as texts are abstract: any reader/writer pair fulfilling number_text."
  },
  {
   "property": "C33",
   "status": "proved",
   "theorems": [
    "C33_record",
    "C33_hepmc_file",
    "C33_lhef_file",
    "C33_stripper_file"
   ],
   "note": "Records and whole files; LHEF: the text after the last event is replaced by the fixed footer. Example C33_case"
  },
  {
   "property": "C34",
   "status": "proved",
   "theorems": [
    "C34_lossless",
    "C34_unique",
    "C34_record",
    "C34_file",
    "C34_edge_cases_refuted",
    "C34_footer_refuted"
   ],
   "note": "Numbers as texts are abstract (number_text). Outside the hypotheses: fewer than two particles or no line break panic, an end tag glued to the weight is lost, more weights than events leave out the footer (the _refuted theorems). Examples C34_case, C34_file_case"
  },
  {
   "property": "C35",
   "status": "partial",
   "theorems": [
    "C35_hepmc",
    "C35_lhef",
    "C35_stripper_partial",
    "C35_stripper_release",
    "C35_stripper_refuted"
   ],
   "note": "REFUTED for STRIPPER XML in debug builds: the count of remaining events is not reset, so reading again always panics. True for HepMC and LHEF after any history, and for the records in release builds. Example C35_case"
  },
  {
   "property": "C36",
   "status": "proved",
   "theorems": [
    "C36_read",
    "C36_reread",
    "C36_read_unique",
    "C36_update",
    "C36_shares",
    "C36_size_hint"
   ],
   "note": "HepMC, LHEF and STRIPPER XML files in any mixture and number; distinct paths and successful file operations assumed; ROOT ntuples not modelled."
  },
  {
   "property": "C37",
   "status": "partial",
   "theorems": [
    "C37_single",
    "C37_several_partial",
    "C37_never_false",
    "C37_end_panics",
    "C37_rewind_panics",
    "C37_refuted"
   ],
   "note": "REFUTED for CombinedFileIO: after the last event of the last file update_next_weights opens a file with an index out of range and panics; Ok(false) is returned only for an empty list of files; after rewind it panics at once. Proved: single files report the end correctly (C37_single), and while events remain CombinedFileIO behaves as documented (C37_several_partial). ROOT ntuples not modelled."
  },
  {
   "property": "C38",
   "status": "proved",
   "theorems": [
    "C38_region",
    "C38_constructor"
   ],
   "note": "Any number type, any point, NaN distances included"
  },
  {
   "property": "C39",
   "status": "partial",
   "theorems": [
    "C39_refuted",
    "C39_construction_partial"
   ],
   "note": "REFUTED as stated: exactly the event counts 2^k <= n < 3 2^(k-1) - 1 crash; every other count behaves as stated"
  },
  {
   "property": "C40",
   "status": "proved",
   "theorems": [
    "C40_heap_balanced",
    "C40_region_of_events",
    "C40_median_event_refuted"
   ],
   "note": "Events exactly at a dividing distance are assigned to the other side (witness), outside the stated property; example C39_case"
  },
  {
   "property": "C41",
   "status": "proved",
   "theorems": [
    "C41_collection",
    "C41_random_uniform"
   ],
   "note": "Any number type with a total order, in particular binary64 without NaN; also proved: every cell is equally likely to be selected; example C41_case"
  },
  {
   "property": "C42",
   "status": "partial",
   "theorems": [
    "C42_refuted",
    "C42_count_random",
    "C42_few_cells_partial",
    "C42_smallest_kept"
   ],
   "note": "REFUTED as stated: the ten smallest are kept (C42_smallest_kept); true if there are at most ten cells in total"
  },
  {
   "property": "C43",
   "status": "proved",
   "theorems": [
    "C43_log2",
    "C43_log2_of_zero_panics"
   ],
   "note": "All u32"
  },
  {
   "property": "C44",
   "status": "partial",
   "theorems": [
    "C44_buffer",
    "C44_retry",
    "C44_history",
    "C44_return",
    "C44_huge_refuted"
   ],
   "note": "Proved for texts shorter than 2^31 - 1 bytes, all buffers and lengths, and all histories of calls of all threads (each thread has its own last error). REFUTED without that limit: the required size is cast to i32 (C44_huge_refuted). If a thread has no error yet, the call returns 0 and does not write to the buffer, not even a NUL."
  },
  {
   "property": "C45",
   "status": "partial",
   "theorems": [
    "C45_distance_partial",
    "C45_weights_refuted",
    "C45_from_view"
   ],
   "note": "REFUTED for the weights: the feature capi requires multiweight, where the weights are behind a Box, and the view contains the address of that Box instead of the address of the weights (C45_weights_refuted: this holds for every event with weights). Proved: ids, numbers of weights and particles are shown correctly; the conversion of a valid view to an event is correct."
  },
  {
   "property": "C46",
   "status": "proved",
   "theorems": [
    "C46_fates",
    "C46_momentum",
    "C46_isolation"
   ],
   "note": "Jet algorithms (crate jetty), the distance between momenta and the tables of hadrons and neutrinos (crate particle_id) are parameters. C46_fates holds for every jet algorithm; C46_momentum assumes that a jet algorithm returns accepted sums of groups that partition its input. Momentum conservation and the isolation criterion are for exact arithmetic."
  },
  {
   "property": "C47",
   "status": "proved",
   "theorems": [
    "C47_outputs",
    "C47_exactly_once",
    "C47_succeeds"
   ],
   "note": "Text formats. The output for each region is the header, the records of the region in order (each without the footer of the file in case it has one at its end) and the footer; the assignment covers every record exactly once; success for all readable files and valid partitions."
  },
  {
   "property": "C48",
   "status": "partial",
   "theorems": [
    "C48_compression",
    "C48_levels",
    "C48_validation",
    "C48_options",
    "C48_regions",
    "C48_names",
    "C48_partition_partial",
    "C48_partition_refuted",
    "C48_message_refuted"
   ],
   "note": "Proved for cres and for --compression and --regions. REFUTED for the program that makes partitions, which does not validate: it panics with --leptonalgorithm but no --leptonradius and ignores a radius without an algorithm. REFUTED for the error message about levels: algorithm and level are swapped."
  },
  {
   "property": "C49",
   "status": "proved",
   "theorems": [
    "C49_event_cells"
   ],
   "note": "Example C49_case"
  },
  {
   "property": "C50",
   "status": "proved",
   "theorems": [
    "C50_report"
   ],
   "note": "Any number type with a total order; example C50_case"
  },
  {
   "property": "C51",
   "status": "partial",
   "theorems": [
    "C51_refuted",
    "C51_one_thread_partial"
   ],
   "note": "REFUTED as stated: with two threads the cells of earlier runs are counted once per thread; true with one thread"
  },
  {
   "property": "C52",
   "status": "proved",
   "theorems": [
    "C52_lossless",
    "C52_unique",
    "C52_file",
    "C52_exact_scale",
    "C52_binary64_refuted",
    "C52_weight_read",
    "C52_scaling",
    "C52_scaling_any_order",
    "C52_missing_normalisation_refuted"
   ],
   "note": "Whole files if scaling and unscaling the new weights is exact (true over the reals, not always in binary64: witness). A missing normalisation silently gives the factor -1/events (witness). The XML parser for the header is not modelled. Example C52_case"
  },
  {
   "property": "C53",
   "status": "proved",
   "theorems": [
    "C53_hepmc",
    "C53_lhef",
    "C53_lhef_few"
   ],
   "note": "Well-formedness is defined in SpecRecord.v independently of the parser. Numbers as texts are abstract (number_text). LHEF records need at least two particles, otherwise the program panics (C53_lhef_few). If names of weights are requested but the record has no line of names only the central weight is read. Examples C53_hepmc_case, C53_lhef_case"
  },
  {
   "property": "C54",
   "status": "partial",
   "theorems": [
    "C54_stripper_partial",
    "C54_stripper_refuted"
   ],
   "note": "REFUTED if there is no blank between the tag and the energy: the first character of the energy is dropped and 17 is read as 7. Proved with at least one blank or tab. Example C54_case"
  },
  {
   "property": "C55",
   "status": "proved",
   "theorems": [
    "C55_pt",
    "C55_zero",
    "C55_components"
   ],
   "note": "C55_pt for any numbers (binary64 and exact, C55_zero); C55_components in exact arithmetic."
  },
  {
   "property": "C56",
   "status": "partial",
   "theorems": [
    "C56_lhef",
    "C56_hepmc_partial",
    "C56_hepmc_refuted",
    "C56_stripper_partial",
    "C56_scaling_alone",
    "C56_scaling_together_refuted"
   ],
   "note": "LHEF: proved in full, byte for byte. HepMC: REFUTED for records that finish with a blank line (the footer is appended after it and the event can no longer be read); proved if each record finishes with a complete, non-blank line. STRIPPER XML: proved if only the last record finishes with the end tag of the file; scale factors REFUTED if the outputs of all regions are used together (the copied number of events is counted once per region), proved for one output."
  },
  {
   "property": "C57",
   "status": "partial",
   "theorems": [
    "C57_collisions",
    "C57_in_outdir",
    "C57_inputs_refuted",
    "C57_ntuple_refuted"
   ],
   "note": "REFUTED: inputs with the same name in different directories have the same outputs; ntuple outputs can be outside of the output directory. Proved: there are no other collisions, and outputs for text formats are in the output directory."
  },
  {
   "property": "C58",
   "status": "partial",
   "theorems": [
    "C58_outputs",
    "C58_distinct_partial",
    "C58_refuted"
   ],
   "note": "REFUTED: input files with the same name in different directories get the same output file; if the output directory is that of the input the output file is the input file. Proved: outputs are in the output directory with the name of the input, and are different if the names are."
  },
  {
   "property": "C59",
   "status": "proved",
   "theorems": [
    "C59_read",
    "C59_update",
    "C59_read_back"
   ],
   "note": "The ROOT library is not modelled: a file is a list of records. Negative numbers of particles and arrays that are too short panic. Example C59_case"
  },
  {
   "property": "C60",
   "status": "partial",
   "theorems": [
    "C60_next",
    "C60_combined",
    "C60_reread",
    "C60_all_partial",
    "C60_all_refuted"
   ],
   "note": "REFUTED for update_all_weights of a single file: with one list of weights per event it always panics after the last event (C60_all_refuted, for all files and whatever was read before). Proved: with more weights than events, and event by event; CombinedFileIO does not use the function and is not affected (C60_combined). Example C60_case"
  },
  {
   "property": "C61",
   "status": "proved",
   "theorems": [
    "C61_cell",
    "C61_run",
    "C61_any_schedule",
    "C61_rounding_is_small"
   ],
   "note": "At most 2^53 events. Weights before and after the run are finite; then all intermediate ones are. Example C61_case"
  },
  {
   "property": "C62",
   "status": "partial",
   "theorems": [
    "C62_sign_partial",
    "C62_cell_refuted",
    "C62_run_refuted"
   ],
   "note": "REFUTED: weights -1, -2^53, 2^53 accumulate to 0 in the order of distance, but are averaged in the order of indices to -1/3; a run on a sample with positive total then ends with a negative weight. Proved instead: the new weight is not below minus a rounding bound. Example C62_case"
  },
  {
   "property": "C63",
   "status": "proved",
   "theorems": [
    "C63_round_trip",
    "C63_total"
   ],
   "note": "One weight for each event (single weight, or no names of weights requested); ROOT ntuples excluded (C59, C60). Input files are well-formed as described by well_formed in SpecMain.v, the new weights survive being printed (writable). The sum is in exact arithmetic. Normalisation files of STRIPPER XML have to be passed again when the outputs are read. Examples C63_case (four files in three formats), C63_total_case"
  },
  {
   "property": "C64",
   "status": "partial",
   "theorems": [
    "C64_detected",
    "C64_lhef_refuted"
   ],
   "note": "REFUTED: a Les Houches event file that begins with an XML declaration is taken for STRIPPER XML, one that begins with white space for HepMC. C64_detected describes exactly what is detected for every file. Example C64_case"
  },
  {
   "property": "C65",
   "status": "partial",
   "theorems": [
    "C65_files",
    "C65_shared_refuted",
    "C65_in_place_refuted"
   ],
   "note": "REFUTED when two inputs have the same output path (the result mixes both outputs) or when the output is the input (the events are lost at once); both can happen, see C58. Proved in full (C65_files) if all outputs are different and none is an input. Text formats without compression. Example C65_case"
  },
  {
   "property": "C66",
   "status": "partial",
   "theorems": [
    "C66_success_partial",
    "C66_refuted"
   ],
   "note": "REFUTED: outputs are flushed when they are closed and errors of that are ignored: with a full disk a run on small files succeeds and all outputs are empty. Proved: success implies that at most one buffer (8 KiB) is missing at the end of each output, and failing calls never cause a panic. Example C66_case"
  },
  {
   "property": "C67",
   "status": "partial",
   "theorems": [
    "C67_stopped",
    "C67_earlier_refuted"
   ],
   "note": "The part about earlier outputs is REFUTED: all outputs are emptied before the inputs are checked. The rest (C67_stopped) is proved for all crash points and failures; the order of system calls is taken to be the order in which they reach the disk. Example C67_case"
  },
  {
   "property": "C68",
   "status": "partial",
   "theorems": [
    "C68_resampling",
    "C68_run",
    "C68_searches",
    "C68_ties_refuted",
    "C68_next_refuted",
    "C68_unweight_refuted"
   ],
   "note": "REFUTED in general: events are resampled and unweighted in the order in which the conversion tasks finish, and the weights written depend on it with equal distances (C68_ties_refuted), strategy Next (C68_next_refuted) or unweighting (C68_unweight_refuted). Proved (C68_resampling, C68_run) for exact arithmetic, one resampling thread, no ties in distances or negative weights, strategies most/least negative, no unweighting; C68_searches shows that both searches of the library meet the hypothesis. Example C68_case"
  },
  {
   "property": "C69",
   "status": "partial",
   "theorems": [
    "C69_any_schedule",
    "C69_weights",
    "C69_same",
    "C69_selected",
    "C69_refuted"
   ],
   "note": "REFUTED in general: two threads can leave other weights than one (C69_refuted). Proved, for any arithmetic, if the cells built around the seeds with the initial weights have no event in common: all schedules, numbers of threads and orders of seeds give the same weights bit for bit, those of the sequential loop. Example C69_case"
  },
  {
   "property": "C70",
   "status": "partial",
   "theorems": [
    "C70_hepmc",
    "C70_hepmc_multi",
    "C70_lhef",
    "C70_stripper",
    "C70_program_refuted",
    "C70_program_partial",
    "C70_program_hepmc",
    "C70_program_multi_partial"
   ],
   "note": "REFUTED: files that are not UTF-8, LHEF events announcing fewer than two particles, STRIPPER files cut after a tag and (feature multiweight) HepMC events without weights make the program panic (C70_program_refuted). Proved: for which records exactly each parser panics (for STRIPPER only one direction), and that with one weight per event the program does not panic on UTF-8 files without such records (C70_program_partial), in particular on arbitrary HepMC files in UTF-8 (C70_program_hepmc). The same holds with the feature multiweight as long as no weights are selected by name and HepMC events without weights are excluded (C70_program_multi_partial). With overflow checks STRIPPER files are excluded from the latter. Not modelled: running out of memory, e.g. for a huge announced number of particles. Example C70_case"
  },
  {
   "property": "C71",
   "status": "proved",
   "theorems": [
    "C71_success",
    "C71_only",
    "C71_total_correctness"
   ],
   "note": "C71_success and C71_total_correctness for one weight per event; clusterings that keep weight and id, resamplers and unweighters that handle every sample (total_step; shown for the library ones in PanicProofs2.v). Example C71_case"
  },
  {
   "property": "C72",
   "status": "proved",
   "theorems": [
    "C72_read",
    "C72_read_only",
    "C72_finite",
    "C72_exists",
    "C72_number_text",
    "C72_infinite_refuted",
    "C72_program",
    "C72_total"
   ],
   "note": "Outside of the claim: negative infinity is written as -inf and cannot be read (C72_infinite_refuted). Proved for all finite doubles, for nom's double as documented and any printing with the documented properties of to_string (displays; C72_exists gives one). C72_program and C72_total: one weight per event, no STRIPPER files (there weights are divided by a scale factor, which is not exact), weights finite after the run, at most 2^53 events; bound rounding_error for n events: relative error about n(n+1)/2^53 of the sum of the absolute values (C61_run has the bound for the actual cells). Examples C72_read_case, C72_case"
  },
  {
   "property": "C73",
   "status": "partial",
   "theorems": [
    "C73_probability",
    "C73_unbiased",
    "C73_average_unique",
    "C73_rescaled_refuted",
    "C73_zero_refuted"
   ],
   "note": "REFUTED for the final weights: the common factor that restores the total depends on what was kept, so parts of the sample are biased (C73_rescaled_refuted: 3 becomes 16/5 on average), and further weights of events with central weight 0 are lost (C73_zero_refuted). Proved: the probability to be kept, and unbiasedness of all observables before the common factor is applied. Exact real numbers, independent uniform random numbers. Example C73_case"
  },
  {
   "property": "C74",
   "status": "proved",
   "theorems": [
    "C74_program",
    "C74_unweighting",
    "C74_rejected",
    "C74_only"
   ],
   "note": "Exact real numbers, one weight per event (feature multiweight disabled), one resampling thread, text formats; number conversion, sorting, jet clustering, assignment algorithm as parameters with their documented properties; weights must survive being written (C72). With unweighting, the total is kept unless it becomes zero (C26). Example C74_case"
  },
  {
   "property": "C75",
   "status": "proved",
   "theorems": [
    "C75_tree_limited",
    "C75_naive_limited",
    "C75_untouched",
    "C75_smooth",
    "C75_separated",
    "C75_program",
    "C75_untouched_any_schedule",
    "C75_any_schedule"
   ],
   "note": "C75_untouched holds in every arithmetic whose comparison is an order on the occurring numbers, in particular binary64 without NaN; the others for exact real numbers. C75_untouched_any_schedule and C75_any_schedule: any number of threads and every schedule. C75_program: one resampling thread, without unweighting (minweight 0), one weight per event, text formats. Examples C75_untouched_case, C75_separated_case, C75_program_case."
  },
  {
   "property": "C76",
   "status": "proved",
   "theorems": [
    "C76_executions",
    "C76_one_thread",
    "C76_apart",
    "C76_program",
    "C76_negative_refuted"
   ],
   "note": "C76_executions: the runs over all schedules are exactly the complete executions of the threads (any arithmetic). C76_program: exact real numbers, one weight per event, text formats. C76_apart and C76_one_thread hold bit for bit in every arithmetic. C76_negative_refuted shows why the statement does not include nonnegative weights: with two threads negative weights can remain although one thread removes them all (binary64 witness). Examples C76_program_case, C76_executions_case, C76_apart_case."
  },
  {
   "property": "C77",
   "status": "proved",
   "theorems": [
    "C77_partition",
    "C77_share",
    "C77_programs",
    "C77_make_partition",
    "C77_any_partition",
    "C77_share_refuted",
    "C77_compressed_refuted"
   ],
   "note": "Every arithmetic whose order is total on the distances; both programs from file contents to file contents (text formats). YAML is any way of writing that can be read back. C77_share_refuted: without the condition on the distances (general position) evenness is false, all events of equal distance are in region 0. C77_compressed_refuted: a partition written with gzip or zstd compression is never accepted by cres-classify-events. The panic for 2^k <= n < 3*2^(k-1)-1 is part of C77_make_partition (see C39_refuted). Examples C77_case, C77_programs_case, C77_share_refuted_case, C77_compressed_refuted_case."
  },
  {
   "property": "C78",
   "status": "proved",
   "theorems": [
    "C78_program",
    "C78_threads",
    "C78_unweighting_partial",
    "C78_unweighting_refuted"
   ],
   "note": "Default build (feature multiweight), no --weights option, exact real numbers, text formats. The statement is for runs without a minimum weight: C78_threads for any number of threads and every schedule, C78_program adds nonnegative weights with one thread. FINDING (C78_unweighting_refuted): with --minweight, events dropped by the unweighting are written with their input weights, because the empty default weight means 'unchanged': weights 5, -1, 7 become 4, -1, 7, so the sum changes from 11 to 10 and a negative weight stays. C78_unweighting_partial: the sum changes by the input weights of the dropped events, unless the surviving ones add up to zero."
  },
  {
   "property": "C79",
   "status": "proved",
   "theorems": [
    "C79_same",
    "C79_threads",
    "C79_program",
    "C79_infinity",
    "C79_infinity_refuted",
    "C79_return"
   ],
   "note": "Exact real numbers and text formats for C79_threads and C79_program, any arithmetic for C79_same, binary64 for C79_infinity. The distance function of the caller may be any function of the memory it is shown that does not return NaN. FINDING (C79_infinity_refuted): with maximum cell size INFINITY and infinite distances the tree search skips events, because infinity - infinity is NaN (vptree.rs:390): weights 5, 1, -3 become 5, -1, -1 instead of 1, 1, 1 with the naive search (release build; a debug build panics). C79_infinity excludes infinite distances for the tree search."
  },
  {
   "property": "C80",
   "status": "proved",
   "theorems": [
    "C80_run",
    "C80_any_schedule",
    "C80_search",
    "C80_program",
    "C80_overflow_refuted"
   ],
   "note": "Binary64. C80_run: any build and number of weights, one thread; C80_any_schedule: all schedules; C80_program: HepMC and LHEF, no multiweight, no unweighting. FINDING (C80_overflow_refuted): finite weights above the bound can become infinite, even if the total is small."
  },
  {
   "property": "C81",
   "status": "proved",
   "theorems": [
    "C81_stats",
    "C81_same",
    "C81_categories",
    "C81_categories_order",
    "C81_run",
    "C81_threads",
    "C81_unweight",
    "C81_fraction_refuted",
    "C81_nan_refuted"
   ],
   "note": "Exact real numbers for the statistics; any arithmetic for the categories. Values before formatting. FINDING (C81_fraction_refuted): if the sum of weights is negative the reported negative weight fraction rises (weights -5, 1: 5/6 to 1). FINDING (C81_nan_refuted): for empty samples or zero weights the reported fraction is 0/0, i.e. NaN in release builds and a panic of N64 in debug builds (resampler.rs:51, cres.rs:218)."
  },
  {
   "property": "C82",
   "status": "proved",
   "theorems": [
    "C82_unique",
    "C82_program",
    "C82_threads",
    "C82_success",
    "C82_order_refuted"
   ],
   "note": "Exact real numbers; HepMC files; no unweighting. C82_program and C82_threads say what a successful run writes, C82_success that the run succeeds. FINDING (C82_order_refuted): without the premise that all events list the weight names in the same order the sums are not preserved, because hepmc2.rs parse_weight_names_line adds the chosen weights in the order of the record's N line and not by name: in the witness two events list the same names in different orders and their weights are mixed."
  },
  {
   "property": "C83",
   "status": "partial",
   "theorems": [
    "C83_run",
    "C83_level",
    "C83_history",
    "C83_silent",
    "C83_refuted",
    "C83_classify_same",
    "C83_classify_outputs",
    "C83_classify_partial",
    "C83_text_hint",
    "C83_classify_refuted",
    "C83_logger"
   ],
   "note": "REFUTED (C83_refuted, C83_classify_refuted). With level info a progress bar sets the global log level to Off and only finish() restores it; it is not called when an error ends a run while a bar is shown, so that after a failed read of STRIPPER XML or ntuple input, a panic of a cell or a failed write no later run in the process shows any message. cres-classify-events never calls finish(): from the first STRIPPER XML file on nothing is logged, and outputs whose footer could not be written are not reported although the program succeeds. Proved: successful runs show all messages and keep the level (C83_run), at other levels bars do nothing, and exactly when the level is lost (C83_level), histories (C83_history, C83_silent), cres-classify-events for other levels or HepMC and LHEF files only (C83_classify_partial), the C logger (C83_logger). Messages below level info and of user-defined components are not modelled."
  },
  {
   "property": "C84",
   "status": "proved",
   "theorems": [
    "C84_program",
    "C84_threads",
    "C84_success",
    "C84_read_back",
    "C84_names"
   ],
   "note": "Exact arithmetic. A ntuple is a list of events (the crate that reads and writes ROOT files is not modelled), reading and writing succeed. All files of a run are ntuples. Without unweighting. FINDING: a requested weight name other than 2, ME, ME2 is silently ignored (C84_names). Example C84_case: two files, two chosen weights and an unknown one."
  },
  {
   "property": "C85",
   "status": "partial",
   "theorems": [
    "C85_record",
    "C85_errors",
    "C85_normalization",
    "C85_other_tag",
    "C85_no_tag",
    "C85_seen",
    "C85_stops",
    "C85_program",
    "C85_comments_refuted",
    "C85_entities_refuted"
   ],
   "note": "Everything but the last sentence is proved, with quick-xml modelled from its documentation and the deserialisation of Normalization as a parameter. C85_stops discharges the assumption on the XML parser made in C63 and the theorems that build on it (C85_program is C63_round_trip without it). REFUTED, last sentence: a comment before the first tag gives the error that there is no tag (C85_comments_refuted); entities in the name are not resolved, so that such a name does not match that of the normalisation, which is read by a real XML deserialiser (C85_entities_refuted). Note: the error for a malformed number says that a floating-point number is wanted."
  },
  {
   "property": "C86",
   "status": "partial",
   "theorems": [
    "C86_hepmc",
    "C86_lhef",
    "C86_stripper",
    "C86_hepmc_failing",
    "C86_lhef_failing",
    "C86_stripper_failing",
    "C86_detect_partial",
    "C86_detect_refuted",
    "C86_scaling_partial",
    "C86_scaling_refuted"
   ],
   "note": "The readers are proved for all pieces and all failures. REFUTED, last sentence: if the first read is short or fails, an LHEF file is taken for HepMC and read without events and without an error (C86_detect_refuted); a failing first read while the scale factors are determined drops the number of events of that file, so that all events are scaled wrongly, again without an error (C86_scaling_refuted). C86_detect_partial and C86_scaling_partial: both are right if the first read succeeds and returns enough bytes. Decompression is not modelled: pieces are what the decoder delivers."
  },
  {
   "property": "C87",
   "status": "proved",
   "theorems": [
    "C87_finite",
    "C87_few",
    "C87_self",
    "C87_program",
    "C87_huge_refuted"
   ],
   "note": "For more than three particles of a type, the assignment algorithm is assumed to return finite results of the size of a sum of weights (km_tame). FINDING: the limit on the momenta is needed; a particle with the finite momentum component 2^600 has an infinite transverse momentum, and the distance of its event from itself is NaN (C87_huge_refuted), which panics in builds with debug assertions."
  },
  {
   "property": "C88",
   "status": "partial",
   "theorems": [
    "C88_panics",
    "C88_ordinary_partial",
    "C88_release",
    "C88_smallest_id_refuted",
    "C88_isolation_refuted",
    "C88_program_refuted"
   ],
   "note": "REFUTED: in builds with overflow checks an event with the particle id -2147483648 panics for all settings (C88_smallest_id_refuted), and so does a whole run on a HepMC file with such a particle (C88_program_refuted); in release builds the particle is clustered like a quark (C88_release). With debug assertions an event with a photon and physical momenta panics, because the transverse energy around the photon is the root of a negative number after rounding (C88_isolation_refuted). Proved: exactly which events panic (C88_panics), and that for all others the result is that of C46 (C88_ordinary_partial). Jet finding itself is an arbitrary function as in C46. Example C88_case"
  },
  {
   "property": "C89",
   "status": "partial",
   "theorems": [
    "C89_finite",
    "C89_positive",
    "C89_release",
    "C89_infinite_refuted",
    "C89_panic_refuted",
    "C89_tiny_refuted"
   ],
   "note": "REFUTED with negative weights: weights 1/2 and -1/4 with minimum weight 1 are raised to 1 and -1 and become infinite if both events are kept (C89_infinite_refuted); debug builds panic if all events of a sample with sum zero are dropped (C89_panic_refuted). The lower limit on weights is needed (C89_tiny_refuted: NaN for weights 2^-1074). Proved: exactly when the results are finite and when debug builds panic (C89_finite); without negative weights the results are finite and not negative, and debug builds panic only if all weights are zero (C89_positive). Example C89_case"
  },
  {
   "property": "C90",
   "status": "partial",
   "theorems": [
    "C90_pieces",
    "C90_failing_partial",
    "C90_detect_refuted",
    "C90_scaling_refuted"
   ],
   "note": "REFUTED in general: with a short first read an LHEF file is taken for HepMC, and the run succeeds without having changed any weight (C90_detect_refuted); a read that fails while the scale factors are extracted is ignored and the run succeeds with other weights (C90_scaling_refuted). Proved for all files, pieces and failures if the first reads are long enough and the scale factors can be extracted without failures. Example C90_case"
  },
  {
   "property": "C91",
   "status": "proved",
   "theorems": [
    "C91_near",
    "C91_exact_refuted",
    "C91_same_run_refuted"
   ],
   "note": "Proved for all near metrics (SpecTreeNear.v). FINDING: with distances computed in binary64 the search is not exact: for six events the second nearest neighbour is found first (C91_exact_refuted), and then the tree search and the naive search give different weights (C91_same_run_refuted). Example C91_case: the distances of these events are a near metric"
  },
  {
   "property": "C92",
   "status": "proved",
   "theorems": [
    "C92_distance",
    "C92_exact_unique",
    "C92_search"
   ],
   "note": "For events with at most three particles of each type, or any number of them if the assignment algorithm of the pathfinding library is accurate (km_accurate in SpecAccuracy.v). exact_distance and dist_error are in SpecAccuracy.v. Examples C92_case, C92_search_case, C92_many_case"
  },
  {
   "property": "C93",
   "status": "proved",
   "theorems": [
    "C93_searches",
    "C93_run",
    "C93_program",
    "C93_threads",
    "C93_main"
   ],
   "note": "For the same events as C92. Without the condition on the distances it is refuted (C91_same_run_refuted). The radius of a cell, which is used for messages only, may differ by rounding. Examples C93_case, C93_program_case, C93_main_case"
  },
  {
   "property": "C94",
   "status": "proved",
   "theorems": [
    "C94_distance",
    "C94_run",
    "C94_threads",
    "C94_beam_refuted"
   ],
   "note": "Exact arithmetic. C94_beam_refuted shows that axes that move the beam do change distances if transverse momenta have a weight. Example C94_case"
  },
  {
   "property": "C95",
   "status": "proved",
   "theorems": [
    "C95_continuous",
    "C95_soft",
    "C95_collinear_refuted"
   ],
   "note": "Exact arithmetic. FINDING: without clustering, distances are not collinear safe (C95_collinear_refuted). Example C95_case"
  },
  {
   "property": "C96",
   "status": "proved",
   "theorems": [
    "C96_run",
    "C96_normalisation",
    "C96_threads",
    "C96_central_refuted"
   ],
   "note": "Exact arithmetic. C96_central_refuted shows that the central weight must not be combined with others. Examples C96_case, C96_threads_case"
  },
  {
   "property": "C97",
   "status": "proved",
   "theorems": [
    "C97_run",
    "C97_threads",
    "C97_threads_all",
    "C97_default",
    "C97_threads_default",
    "C97_touching_refuted"
   ],
   "note": "C97_run: one thread, same cells. C97_threads, C97_threads_all: with any number of threads the outcomes for the part, over all schedules, are those of the part alone. C97_touching_refuted shows that regions that touch (cres-classify-events) cannot be resampled separately. Examples C97_case, C97_threads_case"
  },
  {
   "property": "C98",
   "status": "proved",
   "theorems": [
    "C98_run",
    "C98_default",
    "C98_threads",
    "C98_larger_refuted"
   ],
   "note": "C98_run: one thread, any limit between the largest radius and the original limit. C98_threads: every schedule, limits above all distances. C98_larger_refuted shows that larger cells may leave more events with negative weights. Examples C98_case, C98_threads_case"
  }
 ]
}