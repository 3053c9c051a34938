{
 "claims": [
  {
   "property": "C01",
   "status": "proved",
   "theorems": [
    "c01_overlap_test",
    "c01_huge_exclusion_zone_refuted",
    "c01_model_positions"
   ],
   "note": "positions and exclusion zones below 2^63; a zone of 2^64-1 is shown to be misread"
  },
  {
   "property": "C02",
   "status": "proved",
   "theorems": [
    "c02_motif_overlap",
    "c02_motiflet_overlap"
   ],
   "note": ""
  },
  {
   "property": "C03",
   "status": "proved",
   "theorems": [
    "c03_set_byte"
   ],
   "note": ""
  },
  {
   "property": "C04",
   "status": "proved",
   "theorems": [
    "c04_prefix_compare",
    "c04_prefix_shorter",
    "c04_prefix_contiguous",
    "c04_prefix_refused"
   ],
   "note": ""
  },
  {
   "property": "C05",
   "status": "proved",
   "theorems": [
    "c05_radix_sort"
   ],
   "note": ""
  },
  {
   "property": "C06",
   "status": "proved",
   "theorems": [
    "c06_parallel_sort",
    "c06_empty_slice_refuted"
   ],
   "note": "non-empty slices; the empty slice aborts (chunk size 0)"
  },
  {
   "property": "C07",
   "status": "proved",
   "theorems": [
    "c07_disk_round_trip"
   ],
   "note": ""
  },
  {
   "property": "C08",
   "status": "proved",
   "theorems": [
    "c08_enumerated_pairs_genuine"
   ],
   "note": ""
  },
  {
   "property": "C09",
   "status": "partial",
   "theorems": [
    "c09_complete_but_last_bucket_partial",
    "c09_exactly_partial",
    "c09_complete_refuted"
   ],
   "note": "the code never enumerates the last bucket of a table (the loop stops when the current range ends at the table length): the full property is refuted, completeness outside the last bucket is proved"
  },
  {
   "property": "C10",
   "status": "proved",
   "theorems": [
    "c10_buffer_size_irrelevant"
   ],
   "note": ""
  },
  {
   "property": "C100",
   "status": "proved",
   "theorems": [
    "c100_distance",
    "c100_threshold",
    "c100_precise",
    "c100_default"
   ],
   "note": "The zdot is that of two windows; the sliding dot product by FFT is not modelled in floating point."
  },
  {
   "property": "C101",
   "status": "proved",
   "theorems": [
    "c101_extent"
   ],
   "note": "The pair found by sampling is included, with the error gap of the profile it comes from (C120). C100 gives an eps for either mode."
  },
  {
   "property": "C102",
   "status": "proved",
   "theorems": [
    "c102_pair",
    "c102_group"
   ],
   "note": "As C83 and C84 for which pairs count as searched; distances are those computed, and no pair is dropped by sampling (see C53)."
  },
  {
   "property": "C103",
   "status": "proved",
   "theorems": [
    "c103_repeat"
   ],
   "note": "Distances as computed in floating point; hash values in exact real arithmetic; top_k 1 and no pair dropped by sampling (see C53)."
  },
  {
   "property": "C104",
   "status": "proved",
   "theorems": [
    "c104_shift",
    "c104_shift_exact",
    "c104_formula",
    "c104_same_byte"
   ],
   "note": "In exact arithmetic. The probability is larger than the formula where buckets share a byte: around 0 and beyond 128 widths. Independence of the shift and the vectors is in how the average is taken."
  },
  {
   "property": "C105",
   "status": "proved",
   "theorems": [
    "c105_difference",
    "c105_normal",
    "c105_windows",
    "c105_density"
   ],
   "note": "In exact arithmetic, for ideal generators; sums of independent numbers are given by convolution of densities."
  },
  {
   "property": "C106",
   "status": "proved",
   "theorems": [
    "c106_any_schedule",
    "c106_one_schedule"
   ],
   "note": "Uses C83 and C43. The windows must be outside the last bucket of each table when their bytes are equal (see C11). Whether delta itself holds for schedules that depend on the tables, as the one in the code does, is not settled: the bound then has the factor 8 + 7 n. That bytes are independent is the assumption of the space of C43."
  },
  {
   "property": "C107",
   "status": "proved",
   "theorems": [
    "c107_reads_back",
    "c107_faithful"
   ],
   "note": "How an extent is printed is not modelled: only that it has no comma and no newline."
  },
  {
   "property": "C108",
   "status": "proved",
   "theorems": [
    "c108_output_valid"
   ],
   "note": "From the prepared series on; option parsing and errors of the file system are not modelled."
  },
  {
   "property": "C109",
   "status": "partial",
   "theorems": [
    "c109_search_partial",
    "c109_exact_partial",
    "c109_exact_refuted"
   ],
   "note": "Without --exact it holds for one motiflet per support, and for several if candidates with equal extents overlap. With --exact at most one per support is written whatever --topk: refuted by an example with two."
  },
  {
   "property": "C11",
   "status": "proved",
   "theorems": [
    "c11_flat_never_collide"
   ],
   "note": ""
  },
  {
   "property": "C110",
   "status": "partial",
   "theorems": [
    "c110_no_output",
    "c110_never_ends",
    "c110_ends_refuted",
    "c110_exact_partial",
    "c110_default_ends_partial",
    "c110_supports_end_partial"
   ],
   "note": "Refuted: without --exact, a support above 2 that does not fit in the series makes the program run forever and write nothing (Python refuses it, C91). With --exact it ends if no window is flat and the sampling of distances ends (C53). Without it, asking for one motiflet per support (one pair is the default), it ends and writes its file if nothing aborts (C40) and the conditions of C41 hold."
  },
  {
   "property": "C111",
   "status": "proved",
   "theorems": [
    "c111_dot",
    "c111_dot_symmetric",
    "c111_norm"
   ],
   "note": "Values of absolute value at most 2^400, at most 2^48 of them. Rounding to nearest; the sum in lanes of 8 is the one of the code."
  },
  {
   "property": "C112",
   "status": "partial",
   "theorems": [
    "c112_printed",
    "c112_printed_bytes",
    "c112_reads_back_partial",
    "c112_reads_back_refuted"
   ],
   "note": "Refuted for sizes from 1024 bytes on: what is printed has a decimal point, and the option parser refuses it."
  },
  {
   "property": "C113",
   "status": "partial",
   "theorems": [
    "c113_nodes",
    "c113_counts_partial",
    "c113_at_least_partial",
    "c113_counts_refuted",
    "c113_no_nodes"
   ],
   "note": "The number of nodes always; the rest for rounds in which no two neighbours of a window are at the same distance. With ties it is refuted: an edge found again can be counted twice. Without windows the call aborts."
  },
  {
   "property": "C114",
   "status": "partial",
   "theorems": [
    "c114_accuracy",
    "c114_confirmed",
    "c114_fades_partial",
    "c114_fades_refuted",
    "c114_pair_ends_partial"
   ],
   "note": "Refuted: a collision probability of 1/128 is lost in the rounding of 1 - p^8, and the failure probability at prefix 8 stays 1 for ever. Proved when p^prefix is above (prefix + 1) 2^-54, for instance from 1/64 on; then a search for one pair ends (see C41). The collision probability is a parameter here and computed in C121; f64::powi is taken to be repeated squaring."
  },
  {
   "property": "C115",
   "status": "partial",
   "theorems": [
    "c115_windows",
    "c115_known",
    "c115_all_known_refuted",
    "c115_flat",
    "c115_pairs",
    "c115_pairs_refuted"
   ],
   "note": "In exact arithmetic. The last window is inside the series but nothing is known of it and it is not counted (see C51). The number of pairs is exact for up to 2^32 windows (refuted above: the product wraps); with no window at all a build with overflow checks panics."
  },
  {
   "property": "C116",
   "status": "partial",
   "theorems": [
    "c116_fraction",
    "c116_monotone",
    "c116_ends",
    "c116_not_stopped_partial",
    "c116_all_pairs_refuted"
   ],
   "note": "The limit is as stated for up to 2^27 windows. That a fraction of 1 never stops a search is refuted: a pair is counted again in every repetition it collides in. It holds for a limit of the number of pairs times the number of repetitions."
  },
  {
   "property": "C117",
   "status": "partial",
   "theorems": [
    "c117_byte",
    "c117_exact_partial",
    "c117_exact_refuted",
    "c117_close",
    "c117_neighbours"
   ],
   "note": "The byte is that of a value within one part in 2^51, hence the exact one unless the projection is within 2^-43 widths of a boundary; on a boundary it is refuted by an example. The projection itself is taken as given here; see C119."
  },
  {
   "property": "C118",
   "status": "proved",
   "theorems": [
    "c118_waiting"
   ],
   "note": ""
  },
  {
   "property": "C119",
   "status": "partial",
   "theorems": [
    "c119_projection",
    "c119_hash",
    "c119_bytes",
    "c119_copies"
   ],
   "note": "All that follows the FFT is modelled as it rounds. The dot products from the FFT library are a parameter, with any error: the theorems say how that error propagates. The byte is the exact one away from the boundaries of buckets; close to one it is off by one (C117)."
  },
  {
   "property": "C12",
   "status": "proved",
   "theorems": [
    "c12_history"
   ],
   "note": "'colliding pair' excludes the last bucket of each table, which is never enumerated (see C09)"
  },
  {
   "property": "C120",
   "status": "partial",
   "theorems": [
    "c120_profile_partial",
    "c120_aborts_refuted"
   ],
   "note": "The entries are as stated if no other window is closer than the tolerance. Otherwise the computation may abort, even if all dot products are exact: shown on a series with a window that occurs twice. The dot products from the FFT library are a parameter, with any error."
  },
  {
   "property": "C121",
   "status": "proved",
   "theorems": [
    "c121_erfc",
    "c121_erfc_ends",
    "c121_collision",
    "c121_chance",
    "c121_failure",
    "c121_confirmed",
    "c121_confirmed_first",
    "c121_pair_ends_partial",
    "c121_infinite"
   ],
   "note": "The exponential function of the system library is a parameter: any that is within 2^-50 of the true one, in [0, 1] and 0 at minus infinity. Widths and distances from 2^-200 to 2^200, and distance 0. An infinite distance gives NaN. The end of the search is subject to the conditions of C41 and C114, hence the suffix; f64::powi is taken to be repeated squaring."
  },
  {
   "property": "C122",
   "status": "partial",
   "theorems": [
    "c122_value",
    "c122_exact",
    "c122_written",
    "c122_words",
    "c122_accepts",
    "c122_agrees",
    "c122_only_numbers_refuted"
   ],
   "note": "str::parse::<f64> is modelled by its documented grammar and correct rounding. Which texts are accepted and what they mean is proved in full, but it is more than the property says: the unit is taken out wherever it occurs (1Gb2Gb is 12 Gb), negative numbers and NaN are sizes of 0 bytes, and inf is the largest size."
  },
  {
   "property": "C123",
   "status": "proved",
   "theorems": [
    "c123_load",
    "c123_error"
   ],
   "note": "The parser of the fast_float library is a parameter: any that reads a decimal number in front of white space to the nearest f64. One is given. Numbers too large for an f64 become infinite, which reads_as says."
  },
  {
   "property": "C124",
   "status": "partial",
   "theorems": [
    "c124_motiflets_partial",
    "c124_pair_partial",
    "c124_group_partial",
    "c124_motif_partial"
   ],
   "note": "Missing: flat windows (C22) and windows nearly at distance 0 from another (the profile may abort, C120). The rounding of the FFT enters as a bound on the error of the dot products."
  },
  {
   "property": "C125",
   "status": "proved",
   "theorems": [
    "c125_repeat",
    "c125_shifts"
   ],
   "note": "The rounding of the FFT enters as a bound on the error of the dot products. c125_shifts is about one vector and one window: there are sixteen such conditions on eight shifts that are drawn independently."
  },
  {
   "property": "C126",
   "status": "partial",
   "theorems": [
    "c126_outcome",
    "c126_positive",
    "c126_returns_partial",
    "c126_returns_refuted",
    "c126_aborts",
    "c126_first_width"
   ],
   "note": "That a width always comes out is false (c126_returns_refuted: a straight line, where the real-number model of C79 runs forever and the code aborts on overflow). The rounding of the FFT enters as a bound on the error of the dot products; the draw of the shifts is that they are in [0, width)."
  },
  {
   "property": "C127",
   "status": "partial",
   "theorems": [
    "c127_tables",
    "c127_search",
    "c127_answers",
    "c127_confirmed",
    "c127_no_abort_partial",
    "c127_repeat"
   ],
   "note": "The series, statistics, distances, tables and probabilities are computed; the FFT enters as any function (with an error bound only in c127_repeat), the exponential of the library within the bound of C121. Partial because c127_no_abort_partial assumes that the costs are positive and finite and that the profile has a first usable prefix below 8 (see C40 for why these are needed); the sampled pair is assumed to be within gap of its exact distance (C128 derives it)."
  },
  {
   "property": "C128",
   "status": "partial",
   "theorems": [
    "c128_seed",
    "c128_returns_partial",
    "c128_returns_refuted",
    "c128_answers"
   ],
   "note": "That the sampling always returns is false (c128_returns_refuted: a repeated window, exact dot products, and the root of a negative number is taken, so creating the iterator aborts); c128_returns_partial is what holds. c128_seed covers every run that returns, repeats included. The rounding of the FFT enters as a bound on the error of the dot products; the draws are arbitrary."
  },
  {
   "property": "C129",
   "status": "partial",
   "theorems": [
    "c129_average_partial",
    "c129_never_refuted",
    "c129_almost_surely",
    "c129_contrast",
    "c129_contrast_of_copies"
   ],
   "note": "Partial because the sampling does not end if too few comparable pairs are drawn, or none exists (c129_never_refuted). The draws are arbitrary, or uniform and independent in c129_almost_surely; the generator is not modelled."
  },
  {
   "property": "C13",
   "status": "proved",
   "theorems": [
    "c13_collision_profile"
   ],
   "note": ""
  },
  {
   "property": "C130",
   "status": "proved",
   "theorems": [
    "c130_given",
    "c130_refused",
    "c130_unset"
   ],
   "note": "str::parse::<f64> is modelled by its documented grammar and correct rounding, as in C122; a variable that is not unicode counts as not set. Numbers between 0 and 2^-1074 (which may round to 0) and exactly the overflow boundary are in neither theorem."
  },
  {
   "property": "C131",
   "status": "partial",
   "theorems": [
    "c131_search",
    "c131_exact_partial",
    "c131_ends_refuted",
    "c131_refused"
   ],
   "note": "c131_search covers every run of the search that writes a file; c131_exact_partial also proves that the exact search ends. Missing: the exact search on series with flat windows or with windows within the rounding error of each other (where it may abort, see C22 and C124). That the program always ends is false (c131_ends_refuted). That the numbers read are those in the text is C123. The printing of an extent is any function without commas and newlines; the FFT enters as a bound on the error of the dot products, and costs, coins and collision profile are arbitrary."
  },
  {
   "property": "C132",
   "status": "proved",
   "theorems": [
    "c132_lines",
    "c132_no_room",
    "c132_repeat"
   ],
   "note": "The conditions of a search are gathered in the record searching (P_Whole2.v); they are those of c131_search. c125_shifts bounds how many shifts put the repeat near the border of a bucket; the last bucket is never compared (C09)."
  },
  {
   "property": "C133",
   "status": "partial",
   "theorems": [
    "c133_accepted",
    "c133_search_partial",
    "c133_whole_partial",
    "c133_rate",
    "c133_search_refuted"
   ],
   "note": "Coin.v repeats the control loop of Iterator.v with the coin made in every turn; c133_search_partial says that it is the same search, so that what is proved of the search without the coin holds with it. Missing: distances above 2^20 widths, where the claim is false (c133_search_refuted). The bounds on the distances are hypotheses of c133_search_partial and c133_whole_partial. The words of the generator are arbitrary."
  },
  {
   "property": "C134",
   "status": "partial",
   "theorems": [
    "c134_measured",
    "c134_cost",
    "c134_never_shorter",
    "c134_some_measured_refuted"
   ],
   "note": "c134_measured counts the distances that are computed; c134_cost gives the cost; c134_some_measured_refuted is an index for which nothing is measured, and c134_never_shorter what becomes of the search then (for a series whose distances are finite, and estimates that are positive). Not covered: the measured time itself, an input here."
  },
  {
   "property": "C135",
   "status": "proved",
   "theorems": [
    "c135_any_schedule",
    "c135_prefixes"
   ],
   "note": "A plan of the reduction says which repetitions a thread adds up and how the sums are joined; the counts are those of C13. With three repetitions, which no search has, the average is rounded."
  },
  {
   "property": "C136",
   "status": "proved",
   "theorems": [
    "c136_starts",
    "c136_short",
    "c136_longest"
   ],
   "note": "The profile is required to be the one computed from the first four tables of the problem itself (own_profile), for any sharing of the work between threads."
  },
  {
   "property": "C137",
   "status": "proved",
   "theorems": [
    "c137_chunks",
    "c137_large_buckets",
    "c137_profile"
   ],
   "note": "The floating-point versions of the three functions (ExactInt.v) are proved equal to the ones with integers that C06, C81 and C13 are about."
  },
  {
   "property": "C138",
   "status": "partial",
   "theorems": [
    "c138_words",
    "c138_overflow",
    "c138_largest_limit",
    "c138_huge_limit",
    "c138_every_limit_refuted"
   ],
   "note": "The budget is exact exactly when the first number of repetitions that does not fit needs less than 2^64 bytes; otherwise debug builds abort and release builds, if they end, give a budget that does not fit. That every accepted limit gives a budget is refuted: a limit of 2^64 - 4 bytes or more makes the loop run for ever in a release build. Limits made from strings with decimals (TryFrom<String>), such as 'inf', are in the library only: the program and the Python classes read theirs with FromStr."
  },
  {
   "property": "C139",
   "status": "proved",
   "theorems": [
    "c139_short",
    "c139_needs"
   ],
   "note": "C136 carried to the text of the input and output files: the profile is the one of the tables of the run (own_search) instead of an arbitrary one as in C131 and C132. The example runs the whole program, with its own profile, on a file of seventy lines."
  },
  {
   "property": "C14",
   "status": "proved",
   "theorems": [
    "c14_starting_prefix"
   ],
   "note": ""
  },
  {
   "property": "C140",
   "status": "partial",
   "theorems": [
    "c140_search",
    "c140_short",
    "c140_exact_partial",
    "c140_values"
   ],
   "note": "The constructor is modelled from the numbers on (fpy_new), in the default mode of the statistics, which is what the class uses. Missing: the exact search with windows nearer to each other than the rounding errors, for which C124 does not hold either; with a constant window it aborts (C142)."
  },
  {
   "property": "C141",
   "status": "partial",
   "theorems": [
    "c141_motifs",
    "c141_exact_partial",
    "c141_function"
   ],
   "note": "The class of motifs and the function, from the numbers on. c141_function has no hypothesis besides the threshold. Missing: as for C140, the exact search with windows nearer to each other than the rounding errors; with a constant window it aborts (C142)."
  },
  {
   "property": "C142",
   "status": "proved",
   "theorems": [
    "c142_aborts",
    "c142_program",
    "c142_python"
   ],
   "note": "C22 (the exact search returns on series with flat windows) is false for every such series, not just for an example. What holds is C124 (series without flat windows). Outside the quantifier: windows that are flat without being constant, and in default mode constant windows whose recorded mean has drifted."
  },
  {
   "property": "C143",
   "status": "proved",
   "theorems": [
    "c143_program",
    "c143_largest_limit",
    "c143_lines",
    "c143_python"
   ],
   "note": "FloatBudget.v puts the loops of C138 where the code runs them, between the samples and the first step of the search. The equality with the exact budget (c143_program, c143_python) carries C131, C132, C139 and C140 over to the program as it is. The example runs the program with a limit of 64k."
  },
  {
   "property": "C144",
   "status": "partial",
   "theorems": [
    "c144_words",
    "c144_function",
    "c144_wraps_refuted"
   ],
   "note": "Full property: a support for which the series has fewer windows than support times exclusion zone is refused, in every build. Refuted for release builds when the product wraps around: support 4 with a zone of 2^62 is accepted and the call hangs. Zones of 2^63 or more, for which the overlap test itself is wrong (C01), are left out of the refutation."
  },
  {
   "property": "C145",
   "status": "proved",
   "theorems": [
    "c145_has_edge"
   ],
   "note": "Over the histories of C33. The file does not use has_edge elsewhere: it is part of the public API."
  },
  {
   "property": "C146",
   "status": "proved",
   "theorems": [
    "c146_not_a_number"
   ],
   "note": "The case left out of C33: its histories have no such distance. The sign of a value that is not a number, and so what the returning read reports for it, is not modelled."
  },
  {
   "property": "C147",
   "status": "partial",
   "theorems": [
    "c147_positions",
    "c147_motifs",
    "c147_motifs_refuted",
    "c147_model"
   ],
   "note": "Full property: the tests are right for every zone. Proved for zones below 2^63. For larger zones c147_positions says what the test of positions answers, and c147_motifs_refuted shows a wrong answer of the test of motifs. c147_model relates these tests to those on unbounded positions that the rest of the model uses."
  },
  {
   "property": "C148",
   "status": "partial",
   "theorems": [
    "c148_limit",
    "c148_complete_partial"
   ],
   "note": "c148_limit is the whole first part. c148_complete_partial is the second part for one motiflet per support (top_k = 1, the default). Missing: larger top_k, where a support can have fewer motiflets than asked for."
  },
  {
   "property": "C149",
   "status": "proved",
   "theorems": [
    "c149_flat",
    "c149_projected"
   ],
   "note": "Closes a gap found with a seeded fault: no earlier theorem saw the last digit of the threshold."
  },
  {
   "property": "C15",
   "status": "proved",
   "theorems": [
    "c15_repetition_budget",
    "c15_no_windows_refuted"
   ],
   "note": "for series with at least one window; with none (window = series length) the loop never ends"
  },
  {
   "property": "C150",
   "status": "proved",
   "theorems": [
    "c150_subsequence"
   ],
   "note": "For the floating point and the exact model. Positions are unbounded here: the sum of position and length does not wrap around."
  },
  {
   "property": "C16",
   "status": "partial",
   "theorems": [
    "c16_main_memory_partial",
    "c16_exactly_partial",
    "c16_main_memory_refuted"
   ],
   "note": "off by one: up to two more tables than fit in half of the memory are kept in main memory; proved: never more than two tables beyond, and only tables that would not fit are spilled"
  },
  {
   "property": "C17",
   "status": "partial",
   "theorems": [
    "c17_budget_refuted",
    "c17_repetitions_partial"
   ],
   "note": "False as stated: the budget only enters the cost estimates, and a search that confirms nothing goes on adding repetitions (c17_budget_refuted). Proved: repetitions are only added when the search is about to visit them."
  },
  {
   "property": "C18",
   "status": "proved",
   "theorems": [
    "c18_extents"
   ],
   "note": ""
  },
  {
   "property": "C19",
   "status": "proved",
   "theorems": [
    "c19_motiflets_valid"
   ],
   "note": ""
  },
  {
   "property": "C20",
   "status": "partial",
   "theorems": [
    "c20_minimal_extent_refuted",
    "c20_minimal_extent_partial",
    "c20_no_repeats_partial"
   ],
   "note": "the first window of the sorted order is never a candidate (C23); complete when no two non-overlapping windows are at distance 0; flat windows excluded (C22)"
  },
  {
   "property": "C21",
   "status": "proved",
   "theorems": [
    "c21_schedule_independent"
   ],
   "note": ""
  },
  {
   "property": "C22",
   "status": "partial",
   "theorems": [
    "c22_no_flat_partial",
    "c22_flat_refuted"
   ],
   "note": "with a flat window of zero deviation the search aborts; proved, in exact arithmetic: it returns on series without flat windows (in floating point see C120)"
  },
  {
   "property": "C23",
   "status": "partial",
   "theorems": [
    "c23_repeats_partial",
    "c23_repeats_refuted"
   ],
   "note": "the first element of the sorted order is assumed to be the query window; a repeat sorted before it is lost; proved: nothing is lost when the query comes first"
  },
  {
   "property": "C24",
   "status": "proved",
   "theorems": [
    "c24_first_is_closest"
   ],
   "note": ""
  },
  {
   "property": "C25",
   "status": "partial",
   "theorems": [
    "c25_nearest_pairs_partial",
    "c25_all_pairs_refuted"
   ],
   "note": "only the pair of each window with its nearest neighbour is a candidate, so later motifs can be missed; proved: greedy selection among those pairs"
  },
  {
   "property": "C26",
   "status": "partial",
   "theorems": [
    "c26_real_pairs_partial",
    "c26_real_pairs_refuted"
   ],
   "note": "a window without a non-overlapping neighbour yields a pair at infinite distance; proved for motifs at finite distance"
  },
  {
   "property": "C27",
   "status": "proved",
   "theorems": [
    "c27_queue_bounded"
   ],
   "note": ""
  },
  {
   "property": "C28",
   "status": "partial",
   "theorems": [
    "c28_disjoint_refuted",
    "c28_disjoint_partial"
   ],
   "note": "False as stated: returned motiflets are remembered in a set keyed by extent, so with two motiflets of the same extent and a pruned queue more than top_k come out, one of them twice (c28_disjoint_refuted). Proved when candidates of equal extent overlap."
  },
  {
   "property": "C29",
   "status": "partial",
   "theorems": [
    "c29_pruning_refuted",
    "c29_pruning_partial"
   ],
   "note": "False as stated: a full queue of mutually overlapping candidates refuses a disjoint one that belongs to the answer (c29_pruning_refuted). Proved: the best candidate is never lost, and nothing is lost while at most (k+1)^2 candidates were inserted."
  },
  {
   "property": "C30",
   "status": "partial",
   "theorems": [
    "c30_next_distance_refuted",
    "c30_next_distance_partial"
   ],
   "note": "False as stated: the distance recorded by a refused emission is kept after the candidate has been returned (c30_next_distance_refuted). Proved for an emission that starts with no recorded distance, without ties."
  },
  {
   "property": "C31",
   "status": "partial",
   "theorems": [
    "c31_insert_refuted",
    "c31_insert_debug_refuted",
    "c31_insert_partial",
    "c31_insert_debug_partial"
   ],
   "note": "False as stated: inserting k+4 pairwise non-overlapping motifs aborts (c31_insert_refuted: 5 motifs with k = 1), and with debug assertions two motifs at equal distance do (c31_insert_debug_refuted). Proved: no abort while at most k+2 inserted motifs are pairwise non-overlapping (with debug assertions: if moreover motifs at equal distance start at the same position)."
  },
  {
   "property": "C32",
   "status": "partial",
   "theorems": [
    "c32_kth_refuted",
    "c32_reported_partial"
   ],
   "note": "False as stated: with more than k motifs available the k-th accessor returns none (c32_kth_refuted). Proved: order, disjointness, minimum first, and the k-th when exactly k are available."
  },
  {
   "property": "C33",
   "status": "proved",
   "theorems": [
    "c33_neighbourhoods"
   ],
   "note": ""
  },
  {
   "property": "C34",
   "status": "proved",
   "theorems": [
    "c34_reported_when_changed"
   ],
   "note": "new means not reported before for that node; the re-insertion part assumes that a pair of positions is always given with the same distance"
  },
  {
   "property": "C35",
   "status": "proved",
   "theorems": [
    "c35_returned_motiflets_are_valid"
   ],
   "note": "the pair found by sampling is returned with the distance given by the sampling, whose computation is not part of this model"
  },
  {
   "property": "C36",
   "status": "partial",
   "theorems": [
    "c36_order_refuted",
    "c36_order_partial"
   ],
   "note": "False as stated: motiflets confirmed in the same turn are returned last first (c36_order_refuted). The order that holds instead within a turn is C118. With top_k = 1 at most one motiflet of each support is returned (c36_order_partial). Missing: the order between different turns."
  },
  {
   "property": "C37",
   "status": "proved",
   "theorems": [
    "c37_interruptions"
   ],
   "note": ""
  },
  {
   "property": "C38",
   "status": "proved",
   "theorems": [
    "c38_fused"
   ],
   "note": ""
  },
  {
   "property": "C39",
   "status": "partial",
   "theorems": [
    "c39_stop_refuted",
    "c39_stop_partial"
   ],
   "note": "False as stated: of two candidates of the same extent that do not overlap one may be returned a second time on stopping (c39_stop_refuted). Proved with respect to the candidates that the queues keep (see C29) and when candidates of equal support and extent overlap (see C28)"
  },
  {
   "property": "C40",
   "status": "partial",
   "theorems": [
    "c40_no_abort_refuted",
    "c40_no_abort_partial",
    "c40_in_bounds"
   ],
   "note": "False as stated: a search that starts at prefix 8 asks for a ninth hash function and panics (c40_no_abort_refuted). Proved for all oracles: prefix, repetition and computed hash bytes are in bounds (c40_in_bounds); no panic at all when the search starts below prefix 8 and costs are numbers of the right sign."
  },
  {
   "property": "C41",
   "status": "partial",
   "theorems": [
    "c41_terminates_refuted",
    "c41_several_refuted",
    "c41_diverges",
    "c41_never_ends",
    "c41_terminates_partial",
    "c41_supports_end_partial",
    "c41_pair_ends_partial",
    "c41_failure_fades"
   ],
   "note": "False as stated: without the early stop the search never ends when the series has no room for some support asked for. Proved with the early stop, when every repetition has a colliding pair at every prefix and no pair is skipped. Proved without the early stop for one motiflet per support, if enough repetitions bring the failure probability below the one asked for (proved of the formula in exact arithmetic) and, for every support beyond pairs, some window meets its nearest ones; for a single pair nothing more is needed. With several motiflets per support the end may never be reached although all are found and confirmed, when two have the same extent (c41_several_refuted)."
  },
  {
   "property": "C42",
   "status": "proved",
   "theorems": [
    "c42_probability",
    "c42_repetitions",
    "c42_distance",
    "c42_confirms_smaller",
    "c42_costs"
   ],
   "note": "Exact arithmetic. The repetitions claim needs the current prefix to be no longer than the previous one, as the iterator keeps it."
  },
  {
   "property": "C43",
   "status": "proved",
   "theorems": [
    "c43_previous_prefix",
    "c43_first_prefix",
    "c43_space"
   ],
   "note": "The event is that the pair never collided in any visited repetition; earlier visits at still longer prefixes may be included."
  },
  {
   "property": "C44",
   "status": "proved",
   "theorems": [
    "c44_between",
    "c44_decreasing",
    "c44_normal_distribution"
   ],
   "note": "The rational approximation of the error function in stats/erf.rs is not modelled; the theorem is about the exact function."
  },
  {
   "property": "C45",
   "status": "proved",
   "theorems": [
    "c45_rolling_statistics",
    "c45_chunks",
    "c45_modes_agree"
   ],
   "note": "In exact arithmetic. Windows of length 0 are excluded."
  },
  {
   "property": "C46",
   "status": "proved",
   "theorems": [
    "c46_distance",
    "c46_metric",
    "c46_scale_and_offset"
   ],
   "note": "In exact arithmetic."
  },
  {
   "property": "C47",
   "status": "proved",
   "theorems": [
    "c47_early_exit",
    "c47_negative"
   ],
   "note": "In exact arithmetic."
  },
  {
   "property": "C48",
   "status": "proved",
   "theorems": [
    "c48_dot",
    "c48_zdot"
   ],
   "note": "In exact arithmetic."
  },
  {
   "property": "C49",
   "status": "proved",
   "theorems": [
    "c49_for_each",
    "c49_sliding_dot_product",
    "c49_write"
   ],
   "note": "In exact arithmetic, with the discrete Fourier transform as the specification of rustfft; for the series whose preparation terminates (C50)."
  },
  {
   "property": "C50",
   "status": "partial",
   "theorems": [
    "c50_terminates_refuted",
    "c50_terminates_partial"
   ],
   "note": "False as stated: it loops forever exactly when the window is a power of two that is at least 2^14 or equal to the length of the series; proved for all others."
  },
  {
   "property": "C51",
   "status": "partial",
   "theorems": [
    "c51_every_window_refuted",
    "c51_windows_partial"
   ],
   "note": "False for every series: the last window is never counted. Proved: the counted positions are windows of the series."
  },
  {
   "property": "C52",
   "status": "proved",
   "theorems": [
    "c52_distance_profile",
    "c52_znormalized_dot_product",
    "c52_znormalized_dot_product_write"
   ],
   "note": "In exact arithmetic; release build (the debug assertions are not modelled)."
  },
  {
   "property": "C53",
   "status": "partial",
   "theorems": [
    "c53_terminates_refuted",
    "c53_terminates_partial",
    "c53_otherwise_refuted",
    "c53_almost_surely_partial"
   ],
   "note": "False as stated: with no usable pair (two non-overlapping windows that are not flat) it never ends whatever is drawn, and with no window at all it aborts. Proved that it returns the average as soon as enough usable pairs are drawn, which happens with probability one when there is one. Exact arithmetic."
  },
  {
   "property": "C54",
   "status": "partial",
   "theorems": [
    "c54_partner",
    "c54_no_abort",
    "c54_almost_surely",
    "c54_seed_partial",
    "c54_seed_refuted"
   ],
   "note": "Partners and absence of aborts are proved. The seed is not a pair at all when the sampled windows have only flat partners: refuted, and proved when some sampled window has a partner that is not flat. Exact arithmetic, exclusion zone at least 1; in floating point a window repeated exactly makes the profile abort (C120)."
  },
  {
   "property": "C55",
   "status": "partial",
   "theorems": [
    "c55_load",
    "c55_lines",
    "c55_limit_refuted",
    "c55_limit_partial",
    "c55_limit_no_blanks_partial"
   ],
   "note": "The limit counts blank lines too, so a limited load of a file with blank lines may return fewer values than asked for: refuted, and proved for files whose first lines are not blank. The number parser (crate fast_float) is a parameter of the model."
  },
  {
   "property": "C56",
   "status": "partial",
   "theorems": [
    "c56_value",
    "c56_rejects_refuted",
    "c56_accepts_partial",
    "c56_aborts_exactly_partial",
    "c56_checked_partial"
   ],
   "note": "The value of well formed sizes is proved for all texts. The rejection half is false: a bare ending such as \"b\" and a number followed by an unknown letter abort; c56_aborts_exactly_partial says exactly which texts abort. ASCII text only."
  },
  {
   "property": "C57",
   "status": "proved",
   "theorems": [
    "c57_quiet",
    "c57_any_moment",
    "c57_never_below_zero"
   ],
   "note": "The last two assume that the bytes held and being freed fit a machine word."
  },
  {
   "property": "C58",
   "status": "partial",
   "theorems": [
    "c58_measure_refuted",
    "c58_measure_partial",
    "c58_measure_below"
   ],
   "note": "The gauge underflows when memory allocated before its creation is freed: refuted. Proved when at least as much was allocated as freed since; c58_measure_below says what happens otherwise."
  },
  {
   "property": "C59",
   "status": "partial",
   "theorems": [
    "c59_small_series_refuted",
    "c59_one_per_support_partial"
   ],
   "note": "False of the code: the brute-force path ignores top_k and returns one motiflet per support."
  },
  {
   "property": "C60",
   "status": "proved",
   "theorems": [
    "c60_protocol"
   ],
   "note": ""
  },
  {
   "property": "C61",
   "status": "proved",
   "theorems": [
    "c61_values",
    "c61_plot"
   ],
   "note": "Exact arithmetic for the z-normalised values."
  },
  {
   "property": "C62",
   "status": "proved",
   "theorems": [
    "c62_motif",
    "c62_python_motif"
   ],
   "note": ""
  },
  {
   "property": "C63",
   "status": "partial",
   "theorems": [
    "c63_byte",
    "c63_close",
    "c63_clipped",
    "c63_opposite_refuted",
    "c63_opposite_partial"
   ],
   "note": "Exact arithmetic. That projections of opposite sign never share a byte is false at exactly 128 buckets (byte 128 for both); it is proved when neither is exactly there."
  },
  {
   "property": "C64",
   "status": "proved",
   "theorems": [
    "c64_polynomial"
   ],
   "note": "In exact arithmetic."
  },
  {
   "property": "C65",
   "status": "proved",
   "theorems": [
    "c65_distance_with_flag"
   ],
   "note": ""
  },
  {
   "property": "C66",
   "status": "partial",
   "theorems": [
    "c66_nothing_left_refuted",
    "c66_only_directories_partial",
    "c66_created"
   ],
   "note": "The directory created for spilled repetitions is left behind: refuted; proved that only directories are left."
  },
  {
   "property": "C67",
   "status": "partial",
   "theorems": [
    "c67_evaluated_refuted",
    "c67_evaluated_partial"
   ],
   "note": "False as stated: with more than 8 repetitions a pair is skipped when its coin says so (c67_evaluated_refuted). Proved when all coins say yes, which is the case with at most 8 repetitions."
  },
  {
   "property": "C68",
   "status": "partial",
   "theorems": [
    "c68_edges_are_genuine",
    "c68_edges_refuted"
   ],
   "note": "Proved for every exclusion zone > 0. False for an exclusion zone of 0: the initial content of the pair buffer becomes an edge from window 0 to itself (c68_edges_refuted)."
  },
  {
   "property": "C69",
   "status": "partial",
   "theorems": [
    "c69_log_refuted",
    "c69_log_partial",
    "c69_flush_partial"
   ],
   "note": "Going back to a path used before corrupts the file, because the old writer flushes at its old position after the truncation: refuted; proved for histories that use every path at most once."
  },
  {
   "property": "C70",
   "status": "partial",
   "theorems": [
    "c70_calibration_partial",
    "c70_calibration_refuted"
   ],
   "note": "aborts with 'illegal prefix 0' whenever no prefix has more than 1000 expected collisions; otherwise returns"
  },
  {
   "property": "C71",
   "status": "partial",
   "theorems": [
    "c71_confirmed_refuted",
    "c71_merge_refuted",
    "c71_first_not_confirmed_refuted",
    "c71_flags_partial"
   ],
   "note": "False as stated, in each of its three parts (the _refuted theorems: confirmations made through the visitor are not seen by the readers, a buffer emptied into another one still reports its motifs, the reader of the first unconfirmed motif returns a confirmed one). Proved: reads that follow an insertion."
  },
  {
   "property": "C72",
   "status": "proved",
   "theorems": [
    "c72_no_pair_twice",
    "c72_candidates_bounded"
   ],
   "note": ""
  },
  {
   "property": "C73",
   "status": "partial",
   "theorems": [
    "c73_disjoint_answers_refuted",
    "c73_disjoint_answers_partial"
   ],
   "note": "False as stated: returned motiflets are remembered by extent (C28), and a run may return the same motiflet at every call for ever (c73_disjoint_answers_refuted). Proved when candidates of equal support and extent overlap"
  },
  {
   "property": "C74",
   "status": "proved",
   "theorems": [
    "c74_motifs"
   ],
   "note": ""
  },
  {
   "property": "C75",
   "status": "proved",
   "theorems": [
    "c75_valid"
   ],
   "note": ""
  },
  {
   "property": "C76",
   "status": "proved",
   "theorems": [
    "c76_hash",
    "c76_table",
    "c76_search_tables"
   ],
   "note": "Exact arithmetic; the FFT is replaced by the discrete transform."
  },
  {
   "property": "C77",
   "status": "proved",
   "theorems": [
    "c77_copies"
   ],
   "note": "Exact arithmetic."
  },
  {
   "property": "C78",
   "status": "proved",
   "theorems": [
    "c78_width"
   ],
   "note": "Exact arithmetic."
  },
  {
   "property": "C79",
   "status": "partial",
   "theorems": [
    "c79_first",
    "c79_width_positive",
    "c79_terminates_partial",
    "c79_terminates_refuted"
   ],
   "note": "Exact arithmetic. The search for the width does not end on a straight line, where all windows fall in the last bucket at any width (in floating point the width becomes infinite and the program aborts). Termination is proved when some window is left out and two others are not trivial matches."
  },
  {
   "property": "C80",
   "status": "partial",
   "theorems": [
    "c80_flat_partial",
    "c80_flat_refuted"
   ],
   "note": "Fails when the deviation is exactly the threshold: one test is strict, the other is not. Proved for every other deviation."
  },
  {
   "property": "C81",
   "status": "proved",
   "theorems": [
    "c81_estimate"
   ],
   "note": ""
  },
  {
   "property": "C82",
   "status": "proved",
   "theorems": [
    "c82_returned_only_when_confirmed"
   ],
   "note": "About the control loop with the failure probability as a parameter (C43 gives what it computes)."
  },
  {
   "property": "C83",
   "status": "proved",
   "theorems": [
    "c83_pair_is_closest_of_those_searched"
   ],
   "note": "Assumes that the two distance routines agree (C46, C47) and that no pair is dropped by sampling (see C53)."
  },
  {
   "property": "C84",
   "status": "proved",
   "theorems": [
    "c84_motiflet_is_tightest_of_those_searched"
   ],
   "note": "As C83, for windows without two neighbours at the same distance."
  },
  {
   "property": "C85",
   "status": "proved",
   "theorems": [
    "c85_kth_extent"
   ],
   "note": ""
  },
  {
   "property": "C86",
   "status": "proved",
   "theorems": [
    "c86_repeat_is_found"
   ],
   "note": "For exact real arithmetic in the hashes, exact distances, top_k 1 and no pair dropped by sampling (see C53)."
  },
  {
   "property": "C87",
   "status": "proved",
   "theorems": [
    "c87_emission_stops_at_unconfirmed",
    "c87_nothing_held_back"
   ],
   "note": "With top_k 1, or if candidates with equal extents overlap (ties are replaced in the queue, see C35). The second theorem assumes that the failure probability does not decrease with the distance (see C43)."
  },
  {
   "property": "C88",
   "status": "proved",
   "theorems": [
    "c88_schedule",
    "c88_repetitions_on_demand"
   ],
   "note": "For delta below 1 and cost estimates that are numbers and not negative. The repetitions charged are one more than the least number that suffices, as in the code."
  },
  {
   "property": "C89",
   "status": "proved",
   "theorems": [
    "c89_accuracy",
    "c89_near_zero",
    "c89_shape",
    "c89_normal"
   ],
   "note": "In exact arithmetic with the decimal constants of the source; C121 is the same code with every operation rounded."
  },
  {
   "property": "C90",
   "status": "proved",
   "theorems": [
    "c90_collision",
    "c90_between",
    "c90_failure",
    "c90_confirmed",
    "c90_confirmed_first"
   ],
   "note": "In exact arithmetic with the decimal constants of the source; the hash bytes are independent, as in C43. C121 is the same with every operation rounded."
  },
  {
   "property": "C91",
   "status": "proved",
   "theorems": [
    "c91_accepted_fits",
    "c91_refused"
   ],
   "note": "For a positive exclusion zone."
  },
  {
   "property": "C92",
   "status": "proved",
   "theorems": [
    "c92_symmetric",
    "c92_self",
    "c92_value",
    "c92_aborts"
   ],
   "note": "Every operation is rounded; sums may start from 0.0 or -0.0. The last theorem is for windows of at most 2^52 values."
  },
  {
   "property": "C93",
   "status": "proved",
   "theorems": [
    "c93_sign",
    "c93_threshold",
    "c93_rejected"
   ],
   "note": "For pairs whose distance without a threshold is not NaN (C95). The value itself depends on the order of the two windows: c93_order_case."
  },
  {
   "property": "C94",
   "status": "proved",
   "theorems": [
    "c94_new"
   ],
   "note": "c94_overflow_case shows that some bound on the data is needed."
  },
  {
   "property": "C95",
   "status": "proved",
   "theorems": [
    "c95_distances",
    "c95_search"
   ],
   "note": ""
  },
  {
   "property": "C96",
   "status": "partial",
   "theorems": [
    "c96_copies_partial",
    "c96_precise_refuted",
    "c96_default_refuted"
   ],
   "note": "Proved for the distance with a threshold in precise mode. False otherwise: by the dot product two copies of 2 4 4 9 are at distance 2.98e-8, and in default mode two copies have different means on record."
  },
  {
   "property": "C97",
   "status": "proved",
   "theorems": [
    "c97_precise"
   ],
   "note": "For M between 2^-400 and 2^200."
  },
  {
   "property": "C98",
   "status": "partial",
   "theorems": [
    "c98_default_refuted",
    "c98_default_partial"
   ],
   "note": "False as stated: after one value of 10^16 the deviation of 1 2 3 is on record as 77490641. Proved with M for the values of the whole series and further terms that grow with the position of the window in its block of 10^6 windows."
  },
  {
   "property": "C99",
   "status": "proved",
   "theorems": [
    "c99_flat_precise",
    "c99_flat_default"
   ],
   "note": "For M at least 2^-14. The error in default mode is that of C98."
  }
 ]
}