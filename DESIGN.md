# A Rocq model of attimo

This directory holds a formal model of the Rust crate in `/repo` (and of its
Python binding) and machine-checked proofs of the properties listed in
`properties.jsonl`.  The Coq sources are in `rocq/theories`.

## 1. Trusted base

* Coq 8.16.1's kernel (and `coqchk`).
* The axioms that `Print Assumptions` lists below each theorem in the
  `P_*.v` files.  The discrete part of the model (hashes, sorting,
  enumeration, queues, graph, control loop, parsing, ...) uses none.  The
  real-number part uses the axioms of `Coq.Reals`
  (`ClassicalDedekindReals.sig_forall_dec`, `ClassicalDedekindReals.sig_not_dec`,
  `FunctionalExtensionality.functional_extensionality_dep`, and `Classical`
  where Coquelicot needs it).  No axiom is added by this development.
* The faithfulness of the model: every definition cites the lines it models and
  says where it simplifies.

## 2. How the code is modelled

* **Outcomes.**  A function that may abort or loop returns `res A`
  (`Ret a | Panic | Spin`).  `Panic` is any Rust panic (index out of bounds,
  `unwrap` on `None`, failed `assert!`, arithmetic overflow, explicit panic);
  `Spin` is "fuel exhausted" in `while`-loops.  Termination is stated as "there
  is a fuel for which the result is `Ret`", divergence as "for every fuel the
  result is `Spin`".  Theorems never speak about `Spin` as a value.
* **Floats.**  Two models.
  (a) Code that only *compares* floats (queues, graph, brute force, iterator)
  is modelled over `Coq.Floats.SpecFloat.spec_float`, i.e. IEEE data with NaN,
  infinities and signed zeros, compared by `SFcompare`.
  (b) Code that computes (statistics, distances, FFT, probabilities) is modelled
  over `R`: theorems say "in exact arithmetic".
  (c) The rolling statistics, the distances, the collision and failure probability, projections, hash
  values and distance profiles are also modelled in floating point
  (`FpOps.v`, `FloatSeries.v`, `Powi.v`, `FloatHash.v`, `FloatWidth.v`, `FloatBrute.v`, `FloatRun.v`, `FloatSample.v`, `FloatStart.v`, `FloatMain.v`, `FloatPython.v`, `FloatBudget.v`, `FloatAccept.v`, `FloatErf.v`, `Coin.v`, `Calibrate.v`, `ExactInt.v`, `Decimal.v`; C92 on), with every operation rounded to the nearest `f64`
  as the code does: `SpecFloat`'s operations, related to the reals by Flocq.  For the rest
  of (b) rounding is not modelled.
* **Machine words.**  Hash values and indices in the LSH index are `N` with
  explicit bounds/`mod`.  Positions in lists are `nat`.  Release-mode wrap-around
  is modelled where the code can reach it (overlap tests, `OverlapsWords.v`), and stated where it is not.
* **Unstable sorts / parallel reductions / locks / random coins** are modelled by
  quantifying over every result the specification of the primitive allows
  (every permutation sorted by the key, every split tree, every interleaving,
  every coin stream).
* **Not modelled:** file-system errors, gzip, the contents of log messages,
  progress bars, `main.rs` option parsing, profiler and memory monitor, matplotlib calls, the random number
  generators themselves, the FFT library (its specification, the exact DFT, is
  used), `f64::exp` (in the floating-point theorems a bound on its error is a hypothesis),
  the number parsers of the standard library and of fast_float (their grammar and correct rounding are used),
  allocation failure, wall-clock time.

## 3. Properties

Statuses below are the plan; the state of the proofs is in `MANIFEST.json`.
"refuted" means that the full property is false of the code: a theorem
`..._refuted` exhibits a witness, and the part that does hold is proved
separately under the name `..._partial`.

| id | what is modelled | how it is proved |
|----|------------------|------------------|
| C01 | overlap test on machine words (wrapping casts) | arithmetic on Z, all 64/32-bit values |
| C02 | four-index sort test of motifs, any/any of motiflets | case analysis + lia; list lemmas |
| C03 | `set_byte` on N with shifts and masks | bitwise (N.testbit) reasoning |
| C04 | `prefix_eq`, MASKS | shift/divide characterisation; contiguity by monotonicity of division |
| C05 | LSD radix sort: histograms, write heads, swaps over 8 passes | each pass is a stable counting sort; induction over passes |
| C06 | chunks, rounds of pairwise merges | permutation + sortedness invariants, uniqueness of the sorted list |
| C07 | big-endian byte encoding and decoding | round trip by division; induction on the table |
| C08-C10 | enumerator state machine (range, i, j), exponential search + partition point | refinement to the list of pairs of each bucket; induction over calls |
| C11 | sentinels in sorted tables | last-bucket argument (holds *because* of the defect in C09) |
| C12 | history of (repetition, prefix) moves | invariant over histories |
| C13-C14 | bucket scan counting pairs | counting lemma per bucket |
| C15-C17 | memory arithmetic, repetition growth | arithmetic; witness runs for the false ones |
| C18 | double loop of `compute_extents` | loop invariant |
| C19-C23 | brute force over an arbitrary distance profile, sort as any sorted permutation, reduction as any split tree | invariants; schedule independence by associativity of "leftmost minimum" |
| C24-C26 | nearest neighbour scan and greedy selection | invariants; witnesses |
| C27-C30 | the candidate queue | invariants over all histories of operations; witnesses |
| C31-C32 | the motif buffer | same |
| C33-C34, C65 | adjacency graph with sign-encoded flags | invariants over histories |
| C35-C41, C67, C68, C72, C73 | control loop as a state machine with oracles for tables, distances, coins, probabilities, costs | invariants over all executions; simulation for interruption; witnesses |
| C42-C43 | failure probability over R; finite product space of independent bytes | monotonicity; summation over outcomes |
| C44 | the collision probability with the exact normal cdf | calculus (Coquelicot) |
| C45-C48, C52, C64 | statistics and distances over R | algebra, induction |
| C49-C50 | chunking arithmetic, exact DFT | convolution theorem, overlap-save covering; divergence witness |
| C51 | count of windows | refutation for all lengths |
| C53-C54 | rejection sampling, seed pair | divergence proof; invariants |
| C55-C56 | line reader, size parser over byte lists | induction on the text |
| C57-C58, C69 | interleaving semantics | invariants over traces |
| C59-C62 | Python layer | lists, arithmetic |
| C63 | quantisation with truncation and clipping over R/Z | arithmetic |
| C66 | file-system effects of spill and drop | trace model; witness |
| C76-C77 | `Hasher::hash` and the table of a repetition over R | invariant over the hash functions; z-normalisation is invariant under scale and offset |
| C78 | `Hasher::compute_width` | sorted list with the infinities at the end, percentiles |
| C79 | the doubling loop of `LSHIndex::from_ts` | first doubling with a positive estimate; refuted by a straight line |
| C80 | the two flatness tests | refuted at the threshold |
| C81 | `estimate_num_collisions` | invariant over the buckets, compared with the enumeration (C08) |
| C82 | the control loop, `emit_confirmed`, `TopK::emit` | every returned item traced back to the turn that emitted it |
| C83, C84 | the same, with exact distances (C102 is about computed ones); `GuaranteeSpec.v` says which pairs count as searched | invariant over all executions: every pair that met is an edge of the graph, or farther than what the queue holds, or infinite; greedy neighbourhoods of the graph are those of the data |
| C85 | `TopK::k_th_distance` | invariant of the scan, against "k best non-overlapping" |
| C86 | hashing of windows (C77) with the iterator (C83) | a repeat has equal hash values, so it meets in the first repetition at every prefix; then C83 |
| C87 | `emit_confirmed`, `TopK::emit` | invariant of the emission loop, over all the queues, for each turn of a trace |
| C88 | `next_interruptible`, `costs_to_confirm`; `ScheduleSpec.v` says what the repetitions and costs are | first minimum of the costs; each turn of a trace |
| C89 | `erf`, `erfc`, `erf_impl` with all constants (`Erf.v`), against the integral (`ErfSpec.v`) | the error is 0 at 0 and at infinity; its derivative is bounded on each interval by checking integer polynomials for nonnegativity (`PolyZ.v`), and the jumps between intervals are bounded in rationals |
| C90 | `collision_probability_at`, `failure_probability` on top of C89 | the error of C89, carried through powers and products; C43 |
| C91 | `MotifletsIterator::new` of the Python layer | the multiples of the exclusion zone fit |
| C92 | `zeucl`, `zeucl_slow`, `zdot` with every operation rounded (`FloatSeries.v`) | commutativity of rounded operations, signs |
| C93 | `zeucl_threshold` with every operation rounded | the partial sums never decrease; rounding of squares and square roots |
| C94 | `rolling_stat`, `rolling_stat_slow` with every operation rounded | magnitudes along the recurrence; chunks of 10^6 windows restart it |
| C95 | C92 to C94 together | magnitudes of every intermediate value; flat windows are excluded |
| C96 | C94, in precise mode copies have the same statistics on record | every difference is exactly 0; refuted by examples for the other ways to compute it |
| C97 | C94 and the exact statistics of RSpec.v | rounding errors of sums of squares are relative; the error of the mean enters squared |
| C98 | the same for the recurrence | refuted by an example; otherwise induction over the windows of a block, errors of means and of sums of squares |
| C99 | C97, C98 and the test for flatness | the threshold is within 2^-65 of 0.0001 |
| C100 | C95, C97, C98 and `zdistance` of RSpec.v | forward error analysis: relative errors of the terms, of sums in lanes, of the square root; a close pair is treated by the differences |
| C101 | C35 with C100; `AccSpec.v` says what a search over a series is | the extent is one of the computed distances and bounds the others, so it is near the exact maximum |
| C102 | the invariant of C83 and C84 with two versions of each distance (`coherent` in GuaranteeSpec.v), then C93, C100 | the two routines need not agree: the candidate is compared to one, the edges to the other; both are near the exact distance |
| C103 | C77, C86 with C102 | the exact distance of the repeat is 0 |
| C104 | `quantise` of Hashing.v; `ChanceSpec.v` has probabilities as integrals | the shifts are cut at the two points where a bucket changes; the formula of C42 is the integral of a tent against the normal density, by parts |
| C105 | `ChanceSpec.v`: the density of a sum by convolution | completing the square, induction on the number of terms |
| C106 | `RiskSpec.v`: a search for each outcome of the space of C43 | by C83 a farther pair is returned only in a configuration that confirms and whose visits all missed; the union over (prefix, repetitions at the previous prefix) of the first repetition that confirms; along one schedule these events are nested |
| C107 | `Main.v`: `output_csv`; `MainSpec.v`: a reader of CSV files | decimal digits of the printed index read back; splitting at newlines and commas |
| C108 | `Main.v`: `find_motiflets`, `collect`, `run` | the collected motiflets are the items of a session (C35), or the brute-force ones (C19) |
| C109 | as C108 | at the end every support is complete, and everything complete was returned; refuted for `--exact` |
| C110 | as C108 | C41 for the search, C22 for `--exact`; pigeonhole: windows apart fall into different blocks |
| C111 | `fdot`, `fnorm` of FloatSeries.v | sums in lanes: relative error of each term grows with the number of additions; square roots of close numbers are close |
| C112 | `show_size` (ShowSize.v), `from_str` | rounding to a hundredth by division with remainder; a text with a point is no memory size |
| C113 | `g_stats` (Graph.v) | invariant: nodes not touched since the last reset have no duplicates; after sorting without ties equal neighbours are adjacent |
| C114 | `powi`, `failure_f64` (Powi.v) | all intermediate values are in [0, 1], where a rounding costs at most 2^-54; a number below 1 squared again and again moves away from 1 by a quarter each time, then vanishes |
| C115 | `subsequence`, `mean`, `sd`, `znormalized`, `is_flat`, `count_flat` (Series.v), `num_subsequence_pairs`, `memory`, `stats` (Counts.v) | from the values on record in a series just made; the pairs are counted row by row |
| C116 | `default_limit`, `python_limit`, `as_usize` (Counts.v), the iterator | one rounding, then the floor; the bound on candidates of C72; a search with three copies is run by computation |
| C117 | `quantise_f64`, `as_i64` (Quantise.v) | two roundings, each a relative error of 2^-53; the cast is the truncation of the exact model, so `byte_of` of C63 applies to the rounded value |
| C118 | what waits in `it_return` (P_Order.v) | invariant: the list is sorted by support, then by extent, because the queues are visited by support and each is sorted; calls take from the end |
| C119 | `fprojections`, `fhash` (FloatHash.v); dot products are a parameter | three roundings after the dot product; errors of mean and deviation on record from C100; then C117 |
| C120 | `fdistance_profile` (FloatHash.v) | the normalised window is a vector of C119; the square root is of a positive number if the distance exceeds the error; the abort is a computation |
| C121 | `ferf_impl`, `ferfc`, `fcollision_probability` (FloatErf.v), `failure_f64` (Powi.v); `exp` is a parameter with a bound on its error (FloatErfSpec.v) | Horner's scheme with rounding against the size of the polynomials, checked for nonnegativity in integers; the difference to the start of an interval is exact; relative errors of the rest; then C89, C114 and C43 |
| C122 | `parse_f64`, `try_from_string` (Decimal.v), `from_str` (Text.v); grammar and value of decimal numbers in DecimalSpec.v | the parser against the grammar in both directions; correct rounding of a quotient of integers, also if it overflows; scaling by 1024 is exact; then C56 |
| C123 | `load_from` (Text.v) with a parser that reads decimal numbers | C55 and the lines of the file one by one |
| C124 | the brute-force searches of Brute.v on the profile and distances of FloatSeries.v and FloatHash.v (FloatBrute.v, BruteAccSpec.v) | C120 makes the two profiles equal, C100 bounds the extents, then C19, C20 and C24; for larger supports both neighbourhoods are the same by induction; _partial: no flat windows, no windows nearly at distance 0 |
| C125 | `frepetition_table` (FloatHash.v) in place of `repetition_table` in C103 | C119 gives both windows the same hash value, so they meet in the first table; then C102; the shifts near a border by cutting [0, width) at the one border that can be in it |
| C126 | `fcompute_width`, `ffind_width` (FloatWidth.v), the code of C78 and C79 with rounding | doubling a float is exact until it overflows, so fewer than 2100 rounds; beyond 2^960 every quotient rounds below 1, so all bytes are 0; the percentiles as in C78, with C119 for the projections |
| C127 | `fsearch` (FloatRun.v): the search of C16 on, with `fzeucl`, `frepetition_table` and `failure_f64` for its distances, tables and probabilities | every entry of a computed table is that of a window that is not flat, or the largest key; so the search meets what C35, C40, C82 and C101 to C103 assume, and they apply |
| C128 | `fnearest_neighbor_distance_stats` (FloatSample.v), the code of C54 with the profiles of C120 | an entry that is not NaN has the error of C120 even next to a repeat; invariant of the sampling loop; the abort by c120_aborts_refuted |
| C129 | `faverage_pairwise_distance`, `relative_contrast` (FloatSample.v) | invariant of the sampling loop: the computed distances added up; error of a long sum (FloatSum.v); counting argument of C53 for probability one |
| C130 | `fstart_width`, `findex_width` (FloatStart.v), the parser of C122, the widening of C126 | the text is read as the nearest number; c126_outcome and c126_positive |
| C131 | `fprogram` (FloatMain.v): loading, series, width, samples, search or exact search, output, all from `world`, which holds what libraries and random generators return | composition of C107, C124, C128, C129 and C130; the loop over the chunks of the transform is modelled by lengths only |
| C132 | as C131 | the setting of C131 is `ready` (C108), so that C109 and C110 apply; c127_repeat |
| C133 | `sample_rate`, `bernoulli_new`, `session_coin` (Coin.v): the control loop of Iterator.v with the coin made in every turn | a probability that is not negative is accepted (signs); C121 for the sign; every threshold is infinite or a distance (invariant of Iterator.v), so both loops are equal; a concrete width and distance for the abort, with a correctly rounded exponential |
| C134 | `calibrate`, `cost_of`, `collision_cost_of` (Calibrate.v): the loop over the batches of the enumerator, with the distances of FloatSeries.v | the batches are those of C10, all but the last are full, so the number of distances depends on the number of pairs only; division by zero by cases; with an infinite cost every estimated cost is infinite, so that C88 leaves only one way to go |
| C135 | `collision_profile`, `reduce` over a `plan` (Calibrate.v): any tree of partial sums in floating point | integers up to 2^53 are added exactly, so a plan gives the column sums (induction on the plan); division by 4 is exact; C14 and C70 for the prefixes |
| C136 | `iter_new` and its histories (Iterator.v), with the profile of Calibrate.v and Profile.v computed from the problem's own tables | counting colliding pairs (C13), the exact averages (C135) and the two prefix searches (C14, C70); histories by induction on the trace |
| C137 | `par_sort_hash_pairs64`, `estimate_num_collisions64`, `collision_profile_at64` (ExactInt.v): the quotient, ceiling, square root and subtraction in floating point | the rounding error is smaller than the distance of the exact value to the nearest whole number; then equality of the loops |
| C138 | `max_repetitions64`, `max_repetitions_in_memory64` (Budget.v): the loops with checked or wrapping `usize`; `from_str` (Text.v) and `try_from_string` (Decimal.v) for the limit | without overflow the loops are those of C15 and C16, step by step; with a limit of at least 2^64 - 4 bytes the condition of the loop is always true, as the sizes are multiples of 4 |
| C139 | `fprogram` (FloatMain.v) with `own_search`: the profile of the search is that of the tables of the run | C136 for the search inside the program: an output implies that the iterator was created; the tables have one entry per window (C127) |
| C140 | `fpy_new`, `fpy_calls`, `fvalues`, `fzvalues` (FloatPython.v): the Python constructor from the numbers on, the calls of `__next__` and the values of windows | composition of C127, C128 and C136 above the threshold and of C124, C129 and C60 up to it; z-normalised values by the error bounds of C100 |
| C141 | `fpy_motif_calls`, `fmotiflet_brute_force` (FloatPython.v): the iterator of motifs and the brute-force function | C62 and induction over the calls for the conversion, C140 for the motiflets, order of the supports for uniqueness; case analysis for the function |
| C142 | `brute_force_motiflets` over `brute_series` (FloatBrute.v), `fprogram`, `fpy_new`, `fmotiflet_brute_force` on series with a constant window | exactness of the sum of equal short numbers (Flocq), NaN through the z-normalisation to the profile, panic of one window is a panic of the parallel reduction |
| C143 | `fprogram64`, `fpy_new64` (FloatBudget.v): the program and the Python class with the budget of Budget.v computed after the samples | the loops end with the exact budget (C138), so the rest of the run is that of `fprogram` and `fpy_new` with it; with the largest limits the loop never gives a budget |
| C144 | `fpy_new_words`, `fmotiflet_brute_force_words` (FloatAccept.v): the constructors with the product in their assertion as a checked or wrapping word | below 2^64 the assertion is that of C91; when a wrapped product is accepted no pair of windows can be sampled, so the average distance is never computed |
| C145 | `g_has_edge` (Graph.v) after any history | invariant of C33: each list holds exactly the neighbours given |
| C146 | the histories of C33 followed by an edge whose distance is not a number | invariant of C33; the sort compares every entry of a list of two or more |
| C147 | `overlaps_build`, `motif_overlaps_build` (OverlapsWords.v): the overlap tests with checked or wrapping words | arithmetic; the four positions sorted, by the permutations of four elements; equality with the tests of Overlaps.v |
| C148 | `flimit`, `with_limit`, `fpy_new`, `fpy_calls` (FloatPython.v), the stop of `next` (Iterator.v) | the limit by C95's rounding bound; a state over the limit is kept by each call, by induction over the calls; the count of items by the invariants of C13 and the end condition. `_partial`: one motiflet per support |
| C149 | `fis_flat`, `fflat_threshold` (FloatSeries.v), `fznormalized_value` (FloatHash.v) | the constant shown to be 0.0001 rounded to nearest, then the comparison on reals |
| C150 | `fsubsequence` (FloatSeries.v), `subsequence`, `slice` (Series.v) | the two range checks, then the elements of the cut |
| C39, C41, C73 with equal extents | `tied` of P_Ties.v | refuted by a run with two disjoint pairs at the same distance, found by an invariant of all later states |
| C41 without the early stop | `EndSpec.v`: failure probabilities that fade, windows that meet at every prefix | the prefix only goes down, so a run has a last phase; there the repetitions grow until every extent there can be is confirmed; a queue keeps its best candidate |
| C74-C75 | the two Python iterators over either path | C19 and C35, plus lists |

## Seeded faults

`seeded/LOG.jsonl` has two kinds of lines.

* Hand-written edits, with the claim they break.  `theorems_failed` is the lemma or theorem at which
  the build stopped in each file.  Theorems of the claim that lie in files which could not be rebuilt
  are listed separately: they were not tried.
* Automatic edits of one token.  Only the file and line where the build stopped were recorded, so
  `theorems_failed` is empty.  Where not even that was recorded the outcome is `inconclusive`.

Earlier versions of the log derived the failed theorems of automatic edits from the imports, and called
every automatic survivor without a tightened theorem equivalent.  Neither had been checked.  A survivor now has a note: judged
equivalent by inspection (not proved), followed by a tightening, a known gap, or not analysed.
The known gaps are some coefficients of the error function, the order of costs that are not numbers
and the vectors used to choose the width.
