{"id": "C01", "title": "Index overlap test is exactly 'closer than the exclusion zone'", "statement": "Two subsequence positions are reported as overlapping if and only if the absolute difference of the positions is strictly smaller than the exclusion zone; the answer does not depend on the order of the two positions, and with a non-zero exclusion zone a position always overlaps itself.", "quantifier": "all pairs of positions and all exclusion zones up to isize::MAX (larger zones are shown to give the wrong answer)", "why_tests_cant": "the test is done through signed casts and subtractions, so it can only go wrong at extreme values that no unit test enumerates", "anchors": ["src/timeseries.rs: Overlaps<usize> for usize, Overlaps<u32> for u32"]}
{"id": "C02", "title": "Motif and motiflet overlap test", "statement": "Two motifs (pairs of positions, each pair itself non-trivial) overlap if and only if some position of one is closer than the exclusion zone to some position of the other; the same holds for motiflets of any support; the relation is symmetric.", "quantifier": "all motifs/motiflets and all exclusion zones", "why_tests_cant": "the motif test is implemented by sorting four indices and looking at adjacent gaps, which has many relative orders", "anchors": ["src/motifs.rs: Overlaps<Motif> for Motif", "src/motiflets.rs: Overlaps<Self> for Motiflet"]}
{"id": "C03", "title": "Writing one hash byte touches only that byte", "statement": "Setting byte k of a 64-bit hash value (bytes counted from the most significant) makes byte k equal to the given value and leaves the other seven bytes unchanged, and the result is still a 64-bit value.", "quantifier": "all 2^64 hash values, all byte positions and all byte values", "why_tests_cant": "the domain is 2^64 x 8 x 256", "anchors": ["src/index.rs: HashValue::set_byte"]}
{"id": "C04", "title": "Prefix comparison of hash values", "statement": "Two hash values compare equal at prefix p (1..8) iff their first p bytes are equal; agreeing at a prefix implies agreeing at every shorter prefix; and in any array sorted by hash value the values agreeing with a given one at prefix p form one contiguous run.", "quantifier": "all hash values, all prefixes, all sorted arrays of any length", "why_tests_cant": "contiguity of buckets is a property of arbitrary sorted arrays; the search code silently depends on it", "anchors": ["src/index.rs: HashValue::prefix_eq, MASKS"]}
{"id": "C05", "title": "Radix sort of (hash, index) pairs", "statement": "Sorting a slice of (hash, index) pairs with a scratch slice of the same length leaves in the slice a permutation of the input, in non-decreasing hash order, with pairs of equal hash in their original relative order.", "quantifier": "all slices of any length", "why_tests_cant": "an in-place counting sort with eight passes and write heads is correct or not for all inputs; tests sample random arrays", "anchors": ["src/sort.rs: sort_hash_pairs"]}
{"id": "C06", "title": "Parallel sort of (hash, index) pairs", "statement": "For every number of worker threads the parallel sort leaves a permutation of the input sorted by hash, and, when the indices of equal hashes come in increasing order in the input, exactly the same array as a sequential sort by (hash, index).", "quantifier": "all non-empty slices and all thread counts (the empty slice is shown to abort)", "why_tests_cant": "the chunking and the merge rounds depend on length and thread count together", "anchors": ["src/sort.rs: par_sort_hash_pairs, merge_chunks, merge"]}
{"id": "C07", "title": "Repetitions spilled to disk read back unchanged", "statement": "A table of (hash, index) pairs stored on disk is read back as exactly the table that was stored, in the same order, whatever the table; and the reported size is the same as for a table held in memory.", "quantifier": "all tables of any length", "why_tests_cant": "byte-level encode/decode of 64- and 32-bit values for every value and every length", "anchors": ["src/index.rs: Repetition::from_pairs_to_disk, Repetition::get, Repetition::bytes"]}
{"id": "C08", "title": "Enumerated collisions are genuine", "statement": "Every pair reported by the collision enumerator consists of two indices of the repetition that share the requested hash prefix, are ordered (first <= second), do not overlap, and (when asked to) did not already collide at the previous prefix; no pair of table positions is reported twice.", "quantifier": "all tables sorted by hash, all prefixes, all exclusion zones, all buffer sizes and all call sequences", "why_tests_cant": "quantifies over arbitrary tables and over the resumption state between calls", "anchors": ["src/index.rs: CollisionEnumerator::next, next_range"]}
{"id": "C09", "title": "Collision enumeration is complete", "statement": "Calling the enumerator until it reports exhaustion yields every non-overlapping pair of the repetition that shares the requested prefix.", "quantifier": "all tables sorted by hash, all prefixes, all exclusion zones", "why_tests_cant": "a missed bucket is invisible to tests that only look at the final motif", "anchors": ["src/index.rs: CollisionEnumerator::next, CollisionEnumerator::new, next_range"]}
{"id": "C10", "title": "Enumeration does not depend on the buffer size", "statement": "The concatenation of the batches returned by the collision enumerator is the same for every sequence of non-empty output buffers; each batch fits its buffer, is non-empty, and the enumerator terminates.", "quantifier": "all tables, all sequences of buffer sizes", "why_tests_cant": "resuming in the middle of a bucket at every possible point", "anchors": ["src/index.rs: CollisionEnumerator::next"]}
{"id": "C11", "title": "Flat subsequences never take part in a collision", "statement": "No pair reported by the enumerator involves a flat subsequence (one marked by the all-ones sentinel).", "quantifier": "all sorted tables containing any number of sentinels", "why_tests_cant": "depends on where the sentinels land in the sorted table for every table", "anchors": ["src/index.rs: Hasher::hash, CollisionEnumerator::next"]}
{"id": "C12", "title": "Shortening the prefix neither repeats nor loses collisions", "statement": "When the search moves to a shorter prefix, the pairs reported for a repetition at the shorter prefix are exactly those that collide at the shorter prefix and did not collide at the longer one, provided that repetition had been run at the longer prefix; so over the whole history of a run every colliding pair of a completed repetition is reported exactly once.", "quantifier": "all repetition tables and all histories of prefix/repetition moves the control loop can make", "why_tests_cant": "a history property over all executions", "anchors": ["src/index.rs: CollisionEnumerator::next", "src/motiflets.rs: MotifletsIterator::update_graph, next_interruptible"]}
{"id": "C13", "title": "Collision profile", "statement": "The per-prefix collision estimate of a repetition is: at the full prefix the exact number of non-overlapping colliding pairs; at shorter prefixes the number of colliding pairs minus the number of trivial matches at the full prefix. It is never negative and never increases with the prefix length below the full prefix, so the internal sanity assertion cannot fail.", "quantifier": "all sorted tables and exclusion zones", "why_tests_cant": "assertion on every reachable table", "anchors": ["src/index.rs: LSHIndex::collision_profile_at"]}
{"id": "C14", "title": "Starting prefix is valid", "statement": "The first prefix the search uses is between 1 and 8 and is the longest one with at least one expected collision (or 1).", "quantifier": "all collision profiles", "why_tests_cant": "arbitrary floating-point profiles including infinities", "anchors": ["src/index.rs: IndexStats::first_meaningful_prefix"]}
{"id": "C15", "title": "Repetition budget fits in the given memory", "statement": "The maximum number of repetitions computed for a memory limit is the largest number whose table storage fits in the limit, but never less than the four (or fewer) repetitions already used for calibration.", "quantifier": "all series lengths, windows and memory limits", "why_tests_cant": "arithmetic over all sizes", "anchors": ["src/index.rs: IndexStats::new, LSHIndex::required_memory"]}
{"id": "C16", "title": "In-memory repetitions stay within half of the system memory", "statement": "The tables that an index keeps in main memory never need more than half of the system memory; tables beyond that are spilled to disk.", "quantifier": "all series lengths, memory sizes and repetition counts", "why_tests_cant": "needs machines with specific memory sizes", "anchors": ["src/index.rs: LSHIndex::from_ts, LSHIndex::add_repetitions"]}
{"id": "C17", "title": "The search never exceeds the repetition budget", "statement": "During a run the index never holds more repetitions than the maximum computed from the user's memory limit.", "quantifier": "all executions of the iterator", "why_tests_cant": "a safety property over all executions", "anchors": ["src/motiflets.rs: MotifletsIterator::next_interruptible", "src/index.rs: IndexStats::max_repetitions"]}
{"id": "C18", "title": "Extents are maximum pairwise distances", "statement": "For a list of positions, the i-th computed extent is the largest distance between any two of the first i+1 positions (0 for a single one); extents never decrease with i; the computation aborts exactly when some needed distance is not a number.", "quantifier": "all lists of positions of any length and all distance values", "why_tests_cant": "all lists, all distances", "anchors": ["src/knn.rs: compute_extents"]}
{"id": "C19", "title": "Brute-force motiflets are valid", "statement": "Every motiflet returned by the brute-force search for maximum support k has support between 2 and k, positions in range, positions pairwise non-overlapping, a finite extent equal to the largest pairwise distance, and supports come in strictly increasing order with non-decreasing extents.", "quantifier": "all series (all distance profiles), supports and exclusion zones", "why_tests_cant": "all inputs", "anchors": ["src/motiflets.rs: brute_force_motiflets, k_extents_bf"]}
{"id": "C20", "title": "Brute-force motiflets minimise the extent", "statement": "The motiflet returned for support s has the smallest extent among the greedy nearest-neighbourhoods of all positions, and a motiflet of support s is returned whenever such a neighbourhood with finite extent exists.", "quantifier": "all series, supports and exclusion zones", "why_tests_cant": "optimality over all inputs", "anchors": ["src/motiflets.rs: brute_force_motiflets, k_extents_bf"]}
{"id": "C21", "title": "Brute-force motiflets do not depend on the parallel schedule", "statement": "However the positions are split among worker threads and however partial results are combined, the returned motiflets are the same as those of the sequential left-to-right scan.", "quantifier": "all split trees (schedules)", "why_tests_cant": "schedules cannot be enumerated by tests", "anchors": ["src/motiflets.rs: brute_force_motiflets (fold/reduce)"]}
{"id": "C22", "title": "Brute-force motiflets work on series with flat windows", "statement": "The brute-force search returns (does not abort) on every series with at least one pair of non-overlapping non-flat windows, simply ignoring flat windows.", "quantifier": "all series", "why_tests_cant": "needs adversarial series", "anchors": ["src/motiflets.rs: k_extents_bf", "src/knn.rs: Ord for Distance", "src/timeseries.rs: distance_profile"]}
{"id": "C23", "title": "Brute force sees exact repeats", "statement": "A window that is at distance 0 from the query window and does not overlap it is considered as a neighbour by the brute-force search.", "quantifier": "all distance profiles and all orders an unstable sort may produce", "why_tests_cant": "depends on the tie order of an unstable sort", "anchors": ["src/motiflets.rs: k_extents_bf"]}
{"id": "C24", "title": "Brute-force motifs: the first one is the closest pair", "statement": "The first motif returned by the brute-force motif search is a closest pair of non-overlapping windows; returned motifs come in non-decreasing distance order and are pairwise non-overlapping; at most k are returned.", "quantifier": "all distance profiles, k and exclusion zones", "why_tests_cant": "optimality over all inputs", "anchors": ["src/motifs.rs: brute_force_motifs, nearest_neighbor_bf"]}
{"id": "C25", "title": "Brute-force motifs are the top-k over all pairs", "statement": "The k motifs returned are those obtained by repeatedly taking the closest pair of windows not overlapping the ones already taken.", "quantifier": "all distance profiles, k and exclusion zones", "why_tests_cant": "universal optimality claim", "anchors": ["src/motifs.rs: brute_force_motifs"]}
{"id": "C26", "title": "Brute-force motifs are real pairs", "statement": "Every motif returned by the brute-force motif search is a pair of two non-overlapping windows at finite distance.", "quantifier": "all distance profiles, k and exclusion zones", "why_tests_cant": "needs adversarial sizes", "anchors": ["src/motifs.rs: brute_force_motifs, nearest_neighbor_bf"]}
{"id": "C27", "title": "Candidate queue is bounded, ordered and never aborts", "statement": "For every sequence of insertions and emissions with non-NaN extents, the candidate queue of a support keeps its candidates in strictly increasing extent order, never holds more than (k+1)^2 of them, and never fails its internal assertion.", "quantifier": "all histories of insertions and emissions", "why_tests_cant": "all histories", "anchors": ["src/motiflets.rs: TopK::insert, TopK::cleanup, TopK::emit"]}
{"id": "C28", "title": "At most top_k motiflets per support, pairwise non-overlapping", "statement": "Over the whole life of an iterator, for each support at most top_k motiflets are returned, no two of them overlap, and none is returned twice.", "quantifier": "all histories of insertions and emissions", "why_tests_cant": "all histories, including ties in the extents", "anchors": ["src/motiflets.rs: TopK::emit, TopK::insert, Ord for Motiflet"]}
{"id": "C29", "title": "Pruning candidates does not change the answer", "statement": "Discarding candidates from a full queue never changes the top-k answer: the k best pairwise non-overlapping candidates among those kept are the k best pairwise non-overlapping candidates among all those inserted.", "quantifier": "all histories of insertions", "why_tests_cant": "needs crafted overlap patterns", "anchors": ["src/motiflets.rs: TopK::cleanup, TopK::kth_distance"]}
{"id": "C30", "title": "The next distance to confirm belongs to a candidate not yet returned", "statement": "The smallest-non-emitted distance reported for a support after an emission is the extent of the best queued candidate that does not overlap anything returned so far, and is absent when there is none.", "quantifier": "all histories of insertions and emissions", "why_tests_cant": "stale-state property over histories", "anchors": ["src/motiflets.rs: TopK::smallest_non_emitted_distance, TopK::emit"]}
{"id": "C31", "title": "Motif buffer: insertion never aborts", "statement": "Inserting any finite number of motifs (with comparable distances) into the public motif top-k buffer succeeds.", "quantifier": "all insertion sequences", "why_tests_cant": "all histories", "anchors": ["src/motifs.rs: TopK::insert, TopK::cleanup"]}
{"id": "C32", "title": "Motif buffer: the reported motifs are sorted, disjoint and contain the k-th", "statement": "The motifs reported by the buffer are in non-decreasing distance order and pairwise non-overlapping, start with a motif of minimum distance among all inserted ones, and when at least k are available the k-th accessor returns the k-th of them.", "quantifier": "all insertion sequences", "why_tests_cant": "all histories", "anchors": ["src/motifs.rs: TopK::to_vec, TopK::k_th, update_non_overlapping, first_not_confirmed"]}
{"id": "C33", "title": "Neighbourhoods read from the graph are valid", "statement": "Each neighbourhood reported by the neighbour graph starts with its own node at distance 0, has at most k nodes, has pairwise non-overlapping nodes, non-decreasing distances, and each other node was inserted as an edge of the node with that distance; it is the greedy nearest selection: a recorded neighbour is left out only if it overlaps a listed node at no larger distance or the list is full.", "quantifier": "all histories of edge insertions, flag resets and reads", "why_tests_cant": "all histories", "anchors": ["src/graph.rs: AdjacencyGraph::insert, remove_duplicates, neighborhoods"]}
{"id": "C34", "title": "Neighbourhoods are reported when they change, and only then", "statement": "After new edges are inserted a node's neighbourhood is reported if and only if a newly inserted neighbour appears in it; re-inserting known edges does not make it reported again.", "quantifier": "all histories of edge insertions, flag resets and reads", "why_tests_cant": "all histories; duplicates with ties", "anchors": ["src/graph.rs: DistanceWithFlag, AdjacencyGraph::neighborhoods, remove_duplicates"]}
{"id": "C35", "title": "Every motiflet returned by the iterator is valid", "statement": "Every motiflet returned by the LSH-based iterator has support between 2 and the requested maximum, positions inside the series, pairwise non-overlapping positions, windows that are all in the index (so none of them is flat), and an extent equal to the maximum pairwise distance of its positions (the sampled seed pair aside, whose extent is its sampled distance).", "quantifier": "all series, hash tables, sampling coins, probability oracles and executions", "why_tests_cant": "all executions of a randomised loop", "anchors": ["src/motiflets.rs: MotifletsIterator::next_interruptible, update_graph, emit_confirmed"]}
{"id": "C36", "title": "The iterator returns motiflets best first", "statement": "Motiflets of the same support are returned by the iterator in non-decreasing extent order.", "quantifier": "all executions", "why_tests_cant": "all executions", "anchors": ["src/motiflets.rs: MotifletsIterator::next_interruptible (to_return.pop), TopK::emit"]}
{"id": "C37", "title": "Interrupting and resuming loses nothing", "statement": "If the callback interrupts a call, calling again continues as if it had not been interrupted: the sequence of motiflets eventually returned is the same as without interruptions, for every pattern of interruptions.", "quantifier": "all interruption patterns and all executions", "why_tests_cant": "every interruption point", "anchors": ["src/motiflets.rs: MotifletsIterator::next_interruptible"]}
{"id": "C38", "title": "The iterator is fused", "statement": "After the iterator reports exhaustion it reports exhaustion forever.", "quantifier": "all executions", "why_tests_cant": "all executions", "anchors": ["src/motiflets.rs: MotifletsIterator::next_interruptible, Iterator::next"]}
{"id": "C39", "title": "Stopping on too many collisions", "statement": "When stopping on the collision threshold is enabled and the number of evaluated pairs exceeds it, the iterator returns the best pairwise non-overlapping candidates found so far (up to top_k per support) and then ends.", "quantifier": "all states of a run", "why_tests_cant": "all states", "anchors": ["src/motiflets.rs: next_interruptible (collisions_threshold branch)"]}
{"id": "C40", "title": "The control loop never aborts", "statement": "For every sequence of confirmations and cost estimates, the main loop keeps the prefix between 1 and 8, only reads repetitions that exist, only reads hash bytes that were computed, and never fails an assertion or goes out of bounds.", "quantifier": "all cost oracles and all executions", "why_tests_cant": "all executions", "anchors": ["src/motiflets.rs: next_interruptible", "src/index.rs: LSHIndex::add_repetitions, Hasher::hash"]}
{"id": "C41", "title": "The iterator terminates", "statement": "Iterating to exhaustion terminates for every input series.", "quantifier": "all inputs and executions", "why_tests_cant": "termination", "anchors": ["src/motiflets.rs: next_interruptible", "src/index.rs: LSHIndex::from_ts"]}
{"id": "C42", "title": "Failure probability is a probability, monotone in work and distance", "statement": "The failure probability lies in [0,1], does not increase with the number of repetitions done, does not decrease with the distance, and so a confirmed distance confirms every smaller distance; the number of repetitions charged for confirming a distance suffices.", "quantifier": "all collision probabilities, prefixes, repetition counts and previous-prefix histories", "why_tests_cant": "real-valued parameters", "anchors": ["src/index.rs: LSHIndex::failure_probability, IndexStats::costs_to_confirm"]}
{"id": "C43", "title": "Failure probability is the probability of missing the pair", "statement": "If each byte of each repetition collides independently with probability p, the failure probability is exactly the probability that the pair has collided neither in the repetitions done at the current prefix nor in the remaining repetitions done at the previous, longer prefix.", "quantifier": "all p in [0,1], prefixes and repetition counts", "why_tests_cant": "a statement about a probability space", "anchors": ["src/index.rs: LSHIndex::failure_probability"]}
{"id": "C44", "title": "Collision probability formula", "statement": "With an exact normal distribution function, the collision probability at distance d > 0 and width r > 0 lies strictly between 0 and 1 and strictly decreases with the distance.", "quantifier": "all positive distances and widths", "why_tests_cant": "real analysis", "anchors": ["src/index.rs: Hasher::collision_probability_at", "src/stats/mod.rs: Normal::cdf"]}
{"id": "C45", "title": "Rolling statistics equal their definition", "statement": "In exact arithmetic the fast rolling mean and standard deviation of every window equal the mean and (population) standard deviation of that window, for every series length including those split in several chunks; the fast and the precise mode agree.", "quantifier": "all series and window lengths", "why_tests_cant": "incremental recurrences over any length", "anchors": ["src/timeseries.rs: rolling_stat, _rolling_stat, rolling_stat_slow, WindowedTimeseries::new"]}
{"id": "C46", "title": "z-normalised distance", "statement": "In exact arithmetic the distance between two non-flat windows is the Euclidean distance of their z-normalised values; it is symmetric, non-negative, zero on identical windows, satisfies the triangle inequality, never exceeds twice the square root of the window length, and does not change if a positive scale and an offset are applied to the series.", "quantifier": "all series, windows and positions", "why_tests_cant": "universal algebraic identity", "anchors": ["src/distance.rs: zeucl, zdot, zeucl_slow", "src/timeseries.rs: znormalized, maximum_distance"]}
{"id": "C47", "title": "Early-exit distance", "statement": "The distance with early exit returns the distance when it does not exceed the (non-negative or infinite) threshold and nothing otherwise, whatever the order in which the terms are accumulated; a negative threshold acts like its absolute value.", "quantifier": "all windows, thresholds and window lengths (multiple of four or not)", "why_tests_cant": "every length and threshold", "anchors": ["src/distance.rs: zeucl_threshold"]}
{"id": "C48", "title": "Chunked SIMD dot products", "statement": "In exact arithmetic the lane-chunked dot product and centred dot product equal the plain sums over all positions, for vectors of every length.", "quantifier": "all vectors of all lengths", "why_tests_cant": "every length modulo the lane count", "anchors": ["src/distance.rs: dot, zdot, norm"]}
{"id": "C49", "title": "Sliding dot product covers every window", "statement": "In exact arithmetic the FFT-based sliding dot product writes, exactly once for each subsequence position, the dot product of the query with that window, for every series length, window length and number of chunks.", "quantifier": "all series, windows and queries", "why_tests_cant": "overlap-save indexing for every length combination", "anchors": ["src/timeseries.rs: FFTData::new, sliding_dot_product_for_each, sliding_dot_product_write"]}
{"id": "C50", "title": "FFT preprocessing terminates", "statement": "Preparing the FFT data terminates for every series and every window not longer than the series.", "quantifier": "all lengths", "why_tests_cant": "termination for every length", "anchors": ["src/timeseries.rs: FFTData::new"]}
{"id": "C51", "title": "Every window is considered", "statement": "The number of subsequences of a series of length n with window w is the number of windows of length w in it, so the last window is considered too.", "quantifier": "all lengths", "why_tests_cant": "off-by-one for all lengths", "anchors": ["src/timeseries.rs: WindowedTimeseries::num_subsequences"]}
{"id": "C52", "title": "Distance profile", "statement": "In exact arithmetic the distance profile of a non-flat window gives for every position the distance to that window (0 at the window itself, not-a-number at flat windows).", "quantifier": "all series, windows and positions", "why_tests_cant": "all series", "anchors": ["src/timeseries.rs: distance_profile, znormalized_sliding_dot_product"]}
{"id": "C53", "title": "Distance sampling terminates", "statement": "Computing the average pairwise distance terminates on every series accepted by the constructor.", "quantifier": "all series and all random streams", "why_tests_cant": "termination over all random streams", "anchors": ["src/timeseries.rs: average_pairwise_distance"]}
{"id": "C54", "title": "Seed pair for support two", "statement": "When the series has at least twice the exclusion zone subsequences, every sampled position has a non-overlapping partner, the sampling does not abort, and the seed pair it yields is an ordered, non-overlapping, in-range pair whose distance is the smallest seen.", "quantifier": "all distance profiles and sample streams", "why_tests_cant": "all streams", "anchors": ["src/timeseries.rs: nearest_neighbor_distance_stats", "pyattimo/src/lib.rs: MotifletsIterator::new"]}
{"id": "C55", "title": "Loading a series", "statement": "Loading returns the numbers of the file in order, skipping blank lines; an unparsable line is an error; with a limit the result is what one would get from the first `limit` values of the full file.", "quantifier": "all files and limits", "why_tests_cant": "all files", "anchors": ["src/load.rs: load_from"]}
{"id": "C56", "title": "Parsing memory sizes", "statement": "A memory size is an integer optionally followed by k/m/g and b/bytes in any letter case and denotes the corresponding number of bytes; any other text is rejected with an error rather than an abort.", "quantifier": "all strings", "why_tests_cant": "all strings", "anchors": ["src/allocator.rs: FromStr for Bytes"]}
{"id": "C57", "title": "Allocation counter", "statement": "Whenever no allocation or deallocation is in progress the counter equals the number of bytes currently allocated, and it never wraps below zero, for every interleaving of threads.", "quantifier": "all interleavings of allocations and deallocations by any number of threads", "why_tests_cant": "all interleavings", "anchors": ["src/allocator.rs: CountingAllocator, allocated"]}
{"id": "C58", "title": "Memory gauge", "statement": "A memory gauge reports the variation in allocated bytes since its creation and never aborts.", "quantifier": "all histories of allocations", "why_tests_cant": "all histories", "anchors": ["src/allocator.rs: MemoryGauge::measure, Sub for Bytes"]}
{"id": "C59", "title": "Small series give top_k motiflets too", "statement": "The Python iterators return up to top_k motiflets per support also when the series is small enough to be solved by brute force.", "quantifier": "all small series and all top_k", "why_tests_cant": "API contract over all parameters", "anchors": ["pyattimo/src/lib.rs: MotifletsIterator::new (BruteForce)"]}
{"id": "C60", "title": "Python brute-force iterator protocol", "statement": "On small series the Python iterator yields each precomputed motiflet once, in order, then signals the end forever.", "quantifier": "all result lists and call counts", "why_tests_cant": "all call sequences", "anchors": ["pyattimo/src/lib.rs: MotifletsIterator::next"]}
{"id": "C61", "title": "Accessing and plotting results stays in bounds", "statement": "The raw and z-normalised values of every position of a returned motiflet are windows of exactly w values inside the series, and when the series is downsampled for plotting every marker still falls inside the plotted series and marks the sample that represents it.", "quantifier": "all series lengths, windows and valid positions", "why_tests_cant": "arithmetic over all lengths", "anchors": ["pyattimo/src/lib.rs: KMotiflet::values, plot", "src/timeseries.rs: subsequence, znormalized"]}
{"id": "C62", "title": "Motiflets of support two convert to motifs", "statement": "Converting a motiflet to a motif succeeds iff its support is 2, and then the motif holds the same two positions in increasing order and the same distance and relative contrast.", "quantifier": "all motiflets", "why_tests_cant": "all motiflets", "anchors": ["src/motifs.rs: TryFrom<Motiflet> for Motif", "pyattimo/src/lib.rs: TryFrom<KMotiflet> for Motif"]}
{"id": "C63", "title": "Quantised projections", "statement": "Equal projections give equal hash bytes; two projections that are inside the representable range and get equal hash bytes differ by less than twice the quantisation width; projections outside the representable range are clipped to the extreme buckets so that far apart projections of opposite sign never share a byte.", "quantifier": "all real projections, shifts and widths", "why_tests_cant": "real-valued parameters", "anchors": ["src/index.rs: Hasher::hash"]}
{"id": "C64", "title": "Polynomial evaluation", "statement": "Evaluating a coefficient list at z gives the sum of coefficient times power of z, for every list, 0 for the empty one.", "quantifier": "all coefficient lists and points", "why_tests_cant": "all lists", "anchors": ["src/stats/evaluate.rs: polynomial"]}
{"id": "C65", "title": "Distance with embedded flag", "statement": "Storing the 'new edge' flag in the sign of a distance loses neither: distance and flag read back as written, also for distance zero; ordering is by distance first and, at equal distance, old before new.", "quantifier": "all non-negative 64-bit floats including both zeros and infinity", "why_tests_cant": "all floats", "anchors": ["src/graph.rs: DistanceWithFlag"]}
{"id": "C66", "title": "Spilled repetitions leave nothing behind", "statement": "Dropping an index removes everything it created on disk.", "quantifier": "all histories of repetition creation and drop", "why_tests_cant": "all histories", "anchors": ["src/index.rs: Drop for Repetition, from_pairs_to_disk"]}
{"id": "C67", "title": "Every colliding pair is evaluated", "statement": "Each pair enumerated in a repetition has its distance computed and, if it is not larger than the current threshold, enters the neighbour graph.", "quantifier": "all executions", "why_tests_cant": "randomised sampling over all executions", "anchors": ["src/motiflets.rs: update_graph (coin)"]}
{"id": "C68", "title": "Graph edges are genuine", "statement": "Every edge that ever enters the neighbour graph joins two distinct, non-overlapping, in-range positions and carries their distance, although stale entries of the pair buffer are re-read on each batch.", "quantifier": "all executions, batch sizes and buffer contents", "why_tests_cant": "invariant over all executions", "anchors": ["src/motiflets.rs: update_graph (pairs_buffer)"]}
{"id": "C69", "title": "Observation log", "statement": "Each observation file starts with the header line and then contains one complete line per observation made while it was current, in order, for every interleaving of observing threads; switching files flushes the previous one.", "quantifier": "all interleavings of observations and resets", "why_tests_cant": "all interleavings", "anchors": ["src/observe.rs: Observer, reset_observer"]}
{"id": "C70", "title": "Calibration does not abort", "statement": "Computing the index statistics (the calibration made once before the search starts) returns for every collision profile; in particular it works on series with few collisions.", "quantifier": "all collision profiles", "why_tests_cant": "must hold for every series; only small or very diverse series reach the failing branch", "anchors": ["src/index.rs: IndexStats::new, LSHIndex::collisions"]}
{"id": "C71", "title": "Motif buffer: readers see confirmations and merges", "statement": "After motifs are confirmed through the buffer's visitor, the confirmed-motif readers see them as confirmed; the reader of the first unconfirmed motif returns an unconfirmed one; a buffer emptied into another one reports nothing.", "quantifier": "all sequences of insertions, confirmations, merges and reads", "why_tests_cant": "all histories; stale caches show only in particular orders of calls", "anchors": ["src/motifs.rs: TopK::for_each, last_confirmed, num_confirmed, first_not_confirmed, add_all"]}
{"id": "C72", "title": "No collision is evaluated twice by the search", "statement": "In a whole run of the iterator, whatever the confirmations, costs and interruptions, no pair of entries of a repetition is enumerated twice, so the number of evaluated candidates is at most the number of pairs of entries of the repetitions visited.", "quantifier": "all executions", "why_tests_cant": "all histories of prefix changes chosen by the cost model", "anchors": ["src/motiflets.rs: next_interruptible, update_graph", "src/index.rs: CollisionEnumerator::next"]}
{"id": "C73", "title": "Motiflets returned for a support are few and disjoint", "statement": "Over a whole run at most top_k motiflets of each support are returned and no two returned motiflets of the same support overlap.", "quantifier": "all executions", "why_tests_cant": "all histories", "anchors": ["src/motiflets.rs: TopK::emit, emit_confirmed, next_interruptible"]}
{"id": "C74", "title": "Iterating over motifs never fails in the conversion", "statement": "The Python iterator over motifs (support fixed to two) aborts, loops or returns exactly when the underlying motiflet iterator does: every item has exactly two positions, so the conversion to a motif succeeds.", "quantifier": "all series, parameters, thresholds of the brute-force path and histories of calls", "why_tests_cant": "all histories; the conversion is a runtime check on data produced elsewhere", "anchors": ["pyattimo/src/lib.rs: MotifsIterator, KMotiflet", "src/motiflets.rs: Motiflet"]}
{"id": "C75", "title": "Motiflets handed to Python are valid on either path", "statement": "Whichever path the Python iterator takes (brute force on small series or the index), every motiflet it yields has between 2 and the maximum support positions, all in range and pairwise non-overlapping, its extent is the maximum pairwise distance (or it is the seed pair with the seed's distance) and its relative contrast is the average distance divided by the extent.", "quantifier": "all series, parameters, thresholds and histories of calls", "why_tests_cant": "all histories, both paths", "anchors": ["pyattimo/src/lib.rs: MotifletsIterator, KMotiflet", "src/motiflets.rs: next_interruptible, brute_force_motiflets"]}
{"id": "C76", "title": "Hash values of all windows", "statement": "Hashing a series gives one entry per window: for a window that can be z-normalised each byte is the quantised projection on the corresponding random vector and the identifier is the window's position; any other window gets the largest hash value and identifier. The table of a repetition is sorted by hash value and holds each window exactly once, and the tables meet the requirements of the search.", "quantifier": "all series, window lengths, random vectors, shifts, widths and orders chosen by the unstable sort among equal values", "why_tests_cant": "real-valued inputs, all series", "anchors": ["src/index.rs: Hasher::hash, LSHIndex::from_ts, Repetition", "src/timeseries.rs: znormalized_sliding_dot_product_write"]}
{"id": "C77", "title": "Scaled and shifted copies always collide", "statement": "Two windows that are equal up to a positive scale and an offset get the same hash value in every repetition, hence, if they are not trivial matches and do not fall in the group of the largest hash value, every enumeration at any prefix length reports them.", "quantifier": "all series, pairs of windows, hash functions and prefix lengths", "why_tests_cant": "all series and random choices", "anchors": ["src/index.rs: Hasher::hash, CollisionEnumerator::next"]}
{"id": "C78", "title": "The first quantisation width", "statement": "The width computed from the data aborts only when no window can be z-normalised; otherwise it is not negative, the projections of at least 98 in 100 of the windows (between the two percentiles) are at most 128 widths from 0, and it is not wider than needed: some window is exactly that far.", "quantifier": "all series, projection vectors and sorts", "why_tests_cant": "real-valued inputs, all series", "anchors": ["src/index.rs: Hasher::compute_width"]}
{"id": "C79", "title": "Widening of the quantisation width", "statement": "Building the index ends, and the width it uses is the first one, among the initial one and its doublings, for which the estimated number of collisions of the first repetition at the longest prefix is positive.", "quantifier": "all series, random choices, initial widths and sorts", "why_tests_cant": "termination for every input", "anchors": ["src/index.rs: LSHIndex::from_ts"]}
{"id": "C80", "title": "Left out of the index and reported as flat are the same thing", "statement": "A window is left out of the index (reserved hash value) exactly when the series reports it as flat.", "quantifier": "all series, windows and hash functions", "why_tests_cant": "the two tests differ on a single real value", "anchors": ["src/timeseries.rs: is_flat, znormalized_sliding_dot_product_write", "src/index.rs: Hasher::hash"]}
{"id": "C81", "title": "Estimated number of collisions", "statement": "The estimate always comes out and is at least the number of collisions that are not trivial matches, outside of the group of the largest hash value; it is exactly that number unless more than the square root of the number of windows share a prefix, and in that case it is positive.", "quantifier": "all tables, prefix lengths and exclusion zones", "why_tests_cant": "all tables", "anchors": ["src/index.rs: CollisionEnumerator::estimate_num_collisions"]}
{"id": "C82", "title": "Motiflets are returned only when confirmed", "statement": "Every motiflet returned by the iterator was, when it was emitted, confirmed: the failure probability computed for its extent, with the repetitions and prefix reached, was below the delta asked for; unless the search was stopped by the collision threshold, and then it is among the candidates held at that time.", "quantifier": "all problems, callbacks and states of a run", "why_tests_cant": "all histories", "anchors": ["src/motiflets.rs: emit_confirmed, next_interruptible, TopK::emit", "src/index.rs: LSHIndexStats, failure_probability"]}
{"id": "C83", "title": "No searched pair is closer than the pair returned", "statement": "With top_k 1 the pair of windows returned for support 2 is at most as far apart as any two non-overlapping windows that shared a hash prefix (outside of the group of the largest value) in one of the repetitions considered by the failure probability when it was emitted. So the only pairs that can be missed are those that never met, which is the event whose probability is bounded by delta.", "quantifier": "all problems, callbacks, tables, histories and pairs of windows", "why_tests_cant": "all histories and all random choices", "anchors": ["src/motiflets.rs: update_graph, emit_confirmed, TopK::k_th_distance, worth filter", "src/graph.rs: insert, neighborhoods"]}
{"id": "C84", "title": "No searched neighbourhood is tighter than the motiflet returned", "statement": "With top_k 1 the extent of a motiflet returned for a support is at most that of the greedy neighbourhood of the same size of any window, if the window shared a hash prefix with every other member in one of the repetitions considered by the failure probability (and has no two neighbours at the same distance).", "quantifier": "all problems, callbacks, tables, histories, windows and supports", "why_tests_cant": "all histories and all random choices", "anchors": ["src/motiflets.rs: update_graph, emit_confirmed, TopK::k_th_distance, worth filter", "src/graph.rs: insert, neighborhoods", "src/knn.rs: compute_extents"]}
{"id": "C85", "title": "Cut-off distance", "statement": "The distance used to discard pairs and neighbourhoods is, for each support, the extent of the last of the top_k best pairwise non-overlapping candidates held, and there is no cut-off when there are fewer than top_k of them.", "quantifier": "all histories of insertions, emissions and disabling of a queue", "why_tests_cant": "all histories", "anchors": ["src/motiflets.rs: TopK::k_th_distance"]}
{"id": "C86", "title": "Exact repeats are found", "statement": "If two non-overlapping windows are equal up to a positive scale and an offset, and are not flat or in the group of the largest hash value, then the pair returned for support 2 is never farther apart than these two windows, whatever the random choices made for hashing.", "quantifier": "all series, window lengths, pairs of equal windows, hash functions, callbacks and histories", "why_tests_cant": "all series and all random choices", "anchors": ["src/index.rs: Hasher::hash, LSHIndex::add_repetitions, CollisionEnumerator", "src/motiflets.rs: update_graph, emit_confirmed"]}
{"id": "C87", "title": "Nothing confirmed is held back", "statement": "After a turn of the search, a candidate that overlaps none of those already emitted for its support is still held only if it, or a candidate at least as good, is not confirmed yet.", "quantifier": "all problems, states of a run, supports and candidates", "why_tests_cant": "all histories", "anchors": ["src/motiflets.rs: emit_confirmed, TopK::emit"]}
{"id": "C88", "title": "When the search moves to a shorter prefix", "statement": "Each turn of the search either goes on with the next repetition or starts again at a prefix shorter by one. It does the latter exactly when the repetitions owed at this prefix are done, some distance is still to be confirmed, and some shorter prefix is estimated to confirm it at a cost that is not higher and within the repetition budget. Repetitions are computed one at a time, only when the search gets to them.", "quantifier": "all problems, cost estimates and states of a run", "why_tests_cant": "all histories and estimates", "anchors": ["src/motiflets.rs: next_interruptible", "src/index.rs: LSHIndexStats::costs_to_confirm"]}
{"id": "C89", "title": "Accuracy of the error function", "statement": "In exact arithmetic the error function and its complement, as computed by rational approximations on fourteen intervals, are within 3.3e-10 of the integral for every argument, and within 3e-13 times the argument below 1/2. The computed function is odd, the two add up to 1, both stay in their ranges, and the normal distribution function built on them is within 1.65e-10 of the normal distribution.", "quantifier": "all real arguments", "why_tests_cant": "all real arguments", "anchors": ["src/stats/erf.rs: erf, erfc, erf_impl", "src/stats/evaluate.rs: polynomial", "src/stats/mod.rs: Normal::cdf, cdf_unchecked"]}
{"id": "C90", "title": "Accuracy of the probabilities used for confirming", "statement": "With the computed error function, the collision probability is strictly between 0 and 1 for positive distances and within 3.3e-10 of the exact one. The computed failure probability is between 0 and 1, and is off by at most 3.3e-10 for each comparison of bytes it is about. So a pair at a confirmed distance has escaped the repetitions considered with probability below delta plus that error.", "quantifier": "all widths, distances, repetitions, prefixes and earlier visits", "why_tests_cant": "all real arguments and all histories", "anchors": ["src/index.rs: Hasher::collision_probability_at, LSHIndex::failure_probability", "src/stats/erf.rs: erfc"]}
{"id": "C91", "title": "Supports that do not fit are refused", "statement": "The Python iterators refuse, before any search, a support for which the series has fewer windows than support times the exclusion zone. If they accept, there is room for that many windows without overlaps.", "quantifier": "all series, supports, exclusion zones and other parameters", "why_tests_cant": "all parameters", "anchors": ["pyattimo/src/lib.rs: MotifletsIterator::new"]}
{"id": "C92", "title": "Computed distances are symmetric and never NaN or negative", "statement": "As computed in floating point, the distance between two windows is the same bit for bit in either order, 0.0 between a window and itself, and never NaN or negative. The call aborts exactly if the normalised dot product is NaN, or exceeds the window length while the distance computed term by term is NaN.", "quantifier": "all series of floating point values, all pairs of windows, infinities and NaN included", "why_tests_cant": "all floating point inputs", "anchors": ["src/distance.rs: zeucl, zeucl_slow, zdot"]}
{"id": "C93", "title": "A threshold only rejects", "statement": "As computed in floating point, asking for a distance with a threshold gives either the value computed without one or a rejection, and which of the two depends only on comparing the rounded square of the threshold. A rejected pair is at least as far apart as the threshold. No minus sign is ever returned.", "quantifier": "all series of floating point values, all pairs of windows, all thresholds", "why_tests_cant": "all floating point inputs", "anchors": ["src/distance.rs: zeucl_threshold"]}
{"id": "C94", "title": "Series of moderate data can always be prepared", "statement": "If all values are finite and at most 2^200 in absolute value, preparing a series does not abort, in either mode and however long the series is. Every mean and every standard deviation is finite and no standard deviation is negative, in spite of rounding.", "quantifier": "all lists of floating point values of that size, all window lengths up to 2^52", "why_tests_cant": "all floating point inputs and lengths", "anchors": ["src/timeseries.rs: WindowedTimeseries::new, rolling_stat, rolling_stat_slow"]}
{"id": "C95", "title": "Distances of moderate data are finite", "statement": "For such a series, both ways to compute a distance return a finite number that is not negative, for every two windows that are not flat. So a search that indexes only windows that are not flat meets the assumptions on distances of the properties about searches.", "quantifier": "all lists of floating point values of moderate size, all window lengths up to 2^52, all pairs of windows that are not flat", "why_tests_cant": "all floating point inputs", "anchors": ["src/distance.rs: zeucl, zeucl_threshold", "src/timeseries.rs: WindowedTimeseries::new, is_flat"]}
{"id": "C96", "title": "Copies are at distance 0", "statement": "Two windows that hold the same values are at computed distance 0.0, in either mode and with or without a threshold.", "quantifier": "all lists of floating point values of moderate size, all window lengths up to 2^52, all pairs of equal windows that are not flat", "why_tests_cant": "all floating point inputs", "anchors": ["src/distance.rs: zeucl, zeucl_threshold", "src/timeseries.rs: WindowedTimeseries::new"]}
{"id": "C97", "title": "Accuracy of the statistics in precise mode", "statement": "In precise mode, the recorded mean and standard deviation of a window of w values are within (w+5) 2^-54 and (w+6) 2^-51 times M of the exact ones, for every power of two M that is at least as large as the values in that window.", "quantifier": "all lists of floating point values of moderate size, all window lengths up to 2^52, all windows", "why_tests_cant": "all floating point inputs and lengths", "anchors": ["src/timeseries.rs: WindowedTimeseries::new, rolling_stat_slow"]}
{"id": "C98", "title": "Accuracy of the statistics in default mode", "statement": "The same in default mode, where statistics are updated from one window to the next.", "quantifier": "all lists of floating point values of moderate size, all window lengths up to 2^52, all windows", "why_tests_cant": "all floating point inputs and lengths", "anchors": ["src/timeseries.rs: WindowedTimeseries::new, rolling_stat"]}
{"id": "C99", "title": "Flat windows are recognised", "statement": "A window is treated as flat if its exact standard deviation is below 0.0001 by more than the error of the recorded one, and as not flat if it is above by more than that. The error is bounded explicitly for either mode.", "quantifier": "all lists of floating point values of moderate size, all window lengths up to 2^52, all windows, both modes", "why_tests_cant": "all floating point inputs and lengths", "anchors": ["src/timeseries.rs: WindowedTimeseries::is_flat, rolling_stat, rolling_stat_slow"]}
{"id": "C100", "title": "Accuracy of distances", "statement": "If the mean and standard deviation on record for two windows of w values have relative error eps, at most 1/64, the square of the distance computed by the dot product is within 10 w eps of the exact z-normalised one (which is at most 4 w), and the distance computed with a threshold is within 10 sqrt(w) eps of it. A pair is rejected only if its exact distance is above the threshold, or below by no more than that. An explicit eps is given for either mode, from the size of the values compared to the standard deviation.", "quantifier": "all lists of floating point values of moderate size, all window lengths up to 2^52, all pairs of windows that are not flat, all thresholds, both modes", "why_tests_cant": "all floating point inputs and lengths", "anchors": ["src/distance.rs: zeucl, zeucl_slow, zdot, zeucl_threshold", "src/timeseries.rs: WindowedTimeseries::new, rolling_stat, rolling_stat_slow"]}
{"id": "C101", "title": "Accuracy of the extents reported", "statement": "For data of moderate size whose recorded statistics have relative error eps, at most 1/64, for every window that is not flat, the extent of every motiflet returned is a finite number, and its square is within 10 w eps of the square of the largest exact z-normalised distance between its windows of w values; if it is the pair found by sampling, within 10 w eps or within the error gap of the square of the sampled distance.", "quantifier": "all lists of floating point values of moderate size, all window lengths up to 2^52, all hash tables, sampling coins, probability oracles and executions", "why_tests_cant": "all floating point inputs and all executions of a randomised loop", "anchors": ["src/motiflets.rs: MotifletsIterator::next_interruptible, brute_force_motiflets", "src/distance.rs: zeucl", "src/timeseries.rs: WindowedTimeseries::new"]}
{"id": "C102", "title": "With rounding, what is returned is nearly the best of what was searched", "statement": "For the same data, with top_k 1 and no pair dropped by sampling, the exact distance D of the pair returned satisfies D^2 <= (D' + 20 sqrt(w) eps)^2 + 10 w eps + max(10 w eps, gap) for the exact distance D' of every pair searched until then. The same with 10 sqrt(w) eps for larger supports and the exact extent D' of any neighbourhood searched, by exact distances, of a window that has no two neighbours at nearly the same distance.", "quantifier": "all lists of floating point values of moderate size, all window lengths up to 2^52, all hash tables, probability oracles and executions", "why_tests_cant": "all floating point inputs and all executions of a randomised loop", "anchors": ["src/motiflets.rs: MotifletsIterator::next_interruptible, update_graph, emit_confirmed, brute_force_motiflets", "src/distance.rs: zeucl, zeucl_threshold", "src/graph.rs: Graph"]}
{"id": "C103", "title": "With rounding, a repeat is never missed", "statement": "If such data contain two windows without overlap, not flat, that are the same up to a positive scale and an offset, and whose hash value in the first table is not in the last bucket, then the exact distance D of the pair returned satisfies D^2 <= 400 w eps^2 + 10 w eps + max(10 w eps, gap), gap being the error of the square of the sampled distance, whatever the hash functions and whatever else the data contain.", "quantifier": "all lists of floating point values of moderate size, all window lengths up to 2^52, all hash functions, tables of further repetitions, probability oracles and executions", "why_tests_cant": "all floating point inputs, all hash functions and all executions of a randomised loop", "anchors": ["src/motiflets.rs: MotifletsIterator::next_interruptible", "src/index.rs: Hasher::hash, Repetition::from_ts", "src/distance.rs: zeucl, zeucl_threshold"]}
{"id": "C104", "title": "The collision probability is a lower bound", "statement": "For any two projections x and y and a shift drawn uniformly from [0, width), the probability that they get the same byte is between max(0, 1 - |x - y| / width) and 1, and it is that lower bound if both are between 0 and 126 widths. The collision probability the library computes for a distance d is exactly the average of that bound over a difference which is d times a standard normal number, so the probability of the same byte over shift and vector is at least the one computed.", "quantifier": "all positive widths, all projections, all positive distances, all ways one projection depends continuously on the difference", "why_tests_cant": "a statement about real integrals over all random choices", "anchors": ["src/index.rs: Hasher::new, Hasher::hash, Hasher::collision_probability_at"]}
{"id": "C105", "title": "Projections differ by a normal number with the distance as deviation", "statement": "The difference of the projections of two windows on a vector of independent standard normal numbers is the sum of these numbers times the differences of the z-normalised values. Its density is the normal density with mean 0 whose standard deviation is the z-normalised Euclidean distance of the windows, whatever their length.", "quantifier": "all pairs of real vectors of the same length at positive distance", "why_tests_cant": "a statement about densities of sums of any number of random numbers", "anchors": ["src/index.rs: Hasher::sample_vec, Hasher::hash, Hasher::collision_probability_at"]}
{"id": "C106", "title": "How likely a farther pair is returned", "statement": "Suppose the bytes of the hash values of two windows at distance D are equal independently of each other, with at least the collision probability computed for that distance, and the failure probability computed is the one for that distance up to an accuracy. For top_k 1, no dropped pair and no threshold on collisions, a search with at most n repetitions returns a pair farther apart than D with probability at most (8 + 7 n) delta, however its schedule depends on the random choices, and at most delta if the schedule does not depend on them.", "quantifier": "all numbers of repetitions, all pairs of windows, all ways in which the rest of the search depends on the random choices, all sessions, all events under which a farther pair is returned", "why_tests_cant": "a probability over all random choices of all executions of a randomised loop", "anchors": ["src/motiflets.rs: MotifletsIterator::next_interruptible, emit_confirmed", "src/index.rs: LSHIndex::failure_probability, LSHIndex::collision_probability_at"]}
{"id": "C107", "title": "The output file says what was found", "statement": "Reading the CSV file written by the command-line program back gives, in order, for every motiflet found the printed extent and exactly its positions; so two runs that wrote the same file found the same motiflets.", "quantifier": "all lists of motiflets with at least one position, all ways of printing extents without commas and newlines", "why_tests_cant": "a round trip over all lists of lists of numbers", "anchors": ["src/main.rs: output_csv"]}
{"id": "C108", "title": "Every line of the output file is a valid motiflet", "statement": "Whenever the command-line program ends with an output file, with or without --exact, every line of it has between 2 and --support positions, all windows of the series, at least half a window length apart, and an extent that is their largest distance (or the line is the pair found by sampling, with the distance found there).", "quantifier": "all series, options, memory sizes and machine memories, splits between threads", "why_tests_cant": "holds for every run of a search of unbounded length", "anchors": ["src/main.rs: main, output_csv", "src/motiflets.rs: brute_force_motiflets, MotifletsIterator"]}
{"id": "C109", "title": "As many motiflets as asked for", "statement": "The output file has exactly --topk motiflets of each support from 2 to --support.", "quantifier": "all series, options and runs that end", "why_tests_cant": "holds for every run of a search of unbounded length", "anchors": ["src/main.rs: main", "src/motiflets.rs: brute_force_motiflets, MotifletsIterator::next_interruptible"]}
{"id": "C110", "title": "The program ends and writes its output", "statement": "The command-line program ends with an output file for every series and every support.", "quantifier": "all series and options", "why_tests_cant": "termination for every input", "anchors": ["src/main.rs: main, output_csv", "src/motiflets.rs: MotifletsIterator::next_interruptible"]}
{"id": "C111", "title": "Dot products and norms are accurate", "statement": "The dot product of two sequences of n values is within (n + 10) 2^-52 times the dot product of their absolute values (plus an underflow term) of the exact one, does not depend on the order of its arguments, and the Euclidean norm is a number not below 0 with a relative error of at most (n + 12) 2^-52.", "quantifier": "all pairs of sequences of the same length, values of absolute value at most 2^400, at most 2^48 values", "why_tests_cant": "an error bound over all floating-point inputs", "anchors": ["src/distance.rs: dot, norm"]}
{"id": "C112", "title": "Printed memory sizes are accurate and readable", "statement": "A memory size is printed in the largest unit not above it, with two decimals, at most half a hundredth of the unit away (sizes from 2^53 bytes on are rounded to 53 bits before); sizes below 1024 bytes are printed exactly. A printed size is accepted as a value of the memory option and means the same size.", "quantifier": "all sizes below 2^64", "why_tests_cant": "every size, in particular those around the unit boundaries", "anchors": ["src/allocator.rs: Display for Bytes, FromStr for Bytes"]}
{"id": "C113", "title": "Neighbour graph statistics", "statement": "The statistics of the neighbour graph give the number of windows with at least one neighbour, the number of different neighbours summed over all windows, the largest number of neighbours of a window and the 16 bytes per entry they occupy, after any sequence of rounds of insertions and readings.", "quantifier": "all histories of rounds, all pairs inserted, repeated pairs included", "why_tests_cant": "duplicates are removed lazily, which depends on the whole history", "anchors": ["src/graph.rs: AdjacencyGraph::stats, GraphStats"]}
{"id": "C114", "title": "The failure probability in floating point", "statement": "The failure probability a search confirms its answers with, computed in floating point from the collision probability, is a number between 0 and 1, is off by at most 2^-54 for each rounding (about ten per repetition), and enough repetitions bring it below any bound, so that the search ends.", "quantifier": "all collision probabilities, prefixes, numbers of repetitions below 2^31 and bounds", "why_tests_cant": "error bounds and limits over all floating-point values and all numbers of repetitions", "anchors": ["src/index.rs: LSHIndex::failure_probability"]}
{"id": "C115", "title": "Windows of a series", "statement": "Window i of a series is the w values from position i; a window not wholly inside the series is refused, never shortened. Mean, standard deviation, z-normalised values and flatness are known for every window; the numbers of windows, flat windows and pairs of windows and the memory reported are exact.", "quantifier": "all series, window lengths, positions and sizes", "why_tests_cant": "bounds and counts for every length and position, including those at the end of the series and sizes whose products overflow", "anchors": ["src/timeseries.rs: WindowedTimeseries::subsequence, mean, sd, znormalized, is_flat, count_flat, num_subsequences, num_subsequence_pairs, memory, stats"]}
{"id": "C116", "title": "The limit on collisions", "statement": "The fraction of pairs given from Python becomes a limit on the pairs compared that is that fraction of the number of pairs, rounded down, and grows with the fraction; without the option the limit is a tenth. With a fraction of 1 a search is never stopped for having compared too many pairs.", "quantifier": "all series, all fractions between 0 and 1, all searches", "why_tests_cant": "rounding for every fraction and size; every history of a search", "anchors": ["pyattimo/src/lib.rs: MotifletsIterator::new", "src/motiflets.rs: MotifletsIterator::new, set_collision_threshold, next_interruptible"]}
{"id": "C117", "title": "Quantised projections in floating point", "statement": "With every operation rounded, the byte of a projection is the one exact arithmetic gives; projections with the same byte differ by less than twice the width, and projections less than a width apart are in the same bucket or in neighbouring ones, up to 2^-42 of the width. No projection, however large, makes the conversion fail.", "quantifier": "all projections, shifts and widths up to 2^1022, also if the division overflows", "why_tests_cant": "error bounds over all floating-point values, in particular those next to the boundaries of buckets", "anchors": ["src/index.rs: Hasher::hash"]}
{"id": "C118", "title": "What waits to be returned comes out in a fixed order", "statement": "All motiflets that are confirmed but not yet returned after a call, together with the one that call returns, are returned by the following calls by decreasing support and, within a support, by decreasing extent.", "quantifier": "all searches, all histories of calls, interrupted or not", "why_tests_cant": "several motiflets are confirmed at once only in some histories", "anchors": ["src/motiflets.rs: MotifletsIterator::next_interruptible"]}
{"id": "C119", "title": "Projections and hash values in floating point", "statement": "With every operation rounded, the projection of a z-normalised window on a vector is within a stated distance of the exact one; hashing never fails and gives each window its number and, for each vector, a byte of a number of buckets within a stated distance of the exact one, which is the exact byte unless the projection is close to the boundary of a bucket; windows whose normalised values are the same then have the same hash value. Flat windows get the reserved value.", "quantifier": "all series of moderate size, windows, vectors, shifts and widths, whatever the error of the dot products", "why_tests_cant": "error bounds over all floating-point values", "anchors": ["src/timeseries.rs: WindowedTimeseries::znormalized_sliding_dot_product, znormalized", "src/index.rs: Hasher::hash"]}
{"id": "C120", "title": "Distance profiles in floating point", "statement": "With every operation rounded, the distance profile of a window has an entry for each window: 0 for the window itself, NaN for flat ones, and otherwise a distance whose square is within a stated tolerance of the square of the exact one. No profile is refused.", "quantifier": "all series of moderate size, windows and errors of the dot products", "why_tests_cant": "error bounds over all floating-point values; whether the root of a negative number is taken depends on the last bit", "anchors": ["src/timeseries.rs: WindowedTimeseries::distance_profile"]}
{"id": "C121", "title": "Collision and failure probability in floating point", "statement": "With every operation rounded, the complementary error function is within 3.31e-10 of the integral; the collision probability of a distance is a number at most 1 and within 3.31e-10 + 2^-48 d/width of the exact one, 1 at distance 0, and at least 0 as long as the distance is below 2^20 widths; the failure probability computed from it is off by at most that much for each byte compared plus 2^-54 for each rounding; a confirmed distance has been met by random bytes with probability above 1 - delta, up to these errors. A search for one pair whose distances are below eight widths ends.", "quantifier": "all widths, distances, repetitions and prefixes; every exponential function within 2^-50 of the true one", "why_tests_cant": "error bounds over all floating-point values", "anchors": ["src/stats/erf.rs: erf_impl, erfc", "src/stats/evaluate.rs: polynomial", "src/stats/mod.rs: Normal::cdf", "src/index.rs: Hasher::collision_probability_at, failure_probability"]}
{"id": "C122", "title": "Memory sizes with decimal numbers", "statement": "A memory size made from a string is a decimal number, perhaps with an exponent, followed by nothing, Kb, Mb or Gb; it gives that number of bytes, to within one byte and a relative error of 2^-53, without error for numbers of at most 53 bits, and the largest size for larger ones. Any other text is an error, and on whole numbers both ways to read a size agree.", "quantifier": "all strings", "why_tests_cant": "all strings", "anchors": ["src/allocator.rs: TryFrom<String> for Bytes, FromStr for Bytes"]}
{"id": "C123", "title": "Decimal numbers in series files", "statement": "A file of decimal numbers, one per line with blank lines anywhere, is loaded as the nearest floating-point values, in the same order, each within one part in 2^53 of the number in the file.", "quantifier": "all files of decimal numbers of any length", "why_tests_cant": "all files", "anchors": ["src/load.rs: load_from"]}
{"id": "C124", "title": "The exact search is accurate in floating point", "statement": "With the distances and profiles rounded as the code rounds them, the exact (brute-force) search for motiflets returns, every extent is within rounding of the exact one of its positions, the pair returned is within rounding of a closest pair of windows, larger groups are within rounding of the neighbourhood of every window, and the first motif of the exact search for motifs is within rounding of a closest pair.", "quantifier": "all series without flat windows and with no two windows nearly at distance 0, all window lengths, all sorting orders, all ways of splitting the work, all errors of the FFT within a bound", "why_tests_cant": "The error depends on the values, the statistics and the FFT; tests compare few series, with exact copies or a loose tolerance.", "anchors": ["src/motiflets.rs: brute_force_motiflets, k_extents_bf", "src/motifs.rs: brute_force_motifs, nearest_neighbor_bf", "src/timeseries.rs: distance_profile", "src/distance.rs: zeucl", "src/knn.rs: compute_extents"]}
{"id": "C125", "title": "A repeat is found with rounded hash values", "statement": "With the hash values, the statistics and the distances all computed in floating point as the code does, two windows that are the same up to scale and offset are not missed: the pair returned is a repeat up to a stated rounding error. The windows of the repeat must not fall in the last bucket of the first table, and none of their eight projections may be within rounding of the border of a bucket; the shifts for which one is make up a share of at most twice the rounding error, measured in buckets, of those that can be drawn.", "quantifier": "all series of moderate size, window lengths, hash functions, errors of the FFT within a bound, seeds, callbacks and lengths of the run", "why_tests_cant": "The hash values depend on random vectors and on rounding; a test sees a few of them, and a repeat that is split by rounding is too rare to be seen.", "anchors": ["src/index.rs: Hasher::hash, LSHIndex::add_repetitions, Repetition::from_pairs", "src/motiflets.rs: MotifletsIterator", "src/timeseries.rs: znormalized_sliding_dot_product_write"]}
{"id": "C126", "title": "The quantisation width in floating point", "statement": "With every operation rounded, the first width covers the projections of all but about 2% of the windows, up to the stated rounding error, and is not wider than needed. The search for a width then always ends: it returns the first of the width and its exact doublings for which collisions are estimated, or aborts when the width overflows. It returns whenever a window is flat and two others are not trivial matches; for a straight line it aborts, so it is not true that it always returns.", "quantifier": "all series of moderate size, window lengths, initial widths, vectors, shifts, sorts and errors of the FFT within a bound", "why_tests_cant": "Termination and the overflow depend on every doubling up to the largest number; a test sees the few widths its data needs.", "anchors": ["src/index.rs: Hasher::compute_width, Hasher::new, LSHIndex::from_ts"]}
{"id": "C127", "title": "A whole search in floating point", "statement": "A search whose statistics, distances, hash values, tables and failure probabilities are all computed with rounding, from a series of moderate size, never aborts on its way to an answer and keeps what is promised: every table is sorted and has an entry for each window, flat windows are in none; every motiflet returned has between two and max_k windows that are not flat and do not overlap, and its extent is the largest exact distance between them up to a stated rounding error; it is returned only when its exact failure probability is below delta plus a stated error, or when the search is cut short; and an exact repeat in the series is not missed.", "quantifier": "all series of moderate size with no standard deviation exactly at the limit for flat windows, window lengths, hash functions, sorts, errors of the FFT, configurations, seeds, callbacks and lengths of the run", "why_tests_cant": "It joins the rounding of six stages with all executions of a randomised loop; no test sees more than one of either.", "anchors": ["src/motiflets.rs: MotifletsIterator::new, next_interruptible", "src/index.rs: LSHIndex::from_ts, add_repetitions, failure_probability, Hasher::hash", "src/distance.rs: zeucl, zeucl_threshold", "src/timeseries.rs: WindowedTimeseries::new"]}
{"id": "C128", "title": "The seed pair in floating point", "statement": "When the sampling that starts a search returns, with profiles and comparisons rounded as the code rounds them, it has used as many windows that are not flat as wanted. Either none of them has a partner that is not flat and does not overlap it, and there is no pair; or the pair it gives does not overlap, is not flat, has one window that was drawn, comes with their exact distance up to a stated error, and no drawn window has a partner nearer than that, up to the same error. The motiflets returned by a search started so are valid, with extents exact up to the stated errors. It returns once enough windows have been drawn, unless a drawn window is within the rounding error of another one: then it may abort.", "quantifier": "all series of moderate size, window lengths, exclusion zones, draws, errors of the FFT within a bound, and lengths of the run", "why_tests_cant": "The draws are random, and the abort needs a repeat whose rounding goes the wrong way; tests see few of them.", "anchors": ["src/timeseries.rs: nearest_neighbor_distance_stats, distance_profile", "src/motiflets.rs: MotifletsIterator::new"]}
{"id": "C129", "title": "Average distance and relative contrast in floating point", "statement": "The average distance of a series, which motiflets and motifs are compared with, is a finite number that is not negative: the average of the exact distances of the first pairs drawn that are not flat and do not overlap, up to a stated error of the distances and of adding up to 2^40 of them. It is returned as soon as enough such pairs have been drawn, with probability one if one exists, and never otherwise. The relative contrast of a motiflet is the average over its extent, correctly rounded; it is infinite if the extent is 0, and not a number if the average is 0 too.", "quantifier": "all series of moderate size, window lengths, exclusion zones, numbers of samples, streams of draws and extents", "why_tests_cant": "The error of a sum of a hundred thousand rounded distances, and termination for every stream of draws, are not visible in single runs.", "anchors": ["src/timeseries.rs: average_pairwise_distance", "src/motiflets.rs: Motiflet::new", "src/motifs.rs: motifs"]}
{"id": "C130", "title": "A quantisation width given in the environment", "statement": "If the environment variable ATTIMO_QUANTIZATION is a decimal number that is positive and in range, the index is built with the first width among the f64 nearest to it and its doublings that has collisions at the longest prefix, whatever width the series suggests; if there is none the program aborts, and it never runs forever. If the variable is anything else, such as 0, a negative number, inf, nan or a word, creating the index aborts. If it is not set, the width computed from the series is used.", "quantifier": "all texts, series of moderate size, random vectors and shifts, and results of the FFT", "why_tests_cant": "The texts are unbounded, and overflow of the doubling only shows on data without collisions.", "anchors": ["src/index.rs: LSHIndex::from_ts, Hasher::new, Hasher::compute_width"]}
{"id": "C131", "title": "From the input file to the output file", "statement": "If the program writes an output file, then every line of it is an extent and two to `support` positions of windows of the series read from the input file; they are at least half a window apart, and the square of the extent is that of the largest exact distance between them up to a stated rounding error. In a search the windows are not flat. The exact search ends with such a file if windows are not flat and are apart by more than the rounding errors. A line that is not a number is an error, and a series shorter than a window aborts the program. It is not true that the program always ends: if the length of a window is a power of two and at least 16384, or the length of the series, there is never any output and a search runs forever.", "quantifier": "all texts of the input file, series of moderate size, options, random numbers, sorts, schedules of the exact search, errors of the FFT within a bound, and lengths of the run", "why_tests_cant": "It joins reading, rounding, hashing, sampling, searching and writing; tests run these stages on a few fixed files and do not look at the output file.", "anchors": ["src/main.rs: main, output_csv", "src/load.rs: loadts", "src/motiflets.rs: MotifletsIterator::new, brute_force_motiflets", "src/index.rs: LSHIndex::from_ts", "src/timeseries.rs: WindowedTimeseries::new, FFTData::new"]}
{"id": "C132", "title": "The output file has one line for each support, and reports a repeat", "statement": "With one motiflet asked for each support, the output file of a search has exactly one line with k positions for every k from 2 to the support. If a window of the series in the input file is an exact copy of another one up to scale and offset, then the windows on the line with two positions are within a stated rounding error of being copies of each other, provided that the copies are not hashed within the rounding error of the border of a bucket nor into the last bucket of the first table. If there is no room in the series for as many windows as the support that are half a window apart, nothing is ever written.", "quantifier": "all input files with series of moderate size, options with one motiflet for each support, random numbers, sorts, errors of the FFT within a bound, and lengths of the run", "why_tests_cant": "That nothing is missing from the output, and that a repeat is not lost to rounding or to the random choices, is a claim about every series and every choice.", "anchors": ["src/main.rs: main, output_csv", "src/motiflets.rs: MotifletsIterator", "src/index.rs: LSHIndex", "src/load.rs: loadts"]}
{"id": "C133", "title": "The coin tossed for each pair", "statement": "In every repetition each candidate pair is looked at with probability min(1, 8 / (p r)), where p is the computed collision probability at the current threshold and r the number of repetitions, up to 2^-49. Making that coin never aborts the search as long as the threshold is not above 2^20 times the quantisation width, or is infinite. Beyond that it can: at a distance of about 10^8 widths the computed collision probability may be below 0, even with an exponential function that is correctly rounded, and the search aborts.", "quantifier": "all thresholds, quantisation widths, numbers of repetitions, exponential functions within a stated error, searches and sequences of calls", "why_tests_cant": "The abort needs a ratio of distance and width in a very narrow range, where a difference of nearly equal numbers is rounded to the wrong side of 0.", "anchors": ["src/motiflets.rs: MotifletsIterator::update_graph", "src/index.rs: LSHIndex::collision_probability_at, Hasher::collision_probability_at"]}
{"id": "C134", "title": "What the calibration of the index measures", "statement": "Before the search starts, the time of one distance computation is measured on the pairs that collide in the first repetition at the prefix chosen for it, outside the last bucket and not trivial matches: all of them if there are at most 10000, otherwise 10000 and one more for each buffer of 65536 pairs. The measured cost is the time divided by that number, correctly rounded. It is not true that something is always measured: there are indexes, accepted by the construction, for which the chosen prefix has a single bucket and nothing is measured; then the calibration aborts if the clock shows no time, and otherwise the cost is infinite. With an infinite cost the search never goes to a shorter prefix: it adds repetitions at the first prefix for ever, also beyond the memory budget.", "quantifier": "all sorted tables, prefixes, exclusion zones, series, profiles, measured times and executions of the search", "why_tests_cant": "the failing indexes are rare and the number of distances shows nowhere in the output; that the search never leaves a prefix is about infinite executions", "anchors": ["src/index.rs: IndexStats::new, CollisionEnumerator::next, IndexStats::costs_to_confirm", "src/motiflets.rs: MotifletsIterator::next_interruptible"]}
{"id": "C135", "title": "The collision profile does not depend on the threads", "statement": "The expected number of collisions for each prefix is the average of the counts of the first four repetitions, exactly, however the parallel reduction splits and joins the repetitions; it is the same bit for bit for every schedule. Hence the search starts at the longest prefix with at least one collision per repetition on average (or at prefix 1), and the calibration uses the longest prefix with more than 1000 on average and aborts if there is none.", "quantifier": "all counts up to 2^50 of one to four repetitions (sums in floating point), all ways of splitting and joining the reduction", "why_tests_cant": "floating point addition is not associative in general, and the schedule of the threads cannot be controlled by a test", "anchors": ["src/index.rs: LSHIndex::collision_profile, IndexStats::new, IndexStats::first_meaningful_prefix"]}
{"id": "C136", "title": "When a search can start at all", "statement": "A search whose cost model is computed from its own index starts if and only if motiflets of two or more are asked for and, in the first four repetitions together, the pairs of windows whose hash values share the first byte exceed by more than 4000 the trivial matches that share the whole hash value; in all other cases creating the search aborts. In particular it aborts for every series with 45 windows or fewer. The search begins at the longest prefix exactly when the first four repetitions contain four or more non-trivial pairs with identical hash values; it then never has a ninth repetition at that prefix: in the eighth it either moves to seven bytes or aborts.", "quantifier": "all series, indices (up to 2^25 windows), exclusion zones, thread schedules of the profile computation, starting pairs and histories of the search", "why_tests_cant": "The condition is on counts of collisions over random hash functions; a test fixes one series and one seed, and series used in tests are long enough.", "anchors": ["src/index.rs: IndexStats::new", "src/index.rs: LSHIndex::collision_profile_at", "src/motiflets.rs: MotifletsIterator::new", "src/motiflets.rs: MotifletsIterator::next_interruptible"]}
{"id": "C137", "title": "Whole numbers computed through floating point are exact", "statement": "The parallel sort divides the pairs into chunks whose size is computed as a floating-point quotient rounded up, and the estimate of collisions decides with a floating-point square root whether a bucket is very large. For up to 2^52 pairs and threads the chunk size is the exact quotient rounded up, and for up to 2^50 windows the decision is the exact comparison of the square of the size; so the sorted result and the estimate are those of integer arithmetic. The counts of collisions of a repetition are subtracted as floating-point numbers: for up to 2^26 windows every entry of the profile is exact and the assertion that it is not negative holds.", "quantifier": "all numbers of pairs and threads up to 2^52, all bucket sizes and numbers of windows up to 2^50, all data", "why_tests_cant": "Rounding goes wrong only for particular pairs of numbers, typically next to a multiple or a perfect square.", "anchors": ["src/sort.rs: par_sort_hash_pairs", "src/index.rs: CollisionEnumerator::estimate_num_collisions", "src/index.rs: LSHIndex::collision_profile_at"]}
{"id": "C138", "title": "The repetition budget with machine words", "statement": "The number of repetitions that fit in the memory allowed is computed with 64-bit words. In release and in debug builds it is the exact number of C15, and the number kept in main memory that of C16, whenever the first number of repetitions that does not fit needs less than 2^64 bytes; otherwise a debug build aborts and a release build never gives a budget that fits. Every accepted memory limit should give a budget: with a limit of 2^64 - 4 bytes or more, which the program and the Python classes accept, a release build never finishes computing the budget, for every series, and a debug build aborts; the same for limits of 2^64 bytes or more, or 'inf', made from strings with decimals by users of the library.", "quantifier": "all numbers of windows, repetitions, memory limits and texts of a limit, checked and wrapping arithmetic", "why_tests_cant": "The loop hangs only for limits that no test would give, and wraps around after 2^64 bytes.", "anchors": ["src/index.rs: IndexStats::new", "src/index.rs: LSHIndex::required_memory", "src/index.rs: LSHIndex::from_ts", "src/allocator.rs: FromStr for Bytes", "src/allocator.rs: TryFrom<String> for Bytes"]}
{"id": "C139", "title": "What the program needs to write an output", "statement": "Run on a file, with the cost model computed from the tables of that run, the program's search never writes an output for a series of 45 windows or fewer, whatever the values and the hash functions: it aborts. Whenever it does write an output, motiflets of two or more were asked for and, over the first four tables, the pairs of windows whose hash values share the first byte outnumber by more than 4000 the trivial matches with equal hash values. A periodic series of 68 windows has an output.", "quantifier": "all files, options, values of the environment variable, hash functions, samples and schedules within the conditions of C131, up to 2^25 windows for the second claim", "why_tests_cant": "The condition is on counts of collisions over random hash functions; tests run on series that are long enough.", "anchors": ["src/main.rs: main", "src/index.rs: IndexStats::new", "src/index.rs: LSHIndex::collision_profile", "src/motiflets.rs: MotifletsIterator::new"]}
{"id": "C140", "title": "The Python classes, from numbers to motiflets", "statement": "A motiflets iterator made from a list of numbers hands out motiflets of two to `support` positions of windows, all further apart than the exclusion zone (by default a whole window), whose squared extent is the exact largest squared distance up to a bound on the rounding errors and whose relative contrast is the average distance over the extent. With more windows than `brute_force_threshold` none of the windows is flat, and the constructor aborts if there are 45 windows or fewer; with at most that many windows the iterator is exact, can be constructed once enough comparable pairs have been drawn, hands out each motiflet once and then `None` whatever signals arrive, and its pair is a closest one up to rounding. `values` gives the numbers of the window and `zvalues` its z-normalised values up to a bound on the rounding errors; an argument out of range is an error.", "quantifier": "all lists of numbers, arguments, hash functions, samples, sequences of calls and signals within the conditions of C97 and C128; for the exact search all windows are lively and further apart than the rounding errors", "why_tests_cant": "The claims hold for every list of numbers and rounding error along it; tests compare a few values with a tolerance chosen by hand.", "anchors": ["pyattimo/src/lib.rs: MotifletsIterator::new", "pyattimo/src/lib.rs: MotifletsIterator::next", "pyattimo/src/lib.rs: KMotiflet::values", "pyattimo/src/lib.rs: KMotiflet::zvalues"]}
{"id": "C141", "title": "The Python motifs and the brute-force function", "statement": "The iterator of motifs answers exactly the calls that the iterator of motiflets with support two answers: converting an answer is never an error. Above `brute_force_threshold` windows every motif has two different windows in increasing order, neither flat nor within the exclusion zone of each other, its squared distance is the exact one up to a bound on the rounding errors, and its relative contrast is the average distance over the distance. Up to the threshold there is exactly one motif, however many are asked for, followed by `None` for ever, and no admissible pair is closer up to rounding. `motiflet_brute_force` returns the list that the class hands out if it is given the same exclusion zone; if neither is given one, the function takes half a window and the class a whole one.", "quantifier": "all lists of numbers, arguments, samples, sequences of calls and signals within the conditions of C140; the function: all arguments whatsoever", "why_tests_cant": "The conversion must succeed for every motiflet that any run can hand out, and the two ways of obtaining the exact result must agree for every input.", "anchors": ["pyattimo/src/lib.rs: MotifsIterator", "pyattimo/src/lib.rs: Motif", "pyattimo/src/lib.rs: motiflet_brute_force"]}
{"id": "C142", "title": "A constant stretch makes the exact search abort", "statement": "In floating point a window of equal values (whole numbers up to 2^53/w, or such numbers times a power of two) has recorded deviation exactly 0 and z-normalised values that are not numbers, and if any other window is not flat the exact search aborts, for every support, zone, sort, schedule and transform. Hence with --exact the program never writes an output for such a file, and the Python class (up to brute_force_threshold windows) and function never return.", "quantifier": "all series of moderate size with a constant window (in the default mode of the statistics: the first window), all dot products, sorts, schedules and arguments", "why_tests_cant": "It must be shown for every transform, schedule and series, with the rounding of the sums of a window of any length.", "anchors": ["src/motiflets.rs: brute_force_motiflets", "src/timeseries.rs: WindowedTimeseries::distance_profile", "src/timeseries.rs: WindowedTimeseries::znormalized", "src/main.rs: main", "pyattimo/src/lib.rs: MotifletsIterator::new", "pyattimo/src/lib.rs: motiflet_brute_force"]}
{"id": "C143", "title": "The program with its own repetition budget", "statement": "The program and the Python class compute the number of repetitions allowed from the memory limit while they run, with 64-bit words. Whenever the first number of repetitions that does not fit needs less than 2^64 bytes, everything they do, for any file or list of numbers, is what they would do with the exact number of repetitions that fit (at least four), in debug and release builds. Whatever the limit, every line of an output file is a valid motiflet with its extent. With a limit of 2^64 - 4 bytes or more the program never writes an output and the Python class is never constructed, for any series.", "quantifier": "all input files, all lists of numbers, all options, all memory limits, all random numbers, all outcomes of the unstable sorts and the schedule, debug and release builds", "why_tests_cant": "The limit and the length of the series together decide whether the words overflow, and the loop that does not end cannot be told from a slow search by a test.", "anchors": ["src/main.rs: main", "src/motiflets.rs: MotifletsIterator::new", "src/index.rs: IndexStats::new", "src/index.rs: LSHIndex::from_ts", "src/allocator.rs: FromStr for Bytes", "pyattimo/src/lib.rs: MotifletsIterator::new"]}
{"id": "C144", "title": "Supports that do not fit are refused, with machine words", "statement": "The Python class and the brute-force function multiply the support and the exclusion zone as 64-bit words before they compare with the number of windows. In a debug build always, and in a release build as long as the product is below 2^64, they behave as with unbounded numbers, so a support for which the series has fewer windows than support times exclusion zone is refused. A larger product should be refused in a release build too: it is not when it wraps around to a small number, and then the function never returns and the class is never constructed, for every series of moderate data whose windows are not that far apart.", "quantifier": "all lists of numbers, all window lengths, supports and exclusion zones, all random numbers, all orders and schedules, debug and release builds", "why_tests_cant": "The wrapped products are a sparse set of pairs of huge arguments, and a call that never returns cannot be observed by a test.", "anchors": ["pyattimo/src/lib.rs: MotifletsIterator::new", "pyattimo/src/lib.rs: motiflet_brute_force", "src/timeseries.rs: average_pairwise_distance"]}
{"id": "C145", "title": "Asking the graph for an edge", "statement": "After any history of insertions, reads and resets of the neighbour graph, it says that two nodes have an edge exactly when an edge between them was given, in either direction. Removing duplicates and marking entries as old never loses or invents one. Asking about a node outside the graph aborts.", "quantifier": "all graph sizes, exclusion zones and histories of insertions (with distances that are numbers without sign), reads and resets, all pairs of nodes", "why_tests_cant": "The answer depends on the whole history, and reading sorts and deduplicates the lists it is computed from.", "anchors": ["src/graph.rs: AdjacencyGraph::has_edge", "src/graph.rs: AdjacencyGraph::insert", "src/graph.rs: AdjacencyGraph::reset_updated", "src/graph.rs: AdjacencyGraph::neighborhoods"]}
{"id": "C146", "title": "An edge whose distance is not a number", "statement": "After any history of insertions with proper distances, reads and resets, giving the neighbour graph an edge whose distance is not a number makes the next read abort if one of its two nodes already has an edge, or if the edge goes from a node to itself. If neither node has an edge the read returns.", "quantifier": "all graph sizes, exclusion zones, histories and pairs of nodes, all sizes of the neighbourhoods read", "why_tests_cant": "Whether the read aborts depends on the history of both nodes, since a single entry is never compared.", "anchors": ["src/graph.rs: AdjacencyGraph::insert", "src/graph.rs: AdjacencyGraph::remove_duplicates", "src/graph.rs: AdjacencyGraph::neighborhoods", "src/knn.rs: Ord for Distance"]}
{"id": "C147", "title": "The overlap tests with machine words", "statement": "For positions below 2^63 and an exclusion zone below 2^63, the overlap test of two positions and that of two motifs (whose own two positions are not closer than the zone) say exactly whether some position of one is closer than the zone to some position of the other, and never abort, in debug and release builds. With a larger zone every pair is too close, and the tests should say so: instead they say the opposite, or abort in a debug build.", "quantifier": "all positions, all exclusion zones up to 2^64 - 1, debug and release builds", "why_tests_cant": "The sums and differences overflow only for extreme arguments, and the four positions of two motifs can be in any order.", "anchors": ["src/timeseries.rs: Overlaps<usize> for usize, Overlaps<u32> for u32", "src/motifs.rs: Overlaps<Motif> for Motif"]}
{"id": "C148", "title": "The limit on collisions of the Python class", "statement": "An object of the Python class that searches works with a limit on the collisions it examines which is the given fraction of the pairs of windows, rounded down, up to one rounding. Once that many collisions have been exceeded and the caller asked to stop there, no later call, however many, examines another collision or another repetition. If the caller did not ask to stop, the limit costs no result: when the iteration ends, every support from 2 to the largest one asked for has had its motiflets.", "quantifier": "all series of at most 2^27 windows, fractions between 0 and 1, arguments, random directions and sequences of calls, including interrupted ones; for the second part the series and draws of C140", "why_tests_cant": "The number of collisions examined depends on the draws and on when the caller is interrupted, and the second part is about every possible end of the iteration.", "anchors": ["pyattimo/src/lib.rs: MotifletsIterator::new", "pyattimo/src/lib.rs: MotifletsIterator::__next__", "src/motiflets.rs: MotifletsIterator::set_collision_threshold", "src/motiflets.rs: MotifletsIterator::set_stop_on_collisions_threshold", "src/motiflets.rs: MotifletsIterator::next"]}
{"id": "C149", "title": "When a window counts as flat", "statement": "A window counts as flat exactly when its recorded standard deviation is at most the 64-bit number nearest to 0.0001, equality included. A recorded deviation that is not a number does not count as flat. Asking about a window beyond the recorded ones aborts. The projection of a window, from which its hash is made, is replaced by not-a-number exactly when the deviation is below that same number, equality not included: a window whose deviation equals it counts as flat and is projected all the same. A deviation that is not a number makes the projection abort.", "quantifier": "all series states and window positions, all recorded deviations, all projection vectors", "why_tests_cant": "The boundary is a single one of the 2^64 possible deviations.", "anchors": ["src/timeseries.rs: FLAT_SD_THRESHOLD, WindowedTimeseries::is_flat, WindowedTimeseries::znormalized_sliding_dot_product_for_each"]}
{"id": "C150", "title": "The values of a window", "statement": "Asking for the window at a position gives exactly the w values of the series that start there if the window lies inside the series, and aborts otherwise: a shortened window is never returned.", "quantifier": "all series, window lengths and positions", "why_tests_cant": "Every position and length has to be covered, including those whose window only just leaves the series.", "anchors": ["src/timeseries.rs: WindowedTimeseries::subsequence"]}
