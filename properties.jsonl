{"id": "C01", "title": "DTW distance is the optimum over all warping paths in the band", "statement": "For the euclidean, manhattan and chebyshev metrics, the value returned for '<metric>_dtw' on two series of lengths m,n >= 2 (no cut-off) is, in exact arithmetic, the smallest normalised cost of any warping path from (0,0) to (m-1,n-1) that stays within the warping band, and is infinity exactly when no such path exists (|m-n| > band). The computation never reads outside its matrices.", "quantifier": "all pairs of finite real series with m,n >= 2, all non-negative band ratios", "why_tests_cant": "the number of warping paths is exponential in the lengths; tests compare a handful of hand-computed values", "anchors": ["genex/distance/Distance.hpp:warpedDistance", "genex/GenexAPI.cpp:distanceBetween"]}
{"id": "C02", "title": "DTW in IEEE double arithmetic is the accumulated cost of a real in-band path", "statement": "In IEEE-754 binary64 arithmetic (round to nearest even, overflow included as long as no cost reaches infinity), the euclidean/manhattan/chebyshev DTW value returned without cut-off is exactly the floating-point cost accumulated along some warping path inside the band; it is never NaN and never negative.", "quantifier": "all finite binary64 series with m,n >= 2 and all non-negative band ratios", "why_tests_cant": "rounding and tie-breaking depend on the concrete doubles; tests only sample a few", "anchors": ["genex/distance/Distance.hpp:warpedDistance", "genex/distance/Euclidean.hpp", "genex/distance/Manhattan.hpp", "genex/distance/Chebyshev.hpp"]}
{"id": "C03", "title": "Cut-off never changes a DTW answer that matters", "statement": "Calling a euclidean/manhattan/chebyshev DTW distance with a cut-off d returns either exactly the value it returns without cut-off, or infinity; infinity is returned only if the uncut value is greater than d (both lengths >= 2). Holds bit-for-bit in IEEE double arithmetic.", "quantifier": "all finite binary64 series with lengths >= 2, all cut-offs, all band ratios >= 0", "why_tests_cant": "the early exit depends on every intermediate row of the matrix; tests check few cut-offs", "anchors": ["genex/distance/Distance.hpp:warpedDistance"]}
{"id": "C04", "title": "Cut-off never changes a pairwise answer that matters", "statement": "For manhattan and chebyshev (in IEEE doubles) and for euclidean (in exact arithmetic, cut-off >= 0), the point-to-point distance with cut-off d is the uncut value if that is <= d and infinity otherwise. Different lengths always raise the library's exception.", "quantifier": "all pairs of finite series, all cut-offs", "why_tests_cant": "the loop may exit at any index; only a proof covers all prefixes", "anchors": ["genex/distance/Distance.hpp:pairwiseDistance"]}
{"id": "C05", "title": "Point-to-point distances equal their textbook definitions and are metrics", "statement": "In exact arithmetic 'euclidean' is the root mean square difference, 'manhattan' the mean absolute difference and 'chebyshev' the maximum absolute difference; each is non-negative, symmetric, zero exactly on equal series, and satisfies the triangle inequality.", "quantifier": "all real series of equal length >= 1", "why_tests_cant": "triangle inequality and definiteness quantify over all triples of series", "anchors": ["genex/distance/Euclidean.hpp", "genex/distance/Manhattan.hpp", "genex/distance/Chebyshev.hpp", "genex/distance/Distance.hpp:pairwiseDistance"]}
{"id": "C06", "title": "DTW is symmetric, non-negative and zero on identical series", "statement": "In exact arithmetic the euclidean/manhattan/chebyshev DTW of (a,b) equals that of (b,a); in IEEE doubles the DTW of a series with itself is exactly 0 and every DTW value is >= 0.", "quantifier": "all finite series of length >= 2, all band ratios >= 0", "why_tests_cant": "tie-breaking in the matrix is asymmetric, so symmetry is not visible in the code and must be shown for all inputs", "anchors": ["genex/distance/Distance.hpp:warpedDistance"]}
{"id": "C07", "title": "Envelope equals the sliding-window minimum and maximum", "statement": "The lower/upper envelope computed for a series and band r is at each position i exactly the minimum/maximum of the values at positions max(0,i-r)..min(len-1,i+r). The streaming algorithm never pops an empty queue, never overflows its circular buffer and never reads or writes outside its arrays.", "quantifier": "all series of length >= 1 without NaN, all bands 0 <= r <= length-1, in any totally ordered number type including binary64", "why_tests_cant": "the monotonic-queue algorithm has data-dependent control flow over every ordering pattern", "anchors": ["genex/lib/trillionDTW.cpp:lower_upper_lemire", "genex/lib/deque.cpp", "genex/TimeSeries.cpp:generateKeoghLU"]}
{"id": "C08", "title": "Kim, Keogh and cross-Keogh bounds never exceed the DTW distance", "statement": "Each lower bound, for every cut-off, is at most the euclidean DTW distance computed by the library (bit-for-bit in IEEE doubles; the crossed bound may report infinity instead, but then the DTW distance exceeds the cut-off), including for series of different lengths.", "quantifier": "all finite binary64 series, all cut-offs, all band ratios >= 0", "why_tests_cant": "an unsound bound silently drops true answers for rare shapes only", "anchors": ["genex/distance/Distance.cpp:kimLowerBound", "genex/distance/Distance.cpp:keoghLowerBound", "genex/distance/Distance.cpp:crossKeoghLowerBound"]}
{"id": "C09", "title": "Cascade pruning is lossless", "statement": "The pruned distance used by similarity queries for 'euclidean' returns either the plain DTW value or infinity, and returns infinity only when the plain DTW value is greater than the cut-off.", "quantifier": "all finite binary64 series with lengths >= 2, all cut-offs, all band ratios >= 0", "why_tests_cant": "combines four early exits; tests cannot enumerate the combinations", "anchors": ["genex/distance/Distance.cpp:cascadeDistance"]}
{"id": "C10", "title": "Warping band size is always usable", "statement": "For a ratio >= 0 the band for length L >= 1 lies between 0 and L-1 and never decreases when L grows; for a ratio >= 1 it is L-1, i.e. unrestricted; changing the ratio affects later computations only. A negative ratio makes distances between different-length or longer-than-one series infinite.", "quantifier": "all lengths, all ratios", "why_tests_cant": "floor of a floating-point product; edge lengths are not enumerable by tests", "anchors": ["genex/distance/Distance.cpp:calculateWarpingBandSize", "genex/distance/Distance.cpp:setWarpingBandRatio"]}
{"id": "C11", "title": "Matching is a legal optimal alignment when the band does not restrict", "statement": "When the band covers the whole matrix, matchingBetween returns a sequence of index pairs that starts at (0,0), ends at (m-1,n-1), advances by (1,0), (0,1) or (1,1), and whose accumulated cost is exactly the distance returned for the same pair (exact arithmetic).", "quantifier": "all finite series with max(m,n) >= 2 and ratio >= 1, metrics euclidean/manhattan/chebyshev", "why_tests_cant": "the back-track consults the whole matrix; ties are data dependent", "anchors": ["genex/distance/Distance.hpp:warpedDistance", "genex/GenexAPI.cpp:matchingBetween"]}
{"id": "C12", "title": "Matching respects the warping band", "statement": "For every band ratio (including the default 0.1) the matching only uses index pairs inside the band and its cost is the returned distance.", "quantifier": "all finite series, all band ratios in [0,1]", "why_tests_cant": "failure depends on the relation of out-of-band default cells to in-band costs", "anchors": ["genex/distance/Distance.hpp:warpedDistance", "genex/GenexAPI.cpp:matchingBetween"]}
{"id": "C13", "title": "Every named distance behaves as a distance", "statement": "For every distance name offered by the library (including cosine and sorensen) and finite data: the distance of a series to itself is 0, computing a distance terminates without touching invalid memory, and a cut-off never hides a value below the cut-off.", "quantifier": "all five metrics, all finite series, all cut-offs", "why_tests_cant": "failures need special prefixes (leading zeros, non-monotone partial ratios)", "anchors": ["genex/distance/Cosine.hpp", "genex/distance/Sorensen.hpp", "genex/distance/Distance.hpp"]}
{"id": "C14", "title": "Distance computations keep no history", "statement": "The value returned by any distance is independent of earlier calls, and computing distances does not accumulate memory from call to call.", "quantifier": "all histories of distance computations", "why_tests_cant": "needs reasoning over unbounded call histories", "anchors": ["genex/distance/Distance.hpp:warpedDistance", "genex/distance/Distance.cpp:gNoMatching"]}
{"id": "C15", "title": "Distance names resolve exactly as documented", "statement": "Exactly ten names resolve: the five metrics and each with the suffix _dtw; each resolves to its own metric in its own mode; any other string raises the library's exception and leaves the registry unchanged.", "quantifier": "all strings", "why_tests_cant": "the set of strings is infinite", "anchors": ["genex/distance/Distance.cpp:getDistanceFromName", "genex/distance/Distance.cpp:_initializeAllDistanceMap"]}
{"id": "C16", "title": "Grouping partitions all subsequences", "statement": "After grouping a length, every subsequence of that length that fits in its series belongs to exactly one group, nothing else belongs to any group, every group is non-empty, and each group's reported count equals its number of members.", "quantifier": "all datasets (rows of any lengths), all thresholds, all metrics with deterministic outcome", "why_tests_cant": "assignment depends on the insertion history of all earlier subsequences", "anchors": ["genex/group/LocalLengthGroupSpace.cpp:generateGroups", "genex/group/Group.cpp:addMember", "genex/group/Group.cpp:getMembers"]}
{"id": "C17", "title": "Group radius and diameter", "statement": "Every member other than the one that founded the group is at distance at most threshold/2 from the group's representative (as computed by the library, for manhattan/chebyshev in IEEE doubles and for euclidean in exact arithmetic); hence in exact arithmetic any two members of a group are within threshold of each other.", "quantifier": "all datasets, all finite thresholds >= 0", "why_tests_cant": "invariant over the whole incremental clustering history", "anchors": ["genex/group/LocalLengthGroupSpace.cpp:generateGroups"]}
{"id": "C18", "title": "Nearest-representative assignment and separation of representatives", "statement": "When a subsequence is processed it joins the first group whose representative is nearest among those existing at that time; a new group is created only if all existing representatives are farther than threshold/2. Hence any representative is farther than threshold/2 from every earlier one, and the representative of a group is its first member.", "quantifier": "all datasets and finite thresholds", "why_tests_cant": "greedy history dependence with early abandoning at each comparison", "anchors": ["genex/group/LocalLengthGroupSpace.cpp:generateGroups", "genex/group/Group.cpp:distanceFromCentroid"]}
{"id": "C19", "title": "Group member lists are intact linked lists", "statement": "Enumerating a group's members terminates and returns exactly the members added to it, most recent first, whatever members are added to other groups of the same length in between.", "quantifier": "all interleavings of additions to the groups of one length, each coordinate added at most once", "why_tests_cant": "the lists share one array; interference patterns are unbounded", "anchors": ["genex/group/Group.cpp:addMember", "genex/group/Group.cpp:getMembers", "genex/group/Group.hpp:group_membership_t"]}
{"id": "C20", "title": "Multi-threaded grouping gives the single-threaded result", "statement": "Grouping with any number of threads and under any schedule finishes (no deadlock, no lost wake-up, every length grouped exactly once) and yields exactly the same groups and count as single-threaded grouping.", "quantifier": "all thread counts >= 1, all interleavings of the pool's steps", "why_tests_cant": "interleavings cannot be enumerated by tests", "anchors": ["genex/lib/ThreadPool.hpp", "genex/group/GlobalGroupSpace.cpp:groupMultiThreaded"]}
{"id": "C21", "title": "Grouping does not depend on the wall clock", "statement": "The outcome of grouping is the same whether or not progress logging is triggered by elapsed time.", "quantifier": "all datasets, all clock readings", "why_tests_cant": "depends on real time elapsed since the previous log line", "anchors": ["genex/group/LocalLengthGroupSpace.cpp:generateGroups"]}
{"id": "C22", "title": "Query traversal visits exactly the compatible lengths", "statement": "For a query of length q with 2 <= q <= L the set of lengths searched contains q first, has no repetition, contains only lengths in 2..L, and (for ratios in [0,1] exact) contains exactly the lengths l with |l-q| at most the band of max(l,q).", "quantifier": "all q, L and band ratios >= 0", "why_tests_cant": "stopping at the first incompatible length is only right if compatibility is monotone, which needs proof for all lengths", "anchors": ["genex/group/GlobalGroupSpace.cpp:generateTraverseOrder"]}
{"id": "C23", "title": "Best match is the best member of the closest group", "statement": "getBestMatch returns a member of a group whose representative attains the minimum DTW distance to the query over all groups of the searched lengths; the returned series attains the minimum DTW distance within that group and the reported distance is exactly its DTW distance (no effect of pruning).", "quantifier": "all grouped datasets and queries for which some searched representative is at finite distance", "why_tests_cant": "pruning bounds are threaded through three nested searches", "anchors": ["genex/group/GlobalGroupSpace.cpp:getBestMatch", "genex/group/LocalLengthGroupSpace.cpp:getBestGroup", "genex/group/Group.cpp:getBestMatch"]}
{"id": "C24", "title": "k-similar search examines the closest groups and reports true distances", "statement": "getKBestMatches(k,ke) with 1 <= k <= ke considers exactly min(ke, available) subsequences: all members of a set of groups none of which is farther (by representative) than any group left out, except that from the farthest of them only as many best members as needed are taken. All returned entries are distinct real subsequences with their exact DTW distances in ascending order.", "quantifier": "all grouped datasets, queries, k and ke with at least k subsequences available", "why_tests_cant": "heap with variable weights and early abandoning; state space unbounded", "anchors": ["genex/group/GlobalGroupSpace.cpp:getKBestMatches", "genex/group/LocalLengthGroupSpace.cpp:interLevelKSim", "genex/group/Group.cpp:intraGroupKSim", "genex/GroupableTimeSeriesSet.cpp:getKBestMatches"]}
{"id": "C25", "title": "k-similar search returns at most what exists", "statement": "If fewer than k subsequences are available the result has fewer than k entries, as documented in the Python binding ('a list of k or less'); no entry is fabricated.", "quantifier": "all grouped datasets and k", "why_tests_cant": "needs the boundary between k and the unbounded dataset size", "anchors": ["genex/GroupableTimeSeriesSet.cpp:getKBestMatches", "pygenex/GENEXBindings.cpp"]}
{"id": "C26", "title": "Exhaustive k-best search is exact", "statement": "getKBestMatchesBruteForce returns min(k, number of subsequences of length >= 2) distinct subsequences in ascending order of exact DTW distance, and no subsequence left out is closer than one returned; k <= 0 raises the library's exception.", "quantifier": "all datasets, queries, k; distances pairwise equal or at least 1e-9 apart and not NaN", "why_tests_cant": "heap contents depend on the whole visiting order", "anchors": ["genex/TimeSeriesSet.cpp:getKBestMatchesBruteForce", "genex/TimeSeries.hpp:candidate_time_series_t"]}
{"id": "C27", "title": "Result ordering is a strict weak order", "statement": "The order used to sort and heap candidate results is irreflexive and transitive with transitive incomparability, as the C++ standard algorithms require.", "quantifier": "all triples of candidates", "why_tests_cant": "violations need three nearly equal distances", "anchors": ["genex/TimeSeries.hpp:candidate_time_series_t::operator<"]}
{"id": "C28", "title": "Normalisation maps the data set onto [0,1]", "statement": "After normalizeDataset on data without NaN whose range does not overflow: every value lies in [0,1], values equal to the old minimum become 0 and to the old maximum 1 (all 0 if the data is constant), the order of values is preserved, the returned pair is the old (min,max), padding and shape are unchanged, and normalising again changes nothing. Holds in IEEE doubles.", "quantifier": "all datasets with rows of any length >= 0 and at least one value", "why_tests_cant": "rounding could push a value above 1 or break order for particular doubles", "anchors": ["genex/TimeSeriesSet.cpp:normalize", "genex/GenexAPI.cpp:normalizeDataset"]}
{"id": "C29", "title": "Loading a text file yields exactly its table", "statement": "loadDataset reads the first maxNumRow lines (all if not positive); series i has as value j the number in token startCol+hasName+j of line i, its name is token startCol if a name column is present, its length is the number of remaining tokens, and the item length is the maximum over all lines of the file; an unparsable or out-of-range token or unreadable file raises the library's exception and no dataset is added. No write leaves the buffer.", "quantifier": "all files, separators, row limits and start columns >= 0 such that every line read has at least startCol+hasName tokens", "why_tests_cant": "row-major index arithmetic over unbounded, ragged tables", "anchors": ["genex/TimeSeriesSet.cpp:loadData", "genex/TimeSeriesSet.cpp:_getMaxRowsMaxColumns", "genex/GenexAPI.cpp:loadDataset"]}
{"id": "C30", "title": "Saving and reloading a dataset preserves shape, names and printed values", "statement": "saveDataset followed by loadDataset with the same separator gives the same number of series, lengths and names, and each value is the value obtained by printing and reparsing the original.", "quantifier": "all datasets whose names are non-empty and free of separators/newlines", "why_tests_cant": "round-trip over all tables and separators", "anchors": ["genex/TimeSeriesSet.cpp:saveData", "genex/TimeSeriesSet.cpp:loadData"]}
{"id": "C31", "title": "Subsequence extraction is exact and range-checked", "statement": "getTimeSeries(i,s,e) returns precisely the values s..e-1 of series i when 0 <= i < count and 0 <= s < e <= length(i), the whole series when both positions are negative, and raises the library's exception for every other argument.", "quantifier": "all datasets and all integers i, s, e", "why_tests_cant": "negative/boundary combinations over unbounded data", "anchors": ["genex/TimeSeriesSet.cpp:getTimeSeries", "genex/TimeSeries.cpp:operator[]", "genex/GenexAPI.cpp:getTimeSeries"]}
{"id": "C32", "title": "Dataset registry behaves as a map", "statement": "Over any history of API calls the dataset count equals the number of loaded names, names are unique, a name is usable exactly between a successful load and its unload, failing calls on unknown or duplicate names leave everything unchanged, and no call changes a dataset other than the one named.", "quantifier": "all histories of API calls", "why_tests_cant": "invariant over unbounded histories", "anchors": ["genex/GenexAPI.cpp:loadDataset", "genex/GenexAPI.cpp:unloadDataset", "genex/GenexAPI.cpp:unloadAllDataset", "genex/GenexAPI.cpp:getDatasetCount"]}
{"id": "C33", "title": "A failed grouping or group loading leaves the dataset usable", "statement": "If groupDataset or loadGroups raises an exception, the dataset keeps its previous groups (or stays ungrouped) and later queries still succeed or raise the library's exception.", "quantifier": "all histories with failing calls", "why_tests_cant": "requires exploring error paths at every point of a history", "anchors": ["genex/GroupableTimeSeriesSet.cpp:groupAllLengths", "genex/GroupableTimeSeriesSet.hpp:load", "genex/group/GlobalGroupSpace.cpp:_loadDistance"]}
{"id": "C34", "title": "Queries never run into undefined behaviour", "statement": "For any history of API calls with well-formed data, every query either returns a result or raises an exception; it never reads invalid memory, dereferences null, divides by zero or runs forever.", "quantifier": "all histories of API calls and all argument values", "why_tests_cant": "undefined behaviour hides behind rare argument combinations", "anchors": ["genex/GenexAPI.cpp", "genex/group/GlobalGroupSpace.cpp:getBestMatch", "genex/group/GlobalGroupSpace.cpp:getKBestMatches", "genex/group/LocalLengthGroupSpace.cpp:interLevelKSim"]}
{"id": "C35", "title": "Saved groups reload to the same groups", "statement": "saveGroups followed by loadGroups on a dataset with the same dimensions and data restores the metric, threshold, number of groups, every group's representative and member set and count; best-match distances are unchanged. A file for different dimensions is rejected with the dataset unchanged.", "quantifier": "all grouped datasets", "why_tests_cant": "round-trip over unbounded structures", "anchors": ["genex/group/Group.hpp:serialization", "genex/group/LocalLengthGroupSpace.hpp:serialization", "genex/group/GlobalGroupSpace.hpp:serialization", "genex/GroupableTimeSeriesSet.hpp:serialization"]}
{"id": "C36", "title": "PAA of a subsequence equals block averaging it", "statement": "After preparing PAA with block size b, the PAA of subsequence (i,s,e) is the list of averages of its consecutive blocks of b values (last block possibly shorter).", "quantifier": "all datasets, block sizes >= 1 and ranges", "why_tests_cant": "offset arithmetic modulo the block size over all ranges", "anchors": ["genex/PAAWrapper.cpp:tsPAA", "genex/PAAWrapper.cpp:generatePAAMatrix", "genex/PAAWrapper.cpp:getPAA"]}
{"id": "C37", "title": "PAA preparation follows the life of the dataset", "statement": "After a dataset is unloaded its PAA preparation is gone: a PAA query on a newly loaded dataset of that name raises 'not prepared' until it is prepared again, and preparing PAA succeeds for every loaded dataset and positive block size.", "quantifier": "all histories of load/unload/prepare/query", "why_tests_cant": "needs histories with name reuse", "anchors": ["genex/GenexAPI.cpp:unloadDataset", "genex/GenexAPI.cpp:preparePAA", "genex/PAAWrapper.cpp:generatePAAMatrix"]}
{"id": "C38", "title": "Cached envelopes are coherent", "statement": "The envelope returned by a time series object always equals the envelope of its current values for the requested band, whatever sequence of additions, assignments, element writes, dataset normalisations and requests happened before.", "quantifier": "all histories of operations on a time series object", "why_tests_cant": "staleness needs particular histories", "anchors": ["genex/TimeSeries.cpp:getKeoghLower", "genex/TimeSeries.cpp:getKeoghUpper", "genex/TimeSeries.cpp:operator=", "genex/TimeSeriesSet.cpp:normalize"]}
{"id": "C39", "title": "Time series values behave as values", "statement": "Copying or assigning a time series yields an object with the same points; adding another series of the same length adds pointwise and a different length raises the library's exception; equality holds exactly for series of equal length whose points differ by at most 1e-9; the average is the mean of the points.", "quantifier": "all time series objects, owned or referring to a dataset", "why_tests_cant": "depends on ownership, aliasing and length combinations", "anchors": ["genex/TimeSeries.cpp"]}
{"id": "C40", "title": "Command line session only ends on quit or exit", "statement": "In the interactive shell every input line other than quit/exit leaves the session running, errors are reported and do not end it, commands with too few or too many arguments are rejected before doing anything, and comment or empty lines do nothing.", "quantifier": "all input histories", "why_tests_cant": "unbounded histories of arbitrary lines", "anchors": ["cli/GenexCLI.cpp:processLine", "cli/GenexCLI.cpp:main"]}
{"id": "C41", "title": "Searching with PAA returns the k nearest by PAA distance", "statement": "After preparing PAA with block size b, getKBestMatchesPAA returns, in ascending order, the k subsequences whose PAA is nearest (time-warped distance) to the PAA of the query; with block size 1 this is the answer of the exhaustive search.", "quantifier": "all datasets, queries, k >= 1, distances and block sizes >= 1", "why_tests_cant": "optimality over all subsequences and block sizes; the failing case is a value that is never initialised and often happens to be zero", "anchors": ["genex/PAAWrapper.cpp:getKBestMatchesPAA", "genex/PAAWrapper.cpp:getPAA", "genex/TimeSeries.cpp:average", "genex/GenexAPI.cpp:getKBestMatchesPAA"]}
{"id": "C42", "title": "A failed load of groups leaves the dataset as it was", "statement": "When loading groups from a file fails (the file was cut off, or belongs to a dataset of other dimensions), an exception is reported, the data are unchanged and the dataset keeps the groups it had, so that queries still answer as before.", "quantifier": "all grouped datasets, all saved files and all places where such a file can be cut off", "why_tests_cant": "every crash point while writing or copying the file has to be tried, for unbounded files", "anchors": ["genex/GroupableTimeSeriesSet.hpp:load", "genex/group/GlobalGroupSpace.hpp:load", "genex/IO.hpp:loadFromFile"]}
{"id": "C43", "title": "A failed save of groups leaves the file as it was", "statement": "When saving groups fails because the dataset has not been grouped, an exception is reported and a group file that existed under that name keeps its contents.", "quantifier": "all datasets without groups and all existing files", "why_tests_cant": "the loss shows only in the contents of a file written earlier by another dataset", "anchors": ["genex/IO.hpp:saveToFile", "genex/GroupableTimeSeriesSet.hpp:save"]}
{"id": "C44", "title": "Time series objects release their memory exactly once", "statement": "Whatever sequence of constructions, copies, assignments, moves, additions and destructions of time series happened before, destroying a time series or giving it a new value frees the memory it owns exactly once, frees nothing else, does not change the points of any other series with its own memory, and no memory is left behind without an owner.", "quantifier": "all histories of operations on any number of time series objects and caller-owned buffers without undefined behaviour", "why_tests_cant": "double frees and leaks depend on the aliasing built up by an arbitrary history", "anchors": ["genex/TimeSeries.cpp:TimeSeries::TimeSeries", "genex/TimeSeries.cpp:operator=", "genex/TimeSeries.cpp:~TimeSeries"]}
{"id": "C45", "title": "Groups saved as text reload to the same groups", "statement": "Saving groups in the text format and loading them into a data set with the same data restores the metric, the number of groups, the values of every representative, every member and the threshold; the best match is as near as before and the groups can be saved again. A text file that is missing, of another version, for another number or length of series, cut off, or written with sizes only is refused with the groups kept.", "quantifier": "all grouped data sets whose values survive being printed and read again; all files", "why_tests_cant": "round trip over unbounded structures and all ways a text can end early", "anchors": ["genex/GroupableTimeSeriesSet.cpp:saveGroupsOld", "genex/GroupableTimeSeriesSet.cpp:loadGroupsOld", "genex/group/GlobalGroupSpace.cpp:loadGroupsOld", "genex/group/LocalLengthGroupSpace.cpp:loadGroupsOld", "genex/group/Group.cpp:saveGroupOld", "genex/group/Group.cpp:loadGroupOld"]}
{"id": "C46", "title": "Shell commands do what their help texts say", "statement": "Every command of the interactive shell whose arguments follow its help text makes exactly the library call that the text describes, with the documented defaults for arguments left out, and prints the result of that call or its error message.", "quantifier": "all commands, all arguments following the usage lines, all states of the session", "why_tests_cant": "every combination of optional arguments, arbitrary names, numbers and session histories", "anchors": ["cli/GenexCLI.cpp:MAKE_COMMAND", "cli/GenexCLI.cpp:processLine"]}
{"id": "C47", "title": "Names, lengths and description of a data set stay those of its file", "statement": "From the moment a table was loaded until it is unloaded, whatever other calls are made: the name of series i is the entry of its row in the name column, or i in decimal notation if there is no such column; its length is the number of values in its row; the description tells the number of rows and the longest length; asking for a series that does not exist raises the library's exception.", "quantifier": "all tables, all histories of calls before and after loading, all indices", "why_tests_cant": "arbitrary later calls on this and other data sets, arbitrary tables", "anchors": ["genex/GenexAPI.cpp:getTimeSeriesName", "genex/GenexAPI.cpp:getTimeSeriesLength", "genex/GenexAPI.cpp:getDatasetInfo", "genex/TimeSeriesSet.cpp:getTimeSeriesName", "genex/TimeSeriesSet.hpp:getItemLength"]}
{"id": "C48", "title": "Searching a file reports the nearest window", "statement": "For a query of m numbers that are not all equal and a band r smaller than m, the search over a file of numbers reports the location and the distance of the first window of m numbers whose z-normalised banded DTW distance to the z-normalised query is smallest among the windows that are not constant; the three lower bounds, early abandoning and the division of the file into chunks never change that answer. If there is no such window it reports location 0 and the initial distance 10^10. A file that cannot be opened ends the program.", "quantifier": "all files of numbers of any length (several chunks included), all queries, bands and sort orders of the query", "why_tests_cant": "the answer must not depend on pruning, on chunk borders or on the order in which equal keys are sorted, for every file", "anchors": ["genex/lib/trillionDTW.cpp:calculate", "genex/lib/trillionDTW.h:calculate"]}
{"id": "C49", "title": "Lower bounds and early abandoning of the file search are sound", "statement": "The banded DTW of the search returns the exact smallest sum of squares over the warping paths in the band, or a number not below the given cut-off when the true sum is not below it; LB_Kim and both LB_Keogh bounds never exceed the true sum.", "quantifier": "all sequences, bands, cut-offs, cumulative bounds that are bounds, orders of evaluation", "why_tests_cant": "a bound that is too large for one input silently loses a match; all inputs and cut-offs matter", "anchors": ["genex/lib/trillionDTW.cpp:dtw", "genex/lib/trillionDTW.cpp:lb_kim_hierarchy", "genex/lib/trillionDTW.cpp:lb_keogh_cumulative", "genex/lib/trillionDTW.cpp:lb_keogh_data_cumulative"]}
{"id": "C50", "title": "The file search stays inside its arrays and ends", "statement": "For every file of numbers (NaN and infinities included) and every query file with at least m numbers the search ends, never leaves its arrays, never reads a cell it has not written, and reports a location at which a window of the file begins.", "quantifier": "all files, all numbers of any arithmetic, all query lengths and bands", "why_tests_cant": "memory safety for every input and chunk layout", "anchors": ["genex/lib/trillionDTW.cpp:calculate", "genex/lib/trillionDTW.cpp:lower_upper_lemire", "genex/lib/util.cpp:Index::diff", "genex/lib/deque.cpp"]}
{"id": "C51", "title": "Computed distances are close to the exact ones", "statement": "The distance computed in double arithmetic differs from the exact distance of the same points by at most (exact * len * 2^-45 + 2^-400), len being the sum of the lengths for warped distances and the common length for point-to-point ones: for a warped distance the exact value is the smallest cost over all alignments inside the band, so rounding cannot make the dynamic programming select a noticeably worse alignment; swapping the arguments changes the result only within that margin; a Euclidean cut-off keeps or drops a pair wrongly only if it lies within such a margin of the exact distance.", "quantifier": "all series of finite doubles (any magnitude that does not overflow) of up to 2^30 points, all bands, cut-offs, three metrics", "why_tests_cant": "rounding errors accumulate along the optimal path and comparisons of rounded sums decide the path; the bound must hold for all data and lengths", "anchors": ["genex/distance/Distance.hpp:warpedDistance", "genex/distance/Distance.hpp:pairwiseDistance", "genex/distance/Euclidean.hpp", "genex/distance/Manhattan.hpp", "genex/distance/Chebyshev.hpp"]}
{"id": "C52", "title": "The best match is close to the truly nearest subsequence", "statement": "After grouping with similarity threshold T, and any queries since, the distance reported by the best-match query exceeds the distance of no subsequence of a searched length by more than a fixed price: T/4 for the Euclidean metric, T/2 for Chebyshev and V*T/4 for Manhattan, where V is the number of query points one point can be aligned with inside the band (at most the query length and 2r+1). In double arithmetic the same holds up to a relative error of maxLength * 2^-41 and an absolute one of 2^-360. For Manhattan the answer can be farther than the nearest subsequence plus T.", "quantifier": "all data sets, thresholds, metrics, histories of queries, query series and band ratios", "why_tests_cant": "the guarantee compares the answer with every subsequence of every searched length and rests on a triangle-like inequality between an alignment cost and a point-to-point radius", "anchors": ["genex/group/GlobalGroupSpace.cpp:getBestMatch", "genex/group/LocalLengthGroupSpace.cpp:generateGroups", "genex/group/Group.cpp:getBestMatch", "genex/distance/Distance.hpp:warpedDistance"]}
{"id": "C53", "title": "The Python functions do what their documentation says", "statement": "A call of a function of the Python module with arguments for its documented parameters, by position, by keyword or left to their defaults, has the effect and the result of the documented function of the library; results are given in the documented form (lists of numbers, dictionaries of a match with distance, index, start and end, pairs of a matching), exceptions of the library become RuntimeError with its message. A table read with loadDataset is read back by getTimeSeries number by number, as a whole or from start to end-1. Declared default values can be used.", "quantifier": "all functions of the module, all ways to give the arguments, all states, files and environments", "why_tests_cant": "twenty functions with optional parameters have unboundedly many calls; a misaligned default or a swapped argument shows only for the calls nobody tried", "anchors": ["pygenex/GENEXBindings.cpp:BOOST_PYTHON_MODULE", "pygenex/GENEXBindings.cpp:loadDataset", "pygenex/GENEXBindings.cpp:getMatching", "pygenex/GENEXBindings.cpp:timeSeriesToPythonList", "pygenex/GENEXBindings.cpp:candidateTimeSeriesToPythonDict"]}
{"id": "C54", "title": "Wrong Python calls are refused and change nothing", "statement": "Calling an unknown function, with too few or too many arguments, with a keyword that names no parameter still to be given, with a value of the wrong type or with a number that does not fit raises AttributeError, ArgumentError or OverflowError and leaves the library unchanged; the name of a data set that is not in use raises RuntimeError with the message of the library and changes nothing. Every state a Python program reaches is one that as many calls of the library reach, so the guarantees for all histories hold for Python programs.", "quantifier": "all Python programs, all wrong calls in all states they reach", "why_tests_cant": "it ranges over all sessions and all malformed calls", "anchors": ["pygenex/GENEXBindings.cpp:BOOST_PYTHON_MODULE", "genex/GenexAPI.cpp:_checkDatasetName"]}
{"id": "C55", "title": "Distances and matchings of named stretches are those of the stretches named", "statement": "The distance between two stretches, each given by the name of its data set, the number of the series and the positions from start to end-1 (or the whole series), is the documented distance of exactly these points, warped distances with the band ratio set last in the session; the matching is an optimal warping path. Two stretches of different data sets, of one, or of one series may be compared. A series or positions that do not exist, different lengths for a point-to-point distance, an unknown distance and a matching for a distance without warping are refused by an exception of the library and change nothing. No call changes anything.", "quantifier": "all histories of calls, all pairs of stretches, metrics and band ratios, exact arithmetic and IEEE doubles", "why_tests_cant": "it ranges over all sessions and all data; an argument mixed up between the two series shows only if they come from different data sets", "anchors": ["genex/GenexAPI.cpp:distanceBetween", "genex/GenexAPI.cpp:matchingBetween", "genex/TimeSeriesSet.cpp:getTimeSeries", "genex/distance/Distance.cpp:getDistanceFromName"]}
{"id": "C56", "title": "Normalising a grouped data set: groups are kept and queries are about the normalised values", "statement": "Normalising a data set that has groups keeps its groups (the same representatives, counts and members). Queries afterwards are answered by the normalised values: the best match is the nearest member of the group with the nearest representative. The members of a group stay within half of the threshold of its representative.", "quantifier": "all histories with grouping, queries and normalising, all data, metrics and queries", "why_tests_cant": "it depends on what was asked before normalising; the wrong answer of one query after another history goes unnoticed", "anchors": ["genex/GenexAPI.cpp:normalizeDataset", "genex/TimeSeriesSet.cpp:normalize", "genex/TimeSeries.cpp:getKeoghLower", "genex/group/Group.cpp:distanceFromCentroid"]}
{"id": "C57", "title": "The k best matches are close to the truly nearest subsequences", "statement": "After grouping with similarity threshold T, and any queries since, a subsequence of a searched length that is missing in the answer to a query for k matches is not nearer to the query than any of the k answers by more than a fixed price: T/2 for the Euclidean metric, T for Chebyshev and (V+V')*T/4 for Manhattan, where V and V' are the numbers of query points that one point of the answer and of the missing subsequence can be aligned with inside the band. So fewer than k subsequences are nearer than an answer by more than that. In double arithmetic the same holds up to a relative error of maxLength * 2^-39 and an absolute one of 2^-360.", "quantifier": "all data sets, thresholds, metrics, histories of queries, query series, band ratios, k and numbers of subsequences to examine (at least k), with at least k searched subsequences, no two of their distances closer than 1e-9 unless equal", "why_tests_cant": "the guarantee compares each answer with every subsequence of every searched length", "anchors": ["genex/group/GlobalGroupSpace.cpp:getKBestMatches", "genex/group/LocalLengthGroupSpace.cpp:generateGroups", "genex/group/Group.cpp:intraGroupKSim", "genex/distance/Distance.hpp:warpedDistance"]}
{"id": "C58", "title": "Examining more subsequences never makes the answers worse", "statement": "Let a query for k matches be asked twice of the same grouped data set, with any queries in between, once examining h subsequences and once examining more. If no two groups of the searched lengths are equally far from the query, the i-th answer of the second query is not farther than the i-th answer of the first, for every i. (If two groups are equally far it can be farther: which of them is dropped depends on their sizes.)", "quantifier": "all data sets, thresholds, metrics, histories of queries, query series, band ratios, k and pairs of numbers of subsequences to examine (at least k), with at least k searched subsequences, no two of their distances closer than 1e-9 unless equal, and no two groups equally far", "why_tests_cant": "the claim compares two runs for every pair of effort parameters and every grouping; it fails only when groups tie", "anchors": ["genex/group/GlobalGroupSpace.cpp:getKBestMatches", "genex/group/LocalLengthGroupSpace.cpp:interLevelKSim", "genex/group/Group.cpp:intraGroupKSim"]}
{"id": "C59", "title": "With similarity threshold 0 the groups lose nothing", "statement": "After grouping with similarity threshold 0 and any queries since, the best match is a nearest of all subsequences of the searched lengths, and the answer to a query for k matches consists of k nearest ones, nearest first: what the exhaustive search is specified to give. (Exact arithmetic.)", "quantifier": "all data sets, metrics, histories of queries, query series, band ratios, k and numbers of subsequences to examine (at least k), lengths up to 2^30; for k matches: at least k searched subsequences, no two of their distances closer than 1e-9 unless equal", "why_tests_cant": "optimality is over all subsequences of all lengths, for all data and orders of grouping", "anchors": ["genex/group/GlobalGroupSpace.cpp:getBestMatch", "genex/group/GlobalGroupSpace.cpp:getKBestMatches", "genex/group/LocalLengthGroupSpace.cpp:generateGroups"]}
{"id": "C60", "title": "Data sets are released when, and only when, they are unloaded", "statement": "After any history of calls, failed loads included, the data set objects alive are exactly those of the names in use, a separate one for each name; an object once deleted is never alive again; when no name is in use, none is alive.", "quantifier": "all histories of interface calls that return or throw, in all surroundings (files, clock)", "why_tests_cant": "leaks and double deletions need particular sequences of loads, failures and unloads; the claim is for all of them", "anchors": ["genex/GenexAPI.cpp:loadDataset", "genex/GenexAPI.cpp:unloadDataset", "genex/GenexAPI.cpp:unloadAllDataset", "genex/TimeSeriesSet.cpp:loadData"]}
{"id": "C61", "title": "Group files are taken at their word", "statement": "Loading a file that describes groups of the data set, for the lengths saved files have, with every subsequence in exactly one group and one of its members as representative of each group, succeeds whoever wrote the file; the groups, threshold and distance of the data set are then exactly those described, the data is unchanged, and queries are answered from these groups as C23 and C24 say. A file for data of these dimensions that does not describe such groups is refused with an exception.", "quantifier": "all data sets, all partitions of their subsequences, all choices of representatives by the list of members, all thresholds, distances and later queries; all files", "why_tests_cant": "the files are arbitrary; a test can only try some partitions and some corruptions", "anchors": ["genex/GroupableTimeSeriesSet.hpp:load", "genex/group/GlobalGroupSpace.hpp:load", "genex/group/LocalLengthGroupSpace.hpp:load", "genex/group/Group.hpp:load"]}
{"id": "C62", "title": "A call that ends with an exception changes nothing", "statement": "If a call of the interface ends with an exception, then every later sequence of calls is answered exactly as if that call had not been made.", "quantifier": "all histories of calls, all calls that throw, all arguments and surroundings (files, clock), all later sequences of calls", "why_tests_cant": "the effect of a half-done call shows only in some later call, possibly much later; all continuations of all histories cannot be tried", "anchors": ["genex/GenexAPI.cpp:loadDataset", "genex/GenexAPI.cpp:preparePAA", "genex/GenexAPI.cpp:getKBestMatchesPAA", "genex/PAAWrapper.cpp:generatePAAMatrix"]}
{"id": "C63", "title": "Data sets do not influence each other", "statement": "Take any sequence of calls of which each either concerns only data sets with names in a given set, or does not load, unload, normalize, group, prepare or search the groups of any of these (and does not change the warping band or unload everything). If all calls end, then the replies to the calls of the first kind are the same as without the calls of the second kind.", "quantifier": "all histories, all sets of names, all interleavings of calls about these names with calls about others, including unloading and loading the other names again", "why_tests_cant": "an interference through shared state (the tables of data sets and preparations, freed memory) may need any number of calls in a particular order", "anchors": ["genex/GenexAPI.cpp:loadDataset", "genex/GenexAPI.cpp:unloadDataset", "genex/GenexAPI.cpp:preparePAA", "genex/GenexAPI.hpp:GenexAPI"]}
{"id": "C64", "title": "Queries leave no trace", "statement": "A call that only asks for something (listing, saving, searching, comparing) does not influence the reply to any later call, whether it is answered or ends with an exception. In particular the envelopes that searches keep for later searches change no answer. (This is said to hold even if the data set is normalized between the searches; it does not, see the manifest.)", "quantifier": "all histories of calls, all asking calls with all arguments, all later sequences of calls and surroundings", "why_tests_cant": "searches store envelopes inside the groups; whether a stored value is ever stale depends on any earlier and any later calls, such as changes of the warping band, regrouping, loading groups and other searches", "anchors": ["genex/group/Group.cpp:distanceFromCentroid", "genex/TimeSeries.cpp:getKeoghUpper", "genex/GenexAPI.cpp:getBestMatch", "genex/GenexAPI.cpp:getKBestMatches", "genex/GenexAPI.cpp:normalizeDataset"]}
{"id": "C65", "title": "The threshold and the number of groups", "statement": "Regrouping a data set with a larger threshold never gives more groups; if all subsequences of a length are within half the threshold of each other they form one group, and if all are farther apart each is a group of its own. (The first part is false for thresholds less than twice as large, see the manifest.)", "quantifier": "all data sets, groupable distances, pairs of thresholds, histories of calls before", "why_tests_cant": "the groups depend on the order in which subsequences are met, so a threshold that is a little larger can open groups that were not there; which factor is safe is a statement about all data sets", "anchors": ["genex/group/LocalLengthGroupSpace.cpp:generateGroups", "genex/GenexAPI.cpp:groupDataset"]}
{"id": "C66", "title": "A wider warping band never increases a distance", "statement": "After setting a larger warping band ratio no warped distance asked for becomes larger, the exhaustive search never reports a match that is farther away at the same rank, and neither does the search in the groups. With the narrowest band the warped distance is the point-to-point distance up to a factor, and it never exceeds it. (The last part of the first sentence is false, and in double arithmetic the first part only holds up to rounding for the sum distances, see the manifest.)", "quantifier": "all histories of calls, pairs of series, queries, ratios and distances", "why_tests_cant": "it relates two runs for every pair of series and ratios; the exceptions are off by the last digits or need a particular constellation of groups", "anchors": ["genex/distance/Distance.cpp:calculateWarpingBandSize", "genex/distance/Distance.hpp:warpedDistance", "genex/GenexAPI.cpp:setWarpingBandRatio", "genex/GenexAPI.cpp:distanceBetween", "genex/GroupableTimeSeriesSet.cpp:getBestMatch"]}
{"id": "C67", "title": "Normalising divides all distances of a data set by the same number", "statement": "After normalising a data set every distance between two stretches of it is the distance before divided by the difference of its largest and smallest value, for point-to-point and warped distances. So the exhaustive search for a part of the data set finds the same neighbours as before, and grouping with the threshold divided by the same number forms the same groups as before. (In double arithmetic both consequences are false, see the manifest.)", "quantifier": "all histories of calls, data sets, pairs of stretches, distances, queries, numbers of matches, thresholds", "why_tests_cant": "it relates the states before and after for all pairs of stretches; the exceptions are caused by rounding and by distances closer than 1e-9", "anchors": ["genex/TimeSeriesSet.cpp:normalize", "genex/distance/Distance.hpp:pairwiseDistance", "genex/distance/Distance.hpp:warpedDistance", "genex/GenexAPI.cpp:normalizeDataset", "genex/GenexAPI.cpp:groupDataset", "genex/TimeSeriesSet.cpp:getKBestMatchesBruteForce", "genex/TimeSeries.hpp:candidate_time_series_t"]}
{"id": "C68", "title": "Grouping large data sets stays within the range of int", "statement": "For every data set that can be loaded, grouping computes no int beyond the range of int, whenever the progress log is due.", "quantifier": "all data sets, distances, thresholds, numbers of threads, both modes, all moments at which the log is due", "why_tests_cant": "the overflow needs more than twenty million subsequences of one length and ten seconds without a log line", "anchors": ["genex/group/LocalLengthGroupSpace.cpp:generateGroups", "genex/group/Group.cpp:addMember", "genex/group/Group.cpp:getMembers"]}
{"id": "C69", "title": "Distances between series of whole numbers are exact up to the final rounding", "statement": "For series of whole numbers whose size and length leave the sums below 2^46, the warped distance is the least cost over all alignments in the band, computed without any rounding error, and rounded to the nearest double only in the final square root and division; likewise the distances of equal lengths without warping. Hence on such data the warped distances are symmetric and never grow when the band is widened, in the doubles the program computes.", "quantifier": "all pairs of series of whole numbers within the bound, all lengths up to 2^30, all bands, all distances", "why_tests_cant": "a claim about every value and every alignment, of which there are exponentially many", "anchors": ["genex/distance/Distance.hpp:warpedDistance", "genex/distance/Distance.hpp:pairwiseDistance", "genex/distance/Euclidean.hpp", "genex/distance/Manhattan.hpp", "genex/distance/Chebyshev.hpp"]}
{"id": "C70", "title": "The order of the series in the file does not matter, and additional series never hurt", "statement": "If one loaded data set has all the series of another, in any order and possibly with more series, then a search in it, exhaustive or through groups, never answers with a farther match, rank by rank; with the same series in another order the distances of the answers and the number of groups are the same.", "quantifier": "all pairs of data sets, histories, queries, distances, numbers of matches", "why_tests_cant": "all permutations and all supersets of all data sets", "anchors": ["genex/GroupableTimeSeriesSet.cpp:getKBestMatchesBruteForce", "genex/group/LocalLengthGroupSpace.cpp:generateGroups", "genex/group/GlobalGroupSpace.cpp:getBestMatch"]}
{"id": "C71", "title": "Saving a data set as text keeps its values", "statement": "The values that are loaded from a file written by saveDataset are the values that were saved; more precisely each is the saved value rounded to six decimal digits, values with at most six digits do not change, the sign is kept, and saving the loaded data set again writes the same file.", "quantifier": "all data sets of numbers of ordinary size, all separators that cannot occur in a number", "why_tests_cant": "all values of type double, all data sets and separators", "anchors": ["genex/TimeSeriesSet.cpp:saveData", "genex/TimeSeriesSet.cpp:loadData"]}
{"id": "C72", "title": "A data set whose saving was interrupted is noticed when it is loaded", "statement": "If saving a data set stops at any character of the file, loading the file either fails or gives the first series that were written completely and of the next one the values that were written; it does not silently give other data.", "quantifier": "all data sets, separators and crash points (numbers of characters written)", "why_tests_cant": "every crash point of every file", "anchors": ["genex/TimeSeriesSet.cpp:saveData", "genex/TimeSeriesSet.cpp:loadData"]}
{"id": "C73", "title": "What occurs in a data set is found when it is searched for", "statement": "If the values searched for are those of a stretch of the data set, the first answer has distance 0: of the exhaustive search, which returns the stretch itself unless enough other stretches have distance 0, and of the search in the groups.", "quantifier": "all histories of calls, data sets, stretches, distances, thresholds, bands, numbers of matches", "why_tests_cant": "whether the group that is entered contains the stretch depends on the order in which the groups were formed; it holds for most data and fails for some", "anchors": ["genex/GenexAPI.cpp:getBestMatch", "genex/GroupableTimeSeriesSet.cpp:getKBestMatchesBruteForce", "genex/group/GlobalGroupSpace.cpp:getBestMatch", "genex/group/LocalLengthGroupSpace.cpp:generateGroups"]}
{"id": "C74", "title": "When saveDataset returns, the data set is on the disk", "statement": "If saveDataset returns without an exception the file holds the whole data set, whatever room there is on the disk; if the data set cannot be written, the call raises an exception and the file is as before.", "quantifier": "all states, data sets, separators, amounts of room on the disk, earlier contents of the file", "why_tests_cant": "every amount of room, that is every place at which writing can stop", "anchors": ["genex/TimeSeriesSet.cpp:saveData", "genex/GenexAPI.cpp:saveDataset"]}
{"id": "C75", "title": "Turning both series upside down, shifting both, or reversing both in time does not change their distance", "statement": "For two stretches of loaded series and the same two stretches with every value negated, with the same number added to every value, or in reverse order, a distance call gives the same answer for both pairs, for each of the six Euclidean, Manhattan and Chebyshev distances. A data set and its negative are grouped alike, and the exhaustive search reports the same distances on both.", "quantifier": "All histories of calls, all pairs of stretches, all shifts, all band ratios, all distance names and thresholds, all data sets", "why_tests_cant": "The equality concerns every pair of series and every band. It holds in exact arithmetic, except that with a narrow band and series of different lengths reversing time changes the set of allowed alignments; and in doubles it depends on rounding, which only shows for particular magnitudes or orders of terms.", "anchors": ["genex/distance/Distance.hpp:pairwiseDistance", "genex/distance/Distance.hpp:warpedDistance", "genex/distance/Euclidean.hpp", "genex/distance/Manhattan.hpp", "genex/distance/Chebyshev.hpp", "genex/GenexAPI.cpp:distanceBetween", "genex/group/LocalLengthGroupSpace.cpp:generateGroups"]}
{"id": "C76", "title": "Every text file is either loaded or refused, and data sets can be managed afterwards without undefined behaviour", "statement": "Loading a data set from any text file, with any separators, start column, row limit and name column, ends with a loaded data set or with the library's exception, also when the device fails on the way. After any calls, saving, unloading, counting, naming, describing, reading stretches of, normalising and grouping data sets ends regularly or with an exception, whatever the arguments and the values are.", "quantifier": "All histories of calls, all file texts, all arguments of loading, all points of failure of the device, all values including infinities and NaN, all numbers of threads and distance names", "why_tests_cant": "The set of files and of histories is unbounded. Whether a write leaves the buffer depends on the interplay of the longest line anywhere in the file, the number of rows wanted and the columns skipped, and the damage of an out-of-bounds write need not show at once.", "anchors": ["genex/TimeSeriesSet.cpp:loadData", "genex/TimeSeriesSet.cpp:normalize", "genex/TimeSeriesSet.cpp:saveData", "genex/TimeSeriesSet.cpp:getTimeSeries", "genex/GenexAPI.cpp:loadDataset", "genex/GenexAPI.cpp:getDatasetInfo", "genex/GroupableTimeSeriesSet.cpp:groupAllLengths"]}
{"id": "C77", "title": "What the cosine and S\u00f8rensen distances compute", "statement": "The distance named \"sorensen\" of two series of one length is the sum of |x-y| divided by the sum of |x+y|, and the one named \"cosine\" is the cosine distance: small for series that point the same way and large for opposed ones. Their warped forms (\"cosine_dtw\", \"sorensen_dtw\") give the same formula summed along a warping path of the two series, or infinity. They behave like distances: from 0 for equal series upwards, and no detour is shorter.", "quantifier": "all series of any length and values (NaN and infinities included for the formula), all bands and cut-offs for the warped forms", "why_tests_cant": "a test fixes a few series and compares with numbers taken from the same code; which formula is computed for every series, in which order it is summed, and that a warped result always belongs to a warping path cannot be read off samples", "anchors": ["genex/distance/Cosine.hpp:Cosine", "genex/distance/Sorensen.hpp:Sorensen", "genex/distance/Distance.hpp:pairwiseDistance", "genex/distance/Distance.hpp:warpedDistance", "genex/distance/Distance.cpp:getDistanceFromName"]}
{"id": "C78", "title": "Missing values in the data", "statement": "A data set whose file contains missing values (the field nan, which is accepted when loading) can be used like any other: every distance, matching and search involving such a series ends, a missing value never turns into a number, and normalising scales the known values as if the missing ones were not there.", "quantifier": "all series and data sets with missing values at any positions, all cut-offs and histories of calls", "why_tests_cant": "a missing value compares false with everything, so its effect depends on the position of every value in the series and on the form of each comparison; a test of some positions says nothing about the others, and a call that never returns cannot be told from a slow one", "anchors": ["genex/distance/Distance.hpp:warpedDistance", "genex/distance/Distance.hpp:pairwiseDistance", "genex/distance/Chebyshev.hpp:Chebyshev", "genex/TimeSeriesSet.cpp:normalize", "genex/TimeSeriesSet.cpp:loadData", "genex/GenexAPI.cpp:distanceBetween"]}
{"id": "C79", "title": "Interrupted grouping runs can be resumed", "statement": "The grouping script (scripts/2_generate_groups.py) can be killed at any moment and started again: a grouping that its records file lists as done has complete and right group and size files, a later run makes exactly the groupings that are asked for and not listed, each once, and in the end the group files are the same as after one run without interruption. A dry run changes no file.", "quantifier": "all records files, command lines, data sets and library results, all histories of runs, each killed at any point (also in the middle of writing a file) or not", "why_tests_cant": "the claim is about every point where the process can be killed and every sequence of killed runs; a test kills at a few points, and the harmful one is the short moment while the records file is rewritten", "anchors": ["scripts/2_generate_groups.py:group_dataset", "scripts/2_generate_groups.py:progress", "scripts/2_generate_groups.py:exclude", "scripts/common.py:check_subseq_range", "pygenex/GENEXBindings.cpp:saveGroupsSize"]}
{"id": "C80", "title": "Queries and results of the experiment scripts", "statement": "The experiment scripts (scripts/3_brute_force.py, 4_paa.py) generate as many random queries as asked for, half of them from the data set, each a stretch of at least two points of an existing series, and any such stretch can come up. All scripts use the same queries. They can be killed and started again: a later run searches exactly the queries without a result, each once, no result is lost, and every result in the file is what the library answers for the method, distance, query and number of matches asked for.", "quantifier": "all random numbers, sizes of data sets, numbers of queries, distances, library answers, results files, and all histories of runs of the scripts, each killed at any step or not", "why_tests_cant": "the random numbers, the point where a run is killed and the sequence of runs are all arbitrary; tests with a fixed seed and uninterrupted runs see none of the bad cases", "anchors": ["scripts/common.py:generate_random_queries", "scripts/common.py:get_queries", "scripts/common.py:get_results_object", "scripts/3_brute_force.py:run_brute_force", "scripts/4_paa.py:run_paa"]}
{"id": "C81", "title": "Approximate answers are never better than exhaustive ones", "statement": "A query for k matches against groups never answers with a smaller distance than the exhaustive search at the same position. So the error that the experiments compute (the mean difference of the distances) is never negative, it is zero only if all distances agree, and no distance is off by more than k times the error. If all subsequences are looked at, the error is zero.", "quantifier": "all data sets, groupings, histories of queries, queries, band ratios, k and extents of search", "why_tests_cant": "the comparison has to hold for every query, grouping and extent; the experiments' stop rule (error below 1e-9) relies on it for runs nobody checks by hand", "anchors": ["scripts/common.py:compute_rel_error", "scripts/5_genex.py:run_genex", "genex/GroupableTimeSeriesSet.cpp:getKBestMatches", "genex/TimeSeriesSet.cpp:getKBestMatchesBruteForce"]}
{"id": "C82", "title": "Looking at more subsequences does not make answers worse", "statement": "A query for k matches that looks at more subsequences never gives a larger distance at any position of the answer, and asking for more matches while looking at the same number of subsequences does not change the distances of the first ones.", "quantifier": "all data sets, groupings, histories of queries, queries, band ratios, numbers of matches and extents of search", "why_tests_cant": "the groups kept depend on the sizes and distances of all groups and on the order they are met; a drop of a whole group shows only for particular sizes and extents", "anchors": ["genex/group/LocalLengthGroupSpace.cpp:interLevelKSim", "genex/group/GlobalGroupSpace.cpp:getKBestMatches", "genex/GroupableTimeSeriesSet.cpp:getKBestMatches", "genex/GenexAPI.cpp:getKBestMatches"]}
{"id": "C83", "title": "What the experiments on groups explore, record and skip", "statement": "The experiment script for group-based search tries, for each query, the searches that look at 0.1 %, 0.2 %, ..., 100 % of the data set's subsequences, each rounded to the nearest whole number, and records the error of each up to the first one below 1e-9. Entries already recorded are kept and not repeated; a run that comes to the end has an entry for every query, distance and existing group file, and the errors if an exhaustive answer is recorded. In exact arithmetic the last search finds the exhaustive answer, so the recorded errors are not negative and end with zero. Every data set is processed whatever happens to the others.", "quantifier": "all data set sizes up to 2^39 subsequences, all numbers of matches, queries, recorded results, library answers and sequences of data sets", "why_tests_cant": "The extents are computed in floating point from a step of 0.1 for every possible size; the records depend on the whole history of earlier results and on every answer of the library.", "anchors": ["scripts/5_genex.py:run_genex", "scripts/common.py:compute_rel_error", "scripts/common.py:get_dataset_order", "genex/GroupableTimeSeriesSet.cpp:GroupableTimeSeriesSet::getKBestMatches"]}
{"id": "C84", "title": "Preparing the archive and recording its data sets", "statement": "The preparing script makes, in whatever order the archive is listed, the two copies of every data set and changes nothing else, wherever it is stopped; it can be run again, for instance after it was stopped. The recording script writes, in whatever order the files are listed, the number and length of the series of the data and of the queries of every data set and the number of their subsequences, and the scripts after it see exactly the data sets.", "quantifier": "all archives, listing orders, points at which the script is stopped, names of data sets and contents of files", "why_tests_cant": "Listing orders, names and the point of an interruption cannot be enumerated.", "anchors": ["scripts/0_process_ucr.py", "scripts/1_extract_info.py", "scripts/common.py:get_dataset_order"]}
{"id": "C85", "title": "What grouping does with an infinite, undefined or negative threshold", "statement": "Grouping accepts any number as threshold. If it is infinite or not a number, and the distance between the first subsequence of each grouped length and every other subsequence of that length is a number below infinity, then every length ends up as one group that holds all subsequences of the length and is represented by the first one. If some such distance is infinite or not a number, grouping uses a group index that was never set. If half the threshold is negative, every subsequence of finite values is a group of its own.", "quantifier": "every loaded data set, the three basic metrics, every threshold that is infinite or not a number (doubles) or whose half is negative (any arithmetic), every number of threads, whole-series grouping or all lengths", "why_tests_cant": "whether grouping works depends on every distance from the first subsequence of each length; reading an unset variable often goes unnoticed in a test", "anchors": ["genex/group/LocalLengthGroupSpace.cpp:generateGroups", "genex/group/GlobalGroupSpace.cpp:group", "genex/GroupableTimeSeriesSet.cpp:groupAllLengths", "genex/GenexAPI.cpp:groupDataset"]}
{"id": "C86", "title": "Subsequences with the same values are treated alike by grouping", "statement": "After grouping, subsequences of one length with the same values are in the same group.", "quantifier": "every data set, every grouped length, every pair of subsequences with equal values, the three basic metrics, every threshold that is not negative", "why_tests_cant": "which group a subsequence joins depends on the groups founded before it, so the answer depends on all data processed earlier; a test fixes one history", "anchors": ["genex/group/LocalLengthGroupSpace.cpp:generateGroups", "genex/group/LocalLengthGroupSpace.cpp:getBestGroup", "genex/GroupableTimeSeriesSet.cpp:groupAllLengths"]}
{"id": "C87", "title": "What a call computes from a series depends only on its values", "statement": "In every reachable state, if two ways of naming a series (data set, number, start and end) name the same values, then getBestMatch, getKBestMatches, getKBestMatchesBruteForce and getKBestMatchesPAA give the same outcome for both on every target, and leave the same state behind. The same holds for distanceBetween and matchingBetween in either argument.", "quantifier": "every history of API calls, every pair of stretches with equal values, every target, k, number of examined subsequences, distance name and band ratio, every number system, every standard library", "why_tests_cant": "A test compares a few ways of naming a query. The envelope code reads the memory of the series through a raw pointer and could read values before the start or behind the end of the stretch, and caches could leak from one series to another; that this never influences any answer is a statement about all data sets around the stretch.", "anchors": ["genex/GenexAPI.cpp:getBestMatch", "genex/GenexAPI.cpp:getKBestMatches", "genex/GenexAPI.cpp:getKBestMatchesBruteForce", "genex/GenexAPI.cpp:getKBestMatchesPAA", "genex/GenexAPI.cpp:distanceBetween", "genex/GenexAPI.cpp:matchingBetween", "genex/TimeSeries.cpp:generateKeoghLU", "genex/lib/trillionDTW.cpp:lower_upper_lemire"]}
{"id": "C88", "title": "Asking for one match is asking for the best match", "statement": "On a grouped data set, if no two distances of the subsequences searched differ by less than 1e-9 without being equal, getKBestMatches for one match that looks at one subsequence answers exactly what getBestMatch answers: the same subsequence, with the same distance. It also leaves the same data set behind, caches included.", "quantifier": "every data set of moderate values (or of reals), every grouping of it, every sequence of earlier queries, every query, band ratio in [0,1] and built-in distance, every correct implementation of the standard heap and sort functions", "why_tests_cant": "The two searches are separate code: one keeps a running minimum, the other a heap of groups, a counter of missing members and a heap of members. That they agree for every grouping, every tie between equal distances and every state of the caches is a statement about all data.", "anchors": ["genex/group/GlobalGroupSpace.cpp:getBestMatch", "genex/group/GlobalGroupSpace.cpp:getKBestMatches", "genex/group/LocalLengthGroupSpace.cpp:getBestGroup", "genex/group/LocalLengthGroupSpace.cpp:interLevelKSim", "genex/group/Group.cpp:getBestMatch", "genex/group/Group.cpp:intraGroupKSim", "genex/TimeSeries.hpp:candidate_time_series_t"]}
{"id": "C89", "title": "Asking for fewer matches gives the beginning of the longer list", "statement": "If getKBestMatches answers for k' matches, then for k <= k' matches and the same number of examined subsequences it answers the first k of them, and leaves the same state. For getKBestMatchesBruteForce the distances for k matches are the first k distances for k' matches (subsequences at equal distances may differ), if no two distances differ by less than 1e-9 without being equal.", "quantifier": "group search: every state, every number system, every implementation of the standard functions, every 0 <= k <= k'; brute force: every data set of moderate values (or of reals), query, band ratio in [0,1], built-in distance and 1 <= k <= k'", "why_tests_cant": "The brute force search keeps k candidates in a heap and cuts distance computations off at the k-th best, so a different k changes nearly every step; that the distances still agree for all data, ties included, is a statement about every input.", "anchors": ["genex/GenexAPI.cpp:getKBestMatches", "genex/GroupableTimeSeriesSet.cpp:getKBestMatches", "genex/TimeSeriesSet.cpp:getKBestMatchesBruteForce"]}
{"id": "C90", "title": "The order of the two series does not matter for their distance", "statement": "Asking for the distance of series or stretch A to B returns what asking for the distance of B to A returns, for every distance name. This is true of the five paired distances: for all doubles, infinities and not-a-numbers included, both requests have the same outcome, also when it is an exception. For the warped distances it is true in exact numbers for the euclidean, manhattan and chebyshev kinds, in doubles for the chebyshev kind, and in doubles for whole numbers that are not too large; otherwise the euclidean and manhattan ones may differ in their last digits, and the warped cosine and sorensen ones may be far apart.", "quantifier": "all histories of calls, all loaded series and stretches, all values, all distance names, all band ratios", "why_tests_cant": "Differences appear only where two sums become equal when divided, or where a cheapest step is not part of a cheapest path; a test compares a few pairs of series.", "anchors": ["genex/GenexAPI.cpp:distanceBetween", "genex/distance/Distance.hpp:warpedDistance", "genex/distance/Distance.hpp:pairwiseDistance", "genex/distance/Cosine.hpp", "genex/distance/Sorensen.hpp", "genex/distance/Euclidean.hpp", "genex/distance/Manhattan.hpp", "genex/distance/Chebyshev.hpp"]}
{"id": "C91", "title": "Grouping again makes all earlier groups forgotten", "statement": "Grouping a data set, or successfully loading groups for it, gives the same reply, and lets every later call give the same reply, whatever was done with the groups of the data set before: earlier groupings (successful or not), loads of groups (successful or not), and searches.", "quantifier": "all histories of API calls before, all sequences of calls that make, load or search the groups of the data set or only ask for something and that return or raise an exception, all thresholds, distances, thread counts and files", "why_tests_cant": "Left-overs of earlier groups or of envelopes cached by searches would show only after particular sequences of groupings, failures and searches; a test tries a few of infinitely many.", "anchors": ["genex/GenexAPI.cpp:groupDataset", "genex/GenexAPI.cpp:loadGroups", "genex/GenexAPI.cpp:loadGroupsOld", "genex/GroupableTimeSeriesSet.cpp:groupAllLengths"]}
{"id": "C92", "title": "The warping band matters for warped distances only", "statement": "Setting the warping band and then making a call that is neither a search nor a matching nor asks for a warped distance, or making that call and then setting the band, gives the same replies and lets every later call give the same reply. In particular groups never depend on the band in force when they were made, and normalising, preparing PAA, loading, saving and point-to-point distances do not depend on it.", "quantifier": "all states of the API, all bands, all calls of these kinds with all arguments, including calls that fail or end in undefined behaviour", "why_tests_cant": "A dependence could show for one distance, band and data set only; a test tries a few of infinitely many.", "anchors": ["genex/GenexAPI.cpp:setWarpingBandRatio", "genex/GenexAPI.cpp:groupDataset", "genex/group/GlobalGroupSpace.cpp:_loadDistance", "genex/distance/Distance.cpp:getDistanceFromName"]}
{"id": "C93", "title": "Groups influence nothing but the calls about groups", "statement": "Take any sequence of calls that all return or raise an exception. Leaving out the calls about groups (making, saving, loading and searching them, and asking for the description of data sets) changes no reply to the others: exhaustive searches, PAA searches, distances, matchings, normalising, extraction, saving and managing data sets answer as if nothing had ever been grouped, and no group call that fails can disturb them.", "quantifier": "all states of the API, all sequences of calls of any length with any arguments and any surroundings (files, clock, printing and parsing), any number system", "why_tests_cant": "Groups refer to the data they were made of and searching them fills caches; that none of this ever reaches another call is a statement about all interleavings of calls.", "anchors": ["genex/GenexAPI.cpp:groupDataset", "genex/GenexAPI.cpp:getKBestMatchesBruteForce", "genex/GenexAPI.cpp:getKBestMatchesPAA", "genex/GenexAPI.cpp:normalizeDataset", "genex/GroupableTimeSeriesSet.cpp:groupAllLengths"]}
{"id": "C94", "title": "Preparing PAA and searching with it influence nothing else", "statement": "Take any sequence of calls that all return or raise an exception. Leaving out the calls that prepare PAA or search with PAA changes no reply to the others.", "quantifier": "all states of the API, all sequences of calls of any length with any arguments and any surroundings, any number system", "why_tests_cant": "The PAA preparation is kept beside the data set and unloading treats it specially; that it never reaches another call is a statement about all interleavings of calls.", "anchors": ["genex/GenexAPI.cpp:preparePAA", "genex/GenexAPI.cpp:getKBestMatchesPAA", "genex/GenexAPI.cpp:unloadDataset", "genex/PAAWrapper.cpp:generatePAAMatrix"]}
{"id": "C95", "title": "Data sets under unused names do not depend on what was done before", "statement": "Take two processes with any histories in which the same warping band is in force. If the names of some data sets are not in use in either and were never prepared for PAA, then the same sequence of calls about data sets with these names gets the same replies in both. In particular a data set that is unloaded and loaded again answers like one loaded by a new process.", "quantifier": "all pairs of histories of API calls, all sets of names, all sequences of calls about data sets with these names, any surroundings, any number system", "why_tests_cant": "Left-overs of earlier data sets show only after particular histories; there are infinitely many, and pairs of them.", "anchors": ["genex/GenexAPI.cpp:loadDataset", "genex/GenexAPI.cpp:unloadDataset", "genex/GenexAPI.cpp:unloadAllDataset", "genex/GenexAPI.cpp:preparePAA"]}
{"id": "C96", "title": "Calls about different data sets can be made in either order", "statement": "Two successive calls that return or raise an exception, of which neither is meant to change a data set the other is about (and neither sets the warping band, counts or lists data sets, or unloads everything), can be swapped: both get the same replies, and so do all later calls. In particular the order in which data sets are loaded does not matter.", "quantifier": "all histories of API calls before, all such pairs of calls with all arguments, all sequences of later calls of any kind, any surroundings, any number system", "why_tests_cant": "It is a statement about every pair of calls in every reachable state and about everything that can be observed afterwards.", "anchors": ["genex/GenexAPI.cpp:loadDataset", "genex/GenexAPI.cpp:unloadDataset", "genex/GenexAPI.cpp:groupDataset", "genex/GenexAPI.cpp:normalizeDataset", "genex/GenexAPI.cpp:getBestMatch"]}
