{"id": "C01", "title": "Keogh envelope is the sliding-window min/max", "statement": "For every series without NaN and every band r with 0 <= r, getKeoghLower(r)[i] / getKeoghUpper(r)[i] are the minimum / maximum of the values at positions max(0,i-r)..min(len-1,i+r), and computing them never reads or writes outside the arrays or the circular buffers.", "quantifier": "all series of length >= 1, all bands, all positions", "why_tests_cant": "The two-deque algorithm has data-dependent pops; a test exercises a handful of shapes.", "anchors": ["src/lib/trillionDTW.cpp:lower_upper_lemire", "src/lib/deque.cpp:deque", "src/TimeSeries.cpp:TimeSeries::generateKeoghLU"]}
{"id": "C02", "title": "Circular deque behaves like a queue", "statement": "As long as it is never filled beyond its capacity and never popped or read while empty, the circular-array deque behaves like a list: push_back appends, pop_back/pop_front drop the last/first element, front/back/empty report the first/last element and emptiness.", "quantifier": "all capacities >= 1 and all operation histories respecting size <= capacity", "why_tests_cant": "Wrap-around positions depend on the whole history.", "anchors": ["src/lib/deque.cpp:deque"]}
{"id": "C03", "title": "Warped distance is the optimum over warping paths in the band", "statement": "For series of length >= 2 whose path costs do not overflow, warpedDistance(a,b,INF) = sqrt(C)/(2*max(|a|,|b|)) where C is the least accumulated squared difference over all monotone warping paths from (0,0) to (|a|-1,|b|-1) staying within the Sakoe-Chiba band; it is INF exactly when no such path exists. Holds in IEEE double arithmetic (cost accumulated along the path) and in exact arithmetic.", "quantifier": "all pairs of series, all lengths >= 2, all band ratios >= 0", "why_tests_cant": "Exponentially many paths; tests check a few matrices.", "anchors": ["src/distance/Distance.cpp:warpedDistance", "src/distance/Distance.cpp:calculateWarpingBandSize"]}
{"id": "C04", "title": "Warped and pairwise distances are symmetric", "statement": "warpedDistance(a,b,INF) = warpedDistance(b,a,INF) for lengths >= 2 and pairwiseDistance(a,b,INF) = pairwiseDistance(b,a,INF), bit for bit in IEEE double arithmetic, for finite (non overflowing) data.", "quantifier": "all pairs of series", "why_tests_cant": "A law over all pairs.", "anchors": ["src/distance/Distance.cpp:warpedDistance", "src/distance/Distance.cpp:pairwiseDistance"]}
{"id": "C05", "title": "Distance of a series to itself is zero and distances are never negative", "statement": "For finite data, warpedDistance(a,a,d) and pairwiseDistance(a,a,d) and cascadeDistance(a,a,d) are exactly 0 for every dropout d >= 0, and no distance is ever negative or NaN.", "quantifier": "all series, all dropouts", "why_tests_cant": "A law over all inputs, including rounding.", "anchors": ["src/distance/Distance.cpp:warpedDistance", "src/distance/Distance.cpp:pairwiseDistance", "src/distance/Distance.cpp:cascadeDistance"]}
{"id": "C06", "title": "Keogh lower bound is admissible", "statement": "keoghLowerBound(a,b,d) <= warpedDistance(a,b,INF) and crossKeogh with d=INF is <= warpedDistance(a,b,INF), for series of any (possibly different) lengths >= 2, in IEEE double arithmetic, rounding included, when path costs do not overflow.", "quantifier": "all pairs of series, all ratios >= 0, all dropouts", "why_tests_cant": "Admissibility is a universally quantified inequality; one violating pair silently changes answers.", "anchors": ["src/distance/Distance.cpp:keoghLowerBound", "src/distance/Distance.cpp:crossKeoghLowerBound"]}
{"id": "C07", "title": "Cascade returns either INF or the true warped distance; the Keogh stage prunes only strictly worse candidates", "statement": "cascadeDistance(a,b,d) is INF or equals warpedDistance(a,b,INF) exactly; if the Keogh stage prunes then warpedDistance(a,b,INF) > d. In IEEE double arithmetic.", "quantifier": "all pairs, all dropouts", "why_tests_cant": "Pruning errors only show when a bound is near the dropout.", "anchors": ["src/distance/Distance.cpp:cascadeDistance", "src/distance/Distance.cpp:crossKeoghLowerBound", "src/distance/Distance.cpp:warpedDistance"]}
{"id": "C08", "title": "Early abandoning never discards an improving candidate", "statement": "In exact arithmetic, warpedDistance(a,b,d) and cascadeDistance(a,b,d) return the true distance W = warpedDistance(a,b,INF) whenever W <= d, and W or INF otherwise. In IEEE double arithmetic a candidate can be discarded although W < d (a witness exists), but then no double lies strictly between W and d: the loss is at most one unit in the last place.", "quantifier": "all pairs, all dropouts", "why_tests_cant": "Needs all thresholds around all distances.", "anchors": ["src/distance/Distance.cpp:warpedDistance", "src/distance/Distance.cpp:_euc_inorm_dtw"]}
{"id": "C09", "title": "Pairwise distance value and dropout", "statement": "pairwiseDistance(a,b,d) on equal lengths n>=1 is sqrt(sum (a_i-b_i)^2 / n) or INF; with d=INF it is never INF unless an operation overflows; in exact arithmetic it is INF exactly when that value exceeds d (d >= 0). On different lengths it throws.", "quantifier": "all pairs, all dropouts", "why_tests_cant": "A law over all inputs.", "anchors": ["src/distance/Distance.cpp:pairwiseDistance", "src/distance/Distance.cpp:_euc_norm", "src/distance/Distance.cpp:_euc_inorm"]}
{"id": "C10", "title": "Pairwise distance is a metric", "statement": "In exact arithmetic pairwiseDistance(.,.,INF) on series of one length satisfies the triangle inequality, symmetry, and is 0 only for equal series.", "quantifier": "all triples of series of one length", "why_tests_cant": "Universally quantified inequality (Minkowski).", "anchors": ["src/distance/Distance.cpp:pairwiseDistance"]}
{"id": "C11", "title": "Length-one series are an edge case of warpedDistance", "statement": "With a side of length 1 the band and dropout guarantees of C03/C08 fail: there are a,b with |b|=1 for which warpedDistance(a,b,INF) is finite although the end cell is outside the band and for which a huge finite dropout yields INF. getBestMatch never calls the distance with such a side when the series of the result dataset have at least two points, in any session reachable by API calls and for any query. (It can when a group file with a negative start was loaded and the series were then reduced by PAA to one point.)", "quantifier": "existence of a failing pair; all reachable sessions, queries and result datasets", "why_tests_cant": "The failing corner must be exhibited and its unreachability shown for all calls.", "anchors": ["src/distance/Distance.cpp:warpedDistance", "src/GlobalGroupSpace.cpp:GlobalGroupSpace::getBestMatch"]}
{"id": "C12", "title": "Overflowing values break warpedDistance", "statement": "There are finite doubles for which warpedDistance of two different equal-length series is 0 because an overflowed cell falls back to an out-of-band cell; for data bounded by 2^500 in magnitude and lengths up to 2^20 this cannot happen.", "quantifier": "existence; all bounded data", "why_tests_cant": "Requires reasoning on every cell of every matrix.", "anchors": ["src/distance/Distance.cpp:warpedDistance"]}
{"id": "C13", "title": "Kim lower bound", "statement": "In exact arithmetic kimLowerBound(a,b,INF) is at most the squared optimal warping cost when min length >= 3 and max length >= 6, or min length = 4; with a dropout it is then at most that cost, or infinite and the cost is at least the dropout. In doubles, for series of three points or more, a dropout gives the bound without dropout or infinity, and infinity only if the bound is not below the dropout. Series of length 0 and 1 ignore the dropout; length 2 throws without a dropout; it is not a lower bound for 3x3 or 5x5 series, nor comparable with the normalised distance.", "quantifier": "all pairs of series, all dropouts", "why_tests_cant": "Admissibility over all pairs.", "anchors": ["src/distance/Distance.cpp:kimLowerBound"]}
{"id": "C14", "title": "Warping band size is in range", "statement": "For every length k (1 <= k <= 2^30) and ratio in [0,1], calculateWarpingBandSize is between 0 and k-1 and nondecreasing in k, and k minus band is nondecreasing (exact arithmetic; in IEEE doubles for k <= 2^26). A ratio of at least 1 gives band k-1 as long as k*ratio fits an int; once k*ratio reaches 2^31 the conversion to int is undefined behaviour.", "quantifier": "all lengths, all ratios", "why_tests_cant": "All inputs.", "anchors": ["src/distance/Distance.cpp:calculateWarpingBandSize"]}
{"id": "C15", "title": "Traverse order enumerates exactly the band-compatible lengths", "statement": "generateTraverseOrder(q,n) terminates for all arguments; for a ratio in [0,1] it starts with q, lists no length twice, lists only q and lengths in [2,max(q,n)], and among the lengths L in [2,n] lists exactly q and those with |L-q| <= band(max(L,q)), lower lengths in decreasing and higher lengths in increasing order.", "quantifier": "all q, n, ratios", "why_tests_cant": "Loop termination and completeness for all arguments.", "anchors": ["src/GlobalGroupSpace.cpp:generateTraverseOrder"]}
{"id": "C16", "title": "Skipped lengths cannot contain a match", "statement": "Every series whose length is not visited by the traverse order has warpedDistance INF from the query, so visiting only those lengths loses nothing.", "quantifier": "all queries, all candidate series", "why_tests_cant": "Universally quantified over skipped candidates.", "anchors": ["src/GlobalGroupSpace.cpp:GlobalGroupSpace::getBestMatch", "src/distance/Distance.cpp:warpedDistance"]}
{"id": "C17", "title": "Grouping partitions all subsequences", "statement": "After groupDataset (of any doubles, NaN and infinities included) with a threshold whose half is below INF, for every length L in 2..itemLength every subsequence (series index, start) of that length is a member of exactly one group, exactly once, and every member is such a subsequence; member counts reported by groups equal the number of members.", "quantifier": "all datasets, all thresholds, all lengths", "why_tests_cant": "Members are threaded through one shared array of back links; only an invariant covers all insert orders.", "anchors": ["src/LocalLengthGroupSpace.cpp:generateGroups", "src/Group.cpp:addMember", "src/Group.cpp:getMembers"]}
{"id": "C18", "title": "Members are within half the threshold of their representative", "statement": "After groupDataset(thr) with thr >= 0 and finite data, every member's pairwiseDistance to its group's representative is <= thr/2 (as computed in IEEE double arithmetic).", "quantifier": "all datasets, thresholds, groups, members", "why_tests_cant": "All members of all groupings.", "anchors": ["src/LocalLengthGroupSpace.cpp:generateGroups"]}
{"id": "C19", "title": "Group diameter is at most the threshold", "statement": "In exact arithmetic, any two members of one group are within thr of each other in pairwiseDistance.", "quantifier": "all datasets, thresholds, pairs of members", "why_tests_cant": "Needs the triangle inequality for all members.", "anchors": ["src/LocalLengthGroupSpace.cpp:generateGroups", "src/distance/Distance.cpp:pairwiseDistance"]}
{"id": "C20", "title": "Representatives are real members and are separated", "statement": "Each group's representative is its first inserted member; in exact arithmetic two representatives of one length are more than thr/2 apart.", "quantifier": "all datasets, thresholds, pairs of groups", "why_tests_cant": "Invariant over insertion history.", "anchors": ["src/LocalLengthGroupSpace.cpp:generateGroups", "src/Group.cpp:setCentroid"]}
{"id": "C21", "title": "A subsequence joins the nearest existing representative", "statement": "In exact arithmetic, when a subsequence is processed it joins the group whose representative is nearest among the groups existing at that moment (lowest index on ties) unless all are farther than thr/2, in which case it founds a new group.", "quantifier": "all datasets, thresholds, insertion points", "why_tests_cant": "History-dependent.", "anchors": ["src/LocalLengthGroupSpace.cpp:generateGroups"]}
{"id": "C22", "title": "groupDataset's return value and repeatability", "statement": "groupDataset returns the total number of groups over all lengths; the groups depend only on the data and the threshold (not on earlier groups, the clock or the ratio in force when it is repeated); regrouping discards all earlier groups; it does not modify the data, the files or other datasets.", "quantifier": "all datasets, thresholds, histories", "why_tests_cant": "History independence.", "anchors": ["src/GlobalGroupSpace.cpp:group", "src/GroupableTimeSeriesSet.cpp:groupAllLengths"]}
{"id": "C23", "title": "Extreme thresholds", "statement": "A threshold whose half is below 0 (every negative double but the one nearest to 0, whose half rounds to -0) makes every subsequence its own group (IEEE double arithmetic, finite data); with threshold 0 in exact arithmetic two subsequences share a group iff they are equal.", "quantifier": "all datasets", "why_tests_cant": "All data.", "anchors": ["src/LocalLengthGroupSpace.cpp:generateGroups"]}
{"id": "C24", "title": "Infinite or NaN thresholds can reach undefined behaviour", "statement": "There is a dataset of finite doubles and an infinite threshold for which groupDataset uses an uninitialised group index; with a threshold whose half is below INF this never happens.", "quantifier": "existence; all datasets", "why_tests_cant": "Needs all datasets.", "anchors": ["src/LocalLengthGroupSpace.cpp:generateGroups"]}
{"id": "C25", "title": "Best match is a real subsequence with its true distance", "statement": "When getBestMatch returns, the result denotes a subsequence inside the target dataset with length in 2..itemLength, and its distance field equals warpedDistance(query, that subsequence, INF).", "quantifier": "all grouped datasets, all queries of length 2..itemLength", "why_tests_cant": "All queries.", "anchors": ["src/GlobalGroupSpace.cpp:getBestMatch", "src/Group.cpp:getBestMatch"]}
{"id": "C26", "title": "Best match is optimal inside the group with the nearest representative", "statement": "In exact arithmetic the group searched has the least warpedDistance between query and representative over all groups of all lengths, and the result has the least warpedDistance over the members of that group.", "quantifier": "all grouped datasets, queries", "why_tests_cant": "Optimality over all groups and members.", "anchors": ["src/GlobalGroupSpace.cpp:getBestMatch", "src/LocalLengthGroupSpace.cpp:getBestGroup", "src/Group.cpp:getBestMatch"]}
{"id": "C27", "title": "Best match is at least as good as every representative", "statement": "In exact arithmetic the returned distance is <= warpedDistance(query, representative) for every representative; hence it is 0 if the query equals some representative.", "quantifier": "all grouped datasets, queries", "why_tests_cant": "All representatives.", "anchors": ["src/GlobalGroupSpace.cpp:getBestMatch"]}
{"id": "C28", "title": "Querying with a subsequence of the dataset need not give distance 0", "statement": "There is a dataset, threshold and stored subsequence for which getBestMatch on that subsequence returns a positive distance although an exact copy exists.", "quantifier": "existence", "why_tests_cant": "Shows the limit of the approximation; tests assert 0 on friendly data.", "anchors": ["src/GlobalGroupSpace.cpp:getBestMatch"]}
{"id": "C29", "title": "Matching rejects bad requests", "statement": "getBestMatch throws an OnexException, leaving everything unchanged, for unknown dataset ids, series index out of range, invalid [start,end), ungrouped target, or query length <= 1.", "quantifier": "all states, all bad arguments", "why_tests_cant": "All argument combinations.", "anchors": ["src/OnexAPI.cpp:getBestMatch", "src/TimeSeriesSet.cpp:getTimeSeries", "src/GroupableTimeSeriesSet.cpp:getBestMatch"]}
{"id": "C30", "title": "Query longer than the target's series", "statement": "Every match whose query is longer than the target dataset's series indexes the group table out of bounds (undefined behaviour); for query lengths 2..itemLength on a freshly grouped dataset of bounded finite data and ratio >= 0 a match never has undefined behaviour and always returns.", "quantifier": "all datasets and queries", "why_tests_cant": "All lengths and data.", "anchors": ["src/GlobalGroupSpace.cpp:getBestMatch", "src/GlobalGroupSpace.cpp:generateTraverseOrder"]}
{"id": "C31", "title": "Keogh envelopes are cached coherently only while data is not replaced", "statement": "For every history of envelope requests with any bands and += updates on any number of series that do not share memory, each request returns the sliding-window minima and maxima of the current values. The envelope is stale, however, after assignment to a series (and too short if the assigned series is longer), after a write through operator[], after += through another series on the same memory, and after normalizing a dataset whose groups were already matched, where getBestMatch then returns a worse answer.", "quantifier": "all histories, numbers of series and bands; existence for the stale cases", "why_tests_cant": "History dependent mutable cache.", "anchors": ["src/TimeSeries.cpp:getKeoghLower", "src/TimeSeries.cpp:operator=", "src/TimeSeries.cpp:operator+=", "src/TimeSeriesSet.cpp:normalize"]}
{"id": "C32", "title": "PAA averages blocks", "statement": "For n >= 1 PAA(n) keeps the number of series, makes the length ceil(len/n), and value k of each series is the mean of the original values k*n .. min(len,(k+1)n)-1; PAA(1) changes nothing (in IEEE double arithmetic); n <= 0 throws and changes nothing.", "quantifier": "all datasets, all block sizes", "why_tests_cant": "All lengths and block sizes incl. remainders.", "anchors": ["src/TimeSeriesSet.cpp:PAA", "src/TimeSeriesSet.cpp:doPAA", "src/TimeSeriesSet.cpp:calcPAALength"]}
{"id": "C33", "title": "PAA on a grouped dataset leaves dangling groups", "statement": "PAA does not discard groups: afterwards the dataset still reports being grouped while the representatives refer to freed memory, so every match against it has undefined behaviour until it is regrouped; regrouping restores safety.", "quantifier": "all grouped datasets", "why_tests_cant": "Every dataset and query.", "anchors": ["src/TimeSeriesSet.cpp:PAA", "src/Group.cpp:setCentroid"]}
{"id": "C34", "title": "Normalization maps the dataset onto [0,1]", "statement": "If the series length is even or the number of series is odd, normalize returns the true minimum and maximum, maps every value x to (x-min)/(max-min), so all values lie in [0,1] and order is preserved (IEEE double arithmetic, finite data with finite range); constant datasets become 0. If the length is odd and the count even the last column is ignored and values outside [0,1] can result.", "quantifier": "all datasets", "why_tests_cant": "Parity-dependent scan; all data.", "anchors": ["src/TimeSeriesSet.cpp:normalize"]}
{"id": "C35", "title": "Normalization is idempotent", "statement": "Under the parity condition of C34, normalizing a normalized dataset changes no value (IEEE double arithmetic).", "quantifier": "all datasets", "why_tests_cant": "All data, rounding included.", "anchors": ["src/TimeSeriesSet.cpp:normalize"]}
{"id": "C36", "title": "Loading reads exactly the table", "statement": "For every file whose first max rows all have the same number of columns > startCol >= 0 and whose kept tokens are parsable, loadDataset yields item count = min(maxNumRow if positive, number of lines), item length = columns - startCol and value (i,j) = the number in row i, column startCol+j. A column that starts with a decimal numeral (sign, digits, point, exponent; what follows the numeral is ignored) loads as the double nearest to the number it denotes.", "quantifier": "all files, separators, row limits, start columns", "why_tests_cant": "All files.", "anchors": ["src/TimeSeriesSet.cpp:loadData"]}
{"id": "C37", "title": "Loading rejects malformed tables without side effects", "statement": "A missing file, a row with a different number of columns among the rows read, or an unparsable or out-of-range kept token makes loadDataset throw OnexException, and the session is unchanged. A numeral that overflows is such an error.", "quantifier": "all files and sessions", "why_tests_cant": "All malformed inputs.", "anchors": ["src/TimeSeriesSet.cpp:loadData", "src/OnexAPI.cpp:loadDataset"]}
{"id": "C38", "title": "Start column and empty file corner cases of loading", "statement": "A negative start column writes out of bounds for every non-empty table with at least one column; a start column beyond the number of columns or an empty file is accepted and yields a dataset with negative item length.", "quantifier": "all files", "why_tests_cant": "All files and columns.", "anchors": ["src/TimeSeriesSet.cpp:loadData"]}
{"id": "C39", "title": "Saved datasets reload with the same shape and 6-digit values", "statement": "Saving a dataset with at least one row, whose values are zeros or finite doubles of magnitude at least 2^-1021 (more precisely: whose value rounded to 6 significant digits is a normal double), and loading it back with a separator set that contains the separator (not newline) and no character of printed numbers gives the same item count and length and, for each value, the double nearest to its 6-digit decimal rounding, with the same sign. The round trip is not lossless in general, and a saved file that contains the smallest normal double is rejected on loading.", "quantifier": "all sessions, datasets, paths and separators; existence for the lossy and the rejected case", "why_tests_cant": "All values; printing and parsing.", "anchors": ["src/TimeSeriesSet.cpp:saveData", "src/TimeSeriesSet.cpp:loadData"]}
{"id": "C40", "title": "Saved groups reload as the same grouping", "statement": "Any group file whose header fits the dataset, whose representatives have their group's length and whose members are subsequences listed once replaces the groups of the dataset by exactly those of the file and changes nothing else. Saving a grouped dataset writes such a file: the same member lists in reverse order, the same distance, representatives rounded to 16 significant digits and the threshold to 6. So loading a saved file into a dataset of the same dimensions gives the same grouping.", "quantifier": "all group files (first two sentences); all grouped datasets of finite values whose 16 digits do not read as infinity (the largest doubles do, and the saved file then cannot be loaded)", "why_tests_cant": "All groupings.", "anchors": ["src/Group.cpp:saveGroup", "src/Group.cpp:loadGroup", "src/GlobalGroupSpace.cpp:saveGroups", "src/GlobalGroupSpace.cpp:loadGroups"]}
{"id": "C41", "title": "Incompatible group files are rejected; unknown distance is not handled atomically", "statement": "A group file whose version (also one too large for an int, or not a number), item count or item length differs is rejected with an exception and the existing groups stay; a file with a compatible header but an unknown distance name, or with lengths that cannot be read, throws after the old groups are gone and leaves the dataset marked as grouped with no groups, after which a match is undefined behaviour.", "quantifier": "all files and sessions; a file without any word makes the loader compare an uninitialised version", "why_tests_cant": "Failure atomicity over all states.", "anchors": ["src/GroupableTimeSeriesSet.cpp:loadGroups", "src/GlobalGroupSpace.cpp:loadGroups"]}
{"id": "C42", "title": "Representatives saved with 16 digits: which are restored exactly", "statement": "A representative's value that is the double nearest to a decimal number of at most 16 digits (such as any value read from such a numeral) is restored exactly by printing with 16 significant digits and reading back, if it is equal to that number or is not a power of two; so groups of a dataset of such values come back from a file with exactly the same representatives. Any other double is changed by at most one part in 10^15, and some are changed: 0.1 + 0.2, and the power of two nearest to 5.960464477539063e-08.", "quantifier": "all doubles, all grouped datasets of such values, all histories after the grouping", "why_tests_cant": "Needs exact decimal conversion.", "anchors": ["src/TimeSeries.cpp:printData", "src/Group.cpp:loadGroup"]}
{"id": "C43", "title": "Malformed group files can hang or corrupt", "statement": "A group file whose member has a place outside the member table is written out of bounds while it is loaded. A group file that lists one member twice in a group (and the members of that group in no later group of the length) loads, and then every walk over that group's members is endless: member listing, best-match search and saving.", "quantifier": "all such files and sessions", "why_tests_cant": "Needs the linked structure for all files.", "anchors": ["src/Group.cpp:loadGroup", "src/Group.cpp:addMember", "src/Group.cpp:getMembers"]}
{"id": "C44", "title": "Dataset ids", "statement": "Across any history of loads and unloads, loadDataset returns the smallest free id, the other ids keep denoting the same datasets, getDatasetCount is the number of loaded datasets and getAllDatasetInfo lists exactly them in increasing id order.", "quantifier": "all histories", "why_tests_cant": "All histories.", "anchors": ["src/OnexAPI.cpp:loadDataset", "src/OnexAPI.cpp:unloadDataset", "src/OnexAPI.cpp:getAllDatasetInfo"]}
{"id": "C45", "title": "Operations on one dataset do not affect others", "statement": "Every API operation addressed to dataset i leaves the info, data and groups of every other dataset unchanged; a match changes neither data nor groups of any dataset.", "quantifier": "all states, all operations", "why_tests_cant": "Frame property over all states; buffers are shared through raw pointers.", "anchors": ["src/OnexAPI.cpp"]}
{"id": "C46", "title": "Unknown ids are rejected", "statement": "Every API call with a negative, too large or unloaded id throws 'There is no dataset with given index' and changes nothing.", "quantifier": "all states, ids, operations", "why_tests_cant": "All states.", "anchors": ["src/OnexAPI.cpp:_checkDatasetIndex"]}
{"id": "C47", "title": "Failing operations leave the session unchanged", "statement": "Every API operation other than loadGroup that throws an OnexException leaves all loaded datasets, their data, flags and groups and all files as they were.", "quantifier": "all states and operations", "why_tests_cant": "All failure points.", "anchors": ["src/OnexAPI.cpp", "src/TimeSeriesSet.cpp", "src/GroupableTimeSeriesSet.cpp"]}
{"id": "C48", "title": "Safe histories never reach undefined behaviour", "statement": "From an empty session, with any files, any history of API calls each of which is safe when its turn comes runs to its end: every call returns a value or throws, none has undefined behaviour or hangs. Saving, unloading, listing and normalizing are always safe. Loading is safe if the start column is between 0 and the number of columns of the first row; PAA if the series have at least one point (or the block size is not positive); grouping if the threshold is a number, the series have at most 2^30 points and there are at least five subsequences of every length for which a progress message may be due; setting the ratio to a number between 0 and 1; saving groups and matching if the dataset was not reduced by PAA since it was last grouped; matching also needs a query no longer than the series of the target, series of at most 2^20 points and values of at most 2^500 in both. Normalizing a grouped dataset and matching with the old groups is safe. Loading a group file is safe if its version or its header is for another count or length (the load then throws), or if the series have at most 2^30 points and the file is well formed: a known distance, at least one group for every length, representatives of the right length with values of at most 2^500, members that exist and none listed twice. A file that the program saved after grouping values of at most 2^499 is well formed in this sense. Searching, saving and normalizing are safe after such a load. Dropping any one of these conditions allows a history that is undefined.", "quantifier": "all histories of any length, all files, all arguments", "why_tests_cant": "Unbounded histories.", "anchors": ["src/OnexAPI.cpp"]}
{"id": "C49", "title": "Command line", "statement": "Blank lines, comments, help, unknown commands, commands with too few or too many arguments and commands with a non-numeric argument leave the session unchanged and the prompt comes back; a well formed command makes exactly the API call that it says with the numbers that its words denote and shows its outcome (an OnexException is reported and the session goes on as the call left it); only quit/exit, end of input (after confirmation) or an unexpected exception end the program; the session is always one that API calls can reach; 'match' with a start but no end reads past the argument vector.", "quantifier": "all input lines, program states and sequences of lines", "why_tests_cant": "All lines.", "anchors": ["cli/OnexCLI.cpp:processLine", "cli/OnexCLI.cpp:main"]}
{"id": "C50", "title": "UCR distance and lower bounds", "statement": "dtw() of trillionDTW, which keeps two rolling rows of 2r+1 cells, returns the optimal cost over warping paths in the band whenever its result is below both the best-so-far and 1e20; with no cumulative bound it never exceeds the cost of an alignment, and with a valid cumulative bound it decides exactly (in exact arithmetic) whether the optimal cost is below the best-so-far. Each of the three lower bounds (first/last points for at least 6 points, envelope of the query, envelope of the data) is at most the optimal cost even when its summation stops early, and the cumulative bound built from it is valid, so treating one window replaces the best-so-far by the optimal cost of the window exactly when that is smaller.", "quantifier": "all series, window positions, bands, best-so-far values, cumulative bounds, orders of the query, envelopes that enclose the values", "why_tests_cant": "All matrices, all orders and all stopping points of the partial sums; a bound that exceeds the optimum on one input silently drops the true nearest neighbour.", "anchors": ["src/lib/trillionDTW.cpp:dtw", "src/lib/trillionDTW.cpp:lb_kim_hierarchy", "src/lib/trillionDTW.cpp:lb_keogh_cumulative", "src/lib/trillionDTW.cpp:lb_keogh_data_cumulative", "src/lib/trillionDTW.cpp:calculate"]}
{"id": "C51", "title": "Candidate ordering is not a strict weak order", "statement": "Comparing two candidates with operator< is irreflexive and asymmetric for all distances, but it is not transitive: because of the 1e-12 tolerance there are three candidates each before the next in a cycle, and three where the first two and last two are equivalent but the first is before the last. On candidates whose distances are pairwise equal or at least the tolerance apart it is a strict weak order, so only then is sorting with it defined.", "quantifier": "all candidates with any double distances (irreflexive, asymmetric); all lists of spread-out candidates (strict weak order); existence (cycles)", "why_tests_cant": "All triples.", "anchors": ["src/TimeSeries.hpp:candidate_time_series_t::operator<"]}
{"id": "C52", "title": "Progress logging can divide by zero", "statement": "groupDataset with a threshold whose half is below INF returns normally unless a progress message is due for a length with fewer than 5 subsequences in total; in that case it divides by zero. A message is always due for length 2 of the first dataset grouped in a process, so grouping a dataset with (itemLength-1)*itemCount < 5 first is undefined behaviour; datasets with at least 5 series are always safe.", "quantifier": "all sessions, datasets of any size and contents, thresholds, clock readings", "why_tests_cant": "Whether a message is due depends on the wall clock and on what the process grouped before.", "anchors": ["src/LocalLengthGroupSpace.cpp: generateGroups", "src/OnexAPI.cpp: groupDataset"]}
{"id": "C53", "title": "A match depends only on values", "statement": "The answer of getBestMatch (index, start, end, length, values and distance of the result, or the exception or undefined behaviour) is a function of the query values, the values and shape of the searched dataset, the threshold it was grouped with and the warping ratio. Identifiers, names, other datasets, where the query is stored, cached envelopes and all operations in between have no influence; asking again gives the same answer.", "quantifier": "all pairs of sessions and histories, any doubles including NaN and infinities", "why_tests_cant": "The envelope caches inside groups and queries depend on the whole history; no finite set of histories excludes an influence.", "anchors": ["src/OnexAPI.cpp: getBestMatch", "src/GlobalGroupSpace.cpp: getBestMatch", "src/TimeSeries.cpp: generateKeoghLU"]}
{"id": "C54", "title": "Grouping a dataset of negative item length corrupts it", "statement": "Grouping a dataset whose item length is below -1 (start column more than one beyond the columns) throws std::length_error, which is not an OnexException, and leaves the dataset marked as grouped with no group spaces, so a later match against it is undefined behaviour; everything else in the session is unchanged.", "quantifier": "all sessions, datasets of item length <= -2, thresholds, queries of length 2 to 2^26", "why_tests_cant": "needs every dataset of that shape and every later query", "anchors": ["src/TimeSeriesSet.cpp: TimeSeriesSet::loadData", "src/GlobalGroupSpace.cpp: GlobalGroupSpace::group", "src/GroupableTimeSeriesSet.cpp: GroupableTimeSeriesSet::groupAllLengths"]}
{"id": "C55", "title": "Saving a reloaded dataset writes the same file", "statement": "For every dataset as in C39: save it, load the file, save the loaded dataset with the same separator; the second file has the same contents as the first.", "quantifier": "all sessions, datasets, paths and separators", "why_tests_cant": "All doubles; needs that 6-digit decimal rounding is stable under rounding to double.", "anchors": ["src/TimeSeriesSet.cpp:saveData", "src/TimeSeriesSet.cpp:loadData"]}
{"id": "C56", "title": "UCR search returns the nearest window", "statement": "calculate(data, query, m, r) with a query of at least 6 values that are not all equal, r < m and a data file of numbers ends and reports the first of the windows of m consecutive values whose z-normalised warping distance (band r) to the z-normalised query is least, together with that (squared) distance, whatever the length of the file and the chunk boundaries and whatever order qsort leaves the query in; constant windows are skipped, and 0 and 1e20 are reported if no window has a distance below 1e20. A scaled and shifted copy of the query is found with distance 0, and scaling and shifting either file changes nothing. A data file with anything that is not a number makes it run forever; a query file with fewer than m numbers, or r >= m, is undefined behaviour; for windows of 3 to 5 points a nearer window can be missed.", "quantifier": "all data files, queries, bands r < m, chunk sizes >= m, orders returned by the sort, factors and offsets", "why_tests_cant": "The running sums, the circular array, the chunk overlap and four pruning stages interact; a wrong prune or a window lost at a chunk boundary only shows on particular data, and non-termination cannot be observed by a test.", "anchors": ["src/lib/trillionDTW.cpp:calculate", "src/lib/trillionDTW.cpp:lower_upper_lemire", "src/lib/util.cpp:Index::diff"]}
{"id": "C57", "title": "Matches against groups loaded from a file", "statement": "After loadGroup of a group file that fits the dataset (representatives of the right length, members that exist, no subsequence listed twice) and any history of calls that do not change the dataset, getBestMatch with a finite query and a finite dataset returns a group listed in the file whose representative, as written in the file, no other listed representative beats (up to the rounding of the normalisation), and inside that group the listed member at the least warped distance, with that distance. If the best group is listed without members, the answer is the first subsequence of that length at an infinite distance. If the lengths of all listed groups are farther from the query's length than the warping band, the call is undefined behaviour (a null group is used) instead of an error.", "quantifier": "all datasets, group files that fit, histories of later calls, queries and warping ratios", "why_tests_cant": "The representatives of a loaded file are arbitrary: they need not be the average or even near the members; a test file cannot cover all of them, nor all histories of calls that rebuild cached envelopes in between.", "anchors": ["src/OnexAPI.cpp:getBestMatch", "src/GroupableTimeSeriesSet.cpp:loadGroups", "src/GlobalGroupSpace.cpp:getBestMatch", "src/LocalLengthGroupSpace.cpp:getBestGroup", "src/Group.cpp:getBestMatch"]}
{"id": "C58", "title": "Element access and addition of series", "statement": "series[i] with 0 <= i < length reads the i-th value and, assigned to, changes exactly that value; any other index throws. A write through a window of a dataset is seen by every other window of the same dataset at exactly the position that is the same cell, and by nothing else; a series that owns its values is not affected by others. a += b adds position by position, requires equal lengths (else it throws and changes nothing), forgets the cached envelope of a and changes no series without common cells; if b starts earlier than a in the same data, later sums use already changed values.", "quantifier": "all series (windows at any position and owned copies), indices, values and other series", "why_tests_cant": "Off-by-one at the end of a window reads a neighbouring value of the same dataset without any visible error; aliasing between windows depends on all pairs of positions.", "anchors": ["src/TimeSeries.cpp:operator[]", "src/TimeSeries.cpp:operator+="]}
{"id": "C59", "title": "Series and their memory", "statement": "However series are created, copied, assigned, moved, written, read and destroyed, as long as no series is used after its data was moved away, no owning series is assigned to itself and no window is used after its dataset was freed: nothing is freed twice or used after it was freed, every read sees the value that was last written to that position, and copies of a series that owns its values are independent of it. When everything is destroyed, the memory not released is one array for each move assignment to a series that owned its values; so exactly one array is lost for every group, whether the grouping made it or it was loaded from a file. Outside of these conditions: an owning series assigned to itself has uninitialised values, and a moved-from series cannot be copied, read or added. Destroying an owning series uses delete for an array from new[], which is undefined behaviour if the standard is read strictly.", "quantifier": "all programs (finite sequences of operations) over any number of arrays and series, all lengths and values; all lists of groups made or loaded", "why_tests_cant": "Double frees, leaks and aliasing depend on the order of operations over several objects; most of them are silent.", "anchors": ["src/TimeSeries.cpp:TimeSeries", "src/TimeSeries.cpp:operator=", "src/TimeSeries.cpp:~TimeSeries", "src/Group.cpp:setCentroid", "src/Group.cpp:loadGroup"]}
{"id": "C60", "title": "Saving and reloading groups in rounds does not change the answers", "statement": "saveGroup after a grouping or after a loadGroup writes a file that loadGroup accepts for every dataset with the same number and length of series, in any session: the same groups in the same order, their members in reverse order, the representatives rounded to 16 significant digits and the threshold to 6. Matches depend only on the values of the dataset and of the query, the warping ratio and the groups (representatives and members in their order), not on whether the groups were generated or loaded, nor on the history. So if 16 digits restore the representatives, two rounds of saving and loading leave the answer of every match unchanged (also errors), and after one round a match answers with a member of the same group at the same distance up to the last step of rounding; one round can change which of two equally near members it is.", "quantifier": "all sessions, datasets, generated or loaded groups, files written by saveGroup, histories before and after, queries and warping ratios", "why_tests_cant": "A test saves and loads one grouping and compares a few matches; that no group, representative, ordering or cached envelope in any session makes a difference after reloading is a statement about all of them.", "anchors": ["src/OnexAPI.cpp:saveGroup", "src/OnexAPI.cpp:loadGroup", "src/OnexAPI.cpp:getBestMatch", "src/GlobalGroupSpace.cpp:saveGroups", "src/GlobalGroupSpace.cpp:loadGroups", "src/LocalLengthGroupSpace.cpp:saveGroups", "src/LocalLengthGroupSpace.cpp:loadGroups", "src/Group.cpp:saveGroup", "src/Group.cpp:loadGroup", "src/Group.cpp:getBestMatch"]}
{"id": "C61", "title": "Group files with sizes only, and access to groups by number", "statement": "saveGroup with the size-only flag writes, for every length from 2 on, the number of groups and the number of members of each group, in their order, after the same header as a full group file and nothing else; apart from that file the session is unchanged, whether the groups were generated or loaded. The sizes of generated groups of one length add up to the number of subsequences of that length. Nothing in a group file after the header and the name of the distance is validated: loading never ends in an exception, whatever follows, so a size-only file is not recognised when it is loaded back (reading past its end is undefined behaviour). A group is found by its number, and a number out of range throws.", "quantifier": "all sessions with generated or loaded groups, thresholds, lengths, group numbers; for loading: all file contents with a matching header and a known distance", "why_tests_cant": "A test compares one saved size file; that the counts match the groups of every session, that they always add up, and that no contents at all are rejected are statements about all groupings and all texts.", "anchors": ["src/OnexAPI.cpp:saveGroup", "src/OnexAPI.cpp:loadGroup", "src/LocalLengthGroupSpace.cpp:saveGroups", "src/LocalLengthGroupSpace.cpp:loadGroups", "src/LocalLengthGroupSpace.cpp:getGroup", "src/GlobalGroupSpace.cpp:saveGroups", "src/GlobalGroupSpace.cpp:loadGroups"]}
{"id": "C62", "title": "How long a match answer can be read; no dataset array outlives its dataset", "statement": "The series in the answer of a match is the very series that the searched dataset gives for some index and positions: it points into the dataset. Through every later history of calls in which that dataset is neither unloaded nor reduced by PAA, the answer stays that series of the dataset, and it keeps its values unless the dataset is normalized. Once the dataset was unloaded, alone or with all others, or reduced, reading the answer uses freed memory, for ever, also after new datasets were loaded under the same id. In every reachable session the allocated arrays are exactly those of the loaded datasets, one each, and none is allocated after unloading all.", "quantifier": "all reachable sessions, all matches that return, all later histories of any length", "why_tests_cant": "A test reads the answer right after the call; validity after arbitrary later calls is a statement about all histories.", "anchors": ["src/OnexAPI.cpp:getBestMatch", "src/OnexAPI.cpp:unloadDataset", "src/OnexAPI.cpp:unloadAllDataset", "src/TimeSeriesSet.cpp:getTimeSeries", "src/TimeSeriesSet.cpp:PAA", "src/TimeSeriesSet.cpp:clearData", "src/Group.cpp:getBestMatch"]}
{"id": "C63", "title": "Memory of sessions: nothing freed twice or used after free, and exactly one lost array per group", "statement": "Through every history of API calls, the objects that loading, grouping, loading groups, matching, PAA and unloading create and delete (datasets, group spaces, groups, their arrays and envelopes) are never deleted twice and never used after deletion; after every call the objects in memory are exactly those of the session, and each pointer left in them leads to an allocated block. The blocks that are allocated but no longer referenced by any dataset are exactly one array for each group that groupDataset or loadGroup ever reported, and they are never released by later calls; without grouping nothing is lost. So it is false that unloading everything (or destroying the API object) releases all memory: it leaves exactly as many arrays as groups were reported.", "quantifier": "all files, all histories of API calls of any length that are defined up to their last call, all choices of which representatives get an envelope during matching", "why_tests_cant": "A test, even with a leak checker, follows one history; double deletion and leaks depend on the order of loads, regroupings, matches and unloads.", "anchors": ["src/OnexAPI.cpp:loadDataset", "src/OnexAPI.cpp:unloadDataset", "src/OnexAPI.cpp:unloadAllDataset", "src/OnexAPI.cpp:~OnexAPI", "src/GroupableTimeSeriesSet.cpp:reset", "src/GroupableTimeSeriesSet.cpp:groupAllLengths", "src/GroupableTimeSeriesSet.cpp:loadGroups", "src/GlobalGroupSpace.cpp:reset", "src/LocalLengthGroupSpace.cpp:reset", "src/Group.cpp:setCentroid", "src/TimeSeries.cpp:~TimeSeries", "src/TimeSeriesSet.cpp:clearData", "src/TimeSeriesSet.cpp:PAA"]}
{"id": "C64", "title": "What the console shows", "statement": "The console reports what happened. The line of a match names the series, start and length of the answer, which select the answer again in the dataset, and its distance rounded to the digits in force; two such lines are equal only if they report the same answer. A command that succeeds says so and reports its answer (dataset facts, number of groups, timer state), after the log of a grouping, which has five to nine lines per logged length and no percentage above 100; a call that throws reports the message of the exception. Every command has a help text and is in the list of all commands. A line that begins with 'Error! ' appears exactly if the program refused the command or the call threw. The list of datasets determines identifiers, names and the normalized and grouped flags of all datasets. Numbers have 6 significant digits until the first timed command succeeds with the timer on, and 4 for ever after, even with the timer off again. Without the text the program behaves as in C49.", "quantifier": "all sequences of input lines (each without a newline), all file contents, all elapsed times", "why_tests_cant": "All sessions and lines; the digits depend on the whole history.", "anchors": ["cli/OnexCLI.cpp:TIME_COMMAND", "cli/OnexCLI.cpp:processLine", "cli/OnexCLI.cpp:showHelp", "cli/OnexCLI.cpp:showAllHelps", "cli/OnexCLI.cpp:main", "src/LocalLengthGroupSpace.cpp:generateGroups", "src/GlobalGroupSpace.cpp:group", "src/GroupableTimeSeriesSet.cpp:loadGroups"]}
{"id": "C65", "title": "How far from the best the answer of a match can be", "statement": "Matching trades accuracy for speed by a bounded amount. After grouping with threshold thr, the answer of getBestMatch is at most thr/4 farther from the query than the best of all subsequences of the dataset of all lengths from 2; asking for values that occur in the dataset gives a distance of at most thr/4. With a threshold of zero or a negative one the answer is a best subsequence. The reason is a property of the two distances: for two series of equal length whose pairwise distance is x, the warped distances of a query to them are both infinite or differ by at most x/2, more precisely by at most x * sqrt(k * n) / (2 * max(m, n)), where m and n are the lengths of the query and of the series and k is the smaller of m and 2 * band + 1.", "quantifier": "all datasets, queries, thresholds, ratios and histories between grouping and matching (exact arithmetic); for doubles, all thresholds whose half is negative", "why_tests_cant": "A bound against the best of all subsequences, for all data and queries; the optimum is not computed by the program.", "anchors": ["src/OnexAPI.cpp:getBestMatch", "src/GlobalGroupSpace.cpp:getBestMatch", "src/LocalLengthGroupSpace.cpp:generateGroups", "src/Group.cpp:getBestMatch", "src/distance/Distance.cpp:warpedDistance", "src/distance/Distance.cpp:pairwiseDistance"]}
{"id": "C66", "title": "What PAA keeps", "statement": "Reducing a dataset by block means does not bring apart what was close: the pairwise distance of two subsequences of the reduced dataset is at most the pairwise distance of the subsequences of the original from which they were computed. If the block size n divides the series length, every series keeps its mean, and reducing by n and then by m gives the same dataset as reducing by n * m. Values in [0,1] stay in [0,1], in doubles too; so a normalized dataset that is reduced stays in [0,1]. If n does not divide the length, the shorter last block counts as much as a full one: distances of whole series can grow and two reductions can differ from one. Between other bounds, rounding can put a mean above all values.", "quantifier": "all datasets, block sizes and aligned subsequences (exact arithmetic); all datasets of doubles for the range", "why_tests_cant": "All values, lengths and block sizes; the inequality and the rounding of sums of any length.", "anchors": ["src/TimeSeriesSet.cpp:PAA", "src/TimeSeriesSet.cpp:doPAA", "src/TimeSeriesSet.cpp:calcPAALength", "src/TimeSeriesSet.cpp:normalize", "src/OnexAPI.cpp:PAA"]}
{"id": "C67", "title": "32-bit sizes", "statement": "The sizes of the program are 32-bit ints. Loading a file of at most 2147483647 lines and columns from a non-negative column overflows an int exactly when the number of rows read times the number of columns of the first line exceeds 2147483647; a file of 131071 characters can do that and no shorter file can. A dataset that was loaded without overflow can be saved, normalized and reduced without overflow at any later point of any session. Grouping overflows exactly when the number of groups it would return, or a hundred times the counter of one of its progress messages, exceeds 2147483647. It does not if the dataset has at most 21474836 values and 2147483647 subsequences. The first grouping of a process always overflows if there are five or more series and more than 26843545 subsequences of length 2, and grouping with a negative threshold does if there are more than 2147483647 subsequences. Apart from overflow, the results are those of unbounded integers.", "quantifier": "all files, sessions, datasets, thresholds and clocks", "why_tests_cant": "Overflow needs data far larger than a test can hold; the safe sizes must hold for every file and session.", "anchors": ["src/TimeSeriesSet.cpp:loadData", "src/TimeSeriesSet.cpp:saveData", "src/TimeSeriesSet.cpp:normalize", "src/TimeSeriesSet.cpp:PAA", "src/LocalLengthGroupSpace.cpp:generateGroups", "src/GlobalGroupSpace.cpp:group", "src/Group.cpp:addMember"]}
{"id": "C68", "title": "32-bit arithmetic of whole sessions", "statement": "In a session of safe calls (C48) no int expression overflows in any call - loading, saving, normalizing, reducing, grouping, saving and loading groups, matching - if rows times columns of each loaded file, the number of groups that each grouping or loading of groups returns, and the percentages of the progress messages fit 32 bits: each call then returns or throws what it would with unbounded integers. That is so whenever the data files have at most 131070 characters, the group files at most 2147483647, and each dataset that is grouped at most 21474836 values and 2147483647 subsequences. Warped distances do not overflow for series of up to 2^29 points and a band ratio between 0 and 1. Outside these conditions there are overflows: a band below -2^30 from a negative ratio, and a 56-character group file whose member numbers wrap around to a place inside the table.", "quantifier": "all histories of calls, file contents, datasets, queries, thresholds and ratios", "why_tests_cant": "Whether some intermediate index of some call overflows depends on sizes no test can hold and on every earlier call.", "anchors": ["src/OnexAPI.cpp", "src/distance/Distance.cpp:warpedDistance", "src/GlobalGroupSpace.cpp:getBestMatch", "src/GlobalGroupSpace.cpp:loadGroups", "src/GlobalGroupSpace.cpp:saveGroups", "src/LocalLengthGroupSpace.cpp:getBestGroup", "src/Group.cpp:getBestMatch", "src/Group.cpp:loadGroup", "src/lib/trillionDTW.cpp:lower_upper_lemire"]}
{"id": "C69", "title": "Distances of the single-precision build", "statement": "In the build with SINGLE_PRECISION, where data are floats: the envelope of a series is the window minimum and maximum; the warped distance is the square root of the least cost of a warping path in the band, accumulated in floats, over twice the longer length, and infinite exactly when no path fits the band; it is symmetric; every distance of a series to itself is 0; no distance or bound is negative or NaN, whatever the dropout; the Keogh bound never exceeds the warped distance; with a dropout the distance is the full one or infinity, and infinity only if no float below the dropout exceeds the full distance; the pairwise distance is the root mean square difference or, if abandoned, infinity. No cost overflows if the values are at most 2^50 in size and the series have at most 2^20 points. Beyond that the builds differ: whole numbers up to 2^70 that differ are at distance 0 in this build and more than 2^60 apart in the double build.", "quantifier": "all series of finite floats (up to 2^30 points), all double ratios with a non-negative band, all dropouts", "why_tests_cant": "Rounding to 24 bits, absorption and overflow depend on the values; the optimum ranges over all warping paths.", "anchors": ["CMakeLists.txt:SINGLE_PRECISION", "src/TimeSeries.hpp:data_t", "src/distance/Distance.cpp:warpedDistance", "src/distance/Distance.cpp:cascadeDistance", "src/distance/Distance.cpp:keoghLowerBound", "src/distance/Distance.cpp:pairwiseDistance", "src/distance/Distance.cpp:calculateWarpingBandSize"]}
{"id": "C70", "title": "Groups and matches of the single-precision build", "statement": "In the build with SINGLE_PRECISION: grouping a dataset puts every subsequence of every length into exactly one group; the distance of every member to its group's first member is at most half the threshold, both computed in floats. After a grouping, a match succeeds and returns a subsequence of the dataset with its true, finite warped distance to the query; no member of its group, and no representative of any other group compared with the representative of this group, is closer by more than one step of float rounding.", "quantifier": "all sessions with a dataset of up to 2^20 points per series (2^30 for the grouping) grouped earlier with any finite threshold (not negative for the distance to the first member), all values of size at most 2^50, all queries, all double ratios with a non-negative band that fits an int", "why_tests_cant": "Rounding to 24 bits can make bounds and abandoning disagree with the distance; the claim ranges over all datasets, groupings and histories of the session.", "anchors": ["CMakeLists.txt:SINGLE_PRECISION", "src/TimeSeries.hpp:data_t", "src/GroupableTimeSeriesSet.cpp:getBestMatch", "src/LocalLengthGroupSpace.cpp:generateGroups", "src/LocalLengthGroupSpace.cpp:getBestGroup", "src/Group.cpp:getBestMatch"]}
{"id": "C71", "title": "How many points the UCR search can scan", "statement": "The search of the UCR suite computes the number of points scanned, and the location of a match beyond the first chunk, as a product of ints. On a file of at most 2^31 - 1 numbers it finds the nearest window and its location as C56 says. On a file of 2^31 numbers or more it always overflows an int, which is undefined behaviour, although location and count are stored as long long. On a file that goes on with something that is not a number it does not stop until an int overflows.", "quantifier": "all files of numbers of any length, all queries of 6 to EPOCH numbers that are not constant, all bands below the length of the query, all chunk sizes up to a million", "why_tests_cant": "A test would need files of billions of numbers, and the claim holds for every content.", "anchors": ["src/lib/trillionDTW.cpp:calculate"]}
{"id": "C72", "title": "What the UCR search reports", "statement": "The report of the search counts every window once: pruned by the first, second or third bound, or compared by dtw. The four counts add up to the number of windows, which is m - 1 less than the number of points reported as scanned. On a file of numbers not shorter than the query the report gives the location of the nearest window, the root of its squared distance, the number of points in the file, and the counts as shares of the points; the share printed as DTW calculations also contains the first m - 1 points, so it is never zero. A file shorter than the query is reported as m - 1 points, location 0, distance 1e10, 100% DTW calculations, though dtw is not called. In doubles the four percentages are finite and between 0 and 100 whenever a point was scanned; with a query of one number and an empty file they are NaN.", "quantifier": "all files of at most 2^31 - 1 numbers (any files for the counts), all queries, all bands below the length of the query, all chunk sizes up to a million", "why_tests_cant": "The counts depend on every window of the file and on how the search prunes; the sum must come out for every file and chunk boundary.", "anchors": ["src/lib/trillionDTW.cpp:calculate"]}
{"id": "C73", "title": "The UCR search on any doubles", "statement": "Whatever doubles the data file and the first m numbers of the query hold, NaN and infinities included, the search ends without an access outside an array (for m >= 3 and a band below m). It reports either location 0 and the distance 1e20 it started with, or a location where a whole window of finite numbers lies and a distance below 1e20; never NaN. A NaN or infinity hides the rest of the chunk of the file it is in: between the start of the chunk and the end of a window found in it all numbers are finite, so in a file that fits one chunk a window that is found ends before the first of them. A NaN or infinity in the query hides everything: nothing is found in any file. The envelopes are computed safely whatever the comparison of the numbers does, and each bound is one of the values of its window. A constant query of whole numbers finds nothing either, not even a copy of itself, because the normalised query is NaN everywhere; comparing two of its numbers for qsort is undefined. A constant window of a file of whole numbers is never found, whatever the query (as long as m times the largest square is at most 2^53, so that the running sums are exact). Two more limits are stated as theorems: the comparison function that is given to qsort is undefined on NaN, and a query of two numbers is read beyond its end.", "quantifier": "all files of doubles, all queries of at least m >= 3 doubles, all bands below m, all chunk sizes not below m, all orders that qsort leaves", "why_tests_cant": "Safety must hold for every bit pattern of every number; NaN makes every comparison false and drives the queues and the pruning through paths that ordinary numbers do not reach.", "anchors": ["src/lib/trillionDTW.cpp:calculate", "src/lib/trillionDTW.cpp:lower_upper_lemire", "src/lib/util.cpp:Index::diff"]}
