# Formal model of ctring/genex in Rocq (Coq 8.16.1)

## 1. What is built

`rocq/theories` holds an executable Gallina model of the C++ code in `/repo`
(pinned commit, read as text only), small independent specifications, proofs,
and property files that contain only theorem statements closed by `exact`.

### Numbers

`data_t` is `double`.  All model functions are parametric in a record `Num` of
number operations (comparison, `+ - * /`, `sqrt`, `abs`, int conversion, floor,
`INF`, `EPS`).  Two instances are used:

* `B64`: IEEE-754 binary64, round-to-nearest-even, with infinities, signed zeros
  and one NaN (Flocq `BinarySingleNaN.binary_float 53 1024`).  Executable.  This
  is what the C++ computes (assumptions: SSE2 doubles, no fast-math; `pow(x,2)`
  is `x*x`, which is what gcc -O2 emits).
* `XR`: extended real numbers (finite real, +inf, -inf, NaN), exact arithmetic.
  For facts that need algebra (optimality, triangle inequality).

Order-only facts are proved once from a record of laws `NumLaws` (total order
on non-NaN values, monotone `+`, `*`, `/`, `sqrt`, ...), proved for both
instances.  So most distance theorems hold for real doubles with rounding.

### Outcomes

Every function that can throw or run into undefined behaviour returns
`res A = Ret a | Throw exn | UB why | Hang`.  Out-of-range vector/array access, null
dereference, reading uninitialised variables, integer division by zero and use
after free are `UB`; a loop shown not to terminate is `Hang`.

### Simplifications (global)

* C++ `int`/`size_t` are `Z`.  Products and positions computed in `int` while loading,
  reading, normalising, saving and grouping are checked (`imul`, `iadd`, `isub` in
  `Num.v`: outside the range of int the outcome is `UB IntOverflow`), also the
  percentage of the progress log.  Not checked: loop counters, the band bounds
  `2*r+1`, `i+r` and `2*max(length)` of the distances (in range for lengths below
  2^30) and the running total of groups.
* Memory exhaustion (`bad_alloc`) is not modelled.
* `std::make_heap/push_heap/pop_heap/sort` are arguments constrained by the C++
  standard's contract (only for strict weak orders), with a concrete instance
  shown to satisfy the contract.  Outside the contract the model says `UB`.
* `std::stod`, number printing are oracle arguments.
* A Boost binary archive with zlib is a lossless list of tokens; reading a
  token of another kind or beyond the end is a stream error (an exception).
* Terminal output is dropped.
* `pow(x, 2)` is `x * x`.
* XR (exact) division by zero treats every zero as +0.

### Simplifications by part

* Loader: out-of-memory and overflow of line and column counts are not modelled; failing writes
  are in `Disk.v` only, where characters reach the file at once (no buffer) and the room on the
  disk changes only by the writes of the call.
* Grouping script: the process is killed, the operating system is not, so writes to different
  files happen in program order; a path is a term instead of a string; data set names are ASCII;
  the library calls give the same result in every run; creating directories and e-mail are left out.
* Experiment scripts: one data set; rows of the query file are written as a whole; a partly
  written results file is like an empty one (both are rejected by json.load).
* Thread pool: sequentially consistent memory; the unsynchronised static `metric`
  pointer of the distance functions is not modelled as shared (every thread
  reads and writes the same value).
* Time series objects: blocks of memory are never reused; the two envelope
  arrays belong to their object; the caller frees only its own buffers.
* API: files are part of a per-call environment (the next call may find other
  files); a query that ends in an exception does not record the envelopes
  cached until then; memory of PAA wrappers is not tracked (they are never
  deleted); the growth of the global `gNoMatching` is in the distance model
  (C14) only.
* Shell: of the output only the kind of message and the results are kept; timings are
  dropped; `delete` of memory from readline's malloc (undefined in C++) is not modelled.
* File search: the conversion of text to numbers by fscanf is not modelled (a file is its
  numbers and whether text follows them); qsort is any function that leaves a permutation;
  malloc succeeds; timings and printing are dropped.
* Python: arguments are values of built-in types; Boost.Python's matching of arguments is
  modelled as documented (its source is not part of the repository); the text of its own
  error messages is left out; the class of the exception made of a C++ exception other than
  GenexException is an argument; a call with keywords that leaves a parameter without a name
  open is `PUnspecified`.
* Text format of groups: an input stream is its list of words and a failure
  flag; a number is read from a whole word (`in >> x` on `12ab` would leave `ab`
  behind); writing does not fail once the file is open.

## 2. Plan per property

| id | modelled | proof |
|----|----------|-------|
| C01 | `warpedDistance` with its m*n matrices, band loops, minPrev selection | loop invariant: each in-band cell holds the cost of an optimal path; exact reals |
| C02 | same, B64 | each cell holds the cost of some path; laws only |
| C03 | same | row minimum is a lower bound of the final cell (monotone costs) |
| C04 | both `pairwiseDistance` overloads | induction over prefixes |
| C05 | metrics | algebra over R (Minkowski for RMS) |
| C06 | `warpedDistance` | from C01 by transposing paths; diagonal path for identity |
| C07 | circular deque, `lower_upper_lemire` | refinement deque -> list, monotone-queue invariant |
| C08 | kim/keogh/crossKeogh | path argument + envelope, monotone rounding |
| C09 | `cascadeDistance` | from C03, C08 |
| C10 | `calculateWarpingBandSize` | monotonicity of rounding and floor |
| C11 | back-tracking loop | invariant on the cost matrix, full band |
| C12 | same | expected refuted (reads out-of-band zero cells) |
| C13 | cosine, sorensen | expected refuted (0/0, early abandon, self distance) |
| C14 | global `gNoMatching` | value independence proved; growth refutes the memory part |
| C15 | registry | case analysis |
| C16-C19 | `Group`, `LocalLengthGroupSpace`, shared `memberMap` | invariant over the generate loop |
| C20 | `ThreadPool.v`: thread pool as a transition system (mutex, condition variable, spurious wake-ups, futures, destructor), `_group` tasks | `PoolProofs.v`: invariants (mutex, task accounting, wake-up), progress, potential function bounding the steps; `PoolGroup.v`: link with the sequential loop; `PropsThreads.v` |
| C21 | logging branch | expected refuted (division by zero; overflow: C68) |
| C22 | `generateTraverseOrder` | loop invariant, monotone band |
| C23,C24 | best match, k-best | fold invariants, heap contract |
| C25 | `resize(k)` | expected refuted |
| C26,C27 | brute force, candidate order | heap invariant; order refuted in general, proved under separation |
| C28 | `normalize` | laws of rounding |
| C29-C31 | loader, saver, getTimeSeries | list/array index reasoning |
| C32-C34,C37 | `Api.v`: GenexAPI as a state machine over a memory of data set objects (name maps, freed objects, PAA wrappers holding pointers); `ApiSpec.v`: histories (`run`), names in use | `ApiProofs.v`: registry invariant; `ApiQuery.v`, `QueryUB.v`: queries after histories; `ApiPaa.v`: origin and staleness of PAA wrappers; `PropsApi.v`, `PropsApiQuery.v` |
| C35,C42,C43 | boost archive as token list; saving, loading, files | round-trip induction over levels, groups, members; cut-off relation between runs on a file and on a prefix of it |
| C36,C41 | PAA averages, matrix, search | index arithmetic; reduction to the exhaustive search for block size 1 |
| C38,C39,C44 | `TSObject.v`: TimeSeries objects over a memory of blocks (ownership, aliasing, uninitialised cells, cached envelope), histories of operations | `TSObjProofs.v`: cache invariant over quiet histories; `TSObjOwn.v`: exclusive ownership over all histories; `TSObjValue.v`: leaks, values through copy, assignment, +=, ==; `PropsObject.v` with refutations by concrete histories; `PropsEqual.v`: equality as a relation |
| C45 | `OldFormat.v`: the text format of groups, streams as lists of words, printing and reading of numbers as parameters; `PrintDec.v`: `%g` printing and reading of doubles for the counterexamples | `OldProofs.v`: the words written; loading them gives a state with representatives of their own (`text_rep`), then the query theorems apply; `PropsOld.v` |
| C40, C46 | `Cli.v`: every command of the shell, its arguments, processLine, main and the question at the end of the input, on top of `Api.v`; `CliSpec.v`: words, usage table, numbers, `means` (what a help text promises), `asked` (what follows from the inputs alone) | `PropsCli.v`: case analysis over the commands, induction over the inputs; the reached library states are those of C32, so its theorems apply |
| C47 | `TSSet.v`, `Api.v` | `PropsNames.v`: what a data set tells about itself is kept by every call (C32), first set by loading (C29); decimal notation by induction |
| C48, C49, C50 | `Ucr.v`: lb_kim, lb_keogh, lb_keogh_data, dtw, Index::diff and calculate of the file search, chunk by chunk; `UcrSpec.v`: windows, z-normal form, smallest warped sum of squares, nearest window | `UcrDtw.v` loop invariants for dtw; `UcrBounds.v` lower bounds by layers of a path; `UcrWindow.v`, `UcrChunk.v`, `UcrProofs.v` invariants of the search in exact arithmetic; `LemireAny.v`, `UcrSafe.v` safety for any arithmetic; `PropsUcr.v` |
| C51 | the distances of `Distance.v` over doubles against `real_cost`, `real_pair` of `DtwReal.v`, `Pairwise.v` over the reals; tolerance `agrees` in `PropsAccuracy.v` | `AccReal.v` error of one rounding and of comparisons of rounded numbers; `AccDtw.v` two-sided error invariant of the dynamic programming table; `AccEnd.v`, `AccKinds.v` normalisation per metric; `AccLink.v`, `AccPair.v`, `AccCut.v` paths, diagonal, cut-off; `PropsAccuracy.v` |
| C52 | the model of C17 and C23; `price` in `GapReal.v`; specifications `QuerySpec.v`, `SearchSpec.v` | `GapReal.v`: along any warping path replacing one series by another changes the cost by at most `price` times their point-to-point distance (triangle inequality of the 2-norm, counting the visits of a point within the band); `PropsGuarantee.v` joins this with the radius of groups (C17), the choice of the closest representative (C23), symmetry (C06) and for doubles the errors of C51 |
| C53 | `Py.v`: Python values, Boost.Python's matching of positional and keyword arguments with defaults, conversion of arguments and results, the twenty functions of the module, `pycall`; specification `PySpec.v`: documented signatures, Python's rule `bound`, the documented call of the library, forms of results | `PyProofs.v`: matching computes `bound` for every signature whose names are aligned; `PropsPy.v`: case analysis over the functions; reading back through C29 and C32. getMatching's defaults are refuted |
| C54 | the model of C53; sessions `pyrun` | case analysis of matching and conversion; induction over sessions, each step is at most one call of the library |
| C55 | `Api.v` (distanceBetween, matchingBetween); specification `NamedSpec.v`: the stretch of a named series, the ratio set last | `PropsNamed.v`: invariant of all histories (the global ratio is the one set last), getTimeSeries through DataProofs, then C01/C05/C51/C03; short names refuted |
| C56 | `Api.v`, `Group.v` (cached envelopes); specification `NormSpec.v`: calls that do not work on a data set, normal form of values, grouped and then normalised | `PropsNorm.v`: fresh groups have no cached envelopes, so the invariant of the query proofs (`set_q`) moves to other values of the same shape; homogeneity of the distances for the radius; stale envelopes and the radius refuted by computation |
| C57 | the model of C17 and C24; `price` in `GapReal.v`; specifications `QuerySpec.v`, `SearchSpec.v` | `PropsKNear.v`: what is left out of the examined subsequences is in a group not closer than the groups examined, or farther in the same group; the step between a member and its representative costs one price in each direction (errors of C51 in doubles) |
| C58 | the model of C24 | `PropsMore.v`: what only one of the two searches examines is, by `considered`, in equally far groups, or in one group and ordered; with no equally far groups an exchange argument (as many places enter as leave) compares the answers rank by rank; a tie of two groups refutes the unconditional claim |
| C59 | as C52 and C57 | `PropsZero.v`: the price of threshold 0 is 0 in C52 and C57; `PropsZeroWhole.v`, `PropsZeroWholeK.v`: in doubles on whole numbers, where the members of a group have the same numbers, by C23, C24, C17 and C69 |
| C60 | the objects of `Api.v` (`a_objs`: made, alive or deleted) | `PropsRelease.v`: loading throws only the library's exception (induction over rows and columns), so the handler deletes the new object; invariant that every object alive is owned by a name |
| C61 | as C35; files with any contents | `GroupFile.v` (what such a file says, independent of the library's way of making groups), `PropsGroupFile.v`: the loading lemmas of C35 for any partition and any choice of representatives; wrong files by computation |
| C62 | as C32 | `ApartSpec.v` (`play`: the replies to a sequence of calls), `ApiLocal.v`, `PropsApart.v`: two states that agree on what every name holds, on the state of its preparation and on the ratio reply alike to every sequence of calls; a call that throws leaves this unchanged |
| C63 | as C32 | `ApartSpec.v` (`own`, `foreign`), `PropsApart.v`: the same with agreement on a set of names only |
| C64 | as C32 | `QuietSpec.v` (`asks`, `searches`, `settled`), `Quiet.v`, `QuietApi.v`, `QuietFresh.v`, `PropsQuiet.v`: simulation between two states that differ only in cached envelopes, each equal to the envelope of the representative as it is now; new and loaded groups have no caches, and every call but normalising keeps caches valid |
| C65 | as C16 | `PropsCount.v`: with the triangle inequality every group of the larger threshold is founded by a subsequence whose group under the smaller threshold holds no other founder, which gives an injection; for smaller factors a family of counterexamples; `PropsExtreme.v`: the extreme cases in doubles from C17 and C18 |
| C66 | as C01, C55, C26 | `PropsBand.v`: every path in the narrower band is one of the wider band; the computed value is the least cost where normalising reflects the order of sums (exact arithmetic, Chebyshev); ranks of the exhaustive search by counting places; witnesses for the rest |
| C67 | as C18, C26, C55, C56 | `PropsScale.v`: costs of paths scale, so the least cost does; leader clustering only compares distances, so two runs of it agree; ranks by counting places; witnesses for doubles |
| C68 | integer checks in `Num.v`, `TSSet.v`, `Group.v`, `Loader.v` | `PropsInt.v`: the loop over all slots goes on or overflows, and overflows at the last multiple of a fifth |
| C69 | distances in doubles on whole numbers | `DtwWhole.v`: every cell of the table holds a whole number below 2^53 and equals the least integer cost of the paths to it; `PropsWhole.v` adds the final roundings |
| C70 | exhaustive search, grouping | `PropsOrder.v`: an injection of places for `best_more`; separated representatives lie in different groups of the larger data set; refutation with three constant series |
| C71 | `PrintDec.v` with `saveData` and `loadData` | `DecText.v`: the written text is read digit by digit; `DecReal.v`: decimal exponent, rounding to digits, correct rounding of the read quotient (round to odd); `DecRound.v`: one number; `PropsText.v`: data sets, refutations |
| C72 | `saveData`, the first n characters of its text, `loadData` | `CutSpec.v`: what is left of a table; `CutProofs.v`: lines and fields of a cut text; `PropsCut.v` |
| C73 | the model of C26, C23 and C52 | `PropsSelf.v`: the distance of a series to itself is 0 (C06) in C26, C52 and C23; `PropsFound.v`: the same for a representative, with the error bounds of C51 |
| C74 | `Disk.v`: output stream on a disk with limited room, `saveData` with writes that can fail | `DiskProofs.v`: simulation of `saveData` by the writes; `PropsDisk.v` |
| C75 | the distance call on pairs of stretches, grouping, exhaustive search | the costs along a path do not change when both series are turned (for reversing: along the reversed path, which stays in the band), so optimal paths correspond; for doubles the operations commute with the sign bit, step by step through the computation and the grouping; whole numbers through C69 |
| C76 | loadData, saveData, normalize, getTimeSeries, getTimeSeriesName, groupAllLengths through the interface | every position written is below (rows * longest line) because the row width used is never larger than the longest line; induction over histories with the invariant that each data set holds a table with all names or none |
| C77 | pairwiseDistance and warpedDistance with Cosine and Sorensen, by name | loop results from Pairwise; an invariant over both matrices that every filled cell holds the sums along some path to it (WarpPath); Cauchy-Schwarz over the reals |
| C78 | pairwiseDistance and warpedDistance with NaN points, distanceBetween, getMatching, normalize | laws of NaN for doubles; an invariant that every cell behind a missing value is NaN, since comparisons fail towards the cell above; the backtracking loop finds no cell equal to the minimum |
| C79 | The grouping script statement by statement as far as it changes files: argument range, order, exclusion, group files, sizes, csv, records; the library results are parameters | a relation for what a killed process leaves; invariant that recorded groupings are saved, over the jobs, data sets and histories; keys shown injective |
| C80 | generate_random_queries, get_queries, get_results_object, run_brute_force, run_paa; random batches and library answers are parameters | invariants of the generating loop; induction over queries, distances and runs; files after any prefix of the steps |
| C81 | getKBestMatches, getKBestMatchesBruteForce, compute_rel_error | counting places within a distance: the i-th answer is not farther than w if more than i places are within w |
| C82 | getKBestMatches, interLevelKSim | the places looked at with a smaller extent are exchanged against places that are not farther |
| C83 | scripts/5_genex.py: np.arange and round in doubles, the loop over extents, the two results files, the loops over distances, thresholds, queries and data sets; the library as a state-passing interface | relative error of the 1000 computed percentages checked by computation, of the product by Flocq; induction over the loops; C81 for the last extent |
| C84 | scripts/0_process_ucr.py and 1_extract_info.py on folders of files, with the listing order as a parameter and the copies as sequences of actions that can be cut anywhere; loading as a function of the file's text that refuses names in use | induction over the listing; injectivity of the suffixes |
| C85 | grouping of C16 with thresholds outside the hypothesis of C16 | induction over the subsequences: there is never a second group, so the nearest representative is the first subsequence; a negative half threshold is below every distance |
| C86 | equal values as equality of the values at two coordinates, on top of the grouping of C16-C18 | from the leader rule of C18: induction over the run for 'nearest founder at the time of processing', plus distance 0 of a series from itself |
| C87 | the searches, distances and envelopes as functions of the query; invariant of the API states: the distance of a group space is one of the library's | each step of each search is the same function for two series with equal points (functional extensionality); for the envelope an invariant: the queues only hold positions inside the series |
| C88 | getBestMatch and getKBestMatches of the group space | the two loops run side by side: what one remembers is the only element of the other's heap; a heap of two gives back the larger one; C23's facts about the distances computed with a cut-off |
| C89 | the two searches | group search: the number of matches is only used by the final cut; brute force: the i-th distance of any list of best matches is determined by the data (pigeonhole on the places of two such lists), with C26 |
| C90 | the API model's distance request, with doubles and with exact numbers | a relation between the running totals of the two orders through the loop; commutativity of the sum and product of doubles; the flipped path (C06, C51, C69) for the warped ones; computed witnesses |
| C91 | the API model (`Api.v`) | `PropsRegroup.v`: calls about the groups of a data set change nothing but its groups (C32), and grouping and loading start from an empty group space |
| C92 | the API model (`Api.v`) | `PropsRegroupBand.v`: a name with which grouping gets past the choice of distances names a pairwise distance, and these do not read the band; the other calls never look at it (`C92_other_calls`) |
| C93 | the API model (`Api.v`) | `PropsGroupsApart.v`: a state without its groups determines the replies to these calls and the state without groups after them, and calls about groups do not change it (simulation, induction over the calls) |
| C94 | the API model (`Api.v`) | `PropsPaaApart.v`: as C93, with the state without its PAA preparations |
| C95 | the API model (`Api.v`) | `PropsFresh.v`: the relation between states behind C63, here between the states of two processes |
| C96 | the API model (`Api.v`) | `PropsSwapCalls.v`: both orders lead to states that hold the same under every name (the relation between states behind C62 and C63) |

## 3. Statement policy

* A property that the code violates is `partial` in MANIFEST.json: a theorem
  `..._refuted` shows the violation (for a whole class of inputs where that is
  possible, otherwise by a concrete run), and theorems with explicit conditions
  say what does hold.
* A property stated with the preconditions it needs is `proved`; where the
  precondition is not obvious, a `_refuted` theorem shows it cannot be dropped.
* Each property file has concrete examples that meet the hypotheses.

## 4. Findings about the code (proved in the model)

* DTW with a band reads zero cells outside the band in the matching (C12).
* cosine/sorensen: 0/0, wrong early abandoning (C13).
* The global list of `gNoMatching` grows with every distance computation (C14).
* `int` division by zero in the progress log of small data sets (C21).
* `getKBestMatches` fabricates entries if fewer than k are available (C25).
* The order on candidates is not transitive because of EPS (C27); near ties
  make `std::make_heap` undefined (C26).
* PAA: incomplete blocks are summed in an uninitialised variable, preparation is
  out of bounds unless there are more series than points, the search never
  returns for blocks of two or more points (C36, C41); unloading keeps a
  dangling wrapper (C37).
* Whole-series groups read from a file cannot be saved again (C35); a failed load
  destroys the groups (C42); saving an ungrouped data set truncates the
  file (C43); a failed grouping leaves a half-built state (C33). Nothing in a group
  file but the dimensions is checked (C61).
* Envelopes stay cached after changes of the points (C38); assignment,
  average, comparison of windows and of points that are not a number (C39).
* Text format of groups: the threshold is not restored, values are printed with
  16 digits, the length of the series is not checked, a cut-off file may load
  as if complete and then make queries run forever (C45).
* Shell: ksim ignores positions if ke is given, the default distance differs from the
  help text, two commands have other names than in their help texts (C46); commands after a
  failed group command are undefined (C40).
* The length of a series that does not exist is read out of bounds; a short line moves
  the names of all later series (C47).
* File search: LB_Kim is wrong for 3 numbers and drops nearest windows; running sums keep the
  rounding error of large numbers, so exact copies are missed; text in the data file means
  an endless loop; the comparison given to qsort is no order and undefined for a constant
  query (C48, C49, C50).
* A distance name of less than three characters: std::out_of_range from matchingBetween (C55).
* Queries before normalising make later queries miss the nearest group; the radius changes (C56).
* A wider warping band can make the search in the groups answer with a farther match, and the
  computed sum distances grow by the last digits (C66).
* After normalising, the exhaustive search can miss the query itself, since distances closer
  than 1e-9 count as equal whatever the scale of the data (C67).
* `counter*100` in the progress log overflows `int` from 21474840 subsequence slots on (C68).
* The number of groups and the best match found through the groups depend on the order of the series in the file (C70).
* A data set that is saved and loaded has its values rounded to six digits, so that different series can become equal; a value of 2^-1022 can be saved, but the file cannot be loaded with the GNU C library (C71).
* A data file whose saving was interrupted is loaded without a message, with fewer series or a shortened last number; an empty file for which names are expected gives a data set whose longest series is said to have length -1 (C72).
* A stretch of the data set that is itself searched for in the groups need not be found: another one at a distance above 0 can be returned (C73).
* saveDataset never looks at the state of its stream: on a full disk it returns as usual, with a part of the data set in the file and its old contents lost (C74).
* The band of a warped distance is measured from the beginning of both series. For series of different lengths it is not the same band when both are reversed: 0 5 5 and 0 0 0 0 5 with ratio 0.5 are at distance 0.5, and 5 5 0 and 5 0 0 0 0 at distance 0 (C75_backwards_refuted).
* A negative start column is not refused by loadDataset: every rectangular file of numbers is then written past the end of the buffer (C76_negative_start_refuted). A line that ends before the first value column gives a series of negative length; normalising such a data set loops through memory because the loop counter is unsigned (C76_short_line_refuted).
* The distance named "cosine" is the cosine similarity (no `1 -`): the best match under it is the most opposed series. "sorensen" of a series and its mirror image is infinite, and of zeros NaN; it has no triangle inequality, which comparing through the centroid of a group needs (C77).
* A field nan is accepted when loading (std::stod). Afterwards euclidean_dtw and manhattan_dtw never return for a series with it (the backtracking loop finds no cell equal to a NaN minimum), and chebyshev lets a missing value match anything (C78).
* The grouping script rewrites its records file in place after each grouping. Killed in that moment, it leaves a file that json.load rejects, and every later run ends at once (C79). It also keeps groupings listed as done while --start-over rewrites their files, and one unreadable data set stops all larger ones.
* The experiment scripts never query the last point of a series, loop forever on series of at most two points, do not record the number of matches with the results, and rewrite queries and results in place, so that a kill loses them (C80).
* If the groups hold fewer subsequences than answers asked for, made-up entries at distance 0 can make the experiments' error 0 for wrong answers (C81).
* Looking at more subsequences can make the answer worse if groups are at the same distance from the query (C82).
* scripts/5_genex.py: with the default k = 15, a data set of fewer than 14500 subsequences stops the whole script with an exception, and since the data sets are taken in ascending order, nothing after it is done (C83_small_refuted).
* scripts/0_process_ucr.py stops with an exception when it is run a second time, since it takes X_QUERY and X_DATA for data sets (C84_again_raises); scripts/1_extract_info.py leaves all query sets loaded and mixes up X_out with the queries of X (C84_out_refuted).
* C85: no caller checks the threshold. With an infinite one, or "nan" typed on the command line, the test `bestSoFar > threshold / 2` is never true, so a subsequence whose distance from the first is infinite or not a number is added to `groups[bestSoFarIndex]` with the index never set (genex/group/LocalLengthGroupSpace.cpp:78-105).
* C86: equal subsequences can be in different groups. The first joins the nearest group at its time; a group founded later can be nearer to the second. So the groups are no index of repeated patterns.
* Near ties (C88): getKBestMatches(1, 1) and getBestMatch can give different subsequences, because the heap orders candidates closer than 1e-9 by position.  Series 5 x x and 0 0 5 with x = 1.2e-9 and query 0 0: getBestMatch gives 0 0 at distance 0, getKBestMatches gives x x at distance 0.6e-9.
* The warped distance depends on the order of its two arguments (C90). For sums, two steps that tie after the division need not tie before it, and the tie is broken in favour of the step in the first series; `[1.0,0.0,1.1]` and `[0.3,0.7,0.4]` have two different euclidean_dtw values, one unit in the last place apart. The cosine and sorensen quotients cannot be minimised step by step at all, and there the two orders differ by much: sorensen_dtw of `[6,2,8]` and `[1,2,9]` is 0.345 in one order and 0.226 in the other.
* Python: the defaults of getMatching belong to the wrong parameters (C53).
* Queries: longer than the longest series, nothing of a searched length, nothing
  to examine (C34).

## 5. Trusted base

* Coq 8.16.1 kernel (and `vm_compute`).
* Axioms reported by `Print Assumptions`, all from the standard library:
  `ClassicalDedekindReals.sig_forall_dec`, `ClassicalDedekindReals.sig_not_dec`,
  `FunctionalExtensionality.functional_extensionality_dep` (through `Reals`, which
  Flocq and XR use) and `Classical_Prop.classic` (through Flocq).  Theorems
  for any number system are closed under the global context.
* No axioms, parameters, functors or disabled checks of our own.
* The reading of the C++ source: each definition cites file and lines.
* Modelled: everything in `genex/` that computes or keeps state (TimeSeries, TimeSeriesSet,
  GroupableTimeSeriesSet, Distance, PAAWrapper, group/*, GenexAPI, IO, lib/trillionDTW,
  lib/deque, lib/ThreadPool, lib/util), `cli/GenexCLI.cpp` and `pygenex/GENEXBindings.cpp`.
* Also modelled: `scripts/0_process_ucr.py`, `1_extract_info.py`, `2_generate_groups.py`, `3_brute_force.py`, `4_paa.py`, `5_genex.py` and the
  part of `common.py` they use (numpy's arange and Python 2's round in doubles), with the library calls and random numbers as parameters.
* Not modelled: the build files,
  the tests, libraries (Boost serialization and filters, the C++ standard library) beyond
  the contracts listed in section 1, terminal output, timing.

### The model against the project's unit tests

The unit tests in `/repo/test` are replayed on the double precision model: `UnitData.v` holds the data files,
`UnitTests.v` (distances, series), `UnitSets.v` (data sets, groups, group files) and `UnitApi.v` (API) the test
cases, under their names and with the lines they stand in.  All checks of the replayed tests hold in the model.
This tests the reading of the source; it is not a proof of any property.

* Run in the build: all replayed tests except the searches through the API (`t_api_group`, `t_api_match`,
  `t_api_knn`, `t_api_kx`), which take minutes and were evaluated by hand.
* Left out: tests on ItalyPowerDemand_DATA (size), tests that save single series, groups or lengths (the program
  does not), tests without checks.
* Four tests write `BOOST_TEST(x, y)` for `BOOST_TEST(x == y)` and so only check that x is not zero.  Three of the
  values behind the comma are wrong: the pairwise Euclidean distance in `DistanceTest.cpp:58` (2.0, it is the root of
  20), `CosineTest.cpp:30` (0.94) and `SorensenTest.cpp:30` (0.3216, it is 8.2/28.6).
