# Formal model of usnistgov/SCTK in Rocq

## Layout

`rocq/theories/` holds, for each area `X` of the code:

* `X_Model.v`  - Gallina definitions transcribing the code; every definition cites file and lines in
  `/repo`; no proofs here.
* `X_Spec.v`   - the small independent specification used in the theorem statements (only when the
  statement needs more than the standard library).
* `X_Proofs.v`, `X_Proofs2.v`, ... - lemmas.
* `X_Thm.v`    - the property theorems, `Print Assumptions` under each, and at the end the concrete cases
  meeting their hypotheses (`Example`).

Naming: `Cnn_...` proves (part of) property Cnn of `properties.jsonl`; suffix `_partial` marks a theorem
that covers only part of its property; suffix `_refuted` marks a proof that a natural claim is false of the
code as modelled (a finding). When a property as first written turned out false, its statement in
`properties.jsonl` was replaced by the true one, and the refutation of the first one is kept.

## Modelling conventions

* C/C++ integers that the properties do not probe for overflow are `Z` or `nat`; where a wrap-around or a
  buffer bound is the point, it is explicit.
* Undefined behaviour (`Undef`), `exit(...)` (`Exit`) and non-termination (`NoFuel`) are distinct outcomes
  of the type `res` in `Base.v`, never a default value. Theorems about runs that use fuel show that the
  fuel given is enough, or hold for every fuel.
* Pointers (tokens, segments, arcs, nodes) are identifiers into finite stores.
* Floating point is modelled by exact arithmetic (`Z` or `Q`) and the comment at the definition says so.
* Iteration order of `std::map` keyed by pointers is the order of insertion in the model; no theorem
  depends on it except where the statement says so.

## Plan per property

| id | model | proof |
|----|-------|-------|
| C01-C03, C53, C58 | `Graph_Model`: constructor, StartingCoordinates, PreviousIndexes, PreviousCoordinatesHypRef, transition costs, memoised CalculateCost on a cost store, FillGraph, GetBestCost, RetrieveAlignment | spec = alignments as column sequences whose projections are paths of the token graphs; induction on a rank of the acyclic graph; memo invariant; back-trace induction |
| C04, C52 | same model with ValidateTransitionInsertionDeletion | choose the changed dimension of latest begin time: never pruned; exact characterisation of the pruned moves |
| C05-C06 | `Matrix_Model` | mixed-radix injectivity; invariant over histories against a finite map |
| C07-C09 | `Compressed_Model`: blocks, LRU, accounting, compression parameterised by an arbitrary lossless partial compressor | refinement to a finite map over histories; drift and endless loop shown by witnesses |
| C10-C13, C48, C54 | `Token_Model`, `Text`-like scanning of token text | DP rows = recursive minimum = minimum over edit scripts; case analysis; linear arithmetic; divergence by fuel-independence |
| C14, C59 | `Uem_Model` | induction over the segment list; parity of sorted borders |
| C15 | `Segm_Model` | progress measure and chain closure |
| C16, C17, C50 | `Store_Model`: finite-map style models | induction over histories |
| C18, C19, C60 | `Rep_Model`: record of aligned words, scorer, counters | permutation invariant over sequences of alignments; end-to-end theorem |
| C20, C55 | `Alt_Model` | denotational semantics of the alternation grammar against graph paths |
| C21 | `Stats_Model` | sorted-permutation uniqueness, variance identity over Q |
| C22-C24 | `Links_Model` | DFS invariant; invariant over edit histories |
| C25, C26, C51, C56 | `Net_Model`, `NetDp_Model` | as C01-C02 on arc networks; traversal invariants |
| C27, C28 | `Word_Model` | case analysis |
| C29 | `LList_Model` | refinement to list |
| C30, C31 | `Order_Model` | permutation / sortedness, tie blocks |
| C32, C33 | `SysTest_Model` | witnesses (verdict contradicts counts) and symmetric parts |
| C34 | `Binom_Model` | sums over Q, binomial theorem; normal-approximation branch compared with its intended argument |
| C35 | `Mapsswe_Model` | state-machine invariant |
| C36, C37 | `Scores_Model` | induction over sentence lists and add histories |
| C38, C47 | `Path_Model` | bubble sort on runs; growth |
| C39-C43, C57 | `Text_Model` | byte arithmetic; lexicographic order; buffer invariants |
| C44 | `Rover_Model` | table invariant over the arcs, arg-max fold |
| C61 | `Sil_Model` | cut invariant, induction over the pieces |
| C63, C64, C66 | `Chan_Model` | units by induction, segments by a greedy relation, channels by pairing of runs |
| C67-C69 | `Read_Model` | tokeniser on a block of memory; window invariants; a channel in a window is a shifted channel |
| C70, C71 | `Trn_Model` | sorted search, table invariant over the references, induction over the hypotheses |
| C72, C73 | `Merge_Model` | decomposition of the paths of a merged network, a case analysis of the relinking, induction over deletions |
| C74, C75 | `Anet_Model` | the expansion keeps the readings as an invariant of the traversal, induction over the nesting; C75 by C25/C26, which now ask for distances of the words of the networks only |
| C76 | `Copy_Model` | invariant of the copied arcs: each copied node has its null arc to the stop; then an invariant of the deletions, where only the last null arc of the stop's copy moves arcs |
| C77 | `Wtn_Model` | rows of slots are kept by the insertions; the way back edits one slot at a time from the right; alignments and ways through the matrix correspond by levels; induction over the systems |
| C78 | `Sgml_Model` | each line of the file moves the reader from one stated state to the next; induction over entries, sentences, speakers, labels and systems; numbers by induction over digits |
| C79 | `Case_Model` | facts about the finite tables by computation; the conversion loop keeps the text so far, its terminator and the room of the buffer; comparison through C57/C58's order of characters |
| C80, C81 | `Sgml_Model`, `Lur_Model` | cutting lines at quotes, induction over lines; the counting follows a list of mentions, whose run is analysed by an invariant of places and counters |
| C82, C83, C84 | `Summ_Model` | positions in a sorted list are unique, for any sort with the contract of qsort; the moving of array entries is followed place by place; sums by induction over the speakers |
| C85 | `Ctm_Model` | an invariant between items and one inside a group; links are those of a list of pairs, whose paths are analysed separately |
| C86 | `Sep_Model` | the loop keeps the text written, its terminator, the last unit and the room left; induction over the units |
| C87 | `Cnet_Model` | the traversal that replaces arcs, kept related to the old network by which arcs are done; each operation is shown on one arc for every network; texts from C74, the alignment from C25 |
| C88 | `Ngraph_Model` | the search over an abstract step relation and column cost; the odometer of iterators as counting in mixed radix; groups of tokens as counts of equivalent tokens; walks are n-way alignments |
| C89 | `Ngraph_Model` | the same search with the time costs; the divisor from C13; every time is a multiple of the smallest power, so the division is exact |
| C90 | `Ngraph_Model` | the price of a lone token at every reached coordinate, against a table read off the help text |
| C91 | `Wseg_Model` | connecting as an invariant over the arcs done: what the network says are groups of what it said; the binary search from the order of C40; texts from C74, characters from C87, the alignment from C25 |
| C92 | `AsTrn_Model` | lines and ids by characterisations of the last parenthesis; the map of speakers as a sorted list under insertion; graphs from C20; the groups by induction over the sorted ids |
| C93 | `AsStm_Model` | words of a line by an inductive relation, the begin of the words by first occurrences; an invariant over the lines gives each a disjoint interval of tokens; walks through a speech split at the links between segments |
| C94 | `Rttm_Model` | an invariant over the lines gives each speaker a list of chains of tokens that together are the speaker's places among the words; replacing a token by a graph is a substitution in the language of the walks, so the readings of a chain are those of its words |
| C95 | `Rttm_Model` | each word has a range of tokens of its own, links stay in the range or go from the ends of a word to the beginnings of the speaker's next word, so a walk splits where it leaves a range and never returns; words already split have no mark left, so that the expansion does nothing |
| C96 | `Det_Model` | the loop keeps the invariant that the discarded words (but the first of each sort) are not above the kept ones, so a threshold lies between; two lines with the same number of discarded words are equal, which places every threshold on the curve; arrays hold their values with their capacity, a power of two times the first size |
| C97 | `Det_Model` | the bin of a confidence is the floor of its multiple, characterised by the inequalities of the bin; counting by induction over the words; the loop over the scaled bins by the invariant that what is left is empty or holds a bin |
| C98 | `Rank_Model` | the tables are filled cell by cell (invariant: the cells of the systems so far are set); the rows and columns are ranked by the mean ranks of C30 and sorted by C31 |
| C99 | `Rank_Model` | the scan for highest and lowest by induction over the values; a column is characterised by the distances to the mean and to the deviations; medians as in the summaries; buffer sizes by arithmetic |
| C100 | `Anovar_Model` | ranks as half integers: sum and sum of squares of the ranks of a row by grouping equal values, so that the count of cubes is the loss of the squared deviations; the statistic by algebra over double sums; the array of ties by an invariant (each value once, with its count); the matrix by an invariant over both loops; searches in the table by induction |
| C101 | `Nce_Model` | the loops by induction over words and speakers; real logarithms from the standard library, so these theorems rest on its axioms of the real numbers; the bound of constant confidences from ln x <= x - 1 |
| C102 | `Alex_Model` | an invariant over insertions: strings in order of first occurrence with their counts, and a sorted permutation of their numbers; binary search by induction over the interval; the runs of equal counts sorted one by one |
| C103 | `Dtl_Model` | loops by induction over groups, sentences and steps into the list of strings counted, then C102; groups by the theorem of C37 and the order of strings by its independence from the order of counting |
| C104 | `Cor_Model` | the table of indices is related to the sets of sentences by invariants over its rows; marks by induction over the steps of two paths; the word list by the invariant of C102 |
| C105 | `Pra_Model` | the loop over passes by induction on the steps left, with the sum of the columns as measure of a line; a reader of the lines is defined in the specification and inverts the printer by induction over the columns |
| C106 | `Gdiff_Model` | diff is a function with a contract (its lines show moves from one word file to the other); invariant: the lines left show the moves whose reference side is the words of the utterances left; uniqueness of the distribution by the position of the last reference word |
| C107 | `Rpg_Model` | the text left in a cell always fits, apart from one blank, so that every line takes something away; the sizes only grow over both passes; the sizes of the cells and the bars of a row add up to the width because the shares of the missing bytes add up |
| C108 | `Wwl_Model` | the table of words holds the listed words after every line, by induction over the lines; the binary search finds a word of a sorted table if it is there; a compound word is cut at `=` as its inductive parts say |
| C109 | `Wws_Model` | the sums of a list of steps add up under concatenation; the used cells of the array are the weightings scored so far, with room made before each |
| C110 | `Chop_Model` | an invariant of every loop bounds the ends and ties the cut to the pauses; induction over the pieces and the conversations gives the partition, a measure the termination |
| C111 | `Arep_Model`, `Sgml_Model` | the writer is composed with the reader of C78: induction over cells, paths, speakers and labels; an invariant of the grouping loop for every sorting function |
| C112 | `Sig_Model` | a reader of lines, words and boxes is specified apart and applied to the text: induction over systems and tests, with the length of every padded field; `centre` is tied to the function over the array of C46 |
| C113 | `Uni_Model`, `Rpg_Model` | the calls of the table generator are shown to be those of a list of good rows, by induction over systems and tests; C107 says what lines show such rows |
| C114 | `Tab_Model` | every cell is shown to fit the width computed from the logarithms, so that the words of a line are the numbers rounded; order and permutations carry the statistics of C21 to the table |
| C115 | `Gen_Model` | the report of a run without reference: names of the systems, groups that are aligned (with `Skip_Model.decide`), columns, words; a small XML reader in `Gen_Spec` finds the systems and columns again, by composing "this text gives these pieces" and "these pieces add these elements" |
| C116 | `Clog_Model` | the comma separated alignment log: fields of a token, lines of groups, scored words and columns, headings, the logger with its levels; the reader in `Clog_Spec` takes the marked lines and looks the fields up by their headings; every line is the join of its fields, which splitting inverts |
| C117 | `Args_Model` | The loop over the arguments keeps an invariant that ties every variable to the options read so far (`inv`); the checks turn it into the state of a run (`fin`); the assignments of properties are compared with a table name by name. |
| C118 | `Filt_Model` | The loop over neighbours is compared with all pairs of segments by a chain of ends and starts; the passes over speeches are sums of errors and maps of `Uem_Model`'s filter; the decision follows from sums that are zero. |
| C119 | `Scl_Model` | The loop over the arguments keeps an invariant that ties every variable to the options read so far; each check of `proc_args` is decided against a condition on the options (`dec`), the conditions are joined to `ready`; the loop over the hypotheses is compared with an inductive list of events (`scoring`). |
| C120 | `Rcl_Model` | By induction over the options, the loop over the arguments gives the fold of their effects or stops where two formats differ; the fields of the fold are the last values; the run is compared with an inductive list of events. |
| C121 | `Stc_Model` | As C120; the flags of tests, graphs and reports after the options are the parity of the mentions since the last reset, by induction over the mentions; the run is compared with the filtered fixed orders. |
| C122 | `Lut_Model` | The formats are spelled by lists of columns, the iterated rows are the values that columns take, so the calls are those of a list of rows; C107 then gives the lines. Statistics by C83's lemmas; rounding twice is rounding once. |
| C123 | `Lun_Model` | As C122; the four parts are one function of the statistic shown, the systems a loop over their totals. |
| C124 | `Rfm_Model` | records as fgets cuts them; lines that fit are records, so the run is a fold over lines by C45; induction over records for the split at a newline. |
| C65 | `Wnet_Model` | state of the index at unit boundaries, induction over units and alternatives |
| C45, C62 | `Rfilter_Model`, `Rline_Model` | index table invariant, scan equivalence; rule lines round trip |
| C46 | `Pad_Model` | length arithmetic |
| C49 | `Skip_Model` | decision table |

Every property can be expressed in a model; results that turn out false of the code are recorded below as
findings.

## Trusted base

* The kernel of Coq 8.16.1 and its `vm_compute` (used in examples, witnesses and for the finite tables of constants).
* `Print Assumptions` under every theorem except those of C101 answers `Closed under the global context`. The theorems
  of C101 are about real logarithms and list the standard library's axioms of the real numbers:
  `ClassicalDedekindReals.sig_not_dec`, `ClassicalDedekindReals.sig_forall_dec`,
  `FunctionalExtensionality.functional_extensionality_dep` and `Classical_Prop.classic`. No other theorem uses an
  axiom. (The checker lists seven constants `Coq.ssr.ssrunder.Under_rel.*` as library axioms: they are the
  parameters of a module of Coq's own ssreflect library that is loaded indirectly; no theorem depends on
  them.)
* The faithfulness of the `X_Model.v` files to the C and C++ text: the transcription is by hand, checked by
  reading, with file and lines cited at each definition. Nothing was compiled or run.
* The `X_Spec.v` files say what the properties mean.

## What is modelled

asclite (C++), by file in `/repo/src/asclite/core`:

* `graph.cpp`: hypothesis-reference and n-way alignment (word, time and weight costs, adaptive costs, pruning), cost
  store, back-trace. `arraylevenshteinmatrix.cpp`, `compressedlevenshteinmatrix.cpp` (LZMA is an arbitrary
  partial lossless compressor).
* `token.cpp` (edit distance, equivalence, marks), `timedobject.cpp`, `segment.cpp` (links, flattening,
  ordering), `segmentsgroup.cpp`, `speech.cpp` (segment edits, removal), `linestyle_inputparser.cpp`,
  `stm_inputparser.cpp`, `rttm_inputparser.cpp`, `ctm_inputparser.cpp`, `trn_inputparser.cpp`,
  `ctmstmrttm_segmentor.cpp`, `trntrn_segmentor.cpp`, `uemfilter.cpp`, `spkrautooverlap.cpp`.
* `properties.cpp`, `speechset.cpp`, `speakermatch.cpp`, `tokenalignment.cpp`, `alignedsegment.cpp`,
  `alignment.cpp`, `graphalignedsegment.cpp`, `stt_scorer.cpp`, `rawsys_reportgenerator.cpp` (counters, and the tables of C114),
  `statistics.cpp`, `recording.cpp` (choice of the groups, the run without reference, the filters), `sgml_reportgenerator.cpp`, `sgml_generic_reportgenerator.cpp`,
  `logger.cpp` (the messages), the alignment log of `token.cpp`, `segmentsgroup.cpp`, `graphalignedsegment.cpp`, `stt_scorer.cpp`, `recording.cpp`; the command line of `main.cpp` (not the texts of its messages).

sclite, sc_stats and shared C library, by file in `/repo/src/sclite`:

* `net_adt.c` (creation, traversals, joining, deletion, expansion of alternatives, null arc handling parts listed at the definitions), `net_dp.c`,
  `addarc1.c`, `delarc1.c`, `word.c`, `path.c`, `llist.c`, `text.c` (coding, comparison, escaping, reading,
  token extraction), `order.c`, `rank.c` (tables of ranks, reports of the significance tests), `range.c` (the numbers and marks), `anovar.c` (layout excepted), `statdist.c` (binomial, tables X2 and Z1tail), `det.c` (the numbers of the graphs, without `ppndf`), `signtest.c`, `wilcoxon.c`, `mtchprs.c`,
  `sentmcn.c`, `scores.c` (counters), `pad_pr.c`-like padding and report columns, `rover.c` (voting,
  cutting of conversations, command line), `stm2ctm.c`, the reading of `stm.c` and of `fillmrks.c` (no marks of overlap),
  `align.c` (transcripts by utterance ids, alignment by characters without the confidences, inference of word
  segmentations).
* `scores.c` also: the SGML form of the scores written and read back, the report by speaker, the tables of
  several systems and the executive table (values, not layout); labels and the labelled utterance report (of one and of several systems, with their tables); the normalised cross entropy; the printed alignment of `path.c` (lines byte by byte, not the head); the comparison of several systems of `corresp.c` (sets of sentences, warnings, the analysis of missed words; not the layout of the alignment); the detailed reports of `sc_dtl.c` (values, not
  layout) with the lists of `alex.c`; the alignment by diff of `align.c` (diff is a function with a contract; ids and scores left out); the table generator `rpg.c` (not the locks and the dump of definitions); the word weights and the word weighted scores of `wwscr_f.c` (not the dump and the layout); the cutting of
  two time marked files of `ctm2ctm.c` (not the networks of a piece); case conversion, comparison and separation of characters in `text.c`; the command line and the run of `sclite.c` and of `sc_stats.c` (not the texts of their messages), the choice of encodings in `text.c`.

rfilter1, in `/repo/src/rfilter1`: `aprules2.c`, the index and the rule lines of `grules2.c`, the run of `rfilter1.c` (for debug levels up to 1).

## What is not modelled

* Command line parsing (except those of asclite, sclite, rover and sc_stats), logging, the layout of sclite reports that are not tables of `rpg.c`, and file formats except where listed above (DTL,
  histogram and DET reports are not).
* Perl scripts, `slm` library, C shell scripts, `chfilt`, `hamzaNorm`, `def_art`, `rover` input and
  networks merging other than cited.
* Encodings other than those cited in `Text_Model`.
* Floating point rounding; fixed-width overflow except where stated; memory exhaustion.
* Concurrency: the code is sequential.

## Findings

Behaviour of the code, as modelled, that contradicts what a user would expect. `(thm)` names the theorem.

asclite, tokens and segments
* An empty token text has edit distance 0 to everything; two word-beginning fragments match anywhere they
  agree on the shorter text (`C11_common_beginning_refuted`).
* The safe time divider loops forever on an interval of length zero starting at zero (C13).
* Text `(-)` loses its first two characters; an empty text is read out of bounds; a stale fragment flag
  survives a change of text (C54).
* The flattened order is not topological after alternations; an optional first token is listed twice; an
  optional last token hides its words (C22, C23). Removing a segment joins only one predecessor (C24).
* `} {` recurses for ever, an unclosed group is dropped, `{ / }` yields the word `/`, `{ @ @ }` disconnects
  the graph, a sequence of optional groups inside a group loses the empty reading, a wholly optional line
  loses its empty reading, the last timed word may not reach the end of the segment, words in a group all
  get the time of the whole segment (C20, C48).

asclite, alignment
* The figure for memory used by the compressed matrix drifts upwards by 5 bytes per decompression (C08);
  the garbage collector loops for ever if the oldest block is incompressible (C09).
* `align.optionally=both` sets only the option for references (levenshtein.cpp:48-68).
* The reference speech set ignores `ref` and uses `hyp`; origin `gen` also marks the set as hypothesis;
  property caches are stale (C17). Speaker map keys collide when names contain `|`; a seventh CSV column
  is written outside the array (C16).
* A system named `REFERENCE` never gets a token; asking for an unknown system inserts NULL, and printing
  the record then uses it (C50).

asclite, segmentation and filtering
* Resetting the segmenter twice with the same references takes the first element of an empty set
  (recording.cpp:630 does this for the second system); zero-length and unordered reference segments are
  lost; hypothesis segments outside reference groups are dropped; segments starting at INT_MAX are ignored
  (C15).
* The UEM filter compares file names by prefix for segments and exactly for gaps; segments are silently
  removed when borders coincide; an even number of hypothesis segments yields no gaps; duplicate or
  overlapping map elements cancel; a hypothesis place without references stops the program (C14, C59).

* The number of matrix cells wraps at 64 bits: eight speakers of 255 words give 0, so the group is aligned
  without compression; a group without hypothesis gets one at time 0, so its duration counts from the
  beginning of the recording; a skipped group is logged both as `NO` and as `SG` (C49). A second hypothesis
  file with the same title replaces the first (C115).

asclite, scoring and reports
* `both` forgives only reference words (`C18_both_refuted`); with two systems an inserted word makes the
  scorer use NULL (`C18_two_systems_refuted`); counters are never cleared between systems
  (`C19_second_system_refuted`); forgiven inserted words are counted as reference words
  (`C19_reference_words_refuted`); an inserted word that overlaps no segment of its group stops the
  program (C60); the standard deviation of one value is 0/0 (`C21_deviation_refuted`), and the width of a
  column converts the logarithm of zero to `int`.
* The SGML report sorts only the last speaker of each speech and uses NULL for a speech without segments
  (C111).

sclite
* An alignment of cost 999999.9 or more yields an empty path; networks keep the null arc at the head, so a
  second alignment stops the program (C25, C26).
* Breadth-first traversal is not topological (C56).
* Two fragments compare asymmetrically; copying an optional word loses its comparison text; copies strip
  one trailing `*` each; two `@` cost 1; two different optional words cost as much as a deletion and an
  insertion (C27, C28).
* Copying a list over a non-empty list leaks, over itself empties it; a failed copy is not reported (C29).
* Integer comparison by subtraction overflows (C31).
* The normal approximation of the binomial uses R*0.5 as probability, so with more than 20 trials every
  uneven split is significant; the value at n successes is 1/2; R > n gives more than 1 (C34). The sign
  test names the system with the better average, equal totals by argument order (C32). The signed-rank
  test names by counts, not rank sums; its variance overflows from 1024 speakers on (C33). `rank.c` pairs
  speakers by position.
* MAPSSWE compares WORD structures with `strcmp`; a constant difference gives Z = 0; zero segments read
  outside the array (C35).
* Pairs do not move when a path is sorted by time, so a path need not be sorted as a whole (C38).
* The UTF-8 encoder stops for code points from 0x20000; a comparison with limit 0 compares one character;
  unescaped backslashes are lost; an empty word with tags and a line starting with NUL read before the
  buffer; token extraction overruns its buffer by one byte; a too long token loses its beginning; an
  unclosed group is dropped (C39-C43).
* `set_pad` and `set_pad_cent_n` give one blank too few; `center` returns a single static buffer and overruns
  it for texts of 2000 characters or more; a report column narrower than 3 stops asclite for longer texts (C46).

ROVER
* Voting by `avgconf` divides by the total confidence: with all confidences 0 no score compares and the
  program stops, even with alpha 1; files without confidences get -1 for every word, so alpha 0 stops the
  program; the largest confidence of negative ones is 0; the 50th different word stops the program
  although the array has room (C44).
* A file without words left in the conversation contributes the first word of its next conversation to every
  further piece; the end test is `s < n` with `n` the last index, so a last conversation of one word per file is
  never processed; only the first file's silence has the requested length; conversations are compared by
  name, not by channel (C61).

CTM against STM
* An alternation without `<ALT_END>` takes the words of the next channel or reads beyond the words (C63). Every
  word that begins with `<ALT` is taken for a mark.
* The message for a hypothesis with more data than the reference prints a segment beyond the last one; an
  empty STM file is read beyond its end (C64).
* `<ALT_BEGIN> <ALT> a <ALT_END>` loses `a`: an empty alternative that is not the last one swallows the first word
  of the next. With `-m hyp` an ignored alternation keeps its end mark; the next word is lost and the following
  ones become alternatives of the null word, or memory beyond the words is read (C65).
* With `-m ref` a word between the last used segment and a dropped one is scored nowhere (C66).
* A comment or blank line at the end of an STM file without a newline is parsed as a segment, a blank one is an
  access through the null pointer; a first word that begins with `<` is taken for the label (C67).
* The error codes 15 to 18 for missing CTM fields are dead: `TEXT_strBcpy` reads the null pointer first. An empty
  line ends the program; a field of 500 bytes is terminated one byte beyond its buffer (C68).
* `fill_STM` with `s` beyond `num` would write `seg[-1]`; C69 shows that it is never called so.
* The last line of a transcript is not scored when its newline is missing, in the hypothesis as in the reference;
  a second reference for an id is compared only over its own length, so a shorter different one is accepted;
  `)` before `(` writes before the block of the id; the list of missing references is cut at their number (C70;
  the last one read, not modelled).
* The result of `extract_speaker` is ignored: an id without `-` or `_` is counted for the speaker of the utterance
  before; an id of 1000 bytes runs over the speaker buffer; an empty id with `wsj` or `atis` reads old bytes (C71).
* Joining a network without words reads through its null stop node; deleting an arc that is alone on a side keeps
  the paths through it, without its word (C72, C73).
* A group without alternatives (`{ }`) and a word with an opening brace in it (`ab{c}`) make the program follow a
  null pointer; an unclosed group is dropped without a message; empty alternatives are skipped, not offered; more
  than 30 groups inside each other end the program, since each level holds one of 31 traversals (C74). Read, not
  modelled: the search for `{` goes by bytes and finds it inside a GB character; `change_node_name` builds names
  in 40 bytes, which deep nesting overflows; `reset_net_pointer` visits every path instead of every arc.
* `reset_WTOKE_flag(.., "ignore")` does nothing (harmless, the flags are fresh).

rfilter1
* A rule with a left context whose left hand side matches nearer to the beginning of the line than the context
  is long compares bytes before the input array; the output is not checked against its array (C45). The rule
  table has one element less than the number of rules it accepts; a rule file without rules is indexed through
  an uninitialised pointer (read, not modelled).
* `a=>b` deletes `a`; `a => b /c _ d` loses the left context; a slash in brackets is taken for the mark of a
  context unless a `[` follows it; `/ => x` reads before the line; the words NAME, DESC or FORMAT within the
  value of another auxiliary line also set these fields; an indented comment stops the program; lines of more
  than 131 bytes are split (C62; the last three read, not modelled).
* Copying a word network contracts its null arcs (C76).
* ROVER loses the alternatives of all systems but the first when it merges their networks, since only the words
  on the chosen path are copied; the words of all later systems are copied twice, so that a word loses up to two
  final stars (C77).
* `sclite -p` and `-o nl.sgml` write the report with ends of lines as separators; `load_SCORES_sgml` always fails on
  it as soon as a sentence has a word, since the letter of the first entry stands alone on its line (C78).
* In the alignment report a word with a quote is written as it is and makes the file unreadable; a semicolon comes
  back as backslash and semicolon, one more backslash each time the report is written; tags of words come back as
  part of the word. A weight that is not stored comes back as -1. A word of 1000 bytes or more as printed, or a
  label of about 10000 bytes, is written outside a buffer (C78).
* The buffer of the case conversion grows by half, once per character, so that a first text of four characters such
  as the Vietnamese "được" is written past it; in Latin-1 × becomes ÷ in lower case (C79).
* A label text without `>` is read past its end, a label of 30 bytes or more is written past a buffer, and the report
  of several systems is sized by the first one, so that a later system with more speakers or labels is counted outside
  it. Of two labels with the same identifier up to case the second is never counted. The mean of the single report
  leaves out speakers without reference words, that of the report of several systems counts them with 0% (C81).
* The report by speaker drops the speakers without reference words from its arrays while it goes on counting places
  by the full list: with two of them before others, the statistics leave out a speaker with words and count one
  without. Splits and merges are not moved at all, and their statistics stand under exchanged titles. The sums of
  weights are ints, cut at every speaker. With no speaker at all the median of ints is read outside an array (C82, C83).
* The table of several systems counts a speaker without reference words with 0%, the report by speaker leaves them
  out; the executive table does not count merged and split words as reference words. Speakers that the first system
  does not have are dropped, the sixth of them is written outside an array (C84).
* asclite's CTM reader enters the last token of an alternative into the segment when the next tag's word comes: a file
  that ends with `<ALT_END>` never enters that of its last alternative, so no path through it is complete. The word
  after `<ALT_END>` is built with the group's segment as its parent. An alternative that begins before the first one of
  its group stops the program, an empty one makes the word after the group one of the alternatives. A line without
  words leaves the buffers of sscanf as they were: the word before it is read again. Fields of 255 bytes and more
  overflow their buffer (C85).
* Separating characters in the Guarani profile copies a G with its tilde as two characters but goes on three bytes: in
  the encodings of one byte the tilde's second byte is lost and the place to write is after a null byte, so the text
  ends there (C86).
* Spelling the words of a network: the loop over the arcs of a node looks up the next arc before the operation, and the
  new arcs come to the end of the same list. With two optional words that leave one node, `{ (a) / (b) }` with `-D -c`,
  each is replaced by an optional word of the same text again, and the loop never ends. A word of hyphens with
  `-c DH`, and `()` with `-D`, give an empty network that is then merged. The character `@` becomes the null word, a star
  that ends a run of ASCII characters is lost (C87).
* `PreviousCoordinatesGeneric` (graph.cpp:618-638) advances list iterators that are at the end of their list as soon
  as there are two speeches: undefined, and right only because the usual list is circular (C88).  The price of a
  missing token depends on the last token of the column only, and tokens are compared with the first of each group
  only: with optional tokens, or with fragments counted as correct, the cost depends on the order of the speeches.
* The n-way time cost assigns `transitioncost` instead of adding to it (graph.cpp:1436), so only the last token of a
  column pays (C89).  The divisor of time costs is 100 times a power of ten, and the penalty for mismatched speakers
  is 100: the penalty vanishes when all times are multiples of 10 ms.  A token at [0, 0] makes the divisor undefined.
* `-D both`, the default of `-D`, sets only the references' flag: the second test is an `else if`
  (levenshtein.cpp:53-60, C90).
* Inferring the segmentation of the reference (align.c:238-262) converts the texts to lower case when case *does* matter,
  and builds the networks from the texts as they were in any case, so case always matters.  The lexicon is searched by
  halving although one that is out of order is only complained about.  A null word counts as one of the words put
  together.  Each of the two functions keeps the lexicon of its first call, whatever file a later call names (C91).
* asclite's transcripts (C92): one `;` begins a comment (`find_first_of(";;") == 0`), a line without parentheses is both
  its words and its id, an empty line is an utterance `()`.  The loops over the speeches in
  trntrn_segmentor.cpp:56-98 have no bound, so an id the hypothesis lacks reads past the last speech.  `Reset` keeps the
  emptied list of ids when the references are the same, so the second system takes the first element of an empty set.
  Only the first utterance of an id is scored, and hypotheses without a reference are not scored at all.
* asclite's STM reader (C93): the buffers of `sscanf` are used before the number of fields is checked, so a blank line
  reads memory not written; words of 255 bytes overflow them.  The words of a line begin after the first text equal to
  the end time after the first text equal to the begin time, so `f 1 s 0.5 5 hello` has the word `5`.  A label without
  `>` makes the whole line words, and a word in brackets becomes the label.  The copy compared with
  `inter_segment_gap` has no null byte (stm_inputparser.cpp:28-43).  The fields of a category are counted in words, so
  a title of two words is lost.  An excluded segment has the id of the scored segment before it, or number 2^64 - 1.
* asclite's RTTM reader (C94): the number of fields is checked, but a line with too few of them is used all the same, so
  its last buffers are undefined.  `find_first_of("{_")` makes every word with an underscore a transcript: `new_york` is
  two words, and with `-D` not set for the references the parentheses of `(uh_huh)` stay on the two halves.  The empty
  alternative is lost in the expansion, and a word of an underscore only cuts the turn in two.  A word is in the turn its
  line follows, whatever its times: only the first and last word of a turn are checked, and a misfit ends the program.
* asclite's RTTM reader, word by word (C95): `use_confidence` is never set again, so one `<NA>` takes the confidences of all
  words after it, of all speakers.  A quotation mark ends the program here but not when the same file is a reference.  A line
  with too few fields is used all the same.  An empty word (`@` or `_`) is a segment without tokens to which nothing is linked, so the
  speech falls into two parts.  A file without words ends the program here and gives no speeches as a reference.
* `det.c` (C96, C97): `Compute_ROC` was ported from a language whose arrays start at 1 and compares `true_scores[ntrue]` with
  `false_scores[nfalse]` while counting `ntrue - 1` and `nfalse - 1` as discarded, so each line is off by the least confident word of
  each sort.  `n_targ` and `n_non_targ` are not reset between systems.  `true_scores[num_true] = SMAX` is written behind a full array.
  With no wrong words `false_scores[1]` is 0.0 and the loop runs until it leaves its arrays.  Only the first system is checked for
  confidences, and none when feedback is off.  A confidence between -0.01 and 0 is truncated into the first bin.  The scaled histogram
  has `nword / (nword / bins)` bins instead of `bins`, and none if there are fewer words.
* C98/C99: `init_RANK_struct_from_SCORES` pairs speakers by position, never by name, so systems that list their speakers in another
  order are compared on different speakers; with different numbers of speakers it ranks uninitialised percentages.  In `range.c` the
  lowest value starts at 100 and the highest at 0, which is wrong when all error rates exceed 100 or all accuracies are negative.
  `print_gnu_range_graph2` writes names of files into 50 bytes and a format that grows with the number of systems into 100: a name
  of more than 38 characters, or more than 32 systems or speakers, overruns them.  A mean over 100 is not marked in the graph.
* `anovar.c` (C100): the overall test guards nothing, because the `else` before the comparisons has no braces: systems are called
  different even if the test finds no difference.  The variance of a difference of rank sums is taken as b t (t - 1) / 6 instead of
  the b t (t + 1) / 6 of its comment.  The Z score for 0.05 / (t (t - 1)) is cut off at 2.330 for three systems or more and is 1.881
  for two, where 1.960 is right.  `calc_adjust_for_blks` reads as many counts as there are systems: it reads beyond the array if there
  are more systems than speakers and misses ties otherwise.  More than 31 systems use 30 degrees of freedom.  A name of more than 17
  characters uses an address before a string.  The matrix of confidences is never written, so reports that use it show `<0.001`.
  In `statdist.c` the last Z score is 1.381 (1.282 is right) and the median for 22 degrees of freedom is 21.24 (21.34 is right).
* `compute_SCORE_nce` (C101) multiplies 0 by the logarithm of 0 when all words of a speaker (or of the system) are correct or all
  are incorrect; the reports then show `nan`, also for a speaker recognised perfectly.
* `AUTO_LEX_printout` (C102) compares with the threshold the count of the string at the place that the sorted order gives, looked up
  once too often: thresholds above one hide and show the wrong strings.  `AUTO_LEX_find` gives a place in the order of strings and
  `lattice_error` (corresp.c:358-363) uses it as the number of a string.  A lexicon of size 0 never grows and is written outside its arrays.
* `rsprintf` (C103) checks the length of its 10000 byte buffer after having written to it.
* `find_matched_grp` (C104) stops at the first speaker of the first system that another system lacks; later speakers in common are not compared.
* `identical_refs` and `lattice_error` (C104) test for the end of a path with `>` instead of `>=`: a path that ends with an insertion beside one
  that goes on is read past its end, and a reference that is the beginning of another one is called identical.
* `lattice_error` (C104) uses the place that `AUTO_LEX_find` gives as the number of the word: counts go to the wrong word when a word is missed twice.
* `scores_are_diff` (C104) reads every path as far as the first one goes.  With only different scores asked for (an argument that no caller sets),
  one set without a difference hides all later ones of the speaker; and the numbers of a set that is not analysed are those of the set before,
  added to the totals again, also when the references of a set differ.
* `PATH_n_print` (C105) never ends when a word that is not the last does not fit a line (option `-l`), or when the limit is below ten; an
  inserted or deleted word of more than 40 bytes makes it print from before its array of stars; the last word of a sentence is
  never moved to a new line.  Columns go out of line when the upper case of a word has another number of bytes (Turkish) and with times
  from 10000 seconds on.
* The alignment by diff (C106) loses the words inserted after the last reference word of the last channel of an STM file (`a || b ? -1 : 0`
  is read as `(a || b) ? -1 : 0`, so the last segment is never recognised) and those after the last reference word if the last
  utterance is empty.  A reference of 100 or 101 bytes is copied past a buffer of 100; later one that is one byte longer than the
  longest before.  With DOS line ends, and with words longer than diff's column, the first utterance takes the lines of the others.
* The table generator (C107) measures the last column of a cell over several columns with the text an earlier table
  left there, so that widths depend on what was printed before (`C107_earlier_table_refuted`); a format letter that is not known
  loops for ever (`C107_unknown_letter_refuted`); `=` below, within or at the end of a row makes lines too short
  (`C107_double_bar_below_refuted`, `C107_double_bar_within_refuted`); `n` is accepted and prints an error into the table; a blank after `//`
  is not measured and gives a line too many (`C107_blank_break_refuted`). The condition `(*(p+1) != ' ') || (*(p+1) != '/')` is always true. Locked
  columns never get their text. The share of each column is computed in floating point: the model takes any sharing that grows and
  gives out everything.
* The word weight file (C108): a compound word of 100 bytes overflows a buffer (`C108_long_compound_refuted`); a named column that a
  word has no weight in reads memory that was never set (`C108_missing_column_refuted`), and so does a sixth weight, which is dropped
  (`C108_sixth_weight_refuted`); a quotation mark without a partner among the names searches from a meaningless address
  (`C108_odd_quote_refuted`); eleven names overflow (`C108_eleven_names_refuted`); the default weight is searched from the start of
  its line (`C108_default_refuted`); an empty file has nine columns (`C108_empty_file_refuted`).
* Word weighted scoring (C109) counts both words of a substitution, so that "Weight 1" is not the word error rate
  (`C109_word_error_rate_refuted`); the report by speakers without weightings reads an empty array (`C109_no_weighting_refuted`);
  "unity" has no column and gives no row (`C109_unity_refuted`).
* Aligning two time marked files (C110): words of the hypothesis left over when the reference of the channel is used up go to the
  speaker of the next channel (`C110_speaker_refuted`), and in the last channel the identifier is read beyond the file
  (`C110_last_channel_refuted`); a second channel of one word at the end of the file (`C110_single_word_channel_refuted`) and
  every third channel (`C110_third_channel_refuted`) are dropped without a message; the names of the channels are not compared
  (`C110_channel_names_refuted`); a reference that begins with alternations can be read before its start
  (`C110_first_alternate_refuted`); a premature end with one word left is not reported but read past (`C110_early_end_refuted`);
  alternations of the hypothesis are cut (`C110_hyp_alternation_refuted`); long names overflow the identifier
  (`C110_long_name_refuted`).
- C111, the SGML report of asclite: only the last speaker of each speech is sorted, so the segments of the other speakers stand
  in the order of a map of pointers (`C111_order_refuted`); a report whose file cannot be opened is lost although the message
  promises the standard output (`where = 1` instead of 0, `C111_redirected_refuted`); systems with the same base name overwrite each
  other's report in an output directory (`C111_own_file_refuted`); cells of unavailable systems are dropped but counted
  (`C111_unavailable_refuted`); quotes in words are not escaped (`C111_quote_refuted`); a colon in a speaker id makes the report
  unreadable when speaker ids are written (`C111_colon_refuted`); without speeches a null pointer is followed (`C111_empty_undef`).
- C112, the significance reports: a column is as wide as the longest name, so "same" makes lines ragged when all names have fewer
  than four letters (`C112_short_names_refuted`); the matched pairs matrix reads outside its array of blanks for one-letter names
  without a difference (`C112_one_letter_refuted`) and has ragged lines for names of 47 letters or more (`C112_long_name_refuted`);
  systems with the same base name in different directories overwrite one report when an output directory is given
  (`C112_one_file_refuted`); file names and titles of 200 bytes overflow.
- C113, the unified report: 16 or more systems stop the program after the other tests have run, because the rows made value by value take
  60 columns at most, and 24 overflow the formats (`C113_sixteen_refuted`), although 40 hypotheses are allowed; the McNemar matrix overflows for 25
  (`C113_twentyfive_refuted`). The analysis of variance by ranks leaves all its probabilities 0, so that the report shows
  "<0.001 ***" for every pair, also where it found no difference (`C113_no_probability_refuted`).
- C114, the tables of asclite: a percentage of 10000 or more is cut to "...0.0", so that different speakers have the same table
  (`C114_percentage_refuted`), and a mean of 10000 reference words is cut since the column has room for the sum only
  (`C114_mean_refuted`); the deviation over one speaker is 0/0 converted to an integer (`C114_deviation_refuted`); without any
  reference words the line of all speakers shows a hundred times the counts as percentages (`GetSum(1)` is never 0,
  `C114_no_words_refuted`); a table whose file cannot be opened is lost although the message promises the standard output
  (`C114_lost_refuted`).
- C115: in a run without reference two systems with one title are both
  listed in the report, but the second replaces the first before the
  alignment (`C115_same_title_refuted`); `-overlap-limit` has no effect
  and `-overlap-min` with anything but 0 skips every group
  (`C115_maximum`, `C115_minimum_refuted`), because the groups have no
  references; the words of a column are those of the speeches in the
  group, so that the first word can be of the second system and a system
  with two speakers has two words (`C115_dimensions_refuted`,
  `C115_position_refuted`); nothing is escaped, an ampersand in a word
  makes the report unreadable (`C115_ampersand_refuted`); and a report
  whose file cannot be opened is lost (`C115_redirected_refuted`).
- C116, the alignment log: lines do not say which system they belong to, so two
  systems with groups `a` and `b` have the log of one with `a ++ b`
  (`C116_system_refuted`), and without references the lines of a group do not say
  which system spoke (`C116_dimension_refuted`); a comma in a word shifts the fields
  (`C116_comma_refuted`); a group without hypothesis is logged with a hypothesis
  segment from 0 to 0 that is in no file (`C116_invented_refuted`); a skipped
  group is listed twice (`C116_twice_refuted`).
- C117 (asclite, `main.cpp`): a title after a hypothesis without its format is taken from the file name and the word itself is then refused as an unknown option (`C117_title_refuted`), although the help shows the format as optional; `-spkrmap` sets its variable to false, so the check never runs (`C117_speakers_refuted`); `-O`, `-f`, `-l` and `-threads` without a value are accepted when another option follows (`C117_directory_refuted`), and so is `-memory-compression` after `-force-memory-compression`; `-D` accepts any word because its test joins three inequalities with "or" (`C117_side_refuted`); `-time-base-cost` without a hypothesis reads the first element of an empty vector (`C117_time_refuted`); with a ctm hypothesis it is always refused although its message allows ctm (`C117_ctm_refuted`); the default memory limit is 1 where the help says 2.0 (`C117_memory_refuted`); the width of `-l` is read and never used; in a run without references a trn reference, said to be ignored, still switches the UEM filter off.
- C118 (asclite, `spkrautooverlap.cpp`, `recording.cpp`): the self-overlap check compares neighbours in the file only, so an overlap is missed when a segment of another channel stands between (`C118_between_refuted`), and segments out of order are reported without an overlap (`C118_order_refuted`); it runs before the evaluation map, so an overlap the map would remove stops the run (`C118_outside_refuted`); the check of the speaker map looks a reference speaker up among the speakers of the system, so a correct map is refused (`C118_map_refuted`).
- C119 (sclite, `sclite.c`): a report named twice, or named beside `all`, is switched off again (`C119_twice_refuted`), and so is a segmentation given twice (`C119_segment_refuted`); `-C`, even `-C none`, drops the default reports, so the run prints nothing (`C119_default_refuted`); with `-n`, or with `-O` and hypotheses of one name in two directories, a later hypothesis overwrites the files of an earlier one, against the help text (`C119_name_refuted`, `C119_directory_refuted`); a second `-r` without a format keeps the format of the first (`C119_format_refuted`); `-c` and `-d` with two ctm files and `-F` with `-d` are accepted and not used (`C119_unused_refuted`); a tmk reference passes the check of its format and is then always refused (`C119_tmk_refuted`); `-P` with `-c` or `-m` dereferences a null pointer (`C119_null_refuted`), `-P` with files reads an array where nothing was written (`C119_mixed_refuted`, `C119_mixed_undefined_refuted`), and a 41st hypothesis is written past the end of the arrays (`C119_many_refuted`). Everything after a word without a dash where an option is expected is ignored silently (part of `C119_options`).
- C120 (rover, `rover.c`): `-o` as the last word reads the null pointer after the arguments, because the test of their number is off by one (`C120_output_refuted`); a 51st hypothesis is written past the end of the arrays (`C120_many_refuted`); hypotheses without a format are trn, and for any format but ctm nothing is done, without a message and with status 0 (`C120_nothing_refuted`); the output file is emptied before the inputs are opened, so that a missing input costs an earlier result and an input of the same name is read as empty (`C120_emptied_refuted`); `-l` has no effect (`C120_width_refuted`); names with blanks cannot be told apart in the first line of putative hits, an element that is never closed (`C120_blank_refuted`).
- C121 (sc_stats, `sc_stats.c`): without `-p` the flag that says whether to read the standard input is never set, so every such run is undefined (`C121_pipe_refuted`); the files after `-a` are never read (`C121_files_refuted`), and a 41st is written past the end of the array (`C121_many_refuted`); `-f E|R|W` of the help is taken by an earlier `-f`, so the percentage formula is always E (`C121_formula_refuted`); `-u` with reports alone uses ranks that were not made (`C121_unified_refuted`); a name given twice is switched off (`C121_twice_refuted`); `npr` of the help is unknown (`C121_npr_refuted`); `-g det` with `-n -` makes nothing, with a warning and status 0 (`C121_det_refuted`).
- C122 (sclite, `lur.c`): the formats of the labelled utterance report are in arrays of 50 bytes and take 3 bytes for a label, so a 17th label is written past their end (`C122_many_labels_refuted`); a label that no utterance has gets the location -1 and so splits its category: the title of the next category then stands over it, and that category loses its title (`C122_unused_label_refuted`).
- C123 (sclite, `lur.c`): 17 labels overflow the formats as in C122 (`C123_many_labels_refuted`); the arrays of the statistics have the size of the first system, so a later system with more speakers overflows them (`C123_more_speakers_refuted`); a speaker with errors and no words counts with 0 words and 0 percent, so that errors lower the mean (`C123_only_errors_refuted`), where the report of one system leaves such speakers out.
- C124 (rfilter1, `rfilter1.c`): a line of 100000 bytes or more is read in pieces, with a warning, and a rule does not reach over the cut (`C124_long_lines_refuted`); a line that begins with a zero byte reads the byte before the array (`C124_zero_first`); what follows a zero byte in a line is lost with its newline, so that two lines become one (`C124_zero_refuted`).
