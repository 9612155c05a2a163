{"id": "C01", "title": "Reported alignment cost is the true minimum", "statement": "For a segment group aligned in the hypothesis/reference mode without time pruning, the best cost reported after filling the cost graph is the minimum, over all alignments of the group's token graphs, of the sum of the column costs (insertion, deletion, optional insertion/deletion, substitution, correct, speaker mismatch). An alignment is any sequence of columns, each holding one reference token, one hypothesis token, or one of each, such that the tokens of each speech read in order are a complete path from a first token to a last token.", "quantifier": "every number of hypotheses and references, every acyclic token graph (alternations included), every non-negative cost model", "why_tests_cant": "The set of alignments is exponential in the input and unbounded in size; a test only compares against expected outputs for a few files.", "anchors": ["src/asclite/core/graph.cpp: Graph::FillGraph, CalculateCost, GetBestCost, PreviousCoordinatesHypRef, GetTransitionCostHypRefWordBased"]}
{"id": "C02", "title": "Retrieved alignment attains the reported cost", "statement": "The alignment returned by RetrieveAlignment is one of the alignments of the segment group and the sum of its column costs equals the best cost reported.", "quantifier": "every segment group as in C01", "why_tests_cant": "The back-trace recomputes choices from stored costs with its own tie-breaking; that it never drifts from an optimal alignment must hold on every tie pattern.", "anchors": ["src/asclite/core/graph.cpp: Graph::RetrieveAlignment, GetBestCoordinateAndCost"]}
{"id": "C03", "title": "Alignment loses no word and invents none", "statement": "Reading the returned alignment's columns in order, the tokens of each reference and of each hypothesis are exactly a first-to-last path of that speech's token graph, each token once and in order; for a speech without alternations that is all of its tokens.", "quantifier": "every segment group, every cost model, every tie-breaking outcome", "why_tests_cant": "Word conservation has to hold for all inputs; a missing word in an unusual graph shape changes the error rate silently.", "anchors": ["src/asclite/core/graph.cpp: Graph::RetrieveAlignment, StartingCoordinates, PreviousIndexes", "src/asclite/core/graphalignedsegment.cpp"]}
{"id": "C04", "title": "Every legal segment group can be aligned", "statement": "Filling the graph terminates and every coordinate reached by the search other than the origin has at least one predecessor, with or without the time-pruning and word-distance optimisations, so the search never stops at a dead end that would be scored as cost 0.", "quantifier": "every acyclic token graph, every pruning threshold and every assignment of token and segment times", "why_tests_cant": "Dead ends depend on the combination of all token times with thresholds; absence must be shown for all.", "anchors": ["src/asclite/core/graph.cpp: Graph::CalculateCost, ValidateTransitionInsertionDeletion, PreviousCoordinatesHypRef"]}
{"id": "C05", "title": "Cost matrix cells are never confused", "statement": "In the plain cost matrix two different in-range coordinates never share a storage cell and an in-range coordinate is always mapped inside the allocated array.", "quantifier": "every number of dimensions, every vector of depths, every pair of coordinates", "why_tests_cant": "Quantifies over all dimensions and sizes; aliasing would silently corrupt costs only on particular shapes.", "anchors": ["src/asclite/core/arraylevenshteinmatrix.cpp: CoordinatesToSize, ctor"]}
{"id": "C06", "title": "Plain cost matrix is a faithful store", "statement": "After any sequence of writes, reading a coordinate returns the last cost written to it, or 'uncalculated' if none was, and the number of calculated costs is the number of distinct coordinates written.", "quantifier": "every history of SetCostFor/GetCostFor calls", "why_tests_cant": "Property of all histories.", "anchors": ["src/asclite/core/arraylevenshteinmatrix.cpp: SetCostFor, GetCostFor, IsCostCalculatedFor, GetNumberOfCalculatedCosts"]}
{"id": "C07", "title": "Compressed cost matrix gives the same answers as the plain one", "statement": "Whatever blocks are created, compressed, decompressed and garbage-collected, every read of the block-compressed matrix returns the same cost as the plain matrix after the same writes, as long as the byte compressor is lossless.", "quantifier": "every history of reads and writes, every block size, every memory threshold, every lossless compressor including ones that fail to compress some blocks", "why_tests_cant": "The eviction schedule depends on the whole history and thresholds.", "anchors": ["src/asclite/core/compressedlevenshteinmatrix.cpp: GetCostFor, SetCostFor, CoordinatesToBlockOffset, BlockComputation, CreateBlock, CompressBlock, DecompressBlock, GarbageCollection, ForcedGarbageCollection"]}
{"id": "C08", "title": "Compressed cost matrix accounts its memory", "statement": "The memory figure that drives garbage collection is the number of bytes held by the blocks plus five bytes for every decompression done so far (so it never under-reports), and the counts of created, compressed and uncompressed blocks are exact.", "quantifier": "every history of block creations, compressions and decompressions", "why_tests_cant": "A drift appears only after many cycles.", "anchors": ["src/asclite/core/compressedlevenshteinmatrix.cpp: CreateBlock, CompressBlock, DecompressBlock"]}
{"id": "C09", "title": "Garbage collection of the cost matrix terminates", "statement": "A garbage collection started by any operation terminates, provided every block gets smaller when compressed; a single block that does not shrink makes it loop for ever.", "quantifier": "every matrix state, every threshold, every lossless compressor", "why_tests_cant": "Non-termination depends on incompressible data and on thresholds.", "anchors": ["src/asclite/core/compressedlevenshteinmatrix.cpp: GarbageCollection, ForcedGarbageCollection, CompressBlock"]}
{"id": "C10", "title": "Token edit distance is the Levenshtein distance", "statement": "The edit distance between two non-empty tokens' texts is the minimum number of character insertions, deletions and substitutions turning one text into the other; with an empty text it is 0 whatever the other text is.", "quantifier": "every pair of strings", "why_tests_cant": "Minimum over unboundedly many edit scripts.", "anchors": ["src/asclite/core/token.cpp: Token::EditDistance"]}
{"id": "C11", "title": "Token equivalence is reflexive and symmetric", "statement": "Under common options, whether two tokens count as the same word does not depend on which one is asked, and a token is always the same word as itself; the verdict is equality of the texts, or, when fragments count as correct, that the fragment is a beginning (resp. end) of the whole word, two beginnings being matched when one occurs anywhere in the other.", "quantifier": "every pair of tokens, every fragment status, both settings of the case and fragment options", "why_tests_cant": "All pairs of strings and option settings.", "anchors": ["src/asclite/core/token.cpp: Token::IsEquivalentTo, Equals, UpdateCleanedUpTextIfNeeded"]}
{"id": "C12", "title": "Overlap test is the interval intersection test", "statement": "Two timed objects are reported as overlapping exactly when they share an instant (end points included), symmetrically.", "quantifier": "every pair of intervals with begin not after end", "why_tests_cant": "All interval positions.", "anchors": ["src/asclite/core/timedobject.cpp: TimedObject::OverlapWith"]}
{"id": "C13", "title": "Time divider loop terminates", "statement": "Computing the safe divider of a timed object terminates and gives the largest power of ten dividing begin and end, provided the times are not both multiples of 10^9 (in particular not both 0); unknown times give 1.", "quantifier": "every pair of begin/end times", "why_tests_cant": "Non-termination on a single input is not seen by tests that avoid it.", "anchors": ["src/asclite/core/timedobject.cpp: TimedObject::TimeSafeDivider"]}
{"id": "C14", "title": "UEM filter keeps exactly the segments in the evaluation map", "statement": "After UEM filtering, a reference segment remains exactly when it lies inside one of the map's elements of its channel whose file name is an initial part of the segment's file name, and a hypothesis segment exactly when its midpoint lies in one; the order of the remaining segments is unchanged and filtering again changes nothing. The filter reports an error only for a reference segment that crosses a border of an element, and when it reports none every segment crossing a border without sharing one is inside another element.", "quantifier": "every list of segments and every evaluation map", "why_tests_cant": "All interval configurations.", "anchors": ["src/asclite/core/uemfilter.cpp: UEMFilter::ProcessSingleSpeech, FindElement"]}
{"id": "C15", "title": "Segmentation puts every reference segment in a group", "statement": "Iterating the segmenter terminates and puts every reference segment in exactly one group; each group is for one file and channel, spans exactly a maximal chain of overlapping segments, and the groups of a file and channel follow each other in time; reference segments that overlap in time are in the same group; a hypothesis segment is in the group whose interval contains its middle and in no other.", "quantifier": "every set of speeches with segments ordered by time, positive durations", "why_tests_cant": "Overlap chains can be arbitrarily long; termination and coverage are for all inputs.", "anchors": ["src/asclite/core/ctmstmrttm_segmentor.cpp: CTMSTMRTTMSegmentor::Reset, Next, GetLastOverlapingSegment, GetFirstSegment", "src/asclite/core/speech.cpp: NextSegment, GetSegmentsByTime"]}
{"id": "C16", "title": "Speaker map returns the first registration and nothing else", "statement": "Looking up a system speaker for a file and channel returns the reference speaker given by the first registration for that file, channel and system speaker, and the empty name if there was none, independently of registrations for other keys. Loading a speaker file registers its rows marked mapped, in order.", "quantifier": "every history of registrations and lookups, names without the separator character", "why_tests_cant": "All histories and all names.", "anchors": ["src/asclite/core/speakermatch.cpp: SpeakerMatch::SetSysRef, GetRef"]}
{"id": "C17", "title": "Configuration store behaves as a map with documented defaults", "statement": "After any history of settings, initialisations and reads, the value read for a key is the last one set, or after an initialisation the supplied value, else the documented default, else empty; reading changes no value. A speech set answers with the case and fragment settings in force when it was created as long as no property is set afterwards.", "quantifier": "every history of settings and every initial set of properties", "why_tests_cant": "All histories.", "anchors": ["src/asclite/core/properties.cpp: SetProperty, SetProperties, GetProperty, Initialize"]}
{"id": "C18", "title": "Scoring classifies every column once and consistently", "statement": "When every row of the record of aligned words has an entry for every scored system, scoring gives every entry exactly one of correct, substitution, speaker error, deletion, insertion and changes nothing else: two words are correct if they are equivalent and, when speakers are scored, the hypothesis speaker is mapped to the reference speaker, a speaker error if only the speakers differ, a substitution otherwise; a reference word alone is a deletion unless it is optional and the option is 'ref' or 'both'; a hypothesis word alone is an insertion unless it is optional and the option is 'hyp'.", "quantifier": "every alignment column, every option setting", "why_tests_cant": "All token combinations and options.", "anchors": ["src/asclite/core/stt_scorer.cpp: STTScorer::Score"]}
{"id": "C19", "title": "Summary counters balance", "statement": "In the counters of the summary report of a system, for every speaker and in total: the numbers of correct words, substitutions, speaker errors, deletions and insertions are the numbers of word pairs with that result in the speaker's segments; reference words = correct + substitutions + speaker errors + deletions, and this is the number of aligned reference words of the speaker (unless optional hypothesis words are forgiven); correct + substitutions + speaker errors + insertions is the number of aligned hypothesis words (unless optional reference words are forgiven); segments and faulty segments are counted once; the counters are not cleared between systems, so the report of a later system shows the sums over all systems before it.", "quantifier": "every sequence of scored columns and segments", "why_tests_cant": "All sequences of events.", "anchors": ["src/asclite/core/rawsys_reportgenerator.cpp: RAWSYS_Datas"]}
{"id": "C20", "title": "Alternation syntax denotes its set of word sequences", "statement": "Parsing a transcript with alternations { a / b } (nested to any depth, with empty alternatives written @) yields a token graph whose first-to-last paths spell exactly the non-empty word sequences the text denotes, spaces around the special characters do not matter, tokens made earlier are untouched and every new token lies on such a path. Groups must be closed, not be '{ / }', and inside a group no sequence of two or more items may denote the empty sequence.", "quantifier": "every transcript line of that syntax, every parser state", "why_tests_cant": "Nesting depth and widths are unbounded.", "anchors": ["src/asclite/core/linestyle_inputparser.cpp: LineStyleInputParser::ParseWords, SeparateBySlash, TokeniseWords, Attach"]}
{"id": "C21", "title": "Statistics summary", "statement": "The sum and the mean are those of the values and the mean lies between the smallest and the largest; the median is half way between the two middle values; the standard deviation is the square root of the sample variance, which is never negative and zero only for equal values (undefined for one value); none of them depends on the order in which values were added.", "quantifier": "every non-empty list of values", "why_tests_cant": "All lists and permutations.", "anchors": ["src/asclite/core/statistics.cpp: Statistics::Compute"]}
{"id": "C22", "title": "Token order respects precedence", "statement": "In the flattened order used for indexing tokens, every token is a first token of its segment or appears after at least one of its predecessors; when no token has two predecessors the order is topological, and a segment without alternations is listed word by word in order. (The order is not topological in general: 'x { a / b } c' lists c before b.)", "quantifier": "every acyclic token graph", "why_tests_cant": "All graph shapes.", "anchors": ["src/asclite/core/segment.cpp: Segment::ToTopologicalOrderedStruct"]}
{"id": "C23", "title": "Flattening visits every token exactly once", "statement": "The flattened list of a segment contains exactly the tokens reachable from its first tokens without going through a last token, exactly once each provided no first token is reachable from another one. (An optional beginning '{ a / @ } b' lists b twice; an optional end 'a { b / @ }' does not list b.)", "quantifier": "every token graph", "why_tests_cant": "All graph shapes.", "anchors": ["src/asclite/core/segment.cpp: Segment::ToTopologicalOrderedStruct"]}
{"id": "C24", "title": "Token links stay mutual", "statement": "After any sequence of link, unlink, attach and replace operations, token b is a successor of token a exactly as often as a is a predecessor of b; a replaced token is linked to nothing, its replacement inherits exactly its links and its place in the segment, and no other link changes. Removing a segment preceded by a single token joins that token with what follows. (With two preceding tokens only one of them is joined.)", "quantifier": "every history of graph edits", "why_tests_cant": "All histories.", "anchors": ["src/asclite/core/token.cpp: LinkTokens, UnlinkTokens, UnlinkNextToken, UnlinkPrevToken", "src/asclite/core/segment.cpp: ReplaceTokenWith"]}
{"id": "C25", "title": "sclite alignment cost is the true minimum", "statement": "The cost computed by the dynamic programming alignment of two word networks is the minimum over all pairs of start-to-stop paths and all alignments of them of the sum of the word-to-word distances.", "quantifier": "every pair of acyclic word networks, every non-negative word distance", "why_tests_cant": "Exponential and unbounded set of alignments.", "anchors": ["src/sclite/net_dp.c: Network_dpalign, perform_net_dp_align_margin, calc_minimum_delete/insert/substi"]}
{"id": "C26", "title": "sclite alignment path spells both networks", "statement": "The returned alignment path reads, on the reference side, the words of a start-to-stop path of the reference network and on the hypothesis side the words of a start-to-stop path of the hypothesis network, and its cost is the minimum cost; every step is marked correct, substituted, inserted or deleted consistently with the words.", "quantifier": "every pair of acyclic word networks", "why_tests_cant": "All tie patterns in the back-pointers.", "anchors": ["src/sclite/net_dp.c: extract_NET_ALIGN_result"]}
{"id": "C27", "title": "Word distance prefers a substitution to a delete/insert pair and a match to anything", "statement": "With the standard word distance an equal pair that is not two null alternatives (\"@\") costs 0; deleting or inserting a word costs 3, or 2 if the word is optional, or 0.001 for a null alternative; replacing a word by a different one (neither of them a null alternative) costs 4: more than a deletion or an insertion alone and, unless both words are optional, less than both together. The distance is symmetric unless fragment scoring meets two fragments.", "quantifier": "every pair of words and optional flags", "why_tests_cant": "All word pairs.", "anchors": ["src/sclite/word.c: wwd_WORD, equal_WORD2"]}
{"id": "C28", "title": "Word comparison: what counts as equal, and symmetry of the verdict", "statement": "Without fragment scoring two words compare equal exactly when their texts (without the parentheses of optional words) are the same; with it also when one is a fragment (\"-end\", \"begin-\") the other completes. The verdict is the same in both orders unless fragment scoring meets two fragments. A copy of a word that is not optional and does not end in a star compares like the word.", "quantifier": "every pair of words", "why_tests_cant": "All word pairs.", "anchors": ["src/sclite/word.c: equal_WORD2"]}
{"id": "C29", "title": "Linked list is a double-ended queue", "statement": "Programs that initialise, extend at either end, pop from and copy any number of lists see exactly what sequences would show them, whatever malloc does: elements come out in order, a refused allocation changes nothing and is reported by the adding operations, no operation reads released memory. If lists are empty when they are initialised or copied over, no memory is lost.", "quantifier": "every history of operations", "why_tests_cant": "All histories.", "anchors": ["src/sclite/llist.c: LL_put_front, LL_put_tail, LL_get_first"]}
{"id": "C30", "title": "Rank assignment", "statement": "Ranking an array of values gives each value the mean of the positions its equals occupy in the sorted order: equal values get equal ranks, values later in the requested order get larger ranks, and the ranks add up to n(n+1)/2.", "quantifier": "every array, both directions, and every correct sorting routine (for integers: every array whose values differ by less than 2^31)", "why_tests_cant": "All arrays with all tie patterns.", "anchors": ["src/sclite/order.c: rank_double_arr, sort_double_arr"]}
{"id": "C31", "title": "Sorting returns an ordered permutation of indices", "statement": "The index sort routines produce a permutation of the indices along which the values are ordered as requested; the string sorts rearrange the strings in byte order, and the index sort of strings keeps equal strings in their original order. The integer sort does so only when any two values differ by less than the range of an int.", "quantifier": "every array and both directions", "why_tests_cant": "All arrays.", "anchors": ["src/sclite/order.c: sort_int_arr, sort_double_arr, sort_strings_in_place"]}
{"id": "C32", "title": "Sign test names the better system", "statement": "With at most 20 speakers the sign test's value is the exact two-sided binomial tail of the smaller count of speakers won (ties shared in turn), and a difference is reported exactly when it is below 0.05. A reported difference names as better the system with the better total over the speakers, and swapping two systems with different totals swaps the verdict and keeps the value.", "quantifier": "every pair of per-speaker score lists", "why_tests_cant": "All score patterns.", "anchors": ["src/sclite/signtest.c: compute_signtest_for_treatment, sign_test_analysis"]}
{"id": "C33", "title": "Signed-rank test names the better system", "statement": "For fewer than 1024 speakers the signed-rank test reports a difference exactly when the rank sum of the absolute differences is more than 1.96 standard deviations from its mean, its confidence is the two-sided normal tail, and a reported difference names as better the system that is better on more speakers (ties shared in turn); swapping two systems with different totals swaps the verdict.", "quantifier": "every pair of per-speaker score lists", "why_tests_cant": "All score patterns.", "anchors": ["src/sclite/wilcoxon.c: compute_wilcoxon_for_treatment, wilcoxon_test_analysis"]}
{"id": "C34", "title": "Binomial tail is a probability", "statement": "For at most n successes the cumulative binomial value is between 0 and 1 and does not decrease with the number of successes; while n p (1-p) is at most 5 it is exactly the binomial tail probability, and 1 at n successes; otherwise it is read off the normal table.", "quantifier": "every n, every number of successes, every probability", "why_tests_cant": "All parameters.", "anchors": ["src/sclite/statdist.c: compute_acc_binomial, n_CHOOSE_r, seq_mult"]}
{"id": "C35", "title": "MAPSSWE segmentation counts every error once", "statement": "For two aligned systems the segments found lie inside the two paths, and every error of each path lies in exactly one segment, whatever the comparison of words answers; each segment starts at the start of the path or with the minimum number of correct words and ends with that many correct words or at the path's end; exchanging the systems exchanges the sides of the segments when both paths align equally many reference words. Over any two histories of sentences the segments hold exactly the errors of the compared sentences. For at least one segment with varying differences, a difference is reported exactly when the mean difference exceeds 1.96 standard errors, against the system with more errors, and exchanging the systems negates the verdict.", "quantifier": "every pair of alignment paths, every minimum number of good words >= 1, every answer of the word comparison, every pair of histories of scored sentences", "why_tests_cant": "All interleavings of errors and correct words.", "anchors": ["src/sclite/mtchprs.c: test_comp_sents, count_seg, seg_count"]}
{"id": "C36", "title": "McNemar table accounts for every sentence pair", "statement": "For two systems whose sentence paths were added in any order, the 2x2 table of McNemar's test counts, for each combination of right and wrong, the pairs of kept sentences with the same speaker and the same sentence id; its total is the number of such pairs, and swapping the systems transposes it. The value is 1 when equally many sentences are wrong for only one system, and otherwise, up to 20 uneven sentences, the two-sided binomial tail of the smaller count; a difference is reported exactly when the value is below 0.05, in favour of the system with fewer; swapping the systems negates the verdict.", "quantifier": "every pair of histories of added alignment paths over any speakers and sentence ids", "why_tests_cant": "All score sets.", "anchors": ["src/sclite/sentmcn.c: do_McNemar_by_sent, do_McNemar"]}
{"id": "C37", "title": "Speaker group counters balance", "statement": "After adding any sequence of alignment paths there is one group per speaker, in order of first appearance, whose counters are the sums over that speaker's paths only: correct + substituted + deleted words equals the number of reference words, correct + substituted + inserted the number of hypothesis words, sentences with errors never exceed sentences, and the kept sentences are that speaker's kept paths in order, however often the group table grows.", "quantifier": "every sequence of added paths over any speakers", "why_tests_cant": "All histories, with the dynamic growth of the group table.", "anchors": ["src/sclite/scores.c: add_PATH_score, SCORES_get_grp"]}
{"id": "C38", "title": "Time-mark sorting preserves the alignment", "statement": "Sorting a path by time marks permutes only inside runs of insertions and deletions, leaves each correct or substituted pair at its position, keeps the relative order of equal times, and leaves each run sorted by begin time.", "quantifier": "every alignment path", "why_tests_cant": "All paths.", "anchors": ["src/sclite/path.c: sort_PATH_time_marks"]}
{"id": "C39", "title": "UTF-8 encode/decode round trip", "statement": "Decoding the UTF-8 encoding of any code point gives the code point back; the encoder gives that encoding for every code point below 0x20000 and stops the program on every other one.", "quantifier": "every code point", "why_tests_cant": "Full code point range with all byte lengths, and all strings.", "anchors": ["src/sclite/text.c: TEXT_getUTFCodePoint, TEXT_UTFCodePointToTEXT, TEXT_nbytes_of_char"]}
{"id": "C40", "title": "Text comparison is a total order consistent with equality", "statement": "The encoding-aware string comparison is reflexive, antisymmetric and transitive and reports equality exactly for identical strings.", "quantifier": "every pair and triple of well-formed strings in each encoding", "why_tests_cant": "All strings.", "anchors": ["src/sclite/text.c: TEXT_strcmp_master"]}
{"id": "C41", "title": "Alternation-safe escaping round trip", "statement": "Escaping a word for the aligned output and removing the escapes gives the word back exactly when the word holds no backslash; a word with its two tags written in this way is read back unchanged, separators in the fields included.", "quantifier": "every word and tags; words that are not empty and do not start a group when tags are read back", "why_tests_cant": "All strings.", "anchors": ["src/sclite/text.c: TEXT_strcpy_escaped, TEXT_strBdup_noEscape"]}
{"id": "C42", "title": "Line reader returns whole lines", "statement": "Reading a line into a growing buffer returns the whole line whatever its length and never writes outside the buffer.", "quantifier": "every file without null bytes, every line length and every initial buffer size of at least 2", "why_tests_cant": "All lengths relative to the doubling schedule.", "anchors": ["src/sclite/text.c: TEXT_ensure_fgets"]}
{"id": "C43", "title": "Token extraction stays in the buffer", "statement": "Extracting the next token from a transcript never writes past a buffer of one byte more than the stated length; the token is the next run of non-space characters or the next group in braces, nothing but spaces is passed over before it, and when every token fits and every group is closed the tokens of the whole text come out in order.", "quantifier": "every well-formed transcript, encoding and buffer length", "why_tests_cant": "All lengths, nesting depths.", "anchors": ["src/sclite/text.c: find_next_TEXT_token, find_next_TEXT_alternation"]}
{"id": "C44", "title": "ROVER picks a word of maximal score", "statement": "At each correspondence set of the combined network the word printed has the maximal vote score, and every word listed before it has a strictly smaller one; the score is the documented mixture, with weight alpha, of the share of the systems that propose the word and of their confidences (average, maximum, or share of the total). With frequency-only voting no word is proposed by more systems than the winner. Nothing is printed when the null word wins; times and confidence printed are the averages of the proposers. The program stops exactly when there are more than 49 different words or no score exceeds -1, which cannot happen with non negative confidences or alpha 1; shares of a zero total confidence are excluded (the program stops then). The oracle output lists every different word once, in order of first proposal.", "quantifier": "every correspondence set, every confidence assignment, every voting method", "why_tests_cant": "All vote patterns.", "anchors": ["src/sclite/rover.c: print_linear"]}
{"id": "C45", "title": "Filter rules are applied leftmost, first rule first", "statement": "When every rule whose left hand side occurs in a line has room there for its left context, and the output fits the output array, the output for the line is obtained by scanning left to right, at each position applying the first rule in file order whose left hand side and contexts match there in the input (with or without regard to case), or copying (or dropping) the character when there is none; this output is unique, the hit counts follow it, and indexing the rules by their first character does not change it. (Finding: a rule with a left context longer than the text before a match reads before the input array; the output array can overflow.)", "quantifier": "every rule list and every text", "why_tests_cant": "All texts and rule sets.", "anchors": ["src/rfilter1/include/aprules2.c: apply_rules2", "src/rfilter1/include/grules2.c: get_rules2"]}
{"id": "C46", "title": "Centering produces exactly the requested width", "statement": "Centering a string in a field of given width gives a string of that width containing the text, with left and right padding differing by at most one, whenever the text fits; a longer text is returned whole; widths from 2000 stop the program and only texts of 2000 characters or more overrun the buffer. Padding by n gives n blanks as far as they fit, padding for a line gives one blank fewer than half of the free width; nothing beyond the stated size is written. Columns of asclite's reports have exactly the requested width, with the text on the requested side, or three dots and the end of the text.", "quantifier": "every string and width", "why_tests_cant": "All lengths.", "anchors": ["src/sclite/pad.c: center, strncpy_pad, set_pad_n"]}
{"id": "C47", "title": "Alignment paths grow without losing entries", "statement": "Appending to a path never writes outside the allocated array and keeps all earlier entries, for any number of appends and any initial size.", "quantifier": "every history of appends and initial size", "why_tests_cant": "All lengths relative to the growth schedule.", "anchors": ["src/sclite/path.c: PATH_alloc, PATH_append", "src/sclite/memory.h: expand_singarr"]}
{"id": "C48", "title": "Token times partition the segment", "statement": "The words of a timed transcript line without alternations share its time evenly: each starts where the previous one ends, all lie inside the segment, all last equally long, and less than one millisecond per word is left over at the end.", "quantifier": "every start and end time and every number of words", "why_tests_cant": "All durations with rounding.", "anchors": ["src/asclite/core/linestyle_inputparser.cpp: ParseWords"]}
{"id": "C49", "title": "Segment groups are scored or skipped for the documented reason", "statement": "For limits that fit their types and groups whose number of matrix cells fits in 64 bits, a group of segments is aligned exactly when none of the documented reasons holds (a reference segment excluded from scoring, not the requested group, too many or too few reference speakers, difficulty above or below the limits, memory above the limit or 2 GB without compression); otherwise it is skipped for the first reason that holds; all the groups of a system are sorted out in order; compression is used exactly when forced or needed; the duration of a group is the time from its first beginning to its last end. (Findings: the cell count wraps at 64 bits, a group without hypothesis is measured from time 0, a group without duration stops the program.)", "quantifier": "every group and configuration", "why_tests_cant": "All combinations of thresholds.", "anchors": ["src/asclite/core/recording.cpp: AlignHypRef, AlignGeneric"]}
{"id": "C50", "title": "Aligned-token table keeps the first alignment of each system", "statement": "Registering a system's aligned token for a reference word keeps the first registration for that system, reports whether it was new, and does not affect other systems or words; each reference word of the segment has exactly one row, in order of first registration, each insertion has a row of its own, and registrations for words of other segments are refused.", "quantifier": "every history of registrations", "why_tests_cant": "All histories.", "anchors": ["src/asclite/core/tokenalignment.cpp: TokenAlignment::AddAlignmentFor, GetResultFor, GetTokenFor"]}
{"id": "C51", "title": "Linear networks are word lists", "statement": "Appending or prepending words to a linear network gives a network with a single start-to-stop path spelling the list with the word appended or prepended.", "quantifier": "every sequence of additions", "why_tests_cant": "All histories.", "anchors": ["src/sclite/net_adt.c: Network_add_arc_at_end/head, insert_arc_after_node, insert_arc_before_node"]}
{"id": "C52", "title": "Pruning removes exactly the far moves", "statement": "With time pruning on, the moves considered at any point of the search are exactly those considered without pruning, except a pairing of two words whose known times are farther apart than the word threshold, and an insertion or deletion of a word timed only by its segment in front of a current word of another speech that starts later and is farther than the pruning threshold.", "quantifier": "every segment group, every coordinate the search reaches, every threshold and times", "why_tests_cant": "The pruning test combines unknown times, several speeches and an early exit; only a proof over all coordinates shows that nothing else is removed.", "anchors": ["src/asclite/core/graph.cpp:ValidateTransitionInsertionDeletion"]}
{"id": "C53", "title": "Ties are resolved towards pairing", "statement": "When several predecessors give the same least cost during the back-trace, one that aligns two words is taken if there is one, and the one taken has the least cost.", "quantifier": "every group, every filled matrix, every coordinate", "why_tests_cant": "The choice depends on the enumeration order of the predecessors; tests fix a few orders.", "anchors": ["src/asclite/core/graph.cpp:GetBestCoordinateAndCost"]}
{"id": "C54", "title": "The marks of a token are removed from its text and only they", "statement": "For a word whose ends are not marks, written with any combination of surrounding parentheses, a leading dash and a trailing dash, the text used for alignment is the bare word (dashes are kept when fragments are not allowed, everything is kept when neither option is on), the token is optional exactly when it was in parentheses and is a fragment of the kind its dashes say; making a token optional changes the flag and not the word.", "quantifier": "all words, all combinations of marks and options", "why_tests_cant": "words are unbounded and the marks interact", "anchors": ["src/asclite/core/token.cpp: Token::UpdateCleanedUpTextIfNeeded, GetText, SetSourceText, BecomeOptionallyDeletable"]}
{"id": "C55", "title": "A parsed speech gives a well-formed alignment graph", "statement": "For a speech whose segments are linked to one another and inside as the parsers intend, the alignment indexes exactly the speech's tokens, starts from the first tokens of its first non-empty segment, ends with the last tokens of its last non-empty segment, and every other token has at least one predecessor, all of them indexed. Transcript lines none of whose readings is the beginning of another reading of the line always give such a speech. (An optional end 'a { b / @ }' breaks this.)", "quantifier": "every list of segments, empty ones included, every acyclic link structure", "why_tests_cant": "All shapes of alternations and all sequences of segments.", "anchors": ["src/asclite/core/graph.cpp: Graph::Graph", "src/asclite/core/segmentsgroup.cpp: ToTopologicalOrderedStructRef, ToTopologicalOrderedStructHyp", "src/asclite/core/segment.cpp: ToTopologicalOrderedStruct, isFirstToken, isLastToken"]}
{"id": "C56", "title": "Network traversals visit every arc exactly once", "statement": "A forward traversal of a word network, in depth-first, breadth-first or in-order mode, terminates and reports every arc exactly once; the in-order traversal reports an arc only after all the arcs that end in the arc's first node, so it is a topological order.", "quantifier": "every acyclic word network whose arcs all lie on a path from its start to its stop", "why_tests_cant": "All network shapes and arc orders.", "anchors": ["src/sclite/net_adt.c: Network_traverse, set_node_flag1_to_count_in_arcs"]}
{"id": "C57", "title": "Length in characters", "statement": "The character length of a string is the number of its characters in the active encoding (in UTF-8 the number of code points), and a string splits into characters in only one way.", "quantifier": "every well-formed string in each encoding", "why_tests_cant": "strings are unbounded and mix character sizes", "anchors": ["src/sclite/text.c: TEXT_chrlen, TEXT_nbytes_of_char"]}
{"id": "C58", "title": "Distances by time and by weight", "statement": "With the time-mediated distance two words cost the sum of the differences of their begin and end times, plus 0.001 if they differ, and a deleted or inserted word costs its duration. With the weighted distance equal words are free and different words cost the sum of what deleting the one and inserting the other costs.", "quantifier": "every pair of words", "why_tests_cant": "All word pairs, times and weights.", "anchors": ["src/sclite/word.c: wwd_time_WORD, wwd_weight_WORD"]}
{"id": "C59", "title": "Inter segment gaps are the time outside the references", "statement": "When references carry no inter segment gaps, asclite creates them. With an evaluation map loaded, at every file and channel that has references, whose map elements do not overlap and contain all references, an instant lies in a created gap exactly when it lies in a map element for that file and channel and in no reference segment. Without a map, when the place has an odd number of hypothesis segments, an instant lies in a gap exactly when it lies between the first and the last time of the references and hypothesis words of the place and in no reference segment. Gaps have positive length, do not overlap, and are created only at places with references; a hypothesis segment at a place without references ends the program; with an even number of hypothesis segments no gap is created.", "quantifier": "every reference set in time order, every map, every set of hypotheses, every instant", "why_tests_cant": "All arrangements of overlapping segments, map elements and borders.", "anchors": ["src/asclite/core/uemfilter.cpp: UEMFilter::ProcessSpeechSet"]}
{"id": "C60", "title": "The record of aligned words", "statement": "After any sequence of alignments of groups of segments, for any systems, the record of every system holds exactly the word pairs of its alignments, each once, never in the entry of another system; a pair with a reference word is in the segment of that word, an inserted word is in the segment of the nearest reference word before it, else after it, if it overlaps that segment or has no time, else in the first overlapping segment of the group; the program stops only if there is no such segment.", "quantifier": "every sequence of alignments with distinct reference words per system", "why_tests_cant": "All sequences of alignments, systems and time overlaps.", "anchors": ["src/asclite/core/alignment.cpp: Alignment::AddGraphAlignedSegment", "src/asclite/core/alignedsegment.cpp: AlignedSegment::AddTokenAlignment", "src/asclite/core/segmentsgroup.cpp: SegmentsGroup::GetRefSegmentByTime"]}
{"id": "C61", "title": "ROVER cuts conversations only at common silences and loses no word", "statement": "The pieces in which ROVER aligns a conversation partition the words of every input file in order, and between successive pieces there is a silence common to all files, so that no word of one piece overlaps a later piece in time. This holds for inputs whose words are in time order and of which nothing beyond the conversation has been read; with further conversations read ahead, a file without words left contributes the first word of its next conversation, a last conversation with a single word in every file is not processed, and the requested length of the silence is only checked in the first file.", "quantifier": "every number of input files, every time-ordered word sequences, every minimal silence", "why_tests_cant": "All combinations of word times in all files.", "anchors": ["src/sclite/mfa.c: find_common_silence, gap_at_times, locate_next_file_channel", "src/sclite/rover.c: mfalign_ctm_files_v1", "src/sclite/ctm2ctm.c: overlap", "src/sclite/fillmrks.c: locate_boundary"]}
{"id": "C62", "title": "Filter rules are read as they are written", "statement": "A rule line of the text filter of the form 'A => B' or 'A => B / C __ D', of at most 131 bytes, with fields in brackets, in quotation marks or plain, separated from the marks =>, / and __ by white space, is stored with exactly these four values, provided the arrow does not occur in A, no slash or slot mark occurs where it would be taken for the mark of the context, and brackets after the last slash open before they close; every line gives a rule or an error code, and only a line beginning with its only slash makes the program read outside of the line. (Findings: 'a=>b' deletes a, 'a => [b/c]' is read as a rule with a context.)", "quantifier": "every rule line", "why_tests_cant": "All field contents and layouts.", "anchors": ["src/rfilter1/include/grules2.c: r_process_data_line", "src/rfilter1/include/ss_to_s.c: substr_to_str", "src/rfilter1/include/prtrim.c: prtrim"]}
{"id": "C63", "title": "Hypothesis words go to the reference segment that contains their middle", "statement": "When sclite scores a CTM file against an STM file, the words of a channel are given to the segments of that channel in order: a segment takes the following words and alternations whose middle (for an alternation the latest middle of its words) lies before its end, up to the first one that does not, and the last segment takes all the rest. Without '-m ref' every segment is aligned and every word is in exactly one of them; if the words come in the order of their middles, each is in the first segment that ends after its middle, or in the last one. A segment is left unscored exactly if its text contains the ignore mark. (Finding: an alternation without its end takes words of the next channel or reads beyond the words.)", "quantifier": "every reference, every hypothesis with well formed alternations, every option", "why_tests_cant": "All word times, segment times and alternations; the partition must hold for every one.", "anchors": ["src/sclite/stm2ctm.c: segment_hyp_for_utt, align_one_channel, align_ctm_to_stm_dp", "src/sclite/fillmrks.c: fill_mark_struct"]}
{"id": "C64", "title": "Reference channels are scored against the hypothesis channel of the same name", "statement": "When a CTM file is scored against an STM file, every channel (consecutive segments with the same file and channel name) of the reference is aligned, in order, with the words of the next hypothesis channel if it has the same names and with no words otherwise; if the run succeeds no hypothesis channel was left out, and a hypothesis with a channel that the reference has not, or has earlier, is refused. (Findings: with the default feedback the refusal reads uninitialised memory; an empty reference does so always.)", "quantifier": "every sequence of channels in the two files", "why_tests_cant": "All sequences of channels.", "anchors": ["src/sclite/stm2ctm.c: align_ctm_to_stm_dp", "src/sclite/fillmrks.c: locate_WTOKE_boundary", "src/sclite/stm.c: locate_STM_boundary"]}
{"id": "C65", "title": "Time marked words and alternations become the network they denote", "statement": "The network sclite builds from a range of CTM words is the series of the words that are not ignored and of the alternations, each with exactly its alternatives as parallel word sequences, in the order of the text or reversed for right to left text; an empty last alternative becomes the null word. (Findings: an empty alternative that is not the last one loses the first word of the next alternative; an alternation dropped by '-m hyp' leaves its end mark behind, which takes the following word out of the score or reads beyond the words.)", "quantifier": "every sequence of words and alternations whose alternatives, except the last of several, are not empty", "why_tests_cant": "All nestings of words and alternatives.", "anchors": ["src/sclite/net_adt.c: Network_create_from_WTOKE"]}
{"id": "C66", "title": "The reductions by time drop exactly what is outside", "statement": "With '-m hyp' a word is ignored exactly if it begins after the end of all used reference segments of its channel or ends before the begin of all of them; an alternation is ignored exactly if all of its words are; without the option nothing is ignored. With '-m ref' exactly the segments are dropped that end before the first or begin after the last hypothesis word of the channel. (Findings: the end mark of an ignored alternation is kept; a word between the last used segment and a dropped one is given to no segment and not scored.)", "quantifier": "every channel with flat alternations and times between the code's constants -999999 s and 9999999 s", "why_tests_cant": "All times.", "anchors": ["src/sclite/stm2ctm.c: align_one_channel"]}
{"id": "C67", "title": "An STM file is the sequence of the segments its lines describe", "statement": "Every STM line with at least five fields (pieces between blanks, tabs and newlines; in lower case unless the case matters) is read as the segment with that file, channel, speaker, begin and end; if the sixth field begins with '<' it is the label and the words of the text are the fields after it, otherwise there is no label and the text has all fields from the sixth on. A line with fewer fields never gives a segment: the program reads through the null pointer. A file whose comment lines (';;' or '**') and blank lines end with a newline is read as the sequence of the segments of its other lines, in order, the last one with or without its newline.", "quantifier": "every line without NUL bytes, of any length, both settings of the case option, every file and every conversion of numbers", "why_tests_cant": "Lines and files are unbounded byte strings; the tokeniser writes terminators into the line and the text is put together again by overwriting one of them, so every layout of blanks matters.", "anchors": ["src/sclite/stm.c: read_stm_line, parse_stm_line, fill_STM", "src/sclite/text.c: TEXT_strtok, TEXT_is_comment_line, TEXT_is_empty"]}
{"id": "C68", "title": "A CTM file is the sequence of the words its lines describe", "statement": "Every CTM line with at least five fields, each of the first seven shorter than 500 bytes, is read as the word with that file, channel, begin, duration and text, the begin marked as bad if it starts with '&&', the confidence of the sixth field unless it is 'NA' in any case, and the probability of the seventh. A line of one newline ends the program; any other line gives no word: memory is read through the null pointer or written beyond a buffer. A file is read as the sequence of the words of its lines that do not begin with ';', each flagged as part of an alternation or not as in the whole file.", "quantifier": "every line without NUL bytes, of any length, both settings of the case option, every file and every conversion of numbers", "why_tests_cant": "Lines and files are unbounded; seven tokens are cut in place and copied into fixed buffers, so layouts and lengths matter without bound.", "anchors": ["src/sclite/fillmrks.c: fill_mark_struct", "src/sclite/text.c: TEXT_strtok, TEXT_strBcpy"]}
{"id": "C69", "title": "Reading the files in windows does not change what is scored", "statement": "Scoring a CTM file against an STM file while both are read in windows (200 segments and 5000 words, moved and enlarged as the channels are done) gives, for every channel, the same segments with the same words, the same decision to score and the same ignored words as scoring the two whole files held in memory, including the refusal of the run; this holds for all sizes of the windows of at least 2 segments and 4 words.", "quantifier": "every pair of readable files of any number of channels, segments and words, any options, any window sizes from 2 and 4 on", "why_tests_cant": "A window boundary can fall anywhere in a channel, a file or an alternation; the number of ways to place it grows with the files.", "anchors": ["src/sclite/stm2ctm.c: align_ctm_to_stm_dp", "src/sclite/stm.c: fill_STM_structure, fill_STM, locate_STM_boundary", "src/sclite/fillmrks.c: fill_WTOKE_structure, fill_mark_struct, locate_WTOKE_boundary, expand_WTOKE"]}
{"id": "C70", "title": "Every utterance of a transcript is scored against the reference with its id", "statement": "Scoring two transcript files by utterance id ends exactly when no id occurs twice in the hypothesis, each of its ids has a reference and any further reference with the same id has a text that begins the text of the first; else the run is refused. When it ends, there is one alignment for each utterance line of the hypothesis that ends with a newline, in their order, of the text of that line with the text of the first reference line with the same id (ids compared without case unless the case option is set). Every such line of both files has no parentheses (then its id is empty), or its last opening parenthesis is before its last closing one, or the last two are adjacent in the wrong order. With distinct reference ids the order of the reference lines does not matter. A last line without newline is not scored.", "quantifier": "every two files without NUL bytes, of any number of lines in any order, both case settings and all id types", "why_tests_cant": "Files are unbounded; pairing goes through sorting, binary search and a table of references, so every order and every set of ids has to work.", "anchors": ["src/sclite/align.c: align_trans_mode_dp, load_refs, remove_id", "src/sclite/text.c: qsort_TEXT_strcmp, bsearch_TEXT_strcmp"]}
{"id": "C71", "title": "The speaker of an utterance is the part of its id that the id type says", "statement": "In a run that ends, the utterances are counted for the speakers in their ids: the whole id for sp, the three characters after the first for wsj and atis, the part between the first character and the first '-', or else the first '_', for rm, spu_id and swb; an id without either separator is counted for the speaker of the utterance before. If all ids have less than 1000 bytes and, with wsj or atis, none is empty, every utterance has a speaker.", "quantifier": "every sequence of utterance ids of any number and content, all six id types", "why_tests_cant": "Ids are arbitrary texts; the speaker buffer carries over from one utterance to the next, so a result depends on the whole history.", "anchors": ["src/sclite/align.c: extract_speaker, align_trans_mode_dp"]}
{"id": "C72", "title": "Joining word networks joins their word sequences", "statement": "Merging a network that has words between two nodes of another that a path joins keeps the word sequences of the latter and adds exactly those that go to the first node, take a word sequence of the merged network and go on from the second node. Hence two networks put beside each other have the word sequences of both; an arc replaced by a network reads as any word sequence of that network; a network added at the tail or the head is concatenated. The result is again a well formed network. A network without words cannot be joined: its stop node is a null pointer.", "quantifier": "all well formed networks of any size and shape, all nodes and arcs", "why_tests_cant": "Networks are unbounded graphs; joining relinks arcs of both and deletes a helper arc, and must neither lose nor invent a path of any combination.", "anchors": ["src/sclite/net_adt.c: Network_merge_network, Network_add_net_to_tail, Network_add_net_to_head, expand_alternates"]}
{"id": "C73", "title": "Deleting an arc removes or contracts it, and destroying a network ends", "statement": "Deleting an arc leaves a well formed network with exactly the other arcs and their words. If other arcs leave its first node and others enter its last node, exactly the paths through it are gone; otherwise the arc is contracted and its word drops out of the word sequences through it. Destroying a network deletes each of its arcs exactly once and ends with no arc and no stop node.", "quantifier": "all well formed networks of any size and shape, all arcs", "why_tests_cant": "The code relinks or frees nodes in five different ways depending on the shape around the arc; destruction repeats this on every intermediate shape.", "anchors": ["src/sclite/net_adt.c: Network_delete_arc, Network_destroy", "src/sclite/delarc1.c", "src/sclite/addarc1.c"]}
{"id": "C74", "title": "The network of a transcript with alternatives says exactly its readings", "statement": "A transcript is a row of words and of groups { x / y / ... } of alternatives, which may contain groups again. A reading takes the words in turn and one alternative of each group. If every group is closed and has an alternative that is not blank, no word has an opening brace in it, the tokens fit into 10000 bytes and there are at most 30 groups inside each other, the network created from the transcript is well formed and its word sequences are exactly the readings; it is empty exactly if the text is blank. A word without semicolons and backslashes stands for itself, without one star at its end. Texts with an empty group or with a brace inside a word make the program follow a null pointer, an unclosed group is dropped, and more than 30 groups inside each other end the program.", "quantifier": "all texts in all encodings, any length and number of groups, any nesting the program allows", "why_tests_cant": "The readings multiply with every group; the network is rebuilt by replacing arcs while it is being traversed, recursively for each alternative, and must neither lose nor invent a reading for any combination of groups.", "anchors": ["src/sclite/net_adt.c: Network_create_from_TEXT, expand_alternates, Network_traverse", "src/sclite/text.c: find_next_TEXT_token, find_next_TEXT_alternation", "src/sclite/word.c: new_WORD_parseText"]}
{"id": "C75", "title": "Two transcripts with alternatives are aligned by their closest readings", "statement": "The alignment of the networks of a reference and a hypothesis transcript reports the least cost that any reading of the reference and any reading of the hypothesis can be aligned with: a different word counts 4, a word without partner 3, a null word @ without partner 0.001 and two null words 1. The path it returns shows such an alignment pair by pair as correct, substituted, deleted or inserted; pairs of null words only are left out unless asked for.", "quantifier": "all pairs of texts as in C74 whose words are not empty and well formed, with networks of fewer than 65534 arcs", "why_tests_cant": "The minimum ranges over all combinations of alternatives on both sides and all alignments of each, a set exponential in the number of groups; a test can only compare it for a few small texts.", "anchors": ["src/sclite/net_dp.c: Network_dpalign", "src/sclite/net_adt.c: Network_create_from_TEXT", "src/sclite/word.c: wwd_WORD, equal_WORD2, null_alt_WORD", "src/sclite/align.c: align_trans_mode_dp"]}
{"id": "C76", "title": "Copying a word network keeps its shape and its word sequences", "statement": "Network_copy on a network whose arcs all carry a word ends without an error. The copy has one node for each node and one arc for each arc of the original, joined in the same way, with the start, the stop and the copied words in the same places. So its word sequences are exactly those of the original. The null arcs it adds while copying are all gone. An arc without a word is not kept: it is contracted with those.", "quantifier": "all well-formed acyclic networks of any size, with any words and any copy function", "why_tests_cant": "The copy is made through a temporary null arc from each copied node to the stop and then removes them one by one, each removal moving arcs between nodes; whether the shape survives depends on the order of the traversal and the whole network, of which there are infinitely many.", "anchors": ["src/sclite/net_adt.c: Network_copy, nt_copy_arc, insert_node_in_node_map, Network_delete_null_arcs, Network_merge_network, Network_insert_arc_between_nodes, Network_delete_arc", "src/sclite/net_dp.c: Network_dpalign_n_networks"]}
{"id": "C77", "title": "ROVER merges the outputs of its systems into a row of slots with one entry per system", "statement": "Network_dpalign_n_networks on word networks without alternatives ends without an error, whatever the alignment matrix holds from earlier calls. Its result is a row of slots: all arcs that leave a node lead to the same next node. The first network gives one slot per word. Each later network is merged with the row so far by an alignment of least total distance. A word paired with a slot is added to that slot, an unpaired slot gets a null word, and an unpaired word gets a new slot filled up with null words. So each slot has exactly one entry per system, the words of each system stand in its column in their order, and no slot consists of null words only. With the word distance of ROVER this holds for all outputs of plain words while the number of systems times the number of words stays below 65534. Alternatives in the later networks are lost: only the words on the chosen path are merged.", "quantifier": "all numbers of systems, all word lists within the size of the matrix, all distances bounded as the search requires, all copy functions and null words, all earlier contents of the matrix", "why_tests_cant": "The composite is edited in place while the alignment is traced back, so each edit changes the network the next steps refer to; whether every slot ends with one entry per system and every merge is cheapest depends on all earlier merges and on the word lists, of which there are infinitely many.", "anchors": ["src/sclite/net_dp.c: Network_dpalign_n_networks, create_alinged_NETWORK, setup_NET_ALIGN, calculate_internal_cells, find_arcset_id", "src/sclite/word.c: wwd_WORD_rover, copy_WORD", "src/sclite/rover.c: perform_mfalign_v1", "src/sclite/net_adt.c: Network_create_from_WTOKE, Network_copy, Network_delete_null_arcs"]}
{"id": "C78", "title": "The alignment report is read back as it was written", "statement": "The file sclite writes with '-o sgml' is read back by the loader of alignment reports: for every list of systems that fits the loader's array, reading gives the systems in the same order, with the same titles, file names, dates, options, labels and categories, the same speakers in the same order, and for each speaker the same sentences with identifiers, labels, file, channel, sequence number, attributes and times, and the same alignment entries with all announced word times, confidences and weights. Nothing is written outside a buffer. Words come back as they are printed: words without tags and semicolons come back unchanged, so such a report determines its systems. Texts must not contain quotes or ends of lines, printed words must be shorter than 1000 bytes, and a label's texts shorter than 9965 bytes in all. More systems than the array has room for are refused. The variant with line ends as separators ('-o nl.sgml', '-p') is refused by the loader as soon as one sentence has a word.", "quantifier": "all lists of systems, labels, speakers, sentences and alignment entries, all flag combinations, all texts of the four encodings without quotes and line ends, all array sizes", "why_tests_cant": "The round trip goes through printf formats, quote-aware tokenising with buffers that grow with the line, attribute lists and a table of auxiliary fields that persists from one sentence to the next; a test covers a few flag combinations and short lines, while a failure needs a particular combination of events, flags and lengths.", "anchors": ["src/sclite/scores.c: dump_SCORES_sgml, load_SCORES_sgml, formatWordForSGML, parse_input_comment_line", "src/sclite/sgml.c: add_SGML_tag, delete_SGML_tag, get_SGML_attrib", "src/sclite/text.c: TEXT_strqtok, TEXT_strcspn, TEXT_strspn, TEXT_strBdup", "src/sclite/sclite.c: main"]}
{"id": "C79", "title": "Case conversion acts letter by letter and case-insensitive comparison is an order on lower-case texts", "statement": "Converting a text to lower or upper case replaces every character by the one its encoding and language profile give for it and nothing else, stays within the conversion buffer, and does not depend on earlier conversions. Converting twice is converting once, and lower case of the upper-case text is lower case of the text. Comparison without regard to case is zero exactly when the lower-case texts are the same, and is antisymmetric and transitive. The buffer has to hold eight bytes, or the first text seven characters, or all characters have at most two bytes: a short first text with characters of three bytes is written past the buffer.", "quantifier": "every encoding and language profile, every text of valid characters, every sequence of earlier conversions, every content and size of the buffer", "why_tests_cant": "Texts, buffer sizes and call histories are unbounded; the overflow needs a particular first text.", "anchors": ["src/sclite/text.c: TEXT_str_to_master, TEXT_str_case_change_with_mem_expand, TEXT_strcasecmp, TEXT_strcmp_master, getKnownUFTCaseCP", "src/sclite/memory.h: expand_1dimZ"]}
{"id": "C80", "title": "The label tables are the distinct declared labels in order of first declaration", "statement": "After reading the comment lines of any reference files, the table of subset labels holds exactly the labels declared by LABEL lines, each once, in the order they are first declared, and the table of categories those of CATEGORY lines; lines that are no comments, have no keyword or fewer than three quoted texts change nothing. Looking up an identifier gives the first label whose identifier is the same up to case, or none.", "quantifier": "every encoding, every sequence of lines, every table and identifier", "why_tests_cant": "Line sequences and texts are unbounded; gaps between quotes, repeated and malformed declarations combine freely.", "anchors": ["src/sclite/scores.c: parse_input_comment_line, load_comment_labels_from_file, find_PATHLABEL_id"]}
{"id": "C81", "title": "Subset scores count the words of the utterances with the label", "statement": "In the labelled utterance report the words and errors of a subset and a speaker are the sums over that speaker's utterances whose label text names the subset (up to case, in any field), when every named label is declared and each label always stands in the same field; otherwise the program stops, and only then. The totals of both reports are the sums over all speakers. Label texts are closed by a bracket, names are shorter than 30 bytes, and no later system has more labels or speakers than the first; outside this memory is overrun.", "quantifier": "every number of systems, speakers, labels and utterances, every label text of that form, every encoding and profile", "why_tests_cant": "Unbounded numbers of systems, speakers, utterances and fields; the field check depends on all earlier utterances.", "anchors": ["src/sclite/lur.c: compute_label_scores, alloc_LABEL_SCORES, create_report, create_N_lur_report, print_lur, print_N_lur"]}
{"id": "C82", "title": "Mean, deviation and median of the score reports", "statement": "The statistics printed under a column of an sclite report are the arithmetic mean of its values, the square root of the sum of the squared deviations divided by one less than their number (0 for one value), and the middle value, or the mean of the two middle values, of the sorted list. They do not depend on the order of the values nor on which elements the sort of the C library puts first among equals. The mean lies between the smallest and the largest value, and the deviation is 0 exactly if all values are equal. No values give 0 for all of them, except that no integer values (a report without speakers) are read outside an array.", "quantifier": "all lists of numbers (integers up to 2^30), all sorts that meet the contract of qsort", "why_tests_cant": "Lists of every length and order, with every pattern of equal values, and every legal behaviour of an unstable sort.", "anchors": ["src/sclite/statdist.c: calc_mean_var_std_dev_Zstat, calc_mean_var_std_dev_Zstat_double", "src/sclite/order.c: sort_double_arr, sort_int_arr"]}
{"id": "C83", "title": "The report by speaker is consistent with itself", "statement": "In the report by speaker (sys, raw, wws) the line of a speaker gives their sentences, their reference words and for each titled column the counter, or its percentage of the reference words; correct, substituted and deleted words add up to 100 percent and the errors are the sum of substitutions, deletions and insertions (with merges and splits when they are shown). A speaker without reference words is marked and gets counters. The line of sums has the sums of the sentences, words and counters, and its percentages are the means of those of the speakers weighted by their words, where the errors of marked speakers count too. The lines Mean, S.D. and Median describe each column above them without the marked speakers, provided that at most one marked speaker comes before a speaker with words. Numbers are printed rounded to the nearest decimal, halves away from zero. False, with witnesses: with two marked speakers before others the statistics are over the wrong speakers; the statistics of merges and splits stand under each other's titles; weighted sums are cut to whole numbers at every speaker; a speaker whose words all have weight 0 gets counters in place of percentages without a mark.", "quantifier": "all lists of speakers with all counters and weights, all combinations of the report options", "why_tests_cant": "The sequences of speakers with and without reference words are unbounded, and the bookkeeping that drops speakers depends on their positions.", "anchors": ["src/sclite/scores.c: print_system_summary", "src/sclite/sctk.h: pct, F_ROUND"]}
{"id": "C84", "title": "The tables of several systems agree with the report of each", "statement": "If all systems have as many speakers as the first, the table of several systems gives for each the error percentage (or count) of every speaker, its statistics, and in the line of averages the error rate of all words. The average is the one of the report by speaker of that system, so are the values of speakers with reference words, and if all speakers have reference words so are mean, deviation and median. The executive table gives for each system the line of sums of its report by speaker if no words were merged or split. False, with witnesses: a speaker without reference words counts with 0 percent in the table and not at all in the report; further speakers of a later system are missing from the table, and with six or more memory is overwritten; merged and split words are reference words in the report but not in the executive table.", "quantifier": "all numbers of systems and speakers and all counters", "why_tests_cant": "Agreement of three reports for every combination of systems, speakers and counters.", "anchors": ["src/sclite/scores.c: print_N_system_summary, print_N_system_executive_summary, print_system_summary"]}
{"id": "C85", "title": "asclite reads a CTM file as the graph of its words and alternatives", "statement": "For every CTM file that is a sequence of words and of groups of non-empty alternatives (<ALT_BEGIN>, <ALT>, <ALT_END>) with comments anywhere, in which no alternative begins before the first of its group, loading succeeds: there is one token per word in the order of the file with its text, times and confidence, one segment per word outside groups and per group with the begin of its first word and the latest end, and two tokens are linked exactly if one comes directly after the other in an alternative or across neighbouring items, both ways and once. If the file ends with a word, the paths from the first to the last segment spell exactly the texts one gets by choosing one alternative of each group. In any file whose lines have five fields no word is lost, added or moved. False, with witnesses: a file that ends with a group loses its last alternative; the word after a group names the group's segment as its parent; an alternative beginning earlier than the first stops the program; an empty alternative turns the next word into an alternative; an empty line repeats the word of the line before it.", "quantifier": "all files: any number and nesting-free arrangement of words, groups and alternatives, any contents of fields shorter than 255 bytes, any reading of numbers", "why_tests_cant": "The reader is a state machine with six flags and pointers over lines; the sequences of words, groups and alternatives are unbounded and each transition depends on what came before.", "anchors": ["src/asclite/core/ctm_inputparser.cpp: CTMInputParser::loadFile", "src/asclite/core/segment.cpp: AddFirstToken, AddLastToken", "src/asclite/core/inputparser.cpp: BuildToken"]}
{"id": "C86", "title": "Separating the characters of a text", "statement": "For every text made of whole characters of the encoding, separating its characters writes exactly its units in order - its characters, a G with a combining tilde being one in the Guarani profile - without the hyphens if they are to be dropped, and with one blank between two neighbours unless one of them is a blank or, when ASCII runs stay together, both are ASCII. The units are a unique cutting of the text. A buffer of at least ten bytes is grown as needed and never left. False, with witnesses: in the encodings of one byte the Guarani profile cuts the text off after a G with tilde; a buffer of one byte is left.", "quantifier": "all encodings, profiles, options, texts of any length, buffers of at least ten bytes with any contents", "why_tests_cant": "The text is unbounded, the buffer is doubled while it is written, and the rules for blanks depend on the characters before; a test sees a few texts and not the bytes after the buffer.", "anchors": ["src/sclite/text.c: TEXT_separate_chars, TEXT_strCcpy", "src/sclite/memory.h: expand_singarr"]}
{"id": "C87", "title": "Alignment by characters", "statement": "For every well-formed network of words, of any shape, replacing the words by their characters gives a well-formed network that says exactly the sequences of the old one with every word spelled: a word of one byte, or one whose text is a single piece, stays; any other becomes its pieces in order - units of its text (hyphens dropped on request), ASCII runs together on request, a star at the end of a run cut - each with an equal share of the time, one after the other, and optional if the word was. The spelling is unique. So for two texts the alignment by characters costs as much as the cheapest alignment of a reading of the one in characters with a reading of the other in characters, and the path shows one of that cost. An optional word must be the only one to leave its node. False, with witnesses: two optional alternatives, '{ (a) / (b) }', make the traversal run forever; a word of hyphens when these are dropped, and '()', use a network that is not there; '@' inside a word becomes the null word.", "quantifier": "all encodings and profiles (Guarani with the encodings of several bytes), options, texts and networks of any size, buffers of at least ten bytes, any division of durations", "why_tests_cant": "The arcs are replaced while the traversal runs over them, and the words that come in are looked at again; that each word is replaced exactly once and every path is kept must hold for every network, and the loop that never ends shows only with particular alternatives.", "anchors": ["src/sclite/align.c: expand_words_to_chars, set_word_duration, set_word_start, set_word_opt_del, decode_opt_del, align_text_to_text", "src/sclite/net_adt.c: Network_traverse, Network_merge_network, Network_delete_arc"]}
{"id": "C88", "title": "N-way alignment is optimal", "statement": "With the generic method (every speech on an equal footing), for any number of well-formed speeches, with alternations, the search ends; the alignment it returns has in every column at most one token of each speech and at least one in all, the tokens of each speech spell a complete path of it, the cost reported is that alignment's cost, and no such alignment costs less. A column costs one insertion for every speech without a token (the optional price if the last token of the column is optional) and one substitution for every token outside the largest set of tokens that say the same. Saying the same must be an equivalence, and list iterators must wrap past the end as they do in the usual library. False, with witnesses: that the language defines what is done (an iterator at the end of its list is advanced as soon as there are two speeches); that the cost does not depend on the order of the speeches (optional tokens; equivalence that is not transitive, as with fragments counted as correct).", "quantifier": "all numbers of speeches, all well-formed speeches with alternations, all non-negative prices, all equivalences of tokens", "why_tests_cant": "The minimum ranges over all ways to line up any number of speeches, exponentially many; the odometer that enumerates predecessors and the grouping of equivalent tokens must be right for every number of speeches and every combination of alternatives.", "anchors": ["src/asclite/core/graph.cpp: PreviousCoordinatesGeneric, GetTransitionCostGenericWordBased, CalculateCost, FillGraph, GetBestCoordinateAndCost, RetrieveAlignment", "src/asclite/core/graph.h: PreviousCoordinates, GetTransitionCost"]}
{"id": "C89", "title": "Time-based alignment is optimal and its division exact", "statement": "With time-based costs, between hypotheses and references or n-way, the search ends and returns an alignment whose cost is the one reported and is below the cost of every alignment, where a lone token pays for its duration, a pair for the distance of its begins and ends (more for mismatched speakers), and an n-way column for its span in every speech without a token and for the time its last token misses; each column's cost is divided by the smallest price times the largest power of ten that divides the times of all tokens. That divisor exists and is unique once there is a token, and the division loses nothing when speakers are not compared, so the alignment minimises the true time cost. False, with witnesses: that every token of an n-way column pays for the time it misses (only the last does); that mismatched speakers cost more (the penalty is lost in the division when all times are multiples of 10 ms); that the cost is defined for a token at time [0, 0].", "quantifier": "all groups of speeches whose tokens have times, not both multiples of 10^9; all positive prices (exactness: the smallest divides the others, as in the program)", "why_tests_cant": "The minimum ranges over all alignments and the divisor over all sets of times; that no cost is rounded must hold for every token and every column.", "anchors": ["src/asclite/core/graph.cpp: Graph, GetTransitionCostHypRefTimeBased, GetCostTransitionTimeBased, GetTransitionCostGenericTimeBased", "src/asclite/core/timedobject.cpp: TimeSafeDivider", "src/asclite/core/levenshtein.cpp: SetSegments"]}
{"id": "C90", "title": "Optional tokens are cheap on the side asked for", "statement": "With -D ref or -D hyp, at every step the search considers, a lone optional token pays the optional price exactly if it is on the side named; any other lone token pays the insertion price; any other value than ref, hyp and both makes no token cheap. False, with a witness, for -D both, the default of the option: it acts as ref, and an optional hypothesis token pays in full.", "quantifier": "all option values, groups of speeches, coordinates reached and predecessors", "why_tests_cant": "The price must be right at every coordinate of every group; 'both' looks right on any test without optional words in a hypothesis.", "anchors": ["src/asclite/core/levenshtein.cpp: SetSegments", "src/asclite/core/main.cpp: usage text of -D", "src/asclite/core/graph.cpp: GetTransitionCostHypRefWordBased"]}
{"id": "C91", "title": "Inferred word segmentations come from the lexicon and are the cheapest", "statement": "The lexicon is the first field of every line of its file, and a word is found in it exactly if it is there, for a lexicon in order. Inferring the segmentation of the hypothesis (or of the reference) aligns the readings of the other text with exactly those readings of this one that take its characters, put neighbours together where the result is a word of the lexicon, and leave the others alone; the cost is the least over all of them and the path shows an alignment of that cost. Segmenting the hypothesis without regard to case works on the texts in lower case. False, with witnesses: that a lexicon out of order works; that segmenting the reference disregards case when asked to; that a word is found across a null word.", "quantifier": "all lexica, networks, texts with alternatives, encodings and case settings", "why_tests_cant": "The number of segmentations grows exponentially with the text, and a missed one only shows when it is the cheapest.", "anchors": ["src/sclite/align.c: infer_word_seg_algo1, infer_word_seg_algo2", "src/sclite/net_adt.c: Network_fully_connect_cond, recursive_connect", "src/sclite/word.c: append_WORD_no_NULL", "src/sclite/text.c: load_TEXT_LIST, in_TEXT_LIST, WORD_in_TEXT_LIST, TEXT_strspn, TEXT_strcspn"]}
{"id": "C92", "title": "Transcripts are read utterance by utterance and paired by id", "statement": "Reading a transcript of lines 'words (id)' gives one speech for each speaker, the speaker being what is before the last underscore or hyphen of the id, in byte order of the speakers; each speech has the utterances of that speaker in the order of the file, with their ids, lines and numbers, and the graph of an utterance spells exactly the readings of its words. A file without utterances ends the program. For the first system scored, every id of the references gives one group, in byte order, of the first reference and the first hypothesis with the id; if no id is used twice every reference utterance is scored exactly once, against the hypothesis of the same id. False, with witnesses: that a reference the hypothesis lacks is handled (memory past the last speech is read); that a second system can be scored; that every utterance of a repeated id, or a hypothesis without reference, is scored; that lines without an id are refused.", "quantifier": "all files, ids, speakers, transcripts with alternatives and segmentor states", "why_tests_cant": "The pairing depends on the ids of all utterances of both files; a missing id reads memory out of bounds, which can go unnoticed in a test.", "anchors": ["src/asclite/core/trn_inputparser.cpp: TRNInputParser::loadFile", "src/asclite/core/trntrn_segmentor.cpp: TRNTRN_Segmentor::Reset, TRNTRN_Segmentor::Next", "src/asclite/core/recording.cpp: Recording::Align"]}
{"id": "C93", "title": "STM files are read segment by segment", "statement": "Reading an STM file of data lines 'file channel speaker begin end [<label>] words', category comments of one-word fields and other comments gives one speech for each speaker, in byte order of the names (the gap between segments is written in any case and becomes one name), with one segment for each data line of the speaker in the order of the file: its fields, times, line, label, whether it is excluded from the scoring, its number among the scored segments of the file, its id numbered among the scored segments of the speaker, and a graph that spells exactly the non-empty readings of its words. The ways through a speech are exactly the ways through its segments with words, one after the other. The ids of the scored segments of a speaker all differ. The categories come out in the order of the file. A file with comments only ends the program. False, with witnesses: that a line of fewer than five words or with a word of 255 bytes is refused (memory not written is read, or memory past the buffer written); that the words are what is after the end time when the text of the begin or end time occurs earlier in the line; that an unclosed label is refused and a bracketed word is no label; that excluded segments have ids of their own; that titles of several words are kept; that the gap name is always recognised.", "quantifier": "all files of such lines, all words with alternatives, all functions from time texts to times", "why_tests_cant": "Where the words of a line begin depends on whether the text of its times occurs elsewhere in the line, and the graph of a speech on all its segments; the undefined reads need not show in a test.", "anchors": ["src/asclite/core/stm_inputparser.cpp: STMInputParser::loadFile, CompareToISGCaseInsensitive, LowerCase", "src/asclite/core/inputparser.cpp: InputParser::ParseWords"]}
{"id": "C94", "title": "RTTM files read by turns", "statement": "Reading a reference RTTM file gives one speech for each speaker who has a SPEAKER line, in byte order of the names, with one segment for each of the speaker's SPEAKER lines in the order of the file: its file, channel, speaker, line, times and an id numbered among the speaker's turns. The words of a turn are the kept LEXEME lines of the speaker up to the speaker's next turn, whatever other speakers say in between; words that need not be said are in parentheses. A word with a brace or an underscore is read as a transcript with alternatives. The ways through the segment of a turn spell exactly the readings of its words, one after the other, and from the first token of a turn to the last one of a later turn of the same speaker exactly the words of the two and of all turns between can be read. Every word keeps its times and its confidence. A file without SPEAKER lines gives no speeches. False, with witnesses: that a LEXEME line of fewer than seven fields is refused; that an underscore is an ordinary character; that an alternative can be empty; that a word before the first turn of its speaker, or one whose times are outside its turn, is treated by its times.", "quantifier": "all files of such lines whose first and last words of each turn fit it, all words with alternatives, all options, all functions from time texts to times", "why_tests_cant": "Turns of several speakers interleave in the file in any order, every token can be replaced by a graph while the graphs around it are being replaced, and the ways through the result are exponentially many.", "anchors": ["src/asclite/core/rttm_inputparser.cpp: RTTMInputParser::loadFile, loadFileSpeaker", "src/asclite/core/linestyle_inputparser.cpp: LineStyleInputParser::ExpandAlternationSpeechSet", "src/asclite/core/segment.cpp: Segment::ReplaceTokenWith"]}
{"id": "C95", "title": "RTTM files read word by word", "statement": "Reading a hypothesis RTTM file gives one speech for each speaker who has a kept LEXEME line, in byte order of the names, with one segment for each of the speaker's words in the order of the file: its file, channel, speaker, line, number among all words, times and an id numbered among the speaker's words. Every word is read as a transcript with alternatives, underscores and number signs being blanks; the ways through its segment spell exactly its readings, in parentheses if it need not be said. From the first token of a word to the last token of the same or a later word of the speaker exactly the speaker's words between them can be read, however words of other speakers interleave. A word has its confidence if no word up to it in the file lacks one. SPEAKER lines and all options are without effect, and a file without words ends the program. A word of ordinary characters is read as it is written. False, with witnesses: that a LEXEME line of fewer than nine fields is refused; that a word with a quotation mark is read as in a reference; that a missing confidence concerns its word only; that an empty word keeps the speech linked.", "quantifier": "all files of such lines, all words with well-formed alternatives and durations that are not negative, all options, all functions from time texts to times", "why_tests_cant": "Words of any number of speakers interleave in any order, each can be a graph with exponentially many ways, and the links from word to word must join exactly the ends of one to the beginnings of the next word of the same speaker.", "anchors": ["src/asclite/core/rttm_inputparser.cpp: RTTMInputParser::loadFile, loadFileLexeme", "src/asclite/core/linestyle_inputparser.cpp: LineStyleInputParser::ParseWordsEx, ExpandAlternationSpeechSet", "src/asclite/core/recording.cpp: Recording::Load"]}
{"id": "C96", "title": "DET curves of the confidences", "statement": "The DET curve of a system with correct words of confidences T and wrong (substituted or inserted) words of confidences F, both not empty, has |T|+|F|-1 lines before the change of scale: a constant first one, then one for every k from 1 to |T|+|F|-2 whose coordinates are a/|T| and (|F|-b)/|F| with a+b=k, both a and b growing; for every line there is a threshold at which, the least confident word of each sort left aside, exactly a correct and b wrong words are discarded, those discarded being at most and those kept at least the threshold; and every threshold with x correct and y wrong words below it, both at least one, has the line of x-1 and y-1. No curve is made when messages are on and an utterance of the first system lacks confidences. For several systems each curve also counts all words of the systems before it, with confidence 0. False, with witnesses: that every line is what some threshold discards; that the curve of the second system is that of its words; that all systems are checked for confidences; and a system with no wrong words, or with exactly 10000, 20000, ... correct words, makes the program leave its arrays.", "quantifier": "all alignments with confidences of at most 9E99, all initial sizes of the arrays, all lists of systems", "why_tests_cant": "The curve depends on the order of any number of real values with any ties, and the memory errors appear only for particular totals.", "anchors": ["src/sclite/det.c: make_SCORES_DET_curve, Compute_ROC, hyp_confidences_available", "src/sclite/order.c: qsort_double_compare", "src/sclite/memory.h: expand_singarr"]}
{"id": "C97", "title": "Histograms of the confidences", "statement": "Every confidence from 0 to 1 belongs to exactly one of n bins of equal width, the last of which has its upper end; the histogram counts in each bin exactly the correct and the incorrect hypothesis words whose confidence belongs to it, two lines for each of a hundred bins with its lower and upper end, and the binned file has for each tenth its middle and the percentage of its words that are correct, 0 if there are none; words with other confidences are reported as out of range. The scaled file cuts all words, in order of confidence, into bins of q = words/bins words, the last taking the rest, with the middle, the percentage of correct words and the width of each bin. None is made when messages are on and an utterance lacks confidences. False, with witnesses: that a slightly negative confidence is out of range; that there are as many scaled bins as asked for (there may be nearly twice as many, and there are none for fewer words than bins).", "quantifier": "all alignments, all confidences of at most a million that are not negative by less than a bin, all numbers of bins up to 1000", "why_tests_cant": "Boundaries fall on every bin and on every number of words; only an argument over all rational confidences and all totals shows that no word is lost or counted twice.", "anchors": ["src/sclite/det.c: binned_confidences, make_confidence_histogram, make_binned_confidence, make_scaled_binned_confidence", "src/sclite/order.c: sort_double_arr"]}
{"id": "C98", "title": "Ranks of systems and speakers", "statement": "When all systems were scored on the same speakers in the same order, the table of ranks holds for every speaker and system the percentage asked for (words recognised, word errors, or 100 minus word errors; 0 errors for a speaker without words); the rank of a system for a speaker is its mean rank among all systems for that speaker, and the rank of a speaker for a system is its mean rank among all speakers of the system, the best percentage first and equal percentages sharing the mean of their places; ranks lie between 1 and the number ranked, equal percentages have equal ranks and better ones smaller ranks; and systems and speakers are listed by the sums of their percentages, the best first. False, with witnesses: systems that list the speakers in another order are paired by position, not by name; and if one system has fewer speakers than another, percentages that were never set are ranked.", "quantifier": "all non-empty lists of systems, all speakers and counts of words, all three formulas, all sorting functions that meet the contract of qsort", "why_tests_cant": "The ranks depend on any pattern of ties in tables of any size; only an argument over all tables and all sorting functions settles them.", "anchors": ["src/sclite/rank.c: init_RANK_struct_from_SCORES, rank_on_pcts", "src/sclite/order.c: rank_double_arr, sort_double_arr"]}
{"id": "C99", "title": "Range tables and their GNUPLOT files", "statement": "Under the hypotheses of the ranks, the two range tables have one line for each speaker and one for each system, the best first, with the mean, the standard deviation, the highest and the lowest of its percentages and a graph with one column for each step of the scale: a bar within half a column of the mean, a plus one standard deviation from it, dashes between the lowest and the highest value and blanks outside; a mean between 0 and 100 is marked. The GNUPLOT files have the same lines at the positions 1, 2, ... with all percentages, the mean and the median, and the second form names its series, the systems for the speakers and the speakers for the systems. False, with witnesses: the lowest value when all are over 100 (100 is shown) and the highest when all are negative (0 is shown); and the second form overruns its buffers exactly when the name of the file has more than 38 characters or there are more than 32 systems or speakers.", "quantifier": "all non-empty lists of systems and speakers, all formulas, all scales, all square root functions, all sorting functions that meet the contract of qsort", "why_tests_cant": "Highest and lowest start at fixed values that most data hide, and the buffers hold for small tables only.", "anchors": ["src/sclite/range.c: print_rank_ranges, do_blk_ranges, do_trt_ranges, print_range_graph, print_gnu_range_graph, print_gnu_range_graph2", "src/sclite/statdist.c: calc_mean_var_std_dev_Zstat_double"]}
{"id": "C100", "title": "Friedman's analysis of variance by ranks", "statement": "When at least two systems were scored on the same speakers in the same order, the statistic of the analysis of variance is Friedman's with the correction for ties, (m - 1) times the squared deviations of the rank sums of the m systems over the squared deviations of their ranks, 0 if all is tied; for up to 31 systems they are said to differ exactly if it exceeds the 5 percent point of the chi-square distribution with m - 1 degrees of freedom; the probabilities named in the report enclose the statistic in the table, which grows with the level and the degrees of freedom; two systems are compared as different exactly if the square of the difference of their rank sums is at least the square of 2.33 (1.881 for two systems) times b m (m - 1) / 6 for b speakers, the matrix of winners is antisymmetric, and the report names, once for each pair and in the order of the ranking, the system with the smaller sum. With at least as many speakers as systems, and columns of speakers that are free of ties or have no more distinct values than there are systems, the same holds for the speakers. False, with witnesses: with more systems than speakers the counts of ties are read beyond their array; ties of speakers after that many distinct values are ignored; a title of more than 17 characters makes the report use an address before a string; systems are called different although the test of all systems finds no difference, and although they are closer than the limit with b m (m + 1) / 6 that the code documents.", "quantifier": "all numbers of systems and speakers, all counts of words, all three formulas, all sorting functions that meet the contract of qsort", "why_tests_cant": "The correction for ties depends on any pattern of ties in tables of any size, and the matrix on all pairs of sums.", "anchors": ["src/sclite/anovar.c: compute_anovar, analyze_rank_sum, print_result_of_analyze_rank_sum, calc_adjust_for_trt, calc_adjust_for_blks, calc_stat_ranks, calc_comp_value, print_ANOVAR_comp_matrix", "src/sclite/statdist.c: X2, Z1tail"]}
{"id": "C101", "title": "Normalised cross entropy of confidence scores", "statement": "When the counters of every speaker agree with the aligned words, the reports show for every speaker with words, and for the system over all words, the normalised cross entropy (H + sum of log2 c over the correct words + sum of log2 (1 - c) over the incorrect words) / H, where c is the confidence kept within 10^-7 and 1 - 10^-7 and H is the entropy in bits of the verdicts; a speaker without words has 0. It is always below 1; the same confidence for all words gives at most 0, and 0 exactly if that confidence is the part of words that are correct; a higher confidence of a correct word or a lower one of an incorrect word never lowers it, and raises it between the two limits; the order of the words does not matter; the warning counts the words whose confidence is below 0 or above 1. False, with a witness: a speaker or system whose words are all correct (or all incorrect) has a value; it is not a number, even if all confidences are perfect.", "quantifier": "all speakers, paths, verdicts and confidences", "why_tests_cant": "The bounds and the orders are inequalities between sums of logarithms over any number of words.", "anchors": ["src/sclite/scores.c: compute_SCORE_nce"]}
{"id": "C102", "title": "Word lists: every string once, with its count, most frequent first", "statement": "Counting any strings, in any order and however many, and printing the list with a threshold of at most one gives each of them once, numbered from one, with how often it was counted; the most frequent come first and strings of equal frequency are in the order of strings of the encoding; the total is the number of different strings and the sum that of all counts. The list does not depend on the order in which the strings were counted nor on the initial size, which only has to be positive. The number given to a string on insertion is its place in the order of first occurrence: equal strings get the same, different ones different numbers, and later insertions do not change it. Looking a string up gives -1 if it was never inserted, and otherwise how many of the strings come before it. False, with witnesses: that a threshold of two or more shows the strings that occur that often; that looking up gives the number given on insertion; that a list of initial size 0 can be used.", "quantifier": "all lists of strings of the encoding with fewer than 2^31 entries, all positive initial sizes, all sorting functions that meet the contract of qsort", "why_tests_cant": "Binary search, shifting and growth have to agree for every order of insertion and every number of strings.", "anchors": ["src/sclite/alex.c: AUTO_LEX_init, AUTO_LEX_find, AUTO_LEX_insert, AUTO_LEX_printout"]}
{"id": "C103", "title": "Detailed reports: numbers of sentences and words, confusion pairs and word lists", "statement": "After any history of scored sentences, the overall detailed report gives the number of sentences; the numbers and percentages of sentences with errors and, of the kept sentences, with substitutions, deletions and insertions; the numbers of errors, correct words, substitutions, deletions and insertions with their percentages of the reference words and the accuracy (undefined exactly when there is no reference word); the numbers of reference, hypothesis and aligned words; and five lists of the kept sentences - confusion pairs, insertions, deletions, substituted words and falsely recognised words - each string once with its count, most frequent first. The report of a speaker says the same of the sentences of that speaker. If all sentences are kept, the sums under the lists are the numbers of substitutions, insertions and deletions above them. If no reference word contains a space, the line of a pair counts exactly the substitutions of the one word by the other. The sentence report has for each kept sentence its numbers and percentages and the totals of the speaker so far. False, with witnesses: that a pair whose text has 10000 bytes or more can be listed (it is written beyond its buffer); that different pairs are different lines if words contain spaces.", "quantifier": "all histories of scored sentences with words of the encoding, all sorting functions that meet the contract of qsort", "why_tests_cant": "The counts have to agree for every alignment, every number of speakers and every distribution of words over them.", "anchors": ["src/sclite/sc_dtl.c: score_dtl_overall, score_dtl_spkr, score_dtl_sent, locate_confusion_pairs, locate_insertions, locate_deletions, locate_substitutions, locate_misrecognized", "src/sclite/rsprintf.c: rsprintf"]}
{"id": "C104", "title": "Several systems compared sentence by sentence", "statement": "The comparison of several systems goes through the speakers of the first system up to the first one that another system lacks, so through all of them if every system has every speaker. For each it takes exactly the sentences of the first system whose identifier all the other systems have for that speaker, each with the sentences of that identifier. The warnings name, for every system with distinct speakers, exactly the speakers not compared and, for every speaker compared with distinct identifiers, exactly the sentences that are in no set. If the sentences of every set have the same reference words, each set is shown with the number of its reference words and of those that no system has right; the summary adds them up and gives the accuracy, undefined exactly when there is no word, and it lists every missed word once, with counts that add up to the number of missed words and that are each right if no word is missed twice. Sets whose references differ at some word are printed one by one. For paths of equal length the scores are called different exactly when the numbers of reference words or errors differ. False, with witnesses: that every speaker in common is compared; that references called identical are; that paths of unequal length are compared within their ends; that the count beside a word is right if a word is missed twice; that scores of unequal length are compared right; that with only different scores asked for all different sets are shown and the totals are theirs; that the totals are those of the sets analysed if references differ.", "quantifier": "all sets of scored systems, all sorting functions that meet the contract of qsort", "why_tests_cant": "Speakers and sentences can be in any order and missing anywhere; the index arithmetic of the table has to hold for all of them, and the marks of all paths have to be on the same words.", "anchors": ["src/sclite/corresp.c: locate_matched_data, find_matched_grp, find_matched_paths, dump_paths_of_SC_CORRESPONDENCE, scores_are_diff, identical_refs, lattice_error, PATH_multi_print"]}
{"id": "C105", "title": "The printed alignment of a sentence", "statement": "Printing a range of steps of an alignment divides them, in order and without a gap, into sets of lines: the reference words, the hypothesis words, their times, confidences and weights as asked for, and the marks S, I and D. A missing word is shown by as many stars as the other has bytes, wrong words are in upper case unless case matters. A column is as wide as the longer word (seven if there are numbers), so that in a set all lines have the same length and every step has the same place in all of them if the texts fit. A line is broken only where the next column would make it as long as the limit. The counts of the head are those of the steps printed. The lines can be read back: they determine the words and the judgement of every step if words are not empty and have no blanks; if case matters, different alignments are printed differently. This holds if every column but the last fits a line and no word without a partner has more than 40 bytes. False, with witnesses: that printing ends if a word does not fit a line and is not the last; that words of 41 bytes can be inserted; that lines keep the limit (the last word is never moved to a new line); that columns stay aligned if upper case has another length or a number has more than seven characters.", "quantifier": "all alignments, ranges, line limits, attributes and texts of numbers", "why_tests_cant": "The places where lines break depend on the lengths of all words; a reader has to recover every step of every alignment.", "anchors": ["src/sclite/path.c: PATH_print, PATH_n_print"]}
{"id": "C106", "title": "Alignments made by diff are dealt to the utterances", "statement": "With option -d all words of the references, one after the other, are compared with all words of the hypothesis by diff, and its lines are dealt to the utterances again. Of a reference text the words outside choices and those of the first alternative of every choice are compared, '@' left out. If diff shows a way from the one list of words to the other, then every line is dealt to exactly one utterance, in order, with its words and its judgement (right, substituted, deleted, inserted); every utterance gets exactly its own reference words; words inserted between two utterances belong to the later one that has a reference word. There is only one such distribution. This holds for transcripts, for a text without utterances and for the channels of an STM file, if the last utterance has a reference word, words have at most 61 bytes and are not taken for marks of diff. In the last channel of the STM file exactly the words inserted after the last reference word are lost. The copy of a reference stays in its buffer exactly if no reference has 100 or 101 bytes before a longer one has come, or one byte more than the longest so far. False, with witnesses: that nothing is lost if the last utterance has no reference word, or in the last channel; the distribution for lines that end with a carriage return and for words longer than a column of diff; that a deleted '<' and an inserted '>' are wrong; that only the first alternative is taken of choices within choices.", "quantifier": "all references, hypotheses, encodings, and all programs diff that show a way from one list to the other", "why_tests_cant": "The lines are dealt by comparing words only, so that one line read too many or too few shifts all later utterances; which line that is depends on all words before.", "anchors": ["src/sclite/align.c: create_word_lists, process_diff_line, align_trans_mode_diff, align_ctm_to_stm_diff, align_text_to_stm", "src/sclite/text.c: tokenize_TEXT_first_alt", "src/sclite/stm.c: dump_STM_words, convert_stm_to_word_list"]}
{"id": "C107", "title": "A printed table is a rectangle in which every cell shows its text", "statement": "For every sequence of rows given to the report generator (columns l, r, c, their breaking variants L, R, C, cells over several columns, bars | and =, separations above and below a row) whose double bars stand between two cells and do not occur in a row with a separation below: every line of the printed table, borders included, has the same width and is shifted by the same number of blanks to the middle of the page; the rows follow each other in the order given, each as its separations, its text lines and the separations below it; every cell shows all words of its text in order, placed left, right or in the middle of the cell, and a text that is not to be broken is shown exactly in the lines its // ask for; a row has as many text lines as its longest cell; the bars stand at the same places in all rows with the same columns, and + stands in a separation exactly where this row and the one above have a bar. Every cell has its padding, the table is no wider than its widest row needs, and without cells over several columns every column is exactly as wide as its texts need. With texts under 300 bytes and a width of at most 600 the table is always printed. (Refuted: independence of the tables printed before; an unknown column letter is never passed; double bars below a row, within a cell or at the end of a row make lines too short; a column n prints an error; a blank after // gives a line too many.)", "quantifier": "every list of rows, every padding and page width, every text, and whatever earlier tables left in the cells", "why_tests_cant": "Widths are shared out over arbitrary mixes of column formats and spans with rounding, and texts are broken by a loop whose termination depends on the computed widths; only a proof covers every table.", "anchors": ["src/sclite/rpg.c: Desc_set_justification, get_next_string_value, Desc_dump_report, Desc_add_row_values, Desc_add_row_separation, num_span_col, is_last_just_col", "src/sclite/pad.c: center"]}
{"id": "C108", "title": "A word weighs what the word weight file says", "statement": "For every word weight file whose lines are words with weights, column names, a default weight or comments (at most ten columns, five weights a word and 999 bytes a line): it is loaded, its columns are the named ones or, without names, as many as every word has weights for; a word weighs in a column what the file lists it with, or the default weight if it is not listed; a compound word (parts joined by =, under 100 bytes) weighs the sum of its parts; a line with a word and no weight makes loading fail; with 'unity' every part weighs 1; in an alignment the empty word, '@' and optionally deletable words weigh nothing. (Refuted: compound words of 100 bytes overflow a buffer; a named column a word has no weight in reads an unset weight; a single quotation mark in the line of the names and eleven names are undefined; the default weight is searched from the start of its line; an empty file has nine columns; a sixth weight is dropped; 'unity' has no column.)", "quantifier": "every weight file, every word, every column, every encoding and every sort that sorts", "why_tests_cant": "The weight is found by a binary search in a sorted table filled from an arbitrary file; only a proof covers every file and word.", "anchors": ["src/sclite/wwscr_f.c: load_WWL, Weight_wwl, get_weight_from_WW, compare_WW", "src/sclite/align.c: lookup_word_weight", "src/sclite/text.c: TEXT_is_comment, TEXT_is_empty, TEXT_strstr, TEXT_strchr"]}
{"id": "C109", "title": "Word weighted scores are the sums of the weights of the words", "statement": "For every alignment of every speaker and every list of weightings ('Weight 1' if asked for, then the columns of each weight file in order): each weighting is scored once, in that order and with its own column, without limit on their number; for each speaker and over all, the reference weight is the sum over correct, substituted and deleted reference words, correct and deleted sums over those words, insertions over the inserted words and substitutions over both of their words; the summary gives each in percent of the reference weight (0 if there is none), and the report by speakers a row for each speaker and weighting followed by one for each weighting over all. If a file cannot be loaded there is no report. (Refuted: the error rate with weight 1 is the word error rate: substitutions count twice; a report by speakers without any weighting; a row for 'unity'.)", "quantifier": "every set of aligned speakers, every weighting of words, every list of weight files", "why_tests_cant": "The sums run over arbitrary alignments and the table of weightings grows while it is filled; only a proof covers all of them.", "anchors": ["src/sclite/wwscr_f.c: perform_word_weighted_scoring, do_weighted_score, expand_WWL_SCORE, make_total_summary, make_speaker_summary"]}
{"id": "C110", "title": "Two time marked files are aligned channel by channel without losing or repeating a word", "statement": "Every time marked file is a sequence of conversations and channels. When two such files with at most two channels per conversation are aligned (and neither ends with a second channel of a single word), they have the same conversations in the same order with as many channels, and the pieces that are aligned deal out the words of each channel of both files, every word exactly once and in order, numbered and named after the reference as long as the reference has words left. No cut follows a word of an alternation of the reference, and each cut is in a pause of both files unless one of them has at most one word before it. The alignment is defined when the last channel has at most fifty words, the first word of the reference is not of an alternation, and the names fit their buffer. It is false that words left over in the hypothesis keep their speaker, that a longer last channel is always defined, that a third channel or a last channel of one word is aligned, that the names of the channels must agree, that alternations of the hypothesis are never cut, and that a premature end is always reported.", "quantifier": "all pairs of time marked files, of any length, times and names", "why_tests_cant": "the cuts depend on the times of all words of both files and on loops that step down alternately on either side; tests exercise a few recordings", "anchors": ["src/sclite/ctm2ctm.c: align_ctm_to_ctm, chop_WTOKE_2", "src/sclite/fillmrks.c: locate_boundary"]}
{"id": "C111", "title": "The SGML report of asclite says to sclite exactly what was aligned", "statement": "When asclite writes the SGML report of a system whose words, names and labels contain neither quotes nor newlines, sclite reads it without error and gets back one report with the options of the alignment, the name of the system without its directory, the file names taken at the first segment whose first word has a hypothesis token, the labels and categories of the first speech, and every aligned segment exactly once under its speaker, with each aligned pair of words in order: its evaluation (a substitution of speakers is a substitution), the words as displayed (case folded unless case matters, parentheses around optional words, a dash for fragments), the empty word for the missing side of a correct pair, and their times and confidences where they have them. The speakers stand in the order of their first segments, whatever order the maps and the unstable sort deliver; the segments of a speaker are in order when each speech is of one speaker. An alignment without speech or without segment in the first speech is undefined. It is false that the segments of a speaker are in order in general, that a report whose file cannot be opened goes to the standard output, that each system has a file of its own, that cells of unavailable systems are not counted, and that words with quotes or speaker names with colons are read back.", "quantifier": "all alignments of any number of speeches, segments and words, all orders of iteration and all sorting functions", "why_tests_cant": "the report is written by one program and read by another, with grouping that depends on the order of pointers in maps and of equal elements in an unstable sort; tests compare one run with a stored file", "anchors": ["src/asclite/core/sgml_reportgenerator.cpp: Generate, GenerateSystem, GenerateSpeaker, GeneratePath, GenerateTokenAlignment, OutputToken, HandleWordAux", "src/asclite/core/sgml_reportgenerator.h: SGMLSpeaker, SGMLSegmentComparator", "src/sclite/scores.c: load_SCORES_sgml"]}
{"id": "C112", "title": "The significance reports say of every pair of systems what the tests decided", "statement": "The report written for each system has its name, a heading per test and, for every other system, one row with that system and, per test, the name of the better of the two or \"same\"; the legend has the description and the abbreviation of every test; the reports are written whenever the names and lines fit the buffers. The matrix of a rank test and the matrix of the matched pairs test have one box for every ordered pair: above the diagonal the better system or \"same\", elsewhere nothing; the headings are the names of the systems. The lines of a table are equally long if a name has four letters (reports, rank matrix) or no name more than 46 (matched pairs).", "quantifier": "all lists of systems whose names are words, all lists of tests with one-line descriptions, all results of the tests (any sign for any pair), all output directories", "why_tests_cant": "the layout depends on the lengths of all names, the number of tests and every cell of the result matrices; a test fixes a few names and cannot show that no combination of lengths moves a verdict into another column or row", "anchors": ["src/sclite/rank.c:print_n_winner_comp_report", "src/sclite/rank.c:print_trt_comp_matrix_for_RANK_one_winner", "src/sclite/mtchprs.c:print_compare_matrix_for_sys", "src/sclite/pad.c:center"]}
{"id": "C113", "title": "The unified significance table and the McNemar matrix show every pair, probability and star", "statement": "For fewer than 16 systems the unified report is a table of equally long lines in which the row of a system and a test shows, under every later system, the name of the better system or ~, the probability (\"<0.001\" or the nearest thousandth) and stars for 0.001, 0.01 and 0.05, and nothing under the others; its legend has the description and abbreviation of every test. The McNemar matrix shows for every pair the confidence (at least 0.001, to the nearest thousandth) and the better system or \"same\"; it is printed for every number of systems whose names fit the lines, up to 24.", "quantifier": "all lists of systems, all non-empty lists of tests, all results and probabilities, every fair rounding of the column widths and whatever earlier tables left behind", "why_tests_cant": "the cells are placed by formats generated for any number of systems and by widths over all values; a test fixes the number of systems, names and probabilities", "anchors": ["src/sclite/rank.c:print_composite_significance2", "src/sclite/sentmcn.c:print_compare_matrix_for_sent_M", "src/sclite/rpg.c:Desc_set_iterated_format", "src/sclite/rpg.c:Desc_set_iterated_value", "src/sclite/rpg.c:Desc_flush_iterated_row"]}
{"id": "C114", "title": "The raw and percentage tables of asclite show every speaker's counts, the sums, the means, deviations and medians", "statement": "The table of a system is always made: its lines are equally long, two for a speaker and twelve others, with four lines of notes when a speaker has no reference words. Every speaker has one line, in the order of the names, with the numbers of segments and reference words, then the counts (raw) or their percentages of the speaker's reference words to one decimal (percentages below 10000; starred counts for a speaker without reference words), the segment errors and the confidence measure or # or an infinity. The next lines show the sums over all speakers or their percentages, and the mean, sample standard deviation and median of every column, over all speakers or, in the columns of the words and of the confidence measure, over those with reference words, when the numbers fit. Each system gets one table, on the standard output or in the file named after it.", "quantifier": "all tables of speakers with consistent counters, all confidence measures, systems, output directories and both kinds of tables, with and without speaker errors", "why_tests_cant": "the widths of the columns are computed from logarithms of all values and every cell is cut to its width; a test fixes speakers and numbers", "anchors": ["src/asclite/core/rawsys_reportgenerator.cpp:GenerateSystem", "src/asclite/core/rawsys_reportgenerator.cpp:Generate", "src/asclite/core/statistics.cpp:GetMaxSizeString", "src/asclite/core/reportgenerator.cpp:GetFileNameFromPath"]}
{"id": "C115", "title": "The XML report of the generic alignment", "statement": "An asclite run without reference (the generic alignment of several hypotheses) writes an XML report. For every aligner, every segmentation, all systems and all options, a reader of XML finds in the report the systems in the order they were given, with their titles (the file name if there is none) and files, and then, for the groups that are aligned and in their order, every column of their alignments: the file and channel of the last word of the column, the words of the column in order with begin and end time, confidence, speaker, system and text (an empty word where the alignment has none), filled up with empty words to the number of systems. For every title the last system with it is aligned, in the order of the titles. The upper limit of overlapping speakers has no effect. The report goes to stdout if that was asked for, otherwise to generic-report.xml in the output directory. Not guaranteed: that the k-th word of a column is of the k-th system; that two systems with one title are both aligned although both are listed; that anything is aligned when a lower limit of overlapping speakers is set; that the report is XML if a word has an ampersand; that the report is kept when the file cannot be opened.", "quantifier": "all lists of systems, groups of segments, options, aligners and alignments, output directories and file systems", "why_tests_cant": "The report must be readable for every text, time and confidence, for every number of systems and dimensions, and whatever the aligner returns.", "anchors": ["src/asclite/core/sgml_generic_reportgenerator.cpp: SGMLGenericReportGenerator::Generate", "src/asclite/core/recording.cpp: Recording::Load, Recording::AlignGeneric, Recording::GenerateReport", "src/asclite/core/graphalignedsegment.cpp: GetGraphAlignedToken"]}
{"id": "C116", "title": "The alignment log of asclite can be read back", "statement": "With log level 6 or 7 asclite writes an alignment log of comma separated lines. For all groups, segments, tokens, results and other messages, if the names and words contain no comma and no end of line, a reader that takes the lines marked [ALIGNMENT], the first of them as the heading and the fields of the others by the headings finds: with references, for every system in order every group (its tokens in the references on the left, in the hypotheses on the right, a segment without tokens once; the group listed a first time as NO if it was not aligned; groups that are a gap between segments without hypothesis not at all; groups without hypothesis with an empty segment), then every scored word with its group, file, channel, result and both tokens with segment, speaker, times, text, confidence and neighbours exact; without references, every group, then every column of its alignment with all its tokens in order, or the group again if it was not aligned. At level 7 nothing else is printed, below level 6 nothing of it. The log does not say which system a line belongs to.", "quantifier": "all systems, groups, segments, tokens and neighbours, results, choices of skipped groups, aligners, log levels, other messages in between", "why_tests_cant": "a test checks some logs of some runs; that every field of every line stands under its heading, for missing times, missing confidences, empty segments, any number of neighbours and of dimensions, is a statement about all runs", "anchors": ["src/asclite/core/token.cpp: Token::GetCSVInformation", "src/asclite/core/segmentsgroup.cpp: SegmentsGroup::LoggingAlignment", "src/asclite/core/graphalignedsegment.cpp: GraphAlignedSegment::LoggingAlignment", "src/asclite/core/stt_scorer.cpp: STTScorer::Score", "src/asclite/core/recording.cpp: Recording::AlignHypRef, Recording::AlignGeneric", "src/asclite/core/logger.cpp: Logger::log, LevelToString", "src/asclite/core/logger.h: isAlignLogON"]}
{"id": "C117", "title": "The command line of asclite says what is run", "statement": "For every sequence of well-formed asclite options, in any order and with any repetition, the run is either launched or refused, and which one is decided by the documented rules alone: it needs a hypothesis and, unless it scores without references, a reference whose format goes with that of every hypothesis, and the time-based cost needs an rttm reference. A launched run uses exactly the inputs, filters, reports, feedback level and properties the options say: the last value of a repeated setting, the documented default otherwise, every hypothesis in order, and user properties over all others. A run without references uses only the hypothesis side of the filters and only the standard output. A word that is not an option where one is expected, a setting without its value and a file option at the end of the line are refused. No word at all gives the help.", "quantifier": "all sequences of well-formed options, all values, all property names, all unknown words and their position", "why_tests_cant": "31 options that interact in any order, with optional words whose meaning depends on the next word; tests cover a few command lines.", "anchors": ["src/asclite/core/main.cpp: main", "src/asclite/core/properties.cpp: SetProperty, Initialize"]}
{"id": "C118", "title": "Only checked and filtered inputs are scored", "statement": "asclite scores inputs only after all requested checks found nothing: when the self-overlap check is on for a side, no speech of that side whose segments are listed by place and in order of time has two segments of the same file and channel with time in common; when the evaluation map is on for a side, exactly the segments the map keeps are scored, in the same order and with the same systems, and no reference segment outside the map is cut by one of its borders; sides that are not asked for are scored as read; the gaps added to the references are those of what is left; with the check of the speaker map, some pair of segments is related by it. Inputs without such faults are scored. Any fault ends the program before scoring.", "quantifier": "all references, systems, evaluation maps, choices of filters and sides, speaker maps and word times", "why_tests_cant": "The decision joins the errors of several filters over every speech of every system; tests exercise single filters on small files.", "anchors": ["src/asclite/core/recording.cpp: Recording::Filter", "src/asclite/core/spkrautooverlap.cpp: SpkrAutoOverlap::ProcessSingleSpeech", "src/asclite/core/uemfilter.cpp: UEMFilter"]}
{"id": "C119", "title": "The command line of sclite says what is aligned and reported", "statement": "For every sequence of well-formed sclite options, in any order and with any repetition and with up to 40 hypotheses, the run is either done or refused, and which one is decided by rules that speak of the options alone and of whether the files can be read and aligned: the formats of reference and hypotheses must be known and go together, two transcripts need an utterance id type, and options that exclude each other are refused. A run aligns every hypothesis, in order, with the method the formats call for and with the case, character, fragment, deletion, reduction, segmentation and weight arguments the options say, then writes for it exactly the reports and confidence analyses asked for, under the name and directory asked for or to the standard output, with the line width asked for, and passes the alignments on if asked. The last value of a repeated setting counts, the default otherwise. With piped alignments and no files, every alignment read is reported in the same way. An unknown option, an option without its value and a value that is not known (a file that looks like an option, an unknown encoding, conversion, side, character option or segmentation, a lexicon that is not there) are refused.", "quantifier": "all sequences of well-formed options, all values, file names, formats and titles, all words after the options, all sets of piped alignments, all outcomes of reading and aligning files", "why_tests_cant": "25 options that interact in any order, several with optional words, and a dozen pairwise exclusions; tests cover a few command lines.", "anchors": ["src/sclite/sclite.c: proc_args, main", "src/sclite/text.c: TEXT_set_encoding, TEXT_set_lang_prof"]}
{"id": "C120", "title": "The command line of rover says what is combined", "statement": "For every sequence of well-formed rover options, in any order and with any repetition and with up to 50 hypotheses, the run is done exactly if there are at least two hypotheses, all of one format, an output file and a method; otherwise it is refused. A run of ctm hypotheses makes the output file, for putative hits writes a first line from which the names of the inputs can be read back, opens the inputs in order, and combines exactly these, in order, with the last method, alpha and null confidence given (1 and 0 by default) and with times and case if asked. It fails, with nothing combined, at the first file that cannot be made or opened. Unknown options, unknown methods, missing values and option words in the place of a file are refused.", "quantifier": "all sequences of well-formed options, all values and file names, all words after the options, all sets of files that can be opened", "why_tests_cant": "Options interact in any order with optional words and repeated settings; tests cover a few command lines.", "anchors": ["src/sclite/rover.c: proc_args, main, mfalign_ctm_files_v1"]}
{"id": "C121", "title": "The command line of sc_stats says what is tested, drawn and reported", "statement": "For every sequence of well-formed sc_stats options, in any order and with any repetition, with -p among them, alignments that can be read and up to 40 alignment files: the run makes exactly the tests, then the unified report, the graphs and the reports asked for, in a fixed order, each with the description, output file, verbosity and line width asked for. The last value of a repeated setting counts, the default otherwise. Naming a test, graph or report switches it on or, if it was on, off; std4, none and -w start the choice again from a fixed set. Output goes to the name in the directory asked for, with an ending for each kind, or to the standard output. The run ends with status 1 before the reports exactly when a DET curve was to be made and could not be. With nothing asked for nothing is made. Alignments that cannot be read, no arguments, an unknown option and an option without its value are refused. A unified report needs a test or a graph.", "quantifier": "all sequences of well-formed options, all values and names, all words after the options, all outcomes of reading the alignments and making the DET curve", "why_tests_cant": "Options interact in any order, with choices that switch and reset; tests cover a few command lines.", "anchors": ["src/sclite/sc_stats.c: proc_arcs, main, run_multi_sys"]}
{"id": "C122", "title": "The labelled utterance report of a system shows the counters, percentages and statistics of every label", "statement": "For every system with up to 16 labels, every set of speakers and every table of counters: if the labelled utterance report of one system is printed, its lines are equally long and show, in this order: the system; every label with its description, line breaks in the label made blanks; the titles of the categories over runs of labels that stand in the same field; the labels, in their order; for every speaker and label the number of words in brackets and the percentage of errors rounded to tenths, the number of errors between stars if the speaker has errors and no words, and nothing if neither; for every label the number of words of all speakers and the percentage of their errors, then mean, standard deviation and median of words and percentages over the speakers with words, words cut to whole numbers and percentages rounded to tenths. A double bar stands exactly between labels of different fields. Mean and deviation are marked, and a note explains the marks, exactly if some speaker has errors and no words.", "quantifier": "all systems, labels, descriptions, categories, speakers and counters; every page width, every table printed before, every fair rounding of column widths, every sorting function that meets the contract of qsort", "why_tests_cant": "The table depends on all counters, all texts and the grouping of labels; tests compare a few printed reports.", "anchors": ["src/sclite/lur.c: create_report", "src/sclite/rpg.c: Desc_set_iterated_format, Desc_set_iterated_value, Desc_flush_iterated_row, Desc_rm_lf"]}
{"id": "C123", "title": "The labelled utterance report of several systems shows the totals and statistics of every system and label", "statement": "For every set of systems with the same labels, up to 16, and every table of counters: if the labelled utterance report of several systems is printed, its lines are equally long and show, in this order: the test; every label with its description, line breaks in the label made blanks; the titles of the categories over runs of labels that stand in the same field; the labels; then four parts, each with its name and a row for every system in their order. The first has for every label the number of words of all speakers and the percentage of their errors, the others mean, standard deviation and median of words and percentages over the speakers with words or errors, where a speaker without words counts with 0 percent. Words are cut to whole numbers, percentages are rounded to tenths. A double bar stands exactly between labels of different fields.", "quantifier": "all sets of systems, labels, descriptions, categories and counters; every page width, every table printed before, every fair rounding of column widths, every sorting function that meets the contract of qsort", "why_tests_cant": "The table depends on all counters of all systems, all texts and the grouping of labels; tests compare a few printed reports.", "anchors": ["src/sclite/lur.c: create_N_lur_report", "src/sclite/rpg.c: Desc_set_iterated_format, Desc_set_iterated_value, Desc_flush_iterated_row, Desc_rm_lf"]}
{"id": "C124", "title": "The text filter rewrites every line of its input by itself", "statement": "For every rule file that is accepted and every input without zero bytes whose lines are shorter than 100000 bytes, newline included, and leave room for the left contexts of the rules: the output of rfilter1 is the rewriting of its lines by the rules, one after the other; a last line without a newline is rewritten too. If a rewritten line has 100000 bytes or more, the run is undefined. For every input whatever its lines and bytes, the output for what follows a newline does not depend on what is before it. An input without zero bytes in which the left hand side of no rule occurs is copied when unmatched characters are, whatever the length of its lines. Without a rule file name, or with rules in error, nothing of the input is written.", "quantifier": "all rule sets, switches and input files of any number of lines", "why_tests_cant": "The records of the reading loop depend on the lengths of all lines; tests filter short lines.", "anchors": ["src/rfilter1/rfilter1.c: main", "src/rfilter1/aprules2.c: apply_rules2"]}
