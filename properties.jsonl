{"id": "C01", "title": "levenshtein_distance is the edit distance", "statement": "levenshtein_distance(A, B) returns the minimum number of single-character insertions, deletions and substitutions that turn A into B.", "quantifier": "all pairs of strings, of any length and any content", "why_tests_cant": "The set of string pairs is infinite; the shortcuts (common affix trimming, one-letter remainder) are only exercised by specific alignments of repeated letters.", "anchors": ["cfog/metrics/levenshtein.pyx:levenshtein_distance"]}
{"id": "C02", "title": "limited_levenshtein_distance is the edit distance capped at max_distance + 1", "statement": "limited_levenshtein_distance(max_distance, A, B) returns the edit distance of A and B when it is at most max_distance and max_distance + 1 otherwise.", "quantifier": "all max_distance >= 0 and all pairs of strings", "why_tests_cant": "The banded dynamic program with its early exits is only right if every cell that a cheap alignment can visit is computed exactly; that is an invariant over all rows, bands and inputs.", "anchors": ["cfog/metrics/levenshtein.pyx:limited_levenshtein_distance"]}
{"id": "C03", "title": "levenshtein_distance_lte1 decides 'at most one edit'", "statement": "levenshtein_distance_lte1(A, B) is True exactly when A can be turned into B by at most one insertion, deletion or substitution, and it is symmetric.", "quantifier": "all pairs of strings", "why_tests_cant": "Greedy single-mismatch scanning has to be right for every position of the edit and every repetition pattern.", "anchors": ["cfog/metrics/levenshtein.pyx:levenshtein_distance_lte1"]}
{"id": "C04", "title": "damerau_levenshtein_distance_lte1 decides 'at most one edit or adjacent transposition'", "statement": "damerau_levenshtein_distance_lte1(A, B) is True exactly when A can be turned into B by at most one insertion, deletion, substitution or swap of two adjacent characters.", "quantifier": "all pairs of strings", "why_tests_cant": "Same as C03 with overlapping repeated letters around the swap.", "anchors": ["cfog/metrics/levenshtein.pyx:damerau_levenshtein_distance_lte1"]}
{"id": "C05", "title": "levenshtein_1d_keys never misses a pair at distance one", "statement": "If A and B are at Levenshtein distance at most 1 then levenshtein_1d_keys(A) and levenshtein_1d_keys(B) have a key in common; with transpositions=True the same holds for Damerau-Levenshtein distance at most 1.", "quantifier": "all pairs of strings and every flag character", "why_tests_cant": "A missing key only shows for a precise edit position in a precise repetition pattern; recall over all strings cannot be sampled.", "anchors": ["fog/key/levenshtein.py:levenshtein_1d_keys", "fog/key/levenshtein.py:damerau_levenshtein_1d_keys"]}
{"id": "C06", "title": "levenshtein_1d_keys collisions imply distance at most one", "statement": "If levenshtein_1d_keys(A) and levenshtein_1d_keys(B) share a key, and the flag character occurs in neither string, then A and B are at Levenshtein distance at most 1 (Damerau-Levenshtein with transpositions=True); at most 2n+2 keys are emitted for a string of length n (with transpositions, 2n+2+max(n-1,0), that is 3n+1 for a non-empty string).", "quantifier": "all pairs of strings not containing the flag", "why_tests_cant": "Absence of false collisions is a statement about all pairs of strings.", "anchors": ["fog/key/levenshtein.py:levenshtein_1d_keys", "fog/key/levenshtein.py:damerau_levenshtein_1d_keys"]}
{"id": "C07", "title": "levenshtein_1d_blocks never misses a pair at distance one", "statement": "If A and B are at Levenshtein distance at most 1 they share at least one block of levenshtein_1d_blocks; with transpositions=True on both sides the same holds for one adjacent swap; at most four blocks are produced.", "quantifier": "all pairs of strings and every flag", "why_tests_cant": "Depends on parity of both lengths and on the position of the edit relative to both middles.", "anchors": ["fog/key/levenshtein.py:levenshtein_1d_blocks", "fog/key/levenshtein.py:damerau_levenshtein_1d_blocks"]}
{"id": "C08", "title": "levenshtein_2d_blocks never misses a pair at distance two", "statement": "If A and B are at Levenshtein distance at most 2 they share at least one block of levenshtein_2d_blocks; with transpositions=True the same holds for Damerau-Levenshtein distance at most 2; the function is defined on every string.", "quantifier": "all pairs of strings and both values of transpositions", "why_tests_cant": "Recall depends on the residues modulo 3 of both lengths and on positions of both edits.", "anchors": ["fog/key/levenshtein.py:levenshtein_2d_blocks", "fog/key/levenshtein.py:damerau_levenshtein_2d_blocks"]}
{"id": "C09", "title": "PassJoin compares every pair within distance k", "statement": "passjoin's candidate generation has full recall: for every two strings of the data at Levenshtein distance at most k, the pair is generated and verified, whichever of the two is read first and whether or not data is sorted; every emitted pair is within distance k.", "quantifier": "all data lists, all k >= 0, sort=True and sort=False, both reading orders", "why_tests_cant": "Signature schemes fail on rare alignments; the completeness argument needs a pigeonhole over all segmentations.", "anchors": ["fog/clustering/passjoin.py:passjoin", "fog/clustering/passjoin.py:multi_match_aware_interval", "fog/clustering/passjoin.py:multi_match_aware_substrings"]}
{"id": "C10", "title": "passjoin clusters are the connected components of 'distance at most k'", "statement": "passjoin(data, k) in its default mode returns exactly the connected components (within the size bounds) of the graph linking the distinct strings of data at Levenshtein distance at most k; the result does not depend on sort.", "quantifier": "all data lists, all k >= 0, all size bounds with min_size >= 2", "why_tests_cant": "Equality with an exhaustive comparison must hold for every data set.", "anchors": ["fog/clustering/passjoin.py:passjoin", "fog/clustering/utils.py:clusters_from_pairs"]}
{"id": "C11", "title": "PassJoin segmentation tiles the string", "statement": "segments(k, s) cuts s into exactly k+1 consecutive pieces whose concatenation is s and whose lengths differ by at most one, shorter pieces first; partition(k, l) gives their index, start and length; the number of substrings selected for a length is at most the announced count_substrings_l(k, s, l).", "quantifier": "all strings, all k >= 0, all lengths (including strings shorter than k+1)", "why_tests_cant": "Arithmetic over all lengths and thresholds.", "anchors": ["fog/clustering/passjoin.py:partition", "fog/clustering/passjoin.py:segments", "fog/clustering/passjoin.py:count_substrings_l"]}
{"id": "C12", "title": "clusters_from_pairs returns connected components", "statement": "clusters_from_pairs(pairs, mode='connected_components') yields pairwise disjoint duplicate-free clusters, each being exactly one connected component of the graph of the pairs, and yields every component whose size lies between min_size and max_size exactly once, whatever the iteration order of the internal sets.", "quantifier": "all pair streams (with repetitions, self pairs, any orientation), fuzzy or not, all size bounds", "why_tests_cant": "Graph traversal correctness over all graphs and all set iteration orders.", "anchors": ["fog/clustering/utils.py:clusters_from_pairs"]}
{"id": "C13", "title": "clusters_from_pairs fuzzy mode returns covering stars", "statement": "clusters_from_pairs(pairs, mode='fuzzy_clusters') yields clusters made of an item followed by all of its direct neighbours; no item heads two clusters; without size bounds every item of the pairs belongs to some cluster; with fuzzy=True no cluster lists an item twice. An unknown mode raises TypeError.", "quantifier": "all pair streams and size bounds", "why_tests_cant": "All graphs and iteration orders.", "anchors": ["fog/clustering/utils.py:clusters_from_pairs"]}
{"id": "C14", "title": "Chunked upper triangle covers each pair once", "statement": "upper_triangular_matrix_chunk_iter(data, chunk_size) yields blocks such that comparing i < j on diagonal blocks and all cells on the other ones enumerates each unordered pair of distinct positions exactly once.", "quantifier": "all data lengths and all chunk sizes >= 1", "why_tests_cant": "Boundary arithmetic over all lengths and chunk sizes, including non-divisible ones.", "anchors": ["fog/clustering/utils.py:upper_triangular_matrix_chunk_iter", "fog/clustering/pairwise.py:pairwise_worker"]}
{"id": "C15", "title": "pairwise connected components are exact and schedule independent", "statement": "pairwise(data, mode='connected_components') returns the connected components of the graph of similar items within the size bounds, and the result with several processes is the same set of clusters for every order in which the worker results arrive and every chunk size.", "quantifier": "all data, all symmetric similarity predicates, all chunk sizes, all completion orders", "why_tests_cant": "The completion order of imap_unordered cannot be enumerated by tests.", "anchors": ["fog/clustering/pairwise.py:pairwise_connected_components"]}
{"id": "C16", "title": "pairwise leader clusters", "statement": "pairwise(data, mode='leader') yields disjoint clusters in which every member is similar to the first one, leaders are not similar to each other's unassigned items, and every item belongs to exactly one (possibly filtered) cluster, for any size bounds.", "quantifier": "all data, similarity predicates and size bounds", "why_tests_cant": "Greedy behaviour over all data orders.", "anchors": ["fog/clustering/pairwise.py:pairwise_leader"]}
{"id": "C17", "title": "pairwise fuzzy clusters", "statement": "pairwise(data, mode='fuzzy_clusters') yields clusters in which every member is similar to the first one, covers every item having at least one similar item, and gives the same clusters whatever the number of processes.", "quantifier": "all data, similarity predicates, chunk sizes and worker completion orders", "why_tests_cant": "Depends on the order in which edges are inserted, hence on the schedule.", "anchors": ["fog/clustering/pairwise.py:pairwise_fuzzy_clusters"]}
{"id": "C18", "title": "blocking compares exactly the pairs sharing a block", "statement": "blocking(data, ...) links two items if and only if they share a block and are similar; its connected-component clusters are the components of that graph and do not depend on the number of processes nor on the order of worker results.", "quantifier": "all data, block/blocks functions, similarity predicates and completion orders", "why_tests_cant": "All schedules and all block structures.", "anchors": ["fog/clustering/blocking.py:blocking", "fog/clustering/blocking.py:block_worker"]}
{"id": "C19", "title": "key_collision groups items by key", "statement": "key_collision(data, key=f) yields exactly the groups of items having the same truthy key whose size is within the bounds, each item once, in data order; with keys=f and merge=True the clusters are the connected components of the relation 'sharing a key', within the size bounds.", "quantifier": "all data, key functions and size bounds", "why_tests_cant": "All key functions and collision structures.", "anchors": ["fog/clustering/key_collision.py:key_collision", "fog/clustering/utils.py:clusters_from_buckets"]}
{"id": "C20", "title": "intersection_index is exact", "statement": "intersection_index(data, radius, metric) links two items exactly when their token sets intersect and their jaccard (or overlap) similarity is at least radius; for radius > 0 this is exactly the set of pairs with similarity >= radius.", "quantifier": "all data, tokenizers and positive radii", "why_tests_cant": "Exactness of an inverted-index join is a statement about all token sets.", "anchors": ["fog/clustering/intersection_index.py:intersection_index"]}
{"id": "C21", "title": "sorted_neighborhood compares exactly the pairs within the window", "statement": "sorted_neighborhood links two items iff they are similar and at most window-1 positions apart in one of the sorted orders; with a window at least as large as the data it gives the same clusters as an exhaustive comparison; several keys accumulate their links.", "quantifier": "all data, keys, windows and similarity predicates", "why_tests_cant": "All sort orders and window positions.", "anchors": ["fog/clustering/sorted_neighborhood.py:sorted_neighborhood"]}
{"id": "C22", "title": "adaptive_sorted_neighborhood tiles the sorted records", "statement": "adaptive_sorted_neighborhood terminates without error and partitions the sorted records into consecutive adjacent windows that cover every record exactly once; every link is between similar records.", "quantifier": "all data, windows >= 2 and similarity predicates", "why_tests_cant": "Window enlargement/retrenchment interacts with the end of the data for every data length.", "anchors": ["fog/clustering/sorted_neighborhood.py:adaptive_sorted_neighborhood", "fog/clustering/sorted_neighborhood.py:full_AA_SNM"]}
{"id": "C23", "title": "quickjoin is exact for a true metric", "statement": "For a symmetric distance satisfying the triangle inequality, quickjoin returns the same connected components as an exhaustive comparison at the same radius, for every random choice of pivots; it terminates on every data set; the same holds when a similarity is given.", "quantifier": "all data, metrics, radii, block sizes and random pivot choices, all worker completion orders", "why_tests_cant": "Random pivots and recursive partitions cannot be enumerated.", "anchors": ["fog/clustering/quickjoin.py:quickjoin", "fog/clustering/quickjoin.py:QuickJoin", "fog/clustering/quickjoin.py:partition"]}
{"id": "C24", "title": "ppjoin(all_pairs=True) is exact", "statement": "ppjoin(..., all_pairs=True) yields every pair of records whose similarity reaches the threshold, each once, and no pair whose similarity is below the threshold by more than the documented epsilon.", "quantifier": "all collections of records, thresholds in (0, 1], jaccard and dice metrics, all token orderings", "why_tests_cant": "Prefix filtering is only correct if no qualifying pair is filtered for any record lengths.", "anchors": ["fog/clustering/ppjoin.py:ppjoin", "fog/clustering/ppjoin.py:JaccardHelper", "fog/clustering/ppjoin.py:DiceHelper"]}
{"id": "C25", "title": "ppjoin default and plus modes agree with all_pairs", "statement": "ppjoin in default and plus mode yields the same pairs as the exhaustive comparison; compute_overlap returns the size of the intersection of two sorted records or -1 when the required overlap cannot be reached; ppjoin accepts already tokenized records.", "quantifier": "all collections of records and thresholds", "why_tests_cant": "Positional filtering bounds hold or fail only for specific lengths.", "anchors": ["fog/clustering/ppjoin.py:ppjoin", "fog/clustering/ppjoin.py:compute_overlap", "fog/clustering/ppjoin.py:suffix_filter"]}
{"id": "C26", "title": "minhash clustering is sound and total", "statement": "Every cluster of the minhash clustering is linked by pairs that share a full band of their signatures and, when double checked, have jaccard similarity >= radius; two items with identical token sets always fall in the same bucket; the function is defined for every h >= 1 and radius in (0, 1).", "quantifier": "all data, hash functions, h and radius values", "why_tests_cant": "The number of bands is derived from h and radius; degenerate combinations are rare.", "anchors": ["fog/clustering/minhash.py:minhash", "fog/clustering/minhash.py:guess_bands"]}
{"id": "C27", "title": "MinHash signatures depend only on the token set", "statement": "MinHash.create_signature returns h values that depend only on the set of tokens (not on order or repetition), lie between 0 and 2^32-1, and the signature of a union of non-empty sets is the pointwise minimum of signatures; minhash_similarity is symmetric, in [0, 1] and 1 on equal signatures.", "quantifier": "all token lists, seeds and hash functions", "why_tests_cant": "Set semantics quantifies over all permutations and repetitions.", "anchors": ["fog/lsh/minhash.py:MinHash", "fog/lsh/minhash.py:minhash_similarity"]}
{"id": "C28", "title": "Bit counting is right on all words", "statement": "popcount64, popcount32 and popcount16 return the number of bits set for every word of the corresponding width; the LSB minhash and simhash distances built on them count the differing bits.", "quantifier": "all integers below 2^64 (resp. 2^32, 2^16)", "why_tests_cant": "2^64 inputs.", "anchors": ["fog/lsh/utils.py:popcount64", "fog/lsh/utils.py:popcount32", "fog/lsh/utils.py:popcount16", "fog/lsh/minhash.py:LSBMinHash"]}
{"id": "C29", "title": "simhash is a function of the token multiset", "statement": "simhash(tokens, f) does not depend on the order of tokens, lies in [0, 2^f), and for accepted f the i-th bit is set iff a strict majority of the token hashes have that bit set; simhash_distance is a metric on signatures; simhash is defined on every f it accepts.", "quantifier": "all token lists and all accepted f", "why_tests_cant": "All permutations and hash values.", "anchors": ["fog/lsh/simhash.py:simhash", "fog/lsh/simhash.py:simhash_distance", "fog/lsh/utils.py:is_power_of_two"]}
{"id": "C30", "title": "SuperMinHash signatures depend only on the token set", "statement": "SuperMinHash.create_signature returns the same signature for every order of the tokens and its early termination never changes the result; the values lie between 0 and the signature length.", "quantifier": "all token lists, signature lengths and pseudo-random streams", "why_tests_cant": "The early termination bound is a histogram invariant over all random draws.", "anchors": ["fog/lsh/minhash.py:SuperMinHash"]}
{"id": "C31", "title": "Set similarities obey their definitions", "statement": "jaccard_similarity, dice_coefficient and overlap_coefficient equal |A&B|/|A|B|, 2|A&B|/(|A|+|B|) and |A&B|/min(|A|,|B|) on the sets of their arguments; they are symmetric, in [0, 1], and jaccard and dice equal 1 only for equal sets.", "quantifier": "all pairs of finite collections, including empty ones and equal ones passed as distinct objects", "why_tests_cant": "Infinite domain, and equal-but-not-identical objects take another code path.", "anchors": ["fog/metrics/jaccard.py:jaccard_similarity", "fog/metrics/dice.py:dice_coefficient", "fog/metrics/overlap.py:overlap_coefficient", "fog/metrics/utils.py:intersection_size"]}
{"id": "C32", "title": "weighted_jaccard_similarity is sum of minima over sum of maxima", "statement": "weighted_jaccard_similarity(A, B) equals the sum over keys of min weights divided by the sum over keys of max weights (missing keys weigh 0); it is symmetric and in [0, 1].", "quantifier": "all pairs of dictionaries with non-negative weights", "why_tests_cant": "Case analysis over the three key regions and the size-based swap.", "anchors": ["fog/metrics/jaccard.py:weighted_jaccard_similarity"]}
{"id": "C33", "title": "cosine similarities are symmetric and bounded", "statement": "sparse_cosine_similarity and binary_cosine_similarity equal dot(A,B)/(|A||B|) on the vectors of their arguments, are symmetric and lie in [-1, 1] ([0, 1] for non-negative weights).", "quantifier": "all pairs of sparse vectors with rational or real weights", "why_tests_cant": "Cauchy-Schwarz over all vectors.", "anchors": ["fog/metrics/cosine.py:sparse_cosine_similarity", "fog/metrics/cosine.py:binary_cosine_similarity", "fog/metrics/cosine.py:sparse_dot_product"]}
{"id": "C34", "title": "OnlineMean tracks the mean of the current multiset", "statement": "After any sequence of add, subtract and merge operations, peek() of an OnlineMean is the arithmetic mean of the values added and not subtracted; subtract undoes add; reading or subtracting from an empty mean raises.", "quantifier": "all operation histories", "why_tests_cant": "All histories.", "anchors": ["fog/utils.py:OnlineMean"]}
{"id": "C35", "title": "squeeze removes exactly the consecutive repetitions", "statement": "squeeze(s) is s with every maximal run of a repeated character reduced to one occurrence: no two adjacent characters of the result are equal, squeezing twice changes nothing, and with keep_roman the letters I, X, C, M keep their runs.", "quantifier": "all strings", "why_tests_cant": "All strings, including line breaks.", "anchors": ["fog/utils.py:squeeze"]}
{"id": "C36", "title": "ngrams covers the sequence and join_ngrams inverts it", "statement": "ngrams(n, s) yields max(1, len(s)-n+1) windows: all the contiguous slices of length n in order, or s itself when it is shorter than n; join_ngrams(ngrams(n, s)) == s.", "quantifier": "all sequences and all n >= 1", "why_tests_cant": "All sizes.", "anchors": ["fog/tokenizers/ngrams.py:ngrams", "fog/tokenizers/ngrams.py:join_ngrams"]}
{"id": "C37", "title": "ngram_keys emits the joins of all large enough gram subsequences", "statement": "ngram_keys(n, s, threshold) emits exactly the joins of the subsequences of the n-grams of s having at least max(1, floor(k*threshold)) grams, largest first; two strings whose gram sequences have a common subsequence of a size admissible for both share a key.", "quantifier": "all strings, n >= 1 and thresholds in [0, 1]", "why_tests_cant": "Combinatorial enumeration over all sizes.", "anchors": ["fog/key/misc.py:ngram_keys"]}
{"id": "C38", "title": "omission_key and skeleton_key normal forms", "statement": "omission_key is the duplicate-free list of the consonants present in the string, in the fixed rarity order, followed by its vowels in order of first appearance; skeleton_key is the first letter, the other consonants then the other vowels in order of first appearance; both are idempotent and ignore repetitions.", "quantifier": "all strings, for any transliteration function", "why_tests_cant": "All letter arrangements.", "anchors": ["fog/key/omission.py:omission_key", "fog/key/skeleton.py:skeleton_key"]}
{"id": "C39", "title": "fingerprint keys ignore token order, repetition and case", "statement": "The fingerprint tokenizer returns the strictly sorted duplicate-free tokens of the normalized string; hence fingerprint is invariant under reordering and repetition of tokens, under case changes, and is idempotent.", "quantifier": "all strings and option combinations", "why_tests_cant": "All permutations of tokens.", "anchors": ["fog/tokenizers/fingerprint.py:FingerprintTokenizer", "fog/key/fingerprint.py:fingerprint"]}
{"id": "C40", "title": "cologne codes are well formed", "statement": "cologne(name) is defined on every string, contains only the digits 0-8, has a 0 only as first character, contains no two equal adjacent codes produced by adjacent letters, and does not depend on letter case or on characters outside A-Z.", "quantifier": "all strings", "why_tests_cant": "All letter contexts.", "anchors": ["fog/phonetics/cologne.py:cologne"]}
{"id": "C41", "title": "rusalka is defined on every name", "statement": "rusalka(name) returns a code for every string; the code contains no vowel except possibly a leading a.", "quantifier": "all strings", "why_tests_cant": "Rewriting rules can empty the word for rare inputs.", "anchors": ["fog/phonetics/rusalka.py:rusalka"]}
{"id": "C42", "title": "best_matching_macro_average is a bounded score", "statement": "best_matching_macro_average raises TypeError exactly on its documented invalid inputs, otherwise returns precision, recall and F-score in [0, 1]; scores are 1 when predicted equals truth, and do not depend on cluster labels nor on the order of items inside clusters.", "quantifier": "all truth/predicted clusterings", "why_tests_cant": "All pairs of clusterings.", "anchors": ["fog/evaluation/best_matching.py:best_matching_macro_average"]}
{"id": "C43", "title": "labels and clusters round trip", "statement": "labels_to_clusters groups exactly the items having the same label, in order; clusters_to_labels gives every item the index of its cluster; composing them preserves the partition.", "quantifier": "all label lists, label maps and clusterings", "why_tests_cant": "All partitions.", "anchors": ["fog/evaluation/utils.py:labels_to_clusters", "fog/evaluation/utils.py:clusters_to_labels"]}
{"id": "C44", "title": "component_sizes returns the sizes of the components", "statement": "component_sizes(graph, edge_filter) returns exactly the sizes of the connected components of the graph restricted to the accepted edges, in decreasing order; they sum to the number of nodes; second_largest_component_size is the second entry.", "quantifier": "all graphs and edge filters", "why_tests_cant": "All graphs.", "anchors": ["fog/graph/utils.py:component_sizes", "fog/graph/utils.py:second_largest_component_size"]}
{"id": "C45", "title": "floatsam_sparsification stops at the right threshold", "statement": "floatsam_sparsification terminates and returns the last tested threshold before the second largest component reaches max_drifter_size; with remove_edges it removes exactly the edges lighter than the returned threshold.", "quantifier": "all weighted graphs, learning rates > 0 and drifter sizes", "why_tests_cant": "Termination over all graphs.", "anchors": ["fog/graph/sparsification.py:floatsam_sparsification"]}
{"id": "C46", "title": "monopartite_projection: the topology walk equals the quadratic scan", "statement": "monopartite_projection gives the same edges and weights with use_topology=True and False: exactly the pairs of nodes of the kept part whose similarity is non null and at least the threshold, for every metric.", "quantifier": "all bipartite graphs, metrics and thresholds", "why_tests_cant": "All graphs.", "anchors": ["fog/graph/projection.py:monopartite_projection"]}
{"id": "C47", "title": "hashjoin yields exactly the pairs sharing a key", "statement": "hashjoin(left, right, key) yields exactly the (l, r) pairs with the same key, l always from left; with keys, one pair per shared key; whichever side is larger and for any iterables.", "quantifier": "all left/right iterables and key functions", "why_tests_cant": "All collections; one-shot iterables behave differently from lists.", "anchors": ["fog/join/hashjoin.py:hashjoin"]}
{"id": "C48", "title": "The word tokenizer makes progress and keeps the text order", "statement": "WordTokenizer terminates on every string; its tokens are non-empty pieces of the input appearing in order, and no alphanumeric character of the input is lost.", "quantifier": "all strings", "why_tests_cant": "All character contexts.", "anchors": ["fog/tokenizers/words.py:WordTokenizer"]}
{"id": "C49", "title": "split_hashtag is a lossless segmentation", "statement": "The pieces yielded by split_hashtag are non-empty and their concatenation is the hashtag without its leading mark.", "quantifier": "all strings of length at least two", "why_tests_cant": "All case/digit patterns.", "anchors": ["fog/tokenizers/words.py:split_hashtag"]}
{"id": "C50", "title": "Tokenizer filters", "statement": "With keep/drop, min_word_length, max_word_length and stoplist options, WordTokenizer returns exactly the unfiltered tokens that satisfy all the requested conditions, in the same order; contradictory options are rejected.", "quantifier": "all strings and option combinations", "why_tests_cant": "All combinations.", "anchors": ["fog/tokenizers/words.py:WordTokenizer"]}
{"id": "C51", "title": "CLI split and transform keep the table rectangular", "statement": "The split command writes for each cell value one row with the other columns unchanged, and all rows have the width of the header; the transform command rewrites or appends exactly one column.", "quantifier": "all CSV tables, separators and options", "why_tests_cant": "All tables.", "anchors": ["fog/cli/split.py:split_action", "fog/cli/transform.py:transform_action"]}
{"id": "C52", "title": "TOML report strings can be read back", "statement": "Every string written in the TOML clustering report parses back, as a TOML basic string, to the original value.", "quantifier": "all cell values", "why_tests_cant": "All strings.", "anchors": ["fog/cli/reporting/toml.py:escape_string"]}
{"id": "C53", "title": "nn_descent only links similar items", "statement": "Every pair linked by nn_descent has similarity at least radius, links distinct positions, neighbour lists keep at most k entries whose worst similarity never decreases, for every random choice.", "quantifier": "all data, similarity functions, random choices and set iteration orders", "why_tests_cant": "Randomised.", "anchors": ["fog/clustering/nn_descent.py:nn_descent"]}
{"id": "C54", "title": "vp_tree clusters are balls", "statement": "vp_tree clustering yields, given an exact radius query, clusters made of one item and all the items within radius, covering every item whose ball has an admissible size (with the default bounds: every item that has a neighbour).", "quantifier": "all data, distances and size bounds", "why_tests_cant": "All data.", "anchors": ["fog/clustering/vp_tree.py:vp_tree"]}
{"id": "C55", "title": "naive_cosine_pairs enumerates each intersecting pair once", "statement": "naive_cosine_pairs yields each unordered pair of distinct vectors sharing a dimension exactly once.", "quantifier": "all collections of sparse vectors", "why_tests_cant": "All inverted indices.", "anchors": ["fog/clustering/fagin.py:naive_cosine_pairs"]}
{"id": "C56", "title": "laesa links exactly the pairs within radius", "statement": "laesa clustering links two items iff their distance is at most radius, for every choice of pivots.", "quantifier": "all data, metrics, radii and random choices", "why_tests_cant": "Pivot-based elimination bounds must hold for all metrics.", "anchors": ["fog/clustering/laesa.py:laesa"]}
{"id": "C57", "title": "levenshtein_distance never overestimates and is off by at most one", "statement": "For strings of the basic multilingual plane, levenshtein_distance(A, B) is at most the edit distance and at least the edit distance minus one; it is the edit distance when no letter is repeated in A nor in B; it is symmetric for strings of different lengths.", "quantifier": "all pairs of strings without code points over U+FFFF", "why_tests_cant": "The error of the one-letter shortcut depends on an unbounded context; only a proof bounds it for every pair.", "anchors": ["cfog/metrics/levenshtein.pyx:levenshtein_distance"]}
{"id": "C58", "title": "levenshtein_1d_keys collisions, exactly", "statement": "Without transpositions, two strings that do not contain the flag share a key of levenshtein_1d_keys if and only if they are at Levenshtein distance at most 1 and neither is obtained from the other by inserting a different letter inside a doubled letter.", "quantifier": "all pairs of strings not containing the flag", "why_tests_cant": "An equivalence over all pairs of strings; the missed pairs need a doubled letter at the edit position.", "anchors": ["fog/key/levenshtein.py:levenshtein_1d_keys"]}
{"id": "C59", "title": "key_collision with several keys, exactly", "statement": "key_collision(data, keys=f) with merge=True yields the connected components with at least two items of the relation 'sharing a truthy key', whatever min_size and max_size are; with merge=False, when no item repeats a key, it yields one group per truthy key, containing in data order the items having that key, keeping the groups whose size is within the bounds.", "quantifier": "all data, key functions, size bounds and iteration orders of sets", "why_tests_cant": "Quantifies over every data set and every order in which a set may be iterated.", "anchors": ["fog/clustering/key_collision.py:key_collision"]}
{"id": "C60", "title": "full_AA_SNM: tiling or IndexError", "statement": "For a window of at least 2, full_AA_SNM always stops: either its windows list all the positions of the sorted records in order, or it raises IndexError, and in that case two similar records stand at positions first < last with last + (last - f) beyond the end for some f <= first; when it returns, the links are exactly the similar pairs of records of a common window.", "quantifier": "all lists of records, similarities and windows >= 2", "why_tests_cant": "The loops depend on the whole pattern of similarities; the failure needs similar records near the end.", "anchors": ["fog/clustering/sorted_neighborhood.py:full_AA_SNM", "fog/clustering/sorted_neighborhood.py:adaptive_sorted_neighborhood"]}
{"id": "C61", "title": "squeeze reduces every run but those it keeps", "statement": "squeeze(s) reduces every maximal run of s to one occurrence and leaves the order of the runs, except the runs of line breaks (default mode) or of the letters I, X, C, M in both cases (keep_roman_numerals), which are left as they are; two equal adjacent characters of the result are always such a kept character.", "quantifier": "all strings, both modes", "why_tests_cant": "All run structures, including line breaks.", "anchors": ["fog/utils.py:squeeze"]}
{"id": "C62", "title": "when fingerprints ignore case, order, repetition, and are idempotent", "statement": "The fingerprint is unchanged by case variants when the splitting characters do not tell them apart, by reordering and repeating the space separated words when no stopword has a space, and is idempotent without stopwords nor minimum token size when no letter or digit splits. The n-gram fingerprint is the strictly sorted set of the n-grams of the normalized string without whitespace.", "quantifier": "all strings, word lists and options satisfying the stated conditions, all character classes and transliterations satisfying the stated laws", "why_tests_cant": "All permutations, all option combinations.", "anchors": ["fog/tokenizers/fingerprint.py:FingerprintTokenizer", "fog/tokenizers/fingerprint.py:NgramsFingerprintTokenizer"]}
{"id": "C63", "title": "exact form of the Cologne codes", "statement": "cologne(name) is the code of the first coded letter followed by the codes of the other letters with one digit per run and without zeros, where the code of a letter is given by the Cologne table from its two neighbours.", "quantifier": "all strings", "why_tests_cant": "All letter contexts.", "anchors": ["fog/phonetics/cologne.py:cologne"]}
{"id": "C64", "title": "where rusalka is defined and what its codes look like", "statement": "rusalka(name) raises IndexError exactly when the letters of the name are at least two and all silent (h's, maybe before a final ij or iy); otherwise a name of at least two letters gets a non-empty code without c, g, h, v, w, and without vowel except a leading a.", "quantifier": "all strings", "why_tests_cant": "Interaction of ten rewriting rules.", "anchors": ["fog/phonetics/rusalka.py:rusalka"]}
{"id": "C65", "title": "best_matching_macro_average: exact value", "statement": "On valid inputs the three scores are the averages over the truth clusters of the precision, recall and F1 of a predicted cluster of maximal F1, where predicted items out of the truth are not counted; they are in [0, 1] when no truth cluster repeats an item; the F-score is 1 iff every truth cluster is a predicted one (ignoring additional items), and does not depend on the order of items or clusters.", "quantifier": "all truth/predicted clusterings", "why_tests_cant": "All pairs of clusterings; ties between predicted clusters.", "anchors": ["fog/evaluation/best_matching.py:best_matching_macro_average"]}
{"id": "C66", "title": "component_sizes explores node after node", "statement": "For any edge filter, even one that depends on the direction, component_sizes terminates and each size counts the nodes reachable over accepted edges from one root and not reached before; every node is counted once. second_largest_component_size is the second largest of these sizes whatever their order, None below two.", "quantifier": "all undirected graphs and edge filters", "why_tests_cant": "All graphs and filters; the walk is a loop over a stack.", "anchors": ["fog/graph/utils.py:component_sizes", "fog/graph/utils.py:second_largest_component_size"]}
{"id": "C67", "title": "floatsam_sparsification stops exactly when a tested threshold drifts", "statement": "floatsam_sparsification stops if and only if some tested threshold start + k*rate (k >= 1) leaves two components of max_drifter_size nodes; it always does for drifters of at most one node, and never does with less than twice max_drifter_size nodes or, for drifters of two nodes, when one node touches every edge. Without edges the starting threshold comes back.", "quantifier": "all weighted undirected graphs, starting thresholds, rates and drifter sizes", "why_tests_cant": "Termination and non-termination over all graphs.", "anchors": ["fog/graph/sparsification.py:floatsam_sparsification"]}
{"id": "C68", "title": "monopartite_projection is exact when no vector is null", "statement": "On a bipartite graph both modes return the nodes of the kept part and exactly the retained pairs, each once, with the textbook similarity; the topology mode needs, for cosine only, that no kept node has only null weights. The quadratic mode does so on any graph. The bipartition check raises TypeError exactly on graphs which are not bipartite.", "quantifier": "all undirected graphs, the six metrics and all thresholds", "why_tests_cant": "All graphs, metrics and thresholds.", "anchors": ["fog/graph/projection.py:monopartite_projection", "fog/graph/projection.py:compute_metric"]}
{"id": "C69", "title": "hashjoin yields each pair sharing a key once", "statement": "With keys, hashjoin yields exactly the (l, r) pairs sharing at least one key, once per pair of positions, l from left, whichever side is larger, when right can be iterated again. When right is an iterator only the first left item is joined. With both key and keys the two joins follow each other.", "quantifier": "all left/right iterables and key functions", "why_tests_cant": "All collections and all kinds of iterables.", "anchors": ["fog/join/hashjoin.py:hashjoin"]}
{"id": "C70", "title": "When the word tokenizer loses nothing", "statement": "If no uppercase letter of the string is directly followed by a point, the alphanumeric characters of the tokens are exactly those of the string, in order; and if -t- does not occur in it, every token is non-empty.", "quantifier": "all strings, all emoji matchers, with and without hashtag splitting", "why_tests_cant": "All character contexts.", "anchors": ["fog/tokenizers/words.py:WordTokenizer", "fog/tokenizers/words.py:punct_emoji_iter"]}
{"id": "C71", "title": "reduce_lenghtening cuts runs of letters", "statement": "reduce_lenghtening replaces every maximal run of at least five equal letters by three of them and changes nothing else; it is idempotent.", "quantifier": "all strings", "why_tests_cant": "All run lengths.", "anchors": ["fog/tokenizers/words.py:reduce_lenghtening"]}
{"id": "C72", "title": "What split writes with a target column", "statement": "With a target column, the k-th row written for a line is the line followed by its first k values, an empty cell leaves the line as it is, and the output is rectangular exactly when no cell of the column is empty or contains the separator.", "quantifier": "all rectangular tables, non-empty separators and non-empty target columns", "why_tests_cant": "All tables.", "anchors": ["fog/cli/split.py:split_action"]}
{"id": "C73", "title": "Strings that can be read back from the TOML report", "statement": "A string written in the TOML report reads back as itself exactly when it contains no backslash and no control character other than tabulations and line feeds.", "quantifier": "all strings and all following texts", "why_tests_cant": "All strings; both directions.", "anchors": ["fog/cli/reporting/toml.py:escape_string"]}
{"id": "C74", "title": "Content of the clustering report", "statement": "The cluster command reports one cluster for each non-empty key shared by at least two distinct cell values, with these values and their numbers of rows by decreasing number of rows, the most frequent one as harmonized value, and the total number of rows concerned.", "quantifier": "all rectangular tables, columns of the header and key functions", "why_tests_cant": "All tables and key functions.", "anchors": ["fog/cli/cluster.py:cluster_action", "fog/cli/reporting/toml.py:print_toml_report"]}
{"id": "C75", "title": "What laesa links", "statement": "For every random draw, laesa either fails for lack of pivots or yields the connected components of the pairs within radius that no pivot tells apart by more than the distance of the first item to its nearest pivot; a pair closer than that is never missed; there are enough pivots when the items are at positive distances of each other.", "quantifier": "all data, non-negative distances, radii, numbers of pivots, random choices and set iteration orders", "why_tests_cant": "All metrics and random choices.", "anchors": ["fog/clustering/laesa.py:laesa", "fog/clustering/laesa.py:pivot_selection"]}
{"id": "C76", "title": "threshold_algorithm_k1 finds the nearest vector", "statement": "threshold_algorithm_k1 yields for each vector the most similar other vector sharing a dimension with it, or the vector itself when there is none.", "quantifier": "all collections of sparse vectors and similarity functions", "why_tests_cant": "The early stop is a bound over all collections of vectors.", "anchors": ["fog/clustering/fagin.py:threshold_algorithm_k1"]}
{"id": "C77", "title": "sqrt_indexation_pairs follows the leaders", "statement": "sqrt_indexation_pairs yields for each vector the pair with the most similar of the int(sqrt(n)) leaders and one pair with each earlier vector that has the same leader.", "quantifier": "all collections of vectors, similarity functions and shuffles", "why_tests_cant": "All shuffles.", "anchors": ["fog/clustering/fagin.py:sqrt_indexation_pairs"]}
{"id": "C78", "title": "fagin_k1 candidates", "statement": "fagin_k1 yields candidates exactly for the non-empty vectors whose dimensions are all present in another vector; the candidates are other vectors sharing a dimension, and one of them has all the dimensions.", "quantifier": "all collections of sparse vectors", "why_tests_cant": "All collections of vectors.", "anchors": ["fog/clustering/fagin.py:fagin_k1"]}
{"id": "C79", "title": "nn_descent and nn_descent_full end, except in known cases", "statement": "With fewer neighbours than items, once every position has been drawn for each item, nn_descent ends after at most N*k*N+1 turns, and nn_descent_full after at most 2*N*k*N+2 turns when k and delta are positive. With k at least the number of items nn_descent never ends, whatever is drawn; nn_descent_full never ends for no items, for k = 0 (the default for a single item) or for delta <= 0. nn_descent without data nor k raises ValueError.", "quantifier": "all data, similarities, draws, set orders, heaps, sizes", "why_tests_cant": "Endless loops cannot be observed and the number of turns depends on random draws.", "anchors": ["fog/clustering/nn_descent.py:nn_descent", "fog/clustering/nn_descent.py:nn_descent_full", "fog/clustering/nn_descent.py:sample"]}
{"id": "C80", "title": "nn_descent_full only links similar items", "statement": "Every pair linked by nn_descent_full is of distinct positions whose similarity, in one of the two directions, reaches the radius (for a symmetric distance, is within the radius); when int(rho * k) is 0, which is the case by default for k = 1, turns compare nothing and the neighbours remain those drawn first.", "quantifier": "all data, similarities, random choices and set orders", "why_tests_cant": "Randomised; the repository's test with k = 1 succeeds only thanks to the draws of its seed.", "anchors": ["fog/clustering/nn_descent.py:nn_descent_full", "fog/clustering/nn_descent.py:sample_full"]}
{"id": "C81", "title": "simhash_distance is a metric on signatures", "statement": "For every number of bits f other than 0, simhash_distance(A, B, f) is non-negative, zero exactly when A = B, symmetric, satisfies the triangle inequality, and is at most 1 on signatures of f bits; simhash_similarity is its complement to 1.", "quantifier": "all signatures and sizes", "why_tests_cant": "All triples of signatures.", "anchors": ["fog/lsh/simhash.py:simhash_distance", "fog/lsh/simhash.py:simhash_similarity"]}
{"id": "C82", "title": "Equal minhash slots reveal shared tokens", "statement": "When two signatures of MinHash (without numpy) of non-empty token sets hold the same value at the same slot, other than the clipped value 2^32 - 1, the sets share a token, because a * t + b modulo the prime 4294967311 is injective in t; hence signatures of disjoint sets without clipped values have similarity 0.", "quantifier": "all token sets below 2^32 and all parameters with 0 < a < 2^32", "why_tests_cant": "Absence of false matches holds for all sets and parameters; relies on the primality of NEXT_PRIME.", "anchors": ["fog/lsh/minhash.py:MinHash", "fog/lsh/minhash.py:minhash_similarity"]}
{"id": "C83", "title": "minhash clustering is defined exactly from radius 1 / h on", "statement": "guess_bands(h, t) is the least number of bands whose similarity threshold is at most t, and h + 1 when there is none, that is exactly when t < 1 / h; in that case, as for any number of bands above h, minhash raises ValueError on every non-empty collection, and ZeroDivisionError for 0 bands.", "quantifier": "all h >= 1, thresholds, parameters and collections", "why_tests_cant": "The repository's test only uses the default radius.", "anchors": ["fog/clustering/minhash.py:guess_bands", "fog/clustering/minhash.py:similarity_threshold", "fog/clustering/minhash.py:minhash"]}
{"id": "C84", "title": "The numpy variant of MinHash hashes like the other one", "statement": "With numpy, every slot of the signature is the least hash of the set of tokens for hash functions that do not merge tokens.", "quantifier": "all token sets and parameters", "why_tests_cant": "Merging depends on parameters that are drawn at random.", "anchors": ["fog/lsh/minhash.py:MinHash"]}
{"id": "C85", "title": "quickjoin can end exactly on data that are sparse enough", "statement": "For a semimetric, beta 1 and a radius at least 0, whatever numbers have been drawn so far, some continuation of the draws makes quickjoin end, if and only if any two items within the radius (or an item twice) have together at most block_size copies in the data; otherwise it ends for no draws, whatever beta.", "quantifier": "all data, semimetrics, radii, block sizes and draws", "why_tests_cant": "Non-termination cannot be observed, and draws cannot be enumerated.", "anchors": ["fog/clustering/quickjoin.py:quickjoin", "fog/clustering/quickjoin.py:partition"]}
{"id": "C86", "title": "quickjoin with a similarity compares items inside a partition of the data", "statement": "With a similarity and a positive radius, quickjoin cuts the data into parts of at most block_size items and links exactly the pairs of items of a same part whose similarity reaches the radius; with at most block_size items this is the exhaustive comparison.", "quantifier": "all data, similarity functions, radii, block sizes and draws", "why_tests_cant": "The repository's test has 4 items and compares the wrong variable.", "anchors": ["fog/clustering/quickjoin.py:quickjoin", "fog/clustering/quickjoin.py:partition"]}
{"id": "C87", "title": "quickjoin_join_pivots agrees with the brute force join", "statement": "For a semimetric and a non-empty first list, quickjoin_join_pivots yields the same pairs in the same order as quickjoin_bruteforce; on an empty first list it raises IndexError.", "quantifier": "all lists, semimetrics and radii", "why_tests_cant": "No test uses this function; pruning by pivots must be right for all distances.", "anchors": ["fog/clustering/quickjoin.py:quickjoin_join_pivots", "fog/clustering/quickjoin.py:quickjoin_bruteforce"]}
{"id": "C88", "title": "ppjoin(all_pairs=True) is exact below threshold 1 on non-empty records", "statement": "For the jaccard, dice and binary_cosine metrics, ppjoin(all_pairs=True) yields, without raising, every pair of distinct positions whose records' similarity reaches the threshold, each once, and only pairs whose similarity reaches the threshold minus epsilon.", "quantifier": "all lists of records with at least one token each, thresholds below 1 and not vanishingly small, orderings 'freq' with a tokenizer, 'crc32' without collision, or none", "why_tests_cant": "Prefix filtering is only correct if no qualifying pair is filtered for any record lengths and any token order.", "anchors": ["fog/clustering/ppjoin.py:ppjoin", "fog/clustering/ppjoin.py:JaccardHelper", "fog/clustering/ppjoin.py:DiceHelper", "fog/clustering/ppjoin.py:BinaryCosineHelper"]}
{"id": "C89", "title": "ppjoin default and plus modes are exact but for identical short records", "statement": "In default and plus modes ppjoin yields exactly the pairs of C88 except the pairs of records with the same token set whose size is no more than the overlap required of them, which are never found; what these modes find, all_pairs finds too.", "quantifier": "as C88", "why_tests_cant": "The positional and suffix filters hold or fail only for specific lengths and positions.", "anchors": ["fog/clustering/ppjoin.py:ppjoin", "fog/clustering/ppjoin.py:suffix_filter"]}
{"id": "C90", "title": "compute_overlap counts common tokens and suffix_filter is a lower bound", "statement": "compute_overlap gives the number of common tokens of two sorted records, or -1 and then that number is below the required overlap. suffix_filter, on the arguments ppjoin gives it, never raises and gives at most the Hamming distance of the two suffixes when this distance is within the bound.", "quantifier": "all strictly sorted records, required overlaps, positions and bounds of the right parity", "why_tests_cant": "Neither function is tested on its own; the recursion's windows must be right for all positions.", "anchors": ["fog/clustering/ppjoin.py:compute_overlap", "fog/clustering/ppjoin.py:suffix_filter"]}
{"id": "C91", "title": "where ppjoin fails", "statement": "One record without tokens makes ppjoin raise IndexError; with a threshold of 1 it finds nothing at all; already tokenized records with the default token ordering raise KeyError.", "quantifier": "all lists of records, the three metrics, the three algorithms", "why_tests_cant": "The tests use no empty record, no threshold of 1 and always a tokenizer.", "anchors": ["fog/clustering/ppjoin.py:ppjoin"]}
{"id": "C92", "title": "The type of a token fits its text", "statement": "For every string, a mention starts with @, a hashtag with # or $, a number contains a digit and a punctuation token contains no alphanumeric character.", "quantifier": "all strings", "why_tests_cant": "All character contexts.", "anchors": ["fog/tokenizers/words.py:WordTokenizer.__tokenize"]}
{"id": "C93", "title": "Exact kinds of the tokens, and where they stop", "statement": "For every string, the tokens are read from left to right; smileys are emoticons, URLs start with http:// or https://, e-mail addresses have a local part of fewer than 64 characters and an @, none of them with a space or a comma; mentions, hashtags, numbers and words have the expected form up to an apostrophe with what follows it or the point of an abbreviation; and no token could have been extended by its next character. A string that starts with an emoticon starts with a smiley.", "quantifier": "all strings, all character classes that satisfy the stated facts, with and without splitting of hashtags", "why_tests_cant": "All character contexts.", "anchors": ["fog/tokenizers/words.py:WordTokenizer.__tokenize"]}
{"id": "C94", "title": "Hashtags are cut at digits and uppercase letters", "statement": "The pieces of a hashtag are either runs of digits, of type number, or words without digit whose characters after the first are never uppercase or never lowercase; two consecutive words are cut before an uppercase letter, or before the last character preceding a lowercase letter; two numbers are never consecutive.", "quantifier": "all hashtags", "why_tests_cant": "All patterns of case and digits.", "anchors": ["fog/tokenizers/words.py:split_hashtag"]}
{"id": "C95", "title": "Tokens of a text cut at a space", "statement": "Reading the tokens of a text made of two parts separated by a space gives the tokens of the first part followed by those of the second part.", "quantifier": "all pairs of strings, all spaces", "why_tests_cant": "All contexts on both sides of the space.", "anchors": ["fog/tokenizers/words.py:WordTokenizer.__tokenize"]}
{"id": "C96", "title": "Exact condition to cut a text at a space", "statement": "When the tokens of the first part do not end with an abbreviation followed by a point, reading the tokens of two parts separated by a space gives the tokens of the first part followed by those of the second part, with or without splitting of hashtags; the same holds after the filters of the tokenizer when it does not rewrite its input.", "quantifier": "all pairs of strings, all spaces, all character classes that satisfy the stated facts, all options without preprocessing", "why_tests_cant": "All contexts on both sides of the space.", "anchors": ["fog/tokenizers/words.py:WordTokenizer.__tokenize", "fog/tokenizers/words.py:WordTokenizer.tokenize"]}
{"id": "C97", "title": "Recognisable items are read back", "statement": "A text made of mentions, hashtags, URLs, e-mail addresses, numbers, words, smileys and punctuation marks separated by spaces, none of which starts with an emoticon by accident, is tokenized into exactly these items with their types.", "quantifier": "all sequences of items, all character classes that satisfy the stated facts", "why_tests_cant": "All sequences of items of all lengths.", "anchors": ["fog/tokenizers/words.py:WordTokenizer.__tokenize"]}
{"id": "C98", "title": "nn_descent stops at a local optimum", "statement": "When nn_descent stops, no position reachable in two steps of its neighbor graph (in either direction) is more similar to an item than a position of its list; with as many neighbors as other items, every entry of a list has the greatest similarity of the item to any other.", "quantifier": "all data, draws, similarities, set orders and heap implementations", "why_tests_cant": "All draws.", "anchors": ["fog/clustering/nn_descent.py:nn_descent"]}
{"id": "C99", "title": "nn_descent finds all links with full neighbor lists", "statement": "When the number of neighbors is the number of other items, so that every pair is compared, nn_descent links all the pairs within the radius.", "quantifier": "all data", "why_tests_cant": "Data with different gaps.", "anchors": ["fog/clustering/nn_descent.py:nn_descent"]}
{"id": "C100", "title": "blocking finds the clusters of pairwise when similar items share a block", "statement": "On data without repetition and for min_size >= 2, if similar items always share a block then blocking gives exactly the clusters of pairwise, for any order of sets and any schedule of processes; in particular with levenshtein_1d_blocks and any similarity that implies at most one edit (one edit or transposition with transpositions=True).", "quantifier": "all data without repetition, all block functions, all similarities, all schedules and set orders", "why_tests_cant": "The equality of two algorithms on every dataset.", "anchors": ["fog/clustering/blocking.py:blocking", "fog/clustering/pairwise.py:pairwise_connected_components", "fog/key/levenshtein.py:levenshtein_1d_blocks"]}
{"id": "C101", "title": "passjoin finds the clusters of pairwise", "statement": "On data without repetition, for min_size >= 2 and a distance that decides 'at most k edits', passjoin gives exactly the clusters of pairwise with this distance, sort or not; limited_levenshtein_distance is such a distance on the basic multilingual plane.", "quantifier": "all k, all data without repetition", "why_tests_cant": "The equality of two algorithms on every dataset and every k.", "anchors": ["fog/clustering/passjoin.py:passjoin", "fog/clustering/pairwise.py:pairwise_connected_components", "fog/metrics/levenshtein.py:limited_levenshtein_distance"]}
{"id": "C102", "title": "intersection_index finds the clusters of pairwise", "statement": "For a positive radius and min_size >= 2, intersection_index gives exactly the clusters of pairwise with jaccard_similarity (or overlap_coefficient) on the same keys, repeated items included.", "quantifier": "all data, keys and positive radii", "why_tests_cant": "The equality of two algorithms on every dataset.", "anchors": ["fog/clustering/intersection_index.py:intersection_index", "fog/clustering/pairwise.py:pairwise_connected_components", "fog/metrics/jaccard.py:jaccard_similarity", "fog/metrics/overlap.py:overlap_coefficient"]}
{"id": "C103", "title": "quickjoin finds the clusters of pairwise when it ends", "statement": "With a distance that satisfies the axioms of a metric, on data without repetition and for min_size >= 2, whatever pivots are drawn, if quickjoin ends then it gives exactly the clusters of pairwise.", "quantifier": "all data without repetition, all draws, block sizes and numbers of processes", "why_tests_cant": "All the random draws.", "anchors": ["fog/clustering/quickjoin.py:quickjoin", "fog/clustering/pairwise.py:pairwise_connected_components"]}
{"id": "C104", "title": "sorted_neighborhood with a large window and key_collision find the clusters of pairwise", "statement": "On data without repetition and for min_size >= 2: sorted_neighborhood with a window as large as the data gives the clusters of pairwise for any symmetric similarity and any sort key; key_collision with one key gives those of pairwise where similar means having the same truthy key; key_collision with several keys and merge gives those of pairwise, with the default bounds, where similar means sharing a truthy key.", "quantifier": "all data without repetition, all keys", "why_tests_cant": "The equality of two algorithms on every dataset.", "anchors": ["fog/clustering/sorted_neighborhood.py:sorted_neighborhood", "fog/clustering/key_collision.py:key_collision", "fog/clustering/pairwise.py:pairwise_connected_components"]}
{"id": "C105", "title": "approximate algorithms only split the clusters of pairwise", "statement": "On data without repetition and for a symmetric measure, each cluster of blocking (any blocks), sorted_neighborhood (any window and keys), adaptive_sorted_neighborhood (when it does not raise), quickjoin with a similarity, vp_tree, laesa (when it does not raise) and minhash (with at least one row per band, for the jaccard similarity that it checks) lies inside a cluster of pairwise with the same min_size and no max_size.", "quantifier": "all data without repetition, all parameters, all draws", "why_tests_cant": "The comparison of algorithms on every dataset.", "anchors": ["fog/clustering/blocking.py:blocking", "fog/clustering/sorted_neighborhood.py:sorted_neighborhood", "fog/clustering/sorted_neighborhood.py:adaptive_sorted_neighborhood", "fog/clustering/quickjoin.py:quickjoin", "fog/clustering/vp_tree.py:vp_tree", "fog/clustering/laesa.py:laesa", "fog/clustering/minhash.py:minhash"]}
{"id": "C106", "title": "the choice of the algorithm does not matter, even with repeated items", "statement": "passjoin, blocking and sorted_neighborhood give the same clusters as pairwise also when the data contains the same item twice.", "quantifier": "all data", "why_tests_cant": "Tests use data without repetition.", "anchors": ["fog/clustering/pairwise.py:pairwise_connected_components", "fog/clustering/passjoin.py:passjoin", "fog/clustering/blocking.py:blocking", "fog/clustering/sorted_neighborhood.py:sorted_neighborhood"]}
{"id": "C107", "title": "shape of match_probability", "statement": "For a similarity between 0 and 1, match_probability lies between 0 and 1, is 0 at 0 and 1 at 1, increases strictly with the similarity and with the number of bands, raises ZeroDivisionError without bands only; at similarity_threshold(h, bands) it is 1 - (1 - 1/bands)^bands, which is at least 1 - 1/e.", "quantifier": "all h > 0, all numbers of bands, all similarities (real numbers)", "why_tests_cant": "A statement on real functions; the repository has no test of this function.", "anchors": ["fog/clustering/minhash.py:match_probability", "fog/clustering/minhash.py:similarity_threshold"]}
{"id": "C108", "title": "match_probability as a probability", "statement": "Let the values of two signatures agree independently with probability s. The probability that one of the bands of h // bands values agrees entirely, as a sum over all tables of agreement, is 1 - (1 - s^(h // bands))^bands; match_probability equals it when bands divides h and is strictly lower otherwise (0 < s < 1).", "quantifier": "all h, bands and s", "why_tests_cant": "The sum has 2^h terms.", "anchors": ["fog/clustering/minhash.py:match_probability", "fog/clustering/minhash.py:minhash"]}
{"id": "C109", "title": "match_probability for uneven bands", "statement": "match_probability is the probability that minhash puts two signatures in a common bucket for every number of bands from 1 to h.", "quantifier": "all h, bands and s", "why_tests_cant": "False as soon as the bands do not divide h, which is the case of the default arguments (20 bands for 256 values).", "anchors": ["fog/clustering/minhash.py:match_probability", "fog/clustering/minhash.py:minhash"]}
{"id": "C110", "title": "guessed bands find similar items", "statement": "When guess_bands finds a number of bands, two signatures whose values agree independently with a probability that reaches the threshold share a band with probability at least 1 - 1/e.", "quantifier": "all h > 0, thresholds and similarities from the threshold to 1", "why_tests_cant": "A bound on a real function for all parameters.", "anchors": ["fog/clustering/minhash.py:guess_bands", "fog/clustering/minhash.py:minhash"]}
{"id": "C111", "title": "TOML report reads back", "statement": "The TOML report of the clustering command is a document of TOML 1.0 without repeated keys; read back, it has the date, the algorithm, the counts, the duration within half a microsecond, and for every cluster its id, counts, harmonized value and the values with their numbers of rows, as the command found them. No other type nor algorithm is accepted. A text is read back as an integer exactly when it is the one python writes for that integer.", "quantifier": "all tables, fingerprint functions, dates, durations >= 0, values without control characters other than tab and line feed and without backslash", "why_tests_cant": "Unbounded tables and texts; the report must be readable whatever the values are.", "anchors": ["fog/cli/reporting/toml.py:print_toml_report", "fog/cli/cluster.py:cluster_action"]}
{"id": "C112", "title": "grouped numbers and durations", "statement": "The numbers of the HTML report, with commas between groups of three digits, read back as the number; a timedelta printed reads back as its microseconds, the nearest integer to what it was made of.", "quantifier": "all natural numbers, all durations >= 0", "why_tests_cant": "Unbounded numbers.", "anchors": ["fog/cli/reporting/html.py:print_html_report"]}
{"id": "C113", "title": "HTML report is well formed and faithful", "statement": "The HTML report closes all its tags, lists exactly the values of the clusters, and shows how long the clustering took.", "quantifier": "all tables, dates and durations", "why_tests_cant": "False for three reasons: the last tag opens html again, values are not escaped, and seconds are given as microseconds.", "anchors": ["fog/cli/reporting/html.py:print_html_report"]}
{"id": "C114", "title": "what the HTML report is", "statement": "When no value has the character <, the HTML report is a given sequence of tags and texts with the date, the counts, the captions and the values of the clusters in order; its list items are the values that are not blank, without the blanks around them; the tags left open are exactly two html; the duration shown has as many microseconds as the clustering took seconds.", "quantifier": "all tables, fingerprint functions, dates and durations", "why_tests_cant": "Unbounded tables and texts.", "anchors": ["fog/cli/reporting/html.py:print_html_report", "fog/cli/cluster.py:cluster_action"]}
{"id": "C115", "title": "set similarities in binary64", "statement": "In binary64 arithmetic, comparing the jaccard, dice or overlap similarity of two sets with the float nearest to a threshold c/d gives the same answer as comparing the exact fractions; the similarities stay between 0 and 1, are symmetric, and jaccard is 1 only for the same elements.", "quantifier": "all pairs of sets and all decimal thresholds c/d with size * d < 2^52", "why_tests_cant": "Rounding matters exactly when a similarity equals the threshold, for unboundedly many pairs of fractions.", "anchors": ["fog/metrics/jaccard.py:jaccard_similarity", "fog/metrics/dice.py:dice_coefficient", "fog/metrics/overlap.py:overlap_coefficient"]}
{"id": "C116", "title": "binary cosine in binary64", "statement": "In binary64 arithmetic the binary cosine similarity of two non-empty sets is between 0 and 1, symmetric, and reaches the float nearest to c/d if and only if the exact one reaches c/d.", "quantifier": "all pairs of sets (product of the sizes at most 2^53; product times d^2 below 2^48 for thresholds)", "why_tests_cant": "Needs a bound on the composed rounding of a square root and a division.", "anchors": ["fog/metrics/cosine.py:sparse_binary_cosine_similarity"]}
{"id": "C117", "title": "weighted similarities and means in binary64", "statement": "In binary64 arithmetic cosine similarity is at most 1 and symmetric, the dot product and the weighted jaccard similarity are symmetric, and subtracting from an OnlineMean what was added gives the previous mean back.", "quantifier": "all float weights", "why_tests_cant": "False for weights such as 0.1 and 0.3 in another key order.", "anchors": ["fog/metrics/cosine.py:sparse_cosine_similarity", "fog/metrics/cosine.py:sparse_dot_product", "fog/metrics/jaccard.py:weighted_jaccard_similarity", "fog/utils.py:OnlineMean"]}
{"id": "C118", "title": "what holds of weighted similarities and means in binary64", "statement": "In binary64 arithmetic the weighted jaccard similarity of non-negative weights is between 0 and 1; cosine similarity is symmetric when the vectors differ in number of keys or list them in the same order, and 1 for a vector and a copy of it; the mean of numbers between 0 and 1 is between 0 and 1.", "quantifier": "all float weights and all lists of numbers", "why_tests_cant": "Rounding errors accumulate over unbounded sums.", "anchors": ["fog/metrics/cosine.py:sparse_cosine_similarity", "fog/metrics/jaccard.py:weighted_jaccard_similarity", "fog/utils.py:OnlineMean"]}
{"id": "C119", "title": "number of n-grams of the keys", "statement": "The smallest n-gram keys have max(1, floor(k * threshold)) grams for the threshold as written.", "quantifier": "all k and decimal thresholds", "why_tests_cant": "False: 0.29 * 100 is below 29 in binary64.", "anchors": ["fog/key/misc.py:ngram_keys"]}
{"id": "C120", "title": "counts computed through floats", "statement": "In binary64 arithmetic the number of grams of n-gram keys is the exact one or one less, the exact one when the threshold is rounded up or k * threshold is not an integer, so that no key of the exact threshold is lost and the default 0.8 gives the exact keys; the number of chunks is the exact ceiling of n / chunk_size and the number of leaders the integer square root.", "quantifier": "all strings, thresholds c/d with length * d < 2^50, numbers of items below 2^53 (chunks) and 2^50 (leaders)", "why_tests_cant": "A ceiling or floor of a rounded number is wrong only near integers.", "anchors": ["fog/key/misc.py:ngram_keys", "fog/clustering/utils.py:upper_triangular_matrix_chunk_iter", "fog/clustering/fagin.py:sqrt_indexation_pairs"]}
{"id": "C121", "title": "all_pairs in binary64", "statement": "With its numbers in binary64, the All-Pairs join gives every pair of records whose exact similarity reaches the threshold, each once, and only pairs whose exact similarity is at least the threshold less 1.000001e-6, for the three metrics.", "quantifier": "all lists of records having at least one and at most 2^20 distinct tokens, all float thresholds in [1e-5, 1) (whose square is at least 1e-5 for binary_cosine), all three orderings of the tokens", "why_tests_cant": "The prefix lengths and required overlaps are ceilings and floors of rounded products; an error of one in either loses pairs only for particular sizes and thresholds.", "anchors": ["fog/clustering/ppjoin.py:all_pairs", "fog/clustering/ppjoin.py:JaccardHelper", "fog/clustering/ppjoin.py:DiceHelper", "fog/clustering/ppjoin.py:BinaryCosineHelper"]}
{"id": "C122", "title": "ppjoin and ppjoin_plus in binary64", "statement": "With their numbers in binary64, the default and plus modes give the pairs of All-Pairs except records having the same tokens and too few of them, the limit being that of exact numbers up to 1e-8, and whatever they find All-Pairs finds.", "quantifier": "all lists of records having at least one and at most 2^20 distinct tokens, all float thresholds in [1e-5, 1) (whose square is at least 1e-5 for binary_cosine), all three orderings of the tokens", "why_tests_cant": "The position filter compares integers with rounded sums; a difference shows only at equality.", "anchors": ["fog/clustering/ppjoin.py:ppjoin", "fog/clustering/ppjoin.py:ppjoin_plus"]}
{"id": "C123", "title": "csv files are read as the grammar says", "statement": "The text of a csv file (RFC 4180: bare or quoted cells, doubled quotation marks, any of the three line ends, last line with or without end) is read as its rows, only the line ends within cells being changed to \\n; two files of the same rows are read alike; a cell of more than 131072 characters ends the reading with an error after the rows before it; what is read from any text has no carriage return; any text of at most 131072 characters at all is read to its end without error, and every character other than the comma, the quotation mark and the line ends is kept, with its number of occurrences.", "quantifier": "all tables, all ways to write them, all texts", "why_tests_cant": "The reader is a state machine; the ways to write one table are unboundedly many.", "anchors": ["fog/cli/utils.py:custom_reader"]}
{"id": "C124", "title": "the commands keep the cells of the other columns", "statement": "Every cell of a column that split is not asked to change is found as it is in the output.", "quantifier": "all csv files without quotation marks in the cells", "why_tests_cant": "Depends on the line ends within quoted cells, which the sample files do not have.", "anchors": ["fog/cli/__main__.py:main", "fog/cli/utils.py:custom_reader", "fog/cli/split.py:split_action"]}
{"id": "C125", "title": "what the commands write is read back", "statement": "The rows written form a csv file of these rows; they are read back exactly when no cell has a carriage return or is longer than 131072 characters; a table read from any text is written and read back unchanged.", "quantifier": "all tables, all texts", "why_tests_cant": "Quantifies over all cells, with any mix of commas, quotation marks and line ends.", "anchors": ["fog/cli/split.py:split_action", "fog/cli/transform.py:transform_action"]}
{"id": "C126", "title": "split, transform and cluster from text to text", "statement": "On a csv file whose rows have the width of the header, split writes the csv file of the rows where the cell is replaced by its pieces (or followed by them), transform that of the rows where the cell is replaced by what all the operations, in order, or the expression, make of it (or followed by it), and cluster the report of the table.", "quantifier": "all csv files, columns, separators, names, operations, expressions whose results can be read back", "why_tests_cant": "End to end statement over all files.", "anchors": ["fog/cli/split.py:split_action", "fog/cli/transform.py:transform_action", "fog/cli/cluster.py:cluster_action"]}
{"id": "C127", "title": "rows on which the commands fail", "statement": "A row that does not reach the column (a blank line, for one) makes split and transform raise IndexError with exactly the output of the file cut before that row; a cell that is too long makes split raise csv.Error likewise; cluster prints nothing in the first case; without rows or without the column nothing is written.", "quantifier": "all csv files with such a row", "why_tests_cant": "The failing row may come after any number of good ones.", "anchors": ["fog/cli/split.py:split_action", "fog/cli/transform.py:transform_action", "fog/cli/cluster.py:cluster_action", "fog/cli/utils.py:custom_reader"]}
{"id": "C128", "title": "operations that transform refuses", "statement": "A name that is not exactly one of the seven operations makes transform raise KeyError before anything is read or written; an operation after len makes it raise AttributeError or TypeError at the first row, with only the header written.", "quantifier": "all texts, all lists of names", "why_tests_cant": "Quantifies over all chains of operations.", "anchors": ["fog/cli/transform.py:transform_action"]}
{"id": "C129", "title": "The crc32 of a token is the CRC-32 of its UTF-8 bytes", "statement": "For every string of Unicode scalar values, crc32 returns the remainder, in the reflected representation with inverted initial and final bits, of the division by the CRC-32 polynomial of the bits of the UTF-8 encoding of the string, a number below 2^32; the encoding is injective; a string with a surrogate raises ValueError.", "quantifier": "all strings of code points", "why_tests_cant": "The unit tests never look at the value of crc32; no finite set of tokens shows that a table-driven loop computes a polynomial remainder for messages of any length.", "anchors": ["fog/lsh/utils.py:20-21"]}
{"id": "C130", "title": "Different tokens get different numbers", "statement": "Different tokens have different crc32 numbers, so that minhash signatures of disjoint sets of tokens differ and ppjoin with token_ordering='crc32' only joins records that share tokens.", "quantifier": "all tokens, parameters and records", "why_tests_cant": "The corpora of the tests happen to have no collision; the property fails for particular pairs of tokens only.", "anchors": ["fog/lsh/minhash.py:97", "fog/lsh/minhash.py:148", "fog/lsh/minhash.py:224", "fog/clustering/ppjoin.py:233-234"]}
{"id": "C131", "title": "Uniform tokens have different crc32 numbers", "statement": "Different tokens whose UTF-8 encodings have a same length of at most four bytes have different crc32 numbers; so have different ASCII tokens of a same length n whose characters only differ in their k low bits, for (k, n) up to (6, 5), (5, 6) or (4, 7) -- e.g. words of six lower case letters, or of five letters; and so have tokens whose encodings only differ within such a window.", "quantifier": "all tokens of these kinds", "why_tests_cant": "There are 2^32 tokens of four bytes, and 2^30 of six letters or five; tests compare a handful of them.", "anchors": ["fog/lsh/utils.py:20-21"]}
{"id": "C132", "title": "Minhash with the crc32 of uniform tokens", "statement": "For uniform tokens, the numbers two sets share are the crc32 of the tokens they share; the signatures of disjoint sets agree nowhere but on clipped values, so that their similarity is 0; a token that cannot be encoded makes the signature raise ValueError.", "quantifier": "all sets of uniform tokens, all parameters with 0 < a < 2^32, all set iteration orders", "why_tests_cant": "The tests estimate the similarity of a few texts with a tolerance.", "anchors": ["fog/lsh/minhash.py:92-134", "fog/lsh/utils.py:20-21"]}
{"id": "C133", "title": "All-Pairs with the crc32 ordering is exact for uniform tokens", "statement": "When the tokens of all records are uniform, the real crc32 meets the hypothesis on the ordering of tokens of the exactness theorems of ppjoin, and all_pairs with token_ordering='crc32' gives every pair whose similarity reaches the threshold, each once, and only pairs whose similarity reaches it up to epsilon.", "quantifier": "all lists of records with at least one token, metrics, thresholds in range", "why_tests_cant": "The tests compare one corpus of 5-grams with brute force.", "anchors": ["fog/clustering/ppjoin.py:204-426", "fog/lsh/utils.py:20-21"]}
{"id": "C134", "title": "The numbers drawn with a seed are those of the Mersenne Twister", "statement": "After Random(seed) with an integer seed the 624 words of the generator start with 2^31, and the numbers of 32 bits that are drawn are the tempered values of the sequence that continues these words by the recurrence of MT19937, stated bit by bit; each is below 2^32.", "quantifier": "all integer seeds, of any size and sign; all numbers of draws", "why_tests_cant": "Tests see the effect of a few hundred draws for the seed 123.", "anchors": ["fog/lsh/minhash.py:77-86", "fog/clustering/nn_descent.py:96-120", "fog/clustering/quickjoin.py:231-296", "fog/clustering/laesa.py:102-130"]}
{"id": "C135", "title": "random, getrandbits and randint draw numbers of their range, made of given bits", "statement": "random() is a multiple of 2^-53 in [0, 1), made of the 27 high bits of one word and the 26 high bits of the next; getrandbits(k) is below 2^k; randint(a, b) is a plus the first number below b + 1 - a among numbers of just enough bits, thus between a and b, is found as soon as such a number comes, and raises ValueError for an empty range.", "quantifier": "all generators that were given a seed and used, all k, a, b", "why_tests_cant": "The range of a draw for all states of the generator is not seen by running it.", "anchors": ["fog/lsh/minhash.py:82-85", "fog/lsh/minhash.py:163-167", "fog/clustering/nn_descent.py:27-43"]}
{"id": "C136", "title": "Which seeds give which numbers", "statement": "A seed and its opposite give the same generator.  Two generators with seeds that agree on 624 draws in a row, at the same time, agree on all draws before and after.  Different seeds below 2^32 differ within any 624 draws in a row.", "quantifier": "all seeds, all times", "why_tests_cant": "Needs the inverse of the seeding and of the tempering.", "anchors": ["fog/lsh/minhash.py:77-86", "fog/clustering/laesa.py:102-130"]}
{"id": "C137", "title": "The minhash classes with a seed", "statement": "MinHash(h, seed) and LSBMinHash have exactly the number of parameters asked for, different from one another and in range, and the opposite seed gives the same ones.  With the real crc32 two disjoint sets of uniform tokens have similarity 0, but for values that were clipped.  SuperMinHash, with the numbers python draws for each token, gives at each place a position whose value is the least among the tokens (sums and products being exact). Tokens are hashed as the letters of a string whose code points are their crc32 would be, and a token that cannot be encoded raises its error.", "quantifier": "all seeds, sizes, sequences of tokens, orders of sets", "why_tests_cant": "Tests use the seed 123 and one pair of texts.", "anchors": ["fog/lsh/minhash.py:77-86", "fog/lsh/minhash.py:163-167", "fog/lsh/minhash.py:203-214"]}
{"id": "C138", "title": "nn_descent, quickjoin and laesa with a seed", "statement": "With an integer seed, each of them does what its model does for some draws in range, so that what is proved for all draws holds: nn_descent links only pairs within radius, quickjoin with a metric gives the components of all close pairs, laesa uses a first pivot of the data and raises ValueError on no data.", "quantifier": "all seeds, data, distances, orders of sets", "why_tests_cant": "Tests run the seed 123 on one small corpus.", "anchors": ["fog/clustering/nn_descent.py:27-43", "fog/clustering/nn_descent.py:96-168", "fog/clustering/quickjoin.py:231-340", "fog/clustering/laesa.py:102-154"]}
{"id": "C139", "title": "heapify and heapreplace keep heaps", "statement": "heapify gives a heap with the same elements, as many times each; heapreplace of a heap gives a heap of the same elements but for the first, which the new one replaces; the first element of a heap is at most every other.  The order may be coarser than the comparisons made.", "quantifier": "all lists, all total orders and preorders that the comparison refines", "why_tests_cant": "All shapes of heaps; the library is outside of the tests of fog.", "anchors": ["fog/clustering/nn_descent.py:21", "fog/graph/utils.py:7"]}
{"id": "C140", "title": "nn_descent with the heaps of python", "statement": "On the entries of nn_descent and of nn_descent_full, compared as python compares tuples, heapq meets what C53, C79 and C80 ask of it, and changing what follows the similarity in entries keeps a heap for the similarities.  Thus nn_descent with an integer seed and the real heapq, and nn_descent_full with any draws and the real heapq, link only pairs within radius.", "quantifier": "all data, distances, seeds, draws", "why_tests_cant": "Four names are tested.", "anchors": ["fog/clustering/nn_descent.py:96-168", "fog/clustering/nn_descent.py:171-341"]}
{"id": "C141", "title": "nlargest gives the largest elements in decreasing order", "statement": "heapq.nlargest(n, generator) of integers, by a heap of pairs of an element and its rank, gives min(n, number of elements) elements in decreasing order, none of those left out being larger than one of them; it is sorted(l, reverse=True)[:n]; second_largest_component_size with it gives the second largest size, or None when there are less than two components.", "quantifier": "all n, all lists, all undirected graphs", "why_tests_cant": "Two graphs are tested.", "anchors": ["fog/graph/utils.py:37-43"]}
{"id": "C142", "title": "The command line means what its usage says", "statement": "For fog split, cluster and transform: a line made of options, the column (for transform, then options and the operations), a file or none, and options, is accepted and sets each destination to what its latest option says, whichever spelling is used (-o v, -ov, -o=v, --output v, --output=v, an abbreviation of one option only, switches), the others having their defaults; it is refused when a choice is not one of those listed or a file cannot be opened. -h before the words shows the help; any first word other than the four commands is refused. Switches join with the letter of the option that follows them; a switch has no value; after -- every word is an argument; a negative number is a value but no other word with a dash is; a line that lacks a word, or has an option that is not in the usage, is refused.", "quantifier": "all words, all spellings and sequences of options, all states of the files", "why_tests_cant": "The command line has no test; the spellings and their sequences are unbounded.", "anchors": ["fog/cli/__main__.py:18-73"]}
{"id": "C143", "title": "Options may come anywhere on the command line", "statement": "fog split column OPTIONS file is understood as fog split OPTIONS column file.", "quantifier": "all columns, files and options", "why_tests_cant": "The command line has no test.", "anchors": ["fog/cli/__main__.py:33-39"]}
{"id": "C144", "title": "An option between the last word and the file is refused", "statement": "A line of split, cluster or transform with at least one option between its last word (column, operations) and its file always ends with a usage error, and the files named by its -o options that come before an error have been emptied.", "quantifier": "all words, all spellings and sequences of options, all states of the files", "why_tests_cant": "The command line has no test.", "anchors": ["fog/cli/__main__.py:18-56"]}
{"id": "C145", "title": "A command line runs the command on the files it names", "statement": "main on such a line runs the action on the text of the named file, or of the standard input, with the settings of the line, and leaves what the action writes in the output file, or on the standard output. When the output is the input file, this file is emptied first. No file but those named by -o is changed, and every command line ends. Without a command, or with the command help, the help is shown.", "quantifier": "all lines of C142 (all lines for the last two), all files, all parameters of the commands", "why_tests_cant": "The command line has no test.", "anchors": ["fog/cli/__main__.py:18-73", "fog/cli/split.py:13-39", "fog/cli/cluster.py:30-56", "fog/cli/transform.py:24-63"]}
{"id": "C146", "title": "The scores computed in floats are the exact ones up to rounding, whatever the order of the truth clusters", "statement": "For all clusterings, the precision, recall and F-score returned by best_matching_macro_average in binary64 differ from those of the same computation in exact arithmetic by no more than rounding, and do not depend on the order of the truth clusters.", "quantifier": "all truth and predicted clusterings", "why_tests_cant": "The tests compare a handful of clusterings with pytest.approx; none has two predicted clusters of equal F1 whose rounded values differ, nor truth clusters given in another order.", "anchors": ["fog/evaluation/best_matching.py:21-135"]}
{"id": "C147", "title": "What best_matching_macro_average guarantees in binary64", "statement": "In binary64 the same inputs are refused as in exact arithmetic. For clusters of at most 2^20 items, each truth cluster is matched with a predicted cluster of maximal exact F1 and the three scores are the averages of those of the matches up to (N+9)*2^-53, N being the number of truth clusters. The scores stay within [0, 1], the F-score is 1.0 exactly when each truth cluster is a predicted one (restricted to the items of the truth), and neither the order of the predicted clusters nor that of the items changes a bit.", "quantifier": "all clusterings whose truth clusters have no repeated item; sizes up to 2^20 and N up to 2^53 for the error bound (2^30 for the perfect score)", "why_tests_cant": "An error bound over all sizes needs the analysis of each rounding; pytest.approx hides the difference between 1.0 and a value just below.", "anchors": ["fog/evaluation/best_matching.py:21-135"]}
{"id": "C148", "title": "The digests are MD5, SHA-256 and SHA-512 of the standards", "statement": "The functions that the model of simhash takes for hashlib.md5, hashlib.sha256 and hashlib.sha512 give, for every sequence of bytes, the digest defined by RFC 1321 and FIPS 180-4: padding, blocks, words, rounds bit by bit, with the table of MD5 made of the integer parts of 2^32 |sin i| and the constants of SHA-2 of the first bits of the square and cube roots of the first primes; that digest is unique. Their hexadecimal digests have 32, 64 and 128 digits. Two messages with the same padding are the same.", "quantifier": "all sequences of bytes", "why_tests_cant": "simhash has no test in the repository; test vectors check a few messages, not the definition for all lengths (for instance the lengths where the padding needs one more block).", "anchors": ["fog/lsh/simhash.py:34-63"]}
{"id": "C149", "title": "simhash of strings", "statement": "For f among 4, 8, ..., 512 (powers of two), simhash of a list of strings is the number of f bits whose i-th bit is set exactly when a strict majority of the tokens have it in the first f bits of the digest (MD5, SHA-256 for 256, SHA-512 for 512) of their UTF-8. It exists exactly when no token has a surrogate; otherwise ValueError. Other sizes are refused with AssertionError, and sizes 0, 1, 2 with ValueError when there is a token. The order of the tokens does not matter, a repeated token alone gives its own digest, and up to 128 bits a shorter signature is made of the high bits of the one of 128 bits.", "quantifier": "all lists of strings, all sizes", "why_tests_cant": "No test of simhash exists in the repository; examples cannot cover all strings.", "anchors": ["fog/lsh/simhash.py:34-63"]}
{"id": "C150", "title": "A normalized vector is a unit vector, in floats", "statement": "In binary64, a vector divided by its norm with sparse_normalize has norm 1 and a dot product with itself of at most 1, is left unchanged by a second normalization, does not depend on a common positive factor of the weights nor on the order of the keys, and has all its weights within [-1, 1].", "quantifier": "for all dicts of int or float weights that are not all zero", "why_tests_cant": "the test checks one vector to six digits; the failures are differences in the last place, which depend on how each square, sum, root and quotient rounds", "anchors": ["fog/metrics/cosine.py:145", "fog/metrics/cosine.py:149"]}
{"id": "C151", "title": "What sparse_norm and sparse_normalize give in floats", "statement": "In binary64 without overflow or underflow, the norm is zero exactly when all weights are; the normalized vector keeps keys, signs and the order of weights, each weight being the float nearest to its quotient by the norm; float weights never leave [-1, 1]; a single weight becomes exactly 1 or -1; the sum of the squares, the norm and the dot products of normalized vectors are at most a few units in the last place per key away from 1, or beyond 1; multiplying all weights by a power of two changes nothing; with ints of small squares the norm is correctly rounded and independent of the order.", "quantifier": "for all dicts of float weights, of at most 2^50 keys for the error bounds; for all dicts of ints, with a sum of squares of at most 2^53 for the exactness", "why_tests_cant": "bounds on rounding errors hold over all vectors of all lengths; a test samples a few", "anchors": ["fog/metrics/cosine.py:145", "fog/metrics/cosine.py:149", "fog/metrics/cosine.py:114"]}
{"id": "C152", "title": "SuperMinHash values stay below the size, in floats", "statement": "Whatever numbers of [0, 1[ the generator draws, every value of a SuperMinHash signature of size m of a nonempty sequence is between 0 and m - 1 when the sums are rounded to binary64.", "quantifier": "for all draws that are floats of [0, 1[, all sizes, all sequences", "why_tests_cant": "the failure needs a draw within j + 1 units of 2^-53 of 1, which random tests never meet", "anchors": ["fog/lsh/minhash.py:137"]}
{"id": "C153", "title": "What SuperMinHash computes in floats", "statement": "When no number drawn at turn j is within (j + 1) 2^-53 of 1, the signature in binary64 has at position y the least place of y in the shuffles of the tokens, each position exchanged being the integer part of the rounded product, always within the positions left; it depends only on the set of tokens; and it is the signature of exact arithmetic when no product is within its size times 2^-53 below an integer.  The numbers of python's generator are floats of [0, 1[. Tokens are hashed as the letters of a string whose code points are their crc32 would be.", "quantifier": "for all draws, all sizes up to 2^52, all sequences and orders of the set", "why_tests_cant": "all draws and all orders of python sets; the condition under which rounding is harmless is not observable from runs", "anchors": ["fog/lsh/minhash.py:137"]}
{"id": "C154", "title": "nn_descent_full with a seed", "statement": "nn_descent_full with an integer seed, python's generator, heapq and floats does what the model with arbitrary draws does for some draws, with a sampling rate and a threshold that give the rounded products; so its clusters are made of pairs within the radius, it raises nothing when 0 < k < N and delta is positive, and it never ends when N k = 0 or delta is not positive.", "quantifier": "for all seeds, data, orders of sets, symmetric distances and parameters", "why_tests_cant": "the tests run one seed; other seeds lose clusters, and no run can show that it never ends", "anchors": ["fog/clustering/nn_descent.py:171", "fog/clustering/nn_descent.py:185", "fog/clustering/nn_descent.py:218"]}
{"id": "C155", "title": "The regular expressions of the source do what the models say", "statement": "Read by a parser of python's syntax and run by a backtracking engine, the patterns of the source give exactly the functions of the models: squeeze, the filters of letters, all the rules of rusalka, the consonants, the start of an email address, smileys, the split at points, the reduction of lengthened words, and fingerprints for all options: stop words (escaped, whatever characters they have), separators, digits, minimal size, blanks.  The only options that are refused are an empty list of separators and sizes of 2^32 - 1 and more.", "quantifier": "for all texts, options, lists of words and classes of characters", "why_tests_cant": "backtracking patterns have infinitely many texts, and word lists make a different pattern each time", "anchors": ["fog/utils.py:10", "fog/phonetics/rusalka.py:55", "fog/tokenizers/words.py:38", "fog/tokenizers/fingerprint.py:45", "fog/tokenizers/fingerprint.py:73", "fog/key/omission.py:18", "fog/phonetics/cologne.py:19"]}
{"id": "C156", "title": "The engine of regular expressions", "statement": "For patterns without references to groups, the engine reaches exactly the positions that the pattern describes and finds a match if and only if there is one.  For all patterns, a match goes on in the text, replacing each match by itself changes nothing, the pieces of a split make up the text, and there is no loop without end: the repetitions, the replacements and the parser stop within a bound known beforehand.  An escaped text matches itself and nothing else.", "quantifier": "for all patterns that the parser accepts, all texts and all classes of characters", "why_tests_cant": "all patterns and all texts; that no pattern loops for ever cannot be seen in runs", "anchors": ["fog/tokenizers/fingerprint.py:74", "fog/tokenizers/fingerprint.py:80", "fog/utils.py:27"]}
{"id": "C157", "title": "Patterns are read according to the grammar of regular expressions", "statement": "The model of python's parser of patterns accepts exactly the texts that a grammar of the syntax (signs, sets, repetitions, items, sequences, alternatives) gives, and reads them as the grammar says: parse s = Some r if and only if s spells r; no text spells two expressions; groups are numbered 1, 2, ... in the order of their opening parentheses, and references are to groups closed before.", "quantifier": "all texts", "why_tests_cant": "The patterns are unbounded; fingerprint builds some from its options.", "anchors": ["fog/tokenizers/fingerprint.py:73", "fog/tokenizers/fingerprint.py:45", "fog/utils.py:10", "fog/tokenizers/words.py:38", "fog/phonetics/rusalka.py:55"]}
{"id": "C158", "title": "pairwise compares each pair of items at most once, in the order of the items", "statement": "Fuzzy clusters call the user's function for every pair of positions i < j, row by row, once, before anything is yielded, and go on from its answers alone, whatever it answers; connected components and leader call it for a subsequence of these pairs; the workers of the parallel modes compare the cells of their chunks, and these are all the pairs, each once. If the function raises, nothing more is called, and fuzzy clusters and components have yielded nothing. An unknown mode raises before any call.", "quantifier": "all data, size bounds, chunk sizes, and all user functions, with a state of their own, inconsistent answers and exceptions", "why_tests_cant": "The user's function is arbitrary; tests use pure functions.", "anchors": ["fog/clustering/pairwise.py:pairwise_fuzzy_clusters", "fog/clustering/pairwise.py:pairwise_connected_components", "fog/clustering/pairwise.py:pairwise_leader", "fog/clustering/pairwise.py:pairwise"]}
{"id": "C159", "title": "Leader clustering yields a cluster once its leader has been compared, with at most c * n calls", "statement": "Without max_size, pairwise_leader compares each leader in turn with the later items similar to no earlier leader and then yields its cluster, before the next comparison; with c leaders among n items it makes at most c * n - c * (c + 1) / 2 calls, a bound that is reached.", "quantifier": "all data, all similarities, all min_size", "why_tests_cant": "Order of events and number of calls over all similarities.", "anchors": ["fog/clustering/pairwise.py:pairwise_leader"]}
{"id": "C160", "title": "Connected components compares exactly the pairs not known to be connected", "statement": "pairwise_connected_components calls the similarity exactly for the pairs i < j that the similar pairs of earlier cells do not connect, in order, each once; items of different components are always compared.", "quantifier": "all data, keys, similarities, size bounds", "why_tests_cant": "Tests look at clusters, not at calls.", "anchors": ["fog/clustering/pairwise.py:pairwise_connected_components"]}
{"id": "C161", "title": "Documented complexity of pairwise_connected_components", "statement": "The docstring of pairwise_connected_components says that it runs in O(n * (c - 1) / 2), c being the number of components: the number of comparisons would be at most a constant times n * c.", "quantifier": "all data and similarities", "why_tests_cant": "Asymptotic claim.", "anchors": ["fog/clustering/pairwise.py:pairwise_connected_components"]}
{"id": "C162", "title": "blocking compares a pair once per block shared", "statement": "blocking calls the user's function for the pairs of each block in turn, before anything is yielded, and goes on from its answers alone. Items x before y of data without repetition are compared, in this order, as many times as they have blocks in common; with a single block, once if they share it and never otherwise.", "quantifier": "all data, block and blocks functions, size bounds, modes, and all user functions, stateful or failing", "why_tests_cant": "Tests look at clusters, not at calls.", "anchors": ["fog/clustering/blocking.py:blocking", "fog/clustering/blocking.py:block_worker"]}
{"id": "C163", "title": "A pair is not compared twice", "statement": "blocking with blocks (whose workers get a graph of the pairs already known, line 41) and passjoin compare a pair of items at most once.", "quantifier": "all data without repetition", "why_tests_cant": "Tests look at clusters, not at calls.", "anchors": ["fog/clustering/blocking.py:blocking", "fog/clustering/passjoin.py:passjoin"]}
{"id": "C164", "title": "sorted_neighborhood compares each record with the window - 1 next ones", "statement": "For each key in turn, sorted_neighborhood calls the user's function for the pairs of positions i < j < i + window of the sorted data, in order, before anything is yielded, and goes on from its answers alone; that is (window - 1)(2n - window)/2 calls per key, or n(n - 1)/2 for a window larger than n.", "quantifier": "all data, keys, windows, size bounds, modes, and all user functions, stateful or failing", "why_tests_cant": "Counts over all sizes and windows.", "anchors": ["fog/clustering/sorted_neighborhood.py:sorted_neighborhood"]}
{"id": "C165", "title": "passjoin measures only strings of close lengths that share a piece", "statement": "passjoin calls the distance for the candidate pairs that are not both of length at most k, before anything is yielded, and goes on from its answers alone. (A, B) is a candidate if and only if B comes before A in the order used, their lengths differ by at most k, and one of the k + 1 almost equal pieces of B is found in A displaced by at most as many places as there are pieces before it, from the left, and after it, from the right. All strings at most k edits apart are candidates.", "quantifier": "all strings, k, sort or not, and all distance functions, stateful or failing", "why_tests_cant": "Exact filter over all strings.", "anchors": ["fog/clustering/passjoin.py:passjoin", "fog/clustering/passjoin.py:multi_match_aware_substrings"]}
{"id": "C166", "title": "The clusters do not depend on how the user's function computes its answers", "statement": "The models that call the user's function yield what the models with a pure function yield, with the same end (pairwise in all modes, its worker, clusters_from_buckets, blocking, sorted_neighborhood, adaptive_sorted_neighborhood, passjoin). A function with a state that answers as a pure one, such as a cache, gives the same run; only the answers to the calls made matter; an exception of the function stops the generator at once and goes through unchanged.", "quantifier": "all programs built from returns, exceptions, calls and yields, all functions and states", "why_tests_cant": "The function of the user is arbitrary.", "anchors": ["fog/clustering/pairwise.py", "fog/clustering/blocking.py:blocking", "fog/clustering/sorted_neighborhood.py", "fog/clustering/passjoin.py:passjoin", "fog/clustering/utils.py:clusters_from_buckets"]}
{"id": "C167", "title": "laesa: the calls of the distance, exactly", "statement": "With p pivots found among n items, laesa calls the distance 3 p n - p (p - 1) / 2 + k times, where k is the number of pairs that the pivots do not eliminate: first to choose the pivots, then for the table of the pivots, then for each item with each pivot and with each later item that is not eliminated; all the calls come before the first cluster. The distance is only ever called with items of the data, whatever it answers. The clusters are those of the model with a pure distance.", "quantifier": "all data, distances, draws, numbers of pivots, radii, size bounds, modes and set orders; for the arguments, all functions with a state that may raise", "why_tests_cant": "There is no test of laesa, and tests do not count calls.", "anchors": ["fog/clustering/laesa.py:laesa", "fog/clustering/laesa.py:pivot_selection"]}
{"id": "C168", "title": "The number laesa prints is the number of calls of the distance", "statement": "laesa prints DISTANCES followed by the number of times the distance was called.", "quantifier": "all data and distances", "why_tests_cant": "Nothing tests what is printed.", "anchors": ["fog/clustering/laesa.py:147"]}
{"id": "C169", "title": "laesa: what is printed, and when it cannot be worth it", "statement": "The number printed is the number of pairs that the pivots do not eliminate, pairs of positions i < k, each at most once; the calls made for the pivots are not counted. With the default number of pivots and 2 to 30 items, laesa calls the distance strictly more often than the n (n - 1) / 2 times of the quadratic method, for every distance and radius, whenever it finds its pivots.", "quantifier": "all data of 2 to 30 items, all distances, radii and draws", "why_tests_cant": "The claim is about all distances.", "anchors": ["fog/clustering/laesa.py:laesa"]}
{"id": "C170", "title": "quickjoin: the calls of the user's function", "statement": "With one process and no vp-tree, quickjoin calls the distance or the similarity only with items of the data, whatever it answers or raises; with at most block_size items, for all the pairs once, in order; the clusters are those of the model with a pure function. Without distance nor similarity nothing is checked first: with at most one item nothing is found, with more items the first comparison raises TypeError. With one item and block_size 0 it never ends.", "quantifier": "all data, radii, block sizes, betas, draws, size bounds and modes; all functions with a state that may raise", "why_tests_cant": "The function of the user is arbitrary; nothing tests calls without it.", "anchors": ["fog/clustering/quickjoin.py:quickjoin", "fog/clustering/quickjoin.py:partition"]}
{"id": "C171", "title": "Which match is found", "statement": "For all patterns, references to groups included, the engine tries exactly the ways to match that the pattern describes, each once and by priority: the left side of an alternative first, one more turn first, or last when lazy, and a turn that does not advance ends a repetition. The match found is the preferred way, groups included; when none is found there is none. A group gives what it matched last. Without references this is the meaning of C156. Replacing and splitting read the text once from left to right, take the preferred match of each place, and after an empty match accept no empty match at the same place; this determines their results.", "quantifier": "for all expressions, texts, positions, groups already matched, classes of characters and replacements", "why_tests_cant": "priorities show only on texts with several matches; all patterns and all texts", "anchors": ["fog/tokenizers/fingerprint.py:74", "fog/tokenizers/fingerprint.py:80", "fog/utils.py:27", "fog/phonetics/rusalka.py"]}
{"id": "C172", "title": "The C code of the Levenshtein distances", "statement": "As long as malloc succeeds, levenshtein_distance and limited_levenshtein_distance, seen as the C code that Cython makes of them, have no undefined behaviour on any strings: no character or cell is read or written outside of its string or block, before it is written or after it is freed, no block is freed twice, and the loops end. limited_levenshtein_distance raises OverflowError exactly when max_distance is not an unsigned int. With strings shorter than 2^32, the results are those over natural numbers: no 32 bit number wraps around in a way that matters, for all bounds up to 2^32 - 1.", "quantifier": "for all strings, bounds and states of the memory", "why_tests_cant": "Bounds are not checked (boundscheck(False), raw pointers): a bad access shows on some inputs and some machines only; strings and bounds near 2^32 are not tested.", "anchors": ["cfog/metrics/levenshtein.pyx:levenshtein_distance", "cfog/metrics/levenshtein.pyx:limited_levenshtein_distance"]}
{"id": "C173", "title": "limited_levenshtein_distance frees its memory", "statement": "After a call of limited_levenshtein_distance all the blocks that it allocated are freed.", "quantifier": "for all strings and bounds", "why_tests_cant": "A leak is not seen in the results.", "anchors": ["cfog/metrics/levenshtein.pyx:257"]}
{"id": "C174", "title": "What limited_levenshtein_distance leaves allocated", "statement": "limited_levenshtein_distance loses memory exactly when it returns max_distance + 1 although the lengths of the strings differ by max_distance or less; it then loses 6 bytes for each of the n characters left of the longer string, 0 < n. Otherwise, in particular when the distance is at most max_distance, nothing stays allocated.", "quantifier": "for all strings shorter than 2^32 and all bounds", "why_tests_cant": "A leak is not seen in the results.", "anchors": ["cfog/metrics/levenshtein.pyx:257", "cfog/metrics/levenshtein.pyx:261"]}
{"id": "C175", "title": "The C code with long strings and without memory", "statement": "levenshtein_distance is right for strings of any length, and without undefined behaviour when malloc fails.", "quantifier": "for all strings and answers of malloc", "why_tests_cant": "Tests have neither strings of 2^32 characters nor a failing malloc.", "anchors": ["cfog/metrics/levenshtein.pyx:47", "cfog/metrics/levenshtein.pyx:77", "cfog/metrics/levenshtein.pyx:195"]}
{"id": "C176", "title": "key_collision, blocking and intersection_index ask for each key once, before anything else", "statement": "key_collision (key or keys), blocking (block or blocks) and intersection_index call the user's key function exactly once per item, in the order of the data, before anything is yielded or compared; what follows depends on its answers only and is what the model with a pure function gives; if it raises, nothing is yielded, compared or called again. An unknown metric is refused before any call.", "quantifier": "all data, options, and all key and similarity functions, which may share a state, answer differently each time and raise", "why_tests_cant": "tests use pure lambdas on small data and do not count or order their calls", "anchors": ["fog/clustering/key_collision.py:58-75", "fog/clustering/blocking.py:106-115", "fog/clustering/intersection_index.py:63-86"]}
{"id": "C177", "title": "sorted_neighborhood asks for the keys once per pass", "statement": "sorted_neighborhood and adaptive_sorted_neighborhood call each key function once per item, in the order of the data, pass after pass, and not at all for a key None; an iterator is exhausted by the first pass. With keys that do not change, the comparisons and the clusters are those of the model where keys are not called.", "quantifier": "all data, lists of keys, windows and modes; all key and similarity functions, which may share a state and raise", "why_tests_cant": "tests do not observe the calls of the keys", "anchors": ["fog/clustering/sorted_neighborhood.py:82-99", "fog/clustering/sorted_neighborhood.py:198-227"]}
{"id": "C178", "title": "A key function is called once per item by hashjoin and minhash", "statement": "hashjoin and minhash call the key function at most once for each item.", "quantifier": "all data without repetition and pure key functions", "why_tests_cant": "the results are the same however many times the key is called; only the cost differs", "anchors": ["fog/join/hashjoin.py:48-58", "fog/clustering/minhash.py:141-145"]}
{"id": "C179", "title": "hashjoin: the calls of the key function, exactly", "statement": "hashjoin calls the function for each outer item (of the shorter side if both have a length, of the left side else) and then for all the inner items again, n(m+1) calls in all, or n+m if the inner side is an iterator; whatever the function answers, and up to the call that raises. A pair is yielded as soon as the key of its inner item is known, and the pairs are those of the model with pure functions.", "quantifier": "all iterables, key and keys functions, with state and exceptions", "why_tests_cant": "tests look at the pairs only", "anchors": ["fog/join/hashjoin.py:27-73"]}
{"id": "C180", "title": "minhash: the calls of the key function, exactly", "statement": "minhash asks for the key of each item in order, then for both keys of each pair it meets before yielding anything; two different items are met once for each band in which their signatures are the same. With no band it fails before any call, with more bands than hashes after one call.", "quantifier": "all data, pure keys, parameters, numbers of bands", "why_tests_cant": "tests do not count the calls, and have few collisions", "anchors": ["fog/clustering/minhash.py:115-151"]}
{"id": "C181", "title": "hashjoin finds the pairs that share a key, whatever iterable keys returns", "statement": "If keys returns an iterable of keys for each item, hashjoin yields every pair of a left and a right item that share a key.", "quantifier": "all lists of items, all functions keys returning lists, sets or generators", "why_tests_cant": "the tests use functions that return lists", "anchors": ["fog/join/hashjoin.py:61-73"]}
{"id": "C182", "title": "hashjoin with generators as keys joins each outer item with the first inner item only", "statement": "If keys returns a generator, set(key_a) is empty after the first turn of the inner loop: exactly the pairs of an outer item and the first inner item that share a key are yielded. If keys returns lists, all the pairs that share a key are.", "quantifier": "all iterables of items (re-iterable inner side) and all functions keys", "why_tests_cant": "the tests use functions that return lists", "anchors": ["fog/join/hashjoin.py:61-73"]}
{"id": "C183", "title": "ppjoin with any threshold: the usual ones", "statement": "The model of ppjoin for any threshold, with integers that may be negative, python's negative indices and divisions that may fail, gives the same result as the model of C88 to C91 for every threshold above 0 and up to 1, failures included.", "quantifier": "all records, metrics, tokenizers, algorithms and orderings, and all rational thresholds above 0 and up to 1", "why_tests_cant": "The tests use a few thresholds between 0.3 and 0.9; the agreement over the whole interval, with the list of required overlaps read and written by index, needs a proof.", "anchors": ["fog/clustering/ppjoin.py:31-95", "fog/clustering/ppjoin.py:304-426"]}
{"id": "C184", "title": "Where ppjoin overruns a record or divides by zero", "statement": "If one record has so few tokens that the epsilon of the code is larger than the share the threshold asks for (t * n <= 1e-6 for jaccard, t * t * n for binary_cosine, t * n <= 1e-6 * (2 - t) or t > 2 for dice), ppjoin raises IndexError; this is so for every record when the threshold is 0 or negative (except binary_cosine with a negative one).  With any record, jaccard with -1 and dice with 2 raise ZeroDivisionError.", "quantifier": "all rational thresholds, all lists of records, algorithms and orderings", "why_tests_cant": "No test uses such a threshold, and the condition on the number of tokens is a matter of the sixth decimal.", "anchors": ["fog/clustering/ppjoin.py:40-95", "fog/clustering/ppjoin.py:324-325"]}
{"id": "C185", "title": "ppjoin finds nothing from a threshold of 1 on", "statement": "With a threshold of 1 or more (and less than 2 for dice) ppjoin yields nothing when all records have tokens, even for identical records, and raises IndexError when one has none.", "quantifier": "all rational thresholds from 1 on, all lists of records, algorithms and orderings", "why_tests_cant": "The tests never use a threshold of 1 or more; the claim is over infinitely many thresholds.", "anchors": ["fog/clustering/ppjoin.py:324-400"]}
{"id": "C186", "title": "A threshold of 0 or less joins every pair", "statement": "Every pair of records has a similarity of at least 0, hence ppjoin with a threshold of 0 or less yields every pair.", "quantifier": "all thresholds up to 0, all lists of records", "why_tests_cant": "False: it raises or yields nothing (see C184, C187).  The tests never use such a threshold.", "anchors": ["fog/clustering/ppjoin.py:31-95", "fog/clustering/ppjoin.py:411"]}
{"id": "C187", "title": "ppjoin only finds pairs for thresholds strictly between 0 and 1", "statement": "If the threshold is 0 or less, or 1 or more, ppjoin raises or yields no pair at all.", "quantifier": "all rational thresholds outside the open interval from 0 to 1, all lists of records, algorithms and orderings", "why_tests_cant": "A test tries finitely many thresholds and records; negative thresholds of binary_cosine go through the whole join before failing.", "anchors": ["fog/clustering/ppjoin.py:304-426"]}
{"id": "C188", "title": "The programs of nn_descent and nn_descent_full do what their models do, all the calls first", "statement": "With a pure similarity or distance, nn_descent and nn_descent_full, as programs that call it, make all their calls, then yield exactly the clusters of the models of C53 and C80; when they fail they fail with the same exception and have yielded nothing.", "quantifier": "all data, similarities or distances, draws, numbers of neighbors, radii, sizes and modes", "why_tests_cant": "A test looks at the clusters of some runs, not at the interleaving of calls and clusters in all of them.", "anchors": ["fog/clustering/nn_descent.py:60-168", "fog/clustering/nn_descent.py:219-374"]}
{"id": "C189", "title": "What nn_descent compares", "statement": "nn_descent first compares each item with its sample, in order.  Then each turn compares exactly the pairs of different positions that are the ends of a path of two steps in the undirected graph of the lists at the start of the turn, each pair once for each such path; hence d * (d - 1) calls for each position with d neighbors.  The answers of a turn do not change the calls of that turn, no item is compared with itself, and all the calls come before the first cluster.", "quantifier": "all data, draws, and functions of the user, even with a state or raising", "why_tests_cant": "Stateful and raising functions, and all the graphs, are out of reach of tests, which never look at the calls.", "anchors": ["fog/clustering/nn_descent.py:115-151", "fog/clustering/nn_descent.py:46-57"]}
{"id": "C190", "title": "Number of calls of nn_descent", "statement": "When it ends, nn_descent with n items and k neighbors has made at least n * k * k calls, and at most n * k for the samples plus n * (n - 1) * (n - 2) for each turn.", "quantifier": "all data, draws, numbers of neighbors, and functions of the user", "why_tests_cant": "A bound for all sizes and all draws.", "anchors": ["fog/clustering/nn_descent.py:115-151"]}
{"id": "C191", "title": "nn_descent makes a subquadratic number of comparisons", "statement": "With the default number of neighbors, log2(n), the number of calls of nn_descent is less than quadratic in the number n of items, as the head of the file says.", "quantifier": "all data and draws", "why_tests_cant": "False: some draws make hubs, each of which costs (n - 1) * (n - 2) calls in the first turn alone.  No test counts the calls, and such draws are rare.", "anchors": ["fog/clustering/nn_descent.py:5-6", "fog/clustering/nn_descent.py:126-151"]}
{"id": "C192", "title": "Each turn of nn_descent_full makes a linear number of comparisons", "statement": "With n items, k neighbors and r = int(rho * k), nn_descent_full makes at most n * k calls for the samples, then at most n * (r * (2r - 1) + 2r * (k + r)) calls in each turn.", "quantifier": "all data, draws, parameters with rho not negative, and functions of the user", "why_tests_cant": "A bound for all sizes, all draws and all functions.", "anchors": ["fog/clustering/nn_descent.py:171-216", "fog/clustering/nn_descent.py:284-357"]}
{"id": "C193", "title": "nn_descent ends with every function", "statement": "When fewer neighbors than items are asked for, nn_descent ends, whatever the function of the user answers.", "quantifier": "all functions of the user, with or without a state, that do not raise", "why_tests_cant": "False: with three items and a similarity that grows with each call, every turn changes the lists and the loop never ends.  A test cannot wait for ever.", "anchors": ["fog/clustering/nn_descent.py:122-151"]}
{"id": "C194", "title": "nn_descent without a similarity nor a distance", "statement": "When neither a similarity nor a distance is given, nn_descent and nn_descent_full raise TypeError at their first comparison, after the first item was given its sample, and yield nothing; when there is no item, or no neighbor to look for as for one item and the default k, None is never called and nn_descent finds nothing without failing.", "quantifier": "all data, draws and parameters", "why_tests_cant": "The tests always give a function; which inputs fail depends on the data and on k.", "anchors": ["fog/clustering/nn_descent.py:60-168", "fog/clustering/nn_descent.py:219-374"]}
{"id": "C195", "title": "nn_descent_full with a null or negative sampling rate", "statement": "When int(rho * k) is 0 or rho is -1 or less, the clusters of nn_descent_full are those of the neighbors drawn first, k other positions for each position; a negative number of samples -m takes all but the last m entries of a list, in order and without any draw.", "quantifier": "all data, similarities, draws, numbers of turns and parameters", "why_tests_cant": "The tests have two rates and a few seeds.", "anchors": ["fog/clustering/nn_descent.py:171-198", "fog/clustering/nn_descent.py:219-374"]}
{"id": "C196", "title": "naive_cosine_pairs misses no pair of non-null cosine", "statement": "Every pair of distinct vectors whose sparse_cosine_similarity is not 0 is yielded by naive_cosine_pairs; when all weights are positive, the pairs yielded are exactly those of positive cosine.", "quantifier": "all collections of sparse vectors", "why_tests_cant": "All collections of vectors and weights, with real cosines.", "anchors": ["fog/clustering/fagin.py:naive_cosine_pairs", "fog/metrics/cosine.py:sparse_cosine_similarity"]}
{"id": "C197", "title": "threshold_algorithm_k1 with the cosine it computes", "statement": "threshold_algorithm_k1 raises nothing on vectors that are not null and yields for each one the other vector of largest cosine.", "quantifier": "all collections of sparse vectors", "why_tests_cant": "All collections of vectors and weights, with real cosines; the vector of the bound may be null when no vector is.", "anchors": ["fog/clustering/fagin.py:threshold_algorithm_k1", "fog/metrics/cosine.py:sparse_cosine_similarity"]}
{"id": "C198", "title": "sqrt_indexation_pairs with the cosine it computes", "statement": "sqrt_indexation_pairs yields the pairs of each vector with its leader of largest cosine and with the earlier vectors of same leader, until the first vector whose cosine with a leader fails; the cosine fails exactly when two different dicts that are not empty are compared and one has only null weights.", "quantifier": "all collections of sparse vectors and shuffles", "why_tests_cant": "All shuffles, weights and positions of null vectors.", "anchors": ["fog/clustering/fagin.py:sqrt_indexation_pairs", "fog/metrics/cosine.py:sparse_cosine_similarity"]}
{"id": "C199", "title": "ppjoin calls the tokenizer once per record, before anything is yielded", "statement": "ppjoin, all_pairs and ppjoin_plus call the tokenizer exactly once per record, in the order of the records, before the first pair; what they yield depends only on the elements of its answers, which may be any iterables; if it raises, the exception comes out and nothing has been yielded; a wrong metric or token ordering is refused before any call.", "quantifier": "all tokenizers with state or exceptions, records, thresholds, metrics and orderings", "why_tests_cant": "All behaviours of the function of the user, including stateful and failing ones.", "anchors": ["fog/clustering/ppjoin.py:ppjoin", "fog/clustering/ppjoin.py:preprocess"]}
{"id": "C200", "title": "What threshold_algorithm_k1 is sure to find", "statement": "The vector that threshold_algorithm_k1 yields for another one is at least as similar to it as the vector of least weight in each of its dimensions; it is the most similar one when each dimension is shared with at most one other vector. The same holds for the cosines when no weight is null.", "quantifier": "all collections of sparse vectors, similarity functions and dimensions", "why_tests_cant": "All collections of vectors, weights and ties; it tells how far the early stop can be from the nearest vector.", "anchors": ["fog/clustering/fagin.py:threshold_algorithm_k1", "fog/metrics/cosine.py:sparse_cosine_similarity"]}
{"id": "C201", "title": "The C code of the _lte1 functions", "statement": "levenshtein_distance_lte1 and damerau_levenshtein_distance_lte1, with lengths, positions and cost on 32 bits as in the C code, raise nothing on any strings; they answer for the parts of the strings that the lengths modulo 2^32 tell, and are right when the strings have less than 2^32 characters.", "quantifier": "all strings of any length, same object or not", "why_tests_cant": "Strings of 2^32 characters and all contents; positions are only safe by an invariant of the loops.", "anchors": ["cfog/metrics/levenshtein.pyx:levenshtein_distance_lte1", "cfog/metrics/levenshtein.pyx:damerau_levenshtein_distance_lte1"]}
{"id": "C202", "title": "The _lte1 functions are right for all strings", "statement": "levenshtein_distance_lte1 and damerau_levenshtein_distance_lte1 tell whether the distance is at most 1 for strings of all lengths.", "quantifier": "all strings of any length", "why_tests_cant": "It fails only with strings of 2^32 characters or more.", "anchors": ["cfog/metrics/levenshtein.pyx:levenshtein_distance_lte1", "cfog/metrics/levenshtein.pyx:damerau_levenshtein_distance_lte1"]}
{"id": "C203", "title": "N-grams of any integer size", "statement": "ngrams(0, s) yields len(s) + 1 empty grams; ngrams(-m, s) yields the grams of size len(s) - m but the last one, then len(s) + 1 empty grams, and only empty ones when m >= len(s); these grams cannot be joined again (IndexError), except those of size 0 of an empty sequence. A threshold of 1 or more leaves one key of ngram_keys, one below 0 counts as 0, and with n = 0 all the keys of all the strings are empty.", "quantifier": "all sequences, all integers n and all thresholds", "why_tests_cant": "All sizes and lengths; python counts a negative end of a slice from the end of the sequence.", "anchors": ["fog/tokenizers/ngrams.py:ngrams", "fog/tokenizers/ngrams.py:join_ngrams", "fog/key/misc.py:ngram_keys"]}
{"id": "C204", "title": "Adaptive sorted neighborhood with windows of any integer size", "statement": "With a negative window adaptive_sorted_neighborhood raises IndexError, whatever the data, even empty, and the similarity. With window = 0 it never returns: it raises or does not end, the latter when the first and the last sorted records are not similar. With window = 1 it yields nothing if no record is similar to itself, and does not end otherwise.", "quantifier": "all data, keys (at least one), similarities and integer windows", "why_tests_cant": "All windows and similarities; python counts negative positions from the end, so that a wrong window is not caught by the first access, and a test cannot observe that a loop has no end.", "anchors": ["fog/clustering/sorted_neighborhood.py:full_AA_SNM", "fog/clustering/sorted_neighborhood.py:adaptive_sorted_neighborhood"]}
{"id": "C205", "title": "intersection_index with a radius of 0 or less", "statement": "With a radius of 0 or less, intersection_index links exactly the items having a token in common, for both metrics, and gives the clusters of pairwise with that test (min_size >= 2), though the similarity of any two items reaches such a radius.", "quantifier": "all data, keys, orders of sets, and radii <= 0", "why_tests_cant": "All data and radii; the docstring says that all the pairs are returned.", "anchors": ["fog/clustering/intersection_index.py:intersection_index"]}
{"id": "C206", "title": "Chunk sizes of any integer value", "statement": "With several processes and a negative chunk_size, pairwise compares nothing and says nothing: fuzzy clusters are empty, and every item is alone in its component, whatever the similarity; chunk_size = 0 raises ZeroDivisionError, even without data.", "quantifier": "all data, keys, similarities, size bounds and integer chunk sizes", "why_tests_cant": "All data and sizes; the result is silently wrong.", "anchors": ["fog/clustering/utils.py:upper_triangular_matrix_chunk_iter", "fog/clustering/pairwise.py:pairwise_connected_components", "fog/clustering/pairwise.py:pairwise_fuzzy_clusters"]}
{"id": "C207", "title": "floatsam_sparsification ends within a known number of turns or never", "statement": "With a learning rate of 0 or more, once the threshold is above all the weights (after K turns) floatsam_sparsification has ended or never will; with a rate of 0 or less the same holds once the threshold is below all of them, and with a null rate after the first turn. On a connected graph whose weights reach the starting threshold, a rate of 0 or less makes it never end.", "quantifier": "all weighted undirected graphs with an edge, starting thresholds, rates of both signs and drifter sizes (at least 1 for the last statement)", "why_tests_cant": "Non-termination over all graphs and rates.", "anchors": ["fog/graph/sparsification.py:floatsam_sparsification"]}
{"id": "C208", "title": "passjoin with thresholds of any integer value", "statement": "With a negative k, passjoin fails on the first string, whatever the data, the distance and the mode: ZeroDivisionError for k = -1, UnboundLocalError below; only without data does it end. partition(k, l) fails in the same way for every length. For k >= 0 the lengths looked up are exactly those within k of the string's own (not less than it when sorted).", "quantifier": "all data, distances, modes, sort or not, and integers k", "why_tests_cant": "All thresholds and lengths: a loop that runs no turn leaves its variable unbound only when the remainder of a division by a negative number has the sign of the divisor.", "anchors": ["fog/clustering/passjoin.py:passjoin", "fog/clustering/passjoin.py:partition"]}
{"id": "C209", "title": "minhash with sizes and bands of any integer value", "statement": "minhash with a negative number of bands (and h > 0) finds nothing, without an error; with a negative h the signatures are empty, all the items share every band, and the clusters are exactly the components of the pairs whose jaccard similarity reaches the radius, whatever the seed.", "quantifier": "all data, keys, radii, parameters, integers h and bands", "why_tests_cant": "All sizes; the first result is silently wrong, and the second one silently exact and quadratic.", "anchors": ["fog/clustering/minhash.py:minhash", "fog/lsh/minhash.py:MinHash"]}
