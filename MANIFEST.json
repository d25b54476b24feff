{
 "claims": [
  {
   "property": "C01",
   "status": "partial",
   "theorems": [
    "C01_shortcut_refuted",
    "C01_astral_refuted",
    "C01_distance_partial",
    "C01_symmetric_refuted"
   ],
   "note": "False of the code in two families of inputs (C01_shortcut_refuted: 'aa'/'ab' gives 0; C01_astral_refuted: code points are compared modulo 2^16). C01_distance_partial is the exact behaviour on the basic multilingual plane: the edit distance, or one less exactly in shortcut_case. C57 has the bounds."
  },
  {
   "property": "C02",
   "status": "partial",
   "theorems": [
    "C02_astral_refuted",
    "C02_limited_partial"
   ],
   "note": "Proved for all strings of the basic multilingual plane and all max_distance; refuted beyond U+FFFF (C02_astral_refuted)."
  },
  {
   "property": "C03",
   "status": "proved",
   "theorems": [
    "C03_lte1",
    "C03_symmetric"
   ],
   "note": ""
  },
  {
   "property": "C04",
   "status": "proved",
   "theorems": [
    "C04_damerau"
   ],
   "note": ""
  },
  {
   "property": "C05",
   "status": "partial",
   "theorems": [
    "C05_complete_refuted",
    "C05_levenshtein_partial",
    "C05_damerau_partial",
    "C05_exception_exact"
   ],
   "note": "False of the code: 'aa' and 'aba' share no key (C05_complete_refuted). Proved for every other pair (C05_levenshtein_partial, C05_damerau_partial), and the excepted pairs are exactly the missed ones (C05_exception_exact, C58)."
  },
  {
   "property": "C06",
   "status": "partial",
   "theorems": [
    "C06_sound",
    "C06_damerau_refuted",
    "C06_damerau_partial",
    "C06_count"
   ],
   "note": "Proved without transpositions, with the number of keys. With transpositions it is false ('abcd'/'badc', C06_damerau_refuted); a shared key then means Damerau-Levenshtein distance at most 2 (C06_damerau_partial)."
  },
  {
   "property": "C07",
   "status": "proved",
   "theorems": [
    "C07_levenshtein",
    "C07_damerau",
    "C07_count"
   ],
   "note": ""
  },
  {
   "property": "C08",
   "status": "partial",
   "theorems": [
    "C08_complete_refuted",
    "C08_damerau_refuted",
    "C08_total_refuted",
    "C08_levenshtein_partial",
    "C08_total_partial"
   ],
   "note": "False of the code: 'abcdef'/'bcdefg' share no block, nor 'abcd'/'badc' with transpositions, and '' raises IndexError with transpositions. C08_levenshtein_partial covers all pairs but those of equal lengths multiple of 3 that are not two replacements apart; C08_total_partial covers all non-empty strings."
  },
  {
   "property": "C09",
   "status": "proved",
   "theorems": [
    "C09_pairs",
    "C09_complete",
    "C09_sound",
    "C09_limited_distance"
   ],
   "note": ""
  },
  {
   "property": "C10",
   "status": "proved",
   "theorems": [
    "C10_components",
    "C10_sort"
   ],
   "note": ""
  },
  {
   "property": "C11",
   "status": "proved",
   "theorems": [
    "C11_tiles",
    "C11_balanced",
    "C11_partition",
    "C11_count"
   ],
   "note": ""
  },
  {
   "property": "C12",
   "status": "proved",
   "theorems": [
    "C12_connected_components",
    "C12_order_independent",
    "C12_buckets"
   ],
   "note": ""
  },
  {
   "property": "C13",
   "status": "proved",
   "theorems": [
    "C13_fuzzy_clusters",
    "C13_unknown_mode"
   ],
   "note": ""
  },
  {
   "property": "C14",
   "status": "proved",
   "theorems": [
    "C14_chunks",
    "C14_chunk_contents",
    "C14_total"
   ],
   "note": ""
  },
  {
   "property": "C15",
   "status": "proved",
   "theorems": [
    "C15_serial",
    "C15_parallel",
    "C15_schedule_independent"
   ],
   "note": ""
  },
  {
   "property": "C16",
   "status": "partial",
   "theorems": [
    "C16_leader",
    "C16_leader_partition",
    "C16_leader_total",
    "C16_max_size_refuted"
   ],
   "note": "Refuted as stated for finite max_size: a cluster larger than max_size raises AttributeError (set.delete). C16_leader characterises all runs, including the failing ones; C16_leader_partition and C16_leader_total give the claim without max_size."
  },
  {
   "property": "C17",
   "status": "partial",
   "theorems": [
    "C17_serial",
    "C17_parallel",
    "C17_processes_refuted",
    "C17_unknown_mode",
    "C17_known_modes"
   ],
   "note": "Star shape, soundness and coverage proved for serial and parallel runs; equality of serial and parallel runs is refuted (C17_processes_refuted)."
  },
  {
   "property": "C18",
   "status": "proved",
   "theorems": [
    "C18_links",
    "C18_components",
    "C18_schedule_independent"
   ],
   "note": ""
  },
  {
   "property": "C19",
   "status": "partial",
   "theorems": [
    "C19_key",
    "C19_merge_bounds_refuted",
    "C19_merge_partial"
   ],
   "note": "With key: proved. With keys and merge: proved for the default bounds; refuted for the others, key_collision does not hand min_size and max_size to clusters_from_buckets (C19_merge_bounds_refuted). C59 is the exact behaviour."
  },
  {
   "property": "C20",
   "status": "proved",
   "theorems": [
    "C20_pairs",
    "C20_positive_radius",
    "C20_components",
    "C20_metrics"
   ],
   "note": ""
  },
  {
   "property": "C21",
   "status": "partial",
   "theorems": [
    "C21_links",
    "C21_components",
    "C21_large_window",
    "C21_iterator_refuted"
   ],
   "note": "Proved for data that can be iterated over several times (and, with one key, for any data). Refuted for an iterator with several keys: the first pass exhausts it (C21_iterator_refuted)."
  },
  {
   "property": "C22",
   "status": "partial",
   "theorems": [
    "C22_adaptive_partial",
    "C22_endless_refuted",
    "C22_index_error_refuted"
   ],
   "note": "False of the code: two equal records with window 2 raise IndexError (C22_index_error_refuted) and window 1 never ends (C22_endless_refuted). C22_adaptive_partial proves the claim for window >= 2 when no similar records let the enlargement run over the end; C60 describes all outcomes."
  },
  {
   "property": "C23",
   "status": "partial",
   "theorems": [
    "C23_pairs",
    "C23_components",
    "C23_vptree",
    "C23_terminates_refuted",
    "C23_similarity_refuted"
   ],
   "note": "Refuted on two clauses: 501 copies of an item never end with the default block size (C23_terminates_refuted; C85 gives the exact condition), and a similarity loses pairs once there are more items than block_size (C23_similarity_refuted; C86 says what is compared). With a distance, exactness is proved for all draws, blocks, trees and workers whenever quickjoin ends."
  },
  {
   "property": "C24",
   "status": "partial",
   "theorems": [
    "C24_all_pairs_refuted"
   ],
   "note": "Refuted as stated: a threshold of 1 finds nothing and an empty record raises IndexError. C88 proves exactness for all other inputs, C91 characterises the failures."
  },
  {
   "property": "C25",
   "status": "partial",
   "theorems": [
    "C25_modes_refuted"
   ],
   "note": "Refuted as stated: identical records with few tokens are lost by default and plus modes, compute_overlap can return a number just below the required one, and already tokenized records raise KeyError with the default ordering. C89 and C90 prove the exact behaviour, C91 the failures."
  },
  {
   "property": "C26",
   "status": "partial",
   "theorems": [
    "C26_components",
    "C26_sound",
    "C26_same_tokens",
    "C26_total_refuted"
   ],
   "note": "Refuted on the last clause: for h = 4 and radius 0.2, guess_bands returns 5 and the null step of range raises ValueError (C26_total_refuted; C83 gives the exact domain). Links, soundness and sharing of bands are proved."
  },
  {
   "property": "C27",
   "status": "proved",
   "theorems": [
    "C27_params",
    "C27_params_found",
    "C27_tokens",
    "C27_signature",
    "C27_empty",
    "C27_set",
    "C27_order",
    "C27_union",
    "C27_similarity",
    "C27_similarity_empty"
   ],
   "note": ""
  },
  {
   "property": "C28",
   "status": "proved",
   "theorems": [
    "C28_popcount64",
    "C28_popcount32",
    "C28_popcount16",
    "C28_popcount",
    "C28_simhash_distance",
    "C28_lsb_signature",
    "C28_lsb_similarity"
   ],
   "note": ""
  },
  {
   "property": "C29",
   "status": "partial",
   "theorems": [
    "C29_refused",
    "C29_majority",
    "C29_order",
    "C29_sizes_refuted"
   ],
   "note": "Refuted on the last clause: sizes 0, 1 and 2 pass the check but any token then raises ValueError, since no hexadecimal digit of the digest is kept (C29_sizes_refuted). Order independence, range and the strict majority of every bit are proved for the other accepted sizes; the metric clause is C81."
  },
  {
   "property": "C30",
   "status": "partial",
   "theorems": [
    "C30_least_place",
    "C30_set",
    "C30_no_size",
    "C30_range_refuted"
   ],
   "note": "Refuted on the range for the empty set, whose values are m + 1 (C30_range_refuted). Set dependence, equality with the full computation and the range 0..m-1 for non-empty sets are proved; floats are exact rationals."
  },
  {
   "property": "C31",
   "status": "proved",
   "theorems": [
    "C31_jaccard",
    "C31_dice",
    "C31_overlap",
    "C31_empty",
    "C31_symmetric",
    "C31_range",
    "C31_one",
    "C31_intersection_size",
    "C31_intersection_itself"
   ],
   "note": ""
  },
  {
   "property": "C32",
   "status": "proved",
   "theorems": [
    "C32_value",
    "C32_empty",
    "C32_symmetric",
    "C32_range"
   ],
   "note": ""
  },
  {
   "property": "C33",
   "status": "proved",
   "theorems": [
    "C33_cosine",
    "C33_range",
    "C33_symmetric",
    "C33_counter",
    "C33_dot",
    "C33_normalize",
    "C33_normalized_dot",
    "C33_binary",
    "C33_binary_range"
   ],
   "note": ""
  },
  {
   "property": "C34",
   "status": "proved",
   "theorems": [
    "C34_peek",
    "C34_len",
    "C34_undo",
    "C34_plus"
   ],
   "note": ""
  },
  {
   "property": "C35",
   "status": "partial",
   "theorems": [
    "C35_adjacent_refuted",
    "C35_idempotent",
    "C35_adjacent_partial"
   ],
   "note": "Refuted as stated: the dot of the regular expression does not match a line break, so runs of line breaks are kept. Proved: idempotence, and absence of doubles for strings without line breaks. The exact behaviour is C61."
  },
  {
   "property": "C36",
   "status": "proved",
   "theorems": [
    "C36_count",
    "C36_short",
    "C36_windows",
    "C36_join",
    "C36_join_any",
    "C36_join_fails"
   ],
   "note": ""
  },
  {
   "property": "C37",
   "status": "proved",
   "theorems": [
    "C37_enumeration",
    "C37_keys",
    "C37_collision"
   ],
   "note": ""
  },
  {
   "property": "C38",
   "status": "proved",
   "theorems": [
    "C38_omission",
    "C38_skeleton",
    "C38_no_repetition",
    "C38_letters",
    "C38_first_appearances",
    "C38_idempotent"
   ],
   "note": ""
  },
  {
   "property": "C39",
   "status": "partial",
   "theorems": [
    "C39_sorted",
    "C39_tokens",
    "C39_case_refuted",
    "C39_order_refuted",
    "C39_idempotent_refuted"
   ],
   "note": "Proved for all options: the tokens are exactly those of the normalized string, strictly sorted and without repetition. Refuted for all options: splitting letters make the case matter, a stopword of two words depends on the order, and with a minimum token size a key may lose a token when fingerprinted again. The conditions under which the invariances hold are C62."
  },
  {
   "property": "C40",
   "status": "partial",
   "theorems": [
    "C40_digits",
    "C40_zero",
    "C40_case",
    "C40_adjacent_refuted",
    "C40_outside_refuted"
   ],
   "note": "Proved: digits, position of zero, case. Refuted: MM gives 66 (the first code is not squeezed with the next one), and the characters between P and H matter because PH is replaced before they are dropped. The exact form is C63."
  },
  {
   "property": "C41",
   "status": "partial",
   "theorems": [
    "C41_defined_refuted",
    "C41_vowel_refuted"
   ],
   "note": "Refuted: names such as hh or ij raise IndexError, and the single vowel e is its own code. The exact behaviour is C64."
  },
  {
   "property": "C42",
   "status": "partial",
   "theorems": [
    "C42_errors",
    "C42_identity",
    "C42_clusters_order",
    "C42_range_refuted",
    "C42_items_order_refuted"
   ],
   "note": "Proved: TypeError exactly on invalid inputs, identity gives 1, order of clusters is irrelevant. Refuted with witnesses: a truth cluster with a repeated item gives precision 2; on F1 ties the order of items inside a truth cluster changes precision and recall. C65 states what holds exactly."
  },
  {
   "property": "C43",
   "status": "proved",
   "theorems": [
    "C43_labels_to_clusters",
    "C43_clusters_to_labels",
    "C43_disjoint",
    "C43_round_trip_clusters",
    "C43_round_trip_labels",
    "C43_flat"
   ],
   "note": ""
  },
  {
   "property": "C44",
   "status": "partial",
   "theorems": [
    "C44_components",
    "C44_sum",
    "C44_decreasing_refuted"
   ],
   "note": "The sizes are those of the components for every filter which ignores the direction (C44_components), and sum to the number of nodes; the decreasing order is refuted (C44_decreasing_refuted: sizes come in node order). C66 is the exact behaviour for all filters."
  },
  {
   "property": "C45",
   "status": "partial",
   "theorems": [
    "C45_threshold",
    "C45_termination_refuted"
   ],
   "note": "The returned threshold and the removed edges are proved (C45_threshold); termination is refuted, with the default parameters on a star of 8 branches (C45_termination_refuted). C67 says exactly when it stops."
  },
  {
   "property": "C46",
   "status": "partial",
   "theorems": [
    "C46_modes_partial",
    "C46_modes_refuted"
   ],
   "note": "The two modes agree with the specification and each other (C46_modes_partial) except for cosine when a kept node has only null weights: the topology mode then raises KeyError (C46_modes_refuted). C68 is the proved companion."
  },
  {
   "property": "C47",
   "status": "partial",
   "theorems": [
    "C47_key_partial",
    "C47_one_per_key_refuted",
    "C47_iterables_refuted"
   ],
   "note": "Proved for a single key when the right side is not an iterator (C47_key_partial). Refuted for one-shot iterables on the right (C47_iterables_refuted) and for several keys: a pair comes once, not once per shared key (C47_one_per_key_refuted). C69 is the exact behaviour."
  },
  {
   "property": "C48",
   "status": "partial",
   "theorems": [
    "C48_total_and_in_order",
    "C48_lossless_refuted",
    "C48_nonempty_refuted"
   ],
   "note": "Termination, absence of errors and the order of the tokens are proved for every string. Two parts are false: E.Macron loses Macron (the text after the last point of what looks like an acronym is not yielded), and a-t-, yields an empty token. C70 states when nothing is lost."
  },
  {
   "property": "C49",
   "status": "proved",
   "theorems": [
    "C49_split_hashtag_lossless",
    "C49_split_hashtag_short"
   ],
   "note": ""
  },
  {
   "property": "C50",
   "status": "proved",
   "theorems": [
    "C50_constructor",
    "C50_filters",
    "C50_plain_filters"
   ],
   "note": ""
  },
  {
   "property": "C51",
   "status": "partial",
   "theorems": [
    "C51_split_partial",
    "C51_split_unique_partial",
    "C51_split_target_refuted",
    "C51_transform_partial"
   ],
   "note": "Proved for split without a target column (the cell values are also shown to be uniquely determined) and for transform with a chain of named operations that succeed. Refuted for split with a target column: the values accumulate in the line, so that rows get wider and wider, and a line with an empty cell is not extended (C72 gives the exact output). The --eval option of transform is not modelled."
  },
  {
   "property": "C52",
   "status": "partial",
   "theorems": [
    "C52_refuted"
   ],
   "note": "Refuted: escape_string does not escape backslashes nor control characters. C73 proves that exactly the other strings read back."
  },
  {
   "property": "C53",
   "status": "proved",
   "theorems": [
    "C53_links",
    "C53_links_distance",
    "C53_initial",
    "C53_turns"
   ],
   "note": ""
  },
  {
   "property": "C54",
   "status": "proved",
   "theorems": [
    "C54_balls",
    "C54_covers"
   ],
   "note": "The radius query of the external VPTree is a section variable assumed exact."
  },
  {
   "property": "C55",
   "status": "proved",
   "theorems": [
    "C55_pairs"
   ],
   "note": ""
  },
  {
   "property": "C56",
   "status": "partial",
   "theorems": [
    "C56_refuted",
    "C56_pivots_refuted"
   ],
   "note": "Refuted: the elimination compares with the distance to the nearest pivot instead of the radius, so pairs within radius are missed (data [0, 1] with the first item as pivot), and repeated items can lead to an IndexError. C75 proves exactly what is linked. The function is marked 'currently not working' in the source."
  },
  {
   "property": "C57",
   "status": "proved",
   "theorems": [
    "C57_bounds",
    "C57_distinct_letters",
    "C57_symmetric"
   ],
   "note": ""
  },
  {
   "property": "C58",
   "status": "proved",
   "theorems": [
    "C58_share_iff"
   ],
   "note": ""
  },
  {
   "property": "C59",
   "status": "proved",
   "theorems": [
    "C59_merge",
    "C59_no_merge"
   ],
   "note": ""
  },
  {
   "property": "C60",
   "status": "proved",
   "theorems": [
    "C60_outcomes",
    "C60_links"
   ],
   "note": ""
  },
  {
   "property": "C61",
   "status": "proved",
   "theorems": [
    "C61_runs",
    "C61_runs_exist",
    "C61_doubles",
    "C61_doubles_roman"
   ],
   "note": ""
  },
  {
   "property": "C62",
   "status": "proved",
   "theorems": [
    "C62_ngrams",
    "C62_case",
    "C62_order",
    "C62_idempotent"
   ],
   "note": ""
  },
  {
   "property": "C63",
   "status": "proved",
   "theorems": [
    "C63_form",
    "C63_letters",
    "C63_no_double"
   ],
   "note": ""
  },
  {
   "property": "C64",
   "status": "proved",
   "theorems": [
    "C64_error",
    "C64_short",
    "C64_vowels",
    "C64_nonempty",
    "C64_letters"
   ],
   "note": ""
  },
  {
   "property": "C65",
   "status": "proved",
   "theorems": [
    "C65_value",
    "C65_bounded",
    "C65_perfect",
    "C65_items_order"
   ],
   "note": ""
  },
  {
   "property": "C66",
   "status": "proved",
   "theorems": [
    "C66_explored",
    "C66_second_largest"
   ],
   "note": ""
  },
  {
   "property": "C67",
   "status": "proved",
   "theorems": [
    "C67_terminates",
    "C67_small_drifters",
    "C67_too_few_nodes",
    "C67_star",
    "C67_no_edge"
   ],
   "note": ""
  },
  {
   "property": "C68",
   "status": "proved",
   "theorems": [
    "C68_projection",
    "C68_quadratic",
    "C68_same_edges",
    "C68_check"
   ],
   "note": ""
  },
  {
   "property": "C69",
   "status": "proved",
   "theorems": [
    "C69_keys",
    "C69_iterator",
    "C69_both",
    "C69_pairs"
   ],
   "note": ""
  },
  {
   "property": "C70",
   "status": "proved",
   "theorems": [
    "C70_lossless_without_acronyms",
    "C70_nonempty_without_euphonic_t"
   ],
   "note": ""
  },
  {
   "property": "C71",
   "status": "proved",
   "theorems": [
    "C71_reduce_lenghtening",
    "C71_reduce_idempotent"
   ],
   "note": ""
  },
  {
   "property": "C72",
   "status": "proved",
   "theorems": [
    "C72_split_target",
    "C72_rectangular"
   ],
   "note": ""
  },
  {
   "property": "C73",
   "status": "proved",
   "theorems": [
    "C73_read_back"
   ],
   "note": ""
  },
  {
   "property": "C74",
   "status": "proved",
   "theorems": [
    "C74_report"
   ],
   "note": ""
  },
  {
   "property": "C75",
   "status": "proved",
   "theorems": [
    "C75_links",
    "C75_compared",
    "C75_total"
   ],
   "note": ""
  },
  {
   "property": "C76",
   "status": "partial",
   "theorems": [
    "C76_sound_partial",
    "C76_nearest_refuted"
   ],
   "note": "Proved: the function ends, and yields for each vector another one sharing a dimension, or itself when there is none. Refuted: it need not be the most similar one, since the lists are sorted by increasing weight and the cosine with the vector of the weights met is not an upper bound."
  },
  {
   "property": "C77",
   "status": "proved",
   "theorems": [
    "C77_leaders"
   ],
   "note": ""
  },
  {
   "property": "C78",
   "status": "proved",
   "theorems": [
    "C78_candidates"
   ],
   "note": ""
  },
  {
   "property": "C79",
   "status": "proved",
   "theorems": [
    "C79_ends",
    "C79_endless",
    "C79_empty",
    "C79_full_ends",
    "C79_full_endless",
    "C79_full_single"
   ],
   "note": ""
  },
  {
   "property": "C80",
   "status": "proved",
   "theorems": [
    "C80_links",
    "C80_links_distance",
    "C80_unsampled",
    "C80_negative"
   ],
   "note": ""
  },
  {
   "property": "C81",
   "status": "proved",
   "theorems": [
    "C81_metric",
    "C81_similarity"
   ],
   "note": ""
  },
  {
   "property": "C82",
   "status": "proved",
   "theorems": [
    "C82_shared",
    "C82_disjoint"
   ],
   "note": ""
  },
  {
   "property": "C83",
   "status": "proved",
   "theorems": [
    "C83_guess",
    "C83_bands",
    "C83_fails",
    "C83_given",
    "C83_none"
   ],
   "note": ""
  },
  {
   "property": "C84",
   "status": "partial",
   "theorems": [
    "C84_numpy",
    "C84_merge_refuted"
   ],
   "note": "Refuted: the product wraps modulo 2^32 in the uint32 array, so that an even multiplier merges tokens (C84_merge_refuted); slots are proved to be least hashes of the set. The semantics of numpy (wrap-around, no effect of the remainder) is an assumption of the model."
  },
  {
   "property": "C85",
   "status": "proved",
   "theorems": [
    "C85_ends",
    "C85_endless"
   ],
   "note": ""
  },
  {
   "property": "C86",
   "status": "proved",
   "theorems": [
    "C86_similarity",
    "C86_single"
   ],
   "note": ""
  },
  {
   "property": "C87",
   "status": "proved",
   "theorems": [
    "C87_pivots",
    "C87_empty"
   ],
   "note": ""
  },
  {
   "property": "C88",
   "status": "proved",
   "theorems": [
    "C88_all_pairs_exact"
   ],
   "note": ""
  },
  {
   "property": "C89",
   "status": "proved",
   "theorems": [
    "C89_filtered_modes_exact",
    "C89_filtered_modes_subset"
   ],
   "note": ""
  },
  {
   "property": "C90",
   "status": "proved",
   "theorems": [
    "C90_compute_overlap",
    "C90_suffix_filter_bound"
   ],
   "note": ""
  },
  {
   "property": "C91",
   "status": "proved",
   "theorems": [
    "C91_empty_record",
    "C91_threshold_one",
    "C91_tokenized_records"
   ],
   "note": ""
  },
  {
   "property": "C92",
   "status": "partial",
   "theorems": [
    "C92_plain_refuted"
   ],
   "note": "Refuted: after an apostrophe the contraction gets the type of the token before it, so that @foo's gives the mention 's and 1900's the number 's, and a single digit is a punctuation mark. C93 gives the exact forms."
  },
  {
   "property": "C93",
   "status": "proved",
   "theorems": [
    "C93_kinds",
    "C93_smiley_first"
   ],
   "note": ""
  },
  {
   "property": "C94",
   "status": "proved",
   "theorems": [
    "C94_pieces"
   ],
   "note": ""
  },
  {
   "property": "C95",
   "status": "partial",
   "theorems": [
    "C95_lines_refuted"
   ],
   "note": "Refuted: the point of an abbreviation is cut at the end of a string and kept before a space. C96 gives the exact law."
  },
  {
   "property": "C96",
   "status": "proved",
   "theorems": [
    "C96_lines",
    "C96_tokenize"
   ],
   "note": ""
  },
  {
   "property": "C97",
   "status": "proved",
   "theorems": [
    "C97_sentence"
   ],
   "note": ""
  },
  {
   "property": "C98",
   "status": "proved",
   "theorems": [
    "C98_settled",
    "C98_nearest"
   ],
   "note": ""
  },
  {
   "property": "C99",
   "status": "partial",
   "theorems": [
    "C99_complete_refuted"
   ],
   "note": "Refuted: a better neighbor already in the list replaces another one again, so that the lists end with copies of the nearest neighbors (C98) and links within the radius are lost."
  },
  {
   "property": "C100",
   "status": "proved",
   "theorems": [
    "C100_blocking",
    "C100_levenshtein"
   ],
   "note": ""
  },
  {
   "property": "C101",
   "status": "proved",
   "theorems": [
    "C101_passjoin",
    "C101_limited"
   ],
   "note": ""
  },
  {
   "property": "C102",
   "status": "proved",
   "theorems": [
    "C102_intersection"
   ],
   "note": ""
  },
  {
   "property": "C103",
   "status": "proved",
   "theorems": [
    "C103_quickjoin"
   ],
   "note": ""
  },
  {
   "property": "C104",
   "status": "proved",
   "theorems": [
    "C104_neighborhood",
    "C104_key",
    "C104_keys"
   ],
   "note": ""
  },
  {
   "property": "C105",
   "status": "proved",
   "theorems": [
    "C105_blocking",
    "C105_neighborhood",
    "C105_adaptive",
    "C105_quickjoin",
    "C105_vp_tree",
    "C105_laesa",
    "C105_minhash"
   ],
   "note": ""
  },
  {
   "property": "C106",
   "status": "partial",
   "theorems": [
    "C106_duplicates_refuted"
   ],
   "note": "Refuted: pairwise clusters positions, so that two equal items make a cluster, the others cluster items, so that they make none. Without repetition: C100, C101, C104."
  },
  {
   "property": "C107",
   "status": "proved",
   "theorems": [
    "C107_raises",
    "C107_range",
    "C107_ends",
    "C107_increasing",
    "C107_bands",
    "C107_threshold"
   ],
   "note": ""
  },
  {
   "property": "C108",
   "status": "proved",
   "theorems": [
    "C108_event",
    "C108_probability",
    "C108_exact",
    "C108_lower"
   ],
   "note": ""
  },
  {
   "property": "C109",
   "status": "partial",
   "theorems": [
    "C109_uneven_refuted"
   ],
   "note": "false: minhash rounds the number of rows down (C109_uneven_refuted); C108 gives the exact probability and the comparison"
  },
  {
   "property": "C110",
   "status": "proved",
   "theorems": [
    "C110_guessed"
   ],
   "note": ""
  },
  {
   "property": "C111",
   "status": "proved",
   "theorems": [
    "C111_integers",
    "C111_toml",
    "C111_refused"
   ],
   "note": ""
  },
  {
   "property": "C112",
   "status": "proved",
   "theorems": [
    "C112_numbers",
    "C112_durations"
   ],
   "note": ""
  },
  {
   "property": "C113",
   "status": "partial",
   "theorems": [
    "C113_closed_refuted",
    "C113_values_refuted",
    "C113_took_refuted"
   ],
   "note": "Refuted three times: the last line opens <html> instead of closing it, values are not escaped, timedelta(microseconds=took) gets seconds. C114 gives what the report is."
  },
  {
   "property": "C114",
   "status": "proved",
   "theorems": [
    "C114_page",
    "C114_lists"
   ],
   "note": ""
  },
  {
   "property": "C115",
   "status": "proved",
   "theorems": [
    "C115_rounding",
    "C115_jaccard",
    "C115_dice",
    "C115_overlap",
    "C115_range",
    "C115_symmetric",
    "C115_one"
   ],
   "note": ""
  },
  {
   "property": "C116",
   "status": "proved",
   "theorems": [
    "C116_sqrt",
    "C116_range",
    "C116_threshold"
   ],
   "note": ""
  },
  {
   "property": "C117",
   "status": "partial",
   "theorems": [
    "C117_cosine_refuted",
    "C117_dot_refuted",
    "C117_weighted_jaccard_refuted",
    "C117_mean_refuted"
   ],
   "note": "Refuted four times with floats such as 0.1 and 0.3: cosine above 1 and order dependent, dot product and weighted jaccard not symmetric, mean not undone. C118 states what holds."
  },
  {
   "property": "C118",
   "status": "proved",
   "theorems": [
    "C118_weighted_jaccard",
    "C118_cosine_symmetric",
    "C118_cosine_same",
    "C118_mean",
    "C118_mean_count",
    "C118_dot_order"
   ],
   "note": ""
  },
  {
   "property": "C119",
   "status": "partial",
   "theorems": [
    "C119_key_size_refuted"
   ],
   "note": "Refuted: 28 instead of 29 for k = 100 and threshold 0.29. C120 gives the exact behaviour."
  },
  {
   "property": "C120",
   "status": "proved",
   "theorems": [
    "C120_key_size",
    "C120_keys",
    "C120_default_keys",
    "C120_chunks",
    "C120_leaders"
   ],
   "note": ""
  },
  {
   "property": "C121",
   "status": "proved",
   "theorems": [
    "C121_all_pairs"
   ],
   "note": ""
  },
  {
   "property": "C122",
   "status": "proved",
   "theorems": [
    "C122_filtered_modes",
    "C122_subset",
    "C122_limit"
   ],
   "note": ""
  },
  {
   "property": "C123",
   "status": "proved",
   "theorems": [
    "C123_read",
    "C123_line_ends",
    "C123_same",
    "C123_long",
    "C123_cells",
    "C123_any"
   ],
   "note": ""
  },
  {
   "property": "C124",
   "status": "partial",
   "theorems": [
    "C124_kept_refuted",
    "C124_inside_partial"
   ],
   "note": "Refuted: the input is opened in text mode without newline='', so a carriage return within a cell becomes a line feed. C125 and C126 state the exact behaviour."
  },
  {
   "property": "C125",
   "status": "proved",
   "theorems": [
    "C125_write",
    "C125_read_back",
    "C125_stable"
   ],
   "note": ""
  },
  {
   "property": "C126",
   "status": "proved",
   "theorems": [
    "C126_split",
    "C126_split_target",
    "C126_transform_eval",
    "C126_transform",
    "C126_cluster"
   ],
   "note": ""
  },
  {
   "property": "C127",
   "status": "proved",
   "theorems": [
    "C127_split_short",
    "C127_transform_short",
    "C127_cluster_short",
    "C127_split_long",
    "C127_split_nothing"
   ],
   "note": ""
  },
  {
   "property": "C128",
   "status": "proved",
   "theorems": [
    "C128_unknown",
    "C128_len_last"
   ],
   "note": ""
  },
  {
   "property": "C129",
   "status": "proved",
   "theorems": [
    "C129_number",
    "C129_bytes",
    "C129_unique",
    "C129_surrogate"
   ],
   "note": ""
  },
  {
   "property": "C130",
   "status": "partial",
   "theorems": [
    "C130_numbers_refuted",
    "C130_forged",
    "C130_minhash_refuted",
    "C130_ppjoin_refuted"
   ],
   "note": "Refuted: \"plumless\" and \"buckeroo\" have the same crc32, as have \"SwhMM\" and \"O84LY\"; the signatures of {plumless} and {buckeroo} are equal for all parameters, and all_pairs with the crc32 ordering joins the two records. Any message gets any crc32 with four more bytes (C130_forged). The tokens that are told apart are given by C131."
  },
  {
   "property": "C131",
   "status": "proved",
   "theorems": [
    "C131_uniform",
    "C131_window"
   ],
   "note": ""
  },
  {
   "property": "C132",
   "status": "proved",
   "theorems": [
    "C132_shared",
    "C132_disjoint",
    "C132_surrogate",
    "C132_text"
   ],
   "note": ""
  },
  {
   "property": "C133",
   "status": "proved",
   "theorems": [
    "C133_ordering",
    "C133_all_pairs",
    "C133_surrogate",
    "C133_metric",
    "C133_other"
   ],
   "note": ""
  },
  {
   "property": "C134",
   "status": "proved",
   "theorems": [
    "C134_sequence",
    "C134_words",
    "C134_known_words",
    "C134_session_123",
    "C134_session_0",
    "C134_session_large"
   ],
   "note": ""
  },
  {
   "property": "C135",
   "status": "proved",
   "theorems": [
    "C135_random",
    "C135_unit",
    "C135_bits",
    "C135_first",
    "C135_found",
    "C135_empty"
   ],
   "note": ""
  },
  {
   "property": "C136",
   "status": "proved",
   "theorems": [
    "C136_sign",
    "C136_known",
    "C136_different"
   ],
   "note": ""
  },
  {
   "property": "C137",
   "status": "proved",
   "theorems": [
    "C137_tokens",
    "C137_params",
    "C137_sign",
    "C137_disjoint",
    "C137_super",
    "C137_super_text"
   ],
   "note": ""
  },
  {
   "property": "C138",
   "status": "proved",
   "theorems": [
    "C138_draws",
    "C138_nn_descent",
    "C138_quickjoin",
    "C138_quickjoin_draws",
    "C138_laesa",
    "C138_laesa_empty"
   ],
   "note": ""
  },
  {
   "property": "C139",
   "status": "proved",
   "theorems": [
    "C139_heapify",
    "C139_heapreplace",
    "C139_least"
   ],
   "note": ""
  },
  {
   "property": "C140",
   "status": "proved",
   "theorems": [
    "C140_entries",
    "C140_full_entries",
    "C140_nn_descent",
    "C140_nn_descent_full"
   ],
   "note": ""
  },
  {
   "property": "C141",
   "status": "proved",
   "theorems": [
    "C141_nlargest",
    "C141_sorted",
    "C141_second_largest"
   ],
   "note": ""
  },
  {
   "property": "C142",
   "status": "proved",
   "theorems": [
    "C142_joined_switch",
    "C142_switch_value",
    "C142_unknown_option",
    "C142_option_as_value",
    "C142_negative_value",
    "C142_joined_unknown",
    "C142_missing",
    "C142_dashes",
    "C142_split",
    "C142_cluster",
    "C142_transform",
    "C142_help_split",
    "C142_help_cluster",
    "C142_help_transform",
    "C142_commands"
   ],
   "note": ""
  },
  {
   "property": "C143",
   "status": "partial",
   "theorems": [
    "C143_split_refuted"
   ],
   "note": "false of the code: argparse gives the optional file to the first group of words, so that the file after an option is left over (fog split a -s , in.csv is a usage error); C142 and C144 state the exact behaviour"
  },
  {
   "property": "C144",
   "status": "proved",
   "theorems": [
    "C144_split",
    "C144_cluster",
    "C144_transform"
   ],
   "note": ""
  },
  {
   "property": "C145",
   "status": "proved",
   "theorems": [
    "C145_help",
    "C145_split",
    "C145_cluster",
    "C145_transform",
    "C145_same_file",
    "C145_kept_split",
    "C145_kept_cluster",
    "C145_kept_transform",
    "C145_ends"
   ],
   "note": ""
  },
  {
   "property": "C146",
   "status": "partial",
   "theorems": [
    "C146_same_match_refuted",
    "C146_truth_order_refuted"
   ],
   "note": "Refuted: rounding separates two predicted clusters whose exact F1 is the same (1/3), so another cluster is chosen and precision moves by more than 1/4; and the order of the truth clusters changes the F-score in its last bit. The exact behaviour is C147."
  },
  {
   "property": "C147",
   "status": "proved",
   "theorems": [
    "C147_errors",
    "C147_value",
    "C147_f_score",
    "C147_range",
    "C147_perfect",
    "C147_clusters_order",
    "C147_items_order"
   ],
   "note": ""
  },
  {
   "property": "C148",
   "status": "proved",
   "theorems": [
    "C148_md5",
    "C148_md5_table",
    "C148_sha256",
    "C148_sha512",
    "C148_digits",
    "C148_padding",
    "C148_md5_vectors",
    "C148_sha256_vectors",
    "C148_sha512_vectors"
   ],
   "note": ""
  },
  {
   "property": "C149",
   "status": "proved",
   "theorems": [
    "C149_simhash",
    "C149_errors",
    "C149_order",
    "C149_single",
    "C149_prefix"
   ],
   "note": ""
  },
  {
   "property": "C150",
   "status": "partial",
   "theorems": [
    "C150_unit_refuted",
    "C150_dot_refuted",
    "C150_twice_refuted",
    "C150_scale_refuted",
    "C150_order_refuted",
    "C150_range_refuted"
   ],
   "note": "refuted: each of the six claims has a witness (C150_*_refuted), most of them {1, 1} or {1, 5}; what holds is C151"
  },
  {
   "property": "C151",
   "status": "proved",
   "theorems": [
    "C151_zero",
    "C151_quotients",
    "C151_range",
    "C151_signs",
    "C151_order",
    "C151_single",
    "C151_unit",
    "C151_dot",
    "C151_powers",
    "C151_ints",
    "C151_ints_order"
   ],
   "note": ""
  },
  {
   "property": "C152",
   "status": "partial",
   "theorems": [
    "C152_range_refuted"
   ],
   "note": "refuted: with draws 1 - 2^-53 a signature of size 2 has the value 2 (C152_range_refuted); C153 gives the condition"
  },
  {
   "property": "C153",
   "status": "proved",
   "theorems": [
    "C153_tokens",
    "C153_least_place",
    "C153_set",
    "C153_draw",
    "C153_exact",
    "C153_generator"
   ],
   "note": ""
  },
  {
   "property": "C154",
   "status": "proved",
   "theorems": [
    "C154_draws",
    "C154_links",
    "C154_endless",
    "C154_raises_nothing"
   ],
   "note": ""
  },
  {
   "property": "C155",
   "status": "proved",
   "theorems": [
    "C155_squeeze",
    "C155_upper_letters",
    "C155_rusalka",
    "C155_rusalka_rules",
    "C155_rusalka_notation",
    "C155_consonant",
    "C155_email",
    "C155_smiley",
    "C155_point_split",
    "C155_lengthening",
    "C155_fingerprint",
    "C155_ngrams_fingerprint",
    "C155_stopwords",
    "C155_refused"
   ],
   "note": ""
  },
  {
   "property": "C156",
   "status": "proved",
   "theorems": [
    "C156_meaning",
    "C156_match",
    "C156_onward",
    "C156_escape",
    "C156_escape_match",
    "C156_nothing_lost",
    "C156_fuel"
   ],
   "note": ""
  },
  {
   "property": "C157",
   "status": "proved",
   "theorems": [
    "C157_parse",
    "C157_refused",
    "C157_unambiguous",
    "C157_groups"
   ],
   "note": ""
  },
  {
   "property": "C158",
   "status": "proved",
   "theorems": [
    "C158_cells",
    "C158_fuzzy",
    "C158_components",
    "C158_leader",
    "C158_workers",
    "C158_mode"
   ],
   "note": ""
  },
  {
   "property": "C159",
   "status": "proved",
   "theorems": [
    "C159_trace",
    "C159_count"
   ],
   "note": ""
  },
  {
   "property": "C160",
   "status": "proved",
   "theorems": [
    "C160_calls",
    "C160_across"
   ],
   "note": ""
  },
  {
   "property": "C161",
   "status": "partial",
   "theorems": [
    "C161_refuted"
   ],
   "note": "refuted: with items that are all similar to the last one only, there is one component and n(n - 1)/2 comparisons; the exact set of comparisons is C160"
  },
  {
   "property": "C162",
   "status": "proved",
   "theorems": [
    "C162_calls",
    "C162_count",
    "C162_single"
   ],
   "note": ""
  },
  {
   "property": "C163",
   "status": "partial",
   "theorems": [
    "C163_refuted"
   ],
   "note": "refuted: the graph given to the workers is never filled, and passjoin meets a pair once per shared piece; the exact numbers are C162 and C165"
  },
  {
   "property": "C164",
   "status": "proved",
   "theorems": [
    "C164_calls",
    "C164_cells",
    "C164_number"
   ],
   "note": ""
  },
  {
   "property": "C165",
   "status": "proved",
   "theorems": [
    "C165_calls",
    "C165_candidates",
    "C165_complete",
    "C165_short"
   ],
   "note": ""
  },
  {
   "property": "C166",
   "status": "proved",
   "theorems": [
    "C166_pairwise",
    "C166_worker",
    "C166_buckets",
    "C166_blocking",
    "C166_neighborhood",
    "C166_adaptive",
    "C166_passjoin",
    "C166_stateful",
    "C166_local",
    "C166_raises"
   ],
   "note": ""
  },
  {
   "property": "C167",
   "status": "proved",
   "theorems": [
    "C167_agrees",
    "C167_trace",
    "C167_count",
    "C167_items"
   ],
   "note": ""
  },
  {
   "property": "C168",
   "status": "partial",
   "theorems": [
    "C168_refuted"
   ],
   "note": "Refuted: in C168_refuted DISTANCES: 0 is printed after 17 calls. C169 says what is printed, C167 how many calls there are."
  },
  {
   "property": "C169",
   "status": "proved",
   "theorems": [
    "C169_worse",
    "C169_printed",
    "C169_kept"
   ],
   "note": ""
  },
  {
   "property": "C170",
   "status": "proved",
   "theorems": [
    "C170_agrees",
    "C170_items",
    "C170_small",
    "C170_missing",
    "C170_missing_pivots",
    "C170_missing_none",
    "C170_one"
   ],
   "note": ""
  },
  {
   "property": "C171",
   "status": "proved",
   "theorems": [
    "C171_ways",
    "C171_match",
    "C171_best",
    "C171_total",
    "C171_order",
    "C171_group",
    "C171_plain",
    "C171_scan"
   ],
   "note": ""
  },
  {
   "property": "C172",
   "status": "proved",
   "theorems": [
    "C172_undefined",
    "C172_safe",
    "C172_limited_safe",
    "C172_distance",
    "C172_limited",
    "C172_exact"
   ],
   "note": ""
  },
  {
   "property": "C173",
   "status": "partial",
   "theorems": [
    "C173_refuted"
   ],
   "note": "Refuted: the early return of line 257 does not free the two blocks (C173_refuted). C174 says exactly when and how much."
  },
  {
   "property": "C174",
   "status": "proved",
   "theorems": [
    "C174_exact",
    "C174_near"
   ],
   "note": ""
  },
  {
   "property": "C175",
   "status": "partial",
   "theorems": [
    "C175_long_refuted",
    "C175_null_refuted"
   ],
   "note": "Refuted: lengths are cut to 32 bits, so that a string of 2^32 characters is at distance 0 of the empty one (C175_long_refuted); the result of malloc is not checked (C175_null_refuted). C172 is the true part."
  },
  {
   "property": "C176",
   "status": "proved",
   "theorems": [
    "C176_key",
    "C176_keys",
    "C176_intersection",
    "C176_metric",
    "C176_block",
    "C176_blocks"
   ],
   "note": ""
  },
  {
   "property": "C177",
   "status": "proved",
   "theorems": [
    "C177_calls",
    "C177_adaptive_calls",
    "C177_same",
    "C177_adaptive_same"
   ],
   "note": ""
  },
  {
   "property": "C178",
   "status": "partial",
   "theorems": [
    "C178_hashjoin_refuted",
    "C178_minhash_refuted"
   ],
   "note": "Refuted: in hashjoin the key of an inner item is asked for once per outer item, n times for any n (C178_hashjoin_refuted); minhash asks again for both keys of each pair of each bucket (C178_minhash_refuted). C179 and C180 give the exact calls."
  },
  {
   "property": "C179",
   "status": "proved",
   "theorems": [
    "C179_calls",
    "C179_keys_calls",
    "C179_number",
    "C179_trace",
    "C179_agrees"
   ],
   "note": ""
  },
  {
   "property": "C180",
   "status": "proved",
   "theorems": [
    "C180_calls",
    "C180_fails"
   ],
   "note": ""
  },
  {
   "property": "C181",
   "status": "partial",
   "theorems": [
    "C181_refuted"
   ],
   "note": "Refuted: with a generator, the keys of the outer item are consumed by the first inner item, and later pairs are lost (C181_refuted). C182 gives the exact pairs."
  },
  {
   "property": "C182",
   "status": "proved",
   "theorems": [
    "C182_generators",
    "C182_lists"
   ],
   "note": ""
  },
  {
   "property": "C183",
   "status": "proved",
   "theorems": [
    "C183_same"
   ],
   "note": ""
  },
  {
   "property": "C184",
   "status": "proved",
   "theorems": [
    "C184_overrun",
    "C184_low",
    "C184_division"
   ],
   "note": ""
  },
  {
   "property": "C185",
   "status": "proved",
   "theorems": [
    "C185_high",
    "C185_empty"
   ],
   "note": ""
  },
  {
   "property": "C186",
   "status": "partial",
   "theorems": [
    "C186_low_refuted"
   ],
   "note": "False of the code: C186_low_refuted shows two records, and thresholds of 0 and less for which the similarity of the records is high enough, but they are not joined: IndexError, ZeroDivisionError or nothing.  C184 and C187 are proved of the code."
  },
  {
   "property": "C187",
   "status": "proved",
   "theorems": [
    "C187_none"
   ],
   "note": ""
  },
  {
   "property": "C188",
   "status": "proved",
   "theorems": [
    "C188_similarity",
    "C188_full"
   ],
   "note": ""
  },
  {
   "property": "C189",
   "status": "proved",
   "theorems": [
    "C189_turn",
    "C189_first",
    "C189_calls"
   ],
   "note": ""
  },
  {
   "property": "C190",
   "status": "proved",
   "theorems": [
    "C190_bounds"
   ],
   "note": ""
  },
  {
   "property": "C191",
   "status": "partial",
   "theorems": [
    "C191_refuted"
   ],
   "note": "refuted: draws that make hubs (C191_refuted); the exact calls are in C189 and the bounds in C190"
  },
  {
   "property": "C192",
   "status": "proved",
   "theorems": [
    "C192_turns"
   ],
   "note": ""
  },
  {
   "property": "C193",
   "status": "partial",
   "theorems": [
    "C193_refuted"
   ],
   "note": "refuted by a similarity that counts its calls (C193_refuted); with a pure similarity it ends (C79)"
  },
  {
   "property": "C194",
   "status": "proved",
   "theorems": [
    "C194_none",
    "C194_none_full",
    "C194_fails",
    "C194_nothing"
   ],
   "note": ""
  },
  {
   "property": "C195",
   "status": "proved",
   "theorems": [
    "C195_first",
    "C195_slice"
   ],
   "note": ""
  },
  {
   "property": "C196",
   "status": "proved",
   "theorems": [
    "C196_complete",
    "C196_exact"
   ],
   "note": ""
  },
  {
   "property": "C197",
   "status": "partial",
   "theorems": [
    "C197_sound",
    "C197_positive",
    "C197_nearest_refuted",
    "C197_zero_refuted"
   ],
   "note": "Refuted as stated: the vector found may not be the nearest (C197_nearest_refuted), and a null weight in a vector that is not null may raise ZeroDivisionError (C197_zero_refuted). What holds without null weights is C197_sound and C197_positive."
  },
  {
   "property": "C198",
   "status": "proved",
   "theorems": [
    "C198_fails",
    "C198_leaders"
   ],
   "note": ""
  },
  {
   "property": "C199",
   "status": "proved",
   "theorems": [
    "C199_tokens",
    "C199_refused"
   ],
   "note": ""
  },
  {
   "property": "C200",
   "status": "proved",
   "theorems": [
    "C200_least",
    "C200_nearest",
    "C200_cosine"
   ],
   "note": ""
  },
  {
   "property": "C201",
   "status": "proved",
   "theorems": [
    "C201_checked",
    "C201_cut",
    "C201_damerau_cut",
    "C201_fits",
    "C201_exact"
   ],
   "note": ""
  },
  {
   "property": "C202",
   "status": "partial",
   "theorems": [
    "C202_long_refuted",
    "C202_equal_refuted"
   ],
   "note": "Refuted: a string of 2^32 + 1 characters is taken for one of a single character, hence found at distance 1 of the empty string (C202_long_refuted), and two equal strings of 2^32 characters that are different objects are told apart (C202_equal_refuted). C201 says exactly what is answered for all strings, and that it is right below 2^32 characters."
  },
  {
   "property": "C203",
   "status": "proved",
   "theorems": [
    "C203_natural",
    "C203_zero",
    "C203_negative",
    "C203_join",
    "C203_keys",
    "C203_threshold",
    "C203_collide"
   ],
   "note": ""
  },
  {
   "property": "C204",
   "status": "proved",
   "theorems": [
    "C204_natural",
    "C204_negative",
    "C204_zero",
    "C204_zero_endless",
    "C204_one",
    "C204_one_endless"
   ],
   "note": ""
  },
  {
   "property": "C205",
   "status": "proved",
   "theorems": [
    "C205_pairs",
    "C205_components",
    "C205_pairwise"
   ],
   "note": ""
  },
  {
   "property": "C206",
   "status": "proved",
   "theorems": [
    "C206_natural",
    "C206_zero",
    "C206_negative"
   ],
   "note": ""
  },
  {
   "property": "C207",
   "status": "proved",
   "theorems": [
    "C207_up",
    "C207_down",
    "C207_zero",
    "C207_connected"
   ],
   "note": ""
  },
  {
   "property": "C208",
   "status": "proved",
   "theorems": [
    "C208_lengths",
    "C208_partition",
    "C208_natural",
    "C208_negative"
   ],
   "note": ""
  },
  {
   "property": "C209",
   "status": "proved",
   "theorems": [
    "C209_natural",
    "C209_negative_bands",
    "C209_negative_size"
   ],
   "note": ""
  }
 ]
}