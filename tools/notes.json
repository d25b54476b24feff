{
 "C16": [
  "partial",
  "Refuted as stated for finite max_size: a cluster larger than max_size raises AttributeError (set.delete). C16_leader characterises all runs, including the failing ones; C16_leader_partition and C16_leader_total give the claim without max_size."
 ],
 "C17": [
  "partial",
  "Star shape, soundness and coverage proved for serial and parallel runs; equality of serial and parallel runs is refuted (C17_processes_refuted)."
 ],
 "C01": [
  "partial",
  "False of the code in two families of inputs (C01_shortcut_refuted: 'aa'/'ab' gives 0; C01_astral_refuted: code points are compared modulo 2^16). C01_distance_partial is the exact behaviour on the basic multilingual plane: the edit distance, or one less exactly in shortcut_case. C57 has the bounds."
 ],
 "C02": [
  "partial",
  "Proved for all strings of the basic multilingual plane and all max_distance; refuted beyond U+FFFF (C02_astral_refuted)."
 ],
 "C05": [
  "partial",
  "False of the code: 'aa' and 'aba' share no key (C05_complete_refuted). Proved for every other pair (C05_levenshtein_partial, C05_damerau_partial), and the excepted pairs are exactly the missed ones (C05_exception_exact, C58)."
 ],
 "C06": [
  "partial",
  "Proved without transpositions, with the number of keys. With transpositions it is false ('abcd'/'badc', C06_damerau_refuted); a shared key then means Damerau-Levenshtein distance at most 2 (C06_damerau_partial)."
 ],
 "C08": [
  "partial",
  "False of the code: 'abcdef'/'bcdefg' share no block, nor 'abcd'/'badc' with transpositions, and '' raises IndexError with transpositions. C08_levenshtein_partial covers all pairs but those of equal lengths multiple of 3 that are not two replacements apart; C08_total_partial covers all non-empty strings."
 ],
 "C19": [
  "partial",
  "With key: proved. With keys and merge: proved for the default bounds; refuted for the others, key_collision does not hand min_size and max_size to clusters_from_buckets (C19_merge_bounds_refuted). C59 is the exact behaviour."
 ],
 "C21": [
  "partial",
  "Proved for data that can be iterated over several times (and, with one key, for any data). Refuted for an iterator with several keys: the first pass exhausts it (C21_iterator_refuted)."
 ],
 "C22": [
  "partial",
  "False of the code: two equal records with window 2 raise IndexError (C22_index_error_refuted) and window 1 never ends (C22_endless_refuted). C22_adaptive_partial proves the claim for window >= 2 when no similar records let the enlargement run over the end; C60 describes all outcomes."
 ],
 "C35": [
  "partial",
  "Refuted as stated: the dot of the regular expression does not match a line break, so runs of line breaks are kept. Proved: idempotence, and absence of doubles for strings without line breaks. The exact behaviour is C61."
 ],
 "C39": [
  "partial",
  "Proved for all options: the tokens are exactly those of the normalized string, strictly sorted and without repetition. Refuted for all options: splitting letters make the case matter, a stopword of two words depends on the order, and with a minimum token size a key may lose a token when fingerprinted again. The conditions under which the invariances hold are C62."
 ],
 "C40": [
  "partial",
  "Proved: digits, position of zero, case. Refuted: MM gives 66 (the first code is not squeezed with the next one), and the characters between P and H matter because PH is replaced before they are dropped. The exact form is C63."
 ],
 "C41": [
  "partial",
  "Refuted: names such as hh or ij raise IndexError, and the single vowel e is its own code. The exact behaviour is C64."
 ],
 "C42": [
  "partial",
  "Proved: TypeError exactly on invalid inputs, identity gives 1, order of clusters is irrelevant. Refuted with witnesses: a truth cluster with a repeated item gives precision 2; on F1 ties the order of items inside a truth cluster changes precision and recall. C65 states what holds exactly."
 ],
 "C44": [
  "partial",
  "The sizes are those of the components for every filter which ignores the direction (C44_components), and sum to the number of nodes; the decreasing order is refuted (C44_decreasing_refuted: sizes come in node order). C66 is the exact behaviour for all filters."
 ],
 "C45": [
  "partial",
  "The returned threshold and the removed edges are proved (C45_threshold); termination is refuted, with the default parameters on a star of 8 branches (C45_termination_refuted). C67 says exactly when it stops."
 ],
 "C46": [
  "partial",
  "The two modes agree with the specification and each other (C46_modes_partial) except for cosine when a kept node has only null weights: the topology mode then raises KeyError (C46_modes_refuted). C68 is the proved companion."
 ],
 "C47": [
  "partial",
  "Proved for a single key when the right side is not an iterator (C47_key_partial). Refuted for one-shot iterables on the right (C47_iterables_refuted) and for several keys: a pair comes once, not once per shared key (C47_one_per_key_refuted). C69 is the exact behaviour."
 ],
 "C48": [
  "partial",
  "Termination, absence of errors and the order of the tokens are proved for every string. Two parts are false: E.Macron loses Macron (the text after the last point of what looks like an acronym is not yielded), and a-t-, yields an empty token. C70 states when nothing is lost."
 ],
 "C51": [
  "partial",
  "Proved for split without a target column (the cell values are also shown to be uniquely determined) and for transform with a chain of named operations that succeed. Refuted for split with a target column: the values accumulate in the line, so that rows get wider and wider, and a line with an empty cell is not extended (C72 gives the exact output). The --eval option of transform is not modelled."
 ],
 "C52": [
  "partial",
  "Refuted: escape_string does not escape backslashes nor control characters. C73 proves that exactly the other strings read back."
 ],
 "C56": [
  "partial",
  "Refuted: the elimination compares with the distance to the nearest pivot instead of the radius, so pairs within radius are missed (data [0, 1] with the first item as pivot), and repeated items can lead to an IndexError. C75 proves exactly what is linked. The function is marked 'currently not working' in the source."
 ],
 "C54": [
  "proved",
  "The radius query of the external VPTree is a section variable assumed exact."
 ],
 "C76": [
  "partial",
  "Proved: the function ends, and yields for each vector another one sharing a dimension, or itself when there is none. Refuted: it need not be the most similar one, since the lists are sorted by increasing weight and the cosine with the vector of the weights met is not an upper bound."
 ],
 "C29": [
  "partial",
  "Refuted on the last clause: sizes 0, 1 and 2 pass the check but any token then raises ValueError, since no hexadecimal digit of the digest is kept (C29_sizes_refuted). Order independence, range and the strict majority of every bit are proved for the other accepted sizes; the metric clause is C81."
 ],
 "C26": [
  "partial",
  "Refuted on the last clause: for h = 4 and radius 0.2, guess_bands returns 5 and the null step of range raises ValueError (C26_total_refuted; C83 gives the exact domain). Links, soundness and sharing of bands are proved."
 ],
 "C30": [
  "partial",
  "Refuted on the range for the empty set, whose values are m + 1 (C30_range_refuted). Set dependence, equality with the full computation and the range 0..m-1 for non-empty sets are proved; floats are exact rationals."
 ],
 "C84": [
  "partial",
  "Refuted: the product wraps modulo 2^32 in the uint32 array, so that an even multiplier merges tokens (C84_merge_refuted); slots are proved to be least hashes of the set. The semantics of numpy (wrap-around, no effect of the remainder) is an assumption of the model."
 ],
 "C23": [
  "partial",
  "Refuted on two clauses: 501 copies of an item never end with the default block size (C23_terminates_refuted; C85 gives the exact condition), and a similarity loses pairs once there are more items than block_size (C23_similarity_refuted; C86 says what is compared). With a distance, exactness is proved for all draws, blocks, trees and workers whenever quickjoin ends."
 ],
 "C24": [
  "partial",
  "Refuted as stated: a threshold of 1 finds nothing and an empty record raises IndexError. C88 proves exactness for all other inputs, C91 characterises the failures."
 ],
 "C25": [
  "partial",
  "Refuted as stated: identical records with few tokens are lost by default and plus modes, compute_overlap can return a number just below the required one, and already tokenized records raise KeyError with the default ordering. C89 and C90 prove the exact behaviour, C91 the failures."
 ],
 "C92": [
  "partial",
  "Refuted: after an apostrophe the contraction gets the type of the token before it, so that @foo's gives the mention 's and 1900's the number 's, and a single digit is a punctuation mark. C93 gives the exact forms."
 ],
 "C95": [
  "partial",
  "Refuted: the point of an abbreviation is cut at the end of a string and kept before a space. C96 gives the exact law."
 ],
 "C99": [
  "partial",
  "Refuted: a better neighbor already in the list replaces another one again, so that the lists end with copies of the nearest neighbors (C98) and links within the radius are lost."
 ],
 "C106": [
  "partial",
  "Refuted: pairwise clusters positions, so that two equal items make a cluster, the others cluster items, so that they make none. Without repetition: C100, C101, C104."
 ],
 "C109": [
  "partial",
  "false: minhash rounds the number of rows down (C109_uneven_refuted); C108 gives the exact probability and the comparison"
 ],
 "C113": [
  "partial",
  "Refuted three times: the last line opens <html> instead of closing it, values are not escaped, timedelta(microseconds=took) gets seconds. C114 gives what the report is."
 ],
 "C117": [
  "partial",
  "Refuted four times with floats such as 0.1 and 0.3: cosine above 1 and order dependent, dot product and weighted jaccard not symmetric, mean not undone. C118 states what holds."
 ],
 "C119": [
  "partial",
  "Refuted: 28 instead of 29 for k = 100 and threshold 0.29. C120 gives the exact behaviour."
 ],
 "C124": [
  "partial",
  "Refuted: the input is opened in text mode without newline='', so a carriage return within a cell becomes a line feed. C125 and C126 state the exact behaviour."
 ],
 "C130": [
  "partial",
  "Refuted: \"plumless\" and \"buckeroo\" have the same crc32, as have \"SwhMM\" and \"O84LY\"; the signatures of {plumless} and {buckeroo} are equal for all parameters, and all_pairs with the crc32 ordering joins the two records. Any message gets any crc32 with four more bytes (C130_forged). The tokens that are told apart are given by C131."
 ],
 "C143": [
  "partial",
  "false of the code: argparse gives the optional file to the first group of words, so that the file after an option is left over (fog split a -s , in.csv is a usage error); C142 and C144 state the exact behaviour"
 ],
 "C146": [
  "partial",
  "Refuted: rounding separates two predicted clusters whose exact F1 is the same (1/3), so another cluster is chosen and precision moves by more than 1/4; and the order of the truth clusters changes the F-score in its last bit. The exact behaviour is C147."
 ],
 "C150": [
  "partial",
  "refuted: each of the six claims has a witness (C150_*_refuted), most of them {1, 1} or {1, 5}; what holds is C151"
 ],
 "C152": [
  "partial",
  "refuted: with draws 1 - 2^-53 a signature of size 2 has the value 2 (C152_range_refuted); C153 gives the condition"
 ],
 "C161": [
  "partial",
  "refuted: with items that are all similar to the last one only, there is one component and n(n - 1)/2 comparisons; the exact set of comparisons is C160"
 ],
 "C163": [
  "partial",
  "refuted: the graph given to the workers is never filled, and passjoin meets a pair once per shared piece; the exact numbers are C162 and C165"
 ],
 "C168": [
  "partial",
  "Refuted: in C168_refuted DISTANCES: 0 is printed after 17 calls. C169 says what is printed, C167 how many calls there are."
 ],
 "C173": [
  "partial",
  "Refuted: the early return of line 257 does not free the two blocks (C173_refuted). C174 says exactly when and how much."
 ],
 "C175": [
  "partial",
  "Refuted: lengths are cut to 32 bits, so that a string of 2^32 characters is at distance 0 of the empty one (C175_long_refuted); the result of malloc is not checked (C175_null_refuted). C172 is the true part."
 ],
 "C178": [
  "partial",
  "Refuted: in hashjoin the key of an inner item is asked for once per outer item, n times for any n (C178_hashjoin_refuted); minhash asks again for both keys of each pair of each bucket (C178_minhash_refuted). C179 and C180 give the exact calls."
 ],
 "C181": [
  "partial",
  "Refuted: with a generator, the keys of the outer item are consumed by the first inner item, and later pairs are lost (C181_refuted). C182 gives the exact pairs."
 ],
 "C186": [
  "partial",
  "False of the code: C186_low_refuted shows two records, and thresholds of 0 and less for which the similarity of the records is high enough, but they are not joined: IndexError, ZeroDivisionError or nothing.  C184 and C187 are proved of the code."
 ],
 "C191": [
  "partial",
  "refuted: draws that make hubs (C191_refuted); the exact calls are in C189 and the bounds in C190"
 ],
 "C193": [
  "partial",
  "refuted by a similarity that counts its calls (C193_refuted); with a pure similarity it ends (C79)"
 ],
 "C197": [
  "partial",
  "Refuted as stated: the vector found may not be the nearest (C197_nearest_refuted), and a null weight in a vector that is not null may raise ZeroDivisionError (C197_zero_refuted). What holds without null weights is C197_sound and C197_positive."
 ],
 "C202": [
  "partial",
  "Refuted: a string of 2^32 + 1 characters is taken for one of a single character, hence found at distance 1 of the empty string (C202_long_refuted), and two equal strings of 2^32 characters that are different objects are told apart (C202_equal_refuted). C201 says exactly what is answered for all strings, and that it is right below 2^32 characters."
 ]
}