# Formal model of `fog` in Rocq (Coq 8.16.1)

Source under study: `/repo` (python package `fog`, cython package `cfog`).  The
model lives in `rocq/theories/`.  The code was read, never run.

## 1. Method

* Every modelled function is a total, executable Gallina function written branch by
  branch after the source; each definition carries a comment with the file and
  lines it models, and says where it simplifies.
* Files per area `X`:
  * `XModel.v`: the model, no proofs;
  * `XSpec.v`: a small specification that uses none of the model's helpers;
  * `XProofs.v` (possibly several): lemmas;
  * `XProps.v`: only the property theorems, closed by `exact`, each followed by
    `Print Assumptions`, and `Example`s showing that the hypotheses are met by a concrete
    non-trivial case.
* Python exceptions are values (`Err e`), generators are lists (with the
  exception that interrupts them, when one can), loops are structural recursion or recursion
  on fuel, where running out of fuel is a distinct value that the statements exclude or that
  is proved impossible for enough fuel.
* External calls (hash functions, `unidecode`, random generators, user supplied
  similarity/distance/key functions, VP-trees, the union-find of `phylactery`, process pools)
  are `Section` variables: theorems quantify over them, with the assumed behaviour as an explicit
  hypothesis.
* The iteration order of python `set`s is not specified by the language: where it can be
  observed, the model takes an arbitrary order function that is only assumed to return a
  permutation, and theorems hold for all such functions.  `dict`s iterate in insertion order, as
  in python >= 3.7.
* Process pools (`imap_unordered`): the results arrive in an arbitrary permutation; theorems
  hold for all of them.
* When the code violates a property, the negation is proved with a witness
  (`..._refuted`), and the strongest true fragment is proved beside it (`..._partial`).

## 2. Trusted base

* Coq 8.16.1's kernel, and its virtual machine (`vm_compute` in the witnesses and examples).
* What `Print Assumptions` lists.  It is asked for every property theorem in the `*Props.v` files,
  and `tools/assumptions.py` prints the summary after a build.  No axiom was added.  Every theorem is
  "Closed under the global context" except those that speak of real numbers (square roots, powers, the sines of MD5's table):

  | theorems | axioms, all of the standard library |
  |---|---|
  | `C26_total_refuted`, `C33_counter`, `C33_dot`, `C83_bands`, `C83_fails`, `C108_probability` | `ClassicalDedekindReals.sig_forall_dec`, `FunctionalExtensionality.functional_extensionality_dep` |
  | `C33_binary`, `C33_binary_range`, `C33_cosine`, `C33_normalize`, `C33_normalized_dot`, `C33_range`, `C33_symmetric`, `C148_md5`, `C149_*`, `C196_*`, `C197_*`, `C198_*`, `C200_cosine` | the same and `ClassicalDedekindReals.sig_not_dec` |
  | `C83_guess`, `C107_*`, `C108_exact`, `C108_lower`, `C109_uneven_refuted`, `C110_guessed` | the same three and `Classical_Prop.classic` |

* The reading of the python code by the model's author: the model is tied to the code only by
  the citations.  The examples replay the repository's own unit tests where they exist
  (`*Tests.v` and the `Example`s), which checks the reading on those inputs.
* Idealisations, all stated at the definition too:
  * python ints are `Z`/`N`/`nat`; C integers in the `.pyx` file are wrapped explicitly where
    their width matters: 16 bit code points in `LevModel.v`, all of them in `LevCModel.v` (with the memory: blocks, NULL, freed and
    unwritten cells, what `malloc` answers), where C172 shows that the 32 bit numbers do not matter below 2^32 characters;
  * python floats are exact rationals `Q` (or reals `R`), without rounding, in all files but `Float*.v`.  Concerned:
    set similarities, `OnlineMean`, weighted jaccard, thresholds of ppjoin (the cosine is compared
    through squares), SuperMinHash, evaluation scores, `int(rho * k)`, `floor(k * threshold)`;
  * `FloatModel.v` has the same functions with each operation rounded as binary64 does (to nearest, ties to even; 53 bits).
    There a float is the rational number it stands for; exponents are unbounded, hence no overflow, no subnormal
    number, no infinity, no nan, and one zero.  `weight ** 2` is taken as the rounded product.  `FloatSpec.v` says what
    the rounded number is without computing it; `FloatProps.v` compares the operations with those of the standard
    library's `SpecFloat` on samples.  C115, C116, C118 and C120 say how far the exact model is right;
    `FloatPPJoinModel.v` does the same for ppjoin (C121, C122), `FloatEvalModel.v` for the evaluation scores (C146, C147);
  * items, tokens and keys are compared by an equality that is Leibniz equality in the
    model (no two distinct values that compare equal, such as `1` and `1.0`); where the code
    tests identity (`is`, `id()`), the model has an explicit flag or assumes that equal items are one object
    (`intersection_size`, quickjoin);
  * user functions (similarity, key, tokenizer...) are pure and total, except in `CallsModel.v`, where the similarity or distance given to
    pairwise, blocking, sorted_neighborhood, passjoin and clusters_from_buckets may keep a state, change its mind and raise (C158-C166),
    and in `MetricCallsModel.v` for laesa and quickjoin (C167-C170), in `KeyCallsModel.v`, where it is the key function (C176-C182),
    and in `NNCallsModel.v` for nn_descent and nn_descent_full (C188-C193), in `TokenCallsModel.v` for the tokenizer of ppjoin (C199).
    There, `keys` in hashjoin answers with a new iterable at each call, and `sorted` calls the key once per item, in order;
* External code is a section variable or a parameter, over which the theorems quantify:
  hash functions given by the caller (`crc32` and the UTF-8 encoding are written out in `DigestModel`, MD5, SHA-256 and SHA-512 in `HashModel`: what hashlib computes is taken to be the standards), `unidecode`, `html.unescape`, `str.lower`, character classes, the emoji
  regular expression (with the facts used about classes in the records `char_classes`, `more_classes` and `ascii_classes`; also that digits have no
  case, that an emoji match is not longer than its text, and that lowering keeps hyphens, `#` and `$`), `random` (explicit streams of
  draws when there is no seed; for integer seeds the generator of CPython is written out in `RandomModel`, with a bound on the draws of one number), `VPTree` (its radius query is assumed exact), `numpy`'s
  uint32 arithmetic (assumed to wrap around), `multiprocessing` and `dill` (arbitrary order of
  arrival; pickled objects keep their equality), `networkx` graphs (adjacency lists), `csv` (the state machine of CPython's `_csv.c`, default dialect), `argparse` (written out in `ArgsModel`; `tools/argparse_lines.py` compares it with
  the python at hand on drawn command lines: 10200 lines, no difference), `re` (parser and engine for the syntax that the package uses, written out in `RegexModel`; the matchers of the other models are proved equal to the patterns, C155; `tools/regex_cases.py`
  compares it with the python at hand on drawn patterns and texts: 18000 cases, no difference; which characters are the same under `re.I` and the classes `\d`, `\s`, `\w` are parameters), files (two names are two files; which names can be written to and what `\d` matches are parameters),
  `sorted_uniq`, `Levenshtein` distances given by the caller.

## 3. What is modelled and what is not

| file | modelled (rocq/theories) | not modelled |
|---|---|---|
| `cfog/metrics/levenshtein.pyx` | all (`LevModel`); the two distances as C code, with machine integers and memory (`LevCModel`), the `_lte1` functions with numbers of 32 bits (`LevC1Model`) | what Cython itself generates around the code |
| `fog/key/levenshtein.py` | all (`LevKeysModel`) | |
| `fog/key/misc.py`, `omission.py`, `skeleton.py` | all (`StringsModel`); `ngram_keys` in floats (`FloatModel`) | |
| `fog/key/fingerprint.py`, `fog/tokenizers/fingerprint.py` | all (`FingerprintModel`); with the patterns of the source (`RegexUsesModel`) | |
| `fog/tokenizers/ngrams.py` | all (`StringsModel`); sizes that are any integers (`NgramsAnyModel`) | laziness |
| `fog/tokenizers/words.py` | all (`WordsModel`); with the patterns of the source, except the emoji one (`RegexUsesModel`) | the emoji pattern, a parameter |
| `fog/phonetics/*.py` | all (`PhoneticsModel`); with the patterns of the source (`RegexUsesModel`) | |
| `fog/metrics/*.py` | all (`MetricsModel`); in floats (`FloatModel`, `FloatNormModel`) | the corrected `sum` of floats of python 3.12 in `sparse_norm` |
| `fog/utils.py` | `squeeze` (`StringsModel`; with the patterns of the source `RegexUsesModel`), `OnlineMean` (`MetricsModel`; in floats `FloatModel`) | |
| `fog/evaluation/*.py` | all (`EvaluationModel`); the scores in floats (`FloatEvalModel`) | |
| `fog/graph/*.py` | all (`GraphModel`); `nlargest` (`HeapModel`) | log and tqdm output |
| `fog/join/hashjoin.py` | all (`HashJoinModel`), re-iterable and one-shot inputs; the calls of the key, keys that are generators (`KeyCallsModel`) | |
| `fog/lsh/*.py` | all (`BitsModel`, `MinHashModel`); `crc32`, UTF-8 (`DigestModel`); with an integer seed (`SeededModel`); MD5, SHA-256, SHA-512 and simhash on strings (`HashModel`); SuperMinHash in floats (`SuperFloatModel`) | |
| `fog/clustering/utils.py` | all (`ClustersModel`, `PairwiseModel`); chunk sizes that are any integers (`ChunksAnyModel`) | |
| `fog/clustering/pairwise.py` | all modes, serial and parallel (`PairwiseModel`); the calls of the similarity (`CallsModel`) | the union-find is an abstract partition |
| `fog/clustering/blocking.py`, `key_collision.py`, `intersection_index.py` | all (`BlockingModel`); the calls of the similarity in blocking (`CallsModel`), of the keys (`KeyCallsModel`) | |
| `fog/clustering/sorted_neighborhood.py` | all (`NeighborhoodModel`); adaptive windows that are any integers (`NeighborhoodAnyModel`); the calls of the similarity (`CallsModel`), of the keys (`KeyCallsModel`) | |
| `fog/clustering/passjoin.py` | all (`PassJoinModel`); thresholds that are any integers (`PassJoinAnyModel`); the calls of the distance (`CallsModel`) | |
| `fog/clustering/quickjoin.py` | all, with workers and vp-trees (`QuickJoinModel`); with an integer seed (`SeededModel`); the calls of the function, or of none, with one process and no vp-tree (`MetricCallsModel`) | the calls made by the workers and the vp-trees |
| `fog/clustering/ppjoin.py` | all (`PPJoinModel` for thresholds above 0 and up to 1, `PPJoinAnyModel` for all of them); in floats (`FloatPPJoinModel`); the crc32 ordering (`DigestModel`); the calls of the tokenizer (`TokenCallsModel`) | |
| `fog/clustering/minhash.py` | all (`MinHashModel`, `ProbabilityModel` for `match_probability`); sizes and bands that are any integers (`MinHashAnyModel`); the calls of the key (`KeyCallsModel`) | the fuel of the draw of parameters |
| `fog/clustering/nn_descent.py` | all (`NNDescentModel`); with an integer seed (`SeededModel`, `SeededFullModel`); `heapq` (`HeapModel`); the calls of the similarity (`NNCallsModel`) | |
| `fog/clustering/vp_tree.py`, `laesa.py` | all (`SpaceModel`); laesa with an integer seed (`SeededModel`); the calls of the distance in laesa (`MetricCallsModel`) | the VPTree itself |
| `fog/clustering/fagin.py` | all (`FaginModel`, any similarity; `FaginCosineModel`, the cosine and its failures) | rational weights |
| `fog/cli/split.py`, `transform.py`, `cluster.py`, `utils.py` | row functions (`CliModel`), the choice of the report (`ReportModel`; the clock is a parameter), the commands from the text of the input to the text of the output (`CsvModel`: universal newlines, `csv.reader`, `csv.writer`, rows written before a failure; the expression of `--eval` is a parameter) | encodings; line ends as on posix systems, NUL characters as in python >= 3.11 |
| `fog/cli/__main__.py` | all, with the `argparse` of CPython 3.11 for these parsers (`ArgsModel`: classification of the words, abbreviations, joined switches, matching of positionals, `FileType`, subparsers), files by name | the text of help and error messages |
| `fog/cli/reporting/toml.py` | `escape_string`, the content of the report (`CliModel`), its text (`ReportModel`) | |
| `fog/cli/reporting/html.py` | the text of the report (`ReportModel`) | attributes, entities and void elements in the reader of HTML (`ReportSpec`): the report has none of its own |
| `experiments/`, `docs/`, `setup.py` | no | not part of the package |

## 4. What the proofs found in the code

Each item is backed by a `..._refuted` theorem or by a theorem about the exact behaviour.

* Levenshtein: the one letter shortcut looks for the letter in the untrimmed string, hence
  `levenshtein_distance("Mister Hide", "Mister Hyde") = 0`; code points are compared modulo 2^16.
  `limited_levenshtein_distance` loses its two blocks of memory each time it gives up in the matrix (line 257, no `free`);
  a string of 2^32 characters is taken for an empty one, by the `_lte1` functions too; the result of `malloc` is not checked.
* Keys: `aa` and `aba` share no 1d key; `abcd`/`badc` share a Damerau key at distance two; `abcdef`/`bcdefg`
  share no 2d block; `''` raises IndexError in the Damerau 2d blocks.
* `ngrams` accepts sizes that are not positive: `ngrams(-1, 'abc')` gives `'ab'` and four empty grams, which `join_ngrams` refuses.
* `squeeze` keeps runs of line breaks (`.` does not match them).
* Fingerprints: splitting letters make the case matter; a stopword of two words depends on the order;
  `min_token_size=n` drops tokens of size n or less and makes the key not idempotent; `''` gives `['']`.
* Phonetics: cologne gives `66` for `MM` and distinguishes `P-H` from `PH`; rusalka raises IndexError on `hh`, `ij`.
* Clustering helpers: `key_collision` with `keys` and merge ignores size bounds; repeated keys repeat the item.
* pairwise leader: an oversized cluster raises AttributeError (`set.delete`); fuzzy clusters depend on the number of
  processes.
* passjoin: a negative k raises ZeroDivisionError (-1) or UnboundLocalError on the first string (C208); identical strings collapse; `fuzzy=False` repeats items in fuzzy mode.
* intersection_index: a radius of 0 or less misses pairs without common token (C205).
* pairwise with several processes and a negative `chunk_size` compares nothing and finds nothing, without an error (C206).
* Sorted neighborhood: an iterator is exhausted after the first key; the adaptive version raises IndexError
  or never ends on some inputs.
* quickjoin: never ends, for any draw, when two items within radius have together more copies than `block_size`;
  with a similarity nothing is compared across a partition; `quickjoin_join_pivots` fails on an empty first list;
  the repository's similarity test asserts on the wrong variable.
* ppjoin: a threshold of 0 or less, which every pair reaches, raises (IndexError; ZeroDivisionError for jaccard with -1) or finds
  nothing (binary_cosine); so does one of 1 or more; a threshold of a millionth raises on short records.
* ppjoin: an empty record raises IndexError; threshold 1 finds nothing; default and plus modes lose identical
  records of few tokens; tokenized records raise KeyError with the default ordering; `compute_overlap` may return
  a number just below the required one.
* minhash: `match_probability` is too low when the bands do not divide h, since minhash rounds the rows down (20 bands for 256
  values with the default arguments); `guess_bands` may return h + 1, which raises ValueError; the empty set has a zero signature; LSB similarity can
  be -1; SuperMinHash values of the empty set are m + 1; the numpy branch merges tokens.
* minhash: a negative number of bands finds nothing, without an error; a negative size compares all the pairs (C209).
* simhash: sizes 0, 1, 2 are accepted but fail; `popcount64` is wrong beyond 64 bits.
* Set metrics: `jaccard(∅, ∅)` is 0 unless both are the same object while `dice(∅, ∅)` is 1; all-zero weights and null vectors
  raise ZeroDivisionError; `intersection_size` of a list object with itself counts repetitions.
* Evaluation: a repeated item in a truth cluster gives precision 2; on F1 ties the order of items matters.
* Graph: component sizes come in node order; floatsam never ends on a star of 8 branches with the default
  parameters, and never tests its start threshold; it has ended when the threshold has passed all the weights, or never will (C207); the topology projection raises KeyError on a null vector.
* hashjoin: a generator on the right is joined with the first left item only; keys given by a generator are compared with the first inner
  item only (C181, C182); the key of an inner item is computed again for each outer item, and minhash computes both keys again for each
  candidate pair (C178).
* Words: `E.Macron` loses `Macron`; `a-t-,` gives an empty token; `min_word_length = max_word_length` is
  rejected; `keep=[]` keeps nothing; a single digit is tagged `punct`; `@foo's` gives the mention `'s` and `1900's` the
  number `'s`; `8:30` starts with the smiley `8:`, `@8ball` with the smiley `@8`, and `p8` is one; `foo.bar@baz.com` is read as `foo`,
  `.`, `bar@baz.com`; a local part of 64 characters or more is not recognised; `etc.` keeps its point before a space but not at the
  end of the string.
* CLI: split with a target column gives ragged rows; TOML strings with backslashes or control characters
  are not readable.
* nn_descent: a turn calls the similarity once per two-step path between two items, so a pair is compared again for each
  common neighbor and in both directions; with the default k the calls may exceed any multiple of n*n (C191); a similarity
  that changes with time may keep it going for ever (C193); without a similarity nor a distance it fails only if it compares
  something (C194); a rate `rho` of -1 or less compares nothing in nn_descent_full (C195);
* nn_descent: no data without k raises ValueError; k >= n never ends; the full version never ends when N k = 0;
  a neighbor is inserted again when it is met again, so that a list ends with copies of the nearest neighbor and links within the radius are lost.
* fagin: `threshold_algorithm_k1` need not find the nearest vector, and a null weight may make it raise ZeroDivisionError though no
  vector is null (C197); `fagin_k1` gives nothing for a vector with a dimension
  of its own; `sqrt_indexation_pairs` pairs leaders with themselves.
* adaptive_sorted_neighborhood with a window of 1 or less raises or does not end, but when the window is 1 and no record is similar
  to itself (C204).
* pairwise keeps repeated items apart, passjoin, blocking and sorted_neighborhood merge them: `["ab", "ab"]` is a cluster for the
  first one only (C106).
* HTML report: the last line opens `<html>` again, values are not escaped, `timedelta(microseconds=took)` gets seconds, and `took` is
  measured before the lazy clustering has run.
* Floats: cosine similarity depends on the order of the keys and may exceed 1 (`{a: .1, b: .1, c: .3}` and the same with the keys in another
  order); `ngram_keys` with 100 grams and threshold 0.29 goes down to 28 grams; `OnlineMean` does not undo.
* laesa: compares with the distance to the nearest pivot instead of the radius; repeated items raise IndexError; the number of distances
  it prints leaves out those to the pivots (0 printed after 17 calls), and up to 30 items it makes more calls than comparing all the pairs.
* Files: the commands open their input without `newline=''`, so a carriage return within a quoted cell is lost, in
  columns that the command has nothing to do with; a blank line, even the last one, raises IndexError after the rows before it have been
  written; `transform` refuses spaces around the commas of its operations (KeyError), and any operation after `len`
  (AttributeError or TypeError).
* crc32: `plumless` and `buckeroo` have the same number, as have `SwhMM` and `O84LY`: minhash takes the two tokens for one, and ppjoin
  with the crc32 ordering joins the records `{plumless}` and `{buckeroo}`; a lone surrogate raises ValueError (UnicodeEncodeError).
* Seeds: `seed=-1` and `seed=1` are the same seed; laesa with seed 123 finds no pair in `[0, 1, 5, 9, 10]` for radius 1, with seed 0 only
  one of the two; the test of `nn_descent_full` with one neighbor passes thanks to its first draws alone (with seed 2 it finds
  nothing, and with seed 0 and two neighbors only one of the two clusters).
* Command line: an option between the words and the file is refused (`fog split a -s , in.csv`); the file of `-o` is emptied while the line
  is read, hence lost when the line is refused after it, and before the input is read when it is the input.
* C146: in the evaluation of clusterings, rounding can separate two predicted clusters whose F1 is the same fraction.  A truth cluster of
  5 items, 2 of them in a predicted cluster of 7 and 1 in a predicted cluster of 1, has F1 = 1/3 with both; the floats differ, the other cluster is chosen and
  precision moves by more than 1/4.  The order of the truth clusters changes the last bit of the F-score.  The F-score itself stays within
  (N + 9) 2^-53 of the exact one (C147).
* C150: `sparse_normalize({'a': 1, 'b': 1})` has norm 0.9999999999999999 and changes when normalized again; `{'a': 1, 'b': 5}` gives a
  vector whose dot product with itself is 1.0000000000000002; `{'a': 2**53 + 3}` gives 1.0000000000000002 for its only weight.
* C152: SuperMinHash adds the turn j to a number of [0, 1[ in floats.  A number within 2^-53 of 1 makes the sum j + 1, and the signature may
  then hold the value m, one above the last (size 2, draws 1 - 2^-53: `[2, 0]`).  The generator gives such a number about once in 2^53 draws.
* C161: the docstring of `pairwise_connected_components` announces O(n * (c - 1) / 2) for c components.  Items that are all similar to the
  last one only make one component and n(n - 1)/2 comparisons; the pairs of different components are always compared (C160).
* C163: `blocking` gives its workers a graph of the pairs already found, but never fills it: items with several blocks in common are compared
  once for each.  `passjoin` measures a pair of strings once for each piece found.

## 5. Plan per property

| id | modelled | proof |
|----|----------|-------|
| C01 | `levenshtein_distance` of the pyx file, with its trimming, its one-letter shortcut, its 16 bit code table and its one-row dynamic program | spec: least number of single edits; refutation by witness for the shortcut (it searches the untrimmed string) and for code points beyond 16 bits; correctness of the row program by a row invariant |
| C02 | `limited_levenshtein_distance`, band arithmetic included | invariant: a cell whose exact value plus the remaining diagonal offset is at most max is exact, every other one is above the cap or above its exact value |
| C03, C04 | the two `lte1` scanners | induction on the common prefix |
| C05, C06 | key generator, with the doubled letter skip | completeness/soundness by case analysis on the edit; witnesses for the failing cases |
| C07, C08 | block functions | case analysis on lengths modulo 2 / 3; witnesses |
| C09, C10, C11 | `partition`, `segments`, interval, substrings, the whole `passjoin` loop | alignment split along the segments, pigeonhole, index invariant |
| C12, C13 | `clusters_from_pairs`, both modes | stack DFS invariant; arbitrary set order |
| C14..C17 | `pairwise*`, chunk iterator, workers, union-find as an abstract partition | enumeration lemma; invariance under permutation of the worker results |
| C18 | `blocking`, sequential and parallel | pairs emitted = similar pairs sharing a block |
| C19 | `key_collision`, `clusters_from_buckets` | grouping lemma; witness for ignored size bounds |
| C20 | `intersection_index` | inverted index invariant |
| C21, C22 | `sorted_neighborhood`, `full_AA_SNM` | window lemma; tiling invariant; witnesses of the index error and of the endless loop |
| C23 | `partition`, block stack, brute force of `quickjoin` | triangle inequality argument, for all pivot oracles; witnesses for endless loops and the similarity mode |
| C24, C25 | `ppjoin` with helpers over exact rationals | prefix filter pigeonhole on sorted token lists; witnesses |
| C26 | `guess_bands`, banding, double check | exact integer comparison of the banding threshold; witness of `range(…, 0)` |
| C27, C28, C29, C30 | `lsh` package | fold/min algebra, bit field decomposition, histogram invariant |
| C31, C32, C33 | `metrics` package | rational arithmetic; Cauchy-Schwarz in `R` |
| C34, C35 | `OnlineMean`, `squeeze` | fold over the history; list induction |
| C36, C37 | `ngrams`, `join_ngrams`, `ngram_keys` | list induction |
| C38 | `omission_key`, `skeleton_key`, transliteration as a parameter | first-appearance lists |
| C39 | fingerprint tokenizer, transliteration as a parameter | sorting, deduplication |
| C40, C41 | `cologne`, `rusalka` on lists of code points | invariants over the scan; witness of the index error |
| C42, C43 | `evaluation` package | rational bounds; grouping lemma |
| C44, C45, C46 | `graph` package | DFS invariant; loop invariant; witness of non termination |
| C47 | `hashjoin` with re-iterable and one-shot iterables | enumeration lemma; witness |
| C48, C49, C50 | word tokenizer, character classes as parameters, emoji/smiley regexes as oracles | progress and order invariants; witnesses |
| C51, C52 | CLI row functions, TOML escaping | list lemmas; witnesses |
| C53..C56 | nn_descent, vp_tree, fagin, laesa | soundness for all oracles; witnesses |
| C57, C58, C59 | companions of C01, C05/C06, C19 | exact behaviour: error at most one; which pairs are missed; components whatever the bounds |
| C60 | companion of C22 | all outcomes of `full_AA_SNM` |
| C61..C65 | companions of C35, C39, C40, C41, C42 | exact forms, conditions of the invariances |
| C66, C67, C68 | companions of C44, C45, C46 | exploration order, exact stopping condition, null vectors excluded |
| C69 | companion of C47 | one-shot iterables, several keys |
| C70, C71 | companion of C48; `reduce_lenghtening` | when nothing is lost; runs |
| C72, C73, C74 | companions of C51, C52; report of `cluster` | exact rows; characterisation of readable strings; groups by value |
| C75 | companion of C56 | exact links of laesa |
| C76, C77, C78 | the three other functions of `fagin.py` | soundness for all inputs, witnesses |
| C79, C80 | termination of nn_descent; nn_descent_full | fuel independence; soundness for all draws |
| C81, C82 | metric laws of simhash distance; equal slots share tokens | bit algebra; injectivity of the affine hash modulo a prime |
| C83, C84 | `guess_bands` over R; numpy branch | strict monotonicity of powers; witness |
| C85, C86, C87 | quickjoin: when it can end, similarity mode, helper join | measure on blocks; partition invariant |
| C88..C91 | ppjoin: exactness, lost pairs, helpers, failures | prefix filter pigeonhole, suffix filter lower bound |
| C92, C93, C94 | word tokenizer: what a type says about its text, maximality, pieces of hashtags | invariant of the scanner per kind; soundness and completeness of the smiley matcher |
| C95, C96, C97 | word tokenizer: texts cut at a space, items read back | the scanner never looks beyond a space, but for abbreviations; shift lemma |
| C98, C99 | nn_descent: local optimum, full lists | count of the entries that reach a similarity, per comparison; witness |
| C100..C104 | algorithms that agree with pairwise | clusters of positions read as clusters of items; uniqueness of components |
| C105, C106 | algorithms that only split the clusters of pairwise; repeated items | existence of components of finite relations; witness |
| C107..C110 | `match_probability`, `similarity_threshold` over R, probability of a shared band | sums of products over all tables; monotonicity of powers; witness |
| C111, C112 | text of the TOML report; grouped numbers, durations | a reader of TOML 1.0 that inverts the writer statement by statement; digits; the texts of integers are the ones written (`NumbersProps`) |
| C113, C114 | text of the HTML report | witnesses; sequence of tags and texts, composed line by line |
| C115, C116 | set similarities in floats | rounding is monotone and fixes the threshold; distinct fractions of small denominators round to distinct floats; square roots with a sticky bit |
| C117, C118 | weighted similarities and `OnlineMean` in floats | witnesses; monotonicity of rounding over the sums |
| C119, C120 | counts computed through floats | witness; error bound, distance of a fraction to the integers |
| C121, C122 | ppjoin in floats | error of each bound far below epsilon; the join proof is generic in the bounds |
| C123, C124, C125 | csv: reading, writing, reading back | the state machine follows the grammar of RFC 4180 cell by cell; invariant of the reader; witness |
| C126, C127, C128 | split, transform, cluster from text to text; rows and operations that fail | composition with the row functions; the rows before a failure |
| C129 | UTF-8, the table of CRC-32, `crc32` | the remainder of a division of polynomials, bit by bit; injectivity of the encoding |
| C130 | crc32 in minhash and in ppjoin | witnesses; four more bytes give any number |
| C131 | crc32 of uniform tokens | linearity over xor; certificates: linear forms that recover each bit of the difference, checked by computation |
| C132, C133 | minhash and ppjoin with the real crc32 | composition |
| C134, C135 | the generator of `random` with a seed, `random`, `getrandbits`, `randint` | the twist in place against the recurrence of MT19937 bit by bit; bounds |
| C136 | seeds | inverses of the tempering, of a step of the recurrence and of the seeding |
| C137, C138 | minhash, nn_descent, quickjoin, laesa with a seed | each is its model for some draws |
| C139, C140, C141 | `heapify`, `heapreplace`, `nlargest` | a heap but for one position; kept and dropped elements |
| C142..C145 | `main`, parsing of the command line | an independent table of the usage; the loop over the words consumes one option, one group of words at a time; extras are kept, so an unknown option refuses the line; witness |
| C146, C147 | `best_matching_macro_average` in floats | error of each operation; two F1 that differ do so by more than the error, sizes being at most 2^20; sorted key has ties only for equal counts; witnesses |
| C148 | `hashlib.md5`, `sha256`, `sha512` | relations bit by bit, functional; bounds on sin 1 and cos 1 from the series, then addition formulas in scaled integers; roots by powers of integers |
| C149 | `simhash` on strings | hexadecimal digits bit by bit; majority of C29 |
| C150, C151 | `sparse_norm`, `sparse_normalize` in floats | witnesses; products of errors (1 - u)^n and (1 + u)^n, Bernoulli's inequality; root of a rounded square; rounding commutes with powers of two |
| C152, C153 | SuperMinHash in floats | witness; the rounded run is the exact run for draws made of the rounded integer parts, then C30; tokens and their crc32 (`NumbersProps`, with that of C137) |
| C154 | `nn_descent_full` with a seed, rounded products | each function of the generator follows one of a stream of numbers, composed step by step; then C79, C80, C140 |
| C155 | patterns of the source | each pattern is parsed by computation (or by induction on the words and the separators), then its ways of matching are computed position by position; scan lemma for replacements |
| C156 | parser and engine of regular expressions | relation between positions; repetitions cut to steps that advance; measures on the text left |
| C157 | the parser of patterns | an independent grammar, inductive; from the grammar to the parser by mutual induction, with what may follow a sequence; from the parser to the grammar by induction on the fuel |
| C158 | calls of pairwise | programs with calls and yields; a loop that makes one call per element runs as the list of its calls (any user function) |
| C159, C160 | calls of leader and components | the leaders before a position; union-find partition = connectivity through earlier cells |
| C161 | complexity of components | refuted: a star around the last item |
| C162, C163 | calls of blocking | buckets as filters of the data; C163 refuted by two blocks in common |
| C164 | calls of sorted_neighborhood | cells of the window, sum over the rows |
| C165 | calls of passjoin | the index holds the strings before; balanced cuts are unique |
| C166 | agreement and any user function | induction on programs; each model from the runs above |
| C167, C168, C169 | calls of laesa | phase by phase; each step of the choice of pivots skips those already chosen; C168 refuted by computation |
| C170 | calls of quickjoin | invariant of the stack: its items are items of the data; run of each block |
| C171 | which match the engine finds | each way is described by its choices; the list of ways with their choices is sorted and is the meaning; fuel enough to read the text |
| C172 - C175 | C code of the distances | simulation of each loop by the loop of the model; bound on the cells of the matrix: the larger of the row and the column; last row for the leak |
| C176, C177 | calls of keys in key_collision, blocking, intersection_index, sorted_neighborhood | run of a loop of calls; programs of two functions; the run with the calls of the keys hidden |
| C178 - C182 | calls of keys in hashjoin and minhash | programs whose calls do not depend on the answers; count per shared band; witnesses |
| C183 - C187 | ppjoin with any threshold | simulation of the two joins, ids being short records; the first record has no candidate; witnesses |
| C188 - C193 | calls of the similarity in nn_descent and nn_descent_full | programs whose calls do not depend on the answers, turn by turn; double counting of two-step paths; draws that make hubs; witness |
| C194 | nn_descent without a function | a program that makes no call with one function makes none with another; the first call |
| C195 | null or negative sampling rate | without samples a turn changes flags only; the links depend on the entries without flags |
| C196 | naive_cosine_pairs and the cosine | the sums of the cosine in rational numbers |
| C197 | threshold_algorithm_k1 with the cosine | refinement: cosines are compared like their signed squares, which are rational; then C76; witnesses |
| C198 | sqrt_indexation_pairs with the cosine | invariant of the loop up to the first failure; when sums of squares are null |
| C199 | calls of the tokenizer of ppjoin | the programs that make no call, composed; the positions of the index are those of records |
| C200 | what threshold_algorithm_k1 is sure to find | the best one is the most similar one of those visited; the first turn visits the first other vector of each sorted list |
| C201, C202 | C code of the `_lte1` functions | simulation of each loop by the loop of the model on the cut strings; strings of 2^32 characters kept abstract but for their length |
| C203 | n-grams of any integer size | slices whose end is counted from the length; an empty gram after the first has no last token |
| C204 | adaptive windows of any integer size | positions go down until one is out of the list; the loop with a null step is endless |
| C205 | `intersection_index` with a radius of 0 or less | any common token reaches the radius; components of the relation |
| C206 | chunk sizes of any integer value (`ChunksAnyModel`) | the exact quotient rounded up is not positive: no chunk; classes of a union-find without union |
| C207 | turns of `floatsam_sparsification`, rates of both signs | the edges kept no longer change: the same components at every later threshold |
| C208 | `passjoin`, `partition` for any integer k (`PassJoinAnyModel`) | the remainder has the sign of a negative divisor: no small segment, hence no bound variable |
| C209 | `minhash` with any integers h and bands (`MinHashAnyModel`) | the range of the bands is empty; empty signatures give one bucket per band, with all the items |

Status per property is in `MANIFEST.json` (made by `tools/manifest.py` from the theorems of the `*Props.v` files and
`tools/notes.json`).  "partial" is used when the property, as first stated, is false of the code (a `_refuted` theorem) or
proved in part; the note then names the property that states the exact behaviour.

## 6. Wrong programs

`seeded/mutants.json` lists edits of model definitions (wrong boundary, dropped case, swapped
argument...).  `tools/mutate.py` applies each of them to a scratch copy outside the repository, rebuilds the files that
depend on it, admits there the lemmas that break, and reports the property theorems that break or rest on a broken lemma.
`seeded/LOG.jsonl` has one line per attempt.  A broken proof does not by itself show that the claim is false of the
edited program; `lemmas_broken` tells which proofs and which examples stopped working, and the field `tightened`
names the theorems that were added or strengthened because an edit went unnoticed or was only noticed by a proof
of something else.

No theorem fails for `dig-26`, `heap-28`, `floateval-01`, `floateval-25`, `floateval-30`, `ppany-17`, `ppany-18`, `ppany-21`, `ppcore-02`.  These edits were judged, but not proved, to change
nothing that the code can reach or show.  18 edits of `mutants.json` have no line in the log and tell nothing about
the theorems.  The tool reported `dig-28`, `dig-34`, `rand-05`, `heap-09`, `regexuses-30`, `mhany-15`
as invalid (a file failed outside of a proof).  No result was kept for `csv-43`, `csv-46`, `seeded-21`, `seeded-23`, `seeded-26`, `args-24`, `args-32`, `args-84`, `args-87`, `metriccalls-12`, `metriccalls-30`, `levc-12`.
