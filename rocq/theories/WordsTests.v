(** The tests of the repository (test/tokenizers/words_test.py) replayed on the model, with the character classes of the
    characters they use, as given by python. *)
From Coq Require Import String Ascii.
From Verif Require Import Base BaseFacts LevModel StringsModel PhoneticsModel WordsModel WordsSpec.
Open Scope nat_scope.
Open Scope list_scope.
Notation length := List.length.

Definition t_isspace (c : N) : bool := memb c [9; 10; 11; 12; 13; 28; 29; 30; 31; 32]%N.
Definition t_isalnum (c : N) : bool := memb c [48; 49; 50; 51; 52; 53; 54; 55; 56; 57; 65; 66; 67; 68; 69; 70; 71; 72; 73; 74; 75; 76; 77; 78; 79; 80; 81; 82; 83; 84; 85; 86; 87; 88; 89; 90; 97; 98; 99; 100; 101; 102; 103; 104; 105; 106; 107; 108; 109; 110; 111; 112; 113; 114; 115; 116; 117; 118; 119; 120; 121; 122; 186; 199; 201; 224; 231; 232; 233; 234; 238; 251; 339]%N.
Definition t_isalpha (c : N) : bool := memb c [65; 66; 67; 68; 69; 70; 71; 72; 73; 74; 75; 76; 77; 78; 79; 80; 81; 82; 83; 84; 85; 86; 87; 88; 89; 90; 97; 98; 99; 100; 101; 102; 103; 104; 105; 106; 107; 108; 109; 110; 111; 112; 113; 114; 115; 116; 117; 118; 119; 120; 121; 122; 186; 199; 201; 224; 231; 232; 233; 234; 238; 251; 339]%N.
Definition t_isdigit (c : N) : bool := memb c [48; 49; 50; 51; 52; 53; 54; 55; 56; 57]%N.
Definition t_isupper (c : N) : bool := memb c [65; 66; 67; 68; 69; 70; 71; 72; 73; 74; 75; 76; 77; 78; 79; 80; 81; 82; 83; 84; 85; 86; 87; 88; 89; 90; 199; 201]%N.
Definition t_islower (c : N) : bool := memb c [97; 98; 99; 100; 101; 102; 103; 104; 105; 106; 107; 108; 109; 110; 111; 112; 113; 114; 115; 116; 117; 118; 119; 120; 121; 122; 186; 224; 231; 232; 233; 234; 238; 251; 339]%N.
Definition t_letter (c : N) : bool := memb c [65; 66; 67; 68; 69; 70; 71; 72; 73; 74; 75; 76; 77; 78; 79; 80; 81; 82; 83; 84; 85; 86; 87; 88; 89; 90; 95; 97; 98; 99; 100; 101; 102; 103; 104; 105; 106; 107; 108; 109; 110; 111; 112; 113; 114; 115; 116; 117; 118; 119; 120; 121; 122; 186; 199; 201; 224; 231; 232; 233; 234; 238; 251; 339]%N.
Definition t_lower (s : str) : str := map (fun c => match dget [(65, 97); (66, 98); (67, 99); (68, 100); (69, 101); (70, 102); (71, 103); (72, 104); (73, 105); (74, 106); (75, 107); (76, 108); (77, 109); (78, 110); (79, 111); (80, 112); (81, 113); (82, 114); (83, 115); (84, 116); (85, 117); (86, 118); (87, 119); (88, 120); (89, 121); (90, 122); (199, 231); (201, 233)]%N c with Some d => d | None => c end) s.
Definition t_unidecode (s : str) : str := flat_map (fun c => match dget [(186%N, codes "o"); (199%N, codes "C"); (201%N, codes "E"); (224%N, codes "a"); (231%N, codes "c"); (232%N, codes "e"); (233%N, codes "e"); (234%N, codes "e"); (238%N, codes "i"); (251%N, codes "u")] c with Some d => d | None => [c] end) s.
Definition t_unescape (s : str) : str := match dget [(codes "&#34;Hello&#34; &eacute;tirons!", [34; 72; 101; 108; 108; 111; 34; 32; 233; 116; 105; 114; 111; 110; 115; 33]%N)] s with Some d => d | None => s end.
Definition t_emojis : list str := [[128104; 8205; 128104; 8205; 128103; 8205; 128103]%N; [128049]%N; [128591]%N; [11088]%N; [9917]%N; [129321]%N; [127467; 127479]%N].
Definition t_emoji (s : str) : nat := match find (fun e => starts_with e s) t_emojis with Some e => length e | None => 0 end.

Definition t_options : options :=
  {| o_lower := false; o_unidecode := false; o_reduce_words := false; o_decode_html_entities := false;
     o_normalize_mentions := false; o_normalize_hashtags := false; o_mentions_as_words := false;
     o_hashtags_as_words := false; o_split_hashtags := false; o_min_word_length := None; o_max_word_length := None;
     o_stoplist := None; o_keep := None; o_drop := None |}.
Definition t_raw (s : str) : res (list token) :=
  raw_tokens t_isspace t_isalnum t_isalpha t_isdigit t_isupper t_islower t_lower t_emoji false s.
Definition t_run (o : options) (s : str) : res (list token) :=
  let! o := word_tokenizer t_lower o in
  tokenize t_isspace t_isalnum t_isalpha t_isdigit t_isupper t_islower t_letter t_lower t_unescape t_unidecode t_emoji o s.
Definition values (r : res (list token)) : res (list str) := let! ts := r in Ok (map snd ts).

(** words_test.py:335-346 *)
Example word_tokenizer_repository_exceptions :
  (forall o, In o [
    {| o_lower := false; o_unidecode := false; o_reduce_words := false; o_decode_html_entities := false; o_normalize_mentions := false; o_normalize_hashtags := false; o_mentions_as_words := false; o_hashtags_as_words := false; o_split_hashtags := false; o_min_word_length := None; o_max_word_length := None; o_stoplist := None; o_keep := Some ["test"%string]; o_drop := None |};
    {| o_lower := false; o_unidecode := false; o_reduce_words := false; o_decode_html_entities := false; o_normalize_mentions := false; o_normalize_hashtags := false; o_mentions_as_words := false; o_hashtags_as_words := false; o_split_hashtags := false; o_min_word_length := None; o_max_word_length := None; o_stoplist := None; o_keep := None; o_drop := Some ["test"%string] |};
    {| o_lower := false; o_unidecode := false; o_reduce_words := false; o_decode_html_entities := false; o_normalize_mentions := false; o_normalize_hashtags := false; o_mentions_as_words := false; o_hashtags_as_words := false; o_split_hashtags := false; o_min_word_length := None; o_max_word_length := None; o_stoplist := None; o_keep := Some ["word"%string]; o_drop := Some ["emoji"%string] |};
    {| o_lower := false; o_unidecode := false; o_reduce_words := false; o_decode_html_entities := false; o_normalize_mentions := false; o_normalize_hashtags := false; o_mentions_as_words := false; o_hashtags_as_words := false; o_split_hashtags := false; o_min_word_length := Some 45; o_max_word_length := Some 4; o_stoplist := None; o_keep := None; o_drop := None |}]
   -> word_tokenizer t_lower o = Err TypeError).
Proof. intros o [<- | [<- | [<- | [<- | []]]]]; vm_compute; reflexivity. Qed.

(** words_test.py:348-385 *)
Example split_hashtag_repository_tests :
  map (fun s => values (split_hashtag t_isdigit t_isupper t_islower s)) [codes "#test";
    codes "#Test";
    codes "#t";
    codes "#T";
    codes "#TestWhatever";
    codes "#testWhatever";
    [35; 201; 112; 111; 112; 233; 101; 82; 117; 115; 115; 101]%N;
    codes "#TestOkFinal";
    codes "#TestOkFinalT";
    codes "#Test123Whatever";
    codes "#TDF2018";
    codes "#T2018";
    codes "#TheID2018";
    codes "#8YearsOfOneDirection";
    codes "#This18Gloss";
    codes "#WordpressIDInformation";
    codes "#LearnWCFInSixEasyMonths";
    codes "#ThisIsInPascalCase";
    codes "#whatAboutThis";
    codes "#This123thingOverload";
    codes "#final19"] =
  [Ok [codes "test"];
    Ok [codes "Test"];
    Ok [codes "t"];
    Ok [codes "T"];
    Ok [codes "Test"; codes "Whatever"];
    Ok [codes "test"; codes "Whatever"];
    Ok [[201; 112; 111; 112; 233; 101]%N; codes "Russe"];
    Ok [codes "Test"; codes "Ok"; codes "Final"];
    Ok [codes "Test"; codes "Ok"; codes "Final"; codes "T"];
    Ok [codes "Test"; codes "123"; codes "Whatever"];
    Ok [codes "TDF"; codes "2018"];
    Ok [codes "T"; codes "2018"];
    Ok [codes "The"; codes "ID"; codes "2018"];
    Ok [codes "8"; codes "Years"; codes "Of"; codes "One"; codes "Direction"];
    Ok [codes "This"; codes "18"; codes "Gloss"];
    Ok [codes "Wordpress"; codes "ID"; codes "Information"];
    Ok [codes "Learn"; codes "WCF"; codes "In"; codes "Six"; codes "Easy"; codes "Months"];
    Ok [codes "This"; codes "Is"; codes "In"; codes "Pascal"; codes "Case"];
    Ok [codes "what"; codes "About"; codes "This"];
    Ok [codes "This"; codes "123"; codes "thing"; codes "Overload"];
    Ok [codes "final"; codes "19"]].
Proof. vm_compute. reflexivity. Qed.

Example split_hashtag_repository_types :
  split_hashtag t_isdigit t_isupper t_islower (codes "#Test18OK23test45Whatever56") = Ok [(Word, codes "Test"); (Number, codes "18"); (Word, codes "OK"); (Number, codes "23"); (Word, codes "test"); (Number, codes "45"); (Word, codes "Whatever"); (Number, codes "56")].
Proof. vm_compute. reflexivity. Qed.

(** words_test.py:387-395 *)
Example punct_emoji_iter_repository_tests :
  map (punct_emoji_iter t_emoji) [[128591; 44; 128591; 44]%N;
    [44; 128591; 44; 44; 44; 128591; 44]%N;
    [11088; 65039; 46; 128591; 11088; 65039; 11088; 65039; 44; 11088; 65039]%N] =
  [[(Emoji, [128591]%N); (Punct, codes ","); (Emoji, [128591]%N); (Punct, codes ",")];
    [(Punct, codes ","); (Emoji, [128591]%N); (Punct, codes ","); (Punct, codes ","); (Punct, codes ","); (Emoji, [128591]%N); (Punct, codes ",")];
    [(Emoji, [11088; 65039]%N); (Punct, codes "."); (Emoji, [128591]%N); (Emoji, [11088; 65039]%N); (Emoji, [11088; 65039]%N); (Punct, codes ","); (Emoji, [11088; 65039]%N)]].
Proof. vm_compute. reflexivity. Qed.

(** words_test.py:427-478 *)
Example token_types_repository_tests :
  map t_raw [[84; 104; 105; 115; 32; 49; 115; 116; 32; 50; 46; 57; 32; 50; 44; 53; 44; 32; 45; 51; 52; 44; 32; 58; 45; 41; 32; 104; 116; 116; 112; 115; 58; 47; 47; 119; 119; 119; 46; 108; 101; 109; 111; 110; 100; 101; 46; 102; 114; 32; 45; 32; 128591; 11088; 65039; 11088; 65039; 32; 121; 111; 109; 103; 117; 105; 64; 103; 105; 116; 104; 117; 98; 46; 110; 101; 116; 32; 128049; 32; 35; 116; 101; 115; 116; 32; 64; 121; 111; 109; 103; 117; 105; 32; 35; 32; 64]%N;
    codes "20m2 747-400 5.6, 6.7 5,6. 6,7 5,6.6,7 5,6,7 10_000 4.5, 5,6 and 2.3.4 and 2.3. and 2.5.5.3. or 4.5.stop"] =
  [Ok [(Word, codes "This"); (Word, codes "1st"); (Number, codes "2.9"); (Number, codes "2,5"); (Punct, codes ","); (Number, codes "-34"); (Punct, codes ","); (Smiley, codes ":-)"); (Url, codes "https://www.lemonde.fr"); (Punct, codes "-"); (Emoji, [128591]%N); (Emoji, [11088; 65039]%N); (Emoji, [11088; 65039]%N); (Email, codes "yomgui@github.net"); (Emoji, [128049]%N); (Hashtag, codes "#test"); (Mention, codes "@yomgui"); (Punct, codes "#"); (Punct, codes "@")];
    Ok [(Word, codes "20m2"); (Word, codes "747-400"); (Number, codes "5.6"); (Punct, codes ","); (Number, codes "6.7"); (Number, codes "5,6"); (Punct, codes "."); (Number, codes "6,7"); (Number, codes "5,6"); (Punct, codes "."); (Number, codes "6,7"); (Number, codes "5,6"); (Punct, codes ","); (Punct, codes "7"); (Word, codes "10_000"); (Number, codes "4.5"); (Punct, codes ","); (Number, codes "5,6"); (Word, codes "and"); (Number, codes "2.3"); (Punct, codes "."); (Punct, codes "4"); (Word, codes "and"); (Number, codes "2.3"); (Punct, codes "."); (Word, codes "and"); (Number, codes "2.5"); (Punct, codes "."); (Number, codes "5.3"); (Punct, codes "."); (Word, codes "or"); (Number, codes "4.5"); (Punct, codes "."); (Word, codes "stop")]].
Proof. vm_compute. reflexivity. Qed.

(** words_test.py:8-332, 397-425 *)
Example basics_1 : values (t_run t_options
    ([71; 111; 111; 100; 32; 109; 117; 102; 102; 105; 110; 115; 32; 99; 111; 115; 116; 32; 36; 51; 46; 56; 56; 10; 105; 110; 32; 78; 101; 119; 32; 89; 111; 114; 107; 46; 32; 32; 80; 108; 101; 97; 115; 101; 32; 98; 117; 121; 32; 109; 101; 10; 116; 119; 111; 32; 111; 102; 32; 116; 104; 101; 109; 46; 10; 84; 104; 97; 110; 107; 115; 46]%N)) =
  Ok [codes "Good"; codes "muffins"; codes "cost"; codes "$"; codes "3.88"; codes "in"; codes "New"; codes "York"; codes "."; codes "Please"; codes "buy"; codes "me"; codes "two"; codes "of"; codes "them"; codes "."; codes "Thanks"; codes "."].
Proof. vm_compute. reflexivity. Qed.
Example basics_2 : values (t_run t_options
    (codes "They'll save and invest more.")) =
  Ok [codes "They"; codes "'ll"; codes "save"; codes "and"; codes "invest"; codes "more"; codes "."].
Proof. vm_compute. reflexivity. Qed.
Example basics_3 : values (t_run t_options
    (codes "hi, my name can't hello,")) =
  Ok [codes "hi"; codes ","; codes "my"; codes "name"; codes "can't"; codes "hello"; codes ","].
Proof. vm_compute. reflexivity. Qed.
Example basics_4 : values (t_run t_options
    ([34; 72; 101; 108; 108; 111; 34; 44; 32; 71; 111; 111; 100; 32; 115; 105; 114; 32; 40; 116; 104; 105; 115; 32; 105; 115; 32; 97; 112; 112; 97; 108; 105; 110; 103; 41; 46; 46; 46]%N)) =
  Ok [[34]%N; codes "Hello"; [34]%N; codes ","; codes "Good"; codes "sir"; codes "("; codes "this"; codes "is"; codes "appaling"; codes ")"; codes "."; codes "."; codes "."].
Proof. vm_compute. reflexivity. Qed.
Example basics_5 : values (t_run t_options
    ([76; 39; 97; 109; 111; 117; 114; 32; 100; 101; 32; 108; 8217; 97; 109; 111; 117; 114; 32; 110; 97; 238; 116; 32; 112; 101; 110; 100; 97; 110; 116; 32; 108; 39; 233; 116; 233; 33]%N)) =
  Ok [codes "L'"; codes "amour"; codes "de"; [108; 8217]%N; codes "amour"; [110; 97; 238; 116]%N; codes "pendant"; codes "l'"; [233; 116; 233]%N; codes "!"].
Proof. vm_compute. reflexivity. Qed.
Example basics_6 : values (t_run t_options
    (codes "It all started during the 90's!")) =
  Ok [codes "It"; codes "all"; codes "started"; codes "during"; codes "the"; codes "90"; codes "'s"; codes "!"].
Proof. vm_compute. reflexivity. Qed.
Example basics_7 : values (t_run t_options
    ([84; 104; 105; 115; 32; 105; 115; 32; 115; 111; 109; 101; 32; 105; 116; 39; 115; 32; 115; 101; 110; 116; 101; 110; 99; 101; 46; 32; 84; 104; 105; 115; 32; 105; 115; 32; 105; 110; 99; 114; 101; 100; 105; 98; 108; 101; 32; 34; 111; 107; 34; 32; 40; 118; 101; 114; 121; 41; 32; 36; 50; 44; 52; 32; 50; 46; 52; 32; 65; 117; 106; 111; 117; 114; 100; 39; 104; 117; 105; 32; 84; 104; 105; 115; 44; 32; 105; 115; 32; 118; 101; 114; 121; 32; 99; 114; 117; 101; 108]%N)) =
  Ok [codes "This"; codes "is"; codes "some"; codes "it"; codes "'s"; codes "sentence"; codes "."; codes "This"; codes "is"; codes "incredible"; [34]%N; codes "ok"; [34]%N; codes "("; codes "very"; codes ")"; codes "$"; codes "2,4"; codes "2.4"; codes "Aujourd'hui"; codes "This"; codes ","; codes "is"; codes "very"; codes "cruel"].
Proof. vm_compute. reflexivity. Qed.
Example basics_8 : values (t_run t_options
    ([84; 104; 105; 115; 32; 105; 115; 32; 97; 32; 118; 101; 114; 121; 32; 110; 105; 99; 101; 32; 99; 97; 116; 32; 128049; 33; 32; 78; 111; 63; 32; 70; 97; 109; 105; 108; 121; 58; 32; 128104; 8205; 128104; 8205; 128103; 8205; 128103; 33]%N)) =
  Ok [codes "This"; codes "is"; codes "a"; codes "very"; codes "nice"; codes "cat"; [128049]%N; codes "!"; codes "No"; codes "?"; codes "Family"; codes ":"; [128104; 8205; 128104; 8205; 128103; 8205; 128103]%N; codes "!"].
Proof. vm_compute. reflexivity. Qed.
Example basics_9 : values (t_run t_options
    ([67; 111; 110; 116; 114; 111; 108; 58; 1; 9; 9; 10; 32; 111; 107; 63; 32; 87; 111; 16; 114; 100]%N)) =
  Ok [codes "Control"; codes ":"; codes "ok"; codes "?"; codes "Wo"; codes "rd"].
Proof. vm_compute. reflexivity. Qed.
Example basics_10 : values (t_run t_options
    (codes "This is.Another")) =
  Ok [codes "This"; codes "is"; codes "."; codes "Another"].
Proof. vm_compute. reflexivity. Qed.
Example basics_11 : values (t_run t_options
    (codes "")) =
  Ok [].
Proof. vm_compute. reflexivity. Qed.
Example basics_12 : values (t_run t_options
    (codes "hello world")) =
  Ok [codes "hello"; codes "world"].
Proof. vm_compute. reflexivity. Qed.
Example basics_13 : values (t_run t_options
    (codes "O.N.U. La vie.est foutue")) =
  Ok [codes "O.N.U."; codes "La"; codes "vie"; codes "."; codes "est"; codes "foutue"].
Proof. vm_compute. reflexivity. Qed.
Example basics_14 : values (t_run t_options
    (codes "L'O.N.U est dans la place")) =
  Ok [codes "L'"; codes "O.N.U"; codes "est"; codes "dans"; codes "la"; codes "place"].
Proof. vm_compute. reflexivity. Qed.
Example basics_15 : values (t_run t_options
    ([76; 101; 115; 32; 201; 46; 85; 46; 32; 115; 111; 110; 116; 32; 110; 117; 108; 115; 46]%N)) =
  Ok [codes "Les"; [201; 46; 85; 46]%N; codes "sont"; codes "nuls"; codes "."].
Proof. vm_compute. reflexivity. Qed.
Example basics_16 : values (t_run t_options
    (codes "@start/over #123 This is so #javascript @Yomguithereal! $cash")) =
  Ok [codes "@start"; codes "/"; codes "over"; codes "#"; codes "123"; codes "This"; codes "is"; codes "so"; codes "#javascript"; codes "@Yomguithereal"; codes "!"; codes "$cash"].
Proof. vm_compute. reflexivity. Qed.
Example basics_17 : values (t_run t_options
    (codes "I've been. I'll be. You're mean. You've lost. I'd be. I'm nice. It's a shame!")) =
  Ok [codes "I"; codes "'ve"; codes "been"; codes "."; codes "I"; codes "'ll"; codes "be"; codes "."; codes "You"; codes "'re"; codes "mean"; codes "."; codes "You"; codes "'ve"; codes "lost"; codes "."; codes "I"; codes "'d"; codes "be"; codes "."; codes "I"; codes "'m"; codes "nice"; codes "."; codes "It"; codes "'s"; codes "a"; codes "shame"; codes "!"].
Proof. vm_compute. reflexivity. Qed.
Example basics_18 : values (t_run t_options
    (codes "Aren't I?")) =
  Ok [codes "Aren't"; codes "I"; codes "?"].
Proof. vm_compute. reflexivity. Qed.
Example basics_19 : values (t_run t_options
    (codes "'Tis but a jest. 'twas in vain alas! But 'tis ok!")) =
  Ok [codes "'Tis"; codes "but"; codes "a"; codes "jest"; codes "."; codes "'twas"; codes "in"; codes "vain"; codes "alas"; codes "!"; codes "But"; codes "'tis"; codes "ok"; codes "!"].
Proof. vm_compute. reflexivity. Qed.
Example basics_20 : values (t_run t_options
    ([68; 39; 109; 105; 116; 114; 32; 78; 39; 71; 117; 121; 101; 110; 32; 79; 39; 68; 111; 104; 101; 114; 116; 121; 32; 79; 39; 72; 97; 114; 97; 32; 77; 98; 97; 112; 112; 233; 32; 77; 39; 98; 97; 112; 112; 233; 32; 77; 39; 76; 101; 111; 100; 32; 78; 39; 100; 105; 97; 121; 101; 32; 78; 39; 68; 106; 97; 109; 233; 110; 97; 32; 76; 39; 65; 114; 114; 105; 118; 233; 101; 32; 109; 39; 97; 112; 112; 101; 108; 101; 114; 32; 115; 117; 114; 32; 108; 39; 104; 101; 114; 98; 101]%N)) =
  Ok [codes "D'mitr"; codes "N'Guyen"; codes "O'Doherty"; codes "O'Hara"; [77; 98; 97; 112; 112; 233]%N; [77; 39; 98; 97; 112; 112; 233]%N; codes "M'Leod"; codes "N'diaye"; [78; 39; 68; 106; 97; 109; 233; 110; 97]%N; codes "L'"; [65; 114; 114; 105; 118; 233; 101]%N; codes "m'"; codes "appeler"; codes "sur"; codes "l'"; codes "herbe"].
Proof. vm_compute. reflexivity. Qed.
Example basics_21 : values (t_run t_options
    (codes "Those numbers 4.5, 5,6 and 2.3.4 and 2.3. and 2.5.5.3. or 4.5.stop")) =
  Ok [codes "Those"; codes "numbers"; codes "4.5"; codes ","; codes "5,6"; codes "and"; codes "2.3"; codes "."; codes "4"; codes "and"; codes "2.3"; codes "."; codes "and"; codes "2.5"; codes "."; codes "5.3"; codes "."; codes "or"; codes "4.5"; codes "."; codes "stop"].
Proof. vm_compute. reflexivity. Qed.
Example basics_22 : values (t_run t_options
    (codes "1. Whatever, 2. something else?")) =
  Ok [codes "1"; codes "."; codes "Whatever"; codes ","; codes "2"; codes "."; codes "something"; codes "else"; codes "?"].
Proof. vm_compute. reflexivity. Qed.
Example basics_23 : values (t_run t_options
    (codes "Mr. Goldberg is dead with mlle. Jordan etc. What a day!")) =
  Ok [codes "Mr."; codes "Goldberg"; codes "is"; codes "dead"; codes "with"; codes "mlle."; codes "Jordan"; codes "etc."; codes "What"; codes "a"; codes "day"; codes "!"].
Proof. vm_compute. reflexivity. Qed.
Example basics_24 : values (t_run t_options
    ([76; 39; 35; 97; 109; 111; 117; 114; 32; 97; 112; 112; 97; 114; 116; 105; 101; 110; 116; 32; 224; 32; 108; 39; 64; 97; 110; 103; 101; 33]%N)) =
  Ok [codes "L'"; codes "#amour"; codes "appartient"; [224]%N; codes "l'"; codes "@ange"; codes "!"].
Proof. vm_compute. reflexivity. Qed.
Example basics_25 : values (t_run t_options
    ([76; 97; 32; 116; 101; 109; 112; 233; 114; 97; 116; 117; 114; 101; 32; 101; 115; 116; 32; 100; 101; 32; 45; 50; 51; 46; 32; 73; 108; 32; 101; 115; 116; 32; 45; 115; 251; 114; 32; 113; 117; 101; 32; 99; 101; 108; 97; 32; 118; 97; 32; 97; 114; 114; 105; 118; 101; 114; 46]%N)) =
  Ok [codes "La"; [116; 101; 109; 112; 233; 114; 97; 116; 117; 114; 101]%N; codes "est"; codes "de"; codes "-23"; codes "."; codes "Il"; codes "est"; codes "-"; [115; 251; 114]%N; codes "que"; codes "cela"; codes "va"; codes "arriver"; codes "."].
Proof. vm_compute. reflexivity. Qed.
Example basics_26 : values (t_run t_options
    (codes "One url: https://lemonde.fr/test another one http://www.lemonde.fr/protect.html")) =
  Ok [codes "One"; codes "url"; codes ":"; codes "https://lemonde.fr/test"; codes "another"; codes "one"; codes "http://www.lemonde.fr/protect.html"].
Proof. vm_compute. reflexivity. Qed.
Example basics_27 : values (t_run t_options
    (codes "email:john@whatever.net")) =
  Ok [codes "email"; codes ":"; codes "john@whatever.net"].
Proof. vm_compute. reflexivity. Qed.
Example basics_28 : values (t_run t_options
    (codes "Checkout this ----> https://www.facebook.com, <--")) =
  Ok [codes "Checkout"; codes "this"; codes "---->"; codes "https://www.facebook.com"; codes ","; codes "<--"].
Proof. vm_compute. reflexivity. Qed.
Example basics_29 : values (t_run t_options
    (codes "Love you :). Bye <3")) =
  Ok [codes "Love"; codes "you"; codes ":)"; codes "."; codes "Bye"; codes "<3"].
Proof. vm_compute. reflexivity. Qed.
Example basics_30 : values (t_run t_options
    (codes "This is a cooool #dummysmiley: :-) :-P <3 and some arrows < > -> <--")) =
  Ok [codes "This"; codes "is"; codes "a"; codes "cooool"; codes "#dummysmiley"; codes ":"; codes ":-)"; codes ":-P"; codes "<3"; codes "and"; codes "some"; codes "arrows"; codes "<"; codes ">"; codes "->"; codes "<--"].
Proof. vm_compute. reflexivity. Qed.
Example basics_31 : values (t_run t_options
    (codes "Such a nice kiss: :3 :'(")) =
  Ok [codes "Such"; codes "a"; codes "nice"; codes "kiss"; codes ":"; codes ":3"; codes ":'("].
Proof. vm_compute. reflexivity. Qed.
Example basics_32 : values (t_run t_options
    (codes "This ends with #")) =
  Ok [codes "This"; codes "ends"; codes "with"; codes "#"].
Proof. vm_compute. reflexivity. Qed.
Example basics_33 : values (t_run t_options
    (codes "This ends with @")) =
  Ok [codes "This"; codes "ends"; codes "with"; codes "@"].
Proof. vm_compute. reflexivity. Qed.
Example basics_34 : values (t_run t_options
    (codes "This is my mother-in-law.")) =
  Ok [codes "This"; codes "is"; codes "my"; codes "mother-in-law"; codes "."].
Proof. vm_compute. reflexivity. Qed.
Example basics_35 : values (t_run t_options
    (codes "This is a very_cool_identifier")) =
  Ok [codes "This"; codes "is"; codes "a"; codes "very_cool_identifier"].
Proof. vm_compute. reflexivity. Qed.
Example basics_36 : values (t_run t_options
    ([85; 110; 32; 118; 233; 114; 105; 116; 97; 98; 108; 101; 32; 99; 104; 101; 102; 45; 100; 39; 339; 117; 118; 114; 101; 33]%N)) =
  Ok [codes "Un"; [118; 233; 114; 105; 116; 97; 98; 108; 101]%N; [99; 104; 101; 102; 45; 100; 39; 339; 117; 118; 114; 101]%N; codes "!"].
Proof. vm_compute. reflexivity. Qed.
Example basics_37 : values (t_run t_options
    (codes "This is -not cool- ok-")) =
  Ok [codes "This"; codes "is"; codes "-"; codes "not"; codes "cool"; codes "-"; codes "ok"; codes "-"].
Proof. vm_compute. reflexivity. Qed.
Example basics_38 : values (t_run t_options
    ([55; 101; 32; 49; 101; 114; 32; 55; 101; 109; 101; 32; 55; 232; 109; 101; 32; 55; 116; 104; 32; 49; 115; 116; 32; 51; 114; 100; 32; 50; 110; 100; 32; 50; 100; 32; 49; 49; 186]%N)) =
  Ok [codes "7e"; codes "1er"; codes "7eme"; [55; 232; 109; 101]%N; codes "7th"; codes "1st"; codes "3rd"; codes "2nd"; codes "2d"; [49; 49; 186]%N].
Proof. vm_compute. reflexivity. Qed.
Example basics_39 : values (t_run t_options
    (codes "7even e11even l33t")) =
  Ok [codes "7even"; codes "e11even"; codes "l33t"].
Proof. vm_compute. reflexivity. Qed.
Example basics_40 : values (t_run t_options
    (codes "qu'importe le flacon pourvu qu'on ait l'ivresse!")) =
  Ok [codes "qu'"; codes "importe"; codes "le"; codes "flacon"; codes "pourvu"; codes "qu'"; codes "on"; codes "ait"; codes "l'"; codes "ivresse"; codes "!"].
Proof. vm_compute. reflexivity. Qed.
Example basics_41 : values (t_run t_options
    (codes "4.5...")) =
  Ok [codes "4.5"; codes "."; codes "."; codes "."].
Proof. vm_compute. reflexivity. Qed.
Example basics_42 : values (t_run t_options
    ([199; 97; 32; 102; 97; 105; 116; 32; 112; 108; 97; 105; 115; 101; 32; 100; 8217; 234; 116; 114; 101; 32; 110; 233; 32; 101; 110; 32; 57; 56; 32; 231; 97; 32; 102; 97; 105; 116; 32; 111; 110; 32; 97; 32; 99; 111; 110; 110; 117; 32; 108; 101; 115; 32; 50; 32; 233; 116; 111; 105; 108; 101; 115; 32; 128591; 11088; 65039; 11088; 65039]%N)) =
  Ok [[199; 97]%N; codes "fait"; codes "plaise"; [100; 8217]%N; [234; 116; 114; 101]%N; [110; 233]%N; codes "en"; codes "98"; [231; 97]%N; codes "fait"; codes "on"; codes "a"; codes "connu"; codes "les"; codes "2"; [233; 116; 111; 105; 108; 101; 115]%N; [128591]%N; [11088; 65039]%N; [11088; 65039]%N].
Proof. vm_compute. reflexivity. Qed.
Example basics_43 : values (t_run t_options
    ([80; 85; 84; 65; 73; 78; 32; 67; 72; 65; 77; 80; 73; 79; 78; 32; 74; 69; 32; 86; 79; 85; 83; 32; 65; 73; 77; 69; 83; 32; 80; 76; 85; 83; 32; 81; 85; 69; 32; 84; 79; 85; 84; 9917; 65039; 9917; 65039; 129321; 127467; 127479; 35; 201; 112; 111; 112; 233; 101; 82; 117; 115; 115; 101]%N)) =
  Ok [codes "PUTAIN"; codes "CHAMPION"; codes "JE"; codes "VOUS"; codes "AIMES"; codes "PLUS"; codes "QUE"; codes "TOUT"; [9917; 65039]%N; [9917; 65039]%N; [129321]%N; [127467; 127479]%N; [35; 201; 112; 111; 112; 233; 101; 82; 117; 115; 115; 101]%N].
Proof. vm_compute. reflexivity. Qed.
Example basics_44 : values (t_run t_options
    ([67; 101; 32; 115; 111; 105; 114; 32; 106; 101; 32; 115; 117; 105; 115; 32; 97; 117; 32; 99; 97; 108; 109; 101; 32; 100; 101; 118; 97; 110; 116; 32; 109; 97; 32; 116; 118; 44; 32; 101; 116; 32; 106; 101; 32; 114; 233; 97; 108; 105; 115; 101; 32; 113; 117; 101; 32; 80; 85; 84; 65; 73; 78; 32; 79; 78; 32; 67; 72; 65; 77; 80; 73; 79; 78; 83; 32; 68; 85; 32; 77; 79; 78; 68; 69; 46; 32; 11088; 65039; 127467; 127479; 11088; 65039; 32; 32; 35; 201; 112; 111; 112; 233; 101; 82; 117; 115; 115; 101]%N)) =
  Ok [codes "Ce"; codes "soir"; codes "je"; codes "suis"; codes "au"; codes "calme"; codes "devant"; codes "ma"; codes "tv"; codes ","; codes "et"; codes "je"; [114; 233; 97; 108; 105; 115; 101]%N; codes "que"; codes "PUTAIN"; codes "ON"; codes "CHAMPIONS"; codes "DU"; codes "MONDE"; codes "."; [11088; 65039]%N; [127467; 127479]%N; [11088; 65039]%N; [35; 201; 112; 111; 112; 233; 101; 82; 117; 115; 115; 101]%N].
Proof. vm_compute. reflexivity. Qed.
Example basics_45 : values (t_run t_options
    (codes "Test OF.")) =
  Ok [codes "Test"; codes "OF"; codes "."].
Proof. vm_compute. reflexivity. Qed.
Example basics_46 : values (t_run t_options
    ([64; 84; 104; 105; 98; 97; 117; 116; 76; 101; 95; 71; 97; 108; 32; 64; 82; 101; 109; 121; 71; 117; 100; 105; 110; 32; 64; 71; 101; 110; 101; 114; 97; 116; 105; 111; 110; 115; 77; 118; 116; 32; 64; 69; 69; 76; 86; 32; 74; 97; 100; 111; 116; 32; 100; 233; 115; 105; 103; 110; 233; 32; 116; 234; 116; 101; 32; 100; 101; 32; 108; 105; 115; 116; 101; 32; 112; 97; 114; 32; 69; 69; 76; 86; 46; 32; 80; 97; 115; 32; 100; 101; 32; 108; 105; 115; 116; 101; 32; 99; 111; 109; 109; 117; 110; 101; 46]%N)) =
  Ok [codes "@ThibautLe_Gal"; codes "@RemyGudin"; codes "@GenerationsMvt"; codes "@EELV"; codes "Jadot"; [100; 233; 115; 105; 103; 110; 233]%N; [116; 234; 116; 101]%N; codes "de"; codes "liste"; codes "par"; codes "EELV"; codes "."; codes "Pas"; codes "de"; codes "liste"; codes "commune"; codes "."].
Proof. vm_compute. reflexivity. Qed.
Example basics_47 : values (t_run t_options
    ([76; 101; 32; 70; 111; 110; 100; 115; 32; 112; 111; 117; 114; 32; 76; 39; 79; 114; 233; 97; 108; 32; 101; 116; 32; 108; 8217; 73; 110; 100; 117; 115; 116; 114; 105; 101; 32; 101; 116; 32; 108; 8217; 73; 110; 110; 111; 118; 97; 116; 105; 111; 110; 32; 100; 8217; 65; 117; 115; 116; 114; 97; 108; 105; 101]%N)) =
  Ok [codes "Le"; codes "Fonds"; codes "pour"; codes "L'"; [79; 114; 233; 97; 108]%N; codes "et"; [108; 8217]%N; codes "Industrie"; codes "et"; [108; 8217]%N; codes "Innovation"; [100; 8217]%N; codes "Australie"].
Proof. vm_compute. reflexivity. Qed.
Example basics_48 : values (t_run t_options
    ([128591; 44; 128591; 44; 32; 44; 128591; 44; 44; 44; 128591]%N)) =
  Ok [[128591]%N; codes ","; [128591]%N; codes ","; codes ","; [128591]%N; codes ","; codes ","; codes ","; [128591]%N].
Proof. vm_compute. reflexivity. Qed.
Example basics_49 : values (t_run t_options
    (codes ".@f_i_t_s_l_h: hello")) =
  Ok [codes "."; codes "@f_i_t_s_l_h"; codes ":"; codes "hello"].
Proof. vm_compute. reflexivity. Qed.
Example basics_50 : values (t_run t_options
    ([102; 97; 99; 116; 117; 114; 233; 32; 8364; 52; 32; 77; 105; 108; 108; 105; 111; 110; 115]%N)) =
  Ok [[102; 97; 99; 116; 117; 114; 233]%N; [8364]%N; codes "4"; codes "Millions"].
Proof. vm_compute. reflexivity. Qed.
Example basics_51 : values (t_run t_options
    (codes "va-t-on est-il 15-20-minute talk peut-on dis-moi dis-le dis-lui vas-y dit-elle")) =
  Ok [codes "va"; codes "t"; codes "on"; codes "est"; codes "il"; codes "15-20-minute"; codes "talk"; codes "peut"; codes "on"; codes "dis"; codes "moi"; codes "dis"; codes "le"; codes "dis"; codes "lui"; codes "vas"; codes "y"; codes "dit"; codes "elle"].
Proof. vm_compute. reflexivity. Qed.
Example basics_52 : values (t_run {| o_lower := true; o_unidecode := false; o_reduce_words := false; o_decode_html_entities := false; o_normalize_mentions := false; o_normalize_hashtags := false; o_mentions_as_words := false; o_hashtags_as_words := false; o_split_hashtags := false; o_min_word_length := None; o_max_word_length := None; o_stoplist := None; o_keep := None; o_drop := None |}
    ([84; 104; 105; 115; 32; 105; 115; 32; 86; 69; 82; 89; 32; 50; 46; 53; 32; 128591; 32; 105; 109; 112; 111; 114; 116; 65; 78; 84; 33]%N)) =
  Ok [codes "this"; codes "is"; codes "very"; codes "2.5"; [128591]%N; codes "important"; codes "!"].
Proof. vm_compute. reflexivity. Qed.
Example basics_53 : values (t_run {| o_lower := false; o_unidecode := true; o_reduce_words := false; o_decode_html_entities := false; o_normalize_mentions := false; o_normalize_hashtags := false; o_mentions_as_words := false; o_hashtags_as_words := false; o_split_hashtags := false; o_min_word_length := None; o_max_word_length := None; o_stoplist := None; o_keep := None; o_drop := None |}
    ([233; 108; 233; 109; 101; 110; 116; 97; 105; 114; 101; 32; 110; 111; 110; 63]%N)) =
  Ok [codes "elementaire"; codes "non"; codes "?"].
Proof. vm_compute. reflexivity. Qed.
Example basics_54 : values (t_run {| o_lower := false; o_unidecode := false; o_reduce_words := false; o_decode_html_entities := false; o_normalize_mentions := false; o_normalize_hashtags := false; o_mentions_as_words := false; o_hashtags_as_words := false; o_split_hashtags := false; o_min_word_length := Some 4; o_max_word_length := None; o_stoplist := None; o_keep := None; o_drop := None |}
    (codes "A mouse eats the cheese.")) =
  Ok [codes "mouse"; codes "eats"; codes "cheese"; codes "."].
Proof. vm_compute. reflexivity. Qed.
Example basics_55 : values (t_run {| o_lower := false; o_unidecode := false; o_reduce_words := false; o_decode_html_entities := false; o_normalize_mentions := false; o_normalize_hashtags := false; o_mentions_as_words := false; o_hashtags_as_words := false; o_split_hashtags := false; o_min_word_length := None; o_max_word_length := None; o_stoplist := Some [codes "a"; codes "the"; [128591]%N]; o_keep := None; o_drop := None |}
    ([65; 32; 109; 111; 117; 115; 101; 32; 101; 97; 116; 115; 32; 116; 104; 101; 32; 99; 104; 101; 101; 115; 101; 32; 128591; 46]%N)) =
  Ok [codes "A"; codes "mouse"; codes "eats"; codes "cheese"; codes "."].
Proof. vm_compute. reflexivity. Qed.
Example basics_56 : values (t_run {| o_lower := true; o_unidecode := false; o_reduce_words := false; o_decode_html_entities := false; o_normalize_mentions := false; o_normalize_hashtags := false; o_mentions_as_words := false; o_hashtags_as_words := false; o_split_hashtags := false; o_min_word_length := None; o_max_word_length := None; o_stoplist := Some [codes "THE"; codes "a"; [128591]%N]; o_keep := None; o_drop := None |}
    ([65; 32; 109; 111; 117; 115; 101; 32; 101; 97; 116; 115; 32; 116; 104; 101; 32; 99; 104; 101; 101; 115; 101; 32; 128591; 46]%N)) =
  Ok [codes "mouse"; codes "eats"; codes "cheese"; codes "."].
Proof. vm_compute. reflexivity. Qed.
Example basics_57 : values (t_run {| o_lower := false; o_unidecode := false; o_reduce_words := false; o_decode_html_entities := false; o_normalize_mentions := false; o_normalize_hashtags := false; o_mentions_as_words := false; o_hashtags_as_words := false; o_split_hashtags := false; o_min_word_length := None; o_max_word_length := None; o_stoplist := None; o_keep := Some ["emoji"%string; "punct"%string]; o_drop := None |}
    ([65; 32; 109; 111; 117; 115; 101; 32; 101; 97; 116; 115; 32; 116; 104; 101; 32; 51; 46; 52; 32; 99; 104; 101; 101; 115; 101; 32; 128591; 46]%N)) =
  Ok [[128591]%N; codes "."].
Proof. vm_compute. reflexivity. Qed.
Example basics_58 : values (t_run {| o_lower := false; o_unidecode := false; o_reduce_words := false; o_decode_html_entities := false; o_normalize_mentions := false; o_normalize_hashtags := false; o_mentions_as_words := false; o_hashtags_as_words := false; o_split_hashtags := false; o_min_word_length := None; o_max_word_length := None; o_stoplist := None; o_keep := None; o_drop := Some ["emoji"%string; "punct"%string; "number"%string] |}
    ([65; 32; 109; 111; 117; 115; 101; 32; 101; 97; 116; 115; 32; 116; 104; 101; 32; 51; 46; 52; 32; 99; 104; 101; 101; 115; 101; 32; 128591; 46]%N)) =
  Ok [codes "A"; codes "mouse"; codes "eats"; codes "the"; codes "cheese"].
Proof. vm_compute. reflexivity. Qed.
Example basics_59 : values (t_run {| o_lower := false; o_unidecode := false; o_reduce_words := true; o_decode_html_entities := false; o_normalize_mentions := false; o_normalize_hashtags := false; o_mentions_as_words := false; o_hashtags_as_words := false; o_split_hashtags := false; o_min_word_length := None; o_max_word_length := None; o_stoplist := None; o_keep := None; o_drop := None |}
    (codes "Loooool I know riiiiiight? Cool.")) =
  Ok [codes "Loool"; codes "I"; codes "know"; codes "riiight"; codes "?"; codes "Cool"; codes "."].
Proof. vm_compute. reflexivity. Qed.
Example basics_60 : values (t_run {| o_lower := false; o_unidecode := false; o_reduce_words := false; o_decode_html_entities := true; o_normalize_mentions := false; o_normalize_hashtags := false; o_mentions_as_words := false; o_hashtags_as_words := false; o_split_hashtags := false; o_min_word_length := None; o_max_word_length := None; o_stoplist := None; o_keep := None; o_drop := None |}
    (codes "&#34;Hello&#34; &eacute;tirons!")) =
  Ok [[34]%N; codes "Hello"; [34]%N; [233; 116; 105; 114; 111; 110; 115]%N; codes "!"].
Proof. vm_compute. reflexivity. Qed.
Example basics_61 : values (t_run {| o_lower := false; o_unidecode := false; o_reduce_words := false; o_decode_html_entities := false; o_normalize_mentions := false; o_normalize_hashtags := false; o_mentions_as_words := false; o_hashtags_as_words := false; o_split_hashtags := false; o_min_word_length := None; o_max_word_length := Some 10; o_stoplist := None; o_keep := None; o_drop := None |}
    (codes "This is a verrofuomsrvhouhvouhoqicpihwoihoihwpff long token.")) =
  Ok [codes "This"; codes "is"; codes "a"; codes "long"; codes "token"; codes "."].
Proof. vm_compute. reflexivity. Qed.
Example basics_62 : values (t_run {| o_lower := true; o_unidecode := false; o_reduce_words := false; o_decode_html_entities := false; o_normalize_mentions := false; o_normalize_hashtags := false; o_mentions_as_words := false; o_hashtags_as_words := false; o_split_hashtags := false; o_min_word_length := Some 2; o_max_word_length := Some 10; o_stoplist := None; o_keep := None; o_drop := None |}
    (codes "This is a verrofuomsrvhouhvouhoqicpihwoihoihwpff long token.")) =
  Ok [codes "this"; codes "is"; codes "long"; codes "token"; codes "."].
Proof. vm_compute. reflexivity. Qed.
Example basics_63 : values (t_run {| o_lower := false; o_unidecode := false; o_reduce_words := false; o_decode_html_entities := false; o_normalize_mentions := true; o_normalize_hashtags := true; o_mentions_as_words := false; o_hashtags_as_words := false; o_split_hashtags := false; o_min_word_length := None; o_max_word_length := None; o_stoplist := None; o_keep := None; o_drop := None |}
    ([35; 201; 112; 111; 112; 233; 101; 82; 117; 115; 115; 101; 32; 64; 89; 111; 109; 103; 117; 105; 116; 104; 101; 114; 101; 97; 108]%N)) =
  Ok [codes "#epopeerusse"; codes "@yomguithereal"].
Proof. vm_compute. reflexivity. Qed.
Example basics_64 : t_run {| o_lower := false; o_unidecode := false; o_reduce_words := false; o_decode_html_entities := false; o_normalize_mentions := false; o_normalize_hashtags := false; o_mentions_as_words := true; o_hashtags_as_words := true; o_split_hashtags := false; o_min_word_length := None; o_max_word_length := None; o_stoplist := None; o_keep := None; o_drop := None |}
    ([35; 201; 112; 111; 112; 233; 101; 82; 117; 115; 115; 101; 32; 64; 89; 111; 109; 103; 117; 105; 116; 104; 101; 114; 101; 97; 108]%N) =
  Ok [(Word, [201; 112; 111; 112; 233; 101; 82; 117; 115; 115; 101]%N); (Word, codes "Yomguithereal")].
Proof. vm_compute. reflexivity. Qed.
Example basics_65 : values (t_run {| o_lower := false; o_unidecode := false; o_reduce_words := false; o_decode_html_entities := false; o_normalize_mentions := false; o_normalize_hashtags := false; o_mentions_as_words := false; o_hashtags_as_words := true; o_split_hashtags := false; o_min_word_length := Some 5; o_max_word_length := None; o_stoplist := None; o_keep := None; o_drop := None |}
    (codes "#tata @Yomguithereal")) =
  Ok [codes "@Yomguithereal"].
Proof. vm_compute. reflexivity. Qed.
Example basics_66 : t_run t_options
    (codes "url: http://www.lemonde.fr/va-t-il") =
  Ok [(Word, codes "url"); (Punct, codes ":"); (Url, codes "http://www.lemonde.fr/va-t-il")].
Proof. vm_compute. reflexivity. Qed.
Example basics_67 : t_run {| o_lower := false; o_unidecode := false; o_reduce_words := false; o_decode_html_entities := false; o_normalize_mentions := false; o_normalize_hashtags := false; o_mentions_as_words := false; o_hashtags_as_words := false; o_split_hashtags := true; o_min_word_length := None; o_max_word_length := None; o_stoplist := None; o_keep := None; o_drop := None |}
    (codes "#ExampleTo") =
  Ok [(Word, codes "Example"); (Word, codes "To")].
Proof. vm_compute. reflexivity. Qed.
Example basics_68 : t_run {| o_lower := true; o_unidecode := false; o_reduce_words := false; o_decode_html_entities := false; o_normalize_mentions := false; o_normalize_hashtags := false; o_mentions_as_words := false; o_hashtags_as_words := false; o_split_hashtags := true; o_min_word_length := None; o_max_word_length := None; o_stoplist := Some [codes "to"]; o_keep := None; o_drop := None |}
    (codes "#ExampleTo45") =
  Ok [(Word, codes "example"); (Number, codes "45")].
Proof. vm_compute. reflexivity. Qed.
Example basics_69 : t_run t_options
    (codes "Hello ^^!") =
  Ok [(Word, codes "Hello"); (Smiley, codes "^^"); (Punct, codes "!")].
Proof. vm_compute. reflexivity. Qed.
Example basics_70 : values (t_run t_options
    ([77; 117; 115; 105; 99; 105; 101; 110; 45; 110; 101; 45; 115; 44; 32; 109; 117; 115; 105; 99; 105; 101; 110; 183; 110; 101; 115; 32; 101; 116; 32; 105; 110; 103; 233; 110; 105; 101; 117; 114; 183; 101; 183; 115; 46]%N)) =
  Ok [codes "Musicien-ne-s"; codes ","; [109; 117; 115; 105; 99; 105; 101; 110; 183; 110; 101; 115]%N; codes "et"; [105; 110; 103; 233; 110; 105; 101; 117; 114; 183; 101; 183; 115]%N; codes "."].
Proof. vm_compute. reflexivity. Qed.
Example basics_71 : t_run t_options
    (codes "L'1.") =
  Ok [(Word, codes "L'"); (Number, codes "1"); (Punct, codes ".")].
Proof. vm_compute. reflexivity. Qed.
Example basics_72 : values (t_run t_options
    (codes "'''")) =
  Ok [codes "'"; codes "'"; codes "'"].
Proof. vm_compute. reflexivity. Qed.
Example basics_73 : values (t_run t_options
    ([39; 116; 104; 105; 115; 32; 105; 115; 32; 114; 101; 112; 114; 105; 115; 101; 32; 101; 116; 32; 113; 117; 101; 32; 116; 114; 117; 99; 32; 39; 39; 115; 8217; 233; 99; 108; 105; 112; 115; 101; 39; 39; 32; 97; 108; 111; 114; 115; 32; 101; 116; 32; 39; 39; 109; 97; 110; 103; 101; 39; 39; 46; 32; 39; 116; 119; 97; 115; 32; 39; 115; 105; 115; 116; 101; 114; 115; 39; 33; 32; 39; 77; 98; 97; 112; 112; 233; 39; 46]%N)) =
  Ok [codes "'"; codes "this"; codes "is"; codes "reprise"; codes "et"; codes "que"; codes "truc"; codes "'"; codes "'"; [115; 8217]%N; [233; 99; 108; 105; 112; 115; 101]%N; codes "'"; codes "'"; codes "alors"; codes "et"; codes "'"; codes "'"; codes "mange"; codes "'"; codes "'"; codes "."; codes "'twas"; codes "'"; codes "sisters"; codes "'"; codes "!"; codes "'"; [77; 98; 97; 112; 112; 233]%N; codes "'"; codes "."].
Proof. vm_compute. reflexivity. Qed.

(** these tables have the properties asked of python's classes *)
Lemma table_incl l l' : forallb (fun c => memb c l') l = true -> forall c : N, memb c l = true -> memb c l' = true.
Proof. intros H c Hc. rewrite forallb_forall in H. apply H. apply memb_true. exact Hc. Qed.

Lemma t_classes : char_classes t_isspace t_isalnum t_isalpha t_isdigit t_isupper.
Proof.
  constructor; try (vm_compute; reflexivity).
  - intros c Hc. destruct (t_isdigit c) eqn:E; [|reflexivity]. exfalso. unfold t_isdigit in E. apply memb_true in E.
    match type of E with In _ ?l => assert (K : forallb (fun c => (c <? 97)%N || (122 <? c)%N) l = true) by (vm_compute; reflexivity) end.
    rewrite forallb_forall in K. specialize (K c E). lia.
  - unfold t_isalpha, t_isalnum. apply table_incl. vm_compute. reflexivity.
  - unfold t_isdigit, t_isalnum. apply table_incl. vm_compute. reflexivity.
  - intros c E. destruct (t_isspace c) eqn:S; [|reflexivity]. exfalso. unfold t_isspace in S. apply memb_true in S.
    match type of S with In _ ?l => assert (K : forallb (fun c => negb (t_isalnum c)) l = true) by (vm_compute; reflexivity) end.
    rewrite forallb_forall in K. specialize (K c S). rewrite E in K. discriminate.
  - intros c E. unfold t_isalnum in E. apply memb_true in E.
    match type of E with In _ ?l => assert (K : forallb (fun c => (31 <? c)%N) l = true) by (vm_compute; reflexivity) end.
    rewrite forallb_forall in K. specialize (K c E). cbv beta in K. apply N.ltb_lt in K. exact K.
Qed.
