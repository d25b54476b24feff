(** ppjoin as a program and the model with a pure tokenizer. *)
From Coq Require Import QArith String ZArith.
From Verif Require Import Base BaseFacts LevModel PairwiseModel GraphModel SortModel SortFacts HashJoinModel PPJoinModel PPJoinAnyModel PPJoinAnyProofs
  MinHashProofs CallsModel CallsSpec CallsProofs KeyCallsModel KeyCallsProofs TokenCallsModel TokenCallsProofs.
Open Scope nat_scope.
Open Scope string_scope.
Open Scope list_scope.
Notation length := List.length.

Lemma feed_all {Q B W} (f : @user Q B W) : forall l w a w', feed f w l = (a, w', None) -> length a = length l.
Proof.
  induction l as [|q l IH]; intros w a w' E; cbn in E; [injection E as <- _; reflexivity|].
  destruct (f w q) as [w1 [b|e]]; [|discriminate]. destruct (feed f w1 l) as [[a1 w2] o] eqn:E1. injection E as <- _ ->. cbn [length]. f_equal. eapply IH. exact E1.
Qed.

Section End.
Context {R T : Type} `{EqDec T}.
Variable leb : T -> T -> bool.
Variable crc32 : T -> N.
Variable records : list R.
Variable h : any_helper.
Variable threshold : Q.
Variable algo : algorithm.

(** what follows the calls *)
Definition after_tokens (token_ordering : option string) (tokenized : list (list T)) : prog R (iterable T) (R * R) unit :=
  match token_ordering with
  | None => join_prog leb h threshold algo records (map (sorted_uniq leb) tokenized)
  | Some o =>
    if string_dec o "freq" then
      do rs <- lift (preprocess_freq leb true tokenized);
      join_prog Nat.leb h threshold algo records rs
    else join_prog N.leb h threshold algo records (preprocess_crc32 leb crc32 tokenized)
  end.
Definition pairs_of (token_ordering : option string) (tokenized : list (list T)) : res (list (R * R)) :=
  let! pairs :=
    match token_ordering with
    | None => any_join leb h threshold algo (map (sorted_uniq leb) tokenized)
    | Some o =>
      if string_dec o "freq" then
        let! rs := preprocess_freq leb true tokenized in
        any_join Nat.leb h threshold algo rs
      else any_join N.leb h threshold algo (preprocess_crc32 leb crc32 tokenized)
    end in
  mapM (read_pair records) pairs.

Lemma after_gives ordering tokenized : length tokenized = length records ->
  match pairs_of ordering tokenized with
  | Ok out => gives (after_tokens ordering tokenized) out (Ok tt)
  | Err e => exists out, gives (after_tokens ordering tokenized) out (Err e)
  end.
Proof.
  intros L. unfold pairs_of, after_tokens. destruct ordering as [o|]; [|apply join_gives; rewrite map_length; exact L].
  destruct (string_dec o "freq"); [|apply join_gives; unfold preprocess_crc32; rewrite map_length; exact L].
  destruct (preprocess_freq leb true tokenized) as [rs|err] eqn:E; cbn [bind lift pbind]; [|exists []; intros W f w; reflexivity].
  apply join_gives. unfold preprocess_freq in E. apply mapM_len in E. congruence.
Qed.

Definition tokens_of (answers : list (iterable T)) : list (list T) := map HashJoinModel.items answers.

Lemma after_talks ordering W (f : user W) (w : W) :
  run f w (do answers <- ask_each records; after_tokens ordering (map (fun ra => fst (consume (snd ra))) answers)) =
  talks f w records (fun answers => silently (after_tokens ordering (tokens_of answers))).
Proof.
  rewrite run_bind, ask_each_run. unfold talks. destruct (feed f w records) as [[answers w'] [e|]] eqn:E; cbn [then_]; [reflexivity|].
  apply feed_all in E.
  assert (Em : map (fun ra : R * iterable T => fst (consume (snd ra))) (combine records answers) = tokens_of answers).
  { unfold tokens_of. clear -E. revert answers E. induction records as [|r l IH]; intros [|a answers] E; try discriminate; [reflexivity|].
    cbn [combine map snd]. f_equal; [destruct a; reflexivity | apply IH; injection E as E; exact E]. }
  rewrite Em. pose proof (after_gives ordering (tokens_of answers) ltac:(unfold tokens_of; rewrite map_length; exact E)) as G.
  destruct (pairs_of ordering (tokens_of answers)) as [out|e].
  - rewrite (gives_silently _ _ _ G), G. reflexivity.
  - destruct G as (out & G). rewrite (gives_silently _ _ _ G), G. reflexivity.
Qed.
End End.

Lemma known_metric metric t : In metric ["jaccard"; "dice"; "binary_cosine"] -> exists h, make_any_helper metric t = Ok h.
Proof. intros [<-|[<-|[<-|[]]]]; eexists; reflexivity. Qed.

Lemma ppjoin_talks {R T} `{EqDec T} (leb : T -> T -> bool) crc32 (records : list R) threshold metric algo ordering :
  In metric ["jaccard"; "dice"; "binary_cosine"] -> In ordering [None; Some "freq"; Some "crc32"] ->
  exists finish : list (iterable T) -> list (R * R) * res unit,
  (forall W (f : user W) (w : W), run f w (ppjoin_prog leb crc32 records threshold metric algo ordering) = talks f w records finish) /\
  forall iter tok (answer : R -> iterable T), (forall r, HashJoinModel.items (answer r) = tok r) ->
    match ppjoin_any leb crc32 iter records threshold metric (Some tok) algo ordering with
    | Ok out => finish (map answer records) = (out, Ok tt)
    | Err e => snd (finish (map answer records)) = Err e
    end.
Proof.
  intros Hm Ho. destruct (known_metric metric threshold Hm) as (h & Eh).
  assert (Un : (match ordering with None => false | Some o => if string_dec o "freq" then false else if string_dec o "crc32" then false else true end) = false)
    by (destruct Ho as [<-|[<-|[<-|[]]]]; reflexivity).
  exists (fun answers => silently (after_tokens leb crc32 records h threshold algo ordering (tokens_of answers))). split.
  - intros W f w. unfold ppjoin_prog. rewrite Un, Eh. cbn [lift pbind]. apply (after_talks leb crc32 records h threshold algo ordering).
  - intros iter tok answer Ha. unfold ppjoin_any. rewrite Un, Eh. cbn [bind].
    assert (Et : tokens_of (map answer records) = map tok records) by (unfold tokens_of; rewrite map_map; apply map_ext; exact Ha). rewrite Et.
    pose proof (after_gives leb crc32 records h threshold algo ordering (map tok records) ltac:(apply map_length)) as G.
    change (match pairs_of leb crc32 records h threshold algo ordering (map tok records) with
            | Ok out => silently (after_tokens leb crc32 records h threshold algo ordering (map tok records)) = (out, Ok tt)
            | Err e => snd (silently (after_tokens leb crc32 records h threshold algo ordering (map tok records))) = Err e
            end).
    destruct (pairs_of leb crc32 records h threshold algo ordering (map tok records)) as [out|e].
    + apply gives_silently. exact G.
    + destruct G as (out & G). rewrite (gives_silently _ _ _ G). reflexivity.
Qed.
