(** C199: the calls of the tokenizer of ppjoin *)
From Coq Require Import QArith String ZArith.
From Verif Require Import Base LevModel PPJoinModel PPJoinAnyModel HashJoinModel CallsModel CallsSpec CallsProofs TokenCallsModel TokenCallsProofs TokenCallsEndProofs.
Open Scope nat_scope.
Open Scope string_scope.
Open Scope list_scope.
Notation length := List.length.

(** C199: one call per record, in their order, before any pair is yielded; the pairs depend on the elements of the answers only, and
    are those of the model with a pure tokenizer *)
Theorem C199_tokens {R T} `{EqDec T} (leb : T -> T -> bool) crc32 (records : list R) threshold metric algo ordering :
  In metric ["jaccard"; "dice"; "binary_cosine"] -> In ordering [None; Some "freq"; Some "crc32"] ->
  exists finish : list (iterable T) -> list (R * R) * res unit,
  (forall W (f : user W) (w : W), run f w (ppjoin_prog leb crc32 records threshold metric algo ordering) = talks f w records finish) /\
  forall iter tok (answer : R -> iterable T), (forall r, HashJoinModel.items (answer r) = tok r) ->
    match ppjoin_any leb crc32 iter records threshold metric (Some tok) algo ordering with
    | Ok out => finish (map answer records) = (out, Ok tt)
    | Err e => snd (finish (map answer records)) = Err e
    end.
Proof. exact (ppjoin_talks leb crc32 records threshold metric algo ordering). Qed.
Print Assumptions C199_tokens.

(** C199: another metric or ordering is refused before any call *)
Theorem C199_refused {R T W} `{EqDec T} (leb : T -> T -> bool) crc32 (records : list R) threshold metric algo ordering (f : @user R (iterable T) W) (w : W) :
  ~ In metric ["jaccard"; "dice"; "binary_cosine"] \/ ~ In ordering [None; Some "freq"; Some "crc32"] ->
  run f w (ppjoin_prog leb crc32 records threshold metric algo ordering) = ([], w, Err TypeError).
Proof.
  intros K. unfold ppjoin_prog. set (unknown := match ordering with None => false | Some o => _ end).
  destruct unknown eqn:Eu; [reflexivity|]. destruct K as [K|K].
  - unfold make_any_helper. cbn [In] in K. destruct (string_dec metric "jaccard") as [->|]; [exfalso; tauto|].
    destruct (string_dec metric "dice") as [->|]; [exfalso; tauto|]. destruct (string_dec metric "binary_cosine") as [->|]; [exfalso; tauto|]. reflexivity.
  - exfalso. apply K. unfold unknown in Eu. destruct ordering as [o|]; [|left; reflexivity].
    destruct (string_dec o "freq") as [->|]; [right; left; reflexivity|]. destruct (string_dec o "crc32") as [->|]; [right; right; left; reflexivity | discriminate].
Qed.
Print Assumptions C199_refused.

(** records are lists of tokens; the tokenizer gives an iterator *)
Example C199_example :
  run (pure (fun r : list nat => Iterator r)) tt
    (ppjoin_prog Nat.leb N.of_nat [[1; 2; 3]; [4; 5]; [3; 2; 1]] (1 # 2)%Q "jaccard" PPJoin (Some "freq")) =
  ([Asked [1; 2; 3]; Asked [4; 5]; Asked [3; 2; 1]; Gave ([3; 2; 1], [1; 2; 3])], tt, Ok tt).
Proof. vm_compute. reflexivity. Qed.

(** the tokenizer counts its calls, and raises at the second one *)
Example C199_example_raises :
  run (fun n (r : list nat) => (S n, if Nat.eqb n 1 then Err ValueError else Ok (Collection r))) 0
    (ppjoin_prog Nat.leb N.of_nat [[1; 2; 3]; [4; 5]; [3; 2; 1]] (1 # 2)%Q "jaccard" PPJoin (Some "freq")) =
  ([Asked [1; 2; 3]; Asked [4; 5]], 2, Err ValueError).
Proof. vm_compute. reflexivity. Qed.
