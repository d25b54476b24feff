(** What is read back in the reports, and the numbers of tokens: theorems that edits of the definitions had gone past. *)
From Coq Require Import String QArith Lia ZArith NArith.
From Verif Require Import Base BaseFacts LevModel StringsModel PhoneticsModel PairwiseModel MinHashModel DigestModel SeededModel SuperFloatModel ReportModel ReportSpec ReportProofs.
Open Scope nat_scope.
Open Scope list_scope.
Notation length := List.length.

Definition leading (t : str) : Prop := forallb digit t = true /\ hd 0%N t <> 48%N.

Lemma leading_snoc t c : leading (t ++ [c]) -> leading t /\ digit c = true.
Proof.
  intros [D H]. rewrite forallb_app in D. apply andb_prop in D as [D C]. cbn in C. rewrite andb_true_r in C.
  split; [split; [exact D|]|exact C]. destruct t; cbn in *; [lia|exact H].
Qed.

Lemma digit_range c : digit c = true -> (48 <= c <= 57)%N.
Proof. unfold digit. intros H. apply andb_prop in H as [A B]. apply N.leb_le in A. apply N.leb_le in B. lia. Qed.

Lemma leading_zero t : leading t -> number t = 0%N -> t = [].
Proof.
  induction t as [|c t IH] using rev_ind; intros L Z; [reflexivity|].
  destruct (leading_snoc _ _ L) as [L' D]. apply digit_range in D. rewrite number_snoc in Z.
  rewrite (IH L') in L by lia. destruct L as [_ L]. cbn in L. lia.
Qed.

Lemma leading_unique a : forall b, leading a -> leading b -> number a = number b -> a = b.
Proof.
  induction a as [|c a IH] using rev_ind; intros b La Lb E.
  - symmetry. apply leading_zero; [exact Lb|now rewrite <- E].
  - destruct b as [|d b _] using rev_ind; [apply (leading_zero _ La); exact E|].
    destruct (leading_snoc _ _ La) as [La' Dc]. destruct (leading_snoc _ _ Lb) as [Lb' Dd].
    apply digit_range in Dc. apply digit_range in Dd. rewrite !number_snoc in E.
    rewrite (IH b La' Lb') by lia. do 2 f_equal. lia.
Qed.

(** C111: a text that is read as an integer is the one that python writes for it *)
Theorem C111_integers t n : integer t = Some n <-> t = py_int n.
Proof.
  split; [|intros ->; apply py_int_integer]. unfold integer. destruct (forallb digit t) eqn:D; [|discriminate].
  destruct t as [|c t]; [discriminate|]. intros E.
  destruct (py_int_ok n) as (V & Dn & d & l & En & Hn & Zn). rewrite En in *.
  destruct t as [|c' t].
  - injection E as E. cbn [forallb] in D. rewrite andb_true_r in D. pose proof (digit_range _ D) as R.
    unfold number in E. cbn [fold_left] in E. destruct (N.eq_dec n 0) as [Z|NZ].
    + rewrite (Zn Z) in *. unfold number in V. cbn [fold_left] in V. cbn in Dn. rewrite andb_true_r in Dn. apply digit_range in Dn. f_equal. lia.
    + apply leading_unique.
      * split; [cbn; now rewrite D|cbn; lia].
      * split; [exact Dn|cbn; auto].
      * rewrite V. unfold number. cbn [fold_left]. exact E.
  - destruct (N.eqb_spec c 48) as [|NZ]; [discriminate|]. injection E as E.
    assert (L : leading (c :: c' :: t)) by (split; [exact D|exact NZ]).
    apply leading_unique; [exact L| |rewrite V; exact E].
    split; [exact Dn|]. cbn. apply Hn. intros Z. rewrite Z in E. discriminate (leading_zero _ L E).
Qed.
Print Assumptions C111_integers.

Example zeros : integer (codes "007") = None /\ integer (codes "0") = Some 0%N /\ integer (codes "70") = Some 70%N.
Proof. repeat split. Qed.

Lemma checksums l : forall ns, mapM crc32 l = Ok ns -> map checksum l = ns.
Proof.
  induction l as [|w l IH]; intros ns; cbn [mapM map]; [congruence|]. unfold checksum at 1.
  destruct (crc32 w) as [n|e]; cbn [bind]; [|discriminate]. destruct (mapM crc32 l) as [ms|e]; cbn [bind]; [|discriminate].
  intros E. injection E as <-. now rewrite (IH ms eq_refl).
Qed.

(** C137: tokens that are encoded are hashed as the letters of a string whose code points are their numbers would be; when one is
    not, its error is raised *)
Theorem C137_tokens set_order params h l : signature_of set_order params h (MinHashModel.Tokens l) =
  (let! ns := mapM crc32 l in signature_of set_order params h (MinHashModel.Text ns)).
Proof.
  unfold signature_of at 1. destruct (mapM crc32 l) as [ns|e] eqn:E; cbn [bind]; [|reflexivity].
  unfold signature_of, create_signature, token_set, numbers. cbn [bind]. now rewrite (checksums l ns E).
Qed.
Print Assumptions C137_tokens.

(** C153: and so in SuperMinHash *)
Theorem C153_tokens set_order m l : seeded_super_float set_order m (MinHashModel.Tokens l) =
  (let! ns := mapM crc32 l in seeded_super_float set_order m (MinHashModel.Text ns)).
Proof.
  unfold seeded_super_float at 1. destruct (mapM crc32 l) as [ns|e] eqn:E; cbn [bind]; [|reflexivity].
  unfold seeded_super_float, super_float, token_set, numbers. cbn [bind]. now rewrite (checksums l ns E).
Qed.
Print Assumptions C153_tokens.

Example super_numbers : exists n, crc32 (codes "a") = Ok n /\ n <> 97%N.
Proof. eexists. split; [vm_compute; reflexivity|lia]. Qed.
Example unencodable : seeded_super_float (fun l => l) 5 (MinHashModel.Tokens [codes "a"; [55296%N]]) = Err ValueError.
Proof. rewrite C153_tokens. vm_compute. reflexivity. Qed.
