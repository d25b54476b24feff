(** Lemmas on the crc32 of strings. *)
From Coq Require Import String QArith.
From Verif Require Import Base BaseFacts LevModel PairwiseModel PassJoinModel FingerprintSpec FingerprintProofs MinHashModel PPJoinModel PPJoinEndProofs
  DigestModel DigestSpec DigestProofs.
Open Scope N_scope.
Open Scope list_scope.
Notation length := List.length.

Lemma mask_word n : word n -> N.land n UINT32_MASK = n.
Proof. intros W. change UINT32_MASK with (N.ones 32). rewrite N.land_ones. apply N.mod_small. exact W. Qed.
Lemma crc32_utf8 s b : utf8 s b -> crc32 s = Ok (crc32_bytes b) /\ checksum s = crc32_bytes b.
Proof.
  intros U. assert (F : Forall scalar s) by (clear - U; induction U as [|c s b t Hc Hs IH]; constructor; [eapply utf8_char_scalar; exact Hc|exact IH]).
  destruct (encode_ok s F) as (b' & E & U').
  assert (b' = b).
  { clear - U U'. revert b' U'. induction U as [|c s b t Hc Hs IH]; intros b' U'; inversion U' as [|? ? b2 t2 Hc2 Hs2]; subst; [reflexivity|].
    rewrite (IH t2 Hs2). f_equal. clear - Hc Hc2. unfold continues in *. inversion Hc; inversion Hc2; subst; unfold continues in *; try lia; repeat (f_equal; try lia). }
  subst b'. unfold checksum, crc32. rewrite E. cbn [bind]. rewrite mask_word by (apply crc32_bytes_word, (utf8_bytes s), U). auto.
Qed.
Lemma utf8_ascii s : Forall (fun c => c < 128) s -> utf8 s s.
Proof. induction 1 as [|c s Hc Hs IH]; [constructor|]. apply (utf8_cons c s [c] s); [apply u_one; exact Hc|exact IH]. Qed.

(** the low bits *)
Lemma block_lxor u v k : u / 2 ^ k = v / 2 ^ k -> N.lxor u v < 2 ^ k.
Proof.
  intros E. rewrite <- !N.shiftr_div_pow2 in E.
  assert (Z : N.shiftr (N.lxor u v) k = 0) by (rewrite N.shiftr_lxor, E; apply N.lxor_nilpotent).
  rewrite N.shiftr_div_pow2 in Z. apply N.div_small_iff in Z; [exact Z|]. apply N.pow_nonzero. discriminate.
Qed.
Lemma uniform_inj l v w : uniform l -> In v l -> In w l -> checksum v = checksum w -> v = w.
Proof.
  intros [n L4 H|k q n Sp H] Hv Hw E.
  - destruct (H v Hv) as (b & U & L). destruct (H w Hw) as (b' & U' & L'). apply (utf8_inj v w b U). replace b with b'; [exact U'|symmetry].
    rewrite (proj2 (crc32_utf8 v b U)), (proj2 (crc32_utf8 w b' U')) in E.
    apply (burst [] b b' []); [constructor|exact (utf8_bytes v b U)|exact (utf8_bytes w b' U')|constructor|congruence|lia|cbn [app]; rewrite !app_nil_r; exact E].
  - destruct (H v Hv) as [L F]. destruct (H w Hw) as [L' F'].
    assert (U : utf8 v v) by (apply utf8_ascii; revert F; apply Forall_impl; tauto).
    assert (U' : utf8 w w) by (apply utf8_ascii; revert F'; apply Forall_impl; tauto).
    rewrite (proj2 (crc32_utf8 v v U)), (proj2 (crc32_utf8 w w U')) in E.
    apply (apart k [] v w []); [constructor|exact (utf8_bytes v v U)|exact (utf8_bytes w w U')|constructor|rewrite L; exact Sp| |cbn [app]; rewrite !app_nil_r; exact E].
    clear - L L' F F'. revert w n L L' F'. induction F as [|c v [Hc Qc] HF IH]; intros [|d w] n L L' F'; cbn in L, L'; try lia; [constructor|].
    inversion F' as [|? ? [Hd Qd] F2]; subst. constructor; [apply block_lxor; congruence|]. apply (IH w (List.length v)); [reflexivity|lia|exact F2].
Qed.
Lemma uniform_crc32 l : uniform l -> forall w, In w l -> crc32 w = Ok (checksum w) /\ checksum w < 2 ^ 32.
Proof.
  intros U w Hw. assert (B : exists b, utf8 w b).
  { destruct U as [n L4 H|k q n Sp H]; [destruct (H w Hw) as (b & B & _); eauto|]. destruct (H w Hw) as [_ F]. exists w. apply utf8_ascii. revert F. apply Forall_impl. tauto. }
  destruct B as [b B]. destruct (crc32_utf8 w b B) as [E1 E2]. rewrite E1, E2. split; [reflexivity|]. apply crc32_bytes_word, (utf8_bytes w b B).
Qed.
Lemma uniform_incl l l' : uniform l -> incl l' l -> uniform l'.
Proof. intros [n L4 H|k q n Sp H] I; [apply (un_short l' n L4)|apply (un_block l' k q n Sp)]; intros w Hw; apply H, I, Hw. Qed.
Lemma mapM_crc32 l : uniform l -> mapM crc32 l = Ok (map checksum l).
Proof.
  intros U. assert (F : forall w, In w l -> crc32 w = Ok (checksum w)) by (intros w Hw; apply (uniform_crc32 l U w Hw)). clear U.
  induction l as [|w l IH]; [reflexivity|]. cbn [mapM map]. rewrite (F w) by (left; reflexivity). cbn [bind]. rewrite IH by (intros; apply F; right; assumption). reflexivity.
Qed.
Lemma str_le_antisym a b : str_le a b = true -> str_le b a = true -> a = b.
Proof. rewrite !str_le_lex. intros [->|H1] [E|H2]; auto. exfalso. apply (lex_irrefl a). eapply lex_trans; eauto. Qed.
Lemma scalar_dec c : {scalar c} + {~ scalar c}.
Proof.
  unfold scalar. destruct (N.leb_spec0 c 1114111); [|right; lia]. destruct (N.leb_spec0 55296 c); [|left; lia]. destruct (N.leb_spec0 c 57343); [right|left]; lia.
Qed.
