(** Hashing the attribute names of policies and attribute lists. *)
From Verif Require Import Base ByteString StrMap Dec UInteger Policy Lsss LsssSpec Scanner Grammar PolicySyntax Lexical PolicyMeaning AttrMeaning Driver Parser ParserSound ParserRun ParserTop ScannerProofs NumProofs NumTree PolicyTruth ParserSafe CreatePolicy CreateAttrs ParserFinal AttrUse PolicyUse PrintParse ListText TextUse PropParser Base64 Base64Proofs HashAttrs HashProofs HashUse.
From Coq Require Import ZArith List Ascii Bool Lia.
Import ListNotations.
Open Scope Z_scope.

(** * C62 *)
(** [P] are the attribute names of the two texts, [C] the names that are compared with
    numbers or dates, and months. When no name of [P] occurs in another name, in a keyword
    or in a hash, and hashes collide with nothing, hashing both texts gives the two
    texts with the names of [P] replaced, and the same answer. *)
Theorem C62_hashing_keeps_semantics : forall mktime digest, (forall x : str, length (digest x) = 9%nat) ->
  forall s q r t l e a,
  create_policy_tree mktime s = Ok (Some q) -> proot q = Some r -> create_attribute_list mktime t = Ok (Some l) ->
  reads e s -> well e = true -> attr_text a t ->
  tidy_names e = true ->
  separate digest (plain_names e ++ plain_items (aitems a)) (other_names e ++ other_items (aitems a)) ->
  exists s' q' r' t' l', hash_policy mktime digest s = Ok s' /\ hash_attributes_list mktime digest t = Ok t' /\
    create_policy_tree mktime s' = Ok (Some q') /\ proot q' = Some r' /\ create_attribute_list mktime t' = Ok (Some l') /\
    reads (hmap (fun x => L "A:" ++ b64 (digest x)) e) s' /\ attr_text (amap (fun x => L "A:" ++ b64 (digest x)) a) t' /\
    sat (match_attribute (aattrs l')) r' = sat (match_attribute (aattrs l)) r.
Proof. exact hashing_keeps. Qed.
Print Assumptions C62_hashing_keeps_semantics.

(** A digest for the examples. *)
Definition toy9 (x : str) : str := firstn 9 (rev x ++ repeat (z2b 1) 9).
Lemma toy9_length : forall x, length (toy9 x) = 9%nat.
Proof. intro x. unfold toy9. rewrite firstn_length, app_length, repeat_length. lia. Qed.
Definition separate_check (P C : list str) : bool :=
  let h x := L "A:" ++ b64 (toy9 x) in
  forallb (fun a => forallb (fun b => (str_eqb a b || negb (contains a b)) && negb (contains a (h b)) && (str_eqb a b || negb (str_eqb (h a) (h b)))) P &&
    forallb (fun c => negb (contains a c)) (C ++ keywords) && forallb (fun c => negb (str_eqb (h a) c)) C && negb (contains (L "expint") (h a))) P.
Lemma separate_ok : forall P C, separate_check P C = true -> separate toy9 P C.
Proof.
  intros P C H. unfold separate_check in H. cbv zeta in H. rewrite forallb_forall in H.
  assert (forall a x, negb (contains a x) = true -> ~ occurs a x) as N by (intros a x K O; apply contains_iff in O; rewrite O in K; discriminate).
  unfold separate. repeat split; intros a.
  - intros b Ia Ib Ne. specialize (H a Ia). rewrite !andb_true_iff in H. destruct H as [[[H _] _] _]. rewrite forallb_forall in H. specialize (H b Ib). rewrite !andb_true_iff in H. destruct H as [[H _] _].
    apply orb_prop in H as [H|H]; auto. apply str_eqb_eq in H. contradiction.
  - intros c Ia Ic. specialize (H a Ia). rewrite !andb_true_iff in H. destruct H as [[[_ H] _] _]. rewrite forallb_forall in H. apply N, H, in_or_app, Ic.
  - intros b Ia Ib. specialize (H a Ia). rewrite !andb_true_iff in H. destruct H as [[[H _] _] _]. rewrite forallb_forall in H. specialize (H b Ib). rewrite !andb_true_iff in H. destruct H as [[_ H] _]. apply N, H.
  - intros b Ia Ib E. specialize (H a Ia). rewrite !andb_true_iff in H. destruct H as [[[H _] _] _]. rewrite forallb_forall in H. specialize (H b Ib). rewrite !andb_true_iff in H. destruct H as [_ H].
    apply orb_prop in H as [H|H]; [apply str_eqb_eq in H; auto|]. unfold hname in E. rewrite E, str_eqb_refl in H. discriminate.
  - intros c Ia Ic E. specialize (H a Ia). rewrite !andb_true_iff in H. destruct H as [[_ H] _]. rewrite forallb_forall in H. specialize (H c Ic). unfold hname in E. rewrite E, str_eqb_refl in H. discriminate.
  - intros Ia. specialize (H a Ia). rewrite !andb_true_iff in H. destruct H as [_ H]. apply N, H.
Qed.
Definition hash_pol : str := L "alice and (bob or level > 5)".
Definition hash_list : str := L "|alice|level=7|".
Definition hash_exp : pexp := EAnd (EAttr (L "alice")) (EPar (EOr (EAttr (L "bob")) (ECmp RGt (L "level") (Num 5 None)))).
Definition hash_items : alist := AMore 1 (IName (L "alice")) (AOne 0 (INum (L "level") (Num 7 None)) 1).
Definition answer (digest : str -> str) (s t : str) : option bool :=
  match hash_policy mk digest s, hash_attributes_list mk digest t with
  | Ok s', Ok t' => match create_policy_tree mk s', create_attribute_list mk t' with
      | Ok (Some q), Ok (Some l) => match proot q with Some r => Some (sat (match_attribute (aattrs l)) r) | None => None end
      | _, _ => None end
  | _, _ => None
  end.
Definition answer_plain (s t : str) : option bool :=
  match create_policy_tree mk s, create_attribute_list mk t with
  | Ok (Some q), Ok (Some l) => match proot q with Some r => Some (sat (match_attribute (aattrs l)) r) | None => None end
  | _, _ => None end.
Example C62_nonvacuous :
  (exists q, create_policy_tree mk hash_pol = Ok (Some q)) /\ (exists l, create_attribute_list mk hash_list = Ok (Some l)) /\
  reads hash_exp hash_pol /\ well hash_exp = true /\ attr_text hash_items hash_list /\ tidy_names hash_exp = true /\
  separate toy9 (plain_names hash_exp ++ plain_items (aitems hash_items)) (other_names hash_exp ++ other_items (aitems hash_items)) /\
  answer toy9 hash_pol hash_list = Some true /\ answer_plain hash_pol hash_list = Some true /\ answer toy9 hash_pol (L "|bob|level=7") = Some false.
Proof.
  split; [vm_compute; eauto|]. split; [vm_compute; eauto|]. split; [apply text_reads, by_lex; [apply good_ptoks|vm_compute; reflexivity]|]. split; [reflexivity|].
  split; [destruct (by_lex (atoks hash_items) hash_list) as (b & B & T); [apply good_atoks|vm_compute; reflexivity|]; exists b; split; auto; left; exact B|]. split; [reflexivity|].
  split; [apply separate_ok; vm_compute; reflexivity|]. repeat split; vm_compute; reflexivity.
Qed.

(** The condition is needed: a name inside a keyword or inside another name. *)
Theorem C62_keyword_refuted : exists s t, answer_plain s t = Some true /\ answer toy9 s t = None.
Proof. exists (L "a and b"), (L "|a|b"). split; vm_compute; reflexivity. Qed.
Print Assumptions C62_keyword_refuted.
Theorem C62_substring_refuted : exists s t, answer_plain s t = Some true /\ answer toy9 s t = Some false.
Proof. exists (L "ba or cba"), (L "|cba"). split; vm_compute; reflexivity. Qed.
Print Assumptions C62_substring_refuted.
(** Names with empty parts between colons are not asked for as they are written
    (C26_colons_refuted), hashed ones are. *)
Theorem C62_colons_refuted : exists s t, answer_plain s t = Some false /\ answer toy9 s t = Some true.
Proof. exists (L "xy::uv"), (L "|xy::uv"). split; vm_compute; reflexivity. Qed.
Print Assumptions C62_colons_refuted.
(** Any text that is not a policy is undefined behaviour. *)
Theorem C62_rejected_refuted : forall mktime digest s, create_policy_tree mktime s = Ok None -> hash_policy mktime digest s = UB.
Proof. intros mktime digest s E. unfold hash_policy. rewrite E. reflexivity. Qed.
Print Assumptions C62_rejected_refuted.
Theorem C62_rejected_list_refuted : forall mktime digest s, create_attribute_list mktime s = Ok None -> hash_attributes_list mktime digest s = UB.
Proof. intros mktime digest s E. unfold hash_attributes_list. rewrite E. reflexivity. Qed.
Print Assumptions C62_rejected_list_refuted.
Example C62_rejected_example : create_policy_tree mk (L "a and") = Ok None /\ create_attribute_list mk (L "") = Ok None.
Proof. split; vm_compute; reflexivity. Qed.
