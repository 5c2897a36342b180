(** C13-C25, C63: policy and attribute list texts. *)
From Verif Require Import Base ByteString StrMap Dec UInteger Policy Lsss LsssSpec LsssFinal LsssRecover LsssProofs LsssShare LsssPrivacy Scanner Grammar PolicySyntax Lexical PolicyMeaning AttrMeaning Driver Parser AttrList ParserSound ParserRun ParserTop ScannerProofs NumProofs NumTree PolicyTruth ParserSafe CreatePolicy CreateAttrs ParserFinal AttrUse PolicyUse PrintParse ListText TextUse Calendar DateProofs Field PropField PropLsss.
From Coq Require Import ZArith Znumtheory List Ascii Bool Lia Permutation.
Import ListNotations.
Open Scope Z_scope.

(** A clock for examples: every date is day 1000. *)
Definition mk : tm -> Z * tm := fun t => (86400 * 1000, t).
Lemma by_lex : forall ts s, Forall good ts -> lex s = ts -> text_of ts s.
Proof.
  intros ts s G E. destruct (lex_text_pre ts s [] G) as (s' & P & Z); [rewrite E, app_nil_r; reflexivity|].
  exists s'. split; auto. apply lex_empty. exact Z.
Qed.

Lemma good_itoks : forall i, Forall good (itoks i).
Proof. intro i. pose proof (good_atoks (AOne 0 i 0)) as H. cbn [atoks bars repeat app] in H. rewrite app_nil_r in H. exact H. Qed.

(** C13 *)
Theorem C13_parse_total : forall mktime s, dates_in_range mktime s ->
  exists o, create_policy_tree mktime s = Ok o /\ (forall q, o = Some q -> exists r, proot q = Some r /\ binary r = true).
Proof. exact create_total. Qed.
Print Assumptions C13_parse_total.
Theorem C13_no_comma_total : forall mktime s, ~ In ","%char s ->
  exists o, create_policy_tree mktime s = Ok o /\ (forall q, o = Some q -> exists r, proot q = Some r /\ binary r = true).
Proof. intros mktime s H. apply create_total. intro K. contradiction. Qed.
Print Assumptions C13_no_comma_total.
(** Commas inside names do no harm: only a comma that is a token of its own can
    belong to a date. *)
Theorem C13_undated_total : forall mktime s, ~ In (tk c_comma) (lex s) ->
  exists o, create_policy_tree mktime s = Ok o /\ (forall q, o = Some q -> exists r, proot q = Some r /\ binary r = true).
Proof. intros mktime s H. apply create_fine. intro K. contradiction. Qed.
Print Assumptions C13_undated_total.
Theorem C13_list_total : forall mktime s, exists o, create_attribute_list mktime s = Ok o.
Proof. exact attrs_total. Qed.
Print Assumptions C13_list_total.
(** A date on the first day of the epoch is shifted by a negative amount. *)
Theorem C13_dates_refuted : exists mktime s, create_policy_tree mktime s = UB.
Proof. exists (fun t => (0, t)), (L "p < January 1, 1970"). vm_compute. reflexivity. Qed.
Print Assumptions C13_dates_refuted.
Example C13_nonvacuous :
  dates_in_range mk (L "(a or p < May 5, 2020) and c<5#8") /\
  (exists q, create_policy_tree mk (L "(a or p < May 5, 2020) and c<5#8") = Ok (Some q)) /\
  create_policy_tree mk (L "a and") = Ok None /\ ~ In (tk c_comma) (lex (L "a,b or c")).
Proof.
  split; [|split; [vm_compute; eauto|split; [vm_compute; reflexivity|vm_compute; intuition discriminate]]]. intros _. split.
  - intros r m d y _ _ _ _. destruct r; reflexivity.
  - intros m lo hi y _ _ _ _ _. reflexivity.
Qed.

(** C14 *)
Theorem C14_text_parses : forall mktime e s, text_of (ptoks e) s -> well e = true -> nums_ok e = true ->
  dates_ok (day mktime) (last_day mktime) e = true -> tidy_names e = true ->
  exists q r, create_policy_tree mktime s = Ok (Some q) /\ proot q = Some r /\ binary r = true /\ ptext q = s /\
    denotes (day mktime) (last_day mktime) e r.
Proof.
  intros mktime e s T W N D Ty. destruct (reads_accepted mktime s e (text_reads _ _ T) W N D) as (q & r & E & Hr & B & Tx & _ & De & _).
  exists q, r. auto 6.
Qed.
Print Assumptions C14_text_parses.
Theorem C14_unambiguous : forall e e' s, well e = true -> well e' = true -> text_of (ptoks e) s -> text_of (ptoks e') s -> e = e'.
Proof. intros e e' s W W' T T'. apply (reads_unique e e' s); auto using text_reads. Qed.
Print Assumptions C14_unambiguous.
Definition ex_exp : pexp :=
  EOr (EAttr (L "a")) (EAnd (EAnd (EAttr (L "b")) (EPar (EOr (EAttr (L "c:d")) (EAttr (L "a"))))) (ECmp RLt (L "n") (Num 5 (Some 8)))).
Example C14_nonvacuous :
  text_of (ptoks ex_exp) (L "a or b and (c:d OR a) AND n<5#8") /\ well ex_exp = true /\ nums_ok ex_exp = true /\
  dates_ok (day mk) (last_day mk) ex_exp = true /\ tidy_names ex_exp = true /\
  denotes (day mk) (last_day mk) (EOr (EAttr (L "a")) (EAnd (EAttr (L "b")) (EAttr (L "c")))) (Gate GateOr [lf "a" 0; Gate GateAnd [lf "b" 0; lf "c" 0]]).
Proof.
  split; [apply by_lex; [apply good_ptoks|vm_compute; reflexivity]|]. repeat (split; [vm_compute; reflexivity|]).
  eexists _, _. split; [reflexivity|]. split; [eexists _, _, _; split; reflexivity|].
  eexists _, _. split; [reflexivity|]. split; eexists _, _, _; split; reflexivity.
Qed.

(** C15 *)
Theorem C15_accepted_is_sentence : forall mktime s q, create_policy_tree mktime s = Ok (Some q) ->
  exists e r, reads e s /\ well e = true /\ nums_ok e = true /\ dates_ok (day mktime) (last_day mktime) e = true /\
    proot q = Some r /\ binary r = true /\ ptext q = s /\ (tidy_names e = true -> denotes (day mktime) (last_day mktime) e r) /\
    (forall e', reads e' s -> well e' = true -> e' = e).
Proof.
  intros mktime s q E. apply accepted_reads in E as (e & r & R & W & N & D & Hr & B & T & De).
  exists e, r. repeat (split; [assumption|]). intros e' R' W'. eapply reads_unique; eauto.
Qed.
Print Assumptions C15_accepted_is_sentence.
Theorem C15_exact : forall mktime s,
  (exists q, create_policy_tree mktime s = Ok (Some q)) <->
  (exists e, reads e s /\ well e = true /\ nums_ok e = true /\ dates_ok (day mktime) (last_day mktime) e = true).
Proof.
  intros mktime s. split.
  - intros (q & E). apply accepted_reads in E as (e & r & R & W & N & D & _). eauto.
  - intros (e & R & W & N & D). destruct (reads_accepted mktime s e R W N D) as (q & r & E & _). eauto.
Qed.
Print Assumptions C15_exact.
(** With an empty part between colons the leaf does not carry the written name. *)
Theorem C15_colons_refuted : exists mktime s q r, create_policy_tree mktime s = Ok (Some q) /\ proot q = Some r /\ reads (EAttr s) s /\ complete_label r <> s.
Proof.
  exists mk, (L "a::b"). eexists _, _. split; [vm_compute; reflexivity|]. split; [reflexivity|].
  split; [apply text_reads, by_lex; [apply good_ptoks|vm_compute; reflexivity]|]. vm_compute. discriminate.
Qed.
Print Assumptions C15_colons_refuted.
Example C15_nonvacuous : exists q, create_policy_tree mk (L "a or b and (c:d OR a) AND n<5#8") = Ok (Some q) /\
  pdup q = true /\ mget (L "a") (pcount q) = Some 2.
Proof. eexists. split; [vm_compute; reflexivity|]. vm_compute. auto. Qed.

(** C16 *)
Theorem C16_print_parse : forall mktime n, binary n = true ->
  (forall a, In a (leaves n) -> is_name (complete_label a) = true /\ tidy (complete_label a) = true) ->
  exists q r, create_policy_tree mktime (node_to_string n) = Ok (Some q) /\ proot q = Some r /\ formula_of r = formula_of n /\ binary r = true.
Proof. exact print_parse. Qed.
Print Assumptions C16_print_parse.
(** A policy with a numeric comparison prints as text that is not accepted. *)
Theorem C16_numeric_refuted : exists mktime s q r, create_policy_tree mktime s = Ok (Some q) /\ proot q = Some r /\ binary r = true /\
  create_policy_tree mktime (node_to_string r) = Ok None.
Proof. exists mk, (L "n<5#8"). eexists _, _. split; [vm_compute; reflexivity|]. split; [reflexivity|]. split; vm_compute; reflexivity. Qed.
Print Assumptions C16_numeric_refuted.
Example C16_nonvacuous :
  binary ex_tree = true /\ (forall a, In a (leaves ex_tree) -> is_name (complete_label a) = true /\ tidy (complete_label a) = true) /\
  node_to_string ex_tree = L "(a and (b or a))".
Proof. split; [reflexivity|]. split; [|reflexivity]. intros a H. cbn in H. intuition (subst; reflexivity). Qed.

(** C17 *)
Theorem C17_read_in_full : forall mktime s q, plain_text s -> create_policy_tree mktime s = Ok (Some q) ->
  exists e r, text_of (ptoks e) s /\ proot q = Some r /\ (tidy_names e = true -> denotes (day mktime) (last_day mktime) e r).
Proof.
  intros mktime s q P E. apply accepted_reads in E as (e & r & R & _ & _ & _ & Hr & _ & _ & De). exists e, r. auto using plain_reads.
Qed.
Print Assumptions C17_read_in_full.
(** From the first NUL byte or byte above 127 on, everything is ignored, including
    whatever the policy still required. *)
Theorem C17_rest_ignored : forall mktime s c rest, plain_text s -> stops c = true ->
  (forall q r, create_policy_tree mktime (s ++ c :: rest) = Ok (Some q) -> proot q = Some r ->
     exists q' r', create_policy_tree mktime s = Ok (Some q') /\ proot q' = Some r' /\ formula_of r' = formula_of r) /\
  (forall q r, create_policy_tree mktime s = Ok (Some q) -> proot q = Some r ->
     exists q' r', create_policy_tree mktime (s ++ c :: rest) = Ok (Some q') /\ proot q' = Some r' /\ formula_of r' = formula_of r).
Proof. intros mktime s c rest P St. split; intros q r; [apply ignored_rest|apply ignored_rest_conv]; auto. Qed.
Print Assumptions C17_rest_ignored.
Theorem C17_full_text_refuted : exists mktime s rest q q' r, rest <> [] /\
  create_policy_tree mktime s = Ok (Some q) /\ proot q = Some r /\
  create_policy_tree mktime (s ++ rest) = Ok (Some q') /\ proot q' = Some r /\ ptext q' = s ++ rest.
Proof.
  exists mk, (L "a"), (ascii_of_nat 195 :: L " and b"). eexists _, _, _. split; [discriminate|]. split; [vm_compute; reflexivity|].
  split; [reflexivity|]. split; [vm_compute; reflexivity|]. split; reflexivity.
Qed.
Print Assumptions C17_full_text_refuted.
Example C17_nonvacuous : plain_text (L "a and b") /\ stops (ascii_of_nat 0) = true /\ stops (ascii_of_nat 200) = true /\
  create_policy_tree mk (L "a and b )") = Ok None.
Proof. split; [|vm_compute; auto]. intros c H. cbn in H. intuition (subst; reflexivity). Qed.

(** C18 *)
Theorem C18_comparison : forall mktime r c v w s t,
  text_of (ptoks (ECmp r c v)) s -> text_of (itoks (INum c w)) t -> tidy c = true ->
  num_ok v = true -> num_ok w = true -> num_width w = num_width v ->
  exists q n l, create_policy_tree mktime s = Ok (Some q) /\ proot q = Some n /\ create_attribute_list mktime t = Ok (Some l) /\
    sat (match_attribute (aattrs l)) n = rel_holds r (num_val w) (num_val v).
Proof.
  intros mktime r c v w s t Ts Tt Ty Kv Kw Ew. destruct Tt as (b & Bb & Tt).
  destruct (ask mktime (ECmp r c v) s (AOne 0 (INum c w) 0) t) as (q & n & l & E1 & E2 & E3 & E4); auto using text_reads.
  - unfold tidy_names. cbn. rewrite Ty. reflexivity.
  - exists b. split; [|left; exact Bb]. cbn [atoks bars repeat app]. rewrite app_nil_r. exact Tt.
  - cbn. rewrite Kw. reflexivity.
  - intros c' b' _ x y. cbn. intros [X|[]] [Y|[]]. congruence.
  - exists q, n, l. split; auto. split; auto. split; auto. rewrite E4. cbn [truth aitems]. unfold compares, value. cbn.
    rewrite str_eqb_refl, Ew, Z.eqb_refl. reflexivity.
Qed.
Print Assumptions C18_comparison.
(** Anywhere in a policy, with any other attributes in the list: the policy text
    holds of the list text exactly when its conditions do. *)
Theorem C18_policy_meaning : forall mktime e s a t,
  text_of (ptoks e) s -> well e = true -> nums_ok e = true -> dates_ok (day mktime) (last_day mktime) e = true -> tidy_names e = true ->
  text_of (atoks a) t -> (atrail a <= 1)%nat -> items_ok (aitems a) = true ->
  (forall c b, In (c, b) (compared e) -> single_valued (day mktime) (aitems a) c b) ->
  exists q r l, create_policy_tree mktime s = Ok (Some q) /\ proot q = Some r /\ create_attribute_list mktime t = Ok (Some l) /\
    sat (match_attribute (aattrs l)) r = truth (day mktime) (last_day mktime) (plain (aitems a)) (value (day mktime) (aitems a)) e.
Proof.
  intros mktime e s a t Ts W N D Ty (b & B & Tt) Tr Ki Sv. apply ask; auto using text_reads. exists b. split; auto. left. exact B.
Qed.
Print Assumptions C18_policy_meaning.
Example C18_nonvacuous :
  text_of (ptoks (ECmp RLe (L "age") (Num 200 (Some 8)))) (L "age <= 200 # 8") /\
  text_of (itoks (INum (L "age") (Num 17 (Some 8)))) (L "age=17#8") /\
  match create_policy_tree mk (L "age <= 200 # 8"), create_attribute_list mk (L "age=17#8"), create_attribute_list mk (L "age=201#8") with
  | Ok (Some q), Ok (Some l), Ok (Some l') => match proot q with
      | Some n => sat (match_attribute (aattrs l)) n = true /\ sat (match_attribute (aattrs l')) n = false
      | None => False end
  | _, _, _ => False
  end.
Proof.
  split; [apply by_lex; [apply good_ptoks|vm_compute; reflexivity]|]. split; [apply by_lex; [apply good_itoks|vm_compute; reflexivity]|].
  vm_compute. auto.
Qed.
Definition ex_items : alist := AMore 1 (IName (L "a")) (AMore 0 (INum (L "n") (Num 4 (Some 8))) (AOne 0 (IName (L "b")) 1)).
Example C18_meaning_nonvacuous :
  text_of (atoks ex_items) (L "|a|n=4#8|b|") /\ (atrail ex_items <= 1)%nat /\ items_ok (aitems ex_items) = true /\
  (forall c b, In (c, b) (compared ex_exp) -> single_valued (day mk) (aitems ex_items) c b) /\
  truth (day mk) (last_day mk) (plain (aitems ex_items)) (value (day mk) (aitems ex_items)) ex_exp = true /\
  truth (day mk) (last_day mk) (plain []) (value (day mk) []) ex_exp = false.
Proof.
  split; [apply by_lex; [apply good_atoks|vm_compute; reflexivity]|]. split; [repeat constructor|]. split; [reflexivity|]. split; [|split; vm_compute; reflexivity].
  intros c b _ x y. cbn. intros [X|[]] [Y|[]]. congruence.
Qed.

(** C19 *)
Theorem C19_range : forall mktime (incl : bool) c lo hi w s t,
  text_of (ptoks (ERange incl c lo hi)) s -> text_of (itoks (INum c w)) t -> tidy c = true ->
  num_ok lo = true -> num_ok hi = true -> num_ok w = true -> num_width w = num_width lo -> num_width w = num_width hi ->
  exists q n l, create_policy_tree mktime s = Ok (Some q) /\ proot q = Some n /\ create_attribute_list mktime t = Ok (Some l) /\
    (sat (match_attribute (aattrs l)) n = true <->
     if incl then num_val lo <= num_val w <= num_val hi else num_val lo < num_val w < num_val hi).
Proof.
  intros mktime incl c lo hi w s t Ts (b & Bb & Tt) Ty Kl Kh Kw El Eh.
  destruct (ask mktime (ERange incl c lo hi) s (AOne 0 (INum c w) 0) t) as (q & n & l & E1 & E2 & E3 & E4); auto using text_reads.
  - cbn. rewrite Kl, Kh. reflexivity.
  - unfold tidy_names. cbn. rewrite Ty. reflexivity.
  - exists b. split; [|left; exact Bb]. cbn [atoks bars repeat app]. rewrite app_nil_r. exact Tt.
  - cbn. rewrite Kw. reflexivity.
  - intros c' b' _ x y. cbn. intros [X|[]] [Y|[]]. congruence.
  - exists q, n, l. split; auto. split; auto. split; auto. rewrite E4. cbn [truth aitems]. unfold compares, value. cbn [values_of values_from item_values first_mention find app].
    rewrite str_eqb_refl, <- El, <- Eh, Z.eqb_refl. cbn [andb]. destruct incl; cbn [rel_holds]; rewrite andb_true_iff, ?Z.leb_le, ?Z.ltb_lt; reflexivity.
Qed.
Print Assumptions C19_range.
(** An empty range is never satisfied, whatever single value the list has. *)
Theorem C19_empty_range : forall mktime (incl : bool) c lo hi s a t,
  text_of (ptoks (ERange incl c lo hi)) s -> tidy c = true -> num_ok lo = true -> num_ok hi = true -> num_width lo = num_width hi ->
  (if incl then num_val hi < num_val lo else num_val hi <= num_val lo + 1) ->
  text_of (atoks a) t -> (atrail a <= 1)%nat -> items_ok (aitems a) = true -> single_valued (day mktime) (aitems a) c (num_width lo) ->
  exists q n l, create_policy_tree mktime s = Ok (Some q) /\ proot q = Some n /\ create_attribute_list mktime t = Ok (Some l) /\
    sat (match_attribute (aattrs l)) n = false.
Proof.
  intros mktime incl c lo hi s a t Ts Ty Kl Kh E Emp (b & Bb & Tt) Tr Ki Sv.
  destruct (ask mktime (ERange incl c lo hi) s a t) as (q & n & l & E1 & E2 & E3 & E4); auto using text_reads.
  - cbn. rewrite Kl, Kh. reflexivity.
  - unfold tidy_names. cbn. rewrite Ty. reflexivity.
  - exists b. split; auto. left. exact Bb.
  - intros c' b' [X|[X|[]]]; injection X as <- <-; rewrite <- ?E; exact Sv.
  - exists q, n, l. split; auto. split; auto. split; auto. rewrite E4. cbn [truth]. rewrite <- E. unfold compares.
    destruct (value _ _ c (num_width lo)) as [x|]; [|reflexivity]. destruct incl; cbn [rel_holds]; apply andb_false_iff;
    [destruct (Z.leb_spec (num_val lo) x); [right; apply Z.leb_gt; lia|left; reflexivity]|destruct (Z.ltb_spec (num_val lo) x); [right; apply Z.ltb_ge; lia|left; reflexivity]].
Qed.
Print Assumptions C19_empty_range.
Example C19_nonvacuous :
  text_of (ptoks (ERange true (L "x") (Num 3 None) (Num 9 None))) (L "x in {3-9}") /\
  text_of (ptoks (ERange false (L "x") (Num 3 (Some 4)) (Num 4 (Some 4)))) (L "x in (3#4 - 4#4)") /\
  text_of (itoks (INum (L "x") (Num 9 None))) (L "x = 9") /\
  match create_policy_tree mk (L "x in {3-9}"), create_attribute_list mk (L "x = 9") with
  | Ok (Some q), Ok (Some l) => match proot q with Some n => sat (match_attribute (aattrs l)) n = true | None => False end
  | _, _ => False
  end.
Proof.
  split; [apply by_lex; [apply good_ptoks|vm_compute; reflexivity]|]. split; [apply by_lex; [apply good_ptoks|vm_compute; reflexivity]|].
  split; [apply by_lex; [apply good_itoks|vm_compute; reflexivity]|]. vm_compute. reflexivity.
Qed.

(** C20 *)
Theorem C20_other_values : forall mktime r c v s a t,
  text_of (ptoks (ECmp r c v)) s -> tidy c = true -> num_ok v = true ->
  text_of (atoks a) t -> (atrail a <= 1)%nat -> items_ok (aitems a) = true ->
  (forall x, ~ In (c, num_width v, x) (values_of (day mktime) (aitems a))) ->
  exists q n l, create_policy_tree mktime s = Ok (Some q) /\ proot q = Some n /\ create_attribute_list mktime t = Ok (Some l) /\
    sat (match_attribute (aattrs l)) n = false.
Proof.
  intros mktime r c v s a t Ts Ty Kv (b & Bb & Tt) Tr Ki No.
  destruct (ask mktime (ECmp r c v) s a t) as (q & n & l & E1 & E2 & E3 & E4); auto using text_reads.
  - unfold tidy_names. cbn. rewrite Ty. reflexivity.
  - exists b. split; auto. left. exact Bb.
  - intros c' b' [X|[]]. injection X as <- <-. intros x y X. destruct (No x X).
  - exists q, n, l. split; auto. split; auto. split; auto. rewrite E4. cbn [truth]. unfold compares.
    destruct (value _ _ c (num_width v)) as [x|] eqn:E; [|reflexivity]. apply value_in in E. destruct (No x E).
Qed.
Print Assumptions C20_other_values.
(** A number that is not representable at its width, or a width that is not 4, 8,
    16 or 32, makes the whole policy invalid; likewise in attribute lists. *)
Theorem C20_bad_number_policy : forall mktime e s, text_of (ptoks e) s -> well e = true -> undated e = true -> nums_ok e = false ->
  create_policy_tree mktime s = Ok None.
Proof.
  intros mktime e s T W U N. apply (reads_rejected mktime s e); auto using text_reads. clear T W N.
  induction e; cbn in *; auto; try discriminate; apply andb_prop in U as [U1 U2]; rewrite IHe1, IHe2; auto.
Qed.
Print Assumptions C20_bad_number_policy.
Theorem C20_bad_number_list : forall mktime a t, text_of (atoks a) t -> items_ok (aitems a) = false -> create_attribute_list mktime t = Ok None.
Proof.
  intros mktime a t (b & B & T) K. destruct (attrs_total mktime t) as ([l|] & E); auto. exfalso.
  apply attrs_accept in E as (a' & Ta & _ & K' & _). assert (attr_text a t) as Tb by (exists b; split; auto; left; exact B).
  destruct (attr_text_unique _ _ _ Ta Tb) as [X _]. congruence.
Qed.
Print Assumptions C20_bad_number_list.
Example C20_nonvacuous :
  text_of (ptoks (ECmp RLt (L "x") (Num 9 (Some 4)))) (L "x<9#4") /\ text_of (atoks (AMore 0 (INum (L "x") (Num 3 (Some 8))) (AOne 0 (INum (L "y") (Num 3 (Some 4))) 0))) (L "x=3#8|y=3#4") /\
  (forall x, ~ In (L "x", 4, x) (values_of (day mk) [INum (L "x") (Num 3 (Some 8)); INum (L "y") (Num 3 (Some 4))])) /\
  text_of (ptoks (EOr (EAttr (L "a")) (ECmp RLt (L "x") (Num 16 (Some 4))))) (L "a or x<16#4") /\
  nums_ok (EOr (EAttr (L "a")) (ECmp RLt (L "x") (Num 16 (Some 4)))) = false /\
  text_of (atoks (AOne 0 (INum (L "x") (Num 3 (Some 5))) 0)) (L "x=3#5") /\ items_ok [INum (L "x") (Num 3 (Some 5))] = false.
Proof.
  split; [apply by_lex; [apply good_ptoks|vm_compute; reflexivity]|]. split; [apply by_lex; [apply good_atoks|vm_compute; reflexivity]|].
  split; [intros x; cbn; intros [H|[H|[]]]; discriminate|]. split; [apply by_lex; [apply good_ptoks|vm_compute; reflexivity]|].
  split; [reflexivity|]. split; [apply by_lex; [apply good_atoks|vm_compute; reflexivity]|]. reflexivity.
Qed.

(** C21 *)
Definition on (m : Z) (d y : num) : date := {| dyear := num_val y; dmonth := m; dday := num_val d |}.
Theorem C21_day_numbers : forall mktime r p m d y m' d' y' s t,
  text_of (ptoks (EDate r p m d y)) s -> text_of (itoks (IDate p m' d' y')) t -> tidy p = true -> p <> L "time" ->
  num_ok d = true -> num_ok y = true -> num_ok d' = true -> num_ok y' = true ->
  day_ok r (day mktime m (num_val d) (num_val y)) = true ->
  exists q n l, create_policy_tree mktime s = Ok (Some q) /\ proot q = Some n /\ create_attribute_list mktime t = Ok (Some l) /\
    sat (match_attribute (aattrs l)) n = rel_holds r (day mktime m' (num_val d') (num_val y')) (day mktime m (num_val d) (num_val y)).
Proof.
  intros mktime r p m d y m' d' y' s t Ts (b & Bb & Tt) Ty Np Kd Ky Kd' Ky' Dk.
  destruct (ask mktime (EDate r p m d y) s (AOne 0 (IDate p m' d' y') 0) t) as (q & n & l & E1 & E2 & E3 & E4); auto using text_reads.
  - cbn. rewrite Kd, Ky. reflexivity.
  - unfold tidy_names. cbn. rewrite Ty. reflexivity.
  - exists b. split; [|left; exact Bb]. cbn [atoks bars repeat app]. rewrite app_nil_r. exact Tt.
  - cbn. rewrite Kd', Ky'. reflexivity.
  - intros c' b' _ x z. cbn. intros [X|[]] [Y|[]]. congruence.
  - exists q, n, l. split; auto. split; auto. split; auto. rewrite E4. cbn [truth aitems]. unfold compares, value, dated. cbn [values_of values_from item_values dated_in existsb find app].
    destruct (str_eqb p (L "time")) eqn:X; [apply str_eqb_eq in X; contradiction|]. rewrite str_eqb_refl. reflexivity.
Qed.
Print Assumptions C21_day_numbers.
(** In a zone of constant offset the comparison is the one of the calendar. *)
Theorem C21_calendar : forall off mktime r p m k d y m' k' d' y' s t, constant_zone off mktime -> -86400 <= off <= 86400 ->
  text_of (ptoks (EDate r p m d y)) s -> text_of (itoks (IDate p m' d' y')) t -> tidy p = true -> p <> L "time" ->
  num_ok d = true -> num_ok y = true -> num_ok d' = true -> num_ok y' = true ->
  names_month m k -> names_month m' k' -> modern (on k d y) -> modern (on k' d' y') ->
  exists q n l, create_policy_tree mktime s = Ok (Some q) /\ proot q = Some n /\ create_attribute_list mktime t = Ok (Some l) /\
    sat (match_attribute (aattrs l)) n = date_holds r (on k' d' y') (on k d y).
Proof.
  intros off mktime r p m k d y m' k' d' y' s t Zn Of Ts Tt Ty Np Kd Ky Kd' Ky' Nm Nm' Md Md'.
  pose proof (day_zone mktime off Zn Of m (on k d y) Nm Md) as D1. pose proof (day_zone mktime off Zn Of m' (on k' d' y') Nm' Md') as D2. cbn [on dday dyear] in D1, D2.
  destruct (C21_day_numbers mktime r p m d y m' d' y' s t) as (q & n & l & E1 & E2 & E3 & E4); auto.
  - rewrite D1. apply day_ok_zone; auto.
  - exists q, n, l. split; auto. split; auto. split; auto. rewrite E4, D1, D2. apply holds_civil; [apply Md'|apply Md].
Qed.
Print Assumptions C21_calendar.
(** Ranges of days of a month. *)
Theorem C21_day_range : forall off mktime p m k lo hi y m' k' d' y' s t, constant_zone off mktime -> -86400 <= off <= 86400 ->
  text_of (ptoks (EDateRange p m lo hi y)) s -> text_of (itoks (IDate p m' d' y')) t -> tidy p = true -> p <> L "time" ->
  num_ok lo = true -> num_ok hi = true -> num_ok y = true -> num_ok d' = true -> num_ok y' = true ->
  names_month m k -> names_month m' k' -> modern (on k lo y) -> modern (on k hi y) -> modern (on k' d' y') ->
  exists q n l, create_policy_tree mktime s = Ok (Some q) /\ proot q = Some n /\ create_attribute_list mktime t = Ok (Some l) /\
    sat (match_attribute (aattrs l)) n = date_holds RGe (on k' d' y') (on k lo y) && date_holds RLe (on k' d' y') (on k hi y).
Proof.
  intros off mktime p m k lo hi y m' k' d' y' s t Zn Of Ts (b & Bb & Tt) Ty Np Kl Kh Ky Kd' Ky' Nm Nm' Ml Mh Md'.
  pose proof (day_zone mktime off Zn Of m (on k lo y) Nm Ml) as D1. pose proof (day_zone mktime off Zn Of m' (on k' d' y') Nm' Md') as D2.
  pose proof (last_day_zone mktime off Zn Of m (on k lo y) (num_val hi) Nm Ml Mh) as D3. cbn [on dday dyear dmonth] in D1, D2, D3. fold (on k hi y) in D3.
  destruct (ask mktime (EDateRange p m lo hi y) s (AOne 0 (IDate p m' d' y') 0) t) as (q & n & l & E1 & E2 & E3 & E4); auto using text_reads.
  - cbn. rewrite Kl, Kh, Ky. reflexivity.
  - cbn [dates_ok]. rewrite D1, D3. fold (on k lo y). rewrite !(day_ok_zone off Of) by auto. reflexivity.
  - unfold tidy_names. cbn. rewrite Ty. reflexivity.
  - exists b. split; [|left; exact Bb]. cbn [atoks bars repeat app]. rewrite app_nil_r. exact Tt.
  - cbn. rewrite Kd', Ky'. reflexivity.
  - intros c' b' _ x z. cbn. intros [X|[]] [Y|[]]. congruence.
  - exists q, n, l. split; auto. split; auto. split; auto. rewrite E4. cbn [truth aitems]. unfold compares, value, dated. cbn [values_of values_from item_values dated_in existsb find app].
    destruct (str_eqb p (L "time")) eqn:X; [apply str_eqb_eq in X; contradiction|]. rewrite str_eqb_refl. cbn [andb Z.eqb Pos.eqb].
    rewrite D1, D2, D3. f_equal; apply holds_civil; try apply Md'; [apply Ml|apply Mh].
Qed.
Print Assumptions C21_day_range.
(** The prefix "time" itself never matches. *)
Theorem C21_time_prefix_refuted : exists mktime q n l,
  create_policy_tree mktime (L "time > May 1, 2020") = Ok (Some q) /\ proot q = Some n /\
  create_attribute_list mktime (L "time=May 2, 2020") = Ok (Some l) /\ constant_zone 0 mktime /\
  sat (match_attribute (aattrs l)) n = false.
Proof.
  exists (fun t => (86400 * civil (date_of t), t)). eexists _, _, _. split; [vm_compute; reflexivity|]. split; [reflexivity|]. split; [vm_compute; reflexivity|].
  split; [|vm_compute; reflexivity]. intros t _. cbn. split; [lia|reflexivity].
Qed.
Print Assumptions C21_time_prefix_refuted.
(** With daylight saving time (here Great Britain, 2020) the day before the change
    is not earlier than the day after it. *)
Definition british (t : tm) : Z * tm :=
  let c := civil (date_of t) in
  (86400 * c - (if (18351 <=? c) && (c <=? 18560) then 3600 else 0), t).
Theorem C21_daylight_saving_refuted : exists q n l,
  create_policy_tree british (L "p < March 30, 2020") = Ok (Some q) /\ proot q = Some n /\
  create_attribute_list british (L "p=March 29, 2020") = Ok (Some l) /\
  sat (match_attribute (aattrs l)) n = false.
Proof. eexists _, _, _. split; [vm_compute; reflexivity|]. split; [reflexivity|]. split; [vm_compute; reflexivity|]. vm_compute. reflexivity. Qed.
Print Assumptions C21_daylight_saving_refuted.
Example C21_nonvacuous :
  constant_zone (-18000) (fun t => (86400 * civil (date_of t) - 18000, t)) /\
  civil {| dyear := 2020; dmonth := 3; dday := 29 |} = 18350 /\
  text_of (ptoks (EDate RLt (L "p") (L "Mar") (Num 1 None) (Num 2020 None))) (L "p < Mar 1, 2020") /\
  text_of (itoks (IDate (L "p") (L "February") (Num 29 None) (Num 2020 None))) (L "p=February 29, 2020") /\
  names_month (L "Mar") 3 /\ names_month (L "February") 2 /\
  modern (on 3 (Num 1 None) (Num 2020 None)) /\ modern (on 2 (Num 29 None) (Num 2020 None)) /\
  date_holds RLt (on 2 (Num 29 None) (Num 2020 None)) (on 3 (Num 1 None) (Num 2020 None)) = true /\
  text_of (ptoks (EDateRange (L "p") (L "Mar") (Num 1 None) (Num 9 None) (Num 2020 None))) (L "p = Mar 1-9, 2020").
Proof.
  split; [intros t _; cbn; split; [lia|reflexivity]|]. split; [reflexivity|]. split; [apply by_lex; [apply good_ptoks|vm_compute; reflexivity]|].
  split; [apply by_lex; [apply good_itoks|vm_compute; reflexivity]|].
  split; [split; [lia|]; eexists _, _; split; [reflexivity|auto]|]. split; [split; [lia|]; eexists _, _; split; [reflexivity|auto]|].
  split; [repeat split; vm_compute; congruence|]. split; [repeat split; vm_compute; congruence|].
  split; [reflexivity|]. apply by_lex; [apply good_ptoks|vm_compute; reflexivity].
Qed.

(** C22 *)
Fixpoint first_occurrences (l : list str) : list str :=
  match l with [] => [] | x :: r => x :: filter (fun y => negb (str_eqb y x)) (first_occurrences r) end.
Lemma distinct_first : forall l seen, distinct seen l = filter (fun y => negb (existsb (str_eqb y) seen)) (first_occurrences l).
Proof.
  induction l as [|x l IH]; intro seen; [reflexivity|]. cbn [distinct first_occurrences filter].
  assert (forall f : str -> bool, (forall y, str_eqb y x = true -> f y = false) -> filter f (filter (fun y => negb (str_eqb y x)) (first_occurrences l)) = filter f (first_occurrences l)) as K.
  { clear IH. intros f H. induction (first_occurrences l) as [|y m IHm]; [reflexivity|]. cbn [filter]. destruct (str_eqb y x) eqn:E; cbn [negb filter]; [rewrite H by auto; exact IHm|rewrite IHm; reflexivity]. }
  destruct (existsb (str_eqb x) seen) eqn:E; cbn [negb].
  - rewrite IH, K; auto. intros y Y. apply str_eqb_eq in Y as ->. rewrite E. reflexivity.
  - f_equal. rewrite IH. assert (forall f g : str -> bool, (forall y, f y = g y) -> forall m, filter f m = filter g m) as X by (intros f g H m; apply filter_ext; auto).
    rewrite (X _ (fun y => negb (str_eqb y x) && negb (existsb (str_eqb y) seen))) by (intro y; cbn [existsb]; rewrite negb_orb; reflexivity).
    clear. induction (first_occurrences l) as [|y m IHm]; [reflexivity|]. cbn [filter]. destruct (str_eqb y x); cbn [negb andb filter]; rewrite <- IHm; reflexivity.
Qed.
(** The text of a list of names: separators in front, between and behind. *)
Definition bars_text (n : nat) : str := repeat "|"%char n.
Fixpoint joined (x : str) (l : list str) : str := match l with [] => x | y :: r => x ++ "|"%char :: joined y r end.
Lemma names_text : forall l lead x trail, items_text lead (IName x) (map IName l) trail = bars_text lead ++ joined x l ++ bars_text trail.
Proof.
  induction l as [|y l IH]; intros lead x trail; cbn [map items_text joined show_item]; [reflexivity|]. rewrite IH. cbn [bars_text repeat app]. unfold bars_text. rewrite <- app_assoc. reflexivity.
Qed.
Theorem C22_names : forall mktime lead x l trail, Forall (fun s => is_name s = true) (x :: l) -> (trail <= 1)%nat ->
  exists m, create_attribute_list mktime (bars_text lead ++ joined x l ++ bars_text trail) = Ok (Some m) /\
    aattrs m = first_occurrences (x :: l) /\ aorig m = [].
Proof.
  intros mktime lead x l trail F T. destruct (names_list mktime lead x l trail F T) as (m & E & A & O). exists m. rewrite names_text in E. split; auto. split; auto.
  rewrite A, distinct_first. clear. induction (first_occurrences (x :: l)) as [|y k IH]; [reflexivity|]. cbn [filter existsb negb] in *. f_equal. exact IH.
Qed.
Print Assumptions C22_names.
(** Two or more trailing separators are rejected. *)
Theorem C22_trailing_rejected : forall mktime lead x l trail, Forall (fun s => is_name s = true) (x :: l) -> (2 <= trail)%nat ->
  create_attribute_list mktime (bars_text lead ++ joined x l ++ bars_text trail) = Ok None.
Proof.
  intros mktime lead x l trail F T. rewrite <- names_text. apply list_bars_rejected; auto.
  - change (IName x :: map IName l) with (map IName (x :: l)). apply Forall_map. exact F.
  - change (IName x :: map IName l) with (map IName (x :: l)). unfold items_ok. apply forallb_forall. intros i I. apply in_map_iff in I as (s & <- & _). reflexivity.
Qed.
Print Assumptions C22_trailing_rejected.
(** What every accepted list text means, with numbers and dates. *)
Theorem C22_exact : forall mktime t,
  (forall l, create_attribute_list mktime t = Ok (Some l) ->
     exists a, attr_text a t /\ (atrail a <= 1)%nat /\ items_ok (aitems a) = true /\ aattrs l = attrs_of (day mktime) (aitems a) /\ aorig l = orig_of (aitems a)) /\
  (forall a, attr_text a t -> (atrail a <= 1)%nat -> items_ok (aitems a) = true ->
     exists l, create_attribute_list mktime t = Ok (Some l) /\ aattrs l = attrs_of (day mktime) (aitems a) /\ aorig l = orig_of (aitems a)).
Proof. intros mktime t. split; [apply attrs_accept|apply attrs_made]. Qed.
Print Assumptions C22_exact.
Example C22_nonvacuous :
  Forall (fun s => is_name s = true) [L "one"; L "two:x"; L "one"; L "three"] /\
  bars_text 1 ++ joined (L "one") [L "two:x"; L "one"; L "three"] ++ bars_text 1 = L "|one|two:x|one|three|" /\
  first_occurrences [L "one"; L "two:x"; L "one"; L "three"] = [L "one"; L "two:x"; L "three"] /\
  attrs_of (day mk) [IName (L "a"); INum (L "n") (Num 5 (Some 4))] =
    [L "a"; L "n_expint04_xxxxxxxxxxxxxxxxxxxxxxxxxx0xxxxx"; L "n_expint04_xxxxxxxxxxxxxxxxxxxxxxxxxxx0xxxx";
     L "n_expint04_xxxxxxxxxxxxxxxxxxxxxxxxxxxx0xxx"; L "n_expint04_xxxxxxxxxxxxxxxxxxxxxxxxxxxxx1xx";
     L "n_expint04_xxxxxxxxxxxxxxxxxxxxxxxxxxxxxx0x"; L "n_expint04_xxxxxxxxxxxxxxxxxxxxxxxxxxxxxxx1"].
Proof. split; [repeat constructor|]. split; [reflexivity|]. split; reflexivity. Qed.

(** C23 *)
Theorem C23_compact_roundtrip : forall mktime t l, create_attribute_list mktime t = Ok (Some l) ->
  exists l', create_attribute_list mktime (compact l) = Ok (Some l') /\ (forall a, In a (aattrs l') <-> In a (aattrs l)) /\
    aorig l' = aorig l /\ compact l' = compact l.
Proof. exact compact_roundtrip. Qed.
Print Assumptions C23_compact_roundtrip.
Example C23_nonvacuous : exists l, create_attribute_list mk (L "|b|x=5#4|a|p=May 5, 2020|x=12|") = Ok (Some l) /\ compact l = L "|b|a|x=5#4|p=May 5, 2020|x=12|".
Proof. eexists. split; vm_compute; reflexivity. Qed.

(** * C99 *)
Definition no_bar (s : str) : Prop := ~ In bar s.
Lemma no_bar_app : forall a b, no_bar a -> no_bar b -> no_bar (a ++ b).
Proof. intros a b A B H. apply in_app_or in H as [H|H]; auto. Qed.
Lemma no_bar_repeat : forall n, no_bar (repeat "x"%char n).
Proof. intros n H. apply repeat_spec in H. discriminate. Qed.
Lemma no_bar_dec_nat : forall n, no_bar (dec_nat n).
Proof.
  intro n. unfold dec_nat. assert (forall f n acc, no_bar acc -> no_bar (dec_fuel f n acc)) as K.
  { induction f as [|f IH]; intros m acc A; cbn [dec_fuel]; [exact A|].
    assert (no_bar (digit (m mod 10) :: acc)) as A'.
    { intros [H|H]; [|exact (A H)]. apply (f_equal b2z) in H. rewrite b2z_digit in H by (apply Z.mod_pos_bound; lia). pose proof (Z.mod_pos_bound m 10 ltac:(lia)). change (b2z bar) with 124 in H. lia. }
    destruct (m <? 10); [exact A'|]. apply IH. exact A'. }
  apply K. intros [].
Qed.
Lemma no_bar_name : forall s, is_name s = true -> s <> [] /\ no_bar s.
Proof.
  intros s H. unfold is_name in H. apply andb_prop in H as [H _]. apply andb_prop in H as [H _]. destruct s as [|c r]; [discriminate|]. split; [discriminate|].
  cbn [is_word] in H. apply andb_prop in H as [H1 H2]. rewrite forallb_forall in H2. intros [->|I]; [discriminate H1|]. specialize (H2 _ I). discriminate H2.
Qed.
Lemma no_bar_attr : forall mktime t l a, create_attribute_list mktime t = Ok (Some l) -> In a (aattrs l) -> a <> [] /\ no_bar a.
Proof.
  intros mktime t l a E Ia. apply attrs_accept in E as (x & (t' & P & En) & _ & K & Ea & _).
  assert (Forall item_named (aitems x)) as F by (apply items_named; eapply text_pre_good; eauto).
  rewrite Ea in Ia. unfold attrs_of in Ia. apply attrs_member in Ia as [[_ H]|(c & b & v & i & Iv & _ & ->)].
  - apply no_bar_name. eapply first_named; eauto.
  - assert (forall ll before, Forall item_named ll -> In (c, b, v) (values_from (day mktime) before ll) -> no_bar c) as V.
    { induction ll as [|j r IH]; intros before G I0; [destruct I0|]. inversion G as [|? ? G1 G2]; subst. cbn [values_from] in I0. apply in_app_or in I0 as [I0|I0]; [|eapply IH; eauto].
      destruct j as [s|s n|p m d y]; cbn [item_values item_named] in *; [destruct I0| |].
      - destruct (first_mention s before) as [[]|]; [destruct I0| |]; (destruct I0 as [I0|[]]; injection I0 as <- _ _; apply no_bar_name; apply G1).
      - destruct (dated_in p before); [destruct I0|]. destruct I0 as [I0|[]]. injection I0 as <- _ _. apply no_bar_app; [apply no_bar_name, G1|]. cbn. intros [X|[X|[X|[X|[X|[]]]]]]; discriminate. }
    pose proof (V _ _ F Iv) as Nc. unfold marker. split.
    { intro X. apply app_eq_nil in X as [_ X]. discriminate. }
    apply no_bar_app; [exact Nc|]. apply no_bar_app; [cbn; intros [X|[X|[X|[X|[X|[X|[X|[]]]]]]]]; discriminate|].
    apply no_bar_app; [destruct (b <? 10); [cbn; intros [X|[]]; discriminate|intros []]|].
    apply no_bar_app. { unfold dec. destruct (b <? 0); [apply no_bar_app; [cbn; intros [X|[]]; discriminate|]|]; apply no_bar_dec_nat. }
    apply no_bar_app; [cbn; intros [X|[]]; discriminate|]. apply no_bar_app; [apply no_bar_repeat|]. apply no_bar_app; [destruct (Z.testbit v i); cbn; intros [X|[]]; discriminate|]. apply no_bar_repeat.
Qed.
Lemma cut_unique : forall a b x y, no_bar a -> no_bar b -> a ++ bar :: x = b ++ bar :: y -> a = b /\ x = y.
Proof.
  induction a as [|c a IH]; intros [|d b] x y A B E; cbn [app] in E.
  - injection E as ->. auto.
  - injection E as <- _. exfalso. apply B. left. reflexivity.
  - injection E as -> _. exfalso. apply A. left. reflexivity.
  - injection E as -> E. destruct (IH b x y) as [-> ->]; auto; intro I0; [apply A|apply B]; right; exact I0.
Qed.
(** The text tells the attributes and their order: lists created from texts that
    print alike hold the same attributes. *)
Theorem C99_text_identifies : forall mktime t t' l l', create_attribute_list mktime t = Ok (Some l) -> create_attribute_list mktime t' = Ok (Some l') ->
  list_to_string l = list_to_string l' -> aattrs l = aattrs l'.
Proof.
  intros mktime t t' l l' E E' H. unfold list_to_string in H. injection H as H.
  assert (forall a, In a (aattrs l) -> a <> [] /\ no_bar a) as G by (intros a; eapply no_bar_attr; eauto).
  assert (forall a, In a (aattrs l') -> a <> [] /\ no_bar a) as G' by (intros a; eapply no_bar_attr; eauto).
  clear E E'. revert G G' H. generalize (aattrs l) as A, (aattrs l') as B. clear. induction A as [|a A IH]; intros [|b B] G G' H; cbn [map concat] in H.
  - reflexivity.
  - exfalso. destruct (G' b (or_introl eq_refl)) as [Nb _]. destruct b; [congruence|]. discriminate H.
  - exfalso. destruct (G a (or_introl eq_refl)) as [Na _]. destruct a; [congruence|]. discriminate H.
  - destruct (G a (or_introl eq_refl)) as [Na Ba], (G' b (or_introl eq_refl)) as [Nb Bb].
    destruct a as [|c a]; [congruence|]. destruct b as [|d b]; [congruence|]. rewrite <- !app_assoc in H. cbn [app] in H.
    apply (cut_unique (c :: a) (d :: b)) in H as [-> H]; auto. f_equal. apply IH; auto; intros x Ix; [apply G|apply G']; right; exact Ix.
Qed.
Print Assumptions C99_text_identifies.
(** The text is the attributes between separators, and starts with one. *)
Theorem C99_text : forall mktime t l, create_attribute_list mktime t = Ok (Some l) ->
  list_to_string l = L "|" ++ concat (map (fun a => a ++ L "|") (aattrs l)).
Proof.
  intros mktime t l E. unfold list_to_string. change (L "|") with [bar]. cbn [app]. apply f_equal. assert (forall a, In a (aattrs l) -> a <> [] /\ no_bar a) as G by (intros a; eapply no_bar_attr; eauto).
  revert G. generalize (aattrs l) as A. clear. induction A as [|a A IH]; intro G; [reflexivity|]. cbn [map concat]. rewrite IH by (intros x Ix; apply G; right; exact Ix).
  destruct a; [destruct (G [] (or_introl eq_refl)); congruence|reflexivity].
Qed.
Print Assumptions C99_text.
Example C99_nonvacuous : exists l l', create_attribute_list mk (L "b|x=5#4|a") = Ok (Some l) /\ create_attribute_list mk (L "|b|x=5#4|b|a|") = Ok (Some l') /\ list_to_string l = list_to_string l'.
Proof. eexists _, _. split; [vm_compute; reflexivity|]. split; vm_compute; reflexivity. Qed.

(** C24: two values of one attribute mix. *)
Theorem C24_mixed_values_refuted : exists mktime q n l,
  create_policy_tree mktime (L "x == 7") = Ok (Some q) /\ proot q = Some n /\
  create_attribute_list mktime (L "x=1|x=6") = Ok (Some l) /\ sat (match_attribute (aattrs l)) n = true.
Proof. exists mk. eexists _, _, _. split; [vm_compute; reflexivity|]. split; [reflexivity|]. split; [vm_compute; reflexivity|]. vm_compute. reflexivity. Qed.
Print Assumptions C24_mixed_values_refuted.
(** What holds: with at most one value for the name at that width. *)
Theorem C24_single_value_partial : forall mktime r c v s a t,
  text_of (ptoks (ECmp r c v)) s -> tidy c = true -> num_ok v = true ->
  text_of (atoks a) t -> (atrail a <= 1)%nat -> items_ok (aitems a) = true -> single_valued (day mktime) (aitems a) c (num_width v) ->
  exists q n l, create_policy_tree mktime s = Ok (Some q) /\ proot q = Some n /\ create_attribute_list mktime t = Ok (Some l) /\
    (sat (match_attribute (aattrs l)) n = true <->
     exists x, In (c, num_width v, x) (values_of (day mktime) (aitems a)) /\ rel_holds r x (num_val v) = true).
Proof.
  intros mktime r c v s a t Ts Ty Kv (b & Bb & Tt) Tr Ki Sv.
  destruct (ask mktime (ECmp r c v) s a t) as (q & n & l & E1 & E2 & E3 & E4); auto using text_reads.
  - unfold tidy_names. cbn. rewrite Ty. reflexivity.
  - exists b. split; auto. left. exact Bb.
  - intros c' b' [X|[]]. injection X as <- <-. exact Sv.
  - exists q, n, l. split; auto. split; auto. split; auto. rewrite E4. cbn [truth]. unfold compares.
    destruct (value _ _ c (num_width v)) as [x|] eqn:E.
    + apply value_in in E. split; [eauto|]. intros (z & I & H). rewrite (Sv x z E I). exact H.
    + split; [discriminate|]. intros (z & I & _). destruct (value_none _ _ _ _ z E I).
Qed.
Print Assumptions C24_single_value_partial.
Example C24_nonvacuous :
  text_of (atoks (AMore 0 (INum (L "x") (Num 1 None)) (AOne 0 (INum (L "x") (Num 6 (Some 8))) 0))) (L "x=1|x=6#8") /\
  single_valued (day mk) [INum (L "x") (Num 1 None); INum (L "x") (Num 6 (Some 8))] (L "x") 32 /\
  ~ single_valued (day mk) [INum (L "x") (Num 1 None); INum (L "x") (Num 6 None)] (L "x") 32.
Proof.
  split; [apply by_lex; [apply good_atoks|vm_compute; reflexivity]|]. split.
  - intros x y. cbn. intros [X|[X|[]]] [Y|[Y|[]]]; congruence.
  - intro H. specialize (H 1 6). cbn in H. assert (1 = 6) by (apply H; auto). discriminate.
Qed.

(** C25 *)
Theorem C25_add_to_root : forall mktime g s q r a, (g = GateAnd \/ g = GateOr) -> plain_text s -> create_policy_tree mktime s = Ok (Some q) -> proot q = Some r ->
  is_name a = true -> tidy a = true ->
  exists q' r', add_to_root mktime g a q = Ok (Some q') /\ proot q' = Some r' /\ binary r' = true /\
    (forall held, sat held r' = match g with GateAnd => sat held r && held a | _ => sat held r || held a end).
Proof.
  intros mktime g s q r a G P E Hr N T. destruct (add_root mktime g s q r a G P E Hr N T) as (q' & r' & x & E' & Hr' & _ & B & Fx & Sx).
  exists q', (Gate g [r'; x]). split; auto. split; auto. split; auto. rewrite binary_gate.
  assert (binary x = true) as -> by (destruct x as [[] k pr la i ks]; cbn in Fx; try discriminate; reflexivity).
  destruct G as [-> | ->]; rewrite B; reflexivity.
Qed.
Print Assumptions C25_add_to_root.
(** Not for texts with an operator: "a" and then AND "x or y". *)
Theorem C25_operator_refuted : exists mktime q r q' r' x qx rx h, create_policy_tree mktime (L "a") = Ok (Some q) /\ proot q = Some r /\
  create_policy_tree mktime x = Ok (Some qx) /\ proot qx = Some rx /\
  add_to_root mktime GateAnd x q = Ok (Some q') /\ proot q' = Some r' /\ sat h r' = true /\ sat h r && sat h rx = false.
Proof.
  exists mk. eexists _, _, _, _, (L "x or y"), _, _, (match_attribute [L "y"]). split; [vm_compute; reflexivity|]. split; [reflexivity|]. split; [vm_compute; reflexivity|].
  split; [reflexivity|]. split; [vm_compute; reflexivity|]. split; [reflexivity|]. split; vm_compute; reflexivity.
Qed.
Print Assumptions C25_operator_refuted.
Example C25_nonvacuous : exists q r, plain_text (L "a or b") /\ create_policy_tree mk (L "a or b") = Ok (Some q) /\ proot q = Some r /\
  is_name (L "c:d") = true /\ tidy (L "c:d") = true /\
  match add_to_root mk GateAnd (L "c:d") q with Ok (Some q') => ptext q' = L "(a or b) and c:d" | _ => False end.
Proof.
  eexists _, _. split; [intros c H; cbn in H; intuition (subst; reflexivity)|]. split; [vm_compute; reflexivity|]. split; [reflexivity|]. vm_compute. auto.
Qed.

(** C63: comparing attribute lists never tells them apart. *)
Lemma set_difference_length : forall f a b, (length (set_difference f a b) <= length a)%nat.
Proof.
  induction f as [|f IH]; intros a b; cbn; [lia|]. destruct a as [|x a]; [cbn; lia|]. destruct b as [|y b]; [cbn; lia|].
  destruct (str_ltb x y); [cbn; specialize (IH a (y :: b)); lia|]. destruct (str_ltb y x); [specialize (IH (x :: a) b); cbn in *; lia|specialize (IH a b); cbn in *; lia].
Qed.
Theorem C63_always_equal : forall this z,
  (aattrs this <> [] -> list_is_equal this z = Ok true) /\ (aattrs this = [] -> list_is_equal this z = UB).
Proof.
  intros this z. unfold list_is_equal. set (n := (length (aattrs z) + length (aattrs this))%nat). pose proof (set_difference_length n (aattrs z) (aattrs this)) as H.
  split; intro E.
  - set (out := set_difference n (aattrs z) (aattrs this)) in *. assert (length out < n)%nat as B by (destruct (aattrs this); [congruence|cbn in n; lia]).
    rewrite nth_error_app2, Nat.sub_diag by lia. destruct (n - length out)%nat eqn:X; [lia|]. reflexivity.
  - assert (n = length (aattrs z)) as En by (unfold n; rewrite E; cbn; lia). clearbody n. rewrite E in *.
    assert (set_difference n (aattrs z) [] = aattrs z) as Z by (rewrite En; destruct (aattrs z); reflexivity).
    rewrite Z. replace (n - length (aattrs z))%nat with 0%nat by lia. cbn [repeat]. rewrite app_nil_r. destruct (nth_error (aattrs z) (length (aattrs z))) eqn:X; auto.
    assert (nth_error (aattrs z) (length (aattrs z)) <> None) as Y by congruence. apply nth_error_Some in Y. lia.
Qed.
Print Assumptions C63_always_equal.
Theorem C63_list_equality_refuted : exists mktime l l', create_attribute_list mktime (L "a") = Ok (Some l) /\ create_attribute_list mktime (L "b") = Ok (Some l') /\
  list_is_equal l l' = Ok true.
Proof. exists mk. eexists _, _. split; [vm_compute; reflexivity|]. split; [vm_compute; reflexivity|]. vm_compute. reflexivity. Qed.
Print Assumptions C63_list_equality_refuted.

(** C26-C28, C30 from texts *)
Theorem C26_from_texts : forall mktime p sort e s a t secret tape off,
  prime p -> (forall l, Permutation (sort l) l) ->
  text_of (ptoks e) s -> well e = true -> nums_ok e = true -> dates_ok (day mktime) (last_day mktime) e = true ->
  tidy_names e = true -> no_percent_names e = true ->
  text_of (atoks a) t -> (atrail a <= 1)%nat -> items_ok (aitems a) = true ->
  (forall c b, In (c, b) (compared e) -> single_valued (day mktime) (aitems a) c b) -> 0 <= secret < p ->
  exists q l, create_policy_tree mktime s = Ok (Some q) /\ create_attribute_list mktime t = Ok (Some l) /\
    if truth (day mktime) (last_day mktime) (plain (aitems a)) (value (day mktime) (aitems a)) e
    then exists sh off' co st', share_secret false p lsss_new q secret tape off = Ok (sh, off') /\
           recover_coefficients sort (aattrs l) false p lsss_new q fresh = Ok (true, co, st') /\
           test_secret_recovery p (l_rows co) (l_rows sh) = secret
    else exists co st', recover_coefficients sort (aattrs l) false p lsss_new q fresh = Ok (false, co, st') /\ l_rows co = [].
Proof.
  intros mktime p sort e s a t secret tape off Pp Ps Ts W N D Ty Np Tt Tr Ki Sv Hs.
  destruct (C18_policy_meaning mktime e s a t Ts W N D Ty Tt Tr Ki Sv) as (q & r & l & E1 & E2 & E3 & E4).
  exists q, l. split; auto. split; auto. rewrite <- E4.
  destruct (policy_ready mktime s q E1) as (e' & r' & R' & W' & _ & _ & Hr & B & _ & I1 & I2). rewrite E2 in Hr. injection Hr as <-.
  assert (e' = e) as -> by (eapply reads_unique; eauto using text_reads). destruct (binary_and_or r B) as [Ba Bb].
  destruct (sat (match_attribute (aattrs l)) r) eqn:X.
  - destruct (secret_recovered_lemma p sort (aattrs l) q r secret tape off fresh) as (sh & off' & co & st' & A1 & A2 & A3 & _); auto using clean_fresh.
    + apply I1, Ty.
    + exists sh, off', co, st'. auto.
  - destruct (recover_iff_lemma p sort (aattrs l) lsss_new q r fresh Ps E2 Ba (clean_fresh r)) as (co & st' & A1 & A2). rewrite X in *. exists co, st'. auto.
Qed.
Print Assumptions C26_from_texts.
Theorem C28_from_texts : forall mktime p e s a t secret secret',
  prime p -> 2 < p -> text_of (ptoks e) s -> well e = true -> nums_ok e = true -> dates_ok (day mktime) (last_day mktime) e = true ->
  tidy_names e = true -> text_of (atoks a) t -> (atrail a <= 1)%nat -> items_ok (aitems a) = true ->
  (forall c b, In (c, b) (compared e) -> single_valued (day mktime) (aitems a) c b) ->
  truth (day mktime) (last_day mktime) (plain (aitems a)) (value (day mktime) (aitems a)) e = false ->
  exists q l r, create_policy_tree mktime s = Ok (Some q) /\ create_attribute_list mktime t = Ok (Some l) /\ proot q = Some r /\
    Permutation (map (view p (match_attribute (aattrs l)) q secret) (vecs p (ndraws r)))
                (map (view p (match_attribute (aattrs l)) q secret') (vecs p (ndraws r))).
Proof.
  intros mktime p e s a t secret secret' Pp P2 Ts W N D Ty Tt Tr Ki Sv F.
  destruct (C18_policy_meaning mktime e s a t Ts W N D Ty Tt Tr Ki Sv) as (q & r & l & E1 & E2 & E3 & E4).
  exists q, l, r. split; auto. split; auto. split; auto.
  destruct (policy_ready mktime s q E1) as (e' & r' & R' & W' & _ & _ & Hr & B & _). rewrite E2 in Hr. injection Hr as <-.
  destruct (binary_and_or r B) as [Ba _]. apply privacy_lemma; auto; [apply and_or_shareable; auto|apply binary_fanout; auto|congruence].
Qed.
Print Assumptions C28_from_texts.
Theorem C30_from_text : forall mktime p e s secret tape off,
  text_of (ptoks e) s -> well e = true -> nums_ok e = true -> dates_ok (day mktime) (last_day mktime) e = true ->
  tidy_names e = true -> no_percent_names e = true ->
  exists q r sh off', create_policy_tree mktime s = Ok (Some q) /\ proot q = Some r /\
    share_secret false p lsss_new q secret tape off = Ok (sh, off') /\ length (l_rows sh) = length (leaves r).
Proof.
  intros mktime p e s secret tape off Ts W N D Ty Np.
  destruct (reads_accepted mktime s e (text_reads _ _ Ts) W N D) as (q & r & E & Hr & B & _).
  destruct (policy_ready mktime s q E) as (e' & r' & R' & W' & _ & _ & Hr' & _ & _ & I1 & I2). rewrite Hr in Hr'. injection Hr' as <-.
  assert (e' = e) as -> by (eapply reads_unique; eauto using text_reads). destruct (binary_and_or r B) as [Ba _].
  destruct (one_row_lemma p q r secret tape off) as (sh & off' & A1 & A2 & _); auto using and_or_shareable; [apply I1, Ty|]. exists q, r, sh, off'. auto.
Qed.
Print Assumptions C30_from_text.
(** Names with an empty part between colons collide: the policy is satisfied, yet
    recovery yields another value than the secret. *)
Theorem C26_colons_refuted : exists mktime q r l sh off co st,
  create_policy_tree mktime (L "a::b and a:b") = Ok (Some q) /\ proot q = Some r /\ create_attribute_list mktime (L "a:b") = Ok (Some l) /\
  sat (match_attribute (aattrs l)) r = true /\
  share_secret false 13 lsss_new q 7 ex_tape 0 = Ok (sh, off) /\ length (l_rows sh) <> length (leaves r) /\
  recover_coefficients isort (aattrs l) false 13 lsss_new q fresh = Ok (true, co, st) /\
  test_secret_recovery 13 (l_rows co) (l_rows sh) <> 7.
Proof.
  exists mk. eexists _, _, _, _, _, _, _. split; [vm_compute; reflexivity|]. split; [reflexivity|]. split; [vm_compute; reflexivity|]. split; [vm_compute; reflexivity|].
  split; [vm_compute; reflexivity|]. split; [vm_compute; discriminate|]. split; [vm_compute; reflexivity|]. vm_compute. discriminate.
Qed.
Print Assumptions C26_colons_refuted.
Example C26_texts_nonvacuous : no_percent_names ex_exp = true /\ prime 13 /\
  truth (day mk) (last_day mk) (plain (aitems ex_items)) (value (day mk) (aitems ex_items)) ex_exp = true /\
  truth (day mk) (last_day mk) (plain [IName (L "b")]) (value (day mk) [IName (L "b")]) ex_exp = false.
Proof. split; [reflexivity|]. split; [exact prime_13|]. split; vm_compute; reflexivity. Qed.
