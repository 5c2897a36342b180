(** C35-C38 and C90-C95: the attribute-based encryption contexts. *)
From Verif Require Import Base ByteString StrMap Dec UInteger Policy Lsss LsssSpec LsssFinal LsssRecover LsssProofs LsssShare Scanner Grammar PolicySyntax Lexical PolicyMeaning AttrMeaning Driver Parser AttrList ParserSound ParserRun ParserTop ScannerProofs ParserFinal AttrUse PolicyUse PrintParse ListText TextUse Calendar DateProofs NumProofs NumTree PolicyTruth ParserSafe CreatePolicy CreateAttrs Field PropField PropLsss PropParser Utils Kdf PropUtil Container ContainerSpec ContainerProofs Keystore Scheme SchemeSpec SchemeRows SchemeStep SchemeCp SchemeKp SchemeFrame SchemeUse SchemeSession SchemeToy.
From Coq Require Import ZArith Znumtheory List Ascii Bool Lia Permutation.
Import ListNotations.
Open Scope Z_scope.

(** What decrypt hands over: the plaintext, or the code for a failed decryption
    (OpenABE_ERROR_DECRYPTION_FAILED = 32) and an empty buffer. *)
Definition handed (authorised : bool) (pt : str) : res (Z * str) := if authorised then Ok (0, pt) else Ok (32, []).

(** What a policy text says of a list text. *)
Definition authorised mktime (e : pexp) (a : alist) : bool :=
  truth (day mktime) (last_day mktime) (plain (aitems a)) (value (day mktime) (aitems a)) e.
(** The texts a caller may write: a sentence of the policy language whose names
    survive printing, and a list that gives each compared attribute one value. *)
Record texts mktime (e : pexp) (s : str) (a : alist) (t : str) : Prop := {
  tx_policy : text_of (ptoks e) s;
  tx_well : well e = true;
  tx_tidy : tidy_names e = true;
  tx_percent : no_percent_names e = true;
  tx_list : text_of (atoks a) t;
  tx_single : forall c b, In (c, b) (compared e) -> single_valued (day mktime) (aitems a) c b
}.
Lemma texts_usable : forall E e s a t q l, texts (e_mktime E) e s a t ->
  create_policy_tree (e_mktime E) s = Ok (Some q) -> create_attribute_list (e_mktime E) t = Ok (Some l) ->
  exists r, usable E q r /\ sat (match_attribute (aattrs l)) r = authorised (e_mktime E) e a.
Proof.
  intros E e s a t q l T Hq Hl. destruct T as [Tp W Ty Np (b & B & Tt) Sv]. assert (reads e s) as R by (apply text_reads; exact Tp).
  destruct (usable_from_text E s q e Hq R W Ty Np) as (r & U). exists r. split; [exact U|].
  destruct (texts_truth (e_mktime E) s q t l Hq Hl) as (e' & a' & r' & R' & W' & At' & Hr' & X).
  destruct U as (Hr & _). rewrite Hr in Hr'. injection Hr' as <-.
  assert (e' = e) as -> by (eapply reads_unique; eauto).
  assert (attr_text a t) as At by (exists b; split; [exact Tt|left; exact B]).
  destruct (attr_text_unique _ _ _ At' At) as [Ei _]. rewrite Ei in X. apply X; assumption.
Qed.

(** * C35 *)
(** For every policy text and list text, all randomness and every history that
    leaves the keys in place: the calls succeed, and decrypt returns the plaintext
    exactly when the policy holds of the list. *)
Theorem C35_cp_round_trip : forall E e s a t q l pt rk re out, lawful E -> texts (e_mktime E) e s a t ->
  create_policy_tree (e_mktime E) s = Ok (Some q) -> create_attribute_list (e_mktime E) t = Ok (Some l) ->
  no_collision (short_label E) (aattrs l) -> no_collision (short_label E) (row_names q) -> len pt < 2147483616 ->
  session E CP (InAttrs l) (InPolicy q) pt rk re out ->
  rk = Ok 0 /\ re = Ok 0 /\ out = handed (authorised (e_mktime E) e a) pt.
Proof.
  intros E e s a t q l pt rk re out HE T Hq Hl N1 N2 Hp H. destruct (texts_usable E e s a t q l T Hq Hl) as (r & U & Sa).
  destruct (cp_session E HE q r l pt rk re out U N1 N2 Hp H) as (A & B & C). split; [exact A|]. split; [exact B|]. rewrite C, Sa. unfold verdict, handed. destruct (authorised _ e a); reflexivity.
Qed.
Print Assumptions C35_cp_round_trip.
(** Short names never collide. *)
Theorem C35_short_names : forall E l, (forall a, In a l -> len a <= 16) -> no_collision (short_label E) l.
Proof. exact short_names. Qed.
Print Assumptions C35_short_names.

(** * C37 *)
Theorem C37_kp_round_trip : forall E e s a t q l pt rk re out, lawful E -> texts (e_mktime E) e s a t ->
  create_policy_tree (e_mktime E) s = Ok (Some q) -> create_attribute_list (e_mktime E) t = Ok (Some l) ->
  no_collision (short_label E) (aattrs l) -> no_collision (short_label E) (row_names q) -> len pt < 2147483616 ->
  session E KP (InPolicy q) (InAttrs l) pt rk re out ->
  rk = Ok 0 /\ re = Ok 0 /\ out = handed (authorised (e_mktime E) e a) pt.
Proof.
  intros E e s a t q l pt rk re out HE T Hq Hl N1 N2 Hp H. destruct (texts_usable E e s a t q l T Hq Hl) as (r & U & Sa).
  destruct (kp_session E HE q r l pt rk re out U N1 N2 Hp H) as (A & B & C). split; [exact A|]. split; [exact B|]. rewrite C, Sa. unfold verdict, handed. destruct (authorised _ e a); reflexivity.
Qed.
Print Assumptions C37_kp_round_trip.

(** Playing a session on the toy groups, with other calls in between. *)
Section Play.
Context (E : engine) (sch : scheme) (kinp einp : input) (pt : str).
Definition bob_key : request E := RKeygen E kinp (L "bob") (L "mpk") (L "msk").
Definition w_params := fst (generate_params E sch (L "mpk") (L "msk") (start E (new_store, 0%nat) (no_ct E))).
Definition w_bob := fst (keygen E sch kinp (L "bob") (L "mpk") (L "msk") (start E (left_by E w_params) (no_ct E))).
Definition w_alice := fst (keygen E sch kinp (L "alice") (L "mpk") (L "msk") (start E (left_by E w_bob) (no_ct E))).
Definition w_enc := fst (encrypt E sch (L "mpk") einp pt (start E (left_by E w_alice) (no_ct E))).
Definition w_gone := fst (drop_key E (L "msk") (start E (left_by E w_enc) (no_ct E))).
Definition played : bool :=
  match snd (generate_params E sch (L "mpk") (L "msk") (start E (new_store, 0%nat) (no_ct E))),
        snd (keygen E sch kinp (L "bob") (L "mpk") (L "msk") (start E (left_by E w_params) (no_ct E))) with
  | Ok 0, Ok 0 => true | _, _ => false end.
Lemma play : played = true -> session E sch kinp einp pt
   (snd (keygen E sch kinp (L "alice") (L "mpk") (L "msk") (start E (left_by E w_bob) (no_ct E))))
   (snd (encrypt E sch (L "mpk") einp pt (start E (left_by E w_alice) (no_ct E))))
   (snd (decrypt E sch [] (L "alice") (start E (left_by E w_gone) (w_ct E w_enc)))).
Proof.
  unfold played. intro H. destruct (snd (generate_params _ _ _ _ _)) as [[| |]| | | |] eqn:E1; try discriminate.
  destruct (snd (keygen E sch kinp (L "bob") (L "mpk") (L "msk") (start E (left_by E w_params) (no_ct E)))) as [[| |]| | | |] eqn:E2; try discriminate.
  eapply (key_first E sch kinp einp pt _ _ _ (L "mpk") (L "msk") (L "alice") [] (new_store, 0%nat) w_params [bob_key] (left_by E w_bob) w_alice [] (left_by E w_alice) (no_ct E) w_enc [RDelete E (L "msk")] (left_by E w_gone)).
  - unfold w_params. rewrite <- E1. apply surjective_pairing.
  - eapply h_cons; [|apply h_nil]. exists w_bob, (Ok 0). split; [unfold w_bob; rewrite <- E2; apply surjective_pairing|]. split; [exact I|reflexivity].
  - intros r [<-|[]] [C _]. discriminate.
  - intros r [<-|[]] [_ C]. discriminate.
  - apply surjective_pairing.
  - apply h_nil.
  - intros r [].
  - intros r [].
  - apply surjective_pairing.
  - eapply h_cons; [|apply h_nil]. exists w_gone, (snd (drop_key E (L "msk") (start E (left_by E w_enc) (no_ct E)))). split; [apply surjective_pairing|]. split; [|reflexivity].
    unfold drop_key. destruct (delete_key _ _) as [[s k] c]. exact I.
  - intros r [<-|[]] C. discriminate.
  - apply surjective_pairing.
Qed.
End Play.
Definition run_text (E : engine) (sch : scheme) (s t pt : str) : option (res (Z * str)) :=
  match create_policy_tree (e_mktime E) s, create_attribute_list (e_mktime E) t with
  | Ok (Some q), Ok (Some l) =>
      let '(ki, ei) := match sch with CP => (InAttrs l, InPolicy q) | KP => (InPolicy q, InAttrs l) end in
      if played E sch ki then Some (snd (decrypt E sch [] (L "alice") (start E (left_by E (w_gone E sch ki ei pt)) (w_ct E (w_enc E sch ki ei pt))))) else None
  | _, _ => None
  end.
Definition ex_sentence : pexp := EOr (EPar (EAnd (EAttr (L "a")) (EAttr (L "b")))) (EPar (EAnd (EAttr (L "c")) (ECmp RGt (L "age") (Num 5 (Some 8))))).
Definition ex_text := L "(a and b) or (c and age > 5#8)".
Definition ex_list (n : Z) : alist := AMore 0 (IName (L "c")) (AMore 0 (INum (L "age") (Num n (Some 8))) (AOne 0 (IName (L "d")) 0)).
Definition parsed_policy (s : str) : policy := match create_policy_tree mk s with Ok (Some q) => q | _ => pol (lf "" 0) false [] end.
Definition parsed_list (t : str) : attrlist := match create_attribute_list mk t with Ok (Some l) => l | _ => {| aattrs := []; aorig := []; aprefix := [] |} end.

Lemma no_collision_by : forall f l, forallb (fun a => forallb (fun b => implb (str_eqb (f a) (f b)) (str_eqb a b)) l) l = true -> no_collision f l.
Proof.
  intros f l H a b Ia Ib X. rewrite forallb_forall in H. specialize (H a Ia). rewrite forallb_forall in H. specialize (H b Ib).
  rewrite X, str_eqb_refl in H. apply str_eqb_eq. exact H.
Qed.
Ltac no_names := apply no_collision_by; vm_compute; reflexivity.
Example C35_nonvacuous : forall sch n, In n [17; 4] ->
  let s := ex_text in let t := L "c|age=" ++ (if n =? 17 then L "17" else L "4") ++ L "#8|d" in
  let q := parsed_policy s in let l := parsed_list t in
  texts mk ex_sentence s (ex_list n) t /\
  create_policy_tree mk s = Ok (Some q) /\ create_attribute_list mk t = Ok (Some l) /\
  no_collision (short_label toy_engine) (aattrs l) /\ no_collision (short_label toy_engine) (row_names q) /\
  authorised mk ex_sentence (ex_list n) = (n =? 17) /\
  exists rk re, session toy_engine sch (match sch with CP => InAttrs l | KP => InPolicy q end) (match sch with CP => InPolicy q | KP => InAttrs l end) (L "hello") rk re
    (if n =? 17 then Ok (0, L "hello") else Ok (32, [])).
Proof.
  intros sch n Hn s t q l. split.
  { split; try (vm_compute; reflexivity).
    - apply by_lex; [apply good_ptoks|vm_compute; reflexivity].
    - destruct Hn as [<-|[<-|[]]]; (apply by_lex; [apply good_atoks|vm_compute; reflexivity]).
    - destruct Hn as [<-|[<-|[]]]; (intros c b _ x y; cbn; intros [X|[]] [Y|[]]; congruence). }
  split; [vm_compute; reflexivity|].
  split; [destruct Hn as [<-|[<-|[]]]; vm_compute; reflexivity|].
  split; [destruct Hn as [<-|[<-|[]]]; no_names|].
  split; [no_names|].
  split; [destruct Hn as [<-|[<-|[]]]; vm_compute; reflexivity|].
  do 2 eexists.
  replace (if n =? 17 then Ok (0, L "hello") else Ok (32, [])) with
    (snd (decrypt toy_engine sch [] (L "alice") (start toy_engine (left_by toy_engine (w_gone toy_engine sch (match sch with CP => InAttrs l | KP => InPolicy q end) (match sch with CP => InPolicy q | KP => InAttrs l end) (L "hello"))) (w_ct toy_engine (w_enc toy_engine sch (match sch with CP => InAttrs l | KP => InPolicy q end) (match sch with CP => InPolicy q | KP => InAttrs l end) (L "hello"))))))
    by (destruct Hn as [<-|[<-|[]]]; destruct sch; vm_compute; reflexivity).
  apply play. destruct Hn as [<-|[<-|[]]]; destruct sch; vm_compute; reflexivity.
Qed.

(** The condition on the short forms cannot be dropped: an attribute named like the
    short form of another replaces its component, and decrypt returns code 0 with
    another text although the policy holds. *)
Definition long_name := L "department_of_physics".
Definition long_list : alist := AMore 0 (IName long_name) (AOne 0 (IName (L "d9c9cfd9dfced6c5")) 0).
Definition clash (sch : scheme) : Prop :=
  exists e s a t q l pt pt', texts mk e s a t /\ create_policy_tree mk s = Ok (Some q) /\ create_attribute_list mk t = Ok (Some l) /\
    authorised mk e a = true /\ len pt < 2147483616 /\
    session toy_engine sch (match sch with CP => InAttrs l | KP => InPolicy q end) (match sch with CP => InPolicy q | KP => InAttrs l end) pt (Ok 0) (Ok 0) (Ok (0, pt')) /\ pt' <> pt.
Lemma clash_all : forall sch, clash sch.
Proof.
  intro sch. pose (s := long_name). pose (t := L "department_of_physics|d9c9cfd9dfced6c5"). pose (q := parsed_policy s). pose (l := parsed_list t).
  pose (ki := match sch with CP => InAttrs l | KP => InPolicy q end). pose (ei := match sch with CP => InPolicy q | KP => InAttrs l end).
  pose (out := snd (decrypt toy_engine sch [] (L "alice") (start toy_engine (left_by toy_engine (w_gone toy_engine sch ki ei (L "hello"))) (w_ct toy_engine (w_enc toy_engine sch ki ei (L "hello")))))).
  exists (EAttr long_name), s, long_list, t, q, l, (L "hello"), (match out with Ok (_, p) => p | _ => [] end).
  split.
  { split; try (vm_compute; reflexivity).
    - apply by_lex; [apply good_ptoks|vm_compute; reflexivity].
    - apply by_lex; [apply good_atoks|vm_compute; reflexivity].
    - intros c b []. }
  split; [vm_compute; reflexivity|]. split; [vm_compute; reflexivity|]. split; [vm_compute; reflexivity|]. split; [vm_compute; reflexivity|].
  split; [|destruct sch; vm_compute; discriminate].
  replace (Ok (0, match out with Ok (_, p) => p | _ => [] end)) with out by (destruct sch; vm_compute; reflexivity).
  assert (snd (keygen toy_engine sch ki (L "alice") (L "mpk") (L "msk") (start toy_engine (left_by toy_engine (w_bob toy_engine sch ki)) (no_ct toy_engine))) = Ok 0) as Ek by (destruct sch; vm_compute; reflexivity).
  assert (snd (encrypt toy_engine sch (L "mpk") ei (L "hello") (start toy_engine (left_by toy_engine (w_alice toy_engine sch ki)) (no_ct toy_engine))) = Ok 0) as Ee by (destruct sch; vm_compute; reflexivity).
  rewrite <- Ek at 1. rewrite <- Ee. apply play. destruct sch; vm_compute; reflexivity.
Qed.
Theorem C35_any_names_refuted : clash CP.
Proof. exact (clash_all CP). Qed.
Print Assumptions C35_any_names_refuted.
Theorem C37_any_names_refuted : clash KP.
Proof. exact (clash_all KP). Qed.
Print Assumptions C37_any_names_refuted.

(** * C36, C38 *)
(** The policy and the list that a decryption is about: for CP the ciphertext
    holds the policy text and the key the list; for KP the other way round. *)
Definition about E (sch : scheme) (kid : str) (w : world E) (s : str) (l : attrlist) : Prop :=
  exists k, mget kid (sec_keys (w_store E w)) = Some (Some k) /\
    match sch with
    | CP => mget (L "input") (k_parts k) = Some (Some (OAttrs l)) /\ mget (L "policy") (ct_parts (w_ct E w)) = Some (Some (OBytes s))
    | KP => mget (L "input") (k_parts k) = Some (Some (OBytes s)) /\ mget (L "attributes") (ct_parts (w_ct E w)) = Some (Some (OAttrs l))
    end.
Lemma about_ready : forall E sch kid w s l, about E sch kid w s l <-> decrypt_ready E sch kid w s l.
Proof.
  intros E sch kid w s l. unfold about, decrypt_ready, holds, part. cbn [class_map]. destruct sch.
  - split; [intros (k & A & B & C)|intros [(k & A & B) C]]; eauto 6.
  - split; [intros (k & A & B & C)|intros [(k & A & B) C]]; eauto 6.
Qed.
(** The two texts by themselves: parsed, and the policy false of the list. *)
Definition refused mktime (s : str) (l : attrlist) : Prop :=
  exists e t a, texts mktime e s a t /\ create_attribute_list mktime t = Ok (Some l) /\ authorised mktime e a = false /\
    exists q, create_policy_tree mktime s = Ok (Some q).
Definition unsatisfied mktime (s : str) (l : attrlist) : Prop :=
  exists q r, create_policy_tree mktime s = Ok (Some q) /\ proot q = Some r /\ sat (match_attribute (aattrs l)) r = false.
Lemma refused_unsatisfied : forall E s l, refused (e_mktime E) s l -> unsatisfied (e_mktime E) s l.
Proof.
  intros E s l (e & t & a & T & Hl & Au & q & Hq). destruct (texts_usable E e s a t q l T Hq Hl) as (r & U & Sa). exists q, r. split; [exact Hq|]. split; [apply U|]. congruence.
Qed.
Lemma denial : forall E sch mpk kid w s l, lawful E -> about E sch kid w s l -> unsatisfied (e_mktime E) s l ->
  exists w', decrypt E sch mpk kid w = (w', Ok (32, [])) /\ w_store E w' = w_store E w /\ w_ct E w' = w_ct E w.
Proof.
  intros E sch mpk kid w s l HE A (q & r & Hq & Hr & Hs). apply about_ready in A. exists (set_sym E w []). split; [|split; reflexivity].
  eapply denied; eauto using law_sort.
Qed.
(** Whatever else the key and the ciphertext hold: code 32, an empty plaintext,
    and neither the context nor the ciphertext changes. *)
Theorem C36_refused : forall E mpk kid w s l, lawful E -> about E CP kid w s l -> unsatisfied (e_mktime E) s l ->
  exists w', decrypt E CP mpk kid w = (w', Ok (32, [])) /\ w_store E w' = w_store E w /\ w_ct E w' = w_ct E w.
Proof. intros E mpk kid w s l. apply denial. Qed.
Print Assumptions C36_refused.
(** In particular for a policy text and list text as written by the callers. *)
Theorem C36_refused_texts : forall E mpk kid w s l, lawful E -> about E CP kid w s l -> refused (e_mktime E) s l ->
  exists w', decrypt E CP mpk kid w = (w', Ok (32, [])).
Proof. intros E mpk kid w s l HE A R. destruct (denial E CP mpk kid w s l HE A (refused_unsatisfied E s l R)) as (w' & H & _). eauto. Qed.
Print Assumptions C36_refused_texts.
(** A plaintext is only ever returned with code 0, and code 0 only when the policy
    is satisfied, whatever the key and the ciphertext hold. *)
Theorem C36_authorised_only : forall E mpk kid w w' c pt, lawful E -> decrypt E CP mpk kid w = (w', Ok (c, pt)) ->
  (c <> 0 -> pt = []) /\
  (c = 0 -> exists s l q r, about E CP kid w s l /\ create_policy_tree (e_mktime E) s = Ok (Some q) /\ proot q = Some r /\ sat (match_attribute (aattrs l)) r = true).
Proof.
  intros E mpk kid w w' c pt HE H. split; [intro N; eapply decrypt_empty; eauto|]. intros ->.
  destruct (allowed E (law_sort E HE) CP mpk kid w w' pt H) as (s & l & q & r & D & R). exists s, l, q, r. split; [apply about_ready; exact D|exact R].
Qed.
Print Assumptions C36_authorised_only.
Theorem C38_refused : forall E mpk kid w s l, lawful E -> about E KP kid w s l -> unsatisfied (e_mktime E) s l ->
  exists w', decrypt E KP mpk kid w = (w', Ok (32, [])) /\ w_store E w' = w_store E w /\ w_ct E w' = w_ct E w.
Proof. intros E mpk kid w s l. apply denial. Qed.
Print Assumptions C38_refused.
Theorem C38_refused_texts : forall E mpk kid w s l, lawful E -> about E KP kid w s l -> refused (e_mktime E) s l ->
  exists w', decrypt E KP mpk kid w = (w', Ok (32, [])).
Proof. intros E mpk kid w s l HE A R. destruct (denial E KP mpk kid w s l HE A (refused_unsatisfied E s l R)) as (w' & H & _). eauto. Qed.
Print Assumptions C38_refused_texts.
Theorem C38_authorised_only : forall E mpk kid w w' c pt, lawful E -> decrypt E KP mpk kid w = (w', Ok (c, pt)) ->
  (c <> 0 -> pt = []) /\
  (c = 0 -> exists s l q r, about E KP kid w s l /\ create_policy_tree (e_mktime E) s = Ok (Some q) /\ proot q = Some r /\ sat (match_attribute (aattrs l)) r = true).
Proof.
  intros E mpk kid w w' c pt HE H. split; [intro N; eapply decrypt_empty; eauto|]. intros ->.
  destruct (allowed E (law_sort E HE) KP mpk kid w w' pt H) as (s & l & q & r & D & R). exists s, l, q, r. split; [apply about_ready; exact D|exact R].
Qed.
Print Assumptions C38_authorised_only.
Lemma about_by : forall E sch kid w s l,
  match mget kid (sec_keys (w_store E w)) with
  | Some (Some k) => match sch, mget (L "input") (k_parts k), mget (L "policy") (ct_parts (w_ct E w)), mget (L "attributes") (ct_parts (w_ct E w)) with
      | CP, Some (Some (OAttrs l')), Some (Some (OBytes s)), _ => Some (s, l')
      | KP, Some (Some (OBytes s)), _, Some (Some (OAttrs l')) => Some (s, l')
      | _, _, _, _ => None end
  | _ => None end = Some (s, l) -> about E sch kid w s l.
Proof.
  intros E sch kid w s l H. unfold about. destruct (mget kid _) as [[k|]|]; try discriminate. exists k. split; [reflexivity|].
  destruct sch, (mget (L "input") _) as [[[]|]|]; try discriminate.
  - destruct (mget (L "policy") _) as [[[]|]|]; try discriminate. injection H as -> ->. auto.
  - destruct (mget (L "attributes") _) as [[[]|]|]; try discriminate; injection H as -> ->; auto.
Qed.
Example C36_nonvacuous : forall sch, let q := parsed_policy ex_text in let l := parsed_list (L "c|age=4#8|d") in
  let ki := match sch with CP => InAttrs l | KP => InPolicy q end in let ei := match sch with CP => InPolicy q | KP => InAttrs l end in
  about toy_engine sch (L "alice") (w_enc toy_engine sch ki ei (L "hello")) (match sch with CP => ptext q | KP => ptext q end) l /\
  refused mk ex_text l /\ unsatisfied mk (ptext q) l.
Proof.
  intros sch q l ki ei. split; [|split].
  - apply about_by. destruct sch; vm_compute; reflexivity.
  - exists ex_sentence, (L "c|age=4#8|d"), (ex_list 4). destruct (C35_nonvacuous CP 4) as (T & Hq & Hl & _ & _ & Au & _); [right; left; reflexivity|]. split; [exact T|]. split; [exact Hl|]. split; [exact Au|]. eauto.
  - exists q. unfold q. eexists. split; [vm_compute; reflexivity|]. split; vm_compute; reflexivity.
Qed.
