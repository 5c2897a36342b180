(** C100: users who put their keys together. *)
From Verif Require Import Base ByteString StrMap Dec UInteger Policy Lsss LsssSpec LsssFinal LsssRecover LsssProofs LsssShare Scanner Grammar PolicySyntax Lexical PolicyMeaning AttrMeaning Driver Parser AttrList ParserSound ParserRun ParserTop ScannerProofs ParserFinal AttrUse PolicyUse PrintParse ListText TextUse Calendar DateProofs NumProofs NumTree PolicyTruth ParserSafe CreatePolicy CreateAttrs Field PropField PropLsss PropParser Utils Kdf PropUtil Container ContainerSpec ContainerProofs Keystore Scheme SchemeSpec SchemeRows SchemeStep SchemeCp SchemeKp SchemeFrame SchemeUse SchemeSession SchemeToy PropScheme CollusionSpec CollusionShape CollusionCp CollusionCpCut CollusionKp CollusionKpCut CollusionReach.
From Coq Require Import ZArith Znumtheory List Ascii Bool Lia Permutation.
Import ListNotations.
Open Scope Z_scope.

(** The attributes a policy asks for. *)
Definition asked_names (q : policy) : list str := match proot q with Some r => map complete_label (leaves r) | None => [] end.
(** The points for these names are told apart, whatever prefix was drawn. *)
Definition told_apart (E : engine) (names : list str) : Prop := forall i, no_collision (fun a => e_hash E (e_bytes E i 32 ++ a)) names.
(** A member of the coalition who may not read the ciphertext. *)
Definition outsider_list (E : engine) (e : pexp) (s : str) (l : attrlist) : Prop :=
  exists a t, texts (e_mktime E) e s a t /\ create_attribute_list (e_mktime E) t = Ok (Some l) /\ authorised (e_mktime E) e a = false.
Definition outsider_policy (E : engine) (a : alist) (t : str) (q : policy) : Prop :=
  exists e s, texts (e_mktime E) e s a t /\ create_policy_tree (e_mktime E) s = Ok (Some q) /\ authorised (e_mktime E) e a = false.

(** * C100 *)
(** However many users put their keys together: if the policy holds of none of their
    lists, no fixed computation with pairings and powers on their keys, the public
    parameters, the ciphertext and hashed points gives the element the ciphertext is
    sealed with for every choice of the random exponents. *)
Theorem C100_cp_collusion : forall E e s q users mpk msk pt x0 w attack, lawful E -> nondegenerate E -> 2 < order (e_curve E) ->
  create_policy_tree (e_mktime E) s = Ok (Some q) ->
  (forall id l, In (id, l) users -> outsider_list E e s l /\ told_apart E (aattrs l ++ asked_names q)) ->
  NoDup (map fst users) -> ~ In msk (map fst users) -> len pt < 2147483616 ->
  generate_params E CP mpk msk (start E x0 (no_ct E)) = (w, Ok 0) ->
  exists zp map h key C, coalition (reroll E zp map) CP mpk msk (with_lists users) (InPolicy q) pt x0 h key /\
    secret_of (reroll E zp map) CP h C /\ key = derived E C /\ outcome (reroll E zp map) h attack <> C.
Proof.
  intros E e s q users mpk msk pt x0 w attack HE Nd Ho Hq Hu ND NI Hl Hg. destruct (policy_ready (e_mktime E) s q Hq) as (e0 & r & _ & _ & _ & _ & Hr & Hb & _).
  assert (asked_names q = map complete_label (leaves r)) as An by (unfold asked_names; rewrite Hr; reflexivity).
  apply (cp_cut E HE Ho mpk msk users q r pt x0); try assumption.
  - apply (generated_free E CP) in Hg. exact Hg.
  - intros id l Iu. destruct (Hu id l Iu) as [(a & t & T & Ht & A) _]. destruct (texts_usable E e s a t q l T Hq Ht) as (r' & (R1 & _) & Sa). rewrite Hr in R1. injection R1 as <-. congruence.
  - intros id l a b Iu Ia Ib X. destruct (Hu id l Iu) as [_ Td]. rewrite An in Td. apply (Td (snd x0 + 6)%nat); [apply in_or_app; left; exact Ia|apply in_or_app; right; exact Ib|exact X].
Qed.
Print Assumptions C100_cp_collusion.
(** The same with the keys for policies and a ciphertext for a list. *)
Theorem C100_kp_collusion : forall E a t l users mpk msk pt x0 w attack, lawful E -> nondegenerate E -> 2 < order (e_curve E) ->
  create_attribute_list (e_mktime E) t = Ok (Some l) ->
  (forall id q, In (id, q) users -> outsider_policy E a t q /\ told_apart E (aattrs l ++ asked_names q)) ->
  NoDup (map fst users) -> ~ In msk (map fst users) -> len pt < 2147483616 ->
  generate_params E KP mpk msk (start E x0 (no_ct E)) = (w, Ok 0) ->
  exists zp map h key C, coalition (reroll E zp map) KP mpk msk (with_policies users) (InAttrs l) pt x0 h key /\
    secret_of (reroll E zp map) KP h C /\ key = derived E C /\ outcome (reroll E zp map) h attack <> C.
Proof.
  intros E a t l users mpk msk pt x0 w attack HE Nd Ho Ht Hu ND NI Hl Hg.
  apply (kp_cut E HE Ho mpk msk users l pt x0); try assumption.
  - apply (generated_free E KP) in Hg. exact Hg.
  - intros id q Iu. destruct (Hu id q Iu) as [(e & s & T & Hq & A) _]. destruct (texts_usable E e s a t q l T Hq Ht) as (r & (R1 & R2 & _) & Sa). exists r. split; [exact R1|]. split; [exact R2|]. congruence.
  - intros id q r x y Iu Hr Ia Ib X. destruct (Hu id q Iu) as [_ Td]. unfold asked_names in Td. rewrite Hr in Td. apply (Td (snd x0 + 5)%nat); [apply in_or_app; left; exact Ia|apply in_or_app; right; exact Ib|exact X].
Qed.
Print Assumptions C100_kp_collusion.

(** One member who may read the ciphertext is enough: some fixed computation of this
    kind gives the element for every choice. *)
Theorem C100_cp_member : forall E e s a t q l users j id mpk msk pt (x0 : context E), lawful E -> texts (e_mktime E) e s a t ->
  create_policy_tree (e_mktime E) s = Ok (Some q) -> create_attribute_list (e_mktime E) t = Ok (Some l) -> authorised (e_mktime E) e a = true ->
  nth_error users j = Some (id, l) -> no_collision (short_label E) (aattrs l) -> no_collision (short_label E) (row_names q) ->
  NoDup (map fst users) -> ~ In msk (map fst users) -> len pt < 2147483616 ->
  exists attack, forall zp map h key, coalition (reroll E zp map) CP mpk msk (with_lists users) (InPolicy q) pt x0 h key ->
    let C := outcome (reroll E zp map) h attack in secret_of (reroll E zp map) CP h C /\ key = derived E C.
Proof.
  intros E e s a t q l users j id mpk msk pt x0 HE T Hq Ht A Hj Nl Nq ND NI Hl. destruct (texts_usable E e s a t q l T Hq Ht) as (r & U & Sa). rewrite A in Sa.
  pose proof U as (R1 & R2 & R3 & R4 & R5). pose proof (prime_ge_2 _ (law_prime E HE)) as P2.
  destruct (rows_lemma (order (e_curve E)) (e_sort E) (aattrs l) q r 0 (e_zp E) 0%nat (law_prime E HE) (law_sort E HE) R1 R2 R3 R4 ltac:(lia)) as (sh & o & _ & _ & _ & Hyes & _).
  destruct (Hyes Sa) as (co & st & Er & _). exists (cp_attack E j (l_rows co)). intros zp map h key Hc.
  exact (cp_reach (reroll E zp map) (reroll_lawful E zp map HE) q r users mpk msk pt x0 h key j id l Hc U Nq ND NI Hl Hj Nl Sa co st Er).
Qed.
Print Assumptions C100_cp_member.
Theorem C100_kp_member : forall E e s a t q l users j id mpk msk pt (x0 : context E), lawful E -> texts (e_mktime E) e s a t ->
  create_policy_tree (e_mktime E) s = Ok (Some q) -> create_attribute_list (e_mktime E) t = Ok (Some l) -> authorised (e_mktime E) e a = true ->
  nth_error users j = Some (id, q) -> no_collision (short_label E) (aattrs l) ->
  (forall id q, In (id, q) users -> no_collision (short_label E) (row_names q) /\
     exists e s a, texts (e_mktime E) e s a t /\ create_policy_tree (e_mktime E) s = Ok (Some q)) ->
  NoDup (map fst users) -> ~ In msk (map fst users) -> len pt < 2147483616 ->
  exists attack, forall zp map h key, coalition (reroll E zp map) KP mpk msk (with_policies users) (InAttrs l) pt x0 h key ->
    let C := outcome (reroll E zp map) h attack in secret_of (reroll E zp map) KP h C /\ key = derived E C.
Proof.
  intros E e s a t q l users j id mpk msk pt x0 HE T Hq Ht A Hj Nl Hu ND NI Hl. destruct (texts_usable E e s a t q l T Hq Ht) as (r & U & Sa). rewrite A in Sa.
  pose proof U as (R1 & R2 & R3 & R4 & R5). pose proof (prime_ge_2 _ (law_prime E HE)) as P2.
  destruct (rows_lemma (order (e_curve E)) (e_sort E) (aattrs l) q r 0 (e_zp E) 0%nat (law_prime E HE) (law_sort E HE) R1 R2 R3 R4 ltac:(lia)) as (sh & o & _ & _ & _ & Hyes & _).
  destruct (Hyes Sa) as (co & st & Er & _). exists (kp_attack E j (l_rows co)). intros zp map h key Hc.
  assert (forall id q, In (id, q) users -> exists r, usable E q r /\ no_collision (short_label E) (row_names q)) as Hu'.
  { intros id' q' I'. destruct (Hu id' q' I') as (N' & e' & s' & a' & T' & Hq'). destruct (texts_usable E e' s' a' t q' l T' Hq' Ht) as (r' & U' & _). exists r'. split; assumption. }
  exact (kp_reach (reroll E zp map) (reroll_lawful E zp map HE) q r users mpk msk pt x0 h key j id l Hc Hu' ND NI Hl Hj U Nl Sa co st Er).
Qed.
Print Assumptions C100_kp_member.

(** ** The hypotheses can be met *)
(** The small instance with generators that never vanish and a digest that keeps the
    end of a message. *)
Definition tail_hash (x : str) : str := firstn 32 (rev x ++ repeat (z2b 0) 32).
Definition sound_toy : engine := {|
  e_curve := toy_curve; add1 := f_add; mul1 := f_mul; zero1 := of_z 0; add2 := f_add; mul2 := f_mul;
  multT := f_add; invT := fun x => of_z (- to_z x); expT := f_mul; oneT := of_z 0; pair := fun x y => of_z (to_z x * to_z y);
  map1 := fun h => of_z (fold_right (fun c n => b2z c + n) 0 h);
  e_hash := tail_hash; e_kdf := e_kdf toy_engine; e_sort := isort; e_mktime := mk;
  e_zp := e_zp toy_engine; e_g1 := fun _ => of_z 1; e_g2 := fun _ => of_z 1; e_bytes := e_bytes toy_engine |}.
Lemma tail_hash_length : forall x, length (tail_hash x) = 32%nat.
Proof. intro x. unfold tail_hash. rewrite firstn_length, app_length, repeat_length. lia. Qed.
Lemma sound_toy_lawful : lawful sound_toy.
Proof. destruct (toy_with_lawful tail_hash tail_hash_length). split; assumption. Qed.
Lemma sound_toy_nondegenerate : nondegenerate sound_toy.
Proof.
  intros i j n H. apply (f_equal to_z) in H. cbn in H. change (order (e_curve sound_toy)) with 13.
  replace (n mod 13) with ((n * (1 * 1 mod 13)) mod 13) by (f_equal; change (1 * 1 mod 13) with 1; lia). exact H.
Qed.
Lemma letters_apart : forall names, forallb (fun a => Nat.eqb (length a) 1) names = true -> told_apart sound_toy names.
Proof.
  intros names H i a b Ia Ib X. rewrite forallb_forall in H. pose proof (H a Ia) as A. pose proof (H b Ib) as B.
  destruct a as [|c [|? ?]]; try discriminate A. destruct b as [|d [|? ?]]; try discriminate B. cbn [e_hash sound_toy] in X. unfold tail_hash in X.
  rewrite !rev_app_distr in X. cbn [rev app firstn] in X. congruence.
Qed.
(** Alice has a, Bob has b, the policy asks for both; and the other way round. *)
Definition pair_sentence : pexp := EAnd (EAttr (L "a")) (EAttr (L "b")).
Definition one_name (c : str) : alist := AOne 0 (IName c) 0.
Lemma one_texts : forall e s c, In (e, s) [(pair_sentence, L "a and b"); (EAttr (L "b"), L "b"); (EAttr (L "a"), L "a")] -> In c [L "a"; L "b"] -> texts mk e s (one_name c) c.
Proof.
  intros e s c He Hc. repeat (destruct He as [X|He]; [injection X as <- <-|]); try destruct He; (destruct Hc as [<-|[<-|[]]]);
    (split; [apply by_lex; [apply good_ptoks|vm_compute; reflexivity]|vm_compute; reflexivity|vm_compute; reflexivity|vm_compute; reflexivity|apply by_lex; [apply good_atoks|vm_compute; reflexivity]|intros x b []]).
Qed.
Definition empty_ctx : context sound_toy := (new_store, 0%nat).
Definition two (A : Type) (x y : A) : list (str * A) := [(L "alice", x); (L "bob", y)].
Lemma two_outside : forall A (x y : A), NoDup (map fst (two A x y)) /\ ~ In (L "msk") (map fst (two A x y)).
Proof.
  intros A x y. split; [repeat constructor|]; intros H; cbn in H; repeat (destruct H as [H|H]; [discriminate H|]); exact H.
Qed.
Lemma two_in : forall A (x y : A) id z, In (id, z) (two A x y) -> z = x \/ z = y.
Proof. intros A x y id z [X|[X|[]]]; injection X as <- <-; auto. Qed.
Example C100_nonvacuous : lawful sound_toy /\ nondegenerate sound_toy /\ 2 < order (e_curve sound_toy) /\
  (forall sch, exists w, generate_params sound_toy sch (L "mpk") (L "msk") (start sound_toy empty_ctx (no_ct sound_toy)) = (w, Ok 0)) /\
  (let q := parsed_policy (L "a and b") in let users := two attrlist (parsed_list (L "a")) (parsed_list (L "b")) in
     create_policy_tree mk (L "a and b") = Ok (Some q) /\
     (forall id l, In (id, l) users -> outsider_list sound_toy pair_sentence (L "a and b") l /\ told_apart sound_toy (aattrs l ++ asked_names q)) /\
     NoDup (map fst users) /\ ~ In (L "msk") (map fst users)) /\
  (let l := parsed_list (L "a") in let users := two policy (parsed_policy (L "a and b")) (parsed_policy (L "b")) in
     create_attribute_list mk (L "a") = Ok (Some l) /\
     (forall id q, In (id, q) users -> outsider_policy sound_toy (one_name (L "a")) (L "a") q /\ told_apart sound_toy (aattrs l ++ asked_names q)) /\
     NoDup (map fst users) /\ ~ In (L "msk") (map fst users)).
Proof.
  split; [exact sound_toy_lawful|]. split; [exact sound_toy_nondegenerate|]. split; [reflexivity|]. split.
  { intro sch. eexists. rewrite (surjective_pairing (generate_params _ _ _ _ _)). f_equal. destruct sch; vm_compute; reflexivity. }
  split; cbv zeta.
  - split; [vm_compute; reflexivity|]. split; [|apply two_outside]. intros id l Il; apply two_in in Il as [->| ->]; (split; [|apply letters_apart; vm_compute; reflexivity]).
    + exists (one_name (L "a")), (L "a"). split; [apply one_texts; cbn [In]; auto|]. split; vm_compute; reflexivity.
    + exists (one_name (L "b")), (L "b"). split; [apply one_texts; cbn [In]; auto|]. split; vm_compute; reflexivity.
  - split; [vm_compute; reflexivity|]. split; [|apply two_outside]. intros id q Il; apply two_in in Il as [->| ->]; (split; [|apply letters_apart; vm_compute; reflexivity]).
    + exists pair_sentence, (L "a and b"). split; [apply one_texts; cbn [In]; auto|]. split; vm_compute; reflexivity.
    + exists (EAttr (L "b")), (L "b"). split; [apply one_texts; cbn [In]; auto|]. split; vm_compute; reflexivity.
Qed.
(** With the policy "a", Alice may read; such a coalition exists, so the fixed computation
    is put to use. *)
Definition run_pair (E : engine) (sch : scheme) (ia ib ie : input) : bool :=
  let mpk := L "mpk" in let msk := L "msk" in
  let '(w1, r1) := generate_params E sch mpk msk (start E (new_store, 0%nat) (no_ct E)) in
  let '(w2, r2) := keygen E sch ia (L "alice") mpk msk (start E (left_by E w1) (no_ct E)) in
  let '(w3, r3) := keygen E sch ib (L "bob") mpk msk (start E (left_by E w2) (no_ct E)) in
  let '(w4, r4) := encrypt E sch mpk ie (L "hello") (start E (left_by E w3) (no_ct E)) in
  let has x := match x with Some (Some _) => true | _ => false end in
  match r1, r2, r3, r4 with
  | Ok 0, Ok 0, Ok 0, Ok 0 => has (mget mpk (pub_keys (w_store E w3))) && has (mget (L "alice") (sec_keys (w_store E w3))) && has (mget (L "bob") (sec_keys (w_store E w3)))
  | _, _, _, _ => false
  end.
Lemma run_pair_ok : forall E sch ia ib ie, run_pair E sch ia ib ie = true ->
  exists h key, coalition E sch (L "mpk") (L "msk") (two input ia ib) ie (L "hello") (new_store, 0%nat) h key.
Proof.
  intros E sch ia ib ie. unfold run_pair.
  destruct (generate_params E sch _ _ _) as [w1 r1] eqn:E1. destruct (keygen E sch ia _ _ _ _) as [w2 r2] eqn:E2. destruct (keygen E sch ib _ _ _ _) as [w3 r3] eqn:E3. destruct (encrypt E sch _ _ _ _) as [w4 r4] eqn:E4.
  destruct r1 as [[| |]| | | |]; try discriminate. destruct r2 as [[| |]| | | |]; try discriminate. destruct r3 as [[| |]| | | |]; try discriminate. destruct r4 as [[| |]| | | |]; try discriminate.
  destruct (mget (L "mpk") _) as [[kp|]|] eqn:G1; try discriminate. destruct (mget (L "alice") _) as [[ka|]|] eqn:G2; try discriminate. destruct (mget (L "bob") _) as [[kb|]|] eqn:G3; try discriminate. intros _.
  exists {| of_params := k_parts kp; of_keys := [k_parts ka; k_parts kb]; of_ct := ct_parts (w_ct E w4) |}, (w_sym E w4).
  exists w1, (left_by E w3), w4, kp. split; [exact E1|]. split; [eapply issue_one; [exact E2|]; eapply issue_one; [exact E3|]; apply issue_none|].
  split; [exact G1|]. split; [reflexivity|]. split; [repeat constructor; eexists; (split; [eassumption|reflexivity])|]. split; [exact E4|]. split; reflexivity.
Qed.
Example C100_member_nonvacuous :
  let q := parsed_policy (L "a") in let q2 := parsed_policy (L "b") in let l := parsed_list (L "a") in let l2 := parsed_list (L "b") in
  texts mk (EAttr (L "a")) (L "a") (one_name (L "a")) (L "a") /\ authorised mk (EAttr (L "a")) (one_name (L "a")) = true /\
  create_policy_tree mk (L "a") = Ok (Some q) /\ create_attribute_list mk (L "a") = Ok (Some l) /\
  no_collision (short_label sound_toy) (aattrs l) /\ no_collision (short_label sound_toy) (row_names q) /\ no_collision (short_label sound_toy) (row_names q2) /\
  (exists h key, coalition sound_toy CP (L "mpk") (L "msk") (with_lists (two attrlist l l2)) (InPolicy q) (L "hello") empty_ctx h key) /\
  (exists h key, coalition sound_toy KP (L "mpk") (L "msk") (with_policies (two policy q q2)) (InAttrs l) (L "hello") empty_ctx h key).
Proof.
  cbv zeta. split; [apply one_texts; cbn [In]; auto|]. split; [vm_compute; reflexivity|]. split; [vm_compute; reflexivity|]. split; [vm_compute; reflexivity|].
  split; [no_names|]. split; [no_names|]. split; [no_names|]. split; apply run_pair_ok; vm_compute; reflexivity.
Qed.
