(** C101: the key manager finds a key that opens the ciphertext. *)
From Verif Require Import Base ByteString StrMap Dec UInteger Policy Lsss LsssSpec LsssProofs Scanner Grammar PolicySyntax Lexical PolicyMeaning AttrMeaning PolicyUse Driver Parser AttrList ParserSound ParserRun CreatePolicy TextUse Calendar Field PropField PropLsss PropParser Utils Kdf PropUtil Container ContainerSpec ContainerProofs Keystore Keymgr KeymgrSpec KeymgrProofs KeymgrUse PropKeymgr Query Scheme SchemeSpec DeliverySpec FindSpec SchemeRows SchemeStep SchemeCp SchemeKp SchemeFrame SchemeUse SchemeSession SchemeTravel FindProofs SchemeToy PropScheme PropDelivery.
From Coq Require Import ZArith Znumtheory List Ascii Bool Lia Permutation.
Import ListNotations.
Open Scope Z_scope.

Lemma blob_input_fun : forall K mktime b f f', blob_input K mktime b f -> blob_input K mktime b f' -> f' = f.
Proof. intros K mktime b f f' (k & body & k' & A & B & C) (k1 & body1 & k1' & A1 & B1 & C1). congruence. Qed.
Lemma opened_some : forall E sch b c, exists out, opened E sch b c out.
Proof.
  intros E sch b c. destruct (load_key E sch [] b KEY_SECRET (start E (new_store, 0%nat) (no_ct E))) as [u1 l2] eqn:E1.
  destruct (ct_load (e_curve E) (e_mktime E) (no_ct E) c) as [ct lc] eqn:E2. destruct (decrypt E sch [] [] (start E (left_by E u1) ct)) as [u3 out] eqn:E3.
  exists out, [], (new_store, 0%nat), u1, l2, [], (left_by E u1), ct, lc, [], u3. split; [exact E1|]. split; [apply h_nil|]. split; [intros r []|]. split; assumption.
Qed.
(** Opening gives the plaintext exactly when the two inputs fit. *)
Lemma opened_fits : forall E sch mpk msk a0 w1 kinp einp pt b c f q, lawful E -> curve_ok (e_curve E) ->
  generate_params E sch mpk msk (start E a0 (no_ct E)) = (w1, Ok 0) -> key_side sch kinp -> sender_side sch einp -> workable E kinp -> workable E einp -> len pt < 2147483616 ->
  issued E sch mpk msk w1 kinp b -> sent E sch mpk w1 einp pt c -> says kinp f -> says einp q ->
  forall out, opened E sch b c out -> (fits f q /\ out = Ok (0, pt)) \/ (~ fits f q /\ out = Ok (32, [])).
Proof.
  intros E sch mpk msk a0 w1 kinp einp pt b c f q HE HK G Hk Hs Wk We Hl (kid & h1 & a2 & w3 & rk & h2 & a4 & bufx & wx & Ik & H1 & S1 & S1' & E2 & H2 & S2 & N2 & Nk & Ex & Lx)
    (ha & a1 & bufp & wp & rp & mpk1 & b0 & v1 & l1 & g1 & b2 & v3 & re & Im & Ha & Sa & Ep & Lp & El1 & G1 & SG & Ee & Ec & Lc) Sf Sq out
    (kid1 & c0 & u1 & l2 & f1 & c2 & ct & lc & mpk2 & u3 & L2 & F1 & SF & Lct & D).
  assert (delivery E sch kinp einp pt rk rp (Ok (0, b)) l1 re (Ok c) l2 lc out) as Dl by exact (deliver E sch kinp einp pt rk rp (Ok (0, b)) l1 re (Ok c) l2 lc out mpk msk kid a0 w1 ha a1 bufp wp h1 a2 w3 h2 a4 bufx wx mpk1 b0 v1 g1 b2 v3 kid1 c0 u1 f1 c2 ct mpk2 u3
    G Im Ik Ha Sa Ep Lp H1 S1 S1' E2 H2 S2 N2 Nk Ex Lx El1 G1 SG Ee Ec Lc L2 F1 SF Lct D).
  destruct sch, kinp as [qk|lk|], einp as [qe|le|]; try contradiction; destruct f as [qf sf|lf], q as [qq sq|lq]; try contradiction.
  - destruct (workable_policy E qe We) as (r & U). pose proof (workable_list E lk Wk) as Po. destruct Wk as (_ & N1 & _). destruct We as (_ & N2' & Lt).
    destruct (cp_delivery E HE HK qe r lk pt _ _ _ _ _ _ _ _ _ U N1 N2' Hl Po Lt Dl) as (_ & _ & _ & _ & _ & _ & _ & _ & ->). cbn [says] in Sf, Sq. destruct Sq as [-> _].
    pose proof (match_same (aattrs lk) (aattrs lf) Sf r) as M. pose proof U as (Hr & _). cbn [fits]. destruct (sat (match_attribute (aattrs lk)) r) eqn:Es; cbn [verdict].
    + left. split; [|reflexivity]. exists r. split; [exact Hr|congruence].
    + right. split; [|reflexivity]. intros (r' & X & Y). rewrite Hr in X. injection X as <-. congruence.
  - destruct (workable_policy E qk Wk) as (r & U). pose proof (workable_list E le We) as Po. destruct We as (_ & N1 & _). destruct Wk as (_ & N2' & Lt).
    destruct (kp_delivery E HE HK qk r le pt _ _ _ _ _ _ _ _ _ U N1 N2' Hl Po Lt Dl) as (_ & _ & _ & _ & _ & _ & _ & _ & ->). cbn [says] in Sf, Sq. destruct Sf as [-> _].
    pose proof (match_same (aattrs le) (aattrs lq) Sq r) as M. pose proof U as (Hr & _). cbn [fits]. destruct (sat (match_attribute (aattrs le)) r) eqn:Es; cbn [verdict].
    + left. split; [|reflexivity]. exists r. split; [exact Hr|congruence].
    + right. split; [|reflexivity]. intros (r' & X & Y). rewrite Hr in X. injection X as <-. congruence.
Qed.

(** * C101 *)
(** Let all keys of the user in the manager come from one authority.  Whatever
    commands filled the manager: the receiver of a ciphertext loads it, asks what
    it is for and searches.  If one of the user's keys opens the ciphertext, the
    search names a key of the user, and that key opens it, in every context; if
    none does, the answer is "". *)
Theorem C101_found : forall sch E rank, lawful E -> curve_ok (e_curve E) -> sorts rank ->
  forall mpk msk a0 w1 einp pt c, generate_params E sch mpk msk (start E a0 (no_ct E)) = (w1, Ok 0) ->
  sender_side sch einp -> workable E einp -> len pt < 2147483616 -> sent E sch mpk w1 einp pt c ->
  exists ct query, ct_load (e_curve E) (e_mktime E) (no_ct E) c = (ct, Ok tt) /\ ciphertext_input (e_curve E) (e_mktime E) ct = Ok (Some query) /\
  forall h user eff, let m := after (e_curve E) (e_mktime E) (e_sort E) rank h in
    (forall i b, owns m user i b -> exists kinp, key_side sch kinp /\ workable E kinp /\ issued E sch mpk msk w1 kinp b) ->
  exists m' q' id, search_key (e_sort E) rank m user eff query = (m', q', Ok id) /\
    ((exists i b, owns m user i b /\ opened E sch b c (Ok (0, pt))) ->
     exists b, owns m user id b /\ forall out, opened E sch b c out -> out = Ok (0, pt)) /\
    ((forall i b, owns m user i b -> ~ opened E sch b c (Ok (0, pt))) -> id = []).
Proof.
  intros sch E rank HE HK Hr mpk msk a0 w1 einp pt c G Hs We Hl Se.
  destruct (sent_says E HE HK sch mpk msk _ w1 einp pt c G Hs We Hl Se) as (ct & q & X1 & X2 & X3). exists ct, q. split; [exact X1|]. split; [exact X2|].
  intros h user eff m Hm.
  assert (askable q) as Ha.
  { destruct einp as [p|l|], q as [p' st|l']; try contradiction; [|exact I]. destruct X3 as [-> ->]. destruct We as ((e & s & _ & _ & _ & _ & Hq) & _). eapply C49_askable; eauto. }
  assert (permutes (e_sort E)) as Ps by (intro l; apply (law_sort E HE)).
  destruct (C49_search (e_curve E) (e_mktime E) (e_sort E) rank Ps Hr h user eff q Ha) as (m' & q' & id & Y1 & _ & _ & _ & Y2 & Y3). fold m in Y1, Y2, Y3.
  exists m', q', id. split; [exact Y1|].
  assert (forall i b f, owns m user i b -> blob_input (e_curve E) (e_mktime E) b f -> forall out, opened E sch b c out -> (fits f q /\ out = Ok (0, pt)) \/ (~ fits f q /\ out = Ok (32, []))) as K.
  { intros i b f O B. destruct (Hm i b O) as (kinp & K1 & K2 & K3). destruct (issued_says E HE HK sch mpk msk _ w1 kinp b G K1 K2 K3) as (f' & B' & Sf).
    rewrite (blob_input_fun _ _ _ _ _ B' B) in *. eapply opened_fits; eassumption. }
  split.
  - intros (i & b & O & Op). destruct Y2 as (b1 & f1 & O1 & B1 & F1 & _).
    + destruct (Hm i b O) as (kinp & K1 & K2 & K3). destruct (issued_says E HE HK sch mpk msk _ w1 kinp b G K1 K2 K3) as (f' & B' & Sf). exists i, b, f'. split; [exact O|]. split; [exact B'|].
      destruct (K i b f' O B' _ Op) as [[F _]|[_ X]]; [exact F|discriminate].
    + exists b1. split; [exact O1|]. intros out Ho. destruct (K id b1 f1 O1 B1 out Ho) as [[_ X]|[X _]]; [exact X|contradiction].
  - intro N. apply Y3. intros i b f O B F. destruct (opened_some E sch b c) as (out & Ho). destruct (K i b f O B out Ho) as [[_ X]|[X _]]; [|contradiction]. subst. exact (N i b O Ho).
Qed.
Print Assumptions C101_found.

(** Two keys of one authority in the manager, one of which opens the ciphertext. *)
Section Play.
Context (sch : scheme).
Notation E := toy_engine.
Notation go x := (start E x (no_ct E)).
Definition fit_input : input := match sch with CP => InAttrs (parsed_list (L "c|age=17#8|d")) | KP => InPolicy (parsed_policy ex_text) end.
Definition other_input : input := match sch with CP => InAttrs (parsed_list (L "c|age=4#8|d")) | KP => InPolicy (parsed_policy (L "x and c")) end.
Definition sender_input : input := match sch with CP => InPolicy (parsed_policy ex_text) | KP => InAttrs (parsed_list (L "c|age=17#8|d")) end.
Definition f_key (i : input) := keygen E sch i (L "alice") (L "mpk") (L "msk") (go (left_by E (a_params E sch))).
Definition f_out (i : input) := export_key E (L "alice") [] (go (left_by E (fst (f_key i)))).
Definition f_blob (i : input) : str := bytes_of (snd (f_out i)).
Definition f_ct : str := blob_of (ct_export (w_ct E (fst (b_enc E sch sender_input (L "hello"))))).
Definition f_history : list command := [StoreID (L "alice") (L "k2") (f_blob fit_input) 0 false []; StoreID (L "alice") (L "k1") (f_blob other_input) 0 false []].
Definition f_manager := after (e_curve E) (e_mktime E) (e_sort E) isort f_history.
Definition f_fine (i : input) : bool :=
  match snd (f_key i), snd (f_out i), mget (L "alice") (pub_keys (w_store E (fst (f_key i)))) with
  | Ok 0, Ok (0, _), None => light_under E (L "alice") (sec_keys (w_store E (fst (f_key i))))
  | _, _, _ => false end.
Lemma f_issued : forall i, f_fine i = true -> issued E sch (L "mpk") (L "msk") (a_params E sch) i (f_blob i).
Proof.
  intros i. unfold f_fine, f_blob. destruct (f_key i) as [w3 rk] eqn:Ek. destruct (f_out i) as [wx rx] eqn:Ex. cbn [fst snd]. intro H.
  destruct rk as [[| |]| | | |]; try discriminate. destruct rx as [[[| |] b]| | | |]; try discriminate. destruct (mget (L "alice") (pub_keys (w_store E w3))) eqn:Em; try discriminate.
  exists (L "alice"), [], (left_by E (a_params E sch)), w3, (Ok 0), [], (left_by E w3), [], wx. split; [reflexivity|]. split; [apply h_nil|]. split; [intros r []|]. split; [intros r []|].
  split; [exact Ek|]. split; [apply h_nil|]. split; [intros r []|]. split; [intros ? ? ? ? []|]. split; [intros k X; cbn [left_by fst] in X; rewrite Em in X; discriminate|].
  unfold f_out in Ex. rewrite Ek in Ex. split; [exact Ex|]. intros k X. exact (light_under_ok E _ _ k H X).
Qed.
Definition s_fine : bool :=
  match snd (generate_params E sch (L "mpk") (L "msk") (go (new_store, 0%nat))), ct_export (w_ct E (fst (b_enc E sch sender_input (L "hello")))) with
  | Ok 0, Ok _ => light_under E (L "mpk") (pub_keys (w_store E (a_params E sch))) && is_light E (ct_parts (w_ct E (fst (b_enc E sch sender_input (L "hello")))))
  | _, _ => false end.
Lemma f_sent : s_fine = true -> generate_params E sch (L "mpk") (L "msk") (go (new_store, 0%nat)) = (a_params E sch, Ok 0) /\ sent E sch (L "mpk") (a_params E sch) sender_input (L "hello") f_ct.
Proof.
  unfold s_fine, f_ct. intro H. destruct (snd (generate_params E sch (L "mpk") (L "msk") (go (new_store, 0%nat)))) as [[| |]| | | |] eqn:E1; try discriminate.
  destruct (ct_export (w_ct E (fst (b_enc E sch sender_input (L "hello"))))) as [c| | | |] eqn:E2; try discriminate. apply andb_prop in H as [H1 H2]. split.
  - unfold a_params. rewrite <- E1. apply surjective_pairing.
  - exists [], (left_by E (a_params E sch)), [], (fst (a_public E sch)), (snd (a_public E sch)), (L "company"), (new_store, 7%nat), (fst (b_load E sch)), (snd (b_load E sch)), [], (left_by E (fst (b_load E sch))), (fst (b_enc E sch sender_input (L "hello"))), (snd (b_enc E sch sender_input (L "hello"))).
    split; [reflexivity|]. split; [apply h_nil|]. split; [intros r []|]. split; [apply surjective_pairing|]. split; [intros k X; exact (light_under_ok E _ _ k H1 X)|]. split; [apply surjective_pairing|]. split; [apply h_nil|]. split; [intros r []|]. split; [apply surjective_pairing|].
    split; [exact E2|]. apply is_light_ok. exact H2.
Qed.
Lemma f_owned : forall i b, owns f_manager (L "alice") i b -> b = f_blob fit_input \/ b = f_blob other_input.
Proof.
  intros i b H. destruct (C48_get (e_curve E) (e_mktime E) (e_sort E) isort (fun l => law_sort E toy_lawful l) f_history (L "alice") i b H) as (h1 & c & h2 & X & Y & _).
  assert (In c f_history) as I0 by (rewrite X; apply in_or_app; right; left; reflexivity). destruct I0 as [<-|[<-|[]]]; destruct Y as (_ & _ & <- & _); auto.
Qed.
End Play.
Definition apart (l : list str) : bool := forallb (fun a => forallb (fun b => implb (str_eqb (short_label toy_engine a) (short_label toy_engine b)) (str_eqb a b)) l) l.
Lemma f_workable : forall sch, workable toy_engine (fit_input sch) /\ workable toy_engine (other_input sch) /\ workable toy_engine (sender_input sch).
Proof.
  assert (forall t, (match create_attribute_list mk t with Ok (Some l) => apart (aattrs l) && (len (compact l) <? 2 ^ 31) | _ => false end) = true -> workable toy_engine (InAttrs (parsed_list t))) as WL.
  { intros t H. unfold parsed_list. destruct (create_attribute_list mk t) as [[l|]| | | |] eqn:El; try discriminate. apply andb_prop in H as [H1 H2]. cbn [workable]. split; [exists t; exact El|]. split; [|apply Z.ltb_lt; exact H2].
    apply no_collision_by. exact H1. }
  assert (forall e s, text_of (ptoks e) s -> well e = true -> tidy_names e = true -> no_percent_names e = true -> (match create_policy_tree mk s with Ok (Some q) => apart (row_names q) && (len (ptext q) <? 2 ^ 31) | _ => false end) = true -> workable toy_engine (InPolicy (parsed_policy s))) as WP.
  { intros e s T W Ty Np H. unfold parsed_policy. destruct (create_policy_tree mk s) as [[q|]| | | |] eqn:El; try discriminate. apply andb_prop in H as [H1 H2]. cbn [workable]. split; [exists e, s; repeat (split; [assumption|]); exact El|]. split; [|apply Z.ltb_lt; exact H2].
    apply no_collision_by. exact H1. }
  assert (workable toy_engine (InPolicy (parsed_policy ex_text))) as W1.
  { apply (WP ex_sentence); [apply by_lex; [apply good_ptoks|vm_compute; reflexivity]|vm_compute; reflexivity|vm_compute; reflexivity|vm_compute; reflexivity|vm_compute; reflexivity]. }
  assert (workable toy_engine (InPolicy (parsed_policy (L "x and c")))) as W2.
  { apply (WP (EAnd (EAttr (L "x")) (EAttr (L "c")))); [apply by_lex; [apply good_ptoks|vm_compute; reflexivity]|vm_compute; reflexivity|vm_compute; reflexivity|vm_compute; reflexivity|vm_compute; reflexivity]. }
  intros [|]; cbn [fit_input other_input sender_input]; (split; [|split]); try assumption; apply WL; vm_compute; reflexivity.
Qed.
Example C101_nonvacuous : forall sch, let m := f_manager sch in
  lawful toy_engine /\ curve_ok (e_curve toy_engine) /\ sorts isort /\
  generate_params toy_engine sch (L "mpk") (L "msk") (start toy_engine (new_store, 0%nat) (no_ct toy_engine)) = (a_params toy_engine sch, Ok 0) /\
  sender_side sch (sender_input sch) /\ workable toy_engine (sender_input sch) /\ sent toy_engine sch (L "mpk") (a_params toy_engine sch) (sender_input sch) (L "hello") (f_ct sch) /\
  (forall i b, owns m (L "alice") i b -> exists kinp, key_side sch kinp /\ workable toy_engine kinp /\ issued toy_engine sch (L "mpk") (L "msk") (a_params toy_engine sch) kinp b) /\
  owns m (L "alice") (L "k1") (f_blob sch (other_input sch)) /\ owns m (L "alice") (L "k2") (f_blob sch (fit_input sch)) /\
  (match ciphertext_input (e_curve toy_engine) (e_mktime toy_engine) (fst (ct_load (e_curve toy_engine) (e_mktime toy_engine) (no_ct toy_engine) (f_ct sch))) with
   | Ok (Some q) => forall eff, In eff [true; false] -> snd (search_key (e_sort toy_engine) isort m (L "alice") eff q) = Ok (L "k2") | _ => False end) /\
  opened toy_engine sch (f_blob sch (fit_input sch)) (f_ct sch) (Ok (0, L "hello")) /\ opened toy_engine sch (f_blob sch (other_input sch)) (f_ct sch) (Ok (32, [])).
Proof.
  intros sch m. destruct (f_workable sch) as (W1 & W2 & W3).
  assert (s_fine sch = true) as Sf by (destruct sch; vm_compute; reflexivity). destruct (f_sent sch Sf) as [S1 S2].
  assert (f_fine sch (fit_input sch) = true) as F1 by (destruct sch; vm_compute; reflexivity).
  assert (f_fine sch (other_input sch) = true) as F2 by (destruct sch; vm_compute; reflexivity).
  split; [exact toy_lawful|]. split; [exact toy_curve_ok|]. split; [exact isort_sorts|]. split; [exact S1|]. split; [destruct sch; exact I|]. split; [exact W3|]. split; [exact S2|].
  split.
  { intros i b O. destruct (f_owned sch i b O) as [-> | ->]; [exists (fit_input sch)|exists (other_input sch)]; (split; [destruct sch; exact I|]); (split; [assumption|]); apply f_issued; assumption. }
  split; [split; [destruct sch; vm_compute; discriminate|destruct sch; vm_compute; reflexivity]|].
  split; [split; [destruct sch; vm_compute; discriminate|destruct sch; vm_compute; reflexivity]|].
  split; [destruct sch; vm_compute; intros eff [<-|[<-|[]]]; reflexivity|].
  assert (forall i out, snd (decrypt toy_engine sch [] (L "me") (start toy_engine (left_by toy_engine (fst (load_key toy_engine sch (L "me") (f_blob sch i) KEY_SECRET (start toy_engine (new_store, 3%nat) (no_ct toy_engine))))) (fst (ct_load (e_curve toy_engine) (e_mktime toy_engine) (no_ct toy_engine) (f_ct sch))))) = out ->
    opened toy_engine sch (f_blob sch i) (f_ct sch) out) as Op.
  { intros i out <-. eexists (L "me"), (new_store, 3%nat), _, _, [], _, _, _, [], _. split; [apply surjective_pairing|]. split; [apply h_nil|]. split; [intros r []|]. split; apply surjective_pairing. }
  split; apply Op; destruct sch; vm_compute; reflexivity.
Qed.
