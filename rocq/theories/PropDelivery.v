(** C95: keys and ciphertexts that travel between processes. *)
From Verif Require Import Base ByteString StrMap Dec UInteger Policy Lsss LsssSpec LsssProofs Scanner Grammar PolicySyntax Lexical PolicyMeaning AttrMeaning Driver Parser AttrList ParserSound ParserRun TextUse Calendar Field PropField PropLsss PropParser Utils Kdf PropUtil Container ContainerSpec ContainerProofs Keystore Scheme SchemeSpec DeliverySpec SchemeRows SchemeStep SchemeCp SchemeKp SchemeFrame SchemeUse SchemeSession SchemeTravel SchemeToy PropScheme.
From Coq Require Import ZArith Znumtheory List Ascii Bool Lia Permutation.
Import ListNotations.
Open Scope Z_scope.

(** * C95 *)
(** All three processes succeed, and the receiver gets the plaintext exactly when
    the policy holds of the list. *)
Definition arrives (sch : scheme) (E : engine) (q : policy) (l : attrlist) (pt : str) (good : bool) : Prop :=
  forall rk rp rx l1 re rc l2 lc out,
  delivery E sch (match sch with CP => InAttrs l | KP => InPolicy q end) (match sch with CP => InPolicy q | KP => InAttrs l end) pt rk rp rx l1 re rc l2 lc out ->
  rk = Ok 0 /\ (exists b, rp = Ok (0, b)) /\ (exists b, rx = Ok (0, b)) /\ l1 = Ok 0 /\ re = Ok 0 /\ (exists b, rc = Ok b) /\ l2 = Ok 0 /\ lc = Ok tt /\
  out = handed good pt.
Theorem C95_delivery : forall sch E e s a t q l pt, lawful E -> curve_ok (e_curve E) -> texts (e_mktime E) e s a t ->
  create_policy_tree (e_mktime E) s = Ok (Some q) -> create_attribute_list (e_mktime E) t = Ok (Some l) ->
  no_collision (short_label E) (aattrs l) -> no_collision (short_label E) (row_names q) -> len pt < 2147483616 ->
  len (ptext q) < 2 ^ 31 -> len (compact l) < 2 ^ 31 ->
  arrives sch E q l pt (authorised (e_mktime E) e a).
Proof.
  intros sch E e s a t q l pt HE HK T Hq Hl N1 N2 Hp Lq Ll rk rp rx l1 re rc l2 lc out H. destruct (texts_usable E e s a t q l T Hq Hl) as (r & U & Sa).
  assert (portable (e_curve E) (e_mktime E) (OAttrs l)) as Po by (cbn [portable]; split; [eauto|exact Ll]).
  assert (rk = Ok 0 /\ (exists b, rp = Ok (0, b)) /\ (exists b, rx = Ok (0, b)) /\ l1 = Ok 0 /\ re = Ok 0 /\ (exists b, rc = Ok b) /\ l2 = Ok 0 /\ lc = Ok tt /\
    out = Ok (verdict (sat (match_attribute (aattrs l)) r) pt)) as X.
  { destruct sch; [eapply cp_delivery|eapply kp_delivery]; eauto. }
  destruct X as (A1 & A2 & A3 & A4 & A5 & A6 & A7 & A8 & A9). repeat (split; [assumption|]). rewrite A9, Sa. unfold verdict, handed. destruct (authorised _ e a); reflexivity.
Qed.
Print Assumptions C95_delivery.

Section Play.
Context (E : engine) (sch : scheme) (kinp einp : input) (pt : str).
Notation go x := (start E x (no_ct E)).
Definition a_params := fst (generate_params E sch (L "mpk") (L "msk") (go (new_store, 0%nat))).
Definition a_public := export_key E (L "mpk") [] (go (left_by E a_params)).
Definition a_bob := fst (keygen E sch kinp (L "bob") (L "mpk") (L "msk") (go (left_by E a_params))).
Definition a_alice := keygen E sch kinp (L "alice") (L "mpk") (L "msk") (go (left_by E a_bob)).
Definition a_gone := fst (drop_key E (L "msk") (go (left_by E (fst a_alice)))).
Definition a_user := export_key E (L "alice") [] (go (left_by E a_gone)).
Definition b_load := load_key E sch (L "company") (bytes_of (snd a_public)) KEY_PUBLIC (go (new_store, 7%nat)).
Definition b_enc := encrypt E sch (L "company") einp pt (go (left_by E (fst b_load))).
Definition c_load := load_key E sch (L "me") (bytes_of (snd a_user)) KEY_SECRET (go (new_store, 3%nat)).
Definition c_ct := ct_load (e_curve E) (e_mktime E) (no_ct E) (blob_of (ct_export (w_ct E (fst b_enc)))).
Definition c_dec := decrypt E sch [] (L "me") (start E (left_by E (fst c_load)) (fst c_ct)).
Definition is_light (c : container (e_curve E)) : bool := match serialize c [] with Ok b => len b <? 2 ^ 32 | _ => true end.
Definition light_under (id : str) (m : smap (option (key (e_curve E)))) : bool := match mget id m with Some (Some k) => is_light (k_parts k) | _ => true end.
Definition fine : bool :=
  match snd (generate_params E sch (L "mpk") (L "msk") (go (new_store, 0%nat))),
        snd (keygen E sch kinp (L "bob") (L "mpk") (L "msk") (go (left_by E a_params))),
        mget (L "alice") (pub_keys (w_store E a_gone)) with
  | Ok 0, Ok 0, None => light_under (L "mpk") (pub_keys (w_store E a_params)) && light_under (L "alice") (sec_keys (w_store E a_gone)) && is_light (ct_parts (w_ct E (fst b_enc)))
  | _, _, _ => false end.
Lemma is_light_ok : forall c, is_light c = true -> light E c.
Proof. intros c H b Hb. unfold is_light in H. rewrite Hb in H. apply Z.ltb_lt in H. exact H. Qed.
Lemma light_under_ok : forall id m k, light_under id m = true -> mget id m = Some (Some k) -> light E (k_parts k).
Proof. intros id m k H Hm. unfold light_under in H. rewrite Hm in H. apply is_light_ok. exact H. Qed.
Lemma carry : fine = true -> delivery E sch kinp einp pt (snd a_alice) (snd a_public) (snd a_user) (snd b_load) (snd b_enc) (ct_export (w_ct E (fst b_enc))) (snd c_load) (snd c_ct) (snd c_dec).
Proof.
  unfold fine. intro H. destruct (snd (generate_params _ _ _ _ _)) as [[| |]| | | |] eqn:E1; try discriminate.
  destruct (snd (keygen E sch kinp (L "bob") (L "mpk") (L "msk") (go (left_by E a_params)))) as [[| |]| | | |] eqn:E2; try discriminate.
  destruct (mget (L "alice") (pub_keys (w_store E a_gone))) eqn:E3; try discriminate.
  apply andb_prop in H as [H H3]. apply andb_prop in H as [H1 H2].
  eapply (deliver E sch kinp einp pt _ _ _ _ _ _ _ _ _ (L "mpk") (L "msk") (L "alice") (new_store, 0%nat) a_params [] (left_by E a_params) [] (fst a_public)
    [RKeygen E kinp (L "bob") (L "mpk") (L "msk")] (left_by E a_bob) (fst a_alice) [RDelete E (L "msk")] (left_by E a_gone) [] (fst a_user)
    (L "company") (new_store, 7%nat) (fst b_load) [] (left_by E (fst b_load)) (fst b_enc) (L "me") (new_store, 3%nat) (fst c_load) [] (left_by E (fst c_load)) (fst c_ct) [] (fst c_dec)).
  - unfold a_params. rewrite <- E1. apply surjective_pairing.
  - reflexivity.
  - reflexivity.
  - apply h_nil.
  - intros r [].
  - apply surjective_pairing.
  - intros k Hk. exact (light_under_ok _ _ k H1 Hk).
  - eapply h_cons; [|apply h_nil]. exists a_bob, (Ok 0). split; [unfold a_bob; rewrite <- E2; apply surjective_pairing|]. split; [exact I|reflexivity].
  - intros r [<-|[]] [C _]. discriminate.
  - intros r [<-|[]] [_ C]. discriminate.
  - apply surjective_pairing.
  - eapply h_cons; [|apply h_nil]. exists a_gone, (snd (drop_key E (L "msk") (go (left_by E (fst a_alice))))). split; [apply surjective_pairing|]. split; [|reflexivity].
    unfold drop_key. destruct (delete_key _ _) as [[s k] c]. exact I.
  - intros r [<-|[]] C. discriminate.
  - intros inp i m1 m2 [C|[]]. discriminate.
  - intros k Hk. cbn [left_by fst] in Hk. rewrite E3 in Hk. discriminate.
  - apply surjective_pairing.
  - intros k Hk. exact (light_under_ok _ _ k H2 Hk).
  - apply surjective_pairing.
  - apply h_nil.
  - intros r [].
  - apply surjective_pairing.
  - reflexivity.
  - apply is_light_ok. exact H3.
  - apply surjective_pairing.
  - apply h_nil.
  - intros r [].
  - apply surjective_pairing.
  - apply surjective_pairing.
Qed.
End Play.
Example C95_nonvacuous : forall sch n, In n [17; 4] ->
  let s := ex_text in let t := L "c|age=" ++ (if n =? 17 then L "17" else L "4") ++ L "#8|d" in
  let q := parsed_policy s in let l := parsed_list t in
  curve_ok (e_curve toy_engine) /\ len (ptext q) < 2 ^ 31 /\ len (compact l) < 2 ^ 31 /\
  exists rk rp rx l1 re rc l2 lc, delivery toy_engine sch (match sch with CP => InAttrs l | KP => InPolicy q end) (match sch with CP => InPolicy q | KP => InAttrs l end) (L "hello") rk rp rx l1 re rc l2 lc
    (if n =? 17 then Ok (0, L "hello") else Ok (32, [])).
Proof.
  intros sch n Hn s t q l. split; [exact toy_curve_ok|]. split; [vm_compute; reflexivity|]. split; [destruct Hn as [<-|[<-|[]]]; vm_compute; reflexivity|].
  do 8 eexists.
  replace (if n =? 17 then Ok (0, L "hello") else Ok (32, [])) with
    (snd (c_dec toy_engine sch (match sch with CP => InAttrs l | KP => InPolicy q end) (match sch with CP => InPolicy q | KP => InAttrs l end) (L "hello")))
    by (destruct Hn as [<-|[<-|[]]]; destruct sch; vm_compute; reflexivity).
  apply carry. destruct Hn as [<-|[<-|[]]]; destruct sch; vm_compute; reflexivity.
Qed.
