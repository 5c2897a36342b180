(** What calls on a context leave in its key store, name by name; keys and
    ciphertexts that were loaded can be exported again. *)
From Verif Require Import Base StrMap ByteString ByteStringProofs UInteger Field FieldProofs Policy Driver Parser AttrList Utils Kdf KdfProofs Lsss LsssSpec LsssRecover LsssUse LsssFinal SchemeRows Container ContainerSpec ContainerProofs Travel Keystore Scheme SchemeSpec DeliverySpec SchemeStep SchemeCp SchemeKp SchemeFrame SchemeUse SchemeFirm SchemeKeep SchemeSession SchemeTravel NetworkSpec.
From Coq Require Import ZArith Znumtheory List Ascii Bool Lia Permutation.
Import ListNotations.
Open Scope Z_scope.

(** ** Containers read from bytes *)
Section Again.
Context (K : curve) (mktime : tm -> Z * tm).
Definition lists_made (c : container K) : Prop := forall n l, mget n c = Some (Some (OAttrs l)) -> exists t, create_attribute_list mktime t = Ok (Some l).
Lemma element_made : forall v l, element_of K mktime v = Ok (Some (OAttrs l)) -> exists t, create_attribute_list mktime t = Ok (Some l).
Proof.
  intros v l H. unfold element_of in H. destruct (len v =? 0); [discriminate|]. destruct (at_ v 0) as [ty| | | |]; try discriminate. cbn [bind] in H.
  repeat match type of H with
  | (if ?b then _ else _) = _ => destruct b
  | bind ?m _ = _ => let X := fresh "X" in destruct m eqn:X; cbn [bind] in H
  | match ?o with Some _ => _ | None => _ end = _ => destruct o
  end; try discriminate. injection H as ->. eauto.
Qed.
Lemma set_made : forall c n o, lists_made c -> (forall l, o = OAttrs l -> exists t, create_attribute_list mktime t = Ok (Some l)) -> lists_made (set_component c n o).
Proof.
  intros c n o H Ho m l G. unfold set_component in G. destruct (str_eq_dec m n) as [->|N]; [|rewrite mget_mset_other in G by exact N; exact (H m l G)].
  rewrite mget_mset_same in G. injection G as G. destruct o as [| | | | | |l0|]; try discriminate. cbn [clone] in G. injection G as G. destruct (Ho l0 eq_refl) as (t & Ht). exists t. rewrite Ht. subst l. destruct l0. reflexivity.
Qed.
Lemma loop_made : forall fuel blob i c c' r, deserialize_loop K mktime fuel blob i c = (c', r) -> lists_made c -> msorted c -> lists_made c' /\ msorted c'.
Proof.
  induction fuel as [|f IH]; intros blob i c c' r H Hc Hs; cbn [deserialize_loop] in H; [injection H as <- _; auto|].
  destruct (smart_unpack blob i) as [i1 [key|e| | |]]; try (injection H as <- _; auto; fail).
  destruct (smart_unpack blob i1) as [i2 [value|e| | |]]; try (injection H as <- _; auto; fail).
  unfold deserialize_element in H. destruct (element_of K mktime value) as [[o|]|e| | |] eqn:Eo; try (injection H as <- _; auto; fail).
  - assert (lists_made (set_component c key o) /\ msorted (set_component c key o)) as [A B].
    { split; [|apply msorted_mset; exact Hs]. apply set_made; [exact Hc|]. intros l ->. eapply element_made. exact Eo. }
    destruct (i2 <? length blob)%nat; [eapply IH; eauto|injection H as <- _; auto].
  - destruct (i2 <? length blob)%nat; [eapply IH; eauto|injection H as <- _; auto].
Qed.
Lemma sound_again : forall c c', sound (K:=K) mktime c -> same_content c c' -> lists_made c' -> msorted c' -> sound (K:=K) mktime c'.
Proof.
  intros c c' [S1 S2] [K1 K2] M S3. split; [exact S3|]. intros n v G.
  destruct (mget n c) as [v0|] eqn:Ec.
  - destruct (S2 n v0 Ec) as [Hn (o & -> & Ho)]. split; [exact Hn|]. destruct (K2 n o Ec) as (o' & G' & R). rewrite G in G'. injection G' as ->. exists o'. split; [reflexivity|].
    destruct o, o'; try contradiction; cbn [same_value portable] in *; try exact I; try congruence.
    + destruct R as [R1 R2]. rewrite <- R1, <- R2. exact Ho.
    + destruct R as (_ & _ & R). split; [apply (M n); exact G|]. rewrite R. apply Ho.
  - exfalso. apply mget_None in Ec. apply Ec. change (map fst c) with (mkeys c). rewrite <- K1. unfold mkeys. apply mget_In in G. apply (in_map fst) in G. exact G.
Qed.
End Again.

Section Store.
Context (E : engine) (HE : lawful E).
Notation K := (e_curve E).
Notation short := (short_label E).
Notation sound := (sound (K:=K) (e_mktime E)).

(** ** The key under a name, if any *)
Definition seen (c : key_class) (id : str) (s : store (key K)) : option (key K) :=
  match mget id (class_map E c s) with Some (Some k) => Some k | _ => None end.
Definition alike_stores (s s' : store (key K)) : Prop := forall c id, seen c id s' = seen c id s.
Lemma seen_holds : forall c id k w, seen c id (w_store E w) = Some k -> holds E c id k w.
Proof. intros c id k w H. unfold seen in H. unfold holds. destruct (mget id _) as [[v|]|]; try discriminate. congruence. Qed.
Lemma seen_add : forall c id k s c' id', seen c' id' (add_key s id (Some k) c) = if same_class c c' && str_eqb id id' then Some k else seen c' id' s.
Proof.
  intros c id k s c' id'. unfold seen. destruct c, c'; cbn; try reflexivity.
  - destruct (str_eqb id id') eqn:Ei; [apply str_eqb_eq in Ei as ->; rewrite mget_mset_same; reflexivity|]. rewrite mget_mset_other; [reflexivity|]. intros ->. rewrite str_eqb_refl in Ei. discriminate.
  - destruct (str_eqb id id') eqn:Ei; [apply str_eqb_eq in Ei as ->; rewrite mget_mset_same; reflexivity|]. rewrite mget_mset_other; [reflexivity|]. intros ->. rewrite str_eqb_refl in Ei. discriminate.
Qed.
Lemma index_seen : forall (m : smap (option (key K))) id m' v, index m id = (m', v) ->
  v = match mget id m with Some (Some k) => Some k | _ => None end /\
  forall i, match mget i m' with Some (Some k) => Some k | _ => None end = match mget i m with Some (Some k) => Some k | _ => None end.
Proof.
  intros m id m' v H. unfold index in H. destruct (mget id m) as [[k|]|] eqn:Em; injection H as <- <-; split; auto.
  intro i. destruct (str_eq_dec i id) as [->|N]; [rewrite mget_mset_same, Em; reflexivity|rewrite mget_mset_other by exact N; reflexivity].
Qed.
Lemma get_public_seen : forall s id s' v, get_public_key s id = (s', v) -> v = seen KEY_PUBLIC id s /\ alike_stores s s'.
Proof.
  intros s id s' v H. unfold get_public_key in H. destruct (index (pub_keys s) id) as [m v0] eqn:Ei. injection H as <- <-. destruct (index_seen _ _ _ _ Ei) as [-> H].
  split; [reflexivity|]. intros [] i; unfold seen; cbn; [apply H|reflexivity].
Qed.
Lemma get_secret_seen : forall s id s' v, get_secret_key s id = (s', v) -> v = seen KEY_SECRET id s /\ alike_stores s s'.
Proof.
  intros s id s' v H. unfold get_secret_key in H. destruct (index (sec_keys s) id) as [m v0] eqn:Ei. injection H as <- <-. destruct (index_seen _ _ _ _ Ei) as [-> H].
  split; [reflexivity|]. intros [] i; unfold seen; cbn; [reflexivity|apply H].
Qed.
Lemma get_key_seen : forall s id s' v, get_key s id = (s', v) ->
  v = match seen KEY_PUBLIC id s with Some k => Some k | None => seen KEY_SECRET id s end /\ alike_stores s s'.
Proof.
  intros s id s' v H. unfold get_key in H. destruct (get_public_key s id) as [s1 v1] eqn:E1. apply get_public_seen in E1 as [-> A].
  destruct (seen KEY_PUBLIC id s) as [k|]; [injection H as <- <-; auto|]. apply get_secret_seen in H as [-> B]. split; [apply A|]. intros c i. rewrite B, A. reflexivity.
Qed.
Lemma mmem_del : forall (m : smap (option (key K))) id i,
  match mget i (if mmem id m then mdel id m else m) with Some (Some k) => Some k | _ => None end =
  if str_eqb id i then None else match mget i m with Some (Some k) => Some k | _ => None end.
Proof.
  intros m id i. unfold mmem. destruct (mget id m) as [v|] eqn:Em.
  - destruct (str_eqb id i) eqn:Ei; [apply str_eqb_eq in Ei as ->; rewrite mget_mdel_same; reflexivity|]. rewrite mget_mdel_other; [reflexivity|]. intros ->. rewrite str_eqb_refl in Ei. discriminate.
  - destruct (str_eqb id i) eqn:Ei; [apply str_eqb_eq in Ei as ->; rewrite Em; reflexivity|reflexivity].
Qed.
Lemma drop_seen : forall id w, exists w', drop_key E id w = (w', Ok 0) /\ forall c i, seen c i (w_store E w') = if str_eqb id i then None else seen c i (w_store E w).
Proof.
  intros id w. unfold drop_key, delete_key. destruct (get_key (w_store E w) id) as [s1 v] eqn:Eg. apply get_key_seen in Eg as [Hv A]. destruct v as [k|].
  - assert (negb (mmem id (pub_keys s1)) && negb (mmem id (sec_keys s1)) = false) as ->.
    { pose proof (A KEY_PUBLIC id) as A1. pose proof (A KEY_SECRET id) as A2. unfold mmem. unfold seen in *. cbn [class_map] in *. apply andb_false_iff.
      destruct (mget id (pub_keys (w_store E w))) as [[z|]|]; [left|right|right].
      - destruct (mget id (pub_keys s1)); [reflexivity|discriminate].
      - rewrite <- Hv in A2. destruct (mget id (sec_keys s1)); [reflexivity|discriminate].
      - rewrite <- Hv in A2. destruct (mget id (sec_keys s1)); [reflexivity|discriminate]. }
    eexists. split; [reflexivity|]. intros c i. rewrite <- (A c i). unfold seen. destruct c; cbn [w_store set_store class_map pub_keys sec_keys]; apply mmem_del.
  - eexists. split; [reflexivity|]. intros c i. cbn [w_store set_store]. rewrite (A c i). destruct (str_eqb id i) eqn:Ei; [|reflexivity]. apply str_eqb_eq in Ei as <-.
    destruct (seen KEY_PUBLIC id (w_store E w)) eqn:P; [discriminate|]. destruct c; [exact P|symmetry; exact Hv].
Qed.
Lemma both_new_seen : forall mpk msk w, exists w1 b, both_new E mpk msk w = (w1, Ok b) /\ alike_stores (w_store E w) (w_store E w1) /\
  b = match seen KEY_PUBLIC mpk (w_store E w), seen KEY_SECRET mpk (w_store E w), seen KEY_PUBLIC msk (w_store E w), seen KEY_SECRET msk (w_store E w) with None, None, None, None => true | _, _, _, _ => false end.
Proof.
  intros mpk msk w. unfold both_new, andthen, is_new_id, validate_new_params_id. destruct (get_key (w_store E w) mpk) as [s1 v1] eqn:E1. apply get_key_seen in E1 as [H1 A1].
  destruct v1 as [k|].
  - eexists _, _. split; [reflexivity|]. split; [exact A1|]. destruct (seen KEY_PUBLIC mpk (w_store E w)); [reflexivity|]. rewrite <- H1. reflexivity.
  - cbn [w_store set_store]. destruct (get_key s1 msk) as [s2 v2] eqn:E2. apply get_key_seen in E2 as [H2 A2].
    destruct (seen KEY_PUBLIC mpk (w_store E w)) eqn:P1; [discriminate|]. rewrite <- H1. rewrite !A1 in H2.
    eexists _, _. split; [reflexivity|]. split; [intros c i; cbn [w_store set_store]; rewrite A2, A1; reflexivity|].
    destruct (seen KEY_PUBLIC msk (w_store E w)); [subst v2; reflexivity|]. rewrite <- H2. destruct v2; reflexivity.
Qed.
(** ** Calls that find no key *)
Lemma public_seen : forall id w, exists w', public_key E id w = (w', Ok (seen KEY_PUBLIC id (w_store E w))) /\ alike_stores (w_store E w) (w_store E w') /\ w_ct E w' = w_ct E w /\ w_off E w' = w_off E w.
Proof. intros id w. unfold public_key. destruct (get_public_key (w_store E w) id) as [s v] eqn:Eg. apply get_public_seen in Eg as [-> A]. eexists. split; [reflexivity|]. split; [exact A|]. split; reflexivity. Qed.
Lemma secret_seen : forall id w, exists w', secret_key E id w = (w', Ok (seen KEY_SECRET id (w_store E w))) /\ alike_stores (w_store E w) (w_store E w') /\ w_ct E w' = w_ct E w /\ w_off E w' = w_off E w.
Proof. intros id w. unfold secret_key. destruct (get_secret_key (w_store E w) id) as [s v] eqn:Eg. apply get_secret_seen in Eg as [-> A]. eexists. split; [reflexivity|]. split; [exact A|]. split; reflexivity. Qed.
Definition takes (list : bool) (inp : input) : Prop := match inp with InAttrs _ => list = true | InPolicy _ => list = false | InNull => False end.
Definition key_takes (sch : scheme) : bool := match sch with CP => true | KP => false end.
Lemma keygen_missing : forall sch inp id mpk msk w, takes (key_takes sch) inp -> seen KEY_PUBLIC mpk (w_store E w) = None \/ seen KEY_SECRET msk (w_store E w) = None ->
  exists w', keygen E sch inp id mpk msk w = (w', Ok 5) /\ alike_stores (w_store E w) (w_store E w').
Proof.
  intros sch inp id mpk msk w T M. destruct (public_seen mpk w) as (w1 & E1 & A1 & _). destruct (secret_seen msk w1) as (w2 & E2 & A2 & _). exists w2.
  split; [|intros c i; rewrite A2, A1; reflexivity]. rewrite A1 in E2.
  destruct sch, inp; cbn [takes key_takes] in T; try discriminate; try contradiction; cbn [keygen]; unfold cp_keygen, kp_keygen, catch_code; erewrite andthen_ok by exact E1; erewrite andthen_ok by exact E2;
    destruct M as [-> | ->]; try reflexivity; destruct (seen KEY_PUBLIC mpk (w_store E w)); reflexivity.
Qed.
Lemma keygen_kind : forall sch inp id mpk msk w, ~ takes (key_takes sch) inp -> keygen E sch inp id mpk msk w = (w, Ok 8).
Proof. intros sch inp id mpk msk w N. destruct sch, inp; try (destruct N; reflexivity); reflexivity. Qed.
Lemma encrypt_missing : forall sch inp mpk pt w, takes (negb (key_takes sch)) inp -> seen KEY_PUBLIC mpk (w_store E w) = None ->
  exists w', encrypt E sch mpk inp pt w = (w', Ok 5) /\ alike_stores (w_store E w) (w_store E w').
Proof.
  intros sch inp mpk pt w T M. destruct (public_seen mpk (set_sym E w [])) as (w1 & E1 & A1 & _). exists w1. split; [|intros c i; apply (A1 c i)].
  assert (encrypt_kem E sch mpk inp 32 (set_sym E w []) = (w1, Ok 5)) as X.
  { change (seen KEY_PUBLIC mpk (w_store E (set_sym E w []))) with (seen KEY_PUBLIC mpk (w_store E w)) in E1. rewrite M in E1.
    destruct sch, inp; cbn [takes key_takes negb] in T; try discriminate; try contradiction; cbn [encrypt_kem]; unfold cp_encrypt_kem, kp_encrypt_kem, catch_code; erewrite andthen_ok by exact E1; reflexivity. }
  unfold encrypt, catch_code, fresh_sym. unfold andthen at 1. unfold andthen at 1. rewrite X. reflexivity.
Qed.
Lemma encrypt_kind : forall sch inp mpk pt w, ~ takes (negb (key_takes sch)) inp -> encrypt E sch mpk inp pt w = (set_sym E w [], Ok 8).
Proof.
  intros sch inp mpk pt w N. unfold encrypt, catch_code, fresh_sym. unfold andthen at 1. unfold andthen at 1.
  assert (encrypt_kem E sch mpk inp 32 (set_sym E w []) = (set_sym E w [], Ok 8)) as -> by (destruct sch, inp; try (destruct N; reflexivity); reflexivity). reflexivity.
Qed.
Lemma decrypt_missing : forall sch mpk kid w, seen KEY_SECRET kid (w_store E w) = None ->
  exists w', decrypt E sch mpk kid w = (w', Ok (8, [])) /\ alike_stores (w_store E w) (w_store E w') /\ w_ct E w' = w_ct E w.
Proof.
  intros sch mpk kid w M. destruct (secret_seen kid (set_sym E w [])) as (w1 & E1 & A1 & C1 & _). exists w1. split; [|split; [intros c i; apply (A1 c i)|exact C1]].
  change (seen KEY_SECRET kid (w_store E (set_sym E w []))) with (seen KEY_SECRET kid (w_store E w)) in E1. rewrite M in E1.
  assert (decrypt_kem E sch mpk kid 32 (set_sym E w []) = (w1, Ok 8)) as X by (destruct sch; cbn [decrypt_kem]; unfold cp_decrypt_kem, kp_decrypt_kem, catch_code; erewrite andthen_ok by exact E1; reflexivity).
  unfold decrypt, decrypt_body, fresh_sym. unfold andthen at 1. unfold andthen at 1. rewrite X. reflexivity.
Qed.

(** ** Keys that travel, any number of times *)
Definition fit (sch : scheme) (k : key K) : Prop := (exists nm, len nm < 2 ^ 31 /\ stamped E (alg_of sch) nm k) /\ sound (k_parts k).
Lemma export_seen : forall id w, exists w', export_key E id [] w =
  (w', match (match seen KEY_PUBLIC id (w_store E w) with Some k => Some k | None => seen KEY_SECRET id (w_store E w) end) with None => Ok (8, []) | Some k => do b <- key_export k; Ok (0, b) end) /\ alike_stores (w_store E w) (w_store E w').
Proof. intros id w. unfold export_key. destruct (get_key (w_store E w) id) as [s v] eqn:Eg. apply get_key_seen in Eg as [-> A]. eexists. split; [reflexivity|exact A]. Qed.
Lemma key_travels : forall sch k, curve_ok K -> fit sch k -> k_parts k <> [] -> light E (k_parts k) ->
  exists blob, key_export k = Ok blob /\ forall id' c w, exists w' k', load_key E sch id' blob c w = (w', Ok 0) /\ w_store E w' = add_key (w_store E w) id' (Some k') c /\
    carried E (k_parts k) (k_parts k') /\ fit sch k'.
Proof.
  intros sch k HK [(nm & Hi & A1 & A2 & A3 & A4) So] Hne Hl. pose proof So as [S1 S2].
  assert (known_scheme (k_alg k)) as Ha by (rewrite A1; unfold known_scheme; destruct sch; cbn; tauto).
  destruct (key_export k) as [blob| | | |] eqn:Ex.
  2-5: (destruct (key_back K (e_mktime E) k [] [] HK S1 S2 Hne Hl ltac:(lia) Ha A3 ltac:(congruence)) as (b & k0 & body & k' & E1 & _); congruence).
  exists blob. split; [reflexivity|]. intros id' c w. destruct (key_back K (e_mktime E) k [] (e_bytes E (w_off E w) 16) HK S1 S2 Hne Hl ltac:(lia) Ha A3 ltac:(congruence)) as (b & k0 & body & k' & E1 & E2 & E3 & E4 & E5 & E6 & _ & E7).
  rewrite Ex in E1. injection E1 as <-. unfold load_key, random_bytes. erewrite andthen_ok by apply tick_ok. rewrite E2. erewrite andthen_ok by apply lift_ok. cbv beta iota.
  assert (k_version k0 = 170 /\ k_parts k0 = []) as [V0 P0].
  { unfold parse_key_header in E2. destruct (construct_key K blob [] (e_bytes E (w_off E w) 16)) as [[[kk|] bb]| | | |] eqn:Ec; try discriminate. injection E2 as -> ->.
    unfold construct_key in Ec. destruct (len blob <? 18); [discriminate|]. destruct (unpack blob 0) as [[header i]| | | |]; try discriminate. cbn [bind] in Ec. destruct (18 <=? len header); [|discriminate].
    destruct (at_ header 0) as [version| | | |]; try discriminate. cbn [bind] in Ec. destruct (at_ header 1) as [alg| | | |]; try discriminate. cbn [bind] in Ec. destruct (version <=? 170); [|discriminate].
    destruct (get_scheme_id alg) as [id| | | |]; try discriminate. destruct (get_subset header 2 16) as [uid| | | |]; try discriminate. cbn [bind] in Ec.
    destruct (if 18 <? len header then get_subset header 18 (len header - 18) else Ok []) as [ident| | | |]; try discriminate. cbn [bind] in Ec.
    destruct (unpack blob i) as [[b2 i2]| | | |]; try discriminate. cbn [bind] in Ec. injection Ec as <- _. split; reflexivity. }
  unfold key_load in E3. rewrite P0 in E3. destruct (deserialize K (e_mktime E) [] body) as [p r] eqn:Ed. injection E3 as <- ->. cbn [k_alg k_uid k_id k_parts] in *.
  rewrite E4, A1, Z.eqb_refl. cbn [negb]. unfold key_load. rewrite P0, Ed. erewrite andthen_ok by apply lift_ok. erewrite andthen_ok by apply put_key_ok. eexists _, _. split; [reflexivity|]. split; [reflexivity|].
  split; [apply same_content_carried; exact E7|].
  assert (lists_made K (e_mktime E) p /\ msorted p) as [M1 M2] by (eapply loop_made; [exact Ed|intros n l G; discriminate|apply msorted_nil]).
  split.
  - exists nm. split; [exact Hi|]. split; [cbn [k_alg]; congruence|]. split; [exact V0|]. split; [cbn [k_uid]; congruence|cbn [k_id]; congruence].
  - cbn [k_parts]. eapply sound_again; eauto.
Qed.
End Store.
