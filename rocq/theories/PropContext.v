(** C90-C94: using an attribute-based encryption context. *)
From Verif Require Import Base ByteString StrMap Dec UInteger Policy Lsss LsssSpec PolicySyntax Lexical CreatePolicy CreateAttrs PolicyMeaning AttrMeaning Driver Parser AttrList Field PropField PropLsss PropParser Utils Kdf PropUtil Container ContainerSpec ContainerProofs Keystore Scheme SchemeSpec SchemeRows SchemeStep SchemeCp SchemeKp SchemeFrame SchemeUse SchemeFirm SchemeHarm SchemeKeep SchemeSession DeliverySpec SchemeTravel SchemeToy PropScheme.
From Coq Require Import ZArith Znumtheory List Ascii Bool Lia Permutation.
Import ListNotations.
Open Scope Z_scope.

(** A key object of the store, as the calls see it. *)
Definition stored E (c : key_class) (id : str) (k : key (e_curve E)) (x : context E) : Prop :=
  mget id (match c with KEY_PUBLIC => pub_keys (fst x) | KEY_SECRET => sec_keys (fst x) end) = Some (Some k).
(** The same key: header and components. *)
Definition alike E (k k' : key (e_curve E)) : Prop :=
  k_version k' = k_version k /\ k_alg k' = k_alg k /\ k_uid k' = k_uid k /\ k_id k' = k_id k /\ k_type k' = k_type k /\
  forall name o, mget name (k_parts k') = Some (Some o) <-> mget name (k_parts k) = Some (Some o).
Lemma stored_has : forall E c id k x, stored E c id k x <-> has E c id k (fst x).
Proof. intros E [] id k x; reflexivity. Qed.

(** * C90 *)
Theorem C90_parameters : forall E sch mpk msk x, lawful E ->
  exists w c, generate_params E sch mpk msk (start E x (no_ct E)) = (w, Ok c) /\
    (c = 0 /\ (forall cl k, ~ stored E cl mpk k x /\ ~ stored E cl msk k x) /\ (exists kp, stored E KEY_PUBLIC mpk kp (left_by E w)) /\ (exists ks, stored E KEY_SECRET msk ks (left_by E w)) \/
     c = 17 /\ (exists cl k, stored E cl mpk k x \/ stored E cl msk k x)) /\
    (forall cl id k, stored E cl id k x -> exists k', stored E cl id k' (left_by E w) /\ alike E k k').
Proof.
  intros E sch mpk msk x HE. destruct (both_new_ok E mpk msk (start E x (no_ct E))) as (w1 & b & Eb). destruct b.
  - assert (exists kp ks off, generate_params E sch mpk msk (start E x (no_ct E)) = (set_off E (set_store E w1 (add_key (add_key (w_store E w1) mpk (Some kp) KEY_PUBLIC) msk (Some ks) KEY_SECRET)) off, Ok 0)) as (kp & ks & off & Eg).
    { destruct sch; cbn [generate_params]; [destruct (cp_generate_runs E HE mpk msk _ w1 Eb) as (P & kp & ks & off & X & _)|destruct (kp_generate_runs E HE mpk msk _ w1 Eb) as (P & kp & ks & off & X & _)]; eauto. }
    eexists _, 0. split; [exact Eg|]. split.
    + left. split; [reflexivity|]. split; [|split].
      * intros cl k. split; intro H; apply stored_has in H; destruct (both_new_free E mpk msk _ w1 Eb cl k _ H) as [A B]; congruence.
      * exists kp. unfold stored. cbn. apply mget_mset_same.
      * exists ks. unfold stored. cbn. apply mget_mset_same.
    + intros cl id k H. pose proof (frames_generate E cl id HE sch mpk msk (start E x (no_ct E))) as F. rewrite Eg in F. exact (F k (proj1 (stored_has E cl id k x) H)).
  - exists w1, 17. assert (generate_params E sch mpk msk (start E x (no_ct E)) = (w1, Ok 17)) as Eg by (destruct sch; cbn [generate_params]; unfold cp_generate_params, kp_generate_params, catch_code; erewrite andthen_ok by exact Eb; reflexivity).
    split; [exact Eg|]. split.
    + right. split; [reflexivity|]. unfold both_new, andthen, is_new_id, validate_new_params_id in Eb.
      destruct (get_key (w_store E (start E x (no_ct E))) mpk) as [s1 v] eqn:E1. destruct v as [k|].
      * unfold get_key, get_public_key, get_secret_key, index in E1. unfold stored. cbn [start w_store] in E1.
        destruct (mget mpk (pub_keys (fst x))) as [[v|]|] eqn:M; [exists KEY_PUBLIC, v; left; exact M| |];
          (cbn [sec_keys] in E1; destruct (mget mpk (sec_keys (fst x))) as [[v|]|] eqn:M2; try discriminate; exists KEY_SECRET, v; left; exact M2).
      * cbn [w_store set_store] in Eb. destruct (get_key s1 msk) as [s2 v2] eqn:E2. destruct v2 as [k|]; [|discriminate].
        unfold get_key, get_public_key, get_secret_key, index in E1, E2. unfold stored. cbn [start w_store] in E1.
        assert (forall i v, mget i (pub_keys s1) = Some (Some v) -> mget i (pub_keys (fst x)) = Some (Some v)) as A1.
        { intros i v. destruct (mget mpk (pub_keys (fst x))) as [[z|]|] eqn:M; try discriminate; cbn [sec_keys] in E1; destruct (mget mpk (sec_keys (fst x))) as [[z|]|]; try discriminate; injection E1 as <-; cbn [pub_keys]; auto;
            destruct (str_eq_dec i mpk) as [->|N]; [rewrite mget_mset_same; discriminate|rewrite mget_mset_other by exact N; auto|rewrite mget_mset_same; discriminate|rewrite mget_mset_other by exact N; auto]. }
        assert (forall i v, mget i (sec_keys s1) = Some (Some v) -> mget i (sec_keys (fst x)) = Some (Some v)) as A2.
        { intros i v. destruct (mget mpk (pub_keys (fst x))) as [[z|]|] eqn:M; try discriminate; cbn [sec_keys] in E1; destruct (mget mpk (sec_keys (fst x))) as [[z|]|]; try discriminate; injection E1 as <-; cbn [sec_keys]; auto;
            destruct (str_eq_dec i mpk) as [->|N]; [rewrite mget_mset_same; discriminate|rewrite mget_mset_other by exact N; auto|rewrite mget_mset_same; discriminate|rewrite mget_mset_other by exact N; auto]. }
        destruct (mget msk (pub_keys s1)) as [[v|]|] eqn:M; [exists KEY_PUBLIC, v; right; apply A1; exact M| |];
          (cbn [sec_keys] in E2; destruct (mget msk (sec_keys s1)) as [[v|]|] eqn:M2; try discriminate; exists KEY_SECRET, v; right; apply A2; exact M2).
    + intros cl id k H. pose proof (frames_generate E cl id HE sch mpk msk (start E x (no_ct E))) as F. rewrite Eg in F. exact (F k (proj1 (stored_has E cl id k x) H)).
Qed.
Print Assumptions C90_parameters.

(** * C91 *)
Theorem C91_keys_survive : forall E sch c id k h x y, lawful E -> history E sch h x y -> spares E c id h ->
  stored E c id k x -> exists k', stored E c id k' y /\ alike E k k'.
Proof. intros E sch c id k h x y HE H S0 Hk. exact (history_steady E HE sch c id h x y H S0 k (proj1 (stored_has E c id k x) Hk)). Qed.
Print Assumptions C91_keys_survive.
(** The master secret is an ordinary secret key of the store: a user key generated
    under its name replaces it, code 0, and no key can be generated afterwards. *)
Theorem C91_master_key_safe_refuted : forall sch,
  let l := parsed_list (L "a|b") in let q := parsed_policy (L "a and b") in let ki := match sch with CP => InAttrs l | KP => InPolicy q end in
  exists x y z w, generate_params toy_engine sch (L "mpk") (L "msk") (start toy_engine (new_store, 0%nat) (no_ct toy_engine)) = (x, Ok 0) /\
    keygen toy_engine sch ki (L "msk") (L "mpk") (L "msk") (start toy_engine (left_by toy_engine x) (no_ct toy_engine)) = (y, Ok 0) /\
    keygen toy_engine sch ki (L "alice") (L "mpk") (L "msk") (start toy_engine (left_by toy_engine x) (no_ct toy_engine)) = (z, Ok 0) /\
    keygen toy_engine sch ki (L "alice") (L "mpk") (L "msk") (start toy_engine (left_by toy_engine y) (no_ct toy_engine)) = (w, Ok 18).
Proof.
  intros sch l q ki. pose (x := w_params toy_engine sch). pose (y := fst (keygen toy_engine sch ki (L "msk") (L "mpk") (L "msk") (start toy_engine (left_by toy_engine x) (no_ct toy_engine)))).
  exists x, y, (fst (keygen toy_engine sch ki (L "alice") (L "mpk") (L "msk") (start toy_engine (left_by toy_engine x) (no_ct toy_engine)))), (fst (keygen toy_engine sch ki (L "alice") (L "mpk") (L "msk") (start toy_engine (left_by toy_engine y) (no_ct toy_engine)))).
  assert (forall A (m : world toy_engine * res A) r, snd m = r -> m = (fst m, r)) as P by (intros A [a b] r <-; reflexivity).
  split; [apply P; destruct sch; vm_compute; reflexivity|]. split; [apply P; destruct sch; vm_compute; reflexivity|]. split; (apply P; destruct sch; vm_compute; reflexivity).
Qed.
Print Assumptions C91_master_key_safe_refuted.

(** * C92 *)
Definition missing E (c : key_class) (id : str) (x : context E) : Prop := forall k, ~ stored E c id k x.
(** generateDecryptionKey of CP and encrypt of KP take a list; the others a policy. *)
Definition wants_list (sch : scheme) (keygen : bool) : bool := match sch with CP => keygen | KP => negb keygen end.
Definition fits (list : bool) (inp : input) : bool := match inp with InAttrs _ => list | InPolicy _ => negb list | InNull => false end.
Lemma public_missing : forall E id w, missing E KEY_PUBLIC id (left_by E w) -> exists w', public_key E id w = (w', Ok None) /\ sec_keys (w_store E w') = sec_keys (w_store E w).
Proof.
  intros E id w H. unfold public_key, get_public_key, index. destruct (mget id (pub_keys (w_store E w))) as [[v|]|] eqn:M; [elim (H v); exact M| |]; eexists; split; reflexivity.
Qed.
Lemma public_any : forall E id w, exists w' v, public_key E id w = (w', Ok v) /\ sec_keys (w_store E w') = sec_keys (w_store E w).
Proof. intros E id w. unfold public_key, get_public_key, index. destruct (mget id (pub_keys (w_store E w))) as [v|]; do 2 eexists; split; reflexivity. Qed.
Lemma secret_missing : forall E id w, missing E KEY_SECRET id (left_by E w) -> exists w', secret_key E id w = (w', Ok None).
Proof.
  intros E id w H. unfold secret_key, get_secret_key, index. destruct (mget id (sec_keys (w_store E w))) as [[v|]|] eqn:M; [elim (H v); exact M| |]; eexists; reflexivity.
Qed.
Lemma secret_any : forall E id w, exists w' v, secret_key E id w = (w', Ok v).
Proof. intros E id w. unfold secret_key, get_secret_key, index. destruct (mget id (sec_keys (w_store E w))) as [v|]; do 2 eexists; reflexivity. Qed.
Theorem C92_missing_reported : forall E sch x ct kid mpk msk inp pt,
  (missing E KEY_SECRET kid x -> exists w, decrypt E sch mpk kid (start E x ct) = (w, Ok (8, []))) /\
  (fits (wants_list sch true) inp = false -> exists w, keygen E sch inp kid mpk msk (start E x ct) = (w, Ok 8)) /\
  (fits (wants_list sch true) inp = true -> missing E KEY_PUBLIC mpk x \/ missing E KEY_SECRET msk x -> exists w, keygen E sch inp kid mpk msk (start E x ct) = (w, Ok 5)) /\
  (fits (wants_list sch false) inp = false -> exists w, encrypt E sch mpk inp pt (start E x ct) = (w, Ok 8)) /\
  (fits (wants_list sch false) inp = true -> missing E KEY_PUBLIC mpk x -> exists w, encrypt E sch mpk inp pt (start E x ct) = (w, Ok 5)) /\
  (missing E KEY_PUBLIC mpk x -> exists w, get_hash_key E mpk (start E x ct) = (w, Throw (OpenABEError 5))).
Proof.
  intros E sch x ct kid mpk msk inp pt. repeat split.
  - intro H. assert (exists w, decrypt_kem E sch mpk kid 32 (set_sym E (start E x ct) []) = (w, Ok 8)) as (w & Hw).
    { destruct (secret_missing E kid (set_sym E (start E x ct) [])) as (w & Hs); [destruct x; exact H|]. exists w.
      destruct sch; cbn [decrypt_kem]; unfold cp_decrypt_kem, kp_decrypt_kem, catch_code; erewrite andthen_ok by exact Hs; reflexivity. }
    exists w. unfold decrypt, decrypt_body, fresh_sym. unfold andthen at 1. unfold andthen at 1. rewrite Hw. reflexivity.
  - intro H. eexists. destruct sch, inp; try discriminate; reflexivity.
  - intros H [M|M].
    + destruct (public_missing E mpk (start E x ct)) as (w & Hp & _); [destruct x; exact M|]. destruct (secret_any E msk w) as (w2 & v & Hs).
      exists w2. destruct sch, inp; try discriminate; cbn [keygen]; unfold cp_keygen, kp_keygen, catch_code; erewrite andthen_ok by exact Hp; erewrite andthen_ok by exact Hs; reflexivity.
    + destruct (public_any E mpk (start E x ct)) as (w & v & Hp & Es). destruct (secret_missing E msk w) as (w2 & Hs).
      { intros k Hk. apply (M k). unfold stored in *. cbn [left_by fst] in Hk. rewrite Es in Hk. exact Hk. }
      exists w2. destruct sch, inp; try discriminate; cbn [keygen]; unfold cp_keygen, kp_keygen, catch_code; erewrite andthen_ok by exact Hp; erewrite andthen_ok by exact Hs; destruct v; reflexivity.
  - intro H. eexists. unfold encrypt, catch_code, fresh_sym. unfold andthen at 1. unfold andthen at 1.
    assert (encrypt_kem E sch mpk inp 32 (set_sym E (start E x ct) []) = (set_sym E (start E x ct) [], Ok 8)) as -> by (destruct sch, inp; try discriminate; reflexivity). reflexivity.
  - intros H M. destruct (public_missing E mpk (set_sym E (start E x ct) [])) as (w & Hp & _); [destruct x; exact M|].
    exists w. unfold encrypt, catch_code, fresh_sym. unfold andthen at 1. unfold andthen at 1.
    assert (encrypt_kem E sch mpk inp 32 (set_sym E (start E x ct) []) = (w, Ok 5)) as ->.
    { destruct sch, inp; try discriminate; cbn [encrypt_kem]; unfold cp_encrypt_kem, kp_encrypt_kem, catch_code; erewrite andthen_ok by exact Hp; reflexivity. } reflexivity.
  - intro M. destruct (public_missing E mpk (start E x ct)) as (w & Hp & _); [destruct x; exact M|]. exists w. unfold get_hash_key. erewrite andthen_ok by exact Hp. reflexivity.
Qed.
Print Assumptions C92_missing_reported.
(** Exporting a key that is in neither class reports it and leaves the caller's
    buffer; asking for a secret key changes nothing, is right about a key that is
    there and about a name the context never met. *)
Theorem C92_absent_reported : forall E x ct id out,
  (missing E KEY_PUBLIC id x -> missing E KEY_SECRET id x -> exists w, export_key E id out (start E x ct) = (w, Ok (8, out))) /\
  (forall k, stored E KEY_SECRET id k x -> has_secret_key E id (start E x ct) = (start E x ct, Ok true)) /\
  (~ In id (mkeys (sec_keys (fst x))) -> has_secret_key E id (start E x ct) = (start E x ct, Ok false)).
Proof.
  intros E [s off] ct id out. split; [|split].
  - intros P Q. unfold export_key, get_key, get_public_key, get_secret_key, index. cbn [start w_store fst].
    unfold missing, stored in *. cbn [fst] in *.
    destruct (mget id (pub_keys s)) as [[v|]|] eqn:M; [elim (P v); reflexivity| |]; cbn [sec_keys];
      (destruct (mget id (sec_keys s)) as [[v|]|] eqn:M2; [elim (Q v); reflexivity| |]; eexists; reflexivity).
  - intros k H. unfold stored in H. unfold has_secret_key, check_secret_key, mmem. cbn [start w_store fst] in *. rewrite H. reflexivity.
  - intro H. apply mget_None in H. unfold has_secret_key, check_secret_key, mmem. cbn [start w_store fst] in *. rewrite H. reflexivity.
Qed.
Print Assumptions C92_absent_reported.
Example C92_nonvacuous : missing toy_engine KEY_SECRET (L "alice") (new_store, 0%nat) /\ fits (wants_list CP true) (InAttrs (parsed_list (L "a"))) = true.
Proof. split; [intros k H; discriminate H|reflexivity]. Qed.

(** * C93 *)
(** What a ciphertext holds besides the policy decides between an error code and
    undefined behaviour. *)
Definition ct_of (parts : container (e_curve toy_engine)) : ciphertext (e_curve toy_engine) := with_parts (no_ct toy_engine) parts.
Definition key_for (sch : scheme) : context toy_engine := left_by toy_engine (w_alice toy_engine sch (match sch with CP => InAttrs (parsed_list (L "a|b")) | KP => InPolicy (parsed_policy (L "a and b")) end)).
Theorem C93_hostile_ciphertext_refuted :
  (exists w, decrypt toy_engine CP [] (L "alice") (start toy_engine (key_for CP) (ct_of [(L "policy", Some (OBytes (L "(a")))])) = (w, UB)) /\
  (exists w, decrypt toy_engine KP [] (L "alice") (start toy_engine (key_for KP) (ct_of [(L "attributes", Some (OBytes (L "a|b")))])) = (w, UB)) /\
  (exists w, decrypt toy_engine KP [] (L "alice") (start toy_engine (key_for KP)
     (ct_of [(L "C_a", Some (OBytes [])); (L "C_b", Some (OBytes [])); (L "attributes", Some (OAttrs (parsed_list (L "a|b"))))])) = (w, UB)).
Proof.
  assert (forall A (m : world toy_engine * res A) r, snd m = r -> exists w, m = (w, r)) as P by (intros A [a b] r <-; eauto).
  split; [apply P; vm_compute; reflexivity|]. split; apply P; vm_compute; reflexivity.
Qed.
Print Assumptions C93_hostile_ciphertext_refuted.

(** A user key as the authority's context holds it: parameters, other calls,
    generateDecryptionKey, other calls that spare the key. *)
Inductive issued E sch (kinp : input) (kid : str) (k : key (e_curve E)) (x : context E) : Prop :=
| issue : forall mpk msk x0 w1 h1 x2 w3 r h2,
    generate_params E sch mpk msk (start E x0 (no_ct E)) = (w1, Ok 0) ->
    history E sch h1 (left_by E w1) x2 -> spares E KEY_PUBLIC mpk h1 -> spares E KEY_SECRET msk h1 ->
    keygen E sch kinp kid mpk msk (start E x2 (no_ct E)) = (w3, r) ->
    stored E KEY_SECRET kid k (left_by E w3) ->
    history E sch h2 (left_by E w3) x -> spares E KEY_SECRET kid h2 ->
    issued E sch kinp kid k x.
Definition key_input (sch : scheme) (q : policy) (l : attrlist) : input := match sch with CP => InAttrs l | KP => InPolicy q end.
Lemma issued_ready : forall E sch e s a t q l kid k x, lawful E -> texts (e_mktime E) e s a t ->
  create_policy_tree (e_mktime E) s = Ok (Some q) -> create_attribute_list (e_mktime E) t = Ok (Some l) ->
  no_collision (short_label E) (aattrs l) -> no_collision (short_label E) (row_names q) ->
  issued E sch (key_input sch q l) kid k x ->
  ready E sch (k_parts k) /\ exists k', stored E KEY_SECRET kid k' x /\ fit E sch q (k_parts k') /\ alike E k k'.
Proof.
  intros E sch e s a t q l kid k x HE T Hq Hl N1 N2 H. destruct (texts_usable E e s a t q l T Hq Hl) as (r & U & _).
  destruct H as [mpk msk x0 w1 h1 x2 w3 rk h2 E1 H1 S1 S1' E2 Hk H2 S2]. apply stored_has in Hk.
  assert (forall k', has E KEY_SECRET kid k' (fst x) -> fit E sch q (k_parts k') -> fit E sch q (k_parts k) -> alike E k k' -> ready E sch (k_parts k) /\ exists k', stored E KEY_SECRET kid k' x /\ fit E sch q (k_parts k') /\ alike E k k') as Fin.
  { intros k' A B B' C. split; [eapply fit_ready; exact B'|]. exists k'. split; [apply stored_has; exact A|]. auto. }
  destruct sch; cbn [key_input generate_params keygen] in *.
  - destruct (cp_generate_ok E HE _ _ _ _ E1) as (P & kp & ks & Hp & Hs & Pp & Pm & _).
    destruct (steady_carried E _ _ _ _ _ (history_steady E HE CP _ _ _ _ _ H1 S1) Hp) as (kp2 & Hp2 & C1).
    destruct (steady_carried E _ _ _ _ _ (history_steady E HE CP _ _ _ _ _ H1 S1') Hs) as (ks2 & Hs2 & C2).
    destruct (cp_keygen_ok E HE P l kid mpk msk kp2 ks2 (start E x2 (no_ct E)) Hp2 Hs2 (cp_public_carried E _ _ _ C1 Pp) (cp_master_carried E _ _ _ C2 Pm) N1) as (dec & off & Ek & Pu & _).
    rewrite E2 in Ek. injection Ek as -> ->.
    assert (k = dec) as -> by (cut (Some (Some k) = Some (Some dec)); [congruence|rewrite <- Hk; apply mget_mset_same]).
    destruct (history_steady E HE CP _ _ _ _ _ H2 S2 dec Hk) as (k4 & Hk4 & C4).
    apply (Fin k4 Hk4); [apply (cp_user_ready E P (aattrs l)); eapply cp_user_carried; [apply same_key_carried; exact C4|exact Pu]|apply (cp_user_ready E P (aattrs l)); exact Pu|exact C4].
  - destruct (kp_generate_ok E HE _ _ _ _ E1) as (P & kp & ks & Hp & Hs & Pp & Pm & _).
    destruct (steady_carried E _ _ _ _ _ (history_steady E HE KP _ _ _ _ _ H1 S1) Hp) as (kp2 & Hp2 & C1).
    destruct (steady_carried E _ _ _ _ _ (history_steady E HE KP _ _ _ _ _ H1 S1') Hs) as (ks2 & Hs2 & C2).
    destruct (kp_keygen_ok E HE P q r kid mpk msk kp2 ks2 (start E x2 (no_ct E)) Hp2 Hs2 (kp_public_carried E _ _ _ C1 Pp) (kp_master_carried E _ _ _ C2 Pm) U N2) as (dec & off & Ek & Pu & _).
    rewrite E2 in Ek. injection Ek as -> ->.
    assert (k = dec) as -> by (cut (Some (Some k) = Some (Some dec)); [congruence|rewrite <- Hk; apply mget_mset_same]).
    destruct (history_steady E HE KP _ _ _ _ _ H2 S2 dec Hk) as (k4 & Hk4 & C4).
    apply (Fin k4 Hk4); [apply (kp_user_fit E P q r _ U); eapply kp_user_carried; [apply same_key_carried; exact C4|exact Pu]|apply (kp_user_fit E P q r _ U); exact Pu|exact C4].
Qed.

(** What an attacker may not put into a ciphertext: for CP a policy text that is
    not accepted by the policy parser; for KP an attribute list or an element C_x of
    another type; a body of two gigabytes. *)
Definition proper E (sch : scheme) (ct : ciphertext (e_curve E)) : Prop :=
  match sch with
  | CP => forall s, mget (L "policy") (ct_parts ct) = Some (Some (OBytes s)) -> exists q, create_policy_tree (e_mktime E) s = Ok (Some q)
  | KP => (forall o, mget (L "attributes") (ct_parts ct) = Some (Some o) -> exists l, o = OAttrs l) /\
          (forall x o, mget (L "C_" ++ x) (ct_parts ct) = Some (Some o) -> exists y, o = OG1 y)
  end /\
  forall b, mget (L "_ED") (ct_parts ct) = Some (Some (OBytes b)) -> len b < 2147483616.
(** With an issued key every such ciphertext, whatever its other components, gets an
    answer; no key of the context changes and no component of the ciphertext is
    lost.  Missing for the full claim: the three cases of the refutation above. *)
Theorem C93_answers_partial : forall E sch e s a t q l kid k x ct mpk, lawful E -> texts (e_mktime E) e s a t ->
  create_policy_tree (e_mktime E) s = Ok (Some q) -> create_attribute_list (e_mktime E) t = Ok (Some l) ->
  no_collision (short_label E) (aattrs l) -> no_collision (short_label E) (row_names q) ->
  issued E sch (key_input sch q l) kid k x -> proper E sch ct ->
  exists w c pt, decrypt E sch mpk kid (start E x ct) = (w, Ok (c, pt)) /\ fst (left_by E w) = fst x /\
    forall n o, mget n (ct_parts ct) = Some (Some o) -> mget n (ct_parts (w_ct E w)) = Some (Some o).
Proof.
  intros E sch e s a t q l kid k x ct mpk HE T Hq Hl N1 N2 Hi [G1 G2]. destruct (issued_ready E sch e s a t q l kid k x HE T Hq Hl N1 N2 Hi) as (_ & k' & Hk & Hr & _). apply fit_ready in Hr.
  apply stored_has in Hk. destruct (decrypt_answers E HE sch mpk kid k' (start E x ct) Hk Hr) as (w & c & pt & A & B & C).
  { split; [|exact G2]. destruct sch; [exact G1|]. destruct G1 as [G1 G3]. split; [exact G1|]. intros y o. exact (G3 y o). }
  exists w, c, pt. split; [exact A|]. split; [exact B|]. intros n o Hn. destruct (C n) as [X|[X _]]; [rewrite X; exact Hn|cbn [start w_ct] in X; congruence].
Qed.
Print Assumptions C93_answers_partial.

(** Exactly what is not answered.  For CP: the component "policy" holds a text that
    the parser does not accept.  For KP: the component "attributes" is something
    else, or it is a list that satisfies the policy of the key and, going through
    the rows that recoverCoefficients found, the first component C_x that is not a
    G1 element is there (were it absent, the call would have ended with code 18).
    For both: decryptKEM succeeds and the length of the body, taken modulo 2^32, is
    above 2^31-32, or zero although the body is not empty. *)
Definition bad_length (b : str) : Prop := 2147483616 < len b mod 2 ^ 32 \/ len b mod 2 ^ 32 = 0 /\ b <> [].
Definition harmful E (sch : scheme) (q : policy) (mpk kid : str) (x : context E) (ct : ciphertext (e_curve E)) : Prop :=
  let at_ n o := mget n (ct_parts ct) = Some (Some o) in
  match sch with
  | CP => exists s, at_ (L "policy") (OBytes s) /\ forall q', create_policy_tree (e_mktime E) s <> Ok (Some q')
  | KP => exists o, at_ (L "attributes") o /\
      ((forall l, o <> OAttrs l) \/
       exists l rows before u lab c after o', o = OAttrs l /\ recover E (Some q) (Some l) = Ok (true, rows) /\ rows = before ++ (u, (lab, c)) :: after /\
         (forall u' lab' c', In (u', (lab', c')) before -> exists y, at_ (L "C_" ++ short_label E lab') (OG1 y)) /\
         at_ (L "C_" ++ short_label E lab) o' /\ forall y, o' <> OG1 y)
  end \/
  exists w b, decrypt_kem E sch mpk kid 32 (start E x ct) = (w, Ok 0) /\ at_ (L "_ED") (OBytes b) /\ bad_length b.
Theorem C93_exact : forall E sch e s a t q l kid k x ct mpk, lawful E -> texts (e_mktime E) e s a t ->
  create_policy_tree (e_mktime E) s = Ok (Some q) -> create_attribute_list (e_mktime E) t = Ok (Some l) ->
  no_collision (short_label E) (aattrs l) -> no_collision (short_label E) (row_names q) ->
  issued E sch (key_input sch q l) kid k x ->
  ((exists c pt, snd (decrypt E sch mpk kid (start E x ct)) = Ok (c, pt)) <-> ~ harmful E sch q mpk kid x ct) /\
  ((forall r, snd (decrypt E sch mpk kid (start E x ct)) <> Ok r) <-> harmful E sch q mpk kid x ct).
Proof.
  intros E sch e s a t q l kid k x ct mpk HE T Hq Hl N1 N2 Hi. destruct (issued_ready E sch e s a t q l kid k x HE T Hq Hl N1 N2 Hi) as (_ & k' & Hk & Hr & _).
  apply stored_has in Hk. assert (harm E sch q mpk kid (start E x ct) <-> harmful E sch q mpk kid x ct) as X.
  { unfold harm, harmful. cbn zeta. apply or_iff_compat_r. destruct sch; [reflexivity|]. cbn [kem_harm]. unfold kp_harm, first_bad. split.
    - intros (o & Ho & [Y|(l' & rows & -> & Er & b & u & lab & c & af & o' & Y)]); exists o || exists (OAttrs l'); (split; [exact Ho|]); [left; exact Y|right].
      exists l', rows, b, u, lab, c, af, o'. split; [reflexivity|]. split; [exact Er|]. exact Y.
    - intros (o & Ho & [Y|(l' & rows & b & u & lab & c & af & o' & -> & Er & Y)]); exists o || exists (OAttrs l'); (split; [exact Ho|]); [left; exact Y|right].
      exists l', rows. split; [reflexivity|]. split; [exact Er|]. exists b, u, lab, c, af, o'. exact Y. }
  destruct (decrypt_exact E HE sch q mpk kid k' (start E x ct) Hk Hr) as [A B]. split; [rewrite A, X; reflexivity|rewrite B, X; reflexivity].
Qed.
Print Assumptions C93_exact.

(** * C94 *)
(** A ciphertext without one of its elements is refused with code 18, but the lookup
    leaves a null entry in it: exporting it afterwards is undefined. *)
Theorem C94_failed_decryption_refuted : exists ct w, (exists b, ct_export ct = Ok b) /\
  decrypt toy_engine CP [] (L "alice") (start toy_engine (key_for CP) ct) = (w, Ok (18, [])) /\ ct_export (w_ct toy_engine w) = UB.
Proof.
  pose (ct := ct_of [(L "policy", Some (OBytes (L "a and b")))]). exists ct, (fst (decrypt toy_engine CP [] (L "alice") (start toy_engine (key_for CP) ct))).
  split; [eexists; vm_compute; reflexivity|]. split; [|vm_compute; reflexivity].
  assert (forall A (m : world toy_engine * res A) r, snd m = r -> m = (fst m, r)) as P by (intros A [a b] r <-; reflexivity).
  apply P. vm_compute. reflexivity.
Qed.
Print Assumptions C94_failed_decryption_refuted.

(** * C96 *)
(** The public parameters and the user keys of a context do not change at all, so
    that exporting them later gives the same bytes. *)
Theorem C96_parameters : forall E sch mpk msk x0 w h y k b b', lawful E ->
  generate_params E sch mpk msk (start E x0 (no_ct E)) = (w, Ok 0) -> stored E KEY_PUBLIC mpk k (left_by E w) ->
  history E sch h (left_by E w) y -> spares E KEY_PUBLIC mpk h ->
  stored E KEY_PUBLIC mpk k y /\
  snd (export_key E mpk b (start E y (no_ct E))) = snd (export_key E mpk b' (start E (left_by E w) (no_ct E))).
Proof.
  intros E sch mpk msk x0 w h y k b b' HE Hg Hk Hh Hs. apply stored_has in Hk.
  assert (forall n, In n (pub_names sch) -> exists o, part E (k_parts k) n o) as Np.
  { destruct sch; cbn [generate_params] in Hg.
    - destruct (cp_generate_ok E HE _ _ _ _ Hg) as (P & kp & ks & Hp & _ & (A & B & C & D & F) & _). assert (kp = k) as -> by (cut (Some (Some kp) = Some (Some k)); [congruence|rewrite <- Hp; exact Hk]).
      intros n I0. cbn [pub_names In] in I0. repeat (destruct I0 as [<-|I0]; [eauto|]). destruct I0.
    - destruct (kp_generate_ok E HE _ _ _ _ Hg) as (P & kp & ks & Hp & _ & (A & B & C & D) & _). assert (kp = k) as -> by (cut (Some (Some kp) = Some (Some k)); [congruence|rewrite <- Hp; exact Hk]).
      intros n I0. cbn [pub_names In] in I0. repeat (destruct I0 as [<-|I0]; [eauto|]). destruct I0. }
  assert (has E KEY_PUBLIC mpk k (fst y)) as Hy.
  { apply (history_keeps E HE sch KEY_PUBLIC mpk k (fun _ => Np)) with (h := h) (x := left_by E w); [discriminate|exact Hh| |exact Hk]. intros r I0. split; [apply Hs; exact I0|discriminate]. }
  split; [apply stored_has; exact Hy|]. rewrite (export_public E mpk k b (start E y (no_ct E)) Hy), (export_public E mpk k b' (start E (left_by E w) (no_ct E)) Hk). reflexivity.
Qed.
Print Assumptions C96_parameters.
Theorem C96_user_keys : forall E sch e s a t q l kid k x h y b b', lawful E -> texts (e_mktime E) e s a t ->
  create_policy_tree (e_mktime E) s = Ok (Some q) -> create_attribute_list (e_mktime E) t = Ok (Some l) ->
  no_collision (short_label E) (aattrs l) -> no_collision (short_label E) (row_names q) ->
  issued E sch (key_input sch q l) kid k x -> stored E KEY_SECRET kid k x ->
  history E sch h x y -> spares E KEY_SECRET kid h -> never_master E kid h ->
  stored E KEY_SECRET kid k y /\
  (missing E KEY_PUBLIC kid x -> missing E KEY_PUBLIC kid y ->
   snd (export_key E kid b (start E y (no_ct E))) = snd (export_key E kid b' (start E x (no_ct E)))).
Proof.
  intros E sch e s a t q l kid k x h y b b' HE T Hq Hl N1 N2 Hi Hk Hh Hs Hn. destruct (issued_ready E sch e s a t q l kid k x HE T Hq Hl N1 N2 Hi) as (Hr & _). apply stored_has in Hk.
  assert (has E KEY_SECRET kid k (fst y)) as Hy.
  { apply (history_keeps E HE sch KEY_SECRET kid k) with (h := h) (x := x); [discriminate|intros _; exact Hr|exact Hh| |exact Hk].
    intros r I0. split; [apply Hs; exact I0|]. intros _. destruct r; try exact I. eapply Hn. exact I0. }
  split; [apply stored_has; exact Hy|]. intros M1 M2. rewrite (export_secret E kid k b (start E y (no_ct E)) Hy M2), (export_secret E kid k b' (start E x (no_ct E)) Hk M1). reflexivity.
Qed.
Print Assumptions C96_user_keys.
(** A user key named as the master key of generateDecryptionKey: the call returns an
    error code, but the looked-up names are now in the user key, and exporting it is
    undefined. *)
Theorem C96_misused_key_refuted : forall sch,
  let ki := key_input sch (parsed_policy (L "a and b")) (parsed_list (L "a|b")) in
  let x := key_for sch in
  let y := left_by toy_engine (fst (keygen toy_engine sch ki (L "carol") (L "mpk") (L "alice") (start toy_engine x (no_ct toy_engine)))) in
  snd (keygen toy_engine sch ki (L "carol") (L "mpk") (L "alice") (start toy_engine x (no_ct toy_engine))) = Ok 18 /\
  (exists blob, snd (export_key toy_engine (L "alice") [] (start toy_engine x (no_ct toy_engine))) = Ok (0, blob)) /\
  snd (export_key toy_engine (L "alice") [] (start toy_engine y (no_ct toy_engine))) = UB.
Proof. intros sch ki x y. split; [destruct sch; vm_compute; reflexivity|]. split; [destruct sch; eexists; vm_compute; reflexivity|destruct sch; vm_compute; reflexivity]. Qed.
Print Assumptions C96_misused_key_refuted.

(** An issued key on the toy groups, and ciphertexts it answers. *)
Definition alice_of (sch : scheme) : key (e_curve toy_engine) :=
  match mget (L "alice") (sec_keys (fst (key_for sch))) with Some (Some k) => k | _ => new_key (e_curve toy_engine) 0 [] None [] end.
Example C93_nonvacuous : forall sch, let s := L "a and b" in let t := L "a|b" in let q := parsed_policy s in let l := parsed_list t in
  texts mk (EAnd (EAttr (L "a")) (EAttr (L "b"))) s (AMore 0 (IName (L "a")) (AOne 0 (IName (L "b")) 0)) t /\
  create_policy_tree mk s = Ok (Some q) /\ create_attribute_list mk t = Ok (Some l) /\
  no_collision (short_label toy_engine) (aattrs l) /\ no_collision (short_label toy_engine) (row_names q) /\
  issued toy_engine sch (key_input sch q l) (L "alice") (alice_of sch) (key_for sch) /\
  stored toy_engine KEY_SECRET (L "alice") (alice_of sch) (key_for sch) /\ missing toy_engine KEY_PUBLIC (L "alice") (key_for sch) /\
  proper toy_engine sch (ct_of (match sch with CP => [(L "policy", Some (OBytes (L "a or x"))); (L "Cprime", Some (OBytes []))] | KP => [(L "attributes", Some (OAttrs (parsed_list (L "b|a"))))] end)).
Proof.
  intros sch s t q l. split.
  { split; try (vm_compute; reflexivity).
    - apply by_lex; [apply good_ptoks|vm_compute; reflexivity].
    - apply by_lex; [apply good_atoks|vm_compute; reflexivity].
    - intros c b []. }
  split; [vm_compute; reflexivity|]. split; [vm_compute; reflexivity|]. split; [no_names|]. split; [no_names|].
  assert (stored toy_engine KEY_SECRET (L "alice") (alice_of sch) (key_for sch)) as St.
  { assert (match mget (L "alice") (sec_keys (fst (key_for sch))) with Some (Some _) => true | _ => false end = true) as X by (destruct sch; vm_compute; reflexivity).
    unfold stored, alice_of. destruct (mget (L "alice") (sec_keys (fst (key_for sch)))) as [[k|]|]; [reflexivity|discriminate X|discriminate X]. }
  assert (forall A (m : world toy_engine * res A) r, snd m = r -> m = (fst m, r)) as P by (intros A [a b] r <-; reflexivity).
  assert (key_for sch = left_by toy_engine (w_alice toy_engine sch (key_input sch q l))) as Ek by (destruct sch; reflexivity).
  split; [|split; [exact St|split]].
  - rewrite Ek in *. eapply (issue toy_engine sch (key_input sch q l) (L "alice") (alice_of sch) _ (L "mpk") (L "msk") (new_store, 0%nat) (w_params toy_engine sch) [bob_key toy_engine (key_input sch q l)] (left_by toy_engine (w_bob toy_engine sch (key_input sch q l))) (w_alice toy_engine sch (key_input sch q l)) _ []).
    + apply P. destruct sch; vm_compute; reflexivity.
    + eapply h_cons; [|apply h_nil]. exists (w_bob toy_engine sch (key_input sch q l)), (Ok 0). split; [apply P; destruct sch; vm_compute; reflexivity|]. split; [exact I|reflexivity].
    + intros r [<-|[]] [C _]. discriminate.
    + intros r [<-|[]] [_ C]. discriminate.
    + apply surjective_pairing.
    + exact St.
    + apply h_nil.
    + intros r [].
  - assert (match mget (L "alice") (pub_keys (fst (key_for sch))) with Some (Some _) => true | _ => false end = false) as X by (destruct sch; vm_compute; reflexivity).
    intros k H. unfold stored in H. rewrite H in X. discriminate X.
  - destruct sch; (split; [|intros b H; discriminate H]).
    + intros s0 H. injection H as <-. eexists. vm_compute. reflexivity.
    + split; [intros o H; injection H as <-; eauto|]. intros x o H. cbn in H. discriminate H.
Qed.
