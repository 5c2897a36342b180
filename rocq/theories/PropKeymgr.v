(** C48-C52, C74, C75: the key manager. [after … h] is the manager the commands
    of [h] lead to, the latest first. *)
From Verif Require Import Base StrMap Dec ByteString ByteStringProofs UInteger Field Policy Driver Parser AttrList ListText Utils Lsss LsssSpec LsssRecover
  Container ContainerSpec Keystore Keymgr KeymgrSpec KeymgrProofs KeymgrUse PropContainer.
From Coq Require Import ZArith List Ascii Bool Lia Permutation Sorted.
Import ListNotations.
Open Scope Z_scope.

(** std::sort by cost (zkeymgr.cpp L235-239, L325): any sorted permutation. *)
Definition sorts (rank : list (str * Z) -> list (str * Z)) : Prop :=
  (forall l, Permutation (rank l) l) /\ (forall l, StronglySorted (fun a b => snd a <= snd b) (rank l)).
Definition permutes (sort : list (nat * Z) -> list (nat * Z)) : Prop := forall l, Permutation (sort l) l.

(** Insertion sort is one. *)
Fixpoint ins (e : str * Z) (l : list (str * Z)) : list (str * Z) :=
  match l with [] => [e] | x :: t => if snd e <=? snd x then e :: l else x :: ins e t end.
Definition isort (l : list (str * Z)) : list (str * Z) := fold_right ins [] l.
Lemma ins_perm : forall e l, Permutation (ins e l) (e :: l).
Proof. intros e l. induction l as [|x t IH]; cbn; [reflexivity|]. destruct (snd e <=? snd x); [reflexivity|]. rewrite IH. apply perm_swap. Qed.
Lemma isort_sorts : sorts isort.
Proof.
  split; intro l; induction l as [|e l IH]; cbn; [reflexivity|rewrite ins_perm, IH; reflexivity|constructor|].
  fold (isort l). revert IH. generalize (isort l) as k. clear l. intro k. induction k as [|x t IHk]; intro H; cbn; [repeat constructor|].
  inversion H as [|? ? H1 H2]; subst. destruct (snd e <=? snd x) eqn:E.
  - constructor; [exact H|]. apply Z.leb_le in E. constructor; [exact E|]. eapply Forall_impl; [|exact H2]. cbn. lia.
  - apply Z.leb_gt in E. constructor; [apply IHk; exact H1|]. apply Forall_forall. intros y Hy. eapply Permutation_in in Hy; [|apply ins_perm].
    destruct Hy as [<-|Hy]; [lia|]. rewrite Forall_forall in H2. apply H2, Hy.
Qed.
Definition same : list (nat * Z) -> list (nat * Z) := fun l => l.
Lemma same_permutes : permutes same. Proof. intro l. reflexivity. Qed.
Notation run := (after toy mk0 same isort).

(** C48: what getKeyCommand gives a user was stored for that user, under that
    identifier, by the last store that succeeded under it. *)
Theorem C48_get : forall K mktime sort rank, permutes sort -> forall h user id blob, owns (after K mktime sort rank h) user id blob ->
  exists h1 c h2, h = h1 ++ c :: h2 /\ stores K mktime (after K mktime sort rank h2) c user id blob /\
    forall a c' b, h1 = a ++ c' :: b -> forall user' blob', ~ stores K mktime (after K mktime sort rank (b ++ c :: h2)) c' user' id blob'.
Proof.
  intros K mktime sort rank Hs h user id blob H. apply (owns_entry K mktime) in H as (d & E & <- & <-); [|apply good_after; auto].
  apply entry_history; auto.
Qed.
Print Assumptions C48_get.
(** And the identifier a search answers with is one of the user's, whatever the
    query. *)
Theorem C48_search : forall K mktime sort rank, permutes sort -> sorts rank -> forall h user eff q m' q' id,
  search_key sort rank (after K mktime sort rank h) user eff q = (m', q', Ok id) -> id = [] \/ exists blob, owns (after K mktime sort rank h) user id blob.
Proof. intros K mktime sort rank Hs [H1 H2] h user eff q m' q' id. apply (search_owned K mktime); auto. apply good_after; auto. Qed.
Print Assumptions C48_search.

(** Keys for examples: KP keys for policies, CP keys for attributes. *)
Definition kp (text : str) : key toy :=
  {| k_version := 170; k_alg := 102; k_uid := L "0123456789abcdef"; k_id := L "alice"; k_type := key_type_of 102; k_parts := [(L "d", Some (e1 (z2b 7))); (L "input", Some (OBytes text))] |}.
Definition cp (attrs : list str) : key toy :=
  {| k_version := 170; k_alg := 101; k_uid := L "0123456789abcdef"; k_id := L "alice"; k_type := key_type_of 101;
     k_parts := [(L "K", Some (e2 (z2b 7))); (L "input", Some (OAttrs {| aattrs := attrs; aorig := []; aprefix := [] |}))] |}.
Definition blob (k : key toy) : str := match key_export k with Ok b => b | _ => [] end.
Definition put_key (user id text : str) : command := StoreID user id (blob (kp text)) 0 false [].
Definition three : list command :=
  [put_key (L "bob") (L "k9") (L "a"); put_key (L "alice") (L "k2") (L "a or b"); put_key (L "alice") (L "k1") (L "a and b")].
Example C48_nonvacuous :
  owns (run three) (L "alice") (L "k1") (blob (kp (L "a and b"))) /\ owns (run three) (L "bob") (L "k9") (blob (kp (L "a"))) /\
  get_key_command (run three) (L "alice") (L "k9") = ([], []) /\
  snd (search_key same isort (run three) (L "bob") true (InAttrs {| aattrs := [L "a"; L "b"]; aorig := []; aprefix := [] |})) = Ok (L "k9").
Proof. split; [split; [discriminate|vm_compute; reflexivity]|]. split; [split; [discriminate|vm_compute; reflexivity]|]. split; vm_compute; reflexivity. Qed.

(** C49: after any history a search with a list, or with an and/or policy no
    check has run on or whose last check was complete, succeeds; it answers with
    a fitting key of the user when there is one (the cheapest when asked to) and
    with "" when there is none; and it changes no stored key. *)
Theorem C49_search : forall K mktime sort rank, permutes sort -> sorts rank -> forall h user eff q, askable q ->
  exists m' q' id, search_key sort rank (after K mktime sort rank h) user eff q = (m', q', Ok id) /\
    let m := after K mktime sort rank h in
    (forall u i, get_key_command m' u i = get_key_command m u i) /\ same_input q q' /\ askable q' /\
    ((exists i b f, owns m user i b /\ blob_input K mktime b f /\ fits f q) ->
     exists b f, owns m user id b /\ blob_input K mktime b f /\ fits f q /\
       (eff = true -> forall i' b' f' n n', owns m user i' b' -> blob_input K mktime b' f' -> fits f' q -> reported sort f q n -> reported sort f' q n' -> n <= n')) /\
    ((forall i b f, owns m user i b -> blob_input K mktime b f -> ~ fits f q) -> id = []).
Proof.
  intros K mktime sort rank Hs [H1 H2] h user eff q Hq. cbn zeta. apply search_lemma; auto. apply good_after; auto.
Qed.
Print Assumptions C49_search.
(** A policy made by the parser can be asked. *)
Theorem C49_askable : forall mktime s p, create_policy_tree mktime s = Ok (Some p) -> askable (InPolicy p fresh).
Proof. intros mktime s p H. apply (born_askable mktime). split; [eauto|reflexivity]. Qed.
Print Assumptions C49_askable.
(** But "" is not a sure sign of failure: it can be the identifier of a key. *)
Example C49_empty_identifier : exists h q, askable q /\
  (exists b f, owns (run h) (L "alice") [] b /\ blob_input toy mk0 b f /\ fits f q) /\ snd (search_key same isort (run h) (L "alice") false q) = Ok [].
Proof.
  exists [put_key (L "alice") [] (L "a and b")], (InAttrs {| aattrs := [L "a"; L "b"]; aorig := []; aprefix := [] |}). split; [exact Logic.I|]. split.
  - eexists (blob (kp (L "a and b"))), _. split; [split; [discriminate|vm_compute; reflexivity]|]. split.
    + eexists _, _, _. split; [vm_compute; reflexivity|]. split; [vm_compute; reflexivity|vm_compute; reflexivity].
    + eexists. split; [reflexivity|vm_compute; reflexivity].
  - vm_compute. reflexivity.
Qed.
(** Three keys fit; the cheapest is not the first. *)
Definition many : list command :=
  [put_key (L "alice") (L "k3") (L "c"); put_key (L "alice") (L "k2") (L "a or b"); put_key (L "alice") (L "k1") (L "a and b")].
Definition holds_ab : finput := InAttrs {| aattrs := [L "a"; L "b"]; aorig := []; aprefix := [] |}.
Example C49_nonvacuous :
  snd (search_key same isort (run many) (L "alice") false holds_ab) = Ok (L "k1") /\ snd (search_key same isort (run many) (L "alice") true holds_ab) = Ok (L "k2") /\
  snd (search_key same isort (run many) (L "carol") true holds_ab) = Ok [] /\ sorts isort /\ permutes same /\
  (exists i b f, owns (run many) (L "alice") i b /\ blob_input toy mk0 b f /\ fits f holds_ab).
Proof.
  do 3 (split; [vm_compute; reflexivity|]). split; [exact isort_sorts|]. split; [exact same_permutes|].
  eexists (L "k1"), (blob (kp (L "a and b"))), _. split; [split; [discriminate|vm_compute; reflexivity]|]. split.
  - eexists _, _, _. split; [vm_compute; reflexivity|]. split; [vm_compute; reflexivity|vm_compute; reflexivity].
  - eexists. split; [reflexivity|vm_compute; reflexivity].
Qed.

(** C50 is false: deleted keys can still be retrieved and found. *)
Theorem C50_deleted_refuted : exists h ids id b, snd (delete_key_command (run h) (L "alice") 0) = Ok ids /\ In id ids /\
  owns (run (Delete (L "alice") 0 :: h)) (L "alice") id b /\ snd (search_key same isort (run (Delete (L "alice") 0 :: h)) (L "alice") false holds_ab) = Ok id.
Proof.
  exists many, [L "k1"; L "k2"; L "k3"], (L "k1"), (blob (kp (L "a and b"))). split; [vm_compute; reflexivity|]. split; [left; reflexivity|].
  split; [split; [discriminate|vm_compute; reflexivity]|vm_compute; reflexivity].
Qed.
Print Assumptions C50_deleted_refuted.
(** In fact no delete changes the answer of any retrieval or search… *)
Theorem C50_no_effect : forall sort rank m user now, same_answers sort rank m (fst (delete_key_command m user now)).
Proof. exact delete_search. Qed.
Print Assumptions C50_no_effect.
(** …but the identifiers it returns are the right ones: without a date those of
    the user's keys, with one those of every key, of any user, expired by then. *)
Theorem C50_identifiers_partial : forall K mktime sort rank, permutes sort -> forall h user now,
  (user <> [] -> exists ids, snd (delete_key_command (after K mktime sort rank h) user 0) = Ok ids /\
     forall id, In id ids <-> exists b, owns (after K mktime sort rank h) user id b) /\
  (0 < now -> exists ids, snd (delete_key_command (after K mktime sort rank h) user now) = Ok ids /\
     forall id, In id ids <-> exists d, mget id (km_meta (after K mktime sort rank h)) = Some d /\ m_expire d <= now) /\
  (now <= 0 -> snd (delete_key_command (after K mktime sort rank h) [] now) = Throw RuntimeError).
Proof.
  intros K mktime sort rank Hs h user now. assert (Hg : good K mktime (after K mktime sort rank h)) by (apply good_after; auto). split; [|split].
  - intro Hu. exists (get_key_ids (after K mktime sort rank h) user 0). split; [unfold delete_key_command; destruct user; [congruence|reflexivity]|].
    intro id. apply (delete_ids_zero K mktime). exact Hg.
  - intro Hn. exists (get_key_ids (after K mktime sort rank h) user now). split.
    + unfold delete_key_command. replace (0 <? now) with true by (symmetry; apply Z.ltb_lt; lia). reflexivity.
    + intro id. apply (delete_ids_expired K mktime); assumption.
  - intro Hn. unfold delete_key_command. replace (0 <? now) with false by (symmetry; apply Z.ltb_ge; lia). reflexivity.
Qed.
Print Assumptions C50_identifiers_partial.

(** C51 is false between users: the count is per user, the identifiers are not. *)
Definition prefixed (user prefix text : str) : command := StorePrefix user prefix (blob (kp text)) 0 false [].
Theorem C51_users_refuted : exists h c, owns (run h) (L "alice") (L "k0") (blob (kp (L "a"))) /\ c = prefixed (L "bob") (L "k") (L "b") /\
  get_key_command (run (c :: h)) (L "alice") (L "k0") = ([], []).
Proof.
  exists [prefixed (L "alice") (L "k") (L "a")]. eexists. split; [split; [discriminate|vm_compute; reflexivity]|]. split; [reflexivity|vm_compute; reflexivity].
Qed.
Print Assumptions C51_users_refuted.
(** It is false for one user and one prefix: the twenty-first key replaces the first. *)
Definition policy_no (n : nat) : str := L "a" ++ dec (Z.of_nat n).
Definition twenty : list command := map (fun n => prefixed (L "alice") (L "k") (policy_no n)) (rev (seq 0 20)).
Theorem C51_wrap_refuted : owns (run twenty) (L "alice") (L "k0") (blob (kp (policy_no 0))) /\
  owns (run (prefixed (L "alice") (L "k") (policy_no 20) :: twenty)) (L "alice") (L "k0") (blob (kp (policy_no 20))) /\
  forall id, snd (get_key_command (run (prefixed (L "alice") (L "k") (policy_no 20) :: twenty)) (L "alice") id) <> blob (kp (policy_no 0)).
Proof.
  split; [split; [discriminate|vm_compute; reflexivity]|]. split; [split; [discriminate|vm_compute; reflexivity]|].
  intro id. remember (run (prefixed (L "alice") (L "k") (policy_no 20) :: twenty)) as m eqn:Em. remember (blob (kp (policy_no 0))) as b eqn:Eb.
  assert (F : forallb (fun e => negb (str_eqb (m_blob (snd e)) b)) (km_meta m) = true) by (subst; vm_compute; reflexivity).
  assert (Nb : b <> []) by (subst; discriminate). clear Em Eb. unfold get_key_command. destruct (mget id (km_meta m)) as [d|] eqn:E; [|cbn; congruence].
  destruct (str_eqb (m_user d) (L "alice")); [|cbn; congruence]. cbn [snd]. apply mget_In in E. rewrite forallb_forall in F. specialize (F _ E). cbn [snd] in F.
  intro X. rewrite X, str_eqb_refl in F. discriminate.
Qed.
Print Assumptions C51_wrap_refuted.
(** It is false for one user and two prefixes: "k1" and 0 is "k" and 10. *)
Theorem C51_prefixes_refuted : exists h c id, targets (run h) c id /\ owns (run h) (L "alice") id (blob (kp (L "x"))) /\
  c = prefixed (L "alice") (L "k") (policy_no 11) /\ get_key_command (run (c :: h)) (L "alice") id <> get_key_command (run h) (L "alice") id.
Proof.
  exists (map (fun n => prefixed (L "alice") (L "k") (policy_no n)) (rev (seq 1 9)) ++ [prefixed (L "alice") (L "k1") (L "x")]).
  eexists _, (L "k10"). split; [|split; [|split; [reflexivity|]]].
  - vm_compute. reflexivity.
  - split; [discriminate|]. vm_compute. reflexivity.
  - vm_compute. discriminate.
Qed.
Print Assumptions C51_prefixes_refuted.

(** What holds: only the key under the prefix followed by the user's count can
    be affected; so nothing is lost when no key has that identifier. *)
Theorem C51_other_partial : forall K mktime sort rank, permutes sort -> forall h user prefix b expire cache random u id,
  let m := after K mktime sort rank h in
  id <> prefix ++ dec (snd (get_user_key_count m user)) ->
  get_key_command (fst (store_with_prefix K mktime m user prefix b expire cache random)) u id = get_key_command m u id.
Proof.
  intros K mktime sort rank Hs h user prefix b expire cache random u id m Hne.
  apply (exec_other K mktime sort rank Hs m (StorePrefix user prefix b expire cache random) u id); [apply good_after; auto|cbn [targets]; congruence].
Qed.
Print Assumptions C51_other_partial.
Theorem C51_fresh_partial : forall K mktime sort rank, permutes sort -> forall h user prefix b expire cache random u id b',
  let m := after K mktime sort rank h in
  (forall u', snd (get_key_command m u' (prefix ++ dec (snd (get_user_key_count m user)))) = []) ->
  owns m u id b' -> owns (fst (store_with_prefix K mktime m user prefix b expire cache random)) u id b'.
Proof.
  intros K mktime sort rank Hs h user prefix b expire cache random u id b' m Hf [H1 H2]. split; [exact H1|].
  unfold m. rewrite C51_other_partial; auto. intros ->. apply H1. rewrite <- H2. apply Hf.
Qed.
Print Assumptions C51_fresh_partial.
Example C51_nonvacuous : (forall u', snd (get_key_command (run three) u' (L "key" ++ dec (snd (get_user_key_count (run three) (L "bob"))))) = []) /\
  owns (run three) (L "alice") (L "k1") (blob (kp (L "a and b"))) /\
  snd (store_with_prefix toy mk0 (run three) (L "bob") (L "key") (blob (kp (L "z"))) 0 false []) = Ok (L "key0").
Proof.
  split; [|split; [split; [discriminate|vm_compute; reflexivity]|vm_compute; reflexivity]]. intro u'. unfold get_key_command.
  assert (E : mget (L "key" ++ dec (snd (get_user_key_count (run three) (L "bob")))) (km_meta (run three)) = None) by (vm_compute; reflexivity). rewrite E. reflexivity.
Qed.

(** C52 is false: the old key is erased before the new one is looked at, even
    another user's and even for a blob that is no key. *)
Theorem C52_malformed_refuted : exists h c, owns (run h) (L "alice") (L "k1") (blob (kp (L "a and b"))) /\
  c = StoreID (L "bob") (L "k1") (L "this is not a key blob") 0 false [] /\
  (exists e, snd (store_with_id toy mk0 (run h) (L "bob") (L "k1") (L "this is not a key blob") 0 false []) = Throw e) /\
  get_key_command (run (c :: h)) (L "alice") (L "k1") = ([], []).
Proof.
  exists three. eexists. split; [split; [discriminate|vm_compute; reflexivity]|]. split; [reflexivity|]. split; [eexists; vm_compute; reflexivity|vm_compute; reflexivity].
Qed.
Print Assumptions C52_malformed_refuted.
Theorem C52_duplicate_refuted : exists h b, owns (run h) (L "alice") (L "k1") (blob (kp (L "a and b"))) /\
  snd (store_with_id toy mk0 (run h) (L "alice") (L "k1") b 0 false []) = Ok false /\
  get_key_command (fst (store_with_id toy mk0 (run h) (L "alice") (L "k1") b 0 false [])) (L "alice") (L "k1") = ([], []).
Proof.
  exists three, (blob (kp (L "a or b"))). split; [split; [discriminate|vm_compute; reflexivity]|]. split; vm_compute; reflexivity.
Qed.
Print Assumptions C52_duplicate_refuted.
(** What holds: keys under other identifiers stay, and under an identifier that
    is not in use a failed store leaves the manager as it was. *)
Theorem C52_other_partial : forall K mktime m user id b expire cache random u id', id' <> id ->
  get_key_command (fst (store_with_id K mktime m user id b expire cache random)) u id' = get_key_command m u id'.
Proof. exact store_other. Qed.
Print Assumptions C52_other_partial.
Theorem C52_unused_partial : forall K mktime sort rank, permutes sort -> forall h user id b expire cache random,
  let m := after K mktime sort rank h in
  (forall u, snd (get_key_command m u id) = []) -> snd (store_with_id K mktime m user id b expire cache random) <> Ok true ->
  fst (store_with_id K mktime m user id b expire cache random) = m.
Proof. intros K mktime sort rank Hs h user id b expire cache random m. apply store_failed. apply good_after; auto. Qed.
Print Assumptions C52_unused_partial.
Example C52_nonvacuous : (forall u, snd (get_key_command (run three) u (L "new")) = []) /\
  snd (store_with_id toy mk0 (run three) (L "alice") (L "new") (blob (kp (L "a or b"))) 0 false []) = Ok false.
Proof.
  split; [|vm_compute; reflexivity]. intro u. unfold get_key_command.
  assert (E : mget (L "new") (km_meta (run three)) = None) by (vm_compute; reflexivity). rewrite E. reflexivity.
Qed.

(** C74 is false: a well-formed key of another scheme is dereferenced through a
    null pointer, and an empty user name ends the process. *)
Definition aes_key : key toy := {| k_version := 170; k_alg := 70; k_uid := L "0123456789abcdef"; k_id := L "alice"; k_type := key_type_of 70; k_parts := [(L "k", Some (OBytes (L "secret")))] |}.
Theorem C74_other_scheme_refuted : exists b, key_export aes_key = Ok b /\ snd (store_with_id toy mk0 new_manager (L "alice") (L "k") b 0 false []) = UB.
Proof. eexists. split; [vm_compute; reflexivity|vm_compute; reflexivity]. Qed.
Print Assumptions C74_other_scheme_refuted.
Theorem C74_no_user_refuted : forall K mktime m id b expire cache random, store_with_id K mktime m [] id b expire cache random = (m, Exit).
Proof. reflexivity. Qed.
Print Assumptions C74_no_user_refuted.

(** C75: a decryption key exported by the library is accepted unless the user has
    one for the same input under another identifier, and is then retrieved as it
    was stored, with the text of its input. *)
Theorem C75_store_exported : forall K mktime sort rank, permutes sort -> forall h user id k text expire cache random,
  let m := after K mktime sort rank h in
  curve_ok K -> msorted (k_parts k) -> all_portable K mktime (k_parts k) ->
  (forall body, serialize (k_parts k) [] = Ok body -> len body < 2^32) -> 0 <= k_version k <= 170 -> len (k_uid k) = 16 -> len (k_id k) < 2^31 ->
  abe_key K mktime k text -> user <> [] ->
  exists b f, key_export k = Ok b /\ fcompact f = text /\ ftype f = (if (k_alg k =? 101) || (k_alg k =? 201) then FUNC_ATTRLIST else FUNC_POLICY) /\
    let r := store_with_id K mktime m user id b expire cache random in
    let taken := exists id' b' g, id' <> id /\ owns m user id' b' /\ blob_input K mktime b' g /\ fcompact g = text /\ ftype g = ftype f in
    (taken /\ snd r = Ok false) \/ (~ taken /\ snd r = Ok true /\ get_key_command (fst r) user id = (text, b)).
Proof.
  intros K mktime sort rank Hs h user id k text expire cache random m H1 H2 H3 H4 H5 H6 H7 H8 Hu.
  destruct (read_exported K mktime k text random H1 H2 H3 H4 H5 H6 H7 H8) as (b & f & E1 & E2 & E3 & E4). exists b, f.
  split; [exact E1|]. split; [exact E3|]. split; [exact E4|]. cbn zeta. rewrite <- E3. apply (store_readable K mktime m user id b expire cache random (k_alg k) f); auto. apply good_after; auto.
Qed.
Print Assumptions C75_store_exported.
(** It stays retrievable until a command writes under its identifier. *)
Theorem C75_kept : forall K mktime sort rank, permutes sort -> forall h c u id, ~ targets (after K mktime sort rank h) c id ->
  get_key_command (after K mktime sort rank (c :: h)) u id = get_key_command (after K mktime sort rank h) u id.
Proof. intros K mktime sort rank Hs h c u id H. cbn [after]. apply exec_other; auto. apply good_after; auto. Qed.
Print Assumptions C75_kept.
Lemma cp_portable : all_portable toy mk0 (k_parts (cp [L "a"; L "b"])).
Proof.
  intros name v E. cbn [k_parts cp mget] in E. destruct (str_eqb name (L "K")) eqn:E1.
  - apply str_eqb_eq in E1 as ->. injection E as <-. split; [split; [discriminate|reflexivity]|]. eexists. split; [reflexivity|exact Logic.I].
  - destruct (str_eqb name (L "input")) eqn:E2; [|discriminate]. apply str_eqb_eq in E2 as ->. injection E as <-. split; [split; [discriminate|reflexivity]|].
    eexists. split; [reflexivity|]. cbn [portable]. split; [exists (L "a|b"); vm_compute; reflexivity|vm_compute; reflexivity].
Qed.
Example C75_nonvacuous : curve_ok toy /\ msorted (k_parts (cp [L "a"; L "b"])) /\ all_portable toy mk0 (k_parts (cp [L "a"; L "b"])) /\
  abe_key toy mk0 (cp [L "a"; L "b"]) (L "|a|b|") /\ abe_key toy mk0 (kp (L "a and b")) (L "a and b") /\
  get_key_command (run [StoreID (L "alice") (L "k") (blob (cp [L "a"; L "b"])) 0 false []]) (L "alice") (L "k") = (L "|a|b|", blob (cp [L "a"; L "b"])).
Proof.
  split; [exact toy_ok|]. split; [repeat constructor|]. split; [exact cp_portable|]. split.
  - left. split; [left; reflexivity|]. eexists. split; [reflexivity|vm_compute; reflexivity].
  - split; [|vm_compute; reflexivity]. right. split; [left; reflexivity|]. split; [reflexivity|]. eexists. vm_compute. reflexivity.
Qed.

(** * C98 *)
(** Who is active, from the commands alone (latest first): the users whose last
    registration was not followed by a deletion of the user; with the program of that
    registration. *)
Fixpoint active (h : list command) (user : str) : option str :=
  match h with
  | [] => None
  | SetPass program u _ :: h => if str_eqb u user then Some program else active h user
  | Delete u now :: h => if (now <=? 0) && str_eqb u user && negb (str_eqb u []) then None else active h user
  | _ :: h => active h user
  end.
Theorem C98_active_users : forall K mktime sort rank h user, mget user (get_active_users (after K mktime sort rank h)) = active h user.
Proof.
  intros K mktime sort rank h user. unfold get_active_users. induction h as [|c h IH]; [reflexivity|]. cbn [after active]. generalize dependent (after K mktime sort rank h). intros m IH.
  destruct c as [u id b e ca r|u p b e ca r|u eff q|u now|u id|u|program u pass]; cbn [exec].
  - rewrite <- IH. unfold store_with_id. destruct u; [reflexivity|]. destruct (read_key K mktime b r) as [[[sc f]|]| | | |]; try reflexivity. destruct (has_duplicate _ _ _); reflexivity.
  - rewrite <- IH. unfold store_with_prefix, store_with_id. destruct u; [reflexivity|]. destruct (read_key K mktime b r) as [[[sc f]|]| | | |]; try reflexivity. destruct (has_duplicate _ _ _); reflexivity.
  - rewrite <- IH. unfold search_key.
    assert (forall ids m q found, km_active (fst (fst (search_loop sort ids eff m q found))) = km_active m) as S.
    { induction ids as [|i ids IHi]; intros m0 q0 found; cbn [search_loop]; [reflexivity|]. destruct (mget i (km_meta m0)) as [d|]; [|reflexivity].
      destruct (test_a_key sort (m_type d) (m_input d) q0) as [[[[bb n] st] qq]| | | |]; try reflexivity. destruct bb; [destruct eff; [rewrite IHi|]|rewrite IHi]; reflexivity. }
    specialize (S (filter_keys m u (ftype q)) m q []). destruct (search_loop sort _ eff m q []) as [[m' q'] x]. cbn [fst] in *. rewrite S. reflexivity.
  - unfold delete_key_command. rewrite Z.leb_antisym. destruct (0 <? now) eqn:E; cbn [negb andb fst km_active]; [exact IH|].
    destruct (str_eqb u []) eqn:Eu; cbn [fst km_active negb].
    + rewrite andb_false_r. exact IH.
    + rewrite andb_true_r. destruct (str_eqb u user) eqn:Ex.
      * apply str_eqb_eq in Ex as ->. apply mget_mdel_same.
      * rewrite mget_mdel_other; [exact IH|]. intros ->. rewrite str_eqb_refl in Ex. discriminate.
  - exact IH.
  - exact IH.
  - cbn [set_passphrase km_active]. destruct (str_eqb u user) eqn:Ex.
    + apply str_eqb_eq in Ex as ->. apply mget_mset_same.
    + rewrite mget_mset_other; [exact IH|]. intros ->. rewrite str_eqb_refl in Ex. discriminate.
Qed.
Print Assumptions C98_active_users.
Example C98_nonvacuous : let h := [Delete (L "bob") 0; SetPass (L "editor") (L "alice") (L "pw2"); Delete (L "alice") 5; SetPass (L "mail") (L "bob") (L "x"); SetPass (L "mail") (L "alice") (L "pw")] in
  get_active_users (run h) = [(L "alice", L "editor")] /\ active h (L "alice") = Some (L "editor") /\ active h (L "bob") = None.
Proof. repeat split; vm_compute; reflexivity. Qed.
