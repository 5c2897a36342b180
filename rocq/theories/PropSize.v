(** C130-C132: how large policies, attribute lists, ciphertexts and keys become, and
    what their shape tells. *)
From Verif Require Import Base StrMap ByteString ByteStringProofs UInteger Field Policy Driver Parser AttrList Utils Kdf Lsss LsssSpec LsssRecover LsssFinal Container ContainerProofs Keystore Scheme SchemeSpec SchemeStep SchemeRows SchemeCp Size OutlineSpec Outline CreatePolicy ParserFinal PropContainer PropUtil PropParser SchemeToy PropScheme PlainSpec PropPlain FreshSpec PropFresh.
From Coq Require Import ZArith List Ascii Bool Lia.
Import ListNotations.
Open Scope Z_scope.

(** * C130 *)
(** A policy has at most 32 leaves for every three characters of its text, and one
    gate fewer than leaves... *)
Theorem C130_policy : forall mktime s q, create_policy_tree mktime s = Ok (Some q) ->
  exists r, proot q = Some r /\ 1 <= leaf_count r /\ 3 * leaf_count r <= 32 * len s /\ gate_count r = leaf_count r - 1.
Proof.
  intros mktime s q H. destruct (policy_size mktime s q H) as (r & R & B & L1 & L2). exists r. destruct (binary_gates r B) as [G _]. auto.
Qed.
Print Assumptions C130_policy.
(** ... and an attribute list at most 32 attributes for every three characters. *)
Theorem C130_attributes : forall mktime s l, create_attribute_list mktime s = Ok (Some l) -> 3 * Z.of_nat (length (aattrs l)) <= 32 * len s.
Proof. exact attrs_size. Qed.
Print Assumptions C130_attributes.
(** Both bounds are reached. *)
Theorem C130_reached : exists q r l,
  create_policy_tree mk (L "a<1") = Ok (Some q) /\ proot q = Some r /\ 3 * leaf_count r = 32 * len (L "a<1") /\
  create_attribute_list mk (L "a=1") = Ok (Some l) /\ 3 * Z.of_nat (length (aattrs l)) = 32 * len (L "a=1").
Proof.
  destruct (create_policy_tree mk (L "a<1")) as [[q|]| | | |] eqn:Eq; [|vm_compute in Eq; discriminate ..].
  destruct (create_attribute_list mk (L "a=1")) as [[l|]| | | |] eqn:El; [|vm_compute in El; discriminate ..].
  vm_compute in Eq. injection Eq as Eq. vm_compute in El. injection El as El.
  destruct (proot q) as [r|] eqn:R; [|subst q; discriminate]. exists q, r, l. subst. cbn in R. injection R as <-. repeat split; vm_compute; reflexivity.
Qed.
Print Assumptions C130_reached.
Example C130_nonvacuous : exists q r, create_policy_tree mk (L "(one and two) or n in (3-9)") = Ok (Some q) /\ proot q = Some r /\ (leaf_count r, gate_count r) = (64, 63).
Proof.
  destruct (create_policy_tree mk (L "(one and two) or n in (3-9)")) as [[q|]| | | |] eqn:Eq; [|vm_compute in Eq; discriminate ..].
  vm_compute in Eq. injection Eq as Eq. destruct (proot q) as [r|] eqn:R; [|subst q; discriminate]. exists q, r. subst. cbn in R. injection R as <-. repeat split; vm_compute; reflexivity.
Qed.

(** * C131 *)
Definition fits (s : scheme) (inp : input) : Prop := match s, inp with CP, InPolicy _ | KP, InAttrs _ => True | _, _ => False end.
(** Apart from the values of group elements and of the sealed bytes, a ciphertext
    is a function of the policy or attribute list and of the length of the message:
    neither the keys, nor the random choices, nor the message have a say. *)
Theorem C131_ciphertext : forall E s mpk inp pt w w', ct_parts (w_ct E w) = [] -> encrypt E s mpk inp pt w = (w', Ok 0) ->
  fits s inp /\ ct_version (w_ct E w') = ct_version (w_ct E w) /\ ct_uid (w_ct E w') = ct_uid (w_ct E w) /\ ct_alg (w_ct E w') = alg_of s /\
  view (ct_parts (w_ct E w')) = shown (e_hash E) s inp (len pt).
Proof.
  intros E s mpk inp pt w w' B H. apply encrypt_looks in H as [F H]. split; [exact F|]. unfold looks in H. rewrite B in H. injection H as -> -> -> ->. repeat split.
  destruct s, inp; try destruct F; reflexivity.
Qed.
Print Assumptions C131_ciphertext.
(** So messages of one length cannot be told apart by the shape of their
    ciphertexts, whoever made them, on whatever curve... *)
Theorem C131_same_shape : forall E E' s mpk mpk' inp pt pt' w1 w1' w2 w2', (forall x, e_hash E x = e_hash E' x) -> len pt = len pt' ->
  ct_parts (w_ct E w1) = [] -> ct_parts (w_ct E' w2) = [] ->
  encrypt E s mpk inp pt w1 = (w1', Ok 0) -> encrypt E' s mpk' inp pt' w2 = (w2', Ok 0) ->
  view (ct_parts (w_ct E w1')) = view (ct_parts (w_ct E' w2')).
Proof.
  intros E E' s mpk mpk' inp pt pt' w1 w1' w2 w2' Hh Hl B1 B2 H1 H2.
  destruct (C131_ciphertext _ _ _ _ _ _ _ B1 H1) as (_ & _ & _ & _ & ->). destruct (C131_ciphertext _ _ _ _ _ _ _ B2 H2) as (_ & _ & _ & _ & ->). rewrite <- Hl.
  assert (forall b u, name_of (e_hash E) b u = name_of (e_hash E') b u) as X by (intros b u; unfold name_of, hash_key; rewrite Hh; reflexivity).
  assert (forall A (g g' : smap sight -> A -> smap sight) l v, (forall v a, g v a = g' v a) -> fold_left g l v = fold_left g' l v) as Y.
  { intros A g g' l. induction l as [|a l IH]; intros v G; [reflexivity|]. cbn. rewrite G. apply IH. exact G. }
  destruct s, inp; cbn [shown]; try reflexivity; unfold cp_shown, kp_shown; [apply (f_equal (mset _ _))|apply (f_equal (mset _ _)), (f_equal (mset _ _))]; apply Y; intros; rewrite ?X; reflexivity.
Qed.
Print Assumptions C131_same_shape.
(** ... while messages of different lengths can: the length is in the open. *)
Theorem C131_length_shown : forall E s mpk inp pt w w', ct_parts (w_ct E w) = [] -> encrypt E s mpk inp pt w = (w', Ok 0) ->
  exists b, mget (L "_ED") (ct_parts (w_ct E w')) = Some (Some (OBytes b)) /\ len b = len pt.
Proof.
  intros E s mpk inp pt w w' B H. destruct (C131_ciphertext _ _ _ _ _ _ _ B H) as (F & _ & _ & _ & V).
  assert (mget (L "_ED") (view (ct_parts (w_ct E w'))) = Some (SSealed (len pt))) as X by (rewrite V; destruct s, inp; try destruct F; apply mget_mset_same).
  clear - X. induction (ct_parts (w_ct E w')) as [|[k o] c IH]; [discriminate|]. cbn [view map mget] in X |- *. destruct (str_eqb (L "_ED") k) eqn:Ek; [|exact (IH X)].
  apply str_eqb_eq in Ek. subst k. destruct o as [[]|]; try discriminate X. injection X as X. eauto.
Qed.
Print Assumptions C131_length_shown.
(** The same for the key of a user. *)
Theorem C131_key : forall E s inp id mpk msk w w', keygen E s inp id mpk msk w = (w', Ok 0) ->
  exists k, mget id (sec_keys (w_store E w')) = Some (Some k) /\ k_version k = 170 /\ k_alg k = alg_of s /\ k_id k = id /\ view (k_parts k) = key_shown (e_hash E) s inp.
Proof. intros E s inp id mpk msk w w' H. exact (proj2 (keygen_looks E s inp id mpk msk w w' H)). Qed.
Print Assumptions C131_key.
(** And the length of the exported bytes follows, when no element is written in an
    unusual number of bytes. *)
Theorem C131_bytes : forall E s mpk inp pt w w' n1 n2 nt, ct_parts (w_ct E w) = [] -> encrypt E s mpk inp pt w = (w', Ok 0) -> regular n1 n2 nt (ct_parts (w_ct E w')) ->
  exists blob, ct_export (w_ct E w') = Ok blob /\ len blob = packed (2 + len (ct_uid (w_ct E w))) + packed (view_size n1 n2 nt (shown (e_hash E) s inp (len pt))).
Proof.
  intros E s mpk inp pt w w' n1 n2 nt B H R. destruct (C131_ciphertext _ _ _ _ _ _ _ B H) as (F & _ & Hu & _ & V).
  destruct (serialize_len _ n1 n2 nt (ct_parts (w_ct E w')) [] []) as (out & Eo & Ho); [rewrite V; apply writable_shown|exact R|].
  unfold ct_export, serialize. rewrite Eo. cbn [bind]. eexists. split; [reflexivity|]. rewrite !smart_len, Ho, V. unfold get_header. rewrite Hu.
  assert (len (z2b (ct_version (w_ct E w')) :: z2b (ct_alg (w_ct E w')) :: ct_uid (w_ct E w)) = 2 + len (ct_uid (w_ct E w))) as -> by (unfold len; cbn [length]; lia).
  change (len []) with 0. reflexivity.
Qed.
Print Assumptions C131_bytes.
Theorem C131_key_bytes : forall E s inp id mpk msk w w' n1 n2 nt, keygen E s inp id mpk msk w = (w', Ok 0) ->
  (forall k, mget id (sec_keys (w_store E w')) = Some (Some k) -> regular n1 n2 nt (k_parts k)) ->
  exists k blob, mget id (sec_keys (w_store E w')) = Some (Some k) /\ key_export k = Ok blob /\
    len blob = 8 + (2 + len (k_uid k) + len id) mod 2 ^ 32 + view_size n1 n2 nt (key_shown (e_hash E) s inp) mod 2 ^ 32.
Proof.
  intros E s inp id mpk msk w w' n1 n2 nt H R. destruct (C131_key _ _ _ _ _ _ _ _ H) as (k & Hk & _ & _ & Hi & V). exists k. specialize (R k Hk).
  destruct (serialize_len _ n1 n2 nt (k_parts k) [] []) as (out & Eo & Ho); [rewrite V; apply writable_key_shown|exact R|].
  unfold key_export, serialize. rewrite Eo. cbn [bind]. eexists. split; [exact Hk|]. split; [reflexivity|].
  assert (forall pre s, len (pack pre s) = len pre + 4 + len s mod 2 ^ 32) as P.
  { intros pre t. unfold pack, pack32bits. rewrite !len_app, len_firstn_mod. unfold len at 2. cbn. lia. }
  rewrite !P, Ho, V. change (len []) with 0. unfold key_header. rewrite Hi.
  replace (len (z2b (k_version k) :: z2b (k_alg k) :: k_uid k ++ id)) with (2 + len (k_uid k) + len id) by (unfold len; cbn [length]; rewrite app_length; lia). lia.
Qed.
Print Assumptions C131_key_bytes.

(** * C132 *)
(** The number of parts: two per leaf of the policy or one per attribute, and
    three more. *)
Theorem C132_parts : forall E s mpk inp pt w w', ct_parts (w_ct E w) = [] -> encrypt E s mpk inp pt w = (w', Ok 0) ->
  match s, inp with
  | CP, InPolicy q => forall r, usable E q r -> no_collision (short_label E) (row_names q) -> num_components (ct_parts (w_ct E w')) = 2 * leaf_count r + 3
  | KP, InAttrs l => NoDup (aattrs l) -> no_collision (short_label E) (aattrs l) -> num_components (ct_parts (w_ct E w')) = Z.of_nat (length (aattrs l)) + 3
  | _, _ => False
  end.
Proof.
  intros E s mpk inp pt w w' B H. destruct (C131_ciphertext _ _ _ _ _ _ _ B H) as (F & _ & _ & _ & V).
  assert (length (ct_parts (w_ct E w')) = length (shown (e_hash E) s inp (len pt))) as X by (rewrite <- V; unfold view; rewrite map_length; reflexivity).
  unfold num_components. rewrite X. clear X V H.
  assert (forall x b (bs : list str), (forall y, In y bs -> forall z, y <> name_of (e_hash E) b z) -> ~ In (name_of (e_hash E) b x) bs) as A by (intros x b bs Q I; exact (Q _ I x eq_refl)).
  destruct s, inp as [q|l|]; try destruct F; cbn [shown].
  - intros r (Hq & Hb & Hw & Hp & _) C. pose proof (distinct_new q r Hw Hp) as D. unfold distinct_rows in D.
    assert (NoDup (leaf_names q) /\ length (leaf_names q) = length (leaves r)) as [N1 N2] by (unfold leaf_names; rewrite Hq, map_length; auto).
    assert (~ In (L "_ED") (mkeys (fold_left (fun v u => mset (name_of (e_hash E) (L "C") u) SG1 (mset (name_of (e_hash E) (L "D") u) SG2 v)) (in_order (leaf_names q)) (mset (L "Cprime") SG1 (mset (L "policy") (SText (ptext q)) []))))) as NE.
    { assert (forall l v, ~ In (L "_ED") (mkeys v) -> ~ In (L "_ED") (mkeys (fold_left (fun v u => mset (name_of (e_hash E) (L "C") u) SG1 (mset (name_of (e_hash E) (L "D") u) SG2 v)) l v))) as G.
      { induction l as [|a l IH]; intros v N; [exact N|]. cbn [fold_left]. apply IH. rewrite !mkeys_mset. intros [Y|[Y|Y]]; [discriminate Y|discriminate Y|exact (N Y)]. }
      apply G. cbn. intuition discriminate. }
    unfold cp_shown. rewrite set_count_new by exact NE. rewrite two_per.
    + rewrite order_all by exact N1. unfold leaf_count. rewrite N2. replace (length (mset (L "Cprime") SG1 (mset (L "policy") (SText (ptext q)) []))) with 2%nat by reflexivity. lia.
    + intros x y Y. discriminate Y.
    + apply order_NoDup.
    + intros x y X Y. apply C; apply in_order_In; assumption.
    + intros x X. split; apply A; cbn; intros y [<-|[<-|[]]] z Y; discriminate Y.
  - intros N C. unfold kp_shown.
    assert (forall n l v, (forall z, n <> name_of (e_hash E) (L "C") z) -> ~ In n (mkeys v) -> ~ In n (mkeys (fold_left (fun v a => mset (name_of (e_hash E) (L "C") a) SG1 v) l v))) as G.
    { intros n. induction l0 as [|a l0 IH]; intros v D Nv; [exact Nv|]. cbn [fold_left]. apply IH; [exact D|]. rewrite mkeys_mset. intros [Y|Y]; [exact (D _ Y)|exact (Nv Y)]. }
    rewrite set_count_new.
    + rewrite set_count_new by (apply G; [intros z Y; discriminate Y|cbn; intuition discriminate]). rewrite one_per.
      * cbn [mset length]. lia.
      * exact N.
      * exact C.
      * intros x X. apply A. cbn. intros y [<-|[]] z Y. discriminate Y.
    + rewrite mkeys_mset. intros [Y|Y]; [discriminate Y|]. revert Y. apply G; [intros z Y; discriminate Y|cbn; intuition discriminate].
Qed.
Print Assumptions C132_parts.
(** The exported bytes grow linearly with the text of the policy and the message. *)
Theorem C132_bytes : forall E mpk t q pt w w' n1 n2 nt, (forall x, length (e_hash E x) = 32%nat) -> 0 <= n1 -> 0 <= n2 -> 0 <= nt ->
  create_policy_tree (e_mktime E) t = Ok (Some q) -> ct_parts (w_ct E w) = [] -> encrypt E CP mpk (InPolicy q) pt w = (w', Ok 0) -> regular n1 n2 nt (ct_parts (w_ct E w')) ->
  exists blob, ct_export (w_ct E w') = Ok blob /\ 3 * len blob <= (32 * (n1 + n2 + 68) + 3) * len t + 3 * len pt + 3 * len (ct_uid (w_ct E w)) + 3 * n1 + 219.
Proof.
  intros E mpk t q pt w w' n1 n2 nt H32 N1 N2 NT Ht B H R. destruct (C131_bytes _ _ _ _ _ _ _ _ _ _ B H R) as (blob & Eb & Hb). exists blob. split; [exact Eb|]. rewrite Hb.
  destruct (C130_policy _ _ _ Ht) as (r & Hr & L1 & L2 & _). cbn [shown].
  pose proof (cp_size n1 n2 nt N1 N2 NT (e_hash E) H32 q (len pt) (len_nonneg pt)) as X.
  assert (ptext q = t) as Et by (apply accepted_reads in Ht as (e & r0 & _ & _ & _ & _ & _ & _ & Et & _); exact Et).
  assert (Z.of_nat (length (leaf_names q)) = leaf_count r) as El by (unfold leaf_names, leaf_count; rewrite Hr, map_length; reflexivity). rewrite El, Et in X.
  pose proof (packed_le _ (ltac:(pose proof (len_nonneg (ct_uid (w_ct E w))); lia) : 0 <= 2 + len (ct_uid (w_ct E w)))) as P.
  assert (forall v, 0 <= view_size n1 n2 nt v -> packed (view_size n1 n2 nt v) <= view_size n1 n2 nt v + 5) as Q by (intros v Hv; apply packed_le; exact Hv).
  assert (0 <= leaf_count r * (n1 + n2 + 68) + len t + len pt + n1 + 61) as Z0 by (pose proof (len_nonneg t); pose proof (len_nonneg pt); nia).
  assert (packed (view_size n1 n2 nt (cp_shown (e_hash E) q (len pt))) <= leaf_count r * (n1 + n2 + 68) + len t + len pt + n1 + 61 + 5) as Y.
  { destruct (Z_le_gt_dec 0 (view_size n1 n2 nt (cp_shown (e_hash E) q (len pt)))) as [G|G]; [specialize (Q _ G); lia|].
    unfold packed. destruct (65535 <? _) eqn:E1; [apply Z.ltb_lt in E1; lia|]. destruct (255 <? _) eqn:E2; [apply Z.ltb_lt in E2; lia|]. destruct (0 <? _) eqn:E3; [apply Z.ltb_lt in E3; lia|]. lia. }
  assert (3 * (leaf_count r * (n1 + n2 + 68)) <= 32 * len t * (n1 + n2 + 68)) by nia. lia.
Qed.
Print Assumptions C132_bytes.

(** A toy run: two messages of one length and one of another; the policy
    has two leaves. *)
Example C131_nonvacuous :
  let pol := InPolicy (parsed_policy (L "(one or two)")) in
  let enc m := encrypt toy_engine CP (L "mpk") pol m (start toy_engine (left_by toy_engine (w_alice toy_engine CP (key_input CP))) (no_ct toy_engine)) in
  snd (enc (L "hello")) = Ok 0 /\ snd (enc (L "there")) = Ok 0 /\ snd (enc (L "longer one")) = Ok 0 /\
  regular 1 1 1 (ct_parts (w_ct toy_engine (fst (enc (L "hello"))))) /\
  num_components (ct_parts (w_ct toy_engine (fst (enc (L "hello"))))) = 7 /\
  (match ct_export (w_ct toy_engine (fst (enc (L "hello")))), ct_export (w_ct toy_engine (fst (enc (L "there")))), ct_export (w_ct toy_engine (fst (enc (L "longer one")))) with
   | Ok a, Ok b, Ok c => a <> b /\ (len a, len b, len c) = (132, 132, 137) | _, _, _ => False end).
Proof.
  cbv zeta. split; [vm_compute; reflexivity|]. split; [vm_compute; reflexivity|]. split; [vm_compute; reflexivity|]. split; [|split; [vm_compute; reflexivity|vm_compute; split; [discriminate|reflexivity]]].
  intros name o _. destruct o; try exact I; reflexivity.
Qed.
