(** Properties C40-C45 and C71 (containers, ciphertexts, keys). *)
From Verif Require Import Base StrMap ByteString ByteStringProofs UInteger Field Policy Driver Parser AttrList Utils Container ContainerSpec ContainerProofs ContainerLoad.
From Coq Require Import ZArith List Ascii Bool Lia ZifyBool ZifyNat.
Import ListNotations.
Open Scope Z_scope.

(** A small pairing library that meets the laws: elements are single bytes,
    written as two bytes (G1, G2) or three (GT). *)
Definition toy : curve := {|
  g1 := ascii; g1_out := fun x => [z2b 2; x]; g1_in := fun b => match b with [_; x] => Ok x | _ => Throw RuntimeError end; g1_size := 2; g1_same := Ascii.eqb;
  g2 := ascii; g2_out := fun x => [z2b 3; x]; g2_in := fun b => match b with [_; x] => Ok x | _ => Throw RuntimeError end; g2_size := 2; g2_same := Ascii.eqb;
  gt := ascii; gt_out := fun x => [z2b 4; x; x]; gt_in := fun b => match b with [_; x; _] => Ok x | _ => Throw RuntimeError end; gt_same := Ascii.eqb;
  order := 101 |}.
Lemma toy_ok : curve_ok toy.
Proof. split; cbn; intros; auto; try lia; try apply Ascii.eqb_eq. Qed.
Lemma toy_safe : curve_safe toy.
Proof. repeat split; intro b; destruct b as [|? [|? [|? [|? ?]]]]; exact Logic.I. Qed.
Definition mk0 : tm -> Z * tm := fun t => (0, t).
Definition e1 : ascii -> zobj toy := @OG1 toy.
Definition e2 : ascii -> zobj toy := @OG2 toy.
Definition et : ascii -> zobj toy := @OGt toy.
Definition put (c : container toy) (kv : str * zobj toy) : container toy := set_component c (fst kv) (snd kv).
Definition build (l : list (str * zobj toy)) : container toy := fold_left put l [].

(** C40: a serialised container read into a fresh one. *)
Theorem C40_container_roundtrip : forall K mktime c, curve_ok K -> msorted c -> all_portable K mktime c -> c <> [] ->
  exists blob c', serialize c [] = Ok blob /\ deserialize K mktime [] blob = (c', Ok tt) /\ same_content c c'.
Proof. intros K mktime c H1 H2 H3 H4. destruct (fresh_back K mktime c H1 H2 H3 H4) as (b & c' & A & _ & B & C). eauto. Qed.
Print Assumptions C40_container_roundtrip.
(** Into a container that already holds something: the names of the blob are
    overwritten, the others are kept. *)
Theorem C40_into_existing : forall K mktime c c0, curve_ok K -> msorted c -> all_portable K mktime c -> c <> [] ->
  exists blob c', serialize c [] = Ok blob /\ deserialize K mktime c0 blob = (c', Ok tt) /\
    (forall name o, mget name c = Some (Some o) -> exists o', mget name c' = Some (Some o') /\ same_value o o') /\
    (forall name, mget name c = None -> mget name c' = mget name c0).
Proof. intros K mktime c c0 H1 H2 H3 H4. destruct (container_back K mktime c c0 H1 H2 H3 H4) as (b & c' & A & _ & B & C & D & _). eauto 8. Qed.
Print Assumptions C40_into_existing.
(** The standing hypothesis on containers is what std::map keeps. *)
Theorem C40_sorted : forall K (c : container K), msorted c -> forall name o,
  msorted (set_component c name o) /\ msorted (fst (get_component c name)) /\ msorted (fst (delete_component c name)).
Proof.
  intros K c H name o. unfold get_component, index, delete_component. split; [apply msorted_mset; exact H|].
  destruct (mget name c); cbn [fst]; split; auto using msorted_mset, msorted_mdel.
Qed.
Print Assumptions C40_sorted.
Definition sample_entries : list (str * zobj toy) :=
  [(L "A", et (z2b 9)); (L "C", e1 (z2b 200)); (L "D", e2 (z2b 0)); (L "attributes", OAttrs {| aattrs := [L "a"; L "b"]; aorig := []; aprefix := [] |});
   (L "empty", OBytes []); (L "n", OInt {| uval := 4026531841; ubits := 0 |}); (L "policy", OBytes (L "a and b")); (L "s", OZp {| zv := 77; zord := Some 101 |})].
Definition sample : container toy := map (fun e => (fst e, Some (snd e))) sample_entries.
Lemma sample_built : sample = build sample_entries.
Proof. vm_compute. reflexivity. Qed.
Lemma sample_portable : all_portable toy mk0 sample.
Proof.
  intros name v E. apply mget_In in E. apply in_map_iff in E as ([k o] & E & Hin). cbn [fst snd] in E. injection E as <- <-.
  unfold sample_entries in Hin. cbn [In] in Hin. split.
  - split; [intro X; subst k|]; repeat (destruct Hin as [Hin|Hin]; [try discriminate Hin; apply (f_equal fst) in Hin; cbn [fst] in Hin; subst k; reflexivity|]); destruct Hin.
  - exists o. split; [reflexivity|]. repeat (destruct Hin as [Hin|Hin]; [apply (f_equal snd) in Hin; cbn [snd] in Hin; subst o; cbn [portable uval ubits zv e1 e2 et];
      try exact Logic.I; try reflexivity; try (change (order toy) with 101; lia); try (split; [exists (L "a|b"); vm_compute; reflexivity|vm_compute; reflexivity])|]). destruct Hin.
Qed.
Example C40_nonvacuous : msorted sample /\ sample <> [] /\ all_portable toy mk0 sample /\ curve_ok toy /\
  (exists b c, serialize sample [] = Ok b /\ deserialize toy mk0 [] b = (c, Ok tt) /\ mget (L "s") c = Some (Some (OZp {| zv := 77; zord := Some 101 |})) /\ length c = 8%nat).
Proof.
  split; [rewrite sample_built; unfold build; repeat apply msorted_mset; apply msorted_nil|]. split; [discriminate|]. split; [exact sample_portable|]. split; [exact toy_ok|].
  eexists _, _. split; [vm_compute; reflexivity|]. split; [vm_compute; reflexivity|]. split; reflexivity.
Qed.
(** What does not travel: a container without components, an explicit integer
    width, an empty name, a policy object. *)
Theorem C72_empty_refuted : forall K mktime c0, serialize (K:=K) [] [] = Ok [] /\ deserialize K mktime c0 [] = (c0, Throw OutOfRange).
Proof. intros. split; reflexivity. Qed.
Print Assumptions C72_empty_refuted.
Theorem C72_width_refuted : exists K mktime (c : container K) blob c' x y, curve_ok K /\ c = set_component [] (L "n") (OInt {| uval := 5; ubits := 8 |}) /\
  serialize c [] = Ok blob /\ deserialize K mktime [] blob = (c', Ok tt) /\ mget (L "n") c = Some (Some x) /\ mget (L "n") c' = Some (Some y) /\ ~ same_value x y.
Proof.
  exists toy, mk0. eexists _, _, _, _, _. split; [exact toy_ok|]. split; [reflexivity|]. split; [vm_compute; reflexivity|]. split; [vm_compute; reflexivity|].
  split; [vm_compute; reflexivity|]. split; [vm_compute; reflexivity|]. cbn. intros [_ X]. discriminate.
Qed.
Print Assumptions C72_width_refuted.
Theorem C72_empty_name_refuted : exists K mktime (c : container K) blob c', curve_ok K /\ c = set_component (set_component [] [] (OBytes (L "x"))) (L "k") (OBytes (L "y")) /\
  serialize c [] = Ok blob /\ deserialize K mktime [] blob = (c', Throw (OpenABEError 100)).
Proof. exists toy, mk0. eexists _, _, _. split; [exact toy_ok|]. split; [reflexivity|]. split; [vm_compute; reflexivity|vm_compute; reflexivity]. Qed.
Print Assumptions C72_empty_name_refuted.
Theorem C72_policy_refuted : forall K (c : container K) name p r, serialize (set_component c name (OPolicy p)) r = UB.
Proof. intros. apply serialize_null with (name := name). unfold set_component. apply mget_mset_same. Qed.
Print Assumptions C72_policy_refuted.

(** C41 *)
Theorem C41_ciphertext_roundtrip : forall K mktime ct c0, curve_ok K -> msorted (ct_parts ct) -> all_portable K mktime (ct_parts ct) -> ct_parts ct <> [] ->
  (forall body, serialize (ct_parts ct) [] = Ok body -> len body < 2^32) ->
  0 <= ct_version ct <= 170 -> known_scheme (ct_alg ct) -> len (ct_uid ct) = 16 -> ct_parts c0 = [] ->
  exists blob ct', ct_export ct = Ok blob /\ ct_load K mktime c0 blob = (ct', Ok tt) /\
    ct_version ct' = ct_version ct /\ ct_alg ct' = ct_alg ct /\ ct_uid ct' = ct_uid ct /\ same_content (ct_parts ct) (ct_parts ct').
Proof. exact ct_back. Qed.
Print Assumptions C41_ciphertext_roundtrip.
Theorem C41_bare_roundtrip : forall K mktime ct c0, curve_ok K -> msorted (ct_parts ct) -> all_portable K mktime (ct_parts ct) -> ct_parts ct <> [] ->
  (forall body, serialize (ct_parts ct) [] = Ok body -> len body < 2^32) -> ct_parts c0 = [] ->
  exists blob ct', ct_export_bare ct = Ok blob /\ ct_load_bare K mktime c0 blob = (ct', Ok tt) /\ same_content (ct_parts ct) (ct_parts ct').
Proof.
  intros K mktime ct c0 HK Hs H Hne Hb H0. destruct (fresh_back K mktime _ HK Hs H Hne) as (body & c' & Eb & Nb & Ed & Hc). specialize (Hb body Eb).
  assert (Lb : 0 < len body < 2^32) by (split; [destruct body; [congruence|]; rewrite len_cons; pose proof (len_nonneg body); lia|lia]).
  eexists _, _. split; [unfold ct_export_bare; rewrite Eb; reflexivity|]. unfold ct_load_bare, load_body. pose proof (su [] body [] Lb) as E. rewrite app_nil_r in E. cbn [app length] in E. rewrite E. cbn [snd].
  replace (0 <? len body) with true by lia. rewrite H0, Ed. split; [reflexivity|exact Hc].
Qed.
Print Assumptions C41_bare_roundtrip.
Definition sample_ct : ciphertext toy := {| ct_version := 170; ct_alg := 101; ct_uid := L "0123456789abcdef"; ct_parts := sample |}.
Example C41_nonvacuous : exists b ct', ct_export sample_ct = Ok b /\ ct_load toy mk0 (new_ciphertext toy) b = (ct', Ok tt) /\ ct_uid ct' = L "0123456789abcdef" /\
  known_scheme 101 /\ len (ct_uid sample_ct) = 16 /\ (forall body, serialize (ct_parts sample_ct) [] = Ok body -> len body < 2^32).
Proof.
  eexists _, _. split; [vm_compute; reflexivity|]. split; [vm_compute; reflexivity|]. split; [reflexivity|]. split; [cbn; tauto|]. split; [reflexivity|].
  intros body E. vm_compute in E. injection E as <-. reflexivity.
Qed.
(** A uid longer than 16 bytes is accepted by the constructor but the exported
    ciphertext cannot be loaded; nor can a ciphertext without components. *)
Theorem C72_long_uid_refuted : exists K mktime uid blob c', curve_ok K /\ ct_export (ct_set_component (new_ciphertext_uid K uid) (L "k") (OBytes (L "v"))) = Ok blob /\
  ct_load K mktime (new_ciphertext K) blob = (c', Throw (OpenABEError 31)).
Proof. exists toy, mk0, (L "0123456789abcdefg"). eexists _, _. split; [exact toy_ok|]. split; [vm_compute; reflexivity|vm_compute; reflexivity]. Qed.
Print Assumptions C72_long_uid_refuted.
Theorem C72_no_components_refuted : exists K mktime blob c', curve_ok K /\ ct_export (new_ciphertext K) = Ok blob /\ ct_load K mktime (new_ciphertext K) blob = (c', Throw OutOfRange).
Proof. exists toy, mk0. eexists _, _. split; [exact toy_ok|]. split; [vm_compute; reflexivity|vm_compute; reflexivity]. Qed.
Print Assumptions C72_no_components_refuted.

(** C42: what is accepted has a proper header. *)
Theorem C42_accepted_header : forall K mktime c input c', ct_load K mktime c input = (c', Ok tt) ->
  exists rest, has_header input (ct_version c') (ct_alg c') (ct_uid c') rest /\ ct_version c' <= 170 /\ known_scheme (ct_alg c').
Proof. exact ct_load_accepts. Qed.
Print Assumptions C42_accepted_header.
(** A blob without such a header throws, and no component is touched. *)
Theorem C42_bad_header_throws : forall K mktime c input, (forall v a uid rest, has_header input v a uid rest -> 170 < v \/ ~ known_scheme a) ->
  exists e, snd (ct_load K mktime c input) = Throw e /\ ct_parts (fst (ct_load K mktime c input)) = ct_parts c.
Proof. exact ct_load_bad_header. Qed.
Print Assumptions C42_bad_header_throws.
(** A blob has at most one reading as header and rest. *)
Theorem C42_header_unique : forall blob v a uid rest v' a' uid' rest', has_header blob v a uid rest -> has_header blob v' a' uid' rest' ->
  v = v' /\ a = a' /\ uid = uid' /\ rest = rest'.
Proof. exact header_det. Qed.
Print Assumptions C42_header_unique.
(** Keys: reading the header always returns or throws; what is accepted has a
    proper header. *)
Theorem C42_key_header : forall K blob bytes random,
  (exists e, parse_key_header K blob bytes random = Throw e) \/
  (exists v a uid id rest k body, has_key_header blob v a uid id rest /\ v <= 170 /\ known_scheme a /\
     parse_key_header K blob bytes random = Ok (k, body) /\ k_alg k = a /\ k_uid k = uid /\ k_id k = id /\ k_parts k = []).
Proof. exact key_header_cases. Qed.
Print Assumptions C42_key_header.
(** "No other outcome than throwing or loading" is false: a truncated exponent is
    read past its end, and a group element of an unexpected size ends the
    process. *)
Theorem C42_truncated_refuted : exists K mktime blob, curve_ok K /\ curve_safe K /\ snd (ct_load K mktime (new_ciphertext K) blob) = UB.
Proof.
  exists toy, mk0, (smart_pack (smart_pack [] (get_header (new_ciphertext toy))) (smart_pack (smart_pack [] (L "s")) (map z2b [177; 0; 32; 1]))).
  split; [exact toy_ok|]. split; [exact toy_safe|]. vm_compute. reflexivity.
Qed.
Print Assumptions C42_truncated_refuted.
Theorem C42_exit_refuted : exists K mktime blob, curve_ok K /\ curve_safe K /\ snd (ct_load K mktime (new_ciphertext K) blob) = Exit.
Proof.
  exists toy, mk0, (smart_pack (smart_pack [] (get_header (new_ciphertext toy))) (smart_pack (smart_pack [] (L "C")) (map z2b [178; 161; 3; 1; 2; 3]))).
  split; [exact toy_ok|]. split; [exact toy_safe|]. vm_compute. reflexivity.
Qed.
Print Assumptions C42_exit_refuted.
(** Those, and policies the parser breaks on, are the only causes. *)
Theorem C42_crash_causes : forall K mktime c input, curve_safe K ->
  match snd (ct_load K mktime c input) with
  | Ok _ | Throw _ => True
  | _ => exists k k' body value, slice_of input k body /\ slice_of body k' value /\ crashing K mktime value
  end.
Proof. exact ct_load_outcome. Qed.
Print Assumptions C42_crash_causes.
Example C42_nonvacuous :
  has_header (map z2b ([161; 18; 170; 101] ++ repeat 0 16 ++ [9])) 170 101 (repeat (z2b 0) 16) [z2b 9] /\
  snd (ct_load toy mk0 (new_ciphertext toy) (map z2b ([161; 18; 171; 101] ++ repeat 0 16 ++ [9]))) = Throw (OpenABEError 26) /\
  snd (ct_load toy mk0 (new_ciphertext toy) (map z2b ([161; 18; 170; 3] ++ repeat 0 16 ++ [9]))) = Throw (OpenABEError 39) /\
  (forall v a uid rest, has_header (map z2b ([161; 18; 170; 3] ++ repeat 0 16 ++ [9])) v a uid rest -> 170 < v \/ ~ known_scheme a).
Proof.
  assert (forall a, 0 <= a < 256 -> has_header (map z2b ([161; 18; 170; a] ++ repeat 0 16 ++ [9])) 170 a (repeat (z2b 0) 16) [z2b 9]) as H.
  { intros a Ha. exists [z2b 161; z2b 18], (z2b 170), (z2b a). split; [left; split; [reflexivity|lia]|]. split; [reflexivity|]. split; [reflexivity|]. split; [rewrite b2z_z2b, Z.mod_small by lia; reflexivity|reflexivity]. }
  split; [apply H; lia|]. split; [vm_compute; reflexivity|]. split; [vm_compute; reflexivity|].
  intros v a uid rest Hh. destruct (header_det _ _ _ _ _ _ _ _ _ Hh (H 3 ltac:(lia))) as (-> & -> & _). right. cbn. lia.
Qed.

(** C43 *)
Theorem C43_key_roundtrip : forall K mktime k bytes random, curve_ok K -> msorted (k_parts k) -> all_portable K mktime (k_parts k) -> k_parts k <> [] ->
  (forall body, serialize (k_parts k) [] = Ok body -> len body < 2^32) ->
  0 <= k_version k <= 170 -> known_scheme (k_alg k) -> len (k_uid k) = 16 -> len (k_id k) < 2^31 ->
  exists blob k0 body k', key_export k = Ok blob /\ parse_key_header K blob bytes random = Ok (k0, body) /\ key_load K mktime k0 body = (k', Ok tt) /\
    k_alg k' = k_alg k /\ k_uid k' = k_uid k /\ k_id k' = k_id k /\ k_type k' = key_type_of (k_alg k) /\ same_content (k_parts k) (k_parts k').
Proof. exact key_back. Qed.
Print Assumptions C43_key_roundtrip.
Definition sample_key : key toy := {| k_version := 170; k_alg := 102; k_uid := L "0123456789abcdef"; k_id := L "alice"; k_type := key_type_of 102; k_parts := sample |}.
Example C43_nonvacuous : exists b k0 body k', key_export sample_key = Ok b /\ parse_key_header toy b [] [] = Ok (k0, body) /\ key_load toy mk0 k0 body = (k', Ok tt) /\ k_id k' = L "alice" /\ length (k_parts k') = 8%nat /\
  known_scheme 102 /\ (forall body, serialize (k_parts sample_key) [] = Ok body -> len body < 2^32).
Proof.
  eexists _, _, _, _. split; [vm_compute; reflexivity|]. split; [vm_compute; reflexivity|]. split; [vm_compute; reflexivity|]. split; [reflexivity|]. split; [reflexivity|].
  split; [cbn; tauto|]. intros body E. vm_compute in E. injection E as <-. reflexivity.
Qed.

(** C44: a failing lookup reports the error but leaves a null entry behind. *)
Theorem C44_reports_missing : forall K (c : container K) name, (forall o, mget name c <> Some (Some o)) -> snd (get_component c name) = Throw (OpenABEError 18).
Proof.
  intros K c name H. destruct (mget name c) as [[o|]|] eqn:E; [exfalso; apply (H o); reflexivity|rewrite (get_null _ _ _ E); reflexivity|rewrite (get_missing _ _ _ E); reflexivity].
Qed.
Print Assumptions C44_reports_missing.
Theorem C44_found_unchanged : forall K (c : container K) name o, mget name c = Some (Some o) -> get_component c name = (c, Ok o).
Proof. exact get_present. Qed.
Print Assumptions C44_found_unchanged.
(** For every container and every missing name: the name is now listed, and
    exporting the container dereferences a null pointer. *)
Theorem C44_lookup_refuted : forall K (c : container K) name r, mget name c = None ->
  let c' := fst (get_component c name) in
  c' <> c /\ In name (get_keys c') /\ serialize c' r = UB.
Proof.
  intros K c name r E. rewrite (get_missing _ _ _ E). cbn [fst]. split; [|split].
  - intro X. assert (mget name (mset name None c) = mget name c) as Y by (rewrite X; reflexivity). rewrite mget_mset_same, E in Y. discriminate.
  - apply mkeys_mset. auto.
  - apply serialize_null with (name := name). apply mget_mset_same.
Qed.
Print Assumptions C44_lookup_refuted.
(** Exporting is defined exactly when no entry is null. *)
Theorem C44_export_defined : forall K (c : container K) r, msorted c ->
  ((exists s, serialize c r = Ok s) <-> (forall name, mget name c <> Some None)) /\ ((exists s, serialize c r = Ok s) \/ serialize c r = UB).
Proof.
  intros K c r Hs. split; [|apply serialize_else]. unfold serialize. rewrite serialize_defined. split.
  - intros H name E. apply mget_In in E. apply (H _ _ E). reflexivity.
  - intros H k v E X. subst v. apply (H k). apply In_mget; [apply msorted_NoDup|]; assumption.
Qed.
Print Assumptions C44_export_defined.
Example C44_nonvacuous : mget (L "zz") sample = None /\ (exists s, serialize sample [] = Ok s) /\ serialize (fst (get_component sample (L "zz"))) [] = UB.
Proof. split; [reflexivity|]. split; [eexists; vm_compute; reflexivity|]. vm_compute. reflexivity. Qed.

(** * C97 *)
(** A container in use: components are set, looked up and deleted, newest call
    first. *)
Inductive use {K : curve} := USet (name : str) (o : zobj K) | UGet (name : str) | UDelete (name : str).
Arguments use K : clear implicits.
Fixpoint used {K} (h : list (use K)) : container K :=
  match h with
  | [] => []
  | USet name o :: h => set_component (used h) name o
  | UGet name :: h => fst (get_component (used h) name)
  | UDelete name :: h => fst (delete_component (used h) name)
  end.
(** What is under a name: the object last set, unless deleted since.  A policy
    object is not kept. *)
Definition kept {K} (o : zobj K) : option (zobj K) := match o with OPolicy _ => None | _ => Some o end.
Fixpoint current {K} (h : list (use K)) (name : str) : option (zobj K) :=
  match h with
  | [] => None
  | USet n o :: h => if str_eqb n name then kept o else current h name
  | UGet _ :: h => current h name
  | UDelete n :: h => if str_eqb n name then None else current h name
  end.
Lemma used_current : forall K (h : list (use K)) name o, mget name (used h) = Some (Some o) <-> current h name = Some o.
Proof.
  intros K h name o. induction h as [|[n x|n|n] h IH]; cbn [used current].
  - split; discriminate.
  - unfold set_component. destruct (str_eqb n name) eqn:E.
    + apply str_eqb_eq in E as ->. rewrite mget_mset_same. assert (clone x = kept x) as -> by (destruct x as [| | | | | |[]|]; reflexivity). split; congruence.
    + rewrite mget_mset_other; [exact IH|]. intros ->. rewrite str_eqb_refl in E. discriminate.
  - rewrite <- IH. unfold get_component, index. destruct (mget n (used h)) as [v|] eqn:E; [reflexivity|]. cbn [fst].
    destruct (str_eq_dec name n) as [->|N]; [rewrite mget_mset_same, E; split; discriminate|rewrite mget_mset_other by exact N; reflexivity].
  - unfold delete_component. destruct (str_eqb n name) eqn:E.
    + apply str_eqb_eq in E as ->. destruct (mget name (used h)) as [v|] eqn:E; cbn [fst]; [rewrite mget_mdel_same|rewrite E]; split; discriminate.
    + assert (name <> n) as N by (intros ->; rewrite str_eqb_refl in E; discriminate). destruct (mget n (used h)); cbn [fst]; [rewrite mget_mdel_other by exact N|]; exact IH.
Qed.
(** Over every history: getComponent returns the current object, or reports that
    there is none; deleteComponent of a name with an object returns 0. *)
Theorem C97_last_write : forall K (h : list (use K)) name,
  snd (get_component (used h) name) = match current h name with Some o => Ok o | None => Throw (OpenABEError 18) end /\
  (forall o, current h name = Some o -> snd (delete_component (used h) name) = 0 /\ In name (get_keys (used h))) /\
  ~ In name (get_keys (used (UDelete name :: h))).
Proof.
  intros K h name. pose proof (used_current K h name) as U. split; [|split].
  - destruct (current h name) as [o|] eqn:E.
    + rewrite (C44_found_unchanged K (used h) name o (proj2 (U o) eq_refl)). reflexivity.
    + apply C44_reports_missing. intros o X. apply U in X. congruence.
  - intros o E. apply U in E. unfold delete_component. rewrite E. split; [reflexivity|]. apply mget_In in E. unfold get_keys, mkeys. apply in_map_iff. exists (name, Some o). auto.
  - cbn [used]. unfold get_keys, mkeys. intro X. apply in_map_iff in X as ((n & v) & X & Y). cbn [fst] in X. subst n.
    assert (msorted (used (UDelete name :: h))) as So.
    { clear. induction (UDelete name :: h) as [|[n x|n|n] t IH]; cbn [used]; [apply msorted_nil| | |]; apply (C40_sorted K (used t) IH n (OBytes [])) || apply (C40_sorted K (used t) IH n x). }
    assert (mget name (used (UDelete name :: h)) = Some v) as Z by (apply In_mget; [apply msorted_NoDup; exact So|exact Y]).
    cbn [used] in Z. unfold delete_component in Z. destruct (mget name (used h)) as [w|] eqn:E; cbn [fst] in Z; [rewrite mget_mdel_same in Z|rewrite E in Z]; discriminate.
Qed.
Print Assumptions C97_last_write.
(** The code of deleteComponent does not tell whether there was an object: after a
    failed lookup it returns 0. *)
Theorem C97_delete_code_refuted : exists K (h : list (use K)) name, current h name = None /\ snd (delete_component (used h) name) = 0 /\
  snd (delete_component (used (match h with _ :: h => h | [] => [] end)) name) = 18.
Proof. exists toy, [UGet (L "a"); USet (L "b") (OBytes (L "x"))], (L "a"). repeat split; vm_compute; reflexivity. Qed.
Print Assumptions C97_delete_code_refuted.
Example C97_nonvacuous : let h := [USet (L "a") (OBytes (L "new")); UDelete (L "b"); UGet (L "c"); USet (L "b") (OBytes (L "x")); USet (L "a") (OBytes (L "old"))] in
  snd (get_component (K:=toy) (used h) (L "a")) = Ok (OBytes (L "new")) /\ snd (get_component (K:=toy) (used h) (L "b")) = Throw (OpenABEError 18).
Proof. split; vm_compute; reflexivity. Qed.

(** C45: what operator== computes. *)
Theorem C45_exact_partial : forall K (c1 c2 : container K), msorted c1 -> c2 <> [] ->
  (comparable K c1 c2 -> exists b, container_eq c1 c2 = (c1, c2, Ok b) /\ (b = true <-> forall name, mget name c1 <> None -> equal_at K c1 c2 name)) /\
  (~ comparable K c1 c2 -> snd (container_eq c1 c2) = Throw (OpenABEError 18) \/ snd (container_eq c1 c2) = UB).
Proof.
  intros K c1 c2 Hs Hne. rewrite container_eq_start. destruct c2 as [|e c2]; [congruence|]. set (d := e :: c2) in *. split.
  - intro H. destruct (compare_ok K (mkeys c1) c1 d false) as (b & E & Hb).
    { intros k Hk. apply keys_present in Hk. destruct (mget k c1) as [v|] eqn:Ek; [|congruence]. destruct (H k v Ek) as (x & y & b & -> & A & B). exists x, y, b. auto. }
    exists b. split; [exact E|]. rewrite Hb. split; [intros [_ X] name Hn; apply X; apply keys_present; exact Hn|]. intro X. split; [reflexivity|]. intros k Hk. apply X. apply keys_present. exact Hk.
  - intro H. apply compare_bad; [apply msorted_NoDup; exact Hs| |].
    + intro X. apply H. intros name v Ev. destruct (X name) as (x & y & b & A & B & C); [apply keys_present; congruence|]. rewrite Ev in A. injection A as ->. eauto 8.
    + intros k Hk. apply keys_present. exact Hk.
Qed.
Print Assumptions C45_exact_partial.
(** Where the answer is right: two containers with the same names that hold only
    numbers and group elements. *)
Definition number_or_element {K} (o : zobj K) : Prop := match o with OInt _ | OZp _ | OG1 _ | OG2 _ | OGt _ => True | _ => False end.
Theorem C45_numbers_and_elements : forall K (c1 c2 : container K), curve_ok K -> msorted c1 -> c1 <> [] -> mkeys c1 = mkeys c2 ->
  (forall name v, mget name c1 = Some v \/ mget name c2 = Some v -> exists o, v = Some o /\ number_or_element o) ->
  exists b, container_eq c1 c2 = (c1, c2, Ok b) /\
    (b = true <-> forall name, mget name c1 <> None -> exists x y, mget name c1 = Some (Some x) /\ mget name c2 = Some (Some y) /\ same_value x y).
Proof.
  intros K c1 c2 HK Hs Hne Hk H.
  assert (forall x y : zobj K, number_or_element x -> number_or_element y -> exists b, obj_is_equal x y = Ok b /\ (b = true <-> same_value x y)) as Eq.
  { intros x y Hx Hy. destruct x, y; try destruct Hx; try destruct Hy; cbn [obj_is_equal same_value]; eexists; (split; [reflexivity|]); try (split; [discriminate|intros []]).
    - unfold uint_eqb. lia.
    - unfold zp_eqb. lia.
    - rewrite (g1_cmp K HK). split; auto.
    - rewrite (g2_cmp K HK). split; auto.
    - rewrite (gt_cmp K HK). split; auto. }
  assert (forall name v, mget name c1 = Some v -> exists x y, v = Some x /\ mget name c2 = Some (Some y) /\ number_or_element x /\ number_or_element y) as Both.
  { intros name v E. destruct (H name v (or_introl E)) as (x & -> & Hx). destruct (mget name c2) as [w|] eqn:E2.
    - destruct (H name w (or_intror E2)) as (y & -> & Hy). eauto 8.
    - exfalso. apply mget_None in E2. rewrite <- Hk in E2. apply E2. apply keys_present. congruence. }
  assert (c2 <> []) as Hne2 by (intro X; subst c2; destruct c1; [congruence|discriminate]).
  destruct (C45_exact_partial K c1 c2 Hs Hne2) as [A _]. destruct A as (b & E & Hb).
  { intros name v Ev. destruct (Both name v Ev) as (x & y & -> & E2 & Hx & Hy). destruct (Eq x y Hx Hy) as (b & Eb & _). eauto 8. }
  exists b. split; [exact E|]. rewrite Hb. split; intros X name Hn.
  - destruct (X name Hn) as (x & y & E1 & E2 & E3). exists x, y. split; [exact E1|]. split; [exact E2|]. destruct (Both name _ E1) as (x' & y' & F1 & F2 & Hx & Hy). injection F1 as <-. rewrite E2 in F2. injection F2 as <-.
    destruct (Eq x y Hx Hy) as (b' & Eb & Hb'). rewrite E3 in Eb. injection Eb as <-. apply Hb'. reflexivity.
  - destruct (X name Hn) as (x & y & E1 & E2 & E3). exists x, y. split; [exact E1|]. split; [exact E2|]. destruct (Both name _ E1) as (x' & y' & F1 & F2 & Hx & Hy). injection F1 as <-. rewrite E2 in F2. injection F2 as <-.
    destruct (Eq x y Hx Hy) as (b' & Eb & Hb'). rewrite Eb. apply f_equal. apply Hb'. exact E3.
Qed.
Print Assumptions C45_numbers_and_elements.
Definition pair1 := build [(L "C", e1 (z2b 1)); (L "s", OZp {| zv := 5; zord := None |})].
Definition pair2 := build [(L "C", e1 (z2b 1)); (L "s", OZp {| zv := 6; zord := None |})].
Example C45_nonvacuous : snd (container_eq pair1 pair1) = Ok true /\ snd (container_eq pair1 pair2) = Ok false /\ mkeys pair1 = mkeys pair2 /\ msorted pair1 /\
  (forall name v, mget name pair1 = Some v \/ mget name pair2 = Some v -> exists o, v = Some o /\ number_or_element o).
Proof.
  split; [vm_compute; reflexivity|]. split; [vm_compute; reflexivity|]. split; [reflexivity|]. split; [unfold pair1, build; repeat apply msorted_mset; apply msorted_nil|].
  intros name v [E|E]; apply mget_In in E; destruct E as [E|[E|[]]]; injection E as <- <-; eexists; split; reflexivity || exact Logic.I.
Qed.
(** It is not content equality: byte strings are never equal, additional names on
    the right are not seen, a missing name on the right throws and inserts a
    null entry there, different attribute lists are equal, and an empty right
    operand dereferences an end iterator. *)
Theorem C45_bytes_refuted : forall K name b, snd (container_eq (K:=K) (set_component [] name (OBytes b)) (set_component [] name (OBytes b))) = Ok false.
Proof.
  intros K name b. rewrite container_eq_start. change (set_component (K:=K) [] name (OBytes b)) with [(name, Some (@OBytes K b))]. cbn [mkeys map fst compare_loop].
  rewrite (get_present K [(name, Some (OBytes b))] name (OBytes b)) by (cbn; rewrite str_eqb_refl; reflexivity). reflexivity.
Qed.
Print Assumptions C45_bytes_refuted.
Theorem C45_subset_refuted : exists K (c1 c2 : container K), curve_ok K /\ snd (container_eq c1 c2) = Ok true /\ mkeys c1 <> mkeys c2.
Proof. exists toy, (build [(L "C", e1 (z2b 1))]), pair1. split; [exact toy_ok|]. split; [vm_compute; reflexivity|discriminate]. Qed.
Print Assumptions C45_subset_refuted.
Theorem C45_superset_refuted : exists K (c1 c2 c1' c2' : container K), curve_ok K /\ container_eq c1 c2 = (c1', c2', Throw (OpenABEError 18)) /\ c2' <> c2.
Proof. exists toy, pair1, (build [(L "C", e1 (z2b 1))]). eexists _, _. split; [exact toy_ok|]. split; [vm_compute; reflexivity|discriminate]. Qed.
Print Assumptions C45_superset_refuted.
Theorem C45_lists_refuted : exists K l l', curve_ok K /\ aattrs l = [L "a"] /\ aattrs l' = [L "b"] /\
  snd (container_eq (K:=K) (set_component [] (L "input") (OAttrs l)) (set_component [] (L "input") (OAttrs l'))) = Ok true.
Proof.
  exists toy, {| aattrs := [L "a"]; aorig := []; aprefix := [] |}, {| aattrs := [L "b"]; aorig := []; aprefix := [] |}.
  split; [exact toy_ok|]. split; [reflexivity|]. split; [reflexivity|]. vm_compute. reflexivity.
Qed.
Print Assumptions C45_lists_refuted.
Theorem C45_empty_refuted : forall K (c1 : container K), snd (container_eq c1 []) = UB.
Proof. intros. rewrite container_eq_start. reflexivity. Qed.
Print Assumptions C45_empty_refuted.

(** C71: loading can leave a null entry, so that exporting what was loaded is
    undefined: a component whose bytes are a policy starting with z. *)
Theorem C71_reexport_refuted : exists K mktime blob ct, curve_ok K /\ curve_safe K /\ ct_load K mktime (new_ciphertext K) blob = (ct, Ok tt) /\ ct_export ct = UB /\
  snd (get_component (ct_parts ct) (L "p")) = Throw (OpenABEError 18).
Proof.
  exists toy, mk0, (smart_pack (smart_pack [] (get_header (new_ciphertext toy))) (smart_pack (smart_pack [] (L "p")) (L "zone or b"))). eexists.
  split; [exact toy_ok|]. split; [exact toy_safe|]. split; [vm_compute; reflexivity|]. split; [vm_compute; reflexivity|vm_compute; reflexivity].
Qed.
Print Assumptions C71_reexport_refuted.
(** Without such a component, what was loaded into a fresh object can be exported. *)
Theorem C71_reexport_partial : forall K mktime c input ct, ct_parts c = [] -> ct_load K mktime c input = (ct, Ok tt) ->
  (forall k k' body value q, slice_of input k body -> slice_of body k' value -> (exists r, value = z2b 122 :: r) -> create_policy_tree mktime value <> Ok (Some q)) ->
  exists blob, ct_export ct = Ok blob.
Proof.
  intros K mktime c input ct H0 E H. assert (msorted (ct_parts ct)) as Hs by (pose proof (ct_load_sorted K mktime c input) as X; rewrite E, H0 in X; apply X; apply msorted_nil).
  destruct (C44_export_defined K (ct_parts ct) [] Hs) as [[_ A] _]. destruct A as [s Es].
  - intros name En. destruct (ct_load_nulls K mktime c input ct name E En) as [X|(k & k' & body & value & q & A & B & C & D)]; [rewrite H0 in X; discriminate|exact (H _ _ _ _ _ A B C D)].
  - unfold ct_export. rewrite Es. cbn [bind]. eauto.
Qed.
Print Assumptions C71_reexport_partial.
