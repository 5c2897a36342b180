(** C46, C47, C73: the key store. *)
From Verif Require Import Base StrMap ByteString UInteger Field Policy Driver Parser AttrList Utils Container Keystore KeystoreSpec KeystoreProofs ContainerSpec PropContainer.
From Coq Require Import ZArith List Ascii Bool Lia.
Import ListNotations.
Open Scope Z_scope.

(** C46: histories are lists of calls, the latest first; [after h] is the store
    they lead to. *)
Theorem C46_public_key : forall A (h : list (call A)) name, snd (get_public_key (after h) name) = last_added KEY_PUBLIC name h.
Proof. intros A h name. rewrite <- class_map_after. apply get_public_spec. Qed.
Print Assumptions C46_public_key.
Theorem C46_secret_key : forall A (h : list (call A)) name, snd (get_secret_key (after h) name) = last_added KEY_SECRET name h.
Proof. intros A h name. rewrite <- class_map_after. apply get_secret_spec. Qed.
Print Assumptions C46_secret_key.
(** getKey prefers the public key of the name; a new name is valid when it has
    neither. *)
Theorem C46_any_key : forall A (h : list (call A)) name,
  snd (get_key (after h) name) = match last_added KEY_PUBLIC name h with Some k => Some k | None => last_added KEY_SECRET name h end /\
  (snd (validate_new_params_id (after h) name) = true <-> last_added KEY_PUBLIC name h = None /\ last_added KEY_SECRET name h = None).
Proof.
  intros A h name. rewrite <- !class_map_after. cbn [class_map]. destruct (get_key_spec (after h) name) as (_ & _ & E). split; [exact E|].
  unfold validate_new_params_id. destruct (get_key (after h) name) as [s v]. cbn [snd] in *. subst v.
  destruct (look (pub_keys (after h)) name), (look (sec_keys (after h)) name); split; intuition congruence.
Qed.
Print Assumptions C46_any_key.
(** exportKeyToBytes returns that key's bytes with code 0, or code 8 with the
    caller's buffer as it was. *)
Theorem C46_export : forall (K : curve) (memory : nat -> key K) h name out,
  snd (export_key {| heap := memory; kstore := after h |} name out) =
  match (match last_added KEY_PUBLIC name h with Some k => Some k | None => last_added KEY_SECRET name h end) with
  | Some a => match key_export (memory a) with Ok b => Ok (b, 0) | Throw e => Throw e | UB => UB | Exit => Exit | NoFuel => NoFuel end
  | None => Ok (out, 8)
  end.
Proof.
  intros K memory h name out. destruct (C46_any_key _ h name) as [E _]. rewrite <- E. unfold export_key. cbn [kstore heap].
  destruct (get_key (after h) name) as [s [a|]]; cbn [snd]; [|reflexivity]. destruct (key_export (memory a)); reflexivity.
Qed.
Print Assumptions C46_export.
(** deleteKey never reports an error. *)
Theorem C46_delete_code : forall A (h : list (call A)) name, snd (delete_key (after h) name) = 0.
Proof. intros A h name. apply delete_key_spec. Qed.
Print Assumptions C46_delete_code.
Definition busy : list (call nat) :=
  [GetPublic (L "c"); DeleteKey (L "b"); AddKey (L "b") (Some 4%nat) KEY_SECRET; GetKey (L "zz");
   AddKey (L "a") (Some 3%nat) KEY_SECRET; AddKey (L "a") (Some 2%nat) KEY_PUBLIC; AddKey (L "a") (Some 1%nat) KEY_PUBLIC].
Example C46_nonvacuous :
  snd (get_public_key (after busy) (L "a")) = Some 2%nat /\ snd (get_secret_key (after busy) (L "a")) = Some 3%nat /\
  snd (get_secret_key (after busy) (L "b")) = None /\ last_added KEY_PUBLIC (L "a") busy = Some 2%nat /\
  snd (validate_new_params_id (after busy) (L "b")) = true /\ snd (validate_new_params_id (after busy) (L "a")) = false.
Proof. vm_compute. repeat split; reflexivity. Qed.

(** C47 is false: looking for a secret key makes checkSecretKey report it. *)
Theorem C47_lookup_refuted : exists (h : list (call nat)) name,
  last_added KEY_SECRET name h = None /\ (forall p c, ~ In (AddKey name p c) h) /\ check_secret_key (after h) name = true.
Proof. exists [GetSecret (L "k")], (L "k"). split; [reflexivity|]. split; [intros p c [H|[]]; discriminate|reflexivity]. Qed.
Print Assumptions C47_lookup_refuted.
(** So does checking that a name is free, and deleting a key that is not there. *)
Theorem C47_validate_refuted : exists (h : list (call nat)) name,
  last_added KEY_SECRET name h = None /\ h = [ValidateID name] /\ check_secret_key (after h) name = true.
Proof. exists [ValidateID (L "k")], (L "k"). split; [reflexivity|]. split; reflexivity. Qed.
Print Assumptions C47_validate_refuted.
Theorem C47_delete_refuted : exists (h : list (call nat)) name,
  (exists h', h = DeleteKey name :: h') /\ check_secret_key (after h) name = true.
Proof. exists [DeleteKey (L "k")], (L "k"). split; [eauto|reflexivity]. Qed.
Print Assumptions C47_delete_refuted.
(** It never denies an existing key. *)
Theorem C47_never_denies_partial : forall A (h : list (call A)) name,
  last_added KEY_SECRET name h <> None -> check_secret_key (after h) name = true.
Proof. intros A h name H. rewrite <- class_map_after in H. apply look_mem. exact H. Qed.
Print Assumptions C47_never_denies_partial.
(** And is right about names that were never searched for. *)
Theorem C47_without_lookups_partial : forall A (h : list (call A)) name,
  (forall x, In x h -> looks_up name x = false) -> (forall c, ~ In (AddKey name None c) h) ->
  (check_secret_key (after h) name = true <-> last_added KEY_SECRET name h <> None).
Proof. intros A h name. apply check_exact. Qed.
Print Assumptions C47_without_lookups_partial.
(** What it answers after any history. *)
Theorem C47_exact_partial : forall A (h : list (call A)) name, check_secret_key (after h) name = entered name h.
Proof. intros A h name. apply check_entered. Qed.
Print Assumptions C47_exact_partial.
Example C47_nonvacuous : (forall x, In x busy -> looks_up (L "a") x = false) /\ check_secret_key (after busy) (L "a") = true /\
  last_added KEY_SECRET (L "a") busy = Some 3%nat /\ check_secret_key (after busy) (L "b") = false /\ check_secret_key (after busy) (L "zz") = true.
Proof. split; [intros x H; cbn in H; intuition (subst; reflexivity)|]. vm_compute. repeat split; reflexivity. Qed.

(** C73 is false: deleteKey wipes nothing, whoever still holds the key can read it. *)
Theorem C73_never_wiped : forall (K : curve) (w : kworld K) id a, heap (fst (delete_key_world w id)) a = heap w a.
Proof.
  intros K w id a. unfold delete_key_world. destruct (delete_key (kstore w) id) as [[s v] code]. cbn. destruct v as [b|]; [|reflexivity].
  unfold heap_set. destruct (Nat.eqb_spec b a); [subst; reflexivity|reflexivity].
Qed.
Print Assumptions C73_never_wiped.
Theorem C73_wipe_refuted : exists K (w w' : kworld K) id a b,
  snd (get_secret_key (kstore w) id) = Some a /\ delete_key_world w id = (w', 0) /\
  snd (get_secret_key (kstore w') id) = None /\ key_export (heap w' a) = Ok b /\ key_export (heap w a) = Ok b.
Proof.
  exists toy, {| heap := fun _ => sample_key; kstore := after [AddKey (L "k") (Some 7%nat) KEY_SECRET] |}.
  eexists _, (L "k"), 7%nat, _. split; [reflexivity|]. split; [reflexivity|]. split; [reflexivity|]. split; [vm_compute; reflexivity|vm_compute; reflexivity].
Qed.
Print Assumptions C73_wipe_refuted.
