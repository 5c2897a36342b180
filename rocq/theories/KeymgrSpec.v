(** Specification vocabulary for the key manager: histories of commands, which
    command stored a key, and when a key's input fits a query. *)
From Verif Require Import Base StrMap Dec ByteString UInteger Field Policy Driver Parser AttrList Utils Lsss LsssSpec LsssRecover Container Keystore Keymgr.
From Coq Require Import ZArith List Ascii Bool.
Import ListNotations.
Open Scope Z_scope.

(** The commands of the class, in the order of zkeymgr.h. *)
Inductive command :=
| StoreID (user id blob : str) (expire : Z) (cache : bool) (random : str)
| StorePrefix (user prefix blob : str) (expire : Z) (cache : bool) (random : str)
| Search (user : str) (efficient : bool) (query : finput)
| Delete (user : str) (now : Z)
| GetCommand (user id : str)
| Count (user : str)
| SetPass (program user pass : str).

(** Two inputs that say the same (the flags of policy nodes apart). *)
Definition same_input (a b : finput) : Prop :=
  match a, b with InPolicy p _, InPolicy q _ => p = q | InAttrs l, InAttrs l' => l = l' | _, _ => False end.

(** [fits key_input query]: one is a policy, the other a list that satisfies it. *)
Definition fits (a b : finput) : Prop :=
  match a, b with
  | InPolicy p _, InAttrs l | InAttrs l, InPolicy p _ => exists r, proot p = Some r /\ sat (match_attribute (aattrs l)) r = true
  | _, _ => False
  end.

(** The number the satisfaction check reports for a policy and a list that fit. *)
Definition reported (sort : list (nat * Z) -> list (nat * Z)) (a b : finput) (n : Z) : Prop :=
  match a, b with
  | InPolicy p _, InAttrs l | InAttrs l, InPolicy p _ => exists st, check_if_satisfied sort (aattrs l) p true fresh = Ok (true, n, st)
  | _, _ => False
  end.

(** A query that can be asked: a list, or an and/or policy with clean flags. *)
Definition askable (q : finput) : Prop :=
  match q with InPolicy p st => exists r, proot p = Some r /\ and_or r = true /\ clean r st | InAttrs _ => True end.

(** What a key blob says it can decrypt, through the functions that read keys. *)
Definition blob_input (K : curve) mktime (blob : str) (f : finput) : Prop :=
  exists k body k', parse_key_header K blob [] [] = Ok (k, body) /\ key_load K mktime k body = (k', Ok tt) /\
    get_function_input K mktime k' = Ok (Some f).

(** The user owns a key of this identifier and blob. *)
Definition owns (m : manager) (user id blob : str) : Prop := blob <> [] /\ snd (get_key_command m user id) = blob.

(** The command, run on [m], stored this blob for the user under the identifier. *)
Definition stores (K : curve) mktime (m : manager) (c : command) (user id blob : str) : Prop :=
  match c with
  | StoreID u i b e ca r => u = user /\ i = id /\ b = blob /\ snd (store_with_id K mktime m u i b e ca r) = Ok true
  | StorePrefix u p b e ca r => u = user /\ b = blob /\ id <> [] /\ snd (store_with_prefix K mktime m u p b e ca r) = Ok id
  | _ => False
  end.

(** A decryption key as the schemes export them: attributes (CP-ABE) or policy
    (KP-ABE) under "input", with the text of that input. *)
Definition abe_key (K : curve) mktime (k : key K) (text : str) : Prop :=
  ((k_alg k = 101 \/ k_alg k = 201) /\ exists l, mget (L "input") (k_parts k) = Some (Some (OAttrs l)) /\ text = compact l) \/
  ((k_alg k = 102 \/ k_alg k = 202) /\ mget (L "input") (k_parts k) = Some (Some (OBytes text)) /\
   exists p, create_policy_tree mktime text = Ok (Some p)).

(** The command may write under the identifier: the identifier given, or the
    prefix followed by the user's count. *)
Definition targets (m : manager) (c : command) (id : str) : Prop :=
  match c with
  | StoreID _ i _ _ _ _ => i = id
  | StorePrefix u p _ _ _ _ => p ++ dec (snd (get_user_key_count m u)) = id
  | _ => False
  end.

(** The two managers answer every retrieval and every search alike. *)
Definition same_answers sort rank (m m' : manager) : Prop :=
  (forall u id, get_key_command m' u id = get_key_command m u id) /\
  (forall u eff q, snd (search_key sort rank m' u eff q) = snd (search_key sort rank m u eff q)).
