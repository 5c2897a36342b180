(** Model of OpenABEKeystore (src/abe/zkeystore.cpp L47-273).  Only definitions;
    proofs are in KeystoreProofs.v.  parseKeyHeader and constructKeyFromBytes
    (L275-327) are in Container.v.
    A key is known to the store through a shared_ptr: [A] is the type of
    addresses, a null pointer is [None].  Destruction of the store (L67-91) and
    reference counts are in StoreMem.v. *)
From Verif Require Import Base StrMap ByteString UInteger Field Policy Driver Parser AttrList Utils Container.
From Coq Require Import ZArith List Ascii Bool.
Import ListNotations.
Open Scope Z_scope.
Open Scope res_scope.

Section Keystore.
Context {A : Type}.

(** zkeystore.h L84-85: the two maps. *)
Record store := { pub_keys : smap (option A); sec_keys : smap (option A) }.
(** L58-60 the constructor. *)
Definition new_store : store := {| pub_keys := []; sec_keys := [] |}.

(** zkeystore.h L45-48 zKeyType. *)
Inductive key_class := KEY_PUBLIC | KEY_SECRET.

(** L99-110 addKey (always returns OpenABE_NOERROR). *)
Definition add_key (s : store) (name : str) (p : option A) (c : key_class) : store :=
  match c with
  | KEY_PUBLIC => {| pub_keys := mset name p (pub_keys s); sec_keys := sec_keys s |}
  | KEY_SECRET => {| pub_keys := pub_keys s; sec_keys := mset name p (sec_keys s) |}
  end.

(** L161-171 getPublicKey: operator[] inserts a null pointer for a new name. *)
Definition get_public_key (s : store) (id : str) : store * option A :=
  let '(m, v) := index (pub_keys s) id in
  ({| pub_keys := m; sec_keys := sec_keys s |}, v).
(** L180-191 getSecretKey. *)
Definition get_secret_key (s : store) (id : str) : store * option A :=
  let '(m, v) := index (sec_keys s) id in
  ({| pub_keys := pub_keys s; sec_keys := m |}, v).
(** L120-136 getKey: the public map first; the secret map is only searched (and
    so only extended) when that gave a null pointer. *)
Definition get_key (s : store) (id : str) : store * option A :=
  let '(s1, v) := get_public_key s id in
  match v with
  | Some k => (s1, Some k)
  | None => get_secret_key s1 id
  end.
(** L145-150 checkSecretKey. *)
Definition check_secret_key (s : store) (id : str) : bool := mmem id (sec_keys s).

(** L221-250 deleteKey: the key found (whose zeroize method is called), the
    store and the returned code. OpenABE_ERROR_INVALID_KEY = 6. *)
Definition delete_key (s : store) (id : str) : store * option A * Z :=
  let '(s1, v) := get_key s id in
  match v with
  | None => (s1, None, 0)
  | Some k =>
      let in_pub := mmem id (pub_keys s1) in
      let in_sec := mmem id (sec_keys s1) in
      ({| pub_keys := if in_pub then mdel id (pub_keys s1) else pub_keys s1;
          sec_keys := if in_sec then mdel id (sec_keys s1) else sec_keys s1 |},
       Some k, if negb in_pub && negb in_sec then 6 else 0)
  end.

(** L259-262 validateNewParamsID. *)
Definition validate_new_params_id (s : store) (id : str) : store * bool :=
  let '(s1, v) := get_key s id in (s1, match v with None => true | Some _ => false end).
End Keystore.
Arguments store A : clear implicits.

(** Keys in memory: addresses are numbers. *)
Section Heap.
Context {K : curve}.
Record kworld := { heap : nat -> key K; kstore : store nat }.

(** zcontainer.cpp L126-128 zeroize, inherited by OpenABEKey: the returned code
    (OpenABE_ERROR_NOT_IMPLEMENTED = 14); the object is not touched. *)
Definition zeroize (k : key K) : key K * Z := (k, 14).
Definition heap_set (h : nat -> key K) (a : nat) (k : key K) : nat -> key K :=
  fun b => if Nat.eqb a b then k else h b.

(** L221-250 deleteKey with its effect on the key. *)
Definition delete_key_world (w : kworld) (id : str) : kworld * Z :=
  let '(s, v, code) := delete_key (kstore w) id in
  ({| heap := match v with Some a => heap_set (heap w) a (fst (zeroize (heap w a))) | None => heap w end;
      kstore := s |}, code).

(** L264-273 exportKeyToBytes: the bytes ([out] is what the caller's buffer held)
    and the code.  OpenABE_ERROR_INVALID_INPUT = 8. *)
Definition export_key (w : kworld) (id : str) (out : str) : kworld * res (str * Z) :=
  let '(s, v) := get_key (kstore w) id in
  ({| heap := heap w; kstore := s |},
   match v with
   | None => Ok (out, 8)
   | Some a => do b <- key_export (heap w a); Ok (b, 0)
   end).
End Heap.
Arguments kworld K : clear implicits.
