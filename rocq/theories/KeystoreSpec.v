(** Specification of a key store: histories of calls and what they leave behind.
    Nothing here refers to the functions of Keystore.v other than the classes. *)
From Verif Require Import Base Keystore.
From Coq Require Import List Bool.
Import ListNotations.

(** A call on a key store, lookups included. *)
Inductive call (A : Type) :=
| AddKey (name : str) (p : option A) (c : key_class)
| GetKey (name : str) | GetPublic (name : str) | GetSecret (name : str)
| CheckSecret (name : str) | DeleteKey (name : str) | ValidateID (name : str).
Arguments AddKey {A} name p c. Arguments GetKey {A} name. Arguments GetPublic {A} name. Arguments GetSecret {A} name.
Arguments CheckSecret {A} name. Arguments DeleteKey {A} name. Arguments ValidateID {A} name.

Definition same_class (a b : key_class) : bool :=
  match a, b with KEY_PUBLIC, KEY_PUBLIC | KEY_SECRET, KEY_SECRET => true | _, _ => false end.

(** The key a class holds under a name after a history, the latest call first:
    the one last added and not deleted since. *)
Fixpoint last_added {A} (c : key_class) (name : str) (latest_first : list (call A)) : option A :=
  match latest_first with
  | [] => None
  | AddKey n p c' :: h => if str_eqb name n && same_class c c' then p else last_added c name h
  | DeleteKey n :: h => if str_eqb name n then None else last_added c name h
  | _ :: h => last_added c name h
  end.

(** A call that looks for a key of this name other than with checkSecretKey. *)
Definition looks_up {A} (name : str) (x : call A) : bool :=
  match x with
  | GetKey n | GetSecret n | ValidateID n | DeleteKey n => str_eqb name n
  | _ => false
  end.

(** Whether the name stands in the table of secret keys, with or without a key:
    every failed search for a secret key of that name puts it there. *)
Fixpoint entered {A} (name : str) (latest_first : list (call A)) : bool :=
  match latest_first with
  | [] => false
  | x :: h =>
      let held c := match last_added c name h with Some _ => true | None => false end in
      match x with
      | AddKey n _ KEY_SECRET => str_eqb name n || entered name h
      | GetSecret n => str_eqb name n || entered name h
      | GetKey n | ValidateID n => (str_eqb name n && negb (held KEY_PUBLIC)) || entered name h
      | DeleteKey n => if str_eqb name n then negb (held KEY_PUBLIC) && negb (held KEY_SECRET) else entered name h
      | _ => entered name h
      end
  end.
