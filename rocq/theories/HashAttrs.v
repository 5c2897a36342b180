(** Model of the attribute hashing functions of src/lsss/hashattributes.cpp
    (L225-284). *)
From Verif Require Import Base StrMap Scanner Policy Driver Parser Base64.
From Coq Require Import ZArith List Ascii Bool.
Import ListNotations.
Open Scope Z_scope.
Open Scope res_scope.

(** std::string::find(old, pos): the first position from [pos] on where [old] occurs;
    None is npos. *)
Fixpoint find_in (old s : str) : option nat :=
  if is_prefix old s then Some 0%nat else match s with [] => None | _ :: r => option_map S (find_in old r) end.
Definition find_from (s old : str) (pos : nat) : option nat :=
  if (pos <=? length s)%nat then option_map (Nat.add pos) (find_in old (skipn pos s)) else None.

(** L225-231 replaceAll.  The loop ends: each round leaves less text behind pos, unless
    [old] is empty, when it never ends (NoFuel; no attribute is empty). *)
Fixpoint replace_loop (fuel : nat) (s : str) (pos : nat) (old new : str) : res str :=
  match find_from s old pos with
  | None => Ok s
  | Some p =>
      match fuel with
      | O => NoFuel
      | S f => replace_loop f (firstn p s ++ new ++ skipn (p + length old) s) (p + length new) old new
      end
  end.
Definition replace_all (s old new : str) : res str := replace_loop (S (length s)) s 0 old new.

Section Hash.
(** C library mktime, and blake2s with an output of SIZEOF_ATTRIBUTE = 9 bytes. *)
Variable mktime : tm -> Z * tm.
Variable digest : str -> str.

(** L239-244 hashAttribute. *)
Definition hash_attribute (a : str) : res str := do t <- base64_encode (digest a); Ok (L "A:" ++ t).

Fixpoint hash_each (attrs : list str) (s : str) : res str :=
  match attrs with
  | [] => Ok s
  | a :: r => do h <- hash_attribute a; do s' <- replace_all s a h; hash_each r s'
  end.

(** L252-262 hashPolicy: the pointer createPolicyTree returns is not tested. *)
Definition hash_policy (policy : str) : res str :=
  do o <- create_policy_tree mktime policy;
  match o with None => UB | Some q => hash_each (pset q) policy end.

(** L270-284 hashAttributesList. *)
Definition hash_attributes_list (attributes : str) : res str :=
  do o <- create_attribute_list mktime attributes;
  match o with None => UB | Some l => hash_each (aattrs l) attributes end.
End Hash.
