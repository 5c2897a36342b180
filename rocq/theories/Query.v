(** Model of getFunctionInput of a ciphertext (utils/utils.cpp L79-104): what a
    ciphertext asks of a key, as passed to the search of the key manager. *)
From Verif Require Import Base StrMap ByteString UInteger Field Policy Driver Parser AttrList Utils Container Keymgr.
From Coq Require Import ZArith List Ascii Bool.
Import ListNotations.
Open Scope Z_scope.
Open Scope res_scope.

Section Query.
Context (K : curve) (mktime : tm -> Z * tm).
(** utils.cpp L79-104; getSchemeType is the algorithm byte (zciphertext.h L69).
    [None] is the null pointer.  getComponent never returns null here (it throws
    18), so ASSERT_NOTNULL only rejects a "policy" that is not a byte string
    (code 8).  The KP case casts the component to an attribute list without
    looking at its class. *)
Definition ciphertext_input (ct : ciphertext K) : res (option finput) :=
  if existsb (Z.eqb (ct_alg ct)) [CP_WATERS; CP_WATERS_CCA] then
    do o <- snd (get_component (ct_parts ct) (L "policy"));
    match o with
    | OBytes b => do r <- create_policy_tree mktime b; Ok (match r with Some p => Some (InPolicy p fresh) | None => None end)
    | _ => Throw (OpenABEError 8)
    end
  else if existsb (Z.eqb (ct_alg ct)) [KP_GPSW; KP_GPSW_CCA] then
    do o <- snd (get_component (ct_parts ct) (L "attributes"));
    match o with
    | OAttrs l => do r <- create_attribute_list mktime (compact l); Ok (match r with Some l' => Some (InAttrs l') | None => None end)
    | _ => UB
    end
  else Ok None.
End Query.
