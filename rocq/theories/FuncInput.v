(** Model of src/lsss/zfunctioninput.cpp. *)
From Verif Require Import Base Policy Driver AttrList.
From Coq Require Import ZArith List Ascii Bool.
Import ListNotations.

(** include/lsss/zfunctioninput.h L54-90: what a function input can be. *)
Inductive finput := FPolicy (q : policy) | FAttrs (l : attrlist) | FOther.
(** L65-79 copyFunctionInput; [None] is the null pointer.  OpenABEPolicy does not
    override clone (zpolicy.h L143 is commented out), so the base version answers
    (zobject.h L57). *)
Definition copy_input (i : finput) : option finput :=
  match i with FPolicy _ => None | FAttrs l => Some (FAttrs (copy_list l)) | FOther => None end.
