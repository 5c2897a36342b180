(** How the plaintext enters a ciphertext. *)
From Verif Require Import Base StrMap ByteString Container Scheme.
From Coq Require Import ZArith List Ascii.
Import ListNotations.
Open Scope Z_scope.

(** [out] is [a] XORed byte by byte with [b], which is as long. *)
Definition xored (a b out : str) : Prop :=
  length b = length a /\ length out = length a /\
  forall i x y, nth_error a i = Some x -> nth_error b i = Some y -> nth_error out i = Some (z2b (Z.lxor (b2z x) (b2z y))).
(** The component that carries the plaintext. *)
Definition carrier : str := L "_ED".
Definition body {K} (c : ciphertext K) : option (option (zobj K)) := mget carrier (ct_parts c).
(** Two ciphertexts with the same components but for the carrier. *)
Definition same_but_body {K} (c c' : ciphertext K) : Prop := forall name, name <> carrier -> mget name (ct_parts c) = mget name (ct_parts c').
Definition same_header {K} (c c' : ciphertext K) : Prop := ct_version c = ct_version c' /\ ct_alg c = ct_alg c' /\ ct_uid c = ct_uid c'.
