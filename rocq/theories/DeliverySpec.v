(** Specification vocabulary: keys and ciphertexts used in other processes than
    the ones that made them. *)
From Verif Require Import Base StrMap ByteString UInteger Field Policy Driver Parser AttrList Utils Container Keystore Scheme SchemeSpec.
From Coq Require Import ZArith List Ascii Bool.
Import ListNotations.
Open Scope Z_scope.

Section Delivery.
Context (E : engine) (sch : scheme).
Notation K := (e_curve E).
(** No call of the history uses the key as a master key. *)
Definition never_master (id : str) (h : list (request E)) : Prop :=
  forall inp i mpk msk, In (RKeygen E inp i mpk msk) h -> msk <> id.
(** Fewer than 2^32 bytes when serialized. *)
Definition light (c : container K) : Prop := forall b, serialize c [] = Ok b -> len b < 2 ^ 32.
(** The bytes a call handed to its caller. *)
Definition bytes_of (r : res (Z * str)) : str := match r with Ok (_, b) => b | _ => [] end.
Definition blob_of (r : res str) : str := match r with Ok b => b | _ => [] end.

(** An authority makes parameters and a user key and exports the public
    parameters and the user key.  A sender loads the parameters, encrypts and
    exports the ciphertext.  A receiver loads the user key and the ciphertext and
    decrypts.  The three contexts have nothing else in common, each may serve other
    calls in between, and the keys may be loaded under other names. *)
Inductive delivery (kinp einp : input) (pt : str) (rk : res Z) (rp rx : res (Z * str)) (l1 re : res Z) (rc : res str) (l2 : res Z) (lc : res unit) (out : res (Z * str)) : Prop :=
| deliver : forall mpk msk kid a0 w1 ha a1 bufp wp h1 a2 w3 h2 a4 bufx wx
    mpk1 b0 v1 g1 b2 v3 kid1 c0 u1 f1 c2 ct mpk2 u3,
    generate_params E sch mpk msk (start E a0 (no_ct E)) = (w1, Ok 0) ->
    len mpk < 2 ^ 31 -> len kid < 2 ^ 31 ->
    history E sch ha (left_by E w1) a1 -> spares E KEY_PUBLIC mpk ha ->
    export_key E mpk bufp (start E a1 (no_ct E)) = (wp, rp) ->
    (forall k, mget mpk (pub_keys (fst a1)) = Some (Some k) -> light (k_parts k)) ->
    history E sch h1 (left_by E w1) a2 -> spares E KEY_PUBLIC mpk h1 -> spares E KEY_SECRET msk h1 ->
    keygen E sch kinp kid mpk msk (start E a2 (no_ct E)) = (w3, rk) ->
    history E sch h2 (left_by E w3) a4 -> spares E KEY_SECRET kid h2 -> never_master kid h2 ->
    (forall k, mget kid (pub_keys (fst a4)) <> Some (Some k)) ->
    export_key E kid bufx (start E a4 (no_ct E)) = (wx, rx) ->
    (forall k, mget kid (sec_keys (fst a4)) = Some (Some k) -> light (k_parts k)) ->
    load_key E sch mpk1 (bytes_of rp) KEY_PUBLIC (start E b0 (no_ct E)) = (v1, l1) ->
    history E sch g1 (left_by E v1) b2 -> spares E KEY_PUBLIC mpk1 g1 ->
    encrypt E sch mpk1 einp pt (start E b2 (no_ct E)) = (v3, re) ->
    ct_export (w_ct E v3) = rc -> light (ct_parts (w_ct E v3)) ->
    load_key E sch kid1 (bytes_of rx) KEY_SECRET (start E c0 (no_ct E)) = (u1, l2) ->
    history E sch f1 (left_by E u1) c2 -> spares E KEY_SECRET kid1 f1 ->
    ct_load K (e_mktime E) (no_ct E) (blob_of rc) = (ct, lc) ->
    decrypt E sch mpk2 kid1 (start E c2 ct) = (u3, out) ->
    delivery kinp einp pt rk rp rx l1 re rc l2 lc out.
End Delivery.
