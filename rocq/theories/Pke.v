(** Model of the public-key scheme context OpenABEContextSchemePKE
    (src/abe/zcontextpke.cpp L354-630, include/abe/zcontextpke.h), which turns any
    key encapsulation (a subclass of OpenABEContextPKE) into encryption of messages.
    Only definitions; proofs are in PkeProofs.v and PropPke.v.

    The repository compiles no subclass: OpenABEContextOPDH (L60-342) is inside
    #if 0.  The encapsulation is therefore a parameter ([kem]); OPDH is modelled in
    PkeSpec.v as an instance.

    The state is that of Scheme.v: key store, random choices, ciphertext passed by
    reference, symmetric key object. *)
From Verif Require Import Base StrMap ByteString UInteger Field Policy Driver Parser AttrList Utils Kdf Lsss Container Keystore Sym Scheme.
From Coq Require Import ZArith List Ascii Bool.
Import ListNotations.
Open Scope Z_scope.

Section Pke.
Context (E : engine) (G : gcm).
Notation K := (e_curve E).
Notation "'let!' x := m 'in' k" := (andthen E m (fun x => k)) (at level 200, x pattern, m at level 100, k at level 200).

(** The virtual functions of OpenABEContextPKE, include/abe/zcontextpke.h L52-73.
    encryptKEM and decryptKEM leave the key in the symmetric key object and the
    encapsulation in the ciphertext.  [kem_paired]: m_Pairing_ was created by the
    subclass; the base constructor (include/abe/zcontext.h L56-60) leaves it null and
    nothing in OpenABEContextSchemePKE creates it. *)
Record kem := {
  kem_alg : Z; kem_paired : bool;
  kem_params : code E Z;
  kem_keygen : str -> str -> str -> code E Z;
  kem_encrypt : str -> str -> Z -> code E Z;
  kem_decrypt : str -> str -> Z -> code E Z;
  kem_valid : key_class -> key K -> res bool
}.
Context (M : kem).

(** L371-373 generateParams, L384-386 keygen. *)
Definition pke_params : code E Z := kem_params M.
Definition pke_keygen (key_id pk_id sk_id : str) : code E Z := kem_keygen M key_id pk_id sk_id.
(** L397-419 exportKey: as in the attribute-based context (Scheme.v). *)
Definition pke_export (key_id out : str) : code E (Z * str) := export_key E key_id out.
(** L429-463 loadPublicKey and L473-509 loadPrivateKey, the same but for the last
    two calls.  A null m_Pairing_ is dereferenced. *)
Definition pke_load (c : key_class) (id blob : str) : code E Z := catch_code E (
  let! uid := random_bytes E 16 in
  let! kb := lift E (construct_key K blob [] uid) in
  let '(k0, body) := kb in
  match k0 with
  | None => throw E 8
  | Some k =>
      if negb (k_alg k =? kem_alg M) then throw E 30 else
      if negb (kem_paired M) then undefined E else
      let '(k', r) := key_load K (e_mktime E) k body in
      let! _ := lift E r in
      let! valid := lift E (kem_valid M c k') in
      if valid then let! _ := put_key E id k' c in ret E 0 else throw E 5
  end).
(** L517-520 deleteKey. *)
Definition pke_delete (key_id : str) : code E Z := drop_key E key_id.

(** getHeader of the ciphertext. *)
Definition header : code E str := fun w => (w, Ok (get_header (w_ct E w))).
(** L533-577 encrypt.  DEFAULT_SYM_KEY_BITS = 256; the code of authEnc->encrypt is
    ignored.  OpenABE_ERROR_MISSING_SENDER_PUBLIC_KEY = 47,
    OpenABE_ERROR_NO_PLAINTEXT_SPECIFIED = 60. *)
Definition pke_encrypt (pk_id sender_id plaintext : str) : code E Z := catch_code E (
  let! _ := fresh_sym E in
  if negb (0 <? len plaintext) then throw E 60 else
  let! sender := public_key E sender_id in
  match sender with
  | None => throw E 47
  | Some k =>
      let! result := kem_encrypt M pk_id (k_uid k) 256 in
      if negb (result =? 0) then throw E result else
      let! key := sym_bytes E in
      let! h := header in
      let! random := random_bytes E 16 in
      let! out := lift E (ae_encrypt G (ae_set_aad (new_auth_enc key) h) plaintext random) in
      let '(iv, ct, tag) := out in
      let! _ := set_part E (L "IV") (OBytes iv) in
      let! _ := set_part E (L "CT") (OBytes ct) in
      let! _ := set_part E (L "Tag") (OBytes tag) in
      ret E 0
  end).

(** L592-630 decrypt: the code and the caller's string, which held [before].
    OpenABE_ERROR_DECRYPTION_FAILED = 32. *)
Definition pke_decrypt_body (pk_id sk_id : str) : code E str :=
  let! _ := fresh_sym E in
  let! result := kem_decrypt M pk_id sk_id 256 in
  if negb (result =? 0) then throw E result else
  let! iv0 := ct_part E (as_bytes E) (L "IV") in
  let! iv := assert_notnull E iv0 in
  let! ct0 := ct_part E (as_bytes E) (L "CT") in
  let! ct := assert_notnull E ct0 in
  let! tag0 := ct_part E (as_bytes E) (L "Tag") in
  let! tag := assert_notnull E tag0 in
  let! key := sym_bytes E in
  let! h := header in
  let! p := lift E (ae_decrypt G (ae_set_aad (new_auth_enc key) h) iv ct tag) in
  match p with Some m => ret E m | None => throw E 32 end.
Definition pke_decrypt (pk_id sk_id before : str) : code E (Z * str) := fun w =>
  match pke_decrypt_body pk_id sk_id w with
  | (w', Ok m) => (w', Ok (0, m))
  | (w', Throw (OpenABEError e)) => (w', Ok (e, before))
  | (w', Throw e) => (w', Throw e) | (w', UB) => (w', UB) | (w', Exit) => (w', Exit) | (w', NoFuel) => (w', NoFuel)
  end.
End Pke.
