(** What public-key encryption is meant to do, stated without the code of the
    scheme context. *)
From Verif Require Import Base StrMap ByteString Field Utils Kdf Container ContainerSpec Keystore Sym SymSpec Scheme SchemeSpec Pke.
From Coq Require Import ZArith List Ascii Bool.
Import ListNotations.
Open Scope Z_scope.

(** The ciphertext [c'] says what [c] says: the same header fields, and every
    component of [c] that [names] selects is there with the same value. *)
Definition carries {K} (names : str -> Prop) (c c' : ciphertext K) : Prop :=
  ct_version c' = ct_version c /\ ct_alg c' = ct_alg c /\ ct_uid c' = ct_uid c /\
  forall name o, names name -> mget name (ct_parts c) = Some (Some o) -> exists o', mget name (ct_parts c') = Some (Some o') /\ (o' = o \/ same_value o o').
Definition every (name : str) : Prop := True.
(** The names of the encapsulation: all but those the scheme context adds. *)
Definition outside (name : str) : Prop := ~ In name [L "IV"; L "CT"; L "Tag"].

(** An encapsulation opens to the same key: in the state [v] of the receiver,
    decryptKEM on any ciphertext that carries the one of [w] succeeds with the key of
    [w], and leaves what the ciphertext says as it was. *)
Definition agrees E (M : kem E) (sender_id sk_id : str) (w v : world E) : Prop :=
  forall c', carries outside (w_ct E w) c' ->
  exists v', kem_decrypt E M sender_id sk_id 256 (set_sym E (set_ct E v c') []) = (v', Ok 0) /\ w_sym E v' = w_sym E w /\ carries every c' (w_ct E v').

(** What the receiver has: the bytes under the three names. *)
Definition message {K} (c : ciphertext K) (iv ct tag : str) : Prop :=
  mget (L "IV") (ct_parts c) = Some (Some (OBytes iv)) /\ mget (L "CT") (ct_parts c) = Some (Some (OBytes ct)) /\ mget (L "Tag") (ct_parts c) = Some (Some (OBytes tag)).
(** The header as bytes: version, scheme, identifier. *)
Definition header_bytes {K} (c : ciphertext K) : str := z2b (ct_version c) :: z2b (ct_alg c) :: ct_uid c.
(** Header fields as they can be sent. *)
Definition header_fields {K} (c : ciphertext K) : Prop := 0 <= ct_version c < 256 /\ 0 <= ct_alg c < 256.

(** ** One-pass Diffie-Hellman, the encapsulation of L60-342 of src/abe/zcontextpke.cpp.
    It is compiled out; it serves as an example.  [g] is the generator of the curve;
    the private key and the ephemeral key are random exponents. *)
Section Opdh.
Context (E : engine) (g : g1 (e_curve E)).
Notation K := (e_curve E).
Notation "'let!' x := m 'in' k" := (andthen E m (fun x => k)) (at level 200, x pattern, m at level 100, k at level 200).
(** L108-137 generateDecryptionKey. *)
Definition opdh_keygen (key_id pk_id sk_id : str) : code E Z := catch_code E (
  let! uid := random_bytes E 16 in
  let! a := random_zp E in
  let! _ := put_key E pk_id (key_set_component (new_key K PK_OPDH key_id (Some uid) []) (L "A") (OG1 (mul1 E (zv a) g))) KEY_PUBLIC in
  let! _ := put_key E sk_id (key_set_component (new_key K PK_OPDH key_id (Some uid) []) (L "a") (OZp a)) KEY_SECRET in
  ret E 0).
(** L186-188, L256-257: the key from the shared point; L190 setSymmetricKey. *)
Definition opdh_derive (p : g1 K) (bits : Z) (sender receiver : str) : code E unit :=
  let! key := lift E (derive_key (e_hash E) 43 256 4294967295 (obj_serialize [] (OG1 p)) bits (insert_first_byte [] PK_OPDH ++ sender ++ receiver)) in
  if negb (len key =? 16) && negb (len key =? 32) then throw E 24
  else fun w => (set_sym E w key, Ok tt).
(** L153-204 encryptKEM.  MISSING_RECEIVER_PUBLIC_KEY = 49. *)
Definition opdh_encrypt (pk_id sender : str) (bits : Z) : code E Z := catch_code E (
  let! pk := public_key E pk_id in
  match pk with
  | None => throw E 49
  | Some k =>
      let! e := random_zp E in
      let! _ := set_part E (L "C") (OG1 (mul1 E (zv e) g)) in
      let! A0 := key_part E (as_g1 E) KEY_PUBLIC pk_id (L "A") in
      let! A := assert_notnull E A0 in
      let! _ := opdh_derive (mul1 E (zv e) A) bits sender (k_uid k) in
      let! _ := set_scheme E PK_OPDH in
      ret E 0
  end).
(** L216-275 decryptKEM.  MISSING_RECEIVER_PRIVATE_KEY = 48. *)
Definition opdh_decrypt (pk_id sk_id : str) (bits : Z) : code E Z := catch_code E (
  let! pk := public_key E pk_id in
  match pk with
  | None => throw E 47
  | Some k =>
      let! sk := secret_key E sk_id in
      match sk with
      | None => throw E 48
      | Some d =>
          let! C0 := ct_part E (as_g1 E) (L "C") in
          let! C := assert_notnull E C0 in
          let! a0 := key_part E (as_zp E) KEY_SECRET sk_id (L "a") in
          let! a := assert_notnull E a0 in
          let! _ := opdh_derive (mul1 E (zv a) C) bits (k_uid k) (k_uid d) in
          ret E 0
      end
  end).
(** L285-342: validation looks for the component; every G1 object is a member in
    this model. *)
Definition opdh_valid (c : key_class) (k : key K) : res bool :=
  let '(_, r) := get_component (k_parts k) (match c with KEY_PUBLIC => L "A" | KEY_SECRET => L "a" end) in
  bind r (fun o => match c, o with KEY_PUBLIC, OG1 _ => Ok true | KEY_SECRET, OZp _ => Ok true | _, _ => Throw (OpenABEError 8) end).
Definition opdh (paired : bool) : kem E := {|
  kem_alg := PK_OPDH; kem_paired := paired; kem_params := ret E 0; kem_keygen := opdh_keygen;
  kem_encrypt := opdh_encrypt; kem_decrypt := opdh_decrypt; kem_valid := opdh_valid |}.
End Opdh.
