(** Model of the identifier functions of utils/utils.cpp and utils/common.h. *)
From Verif Require Import Base.
From Coq Require Import ZArith List Ascii Bool.
Import ListNotations.
Open Scope Z_scope.

(** common.h L8-20: the values of the enumeration OpenABE_SCHEME. *)
Definition SCHEME_NONE := 0.
Definition PKSIG_ECDSA := 60.
Definition AES_CBC := 70.
Definition AES_GCM := 71.
Definition AES_GCM_STREAM := 72.
Definition PK_OPDH := 100.
Definition CP_WATERS := 101.
Definition KP_GPSW := 102.
Definition CP_WATERS_CCA := 201.
Definition KP_GPSW_CCA := 202.

(** common.h L23-31: OpenABEKeyType. *)
Inductive key_type := KEY_NONE | SK_ENC | PK_ENC | CP_ENC | KP_ENC | MA_ENC | PK_SIG.

(** utils.cpp L10-31 OpenABE_getSchemeID (the argument is a uint8_t). *)
Definition get_scheme_id (id : Z) : res Z :=
  if existsb (Z.eqb id) [SCHEME_NONE; PKSIG_ECDSA; AES_CBC; AES_GCM; AES_GCM_STREAM; PK_OPDH; CP_WATERS; KP_GPSW; CP_WATERS_CCA; KP_GPSW_CCA]
  then Ok id else Throw (OpenABEError 39).

(** utils.cpp L33-62 OpenABE_convertSchemeIDToString. *)
Definition scheme_to_string (id : Z) : res str :=
  if id =? SCHEME_NONE then Ok (L "No Scheme")
  else if existsb (Z.eqb id) [AES_CBC; AES_GCM; AES_GCM_STREAM] then Ok (L "SK-ENC")
  else if id =? PKSIG_ECDSA then Ok (L "EC-DSA")
  else if id =? PK_OPDH then Ok (L "PK-ENC")
  else if existsb (Z.eqb id) [CP_WATERS_CCA; CP_WATERS] then Ok (L "CP-ABE")
  else if existsb (Z.eqb id) [KP_GPSW_CCA; KP_GPSW] then Ok (L "KP-ABE")
  else Throw (OpenABEError 39).

(** utils.cpp L64-72 OpenABE_convertStringToSchemeID. *)
Definition string_to_scheme (id : str) : Z :=
  if str_eqb id (L "SK-ENC") then AES_GCM
  else if str_eqb id (L "EC-DSA") then PKSIG_ECDSA
  else if str_eqb id (L "PK-ENC") then PK_OPDH
  else if str_eqb id (L "CP-ABE") then CP_WATERS
  else if str_eqb id (L "KP-ABE") then KP_GPSW
  else SCHEME_NONE.

(** utils.cpp L154-178 OpenABE_KeyTypeFromAlgorithmID (the argument is a uint8_t). *)
Definition key_type_of (id : Z) : key_type :=
  if existsb (Z.eqb id) [AES_CBC; AES_GCM; AES_GCM_STREAM] then SK_ENC
  else if id =? PK_OPDH then PK_ENC
  else if existsb (Z.eqb id) [CP_WATERS; CP_WATERS_CCA] then CP_ENC
  else if existsb (Z.eqb id) [KP_GPSW; KP_GPSW_CCA] then KP_ENC
  else if id =? PKSIG_ECDSA then PK_SIG
  else KEY_NONE.

(** utils.cpp L180-189 OpenABE_KeyTypeToString. *)
Definition key_type_to_string (t : key_type) : str :=
  match t with
  | SK_ENC => L "SymKey" | PK_ENC => L "PubKey" | CP_ENC => L "CP-ABEKey" | KP_ENC => L "KP-ABEKey" | PK_SIG => L "PKSigKey"
  | _ => L "Invalid KeyType"
  end.

(** utils.cpp L104-120 getFunctionInputType(key): what a key of the given algorithm
    carries.  The argument is key->getAlgorithmID(). *)
Inductive input_type := FUNC_INVALID | FUNC_POLICY | FUNC_ATTRLIST.
Definition input_type_of (alg : Z) : res input_type :=
  bind (get_scheme_id alg) (fun s =>
  if existsb (Z.eqb s) [CP_WATERS; CP_WATERS_CCA] then Ok FUNC_ATTRLIST
  else if existsb (Z.eqb s) [KP_GPSW; KP_GPSW_CCA] then Ok FUNC_POLICY
  else Ok FUNC_INVALID).
