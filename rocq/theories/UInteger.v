(** Model of OpenABEUInteger (include/lsss/zinteger.h). *)
From Verif Require Import Base ByteString.
From Coq Require Import ZArith List Ascii Bool.
Import ListNotations.
Open Scope Z_scope.
Open Scope res_scope.

(** L123-125: m_Val (uint32_t), m_Bits (uint16_t). *)
Record uint := { uval : Z; ubits : Z }.

(** L62 isFlexInt. *)
Definition uint_is_flex (u : uint) : bool := (ubits u =? 0) || (ubits u =? 32).
(** L76-84 += and -= on uint32_t wrap. *)
Definition uint_add (u : uint) (x : Z) : uint := {| uval := (uval u + x) mod 2^32; ubits := ubits u |}.
Definition uint_sub (u : uint) (x : Z) : uint := {| uval := (uval u - x) mod 2^32; ubits := ubits u |}.
(** L86-99 serialize: tag 0xA1 and four big-endian bytes; the width is not written. *)
Definition uint_serialize (u : uint) : str := z2b 161 :: be32 (uval u mod 2^32).
(** L101-109 deserialize: the tag is not looked at; only m_Val is assigned. *)
Definition uint_deserialize (u : uint) (input : str) : res uint :=
  do b1 <- at_ input 1;
  do b2 <- at_ input 2;
  do b3 <- at_ input 3;
  do b4 <- at_ input 4;
  Ok {| uval := b1 * 2^24 + b2 * 2^16 + b3 * 2^8 + b4; ubits := ubits u |}.
(** L119-121 operator==. *)
Definition uint_eqb (x y : uint) : bool := (uval x =? uval y) && (ubits x =? ubits y).
