(** Model of OpenABEByteString (include/lsss/zbytestring.h).
    Only definitions; proofs are in ByteStringProofs.v.

    Simplification: indices (size_t) are [nat]; wrap-around of an index at 2^64
    is not modelled.  A vector never has 2^63 elements, and every read goes
    through [at], so an index that could wrap throws in both worlds. *)
From Verif Require Import Base.
From Coq Require Import ZArith List Ascii Bool.
Import ListNotations.
Open Scope Z_scope.
Open Scope res_scope.

(** ** Access *)

(** std::vector::at: throws std::out_of_range when the index is not below size. *)
Definition at_ (b : str) (i : nat) : res Z :=
  match nth_error b i with
  | Some c => Ok (b2z c)
  | None => Throw OutOfRange
  end.

(** L75, L80-83 appendArray: insert [size] bytes at the end; [size] is uint32_t.
    The callers in this file always pass the bytes themselves, so the model takes
    the bytes that are inserted. *)
Definition append_array (b input : str) : str := b ++ input.

(** L92-98 operator+(std::string): the call is insert(end, s[0], s[size]), the
    (count, value) overload: it appends s[0] copies of the terminating NUL. *)
Definition plus_string (b s : str) : str :=
  b ++ repeat (z2b 0) (match s with [] => 0%nat | c :: _ => Z.to_nat (b2z c) end).

(** L106-113 operator^=: lhs[i] = lhs[i] ^ rhs[i % rhs.size()].
    With an empty rhs and a non-empty lhs the modulus is zero: undefined. *)
Fixpoint xor_loop (lhs rhs : str) (i : nat) : str :=
  match lhs with
  | [] => []
  | c :: tl =>
      z2b (Z.lxor (b2z c) (b2z (nth (i mod length rhs) rhs (z2b 0))))
      :: xor_loop tl rhs (S i)
  end.
Definition xor_assign (lhs rhs : str) : res str :=
  match lhs, rhs with
  | [], _ => Ok []
  | _ :: _, [] => UB
  | _, _ => Ok (xor_loop lhs rhs 0)
  end.

(** L119-125 zeroize: overwrites, then clears. *)
Definition zeroize (b : str) : str := [].

(** L131-139 getSubset: the bound check is on size_t, so start+num wraps modulo
    2^64; appendArray takes the count as uint32_t.  A wrapped sum makes the copy
    read outside the buffer (undefined). *)
Definition get_subset (b : str) (start num : Z) : res str :=
  if (start + num) mod 2^64 <=? len b then
    let n := num mod 2^32 in
    if start + n <=? len b
    then Ok (firstn (Z.to_nat n) (skipn (Z.to_nat start) b))
    else UB
  else Ok [].

(** L141-148 fillBuffer. *)
Definition fill_buffer (byte : Z) (n : Z) : str := repeat (z2b byte) (Z.to_nat (n mod 2^32)).

(** L150-152 insertFirstByte. *)
Definition insert_first_byte (b : str) (byte : Z) : str := z2b byte :: b.

(** ** Hexadecimal *)

(** sprintf "%02X" / "%02x" for one nibble. *)
Definition hexdigit (upper : bool) (n : Z) : ascii :=
  if n <? 10 then z2b (48 + n) else z2b ((if upper then 65 else 97) + (n - 10)).

(** L165-176 toHex and L178-189 toLowerHex. *)
Fixpoint to_hex_gen (upper : bool) (b : str) : str :=
  match b with
  | [] => []
  | c :: tl => hexdigit upper (b2z c / 16) :: hexdigit upper (b2z c mod 16) :: to_hex_gen upper tl
  end.
Definition to_hex := to_hex_gen true.
Definition to_lower_hex := to_hex_gen false.

(** L52 HEX_CHARS, and the value istream >> std::hex reads for a digit. *)
Definition hexval (c : ascii) : option Z :=
  let z := b2z c in
  if (48 <=? z) && (z <=? 57) then Some (z - 48)
  else if (97 <=? z) && (z <=? 102) then Some (z - 87)
  else if (65 <=? z) && (z <=? 70) then Some (z - 55)
  else None.
Definition is_hex (c : ascii) : bool := match hexval c with Some _ => true | None => false end.

Fixpoint from_hex_loop (s : str) : str :=
  match s with
  | c1 :: c2 :: tl =>
      match hexval c1, hexval c2 with
      | Some a, Some b => z2b (16 * a + b) :: from_hex_loop tl
      | _, _ => z2b 0 :: from_hex_loop tl   (* not reached: digits were checked *)
      end
  | _ => []
  end.

(** L191-212 fromHex: returns the new content of the object and the result. *)
Definition from_hex (this s : str) : str * bool :=
  if negb (forallb is_hex s) || negb (Z.even (len s)) then (this, false)
  else (from_hex_loop s, true).

(** ** Comparison *)

(** L229-238 operator==: OR-accumulates the XOR of all bytes.  The second
    component counts the byte comparisons made (for the timing claim). *)
Fixpoint eq_loop (a b : str) (rc : Z) (steps : nat) : Z * nat :=
  match a, b with
  | x :: a', y :: b' => eq_loop a' b' (Z.lor rc (Z.lxor (b2z x) (b2z y))) (S steps)
  | _, _ => (rc, steps)
  end.
Definition bs_eq_steps (a b : str) : bool * nat :=
  if negb (Nat.eqb (length a) (length b)) then (false, 0%nat)
  else let '(rc, n) := eq_loop a b 0 0 in (rc =? 0, n).
Definition bs_eq (a b : str) : bool := fst (bs_eq_steps a b).

(** ** Packing *)

(** L279-284 pack16bits. *)
Definition be16 (x : Z) : str := [z2b (x / 256); z2b x].
(** L286-294 pack32bits: four times x & 0xFF, x >>= 8, written from the right. *)
Definition be32 (x : Z) : str :=
  [z2b (x / 2^24); z2b (x / 2^16); z2b (x / 2^8); z2b x].
Definition pack8bits (this : str) (x : Z) : str := this ++ [z2b x].
Definition pack16bits (this : str) (x : Z) : str := this ++ be16 (x mod 2^16).
Definition pack32bits (this : str) (x : Z) : str := this ++ be32 (x mod 2^32).

(** L296-311 setFirstBytes. *)
Definition set_first_bytes (this : str) (x : Z) : str :=
  match this with
  | _ :: _ :: _ :: _ :: tl => be32 (x mod 2^32) ++ tl
  | _ => this ++ be32 (x mod 2^32)
  end.

(** L318-322 pack(OpenABEByteString&): the size is truncated to uint32_t both in
    the length field and in the copy. *)
Definition pack (this buf : str) : str :=
  let n := len buf mod 2^32 in
  pack32bits this n ++ firstn (Z.to_nat n) buf.

(** L324-344 smartPack; appendArray truncates the count to uint32_t. *)
Definition smart_pack (this buf : str) : str :=
  let body := firstn (Z.to_nat (len buf mod 2^32)) buf in
  if 65535 <? len buf then pack32bits (this ++ [z2b 195]) (len buf) ++ body
  else if 255 <? len buf then pack16bits (this ++ [z2b 178]) (len buf) ++ body
  else if 0 <? len buf then pack8bits (this ++ [z2b 161]) (len buf) ++ body
  else this ++ body.

(** ** Unpacking *)

(** The copy loops of unpack*: for i < len: push_back(at(index2)); index2++.
    Reading at increasing indices is walking the suffix; [n] is the remaining
    count, kept in Z because it comes from the input. *)
Fixpoint copy_loop (suffix : str) (n : Z) : res str :=
  if n <=? 0 then Ok []
  else match suffix with
       | [] => Throw OutOfRange
       | c :: tl => do r <- copy_loop tl (n - 1); Ok (c :: r)
       end.

Definition unpack_body (b : str) (index2 : nat) (n : Z) : res (str * nat) :=
  do r <- copy_loop (skipn index2 b) n; Ok (r, (index2 + Z.to_nat n)%nat).

(** L414-432 unpack: on a throw the caller's index is unchanged.
    (at(i) << 24 shifts a promoted int; the conversion to uint32_t gives the
    expected bits.) *)
Definition unpack (b : str) (index : nat) : res (str * nat) :=
  do b0 <- at_ b index;
  do b1 <- at_ b (index + 1);
  do b2 <- at_ b (index + 2);
  do b3 <- at_ b (index + 3);
  unpack_body b (index + 4) (b0 * 2^24 + b1 * 2^16 + b2 * 2^8 + b3).

(** L358-370 unpack8bits. *)
Definition unpack8bits (b : str) (index : nat) : res (str * nat) :=
  do n <- at_ b index;
  unpack_body b (index + 1) n.

(** L372-387 unpack16bits (reads at(index+1) first). *)
Definition unpack16bits (b : str) (index : nat) : res (str * nat) :=
  do b1 <- at_ b (index + 1);
  do b0 <- at_ b index;
  unpack_body b (index + 2) (b0 * 2^8 + b1).

(** L389-398 get16bits and L400-412 get32bits. *)
Definition get16bits (b : str) (index : nat) : res (Z * nat) :=
  do b1 <- at_ b (index + 1);
  do b0 <- at_ b index;
  Ok (b0 * 2^8 + b1, (index + 2)%nat).
Definition get32bits (b : str) (index : nat) : res (Z * nat) :=
  do b0 <- at_ b index;
  do b1 <- at_ b (index + 1);
  do b2 <- at_ b (index + 2);
  do b3 <- at_ b (index + 3);
  Ok (b0 * 2^24 + b1 * 2^16 + b2 * 2^8 + b3, (index + 4)%nat).

(** L434-451 unpack(index, buf): appends to [buf] without clearing it; on a
    throw [buf] keeps the bytes read so far (not needed by any caller), the
    model keeps only the success case and the exception. *)
Definition unpack_into (b : str) (index : nat) (buf : str) : res (str * nat) :=
  do r <- unpack b index; Ok (buf ++ fst r, snd r).

(** L346-356 smartUnpack: *index is advanced by one before the inner unpack, so
    the index after the call is returned in every case.  An unknown tag gives
    an empty string. *)
Definition smart_unpack (b : str) (index : nat) : nat * res str :=
  match at_ b index with
  | Ok tag =>
      let i1 := (index + 1)%nat in
      let fin (r : res (str * nat)) : nat * res str :=
        match r with
        | Ok (s, i2) => (i2, Ok s)
        | Throw e => (i1, Throw e)
        | UB => (i1, UB) | Exit => (i1, Exit) | NoFuel => (i1, NoFuel)
        end in
      if tag =? 195 then fin (unpack b i1)
      else if tag =? 178 then fin (unpack16bits b i1)
      else if tag =? 161 then fin (unpack8bits b i1)
      else (i1, Ok [])
  | Throw e => (index, Throw e)
  | UB => (index, UB) | Exit => (index, Exit) | NoFuel => (index, NoFuel)
  end.

(** ** ZObject interface *)

(** L248-253 serialize (BYTESTRING = 0x1D). *)
Definition bs_serialize (b : str) : str := z2b 29 :: be32 (len b mod 2^32) ++ b.

(** L255-268 deserialize: returns the new content of the object. *)
Definition bs_deserialize (this input : str) : res str :=
  if 5 <? len input then
    do b1 <- at_ input 1;
    do b2 <- at_ input 2;
    do b3 <- at_ input 3;
    do b4 <- at_ input 4;
    let n := b1 * 2^24 + b2 * 2^16 + b3 * 2^8 + b4 in
    if len input =? n + 5 then get_subset input 5 n
    else Ok this
  else Ok this.
