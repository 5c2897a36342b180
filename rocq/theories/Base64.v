(** Model of the base64 functions of src/lsss/hashattributes.cpp (L20-139). *)
From Verif Require Import Base.
From Coq Require Import ZArith List Ascii Bool.
Import ListNotations.
Open Scope Z_scope.
Open Scope res_scope.

(** L21-24 base64_chars. *)
Definition base64_chars : str := L "ABCDEFGHIJKLMNOPQRSTUVWXYZabcdefghijklmnopqrstuvwxyz0123456789-_".

(** L28-30 is_base64; isalnum in the "C" locale. *)
Definition is_alnum (c : ascii) : bool :=
  let z := b2z c in
  ((48 <=? z) && (z <=? 57)) || ((65 <=? z) && (z <=? 90)) || ((97 <=? z) && (z <=? 122)).
Definition is_base64 (c : ascii) : bool := is_alnum c || ascii_eqb c "-" || ascii_eqb c "_".

(** base64_chars[k]. *)
Definition char_at (k : Z) : res ascii :=
  match nth_error base64_chars (Z.to_nat k) with Some c => Ok c | None => UB end.

(** L41-44 and L57-60: the four 6-bit values of three bytes (uint8_t). *)
Definition sextets (a b c : Z) : list Z :=
  [ Z.shiftr (Z.land a 252) 2;
    (Z.shiftl (Z.land a 3) 4 + Z.shiftr (Z.land b 240) 4) mod 256;
    (Z.shiftl (Z.land b 15) 2 + Z.shiftr (Z.land c 192) 6) mod 256;
    Z.land c 63 ].
Fixpoint put_chars (ks : list Z) (ret : str) : res str :=
  match ks with
  | [] => Ok ret
  | k :: r => do c <- char_at k; put_chars r (ret ++ [c])
  end.

(** L32-73 Base64Encode: [pend] are the bytes of the current group of three
    (char_array_3[0 .. i-1]). *)
Fixpoint encode_loop (bytes : str) (pend : list Z) (ret : str) : res (list Z * str) :=
  match bytes with
  | [] => Ok (pend, ret)
  | x :: r =>
      match pend ++ [b2z x] with
      | [a; b; c] => do ret' <- put_chars (sextets a b c) ret; encode_loop r [] ret'
      | p => encode_loop r p ret
      end
  end.
Definition encode_end (pend : list Z) (ret : str) : res str :=
  match pend with
  | [] => Ok ret
  | _ =>
      let i := length pend in
      let at_ k := nth k pend 0 in
      do ret' <- put_chars (firstn (i + 1) (sextets (at_ 0%nat) (at_ 1%nat) (at_ 2%nat))) ret;
      Ok (ret' ++ repeat "="%char (3 - i))
  end.
Definition base64_encode (bytes : str) : res str :=
  do (pend, ret) <- encode_loop bytes [] []; encode_end pend ret.

(** std::string::find of a character, converted to unsigned char (npos is 255). *)
Fixpoint index_from (k : Z) (c : ascii) (s : str) : Z :=
  match s with [] => 255 | x :: r => if ascii_eqb c x then k mod 256 else index_from (k + 1) c r end.
Definition find_char (c : ascii) : Z := index_from 0 c base64_chars.

(** L90-92 and L127-129: three bytes of four 6-bit values (uint8_t). *)
Definition octets (a b c d : Z) : list Z :=
  [ (Z.shiftl a 2 + Z.shiftr (Z.land b 48) 4) mod 256;
    (Z.shiftl (Z.land b 15) 4 + Z.shiftr (Z.land c 60) 2) mod 256;
    (Z.shiftl (Z.land c 3) 6 + d) mod 256 ].

(** L83-98: the loop reads encoded_string[in_] while characters of the alphabet
    last; [pend] is char_array_4[0 .. i-1].  The result has what is left of the
    text from in_ on.  The test in_len-- is the test that the text has not ended,
    so nothing is read behind it. *)
Fixpoint decode_loop (s : str) (pend : list ascii) (ret : str) : list ascii * str * str :=
  match s with
  | [] => (pend, ret, [])
  | x :: r =>
      if negb (ascii_eqb x "=") && is_base64 x then
        match pend ++ [x] with
        | [a; b; c; d] => decode_loop r [] (ret ++ map z2b (octets (find_char a) (find_char b) (find_char c) (find_char d)))
        | p => decode_loop r p ret
        end
      else (pend, ret, s)
  end.
Definition zero_char : ascii := z2b 0.
(** L75-138 Base64Decode; L120-131 pads the last group with zero characters, whose
    position in the alphabet is npos. *)
Definition base64_decode (s : str) : str :=
  let '(pend, ret, rest) := decode_loop s [] [] in
  if (2 <? len rest) || negb (forallb (fun c => ascii_eqb c "=") rest) then []
  else
    match pend with
    | [] => ret
    | _ =>
        let at_ k := find_char (nth k pend zero_char) in
        ret ++ map z2b (firstn (length pend - 1) (octets (at_ 0%nat) (at_ 1%nat) (at_ 2%nat) (at_ 3%nat)))
    end.
