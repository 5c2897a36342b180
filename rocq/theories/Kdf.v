(** Model of src/abe/zkdf.cpp and of OpenABEPairing::hashFromBytes
    (src/abe/zpairing.cpp L231-264): keys and masks made from a hash function. *)
From Verif Require Import Base ByteString.
From Coq Require Import ZArith List Ascii Bool.
Import ListNotations.
Open Scope Z_scope.
Open Scope res_scope.

(** RLC_MD_LEN of RELIC: its hash and its HMAC have 32 bytes. *)
Definition md_len : Z := 32.

(** A hash function writes its output to the array [mem] from [off] on; writing
    behind the array is undefined. *)
Definition write_at (mem : str) (off : nat) (bytes : str) : res str :=
  if (off + length bytes <=? length mem)%nat then Ok (firstn off mem ++ bytes ++ skipn (off + length bytes) mem) else UB.

(** ceil((double)a / b) for 32-bit unsigned a and b, converted to an integer.  A
    quotient that is not an integer is at least 1/b away from every integer and its
    rounding error is below 2^-21/b, so the floating-point result is the exact one.
    b = 0 gives an infinity (or NaN) whose conversion is undefined. *)
Definition ceil_div (a b : Z) : res Z := if b =? 0 then UB else Ok ((a + b - 1) / b).

(** int hash_len = blocks * step; uint8_t hash[hash_len + 1]: undefined when the
    result does not fit an int (the product is converted, the sum overflows).  The
    size of the stack is not modelled. *)
Definition vla (blocks step : Z) : res str :=
  if blocks * step <? 2147483647 then Ok (repeat (z2b 0) (Z.to_nat (blocks * step + 1))) else UB.

Section Kdf.
(** _hash_to_bytes_ (md_map of RELIC) and md_hmac; the first argument of [hmac] is
    the key, the second the message. *)
Variable hash : str -> str.
Variable hmac : str -> str -> str.

(** The loops L112-118 of zkdf.cpp and L253-259 of zpairing.cpp.  [set] writes the
    counter into the input of the hash function, [inc] is the increment of the
    counter's type. *)
Fixpoint hash_loop (set : str -> Z -> str) (inc : Z -> Z) (step : nat) (n : nat) (count : Z) (buffer : str) (off : nat) (mem : str) : res str :=
  match n with
  | O => Ok mem
  | S n' => do mem' <- write_at mem off (hash buffer);
            hash_loop set inc step n' (inc count) (set buffer (inc count)) (off + step) mem'
  end.

(** zkdf.cpp L84-126 OpenABEKDF::DeriveKey; L57-64 the constructor stores hashPrefix,
    hashLen and maxInputLen, by default 0x2B, 256 and 0xFFFFFFFF (zkdf.h L58-60).
    reps_len > 0xFFFFFFFF is never true. *)
Definition derive_key (hash_prefix hash_len max_input : Z) (z : str) (key_bits : Z) (metadata : str) : res str :=
  do reps <- ceil_div key_bits hash_len;
  if 4294967295 <? reps then Throw (OpenABEError 24) else
  let buffer := append_array (append_array (set_first_bytes [] 1 ++ [z2b hash_prefix]) z) metadata in
  if max_input <? len buffer then Throw (OpenABEError 24) else
  do mem <- vla reps hash_len;
  do mem' <- hash_loop set_first_bytes (fun c => (c + 1) mod 2 ^ 32) (Z.to_nat hash_len) (Z.to_nat reps) 1 buffer 0 mem;
  if key_bits / 8 <=? len mem' then Ok (firstn (Z.to_nat (key_bits / 8)) mem') else UB.

(** zpairing.cpp L236-264 OpenABEPairing::hashFromBytes; ptr[0] is the counter. *)
Definition set_count (buf : str) (c : Z) : str := match buf with [] => [] | _ :: r => z2b c :: r end.
Definition hash_from_bytes (buf : str) (target_len hash_prefix : Z) : res str :=
  do blocks <- ceil_div target_len md_len;
  do mem <- vla blocks md_len;
  let buf2 := insert_first_byte (insert_first_byte buf hash_prefix) 0 in
  do mem' <- hash_loop set_count (fun c => (c + 1) mod 256) (Z.to_nat md_len) (Z.to_nat blocks) 0 buf2 0 mem;
  if target_len <=? len mem' then Ok (firstn (Z.to_nat target_len) mem') else UB.

(** zkdf.cpp L192-197 ComputeHMAC: the key is the first argument. *)
Definition compute_hmac (key data : str) : str := hmac key data.

(** L169-174: the expand loop; [i] is the counter, [out] is output_key.  The fuel is
    only a bound on the number of iterations, each of which makes output_key longer. *)
Fixpoint hkdf_loop (fuel : nat) (prk info : str) (key_len : Z) (i : Z) (tmp out : str) : res str :=
  if len out <? key_len then
    match fuel with
    | O => NoFuel
    | S f => if 2147483647 <=? i then UB else
             let tmp_ii := pack8bits (tmp ++ info) (i + 1) in
             let tmp' := compute_hmac prk tmp_ii in
             hkdf_loop f prk info key_len (i + 1) tmp' (out ++ tmp')
    end
  else Ok out.
(** L151-178 ComputeHKDF.  The salt is a reference: the second component is its
    value afterwards. *)
Definition compute_hkdf (key salt info : str) (key_len : Z) : res (str * str) :=
  let salt' := if len salt =? 0 then fill_buffer 0 md_len else salt in
  let prk := compute_hmac key (hash salt') in
  do out <- hkdf_loop (Z.to_nat key_len) prk info key_len 0 [] [];
  Ok (firstn (Z.to_nat key_len) out, salt').

(** L179-190 OpenABEHashKey. *)
Definition hash_key (attr : str) : str :=
  if 16 <? len attr then to_lower_hex (append_array [] (firstn 8 (hash attr))) else attr.

(** md_kdf of RELIC (its KDF2) is a parameter: it fills the output array. *)
Variable md_kdf : Z -> str -> str.
(** L137-149 ComputeKDF2. *)
Definition compute_kdf2 (key : str) (n : Z) : res str :=
  if negb (0 <? len key) then Throw (OpenABEError 8) else
  if negb (0 <? n) then Throw (OpenABEError 8) else Ok (md_kdf n key).
End Kdf.
