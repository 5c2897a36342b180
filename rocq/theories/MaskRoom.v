(** Encryption, decryption and key derivation with a given number of bytes free on
    the stack.  hashFromBytes, DeriveKey, encryptUpdate and decryptUpdate keep arrays on the
    stack that are as long as what they produce; [UB] is running out of stack. *)
From Verif Require Import Base StrMap ByteString Field Policy Driver Parser AttrList Utils Sym Kdf Lsss Container Keystore Scheme.
From Coq Require Import ZArith List Ascii Bool Lia.
Import ListNotations.
Open Scope Z_scope.

Section Bytes.
(** The number of bytes free when the array is made. *)
Variable room : Z.

(** uint8_t hash[hash_len + 1], as [Kdf.vla]. *)
Definition vla_in (blocks step : Z) : res str :=
  do mem <- vla blocks step;
  if room <? len mem then UB else Ok mem.

Section Kdf.
Variable hash : str -> str.
(** zkdf.cpp L84-126 OpenABEKDF::DeriveKey, as [Kdf.derive_key]; the array is in L108. *)
Definition derive_key_in (hash_prefix hash_len max_input : Z) (z : str) (key_bits : Z) (metadata : str) : res str :=
  do reps <- ceil_div key_bits hash_len;
  if 4294967295 <? reps then Throw (OpenABEError 24) else
  let buffer := append_array (append_array (set_first_bytes [] 1 ++ [z2b hash_prefix]) z) metadata in
  if max_input <? len buffer then Throw (OpenABEError 24) else
  do mem <- vla_in reps hash_len;
  do mem' <- hash_loop hash set_first_bytes (fun c => (c + 1) mod 2 ^ 32) (Z.to_nat hash_len) (Z.to_nat reps) 1 buffer 0 mem;
  if key_bits / 8 <=? len mem' then Ok (firstn (Z.to_nat (key_bits / 8)) mem') else UB.
(** zpairing.cpp L236-264 hashFromBytes, as [Kdf.hash_from_bytes]; the array is in L242. *)
Definition hash_from_bytes_in (buf : str) (target_len hash_prefix : Z) : res str :=
  do blocks <- ceil_div target_len md_len;
  do mem <- vla_in blocks md_len;
  let buf2 := insert_first_byte (insert_first_byte buf hash_prefix) 0 in
  do mem' <- hash_loop hash set_count (fun c => (c + 1) mod 256) (Z.to_nat md_len) (Z.to_nat blocks) 0 buf2 0 mem;
  if target_len <=? len mem' then Ok (firstn (Z.to_nat target_len) mem') else UB.
End Kdf.

Section Scheme.
Context (E : engine).
Notation code := (code E).
Notation "'let!' x := m 'in' k" := (andthen E m (fun x => k)) (at level 200, x pattern, m at level 100, k at level 200).
Definition mask_in (key : str) (n : Z) : res str := hash_from_bytes_in (e_hash E) key (n mod 2 ^ 32) 42.
(** src/abe/zcontextabe.cpp L309-338 encrypt. *)
Definition encrypt_within (s : scheme) (mpk_id : str) (inp : input) (plaintext : str) : code Z := catch_code E (
  let! _ := fresh_sym E in
  let! result := encrypt_kem E s mpk_id inp 32 in
  if negb (result =? 0) then throw E result else
  let! key := sym_bytes E in
  let! m := lift E (mask_in key (len plaintext)) in
  let! ct := lift E (xor_assign plaintext m) in
  let! _ := set_part E (L "_ED") (OBytes ct) in
  ret E 0).
(** L351-385 decrypt. *)
Definition decrypt_body_within (s : scheme) (mpk_id key_id : str) : code str :=
  let! _ := fresh_sym E in
  let! result := decrypt_kem E s mpk_id key_id 32 in
  if negb (result =? 0) then throw E result else
  let! enc0 := ct_part E (as_bytes E) (L "_ED") in
  let! enc := assert_notnull E enc0 in
  let! key := sym_bytes E in
  let! m := lift E (mask_in key (len enc)) in
  lift E (xor_assign enc m).
Definition decrypt_within (s : scheme) (mpk_id key_id : str) : code (Z * str) := fun w =>
  match decrypt_body_within s mpk_id key_id w with
  | (w', Ok p) => (w', Ok (0, p))
  | (w', Throw (OpenABEError e)) => (w', Ok (e, []))
  | (w', Throw e) => (w', Throw e) | (w', UB) => (w', UB) | (w', Exit) => (w', Exit) | (w', NoFuel) => (w', NoFuel)
  end.
End Scheme.

Section Stream.
Variable G : gcm.
(** zsymkey.cpp L493-520 encryptUpdate: uint8_t ct[pt_len + 1] in L506. *)
Definition encrypt_update_in (s : Sym.stream) (block ciphertext : str) : Sym.stream * str * res Z :=
  if s_enc s then
    if too_long block then (s, ciphertext, UB)
    else if negb (0 <? len block) then (s, ciphertext, Throw (OpenABEError 8))
    else if room <? len block + 1 then (s, ciphertext, UB)
    else encrypt_update G s block ciphertext
  else (s, ciphertext, Ok 0).
(** zsymkey.cpp L598-624 decryptUpdate: uint8_t pt[ct_len + 1] in L610. *)
Definition decrypt_update_in (s : Sym.stream) (block plaintext : str) : Sym.stream * str * res Z :=
  if s_dec s then
    if negb (0 <? len block) then (s, plaintext, Ok 8)
    else if too_long block then (s, plaintext, UB)
    else if room <? len block + 1 then (s, plaintext, UB)
    else decrypt_update G s block plaintext
  else (s, plaintext, Ok 0).
End Stream.
End Bytes.
