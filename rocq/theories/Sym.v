(** Model of symmetric encryption: OpenABESymKey, OpenABESymKeyAuthEnc and
    OpenABESymKeyAuthEncStream (src/abe/zsymkey.cpp), OpenABESymKeyHandle and
    SymKeyEncHandler (src/abe/zsymcrypto.cpp), OpenABEContextSchemeStreamSKE
    (src/abe/zcontextske.cpp).  Only definitions; proofs are in SymProofs.v.

    OpenSSL's AES-256-GCM is a parameter [gcm]: a key stream, a tag function and
    the initialisation vector that a buffer selects (None: the library refuses
    it and every later call on the context fails).  The EVP functions are
    modelled as they are documented: an update without bytes does nothing,
    associated data after data is refused, SET_TAG keeps 1 to 16 bytes and the
    final check compares that many bytes.  The pointer of an empty vector
    (&v[0]) is treated as a pointer nobody reads through.  Random bytes are
    arguments.  Variable-length arrays are assumed to fit the stack. *)
From Verif Require Import Base StrMap ByteString Base64 Utils Keystore.
From Coq Require Import ZArith List Ascii Bool.
Import ListNotations.
Open Scope Z_scope.
Open Scope res_scope.

Record gcm := { ks : str -> str -> nat -> ascii; mac : str -> str -> str -> str -> str; iv_used : str -> option str }.

(** A catch (OpenABE_ERROR) that rethrows a runtime_error; one that returns the code. *)
Definition to_runtime {A} (m : res A) : res A := match m with Throw (OpenABEError _) => Throw RuntimeError | _ => m end.
Definition to_code (m : res Z) : res Z := match m with Throw (OpenABEError e) => Ok e | _ => m end.

(** ** OpenABESymKey *)
Record symkey := { sk_version : Z; sk_alg : Z; sk_uid : str; sk_id : str; sk_type : key_type; sk_data : str }.
(** zkey.cpp L56-62: the default constructor. *)
Definition blank_symkey : symkey := {| sk_version := 170; sk_alg := SCHEME_NONE; sk_uid := []; sk_id := []; sk_type := KEY_NONE; sk_data := [] |}.
(** zsymkey.cpp L55-77. *)
Definition new_symkey (id : str) (uid : option str) (alg : Z) (random : str) : res symkey :=
  if len id =? 0 then Throw (OpenABEError 24) else
  do a <- get_scheme_id alg;
  match key_type_of alg with
  | SK_ENC => Ok {| sk_version := 170; sk_alg := a; sk_uid := match uid with Some u => if len u =? 16 then u else random | None => random end;
                    sk_id := id; sk_type := SK_ENC; sk_data := [] |}
  | _ => Throw (OpenABEError 39)
  end.
(** L172-179 setSymmetricKey. *)
Definition set_symmetric_key (k : symkey) (d : str) : res symkey :=
  if negb (len d =? 16) && negb (len d =? 32) then Throw (OpenABEError 24)
  else Ok {| sk_version := sk_version k; sk_alg := sk_alg k; sk_uid := sk_uid k; sk_id := sk_id k; sk_type := sk_type k; sk_data := d |}.
(** L164-170 generateSymmetricKey: [random] are the keyLen bytes drawn. *)
Definition generate_symmetric_key (k : symkey) (random : str) : res symkey := set_symmetric_key k random.
(** zkey.cpp L101-107 getHeader. *)
Definition symkey_header (k : symkey) : str := z2b (sk_version k) :: z2b (sk_alg k) :: sk_uid k ++ sk_id k.
(** L127-135 exportKeyToBytes. *)
Definition symkey_export (k : symkey) : str := smart_pack (smart_pack [] (symkey_header k)) (sk_data k).
(** L90-125 loadKeyFromBytes: the key afterwards and the code.
    OpenABE_ERROR_INVALID_LENGTH = 24. *)
Definition symkey_load (this : symkey) (input random : str) : symkey * res Z :=
  if len input =? 0 then (this, Ok 24) else
  let '(i, h) := smart_unpack input 0 in
  match (do header <- h;
         if len header <? 2 then Throw (OpenABEError 24) else
         do _ <- at_ header 0;
         do alg <- at_ header 1;
         do key <- (if 18 <=? len header then
                      do uid <- get_subset header 2 16;
                      do ident <- get_subset header 18 (len header - 16 - 1 - 1);
                      new_symkey ident (Some uid) alg random
                    else Ok blank_symkey);
         do d <- snd (smart_unpack input i);
         set_symmetric_key key d) with
  | Ok k => (k, Ok 0)
  | Throw e => (this, Throw e) | UB => (this, UB) | Exit => (this, Exit) | NoFuel => (this, NoFuel)
  end.
(** L181-185 operator==: the key bytes of the left key are compared with themselves. *)
Definition symkey_eq (a b : symkey) : bool := bs_eq (symkey_header a) (symkey_header b) && bs_eq (sk_data a) (sk_data a).

Section Cipher.
Context (G : gcm) (hash : str -> str).

(** ** The EVP context *)
Fixpoint crypt (key iv : str) (i : nat) (data : str) : str :=
  match data with [] => [] | c :: t => z2b (Z.lxor (b2z c) (b2z (ks G key iv i))) :: crypt key iv (S i) t end.
Record evp := { ev_key : str; ev_iv : option str; ev_aad : str; ev_data : str; ev_tag : option str }.
(** EVP_*Init_ex with EVP_aes_256_gcm reads 32 bytes of key. *)
Definition evp_init (key iv : str) : res evp :=
  if len key <? 32 then UB
  else Ok {| ev_key := firstn 32 key; ev_iv := iv_used G iv; ev_aad := []; ev_data := []; ev_tag := None |}.
Definition evp_set_tag (e : evp) (tag : str) : evp :=
  {| ev_key := ev_key e; ev_iv := ev_iv e; ev_aad := ev_aad e; ev_data := ev_data e;
     ev_tag := if (0 <? len tag) && (len tag <=? 16) then Some tag else ev_tag e |}.
(** Update without output buffer: associated data; the count is *outl. *)
Definition evp_add_aad (e : evp) (a : str) : evp * Z :=
  match ev_iv e, ev_data e with
  | Some _, [] => ({| ev_key := ev_key e; ev_iv := ev_iv e; ev_aad := ev_aad e ++ a; ev_data := []; ev_tag := ev_tag e |}, len a)
  | _, _ => (e, 0)
  end.
(** Update: the tag is over what is on the wire. *)
Definition evp_update (enc : bool) (e : evp) (data : str) : evp * str :=
  match ev_iv e with
  | Some iv =>
      let out := crypt (ev_key e) iv (length (ev_data e)) data in
      ({| ev_key := ev_key e; ev_iv := ev_iv e; ev_aad := ev_aad e; ev_data := ev_data e ++ (if enc then out else data); ev_tag := ev_tag e |}, out)
  | None => (e, [])
  end.
(** EVP_CTRL_GCM_GET_TAG into 16 zero bytes. *)
Definition evp_get_tag (e : evp) : str :=
  match ev_iv e with Some iv => mac G (ev_key e) iv (ev_aad e) (ev_data e) | None => fill_buffer 0 16 end.
(** EVP_DecryptFinal_ex > 0. *)
Definition evp_verify (e : evp) : bool :=
  match ev_iv e, ev_tag e with
  | Some iv, Some t => str_eqb t (firstn (length t) (mac G (ev_key e) iv (ev_aad e) (ev_data e)))
  | _, _ => false
  end.

(** Sizes are kept in an int and one more byte is allocated; buffers that do not
    fit are not modelled further. *)
Definition too_long (b : str) : bool := 2147483647 <=? len b.

(** ** OpenABESymKeyAuthEnc (zsymkey.cpp L192-398, at DEFAULT_AES_SEC_LEVEL) *)
Record auth_enc := { ae_key : str; ae_aad : str; ae_aad_set : bool }.
Definition new_auth_enc (key : str) : auth_enc := {| ae_key := key; ae_aad := []; ae_aad_set := false |}.
(** L220-231 and L233-243 setAddAuthData. *)
Definition ae_set_aad (o : auth_enc) (a : str) : auth_enc :=
  {| ae_key := ae_key o; ae_aad := if len a =? 0 then fill_buffer 0 16 else a; ae_aad_set := true |}.
Definition ae_set_aad_ptr (o : auth_enc) (a : option str) : auth_enc :=
  {| ae_key := ae_key o; ae_aad := match a with Some a => a | None => fill_buffer 0 16 end; ae_aad_set := true |}.
(** L245-321 encrypt: IV, ciphertext and tag. *)
Definition ae_encrypt (o : auth_enc) (plaintext random : str) : res (str * str * str) :=
  if too_long plaintext || too_long (ae_aad o) then UB else
  do e <- evp_init (ae_key o) random;
  let e1 := if ae_aad_set o then fst (evp_add_aad e (ae_aad o)) else e in
  let '(e2, ct) := evp_update true e1 plaintext in
  Ok (random, ct, evp_get_tag e2).
(** L323-398 decrypt: None is the result false, with the plaintext untouched.
    OpenABE_ERROR_INVALID_TAG_LENGTH = 61. *)
Definition ae_decrypt (o : auth_enc) (iv ciphertext tag : str) : res (option str) :=
  if negb (len tag =? 16) then Throw (OpenABEError 61) else
  if too_long ciphertext || too_long (ae_aad o) then UB else
  do e <- evp_init (ae_key o) iv;
  let e0 := evp_set_tag e tag in
  let e1 := if ae_aad_set o then fst (evp_add_aad e0 (ae_aad o)) else e0 in
  let '(e2, pt) := evp_update false e1 ciphertext in
  Ok (if evp_verify e2 then Some pt else None).

(** ** OpenABESymKeyHandle (zsymcrypto.cpp L48-158) *)
Record handle := { h_key : str; h_b64 : bool; h_aad : str }.
(** L48-62, L64-80: the constructors. *)
Definition new_handle (key : str) (b64 : bool) : res handle :=
  if len key =? 32 then Ok {| h_key := key; h_b64 := b64; h_aad := [] |} else Throw RuntimeError.
Definition new_handle_aad (key aad : str) (b64 : bool) : res handle :=
  if len key =? 32 then Ok {| h_key := key; h_b64 := b64; h_aad := aad |} else Throw RuntimeError.
Definition with_aad (o : auth_enc) (aad : str) : auth_enc :=
  if 0 <? len aad then ae_set_aad o aad else ae_set_aad_ptr o None.
(** L88-126 encrypt, L128-158 decrypt. *)
Definition handle_encrypt (h : handle) (plaintext random : str) : res str :=
  do r <- to_runtime (ae_encrypt (with_aad (new_auth_enc (h_key h)) (h_aad h)) plaintext random);
  let '(iv, ct, tag) := r in
  let z := smart_pack (smart_pack (smart_pack [] iv) ct) tag in
  if h_b64 h then base64_encode z else Ok z.
Definition handle_decrypt (h : handle) (ciphertext : str) : res str :=
  to_runtime
    (let z := if h_b64 h then base64_decode ciphertext else ciphertext in
     let '(i1, iv) := smart_unpack z 0 in do iv <- iv;
     let '(i2, ct) := smart_unpack z i1 in do ct <- ct;
     let '(i3, tag) := smart_unpack z i2 in do tag <- tag;
     do p <- ae_decrypt (with_aad (new_auth_enc (h_key h)) (h_aad h)) iv ct tag;
     match p with Some p => Ok p | None => Throw RuntimeError end).

(** ** SymKeyEncHandler (zsymcrypto.cpp L181-385) *)
Inductive mode := CBC | GCM | STREAM_GCM.
(** L387-398 SchemeFromEncryptionMode. *)
Definition scheme_of_mode (m : mode) : Z := match m with CBC => AES_CBC | GCM => AES_GCM | STREAM_GCM => AES_GCM_STREAM end.
(** [sh_gcm] is the pointer gcm_handler_; its associated data is set before every
    use, so only its key is kept. *)
Record handler := { sh_b64 : bool; sh_aad : str; sh_mode : mode; sh_gcm : option str }.
(** L181-185: the default constructor. *)
Definition blank_handler : handler := {| sh_b64 := false; sh_aad := []; sh_mode := GCM; sh_gcm := None |}.
(** L207-225 setSKEHandler(key).  INVALID_KEY = 6, UNKNOWN_SCHEME = 10. *)
Definition set_ske_handler (h : handler) (k : symkey) : res handler :=
  if negb (sk_alg k =? scheme_of_mode (sh_mode h)) && negb (sk_alg k =? SCHEME_NONE) then Throw (OpenABEError 6) else
  match sh_mode h with
  | GCM => Ok {| sh_b64 := sh_b64 h; sh_aad := sh_aad h; sh_mode := GCM; sh_gcm := Some (sk_data k) |}
  | _ => Throw (OpenABEError 10)
  end.
(** L227-233 setSKEHandler(string). *)
Definition set_ske_handler_bytes (h : handler) (key : str) : res handler :=
  do k <- set_symmetric_key blank_symkey key; set_ske_handler h k.
(** L187-201: the other constructors. *)
Definition new_handler (key : str) (m : mode) (b64 : bool) : res handler :=
  set_ske_handler_bytes {| sh_b64 := b64; sh_aad := []; sh_mode := m; sh_gcm := None |} key.
Definition new_handler_key (k : symkey) (m : mode) (b64 : bool) : res handler :=
  set_ske_handler {| sh_b64 := b64; sh_aad := []; sh_mode := m; sh_gcm := None |} k.
(** L235-243 setAuthData. *)
Definition set_auth_data (h : handler) (a : str) : res handler :=
  do d <- (if 16 <? len a then get_subset (hash a) 0 16 else Ok a);
  Ok {| sh_b64 := sh_b64 h; sh_aad := d; sh_mode := sh_mode h; sh_gcm := sh_gcm h |}.
(** L245-292 encrypt: the code is 0 whenever it returns. *)
Definition handler_encrypt (h : handler) (plaintext random : str) : res str :=
  match sh_mode h with
  | GCM =>
      match sh_gcm h with
      | None => UB
      | Some key =>
          do r <- to_runtime (ae_encrypt (with_aad (new_auth_enc key) (sh_aad h)) plaintext random);
          let '(iv, ct, tag) := r in
          let z := smart_pack (smart_pack (smart_pack (smart_pack [] iv) ct) tag) (sh_aad h) in
          if sh_b64 h then base64_encode z else Ok z
      end
  | _ => Throw (OpenABEError 10)
  end.
(** L294-353 decrypt. *)
Definition handler_decrypt (h : handler) (ciphertext : str) : res str :=
  let z := if sh_b64 h then base64_decode ciphertext else ciphertext in
  let '(i1, iv) := smart_unpack z 0 in do iv <- iv;
  let '(i2, x) := smart_unpack z i1 in do x <- x;
  match sh_mode h with
  | GCM =>
      to_runtime
        (do parts <- (if Z.of_nat i2 <? len z then
                        let '(i3, tag) := smart_unpack z i2 in do tag <- tag;
                        do aad <- (if Z.of_nat i3 <? len z then snd (smart_unpack z i3) else Ok []);
                        Ok (x, tag, aad)
                      else Ok ([], x, []));
         let '(ct, tag, aad) := parts in
         if (0 <? len (sh_aad h)) && negb (len aad =? 0) && negb (bs_eq aad (sh_aad h)) then Throw (OpenABEError 32) else
         match sh_gcm h with
         | None => UB
         | Some key =>
             let o := if 0 <? len (sh_aad h) then ae_set_aad (new_auth_enc key) (sh_aad h)
                      else if 0 <? len aad then ae_set_aad (new_auth_enc key) aad
                      else ae_set_aad_ptr (new_auth_enc key) None in
             do p <- ae_decrypt o iv ct tag;
             match p with Some p => Ok p | None => Throw (OpenABEError 32) end
         end)
  | _ => Throw (OpenABEError 10)
  end.
(** L355-369 and L371-385: the string versions print runtime errors and return "". *)
Definition or_empty (m : res str) : res str := match m with Throw RuntimeError => Ok [] | _ => m end.
Definition handler_encrypt_string (h : handler) (plaintext random : str) : res str := or_empty (handler_encrypt h plaintext random).
Definition handler_decrypt_string (h : handler) (ciphertext : str) : res str := or_empty (handler_decrypt h ciphertext).

(** ** OpenABESymKeyAuthEncStream (zsymkey.cpp L405-661)
    [s_key] are the bytes of the key object.  Calls take the caller's output
    buffer and return it. *)
Record stream := { s_key : str; s_ctx : option evp; s_iv : str; s_aad : str; s_aad_set : bool; s_enc : bool; s_dec : bool;
                   s_total : Z; s_encn : Z; s_decn : Z }.
(** L405-421; size_t counters start at -1. *)
Definition new_stream (key : str) : stream :=
  {| s_key := key; s_ctx := None; s_iv := []; s_aad := []; s_aad_set := false; s_enc := false; s_dec := false;
     s_total := 2^64 - 1; s_encn := 2^64 - 1; s_decn := 2^64 - 1 |}.
(** L428-438 initAddAuthData: the data is appended to what is there. *)
Definition init_aad (s : stream) (a : option str) : stream :=
  if s_enc s || s_dec s then
    {| s_key := s_key s; s_ctx := s_ctx s; s_iv := s_iv s; s_aad := match a with None => fill_buffer 0 16 | Some a => s_aad s ++ a end; s_aad_set := true;
       s_enc := s_enc s; s_dec := s_dec s; s_total := s_total s; s_encn := s_encn s; s_decn := s_decn s |}
  else s.
Definition with_ctx (s : stream) (e : evp) : stream :=
  {| s_key := s_key s; s_ctx := Some e; s_iv := s_iv s; s_aad := s_aad s; s_aad_set := s_aad_set s; s_enc := s_enc s; s_dec := s_dec s;
     s_total := s_total s; s_encn := s_encn s; s_decn := s_decn s |}.
(** L440-457 setAddAuthData.  OpenABE_INVALID_INPUT_TYPE = 100. *)
Definition set_aad (s : stream) : stream * res Z :=
  if (s_enc s || s_dec s) && s_aad_set s then
    if too_long (s_aad s) then (s, UB) else
    match s_ctx s with
    | None => (s, UB)
    | Some e => let '(e', n) := evp_add_aad e (s_aad s) in (with_ctx s e', if n =? len (s_aad s) then Ok 0 else Throw (OpenABEError 8))
    end
  else (s, Ok 100).
(** L459-491 encryptInit; [random] are the 16 bytes drawn.  IN_USE_ALREADY = 29. *)
Definition encrypt_init (s : stream) (iv random : str) : stream * str * res Z :=
  if s_enc s then (s, iv, Ok 29)
  else if s_dec s then (s, iv, Ok 8)
  else match evp_init (s_key s) random with
       | Ok e => ({| s_key := s_key s; s_ctx := Some e; s_iv := random; s_aad := s_aad s; s_aad_set := s_aad_set s; s_enc := true; s_dec := s_dec s;
                     s_total := 0; s_encn := 0; s_decn := s_decn s |}, random, Ok 0)
       | _ => (s, iv, UB)
       end.
(** L493-520 encryptUpdate. *)
Definition encrypt_update (s : stream) (block ciphertext : str) : stream * str * res Z :=
  if s_enc s then
    if too_long block then (s, ciphertext, UB)
    else if negb (0 <? len block) then (s, ciphertext, Throw (OpenABEError 8))
    else match s_ctx s with
         | None => (s, ciphertext, UB)
         | Some e =>
             let '(e', ct) := evp_update true e block in
             if len block =? len ct then
               ({| s_key := s_key s; s_ctx := Some e'; s_iv := s_iv s; s_aad := s_aad s; s_aad_set := s_aad_set s; s_enc := s_enc s; s_dec := s_dec s;
                   s_total := (s_total s + len ct) mod 2^64; s_encn := (s_encn s + 1) mod 2^64; s_decn := s_decn s |}, ciphertext ++ ct, Ok 0)
             else (with_ctx s e', ciphertext, Throw (OpenABEError 8))
         end
  else (s, ciphertext, Ok 0).
(** L522-559 encryptFinalize: the buffer returned is the tag.  The final call
    stores 0 in the low half of total_ct_len.  UNEXPECTED_EXTRA_BYTES = 28. *)
Definition encrypt_finalize (s : stream) (ciphertext tag : str) : stream * str * res Z :=
  if s_enc s && (0 <? s_encn s) then
    if negb (len ciphertext =? s_total s) then (s, tag, Throw (OpenABEError 8))
    else match s_ctx s with
         | None => (s, tag, UB)
         | Some e =>
             let total := s_total s / 2^32 * 2^32 in
             if total =? 0 then
               ({| s_key := s_key s; s_ctx := None; s_iv := fill_buffer 0 (len (s_iv s)); s_aad := fill_buffer 0 (len (s_aad s)); s_aad_set := false;
                   s_enc := false; s_dec := s_dec s; s_total := 0; s_encn := 0; s_decn := s_decn s |}, tag ++ evp_get_tag e, Ok 0)
             else ({| s_key := s_key s; s_ctx := s_ctx s; s_iv := s_iv s; s_aad := s_aad s; s_aad_set := s_aad_set s; s_enc := s_enc s; s_dec := s_dec s;
                      s_total := total; s_encn := s_encn s; s_decn := s_decn s |}, tag, Throw (OpenABEError 28))
         end
  else (s, tag, Ok 0).
(** L561-596 decryptInit: a second call does nothing. *)
Definition decrypt_init (s : stream) (iv tag : str) : stream * res Z :=
  if s_dec s then (s, Ok 0)
  else if s_enc s then (s, Ok 8)
  else match evp_init (s_key s) iv with
       | Ok e => ({| s_key := s_key s; s_ctx := Some (evp_set_tag e tag); s_iv := s_iv s; s_aad := s_aad s; s_aad_set := s_aad_set s; s_enc := s_enc s;
                     s_dec := true; s_total := s_total s; s_encn := s_encn s; s_decn := 0 |}, Ok 0)
       | _ => (s, UB)
       end.
(** L598-624 decryptUpdate.  BUFFER_TOO_SMALL = 15. *)
Definition decrypt_update (s : stream) (block plaintext : str) : stream * str * res Z :=
  if s_dec s then
    if negb (0 <? len block) then (s, plaintext, Ok 8)
    else if too_long block then (s, plaintext, UB)
    else match s_ctx s with
         | None => (s, plaintext, UB)
         | Some e =>
             let '(e', pt) := evp_update false e block in
             if len pt =? len block then
               ({| s_key := s_key s; s_ctx := Some e'; s_iv := s_iv s; s_aad := s_aad s; s_aad_set := s_aad_set s; s_enc := s_enc s; s_dec := s_dec s;
                   s_total := s_total s; s_encn := s_encn s; s_decn := (s_decn s + 1) mod 2^64 |}, plaintext ++ pt, Ok 0)
             else (with_ctx s e', plaintext, Ok 15)
         end
  else (s, plaintext, Ok 0).
(** L626-661 decryptFinalize: the plaintext buffer is left as it is.
    DECRYPTION_FAILED = 32. *)
Definition decrypt_finalize (s : stream) : stream * res Z :=
  if s_dec s && (0 <? s_decn s) then
    match s_ctx s with
    | None => (s, UB)
    | Some e =>
        ({| s_key := s_key s; s_ctx := None; s_iv := fill_buffer 0 (len (s_iv s)); s_aad := fill_buffer 0 (len (s_aad s)); s_aad_set := false;
            s_enc := s_enc s; s_dec := false; s_total := s_total s; s_encn := s_encn s; s_decn := 0 |},
         Ok (if evp_verify e then 0 else 32))
    end
  else (s, Ok 8).

(** ** OpenABEContextSchemeStreamSKE (zcontextske.cpp L176-444)
    The member aad has no setter and stays empty. *)
Record ske := { c_store : store symkey; c_enc : option stream; c_dec : option stream }.
Definition new_ske : ske := {| c_store := new_store; c_enc := None; c_dec := None |}.
Definition with_store (c : ske) (s : store symkey) : ske := {| c_store := s; c_enc := c_enc c; c_dec := c_dec c |}.
Definition with_enc (c : ske) (s : option stream) : ske := {| c_store := c_store c; c_enc := s; c_dec := c_dec c |}.
Definition with_dec (c : ske) (s : option stream) : ske := {| c_store := c_store c; c_enc := c_enc c; c_dec := s |}.
(** L194-214 keygen. *)
Definition ctx_keygen (c : ske) (id random : str) : ske * res Z :=
  if check_secret_key (c_store c) id then (c, Ok 29)
  else match generate_symmetric_key blank_symkey random with
       | Ok k => (with_store c (add_key (c_store c) id (Some k) KEY_SECRET), Ok 0)
       | Throw (OpenABEError e) => (c, Ok e)
       | _ => (c, UB)
       end.
(** L58-71 OpenABE_storeSymmetricKey. *)
Definition store_symmetric_key (s : store symkey) (id : str) (k : option symkey) : store symkey * res Z :=
  match k with None => (s, Ok 8) | Some _ => (add_key s id k KEY_SECRET, Ok 0) end.
(** L81-99 OpenABE_loadSymmetricKey: the code of loadKeyFromBytes is dropped. *)
Definition load_symmetric_key (s : store symkey) (id blob random : str) : store symkey * res Z :=
  match symkey_load blank_symkey blob random with
  | (k, Ok _) => (add_key s id (Some k) KEY_SECRET, Ok 0)
  | (_, r) => (s, to_code r)
  end.
(** L251-280 loadPrivateKey. *)
Definition ctx_load (c : ske) (id blob random : str) : ske * res Z :=
  let '(s, r) := load_symmetric_key (c_store c) id blob random in (with_store c s, r).
(** L157-170 OpenABE_exportKey and L216-248 exportKey.  The key store calls
    OpenABEKey::exportKeyToBytes, which OpenABESymKey does not override (its own
    method is not const): the header and the (empty) container are packed. *)
Definition base_export (k : symkey) : str := pack (pack [] (symkey_header k)) [].
Definition ctx_export (c : ske) (id blob : str) : ske * str * res Z :=
  let '(s, v) := get_key (c_store c) id in
  match v with Some k => (with_store c s, base_export k, Ok 0) | None => (with_store c s, blob, Ok 8) end.
(** L282-284 deleteKey. *)
Definition ctx_delete (c : ske) (id : str) : ske * res Z :=
  let '(s, _, code) := delete_key (c_store c) id in (with_store c s, Ok (if code =? 0 then 0 else 8)).
(** After the stream's own init: default associated data (L310-320, L390-400). *)
Definition attach_aad (s : stream) : stream * res Z :=
  match set_aad (init_aad s None) with
  | (s', Ok 0) => (s', Ok 0)
  | (s', r) => (s', to_code r)
  end.
(** L286-327 encryptInit. *)
Definition ctx_encrypt_init (c : ske) (id iv random : str) : ske * str * res Z :=
  let '(st, v) := get_secret_key (c_store c) id in
  let c1 := {| c_store := st; c_enc := None; c_dec := c_dec c |} in
  match v with
  | None => (c1, iv, Ok 6)
  | Some k =>
      match encrypt_init (new_stream (sk_data k)) iv random with
      | (s, iv', Ok 0) => let '(s', r) := attach_aad s in (with_enc c1 (Some s'), iv', r)
      | (s, iv', r) => (with_enc c1 (Some s), iv', r)
      end
  end.
(** L329-345 encryptUpdate and L347-365 encryptFinalize: the stream's code is dropped. *)
Definition ctx_encrypt_update (c : ske) (block ciphertext : str) : ske * str * res Z :=
  match c_enc c with
  | None => (c, ciphertext, Ok 8)
  | Some s => match encrypt_update s block ciphertext with
              | (s', out, Ok _) => (with_enc c (Some s'), out, Ok 0)
              | (s', out, r) => (with_enc c (Some s'), out, to_code r)
              end
  end.
Definition ctx_encrypt_finalize (c : ske) (ciphertext tag : str) : ske * str * res Z :=
  match c_enc c with
  | None => (c, tag, Ok 8)
  | Some s => match encrypt_finalize s ciphertext tag with
              | (_, out, Ok _) => (with_enc c None, out, Ok 0)
              | (s', out, r) => (with_enc c (Some s'), out, to_code r)
              end
  end.
(** L367-407 decryptInit: the stream's code is dropped. *)
Definition ctx_decrypt_init (c : ske) (id iv tag : str) : ske * res Z :=
  let '(st, v) := get_secret_key (c_store c) id in
  let c1 := {| c_store := st; c_enc := c_enc c; c_dec := None |} in
  match v with
  | None => (c1, Ok 6)
  | Some k =>
      match decrypt_init (new_stream (sk_data k)) iv tag with
      | (s, Ok _) => let '(s', r) := attach_aad s in (with_dec c1 (Some s'), r)
      | (s, r) => (with_dec c1 (Some s), r)
      end
  end.
(** L409-425 decryptUpdate and L427-444 decryptFinalize: likewise. *)
Definition ctx_decrypt_update (c : ske) (block plaintext : str) : ske * str * res Z :=
  match c_dec c with
  | None => (c, plaintext, Ok 8)
  | Some s => match decrypt_update s block plaintext with
              | (s', out, Ok _) => (with_dec c (Some s'), out, Ok 0)
              | (s', out, r) => (with_dec c (Some s'), out, to_code r)
              end
  end.
Definition ctx_decrypt_finalize (c : ske) : ske * res Z :=
  match c_dec c with
  | None => (c, Ok 8)
  | Some s => match decrypt_finalize s with
              | (_, Ok _) => (with_dec c None, Ok 0)
              | (s', r) => (with_dec c (Some s'), to_code r)
              end
  end.
End Cipher.
