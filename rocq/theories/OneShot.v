(** The temporary objects of encryption in one call: the OpenSSL context and the
    output block of OpenABESymKeyAuthEnc::encrypt and decrypt (src/abe/zsymkey.cpp
    L245-398), also as called by OpenABESymKeyHandle and SymKeyEncHandler
    (src/abe/zsymcrypto.cpp L88-158, L245-353).  Results are those of Sym.v;
    creations, uses and deletions are written to a history as in StreamMem.v. *)
From Verif Require Import Base ByteString Base64 Memory Sym StreamMem.
From Coq Require Import ZArith List Bool.
Import ListNotations.
Open Scope Z_scope.

Definition tell (l : list event) (m : tmem) : tmem := fold_left (fun m e => told e m) l m.
(** L245-321: ctx is made at L253 and ct at L265; L314 frees ctx, L319 ct.  The
    assertion at L301 holds since EVP_EncryptFinal_ex stores 0. *)
Definition encrypt_objects (m : tmem) : tmem :=
  let ctx := next m in let ct := next (tnew m) in
  tell [Use ctx; Use ct; Use ctx; Use ct; Use ctx; Del ctx; Del ct] (tnew (tnew m)).
(** L323-398: ctx is made at L332; the assertion on the tag at L344 throws; pt is
    made at L370 and freed at L383, ctx at L387. *)
Definition decrypt_objects (tag : str) (m : tmem) : tmem :=
  let ctx := next m in let m1 := tnew m in
  if negb (len tag =? 16) then m1
  else let pt := next m1 in tell [Use pt; Use ctx; Use pt; Use ctx; Del pt; Del ctx] (tnew (told (Use ctx) m1)).

(** The tag that OpenABESymKeyHandle::decrypt (zsymcrypto.cpp L128-158) passes on;
    [None] if reading the text throws before. *)
Definition got {A} (m : res A) : option A := match m with Ok a => Some a | _ => None end.
Definition handle_tag (h : handle) (ciphertext : str) : option str :=
  got (let z := if h_b64 h then base64_decode ciphertext else ciphertext in
       let '(i1, iv) := smart_unpack z 0 in do iv <- iv;
       let '(i2, ct) := smart_unpack z i1 in do ct <- ct; snd (smart_unpack z i2)).
(** Likewise SymKeyEncHandler::decrypt (L294-353). *)
Definition handler_tag (h : handler) (ciphertext : str) : option str :=
  let z := if sh_b64 h then base64_decode ciphertext else ciphertext in
  got (let '(i1, iv) := smart_unpack z 0 in do iv <- iv;
       let '(i2, x) := smart_unpack z i1 in do x <- x;
       match sh_mode h, sh_gcm h with
       | GCM, Some _ =>
           do parts <- (if Z.of_nat i2 <? len z then
                          let '(i3, tag) := smart_unpack z i2 in do tag <- tag;
                          do aad <- (if Z.of_nat i3 <? len z then snd (smart_unpack z i3) else Ok []);
                          Ok (tag, aad)
                        else Ok (x, []));
           let '(tag, aad) := parts in
           if (0 <? len (sh_aad h)) && negb (len aad =? 0) && negb (bs_eq aad (sh_aad h)) then Throw (OpenABEError 32) else Ok tag
       | _, _ => Throw (OpenABEError 10)
       end).

Section OneShot.
Context (G : gcm).
(** Calls: on an OpenABESymKeyAuthEnc object, on an OpenABESymKeyHandle, on a
    SymKeyEncHandler. *)
Inductive oop :=
| AEncrypt (o : auth_enc) (plaintext random : str) | ADecrypt (o : auth_enc) (iv ct tag : str)
| HEncrypt (h : handle) (plaintext random : str) | HDecrypt (h : handle) (ct : str)
| KEncrypt (h : handler) (plaintext random : str) | KDecrypt (h : handler) (ct : str).
Definition unit_res {A} (m : res A) : res Z := do _ <- m; Ok 0.
Definition oresult (o : oop) : res Z :=
  match o with
  | AEncrypt o p r => unit_res (ae_encrypt G o p r) | ADecrypt o iv ct tag => unit_res (ae_decrypt G o iv ct tag)
  | HEncrypt h p r => unit_res (handle_encrypt G h p r) | HDecrypt h ct => unit_res (handle_decrypt G h ct)
  | KEncrypt h p r => unit_res (handler_encrypt G h p r) | KDecrypt h ct => unit_res (handler_decrypt G h ct)
  end.
Definition omem (o : oop) (m : tmem) : tmem :=
  match o with
  | AEncrypt _ _ _ => encrypt_objects m
  | ADecrypt _ _ _ tag => decrypt_objects tag m
  | HEncrypt _ _ _ => (* L90: symkeyContext_ is a unique_ptr *)
      told (Del (next m)) (encrypt_objects (told (Use (next m)) (tnew m)))
  | HDecrypt h ct => (* L130 *)
      told (Del (next m)) (match handle_tag h ct with Some tag => decrypt_objects tag (told (Use (next m)) (tnew m)) | None => tnew m end)
  | KEncrypt h _ _ => match sh_mode h, sh_gcm h with GCM, Some _ => encrypt_objects m | _, _ => m end
  | KDecrypt h ct => match handler_tag h ct with Some tag => decrypt_objects tag m | None => m end
  end.
(** Calls until one has undefined behaviour; the flag says whether all were made. *)
Fixpoint oruns (l : list oop) (m : tmem) : tmem * bool :=
  match l with
  | [] => (m, true)
  | o :: l' => if goes_on (oresult o) then oruns l' (omem o m) else (m, false)
  end.
End OneShot.
