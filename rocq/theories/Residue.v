(** What encrypt and decrypt leave in memory: the byte strings with the blocks they
    live in, the stack arrays and the blocks that are never freed.  Models
    include/lsss/zbytestring.h (std::vector underneath), src/abe/zsymkey.cpp L83-88,
    L151-180, src/lsss/zelement_bp.cpp L775-783 and L851-872, src/abe/zkdf.cpp L138-150,
    src/abe/zpairing.cpp L236-264 and src/abe/zcontextabe.cpp L309-385. *)
From Verif Require Import Base ByteString Kdf Container Scheme Sym.
From Coq Require Import ZArith List Ascii Bool.
Import ListNotations.
Open Scope Z_scope.
Open Scope res_scope.

(** A cell that was never written has no value. *)
Definition cell := option ascii.
Inductive where_ := Heap | Stack | Leaked.
(** Memory no object owns any more, with its last contents. *)
Definition region : Type := where_ * list cell.

(** A vector: its elements, and what is behind them up to the capacity. *)
Record vec := { now : str; rest : list cell }.
Definition block (v : vec) : list cell := map Some (now v) ++ rest v.
Definition vnew : vec := {| now := []; rest := [] |}.
Definition vfree (v : vec) : list region := match block v with [] => [] | b => [(Heap, b)] end.

Section Memory.
(** The new capacity when a vector of [n] elements has no room for [k] more. *)
Variable grow : nat -> nat -> nat.
Definition moved (n k : nat) (s : str) : vec := {| now := s; rest := repeat None (grow n k - length s) |}.
(** insert at the end: appendArray L79-82; push_back. *)
Definition vinsert (v : vec) (s : str) : vec * list region :=
  if (length s <=? length (rest v))%nat then ({| now := now v ++ s; rest := skipn (length s) (rest v) |}, [])
  else (moved (length (now v)) (length s) (now v ++ s), vfree v).
(** insertFirstByte L150-152. *)
Definition vfirst (v : vec) (b : ascii) : vec * list region :=
  match rest v with
  | _ :: r => ({| now := b :: now v; rest := r |}, [])
  | [] => (moved (length (now v)) 1 (b :: now v), vfree v)
  end.
Definition vcopy (s : str) : vec := {| now := s; rest := [] |}.
(** Copy assignment: the old block is kept when it is large enough. *)
Definition vassign (v : vec) (s : str) : vec * list region :=
  if (length s <=? length (block v))%nat then ({| now := s; rest := skipn (length s) (block v) |}, []) else (vcopy s, vfree v).
Definition vclear (v : vec) : vec := {| now := []; rest := block v |}.
(** L119-125 zeroize. *)
Definition vzeroize (v : vec) : vec := {| now := []; rest := map (fun _ => Some (z2b 0)) (now v) ++ rest v |}.
(** Elements overwritten in place. *)
Definition vwrite (v : vec) (s : str) : vec := {| now := s; rest := rest v |}.
(** L141-148 fillBuffer. *)
Fixpoint vfill (v : vec) (b : ascii) (n : nat) : vec * list region :=
  match n with
  | O => (v, [])
  | S n => let '(v1, d1) := vinsert v [b] in let '(v2, d2) := vfill v1 b n in (v2, d1 ++ d2)
  end.

Context (E : engine).
Notation K := (e_curve E).

(** zelement_bp.cpp L775-783 GT::hashToBytes: the digest is released to the caller;
    the serialized element is freed.  L851-872 GT::serialize: the array that getBytes
    allocates is never freed; tmp, a copy of it, is.  (The blocks the result outgrows
    while it is packed are not recorded.) *)
Definition gt_digest (x : gt K) : str * list region :=
  let '(tmp, d0) := vinsert vnew (gt_out K x) in
  let '(b, d) := vinsert vnew (obj_serialize [] (OGt x)) in
  (e_hash E (now b), [(Leaked, map Some (gt_out K x))] ++ d ++ vfree b ++ d0 ++ vfree tmp).
(** zkdf.cpp L138-150 ComputeKDF2; the result is moved out. *)
Definition kdf2_mem (key : str) (n : Z) : res (vec * list region) :=
  if negb (0 <? len key) then Throw (OpenABEError 8)
  else if negb (0 <? n) then Throw (OpenABEError 8)
  else let '(v, d) := vfill vnew (z2b 0) (Z.to_nat n) in Ok (vwrite v (e_kdf E n key), d).
(** zsymkey.cpp L151-162 hashToSymmetricKey into [kd] (m_keyData): h_in is never
    deleted; key and h_input die at the end.  L172-180 setSymmetricKey. *)
Definition hash_to_sym_mem (kd : vec) (x : gt K) (n : Z) : res (vec * list region) :=
  let '(h, d1) := gt_digest x in
  let leak := [(Leaked, map Some h)] in
  let '(h_input, d2) := vinsert vnew h in
  do r <- kdf2_mem (now h_input) n;
  let '(key, d3) := r in
  if negb (len (now key) =? 16) && negb (len (now key) =? 32) then Throw (OpenABEError 24)
  else let '(kd', d4) := vassign (vclear kd) (now key) in Ok (kd', leak ++ d1 ++ d2 ++ d3 ++ d4 ++ vfree key ++ vfree h_input).
(** zpairing.cpp L236-264 hashFromBytes: the array [hash] and buf2 die at the end. *)
Definition hash_from_bytes_mem (buf : str) (n prefix : Z) : res (vec * list region) :=
  do blocks <- ceil_div n md_len;
  do mem <- vla blocks md_len;
  let '(b1, d1) := vfirst (vcopy buf) (z2b prefix) in
  let '(b2, d2) := vfirst b1 (z2b 0) in
  do mem' <- hash_loop (e_hash E) set_count (fun c => (c + 1) mod 256) (Z.to_nat md_len) (Z.to_nat blocks) 0 (now b2) 0 mem;
  if n <=? len mem' then
    let '(b, d3) := vinsert vnew (firstn (Z.to_nat n) mem') in
    Ok (b, d1 ++ d2 ++ d3 ++ [(Stack, map Some mem')] ++ vfree (vwrite b2 (set_count (now b2) (blocks mod 256))))
  else UB.

(** zcontextabe.cpp L309-338 encrypt and L351-385 decrypt after the group element [x]
    was computed: the text they produce, the blocks of mask_K and of the key object
    when they are freed, and everything else that was left.  K->zeroize() is
    OpenABEContainer::zeroize, which does nothing; ~OpenABESymKey wipes m_keyData.
    In encrypt the text is a copy made on the heap, in decrypt it is the caller's. *)
Definition pads (x : gt K) (n : Z) : res (vec * vec * list region) :=
  do r <- hash_to_sym_mem vnew x 32;
  let '(kd, d1) := r in
  do r <- hash_from_bytes_mem (now kd) (n mod 2 ^ 32) 42;
  let '(m, d2) := r in
  Ok (kd, m, d1 ++ d2).
Definition encrypt_mem (x : gt K) (plaintext : str) : res (str * list region * list region) :=
  do r <- pads x (len plaintext);
  let '(kd, m, d) := r in
  do y <- xor_assign plaintext (now m);
  Ok (y, vfree (vzeroize m) ++ vfree (vzeroize kd), d ++ vfree (vwrite (vcopy plaintext) y)).
Definition decrypt_mem (x : gt K) (enc : str) : res (str * list region * list region) :=
  do r <- pads x (len enc);
  let '(kd, m, d) := r in
  do y <- xor_assign enc (now m);
  Ok (y, vfree (vzeroize m) ++ vfree (vzeroize kd), d).
End Memory.

(** ** The symmetric key handle *)
(** std::string::clear: the length becomes 0, the first character the terminator
    (the buffer has one character more than the capacity). *)
Definition sclear (v : vec) : vec := {| now := []; rest := Some (z2b 0) :: tl (block v) |}.
(** zsymcrypto.cpp L84-87 ~OpenABESymKeyHandle: what the freed key_ holds; [key] with its
    terminator. *)
Definition handle_destroyed (key : str) : list region := vfree (sclear (vcopy (key ++ [z2b 0]))).
(** zsymkey.cpp L192-218: OpenABESymKeyAuthEnc keeps a copy of the key (operator= of a
    std::string: clear and insert); its destructor wipes the associated data only. *)
Definition auth_enc_destroyed (grow : nat -> nat -> nat) (key aad : str) : list region :=
  let '(k, d) := vinsert grow (vclear vnew) key in d ++ vfree (vzeroize (vcopy aad)) ++ vfree k.
(** zsymkey.cpp L323-398 OpenABESymKeyAuthEnc::decrypt: [pt] is malloc'd with one byte
    more and freed; pt_buf is wiped only when the tag verified. *)
Definition ae_decrypt_mem (grow : nat -> nat -> nat) (G : gcm) (o : auth_enc) (iv ciphertext tag : str) : res (option str * list region) :=
  if negb (len tag =? 16) then Throw (OpenABEError 61) else
  if too_long ciphertext || too_long (ae_aad o) then UB else
  do e <- evp_init G (ae_key o) iv;
  let e0 := evp_set_tag e tag in
  let e1 := if ae_aad_set o then fst (evp_add_aad e0 (ae_aad o)) else e0 in
  let '(e2, pt) := evp_update G false e1 ciphertext in
  let freed := [(Heap, map Some pt ++ repeat (Some (z2b 0)) (S (length ciphertext) - length pt))] in
  let '(pt_buf, d) := vinsert grow vnew pt in
  if evp_verify G e2 then Ok (Some (now pt_buf), freed ++ d ++ vfree (vzeroize pt_buf))
  else Ok (None, freed ++ d ++ vfree pt_buf).
