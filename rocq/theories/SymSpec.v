(** What symmetric encryption is meant to do, stated without the EVP context. *)
From Verif Require Import Base ByteString Utils Sym.
From Coq Require Import ZArith List Ascii Bool.
Import ListNotations.
Open Scope Z_scope.

(** AES-256-GCM: tags have 16 bytes and a 16-byte IV is used as it is. *)
Definition gcm_ok (G : gcm) : Prop :=
  (forall k iv a c, len (mac G k iv a c) = 16) /\ (forall iv, len iv = 16 -> iv_used G iv = Some iv).

(** [out] is [inp] XORed byte by byte with the key stream. *)
Definition masked (G : gcm) (k iv inp out : str) : Prop :=
  length out = length inp /\
  forall i x, nth_error inp i = Some x -> nth_error out i = Some (z2b (Z.lxor (b2z x) (b2z (ks G k iv i)))).

(** The AEAD accepts ciphertext [c] with tag [t] and opens it to [m]. *)
Definition opens (G : gcm) (k iv aad c t m : str) : Prop :=
  exists v, iv_used G iv = Some v /\ t = mac G k v aad c /\ masked G k v c m.

(** 16 zero bytes: the associated data when none is given. *)
Definition zeros16 : str := repeat (z2b 0) 16.
Definition aad_or_zeros (a : str) : str := match a with [] => zeros16 | _ => a end.

(** A caller's loop over the blocks of a message; None as soon as a call reports
    anything but success. *)
Fixpoint enc_loop (G : gcm) (s : stream) (out : str) (blocks : list str) : option (stream * str) :=
  match blocks with
  | [] => Some (s, out)
  | b :: bs => match encrypt_update G s b out with (s', out', Ok 0) => enc_loop G s' out' bs | _ => None end
  end.
Fixpoint dec_loop (G : gcm) (s : stream) (out : str) (blocks : list str) : option (stream * str) :=
  match blocks with
  | [] => Some (s, out)
  | b :: bs => match decrypt_update G s b out with (s', out', Ok 0) => dec_loop G s' out' bs | _ => None end
  end.
(** A whole session: init, associated data, blocks, finalize.  [aad = None] is
    the null pointer.  The result of finalize is returned as it is. *)
Definition enc_session (G : gcm) (s : stream) (aad : option str) (random : str) (blocks : list str) : option (str * str * str * stream * res Z) :=
  match encrypt_init G s [] random with
  | (s1, iv, Ok 0) =>
      match set_aad (init_aad s1 aad) with
      | (s2, Ok 0) =>
          match enc_loop G s2 [] blocks with
          | Some (s3, ct) => let '(s4, tag, r) := encrypt_finalize G s3 ct [] in Some (iv, ct, tag, s4, r)
          | None => None
          end
      | _ => None
      end
  | _ => None
  end.
Definition dec_session (G : gcm) (s : stream) (aad : option str) (iv tag : str) (blocks : list str) : option (str * stream * res Z) :=
  match decrypt_init G s iv tag with
  | (s1, Ok 0) =>
      match set_aad (init_aad s1 aad) with
      | (s2, Ok 0) =>
          match dec_loop G s2 [] blocks with
          | Some (s3, pt) => let '(s4, r) := decrypt_finalize G s3 in Some (pt, s4, r)
          | None => None
          end
      | _ => None
      end
  | _ => None
  end.
(** The same through the context. *)
Fixpoint ctx_enc_loop (G : gcm) (c : ske) (out : str) (blocks : list str) : option (ske * str) :=
  match blocks with
  | [] => Some (c, out)
  | b :: bs => match ctx_encrypt_update G c b out with (c', out', Ok 0) => ctx_enc_loop G c' out' bs | _ => None end
  end.
Fixpoint ctx_dec_loop (G : gcm) (c : ske) (out : str) (blocks : list str) : option (ske * str) :=
  match blocks with
  | [] => Some (c, out)
  | b :: bs => match ctx_decrypt_update G c b out with (c', out', Ok 0) => ctx_dec_loop G c' out' bs | _ => None end
  end.
Definition ctx_enc_session (G : gcm) (c : ske) (id random : str) (blocks : list str) : option (str * str * str * ske * res Z) :=
  match ctx_encrypt_init G c id [] random with
  | (c1, iv, Ok 0) =>
      match ctx_enc_loop G c1 [] blocks with
      | Some (c2, ct) => let '(c3, tag, r) := ctx_encrypt_finalize G c2 ct [] in Some (iv, ct, tag, c3, r)
      | None => None
      end
  | _ => None
  end.
Definition ctx_dec_session (G : gcm) (c : ske) (id iv tag : str) (blocks : list str) : option (str * ske * res Z) :=
  match ctx_decrypt_init G c id iv tag with
  | (c1, Ok 0) =>
      match ctx_dec_loop G c1 [] blocks with
      | Some (c2, pt) => let '(c3, r) := ctx_decrypt_finalize G c2 in Some (pt, c3, r)
      | None => None
      end
  | _ => None
  end.

(** Blocks a caller may pass: not empty, sizes fit an int. *)
Definition blocks_ok (bs : list str) : Prop := bs <> [] /\ Forall (fun b => 0 < len b < 2147483647) bs.
(** No session is open on the stream object and its key has the AES-256 size. *)
Definition idle (s : stream) : Prop := s_enc s = false /\ s_dec s = false /\ len (s_key s) = 32.

(** Calls on a context, with the caller's buffers, and what they return. *)
Inductive sop :=
| SKeygen (id random : str) | SLoad (id blob random : str) | SExport (id blob : str) | SDelete (id : str)
| SEncInit (id iv random : str) | SEncUpdate (block out : str) | SEncFinal (ct tag : str)
| SDecInit (id iv tag : str) | SDecUpdate (block out : str) | SDecFinal.
Definition sexec (G : gcm) (c : ske) (o : sop) : ske * str * res Z :=
  match o with
  | SKeygen id r => let '(c', x) := ctx_keygen c id r in (c', [], x)
  | SLoad id b r => let '(c', x) := ctx_load c id b r in (c', [], x)
  | SExport id b => ctx_export c id b
  | SDelete id => let '(c', x) := ctx_delete c id in (c', [], x)
  | SEncInit id iv r => ctx_encrypt_init G c id iv r
  | SEncUpdate b out => ctx_encrypt_update G c b out
  | SEncFinal ct tag => ctx_encrypt_finalize G c ct tag
  | SDecInit id iv tag => let '(c', x) := ctx_decrypt_init G c id iv tag in (c', [], x)
  | SDecUpdate b out => ctx_decrypt_update G c b out
  | SDecFinal => let '(c', x) := ctx_decrypt_finalize G c in (c', [], x)
  end.
(** The calls made so far, with the buffer and result each returned, and the
    context reached. *)
Definition strace := list (sop * (str * res Z)).
Fixpoint srun (G : gcm) (c : ske) (os : list sop) : ske * strace :=
  match os with
  | [] => (c, [])
  | o :: t => let '(c1, out, r) := sexec G c o in let '(c2, l) := srun G c1 t in (c2, (o, (out, r)) :: l)
  end.
(** From the returned codes alone: is an encryption (decryption) session open?
    An init opens one unless it reports the missing key (6); a finalize that
    reports success closes it. *)
Fixpoint enc_open (b : bool) (l : strace) : bool :=
  match l with
  | [] => b
  | (SEncInit _ _ _, (_, r)) :: t => enc_open (match r with Ok 6 => false | _ => true end) t
  | (SEncFinal _ _, (_, Ok 0)) :: t => enc_open false t
  | _ :: t => enc_open b t
  end.
Fixpoint dec_open (b : bool) (l : strace) : bool :=
  match l with
  | [] => b
  | (SDecInit _ _ _, (_, r)) :: t => dec_open (match r with Ok 6 => false | _ => true end) t
  | (SDecFinal, (_, Ok 0)) :: t => dec_open false t
  | _ :: t => dec_open b t
  end.
(** Calls that work on the encryption (decryption) session. *)
Definition on_enc (o : sop) : bool := match o with SEncInit _ _ _ | SEncUpdate _ _ | SEncFinal _ _ => true | _ => false end.
Definition on_dec (o : sop) : bool := match o with SDecInit _ _ _ | SDecUpdate _ _ | SDecFinal => true | _ => false end.

(** A small AEAD that meets [gcm_ok]: every byte of the inputs enters the tag. *)
Definition digest (s : str) (i : nat) : ascii :=
  z2b (fold_left (fun a c => (a * (31 + 2 * Z.of_nat i) + b2z c + 1) mod 65521) s (Z.of_nat i)).
Definition toy : gcm :=
  {| ks := fun k iv i => digest (k ++ iv) i;
     mac := fun k iv a c => map (digest (k ++ iv ++ a ++ z2b 255 :: c ++ [z2b (len a); z2b (len c)])) (seq 0 16);
     iv_used := fun iv => if (0 <? len iv) && (len iv <=? 128) then Some iv else None |}.

(** The fields the handler reads from a blob: IV, ciphertext, tag and associated
    data (empty if there is none); a blob with two fields has no ciphertext. *)
Definition fields (z iv c t a : str) : Prop :=
  exists i j x, smart_unpack z 0 = (i, Ok iv) /\ smart_unpack z i = (j, Ok x) /\
    ((length z <= j)%nat /\ c = [] /\ t = x /\ a = [] \/
     (j < length z)%nat /\ c = x /\ exists k, smart_unpack z j = (k, Ok t) /\
       ((length z <= k)%nat /\ a = [] \/ (k < length z)%nat /\ snd (smart_unpack z k) = Ok a)).

(** The key an identifier names after a history of calls (latest call first):
    the one last generated or loaded under it since it was last deleted. *)
Fixpoint key_named (id : str) (latest_first : strace) : option symkey :=
  match latest_first with
  | [] => None
  | (SKeygen i r, (_, Ok 0)) :: t =>
      if str_eqb id i then Some {| sk_version := 170; sk_alg := SCHEME_NONE; sk_uid := []; sk_id := []; sk_type := KEY_NONE; sk_data := r |} else key_named id t
  | (SLoad i b r, (_, Ok 0)) :: t => if str_eqb id i then Some (fst (symkey_load blank_symkey b r)) else key_named id t
  | (SDelete i, _) :: t => if str_eqb id i then None else key_named id t
  | _ :: t => key_named id t
  end.
