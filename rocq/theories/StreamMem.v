(** The objects behind the streaming encryption classes: the OpenSSL contexts of
    OpenABESymKeyAuthEncStream (src/abe/zsymkey.cpp L405-661) and the stream objects
    of OpenABEContextSchemeStreamSKE (src/abe/zcontextske.cpp L176-444), both held by
    plain pointers.  What the calls compute is that of Sym.v; here every creation,
    use and deletion is written to a history as in Memory.v, and nothing is checked. *)
From Verif Require Import Base StrMap ByteString Memory Keystore Sym SymSpec.
From Coq Require Import ZArith List Bool.
Import ListNotations.
Open Scope Z_scope.

(** [log] has the latest event first; an address is never used twice. *)
Record tmem := { next : nat; log : list event }.
Definition told (e : event) (m : tmem) : tmem := {| next := next m; log := e :: log m |}.
Definition tnew (m : tmem) : tmem := {| next := S (next m); log := New (next m) :: log m |}.
(** A stream object and its member ctx. *)
Record cell := { place : nat; cipher : option nat }.
Definition use_ctx (x : cell) (m : tmem) : tmem := match cipher x with Some a => told (Use a) m | None => told Wild m end.
(** EVP_CIPHER_CTX_free; nothing happens to a null pointer. *)
Definition free_ctx (x : cell) (m : tmem) : tmem := match cipher x with Some a => told (Del a) m | None => m end.

(** Calls on a stream object. *)
Inductive top :=
| TEncInit (iv random : str) | TInitAad (a : option str) | TSetAad | TEncUpdate (block out : str) | TEncFinal (ct tag : str)
| TDecInit (iv tag : str) | TDecUpdate (block out : str) | TDecFinal.
Section StreamMem.
Context (G : gcm).
(** The object and the code, from Sym.v. *)
Definition tdata (s : stream) (o : top) : stream * res Z :=
  match o with
  | TEncInit iv r => let '(s', _, z) := encrypt_init G s iv r in (s', z)
  | TInitAad a => (init_aad s a, Ok 0)
  | TSetAad => set_aad s
  | TEncUpdate b out => let '(s', _, z) := encrypt_update G s b out in (s', z)
  | TEncFinal ct tag => let '(s', _, z) := encrypt_finalize G s ct tag in (s', z)
  | TDecInit iv tag => decrypt_init G s iv tag
  | TDecUpdate b out => let '(s', _, z) := decrypt_update G s b out in (s', z)
  | TDecFinal => decrypt_finalize G s
  end.
(** L465, L570: a new context is put into ctx; what was there is not freed. *)
Definition fresh_ctx (x : cell) (m : tmem) : cell * tmem :=
  let x' := {| place := place x; cipher := Some (next m) |} in (x', use_ctx x' (tnew m)).
Definition closed (x : cell) (m : tmem) : cell * tmem := ({| place := place x; cipher := None |}, free_ctx x m).
(** Where ctx is used, made and freed. *)
Definition tevents (s : stream) (x : cell) (o : top) (m : tmem) : cell * tmem :=
  match o with
  | TEncInit _ _ => (* L459-491 *)
      if negb (s_enc s) then if negb (s_dec s) then fresh_ctx x m else (x, m) else (x, m)
  | TInitAad _ => (x, m)
  | TSetAad => (* L440-457 *)
      if s_enc s && s_aad_set s then (x, use_ctx x m) else if s_dec s && s_aad_set s then (x, use_ctx x m) else (x, m)
  | TEncUpdate b _ => (* L493-520 *)
      if s_enc s && (0 <? len b) then (x, use_ctx x m) else (x, m)
  | TEncFinal ct _ => (* L522-559 *)
      if s_enc s && (0 <? s_encn s) then
        if len ct =? s_total s then
          let m1 := use_ctx x m in
          if s_total s / 2^32 * 2^32 =? 0 then closed x (use_ctx x m1) else (x, m1)
        else (x, m)
      else (x, m)
  | TDecInit _ _ => (* L561-596 *)
      if negb (s_dec s) then if negb (s_enc s) then fresh_ctx x m else (x, m) else (x, m)
  | TDecUpdate b _ => (* L598-624 *)
      if s_dec s && (0 <? len b) then (x, use_ctx x m) else (x, m)
  | TDecFinal => (* L626-661 *)
      if s_dec s && (0 <? s_decn s) then closed x (use_ctx x m) else (x, m)
  end.
Definition tstep (o : top) (s : stream) (x : cell) (m : tmem) : stream * cell * tmem * res Z :=
  let '(s', r) := tdata s o in let '(x', m') := tevents s x o (told (Use (place x)) m) in (s', x', m', r).
(** Sym.v: a call with undefined behaviour ends the program. *)
Definition goes_on (r : res Z) : bool := match r with Ok _ | Throw _ => true | _ => false end.
(** L405-421 the constructor, L423-426 the destructor. *)
Definition tmake (m : tmem) : cell * tmem := ({| place := next m; cipher := None |}, tnew m).
Definition tdelete (x : cell) (m : tmem) : tmem := told (Del (place x)) (free_ctx x m).
(** Calls on one stream object; the last component says whether all were made. *)
Fixpoint tsteps (l : list top) (s : stream) (x : cell) (m : tmem) : stream * cell * tmem * bool :=
  match l with
  | [] => (s, x, m, true)
  | o :: l' => let '(s', x', m', r) := tstep o s x m in if goes_on r then tsteps l' s' x' m' else (s', x', m', false)
  end.

(** ** The context *)
Record sprog := { ctx : ske; enc_at : option cell; dec_at : option cell; heap : tmem }.
Definition sempty : sprog := {| ctx := new_ske; enc_at := None; dec_at := None; heap := {| next := 0; log := [] |} |}.
(** zabe.h L40-44 SAFE_DELETE: the pointer is null afterwards. *)
Definition safe_delete (x : option cell) (m : tmem) : tmem := match x with Some x => tdelete x m | None => m end.
Definition put_enc (p : sprog) (s : option stream) (x : option cell) (m : tmem) : sprog :=
  {| ctx := with_enc (ctx p) s; enc_at := x; dec_at := dec_at p; heap := m |}.
Definition put_dec (p : sprog) (s : option stream) (x : option cell) (m : tmem) : sprog :=
  {| ctx := with_dec (ctx p) s; enc_at := enc_at p; dec_at := x; heap := m |}.
(** L310-320, L390-400: the default associated data of a new stream. *)
Definition attach (s : stream) (x : cell) (m : tmem) : stream * cell * tmem * res Z :=
  let '(s1, x1, m1, _) := tstep (TInitAad None) s x m in tstep TSetAad s1 x1 m1.
(** A call of the context.  The pointer to the stream is null or not ([enc_at],
    [dec_at]); the code its method returns is dropped, but for encryptInit's and
    setAddAuthData's. *)
Definition sstep (p : sprog) (o : sop) : sprog * res Z :=
  match o with
  | SEncInit id iv random => (* L286-327 *)
      let m0 := safe_delete (enc_at p) (heap p) in
      let '(st, v) := get_secret_key (c_store (ctx p)) id in
      let p1 := {| ctx := {| c_store := st; c_enc := None; c_dec := c_dec (ctx p) |}; enc_at := None; dec_at := dec_at p; heap := m0 |} in
      match v with
      | None => (p1, Ok 6)
      | Some k =>
          let '(x0, m1) := tmake m0 in
          let '(s, x, m, r) := tstep (TEncInit iv random) (new_stream (sk_data k)) x0 m1 in
          match r with
          | Ok 0 => let '(s', x', m', r') := attach s x m in (put_enc p1 (Some s') (Some x') m', to_code r')
          | _ => (put_enc p1 (Some s) (Some x) m, r)
          end
      end
  | SEncUpdate b out => (* L329-345 *)
      match enc_at p, c_enc (ctx p) with
      | Some x, Some s =>
          let '(s', x', m, r) := tstep (TEncUpdate b out) s x (heap p) in
          (put_enc p (Some s') (Some x') m, match r with Ok _ => Ok 0 | _ => to_code r end)
      | _, _ => (p, Ok 8)
      end
  | SEncFinal ct tag => (* L347-365 *)
      match enc_at p, c_enc (ctx p) with
      | Some x, Some s =>
          let '(s', x', m, r) := tstep (TEncFinal ct tag) s x (heap p) in
          match r with
          | Ok _ => (put_enc p None None (tdelete x' m), Ok 0)
          | _ => (put_enc p (Some s') (Some x') m, to_code r)
          end
      | _, _ => (p, Ok 8)
      end
  | SDecInit id iv tag => (* L367-407 *)
      let m0 := safe_delete (dec_at p) (heap p) in
      let '(st, v) := get_secret_key (c_store (ctx p)) id in
      let p1 := {| ctx := {| c_store := st; c_enc := c_enc (ctx p); c_dec := None |}; enc_at := enc_at p; dec_at := None; heap := m0 |} in
      match v with
      | None => (p1, Ok 6)
      | Some k =>
          let '(x0, m1) := tmake m0 in
          let '(s, x, m, r) := tstep (TDecInit iv tag) (new_stream (sk_data k)) x0 m1 in
          match r with
          | Ok _ => let '(s', x', m', r') := attach s x m in (put_dec p1 (Some s') (Some x') m', to_code r')
          | _ => (put_dec p1 (Some s) (Some x) m, r)
          end
      end
  | SDecUpdate b out => (* L409-425 *)
      match dec_at p, c_dec (ctx p) with
      | Some x, Some s =>
          let '(s', x', m, r) := tstep (TDecUpdate b out) s x (heap p) in
          (put_dec p (Some s') (Some x') m, match r with Ok _ => Ok 0 | _ => to_code r end)
      | _, _ => (p, Ok 8)
      end
  | SDecFinal => (* L427-444 *)
      match dec_at p, c_dec (ctx p) with
      | Some x, Some s =>
          let '(s', x', m, r) := tstep TDecFinal s x (heap p) in
          match r with
          | Ok _ => (put_dec p None None (tdelete x' m), Ok 0)
          | _ => (put_dec p (Some s') (Some x') m, to_code r)
          end
      | _, _ => (p, Ok 8)
      end
  | _ => (* L194-284: keys *)
      let '(c, _, r) := sexec G (ctx p) o in ({| ctx := c; enc_at := enc_at p; dec_at := dec_at p; heap := heap p |}, r)
  end.
(** Calls until one has undefined behaviour, with their results. *)
Fixpoint ssteps (l : list sop) (p : sprog) : sprog * list (res Z) * bool :=
  match l with
  | [] => (p, [], true)
  | o :: l' => let '(p1, r) := sstep p o in
               if goes_on r then let '(p2, rs, b) := ssteps l' p1 in (p2, r :: rs, b) else (p1, [r], false)
  end.
(** L189-192 the destructor. *)
Definition sdestroy (p : sprog) : tmem := safe_delete (dec_at p) (safe_delete (enc_at p) (heap p)).
End StreamMem.
