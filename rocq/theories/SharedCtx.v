(** Model of one context used by several threads at once (src/abe/zcontextabe.cpp,
    schemes/zcontextcpwaters.cpp, schemes/zcontextkpgpsw.cpp, src/abe/zkeystore.cpp,
    src/abe/zcontainer.cpp).  Neither the contexts nor the key store take a lock.
    Each call is given as the sequence of its accesses to what the threads share,
    the two maps of the key store and the objects in it, with the calculations in
    between; SharedProofs.v proves that run alone these programs are the
    functions of Scheme.v.
    - One access is one step: a lookup in a map (operator[] writes the map only
      if the entry is missing), an assignment, an erasure, or a traversal of the
      components of a key.
    - The ciphertext, the symmetric key and the buffers belong to the caller.
      Each thread has its own random choices (RELIC keeps a context per thread,
      Library.v); m_Pairing_ is only read (zpairing.h L95-96 holds the group and
      its order) and exists before the threads start.
    - A shared_ptr is named by its map and identifier as in Scheme.v; the counts
      of shared_ptr are atomic and not modelled. *)
From Verif Require Import Base StrMap ByteString UInteger Field Policy Driver Parser AttrList Utils Kdf Lsss Container Keystore Scheme SchemeSpec FreshSpec.
From Coq Require Import ZArith List Ascii Bool.
Import ListNotations.
Open Scope Z_scope.

Section Programs.
Context (K : curve).
(** What belongs to the thread: how many random choices it made, the ciphertext
    and the symmetric key of the call. *)
Record own := { o_off : nat; o_ct : ciphertext K; o_sym : str }.
(** The accesses.  getPublicKey / getSecretKey (zkeystore.cpp L161-191; getKey
    L120-136 is one or both), getComponent on a key (zcontainer.cpp L97-106), addKey
    (L99-110), the erasures of deleteKey (L227-247), checkSecretKey (L145-150) and the
    traversal of exportToBytes (zkey.cpp). *)
Inductive access :=
| Public (id : str) | Secret (id : str) | Component (c : key_class) (id name : str)
| Assign (id : str) (k : key K) (c : key_class) | Erase (id : str) | Count (id : str) | Whole (c : key_class) (id : str).
Inductive reply := RKey (k : option (key K)) | RPart (r : res (zobj K)) | RFlag (b : bool) | RCode (e : Z) | RNone.

(** The object behind the pointer stored under [id] changes; the map does not. *)
Fixpoint change_at (id : str) (v : key K) (m : smap (option (key K))) : smap (option (key K)) :=
  match m with
  | [] => []
  | (id', v') :: m' => if str_eqb id id' then (id', Some v) :: m' else (id', v') :: change_at id v m'
  end.
(** What an access does to the store and what it returns. *)
Definition perform (a : access) (s : store (key K)) : store (key K) * reply :=
  match a with
  | Public id => let '(s', v) := get_public_key s id in (s', RKey v)
  | Secret id => let '(s', v) := get_secret_key s id in (s', RKey v)
  | Component c id name =>
      match mget id (match c with KEY_PUBLIC => pub_keys s | KEY_SECRET => sec_keys s end) with
      | Some (Some k) =>
          let '(p, r) := get_component (k_parts k) name in
          let k' := {| k_version := k_version k; k_alg := k_alg k; k_uid := k_uid k; k_id := k_id k; k_type := k_type k; k_parts := p |} in
          (match c with
           | KEY_PUBLIC => {| pub_keys := change_at id k' (pub_keys s); sec_keys := sec_keys s |}
           | KEY_SECRET => {| pub_keys := pub_keys s; sec_keys := change_at id k' (sec_keys s) |}
           end, RPart r)
      | _ => (s, RPart UB)
      end
  | Assign id k c => (add_key s id (Some k) c, RNone)
  | Erase id =>
      let in_pub := mmem id (pub_keys s) in
      let in_sec := mmem id (sec_keys s) in
      ({| pub_keys := if in_pub then mdel id (pub_keys s) else pub_keys s;
          sec_keys := if in_sec then mdel id (sec_keys s) else sec_keys s |},
       RCode (if negb in_pub && negb in_sec then 6 else 0))
  | Count id => (s, RFlag (check_secret_key s id))
  | Whole c id => (s, RKey (match mget id (match c with KEY_PUBLIC => pub_keys s | KEY_SECRET => sec_keys s end) with Some v => v | None => None end))
  end.

(** What the threads share, and which of it an access touches: [true] if it
    writes.  A lookup writes when it has to insert. *)
Inductive place := Map (c : key_class) | Object (c : key_class) (id : str).
Definition class_of (c : key_class) (s : store (key K)) : smap (option (key K)) :=
  match c with KEY_PUBLIC => pub_keys s | KEY_SECRET => sec_keys s end.
Definition touched (a : access) (s : store (key K)) : list (place * bool) :=
  match a with
  | Public id => [(Map KEY_PUBLIC, negb (mmem id (pub_keys s)))]
  | Secret id => [(Map KEY_SECRET, negb (mmem id (sec_keys s)))]
  | Component c id name =>
      match mget id (class_of c s) with
      | Some (Some k) => [(Object c id, negb (mmem name (k_parts k)))]
      | _ => []
      end
  | Assign id k c => [(Map c, true)]
  | Erase id => [(Map KEY_PUBLIC, mmem id (pub_keys s)); (Map KEY_SECRET, mmem id (sec_keys s))]
  | Count id => [(Map KEY_SECRET, false)]
  | Whole c id => [(Object c id, false)]
  end.

(** A call in progress: ended; about to calculate with what is its own ([next] sees
    it as it was before); or about to make an access. *)
Inductive prog (A : Type) : Type :=
| Ended (r : res A)
| Inside (change : own -> own) (next : own -> prog A)
| Outside (a : access) (next : reply -> prog A).
Arguments Ended {A}. Arguments Inside {A}. Arguments Outside {A}.
Fixpoint after {A B} (p : prog A) (f : A -> prog B) : prog B :=
  match p with
  | Ended (Ok a) => f a
  | Ended (Throw e) => Ended (Throw e) | Ended UB => Ended UB | Ended Exit => Ended Exit | Ended NoFuel => Ended NoFuel
  | Inside g k => Inside g (fun o => after (k o) f)
  | Outside a k => Outside a (fun r => after (k r) f)
  end.
(** Whatever way the program ends, its outcome is handed on. *)
Fixpoint outcome {A B} (p : prog A) (f : res A -> prog B) : prog B :=
  match p with
  | Ended r => f r
  | Inside g k => Inside g (fun o => outcome (k o) f)
  | Outside a k => Outside a (fun r => outcome (k r) f)
  end.
(** try { ... } catch (OpenABE_ERROR &err). *)
Definition caught (p : prog Z) : prog Z := outcome p (fun r => match r with Throw (OpenABEError e) => Ended (Ok e) | r => Ended r end).
Definition pret {A} (a : A) : prog A := Ended (Ok a).
Definition plift {A} (r : res A) : prog A := Ended r.
Definition pthrow {A} (e : Z) : prog A := Ended (Throw (OpenABEError e)).
Definition pderef {A} (o : option A) : prog A := match o with Some a => pret a | None => Ended UB end.
Definition pnotnull {A} (o : option A) : prog A := match o with Some a => pret a | None => pthrow 8 end.

(** The accesses as programs. *)
Definition ppublic (id : str) : prog (option (key K)) := Outside (Public id) (fun r => match r with RKey v => pret v | _ => Ended UB end).
Definition psecret (id : str) : prog (option (key K)) := Outside (Secret id) (fun r => match r with RKey v => pret v | _ => Ended UB end).
Definition pput (id : str) (k : key K) (c : key_class) : prog unit := Outside (Assign id k c) (fun _ => pret tt).
Definition pcomponent (c : key_class) (id name : str) : prog (zobj K) := Outside (Component c id name) (fun r => match r with RPart r => Ended r | _ => Ended UB end).
(** What touches only the caller's things. *)
Definition keep_own (o : own) : own := o.
Definition with_off (o : own) (n : nat) : own := {| o_off := n; o_ct := o_ct o; o_sym := o_sym o |}.
Definition with_ct (o : own) (c : ciphertext K) : own := {| o_off := o_off o; o_ct := c; o_sym := o_sym o |}.
Definition with_sym (o : own) (k : str) : own := {| o_off := o_off o; o_ct := o_ct o; o_sym := k |}.
Definition pset (name : str) (x : zobj K) : prog unit := Inside (fun o => with_ct o (ct_set_component (o_ct o) name x)) (fun _ => pret tt).
Definition pct_component (name : str) : prog (zobj K) :=
  Inside (fun o => with_ct o (with_parts (o_ct o) (fst (get_component (ct_parts (o_ct o)) name))))
    (fun o => Ended (snd (get_component (ct_parts (o_ct o)) name))).
Definition pscheme (alg : Z) : prog unit :=
  Inside (fun o => with_ct o {| ct_version := ct_version (o_ct o); ct_alg := alg; ct_uid := ct_uid (o_ct o); ct_parts := ct_parts (o_ct o) |}) (fun _ => pret tt).
Definition pfresh_sym : prog unit := Inside (fun o => with_sym o []) (fun _ => pret tt).
Definition psym_bytes : prog str := Inside keep_own (fun o => pret (o_sym o)).
End Programs.
Arguments Ended {K A}. Arguments Inside {K A}. Arguments Outside {K A}. Arguments after {K A B}. Arguments outcome {K A B}. Arguments caught {K}.
Arguments pret {K A}. Arguments plift {K A}. Arguments pthrow {K A}. Arguments pderef {K A}. Arguments pnotnull {K A}.
Arguments ppublic {K}. Arguments psecret {K}. Arguments pput {K}. Arguments pcomponent {K}. Arguments pset {K}. Arguments pct_component {K}.
Arguments pscheme {K}. Arguments pfresh_sym {K}. Arguments psym_bytes {K}. Arguments perform {K}. Arguments touched {K}. Arguments with_off {K}. Arguments with_ct {K}. Arguments with_sym {K}.
Arguments o_off {K}. Arguments o_ct {K}. Arguments o_sym {K}. Arguments Public {K}. Arguments Secret {K}. Arguments Component {K}.
Arguments Assign {K}. Arguments Erase {K}. Arguments Count {K}. Arguments Whole {K}. Arguments keep_own {K}. Arguments class_of {K}.
Arguments RKey {K}. Arguments RPart {K}. Arguments RFlag {K}. Arguments RCode {K}. Arguments RNone {K}.
Declare Scope prog_scope.
Notation "'let?' x := m 'in' k" := (after m (fun x => k)) (at level 200, x pattern, m at level 100, k at level 200) : prog_scope.
Open Scope prog_scope.

Section Requests.
Context (K : curve).
(** What a thread asks for; a ciphertext is the caller's object. *)
Inductive request :=
| AskParams (mpk_id msk_id : str) | AskKey (inp : input) (key_id mpk_id msk_id : str)
| AskEncrypt (mpk_id : str) (inp : input) (plaintext : str) (ct : ciphertext K) | AskDecrypt (mpk_id key_id : str) (ct : ciphertext K)
| AskExport (key_id : str) | AskLoad (id blob : str) (c : key_class) | AskDelete (key_id : str) | AskHas (key_id : str).
(** What it gets: the code, the bytes, the ciphertext as the call left it. *)
Record answer := { an_code : res Z; an_bytes : str; an_ct : option (ciphertext K) }.
Definition code_only (r : res Z) : answer := {| an_code := r; an_bytes := []; an_ct := None |}.
Definition code_and_bytes (r : res (Z * str)) : answer :=
  match r with
  | Ok (e, b) => {| an_code := Ok e; an_bytes := b; an_ct := None |}
  | Throw e => code_only (Throw e) | UB => code_only UB | Exit => code_only Exit | NoFuel => code_only NoFuel
  end.
Definition code_and_ct (r : res Z) (c : ciphertext K) : answer := {| an_code := r; an_bytes := []; an_ct := Some c |}.
Definition flag_code (r : res bool) : res Z := match r with Ok b => Ok (if b then 1 else 0) | Throw e => Throw e | UB => UB | Exit => Exit | NoFuel => NoFuel end.
End Requests.
Arguments AskParams {K}. Arguments AskKey {K}. Arguments AskEncrypt {K}. Arguments AskDecrypt {K}. Arguments AskExport {K}. Arguments AskLoad {K}. Arguments AskDelete {K}. Arguments AskHas {K}.
Arguments an_code {K}. Arguments an_bytes {K}. Arguments an_ct {K}. Arguments code_only {K}. Arguments code_and_bytes {K}. Arguments code_and_ct {K}.

Section Calls.
Context (E : engine).
Notation K := (e_curve E).
Notation prog := (prog K).
(** Randomness, from the thread's own choices. *)
Definition ptick {A} (f : nat -> A) : prog A := Inside (fun o => with_off o (S (o_off o))) (fun o => pret (f (o_off o))).
Definition prandom_zp : prog zp := ptick (fun i => {| zv := e_zp E i mod order K; zord := Some (order K) |}).
Definition prandom_g1 : prog (g1 K) := ptick (e_g1 E).
Definition prandom_g2 : prog (g2 K) := ptick (e_g2 E).
Definition prandom_bytes (n : Z) : prog str := ptick (fun i => e_bytes E i n).
Definition pmake_key (alg : Z) (id : str) : prog (key K) := let? uid := prandom_bytes 16 in pret (new_key K alg id None uid).
Definition pkey_part {A} (cast : zobj K -> option A) (c : key_class) (id name : str) : prog (option A) := let? o := pcomponent c id name in pret (cast o).
Definition pct_part {A} (cast : zobj K -> option A) (name : str) : prog (option A) := let? o := pct_component name in pret (cast o).
(** zlsss.cpp L96-109: the shares are drawn by the calling thread. *)
Definition pshare (q : policy) (s : Z) : prog rowmap :=
  Inside (fun o => match share_secret false (order K) lsss_new q s (e_zp E) (o_off o) with Ok (_, off) => with_off o off | _ => o end)
    (fun o => match share_secret false (order K) lsss_new q s (e_zp E) (o_off o) with
              | Ok (l, _) => pret (l_rows l) | Throw e => Ended (Throw e) | UB => Ended UB | Exit => Ended Exit | NoFuel => Ended NoFuel end).
Definition phash_to_sym (x : gt K) (key_len : Z) : prog unit :=
  let h := e_hash E (obj_serialize [] (OGt x)) in
  let? key := plift (compute_kdf2 (e_kdf E) h key_len) in
  if negb (len key =? 16) && negb (len key =? 32) then pthrow 24
  else Inside (fun o => with_sym o key) (fun _ => pret tt).
(** zkeystore.cpp L120-136 getKey and L259-262 validateNewParamsID. *)
Definition pget_key (id : str) : prog (option (key K * key_class)) :=
  let? v := ppublic id in
  match v with
  | Some k => pret (Some (k, KEY_PUBLIC))
  | None => let? v := psecret id in pret (match v with Some k => Some (k, KEY_SECRET) | None => None end)
  end.
Definition pis_new (id : str) : prog bool := let? v := pget_key id in pret (match v with None => true | Some _ => false end).

(** schemes/zcontextcpwaters.cpp L77-133. *)
Definition pboth_new (mpk_id msk_id : str) : prog bool := let? a := pis_new mpk_id in if a then pis_new msk_id else pret false.
Definition pcp_generate_params (mpk_id msk_id : str) : prog Z := caught (
  let? ok := pboth_new mpk_id msk_id in
  if negb ok then pthrow 17 else
  let? mpk := pmake_key CP_WATERS mpk_id in
  let? msk := pmake_key CP_WATERS msk_id in
  let? x1 := prandom_g1 in
  let? x2 := prandom_g2 in
  let? alpha := prandom_zp in
  let? a := prandom_zp in
  let? k := prandom_bytes 32 in
  let g1a := mul1 E (zv a) x1 in
  let g2a := mul2 E (zv a) x2 in
  let A := expT E (zv alpha) (pair E x1 x2) in
  let mpk1 := key_set_component (key_set_component (key_set_component (key_set_component (key_set_component mpk
     (L "g1") (OG1 x1)) (L "g2") (OG2 x2)) (L "g1a") (OG1 g1a)) (L "A") (OGt A)) (L "k") (OBytes k) in
  let msk1 := key_set_component (key_set_component msk (L "alpha") (OZp alpha)) (L "g2a") (OG2 g2a) in
  let? _ := pput mpk_id mpk1 KEY_PUBLIC in
  let? _ := pput msk_id msk1 KEY_SECRET in
  pret 0).
(** L192-198 and L147-209. *)
Fixpoint pcp_key_loop (k : option str) (t : zp) (attrs : list str) (dec : key K) : prog (key K) :=
  match attrs with
  | [] => pret dec
  | a :: rest =>
      let? prefix := pderef k in
      pcp_key_loop k t rest (key_set_component dec (element_label (L "KX") (short_label E a)) (OG1 (mul1 E (zv t) (hash_to_g1 E prefix a))))
  end.
Definition pcp_keygen (inp : input) (key_id mpk_id msk_id : str) : prog Z := caught (
  match inp with
  | InAttrs l =>
      let? mpk := ppublic mpk_id in
      let? msk := psecret msk_id in
      match mpk, msk with
      | Some _, Some _ =>
          let? k := pkey_part (as_bytes E) KEY_PUBLIC mpk_id (L "k") in
          let? dec := pmake_key CP_WATERS key_id in
          let dec1 := key_set_component dec (L "input") (OAttrs l) in
          let? t := prandom_zp in
          let? alpha0 := pkey_part (as_zp E) KEY_SECRET msk_id (L "alpha") in
          let? alpha := pderef alpha0 in
          let? p2 := pkey_part (as_g2 E) KEY_PUBLIC mpk_id (L "g2") in
          let? x2 := pderef p2 in
          let? pa := pkey_part (as_g2 E) KEY_SECRET msk_id (L "g2a") in
          let? g2a := pderef pa in
          let dec2 := key_set_component dec1 (L "K") (OG2 (add2 E (mul2 E (zv alpha) x2) (mul2 E (zv t) g2a))) in
          let? q2 := pkey_part (as_g2 E) KEY_PUBLIC mpk_id (L "g2") in
          let? y2 := pderef q2 in
          let dec3 := key_set_component dec2 (L "L") (OG2 (mul2 E (zv t) y2)) in
          let? dec4 := pcp_key_loop k t (aattrs l) dec3 in
          let? _ := pput key_id dec4 KEY_SECRET in
          pret 0
      | _, _ => pthrow 5
      end
  | _ => pthrow 8
  end).
(** L266-278 and L220-290. *)
Fixpoint pcp_enc_loop (mpk_id : str) (k : option str) (rows : rowmap) : prog unit :=
  match rows with
  | [] => pret tt
  | (u, (lab, e)) :: rest =>
      let? ri := prandom_zp in
      let? p2 := pkey_part (as_g2 E) KEY_PUBLIC mpk_id (L "g2") in
      let? x2 := pderef p2 in
      let? _ := pset (element_label (L "D") (short_label E u)) (OG2 (mul2 E (zv ri) x2)) in
      let? prefix := pderef k in
      let h := hash_to_g1 E prefix lab in
      let? pa := pkey_part (as_g1 E) KEY_PUBLIC mpk_id (L "g1a") in
      let? g1a := pderef pa in
      let? neg := plift (zp_neg ri) in
      let? _ := pset (element_label (L "C") (short_label E u)) (OG1 (add1 E (mul1 E e g1a) (mul1 E (zv neg) h))) in
      pcp_enc_loop mpk_id k rest
  end.
Definition pcp_encrypt_kem (mpk_id : str) (inp : input) (key_len : Z) : prog Z := caught (
  match inp with
  | InPolicy q =>
      let? mpk := ppublic mpk_id in
      match mpk with
      | None => pthrow 5
      | Some _ =>
          let? k := pkey_part (as_bytes E) KEY_PUBLIC mpk_id (L "k") in
          let? s := prandom_zp in
          let? pA := pkey_part (as_gt E) KEY_PUBLIC mpk_id (L "A") in
          let? A := pderef pA in
          let C := expT E (zv s) A in
          let? rows := pshare q (zv s) in
          let? _ := pset (L "policy") (OBytes (ptext q)) in
          let? p1 := pkey_part (as_g1 E) KEY_PUBLIC mpk_id (L "g1") in
          let? x1 := pderef p1 in
          let? _ := pset (L "Cprime") (OG1 (mul1 E (zv s) x1)) in
          let? _ := pcp_enc_loop mpk_id k rows in
          let? _ := phash_to_sym C key_len in
          let? _ := pscheme CP_WATERS in
          pret 0
      end
  | _ => pthrow 8
  end).
(** L345-357 and L303-377. *)
Fixpoint pcp_dec_loop (key_id : str) (rows : rowmap) (prod1 : g1 K) (g1s : list (g1 K)) (g2s : list (g2 K)) : prog (g1 K * list (g1 K) * list (g2 K)) :=
  match rows with
  | [] => pret (prod1, g1s, g2s)
  | (u, (lab, c)) :: rest =>
      let? kx0 := pkey_part (as_g1 E) KEY_SECRET key_id (element_label (L "KX") (short_label E lab)) in
      let? cx0 := pct_part (as_g1 E) (element_label (L "C") (short_label E u)) in
      let? cx := pnotnull cx0 in
      let? dx0 := pct_part (as_g2 E) (element_label (L "D") (short_label E u)) in
      let? dx := pnotnull dx0 in
      let? kx := pderef kx0 in
      pcp_dec_loop key_id rest (add1 E prod1 (mul1 E c cx)) (g1s ++ [mul1 E c kx]) (g2s ++ [dx])
  end.
Definition pcp_decrypt_kem (mpk_id key_id : str) (key_len : Z) : prog Z := caught (
  let? dec := psecret key_id in
  let? _ := pnotnull dec in
  let? l := pkey_part (as_attrs E) KEY_SECRET key_id (L "input") in
  let? pol0 := pct_part (as_bytes E) (L "policy") in
  let? pol := pnotnull pol0 in
  let? q := plift (create_policy_tree (e_mktime E) pol) in
  let? out := plift (recover E q l) in
  let '(ok, rows) := out in
  if negb ok then pthrow 32 else
  let? prods := pcp_dec_loop key_id rows (zero1 E) [] [] in
  let '(prod1, g1s, g2s) := prods in
  let? prodT := plift (multi_pairing E g1s g2s) in
  let? cprime0 := pct_part (as_g1 E) (L "Cprime") in
  let? k0 := pkey_part (as_g2 E) KEY_SECRET key_id (L "K") in
  let? l0 := pkey_part (as_g2 E) KEY_SECRET key_id (L "L") in
  let? cprime := pnotnull cprime0 in
  let? kk := pnotnull k0 in
  let? ll := pnotnull l0 in
  let? _ := phash_to_sym (divT E (pair E cprime kk) (multT E prodT (pair E prod1 ll))) key_len in
  pret 0).

(** schemes/zcontextkpgpsw.cpp L79-126. *)
Definition pkp_generate_params (mpk_id msk_id : str) : prog Z := caught (
  let? ok := pboth_new mpk_id msk_id in
  if negb ok then pthrow 17 else
  let? mpk := pmake_key KP_GPSW mpk_id in
  let? msk := pmake_key KP_GPSW msk_id in
  let? x1 := prandom_g1 in
  let? x2 := prandom_g2 in
  let? y := prandom_zp in
  let Y := expT E (zv y) (pair E x1 x2) in
  let? k := prandom_bytes 32 in
  let mpk1 := key_set_component (key_set_component (key_set_component (key_set_component mpk
     (L "g1") (OG1 x1)) (L "g2") (OG2 x2)) (L "Y") (OGt Y)) (L "k") (OBytes k) in
  let msk1 := key_set_component msk (L "y") (OZp y) in
  let? _ := pput mpk_id mpk1 KEY_PUBLIC in
  let? _ := pput msk_id msk1 KEY_SECRET in
  pret 0).
(** L181-192 and L140-201. *)
Fixpoint pkp_key_loop (mpk_id : str) (k : option str) (rows : rowmap) (dec : key K) : prog (key K) :=
  match rows with
  | [] => pret dec
  | (u, (lab, e)) :: rest =>
      let? ri := prandom_zp in
      let? p1 := pkey_part (as_g1 E) KEY_PUBLIC mpk_id (L "g1") in
      let? x1 := pderef p1 in
      let? prefix := pderef k in
      let Di := add1 E (mul1 E e x1) (mul1 E (zv ri) (hash_to_g1 E prefix lab)) in
      let? p2 := pkey_part (as_g2 E) KEY_PUBLIC mpk_id (L "g2") in
      let? x2 := pderef p2 in
      pkp_key_loop mpk_id k rest
        (key_set_component (key_set_component dec (element_label (L "D") (short_label E u)) (OG1 Di))
           (element_label (L "d") (short_label E u)) (OG2 (mul2 E (zv ri) x2)))
  end.
Definition pkp_keygen (inp : input) (key_id mpk_id msk_id : str) : prog Z := caught (
  match inp with
  | InPolicy q =>
      let? mpk := ppublic mpk_id in
      let? msk := psecret msk_id in
      match mpk, msk with
      | Some _, Some _ =>
          let? k := pkey_part (as_bytes E) KEY_PUBLIC mpk_id (L "k") in
          let? dec := pmake_key KP_GPSW key_id in
          let dec1 := key_set_component dec (L "input") (OBytes (ptext q)) in
          let? y0 := pkey_part (as_zp E) KEY_SECRET msk_id (L "y") in
          let? y := pderef y0 in
          let? rows := pshare q (zv y) in
          let? dec2 := pkp_key_loop mpk_id k rows dec1 in
          let? _ := pput key_id dec2 KEY_SECRET in
          pret 0
      | _, _ => pthrow 5
      end
  | _ => pthrow 8
  end).
(** L250-256 and L212-271. *)
Fixpoint pkp_enc_loop (k : option str) (t : zp) (attrs : list str) : prog unit :=
  match attrs with
  | [] => pret tt
  | a :: rest =>
      let? prefix := pderef k in
      let? _ := pset (element_label (L "C") (short_label E a)) (OG1 (mul1 E (zv t) (hash_to_g1 E prefix a))) in
      pkp_enc_loop k t rest
  end.
Definition pkp_encrypt_kem (mpk_id : str) (inp : input) (key_len : Z) : prog Z := caught (
  match inp with
  | InAttrs l =>
      let? mpk := ppublic mpk_id in
      match mpk with
      | None => pthrow 5
      | Some _ =>
          let? k := pkey_part (as_bytes E) KEY_PUBLIC mpk_id (L "k") in
          let? t := prandom_zp in
          let? pY := pkey_part (as_gt E) KEY_PUBLIC mpk_id (L "Y") in
          let? Y := pderef pY in
          let C := expT E (zv t) Y in
          let? p2 := pkey_part (as_g2 E) KEY_PUBLIC mpk_id (L "g2") in
          let? x2 := pderef p2 in
          let? _ := pset (L "Cpr2") (OG2 (mul2 E (zv t) x2)) in
          let? _ := pkp_enc_loop k t (aattrs l) in
          let? _ := pset (L "attributes") (OAttrs l) in
          let? _ := phash_to_sym C key_len in
          let? _ := pscheme KP_GPSW in
          pret 0
      end
  | _ => pthrow 8
  end).
(** L326-339 and L284-354. *)
Fixpoint pkp_dec_loop (key_id : str) (rows : rowmap) (prod1 : g1 K) (g1s : list (g1 K)) (g2s : list (g2 K)) : prog (g1 K * list (g1 K) * list (g2 K)) :=
  match rows with
  | [] => pret (prod1, g1s, g2s)
  | (u, (lab, c)) :: rest =>
      let? ci0 := pct_part (as_g1 E) (element_label (L "C") (short_label E lab)) in
      let? ddi0 := pkey_part (as_g2 E) KEY_SECRET key_id (element_label (L "d") (short_label E u)) in
      let? di0 := pkey_part (as_g1 E) KEY_SECRET key_id (element_label (L "D") (short_label E u)) in
      let? di := pderef di0 in
      let? ci := pderef ci0 in
      let? ddi := pderef ddi0 in
      pkp_dec_loop key_id rest (add1 E prod1 (mul1 E c di)) (g1s ++ [mul1 E c ci]) (g2s ++ [ddi])
  end.
Definition pkp_decrypt_kem (mpk_id key_id : str) (key_len : Z) : prog Z := caught (
  let? dec := psecret key_id in
  let? _ := pnotnull dec in
  let? pol0 := pkey_part (as_bytes E) KEY_SECRET key_id (L "input") in
  let? pol := pnotnull pol0 in
  let? q := plift (create_policy_tree (e_mktime E) pol) in
  let? l := pct_part (as_attrs E) (L "attributes") in
  let? out := plift (recover E q l) in
  let '(ok, rows) := out in
  if negb ok then pthrow 32 else
  let? prods := pkp_dec_loop key_id rows (zero1 E) [] [] in
  let '(prod1, g1s, g2s) := prods in
  let? prodT := plift (multi_pairing E g1s g2s) in
  let? cpr0 := pct_part (as_g2 E) (L "Cpr2") in
  let? cpr := pnotnull cpr0 in
  let? _ := phash_to_sym (divT E (pair E prod1 cpr) prodT) key_len in
  pret 0).

(** src/abe/zcontextabe.cpp L309-338 and L351-385. *)
Definition pencrypt_kem (s : scheme) := match s with CP => pcp_encrypt_kem | KP => pkp_encrypt_kem end.
Definition pdecrypt_kem (s : scheme) := match s with CP => pcp_decrypt_kem | KP => pkp_decrypt_kem end.
Definition pencrypt (s : scheme) (mpk_id : str) (inp : input) (plaintext : str) : prog Z := caught (
  let? _ := pfresh_sym in
  let? result := pencrypt_kem s mpk_id inp 32 in
  if negb (result =? 0) then pthrow result else
  let? key := psym_bytes in
  let? m := plift (mask E key (len plaintext)) in
  let? ct := plift (xor_assign plaintext m) in
  let? _ := pset (L "_ED") (OBytes ct) in
  pret 0).
Definition pdecrypt (s : scheme) (mpk_id key_id : str) : prog (Z * str) := outcome (
  let? _ := pfresh_sym in
  let? result := pdecrypt_kem s mpk_id key_id 32 in
  if negb (result =? 0) then pthrow result else
  let? enc0 := pct_part (as_bytes E) (L "_ED") in
  let? enc := pnotnull enc0 in
  let? key := psym_bytes in
  let? m := plift (mask E key (len enc)) in
  plift (xor_assign enc m))
  (fun r => match r with Ok p => pret (0, p) | Throw (OpenABEError e) => pret (e, []) | Throw e => Ended (Throw e) | UB => Ended UB | Exit => Ended Exit | NoFuel => Ended NoFuel end).
(** L159-181 exportKey: the key is found, then written out. *)
Definition pexport_key (key_id out : str) : prog (Z * str) :=
  let? v := pget_key key_id in
  match v with
  | None => pret (8, out)
  | Some (_, c) => Outside (Whole c key_id) (fun r => match r with RKey (Some k) => plift (bind (key_export k) (fun b => Ok (0, b))) | _ => Ended UB end)
  end.
(** L192-218 loadKey, L270-277 deleteKey and checkSecretKey. *)
Definition pload_key (s : scheme) (id blob : str) (c : key_class) : prog Z :=
  let? uid := prandom_bytes 16 in
  let? kb := plift (parse_key_header K blob [] uid) in
  let '(k, body) := kb in
  if negb (k_alg k =? alg_of s) then pret 30 else
  let '(k', r) := key_load K (e_mktime E) k body in
  let? _ := plift r in
  let? _ := pput id k' c in
  pret 0.
Definition pdrop_key (key_id : str) : prog Z :=
  let? v := pget_key key_id in
  match v with None => pret 0 | Some _ => Outside (Erase key_id) (fun r => match r with RCode e => pret e | _ => Ended UB end) end.
Definition phas_secret_key (key_id : str) : prog bool := Outside (Count key_id) (fun r => match r with RFlag b => pret b | _ => Ended UB end).

(** One call. *)
Definition prequest (s : scheme) (q : request K) : prog (answer K) :=
  match q with
  | AskParams mpk msk => outcome (match s with CP => pcp_generate_params | KP => pkp_generate_params end mpk msk) (fun r => pret (code_only r))
  | AskKey inp id mpk msk => outcome (match s with CP => pcp_keygen | KP => pkp_keygen end inp id mpk msk) (fun r => pret (code_only r))
  | AskEncrypt mpk inp pt ct => Inside (fun o => with_ct o ct) (fun _ =>
      outcome (pencrypt s mpk inp pt) (fun r => Inside keep_own (fun o => pret (code_and_ct r (o_ct o)))))
  | AskDecrypt mpk id ct => Inside (fun o => with_ct o ct) (fun _ => outcome (pdecrypt s mpk id) (fun r => pret (code_and_bytes r)))
  | AskExport id => outcome (pexport_key id []) (fun r => pret (code_and_bytes r))
  | AskLoad id blob c => outcome (pload_key s id blob c) (fun r => pret (code_only r))
  | AskDelete id => outcome (pdrop_key id) (fun r => pret (code_only r))
  | AskHas id => outcome (phas_secret_key id) (fun r => pret (code_only (flag_code r)))
  end.
(** A thread makes its calls one after the other. *)
Fixpoint prequests (s : scheme) (l : list (request K)) : prog (list (answer K)) :=
  match l with
  | [] => pret []
  | q :: l' => let? a := prequest s q in let? r := prequests s l' in pret (a :: r)
  end.
End Calls.

(** ** Threads *)
Section Machine.
Context {K : curve} {R : Type}.
(** The shared store and, for each thread, what is its own and what it has left to do. *)
Record machine := { m_store : store (key K); m_threads : list (own K * prog K R) }.
Fixpoint replace_at {T} (i : nat) (x : T) (l : list T) : list T :=
  match l, i with [], _ => [] | _ :: l', O => x :: l' | y :: l', S i' => y :: replace_at i' x l' end.
(** Thread [i] takes a step. *)
Definition move (m : machine) (i : nat) : machine :=
  match nth_error (m_threads m) i with
  | Some (o, Inside g k) => {| m_store := m_store m; m_threads := replace_at i (g o, k o) (m_threads m) |}
  | Some (o, Outside a k) => let '(s, r) := perform a (m_store m) in {| m_store := s; m_threads := replace_at i (o, k r) (m_threads m) |}
  | _ => m
  end.
(** A schedule says whose turn it is. *)
Definition play (m : machine) (schedule : list nat) : machine := fold_left move schedule m.
End Machine.
Arguments machine : clear implicits.
