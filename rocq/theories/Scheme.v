(** Model of the attribute-based encryption contexts: schemes/zcontextcpwaters.cpp
    (Waters '11 CP-ABE), schemes/zcontextkpgpsw.cpp (GPSW '06 KP-ABE), the scheme
    context OpenABEContextSchemeCPA of src/abe/zcontextabe.cpp and the parts of
    src/abe/zpairing.cpp they use.  Only definitions; proofs are in
    SchemeStep.v, SchemeCp.v, SchemeKp.v, SchemeFrame.v, SchemeUse.v, SchemeSession.v.

    Simplifications:
    - The pairing library is a record of operations ([engine]); exponents are the
      numbers held by ZP objects.  Every element of the type is a group member
      (RELIC functions on points outside the subgroup are not described).
    - The key store holds key objects by value: a shared_ptr obtained from the
      store is named by its map and identifier, and what a getter changes in the
      object (the null entry operator[] inserts) is written back there.
      generateParams, generateDecryptionKey and loadKey always store new objects,
      so no object is reachable under two names.
    - m_Pairing_ is created by generateParams and loadKey, the only ways to get a
      key into the store, so it exists whenever it is dereferenced.
    - Operands of + and of * are evaluated from left to right.
    - All random choices are taken from one sequence; the i-th request gets
      [e_zp i] mod order, [e_g1 i], [e_g2 i] or [e_bytes i n].
    - Asserts are active (no NDEBUG); C26-C33 and C64 say what happens without. *)
From Verif Require Import Base StrMap ByteString UInteger Field Policy Driver Parser AttrList Utils Kdf Lsss Container Keystore.
From Coq Require Import ZArith List Ascii Bool.
Import ListNotations.
Open Scope Z_scope.
Open Scope res_scope.

(** What the schemes use of RELIC and of the standard library.  g1_add, g1_mul,
    g1_set_infty, ..., gt_mul, gt_inv, gt_exp, gt_set_unity, pc_map, g1_map of a
    digest; md_map; md_kdf; std::sort (see Lsss.v); mktime; randomness. *)
Record engine := {
  e_curve : curve;
  add1 : g1 e_curve -> g1 e_curve -> g1 e_curve; mul1 : Z -> g1 e_curve -> g1 e_curve; zero1 : g1 e_curve;
  add2 : g2 e_curve -> g2 e_curve -> g2 e_curve; mul2 : Z -> g2 e_curve -> g2 e_curve;
  multT : gt e_curve -> gt e_curve -> gt e_curve; invT : gt e_curve -> gt e_curve; expT : Z -> gt e_curve -> gt e_curve; oneT : gt e_curve;
  pair : g1 e_curve -> g2 e_curve -> gt e_curve;
  map1 : str -> g1 e_curve;
  e_hash : str -> str; e_kdf : Z -> str -> str;
  e_sort : list (nat * Z) -> list (nat * Z);
  e_mktime : tm -> Z * tm;
  e_zp : nat -> Z; e_g1 : nat -> g1 e_curve; e_g2 : nat -> g2 e_curve; e_bytes : nat -> Z -> str
}.

Section Scheme.
Context (E : engine).
Notation K := (e_curve E).

(** The state a call works on: the key store of the context, how many random
    choices were made, the ciphertext passed by reference and the symmetric key. *)
Record world := { w_store : store (key K); w_off : nat; w_ct : ciphertext K; w_sym : str }.
Definition set_store (w : world) (s : store (key K)) : world := {| w_store := s; w_off := w_off w; w_ct := w_ct w; w_sym := w_sym w |}.
Definition set_off (w : world) (n : nat) : world := {| w_store := w_store w; w_off := n; w_ct := w_ct w; w_sym := w_sym w |}.
Definition set_ct (w : world) (c : ciphertext K) : world := {| w_store := w_store w; w_off := w_off w; w_ct := c; w_sym := w_sym w |}.
Definition set_sym (w : world) (k : str) : world := {| w_store := w_store w; w_off := w_off w; w_ct := w_ct w; w_sym := k |}.

(** A piece of code: what it leaves of the state, and its outcome. *)
Definition code (A : Type) := world -> world * res A.
Definition ret {A} (a : A) : code A := fun w => (w, Ok a).
Definition lift {A} (r : res A) : code A := fun w => (w, r).
Definition throw {A} (e : Z) : code A := fun w => (w, Throw (OpenABEError e)).
Definition undefined {A} : code A := fun w => (w, UB).
Definition andthen {A B} (m : code A) (f : A -> code B) : code B := fun w =>
  match m w with
  | (w', Ok a) => f a w'
  | (w', Throw e) => (w', Throw e) | (w', UB) => (w', UB) | (w', Exit) => (w', Exit) | (w', NoFuel) => (w', NoFuel)
  end.
Notation "'let!' x := m 'in' k" := (andthen m (fun x => k)) (at level 200, x pattern, m at level 100, k at level 200).
(** try { ... } catch (OpenABE_ERROR &err) { result = err; }: other exceptions pass. *)
Definition catch_code (m : code Z) : code Z := fun w =>
  match m w with (w', Throw (OpenABEError e)) => (w', Ok e) | r => r end.
(** Dereferencing a pointer that may be null. *)
Definition deref {A} (o : option A) : code A := match o with Some a => ret a | None => undefined end.
(** zconstants.h L99 ASSERT_NOTNULL: OpenABE_ERROR_INVALID_INPUT = 8. *)
Definition assert_notnull {A} (o : option A) : code A := match o with Some a => ret a | None => throw 8 end.

(** Key store access. *)
Definition public_key (id : str) : code (option (key K)) := fun w =>
  let '(s, v) := get_public_key (w_store w) id in (set_store w s, Ok v).
Definition secret_key (id : str) : code (option (key K)) := fun w =>
  let '(s, v) := get_secret_key (w_store w) id in (set_store w s, Ok v).
Definition is_new_id (id : str) : code bool := fun w =>
  let '(s, b) := validate_new_params_id (w_store w) id in (set_store w s, Ok b).
Definition put_key (id : str) (k : key K) (c : key_class) : code unit := fun w =>
  (set_store w (add_key (w_store w) id (Some k) c), Ok tt).

(** Randomness: zpairing.cpp L137-171 randomZP, randomG1, randomG2; getRandomBytes. *)
Definition tick {A} (f : nat -> A) : code A := fun w => (set_off w (S (w_off w)), Ok (f (w_off w))).
Definition random_zp : code zp := tick (fun i => {| zv := e_zp E i mod order K; zord := Some (order K) |}).
Definition random_g1 : code (g1 K) := tick (e_g1 E).
Definition random_g2 : code (g2 K) := tick (e_g2 E).
Definition random_bytes (n : Z) : code str := tick (fun i => e_bytes E i n).

(** zkey.cpp L69-90: new OpenABEKey(algID, id). *)
Definition make_key (alg : Z) (id : str) : code (key K) :=
  let! uid := random_bytes 16 in ret (new_key K alg id None uid).

(** getComponent (zcontainer.cpp L97-106) on a key of the store and on the
    ciphertext.  The key was found in the store before. *)
Definition with_key_parts (k : key K) (p : container K) : key K :=
  {| k_version := k_version k; k_alg := k_alg k; k_uid := k_uid k; k_id := k_id k; k_type := k_type k; k_parts := p |}.
(** The object behind the pointer stored under [id] changes; the map does not. *)
Fixpoint put_object (id : str) (v : key K) (m : smap (option (key K))) : smap (option (key K)) :=
  match m with
  | [] => []
  | (id', v') :: m' => if str_eqb id id' then (id', Some v) :: m' else (id', v') :: put_object id v m'
  end.
Definition class_map (c : key_class) (s : store (key K)) : smap (option (key K)) :=
  match c with KEY_PUBLIC => pub_keys s | KEY_SECRET => sec_keys s end.
Definition change_object (c : key_class) (id : str) (v : key K) (s : store (key K)) : store (key K) :=
  match c with
  | KEY_PUBLIC => {| pub_keys := put_object id v (pub_keys s); sec_keys := sec_keys s |}
  | KEY_SECRET => {| pub_keys := pub_keys s; sec_keys := put_object id v (sec_keys s) |}
  end.
Definition key_component (c : key_class) (id name : str) : code (zobj K) := fun w =>
  match mget id (class_map c (w_store w)) with
  | Some (Some k) =>
      let '(p, r) := get_component (k_parts k) name in
      (set_store w (change_object c id (with_key_parts k p) (w_store w)), r)
  | _ => (w, UB)
  end.
Definition ct_component (name : str) : code (zobj K) := fun w =>
  let '(p, r) := get_component (ct_parts (w_ct w)) name in (set_ct w (with_parts (w_ct w) p), r).
(** zcontainer.h L70-75: dynamic_cast of the component. *)
Definition as_zp (o : zobj K) : option zp := match o with OZp z => Some z | _ => None end.
Definition as_g1 (o : zobj K) : option (g1 K) := match o with OG1 x => Some x | _ => None end.
Definition as_g2 (o : zobj K) : option (g2 K) := match o with OG2 x => Some x | _ => None end.
Definition as_gt (o : zobj K) : option (gt K) := match o with OGt x => Some x | _ => None end.
Definition as_bytes (o : zobj K) : option str := match o with OBytes b => Some b | _ => None end.
(** The unchecked cast (OpenABEAttributeList* )getComponent(...): using another
    object through the pointer is undefined. *)
Definition as_attrs (o : zobj K) : option attrlist := match o with OAttrs l => Some l | _ => None end.
Definition key_part {A} (cast : zobj K -> option A) (c : key_class) (id name : str) : code (option A) :=
  let! o := key_component c id name in ret (cast o).
Definition ct_part {A} (cast : zobj K -> option A) (name : str) : code (option A) :=
  let! o := ct_component name in ret (cast o).
Definition set_part (name : str) (o : zobj K) : code unit := fun w => (set_ct w (ct_set_component (w_ct w) name o), Ok tt).
(** zciphertext.h setSchemeType. *)
Definition set_scheme (alg : Z) : code unit := fun w =>
  (set_ct w {| ct_version := ct_version (w_ct w); ct_alg := alg; ct_uid := ct_uid (w_ct w); ct_parts := ct_parts (w_ct w) |}, Ok tt).

(** include/abe/zcontainer.h L83 OpenABEMakeElementLabel. *)
Definition element_label (base unique : str) : str := base ++ L "_" ++ unique.
(** OpenABEHashKey (zkdf.cpp L179-190). *)
Definition short_label (a : str) : str := hash_key (e_hash E) a.
(** zpairing.cpp L173-187 hashToG1. *)
Definition hash_to_g1 (prefix msg : str) : g1 K := map1 E (e_hash E (prefix ++ msg)).
(** zpairing.cpp L197-216 multi_pairing: OpenABE_ERROR_INVALID_LENGTH = 24; pc_map_sim
    multiplies the pairings. *)
Definition multi_pairing (g1s : list (g1 K)) (g2s : list (g2 K)) : res (gt K) :=
  if negb (length g1s =? length g2s)%nat || (length g1s =? 0)%nat then Throw (OpenABEError 24)
  else Ok (fold_left (fun acc '(x, y) => multT E acc (pair E x y)) (combine g1s g2s) (oneT E)).
(** zelement_bp.cpp L820-825 GT::operator/. *)
Definition divT (x y : gt K) : gt K := multT E x (invT E y).

(** zsymkey.cpp L151-162 hashToSymmetricKey with GT::hashToBytes (src/lsss/zelement_bp.cpp
    L775-783: the digest of the serialized element) and L172-180 setSymmetricKey. *)
Definition hash_to_sym (x : gt K) (key_len : Z) : code unit :=
  let h := e_hash E (obj_serialize [] (OGt x)) in
  let! key := lift (compute_kdf2 (e_kdf E) h key_len) in
  if negb (len key =? 16) && negb (len key =? 32) then throw 24
  else fun w => (set_sym w key, Ok tt).

(** OpenABEFunctionInput* passed by the caller: a policy, an attribute list, or
    a null pointer; dynamic_cast tells them apart. *)
Inductive input := InPolicy (q : policy) | InAttrs (l : attrlist) | InNull.

(** createPolicyTree on the stored text (the flags of the new tree are fresh) and
    recoverCoefficients (zlsss.cpp L122-140) on a new OpenABELSSS; a null policy is
    dereferenced at L181. *)
Definition recover (q : option policy) (l : option attrlist) : res (bool * rowmap) :=
  match q, l with
  | Some q, Some l =>
      do out <- recover_coefficients (e_sort E) (aattrs l) false (order K) lsss_new q fresh;
      let '(b, o, _) := out in Ok (b, l_rows o)
  | _, _ => UB
  end.
(** shareSecret on a new OpenABELSSS: zlsss.cpp L96-109. *)
Definition share (q : policy) (s : Z) : code rowmap := fun w =>
  match share_secret false (order K) lsss_new q s (e_zp E) (w_off w) with
  | Ok (o, off) => (set_off w off, Ok (l_rows o))
  | Throw e => (w, Throw e) | UB => (w, UB) | Exit => (w, Exit) | NoFuel => (w, NoFuel)
  end.

(** ** Waters CP-ABE (schemes/zcontextcpwaters.cpp) *)

(** L77-133 generateParams.  OpenABE_ERROR_INVALID_PARAMS_ID = 17. *)
Definition both_new (mpk_id msk_id : str) : code bool :=
  let! a := is_new_id mpk_id in if a then is_new_id msk_id else ret false.
Definition cp_generate_params (mpk_id msk_id : str) : code Z := catch_code (
  let! ok := both_new mpk_id msk_id in
  if negb ok then throw 17 else
  let! mpk := make_key CP_WATERS mpk_id in
  let! msk := make_key CP_WATERS msk_id in
  let! x1 := random_g1 in
  let! x2 := random_g2 in
  let! alpha := random_zp in
  let! a := random_zp in
  let! k := random_bytes 32 in
  let g1a := mul1 E (zv a) x1 in
  let g2a := mul2 E (zv a) x2 in
  let A := expT E (zv alpha) (pair E x1 x2) in
  let mpk1 := key_set_component (key_set_component (key_set_component (key_set_component (key_set_component mpk
     (L "g1") (OG1 x1)) (L "g2") (OG2 x2)) (L "g1a") (OG1 g1a)) (L "A") (OGt A)) (L "k") (OBytes k) in
  let msk1 := key_set_component (key_set_component msk (L "alpha") (OZp alpha)) (L "g2a") (OG2 g2a) in
  let! _ := put_key mpk_id mpk1 KEY_PUBLIC in
  let! _ := put_key msk_id msk1 KEY_SECRET in
  ret 0).

(** L192-198: the loop over the attributes. *)
Fixpoint cp_key_loop (k : option str) (t : zp) (attrs : list str) (dec : key K) : code (key K) :=
  match attrs with
  | [] => ret dec
  | a :: rest =>
      let! prefix := deref k in
      cp_key_loop k t rest (key_set_component dec (element_label (L "KX") (short_label a)) (OG1 (mul1 E (zv t) (hash_to_g1 prefix a))))
  end.
(** L147-209 generateDecryptionKey.  OpenABE_ERROR_INVALID_PARAMS = 5. *)
Definition cp_keygen (inp : input) (key_id mpk_id msk_id : str) : code Z := catch_code (
  match inp with
  | InAttrs l =>
      let! mpk := public_key mpk_id in
      let! msk := secret_key msk_id in
      match mpk, msk with
      | Some _, Some _ =>
          let! k := key_part as_bytes KEY_PUBLIC mpk_id (L "k") in
          let! dec := make_key CP_WATERS key_id in
          let dec1 := key_set_component dec (L "input") (OAttrs l) in
          let! t := random_zp in
          let! alpha0 := key_part as_zp KEY_SECRET msk_id (L "alpha") in
          let! alpha := deref alpha0 in
          let! p2 := key_part as_g2 KEY_PUBLIC mpk_id (L "g2") in
          let! x2 := deref p2 in
          let! pa := key_part as_g2 KEY_SECRET msk_id (L "g2a") in
          let! g2a := deref pa in
          let dec2 := key_set_component dec1 (L "K") (OG2 (add2 E (mul2 E (zv alpha) x2) (mul2 E (zv t) g2a))) in
          let! q2 := key_part as_g2 KEY_PUBLIC mpk_id (L "g2") in
          let! y2 := deref q2 in
          let dec3 := key_set_component dec2 (L "L") (OG2 (mul2 E (zv t) y2)) in
          let! dec4 := cp_key_loop k t (aattrs l) dec3 in
          let! _ := put_key key_id dec4 KEY_SECRET in
          ret 0
      | _, _ => throw 5
      end
  | _ => throw 8
  end).

(** L266-278: the loop over the shares. *)
Fixpoint cp_enc_loop (mpk_id : str) (k : option str) (rows : rowmap) : code unit :=
  match rows with
  | [] => ret tt
  | (u, (lab, e)) :: rest =>
      let! ri := random_zp in
      let! p2 := key_part as_g2 KEY_PUBLIC mpk_id (L "g2") in
      let! x2 := deref p2 in
      let! _ := set_part (element_label (L "D") (short_label u)) (OG2 (mul2 E (zv ri) x2)) in
      let! prefix := deref k in
      let h := hash_to_g1 prefix lab in
      let! pa := key_part as_g1 KEY_PUBLIC mpk_id (L "g1a") in
      let! g1a := deref pa in
      let! neg := lift (zp_neg ri) in
      let! _ := set_part (element_label (L "C") (short_label u)) (OG1 (add1 E (mul1 E e g1a) (mul1 E (zv neg) h))) in
      cp_enc_loop mpk_id k rest
  end.
(** L220-290 encryptKEM. *)
Definition cp_encrypt_kem (mpk_id : str) (inp : input) (key_len : Z) : code Z := catch_code (
  match inp with
  | InPolicy q =>
      let! mpk := public_key mpk_id in
      match mpk with
      | None => throw 5
      | Some _ =>
          let! k := key_part as_bytes KEY_PUBLIC mpk_id (L "k") in
          let! s := random_zp in
          let! pA := key_part as_gt KEY_PUBLIC mpk_id (L "A") in
          let! A := deref pA in
          let C := expT E (zv s) A in
          let! rows := share q (zv s) in
          let! _ := set_part (L "policy") (OBytes (ptext q)) in
          let! p1 := key_part as_g1 KEY_PUBLIC mpk_id (L "g1") in
          let! x1 := deref p1 in
          let! _ := set_part (L "Cprime") (OG1 (mul1 E (zv s) x1)) in
          let! _ := cp_enc_loop mpk_id k rows in
          let! _ := hash_to_sym C key_len in
          let! _ := set_scheme CP_WATERS in
          ret 0
      end
  | _ => throw 8
  end).

(** L345-357: the loop over the coefficients. *)
Fixpoint cp_dec_loop (key_id : str) (rows : rowmap) (prod1 : g1 K) (g1s : list (g1 K)) (g2s : list (g2 K)) : code (g1 K * list (g1 K) * list (g2 K)) :=
  match rows with
  | [] => ret (prod1, g1s, g2s)
  | (u, (lab, c)) :: rest =>
      let! kx0 := key_part as_g1 KEY_SECRET key_id (element_label (L "KX") (short_label lab)) in
      let! cx0 := ct_part as_g1 (element_label (L "C") (short_label u)) in
      let! cx := assert_notnull cx0 in
      let! dx0 := ct_part as_g2 (element_label (L "D") (short_label u)) in
      let! dx := assert_notnull dx0 in
      let! kx := deref kx0 in
      cp_dec_loop key_id rest (add1 E prod1 (mul1 E c cx)) (g1s ++ [mul1 E c kx]) (g2s ++ [dx])
  end.
(** L303-377 decryptKEM.  OpenABE_ERROR_DECRYPTION_FAILED = 32. *)
Definition cp_decrypt_kem (mpk_id key_id : str) (key_len : Z) : code Z := catch_code (
  let! dec := secret_key key_id in
  let! _ := assert_notnull dec in
  let! l := key_part as_attrs KEY_SECRET key_id (L "input") in
  let! pol0 := ct_part as_bytes (L "policy") in
  let! pol := assert_notnull pol0 in
  let! q := lift (create_policy_tree (e_mktime E) pol) in
  let! out := lift (recover q l) in
  let '(ok, rows) := out in
  if negb ok then throw 32 else
  let! prods := cp_dec_loop key_id rows (zero1 E) [] [] in
  let '(prod1, g1s, g2s) := prods in
  let! prodT := lift (multi_pairing g1s g2s) in
  let! cprime0 := ct_part as_g1 (L "Cprime") in
  let! k0 := key_part as_g2 KEY_SECRET key_id (L "K") in
  let! l0 := key_part as_g2 KEY_SECRET key_id (L "L") in
  let! cprime := assert_notnull cprime0 in
  let! kk := assert_notnull k0 in
  let! ll := assert_notnull l0 in
  let! _ := hash_to_sym (divT (pair E cprime kk) (multT E prodT (pair E prod1 ll))) key_len in
  ret 0).

(** ** GPSW KP-ABE (schemes/zcontextkpgpsw.cpp) *)

(** L79-126 generateParams. *)
Definition kp_generate_params (mpk_id msk_id : str) : code Z := catch_code (
  let! ok := both_new mpk_id msk_id in
  if negb ok then throw 17 else
  let! mpk := make_key KP_GPSW mpk_id in
  let! msk := make_key KP_GPSW msk_id in
  let! x1 := random_g1 in
  let! x2 := random_g2 in
  let! y := random_zp in
  let Y := expT E (zv y) (pair E x1 x2) in
  let! k := random_bytes 32 in
  let mpk1 := key_set_component (key_set_component (key_set_component (key_set_component mpk
     (L "g1") (OG1 x1)) (L "g2") (OG2 x2)) (L "Y") (OGt Y)) (L "k") (OBytes k) in
  let msk1 := key_set_component msk (L "y") (OZp y) in
  let! _ := put_key mpk_id mpk1 KEY_PUBLIC in
  let! _ := put_key msk_id msk1 KEY_SECRET in
  ret 0).

(** L181-192: the loop over the shares. *)
Fixpoint kp_key_loop (mpk_id : str) (k : option str) (rows : rowmap) (dec : key K) : code (key K) :=
  match rows with
  | [] => ret dec
  | (u, (lab, e)) :: rest =>
      let! ri := random_zp in
      let! p1 := key_part as_g1 KEY_PUBLIC mpk_id (L "g1") in
      let! x1 := deref p1 in
      let! prefix := deref k in
      let Di := add1 E (mul1 E e x1) (mul1 E (zv ri) (hash_to_g1 prefix lab)) in
      let! p2 := key_part as_g2 KEY_PUBLIC mpk_id (L "g2") in
      let! x2 := deref p2 in
      kp_key_loop mpk_id k rest
        (key_set_component (key_set_component dec (element_label (L "D") (short_label u)) (OG1 Di))
           (element_label (L "d") (short_label u)) (OG2 (mul2 E (zv ri) x2)))
  end.
(** L140-201 generateDecryptionKey. *)
Definition kp_keygen (inp : input) (key_id mpk_id msk_id : str) : code Z := catch_code (
  match inp with
  | InPolicy q =>
      let! mpk := public_key mpk_id in
      let! msk := secret_key msk_id in
      match mpk, msk with
      | Some _, Some _ =>
          let! k := key_part as_bytes KEY_PUBLIC mpk_id (L "k") in
          let! dec := make_key KP_GPSW key_id in
          let dec1 := key_set_component dec (L "input") (OBytes (ptext q)) in
          let! y0 := key_part as_zp KEY_SECRET msk_id (L "y") in
          let! y := deref y0 in
          let! rows := share q (zv y) in
          let! dec2 := kp_key_loop mpk_id k rows dec1 in
          let! _ := put_key key_id dec2 KEY_SECRET in
          ret 0
      | _, _ => throw 5
      end
  | _ => throw 8
  end).

(** L250-256: the loop over the attributes. *)
Fixpoint kp_enc_loop (k : option str) (t : zp) (attrs : list str) : code unit :=
  match attrs with
  | [] => ret tt
  | a :: rest =>
      let! prefix := deref k in
      let! _ := set_part (element_label (L "C") (short_label a)) (OG1 (mul1 E (zv t) (hash_to_g1 prefix a))) in
      kp_enc_loop k t rest
  end.
(** L212-271 encryptKEM. *)
Definition kp_encrypt_kem (mpk_id : str) (inp : input) (key_len : Z) : code Z := catch_code (
  match inp with
  | InAttrs l =>
      let! mpk := public_key mpk_id in
      match mpk with
      | None => throw 5
      | Some _ =>
          let! k := key_part as_bytes KEY_PUBLIC mpk_id (L "k") in
          let! t := random_zp in
          let! pY := key_part as_gt KEY_PUBLIC mpk_id (L "Y") in
          let! Y := deref pY in
          let C := expT E (zv t) Y in
          let! p2 := key_part as_g2 KEY_PUBLIC mpk_id (L "g2") in
          let! x2 := deref p2 in
          let! _ := set_part (L "Cpr2") (OG2 (mul2 E (zv t) x2)) in
          let! _ := kp_enc_loop k t (aattrs l) in
          let! _ := set_part (L "attributes") (OAttrs l) in
          let! _ := hash_to_sym C key_len in
          let! _ := set_scheme KP_GPSW in
          ret 0
      end
  | _ => throw 8
  end).

(** L326-339: the loop over the coefficients. *)
Fixpoint kp_dec_loop (key_id : str) (rows : rowmap) (prod1 : g1 K) (g1s : list (g1 K)) (g2s : list (g2 K)) : code (g1 K * list (g1 K) * list (g2 K)) :=
  match rows with
  | [] => ret (prod1, g1s, g2s)
  | (u, (lab, c)) :: rest =>
      let! ci0 := ct_part as_g1 (element_label (L "C") (short_label lab)) in
      let! ddi0 := key_part as_g2 KEY_SECRET key_id (element_label (L "d") (short_label u)) in
      let! di0 := key_part as_g1 KEY_SECRET key_id (element_label (L "D") (short_label u)) in
      let! di := deref di0 in
      let! ci := deref ci0 in
      let! ddi := deref ddi0 in
      kp_dec_loop key_id rest (add1 E prod1 (mul1 E c di)) (g1s ++ [mul1 E c ci]) (g2s ++ [ddi])
  end.
(** L284-354 decryptKEM. *)
Definition kp_decrypt_kem (mpk_id key_id : str) (key_len : Z) : code Z := catch_code (
  let! dec := secret_key key_id in
  let! _ := assert_notnull dec in
  let! pol0 := key_part as_bytes KEY_SECRET key_id (L "input") in
  let! pol := assert_notnull pol0 in
  let! q := lift (create_policy_tree (e_mktime E) pol) in
  let! l := ct_part as_attrs (L "attributes") in
  let! out := lift (recover q l) in
  let '(ok, rows) := out in
  if negb ok then throw 32 else
  let! prods := kp_dec_loop key_id rows (zero1 E) [] [] in
  let '(prod1, g1s, g2s) := prods in
  let! prodT := lift (multi_pairing g1s g2s) in
  let! cpr0 := ct_part as_g2 (L "Cpr2") in
  let! cpr := assert_notnull cpr0 in
  let! _ := hash_to_sym (divT (pair E prod1 cpr) prodT) key_len in
  ret 0).

(** ** OpenABEContextSchemeCPA (src/abe/zcontextabe.cpp) *)

(** The two contexts it accepts (L90-100). *)
Inductive scheme := CP | KP.
Definition alg_of (s : scheme) : Z := match s with CP => CP_WATERS | KP => KP_GPSW end.
Definition generate_params (s : scheme) := match s with CP => cp_generate_params | KP => kp_generate_params end.
Definition keygen (s : scheme) := match s with CP => cp_keygen | KP => kp_keygen end.
Definition encrypt_kem (s : scheme) := match s with CP => cp_encrypt_kem | KP => kp_encrypt_kem end.
Definition decrypt_kem (s : scheme) := match s with CP => cp_decrypt_kem | KP => kp_decrypt_kem end.

(** L309-338 encrypt; [OpenABESymKey] starts empty.  DEFAULT_SYM_KEY_BYTES = 32,
    SCHEME_HASH_FUNCTION = 0x2A. *)
Definition fresh_sym : code unit := fun w => (set_sym w [], Ok tt).
Definition sym_bytes : code str := fun w => (w, Ok (w_sym w)).
Definition mask (key : str) (n : Z) : res str := hash_from_bytes (e_hash E) key (n mod 2 ^ 32) 42.
Definition encrypt (s : scheme) (mpk_id : str) (inp : input) (plaintext : str) : code Z := catch_code (
  let! _ := fresh_sym in
  let! result := encrypt_kem s mpk_id inp 32 in
  if negb (result =? 0) then throw result else
  let! key := sym_bytes in
  let! m := lift (mask key (len plaintext)) in
  let! ct := lift (xor_assign plaintext m) in
  let! _ := set_part (L "_ED") (OBytes ct) in
  ret 0).

(** L351-385 decrypt: the code and what the caller's buffer holds afterwards.  A
    foreign exception leaves the buffer alone and passes through. *)
Definition decrypt_body (s : scheme) (mpk_id key_id : str) : code str :=
  let! _ := fresh_sym in
  let! result := decrypt_kem s mpk_id key_id 32 in
  if negb (result =? 0) then throw result else
  let! enc0 := ct_part as_bytes (L "_ED") in
  let! enc := assert_notnull enc0 in
  let! key := sym_bytes in
  let! m := lift (mask key (len enc)) in
  lift (xor_assign enc m).
Definition decrypt (s : scheme) (mpk_id key_id : str) : code (Z * str) := fun w =>
  match decrypt_body s mpk_id key_id w with
  | (w', Ok p) => (w', Ok (0, p))
  | (w', Throw (OpenABEError e)) => (w', Ok (e, []))
  | (w', Throw e) => (w', Throw e) | (w', UB) => (w', UB) | (w', Exit) => (w', Exit) | (w', NoFuel) => (w', NoFuel)
  end.

(** L140-149 getHashKey: throws OpenABE_ERROR_INVALID_PARAMS. *)
Definition get_hash_key (mpk_id : str) : code (option str) :=
  let! mpk := public_key mpk_id in
  match mpk with None => throw 5 | Some _ => key_part as_bytes KEY_PUBLIC mpk_id (L "k") end.
(** L159-181 exportKey with OpenABE_exportKey (zcontextske.cpp L157-170) and
    exportKeyToBytes (zkeystore.cpp L264-273): the code and the caller's buffer. *)
Definition export_key (key_id out : str) : code (Z * str) := fun w =>
  let '(s, v) := get_key (w_store w) key_id in
  (set_store w s, match v with None => Ok (8, out) | Some k => do b <- key_export k; Ok (0, b) end).
(** L192-218 loadKey; exceptions are not caught.
    OpenABE_ERROR_INVALID_KEY_HEADER = 30. *)
Definition load_key (s : scheme) (id blob : str) (c : key_class) : code Z :=
  let! uid := random_bytes 16 in
  let! kb := lift (parse_key_header K blob [] uid) in
  let '(k, body) := kb in
  if negb (k_alg k =? alg_of s) then ret 30 else
  let '(k', r) := key_load K (e_mktime E) k body in
  let! _ := lift r in
  let! _ := put_key id k' c in
  ret 0.
(** L270-277 deleteKey and checkSecretKey. *)
Definition drop_key (key_id : str) : code Z := fun w =>
  let '(s, _, c) := delete_key (w_store w) key_id in (set_store w s, Ok c).
Definition has_secret_key (key_id : str) : code bool := fun w => (w, Ok (check_secret_key (w_store w) key_id)).
End Scheme.
