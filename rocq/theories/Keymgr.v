(** Model of OpenABEKeystoreManager (src/abe/zkeymgr.cpp, include/abe/zkeymgr.h)
    and getFunctionInput of a key (utils/utils.cpp L125-153).  Only
    definitions; proofs are in KeymgrProofs.v.
    Parameters: the pairing library [K], mktime, the std::sort of the LSSS code
    ([sort]) and of the search ([rank]), the random bytes of a key constructor.
    Asserts are enabled, as in the default build.  The lock ks_lock_ and console
    output are not modelled: commands run one at a time. *)
From Verif Require Import Base StrMap Dec ByteString UInteger Field Policy Driver Parser AttrList Utils Lsss Container Keystore.
From Coq Require Import ZArith List Ascii Bool.
Import ListNotations.
Open Scope Z_scope.
Open Scope res_scope.

(** An OpenABEFunctionInput: a policy with the flags of its nodes, or a list. *)
Inductive finput := InPolicy (p : policy) (st : fstate) | InAttrs (l : attrlist).
(** zfunctioninput.h L85 getFunctionType. *)
Definition ftype (f : finput) : input_type := match f with InPolicy _ _ => FUNC_POLICY | InAttrs _ => FUNC_ATTRLIST end.
(** toCompactString: zpolicy.h L155, zattributelist.cpp L197. *)
Definition fcompact (f : finput) : str := match f with InPolicy p _ => ptext p | InAttrs l => compact l end.
Definition type_eqb (a b : input_type) : bool :=
  match a, b with FUNC_INVALID, FUNC_INVALID | FUNC_POLICY, FUNC_POLICY | FUNC_ATTRLIST, FUNC_ATTRLIST => true | _, _ => false end.

(** zkeymgr.h L46-58 _OpenABEMetadata (isExpired is never set). *)
Record meta := { m_user : str; m_cached : bool; m_type : input_type; m_input : finput; m_scheme : Z; m_blob : str; m_expire : Z }.
(** zkeymgr.h L105-108; [km_store] is the inherited (private) key store, which
    no command adds keys to. *)
Record manager := { km_meta : smap meta; km_counter : smap Z; km_pass : smap str; km_active : smap str; km_store : store unit }.
Definition new_manager : manager := {| km_meta := []; km_counter := []; km_pass := []; km_active := []; km_store := new_store |}.
Definition with_meta (m : manager) (d : smap meta) : manager :=
  {| km_meta := d; km_counter := km_counter m; km_pass := km_pass m; km_active := km_active m; km_store := km_store m |}.
Definition with_counter (m : manager) (c : smap Z) : manager :=
  {| km_meta := km_meta m; km_counter := c; km_pass := km_pass m; km_active := km_active m; km_store := km_store m |}.

(** L63-67 setPassphrase, L69-72 getActiveUsers. *)
Definition set_passphrase (m : manager) (program user pass : str) : manager :=
  {| km_meta := km_meta m; km_counter := km_counter m; km_pass := mset user pass (km_pass m);
     km_active := mset user program (km_active m); km_store := km_store m |}.
Definition get_active_users (m : manager) : smap str := km_active m.

Section Manager.
Context (K : curve) (mktime : tm -> Z * tm) (sort : list (nat * Z) -> list (nat * Z)) (rank : list (str * Z) -> list (str * Z)).

(** utils.cpp L125-153 getFunctionInput(key); [None] is the null pointer.  The
    CP case casts the component to an attribute list without looking at its
    class. *)
Definition get_function_input (k : key K) : res (option finput) :=
  do scheme <- get_scheme_id (k_alg k);
  if existsb (Z.eqb scheme) [CP_WATERS; CP_WATERS_CCA] then
    do o <- snd (get_component (k_parts k) (L "input"));
    match o with
    | OAttrs l => do r <- create_attribute_list mktime (compact l); Ok (match r with Some l' => Some (InAttrs l') | None => None end)
    | _ => UB
    end
  else if existsb (Z.eqb scheme) [KP_GPSW; KP_GPSW_CCA] then
    do o <- snd (get_component (k_parts k) (L "input"));
    match o with
    | OBytes b => do r <- create_policy_tree mktime b; Ok (match r with Some p => Some (InPolicy p fresh) | None => None end)
    | _ => Throw (OpenABEError 8)
    end
  else Ok None.

(** L106-115: is there an entry of this user with the same input? *)
Definition has_duplicate (d : smap meta) (user : str) (f : finput) : bool :=
  existsb (fun e => str_eqb (fcompact (m_input (snd e))) (fcompact f) && type_eqb (ftype f) (ftype (m_input (snd e))) &&
                    str_eqb user (m_user (snd e))) d.

(** L91-131: what the blob is worth: [None] is the result for scheme NONE. *)
Definition read_key (blob random : str) : res (option (Z * finput)) :=
  do r <- parse_key_header K blob [] random;
  let '(k, body) := r in
  do scheme <- get_scheme_id (k_alg k);
  if scheme =? SCHEME_NONE then Ok None
  else
    let '(k', loaded) := key_load K mktime k body in
    do _ <- loaded;
    do f <- get_function_input k';
    match f with None => UB | Some f => Ok (Some (scheme, f)) end.

(** L74-133 storeWithKeyIDCommand. *)
Definition store_with_id (m : manager) (user id blob : str) (expire : Z) (cache : bool) (random : str) : manager * res bool :=
  match user with
  | [] => (m, Exit)
  | _ =>
      let m1 := with_meta m (mdel id (km_meta m)) in
      match read_key blob random with
      | Ok None => (m1, Ok false)
      | Ok (Some (scheme, f)) =>
          if has_duplicate (km_meta m1) user f then (m1, Ok false)
          else (with_meta m1 (mset id {| m_user := user; m_cached := cache; m_type := ftype f; m_input := f; m_scheme := scheme;
                                          m_blob := blob; m_expire := expire |} (km_meta m1)), Ok true)
      | Throw e => (m1, Throw e) | UB => (m1, UB) | Exit => (m1, Exit) | NoFuel => (m1, NoFuel)
      end
  end.

(** The count of a user: keyCounter_[userId] of a user already in the map. *)
Definition count_at (c : smap Z) (user : str) : Z := match mget user c with Some n => n | None => 0 end.
Definition touch_counter (c : smap Z) (user : str) : smap Z := match mget user c with Some _ => c | None => mset user 0 c end.
(** L135-155 storeWithKeyPrefixCommand.  MAX_KEYS_PER_USER = 20 (zkeymgr.h L60). *)
Definition store_with_prefix (m : manager) (user prefix blob : str) (expire : Z) (cache : bool) (random : str) : manager * res str :=
  let m1 := with_counter m (touch_counter (km_counter m) user) in
  let n := count_at (km_counter m1) user in
  let id := prefix ++ dec n in
  match store_with_id m1 user id blob expire cache random with
  | (m2, Ok true) => (with_counter m2 (mset user ((n + 1) mod 20) (km_counter m2)), Ok id)
  | (m2, Ok false) => (m2, Ok [])
  | (m2, Throw e) => (m2, Throw e) | (m2, UB) => (m2, UB) | (m2, Exit) => (m2, Exit) | (m2, NoFuel) => (m2, NoFuel)
  end.
(** L157-159 getUserKeyCount. *)
Definition get_user_key_count (m : manager) (user : str) : manager * Z :=
  (with_counter m (touch_counter (km_counter m) user), count_at (km_counter m) user).

(** L161-175 getKeyCommand. *)
Definition get_key_command (m : manager) (user id : str) : str * str :=
  match mget id (km_meta m) with
  | Some d => if str_eqb (m_user d) user then (fcompact (m_input d), m_blob d) else ([], [])
  | None => ([], [])
  end.

(** L177-207 filterKeys. *)
Definition opposite (t : input_type) : input_type :=
  match t with FUNC_POLICY => FUNC_ATTRLIST | FUNC_ATTRLIST => FUNC_POLICY | FUNC_INVALID => FUNC_INVALID end.
Definition filter_keys (m : manager) (user : str) (t : input_type) : list str :=
  match user with
  | [] => []
  | _ => map fst (filter (fun e => type_eqb (m_type (snd e)) (opposite t) && str_eqb user (m_user (snd e))) (km_meta m))
  end.

(** L209-230 getKeyIds. *)
Definition get_key_ids (m : manager) (user : str) (now : Z) : list str :=
  map fst (filter (fun e =>
    if str_eqb user (m_user (snd e)) then (if now =? 0 then true else m_expire (snd e) <=? now)
    else (0 <? now) && (m_expire (snd e) <=? now)) (km_meta m)).

(** L243-264 testAKey: the answer, the stored input and the query input with
    their flags afterwards. OpenABE_ERROR_INVALID_CIPHERTEXT_HEADER = 31. *)
Definition test_a_key (t : input_type) (stored query : finput) : res (bool * Z * finput * finput) :=
  match t, ftype query with
  | FUNC_ATTRLIST, FUNC_POLICY =>
      match stored, query with
      | InAttrs l, InPolicy p st =>
          do r <- check_if_satisfied sort (get_string_list l) p true st;
          let '(b, n, st') := r in Ok (b, n, stored, InPolicy p st')
      | _, _ => UB
      end
  | FUNC_POLICY, FUNC_ATTRLIST =>
      match stored, query with
      | InPolicy p st, InAttrs l =>
          do r <- check_if_satisfied sort (get_string_list l) p true st;
          let '(b, n, st') := r in Ok (b, n, InPolicy p st', query)
      | _, _ => UB
      end
  | _, _ => Throw (OpenABEError 31)
  end.

Definition with_input (d : meta) (f : finput) : meta :=
  {| m_user := m_user d; m_cached := m_cached d; m_type := m_type d; m_input := f; m_scheme := m_scheme d;
     m_blob := m_blob d; m_expire := m_expire d |}.
(** L307-323: the loop of searchKey; the assert is that of L308. *)
Fixpoint search_loop (ids : list str) (efficient : bool) (m : manager) (query : finput) (found : list (str * Z)) :
    manager * finput * res (str + list (str * Z)) :=
  match ids with
  | [] => (m, query, Ok (inr (rev found)))
  | id :: ids' =>
      match mget id (km_meta m) with
      | None => (m, query, Exit)
      | Some d =>
          match test_a_key (m_type d) (m_input d) query with
          | Ok (b, n, stored', query') =>
              let m' := with_meta m (mset id (with_input d stored') (km_meta m)) in
              if b then
                if efficient then search_loop ids' efficient m' query' ((id, n) :: found)
                else (m', query', Ok (inl id))
              else search_loop ids' efficient m' query' found
          | Throw e => (m, query, Throw e) | UB => (m, query, UB) | Exit => (m, query, Exit) | NoFuel => (m, query, NoFuel)
          end
      end
  end.
(** L298-331 searchKey, L265-270 searchKeyCommand. *)
Definition search_key (m : manager) (user : str) (efficient : bool) (query : finput) : manager * finput * res str :=
  let '(m', q', r) := search_loop (filter_keys m user (ftype query)) efficient m query [] in
  (m', q', do x <- r;
   match x with
   | inl id => Ok id
   | inr [] => Ok []
   | inr found => match rank found with [] => UB | e :: _ => Ok (fst e) end
   end).

(** L272-295 deleteKeyCommand. *)
Fixpoint delete_all (s : store unit) (ids : list str) : store unit :=
  match ids with [] => s | id :: ids' => delete_all (fst (fst (delete_key s id))) ids' end.
Definition delete_key_command (m : manager) (user : str) (now : Z) : manager * res (list str) :=
  let ids := get_key_ids m user now in
  let active := if 0 <? now then km_active m else mdel user (km_active m) in
  if negb (0 <? now) && str_eqb user [] then (m, Throw RuntimeError)
  else ({| km_meta := km_meta m; km_counter := km_counter m; km_pass := km_pass m; km_active := active;
           km_store := delete_all (km_store m) ids |}, Ok ids).
End Manager.
