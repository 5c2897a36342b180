(** Model of OpenABEContainer (src/abe/zcontainer.cpp), OpenABECiphertext
    (src/abe/zciphertext.cpp) and OpenABEKey (src/abe/zkey.cpp).
    Only definitions; proofs are in ContainerProofs.v.
    Group elements are opaque; RELIC's write_bin/read_bin and comparison are
    parameters.  Who deletes which pointer is in ContMem.v. *)
From Verif Require Import Base StrMap ByteString UInteger Field Policy Driver Parser AttrList Utils.
From Coq Require Import ZArith List Ascii Bool.
Import ListNotations.
Open Scope Z_scope.
Open Scope res_scope.

(** What the container code needs from the pairing library: for each group the
    element type, gN_write_bin, gN_read_bin, getDefaultSize, gN_cmp; and the
    group order (BPGroup::order). *)
Record curve := {
  g1 : Type; g1_out : g1 -> str; g1_in : str -> res g1; g1_size : Z; g1_same : g1 -> g1 -> bool;
  g2 : Type; g2_out : g2 -> str; g2_in : str -> res g2; g2_size : Z; g2_same : g2 -> g2 -> bool;
  gt : Type; gt_out : gt -> str; gt_in : str -> res gt; gt_same : gt -> gt -> bool;
  order : Z
}.

Section Container.
Context (K : curve) (mktime : tm -> Z * tm).

(** The ZObject classes a component can have.  (include/lsss/zobject.h and the
    classes overriding clone.) *)
Inductive zobj :=
| OInt (u : uint) | OZp (z : zp) | OG1 (x : g1 K) | OG2 (x : g2 K) | OGt (x : gt K)
| OBytes (b : str) | OAttrs (l : attrlist) | OPolicy (p : policy).

(** ZObject::clone.  OpenABEPolicy does not override it (zpolicy.h L143 is
    commented out), so the base version answers: a null pointer (zobject.h L57). *)
Definition clone (o : zobj) : option zobj :=
  match o with OPolicy _ => None | OAttrs l => Some (OAttrs (copy_list l)) | _ => Some o end.

(** zcontainer.h: std::map<std::string, ZObject*> val; [None] is a null pointer. *)
Definition container := smap (option zobj).

(** L84-88 setComponent. *)
Definition set_component (c : container) (name : str) (o : zobj) : container := mset name (clone o) c.
(** std::map::operator[]: inserts a null pointer when the key is missing. *)
Definition index {A} (c : smap (option A)) (name : str) : smap (option A) * option A :=
  match mget name c with Some v => (c, v) | None => (mset name None c, None) end.
(** L97-106 getComponent.  OpenABE_ERROR_ELEMENT_NOT_FOUND = 18. *)
Definition get_component (c : container) (name : str) : container * res zobj :=
  let '(c', v) := index c name in
  (c', match v with Some o => Ok o | None => Throw (OpenABEError 18) end).
(** L108-116 deleteComponent: the returned code. *)
Definition delete_component (c : container) (name : str) : container * Z :=
  match mget name c with Some _ => (mdel name c, 0) | None => (c, 18) end.
(** L124 numComponents, L227-235 getKeys. *)
Definition num_components (c : container) : Z := Z.of_nat (length c).
Definition get_keys (c : container) : list str := mkeys c.

(** serialize of each class (zelement_bp.cpp L552-563, L718-729, L859-870 for the
    groups; OpenABEPolicy::serialize, zpolicy.cpp L101, leaves the output
    buffer as it is, which is why [old] is passed). *)
Definition obj_serialize (old : str) (o : zobj) : str :=
  match o with
  | OInt u => uint_serialize u
  | OZp z => zp_serialize z
  | OG1 x => smart_pack [z2b 178] (g1_out K x)
  | OG2 x => smart_pack [z2b 179] (g2_out K x)
  | OGt x => smart_pack [z2b 180] (gt_out K x)
  | OBytes b => bs_serialize b
  | OAttrs l => compact l
  | OPolicy _ => old
  end.
(** L135-144 serialize: appends to [result]; a null entry is dereferenced. *)
Fixpoint serialize_loop (entries : container) (bytes result : str) : res str :=
  match entries with
  | [] => Ok result
  | (key, Some o) :: rest =>
      let bytes' := obj_serialize bytes o in
      serialize_loop rest bytes' (smart_pack (smart_pack result key) bytes')
  | (_, None) :: _ => UB
  end.
Definition serialize (c : container) (result : str) : res str := serialize_loop c [] result.

(** deserialize of G1/G2 (L565-574, L731-740): the constructor from a buffer
    calls exit(-1) when the size is neither 1 nor the default one (L427-435,
    L597-605). *)
Definition group_read {G} (inn : str -> res G) (size : Z) (value : str) : res G :=
  do b <- snd (smart_unpack value 1);
  if (len b =? 1) || (len b =? size) then inn b else Exit.

(** What deserializeElement passes to setComponent; [None]: nothing is set. *)
Definition element_of (value : str) : res (option zobj) :=
  if len value =? 0 then Throw (OpenABEError 8)
  else
    do type <- at_ value 0;
    if type =? 161 then do u <- uint_deserialize {| uval := 0; ubits := 0 |} value; Ok (Some (OInt u))
    else if type =? 177 then do z <- zp_deserialize {| zv := 0; zord := Some (order K) |} value; Ok (Some (OZp z))
    else if type =? 178 then do x <- group_read (g1_in K) (g1_size K) value; Ok (Some (OG1 x))
    else if type =? 179 then do x <- group_read (g2_in K) (g2_size K) value; Ok (Some (OG2 x))
    else if type =? 180 then do b <- snd (smart_unpack value 1); do x <- gt_in K b; Ok (Some (OGt x))
    else if type =? 29 then do b <- bs_deserialize [] value; Ok (Some (OBytes b))
    else if type =? 122 then
      do p <- create_policy_tree mktime value;
      match p with Some q => Ok (Some (OPolicy q)) | None => Throw (OpenABEError 58) end
    else if type =? 124 then
      do l <- create_attribute_list mktime value;
      match l with Some a => Ok (Some (OAttrs a)) | None => Throw (OpenABEError 51) end
    else if (type =? 193) || (type =? 194) then Ok None
    else Throw (OpenABEError 100).
(** L146-206 deserializeElement. *)
Definition deserialize_element (c : container) (key value : str) : container * res unit :=
  match element_of value with
  | Ok (Some o) => (set_component c key o, Ok tt)
  | Ok None => (c, Ok tt)
  | Throw e => (c, Throw e) | UB => (c, UB) | Exit => (c, Exit) | NoFuel => (c, NoFuel)
  end.
(** L208-219 deserialize: the container keeps what was set before an exception.
    Every round reads at least one byte, so the fuel in [deserialize] is enough
    (ContainerProofs.deserialize_fuel). *)
Fixpoint deserialize_loop (fuel : nat) (blob : str) (i : nat) (c : container) : container * res unit :=
  match fuel with
  | O => (c, NoFuel)
  | S f =>
      match smart_unpack blob i with
      | (i1, Ok key) =>
          match smart_unpack blob i1 with
          | (i2, Ok value) =>
              match deserialize_element c key value with
              | (c', Ok _) => if (i2 <? length blob)%nat then deserialize_loop f blob i2 c' else (c', Ok tt)
              | (c', r) => (c', r)
              end
          | (_, Throw e) => (c, Throw e)
          | (_, _) => (c, UB)
          end
      | (_, Throw e) => (c, Throw e)
      | (_, _) => (c, UB)
      end
  end.
Definition deserialize (c : container) (blob : str) : container * res unit :=
  deserialize_loop (S (length blob)) blob 0 c.

(** isEqual of each class: the argument must have the same class.  Byte strings
    and policies answer false (zobject.h L59; zbytestring.h L270 is commented
    out; zpolicy.h L145).  A class's isEqual compares the argument with this object. *)
Definition obj_is_equal (this z : zobj) : res bool :=
  match this, z with
  | OInt x, OInt y => Ok (uint_eqb y x)
  | OZp x, OZp y => Ok (zp_eqb y x)
  | OG1 x, OG1 y => Ok (g1_same K y x)
  | OG2 x, OG2 y => Ok (g2_same K y x)
  | OGt x, OGt y => Ok (gt_same K y x)
  | OAttrs x, OAttrs y => list_is_equal x y
  | _, _ => Ok false
  end.
(** L251-262: the loop over c1's names, counting differences. *)
Fixpoint compare_loop (keys : list str) (c1 c2 : container) (diff : bool) : container * container * res bool :=
  match keys with
  | [] => (c1, c2, Ok (negb diff))
  | k :: ks =>
      match get_component c1 k with
      | (c1', Ok x) =>
          match get_component c2 k with
          | (c2', Ok y) =>
              match obj_is_equal x y with
              | Ok b => compare_loop ks c1' c2' (diff || negb b)
              | _ => (c1', c2', UB)
              end
          | (c2', Throw e) => (c1', c2', Throw e)
          | (c2', _) => (c1', c2', UB)
          end
      | (c1', Throw e) => (c1', c2, Throw e)
      | (c1', _) => (c1', c2, UB)
      end
  end.
(** L237-270 operator==: the size looked at is that of the string behind the last
    one written by set_difference, one of the empty strings keyList3 was made
    of; when there is none behind it, the end iterator is dereferenced.  The
    const_casts let getComponent change both operands. *)
Definition container_eq (c1 c2 : container) : container * container * res bool :=
  let k1 := get_keys c1 in
  let k2 := get_keys c2 in
  let n := (length k1 + length k2)%nat in
  let out := set_difference n k1 k2 in
  match nth_error (out ++ repeat [] (n - length out)) (length out) with
  | None => (c1, c2, UB)
  | Some s => if 0 <? len s then (c1, c2, Ok false) else compare_loop k1 c1 c2 false
  end.

(** ** Ciphertexts (zciphertext.cpp) *)
Record ciphertext := { ct_version : Z; ct_alg : Z; ct_uid : str; ct_parts : container }.
(** L54-80: the constructors.  A uid of 16 bytes or more is taken as it is. *)
Definition new_ciphertext : ciphertext :=
  {| ct_version := 170; ct_alg := 0; ct_uid := fill_buffer 0 16; ct_parts := [] |}.
Definition new_ciphertext_uid (uid : str) : ciphertext :=
  {| ct_version := 170; ct_alg := 0; ct_uid := if 16 <=? len uid then uid else fill_buffer 0 16; ct_parts := [] |}.
Definition ct_set_component (c : ciphertext) (name : str) (o : zobj) : ciphertext :=
  {| ct_version := ct_version c; ct_alg := ct_alg c; ct_uid := ct_uid c; ct_parts := set_component (ct_parts c) name o |}.
(** L189-195 setHeader. *)
Definition set_header (c : ciphertext) (scheme : Z) (uid : str) : ciphertext :=
  {| ct_version := 170; ct_alg := scheme; ct_uid := uid; ct_parts := ct_parts c |}.
(** L201-206 getHeader. *)
Definition get_header (c : ciphertext) : str := z2b (ct_version c) :: z2b (ct_alg c) :: ct_uid c.
(** L92-111 exportToBytes, L158-167 exportToBytesWithoutHeader. *)
Definition ct_export (c : ciphertext) : res str :=
  do body <- serialize (ct_parts c) [];
  Ok (smart_pack (smart_pack [] (get_header c)) body).
Definition ct_export_bare (c : ciphertext) : res str :=
  do body <- serialize (ct_parts c) [];
  Ok (smart_pack [] body).
Definition with_parts (c : ciphertext) (p : container) : ciphertext :=
  {| ct_version := ct_version c; ct_alg := ct_alg c; ct_uid := ct_uid c; ct_parts := p |}.
(** The tail shared by both loads: fetch the body, which must not be empty, and
    deserialize it into this object. *)
Definition load_body (c : ciphertext) (input : str) (i : nat) : ciphertext * res unit :=
  match snd (smart_unpack input i) with
  | Ok body =>
      if 0 <? len body then let '(p, r) := deserialize (ct_parts c) body in (with_parts c p, r)
      else (c, Throw (OpenABEError 41))
  | Throw e => (c, Throw e) | UB => (c, UB) | Exit => (c, Exit) | NoFuel => (c, NoFuel)
  end.
(** L117-152 loadFromBytes.  The fields are assigned one by one, so they keep
    what was read before an exception. *)
Definition ct_load (c : ciphertext) (input : str) : ciphertext * res unit :=
  if len input <? 18 then (c, Throw (OpenABEError 8))
  else
    match smart_unpack input 0 with
    | (i, Ok header) =>
        if len header =? 18 then
          match at_ header 0, at_ header 1 with
          | Ok version, Ok alg =>
              if version <=? 170 then
                let c1 := {| ct_version := version; ct_alg := ct_alg c; ct_uid := ct_uid c; ct_parts := ct_parts c |} in
                match get_scheme_id alg with
                | Ok id =>
                    match get_subset header 2 16 with
                    | Ok uid => load_body {| ct_version := version; ct_alg := id; ct_uid := uid; ct_parts := ct_parts c |} input i
                    | _ => (c1, UB)
                    end
                | Throw e => (c1, Throw e)
                | _ => (c1, UB)
                end
              else (c, Throw (OpenABEError 26))
          | _, _ => (c, UB)
          end
        else (c, Throw (OpenABEError 31))
    | (_, Throw e) => (c, Throw e)
    | (_, _) => (c, UB)
    end.
(** L173-183 loadFromBytesWithoutHeader. *)
Definition ct_load_bare (c : ciphertext) (input : str) : ciphertext * res unit := load_body c input 0.

(** ** Keys (zkey.cpp) *)
Record key := { k_version : Z; k_alg : Z; k_uid : str; k_id : str; k_type : key_type; k_parts : container }.
(** L69-90: the constructor.  [random] stands for the bytes getRandomBytes
    would produce. *)
Definition new_key (alg : Z) (id : str) (uid : option str) (random : str) : key :=
  {| k_version := 170; k_alg := alg;
     k_uid := match uid with Some u => if len u =? 16 then u else random | None => random end;
     k_id := id; k_type := key_type_of alg; k_parts := [] |}.
Definition key_set_component (k : key) (name : str) (o : zobj) : key :=
  {| k_version := k_version k; k_alg := k_alg k; k_uid := k_uid k; k_id := k_id k; k_type := k_type k;
     k_parts := set_component (k_parts k) name o |}.
(** L101-107 getHeader. *)
Definition key_header (k : key) : str := z2b (k_version k) :: z2b (k_alg k) :: k_uid k ++ k_id k.
(** L109-127 exportKeyToBytes. *)
Definition key_export (k : key) : res str :=
  do body <- serialize (k_parts k) [];
  Ok (pack (pack [] (key_header k)) body).
(** L129-133 loadKeyFromBytes. *)
Definition key_load (k : key) (input : str) : key * res unit :=
  let '(p, r) := deserialize (k_parts k) input in
  ({| k_version := k_version k; k_alg := k_alg k; k_uid := k_uid k; k_id := k_id k; k_type := k_type k; k_parts := p |}, r).
(** zkeystore.cpp L290-327 constructKeyFromBytes: the key (None: null) and the
    bytes of its body ([bytes] is what the caller's buffer held).  An
    OpenABE_ERROR is caught and gives the null key; std::out_of_range is not. *)
Definition construct_key (blob bytes random : str) : res (option key * str) :=
  if len blob <? 18 then Ok (None, bytes)
  else
    do hi <- unpack blob 0;
    let '(header, i) := hi in
    if 18 <=? len header then
      do version <- at_ header 0;
      do alg <- at_ header 1;
      if version <=? 170 then
        match get_scheme_id alg with
        | Ok id =>
            do uid <- get_subset header 2 16;
            do ident <- (if 18 <? len header then get_subset header 18 (len header - 18) else Ok []);
            do body <- unpack blob i;
            Ok (Some (new_key id ident (Some uid) random), fst body)
        | Throw _ => Ok (None, bytes)
        | _ => UB
        end
      else Ok (None, bytes)
    else Ok (None, bytes).
(** zkeystore.cpp L275-287 parseKeyHeader. *)
Definition parse_key_header (blob bytes random : str) : res (key * str) :=
  do r <- construct_key blob bytes random;
  match r with (Some k, b) => Ok (k, b) | (None, _) => Throw (OpenABEError 8) end.
End Container.
Arguments OInt {K} u. Arguments OZp {K} z. Arguments OG1 {K} x. Arguments OG2 {K} x. Arguments OGt {K} x.
Arguments OBytes {K} b. Arguments OAttrs {K} l. Arguments OPolicy {K} p.
Arguments ct_version {K} c. Arguments ct_alg {K} c. Arguments ct_uid {K} c. Arguments ct_parts {K} c.
Arguments k_version {K} k. Arguments k_alg {K} k. Arguments k_uid {K} k. Arguments k_id {K} k. Arguments k_type {K} k. Arguments k_parts {K} k.
Arguments set_component {K} c name o. Arguments get_component {K} c name. Arguments delete_component {K} c name.
Arguments serialize {K} c result. Arguments serialize_loop {K} entries bytes result. Arguments obj_serialize {K} old o.
Arguments clone {K} o. Arguments get_keys {K} c. Arguments num_components {K} c.
Arguments obj_is_equal {K} this z. Arguments container_eq {K} c1 c2. Arguments compare_loop {K} keys c1 c2 diff.
Arguments ct_export {K} c. Arguments ct_export_bare {K} c. Arguments get_header {K} c. Arguments set_header {K} c scheme uid.
Arguments ct_set_component {K} c name o. Arguments with_parts {K} c p.
Arguments key_header {K} k. Arguments key_export {K} k. Arguments key_set_component {K} k name o.
