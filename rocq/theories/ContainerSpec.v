(** Specification vocabulary for containers, ciphertexts and keys: what a value
    is, which values can travel, what the wire format of a header is.  Nothing
    here refers to the functions of Container.v other than the data types. *)
From Verif Require Import Base StrMap ByteString UInteger Field Policy Driver Parser AttrList Utils Container.
From Coq Require Import ZArith List Ascii Bool.
Import ListNotations.
Open Scope Z_scope.

(** What is assumed of the pairing library: reading back a written element gives
    the element; written elements have one byte or the default size; comparison
    is equality. *)
Record curve_ok (K : curve) : Prop := {
  g1_back : forall x, g1_in K (g1_out K x) = Ok x;
  g1_len : forall x, len (g1_out K x) = 1 \/ len (g1_out K x) = g1_size K;
  g1_pos : 0 < g1_size K < 2^31;
  g1_cmp : forall x y, g1_same K x y = true <-> x = y;
  g2_back : forall x, g2_in K (g2_out K x) = Ok x;
  g2_len : forall x, len (g2_out K x) = 1 \/ len (g2_out K x) = g2_size K;
  g2_pos : 0 < g2_size K < 2^31;
  g2_cmp : forall x y, g2_same K x y = true <-> x = y;
  gt_back : forall x, gt_in K (gt_out K x) = Ok x;
  gt_len : forall x, 0 < len (gt_out K x) < 2^31;
  gt_cmp : forall x y, gt_same K x y = true <-> x = y;
  order_pos : 1 < order K < 256 ^ 64
}.
(** The pairing library answers every byte string with an element or an
    exception (RELIC's read functions do not crash). *)
Definition curve_safe (K : curve) : Prop :=
  (forall b, match g1_in K b with Ok _ | Throw _ => True | _ => False end) /\
  (forall b, match g2_in K b with Ok _ | Throw _ => True | _ => False end) /\
  (forall b, match gt_in K b with Ok _ | Throw _ => True | _ => False end).

(** Two components have the same value. *)
Definition same_value {K} (o o' : zobj K) : Prop :=
  match o, o' with
  | OInt u, OInt u' => uval u = uval u' /\ ubits u = ubits u'
  | OZp z, OZp z' => zv z = zv z'
  | OG1 x, OG1 y => x = y
  | OG2 x, OG2 y => x = y
  | OGt x, OGt y => x = y
  | OBytes b, OBytes b' => b = b'
  | OAttrs l, OAttrs l' => (forall a, In a (aattrs l') <-> In a (aattrs l)) /\ aorig l' = aorig l /\ compact l' = compact l
  | _, _ => False
  end.

(** A component that can travel: integers without an explicit width, non-zero
    exponents below the order, group elements, byte strings, attribute lists
    that came out of the parser. *)
Definition portable (K : curve) (mktime : tm -> Z * tm) (o : zobj K) : Prop :=
  match o with
  | OInt u => 0 <= uval u < 2^32 /\ ubits u = 0
  | OZp z => 0 < zv z < order K
  | OG1 _ | OG2 _ | OGt _ => True
  | OBytes b => len b < 2^31
  | OAttrs l => (exists t, create_attribute_list mktime t = Ok (Some l)) /\ len (compact l) < 2^31
  | OPolicy _ => False
  end.
Definition good_name (k : str) : Prop := k <> [] /\ len k < 2^31.
(** Every entry has a usable name and a value that can travel. *)
Definition all_portable (K : curve) mktime (c : container K) : Prop :=
  forall name v, mget name c = Some v -> good_name name /\ exists o, v = Some o /\ portable K mktime o.
(** [c'] holds what [c] holds. *)
Definition same_content {K} (c c' : container K) : Prop :=
  mkeys c' = mkeys c /\
  forall name o, mget name c = Some (Some o) -> exists o', mget name c' = Some (Some o') /\ same_value o o'.

(** The scheme identifiers of include/lsss/zconstants.h, by number. *)
Definition known_scheme (a : Z) : Prop := In a [0; 60; 70; 71; 72; 100; 101; 102; 201; 202].
(** Wire format of the length prefix of an n-byte item. *)
Definition length_prefix (n : Z) (p : str) : Prop :=
  p = [z2b 161; z2b n] /\ n < 2^8 \/
  p = [z2b 178; z2b (n / 2^8); z2b n] /\ n < 2^16 \/
  p = [z2b 195; z2b (n / 2^24); z2b (n / 2^16); z2b (n / 2^8); z2b n] /\ n < 2^32.
(** [blob] starts with the header (version, scheme, uid) and continues with [rest]. *)
Definition has_header (blob : str) (version scheme : Z) (uid rest : str) : Prop :=
  exists p v a, length_prefix 18 p /\ blob = p ++ v :: a :: uid ++ rest /\
    version = b2z v /\ scheme = b2z a /\ len uid = 16.
(** [blob] starts with a key header: four bytes of length, version, scheme, uid
    and the rest of the header, the identity. *)
Definition has_key_header (blob : str) (version scheme : Z) (uid id rest : str) : Prop :=
  exists v a, blob = be32 (18 + len id) ++ v :: a :: uid ++ id ++ rest /\
    version = b2z v /\ scheme = b2z a /\ len uid = 16.
(** The values whose reading is not an answer or an exception: a truncated
    exponent, a group element of the wrong size, a policy the parser breaks on. *)
Definition crashing (K : curve) mktime (value : str) : Prop :=
  (exists b1 b2 rest, value = z2b 177 :: b1 :: b2 :: rest /\ rest <> [] /\ len rest < b2z b1 * 256 + b2z b2) \/
  (exists tag rest payload j, value = z2b tag :: rest /\ smart_unpack value 1 = (j, Ok payload) /\ len payload <> 1 /\
     (tag = 178 /\ len payload <> g1_size K \/ tag = 179 /\ len payload <> g2_size K)) \/
  (exists rest, value = z2b 122 :: rest /\ forall o, create_policy_tree mktime value <> Ok o).
