(** What a ciphertext or key shows besides the values of its group elements
    (specification of C131 and C132).  The sealed message is shown by its length. *)
From Verif Require Import Base StrMap Policy Driver AttrList UInteger Field Container Lsss LsssSpec Kdf Scheme.
From Coq Require Import ZArith List Ascii Bool.
Import ListNotations.
Open Scope Z_scope.

Inductive sight :=
| SInt (u : uint) | SZp (z : zp) | SG1 | SG2 | SGt | SText (b : str) | SSealed (n : Z) | SAttrs (l : attrlist) | SPolicy | SNull.
Definition see {K : curve} (name : str) (o : option (zobj K)) : sight :=
  match o with
  | None => SNull
  | Some (OInt u) => SInt u | Some (OZp z) => SZp z
  | Some (OG1 _) => SG1 | Some (OG2 _) => SG2 | Some (OGt _) => SGt
  | Some (OBytes b) => if str_eqb name (L "_ED") then SSealed (len b) else SText b
  | Some (OAttrs l) => SAttrs l
  | Some (OPolicy _) => SPolicy
  end.
Definition view {K : curve} (c : container K) : smap sight := map (fun '(n, o) => (n, see n o)) c.

(** Names in order, each once. *)
Definition in_order (l : list str) : list str := mkeys (fold_right (fun n m => mset n tt m) [] l).
(** The names under which the leaves of a policy are filed: the leaf's label, with
    its occurrence appended where the policy repeats it. *)
Definition leaf_names (q : policy) : list str :=
  match proot q with Some r => map (unique_label (take_count lsss_new q)) (leaves r) | None => [] end.

Section Shown.
Variable hash : str -> str.
Definition name_of (base u : str) : str := base ++ L "_" ++ hash_key hash u.
(** A ciphertext for a policy: its text, one element of G1, two elements per leaf
    name and as many bytes as the message has. *)
Definition cp_shown (q : policy) (n : Z) : smap sight :=
  mset (L "_ED") (SSealed n)
    (fold_left (fun v u => mset (name_of (L "C") u) SG1 (mset (name_of (L "D") u) SG2 v)) (in_order (leaf_names q))
      (mset (L "Cprime") SG1 (mset (L "policy") (SText (ptext q)) []))).
(** A ciphertext for attributes: the list, one element of G2, one element per
    attribute and as many bytes as the message has. *)
Definition kp_shown (l : attrlist) (n : Z) : smap sight :=
  mset (L "_ED") (SSealed n) (mset (L "attributes") (SAttrs l)
    (fold_left (fun v a => mset (name_of (L "C") a) SG1 v) (aattrs l) (mset (L "Cpr2") SG2 []))).
(** A key for attributes and a key for a policy. *)
Definition cp_key_shown (l : attrlist) : smap sight :=
  fold_left (fun v a => mset (name_of (L "KX") a) SG1 v) (aattrs l)
    (mset (L "L") SG2 (mset (L "K") SG2 (mset (L "input") (SAttrs l) []))).
Definition kp_key_shown (q : policy) : smap sight :=
  fold_left (fun v u => mset (name_of (L "d") u) SG2 (mset (name_of (L "D") u) SG1 v)) (in_order (leaf_names q))
    (mset (L "input") (SText (ptext q)) []).
Definition shown (s : scheme) (inp : input) (n : Z) : smap sight :=
  match s, inp with CP, InPolicy q => cp_shown q n | KP, InAttrs l => kp_shown l n | _, _ => [] end.
Definition key_shown (s : scheme) (inp : input) : smap sight :=
  match s, inp with CP, InAttrs l => cp_key_shown l | KP, InPolicy q => kp_key_shown q | _, _ => [] end.
End Shown.

(** ** Lengths *)
(** How many bytes a packed string of [n] bytes takes. *)
Definition packed (n : Z) : Z :=
  if 65535 <? n then n mod 2 ^ 32 + 5 else if 255 <? n then n + 3 else if 0 <? n then n + 2 else 0.
(** The elements in [c] are written with [n1], [n2] and [nt] bytes.  (RELIC writes
    the point at infinity with one byte; all others of a group with equally many.) *)
Definition regular {K : curve} (n1 n2 nt : Z) (c : container K) : Prop := forall name o, In (name, Some o) c ->
  match o with OG1 x => len (g1_out K x) = n1 | OG2 x => len (g2_out K x) = n2 | OGt x => len (gt_out K x) = nt | _ => True end.
(** Bytes of one part, and of all parts with their names. *)
Definition sight_size (n1 n2 nt : Z) (s : sight) : Z :=
  match s with
  | SInt u => len (uint_serialize u) | SZp z => len (zp_serialize z)
  | SG1 => 1 + packed n1 | SG2 => 1 + packed n2 | SGt => 1 + packed nt
  | SText b => 5 + len b | SSealed n => 5 + n
  | SAttrs l => len (compact l)
  | SPolicy | SNull => 0
  end.
Definition view_size (n1 n2 nt : Z) (v : smap sight) : Z :=
  fold_right (fun e a => packed (len (fst e)) + packed (sight_size n1 n2 nt (snd e)) + a) 0 v.
