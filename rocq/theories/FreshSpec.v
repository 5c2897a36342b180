(** Randomness: what it means that a call uses only random choices of its own. *)
From Verif Require Import Base StrMap ByteString UInteger Field Policy AttrList Utils Lsss Container Keystore Scheme SchemeSpec.
From Coq Require Import ZArith List Ascii Bool.
Import ListNotations.
Open Scope Z_scope.

(** The random choices of a run: exponents, points of both groups, bytes. *)
Record coins (K : curve) := { c_zp : nat -> Z; c_g1 : nat -> g1 K; c_g2 : nat -> g2 K; c_bytes : nat -> Z -> str }.
Arguments c_zp {K}. Arguments c_g1 {K}. Arguments c_g2 {K}. Arguments c_bytes {K}.
(** The same libraries with other random choices. *)
Definition retape (E : engine) (c : coins (e_curve E)) : engine := {|
  e_curve := e_curve E; add1 := add1 E; mul1 := mul1 E; zero1 := zero1 E; add2 := add2 E; mul2 := mul2 E;
  multT := multT E; invT := invT E; expT := expT E; oneT := oneT E; pair := pair E; map1 := map1 E;
  e_hash := e_hash E; e_kdf := e_kdf E; e_sort := e_sort E; e_mktime := e_mktime E;
  e_zp := c_zp c; e_g1 := c_g1 c; e_g2 := c_g2 c; e_bytes := c_bytes c |}.
(** The choices [i] with lo <= i < hi are the same. *)
Definition agree (E : engine) (c : coins (e_curve E)) (lo hi : nat) : Prop := forall i, (lo <= i < hi)%nat ->
  c_zp c i = e_zp E i /\ c_g1 c i = e_g1 E i /\ c_g2 c i = e_g2 E i /\ forall n, c_bytes c i n = e_bytes E i n.
(** The same call in the same state: a run with the choices of [E] and one with [c].
    The position never moves back; and if the choices between the positions before
    and after the first run agree, everything the call returns and leaves does. *)
Definition own_coins (E : engine) (c : coins (e_curve E)) {A} (m : code E A) (m' : code (retape E c) A) : Prop :=
  forall (s : store (key (e_curve E))) off ct sym,
  let r := m {| w_store := s; w_off := off; w_ct := ct; w_sym := sym |} in
  let r' := m' (Build_world (retape E c) s off ct sym) in
  (off <= w_off E (fst r))%nat /\
  (agree E c off (w_off E (fst r)) ->
     snd r = snd r' /\ w_store E (fst r) = w_store (retape E c) (fst r') /\ w_off E (fst r) = w_off (retape E c) (fst r') /\
     w_ct E (fst r) = w_ct (retape E c) (fst r') /\ w_sym E (fst r) = w_sym (retape E c) (fst r')).
(** The object under a name in a container. *)
Definition at_name {K} (p : container K) (name : str) (o : zobj K) : Prop := mget name p = Some (Some o).

(** How the random exponent [r] of a ciphertext shows: in Cprime (CP) or Cpr2 (KP),
    and the symmetric key is derived from the public target element to that power. *)
Section Shows.
Context (E : engine) (sch : scheme).
Notation K := (e_curve E).
Definition sealed_with (public : container K) (r : Z) (ct : container K) (key : str) : Prop :=
  match sch with
  | CP => exists g A, at_name public (L "g1") (OG1 g) /\ at_name public (L "A") (OGt A) /\
      at_name ct (L "Cprime") (OG1 (mul1 E r g)) /\ key = e_kdf E 32 (e_hash E (obj_serialize [] (OGt (expT E r A))))
  | KP => exists g Y, at_name public (L "g2") (OG2 g) /\ at_name public (L "Y") (OGt Y) /\
      at_name ct (L "Cpr2") (OG2 (mul2 E r g)) /\ key = e_kdf E 32 (e_hash E (obj_serialize [] (OGt (expT E r Y))))
  end.
(** How the random exponents of a user key show, all drawn at positions from [lo] to
    below [hi]: CP has one, in L; KP has one for each row, in its component d_x, and
    no two rows have the same. *)
Definition keyed_with (public : container K) (lo hi : nat) (user : container K) : Prop :=
  match sch with
  | CP => exists i g, (lo <= i < hi)%nat /\ at_name public (L "g2") (OG2 g) /\ at_name user (L "L") (OG2 (mul2 E (e_zp E i mod order K) g))
  | KP => exists pos, (forall n o, at_name user (L "d_" ++ n) o -> (lo <= pos (L "d_" ++ n) < hi)%nat /\
        exists g, at_name public (L "g2") (OG2 g) /\ o = OG2 (mul2 E (e_zp E (pos (L "d_" ++ n)) mod order K) g)) /\
      forall n n' o o', at_name user (L "d_" ++ n) o -> at_name user (L "d_" ++ n') o' -> pos (L "d_" ++ n) = pos (L "d_" ++ n') -> n = n'
  end.
End Shows.
