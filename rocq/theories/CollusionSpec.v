(** Specification vocabulary: what a group of users who put their keys together
    can compute from them, the public parameters and a ciphertext. *)
From Verif Require Import Base StrMap ByteString UInteger Field Policy Driver Parser AttrList Utils Container Keystore Scheme SchemeSpec.
From Coq Require Import ZArith List Ascii Bool.
Import ListNotations.
Open Scope Z_scope.

(** The same pairing library with other random exponents and another function from
    digests to points. *)
Definition reroll (E : engine) (zp : nat -> Z) (map : str -> g1 (e_curve E)) : engine := {|
  e_curve := e_curve E; add1 := add1 E; mul1 := mul1 E; zero1 := zero1 E; add2 := add2 E; mul2 := mul2 E;
  multT := multT E; invT := invT E; expT := expT E; oneT := oneT E; pair := pair E; map1 := map;
  e_hash := e_hash E; e_kdf := e_kdf E; e_sort := e_sort E; e_mktime := e_mktime E;
  e_zp := zp; e_g1 := e_g1 E; e_g2 := e_g2 E; e_bytes := e_bytes E |}.

(** Where a component is found, and a point of the first group: a component, or
    the point a message is hashed to. *)
Inductive place := InParams | InKey (i : nat) | InCiphertext.
Inductive point := At (w : place) (name : str) | Hashed (msg : str).
(** One step of an attack: pair two points, or take an element of the target group,
    and raise it to a power. *)
Inductive move := Pair (x : point) (w : place) (name : str) (c : Z) | Take (w : place) (name : str) (c : Z).

Section Collusion.
Context (E : engine) (sch : scheme).
Notation K := (e_curve E).
(** Pairing random generators gives an element of the full order. *)
Definition nondegenerate : Prop := forall i j n, expT E n (pair E (e_g1 E i) (e_g2 E j)) = oneT E -> n mod order K = 0.
(** The symmetric key for an element of the target group. *)
Definition derived (x : gt K) : str := e_kdf E 32 (e_hash E (obj_serialize [] (OGt x))).

Record holdings := { of_params : container K; of_keys : list (container K); of_ct : container K }.
Definition place_of (v : holdings) (w : place) : container K :=
  match w with InParams => of_params v | InKey i => nth i (of_keys v) [] | InCiphertext => of_ct v end.
Definition read (v : holdings) (w : place) (name : str) : option (zobj K) :=
  match mget name (place_of v w) with Some o => o | None => None end.
Definition read1 (v : holdings) (x : point) : option (g1 K) :=
  match x with
  | At w name => match read v w name with Some (OG1 g) => Some g | _ => None end
  | Hashed m => Some (map1 E (e_hash E m))
  end.
Definition read2 (v : holdings) (w : place) (name : str) : option (g2 K) :=
  match read v w name with Some (OG2 g) => Some g | _ => None end.
Definition readT (v : holdings) (w : place) (name : str) : option (gt K) :=
  match read v w name with Some (OGt g) => Some g | _ => None end.
(** What a move yields; a move that names nothing of the right kind yields one. *)
Definition yields (v : holdings) (m : move) : gt K :=
  match m with
  | Pair x w name c => match read1 v x, read2 v w name with Some a, Some b => expT E c (pair E a b) | _, _ => oneT E end
  | Take w name c => match readT v w name with Some a => expT E c a | None => oneT E end
  end.
(** The product of all moves. *)
Definition outcome (v : holdings) (attack : list move) : gt K := fold_right (fun m acc => multT E (yields v m) acc) (oneT E) attack.

(** The element a ciphertext is sealed with: the public target element to the power
    of the exponent of Cprime or Cpr2. *)
Definition secret_of (v : holdings) (C : gt K) : Prop :=
  match sch with
  | CP => exists g A s, read v InParams (L "g1") = Some (OG1 g) /\ read v InParams (L "A") = Some (OGt A) /\
      read v InCiphertext (L "Cprime") = Some (OG1 (mul1 E s g)) /\ C = expT E s A
  | KP => exists g Y t, read v InParams (L "g2") = Some (OG2 g) /\ read v InParams (L "Y") = Some (OGt Y) /\
      read v InCiphertext (L "Cpr2") = Some (OG2 (mul2 E t g)) /\ C = expT E t Y
  end.

(** User keys are issued one after the other. *)
Inductive issue (mpk msk : str) : list (str * input) -> context E -> context E -> Prop :=
| issue_none : forall x, issue mpk msk [] x x
| issue_one : forall id inp rest x w y, keygen E sch inp id mpk msk (start E x (no_ct E)) = (w, Ok 0) ->
    issue mpk msk rest (left_by E w) y -> issue mpk msk ((id, inp) :: rest) x y.
(** The coalition [users] and a ciphertext for [einp]: what it holds, and the key the
    plaintext was encrypted with. *)
Definition coalition (mpk msk : str) (users : list (str * input)) (einp : input) (pt : str) (x0 : context E) (v : holdings) (key : str) : Prop :=
  exists w1 x2 w3 kp, generate_params E sch mpk msk (start E x0 (no_ct E)) = (w1, Ok 0) /\
    issue mpk msk users (left_by E w1) x2 /\
    mget mpk (pub_keys (fst x2)) = Some (Some kp) /\ of_params v = k_parts kp /\
    Forall2 (fun u c => exists k, mget (fst u) (sec_keys (fst x2)) = Some (Some k) /\ c = k_parts k) users (of_keys v) /\
    encrypt E sch mpk einp pt (start E x2 (no_ct E)) = (w3, Ok 0) /\
    of_ct v = ct_parts (w_ct E w3) /\ key = w_sym E w3.
End Collusion.
