(** Specification vocabulary for secret sharing, independent of the traversals
    of the implementation: a policy is a monotone formula over attribute names. *)
From Verif Require Import Base Policy.
From Coq Require Import ZArith List Ascii Bool.
Import ListNotations.
Open Scope Z_scope.

(** Truth value of a tree when exactly the attributes in [held] are true. *)
Fixpoint sat (held : str -> bool) (n : node) : bool :=
  match n with
  | Node GateLeaf _ _ _ _ _ => held (complete_label n)
  | Node GateAnd _ _ _ _ ks => forallb (sat held) ks
  | Node GateOr _ _ _ _ ks => existsb (sat held) ks
  | Node GateThreshold k _ _ _ ks => k <=? Z.of_nat (length (filter (sat held) ks))
  | _ => false
  end.

(** Leaves, left to right. *)
Fixpoint leaves (n : node) : list node :=
  match n with
  | Node GateLeaf _ _ _ _ _ => [n]
  | Node _ _ _ _ _ ks => flat_map leaves ks
  end.

(** Trees made of AND/OR gates with at least one child. *)
Fixpoint and_or (n : node) : bool :=
  match n with
  | Node GateLeaf _ _ _ _ _ => true
  | Node (GateAnd | GateOr) _ _ _ _ ks => negb (Nat.eqb (length ks) 0) && forallb and_or ks
  | _ => false
  end.

(** Every AND gate has at most [m] children. *)
Fixpoint and_arity (m : nat) (n : node) : bool :=
  match n with
  | Node GateLeaf _ _ _ _ _ => true
  | Node GateAnd _ _ _ _ ks => Nat.leb (length ks) m && forallb (and_arity m) ks
  | Node _ _ _ _ _ ks => forallb (and_arity m) ks
  end.

(** Trees the sharing algorithm supports: every gate has a threshold of at least 1. *)
Fixpoint shareable (n : node) : bool :=
  match n with
  | Node GateLeaf _ _ _ _ _ => true
  | Node GateAnd _ _ _ _ ks => negb (Nat.eqb (length ks) 0) && forallb shareable ks
  | Node GateOr _ _ _ _ ks => forallb shareable ks
  | Node GateThreshold k _ _ _ ks => (0 <? k) && forallb shareable ks
  | _ => false
  end.

(** Every gate has fewer than [m] children. *)
Fixpoint fanout_lt (m : Z) (n : node) : bool :=
  match n with
  | Node GateLeaf _ _ _ _ _ => true
  | Node _ _ _ _ _ ks => (Z.of_nat (length ks) <? m) && forallb (fanout_lt m) ks
  end.

(** The trees the policy parser builds: AND/OR gates with exactly two children. *)
Fixpoint binary (n : node) : bool :=
  match n with
  | Node GateLeaf _ _ _ _ _ => true
  | Node (GateAnd | GateOr) _ _ _ _ ks => Nat.eqb (length ks) 2 && forallb binary ks
  | _ => false
  end.

(** Truth value of a tree from a truth value for each leaf. *)
Fixpoint sat_by (f : node -> bool) (n : node) : bool :=
  match n with
  | Node GateLeaf _ _ _ _ _ => f n
  | Node GateAnd _ _ _ _ ks => forallb (sat_by f) ks
  | Node GateOr _ _ _ _ ks => existsb (sat_by f) ks
  | Node GateThreshold k _ _ _ ks => k <=? Z.of_nat (length (filter (sat_by f) ks))
  | _ => false
  end.

(** Leaves are numbered so that repeated attributes can be told apart: two
    different leaves with the same attribute have different numbers, and the
    attribute is recorded as repeated in [dups]. *)
Definition well_indexed (dups : str -> bool) (r : node) : Prop :=
  (forall a, In a (leaves r) -> 0 <= nindex a) /\
  (forall i j a b, i <> j -> nth_error (leaves r) i = Some a -> nth_error (leaves r) j = Some b ->
     complete_label a = complete_label b -> nindex a <> nindex b /\ dups (complete_label a) = true).

(** No attribute name contains the character used to separate the number. *)
Definition no_percent (r : node) : Prop :=
  forall a, In a (leaves r) -> ~ In "%"%char (complete_label a).

(** Trees in which an OR gate has only leaves below it. *)
Fixpoint or_of_leaves (n : node) : bool :=
  match n with
  | Node GateLeaf _ _ _ _ _ => true
  | Node GateOr _ _ _ _ ks =>
      forallb (fun c => match c with Node GateLeaf _ _ _ _ ks' => Nat.eqb (length ks') 0 | _ => false end) ks
  | Node _ _ _ _ _ ks => forallb or_of_leaves ks
  end.
