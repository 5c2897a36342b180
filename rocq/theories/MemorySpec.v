(** What a good history of allocations is, without reference to how the library
    keeps its objects. *)
From Verif Require Import Base Policy Memory.
From Coq Require Import List.
Import ListNotations.

(** Events in the order they happened. *)
Definition history (m : mem) : list event := rev (past m).

(** Every object is created once; it is read and deleted only after its creation
    and before it is deleted, hence deleted at most once; and no pointer is used
    that was never set. *)
Definition legal (h : list event) : Prop :=
  forall before e after, h = before ++ e :: after ->
    match e with
    | New a => ~ In (New a) before
    | Use a | Del a => In (New a) before /\ ~ In (Del a) before
    | Wild => False
    end.

(** The object is still there at the end. *)
Definition remains (h : list event) (a : nat) : Prop := In (New a) h /\ ~ In (Del a) h.
(** Everything created has been deleted. *)
Definition all_freed (h : list event) : Prop := forall a, ~ remains h a.

(** The same, computed. *)
Definition is_new (a : nat) (e : event) : bool := match e with New b => Nat.eqb a b | _ => false end.
Definition is_del (a : nat) (e : event) : bool := match e with Del b => Nat.eqb a b | _ => false end.
Definition made_by (h : list event) : list nat := flat_map (fun e => match e with New a => [a] | _ => [] end) h.
Definition remaining (h : list event) : list nat := filter (fun a => negb (existsb (is_del a) h)) (made_by h).

(** The nodes of a policy tree. *)
Fixpoint size (t : node) : nat := S (fold_right (fun k n => size k + n)%nat O (nkids t)).
