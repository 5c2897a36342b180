(** The recursive functions on policies, run with room for a given number of
    nested calls.  [None] is running out of stack: the behaviour of the C++ program
    is then undefined. *)
From Verif Require Import Base Dec Policy.
From Coq Require Import ZArith List Ascii Bool Lia.
Import ListNotations.
Open Scope Z_scope.

Fixpoint every {A} (l : list (option A)) : option (list A) :=
  match l with
  | [] => Some []
  | None :: _ => None
  | Some x :: l' => match every l' with Some r => Some (x :: r) | None => None end
  end.

(** zpolicy.cpp L284-341 OpenABETreeNode::toString: one call for every node on the
    way down.  The text is the one of [Policy.node_to_string]. *)
Fixpoint print_in (room : nat) (n : node) : option str :=
  match room with
  | O => None
  | S room' =>
      let 'Node t k p l _ ks := n in
      match t with
      | GateLeaf => Some (complete_label n)
      | _ =>
          let op := match t with
                    | GateAnd => L " and " | GateOr => L " or "
                    | GateThreshold => dec k ++ L " of " | _ => [] end in
          match ks with
          | [a; b] =>
              match t with
              | GateAnd | GateOr =>
                  match print_in room' a, print_in room' b with
                  | Some x, Some y => Some (L "(" ++ x ++ op ++ y ++ L ")")
                  | _, _ => None
                  end
              | _ => Some (L "()")
              end
          | _ =>
              let head := match t with
                          | GateAnd => dec (Z.of_nat (length ks)) ++ L " of "
                          | GateOr => L "1 of " | _ => [] end in
              match every (map (print_in room') ks) with
              | Some xs =>
                  let body := head ++ L "(" ++ concat (map (fun x => x ++ sep) xs) in
                  Some (firstn (length body - 2) body ++ L ")")
              | None => None
              end
          end
      end
  end.

(** zpolicy.cpp L244-277 the copy constructor of OpenABETreeNode, as
    [Policy.copy_node]. *)
Fixpoint copy_in (room : nat) (junk : path -> Z) (p : path) (n : node) : option node :=
  match room with
  | O => None
  | S room' =>
      let 'Node t k pr l i ks := n in
      match t with
      | GateLeaf => Some (Node GateLeaf 0 pr l (junk p) [])
      | _ =>
          match every ((fix go (j : nat) (l : list node) : list (option node) :=
                          match l with [] => [] | c :: l' => copy_in room' junk (j :: p) c :: go (S j) l' end) O ks) with
          | Some ks' => Some (Node t k [] [] i ks')
          | None => None
          end
      end
  end.

(** zpolicy.h L149-151 OpenABEPolicy::toString and zpolicy.cpp L68-84 the copy
    constructor of OpenABEPolicy: printing dereferences the root, copying copes with
    a policy that has none. *)
Definition print_policy_in (room : nat) (q : policy) : option str :=
  match proot q with Some r => print_in room r | None => None end.
Definition copy_policy_in (room : nat) (junk : path -> Z) (q : policy) : option policy :=
  match match proot q with Some r => option_map Some (copy_in room junk [] r) | None => Some None end with
  | Some r => Some {| proot := r; pdup := pdup q; prevoke := prevoke q; pcount := pcount q; pset := pset q;
                      pprefix := pprefix q; ptext := ptext q |}
  | None => None
  end.
