(** Model of policy trees: src/lsss/zpolicy.cpp, include/lsss/zpolicy.h. *)
From Verif Require Import Base StrMap Dec.
From Coq Require Import ZArith List Ascii Bool.
Import ListNotations.
Open Scope Z_scope.

(** zpolicy.h L51-62 zGateType; the gates never produced nor interpreted by the
    library (XOR, NOT, ...) are merged into [GateOther]. *)
Inductive gate := GateNone | GateLeaf | GateAnd | GateOr | GateThreshold | GateOther.

Definition gate_eqb (a b : gate) : bool :=
  match a, b with
  | GateNone, GateNone | GateLeaf, GateLeaf | GateAnd, GateAnd
  | GateOr, GateOr | GateThreshold, GateThreshold | GateOther, GateOther => true
  | _, _ => false
  end.

(** zpolicy.h L70-88 OpenABETreeNode: the immutable part.  The mutable flags
    m_Mark, m_Satisfied and m_Visited live in a separate state keyed by the
    position of the node (see [fstate]).  Sharing of a subtree between two
    parents is not modelled (the parser never creates it). *)
Inductive node := Node (ty : gate) (thr : Z) (prefix label : str) (index : Z) (kids : list node).

Definition ntype (n : node) : gate := let 'Node t _ _ _ _ _ := n in t.
Definition nthr (n : node) : Z := let 'Node _ k _ _ _ _ := n in k.
Definition nprefix (n : node) : str := let 'Node _ _ p _ _ _ := n in p.
Definition nlabel (n : node) : str := let 'Node _ _ _ l _ _ := n in l.
Definition nindex (n : node) : Z := let 'Node _ _ _ _ i _ := n in i.
(** zpolicy.h L90 getNumSubnodes is the size of m_Subnodes. *)
Definition nkids (n : node) : list node := let 'Node _ _ _ _ _ ks := n in ks.

(** zpolicy.cpp L186-190 leaf constructor and gates as built by Driver. *)
Definition Leaf (prefix label : str) (index : Z) : node := Node GateLeaf 0 prefix label index [].
Definition Gate (t : gate) (ks : list node) : node := Node t 0 [] [] 0 ks.

Definition colon : ascii := z2b 58.

(** zpolicy.h L106-114 getCompleteLabel. *)
Definition complete_label (n : node) : str :=
  match nprefix n with
  | [] => nlabel n
  | p => p ++ [colon] ++ nlabel n
  end.

(** zpolicy.cpp L199-219 getThresholdValue. *)
Definition threshold_value (n : node) : Z :=
  match ntype n with
  | GateAnd => Z.of_nat (length (nkids n))
  | GateOr => 1
  | GateThreshold => nthr n
  | _ => 0
  end.

(** ** Mutable flags *)

(** m_Mark, m_Satisfied, m_Visited. *)
Record flags := { fmark : bool; fsat : Z; fvisited : bool }.
(** A node is addressed by the list of child indices leading to it, innermost
    first; the root is []. *)
Definition path := list nat.
Definition fstate := path -> flags.
(** zpolicy.cpp L176-190: constructors set m_Mark and m_Visited to false;
    m_Satisfied is not initialised by the constructors (0 here; it is never read
    before being written by a scan, see Lsss.v). *)
Definition fresh_flags : flags := {| fmark := false; fsat := 0; fvisited := false |}.
Definition fresh : fstate := fun _ => fresh_flags.

Fixpoint path_eqb (a b : path) : bool :=
  match a, b with
  | [], [] => true
  | x :: a', y :: b' => Nat.eqb x y && path_eqb a' b'
  | _, _ => false
  end.
Definition fupd (st : fstate) (p : path) (f : flags) : fstate :=
  fun q => if path_eqb p q then f else st q.

(** A pointer to a node: its position and its contents. *)
Definition ptr := (path * node)%type.
Definition kid_ptrs (q : ptr) : list ptr :=
  let '(p, n) := q in
  map (fun '(i, k) => (i :: p, k)) (combine (seq 0 (length (nkids n))) (nkids n)).

(** zpolicy.h L93-97 setMark. *)
Definition set_mark (st : fstate) (p : path) (m : bool) (s : Z) : fstate :=
  fupd st p {| fmark := m; fsat := s; fvisited := fvisited (st p) |}.
Definition set_visited (st : fstate) (p : path) (v : bool) : fstate :=
  fupd st p {| fmark := fmark (st p); fsat := fsat (st p); fvisited := v |}.

(** zpolicy.cpp L346-371 resetFlags: explicit stack.  Fuel: one unit per
    iteration; None when it runs out. *)
Fixpoint reset_loop (fuel : nat) (stack : list ptr) (st : fstate) : option fstate :=
  match stack with
  | [] => Some st
  | (p, n) :: rest =>
      match fuel with
      | O => None
      | S f =>
          let st1 := set_mark st p false 0 in
          let st2 := set_visited st1 p false in
          match ntype n with
          | GateLeaf => reset_loop f rest st2
          | _ => reset_loop f (rev (kid_ptrs (p, n)) ++ rest) st2
          end
      end
  end.

(** Number of nodes of a tree. *)
Fixpoint tree_size (n : node) : nat :=
  let 'Node _ _ _ _ _ ks := n in
  S (fold_right (fun k a => tree_size k + a)%nat O ks).

Definition reset_flags (root : node) (st : fstate) : option fstate :=
  reset_loop (tree_size root) [([], root)] st.

(** ** Policies *)

(** zpolicy.h L127-133 OpenABEPolicy (the flags of its nodes are kept apart).
    [prevoke] is m_enabledRevocation, [pset] m_attrCompleteSet, [pprefix] the
    inherited m_prefixSet. *)
Record policy := {
  proot : option node;
  pdup : bool;
  prevoke : bool;
  pcount : smap Z;
  pset : list str;
  pprefix : list str;
  ptext : str }.

(** ** Printing (zpolicy.cpp L284-341) *)

Definition sep : str := L ", ".
(** tree.erase(tree.size()-2, ...): for a node without children this removes the
    last two characters of the text built so far (for a plain "(" the position
    wraps to npos-1 > size and std::out_of_range is thrown). *)
Fixpoint node_to_string (n : node) : str :=
  let 'Node t k p l _ ks := n in
  match t with
  | GateLeaf => complete_label n
  | _ =>
      let op := match t with
                | GateAnd => L " and " | GateOr => L " or "
                | GateThreshold => dec k ++ L " of " | _ => [] end in
      match ks with
      | [a; b] =>
          match t with
          | GateAnd | GateOr => L "(" ++ node_to_string a ++ op ++ node_to_string b ++ L ")"
          | _ => L "()"
          end
      | _ =>
          let head := match t with
                      | GateAnd => dec (Z.of_nat (length ks)) ++ L " of "
                      | GateOr => L "1 of " | _ => [] end in
          let body := head ++ L "(" ++ concat (map (fun c => node_to_string c ++ sep) ks) in
          firstn (length body - 2) body ++ L ")"
      end
  end.

(** ** Copying (zpolicy.cpp L244-277, L68-84, L132-144)

    The copy of a leaf keeps only its type, prefix and label: m_Index stays
    uninitialised (the value [junk] below, one per leaf position). *)
Fixpoint copy_node (junk : path -> Z) (p : path) (n : node) : node :=
  let 'Node t k pr l i ks := n in
  match t with
  | GateLeaf => Node GateLeaf 0 pr l (junk p) []
  | _ => Node t k [] [] i
           ((fix go (j : nat) (l : list node) : list node :=
               match l with [] => [] | c :: l' => copy_node junk (j :: p) c :: go (S j) l' end) O ks)
  end.
Definition copy_policy (junk : path -> Z) (q : policy) : policy :=
  {| proot := match proot q with Some r => Some (copy_node junk [] r) | None => None end;
     pdup := pdup q; prevoke := prevoke q; pcount := pcount q; pset := pset q;
     pprefix := pprefix q; ptext := ptext q |}.
(** L132-144 operator=: only the root is assigned; rhs without root is a null
    pointer dereference (None). *)
Definition assign_policy (junk : path -> Z) (this rhs : policy) : option policy :=
  match proot rhs with
  | Some r => Some {| proot := Some (copy_node junk [] r); pdup := pdup this; prevoke := prevoke this;
                      pcount := pcount this; pset := pset this; pprefix := pprefix this; ptext := ptext this |}
  | None => None
  end.
