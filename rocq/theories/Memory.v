(** Model of the memory the parser and the policies use: which object is
    allocated, read and deleted, and when.  src/lsss/zparser.tab.cc (parse,
    yy_destroy_), zscanner.ll, zdriver.cpp, zpolicy.cpp, zobject.cpp.

    What the objects contain is that of Driver.v and Parser.v.  Here every
    semantic value also carries the address of its object, and every allocation,
    access and deletion is written to a history; nothing is checked (MemorySpec.v
    says what a good history is).  An address is never used twice.  Objects held
    by std::unique_ptr (the policy, the attribute list, the month) and local
    objects are released by the language; of these the policy's root and the month
    are recorded. *)
From Verif Require Import Base StrMap Policy Scanner Driver Parser.
From Coq Require Import ZArith List Ascii Bool.
Import ListNotations.
Open Scope Z_scope.

(** The objects created with new: std::string, OpenABEUInteger,
    std::vector<std::string>, and OpenABETreeNode with its reference count
    (zobject.h L62) and m_Subnodes (zpolicy.h L73). *)
Inductive cell := CStr | CInt | CVec | CNode (rc : Z) (kids : list nat).
(** [Wild]: a member of the union is deleted that was not written last, or the
    pointer does not point to an object of its type. *)
Inductive event := New (a : nat) | Use (a : nat) | Del (a : nat) | Wild.
(** [past] has the latest event first. *)
Record mem := { cells : list cell; past : list event }.

Definition emit (e : event) (m : mem) : mem := {| cells := cells m; past := e :: past m |}.
Definition alloc (c : cell) (m : mem) : nat * mem :=
  (length (cells m), {| cells := cells m ++ [c]; past := New (length (cells m)) :: past m |}).
Fixpoint put (a : nat) (c : cell) (l : list cell) : list cell :=
  match l, a with
  | [], _ => []
  | _ :: l', O => c :: l'
  | x :: l', S a' => x :: put a' c l'
  end.
Definition store (a : nat) (c : cell) (m : mem) : mem := {| cells := put a c (cells m); past := past m |}.

(** ** Nodes *)

(** zobject.h L54 getRefCount. *)
Definition rc_of (m : mem) (a : nat) : Z := match nth_error (cells m) a with Some (CNode rc _) => rc | _ => 0 end.
Definition set_rc (a : nat) (rc : Z) (m : mem) : mem :=
  match nth_error (cells m) a with Some (CNode _ ks) => store a (CNode rc ks) m | _ => emit Wild m end.

(** zobject.cpp L83-89 deRef: the count is unsigned; [del] is "delete this". *)
Definition de_ref (del : nat -> mem -> mem) (k : nat) (m : mem) : mem :=
  let m := emit (Use k) m in
  let rc := rc_of m k in
  let m := set_rc k ((rc - 1) mod 2^32) m in
  if rc <=? 0 then del k m else m.
(** zpolicy.cpp L378-389: one turn of the loop of the destructor. *)
Definition release (del : nat -> mem -> mem) (m : mem) (k : nat) : mem :=
  let m := emit (Use k) m in
  Nat.iter (Z.to_nat (rc_of m k)) (de_ref del k) m.
(** zpolicy.cpp L378-389 ~OpenABETreeNode and the release of its memory.  Fuel:
    the depth of the tree ([Wild] when it runs out). *)
Fixpoint delete_node (fuel : nat) (a : nat) (m : mem) : mem :=
  match fuel with
  | O => emit Wild m
  | S f =>
      match nth_error (cells m) a with
      | Some (CNode _ kids) => emit (Del a) (fold_left (release (delete_node f)) kids (emit (Use a) m))
      | _ => emit Wild m
      end
  end.
Definition delete_tree (a : nat) (m : mem) : mem := delete_node (S a) a m.

(** A tree made by the driver, node by node (zdriver.cpp L241, L245, L497, L516,
    L753); children are allocated before their parent here, whatever the order
    in the code.  The reference count starts at 1 (zobject.cpp L53-56). *)
Fixpoint alloc_tree (t : node) (m : mem) : nat * mem :=
  let '(ks, m1) := fold_left (fun s k => let '(a, m') := alloc_tree k (snd s) in (fst s ++ [a], m')) (nkids t) ([], m) in
  alloc (CNode 1 ks) m1.

(** zpolicy.cpp L245-275 the copy constructor: every node is read and a new one
    made. *)
Fixpoint copy_node (fuel : nat) (a : nat) (m : mem) : nat * mem :=
  match fuel with
  | O => (a, emit Wild m)
  | S f =>
      match nth_error (cells m) a with
      | Some (CNode _ kids) =>
          let '(ks, m1) := fold_left (fun s k => let '(b, m') := copy_node f k (snd s) in (fst s ++ [b], m')) kids ([], emit (Use a) m) in
          alloc (CNode 1 ks) m1
      | _ => (a, emit Wild m)
      end
  end.

(** Reading a whole tree, as sharing a secret over it does (zlsss.cpp L255-300),
    computing coefficients (L545-580) and resetting the marks (zpolicy.cpp
    L345-376). *)
Fixpoint walk_node (fuel : nat) (a : nat) (m : mem) : mem :=
  match fuel with
  | O => emit Wild m
  | S f =>
      match nth_error (cells m) a with
      | Some (CNode _ kids) => fold_left (fun m k => walk_node f k m) kids (emit (Use a) m)
      | _ => emit Wild m
      end
  end.

(** ** Semantic values *)

(** A value of the union and the pointer in it; no pointer for a number, a token
    without a value and the null list. *)
Definition mval := (sval * option nat)%type.

(** zparser.tab.cc L400-437 yy_destroy_ and the destructors of zparser.yy
    L89-92; delete of a null pointer does nothing. *)
Definition is_cell (c : option cell) (k : cell) : bool :=
  match c, k with Some CStr, CStr | Some CInt, CInt | Some CVec, CVec => true | _, _ => false end.
Definition delete_cell (k : cell) (p : option nat) (m : mem) : mem :=
  match p with
  | None => m
  | Some a => if is_cell (nth_error (cells m) a) k then emit (Del a) m else emit Wild m
  end.
Definition destroy (sym : Z) (v : mval) (m : mem) : mem :=
  if sym =? 4 then match fst v with VTok (StrVal _) => delete_cell CStr (snd v) m | _ => emit Wild m end
  else if sym =? 33 then match fst v with VNum _ => delete_cell CInt (snd v) m | _ => emit Wild m end
  else if sym =? 34 then match v with (VTree _, Some a) => delete_tree a m | (VTree _, None) => m | _ => emit Wild m end
  else if sym =? 35 then match fst v with VList _ => delete_cell CVec (snd v) m | _ => emit Wild m end
  else m.

(** zscanner.ll L74-112: a word or an operator makes a string, which is deleted at
    once for keywords and operators and kept for names — and for a word that
    contains the reserved "expint" (L91-93), although the token is then ERROR. *)
Definition read_token (t : tok) (m : mem) : mval * mem :=
  match snd t with
  | StrVal _ => let '(a, m') := alloc CStr m in ((VTok (snd t), Some a), m')
  | v =>
      if existsb (Z.eqb (fst t)) [OR; AND; EQ; LEQ; GEQ; START_POLICY; START_ATTRLIST; IN]
      then let '(a, m') := alloc CStr m in ((VTok v, None), emit (Del a) m')
      else ((VTok v, None), m)
  end.

(** ** Parser actions *)

(** What becomes of the semantic values in an action (zparser.yy L112-185). *)
Inductive made :=
| Keep (i : nat)                  (* $$ = $i *)
| Gate2 (i j : nat)               (* a gate over two trees of the stack *)
| Fresh (c : cell)                (* a new object *)
| FreshTree                       (* a new tree *)
| MaybeVec                        (* a new list or null *)
| Append (i : nat) (j : option nat)  (* concat_attr *)
| SetPolicy (i : nat) | SetAttrs (i : nat).
(** The arguments read, whether a month is made and deleted, the result, the
    arguments deleted; positions from 0. *)
Definition plan (rule : Z) : list nat * bool * made * list nat :=
  match rule with
  | 2 => ([], false, SetPolicy 1, [])
  | 3 => ([], false, SetAttrs 1, [])
  | 4 | 5 => ([], false, Fresh CInt, [])
  | 6 => ([0], false, FreshTree, [0])%nat
  | 7 | 8 => ([], false, Gate2 0 2, [])
  | 9 | 10 | 11 | 12 | 13 => ([0; 2], false, FreshTree, [0; 2])%nat
  | 14 => ([], false, Keep 1, [])
  | 15 | 16 => ([0; 3; 5], false, FreshTree, [0; 3; 5])%nat
  | 17 | 19 | 20 | 21 | 22 => ([0; 2; 3; 5], true, FreshTree, [0; 2; 3; 5])%nat
  | 18 => ([0; 2; 3; 5; 7], true, FreshTree, [0; 2; 3; 5; 7])%nat
  | 23 => ([0], false, MaybeVec, [0])%nat
  | 24 => ([], false, Append 1 None, [])
  | 25 => ([], false, Append 0 None, [])
  | 26 => ([], false, Append 0 (Some 2%nat), [2])%nat
  | 27 => ([0; 2], false, Fresh CVec, [0; 2])%nat
  | 28 => ([0; 2; 3; 5], true, Fresh CVec, [0; 2; 3; 5])%nat
  | _ => ([], false, Keep 0, [])
  end.

Definition no_val : mval := (VTok NoVal, None).
Definition arg (vs : list mval) (i : nat) : mval := nth i vs no_val.
(** Reading through a pointer; a null or missing pointer is wild. *)
Definition use (p : option nat) (m : mem) : mem := match p with Some a => emit (Use a) m | None => emit Wild m end.
(** "delete $i" with the type of the member the action names. *)
Definition delete_arg (v : mval) (m : mem) : mem :=
  match fst v with
  | VTok (StrVal _) => delete_cell CStr (snd v) m
  | VNum _ => delete_cell CInt (snd v) m
  | VList _ => delete_cell CVec (snd v) m
  | _ => emit Wild m
  end.

(** The result of an action: [out] is the value the driver made (Driver.v). *)
Definition make (k : made) (vs : list mval) (out : sval) (root : option nat) (m : mem) : option nat * option nat * mem :=
  match k with
  | Keep i => (snd (arg vs i), root, m)
  | Gate2 i j =>
      match snd (arg vs i), snd (arg vs j) with
      | Some a, Some b => let '(c, m') := alloc (CNode 1 [a; b]) m in (Some c, root, m')
      | _, _ => (None, root, emit Wild m)
      end
  | Fresh c => let '(a, m') := alloc c m in (Some a, root, m')
  | FreshTree =>
      match out with
      | VTree t => let '(a, m') := alloc_tree t m in (Some a, root, m')
      | _ => (None, root, emit Wild m)
      end
  | MaybeVec =>
      match out with
      | VList (Some _) => let '(a, m') := alloc CVec m in (Some a, root, m')
      | _ => (None, root, m)
      end
  | Append i j =>
      (* zdriver.cpp L206-217 *)
      let '(a, m1) := match snd (arg vs i) with Some a => (a, m) | None => alloc CVec m end in
      let m2 := match j with
                | Some j => match snd (arg vs j) with Some b => emit (Use a) (emit (Use b) m1) | None => m1 end
                | None => m1 end in
      (Some a, root, m2)
  | SetPolicy i =>
      (* zdriver.cpp L97-103, zpolicy.cpp L95-98: the root the policy had is deleted *)
      (None, snd (arg vs i), match root with Some a => delete_tree a m | None => m end)
  | SetAttrs i =>
      (* zdriver.cpp L133-137 *)
      (None, root, delete_cell CVec (snd (arg vs i)) (use (snd (arg vs i)) m))
  end.

Section Run.
Variable mktime : tm -> Z * tm.

(** One action: values as in [action]; what it does to the memory as planned.
    Where [action] does not return, neither does the effect after the reads. *)
Definition maction (rule : Z) (vs : list mval) (d : driver) (root : option nat) (m : mem)
  : res (option (mval * driver)) * option nat * mem :=
  let '(reads, month, k, dels) := plan rule in
  let '(mo, m1) := if month then let '(a, m') := alloc CInt m in (Some a, m') else (None, m) in
  let m2 := fold_left (fun m i => use (snd (arg vs i)) m) reads m1 in
  match action mktime rule (map fst vs) d with
  | Ok (Some (out, d')) =>
      let '(p, root', m3) := make k vs out root m2 in
      let m4 := fold_left (fun m i => delete_arg (arg vs i) m) dels m3 in
      (Ok (Some ((out, p), d')), root', delete_cell CInt mo m4)
  | Ok None => (Ok None, root, delete_cell CInt mo m2)
  | Throw e => (Throw e, root, m2)
  | UB => (UB, root, m2)
  | Exit => (Exit, root, m2)
  | NoFuel => (NoFuel, root, m2)
  end.

(** zparser.tab.cc L1036-1044 and L985-995: every entry but the bottom one. *)
Fixpoint pop_all (stack : list (Z * mval)) (m : mem) : mem :=
  match stack with
  | [] | [_] => m
  | (s, v) :: rest => pop_all rest (destroy (znth yystos s) v m)
  end.
Definition drop_la (la : option (tok * mval)) (m : mem) : mem :=
  match la with Some ((c, _), v) => destroy (yytranslate c) v m | None => m end.
(** zdriver.cpp L86-95: error() resets the policy (if it parses a policy). *)
Definition error_root (d : driver) (root : option nat) (m : mem) : option nat * mem :=
  if dispolicy d then (None, match root with Some a => delete_tree a m | None => m end) else (root, m).

(** L599-618: a state whose row is empty takes its default reduction without
    reading; any other state reads a token if there is none. *)
Definition peek (s : Z) (la : option (tok * mval)) (toks : list tok) (m : mem) : option (tok * mval) * list tok * mem :=
  if znth yypact s =? yypact_ninf then (la, toks, m)
  else match la with
       | Some _ => (la, toks, m)
       | None => let t := hd (END, NoVal) toks in
                 let '(v, m') := read_token t m in (Some (t, v), tl toks, m')
       end.

(** L543-1056 parse: [run] of Parser.v with the lookahead token read when the
    tables need it. *)
Fixpoint mrun (fuel : nat) (stack : list (Z * mval)) (la : option (tok * mval)) (toks : list tok)
  (d : driver) (root : option nat) (m : mem) : res (presult driver) * option nat * mem :=
  match fuel with
  | O => (NoFuel, root, m)
  | S f =>
    match stack with
    | [] => (UB, root, m)
    | (s, _) :: _ =>
      if s =? yyfinal then (Ok (Accepted d), root, pop_all stack (drop_la la m))
      else
        let '(la, toks, m) := peek s la toks m in
        let sym := match la with Some ((c, _), _) => yytranslate c | None => 0 end in
        match move s sym with
        | Fail =>
            let '(root', m1) := error_root d root m in
            (Ok (SyntaxError d), root', drop_la la (pop_all stack m1))
        | Shift s' =>
            let v := match la with Some (_, v) => v | None => no_val end in
            mrun f ((s', v) :: stack) None toks d root m
        | Reduce r =>
            let n := Z.to_nat (znth yyr2 r) in
            match skipn n stack with
            | [] => (UB, root, m)
            | (s0, v0) :: below =>
                match maction r (map snd (rev (firstn n stack))) d root m with
                | (Ok (Some (v, d')), root', m') =>
                    mrun f ((goto_state s0 (znth yyr1 r), v) :: (s0, v0) :: below) la toks d' root' m'
                | (Ok None, root', m') => (Ok (Aborted d), root', drop_la la (pop_all (skipn n stack) m'))
                | (Throw e, root', m') => (Throw e, root', pop_all stack (drop_la la m'))
                | (UB, root', m') => (UB, root', m')
                | (Exit, root', m') => (Exit, root', m')
                | (NoFuel, root', m') => (NoFuel, root', m')
                end
            end
        end
    end
  end.

(** parse_string of Parser.v in memory [m]; the second component is the root of
    the policy the driver then holds. *)
Definition parse_in (ispol : bool) (text : str) (m : mem) : res driver * option nat * mem :=
  let prefix := if ispol then L "[0]: " else L "[1]: " in
  let d0 := {| dcount := []; ddup := []; dprefix := []; ddate := []; dorig := []; dtext := text;
               dispolicy := ispol; dpol := None; dattr := None |} in
  let toks := lex (prefix ++ text) in
  let '(r, root, m') := mrun (parse_fuel toks) [(0, no_val)] None toks d0 None m in
  (match r with
   | Ok (Accepted d) => Ok d
   | Ok (SyntaxError d) => Ok (driver_error d)
   | Ok (Aborted d) => Ok d
   | Throw e => Throw e | UB => UB | Exit => Exit | NoFuel => NoFuel
   end, root, m').

(** ** Policies and attribute lists in a program *)

(** A program's variables of type OpenABEPolicy: [None] is a destroyed object or
    the null pointer, [Some r] an object whose m_rootNode is [r]. *)
Record prog := { pols : list (option (option nat)); pmem : mem }.
Inductive op :=
| Parse (text : str)          (* createPolicyTree, zpolicy.cpp L103-117 *)
| ParseList (text : str)      (* createAttributeList, zattributelist.cpp L235-249 *)
| Walk (i : nat)              (* any use of the policy's tree, zlsss.cpp L255-300 *)
| Copy (i : nat)              (* copy constructor, zpolicy.cpp L68-85 *)
| Assign (i j : nat)          (* operator=, zpolicy.cpp L132-143 *)
| Destroy (i : nat).          (* destructor, zpolicy.cpp L91-93 *)

Fixpoint update {A} (i : nat) (x : A) (l : list A) : list A :=
  match l, i with
  | [], _ => []
  | _ :: l', O => x :: l'
  | y :: l', S i' => y :: update i' x l'
  end.
Definition live (p : prog) (i : nat) : option (option nat) :=
  match nth_error (pols p) i with Some (Some r) => Some r | _ => None end.
Definition drop (r : option nat) (m : mem) : mem := match r with Some a => delete_tree a m | None => m end.

(** An operation on an object that does not exist is no operation of a program
    and does nothing here.  An exception leaves no object and the program goes
    on.  [None] in the result of the whole: the operation is
    undefined (a date outside the range of time_t, C13; operator= from a policy
    without a root, C64). *)
Definition step (o : op) (p : prog) : option prog :=
  match o with
  | Parse [] => Some {| pols := pols p ++ [None]; pmem := pmem p |}
  | Parse text =>
      match parse_in true text (pmem p) with
      | (Ok d, root, m) =>
          Some {| pols := pols p ++ [match dpol d with Some _ => Some root | None => None end]; pmem := m |}
      | (Throw _, _, m) => Some {| pols := pols p ++ [None]; pmem := m |}
      | _ => None
      end
  | ParseList [] => Some p
  | ParseList text =>
      match parse_in false text (pmem p) with
      | (Ok _, _, m) | (Throw _, _, m) => Some {| pols := pols p; pmem := m |}
      | _ => None
      end
  | Walk i =>
      match live p i with
      | Some (Some a) => Some {| pols := pols p; pmem := walk_node (S a) a (pmem p) |}
      | _ => Some p
      end
  | Copy i =>
      match live p i with
      | None => Some p
      | Some None => Some {| pols := pols p ++ [Some None]; pmem := pmem p |}
      | Some (Some a) =>
          let '(b, m) := copy_node (S a) a (pmem p) in
          Some {| pols := pols p ++ [Some (Some b)]; pmem := m |}
      end
  | Assign i j =>
      match live p i, live p j with
      | Some r, Some r' =>
          if Nat.eqb i j then Some p
          else match r' with
               | None => None
               | Some a => let '(b, m) := copy_node (S a) a (drop r (pmem p)) in
                           Some {| pols := update i (Some (Some b)) (pols p); pmem := m |}
               end
      | _, _ => Some p
      end
  | Destroy i =>
      match live p i with
      | None => Some p
      | Some r => Some {| pols := update i None (pols p); pmem := drop r (pmem p) |}
      end
  end.
Fixpoint steps (l : list op) (p : prog) : option prog :=
  match l with [] => Some p | o :: l' => match step o p with Some p' => steps l' p' | None => None end end.
Definition program (l : list op) : option prog := steps l {| pols := []; pmem := {| cells := []; past := [] |} |}.
End Run.
