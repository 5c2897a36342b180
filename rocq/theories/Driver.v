(** Model of the parser driver: src/lsss/zdriver.cpp, include/lsss/zdriver.h.
    Output to std::cerr/std::cout is not modelled; memory released by the
    parser actions is not modelled.  Functions whose C++ version can shift out
    of range return [UB] there.  Driver::flexint_leader (L380-403) is never
    called and not modelled; [debug] is false (createPolicyTree,
    createAttributeList). *)
From Verif Require Import Base ByteString StrMap Dec UInteger Policy Scanner.
From Coq Require Import ZArith List Ascii Bool.
Import ListNotations.
Open Scope Z_scope.
Open Scope res_scope.

(** include/lsss/zattributelist.h L78-85: m_Attributes, m_OriginalAttributes, m_prefixSet. *)
Record attrlist := { aattrs : list str; aorig : list str; aprefix : list str }.

(** zdriver.h L171-186: the private state. [dispolicy] is isPolicy. *)
Record driver := {
  dcount : smap Z; ddup : list str; dprefix : list str; ddate : list str;
  dorig : list str; dtext : str; dispolicy : bool;
  dpol : option policy; dattr : option attrlist }.

(** L54-57 constructor. *)
Definition new_driver : driver :=
  {| dcount := []; ddup := []; dprefix := []; ddate := []; dorig := []; dtext := [];
     dispolicy := false; dpol := None; dattr := None |}.

(** std::set<std::string>: sorted, without repetition. *)
Fixpoint sins (x : str) (l : list str) : list str :=
  match l with
  | [] => [x]
  | y :: l' => if str_eqb x y then l else if str_ltb x y then x :: l else y :: sins x l'
  end.
Definition smem (x : str) (l : list str) : bool := existsb (str_eqb x) l.

Definition with_counts d c u p : driver :=
  {| dcount := c; ddup := u; dprefix := p; ddate := ddate d; dorig := dorig d; dtext := dtext d;
     dispolicy := dispolicy d; dpol := dpol d; dattr := dattr d |}.

(** L86-95 error. *)
Definition driver_error (d : driver) : driver :=
  {| dcount := dcount d; ddup := ddup d; dprefix := dprefix d; ddate := ddate d; dorig := dorig d;
     dtext := []; dispolicy := dispolicy d;
     dpol := if dispolicy d then None else dpol d;
     dattr := if dispolicy d then dattr d else None |}.

(** zpolicy.cpp L58-61: a new policy. *)
Definition new_policy : policy :=
  {| proot := None; pdup := false; prevoke := false; pcount := []; pset := []; pprefix := []; ptext := [] |}.
(** zpolicy.cpp L146-160 setDuplicateInfo, L96 setRootNode, zfunctioninput.h
    setPrefixSet/setCompactString as used by zdriver.cpp L97-111 set_policy. *)
Definition count_of (c : smap Z) (k : str) : Z := match mget k c with Some n => n | None => 0 end.
Definition set_policy (d : driver) (root : node) : driver :=
  let q := match dpol d with Some q => q | None => new_policy end in
  let q' := {|
    proot := Some root;
    pdup := match ddup d with [] => pdup q | _ => true end;
    prevoke := prevoke q;
    pcount := fold_left (fun m k => mset k (count_of (dcount d) k) m) (ddup d) (pcount q);
    pset := fold_left (fun s k => sins k s) (mkeys (dcount d)) (pset q);
    pprefix := match dprefix d with [] => pprefix q | p => p end;
    ptext := dtext d |} in
  {| dcount := dcount d; ddup := ddup d; dprefix := dprefix d; ddate := ddate d; dorig := dorig d;
     dtext := dtext d; dispolicy := dispolicy d; dpol := Some q'; dattr := dattr d |}.

(** L113-139 set_attrlist; a null list is dereferenced. *)
Definition set_attrlist (d : driver) (l : option (list str)) : res driver :=
  match l with
  | None => UB
  | Some l =>
    Ok {| dcount := dcount d; ddup := ddup d; dprefix := dprefix d; ddate := ddate d; dorig := dorig d;
          dtext := dtext d; dispolicy := dispolicy d; dpol := dpol d;
          dattr := Some {| aattrs := l; aorig := dorig d; aprefix := dprefix d |} |}
  end.

(** zpolicy.cpp L415-424 split: items between delimiters, empty items dropped. *)
Fixpoint split_acc (delim : ascii) (cur : str) (s : str) : list str :=
  match s with
  | [] => match cur with [] => [] | _ => [rev cur] end
  | c :: s' =>
      if ascii_eqb c delim then
        match cur with [] => split_acc delim [] s' | _ => rev cur :: split_acc delim [] s' end
      else split_acc delim (c :: cur) s'
  end.
Definition split (s : str) (delim : ascii) : list str := split_acc delim [] s.

(** L818-823 joining with ':'. *)
Fixpoint join (l : list str) : str :=
  match l with
  | [] => []
  | [x] => x
  | x :: l' => x ++ [colon] ++ join l'
  end.
(** L798-828 check_attribute (list[0] of an empty list is UB). *)
Definition check_attribute (c : str) : res (str * str) :=
  if existsb (fun x => ascii_eqb x colon) c then
    match split c colon with
    | [] => UB
    | p :: rest => Ok (p, join rest)
    end
  else Ok ([], c).

(** L219-242 leaf_node. *)
Definition leaf_node (d : driver) (c : str) : res (node * driver) :=
  do (prefix, attribute) <- check_attribute c;
  let '(index, cnt, dup) :=
    match mget c (dcount d) with
    | None => (0, mset c 1 (dcount d), ddup d)
    | Some n => (n, mset c (n + 1) (dcount d), sins c (ddup d))
    end in
  let pre := match prefix with [] => dprefix d | _ => sins prefix (dprefix d) end in
  Ok (Leaf prefix attribute index, with_counts d cnt dup pre).

(** L244-269 kof2_tree: setNodeType keeps AND/OR, setThresholdValue only stores
    k for THRESHOLD gates (zpolicy.cpp L221-231). *)
Definition kof2_tree (k : Z) (l r : node) : node :=
  if k =? 1 then Gate GateOr [l; r]
  else if k =? 2 then Gate GateAnd [l; r]
  else Node GateThreshold k [] [] 0 [l; r].

(** L311-353 checkValidBit; powers of two between 4 and 32. *)
Definition check_valid_bit (value bits : Z) : bool :=
  if (bits <? 4) || (32 <? bits) then false
  else if negb (Z.land bits (bits - 1) =? 0) then false
  else
    let max := if bits =? 4 then 15 else if bits =? 8 then 255
               else if bits =? 16 then 65535 else if bits =? 32 then 4294967295 else 0 in
    negb (max <? value).
(** L303-309 create_expint (bits is converted to uint16_t), create_flexint. *)
Definition create_expint (value bits : Z) : uint := {| uval := value; ubits := bits mod 2^16 |}.
Definition create_flexint (value : Z) : uint := {| uval := value; ubits := 32 |}.

Definition xs (n : Z) : str := repeat "x"%char (Z.to_nat n).
(** std::setw(2), setfill('0'). *)
Definition pad2 (s : str) : str := match s with [c] => "0"%char :: s | [] => L "00" | _ => s end.
(** L428-447 bit_marker. *)
Definition bit_marker (flex : bool) (base : str) (bit : Z) (v : bool) (bit_count : Z) : str :=
  base ++ (if flex then L "_flexint_" else L "_expint" ++ pad2 (dec bit_count) ++ L "_")
       ++ xs (32 - bit - 1) ++ (if v then L "1" else L "0") ++ xs bit.

(** L361-362: the first i from [i] on whose bit of value differs from gt; the
    shift count must stay below 32. *)
Fixpoint first_bit (fuel : nat) (gt : bool) (value i : Z) : res Z :=
  match fuel with
  | O => UB
  | S f => if Bool.eqb (Z.testbit value i) gt then first_bit f gt value (i + 1) else Ok i
  end.
(** L365-375: n more levels above bit i. *)
Fixpoint marker_levels (n : nat) (flex gt : bool) (attr : str) (bits value i : Z) (p : node) (d : driver)
  : res (node * driver) :=
  match n with
  | O => Ok (p, d)
  | S n' =>
      do (l, d') <- leaf_node d (bit_marker flex attr i gt bits);
      let k := if gt then (if Z.testbit value i then 2 else 1)
               else (if Z.testbit value i then 1 else 2) in
      marker_levels n' flex gt attr bits value (i + 1) (kof2_tree k l p) d'
  end.
(** L355-378 bit_marker_list. *)
Definition bit_marker_list (d : driver) (flex gt : bool) (attr : str) (bits value : Z) : res (node * driver) :=
  do i <- first_bit 32 gt value 0;
  do (p, d1) <- leaf_node d (bit_marker flex attr i gt bits);
  marker_levels (Z.to_nat (bits - (i + 1))) flex gt attr bits value (i + 1) p d1.
(** L405-426 cmp_policy. *)
Definition cmp_policy (d : driver) (u : uint) (gt : bool) (attr : str) : res (node * driver) :=
  let bits := ubits u in
  let value := uval u in
  let bits' := if bits =? 0 then
                 (if 65536 <=? value then 32 else if 256 <=? value then 16
                  else if 16 <=? value then 8 else if 4 <=? value then 4 else 2)
               else bits in
  bit_marker_list d (bits =? 0) gt attr bits' value.
(** L449-469 eq_policy; bits i-1 … 0 below the first leaf. *)
Fixpoint eq_levels (i : nat) (flex : bool) (attr : str) (bit_count value : Z) (p : node) (d : driver)
  : res (node * driver) :=
  match i with
  | O => Ok (p, d)
  | S i' =>
      do (l, d') <- leaf_node d (bit_marker flex attr (Z.of_nat i') (Z.testbit value (Z.of_nat i')) bit_count);
      eq_levels i' flex attr bit_count value (kof2_tree 2 p l) d'
  end.
Definition eq_policy (d : driver) (c : str) (u : uint) : res (node * driver) :=
  let flex := ubits u =? 0 in
  let bit_count := if flex then 32 else ubits u in
  let last := bit_count in
  do (p, d1) <- leaf_node d (bit_marker flex c (last - 1) (Z.testbit (uval u) (last - 1)) bit_count);
  eq_levels (Z.to_nat (last - 1)) flex c bit_count (uval u) p d1.

(** L471-487. *)
Definition lt_policy (d : driver) (a : str) (u : uint) := cmp_policy d u false a.
Definition gt_policy (d : driver) (a : str) (u : uint) := cmp_policy d u true a.
Definition le_policy (d : driver) (a : str) (u : uint) := cmp_policy d (uint_add u 1) false a.
Definition ge_policy (d : driver) (a : str) (u : uint) := cmp_policy d (uint_sub u 1) true a.

(** L489-505 and L507-524; the checks on the bounds have empty bodies. *)
Definition range_policy (d : driver) (c : str) (lo hi : uint) : res (node * driver) :=
  do (l, d1) <- gt_policy d c lo;
  do (r, d2) <- lt_policy d1 c hi;
  Ok (Gate GateAnd [l; r], d2).
Definition range_incl_policy (d : driver) (c : str) (lo hi : uint) : res (node * driver) :=
  do (l, d1) <- ge_policy d c lo;
  do (r, d2) <- le_policy d1 c hi;
  Ok (Gate GateAnd [l; r], d2).

(** ** Dates *)

(** L551-580 get_month. *)
Definition months : list (str * Z) :=
  [ (L "January", 1); (L "Jan", 1); (L "February", 2); (L "Feb", 2); (L "March", 3); (L "Mar", 3);
    (L "April", 4); (L "Apr", 4); (L "May", 5); (L "June", 6); (L "Jun", 6); (L "July", 7); (L "Jul", 7);
    (L "August", 8); (L "Aug", 8); (L "September", 9); (L "Sep", 9); (L "October", 10); (L "Oct", 10);
    (L "November", 11); (L "Nov", 11); (L "December", 12); (L "Dec", 12) ].
Fixpoint assoc (k : str) (l : list (str * Z)) : Z :=
  match l with [] => 0 | (k', v) :: l' => if str_eqb k k' then v else assoc k l' end.
Definition get_month (m : str) : Z := assoc m months.

(** struct tm: the three fields the code sets; [tm_rest] stands for the others. *)
Record tm := { tm_year : Z; tm_mon : Z; tm_mday : Z; tm_rest : Z }.
(** Conversion of a 32-bit pattern to int. *)
Definition to_int (z : Z) : Z := let w := z mod 2^32 in if w <? 2^31 then w else w - 2^32.
(** L610-611: time_t s is converted to size_t by the division by DAY_IN_SECS. *)
Definition in_days (s : Z) : Z := ((s mod 2^64) / 86400) mod 2^32.
Definition tm_of (m d y : Z) : tm :=
  {| tm_year := to_int (y - 1900); tm_mon := to_int (m - 1); tm_mday := to_int d; tm_rest := 0 |}.

Definition TIME_KEYWORD := L "time".
(** L655-659 and the same lines of the other date functions. *)
Definition date_attr (prefix : str) : str :=
  if str_eqb prefix TIME_KEYWORD then prefix else prefix ++ [colon] ++ TIME_KEYWORD.

Section Dates.
(** mktime of the C library: the result and the normalised struct. *)
Variable mktime : tm -> Z * tm.

(** L582-616 validate_date: the tests have empty bodies. *)
Definition validate_date (m d y : Z) : Z := in_days (fst (mktime (tm_of m d y))).

(** L645-732: the five operators. *)
Inductive cmpop := OpLt | OpGt | OpLe | OpGe | OpEq.
Definition num_policy (op : cmpop) : driver -> str -> uint -> res (node * driver) :=
  match op with
  | OpLt => lt_policy | OpGt => gt_policy | OpLe => le_policy | OpGe => ge_policy | OpEq => eq_policy
  end.
Definition date_policy (op : cmpop) (dr : driver) (prefix : str) (m : Z) (d y : uint) : res (node * driver) :=
  let s := validate_date m (uval d) (uval y) in
  num_policy op dr (date_attr prefix) {| uval := s; ubits := 32 |}.

(** L734-767 range_date_in_policy: the second mktime reuses the struct the first
    one normalised. *)
Definition range_date_in_policy (dr : driver) (prefix : str) (m : Z) (lo hi y : uint) : res (node * driver) :=
  let '(s1, t1) := mktime (tm_of m (uval lo) (uval y)) in
  let t2 := {| tm_year := tm_year t1; tm_mon := tm_mon t1; tm_mday := to_int (uval hi); tm_rest := tm_rest t1 |} in
  let '(s2, _) := mktime t2 in
  do (l, d1) <- ge_policy dr (date_attr prefix) {| uval := in_days s1; ubits := 32 |};
  do (r, d2) <- le_policy d1 (date_attr prefix) {| uval := in_days s2; ubits := 32 |};
  Ok (Gate GateAnd [l; r], d2).

(** ** Attribute lists *)

(** L769-796 assign_stmt: the markers of bits last-1 … 0, nothing if the value
    does not fit. *)
Definition assign_stmt (c : str) (u : uint) : list str :=
  let flex := ubits u =? 0 in
  let bit_count := if flex then 32 else ubits u in
  if negb flex && negb (check_valid_bit (uval u) (ubits u)) then []
  else
    let last := if bit_count <? 32 then bit_count + 2 else bit_count in
    map (fun i => bit_marker flex c i (Z.testbit (uval u) i) bit_count)
        (rev (map Z.of_nat (seq 0 (Z.to_nat last)))).

(** zinteger.h L66-73 operator<<. *)
Definition uint_text (u : uint) : str :=
  dec (uval u) ++ (if (0 <? ubits u) && (ubits u <? 32) then L "#" ++ dec (ubits u) else []).

Definition with_orig d o dt : driver :=
  {| dcount := dcount d; ddup := ddup d; dprefix := dprefix d; ddate := dt; dorig := o; dtext := dtext d;
     dispolicy := dispolicy d; dpol := dpol d; dattr := dattr d |}.

(** L141-154 attr_num: attr_count[c] inserts 0 for a new name. *)
Definition attr_num (d : driver) (c : str) (u : uint) : list str * driver :=
  let n := count_of (dcount d) c in
  let d1 := with_counts d (mset c n (dcount d)) (ddup d) (dprefix d) in
  if 1 <=? n then ([], d1)
  else (assign_stmt c u, with_orig d1 (dorig d1 ++ [c ++ L "=" ++ uint_text u]) (ddate d1)).

(** L156-173 set_date_in_attrlist. *)
Definition set_date_in_attrlist (dr : driver) (prefix month : str) (m : Z) (d y : uint) : list str * driver :=
  let s := validate_date m (uval d) (uval y) in
  if smem prefix (ddate dr) then ([], dr)
  else (assign_stmt (prefix ++ [colon] ++ TIME_KEYWORD) {| uval := s; ubits := 32 |},
        with_orig dr (dorig dr ++ [prefix ++ L "=" ++ month ++ L " " ++ uint_text d ++ L ", " ++ uint_text y])
                  (sins prefix (ddate dr))).

(** L175-191 parse_attribute and L193-204 leaf_attr (None is the null pointer). *)
Definition leaf_attr (d : driver) (c : str) : res (option (list str) * driver) :=
  do (prefix, _) <- check_attribute c;
  match mget c (dcount d) with
  | Some _ => Ok (None, d)
  | None =>
      Ok (Some [c], with_counts d (mset c 1 (dcount d)) (ddup d)
                      (match prefix with [] => dprefix d | _ => sins prefix (dprefix d) end))
  end.

(** L206-217 concat_attr. *)
Definition concat_attr (a b : option (list str)) : list str :=
  match a with Some a => a | None => [] end ++ match b with Some b => b | None => [] end.

(** ** Parser actions (zparser.yy L112-185; zparser.tab.cc L700-893) *)

(** The union of semantic values. *)
Inductive sval :=
| VTok (v : yylval) | VNum (u : uint) | VTree (n : node) | VList (l : option (list str)).

Definition tree_of (m : res (node * driver)) : res (option (sval * driver)) :=
  do (n, d) <- m; Ok (Some (VTree n, d)).

(** [None] is YYERROR.  Reading a member of the union that was not written is
    UB (the last line; never reached, ParserProofs.v). *)
Definition action (rule : Z) (args : list sval) (d : driver) : res (option (sval * driver)) :=
  match rule, args with
  | 2, [v; VTree t] => Ok (Some (v, set_policy d t))
  | 3, [v; VList l] => do d' <- set_attrlist d l; Ok (Some (v, d'))
  | 4, [VTok (UIntVal a); _; VTok (UIntVal b)] =>
      if check_valid_bit a b then Ok (Some (VNum (create_expint a b), d)) else Ok None
  | 5, [VTok (UIntVal a)] => Ok (Some (VNum (create_flexint a), d))
  | 6, [VTok (StrVal s)] => tree_of (leaf_node d s)
  | 7, [VTree a; _; VTree b] => Ok (Some (VTree (kof2_tree 1 a b), d))
  | 8, [VTree a; _; VTree b] => Ok (Some (VTree (kof2_tree 2 a b), d))
  | 9, [VTok (StrVal s); _; VNum u] => tree_of (lt_policy d s u)
  | 10, [VTok (StrVal s); _; VNum u] => tree_of (gt_policy d s u)
  | 11, [VTok (StrVal s); _; VNum u] => tree_of (le_policy d s u)
  | 12, [VTok (StrVal s); _; VNum u] => tree_of (ge_policy d s u)
  | 13, [VTok (StrVal s); _; VNum u] => tree_of (eq_policy d s u)
  | 14, [_; VTree a; _] => Ok (Some (VTree a, d))
  | 15, [VTok (StrVal s); _; _; VNum a; _; VNum b; _] => tree_of (range_policy d s a b)
  | 16, [VTok (StrVal s); _; _; VNum a; _; VNum b; _] => tree_of (range_incl_policy d s a b)
  | 17, [VTok (StrVal s); _; VTok (StrVal m); VNum dd; _; VNum y] => tree_of (date_policy OpEq d s (get_month m) dd y)
  | 18, [VTok (StrVal s); _; VTok (StrVal m); VNum lo; _; VNum hi; _; VNum y] =>
      tree_of (range_date_in_policy d s (get_month m) lo hi y)
  | 19, [VTok (StrVal s); _; VTok (StrVal m); VNum dd; _; VNum y] => tree_of (date_policy OpGt d s (get_month m) dd y)
  | 20, [VTok (StrVal s); _; VTok (StrVal m); VNum dd; _; VNum y] => tree_of (date_policy OpLt d s (get_month m) dd y)
  | 21, [VTok (StrVal s); _; VTok (StrVal m); VNum dd; _; VNum y] => tree_of (date_policy OpGe d s (get_month m) dd y)
  | 22, [VTok (StrVal s); _; VTok (StrVal m); VNum dd; _; VNum y] => tree_of (date_policy OpLe d s (get_month m) dd y)
  | 23, [VTok (StrVal s)] => do (l, d') <- leaf_attr d s; Ok (Some (VList l, d'))
  | 24, [_; VList a] => Ok (Some (VList (Some (concat_attr a None)), d))
  | 25, [VList a; _] => Ok (Some (VList (Some (concat_attr a None)), d))
  | 26, [VList a; _; VList b] => Ok (Some (VList (Some (concat_attr a b)), d))
  | 27, [VTok (StrVal s); _; VNum u] => let '(l, d') := attr_num d s u in Ok (Some (VList (Some l), d'))
  | 28, [VTok (StrVal s); _; VTok (StrVal m); VNum dd; _; VNum y] =>
      let '(l, d') := set_date_in_attrlist d s m (get_month m) dd y in Ok (Some (VList (Some l), d'))
  | _, _ => UB
  end.
End Dates.
