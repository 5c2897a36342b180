(** Model of src/lsss/zattributelist.cpp. *)
From Verif Require Import Base Dec Policy Scanner Driver Parser.
From Coq Require Import ZArith List Ascii Bool.
Import ListNotations.
Open Scope Z_scope.

Definition bar : ascii := "|"%char.
Definition no_attrs : attrlist := {| aattrs := []; aorig := []; aprefix := [] |}.

(** L84-89 copy constructor (and zattributelist.h L76 clone). *)
Definition copy_list (l : attrlist) : attrlist :=
  {| aattrs := aattrs l; aorig := aorig l; aprefix := aprefix l |}.

(** L103-105 getStringList. *)
Definition get_string_list (l : attrlist) : list str := aattrs l.

(** L112-119 syncOrigAttributes: originals containing the prefix anywhere. *)
Definition sync_orig (prefix : str) (from this : attrlist) : attrlist :=
  {| aattrs := aattrs this;
     aorig := aorig this ++ filter (contains prefix) (aorig from);
     aprefix := aprefix this |}.

(** L126-129 matchAttribute. *)
Definition list_match (l : attrlist) (a : str) : bool := existsb (fun x => str_eqb x a) (aattrs l).

Section Parse.
Variable mktime : tm -> Z * tm.

(** L131-162 addAttribute (always returns true).  The result of
    createAttributeList is dereferenced without a check: the null pointer is UB. *)
Definition add_attribute (l : attrlist) (a : str) : res attrlist :=
  let pre :=
    if existsb (fun c => ascii_eqb c colon) a then
      match Driver.split a colon with
      | p :: _ :: _ => sins p (aprefix l)
      | _ => aprefix l
      end
    else aprefix l in
  if negb (existsb (fun c => ascii_eqb c "="%char) a) then
    Ok {| aattrs := aattrs l ++ [a]; aorig := aorig l; aprefix := pre |}
  else
    do o <- create_attribute_list mktime (bar :: a);
    match o with
    | None => UB
    | Some m => Ok {| aattrs := aattrs l ++ aattrs m; aorig := aorig l ++ aorig m; aprefix := pre |}
    end.

(** L69-82 constructor from a count and strings. *)
Fixpoint add_all (l : attrlist) (args : list str) : res attrlist :=
  match args with
  | [] => Ok l
  | a :: r => match a with [] => add_all l r | _ => do l' <- add_attribute l a; add_all l' r end
  end.
Definition make_list (n : Z) (args : list str) : res attrlist :=
  if n =? Z.of_nat (length args) then add_all no_attrs args else Exit.
End Parse.

(** L183-195 toString. *)
Definition list_to_string (l : attrlist) : str :=
  bar :: concat (map (fun a => match a with [] => [] | _ => a ++ [bar] end) (aattrs l)).

(** L197-214 toCompactString; EXPINT is "_expint" (zdriver.h L52).  This is also
    what serialize L216-218 writes. *)
Definition compact (l : attrlist) : str :=
  bar :: concat (map (fun a => a ++ [bar]) (filter (fun a => negb (contains (L "_expint") a)) (aattrs l)))
      ++ concat (map (fun a => a ++ [bar]) (aorig l)).

(** libstdc++ std::set_difference (bits/stl_algo.h), run on whatever order the
    ranges have: what is written to the output. *)
Fixpoint set_difference (fuel : nat) (a b : list str) : list str :=
  match fuel with
  | O => []
  | S f =>
      match a, b with
      | [], _ => []
      | _, [] => a
      | x :: a', y :: b' =>
          if str_ltb x y then x :: set_difference f a' b
          else if str_ltb y x then set_difference f a b'
          else set_difference f a' b'
      end
  end.
(** L222-233 isEqual, on two attribute lists.  The output vector has
    |z| + |this| empty strings; the element looked at is the one behind the last
    written one. *)
Definition list_is_equal (this z : attrlist) : res bool :=
  let n := (length (aattrs z) + length (aattrs this))%nat in
  let out := set_difference n (aattrs z) (aattrs this) in
  match nth_error (out ++ repeat [] (n - length out)) (length out) with
  | None => UB
  | Some s => Ok (match s with [] => true | _ => false end)
  end.
