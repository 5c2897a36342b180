(** Meaning of attribute list texts (specification): which attributes a list of
    items stands for, independent of the driver. *)
From Verif Require Import Base Dec Policy Scanner PolicySyntax Lexical PolicyMeaning.
From Coq Require Import ZArith List Ascii Bool.
Import ListNotations.
Open Scope Z_scope.

(** How a name is mentioned first: [Some true] as a plain attribute, [Some false]
    with a number. *)
Fixpoint first_mention (s : str) (l : list item) : option bool :=
  match l with
  | [] => None
  | IName x :: r => if str_eqb s x then Some true else first_mention s r
  | INum x _ :: r => if str_eqb s x then Some false else first_mention s r
  | IDate _ _ _ _ :: r => first_mention s r
  end.
Definition dated_in (p : str) (l : list item) : bool :=
  existsb (fun i => match i with IDate q _ _ _ => str_eqb p q | _ => false end) l.

(** The attributes recording the value [x] of [c] at width [b], highest bit first. *)
Definition bits_of (c : str) (b x : Z) : list str :=
  map (fun i => marker c b i (Z.testbit x i)) (rev (map Z.of_nat (seq 0 (Z.to_nat (recorded b))))).
Definition show_num (n : num) : str :=
  dec (num_val n) ++ (if num_width n <? 32 then L "#" ++ dec (num_width n) else []).

Section Items.
Variable day : str -> Z -> Z -> Z.
(** A plain name counts when it was not mentioned before; a number counts unless
    the name was first mentioned as a plain attribute; a date counts once. *)
Definition item_attrs (before : list item) (i : item) : list str :=
  match i with
  | IName s => match first_mention s before with None => [s] | _ => [] end
  | INum s n => match first_mention s before with Some true => [] | _ => bits_of s (num_width n) (num_val n) end
  | IDate p m d y => if dated_in p before then [] else bits_of (p ++ [colon] ++ L "time") 32 (day m (num_val d) (num_val y))
  end.
Fixpoint attrs_from (before l : list item) : list str :=
  match l with [] => [] | i :: r => item_attrs before i ++ attrs_from (before ++ [i]) r end.
Definition attrs_of (l : list item) : list str := attrs_from [] l.
End Items.

(** The numeric items that count, as they are written back. *)
Definition item_orig (before : list item) (i : item) : list str :=
  match i with
  | IName s => []
  | INum s n => match first_mention s before with Some true => [] | _ => [s ++ L "=" ++ show_num n] end
  | IDate p m d y => if dated_in p before then [] else [p ++ L "=" ++ m ++ L " " ++ show_num d ++ L ", " ++ show_num y]
  end.
Fixpoint orig_from (before l : list item) : list str :=
  match l with [] => [] | i :: r => item_orig before i ++ orig_from (before ++ [i]) r end.
Definition orig_of (l : list item) : list str := orig_from [] l.

Definition item_ok (i : item) : bool :=
  match i with IName _ => true | INum _ n => num_ok n | IDate _ _ d y => num_ok d && num_ok y end.
Definition items_ok (l : list item) : bool := forallb item_ok l.

(** ** Values *)
Section Values.
Variable day : str -> Z -> Z -> Z.
(** The numbers that count: name, width, value. *)
Definition item_values (before : list item) (i : item) : list (str * Z * Z) :=
  match i with
  | IName s => []
  | INum s n => match first_mention s before with Some true => [] | _ => [(s, num_width n, num_val n)] end
  | IDate p m d y => if dated_in p before then [] else [(p ++ [colon] ++ L "time", 32, day m (num_val d) (num_val y))]
  end.
Fixpoint values_from (before l : list item) : list (str * Z * Z) :=
  match l with [] => [] | i :: r => item_values before i ++ values_from (before ++ [i]) r end.
Definition values_of (l : list item) : list (str * Z * Z) := values_from [] l.
Definition single_valued (l : list item) (c : str) (b : Z) : Prop :=
  forall x y, In (c, b, x) (values_of l) -> In (c, b, y) (values_of l) -> x = y.
Definition value (l : list item) (c : str) (b : Z) : option Z :=
  match find (fun '(c', b', _) => str_eqb c c' && (b =? b')) (values_of l) with Some (_, _, x) => Some x | None => None end.
Definition plain (l : list item) (s : str) : bool :=
  match first_mention s l with Some true => true | _ => false end.
End Values.
