(** Abstract syntax of policy texts and attribute lists (specification): what a
    user writes, independently of the parser tables. *)
From Verif Require Import Base Scanner Grammar.
From Coq Require Import ZArith List Ascii Bool.
Import ListNotations.
Open Scope Z_scope.

(** A number [v] or a number with a width [v#w]. *)
Inductive num := Num (v : Z) (w : option Z).
Inductive rel := RLt | RGt | RLe | RGe | REq.

Inductive pexp :=
| EAttr (s : str)                                     (* name *)
| ECmp (r : rel) (s : str) (n : num)                  (* name < number *)
| ERange (incl : bool) (s : str) (lo hi : num)        (* name in (lo-hi), name in {lo-hi} *)
| EDate (r : rel) (s m : str) (day year : num)        (* name < Month day, year *)
| EDateRange (s m : str) (lo hi year : num)           (* name = Month lo-hi, year *)
| EAnd (a b : pexp) | EOr (a b : pexp) | EPar (a : pexp).

(** Punctuation tokens are character codes. *)
Definition c_hash := 35. Definition c_lt := 60. Definition c_gt := 62. Definition c_lp := 40.
Definition c_rp := 41. Definition c_minus := 45. Definition c_lb := 123. Definition c_rb := 125.
Definition c_eq := 61. Definition c_comma := 44. Definition c_bar := 124.
Definition tk (c : Z) : tok := (c, NoVal).
Definition leaf_tok (s : str) : tok := (LEAF, StrVal s).
Definition uint_tok (v : Z) : tok := (UINT, UIntVal v).

Definition ntoks (n : num) : list tok :=
  match n with
  | Num v None => [uint_tok v]
  | Num v (Some w) => [uint_tok v; tk c_hash; uint_tok w]
  end.
Definition rel_tok (r : rel) : tok :=
  match r with RLt => tk c_lt | RGt => tk c_gt | RLe => tk LEQ | RGe => tk GEQ | REq => tk EQ end.
(** In front of a date equality is written with a single '='. *)
Definition date_rel_tok (r : rel) : tok := match r with REq => tk c_eq | _ => rel_tok r end.
Definition open_tok (incl : bool) : tok := tk (if incl then c_lb else c_lp).
Definition close_tok (incl : bool) : tok := tk (if incl then c_rb else c_rp).

Fixpoint ptoks (e : pexp) : list tok :=
  match e with
  | EAttr s => [leaf_tok s]
  | ECmp r s n => leaf_tok s :: rel_tok r :: ntoks n
  | ERange i s lo hi => leaf_tok s :: tk IN :: open_tok i :: ntoks lo ++ tk c_minus :: ntoks hi ++ [close_tok i]
  | EDate r s m d y => leaf_tok s :: date_rel_tok r :: leaf_tok m :: ntoks d ++ tk c_comma :: ntoks y
  | EDateRange s m lo hi y =>
      leaf_tok s :: tk c_eq :: leaf_tok m :: ntoks lo ++ tk c_minus :: ntoks hi ++ tk c_comma :: ntoks y
  | EAnd a b => ptoks a ++ tk AND :: ptoks b
  | EOr a b => ptoks a ++ tk OR :: ptoks b
  | EPar a => tk c_lp :: ptoks a ++ [tk c_rp]
  end.

(** Precedence and associativity: AND binds tighter than OR, both associate to
    the left; anything else needs parentheses. *)
Definition is_or (e : pexp) : bool := match e with EOr _ _ => true | _ => false end.
Definition is_and (e : pexp) : bool := match e with EAnd _ _ => true | _ => false end.
Fixpoint well (e : pexp) : bool :=
  match e with
  | EOr a b => well a && well b && negb (is_or b)
  | EAnd a b => well a && well b && negb (is_or a) && negb (is_or b) && negb (is_and b)
  | EPar a => well a
  | _ => true
  end.

(** The derivation in the grammar of zparser.yy. *)
Definition ntree (n : num) : pt :=
  match n with
  | Num v None => PN 5 [PT (uint_tok v)]
  | Num v (Some w) => PN 4 [PT (uint_tok v); PT (tk c_hash); PT (uint_tok w)]
  end.
Definition rel_rule (r : rel) : Z := match r with RLt => 9 | RGt => 10 | RLe => 11 | RGe => 12 | REq => 13 end.
Definition date_rule (r : rel) : Z := match r with REq => 17 | RGt => 19 | RLt => 20 | RGe => 21 | RLe => 22 end.
Fixpoint ptree (e : pexp) : pt :=
  match e with
  | EAttr s => PN 6 [PT (leaf_tok s)]
  | ECmp r s n => PN (rel_rule r) [PT (leaf_tok s); PT (rel_tok r); ntree n]
  | ERange i s lo hi =>
      PN (if i then 16 else 15)
         [PT (leaf_tok s); PT (tk IN); PT (open_tok i); ntree lo; PT (tk c_minus); ntree hi; PT (close_tok i)]
  | EDate r s m d y =>
      PN (date_rule r) [PT (leaf_tok s); PT (date_rel_tok r); PT (leaf_tok m); ntree d; PT (tk c_comma); ntree y]
  | EDateRange s m lo hi y =>
      PN 18 [PT (leaf_tok s); PT (tk c_eq); PT (leaf_tok m); ntree lo; PT (tk c_minus); ntree hi; PT (tk c_comma); ntree y]
  | EAnd a b => PN 8 [ptree a; PT (tk AND); ptree b]
  | EOr a b => PN 7 [ptree a; PT (tk OR); ptree b]
  | EPar a => PN 14 [PT (tk c_lp); ptree a; PT (tk c_rp)]
  end.

(** ** Attribute lists *)
Inductive item := IName (s : str) | INum (s : str) (n : num) | IDate (s m : str) (day year : num).
Definition itoks (i : item) : list tok :=
  match i with
  | IName s => [leaf_tok s]
  | INum s n => leaf_tok s :: tk c_eq :: ntoks n
  | IDate s m d y => leaf_tok s :: tk c_eq :: leaf_tok m :: ntoks d ++ tk c_comma :: ntoks y
  end.
Definition itree (i : item) : pt :=
  match i with
  | IName s => PN 23 [PT (leaf_tok s)]
  | INum s n => PN 27 [PT (leaf_tok s); PT (tk c_eq); ntree n]
  | IDate s m d y => PN 28 [PT (leaf_tok s); PT (tk c_eq); PT (leaf_tok m); ntree d; PT (tk c_comma); ntree y]
  end.
Definition bars (n : nat) : list tok := repeat (tk c_bar) n.
(** [n] separators, an item, and what follows: nothing, [k] trailing separators, or
    at least one separator and more items. *)
Inductive alist := AOne (n : nat) (i : item) (k : nat) | AMore (n : nat) (i : item) (rest : alist).
Fixpoint atoks (a : alist) : list tok :=
  match a with
  | AOne n i k => bars n ++ itoks i ++ bars k
  | AMore n i r => bars n ++ itoks i ++ tk c_bar :: atoks r
  end.
Fixpoint aitems (a : alist) : list item :=
  match a with AOne _ i _ => [i] | AMore _ i r => i :: aitems r end.
(** Trailing separators. *)
Fixpoint atrail (a : alist) : nat := match a with AOne _ _ k => k | AMore _ _ r => atrail r end.
