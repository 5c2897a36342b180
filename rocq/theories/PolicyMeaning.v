(** Meaning of policies (specification): truth of a policy for given numeric
    values, independent of the trees the driver builds. *)
From Verif Require Import Base Dec Policy LsssSpec Scanner PolicySyntax Lexical.
From Coq Require Import ZArith List Ascii Bool.
Import ListNotations.
Open Scope Z_scope.

(** Names without an empty part between colons. *)
Fixpoint tidy_from (after_colon : bool) (s : str) : bool :=
  match s with
  | [] => negb after_colon
  | c :: r => if Ascii.eqb c colon then negb after_colon && tidy_from true r else tidy_from false r
  end.
Definition tidy (s : str) : bool := tidy_from true s.

Definition rel_holds (r : rel) (x v : Z) : bool :=
  match r with
  | RLt => x <? v | RGt => v <? x | RLe => x <=? v | RGe => v <=? x | REq => x =? v
  end.

(** Widths a user can write. *)
Definition width (w : option Z) : Z := match w with None => 32 | Some b => b end.
Definition width_ok (b : Z) : bool := (b =? 4) || (b =? 8) || (b =? 16) || (b =? 32).
Definition num_ok (n : num) : bool := let 'Num v w := n in width_ok (width w) && (v <? 2 ^ width w).

(** The attribute recording that bit [i] of the value of [c] is [v], at width [b]. *)
Definition marker (c : str) (b i : Z) (v : bool) : str :=
  c ++ L "_expint" ++ (if b <? 10 then L "0" else []) ++ dec b ++ L "_"
    ++ repeat "x"%char (Z.to_nat (31 - i)) ++ (if v then L "1" else L "0") ++ repeat "x"%char (Z.to_nat i).
(** Number of bits recorded. *)
Definition recorded (b : Z) : Z := if b <? 32 then b + 2 else b.
(** [held] records the value [x] for [c] at width [b], and no other value. *)
Definition encodes (held : str -> bool) (c : str) (b x : Z) : Prop :=
  forall i v, 0 <= i < recorded b -> held (marker c b i v) = Bool.eqb (Z.testbit x i) v.
(** [held] records no value for [c] at width [b]. *)
Definition no_value (held : str -> bool) (c : str) (b : Z) : Prop :=
  forall i v, 0 <= i < recorded b -> held (marker c b i v) = false.

(** ** Truth of a policy *)
Section Truth.
(** Day number of a date (month, day of the month, year) and of the end of a
    range of days (month, first day, last day, year). *)
Variable day : str -> Z -> Z -> Z.
Variable last_day : str -> Z -> Z -> Z -> Z.

Definition num_val (n : num) : Z := let 'Num v _ := n in v.
Definition num_width (n : num) : Z := let 'Num _ w := n in width w.
(** The name under which dates of [p] are compared. *)
Definition dated (p : str) : str := if str_eqb p (L "time") then p else p ++ [colon] ++ L "time".

(** [val c b] is the value of [c] at width [b], if it has one. *)
Definition compares (val : str -> Z -> option Z) (r : rel) (c : str) (b v : Z) : bool :=
  match val c b with Some x => rel_holds r x v | None => false end.
Fixpoint truth (held : str -> bool) (val : str -> Z -> option Z) (e : pexp) : bool :=
  match e with
  | EAttr s => held s
  | ECmp r s n => compares val r s (num_width n) (num_val n)
  | ERange incl s lo hi =>
      compares val (if incl then RGe else RGt) s (num_width lo) (num_val lo) &&
      compares val (if incl then RLe else RLt) s (num_width hi) (num_val hi)
  | EDate r s m d y => compares val r (dated s) 32 (day m (num_val d) (num_val y))
  | EDateRange s m lo hi y =>
      compares val RGe (dated s) 32 (day m (num_val lo) (num_val y)) &&
      compares val RLe (dated s) 32 (last_day m (num_val lo) (num_val hi) (num_val y))
  | EAnd a b => truth held val a && truth held val b
  | EOr a b => truth held val a || truth held val b
  | EPar a => truth held val a
  end.

(** The attributes [held] record exactly the value [val] of [c] at width [b]. *)
Definition records (held : str -> bool) (val : str -> Z -> option Z) (c : str) (b : Z) : Prop :=
  match val c b with Some x => 0 <= x < 2 ^ b /\ encodes held c b x | None => no_value held c b end.
(** The values a policy compares: names and widths. *)
Fixpoint compared (e : pexp) : list (str * Z) :=
  match e with
  | EAttr _ => []
  | ECmp _ s n => [(s, num_width n)]
  | ERange _ s lo hi => [(s, num_width lo); (s, num_width hi)]
  | EDate _ s _ _ _ | EDateRange s _ _ _ _ => [(dated s, 32)]
  | EAnd a b | EOr a b => compared a ++ compared b
  | EPar a => compared a
  end.

(** [n] is the tree of [e]: gates and names as written, in the same order;
    comparisons are subtrees with the right meaning. *)
Fixpoint denotes (e : pexp) (n : node) : Prop :=
  match e with
  | EAttr s => exists p l i, n = Leaf p l i /\ complete_label n = s
  | EAnd a b => exists x y, n = Gate GateAnd [x; y] /\ denotes a x /\ denotes b y
  | EOr a b => exists x y, n = Gate GateOr [x; y] /\ denotes a x /\ denotes b y
  | EPar a => denotes a n
  | _ => binary n = true /\
      forall held val, (forall c b, In (c, b) (compared e) -> records held val c b) -> sat held n = truth held val e
  end.

(** Every number is representable at its width. *)
Fixpoint nums_ok (e : pexp) : bool :=
  match e with
  | EAttr _ => true
  | ECmp _ _ n => num_ok n
  | ERange _ _ lo hi => num_ok lo && num_ok hi
  | EDate _ _ _ d y => num_ok d && num_ok y
  | EDateRange _ _ lo hi y => num_ok lo && num_ok hi && num_ok y
  | EAnd a b | EOr a b => nums_ok a && nums_ok b
  | EPar a => nums_ok a
  end.
(** Names compared or required. *)
Fixpoint names (e : pexp) : list str :=
  match e with
  | EAttr s | ECmp _ s _ | ERange _ s _ _ | EDate _ s _ _ _ | EDateRange s _ _ _ _ => [s]
  | EAnd a b | EOr a b => names a ++ names b
  | EPar a => names a
  end.
Definition tidy_names (e : pexp) : bool := forallb tidy (names e).

(** Dates whose neighbouring days exist as day numbers. *)
Definition day_ok (r : rel) (d : Z) : bool :=
  (0 <=? d) && match r with
  | RLt | RGe => (0 <? d) && (d <? 4294967296) | RGt | RLe => d <? 4294967295 | REq => d <? 4294967296
  end.
Fixpoint dates_ok (e : pexp) : bool :=
  match e with
  | EDate r _ m d y => day_ok r (day m (num_val d) (num_val y))
  | EDateRange _ m lo hi y =>
      day_ok RGe (day m (num_val lo) (num_val y)) && day_ok RLe (last_day m (num_val lo) (num_val hi) (num_val y))
  | EAnd a b | EOr a b => dates_ok a && dates_ok b
  | EPar a => dates_ok a
  | _ => true
  end.
(** No dates at all. *)
Fixpoint undated (e : pexp) : bool :=
  match e with
  | EDate _ _ _ _ _ | EDateRange _ _ _ _ _ => false
  | EAnd a b | EOr a b => undated a && undated b
  | EPar a => undated a
  | _ => true
  end.
End Truth.

(** ** Trees up to the numbers of their leaves: gates, thresholds, complete labels *)
Inductive formula := FLeaf (s : str) | FGate (g : gate) (k : Z) (l : list formula).
Fixpoint formula_of (n : node) : formula :=
  match n with
  | Node GateLeaf _ _ _ _ _ => FLeaf (complete_label n)
  | Node g _ _ _ _ ks => FGate g (threshold_value n) (map formula_of ks)
  end.
