(** Lexical conventions of policy and attribute list texts (specification):
    which texts spell a given sequence of tokens. *)
From Verif Require Import Base Dec Scanner PolicySyntax.
From Coq Require Import ZArith List Ascii Bool.
Import ListNotations.
Open Scope Z_scope.

Definition mem (c : ascii) (s : str) : bool := existsb (Ascii.eqb c) s.
Definition between (a b : ascii) (c : ascii) : bool := (b2z a <=? b2z c) && (b2z c <=? b2z b).
Definition is_letter (c : ascii) : bool := between "a" "z" c || between "A" "Z" c.
(** Characters a name can start with and contain. *)
Definition name_start (c : ascii) : bool := is_letter c || mem c (L "/\.[]$~").
Definition name_char (c : ascii) : bool :=
  name_start c || between "0" "9" c || mem c (L "_,*-:!&#@%^{}").
Definition tab : ascii := ascii_of_nat 9.
Definition newline : ascii := ascii_of_nat 10.
Definition carriage_return : ascii := ascii_of_nat 13.
Definition blank (c : ascii) : bool := mem c [" "%char; tab; carriage_return].
Definition blanks (s : str) : Prop := forallb blank s = true.

(** Words with a meaning of their own. *)
Definition reserved : list str := [L "[0]:"; L "[1]:"; L "or"; L "OR"; L "and"; L "AND"; L "in"; L "IN"].
Definition is_word (s : str) : bool :=
  match s with [] => false | c :: r => name_start c && forallb name_char r end.
(** Names a user can write. *)
Definition is_name (s : str) : bool :=
  is_word s && negb (existsb (str_eqb s) reserved) && negb (contains (L "expint") s).

Definition next_is (f : ascii -> bool) (s : str) : bool := match s with [] => false | c :: _ => f c end.
Definition is_eq (c : ascii) : bool := Ascii.eqb c "=".

(** [spells t w rest]: the characters [w], followed by [rest], are the token [t]. *)
Inductive spells : tok -> str -> str -> Prop :=
| sp_name : forall s rest, is_name s = true -> next_is name_char rest = false -> spells (leaf_tok s) s rest
| sp_or : forall w rest, w = L "or" \/ w = L "OR" -> next_is name_char rest = false -> spells (tk OR) w rest
| sp_and : forall w rest, w = L "and" \/ w = L "AND" -> next_is name_char rest = false -> spells (tk AND) w rest
| sp_in : forall w rest, w = L "in" \/ w = L "IN" -> next_is name_char rest = false -> spells (tk IN) w rest
| sp_uint : forall n w rest, w <> [] -> forallb is_digit w = true -> undec w = n -> 0 < n < 4294967295 ->
    next_is is_digit rest = false -> spells (uint_tok n) w rest
| sp_leq : forall rest, spells (tk LEQ) (L "<=") rest
| sp_geq : forall rest, spells (tk GEQ) (L ">=") rest
| sp_eq : forall rest, spells (tk EQ) (L "==") rest
| sp_char : forall c rest, mem c (L "<>=") = true -> next_is is_eq rest = false -> spells (tk (b2z c)) [c] rest
| sp_punct : forall c rest, mem c (L "#()-{},|") = true -> spells (tk (b2z c)) [c] rest.

(** [text_pre ts s s']: the text [s] starts with a spelling of [ts], with blanks
    anywhere in front of the tokens, and continues with [s']. *)
Inductive text_pre : list tok -> str -> str -> Prop :=
| tp_nil : forall s, text_pre [] s s
| tp_cons : forall b t w ts s s', blanks b -> spells t w s -> text_pre ts s s' -> text_pre (t :: ts) (b ++ w ++ s) s'.
(** The whole text spells [ts]. *)
Definition text_of (ts : list tok) (s : str) : Prop := exists b, blanks b /\ text_pre ts s b.

(** A byte the scanner takes for the end of the text: NUL or any byte from 128 on. *)
Definition stops (c : ascii) : bool := (b2z c =? 0) || (128 <=? b2z c).
(** Nothing more is read from [s]. *)
Definition ended (s : str) : Prop := blanks s \/ exists b c r, s = b ++ c :: r /\ blanks b /\ stops c = true.
(** A text without such bytes. *)
Definition plain_text (s : str) : Prop := forall c, In c s -> stops c = false.
(** [w] occurs in [s]. *)
Definition occurs (w s : str) : Prop := exists a b, s = a ++ w ++ b.
