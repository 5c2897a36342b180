(** Model of the scanner: src/lsss/zscanner.cpp (generated by flex from
    src/lsss/zscanner.ll).  The tables below are the tables of the generated
    file (L414-480), copied by a script. *)
From Verif Require Import Base Dec.
From Coq Require Import ZArith List Ascii Bool.
Import ListNotations.
Open Scope Z_scope.

(** Array access; the indices computed below never leave the tables
    (ScannerProofs.v), 0 is never used as a default. *)
Definition znth (l : list Z) (i : Z) : Z := nth (Z.to_nat i) l 0.

Definition yy_accept : list Z := [
  0; 0; 0; 8; 6; 4; 5; 2; 1; 6; 4; 2; 1; 3; 0].
Definition yy_ec : list Z := [
  0; 1; 1; 1; 1; 1; 1; 1; 1; 2; 3; 1; 1; 2; 1; 1; 1; 1; 1; 1;
  1; 1; 1; 1; 1; 1; 1; 1; 1; 1; 1; 1; 2; 4; 1; 4; 5; 4; 4; 1;
  1; 1; 4; 1; 4; 4; 5; 5; 6; 6; 6; 6; 6; 6; 6; 6; 6; 6; 4; 1;
  7; 8; 7; 1; 4; 5; 5; 5; 5; 5; 5; 5; 5; 5; 5; 5; 5; 5; 5; 5;
  5; 5; 5; 5; 5; 5; 5; 5; 5; 5; 5; 5; 5; 5; 4; 4; 1; 5; 5; 5;
  5; 5; 5; 5; 5; 5; 5; 5; 5; 5; 5; 5; 5; 5; 5; 5; 5; 5; 5; 5;
  5; 5; 5; 4; 1; 4; 5; 1; 1; 1; 1; 1; 1; 1; 1; 1; 1; 1; 1; 1;
  1; 1; 1; 1; 1; 1; 1; 1; 1; 1; 1; 1; 1; 1; 1; 1; 1; 1; 1; 1;
  1; 1; 1; 1; 1; 1; 1; 1; 1; 1; 1; 1; 1; 1; 1; 1; 1; 1; 1; 1;
  1; 1; 1; 1; 1; 1; 1; 1; 1; 1; 1; 1; 1; 1; 1; 1; 1; 1; 1; 1;
  1; 1; 1; 1; 1; 1; 1; 1; 1; 1; 1; 1; 1; 1; 1; 1; 1; 1; 1; 1;
  1; 1; 1; 1; 1; 1; 1; 1; 1; 1; 1; 1; 1; 1; 1; 1; 1; 1; 1; 1;
  1; 1; 1; 1; 1; 1; 1; 1; 1; 1; 1; 1; 1; 1; 1; 1].
Definition yy_meta : list Z := [
  0; 1; 1; 1; 2; 2; 2; 1; 1].
Definition yy_base : list Z := [
  0; 0; 0; 15; 16; 12; 16; 0; 7; 4; 9; 0; 4; 16; 16; 7].
Definition yy_def : list Z := [
  0; 14; 1; 14; 14; 14; 14; 15; 14; 14; 14; 15; 14; 14; 0; 14].
Definition yy_nxt : list Z := [
  0; 4; 5; 6; 4; 7; 8; 9; 9; 11; 12; 10; 13; 12; 10; 14; 3; 14; 14; 14;
  14; 14; 14; 14; 14].
Definition yy_chk : list Z := [
  0; 1; 1; 1; 1; 1; 1; 1; 1; 15; 12; 10; 9; 8; 5; 3; 14; 14; 14; 14;
  14; 14; 14; 14; 14].

(** L756, with the detour of L957-1010 and yy_get_previous_state /
    yy_try_NUL_trans: a NUL inside the text is re-scanned with class 1. *)
Definition yy_class (c : ascii) : Z := if b2z c =? 0 then 1 else znth yy_ec (b2z c).

(** L762-767: follow yy_def until yy_chk confirms the entry. *)
Fixpoint yy_next (fuel : nat) (s c : Z) : Z :=
  if znth yy_chk (znth yy_base s + c) =? s then znth yy_nxt (znth yy_base s + c)
  else match fuel with
       | O => 0
       | S f => let s' := znth yy_def s in
                yy_next f s' (if 15 <=? s' then znth yy_meta c else c)
       end.
Definition yy_trans (s : Z) (c : ascii) : Z := yy_next 3 s (yy_class c).

(** L754-771 the matching loop: [last] is (yy_last_accepting_state's action,
    yy_last_accepting_cpos); 14 is the jam state.  Reading the text in blocks
    (YY_INPUT, yy_get_next_buffer) is in Buffer.v. *)
Fixpoint munch (s : Z) (rest cur : str) (last : option (Z * str * str)) : option (Z * str * str) :=
  let last' := if znth yy_accept s =? 0 then last else Some (znth yy_accept s, rev cur, rest) in
  match rest with
  | [] => last'
  | c :: r => let s' := yy_trans s c in
              if s' =? 14 then last' else munch s' r (c :: cur) last'
  end.

(** The union of semantic values a token can carry (zparser.yy L60-66). *)
Inductive yylval := NoVal | StrVal (s : str) | UIntVal (n : Z).
(** A token: the number returned by yylex (zparser.tab.hh L225-242) and yylval. *)
Definition tok := (Z * yylval)%type.
Definition END := 0.   Definition EOL := 258.  Definition LEAF := 259. Definition UINT := 260.
Definition OR := 264.  Definition AND := 265.  Definition EQ := 267.   Definition LEQ := 269.
Definition GEQ := 270. Definition ERROR := 271. Definition START_POLICY := 272.
Definition START_ATTRLIST := 273. Definition IN := 274.

Definition UINT_MAX := 4294967295.
(** zscanner.h L59. *)
Definition EXPINT_KEYWORD := L "expint".

(** std::string::find(...) != npos. *)
Fixpoint is_prefix (p s : str) : bool :=
  match p, s with
  | [], _ => true
  | x :: p', y :: s' => ascii_eqb x y && is_prefix p' s'
  | _, [] => false
  end.
Fixpoint contains (p s : str) : bool :=
  is_prefix p s || match s with [] => false | _ :: s' => contains p s' end.

(** L807-822 rule 1.  strtoul saturates at ULONG_MAX with ERANGE, which is also
    above UINT_MAX. *)
Definition rule_uint (t : str) : tok :=
  let n := undec t in
  if negb (n <? UINT_MAX) then (ERROR, NoVal)
  else if n =? 0 then (ERROR, NoVal)
  else (UINT, UIntVal n).
(** L825-850 rule 2. *)
Definition rule_word (t : str) : tok :=
  if str_eqb t (L "[0]:") then (START_POLICY, NoVal)
  else if str_eqb t (L "[1]:") then (START_ATTRLIST, NoVal)
  else if str_eqb t (L "or") || str_eqb t (L "OR") then (OR, NoVal)
  else if str_eqb t (L "and") || str_eqb t (L "AND") then (AND, NoVal)
  else if str_eqb t (L "in") || str_eqb t (L "IN") then (IN, NoVal)
  else if contains EXPINT_KEYWORD t then (ERROR, StrVal t)
  else (LEAF, StrVal t).
(** L853-871 rule 3. *)
Definition rule_op (t : str) : tok :=
  if str_eqb t (L "<=") then (LEQ, NoVal)
  else if str_eqb t (L ">=") then (GEQ, NoVal)
  else if str_eqb t (L "==") then (EQ, NoVal)
  else (ERROR, NoVal).
(** L890-895 rule 6: static_cast<token_type>( *yytext); char is signed (x86-64). *)
Definition rule_char (t : str) : tok :=
  match t with
  | c :: _ => (if b2z c <? 128 then b2z c else b2z c - 256, NoVal)
  | [] => (END, NoVal)
  end.

(** The tokens successive calls of yylex return; a call at the end of the text
    returns END (L907), represented by the end of the list.  Fuel: one unit per
    match; [munch] never matches the empty string (ScannerProofs.v). *)
Fixpoint lex_fuel (fuel : nat) (text : str) : list tok :=
  match fuel with
  | O => []
  | S f =>
    match text with
    | [] => []
    | _ =>
      match munch 1 text [] None with
      | Some (act, t, rest) =>
          if act =? 1 then rule_uint t :: lex_fuel f rest
          else if act =? 2 then rule_word t :: lex_fuel f rest
          else if act =? 3 then rule_op t :: lex_fuel f rest
          else if act =? 4 then lex_fuel f rest
          else if act =? 5 then (EOL, NoVal) :: lex_fuel f rest
          else if act =? 6 then rule_char t :: lex_fuel f rest
          else lex_fuel f rest
      | None => []
      end
    end
  end.
Definition lex (text : str) : list tok := lex_fuel (length text) text.
