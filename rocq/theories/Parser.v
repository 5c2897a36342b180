(** Model of the generated LALR parser: src/lsss/zparser.tab.cc (bison, from
    include/lsss/zparser.yy).  The tables are those of the generated file
    (L1130-1230 and L1320-1350), copied by a script. *)
From Verif Require Import Base StrMap Dec Policy Scanner Driver.
From Coq Require Import ZArith List Ascii Bool.
Import ListNotations.
Open Scope Z_scope.
Open Scope res_scope.

Definition yypact : list Z := [
  17; -2; 1; 7; 11; -2; 44; -13; 1; -1; -20; 12; 51; 53; -15; 55; 58; 34; 3; -2;
  -2; 60; -1; 1; 20; -20; 12; -20; 12; -20; 12; 12; 12; -20; 12; -20; 12; -20; 56; -20;
  12; -20; -1; 62; 39; 40; 45; 46; 43; 47; -19; 48; -20; 12; 12; 12; 12; 12; 12; 12;
  12; 12; -20; -20; 49; 52; -20; -20; 54; -20; -20; -20; -20; 12; -20].
Definition yydefact : list Z := [
  0; 0; 0; 0; 6; 0; 2; 23; 0; 3; 1; 0; 0; 0; 0; 0; 0; 0; 0; 0;
  0; 0; 24; 25; 5; 13; 0; 11; 0; 12; 0; 0; 0; 9; 0; 10; 0; 14; 7; 8;
  0; 27; 26; 0; 0; 0; 0; 0; 0; 0; 0; 0; 4; 0; 0; 0; 0; 0; 0; 0;
  0; 0; 22; 21; 0; 0; 20; 19; 0; 17; 28; 15; 16; 0; 18].
Definition yypgoto : list Z := [
  -20; -20; -12; 31; 29].
Definition yydefgoto : list Z := [
  -1; 3; 25; 6; 9].
Definition yytable : list Z := [
  27; 29; 4; 33; 35; 7; 59; 10; 30; 41; 60; 31; 19; 20; 44; 21; 45; 24; 46; 47;
  48; 5; 49; 11; 50; 12; 13; 37; 51; 23; 14; 8; 15; 16; 1; 2; 18; 22; 36; 17;
  43; 62; 63; 64; 65; 66; 67; 68; 69; 70; 38; 39; 42; 19; 20; 26; 24; 28; 24; 32;
  24; 74; 34; 24; 40; 24; 20; 52; 53; 54; 55; 56; 57; 71; 0; 0; 58; 61; 0; 72;
  0; 0; 0; 73].
Definition yycheck : list Z := [
  12; 13; 4; 15; 16; 4; 25; 0; 23; 21; 29; 26; 9; 10; 26; 28; 28; 5; 30; 31;
  32; 23; 34; 12; 36; 14; 15; 24; 40; 30; 19; 30; 21; 22; 17; 18; 5; 8; 4; 28;
  20; 53; 54; 55; 56; 57; 58; 59; 60; 61; 19; 20; 23; 9; 10; 4; 5; 4; 5; 4;
  5; 73; 4; 5; 4; 5; 10; 5; 29; 29; 25; 25; 29; 24; -1; -1; 29; 29; -1; 27;
  -1; -1; -1; 29].
Definition yystos : list Z := [
  0; 17; 18; 32; 4; 23; 34; 4; 30; 35; 0; 12; 14; 15; 19; 21; 22; 28; 34; 9;
  10; 28; 35; 30; 5; 33; 4; 33; 4; 33; 23; 26; 4; 33; 4; 33; 4; 24; 34; 34;
  4; 33; 35; 20; 33; 33; 33; 33; 33; 33; 33; 33; 5; 29; 29; 25; 25; 29; 29; 25;
  29; 29; 33; 33; 33; 33; 33; 33; 33; 33; 33; 24; 27; 29; 33].
Definition yyr1 : list Z := [
  0; 31; 32; 32; 33; 33; 34; 34; 34; 34; 34; 34; 34; 34; 34; 34; 34; 34; 34; 34;
  34; 34; 34; 35; 35; 35; 35; 35; 35].
Definition yyr2 : list Z := [
  0; 2; 2; 2; 3; 1; 1; 3; 3; 3; 3; 3; 3; 3; 3; 7; 7; 6; 8; 6;
  6; 6; 6; 1; 2; 2; 3; 3; 6].
Definition translate_table : list Z := [
  0; 2; 2; 2; 2; 2; 2; 2; 2; 2; 2; 2; 2; 2; 2; 2; 2; 2; 2; 2;
  2; 2; 2; 2; 2; 2; 2; 2; 2; 2; 2; 2; 2; 2; 2; 20; 2; 2; 2; 2;
  23; 24; 2; 2; 29; 25; 2; 2; 2; 2; 2; 2; 2; 2; 2; 2; 2; 2; 2; 2;
  21; 28; 22; 2; 2; 2; 2; 2; 2; 2; 2; 2; 2; 2; 2; 2; 2; 2; 2; 2;
  2; 2; 2; 2; 2; 2; 2; 2; 2; 2; 2; 2; 2; 2; 2; 2; 2; 2; 2; 2;
  2; 2; 2; 2; 2; 2; 2; 2; 2; 2; 2; 2; 2; 2; 2; 2; 2; 2; 2; 2;
  2; 2; 2; 26; 30; 27; 2; 2; 2; 2; 2; 2; 2; 2; 2; 2; 2; 2; 2; 2;
  2; 2; 2; 2; 2; 2; 2; 2; 2; 2; 2; 2; 2; 2; 2; 2; 2; 2; 2; 2;
  2; 2; 2; 2; 2; 2; 2; 2; 2; 2; 2; 2; 2; 2; 2; 2; 2; 2; 2; 2;
  2; 2; 2; 2; 2; 2; 2; 2; 2; 2; 2; 2; 2; 2; 2; 2; 2; 2; 2; 2;
  2; 2; 2; 2; 2; 2; 2; 2; 2; 2; 2; 2; 2; 2; 2; 2; 2; 2; 2; 2;
  2; 2; 2; 2; 2; 2; 2; 2; 2; 2; 2; 2; 2; 2; 2; 2; 2; 2; 2; 2;
  2; 2; 2; 2; 2; 2; 2; 2; 2; 2; 2; 2; 2; 2; 2; 2; 1; 2; 3; 4;
  5; 6; 7; 8; 9; 10; 11; 12; 13; 14; 15; 16; 17; 18; 19].
Definition yypact_ninf := -20.
Definition yytable_ninf := -1.
(** zparser.tab.hh L695-705. *)
Definition yylast := 83.
Definition yyfinal := 10.
Definition yyntokens := 31.

(** L1316-1361 yytranslate_. *)
Definition yytranslate (t : Z) : Z :=
  if t <=? 0 then 0 else if t <=? 274 then znth translate_table t else 2.

(** L512-521 yy_lr_goto_state_. *)
Definition goto_state (s sym : Z) : Z :=
  let r := znth yypgoto (sym - yyntokens) + s in
  if (0 <=? r) && (r <=? yylast) && (znth yycheck r =? s) then znth yytable r
  else znth yydefgoto (sym - yyntokens).

(** What the tables tell the parser to do in state [s] with lookahead [sym]
    (L606-665). *)
Inductive lr_move := Shift (s : Z) | Reduce (r : Z) | Fail.
Definition default_move (s : Z) : lr_move :=
  let r := znth yydefact s in if r =? 0 then Fail else Reduce r.
Definition move (s sym : Z) : lr_move :=
  let n := znth yypact s in
  if n =? yypact_ninf then default_move s
  else
    let i := n + sym in
    if (i <? 0) || (yylast <? i) || negb (znth yycheck i =? sym) then default_move s
    else
      let a := znth yytable i in
      if a <=? 0 then (if a =? yytable_ninf then Fail else Reduce (- a)) else Shift a.

(** Result of Parser::parse: accepted (L1004), syntax error (L918-924: error()
    is called, then L955-985 pop the whole stack because no state has a
    transition on the error token, ParserProofs.v), or YYERROR raised by an
    action (L947-953: error() is not called). *)
Inductive presult (D : Type) := Accepted (d : D) | SyntaxError (d : D) | Aborted (d : D).
Arguments Accepted {D} _.
Arguments SyntaxError {D} _.
Arguments Aborted {D} _.

Definition la_sym (toks : list tok) : Z := match toks with [] => 0 | (c, _) :: _ => yytranslate c end.
Definition la_val (toks : list tok) : yylval := match toks with [] => NoVal | (_, v) :: _ => v end.

Section LR.
Context {V D : Type}.
Variable inj : yylval -> V.
Variable act : Z -> list V -> D -> res (option (V * D)).

(** L543-985: one unit of fuel per visit of yynewstate.  The head of [stack] is
    yystack_[0]. *)
Fixpoint run (fuel : nat) (stack : list (Z * V)) (toks : list tok) (d : D) : res (presult D) :=
  match fuel with
  | O => NoFuel
  | S f =>
    match stack with
    | [] => UB
    | (s, _) :: _ =>
      if s =? yyfinal then Ok (Accepted d)
      else match move s (la_sym toks) with
           | Fail => Ok (SyntaxError d)
           | Shift s' => run f ((s', inj (la_val toks)) :: stack) (tl toks) d
           | Reduce r =>
               let n := Z.to_nat (znth yyr2 r) in
               match skipn n stack with
               | [] => UB
               | (s0, v0) :: below =>
                   do o <- act r (map snd (rev (firstn n stack))) d;
                   match o with
                   | None => Ok (Aborted d)
                   | Some (v, d') => run f ((goto_state s0 (znth yyr1 r), v) :: (s0, v0) :: below) toks d'
                   end
               end
           end
    end
  end.
End LR.

Section Parse.
Variable mktime : tm -> Z * tm.

Definition parse_fuel (toks : list tok) : nat := 4 * length toks + 10.

(** zdriver.cpp L60-84 parse_stream and parse_string (the result of parse_string
    is ignored by its callers); [policy] selects the prefix. *)
Definition parse_string (ispol : bool) (text : str) : res driver :=
  let prefix := if ispol then L "[0]: " else L "[1]: " in
  let d0 := {| dcount := []; ddup := []; dprefix := []; ddate := []; dorig := []; dtext := text;
               dispolicy := ispol; dpol := None; dattr := None |} in
  let toks := lex (prefix ++ text) in
  do r <- run VTok (action mktime) (parse_fuel toks) [(0, VTok NoVal)] toks d0;
  match r with
  | Accepted d => Ok d
  | SyntaxError d => Ok (driver_error d)
  | Aborted d => Ok d
  end.

(** zpolicy.cpp L103-117 createPolicyTree (None is the null pointer). *)
Definition create_policy_tree (s : str) : res (option policy) :=
  match s with
  | [] => Ok None
  | _ => do d <- parse_string true s; Ok (dpol d)
  end.

(** zattributelist.cpp L235-249 createAttributeList. *)
Definition create_attribute_list (s : str) : res (option attrlist) :=
  match s with
  | [] => Ok None
  | _ => do d <- parse_string false s; Ok (dattr d)
  end.

(** zpolicy.cpp L397-413 OpenABETreeNode_ToString and L119-129
    addToRootOfInput. *)
Definition gate_text (g : gate) : str :=
  match g with
  | GateAnd => L " and " | GateOr => L " or " | GateThreshold => L " of " | _ => []
  end.
Definition add_to_root (g : gate) (attribute : str) (q : policy) : res (option policy) :=
  if prevoke q then Ok None
  else create_policy_tree (L "(" ++ ptext q ++ L ")" ++ gate_text g ++ attribute).
End Parse.
