(** The grammar of include/lsss/zparser.yy (L112-185) as a specification: rules,
    derivation trees and their evaluation.  Nothing here mentions the tables. *)
From Verif Require Import Base Scanner Parser.
From Coq Require Import ZArith List Ascii Bool.
Import ListNotations.
Open Scope Z_scope.

(** Grammar symbols are numbered as by bison (zparser.tab.cc L1228-1238):
    4 LEAF, 5 UINT, 9 OR, 10 AND, 12 EQ, 14 LEQ, 15 GEQ, 17 "[0]:", 18 "[1]:",
    19 IN, 20 '#', 21 '<', 22 '>', 23 '(', 24 ')', 25 '-', 26 '{', 27 '}',
    28 '=', 29 ',', 30 '|'; 32 start, 33 number, 34 policy, 35 attrlist.
    Rule 1 is bison's $accept: start END. *)
Definition rhs (r : Z) : list Z :=
  match r with
  | 1 => [32; 0]
  | 2 => [17; 34]
  | 3 => [18; 35]
  | 4 => [5; 20; 5]
  | 5 => [5]
  | 6 => [4]
  | 7 => [34; 9; 34]
  | 8 => [34; 10; 34]
  | 9 => [4; 21; 33]
  | 10 => [4; 22; 33]
  | 11 => [4; 14; 33]
  | 12 => [4; 15; 33]
  | 13 => [4; 12; 33]
  | 14 => [23; 34; 24]
  | 15 => [4; 19; 23; 33; 25; 33; 24]
  | 16 => [4; 19; 26; 33; 25; 33; 27]
  | 17 => [4; 28; 4; 33; 29; 33]
  | 18 => [4; 28; 4; 33; 25; 33; 29; 33]
  | 19 => [4; 22; 4; 33; 29; 33]
  | 20 => [4; 21; 4; 33; 29; 33]
  | 21 => [4; 15; 4; 33; 29; 33]
  | 22 => [4; 14; 4; 33; 29; 33]
  | 23 => [4]
  | 24 => [30; 35]
  | 25 => [35; 30]
  | 26 => [35; 30; 35]
  | 27 => [4; 28; 33]
  | 28 => [4; 28; 4; 33; 29; 33]
  | _ => []
  end.
Definition lhs (r : Z) : Z :=
  if r =? 1 then 31 else if r <=? 3 then 32 else if r <=? 5 then 33 else if r <=? 22 then 34 else 35.

(** Derivation trees. *)
Inductive pt := PT (t : tok) | PN (r : Z) (kids : list pt).
Definition psym (p : pt) : Z := match p with PT (c, _) => yytranslate c | PN r _ => lhs r end.
Fixpoint wf_pt (p : pt) : Prop :=
  match p with
  | PT _ => True
  | PN r ks => 2 <= r <= 28 /\ map psym ks = rhs r /\ fold_right (fun k P => wf_pt k /\ P) True ks
  end.
Fixpoint yield (p : pt) : list tok :=
  match p with PT t => [t] | PN _ ks => flat_map yield ks end.

(** Evaluation of the actions, bottom up and from left to right. *)
Section Ev.
Context {V D : Type}.
Variable inj : yylval -> V.
Variable act : Z -> list V -> D -> res (option (V * D)).
Inductive eres (A : Type) := EV (v : A) (d : D) | EA (d : D).
Arguments EV {A} _ _.
Arguments EA {A} _.
Fixpoint ev (p : pt) (d : D) : res (eres V) :=
  match p with
  | PT (_, v) => Ok (EV (inj v) d)
  | PN r ks =>
      let evs := fix evs (l : list pt) (d : D) : res (eres (list V)) :=
        match l with
        | [] => Ok (EV [] d)
        | x :: l' =>
            bind (ev x d) (fun o => match o with
              | EA d1 => Ok (EA d1)
              | EV v d1 => bind (evs l' d1) (fun o2 => match o2 with
                  | EA d2 => Ok (EA d2)
                  | EV vs d2 => Ok (EV (v :: vs) d2)
                  end)
              end)
        end in
      bind (evs ks d) (fun o => match o with
        | EA d1 => Ok (EA d1)
        | EV vs d1 => bind (act r vs d1) (fun a => match a with
            | None => Ok (EA d1)
            | Some (v, d2) => Ok (EV v d2)
            end)
        end)
  end.
Fixpoint evs (l : list pt) (d : D) : res (eres (list V)) :=
  match l with
  | [] => Ok (EV [] d)
  | x :: l' =>
      bind (ev x d) (fun o => match o with
        | EA d1 => Ok (EA d1)
        | EV v d1 => bind (evs l' d1) (fun o2 => match o2 with
            | EA d2 => Ok (EA d2)
            | EV vs d2 => Ok (EV (v :: vs) d2)
            end)
        end)
  end.
Lemma ev_PN : forall r ks d, ev (PN r ks) d =
  bind (evs ks d) (fun o => match o with
    | EA d1 => Ok (EA d1)
    | EV vs d1 => bind (act r vs d1) (fun a => match a with
        | None => Ok (EA d1)
        | Some (v, d2) => Ok (EV v d2)
        end)
    end).
Proof. reflexivity. Qed.
End Ev.
Arguments EV {D A} _ _.
Arguments EA {D A} _.
