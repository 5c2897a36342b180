(** Printed policies and attribute lists read back. *)
From Verif Require Import Base ByteString StrMap Dec UInteger Policy Lsss LsssSpec LsssProofs Scanner Grammar PolicySyntax Lexical PolicyMeaning AttrMeaning Driver Parser AttrList ParserSound ParserRun ParserTop ScannerProofs NumProofs NumTree PolicyTruth ParserSafe CreatePolicy CreateAttrs ParserFinal AttrUse PolicyUse.
From Coq Require Import ZArith List Ascii Bool Lia ZifyBool ZifyNat Permutation.
Import ListNotations.
Open Scope Z_scope.

(** ** Texts put together *)
Definition quiet (x : str) : Prop := next_is name_char x = false /\ next_is is_digit x = false /\ next_is is_eq x = false.
Lemma next_app : forall f r x, next_is f x = false -> next_is f r = false -> next_is f (r ++ x) = false.
Proof. intros f [|c r] x H K; auto. Qed.
Lemma spells_ext : forall t w r x, quiet x -> spells t w r -> spells t w (r ++ x).
Proof. intros t w r x (Q1 & Q2 & Q3) H. inversion H; subst; try (apply sp_punct; assumption); constructor; auto using next_app. Qed.
Lemma text_pre_ext : forall ts s s' x, quiet x -> text_pre ts s s' -> text_pre ts (s ++ x) (s' ++ x).
Proof.
  intros ts s s' x Q H. induction H as [s|b t w ts s s' B Sp H IH]; [constructor|].
  replace ((b ++ w ++ s) ++ x) with (b ++ w ++ (s ++ x)) by (rewrite <- !app_assoc; reflexivity). constructor; auto using spells_ext.
Qed.
Lemma text_pre_app : forall t1 t2 s s' s'', text_pre t1 s s' -> text_pre t2 s' s'' -> text_pre (t1 ++ t2) s s''.
Proof. intros t1 t2 s s' s'' H. induction H; intro K; cbn [app]; auto. constructor; auto. Qed.
Lemma text_one : forall t w s, spells t w s -> text_pre [t] (w ++ s) s.
Proof. intros t w s H. apply (tp_cons [] t w [] s s eq_refl H). constructor. Qed.
Lemma text_step : forall t w ts s s', spells t w s -> text_pre ts s s' -> text_pre (t :: ts) (w ++ s) s'.
Proof. intros t w ts s s' H K. exact (tp_cons [] t w ts s s' eq_refl H K). Qed.
Lemma text_skip : forall b t ts s s', blanks b -> text_pre (t :: ts) s s' -> text_pre (t :: ts) (b ++ s) s'.
Proof.
  intros b t ts s s' B H. inversion H as [|b' t' w ts' s1 s'' B' Sp H']; subst. replace (b ++ b' ++ w ++ s1) with ((b ++ b') ++ w ++ s1) by (rewrite <- app_assoc; reflexivity).
  constructor; auto. unfold blanks in *. rewrite forallb_app, B, B'. reflexivity.
Qed.

(** ** Policies *)
Fixpoint e_of (n : node) : pexp :=
  match n with
  | Node GateAnd _ _ _ _ [a; b] => EPar (EAnd (e_of a) (e_of b))
  | Node GateOr _ _ _ _ [a; b] => EPar (EOr (e_of a) (e_of b))
  | _ => EAttr (complete_label n)
  end.
Definition legal_leaves (n : node) : Prop := forall a, In a (leaves n) -> is_name (complete_label a) = true /\ tidy (complete_label a) = true.

Lemma e_of_text : forall n rest, binary n = true -> legal_leaves n -> next_is name_char rest = false ->
  text_pre (ptoks (e_of n)) (node_to_string n ++ rest) rest.
Proof.
  fix IH 1. intros [g k p l i ks] rest B H R. destruct g; cbn [binary] in B; try discriminate.
  - cbn [e_of ptoks node_to_string]. apply text_one. constructor; auto. apply (H (Node GateLeaf k p l i ks)). left. reflexivity.
  - apply andb_prop in B as [L1 B]. destruct ks as [|a [|b [|]]]; try discriminate. cbn [forallb] in B. rewrite andb_true_r in B. apply andb_prop in B as [Ba Bb].
    assert (legal_leaves a /\ legal_leaves b) as [La Lb]. { split; intros x I; apply H; cbn; apply in_or_app; [auto|right; apply in_or_app; auto]. }
    cbn [e_of ptoks node_to_string]. rewrite <- !app_assoc. apply text_step; [apply (sp_punct "("%char); reflexivity|].
    apply text_pre_app with (s' := L " and " ++ node_to_string b ++ L ")" ++ rest); [apply IH; auto|].
    change (L " and ") with (L " " ++ L "and" ++ L " "). rewrite <- !app_assoc. cbn [app]. apply text_skip; [reflexivity|]. apply text_step; [constructor; auto|].
    assert (text_pre (ptoks (e_of b) ++ [tk c_rp]) (node_to_string b ++ L ")" ++ rest) rest) as K.
    { apply text_pre_app with (s' := L ")" ++ rest); [apply IH; auto|apply text_one; apply (sp_punct ")"%char); reflexivity]. }
    destruct (ptoks (e_of b) ++ [tk c_rp]) as [|t0 ts0] eqn:E; [apply app_eq_nil in E as [_ E]; discriminate|]. apply (text_skip (L " ")); [reflexivity|exact K].
  - apply andb_prop in B as [L1 B]. destruct ks as [|a [|b [|]]]; try discriminate. cbn [forallb] in B. rewrite andb_true_r in B. apply andb_prop in B as [Ba Bb].
    assert (legal_leaves a /\ legal_leaves b) as [La Lb]. { split; intros x I; apply H; cbn; apply in_or_app; [auto|right; apply in_or_app; auto]. }
    cbn [e_of ptoks node_to_string]. rewrite <- !app_assoc. apply text_step; [apply (sp_punct "("%char); reflexivity|].
    apply text_pre_app with (s' := L " or " ++ node_to_string b ++ L ")" ++ rest); [apply IH; auto|].
    change (L " or ") with (L " " ++ L "or" ++ L " "). rewrite <- !app_assoc. cbn [app]. apply text_skip; [reflexivity|]. apply text_step; [constructor; auto|].
    assert (text_pre (ptoks (e_of b) ++ [tk c_rp]) (node_to_string b ++ L ")" ++ rest) rest) as K.
    { apply text_pre_app with (s' := L ")" ++ rest); [apply IH; auto|apply text_one; apply (sp_punct ")"%char); reflexivity]. }
    destruct (ptoks (e_of b) ++ [tk c_rp]) as [|t0 ts0] eqn:E; [apply app_eq_nil in E as [_ E]; discriminate|]. apply (text_skip (L " ")); [reflexivity|exact K].
Qed.
Lemma e_of_facts : forall day last_day n, binary n = true -> legal_leaves n ->
  well (e_of n) = true /\ is_or (e_of n) = false /\ is_and (e_of n) = false /\ nums_ok (e_of n) = true /\ dates_ok day last_day (e_of n) = true /\
  tidy_names (e_of n) = true /\ (forall m, denotes day last_day (e_of n) m -> formula_of m = formula_of n).
Proof.
  intros day last_day. fix IH 1. intros [g k p l i ks] B H. destruct g; cbn [binary] in B; try discriminate.
  - cbn [e_of]. repeat split; auto.
    + unfold tidy_names. cbn [names forallb]. rewrite andb_true_r. apply (H (Node GateLeaf k p l i ks)). left. reflexivity.
    + intros m (p' & l' & i' & -> & E). cbn [formula_of Leaf]. f_equal. exact E.
  - apply andb_prop in B as [L1 B]. destruct ks as [|a [|b [|]]]; try discriminate. cbn [forallb] in B. rewrite andb_true_r in B. apply andb_prop in B as [Ba Bb].
    assert (legal_leaves a /\ legal_leaves b) as [La Lb]. { split; intros x I; apply H; cbn; apply in_or_app; [auto|right; apply in_or_app; auto]. }
    destruct (IH a Ba La) as (A1 & A2 & A3 & A4 & A5 & A6 & A7), (IH b Bb Lb) as (B1 & B2 & B3 & B4 & B5 & B6 & B7).
    cbn [e_of well nums_ok dates_ok is_or is_and]. rewrite A1, A2, A4, A5, B1, B2, B3, B4, B5. repeat split.
    + unfold tidy_names in *. cbn [names]. rewrite forallb_app, A6, B6. reflexivity.
    + intros m (x & y & -> & Dx & Dy). rewrite formula_gate by auto. rewrite (A7 _ Dx), (B7 _ Dy). reflexivity.
  - apply andb_prop in B as [L1 B]. destruct ks as [|a [|b [|]]]; try discriminate. cbn [forallb] in B. rewrite andb_true_r in B. apply andb_prop in B as [Ba Bb].
    assert (legal_leaves a /\ legal_leaves b) as [La Lb]. { split; intros x I; apply H; cbn; apply in_or_app; [auto|right; apply in_or_app; auto]. }
    destruct (IH a Ba La) as (A1 & A2 & A3 & A4 & A5 & A6 & A7), (IH b Bb Lb) as (B1 & B2 & B3 & B4 & B5 & B6 & B7).
    cbn [e_of well nums_ok dates_ok is_or is_and]. rewrite A1, A4, A5, B1, B2, B4, B5. repeat split.
    + unfold tidy_names in *. cbn [names]. rewrite forallb_app, A6, B6. reflexivity.
    + intros m (x & y & -> & Dx & Dy). rewrite formula_gate by auto. rewrite (A7 _ Dx), (B7 _ Dy). reflexivity.
Qed.
Lemma sat_formula : forall h n m, binary n = true -> binary m = true -> formula_of n = formula_of m -> sat h n = sat h m.
Proof.
  intro h. fix IH 1. intros [g k p l i ks] [g' k' p' l' i' ks'] B B' E.
  destruct g; cbn [binary] in B; try discriminate; destruct g'; cbn [binary] in B'; try discriminate; cbn [formula_of] in E; try discriminate.
  - injection E as E. cbn [sat]. rewrite E. reflexivity.
  - apply andb_prop in B as [L1 B]. destruct ks as [|a [|b [|]]]; try discriminate. cbn [forallb] in B. rewrite andb_true_r in B. apply andb_prop in B as [Ba Bb].
    apply andb_prop in B' as [L1' B']. destruct ks' as [|a' [|b' [|]]]; try discriminate. cbn [forallb] in B'. rewrite andb_true_r in B'. apply andb_prop in B' as [Ba' Bb'].
    cbn [map] in E. injection E as E1 E2. cbn [sat forallb]. rewrite (IH a a'), (IH b b'); auto.
  - apply andb_prop in B as [L1 B]. destruct ks as [|a [|b [|]]]; try discriminate. cbn [forallb] in B. rewrite andb_true_r in B. apply andb_prop in B as [Ba Bb].
    apply andb_prop in B' as [L1' B']. destruct ks' as [|a' [|b' [|]]]; try discriminate. cbn [forallb] in B'. rewrite andb_true_r in B'. apply andb_prop in B' as [Ba' Bb'].
    cbn [map] in E. injection E as E1 E2. cbn [sat existsb]. rewrite (IH a a'), (IH b b'); auto.
Qed.

Section Print.
Variable mktime : tm -> Z * tm.
Notation day := (day mktime).
Notation last_day := (last_day mktime).
Notation act := (action mktime).
Notation ev := (ev VTok act).

Lemma print_parse : forall n, binary n = true -> legal_leaves n ->
  exists q r, create_policy_tree mktime (node_to_string n) = Ok (Some q) /\ proot q = Some r /\ formula_of r = formula_of n /\ binary r = true.
Proof.
  intros n B H. destruct (e_of_facts day last_day n B H) as (A1 & _ & _ & A4 & A5 & A6 & A7).
  destruct (reads_accepted mktime (node_to_string n) (e_of n)) as (q & r & E & Hr & Br & _ & _ & De & _); auto.
  { exists []. split; [|left; reflexivity]. rewrite <- (app_nil_r (node_to_string n)). apply e_of_text; auto. }
  exists q, r. split; [exact E|]. split; [exact Hr|]. split; auto.
Qed.

(** ** addToRootOfInput *)
Definition gate_exp (g : gate) (a b : pexp) : pexp := match g with GateAnd => EAnd a b | _ => EOr a b end.
Lemma added_text : forall g e s a, (g = GateAnd \/ g = GateOr) -> text_of (ptoks e) s -> is_name a = true ->
  text_of (ptoks (gate_exp g (EPar e) (EAttr a))) (L "(" ++ s ++ L ")" ++ gate_text g ++ a).
Proof.
  intros g e s a G (b & B & P) N. exists []. split; [reflexivity|].
  assert (ptoks (gate_exp g (EPar e) (EAttr a)) = tk c_lp :: ptoks e ++ tk c_rp :: tk (match g with GateAnd => AND | _ => OR end) :: [leaf_tok a]) as ->.
  { destruct G as [-> | ->]; cbn [gate_exp ptoks app]; rewrite <- app_assoc; reflexivity. }
  apply text_step; [apply (sp_punct "("%char); reflexivity|].
  apply text_pre_app with (s' := b ++ L ")" ++ gate_text g ++ a); [apply text_pre_ext; auto; repeat split|].
  apply text_skip; auto. apply text_step; [apply (sp_punct ")"%char); reflexivity|].
  assert (exists w, gate_text g = L " " ++ w ++ L " " /\ spells (tk (match g with GateAnd => AND | _ => OR end)) w (L " " ++ a)) as (w & -> & Sp).
  { destruct G as [-> | ->]; [exists (L "and")|exists (L "or")]; (split; [reflexivity|constructor; auto]). }
  rewrite <- !app_assoc. apply text_skip; [reflexivity|]. apply text_step; auto. apply text_skip; [reflexivity|].
  pose proof (text_one (leaf_tok a) a [] (sp_name a [] N eq_refl)) as K. rewrite app_nil_r in K. exact K.
Qed.
Lemma add_root : forall g s q r a, (g = GateAnd \/ g = GateOr) -> plain_text s -> create_policy_tree mktime s = Ok (Some q) -> proot q = Some r ->
  is_name a = true -> tidy a = true ->
  exists q' r' x, add_to_root mktime g a q = Ok (Some q') /\ proot q' = Some (Gate g [r'; x]) /\ formula_of r' = formula_of r /\ binary r' = true /\
    formula_of x = FLeaf a /\ (forall h, sat h (Gate g [r'; x]) = match g with GateAnd => sat h r && h a | _ => sat h r || h a end).
Proof.
  intros g s q r a G Pl E Hr N T. pose proof E as E0. apply create_accept in E as (e & s' & n & d' & P & En & W & Nm & D & M & Ev & ->). injection Hr as <-.
  assert (reads e s) as Re by (exists s'; auto). pose proof (added_text g e s a G (plain_reads e s Pl Re) N) as Tx. set (s2 := L "(" ++ s ++ L ")" ++ gate_text g ++ a) in *.
  assert (well (gate_exp g (EPar e) (EAttr a)) = true /\ nums_ok (gate_exp g (EPar e) (EAttr a)) = true /\ dates_ok day last_day (gate_exp g (EPar e) (EAttr a)) = true) as (W2 & N2 & D2).
  { destruct G as [-> | ->]; cbn; rewrite W, Nm, D; auto. }
  destruct (reads_accepted mktime s2 _ (text_reads _ _ Tx) W2 N2 D2) as (q2 & r2 & E2 & R2 & B2 & _ & _ & _ & (d2 & _ & _ & Ev2)).
  pose proof (text_pre_good _ _ _ P) as Good.
  assert (exists r' x d1, ev (ptree e) (start_driver true s2) = Ok (EV (VTree r') d1) /\ leaf_node d1 a = Ok (x, d2) /\ r2 = Gate g [r'; x]) as (r' & x & d1 & Ev1 & Lf & ->).
  { destruct (ev_policy mktime e (start_driver true s2) Good D) as [K _]. destruct (K Nm) as (r' & d1 & Ev1 & _).
    destruct (leaf_total d1 a (name_starts a N)) as (x & d3 & Lf). exists r', x, d1. split; auto.
    assert (ev (ptree (gate_exp g (EPar e) (EAttr a))) (start_driver true s2) = Ok (EV (VTree (Gate g [r'; x])) d3)) as K2.
    { destruct G as [-> | ->]; cbn [gate_exp ptree]; rewrite ev_PN; cbn [Grammar.evs]; rewrite ev_PN; cbn [Grammar.evs]; cbn [Grammar.ev tk bind]; fold ev; rewrite Ev1; cbn [bind action];
        cbn [Grammar.ev leaf_tok bind action]; rewrite Lf; reflexivity. }
    rewrite K2 in Ev2. injection Ev2 as <- <-. auto. }
  assert (formula_of r' = formula_of n) as F by (eapply (ev_formula mktime); [exact Good|exact Ev1|exact Ev]).
  destruct (leaf_inv _ _ _ _ Lf) as (pp & aa & Ex & Lx & _). rewrite label_tidy in Lx by auto.
  assert (binary n = true) as Bn. { destruct M as [(cs & [Bn _] & _) _]. exact Bn. }
  assert (binary r' = true) as Br. { rewrite binary_gate in B2. destruct G as [-> | ->]; apply andb_prop in B2; apply B2. }
  exists q2, r', x. split.
  - unfold add_to_root. destruct (reads_accepted mktime s e Re W Nm D) as (q0 & r0 & E1 & _ & _ & T0 & Rv & _). rewrite E0 in E1. injection E1 as <-.
    rewrite Rv, T0. exact E2.
  - split; auto. split; auto. split; auto. split; [rewrite Ex in *; cbn [formula_of Leaf]; f_equal; exact Lx|]. intro h.
    assert (sat h x = h a) as Sx. { rewrite sat_leaf by (rewrite Ex; reflexivity). rewrite Lx. reflexivity. }
    destruct G as [-> | ->]; [rewrite sat_gate_and|rewrite sat_gate_or]; rewrite Sx, (sat_formula h r' n); auto.
Qed.
End Print.
