(** Properties of policy and attribute list texts. *)
From Verif Require Import Base ByteString StrMap Dec UInteger Policy Lsss LsssSpec Scanner Grammar PolicySyntax Lexical PolicyMeaning AttrMeaning Driver Parser ParserSound ParserRun ParserComplete ParserTop ScannerProofs NumProofs NumTree PolicyTruth ParserSafe CreatePolicy CreateAttrs.
From Coq Require Import ZArith List Ascii Bool Lia ZifyBool ZifyNat Permutation.
Import ListNotations.
Open Scope Z_scope.

(** ** The text determines the expression *)
Section Free.
Definition free_act (r : Z) (vs : list pt) (d : option pt) : res (option (pt * option pt)) :=
  Ok (Some (PN r vs, if r <=? 3 then Some (PN r vs) else d)).
Definition free_inj (v : yylval) : pt := PT (0, v).
Fixpoint blur (p : pt) : pt := match p with PT (_, v) => PT (0, v) | PN r ks => PN r (map blur ks) end.
Notation fev := (ev free_inj free_act).
Notation fevs := (evs free_inj free_act).
Fixpoint no_start (p : pt) : Prop :=
  match p with PT _ => True | PN r ks => 3 < r /\ fold_right (fun k a => no_start k /\ a) True ks end.
Lemma free_all : forall p d, no_start p -> fev p d = Ok (EV (blur p) d).
Proof.
  fix IH 1. intros [[c v]|r ks] d H; [reflexivity|]. destruct H as [R H]. rewrite ev_PN.
  assert (fevs ks d = Ok (EV (map blur ks) d)) as ->.
  { revert H. induction ks as [|q ks IHk]; intro H; [reflexivity|]. cbn [evs fold_right] in *. destruct H as [H1 H2].
    rewrite (IH q d H1). cbn [bind]. rewrite IHk by exact H2. reflexivity. }
  cbn [bind]. unfold free_act. cbn [bind]. replace (r <=? 3) with false by lia. reflexivity.
Qed.
Lemma ntree_start : forall n, no_start (ntree n).
Proof. intros [v [w|]]; cbn; repeat split; lia. Qed.
Lemma ptree_start : forall e, no_start (ptree e).
Proof.
  induction e; cbn [ptree no_start fold_right]; pose proof ntree_start; repeat split; auto; try lia; try (destruct r; cbn; lia); try (destruct incl; lia).
Qed.
Lemma ntree_inj : forall m n, blur (ntree m) = blur (ntree n) -> m = n.
Proof. intros [v [w|]] [v' [w'|]] H; cbn in H; try discriminate; injection H; intros; subst; reflexivity. Qed.
Lemma ptree_inj : forall a b, blur (ptree a) = blur (ptree b) -> a = b.
Proof.
  induction a as [s|r s n|incl s lo hi|r s m dd y|s m lo hi y|a IHa b IHb|a IHa b IHb|a IHa];
    intros [s'|r' s' n'|incl' s' lo' hi'|r' s' m' dd' y'|s' m' lo' hi' y'|a' b'|a' b'|a'] H; cbn [ptree blur map] in H;
    try (destruct r; discriminate H); try (destruct r'; discriminate H); try (destruct incl; discriminate H); try (destruct incl'; discriminate H); try discriminate H;
    try (destruct r, r'; cbn in H; try discriminate H); try (destruct incl, incl'; cbn in H; try discriminate H);
    try (injection H as H1 H2 H3; subst; f_equal; auto using ntree_inj).
  all: try (injection H; intros; subst; f_equal; auto using ntree_inj).
Qed.
Lemma ptoks_inj : forall a b, well a = true -> well b = true -> ptoks a = ptoks b -> a = b.
Proof.
  intros a b Wa Wb E.
  assert (act2_never_aborts free_act) as NA by (intros r vs d _; discriminate).
  assert (forall r vs d, free_act r vs d <> NoFuel) as NF by (intros; discriminate).
  set (f := (4 * length ((START_POLICY, NoVal) :: ptoks a ++ []) + 3)%nat).
  pose proof (run_policy free_inj free_act NA NF a [] (PT (0, NoVal)) None f Wa eq_refl ltac:(unfold f; lia)) as Ra.
  pose proof (run_policy free_inj free_act NA NF b [] (PT (0, NoVal)) None f Wb eq_refl ltac:(unfold f; rewrite E; lia)) as Rb.
  rewrite E in Ra. rewrite Ra in Rb. clear Ra. unfold accept_with in Rb. rewrite !ev_PN in Rb.
  cbn [evs] in Rb. cbn [ev bind] in Rb. fold fev in Rb. rewrite (free_all _ _ (ptree_start a)), (free_all _ _ (ptree_start b)) in Rb. cbn in Rb. injection Rb as Rb. apply ptree_inj. exact Rb.
Qed.
End Free.

(** ** The tree depends on the expression only *)
Lemma formula_gate : forall g a b, g = GateAnd \/ g = GateOr -> formula_of (Gate g [a; b]) = FGate g (match g with GateOr => 1 | _ => 2 end) [formula_of a; formula_of b].
Proof. intros g a b [-> | ->]; reflexivity. Qed.
Lemma leaf_formula : forall d c n d', leaf_node d c = Ok (n, d') -> formula_of n = FLeaf (label c).
Proof. intros d c n d' H. destruct (leaf_inv _ _ _ _ H) as (p & a & -> & <- & _). reflexivity. Qed.
Lemma kof2_formula : forall k a b a' b', k = 1 \/ k = 2 -> formula_of a = formula_of a' -> formula_of b = formula_of b' ->
  formula_of (kof2_tree k a b) = formula_of (kof2_tree k a' b').
Proof. intros k a b a' b' [-> | ->] Ea Eb; unfold kof2_tree; cbn; rewrite Ea, Eb; reflexivity. Qed.
Lemma levels_formula : forall n x g a b v i p p' d d' q q' d1 d1', formula_of p = formula_of p' ->
  marker_levels n x g a b v i p d = Ok (q, d1) -> marker_levels n x g a b v i p' d' = Ok (q', d1') -> formula_of q = formula_of q'.
Proof.
  induction n as [|n IH]; intros x g a b v i p p' d d' q q' d1 d1' E H H'; cbn [marker_levels] in *; [congruence|].
  destruct (leaf_node d (bit_marker x a i g b)) as [[l d2]| | | |] eqn:El; try discriminate. destruct (leaf_node d' (bit_marker x a i g b)) as [[l' d2']| | | |] eqn:El'; try discriminate.
  cbn [bind] in *. eapply IH; [|exact H|exact H']. apply kof2_formula; auto.
  - destruct g, (Z.testbit v i); auto.
  - rewrite (leaf_formula _ _ _ _ El), (leaf_formula _ _ _ _ El'). reflexivity.
Qed.
Lemma eql_formula : forall n x a b v p p' d d' q q' d1 d1', formula_of p = formula_of p' ->
  eq_levels n x a b v p d = Ok (q, d1) -> eq_levels n x a b v p' d' = Ok (q', d1') -> formula_of q = formula_of q'.
Proof.
  induction n as [|n IH]; intros x a b v p p' d d' q q' d1 d1' E H H'; cbn [eq_levels] in *; [congruence|].
  match type of H with context [leaf_node d ?c] => destruct (leaf_node d c) as [[l d2]| | | |] eqn:El; try discriminate; destruct (leaf_node d' c) as [[l' d2']| | | |] eqn:El'; try discriminate end.
  cbn [bind] in *. eapply IH; [|exact H|exact H']. apply kof2_formula; auto.
  rewrite (leaf_formula _ _ _ _ El), (leaf_formula _ _ _ _ El'). reflexivity.
Qed.
Lemma bml_formula : forall x g a b v d d' q q' d1 d1', bit_marker_list d x g a b v = Ok (q, d1) -> bit_marker_list d' x g a b v = Ok (q', d1') -> formula_of q = formula_of q'.
Proof.
  intros x g a b v d d' q q' d1 d1' H H'. unfold bit_marker_list in *. destruct (first_bit 32 g v 0) as [i| | | |]; cbn [bind] in *; try discriminate.
  destruct (leaf_node d (bit_marker x a i g b)) as [[l d2]| | | |] eqn:El; try discriminate. destruct (leaf_node d' (bit_marker x a i g b)) as [[l' d2']| | | |] eqn:El'; try discriminate.
  cbn [bind] in *. eapply levels_formula; [|exact H|exact H']. rewrite (leaf_formula _ _ _ _ El), (leaf_formula _ _ _ _ El'). reflexivity.
Qed.
Lemma num_formula : forall op c u d d' q q' d1 d1', num_policy op d c u = Ok (q, d1) -> num_policy op d' c u = Ok (q', d1') -> formula_of q = formula_of q'.
Proof.
  intros [] c u d d' q q' d1 d1' H H'; cbn [num_policy] in *; try (unfold lt_policy, gt_policy, le_policy, ge_policy, cmp_policy in *; cbv zeta in *; solve [eapply bml_formula; eauto]).
  unfold eq_policy in *. cbv zeta in *.
  match type of H with context [leaf_node d ?c] => destruct (leaf_node d c) as [[l d2]| | | |] eqn:El; try discriminate; destruct (leaf_node d' c) as [[l' d2']| | | |] eqn:El'; try discriminate end.
  cbn [bind] in *. eapply eql_formula; [|exact H|exact H']. rewrite (leaf_formula _ _ _ _ El), (leaf_formula _ _ _ _ El'). reflexivity.
Qed.
Lemma two_formula : forall o1 o2 c u w d d' q q' d1 d1',
  bind (num_policy o1 d c u) (fun '(l, d1) => bind (num_policy o2 d1 c w) (fun '(r, d2) => Ok (Gate GateAnd [l; r], d2))) = Ok (q, d1) ->
  bind (num_policy o1 d' c u) (fun '(l, d1) => bind (num_policy o2 d1 c w) (fun '(r, d2) => Ok (Gate GateAnd [l; r], d2))) = Ok (q', d1') ->
  formula_of q = formula_of q'.
Proof.
  intros o1 o2 c u w d d' q q' d1 d1' H H'.
  destruct (num_policy o1 d c u) as [[l da]| | | |] eqn:E1; try discriminate. destruct (num_policy o1 d' c u) as [[l' da']| | | |] eqn:E1'; try discriminate. cbn [bind] in *.
  destruct (num_policy o2 da c w) as [[r db]| | | |] eqn:E2; try discriminate. destruct (num_policy o2 da' c w) as [[r' db']| | | |] eqn:E2'; try discriminate. cbn [bind] in *.
  injection H as <- _. injection H' as <- _. rewrite !formula_gate by auto. rewrite (num_formula _ _ _ _ _ _ _ _ _ E1 E1'), (num_formula _ _ _ _ _ _ _ _ _ E2 E2'). reflexivity.
Qed.

Section Final.
Variable mktime : tm -> Z * tm.
Notation act := (action mktime).
Notation day := (day mktime).
Notation last_day := (last_day mktime).
Notation ev := (ev VTok act).
Ltac unev := repeat match goal with
  | H : evs _ _ (_ :: _) _ = Ok (EV _ _) |- _ =>
      let v := fresh "v" in let ws := fresh "ws" in let dx := fresh "dx" in let Hv := fresh "Hv" in
      apply evs_cons in H as (v & ws & dx & Hv & H & ->)
  | H : evs _ _ [] _ = Ok (EV _ _) |- _ => apply evs_nil in H as [-> ->]
  | H : Grammar.ev _ _ (PT (_, _)) _ = Ok (EV _ _) |- _ => apply ev_tok in H as [-> ->]
  | H : Grammar.ev _ _ (PT (leaf_tok _)) _ = Ok (EV _ _) |- _ => apply ev_tok in H as [-> ->]
  | H : Grammar.ev _ _ (PT (tk _)) _ = Ok (EV _ _) |- _ => apply ev_tok in H as [-> ->]
  | H : Grammar.ev _ _ (ntree _) _ = Ok (EV _ _) |- _ => apply ev_num_inv in H as (? & -> & ->); [|assumption]
  end.
Lemma two_kids : forall r t a b d v d1, (r = 7 \/ r = 8) -> ev (PN r [a; PT t; b]) d = Ok (EV v d1) ->
  exists x y d2, ev a d = Ok (EV (VTree x) d2) /\ ev b d2 = Ok (EV (VTree y) d1) /\ v = VTree (Gate (if r =? 7 then GateOr else GateAnd) [x; y]).
Proof.
  intros r [tc tv] a b d v d1 Hr H. apply ev_kids in H as (vs & d2 & H & A). apply evs_cons in H as (va & w1 & da & Ha & H & ->).
  apply evs_cons in H as (vt & w2 & dt & Ht & H & ->). apply ev_tok in Ht as [-> ->]. apply evs_cons in H as (vb & w3 & db & Hb & H & ->). apply evs_nil in H as [-> ->].
  destruct Hr as [-> | ->]; cbn [action] in A; (destruct va as [| |x|]; try discriminate; destruct vb as [| |y|]; try discriminate; injection A as <- <-; exists x, y, da; auto).
Qed.
Lemma ev_formula : forall e d d' n n' d1 d1', Forall tok_good (ptoks e) ->
  ev (ptree e) d = Ok (EV (VTree n) d1) -> ev (ptree e) d' = Ok (EV (VTree n') d1') -> formula_of n = formula_of n'.
Proof.
  induction e as [s|r s n|incl s lo hi|r s m dd y|s m lo hi y|a IHa b IHb|a IHa b IHb|a IHa]; intros d d' t t' d1 d1' G H H'; cbn [ptoks] in G; cbn [ptree] in H, H'; pose proof H as Q; pose proof H' as Q';
    apply ev_kids in H as (vs & d2 & H & A); apply ev_kids in H' as (vs' & d2' & H' & A').
  - unev. cbn [action] in A, A'. apply tree_of_inv in A as (x & A & Ex). apply tree_of_inv in A' as (x' & A' & Ex'). injection Ex as <-. injection Ex' as <-.
    rewrite (leaf_formula _ _ _ _ A), (leaf_formula _ _ _ _ A'). reflexivity.
  - destruct (leaf_name _ _ G) as [N G1]. inversion G1 as [|? ? _ G2]; subst. pose proof (ntoks_range n G2) as R. destruct (rel_tok r) as [tc tv].
    unev. rewrite rel_action in A, A'. apply tree_of_inv in A as (x & A & Ex). apply tree_of_inv in A' as (x' & A' & Ex'). injection Ex as <-. injection Ex' as <-.
    eapply num_formula; eauto.
  - destruct (leaf_name _ _ G) as [N G1]. inversion G1 as [|? ? _ G2]; subst. inversion G2 as [|? ? _ G3]; subst.
    apply Forall_app in G3 as [G3 G4]. inversion G4 as [|? ? _ G5]; subst. apply Forall_app in G5 as [G5 _].
    pose proof (ntoks_range lo G3) as Rl. pose proof (ntoks_range hi G5) as Rh. destruct (open_tok incl) as [oc ov]. destruct (close_tok incl) as [cc cv].
    unev. destruct incl; cbn [action] in A, A'; apply tree_of_inv in A as (x & A & Ex); apply tree_of_inv in A' as (x' & A' & Ex'); injection Ex as <-; injection Ex' as <-.
    + eapply (two_formula OpGe OpLe); eauto.
    + eapply (two_formula OpGt OpLt); eauto.
  - destruct (leaf_name _ _ G) as [N G1]. inversion G1 as [|? ? _ G2]; subst. destruct (leaf_name _ _ G2) as [Nm G3].
    apply Forall_app in G3 as [G3 G4]. inversion G4 as [|? ? _ G5]; subst.
    pose proof (ntoks_range dd G3) as Rd. pose proof (ntoks_range y G5) as Ry. destruct (date_rel_tok r) as [tc tv]. unev.
    rewrite date_action in A, A'. apply tree_of_inv in A as (x & A & Ex). apply tree_of_inv in A' as (x' & A' & Ex'). injection Ex as <-. injection Ex' as <-.
    unfold date_policy in A, A'. eapply num_formula; eauto.
  - destruct (leaf_name _ _ G) as [N G1]. inversion G1 as [|? ? _ G2]; subst. destruct (leaf_name _ _ G2) as [Nm G3].
    apply Forall_app in G3 as [G3 G4]. inversion G4 as [|? ? _ G5]; subst. apply Forall_app in G5 as [G5 G6]. inversion G6 as [|? ? _ G7]; subst.
    pose proof (ntoks_range lo G3) as Rl. pose proof (ntoks_range hi G5) as Rh. pose proof (ntoks_range y G7) as Ry. unev.
    cbn [action] in A, A'. apply tree_of_inv in A as (x & A & Ex). apply tree_of_inv in A' as (x' & A' & Ex'). injection Ex as <-. injection Ex' as <-.
    unfold range_date_in_policy in A, A'. destruct (mktime (tm_of (get_month m) (uval (num_uint lo)) (uval (num_uint y)))) as [s1 t1].
    match type of A with context [mktime ?t] => destruct (mktime t) as [s2 t2] end. eapply (two_formula OpGe OpLe); eauto.
  - clear H A H' A'. apply Forall_app in G as [Ga Gb]. inversion Gb as [|? ? _ Gb']; subst. rename Q into H. rename Q' into H'.
    apply two_kids in H as (x & y & dm & Hx & Hy & E); auto. apply two_kids in H' as (x' & y' & dm' & Hx' & Hy' & E'); auto. injection E as ->. injection E' as ->.
    rewrite !formula_gate by auto. rewrite (IHa _ _ _ _ _ _ Ga Hx Hx'), (IHb _ _ _ _ _ _ Gb' Hy Hy'). reflexivity.
  - clear H A H' A'. apply Forall_app in G as [Ga Gb]. inversion Gb as [|? ? _ Gb']; subst. rename Q into H. rename Q' into H'.
    apply two_kids in H as (x & y & dm & Hx & Hy & E); auto. apply two_kids in H' as (x' & y' & dm' & Hx' & Hy' & E'); auto. injection E as ->. injection E' as ->.
    rewrite !formula_gate by auto. rewrite (IHa _ _ _ _ _ _ Ga Hx Hx'), (IHb _ _ _ _ _ _ Gb' Hy Hy'). reflexivity.
  - inversion G as [|? ? _ G1]; subst. apply Forall_app in G1 as [G1 _]. unev. cbn [action] in A, A'.
    repeat match type of A with match ?x with _ => _ end = _ => is_var x; destruct x; try discriminate end.
    repeat match type of A' with match ?x with _ => _ end = _ => is_var x; destruct x; try discriminate end.
    injection A as -> ->. injection A' as -> ->. eapply IHa; eauto.
Qed.

(** ** Totality *)
Definition number_in (s : str) (n : Z) : Prop := exists w, occurs w s /\ w <> [] /\ forallb is_digit w = true /\ undec w = n.
(** Every date that can be made of the words and numbers of a text with a comma
    is within the range of comparable days. *)
Definition dates_in_range (s : str) : Prop := In ","%char s ->
  (forall r m d y, is_name m = true -> occurs m s -> number_in s d -> number_in s y -> day_ok r (day m d y) = true) /\
  (forall m lo hi y, is_name m = true -> occurs m s -> number_in s lo -> number_in s hi -> number_in s y -> day_ok RLe (last_day m lo hi y) = true).
Lemma lex_name_occurs : forall m s, In (leaf_tok m) (lex s) -> is_name m = true /\ occurs m s.
Proof.
  intros m s H. destruct (lex_occurs _ _ H ltac:(left; eauto)) as (w & rest & O & Sp). inversion Sp; subst; auto; try discriminate.
Qed.
Lemma lex_num_occurs : forall n s, In (uint_tok n) (lex s) -> number_in s n.
Proof.
  intros m s H. destruct (lex_occurs _ _ H ltac:(right; left; eauto)) as (w & rest & O & Sp). inversion Sp; subst; try discriminate; exists w; auto.
Qed.
Lemma lex_comma_occurs : forall s, In (tk c_comma) (lex s) -> In ","%char s.
Proof.
  intros s H. destruct (lex_occurs _ _ H ltac:(right; right; cbn; tauto)) as (w & rest & (a & b & ->) & Sp). apply in_or_app. right. apply in_or_app. left.
  assert (w = [","%char]) as ->; [|left; reflexivity].
  inversion Sp; subst; try discriminate;
    (match goal with X : b2z ?c = _ |- _ => f_equal; assert (z2b (b2z c) = z2b 44) as Y by (rewrite X; reflexivity); rewrite z2b_b2z in Y; exact Y end).
Qed.
Lemma create_fine : forall s, (In (tk c_comma) (lex s) -> dates_fine mktime (lex s)) -> exists o, create_policy_tree mktime s = Ok o /\
  (forall q, o = Some q -> exists r, proot q = Some r /\ binary r = true).
Proof.
  intros s D. assert (exists o, create_policy_tree mktime s = Ok o) as (o & E).
  { destruct s as [|c0 s0]; [exists None; reflexivity|]. set (s := c0 :: s0) in *.
    pose proof (run_finishes mktime true s (fun _ => D)) as R. unfold s. cbn [create_policy_tree]. fold s. rewrite parse_string_eq.
    destruct (run VTok act (parse_fuel (start_tok true :: lex s)) [(0, VTok NoVal)] (start_tok true :: lex s) (start_driver true s)) as [[d|d|d]| | | |];
      cbn [safe] in R; try contradiction; cbn [bind]; eauto. }
  exists o. split; auto. intros q ->. apply create_accept in E as (e & s' & n & d' & _ & _ & _ & _ & _ & M & _ & ->).
  exists n. split; [reflexivity|]. destruct M as [(cs & [B _] & _) _]. exact B.
Qed.
Lemma create_total : forall s, dates_in_range s -> exists o, create_policy_tree mktime s = Ok o /\
  (forall q, o = Some q -> exists r, proot q = Some r /\ binary r = true).
Proof.
  intros s D. apply create_fine. intro I. destruct (D (lex_comma_occurs s I)) as [D1 D2]. split.
  - intros r m d y M Hd Hy. apply lex_name_occurs in M as [M1 M2]. apply D1; auto using lex_num_occurs.
  - intros m lo hi y M Hl Hh Hy. apply lex_name_occurs in M as [M1 M2]. apply D2; auto using lex_num_occurs.
Qed.

(** ** What is accepted *)
Lemma issues_text : forall e d n d', means mktime e d n d' -> dtext d' = dtext d.
Proof. intros e d n d' [(cs & [_ (ns & I & _)] & _) _]. apply issues_keep in I. tauto. Qed.
Lemma start_pol_none : forall e s n d', means mktime e (start_driver true s) n d' -> dpol d' = None.
Proof. intros e s n d' [(cs & [_ (ns & I & _)] & _) _]. apply issues_keep in I. destruct I as (_ & _ & _ & _ & I & _). exact I. Qed.

Definition reads (e : pexp) (s : str) : Prop := exists s', text_pre (ptoks e) s s' /\ ended s'.
Lemma sym_nonzero : forall e, Forall (fun t => yytranslate (fst t) <> 0) (ptoks e).
Proof.
  intro e. eapply Forall_impl; [|exact (good_ptoks e)]. intros [c v] [(x & E)|[(x & E)|E]]; cbn [fst] in *.
  - injection E as -> _. vm_compute. discriminate.
  - injection E as -> _. vm_compute. discriminate.
  - cbn in E. decompose [or] E; try contradiction; match goal with H : tk _ = _ |- _ => injection H as <- _ end; vm_compute; discriminate.
Qed.
Lemma prefix_same : forall (l1 l2 r1 r2 : list tok), Forall (fun t => yytranslate (fst t) <> 0) l1 -> Forall (fun t => yytranslate (fst t) <> 0) l2 ->
  la_sym r1 = 0 -> la_sym r2 = 0 -> l1 ++ r1 = l2 ++ r2 -> l1 = l2.
Proof.
  induction l1 as [|[c v] l1 IH]; intros [|[c' v'] l2] r1 r2 F1 F2 Z1 Z2 E; auto.
  - cbn [app] in E. subst r1. exfalso. cbn [la_sym] in Z1. inversion F2; subst. auto.
  - cbn [app] in E. subst r2. exfalso. cbn [la_sym] in Z2. inversion F1; subst. auto.
  - cbn [app] in E. injection E as -> -> E. inversion F1; subst. inversion F2; subst. f_equal. apply (IH l2 r1 r2); auto.
Qed.
Lemma reads_unique : forall e e' s, well e = true -> well e' = true -> reads e s -> reads e' s -> e = e'.
Proof.
  intros e e' s W W' (r & P & Er) (r' & P' & Er'). apply ptoks_inj; auto. apply text_pre_lex in P. apply text_pre_lex in P'.
  eapply prefix_same; try apply sym_nonzero; [apply ended_lex; exact Er|apply ended_lex; exact Er'|]. congruence.
Qed.
Lemma accepted_reads : forall s q, create_policy_tree mktime s = Ok (Some q) ->
  exists e r, reads e s /\ well e = true /\ nums_ok e = true /\ dates_ok day last_day e = true /\
    proot q = Some r /\ binary r = true /\ ptext q = s /\ (tidy_names e = true -> denotes day last_day e r).
Proof.
  intros s q E. apply create_accept in E as (e & s' & n & d' & P & En & W & Nm & D & M & _ & ->).
  exists e, n. split; [exists s'; auto|]. split; auto. split; auto. split; auto. split; [reflexivity|]. pose proof (issues_text _ _ _ _ M) as T.
  destruct M as [(cs & [B _] & _) De]. auto.
Qed.
Lemma reads_accepted : forall s e, reads e s -> well e = true -> nums_ok e = true -> dates_ok day last_day e = true ->
  exists q r, create_policy_tree mktime s = Ok (Some q) /\ proot q = Some r /\ binary r = true /\ ptext q = s /\ prevoke q = false /\
    (tidy_names e = true -> denotes day last_day e r) /\
    (exists d', means mktime e (start_driver true s) r d' /\ q = made s r d' /\ ev (ptree e) (start_driver true s) = Ok (EV (VTree r) d')).
Proof.
  intros s e (s' & P & En) W Nm D. pose proof (text_pre_good _ _ _ P) as G.
  destruct (ev_policy mktime e (start_driver true s) G D) as [K _]. destruct (K Nm) as (n & d' & Ev & M).
  assert (create_policy_tree mktime s = Ok (Some (made s n d'))) as E.
  { apply create_accept. exists e, s', n, d'. auto 10. }
  exists (made s n d'), n. split; auto. split; [reflexivity|]. pose proof (issues_text _ _ _ _ M) as T. pose proof (start_pol_none _ _ _ _ M) as Pn.
  pose proof M as [(cs & [B _] & _) De]. split; auto. split; auto. split; [unfold made, set_policy; cbn; rewrite Pn; reflexivity|]. split; auto.
  exists d'. auto.
Qed.
Lemma reads_rejected : forall s e, reads e s -> well e = true -> nums_ok e = false -> dates_ok day last_day e = true -> create_policy_tree mktime s = Ok None.
Proof.
  intros s e (s' & P & En) W Nm D. pose proof (text_pre_good _ _ _ P) as G.
  destruct (ev_policy mktime e (start_driver true s) G D) as [_ K]. destruct (K Nm) as (d' & Ev & Kp & _).
  pose proof (run_policy VTok act (action_na mktime) (action_nf mktime) e (lex s') (VTok NoVal) (start_driver true s) (parse_fuel (start_tok true :: lex s)) W (proj1 (ended_lex s') En)) as R.
  rewrite <- (text_pre_lex _ _ _ P) in R.
  assert (parse_fuel (start_tok true :: lex s) >= 4 * length ((START_POLICY, NoVal) :: lex s) + 3)%nat as Hf by (unfold parse_fuel; change (length ((START_POLICY, NoVal) :: lex s)) with (length (start_tok true :: lex s)); lia).
  specialize (R Hf). change ((START_POLICY, NoVal) :: lex s) with (start_tok true :: lex s) in R.
  unfold accept_with in R. rewrite ev_PN in R. cbn [Grammar.evs] in R. cbn [Grammar.ev bind] in R. fold ev in R. rewrite Ev in R. cbn [bind cont] in R.
  destruct s as [|c0 s0]; [reflexivity|]. cbn [create_policy_tree]. set (s := c0 :: s0) in *. rewrite parse_string_eq, R. cbn [bind]. rewrite Kp. reflexivity.
Qed.
Lemma plain_reads : forall e s, plain_text s -> reads e s -> text_of (ptoks e) s.
Proof.
  intros e s Pl (s' & P & [B|(b & c & r & -> & _ & St)]); [exists s'; auto|]. exfalso.
  assert (forall ts s t, text_pre ts s t -> forall c, In c t -> In c s) as Sub.
  { intros ts s1 t H. induction H; auto. intros x Hx. apply in_or_app. right. apply in_or_app. right. auto. }
  rewrite (Pl c) in St; [discriminate|]. eapply Sub; eauto. apply in_or_app. right. left. reflexivity.
Qed.
Lemma text_reads : forall e s, text_of (ptoks e) s -> reads e s.
Proof. intros e s (b & B & P). exists b. split; auto. left. exact B. Qed.
End Final.
