(** createPolicyTree and createAttributeList as functions of the text. *)
From Verif Require Import Base ByteString StrMap Dec UInteger Policy LsssSpec Scanner Grammar PolicySyntax Lexical PolicyMeaning Driver Parser ParserSound ParserRun ParserComplete ParserTop ScannerProofs NumProofs NumTree PolicyTruth ParserSafe.
From Coq Require Import ZArith List Ascii Bool Lia ZifyBool ZifyNat Permutation.
Import ListNotations.
Open Scope Z_scope.

(** ** The actions neither run out of fuel nor abort at the top *)
Lemma leaf_nf : forall d c, leaf_node d c <> NoFuel.
Proof. intros d c. unfold leaf_node, check_attribute. destruct (existsb _ c); [destruct (Driver.split c colon)|]; cbn [bind]; try discriminate; destruct (mget c (dcount d)); discriminate. Qed.
Lemma first_nf : forall f g v i, first_bit f g v i <> NoFuel.
Proof. induction f as [|f IH]; intros g v i; cbn [first_bit]; [discriminate|]. destruct (Bool.eqb _ _); [apply IH|discriminate]. Qed.
Lemma levels_nf : forall n x g a b v i p d, marker_levels n x g a b v i p d <> NoFuel.
Proof.
  induction n as [|n IH]; intros x g a b v i p d; cbn [marker_levels]; [discriminate|].
  pose proof (leaf_nf d (bit_marker x a i g b)). destruct (leaf_node d (bit_marker x a i g b)) as [[l d']| | | |]; cbn [bind]; try discriminate; [apply IH|congruence].
Qed.
Lemma bml_nf : forall d x g a b v, bit_marker_list d x g a b v <> NoFuel.
Proof.
  intros d x g a b v. unfold bit_marker_list. pose proof (first_nf 32 g v 0). destruct (first_bit 32 g v 0) as [i| | | |]; cbn [bind]; try discriminate; [|congruence].
  pose proof (leaf_nf d (bit_marker x a i g b)). destruct (leaf_node d (bit_marker x a i g b)) as [[l d']| | | |]; cbn [bind]; try discriminate; [apply levels_nf|congruence].
Qed.
Lemma eql_nf : forall n x a b v p d, eq_levels n x a b v p d <> NoFuel.
Proof.
  induction n as [|n IH]; intros x a b v p d; cbn [eq_levels]; [discriminate|].
  match goal with |- context [leaf_node d ?c] => pose proof (leaf_nf d c); destruct (leaf_node d c) as [[l d']| | | |] end; cbn [bind]; try discriminate; [apply IH|congruence].
Qed.
Lemma num_nf : forall op d c u, num_policy op d c u <> NoFuel.
Proof.
  intros [] d c u; try apply bml_nf. cbn [num_policy]. unfold eq_policy. cbv zeta.
  match goal with |- context [leaf_node d ?c] => pose proof (leaf_nf d c); destruct (leaf_node d c) as [[l d']| | | |] end; cbn [bind]; try discriminate; [apply eql_nf|congruence].
Qed.
Lemma two_nf : forall o1 o2 d c u w, bind (num_policy o1 d c u) (fun '(l, d1) => bind (num_policy o2 d1 c w) (fun '(r, d2) => Ok (Gate GateAnd [l; r], d2))) <> NoFuel.
Proof.
  intros o1 o2 d c u w. pose proof (num_nf o1 d c u). destruct (num_policy o1 d c u) as [[l d1]| | | |]; cbn [bind]; try discriminate; [|congruence].
  pose proof (num_nf o2 d1 c w). destruct (num_policy o2 d1 c w) as [[r d2]| | | |]; cbn [bind]; try discriminate; congruence.
Qed.
Lemma tree_nf : forall m, m <> NoFuel -> tree_of m <> NoFuel.
Proof. intros m H. destruct m as [[n d]| | | |]; cbn; congruence. Qed.
Lemma leaf_attr_nf : forall d c, leaf_attr d c <> NoFuel.
Proof. intros d c. unfold leaf_attr, check_attribute. destruct (existsb _ c); [destruct (Driver.split c colon)|]; cbn [bind]; try discriminate; destruct (mget c (dcount d)); discriminate. Qed.

Section Actions.
Variable mktime : tm -> Z * tm.
Lemma action_nf : forall r vs d, action mktime r vs d <> NoFuel.
Proof.
  intros r vs d. unfold action.
  repeat match goal with
  | |- (match ?x with _ => _ end) <> NoFuel => is_var x; destruct x; try discriminate
  end;
  try (apply tree_nf; first [apply leaf_nf | apply (num_nf OpLt) | apply (num_nf OpGt) | apply (num_nf OpLe) | apply (num_nf OpGe) | apply (num_nf OpEq)
    | apply (two_nf OpGt OpLt) | apply (two_nf OpGe OpLe) | apply num_nf
    | (unfold range_date_in_policy; repeat match goal with |- context [let '(_, _) := mktime ?x in _] => destruct (mktime x) end; apply (two_nf OpGe OpLe))]).
  all: try (destruct (check_valid_bit _ _); discriminate).
  all: try (destruct (attr_num _ _ _); discriminate).
  all: try (destruct (set_date_in_attrlist _ _ _ _ _ _); discriminate).
  all: try match goal with |- context [leaf_attr ?d ?c] => pose proof (leaf_attr_nf d c); destruct (leaf_attr d c) as [[? ?]| | | |]; cbn [bind]; try discriminate; congruence end.
  all: try match goal with |- context [set_attrlist ?d ?l] => destruct l; cbn [set_attrlist bind]; discriminate end.
Qed.
Lemma action_na : act2_never_aborts (action mktime).
Proof.
  intros r vs d Hr. assert (r = 2 \/ r = 3) as [-> | ->] by lia; unfold action;
  repeat match goal with
  | |- (match ?x with _ => _ end) <> _ => is_var x; destruct x; try discriminate
  end. match goal with |- context [set_attrlist ?d ?l] => destruct l; cbn [set_attrlist bind]; discriminate end.
Qed.
End Actions.

(** ** Nothing is stored before the last reduction *)
Lemma keep_leaf : forall d c n d', leaf_node d c = Ok (n, d') -> dispolicy d' = dispolicy d /\ dpol d' = dpol d /\ dattr d' = dattr d.
Proof. intros d c n d' H. apply leaf_inv in H as (p & a & H). tauto. Qed.
Definition same_out (d d' : driver) : Prop := dispolicy d' = dispolicy d /\ dpol d' = dpol d /\ dattr d' = dattr d.
Lemma same_refl : forall d, same_out d d. Proof. intro. repeat split. Qed.
Lemma same_trans : forall a b c, same_out a b -> same_out b c -> same_out a c.
Proof. unfold same_out. intros a b c (A & B & C) (D & E & F). rewrite D, E, F. auto. Qed.
Definition keeps (d : driver) (m : res (node * driver)) : Prop := match m with Ok (_, d') => same_out d d' | _ => True end.
Lemma keep_bind : forall d m k, keeps d m -> (forall n d', same_out d d' -> keeps d (k (n, d'))) -> keeps d (bind m k).
Proof. intros d [[n d']| | | |] k H K; cbn [bind]; auto. Qed.
Lemma keeps_leaf : forall d d0 c, same_out d0 d -> keeps d0 (leaf_node d c).
Proof. intros d d0 c H. destruct (leaf_node d c) as [[n d']| | | |] eqn:E; try exact I. eapply same_trans; [exact H|]. eapply keep_leaf; eauto. Qed.
Lemma keeps_levels : forall n x g a b v i p d d0, same_out d0 d -> keeps d0 (marker_levels n x g a b v i p d).
Proof.
  induction n as [|n IH]; intros; cbn [marker_levels]; auto. apply keep_bind; [apply keeps_leaf; auto|]. intros t d' K. apply IH; auto.
Qed.
Lemma keeps_bml : forall x g a b v d d0, same_out d0 d -> keeps d0 (bit_marker_list d x g a b v).
Proof.
  intros. unfold bit_marker_list. destruct (first_bit 32 g v 0); cbn [bind]; try exact I. apply keep_bind; [apply keeps_leaf; auto|].
  intros t d' K. apply keeps_levels; auto.
Qed.
Lemma keeps_eql : forall n x a b v p d d0, same_out d0 d -> keeps d0 (eq_levels n x a b v p d).
Proof.
  induction n as [|n IH]; intros; cbn [eq_levels]; auto. apply keep_bind; [apply keeps_leaf; auto|]. intros t d' K. apply IH; auto.
Qed.
Lemma keeps_num : forall op d d0 c u, same_out d0 d -> keeps d0 (num_policy op d c u).
Proof.
  intros [] d d0 c u H; try (apply keeps_bml; exact H). cbn [num_policy]. unfold eq_policy. cbv zeta.
  apply keep_bind; [apply keeps_leaf; auto|]. intros t d' K. apply keeps_eql; auto.
Qed.
Lemma keeps_two : forall o1 o2 d c u w, keeps d (bind (num_policy o1 d c u) (fun '(l, d1) => bind (num_policy o2 d1 c w) (fun '(r, d2) => Ok (Gate GateAnd [l; r], d2)))).
Proof.
  intros o1 o2 d c u w. apply keep_bind; [apply keeps_num, same_refl|]. intros t d' K. apply keep_bind; [apply keeps_num; auto|]. intros t' d2 K2. exact K2.
Qed.
Definition keepsa (d : driver) (m : res (option (sval * driver))) : Prop := match m with Ok (Some (_, d')) => same_out d d' | _ => True end.
Lemma keeps_tree : forall d m, keeps d m -> keepsa d (tree_of m).
Proof. intros d [[n d']| | | |] H; exact H. Qed.
Lemma action_keeps : forall mk r vs d, r <> 2 -> r <> 3 -> keepsa d (action mk r vs d).
Proof.
  intros mk r vs d R2 R3. unfold action.
  repeat match goal with
  | |- keepsa _ (match ?x with _ => _ end) => is_var x; destruct x; try exact I; try congruence
  end;
  try (apply keeps_tree; first [apply keeps_leaf, same_refl | apply (keeps_num OpLt), same_refl | apply (keeps_num OpGt), same_refl | apply (keeps_num OpLe), same_refl
    | apply (keeps_num OpGe), same_refl | apply (keeps_num OpEq), same_refl
    | apply (keeps_two OpGt OpLt) | apply (keeps_two OpGe OpLe) | apply keeps_num, same_refl
    | (unfold range_date_in_policy; repeat match goal with |- context [let '(_, _) := mk ?x in _] => destruct (mk x) end; apply (keeps_two OpGe OpLe))]).
  all: try (destruct (check_valid_bit _ _); first [exact I|apply same_refl]).
  all: try apply same_refl.
  all: try (unfold attr_num; cbv zeta; destruct (1 <=? _); repeat split; reflexivity).
  all: try (unfold set_date_in_attrlist; cbv zeta; destruct (smem _ _); repeat split; reflexivity).
  all: try (unfold leaf_attr, check_attribute; destruct (existsb _ _); [destruct (Driver.split _ colon)|]; cbn [bind]; try exact I; destruct (mget _ _); cbn [keepsa]; repeat split; reflexivity).
Qed.
Lemma action_dispolicy : forall mk r vs d v d', action mk r vs d = Ok (Some (v, d')) -> dispolicy d' = dispolicy d.
Proof.
  intros mk r vs d v d' H. destruct (Z.eq_dec r 2) as [->|N2].
  { unfold action in H. repeat match type of H with (match ?x with _ => _ end) = _ => is_var x; destruct x; try discriminate end. injection H as _ <-. reflexivity. }
  destruct (Z.eq_dec r 3) as [->|N3].
  { unfold action in H. repeat match type of H with (match ?x with _ => _ end) = _ => is_var x; destruct x; try discriminate end.
    match type of H with context [set_attrlist ?d ?l] => destruct l; cbn [set_attrlist bind] in H; try discriminate end. injection H as _ <-. reflexivity. }
  pose proof (action_keeps mk r vs d N2 N3) as K. rewrite H in K. apply K.
Qed.
Lemma run_keeps : forall mk f st toks d, Forall (fun x => in_states (fst x) = true) st ->
  (match st with (s, _) :: _ => s = 3 \/ s = 10 \/ (dpol d = None /\ dattr d = None) | [] => True end) ->
  match run VTok (action mk) f st toks d with
  | Ok (Accepted d') => dispolicy d' = dispolicy d
  | Ok (SyntaxError d') => dispolicy d' = dispolicy d
  | Ok (Aborted d') => dispolicy d' = dispolicy d /\ dpol d' = None /\ dattr d' = None
  | _ => True
  end.
Proof.
  intro mk. induction f as [|f IH]; intros st toks d Hs Hd; cbn [Parser.run]; auto.
  destruct st as [|[s v] rest]; auto. destruct (s =? yyfinal) eqn:Ef; auto.
  inversion Hs as [|? ? Hs1 Hs2]; subst. cbn [fst] in Hs1.
  pose proof (la_range toks) as La.
  assert (forallb (fun s => forallb (fun x => match move s x with Shift s' => in_states s' && ((s' =? 10) || negb (s =? 3)) | Reduce r => (s =? 10) || negb (s =? 3) && (2 <=? r) && (r <=? 28) | Fail => true end) symbols) states = true) as C by (vm_compute; reflexivity).
  rewrite forallb_forall in C. specialize (C s (proj1 (in_states_In _) Hs1)). rewrite forallb_forall in C. specialize (C (la_sym toks) (in_symbols (la_sym toks) ltac:(lia))). cbn beta in C.
  assert (s <> 10) as N10 by (unfold yyfinal in Ef; lia).
  destruct (move s (la_sym toks)) as [s'|r|]; auto.
  - apply andb_prop in C as [C1 C2].
    apply (IH ((s', VTok (la_val toks)) :: (s, v) :: rest)); [constructor; auto|]. destruct (Z.eqb_spec s' 10); [auto|]. cbn [orb] in C2.
    right. right. destruct Hd as [->|[->|Hd]]; [discriminate|congruence|exact Hd].
  - replace (s =? 10) with false in C by lia. cbn [orb] in C. apply andb_prop in C as [C C3]. apply andb_prop in C as [C1 C2].
    assert (dpol d = None /\ dattr d = None) as Hd'. { destruct Hd as [->|[->|Hd]]; [discriminate|congruence|exact Hd]. }
    destruct (skipn (Z.to_nat (znth yyr2 r)) ((s, v) :: rest)) as [|[s0 v0] below] eqn:Es; auto.
    assert (Forall (fun x => in_states (fst x) = true) ((s0, v0) :: below)) as Hs0.
    { rewrite <- Es. rewrite <- (firstn_skipn (Z.to_nat (znth yyr2 r)) ((s, v) :: rest)) in Hs. apply Forall_app in Hs. apply Hs. }
    match goal with |- context [action mk r ?vs d] => destruct (action mk r vs d) as [[[v' d']|]| | | |] eqn:Ea end; cbn [bind]; auto.
    assert (forallb (fun s => forallb (fun r => in_states (goto_state s (znth yyr1 r)) && (negb ((r =? 2) || (r =? 3)) || (goto_state s (znth yyr1 r) =? 3))) (map Z.of_nat (seq 2 27))) states = true) as G by (vm_compute; reflexivity).
    rewrite forallb_forall in G. inversion Hs0 as [|? ? Hs01 Hs02]; subst. cbn [fst] in Hs01. specialize (G s0 (proj1 (in_states_In _) Hs01)).
    rewrite forallb_forall in G. specialize (G r). cbn beta in G.
    assert (In r (map Z.of_nat (seq 2 27))) as Ir. { apply in_map_iff. exists (Z.to_nat r). split; [lia|]. apply in_seq. lia. }
    specialize (G Ir). apply andb_prop in G as [G1 G2].
    rewrite <- (action_dispolicy mk _ _ _ _ _ Ea).
    apply (IH ((goto_state s0 (znth yyr1 r), v') :: (s0, v0) :: below)); [constructor; auto|].
    destruct ((r =? 2) || (r =? 3)) eqn:R23; cbn [negb orb] in G2; [left; lia|].
    right. right. pose proof (action_keeps mk r (map snd (rev (firstn (Z.to_nat (znth yyr2 r)) ((s, v) :: rest)))) d ltac:(lia) ltac:(lia)) as K.
    rewrite Ea in K. destruct K as (_ & -> & ->). exact Hd'.
Qed.

(** ** Running the parser *)
Section Create.
Variable mktime : tm -> Z * tm.
Notation act := (action mktime).
Notation day := (day mktime).
Notation last_day := (last_day mktime).

Definition start_driver (ispol : bool) (s : str) : driver :=
  {| dcount := []; ddup := []; dprefix := []; ddate := []; dorig := []; dtext := s; dispolicy := ispol; dpol := None; dattr := None |}.
Definition start_tok (ispol : bool) : tok := ((if ispol then START_POLICY else START_ATTRLIST), NoVal).

Lemma parse_string_eq : forall b s, parse_string mktime b s =
  bind (run VTok act (parse_fuel (start_tok b :: lex s)) [(0, VTok NoVal)] (start_tok b :: lex s) (start_driver b s))
    (fun r => match r with Accepted d => Ok d | SyntaxError d => Ok (driver_error d) | Aborted d => Ok d end).
Proof.
  intros b s. unfold parse_string. destruct b; [rewrite lex_start_policy|rewrite lex_start_attrs]; reflexivity.
Qed.

(** States that occur while reading an attribute list. *)
Definition attr_states : list Z :=
  filter (fun s => negb (existsb (fun r => existsb (fun k => has s r k) (map Z.of_nat (seq 0 9))) (1 :: 2 :: map Z.of_nat (seq 6 17)))) states.
Lemma attr_edges : forall s x s', In s attr_states -> 0 <= x < 36 -> edge s x s' = true -> In s' attr_states.
Proof.
  assert (forallb (fun s => forallb (fun x => match succ s x with Some s' => existsb (Z.eqb s') attr_states | None => true end) symbols) attr_states = true) as C.
  { vm_compute. reflexivity. }
  intros s x s' Hs Hx E. rewrite forallb_forall in C. specialize (C s Hs). rewrite forallb_forall in C. specialize (C x (in_symbols x ltac:(lia))).
  unfold edge in E. cbn beta in C. destruct (succ s x) as [t|]; [|discriminate]. apply Z.eqb_eq in E. subst t.
  apply existsb_exists in C as (y & I & Ey). apply Z.eqb_eq in Ey. subst y. exact I.
Qed.
Lemma attr_no_dates : forall r s, 17 <= r <= 22 -> In s attr_states -> has s r (znth yyr2 r) = true -> True -> False.
Proof.
  intros r s Hr Hs Hh _.
  assert (forallb (fun s => forallb (fun r => negb (has s r (znth yyr2 r))) (map Z.of_nat (seq 17 6))) attr_states = true) as C by (vm_compute; reflexivity).
  rewrite forallb_forall in C. specialize (C s Hs). rewrite forallb_forall in C. specialize (C r). cbn beta in C. rewrite Hh in C.
  discriminate C. apply in_map_iff. exists (Z.to_nat r). split; [lia|]. apply in_seq. lia.
Qed.

Lemma run_finishes : forall b s, (b = true -> In (tk c_comma) (lex s) -> dates_fine mktime (lex s)) ->
  safe (DI b) (run VTok act (parse_fuel (start_tok b :: lex s)) [(0, VTok NoVal)] (start_tok b :: lex s) (start_driver b s)).
Proof.
  intros b s H. set (d0 := start_driver b s).
  set (dk := b = false \/ dates_fine mktime (lex s)). set (SI := fun x => b = true \/ In x attr_states).
  assert (forall s x s', SI s -> 0 <= x < 36 -> edge s x s' = true -> SI s') as He.
  { intros s0 x s' [Hs|Hs] Hx E; [left; auto|right; eapply attr_edges; eauto]. }
  assert (forall r s0, 17 <= r <= 22 -> SI s0 -> has s0 r (znth yyr2 r) = true -> dk -> dates_fine mktime (lex s)) as Hn.
  { intros r s0 Hr Hs Hh [D|D]; auto. destruct Hs as [Hs|Hs]; [congruence|]. exfalso. eapply attr_no_dates; eauto. }
  assert (DI b d0) as D0 by (repeat split).
  pose proof (run_safe VTok act (VT dk (lex s)) (DI b) (tok_ok dk (lex s)) (Htok mktime dk SI He (lex s) Hn) SI He (Hact mktime dk SI b He (lex s) Hn) (VTok NoVal) d0
    (Hact2 mktime dk SI b He (lex s) Hn d0 eq_refl) D0) as Sf.
  set (s1 := if b then 1 else 2).
  assert (safe (DI b) (run VTok act (pred (parse_fuel (start_tok b :: lex s))) [(s1, VTok NoVal); (0, VTok NoVal)] (lex s) d0)) as F.
  { specialize (Sf (pred (parse_fuel (start_tok b :: lex s))) [(s1, VTok NoVal); (0, VTok NoVal)] [PT (start_tok b)] d0 (lex s)).
    assert (Forall (tok_ok dk (lex s)) (lex s)) as Ft.
    { pose proof (lex_good s) as G. pose proof (lex_typed s) as Ty. rewrite Forall_forall in *. intros t I. split; auto. split; auto.
      intro E. unfold dk. destruct b; auto. right. apply H; auto. specialize (Ty t I). destruct t as [c v]. cbn [fst] in E. subst c.
      unfold tok_typed in Ty. change (c_comma =? LEAF) with false in Ty. change (c_comma =? UINT) with false in Ty. cbn iota in Ty.
      rewrite Ty in I; [exact I|reflexivity|discriminate]. }
    apply Sf; auto; clear Sf.
    - unfold s1; destruct b; eapply stk_push with (s := 0); try constructor; try reflexivity; discriminate.
    - constructor; [constructor|unfold VT, start_tok; destruct b; exact I|]. unfold SI, s1. destruct b; [left; reflexivity|right; vm_compute; tauto].
    - unfold parse_fuel. cbn [length weight]. assert (w (psym (PT (start_tok b))) <= 4)%nat by (destruct b; vm_compute; lia). lia.
    - discriminate. }
  replace (parse_fuel (start_tok b :: lex s)) with (S (pred (parse_fuel (start_tok b :: lex s)))) by (unfold parse_fuel; lia).
  cbn [Parser.run]. change (0 =? yyfinal) with false. cbn iota. unfold s1 in F.
  destruct b.
  - replace (move 0 (la_sym (start_tok true :: lex s))) with (Shift 1) by (vm_compute; reflexivity). exact F.
  - replace (move 0 (la_sym (start_tok false :: lex s))) with (Shift 2) by (vm_compute; reflexivity). exact F.
Qed.

(** ** Which dates a comparison accepts *)
Lemma num_policy_reach : forall r d c value n d', 0 <= value < 4294967296 ->
  num_policy (rel_op r) d c {| uval := value; ubits := 32 |} = Ok (n, d') -> in_reach r value = true.
Proof.
  intros r d c value n d' Hv E. destruct (in_reach r value) eqn:R; auto. exfalso. revert E.
  destruct r; cbn [in_reach rel_op num_policy] in *; unfold lt_policy, gt_policy, le_policy, ge_policy, cmp_policy, uint_add, uint_sub; cbn [uval ubits];
    unfold bit_marker_list.
  - assert (value = 0) as -> by lia. vm_compute first_bit. discriminate.
  - assert (value = 4294967295) as -> by lia. vm_compute first_bit. discriminate.
  - assert (value = 4294967295) as -> by lia. vm_compute first_bit. discriminate.
  - assert (value = 0) as -> by lia. vm_compute first_bit. discriminate.
  - discriminate.
Qed.
Lemma in_days_range : forall s, 0 <= in_days s < 4294967296.
Proof. intro s. unfold in_days. apply Z.mod_pos_bound. reflexivity. Qed.
Lemma day_range : forall m d y, 0 <= day m d y < 4294967296.
Proof. intros. apply in_days_range. Qed.
Lemma last_day_range : forall m l h y, 0 <= last_day m l h y < 4294967296.
Proof. intros. apply in_days_range. Qed.
Lemma reach_day : forall r v, 0 <= v < 4294967296 -> in_reach r v = true -> day_ok r v = true.
Proof. intros r v H R. unfold day_ok. destruct r; cbn [in_reach] in R; lia. Qed.

Notation ev := (ev VTok act).
Lemma ev_kids : forall r ks d v d', ev (PN r ks) d = Ok (EV v d') -> exists vs d1, evs VTok act ks d = Ok (EV vs d1) /\ act r vs d1 = Ok (Some (v, d')).
Proof.
  intros r ks d v d' H. rewrite ev_PN in H. destruct (evs VTok act ks d) as [[vs d1|d1]| | | |]; cbn [bind] in H; try discriminate.
  exists vs, d1. split; auto. destruct (act r vs d1) as [[[v1 d2]|]| | | |]; cbn [bind] in H; try discriminate. injection H as <- <-. reflexivity.
Qed.
Lemma evs_cons : forall x l d vs d', evs VTok act (x :: l) d = Ok (EV vs d') ->
  exists v ws d1, ev x d = Ok (EV v d1) /\ evs VTok act l d1 = Ok (EV ws d') /\ vs = v :: ws.
Proof.
  intros x l d vs d' H. cbn [Grammar.evs] in H. destruct (ev x d) as [[v d1|d1]| | | |]; cbn [bind] in H; try discriminate.
  destruct (evs VTok act l d1) as [[ws d2|d2]| | | |] eqn:E; cbn [bind] in H; try discriminate. injection H as <- <-. exists v, ws, d1. auto.
Qed.
Lemma evs_nil : forall d vs d', evs VTok act [] d = Ok (EV vs d') -> vs = [] /\ d' = d.
Proof. intros d vs d' H. injection H as <- <-. auto. Qed.
Lemma ev_tok : forall c x d v d', ev (PT (c, x)) d = Ok (EV v d') -> v = VTok x /\ d' = d.
Proof. intros c x d v d' H. injection H as <- <-. auto. Qed.
Lemma ev_num_inv : forall n d v d', num_range n -> ev (ntree n) d = Ok (EV v d') -> num_ok n = true /\ v = VNum (num_uint n) /\ d' = d.
Proof. intros n d v d' R H. rewrite ev_num in H by auto. destruct (num_ok n); [|discriminate]. injection H as <- <-. auto. Qed.
Lemma tree_of_inv : forall m v d', tree_of m = Ok (Some (v, d')) -> exists n, m = Ok (n, d') /\ v = VTree n.
Proof. intros m v d' H. destruct m as [[n d]| | | |]; try discriminate. injection H as <- <-. eauto. Qed.

Ltac unev := repeat match goal with
  | H : evs _ _ (_ :: _) _ = Ok (EV _ _) |- _ =>
      let v := fresh "v" in let ws := fresh "ws" in let dx := fresh "dx" in let Hv := fresh "Hv" in
      apply evs_cons in H as (v & ws & dx & Hv & H & ->)
  | H : evs _ _ [] _ = Ok (EV _ _) |- _ => apply evs_nil in H as [-> ->]
  | H : Grammar.ev _ _ (PT (_, _)) _ = Ok (EV _ _) |- _ => apply ev_tok in H as [-> ->]
  | H : Grammar.ev _ _ (PT (leaf_tok _)) _ = Ok (EV _ _) |- _ => apply ev_tok in H as [-> ->]
  | H : Grammar.ev _ _ (PT (tk _)) _ = Ok (EV _ _) |- _ => apply ev_tok in H as [-> ->]
  | H : Grammar.ev _ _ (ntree _) _ = Ok (EV _ _) |- _ => apply ev_num_inv in H as (? & -> & ->); [|assumption]
  end.

(** An evaluation that succeeds had representable numbers and dates only. *)
Lemma ev_ok_inv : forall e d v d', Forall tok_good (ptoks e) -> ev (ptree e) d = Ok (EV v d') -> nums_ok e = true /\ dates_ok day last_day e = true.
Proof.
  induction e as [s|r s n|incl s lo hi|r s m dd y|s m lo hi y|a IHa b IHb|a IHa b IHb|a IHa]; intros d v d' G H; cbn [ptoks] in G; cbn [ptree] in H;
    apply ev_kids in H as (vs & d1 & H & A).
  - auto.
  - destruct (leaf_name _ _ G) as [N G1]. inversion G1 as [|? ? _ G2]; subst. pose proof (ntoks_range n G2) as R.
    destruct (rel_tok r) as [tc tv]. unev. auto.
  - destruct (leaf_name _ _ G) as [N G1]. inversion G1 as [|? ? _ G2]; subst. inversion G2 as [|? ? _ G3]; subst.
    apply Forall_app in G3 as [G3 G4]. inversion G4 as [|? ? _ G5]; subst. apply Forall_app in G5 as [G5 _].
    pose proof (ntoks_range lo G3) as Rl. pose proof (ntoks_range hi G5) as Rh. destruct (open_tok incl) as [oc ov]. destruct (close_tok incl) as [cc cv].
    unev. cbn [nums_ok PolicyMeaning.dates_ok]. split; [lia|reflexivity].
  - destruct (leaf_name _ _ G) as [N G1]. inversion G1 as [|? ? _ G2]; subst. destruct (leaf_name _ _ G2) as [Nm G3].
    apply Forall_app in G3 as [G3 G4]. inversion G4 as [|? ? _ G5]; subst.
    pose proof (ntoks_range dd G3) as Rd. pose proof (ntoks_range y G5) as Ry. destruct (date_rel_tok r) as [tc tv]. unev.
    cbn [nums_ok PolicyMeaning.dates_ok]. split; [lia|]. rewrite date_action in A. apply tree_of_inv in A as (t & A & _).
    unfold date_policy in A. apply reach_day; [apply day_range|]. eapply num_policy_reach; [apply day_range|exact A].
  - destruct (leaf_name _ _ G) as [N G1]. inversion G1 as [|? ? _ G2]; subst. destruct (leaf_name _ _ G2) as [Nm G3].
    apply Forall_app in G3 as [G3 G4]. inversion G4 as [|? ? _ G5]; subst. apply Forall_app in G5 as [G5 G6]. inversion G6 as [|? ? _ G7]; subst.
    pose proof (ntoks_range lo G3) as Rl. pose proof (ntoks_range hi G5) as Rh. pose proof (ntoks_range y G7) as Ry. unev.
    cbn [nums_ok PolicyMeaning.dates_ok]. split; [lia|]. cbn [action] in A. apply tree_of_inv in A as (t & A & _).
    unfold range_date_in_policy in A. unfold PolicyTruth.day, validate_date, PolicyTruth.last_day. cbn [uval num_uint] in A.
    destruct (mktime (tm_of (get_month m) (num_val lo) (num_val y))) as [s1 t0]. cbn [fst snd].
    destruct (mktime {| tm_year := tm_year t0; tm_mon := tm_mon t0; tm_mday := to_int (num_val hi); tm_rest := tm_rest t0 |}) as [s2 t3]. cbn [fst].
    destruct (ge_policy d (date_attr s) {| uval := in_days s1; ubits := 32 |}) as [[l d1]| | | |] eqn:E1; cbn [bind] in A; try discriminate.
    destruct (le_policy d1 (date_attr s) {| uval := in_days s2; ubits := 32 |}) as [[rr d2]| | | |] eqn:E2; cbn [bind] in A; try discriminate.
    apply andb_true_intro. split; (apply reach_day; [apply in_days_range|]).
    + apply (num_policy_reach RGe _ _ _ _ _ (in_days_range s1) E1).
    + apply (num_policy_reach RLe _ _ _ _ _ (in_days_range s2) E2).
  - apply Forall_app in G as [Ga Gb]. inversion Gb as [|? ? _ Gb']; subst. unev.
    match goal with H1 : ev (ptree a) _ = _ |- _ => destruct (IHa _ _ _ Ga H1) as [X1 X2] end.
    match goal with H1 : ev (ptree b) _ = _ |- _ => destruct (IHb _ _ _ Gb' H1) as [Y1 Y2] end.
    cbn [nums_ok PolicyMeaning.dates_ok]. rewrite X1, X2, Y1, Y2. auto.
  - apply Forall_app in G as [Ga Gb]. inversion Gb as [|? ? _ Gb']; subst. unev.
    match goal with H1 : ev (ptree a) _ = _ |- _ => destruct (IHa _ _ _ Ga H1) as [X1 X2] end.
    match goal with H1 : ev (ptree b) _ = _ |- _ => destruct (IHb _ _ _ Gb' H1) as [Y1 Y2] end.
    cbn [nums_ok PolicyMeaning.dates_ok]. rewrite X1, X2, Y1, Y2. auto.
  - inversion G as [|? ? _ G1]; subst. apply Forall_app in G1 as [G1 _]. unev.
    match goal with H1 : ev (ptree a) _ = _ |- _ => destruct (IHa _ _ _ G1 H1) as [X1 X2] end. auto.
Qed.

(** ** Policies *)
(** What may follow the policy: blanks, and anything after a byte that ends the scan. *)
Lemma ended_lex : forall s, ended s <-> la_sym (lex s) = 0.
Proof.
  intro s. split.
  - intros [H|(b & c & r & -> & Hb & Hc)].
    + rewrite <- (app_nil_r s), lex_blanks by auto. reflexivity.
    + rewrite lex_blanks by auto. destruct (lex_stop c r Hc) as ([k v] & -> & Hk). cbn [fst la_sym] in *. unfold yytranslate. replace (k <=? 0) with true by lia. reflexivity.
  - intro H. destruct (lex s) as [|[k v] r] eqn:E; [left; apply lex_empty; auto|]. right. cbn [la_sym] in H.
    assert (k <= 0).
    { unfold yytranslate in H. destruct (k <=? 0) eqn:K; [lia|]. destruct (k <=? 274) eqn:K2; [|discriminate]. exfalso.
      assert (forallb (fun k => negb (znth translate_table k =? 0)) (map Z.of_nat (seq 1 274)) = true) as C by (vm_compute; reflexivity).
      rewrite forallb_forall in C. specialize (C k). cbn beta in C. rewrite H in C. discriminate C. apply in_map_iff. exists (Z.to_nat k). split; [lia|]. apply in_seq. lia. }
    destruct (lex_end s _ _ E ltac:(cbn; lia)) as (b & c & s' & -> & Hb & Hc). exists b, c, s'. auto.
Qed.
Lemma good_ptoks : forall e, Forall good (ptoks e).
Proof.
  assert (forall s, good (leaf_tok s)) as A1 by (intros; left; eauto).
  assert (forall s, good (uint_tok s)) as A2 by (intros; right; left; eauto).
  assert (forall c, In c [OR; AND; IN; LEQ; GEQ; EQ; c_hash; c_lt; c_gt; c_lp; c_rp; c_minus; c_lb; c_rb; c_eq; c_comma; c_bar] -> good (tk c)) as A3.
  { intros c H. right. right. apply in_map. exact H. }
  assert (forall n, Forall good (ntoks n)) as A4.
  { intros [v [w|]]; cbn [ntoks]; repeat (apply Forall_cons; auto). apply A3. cbn. tauto. }
  assert (forall r, good (rel_tok r)) as A5. { intros []; apply A3; cbn; tauto. }
  assert (forall r, good (date_rel_tok r)) as A6. { intros []; apply A3; cbn; tauto. }
  induction e as [s|r s n|incl s lo hi|r s m dd y|s m lo hi y|a IHa b IHb|a IHa b IHb|a IHa]; cbn [ptoks];
    repeat first [apply Forall_app; split | apply Forall_nil | apply Forall_cons | apply A1 | apply A2 | apply A4 | apply A5 | apply A6 | assumption
      | (apply A3; cbn; tauto) | (destruct incl; apply A3; cbn; tauto)].
Qed.

Lemma ptoks_nonempty : forall e, ptoks e <> [].
Proof. induction e; cbn [ptoks]; try discriminate; intro H; apply app_eq_nil in H as [H _]; congruence. Qed.

Definition made (s : str) (n : node) (d : driver) : policy :=
  match dpol (set_policy d n) with Some q => q | None => new_policy end.
Lemma create_accept : forall s q, create_policy_tree mktime s = Ok (Some q) <->
  exists e s' n d', text_pre (ptoks e) s s' /\ ended s' /\ well e = true /\ nums_ok e = true /\ dates_ok day last_day e = true /\
    means mktime e (start_driver true s) n d' /\ ev (ptree e) (start_driver true s) = Ok (EV (VTree n) d') /\ q = made s n d'.
Proof.
  intros s q.
  assert (parse_fuel (start_tok true :: lex s) >= 4 * length ((START_POLICY, NoVal) :: lex s) + 3)%nat as Hf by (unfold parse_fuel; change (length ((START_POLICY, NoVal) :: lex s)) with (length (start_tok true :: lex s)); lia).
  pose proof (policy_exact VTok act (action_na mktime) (action_nf mktime) (VTok NoVal) (start_driver true s) (parse_fuel (start_tok true :: lex s)) (lex s)) as X.
  split.
  - intro H. destruct s as [|c0 s0]; [discriminate|]. cbn [create_policy_tree] in H. set (s := c0 :: s0) in *. rewrite parse_string_eq in H.
    destruct (run VTok act (parse_fuel (start_tok true :: lex s)) [(0, VTok NoVal)] (start_tok true :: lex s) (start_driver true s)) as [[d|d|d]| | | |] eqn:E;
      cbn [bind] in H; try discriminate.
    + apply (X d Hf (lex_typed s)) in E as (e & rest & v & We & Hr & Et & Ev).
      destruct (lex_text_pre (ptoks e) s rest (good_ptoks e) Et) as (s' & Hp & Hl).
      pose proof (text_pre_good _ _ _ Hp) as G.
      apply ev_kids in Ev as (vs & d1 & Ev & A). unev.
      match goal with H1 : ev (ptree e) _ = _ |- _ => rename H1 into Ev end.
      destruct (ev_ok_inv e _ _ _ G Ev) as [Ne De].
      destruct (ev_policy mktime e (start_driver true s) G De) as [K _]. destruct (K Ne) as (n & d2 & En & M).
      rewrite En in Ev. injection Ev as <- <-. cbn [action] in A. injection A as <- <-. cbn [set_policy dpol] in H.
      exists e, s', n, d2. repeat split; auto; try apply M.
      * apply ended_lex. rewrite Hl. exact Hr.
      * unfold made. cbn [set_policy dpol]. congruence.
    + pose proof (run_keeps mktime (parse_fuel (start_tok true :: lex s)) [(0, VTok NoVal)] (start_tok true :: lex s) (start_driver true s) ltac:(repeat constructor) ltac:(right; right; split; reflexivity)) as K.
      rewrite E in K. injection H as H. cbn [driver_error dpol] in H. rewrite K in H. discriminate.
    + pose proof (run_keeps mktime (parse_fuel (start_tok true :: lex s)) [(0, VTok NoVal)] (start_tok true :: lex s) (start_driver true s) ltac:(repeat constructor) ltac:(right; right; split; reflexivity)) as K.
      rewrite E in K. injection H as H. destruct K as (_ & K & _). congruence.
  - intros (e & s' & n & d' & Hp & He & We & Ne & De & M & Ev & ->).
    destruct s as [|c0 s0].
    { exfalso. apply text_pre_lex in Hp. change (lex []) with (@nil tok) in Hp. symmetry in Hp. apply app_eq_nil in Hp as [Hp _]. exact (ptoks_nonempty e Hp). }
    cbn [create_policy_tree]. set (s := c0 :: s0) in *. rewrite parse_string_eq.
    destruct (X (set_policy d' n) Hf (lex_typed s)) as [_ X2].
    change ((START_POLICY, NoVal) :: lex s) with (start_tok true :: lex s) in X2. rewrite X2; [cbn [bind]; reflexivity|].
    exists e, (lex s'), (VTok NoVal). split; auto. split; [apply ended_lex; auto|]. split; [apply text_pre_lex; auto|].
    rewrite ev_PN. cbn [Grammar.evs Grammar.ev bind]. rewrite Ev. reflexivity.
Qed.
End Create.
