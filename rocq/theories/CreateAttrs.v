(** createAttributeList as a function of the text. *)
From Verif Require Import Base ByteString StrMap Dec UInteger Policy LsssSpec Scanner Grammar PolicySyntax Lexical PolicyMeaning AttrMeaning Driver Parser ParserSound ParserRun ParserComplete ParserTop ScannerProofs NumProofs NumTree PolicyTruth ParserSafe CreatePolicy.
From Coq Require Import ZArith List Ascii Bool Lia ZifyBool ZifyNat Permutation.
Import ListNotations.
Open Scope Z_scope.

Section Attrs.
Variable mktime : tm -> Z * tm.
Notation act := (action mktime).
Notation day := (day mktime).
Notation ev := (ev VTok act).

Definition tracks (before : list item) (d : driver) : Prop :=
  (forall s, mget s (dcount d) = match first_mention s before with None => None | Some true => Some 1 | Some false => Some 0 end) /\
  (forall p, smem p (ddate d) = dated_in p before) /\
  dispolicy d = false /\ dpol d = None /\ dattr d = None.

Lemma assign_bits : forall c b x, width_ok b = true -> 0 <= x < 2 ^ b -> assign_stmt c {| uval := x; ubits := b |} = bits_of c b x.
Proof.
  intros c b x W X. unfold assign_stmt. cbn [uval ubits].
  assert (check_valid_bit x b = true) as ->.
  { unfold width_ok in W. unfold check_valid_bit.
    destruct (Z.eqb_spec b 4) as [-> |]; [change (2 ^ 4) with 16 in X; cbn; lia|].
    destruct (Z.eqb_spec b 8) as [-> |]; [change (2 ^ 8) with 256 in X; cbn; lia|].
    destruct (Z.eqb_spec b 16) as [-> |]; [change (2 ^ 16) with 65536 in X; cbn; lia|].
    destruct (Z.eqb_spec b 32) as [-> |]; [change (2 ^ 32) with 4294967296 in X; cbn; lia|]. discriminate. }
  assert (b =? 0 = false) as -> by (unfold width_ok in W; lia). cbn [negb andb].
  unfold bits_of, recorded. apply map_ext. intro i. apply marker_bit. exact W.
Qed.

Lemma uint_shown : forall n, num_ok n = true -> uint_text (num_uint n) = show_num n.
Proof.
  intros [v w] H. unfold uint_text, show_num, num_uint. cbn [uval ubits num_val num_width] in *. cbn [num_ok] in H.
  apply andb_prop in H as [H _]. unfold width_ok in H. replace (0 <? width w) with true by lia. reflexivity.
Qed.
Lemma first_mention_app : forall s l i, first_mention s (l ++ [i]) = match first_mention s l with Some b => Some b | None => first_mention s [i] end.
Proof.
  intros s l i. induction l as [|x l IH]; [reflexivity|]. cbn [app first_mention]. destruct x; try (destruct (str_eqb s s0); [reflexivity|]); exact IH.
Qed.
Lemma dated_app : forall p l i, dated_in p (l ++ [i]) = dated_in p l || dated_in p [i].
Proof. intros. unfold dated_in. apply existsb_app. Qed.
Lemma smem_sins : forall x y l, smem x (sins y l) = str_eqb x y || smem x l.
Proof.
  intros x y l. induction l as [|z l IH]; [reflexivity|]. cbn [sins].
  destruct (str_eqb y z) eqn:E; [apply str_eqb_eq in E; subst z; cbn [smem existsb]; destruct (str_eqb x y); reflexivity|].
  destruct (str_ltb y z); [reflexivity|]. cbn [smem existsb] in *. unfold smem in IH. rewrite IH. destruct (str_eqb x z), (str_eqb x y); reflexivity.
Qed.
Lemma tracks_skip : forall before d i, tracks before d -> (forall s, first_mention s [i] <> None -> first_mention s before <> None) ->
  (forall p, dated_in p [i] = true -> dated_in p before = true) -> tracks (before ++ [i]) d.
Proof.
  intros before d i (T1 & T2 & T3) H1 H2. split; [|split; auto].
  - intro s. rewrite first_mention_app, T1. specialize (H1 s). destruct (first_mention s before); auto. destruct (first_mention s [i]); auto. exfalso. apply H1; congruence.
  - intro p. rewrite dated_app, T2. specialize (H2 p). destruct (dated_in p before); auto. destruct (dated_in p [i]); auto.
Qed.
Lemma mget_set : forall s c v (m : smap Z), mget s (mset c v m) = if str_eqb s c then Some v else mget s m.
Proof.
  intros s c v m. destruct (str_eqb s c) eqn:E; [apply str_eqb_eq in E; subst; apply mget_mset_same|].
  apply mget_mset_other. intros ->. rewrite (proj2 (str_eqb_eq c c) eq_refl) in E. discriminate.
Qed.

Lemma item_step : forall i before d, Forall tok_good (itoks i) -> tracks before d ->
  (item_ok i = true -> exists l d', ev (itree i) d = Ok (EV (VList l) d') /\ concat_attr l None = item_attrs day before i /\
     (before = [] -> l <> None) /\ dorig d' = dorig d ++ item_orig before i /\ tracks (before ++ [i]) d') /\
  (item_ok i = false -> exists d', ev (itree i) d = Ok (EA d')).
Proof.
  intros [s|s n|p m dd y] before d G T; cbn [itoks] in G.
  - split; [|discriminate]. intros _. destruct (leaf_name _ _ G) as [N _]. destruct (check_total s (name_starts s N)) as (q & a & E).
    cbn [itree]. rewrite ev_PN. cbn [Grammar.evs Grammar.ev leaf_tok bind action]. unfold leaf_attr. rewrite E. cbn [bind].
    pose proof T as (T1 & T2 & T3). rewrite (T1 s). cbn [item_attrs item_orig]. rewrite app_nil_r.
    destruct (first_mention s before) as [b|] eqn:F.
    + destruct b; cbn [bind]; (eexists _, _; split; [reflexivity|]; split; [reflexivity|]; split; [intros ->; discriminate|]; split; [reflexivity|]);
        (apply tracks_skip; auto; [|intros ? X; discriminate X]; intros x X; cbn [first_mention] in X; destruct (str_eqb x s) eqn:Ex; [|congruence]; apply str_eqb_eq in Ex; subst; congruence).
    + cbn [bind]. eexists _, _. split; [reflexivity|]. split; [reflexivity|]. split; [discriminate|]. split; [reflexivity|].
      unfold tracks in *. cbn [with_counts dcount ddate dispolicy dpol dattr]. split; [|split; [|auto]].
      * intro x. rewrite mget_set, first_mention_app, T1. cbn [first_mention]. destruct (str_eqb x s) eqn:Ex; [apply str_eqb_eq in Ex; subst; rewrite F; reflexivity|].
        destruct (first_mention x before) as [[]|]; reflexivity.
      * intro p. rewrite dated_app, T2. cbn. rewrite orb_false_r. reflexivity.
  - destruct (leaf_name _ _ G) as [N G1]. inversion G1 as [|? ? _ G2]; subst. pose proof (ntoks_range n G2) as R.
    cbn [itree item_ok]. rewrite ev_PN. cbn [Grammar.evs]. cbn [Grammar.ev leaf_tok tk bind]. fold ev. rewrite (ev_num mktime n d R).
    destruct (num_ok n) eqn:K; split; intro X; try discriminate X; [|eexists; reflexivity]. clear X. cbn [bind action].
    unfold attr_num. cbv zeta. pose proof T as (T1 & T2 & T3).
    assert (count_of (dcount d) s = match first_mention s before with Some true => 1 | _ => 0 end) as C.
    { unfold count_of. rewrite T1. destruct (first_mention s before) as [[]|]; reflexivity. }
    rewrite C. cbn [item_attrs item_orig]. destruct (num_ok_facts n R K) as (W & V & _).
    assert (forall d2, dcount d2 = mset s (match first_mention s before with Some true => 1 | _ => 0 end) (dcount d) -> ddate d2 = ddate d ->
      dispolicy d2 = dispolicy d /\ dpol d2 = dpol d /\ dattr d2 = dattr d -> tracks (before ++ [INum s n]) d2) as TT.
    { intros d2 E1 E2 (E3 & E4 & E5). unfold tracks. rewrite E1, E2, E3, E4, E5. split; [|split; [|auto]].
      - intro x. rewrite mget_set, first_mention_app, T1. cbn [first_mention]. destruct (str_eqb x s) eqn:Ex.
        + apply str_eqb_eq in Ex. subst x. destruct (first_mention s before) as [[]|]; reflexivity.
        + destruct (first_mention x before) as [[]|]; reflexivity.
      - intro p. rewrite dated_app, T2. cbn. rewrite orb_false_r. reflexivity. }
    destruct (first_mention s before) as [[]|] eqn:F.
    + change (1 <=? 1) with true. cbn iota. cbn [bind]. eexists _, _. split; [reflexivity|]. split; [reflexivity|]. split; [discriminate|].
      split; [cbn; symmetry; apply app_nil_r|]. apply TT; auto.
    + change (1 <=? 0) with false. cbn iota. cbn [bind]. eexists _, _. split; [reflexivity|]. split; [|split; [discriminate|]].
      * unfold concat_attr. rewrite app_nil_r. apply assign_bits; auto. lia.
      * split; [cbn; rewrite uint_shown by auto; reflexivity|]. apply TT; auto.
    + change (1 <=? 0) with false. cbn iota. cbn [bind]. eexists _, _. split; [reflexivity|]. split; [|split; [discriminate|]].
      * unfold concat_attr. rewrite app_nil_r. apply assign_bits; auto. lia.
      * split; [cbn; rewrite uint_shown by auto; reflexivity|]. apply TT; auto.
  - destruct (leaf_name _ _ G) as [N G1]. inversion G1 as [|? ? _ G2]; subst. destruct (leaf_name _ _ G2) as [Nm G3].
    apply Forall_app in G3 as [G3 G4]. inversion G4 as [|? ? _ G5]; subst.
    pose proof (ntoks_range dd G3) as Rd. pose proof (ntoks_range y G5) as Ry.
    cbn [itree item_ok]. rewrite ev_PN. cbn [Grammar.evs]. cbn [Grammar.ev leaf_tok tk bind]. fold ev. rewrite (ev_num mktime dd d Rd).
    destruct (num_ok dd) eqn:Kd; cbn [bind andb]; [|split; [discriminate|eexists; reflexivity]]. fold ev. rewrite (ev_num mktime y d Ry).
    destruct (num_ok y) eqn:Ky; cbn [bind]; (split; intro X; try discriminate X); [|eexists; reflexivity]. clear X. cbn [action].
    unfold set_date_in_attrlist. cbv zeta. pose proof T as (T1 & T2 & T3). rewrite T2. cbn [item_attrs item_orig].
    destruct (dated_in p before) eqn:D; cbn [bind].
    + eexists _, _. split; [reflexivity|]. split; [reflexivity|]. split; [discriminate|]. split; [symmetry; apply app_nil_r|].
      apply tracks_skip; [exact T|intros x X; exfalso; apply X; reflexivity|]. intros q Q. cbn in Q. rewrite orb_false_r in Q. apply str_eqb_eq in Q. subst q. exact D.
    + eexists _, _. split; [reflexivity|]. split; [|split; [discriminate|split]].
      * unfold concat_attr. rewrite app_nil_r. cbn [uval num_uint]. apply assign_bits; [reflexivity|]. change (2 ^ 32) with 4294967296. apply day_range.
      * cbn. rewrite !uint_shown by auto. reflexivity.
      * unfold tracks in *. cbn [with_orig dcount ddate dispolicy dpol dattr]. split; [|split; [|auto]].
        -- intro x. rewrite first_mention_app, T1. cbn [first_mention]. destruct (first_mention x before) as [[]|]; reflexivity.
        -- intro q. rewrite dated_app, smem_sins, T2. cbn. rewrite orb_false_r. apply orb_comm.
Qed.

Lemma wrap_ev : forall n t d, (forall l d', ev t d = Ok (EV (VList l) d') -> exists l', ev (wrap n t) d = Ok (EV (VList l') d') /\ concat_attr l' None = concat_attr l None /\ (l <> None -> l' <> None)) /\
  (forall d', ev t d = Ok (EA d') -> ev (wrap n t) d = Ok (EA d')).
Proof.
  induction n as [|n IH]; intros t d; [split; [intros l d' H; exists l; auto|auto]|].
  destruct (IH t d) as [I1 I2]. cbn [wrap]. split.
  - intros l d' H. destruct (I1 l d' H) as (l' & E & C & Z). exists (Some (concat_attr l' None)).
    rewrite ev_PN. cbn [Grammar.evs]. cbn [Grammar.ev tk bind]. fold ev. rewrite E. split; [reflexivity|]. split; [|discriminate].
    rewrite <- C. unfold concat_attr. rewrite app_nil_r. reflexivity.
  - intros d' H. rewrite ev_PN. cbn [Grammar.evs]. cbn [Grammar.ev tk bind]. fold ev. rewrite (I2 d' H). reflexivity.
Qed.

Lemma alist_step : forall a before d, Forall tok_good (atoks a) -> tracks before d ->
  (items_ok (aitems a) = true -> exists l d', ev (atree a) d = Ok (EV (VList l) d') /\ concat_attr l None = attrs_from day before (aitems a) /\
     (before = [] -> l <> None) /\ dorig d' = dorig d ++ orig_from before (aitems a) /\ tracks (before ++ aitems a) d') /\
  (items_ok (aitems a) = false -> exists d', ev (atree a) d = Ok (EA d')).
Proof.
  induction a as [n i k|n i r IH]; intros before d G T; cbn [atoks] in G.
  - apply Forall_app in G as [_ G]. apply Forall_app in G as [G _]. destruct (item_step i before d G T) as [S1 S2].
    cbn [aitems items_ok forallb attrs_from orig_from]. rewrite andb_true_r, !app_nil_r.
    assert (exists t, atree (AOne n i k) = wrap n t /\ (forall l d', ev (itree i) d = Ok (EV (VList l) d') -> exists l', ev t d = Ok (EV (VList l') d') /\ concat_attr l' None = concat_attr l None /\ (l <> None -> l' <> None)) /\
      (forall d', ev (itree i) d = Ok (EA d') -> ev t d = Ok (EA d'))) as (t & -> & A1 & A2).
    { destruct k as [|k]; cbn [atree].
      - exists (itree i). split; [reflexivity|]. split; [intros l d' H; exists l; auto|auto].
      - exists (PN 25 [itree i; PT (tk c_bar)]). split; [reflexivity|]. split.
        + intros l d' H. exists (Some (concat_attr l None)). rewrite ev_PN. cbn [Grammar.evs]. rewrite H. split; [reflexivity|]. split; [|discriminate].
          unfold concat_attr. rewrite app_nil_r. reflexivity.
        + intros d' H. rewrite ev_PN. cbn [Grammar.evs]. rewrite H. reflexivity. }
    destruct (wrap_ev n t d) as [W1 W2]. split.
    + intro K. destruct (S1 K) as (l & d' & E & C & Z & O & T'). destruct (A1 l d' E) as (l1 & E1 & C1 & Z1). destruct (W1 l1 d' E1) as (l2 & E2 & C2 & Z2).
      exists l2, d'. split; auto. split; [congruence|]. split; [|auto]. auto.
    + intro K. destruct (S2 K) as (d' & E). exists d'. auto.
  - apply Forall_app in G as [_ G]. apply Forall_app in G as [G G2]. inversion G2 as [|? ? _ G3]; subst.
    destruct (item_step i before d G T) as [S1 S2]. cbn [aitems items_ok forallb attrs_from orig_from atree].
    destruct (wrap_ev n (PN 26 [itree i; PT (tk c_bar); atree r]) d) as [W1 W2].
    destruct (item_ok i) eqn:Ki; cbn [andb].
    2: { split; [discriminate|]. intros _. destruct (S2 eq_refl) as (d' & E). exists d'. apply W2. rewrite ev_PN. cbn [Grammar.evs]. rewrite E. reflexivity. }
    destruct (S1 eq_refl) as (l & d' & E & C & Z & O & T'). destruct (IH (before ++ [i]) d' G3 T') as [R1 R2]. split.
    + intro K. destruct (R1 K) as (l2 & d2 & E2 & C2 & Z2 & O2 & T2).
      destruct (W1 (Some (concat_attr l l2)) d2) as (l3 & E3 & C3 & Z3).
      { rewrite ev_PN. cbn [Grammar.evs]. rewrite E. cbn [bind]. cbn [Grammar.ev tk bind]. fold ev. rewrite E2. reflexivity. }
      exists l3, d2. split; auto. split; [|split; [|split]].
      * rewrite C3. unfold concat_attr in *. rewrite app_nil_r in *. rewrite C. f_equal. exact C2.
      * intros _. apply Z3. discriminate.
      * rewrite O2, O, app_assoc. reflexivity.
      * rewrite <- app_assoc in T2. exact T2.
    + intro K. destruct (R2 K) as (d2 & E2). exists d2. apply W2. rewrite ev_PN. cbn [Grammar.evs]. rewrite E. cbn [bind]. cbn [Grammar.ev tk bind]. fold ev. rewrite E2. reflexivity.
Qed.

Lemma good_atoks : forall a, Forall good (atoks a).
Proof.
  assert (forall s, good (leaf_tok s)) as A1 by (intros; left; eauto).
  assert (forall s, good (uint_tok s)) as A2 by (intros; right; left; eauto).
  assert (forall c, In c [OR; AND; IN; LEQ; GEQ; EQ; c_hash; c_lt; c_gt; c_lp; c_rp; c_minus; c_lb; c_rb; c_eq; c_comma; c_bar] -> good (tk c)) as A3.
  { intros c H. right. right. apply in_map. exact H. }
  assert (forall n, Forall good (ntoks n)) as A4.
  { intros [v [w|]]; cbn [ntoks]; repeat (apply Forall_cons; auto). apply A3. cbn. tauto. }
  assert (forall i, Forall good (itoks i)) as A5.
  { intros [s|s n|p m dd y]; cbn [itoks]; repeat first [apply Forall_app; split | apply Forall_nil | apply Forall_cons | apply A1 | apply A2 | apply A4 | (apply A3; cbn; tauto)]. }
  assert (forall n, Forall good (bars n)) as A6.
  { induction n as [|n IH]; [constructor|]. cbn. apply Forall_cons; auto. apply A3. cbn. tauto. }
  induction a as [n i k|n i r IH]; cbn [atoks]; repeat first [apply Forall_app; split | apply Forall_cons | apply A5 | apply A6 | exact IH | (apply A3; cbn; tauto)].
Qed.

Definition attr_text (a : alist) (s : str) : Prop := exists s', text_pre (atoks a) s s' /\ ended s'.
Lemma start_tracks : forall s, tracks [] (start_driver false s).
Proof. intro s. repeat split. Qed.
Lemma attrs_fuel : forall s, (parse_fuel (start_tok false :: lex s) >= 4 * length ((START_ATTRLIST, NoVal) :: lex s) + 3)%nat.
Proof. intro s. unfold parse_fuel. change (length ((START_ATTRLIST, NoVal) :: lex s)) with (length (start_tok false :: lex s)). lia. Qed.

Lemma attrs_accept : forall s l, create_attribute_list mktime s = Ok (Some l) ->
  exists a, attr_text a s /\ (atrail a <= 1)%nat /\ items_ok (aitems a) = true /\ aattrs l = attrs_of day (aitems a) /\ aorig l = orig_of (aitems a).
Proof.
  intros s l H. pose proof (attrs_fuel s) as Hf.
  pose proof (attrs_exact VTok act (action_na mktime) (action_nf mktime) (VTok NoVal) (start_driver false s) (parse_fuel (start_tok false :: lex s)) (lex s)) as X.
  destruct s as [|c0 s0]; [discriminate|]. cbn [create_attribute_list] in H. set (s := c0 :: s0) in *. rewrite parse_string_eq in H.
  pose proof (run_keeps mktime (parse_fuel (start_tok false :: lex s)) [(0, VTok NoVal)] (start_tok false :: lex s) (start_driver false s) ltac:(repeat constructor) ltac:(right; right; split; reflexivity)) as K.
  destruct (run VTok act (parse_fuel (start_tok false :: lex s)) [(0, VTok NoVal)] (start_tok false :: lex s) (start_driver false s)) as [[d|d|d]| | | |] eqn:E;
    cbn [bind] in H; try discriminate.
  - apply (X d Hf (lex_typed s)) in E as (a & rest & v & Ha & Hr & Et & Ev).
    destruct (lex_text_pre (atoks a) s rest (good_atoks a) Et) as (s' & Hp & Hl).
    pose proof (text_pre_good _ _ _ Hp) as G.
    apply ev_kids in Ev as (vs & d1 & Ev & A).
    apply evs_cons in Ev as (v1 & ws & dx & Hv & Ev & ->). apply ev_tok in Hv as [-> ->].
    apply evs_cons in Ev as (v2 & ws2 & dx2 & Ev2 & Ev & ->). cbn in Ev. injection Ev as <- <-. rename Ev2 into Ev.
    destruct (alist_step a [] _ G (start_tracks s)) as [S1 S2].
    destruct (items_ok (aitems a)) eqn:Ki; [|destruct (S2 eq_refl) as (d2 & E2); congruence].
    destruct (S1 eq_refl) as (l2 & d2 & E2 & C & Z & O & T). rewrite E2 in Ev. injection Ev as <- <-.
    cbn [action] in A. destruct l2 as [l2|]; [|discriminate A]. cbn [set_attrlist bind] in A. injection A as <- <-. injection H as <-.
    exists a. split; [exists s'; split; auto; apply ended_lex; rewrite Hl; exact Hr|]. split; auto. split; auto. cbn [aattrs aorig].
    unfold concat_attr in C. rewrite app_nil_r in C. split; [exact C|]. rewrite O. reflexivity.
  - injection H as H. cbn [driver_error dattr] in H. rewrite K in H. discriminate.
  - injection H as H. destruct K as (_ & _ & K). congruence.
Qed.
Lemma attrs_made : forall s a, attr_text a s -> (atrail a <= 1)%nat -> items_ok (aitems a) = true ->
  exists l, create_attribute_list mktime s = Ok (Some l) /\ aattrs l = attrs_of day (aitems a) /\ aorig l = orig_of (aitems a).
Proof.
  intros s a (s' & Hp & He) Ha Hi. pose proof (attrs_fuel s) as Hf.
  pose proof (attrs_exact VTok act (action_na mktime) (action_nf mktime) (VTok NoVal) (start_driver false s) (parse_fuel (start_tok false :: lex s)) (lex s)) as X.
  pose proof (text_pre_good _ _ _ Hp) as G.
  destruct (alist_step a [] _ G (start_tracks s)) as [S1 _]. destruct (S1 Hi) as (l2 & d2 & E2 & C & Z & O & T).
  destruct l2 as [l2|]; [|exfalso; apply Z; reflexivity]. unfold concat_attr in C. rewrite app_nil_r in C.
  destruct s as [|c0 s0].
  { exfalso. apply text_pre_lex in Hp. change (lex []) with (@nil tok) in Hp. symmetry in Hp. apply app_eq_nil in Hp as [Hp _].
    destruct a as [n i k|n i r]; cbn [atoks] in Hp; apply app_eq_nil in Hp as [_ Hp]; apply app_eq_nil in Hp as [Hp _]; destruct i; discriminate. }
  cbn [create_attribute_list]. set (s := c0 :: s0) in *. rewrite parse_string_eq.
  exists {| aattrs := l2; aorig := dorig d2; aprefix := dprefix d2 |}. split; [|split].
  - destruct (X {| dcount := dcount d2; ddup := ddup d2; dprefix := dprefix d2; ddate := ddate d2; dorig := dorig d2; dtext := dtext d2;
      dispolicy := dispolicy d2; dpol := dpol d2; dattr := Some {| aattrs := l2; aorig := dorig d2; aprefix := dprefix d2 |} |} Hf (lex_typed s)) as [_ X2].
    change ((START_ATTRLIST, NoVal) :: lex s) with (start_tok false :: lex s) in X2. rewrite X2; [cbn [bind]; reflexivity|].
    exists a, (lex s'), (VTok NoVal). split; auto. split; [apply ended_lex; auto|]. split; [apply text_pre_lex; auto|].
    rewrite ev_PN. cbn [Grammar.evs Grammar.ev bind]. fold ev. rewrite E2. reflexivity.
  - exact C.
  - cbn. rewrite O. reflexivity.
Qed.
Lemma attrs_total : forall s, exists o, create_attribute_list mktime s = Ok o.
Proof.
  intros [|c0 s0]; [exists None; reflexivity|]. set (s := c0 :: s0). cbn [create_attribute_list]. fold s.
  pose proof (run_finishes mktime false s ltac:(discriminate)) as F. unfold s. cbn [create_attribute_list]. fold s. rewrite parse_string_eq.
  destruct (run VTok act (parse_fuel (start_tok false :: lex s)) [(0, VTok NoVal)] (start_tok false :: lex s) (start_driver false s)) as [[d|d|d]| | | |];
    cbn [safe] in F; try contradiction; cbn [bind]; eauto.
Qed.
End Attrs.
