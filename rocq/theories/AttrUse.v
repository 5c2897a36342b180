(** A parsed policy asked of a parsed attribute list. *)
From Verif Require Import Base ByteString StrMap Dec UInteger Policy Lsss LsssSpec Scanner Grammar PolicySyntax Lexical PolicyMeaning AttrMeaning Driver Parser ParserSound ParserRun ParserTop ScannerProofs NumProofs NumTree PolicyTruth ParserSafe CreatePolicy CreateAttrs ParserFinal.
From Coq Require Import ZArith List Ascii Bool Lia ZifyBool ZifyNat Permutation.
Import ListNotations.
Open Scope Z_scope.

Lemma contains_app : forall p a b, contains p (p ++ b) = true /\ (contains p b = true -> contains p (a ++ b) = true).
Proof.
  intros p a b. split.
  - assert (is_prefix p (p ++ b) = true) as E. { induction p as [|c p IH]; [reflexivity|]. cbn. unfold ascii_eqb. rewrite Ascii.eqb_refl. exact IH. }
    destruct (p ++ b); cbn [contains]; rewrite E; reflexivity.
  - induction a as [|c a IH]; auto. intro H. cbn [app contains]. rewrite (IH H). apply orb_true_r.
Qed.
Lemma marker_expint : forall c b i v, contains (L "expint") (marker c b i v) = true.
Proof.
  intros. unfold marker. apply (proj2 (contains_app (L "expint") c _)). change (L "_expint") with (L "_" ++ L "expint"). rewrite <- app_assoc.
  apply (proj2 (contains_app (L "expint") (L "_") _)). apply (proj1 (contains_app (L "expint") [] _)).
Qed.
Lemma name_not_marker : forall s c b i v, is_name s = true -> s <> marker c b i v.
Proof. intros s c b i v H ->. unfold is_name in H. rewrite marker_expint in H. cbn [negb] in H. rewrite andb_false_r in H. discriminate. Qed.

Section Use.
Variable mktime : tm -> Z * tm.
Notation day := (day mktime).
Notation last_day := (last_day mktime).

Lemma bits_member : forall s c b x, In s (bits_of c b x) <-> exists i, 0 <= i < recorded b /\ s = marker c b i (Z.testbit x i).
Proof.
  intros. unfold bits_of. rewrite in_map_iff. split.
  - intros (i & <- & I). apply in_rev in I. apply in_map_iff in I as (k & <- & I). apply in_seq in I. exists (Z.of_nat k). split; auto. lia.
  - intros (i & Hi & ->). exists i. split; auto. apply -> in_rev. apply in_map_iff. exists (Z.to_nat i). split; [lia|]. apply in_seq. lia.
Qed.
Definition by_value (s : str) (vs : list (str * Z * Z)) : Prop :=
  exists c b x i, In (c, b, x) vs /\ 0 <= i < recorded b /\ s = marker c b i (Z.testbit x i).
Lemma by_value_app : forall s v w, by_value s (v ++ w) <-> by_value s v \/ by_value s w.
Proof.
  intros s v w. split.
  - intros (c & b & x & i & I & H). apply in_app_or in I as [I|I]; [left|right]; exists c, b, x, i; auto.
  - intros [(c & b & x & i & I & H)|(c & b & x & i & I & H)]; exists c, b, x, i; (split; [apply in_or_app|]); auto.
Qed.
Lemma by_value_one : forall s c b x, by_value s [(c, b, x)] <-> In s (bits_of c b x).
Proof.
  intros. rewrite bits_member. split.
  - intros (c' & b' & x' & i & [E|[]] & H). injection E as <- <- <-. eauto.
  - intros (i & H). exists c, b, x, i. split; auto. left. reflexivity.
Qed.
Lemma by_value_nil : forall s, ~ by_value s [].
Proof. intros s (c & b & x & i & [] & _). Qed.
Lemma attrs_member : forall l before s, In s (attrs_from day before l) <->
  (first_mention s before = None /\ first_mention s l = Some true) \/ by_value s (values_from day before l).
Proof.
  induction l as [|i r IH]; intros before s; cbn [attrs_from values_from first_mention].
  - split; [intros []|]. intros [[_ H]|H]; [discriminate|]. exfalso. eapply by_value_nil; eauto.
  - rewrite in_app_iff, by_value_app, IH, first_mention_app. destruct i as [x|x n|p m d y]; cbn [item_attrs item_values first_mention].
    + destruct (str_eqb s x) eqn:E.
      * apply str_eqb_eq in E as ->. destruct (first_mention x before) as [b0|] eqn:F.
        -- split; [intros [[]|[[? _]|H]]; [congruence|right; right; exact H]|]. intros [[H _]|[H|H]]; [discriminate|exfalso; eapply by_value_nil; eauto|auto].
        -- split; [intros [_|[[H _]|H]]; [left; auto|discriminate|auto]|]. intros [_|[H|H]]; [left; left; reflexivity|exfalso; eapply by_value_nil; eauto|auto].
      * assert (In s match first_mention x before with Some _ => [] | None => [x] end -> False) as Nx.
        { destruct (first_mention x before); [intros []|]. intros [<-|[]]. rewrite str_eqb_refl in E. discriminate. }
        split; [intros [H|[[H1 H2]|H]]; [tauto| |auto]|intros [[H1 H2]|[H|H]]].
        -- left. destruct (first_mention s before); auto; discriminate.
        -- right. left. rewrite H1. auto.
        -- exfalso; eapply by_value_nil; eauto.
        -- auto.
    + assert (In s match first_mention x before with Some true => [] | _ => bits_of x (num_width n) (num_val n) end <->
        by_value s match first_mention x before with Some true => [] | _ => [(x, num_width n, num_val n)] end) as Ev.
      { destruct (first_mention x before) as [[]|]; try (rewrite by_value_one; tauto). split; [intros []|intro H; exfalso; eapply by_value_nil; eauto]. }
      rewrite Ev. destruct (str_eqb s x) eqn:E.
      * split; [intros [H|[[H1 H2]|H]]; auto|intros [[H1 H2]|[H|H]]; auto; discriminate].
        destruct (first_mention s before); discriminate.
      * split; [intros [H|[[H1 H2]|H]]; auto|intros [[H1 H2]|[H|H]]; auto].
        -- left. destruct (first_mention s before); auto; discriminate.
        -- right. left. rewrite H1. auto.
    + assert (In s (if dated_in p before then [] else bits_of (p ++ [colon] ++ L "time") 32 (day m (num_val d) (num_val y))) <->
        by_value s (if dated_in p before then [] else [(p ++ [colon] ++ L "time", 32, day m (num_val d) (num_val y))])) as Ev.
      { destruct (dated_in p before); [|rewrite by_value_one; tauto]. split; [intros []|intro H; exfalso; eapply by_value_nil; eauto]. }
      rewrite Ev. split; [intros [H|[[H1 H2]|H]]; auto|intros [[H1 H2]|[H|H]]; auto].
      * left. destruct (first_mention s before); auto; discriminate.
      * right. left. rewrite H1. auto.
Qed.

(** Items a user can write. *)
Definition item_named (i : item) : Prop :=
  match i with
  | IName s => is_name s = true
  | INum s n => is_name s = true /\ num_range n
  | IDate s m d y => is_name s = true /\ is_name m = true /\ num_range d /\ num_range y
  end.
Lemma items_named : forall a, Forall tok_good (atoks a) -> Forall item_named (aitems a).
Proof.
  assert (forall i, Forall tok_good (itoks i) -> item_named i) as K.
  { intros [s|s n|s m d y] G; cbn [itoks] in G; destruct (leaf_name _ _ G) as [N G1]; auto; cbn [item_named].
    - inversion G1; subst. auto using ntoks_range.
    - inversion G1 as [|? ? _ G2]; subst. destruct (leaf_name _ _ G2) as [Nm G3].
      apply Forall_app in G3 as [G3 G4]. inversion G4 as [|? ? _ G5]; subst. auto using ntoks_range. }
  induction a as [n i k|n i r IH]; intro G; cbn [atoks aitems] in *; apply Forall_app in G as [_ G]; apply Forall_app in G as [G1 G2].
  - auto.
  - inversion G2; subst. auto.
Qed.
Lemma first_named : forall s l b, Forall item_named l -> first_mention s l = Some b -> is_name s = true.
Proof.
  intros s l b F. induction F as [|[x|x n|p m d y] r H F IH]; cbn [first_mention]; intro E; try discriminate; auto.
  - destruct (str_eqb s x) eqn:X; auto. apply str_eqb_eq in X as ->. exact H.
  - destruct (str_eqb s x) eqn:X; auto. apply str_eqb_eq in X as ->. apply H.
Qed.
Lemma values_fit : forall l before c b x, Forall item_named l -> items_ok l = true -> In (c, b, x) (values_from day before l) ->
  width_ok b = true /\ 0 <= x < 2 ^ b.
Proof.
  induction l as [|i r IH]; intros before c b x F K I; [destruct I|]. cbn [values_from] in I. inversion F as [|? ? N F']; subst.
  cbn [items_ok forallb] in K. apply andb_prop in K as [Ki Kr]. apply in_app_or in I as [I|I]; [|eapply IH; eauto].
  destruct i as [s|s n|p m d y]; cbn [item_values item_named item_ok] in *.
  - destruct I.
  - assert (In (c, b, x) [(s, num_width n, num_val n)]) as J by (destruct (first_mention s before) as [[]|]; auto; destruct I).
    destruct J as [J|[]]. injection J as <- <- <-. destruct N as [_ N]. destruct (num_ok_facts n N Ki) as (W & V & _). split; auto. lia.
  - destruct (dated_in p before); [destruct I|]. destruct I as [J|[]]. injection J as <- <- <-. split; [reflexivity|].
    pose proof (day_range mktime m (num_val d) (num_val y)) as D. change (2 ^ 32) with 4294967296. exact D.
Qed.
Lemma value_in : forall l c b x, value day l c b = Some x -> In (c, b, x) (values_of day l).
Proof.
  intros l c b x H. unfold value in H. destruct (find _ (values_of day l)) as [[[c' b'] x']|] eqn:F; [|discriminate]. injection H as ->.
  apply find_some in F as [F1 F2]. apply andb_prop in F2 as [F2 F3]. apply str_eqb_eq in F2 as ->. apply Z.eqb_eq in F3 as ->. exact F1.
Qed.
Lemma value_none : forall l c b x, value day l c b = None -> ~ In (c, b, x) (values_of day l).
Proof.
  intros l c b x H I. unfold value in H. destruct (find _ (values_of day l)) as [[[c' b'] x']|] eqn:F; [discriminate|].
  pose proof (find_none _ _ F _ I) as X. cbn in X. rewrite str_eqb_refl, Z.eqb_refl in X. discriminate.
Qed.

Lemma recorded_small : forall b i, width_ok b = true -> 0 <= i < recorded b -> 0 <= i < 32.
Proof. intros b i W. unfold width_ok in W. assert (b = 4 \/ b = 8 \/ b = 16 \/ b = 32) as [-> | [-> | [-> | ->]]] by lia; unfold recorded; cbn; lia. Qed.
Lemma match_iff : forall l s, match_attribute l s = true <-> In s l.
Proof.
  intros l s. unfold match_attribute. rewrite existsb_exists. split; [intros (x & I & E); apply str_eqb_eq in E as ->; auto|].
  intro I. exists s. rewrite str_eqb_refl. auto.
Qed.
Lemma match_marker : forall l c b i v, Forall item_named l -> items_ok l = true -> width_ok b = true -> 0 <= i < recorded b ->
  match_attribute (attrs_of day l) (marker c b i v) = true <-> exists x, In (c, b, x) (values_of day l) /\ Z.testbit x i = v.
Proof.
  intros l c b i v F K W Hi. rewrite match_iff. unfold attrs_of. rewrite attrs_member. split.
  - intros [[_ H]|(c' & b' & x & i' & I & Hi' & E)].
    + exfalso. apply (name_not_marker (marker c b i v) c b i v); auto. eapply first_named; eauto.
    + destruct (values_fit _ _ _ _ _ F K I) as [W' _]. apply marker_inj in E; eauto using recorded_small. destruct E as (-> & -> & -> & ->). eauto.
  - intros (x & I & <-). right. exists c, b, x, i. auto.
Qed.
Lemma attrs_records : forall l c b, Forall item_named l -> items_ok l = true -> width_ok b = true -> single_valued day l c b ->
  records (match_attribute (attrs_of day l)) (value day l) c b.
Proof.
  intros l c b F K W Sv. unfold records. destruct (value day l c b) as [x|] eqn:V.
  - apply value_in in V. split; [eapply values_fit; eauto|]. intros i v Hi.
    pose proof (match_marker l c b i v F K W Hi) as M. destruct (match_attribute _ _) eqn:E.
    + destruct M as [M _]. destruct (M eq_refl) as (y & I & <-). rewrite (Sv _ _ I V), eqb_reflx. reflexivity.
    + symmetry. apply not_true_iff_false. intro X. apply eqb_prop in X. destruct M as [_ M]. assert (false = true) by (apply M; eauto). discriminate.
  - intros i v Hi. apply not_true_iff_false. intro E. apply (match_marker l c b i v F K W Hi) in E as (x & I & _). eapply value_none; eauto.
Qed.
Lemma attrs_plain : forall l s, Forall item_named l -> is_name s = true -> match_attribute (attrs_of day l) s = plain l s.
Proof.
  intros l s F N. unfold plain. pose proof (match_iff (attrs_of day l) s) as M. unfold attrs_of in M at 2. rewrite attrs_member in M.
  destruct (match_attribute _ _).
  - destruct M as [M _]. destruct (M eq_refl) as [[_ ->]|(c & b & x & i & _ & _ & E)]; auto. exfalso. eapply name_not_marker; eauto.
  - destruct (first_mention s l) as [[]|] eqn:E; auto. destruct M as [_ M]. apply M. auto.
Qed.

(** Names and widths of a policy a user can write. *)
Lemma names_legal : forall e s, Forall tok_good (ptoks e) -> In s (names e) -> is_name s = true.
Proof.
  induction e; intros x G I; cbn [ptoks names] in *; try (destruct I as [<-|[]]; apply leaf_name in G as [G _]; exact G).
  - apply Forall_app in G as [G1 G2]. inversion G2; subst. apply in_app_or in I as [I|I]; auto.
  - apply Forall_app in G as [G1 G2]. inversion G2; subst. apply in_app_or in I as [I|I]; auto.
  - inversion G; subst. match goal with X : Forall _ (_ ++ _) |- _ => apply Forall_app in X as [X _] end. auto.
Qed.
Lemma compared_width : forall e c b, nums_ok e = true -> In (c, b) (compared e) -> width_ok b = true.
Proof.
  induction e; intros c b K I; cbn [nums_ok compared] in *; try (destruct I; fail).
  - destruct I as [E|[]]. injection E as <- <-. destruct n. apply andb_prop in K. apply K.
  - apply andb_prop in K as [K1 K2]. destruct lo, hi. apply andb_prop in K1 as [K1 _]. apply andb_prop in K2 as [K2 _].
    destruct I as [E|[E|[]]]; injection E as <- <-; auto.
  - destruct I as [E|[]]. injection E as <- <-. reflexivity.
  - destruct I as [E|[]]. injection E as <- <-. reflexivity.
  - apply andb_prop in K as [K1 K2]. apply in_app_or in I as [I|I]; eauto.
  - apply andb_prop in K as [K1 K2]. apply in_app_or in I as [I|I]; eauto.
  - eauto.
Qed.
Lemma truth_ext : forall e h h' v, (forall s, In s (names e) -> h s = h' s) -> truth day last_day h v e = truth day last_day h' v e.
Proof.
  induction e; intros h h' v H; cbn [truth names] in *; auto.
  - apply H. left. reflexivity.
  - rewrite (IHe1 h h'), (IHe2 h h'); auto; intros x I; apply H; apply in_or_app; auto.
  - rewrite (IHe1 h h'), (IHe2 h h'); auto; intros x I; apply H; apply in_or_app; auto.
Qed.

(** The outcome of asking a policy of an attribute list. *)
Lemma policy_truth : forall e n l, Forall tok_good (ptoks e) -> nums_ok e = true -> denotes day last_day e n ->
  Forall item_named l -> items_ok l = true -> (forall c b, In (c, b) (compared e) -> single_valued day l c b) ->
  sat (match_attribute (attrs_of day l)) n = truth day last_day (plain l) (value day l) e.
Proof.
  intros e n l G K D F Ki Sv. rewrite (denotes_truth mktime e n _ (value day l) D).
  - apply truth_ext. intros s I. apply attrs_plain; auto. eapply names_legal; eauto.
  - intros c b I. apply attrs_records; auto. eapply compared_width; eauto.
Qed.
End Use.
