(** C120 and C121: attribute lists made one attribute at a time; copies of inputs. *)
From Verif Require Import Base StrMap Dec UInteger Policy Scanner Driver Parser AttrList FuncInput PolicySyntax Lexical ScannerProofs PolicyMeaning AttrMeaning PolicyTruth AttrUse CreateAttrs ListText PropParser.
From Coq Require Import ZArith List Ascii Bool Lia.
Import ListNotations.
Open Scope Z_scope.

(** ** Specification *)
(** No name is used both plain and with a number, no prefix has two dates. *)
Definition compatible (l : list item) : Prop :=
  (forall s n, In (IName s) l -> In (INum s n) l -> False) /\
  (forall p m d y m' d' y', In (IDate p m d y) l -> In (IDate p m' d' y') l -> m = m' /\ d = d' /\ y = y').
(** The attributes of one item alone. *)
Definition own_attrs (day : str -> Z -> Z -> Z) (i : item) : list str :=
  match i with
  | IName s => [s]
  | INum s n => bits_of s (num_width n) (num_val n)
  | IDate p m d y => bits_of (p ++ [colon] ++ L "time") 32 (day m (num_val d) (num_val y))
  end.
Definition own_orig (i : item) : list str := match i with IName _ => [] | _ => [show_item i] end.

Section Build.
Context (mktime : tm -> Z * tm).
Notation day := (day mktime).
Lemma own_single : forall i, attrs_of day [i] = own_attrs day i /\ orig_of [i] = own_orig i.
Proof. intros [s|s n|p m d y]; unfold attrs_of, orig_of; cbn; rewrite ?app_nil_r; auto. Qed.
Lemma own_canon : forall i, item_ok i = true -> own_attrs day (canon_item i) = own_attrs day i /\ own_orig (canon_item i) = own_orig i.
Proof.
  intros [s|s n|p m d y] K; cbn [canon_item own_attrs own_orig item_ok show_item] in *; auto.
  - destruct (canon_facts n K) as (-> & -> & _ & ->). auto.
  - apply andb_prop in K as [K1 K2]. destruct (canon_facts d K1) as (_ & -> & _ & ->), (canon_facts y K2) as (_ & -> & _ & ->). auto.
Qed.
Lemma mention_in : forall s l b, first_mention s l = Some b -> if b then In (IName s) l else exists n, In (INum s n) l.
Proof.
  intros s l b. induction l as [|[x|x n|p m d y] r IH]; cbn [first_mention]; intro H; [discriminate| | |].
  - destruct (str_eqb s x) eqn:E; [apply str_eqb_eq in E as ->; injection H as <-; left; reflexivity|]. specialize (IH H). destruct b; [right; exact IH|destruct IH as [n I]; exists n; right; exact I].
  - destruct (str_eqb s x) eqn:E; [apply str_eqb_eq in E as ->; injection H as <-; exists n; left; reflexivity|]. specialize (IH H). destruct b; [right; exact IH|destruct IH as [k I]; exists k; right; exact I].
  - specialize (IH H). destruct b; [right; exact IH|destruct IH as [k I]; exists k; right; exact I].
Qed.
Lemma attrs_from_compatible : forall l before x, compatible (before ++ l) ->
  ((exists i, In i before /\ In x (own_attrs day i)) \/ In x (attrs_from day before l)) <-> (exists i, In i (before ++ l) /\ In x (own_attrs day i)).
Proof.
  induction l as [|i r IH]; intros before x C; cbn [attrs_from].
  - rewrite app_nil_r. split; [intros [H|[]]; exact H|auto].
  - assert (compatible ((before ++ [i]) ++ r)) as C2 by (rewrite <- app_assoc; exact C). specialize (IH (before ++ [i]) x C2). rewrite <- app_assoc in IH. cbn [app] in IH. rewrite <- IH. clear IH.
    assert ((exists j, In j before /\ In x (own_attrs day j)) \/ In x (item_attrs day before i) <-> (exists j, In j (before ++ [i]) /\ In x (own_attrs day j))) as S.
    { assert ((exists j, In j (before ++ [i]) /\ In x (own_attrs day j)) <-> (exists j, In j before /\ In x (own_attrs day j)) \/ In x (own_attrs day i)) as ->.
      { split.
        - intros (j & Hj & Hx). apply in_app_or in Hj as [Hj|[<-|[]]]; eauto.
        - intros [(j & Hj & Hx)|Hx]; [exists j|exists i]; split; auto; apply in_or_app; [auto|right; left; reflexivity]. }
      destruct C as [C1 C3]. assert (forall j, In j before -> In j (before ++ i :: r)) as Ib by (intros; apply in_or_app; auto).
      assert (In i (before ++ i :: r)) as Ii by (apply in_or_app; right; left; reflexivity).
      destruct i as [s|s n|p m d y]; cbn [item_attrs own_attrs].
      - destruct (first_mention s before) as [[]|] eqn:E; [|exfalso|reflexivity]; apply mention_in in E.
        + split; [intros [H|[]]; auto|]. intros [H|[<-|[]]]; auto. left. exists (IName s). split; [exact E|left; reflexivity].
        + destruct E as [n E]. exact (C1 s n Ii (Ib _ E)).
      - destruct (first_mention s before) as [[]|] eqn:E; [exfalso|reflexivity|reflexivity]. apply mention_in in E. exact (C1 s n (Ib _ E) Ii).
      - destruct (dated_in p before) eqn:E; [|reflexivity]. unfold dated_in in E. apply existsb_exists in E as (j & Ij & Ej). destruct j as [|? ?|q m' d' y']; try discriminate. apply str_eqb_eq in Ej as <-.
        destruct (C3 _ _ _ _ _ _ _ (Ib _ Ij) Ii) as (-> & -> & ->). split; [intros [H|[]]; auto|]. intros [H|H]; auto. left. eexists. split; [exact Ij|exact H]. }
    rewrite in_app_iff, <- S. tauto.
Qed.
Lemma attrs_of_compatible : forall l x, compatible l -> (In x (attrs_of day l) <-> exists i, In i l /\ In x (own_attrs day i)).
Proof. intros l x C. rewrite <- (attrs_from_compatible l [] x C). unfold attrs_of. split; [auto|]. intros [(i & [] & _)|H]; exact H. Qed.

(** *** One attribute *)
Lemma name_no_equals : forall s, is_name s = true -> existsb (fun c => ascii_eqb c "="%char) s = false.
Proof.
  intros s N. destruct (existsb _ s) eqn:E; [|reflexivity]. exfalso. apply existsb_exists in E as (c & Ic & Ec). apply Ascii.eqb_eq in Ec. subst c.
  unfold is_name in N. apply andb_prop in N as [N _]. apply andb_prop in N as [N _]. destruct s as [|c s]; [destruct Ic|]. cbn [is_word] in N. apply andb_prop in N as [N1 N2].
  destruct Ic as [->|Ic]; [discriminate|]. rewrite forallb_forall in N2. specialize (N2 _ Ic). discriminate.
Qed.
Lemma shown_nonempty : forall i, item_named i -> show_item i <> [].
Proof.
  intros [s|s n|p m d y] N; cbn [show_item item_named] in *; [|destruct s; discriminate|destruct p; discriminate]. destruct s; discriminate.
Qed.
Lemma add_item : forall l i, item_named i -> item_ok i = true ->
  exists l', add_attribute mktime l (show_item i) = Ok l' /\ aattrs l' = aattrs l ++ own_attrs day i /\ aorig l' = aorig l ++ own_orig i.
Proof.
  intros l i N K. unfold add_attribute. set (pre := if existsb (fun c => ascii_eqb c colon) (show_item i) then _ else _).
  destruct (existsb (fun c => ascii_eqb c "="%char) (show_item i)) eqn:E.
  - cbn [negb]. destruct (list_made mktime 1 i [] 0) as (m & Em & A & O); [constructor; auto|cbn; rewrite K; reflexivity|lia|].
    unfold items_text in Em. cbn [repeat] in Em. rewrite app_nil_r in Em. cbn [app] in Em. rewrite Em. cbn [bind]. eexists. split; [reflexivity|]. cbn [aattrs aorig].
    rewrite A, O. cbn [map]. destruct (own_single (canon_item i)) as [-> ->]. destruct (own_canon i K) as [-> ->]. auto.
  - cbn [negb]. eexists. split; [reflexivity|]. cbn [aattrs aorig].
    destruct i as [s|s n|p m d y]; cbn [show_item own_attrs own_orig] in *; [rewrite app_nil_r; auto|exfalso..]; rewrite existsb_app in E; apply orb_false_elim in E as [_ E]; discriminate.
Qed.
Lemma add_items : forall items l, Forall item_named items -> items_ok items = true ->
  exists l', add_all mktime l (map show_item items) = Ok l' /\ aattrs l' = aattrs l ++ flat_map (own_attrs day) items /\ aorig l' = aorig l ++ flat_map own_orig items.
Proof.
  induction items as [|i r IH]; intros l F K; cbn [map add_all flat_map].
  - exists l. rewrite !app_nil_r. auto.
  - inversion F as [|? ? N F']; subst. cbn [items_ok forallb] in K. apply andb_prop in K as [Ki Kr]. pose proof (shown_nonempty i N) as Ne.
    destruct (add_item l i N Ki) as (l1 & E1 & A1 & O1). destruct (IH l1 F' Kr) as (l2 & E2 & A2 & O2). exists l2.
    destruct (show_item i) as [|c w] eqn:Es; [congruence|]. rewrite E1. cbn [bind]. rewrite E2, A2, O2, A1, O1, <- !app_assoc. auto.
Qed.
End Build.

(** ** C120 *)
(** A list made from the texts of attributes holds exactly what the attributes
    stand for; for compatible attributes it answers matchAttribute as the list
    made from the whole text. *)
Theorem C120_built : forall mktime i items, Forall item_named (i :: items) -> items_ok (i :: items) = true ->
  exists l, make_list mktime (Z.of_nat (length (i :: items))) (map show_item (i :: items)) = Ok l /\
    (forall x, list_match l x = true <-> exists j, In j (i :: items) /\ In x (own_attrs (day mktime) j)) /\
    (compatible (i :: items) -> forall lead trail, (trail <= 1)%nat ->
       exists m, create_attribute_list mktime (items_text lead i items trail) = Ok (Some m) /\ forall x, list_match m x = list_match l x).
Proof.
  intros mktime i items F K. unfold make_list. rewrite map_length, Z.eqb_refl. destruct (add_items mktime (i :: items) no_attrs F K) as (l & E & A & O). exists l. split; [exact E|].
  cbn [no_attrs aattrs app] in A.
  assert (forall a x, list_match a x = true <-> In x (aattrs a)) as M.
  { intros a x. unfold list_match. rewrite existsb_exists. split; [intros (y & I & Y); apply str_eqb_eq in Y as ->; exact I|intro I; exists x; split; [exact I|apply str_eqb_refl]]. }
  assert (forall x, list_match l x = true <-> exists j, In j (i :: items) /\ In x (own_attrs (day mktime) j)) as Ml.
  { intro x. rewrite M, A, in_flat_map. reflexivity. }
  split; [exact Ml|]. intros C lead trail T. destruct (list_made mktime lead i items trail F K T) as (m & Em & Am & _). exists m. split; [exact Em|]. intro x.
  assert (list_match m x = true <-> list_match l x = true) as X.
  { rewrite M, Am, Ml. rewrite attrs_of_compatible.
    - split.
      + intros (j & Ij & Ix). apply in_map_iff in Ij as (k & <- & Ik). exists k. split; [exact Ik|]. rewrite <- (proj1 (own_canon mktime k (proj1 (forallb_forall _ _) K k Ik))). exact Ix.
      + intros (j & Ij & Ix). exists (canon_item j). split; [apply in_map; exact Ij|]. rewrite (proj1 (own_canon mktime j (proj1 (forallb_forall _ _) K j Ij))). exact Ix.
    - destruct C as [C1 C2]. split.
      + intros s n I1 I2. apply in_map_iff in I1 as (j & Ej & I1). apply in_map_iff in I2 as (k & Ek & I2). destruct j; try discriminate. destruct k; try discriminate.
        injection Ej as ->. injection Ek as -> _. exact (C1 _ _ I1 I2).
      + intros p mo d y m' d' y' I1 I2. apply in_map_iff in I1 as (j & Ej & I1). apply in_map_iff in I2 as (k & Ek & I2). destruct j; try discriminate. destruct k; try discriminate.
        injection Ej as -> -> <- <-. injection Ek as -> -> <- <-. destruct (C2 _ _ _ _ _ _ _ I1 I2) as (-> & -> & ->). auto. }
  destruct (list_match m x), (list_match l x); auto; [symmetry|]; apply X; reflexivity.
Qed.
Print Assumptions C120_built.
(** Adding one attribute never takes any away, and a text with '=' that is not an
    attribute list of its own makes the call undefined. *)
Theorem C120_added : forall mktime l a,
  (existsb (fun c => Ascii.eqb c "=") a = false -> exists l', add_attribute mktime l a = Ok l' /\ forall x, list_match l' x = list_match l x || str_eqb a x) /\
  (existsb (fun c => Ascii.eqb c "=") a = true ->
     (exists m l', create_attribute_list mktime ("|"%char :: a) = Ok (Some m) /\ add_attribute mktime l a = Ok l' /\ forall x, list_match l' x = list_match l x || list_match m x) \/
     (create_attribute_list mktime ("|"%char :: a) = Ok None /\ add_attribute mktime l a = UB)).
Proof.
  intros mktime l a. unfold add_attribute. split; intro E; change (fun c => ascii_eqb c "="%char) with (fun c => Ascii.eqb c "=") ; rewrite E; cbn [negb].
  - eexists. split; [reflexivity|]. intro x. unfold list_match. cbn [aattrs]. rewrite existsb_app. cbn [existsb]. rewrite orb_false_r. reflexivity.
  - change (bar :: a) with ("|"%char :: a). destruct (attrs_total mktime ("|"%char :: a)) as [[m|] Em]; rewrite Em; cbn [bind]; [left|right; auto].
    exists m. eexists. split; [reflexivity|]. split; [reflexivity|]. intro x. unfold list_match. cbn [aattrs]. apply existsb_app.
Qed.
Print Assumptions C120_added.
(** Empty strings, and only these, are passed over, wherever they stand. *)
Theorem C120_empty : forall mktime args,
  let rest := filter (fun a => match a with [] => false | _ => true end) args in
  make_list mktime (Z.of_nat (length args)) args = make_list mktime (Z.of_nat (length rest)) rest.
Proof.
  intros mktime args rest. unfold make_list. rewrite !Z.eqb_refl. subst rest. generalize no_attrs. induction args as [|[|c a] args IH]; intros l; [reflexivity| |].
  - cbn [filter add_all]. apply IH.
  - cbn [filter add_all]. destruct (add_attribute mktime l (c :: a)) as [l'| | | |]; cbn [bind]; auto.
Qed.
Print Assumptions C120_empty.
(** Refuted: a badly written number is not reported but dereferences a null pointer. *)
Theorem C120_bad_number_refuted : forall mktime, exists a, make_list mktime 1 [a] = UB.
Proof. intro mktime. exists (L "age=old"). vm_compute. reflexivity. Qed.
Print Assumptions C120_bad_number_refuted.
(** Refuted without compatibility: a name that is also used with a number. *)
Theorem C120_both_refuted : forall mktime, exists l m x, make_list mktime 2 [L "a"; L "a=5#4"] = Ok l /\
  create_attribute_list mktime (L "|a|a=5#4") = Ok (Some m) /\ list_match l x = true /\ list_match m x = false.
Proof.
  intro mktime. eexists _, _, (L "a_expint04_xxxxxxxxxxxxxxxxxxxxxxxxxxxxxxx1"). split; [vm_compute; reflexivity|]. split; [vm_compute; reflexivity|]. split; vm_compute; reflexivity.
Qed.
Print Assumptions C120_both_refuted.

(** ** C121 *)
(** A list made from the texts of compatible attributes survives serialisation. *)
Theorem C121_built_travels : forall mktime i items l, Forall item_named (i :: items) -> items_ok (i :: items) = true -> compatible (i :: items) ->
  make_list mktime (Z.of_nat (length (i :: items))) (map show_item (i :: items)) = Ok l ->
  exists l', create_attribute_list mktime (compact l) = Ok (Some l') /\ forall x, list_match l' x = list_match l x.
Proof.
  intros mktime i0 items0 l F K C E. set (items := i0 :: items0) in *. unfold make_list in E. rewrite map_length, Z.eqb_refl in E.
  destruct (add_items mktime items no_attrs F K) as (l0 & E0 & A & O). rewrite E in E0. injection E0 as <-. cbn [no_attrs aattrs aorig app] in A, O.
  set (isname := fun i => match i with IName _ => true | _ => false end). set (sorted := filter isname items ++ filter (fun i => negb (isname i)) items).
  assert (forall j, In j sorted <-> In j items) as Is.
  { intro j. unfold sorted. rewrite in_app_iff, !filter_In. destruct (isname j); cbn; intuition congruence. }
  assert (compact l = "|"%char :: concat (map (fun a => a ++ [bar]) (map show_item sorted))) as Ec.
  { unfold compact. rewrite A, O. unfold sorted. rewrite !map_app, concat_app. f_equal. f_equal.
    - f_equal. f_equal. clear - F. induction items as [|j r IH]; [reflexivity|]. inversion F as [|? ? N F']; subst. cbn [flat_map]. rewrite filter_app, (IH F').
      destruct j as [s|s n|p m d y]; cbn [own_attrs isname filter map show_item].
      + rewrite (name_no_expint s N). reflexivity.
      + pose proof (bits_filter [(s, num_width n, num_val n)]) as B. cbn [map concat] in B. rewrite app_nil_r in B. rewrite B. reflexivity.
      + pose proof (bits_filter [(p ++ [colon] ++ L "time", 32, day mktime m (num_val d) (num_val y))]) as B. cbn [map concat] in B. rewrite app_nil_r in B. rewrite B. reflexivity.
    - f_equal. f_equal. clear. induction items as [|j r IH]; [reflexivity|]. cbn [flat_map filter]. rewrite IH. destruct j; reflexivity. }
  destruct sorted as [|x r] eqn:Es.
  { exfalso. assert (In i0 []) as X by (apply Is; left; reflexivity). destruct X. }
  assert (Forall item_named (x :: r)) as F2 by (apply Forall_forall; intros j Hj; apply Is in Hj; rewrite Forall_forall in F; auto).
  assert (items_ok (x :: r) = true) as K2 by (apply forallb_forall; intros j Hj; apply Is in Hj; unfold items_ok in K; rewrite forallb_forall in K; auto).
  assert (compatible (x :: r)) as C2 by (destruct C as [C1 C2]; split; [intros s n I1 I2; apply Is in I1; apply Is in I2; eauto|intros p m d y m' d' y' I1 I2; apply Is in I1; apply Is in I2; eauto]).
  assert (compact l = items_text 1 x r 1) as Ec2 by (rewrite Ec, compact_text_eq; destruct r; reflexivity). rewrite Ec2.
  destruct (C120_built mktime x r F2 K2) as (lx & Ex & Mx & Bx). destruct (Bx C2 1%nat 1%nat (le_n 1)) as (m & Em & Mm). exists m. split; [exact Em|].
  intro y. rewrite Mm. destruct (C120_built mktime i0 items0 F K) as (ly & Ey & My & _). fold items in Ey, My. unfold make_list in Ey. rewrite map_length, Z.eqb_refl in Ey. rewrite E in Ey. injection Ey as <-.
  assert (list_match lx y = true <-> list_match l y = true) as X.
  { rewrite Mx, My. split; intros (j & Hj & Hy); exists j; split; auto; apply Is; exact Hj. }
  destruct (list_match lx y), (list_match l y); auto; [symmetry|]; apply X; reflexivity.
Qed.
Print Assumptions C121_built_travels.
(** Refuted for texts that are not attributes: they are stored unchecked, and the
    list that comes back grants what the list sent did not, or does not come back. *)
Theorem C121_unchecked_refuted : forall mktime, exists l l', make_list mktime 1 [L "guest|admin"] = Ok l /\ list_match l (L "admin") = false /\
  create_attribute_list mktime (compact l) = Ok (Some l') /\ list_match l' (L "admin") = true.
Proof. intro mktime. eexists _, _. split; [vm_compute; reflexivity|]. split; [vm_compute; reflexivity|]. split; vm_compute; reflexivity. Qed.
Print Assumptions C121_unchecked_refuted.
Theorem C121_lost_refuted : forall mktime, exists l, make_list mktime 1 [L "two words"] = Ok l /\ list_match l (L "two words") = true /\ create_attribute_list mktime (compact l) = Ok None.
Proof. intro mktime. eexists. split; [vm_compute; reflexivity|]. split; vm_compute; reflexivity. Qed.
Print Assumptions C121_lost_refuted.
(** Copying an attribute list gives the same answers; copying a policy gives nothing. *)
Theorem C121_copy : forall l, exists l', copy_input (FAttrs l) = Some (FAttrs l') /\ (forall x, list_match l' x = list_match l x) /\ compact l' = compact l /\ list_to_string l' = list_to_string l.
Proof. intro l. eexists. split; [reflexivity|]. destruct l. auto. Qed.
Print Assumptions C121_copy.
Theorem C121_copy_refuted : forall q, copy_input (FPolicy q) = None.
Proof. reflexivity. Qed.
Print Assumptions C121_copy_refuted.

(** Non-vacuity. *)
Example C120_example : forall mktime, Forall item_named [IName (L "a"); INum (L "n") (Num 5 (Some 4)); IName (L "a")] /\
  items_ok [IName (L "a"); INum (L "n") (Num 5 (Some 4)); IName (L "a")] = true /\ compatible [IName (L "a"); INum (L "n") (Num 5 (Some 4)); IName (L "a")] /\
  map show_item [IName (L "a"); INum (L "n") (Num 5 (Some 4)); IName (L "a")] = [L "a"; L "n=5#4"; L "a"] /\
  exists l, make_list mktime 3 [L "a"; L "n=5#4"; L "a"] = Ok l /\ list_match l (L "a") = true /\ compact l = L "|a|a|n=5#4|".
Proof.
  intro mktime. split; [repeat constructor; cbn; lia|]. split; [reflexivity|]. split.
  - split.
    + intros s n [E|[E|[E|[]]]] [E2|[E2|[E2|[]]]]; try discriminate; injection E as <-; injection E2 as E2 _; discriminate.
    + intros p m d y m' d' y' [E|[E|[E|[]]]] _; discriminate.
  - split; [reflexivity|]. eexists. split; [vm_compute; reflexivity|]. split; vm_compute; reflexivity.
Qed.
