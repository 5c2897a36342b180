(** C135, C136: whom a policy admits, from the text to the plaintext. *)
From Verif Require Import Base ByteString StrMap Dec UInteger Policy Lsss LsssSpec LsssFinal LsssRecover LsssProofs LsssShare Scanner Grammar PolicySyntax Lexical PolicyMeaning AttrMeaning Driver Parser AttrList ParserSound ParserRun ParserTop ScannerProofs ParserFinal AttrUse PolicyUse PrintParse ListText TextUse Calendar DateProofs NumProofs NumTree PolicyTruth ParserSafe CreatePolicy CreateAttrs Field PropField PropLsss PropParser Utils Kdf PropUtil Container ContainerSpec ContainerProofs Keystore Scheme SchemeSpec SchemeRows SchemeStep SchemeCp SchemeKp SchemeFrame SchemeUse SchemeSession SchemeToy PropScheme PropContext.
From Coq Require Import ZArith Znumtheory List Ascii Bool Lia Permutation.
Import ListNotations.
Open Scope Z_scope.

(** The texts of a policy and of an attribute list, with the objects made of them. *)
Record written E (e : pexp) (s : str) (q : policy) (a : alist) (t : str) (l : attrlist) : Prop := {
  wr_texts : texts (e_mktime E) e s a t;
  wr_policy : create_policy_tree (e_mktime E) s = Ok (Some q);
  wr_list : create_attribute_list (e_mktime E) t = Ok (Some l);
  wr_names : no_collision (short_label E) (aattrs l);
  wr_rows : no_collision (short_label E) (row_names q)
}.
(** What the holder of a key is told of a ciphertext: the list is in the key and the
    policy in the ciphertext, or the other way round. *)
Definition hears E (sch : scheme) (q : policy) (l : attrlist) (pt : str) (out : res (Z * str)) : Prop :=
  exists rk re, match sch with CP => session E CP (InAttrs l) (InPolicy q) pt rk re out | KP => session E KP (InPolicy q) (InAttrs l) pt rk re out end.
Lemma hears_says : forall E sch e s q a t l pt out, lawful E -> written E e s q a t l -> len pt < 2147483616 -> hears E sch q l pt out -> out = handed (authorised (e_mktime E) e a) pt.
Proof.
  intros E sch e s q a t l pt out HE [T Hq Hl N1 N2] Hp (rk & re & H). destruct sch.
  - apply (C35_cp_round_trip E e s a t q l pt rk re out HE T Hq Hl N1 N2 Hp H).
  - apply (C37_kp_round_trip E e s a t q l pt rk re out HE T Hq Hl N1 N2 Hp H).
Qed.
Lemma handed_same : forall b b' pt, handed b pt = handed b' pt <-> b = b'.
Proof. intros [] [] pt; unfold handed; split; intro H; try reflexivity; discriminate. Qed.

(** * C135 *)
(** Two policies, in any two contexts of either kind: the answers are the same iff the
    policies agree on the list. *)
Theorem C135_same_meaning : forall E E' sch sch' e s q e' s' q' a t l a' t' l' pt out out', lawful E -> lawful E' ->
  written E e s q a t l -> written E' e' s' q' a' t' l' -> len pt < 2147483616 ->
  hears E sch q l pt out -> hears E' sch' q' l' pt out' ->
  (out = out' <-> authorised (e_mktime E) e a = authorised (e_mktime E') e' a').
Proof.
  intros E E' sch sch' e s q e' s' q' a t l a' t' l' pt out out' HE HE' W W' Hp H H'.
  rewrite (hears_says E sch e s q a t l pt out HE W Hp H), (hears_says E' sch' e' s' q' a' t' l' pt out' HE' W' Hp H'). apply handed_same.
Qed.
Print Assumptions C135_same_meaning.
(** So a policy may be rewritten by the laws of logic. *)
Definition logically_same (e e' : pexp) : Prop := forall day last held val, truth day last held val e = truth day last held val e'.
Theorem C135_logic : forall E sch e s q e' s' q' a t l pt out out', lawful E -> written E e s q a t l -> written E e' s' q' a t l -> len pt < 2147483616 ->
  logically_same e e' -> hears E sch q l pt out -> hears E sch q' l pt out' -> out = out'.
Proof. intros E sch e s q e' s' q' a t l pt out out' HE W W' Hp S H H'. apply (C135_same_meaning E E sch sch e s q e' s' q' a t l a t l pt out out' HE HE W W' Hp H H'). apply S. Qed.
Print Assumptions C135_logic.
(** The connectives. *)
Theorem C135_connectives : forall E sch e1 s1 q1 e2 s2 q2 e s q a t l pt o1 o2 out, lawful E ->
  written E e1 s1 q1 a t l -> written E e2 s2 q2 a t l -> written E e s q a t l -> len pt < 2147483616 ->
  hears E sch q1 l pt o1 -> hears E sch q2 l pt o2 -> hears E sch q l pt out ->
  (e = EAnd (EPar e1) (EPar e2) -> (out = Ok (0, pt) <-> o1 = Ok (0, pt) /\ o2 = Ok (0, pt))) /\
  (e = EOr (EPar e1) (EPar e2) -> (out = Ok (0, pt) <-> o1 = Ok (0, pt) \/ o2 = Ok (0, pt))) /\
  (out = Ok (0, pt) \/ out = Ok (32, [])).
Proof.
  intros E sch e1 s1 q1 e2 s2 q2 e s q a t l pt o1 o2 out HE W1 W2 W Hp H1 H2 H.
  rewrite (hears_says _ _ _ _ _ _ _ _ _ _ HE W1 Hp H1), (hears_says _ _ _ _ _ _ _ _ _ _ HE W2 Hp H2), (hears_says _ _ _ _ _ _ _ _ _ _ HE W Hp H).
  assert (forall b, handed b pt = Ok (0, pt) <-> b = true) as Y by (intros []; unfold handed; split; intro X; try reflexivity; discriminate).
  rewrite !Y. unfold authorised. split; [|split].
  - intros ->. cbn [truth]. apply andb_true_iff.
  - intros ->. cbn [truth]. apply orb_true_iff.
  - destruct (truth _ _ _ _ e); [left|right]; reflexivity.
Qed.
Print Assumptions C135_connectives.

(** * C136 *)
Lemma truth_more : forall day last held held' val val' e, (forall s, held s = true -> held' s = true) ->
  (forall c b x, In (c, b) (compared e) -> val c b = Some x -> val' c b = Some x) ->
  truth day last held val e = true -> truth day last held' val' e = true.
Proof.
  intros day last held held' val val' e Hh. assert (forall r c b v, (forall x, val c b = Some x -> val' c b = Some x) -> compares val r c b v = true -> compares val' r c b v = true) as K.
  { intros r c b v H. unfold compares. destruct (val c b) as [x|]; [|discriminate]. rewrite (H x eq_refl). auto. }
  induction e as [s|r s n|incl s lo hi|r s m d y|s m lo hi y|a IHa b IHb|a IHa b IHb|a IHa]; intros Hv H; cbn [truth compared] in *.
  - apply Hh. exact H.
  - apply K; [intros x; apply Hv; left; reflexivity|exact H].
  - apply andb_prop in H as [H1 H2]. apply andb_true_intro. split; apply K; auto; intros x; apply Hv; cbn; auto.
  - apply K; [intros x; apply Hv; left; reflexivity|exact H].
  - apply andb_prop in H as [H1 H2]. apply andb_true_intro. split; apply K; auto; intros x; apply Hv; cbn; auto.
  - apply andb_prop in H as [H1 H2]. apply andb_true_intro. split; [apply IHa|apply IHb]; auto; intros c b' x I0; apply Hv; apply in_or_app; auto.
  - apply orb_prop in H. apply orb_true_intro. destruct H as [H|H]; [left; apply IHa|right; apply IHb]; auto; intros c b' x I0; apply Hv; apply in_or_app; auto.
  - apply IHa; auto.
Qed.
(** Items at the end of a list do not change what came before. *)
Lemma first_mention_app : forall s l m, first_mention s (l ++ m) = match first_mention s l with Some b => Some b | None => first_mention s m end.
Proof. intros s l m. induction l as [|[x|x n|p mo d y] l IH]; cbn [app first_mention]; [reflexivity| | |exact IH]; destruct (str_eqb s x); auto. Qed.
Lemma values_app : forall day l m bef, values_from day bef (l ++ m) = values_from day bef l ++ values_from day (bef ++ l) m.
Proof. intros day l m. induction l as [|i l IH]; intro bef; cbn [app values_from]; [rewrite app_nil_r; reflexivity|]. rewrite IH, <- !app_assoc. reflexivity. Qed.
Lemma value_app : forall day l m c b x, value day l c b = Some x -> value day (l ++ m) c b = Some x.
Proof.
  intros day l m c b x. unfold value, values_of. rewrite values_app. set (f := fun _ => _). generalize (values_from day [] l). intros v H. induction v as [|y v IH]; [discriminate|]. cbn [app find] in *. destruct (f y); auto.
Qed.
(** Attributes added at the end of a list take nothing away. *)
Theorem C136_append_partial : forall E sch e s q a t l a' t' l' more pt out out', lawful E -> written E e s q a t l -> written E e s q a' t' l' -> len pt < 2147483616 ->
  aitems a' = aitems a ++ more -> hears E sch q l pt out -> hears E sch q l' pt out' -> out = Ok (0, pt) -> out' = Ok (0, pt).
Proof.
  intros E sch e s q a t l a' t' l' more pt out out' HE W W' Hp Ha H H'.
  rewrite (hears_says _ _ _ _ _ _ _ _ _ _ HE W Hp H), (hears_says _ _ _ _ _ _ _ _ _ _ HE W' Hp H'). unfold authorised. intro X.
  assert (truth (day (e_mktime E)) (last_day (e_mktime E)) (plain (aitems a)) (value (day (e_mktime E)) (aitems a)) e = true) as Y by (destruct (truth _ _ _ _ e); [reflexivity|discriminate X]).
  rewrite (truth_more (day (e_mktime E)) (last_day (e_mktime E)) (plain (aitems a)) (plain (aitems a')) (value (day (e_mktime E)) (aitems a)) (value (day (e_mktime E)) (aitems a')) e); [reflexivity| | |exact Y].
  - intros s0. unfold plain. rewrite Ha, first_mention_app. destruct (first_mention s0 (aitems a)) as [[]|]; auto; discriminate.
  - intros c b x _ Hx. rewrite Ha. apply value_app. exact Hx.
Qed.
Print Assumptions C136_append_partial.

(** Lists that use no name both with and without a number, and give no date twice. *)
Definition orderly (l : list item) : Prop :=
  (forall s n, In (IName s) l -> In (INum s n) l -> False) /\
  (forall p m d y m' d' y', In (IDate p m d y) l -> In (IDate p m' d' y') l -> m = m' /\ d = d' /\ y = y').
Lemma orderly_plain : forall l s, orderly l -> plain l s = true <-> In (IName s) l.
Proof.
  intros l s [O _]. unfold plain. assert (forall m, incl m l -> (match first_mention s m with Some true => true | _ => false end = true <-> In (IName s) m)) as K; [|apply K; apply incl_refl].
  induction m as [|[x|x n|p mo d y] m IH]; intro Hm; cbn [first_mention].
  - split; [discriminate|intros []].
  - destruct (str_eqb s x) eqn:Ex; [apply str_eqb_eq in Ex as ->; split; [intros _; left; reflexivity|reflexivity]|].
    rewrite IH by (intros z I0; apply Hm; right; exact I0). split; [right; assumption|]. intros [X|X]; [injection X as ->; rewrite str_eqb_refl in Ex; discriminate|exact X].
  - destruct (str_eqb s x) eqn:Ex; [apply str_eqb_eq in Ex as ->; split; [discriminate|]|].
    + intro X. exfalso. apply (O x n); apply Hm; [exact X|left; reflexivity].
    + rewrite IH by (intros z I0; apply Hm; right; exact I0). split; [right; assumption|]. intros [X|X]; [discriminate|exact X].
  - rewrite IH by (intros z I0; apply Hm; right; exact I0). split; [right; assumption|]. intros [X|X]; [discriminate|exact X].
Qed.
Definition item_value (day : str -> Z -> Z -> Z) (i : item) : option (str * Z * Z) :=
  match i with IName _ => None | INum s n => Some (s, num_width n, num_val n) | IDate p m d y => Some (p ++ [colon] ++ L "time", 32, day m (num_val d) (num_val y)) end.
Lemma first_named : forall s k, first_mention s k = Some true -> In (IName s) k.
Proof.
  intro s. induction k as [|[x|x n|p mo d y] k IH]; cbn [first_mention]; intro H; [discriminate| | |right; auto].
  - destruct (str_eqb s x) eqn:Ex; [apply str_eqb_eq in Ex as ->; left; reflexivity|right; auto].
  - destruct (str_eqb s x) eqn:Ex; [discriminate|right; auto].
Qed.
Lemma orderly_lands : forall day bef i m v, orderly (bef ++ i :: m) -> item_value day i = Some v -> In v (item_values day bef i) \/ exists j, In j bef /\ item_value day j = Some v.
Proof.
  intros day bef i m v [O1 O2] Ei. assert (In i (bef ++ i :: m)) as Ii by (apply in_or_app; right; left; reflexivity).
  destruct i as [s|s n|p mo d y]; cbn [item_values item_value] in *; [discriminate| |].
  - left. destruct (first_mention s bef) as [[]|] eqn:Ef; [|left; congruence|left; congruence].
    exfalso. apply (O1 s n); [|exact Ii]. apply in_or_app. left. apply first_named. exact Ef.
  - destruct (dated_in p bef) eqn:Ed; [|left; left; congruence]. right. unfold dated_in in Ed. apply existsb_exists in Ed as ([s|s n|p' m' d' y'] & I0 & Ed); try discriminate.
    apply str_eqb_eq in Ed. subst p'. exists (IDate p m' d' y'). split; [exact I0|]. destruct (O2 p mo d y m' d' y' Ii) as (-> & -> & ->); [apply in_or_app; left; exact I0|exact Ei].
Qed.
Lemma orderly_values : forall day l v, orderly l -> In v (values_of day l) <-> exists i, In i l /\ item_value day i = Some v.
Proof.
  intros day l v O. unfold values_of. assert (forall m bef, bef ++ m = l -> (In v (values_from day bef m) -> exists i, In i m /\ item_value day i = Some v) /\
    ((exists i, In i m /\ item_value day i = Some v) -> In v (values_from day bef m) \/ exists i, In i bef /\ item_value day i = Some v)) as K.
  { induction m as [|i m IH]; intros bef Hb; [split; [intros []|intros (i & [] & _)]|].
    destruct (IH (bef ++ [i])) as [K1 K2]; [rewrite <- app_assoc; exact Hb|]. cbn [values_from].
    assert (item_value day i = Some v -> In v (item_values day bef i ++ values_from day (bef ++ [i]) m) \/ exists j, In j bef /\ item_value day j = Some v) as K0.
    { intro Ei. rewrite <- Hb in O. destruct (orderly_lands day bef i m v O Ei) as [X|X]; [left; apply in_or_app; left; exact X|right; exact X]. }
    split.
    - intro X. apply in_app_or in X as [X|X]; [|destruct (K1 X) as (j & J1 & J2); exists j; split; [right; exact J1|exact J2]].
      exists i. split; [left; reflexivity|]. destruct i as [s|s n|p mo d y]; cbn [item_values item_value] in *; [destruct X| |].
      + destruct (first_mention s bef) as [[]|]; [destruct X| |]; destruct X as [X|[]]; congruence.
      + destruct (dated_in p bef); [destruct X|]. destruct X as [X|[]]. rewrite <- X. reflexivity.
    - intros (j & [J|J] & Ej); [subst j; apply K0; exact Ej|].
      destruct K2 as [X|(k & I0 & Ek)]; [eauto|left; apply in_or_app; right; exact X|]. apply in_app_or in I0 as [I0|[I0|[]]]; [right; eauto|]. subst k. apply K0. exact Ek. }
  destruct (K l [] eq_refl) as [K1 K2]. split; [exact K1|]. intro X. destruct (K2 X) as [Y|(i & [] & _)]. exact Y.
Qed.
Lemma value_in : forall day l c b x, value day l c b = Some x -> In (c, b, x) (values_of day l).
Proof.
  intros day l c b x. unfold value. destruct (find _ _) as [[[c' b'] y]|] eqn:Ef; [|discriminate]. intro H. injection H as ->. apply find_some in Ef as [I0 Ef].
  apply andb_prop in Ef as [Ec Eb]. apply str_eqb_eq in Ec. apply Z.eqb_eq in Eb. subst. exact I0.
Qed.
Lemma in_value : forall day l c b x, single_valued day l c b -> In (c, b, x) (values_of day l) -> value day l c b = Some x.
Proof.
  intros day l c b x S0 I0. destruct (value day l c b) as [y|] eqn:Ev; [f_equal; apply S0; [apply value_in; exact Ev|exact I0]|].
  exfalso. unfold value in Ev. destruct (find _ _) as [[[c' b'] y]|] eqn:Ef; [discriminate|]. eapply find_none in Ef; [|exact I0]. cbn in Ef. rewrite str_eqb_refl, Z.eqb_refl in Ef. discriminate.
Qed.
Lemma orderly_less : forall l l', incl l l' -> orderly l' -> orderly l.
Proof. intros l l' H [O1 O2]. split; [intros s n A B; apply (O1 s n); auto|intros p m d y m' d' y' A B; apply (O2 p); auto]. Qed.
(** In orderly lists it only matters which items there are: more of them take
    nothing away, and neither order nor repetition plays a part. *)
Theorem C136_orderly_partial : forall E sch e s q a t l a' t' l' pt out out', lawful E -> written E e s q a t l -> written E e s q a' t' l' -> len pt < 2147483616 ->
  orderly (aitems a') -> incl (aitems a) (aitems a') -> hears E sch q l pt out -> hears E sch q l' pt out' ->
  (out = Ok (0, pt) -> out' = Ok (0, pt)) /\ (incl (aitems a') (aitems a) -> out' = out).
Proof.
  intros E sch e s q a t l a' t' l' pt out out' HE W W' Hp O Hi H H'.
  rewrite (hears_says _ _ _ _ _ _ _ _ _ _ HE W Hp H), (hears_says _ _ _ _ _ _ _ _ _ _ HE W' Hp H'). unfold authorised. set (day := day (e_mktime E)). set (last := last_day (e_mktime E)).
  assert (forall b b', orderly (aitems b') -> incl (aitems b) (aitems b') -> (forall c w, In (c, w) (compared e) -> single_valued day (aitems b') c w) ->
    truth day last (plain (aitems b)) (value day (aitems b)) e = true -> truth day last (plain (aitems b')) (value day (aitems b')) e = true) as K.
  { intros b b' Ob Hb Sv. apply truth_more.
    - intros s0 Hs. apply orderly_plain; [exact Ob|]. apply Hb. apply (orderly_plain (aitems b)); [eapply orderly_less; eauto|exact Hs].
    - intros c w x Ic Hx. apply in_value; [apply Sv; exact Ic|]. apply value_in in Hx. apply orderly_values in Hx as (i & I0 & Ei); [|eapply orderly_less; eauto].
      apply orderly_values; [exact Ob|]. exists i. split; [apply Hb; exact I0|exact Ei]. }
  pose proof (K a a' O Hi (tx_single _ _ _ _ _ (wr_texts _ _ _ _ _ _ _ W'))) as K1. split.
  - intro X. rewrite K1; [reflexivity|]. destruct (truth _ _ _ _ e); [reflexivity|discriminate X].
  - intro Hi'. pose proof (K a' a (orderly_less _ _ Hi O) Hi' (tx_single _ _ _ _ _ (wr_texts _ _ _ _ _ _ _ W))) as K2.
    apply handed_same. apply eq_iff_eq_true. split; [exact K2|exact K1].
Qed.
Print Assumptions C136_orderly_partial.

(** Not in general.  A name counts as it is mentioned first: "a=1#4|a" does not hold
    the attribute a, which the list "a" holds. *)
Definition ki_of (sch : scheme) (q : policy) (l : attrlist) : input := match sch with CP => InAttrs l | KP => InPolicy q end.
Definition ei_of (sch : scheme) (q : policy) (l : attrlist) : input := match sch with CP => InPolicy q | KP => InAttrs l end.
Lemma hears_toy : forall sch q l pt out, played toy_engine sch (ki_of sch q l) = true ->
  snd (decrypt toy_engine sch [] (L "alice") (start toy_engine (left_by toy_engine (w_gone toy_engine sch (ki_of sch q l) (ei_of sch q l) pt)) (w_ct toy_engine (w_enc toy_engine sch (ki_of sch q l) (ei_of sch q l) pt)))) = out ->
  hears toy_engine sch q l pt out.
Proof. intros sch q l pt out Hp <-. unfold hears. destruct sch; do 2 eexists; apply play; exact Hp. Qed.
Lemma written_toy : forall e s a t, texts mk e s a t -> (exists q, create_policy_tree mk s = Ok (Some q)) -> (exists l, create_attribute_list mk t = Ok (Some l)) ->
  no_collision (short_label toy_engine) (aattrs (parsed_list t)) -> no_collision (short_label toy_engine) (row_names (parsed_policy s)) ->
  written toy_engine e s (parsed_policy s) a t (parsed_list t).
Proof.
  intros e s a t T (q & Hq) (l & Hl) N1 N2. split; [exact T| | |exact N1|exact N2].
  - unfold parsed_policy. change (e_mktime toy_engine) with mk. rewrite Hq. reflexivity.
  - unfold parsed_list. change (e_mktime toy_engine) with mk. rewrite Hl. reflexivity.
Qed.
Ltac toy_texts := apply written_toy; [split; try (vm_compute; reflexivity);
    [apply by_lex; [apply good_ptoks|vm_compute; reflexivity]|apply by_lex; [apply good_atoks|vm_compute; reflexivity]|
     intros c0 b0 _ x0 y0; vm_compute; intuition congruence]|eexists; vm_compute; reflexivity|eexists; vm_compute; reflexivity|no_names|no_names].
Definition one : num := Num 1 (Some 4).
Theorem C136_more_refuted : forall sch, exists e s q a t l a' t' l' pt,
  written toy_engine e s q a t l /\ written toy_engine e s q a' t' l' /\ incl (aitems a) (aitems a') /\
  hears toy_engine sch q l pt (Ok (0, pt)) /\ hears toy_engine sch q l' pt (Ok (32, [])).
Proof.
  intro sch. exists (EAttr (L "a")), (L "a"), (parsed_policy (L "a")), (AOne 0 (IName (L "a")) 0), (L "a"), (parsed_list (L "a")),
    (AMore 0 (INum (L "a") one) (AOne 0 (IName (L "a")) 0)), (L "a=1#4|a"), (parsed_list (L "a=1#4|a")), (L "hello").
  split; [toy_texts|]. split; [toy_texts|]. split; [intros i [<-|[]]; right; left; reflexivity|].
  split; (apply hears_toy; destruct sch; vm_compute; reflexivity).
Qed.
Print Assumptions C136_more_refuted.
(** Nor may a list be reordered. *)
Theorem C136_order_refuted : forall sch, exists e s q a t l a' t' l' pt,
  written toy_engine e s q a t l /\ written toy_engine e s q a' t' l' /\ Permutation (aitems a) (aitems a') /\
  hears toy_engine sch q l pt (Ok (0, pt)) /\ hears toy_engine sch q l' pt (Ok (32, [])).
Proof.
  intro sch. exists (EAttr (L "a")), (L "a"), (parsed_policy (L "a")), (AMore 0 (IName (L "a")) (AOne 0 (INum (L "a") one) 0)), (L "a|a=1#4"), (parsed_list (L "a|a=1#4")),
    (AMore 0 (INum (L "a") one) (AOne 0 (IName (L "a")) 0)), (L "a=1#4|a"), (parsed_list (L "a=1#4|a")), (L "hello").
  split; [toy_texts|]. split; [toy_texts|]. split; [apply perm_swap|].
  split; (apply hears_toy; destruct sch; vm_compute; reflexivity).
Qed.
Print Assumptions C136_order_refuted.

(** Distributivity and commutativity, on the toy groups: the hypotheses of C135 hold
    and the answers come out as they should. *)
Definition e_left : pexp := EAnd (EAttr (L "a")) (EPar (EOr (EAttr (L "b")) (EAttr (L "c")))).
Definition e_right : pexp := EOr (EAnd (EAttr (L "c")) (EAttr (L "a"))) (EAnd (EAttr (L "b")) (EAttr (L "a"))).
Definition s_left := L "a and (b or c)".
Definition s_right := L "c and a or b and a".
Definition a_toy : alist := AMore 0 (IName (L "a")) (AMore 0 (INum (L "age") one) (AOne 0 (IName (L "c")) 0)).
Definition t_toy := L "a|age=1#4|c".
Example C135_nonvacuous : forall sch,
  logically_same e_left e_right /\
  written toy_engine e_left s_left (parsed_policy s_left) a_toy t_toy (parsed_list t_toy) /\
  written toy_engine e_right s_right (parsed_policy s_right) a_toy t_toy (parsed_list t_toy) /\
  hears toy_engine sch (parsed_policy s_left) (parsed_list t_toy) (L "hello") (Ok (0, L "hello")) /\
  hears toy_engine sch (parsed_policy s_right) (parsed_list t_toy) (L "hello") (Ok (0, L "hello")).
Proof.
  intro sch. split. { intros day last held val. unfold e_left, e_right. cbn [truth]. destruct (held (L "a")), (held (L "b")), (held (L "c")); reflexivity. }
  split; [toy_texts|]. split; [toy_texts|]. split; (apply hears_toy; destruct sch; vm_compute; reflexivity).
Qed.
Definition s_and := L "(a) and (c)".
Definition s_or := L "(a) or (c)".
Example C135_connectives_nonvacuous : forall sch,
  written toy_engine (EAttr (L "a")) (L "a") (parsed_policy (L "a")) a_toy t_toy (parsed_list t_toy) /\
  written toy_engine (EAttr (L "c")) (L "c") (parsed_policy (L "c")) a_toy t_toy (parsed_list t_toy) /\
  written toy_engine (EAnd (EPar (EAttr (L "a"))) (EPar (EAttr (L "c")))) s_and (parsed_policy s_and) a_toy t_toy (parsed_list t_toy) /\
  written toy_engine (EOr (EPar (EAttr (L "a"))) (EPar (EAttr (L "c")))) s_or (parsed_policy s_or) a_toy t_toy (parsed_list t_toy) /\
  forall s, In s [L "a"; L "c"; s_and; s_or] -> hears toy_engine sch (parsed_policy s) (parsed_list t_toy) (L "hello") (Ok (0, L "hello")).
Proof.
  intro sch. split; [toy_texts|]. split; [toy_texts|]. split; [toy_texts|]. split; [toy_texts|].
  intros s Hs. destruct Hs as [<-|[<-|[<-|[<-|[]]]]]; (apply hears_toy; destruct sch; vm_compute; reflexivity).
Qed.
(** Lists as the partial theorems want them. *)
Definition a_more : alist := AMore 0 (INum (L "age") one) (AMore 0 (IName (L "c")) (AMore 0 (IName (L "d")) (AOne 0 (IName (L "a")) 0))).
Definition a_longer : alist := AMore 0 (IName (L "a")) (AMore 0 (INum (L "age") one) (AMore 0 (IName (L "c")) (AOne 0 (IName (L "age")) 0))).
Example C136_nonvacuous : forall sch,
  written toy_engine e_left s_left (parsed_policy s_left) a_more (L "age=1#4|c|d|a") (parsed_list (L "age=1#4|c|d|a")) /\
  orderly (aitems a_more) /\ incl (aitems a_toy) (aitems a_more) /\
  hears toy_engine sch (parsed_policy s_left) (parsed_list (L "age=1#4|c|d|a")) (L "hello") (Ok (0, L "hello")) /\
  written toy_engine e_left s_left (parsed_policy s_left) a_longer (L "a|age=1#4|c|age") (parsed_list (L "a|age=1#4|c|age")) /\
  aitems a_longer = aitems a_toy ++ [IName (L "age")] /\
  hears toy_engine sch (parsed_policy s_left) (parsed_list (L "a|age=1#4|c|age")) (L "hello") (Ok (0, L "hello")).
Proof.
  intro sch. split; [toy_texts|].
  split. { split; [intros s n A B|intros p m d y m' d' y' A B]; vm_compute in A, B; intuition congruence. }
  split. { intros i [<-|[<-|[<-|[]]]]; vm_compute; auto. }
  split; [apply hears_toy; destruct sch; vm_compute; reflexivity|]. split; [toy_texts|]. split; [reflexivity|].
  apply hears_toy; destruct sch; vm_compute; reflexivity.
Qed.
