(** What policy and attribute list texts mean together. *)
From Verif Require Import Base ByteString StrMap Dec UInteger Policy Lsss LsssSpec LsssUse Scanner Grammar PolicySyntax Lexical PolicyMeaning AttrMeaning Driver Parser ParserSound ParserRun ParserTop ScannerProofs NumProofs NumTree PolicyTruth ParserSafe CreatePolicy CreateAttrs ParserFinal AttrUse PolicyUse PrintParse ListText.
From Coq Require Import ZArith List Ascii Bool Lia ZifyBool ZifyNat.
Import ListNotations.
Open Scope Z_scope.

(** ** The end of a text *)
Lemma class_facts : forall c, (name_char c = true \/ is_digit c = true \/ blank c = true \/ mem c (L "#()-{},|<>=") = true) -> stops c = false.
Proof.
  intros c H. pose proof (by_bytes (fun c => implb (name_char c || is_digit c || blank c || mem c (L "#()-{},|<>=")) (negb (stops c))) ltac:(vm_compute; reflexivity) c) as K.
  cbv beta in K. destruct (stops c); auto. rewrite implb_false_r in K. destruct H as [H|[H|[H|H]]]; rewrite H in K; rewrite ?orb_true_r in K; cbn in K; discriminate.
Qed.
Lemma start_is_char : forall c, name_start c = true -> name_char c = true.
Proof. intros c H. unfold name_char. rewrite H. reflexivity. Qed.
Lemma spells_plain : forall t w rest, spells t w rest -> plain_text w.
Proof.
  intros t w rest H. destruct H as [s rest H _|w rest H _|w rest H _|w rest H _|n w rest _ H _ _ _|rest|rest|rest|c rest H _|c rest H].
  - unfold is_name in H. apply andb_prop in H as [H _]. apply andb_prop in H as [H _]. destruct s as [|x s]; [discriminate|]. cbn in H. apply andb_prop in H as [H1 H2].
    intros c [<-|I]; apply class_facts; left; [apply start_is_char; auto|]. rewrite forallb_forall in H2. auto.
  - intros c I. apply class_facts. destruct H as [-> | ->]; cbn in I; intuition (subst; auto).
  - intros c I. apply class_facts. destruct H as [-> | ->]; cbn in I; intuition (subst; auto).
  - intros c I. apply class_facts. destruct H as [-> | ->]; cbn in I; intuition (subst; auto).
  - intros c I. apply class_facts. rewrite forallb_forall in H. auto.
  - intros c I. apply class_facts. cbn in I; intuition (subst; auto).
  - intros c I. apply class_facts. cbn in I; intuition (subst; auto).
  - intros c I. apply class_facts. cbn in I; intuition (subst; auto).
  - intros x [<-|[]]. apply class_facts. right. right. right. unfold mem in *. cbn in *. lia.
  - intros x [<-|[]]. apply class_facts. right. right. right. unfold mem in *. cbn in *. lia.
Qed.
Lemma blanks_plain : forall b, blanks b -> plain_text b.
Proof. intros b H c I. apply class_facts. unfold blanks in H. rewrite forallb_forall in H. auto. Qed.
Lemma app_stop : forall (a b : str) c x y, plain_text a -> plain_text b -> stops c = true -> a ++ x = b ++ c :: y -> exists b', b = a ++ b' /\ x = b' ++ c :: y.
Proof.
  induction a as [|h a IH]; intros b c x y Pa Pb St E; [exists b; auto|]. destruct b as [|h' b].
  - cbn in E. injection E as -> _. rewrite Pa in St; [discriminate|left; reflexivity].
  - cbn in E. injection E as <- E. destruct (IH b c x y) as (b' & -> & E'); auto.
    + intros z I. apply Pa. right. auto.
    + intros z I. apply Pb. right. auto.
    + exists b'. auto.
Qed.
Lemma next_cut : forall f b c y y', next_is f (b ++ c :: y) = false -> next_is f b = false /\ next_is f (b ++ c :: y') = false.
Proof. intros f [|h b] c y y' H; cbn in *; auto. Qed.
Lemma spells_cut : forall t w b c y y', spells t w (b ++ c :: y) -> spells t w b /\ spells t w (b ++ c :: y').
Proof.
  intros t w b c y y' H. remember (b ++ c :: y) as r. assert (forall f, next_is f r = false -> next_is f b = false /\ next_is f (b ++ c :: y') = false) as K by (intros; subst; eapply next_cut; eauto).
  clear Heqr. destruct H; try (match goal with H : next_is _ _ = false |- _ => apply K in H as [? ?] end; split; econstructor; eauto; fail); try (split; constructor; auto; fail).
Qed.
Lemma plain_app : forall a b, plain_text (a ++ b) -> plain_text a /\ plain_text b.
Proof. intros a b H. split; intros c I; apply H, in_or_app; auto. Qed.
(** What follows the first such byte is not read. *)
Lemma pre_cut : forall ts s x, text_pre ts s x -> forall b c y, plain_text b -> stops c = true -> s = b ++ c :: y ->
  exists b', x = b' ++ c :: y /\ plain_text b' /\ text_pre ts b b' /\ (forall y', text_pre ts (b ++ c :: y') (b' ++ c :: y')).
Proof.
  intros ts s x H. induction H as [s|bl t w ts s s' B Sp H IH]; intros b c y P St E.
  - exists b. repeat split; auto; constructor.
  - rewrite app_assoc in E. destruct (app_stop (bl ++ w) b c s y) as (b1 & -> & ->); auto.
    { intros z I. apply in_app_or in I as [I|I]; [eapply blanks_plain|eapply spells_plain]; eauto. }
    destruct (IH b1 c y (proj2 (plain_app _ _ P)) St eq_refl) as (b' & -> & P' & T1 & T2). exists b'. split; auto. split; auto. split.
    + rewrite <- app_assoc. constructor; auto. apply (spells_cut _ _ _ _ _ y Sp).
    + intro y'. rewrite <- !app_assoc. constructor; auto. apply (spells_cut _ _ _ _ _ y' Sp).
Qed.
Lemma reads_cut : forall e s c y, plain_text s -> stops c = true -> reads e (s ++ c :: y) -> text_of (ptoks e) s.
Proof.
  intros e s c y P St (x & T & En). destruct (pre_cut _ _ _ T s c y P St eq_refl) as (b' & -> & P' & T1 & _). exists b'. split; auto.
  destruct En as [B|(b & c' & r & E & B & St')].
  - exfalso. rewrite (blanks_plain _ B c) in St; [discriminate|]. apply in_or_app. right. left. reflexivity.
  -
    destruct (app_stop b b' c (c' :: r) y) as (b2 & -> & E2); auto using blanks_plain. destruct b2 as [|h b2]; [rewrite app_nil_r; exact B|].
    cbn in E2. injection E2 as -> _. rewrite P' in St'; [discriminate|]. apply in_or_app. right. left. reflexivity.
Qed.
Lemma text_cut : forall e s c y, stops c = true -> text_of (ptoks e) s -> reads e (s ++ c :: y).
Proof.
  intros e s c y St (b & B & T). exists (b ++ c :: y). split; [|right; exists b, c, y; auto]. apply text_pre_ext; auto.
  unfold quiet. cbn [next_is]. destruct (stop_class c St) as (? & ? & ? & ? & ? & ?). pose proof (by_bytes (fun c => implb (stops c) (negb (is_eq c))) ltac:(vm_compute; reflexivity) c) as K. cbv beta in K. rewrite St in K. cbn in K.
  repeat split; auto. destruct (is_eq c); auto.
Qed.

Section Use.
Variable mktime : tm -> Z * tm.
Notation day := (day mktime).
Notation last_day := (last_day mktime).
(** The same sentence gives the same tree, whatever the text. *)
Lemma same_sentence : forall e s s' q r, well e = true -> reads e s -> reads e s' -> create_policy_tree mktime s = Ok (Some q) -> proot q = Some r ->
  exists q' r', create_policy_tree mktime s' = Ok (Some q') /\ proot q' = Some r' /\ formula_of r' = formula_of r.
Proof.
  intros e s s' q r W R R' E Hr. pose proof E as E0. apply accepted_reads in E as (e1 & r1 & R1 & W1 & N & D & _).
  assert (e1 = e) as -> by (eapply reads_unique; eauto). 
  destruct (reads_accepted mktime s e R W N D) as (q0 & r0 & E1 & Hr0 & _ & _ & _ & _ & (d & _ & _ & Ev)).
  rewrite E0 in E1. injection E1 as <-. rewrite Hr in Hr0. injection Hr0 as <-.
  destruct (reads_accepted mktime s' e R' W N D) as (q' & r' & E' & Hr' & _ & _ & _ & _ & (d' & _ & _ & Ev')).
  exists q', r'. split; auto. split; auto. destruct R as (x & P & _). eapply (ev_formula mktime e); eauto. eapply text_pre_good; eauto.
Qed.
Lemma ignored_rest : forall s c y q r, plain_text s -> stops c = true ->
  create_policy_tree mktime (s ++ c :: y) = Ok (Some q) -> proot q = Some r ->
  exists q' r', create_policy_tree mktime s = Ok (Some q') /\ proot q' = Some r' /\ formula_of r' = formula_of r.
Proof.
  intros s c y q r P St E Hr. pose proof E as E0. apply accepted_reads in E0 as (e & _ & R & W & _).
  eapply same_sentence; eauto. apply text_reads. eapply reads_cut; eauto.
Qed.
Lemma ignored_rest_conv : forall s c y q r, plain_text s -> stops c = true ->
  create_policy_tree mktime s = Ok (Some q) -> proot q = Some r ->
  exists q' r', create_policy_tree mktime (s ++ c :: y) = Ok (Some q') /\ proot q' = Some r' /\ formula_of r' = formula_of r.
Proof.
  intros s c y q r P St E Hr. pose proof E as E0. apply accepted_reads in E0 as (e & _ & R & W & _).
  eapply same_sentence; eauto. apply text_cut; auto using plain_reads.
Qed.
(** A sentence asked of a list. *)
Lemma ask : forall e s a t, reads e s -> well e = true -> nums_ok e = true -> dates_ok day last_day e = true -> tidy_names e = true ->
  attr_text a t -> (atrail a <= 1)%nat -> items_ok (aitems a) = true ->
  (forall c b, In (c, b) (compared e) -> single_valued day (aitems a) c b) ->
  exists q r l, create_policy_tree mktime s = Ok (Some q) /\ proot q = Some r /\ create_attribute_list mktime t = Ok (Some l) /\
    sat (match_attribute (aattrs l)) r = truth day last_day (plain (aitems a)) (value day (aitems a)) e.
Proof.
  intros e s a t R W N D Ty At Tr Ik Sv. destruct (reads_accepted mktime s e R W N D) as (q & r & E & Hr & _).
  destruct (attrs_made mktime t a At Tr Ik) as (l & El & _). exists q, r, l. split; auto. split; auto. split; auto.
  destruct (texts_truth mktime s q t l E El) as (e' & a' & r' & R' & W' & At' & Hr' & T). rewrite Hr in Hr'. injection Hr' as <-.
  assert (e' = e) as -> by (eapply reads_unique; eauto). destruct (attr_text_unique _ _ _ At' At) as [Ei _]. rewrite Ei in T. auto.
Qed.
End Use.
