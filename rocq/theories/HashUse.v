(** Hashed policies ask of hashed attribute lists what the originals ask. *)
From Verif Require LsssProofs.
From Verif Require Import Base ByteString StrMap Dec UInteger Policy Lsss LsssSpec LsssUse Scanner Grammar PolicySyntax Lexical PolicyMeaning AttrMeaning Driver Parser ParserSound ParserRun ParserTop ScannerProofs NumProofs NumTree PolicyTruth ParserSafe CreatePolicy CreateAttrs ParserFinal AttrUse PolicyUse PrintParse ListText TextUse Base64 Base64Proofs HashAttrs HashProofs.
From Coq Require Import ZArith List Ascii Bool Lia ZifyBool ZifyNat Permutation.
Import ListNotations.
Open Scope Z_scope.

(** ** Specification: which names are hashed *)
Fixpoint plain_names (e : pexp) : list str :=
  match e with EAttr s => [s] | EAnd a b | EOr a b => plain_names a ++ plain_names b | EPar a => plain_names a | _ => [] end.
Fixpoint other_names (e : pexp) : list str :=
  match e with
  | EAttr _ => []
  | ECmp _ s _ | ERange _ s _ _ => [s]
  | EDate _ s m _ _ | EDateRange s m _ _ _ => [s; m]
  | EAnd a b | EOr a b => other_names a ++ other_names b
  | EPar a => other_names a
  end.
Definition item_plain (i : item) : list str := match i with IName s => [s] | _ => [] end.
Definition item_other (i : item) : list str := match i with IName _ => [] | INum s _ => [s] | IDate s m _ _ => [s; m] end.
Definition plain_items (l : list item) : list str := flat_map item_plain l.
Definition other_items (l : list item) : list str := flat_map item_other l.
Section Map.
Variable f : str -> str.
Fixpoint hmap (e : pexp) : pexp :=
  match e with EAttr s => EAttr (f s) | EAnd a b => EAnd (hmap a) (hmap b) | EOr a b => EOr (hmap a) (hmap b) | EPar a => EPar (hmap a) | _ => e end.
Definition imap (i : item) : item := match i with IName s => IName (f s) | _ => i end.
Fixpoint amap (a : alist) : alist := match a with AOne n i k => AOne n (imap i) k | AMore n i r => AMore n (imap i) (amap r) end.
Lemma aitems_amap : forall a, aitems (amap a) = map imap (aitems a).
Proof. induction a as [n i k|n i r IH]; cbn; [reflexivity|]. rewrite IH. reflexivity. Qed.
Lemma atrail_amap : forall a, atrail (amap a) = atrail a.
Proof. induction a; cbn; auto. Qed.
Lemma well_hmap : forall e, well (hmap e) = well e /\ is_or (hmap e) = is_or e /\ is_and (hmap e) = is_and e.
Proof.
  induction e as [| | | | |a [Wa [Oa Aa]] b [Wb [Ob Ab]]|a [Wa [Oa Aa]] b [Wb [Ob Ab]]|a [Wa _]]; cbn; auto; rewrite ?Wa, ?Wb, ?Oa, ?Ob, ?Ab; auto.
Qed.
Lemma nums_hmap : forall e, nums_ok (hmap e) = nums_ok e.
Proof. induction e as [| | | | |a IHa b IHb|a IHa b IHb|a IHa]; cbn; auto; rewrite IHa, IHb; auto. Qed.
Lemma dates_hmap : forall day last_day e, dates_ok day last_day (hmap e) = dates_ok day last_day e.
Proof. induction e as [| | | | |a IHa b IHb|a IHa b IHb|a IHa]; cbn; auto; rewrite IHa, IHb; auto. Qed.
Lemma compared_hmap : forall e, compared (hmap e) = compared e.
Proof. induction e as [| | | | |a IHa b IHb|a IHa b IHb|a IHa]; cbn; auto; rewrite IHa, IHb; auto. Qed.
Lemma items_imap : forall l, items_ok (map imap l) = items_ok l.
Proof. intro l. unfold items_ok. induction l as [|[s|s n|s m d y] l IH]; cbn; rewrite ?IH; auto. Qed.
Lemma tmap_ntoks : forall g n, map (tmap g) (ntoks n) = ntoks n.
Proof. intros g [v [w|]]; reflexivity. Qed.
Lemma ptoks_hmap : forall g e, (forall w, In w (plain_names e) -> g w = f w) -> (forall w, In w (other_names e) -> g w = w) -> map (tmap g) (ptoks e) = ptoks (hmap e).
Proof.
  intros g. induction e as [s|r s n|i s lo hi|r s m d y|s m lo hi y|a IHa b IHb|a IHa b IHb|a IHa]; intros Hp Ho; cbn [ptoks hmap map plain_names other_names] in *.
  - rewrite tmap_leaf, Hp by (left; reflexivity). reflexivity.
  - rewrite tmap_leaf, Ho, tmap_ntoks by (left; reflexivity). destruct r; reflexivity.
  - rewrite !map_app. cbn [map]. rewrite !map_app. cbn [map]. rewrite tmap_leaf, Ho, !tmap_ntoks by (left; reflexivity). destruct i; reflexivity.
  - rewrite !map_app. cbn [map]. rewrite !tmap_leaf, !Ho, !tmap_ntoks by (cbn; auto). destruct r; reflexivity.
  - rewrite !map_app. cbn [map]. rewrite !map_app. cbn [map]. rewrite !tmap_leaf, !Ho, !tmap_ntoks by (cbn; auto). reflexivity.
  - rewrite map_app. cbn [map]. rewrite IHa, IHb, tmap_tk; auto; intros; (apply Hp || apply Ho); apply in_or_app; auto.
  - rewrite map_app. cbn [map]. rewrite IHa, IHb, tmap_tk; auto; intros; (apply Hp || apply Ho); apply in_or_app; auto.
  - rewrite map_app. cbn [map]. rewrite IHa, !tmap_tk; auto.
Qed.
Lemma itoks_imap : forall g i, (forall w, In w (item_plain i) -> g w = f w) -> (forall w, In w (item_other i) -> g w = w) -> map (tmap g) (itoks i) = itoks (imap i).
Proof.
  intros g [s|s n|s m d y] Hp Ho; cbn [itoks imap map item_plain item_other] in *.
  - rewrite tmap_leaf, Hp by (left; reflexivity). reflexivity.
  - rewrite tmap_leaf, Ho, tmap_ntoks by (left; reflexivity). reflexivity.
  - rewrite !map_app. cbn [map]. rewrite !tmap_leaf, !Ho, !tmap_ntoks by (cbn; auto). reflexivity.
Qed.
Lemma tmap_bars : forall g n, map (tmap g) (bars n) = bars n.
Proof. intros g n. unfold bars. induction n; cbn; [reflexivity|]. rewrite IHn. reflexivity. Qed.
Lemma atoks_amap : forall g a, (forall w, In w (plain_items (aitems a)) -> g w = f w) -> (forall w, In w (other_items (aitems a)) -> g w = w) -> map (tmap g) (atoks a) = atoks (amap a).
Proof.
  intros g. induction a as [n i k|n i r IH]; intros Hp Ho; cbn [atoks amap aitems] in *; unfold plain_items, other_items in *; cbn [flat_map] in *.
  - rewrite !map_app, !tmap_bars, itoks_imap; auto; intros; (apply Hp || apply Ho); apply in_or_app; auto.
  - rewrite !map_app. cbn [map]. rewrite tmap_bars, tmap_tk, IH, itoks_imap; auto; intros; (apply Hp || apply Ho); apply in_or_app; auto.
Qed.
End Map.

(** ** Tokens and names *)
Lemma text_names : forall ts s x, text_pre ts s x -> forall w, In (leaf_tok w) ts -> is_name w = true.
Proof.
  intros ts s x H. induction H as [s|b t w ts s s' B Sp H IH]; intros v I; [destruct I|]. destruct I as [->|I]; auto. remember (leaf_tok v) as t. destruct Sp; try (injection Heqt as E; try subst; auto; discriminate); try discriminate.
Qed.
Lemma leaf_ntoks : forall w n, ~ In (leaf_tok w) (ntoks n).
Proof. intros w [v [k|]] I; cbn in I; repeat (destruct I as [I|I]; [discriminate|]); destruct I. Qed.
Ltac no_leaf := repeat match goal with
  | H : In (leaf_tok _) (_ ++ _) |- _ => apply in_app_or in H as [H|H]
  | H : In (leaf_tok _) (_ :: _) |- _ => destruct H as [H|H]
  | H : In (leaf_tok _) (ntoks _) |- _ => exfalso; exact (leaf_ntoks _ _ H)
  | H : In _ [] |- _ => destruct H
  | H : leaf_tok _ = leaf_tok _ |- _ => injection H as ->
  | H : tk _ = leaf_tok _ |- _ => discriminate H
  end.
Lemma ptoks_names : forall e w, In (leaf_tok w) (ptoks e) <-> In w (plain_names e) \/ In w (other_names e).
Proof.
  induction e as [s|r s n|i s lo hi|r s m d y|s m lo hi y|a IHa b IHb|a IHa b IHb|a IHa]; intro w; cbn [ptoks plain_names other_names]; split; intro I.
  - no_leaf. left. left. reflexivity.
  - destruct I as [[<-|[]]|[]]. left. reflexivity.
  - no_leaf; [right; left; reflexivity|destruct r; discriminate].
  - destruct I as [[]|[<-|[]]]. left. reflexivity.
  - no_leaf; try (destruct i; discriminate). right; left; reflexivity.
  - destruct I as [[]|[<-|[]]]. left. reflexivity.
  - no_leaf; [right; left; reflexivity|destruct r; discriminate|right; right; left; reflexivity].
  - destruct I as [[]|[<-|[<-|[]]]]; cbn; auto.
  - no_leaf; [right; left; reflexivity|right; right; left; reflexivity].
  - destruct I as [[]|[<-|[<-|[]]]]; cbn; auto.
  - apply in_app_or in I as [I|[I|I]]; [apply IHa in I|discriminate|apply IHb in I]; rewrite !in_app_iff; tauto.
  - rewrite !in_app_iff in I. apply in_or_app. cbn [In]. rewrite IHa, IHb. tauto.
  - apply in_app_or in I as [I|[I|I]]; [apply IHa in I|discriminate|apply IHb in I]; rewrite !in_app_iff; tauto.
  - rewrite !in_app_iff in I. apply in_or_app. cbn [In]. rewrite IHa, IHb. tauto.
  - destruct I as [I|I]; [discriminate|]. apply in_app_or in I as [I|[I|[]]]; [|discriminate]. apply IHa, I.
  - right. apply in_or_app. left. apply IHa, I.
Qed.
Lemma itoks_names : forall i w, In (leaf_tok w) (itoks i) <-> In w (item_plain i) \/ In w (item_other i).
Proof.
  intros [s|s n|s m d y] w; cbn [itoks item_plain item_other]; split; intro I.
  - no_leaf. left. left. reflexivity.
  - destruct I as [[<-|[]]|[]]. left. reflexivity.
  - no_leaf. right. left. reflexivity.
  - destruct I as [[]|[<-|[]]]. left. reflexivity.
  - no_leaf; [right; left; reflexivity|right; right; left; reflexivity].
  - destruct I as [[]|[<-|[<-|[]]]]; cbn; auto.
Qed.
Lemma leaf_bars : forall w n, ~ In (leaf_tok w) (bars n).
Proof. intros w n I. apply repeat_spec in I. discriminate. Qed.
Lemma atoks_names : forall a w, In (leaf_tok w) (atoks a) <-> In w (plain_items (aitems a)) \/ In w (other_items (aitems a)).
Proof.
  induction a as [n i k|n i r IH]; intro w; cbn [atoks aitems]; unfold plain_items, other_items in *; cbn [flat_map]; rewrite !in_app_iff, itoks_names.
  - cbn [In]. pose proof (leaf_bars w n). pose proof (leaf_bars w k). tauto.
  - cbn [In]. rewrite IH. pose proof (leaf_bars w n). assert (tk c_bar <> leaf_tok w) by discriminate. tauto.
Qed.

(** ** The attributes that are hashed *)
Lemma name_chars_app : forall a b, name_chars a -> name_chars b -> name_chars (a ++ b).
Proof. unfold name_chars. intros. rewrite forallb_app. apply andb_true_intro. auto. Qed.
Lemma word_app : forall a b, is_word a = true -> name_chars b -> is_word (a ++ b) = true.
Proof.
  intros [|c a] b H Hb; [discriminate|]. cbn [app is_word] in *. apply andb_prop in H as [H1 H2]. rewrite H1. cbn [andb]. rewrite forallb_app, H2. exact Hb.
Qed.
Lemma dec_chars : forall z, name_chars (dec z).
Proof.
  assert (forall c, is_digit c = true -> name_char c = true) as K.
  { intros c D. pose proof (by_bytes (fun c => implb (is_digit c) (name_char c)) ltac:(vm_compute; reflexivity) c) as K. cbv beta in K. rewrite D in K. exact K. }
  assert (forall n, 0 <= n -> name_chars (dec_nat n)) as Kn.
  { intros n Hn. unfold name_chars. apply forallb_forall. intros c I. apply K. pose proof (dec_digits n Hn) as D. unfold dec in D. replace (n <? 0) with false in D by lia. rewrite forallb_forall in D. auto. }
  intro z. unfold dec. destruct (Z.ltb_spec z 0); [|apply Kn; lia]. apply name_chars_app; [reflexivity|apply Kn; lia].
Qed.
Lemma repeat_chars : forall n, name_chars (repeat "x"%char n).
Proof. unfold name_chars. induction n; cbn; auto. Qed.
Lemma marker_hashable : forall P c b i v, is_word c = true -> hashable P (marker c b i v).
Proof.
  intros P c b i v H. split.
  - unfold marker. apply word_app; auto. repeat apply name_chars_app; auto using dec_chars, repeat_chars; try reflexivity; [destruct (b <? 10)|destruct v]; reflexivity.
  - right. unfold marker. exists (c ++ L "_"), ((if b <? 10 then L "0" else []) ++ dec b ++ L "_" ++ repeat "x"%char (Z.to_nat (31 - i)) ++ (if v then L "1" else L "0") ++ repeat "x"%char (Z.to_nat i)).
    rewrite <- !app_assoc. reflexivity.
Qed.
Lemma dated_word : forall c, is_word c = true -> is_word (dated c) = true /\ is_word (c ++ [colon] ++ L "time") = true.
Proof. intros c H. unfold dated. assert (is_word (c ++ [colon] ++ L "time") = true) by (apply word_app; auto; reflexivity). destruct (str_eqb c (L "time")); auto. Qed.
Lemma asked_hashable : forall P e x, (forall w, In w (plain_names e) -> In w P) -> (forall w, In w (plain_names e) \/ In w (other_names e) -> is_word w = true) -> asked e x -> hashable P x.
Proof.
  intros P. induction e as [s|r s n|i s lo hi|r s m d y|s m lo hi y|a IHa b IHb|a IHa b IHb|a IHa]; intros x HP HW A; cbn [asked plain_names other_names] in *.
  - subst x. split; [apply HW; cbn; auto|left; apply HP; cbn; auto].
  - destruct A as (j & v & -> & _). apply marker_hashable, HW. cbn; auto.
  - destruct A as [(j & v & -> & _)|(j & v & -> & _)]; apply marker_hashable, HW; cbn; auto.
  - destruct A as (j & v & -> & _). apply marker_hashable, dated_word, HW. cbn; auto.
  - destruct A as (j & v & -> & _). apply marker_hashable, dated_word, HW. cbn; auto.
  - destruct A as [A|A]; [apply IHa|apply IHb]; auto; intros w Hw; (apply HP || apply HW); rewrite !in_app_iff; tauto.
  - destruct A as [A|A]; [apply IHa|apply IHb]; auto; intros w Hw; (apply HP || apply HW); rewrite !in_app_iff; tauto.
  - apply IHa; auto.
Qed.
Lemma issues_keys : forall d cs ns d', issues d cs ns d' -> forall x, In x (mkeys (dcount d')) <-> In x cs \/ In x (mkeys (dcount d)).
Proof.
  intros d cs ns d' H. induction H as [|d c n d1 cs ns d2 L I IH]; intro x; [cbn; tauto|].
  rewrite IH. destruct (leaf_inv _ _ _ _ L) as (p & a & _ & _ & Ec & _). rewrite Ec, mkeys_mset. cbn [In]. intuition congruence.
Qed.
Lemma fold_sins : forall ks l x, smem x (fold_left (fun s k => sins k s) ks l) = existsb (str_eqb x) ks || smem x l.
Proof.
  induction ks as [|k ks IH]; intros l x; cbn [fold_left existsb]; [reflexivity|]. rewrite IH, smem_sins. destruct (existsb (str_eqb x) ks), (str_eqb x k); reflexivity.
Qed.
Lemma denotes_leaf : forall day last_day e n, denotes day last_day e n -> forall s, In s (plain_names e) -> exists a, In a (leaves n) /\ complete_label a = s.
Proof.
  intros day last_day. induction e as [s|r s n|i s lo hi|r s m d y|s m lo hi y|a IHa b IHb|a IHa b IHb|a IHa]; intros t D w I; cbn [plain_names denotes] in *; try (destruct I; fail).
  - destruct I as [<-|[]]. destruct D as (p & l & i & -> & E). exists (Leaf p l i). split; auto. left. reflexivity.
  - destruct D as (x & y & -> & Da & Db). apply in_app_or in I as [I|I]; [destruct (IHa x Da w I) as (c & Ic & E)|destruct (IHb y Db w I) as (c & Ic & E)]; exists c; (split; auto); cbn; rewrite ?app_nil_r; rewrite ?in_app_iff; auto.
  - destruct D as (x & y & -> & Da & Db). apply in_app_or in I as [I|I]; [destruct (IHa x Da w I) as (c & Ic & E)|destruct (IHb y Db w I) as (c & Ic & E)]; exists c; (split; auto); cbn; rewrite ?app_nil_r; rewrite ?in_app_iff; auto.
  - auto.
Qed.
Lemma smem_In : forall x l, smem x l = true <-> In x l.
Proof. intros x l. unfold smem. rewrite existsb_exists. split; [intros (y & I & E); apply str_eqb_eq in E; subst; auto|intro I; exists x; split; auto; apply str_eqb_refl]. Qed.

Lemma tmap_id : forall ts, map (tmap (fun w => w)) ts = ts.
Proof. induction ts as [|[k v] ts IH]; [reflexivity|]. cbn [map]. rewrite IH. f_equal. unfold tmap. cbn. repeat match goal with |- context [if ?b then _ else _] => destruct b end; destruct v; reflexivity. Qed.

Section Use.
Variable mktime : tm -> Z * tm.
Notation day := (day mktime).
Notation last_day := (last_day mktime).
(** The keys of an accepted policy. *)
Lemma policy_keys : forall s e q, reads e s -> well e = true -> create_policy_tree mktime s = Ok (Some q) -> tidy_names e = true ->
  (forall x, In x (pset q) -> asked e x) /\ (forall w, In w (plain_names e) -> In w (pset q)).
Proof.
  intros s e q R W E Ty. pose proof E as E0. apply accepted_reads in E0 as (e1 & r1 & R1 & W1 & N & D & _). assert (e1 = e) as -> by (eapply reads_unique; eauto).
  destruct (reads_accepted mktime s e R W N D) as (q0 & r & E1 & Hr & _ & _ & _ & De & (d' & M & Eq & _)). rewrite E in E1. injection E1 as <-. specialize (De Ty).
  destruct M as [(cs & B & A) _]. pose proof (built_labels _ _ _ _ B) as Pl. destruct B as [_ (ns & I & _)]. pose proof (issues_keys _ _ _ _ I) as K.
  assert (forall x, In x (pset q) <-> In x (mkeys (dcount d'))) as KP.
  { intro x. rewrite Eq. unfold made, set_policy. cbn [dpol pset]. destruct (issues_keep _ _ _ _ I) as (_ & _ & _ & _ & Kp & _). rewrite Kp. cbn [start_driver dpol new_policy pset].
    rewrite <- smem_In, fold_sins. cbn [smem existsb]. rewrite orb_false_r. apply (smem_In x (mkeys (dcount d'))). }
  split.
  - intros x Ix. apply KP, K in Ix as [Ix|Ix]; [apply A, Ix|destruct Ix].
  - intros w Iw. apply KP, K. left. destruct (denotes_leaf _ _ _ _ De w Iw) as (a & Ia & La). apply (in_map complete_label) in Ia. apply (Permutation_in _ Pl) in Ia. rewrite La in Ia.
    apply in_map_iff in Ia as (c & Lc & Ic). pose proof (A c Ic) as Ac. assert (label c = c) as T by (apply label_tidy; eapply (asked_facts e); eauto). congruence.
Qed.
(** The attributes of an accepted list. *)
Lemma list_keys : forall before l x, In x (attrs_from day before l) -> In x (plain_items l) \/ exists c b i v, x = marker c b i v /\ (In c (other_items l) \/ exists p, In p (other_items l) /\ c = p ++ [colon] ++ L "time").
Proof.
  intros before l. revert before. induction l as [|i l IH]; intros before x I; [destruct I|]. cbn [attrs_from] in I. apply in_app_or in I as [I|I].
  - unfold plain_items, other_items. destruct i as [s|s n|p m d y]; cbn [item_attrs flat_map item_plain item_other app] in *.
    + destruct (first_mention s before); [destruct I|]. destruct I as [<-|[]]. left. left. reflexivity.
    + right. destruct (first_mention s before) as [[|]|]; [destruct I| |]; unfold bits_of in I; apply in_map_iff in I as (j & <- & _); do 4 eexists; (split; [reflexivity|]); left; left; reflexivity.
    + right. destruct (dated_in p before); [destruct I|]. unfold bits_of in I. apply in_map_iff in I as (j & <- & _). do 4 eexists. split; [reflexivity|]. right. exists p. split; auto. left. reflexivity.
  - apply IH in I as [I|(c & b & j & v & -> & H)].
    + left. unfold plain_items. cbn [flat_map]. apply in_or_app. auto.
    + right. exists c, b, j, v. split; auto. unfold other_items in *. cbn [flat_map]. destruct H as [H|(p & H & E)]; [left|right; exists p; split; auto]; apply in_or_app; auto.
Qed.
Lemma plain_kept : forall l before s, In s (plain_items l) -> ~ In s (other_items l) -> first_mention s before = None -> In s (attrs_from day before l).
Proof.
  induction l as [|i l IH]; intros before s I N F; [destruct I|]. unfold plain_items, other_items in *. cbn [flat_map attrs_from] in *. rewrite !in_app_iff in *.
  destruct i as [x|x n|p m d y]; cbn [item_plain item_other In item_attrs] in *.
  - destruct (str_eq_dec s x) as [<- |Ne]; [rewrite F; left; left; reflexivity|]. right. apply IH; try tauto.
    + destruct I as [[I|[]]|I]; auto. congruence.
    + rewrite first_mention_app, F. cbn. destruct (str_eqb s x) eqn:E; auto. apply str_eqb_eq in E. contradiction.
  - right. apply IH; try tauto. rewrite first_mention_app, F. cbn. destruct (str_eqb s x) eqn:E; auto. apply str_eqb_eq in E. subst. exfalso. apply N. auto.
  - right. apply IH; try tauto. rewrite first_mention_app, F. reflexivity.
Qed.

(** ** Truth is kept *)
Section Keep.
Variable f : str -> str.
Variable P C : list str.
Hypothesis inj : forall a b, In a P -> In b P -> f a = f b -> a = b.
Hypothesis apart : forall a, In a P -> ~ In a C.
Hypothesis fresh : forall a c, In a P -> In c C -> f a <> c.
Lemma first_imap : forall s l, In s P -> incl (plain_items l) P -> incl (other_items l) C -> first_mention (f s) (map (imap f) l) = first_mention s l.
Proof.
  intros s l Is. induction l as [|[x|x n|p m d y] l IH]; intros Hp Ho; unfold plain_items, other_items in *; cbn [map imap flat_map item_plain item_other app first_mention] in *; auto.
  - rewrite IH by (auto; intros z Iz; apply Hp; right; auto). assert (In x P) by (apply Hp; left; reflexivity).
    destruct (str_eqb s x) eqn:E.
    + apply str_eqb_eq in E. subst. rewrite str_eqb_refl. reflexivity.
    + destruct (str_eqb (f s) (f x)) eqn:E2; auto. apply str_eqb_eq in E2. apply inj in E2; auto. subst. rewrite str_eqb_refl in E. discriminate.
  - rewrite IH by (auto; intros z Iz; apply Ho; right; auto). assert (In x C) by (apply Ho; left; reflexivity).
    destruct (str_eqb (f s) x) eqn:E2; [apply str_eqb_eq in E2; exfalso; eapply fresh; eauto|].
    destruct (str_eqb s x) eqn:E; auto. apply str_eqb_eq in E. subst. exfalso. eapply apart; eauto.
  - apply IH; auto. intros z Iz. apply Ho. right. right. auto.
Qed.
Lemma first_other : forall c l, In c C -> incl (plain_items l) P -> first_mention c (map (imap f) l) = first_mention c l.
Proof.
  intros c l Ic. induction l as [|[x|x n|p m d y] l IH]; intros Hp; unfold plain_items in *; cbn [map imap flat_map item_plain app first_mention] in *; auto.
  - rewrite IH by (auto; intros z Iz; apply Hp; right; auto). assert (In x P) by (apply Hp; left; reflexivity).
    destruct (str_eqb c (f x)) eqn:E; [apply str_eqb_eq in E; exfalso; eapply fresh; eauto|]. destruct (str_eqb c x) eqn:E2; auto. apply str_eqb_eq in E2. subst. exfalso. eapply apart; eauto.
  - rewrite IH by auto. reflexivity.
Qed.
Lemma dated_imap : forall p l, dated_in p (map (imap f) l) = dated_in p l.
Proof. intros p l. induction l as [|[x|x n|q m d y] l IH]; cbn; auto. f_equal. exact IH. Qed.
End Keep.

(** The tree of the renamed sentence. *)
Lemma sat_leaves : forall h h' n, binary n = true -> (forall a, In a (leaves n) -> h (complete_label a) = h' (complete_label a)) -> sat h n = sat h' n.
Proof.
  intros h h'. induction n as [g k p a i ks IH] using LsssProofs.node_ind2. intros B H. destruct g; cbn [binary] in B; try discriminate; cbn [sat leaves] in *.
  - apply H. left. reflexivity.
  - destruct ks as [|x [|y [|]]]; try discriminate. apply andb_prop in B as [_ B]; cbn [forallb] in B; rewrite andb_true_r in B; apply andb_prop in B as [Bx By]. cbn [forallb flat_map] in *. inversion IH as [|? ? IHx IH1]; subst. inversion IH1 as [|? ? IHy _]; subst.
    rewrite IHx by (auto; intros z Iz; apply H; rewrite !in_app_iff; auto). rewrite IHy by (auto; intros z Iz; apply H; rewrite !in_app_iff; auto). reflexivity.
  - destruct ks as [|x [|y [|]]]; try discriminate. apply andb_prop in B as [_ B]; cbn [forallb] in B; rewrite andb_true_r in B; apply andb_prop in B as [Bx By]. cbn [existsb flat_map] in *. inversion IH as [|? ? IHx IH1]; subst. inversion IH1 as [|? ? IHy _]; subst.
    rewrite IHx by (auto; intros z Iz; apply H; rewrite !in_app_iff; auto). rewrite IHy by (auto; intros z Iz; apply H; rewrite !in_app_iff; auto). reflexivity.
Qed.
Section Sat.
Variable f : str -> str.
Notation ev := (ev VTok (action mktime)).
Variables h h' : str -> bool.
Hypothesis markers : forall c b i v, h' (marker c b i v) = h (marker c b i v).
Lemma sat_hmap : forall e d d' n n' d1 d1', Forall tok_good (ptoks e) -> Forall tok_good (ptoks (hmap f e)) -> nums_ok e = true -> dates_ok day last_day e = true -> tidy_names e = true -> tidy_names (hmap f e) = true ->
  (forall s, In s (plain_names e) -> h' (f s) = h s) ->
  ev (ptree e) d = Ok (EV (VTree n) d1) -> ev (ptree (hmap f e)) d' = Ok (EV (VTree n') d1') -> sat h' n' = sat h n.
Proof.
  assert (forall e d n d1, Forall tok_good (ptoks e) -> nums_ok e = true -> dates_ok day last_day e = true -> ev (ptree e) d = Ok (EV (VTree n) d1) -> means mktime e d n d1) as Me.
  { intros e d n d1 G N D E. destruct (ev_policy mktime e d G D) as [K _]. destruct (K N) as (n0 & d0 & E0 & M). rewrite E in E0. injection E0 as <- <-. exact M. }
  assert (forall e d d' n n' d1 d1', Forall tok_good (ptoks e) -> nums_ok e = true -> dates_ok day last_day e = true -> tidy_names e = true -> (forall x, asked e x -> exists c b i v, x = marker c b i v) ->
    ev (ptree e) d = Ok (EV (VTree n) d1) -> ev (ptree e) d' = Ok (EV (VTree n') d1') -> sat h' n' = sat h n) as Cmp.
  { intros e d d' n n' d1 d1' G N D Ty A E E'. pose proof (ev_formula mktime e d d' n n' d1 d1' G E E') as F. pose proof (Me _ _ _ _ G N D E) as M. pose proof (Me _ _ _ _ G N D E') as M'.
    destruct M as [(cs & B & Ac) _]. destruct M' as [(cs' & B' & _) _]. rewrite (sat_formula h' n' n) by (try apply B; try apply B'; auto). apply sat_leaves; [apply B|].
    intros a Ia. pose proof (built_labels _ _ _ _ B) as P. apply (in_map complete_label) in Ia. apply (Permutation_in _ P) in Ia. apply in_map_iff in Ia as (x & <- & Ix). apply Ac in Ix.
    rewrite label_tidy by (eapply (asked_facts e); eauto). destruct (A x Ix) as (c & b & i & v & ->). apply markers. }
  induction e as [s|r s n|i s lo hi|r s m dd y|s m lo hi y|a IHa b IHb|a IHa b IHb|a IHa]; intros d d' t t' d1 d1' G G' N D Ty Ty' Hp E E'; cbn [hmap] in *.
  - pose proof (Me _ _ _ _ G N D E) as [_ De]. pose proof (Me (EAttr (f s)) _ _ _ G' eq_refl eq_refl E') as [_ De']. destruct (De Ty) as (p & l & i & -> & Ex). destruct (De' Ty') as (p' & l' & i' & -> & Ex'). cbn [sat].
    change (h' (complete_label (Leaf p' l' i')) = h (complete_label (Leaf p l i))). rewrite Ex, Ex'. apply Hp. left. reflexivity.
  - eapply Cmp; try eassumption. cbn. intros x (j & v & -> & _). eauto.
  - eapply Cmp; try eassumption. cbn. intros x [(j & v & -> & _)|(j & v & -> & _)]; eauto.
  - eapply Cmp; try eassumption. cbn. intros x (j & v & -> & _). eauto.
  - eapply Cmp; try eassumption. cbn. intros x (j & v & -> & _). eauto.
  - cbn [ptree] in E, E'. apply two_kids in E as (x & y & dm & Hx & Hy & Ex); auto. apply two_kids in E' as (x' & y' & dm' & Hx' & Hy' & Ex'); auto. injection Ex as ->. injection Ex' as ->.
    cbn [ptoks] in G, G'. apply Forall_app in G as [Ga Gb]. inversion Gb as [|? ? _ Gb']; subst. apply Forall_app in G' as [Ga' Gb0]. inversion Gb0 as [|? ? _ Gb0']; subst.
    cbn [nums_ok dates_ok plain_names] in *. unfold tidy_names in *. cbn [names] in *. rewrite forallb_app in Ty, Ty'. apply andb_prop in N as [Na Nb]. apply andb_prop in D as [Da Db]. apply andb_prop in Ty as [Ta Tb]. apply andb_prop in Ty' as [Ta' Tb'].
    cbn. rewrite !andb_true_r. rewrite (IHa _ _ _ _ _ _ Ga Ga' Na Da Ta Ta' (fun s I => Hp s (in_or_app _ _ _ (or_introl I))) Hx Hx'), (IHb _ _ _ _ _ _ Gb' Gb0' Nb Db Tb Tb' (fun s I => Hp s (in_or_app _ _ _ (or_intror I))) Hy Hy'). reflexivity.
  - cbn [ptree] in E, E'. apply two_kids in E as (x & y & dm & Hx & Hy & Ex); auto. apply two_kids in E' as (x' & y' & dm' & Hx' & Hy' & Ex'); auto. injection Ex as ->. injection Ex' as ->.
    cbn [ptoks] in G, G'. apply Forall_app in G as [Ga Gb]. inversion Gb as [|? ? _ Gb']; subst. apply Forall_app in G' as [Ga' Gb0]. inversion Gb0 as [|? ? _ Gb0']; subst.
    cbn [nums_ok dates_ok plain_names] in *. unfold tidy_names in *. cbn [names] in *. rewrite forallb_app in Ty, Ty'. apply andb_prop in N as [Na Nb]. apply andb_prop in D as [Da Db]. apply andb_prop in Ty as [Ta Tb]. apply andb_prop in Ty' as [Ta' Tb'].
    cbn. rewrite !orb_false_r. rewrite (IHa _ _ _ _ _ _ Ga Ga' Na Da Ta Ta' (fun s I => Hp s (in_or_app _ _ _ (or_introl I))) Hx Hx'), (IHb _ _ _ _ _ _ Gb' Gb0' Nb Db Tb Tb' (fun s I => Hp s (in_or_app _ _ _ (or_intror I))) Hy Hy'). reflexivity.
  - cbn [ptoks ptree] in *. inversion G as [|? ? _ G1]; subst. apply Forall_app in G1 as [G1 _]. inversion G' as [|? ? _ G1']; subst. apply Forall_app in G1' as [G1' _].
    apply ev_kids in E as (vs & d2 & E & A). apply ev_kids in E' as (vs' & d2' & E' & A').
    apply evs_cons in E as (v1 & w1 & da & H1 & E & ->). apply ev_tok in H1 as [-> ->]. apply evs_cons in E as (v2 & w2 & db & H2 & E & ->). apply evs_cons in E as (v3 & w3 & dc & H3 & E & ->). apply ev_tok in H3 as [-> ->]. apply evs_nil in E as [-> ->].
    apply evs_cons in E' as (v1' & w1' & da' & H1' & E' & ->). apply ev_tok in H1' as [-> ->]. apply evs_cons in E' as (v2' & w2' & db' & H2' & E' & ->). apply evs_cons in E' as (v3' & w3' & dc' & H3' & E' & ->). apply ev_tok in H3' as [-> ->]. apply evs_nil in E' as [-> ->].
    cbn [action] in A, A'. destruct v2; try discriminate. destruct v2'; try discriminate. injection A as -> ->. injection A' as -> ->. eapply IHa; eauto.
Qed.
End Sat.
(** ** Hashing both texts *)
Variable digest : str -> str.
Hypothesis digest9 : forall x, length (digest x) = 9%nat.
Notation hname := (hname digest).
Lemma tidy_hmap : forall e, tidy_names e = true -> tidy_names (hmap hname e) = true.
Proof.
  unfold tidy_names. intros e H. rewrite forallb_forall in *. intros x I. assert (forall e, In x (names (hmap hname e)) -> (exists w, x = hname w) \/ In x (names e)) as K.
  { clear. induction e as [s|r s n|i s lo hi|r s m d y|s m lo hi y|a IHa b IHb|a IHa b IHb|a IHa]; cbn [hmap names]; intro I; auto.
    - destruct I as [<-|[]]. left. eauto.
    - apply in_app_or in I as [I|I]; [apply IHa in I|apply IHb in I]; rewrite in_app_iff; tauto.
    - apply in_app_or in I as [I|I]; [apply IHa in I|apply IHb in I]; rewrite in_app_iff; tauto. }
  apply K in I as [(w & ->)|I]; auto. apply hname_tidy; auto.
Qed.
Lemma apart_sep : forall P C, separate digest P C -> forall a, In a P -> ~ In a C.
Proof. intros P C (_ & S2 & _) a I J. apply (S2 a a); auto. exists [], []. rewrite app_nil_r. reflexivity. Qed.
Lemma hashed_policy : forall P C s q e, separate digest P C -> create_policy_tree mktime s = Ok (Some q) -> reads e s -> well e = true -> tidy_names e = true ->
  incl (plain_names e) P -> incl (other_names e) C ->
  exists s', hash_policy mktime digest s = Ok s' /\ reads (hmap hname e) s'.
Proof.
  intros P C s q e Sp E R W Ty HP HC. pose proof (policy_keys s e q R W E Ty) as [K1 K2]. destruct R as (x & T & En). pose proof (text_names _ _ _ T) as Nm.
  assert (forall w, In (leaf_tok w) (ptoks e) -> is_name w = true /\ (In w P \/ In w C)) as Hw.
  { intros w I. split; auto. apply ptoks_names in I as [I|I]; auto. }
  assert (map (tmap (fun w => w)) (ptoks e) = ptoks e) as Eid by apply tmap_id.
  destruct (hash_each_spec digest digest9 P C (ptoks e) Sp Hw (pset q) (fun w => w) s x) as (s' & x' & g & Eh & T' & En' & G).
  - apply Forall_forall. intros a Ia. apply (asked_hashable P e a); auto. intros w Iw. apply name_word, Nm, ptoks_names, Iw.
  - rewrite Eid. exact T.
  - intros; auto.
  - exists s'. unfold hash_policy. rewrite E. cbn [bind]. split; auto. exists x'. split; auto.
    rewrite (ptoks_hmap hname g) in T'; auto.
    + intros w Iw. destruct (G w (proj2 (ptoks_names e w) (or_introl Iw))) as [[Eg _]|(_ & _ & N)]; auto. exfalso. apply N, K2, Iw.
    + intros w Iw. destruct (G w (proj2 (ptoks_names e w) (or_intror Iw))) as [(_ & Ip & _)|(Eg & _)]; auto. exfalso. eapply apart_sep; eauto.
Qed.
Lemma hashed_list : forall P C t l a, separate digest P C -> create_attribute_list mktime t = Ok (Some l) -> attr_text a t ->
  incl (plain_items (aitems a)) P -> incl (other_items (aitems a)) C ->
  exists t', hash_attributes_list mktime digest t = Ok t' /\ attr_text (amap hname a) t'.
Proof.
  intros P C t l a Sp E At HP HC. pose proof E as E0. apply attrs_accept in E0 as (a' & At' & _ & _ & Ea & _). destruct (attr_text_unique _ _ _ At' At) as [Ei _]. rewrite Ei in Ea. clear a' At' Ei.
  destruct At as (x & T & En). pose proof (text_names _ _ _ T) as Nm.
  assert (forall w, In (leaf_tok w) (atoks a) -> is_name w = true /\ (In w P \/ In w C)) as Hw.
  { intros w I. split; auto. apply atoks_names in I as [I|I]; auto. }
  assert (map (tmap (fun w => w)) (atoks a) = atoks a) as Eid by apply tmap_id.
  destruct (hash_each_spec digest digest9 P C (atoks a) Sp Hw (aattrs l) (fun w => w) t x) as (t' & x' & g & Eh & T' & En' & G).
  - apply Forall_forall. intros w Iw. rewrite Ea in Iw. apply list_keys in Iw as [Iw|(c & b & i & v & -> & H)].
    + split; [apply name_word, Nm, atoks_names; auto|left; auto].
    + apply marker_hashable. destruct H as [H|(p & H & ->)]; [apply name_word, Nm, atoks_names; auto|apply (dated_word p), name_word, Nm, atoks_names; auto].
  - rewrite Eid. exact T.
  - intros; auto.
  - exists t'. unfold hash_attributes_list. rewrite E. cbn [bind]. split; auto. exists x'. split; auto.
    rewrite (atoks_amap hname g) in T'; auto.
    + intros w Iw. destruct (G w (proj2 (atoks_names a w) (or_introl Iw))) as [[Eg _]|(_ & _ & N)]; auto. exfalso. apply N. rewrite Ea. apply plain_kept; auto. intro J. eapply apart_sep; eauto.
    + intros w Iw. destruct (G w (proj2 (atoks_names a w) (or_intror Iw))) as [(_ & Ip & _)|(Eg & _)]; auto. exfalso. eapply apart_sep; eauto.
Qed.
Lemma marker_kept : forall P C l before, separate digest P C -> Forall item_named l -> Forall item_named before -> incl (plain_items l) P -> incl (other_items l) C -> incl (plain_items before) P ->
  forall c b i v, In (marker c b i v) (attrs_from day (map (imap hname) before) (map (imap hname) l)) <-> In (marker c b i v) (attrs_from day before l).
Proof.
  intros P C l before Sp. pose proof (apart_sep _ _ Sp) as Ap. pose proof Sp as (_ & _ & _ & S4 & S5 & S6). revert before.
  induction l as [|x l IH]; intros before Nl Nb Hp Ho Hb c b i v; [reflexivity|]. cbn [map attrs_from]. rewrite !in_app_iff.
  inversion Nl as [|? ? Nx Nl']; subst. unfold plain_items, other_items in *. cbn [flat_map] in *.
  replace (map (imap hname) before ++ [imap hname x]) with (map (imap hname) (before ++ [x])) by (rewrite map_app; reflexivity). rewrite IH; auto.
  - apply or_iff_compat_r. assert (occurs (L "expint") (marker c b i v)) as Oc.
    { unfold marker. exists (c ++ L "_"), ((if b <? 10 then L "0" else []) ++ dec b ++ L "_" ++ repeat "x"%char (Z.to_nat (31 - i)) ++ (if v then L "1" else L "0") ++ repeat "x"%char (Z.to_nat i)). rewrite <- !app_assoc. reflexivity. }
    destruct x as [s|s n|p m d y]; cbn [imap item_attrs].
    + assert (In s P) as Is by (apply Hp; left; reflexivity). split.
      * destruct (first_mention (hname s) (map (imap hname) before)); [intros []|]. intros [Em|[]]. exfalso. apply (S6 s Is). rewrite Em. exact Oc.
      * destruct (first_mention s before); [intros []|]. intros [Em|[]]. exfalso. unfold item_named in Nx. cbn in Nx. rewrite Em in Nx. unfold is_name in Nx. apply andb_prop in Nx as [_ Nx]. apply contains_iff in Oc. rewrite Oc in Nx. discriminate.
    + rewrite (first_other hname P C); auto; [reflexivity|]. apply Ho. left. reflexivity.
    + rewrite dated_imap. reflexivity.
  - apply Forall_app. auto.
  - intros z Iz. apply Hp, in_or_app. auto.
  - intros z Iz. apply Ho, in_or_app. auto.
  - rewrite flat_map_app. intros z Iz. apply in_app_or in Iz as [Iz|Iz]; auto. cbn in Iz. rewrite app_nil_r in Iz. apply Hp, in_or_app. auto.
Qed.
Lemma hashing_keeps : forall s q r t l e a,
  create_policy_tree mktime s = Ok (Some q) -> proot q = Some r -> create_attribute_list mktime t = Ok (Some l) ->
  reads e s -> well e = true -> attr_text a t -> tidy_names e = true ->
  separate digest (plain_names e ++ plain_items (aitems a)) (other_names e ++ other_items (aitems a)) ->
  exists s' q' r' t' l', hash_policy mktime digest s = Ok s' /\ hash_attributes_list mktime digest t = Ok t' /\
    create_policy_tree mktime s' = Ok (Some q') /\ proot q' = Some r' /\ create_attribute_list mktime t' = Ok (Some l') /\
    reads (hmap hname e) s' /\ attr_text (amap hname a) t' /\
    sat (match_attribute (aattrs l')) r' = sat (match_attribute (aattrs l)) r.
Proof.
  intros s q r t l e a E Hr El R W At Ty Sp. set (P := plain_names e ++ plain_items (aitems a)) in *. set (C := other_names e ++ other_items (aitems a)) in *.
  assert (incl (plain_names e) P) as I1 by (intros z Iz; apply in_or_app; auto). assert (incl (plain_items (aitems a)) P) as I2 by (intros z Iz; apply in_or_app; auto).
  assert (incl (other_names e) C) as I3 by (intros z Iz; apply in_or_app; auto). assert (incl (other_items (aitems a)) C) as I4 by (intros z Iz; apply in_or_app; auto).
  destruct (hashed_policy P C s q e) as (s' & Hs & R'); auto. destruct (hashed_list P C t l a) as (t' & Ht & At'); auto.
  pose proof E as E0. apply accepted_reads in E0 as (e1 & r1 & R1 & W1 & N & D & _). assert (e1 = e) as -> by (eapply reads_unique; eauto).
  pose proof El as El0. apply attrs_accept in El0 as (a1 & At1 & Tr & Ik & Ea & _). destruct (attr_text_unique _ _ _ At1 At) as [Ei Et]. rewrite Ei in Ik, Ea. rewrite Et in Tr. clear a1 At1 Ei Et.
  destruct (reads_accepted mktime s e R W N D) as (q0 & r0 & E1 & Hr0 & _ & _ & _ & _ & (d0 & _ & _ & Ev0)). rewrite E in E1. injection E1 as <-. rewrite Hr in Hr0. injection Hr0 as <-.
  destruct (reads_accepted mktime s' (hmap hname e) R') as (q' & r' & E' & Hr' & _ & _ & _ & _ & (d' & _ & _ & Ev')).
  { rewrite (proj1 (well_hmap hname e)). auto. } { rewrite nums_hmap. auto. } { rewrite dates_hmap. auto. }
  destruct (attrs_made mktime t' (amap hname a) At') as (l' & El' & Ea' & _).
  { rewrite atrail_amap. auto. } { rewrite aitems_amap, items_imap. auto. }
  exists s', q', r', t', l'. repeat (split; auto). rewrite aitems_amap in Ea'.
  assert (Forall item_named (aitems a)) as Nl. { destruct At as (x & T & _). apply items_named. eapply text_pre_good; eauto. }
  assert (Forall item_named (map (imap hname) (aitems a))) as Nl'. { destruct At' as (x & T & _). rewrite <- aitems_amap. apply items_named. eapply text_pre_good; eauto. }
  destruct R as (x & T & _). destruct R' as (x' & T' & _). pose proof (text_names _ _ _ T) as Nm. pose proof (text_names _ _ _ T') as Nm'.
  pose proof (apart_sep _ _ Sp) as Ap. pose proof Sp as (_ & _ & _ & S4 & S5 & S6).
  assert (forall x y : bool, (x = true <-> y = true) -> x = y) as Bq by (intros [] []; intuition congruence).
  assert (forall attrs x, match_attribute attrs x = true <-> In x attrs) as Ma by (intros attrs z; apply (smem_In z attrs)).
  eapply (sat_hmap hname); [| | |exact N|exact D|exact Ty|apply tidy_hmap, Ty| |exact Ev0|exact Ev'].
  - intros c b i v. apply Bq. rewrite !Ma, Ea, Ea'. apply (marker_kept P C (aitems a) []); auto. intros z [].
  - eapply text_pre_good; eauto.
  - eapply text_pre_good; eauto.
  - intros w Iw. rewrite Ea, Ea'. rewrite !attrs_plain; auto.
    + unfold plain. rewrite (first_imap hname P C); auto.
    + apply Nm, ptoks_names. auto.
    + apply hname_name; auto.
Qed.
End Use.
