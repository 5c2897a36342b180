(** Parsed policies as inputs of the secret sharing code. *)
From Verif Require Import Base ByteString StrMap Dec UInteger Policy Lsss LsssSpec LsssProofs LsssFinal LsssUse Scanner Grammar PolicySyntax Lexical PolicyMeaning AttrMeaning Driver Parser ParserSound ParserRun ParserTop ScannerProofs NumProofs NumTree PolicyTruth ParserSafe CreatePolicy CreateAttrs ParserFinal AttrUse.
From Coq Require Import ZArith List Ascii Bool Lia ZifyBool ZifyNat Permutation.
Import ListNotations.
Open Scope Z_scope.

(** ** Numbers of the leaves *)
Definition counts_ok (d : driver) : Prop := forall c k, mget c (dcount d) = Some k -> 0 < k.
Definition apart (dups : list str) (a b : node) : Prop :=
  complete_label a = complete_label b -> nindex a <> nindex b /\ smem (complete_label a) dups = true.

Lemma leaf_counts : forall d c n d', leaf_node d c = Ok (n, d') -> counts_ok d -> counts_ok d' /\ 0 <= nindex n.
Proof.
  intros d c n d' H K. destruct (leaf_inv _ _ _ _ H) as (p & a & -> & _ & E & _). cbn [nindex Leaf].
  assert (0 <= count_of (dcount d) c) as P. { unfold count_of. destruct (mget c (dcount d)) eqn:F; [apply K in F|]; lia. }
  split; auto. intros x k. rewrite E, mget_set. destruct (str_eqb x c); [|apply K]. intro X. injection X as <-. lia.
Qed.
Lemma leaf_dup : forall d c n d' x, leaf_node d c = Ok (n, d') -> smem x (ddup d) = true -> smem x (ddup d') = true.
Proof.
  intros d c n d' x H S. destruct (leaf_inv _ _ _ _ H) as (p & a & _ & _ & _ & E & _). rewrite E. destruct (mget c (dcount d)); auto.
  rewrite smem_sins, S. apply orb_true_r.
Qed.
Lemma issues_dup : forall d cs ns d' x, issues d cs ns d' -> smem x (ddup d) = true -> smem x (ddup d') = true.
Proof. intros d cs ns d' x H. induction H; auto. intro S. apply IHissues. eapply leaf_dup; eauto. Qed.
Lemma issues_after : forall d cs ns d', issues d cs ns d' -> Forall (fun c => tidy c = true) cs ->
  forall c k n, mget c (dcount d) = Some k -> In n ns -> complete_label n = c -> k <= nindex n /\ smem c (ddup d') = true.
Proof.
  intros d cs ns d' H. induction H as [|d c n d1 cs ns d2 L I IH]; intros T x k m G M E; [destruct M|].
  inversion T as [|? ? Tc Tr]; subst. destruct (leaf_inv _ _ _ _ L) as (p & a & En & El & Ec & Ed & _). rewrite label_tidy in El by auto.
  destruct M as [<-|M].
  - rewrite El in *. rewrite G in Ed. split.
    + rewrite En. cbn [nindex Leaf]. unfold count_of. rewrite G. lia.
    + eapply issues_dup; eauto. rewrite Ed, smem_sins, str_eqb_refl. reflexivity.
  - destruct (str_eqb (complete_label m) c) eqn:X.
    + apply str_eqb_eq in X. rewrite X in *. specialize (IH Tr c (k + 1) m). rewrite Ec, mget_set, str_eqb_refl in IH. unfold count_of in IH. rewrite G in IH.
      destruct (IH eq_refl M X) as [A B]. split; auto. lia.
    + specialize (IH Tr (complete_label m) k m). rewrite Ec, mget_set, X in IH. auto.
Qed.
Lemma issues_apart : forall d cs ns d', issues d cs ns d' -> Forall (fun c => tidy c = true) cs -> counts_ok d ->
  Forall (fun n => 0 <= nindex n) ns /\ ForallOrdPairs (apart (ddup d')) ns.
Proof.
  intros d cs ns d' H. induction H as [|d c n d1 cs ns d2 L I IH]; intros T K; [split; constructor|].
  inversion T as [|? ? Tc Tr]; subst. destruct (leaf_counts _ _ _ _ L K) as [K1 P]. destruct (IH Tr K1) as [A B].
  split; constructor; auto. apply Forall_forall. intros m M E.
  destruct (leaf_inv _ _ _ _ L) as (p & a & En & El & Ec & _). rewrite label_tidy in El by auto.
  destruct (issues_after _ _ _ _ I Tr c (count_of (dcount d) c + 1) m) as [X Y]; auto; try congruence.
  { rewrite Ec, mget_set, str_eqb_refl. reflexivity. }
  rewrite El. split; auto. rewrite En. cbn [nindex Leaf]. lia.
Qed.
Lemma pairs_perm : forall (A : Type) (R : A -> A -> Prop), (forall a b, R a b -> R b a) -> forall l l', Permutation l l' -> ForallOrdPairs R l -> ForallOrdPairs R l'.
Proof.
  intros A R Sy l l' P. induction P as [|x l l' P IH|x y l|l l' l'' P1 IH1 P2 IH2]; intro F; auto.
  - inversion F; subst. constructor; auto. eapply Permutation_Forall; eauto.
  - inversion F as [|? ? F1 F2]; subst. inversion F2 as [|? ? F3 F4]; subst. inversion F1; subst. constructor; [constructor; auto|]. constructor; auto.
Qed.
Lemma pairs_nth : forall (A : Type) (R : A -> A -> Prop), (forall a b, R a b -> R b a) -> forall l, ForallOrdPairs R l ->
  forall i j a b, i <> j -> nth_error l i = Some a -> nth_error l j = Some b -> R a b.
Proof.
  intros A R Sy l F. induction F as [|x l F1 F IH]; intros i j a b N Hi Hj; [destruct i; discriminate|]. rewrite Forall_forall in F1.
  destruct i as [|i], j as [|j]; cbn in Hi, Hj; try congruence.
  - injection Hi as ->. apply F1. eapply nth_error_In; eauto.
  - injection Hj as ->. apply Sy, F1. eapply nth_error_In; eauto.
  - eapply IH; [|exact Hi|exact Hj]. congruence.
Qed.
Lemma apart_sym : forall u a b, apart u a b -> apart u b a.
Proof. unfold apart. intros u x y H Q. destruct (H (eq_sym Q)) as [A B]. split; [auto|congruence]. Qed.
Lemma built_indexed : forall d cs n d' (dups : str -> bool), built d cs n d' -> Forall (fun c => tidy c = true) cs -> counts_ok d ->
  (forall x, smem x (ddup d') = true -> dups x = true) -> well_indexed dups n.
Proof.
  intros d cs n d' dups [_ (ns & I & P)] T K D. destruct (issues_apart _ _ _ _ I T K) as [A B]. apply Permutation_sym in P. split.
  - intros a Ha. rewrite Forall_forall in A. apply A. eapply Permutation_in; [|exact Ha]. apply Permutation_sym, P.
  - intros i j a b N Hi Hj E. destruct (pairs_nth _ (apart (ddup d')) (apart_sym _)
      (leaves n) (pairs_perm _ _ (apart_sym _) _ _ P B) i j a b N Hi Hj E) as [X Y]. auto.
Qed.
Lemma made_repeated : forall s n d x, dpol d = None -> smem x (ddup d) = true -> repeated (made s n d) x = true.
Proof.
  intros s n d x Pn S. unfold made, set_policy, repeated. cbn [dpol pdup pcount proot]. rewrite Pn. apply andb_true_intro. split.
  - destruct (ddup d); [discriminate|reflexivity].
  - assert (forall l m, smem x l = true \/ mmem x m = true -> mmem x (fold_left (fun m0 k => mset k (count_of (dcount d) k) m0) l m) = true) as G.
    { induction l as [|y l IH]; intros m H; cbn [fold_left]; [destruct H; [discriminate|auto]|]. apply IH.
      unfold mmem in *. rewrite mget_set. destruct (str_eqb x y) eqn:E; [auto|]. destruct H as [H|H]; auto. cbn [smem existsb] in H. rewrite E in H. auto. }
    apply G. auto.
Qed.

(** ** Names without the separator *)
Definition has_percent (s : str) : bool := mem "%"%char s.
Definition no_percent_names (e : pexp) : bool := forallb (fun s => negb (has_percent s)) (names e).
Lemma mem_app : forall c a b, mem c (a ++ b) = mem c a || mem c b.
Proof. intros. apply existsb_app. Qed.
Lemma mem_in : forall c s, mem c s = true <-> In c s.
Proof.
  intros c s. unfold mem. rewrite existsb_exists. split; [intros (x & I & E); apply Ascii.eqb_eq in E as ->; auto|]. intro I. exists c. rewrite Ascii.eqb_refl. auto.
Qed.
Lemma marker_percent : forall c b i v, width_ok b = true -> has_percent c = false -> has_percent (marker c b i v) = false.
Proof.
  intros c b i v W H. unfold has_percent, marker in *. rewrite !mem_app, H.
  assert (forall n, mem "%" (repeat "x"%char n) = false) as R by (induction n as [|n IH]; auto).
  rewrite !R. unfold width_ok in W. assert (b = 4 \/ b = 8 \/ b = 16 \/ b = 32) as [-> | [-> | [-> | ->]]] by lia; destruct v; reflexivity.
Qed.
Lemma dated_percent : forall c, has_percent c = false -> has_percent (dated c) = false.
Proof. intros c H. unfold dated. destruct (str_eqb c (L "time")); auto. unfold has_percent in *. rewrite !mem_app, H. reflexivity. Qed.
Lemma asked_facts : forall e s, nums_ok e = true -> asked e s -> (tidy_names e = true -> tidy s = true) /\ (no_percent_names e = true -> has_percent s = false).
Proof.
  unfold tidy_names, no_percent_names.
  assert (forall x b i v, width_ok b = true -> 
    (forallb tidy [x] = true -> tidy (marker x b i v) = true) /\ (forallb (fun s => negb (has_percent s)) [x] = true -> has_percent (marker x b i v) = false)) as K.
  { intros x b i v W. cbn [forallb]. split; intro H; [apply marker_tidy; auto; lia|]. apply marker_percent; auto. lia. }
  assert (forall x i v, (forallb tidy [x] = true -> tidy (marker (dated x) 32 i v) = true) /\
    (forallb (fun s => negb (has_percent s)) [x] = true -> has_percent (marker (dated x) 32 i v) = false)) as K2.
  { intros x i v. cbn [forallb]. split; intro H; [apply marker_tidy; auto; apply dated_tidy; lia|]. apply marker_percent; auto. apply dated_percent. lia. }
  induction e as [x|r x n|incl x lo hi|r x m dd y|x m lo hi y|a IHa b IHb|a IHa b IHb|a IHa]; intros s Nk As; cbn [asked names nums_ok] in *.
  - subst. cbn. split; intro; lia.
  - destruct As as (i & v & -> & _). apply K. destruct n. apply andb_prop in Nk. apply Nk.
  - apply andb_prop in Nk as [N1 N2]. destruct As as [(i & v & -> & _)|(i & v & -> & _)]; apply K; [destruct lo; apply andb_prop in N1; apply N1|destruct hi; apply andb_prop in N2; apply N2].
  - destruct As as (i & v & -> & _). apply K2.
  - destruct As as (i & v & -> & _). apply K2.
  - apply andb_prop in Nk as [N1 N2]. rewrite !forallb_app. split; intro H; apply andb_prop in H as [H1 H2]; destruct As as [As|As]; [apply IHa|apply IHb|apply IHa|apply IHb]; auto.
  - apply andb_prop in Nk as [N1 N2]. rewrite !forallb_app. split; intro H; apply andb_prop in H as [H1 H2]; destruct As as [As|As]; [apply IHa|apply IHb|apply IHa|apply IHb]; auto.
  - auto.
Qed.

Section Use.
Variable mktime : tm -> Z * tm.
Notation day := (day mktime).
Notation last_day := (last_day mktime).
Lemma start_counts : forall s, counts_ok (start_driver true s).
Proof. intros s c k H. discriminate. Qed.
Lemma binary_fanout : forall p n, 2 < p -> binary n = true -> fanout_lt p n = true.
Proof.
  intros p n Hp. induction n as [ty k pr l i ks IH] using node_ind2. rewrite Forall_forall in IH. intro B.
  destruct ty; cbn [binary fanout_lt] in *; try discriminate; auto; apply andb_prop in B as [B1 B2]; apply Nat.eqb_eq in B1; rewrite forallb_forall in B2;
    (apply andb_true_intro; split; [rewrite B1; cbn; lia|]); apply forallb_forall; auto.
Qed.
(** Everything the secret sharing theorems ask of a policy holds of a parsed one. *)
Lemma policy_ready : forall s q, create_policy_tree mktime s = Ok (Some q) ->
  exists e r, reads e s /\ well e = true /\ nums_ok e = true /\ dates_ok day last_day e = true /\ proot q = Some r /\ binary r = true /\
    ptext q = s /\ (tidy_names e = true -> denotes day last_day e r /\ well_indexed (repeated q) r) /\
    (tidy_names e = true -> no_percent_names e = true -> no_percent r).
Proof.
  intros s q E. apply create_accept in E as (e & s' & n & d' & P & En & W & Nm & D & M & _ & ->).
  exists e, n. split; [exists s'; auto|]. split; auto. split; auto. split; auto. split; [reflexivity|]. pose proof (issues_text _ _ _ _ _ M) as T.
  pose proof (start_pol_none _ _ _ _ _ M) as Pn.
  destruct M as [(cs & B & As) De]. split; [apply B|]. split; [exact T|]. split.
  - intro Ty. split; auto. apply (built_indexed _ _ _ _ (repeated (made s n d')) B); auto using start_counts.
    + apply Forall_forall. intros c I. apply (asked_facts e c Nm (As c I)). exact Ty.
    + intros x H. apply made_repeated; auto.
  - intros Ty Np a I In_. pose proof (built_labels _ _ _ _ B) as Pl. apply (in_map complete_label) in I. apply (Permutation_in _ Pl) in I.
    apply in_map_iff in I as (c & Ec & I). destruct (asked_facts e c Nm (As c I)) as [F1 F2].
    rewrite label_tidy in Ec by auto. specialize (F2 Np). unfold has_percent in F2. apply not_true_iff_false in F2. apply F2, mem_in. rewrite Ec. exact In_.
Qed.
(** A policy text asked of an attribute list text. *)
Lemma texts_truth : forall s q t l, create_policy_tree mktime s = Ok (Some q) -> create_attribute_list mktime t = Ok (Some l) ->
  exists e a r, reads e s /\ well e = true /\ attr_text a t /\ proot q = Some r /\
    (tidy_names e = true -> (forall c b, In (c, b) (compared e) -> single_valued day (aitems a) c b) ->
     sat (match_attribute (aattrs l)) r = truth day last_day (plain (aitems a)) (value day (aitems a)) e).
Proof.
  intros s q t l Hq Hl. apply policy_ready in Hq as (e & r & Re & W & Nm & D & Hr & _ & _ & De & _).
  apply attrs_accept in Hl as (a & (t' & P & En) & Tr & Ok_ & Ea & _). exists e, a, r. split; auto. split; auto. split; [exists t'; auto|]. split; auto.
  intros Ty Sv. rewrite Ea. apply policy_truth; auto.
  - destruct Re as (s' & Pe & _). eapply text_pre_good; eauto.
  - apply De, Ty.
  - apply items_named. eapply text_pre_good; eauto.
Qed.
End Use.
