(** The invariant of the memory model: who owns which object. *)
From Verif Require Import Base StrMap Policy Scanner Driver Parser Memory MemorySpec.
From Coq Require Import ZArith List Ascii Bool Lia ZifyBool ZifyNat Permutation.
Import ListNotations.
Open Scope Z_scope.

Definition kids_of (m : mem) : list nat := flat_map (fun c => match c with CNode _ ks => ks | _ => [] end) (cells m).
Definition shape (c : cell) : cell := match c with CNode _ ks => CNode 0 ks | c => c end.
Definition at_shape (m : mem) (a : nat) : option cell := option_map shape (nth_error (cells m) a).
Definition is_node (m : mem) (a : nat) : Prop := exists ks, at_shape m a = Some (CNode 0 ks).
(** [m'] has the objects of [m] and maybe more. *)
Definition grows (m m' : mem) : Prop := forall a, (a < length (cells m))%nat -> at_shape m' a = at_shape m a.
Lemma at_len : forall m a c, at_shape m a = Some c -> (a < length (cells m))%nat.
Proof. unfold at_shape. intros m a c H. apply nth_error_Some. destruct (nth_error (cells m) a); [discriminate|discriminate H]. Qed.
Lemma at_none : forall m a, at_shape m a = None <-> (length (cells m) <= a)%nat.
Proof. unfold at_shape. intros m a. rewrite <- nth_error_None. destruct (nth_error (cells m) a); cbn; split; intro; congruence. Qed.
Lemma grows_at : forall m m' a c, grows m m' -> at_shape m a = Some c -> at_shape m' a = Some c.
Proof. intros m m' a c G H. rewrite G; auto. eapply at_len; eauto. Qed.
Lemma grows_refl : forall m, grows m m.
Proof. intros m a _. reflexivity. Qed.
Lemma grows_len : forall m m', grows m m' -> (length (cells m) <= length (cells m'))%nat.
Proof.
  intros m m' G. destruct (le_lt_dec (length (cells m)) (length (cells m'))) as [|L]; auto. exfalso.
  specialize (G (length (cells m')) L). assert (at_shape m' (length (cells m')) = None) as X by (apply at_none; lia).
  rewrite X in G. symmetry in G. apply at_none in G. lia.
Qed.
Lemma grows_trans : forall a b c, grows a b -> grows b c -> grows a c.
Proof. intros a b c G H x L. rewrite H; auto. pose proof (grows_len _ _ G). lia. Qed.
Lemma grows_node : forall m m' a, grows m m' -> is_node m a -> is_node m' a.
Proof. intros m m' a G (ks & H). exists ks. eapply grows_at; eauto. Qed.

Definition kids_of_shape (l : list cell) : list nat := flat_map (fun c => match c with CNode _ ks => ks | _ => [] end) l.
Lemma kids_shape : forall l l', map shape l = map shape l' -> kids_of_shape l = kids_of_shape l'.
Proof.
  induction l as [|c l IH]; intros [|c' l'] H; try discriminate; [reflexivity|]. injection H as H1 H2. specialize (IH _ H2). unfold kids_of_shape in *. cbn [flat_map]. rewrite IH. f_equal.
  destruct c, c'; cbn in H1; congruence.
Qed.
Definition same (m m' : mem) : Prop := map shape (cells m') = map shape (cells m).
Lemma same_kids : forall m m', same m m' -> kids_of m' = kids_of m.
Proof. intros m m' H. apply kids_shape. exact H. Qed.
Lemma same_at : forall m m' a, same m m' -> at_shape m' a = at_shape m a.
Proof. intros m m' a H. unfold at_shape. rewrite <- !nth_error_map. unfold same in H. rewrite H. reflexivity. Qed.
Lemma same_grows : forall m m', same m m' -> grows m m'.
Proof. intros m m' H a _. apply same_at; auto. Qed.
Lemma same_len : forall m m', same m m' -> length (cells m') = length (cells m).
Proof. intros m m' H. apply (f_equal (@length cell)) in H. rewrite !map_length in H. exact H. Qed.
Lemma same_refl : forall m, same m m.
Proof. intro. reflexivity. Qed.
Lemma same_trans : forall a b c, same a b -> same b c -> same a c.
Proof. unfold same. intros. congruence. Qed.
Lemma same_emit : forall e m, same m (emit e m).
Proof. reflexivity. Qed.
Lemma put_shape : forall l a rc rc' ks, nth_error l a = Some (CNode rc ks) -> map shape (put a (CNode rc' ks) l) = map shape l.
Proof.
  induction l as [|c l IH]; intros [|a] rc rc' ks H; cbn in *; try discriminate.
  - injection H as ->. reflexivity.
  - f_equal. eapply IH; eauto.
Qed.
Lemma put_same : forall l a c x, nth_error l a = Some x -> nth_error (put a c l) a = Some c.
Proof. induction l as [|y l IH]; intros [|a] c x H; cbn in *; try discriminate; auto. eapply IH; eauto. Qed.
Lemma put_other : forall l a b c, a <> b -> nth_error (put a c l) b = nth_error l b.
Proof. induction l as [|y l IH]; intros [|a] [|b] c H; cbn; auto; try congruence. Qed.

(** ** The invariant *)

Record inv (own lost : list nat) (m : mem) : Prop := {
  i_legal : legal (history m);
  i_new : forall a, In (New a) (past m) <-> (a < length (cells m))%nat;
  i_nodup : NoDup (own ++ kids_of m ++ lost);
  i_live : forall a, ((a < length (cells m))%nat /\ ~ In (Del a) (past m)) <-> In a (own ++ kids_of m ++ lost);
  i_rc : forall a rc ks, nth_error (cells m) a = Some (CNode rc ks) -> 0 <= rc < 2^32;
  i_kids : forall a ks, at_shape m a = Some (CNode 0 ks) -> Forall (fun k => (k < a)%nat /\ is_node m k) ks }.

Lemma legal_snoc : forall h e, legal h ->
  match e with New a => ~ In (New a) h | Use a | Del a => In (New a) h /\ ~ In (Del a) h | Wild => False end ->
  legal (h ++ [e]).
Proof.
  intros h e H K b x a E.
  destruct (rev a) as [|y ra] eqn:Ea.
  - apply (f_equal (@rev event)) in Ea. rewrite rev_involutive in Ea. cbn in Ea. subst a.
    apply app_inj_tail in E as [<- <-]. exact K.
  - assert (a = rev ra ++ [y]) as -> by (rewrite <- (rev_involutive a), Ea; reflexivity).
    rewrite app_comm_cons, app_assoc in E. apply app_inj_tail in E as [-> _]. apply (H b x (rev ra)). reflexivity.
Qed.
Lemma hist_emit : forall e m, history (emit e m) = history m ++ [e].
Proof. reflexivity. Qed.
Lemma in_hist : forall e m, In e (history m) <-> In e (past m).
Proof. intros. unfold history. rewrite <- in_rev. tauto. Qed.

Lemma inv_perm : forall own own' lost m, Permutation own own' -> inv own lost m -> inv own' lost m.
Proof.
  intros own own' lost m P [L N D V R K]. split; auto.
  - eapply Permutation_NoDup; [|exact D]. apply Permutation_app_tail. exact P.
  - intro a. rewrite V. rewrite !in_app_iff. split; (intros [H|H]; [left|right; exact H]).
    + exact (Permutation_in _ P H).
    + exact (Permutation_in _ (Permutation_sym P) H).
Qed.
Lemma inv_lose : forall a own lost m, inv (a :: own) lost m -> inv own (lost ++ [a]) m.
Proof.
  intros a own lost m [L N D V R K].
  assert (Permutation ((a :: own) ++ kids_of m ++ lost) (own ++ kids_of m ++ lost ++ [a])) as P.
  { cbn [app]. rewrite !app_assoc. apply Permutation_cons_append. }
  split; auto.
  - eapply Permutation_NoDup; eauto.
  - intro b. rewrite V. split; intro H; [exact (Permutation_in _ P H)|exact (Permutation_in _ (Permutation_sym P) H)].
Qed.
Lemma inv_use : forall a own lost m, inv own lost m -> In a (own ++ kids_of m ++ lost) -> inv own lost (emit (Use a) m).
Proof.
  intros a own lost m [L N D V R K] H. apply V in H as [H1 H2]. split; auto.
  - rewrite hist_emit. apply legal_snoc; auto. rewrite !in_hist, N. auto.
  - intro b. cbn. rewrite <- N. split; [intros [X|X]; [discriminate|exact X]|auto].
  - intro b. rewrite <- V. cbn. split; intros [X Y]; split; auto; intro Z; apply Y; auto. destruct Z as [Z|Z]; [discriminate|exact Z].
Qed.
Lemma inv_del : forall a own lost m, inv (a :: own) lost m -> inv own lost (emit (Del a) m).
Proof.
  intros a own lost m [L N D V R K].
  assert (In a ((a :: own) ++ kids_of m ++ lost)) as H by (left; reflexivity). pose proof (proj2 (V a) H) as [H1 H2].
  change ((a :: own) ++ kids_of m ++ lost) with (a :: own ++ kids_of m ++ lost) in *. apply NoDup_cons_iff in D as [D1 D2].
  split; auto.
  - rewrite hist_emit. apply legal_snoc; auto. rewrite !in_hist, N. auto.
  - intro b. cbn. rewrite <- N. split; [intros [X|X]; [discriminate|exact X]|auto].
  - intro b. change (kids_of (emit (Del a) m)) with (kids_of m). change (cells (emit (Del a) m)) with (cells m). cbn [past emit In].
    specialize (V b). destruct V as [V1 V2]. split.
    + intros [X Y]. destruct (V1 (conj X (fun Z => Y (or_intror Z)))) as [->|Z]; auto. exfalso. apply Y. left. reflexivity.
    + intro X. destruct (V2 (or_intror X)) as [Y Z]. split; auto. intros [Q|Q]; [injection Q as <-; contradiction|contradiction].
Qed.
Lemma kids_alloc : forall c m, kids_of (snd (alloc c m)) = kids_of m ++ match c with CNode _ ks => ks | _ => [] end.
Proof. intros c m. unfold kids_of, alloc. cbn [snd cells]. rewrite flat_map_app. cbn. rewrite app_nil_r. reflexivity. Qed.
Lemma grows_alloc : forall c m, grows m (snd (alloc c m)).
Proof. intros c m a H. unfold at_shape, alloc. cbn [snd cells]. rewrite nth_error_app1; auto. Qed.
Lemma at_alloc : forall c m, at_shape (snd (alloc c m)) (length (cells m)) = Some (shape c).
Proof. intros c m. unfold at_shape, alloc. cbn [snd cells]. rewrite nth_error_app2 by lia. rewrite Nat.sub_diag. reflexivity. Qed.

(** A new object takes its children from the owner. *)
Lemma inv_alloc : forall c ks own lost m, inv (ks ++ own) lost m ->
  match c with CNode rc ks' => ks' = ks /\ 0 <= rc < 2^32 | _ => ks = [] end ->
  Forall (is_node m) ks -> inv (length (cells m) :: own) lost (snd (alloc c m)).
Proof.
  intros c ks own lost m [L N D V R K] Hc Hn. set (a := length (cells m)).
  assert (kids_of (snd (alloc c m)) = kids_of m ++ ks) as Ek. { rewrite kids_alloc. f_equal. destruct c; auto. apply Hc. }
  assert (Permutation (a :: (ks ++ own) ++ kids_of m ++ lost) ((a :: own) ++ (kids_of m ++ ks) ++ lost)) as P.
  { cbn [app]. constructor. rewrite <- !app_assoc. rewrite (Permutation_app_comm ks). rewrite <- !app_assoc. apply Permutation_app_head. apply Permutation_app_head. apply Permutation_app_comm. }
  assert (~ In a ((ks ++ own) ++ kids_of m ++ lost)) as F. { intro H. apply V in H as [H _]. unfold a in H. lia. }
  split.
  - change (history (snd (alloc c m))) with (history m ++ [New a]). apply legal_snoc; auto. rewrite in_hist, N. unfold a. lia.
  - intro b. unfold alloc. cbn [snd cells past In]. rewrite app_length. cbn [length]. rewrite N. split.
    + intros [X|X]; [injection X as <-; lia|lia].
    + intro X. destruct (Nat.eq_dec b (length (cells m))) as [->|]; [left; reflexivity|right; lia].
  - rewrite Ek. eapply Permutation_NoDup; [exact P|]. constructor; auto.
  - intro b. rewrite Ek. transitivity (In b (a :: (ks ++ own) ++ kids_of m ++ lost)).
    2:{ split; intro H; [exact (Permutation_in _ P H)|exact (Permutation_in _ (Permutation_sym P) H)]. }
    unfold alloc. cbn [snd cells past In]. rewrite app_length. cbn [length]. specialize (V b). split.
    + intros [X Y]. destruct (Nat.eq_dec b (length (cells m))) as [->|]; [left; reflexivity|]. right. apply V. split; [lia|]. intro Z. apply Y. right. exact Z.
    + intros [<-|X].
      * split; [lia|]. intros [Z|Z]; [discriminate|].
        assert (legal (history m)) as LL by exact L. apply in_hist in Z. apply in_split in Z as (h1 & h2 & E). destruct (LL _ _ _ E) as [Q _].
        assert (In (New a) (history m)) as Q2 by (rewrite E; apply in_or_app; left; exact Q). rewrite in_hist, N in Q2. unfold a in Q2. lia.
      * apply V in X as [X Y]. split; [lia|]. intros [Z|Z]; [discriminate|contradiction].
  - intros b rc ks' H. unfold alloc in H. cbn [snd cells] in H. destruct (lt_dec b (length (cells m))) as [Lb|Lb].
    + rewrite nth_error_app1 in H by lia. eapply R; eauto.
    + rewrite nth_error_app2 in H by lia. destruct (b - length (cells m))%nat as [|n]; cbn in H; [|destruct n; discriminate]. injection H as ->. apply Hc.
  - intros b ks' H. destruct (lt_dec b (length (cells m))) as [Lb|Lb].
    + rewrite (grows_alloc c m b Lb) in H. apply K in H. eapply Forall_impl; [|exact H]. intros k [H1 H2]. split; auto. eapply grows_node; [apply grows_alloc|auto].
    + pose proof (at_len _ _ _ H) as Lb'. unfold alloc in Lb'. cbn [snd cells] in Lb'. rewrite app_length in Lb'. cbn [length] in Lb'.
      assert (b = length (cells m)) as -> by lia. rewrite at_alloc in H. destruct c; try discriminate. cbn in H. injection H as ->. destruct Hc as [-> _].
      rewrite Forall_forall in *. intros k Hk. split.
      * assert (In k ((ks ++ own) ++ kids_of m ++ lost)) as Q by (apply in_or_app; left; apply in_or_app; auto). apply V in Q. lia.
      * eapply grows_node; [apply grows_alloc|auto].
Qed.
Lemma inv_alloc0 : forall c own lost m, inv own lost m -> match c with CNode _ _ => False | _ => True end ->
  inv (length (cells m) :: own) lost (snd (alloc c m)).
Proof. intros c own lost m H Hc. apply (inv_alloc c [] own lost m); auto. destruct c; auto. contradiction. Qed.

(** The count of a node may change. *)
Lemma inv_rc : forall own lost m m', inv own lost m -> same m m' -> past m' = past m ->
  (forall a rc ks, nth_error (cells m') a = Some (CNode rc ks) -> 0 <= rc < 2^32) -> inv own lost m'.
Proof.
  intros own lost m m' [L N D V R K] S P R'. split; auto.
  - unfold history. rewrite P. exact L.
  - intro a. rewrite P, N, (same_len _ _ S). tauto.
  - rewrite (same_kids _ _ S). exact D.
  - intro a. rewrite P, (same_kids _ _ S), (same_len _ _ S). apply V.
  - intros a ks H. rewrite (same_at _ _ _ S) in H. apply K in H. eapply Forall_impl; [|exact H]. intros k [H1 (x & H2)]. split; auto. exists x. rewrite (same_at _ _ _ S). exact H2.
Qed.

(** ** Deleting a tree frees its root only *)

Lemma rc_at : forall m k rc ks, nth_error (cells m) k = Some (CNode rc ks) -> rc_of m k = rc.
Proof. intros m k rc ks H. unfold rc_of. rewrite H. reflexivity. Qed.
Lemma node_cell : forall m k, is_node m k -> exists rc ks, nth_error (cells m) k = Some (CNode rc ks).
Proof. unfold is_node, at_shape. intros m k (ks & H). destruct (nth_error (cells m) k) as [[| | |rc l]|]; cbn in H; try discriminate. eauto. Qed.

Lemma de_ref_step : forall del k own lost m rc ks, inv own lost m -> In k (own ++ kids_of m ++ lost) ->
  nth_error (cells m) k = Some (CNode rc ks) -> 1 <= rc ->
  let m' := de_ref del k m in
  inv own lost m' /\ same m m' /\ nth_error (cells m') k = Some (CNode (rc - 1) ks) /\
  (forall a, In (Del a) (past m') <-> In (Del a) (past m)).
Proof.
  intros del k own lost m rc ks I Hk E Hr m'. unfold m', de_ref.
  change (rc_of (emit (Use k) m) k) with (rc_of m k). rewrite (rc_at _ _ _ _ E).
  replace (rc <=? 0) with false by lia. unfold set_rc. change (cells (emit (Use k) m)) with (cells m). rewrite E.
  pose proof (i_rc _ _ _ I _ _ _ E) as Rc. rewrite Z.mod_small by lia.
  assert (same m (store k (CNode (rc - 1) ks) (emit (Use k) m))) as S. { unfold same, store. cbn [cells emit]. eapply put_shape; eauto. }
  split; [|split; [exact S|split]].
  - eapply inv_rc; [apply (inv_use k); eauto| |reflexivity|].
    + exact S.
    + intros a rc' ks' H. unfold store in H. cbn [cells emit] in H. destruct (Nat.eq_dec k a) as [<-|Na].
      * rewrite (put_same _ _ _ _ E) in H. injection H as <- <-. lia.
      * rewrite put_other in H by auto. eapply i_rc; eauto.
  - unfold store. cbn [cells emit]. eapply put_same; eauto.
  - intro a. cbn. split; [intros [X|X]; [discriminate|auto]|auto].
Qed.
Lemma iter_de_ref : forall del k n own lost m rc ks, inv own lost m -> In k (own ++ kids_of m ++ lost) ->
  nth_error (cells m) k = Some (CNode rc ks) -> Z.of_nat n <= rc ->
  let m' := Nat.iter n (de_ref del k) m in
  inv own lost m' /\ same m m' /\ nth_error (cells m') k = Some (CNode (rc - Z.of_nat n) ks) /\
  (forall a, In (Del a) (past m') <-> In (Del a) (past m)).
Proof.
  induction n as [|n IH]; intros own lost m rc ks I Hk E Hn.
  - cbn. replace (rc - 0) with rc by lia. split; [exact I|]. split; [apply same_refl|]. split; [exact E|]. intro; tauto.
  - cbn zeta. change (Nat.iter (S n) (de_ref del k) m) with (de_ref del k (Nat.iter n (de_ref del k) m)).
    destruct (IH own lost m rc ks I Hk E ltac:(lia)) as (I1 & S1 & E1 & D1). cbv zeta in *.
    set (m1 := Nat.iter n (de_ref del k) m) in *.
    destruct (de_ref_step del k own lost m1 _ _ I1 ltac:(rewrite (same_kids _ _ S1); exact Hk) E1 ltac:(lia)) as (I2 & S2 & E2 & D2).
    split; [exact I2|]. split; [eapply same_trans; eauto|]. split.
    + rewrite E2. do 2 f_equal. lia.
    + intro a. rewrite D2. apply D1.
Qed.
Lemma release_step : forall del k own lost m, inv own lost m -> In k (kids_of m) -> is_node m k ->
  let m' := release del m k in
  inv own lost m' /\ same m m' /\ (forall a, In (Del a) (past m') <-> In (Del a) (past m)).
Proof.
  intros del k own lost m I Hk Hn. unfold release. cbv zeta. destruct (node_cell m k Hn) as (rc & ks & E).
  change (rc_of (emit (Use k) m) k) with (rc_of m k). rewrite (rc_at _ _ _ _ E). pose proof (i_rc _ _ _ I _ _ _ E) as Rc.
  assert (In k (own ++ kids_of m ++ lost)) as Hin by (apply in_or_app; right; apply in_or_app; auto).
  destruct (iter_de_ref del k (Z.to_nat rc) own lost (emit (Use k) m) rc ks (inv_use k _ _ _ I Hin) Hin E ltac:(lia)) as (I1 & S1 & _ & D1).
  split; auto. split; [exact S1|]. intro a. rewrite D1. cbn. split; [intros [X|X]; [discriminate|auto]|auto].
Qed.
Lemma release_all : forall del ks own lost m, inv own lost m -> Forall (fun k => In k (kids_of m) /\ is_node m k) ks ->
  let m' := fold_left (release del) ks m in
  inv own lost m' /\ same m m' /\ (forall a, In (Del a) (past m') <-> In (Del a) (past m)).
Proof.
  induction ks as [|k ks IH]; intros own lost m I F; cbn [fold_left].
  - split; [exact I|]. split; [apply same_refl|]. intro; tauto.
  - inversion F as [|k' ks' [F1 F2] F3]; subst. destruct (release_step del k own lost m I F1 F2) as (I1 & S1 & D1). cbv zeta in *.
    destruct (IH own lost _ I1) as (I2 & S2 & D2).
    { eapply Forall_impl; [|exact F3]. intros x [X1 (l & X2)]. split; [rewrite (same_kids _ _ S1); auto|]. exists l. rewrite (same_at _ _ _ S1). exact X2. }
    split; auto. split; [eapply same_trans; eauto|]. intro a. rewrite D2. apply D1.
Qed.
Lemma kids_in : forall m a ks, at_shape m a = Some (CNode 0 ks) -> forall k, In k ks -> In k (kids_of m).
Proof.
  unfold at_shape, kids_of. intros m a ks H k Hk. destruct (nth_error (cells m) a) as [c|] eqn:E; [|discriminate].
  apply nth_error_In in E. apply in_flat_map. exists c. split; auto. destruct c; cbn in H; try discriminate. injection H as ->. exact Hk.
Qed.
Lemma inv_delete : forall a own lost m, inv (a :: own) lost m -> is_node m a ->
  let m' := delete_tree a m in inv own lost m' /\ same m m'.
Proof.
  intros a own lost m I (ks & Hn). unfold delete_tree. cbn [delete_node]. cbv zeta.
  destruct (nth_error (cells m) a) as [[| | |rc l]|] eqn:E; unfold at_shape in Hn; rewrite E in Hn; cbn in Hn; try discriminate. injection Hn as ->.
  assert (at_shape m a = Some (CNode 0 ks)) as Hs by (unfold at_shape; rewrite E; reflexivity).
  destruct (release_all (delete_node a) ks (a :: own) lost (emit (Use a) m)) as (I1 & S1 & D1).
  - apply inv_use; auto. left. reflexivity.
  - pose proof (i_kids _ _ _ I _ _ Hs) as K. rewrite Forall_forall in *. intros k Hk. split; [eapply kids_in; eauto|]. apply K. exact Hk.
  - split; [apply inv_del; exact I1|]. exact S1.
Qed.

(** ** Building and copying trees *)

Definition below (t : node) : nat := pred (size t).
Definition sum (l : list node) : nat := fold_right (fun k n => (size k + n)%nat) O l.

Lemma size_kids : forall t, size t = S (sum (nkids t)).
Proof. intros [ty thr p l i ks]. reflexivity. Qed.

Definition grown (own lost : list nat) (m : mem) (a : nat) (m' : mem) (n : nat) : Prop :=
  inv (a :: own) lost m' /\ grows m m' /\ is_node m' a /\ (length (kids_of m') = length (kids_of m) + n)%nat /\
  (exists more, kids_of m' = kids_of m ++ more) /\
  (forall b, In (Del b) (past m') <-> In (Del b) (past m)).

Lemma alloc_node : forall ks own lost m, inv (ks ++ own) lost m -> Forall (is_node m) ks ->
  grown own lost m (fst (alloc (CNode 1 ks) m)) (snd (alloc (CNode 1 ks) m)) (length ks).
Proof.
  intros ks own lost m I F. split; [apply (inv_alloc _ ks); auto; split; [reflexivity|lia]|]. split; [apply grows_alloc|]. split.
  - exists ks. apply at_alloc.
  - split; [rewrite kids_alloc, app_length; lia|]. split; [exists ks; rewrite kids_alloc; reflexivity|].
    intro b. cbn. split; [intros [X|X]; [discriminate|auto]|auto].
Qed.

(** Both loops over the children. *)
Definition gather {A} (f : A -> mem -> nat * mem) (s : list nat * mem) (k : A) : list nat * mem :=
  let '(a, m') := f k (snd s) in (fst s ++ [a], m').
Lemma alloc_tree_step : forall t own lost m, inv own lost m ->
  grown own lost m (fst (alloc_tree t m)) (snd (alloc_tree t m)) (below t).
Proof.
  fix IH 1. intros [ty thr p l i ks] own lost m I.
  assert (forall (acc : list nat * mem) , fold_left (fun s k => let '(a, m') := alloc_tree k (snd s) in (fst s ++ [a], m')) ks acc = fold_left (gather alloc_tree) ks acc) as E by reflexivity.
  cbn [alloc_tree nkids]. rewrite E. clear E.
  assert (let r := fold_left (gather alloc_tree) ks ([], m) in
    inv (fst r ++ own) lost (snd r) /\ Forall (is_node (snd r)) (fst r) /\ grows m (snd r) /\ length (fst r) = length ks /\
    (length (kids_of (snd r)) = length (kids_of m) + fold_right (fun x n => below x + n)%nat O ks)%nat /\
    (exists more, kids_of (snd r) = kids_of m ++ more) /\
    (forall b, In (Del b) (past (snd r)) <-> In (Del b) (past m))) as Q.
  { assert (forall acc m0, inv (acc ++ own) lost m0 -> Forall (is_node m0) acc ->
      let r := fold_left (gather alloc_tree) ks (acc, m0) in
      inv (fst r ++ own) lost (snd r) /\ Forall (is_node (snd r)) (fst r) /\ grows m0 (snd r) /\ length (fst r) = (length acc + length ks)%nat /\
      (length (kids_of (snd r)) = length (kids_of m0) + fold_right (fun x n => below x + n)%nat O ks)%nat /\
      (exists more, kids_of (snd r) = kids_of m0 ++ more) /\
      (forall b, In (Del b) (past (snd r)) <-> In (Del b) (past m0))) as Q.
    { clear I m. induction ks as [|k ks IHk]; intros acc m I F; cbn [fold_left].
      - cbn. split; auto. split; auto. split; [apply grows_refl|]. split; [lia|]. split; [lia|]. split; [exists []; rewrite app_nil_r; reflexivity|]. tauto.
      - destruct (IH k (acc ++ own) lost m I) as (I1 & R1 & N1 & K1 & (mo & M1) & D1).
        assert (gather alloc_tree (acc, m) k = (acc ++ [fst (alloc_tree k m)], snd (alloc_tree k m))) as Eg.
        { unfold gather. cbn [fst snd]. destruct (alloc_tree k m); reflexivity. }
        rewrite Eg. clear Eg. destruct (alloc_tree k m) as [a m1]. cbn [fst snd] in *.
        destruct (IHk (acc ++ [a]) m1) as (I2 & F2 & R2 & L2 & K2 & (mo2 & M2) & D2).
        + eapply inv_perm; [|exact I1]. rewrite <- app_assoc. cbn. apply Permutation_middle.
        + apply Forall_app. split; [|constructor; auto]. eapply Forall_impl; [|exact F]. intros b. apply grows_node; auto.
        + split; auto. split; auto. split; [eapply grows_trans; eauto|]. split; [rewrite L2, app_length; cbn [length]; lia|].
          split; [rewrite K2, K1; cbn [fold_right]; lia|]. split; [exists (mo ++ mo2); rewrite M2, M1, app_assoc; reflexivity|].
          intro b. rewrite D2. apply D1. }
    apply (Q [] m); auto. }
  cbv zeta in Q. destruct (fold_left (gather alloc_tree) ks ([], m)) as [as_ m1]. cbn [fst snd] in Q.
  destruct Q as (I1 & F1 & R1 & L1 & K1 & (mo & M1) & D1).
  destruct (alloc_node as_ own lost m1 I1 F1) as (I2 & R2 & N2 & K2 & (mo2 & M2) & D2).
  split; auto. split; [eapply grows_trans; eauto|]. split; auto. split.
  - rewrite K2, K1, L1. unfold below at 2. cbn [size nkids pred]. 
    assert (length ks + fold_right (fun x n => below x + n)%nat O ks = fold_right (fun k n => size k + n)%nat O ks)%nat as <-.
    { clear. induction ks as [|k ks IHk]; [reflexivity|]. cbn [length fold_right]. rewrite <- IHk. unfold below at 1. destruct k; cbn [size pred]. lia. }
    lia.
  - split; [exists (mo ++ mo2); rewrite M2, M1, app_assoc; reflexivity|]. intro b. rewrite D2. apply D1.
Qed.

(** Copying from node [a]: it reads live nodes only. *)
Lemma copy_step : forall f a own lost m, (a < f)%nat -> inv own lost m -> In a (own ++ kids_of m ++ lost) -> is_node m a ->
  exists n, grown own lost m (fst (copy_node f a m)) (snd (copy_node f a m)) n.
Proof.
  induction f as [|f IH]; intros a own lost m La I Ha Hn; [lia|]. cbn [copy_node].
  destruct (node_cell m a Hn) as (rc & ks & E). rewrite E.
  assert (at_shape m a = Some (CNode 0 ks)) as Hs by (unfold at_shape; rewrite E; reflexivity).
  assert (forall acc m0, inv (acc ++ own) lost m0 -> Forall (is_node m0) acc -> Forall (fun k => (k < f)%nat /\ In k (kids_of m0) /\ is_node m0 k) ks ->
    let r := fold_left (fun s k => let '(b, m') := copy_node f k (snd s) in (fst s ++ [b], m')) ks (acc, m0) in
    inv (fst r ++ own) lost (snd r) /\ Forall (is_node (snd r)) (fst r) /\ grows m0 (snd r) /\
    (exists more, kids_of (snd r) = kids_of m0 ++ more) /\
    (forall b, In (Del b) (past (snd r)) <-> In (Del b) (past m0))) as Q.
  { clear E Hs I Ha Hn La m. induction ks as [|k ks IHk]; intros acc m I F G; cbn [fold_left].
    - cbn. split; auto. split; auto. split; [apply grows_refl|]. split; [exists []; rewrite app_nil_r; reflexivity|]. tauto.
    - inversion G as [|k' ks' (G1 & G2 & G3) G4]; subst.
      destruct (IH k (acc ++ own) lost m G1 I ltac:(apply in_or_app; right; apply in_or_app; auto) G3) as (n & I1 & R1 & N1 & K1 & (mo & M1) & D1).
      cbn [snd fst]. destruct (copy_node f k m) as [b m1]. cbn [fst snd] in *.
      destruct (IHk (acc ++ [b]) m1) as (I2 & F2 & R2 & (mo2 & M2) & D2).
      + eapply inv_perm; [|exact I1]. rewrite <- app_assoc. cbn. apply Permutation_middle.
      + apply Forall_app. split; [|constructor; auto]. eapply Forall_impl; [|exact F]. intros x. apply grows_node; auto.
      + eapply Forall_impl; [|exact G4]. intros x (X1 & X2 & X3). split; auto. split; [rewrite M1; apply in_or_app; auto|]. eapply grows_node; eauto.
      + split; auto. split; auto. split; [eapply grows_trans; eauto|]. split; [exists (mo ++ mo2); rewrite M2, M1, app_assoc; reflexivity|].
        intro x. rewrite D2. apply D1. }
  destruct (Q [] (emit (Use a) m)) as (I1 & F1 & R1 & (mo & M1) & D1).
  - apply inv_use; auto.
  - constructor.
  - pose proof (i_kids _ _ _ I _ _ Hs) as K. rewrite Forall_forall in *. intros k Hk. specialize (K k Hk). split; [lia|]. split; [eapply kids_in; eauto|]. apply K.
  - cbv zeta in *. destruct (fold_left _ ks ([], emit (Use a) m)) as [as_ m1]. cbn [fst snd] in *.
    destruct (alloc_node as_ own lost m1 I1 F1) as (I2 & R2 & N2 & K2 & (mo2 & M2) & D2).
    change (kids_of (emit (Use a) m)) with (kids_of m) in M1.
    exists (length mo + length as_)%nat. split; auto. split; [eapply grows_trans; [exact R1|exact R2]|]. split; auto. split.
    + rewrite K2, M1, app_length. lia.
    + split; [exists (mo ++ mo2); rewrite M2, M1, app_assoc; reflexivity|]. intro b. rewrite D2, D1. cbn. split; [intros [X|X]; [discriminate|auto]|auto].
Qed.

(** Walking over a tree reads live nodes only and changes nothing. *)
Lemma walk_step : forall f a own lost m, (a < f)%nat -> inv own lost m -> In a (own ++ kids_of m ++ lost) -> is_node m a ->
  inv own lost (walk_node f a m) /\ same m (walk_node f a m).
Proof.
  induction f as [|f IH]; intros a own lost m La I Ha Hn; [lia|]. cbn [walk_node].
  destruct (node_cell m a Hn) as (rc & ks & E). rewrite E.
  assert (at_shape m a = Some (CNode 0 ks)) as Hs by (unfold at_shape; rewrite E; reflexivity).
  assert (forall m0, inv own lost m0 -> Forall (fun k => (k < f)%nat /\ In k (kids_of m0) /\ is_node m0 k) ks ->
    inv own lost (fold_left (fun m k => walk_node f k m) ks m0) /\ same m0 (fold_left (fun m k => walk_node f k m) ks m0)) as Q.
  { clear E Hs I Ha Hn La m. induction ks as [|k ks IHk]; intros m I G; cbn [fold_left]; [split; [exact I|apply same_refl]|].
    inversion G as [|k' ks' (G1 & G2 & G3) G4]; subst.
    destruct (IH k own lost m G1 I ltac:(apply in_or_app; right; apply in_or_app; auto) G3) as [I1 S1].
    destruct (IHk (walk_node f k m) I1) as [I2 S2].
    - eapply Forall_impl; [|exact G4]. intros x (X1 & X2 & X3). split; auto. split; [rewrite (same_kids _ _ S1); exact X2|]. eapply grows_node; [apply same_grows; exact S1|exact X3].
    - split; [exact I2|eapply same_trans; eauto]. }
  destruct (Q (emit (Use a) m)) as [I1 S1].
  - apply inv_use; auto.
  - pose proof (i_kids _ _ _ I _ _ Hs) as K. rewrite Forall_forall in *. intros k Hk. specialize (K k Hk). split; [lia|]. split; [eapply kids_in; eauto|]. apply K.
  - split; [exact I1|]. eapply same_trans; [apply same_emit|exact S1].
Qed.
