(** std::map<std::string, A>: association lists kept sorted by key. *)
From Verif Require Import Base.
From Coq Require Import ZArith List Ascii Bool Lia Sorted.
Import ListNotations.

Lemma str_tri : forall a b, str_ltb a b = true \/ a = b \/ str_ltb b a = true.
Proof.
  intros a b. destruct (str_ltb a b) eqn:E1; auto. destruct (str_ltb b a) eqn:E2; auto.
  right. left. apply str_ltb_total; assumption.
Qed.

Definition smap (A : Type) := list (str * A).

Section M.
Context {A : Type}.

Fixpoint mget (k : str) (m : smap A) : option A :=
  match m with
  | [] => None
  | (k', v) :: m' => if str_eqb k k' then Some v else mget k m'
  end.

(** m[k] = v. *)
Fixpoint mset (k : str) (v : A) (m : smap A) : smap A :=
  match m with
  | [] => [(k, v)]
  | (k', v') :: m' =>
      if str_eqb k k' then (k, v) :: m'
      else if str_ltb k k' then (k, v) :: m
      else (k', v') :: mset k v m'
  end.

(** m.erase(k). *)
Definition mdel (k : str) (m : smap A) : smap A :=
  filter (fun e => negb (str_eqb k (fst e))) m.

Definition mmem (k : str) (m : smap A) : bool :=
  match mget k m with Some _ => true | None => false end.

Definition mkeys (m : smap A) : list str := map fst m.

Definition msorted (m : smap A) : Prop := StronglySorted (fun a b => str_ltb (fst a) (fst b) = true) m.

Lemma mget_mset_same : forall k v m, mget k (mset k v m) = Some v.
Proof.
  induction m as [|[k' v'] m IH]; simpl; [rewrite str_eqb_refl; auto|].
  destruct (str_eqb k k') eqn:E; simpl; [rewrite str_eqb_refl; auto|].
  destruct (str_ltb k k'); simpl; [rewrite str_eqb_refl; auto|]. rewrite E. auto.
Qed.

Lemma mget_mset_other : forall k k2 v m, k2 <> k -> mget k2 (mset k v m) = mget k2 m.
Proof.
  intros k k2 v m H. induction m as [|[k' v'] m IH]; simpl.
  - replace (str_eqb k2 k) with false by (symmetry; apply str_eqb_neq; auto). auto.
  - destruct (str_eqb k k') eqn:E; simpl.
    + apply str_eqb_eq in E. subst.
      replace (str_eqb k2 k') with false by (symmetry; apply str_eqb_neq; auto). auto.
    + destruct (str_ltb k k'); simpl.
      * replace (str_eqb k2 k) with false by (symmetry; apply str_eqb_neq; auto). auto.
      * rewrite IH. auto.
Qed.

Lemma mget_mdel_same : forall k m, mget k (mdel k m) = None.
Proof.
  induction m as [|[k' v'] m IH]; simpl; auto.
  destruct (str_eqb k k') eqn:E; simpl; auto. rewrite E. auto.
Qed.

Lemma mget_mdel_other : forall k k2 m, k2 <> k -> mget k2 (mdel k m) = mget k2 m.
Proof.
  intros k k2 m H. induction m as [|[k' v'] m IH]; simpl; auto.
  destruct (str_eqb k k') eqn:E; simpl.
  - apply str_eqb_eq in E. subst.
    replace (str_eqb k2 k') with false by (symmetry; apply str_eqb_neq; auto). auto.
  - rewrite IH. auto.
Qed.

Lemma mget_In : forall k v m, mget k m = Some v -> In (k, v) m.
Proof.
  induction m as [|[k' v'] m IH]; simpl; [discriminate|].
  destruct (str_eqb k k') eqn:E; intro H.
  - apply str_eqb_eq in E. injection H as ->. subst. auto.
  - auto.
Qed.

Lemma mget_None : forall k m, mget k m = None <-> ~ In k (mkeys m).
Proof.
  unfold mkeys. induction m as [|[k' v'] m IH]; simpl; [tauto|].
  destruct (str_eqb k k') eqn:E.
  - apply str_eqb_eq in E. subst. split; [discriminate|intro H; exfalso; apply H; auto].
  - apply str_eqb_neq in E. rewrite IH. split; intros H; [intros [e|]; [congruence|tauto]|tauto].
Qed.

Lemma In_mset : forall k v m e, In e (mset k v m) -> e = (k, v) \/ In e m.
Proof.
  induction m as [|[k' v'] m IH]; simpl; intros e H; [intuition auto|].
  destruct (str_eqb k k'); [simpl in H; intuition|].
  destruct (str_ltb k k'); simpl in H; [intuition|].
  destruct H as [H|H]; [auto|]. apply IH in H. tauto.
Qed.

Lemma msorted_mset : forall k v m, msorted m -> msorted (mset k v m).
Proof.
  unfold msorted. induction m as [|[k' v'] m IH]; simpl; intro H.
  - constructor; [constructor|constructor].
  - inversion H as [|? ? Hs Hf]; subst.
    destruct (str_eqb k k') eqn:E.
    + apply str_eqb_eq in E. subst. constructor; assumption.
    + destruct (str_ltb k k') eqn:E2.
      * constructor; [assumption|]. constructor; [exact E2|].
        eapply Forall_impl; [|exact Hf]. intros [a b] Ha. simpl in *. eapply str_ltb_trans; eauto.
      * constructor; [auto|]. apply Forall_forall. intros e He. apply In_mset in He as [->|He].
        -- simpl. apply str_eqb_neq in E. destruct (str_tri k k') as [?|[?|?]]; congruence.
        -- rewrite Forall_forall in Hf. auto.
Qed.

Lemma msorted_nil : msorted [].
Proof. constructor. Qed.

Lemma msorted_mdel : forall k m, msorted m -> msorted (mdel k m).
Proof.
  unfold msorted. induction m as [|[k' v'] m IH]; simpl; intro H; [constructor|].
  inversion H as [|? ? Hs Hf]; subst. destruct (negb (str_eqb k k')); [|auto].
  constructor; [auto|]. apply Forall_forall. intros e He. unfold mdel in He. apply filter_In in He as [He _].
  rewrite Forall_forall in Hf. auto.
Qed.

Lemma msorted_NoDup : forall m, msorted m -> NoDup (mkeys m).
Proof.
  induction m as [|[k v] m IH]; intro H; simpl; [constructor|].
  inversion H as [|? ? Hs Hf]; subst. constructor; [|auto].
  intro Hin. apply in_map_iff in Hin as ([k2 v2] & E & Hin). simpl in E. subst.
  rewrite Forall_forall in Hf. specialize (Hf _ Hin). simpl in Hf. rewrite str_ltb_irrefl in Hf. discriminate.
Qed.

Lemma In_mget : forall k v m, NoDup (mkeys m) -> In (k, v) m -> mget k m = Some v.
Proof.
  induction m as [|[k' v'] m IH]; simpl; intros Hn H; [tauto|].
  inversion Hn; subst. destruct H as [H|H].
  - injection H as -> ->. rewrite str_eqb_refl. auto.
  - destruct (str_eqb k k') eqn:E; [|auto].
    apply str_eqb_eq in E. subst. exfalso. apply H2. apply in_map_iff. exists (k', v). auto.
Qed.

Lemma mget_lt_head : forall k k' v' m, msorted ((k', v') :: m) -> str_ltb k k' = true -> mget k ((k', v') :: m) = None.
Proof.
  intros k k' v' m H Hlt. apply mget_None. intro Hin. simpl in Hin. destruct Hin as [->|Hin].
  - rewrite str_ltb_irrefl in Hlt. discriminate.
  - apply in_map_iff in Hin as ([k2 v2] & E & Hin). simpl in E. subst.
    inversion H as [|? ? Hs Hf]; subst. rewrite Forall_forall in Hf. specialize (Hf _ Hin). simpl in Hf.
    rewrite (str_ltb_asym _ _ Hlt) in Hf. discriminate.
Qed.

(** Sorted maps are equal as soon as they answer every lookup alike. *)
Lemma smap_ext : forall m1 m2, msorted m1 -> msorted m2 -> (forall k, mget k m1 = mget k m2) -> m1 = m2.
Proof.
  induction m1 as [|[k1 v1] m1 IH]; intros [|[k2 v2] m2] H1 H2 H.
  - reflexivity.
  - specialize (H k2). simpl in H. rewrite str_eqb_refl in H. discriminate.
  - specialize (H k1). simpl in H. rewrite str_eqb_refl in H. discriminate.
  - destruct (str_tri k1 k2) as [Hlt|[Heq|Hlt]].
    + exfalso. pose proof (H k1) as E. rewrite (mget_lt_head _ _ _ _ H2 Hlt) in E. simpl in E. rewrite str_eqb_refl in E. discriminate.
    + subst. pose proof (H k2) as E. simpl in E. rewrite str_eqb_refl in E. injection E as ->.
      f_equal. inversion H1; inversion H2; subst. apply IH; auto.
      intro k. specialize (H k). simpl in H. destruct (str_eqb k k2) eqn:E; [|exact H].
      apply str_eqb_eq in E. subst.
      assert (forall m, msorted ((k2, v2) :: m) -> mget k2 m = None).
      { intros m Hm. apply mget_None. apply msorted_NoDup in Hm. simpl in Hm. inversion Hm; auto. }
      rewrite !H0; auto.
    + exfalso. pose proof (H k2) as E. rewrite (mget_lt_head _ _ _ _ H1 Hlt) in E. simpl in E. rewrite str_eqb_refl in E. discriminate.
Qed.

Lemma mkeys_mset : forall k v m x, In x (mkeys (mset k v m)) <-> x = k \/ In x (mkeys m).
Proof.
  intros k v m x. destruct (str_eq_dec x k) as [->|E].
  - split; auto. intros _. destruct (mget k (mset k v m)) eqn:E.
    + apply mget_In in E. apply in_map_iff. exists (k, a). auto.
    + rewrite mget_mset_same in E. discriminate.
  - pose proof (mget_mset_other k x v m E) as H.
    assert (forall m, In x (mkeys m) <-> mget x m <> None).
    { intro m0. pose proof (mget_None x m0). destruct (mget x m0) eqn:E0.
      - split; [congruence|]. intros _. apply mget_In in E0. apply in_map_iff. exists (x, a). auto.
      - split; [intros Hin ?; tauto|congruence]. }
    rewrite !H0, H. tauto.
Qed.

End M.
