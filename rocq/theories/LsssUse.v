(** Which rows recovery uses; distinct row labels; reported counts. *)
From Verif Require Import Base StrMap Dec Field FieldProofs Policy Lsss LsssSpec LsssProofs LsssScan LsssShare LsssAlgebra LsssRecover.
From Coq Require Import ZArith Znumtheory List Ascii Bool Lia ZifyBool ZifyNat Permutation Setoid Morphisms.
Import ListNotations.
Open Scope Z_scope.

Lemma sat_by_sat : forall held n, sat held n = sat_by (fun l => held (complete_label l)) n.
Proof.
  intro held. induction n as [ty k pr l i ks IH] using node_ind2. rewrite Forall_forall in IH.
  destruct ty; simpl; try reflexivity.
  - induction ks as [|c ks IHk]; [reflexivity|]. simpl. rewrite IH by (left; reflexivity). f_equal. apply IHk. intros; apply IH; right; assumption.
  - induction ks as [|c ks IHk]; [reflexivity|]. simpl. rewrite IH by (left; reflexivity). f_equal. apply IHk. intros; apply IH; right; assumption.
  - do 2 f_equal. f_equal. apply filter_ext_in. assumption.
Qed.

(** ** Distinct rows *)
Lemma split_percent : forall a b x y, ~ In "%"%char a -> ~ In "%"%char b -> a ++ "%"%char :: x = b ++ "%"%char :: y -> a = b /\ x = y.
Proof.
  induction a as [|c a IH]; intros [|d b] x y Ha Hb E; cbn in *.
  - injection E; auto.
  - injection E as E _. exfalso. apply Hb. left. congruence.
  - injection E as E _. exfalso. apply Ha. left. congruence.
  - injection E as -> E. destruct (IH b x y) as [-> ->]; auto.
Qed.

Lemma well_indexed_distinct : forall cnt r, well_indexed (fun a => mmem a cnt) r -> no_percent r -> distinct_rows cnt r.
Proof.
  intros cnt r [Hnn Hw] Hp. unfold distinct_rows. apply NoDup_nth_error. intros i j Hi E. rewrite map_length in Hi.
  destruct (Nat.eq_dec i j) as [->|Hne]; [reflexivity|exfalso].
  rewrite !nth_error_map in E. destruct (nth_error (leaves r) i) as [a|] eqn:Ea; [|apply nth_error_None in Ea; lia].
  destruct (nth_error (leaves r) j) as [b|] eqn:Eb; [|discriminate]. injection E as E.
  pose proof (nth_error_In _ _ Ea) as Ia. pose proof (nth_error_In _ _ Eb) as Ib.
  pose proof (Hp a Ia) as Pa. pose proof (Hp b Ib) as Pb. unfold unique_label in E.
  destruct (mmem (complete_label a) cnt) eqn:Ma, (mmem (complete_label b) cnt) eqn:Mb.
  - change (L "%" ++ dec (nindex a)) with ("%"%char :: dec (nindex a)) in E.
    change (L "%" ++ dec (nindex b)) with ("%"%char :: dec (nindex b)) in E.
    apply split_percent in E as [E1 E2]; [|assumption|assumption].
    apply dec_inj in E2; [|apply Hnn; assumption|apply Hnn; assumption].
    destruct (Hw i j a b Hne Ea Eb E1) as [K _]. contradiction.
  - apply Pb. rewrite <- E. apply in_or_app. right. left. reflexivity.
  - apply Pa. rewrite E. apply in_or_app. right. left. reflexivity.
  - destruct (Hw i j a b Hne Ea Eb E) as [_ K]. congruence.
Qed.

Section Use.
Variable p : Z.
Variable sort : list (nat * Z) -> list (nat * Z).
Hypothesis sort_perm : forall l, Permutation (sort l) l.
Variable attrs : list str.
Notation held := (match_attribute attrs).
Notation sel := (sel sort attrs).
Notation crows := (crows p sort attrs).
Notation kcrows := (kcrows p sort attrs).

Definition used (n : node) : list node := map fst (crows n 1).

Lemma crows_fst : forall n c c', map fst (crows n c) = map fst (crows n c').
Proof.
  induction n as [ty k pr l i ks IH] using node_ind2. intros c c'. set (n := Node ty k pr l i ks) in *.
  destruct (is_leaf_dec n) as [Hl|Hl].
  - rewrite !crows_leaf by assumption. reflexivity.
  - rewrite !crows_gate by assumption. change (nkids n) with ks. clearbody n. generalize 0%nat.
    induction IH as [|x l0 Hx Hl0 IH0]; intro j; [reflexivity|]. cbn [LsssShare.kcrows].
    rewrite !map_app, (IH0 (S j)). destruct (sel n j); [|reflexivity]. f_equal. apply Hx.
Qed.

Lemma kcrows_In : forall n c l j x, In x (map fst (kcrows n c j l)) <->
  exists i k, nth_error l i = Some k /\ sel n (j + i) = true /\ In x (used k).
Proof.
  intros n c l. induction l as [|k l IH]; intros j x; cbn [LsssShare.kcrows].
  - split; [intros []|]. intros (i & k & H & _). destruct i; discriminate.
  - rewrite map_app, in_app_iff, IH. split.
    + intros [(i & k0 & H1 & H2 & H3)|H].
      * exists (S i), k0. rewrite Nat.add_succ_r. auto.
      * destruct (sel n j) eqn:E; [|destruct H]. exists 0%nat, k. rewrite Nat.add_0_r. repeat split; auto.
        unfold used. erewrite crows_fst. exact H.
    + intros ([|i] & k0 & H1 & H2 & H3).
      * right. injection H1 as <-. rewrite Nat.add_0_r in H2. rewrite H2. unfold used in H3. erewrite crows_fst. exact H3.
      * left. exists i, k0. rewrite Nat.add_succ_r in H2. auto.
Qed.
Lemma used_gate : forall n x, ntype n <> GateLeaf -> In x (used n) <-> exists i k, nth_error (nkids n) i = Some k /\ sel n i = true /\ In x (used k).
Proof. intros n x Hl. unfold used at 1. rewrite crows_gate by assumption. rewrite kcrows_In. reflexivity. Qed.
Lemma used_leaf : forall n, ntype n = GateLeaf -> used n = [n].
Proof. intros n Hl. unfold used. rewrite crows_leaf by assumption. reflexivity. Qed.

Lemma used_leaves : forall n x, In x (used n) -> In x (leaves n).
Proof.
  induction n as [ty k pr l i ks IH] using node_ind2. intros x H. set (n := Node ty k pr l i ks) in *.
  destruct (is_leaf_dec n) as [Hl|Hl].
  - rewrite used_leaf in H by assumption. rewrite leaves_leaf by assumption. exact H.
  - rewrite used_gate in H by assumption. rewrite leaves_gate by assumption. destruct H as (j & c & Hj & _ & Hx).
    apply in_flat_map. exists c. apply nth_error_In in Hj. split; [assumption|]. rewrite Forall_forall in IH. apply IH; assumption.
Qed.

Lemma used_held : forall n x, and_or n = true -> sat held n = true -> In x (used n) -> held (complete_label x) = true.
Proof.
  induction n as [ty k pr l i ks IH] using node_ind2. intros x Ha Hs H. set (n := Node ty k pr l i ks) in *.
  destruct (is_leaf_dec n) as [Hl|Hl].
  - rewrite used_leaf in H by assumption. destruct H as [<-|[]]. rewrite sat_leaf in Hs by assumption. exact Hs.
  - rewrite used_gate in H by assumption. destruct H as (j & c & Hj & Hsel & Hx).
    pose proof (nth_error_In _ _ Hj) as Hin. rewrite Forall_forall in IH. apply (IH c); auto.
    + eapply and_or_kid; eauto.
    + eapply sel_sat; eauto.
Qed.

Lemma sat_by_and : forall f n, ntype n = GateAnd -> sat_by f n = forallb (sat_by f) (nkids n).
Proof. intros f [ty k pr l i ks] H. simpl in H. subst. reflexivity. Qed.
Lemma sat_by_or : forall f n, ntype n = GateOr -> sat_by f n = existsb (sat_by f) (nkids n).
Proof. intros f [ty k pr l i ks] H. simpl in H. subst. reflexivity. Qed.
Lemma sat_by_leaf : forall f n, ntype n = GateLeaf -> sat_by f n = f n.
Proof. intros f [ty k pr l i ks] H. simpl in H. subst. reflexivity. Qed.
Lemma and_or_type : forall n, and_or n = true -> ntype n = GateLeaf \/ ntype n = GateAnd \/ ntype n = GateOr.
Proof. intros [ty k pr l i ks] H. destruct ty; simpl in *; auto; discriminate. Qed.
Lemma and_or_nonempty : forall n, and_or n = true -> ntype n <> GateLeaf -> exists c, nth_error (nkids n) 0 = Some c.
Proof.
  intros [ty k pr l i ks] H Hl. simpl in *. destruct ks as [|c ks]; [|exists c; reflexivity].
  destruct ty; simpl in *; try discriminate; congruence.
Qed.

Lemma used_sat : forall f n, and_or n = true -> sat held n = true -> (forall x, In x (used n) -> f x = true) -> sat_by f n = true.
Proof.
  intros f. induction n as [ty k pr l i ks IH] using node_ind2. intros Ha Hs H. set (n := Node ty k pr l i ks) in *.
  rewrite Forall_forall in IH.
  destruct (and_or_type n Ha) as [Hn|[Hn|Hn]].
  - rewrite sat_by_leaf by assumption. apply H. rewrite used_leaf by assumption. left. reflexivity.
  - rewrite sat_by_and by assumption. apply forallb_forall. intros c Hc.
    pose proof (In_nth_error _ _ Hc) as (j & Hj).
    assert (Hsel : sel n j = true) by (unfold LsssShare.sel; rewrite Hn; reflexivity).
    apply IH; [exact Hc| | |].
    + eapply and_or_kid; eauto. congruence.
    + eapply (sel_sat sort); eauto. congruence.
    + intros x Hx. apply H. apply used_gate; [congruence|]. eauto.
  - rewrite sat_by_or by assumption. destruct (chosen_spec sort sort_perm attrs n Hn Hs) as (c & l0 & w & Hc & Hsc & _).
    apply existsb_exists. exists c. split; [eapply nth_error_In; eauto|].
    apply IH; [eapply nth_error_In; exact Hc| |assumption|].
    + eapply and_or_kid; eauto. congruence.
    + intros x Hx. apply H. apply used_gate; [congruence|]. exists (chosen sort attrs n), c. repeat split; auto.
      unfold LsssShare.sel. rewrite Hn. apply Nat.eqb_refl.
Qed.

Lemma sat_by_none : forall f n, and_or n = true -> (forall x, In x (leaves n) -> f x = false) -> sat_by f n = false.
Proof.
  intros f. induction n as [ty k pr l i ks IH] using node_ind2. intros Ha H. set (n := Node ty k pr l i ks) in *.
  rewrite Forall_forall in IH.
  destruct (and_or_type n Ha) as [Hn|Hn'].
  - rewrite sat_by_leaf by assumption. apply H. rewrite leaves_leaf by assumption. left. reflexivity.
  - assert (Hl : ntype n <> GateLeaf) by (destruct Hn' as [K|K]; rewrite K; discriminate).
    rewrite leaves_gate in H by assumption.
    assert (Hk : forall c, In c (nkids n) -> sat_by f c = false).
    { intros c Hc. apply IH; [exact Hc| |].
      - apply In_nth_error in Hc as (j & Hj). eapply and_or_kid; eauto.
      - intros x Hx. apply H. apply in_flat_map. eauto. }
    destruct Hn' as [Hn|Hn].
    + rewrite sat_by_and by assumption. destruct (and_or_nonempty n Ha Hl) as (c & Hc). apply nth_error_In in Hc.
      apply not_true_iff_false. intro K. rewrite forallb_forall in K. specialize (K c Hc). rewrite Hk in K by assumption. discriminate.
    + rewrite sat_by_or by assumption. apply not_true_iff_false. intro K. apply existsb_exists in K as (c & Hc & K). rewrite Hk in K by assumption. discriminate.
Qed.

Lemma NoDup_app_disj : forall {A} (a b : list A) x, NoDup (a ++ b) -> In x a -> In x b -> False.
Proof.
  induction a as [|y a IH]; intros b x HN Ha Hb; [destruct Ha|]. inversion HN; subst. destruct Ha as [->|Ha].
  - apply H1. apply in_or_app. right. assumption.
  - eapply IH; eauto.
Qed.
Lemma NoDup_app_l : forall {A} (a b : list A), NoDup (a ++ b) -> NoDup a.
Proof. induction a as [|y a IH]; intros b HN; [constructor|]. inversion HN; subst. constructor; [|eapply IH; eauto]. intro K. apply H1. apply in_or_app. auto. Qed.
Lemma NoDup_app_r : forall {A} (a b : list A), NoDup (a ++ b) -> NoDup b.
Proof. induction a as [|y a IH]; intros b HN; [assumption|]. inversion HN; subst. eapply IH; eauto. Qed.
Lemma flat_map_disj : forall {A B} (f : A -> list B) l i j a b x, NoDup (flat_map f l) -> nth_error l i = Some a -> nth_error l j = Some b ->
  In x (f a) -> In x (f b) -> i = j.
Proof.
  intros A B f l. induction l as [|y l IH]; intros i j a b x HN Ha Hb Ia Ib; [destruct i; discriminate|].
  cbn [flat_map] in HN. destruct i as [|i], j as [|j]; cbn in Ha, Hb; try reflexivity.
  - injection Ha as ->. exfalso. eapply NoDup_app_disj; [exact HN|exact Ia|]. apply in_flat_map. exists b. split; [eapply nth_error_In; eauto|assumption].
  - injection Hb as ->. exfalso. eapply NoDup_app_disj; [exact HN|exact Ib|]. apply in_flat_map. exists a. split; [eapply nth_error_In; eauto|assumption].
  - f_equal. eapply IH; eauto. eapply NoDup_app_r; eauto.
Qed.
Lemma flat_map_NoDup_kid : forall {A B} (f : A -> list B) l a, NoDup (flat_map f l) -> In a l -> NoDup (f a).
Proof.
  intros A B f l a. induction l as [|y l IH]; intros HN Hin; [destruct Hin|]. cbn [flat_map] in HN. destruct Hin as [->|Hin].
  - eapply NoDup_app_l; eauto.
  - apply IH; [eapply NoDup_app_r; eauto|assumption].
Qed.

Lemma used_minimal : forall f n y, and_or n = true -> sat held n = true -> NoDup (leaves n) ->
  In y (used n) -> f y = false -> (forall x, In x (leaves n) -> ~ In x (used n) -> f x = false) -> sat_by f n = false.
Proof.
  intros f. induction n as [ty k pr l i ks IH] using node_ind2. intros y Ha Hs HN Hy Hfy Hf. set (n := Node ty k pr l i ks) in *.
  rewrite Forall_forall in IH.
  destruct (is_leaf_dec n) as [Hl|Hl].
  - rewrite used_leaf in Hy by assumption. destruct Hy as [<-|[]]. rewrite sat_by_leaf; assumption.
  - pose proof Hy as Hy0. rewrite used_gate in Hy by assumption. destruct Hy as (j & c & Hj & Hsel & Hyc).
    rewrite leaves_gate in HN by assumption.
    pose proof (nth_error_In _ _ Hj) as Hin.
    assert (Hc : sat_by f c = false).
    { apply (IH c Hin y); auto.
      - eapply and_or_kid; eauto.
      - eapply (sel_sat sort); eauto.
      - eapply flat_map_NoDup_kid; eauto.
      - intros x Hx Hnu. apply Hf.
        + rewrite leaves_gate by assumption. apply in_flat_map. eauto.
        + rewrite used_gate by assumption. intros (j' & c' & Hj' & _ & Hx'). apply Hnu.
          assert (j = j') by (eapply (flat_map_disj leaves); eauto; apply used_leaves; assumption). subst j'. congruence. }
    destruct (and_or_type n Ha) as [Hn|[Hn|Hn]]; [congruence| |].
    + rewrite sat_by_and by assumption. apply not_true_iff_false. intro K. rewrite forallb_forall in K. specialize (K c Hin). congruence.
    + rewrite sat_by_or by assumption. apply not_true_iff_false. intro K. apply nth_error_existsb in K as (j' & c' & Hj' & K).
      destruct (Nat.eq_dec j j') as [->|Hne]; [congruence|].
      rewrite sat_by_none in K; [discriminate|eapply and_or_kid; eauto|].
      intros x Hx. apply Hf.
      * rewrite leaves_gate by assumption. apply in_flat_map. exists c'. split; [eapply nth_error_In; eauto|assumption].
      * rewrite used_gate by assumption. intros (j2 & c2 & Hj2 & Hsel2 & Hx2).
        assert (j2 = j').
        { eapply (flat_map_disj leaves); eauto; apply used_leaves; assumption. }
        subst j2. unfold LsssShare.sel in Hsel, Hsel2. rewrite Hn in Hsel, Hsel2. apply Nat.eqb_eq in Hsel, Hsel2. congruence.
Qed.

(** ** Reported count *)
Lemma cnt_and : forall n, ntype n = GateAnd -> cnt sort attrs n = if forallb (sat held) (nkids n) then fold_right (fun c a => cnt sort attrs c + a) 0 (nkids n) else 0.
Proof. intros [ty k pr l i ks] H. simpl in H. subst. reflexivity. Qed.
Lemma cnt_or : forall n, ntype n = GateOr -> cnt sort attrs n = if existsb (sat held) (nkids n) then snd (hd (O, 0) (sort (pm attrs n))) else 0.
Proof. intros [ty k pr l i ks] H. simpl in H. subst. reflexivity. Qed.

Lemma used_length : forall n, and_or n = true -> sat held n = true -> or_of_leaves n = true -> Z.of_nat (length (used n)) = cnt sort attrs n.
Proof.
  induction n as [ty k pr l i ks IH] using node_ind2. intros Ha Hs Ho. set (n := Node ty k pr l i ks) in *.
  rewrite Forall_forall in IH.
  destruct (and_or_type n Ha) as [Hn|[Hn|Hn]].
  - rewrite used_leaf by assumption. rewrite sat_leaf in Hs by assumption. unfold n in *. simpl in Hn. subst ty. cbn [cnt]. rewrite Hs. reflexivity.
  - rewrite cnt_and by assumption. pose proof Hs as Hs0. rewrite sat_and in Hs0 by assumption. rewrite Hs0.
    unfold used. rewrite crows_gate by congruence.
    assert (Hall : forall c, In c (nkids n) -> Z.of_nat (length (used c)) = cnt sort attrs c).
    { intros c Hc. apply IH; [exact Hc| | |].
      - apply In_nth_error in Hc as (j & Hj). eapply and_or_kid; eauto. congruence.
      - rewrite forallb_forall in Hs0. auto.
      - unfold n in Ho, Hn, Hc. simpl in Hn, Hc. subst ty. simpl in Ho. rewrite forallb_forall in Ho. auto. }
    assert (Hsel : forall j, sel n j = true) by (intro j; unfold LsssShare.sel; rewrite Hn; reflexivity).
    revert Hall. generalize (nkids n) 0%nat. clear - Hsel. intro l1. induction l1 as [|x l0 IH0]; intros j Hall; [reflexivity|].
    cbn [LsssShare.kcrows fold_right]. rewrite Hsel, map_app, app_length, Nat2Z.inj_add, IH0 by (intros; apply Hall; right; assumption).
    rewrite (crows_fst x _ 1). change (map fst (crows x 1)) with (used x). rewrite Hall by (left; reflexivity). lia.
  - rewrite cnt_or by assumption. pose proof Hs as Hs0. rewrite sat_or in Hs0 by assumption. rewrite Hs0.
    destruct (chosen_spec sort sort_perm attrs n Hn Hs) as (c & l0 & w & Hc & Hsc & El & Hw & _). rewrite El. cbn [hd snd].
    assert (Hlf : ntype c = GateLeaf /\ nkids c = []).
    { unfold n in Ho, Hn, Hc. simpl in Hn. subst ty. simpl in Ho. rewrite forallb_forall in Ho. specialize (Ho c (nth_error_In _ _ Hc)).
      destruct c as [tc ? ? ? ? kc]. destruct tc; try discriminate. split; [reflexivity|]. simpl. destruct kc; [reflexivity|discriminate]. }
    destruct Hlf as [Hcl Hck]. unfold weight in Hw. rewrite Hck in Hw. cbn in Hw. subst w.
    unfold used. rewrite crows_gate by congruence.
    assert (Hsel : forall j, sel n j = Nat.eqb j (chosen sort attrs n)) by (intro j; unfold LsssShare.sel; rewrite Hn; reflexivity).
    enough (G : forall l j, (j <= chosen sort attrs n)%nat -> nth_error l (chosen sort attrs n - j) = Some c ->
       length (map fst (kcrows n 1 j l)) = 1%nat).
    { rewrite G; [reflexivity|lia|]. rewrite Nat.sub_0_r. exact Hc. }
    assert (G0 : forall l j, (chosen sort attrs n < j)%nat -> kcrows n 1 j l = []).
    { induction l1 as [|x l1 IH1]; intros j Hj; [reflexivity|]. cbn [LsssShare.kcrows]. rewrite IH1 by lia. rewrite Hsel.
      replace (Nat.eqb j (chosen sort attrs n)) with false by (symmetry; apply Nat.eqb_neq; lia). reflexivity. }
    induction l1 as [|x l1 IH1]; intros j Hj Hnt; [destruct (chosen sort attrs n - j)%nat; discriminate|].
    cbn [LsssShare.kcrows]. rewrite Hsel. destruct (Nat.eqb_spec j (chosen sort attrs n)) as [->|Hne].
    + rewrite G0 by lia. rewrite Nat.sub_diag in Hnt. injection Hnt as ->. rewrite crows_leaf by assumption. reflexivity.
    + rewrite app_nil_r. apply IH1; [lia|]. replace (chosen sort attrs n - j)%nat with (S (chosen sort attrs n - S j))%nat in Hnt by lia. exact Hnt.
Qed.

Lemma scan_kid_state : forall st p0 c l0 b, nth_error l0 b = Some c -> forall a, exists st0, (forall q', under ((a + b)%nat :: p0) q' -> st0 q' = st q') /\
   forall q, under ((a + b)%nat :: p0) q -> scan_kids sort attrs p0 a l0 st q = scan_rec sort attrs c ((a + b)%nat :: p0) st0 q.
Proof.
  intros st p0 c. induction l0 as [|x l0 IH]; intros b Hc a; [destruct b; discriminate|]. destruct b as [|b].
  - injection Hc as ->. rewrite Nat.add_0_r. exists (scan_kids sort attrs p0 (S a) l0 st). split; [|reflexivity].
    intros q' Hq'. apply scan_kids_frame; [exact sort_perm|]. eapply kpositions_lt; [|exact Hq']. lia.
  - replace (a + S b)%nat with (S a + b)%nat by lia. destruct (IH b Hc (S a)) as (st0 & H1 & H2).
    exists st0. split; [exact H1|]. intros q Hq. cbn [scan_kids]. rewrite scan_rec_frame; [auto|exact sort_perm|].
    intro K. apply positions_under in K. eapply (under_disjoint a (S a + b)); [lia|exact K|exact Hq].
Qed.

Lemma fold_kptrs_sum : forall st p0 l j acc, 
  fold_left (fun a q => a + fsat (st (fst q))) (kptrs p0 j l) acc =
  acc + fold_right (fun i a => fsat (st (i :: p0)) + a) 0 (seq j (length l)).
Proof.
  intros st p0 l. induction l as [|c l IH]; intros j acc; cbn; [lia|]. rewrite IH. cbn. lia.
Qed.

Lemma scan_fsat : forall n p0 st, and_or n = true -> unmarked st (positions p0 n) -> fsat (scan_rec sort attrs n p0 st p0) = cnt sort attrs n.
Proof.
  induction n as [t k pr l i ks IH] using node_ind2. intros p0 st Ha Hu.
  set (n := Node t k pr l i ks) in *. rewrite Forall_forall in IH.
  destruct (is_leaf_dec n) as [Hl|Hl].
  - rewrite scan_rec_leaf by assumption. unfold leaf_upd. rewrite set_visited_same, set_mark_same. cbn [fsat].
    unfold n in Hl |- *. simpl in Hl. subst t. reflexivity.
  - rewrite positions_gate in Hu by assumption.
    rewrite scan_rec_gate by assumption. set (st1 := scan_kids sort attrs p0 0 (nkids n) st).
    assert (Hkid : forall j c, nth_error (nkids n) j = Some c -> fmark (st1 (j :: p0)) = sat held c /\ fsat (st1 (j :: p0)) = cnt sort attrs c).
    { intros j c Hc. destruct (scan_kid_state st p0 c (nkids n) j Hc 0%nat) as (st0 & H1 & H2). cbn [Nat.add] in H1, H2.
      assert (Hac : and_or c = true) by (eapply and_or_kid; eauto).
      assert (Hu0 : unmarked st0 (positions (j :: p0) c)).
      { intros q Hq. rewrite H1 by (eapply positions_under; eauto). apply Hu. right. apply kpositions_In. exists j, c. auto. }
      unfold st1. rewrite H2 by apply under_refl. split.
      - apply (scan_mark_good sort sort_perm attrs c (j :: p0) st0 Hac Hu0).
      - apply IH; [eapply nth_error_In; exact Hc|assumption|assumption]. }
    rewrite set_visited_same. cbn [fsat].
    assert (Hmk : forall j c, nth_error (nkids n) j = Some c -> fmark (st1 (j :: p0)) = sat held c) by (intros; apply Hkid; assumption).
    destruct (and_or_type n Ha) as [Hn|[Hn|Hn]]; [congruence| |].
    + destruct (determine_and_spec sort attrs p0 n st1 Hn Hmk) as [D1 D2]. revert D1.
      unfold determine. rewrite Hn. cbv zeta. rewrite cnt_and by assumption. rewrite sat_and by assumption.
      match goal with |- context [if ?b then set_mark _ _ _ _ else _] => destruct b end; rewrite !set_mark_same; cbn [fmark fsat]; intros <-; [|reflexivity].
      rewrite kid_ptrs_kptrs, fold_kptrs_sum, Z.add_0_l.
      assert (G : forall l0 j, (forall i c, nth_error l0 i = Some c -> fsat (st1 ((j + i)%nat :: p0)) = cnt sort attrs c) ->
        fold_right (fun i a => fsat (st1 (i :: p0)) + a) 0 (seq j (length l0)) = fold_right (fun c a => cnt sort attrs c + a) 0 l0).
      { induction l0 as [|x l0 IH0]; intros j Hj; cbn [length seq fold_right]; [reflexivity|]. rewrite IH0.
        - specialize (Hj 0%nat x eq_refl). rewrite Nat.add_0_r in Hj. rewrite Hj. reflexivity.
        - intros i0 c Hi. specialize (Hj (S i0) c Hi). rewrite Nat.add_succ_r in Hj. exact Hj. }
      apply G. intros; apply Hkid; assumption.
    + unfold determine, scan_threshold. rewrite Hn. rewrite (marked_list_pm attrs p0 n st1 Hmk).
      rewrite cnt_or by assumption. rewrite <- sat_or by assumption.
      destruct (sat held n) eqn:Es.
      * destruct (chosen_spec sort sort_perm attrs n Hn Es) as (c & l0 & w & Hc & Hsc & El & Hw & Hnin). rewrite El. cbn [or_loop].
        rewrite (Hmk _ _ Hc), Hsc. pose proof (or_loop0_spec l0 st1 p0 true) as HL.
        destruct (or_loop st1 p0 0 true l0) as [st' r]. cbn [fst snd] in HL.
        destruct (HL p0) as [-> _]. rewrite set_mark_same. reflexivity.
      * destruct (determine_or_spec sort sort_perm attrs p0 n st1 Hn Hmk) as (D1 & _ & _). revert D1.
        unfold determine, scan_threshold. rewrite Hn. rewrite (marked_list_pm attrs p0 n st1 Hmk). rewrite Es.
        destruct (or_loop st1 p0 1 false (sort (pm attrs n))) as [st' [|]]; rewrite !set_mark_same; cbn; congruence.
Qed.

Lemma check_count : forall q r st (reset : bool), proot q = Some r -> and_or r = true -> clean r st ->
  exists st', check_if_satisfied sort attrs q reset st = Ok (sat held r, cnt sort attrs r, st').
Proof.
  intros q r st reset Hq Ha Hc. unfold check_if_satisfied. rewrite Hq.
  rewrite scan_tree_rec; [|exact sort_perm|intros x Hx; apply Hc; assumption].
  rewrite scan_fsat; [|assumption|intros x Hx; apply Hc; assumption].
  destruct (scan_mark_good sort sort_perm attrs r [] st Ha) as [-> _]; [intros x Hx; apply Hc; assumption|].
  destruct reset; [|eauto]. destruct (reset_flags_spec r (scan_rec sort attrs r [] st)) as (st2 & -> & _). eauto.
Qed.
End Use.
