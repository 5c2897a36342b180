(** Proofs about the secret sharing model. *)
From Verif Require Import Base StrMap Dec Field FieldProofs Policy Lsss LsssSpec.
From Coq Require Import ZArith Znumtheory List Ascii Bool Lia ZifyBool ZifyNat Permutation Setoid Morphisms.
Import ListNotations.
Open Scope Z_scope.

(** ** Induction over trees *)
Section NodeInd.
Variable P : node -> Prop.
Hypothesis H : forall t k pr l i ks, Forall P ks -> P (Node t k pr l i ks).
Fixpoint node_ind2 (n : node) : P n :=
  match n with
  | Node t k pr l i ks =>
      H t k pr l i ks
        ((fix go (l : list node) : Forall P l :=
            match l with [] => Forall_nil _ | c :: l' => Forall_cons _ (node_ind2 c) (go l') end) ks)
  end.
End NodeInd.

(** ** Children with their positions *)
Fixpoint kptrs (p : path) (j : nat) (l : list node) : list ptr :=
  match l with [] => [] | c :: l' => (j :: p, c) :: kptrs p (S j) l' end.

Lemma combine_seq_cons : forall {A} j (c : A) l,
  combine (seq j (length (c :: l))) (c :: l) = (j, c) :: combine (seq (S j) (length l)) l.
Proof. reflexivity. Qed.

Lemma kid_ptrs_kptrs : forall p n, kid_ptrs (p, n) = kptrs p 0 (nkids n).
Proof.
  intros p n. unfold kid_ptrs. generalize (nkids n) 0%nat. 
  induction l as [|c l IH]; intro j; [reflexivity|]. rewrite combine_seq_cons. cbn [map kptrs]. rewrite IH. reflexivity.
Qed.

Lemma kptrs_In : forall l p j q, In q (kptrs p j l) -> exists i c, q = ((j + i)%nat :: p, c) /\ nth_error l i = Some c.
Proof.
  induction l as [|c l IH]; intros p j q Hq; [easy|].
  destruct Hq as [<-|Hq].
  - exists 0%nat, c. rewrite Nat.add_0_r. auto.
  - apply IH in Hq as (i & c' & -> & Hn). exists (S i), c'. split; [|exact Hn]. do 2 f_equal. lia.
Qed.

(** ** Paths *)
Lemma path_eqb_eq : forall a b, path_eqb a b = true <-> a = b.
Proof.
  induction a as [|x a IH]; destruct b as [|y b]; simpl; split; intro H; try easy.
  - apply andb_prop in H as [H1 H2]. apply Nat.eqb_eq in H1. apply IH in H2. congruence.
  - injection H as -> ->. rewrite Nat.eqb_refl. apply IH. reflexivity.
Qed.
Lemma fupd_same : forall st p f, fupd st p f p = f.
Proof. intros. unfold fupd. replace (path_eqb p p) with true; [reflexivity|]. symmetry. apply path_eqb_eq. reflexivity. Qed.
Lemma fupd_other : forall st p f q, p <> q -> fupd st p f q = st q.
Proof.
  intros st p f q H. unfold fupd. destruct (path_eqb p q) eqn:E; [|reflexivity]. apply path_eqb_eq in E. contradiction.
Qed.

(** [q] lies in the subtree rooted at [p]. *)
Definition under (p q : path) : Prop := exists r, q = r ++ p.
Definition sunder (p q : path) : Prop := exists i, under (i :: p) q.

Lemma under_refl : forall p, under p p. Proof. intro p. exists []. reflexivity. Qed.
Lemma under_cons : forall i p q, under (i :: p) q -> under p q.
Proof. intros i p q (r & ->). exists (r ++ [i]). rewrite <- app_assoc. reflexivity. Qed.
Lemma under_len : forall p q, under p q -> (length p <= length q)%nat.
Proof. intros p q (r & ->). rewrite app_length. lia. Qed.
Lemma app_tail_inj : forall (a b p q : path), length p = length q -> a ++ p = b ++ q -> p = q.
Proof.
  intros a b p q Hl H.
  assert (length a = length b). { apply (f_equal (@length nat)) in H. rewrite !app_length in H. lia. }
  revert b H H0. induction a as [|x a IH]; destruct b as [|y b]; intros H H0; simpl in *; try lia; [assumption|].
  injection H as -> H. apply (IH b); auto.
Qed.
Lemma under_disjoint : forall i j p q, i <> j -> under (i :: p) q -> under (j :: p) q -> False.
Proof.
  intros i j p q Hij (a & ->) (b & H). apply app_tail_inj in H; [|reflexivity]. congruence.
Qed.
Lemma under_not_self : forall i p, ~ under (i :: p) p.
Proof. intros i p H. apply under_len in H. simpl in H. lia. Qed.
Lemma sunder_under : forall p q, sunder p q -> under p q.
Proof. intros p q (i & H). eapply under_cons; eauto. Qed.
Lemma under_cases : forall p q, under p q -> q = p \/ sunder p q.
Proof.
  intros p q (r & ->). destruct r as [|x r]; [left; reflexivity|right].
  destruct (@exists_last _ (x :: r) ltac:(discriminate)) as (r' & i & ->).
  exists i, r'. rewrite <- app_assoc. reflexivity.
Qed.

(** ** resetFlags *)
Lemma set_mark_other : forall st p m s q, p <> q -> set_mark st p m s q = st q.
Proof. intros. unfold set_mark. apply fupd_other. assumption. Qed.
Lemma set_visited_other : forall st p v q, p <> q -> set_visited st p v q = st q.
Proof. intros. unfold set_visited. apply fupd_other. assumption. Qed.
Lemma set_mark_same : forall st p m s, set_mark st p m s p = {| fmark := m; fsat := s; fvisited := fvisited (st p) |}.
Proof. intros. unfold set_mark. apply fupd_same. Qed.
Lemma set_visited_same : forall st p v, set_visited st p v p = {| fmark := fmark (st p); fsat := fsat (st p); fvisited := v |}.
Proof. intros. unfold set_visited. apply fupd_same. Qed.

(** Positions of the nodes of a tree placed at [p]. *)
Fixpoint positions (p : path) (n : node) : list path :=
  let 'Node t _ _ _ _ ks := n in
  p :: match t with
       | GateLeaf => []
       | _ => (fix go (j : nat) (l : list node) : list path :=
                 match l with [] => [] | c :: l' => positions (j :: p) c ++ go (S j) l' end) O ks
       end.
Fixpoint kpositions (p : path) (j : nat) (l : list node) : list path :=
  match l with [] => [] | c :: l' => positions (j :: p) c ++ kpositions p (S j) l' end.

Lemma positions_leaf : forall p n, ntype n = GateLeaf -> positions p n = [p].
Proof. intros p [t k pr l i ks] H. simpl in H. subst. reflexivity. Qed.
Lemma positions_gate : forall p n, ntype n <> GateLeaf -> positions p n = p :: kpositions p 0 (nkids n).
Proof.
  intros p [t k pr l i ks] H. simpl in H. cbn [positions nkids].
  assert (E : forall j l0, (fix go (j : nat) (l : list node) : list path :=
                 match l with [] => [] | c :: l' => positions (j :: p) c ++ go (S j) l' end) j l0 = kpositions p j l0).
  { intros j l0. revert j. induction l0 as [|c l0 IH]; intro j; [reflexivity|]. cbn [kpositions]. rewrite IH. reflexivity. }
  rewrite E. destruct t; congruence.
Qed.

Lemma kpositions_In : forall l p j q, In q (kpositions p j l) <-> exists i c, nth_error l i = Some c /\ In q (positions ((j + i)%nat :: p) c).
Proof.
  induction l as [|c l IH]; intros p j q; cbn [kpositions].
  - split; [easy|]. intros (i & c & H & _). destruct i; discriminate.
  - rewrite in_app_iff, IH. split.
    + intros [H|(i & c' & H1 & H2)].
      * exists 0%nat, c. rewrite Nat.add_0_r. auto.
      * exists (S i), c'. split; [exact H1|]. replace (j + S i)%nat with (S j + i)%nat by lia. exact H2.
    + intros ([|i] & c' & H1 & H2).
      * left. injection H1 as ->. rewrite Nat.add_0_r in H2. exact H2.
      * right. exists i, c'. split; [exact H1|]. replace (S j + i)%nat with (j + S i)%nat by lia. exact H2.
Qed.

Lemma positions_under : forall n p q, In q (positions p n) -> under p q.
Proof.
  induction n as [t k pr l i ks IH] using node_ind2. intros p q H.
  destruct (gate_eqb t GateLeaf) eqn:E.
  - rewrite positions_leaf in H by (destruct t; easy). destruct H as [<-|[]]. apply under_refl.
  - rewrite positions_gate in H by (simpl; intro; subst; discriminate).
    destruct H as [<-|H]; [apply under_refl|]. apply kpositions_In in H as (j & c & Hc & Hq).
    rewrite Forall_forall in IH. apply nth_error_In in Hc.
    apply (IH _ Hc) in Hq. eapply under_cons; eauto.
Qed.

Definition stack_positions (stk : list ptr) : list path := flat_map (fun q => positions (fst q) (snd q)) stk.

Lemma stack_positions_kptrs : forall l p j, stack_positions (kptrs p j l) = kpositions p j l.
Proof. induction l as [|c l IH]; intros; [reflexivity|]. cbn. unfold stack_positions in IH. rewrite IH. reflexivity. Qed.

Lemma stack_positions_app : forall a b, stack_positions (a ++ b) = stack_positions a ++ stack_positions b.
Proof. intros. apply flat_map_app. Qed.
Lemma stack_positions_rev : forall a q, In q (stack_positions (rev a)) <-> In q (stack_positions a).
Proof.
  intros a q. unfold stack_positions. rewrite !in_flat_map.
  split; intros (x & H1 & H2); exists x; (split; [|exact H2]); apply in_rev; [|rewrite rev_involutive]; exact H1.
Qed.

Fixpoint ksize (l : list node) : nat := match l with [] => O | c :: l' => (tree_size c + ksize l')%nat end.
Definition stack_size (stk : list ptr) : nat := fold_right (fun q a => tree_size (snd q) + a)%nat O stk.

Lemma tree_size_eq : forall n, tree_size n = S (ksize (nkids n)).
Proof. intros [t k pr l i ks]. reflexivity. Qed.
Lemma stack_size_app : forall a b, stack_size (a ++ b) = (stack_size a + stack_size b)%nat.
Proof. induction a as [|x a IH]; intro b; [reflexivity|]. cbn [app]. change (stack_size (x :: a ++ b)) with (tree_size (snd x) + stack_size (a ++ b))%nat. rewrite IH. change (stack_size (x :: a)) with (tree_size (snd x) + stack_size a)%nat. lia. Qed.
Lemma stack_size_rev : forall a, stack_size (rev a) = stack_size a.
Proof. induction a as [|x a IH]; cbn [rev]; auto. rewrite stack_size_app, IH. change (stack_size (x :: a)) with (tree_size (snd x) + stack_size a)%nat. change (stack_size [x]) with (tree_size (snd x) + 0)%nat. lia. Qed.
Lemma stack_size_kptrs : forall l p j, stack_size (kptrs p j l) = ksize l.
Proof. induction l as [|c l IH]; intros p j; [reflexivity|]. cbn [kptrs ksize]. rewrite <- (IH p (S j)). reflexivity. Qed.

Lemma path_in_dec : forall (q : path) l, In q l \/ ~ In q l.
Proof. intros q l. destruct (in_dec (list_eq_dec Nat.eq_dec) q l); auto. Qed.

Lemma reset_loop_spec : forall fuel stk st, (stack_size stk <= fuel)%nat ->
  exists st', reset_loop fuel stk st = Some st' /\
    forall q, (In q (stack_positions stk) -> st' q = fresh_flags) /\ (~ In q (stack_positions stk) -> st' q = st q).
Proof.
  induction fuel as [|f IH]; intros stk st Hf.
  - destruct stk as [|[p n] stk].
    + exists st. split; [reflexivity|]. intro q. split; [easy|auto].
    + cbn in Hf. rewrite tree_size_eq in Hf. lia.
  - destruct stk as [|[p n] stk].
    + exists st. split; [reflexivity|]. intro q. split; [easy|auto].
    + cbn [reset_loop]. set (st2 := set_visited _ p false).
      assert (Hst2 : forall q, (q = p -> st2 q = fresh_flags) /\ (q <> p -> st2 q = st q)).
      { intro q. unfold st2. split; intro Hq.
        - subst q. rewrite set_visited_same, set_mark_same. reflexivity.
        - rewrite set_visited_other, set_mark_other by auto. reflexivity. }
      assert (Hsz : (tree_size n + stack_size stk <= S f)%nat) by exact Hf.
      rewrite tree_size_eq in Hsz.
      assert (Hgen : forall stk', (stack_size stk' <= f)%nat ->
        (forall q, In q (stack_positions ((p, n) :: stk)) <-> q = p \/ In q (stack_positions stk')) ->
        exists st', reset_loop f stk' st2 = Some st' /\
          forall q, (In q (stack_positions ((p, n) :: stk)) -> st' q = fresh_flags) /\ (~ In q (stack_positions ((p, n) :: stk)) -> st' q = st q)).
      { intros stk' Hs Hpos. destruct (IH stk' st2 Hs) as (st' & E & Hq). exists st'. split; [exact E|].
        intro q. rewrite Hpos. destruct (Hq q) as [Hq1 Hq2]. destruct (Hst2 q) as [H1 H2]. split.
        - intros [->|Hin]; [|auto]. destruct (path_in_dec p (stack_positions stk')) as [Hin|Hn]; [auto|]. rewrite Hq2 by assumption. auto.
        - intro Hn. rewrite Hq2, H2 by tauto. reflexivity. }
      destruct (gate_eqb (ntype n) GateLeaf) eqn:E.
      * assert (Hl : ntype n = GateLeaf) by (destruct (ntype n); easy). rewrite Hl.
        apply Hgen; [lia|]. intro q. cbn. rewrite positions_leaf by assumption. cbn. intuition.
      * assert (Hl : ntype n <> GateLeaf) by (intro K; rewrite K in E; discriminate).
        assert (Hgo : exists st', reset_loop f (rev (kid_ptrs (p, n)) ++ stk) st2 = Some st' /\
          forall q, (In q (stack_positions ((p, n) :: stk)) -> st' q = fresh_flags) /\ (~ In q (stack_positions ((p, n) :: stk)) -> st' q = st q)).
        { apply Hgen.
          - rewrite stack_size_app, stack_size_rev, kid_ptrs_kptrs, stack_size_kptrs. lia.
          - intro q. change (stack_positions ((p, n) :: stk)) with (positions p n ++ stack_positions stk).
            rewrite positions_gate by assumption. rewrite <- stack_positions_kptrs, <- kid_ptrs_kptrs.
            rewrite stack_positions_app. cbn [app In]. rewrite !in_app_iff, stack_positions_rev. intuition. }
        destruct (ntype n); (exact Hgo || congruence).
Qed.

Lemma reset_flags_spec : forall r st, exists st', reset_flags r st = Some st' /\
  forall q, (In q (positions [] r) -> st' q = fresh_flags) /\ (~ In q (positions [] r) -> st' q = st q).
Proof.
  intros r st. unfold reset_flags.
  destruct (reset_loop_spec (tree_size r) [([], r)] st) as (st' & E & H). { cbn. lia. }
  exists st'. split; [exact E|]. cbn in H. setoid_rewrite app_nil_r in H. exact H.
Qed.
