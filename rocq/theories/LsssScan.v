(** The marking pass (iterativeScanTree) computes the truth value of the policy. *)
From Verif Require Import Base StrMap Dec Field FieldProofs Policy Lsss LsssSpec LsssProofs.
From Coq Require Import ZArith List Ascii Bool Lia ZifyBool ZifyNat Permutation.
Import ListNotations.
Open Scope Z_scope.

Section ScanProofs.
Variable sort : list (nat * Z) -> list (nat * Z).
Hypothesis sort_perm : forall l, Permutation (sort l) l.
Variable attrs : list str.

Notation held := (match_attribute attrs).
Notation determine := (determine sort).
Notation scan_loop := (scan_loop sort attrs).

Definition leaf_upd (n : node) (p : path) (st : fstate) : fstate :=
  let m := held (complete_label n) in
  set_visited (set_mark st p m (if m then 1 else 0)) p true.

(** Recursive counterpart of the loop: children from last to first, then the node. *)
Fixpoint scan_rec (n : node) (p : path) (st : fstate) : fstate :=
  match ntype n with
  | GateLeaf => leaf_upd n p st
  | _ =>
      let st1 :=
        (fix go (j : nat) (l : list node) : fstate :=
           match l with [] => st | c :: l' => scan_rec c (j :: p) (go (S j) l') end) O
          (let 'Node _ _ _ _ _ ks := n in ks) in
      set_visited (determine (scan_threshold n) p n st1) p true
  end.
Fixpoint scan_kids (p : path) (j : nat) (l : list node) (st : fstate) : fstate :=
  match l with [] => st | c :: l' => scan_rec c (j :: p) (scan_kids p (S j) l' st) end.

Lemma scan_rec_leaf : forall n p st, ntype n = GateLeaf -> scan_rec n p st = leaf_upd n p st.
Proof. intros [t k pr l i ks] p st H. simpl in H. subst. reflexivity. Qed.
Lemma scan_rec_gate : forall n p st, ntype n <> GateLeaf ->
  scan_rec n p st = set_visited (determine (scan_threshold n) p n (scan_kids p 0 (nkids n) st)) p true.
Proof.
  intros [t k pr l i ks] p st H. simpl in H. 
  assert (E : forall l0 j, (fix go (j : nat) (l : list node) : fstate :=
           match l with [] => st | c :: l' => scan_rec c (j :: p) (go (S j) l') end) j l0 = scan_kids p j l0 st).
  { induction l0 as [|c l0 IH]; intro j; [reflexivity|]. cbn [scan_kids]. rewrite IH. reflexivity. }
  destruct t; try congruence; cbn [scan_rec ntype nkids]; rewrite E; reflexivity.
Qed.

(** ** Effect of [or_loop] *)
Lemma or_loop0_spec : forall l st p r q,
  snd (or_loop st p 0 r l) = r /\
  fst (or_loop st p 0 r l) q =
    if fmark (st q) && existsb (fun e => path_eqb (fst e :: p) q) l
    then {| fmark := false; fsat := 0; fvisited := fvisited (st q) |} else st q.
Proof.
  induction l as [|[i w] l IH]; intros st p r q; cbn [or_loop].
  - cbn. rewrite andb_false_r. auto.
  - destruct (fmark (st (i :: p))) eqn:E.
    + destruct (IH (set_mark st (i :: p) false 0) p r q) as [H1 H2]. split; [exact H1|]. rewrite H2.
      cbn [existsb fst]. destruct (path_eqb (i :: p) q) eqn:E2.
      * apply path_eqb_eq in E2. subst q. rewrite set_mark_same, E. reflexivity.
      * rewrite set_mark_other; [reflexivity|]. intro K. apply path_eqb_eq in K. congruence.
    + destruct (IH st p r q) as [H1 H2]. split; [exact H1|]. rewrite H2. cbn [existsb fst].
      destruct (path_eqb (i :: p) q) eqn:E2; [|reflexivity].
      apply path_eqb_eq in E2. subst q. rewrite E. reflexivity.
Qed.

Lemma or_loop_frame : forall l st p e r q, (forall i, In i (map fst l) -> i :: p <> q) ->
  fst (or_loop st p e r l) q = st q.
Proof.
  induction l as [|[i w] l IH]; intros st p e r q H; cbn [or_loop]; [reflexivity|].
  assert (Hl : forall j, In j (map fst l) -> j :: p <> q) by (intros j Hj; apply H; right; exact Hj).
  destruct (fmark (st (i :: p))); [|apply IH; exact Hl].
  destruct e; [|apply IH; exact Hl]. rewrite IH by exact Hl. apply set_mark_other. apply H. left. reflexivity.
Qed.

Lemma or_loop_visited : forall l st p e r q, fvisited (fst (or_loop st p e r l) q) = fvisited (st q).
Proof.
  induction l as [|[i w] l IH]; intros st p e r q; cbn [or_loop]; [reflexivity|].
  destruct (fmark (st (i :: p))); [|apply IH]. destruct e; [|apply IH]. rewrite IH.
  unfold set_mark, fupd. destruct (path_eqb (i :: p) q) eqn:E; [|reflexivity]. apply path_eqb_eq in E. subst. reflexivity.
Qed.

Lemma combine_seq_In : forall {A} (l : list A) j i c, In (i, c) (combine (seq j (length l)) l) <-> (j <= i)%nat /\ nth_error l (i - j) = Some c.
Proof.
  intros A l. induction l as [|x l IH]; intros j i c.
  - cbn. split; [easy|]. intros [_ H]. destruct (i - j)%nat; discriminate.
  - rewrite combine_seq_cons. cbn [In]. rewrite IH. split.
    + intros [H|[H1 H2]].
      * injection H as -> ->. rewrite Nat.sub_diag. split; [lia|reflexivity].
      * split; [lia|]. replace (i - j)%nat with (S (i - S j)) by lia. exact H2.
    + intros [H1 H2]. destruct (Nat.eq_dec i j) as [->|Hne].
      * rewrite Nat.sub_diag in H2. injection H2 as ->. left. reflexivity.
      * right. split; [lia|]. replace (i - j)%nat with (S (i - S j)) in H2 by lia. exact H2.
Qed.

Lemma combine_seq_In0 : forall {A} (l : list A) i c, In (i, c) (combine (seq 0 (length l)) l) <-> nth_error l i = Some c.
Proof. intros. rewrite combine_seq_In, Nat.sub_0_r. intuition lia. Qed.

Lemma marked_list_In : forall st p n i w, In (i, w) (marked_list st p n) <->
  exists c, nth_error (nkids n) i = Some c /\ fmark (st (i :: p)) = true /\ w = Z.max 1 (Z.of_nat (length (nkids c))).
Proof.
  intros st p n i w. unfold marked_list. rewrite in_map_iff. split.
  - intros ([i' c] & E & H). injection E as -> <-. apply filter_In in H as [H1 H2]. apply combine_seq_In0 in H1. eauto.
  - intros (c & H1 & H2 & ->). exists (i, c). split; [reflexivity|]. apply filter_In. split; [|exact H2]. apply combine_seq_In0. exact H1.
Qed.

Lemma sort_In : forall l e, In e (sort l) <-> In e l.
Proof. intros l e. split; apply Permutation_in; [apply sort_perm|apply Permutation_sym, sort_perm]. Qed.

Lemma determine_visited : forall thr p n st q, fvisited (determine thr p n st q) = fvisited (st q).
Proof.
  intros thr p n st q. unfold Lsss.determine.
  assert (G : forall s m k, fvisited (s q) = fvisited (st q) -> fvisited (set_mark s p m k q) = fvisited (st q)).
  { intros s m k H. unfold set_mark, fupd. destruct (path_eqb p q) eqn:E; [|exact H]. apply path_eqb_eq in E. subst. exact H. }
  destruct (ntype n); try reflexivity.
  - destruct (forallb _ _); apply G; reflexivity.
  - pose proof (or_loop_visited (sort (marked_list st p n)) st p thr false q) as H.
    destruct (or_loop _ _ _ _ _) as [st' r]. cbn [fst] in H. destruct r; apply G; exact H.
Qed.

Lemma determine_frame : forall thr p n st q, p <> q -> (forall i, (i < length (nkids n))%nat -> i :: p <> q) ->
  determine thr p n st q = st q.
Proof.
  intros thr p n st q Hp Hk. unfold Lsss.determine. destruct (ntype n); try reflexivity.
  - destruct (forallb _ _); apply set_mark_other; exact Hp.
  - pose proof (or_loop_frame (sort (marked_list st p n)) st p thr false q) as H.
    destruct (or_loop _ _ _ _ _) as [st' r]. cbn [fst] in H.
    rewrite <- H; [destruct r; apply set_mark_other; exact Hp|].
    intros i Hi. apply in_map_iff in Hi as ([i' w] & E & Hi). cbn in E. subst.
    rewrite sort_In in Hi. apply marked_list_In in Hi as (c & Hc & _). apply Hk. apply nth_error_Some. congruence.
Qed.

(** ** Frame: only positions of the tree are written *)
Lemma positions_self : forall p n, In p (positions p n).
Proof. intros p [t k pr l i ks]. left. reflexivity. Qed.

Lemma scan_kids_frame_aux : forall l, Forall (fun n => forall p st q, ~ In q (positions p n) -> scan_rec n p st q = st q) l ->
  forall p j st q, ~ In q (kpositions p j l) -> scan_kids p j l st q = st q.
Proof.
  induction l as [|c l IH]; intros Hl p j st q Hq; cbn [scan_kids]; [reflexivity|].
  inversion Hl; subst. cbn [kpositions] in Hq. rewrite in_app_iff in Hq. rewrite H1 by tauto. apply IH; [assumption|tauto].
Qed.

Lemma scan_rec_frame : forall n p st q, ~ In q (positions p n) -> scan_rec n p st q = st q.
Proof.
  induction n as [t k pr l i ks IH] using node_ind2. intros p st q Hq.
  set (n := Node t k pr l i ks) in *.
  destruct (gate_eqb (ntype n) GateLeaf) eqn:E.
  - assert (Hl : ntype n = GateLeaf) by (destruct (ntype n); easy).
    rewrite scan_rec_leaf by assumption. rewrite positions_leaf in Hq by assumption.
    assert (p <> q) by (intro; subst; apply Hq; left; reflexivity).
    unfold leaf_upd. rewrite set_visited_other, set_mark_other by assumption. reflexivity.
  - assert (Hl : ntype n <> GateLeaf) by (intro K; rewrite K in E; discriminate).
    rewrite scan_rec_gate by assumption. rewrite positions_gate in Hq by assumption.
    assert (Hp : p <> q) by (intro; subst; apply Hq; left; reflexivity).
    assert (Hk : ~ In q (kpositions p 0 (nkids n))) by (intro; apply Hq; right; assumption).
    rewrite set_visited_other by assumption. rewrite determine_frame; [|assumption|].
    + apply scan_kids_frame_aux; assumption.
    + intros j Hj K. subst q. apply Hk. apply kpositions_In.
      destruct (nth_error (nkids n) j) as [c|] eqn:Ec; [|apply nth_error_None in Ec; lia].
      exists j, c. split; [exact Ec|]. apply positions_self.
Qed.

Lemma scan_kids_frame : forall l p j st q, ~ In q (kpositions p j l) -> scan_kids p j l st q = st q.
Proof. intros l. apply scan_kids_frame_aux. apply Forall_forall. intros n _. apply scan_rec_frame. Qed.

(** Positions of later siblings, and the parent, are outside. *)
Lemma kpositions_lt : forall l p j i q, (i < j)%nat -> under (i :: p) q -> ~ In q (kpositions p j l).
Proof.
  intros l p j i q Hij Hu Hin. apply kpositions_In in Hin as (m & c & _ & Hm). apply positions_under in Hm.
  eapply (under_disjoint i (j + m)); [lia|exact Hu|exact Hm].
Qed.
Lemma kpositions_not_self : forall l p j, ~ In p (kpositions p j l).
Proof.
  intros l p j Hin. apply kpositions_In in Hin as (m & c & _ & Hm). apply positions_under in Hm. eapply under_not_self; eauto.
Qed.
Lemma positions_lt : forall c l p j q, In q (kpositions p (S j) l) -> ~ In q (positions (j :: p) c).
Proof.
  intros c l p j q Hin Hq. apply positions_under in Hq. eapply kpositions_lt; [|exact Hq|exact Hin]. lia.
Qed.

(** Flags of child [i] in the final state of the children pass. *)
Lemma scan_kids_nth : forall l p j st i c q, nth_error l i = Some c -> under ((j + i)%nat :: p) q ->
  exists st0, (forall q', under ((j + i)%nat :: p) q' -> st0 q' = st q') /\ scan_kids p j l st q = scan_rec c ((j + i)%nat :: p) st0 q.
Proof.
  induction l as [|x l IH]; intros p j st i c q Hc Hu; [destruct i; discriminate|].
  destruct i as [|i].
  - injection Hc as ->. rewrite Nat.add_0_r in *. cbn [scan_kids].
    exists (scan_kids p (S j) l st). split; [|reflexivity].
    intros q' Hu'. apply scan_kids_frame. eapply kpositions_lt; [|exact Hu']. lia.
  - replace (j + S i)%nat with (S j + i)%nat in * by lia.
    destruct (IH p (S j) st i c q Hc Hu) as (st0 & H1 & H2). exists st0. split; [exact H1|].
    cbn [scan_kids]. rewrite scan_rec_frame; [exact H2|].
    intro K. apply positions_under in K. eapply (under_disjoint j (S j + i)); [lia|exact K|exact Hu].
Qed.

(** ** The loop computes the recursion *)
Fixpoint scost (n : node) : nat :=
  let 'Node t _ _ _ _ ks := n in
  match t with
  | GateLeaf => 1
  | _ => (match ks with [] => 1 | _ => 2 end) + (fix go l := match l with [] => 0 | c :: l' => scost c + go l' end) ks
  end%nat.
Fixpoint kcost (l : list node) : nat := match l with [] => 0 | c :: l' => (scost c + kcost l')%nat end.
Lemma scost_gate : forall n, ntype n <> GateLeaf -> scost n = ((match nkids n with [] => 1 | _ => 2 end) + kcost (nkids n))%nat.
Proof. intros [t k pr l i ks] H. simpl in H. destruct t; try congruence; reflexivity. Qed.
Lemma scost_leaf : forall n, ntype n = GateLeaf -> scost n = 1%nat.
Proof. intros [t k pr l i ks] H. simpl in H. subst. reflexivity. Qed.

Lemma scost_bound : forall n, (scost n <= 2 * tree_size n)%nat.
Proof.
  induction n as [t k pr l i ks IH] using node_ind2.
  assert (Hk : (kcost ks <= 2 * ksize ks)%nat).
  { induction IH as [|c ks Hc _ IHk]; cbn; lia. }
  rewrite tree_size_eq. cbn [nkids].
  destruct (gate_eqb t GateLeaf) eqn:E.
  - rewrite scost_leaf; [lia|]. simpl. destruct t; easy.
  - rewrite scost_gate; [|simpl; intro; subst; discriminate]. cbn [nkids]. destruct ks; lia.
Qed.

Definition unvisited (st : fstate) (l : list path) : Prop := forall q, In q l -> fvisited (st q) = false.

Lemma scan_rec_visited : forall n p st, fvisited (scan_rec n p st p) = true.
Proof.
  intros n p st. destruct (gate_eqb (ntype n) GateLeaf) eqn:E.
  - rewrite scan_rec_leaf by (destruct (ntype n); easy). unfold leaf_upd. rewrite set_visited_same. reflexivity.
  - rewrite scan_rec_gate by (intro K; rewrite K in E; discriminate). rewrite set_visited_same. reflexivity.
Qed.

Lemma scan_kids_loop_aux : forall l,
  Forall (fun n => forall p st rest f, unvisited st (positions p n) ->
     scan_loop (scost n + f) ((p, n) :: rest) st = scan_loop f rest (scan_rec n p st)) l ->
  forall p j st rest f, unvisited st (kpositions p j l) ->
  scan_loop (kcost l + f) (rev (kptrs p j l) ++ rest) st = scan_loop f rest (scan_kids p j l st).
Proof.
  induction l as [|c l IH]; intros Hl p j st rest f Hu; [reflexivity|].
  inversion Hl; subst. cbn [kptrs rev kcost scan_kids]. rewrite <- app_assoc. cbn [app].
  replace (scost c + kcost l + f)%nat with (kcost l + (scost c + f))%nat by lia.
  rewrite IH; [|assumption|].
  - apply H1. intros q Hq. rewrite scan_kids_frame.
    + apply Hu. cbn [kpositions]. apply in_or_app. left. exact Hq.
    + intro K. eapply positions_lt; [exact K|exact Hq].
  - intros q Hq. apply Hu. cbn [kpositions]. apply in_or_app. right. exact Hq.
Qed.

Lemma filter_all : forall {A} (f : A -> bool) l, (forall x, In x l -> f x = true) -> filter f l = l.
Proof. induction l as [|x l IH]; intro H; cbn; [reflexivity|]. rewrite H by (left; reflexivity). f_equal. apply IH. intros y Hy. apply H. right. exact Hy. Qed.
Lemma filter_none : forall {A} (f : A -> bool) l, (forall x, In x l -> f x = false) -> filter f l = [].
Proof. induction l as [|x l IH]; intro H; cbn; [reflexivity|]. rewrite H by (left; reflexivity). apply IH. intros y Hy. apply H. right. exact Hy. Qed.

Lemma scan_loop_rec : forall n p st rest f, unvisited st (positions p n) ->
  scan_loop (scost n + f) ((p, n) :: rest) st = scan_loop f rest (scan_rec n p st).
Proof.
  induction n as [t k pr l i ks IH] using node_ind2. intros p st rest f Hu.
  set (n := Node t k pr l i ks) in *.
  destruct (gate_eqb (ntype n) GateLeaf) eqn:E.
  - assert (Hl : ntype n = GateLeaf) by (destruct (ntype n); easy).
    rewrite scan_rec_leaf, scost_leaf by assumption. cbn [Nat.add Lsss.scan_loop]. rewrite Hl. reflexivity.
  - assert (Hl : ntype n <> GateLeaf) by (intro K; rewrite K in E; discriminate).
    rewrite scan_rec_gate, scost_gate by assumption.
    rewrite positions_gate in Hu by assumption.
    assert (Hgate0 : forall st' f' stk, filter (fun q => negb (fvisited (st' (fst q)))) (kid_ptrs (p, n)) = [] ->
      scan_loop (S f') ((p, n) :: stk) st' = scan_loop f' stk (set_visited (determine (scan_threshold n) p n st') p true)).
    { intros st' f' stk H. cbn [Lsss.scan_loop]. rewrite H. destruct (ntype n); try congruence; reflexivity. }
    assert (Hgate1 : forall st' f' stk l0, filter (fun q => negb (fvisited (st' (fst q)))) (kid_ptrs (p, n)) = l0 -> l0 <> [] ->
      scan_loop (S f') ((p, n) :: stk) st' = scan_loop f' (rev l0 ++ (p, n) :: stk) st').
    { intros st' f' stk l0 H Hne. cbn [Lsss.scan_loop]. rewrite H. destruct l0; [congruence|]. destruct (ntype n); try congruence; reflexivity. }
    destruct (nkids n) as [|c0 ks0] eqn:Ek.
    + cbn [Nat.add kcost]. apply Hgate0. rewrite kid_ptrs_kptrs, Ek. reflexivity.
    + rewrite <- Ek in *.
      replace (2 + kcost (nkids n) + f)%nat with (S (kcost (nkids n) + S f)) by lia.
      rewrite (Hgate1 st _ rest (kptrs p 0 (nkids n))).
      * rewrite scan_kids_loop_aux; [|exact IH|intros q Hq; apply Hu; right; exact Hq].
        apply Hgate0. rewrite kid_ptrs_kptrs. apply filter_none.
        intros x Hx. apply kptrs_In in Hx as (m & c & -> & Hc). cbn [fst].
        destruct (scan_kids_nth _ p 0 st m c ((0 + m)%nat :: p) Hc (under_refl _)) as (st0 & _ & ->).
        rewrite scan_rec_visited. reflexivity.
      * rewrite kid_ptrs_kptrs. apply filter_all. intros x Hx. apply kptrs_In in Hx as (m & c & -> & Hc). cbn [fst].
        rewrite Hu; [reflexivity|]. right. apply kpositions_In. exists m, c. split; [exact Hc|apply positions_self].
      * rewrite Ek. discriminate.
Qed.

Lemma scan_tree_rec : forall r st, unvisited st (positions [] r) -> scan_tree sort attrs r st = Some (scan_rec r [] st).
Proof.
  intros r st Hu. unfold scan_tree. pose proof (scost_bound r).
  replace (2 * tree_size r)%nat with (scost r + (2 * tree_size r - scost r))%nat by lia.
  rewrite scan_loop_rec by assumption. destruct (2 * tree_size r - scost r)%nat; reflexivity.
Qed.

(** ** Marks are truth values *)
Definition weight (c : node) : Z := Z.max 1 (Z.of_nat (length (nkids c))).
Definition pm (n : node) : list (nat * Z) :=
  map (fun '(i, c) => (i, weight c))
      (filter (fun '(i, c) => sat held c) (combine (seq 0 (length (nkids n))) (nkids n))).
Definition chosen (n : node) : nat := fst (hd (O, 0) (sort (pm n))).

(** The count stored by setMark. *)
Fixpoint cnt (n : node) : Z :=
  match n with
  | Node GateLeaf _ _ _ _ _ => if held (complete_label n) then 1 else 0
  | Node GateAnd _ _ _ _ ks => if forallb (sat held) ks then fold_right (fun c a => cnt c + a) 0 ks else 0
  | Node GateOr _ _ _ _ ks => if existsb (sat held) ks then snd (hd (O, 0) (sort (pm n))) else 0
  | _ => 0
  end.

Definition unmarked (st : fstate) (l : list path) : Prop := forall q, In q l -> fmark (st q) = false.

Inductive good (st : fstate) : path -> node -> Prop :=
| good_leaf : forall p n, ntype n = GateLeaf -> held (complete_label n) = true -> good st p n
| good_and : forall p n, ntype n = GateAnd ->
    (forall i c, nth_error (nkids n) i = Some c -> fmark (st (i :: p)) = true) ->
    (forall i c, nth_error (nkids n) i = Some c -> good st (i :: p) c) -> good st p n
| good_or : forall p n c, ntype n = GateOr -> nth_error (nkids n) (chosen n) = Some c -> sat held c = true ->
    (forall j, (j < length (nkids n))%nat -> fmark (st (j :: p)) = Nat.eqb j (chosen n)) ->
    good st (chosen n :: p) c -> good st p n.

Lemma good_ext : forall st st' p n, good st p n -> (forall q, sunder p q -> st' q = st q) -> good st' p n.
Proof.
  intros st st' p n H. induction H as [p n Hl Hh|p n Ha Hm Hk IH|p n c Ho Hc Hs Hm Hg IH]; intro E.
  - apply good_leaf; assumption.
  - apply good_and; [assumption| |]; intros i c Hc.
    + rewrite E; [eauto|]. exists i. apply under_refl.
    + apply (IH i c Hc). intros q (j & Hq). apply E. exists i. eapply under_cons. exact Hq.
  - eapply good_or; eauto.
    + intros j Hj. rewrite E; [auto|]. exists j. apply under_refl.
    + apply IH. intros q (j & Hq). apply E. exists (chosen n). eapply under_cons. exact Hq.
Qed.

Lemma nth_error_forallb : forall {A} (f : A -> bool) l, forallb f l = true <-> (forall i c, nth_error l i = Some c -> f c = true).
Proof.
  intros A f l. rewrite forallb_forall. split; intros H.
  - intros i c Hc. apply H. eapply nth_error_In; eauto.
  - intros c Hc. apply In_nth_error in Hc as (i & Hi). eauto.
Qed.
Lemma nth_error_existsb : forall {A} (f : A -> bool) l, existsb f l = true <-> (exists i c, nth_error l i = Some c /\ f c = true).
Proof.
  intros A f l. rewrite existsb_exists. split.
  - intros (c & Hc & Hf). apply In_nth_error in Hc as (i & Hi). eauto.
  - intros (i & c & Hc & Hf). exists c. split; [eapply nth_error_In; eauto|assumption].
Qed.

Lemma sat_and : forall n, ntype n = GateAnd -> sat held n = forallb (sat held) (nkids n).
Proof. intros [t k pr l i ks] H. simpl in H. subst. reflexivity. Qed.
Lemma sat_or : forall n, ntype n = GateOr -> sat held n = existsb (sat held) (nkids n).
Proof. intros [t k pr l i ks] H. simpl in H. subst. reflexivity. Qed.
Lemma sat_leaf : forall n, ntype n = GateLeaf -> sat held n = held (complete_label n).
Proof. intros [t k pr l i ks] H. simpl in H. subst. reflexivity. Qed.

Lemma pm_In : forall n i w, In (i, w) (pm n) <-> exists c, nth_error (nkids n) i = Some c /\ sat held c = true /\ w = weight c.
Proof.
  intros n i w. unfold pm. rewrite in_map_iff. split.
  - intros ([i' c] & E & H). injection E as -> <-. apply filter_In in H as [H1 H2]. apply combine_seq_In0 in H1. eauto.
  - intros (c & H1 & H2 & ->). exists (i, c). split; [reflexivity|]. apply filter_In. split; [|exact H2]. apply combine_seq_In0. exact H1.
Qed.

Lemma NoDup_map_filter : forall {A B} (f : A -> B) g (l : list A), NoDup (map f l) -> NoDup (map f (filter g l)).
Proof.
  intros A B f g l. induction l as [|x l IH]; intro H; cbn; [constructor|]. cbn in H. inversion H; subst.
  destruct (g x); [|auto]. cbn. constructor; [|auto]. intro K. apply H2. apply in_map_iff in K as (y & E & Hy).
  apply filter_In in Hy as [Hy _]. apply in_map_iff. eauto.
Qed.

Lemma pm_NoDup : forall n, NoDup (map fst (pm n)).
Proof.
  intro n. unfold pm. rewrite map_map.
  assert (E : forall l : list (nat * node), map (fun x => fst (let '(i, c) := x in (i, weight c))) l = map fst l).
  { induction l as [|[a b] l IH]; cbn; [reflexivity|]. f_equal. exact IH. }
  rewrite E. apply NoDup_map_filter.
  assert (E2 : forall (l : list node) j, map fst (combine (seq j (length l)) l) = seq j (length l)).
  { induction l as [|x l IH]; intro j; [reflexivity|]. rewrite combine_seq_cons. cbn. f_equal. apply IH. }
  rewrite E2. apply seq_NoDup.
Qed.

Lemma chosen_spec : forall n, ntype n = GateOr -> sat held n = true ->
  exists c l w, nth_error (nkids n) (chosen n) = Some c /\ sat held c = true /\ sort (pm n) = (chosen n, w) :: l /\ w = weight c /\
    ~ In (chosen n) (map fst l).
Proof.
  intros n Hn Hs. rewrite sat_or in Hs by assumption. apply nth_error_existsb in Hs as (i & c & Hc & Hsc).
  assert (Hin : In (i, weight c) (sort (pm n))) by (rewrite sort_In, pm_In; eauto).
  unfold chosen. destruct (sort (pm n)) as [|[j w] l] eqn:E; [destruct Hin|]. cbn [hd fst].
  assert (Hj : In (j, w) (sort (pm n))) by (rewrite E; left; reflexivity).
  rewrite sort_In, pm_In in Hj. destruct Hj as (c' & Hc' & Hs' & ->).
  exists c', l, (weight c'). repeat split; auto.
  assert (HN : NoDup (map fst (sort (pm n)))).
  { eapply Permutation_NoDup; [|apply pm_NoDup]. apply Permutation_map, Permutation_sym, sort_perm. }
  rewrite E in HN. cbn in HN. inversion HN; assumption.
Qed.

Lemma determine_and_spec : forall p n st, ntype n = GateAnd ->
  (forall i c, nth_error (nkids n) i = Some c -> fmark (st (i :: p)) = sat held c) ->
  fmark (determine (scan_threshold n) p n st p) = sat held n /\
  (forall q, q <> p -> determine (scan_threshold n) p n st q = st q).
Proof.
  intros p n st Hn Hk. unfold Lsss.determine. rewrite Hn.
  cbv zeta. match goal with |- context [if ?b then _ else _] => assert (E : b = sat held n) end.
  { rewrite sat_and by assumption. apply eq_true_iff_eq. rewrite nth_error_forallb, nth_error_forallb. rewrite kid_ptrs_kptrs.
    assert (Hnth : forall l j i, nth_error (kptrs p j l) i = match nth_error l i with Some c => Some ((j + i)%nat :: p, c) | None => None end).
    { clear. induction l as [|c l IH]; intros j [|i]; cbn; try reflexivity.
      - rewrite Nat.add_0_r. reflexivity.
      - rewrite IH. destruct (nth_error l i); [|reflexivity]. do 3 f_equal. lia. }
    split; intros H i c Hc.
    - rewrite <- (Hk i c Hc). specialize (H i (i :: p, c)). rewrite Hnth, Hc in H. apply H. reflexivity.
    - rewrite Hnth in Hc. cbn [Nat.add] in Hc. destruct (nth_error (nkids n) i) as [c'|] eqn:Ec; [|discriminate].
      injection Hc as <-. cbn [fst]. rewrite (Hk i c' Ec). eauto. }
  rewrite E. destruct (sat held n); (split; [rewrite set_mark_same; reflexivity|intros q Hq; apply set_mark_other; congruence]).
Qed.

Lemma marked_list_pm : forall p n st, (forall i c, nth_error (nkids n) i = Some c -> fmark (st (i :: p)) = sat held c) ->
  marked_list st p n = pm n.
Proof.
  intros p n st Hk. unfold marked_list, pm. f_equal. apply filter_ext_in. intros [i c] H. apply combine_seq_In0 in H. apply Hk. exact H.
Qed.

Lemma determine_or_spec : forall p n st, ntype n = GateOr ->
  (forall i c, nth_error (nkids n) i = Some c -> fmark (st (i :: p)) = sat held c) ->
  fmark (determine (scan_threshold n) p n st p) = sat held n /\
  (sat held n = true -> forall j, (j < length (nkids n))%nat ->
     fmark (determine (scan_threshold n) p n st (j :: p)) = Nat.eqb j (chosen n)) /\
  (forall q, q <> p -> (forall j, q <> j :: p) -> determine (scan_threshold n) p n st q = st q).
Proof.
  intros p n st Hn Hk.
  assert (F : forall q, q <> p -> (forall j, q <> j :: p) -> determine (scan_threshold n) p n st q = st q).
  { intros q H1 H2. apply determine_frame; [congruence|]. intros i _ K. subst. eapply H2; reflexivity. }
  revert F. unfold Lsss.determine, scan_threshold. rewrite Hn. rewrite (marked_list_pm p n st Hk).
  destruct (sat held n) eqn:Es.
  - destruct (chosen_spec n Hn Es) as (c & l & w & Hc & Hsc & El & Hw & Hnin). rewrite El. cbn [or_loop].
    rewrite (Hk _ _ Hc), Hsc.
    pose proof (or_loop0_spec l st p true) as HL.
    destruct (or_loop st p 0 true l) as [st' r]. cbn [fst snd] in HL.
    destruct (HL p) as [-> _]. intro F. split; [rewrite set_mark_same; reflexivity|]. split; [|exact F].
    intros _ j Hj. rewrite set_mark_other by (intro K; apply (f_equal (@length nat)) in K; simpl in K; lia).
    destruct (HL (j :: p)) as [_ ->].
    destruct (nth_error (nkids n) j) as [cj|] eqn:Ej; [|apply nth_error_None in Ej; lia].
    rewrite (Hk _ _ Ej).
    destruct (Nat.eqb j (chosen n)) eqn:Ejc.
    + apply Nat.eqb_eq in Ejc. subst j. rewrite Hc in Ej. injection Ej as <-. rewrite Hsc.
      replace (existsb _ l) with false; [cbn [andb]; rewrite (Hk _ _ Hc); exact Hsc|].
      symmetry. apply not_true_iff_false. intro K. apply existsb_exists in K as ([i w'] & Hi & Hp). apply path_eqb_eq in Hp.
      cbn [fst] in Hp. injection Hp as ->. apply Hnin. apply in_map_iff. exists (chosen n, w'). auto.
    + destruct (sat held cj) eqn:Esj; [|cbn [andb]; rewrite (Hk _ _ Ej); exact Esj].
      replace (existsb _ l) with true; [reflexivity|]. symmetry. apply existsb_exists.
      assert (Hin : In (j, weight cj) (sort (pm n))) by (rewrite sort_In, pm_In; eauto).
      rewrite El in Hin. destruct Hin as [Hin|Hin].
      * injection Hin as Hin _. apply Nat.eqb_neq in Ejc. congruence.
      * exists (j, weight cj). split; [exact Hin|]. apply path_eqb_eq. reflexivity.
  - assert (Epm : pm n = []).
    { destruct (pm n) as [|[i w] l] eqn:E; [reflexivity|exfalso].
      assert (Hin : In (i, w) (pm n)) by (rewrite E; left; reflexivity).
      apply pm_In in Hin as (c & Hc & Hs & _). rewrite sat_or in Es by assumption.
      apply not_true_iff_false in Es. apply Es. apply nth_error_existsb. eauto. }
    rewrite Epm. pose proof (sort_perm []) as HP. apply Permutation_sym, Permutation_nil in HP. rewrite HP.
    cbn [or_loop]. intro F. split; [rewrite set_mark_same; reflexivity|]. split; [discriminate|exact F].
Qed.

Lemma and_or_kid : forall n i c, ntype n <> GateLeaf -> and_or n = true -> nth_error (nkids n) i = Some c -> and_or c = true.
Proof.
  intros [t k pr l x ks] i c Hl Ha Hc. simpl in Hl, Hc. destruct t; try congruence; simpl in Ha; try discriminate;
  apply andb_prop in Ha as [_ Ha]; rewrite nth_error_forallb in Ha; eauto.
Qed.

Lemma scan_mark_good : forall n p st, and_or n = true -> unmarked st (positions p n) ->
  fmark (scan_rec n p st p) = sat held n /\ (sat held n = true -> good (scan_rec n p st) p n).
Proof.
  induction n as [t k pr l i ks IH] using node_ind2. intros p st Ha Hu.
  set (n := Node t k pr l i ks) in *.
  destruct (gate_eqb (ntype n) GateLeaf) eqn:E.
  - assert (Hl : ntype n = GateLeaf) by (destruct (ntype n); easy).
    rewrite scan_rec_leaf, sat_leaf by assumption. unfold leaf_upd. split.
    + rewrite set_visited_same, set_mark_same. reflexivity.
    + intro H. apply good_leaf; assumption.
  - assert (Hl : ntype n <> GateLeaf) by (intro K; rewrite K in E; discriminate).
    rewrite positions_gate in Hu by assumption.
    set (st1 := scan_kids p 0 (nkids n) st).
    (* children *)
    assert (Hkid : forall j c, nth_error (nkids n) j = Some c ->
       fmark (st1 (j :: p)) = sat held c /\ (sat held c = true -> good st1 (j :: p) c)).
    { intros j c Hc.
      assert (Hex : exists st0, (forall q', under (j :: p) q' -> st0 q' = st q') /\ forall q, under (j :: p) q -> st1 q = scan_rec c (j :: p) st0 q).
      { unfold st1. clear - Hc sort_perm. revert Hc. generalize (nkids n) as l0. intros l0 Hc.
        assert (G : forall l0 b, nth_error l0 b = Some c -> forall a, exists st0, (forall q', under ((a + b)%nat :: p) q' -> st0 q' = st q') /\
           forall q, under ((a + b)%nat :: p) q -> scan_kids p a l0 st q = scan_rec c ((a + b)%nat :: p) st0 q).
        { clear - sort_perm. induction l0 as [|x l0 IH]; intros b Hc a; [destruct b; discriminate|]. destruct b as [|b].
          - injection Hc as ->. rewrite Nat.add_0_r. exists (scan_kids p (S a) l0 st). split; [|reflexivity].
            intros q' Hq'. apply scan_kids_frame. eapply kpositions_lt; [|exact Hq']. lia.
          - replace (a + S b)%nat with (S a + b)%nat by lia. destruct (IH b Hc (S a)) as (st0 & H1 & H2).
            exists st0. split; [exact H1|]. intros q Hq. cbn [scan_kids]. rewrite scan_rec_frame; [auto|].
            intro K. apply positions_under in K. eapply (under_disjoint a (S a + b)); [lia|exact K|exact Hq]. }
        exact (G l0 j Hc 0%nat). }
      destruct Hex as (st0 & H1 & H2).
      assert (IHc := IH). rewrite Forall_forall in IHc. specialize (IHc c (nth_error_In _ _ Hc) (j :: p) st0).
      destruct IHc as [G1 G2].
      - eapply and_or_kid; eauto.
      - intros q Hq. rewrite H1 by (eapply positions_under; eauto). apply Hu. right. apply kpositions_In. exists j, c. auto.
      - split.
        + rewrite H2 by apply under_refl. exact G1.
        + intro Hs. eapply good_ext; [apply G2; exact Hs|]. intros q Hq. apply H2. apply sunder_under. exact Hq. }
    rewrite scan_rec_gate by assumption. fold st1.
    assert (Hmk : forall j c, nth_error (nkids n) j = Some c -> fmark (st1 (j :: p)) = sat held c) by (intros; apply Hkid; assumption).
    assert (Hcase : ntype n = GateAnd \/ ntype n = GateOr).
    { subst n. simpl in *. destruct t; try congruence; try discriminate; auto. }
    destruct Hcase as [Hn|Hn].
    + destruct (determine_and_spec p n st1 Hn Hmk) as [D1 D2].
      split; [rewrite set_visited_same; exact D1|]. intro Hs.
      assert (Hboth : forall j c, nth_error (nkids n) j = Some c ->
        fmark (set_visited (determine (scan_threshold n) p n st1) p true (j :: p)) = true /\
        good (set_visited (determine (scan_threshold n) p n st1) p true) (j :: p) c).
      2: { apply good_and; [assumption| |]; intros j c Hc; apply (Hboth j c Hc). }
      intros j c Hc. assert (Hc1 : sat held c = true). { rewrite sat_and in Hs by assumption. rewrite nth_error_forallb in Hs. eauto. }
      destruct (Hkid j c Hc) as [K1 K2]. 
      assert (Hfr : forall q, under (j :: p) q -> set_visited (determine (scan_threshold n) p n st1) p true q = st1 q).
      { intros q Hq. assert (p <> q) by (intro; subst; eapply under_not_self; eauto).
        rewrite set_visited_other, D2 by congruence. reflexivity. }
      split.
      * rewrite Hfr by apply under_refl. congruence.
      * eapply good_ext; [apply K2; exact Hc1|]. intros q Hq. apply Hfr. apply sunder_under. exact Hq.
    + destruct (determine_or_spec p n st1 Hn Hmk) as (D1 & D2 & D3).
      split; [rewrite set_visited_same; exact D1|]. intro Hs.
      destruct (chosen_spec n Hn Hs) as (c & l0 & w & Hc & Hsc & _).
      eapply good_or; eauto.
      * intros j Hj. rewrite set_visited_other by (intro K; apply (f_equal (@length nat)) in K; simpl in K; lia). auto.
      * destruct (Hkid _ c Hc) as [K1 K2]. eapply good_ext; [apply K2; exact Hsc|]. intros q (j & Hq).
        assert (p <> q) by (intro; subst; apply under_cons in Hq; eapply under_not_self; eauto).
        rewrite set_visited_other by assumption. apply D3; [congruence|].
        intros m K. subst q. apply under_len in Hq. simpl in Hq. lia.
Qed.

End ScanProofs.
