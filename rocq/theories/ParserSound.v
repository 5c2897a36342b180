(** Soundness and termination of the table-driven parser: a validator over the
    tables (finite checks evaluated in the kernel) and an invariant on the stack. *)
From Verif Require Import Base Scanner Driver Parser Grammar.
From Coq Require Import ZArith List Ascii Bool Lia ZifyBool ZifyNat.
Import ListNotations.
Open Scope Z_scope.

(** LR(0) items (rule, position of the dot) of every state. *)
Definition items : list (list (Z * Z)) := [
  [(1,0); (2,0); (3,0)];
  [(2,1); (6,0); (7,0); (8,0); (9,0); (10,0); (11,0); (12,0); (13,0); (14,0); (15,0); (16,0); (17,0); (18,0); (19,0); (20,0); (21,0); (22,0)];
  [(3,1); (23,0); (24,0); (25,0); (26,0); (27,0); (28,0)];
  [(1,1)];
  [(6,1); (9,1); (10,1); (11,1); (12,1); (13,1); (15,1); (16,1); (17,1); (18,1); (19,1); (20,1); (21,1); (22,1)];
  [(6,0); (7,0); (8,0); (9,0); (10,0); (11,0); (12,0); (13,0); (14,0); (14,1); (15,0); (16,0); (17,0); (18,0); (19,0); (20,0); (21,0); (22,0)];
  [(2,2); (7,1); (8,1)];
  [(23,1); (27,1); (28,1)];
  [(23,0); (24,0); (24,1); (25,0); (26,0); (27,0); (28,0)];
  [(3,2); (25,1); (26,1)];
  [(1,2)];
  [(4,0); (5,0); (13,2)];
  [(4,0); (5,0); (11,2); (22,2)];
  [(4,0); (5,0); (12,2); (21,2)];
  [(15,2); (16,2)];
  [(4,0); (5,0); (9,2); (20,2)];
  [(4,0); (5,0); (10,2); (19,2)];
  [(17,2); (18,2)];
  [(7,1); (8,1); (14,2)];
  [(6,0); (7,0); (7,2); (8,0); (9,0); (10,0); (11,0); (12,0); (13,0); (14,0); (15,0); (16,0); (17,0); (18,0); (19,0); (20,0); (21,0); (22,0)];
  [(6,0); (7,0); (8,0); (8,2); (9,0); (10,0); (11,0); (12,0); (13,0); (14,0); (15,0); (16,0); (17,0); (18,0); (19,0); (20,0); (21,0); (22,0)];
  [(4,0); (5,0); (27,2); (28,2)];
  [(24,2); (25,1); (26,1)];
  [(23,0); (24,0); (25,0); (25,2); (26,0); (26,2); (27,0); (28,0)];
  [(4,1); (5,1)];
  [(13,3)];
  [(4,0); (5,0); (22,3)];
  [(11,3)];
  [(4,0); (5,0); (21,3)];
  [(12,3)];
  [(4,0); (5,0); (15,3)];
  [(4,0); (5,0); (16,3)];
  [(4,0); (5,0); (20,3)];
  [(9,3)];
  [(4,0); (5,0); (19,3)];
  [(10,3)];
  [(4,0); (5,0); (17,3); (18,3)];
  [(14,3)];
  [(7,1); (7,3); (8,1)];
  [(7,1); (8,1); (8,3)];
  [(4,0); (5,0); (28,3)];
  [(27,3)];
  [(25,1); (26,1); (26,3)];
  [(4,2)];
  [(22,4)];
  [(21,4)];
  [(15,4)];
  [(16,4)];
  [(20,4)];
  [(19,4)];
  [(17,4); (18,4)];
  [(28,4)];
  [(4,3)];
  [(4,0); (5,0); (22,5)];
  [(4,0); (5,0); (21,5)];
  [(4,0); (5,0); (15,5)];
  [(4,0); (5,0); (16,5)];
  [(4,0); (5,0); (20,5)];
  [(4,0); (5,0); (19,5)];
  [(4,0); (5,0); (18,5)];
  [(4,0); (5,0); (17,5)];
  [(4,0); (5,0); (28,5)];
  [(22,6)];
  [(21,6)];
  [(15,6)];
  [(16,6)];
  [(20,6)];
  [(19,6)];
  [(18,6)];
  [(17,6)];
  [(28,6)];
  [(15,7)];
  [(16,7)];
  [(4,0); (5,0); (18,7)];
  [(18,8)]].
Definition items_of (s : Z) : list (Z * Z) := nth (Z.to_nat s) items [].
Definition states : list Z := map Z.of_nat (seq 0 75).
Definition symbols : list Z := map Z.of_nat (seq 0 36).
Definition has (s r k : Z) : bool := existsb (fun i => (fst i =? r) && (snd i =? k)) (items_of s).
Definition expects (s x : Z) : bool :=
  existsb (fun i => match nth_error (rhs (fst i)) (Z.to_nat (snd i)) with Some y => y =? x | None => false end) (items_of s).
Definition succ (s x : Z) : option Z :=
  if expects s x then
    (if x <? 31 then match move s x with Shift t => Some t | _ => None end else Some (goto_state s x))
  else None.
Definition edge (s x s' : Z) : bool := match succ s x with Some t => t =? s' | None => false end.
Definition in_states (s : Z) : bool := (0 <=? s) && (s <? 75).

Definition for_edges (f : Z -> Z -> Z -> bool) : bool :=
  forallb (fun s => forallb (fun x => match succ s x with Some s' => f s x s' | None => true end) symbols) states.

(** Going back along an edge moves the dot back. *)
Definition check_back : bool :=
  for_edges (fun s x s' => forallb (fun i =>
    let '(r, k) := i in
    implb (0 <? k) (has s r (k - 1) &&
      match nth_error (rhs r) (Z.to_nat (k - 1)) with Some y => y =? x | None => false end)) (items_of s')).
(** State 0 is the bottom. *)
Definition check_bottom : bool :=
  for_edges (fun _ _ s' => negb (s' =? 0)) && forallb (fun i => snd i =? 0) (items_of 0).
(** Reductions only of complete items, with the numbers the code uses. *)
Definition check_reduce : bool :=
  forallb (fun s => forallb (fun x => match move s x with
    | Reduce r => (s =? 10) || ((2 <=? r) && (r <=? 28) && has s r (znth yyr2 r))
    | Shift s' => in_states s' && (if x =? 0 then (s =? 3) && (s' =? 10) else negb (s' =? 10) && edge s x s')
    | Fail => true end) symbols) states.
Definition check_rules : bool :=
  forallb (fun r => (znth yyr1 r =? lhs r) && (znth yyr2 r =? Z.of_nat (length (rhs r)))) (map Z.of_nat (seq 1 28)).
(** A state with an initial item for a rule expects its left-hand side. *)
Definition check_goto : bool :=
  forallb (fun s => forallb (fun i => let '(r, k) := i in
    implb ((k =? 0) && negb (r =? 1))
      (edge s (lhs r) (goto_state s (lhs r)) && in_states (goto_state s (lhs r)) && negb (goto_state s (lhs r) =? 10)
       && implb (r <=? 3) ((s =? 0) && (goto_state s (lhs r) =? 3))
       && implb (s =? 0) (r <=? 3))) (items_of s)) states.
(** State 3 is entered with the start symbol from state 0 only. *)
Definition check_three : bool :=
  for_edges (fun s x s' => implb (s' =? 3) ((s =? 0) && (x =? 32)) && Bool.eqb (x =? 32) (s' =? 3)).
(** No state has a transition on the error token: zparser.tab.cc L955-985 always abort. *)
Definition check_no_error_token : bool :=
  forallb (fun s => let n := znth yypact s in
    (n =? yypact_ninf) || negb ((0 <=? n + 1) && (n + 1 <=? yylast) && (znth yycheck (n + 1) =? 1))) states.

Lemma v_back : check_back = true.
Proof. vm_compute. reflexivity. Qed.
Lemma v_bottom : check_bottom = true.
Proof. vm_compute. reflexivity. Qed.
Lemma v_reduce : check_reduce = true.
Proof. vm_compute. reflexivity. Qed.
Lemma v_rules : check_rules = true.
Proof. vm_compute. reflexivity. Qed.
Lemma v_goto : check_goto = true.
Proof. vm_compute. reflexivity. Qed.
Lemma v_three : check_three = true.
Proof. vm_compute. reflexivity. Qed.
Lemma no_error_token : check_no_error_token = true.
Proof. vm_compute. reflexivity. Qed.

Lemma in_states_In : forall s, in_states s = true <-> In s states.
Proof.
  intro s. unfold in_states, states. rewrite in_map_iff. split; intro H.
  - exists (Z.to_nat s). split; [lia|]. apply in_seq. lia.
  - destruct H as [n [H1 H2]]. apply in_seq in H2. lia.
Qed.
Lemma in_symbols : forall x, 0 <= x < 36 -> In x symbols.
Proof. intros x H. unfold symbols. rewrite in_map_iff. exists (Z.to_nat x). split; [lia|]. apply in_seq. lia. Qed.

Lemma for_edges_spec : forall f s x s', for_edges f = true -> in_states s = true -> 0 <= x < 36 ->
  edge s x s' = true -> f s x s' = true.
Proof.
  intros f s x s' H Hs Hx He. unfold for_edges in H. rewrite forallb_forall in H.
  apply in_states_In in Hs. specialize (H s Hs). rewrite forallb_forall in H. specialize (H x (in_symbols x Hx)).
  unfold edge in He. destruct (succ s x) as [t|] eqn:E; [|discriminate]. apply Z.eqb_eq in He. subst. exact H.
Qed.

Lemma has_In : forall s r k, has s r k = true <-> In (r, k) (items_of s).
Proof.
  intros s r k. unfold has. rewrite existsb_exists. split.
  - intros [[r' k'] [H1 H2]]. cbn in H2. assert (r' = r /\ k' = k) as [-> ->] by lia. exact H1.
  - intro H. exists (r, k). split; auto. cbn. lia.
Qed.

Lemma back : forall s x s' r k, in_states s = true -> 0 <= x < 36 -> edge s x s' = true -> 0 <= k ->
  has s' r (k + 1) = true -> has s r k = true /\ nth_error (rhs r) (Z.to_nat k) = Some x.
Proof.
  intros s x s' r k Hs Hx He Hk H. pose proof (for_edges_spec _ s x s' v_back Hs Hx He) as B.
  rewrite forallb_forall in B. apply has_In in H. specialize (B _ H). cbn beta iota in B.
  replace (k + 1 - 1) with k in B by lia.
  replace (0 <? k + 1) with true in B by lia. cbn [implb] in B. apply andb_prop in B as [B1 B2].
  split; auto. destruct (nth_error (rhs r) (Z.to_nat k)); [|discriminate]. apply Z.eqb_eq in B2. subst; auto.
Qed.

Lemma bottom : forall s x s', in_states s = true -> 0 <= x < 36 -> edge s x s' = true -> s' <> 0.
Proof.
  intros. pose proof v_bottom as B; unfold check_bottom in B; apply andb_prop in B as [A _].
  pose proof (for_edges_spec _ s x s' A H H0 H1) as B. cbn in B. lia.
Qed.
Lemma bottom_items : forall r k, has 0 r k = true -> k = 0.
Proof.
  intros r k H. pose proof v_bottom as B; unfold check_bottom in B; apply andb_prop in B as [_ A].
  rewrite forallb_forall in A. apply has_In in H. specialize (A _ H). cbn in A. lia.
Qed.
Lemma three : forall s x s', in_states s = true -> 0 <= x < 36 -> edge s x s' = true ->
  (s' = 3 -> s = 0 /\ x = 32) /\ (x = 32 <-> s' = 3).
Proof.
  intros. 
  pose proof (for_edges_spec _ s x s' v_three H H0 H1) as H2. cbn beta in H2.
  destruct (Z.eqb_spec s' 3); destruct (Z.eqb_spec x 32); destruct (Z.eqb_spec s 0); cbn in H2; try discriminate; lia.
Qed.

Lemma move_ok : forall s x, in_states s = true -> 0 <= x < 36 -> s <> 10 ->
  match move s x with
  | Reduce r => 2 <= r <= 28 /\ has s r (znth yyr2 r) = true
  | Shift s' => in_states s' = true /\ (x = 0 /\ s = 3 /\ s' = 10 \/ x <> 0 /\ s' <> 10 /\ edge s x s' = true)
  | Fail => True
  end.
Proof.
  intros s x Hs Hx Hn. pose proof v_reduce as H3. unfold check_reduce in H3. rewrite forallb_forall in H3.
  apply in_states_In in Hs. specialize (H3 s Hs). rewrite forallb_forall in H3. specialize (H3 x (in_symbols x Hx)).
  cbn beta in H3. destruct (move s x) as [s'|r|]; auto.
  - apply andb_prop in H3 as [A B]. split; auto. destruct (Z.eqb_spec x 0).
    + left. lia.
    + right. apply andb_prop in B as [B C]. repeat split; auto. lia.
  - apply orb_prop in H3 as [A|A]; [lia|]. apply andb_prop in A as [A B]. split; auto. lia.
Qed.

Lemma rule_ok : forall r, 1 <= r <= 28 -> znth yyr1 r = lhs r /\ znth yyr2 r = Z.of_nat (length (rhs r)).
Proof.
  intros r Hr. pose proof v_rules as H2. unfold check_rules in H2. rewrite forallb_forall in H2.
  specialize (H2 r). cbn beta in H2. assert (In r (map Z.of_nat (seq 1 28))) as I.
  { apply in_map_iff. exists (Z.to_nat r). split; [lia|]. apply in_seq. lia. }
  specialize (H2 I). lia.
Qed.

Lemma goto_ok : forall s r, in_states s = true -> 2 <= r -> has s r 0 = true ->
  let s' := goto_state s (lhs r) in
  edge s (lhs r) s' = true /\ in_states s' = true /\ s' <> 10 /\ (r <= 3 -> s = 0 /\ s' = 3).
Proof.
  intros s r Hs Hr H. pose proof v_goto as H2. unfold check_goto in H2. rewrite forallb_forall in H2.
  apply in_states_In in Hs. specialize (H2 s Hs). rewrite forallb_forall in H2. apply has_In in H.
  specialize (H2 _ H). cbn beta iota in H2.
  replace ((0 =? 0) && negb (r =? 1)) with true in H2 by lia. cbn [implb] in H2.
  apply andb_prop in H2 as [H2 _]. apply andb_prop in H2 as [H2 H3]. apply andb_prop in H2 as [H2 H4].
  apply andb_prop in H2 as [H2 H5]. cbn zeta. split; [exact H2|]. split; [exact H5|]. split; [lia|].
  intros. replace (r <=? 3) with true in H3 by lia. cbn [implb] in H3. lia.
Qed.

Lemma lhs_range : forall r, 2 <= r <= 28 -> 32 <= lhs r < 36.
Proof. intros. unfold lhs. destruct (r =? 1) eqn:?; destruct (r <=? 3); destruct (r <=? 5); destruct (r <=? 22); lia. Qed.

Lemma translate_range : forall t, 0 <= yytranslate t < 31.
Proof.
  intro t. unfold yytranslate. destruct (t <=? 0) eqn:E; [lia|]. destruct (t <=? 274) eqn:E2; [|lia].
  assert (forallb (fun i => (0 <=? znth translate_table i) && (znth translate_table i <? 31))
            (map Z.of_nat (seq 0 275)) = true) as C by (vm_compute; reflexivity).
  rewrite forallb_forall in C. specialize (C t). cbn beta in C.
  assert (In t (map Z.of_nat (seq 0 275))). { apply in_map_iff. exists (Z.to_nat t). split; [lia|]. apply in_seq. lia. }
  specialize (C H). lia.
Qed.
Lemma la_range : forall toks, 0 <= la_sym toks < 31.
Proof. intros [|[c v] ?]; cbn; [lia|apply translate_range]. Qed.

Lemma psym_range : forall p, wf_pt p -> 0 <= psym p < 36.
Proof.
  intros [[c v]|r ks] H; cbn [psym].
  - pose proof (translate_range c). lia.
  - destruct H as [H _]. pose proof (lhs_range r H). lia.
Qed.
