(** C139: how many nested calls printing and copying a policy take. *)
From Verif Require Import Base StrMap Dec UInteger Policy LsssSpec LsssProofs Scanner Grammar PolicySyntax Lexical PolicyMeaning Driver Parser Size CreatePolicy ParserFinal PropParser Depth.
From Coq Require Import ZArith List Ascii Bool Lia.
Import ListNotations.
Open Scope Z_scope.

(** ** Specification: the number of nodes on the longest way from the root to a leaf *)
Fixpoint height (n : node) : nat :=
  match n with
  | Node GateLeaf _ _ _ _ _ => 1
  | Node _ _ _ _ _ ks => S (fold_right (fun k a => Nat.max (height k) a) 0 ks)%nat
  end.

Lemma two_kids : forall g t p l i ks, binary (Node g t p l i ks) = true -> g = GateLeaf \/
  (g = GateAnd \/ g = GateOr) /\ exists a b, ks = [a; b] /\ binary a = true /\ binary b = true.
Proof.
  intros g t p l i ks H. destruct g; cbn [binary] in H; try discriminate; auto; right; (split; [auto|]);
    apply andb_prop in H as [H1 H2]; destruct ks as [|a [|b [|c ks]]]; try discriminate H1; exists a, b;
    cbn [forallb] in H2; apply andb_prop in H2 as [Ha H2]; apply andb_prop in H2 as [Hb _]; auto.
Qed.

Lemma print_room : forall room n, binary n = true ->
  print_in room n = if (height n <=? room)%nat then Some (node_to_string n) else None.
Proof.
  induction room as [|room IH]; intros [g t p l i ks] B.
  - destruct g; reflexivity.
  - destruct (two_kids _ _ _ _ _ _ B) as [->|[G (a & b & -> & Ba & Bb)]]; [reflexivity|].
    pose proof (IH a Ba) as Ia. pose proof (IH b Bb) as Ib.
    destruct G as [-> | ->]; cbn [print_in node_to_string height fold_right]; rewrite Ia, Ib; rewrite Nat.max_0_r;
      destruct (Nat.leb_spec (height a) room), (Nat.leb_spec (height b) room), (Nat.leb_spec (S (Nat.max (height a) (height b))) (S room)); try reflexivity; exfalso; lia.
Qed.
Lemma copy_room : forall junk room n p, binary n = true ->
  copy_in room junk p n = if (height n <=? room)%nat then Some (copy_node junk p n) else None.
Proof.
  intro junk. induction room as [|room IH]; intros [g t p l i ks] q B.
  - destruct g; reflexivity.
  - destruct (two_kids _ _ _ _ _ _ B) as [->|[G (a & b & -> & Ba & Bb)]]; [reflexivity|].
    pose proof (IH a (0%nat :: q) Ba) as Ia. pose proof (IH b (1%nat :: q) Bb) as Ib.
    destruct G as [-> | ->]; cbn [copy_in copy_node height fold_right]; rewrite Ia, Ib; rewrite Nat.max_0_r;
      destruct (Nat.leb_spec (height a) room), (Nat.leb_spec (height b) room), (Nat.leb_spec (S (Nat.max (height a) (height b))) (S room)); try reflexivity; exfalso; lia.
Qed.
Lemma height_leaves : forall n, binary n = true -> 1 <= Z.of_nat (height n) <= leaf_count n.
Proof.
  induction n as [g t p l i ks IH] using node_ind2. intro H. rewrite Forall_forall in IH. destruct (two_kids _ _ _ _ _ _ H) as [->|[G (a & b & -> & Ha & Hb)]].
  - cbn. unfold leaf_count. cbn. lia.
  - pose proof (IH a (or_introl eq_refl) Ha). pose proof (IH b (or_intror (or_introl eq_refl)) Hb). rewrite two_leaves by (destruct G; congruence).
    assert (height (Node g t p l i [a; b]) = S (Nat.max (height a) (height b))) as -> by (destruct G as [-> | ->]; cbn [height fold_right]; rewrite Nat.max_0_r; reflexivity). lia.
Qed.

(** ** A policy of any height *)
Definition one : node := Node GateLeaf 0 [] (L "a") 0 [].
Fixpoint ladder (k : nat) : node := match k with O => one | S k' => Node GateAnd 2 [] [] 0 [one; ladder k'] end.
Lemma ladder_binary : forall k, binary (ladder k) = true.
Proof. induction k; [reflexivity|]. cbn. rewrite IHk. reflexivity. Qed.
Lemma ladder_leaves : forall k a, In a (leaves (ladder k)) -> a = one.
Proof. induction k; intros a H; cbn in H; [destruct H as [<-|[]]; reflexivity|]. destruct H as [<-|H]; [reflexivity|]. rewrite app_nil_r in H. auto. Qed.
Lemma ladder_height : forall k, height (ladder k) = S k.
Proof. induction k; [reflexivity|]. cbn [ladder height fold_right one]. rewrite IHk. lia. Qed.
Lemma ladder_text : forall k, len (node_to_string (ladder k)) = 8 * Z.of_nat k + 1.
Proof.
  induction k; [reflexivity|]. cbn [ladder node_to_string one complete_label]. unfold len in *. rewrite !app_length.
  change (length (L "(")) with 1%nat. change (length (L ")")) with 1%nat. change (length (L " and ")) with 5%nat.
  change (length (complete_label (Node GateLeaf 0 [] (L "a") 0 []))) with 1%nat. lia.
Qed.
Fixpoint tall (f : formula) : nat := match f with FLeaf _ => 1 | FGate _ _ l => S (fold_right (fun k a => Nat.max (tall k) a) 0 l)%nat end.
Lemma tall_height : forall n, tall (formula_of n) = height n.
Proof.
  induction n as [g t p l i ks IH] using node_ind2. destruct g; try reflexivity; cbn [formula_of tall height]; f_equal;
    induction IH as [|c ks' E _ IHk]; cbn [map fold_right]; congruence.
Qed.

(** * C139 *)
(** Printing or copying an accepted policy needs as many nested calls as its tree is
    high, no more and no fewer; with that room it does what [toString] and the copy
    constructor do ... *)
Theorem C139_exact : forall mktime s q, create_policy_tree mktime s = Ok (Some q) ->
  exists r, proot q = Some r /\ forall room junk,
    ((height r <= room)%nat -> print_policy_in room q = Some (node_to_string r) /\ copy_policy_in room junk q = Some (copy_policy junk q)) /\
    ((room < height r)%nat -> print_policy_in room q = None /\ copy_policy_in room junk q = None).
Proof.
  intros mktime s q H. destruct (policy_size mktime s q H) as (r & R & B & _). exists r. split; [exact R|]. intros room junk.
  unfold print_policy_in, copy_policy_in, copy_policy. rewrite R, (print_room room r B), (copy_room junk room r [] B).
  destruct (Nat.leb_spec (height r) room); split; intro; try lia; split; reflexivity.
Qed.
Print Assumptions C139_exact.
(** ... and the height is at most eleven times the length of the text, so stack in
    proportion to the text is enough. *)
Theorem C139_bound_partial : forall mktime s q room junk, create_policy_tree mktime s = Ok (Some q) -> 32 * len s <= 3 * Z.of_nat room ->
  print_policy_in room q <> None /\ copy_policy_in room junk q <> None.
Proof.
  intros mktime s q room junk H Hr. destruct (policy_size mktime s q H) as (r & R & B & _ & L2). pose proof (height_leaves r B).
  destruct (C139_exact mktime s q H) as (r' & R' & X). assert (r' = r) as -> by congruence. destruct (X room junk) as [Y _].
  destruct Y as [-> ->]; [lia|]. split; discriminate.
Qed.
Print Assumptions C139_bound_partial.
(** No fixed amount of stack is enough: for every number of nested calls there is a
    text of eight characters for each call that is accepted and then can neither be
    printed nor copied. *)
Theorem C139_refuted : forall mktime room, exists s q, len s = 8 * Z.of_nat room + 1 /\ create_policy_tree mktime s = Ok (Some q) /\
  print_policy_in room q = None /\ forall junk, copy_policy_in room junk q = None.
Proof.
  intros mktime room. destruct (C16_print_parse mktime (ladder room) (ladder_binary room)) as (q & r & H & R & F & B).
  { intros a I. rewrite (ladder_leaves _ _ I). split; reflexivity. }
  exists (node_to_string (ladder room)), q. split; [apply ladder_text|]. split; [exact H|].
  assert (height r = S room) as Hh by (rewrite <- tall_height, F, tall_height; apply ladder_height).
  destruct (C139_exact _ _ _ H) as (r' & R' & X). assert (r' = r) as -> by congruence.
  split; [|intro junk]; destruct (X room (fun _ => 0)) as [_ Y]; try (apply Y; lia). destruct (X room junk) as [_ Z]. apply Z. lia.
Qed.
Print Assumptions C139_refuted.
Example C139_nonvacuous : exists q r, create_policy_tree mk (L "(one and two) or n < 9#4 or three") = Ok (Some q) /\ proot q = Some r /\ height r = 6%nat /\
  print_policy_in 5 q = None /\ (exists t, print_policy_in 6 q = Some t) /\ 32 * len (L "(one and two) or n < 9#4 or three") <= 3 * Z.of_nat 360.
Proof. eexists _, _. split; [vm_compute; reflexivity|]. split; [reflexivity|]. repeat split; try (vm_compute; reflexivity); [eexists; vm_compute; reflexivity|vm_compute; discriminate]. Qed.
