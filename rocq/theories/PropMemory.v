(** C110: parsing and policies never use an object that is gone.  C111: what is
    left in memory. *)
From Verif Require Import Base StrMap Policy Scanner Driver Parser CreatePolicy Memory MemorySpec MemoryInv MemoryAct MemoryRun MemoryParse MemoryProg.
From Coq Require Import ZArith List Ascii Bool Lia Permutation.
Import ListNotations.
Open Scope Z_scope.

Definition no_time : tm -> Z * tm := fun t => (0, t).

(** ** C110 *)

(** Any program that parses policies and attribute lists, accepted or not, uses,
    copies, assigns and destroys the policies. *)
Theorem C110_programs : forall mktime l p, program mktime l = Some p -> legal (history (pmem p)).
Proof. intros mktime l p H. destruct (program_fine mktime l p H) as (lost & F & _). exact (i_legal _ _ _ F). Qed.
Print Assumptions C110_programs.
(** Whatever the next text is, its parse is safe as far as it gets. *)
Theorem C110_any_text : forall mktime l p b text, program mktime l = Some p -> legal (history (snd (parse_in mktime b text (pmem p)))).
Proof.
  intros mktime l p b text H. destruct (program_fine mktime l p H) as (lost & F & _).
  pose proof (parse_in_step mktime b text _ _ _ F) as P. destruct (parse_in mktime b text (pmem p)) as [[r root] m]. apply P.
Qed.
Print Assumptions C110_any_text.
(** The parse in memory is the parse of the other theorems. *)
Theorem C110_same_result : forall mktime b text m, fst (fst (parse_in mktime b text m)) = parse_string mktime b text.
Proof. intros. apply parse_in_value. Qed.
Print Assumptions C110_same_result.
(** The root of a policy that has not been destroyed is there, and belongs to no
    other policy. *)
Lemma NoDup_flat : forall (l : list (option (option nat))) i j a, NoDup (roots l) ->
  nth_error l i = Some (Some (Some a)) -> nth_error l j = Some (Some (Some a)) -> i = j.
Proof.
  induction l as [|o l IH]; intros i j a D Hi Hj; [destruct i; discriminate|].
  unfold roots in D. cbn [flat_map] in D. fold (roots l) in D.
  assert (forall k, nth_error l k = Some (Some (Some a)) -> In a (roots l)) as R.
  { intros k Hk. apply in_flat_map. exists (Some (Some a)). split; [eapply nth_error_In; eauto|left; reflexivity]. }
  destruct i as [|i], j as [|j]; auto; cbn [nth_error] in *.
  - injection Hi as ->. cbn in D. apply NoDup_cons_iff in D as [D _]. destruct (D (R _ Hj)).
  - injection Hj as ->. cbn in D. apply NoDup_cons_iff in D as [D _]. destruct (D (R _ Hi)).
  - f_equal. eapply IH; eauto. clear -D. induction (root_of o) as [|x r IH]; [exact D|]. cbn in D. apply NoDup_cons_iff in D as [_ D]. auto.
Qed.
Theorem C110_own_tree : forall mktime l p i a, program mktime l = Some p -> live p i = Some (Some a) ->
  remains (history (pmem p)) a /\ forall j, live p j = Some (Some a) -> j = i.
Proof.
  intros mktime l p i a H L. destruct (program_fine mktime l p H) as (lost & F & _). apply live_inv in L. split.
  - apply (remains_in _ _ _ _ F). apply in_or_app. left. apply in_flat_map. exists (Some (Some a)). split; [eapply nth_error_In; eauto|left; reflexivity].
  - intros j Lj. apply live_inv in Lj. pose proof (i_nodup _ _ _ F) as D. eapply NoDup_flat; eauto. clear -D. induction (roots (pols p)) as [|x r IH]; [constructor|].
    cbn in D. apply NoDup_cons_iff in D as [D1 D2]. constructor; auto. intro X. apply D1. apply in_or_app. auto.
Qed.
Print Assumptions C110_own_tree.
(** Two texts that parse, one that does not, a reserved word, a list; a copy and
    an assignment that outlive the original. *)
Definition a_program : list op :=
  [Parse (L "a and (b or c)"); Parse (L "x > 3"); Parse (L "a and"); Parse (L "expint1"); ParseList (L "|a|b=5|"); ParseList (L "|a");
   Copy 0; Assign 1 0; Destroy 0; Walk 4; Walk 1; Copy 1; Destroy 1; Destroy 4].
Example C110_nonvacuous : exists p, program no_time a_program = Some p /\ map (fun o => match o with Some (Some _) => true | _ => false end) (pols p) = [false; false; false; false; false; true] /\
  length (filter (fun e => match e with Del _ => true | _ => false end) (history (pmem p))) <> O.
Proof. eexists. split; [vm_compute; reflexivity|]. split; [vm_compute; reflexivity|vm_compute; discriminate]. Qed.

(** ** C111 *)

(** An object that is not the root of a policy is never deleted once the call that
    made it is over. *)
Theorem C111_never_freed_partial : forall mktime l p l' p' a, program mktime l = Some p -> steps mktime l' p = Some p' ->
  remains (history (pmem p)) a -> (forall i, live p i <> Some (Some a)) -> remains (history (pmem p')) a.
Proof.
  intros mktime l p l' p' a H H' R N. destruct (program_fine mktime l p H) as (lost & F).
  destruct (steps_fine mktime l' p p' lost F H') as (more & F' & G). apply (remains_in _ _ _ _ (proj1 F)) in R. apply (remains_in _ _ _ _ (proj1 F')).
  apply in_app_or in R as [R|R].
  - apply in_flat_map in R as (o & Ho & Ra). apply In_nth_error in Ho as (i & Hi). destruct o as [[b|]|]; try contradiction. destruct Ra as [->|[]].
    exfalso. apply (N i). unfold live. rewrite Hi. reflexivity.
  - apply in_or_app. right. apply in_app_or in R as [R|R]; apply in_or_app; [left; eapply in_kids_grows; eauto|right; apply in_or_app; auto].
Qed.
Print Assumptions C111_never_freed_partial.
(** A policy that is accepted leaves one object for every node of its tree, and
    none of the parser's strings, numbers and lists ... *)
Theorem C111_cost_partial : forall mktime l p text q t p', program mktime l = Some p -> create_policy_tree mktime text = Ok (Some q) -> proot q = Some t ->
  step mktime (Parse text) p = Some p' ->
  length (remaining (history (pmem p'))) = (length (remaining (history (pmem p))) + size t)%nat /\
  exists a, pols p' = pols p ++ [Some (Some a)].
Proof.
  intros mktime l p text q t p' H Hq Ht Hs. destruct (program_fine mktime l p H) as (lost & F & _). destruct text as [|c text]; [discriminate|].
  cbn [step] in Hs. pose proof (parse_in_step mktime true (c :: text) _ _ _ F) as P. pose proof (parse_in_value mktime true (c :: text) (pmem p)) as V.
  cbn [create_policy_tree] in Hq. destruct (parse_in mktime true (c :: text) (pmem p)) as [[r root] m]. cbn [fst] in V. subst r.
  destruct (parse_string mktime true (c :: text)) as [d| | | |]; try discriminate. cbn [bind] in Hq. injection Hq as Hq. destruct P as (_ & _ & R & _ & ls & I1 & _ & K & _).
  specialize (R eq_refl). injection Hs as <-. cbn [pmem pols]. destruct root as [a|]; cbn [rooted] in R; [|congruence].
  destruct (K ltac:(discriminate)) as (-> & Hk). rewrite (remaining_count _ _ _ F), (remaining_count _ _ _ I1). split.
  - rewrite !app_length, Hk. unfold rdebt. rewrite Hq, Ht. unfold below. rewrite (size_kids t). cbn [olist length pred]. lia.
  - exists a. rewrite Hq. reflexivity.
Qed.
Print Assumptions C111_cost_partial.
(** ... and destroying it gives back one of them. *)
Theorem C111_destroy_partial : forall mktime l p i a p', program mktime l = Some p -> live p i = Some (Some a) -> step mktime (Destroy i) p = Some p' ->
  (forall x, remains (history (pmem p')) x <-> remains (history (pmem p)) x /\ x <> a).
Proof.
  intros mktime l p i a p' H L Hs x. destruct (program_fine mktime l p H) as (lost & F & N). cbn [step] in Hs. rewrite L in Hs. injection Hs as <-. cbn [pmem].
  apply live_inv in L. destruct (update_split _ _ _ L) as (pre & post & Ep & _ & _).
  assert (Permutation (roots (pols p)) (a :: roots (pre ++ post))) as Pr.
  { rewrite Ep, !roots_app. unfold roots at 2. cbn [flat_map root_of olist app]. symmetry. apply Permutation_middle. }
  pose proof (inv_perm _ _ _ _ Pr F) as I1. destruct (drop_step (Some a) (roots (pre ++ post)) lost (pmem p) I1) as [I2 S2].
  { intros y E. injection E as <-. rewrite Forall_forall in N. apply N. apply (Permutation_in _ (Permutation_sym Pr)). left. reflexivity. }
  rewrite (remains_in _ _ _ _ I2), (remains_in _ _ _ _ I1), (same_kids _ _ S2). pose proof (i_nodup _ _ _ I1) as D. cbn [app] in D. apply NoDup_cons_iff in D as [D _].
  cbn [app In]. split; [intro X; split; [auto|intros ->; auto]|intros [[<-|X] Y]; [congruence|exact X]].
Qed.
Print Assumptions C111_destroy_partial.
(** Parsing an attribute list leaves nothing, accepted or not, unless the text has
    the reserved word. *)
Theorem C111_lists_freed_partial : forall mktime l p text d p', program mktime l = Some p -> parse_string mktime false text = Ok d -> contains (L "expint") text = false ->
  step mktime (ParseList text) p = Some p' -> forall x, remains (history (pmem p')) x <-> remains (history (pmem p)) x.
Proof.
  intros mktime l p text d p' H Hd Hc Hs x. destruct (program_fine mktime l p H) as (lost & F & _). destruct text as [|c text]; [injection Hs as <-; tauto|].
  cbn [step] in Hs. pose proof (parse_in_step mktime false (c :: text) _ _ _ F) as P. pose proof (parse_in_value mktime false (c :: text) (pmem p)) as V.
  destruct (parse_in mktime false (c :: text) (pmem p)) as [[r root] m]. cbn [fst] in V. subst r. rewrite Hd in *. injection Hs as <-. cbn [pmem].
  destruct P as (_ & _ & _ & _ & ls & I1 & Sp & _ & Q). destruct (Q eq_refl) as (Hk & ->). cbn [olist app] in I1.
  destruct Sp as [->|(a & w & _ & Hw & _)]; [|destruct (no_reserved _ w Hc Hw)].
  rewrite app_nil_r in I1. rewrite (remains_in _ _ _ _ I1), (remains_in _ _ _ _ F), Hk. tauto.
Qed.
Print Assumptions C111_lists_freed_partial.
(** So a policy of one attribute is released completely ... *)
Theorem C111_leaf_freed_partial : forall mktime l p text q t p1 p', program mktime l = Some p -> create_policy_tree mktime text = Ok (Some q) -> proot q = Some t -> size t = 1%nat ->
  step mktime (Parse text) p = Some p1 -> step mktime (Destroy (length (pols p))) p1 = Some p' ->
  length (remaining (history (pmem p'))) = length (remaining (history (pmem p))).
Proof.
  intros mktime l p text q t p1 p' H Hq Ht Hz Hs Hd. destruct (C111_cost_partial mktime l p text q t p1 H Hq Ht Hs) as (C & a & Ea).
  assert (program mktime (l ++ [Parse text]) = Some p1) as H1.
  { clear -H Hs. unfold program in *. revert H. generalize {| pols := []; pmem := {| cells := []; past := [] |} |} as z. induction l as [|o l IH]; intros z H; cbn [steps app] in *.
    - injection H as ->. rewrite Hs. reflexivity.
    - destruct (step mktime o z); [auto|discriminate]. }
  assert (live p1 (length (pols p)) = Some (Some a)) as Hl by (unfold live; rewrite Ea, nth_error_app2, Nat.sub_diag by lia; reflexivity).
  pose proof (C111_destroy_partial mktime _ p1 _ a p' H1 Hl Hd) as D.
  destruct (C110_own_tree mktime _ p1 _ a H1 Hl) as (Ra & _).
  assert (Permutation (remaining (history (pmem p1))) (a :: remaining (history (pmem p')))) as P.
  { assert (program mktime ((l ++ [Parse text]) ++ [Destroy (length (pols p))]) = Some p') as H2.
    { clear -H1 Hd. unfold program in *. revert H1. generalize {| pols := []; pmem := {| cells := []; past := [] |} |} as z. induction (l ++ [Parse text]) as [|o l0 IH]; intros z H; cbn [steps app] in *.
      - injection H as ->. rewrite Hd. reflexivity.
      - destruct (step mktime o z); [auto|discriminate]. }
    apply NoDup_Permutation.
    - apply NoDup_filter, made_nodup, (C110_programs mktime _ _ H1).
    - constructor; [rewrite remaining_in, D; tauto|]. apply NoDup_filter, made_nodup, (C110_programs mktime _ _ H2).
    - intro x. cbn [In]. rewrite !remaining_in, D. destruct (Nat.eq_dec a x) as [->|]; [tauto|]. split; [intro; right; split; auto|intros [|[]]; congruence || auto]. }
  apply Permutation_length in P. cbn [length] in P. lia.
Qed.
Print Assumptions C111_leaf_freed_partial.
(** ... and the claim fails for any other: nothing is left in the program's
    variables, and two nodes are left in memory. *)
Theorem C111_refuted : exists l p, program no_time l = Some p /\ (forall i, live p i = None) /\ length (remaining (history (pmem p))) = 2%nat /\ ~ all_freed (history (pmem p)).
Proof.
  exists [Parse (L "a and b"); Destroy 0]. eexists. split; [vm_compute; reflexivity|]. split; [intros [|[|i]]; reflexivity|]. split; [vm_compute; reflexivity|].
  intro A. apply (A 5%nat). apply remaining_in. vm_compute. tauto.
Qed.
Print Assumptions C111_refuted.
(** A refused text with the reserved word leaves the word. *)
Theorem C111_word_refuted : exists text p, program no_time [ParseList text] = Some p /\ create_attribute_list no_time text = Ok None /\ length (remaining (history (pmem p))) = 1%nat.
Proof. exists (L "|expint1|"). eexists. split; [vm_compute; reflexivity|]. split; vm_compute; reflexivity. Qed.
Print Assumptions C111_word_refuted.
Example C111_nonvacuous : exists p q t, program no_time a_program = Some p /\ create_policy_tree no_time (L "a and (b or c)") = Ok (Some q) /\ proot q = Some t /\ size t = 5%nat /\
  step no_time (Parse (L "a and (b or c)")) p <> None /\ (exists a, live p 5 = Some (Some a)) /\ remaining (history (pmem p)) <> [] /\
  (exists d, parse_string no_time false (L "|a|b=5|") = Ok d /\ dattr d <> None) /\ contains (L "expint") (L "|a|b=5|") = false /\
  (exists q1 t1, create_policy_tree no_time (L "a") = Ok (Some q1) /\ proot q1 = Some t1 /\ size t1 = 1%nat).
Proof.
  eexists _, _, _. split; [vm_compute; reflexivity|]. split; [vm_compute; reflexivity|]. split; [reflexivity|]. split; [reflexivity|]. split; [vm_compute; discriminate|].
  split; [eexists; vm_compute; reflexivity|]. split; [vm_compute; discriminate|]. split; [eexists; split; [vm_compute; reflexivity|discriminate]|]. split; [vm_compute; reflexivity|].
  eexists _, _. split; [vm_compute; reflexivity|]. split; reflexivity.
Qed.
