(** Parsing a policy or an attribute list raises no exception. *)
From Verif Require Import Base StrMap Dec UInteger Policy Scanner Driver Parser.
From Coq Require Import ZArith List Ascii Bool.
Import ListNotations.
Open Scope Z_scope.

Definition calm {A} (r : res A) : Prop := match r with Throw _ => False | _ => True end.
Lemma calm_bind : forall A B (m : res A) (f : A -> res B), calm m -> (forall a, calm (f a)) -> calm (bind m f).
Proof. intros A B [a|e| | |] f Hm Hf; cbn; auto. Qed.
Ltac calm_tac := repeat first [exact I | apply calm_bind; [|intro] | match goal with |- calm (match ?x with _ => _ end) => destruct x end | match goal with |- calm (let '(_, _) := ?x in _) => destruct x end].

Lemma calm_check : forall c, calm (check_attribute c).
Proof. intro c. unfold check_attribute. calm_tac. Qed.
Lemma calm_leaf : forall d c, calm (leaf_node d c).
Proof. intros d c. unfold leaf_node. apply calm_bind; [apply calm_check|]. intros [p a]. destruct (mget c (dcount d)); exact I. Qed.
Lemma calm_first : forall n g v i, calm (first_bit n g v i).
Proof. induction n as [|n IH]; intros; cbn; [exact I|]. destruct (eqb _ _); [apply IH|exact I]. Qed.
Lemma calm_levels : forall n f g a b v i p d, calm (marker_levels n f g a b v i p d).
Proof. induction n as [|n IH]; intros; cbn [marker_levels]; [exact I|]. apply calm_bind; [apply calm_leaf|]. intros [l d']. apply IH. Qed.
Lemma calm_cmp : forall d u g a, calm (cmp_policy d u g a).
Proof.
  intros. unfold cmp_policy, bit_marker_list. apply calm_bind; [apply calm_first|]. intro i. apply calm_bind; [apply calm_leaf|]. intros [p d1]. apply calm_levels.
Qed.
Lemma calm_eq_levels : forall n f a b v p d, calm (eq_levels n f a b v p d).
Proof. induction n as [|n IH]; intros; cbn [eq_levels]; [exact I|]. apply calm_bind; [apply calm_leaf|]. intros [l d']. apply IH. Qed.
Lemma calm_eq : forall d c u, calm (eq_policy d c u).
Proof. intros. unfold eq_policy. apply calm_bind; [apply calm_leaf|]. intros [p d1]. apply calm_eq_levels. Qed.
Lemma calm_num : forall op d a u, calm (num_policy op d a u).
Proof. intros [] d a u; unfold num_policy, lt_policy, gt_policy, le_policy, ge_policy; auto using calm_cmp, calm_eq. Qed.
Lemma calm_tree : forall m, calm m -> calm (tree_of m).
Proof. intros m H. unfold tree_of. apply calm_bind; [exact H|]. intros [n d]. exact I. Qed.
Lemma calm_action : forall mktime r args d, calm (action mktime r args d).
Proof.
  intros mktime r args d.
  assert (forall l, calm (set_attrlist d l)) as H1 by (intros []; exact I).
  assert (forall c lo hi, calm (range_policy d c lo hi)) as H2 by (intros; unfold range_policy, gt_policy, lt_policy; repeat (apply calm_bind; [apply calm_cmp|intros [? ?]]); exact I).
  assert (forall c lo hi, calm (range_incl_policy d c lo hi)) as H3 by (intros; unfold range_incl_policy, ge_policy, le_policy; repeat (apply calm_bind; [apply calm_cmp|intros [? ?]]); exact I).
  assert (forall op p m dd y, calm (date_policy mktime op d p m dd y)) as H4 by (intros; unfold date_policy; apply calm_num).
  assert (forall p m lo hi y, calm (range_date_in_policy mktime d p m lo hi y)) as H5.
  { intros. unfold range_date_in_policy, ge_policy, le_policy. destruct (mktime _) as [s1 t1]. destruct (mktime _) as [s2 t2]. repeat (apply calm_bind; [apply calm_cmp|intros [? ?]]); exact I. }
  assert (forall s, calm (leaf_attr d s)) as H6 by (intro s; unfold leaf_attr; apply calm_bind; [apply calm_check|]; intros [? ?]; destruct (mget s (dcount d)); exact I).
  unfold action.
  repeat first [exact I | apply calm_tree; first [apply calm_leaf|apply calm_cmp|apply calm_eq|apply H2|apply H3|apply H4|apply H5]
    | apply calm_bind; [first [apply H1|apply H6]|intro]
    | match goal with |- calm (match ?x with _ => _ end) => destruct x end | match goal with |- calm (let '(_, _) := ?x in _) => destruct x end].
Qed.
Lemma calm_run : forall mktime n st toks d, calm (run VTok (action mktime) n st toks d).
Proof.
  intro mktime. induction n as [|n IH]; intros st toks d; cbn [run]; [exact I|]. destruct st as [|[s v] st]; [exact I|].
  destruct (s =? yyfinal); [exact I|]. destruct (move s (la_sym toks)); [apply IH| |exact I].
  match goal with |- calm (match ?x with _ => _ end) => destruct x as [|[s0 v0] below] end; [exact I|].
  apply calm_bind; [apply calm_action|]. intros [[v' d']|]; [apply IH|exact I].
Qed.
Lemma calm_parse : forall mktime b t, calm (parse_string mktime b t).
Proof. intros. unfold parse_string. apply calm_bind; [apply calm_run|]. intros []; exact I. Qed.
Lemma calm_policy : forall mktime s, calm (create_policy_tree mktime s).
Proof. intros mktime [|c s]; [exact I|]. unfold create_policy_tree. apply calm_bind; [apply calm_parse|]. intro d. exact I. Qed.
