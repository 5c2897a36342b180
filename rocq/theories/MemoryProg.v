(** Programs that parse, copy, assign and destroy policies. *)
From Verif Require Import Base Dec StrMap Policy Scanner Lexical Grammar Driver Parser ParserSound ParserRun ParserTop ScannerProofs CreatePolicy
  Memory MemorySpec MemoryInv MemoryAct MemoryRun MemoryParse.
From Coq Require Import ZArith List Ascii Bool Lia ZifyBool ZifyNat Permutation.
Import ListNotations.
Open Scope Z_scope.

(** ** One parse *)

Section Prog.
Variable mktime : tm -> Z * tm.

Lemma parse_in_eq : forall b text m, parse_in mktime b text m =
  let '(r, root, m') := mrun mktime (parse_fuel (start_tok b :: lex text)) [(0, no_val)] None (start_tok b :: lex text) (start_driver b text) None m in
  (match r with
   | Ok (Accepted d) => Ok d | Ok (SyntaxError d) => Ok (driver_error d) | Ok (Aborted d) => Ok d
   | Throw e => Throw e | UB => UB | Exit => Exit | NoFuel => NoFuel end, root, m').
Proof. intros b text m. unfold parse_in. destruct b; [rewrite lex_start_policy|rewrite lex_start_attrs]; reflexivity. Qed.

Lemma first_read : forall b toks m f d,
  mrun mktime (S f) [(0, no_val)] None (start_tok b :: toks) d None m =
  mrun mktime f [((if b then 1 else 2), no_val); (0, no_val)] None toks d None (emit (Del (length (cells m))) (snd (alloc CStr m))).
Proof. intros [|] toks m f d; reflexivity. Qed.

Lemma two_attr : In 2 attr_states.
Proof. vm_compute. tauto. Qed.
Local Opaque attr_states.
Lemma parse_run : forall b text own lost m, inv own lost m ->
  ended b own lost (kids_of m) (lex text) m
    (mrun mktime (parse_fuel (start_tok b :: lex text)) [(0, no_val)] None (start_tok b :: lex text) (start_driver b text) None m).
Proof.
  intros b text own lost m I.
  replace (parse_fuel (start_tok b :: lex text)) with (S (pred (parse_fuel (start_tok b :: lex text)))) by (unfold parse_fuel; lia).
  rewrite first_read. set (s1 := if b then 1 else 2). set (m1 := emit _ _).
  pose proof (inv_alloc0 CStr own lost m I Logic.I) as I0. pose proof (kids_alloc CStr m) as K0. rewrite app_nil_r in K0.
  assert (inv own lost m1) as I1 by (apply inv_del; exact I0).
  assert (kids_of m1 = kids_of m) as K1 by exact K0.
  assert (grows m m1) as G1 by (eapply grows_trans; [apply grows_alloc|apply same_grows, same_emit]).
  eapply ended_grows; [exact G1|]. apply mrun_good with (l := []).
  constructor.
  - exists [PT (start_tok b)]. unfold chain, s1. cbn [skel map fst]. destruct b; eapply stk_push with (s := 0); try constructor; try reflexivity; discriminate.
  - unfold s1. destruct b; repeat constructor.
  - exact Logic.I.
  - apply lex_mem.
  - intros w H. exact H.
  - rewrite app_nil_r. unfold s1. destruct b; exact I1.
  - reflexivity.
  - discriminate.
  - right. reflexivity.
  - reflexivity.
  - reflexivity.
  - rewrite K1. change (rdebt (start_driver b text)) with O. change (debts (map snd [(s1, no_val); (0, no_val)])) with O. lia.
  - intros ->. unfold s1. split; [exact K1|]. split; [reflexivity|]. split; [|discriminate].
    constructor; [right; right; exact two_attr|]. constructor; [left; reflexivity|constructor].
Qed.

Lemma parse_in_value : forall b text m, fst (fst (parse_in mktime b text m)) = parse_string mktime b text.
Proof.
  intros b text m. rewrite parse_in_eq, parse_string_eq.
  pose proof (mrun_values mktime (parse_fuel (start_tok b :: lex text)) [(0, no_val)] None (start_tok b :: lex text) (start_driver b text) None m) as V.
  specialize (V ltac:(discriminate)). cbn [vproj map fst snd mtoks no_val] in V. rewrite <- V.
  destruct (mrun _ _ _ _ _ _ _ _) as [[r root] m']. cbn [fst]. destruct r as [[d|d|d]| | | |]; reflexivity.
Qed.

(** What is left of a failed parse besides tree nodes. *)
Definition spoiled (text : str) (l : list nat) (m : mem) : Prop :=
  l = [] \/ exists a w, l = [a] /\ In (ERROR, StrVal w) (lex text) /\ at_shape m a = Some CStr.

Lemma parse_in_step : forall b text own lost m, inv own lost m ->
  let '(r, root, m') := parse_in mktime b text m in
  legal (history m') /\ grows m m' /\
  match r with
  | Ok d => (b = true -> rooted d root) /\ (forall a, root = Some a -> is_node m' a) /\
      exists l, inv (olist root ++ own) (lost ++ l) m' /\ spoiled text l m' /\
      (root <> None -> l = [] /\ length (kids_of m') = (length (kids_of m) + rdebt d)%nat) /\
      (b = false -> kids_of m' = kids_of m /\ root = None)
  | Throw _ => exists l, inv own (lost ++ l) m'
  | _ => True
  end.
Proof.
  intros b text own lost m I. pose proof (parse_run b text own lost m I) as E. rewrite parse_in_eq.
  pose proof (mrun_values mktime (parse_fuel (start_tok b :: lex text)) [(0, no_val)] None (start_tok b :: lex text) (start_driver b text) None m ltac:(discriminate)) as V.
  cbn [vproj map fst snd mtoks no_val] in V.
  pose proof (run_keeps mktime (parse_fuel (start_tok b :: lex text)) [(0, VTok NoVal)] (start_tok b :: lex text) (start_driver b text)) as Kp.
  rewrite <- V in Kp. specialize (Kp ltac:(constructor; [reflexivity|constructor]) ltac:(right; right; split; reflexivity)).
  destruct (mrun _ _ _ _ _ _ _ _) as [[r root] m']. destruct E as (L & G & E). cbn [fst] in Kp.
  split; [exact L|]. split; [exact G|].
  destruct r as [[d|d|d]| | | |]; auto.
  - destruct E as (E1 & E2 & E3 & E4 & E5). split; [intros _; exact E3|]. split; [exact E2|]. exists []. rewrite app_nil_r. split; [exact E1|]. split; [left; reflexivity|]. split; auto.
  - destruct E as (-> & l & E1 & E2 & E3). split.
    { intros ->. cbn [rooted driver_error dpol]. change (dispolicy (start_driver true text)) with true in Kp. rewrite Kp. reflexivity. }
    split; [discriminate|]. exists l. split; [exact E1|]. split; [exact E2|]. split; [congruence|]. intro Hb. split; auto.
  - destruct E as (-> & l & E1 & E2 & E3). destruct Kp as (_ & Kp & _). split; [intros _; exact Kp|]. split; [discriminate|]. exists l. split; [exact E1|]. split; [exact E2|]. split; [congruence|]. intro Hb. split; auto.
Qed.

(** ** Programs *)

Definition root_of (o : option (option nat)) : list nat := match o with Some r => olist r | None => [] end.
Definition roots (l : list (option (option nat))) : list nat := flat_map root_of l.
Lemma roots_app : forall a b, roots (a ++ b) = roots a ++ roots b.
Proof. intros. apply flat_map_app. Qed.
Lemma update_split : forall {A} (l : list A) i y, nth_error l i = Some y ->
  exists pre post, l = pre ++ y :: post /\ length pre = i /\ forall x, update i x l = pre ++ x :: post.
Proof.
  induction l as [|z l IH]; intros [|i] y H; try discriminate.
  - injection H as ->. exists [], l. auto.
  - destruct (IH i y H) as (pre & post & -> & L & U). exists (z :: pre), post. split; auto. split; [cbn [length]; lia|]. intro x. cbn [update]. rewrite U. reflexivity.
Qed.
Lemma live_inv : forall p i r, live p i = Some r -> nth_error (pols p) i = Some (Some r).
Proof. unfold live. intros p i r H. destruct (nth_error (pols p) i) as [[x|]|]; congruence. Qed.
Lemma in_kids_grows : forall m m' k, grows m m' -> In k (kids_of m) -> In k (kids_of m').
Proof.
  intros m m' k G H. unfold kids_of in H. apply in_flat_map in H as (c & Hc & Hk). destruct c as [| | |rc ks]; try contradiction.
  apply In_nth_error in Hc as (a & Ha). eapply kids_in; [|exact Hk]. eapply grows_at; [exact G|]. unfold at_shape. rewrite Ha. reflexivity.
Qed.
Lemma drop_step : forall r own lost m, inv (olist r ++ own) lost m -> (forall a, r = Some a -> is_node m a) -> inv own lost (drop r m) /\ same m (drop r m).
Proof. intros [a|] own lost m I H; [apply inv_delete; auto|split; [exact I|apply same_refl]]. Qed.

Definition fine (p : prog) (lost : list nat) : Prop := inv (roots (pols p)) lost (pmem p) /\ Forall (is_node (pmem p)) (roots (pols p)).
Lemma nodes_grow : forall m m' l, grows m m' -> Forall (is_node m) l -> Forall (is_node m') l.
Proof. intros m m' l G H. eapply Forall_impl; [|exact H]. intros a. apply grows_node. exact G. Qed.

Lemma step_fine : forall o p p' lost, fine p lost -> step mktime o p = Some p' ->
  exists more, fine p' (lost ++ more) /\ grows (pmem p) (pmem p').
Proof.
  intros o p p' lost [I F] H. destruct o as [text|text|i|i|i j|i]; cbn [step] in H.
  - destruct text as [|c text].
    { injection H as <-. exists []. rewrite app_nil_r. split; [|apply grows_refl]. split; cbn [pols pmem]; rewrite roots_app; cbn; rewrite app_nil_r; auto. }
    pose proof (parse_in_step true (c :: text) _ _ _ I) as P. destruct (parse_in mktime true (c :: text) (pmem p)) as [[r root] m]. destruct P as (L & G & P).
    destruct r as [d|e| | |]; try discriminate; injection H as <-.
    2:{ destruct P as (l & I1). exists l. split; [|exact G]. unfold fine. cbn [pols pmem]. rewrite roots_app. cbn. rewrite app_nil_r. split; [exact I1|eapply nodes_grow; eauto]. }
    destruct P as (R & N & l & I1 & _). specialize (R eq_refl).
    exists l. split; [|exact G]. unfold fine. cbn [pols pmem].
    assert (roots [match dpol d with Some _ => Some root | None => None end] = olist root) as Er.
    { destruct root as [a|]; cbn [rooted] in R; [destruct R as (q & t & -> & _)|rewrite R]; cbn; rewrite ?app_nil_r; reflexivity. }
    rewrite roots_app, Er. split; [eapply inv_perm; [apply Permutation_app_comm|exact I1]|]. apply Forall_app. split; [eapply nodes_grow; eauto|].
    destruct root as [a|]; constructor; auto.
  - destruct text as [|c text]; [injection H as <-; exists []; rewrite app_nil_r; split; [split; auto|apply grows_refl]|].
    pose proof (parse_in_step false (c :: text) _ _ _ I) as P. destruct (parse_in mktime false (c :: text) (pmem p)) as [[r root] m]. destruct P as (L & G & P).
    destruct r as [d|e| | |]; try discriminate; injection H as <-.
    2:{ destruct P as (l & I1). exists l. split; [|exact G]. split; [exact I1|eapply nodes_grow; eauto]. }
    destruct P as (R & N & l & I1 & _ & _ & P). destruct (P eq_refl) as (_ & ->).
    exists l. split; [|exact G]. split; [exact I1|eapply nodes_grow; eauto].
  - destruct (live p i) as [[a|]|] eqn:El; injection H as <-; exists []; rewrite app_nil_r; [|split; [split; auto|apply grows_refl]|split; [split; auto|apply grows_refl]].
    apply live_inv in El. assert (In a (roots (pols p))) as Ha by (apply in_flat_map; exists (Some (Some a)); split; [eapply nth_error_In; eauto|left; reflexivity]).
    pose proof F as F1. rewrite Forall_forall in F1.
    destruct (walk_step (S a) a _ _ _ ltac:(lia) I ltac:(apply in_or_app; auto) (F1 a Ha)) as (I1 & S1). split; [|apply same_grows; exact S1].
    split; [exact I1|]. eapply nodes_grow; [apply same_grows; exact S1|exact F].
  - destruct (live p i) as [[a|]|] eqn:El; [| |injection H as <-; exists []; rewrite app_nil_r; split; [split; auto|apply grows_refl]].
    + apply live_inv in El. assert (In a (roots (pols p))) as Ha by (apply in_flat_map; exists (Some (Some a)); split; [eapply nth_error_In; eauto|left; reflexivity]).
      rewrite Forall_forall in F.
      destruct (copy_step (S a) a _ _ _ ltac:(lia) I ltac:(apply in_or_app; auto) (F a Ha)) as (n & I1 & G1 & N1 & _).
      destruct (copy_node (S a) a (pmem p)) as [b m]. injection H as <-. cbn [fst snd] in *. exists []. rewrite app_nil_r. split; [|exact G1].
      unfold fine. cbn [pols pmem]. rewrite roots_app. cbn. split; [eapply inv_perm; [apply Permutation_cons_append|exact I1]|].
      apply Forall_app. split; [eapply nodes_grow; [exact G1|]; rewrite Forall_forall; auto|constructor; auto].
    + injection H as <-. exists []. rewrite app_nil_r. split; [|apply grows_refl]. unfold fine. cbn [pols pmem]. rewrite roots_app. cbn. rewrite app_nil_r. auto.
  - destruct (live p i) as [r|] eqn:Ei; [|injection H as <-; exists []; rewrite app_nil_r; split; [split; auto|apply grows_refl]].
    destruct (live p j) as [r'|] eqn:Ej; [|injection H as <-; exists []; rewrite app_nil_r; split; [split; auto|apply grows_refl]].
    destruct (Nat.eqb_spec i j) as [->|Nij]; [injection H as <-; exists []; rewrite app_nil_r; split; [split; auto|apply grows_refl]|].
    destruct r' as [a|]; [|discriminate]. apply live_inv in Ei, Ej.
    destruct (update_split _ _ _ Ei) as (pre & post & Ep & Lp & U).
    assert (In a (roots (pre ++ post))) as Ha.
    { apply in_flat_map. exists (Some (Some a)). split; [|left; reflexivity]. rewrite Ep in Ej. apply nth_error_In with (n := if Nat.ltb j i then j else pred j).
      destruct (Nat.ltb_spec j i).
      - rewrite nth_error_app1 in * by lia. exact Ej.
      - rewrite nth_error_app2 in * by lia. replace (j - length pre)%nat with (S (pred j - length pre)) in Ej by lia. exact Ej. }
    assert (Permutation (roots (pols p)) (olist r ++ roots (pre ++ post))) as Pr.
    { rewrite Ep, !roots_app. cbn [roots flat_map root_of]. fold (roots post). apply Permutation_app_swap_app. }
    destruct (drop_step r (roots (pre ++ post)) lost (pmem p)) as [I1 S1].
    + eapply inv_perm; [exact Pr|exact I].
    + intros x ->. rewrite Forall_forall in F. apply F. apply (Permutation_in _ (Permutation_sym Pr)). left. reflexivity.
    + assert (Forall (is_node (drop r (pmem p))) (roots (pre ++ post))) as F1.
      { eapply nodes_grow; [apply same_grows; exact S1|]. rewrite Forall_forall in *. intros x Hx. apply F. apply (Permutation_in _ (Permutation_sym Pr)). apply in_or_app. auto. }
      assert (is_node (drop r (pmem p)) a) as Na by (rewrite Forall_forall in F1; auto).
      destruct (copy_step (S a) a _ _ _ ltac:(lia) I1 ltac:(apply in_or_app; auto) Na) as (n & I2 & G2 & N2 & _).
      destruct (copy_node (S a) a (drop r (pmem p))) as [b m]. injection H as <-. cbn [fst snd] in *. exists []. rewrite app_nil_r.
      split; [|eapply grows_trans; [apply same_grows; exact S1|exact G2]]. unfold fine. cbn [pols pmem]. rewrite U.
      assert (Permutation (roots (pre ++ Some (Some b) :: post)) (b :: roots (pre ++ post))) as P2.
      { rewrite !roots_app. cbn [roots flat_map root_of olist app]. fold (roots post). symmetry. apply Permutation_middle. }
      split; [eapply inv_perm; [symmetry; exact P2|exact I2]|]. rewrite Forall_forall. intros x Hx. apply (Permutation_in _ P2) in Hx. destruct Hx as [<-|Hx]; auto.
      eapply grows_node; [exact G2|]. rewrite Forall_forall in F1. auto.
  - destruct (live p i) as [r|] eqn:Ei; [|injection H as <-; exists []; rewrite app_nil_r; split; [split; auto|apply grows_refl]].
    apply live_inv in Ei. destruct (update_split _ _ _ Ei) as (pre & post & Ep & Lp & U).
    assert (Permutation (roots (pols p)) (olist r ++ roots (pre ++ post))) as Pr.
    { rewrite Ep, !roots_app. cbn [roots flat_map root_of]. fold (roots post). apply Permutation_app_swap_app. }
    destruct (drop_step r (roots (pre ++ post)) lost (pmem p)) as [I1 S1].
    + eapply inv_perm; [exact Pr|exact I].
    + intros x ->. rewrite Forall_forall in F. apply F. apply (Permutation_in _ (Permutation_sym Pr)). left. reflexivity.
    + injection H as <-. exists []. rewrite app_nil_r. split; [|apply same_grows; exact S1]. unfold fine. cbn [pols pmem]. rewrite U.
      assert (roots (pre ++ None :: post) = roots (pre ++ post)) as -> by (rewrite !roots_app; reflexivity).
      split; [exact I1|]. eapply nodes_grow; [apply same_grows; exact S1|]. rewrite Forall_forall in *. intros x Hx. apply F. apply (Permutation_in _ (Permutation_sym Pr)). apply in_or_app. auto.
Qed.
Lemma steps_fine : forall l p p' lost, fine p lost -> steps mktime l p = Some p' ->
  exists more, fine p' (lost ++ more) /\ grows (pmem p) (pmem p').
Proof.
  induction l as [|o l IH]; intros p p' lost F H; cbn [steps] in H.
  - injection H as <-. exists []. rewrite app_nil_r. split; [exact F|apply grows_refl].
  - destruct (step mktime o p) as [p1|] eqn:E; [|discriminate]. destruct (step_fine o p p1 lost F E) as (more & F1 & G1).
    destruct (IH p1 p' _ F1 H) as (more2 & F2 & G2). exists (more ++ more2). rewrite app_assoc. split; [exact F2|eapply grows_trans; eauto].
Qed.
Lemma empty_inv : inv [] [] {| cells := []; past := [] |}.
Proof.
  split; cbn.
  - intros before e after H. destruct before; discriminate.
  - intro a. split; [contradiction|lia].
  - constructor.
  - intro a. split; [lia|contradiction].
  - intros a rc ks H. destruct a; discriminate.
  - intros a ks H. unfold at_shape in H. destruct a; discriminate.
Qed.
Lemma program_fine : forall l p, program mktime l = Some p -> exists lost, fine p lost.
Proof.
  intros l p H. destruct (steps_fine l {| pols := []; pmem := {| cells := []; past := [] |} |} p [] (conj empty_inv (Forall_nil _)) H) as (more & F & _). exists more. exact F.
Qed.

(** ** Counting *)
Lemma remains_in : forall own lost m a, inv own lost m -> (remains (history m) a <-> In a (own ++ kids_of m ++ lost)).
Proof. intros own lost m a I. unfold remains. rewrite !in_hist, (i_new _ _ _ I). apply (i_live _ _ _ I). Qed.
Lemma made_in : forall h a, In a (made_by h) <-> In (New a) h.
Proof.
  intros h a. unfold made_by. rewrite in_flat_map. split.
  - intros (e & He & Ha). destruct e; try contradiction. destruct Ha as [<-|[]]. exact He.
  - intro H. exists (New a). split; [exact H|left; reflexivity].
Qed.
Lemma made_nodup : forall h, legal h -> NoDup (made_by h).
Proof.
  intro h. induction h as [|e h IH] using rev_ind; intro L; [constructor|].
  assert (legal h) as L1. { intros before x after E. apply (L before x (after ++ [e])). rewrite E, <- app_assoc. reflexivity. }
  unfold made_by. rewrite flat_map_app. fold (made_by h). cbn [flat_map]. rewrite app_nil_r. destruct e as [a| | |]; rewrite ?app_nil_r; auto.
  apply NoDup_rev in IH; auto. rewrite <- (rev_involutive (made_by h ++ [a])). apply NoDup_rev. rewrite rev_app_distr. cbn. constructor; auto.
  rewrite <- in_rev. rewrite made_in. pose proof (L h (New a) [] eq_refl) as Q. exact Q.
Qed.
Lemma remaining_in : forall h a, In a (remaining h) <-> remains h a.
Proof.
  intros h a. unfold remaining, remains. rewrite filter_In, made_in. split; intros [H1 H2]; split; auto.
  - intro D. apply negb_true_iff in H2. rewrite <- not_true_iff_false in H2. apply H2. apply existsb_exists. exists (Del a). split; auto. cbn. apply Nat.eqb_refl.
  - apply negb_true_iff. apply not_true_iff_false. intro E. apply existsb_exists in E as (e & He & Ee). destruct e; try discriminate. cbn in Ee. apply Nat.eqb_eq in Ee. subst. auto.
Qed.
Lemma remaining_count : forall own lost m, inv own lost m -> length (remaining (history m)) = (length own + length (kids_of m) + length lost)%nat.
Proof.
  intros own lost m I. rewrite <- Nat.add_assoc, <- !app_length. apply Permutation_length. apply NoDup_Permutation.
  - apply NoDup_filter. apply made_nodup. exact (i_legal _ _ _ I).
  - exact (i_nodup _ _ _ I).
  - intro a. rewrite remaining_in. apply remains_in. exact I.
Qed.
End Prog.
