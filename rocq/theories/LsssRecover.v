(** End-to-end facts about sharing and recovery. *)
From Verif Require Import Base StrMap Dec Field FieldProofs Policy Lsss LsssSpec LsssProofs LsssScan LsssShare LsssAlgebra.
From Coq Require Import ZArith Znumtheory List Ascii Bool Lia ZifyBool ZifyNat Permutation Setoid Morphisms.
Import ListNotations.
Open Scope Z_scope.

(** ** Row maps *)
Lemma mset_fresh_perm : forall {A} k (v : A) m, mget k m = None -> Permutation (mset k v m) ((k, v) :: m).
Proof.
  intros A k v m. induction m as [|[k' v'] m IH]; intro H; cbn [mset mget] in *; [reflexivity|].
  destruct (str_eqb k k') eqn:E; [discriminate|].
  destruct (str_ltb k k'); [reflexivity|]. rewrite IH by assumption. apply perm_swap.
Qed.

Section Rows.
Variable cntm : smap Z.
Notation ulab := (unique_label cntm).
Notation add_rows := (add_rows cntm).
Definition entry (e : node * Z) : str * row := (ulab (fst e), (complete_label (fst e), snd e)).

Lemma add_rows_sorted : forall l m, msorted m -> msorted (add_rows m l).
Proof.
  induction l as [|x l IH]; intros m Hm; [assumption|]. apply IH. apply msorted_mset. assumption.
Qed.
Lemma add_rows_get_none : forall l m u, (forall e, In e l -> ulab (fst e) <> u) -> mget u (add_rows m l) = mget u m.
Proof.
  induction l as [|x l IH]; intros m u H; [reflexivity|]. unfold LsssShare.add_rows in *. cbn [fold_left]. rewrite IH.
  - unfold add_share. apply mget_mset_other. intro K. apply (H x); [left; reflexivity|]. symmetry. exact K.
  - intros e He. apply H. right. assumption.
Qed.
Lemma add_rows_get : forall l m n e, NoDup (map (fun x => ulab (fst x)) l) -> In (n, e) l ->
  mget (ulab n) (add_rows m l) = Some (complete_label n, e).
Proof.
  induction l as [|x l IH]; intros m n e HN Hin; [destruct Hin|]. inversion HN; subst.
  destruct Hin as [->|Hin].
  - change (add_rows m ((n, e) :: l)) with (add_rows (add_share cntm m n e) l).
    rewrite add_rows_get_none.
    + apply mget_mset_same.
    + intros y Hy K. apply H1. cbn [fst]. rewrite <- K. apply (in_map (fun x => ulab (fst x))). assumption.
  - change (add_rows m (x :: l)) with (add_rows (add_share cntm m (fst x) (snd x)) l). apply IH; assumption.
Qed.
Lemma add_rows_perm_gen : forall l m, NoDup (map (fun x => ulab (fst x)) l) ->
  (forall e, In e l -> mget (ulab (fst e)) m = None) -> Permutation (add_rows m l) (map entry l ++ m).
Proof.
  induction l as [|x l IH]; intros m HN Hm; [reflexivity|]. inversion HN; subst.
  change (add_rows m (x :: l)) with (add_rows (add_share cntm m (fst x) (snd x)) l). rewrite IH.
  - cbn [map app]. rewrite Permutation_middle. apply Permutation_app_head. unfold add_share.
    apply mset_fresh_perm. apply Hm. left. reflexivity.
  - assumption.
  - intros e He. unfold add_share. rewrite mget_mset_other.
    + apply Hm. right. assumption.
    + intro K. apply H1. rewrite <- K. apply (in_map (fun x => ulab (fst x))). assumption.
Qed.
Lemma add_rows_perm : forall l, NoDup (map (fun x => ulab (fst x)) l) -> Permutation (add_rows [] l) (map entry l).
Proof. intros l HN. rewrite add_rows_perm_gen; [rewrite app_nil_r; reflexivity|assumption|reflexivity]. Qed.

(** Every entry of the map comes from the list. *)
Lemma add_rows_In : forall l m x, In x (add_rows m l) -> In x (map entry l) \/ In x m.
Proof.
  induction l as [|y l IH]; intros m x H; [right; exact H|].
  apply (IH (add_share cntm m (fst y) (snd y))) in H. destruct H as [H|H]; [left; right; exact H|].
  apply In_mset in H. destruct H as [->|H]; [left; left; reflexivity|right; exact H].
Qed.
End Rows.

(** ** The weighted sum of the schemes *)
Definition coef_of (co : rowmap) (u : str) : Z := match mget u co with Some (_, c) => c | None => 0 end.
Definition dot (co sh : rowmap) : Z := fold_right (fun e a => coef_of co (fst e) * snd (snd e) + a) 0 sh.
Lemma combine_rows_dot : forall p co sh acc, eqm p (combine_rows p co sh acc) (acc + dot co sh).
Proof.
  intros p co sh. induction sh as [|[u [lb s]] sh IH]; intro acc; cbn [combine_rows dot fold_right fst snd].
  - rewrite Z.add_0_r. reflexivity.
  - fold (dot co sh). unfold coef_of at 1. destruct (mget u co) as [[l2 c]|]; rewrite IH.
    + rewrite fadd_eqm, fmul_eqm. replace (acc + (c * s + dot co sh)) with (acc + c * s + dot co sh) by lia. reflexivity.
    + replace (acc + (0 * s + dot co sh)) with (acc + dot co sh) by lia. reflexivity.
Qed.
Lemma dot_perm : forall co a b, Permutation a b -> dot co a = dot co b.
Proof. intros co a b H. induction H; cbn; try lia. fold (dot co l) (dot co l'). lia. Qed.

Lemma combine_rows_range : forall p co sh acc, 0 < p -> 0 <= acc < p -> 0 <= combine_rows p co sh acc < p.
Proof.
  intros p co sh. induction sh as [|[u [lb s]] sh IH]; intros acc Hp Ha; cbn [combine_rows]; [assumption|].
  destruct (mget u co) as [[l2 c]|]; apply IH; try assumption. unfold fadd. apply Z.mod_pos_bound. assumption.
Qed.

Section EndToEnd.
Variable p : Z.
Hypothesis p_prime : prime p.
Variable sort : list (nat * Z) -> list (nat * Z).
Hypothesis sort_perm : forall l, Permutation (sort l) l.
Variable attrs : list str.
Notation held := (match_attribute attrs).
Notation crows := (crows p sort attrs).
Notation rrows := (rrows p sort attrs).
Notation srows := (srows p).

Definition clean (r : node) (st : fstate) : Prop :=
  forall q, In q (positions [] r) -> fmark (st q) = false /\ fvisited (st q) = false.

Lemma scan_ok : forall r st, and_or r = true -> clean r st ->
  exists st', scan_tree sort attrs r st = Some st' /\ fmark (st' []) = sat held r /\
    (sat held r = true -> good sort attrs st' [] r) /\
    (forall q, ~ In q (positions [] r) -> st' q = st q).
Proof.
  intros r st Ha Hc. exists (scan_rec sort attrs r [] st). split.
  - apply scan_tree_rec; [exact sort_perm|]. intros q Hq. apply Hc. assumption.
  - destruct (scan_mark_good sort sort_perm attrs r [] st Ha) as [H1 H2].
    { intros q Hq. apply Hc. assumption. }
    repeat split; auto. intros q Hq. apply scan_rec_frame; assumption.
Qed.

Lemma recover_ok : forall o q r st, proot q = Some r -> and_or r = true -> clean r st ->
  exists st', recover_coefficients sort attrs false p o q st =
    Ok (sat held r, {| l_rows := if sat held r then add_rows (take_count o q) [] (crows r 1) else []; l_count := take_count o q |}, st')
    /\ (forall x, ~ In x (positions [] r) -> st' x = st x).
Proof.
  intros o q r st Hq Ha Hc. destruct (scan_ok r st Ha Hc) as (st' & E & Hm & Hg & Hf).
  exists st'. split; [|exact Hf]. unfold recover_coefficients. rewrite Hq, E, Hm.
  destruct (sat held r); [|reflexivity]. rewrite (recover_tree_rec p _ sort attrs); auto.
Qed.

Lemma check_ok : forall q r st (reset : bool), proot q = Some r -> and_or r = true -> clean r st ->
  exists n st', check_if_satisfied sort attrs q reset st = Ok (sat held r, n, st') /\
    (reset = true -> forall x, (In x (positions [] r) -> st' x = fresh_flags) /\ (~ In x (positions [] r) -> st' x = st x)).
Proof.
  intros q r st reset Hq Ha Hc. destruct (scan_ok r st Ha Hc) as (st' & E & Hm & Hg & Hf).
  unfold check_if_satisfied. rewrite Hq, E, Hm. destruct reset.
  - destruct (reset_flags_spec r st') as (st2 & -> & H2). eexists _, _. split; [reflexivity|].
    intros _ x. destruct (H2 x) as [H3 H4]. split; [assumption|]. intro Hx. rewrite H4 by assumption. auto.
  - eexists _, _. split; [reflexivity|discriminate].
Qed.

(** The sum over a map equals the sum over the selected rows. *)
Lemma dot_sublist : forall cnt (rr : list (node * (Z * Z))) (sr : list (node * Z)) co,
  sublist (map (fun e => (fst e, snd (snd e))) rr) sr ->
  NoDup (map (fun e => unique_label cnt (fst e)) sr) ->
  (forall e, In e rr -> coef_of co (unique_label cnt (fst e)) = fst (snd e)) ->
  (forall e, In e sr -> ~ In (unique_label cnt (fst e)) (map (fun e => unique_label cnt (fst e)) rr) -> coef_of co (unique_label cnt (fst e)) = 0) ->
  dot co (map (entry cnt) sr) = wsum rr.
Proof.
  intros cnt rr sr co Hsub. remember (map (fun e => (fst e, snd (snd e))) rr) as pr eqn:Ep. revert rr Ep.
  induction Hsub as [|x a b Hs IH|x a b Hs IH]; intros rr Ep HN Hin Hout.
  - destruct rr; [reflexivity|discriminate].
  - inversion HN; subst. cbn [map dot fold_right entry fst snd]. fold (dot co (map (entry cnt) b)).
    rewrite (IH rr eq_refl) by (auto; intros; apply Hout; auto; right; assumption).
    rewrite (Hout x); [lia|left; reflexivity|]. intro K. apply H1. apply in_map_iff in K as (e & Ee & He). rewrite <- Ee.
    assert (Hb : In (fst e, snd (snd e)) b).
    { eapply sublist_In; [exact Hs|]. apply (in_map (fun e => (fst e, snd (snd e)))). exact He. }
    apply (in_map (fun e => unique_label cnt (fst e))) in Hb. exact Hb.
  - destruct rr as [|e rr]; [discriminate|]. cbn [map] in Ep. injection Ep as Ex Ea. subst x a.
    cbn [map] in HN. inversion HN; subst. cbn [map dot fold_right entry fst snd wsum]. fold (dot co (map (entry cnt) b)). fold (wsum rr).
    rewrite (IH rr eq_refl).
    + rewrite (Hin e) by (left; reflexivity). reflexivity.
    + assumption.
    + intros e' He'. apply Hin. right. assumption.
    + intros e' He' K. apply Hout; [right; assumption|]. cbn [map]. intros [Q|Q]; [|apply K; exact Q].
      apply H1. cbn [fst]. rewrite Q. apply (in_map (fun e => unique_label cnt (fst e))). assumption.
Qed.

Definition distinct_rows (cnt : smap Z) (r : node) : Prop := NoDup (map (unique_label cnt) (leaves r)).

Lemma and_or_shareable : forall n, and_or n = true -> shareable n = true.
Proof.
  induction n as [ty k pr l i ks IH] using node_ind2. intro H.
  assert (Hk : forallb and_or ks = true -> forallb shareable ks = true).
  { rewrite !forallb_forall. rewrite Forall_forall in IH. auto. }
  destruct ty; simpl in *; try discriminate; auto.
  - apply andb_prop in H as [H1 H2]. rewrite H1. auto.
  - apply andb_prop in H as [_ H2]. auto.
Qed.

Lemma srows_labels : forall cnt t n s off, map (fun e => unique_label cnt (fst e)) (srows t n s off) = rev (map (unique_label cnt) (leaves n)).
Proof.
  intros. rewrite <- map_rev, <- (srows_fst p t n s off), map_map. reflexivity.
Qed.
Lemma srows_distinct : forall cnt t n s off, distinct_rows cnt n -> NoDup (map (fun e => unique_label cnt (fst e)) (srows t n s off)).
Proof. intros. rewrite srows_labels. apply NoDup_rev. assumption. Qed.
Lemma crows_distinct : forall cnt n c, distinct_rows cnt n -> NoDup (map (fun e => unique_label cnt (fst e)) (crows n c)).
Proof.
  intros cnt n c H. rewrite <- (rrows_crows p sort attrs (fun _ => 0) n c 0 0), map_map.
  pose proof (rrows_srows p sort attrs (fun _ => 0) n c 0 0) as S.
  apply (sublist_map (fun e => unique_label cnt (fst e))) in S. rewrite map_map in S.
  eapply sublist_NoDup; [exact S|]. apply srows_distinct. assumption.
Qed.

Lemma share_ok : forall o q r s t off, proot q = Some r -> shareable r = true ->
  share_secret false p o q s t off = Ok ({| l_rows := add_rows (take_count o q) [] (srows t r s off); l_count := take_count o q |}, (off + ndraws r)%nat).
Proof. intros o q r s t off Hq Hs. unfold share_secret. rewrite Hq, share_tree_rec by assumption. reflexivity. Qed.

Lemma recovered_sum : forall cnt r s t off, and_or r = true -> and_arity 2 r = true -> sat held r = true -> distinct_rows cnt r -> 0 <= s < p ->
  test_secret_recovery p (add_rows cnt [] (crows r 1)) (add_rows cnt [] (srows t r s off)) = s.
Proof.
  intros cnt r s t off Ha H2 Hs Hd Hr. pose proof (prime_ge_2 p p_prime).
  apply (eqm_small p); [apply combine_rows_range; lia|assumption|].
  unfold test_secret_recovery. rewrite combine_rows_dot, Z.add_0_l.
  rewrite (dot_perm _ _ _ (add_rows_perm cnt _ (srows_distinct cnt t r s off Hd))).
  pose proof (crows_distinct cnt r 1 Hd) as Hcd.
  rewrite (dot_sublist cnt (rrows t r 1 s off)).
  - rewrite wsum_rrows by assumption. rewrite Z.mul_1_l. reflexivity.
  - apply rrows_srows.
  - apply srows_distinct. assumption.
  - intros e He. unfold coef_of.
    assert (Hin : In (fst e, fst (snd e)) (crows r 1)).
    { rewrite <- (rrows_crows p sort attrs t r 1 s off). apply (in_map (fun e => (fst e, fst (snd e)))). exact He. }
    rewrite (add_rows_get cnt _ [] _ _ Hcd Hin). reflexivity.
  - intros e He K. unfold coef_of. rewrite add_rows_get_none; [reflexivity|]. intros x Hx Q. apply K. rewrite <- Q.
    rewrite <- (rrows_crows p sort attrs t r 1 s off) in Hx. apply in_map_iff in Hx as (y & Ey & Hy). subst x. cbn [fst].
    apply (in_map (fun e => unique_label cnt (fst e)) _ _ Hy).
Qed.
End EndToEnd.
