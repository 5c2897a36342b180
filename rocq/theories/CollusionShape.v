(** What the calls of the schemes leave behind, described independently of the
    random choices: which component holds which form. *)
From Verif Require Import Base StrMap ByteString ByteStringProofs UInteger Field FieldProofs Policy Driver Parser AttrList Utils Kdf KdfProofs Lsss LsssSpec LsssProofs LsssScan LsssShare LsssAlgebra LsssRecover LsssPrivacy LsssFinal SchemeRows Container ContainerSpec ContainerProofs Travel PropUtil Keystore Scheme SchemeSpec SchemeStep SchemeCp CollusionSpec.
From Coq Require Import ZArith Znumtheory List Ascii Bool Lia Permutation.
Import ListNotations.
Open Scope Z_scope.

Lemma reroll_lawful : forall E zp map, lawful E -> lawful (reroll E zp map).
Proof. intros E zp map []. split; assumption. Qed.

Section Described.
Context {K : curve} {F : Type} (fits : F -> zobj K -> Prop).
Definition described (d : smap F) (c : container K) : Prop :=
  forall name, match mget name d with Some f => exists o, mget name c = Some (Some o) /\ fits f o | None => mget name c = None end.
Lemma described_nil : described [] [].
Proof. intro name. reflexivity. Qed.
Lemma described_set : forall d c name f o o', described d c -> clone o = Some o' -> fits f o' -> described (mset name f d) (set_component c name o).
Proof.
  intros d c name f o o' D C H n. unfold set_component. destruct (str_eq_dec n name) as [->|N].
  - rewrite !mget_mset_same. exists o'. split; [congruence|exact H].
  - rewrite !mget_mset_other by exact N. apply D.
Qed.
End Described.
Lemma described_mono : forall K F (P Q : F -> zobj K -> Prop) d c, (forall f o, P f o -> Q f o) -> described P d c -> described Q d c.
Proof. intros K F P Q d c H D n. specialize (D n). destruct (mget n d); [|exact D]. destruct D as (o & A & B). eauto. Qed.

(** The rows of a sharing, without the shares. *)
Definition skeleton (rows : rowmap) : list (str * str) := map (fun x => (fst x, fst (snd x))) rows.
Lemma skeleton_mrow : forall held a b, Forall2 (mrow held) a b -> skeleton a = skeleton b.
Proof. intros held a b H. induction H as [|[u [l e]] [u' [l' e']] a b (A & B & _) H IH]; [reflexivity|]. cbn in A, B. subst u' l'. unfold skeleton in *. cbn [map fst snd]. f_equal. exact IH. Qed.

(** A sharing of one that a holder of too few attributes cannot tell from zeros. *)
Section Hide.
Variable p : Z.
Hypothesis p_prime : prime p.
Lemma zero_poly : forall t off k x, (forall i, t i = 0) -> eval_poly p (set_first 0 (draw p t off k)) x = 0.
Proof.
  intros t off k x Ht. pose proof (prime_ge_2 p p_prime). 
  assert (eval_poly p (set_first 0 (draw p t off k)) x = eval_poly p (repeat 0 k) x) as ->.
  { f_equal. unfold draw. assert (forall l, map (fun i => t i mod p) l = repeat 0 (length l)) as G by (induction l as [|y l IH]; [reflexivity|]; cbn; rewrite Ht, Z.mod_0_l by lia; f_equal; exact IH).
    rewrite G, seq_length. destruct k; reflexivity. }
  apply (eqm_small p); [apply eval_poly_range; lia|lia|]. rewrite eval_poly_spec, peval_zeros. reflexivity.
Qed.
Lemma zero_srows : forall n t off, (forall i, t i = 0) -> forall x e, In (x, e) (srows p t n 0 off) -> e = 0.
Proof.
  induction n as [ty k pr l i ks IH] using node_ind2. intros t off Ht x e I0. set (n := Node ty k pr l i ks) in *.
  destruct (is_leaf_dec n) as [Hl|Hl].
  - rewrite srows_leaf in I0 by assumption. destruct I0 as [I0|[]]. congruence.
  - rewrite srows_gate in I0 by assumption. unfold coefs in I0.
    revert I0. generalize (off + Z.to_nat (threshold_value n))%nat 0%nat. change (nkids n) with ks. clear Hl. generalize (threshold_value n). intro th.
    induction IH as [|c l0 Hc Hl0 IH0]; intros o j I0; [destruct I0|]. cbn [ksrows] in I0. apply in_app_or in I0 as [I0|I0].
    + apply IH0 in I0. exact I0.
    + rewrite zero_poly in I0 by exact Ht. eapply Hc; [exact Ht|exact I0].
Qed.
Lemma add_rows_In : forall cnt l a u v, In (u, v) (add_rows cnt a l) -> In (u, v) a \/ exists n e, In (n, e) l /\ u = unique_label cnt n /\ v = (complete_label n, e).
Proof.
  intros cnt l. induction l as [|[n e] l IH]; intros a u v I0; [left; exact I0|]. unfold add_rows in *. cbn [fold_left fst snd] in I0. apply IH in I0 as [I0|(n' & e' & A & B)].
  - unfold add_share in I0. assert (forall m k (x : row), In (u, v) (mset k x m) -> In (u, v) m \/ (u = k /\ v = x)) as G.
    { induction m as [|[k' x'] m IHm]; intros k x J; cbn [mset] in J; [destruct J as [J|[]]; injection J as <- <-; auto|].
      destruct (str_eqb k k'); [destruct J as [J|J]; [injection J as <- <-; auto|left; right; exact J]|].
      destruct (str_ltb k k'); [destruct J as [J|J]; [injection J as <- <-; auto|left; exact J]|].
      destruct J as [J|J]; [left; left; exact J|]. destruct (IHm _ _ J); [left; right; assumption|auto]. }
    apply G in I0 as [I0|[-> ->]]; [left; exact I0|]. right. exists n, e. split; [left; reflexivity|auto].
  - right. exists n', e'. split; [right; exact A|exact B].
Qed.
Lemma hidden_rows : forall held q r off, proot q = Some r -> shareable r = true -> fanout_lt p r = true -> sat held r = false ->
  exists v R0 R1,
    (forall t, (forall i, (off <= i < off + ndraws r)%nat -> eqm p (t i) 0) -> exists o, share_secret false p lsss_new q 0 t off = Ok (o, (off + ndraws r)%nat) /\ l_rows o = R0) /\
    (forall t, (forall i, (off <= i < off + ndraws r)%nat -> eqm p (t i) (v i)) -> exists o, share_secret false p lsss_new q 1 t off = Ok (o, (off + ndraws r)%nat) /\ l_rows o = R1) /\
    skeleton R1 = skeleton R0 /\ (forall u lab e, In (u, (lab, e)) R0 -> e = 0) /\
    (forall u lab e, In (u, (lab, e)) R1 -> held lab = true -> e = 0) /\
    (forall u lab e, In (u, (lab, e)) R0 -> In lab (map complete_label (leaves r))).
Proof.
  intros held q r off Hq Ha Hf Hs. destruct (srows_hide p p_prime held r Ha Hf Hs off 1) as (v & Hv). pose (t0 := fun _ : nat => 0).
  exists v, (add_rows (take_count lsss_new q) [] (srows p t0 r 0 off)), (add_rows (take_count lsss_new q) [] (srows p v r 1 off)).
  split; [intros t Ht; eexists; split; [apply LsssRecover.share_ok; assumption|cbn [l_rows]; rewrite (srows_ext p held r t t0) by (intros i Hi; symmetry; apply Ht; exact Hi); reflexivity]|].
  split; [intros t Ht; eexists; split; [apply LsssRecover.share_ok; assumption|cbn [l_rows]; rewrite (srows_ext p held r t v) by (intros i Hi; symmetry; apply Ht; exact Hi); reflexivity]|].
  assert (Forall2 (mrow held) (add_rows (take_count lsss_new q) [] (srows p t0 r 0 off)) (add_rows (take_count lsss_new q) [] (srows p v r 1 off))) as M.
  { apply add_rows_rel; [|constructor]. apply Hv; [reflexivity|]. intros i Hi. reflexivity. }
  assert (forall u lab e, In (u, (lab, e)) (add_rows (take_count lsss_new q) [] (srows p t0 r 0 off)) -> e = 0 /\ In lab (map complete_label (leaves r))) as Z0.
  { intros u lab e I0. apply add_rows_In in I0 as [[]|(n & e' & A & _ & B)]. injection B as -> ->. split; [eapply (zero_srows r t0); [reflexivity|exact A]|].
    apply (in_map fst) in A. cbn [fst] in A. rewrite srows_fst in A. apply in_rev in A. apply in_map. exact A. }
  split; [symmetry; eapply skeleton_mrow; exact M|]. split; [intros u lab e I0; eapply Z0; eauto|]. split; [|intros u lab e I0; eapply Z0; eauto].
  intros u lab e I0 Hh. clear - M Z0 I0 Hh. induction M as [|[u0 [l0 e0]] [u1 [l1 e1]] a b (A & B & C) M IH]; [destruct I0|]. cbn in A, B, C.
  destruct I0 as [I0|I0].
  - injection I0 as -> -> ->. rewrite <- C by congruence. eapply Z0. left. reflexivity.
  - apply IH; [|exact I0]. intros u' lab' e' J. eapply Z0. right. exact J.
Qed.
End Hide.
Lemma skeleton_nth : forall (a b : rowmap) i u l e, skeleton a = skeleton b -> nth_error a i = Some (u, (l, e)) -> exists e', nth_error b i = Some (u, (l, e')).
Proof.
  induction a as [|[u0 [l0 e0]] a IH]; intros [|[u1 [l1 e1]] b] [|i] u l e H N; cbn in H, N; try discriminate H; try discriminate N.
  - injection H as -> -> H. injection N as -> -> ->. exists e1. reflexivity.
  - injection H as -> -> H. cbn [nth_error]. eapply IH; eauto.
Qed.
Lemma skeleton_fst : forall a b, skeleton a = skeleton b -> map fst a = map fst b.
Proof. intros a b H. assert (forall x, map fst x = map fst (skeleton x)) as G by (intro x; unfold skeleton; rewrite map_map; reflexivity). rewrite (G a), (G b), H. reflexivity. Qed.

(** Nothing is satisfied by no attributes. *)
Lemma sat_none : forall r, binary r = true -> sat (match_attribute []) r = false.
Proof.
  induction r as [ty k pr l i ks IH] using node_ind2. rewrite Forall_forall in IH. intro B. destruct ty; cbn [binary] in B; try discriminate; cbn [sat].
  - reflexivity.
  - apply andb_prop in B as [B1 B2]. destruct ks as [|c ks]; [discriminate|]. cbn [forallb] in *. apply andb_prop in B2 as [B2 _]. rewrite (IH c (or_introl eq_refl) B2). reflexivity.
  - apply andb_prop in B as [_ B2]. destruct (existsb (sat (match_attribute [])) ks) eqn:X; [|reflexivity]. apply existsb_exists in X as (c & Ic & Sc). rewrite (IH c Ic) in Sc; [discriminate|]. rewrite forallb_forall in B2. auto.
Qed.
Lemma binary_fanout : forall p r, 2 < p -> binary r = true -> fanout_lt p r = true.
Proof.
  intros p r Hp. induction r as [ty k pr l i ks IH] using node_ind2. rewrite Forall_forall in IH. intro B. destruct ty; cbn [binary] in B; try discriminate; cbn [fanout_lt]; try reflexivity;
  apply andb_prop in B as [B1 B2]; apply Nat.eqb_eq in B1; rewrite B1; rewrite forallb_forall in B2; apply andb_true_intro; (split; [apply Z.ltb_lt; cbn; lia|apply forallb_forall; auto]).
Qed.
(** Random choices do not matter for the checks on the names. *)
Lemma both_new_off : forall E mpk msk w w' b, both_new E mpk msk w = (w', Ok b) -> w_off E w' = w_off E w.
Proof.
  intros E mpk msk w w' b H. unfold both_new, andthen, is_new_id in H. destruct (validate_new_params_id (w_store E w) mpk) as [s1 b1]. destruct b1; [|injection H as <- _; reflexivity].
  match type of H with context [validate_new_params_id ?x ?y] => destruct (validate_new_params_id x y) as [s2 b2] end. injection H as <- _. reflexivity.
Qed.
(** A test that fails on one of finitely many. *)
Lemma some_fails : forall A (P : A -> bool) (l : list A), ~ (forall x, In x l -> P x = true) -> exists x, In x l /\ P x = false.
Proof.
  intros A P l. induction l as [|x l IH]; intro H; [elim H; intros x []|]. destruct (P x) eqn:Px; [|exists x; split; [left; reflexivity|exact Px]].
  destruct IH as (y & Iy & Py); [|exists y; split; [right; exact Iy|exact Py]]. intro G. apply H. intros y [<-|Iy]; [exact Px|auto].
Qed.
(** Equal powers of an element of full order. *)
Lemma powers_equal : forall E, lawful E -> forall x a b, (forall n, expT E n x = oneT E -> n mod order (e_curve E) = 0) -> expT E a x = expT E b x -> a mod order (e_curve E) = b mod order (e_curve E).
Proof.
  intros E HE x a b Hn H. assert (expT E (a - b) x = oneT E) as Ho.
  { pose proof (law_expT_add E HE (a - b) b x) as G. replace (a - b + b) with a in G by lia. rewrite H in G.
    pose proof (multT_inv_r E HE (expT E (a - b) x) (expT E b x)) as J. rewrite <- G, (law_multT_inv E HE) in J. congruence. }
  apply Hn in Ho. pose proof (prime_ge_2 _ (law_prime E HE)). rewrite Zminus_mod in Ho. 
  pose proof (Z.mod_pos_bound a (order (e_curve E)) ltac:(lia)). pose proof (Z.mod_pos_bound b (order (e_curve E)) ltac:(lia)).
  apply Z.mod_divide in Ho; [|lia]. destruct Ho as [k Hk]. assert (k = 0) by nia. lia.
Qed.
(** Both names are unused. *)
Definition names_free {A} (s : store A) (mpk msk : str) : bool :=
  let '(s1, b1) := validate_new_params_id s mpk in if b1 then snd (validate_new_params_id s1 msk) else false.
Lemma both_new_free : forall E mpk msk w, exists w1, both_new E mpk msk w = (w1, Ok (names_free (w_store E w) mpk msk)).
Proof.
  intros E mpk msk w. unfold both_new, andthen, is_new_id, names_free. destruct (validate_new_params_id (w_store E w) mpk) as [s1 b1]. destruct b1; [|eexists; reflexivity].
  cbn [w_store set_store]. destruct (validate_new_params_id s1 msk) as [s2 b2]. eexists. reflexivity.
Qed.
Lemma generated_free : forall E sch mpk msk w w1, generate_params E sch mpk msk w = (w1, Ok 0) -> names_free (w_store E w) mpk msk = true.
Proof.
  intros E sch mpk msk w w1 H. destruct (both_new_free E mpk msk w) as (w2 & B). destruct (names_free (w_store E w) mpk msk); [reflexivity|]. exfalso.
  destruct sch; unfold generate_params, cp_generate_params, kp_generate_params, catch_code in H; erewrite andthen_ok in H by exact B; cbn in H; discriminate.
Qed.
