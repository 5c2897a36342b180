(** Sharing and recovery: loops as recursions, and the algebra of recovery. *)
From Verif Require Import Base StrMap Dec Field FieldProofs Policy Lsss LsssSpec LsssProofs LsssScan.
From Coq Require Import ZArith Znumtheory List Ascii Bool Lia ZifyBool ZifyNat Permutation Setoid Morphisms.
Import ListNotations.
Open Scope Z_scope.

Lemma is_leaf_dec : forall n, ntype n = GateLeaf \/ ntype n <> GateLeaf.
Proof. intro n. destruct (ntype n); auto; right; discriminate. Qed.

(** ** Polynomials *)
Fixpoint peval (cs : list Z) (x : Z) : Z :=
  match cs with [] => 0 | c :: cs' => c + x * peval cs' x end.

Lemma eval_poly_from_spec : forall p cs i x sh, 0 <= i ->
  eqm p (eval_poly_from p i cs x sh) (sh + x ^ i * peval cs x).
Proof.
  intros p cs. induction cs as [|c cs IH]; intros i x sh Hi; cbn [eval_poly_from peval].
  - rewrite Z.mul_0_r, Z.add_0_r. reflexivity.
  - rewrite IH by lia. unfold fadd, fmul, fpow. rewrite !eqm_mod.
    rewrite Z.add_1_r, Z.pow_succ_r by lia.
    replace (sh + x ^ i * (c + x * peval cs x)) with (sh + c * x ^ i + x * x ^ i * peval cs x) by ring.
    reflexivity.
Qed.

Global Instance peval_eqm : forall p cs, Proper (eqm p ==> eqm p) (peval cs).
Proof.
  intros p cs x y H. induction cs as [|c cs IH]; cbn [peval]; [reflexivity|]. rewrite H at 1. rewrite IH. reflexivity.
Qed.

Lemma eval_poly_spec : forall p cs x, eqm p (eval_poly p cs x) (peval cs x).
Proof.
  intros. unfold eval_poly. rewrite eval_poly_from_spec by lia. rewrite Z.pow_0_r, Z.mul_1_l, Z.add_0_l. 
  rewrite (eqm_mod p x) at 1. reflexivity.
Qed.

Lemma eval_poly_from_range : forall p cs i x sh, 0 < p -> 0 <= sh < p -> 0 <= eval_poly_from p i cs x sh < p.
Proof.
  intros p cs. induction cs as [|c cs IH]; intros; cbn [eval_poly_from]; [assumption|].
  apply IH; [assumption|]. unfold fadd. apply Z.mod_pos_bound. assumption.
Qed.
Lemma eval_poly_range : forall p cs x, 0 < p -> 0 <= eval_poly p cs x < p.
Proof. intros. apply eval_poly_from_range; lia. Qed.

Section ShareProofs.
Variable p : Z.
Variable cntm : smap Z.

Definition add_rows (rows : rowmap) (l : list (node * Z)) : rowmap :=
  fold_left (fun m e => add_share cntm m (fst e) (snd e)) l rows.
Lemma add_rows_app : forall a b rows, add_rows rows (a ++ b) = add_rows (add_rows rows a) b.
Proof. intros. apply fold_left_app. Qed.

(** ** Sharing as a recursion *)
Fixpoint ndraws (n : node) : nat :=
  let 'Node t _ _ _ _ ks := n in
  match t with
  | GateLeaf => O
  | _ => (Z.to_nat (threshold_value n) + (fix go l := match l with [] => O | c :: l' => ndraws c + go l' end) ks)%nat
  end.
Fixpoint kdraws (l : list node) : nat := match l with [] => O | c :: l' => (ndraws c + kdraws l')%nat end.
Lemma ndraws_gate : forall n, ntype n <> GateLeaf -> ndraws n = (Z.to_nat (threshold_value n) + kdraws (nkids n))%nat.
Proof. intros [t k pr l i ks] H. simpl in H. destruct t; try congruence; reflexivity. Qed.
Lemma ndraws_leaf : forall n, ntype n = GateLeaf -> ndraws n = O.
Proof. intros [t k pr l i ks] H. simpl in H. subst. reflexivity. Qed.

Definition coefs (t : tape) (n : node) (s : Z) (off : nat) : list Z :=
  set_first s (draw p t off (Z.to_nat (threshold_value n))).

Fixpoint srows (t : tape) (n : node) (s : Z) (off : nat) : list (node * Z) :=
  let 'Node ty _ _ _ _ ks := n in
  match ty with
  | GateLeaf => [(n, s)]
  | _ => (fix go (j : nat) (l : list node) : list (node * Z) :=
            match l with
            | [] => []
            | c :: l' => go (S j) l' ++ srows t c (eval_poly p (coefs t n s off) (Z.of_nat (j + 1)))
                                            (off + Z.to_nat (threshold_value n) + kdraws l')
            end) O ks
  end.
Fixpoint ksrows (t : tape) (cs : list Z) (off : nat) (j : nat) (l : list node) : list (node * Z) :=
  match l with
  | [] => []
  | c :: l' => ksrows t cs off (S j) l' ++ srows t c (eval_poly p cs (Z.of_nat (j + 1))) (off + kdraws l')
  end.
Lemma srows_leaf : forall t n s off, ntype n = GateLeaf -> srows t n s off = [(n, s)].
Proof. intros t [ty k pr l i ks] s off H. simpl in H. subst. reflexivity. Qed.
Lemma srows_gate : forall t n s off, ntype n <> GateLeaf ->
  srows t n s off = ksrows t (coefs t n s off) (off + Z.to_nat (threshold_value n)) 0 (nkids n).
Proof.
  intros t [ty k pr l i ks] s off H. simpl in H. set (n := Node ty k pr l i ks).
  assert (E : forall l0 j, (fix go (j : nat) (l : list node) : list (node * Z) :=
            match l with
            | [] => []
            | c :: l' => go (S j) l' ++ srows t c (eval_poly p (coefs t n s off) (Z.of_nat (j + 1)))
                                            (off + Z.to_nat (threshold_value n) + kdraws l')
            end) j l0 = ksrows t (coefs t n s off) (off + Z.to_nat (threshold_value n)) j l0).
  { induction l0 as [|c l0 IH]; intro j; [reflexivity|]. cbn [ksrows]. rewrite IH. reflexivity. }
  unfold n in *. destruct ty; try congruence; cbn [srows nkids]; apply E.
Qed.

(** Nodes reached by a traversal that does not descend into leaves. *)
Fixpoint tcost (n : node) : nat :=
  let 'Node t _ _ _ _ ks := n in
  match t with
  | GateLeaf => 1%nat
  | _ => S ((fix go l := match l with [] => O | c :: l' => tcost c + go l' end) ks)%nat
  end.
Fixpoint ktcost (l : list node) : nat := match l with [] => O | c :: l' => (tcost c + ktcost l')%nat end.
Lemma tcost_gate : forall n, ntype n <> GateLeaf -> tcost n = S (ktcost (nkids n)).
Proof. intros [t k pr l i ks] H. simpl in H. destruct t; try congruence; reflexivity. Qed.
Lemma tcost_leaf : forall n, ntype n = GateLeaf -> tcost n = 1%nat.
Proof. intros [t k pr l i ks] H. simpl in H. subst. reflexivity. Qed.
Lemma tcost_bound : forall n, (tcost n <= tree_size n)%nat.
Proof.
  induction n as [ty k pr l i ks IH] using node_ind2. rewrite tree_size_eq. cbn [nkids].
  assert (ktcost ks <= ksize ks)%nat by (induction IH; cbn; lia).
  destruct (is_leaf_dec (Node ty k pr l i ks)) as [Hl|Hl].
  - rewrite tcost_leaf by assumption. lia.
  - rewrite tcost_gate by assumption. cbn [nkids]. lia.
Qed.

Lemma shareable_kid : forall n c, ntype n <> GateLeaf -> shareable n = true -> In c (nkids n) -> shareable c = true.
Proof.
  intros [t k pr l x ks] c Hl Ha Hc. simpl in Hl, Hc. destruct t; try congruence; simpl in Ha; try discriminate;
  try (apply andb_prop in Ha as [_ Ha]); rewrite forallb_forall in Ha; auto.
Qed.
Lemma shareable_thr : forall n, ntype n <> GateLeaf -> shareable n = true -> 0 < threshold_value n.
Proof.
  intros [t k pr l x ks] Hl Ha. simpl in Hl. destruct t; try congruence; simpl in Ha; try discriminate; unfold threshold_value; simpl; try lia.
Qed.

Lemma share_kids_loop_aux : forall t l,
  Forall (fun n => shareable n = true -> forall s off rest rows f,
    share_loop false p cntm t (tcost n + f) ((n, s) :: rest) off rows =
    share_loop false p cntm t f rest (off + ndraws n) (add_rows rows (srows t n s off))) l ->
  (forall c, In c l -> shareable c = true) ->
  forall cs j off rest rows f,
    share_loop false p cntm t (ktcost l + f)
      (rev (map (fun '(i, c) => (c, eval_poly p cs (Z.of_nat (i + 1)))) (combine (seq j (length l)) l)) ++ rest) off rows =
    share_loop false p cntm t f rest (off + kdraws l) (add_rows rows (ksrows t cs off j l)).
Proof.
  intros t l. induction l as [|c l IH]; intros Hl Hs cs j off rest rows f.
  - cbn. rewrite Nat.add_0_r. reflexivity.
  - inversion Hl; subst. rewrite combine_seq_cons. cbn [map rev ktcost kdraws ksrows]. rewrite <- app_assoc. cbn [app].
    replace (tcost c + ktcost l + f)%nat with (ktcost l + (tcost c + f))%nat by lia.
    rewrite IH; [|assumption|intros; apply Hs; right; assumption].
    rewrite H1 by (apply Hs; left; reflexivity). rewrite add_rows_app. f_equal. lia.
Qed.

Lemma share_loop_rec : forall t n, shareable n = true -> forall s off rest rows f,
    share_loop false p cntm t (tcost n + f) ((n, s) :: rest) off rows =
    share_loop false p cntm t f rest (off + ndraws n) (add_rows rows (srows t n s off)).
Proof.
  intro t. induction n as [ty k pr l i ks IH] using node_ind2. intros Hs s off rest rows f.
  set (n := Node ty k pr l i ks) in *.
  destruct (is_leaf_dec n) as [Hl|Hl].
  - rewrite tcost_leaf, srows_leaf, ndraws_leaf, Nat.add_0_r by assumption. cbn [Nat.add share_loop]. rewrite Hl. reflexivity.
  - rewrite tcost_gate, srows_gate, ndraws_gate by assumption.
    pose proof (shareable_thr n Hl Hs) as Ht.
    assert (Hgen : forall f', share_loop false p cntm t (S f') ((n, s) :: rest) off rows =
      share_loop false p cntm t f' (rev (map (fun '(i, c) => (c, eval_poly p (coefs t n s off) (Z.of_nat (i + 1)))) (combine (seq 0 (length (nkids n))) (nkids n))) ++ rest)
        (off + Z.to_nat (threshold_value n)) rows).
    { intro f'. cbn [share_loop]. replace (threshold_value n =? 0) with false by lia. destruct (ntype n); try congruence; reflexivity. }
    cbn [Nat.add]. rewrite Hgen. rewrite share_kids_loop_aux.
    + f_equal. lia.
    + exact IH.
    + intros c Hc. eapply shareable_kid; eauto.
Qed.

Lemma share_tree_rec : forall t n s off, shareable n = true ->
  share_loop false p cntm t (tree_size n) [(n, s)] off [] = Ok (add_rows [] (srows t n s off), (off + ndraws n)%nat).
Proof.
  intros t n s off Hs. pose proof (tcost_bound n).
  replace (tree_size n) with (tcost n + (tree_size n - tcost n))%nat by lia.
  rewrite share_loop_rec by assumption. destruct (tree_size n - tcost n)%nat; reflexivity.
Qed.

Lemma ksrows_fst_aux : forall t l, Forall (fun n => forall s off, map fst (srows t n s off) = rev (leaves n)) l ->
  forall cs off j, map fst (ksrows t cs off j l) = rev (flat_map leaves l).
Proof.
  intros t l. induction l as [|c l IH]; intros Hl cs off j; [reflexivity|]. inversion Hl; subst.
  cbn [ksrows flat_map]. rewrite map_app, rev_app_distr, IH, H1 by assumption. reflexivity.
Qed.
Lemma leaves_leaf : forall n, ntype n = GateLeaf -> leaves n = [n].
Proof. intros [t k pr l i ks] H. simpl in H. subst. reflexivity. Qed.
Lemma leaves_gate : forall n, ntype n <> GateLeaf -> leaves n = flat_map leaves (nkids n).
Proof. intros [t k pr l i ks] H. simpl in H. destruct t; try congruence; reflexivity. Qed.
Lemma srows_fst : forall t n s off, map fst (srows t n s off) = rev (leaves n).
Proof.
  intro t. induction n as [ty k pr l i ks IH] using node_ind2. intros s off. set (n := Node ty k pr l i ks) in *.
  destruct (is_leaf_dec n) as [Hl|Hl].
  - rewrite srows_leaf, leaves_leaf by assumption. reflexivity.
  - rewrite srows_gate, leaves_gate by assumption. apply ksrows_fst_aux. exact IH.
Qed.

(** ** Recovery as a recursion *)
Variable sort : list (nat * Z) -> list (nat * Z).
Hypothesis sort_perm : forall l, Permutation (sort l) l.
Variable attrs : list str.
Notation held := (match_attribute attrs).
Notation chosen := (chosen sort attrs).
Notation good := (good sort attrs).

(** calculateCoefficient when every child is marked. *)
Fixpoint calc_pure (index : Z) (fuel : nat) (i : nat) (result : Z) : Z :=
  match fuel with
  | O => result
  | S f =>
      let r' :=
        if negb (Z.of_nat i =? index) then
          fmul p result (fmul p result
            (fdiv p (fsub p 0 (Z.of_nat i + 1)) (fsub p (index + 1) (Z.of_nat i + 1))))
        else result in
      calc_pure index f (S i) r'
  end.
Definition lam (n : node) (j : nat) : Z :=
  match ntype n with GateAnd => calc_pure (Z.of_nat j) (length (nkids n)) 0 1 | _ => 1 end.
Definition sel (n : node) (j : nat) : bool :=
  match ntype n with GateAnd => true | GateOr => Nat.eqb j (chosen n) | _ => false end.

Lemma calc_loop_pure : forall st q index fuel i r, (forall j, (i <= j < i + fuel)%nat -> fmark (st (j :: q)) = true) ->
  calc_loop p st q index fuel i r = calc_pure index fuel i r.
Proof.
  intros st q index fuel. induction fuel as [|f IH]; intros i r H; cbn [calc_loop calc_pure]; [reflexivity|].
  rewrite H by lia. cbn [andb]. apply IH. intros j Hj. apply H. lia.
Qed.

Lemma calc_sel : forall st q n j c, good st q n -> ntype n <> GateLeaf -> nth_error (nkids n) j = Some c -> sel n j = true ->
  calculate_coefficient p st q j (coeff_threshold n) = lam n j.
Proof.
  intros st q n j c Hg Hl Hj Hs. unfold calculate_coefficient, coeff_threshold, lam.
  destruct Hg as [q n Hn|q n Hn Hm _|q n c' Hn Hc Hsc Hm _]; rewrite Hn; [congruence| |].
  - apply calc_loop_pure. intros m Hlt. destruct (nth_error (nkids n) m) as [cm|] eqn:E.
    + eapply Hm; eauto.
    + apply nth_error_None in E. lia.
  - cbn [calc_loop]. unfold sel in Hs. rewrite Hn in Hs. apply Nat.eqb_eq in Hs. subst j.
    assert (chosen n < length (nkids n))%nat by (apply nth_error_Some; congruence).
    rewrite Hm by lia. destruct (chosen n); [reflexivity|]. reflexivity.
Qed.

Fixpoint crows (n : node) (c : Z) : list (node * Z) :=
  let 'Node ty _ _ _ _ ks := n in
  match ty with
  | GateLeaf => [(n, c)]
  | _ => (fix go (j : nat) (l : list node) : list (node * Z) :=
            match l with
            | [] => []
            | k :: l' => go (S j) l' ++ (if sel n j then crows k (fmul p c (lam n j)) else [])
            end) O ks
  end.
Fixpoint kcrows (n : node) (c : Z) (j : nat) (l : list node) : list (node * Z) :=
  match l with
  | [] => []
  | k :: l' => kcrows n c (S j) l' ++ (if sel n j then crows k (fmul p c (lam n j)) else [])
  end.
Lemma crows_leaf : forall n c, ntype n = GateLeaf -> crows n c = [(n, c)].
Proof. intros [ty k pr l i ks] c H. simpl in H. subst. reflexivity. Qed.
Lemma crows_gate : forall n c, ntype n <> GateLeaf -> crows n c = kcrows n c 0 (nkids n).
Proof.
  intros [ty k pr l i ks] c H. simpl in H. set (n := Node ty k pr l i ks).
  assert (E : forall l0 j, (fix go (j : nat) (l : list node) : list (node * Z) :=
            match l with
            | [] => []
            | k :: l' => go (S j) l' ++ (if sel n j then crows k (fmul p c (lam n j)) else [])
            end) j l0 = kcrows n c j l0).
  { induction l0 as [|x l0 IH]; intro j; [reflexivity|]. cbn [kcrows]. rewrite IH. reflexivity. }
  unfold n in *. destruct ty; try congruence; cbn [crows nkids]; apply E.
Qed.

(** Cost of the loop: only selected children are visited. *)
Fixpoint ccost (n : node) : nat :=
  let 'Node ty _ _ _ _ ks := n in
  match ty with
  | GateLeaf => 1%nat
  | _ => S ((fix go (j : nat) (l : list node) : nat :=
            match l with [] => O | k :: l' => ((if sel n j then ccost k else 0) + go (S j) l')%nat end) O ks)
  end.
Fixpoint kccost (n : node) (j : nat) (l : list node) : nat :=
  match l with [] => O | k :: l' => ((if sel n j then ccost k else 0) + kccost n (S j) l')%nat end.
Lemma ccost_gate : forall n, ntype n <> GateLeaf -> ccost n = S (kccost n 0 (nkids n)).
Proof.
  intros [ty k pr l i ks] H. simpl in H. set (n := Node ty k pr l i ks).
  assert (E : forall l0 j, (fix go (j : nat) (l : list node) : nat :=
            match l with [] => O | k :: l' => ((if sel n j then ccost k else 0) + go (S j) l')%nat end) j l0 = kccost n j l0).
  { induction l0 as [|x l0 IH]; intro j; [reflexivity|]. cbn [kccost]. rewrite IH. reflexivity. }
  unfold n in *. destruct ty; try congruence; cbn [ccost nkids]; f_equal; apply E.
Qed.
Lemma ccost_leaf : forall n, ntype n = GateLeaf -> ccost n = 1%nat.
Proof. intros [t k pr l i ks] H. simpl in H. subst. reflexivity. Qed.
Lemma ccost_bound : forall n, (ccost n <= tree_size n)%nat.
Proof.
  induction n as [ty k pr l i ks IH] using node_ind2. set (n := Node ty k pr l i ks) in *. rewrite tree_size_eq.
  destruct (is_leaf_dec n) as [Hl|Hl].
  - rewrite ccost_leaf by assumption. lia.
  - rewrite ccost_gate by assumption.
    assert (G : forall l0 j, Forall (fun n => ccost n <= tree_size n)%nat l0 -> (kccost n j l0 <= ksize l0)%nat).
    { induction l0 as [|x l0 IH0]; intros j Hf; cbn; [lia|]. inversion Hf; subst. specialize (IH0 (S j) H2). destruct (sel n j); lia. }
    specialize (G ks 0%nat IH). change (nkids n) with ks. lia.
Qed.

Lemma good_sel_mark : forall st q n j c, good st q n -> ntype n <> GateLeaf -> nth_error (nkids n) j = Some c -> fmark (st (j :: q)) = sel n j.
Proof.
  intros st q n j c Hg Hl Hj. unfold sel.
  destruct Hg as [q n Hn|q n Hn Hm _|q n c' Hn Hc Hsc Hm _]; rewrite Hn; [congruence|eauto|].
  apply Hm. apply nth_error_Some. congruence.
Qed.
Lemma good_kid : forall st q n j c, good st q n -> ntype n <> GateLeaf -> nth_error (nkids n) j = Some c -> sel n j = true -> good st (j :: q) c.
Proof.
  intros st q n j c Hg Hl Hj Hs. unfold sel in Hs.
  destruct Hg as [q n Hn|q n Hn Hm Hk|q n c' Hn Hc Hsc Hm Hk]; rewrite Hn in Hs; [congruence|eauto|].
  apply Nat.eqb_eq in Hs. subst. rewrite Hc in Hj. injection Hj as <-. exact Hk.
Qed.

Lemma recover_kids_loop_aux : forall st l,
  Forall (fun n => forall q c rest rows r f, good st q n ->
     recover_loop p cntm st (ccost n + f) (((q, n), c) :: rest) rows r =
     recover_loop p cntm st f rest (add_rows rows (crows n c)) true) l ->
  forall q n c j rest rows f,
    (forall i k, nth_error l i = Some k -> fmark (st ((j + i)%nat :: q)) = sel n (j + i) /\ (sel n (j + i) = true -> good st ((j + i)%nat :: q) k /\ calculate_coefficient p st q (j + i) (coeff_threshold n) = lam n (j + i))) ->
    recover_loop p cntm st (kccost n j l + f)
      (rev (map (fun '(i, k) => ((i :: q, k), fmul p c (calculate_coefficient p st q i (coeff_threshold n))))
            (filter (fun '(i, k) => fmark (st (i :: q))) (combine (seq j (length l)) l))) ++ rest) rows true =
    recover_loop p cntm st f rest (add_rows rows (kcrows n c j l)) true.
Proof.
  intros st l. induction l as [|k l IH]; intros Hl q n c j rest rows f Hk; [reflexivity|].
  inversion Hl; subst. rewrite combine_seq_cons. cbn [filter kccost kcrows].
  destruct (Hk 0%nat k eq_refl) as [Hm Hs]. rewrite Nat.add_0_r in Hm, Hs.
  assert (Hk' : forall i k0, nth_error l i = Some k0 -> fmark (st ((S j + i)%nat :: q)) = sel n (S j + i) /\ (sel n (S j + i) = true -> good st ((S j + i)%nat :: q) k0 /\ calculate_coefficient p st q (S j + i) (coeff_threshold n) = lam n (S j + i))).
  { intros i k0 Hi. replace (S j + i)%nat with (j + S i)%nat by lia. apply Hk. exact Hi. }
  rewrite Hm. destruct (sel n j) eqn:Es.
  - cbn [map rev]. rewrite <- app_assoc. cbn [app].
    replace (ccost k + kccost n (S j) l + f)%nat with (kccost n (S j) l + (ccost k + f))%nat by lia.
    rewrite IH by assumption. destruct (Hs eq_refl) as [Hg Hc]. rewrite H1 by assumption. rewrite add_rows_app, Hc. reflexivity.
  - rewrite app_nil_r. cbn [Nat.add]. apply IH; assumption.
Qed.

Lemma recover_loop_rec : forall st n q c rest rows r f, good st q n -> and_or n = true ->
  recover_loop p cntm st (ccost n + f) (((q, n), c) :: rest) rows r =
  recover_loop p cntm st f rest (add_rows rows (crows n c)) true.
Proof.
  intro st.
  assert (G : forall n, and_or n = true -> forall q c rest rows r f, good st q n ->
     recover_loop p cntm st (ccost n + f) (((q, n), c) :: rest) rows r =
     recover_loop p cntm st f rest (add_rows rows (crows n c)) true).
  2: { intros; apply G; assumption. }
  induction n as [ty k pr l i ks IH] using node_ind2. intros Ha q c rest rows r f Hg.
  set (n := Node ty k pr l i ks) in *.
  destruct (is_leaf_dec n) as [Hl|Hl].
  - rewrite ccost_leaf, crows_leaf by assumption. cbn [Nat.add recover_loop]. rewrite Hl. reflexivity.
  - rewrite ccost_gate, crows_gate by assumption.
    assert (Hks : forall c, In c (nkids n) -> and_or c = true).
    { intros c0 Hc0. apply In_nth_error in Hc0 as (m & Hm). eapply and_or_kid; eauto. }
    assert (IH' : Forall (fun n => forall q c rest rows r f, good st q n ->
       recover_loop p cntm st (ccost n + f) (((q, n), c) :: rest) rows r =
       recover_loop p cntm st f rest (add_rows rows (crows n c)) true) (nkids n)).
    { apply Forall_forall. intros c0 Hc0. rewrite Forall_forall in IH. apply IH; [exact Hc0|auto]. }
    assert (Hne : filter (fun '(i, k) => fmark (st (i :: q))) (combine (seq 0 (length (nkids n))) (nkids n)) <> []).
    { assert (Hex : exists j c0, nth_error (nkids n) j = Some c0 /\ sel n j = true).
      { destruct Hg as [q n0 Hn|q n0 Hn Hm Hk|q n0 c' Hn Hc Hsc Hm Hk].
        - congruence.
        - unfold sel. rewrite Hn. subst n0 || idtac. 
          destruct (nkids n0) as [|c0 ks0] eqn:E.
          + exfalso. destruct n0 as [t0 ? ? ? ? ks1]. simpl in *. subst. discriminate.
          + exists 0%nat, c0. auto.
        - exists (chosen n0), c'. unfold sel. rewrite Hn, Nat.eqb_refl. auto. }
      destruct Hex as (j & c0 & Hj & Hsel). intro K.
      assert (In (j, c0) (filter (fun '(i, k) => fmark (st (i :: q))) (combine (seq 0 (length (nkids n))) (nkids n)))).
      { apply filter_In. split; [apply combine_seq_In0; exact Hj|]. erewrite good_sel_mark; eauto. }
      rewrite K in H. destruct H. }
    assert (Hgen : forall f', recover_loop p cntm st (S f') (((q, n), c) :: rest) rows r =
       recover_loop p cntm st f' (rev (map (fun '(i, k) => ((i :: q, k), fmul p c (calculate_coefficient p st q i (coeff_threshold n))))
            (filter (fun '(i, k) => fmark (st (i :: q))) (combine (seq 0 (length (nkids n))) (nkids n)))) ++ rest) rows true).
    { intro f'. cbn [recover_loop]. destruct (filter _ _); [congruence|]. destruct (ntype n); try congruence; reflexivity. }
    cbn [Nat.add]. rewrite Hgen. apply (recover_kids_loop_aux st (nkids n) IH' q n c 0%nat rest rows f).
    intros m k0 Hm. cbn [Nat.add]. split; [eapply good_sel_mark; eauto|]. intro Hs. split; [eapply good_kid; eauto|eapply calc_sel; eauto].
Qed.

Lemma recover_tree_rec : forall st r, good st [] r -> and_or r = true ->
  recover_loop p cntm st (tree_size r) [(([], r), 1)] [] false = Some (add_rows [] (crows r 1), true).
Proof.
  intros st r Hg Ha. pose proof (ccost_bound r).
  replace (tree_size r) with (ccost r + (tree_size r - ccost r))%nat by lia.
  rewrite recover_loop_rec by assumption. destruct (tree_size r - ccost r)%nat; reflexivity.
Qed.

End ShareProofs.
