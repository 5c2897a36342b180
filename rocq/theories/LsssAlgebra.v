(** Algebra of recovery: the selected coefficients combine the shares to the secret. *)
From Verif Require Import Base StrMap Dec Field FieldProofs Policy Lsss LsssSpec LsssProofs LsssScan LsssShare.
From Coq Require Import ZArith Znumtheory List Ascii Bool Lia ZifyBool ZifyNat Permutation Setoid Morphisms.
Import ListNotations.
Open Scope Z_scope.

Lemma fmul_eqm : forall p a b, eqm p (fmul p a b) (a * b).
Proof. intros. apply eqm_mod. Qed.
Lemma fadd_eqm : forall p a b, eqm p (fadd p a b) (a + b).
Proof. intros. apply eqm_mod. Qed.
Lemma fsub_eqm : forall p a b, eqm p (fsub p a b) (a - b).
Proof. intros. apply eqm_mod. Qed.

Lemma finv_1 : forall p, prime p -> eqm p (finv p 1) 1.
Proof.
  intros p Hp. pose proof (prime_ge_2 p Hp). pose proof (fmul_finv p 1 Hp) as H1.
  rewrite Z.mod_1_l in H1 by lia. rewrite Z.mul_1_l in H1. apply H1. lia.
Qed.
Lemma finv_ext : forall p a b, a mod p = b mod p -> finv p a = finv p b.
Proof. intros p a b H. unfold finv. rewrite H. reflexivity. Qed.
Global Instance finv_proper : forall p, Proper (eqm p ==> eqm p) (finv p).
Proof. intros p a b H. rewrite (finv_ext p a b H). reflexivity. Qed.
Lemma finv_m1 : forall p, prime p -> eqm p (finv p (-1)) (-1).
Proof.
  intros p Hp. pose proof (prime_ge_2 p Hp). 
  assert (Hm : (-1) mod p <> 0).
  { replace (-1) with (- (1)) by lia. rewrite Z_mod_nz_opp_full; rewrite Z.mod_1_l; lia. }
  pose proof (fmul_finv p (-1) Hp Hm) as H1.
  assert (H2 : eqm p (-1 * (-1 * finv p (-1))) (-1 * 1)) by (rewrite H1; reflexivity).
  replace (-1 * (-1 * finv p (-1))) with (finv p (-1)) in H2 by lia. exact H2.
Qed.

Section Algebra.
Variable p : Z.
Hypothesis p_prime : prime p.
Variable sort : list (nat * Z) -> list (nat * Z).
Hypothesis sort_perm : forall l, Permutation (sort l) l.
Variable attrs : list str.
Notation held := (match_attribute attrs).
Notation chosen := (chosen sort attrs).
Notation sel := (sel sort attrs).
Notation crows := (crows p sort attrs).
Notation kcrows := (kcrows p sort attrs).
Notation lam := (lam p).
Notation srows := (srows p).
Notation ksrows := (ksrows p).
Notation coefs := (coefs p).

Lemma lam_2_0 : forall n, ntype n = GateAnd -> length (nkids n) = 2%nat -> eqm p (lam n 0) 2.
Proof.
  intros n Hn Hk. unfold LsssShare.lam. rewrite Hn, Hk. cbn [calc_pure].
  replace (Z.of_nat 0 =? Z.of_nat 0) with true by lia. replace (Z.of_nat 1 =? Z.of_nat 0) with false by lia. cbn [negb].
  rewrite !fmul_eqm. unfold fdiv. rewrite fmul_eqm, !fsub_eqm.
  replace (Z.of_nat 0 + 1 - (Z.of_nat 1 + 1)) with (-1) by lia.
  rewrite finv_m1 by assumption. replace (1 * (1 * (-1 * (0 - (Z.of_nat 1 + 1))))) with 2 by lia. reflexivity.
Qed.
Lemma lam_2_1 : forall n, ntype n = GateAnd -> length (nkids n) = 2%nat -> eqm p (lam n 1) (-1).
Proof.
  intros n Hn Hk. unfold LsssShare.lam. rewrite Hn, Hk. cbn [calc_pure].
  replace (Z.of_nat 0 =? Z.of_nat 1) with false by lia. replace (Z.of_nat 1 =? Z.of_nat 1) with true by lia. cbn [negb].
  rewrite !fmul_eqm. unfold fdiv. rewrite fmul_eqm, !fsub_eqm.
  replace (Z.of_nat 1 + 1 - (Z.of_nat 0 + 1)) with 1 by lia.
  rewrite finv_1 by assumption. replace (1 * (1 * (1 * (0 - (Z.of_nat 0 + 1))))) with (-1) by lia. reflexivity.
Qed.
Lemma lam_1_0 : forall n, ntype n = GateAnd -> length (nkids n) = 1%nat -> lam n 0 = 1.
Proof. intros n Hn Hk. unfold LsssShare.lam. rewrite Hn, Hk. reflexivity. Qed.
Lemma lam_or : forall n j, ntype n = GateOr -> lam n j = 1.
Proof. intros n j Hn. unfold LsssShare.lam. rewrite Hn. reflexivity. Qed.

(** Selected rows: leaf, (coefficient, share). *)
Fixpoint rrows (t : tape) (n : node) (c s : Z) (off : nat) : list (node * (Z * Z)) :=
  let 'Node ty _ _ _ _ ks := n in
  match ty with
  | GateLeaf => [(n, (c, s))]
  | _ => (fix go (j : nat) (l : list node) : list (node * (Z * Z)) :=
            match l with
            | [] => []
            | k :: l' => go (S j) l' ++
                (if sel n j then rrows t k (fmul p c (lam n j)) (eval_poly p (coefs t n s off) (Z.of_nat (j + 1)))
                                       (off + Z.to_nat (threshold_value n) + kdraws l') else [])
            end) O ks
  end.
Fixpoint krrows (t : tape) (n : node) (c : Z) (cs : list Z) (off : nat) (j : nat) (l : list node) : list (node * (Z * Z)) :=
  match l with
  | [] => []
  | k :: l' => krrows t n c cs off (S j) l' ++
      (if sel n j then rrows t k (fmul p c (lam n j)) (eval_poly p cs (Z.of_nat (j + 1))) (off + kdraws l') else [])
  end.
Lemma rrows_leaf : forall t n c s off, ntype n = GateLeaf -> rrows t n c s off = [(n, (c, s))].
Proof. intros t [ty k pr l i ks] c s off H. simpl in H. subst. reflexivity. Qed.
Lemma rrows_gate : forall t n c s off, ntype n <> GateLeaf ->
  rrows t n c s off = krrows t n c (coefs t n s off) (off + Z.to_nat (threshold_value n)) 0 (nkids n).
Proof.
  intros t [ty k pr l i ks] c s off H. simpl in H. set (n := Node ty k pr l i ks).
  assert (E : forall l0 j, (fix go (j : nat) (l : list node) : list (node * (Z * Z)) :=
            match l with
            | [] => []
            | k :: l' => go (S j) l' ++
                (if sel n j then rrows t k (fmul p c (lam n j)) (eval_poly p (coefs t n s off) (Z.of_nat (j + 1)))
                                       (off + Z.to_nat (threshold_value n) + kdraws l') else [])
            end) j l0 = krrows t n c (coefs t n s off) (off + Z.to_nat (threshold_value n)) j l0).
  { induction l0 as [|x l0 IH]; intro j; [reflexivity|]. cbn [krrows]. rewrite IH. reflexivity. }
  unfold n in *. destruct ty; try congruence; cbn [rrows nkids]; apply E.
Qed.

(** Lemma B: leaves and coefficients are those of the recovery. *)
Lemma rrows_crows : forall t n c s off, map (fun e => (fst e, fst (snd e))) (rrows t n c s off) = crows n c.
Proof.
  intro t. induction n as [ty k pr l i ks IH] using node_ind2. intros c s off. set (n := Node ty k pr l i ks) in *.
  destruct (is_leaf_dec n) as [Hl|Hl].
  - rewrite rrows_leaf, crows_leaf by assumption. reflexivity.
  - rewrite rrows_gate, crows_gate by assumption. change (nkids n) with ks.
    generalize (coefs t n s off) (off + Z.to_nat (threshold_value n))%nat 0%nat. clearbody n.
    induction IH as [|x l0 Hx Hl0 IH0]; intros cs o j; [reflexivity|]. cbn [krrows LsssShare.kcrows].
    rewrite map_app, IH0. destruct (sel n j); [rewrite Hx|]; reflexivity.
Qed.

(** Lemma C: leaves and shares are among the shared rows, in the same order. *)
Inductive sublist {A : Type} : list A -> list A -> Prop :=
| sub_nil : sublist [] []
| sub_skip : forall x a b, sublist a b -> sublist a (x :: b)
| sub_cons : forall x a b, sublist a b -> sublist (x :: a) (x :: b).
Lemma sublist_nil : forall {A} (l : list A), sublist [] l.
Proof. induction l; constructor; assumption. Qed.
Lemma sublist_refl : forall {A} (l : list A), sublist l l.
Proof. induction l; constructor; assumption. Qed.
Lemma sublist_app : forall {A} (a b c d : list A), sublist a b -> sublist c d -> sublist (a ++ c) (b ++ d).
Proof. intros A a b c d H Hc. induction H; cbn; [assumption|constructor; assumption|constructor; assumption]. Qed.
Lemma sublist_In : forall {A} (a b : list A) x, sublist a b -> In x a -> In x b.
Proof. intros A a b x H. induction H; cbn; intuition. Qed.
Lemma sublist_map : forall {A B} (f : A -> B) a b, sublist a b -> sublist (map f a) (map f b).
Proof. intros A B f a b H. induction H; cbn; constructor; assumption. Qed.
Lemma sublist_NoDup : forall {A} (a b : list A), sublist a b -> NoDup b -> NoDup a.
Proof.
  intros A a b H. induction H; intro HN; [constructor| |]; inversion HN; subst; auto.
  constructor; auto. intro K. eapply sublist_In in K; eauto.
Qed.

Lemma rrows_srows : forall t n c s off, sublist (map (fun e => (fst e, snd (snd e))) (rrows t n c s off)) (srows t n s off).
Proof.
  intro t. induction n as [ty k pr l i ks IH] using node_ind2. intros c s off. set (n := Node ty k pr l i ks) in *.
  destruct (is_leaf_dec n) as [Hl|Hl].
  - rewrite rrows_leaf, srows_leaf by assumption. apply sublist_refl.
  - rewrite rrows_gate, srows_gate by assumption. change (nkids n) with ks.
    generalize (coefs t n s off) (off + Z.to_nat (threshold_value n))%nat 0%nat. clearbody n.
    induction IH as [|x l0 Hx Hl0 IH0]; intros cs o j; [constructor|]. cbn [krrows LsssShare.ksrows].
    rewrite map_app. apply sublist_app; [apply IH0|]. destruct (sel n j); [apply Hx|apply sublist_nil].
Qed.

(** Lemma A: the weighted sum. *)
Definition wsum (l : list (node * (Z * Z))) : Z := fold_right (fun e a => fst (snd e) * snd (snd e) + a) 0 l.
Lemma wsum_app : forall a b, wsum (a ++ b) = wsum a + wsum b.
Proof. unfold wsum. induction a as [|x a IH]; intro b; cbn [app fold_right]; [lia|]. rewrite IH. lia. Qed.

Fixpoint ksum (n : node) (cs : list Z) (j : nat) (k : nat) : Z :=
  match k with
  | O => 0
  | S k' => ksum n cs (S j) k' + (if sel n j then lam n j * peval cs (Z.of_nat (j + 1)) else 0)
  end.

Lemma ksum_none : forall n cs k j, (forall i, (j <= i < j + k)%nat -> sel n i = false) -> ksum n cs j k = 0.
Proof.
  intros n cs k. induction k as [|k IH]; intros j H; cbn [ksum]; [reflexivity|].
  rewrite H by lia. rewrite IH; [reflexivity|]. intros i Hi. apply H. lia.
Qed.
Lemma ksum_one : forall n cs k j m, (j <= m < j + k)%nat -> (forall i, (j <= i < j + k)%nat -> sel n i = Nat.eqb i m) ->
  ksum n cs j k = lam n m * peval cs (Z.of_nat (m + 1)).
Proof.
  intros n cs k. induction k as [|k IH]; intros j m Hm H; cbn [ksum]; [lia|].
  rewrite H by lia. destruct (Nat.eqb_spec j m) as [->|Hne].
  - rewrite ksum_none; [lia|]. intros i Hi. rewrite H by lia. apply Nat.eqb_neq. lia.
  - rewrite (IH (S j) m); [lia|lia|]. intros i Hi. apply H. lia.
Qed.

Lemma gate_sum : forall t n s off, and_or n = true -> and_arity 2 n = true -> sat held n = true -> ntype n <> GateLeaf ->
  eqm p (ksum n (coefs t n s off) 0 (length (nkids n))) s.
Proof.
  intros t n s off Ha H2 Hs Hl. unfold LsssShare.coefs.
  destruct (ntype n) eqn:Hn; try congruence; try (destruct n as [ty ? ? ? ? ?]; simpl in Hn; subst; discriminate).
  - (* AND *)
    assert (Hsel : forall j, sel n j = true) by (intro j; unfold LsssShare.sel; rewrite Hn; reflexivity).
    unfold threshold_value. rewrite Hn, Nat2Z.id.
    assert (Hlen : (length (nkids n) <= 2)%nat /\ length (nkids n) <> 0%nat).
    { destruct n as [ty ? ? ? ? ks]; simpl in *. subst. simpl in *. apply andb_prop in H2 as [H2 _]. apply andb_prop in Ha as [Ha _].
      apply Nat.leb_le in H2. apply negb_true_iff, Nat.eqb_neq in Ha. lia. }
    destruct (length (nkids n)) as [|[|[|]]] eqn:Ek; try lia; cbn [ksum]; rewrite !Hsel; cbn [draw seq map set_first peval Nat.add].
    + rewrite lam_1_0 by assumption. cbn [Nat.add]. replace (0 + 1 * (s + Z.of_nat 1 * 0)) with s by lia. reflexivity.
    + rewrite lam_2_0, lam_2_1 by assumption.
      generalize (t (S off) mod p). intro r.
      replace (0 + -1 * (s + Z.of_nat 2 * (r + Z.of_nat 2 * 0)) + 2 * (s + Z.of_nat 1 * (r + Z.of_nat 1 * 0))) with s by lia. reflexivity.
  - (* OR *)
    destruct (chosen_spec sort sort_perm attrs n Hn Hs) as (c & l & w & Hc & _).
    assert (chosen n < length (nkids n))%nat by (apply nth_error_Some; congruence).
    rewrite (ksum_one n _ (length (nkids n)) 0 (chosen n)).
    + rewrite lam_or by assumption. unfold threshold_value. rewrite Hn.
      change (Z.to_nat 1) with 1%nat. cbn [draw seq map set_first peval]. rewrite Z.mul_0_r, Z.add_0_r, Z.mul_1_l. reflexivity.
    + lia.
    + intros i Hi. unfold LsssShare.sel. rewrite Hn. reflexivity.
Qed.

Lemma wsum_krrows : forall t n c cs l,
  Forall (fun k => forall c s off, and_or k = true -> and_arity 2 k = true -> sat held k = true -> eqm p (wsum (rrows t k c s off)) (c * s)) l ->
  forall off j,
  (forall i k, nth_error l i = Some k -> sel n (j + i) = true -> and_or k = true /\ and_arity 2 k = true /\ sat held k = true) ->
  eqm p (wsum (krrows t n c cs off j l)) (c * ksum n cs j (length l)).
Proof.
  intros t n c cs l Hf. induction Hf as [|x l Hx Hl IH]; intros off j Hk; cbn [krrows ksum length].
  - cbn. rewrite Z.mul_0_r. reflexivity.
  - rewrite wsum_app, Z.mul_add_distr_l. apply eqm_add.
    + apply IH. intros i k Hi Hs. apply (Hk (S i) k Hi). rewrite Nat.add_succ_r. exact Hs.
    + specialize (Hk 0%nat x eq_refl). rewrite Nat.add_0_r in Hk.
      destruct (sel n j); [|cbn; rewrite Z.mul_0_r; reflexivity].
      destruct (Hk eq_refl) as (K1 & K2 & K3). rewrite Hx by assumption.
      rewrite fmul_eqm, eval_poly_spec. rewrite Z.mul_assoc. reflexivity.
Qed.

Lemma and_arity_kid : forall m n i c, ntype n <> GateLeaf -> and_arity m n = true -> nth_error (nkids n) i = Some c -> and_arity m c = true.
Proof.
  intros m [ty k pr l x ks] i c Hl Ha Hc. simpl in Hl, Hc. apply nth_error_In in Hc.
  destruct ty; try congruence; simpl in Ha; try (apply andb_prop in Ha as [_ Ha]); rewrite forallb_forall in Ha; auto.
Qed.
Lemma sel_sat : forall n i c, and_or n = true -> sat held n = true -> ntype n <> GateLeaf -> nth_error (nkids n) i = Some c -> sel n i = true -> sat held c = true.
Proof.
  intros n i c Ha Hs Hl Hc Hsel. unfold LsssShare.sel in Hsel. destruct (ntype n) eqn:Hn; try discriminate.
  - rewrite sat_and in Hs by assumption. eapply (proj1 (nth_error_forallb _ _)) in Hs; eauto.
  - apply Nat.eqb_eq in Hsel. subst i. destruct (chosen_spec sort sort_perm attrs n Hn Hs) as (c' & l & w & Hc' & Hsc & _). congruence.
Qed.

Lemma wsum_rrows : forall t n c s off, and_or n = true -> and_arity 2 n = true -> sat held n = true -> eqm p (wsum (rrows t n c s off)) (c * s).
Proof.
  intro t. induction n as [ty k pr l i ks IH] using node_ind2. intros c s off Ha H2 Hs. set (n := Node ty k pr l i ks) in *.
  destruct (is_leaf_dec n) as [Hl|Hl].
  - rewrite rrows_leaf by assumption. cbn. rewrite Z.add_0_r. reflexivity.
  - rewrite rrows_gate by assumption. rewrite wsum_krrows.
    + rewrite gate_sum by assumption. reflexivity.
    + exact IH.
    + intros m k0 Hm Hsel. cbn [Nat.add] in Hsel. repeat split; [eapply and_or_kid|eapply and_arity_kid|eapply sel_sat]; eauto.
Qed.

End Algebra.
