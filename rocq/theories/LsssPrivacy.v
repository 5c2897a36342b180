(** Privacy of the sharing: translation of the random tape hides the secret. *)
From Verif Require Import Base StrMap Dec Field FieldProofs Policy Lsss LsssSpec LsssProofs LsssScan LsssShare LsssAlgebra LsssRecover.
From Coq Require Import ZArith Znumtheory List Ascii Bool Lia ZifyBool ZifyNat Permutation Setoid Morphisms.
Import ListNotations.
Open Scope Z_scope.

(** ** Polynomials with prescribed roots *)
Fixpoint padd (a b : list Z) : list Z :=
  match a, b with
  | [], _ => b
  | _, [] => a
  | x :: a', y :: b' => (x + y) :: padd a' b'
  end.
Lemma peval_padd : forall a b x, peval (padd a b) x = peval a x + peval b x.
Proof. induction a as [|u a IH]; intros [|w b] x; cbn [padd peval]; try (rewrite IH); ring. Qed.
Lemma peval_scale : forall c a x, peval (map (Z.mul c) a) x = c * peval a x.
Proof. intros c a x. induction a as [|u a IH]; cbn [map peval]; [lia|]. rewrite IH. ring. Qed.
Lemma padd_length : forall a b, length (padd a b) = Nat.max (length a) (length b).
Proof. induction a as [|u a IH]; intros [|w b]; cbn [padd length]; try lia. rewrite IH. lia. Qed.
Lemma peval_zeros : forall k x, peval (repeat 0 k) x = 0.
Proof. induction k as [|k IH]; intro x; cbn [repeat peval]; [reflexivity|]. rewrite IH. lia. Qed.
Lemma peval_pad : forall a k x, peval (a ++ repeat 0 k) x = peval a x.
Proof. induction a as [|u a IH]; intros k x; cbn [app peval]; [apply peval_zeros|]. rewrite IH. reflexivity. Qed.

(** cs * (1 - X/y). *)
Definition mul_root (p y : Z) (cs : list Z) : list Z := padd cs (0 :: map (Z.mul (- finv p y)) cs).
Lemma mul_root_eval : forall p y cs x, peval (mul_root p y cs) x = peval cs x * (1 - x * finv p y).
Proof. intros. unfold mul_root. rewrite peval_padd. cbn [peval]. rewrite peval_scale. ring. Qed.
Lemma mul_root_length : forall p y cs, length (mul_root p y cs) = S (length cs).
Proof. intros. unfold mul_root. rewrite padd_length. cbn [length]. rewrite map_length. lia. Qed.

Definition root_poly (p d : Z) (roots : list Z) : list Z := fold_right (fun y cs => mul_root p y cs) [d] roots.
Lemma root_poly_length : forall p d rs, length (root_poly p d rs) = S (length rs).
Proof. intros p d rs. induction rs as [|y rs IH]; cbn [root_poly fold_right]; [reflexivity|]. rewrite mul_root_length. fold (root_poly p d rs). rewrite IH. reflexivity. Qed.
Lemma root_poly_0 : forall p d rs, peval (root_poly p d rs) 0 = d.
Proof. intros p d rs. induction rs as [|y rs IH]; cbn [root_poly fold_right]; [cbn; lia|]. rewrite mul_root_eval. fold (root_poly p d rs). rewrite IH. ring. Qed.
Lemma root_poly_root : forall p d rs y, prime p -> In y rs -> y mod p <> 0 -> eqm p (peval (root_poly p d rs) y) 0.
Proof.
  intros p d rs y Hp. induction rs as [|z rs IH]; intros Hin Hy; [destruct Hin|].
  cbn [root_poly fold_right]. rewrite mul_root_eval. fold (root_poly p d rs). destruct Hin as [->|Hin].
  - rewrite (fmul_finv p y Hp Hy). rewrite Z.sub_diag, Z.mul_0_r. reflexivity.
  - rewrite IH by assumption. rewrite Z.mul_0_l. reflexivity.
Qed.

Lemma root_poly_exists : forall p d rs k, prime p -> (forall y, In y rs -> y mod p <> 0) -> (length rs < k)%nat ->
  exists ds, length ds = k /\ nth 0 ds 0 = d /\ (forall y, In y rs -> eqm p (peval ds y) 0).
Proof.
  intros p d rs k Hp Hr Hk. exists (root_poly p d rs ++ repeat 0 (k - S (length rs))).
  split; [rewrite app_length, repeat_length, root_poly_length; lia|]. split.
  - rewrite app_nth1 by (rewrite root_poly_length; lia).
    pose proof (root_poly_0 p d rs) as H0. destruct (root_poly p d rs) as [|u l] eqn:E.
    + pose proof (root_poly_length p d rs) as K. rewrite E in K. discriminate.
    + cbn [peval] in H0. cbn [nth]. lia.
  - intros y Hy. rewrite peval_pad. apply root_poly_root; auto.
Qed.

Lemma peval_pointwise : forall p a b d x, length a = length b -> length d = length b ->
  (forall i, (i < length b)%nat -> eqm p (nth i b 0) (nth i a 0 + nth i d 0)) ->
  eqm p (peval b x) (peval a x + peval d x).
Proof.
  intros p a. induction a as [|u a IH]; intros [|w b] [|z d] x H1 H2 H; try discriminate; [reflexivity|].
  cbn [peval]. cbn [length] in *.
  assert (E : eqm p (peval b x) (peval a x + peval d x)) by (apply IH; [lia|lia|intros i Hi; apply (H (S i)); lia]).
  assert (E0 : eqm p w (u + z)) by (apply (H 0%nat); lia).
  rewrite E, E0.
  replace (u + z + x * (peval a x + peval d x)) with (u + x * peval a x + (z + x * peval d x)) by ring. reflexivity.
Qed.

Lemma draw_length : forall p t off k, length (draw p t off k) = k.
Proof. intros. unfold draw. rewrite map_length, seq_length. reflexivity. Qed.
Lemma draw_nth : forall p t off k i, (i < k)%nat -> nth i (draw p t off k) 0 = t (off + i)%nat mod p.
Proof.
  intros p t off k i Hi. unfold draw. rewrite (nth_indep _ 0 (t 0%nat mod p)) by (rewrite map_length, seq_length; exact Hi).
  rewrite (map_nth (fun i => t i mod p)). rewrite seq_nth by exact Hi. reflexivity.
Qed.
Lemma set_first_length : forall s l, length (set_first s l) = length l.
Proof. intros s [|x l]; reflexivity. Qed.

Section Privacy.
Variable p : Z.
Hypothesis p_prime : prime p.
Variable held : str -> bool.
Notation srows := (srows p).
Notation ksrows := (ksrows p).

Definition vrow (x y : node * Z) : Prop := fst x = fst y /\ (held (complete_label (fst x)) = true -> snd x = snd y).
Definition vrel := Forall2 vrow.
Lemma vrel_refl : forall l, vrel l l.
Proof. induction l; constructor; [split; auto|assumption]. Qed.
Lemma vrel_app : forall a b c d, vrel a b -> vrel c d -> vrel (a ++ c) (b ++ d).
Proof. intros. apply Forall2_app; assumption. Qed.

Lemma coefs_nth : forall t n s off i, (0 < i < Z.to_nat (threshold_value n))%nat -> nth i (coefs p t n s off) 0 = t (off + i)%nat mod p.
Proof.
  intros t n s off i Hi. unfold coefs. rewrite <- (draw_nth p t off (Z.to_nat (threshold_value n)) i) by lia.
  pose proof (draw_length p t off (Z.to_nat (threshold_value n))) as HL.
  destruct (draw p t off (Z.to_nat (threshold_value n))) as [|x l]; [cbn in HL; lia|]. destruct i; [lia|]. reflexivity.
Qed.
Lemma coefs_nth0 : forall t n s off, (0 < Z.to_nat (threshold_value n))%nat -> nth 0 (coefs p t n s off) 0 = s.
Proof.
  intros t n s off Hi. unfold coefs. pose proof (draw_length p t off (Z.to_nat (threshold_value n))) as HL.
  destruct (draw p t off (Z.to_nat (threshold_value n))) as [|x l]; [cbn in HL; lia|]. reflexivity.
Qed.
Lemma coefs_length : forall t n s off, length (coefs p t n s off) = Z.to_nat (threshold_value n).
Proof. intros. unfold coefs. rewrite set_first_length, draw_length. reflexivity. Qed.

Lemma eval_poly_eq : forall a b x, eqm p (peval a x) (peval b x) -> eval_poly p a x = eval_poly p b x.
Proof.
  intros a b x H. pose proof (prime_ge_2 p p_prime). apply (eqm_small p); try (apply eval_poly_range; lia).
  rewrite !eval_poly_spec. exact H.
Qed.

(** Equal tapes (modulo p) give equal rows. *)
Lemma srows_ext : forall n t t' s off, (forall i, (off <= i < off + ndraws n)%nat -> eqm p (t' i) (t i)) -> srows t n s off = srows t' n s off.
Proof.
  induction n as [ty k pr l i ks IH] using node_ind2. intros t t' s off Ht. set (n := Node ty k pr l i ks) in *.
  destruct (is_leaf_dec n) as [Hl|Hl].
  - rewrite !srows_leaf by assumption. reflexivity.
  - rewrite ndraws_gate in Ht by assumption. rewrite !srows_gate by assumption.
    assert (Hc : coefs p t n s off = coefs p t' n s off).
    { unfold coefs. f_equal. unfold draw. apply map_ext_in. intros j Hj. apply in_seq in Hj. symmetry. apply Ht. lia. }
    rewrite Hc. generalize (coefs p t' n s off). intro cs. 
    assert (Hr : forall j, (off + Z.to_nat (threshold_value n) <= j < off + Z.to_nat (threshold_value n) + kdraws (nkids n))%nat -> eqm p (t' j) (t j)).
    { intros j Hj. apply Ht. lia. }
    revert Hr. generalize (off + Z.to_nat (threshold_value n))%nat 0%nat. change (nkids n) with ks. clear - IH.
    induction IH as [|x l0 Hx Hl0 IH0]; intros o j Hr; [reflexivity|]. cbn [LsssShare.ksrows kdraws] in *.
    rewrite (IH0 o (S j)) by (intros; apply Hr; lia). f_equal. apply Hx. intros; apply Hr; lia.
Qed.

Lemma ksrows_hide : forall ds l,
  Forall (fun n => shareable n = true -> fanout_lt p n = true -> sat held n = false -> forall off d, exists v, forall t t' s s',
     eqm p s' (s + d) -> (forall i, (off <= i < off + ndraws n)%nat -> eqm p (t' i) (t i + v i)) ->
     vrel (srows t n s off) (srows t' n s' off)) l ->
  forall j off,
  (forall i c, nth_error l i = Some c -> shareable c = true /\ fanout_lt p c = true /\
      (sat held c = true -> eqm p (peval ds (Z.of_nat (j + i + 1))) 0)) ->
  exists v, forall t t' cs cs', (forall x, eqm p (peval cs' x) (peval cs x + peval ds x)) ->
     (forall i, (off <= i < off + kdraws l)%nat -> eqm p (t' i) (t i + v i)) ->
     vrel (ksrows t cs off j l) (ksrows t' cs' off j l).
Proof.
  intros ds l Hf. induction Hf as [|c l Hc Hl IH]; intros j off Hk.
  - exists (fun _ => 0). intros. constructor.
  - destruct (IH (S j) off) as (v1 & H1).
    { intros i k Hi. destruct (Hk (S i) k Hi) as (A & B & C). repeat split; auto. intro Hs. specialize (C Hs).
      replace (S j + i + 1)%nat with (j + S i + 1)%nat by lia. exact C. }
    destruct (Hk 0%nat c eq_refl) as (A & B & C). rewrite Nat.add_0_r in C.
    assert (H2 : exists v2, forall t t' cs cs', (forall x, eqm p (peval cs' x) (peval cs x + peval ds x)) ->
       (forall i, (off + kdraws l <= i < off + kdraws l + ndraws c)%nat -> eqm p (t' i) (t i + v2 i)) ->
       vrel (srows t c (eval_poly p cs (Z.of_nat (j + 1))) (off + kdraws l)) (srows t' c (eval_poly p cs' (Z.of_nat (j + 1))) (off + kdraws l))).
    { destruct (sat held c) eqn:Es.
      - exists (fun _ => 0). intros t t' cs cs' Hcs Ht.
        rewrite (eval_poly_eq cs' cs) by (rewrite Hcs, (C eq_refl), Z.add_0_r; reflexivity).
        rewrite (srows_ext c t t').
        + apply vrel_refl.
        + intros i Hi. rewrite Ht by assumption. rewrite Z.add_0_r. reflexivity.
      - destruct (Hc A B eq_refl (off + kdraws l)%nat (peval ds (Z.of_nat (j + 1)))) as (v2 & H2).
        exists v2. intros t t' cs cs' Hcs Ht. apply H2; [|exact Ht]. rewrite !eval_poly_spec. apply Hcs. }
    destruct H2 as (v2 & H2). cbn [LsssShare.ksrows kdraws].
    exists (fun i => if Nat.ltb i (off + kdraws l) then v1 i else v2 i). intros t t' cs cs' Hcs Ht.
    apply vrel_app.
    + apply H1; [exact Hcs|]. intros i Hi. rewrite Ht by lia.
      replace (Nat.ltb i (off + kdraws l)) with true by (symmetry; apply Nat.ltb_lt; lia). reflexivity.
    + apply H2; [exact Hcs|]. intros i Hi. rewrite Ht by lia.
      replace (Nat.ltb i (off + kdraws l)) with false by (symmetry; apply Nat.ltb_ge; lia). reflexivity.
Qed.

Lemma fanout_kid : forall n c, ntype n <> GateLeaf -> fanout_lt p n = true -> In c (nkids n) -> fanout_lt p c = true.
Proof.
  intros [t k pr l x ks] c Hl Ha Hc. simpl in Hl, Hc. destruct t; try congruence; simpl in Ha;
  apply andb_prop in Ha as [_ Ha]; rewrite forallb_forall in Ha; auto.
Qed.
Lemma fanout_len : forall n, ntype n <> GateLeaf -> fanout_lt p n = true -> Z.of_nat (length (nkids n)) < p.
Proof. intros [t k pr l x ks] Hl Ha. simpl in Hl. destruct t; try congruence; simpl in Ha; apply andb_prop in Ha as [Ha _]; simpl; lia. Qed.

Lemma filter_length_lt : forall {A} (f : A -> bool) l, forallb f l = false -> (length (filter f l) < length l)%nat.
Proof.
  intros A f l. induction l as [|x l IH]; cbn; [discriminate|]. destruct (f x); cbn; intro H; [specialize (IH H); lia|].
  clear. induction l as [|y l IH]; cbn; [lia|]. destruct (f y); cbn; lia.
Qed.
Lemma unsat_few : forall n, ntype n <> GateLeaf -> shareable n = true -> sat held n = false ->
  (length (filter (sat held) (nkids n)) < Z.to_nat (threshold_value n))%nat.
Proof.
  intros [t k pr l x ks] Hl Ha Hs. simpl in Hl. unfold threshold_value. destruct t; simpl in *; try congruence; try discriminate.
  - rewrite Nat2Z.id. apply filter_length_lt. exact Hs.
  - change (Z.to_nat 1) with 1%nat. rewrite filter_none; [cbn; lia|]. intros c Hc. destruct (sat held c) eqn:E; [|reflexivity].
    rewrite <- Hs. symmetry. apply existsb_exists. eauto.
  - lia.
Qed.

Definition sat_points (l : list node) (j : nat) : list Z :=
  map (fun x => Z.of_nat (fst x + 1)) (filter (fun x => sat held (snd x)) (combine (seq j (length l)) l)).
Lemma sat_points_length : forall l j, length (sat_points l j) = length (filter (sat held) l).
Proof.
  intros l j. unfold sat_points. rewrite map_length. revert j. induction l as [|c l IH]; intro j; cbn; [reflexivity|].
  destruct (sat held c); cbn; rewrite IH; reflexivity.
Qed.

Lemma srows_hide : forall n, shareable n = true -> fanout_lt p n = true -> sat held n = false -> forall off d, exists v, forall t t' s s',
     eqm p s' (s + d) -> (forall i, (off <= i < off + ndraws n)%nat -> eqm p (t' i) (t i + v i)) ->
     vrel (srows t n s off) (srows t' n s' off).
Proof.
  induction n as [ty k pr l i ks IH] using node_ind2. intros Ha Hfo Hs off d. set (n := Node ty k pr l i ks) in *.
  destruct (is_leaf_dec n) as [Hl|Hl].
  - exists (fun _ => 0). intros. rewrite !srows_leaf by assumption. constructor; [|constructor]. split; [reflexivity|].
    cbn [fst]. unfold n in *. simpl in Hl. subst ty. simpl in Hs. unfold complete_label in *. simpl in *. intro K. congruence.
  - pose proof (shareable_thr n Hl Ha) as Hthr. pose proof (unsat_few n Hl Ha Hs) as Hfew. pose proof (fanout_len n Hl Hfo) as Hlen.
    destruct (root_poly_exists p d (sat_points (nkids n) 0) (Z.to_nat (threshold_value n)) p_prime) as (ds & D1 & D2 & D3).
    { intros y Hy. unfold sat_points in Hy. apply in_map_iff in Hy as ([j c] & Ey & Hj). apply filter_In in Hj as [Hj _].
      apply combine_seq_In0 in Hj. assert (j < length (nkids n))%nat by (apply nth_error_Some; congruence).
      cbn [fst] in Ey. subst y. rewrite Z.mod_small by lia. lia. }
    { rewrite sat_points_length. exact Hfew. }
    destruct (ksrows_hide ds (nkids n) IH 0%nat (off + Z.to_nat (threshold_value n))%nat) as (v1 & H1).
    { intros j c Hj. pose proof (nth_error_In _ _ Hj) as Hin. repeat split.
      - eapply shareable_kid; eauto.
      - eapply fanout_kid; eauto.
      - intro Hsc. apply D3. cbn [Nat.add]. unfold sat_points. apply in_map_iff. exists (j, c). split; [reflexivity|].
        apply filter_In. split; [apply combine_seq_In0; exact Hj|exact Hsc]. }
    exists (fun i => if Nat.ltb i (off + Z.to_nat (threshold_value n)) then nth (i - off) ds 0 else v1 i).
    intros t t' s s' Hss Ht. rewrite ndraws_gate in Ht by assumption. rewrite !srows_gate by assumption.
    apply H1.
    + intro x. apply peval_pointwise; rewrite ?coefs_length; auto. intros j Hj.
      destruct j as [|j].
      * rewrite !coefs_nth0 by lia. rewrite D2. exact Hss.
      * rewrite !coefs_nth by lia. rewrite !eqm_mod. rewrite Ht by lia.
        replace (Nat.ltb (off + S j) (off + Z.to_nat (threshold_value n))) with true by (symmetry; apply Nat.ltb_lt; lia).
        replace (off + S j - off)%nat with (S j) by lia. reflexivity.
    + intros j Hj. rewrite Ht by lia.
      replace (Nat.ltb j (off + Z.to_nat (threshold_value n))) with false by (symmetry; apply Nat.ltb_ge; lia). reflexivity.
Qed.

(** ** Visible rows of the resulting map *)
Definition visible (rows : rowmap) : rowmap := filter (fun e => held (fst (snd e))) rows.
Definition mrow (x y : str * row) : Prop :=
  fst x = fst y /\ fst (snd x) = fst (snd y) /\ (held (fst (snd x)) = true -> snd (snd x) = snd (snd y)).
Lemma visible_rel : forall a b, Forall2 mrow a b -> visible a = visible b.
Proof.
  intros a b H. induction H as [|[u [lb e]] [u' [lb' e']] a b (H1 & H2 & H3) Hab IH]; [reflexivity|].
  cbn in H1, H2, H3. subst. unfold visible in *. cbn [filter fst snd]. destruct (held lb'); [|exact IH]. rewrite H3 by reflexivity. f_equal. exact IH.
Qed.
Lemma mset_rel : forall k x y a b, fst x = fst y -> (held (fst x) = true -> snd x = snd y) -> Forall2 mrow a b -> Forall2 mrow (mset k x a) (mset k y b).
Proof.
  intros k x y a b H1 H2 H. induction H as [|[u r] [u' r'] a b (E1 & E2 & E3) Hab IH]; cbn [mset].
  - constructor; [|constructor]. repeat split; assumption.
  - cbn in E1. subst u'. destruct (str_eqb k u); [constructor; [repeat split|]; assumption|].
    destruct (str_ltb k u).
    + constructor; [repeat split; assumption|]. constructor; [repeat split; assumption|assumption].
    + constructor; [repeat split; assumption|assumption].
Qed.
Lemma add_rows_rel : forall cnt l l', vrel l l' -> forall a b, Forall2 mrow a b -> Forall2 mrow (add_rows cnt a l) (add_rows cnt b l').
Proof.
  intros cnt l l' H. induction H as [|[n e] [n' e'] l l' [H1 H2] Hl IH]; intros a b Hab; [exact Hab|].
  cbn in H1, H2. subst n'. unfold add_rows. cbn [fold_left fst snd]. apply IH. unfold add_share. apply mset_rel; auto.
Qed.
End Privacy.

(** ** All random tapes *)
Fixpoint vecs (p : Z) (m : nat) : list (list Z) :=
  match m with
  | O => [[]]
  | S m' => flat_map (fun x => map (cons x) (vecs p m')) (map Z.of_nat (seq 0 (Z.to_nat p)))
  end.
Definition tape_of (w : list Z) : tape := fun i => nth i w 0.

Lemma zrange_In : forall p x, In x (map Z.of_nat (seq 0 (Z.to_nat p))) <-> 0 <= x < p.
Proof.
  intros p x. rewrite in_map_iff. split.
  - intros (k & <- & Hk). apply in_seq in Hk. lia.
  - intro H. exists (Z.to_nat x). rewrite in_seq. lia.
Qed.
Lemma vecs_In : forall p m w, In w (vecs p m) <-> length w = m /\ Forall (fun x => 0 <= x < p) w.
Proof.
  intros p m. induction m as [|m IH]; intro w; cbn [vecs].
  - split; [intros [<-|[]]; auto|]. intros [H _]. destruct w; [left; reflexivity|discriminate].
  - rewrite in_flat_map. split.
    + intros (x & Hx & Hw). apply zrange_In in Hx. apply in_map_iff in Hw as (w' & <- & Hw'). apply IH in Hw' as [H1 H2]. cbn. split; [lia|constructor; assumption].
    + intros [H1 H2]. destruct w as [|x w]; [discriminate|]. inversion H2; subst. exists x. split; [apply zrange_In; assumption|].
      apply in_map. apply IH. split; [cbn in H1; lia|assumption].
Qed.
Lemma NoDup_flat_cons : forall (l : list Z) (vs : list (list Z)), NoDup l -> NoDup vs -> NoDup (flat_map (fun x => map (cons x) vs) l).
Proof.
  intros l vs Hl Hv. induction Hl as [|x l Hx Hl IH]; cbn [flat_map]; [constructor|].
  assert (Hm : NoDup (map (cons x) vs)).
  { apply FinFun.Injective_map_NoDup; [|assumption]. intros a b E. injection E; auto. }
  assert (Hd : forall w, In w (map (cons x) vs) -> ~ In w (flat_map (fun x => map (cons x) vs) l)).
  { intros w Hw K. apply in_map_iff in Hw as (w1 & <- & _). apply in_flat_map in K as (y & Hy & K). apply in_map_iff in K as (w2 & E & _).
    injection E as -> _. contradiction. }
  revert Hm Hd. generalize (map (cons x) vs). intro a. induction a as [|w a IHa]; intros Hm Hd; [assumption|].
  inversion Hm; subst. cbn [app]. constructor.
  - intro K. apply in_app_or in K as [K|K]; [contradiction|]. apply (Hd w); [left; reflexivity|assumption].
  - apply IHa; [assumption|]. intros w' Hw'. apply Hd. right. assumption.
Qed.
Lemma vecs_NoDup : forall p m, NoDup (vecs p m).
Proof.
  intros p m. induction m as [|m IH]; cbn [vecs]; [constructor; [intros []|constructor]|].
  apply NoDup_flat_cons; [|assumption]. apply FinFun.Injective_map_NoDup; [|apply seq_NoDup]. intros a b. lia.
Qed.

Fixpoint shift (p : Z) (v : nat -> Z) (i : nat) (w : list Z) : list Z :=
  match w with [] => [] | x :: w' => ((x + v i) mod p) :: shift p v (S i) w' end.
Lemma shift_length : forall p v w i, length (shift p v i w) = length w.
Proof. intros p v w. induction w as [|x w IH]; intro i; cbn; [reflexivity|]. rewrite IH. reflexivity. Qed.
Lemma shift_nth : forall p v w i j, (j < length w)%nat -> nth j (shift p v i w) 0 = (nth j w 0 + v (i + j)%nat) mod p.
Proof.
  intros p v w. induction w as [|x w IH]; intros i j Hj; [cbn in Hj; lia|]. destruct j as [|j]; cbn [shift nth].
  - rewrite Nat.add_0_r. reflexivity.
  - rewrite IH by (cbn in Hj; lia). f_equal. f_equal. f_equal. lia.
Qed.
Lemma shift_inj : forall p v w w' i, 0 < p -> Forall (fun x => 0 <= x < p) w -> Forall (fun x => 0 <= x < p) w' -> shift p v i w = shift p v i w' -> w = w'.
Proof.
  intros p v w. induction w as [|x w IH]; intros [|y w'] i Hp Hw Hw' E; try discriminate; [reflexivity|].
  inversion Hw; inversion Hw'; subst. cbn [shift] in E. injection E as E1 E2. f_equal; [|eapply IH; eauto].
  apply (eqm_small p); try assumption.
  replace x with ((x + v i) - v i) by lia. replace y with ((y + v i) - v i) by lia.
  assert (E : eqm p (x + v i) (y + v i)) by exact E1. rewrite E. reflexivity.
Qed.
Lemma shift_perm : forall p v m, 0 < p -> Permutation (map (shift p v 0) (vecs p m)) (vecs p m).
Proof.
  intros p v m Hp. apply NoDup_Permutation_bis.
  - assert (G : forall l, (forall w, In w l -> Forall (fun x => 0 <= x < p) w) -> NoDup l -> NoDup (map (shift p v 0) l)).
    { induction l as [|w l IH]; intros Hl HN; cbn; [constructor|]. inversion HN; subst. constructor.
      - intro K. apply in_map_iff in K as (w' & E & Hw'). apply shift_inj in E; [subst; contradiction|assumption| |]; apply Hl; [right|left]; auto.
      - apply IH; [|assumption]. intros w' Hw'. apply Hl. right. assumption. }
    apply G; [|apply vecs_NoDup]. intros w Hw. apply vecs_In in Hw. tauto.
  - rewrite map_length. lia.
  - intros w Hw. apply in_map_iff in Hw as (w0 & <- & Hw0). apply vecs_In in Hw0 as [H1 H2]. apply vecs_In. split; [rewrite shift_length; assumption|].
    generalize 0%nat. clear H1. induction w0 as [|x w0 IH]; intro i; cbn; constructor; [apply Z.mod_pos_bound; assumption|]. apply IH. inversion H2; assumption.
Qed.

(** What a holder of the attributes sees. *)
Definition view (p : Z) (held : str -> bool) (q : policy) (s : Z) (w : list Z) : res rowmap :=
  match share_secret false p lsss_new q s (tape_of w) 0 with
  | Ok (o, _) => Ok (visible held (l_rows o))
  | Throw e => Throw e | UB => UB | Exit => Exit | NoFuel => NoFuel
  end.

Lemma privacy_lemma : forall p held q r s s', prime p -> proot q = Some r -> shareable r = true -> fanout_lt p r = true -> sat held r = false ->
  Permutation (map (view p held q s) (vecs p (ndraws r))) (map (view p held q s') (vecs p (ndraws r))).
Proof.
  intros p held q r s s' Hp Hq Ha Hf Hs. pose proof (prime_ge_2 p Hp).
  destruct (srows_hide p Hp held r Ha Hf Hs 0%nat (s' - s)) as (v & Hv).
  rewrite <- (shift_perm p v (ndraws r)) at 2 by lia. rewrite map_map.
  erewrite map_ext_in; [reflexivity|]. intros w Hw. apply vecs_In in Hw as [Hw _].
  unfold view. rewrite !(share_ok p lsss_new q r) by assumption. cbn [l_rows]. f_equal.
  apply visible_rel. apply add_rows_rel; [|constructor]. apply Hv.
  - replace (s + (s' - s)) with s' by lia. reflexivity.
  - intros i Hi. unfold tape_of. rewrite shift_nth by lia. rewrite eqm_mod. reflexivity.
Qed.
