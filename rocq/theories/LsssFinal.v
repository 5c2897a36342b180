(** Lemmas behind PropLsss.v. *)
From Verif Require Import Base StrMap Dec Field FieldProofs Policy Lsss LsssSpec LsssProofs LsssScan LsssShare LsssAlgebra LsssRecover LsssUse LsssPrivacy.
From Coq Require Import ZArith Znumtheory List Ascii Bool Lia ZifyBool ZifyNat Permutation.
Import ListNotations.
Open Scope Z_scope.

Lemma binary_and_or : forall n, binary n = true -> and_or n = true /\ and_arity 2 n = true.
Proof.
  induction n as [ty k pr l i ks IH] using node_ind2. rewrite Forall_forall in IH. intro H.
  assert (Hk : forallb binary ks = true -> forallb and_or ks = true /\ forallb (and_arity 2) ks = true).
  { rewrite !forallb_forall. intro K. split; intros c Hc; apply IH; auto. }
  destruct ty; simpl in *; try discriminate; auto; apply andb_prop in H as [H1 H2]; apply Nat.eqb_eq in H1; rewrite H1;
    destruct (Hk H2) as [K1 K2]; rewrite K1, K2; auto.
Qed.

(** The multiplicities a fresh LSSS object will consult for policy q. *)
Definition repeated (q : policy) (a : str) : bool := pdup q && mmem a (pcount q).

Lemma repeated_take : forall q a, mmem a (take_count lsss_new q) = repeated q a.
Proof. intros q a. unfold take_count, repeated. destruct (pdup q); reflexivity. Qed.
Lemma distinct_new : forall q r, well_indexed (repeated q) r -> no_percent r -> distinct_rows (take_count lsss_new q) r.
Proof.
  intros q r Hw Hp. apply well_indexed_distinct; [|assumption]. destruct Hw as [H1 H2]. split; [assumption|].
  intros i j a b Hij Ha Hb E. rewrite repeated_take. eauto.
Qed.

Lemma secret_recovered_lemma : forall p sort attrs q r s t off st,
  prime p -> (forall l, Permutation (sort l) l) -> proot q = Some r -> and_or r = true -> and_arity 2 r = true ->
  well_indexed (repeated q) r -> no_percent r -> 0 <= s < p -> clean r st -> sat (match_attribute attrs) r = true ->
  exists sh off' co st',
    share_secret false p lsss_new q s t off = Ok (sh, off') /\
    recover_coefficients sort attrs false p lsss_new q st = Ok (true, co, st') /\
    test_secret_recovery p (l_rows co) (l_rows sh) = s /\ dot (l_rows co) (l_rows sh) mod p = s.
Proof.
  intros p sort attrs q r s t off st Hp Hsort Hq Ha H2 Hw Hnp Hs Hc Hsat.
  pose proof (distinct_new q r Hw Hnp) as Hd.
  destruct (recover_ok p sort Hsort attrs lsss_new q r st Hq Ha Hc) as (st' & E & _). rewrite Hsat in E.
  eexists _, _, _, _. split; [apply share_ok; [exact Hq|apply and_or_shareable; exact Ha]|]. split; [exact E|].
  cbn [l_rows]. assert (R : test_secret_recovery p (add_rows (take_count lsss_new q) [] (crows p sort attrs r 1))
      (add_rows (take_count lsss_new q) [] (srows p t r s off)) = s) by (apply recovered_sum; assumption).
  split; [exact R|]. pose proof (prime_ge_2 p Hp). rewrite <- (Z.mod_small s p) at 2 by assumption. rewrite <- R at 2.
  unfold test_secret_recovery. symmetry. 
  pose proof (combine_rows_dot p (add_rows (take_count lsss_new q) [] (crows p sort attrs r 1)) (add_rows (take_count lsss_new q) [] (srows p t r s off)) 0) as D.
  unfold eqm in D. rewrite Z.add_0_l in D. exact D.
Qed.

Lemma recover_iff_lemma : forall p sort attrs o q r st, (forall l, Permutation (sort l) l) -> proot q = Some r -> and_or r = true -> clean r st ->
  exists co st', recover_coefficients sort attrs false p o q st = Ok (sat (match_attribute attrs) r, co, st') /\
    (sat (match_attribute attrs) r = false -> l_rows co = []).
Proof.
  intros p sort attrs o q r st Hsort Hq Ha Hc. destruct (recover_ok p sort Hsort attrs o q r st Hq Ha Hc) as (st' & E & _).
  eexists _, _. split; [exact E|]. cbn [l_rows]. intros ->. reflexivity.
Qed.

Lemma sat_mono : forall h h' n, (forall a, h a = true -> h' a = true) -> sat h n = true -> sat h' n = true.
Proof.
  intros h h' n Hh. induction n as [ty k pr l i ks IH] using node_ind2. rewrite Forall_forall in IH. destruct ty; simpl; auto.
  - rewrite !forallb_forall. auto.
  - rewrite !existsb_exists. intros (c & Hc & K). eauto.
  - intro H. assert (length (filter (sat h) ks) <= length (filter (sat h') ks))%nat; [|lia].
    clear H. induction ks as [|c ks IHk]; [cbn; lia|]. cbn [filter].
    assert (length (filter (sat h) ks) <= length (filter (sat h') ks))%nat by (apply IHk; intros; apply IH; [right|]; assumption).
    destruct (sat h c) eqn:E; [rewrite (IH c) by (try (left; reflexivity); assumption); cbn; lia|]. destruct (sat h' c); cbn; lia.
Qed.

Definition in_rows (co : rowmap) (u : str) : bool := mmem u co.

Lemma used_rows : forall p sort attrs cnt r u, distinct_rows cnt r ->
  mmem u (add_rows cnt [] (crows p sort attrs r 1)) = true <-> exists x, In x (used p sort attrs r) /\ unique_label cnt x = u.
Proof.
  intros p sort attrs cnt r u Hd. pose proof (crows_distinct p sort attrs cnt r 1 Hd) as HN. unfold mmem, used. split.
  - destruct (mget u _) as [v|] eqn:E; [|discriminate]. intros _. apply mget_In, add_rows_In in E. destruct E as [E|[]].
    apply in_map_iff in E as (e & Ee & He). exists (fst e). split; [apply in_map; assumption|]. unfold entry in Ee. injection Ee; auto.
  - intros (x & Hx & <-). apply in_map_iff in Hx as ([y c] & <- & He). cbn [fst]. rewrite (add_rows_get cnt _ [] y c HN He). reflexivity.
Qed.

Lemma distinct_NoDup_leaves : forall cnt r, distinct_rows cnt r -> NoDup (leaves r).
Proof. intros cnt r H. unfold distinct_rows in H. eapply NoDup_map_inv. exact H. Qed.
Lemma distinct_inj : forall cnt r x y, distinct_rows cnt r -> In x (leaves r) -> In y (leaves r) -> unique_label cnt x = unique_label cnt y -> x = y.
Proof.
  intros cnt r x y H. unfold distinct_rows in H. induction (leaves r) as [|z l IH]; [intros []|]. cbn [map] in H. inversion H; subst.
  intros [->|Hx] [->|Hy] E; auto.
  - exfalso. apply H2. rewrite E. apply in_map. assumption.
  - exfalso. apply H2. rewrite <- E. apply in_map. assumption.
Qed.

Lemma minimal_lemma : forall p sort attrs q r st, (forall l, Permutation (sort l) l) -> proot q = Some r -> and_or r = true ->
  well_indexed (repeated q) r -> no_percent r -> clean r st -> sat (match_attribute attrs) r = true ->
  exists co st', recover_coefficients sort attrs false p lsss_new q st = Ok (true, co, st') /\
    (forall u lab c, In (u, (lab, c)) (l_rows co) -> match_attribute attrs lab = true) /\
    sat_by (fun x => mmem (unique_label (take_count lsss_new q) x) (l_rows co)) r = true /\
    (forall u, mmem u (l_rows co) = true ->
       sat_by (fun x => mmem (unique_label (take_count lsss_new q) x) (mdel u (l_rows co))) r = false).
Proof.
  intros p sort attrs q r st Hsort Hq Ha Hw Hnp Hc Hsat. pose proof (distinct_new q r Hw Hnp) as Hd.
  destruct (recover_ok p sort Hsort attrs lsss_new q r st Hq Ha Hc) as (st' & E & _). rewrite Hsat in E.
  eexists _, _. split; [exact E|]. cbn [l_rows]. set (cnt := take_count lsss_new q) in *. set (co := add_rows cnt [] (crows p sort attrs r 1)).
  repeat split.
  - intros u lab c Hin. apply add_rows_In in Hin. destruct Hin as [Hin|[]]. apply in_map_iff in Hin as (e & Ee & He).
    unfold entry in Ee. injection Ee as _ <- _. eapply (used_held p sort Hsort attrs r); [assumption|assumption|]. apply in_map. exact He.
  - apply (used_sat p sort Hsort attrs); [assumption|assumption|]. intros x Hx. apply used_rows; [assumption|]. eauto.
  - intros u Hu. apply used_rows in Hu; [|assumption]. destruct Hu as (y & Hy & <-).
    apply (used_minimal p sort Hsort attrs _ r y); try assumption.
    + eapply distinct_NoDup_leaves; eauto.
    + unfold mmem. rewrite mget_mdel_same. reflexivity.
    + intros x Hx Hnu. unfold mmem. destruct (mget _ _) as [v|] eqn:Ev; [|reflexivity]. exfalso. apply Hnu.
      assert (Hne : unique_label cnt x <> unique_label cnt y) by (intro K; rewrite K, mget_mdel_same in Ev; discriminate).
      rewrite mget_mdel_other in Ev by assumption.
      assert (Hm : mmem (unique_label cnt x) co = true) by (unfold mmem; rewrite Ev; reflexivity).
      apply used_rows in Hm; [|assumption]. destruct Hm as (z & Hz & Ez).
      assert (z = x) by (eapply (distinct_inj cnt r); eauto; eapply used_leaves; eauto). subst z. exact Hz.
Qed.

Lemma one_row_lemma : forall p q r s t off, proot q = Some r -> shareable r = true -> well_indexed (repeated q) r -> no_percent r ->
  exists sh off', share_secret false p lsss_new q s t off = Ok (sh, off') /\
    length (l_rows sh) = length (leaves r) /\
    (forall x, In x (leaves r) -> exists u e, mget u (l_rows sh) = Some (complete_label x, e) /\
        (forall y, In y (leaves r) -> unique_label (take_count lsss_new q) y = u -> y = x)).
Proof.
  intros p q r s t off Hq Ha Hw Hnp. pose proof (distinct_new q r Hw Hnp) as Hd.
  eexists _, _. split; [apply share_ok; eassumption|]. cbn [l_rows].
  pose proof (srows_distinct p (take_count lsss_new q) t r s off Hd) as HN. split.
  - rewrite (Permutation_length (add_rows_perm _ _ HN)), map_length, <- (map_length fst), srows_fst, rev_length. reflexivity.
  - intros x Hx. apply in_rev in Hx. rewrite <- (srows_fst p t r s off) in Hx. apply in_map_iff in Hx as ([y e] & Ey & He). cbn in Ey. subst y.
    exists (unique_label (take_count lsss_new q) x), e. split; [apply add_rows_get; assumption|].
    intros y Hy E. eapply (distinct_inj (take_count lsss_new q) r); eauto.
    apply in_rev. rewrite <- (srows_fst p t r s off). apply (in_map fst) in He. exact He.
Qed.

(** ** Sequences of checks *)
Fixpoint run_checks (sort : list (nat * Z) -> list (nat * Z)) (q : policy) (ls : list (list str)) (st : fstate) : res (list bool * fstate) :=
  match ls with
  | [] => Ok ([], st)
  | a :: ls' =>
      match check_if_satisfied sort a q true st with
      | Ok (b, _, st1) =>
          match run_checks sort q ls' st1 with
          | Ok (bs, st2) => Ok (b :: bs, st2)
          | Throw e => Throw e | UB => UB | Exit => Exit | NoFuel => NoFuel
          end
      | Throw e => Throw e | UB => UB | Exit => Exit | NoFuel => NoFuel
      end
  end.
Lemma run_checks_lemma : forall sort q r ls st, (forall l, Permutation (sort l) l) -> proot q = Some r -> and_or r = true -> clean r st ->
  exists st', run_checks sort q ls st = Ok (map (fun a => sat (match_attribute a) r) ls, st') /\ clean r st' /\
    (forall x, ~ In x (positions [] r) -> st' x = st x).
Proof.
  intros sort q r ls. induction ls as [|a ls IH]; intros st Hsort Hq Ha Hc; cbn [run_checks map]; [eauto|].
  destruct (check_ok sort Hsort a q r st true Hq Ha Hc) as (n & st1 & -> & H1). specialize (H1 eq_refl).
  destruct (IH st1 Hsort Hq Ha) as (st2 & -> & Hc2 & Hf2).
  { intros x Hx. rewrite (proj1 (H1 x) Hx). split; reflexivity. }
  eexists. split; [reflexivity|]. split; [exact Hc2|]. intros x Hx. rewrite Hf2 by assumption. apply H1. assumption.
Qed.

Lemma recover_after_reset_lemma : forall p sort attrs o q r st, (forall l, Permutation (sort l) l) -> proot q = Some r -> and_or r = true ->
  exists st1, reset_flags r st = Some st1 /\
  exists co st2 co' st2', recover_coefficients sort attrs false p o q st1 = Ok (sat (match_attribute attrs) r, co, st2) /\
    recover_coefficients sort attrs false p o q fresh = Ok (sat (match_attribute attrs) r, co', st2') /\ co = co'.
Proof.
  intros p sort attrs o q r st Hsort Hq Ha. destruct (reset_flags_spec r st) as (st1 & E & H1). exists st1. split; [exact E|].
  assert (Hc : clean r st1). { intros x Hx. rewrite (proj1 (H1 x) Hx). split; reflexivity. }
  destruct (recover_ok p sort Hsort attrs o q r st1 Hq Ha Hc) as (st2 & E2 & _).
  destruct (recover_ok p sort Hsort attrs o q r fresh Hq Ha) as (st3 & E3 & _). { intros x Hx. split; reflexivity. }
  eexists _, _, _, _. split; [exact E2|]. split; [exact E3|]. reflexivity.
Qed.

Lemma count_lemma : forall p sort attrs q r st (reset : bool), (forall l, Permutation (sort l) l) -> proot q = Some r -> and_or r = true ->
  or_of_leaves r = true -> well_indexed (repeated q) r -> no_percent r -> clean r st -> sat (match_attribute attrs) r = true ->
  exists n st1 co st2, check_if_satisfied sort attrs q reset st = Ok (true, n, st1) /\
    recover_coefficients sort attrs false p lsss_new q st = Ok (true, co, st2) /\ n = Z.of_nat (length (l_rows co)).
Proof.
  intros p sort attrs q r st reset Hsort Hq Ha Ho Hw Hnp Hc Hsat. pose proof (distinct_new q r Hw Hnp) as Hd.
  destruct (check_count sort Hsort attrs q r st reset Hq Ha Hc) as (st1 & E1).
  destruct (recover_ok p sort Hsort attrs lsss_new q r st Hq Ha Hc) as (st2 & E2 & _). rewrite Hsat in E1, E2.
  eexists _, _, _, _. split; [exact E1|]. split; [exact E2|]. cbn [l_rows].
  rewrite (Permutation_length (add_rows_perm _ _ (crows_distinct p sort attrs _ r 1 Hd))), map_length.
  rewrite <- (used_length p sort Hsort attrs r) by assumption. unfold used. rewrite map_length. reflexivity.
Qed.

(** ** Copies *)
Lemma sat_copy : forall held junk n q, sat held (copy_node junk q n) = sat held n.
Proof.
  intros held junk. induction n as [ty k pr l i ks IH] using node_ind2. intro q.
  assert (E : forall j, (fix go (j : nat) (l : list node) : list node :=
               match l with [] => [] | c :: l' => copy_node junk (j :: q) c :: go (S j) l' end) j ks =
             map (fun x => copy_node junk (fst x :: q) (snd x)) (combine (seq j (length ks)) ks)).
  { clear. induction ks as [|c ks IH]; intro j; cbn; [reflexivity|]. rewrite IH. reflexivity. }
  destruct ty; cbn [copy_node]; try rewrite E; try reflexivity.
  - cbn [sat]. clear E. generalize 0%nat. induction IH as [|c ks Hc Hks IHk]; intro j; cbn; [reflexivity|]. rewrite Hc, IHk. reflexivity.
  - cbn [sat]. clear E. generalize 0%nat. induction IH as [|c ks Hc Hks IHk]; intro j; cbn; [reflexivity|]. rewrite Hc, IHk. reflexivity.
  - cbn [sat]. f_equal. f_equal. clear E. generalize 0%nat. induction IH as [|c ks Hc Hks IHk]; intro j; cbn; [reflexivity|]. rewrite Hc.
    destruct (sat held c); cbn; rewrite IHk; reflexivity.
Qed.

Lemma reuse_ok_lemma : forall p o q s t off, (l_count o = [] \/ pdup q = true) ->
  share_secret false p o q s t off = share_secret false p lsss_new q s t off.
Proof.
  intros p o q s t off H. unfold share_secret, take_count. destruct (pdup q); [reflexivity|]. destruct H as [->|H]; [reflexivity|discriminate].
Qed.
