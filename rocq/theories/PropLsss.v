(** C26-C34, C64, C67, C68: linear secret sharing. *)
From Verif Require Import Base StrMap Dec Field FieldProofs PropField Policy Lsss LsssSpec LsssProofs LsssScan LsssShare LsssAlgebra LsssRecover LsssUse LsssPrivacy LsssFinal.
From Coq Require Import ZArith Znumtheory List Ascii Bool Lia Permutation.
Import ListNotations.
Open Scope Z_scope.

(** Example policies. *)
Definition lf (s : string) (i : Z) : node := Leaf [] (L s) i.
Definition pol (r : node) (dup : bool) (cnt : smap Z) : policy :=
  {| proot := Some r; pdup := dup; prevoke := false; pcount := cnt; pset := []; pprefix := []; ptext := [] |}.
(** a and (b or a) *)
Definition ex_tree : node := Gate GateAnd [lf "a" 0; Gate GateOr [lf "b" 0; lf "a" 1]].
Definition ex_pol : policy := pol ex_tree true [(L "a", 2)].
Definition ex_tape : tape := fun i => 3 + 5 * Z.of_nat i.

Lemma isort_perm : forall l, Permutation (isort l) l.
Proof.
  assert (G : forall e l, Permutation (insert_pair e l) (e :: l)).
  { intros e l. induction l as [|x l IH]; cbn; [reflexivity|]. destruct (snd e <=? snd x); [reflexivity|]. rewrite IH. apply perm_swap. }
  induction l as [|e l IH]; cbn; [reflexivity|]. rewrite G, IH. reflexivity.
Qed.
Lemma ex_indexed : well_indexed (repeated ex_pol) ex_tree /\ no_percent ex_tree.
Proof.
  split; [split|].
  - intros a H. cbn in H. intuition (subst; cbn; lia).
  - intros i j a b Hij Ha Hb E. cbn [leaves ex_tree] in Ha, Hb.
    destruct i as [|[|[|i]]], j as [|[|[|j]]]; cbn in Ha, Hb; try congruence;
    try (destruct i; discriminate); try (destruct j; discriminate); injection Ha as <-; injection Hb as <-; vm_compute in E; try discriminate; split; vm_compute; congruence.
  - intros a H. cbn in H. intuition (subst; vm_compute in *; intuition discriminate).
Qed.
Lemma clean_fresh : forall r, clean r fresh.
Proof. intros r q _. split; reflexivity. Qed.

(** C26 *)
Theorem C26_secret_recovered : forall p sort attrs q r s t off st,
  prime p -> (forall l, Permutation (sort l) l) -> proot q = Some r -> and_or r = true -> and_arity 2 r = true ->
  well_indexed (repeated q) r -> no_percent r -> 0 <= s < p -> clean r st -> sat (match_attribute attrs) r = true ->
  exists sh off' co st',
    share_secret false p lsss_new q s t off = Ok (sh, off') /\
    recover_coefficients sort attrs false p lsss_new q st = Ok (true, co, st') /\
    test_secret_recovery p (l_rows co) (l_rows sh) = s /\ dot (l_rows co) (l_rows sh) mod p = s.
Proof. exact secret_recovered_lemma. Qed.
Print Assumptions C26_secret_recovered.
Example C26_nonvacuous :
  prime 13 /\ proot ex_pol = Some ex_tree /\ and_or ex_tree = true /\ and_arity 2 ex_tree = true /\
  well_indexed (repeated ex_pol) ex_tree /\ no_percent ex_tree /\ clean ex_tree fresh /\
  sat (match_attribute [L "b"; L "a"]) ex_tree = true /\
  match share_secret false 13 lsss_new ex_pol 7 ex_tape 0, recover_coefficients isort [L "b"; L "a"] false 13 lsss_new ex_pol fresh with
  | Ok (sh, _), Ok (true, co, _) => length (l_rows sh) = 3%nat /\ length (l_rows co) = 2%nat /\ test_secret_recovery 13 (l_rows co) (l_rows sh) = 7
  | _, _ => False
  end.
Proof.
  split; [exact prime_13|]. split; [reflexivity|]. split; [reflexivity|]. split; [reflexivity|].
  split; [apply ex_indexed|]. split; [apply ex_indexed|]. split; [apply clean_fresh|]. split; [reflexivity|]. vm_compute. auto.
Qed.

(** C27 *)
Theorem C27_recover_iff_satisfied : forall p sort attrs o q r st, (forall l, Permutation (sort l) l) -> proot q = Some r -> and_or r = true -> clean r st ->
  exists co st', recover_coefficients sort attrs false p o q st = Ok (sat (match_attribute attrs) r, co, st') /\
    (sat (match_attribute attrs) r = false -> l_rows co = []).
Proof. exact recover_iff_lemma. Qed.
Print Assumptions C27_recover_iff_satisfied.
Theorem C27_check_iff_satisfied : forall sort attrs q r st (reset : bool), (forall l, Permutation (sort l) l) -> proot q = Some r -> and_or r = true -> clean r st ->
  exists n st', check_if_satisfied sort attrs q reset st = Ok (sat (match_attribute attrs) r, n, st').
Proof. intros sort attrs q r st reset Hs Hq Ha Hc. destruct (check_ok sort Hs attrs q r st reset Hq Ha Hc) as (n & st' & E & _). eauto. Qed.
Print Assumptions C27_check_iff_satisfied.
Theorem C27_monotone : forall p sort attrs attrs' o q r st, (forall l, Permutation (sort l) l) -> proot q = Some r -> and_or r = true -> clean r st ->
  incl attrs attrs' ->
  (exists co st1, recover_coefficients sort attrs false p o q st = Ok (true, co, st1)) ->
  exists co st1, recover_coefficients sort attrs' false p o q st = Ok (true, co, st1).
Proof.
  intros p sort attrs attrs' o q r st Hs Hq Ha Hc Hi (co & st1 & E).
  destruct (recover_iff_lemma p sort attrs o q r st Hs Hq Ha Hc) as (co1 & st2 & E1 & _).
  destruct (recover_iff_lemma p sort attrs' o q r st Hs Hq Ha Hc) as (co2 & st3 & E2 & _).
  rewrite E1 in E. injection E as Hsat _ _. exists co2, st3. rewrite E2. do 3 f_equal. eapply sat_mono; [|exact Hsat].
  intros a H. unfold match_attribute in *. apply existsb_exists in H as (x & Hx & Ex). apply existsb_exists. eauto.
Qed.
Print Assumptions C27_monotone.
Example C27_nonvacuous :
  (exists co st', recover_coefficients isort [L "a"] false 13 lsss_new ex_pol fresh = Ok (true, co, st')) /\
  (exists co st', recover_coefficients isort [L "b"] false 13 lsss_new ex_pol fresh = Ok (false, co, st') /\ l_rows co = []).
Proof. split; [vm_compute; eauto|eexists _, _; split; vm_compute; reflexivity]. Qed.

(** C28 *)
Theorem C28_privacy : forall p held q r s s', prime p -> proot q = Some r -> shareable r = true -> fanout_lt p r = true -> sat held r = false ->
  Permutation (map (view p held q s) (vecs p (ndraws r))) (map (view p held q s') (vecs p (ndraws r))).
Proof. exact privacy_lemma. Qed.
Print Assumptions C28_privacy.
(** The tapes ranged over are exactly the vectors of residues of the length that
    sharing consumes, each once. *)
Theorem C28_tapes : forall p m, NoDup (vecs p m) /\ forall w, In w (vecs p m) <-> length w = m /\ Forall (fun x => 0 <= x < p) w.
Proof. intros p m. split; [apply vecs_NoDup|apply vecs_In]. Qed.
Print Assumptions C28_tapes.
Theorem C28_tape_length : forall p q r s t t', proot q = Some r -> shareable r = true -> (forall i, (i < ndraws r)%nat -> t i mod p = t' i mod p) ->
  0 < p -> exists o, share_secret false p lsss_new q s t 0 = Ok (o, ndraws r) /\ share_secret false p lsss_new q s t' 0 = Ok (o, ndraws r).
Proof.
  intros p q r s t t' Hq Ha Ht Hp. rewrite !(share_ok p lsss_new q r) by assumption. cbn [Nat.add].
  rewrite (srows_ext p (fun _ => true) r t t' s 0%nat); [eauto|]. intros i Hi. symmetry. apply Ht. lia.
Qed.
Print Assumptions C28_tape_length.
(** For a 2-out-of-2 policy with one attribute held, p = 3: the visible rows are
    not constant, yet equally distributed. *)
Definition ex_and : node := Gate GateAnd [lf "a" 0; lf "b" 0].
Example C28_nonvacuous :
  shareable ex_and = true /\ fanout_lt 13 ex_and = true /\ sat (match_attribute [L "a"]) ex_and = false /\
  (exists w1 w2, In w1 (vecs 13 (ndraws ex_and)) /\ In w2 (vecs 13 (ndraws ex_and)) /\
     view 13 (match_attribute [L "a"]) (pol ex_and false []) 5 w1 = Ok [(L "a", (L "a", 7))] /\
     view 13 (match_attribute [L "a"]) (pol ex_and false []) 5 w2 = Ok [(L "a", (L "a", 8))]).
Proof.
  split; [reflexivity|]. split; [reflexivity|]. split; [reflexivity|].
  exists [0; 2], [0; 3]. split; [apply vecs_In; split; [reflexivity|repeat constructor; lia]|].
  split; [apply vecs_In; split; [reflexivity|repeat constructor; lia]|]. split; vm_compute; reflexivity.
Qed.

(** C29 *)
Theorem C29_held_sufficient_minimal : forall p sort attrs q r st, (forall l, Permutation (sort l) l) -> proot q = Some r -> and_or r = true ->
  well_indexed (repeated q) r -> no_percent r -> clean r st -> sat (match_attribute attrs) r = true ->
  exists co st', recover_coefficients sort attrs false p lsss_new q st = Ok (true, co, st') /\
    (forall u lab c, In (u, (lab, c)) (l_rows co) -> match_attribute attrs lab = true) /\
    sat_by (fun x => mmem (unique_label (take_count lsss_new q) x) (l_rows co)) r = true /\
    (forall u, mmem u (l_rows co) = true ->
       sat_by (fun x => mmem (unique_label (take_count lsss_new q) x) (mdel u (l_rows co))) r = false).
Proof. exact minimal_lemma. Qed.
Print Assumptions C29_held_sufficient_minimal.
Example C29_nonvacuous :
  well_indexed (repeated ex_pol) ex_tree /\ no_percent ex_tree /\ sat (match_attribute [L "b"; L "a"]) ex_tree = true /\
  match recover_coefficients isort [L "b"; L "a"] false 13 lsss_new ex_pol fresh with
  | Ok (true, co, _) => mkeys (l_rows co) = [L "a%0"; L "b"]
  | _ => False
  end.
Proof. split; [apply ex_indexed|]. split; [apply ex_indexed|]. split; [reflexivity|]. vm_compute. reflexivity. Qed.

(** C30 *)
Theorem C30_one_row_per_leaf : forall p q r s t off, proot q = Some r -> shareable r = true -> well_indexed (repeated q) r -> no_percent r ->
  exists sh off', share_secret false p lsss_new q s t off = Ok (sh, off') /\
    length (l_rows sh) = length (leaves r) /\
    (forall x, In x (leaves r) -> exists u e, mget u (l_rows sh) = Some (complete_label x, e) /\
        (forall y, In y (leaves r) -> unique_label (take_count lsss_new q) y = u -> y = x)).
Proof. exact one_row_lemma. Qed.
Print Assumptions C30_one_row_per_leaf.
Example C30_nonvacuous :
  well_indexed (repeated ex_pol) ex_tree /\ no_percent ex_tree /\
  match share_secret false 13 lsss_new ex_pol 7 ex_tape 0 with Ok (sh, _) => mkeys (l_rows sh) = [L "a%0"; L "a%1"; L "b"] | _ => False end.
Proof. split; [apply ex_indexed|]. split; [apply ex_indexed|]. vm_compute. reflexivity. Qed.
(** With a percent sign in an attribute name two leaves can collide:
    a and a and a%1 has three leaves but only two rows, and a satisfying list
    does not recover the secret. *)
Definition pct_tree : node := Gate GateAnd [Gate GateAnd [lf "a" 0; lf "a" 1]; lf "a%1" 0].
Theorem C30_percent_refuted : exists q r s t attrs,
  proot q = Some r /\ binary r = true /\ well_indexed (repeated q) r /\ sat (match_attribute attrs) r = true /\
  (exists sh off, share_secret false 13 lsss_new q s t 0 = Ok (sh, off) /\ (length (l_rows sh) < length (leaves r))%nat /\
     exists co st, recover_coefficients isort attrs false 13 lsss_new q fresh = Ok (true, co, st) /\
       test_secret_recovery 13 (l_rows co) (l_rows sh) <> s).
Proof.
  exists (pol pct_tree true [(L "a", 2)]), pct_tree, 7, ex_tape, [L "a"; L "a%1"].
  split; [reflexivity|]. split; [reflexivity|]. split.
  - split.
    + intros a H. cbn in H. intuition (subst; cbn; lia).
    + intros i j a b Hij Ha Hb E. cbn [leaves pct_tree] in Ha, Hb.
      destruct i as [|[|[|i]]], j as [|[|[|j]]]; cbn in Ha, Hb; try congruence;
      try (destruct i; discriminate); try (destruct j; discriminate); injection Ha as <-; injection Hb as <-; vm_compute in E; try discriminate; split; vm_compute; congruence.
  - split; [reflexivity|]. eexists _, _. split; [vm_compute; reflexivity|]. split; [vm_compute; lia|].
    eexists _, _. split; [vm_compute; reflexivity|]. vm_compute. discriminate.
Qed.
Print Assumptions C30_percent_refuted.

(** C31: false for an AND gate with three children. *)
Theorem C31_nary_refuted : exists q r s t attrs sh off co st,
  proot q = Some r /\ and_or r = true /\ distinct_rows (take_count lsss_new q) r /\ sat (match_attribute attrs) r = true /\ 0 <= s < 13 /\
  share_secret false 13 lsss_new q s t 0 = Ok (sh, off) /\
  recover_coefficients isort attrs false 13 lsss_new q fresh = Ok (true, co, st) /\
  test_secret_recovery 13 (l_rows co) (l_rows sh) <> s.
Proof.
  exists (pol (Gate GateAnd [lf "a" 0; lf "b" 0; lf "c" 0]) false []), (Gate GateAnd [lf "a" 0; lf "b" 0; lf "c" 0]), 5, ex_tape, [L "a"; L "b"; L "c"].
  eexists _, _, _, _. split; [reflexivity|]. split; [reflexivity|]. split.
  { unfold distinct_rows. vm_compute. repeat constructor; cbn; intuition discriminate. }
  split; [reflexivity|]. split; [lia|]. split; [vm_compute; reflexivity|]. split; [vm_compute; reflexivity|]. vm_compute. discriminate.
Qed.
Print Assumptions C31_nary_refuted.
(** What holds: OR gates of any arity, AND gates of arity at most two. *)
Theorem C31_nary_partial : forall p sort attrs q r s t off st,
  prime p -> (forall l, Permutation (sort l) l) -> proot q = Some r -> and_or r = true -> and_arity 2 r = true ->
  well_indexed (repeated q) r -> no_percent r -> 0 <= s < p -> clean r st -> sat (match_attribute attrs) r = true ->
  exists sh off' co st',
    share_secret false p lsss_new q s t off = Ok (sh, off') /\
    recover_coefficients sort attrs false p lsss_new q st = Ok (true, co, st') /\
    test_secret_recovery p (l_rows co) (l_rows sh) = s.
Proof.
  intros p sort attrs q r s t off st H1 H2 H3 H4 H5 H6 H7 H8 H9 H10.
  destruct (secret_recovered_lemma p sort attrs q r s t off st H1 H2 H3 H4 H5 H6 H7 H8 H9 H10) as (sh & off' & co & st' & A & B & C & _).
  exists sh, off', co, st'. auto.
Qed.
Print Assumptions C31_nary_partial.

(** C32 *)
Theorem C32_checks_independent : forall sort q r ls st, (forall l, Permutation (sort l) l) -> proot q = Some r -> and_or r = true -> clean r st ->
  exists st', run_checks sort q ls st = Ok (map (fun a => sat (match_attribute a) r) ls, st') /\ clean r st' /\
    (forall x, ~ In x (positions [] r) -> st' x = st x).
Proof. exact run_checks_lemma. Qed.
Print Assumptions C32_checks_independent.
Example C32_nonvacuous :
  match run_checks isort ex_pol [[L "b"]; [L "a"; L "b"]; []; [L "a"]] fresh with
  | Ok (bs, _) => bs = [false; true; false; true] | _ => False end.
Proof. vm_compute. reflexivity. Qed.

(** C33: the marks of an earlier recovery survive; with an empty attribute list
    the next recovery still succeeds. *)
Theorem C33_history_refuted : exists q r attrs attrs' co1 st1 co2 st2,
  proot q = Some r /\ binary r = true /\
  recover_coefficients isort attrs false 13 lsss_new q fresh = Ok (true, co1, st1) /\
  sat (match_attribute attrs') r = false /\
  recover_coefficients isort attrs' false 13 co1 q st1 = Ok (true, co2, st2).
Proof.
  exists (pol ex_and false []), ex_and, [L "a"; L "b"], []. eexists _, _, _, _.
  split; [reflexivity|]. split; [reflexivity|]. split; [vm_compute; reflexivity|]. split; [reflexivity|]. vm_compute. reflexivity.
Qed.
Print Assumptions C33_history_refuted.
(** What holds: resetFlags in between, or only checks with reset in between. *)
Theorem C33_after_reset_partial : forall p sort attrs o q r st, (forall l, Permutation (sort l) l) -> proot q = Some r -> and_or r = true ->
  exists st1, reset_flags r st = Some st1 /\
  exists co st2 co' st2', recover_coefficients sort attrs false p o q st1 = Ok (sat (match_attribute attrs) r, co, st2) /\
    recover_coefficients sort attrs false p o q fresh = Ok (sat (match_attribute attrs) r, co', st2') /\ co = co'.
Proof. exact recover_after_reset_lemma. Qed.
Print Assumptions C33_after_reset_partial.
Theorem C33_after_checks_partial : forall p sort attrs o q r ls, (forall l, Permutation (sort l) l) -> proot q = Some r -> and_or r = true ->
  exists bs st1, run_checks sort q ls fresh = Ok (bs, st1) /\
  exists co st2 co' st2', recover_coefficients sort attrs false p o q st1 = Ok (sat (match_attribute attrs) r, co, st2) /\
    recover_coefficients sort attrs false p o q fresh = Ok (sat (match_attribute attrs) r, co', st2') /\ co = co'.
Proof.
  intros p sort attrs o q r ls Hs Hq Ha. destruct (run_checks_lemma sort q r ls fresh Hs Hq Ha (clean_fresh r)) as (st1 & E & Hc & _).
  eexists _, _. split; [exact E|].
  destruct (recover_ok p sort Hs attrs o q r st1 Hq Ha Hc) as (st2 & E2 & _).
  destruct (recover_ok p sort Hs attrs o q r fresh Hq Ha (clean_fresh r)) as (st3 & E3 & _).
  eexists _, _, _, _. split; [exact E2|]. split; [exact E3|]. reflexivity.
Qed.
Print Assumptions C33_after_checks_partial.
Example C33_nonvacuous : exists st1, reset_flags ex_and (fun _ => {| fmark := true; fsat := 9; fvisited := true |}) = Some st1 /\
  exists co st2, recover_coefficients isort [] false 13 lsss_new (pol ex_and false []) st1 = Ok (false, co, st2).
Proof. eexists. split; [vm_compute; reflexivity|]. vm_compute. eauto. Qed.

(** C34: a and (b or (c and d)) with all attributes: an OR reports the number of
    children of the chosen branch, not the number of leaves. *)
Definition cnt_tree : node :=
  Gate GateOr [Gate GateAnd [Gate GateAnd [lf "a" 0; lf "b" 0]; lf "c" 0]; Gate GateAnd [Gate GateAnd [lf "d" 0; lf "e" 0]; lf "f" 0]].
Theorem C34_count_refuted : exists q r attrs n st1 co st2,
  proot q = Some r /\ binary r = true /\ distinct_rows (take_count lsss_new q) r /\
  check_if_satisfied isort attrs q true fresh = Ok (true, n, st1) /\
  recover_coefficients isort attrs false 13 lsss_new q fresh = Ok (true, co, st2) /\
  n <> Z.of_nat (length (l_rows co)).
Proof.
  exists (pol cnt_tree false []), cnt_tree, [L "a"; L "b"; L "c"]. eexists _, _, _, _.
  split; [reflexivity|]. split; [reflexivity|]. split. { unfold distinct_rows. vm_compute. repeat constructor; cbn; intuition discriminate. }
  split; [vm_compute; reflexivity|]. split; [vm_compute; reflexivity|]. vm_compute. discriminate.
Qed.
Print Assumptions C34_count_refuted.
(** What holds: when every OR gate has only leaves below it. *)
Theorem C34_count_partial : forall p sort attrs q r st (reset : bool), (forall l, Permutation (sort l) l) -> proot q = Some r -> and_or r = true ->
  or_of_leaves r = true -> well_indexed (repeated q) r -> no_percent r -> clean r st -> sat (match_attribute attrs) r = true ->
  exists n st1 co st2, check_if_satisfied sort attrs q reset st = Ok (true, n, st1) /\
    recover_coefficients sort attrs false p lsss_new q st = Ok (true, co, st2) /\ n = Z.of_nat (length (l_rows co)).
Proof. exact count_lemma. Qed.
Print Assumptions C34_count_partial.
Example C34_nonvacuous : or_of_leaves ex_tree = true /\ and_or ex_tree = true /\ well_indexed (repeated ex_pol) ex_tree /\ no_percent ex_tree /\
  match check_if_satisfied isort [L "a"; L "b"] ex_pol true fresh with Ok (b, n, _) => (b, n) = (true, 2) | _ => False end.
Proof. split; [reflexivity|]. split; [reflexivity|]. split; [apply ex_indexed|]. split; [apply ex_indexed|]. vm_compute. reflexivity. Qed.

(** C64: copies lose the numbers of the leaves. *)
Theorem C64_copy_rows_refuted : exists q r junk s t sh sh' off off',
  proot q = Some r /\ binary r = true /\ well_indexed (repeated q) r /\ no_percent r /\
  share_secret false 13 lsss_new q s t 0 = Ok (sh, off) /\
  share_secret false 13 lsss_new (copy_policy junk q) s t 0 = Ok (sh', off') /\
  length (l_rows sh) <> length (l_rows sh').
Proof.
  exists ex_pol, ex_tree, (fun _ => 0), 7, ex_tape. eexists _, _, _, _. split; [reflexivity|]. split; [reflexivity|].
  split; [apply ex_indexed|]. split; [apply ex_indexed|]. split; [vm_compute; reflexivity|]. split; [vm_compute; reflexivity|]. vm_compute. discriminate.
Qed.
Print Assumptions C64_copy_rows_refuted.
Theorem C64_copy_satisfaction_partial : forall held junk q, 
  match proot (copy_policy junk q), proot q with
  | Some r', Some r => sat held r' = sat held r
  | None, None => True
  | _, _ => False
  end.
Proof. intros held junk q. unfold copy_policy. cbn [proot]. destruct (proot q) as [r|]; [|exact I]. apply sat_copy. Qed.
Print Assumptions C64_copy_satisfaction_partial.
Example C64_nonvacuous : exists r, proot (copy_policy (fun _ => 42) ex_pol) = Some r /\ sat (match_attribute [L "a"]) r = true /\ sat (match_attribute [L "b"]) r = false.
Proof. eexists. split; [reflexivity|]. split; reflexivity. Qed.

(** C67: one LSSS object used for two policies: the multiplicities of the first
    leak into the row labels of the second. *)
Theorem C67_reuse_refuted : exists q1 q2 s t sh1 sh2 sh2' off1 off2 off2',
  share_secret false 13 lsss_new q1 s t 0 = Ok (sh1, off1) /\
  share_secret false 13 sh1 q2 s t 0 = Ok (sh2, off2) /\
  share_secret false 13 lsss_new q2 s t 0 = Ok (sh2', off2') /\
  mkeys (l_rows sh2) <> mkeys (l_rows sh2').
Proof.
  exists ex_pol, (pol ex_and false []), 7, ex_tape. eexists _, _, _, _, _, _.
  split; [vm_compute; reflexivity|]. split; [vm_compute; reflexivity|]. split; [vm_compute; reflexivity|]. vm_compute. discriminate.
Qed.
Print Assumptions C67_reuse_refuted.
Theorem C67_reuse_partial : forall p o q s t off, (l_count o = [] \/ pdup q = true) ->
  share_secret false p o q s t off = share_secret false p lsss_new q s t off.
Proof. exact reuse_ok_lemma. Qed.
Print Assumptions C67_reuse_partial.
Example C67_nonvacuous : pdup ex_pol = true /\ exists o off, share_secret false 13 {| l_rows := []; l_count := [(L "x", 2)] |} ex_pol 7 ex_tape 0 = Ok (o, off).
Proof. split; [reflexivity|]. eexists _, _. vm_compute. reflexivity. Qed.

(** C68: with assertions compiled out, sharing any policy with a gate is undefined. *)
Theorem C68_release_build_refuted : forall p o q r s t off, proot q = Some r -> ntype r <> GateLeaf ->
  share_secret true p o q s t off = UB.
Proof.
  intros p o q r s t off Hq Hr. unfold share_secret. rewrite Hq. destruct r as [ty k pr l i ks]. cbn in Hr.
  destruct ty; try congruence; reflexivity.
Qed.
Print Assumptions C68_release_build_refuted.
Theorem C68_debug_build_partial : forall p o q r s t off, proot q = Some r -> and_or r = true ->
  exists sh off', share_secret false p o q s t off = Ok (sh, off').
Proof. intros p o q r s t off Hq Ha. eexists _, _. apply share_ok; [exact Hq|]. apply and_or_shareable. exact Ha. Qed.
Print Assumptions C68_debug_build_partial.
Example C68_nonvacuous : proot ex_pol = Some ex_tree /\ ntype ex_tree <> GateLeaf /\ and_or ex_tree = true.
Proof. repeat split; discriminate. Qed.
