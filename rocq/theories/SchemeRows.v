(** What the encryption schemes use of secret sharing: the rows found for
    decryption are rows of the sharing, and weigh up to the secret. *)
From Verif Require Import Base StrMap Dec Field FieldProofs Policy Lsss LsssSpec LsssProofs LsssScan LsssShare LsssAlgebra LsssRecover LsssUse LsssFinal.
From Coq Require Import ZArith Znumtheory List Ascii Bool Lia Permutation.
Import ListNotations.
Open Scope Z_scope.

(** The sum over the rows found. *)
Fixpoint weighed (co sh : rowmap) : Z :=
  match co with [] => 0 | (u, (_, c)) :: rest => c * coef_of sh u + weighed rest sh end.
Lemma dot_cons : forall u l c (co sh : rowmap), NoDup (mkeys sh) -> mget u co = None -> dot ((u, (l, c)) :: co) sh = c * coef_of sh u + dot co sh.
Proof.
  intros u l c co sh HN Hu. induction sh as [|[v [l' e]] sh IH]; [unfold dot, coef_of; cbn; lia|].
  cbn [mkeys map fst] in HN. inversion HN as [|? ? N1 N2]; subst. cbn [dot fold_right fst snd]. fold (dot ((u, (l, c)) :: co) sh). fold (dot co sh). rewrite IH by exact N2.
  unfold coef_of. cbn [mget]. destruct (str_eqb v u) eqn:Ev.
  - apply str_eqb_eq in Ev. subst v. rewrite str_eqb_refl, Hu.
    destruct (mget u sh) as [[? ?]|] eqn:Eg; [|lia]. exfalso. apply N1. apply mget_In in Eg. apply (in_map fst) in Eg. exact Eg.
  - destruct (str_eqb u v) eqn:Ev'; [apply str_eqb_eq in Ev'; subst; rewrite str_eqb_refl in Ev; discriminate|]. lia.
Qed.
Lemma weighed_dot : forall (co sh : rowmap), NoDup (mkeys co) -> NoDup (mkeys sh) -> weighed co sh = dot co sh.
Proof.
  induction co as [|[u [l c]] co IH]; intros sh Hc Hs.
  - cbn [weighed]. induction sh as [|[v [l' e]] sh IHs]; [reflexivity|]. cbn [mkeys map fst] in Hs. inversion Hs; subst. cbn [dot fold_right fst snd]. fold (dot [] sh). rewrite <- IHs by assumption. reflexivity.
  - cbn [mkeys map fst] in Hc. inversion Hc as [|? ? N1 N2]; subst. cbn [weighed]. assert (mget u co = None) as Hu.
    { destruct (mget u co) eqn:Eg; [|reflexivity]. exfalso. apply N1. apply mget_In in Eg. apply (in_map fst) in Eg. exact Eg. }
    rewrite dot_cons by assumption.
    rewrite IH by assumption. reflexivity.
Qed.

Lemma clean_fresh : forall r, clean r fresh.
Proof. intros r q _. split; reflexivity. Qed.

(** Names of the rows of a policy, as they appear in keys and ciphertexts. *)
Definition row_names (q : policy) : list str := match proot q with Some r => map (unique_label (take_count lsss_new q)) (leaves r) | None => [] end.

Lemma rows_lemma : forall p sort attrs q r s t off, prime p -> (forall l, Permutation (sort l) l) -> proot q = Some r -> binary r = true ->
  well_indexed (repeated q) r -> no_percent r -> 0 <= s < p ->
  exists sh off', share_secret false p lsss_new q s t off = Ok (sh, off') /\ NoDup (mkeys (l_rows sh)) /\
    (forall u, In u (mkeys (l_rows sh)) <-> In u (row_names q)) /\
    (sat (match_attribute attrs) r = true -> exists co st', recover_coefficients sort attrs false p lsss_new q fresh = Ok (true, co, st') /\
       weighed (l_rows co) (l_rows sh) mod p = s /\ l_rows co <> [] /\
       forall u lab c, In (u, (lab, c)) (l_rows co) -> In lab attrs /\ exists e, mget u (l_rows sh) = Some (lab, e) /\ coef_of (l_rows sh) u = e) /\
    (sat (match_attribute attrs) r = false -> exists co st', recover_coefficients sort attrs false p lsss_new q fresh = Ok (false, co, st')).
Proof.
  intros p sort attrs q r s t off Hp Hsort Hq Hb Hw Hnp Hs. destruct (binary_and_or r Hb) as [Ha H2]. pose proof (distinct_new q r Hw Hnp) as Hd.
  set (cnt := take_count lsss_new q) in *.
  pose proof (share_ok p lsss_new q r s t off Hq (and_or_shareable r Ha)) as Esh. fold cnt in Esh.
  pose proof (srows_distinct p cnt t r s off Hd) as Ns.
  eexists _, _. split; [exact Esh|]. cbn [l_rows].
  set (sh := add_rows cnt [] (srows p t r s off)) in *. assert (NoDup (mkeys sh)) as Nsh by (apply msorted_NoDup, add_rows_sorted, msorted_nil). split; [exact Nsh|]. split.
  { intro u. unfold row_names. rewrite Hq. fold cnt. pose proof (Permutation_map fst (add_rows_perm cnt (srows p t r s off) Ns)) as P. fold sh in P. rewrite map_map in P. change (map (fun x => fst (entry cnt x)) (srows p t r s off)) with (map (fun e => unique_label cnt (fst e)) (srows p t r s off)) in P. rewrite srows_labels in P.
    split; intro I; [apply in_rev; apply (Permutation_in _ P); exact I|apply (Permutation_in _ (Permutation_sym P)); apply in_rev in I; exact I]. }
  split.
  - intro Hsat. destruct (secret_recovered_lemma p sort attrs q r s t off fresh Hp Hsort Hq Ha H2 Hw Hnp Hs (clean_fresh r) Hsat) as (sh' & off'' & co & st' & E1 & E2 & _ & E3).
    rewrite Esh in E1. injection E1 as <- _. cbn [l_rows] in E3. fold sh in E3.
    destruct (minimal_lemma p sort attrs q r fresh Hsort Hq Ha Hw Hnp (clean_fresh r) Hsat) as (co2 & st2 & E4 & Hh & Hby & _). rewrite E2 in E4. injection E4 as <- <-.
    destruct (recover_ok p sort Hsort attrs lsss_new q r fresh Hq Ha (clean_fresh r)) as (st3 & E5 & _). rewrite E2, Hsat in E5. injection E5 as Eco _. fold cnt in Eco.
    assert (l_rows co = add_rows cnt [] (crows p sort attrs r 1)) as Er by (rewrite Eco; reflexivity).
    exists co, st'. split; [exact E2|]. split; [|split].
    + rewrite weighed_dot; auto. rewrite Er. apply msorted_NoDup, add_rows_sorted, msorted_nil.
    + intro Z. assert (forall x, In x (leaves r) -> mmem (unique_label (take_count lsss_new q) x) (l_rows co) = false) as F by (intros; rewrite Z; reflexivity).
      clear - Z Hsat Ha Hby. assert (forall n, and_or n = true -> sat_by (fun x => mmem (unique_label (take_count lsss_new q) x) (l_rows co)) n = false) as G; [|rewrite G in Hby by exact Ha; discriminate].
      rewrite Z. clear. induction n as [ty k pr l i ks IH] using node_ind2. rewrite Forall_forall in IH. intro H. destruct ty; cbn [and_or sat_by] in *; try discriminate; try reflexivity.
      * apply andb_prop in H as [H1 H2]. rewrite forallb_forall in H2. destruct ks as [|c ks]; [discriminate|]. cbn [forallb]. rewrite IH; [reflexivity|left; reflexivity|apply H2; left; reflexivity].
      * apply andb_prop in H as [H1 H2]. rewrite forallb_forall in H2. match goal with |- existsb ?f ks = false => destruct (existsb f ks) eqn:Eb end; [|reflexivity]. apply existsb_exists in Eb as (c & Ic & Ec). rewrite IH in Ec; auto.
    + intros u lab c Hin. pose proof (Hh u lab c Hin) as Hm. split.
      { unfold match_attribute in Hm. apply existsb_exists in Hm as (x & Ix & Ex). apply str_eqb_eq in Ex. rewrite Ex. exact Ix. }
      rewrite Er in Hin. apply add_rows_In in Hin. destruct Hin as [Hin|[]]. apply in_map_iff in Hin as ([x c'] & Ee & He). unfold entry in Ee. cbn [fst snd] in Ee. injection Ee as <- <- <-.
      rewrite <- (rrows_crows p sort attrs t r 1 s off) in He. apply in_map_iff in He as ([y [c2 e]] & Ey & Iy). cbn [fst snd] in Ey. injection Ey as -> _.
      assert (In (x, e) (srows p t r s off)) as Is by (eapply sublist_In; [apply (rrows_srows p sort attrs t r 1 s off)|]; apply in_map_iff; exists (x, (c2, e)); auto).
      exists e. assert (mget (unique_label cnt x) sh = Some (complete_label x, e)) as Eg by (apply add_rows_get; assumption). split; [exact Eg|]. unfold coef_of. rewrite Eg. reflexivity.
  - intro Hsat. destruct (recover_iff_lemma p sort attrs lsss_new q r fresh Hsort Hq Ha (clean_fresh r)) as (co & st' & E & _). rewrite Hsat in E. eauto.
Qed.
