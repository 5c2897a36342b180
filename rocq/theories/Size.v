(** How large policies and attribute lists become: counting leaves and attributes. *)
From Verif Require Import Base ByteString StrMap Dec UInteger Policy LsssSpec Scanner Grammar PolicySyntax Lexical PolicyMeaning AttrMeaning Driver Parser ParserSound ParserRun ParserTop ScannerProofs NumProofs NumTree PolicyTruth CreatePolicy CreateAttrs.
From Coq Require Import ZArith List Ascii Bool Lia ZifyBool ZifyNat.
Import ListNotations.
Open Scope Z_scope.

(** ** What a sentence may cost (specification) *)
Fixpoint cost (e : pexp) : Z :=
  match e with
  | EAttr _ => 1
  | ECmp _ _ n => num_width n
  | ERange _ _ lo hi => num_width lo + num_width hi
  | EDate _ _ _ _ _ => 32
  | EDateRange _ _ _ _ _ => 64
  | EAnd a b | EOr a b => cost a + cost b
  | EPar a => cost a
  end.
Definition item_cost (i : item) : Z := match i with IName _ => 1 | INum _ n => recorded (num_width n) | IDate _ _ _ _ => 32 end.
Definition leaf_count (n : node) : Z := Z.of_nat (length (leaves n)).
Fixpoint gate_count (n : node) : Z :=
  match n with
  | Node GateLeaf _ _ _ _ _ => 0
  | Node _ _ _ _ _ ks => 1 + fold_right (fun k a => gate_count k + a) 0 ks
  end.

Lemma two_leaves : forall g t p l i a b, g <> GateLeaf -> leaf_count (Node g t p l i [a; b]) = leaf_count a + leaf_count b.
Proof. intros g t p l i a b H. unfold leaf_count. destruct g; try congruence; cbn [leaves flat_map]; rewrite app_nil_r, app_length; lia. Qed.
Lemma kof2_leaves : forall k a b, leaf_count (kof2_tree k a b) = leaf_count a + leaf_count b.
Proof. intros k a b. unfold kof2_tree. destruct (k =? 1); [|destruct (k =? 2)]; apply two_leaves; discriminate. Qed.
Lemma leaf_one : forall d c n d', leaf_node d c = Ok (n, d') -> leaf_count n = 1.
Proof. intros d c n d' H. destruct (built_leaf _ _ _ _ H) as (_ & _ & _ & E). unfold leaf_count. rewrite E. reflexivity. Qed.

Lemma levels_count : forall k flex gt attr bits value i p d n d', marker_levels k flex gt attr bits value i p d = Ok (n, d') -> leaf_count n = Z.of_nat k + leaf_count p.
Proof.
  induction k as [|k IH]; intros flex gt attr bits value i p d n d' H; cbn [marker_levels] in H; [injection H as <- _; lia|].
  destruct (leaf_node d (bit_marker flex attr i gt bits)) as [[l d1]|e| | |] eqn:El; try discriminate H. cbn [bind] in H.
  apply IH in H. rewrite H, kof2_leaves, (leaf_one _ _ _ _ El). lia.
Qed.
Lemma eq_count : forall k flex attr b value p d n d', eq_levels k flex attr b value p d = Ok (n, d') -> leaf_count n = Z.of_nat k + leaf_count p.
Proof.
  induction k as [|k IH]; intros flex attr b value p d n d' H; cbn [eq_levels] in H; [injection H as <- _; lia|].
  match type of H with bind (leaf_node ?dd ?c) _ = _ => destruct (leaf_node dd c) as [[l d1]|e| | |] eqn:El; try discriminate H end. cbn [bind] in H.
  apply IH in H. rewrite H, kof2_leaves, (leaf_one _ _ _ _ El). lia.
Qed.
Lemma first_bit_from : forall f gt v i j, first_bit f gt v i = Ok j -> i <= j.
Proof.
  induction f as [|f IH]; intros gt v i j H; cbn [first_bit] in H; [discriminate|]. destruct (Bool.eqb (Z.testbit v i) gt); [apply IH in H; lia|injection H as <-; lia].
Qed.
Lemma list_count : forall d flex gt attr bits value n d', 1 <= bits -> bit_marker_list d flex gt attr bits value = Ok (n, d') -> 1 <= leaf_count n <= bits.
Proof.
  intros d flex gt attr bits value n d' Hb H. unfold bit_marker_list in H. destruct (first_bit 32 gt value 0) as [i|e| | |] eqn:Ei; try discriminate H. cbn [bind] in H. apply first_bit_from in Ei.
  destruct (leaf_node d (bit_marker flex attr i gt bits)) as [[l d1]|e| | |] eqn:El; try discriminate H. cbn [bind] in H. apply levels_count in H. rewrite (leaf_one _ _ _ _ El) in H. lia.
Qed.
Lemma num_count : forall op d c v b n d', 1 <= b -> num_policy op d c {| uval := v; ubits := b |} = Ok (n, d') -> 1 <= leaf_count n <= b.
Proof.
  intros op d c v b n d' Hb H. destruct op; cbn [num_policy] in H; unfold lt_policy, gt_policy, le_policy, ge_policy, cmp_policy, uint_add, uint_sub in H; cbn [uval ubits] in H;
    [replace (b =? 0) with false in H by lia; apply list_count in H; lia ..|].
  unfold eq_policy in H. cbn [uval ubits] in H. replace (b =? 0) with false in H by lia.
  match type of H with bind (leaf_node ?dd ?c) _ = _ => destruct (leaf_node dd c) as [[l d1]|e| | |] eqn:El; try discriminate H end. cbn [bind] in H.
  apply eq_count in H. rewrite (leaf_one _ _ _ _ El) in H. lia.
Qed.
Lemma width_pos : forall n, num_ok n = true -> 4 <= num_width n <= 32.
Proof. intros [v w] H. unfold num_ok, width_ok in H. cbn [num_width]. lia. Qed.

Section Policies.
Variable mktime : tm -> Z * tm.
Notation act := (action mktime).
Notation ev := (ev VTok act).
Lemma tree_count : forall m v d', tree_of m = Ok (Some (v, d')) -> exists n, m = Ok (n, d') /\ v = VTree n.
Proof. exact tree_of_inv. Qed.
(** The tree of a sentence has at most [cost] leaves. *)
Lemma ev_size : forall e d n d', Forall tok_good (ptoks e) -> nums_ok e = true -> ev (ptree e) d = Ok (EV (VTree n) d') -> 1 <= leaf_count n <= cost e.
Proof.
  induction e as [s|r s k|incl s lo hi|r s m dd y|s m lo hi y|a IHa b IHb|a IHa b IHb|a IHa]; intros d n d' G Nm H; cbn [ptoks] in G; cbn [nums_ok] in Nm; cbn [cost].
  - cbn [ptree Grammar.ev leaf_tok bind action] in H. destruct (leaf_node d s) as [[l d1]|e| | |] eqn:El; cbn in H; try discriminate H. injection H as <- _. rewrite (leaf_one _ _ _ _ El). lia.
  - destruct (leaf_name _ _ G) as [_ G1]. inversion G1 as [|? ? _ G2]; subst. pose proof (ntoks_range k G2) as R. pose proof (width_pos k Nm).
    cbn [ptree] in H. rewrite (ev_PN VTok act (rel_rule r)) in H. cbn [Grammar.evs Grammar.ev leaf_tok bind] in H. destruct (rel_tok r) as [tc tv]. cbn [bind] in H. rewrite ev_num in H by auto. rewrite Nm in H. cbn [bind] in H.
    rewrite rel_action in H. destruct (num_policy (rel_op r) d s (num_uint k)) as [[t d1]|e| | |] eqn:E; cbn [tree_of bind] in H; try discriminate H. injection H as <- _. apply num_count in E; lia.
  - destruct (leaf_name _ _ G) as [_ G1]. inversion G1 as [|? ? _ G2]; subst. inversion G2 as [|? ? _ G3]; subst.
    apply Forall_app in G3 as [G3 G4]. inversion G4 as [|? ? _ G5]; subst. apply Forall_app in G5 as [G5 _].
    pose proof (ntoks_range lo G3) as Rl. pose proof (ntoks_range hi G5) as Rh. apply andb_prop in Nm as [Nl Nh]. pose proof (width_pos lo Nl). pose proof (width_pos hi Nh).
    cbn [ptree] in H. rewrite (ev_PN VTok act (if incl then 16 else 15)) in H. cbn [Grammar.evs Grammar.ev leaf_tok tk bind open_tok close_tok] in H. rewrite ev_num in H by auto. rewrite Nl in H. cbn [bind] in H. rewrite ev_num in H by auto. rewrite Nh in H. cbn [bind] in H.
    assert (exists t1 d1 t2 d2 op1 op2, num_policy op1 d s (num_uint lo) = Ok (t1, d1) /\ num_policy op2 d1 s (num_uint hi) = Ok (t2, d2) /\ n = Gate GateAnd [t1; t2]) as (t1 & d1 & t2 & d2 & op1 & op2 & E1 & E2 & ->).
    { destruct incl; cbn [action] in H; unfold range_incl_policy, range_policy in H;
        match type of H with context [bind (?f d s (num_uint lo)) _] => destruct (f d s (num_uint lo)) as [[t1 d1]|e| | |] eqn:E1; simpl in H; try discriminate H; [] end;
        match type of H with context [bind (?f ?x s (num_uint hi)) _] => destruct (f x s (num_uint hi)) as [[t2 d2]|e| | |] eqn:E2; simpl in H; try discriminate H; [] end;
        injection H as <- _; exists t1, d1, t2, d2; [exists OpGe, OpLe|exists OpGt, OpLt]; auto. }
    unfold Gate. rewrite two_leaves by discriminate. apply num_count in E1; [|lia]. apply num_count in E2; lia.
  - destruct (leaf_name _ _ G) as [_ G1]. inversion G1 as [|? ? _ G2]; subst. destruct (leaf_name _ _ G2) as [_ G3]. apply Forall_app in G3 as [G3 G4]. inversion G4 as [|? ? _ G5]; subst.
    pose proof (ntoks_range dd G3) as Rd. pose proof (ntoks_range y G5) as Ry. apply andb_prop in Nm as [Nd Ny].
    cbn [ptree] in H. rewrite (ev_PN VTok act (date_rule r)) in H. cbn [Grammar.evs Grammar.ev leaf_tok tk bind] in H. destruct (date_rel_tok r) as [tc tv]. cbn [bind] in H. rewrite ev_num in H by auto. rewrite Nd in H. cbn [bind] in H.
    rewrite ev_num in H by auto. rewrite Ny in H. cbn [bind] in H. rewrite date_action in H. unfold date_policy in H.
    match type of H with context [tree_of ?m] => destruct m as [[t d1]|e| | |] eqn:E; cbn [tree_of bind] in H; try discriminate H end. injection H as <- _. apply num_count in E; lia.
  - destruct (leaf_name _ _ G) as [_ G1]. inversion G1 as [|? ? _ G2]; subst. destruct (leaf_name _ _ G2) as [_ G3].
    apply Forall_app in G3 as [G3 G4]. inversion G4 as [|? ? _ G5]; subst. apply Forall_app in G5 as [G5 G6]. inversion G6 as [|? ? _ G7]; subst.
    pose proof (ntoks_range lo G3) as Rl. pose proof (ntoks_range hi G5) as Rh. pose proof (ntoks_range y G7) as Ry. apply andb_prop in Nm as [Nm Ny]. apply andb_prop in Nm as [Nl Nh].
    cbn [ptree] in H. rewrite (ev_PN VTok act 18) in H. cbn [Grammar.evs Grammar.ev leaf_tok tk bind] in H. rewrite ev_num in H by auto. rewrite Nl in H. cbn [bind] in H. rewrite ev_num in H by auto. rewrite Nh in H. cbn [bind] in H.
    rewrite ev_num in H by auto. rewrite Ny in H. cbn [bind action] in H. unfold range_date_in_policy in H. destruct (mktime _) as [s1 t0]. destruct (mktime _) as [s2 t3].
    match type of H with context [bind (ge_policy ?x ?c ?u) _] => destruct (ge_policy x c u) as [[t1 d1]|e| | |] eqn:E1; cbn [bind tree_of] in H; try discriminate H end.
    match type of H with context [bind (le_policy ?x ?c ?u) _] => destruct (le_policy x c u) as [[t2 d2]|e| | |] eqn:E2; cbn [bind tree_of] in H; try discriminate H end.
    injection H as <- _. unfold Gate. rewrite two_leaves by discriminate. apply (num_count OpGe) in E1; [|lia]. apply (num_count OpLe) in E2; lia.
  - apply Forall_app in G as [Ga Gb]. inversion Gb as [|? ? _ Gb']; subst. apply andb_prop in Nm as [Na Nb]. cbn [ptree] in H. rewrite ev_PN in H. cbn [Grammar.evs] in H.
    destruct (Grammar.ev VTok act (ptree a) d) as [[va da|da]|e| | |] eqn:Ea; cbn [bind] in H; try discriminate H. cbn [Grammar.ev tk bind] in H.
    destruct (Grammar.ev VTok act (ptree b) da) as [[vb db|db]|e| | |] eqn:Eb; cbn [bind] in H; try discriminate H.
    destruct va; cbn [action] in H; try discriminate H. destruct vb; cbn [action bind] in H; try discriminate H. injection H as <- _. rewrite kof2_leaves.
    apply IHa in Ea; auto. apply IHb in Eb; auto. lia.
  - apply Forall_app in G as [Ga Gb]. inversion Gb as [|? ? _ Gb']; subst. apply andb_prop in Nm as [Na Nb]. cbn [ptree] in H. rewrite ev_PN in H. cbn [Grammar.evs] in H.
    destruct (Grammar.ev VTok act (ptree a) d) as [[va da|da]|e| | |] eqn:Ea; cbn [bind] in H; try discriminate H. cbn [Grammar.ev tk bind] in H.
    destruct (Grammar.ev VTok act (ptree b) da) as [[vb db|db]|e| | |] eqn:Eb; cbn [bind] in H; try discriminate H.
    destruct va; cbn [action] in H; try discriminate H. destruct vb; cbn [action bind] in H; try discriminate H. injection H as <- _. rewrite kof2_leaves.
    apply IHa in Ea; auto. apply IHb in Eb; auto. lia.
  - inversion G as [|? ? _ G1]; subst. apply Forall_app in G1 as [G1 _]. cbn [ptree] in H. rewrite (ev_PN VTok act 14) in H. cbn [Grammar.evs Grammar.ev tk bind] in H.
    destruct (Grammar.ev VTok act (ptree a) d) as [[va da|da]|e| | |] eqn:Ea; cbn [bind] in H; try discriminate H. destruct va; cbn [action bind] in H; try discriminate H. injection H as <- _. apply IHa in Ea; auto.
Qed.
End Policies.

(** ** Tokens and characters *)
Lemma spells_some : forall t w rest, spells t w rest -> 1 <= len w.
Proof.
  assert (forall (s : str), s <> [] -> 1 <= len s) as P by (intros [|c s] H; [congruence|unfold len; cbn [length]; lia]).
  intros t w rest H. inversion H; subst; try (unfold len; cbn; lia); try (match goal with H : _ \/ _ |- _ => destruct H as [->| ->] end; unfold len; cbn; lia).
  - apply P. intro X. subst. discriminate.
  - apply P. assumption.
Qed.
Lemma text_tokens : forall ts s s', text_pre ts s s' -> Z.of_nat (length ts) + len s' <= len s.
Proof.
  intros ts s s' H. induction H as [s|b t w ts s s' _ Sp _ IH]; [cbn; lia|]. apply spells_some in Sp. rewrite !len_app. cbn [length]. pose proof (len_nonneg b). lia.
Qed.
Lemma ntoks_some : forall n, (1 <= length (ntoks n))%nat.
Proof. intros [v [w|]]; cbn; lia. Qed.
Lemma cost_tokens : forall e, nums_ok e = true -> 3 * cost e <= 32 * Z.of_nat (length (ptoks e)).
Proof.
  induction e as [s|r s k|incl s lo hi|r s m dd y|s m lo hi y|a IHa b IHb|a IHa b IHb|a IHa]; intro N; cbn [nums_ok] in N; cbn [cost ptoks length]; rewrite ?app_length; cbn [length]; rewrite ?app_length; cbn [length]; rewrite ?app_length; cbn [length].
  - lia.
  - pose proof (width_pos k N). pose proof (ntoks_some k). lia.
  - apply andb_prop in N as [N1 N2]. pose proof (width_pos lo N1). pose proof (width_pos hi N2). pose proof (ntoks_some lo). pose proof (ntoks_some hi). lia.
  - pose proof (ntoks_some dd). pose proof (ntoks_some y). lia.
  - pose proof (ntoks_some lo). pose proof (ntoks_some hi). pose proof (ntoks_some y). lia.
  - apply andb_prop in N as [N1 N2]. specialize (IHa N1). specialize (IHb N2). lia.
  - apply andb_prop in N as [N1 N2]. specialize (IHa N1). specialize (IHb N2). lia.
  - specialize (IHa N). lia.
Qed.
(** A binary tree with [n] leaves has [n - 1] gates. *)
Lemma binary_gates : forall n, binary n = true -> gate_count n = leaf_count n - 1 /\ 1 <= leaf_count n.
Proof.
  fix IH 1. intros [g t p l i ks] H. destruct g; try discriminate H.
  - cbn. unfold leaf_count. cbn. lia.
  - cbn [binary] in H. apply andb_prop in H as [H1 H2]. destruct ks as [|a [|b [|c ks]]]; try discriminate H1. cbn [forallb] in H2. apply andb_prop in H2 as [Ha H2]. apply andb_prop in H2 as [Hb _].
    rewrite two_leaves by discriminate. cbn [gate_count fold_right]. destruct (IH a Ha) as [-> ?]. destruct (IH b Hb) as [-> ?]. lia.
  - cbn [binary] in H. apply andb_prop in H as [H1 H2]. destruct ks as [|a [|b [|c ks]]]; try discriminate H1. cbn [forallb] in H2. apply andb_prop in H2 as [Ha H2]. apply andb_prop in H2 as [Hb _].
    rewrite two_leaves by discriminate. cbn [gate_count fold_right]. destruct (IH a Ha) as [-> ?]. destruct (IH b Hb) as [-> ?]. lia.
Qed.
Lemma policy_size : forall mktime s q, create_policy_tree mktime s = Ok (Some q) ->
  exists r, proot q = Some r /\ binary r = true /\ 1 <= leaf_count r /\ 3 * leaf_count r <= 32 * len s.
Proof.
  intros mktime s q E. apply create_accept in E as (e & s' & n & d' & T & _ & _ & Nm & _ & M & Ev & ->). exists n. split; [reflexivity|].
  destruct M as [(cs & [B _] & _) _]. split; [exact B|]. pose proof (ev_size mktime e _ _ _ (text_pre_good _ _ _ T) Nm Ev). pose proof (cost_tokens e Nm). apply text_tokens in T. pose proof (len_nonneg s'). lia.
Qed.

(** ** Attribute lists *)
Lemma bits_count : forall c b x, 0 <= recorded b -> Z.of_nat (length (bits_of c b x)) = recorded b.
Proof. intros c b x H. unfold bits_of. rewrite map_length, rev_length, map_length, seq_length. lia. Qed.
Lemma item_size : forall day before i, item_ok i = true -> Z.of_nat (length (item_attrs day before i)) <= item_cost i.
Proof.
  intros day before [s|s n|p m d y] H; cbn [item_attrs item_cost].
  - destruct (first_mention s before) as [[|]|]; cbn; lia.
  - cbn [item_ok] in H. pose proof (width_pos n H). assert (0 <= recorded (num_width n)) by (unfold recorded; destruct (num_width n <? 32); lia).
    destruct (first_mention s before) as [[|]|]; [cbn; lia|rewrite bits_count; lia ..].
  - destruct (dated_in p before); [cbn; lia|]. rewrite bits_count by (unfold recorded; cbn; lia). unfold recorded. cbn. lia.
Qed.
Lemma item_tokens : forall i, item_ok i = true -> 3 * item_cost i <= 32 * Z.of_nat (length (itoks i)).
Proof.
  intros [s|s n|p m d y] H; cbn [item_cost itoks length]; [lia| |].
  - cbn [item_ok] in H. pose proof (width_pos n H). destruct n as [v [w|]]; cbn [num_width width ntoks length] in *; unfold recorded; [destruct (w <? 32)|cbn]; lia.
  - rewrite app_length. cbn [length]. pose proof (ntoks_some d). pose proof (ntoks_some y). lia.
Qed.
Lemma list_size : forall day a before, items_ok (aitems a) = true -> 3 * Z.of_nat (length (attrs_from day before (aitems a))) <= 32 * Z.of_nat (length (atoks a)).
Proof.
  intros day a. induction a as [n i k|n i r IH]; intros before H; cbn [aitems items_ok forallb] in H; apply andb_prop in H as [Hi Hr];
    cbn [aitems attrs_from atoks]; rewrite !app_length; cbn [length]; pose proof (item_size day before i Hi); pose proof (item_tokens i Hi).
  - lia.
  - specialize (IH (before ++ [i]) Hr). lia.
Qed.
Lemma attrs_size : forall mktime s l, create_attribute_list mktime s = Ok (Some l) -> 3 * Z.of_nat (length (aattrs l)) <= 32 * len s.
Proof.
  intros mktime s l E. apply attrs_accept in E as (a & (s' & T & _) & _ & K & -> & _). pose proof (list_size (day mktime) a [] K) as X. apply text_tokens in T. pose proof (len_nonneg s'). unfold attrs_of. lia.
Qed.
