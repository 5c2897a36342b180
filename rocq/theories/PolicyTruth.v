(** Evaluation of policy derivations: the tree built means what the policy says. *)
From Verif Require Import Base ByteString StrMap Dec UInteger Policy LsssSpec Scanner Grammar PolicySyntax Lexical PolicyMeaning Driver Parser ParserSound ParserRun ParserTop ScannerProofs NumProofs NumTree.
From Coq Require Import ZArith List Ascii Bool Lia ZifyBool ZifyNat Permutation.
Import ListNotations.
Open Scope Z_scope.

Section Truth.
Variable mktime : tm -> Z * tm.
Notation act := (action mktime).
Notation ev := (ev VTok act).
Notation evs := (evs VTok act).

Definition day (m : str) (d y : Z) : Z := validate_date mktime (get_month m) d y.
Definition last_day (m : str) (lo hi y : Z) : Z :=
  let t := snd (mktime (tm_of (get_month m) lo y)) in
  in_days (fst (mktime {| tm_year := tm_year t; tm_mon := tm_mon t; tm_mday := to_int hi; tm_rest := tm_rest t |})).
Notation truth := (truth day last_day).
Notation dates_ok := (dates_ok day last_day).

(** ** Numbers *)
Lemma valid_bit : forall v w, 0 < v -> 0 < w -> check_valid_bit v w = num_ok (Num v (Some w)).
Proof.
  intros v w Hv Hw. unfold check_valid_bit, num_ok, width, width_ok.
  destruct ((w <? 4) || (32 <? w)) eqn:E1; [destruct (Z.eqb_spec w 4), (Z.eqb_spec w 8), (Z.eqb_spec w 16), (Z.eqb_spec w 32); subst; try reflexivity; discriminate|].
  assert (4 <= w <= 32) as B by lia. clear E1.
  assert (In w (map Z.of_nat (seq 4 29))) as I. { apply in_map_iff. exists (Z.to_nat w). split; [lia|]. apply in_seq. lia. }
  assert (forallb (fun w => Bool.eqb (Z.land w (w - 1) =? 0) ((w =? 4) || (w =? 8) || (w =? 16) || (w =? 32))) (map Z.of_nat (seq 4 29)) = true) as C by reflexivity.
  rewrite forallb_forall in C. specialize (C w I). cbn beta in C. apply eqb_prop in C. rewrite C.
  destruct (Z.eqb_spec w 4) as [->|]; [change (2 ^ 4) with 16; cbn [negb orb andb]; lia|].
  destruct (Z.eqb_spec w 8) as [->|]; [change (2 ^ 8) with 256; cbn [negb orb andb Z.eqb Pos.eqb]; lia|].
  destruct (Z.eqb_spec w 16) as [->|]; [change (2 ^ 16) with 65536; cbn [negb orb andb Z.eqb Pos.eqb]; lia|].
  destruct (Z.eqb_spec w 32) as [->|]; [change (2 ^ 32) with 4294967296; cbn [negb orb andb Z.eqb Pos.eqb]; lia|].
  reflexivity.
Qed.
Definition num_range (n : num) : Prop := let 'Num v w := n in 0 < v < 4294967295 /\ match w with Some w => 0 < w | None => True end.
Definition num_uint (n : num) : uint := {| uval := num_val n; ubits := num_width n |}.
Lemma ntoks_range : forall n, Forall tok_good (ntoks n) -> num_range n.
Proof.
  intros [v [w|]] H; cbn [ntoks] in H.
  - inversion H as [|? ? [_ H1] H2]; subst. inversion H2 as [|? ? _ H3]; subst. inversion H3 as [|? ? [_ H4] _]; subst.
    destruct (H1 eq_refl) as (n & E & Hn). injection E as <-. destruct (H4 eq_refl) as (m & E & Hm). injection E as <-. cbn. lia.
  - inversion H as [|? ? [_ H1] H2]; subst. destruct (H1 eq_refl) as (n & E & Hn). injection E as <-. cbn. auto.
Qed.
Lemma ev_num : forall n d, num_range n -> ev (ntree n) d = Ok (if num_ok n then EV (VNum (num_uint n)) d else EA d).
Proof.
  intros [v [w|]] d H.
  - destruct H as [H1 H2]. cbn [ntree Grammar.ev uint_tok tk]. cbn [bind action]. rewrite valid_bit by lia.
    destruct (num_ok (Num v (Some w))) eqn:E; [|reflexivity]. cbn [bind].
    unfold create_expint, num_uint. cbn [num_val num_width width].
    rewrite (Z.mod_small w); [reflexivity|]. unfold num_ok, width, width_ok in E. apply andb_prop in E as [E _].
    assert (w = 4 \/ w = 8 \/ w = 16 \/ w = 32) as [-> | [-> | [-> | ->]]] by lia; cbn; lia.
  - cbn [ntree Grammar.ev uint_tok tk]. cbn [bind action].
    unfold num_ok, width. destruct H as [H _]. change (2 ^ 32) with 4294967296. replace (v <? 4294967296) with true by lia. reflexivity.
Qed.
Lemma num_ok_facts : forall n, num_range n -> num_ok n = true -> width_ok (num_width n) = true /\ 0 < num_val n < 2 ^ num_width n /\ num_val n < 4294967295.
Proof.
  intros [v w] H E. cbn in *. apply andb_prop in E as [E1 E2]. repeat split; auto; lia.
Qed.

(** ** Names *)
Lemma name_starts : forall s, is_name s = true -> starts_ok s = true.
Proof.
  intros s H. unfold is_name in H. apply andb_prop in H as [H _]. apply andb_prop in H as [H _].
  destruct s as [|c s]; [discriminate|]. cbn [is_word] in H. apply andb_prop in H as [H _].
  cbn [starts_ok]. destruct (Ascii.eqb c colon) eqn:E; [|reflexivity]. apply Ascii.eqb_eq in E. subst c. vm_compute in H. discriminate.
Qed.
Lemma leaf_name : forall s ts, Forall tok_good (leaf_tok s :: ts) -> is_name s = true /\ Forall tok_good ts.
Proof.
  intros s ts H. inversion H as [|? ? [H1 _] H2]; subst. destruct (H1 eq_refl) as (x & E & Hx). injection E as <-. auto.
Qed.
Lemma date_attr_dated : forall p, date_attr p = dated p.
Proof. reflexivity. Qed.
Lemma dated_starts : forall p, starts_ok p = true -> starts_ok (dated p) = true.
Proof. intros [|c p] H; [discriminate|]. unfold dated. destruct (str_eqb _ _); exact H. Qed.
Lemma tidy_colon : forall s b t, tidy_from b s = true -> tidy t = true -> tidy_from b (s ++ colon :: t) = true.
Proof.
  induction s as [|c s IH]; intros b t H Ht; cbn [tidy_from app] in *.
  - rewrite Ascii.eqb_refl, H. exact Ht.
  - destruct (Ascii.eqb c colon); [apply andb_prop in H as [H1 H2]; rewrite H1; cbn [andb]|]; apply IH; auto.
Qed.
Lemma dated_tidy : forall p, tidy p = true -> tidy (dated p) = true.
Proof. intros p H. unfold dated. destruct (str_eqb p (L "time")); auto. apply tidy_colon; auto. Qed.

(** ** The leaves a policy asks for *)
Fixpoint asked (e : pexp) (s : str) : Prop :=
  match e with
  | EAttr x => s = x
  | ECmp _ x n => exists i v, s = marker x (num_width n) i v /\ 0 <= i < recorded (num_width n)
  | ERange _ x lo hi =>
      (exists i v, s = marker x (num_width lo) i v /\ 0 <= i < recorded (num_width lo)) \/
      (exists i v, s = marker x (num_width hi) i v /\ 0 <= i < recorded (num_width hi))
  | EDate _ x _ _ _ | EDateRange x _ _ _ _ => exists i v, s = marker (dated x) 32 i v /\ 0 <= i < recorded 32
  | EAnd a b | EOr a b => asked a s \/ asked b s
  | EPar a => asked a s
  end.

Definition means (e : pexp) (d : driver) (n : node) (d' : driver) : Prop :=
  (exists cs, built d cs n d' /\ forall s, In s cs -> asked e s) /\
  (tidy_names e = true -> denotes day last_day e n).
Lemma denotes_truth : forall e n held val, denotes day last_day e n -> (forall c b, In (c, b) (compared e) -> records held val c b) -> sat held n = truth held val e.
Proof.
  induction e; intros t held val H R; cbn [denotes] in H; try (apply H; assumption).
  - destruct H as (p & l & i & -> & <-). reflexivity.
  - destruct H as (x & y & -> & H1 & H2). rewrite sat_gate_and. cbn [PolicyMeaning.truth]. rewrite (IHe1 x held val), (IHe2 y held val); auto; intros c b I; apply R; cbn [compared]; apply in_or_app; auto.
  - destruct H as (x & y & -> & H1 & H2). rewrite sat_gate_or. cbn [PolicyMeaning.truth]. rewrite (IHe1 x held val), (IHe2 y held val); auto; intros c b I; apply R; cbn [compared]; apply in_or_app; auto.
  - apply IHe; auto.
Qed.

Lemma num_tree_truth : forall r d c b v n d' held val, num_tree r d c b v n d' -> width_ok b = true -> tidy c = true ->
  records held val c b -> sat held n = compares val r c b v.
Proof.
  intros r d c b v n d' held val N Hb T R. unfold compares. unfold records in R. destruct (val c b) as [x|].
  - destruct R as [R1 R2]. destruct N as [_ N]. apply N; auto.
  - eapply num_tree_absent; eauto.
Qed.

Lemma rel_action : forall r s t u d, act (rel_rule r) [VTok (StrVal s); t; VNum u] d = tree_of (num_policy (rel_op r) d s u).
Proof. intros [] s t u d; reflexivity. Qed.
Lemma date_action : forall r s t m dd t' y d, act (date_rule r) [VTok (StrVal s); t; VTok (StrVal m); VNum dd; t'; VNum y] d =
  tree_of (date_policy mktime (rel_op r) d s (get_month m) dd y).
Proof. intros [] s t m dd t' y d; reflexivity. Qed.

Lemma num_step : forall r d c n, num_range n -> num_ok n = true -> starts_ok c = true ->
  exists t d', num_policy (rel_op r) d c (num_uint n) = Ok (t, d') /\ num_tree r d c (num_width n) (num_val n) t d'.
Proof.
  intros r d c n R K S. destruct (num_ok_facts n R K) as (W & V & M). apply num_policy_ok; auto; [lia|]. destruct r; cbn; lia.
Qed.
Lemma day_step : forall r d c v, day_ok r v = true -> starts_ok c = true ->
  exists t d', num_policy (rel_op r) d c {| uval := v; ubits := 32 |} = Ok (t, d') /\ num_tree r d c 32 v t d'.
Proof.
  intros r d c v R S. apply num_policy_ok; auto; change (2 ^ 32) with 4294967296; unfold day_ok in R; destruct r; cbn [in_reach]; lia.
Qed.
Lemma num_tree_two : forall r1 r2 d c1 b1 v1 n1 d1 c2 b2 v2 n2 d2,
  num_tree r1 d c1 b1 v1 n1 d1 -> num_tree r2 d1 c2 b2 v2 n2 d2 ->
  exists cs, built d cs (Gate GateAnd [n1; n2]) d2 /\
    forall s, In s cs -> (exists i v, s = marker c1 b1 i v /\ 0 <= i < recorded b1) \/ (exists i v, s = marker c2 b2 i v /\ 0 <= i < recorded b2).
Proof.
  intros r1 r2 d c1 b1 v1 n1 d1 c2 b2 v2 n2 d2 [(cs1 & B1 & M1) _] [(cs2 & B2 & M2) _].
  exists (cs1 ++ cs2). split; [apply (built_gate GateAnd _ _ _ _ _ _ _ (or_introl eq_refl) B1 B2)|].
  intros s I. apply in_app_or in I as [I|I]; auto.
Qed.

Definition evaluated (e : pexp) (d : driver) : Prop :=
  (nums_ok e = true -> exists n d', ev (ptree e) d = Ok (EV (VTree n) d') /\ means e d n d') /\
  (nums_ok e = false -> exists d', ev (ptree e) d = Ok (EA d') /\ dpol d' = dpol d /\ dattr d' = dattr d).

Lemma means_keep : forall e d n d', means e d n d' -> dpol d' = dpol d /\ dattr d' = dattr d.
Proof. intros e d n d' [(cs & [_ (ns & I & _)] & _) _]. apply issues_keep in I. tauto. Qed.

Lemma ev_two : forall g r a b t d, (r = 7 /\ t = tk OR /\ g = GateOr) \/ (r = 8 /\ t = tk AND /\ g = GateAnd) ->
  evaluated a d -> (forall d', evaluated b d') ->
  (nums_ok a && nums_ok b = true -> exists n1 d1 n2 d2, ev (PN r [ptree a; PT t; ptree b]) d = Ok (EV (VTree (Gate g [n1; n2])) d2) /\
     means a d n1 d1 /\ means b d1 n2 d2) /\
  (nums_ok a && nums_ok b = false -> exists d', ev (PN r [ptree a; PT t; ptree b]) d = Ok (EA d') /\ dpol d' = dpol d /\ dattr d' = dattr d).
Proof.
  intros g r a b t d G [A1 A2] B. rewrite ev_PN. cbn [Grammar.evs].
  destruct (nums_ok a).
  - destruct (A1 eq_refl) as (n1 & d1 & E1 & M1). rewrite E1. cbn [bind]. destruct (B d1) as [B1 B2].
    destruct t as [tc tv]. cbn [Grammar.ev bind].
    destruct (nums_ok b); cbn [andb]; split; intro; try discriminate.
    + destruct (B1 eq_refl) as (n2 & d2 & E2 & M2). rewrite E2. cbn [bind].
      exists n1, d1, n2, d2. split; auto. destruct G as [(-> & _ & ->)|(-> & _ & ->)]; reflexivity.
    + destruct (B2 eq_refl) as (d2 & E2 & K1 & K2). rewrite E2. cbn [bind]. exists d2. split; auto.
      destruct (means_keep _ _ _ _ M1) as [<- <-]. auto.
  - cbn [andb]. split; intro; try discriminate. destruct (A2 eq_refl) as (d1 & E1 & K). rewrite E1. cbn [bind]. exists d1. auto.
Qed.

Lemma ev_policy : forall e d, Forall tok_good (ptoks e) -> dates_ok e = true -> evaluated e d.
Proof.
  induction e as [s|r s n|incl s lo hi|r s m dd y|s m lo hi y|a IHa b IHb|a IHa b IHb|a IHa]; intros d G D; cbn [ptoks] in G.
  - (* name *)
    destruct (leaf_name _ _ G) as [N _]. split; [intros _|discriminate].
    destruct (leaf_total d s (name_starts s N)) as (n & d' & E). exists n, d'. cbn [ptree Grammar.ev leaf_tok bind action].
    rewrite E. split; [reflexivity|]. destruct (built_leaf _ _ _ _ E) as (B & Ll & Tl & _). split.
    + exists [s]. split; auto. intros x [<-|[]]. reflexivity.
    + unfold tidy_names. cbn [names forallb]. intro T. destruct (leaf_inv _ _ _ _ E) as (p & a & En & _). cbn [denotes]. exists p, a. eexists. split; [exact En|].
      rewrite Ll. apply label_tidy. lia.
  - (* comparison *)
    destruct (leaf_name _ _ G) as [N G1]. inversion G1 as [|? ? _ G2]; subst. pose proof (ntoks_range n G2) as R.
    unfold evaluated. cbn [nums_ok ptree]. rewrite (ev_PN VTok act (rel_rule r)). cbn [Grammar.evs Grammar.ev leaf_tok bind].
    destruct (rel_tok r) as [tc tv]. cbn [bind]. rewrite ev_num by auto.
    split; intro K; rewrite K; cbn [bind].
    + destruct (num_step r d s n R K (name_starts s N)) as (t & d' & E & NT). rewrite rel_action, E. cbn [tree_of bind].
      exists t, d'. split; auto. split.
      * destruct NT as [(cs & B & M) _]. exists cs. split; auto.
      * unfold tidy_names. cbn [names forallb]. intro T. cbn [denotes]. split; [destruct NT as [(cs & B & _) _]; apply B|]. intros held val Rc. destruct (num_ok_facts n R K) as (W & _).
        cbn [PolicyMeaning.truth]. eapply num_tree_truth; eauto; [lia|apply Rc; left; reflexivity].
    + exists d. auto.
  - (* range *)
    destruct (leaf_name _ _ G) as [N G1]. inversion G1 as [|? ? _ G2]; subst. inversion G2 as [|? ? _ G3]; subst.
    apply Forall_app in G3 as [G3 G4]. inversion G4 as [|? ? _ G5]; subst. apply Forall_app in G5 as [G5 _].
    pose proof (ntoks_range lo G3) as Rl. pose proof (ntoks_range hi G5) as Rh.
    unfold evaluated. cbn [nums_ok ptree]. rewrite (ev_PN VTok act (if incl then 16 else 15)). cbn [Grammar.evs Grammar.ev leaf_tok tk bind open_tok close_tok].
    rewrite !ev_num by auto.
    destruct (num_ok lo) eqn:Kl; cbn [bind andb]; [|split; intro; [discriminate|exists d; auto]].
    rewrite ev_num by auto.
    destruct (num_ok hi) eqn:Kh; cbn [bind andb]; split; intro; try discriminate; [|exists d; auto].
    destruct (num_step (if incl then RGe else RGt) d s lo Rl Kl (name_starts s N)) as (t1 & d1 & E1 & N1).
    destruct (num_step (if incl then RLe else RLt) d1 s hi Rh Kh (name_starts s N)) as (t2 & d2 & E2 & N2).
    exists (Gate GateAnd [t1; t2]), d2. split.
    + destruct incl; cbn [action rel_op num_policy] in *; unfold range_policy, range_incl_policy; rewrite E1; cbn [bind]; rewrite E2; reflexivity.
    + split.
      * destruct (num_tree_two _ _ _ _ _ _ _ _ _ _ _ _ _ N1 N2) as (cs & B & M). exists cs. split; auto.
      * unfold tidy_names. cbn [names forallb]. intro T. cbn [denotes]. split.
        { destruct (num_tree_two _ _ _ _ _ _ _ _ _ _ _ _ _ N1 N2) as (cs & B & _). apply B. }
        intros held val Rc.
        destruct (num_ok_facts lo Rl Kl) as (W1 & _), (num_ok_facts hi Rh Kh) as (W2 & _).
        rewrite sat_gate_and. cbn [PolicyMeaning.truth].
        rewrite (num_tree_truth _ _ _ _ _ _ _ held val N1), (num_tree_truth _ _ _ _ _ _ _ held val N2); auto; try lia; apply Rc; cbn [compared In]; auto.
  - (* date *)
    destruct (leaf_name _ _ G) as [N G1]. inversion G1 as [|? ? _ G2]; subst. destruct (leaf_name _ _ G2) as [Nm G3].
    apply Forall_app in G3 as [G3 G4]. inversion G4 as [|? ? _ G5]; subst.
    pose proof (ntoks_range dd G3) as Rd. pose proof (ntoks_range y G5) as Ry.
    unfold evaluated. cbn [nums_ok PolicyMeaning.dates_ok ptree] in *. rewrite (ev_PN VTok act (date_rule r)). cbn [Grammar.evs Grammar.ev leaf_tok tk bind].
    destruct (date_rel_tok r) as [tc tv]. cbn [bind]. rewrite ev_num by auto.
    destruct (num_ok dd) eqn:Kd; cbn [bind andb] in *; [|split; intro; [discriminate|exists d; auto]].
    rewrite ev_num by auto.
    destruct (num_ok y) eqn:Ky; cbn [bind andb] in *; split; intro; try discriminate; [|exists d; auto].
    cbn [PolicyMeaning.dates_ok] in D. rewrite date_action. unfold date_policy. cbn [uval num_uint].
    destruct (day_step r d (dated s) (day m (num_val dd) (num_val y)) D (dated_starts s (name_starts s N))) as (t & d' & E & NT).
    unfold day in E. rewrite date_attr_dated, E. cbn [tree_of bind]. exists t, d'. split; auto. split.
    + destruct NT as [(cs & B & M) _]. exists cs. split; auto.
    + unfold tidy_names. cbn [names forallb]. intro T. cbn [denotes]. split; [destruct NT as [(cs & B & _) _]; apply B|]. intros held val Rc. cbn [PolicyMeaning.truth].
      eapply num_tree_truth; eauto; [apply dated_tidy; lia|apply Rc; left; reflexivity].
  - (* range of days *)
    destruct (leaf_name _ _ G) as [N G1]. inversion G1 as [|? ? _ G2]; subst. destruct (leaf_name _ _ G2) as [Nm G3].
    apply Forall_app in G3 as [G3 G4]. inversion G4 as [|? ? _ G5]; subst. apply Forall_app in G5 as [G5 G6]. inversion G6 as [|? ? _ G7]; subst.
    pose proof (ntoks_range lo G3) as Rl. pose proof (ntoks_range hi G5) as Rh. pose proof (ntoks_range y G7) as Ry.
    unfold evaluated. cbn [nums_ok PolicyMeaning.dates_ok ptree] in *. rewrite (ev_PN VTok act 18). cbn [Grammar.evs Grammar.ev leaf_tok tk bind].
    rewrite ev_num by auto.
    destruct (num_ok lo) eqn:Kl; cbn [bind andb] in *; [|split; intro; [discriminate|exists d; auto]].
    rewrite ev_num by auto.
    destruct (num_ok hi) eqn:Kh; cbn [bind andb] in *; [|split; intro; [discriminate|exists d; auto]].
    rewrite ev_num by auto.
    destruct (num_ok y) eqn:Ky; cbn [bind andb] in *; split; intro; try discriminate; [|exists d; auto].
    cbn [PolicyMeaning.dates_ok] in D. apply andb_prop in D as [D1 D2].
    destruct (day_step RGe d (dated s) (day m (num_val lo) (num_val y)) D1 (dated_starts s (name_starts s N))) as (t1 & d1 & E1 & N1).
    destruct (day_step RLe d1 (dated s) (last_day m (num_val lo) (num_val hi) (num_val y)) D2 (dated_starts s (name_starts s N))) as (t2 & d2 & E2 & N2).
    exists (Gate GateAnd [t1; t2]), d2. split.
    + cbn [action]. unfold range_date_in_policy. cbn [uval num_uint].
      unfold day, validate_date in E1. unfold last_day in E2. cbn [rel_op num_policy] in E1, E2.
      destruct (mktime (tm_of (get_month m) (num_val lo) (num_val y))) as [s1 t0]. cbn [fst snd] in E1, E2.
      destruct (mktime {| tm_year := tm_year t0; tm_mon := tm_mon t0; tm_mday := to_int (num_val hi); tm_rest := tm_rest t0 |}) as [s2 t3].
      cbn [fst] in E2. rewrite date_attr_dated, E1. cbn [bind]. rewrite E2. reflexivity.
    + split.
      * destruct (num_tree_two _ _ _ _ _ _ _ _ _ _ _ _ _ N1 N2) as (cs & B & M). exists cs. split; auto.
        intros x I. cbn [asked]. destruct (M x I); auto.
      * unfold tidy_names. cbn [names forallb]. intro T. cbn [denotes]. split.
        { destruct (num_tree_two _ _ _ _ _ _ _ _ _ _ _ _ _ N1 N2) as (cs & B & _). apply B. }
        intros held val Rc. rewrite sat_gate_and. cbn [PolicyMeaning.truth].
        assert (tidy (dated s) = true) as Td by (apply dated_tidy; lia).
        rewrite (num_tree_truth _ _ _ _ _ _ _ held val N1), (num_tree_truth _ _ _ _ _ _ _ held val N2); auto; apply Rc; left; reflexivity.
  - (* and *)
    apply Forall_app in G as [Ga Gb]. inversion Gb as [|? ? _ Gb']; subst. cbn [PolicyMeaning.dates_ok] in D. apply andb_prop in D as [Da Db].
    destruct (ev_two GateAnd 8 a b (tk AND) d) as [H1 H2]; auto.
    split; cbn [nums_ok ptree]; auto. intro K.
    destruct (H1 K) as (n1 & d1 & n2 & d2 & E & [(c1 & B1 & M1) T1] & [(c2 & B2 & M2) T2]).
    exists (Gate GateAnd [n1; n2]), d2. split; auto. split.
    + exists (c1 ++ c2). split; [apply (built_gate GateAnd _ _ _ _ _ _ _ (or_introl eq_refl) B1 B2)|].
      intros x I. apply in_app_or in I as [I|I]; cbn [asked]; auto.
    + unfold tidy_names in *. cbn [names]. rewrite forallb_app. intro T. apply andb_prop in T as [Ta Tb].
      cbn [denotes]. exists n1, n2. auto.
  - (* or *)
    apply Forall_app in G as [Ga Gb]. inversion Gb as [|? ? _ Gb']; subst. cbn [PolicyMeaning.dates_ok] in D. apply andb_prop in D as [Da Db].
    destruct (ev_two GateOr 7 a b (tk OR) d) as [H1 H2]; auto.
    split; cbn [nums_ok ptree]; auto. intro K.
    destruct (H1 K) as (n1 & d1 & n2 & d2 & E & [(c1 & B1 & M1) T1] & [(c2 & B2 & M2) T2]).
    exists (Gate GateOr [n1; n2]), d2. split; auto. split.
    + exists (c1 ++ c2). split; [apply (built_gate GateOr _ _ _ _ _ _ _ (or_intror eq_refl) B1 B2)|].
      intros x I. apply in_app_or in I as [I|I]; cbn [asked]; auto.
    + unfold tidy_names in *. cbn [names]. rewrite forallb_app. intro T. apply andb_prop in T as [Ta Tb].
      cbn [denotes]. exists n1, n2. auto.
  - (* parentheses *)
    inversion G as [|? ? _ G1]; subst. apply Forall_app in G1 as [G1 _]. cbn [PolicyMeaning.dates_ok] in D.
    destruct (IHa d G1 D) as [H1 H2]. split; cbn [nums_ok ptree]; intro K; rewrite (ev_PN VTok act 14); cbn [Grammar.evs Grammar.ev tk bind].
    + destruct (H1 K) as (n & d' & E & M). rewrite E. cbn [bind action]. exists n, d'. split; auto.
    + destruct (H2 K) as (d' & E & M). rewrite E. cbn [bind]. exists d'. auto.
Qed.
End Truth.
