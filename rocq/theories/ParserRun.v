(** Soundness, safety and termination of [run] for arbitrary actions. *)
From Verif Require Import Base Scanner Driver Parser Grammar ParserSound.
From Coq Require Import ZArith List Ascii Bool Lia ZifyBool ZifyNat.
Import ListNotations.
Open Scope Z_scope.

Section Run.
Context {V D : Type}.
Variable inj : yylval -> V.
Variable act : Z -> list V -> D -> res (option (V * D)).
Notation ev := (ev inj act).
Notation evs := (evs inj act).
Notation run := (run inj act).

Variable v0 : V.
Variable d0 : D.

(** The stack was built from derivation trees, evaluated in order from [d0]. *)
Inductive stk_ok : list (Z * V) -> list pt -> D -> Prop :=
| stk_base : stk_ok [(0, v0)] [] d0
| stk_push : forall s v st ps d p s' v' d', stk_ok ((s, v) :: st) ps d -> wf_pt p ->
    edge s (psym p) s' = true -> in_states s' = true -> s' <> 10 -> ev p d = Ok (EV v' d') ->
    stk_ok ((s', v') :: (s, v) :: st) (p :: ps) d'.

Lemma stk_states : forall st ps d, stk_ok st ps d ->
  exists s v r, st = (s, v) :: r /\ in_states s = true /\ s <> 10.
Proof.
  intros st ps d H. destruct H.
  - exists 0, v0, []. repeat split; try lia; reflexivity.
  - do 3 eexists. repeat split; eauto.
Qed.

Lemma stk_inv : forall s v rest ps d, stk_ok ((s, v) :: rest) ps d ->
  (s = 0 /\ v = v0 /\ rest = [] /\ ps = [] /\ d = d0) \/
  exists s0 v1 st ps0 d1 p, rest = (s0, v1) :: st /\ ps = p :: ps0 /\ stk_ok ((s0, v1) :: st) ps0 d1 /\ wf_pt p /\
    edge s0 (psym p) s = true /\ in_states s = true /\ s <> 10 /\ ev p d1 = Ok (EV v d) /\ in_states s0 = true.
Proof.
  intros s v rest ps d H. inversion H; subst.
  - left. auto.
  - right. do 6 eexists. repeat split; eauto.
    match goal with X : stk_ok ((?a, ?b) :: _) _ _ |- in_states ?a = true =>
      destruct (stk_states _ _ _ X) as (? & ? & ? & E & Y & _); injection E as <- <- <-; exact Y end.
Qed.

Lemma evs_snoc : forall l x d vs d1 v d2, evs l d = Ok (EV vs d1) -> ev x d1 = Ok (EV v d2) ->
  evs (l ++ [x]) d = Ok (EV (vs ++ [v]) d2).
Proof.
  induction l as [|y l IH]; intros x d vs d1 v d2 H1 H2; cbn in *.
  - injection H1 as <- <-. rewrite H2. reflexivity.
  - destruct (ev y d) as [[w d3|]| | | |]; cbn in *; try discriminate.
    destruct (evs l d3) as [[ws d4|]| | | |] eqn:E; cbn in *; try discriminate.
    injection H1 as <- <-. rewrite (IH _ _ _ _ _ _ E H2). reflexivity.
Qed.

Lemma pop : forall k st ps d s v rest r,
  stk_ok st ps d -> st = (s, v) :: rest -> has s r (Z.of_nat k) = true ->
  exists s1 v1 below d1,
    skipn k st = (s1, v1) :: below /\ stk_ok ((s1, v1) :: below) (skipn k ps) d1 /\
    has s1 r 0 = true /\ (k <= length ps)%nat /\
    map psym (rev (firstn k ps)) = firstn k (rhs r) /\
    Forall wf_pt (firstn k ps) /\
    evs (rev (firstn k ps)) d1 = Ok (EV (map snd (rev (firstn k st))) d).
Proof.
  induction k as [|k IH]; intros st ps d s v rest r H E Hh; subst st.
  - exists s, v, rest, d. repeat split; auto; try lia. constructor.
  - destruct (stk_inv _ _ _ _ _ H) as [(-> & _)|(s0 & v3 & st & ps0 & dx & p & -> & -> & H4 & H6 & H7 & H8 & H9 & H10 & Hs2)].
    + exfalso. apply bottom_items in Hh. lia.
    + pose proof (psym_range p H6) as Pr.
      replace (Z.of_nat (S k)) with (Z.of_nat k + 1) in Hh by lia.
      destruct (back s0 (psym p) s r (Z.of_nat k) Hs2 Pr H7 ltac:(lia) Hh) as [B1 B2].
      destruct (IH _ _ _ s0 v3 st r H4 eq_refl B1) as (s1 & v1 & below & d1 & A1 & A2 & A3 & A4 & A5 & A6 & A7).
      exists s1, v1, below, d1. cbn [skipn firstn rev]. rewrite Nat2Z.id in B2.
      repeat split; auto.
      * cbn [length]. lia.
      * rewrite map_app, A5. cbn [map]. rewrite <- (firstn_skipn k (rhs r)) in B2.
        assert (length (firstn k (rhs r)) = k) as Lk.
        { rewrite <- A5, map_length, rev_length, firstn_length. lia. }
        rewrite nth_error_app2 in B2 by lia. rewrite Lk, Nat.sub_diag in B2.
        clear -B2 Lk. revert k Lk B2. generalize (rhs r). induction l as [|a l IHl]; intros k Lk B2.
        -- destruct k; discriminate.
        -- destruct k as [|k]; cbn in *.
           ++ injection B2 as ->. reflexivity.
           ++ f_equal. apply IHl; auto.
      * pose proof (evs_snoc _ _ _ _ _ _ _ A7 H10) as Q. rewrite map_app. exact Q.
Qed.

Definition yields (ps : list pt) : list tok := flat_map yield (rev ps).
Lemma yields_cons : forall p ps, yields (p :: ps) = yields ps ++ yield p.
Proof. intros. unfold yields. cbn [rev]. rewrite flat_map_app. cbn. rewrite app_nil_r. reflexivity. Qed.
Lemma yields_split : forall k ps, yields ps = yields (skipn k ps) ++ yields (firstn k ps).
Proof.
  intros. unfold yields. rewrite <- (firstn_skipn k ps) at 1. rewrite rev_app_distr, flat_map_app. reflexivity.
Qed.

(** Weight of a stack: terminals count 2, nonterminals 1. *)
Definition w (x : Z) : nat := if x <? 31 then 2 else 1.
Fixpoint weight (ps : list pt) : nat := match ps with [] => O | p :: l => w (psym p) + weight l end.
Fixpoint wsyms (l : list Z) : nat := match l with [] => O | x :: l => w x + wsyms l end.
Lemma weight_split : forall k ps, (weight ps = weight (firstn k ps) + weight (skipn k ps))%nat.
Proof.
  induction k as [|k IH]; intros [|p ps]; auto. cbn [firstn skipn weight]. rewrite (IH ps). lia.
Qed.
Lemma weight_rev : forall l, weight l = wsyms (map psym (rev l)).
Proof.
  assert (forall a b, wsyms (a ++ b) = wsyms a + wsyms b)%nat as A.
  { induction a as [|x a IH]; intro b; cbn; auto. rewrite IH. lia. }
  induction l as [|p l IH]; cbn; auto. rewrite map_app, A. cbn. rewrite IH. lia.
Qed.
Lemma rule_weight : forall r, 2 <= r <= 28 -> (2 <= wsyms (rhs r))%nat.
Proof.
  intros r H.
  assert (forallb (fun r => Nat.leb 2 (wsyms (rhs r))) (map Z.of_nat (seq 2 27)) = true) as C by (vm_compute; reflexivity).
  rewrite forallb_forall in C. specialize (C r). cbn beta in C.
  assert (In r (map Z.of_nat (seq 2 27))). { apply in_map_iff. exists (Z.to_nat r). split; [lia|]. apply in_seq. lia. }
  specialize (C H0). apply Nat.leb_le in C. exact C.
Qed.

Lemma wf_kids : forall ks, fold_right (fun k P => wf_pt k /\ P) True ks <-> Forall wf_pt ks.
Proof.
  induction ks as [|k ks IH]; cbn; split; intro H; auto.
  - destruct H. constructor; auto. apply IH; auto.
  - inversion H; subst. split; auto. apply IH; auto.
Qed.

(** One step of reduction re-establishes the invariant. *)
Lemma reduce_inv : forall st ps d s v rest r, stk_ok st ps d -> st = (s, v) :: rest ->
  2 <= r <= 28 -> has s r (znth yyr2 r) = true ->
  let n := Z.to_nat (znth yyr2 r) in
  exists s1 v1 below d1,
    skipn n st = (s1, v1) :: below /\ stk_ok ((s1, v1) :: below) (skipn n ps) d1 /\
    let p := PN r (rev (firstn n ps)) in
    let s' := goto_state s1 (znth yyr1 r) in
    wf_pt p /\ psym p = lhs r /\ edge s1 (psym p) s' = true /\ in_states s' = true /\ s' <> 10 /\
    (r <= 3 -> s1 = 0 /\ s' = 3) /\
    evs (rev (firstn n ps)) d1 = Ok (EV (map snd (rev (firstn n st))) d) /\
    (weight (p :: skipn n ps) < weight ps)%nat /\
    yields (p :: skipn n ps) = yields ps.
Proof.
  intros st ps d s v rest r H E Hr Hh n.
  destruct (rule_ok r ltac:(lia)) as [R1 R2].
  assert (znth yyr2 r = Z.of_nat n) as Rn by lia. rewrite Rn in Hh.
  destruct (pop n st ps d s v rest r H E Hh) as (s1 & v1 & below & d1 & A1 & A2 & A3 & A4 & A5 & A6 & A7).
  exists s1, v1, below, d1. split; auto. split; auto. cbn zeta.
  rewrite R1.
  assert (in_states s1 = true) as I1.
  { destruct (stk_states _ _ _ A2) as (? & ? & ? & X & Y & _). injection X as <- <- <-. exact Y. }
  destruct (goto_ok s1 r I1 ltac:(lia) A3) as (G1 & G2 & G3 & G4).
  assert (firstn n (rhs r) = rhs r) as F. { apply firstn_all2. lia. }
  rewrite F in A5.
  split. { cbn [wf_pt]. split; [lia|]. split; auto. apply wf_kids. apply Forall_rev; auto. }
  split; [reflexivity|]. split; [exact G1|]. split; [exact G2|]. split; [exact G3|]. split; [exact G4|]. split; auto.
  split.
  - rewrite (weight_split n ps). rewrite (weight_rev (firstn n ps)), A5.
    pose proof (rule_weight r Hr). cbn [weight psym].
    pose proof (lhs_range r Hr). unfold w at 1. replace (lhs r <? 31) with false by lia. lia.
  - rewrite yields_cons. cbn [yield]. rewrite (yields_split n ps). reflexivity.
Qed.

(** What [run] can return. *)
Definition final (all : list tok) (o : res (presult D)) : Prop :=
  match o with
  | Ok (Accepted d) => exists p v rest, wf_pt p /\ psym p = 32 /\ ev p d0 = Ok (EV v d) /\
      all = yield p ++ rest /\ la_sym rest = 0
  | Ok (SyntaxError _) => True
  | Ok (Aborted d) => exists r vs, 4 <= r /\ act r vs d = Ok None
  | o' => exists r vs d, match o' with
      | UB => act r vs d = UB | Exit => act r vs d = Exit | NoFuel => act r vs d = NoFuel
      | Throw e => act r vs d = Throw e | Ok _ => False end
  end.

Definition act2_never_aborts := forall r vs d, 2 <= r <= 3 -> act r vs d <> Ok None.

Lemma run_final : act2_never_aborts -> forall f st ps d toks, stk_ok st ps d ->
  (f >= 4 * length toks + weight ps + 3)%nat ->
  final (yields ps ++ toks) (run f st toks d).
Proof.
  intro NA. induction f as [|f IH]; intros st ps d toks H Hf; [lia|].
  destruct (stk_states _ _ _ H) as (s & v & rest & E & Hs & Hn).
  rewrite E. cbn [Parser.run]. replace (s =? yyfinal) with false by (unfold yyfinal; lia).
  pose proof (la_range toks) as La.
  pose proof (move_ok s (la_sym toks) Hs ltac:(lia) Hn) as M.
  destruct (move s (la_sym toks)) as [s'|r|] eqn:Em.
  - destruct M as [Hs' [(M1 & M2 & M3)|(M1 & M2 & M3)]].
    + subst s s'. destruct f as [|f]; [lia|]. cbn [Parser.run].
      change (10 =? yyfinal) with true. cbn iota. cbn [final].
      subst st. destruct (stk_inv _ _ _ _ _ H) as [(X & _)|(s & v3 & st & ps0 & dx & p & -> & -> & H4 & H6 & H7 & H8 & H9 & H10 & Hs2)]; [discriminate|].
      pose proof (psym_range p H6) as Pr.
      destruct (three s (psym p) 3 Hs2 Pr H7) as [T1 T2]. destruct (T1 eq_refl) as [-> T3].
      destruct (stk_inv _ _ _ _ _ H4) as [(_ & -> & -> & -> & ->)|(s & v4 & st2 & ps1 & dy & p0 & -> & -> & K4 & K6 & K7 & _ & _ & _ & Hs3)].
      * exists p, v, toks. rewrite yields_cons. cbn [yields rev flat_map]. repeat split; auto.
      * exfalso. apply (bottom s (psym p0) 0 Hs3 (psym_range _ K6) K7 eq_refl).
    + destruct toks as [|[c x] toks]; [cbn in M1; congruence|]. cbn [la_sym la_val tl] in *.
      subst st.
      assert (stk_ok ((s', inj x) :: (s, v) :: rest) (PT (c, x) :: ps) d -> 
        (f >= 4 * length toks + weight (PT (c, x) :: ps) + 3)%nat ->
        final (yields ps ++ (c, x) :: toks) (run f ((s', inj x) :: (s, v) :: rest) toks d)) as Q.
      { intros Q1 Q2. pose proof (IH _ _ _ _ Q1 Q2) as Q. rewrite yields_cons, <- app_assoc in Q. exact Q. }
      apply Q; clear Q.
      * eapply stk_push; eauto; exact I.
      * cbn [weight psym length] in *.
        unfold w. replace (yytranslate c <? 31) with true by (symmetry; pose proof (translate_range c); lia). lia.
  - destruct M as [Hr Hh].
    destruct (reduce_inv st ps d s v rest r H E Hr Hh) as (s1 & v1 & below & d1 & A1 & A2 & A).
    cbn zeta in A. destruct A as (A3 & A4 & A5 & A6 & A7 & A8 & A9 & A10 & A11).
    rewrite <- E. rewrite A1.
    destruct (act r (map snd (rev (firstn (Z.to_nat (znth yyr2 r)) st))) d) as [[[v' d']|]| | | |] eqn:Ea;
      cbn [bind].
    + rewrite <- A11. apply (IH _ (PN r (rev (firstn (Z.to_nat (znth yyr2 r)) ps)) :: skipn (Z.to_nat (znth yyr2 r)) ps)).
      * eapply stk_push; eauto. rewrite ev_PN, A9. cbn [bind]. rewrite Ea. reflexivity.
      * lia.
    + cbn [final]. exists r. eexists. split; [|exact Ea].
      destruct (Z_le_gt_dec 4 r); auto. exfalso. eapply NA; [|exact Ea]. lia.
    + cbn [final]. do 3 eexists. exact Ea.
    + cbn [final]. do 3 eexists. exact Ea.
    + cbn [final]. do 3 eexists. exact Ea.
    + cbn [final]. do 3 eexists. exact Ea.
  - cbn [final]. exact I.
Qed.

(** More fuel does not change a finished run. *)
Lemma run_more : forall f g st toks d, (f <= g)%nat -> run f st toks d <> NoFuel ->
  run g st toks d = run f st toks d.
Proof.
  induction f as [|f IH]; intros g st toks d Hg H; [cbn in H; congruence|].
  destruct g as [|g]; [lia|]. cbn [Parser.run] in *.
  destruct st as [|[s v] rest]; auto. destruct (s =? yyfinal); auto.
  destruct (move s (la_sym toks)) as [s'|r|]; auto.
  - apply IH; auto. lia.
  - destruct (skipn (Z.to_nat (znth yyr2 r)) ((s, v) :: rest)) as [|[s1 v1] below]; auto.
    destruct (act r (map snd (rev (firstn (Z.to_nat (znth yyr2 r)) ((s, v) :: rest)))) d) as [[[v' d']|]| | | |];
      cbn [bind] in *; auto. apply IH; auto. lia.
Qed.
End Run.

(** Safety: with typed values the actions only ever see arguments of the types
    of their rule, so what holds of every such call holds of the run. *)
Section Safe.
Context {V D : Type}.
Variable inj : yylval -> V.
Variable act : Z -> list V -> D -> res (option (V * D)).
Variable VT : Z -> V -> Prop.
Variable DI : D -> Prop.
Variable tok_ok : tok -> Prop.
Hypothesis Htok : forall c v, tok_ok (c, v) -> VT (yytranslate c) (inj v).
(** States other than 0 that can occur. *)
Variable SI : Z -> Prop.
Hypothesis Hedge : forall s x s', SI s -> 0 <= x < 36 -> edge s x s' = true -> SI s'.
Hypothesis Hact : forall r vs d, 4 <= r <= 28 -> (exists s, SI s /\ has s r (znth yyr2 r) = true) ->
  Forall2 VT (rhs r) vs -> DI d ->
  match act r vs d with
  | Ok (Some (v, d')) => VT (lhs r) v /\ DI d'
  | Ok None => True
  | _ => False
  end.
Variable v0 : V.
Variable d0 : D.
Hypothesis Hact2 : forall r vs d, 2 <= r <= 3 -> (exists s, SI s /\ has s r (znth yyr2 r) = true) -> Forall2 VT (rhs r) vs -> DI d ->
  (exists ks, wf_pt (PN r ks) /\ evs inj act ks d0 = Ok (EV vs d)) ->
  match act r vs d with Ok (Some _) => True | _ => False end.
Hypothesis Hd0 : DI d0.

Inductive typed : list (Z * V) -> list pt -> Prop :=
| ty_base : typed [(0, v0)] []
| ty_push : forall st ps s v p, typed st ps -> VT (psym p) v -> SI s -> typed ((s, v) :: st) (p :: ps).

Lemma typed_firstn : forall n st ps, typed st ps -> (n <= length ps)%nat ->
  Forall2 VT (map psym (rev (firstn n ps))) (map snd (rev (firstn n st))).
Proof.
  induction n as [|n IH]; intros st ps H Hn; cbn; [constructor|].
  inversion H; subst; cbn in *; [lia|].
  rewrite !map_app. apply Forall2_app; [apply IH; auto; lia|]. constructor; auto.
Qed.
Lemma typed_skipn : forall n st ps, typed st ps -> (n <= length ps)%nat -> typed (skipn n st) (skipn n ps).
Proof.
  induction n as [|n IH]; intros st ps H Hn; auto. inversion H; subst; cbn in *; [lia|]. apply IH; auto. lia.
Qed.

Definition safe (o : res (presult D)) : Prop :=
  match o with
  | Ok (Accepted _) => True
  | Ok (SyntaxError _) => True
  | Ok (Aborted d) => DI d
  | _ => False
  end.

Lemma bottom : forall v1 below ps d1, stk_ok inj act v0 d0 ((0, v1) :: below) ps d1 -> d1 = d0.
Proof.
  intros v1 below ps d1 H. inversion H as [|s v st ps' d p s' v' d' K W E I N X]; subst; auto. exfalso.
  destruct (stk_states inj act v0 d0 _ _ _ K) as (? & ? & ? & X1 & X2 & _). injection X1 as <- <- <-.
  assert (forallb (fun s => forallb (fun x => negb (edge s x 0)) (map Z.of_nat (seq 0 36))) states = true) as C by (vm_compute; reflexivity).
  rewrite forallb_forall in C. specialize (C s (proj1 (in_states_In _) X2)). rewrite forallb_forall in C.
  specialize (C (psym p)). cbn beta in C. rewrite E in C. cbn [negb] in C.
  assert (0 <= psym p < 36) as R.
  { destruct p as [[c x]|r ks]; cbn [psym]; [pose proof (translate_range c); lia|].
    cbn [wf_pt] in W. destruct W as [W _]. pose proof (lhs_range r W). lia. }
  discriminate C. apply in_map_iff. exists (Z.to_nat (psym p)). split; [lia|]. apply in_seq. lia.
Qed.
Lemma run_safe : forall f st ps d toks, stk_ok inj act v0 d0 st ps d -> typed st ps ->
  Forall tok_ok toks -> DI d ->
  (f >= 4 * length toks + weight ps + 4)%nat -> ps <> [] ->
  safe (run inj act f st toks d).
Proof.
  induction f as [|f IH]; intros st ps d toks H Ty Ft Hd Hf Hne; [lia|].
  destruct (stk_states inj act v0 d0 _ _ _ H) as (s & v & rest & E & Hs & Hn).
  assert (SI s) as Si by (subst st; inversion Ty; subst; [congruence|assumption]).
  rewrite E. cbn [Parser.run]. replace (s =? yyfinal) with false by (unfold yyfinal; lia).
  pose proof (la_range toks) as La.
  pose proof (move_ok s (la_sym toks) Hs ltac:(lia) Hn) as M.
  destruct (move s (la_sym toks)) as [s'|r|] eqn:Em.
  - destruct M as [Hs' [(M1 & M2 & M3)|(M1 & M2 & M3)]].
    + subst s s'. destruct f as [|f]; [lia|]. cbn [Parser.run].
      change (10 =? yyfinal) with true. exact I.
    + destruct toks as [|[c x] toks]; [cbn in M1; congruence|]. cbn [la_sym la_val tl] in *.
      inversion Ft; subst.
      apply (IH _ (PT (c, x) :: ps)); auto.
      * eapply stk_push; eauto; exact I.
      * constructor; auto; [cbn [psym]; apply Htok; auto|]. eapply Hedge; [exact Si| |exact M3]. pose proof (translate_range c). lia.
      * cbn [weight psym length] in *.
        unfold w. replace (yytranslate c <? 31) with true by (symmetry; pose proof (translate_range c); lia). lia.
      * discriminate.
  - destruct M as [Hr Hh].
    destruct (reduce_inv inj act v0 d0 st ps d s v rest r H E Hr Hh) as (s1 & v1 & below & d1 & A1 & A2 & A).
    cbn zeta in A. destruct A as (A3 & A4 & A5 & A6 & A7 & A8 & A9 & A10 & A11).
    rewrite <- E. rewrite A1.
    set (n := Z.to_nat (znth yyr2 r)) in *.
    destruct (rule_ok r ltac:(lia)) as [R1 R2].
    assert (n <= length ps)%nat as Ln.
    { destruct A3 as (_ & A3 & _). apply (f_equal (@length Z)) in A3. rewrite map_length, rev_length, firstn_length in A3. lia. }
    pose proof (typed_firstn n st ps Ty Ln) as Fv. destruct A3 as (B1 & B2 & B3). rewrite B2 in Fv.
    pose proof (typed_skipn n st ps Ty Ln) as Ts. rewrite A1 in Ts.
    destruct (Z_le_gt_dec 4 r) as [L4|L4].
    + pose proof (Hact r _ d ltac:(lia) (ex_intro _ s (conj Si Hh)) Fv Hd) as Q.
      destruct (act r (map snd (rev (firstn n st))) d) as [[[v' d']|]| | | |] eqn:Ea; cbn [bind]; try contradiction.
      * destruct Q as [Q1 Q2]. apply (IH _ (PN r (rev (firstn n ps)) :: skipn n ps)); auto.
        -- eapply stk_push; eauto; [cbn [wf_pt]; auto|]. rewrite ev_PN, A9. cbn [bind]. rewrite Ea. reflexivity.
        -- constructor; auto.
           assert (SI s1) as Si1.
           { inversion Ts; subst; [|assumption]. exfalso.
             assert (forallb (fun r => forallb (fun s' => negb (edge 0 (lhs r) s')) states) (map Z.of_nat (seq 4 25)) = true) as C by (vm_compute; reflexivity).
             rewrite forallb_forall in C. specialize (C r). cbn beta in C.
             assert (In r (map Z.of_nat (seq 4 25))) as I. { apply in_map_iff. exists (Z.to_nat r). split; [lia|]. apply in_seq. lia. }
             specialize (C I). rewrite forallb_forall in C.
             specialize (C (goto_state 0 (znth yyr1 r)) (proj1 (in_states_In _) A6)). cbn beta in C. cbn [psym] in A5. rewrite A5 in C. discriminate. }
           eapply Hedge; [exact Si1| |exact A5]. cbn [psym]. pose proof (lhs_range r Hr). lia.
        -- lia.
        -- discriminate.
      * exact Hd.
    + destruct (A8 ltac:(lia)) as [-> Eg]. pose proof (bottom _ _ _ _ A2) as ->.
      pose proof (Hact2 r _ d ltac:(lia) (ex_intro _ s (conj Si Hh)) Fv Hd (ex_intro _ _ (conj (conj B1 (conj B2 B3)) A9))) as Q.
      destruct (act r (map snd (rev (firstn n st))) d) as [[[v' d']|]| | | |] eqn:Ea; cbn [bind]; try contradiction.
      rewrite Eg.
      destruct f as [|f]; [lia|]. cbn [Parser.run]. change (3 =? yyfinal) with false. cbn iota.
      pose proof (move_ok 3 (la_sym toks) eq_refl ltac:(lia) ltac:(lia)) as M3.
      destruct (move 3 (la_sym toks)) as [s'|r'|] eqn:Em3.
      * destruct M3 as [_ [(M1 & M2 & M3)|(M1 & M2 & M3)]].
        -- subst s'. destruct f as [|f]; [lia|]. cbn [Parser.run]. change (10 =? yyfinal) with true. exact I.
        -- exfalso. clear -Em3 M1 La. revert Em3.
           assert (forallb (fun x => match move 3 x with Shift _ => x =? 0 | _ => true end) symbols = true) as C by (vm_compute; reflexivity).
           rewrite forallb_forall in C. specialize (C (la_sym toks) (in_symbols (la_sym toks) ltac:(lia))). cbn beta in C.
           intro Em3. rewrite Em3 in C. lia.
      * exfalso. clear -Em3 La.
        assert (forallb (fun x => match move 3 x with Reduce _ => false | _ => true end) symbols = true) as C by (vm_compute; reflexivity).
        rewrite forallb_forall in C. specialize (C (la_sym toks) (in_symbols (la_sym toks) ltac:(lia))). cbn beta in C.
        rewrite Em3 in C. discriminate.
      * exact I.
  - exact I.
Qed.
End Safe.
