(** The invariant of the parser in memory. *)
From Verif Require Import Base Dec StrMap Policy Scanner Lexical Grammar Driver Parser ParserSound ParserRun ParserTop ScannerProofs CreatePolicy
  Memory MemorySpec MemoryInv MemoryAct MemoryRun.
From Coq Require Import ZArith List Ascii Bool Lia ZifyBool ZifyNat Permutation.
Import ListNotations.
Open Scope Z_scope.

(** ** The states on the stack *)

Definition act0 (_ : Z) (_ : list unit) (_ : unit) : res (option (unit * unit)) := Ok (Some (tt, tt)).
Definition skel (st : list (Z * mval)) : list (Z * unit) := map (fun e => (fst e, tt)) st.
Definition chain (st : list (Z * mval)) (ps : list pt) : Prop := stk_ok (fun _ : yylval => tt) act0 tt tt (skel st) ps tt.
Definition ssym (e : Z * mval) : Z := znth yystos (fst e).

Lemma edge_sym : forall s x s', in_states s = true -> 0 <= x < 36 -> edge s x s' = true -> znth yystos s' = x.
Proof.
  intros s x s' Hs Hx E. assert (for_edges (fun s x s' => znth yystos s' =? x) = true) as C by (vm_compute; reflexivity).
  pose proof (for_edges_spec _ s x s' C Hs Hx E) as B. cbn beta in B. lia.
Qed.
Lemma chain_case : forall s v rest ps, chain ((s, v) :: rest) ps ->
  in_states s = true /\ s <> 10 /\
  ((s = 0 /\ rest = [] /\ ps = []) \/
   exists s0 v0 rest0 p ps0, rest = (s0, v0) :: rest0 /\ ps = p :: ps0 /\ chain rest ps0 /\ wf_pt p /\ edge s0 (psym p) s = true /\ znth yystos s = psym p).
Proof.
  intros s v rest ps H. unfold chain, skel in H. cbn [map fst] in H.
  destruct (stk_states _ _ _ _ _ _ _ H) as (s1 & u & r & E & Hs & Hn). injection E as <- <- <-. split; auto. split; auto.
  destruct (stk_inv _ _ _ _ _ _ _ _ _ H) as [(-> & _ & E & -> & _)|(s0 & v1 & st & ps0 & d1 & p & E & -> & A1 & A2 & A3 & A4 & A5 & A6 & A7)].
  - left. destruct rest; [auto|discriminate].
  - right. destruct rest as [|[s2 v2] rest]; [discriminate|]. cbn [map fst] in E. injection E as -> <- <-. exists s0, v2, rest, p, ps0.
    split; auto. split; auto. split; [destruct d1; exact A1|]. split; auto. split; auto. eapply edge_sym; eauto. apply psym_range; auto.
Qed.
Lemma chain_syms : forall st ps, chain st ps -> bottomed st /\ map ssym st = map psym ps ++ [0] /\ Forall (fun e => in_states (fst e) = true) st.
Proof.
  induction st as [|[s v] rest IH]; intros ps H; [inversion H|].
  destruct (chain_case _ _ _ _ H) as (Hs & Hn & [(-> & -> & ->)|(s0 & v0 & rest0 & p & ps0 & -> & -> & K & W & E & Y)]).
  - split; [reflexivity|]. split; [reflexivity|]. constructor; [exact Hs|constructor].
  - destruct (IH _ K) as (B & M & F). split; [exact B|]. split; [|constructor; auto]. cbn [map app]. f_equal; [exact Y|exact M].
Qed.
Lemma chain_push : forall s v rest ps x c y, chain ((s, v) :: rest) ps -> forall s', edge s (yytranslate c) s' = true -> in_states s' = true -> s' <> 10 ->
  chain ((s', x) :: (s, v) :: rest) (PT (c, y) :: ps).
Proof.
  intros s v rest ps x c y H s' E Hs Hn. unfold chain, skel in *. cbn [map fst] in *. eapply stk_push; eauto; reflexivity.
Qed.
Lemma chain_reduce : forall st ps s v rest r, chain st ps -> st = (s, v) :: rest -> 2 <= r <= 28 -> has s r (znth yyr2 r) = true ->
  let n := Z.to_nat (znth yyr2 r) in
  exists s1 v1 below, skipn n st = (s1, v1) :: below /\ chain ((s1, v1) :: below) (skipn n ps) /\
    let s' := goto_state s1 (znth yyr1 r) in
    (forall v', exists ps', chain ((s', v') :: (s1, v1) :: below) ps') /\
    map ssym (rev (firstn n st)) = rhs r /\ znth yystos s' = lhs r /\ edge s1 (lhs r) s' = true /\ in_states s1 = true /\
    (r <= 3 -> s1 = 0 /\ s' = 3).
Proof.
  intros st ps s v rest r H -> Hr Hh n.
  destruct (reduce_inv (fun _ : yylval => tt) act0 tt tt (skel ((s, v) :: rest)) ps tt s tt (skel rest) r H eq_refl Hr Hh) as (s1 & [] & below & [] & A1 & A2 & A). cbn zeta in A.
  destruct A as (A3 & A4 & A5 & A6 & A7 & A8 & A9 & _ & _). fold n in A1, A2, A3, A4, A5, A9.
  unfold skel in A1. rewrite map_skipn in A1.
  destruct (skipn n ((s, v) :: rest)) as [|[s2 v2] below2] eqn:Ek; [discriminate|]. cbn [map fst] in A1. injection A1 as -> <-.
  exists s1, v2, below2. split; auto. split; [exact A2|]. cbv zeta.
  destruct (stk_states _ _ _ _ _ _ _ A2) as (s3 & u3 & r3 & E3 & Hs3 & _). injection E3 as <- _ _.
  rewrite A4 in A5. split.
  { intro v'. exists (PN r (rev (firstn n ps)) :: skipn n ps). unfold chain, skel. cbn [map fst]. apply (stk_push _ _ _ _ s1 tt _ _ tt _ _ tt tt A2 A3); auto.
    rewrite ev_PN, A9. reflexivity. }
  split.
  { destruct (chain_syms _ _ H) as (_ & M & _). rewrite map_rev, <- firstn_map, M.
    destruct A3 as (_ & A3 & _). rewrite <- A3. rewrite map_rev. f_equal. rewrite firstn_app, firstn_map.
    assert (length (rhs r) = n) as Ln. { destruct (rule_ok r ltac:(lia)) as [R1 R2]. unfold n. lia. }
    apply (f_equal (@length Z)) in A3. rewrite map_length, rev_length, Ln, firstn_length in A3.
    rewrite map_length. replace (n - length ps)%nat with O by lia. cbn [firstn]. apply app_nil_r. }
  split; [|auto]. eapply edge_sym; eauto. pose proof (lhs_range r ltac:(lia)). lia.
Qed.

(** ** Sums and permutations *)
Lemma sown_app : forall a b, sown (a ++ b) = sown a ++ sown b.
Proof. intros. unfold sown. apply flat_map_app. Qed.
Lemma sown_rev : forall l, Permutation (sown (rev l)) (sown l).
Proof. intro l. apply Permutation_flat_map. symmetry. apply Permutation_rev. Qed.
Lemma own_all_sown : forall l xs, map ssym l = xs -> own_all xs (map snd l) = sown l.
Proof.
  induction l as [|e l IH]; intros xs <-; [reflexivity|]. cbn [map]. unfold own_all, sown in *. cbn [combine flat_map fst snd]. f_equal. apply IH. reflexivity.
Qed.
Lemma vt_all : forall m l xs, map ssym l = xs -> svt m l -> Forall2 (vt m) xs (map snd l).
Proof. intros m l xs <- H. induction H; constructor; auto. Qed.
Lemma debts_app : forall a b, debts (a ++ b) = (debts a + debts b)%nat.
Proof. induction a as [|x a IH]; intro b; [reflexivity|]. cbn [app debts fold_right]. fold (debts (a ++ b)). fold (debts a). rewrite IH. lia. Qed.
Lemma debts_rev : forall l, debts (rev l) = debts l.
Proof. induction l as [|x l IH]; [reflexivity|]. cbn [rev]. rewrite debts_app, IH. cbn [debts fold_right]. fold (debts l). lia. Qed.

(** ** What holds between the steps *)

Definition rdebt (d : driver) : nat :=
  match dpol d with Some q => match proot q with Some t => below t | None => O end | None => O end.
Definition rooted (d : driver) (root : option nat) : Prop :=
  match root with Some _ => exists q t, dpol d = Some q /\ proot q = Some t | None => dpol d = None end.
(** Rules of attribute lists. *)
Definition attr_rule (r : Z) : bool := (3 <=? r) && (r <=? 5) || (23 <=? r) && (r <=? 28).

Lemma rule2_args : forall m vs, Forall2 (vt m) (rhs 2) vs -> exists w t a, vs = [w; (VTree t, Some a)] /\ debt w = O.
Proof.
  intros m vs F. cbn [rhs] in F. inversion F as [|? w ? ws F1 F2]; subst. inversion F2 as [|? w1 ? ws1 F3 F4]; subst. inversion F4; subst.
  destruct F3 as (t & a & -> & _). exists w, t, a. split; auto. unfold vt in F1. cbn [Z.eqb Pos.eqb] in F1. unfold debt. destruct (fst w); try contradiction; reflexivity.
Qed.
Lemma rule3_pol : forall mk vs d o d', action mk 3 vs d = Ok (Some (o, d')) -> dpol d' = dpol d.
Proof.
  intros mk vs d o d' H. unfold action in H. repeat match type of H with (match ?x with _ => _ end) = _ => is_var x; destruct x; try discriminate end.
  match type of H with context [set_attrlist ?d ?l] => destruct l; cbn [set_attrlist bind] in H; try discriminate end. injection H as _ <-. reflexivity.
Qed.

Section Parse.
Variable mktime : tm -> Z * tm.
Variable b : bool.            (* a policy, not a list *)
Variables own lost k0 : list nat.
Variable T : list tok.        (* the tokens of the text *)

Record good (l : list nat) (st : list (Z * mval)) (la : option (tok * mval)) (toks : list tok) (d : driver) (root : option nat) (m : mem) : Prop := {
  g_k : exists ps, chain st ps;
  g_s : svt m st;
  g_l : lvt m la;
  g_t : Forall tok_mem toks;
  g_in : forall w, In (ERROR, StrVal w) (mtoks la toks) -> In (ERROR, StrVal w) T;
  g_i : inv (lown la ++ sown st ++ olist root ++ own) (lost ++ l) m;
  g_sp : match la with Some (t, _) => spill t l m | None => l = [] end;
  g_r : forall a, root = Some a -> is_node m a;
  g_d : (exists v rest, st = (3, v) :: rest) \/ root = None;
  g_rd : rooted d root;
  g_b : dispolicy d = b;
  g_c : length (kids_of m) = (length k0 + debts (map snd st) + rdebt d)%nat;
  g_a : b = false -> kids_of m = k0 /\ root = None /\ Forall (fun e => In (fst e) (0 :: 3 :: attr_states)) st /\ (forall v rest, st <> (0, v) :: rest) }.

Definition ended (m : mem) (out : res (presult driver) * option nat * mem) : Prop :=
  let '(o, root, m') := out in
  legal (history m') /\ grows m m' /\
  match o with
  | Ok (Accepted d) => inv (olist root ++ own) lost m' /\ (forall a, root = Some a -> is_node m' a) /\ rooted d root /\
      length (kids_of m') = (length k0 + rdebt d)%nat /\ (b = false -> kids_of m' = k0 /\ root = None)
  | Ok (SyntaxError _) | Ok (Aborted _) => root = None /\ exists l, inv own (lost ++ l) m' /\
      (l = [] \/ exists a w, l = [a] /\ In (ERROR, StrVal w) T /\ at_shape m' a = Some CStr) /\ (b = false -> kids_of m' = k0)
  | Throw _ => exists l, inv own (lost ++ l) m'
  | _ => True
  end.

Lemma ended_grows : forall m m' out, grows m m' -> ended m' out -> ended m out.
Proof. intros m m' [[o root] m2] G (L & G2 & H). split; auto. split; auto. eapply grows_trans; eauto. Qed.

Lemma peek_good : forall l s v rest la toks d root m, good l ((s, v) :: rest) la toks d root m ->
  let '(la', toks', m') := peek s la toks m in
  grows m m' /\ (exists l', good l' ((s, v) :: rest) la' toks' d root m') /\
  (la' = None -> (znth yypact s =? yypact_ninf) = true).
Proof.
  intros l s v rest la toks d root m G. unfold peek. destruct (znth yypact s =? yypact_ninf).
  { split; [apply grows_refl|]. split; eauto. }
  destruct la as [[t w]|]. { split; [apply grows_refl|]. split; [eauto|discriminate]. }
  destruct G as [Gk Gs Gl Gt Gin Gi Gsp Gr Gd Grd Gb Gc Ga].
  assert (tok_mem (hd (END, NoVal) toks)) as Tm.
  { destruct toks as [|t toks]; [|inversion Gt; auto]. split; cbn [hd fst snd]; discriminate. }
  pose proof (read_step _ _ _ _ Tm Gi) as R. destruct (read_token (hd (END, NoVal) toks) m) as [v1 m1]. destruct R as (l1 & R1 & R2 & R3 & R4 & R5).
  split; [exact R2|]. split; [|discriminate]. subst l. rewrite app_nil_r in R1. exists l1.
  destruct (hd (END, NoVal) toks) as [c x] eqn:Eh. cbn [fst] in *.
  constructor; auto.
  - eapply svt_grows; eauto.
  - destruct toks; [constructor|inversion Gt; auto].
  - intros w H. apply Gin. cbn [mtoks] in *. destruct toks as [|t toks]; cbn [hd tl] in *; [|subst t; exact H].
    injection Eh as <- <-. destruct H as [H|[]]. discriminate H.
  - intros a Ha. eapply grows_node; eauto.
  - rewrite R3. exact Gc.
  - intro Hb. rewrite R3. auto.
Qed.

(** An error token is never shifted. *)
Lemma error_not_shifted : forall s s', in_states s = true -> move s (yytranslate ERROR) <> Shift s'.
Proof.
  intros s s' Hs E. assert (forallb (fun s => match move s (yytranslate ERROR) with Shift _ => false | _ => true end) states = true) as C by (vm_compute; reflexivity).
  rewrite forallb_forall in C. specialize (C s (proj1 (in_states_In _) Hs)). cbn beta in C. rewrite E in C. discriminate.
Qed.
Lemma attr_shift : forall s x s', In s (3 :: attr_states) -> 0 <= x < 31 -> move s x = Shift s' -> s' <> 10 -> In s' attr_states.
Proof.
  assert (forallb (fun s => forallb (fun x => match move s x with Shift s' => (s' =? 10) || existsb (Z.eqb s') attr_states | _ => true end) (map Z.of_nat (seq 0 31))) (3 :: attr_states) = true) as C by (vm_compute; reflexivity).
  intros s x s' Hs Hx E N. rewrite forallb_forall in C. specialize (C s Hs). rewrite forallb_forall in C. specialize (C x). cbn beta in C. rewrite E in C.
  replace (s' =? 10) with false in C by lia. rewrite orb_false_l in C.
  apply existsb_exists in C as (y & I & Ey); [apply Z.eqb_eq in Ey; subst; exact I|]. apply in_map_iff. exists (Z.to_nat x). split; [lia|]. apply in_seq. lia.
Qed.
Lemma attr_reduce : forall s x r, In s (3 :: attr_states) -> 0 <= x < 31 -> move s x = Reduce r -> attr_rule r = true.
Proof.
  assert (forallb (fun s => forallb (fun x => match move s x with Reduce r => attr_rule r | _ => true end) (map Z.of_nat (seq 0 31))) (3 :: attr_states) = true) as C by (vm_compute; reflexivity).
  intros s x r Hs Hx E. rewrite forallb_forall in C. specialize (C s Hs). rewrite forallb_forall in C. specialize (C x). cbn beta in C. rewrite E in C.
  apply C. apply in_map_iff. exists (Z.to_nat x). split; [lia|]. apply in_seq. lia.
Qed.
Lemma attr_goto : forall s r s', In s (0 :: 3 :: attr_states) -> attr_rule r = true -> edge s (lhs r) s' = true -> In s' (3 :: attr_states).
Proof.
  assert (forallb (fun s => forallb (fun r => if attr_rule r then match succ s (lhs r) with Some s' => existsb (Z.eqb s') (3 :: attr_states) | None => true end else true) (map Z.of_nat (seq 1 28))) (0 :: 3 :: attr_states) = true) as C by (vm_compute; reflexivity).
  intros s r s' Hs Hr E. rewrite forallb_forall in C. specialize (C s Hs). rewrite forallb_forall in C. specialize (C r). cbn beta in C. rewrite Hr in C.
  unfold edge in E. destruct (succ s (lhs r)) as [t|]; [|discriminate]. apply Z.eqb_eq in E. subst t.
  apply existsb_exists in C as (y & I & Ey); [apply Z.eqb_eq in Ey; subst; exact I|]. unfold attr_rule in Hr. apply in_map_iff. exists (Z.to_nat r). split; [lia|]. apply in_seq. lia.
Qed.
Lemma three_shifts : forall x, 0 <= x < 31 -> match move 3 x with Reduce _ => False | _ => True end.
Proof.
  assert (forallb (fun x => match move 3 x with Reduce _ => false | _ => true end) (map Z.of_nat (seq 0 31)) = true) as C by (vm_compute; reflexivity).
  intros x H. rewrite forallb_forall in C. specialize (C x). cbn beta in C. destruct (move 3 x); auto. discriminate C. apply in_map_iff. exists (Z.to_nat x). split; [lia|]. apply in_seq. lia.
Qed.
Lemma la_sym_range : forall la : option (tok * mval), 0 <= match la with Some ((c, _), _) => yytranslate c | None => 0 end < 31.
Proof. intros [[[c x] v]|]; [apply translate_range|lia]. Qed.

Lemma no_edge_zero : forall s x, in_states s = true -> 0 <= x < 36 -> edge s x 0 = true -> False.
Proof.
  intros s x Hs Hx E. assert (for_edges (fun _ _ s' => negb (s' =? 0)) = true) as C by (vm_compute; reflexivity).
  pose proof (for_edges_spec _ s x 0 C Hs Hx E) as B. discriminate B.
Qed.
Lemma three_only : forall s' x, 0 <= x < 31 -> move 3 x = Shift s' -> s' = 10.
Proof.
  assert (forallb (fun x => match move 3 x with Shift s' => s' =? 10 | _ => true end) (map Z.of_nat (seq 0 31)) = true) as C by (vm_compute; reflexivity).
  intros s' x H E. rewrite forallb_forall in C. specialize (C x). cbn beta in C. rewrite E in C. apply Z.eqb_eq. apply C. apply in_map_iff. exists (Z.to_nat x). split; [lia|]. apply in_seq. lia.
Qed.
Lemma debt_plain : forall m x v, vt m x v -> x <> 34 -> debt v = O.
Proof.
  intros m x v V N. unfold vt in V. destruct (x =? 4); [destruct V as (s & a & -> & _); reflexivity|]. destruct (x =? 33); [destruct V as (s & a & -> & _); reflexivity|].
  destruct (x =? 34) eqn:E; [lia|]. destruct (x =? 35); [destruct V as [(s & a & -> & _)| -> ]; reflexivity|]. unfold debt. destruct (fst v); try contradiction; reflexivity.
Qed.

(** Deleting the stack and the token at the end. *)
Lemma finish_step : forall st la rest lst m, bottomed st -> svt m st -> lvt m la -> inv (lown la ++ sown st ++ rest) lst m ->
  inv rest lst (drop_la la (pop_all st m)) /\ same m (drop_la la (pop_all st m)).
Proof.
  intros st la rest lst m B V W I.
  destruct (pop_step st (lown la ++ rest) lst m B V) as [I1 S1].
  { eapply inv_perm; [|exact I]. rewrite !app_assoc. apply Permutation_app_tail. apply Permutation_app_comm. }
  destruct (drop_la_step la rest lst _ (lvt_grows _ _ _ (same_grows _ _ S1) W) I1) as [I2 S2].
  split; [exact I2|eapply same_trans; eauto].
Qed.
Lemma finish_step' : forall st la rest lst m, bottomed st -> svt m st -> lvt m la -> inv (lown la ++ sown st ++ rest) lst m ->
  inv rest lst (pop_all st (drop_la la m)) /\ same m (pop_all st (drop_la la m)).
Proof.
  intros st la rest lst m B V W I.
  destruct (drop_la_step la _ lst _ W I) as [I2 S2].
  destruct (pop_step st rest lst _ B (svt_grows _ _ _ (same_grows _ _ S2) V) I2) as [I1 S1].
  split; [exact I1|eapply same_trans; eauto].
Qed.
Lemma spill_grows : forall t l m m', grows m m' -> spill t l m -> spill t l m'.
Proof. intros t l m m' G [H|(a & s & H1 & H2 & H3)]; [left; auto|right; exists a, s; split; auto; split; auto; eapply grows_at; eauto]. Qed.
Lemma spilled : forall l st la toks d root m m', good l st la toks d root m -> grows m m' ->
  l = [] \/ exists a w, l = [a] /\ In (ERROR, StrVal w) T /\ at_shape m' a = Some CStr.
Proof.
  intros l st la toks d root m m' [Gk Gs Gl Gt Gin Gi Gsp Gr Gd Grd Gb Gc Ga] G. destruct la as [[t v]|]; [|auto].
  destruct Gsp as [H|(a & s & H1 & H2 & H3)]; auto. right. exists a, s. split; auto. split; [apply Gin; left; exact H2|eapply grows_at; eauto].
Qed.

Lemma default_shift : forall s x s', (znth yypact s =? yypact_ninf) = true -> move s x <> Shift s'.
Proof. intros s x s' H E. unfold move in E. rewrite H in E. unfold default_move in E. destruct (znth yydefact s =? 0); discriminate. Qed.
Local Opaque attr_states move goto_state.
Lemma mrun_good : forall f l st la toks d root m, good l st la toks d root m -> ended m (mrun mktime f st la toks d root m).
Proof.
  induction f as [|f IH]; intros l st la toks d root m G.
  { cbn [mrun]. split; [exact (i_legal _ _ _ (g_i _ _ _ _ _ _ _ G))|]. split; [apply grows_refl|exact Logic.I]. }
  destruct (g_k _ _ _ _ _ _ _ G) as (ps & Hk). destruct (chain_syms _ _ Hk) as (Hb & Hsy & Hst).
  destruct st as [|[s v] rest]; [contradiction|].
  destruct (chain_case _ _ _ _ Hk) as (Hs & Hn & _).
  cbn [mrun]. replace (s =? yyfinal) with false by (unfold yyfinal; lia).
  pose proof (peek_good l s v rest la toks d root m G) as P. destruct (peek s la toks m) as [[la1 toks1] m1]. destruct P as (G1 & (l1 & Gd1) & Hnone).
  apply (ended_grows _ _ _ G1). clear G G1 m la toks l. rename la1 into la, toks1 into toks, m1 into m, l1 into l, Gd1 into G.
  pose proof (la_sym_range la) as La.
  set (x := match la with Some ((c, _), _) => yytranslate c | None => 0 end) in *.
  pose proof (move_ok s x Hs ltac:(lia) Hn) as M.
  destruct (move s x) as [s'|r|] eqn:Em.
  - (* shift *)
    destruct la as [[[c y] w]|].
    2: { exfalso. exact (default_shift s x s' (Hnone eq_refl) Em). }
    destruct G as [Gk Gs Gl Gt Gin Gi Gsp Gr Gd Grd Gb Gc Ga].
    assert (l = []) as ->. { destruct Gsp as [E|(a & z & _ & E & _)]; auto. exfalso. injection E as -> ->. exact (error_not_shifted s s' Hs Em). }
    destruct M as [Hs' [(Hx & -> & ->)|(Hx & Hs10 & He)]].
    + (* the end *)
      assert (znth yystos 10 = x) as Y by (rewrite Hx; reflexivity).
      destruct f as [|f]. { split; [exact (i_legal _ _ _ Gi)|]. split; [apply grows_refl|exact Logic.I]. }
      change (mrun mktime (S f) ((10, w) :: (3, v) :: rest) None toks d root m) with ((Ok (Accepted d), root, pop_all ((10, w) :: (3, v) :: rest) (drop_la None m)) : res (presult driver) * option nat * mem).
      destruct (finish_step' ((10, w) :: (3, v) :: rest) None (olist root ++ own) (lost ++ []) m) as [I1 S1].
      * exact Hb.
      * constructor; [|exact Gs]. cbn [fst snd]. rewrite Y. exact Gl.
      * exact Logic.I.
      * change (lown None) with (@nil nat). change (sown ((10, w) :: (3, v) :: rest)) with (own_of (znth yystos 10) w ++ sown ((3, v) :: rest)). rewrite Y. cbn [app]. rewrite <- app_assoc. exact Gi.
      * rewrite app_nil_r in I1. split; [exact (i_legal _ _ _ I1)|]. split; [apply same_grows; exact S1|]. split; [exact I1|]. split; [intros a Ea; eapply grows_node; [apply same_grows; exact S1|auto]|].
        split; [exact Grd|]. rewrite (same_kids _ _ S1). split.
        -- rewrite Gc. cbn [map snd debts fold_right]. 
           assert (debts (map snd ((3, v) :: rest)) = O) as D0; [|cbn [map snd debts fold_right] in D0; rewrite D0; lia].
           (* below state 3 there is only state 0 *)
           destruct (chain_case _ _ _ _ Hk) as (_ & _ & [(E & _)|(s0 & v0 & rest0 & p & ps0 & -> & -> & K & W & Ed & Y3)]); [discriminate|].
           destruct (chain_case _ _ _ _ K) as (Hs0 & _ & C0).
           destruct (three s0 (psym p) 3 Hs0 (psym_range p W) Ed) as [Q _]. destruct (Q eq_refl) as [-> _].
           assert (rest0 = []) as ->.
           { destruct C0 as [(_ & E & _)|(s2 & v2 & rest2 & p2 & ps2 & -> & _ & K2 & W2 & E2 & _)]; auto. exfalso.
             destruct (chain_case _ _ _ _ K2) as (Hs2 & _). exact (no_edge_zero _ _ Hs2 (psym_range p2 W2) E2). }
           inversion Gs as [|? ? V1 V2]; subst. inversion V2 as [|? ? V3 _]; subst. cbn [fst snd] in V1, V3.
           cbn [map snd debts fold_right]. rewrite (debt_plain _ _ _ V1), (debt_plain _ _ _ V3) by discriminate. reflexivity.
        -- intro Hbf. destruct (Ga Hbf) as (A1 & A2 & _). auto.
    + apply (IH []).
      assert (znth yystos s' = x) as Y by exact (edge_sym s x s' Hs ltac:(lia) He).
      constructor; auto.
      * exists (PT (c, y) :: ps). apply chain_push; auto.
      * constructor; [|exact Gs]. cbn [fst snd]. rewrite Y. exact Gl.
      * exact Logic.I.
      * intros z Hz. apply Gin. right. exact Hz.
      * change (lown None) with (@nil nat). change (sown ((s', w) :: (s, v) :: rest)) with (own_of (znth yystos s') w ++ sown ((s, v) :: rest)). rewrite Y. cbn [app]. rewrite <- app_assoc. exact Gi.
      * right. destruct Gd as [(v1 & r1 & E)|E]; auto. injection E as -> _ _. exfalso. exact (Hs10 (three_only s' x La Em)).
      * rewrite Gc. change (debts (map snd ((s', w) :: (s, v) :: rest))) with (debt w + debts (map snd ((s, v) :: rest)))%nat. rewrite (debt_plain _ _ _ Gl); [lia|]. fold x. lia.
      * intro Hbf. destruct (Ga Hbf) as (A1 & A2 & A3 & A4). split; auto. split; auto. split.
        -- constructor; [|exact A3]. cbn [fst]. right. right. apply (attr_shift s x); auto. inversion A3 as [|? ? [E|B1] _]; subst; auto. cbn [fst] in E. subst s. exfalso. exact (A4 _ _ eq_refl).
        -- intros v1 r1 E. injection E as -> _ _. exact (no_edge_zero s x Hs ltac:(lia) He).
  - (* reduce *)
    destruct M as [Hr Hh]. pose proof G as [Gk Gs Gl Gt Gin Gi Gsp Gr Gd Grd Gb Gc Ga].
    assert (root = None) as R0. { destruct Gd as [(v1 & r1 & E)|E]; auto. injection E as -> _ _. pose proof (three_shifts x La) as Q. rewrite Em in Q. contradiction. }
    assert (dpol d = None) as D0 by (unfold rooted in Grd; rewrite R0 in Grd; exact Grd).
    destruct (chain_reduce _ _ s v rest r Hk eq_refl Hr Hh) as (s1 & v1 & below0 & E1 & K1 & C). cbn zeta in C. destruct C as (K2 & Sy & Y & Ed & Hs1 & R3).
    set (n := Z.to_nat (znth yyr2 r)) in *. rewrite E1. set (st := (s, v) :: rest) in *.
    assert (st = firstn n st ++ (s1, v1) :: below0) as Es by (rewrite <- E1; symmetry; apply firstn_skipn).
    set (pop := rev (firstn n st)) in *.
    assert (svt m (firstn n st) /\ svt m ((s1, v1) :: below0)) as [Vf Vb]. { rewrite Es in Gs. apply Forall_app in Gs. exact Gs. }
    assert (svt m pop) as Vp by (apply Forall_rev; exact Vf).
    assert (own_all (rhs r) (map snd pop) = sown pop) as Op by (apply own_all_sown; exact Sy).
    assert (inv (own_all (rhs r) (map snd pop) ++ olist root ++ (lown la ++ sown ((s1, v1) :: below0) ++ own)) (lost ++ l) m) as I1.
    { eapply inv_perm; [|exact Gi]. rewrite Op, Es at 1. rewrite sown_app. unfold pop. rewrite (sown_rev (firstn n st)).
      rewrite R0. cbn [olist app]. rewrite <- !app_assoc. apply Permutation_app_swap_app. }
    pose proof (maction_step mktime r (map snd pop) d root _ _ m Hr (vt_all _ _ _ Sy Vp) I1 Gr) as A.
    assert (debts (map snd st) = debts (map snd pop) + debts (map snd ((s1, v1) :: below0)))%nat as Db.
    { rewrite Es at 1. rewrite map_app, debts_app. unfold pop. rewrite map_rev, debts_rev. reflexivity. }
    destruct (maction mktime r (map snd pop) d root m) as [[o root'] m']. destruct A as (L1 & G1 & A).
    apply (ended_grows _ _ _ G1).
    destruct o as [[[v' d']|]|e| | |].
    + (* go on *)
      destruct A as (A1 & A2 & A3 & A4 & A5 & A6 & A7 & A8).
      apply (IH l). constructor.
      * destruct (K2 v') as (ps' & K). exists ps'. exact K.
      * constructor; [cbn [fst snd]; rewrite Y; exact A2|]. eapply svt_grows; eauto.
      * eapply lvt_grows; eauto.
      * exact Gt.
      * exact Gin.
      * eapply inv_perm; [|exact A3]. change (sown ((goto_state s1 (znth yyr1 r), v') :: (s1, v1) :: below0)) with (own_of (znth yystos (goto_state s1 (znth yyr1 r))) v' ++ sown ((s1, v1) :: below0)).
        rewrite Y. rewrite <- !app_assoc.
        transitivity (own_of (lhs r) v' ++ lown la ++ olist root' ++ sown ((s1, v1) :: below0) ++ own); [apply Permutation_app_head; apply Permutation_app_swap_app|].
        rewrite Permutation_app_swap_app. do 2 apply Permutation_app_head. apply Permutation_app_swap_app.
      * destruct la as [[t w]|]; [|exact Gsp]. eapply spill_grows; eauto.
      * exact A4.
      * destruct (Z.eq_dec r 2) as [->|N2]; [|right; rewrite (A5 N2); exact R0]. destruct (R3 ltac:(lia)) as [_ ->]. left. eauto.
      * destruct (Z.eq_dec r 2) as [->|N2].
        -- destruct (A6 eq_refl) as ((t & a & E & ->) & _). cbn [rooted].
           destruct (rule2_args _ _ (vt_all _ _ _ Sy Vp)) as (w0 & t1 & a1 & E2 & _). rewrite E2 in A1. cbn [map fst action] in A1. injection A1 as _ <-. eexists _, t1. split; reflexivity.
        -- rewrite (A5 N2), R0. cbn [rooted]. destruct (Z.eq_dec r 3) as [->|N3].
           ++ rewrite (rule3_pol _ _ _ _ _ A1). exact D0.
           ++ pose proof (action_keeps mktime r (map fst (map snd pop)) d N2 N3) as Q. rewrite A1 in Q. destruct Q as (_ & -> & _). exact D0.
      * rewrite (action_dispolicy mktime _ _ _ _ _ A1). exact Gb.
      * change (debts (map snd ((goto_state s1 (znth yyr1 r), v') :: (s1, v1) :: below0))) with (debt v' + debts (map snd ((s1, v1) :: below0)))%nat.
        assert (rdebt d = O) as Rd by (unfold rdebt; rewrite D0; reflexivity).
        destruct (Z.eq_dec r 2) as [->|N2].
        -- destruct (A6 eq_refl) as (_ & Ek). destruct (rule2_args _ _ (vt_all _ _ _ Sy Vp)) as (w0 & t1 & a1 & E2 & Dw).
           rewrite (debt_plain _ _ _ A2) by discriminate. rewrite Ek, Gc, Db, Rd, E2. cbn [debts fold_right debt fst]. rewrite Dw.
           rewrite E2 in A1. cbn [map fst action] in A1. injection A1 as _ <-. change (rdebt (set_policy d t1)) with (below t1). lia.
        -- specialize (A7 N2). assert (rdebt d' = O) as Rd'.
           { unfold rdebt. assert (dpol d' = None) as ->; [|reflexivity]. destruct (Z.eq_dec r 3) as [->|N3]; [rewrite (rule3_pol _ _ _ _ _ A1); exact D0|].
             pose proof (action_keeps mktime r (map fst (map snd pop)) d N2 N3) as Q. rewrite A1 in Q. destruct Q as (_ & -> & _). exact D0. }
           lia.
      * intro Hbf. destruct (Ga Hbf) as (B1 & B2 & B3 & B4).
        assert (In s (3 :: attr_states)) as Is by (inversion B3 as [|? ? [E|Q] _]; subst; auto; cbn [fst] in E; subst s; exfalso; exact (B4 _ _ eq_refl)).
        pose proof (attr_reduce s x r Is La Em) as Ar.
        assert (Forall (fun e => In (fst e) (0 :: 3 :: attr_states)) ((s1, v1) :: below0)) as B5 by (rewrite Es in B3; apply Forall_app in B3; apply B3).
        assert (In s1 (0 :: 3 :: attr_states)) as Is1 by (inversion B5; auto).
        split; [rewrite A8 by (unfold attr_rule in Ar; lia); exact B1|]. split; [rewrite A5 by (unfold attr_rule in Ar; lia); exact B2|].
        split; [constructor; [right; apply (attr_goto s1 r); auto|exact B5]|].
        intros w0 r0 E. injection E as E _ _. rewrite E in Ed. pose proof (lhs_range r ltac:(lia)). exact (no_edge_zero s1 (lhs r) Hs1 ltac:(lia) Ed).
    + (* aborted *)
      destruct A as (A1 & A2 & A3 & A4 & A5). rewrite R0 in A4. cbn [olist app] in A4.
      destruct (chain_syms _ _ K1) as (B1 & _).
      destruct (finish_step ((s1, v1) :: below0) la own (lost ++ l) m' B1 (svt_grows _ _ _ G1 Vb) (lvt_grows _ _ _ G1 Gl) A4) as [I2 S2].
      split; [exact (i_legal _ _ _ I2)|]. split; [apply same_grows; exact S2|]. split; [congruence|]. exists l. split; [exact I2|].
      split; [eapply spilled; [exact G|]; eapply grows_trans; [exact G1|apply same_grows; exact S2]|].
      intro Hbf. rewrite (same_kids _ _ S2), A5. apply (Ga Hbf).
    + (* thrown *)
      destruct A as (A1 & A2 & (l2 & A3) & A4).
      destruct (finish_step' st la (olist root ++ own) ((lost ++ l) ++ l2) m' Hb (svt_grows _ _ _ G1 Gs) (lvt_grows _ _ _ G1 Gl)) as [I2 S2].
      { eapply inv_perm; [|exact A3]. rewrite Op, Es at 1. rewrite sown_app. unfold pop. rewrite (sown_rev (firstn n st)).
        rewrite R0. cbn [olist app]. rewrite <- !app_assoc. apply Permutation_app_swap_app. }
      split; [exact (i_legal _ _ _ I2)|]. split; [apply same_grows; exact S2|]. exists (l ++ l2). rewrite app_assoc. rewrite R0 in I2. exact I2.
    + split; [exact L1|]. split; [apply grows_refl|exact Logic.I].
    + split; [exact L1|]. split; [apply grows_refl|exact Logic.I].
    + split; [exact L1|]. split; [apply grows_refl|exact Logic.I].
  - (* syntax error *)
    pose proof G as [Gk Gs Gl Gt Gin Gi Gsp Gr Gd Grd Gb Gc Ga].
    assert (exists m1, error_root d root m = (None, m1) /\ inv (lown la ++ sown ((s, v) :: rest) ++ own) (lost ++ l) m1 /\ same m m1) as (m1 & -> & I1 & S1).
    { unfold error_root. rewrite Gb. destruct b eqn:Eb.
      - destruct root as [a|]; [|exists m; split; auto; split; [exact Gi|apply same_refl]]. eexists. split; [reflexivity|].
        apply inv_delete; auto. eapply inv_perm; [|exact Gi]. cbn [olist app]. rewrite app_assoc, (app_assoc (lown la)). symmetry. apply Permutation_middle.
      - destruct (Ga eq_refl) as (_ & -> & _). exists m. split; auto. split; [exact Gi|apply same_refl]. }
    destruct (finish_step ((s, v) :: rest) la own (lost ++ l) m1 Hb (svt_grows _ _ _ (same_grows _ _ S1) Gs) (lvt_grows _ _ _ (same_grows _ _ S1) Gl) I1) as [I2 S2].
    pose proof (same_trans _ _ _ S1 S2) as S3.
    split; [exact (i_legal _ _ _ I2)|]. split; [apply same_grows; exact S3|]. split; [reflexivity|]. exists l. split; [exact I2|].
    split; [eapply spilled; [exact G|]; apply same_grows; exact S3|].
    intro Hbf. rewrite (same_kids _ _ S3). apply (Ga Hbf).
Qed.
End Parse.
