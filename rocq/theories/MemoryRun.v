(** The parser in memory: the values are those of [run]; every object it makes
    is deleted once, kept by the policy, or a node of a tree. *)
From Verif Require Import Base Dec StrMap Policy Scanner Lexical Grammar Driver Parser ParserSound ParserRun ParserTop ScannerProofs CreatePolicy
  Memory MemorySpec MemoryInv MemoryAct.
From Coq Require Import ZArith List Ascii Bool Lia ZifyBool ZifyNat Permutation.
Import ListNotations.
Open Scope Z_scope.

(** ** The same values as [run] *)

Definition vproj (st : list (Z * mval)) : list (Z * sval) := map (fun e => (fst e, fst (snd e))) st.
Definition mtoks (la : option (tok * mval)) (toks : list tok) : list tok := match la with Some (t, _) => t :: toks | None => toks end.

Lemma run_end : forall V D inj act f st d, @run V D inj act f st [(END, NoVal)] d = run inj act f st [] d.
Proof.
  intros V D inj act. induction f as [|f IH]; intros st d; cbn [run]; auto.
  destruct st as [|[s v] rest]; auto. destruct (s =? yyfinal); auto.
  change (la_sym [(END, NoVal)]) with (la_sym []). destruct (move s (la_sym [])); auto.
  destruct (skipn _ _) as [|[s0 v0] below]; auto. destruct (act _ _ _) as [[[v1 d1]|]| | | |]; cbn [bind]; auto.
Qed.
Lemma move_default : forall s x y, (znth yypact s =? yypact_ninf) = true -> move s x = move s y.
Proof. intros s x y H. unfold move. rewrite H. reflexivity. Qed.
Lemma map_skipn : forall {A B} (f : A -> B) n l, skipn n (map f l) = map f (skipn n l).
Proof. intros A B f n. induction n as [|n IH]; intros [|x l]; cbn; auto. Qed.
Lemma vproj_skipn : forall n st, skipn n (vproj st) = vproj (skipn n st).
Proof. intros. apply map_skipn. Qed.
Lemma maction_fst : forall mk r vs d root m, let o := fst (fst (maction mk r vs d root m)) in
  match action mk r (map fst vs) d with
  | Ok (Some (out, d')) => exists p, o = Ok (Some ((out, p), d'))
  | Ok None => o = Ok None | Throw e => o = Throw e | UB => o = UB | Exit => o = Exit | NoFuel => o = NoFuel
  end.
Proof.
  intros mk r vs d root m. unfold maction. destruct (plan r) as [[[reads month] k] dels].
  destruct (if month then _ else _) as [mo m1]. destruct (action mk r (map fst vs) d) as [[[out d']|]| | | |]; cbn [fst]; auto.
  destruct (make _ _ _ _ _) as [[p root'] m3]. exists p. reflexivity.
Qed.

Lemma mrun_values : forall mk f st la toks d root m, (forall t v, la = Some (t, v) -> fst v = VTok (snd t)) ->
  fst (fst (mrun mk f st la toks d root m)) = run VTok (action mk) f (vproj st) (mtoks la toks) d.
Proof.
  intro mk. induction f as [|f IH]; intros st la toks d root m Hl; [reflexivity|]. cbn [mrun run].
  destruct st as [|[s v] rest]; [reflexivity|]. cbn [vproj map fst snd]. destruct (s =? yyfinal); [reflexivity|].
  assert (exists la1 toks1 m1, peek s la toks m = (la1, toks1, m1) /\ (forall t v, la1 = Some (t, v) -> fst v = VTok (snd t)) /\
    (forall g st' d', run VTok (action mk) g st' (mtoks la1 toks1) d' = run VTok (action mk) g st' (mtoks la toks) d') /\
    move s (match la1 with Some ((c, _), _) => yytranslate c | None => 0 end) = move s (la_sym (mtoks la toks)) /\
    (forall s', move s (la_sym (mtoks la toks)) = Shift s' -> exists t v, la1 = Some (t, v) /\ snd t = la_val (mtoks la toks) /\ toks1 = tl (mtoks la toks)))
    as (la1 & toks1 & m1 & -> & H1 & H2 & H3 & H4).
  { unfold peek. destruct (znth yypact s =? yypact_ninf) eqn:Ed.
    - exists la, toks, m. split; auto. split; auto. split; auto. split; [apply move_default; exact Ed|].
      intros s' Hm. unfold move in Hm. rewrite Ed in Hm. unfold default_move in Hm. destruct (znth yydefact s =? 0); discriminate.
    - destruct la as [[t w]|].
      + exists (Some (t, w)), toks, m. split; auto. split; auto. split; auto. destruct t as [c x]. split; [reflexivity|]. intros s' _. exists (c, x), w. auto.
      + unfold read_token. destruct (hd (END, NoVal) toks) as [c x] eqn:Eh. cbn [fst snd].
        assert (forall (v1 : mval) (m1 : mem), fst v1 = VTok x -> exists la1 toks1 m2, (Some ((c, x), v1), tl toks, m1) = (la1, toks1, m2) /\ (forall t v, la1 = Some (t, v) -> fst v = VTok (snd t)) /\
          (forall g st' d', run VTok (action mk) g st' (mtoks la1 toks1) d' = run VTok (action mk) g st' (mtoks None toks) d') /\
          move s (match la1 with Some ((c, _), _) => yytranslate c | None => 0 end) = move s (la_sym (mtoks None toks)) /\
          (forall s', move s (la_sym (mtoks None toks)) = Shift s' -> exists t v, la1 = Some (t, v) /\ snd t = la_val (mtoks None toks) /\ toks1 = tl (mtoks None toks))) as Q.
        { intros v1 m1 E1. exists (Some ((c, x), v1)), (tl toks), m1. split; auto. split; [intros t w E; injection E as <- <-; exact E1|].
          destruct toks as [|t0 toks0]; cbn [hd tl mtoks] in *.
          - injection Eh as <- <-. split; [intros; apply run_end|]. split; [reflexivity|]. intros s' _. exists (END, NoVal), v1. auto.
          - subst t0. split; auto. split; [reflexivity|]. intros s' _. exists (c, x), v1. auto. }
        destruct x as [|sx|n]; [| |]; try (destruct (alloc CStr m) as [a0 m0]); [destruct (existsb _ _)|apply Q; reflexivity|destruct (existsb _ _)];
          try (destruct (alloc CStr m) as [a1 m2]); apply Q; reflexivity. }
  rewrite <- H3. destruct (move s _) as [s'|r|] eqn:Em.
  - destruct (H4 s' (eq_sym H3)) as (t & w & -> & E1 & E2). rewrite IH; [|discriminate]. cbn [vproj map fst snd mtoks]. rewrite (H1 _ _ eq_refl), E1, E2. reflexivity.
  - change ((s, fst v) :: map (fun e => (fst e, fst (snd e))) rest) with (vproj ((s, v) :: rest)). rewrite vproj_skipn.
    destruct (skipn (Z.to_nat (znth yyr2 r)) ((s, v) :: rest)) as [|[s0 v0] below]; [reflexivity|].
    change (vproj ((s0, v0) :: below)) with ((s0, fst v0) :: vproj below). cbn beta iota.
    set (vs := map snd (rev (firstn (Z.to_nat (znth yyr2 r)) ((s, v) :: rest)))).
    assert (map snd (rev (firstn (Z.to_nat (znth yyr2 r)) (vproj ((s, v) :: rest)))) = map fst vs) as ->.
    { unfold vproj, vs. rewrite firstn_map, <- map_rev, !map_map. reflexivity. }
    pose proof (maction_fst mk r vs d root m1) as Ef. destruct (maction mk r vs d root m1) as [[o root'] m']. cbn [fst] in Ef.
    destruct (action mk r (map fst vs) d) as [[[out d']|]| | | |]; cbn [bind]; cbv zeta in Ef; try (subst o; reflexivity).
    destruct Ef as (p & ->). rewrite IH by exact H1. apply H2.
  - destruct (error_root d root m1). reflexivity.
Qed.

(** ** Deleting values *)

Definition sown (st : list (Z * mval)) : list nat := flat_map (fun e => own_of (znth yystos (fst e)) (snd e)) st.
Definition lown (la : option (tok * mval)) : list nat := match la with Some ((c, _), v) => own_of (yytranslate c) v | None => [] end.
Definition svt (m : mem) (st : list (Z * mval)) : Prop := Forall (fun e => vt m (znth yystos (fst e)) (snd e)) st.
Definition lvt (m : mem) (la : option (tok * mval)) : Prop := match la with Some ((c, _), v) => vt m (yytranslate c) v | None => True end.
Lemma svt_grows : forall m m' st, grows m m' -> svt m st -> svt m' st.
Proof. intros m m' st G H. eapply Forall_impl; [|exact H]. cbn. intros e He. eapply vt_grows; eauto. Qed.
Lemma lvt_grows : forall m m' la, grows m m' -> lvt m la -> lvt m' la.
Proof. intros m m' [[[c x] v]|] G H; [eapply vt_grows; eauto|exact H]. Qed.

Lemma destroy_step : forall x v own lost m, vt m x v -> inv (own_of x v ++ own) lost m ->
  inv own lost (destroy x v m) /\ same m (destroy x v m).
Proof.
  intros x v own lost m V I. unfold vt in V. unfold own_of, owns in I. unfold destroy.
  destruct (x =? 4) eqn:E4.
  { destruct V as (s & a & -> & A). cbn [fst snd orb olist app] in *. rewrite delete_cell_eq by (cbn; auto). split; [apply inv_del; exact I|apply same_emit]. }
  destruct (x =? 33) eqn:E33.
  { destruct V as (s & a & -> & A). cbn [fst snd orb olist app] in *. rewrite delete_cell_eq by (cbn; auto). split; [apply inv_del; exact I|apply same_emit]. }
  destruct (x =? 34) eqn:E34.
  { destruct V as (s & a & -> & A). cbn [fst snd orb olist app] in *. apply inv_delete; auto. }
  destruct (x =? 35) eqn:E35.
  { destruct V as [(s & a & -> & A)| -> ]; cbn [fst snd orb olist app] in *.
    - rewrite delete_cell_eq by (cbn; auto). split; [apply inv_del; exact I|apply same_emit].
    - split; [exact I|apply same_refl]. }
  cbn [orb] in I. split; [exact I|apply same_refl].
Qed.
Fixpoint bottomed (st : list (Z * mval)) : Prop := match st with [] => False | [e] => fst e = 0 | _ :: r => bottomed r end.
Lemma pop_step : forall st own lost m, bottomed st -> svt m st -> inv (sown st ++ own) lost m ->
  inv own lost (pop_all st m) /\ same m (pop_all st m).
Proof.
  induction st as [|[s v] st IH]; intros own lost m B V I; [contradiction|].
  destruct st as [|e st].
  - cbn in B. subst s. split; [exact I|apply same_refl].
  - change (pop_all ((s, v) :: e :: st) m) with (pop_all (e :: st) (destroy (znth yystos s) v m)).
    inversion V as [|? ? V1 V2]; subst. cbn [fst snd] in V1.
    change (sown ((s, v) :: e :: st)) with (own_of (znth yystos s) v ++ sown (e :: st)) in I. rewrite <- app_assoc in I.
    destruct (destroy_step _ _ _ _ _ V1 I) as [I1 S1].
    destruct (IH own lost (destroy (znth yystos s) v m) B) as [I2 S2]; [eapply svt_grows; [apply same_grows; exact S1|exact V2]|exact I1|].
    split; [exact I2|eapply same_trans; eauto].
Qed.
Lemma drop_la_step : forall la own lost m, lvt m la -> inv (lown la ++ own) lost m ->
  inv own lost (drop_la la m) /\ same m (drop_la la m).
Proof. intros [[[c x] v]|] own lost m V I; [apply destroy_step; auto|split; [exact I|apply same_refl]]. Qed.

(** ** Reading a token *)

(** What the scanner gives: names have a string, and only they and reserved words do. *)
Definition tok_mem (t : tok) : Prop :=
  (fst t = LEAF -> exists s, snd t = StrVal s) /\ (forall s, snd t = StrVal s -> fst t = LEAF \/ fst t = ERROR).
(** The string of a reserved word is lost. *)
Definition spill (t : tok) (l : list nat) (m : mem) : Prop :=
  l = [] \/ exists a s, l = [a] /\ t = (ERROR, StrVal s) /\ at_shape m a = Some CStr.
Lemma leaf_code : forall c, yytranslate c = 4 <-> c = LEAF.
Proof.
  intro c. split; intro H; [|subst; reflexivity]. rewrite (translate_inv c); rewrite H; [reflexivity|discriminate].
Qed.
Lemma vt_plain : forall m x w p, x <> 4 -> 0 <= x < 31 -> vt m x (VTok w, p).
Proof.
  intros m x w p H R. unfold vt. replace (x =? 4) with false by lia. replace (x =? 33) with false by lia. replace (x =? 34) with false by lia. replace (x =? 35) with false by lia. exact Logic.I.
Qed.
Lemma own_plain : forall x v, x <> 4 -> 0 <= x < 31 -> own_of x v = [].
Proof. intros x v H R. unfold own_of, owns. replace (x =? 4) with false by lia. replace (x =? 33) with false by lia. replace (x =? 34) with false by lia. replace (x =? 35) with false by lia. reflexivity. Qed.
Lemma read_step : forall t own lost m, tok_mem t -> inv own lost m ->
  let '(v, m') := read_token t m in
  exists l, inv (own_of (yytranslate (fst t)) v ++ own) (lost ++ l) m' /\ grows m m' /\ kids_of m' = kids_of m /\
    vt m' (yytranslate (fst t)) v /\ spill t l m'.
Proof.
  intros [c x] own lost m [T1 T2] I. unfold read_token. cbn [fst snd] in *. pose proof (translate_range c) as R.
  pose proof (inv_alloc0 CStr own lost m I Logic.I) as I1. pose proof (at_alloc CStr m) as A1. pose proof (grows_alloc CStr m) as G1.
  pose proof (kids_alloc CStr m) as K1. rewrite app_nil_r in K1.
  assert (x = NoVal \/ (exists n, x = UIntVal n) -> 
    let '(v, m') := (if existsb (Z.eqb c) [OR; AND; EQ; LEQ; GEQ; START_POLICY; START_ATTRLIST; IN]
      then let '(a, m') := alloc CStr m in ((VTok x, None), emit (Del a) m') else ((VTok x, None), m)) in
    exists l, inv (own_of (yytranslate c) v ++ own) (lost ++ l) m' /\ grows m m' /\ kids_of m' = kids_of m /\ vt m' (yytranslate c) v /\ spill (c, x) l m') as Q.
  { intro Hx. assert (yytranslate c <> 4) as N4. { intro E. apply leaf_code in E. destruct (T1 E) as (s & Es). destruct Hx as [-> |(n & ->)]; discriminate. }
    destruct (existsb _ _).
    - unfold alloc in *. cbn [fst snd] in *. exists []. rewrite app_nil_r, own_plain by auto. split; [apply inv_del; exact I1|]. split; [eapply grows_trans; [exact G1|apply same_grows, same_emit]|].
      split; [exact K1|]. split; [apply vt_plain; auto|left; reflexivity].
    - exists []. rewrite app_nil_r, own_plain by auto. split; [exact I|]. split; [apply grows_refl|]. split; [reflexivity|]. split; [apply vt_plain; auto|left; reflexivity]. }
  destruct x as [|s|n]; [apply Q; auto| |apply Q; eauto]. clear Q.
  unfold alloc in *. cbn [fst snd] in *. destruct (Z.eq_dec c LEAF) as [->|Nc].
  - exists []. rewrite app_nil_r. split; [exact I1|]. split; [exact G1|]. split; [exact K1|]. split; [|left; reflexivity].
    exists s, (length (cells m)). split; [reflexivity|exact A1].
  - destruct (T2 s eq_refl) as [->| ->]; [congruence|]. exists [length (cells m)].
    assert (yytranslate ERROR <> 4) as N4 by (intro E; apply leaf_code in E; discriminate E).
    rewrite own_plain by auto. split; [apply inv_lose; exact I1|]. split; [exact G1|]. split; [exact K1|]. split; [apply vt_plain; auto|].
    right. exists (length (cells m)), s. auto.
Qed.

(** Where the strings of the tokens come from. *)
Definition from_text (s : str) (t : tok) : Prop :=
  (fst t = LEAF -> exists w, snd t = StrVal w) /\
  (forall w, snd t = StrVal w -> (fst t = LEAF \/ fst t = ERROR /\ contains EXPINT_KEYWORD w = true) /\ exists a b, s = a ++ w ++ b).
Lemma from_plain : forall s c, c <> LEAF -> from_text s (c, NoVal).
Proof. intros s c H. split; cbn [fst snd]; [congruence|discriminate]. Qed.
Lemma from_tail : forall a s t, from_text s t -> from_text (a ++ s) t.
Proof.
  intros a s t [H1 H2]. split; auto. intros w Hw. destruct (H2 w Hw) as [H3 (x & y & ->)]. split; auto. exists (a ++ x), y. rewrite <- !app_assoc. reflexivity.
Qed.
Lemma from_word : forall w r, from_text (w ++ r) (rule_word w).
Proof.
  intros w r. unfold rule_word. repeat match goal with |- context [if ?b then _ else _] => destruct b eqn:?; [try (apply from_plain; discriminate)|] end.
  - split; [discriminate|]. intros v E. injection E as <-. split; [right; auto|]. exists [], r. reflexivity.
  - split; [intros _; eexists; reflexivity|]. intros v E. injection E as <-. split; [left; reflexivity|]. exists [], r. reflexivity.
Qed.
Lemma lex_from : forall s, Forall (from_text s) (lex s).
Proof.
  intro s. remember (length s) as n eqn:En. revert s En.
  induction n as [n IH] using (well_founded_induction lt_wf). intros [|c u] En; [constructor|]. subst n.
  pose proof (first_rest c u) as Lr. rewrite lex_step.
  pose proof (first_app c u) as Fa.
  apply Forall_app. split.
  2: { eapply Forall_impl; [|apply (IH (length (snd (first c u)))); auto; cbn [length]; lia]. intros t Ht. rewrite <- Fa. apply from_tail. exact Ht. }
  assert (forall t, from_text [] t -> from_text (c :: u) t) as Q by (intros t Ht; rewrite <- (app_nil_r (c :: u)); apply from_tail; exact Ht).
  revert Fa. unfold first.
  destruct (Ascii.eqb c newline). { intros _. constructor; [apply from_plain; discriminate|constructor]. }
  destruct (blank c). { constructor. }
  destruct (name_start c). { intro Fa. constructor; [|constructor]. cbn [fst snd] in *. rewrite <- Fa. apply from_word. }
  destruct (is_digit c).
  { intros _. constructor; [|constructor]. cbn [fst snd]. unfold rule_uint. destruct (negb _); [apply from_plain; discriminate|]. destruct (_ =? 0); [apply from_plain; discriminate|].
    split; cbn [fst snd]; [discriminate|discriminate]. }
  destruct (op_char c && next_is is_eq u).
  { intros _. constructor; [|constructor]. cbn [fst snd]. unfold rule_op. repeat match goal with |- context [if ?b then _ else _] => destruct b end; apply from_plain; discriminate. }
  intros _. constructor; [|constructor]. cbn [fst snd rule_char]. apply from_plain. pose proof (b2z_range c). unfold LEAF. destruct (b2z c <? 128); lia.
Qed.
Lemma lex_mem : forall s, Forall tok_mem (lex s).
Proof.
  intro s. eapply Forall_impl; [|apply lex_from]. intros t [H1 H2]. split; auto. intros w Hw. destruct (H2 w Hw) as [[H|[H _]] _]; auto.
Qed.
Lemma is_prefix_app : forall p s r, is_prefix p s = true -> is_prefix p (s ++ r) = true.
Proof. induction p as [|x p IH]; intros [|y s] r H; cbn in *; auto; try discriminate. apply andb_prop in H as [H1 H2]. rewrite H1. apply IH. exact H2. Qed.
Lemma contains_app : forall p a s r, contains p s = true -> contains p (a ++ s ++ r) = true.
Proof.
  intros p a s r H. induction a as [|x a IH].
  - cbn [app]. induction s as [|y s IHs]; cbn [app contains] in *.
    + rewrite orb_false_r in H. pose proof (is_prefix_app _ _ r H) as P. destruct r; cbn [contains app] in *; rewrite P; reflexivity.
    + apply orb_prop in H as [H|H]; [pose proof (is_prefix_app _ _ r H) as P; cbn [app] in P; rewrite P; reflexivity|rewrite (IHs H); apply orb_true_r].
  - cbn [app contains]. rewrite IH. apply orb_true_r.
Qed.
Lemma no_reserved : forall s w, contains EXPINT_KEYWORD s = false -> ~ In (ERROR, StrVal w) (lex s).
Proof.
  intros s w H I. pose proof (lex_from s) as F. rewrite Forall_forall in F. destruct (F _ I) as [_ F2]. destruct (F2 w eq_refl) as [[E|[_ C]] (a & b & ->)]; [discriminate E|].
  rewrite contains_app in H; [discriminate|exact C].
Qed.
