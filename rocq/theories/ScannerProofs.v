(** The scanner tables implement the lexical conventions of Lexical.v. *)
From Verif Require Import Base Dec Scanner PolicySyntax Lexical ParserTop.
From Coq Require Import ZArith List Ascii Bool Lia ZifyBool ZifyNat.
Import ListNotations.
Open Scope Z_scope.

Definition all_bytes : list ascii := map z2b (map Z.of_nat (seq 0 256)).
Lemma all_bytes_in : forall c, In c all_bytes.
Proof.
  intro c. apply in_map_iff. exists (b2z c). split; [apply z2b_b2z|]. pose proof (b2z_range c).
  apply in_map_iff. exists (Z.to_nat (b2z c)). split; [lia|]. apply in_seq. lia.
Qed.
Lemma by_bytes : forall f, forallb f all_bytes = true -> forall c : ascii, f c = true.
Proof. intros f H c. rewrite forallb_forall in H. apply H, all_bytes_in. Qed.

Definition op_char (c : ascii) : bool := mem c (L "<>=").
(** The automaton of zscanner.ll. *)
Definition spec_trans (s : Z) (c : ascii) : Z :=
  match s with
  | 1 => if Ascii.eqb c newline then 6 else if blank c then 5 else if name_start c then 7
         else if is_digit c then 8 else if op_char c then 9 else 4
  | 5 | 10 => if blank c then 10 else 14
  | 7 | 11 => if name_char c then 11 else 14
  | 8 | 12 => if is_digit c then 12 else 14
  | 9 => if is_eq c then 13 else 14
  | _ => 14
  end.
Lemma trans_table : forallb (fun s => forallb (fun c => yy_trans s c =? spec_trans s c) all_bytes)
  [1; 4; 5; 6; 7; 8; 9; 10; 11; 12; 13] = true.
Proof. vm_compute. reflexivity. Qed.
Lemma trans_ok : forall s c, In s [1; 4; 5; 6; 7; 8; 9; 10; 11; 12; 13] -> yy_trans s c = spec_trans s c.
Proof.
  intros s c H. pose proof trans_table as T. rewrite forallb_forall in T. specialize (T s H).
  pose proof (by_bytes _ T c) as Q. cbn beta in Q. lia.
Qed.

Fixpoint span (f : ascii -> bool) (s : str) : str * str :=
  match s with
  | [] => ([], [])
  | c :: r => if f c then let '(a, b) := span f r in (c :: a, b) else ([], s)
  end.
Lemma span_app : forall f s, fst (span f s) ++ snd (span f s) = s.
Proof. induction s as [|c s IH]; auto. cbn [span]. destruct (f c); auto. destruct (span f s); cbn in *. congruence. Qed.
Lemma span_all : forall f s, forallb f (fst (span f s)) = true.
Proof.
  induction s as [|c s IH]; auto. cbn [span]. destruct (f c) eqn:E; auto. destruct (span f s); cbn in *. rewrite E. exact IH.
Qed.
Lemma span_stop : forall f s, next_is f (snd (span f s)) = false.
Proof.
  induction s as [|c s IH]; auto. cbn [span]. destruct (f c) eqn:E; [|exact E]. destruct (span f s); cbn in *. exact IH.
Qed.
Lemma span_unique : forall f a b, forallb f a = true -> next_is f b = false -> span f (a ++ b) = (a, b).
Proof.
  induction a as [|c a IH]; intros b Ha Hb; cbn [app].
  - destruct b as [|c b]; auto. cbn in *. rewrite Hb. reflexivity.
  - cbn in Ha. apply andb_prop in Ha as [H1 H2]. cbn [span]. rewrite H1, (IH b H2 Hb). reflexivity.
Qed.

(** Looping states. *)
Lemma munch_loop : forall (f : ascii -> bool) s1 k, In s1 [1; 4; 5; 6; 7; 8; 9; 10; 11; 12; 13] -> znth yy_accept s1 = k -> k <> 0 ->
  (forall c, spec_trans s1 c = if f c then s1 else 14) -> s1 <> 14 ->
  forall rest cur last, munch s1 rest cur last = Some (k, rev cur ++ fst (span f rest), snd (span f rest)).
Proof.
  intros f s1 k Hs Hk K0 Ht Hj. induction rest as [|c rest IH]; intros cur last; cbn [munch span].
  - rewrite Hk. replace (k =? 0) with false by lia. cbn. rewrite app_nil_r. reflexivity.
  - rewrite Hk. replace (k =? 0) with false by lia. rewrite trans_ok, Ht by auto.
    destruct (f c).
    + replace (s1 =? 14) with false by lia. rewrite IH. destruct (span f rest); cbn [fst snd rev].
      rewrite <- app_assoc. reflexivity.
    + change (14 =? 14) with true. cbn. rewrite app_nil_r. reflexivity.
Qed.
(** Entry states of the loops. *)
Lemma munch_enter : forall (f : ascii -> bool) s0 s1 k, In s0 [1; 4; 5; 6; 7; 8; 9; 10; 11; 12; 13] -> In s1 [1; 4; 5; 6; 7; 8; 9; 10; 11; 12; 13] ->
  znth yy_accept s0 = k -> znth yy_accept s1 = k -> k <> 0 ->
  (forall c, spec_trans s0 c = if f c then s1 else 14) ->
  (forall c, spec_trans s1 c = if f c then s1 else 14) -> s1 <> 14 ->
  forall rest cur last, munch s0 rest cur last = Some (k, rev cur ++ fst (span f rest), snd (span f rest)).
Proof.
  intros f s0 s1 k H0 H1 Hk0 Hk K0 Ht0 Ht Hj [|c rest] cur last; cbn [munch span].
  - rewrite Hk0. replace (k =? 0) with false by lia. cbn. rewrite app_nil_r. reflexivity.
  - rewrite Hk0. replace (k =? 0) with false by lia. rewrite trans_ok, Ht0 by auto.
    destruct (f c).
    + replace (s1 =? 14) with false by lia. rewrite (munch_loop f s1 k) by auto.
      destruct (span f rest); cbn [fst snd rev]. rewrite <- app_assoc. reflexivity.
    + change (14 =? 14) with true. cbn. rewrite app_nil_r. reflexivity.
Qed.
Ltac inl := cbn; tauto.
Lemma munch_word : forall rest cur last, munch 7 rest cur last = Some (2, rev cur ++ fst (span name_char rest), snd (span name_char rest)).
Proof. apply (munch_enter name_char 7 11); try inl; try reflexivity; lia. Qed.
Lemma munch_digits : forall rest cur last, munch 8 rest cur last = Some (1, rev cur ++ fst (span is_digit rest), snd (span is_digit rest)).
Proof. apply (munch_enter is_digit 8 12); try inl; try reflexivity; lia. Qed.
Lemma munch_blanks : forall rest cur last, munch 5 rest cur last = Some (4, rev cur ++ fst (span blank rest), snd (span blank rest)).
Proof. apply (munch_enter blank 5 10); try inl; try reflexivity; lia. Qed.
Lemma munch_stop : forall s k rest cur last, In s [4; 6; 13] -> znth yy_accept s = k -> k <> 0 ->
  munch s rest cur last = Some (k, rev cur, rest).
Proof.
  intros s k rest cur last Hs Hk K0.
  assert (munch s rest cur last = (let last' := if znth yy_accept s =? 0 then last else Some (znth yy_accept s, rev cur, rest) in
    match rest with [] => last' | c :: r => if yy_trans s c =? 14 then last' else munch (yy_trans s c) r (c :: cur) last' end)) as ->
    by (destruct rest; reflexivity).
  cbn zeta. rewrite Hk. replace (k =? 0) with false by lia. destruct rest as [|c r]; auto.
  rewrite trans_ok by (cbn in *; tauto). cbn in Hs. destruct Hs as [<-|[<-|[<-|[]]]]; reflexivity.
Qed.

(** First token of a text: what it is and what remains. *)
Definition first (c : ascii) (r : str) : Z * str * str :=
  if Ascii.eqb c newline then (5, [c], r)
  else if blank c then (4, c :: fst (span blank r), snd (span blank r))
  else if name_start c then (2, c :: fst (span name_char r), snd (span name_char r))
  else if is_digit c then (1, c :: fst (span is_digit r), snd (span is_digit r))
  else if op_char c && next_is is_eq r then (3, [c; "="%char], tl r)
  else (6, [c], r).
Lemma munch_first : forall c r, munch 1 (c :: r) [] None = Some (first c r).
Proof.
  intros c r. cbn [munch]. change (znth yy_accept 1 =? 0) with true. cbn iota.
  rewrite trans_ok by inl. cbn [spec_trans]. unfold first.
  destruct (Ascii.eqb c newline); [change (6 =? 14) with false; cbn iota; apply (munch_stop 6 5); [inl|reflexivity|lia]|].
  destruct (blank c); [change (5 =? 14) with false; cbn iota; apply munch_blanks|].
  destruct (name_start c); [change (7 =? 14) with false; cbn iota; apply munch_word|].
  destruct (is_digit c); [change (8 =? 14) with false; cbn iota; apply munch_digits|].
  destruct (op_char c); [|change (4 =? 14) with false; cbn iota; apply (munch_stop 4 6); [inl|reflexivity|lia]].
  change (9 =? 14) with false. cbn iota. destruct r as [|x r]; [reflexivity|].
  cbn [munch next_is andb tl]. change (znth yy_accept 9) with 6. cbn [Z.eqb].
  rewrite trans_ok by inl. cbn [spec_trans]. destruct (is_eq x) eqn:E.
  - change (13 =? 14) with false. cbn iota. rewrite (munch_stop 13 3); [|inl|reflexivity|lia].
    unfold is_eq in E. apply Ascii.eqb_eq in E. subst x. reflexivity.
  - reflexivity.
Qed.
Definition emit (a : Z) (t : str) : list tok :=
  if a =? 1 then [rule_uint t] else if a =? 2 then [rule_word t] else if a =? 3 then [rule_op t]
  else if a =? 4 then [] else if a =? 5 then [(EOL, NoVal)] else if a =? 6 then [rule_char t] else [].

Lemma first_app : forall c r, snd (fst (first c r)) ++ snd (first c r) = c :: r.
Proof.
  intros c r. unfold first.
  destruct (Ascii.eqb c newline); [reflexivity|].
  destruct (blank c); [cbn; rewrite span_app; reflexivity|].
  destruct (name_start c); [cbn; rewrite span_app; reflexivity|].
  destruct (is_digit c); [cbn; rewrite span_app; reflexivity|].
  destruct (op_char c); [|reflexivity].
  destruct r as [|x r]; [reflexivity|]. cbn [next_is andb]. destruct (is_eq x) eqn:E; [|reflexivity].
  unfold is_eq in E. apply Ascii.eqb_eq in E. subst x. reflexivity.
Qed.
Lemma first_rest : forall c r, (length (snd (first c r)) <= length r)%nat.
Proof.
  intros c r. pose proof (first_app c r) as H. apply (f_equal (@length ascii)) in H. rewrite app_length in H. cbn [length] in H.
  assert (snd (fst (first c r)) <> []) as N.
  { unfold first. repeat match goal with |- context [if ?b then _ else _] => destruct b end; discriminate. }
  destruct (snd (fst (first c r))); [congruence|]. cbn [length] in H. lia.
Qed.

Lemma lex_fuel_step : forall f c r, lex_fuel (S f) (c :: r) =
  emit (fst (fst (first c r))) (snd (fst (first c r))) ++ lex_fuel f (snd (first c r)).
Proof.
  intros f c r. cbn [lex_fuel]. rewrite munch_first. destruct (first c r) as [[a t] rest] eqn:E. cbn [fst snd].
  unfold emit.
  destruct (a =? 1); [reflexivity|]. destruct (a =? 2); [reflexivity|]. destruct (a =? 3); [reflexivity|].
  destruct (a =? 4); [reflexivity|]. destruct (a =? 5); [reflexivity|]. destruct (a =? 6); reflexivity.
Qed.
Lemma lex_fuel_enough : forall f text, (length text <= f)%nat -> lex_fuel f text = lex text.
Proof.
  induction f as [f IH] using (well_founded_induction lt_wf). intros [|c r] Hf.
  - destruct f; reflexivity.
  - cbn [length] in Hf. destruct f as [|f]; [lia|]. unfold lex. cbn [length].
    rewrite !lex_fuel_step. f_equal. pose proof (first_rest c r).
    rewrite (IH f) by lia. rewrite (IH (length r)) by lia. reflexivity.
Qed.
Lemma lex_step : forall c r, lex (c :: r) = emit (fst (fst (first c r))) (snd (fst (first c r))) ++ lex (snd (first c r)).
Proof.
  intros c r. unfold lex at 1. cbn [length]. rewrite lex_fuel_step. f_equal. apply lex_fuel_enough. apply first_rest.
Qed.
Lemma lex_nil : lex [] = [].
Proof. reflexivity. Qed.

(** ** Disjointness of the character classes *)
Lemma start_class : forall c, name_start c = true -> Ascii.eqb c newline = false /\ blank c = false /\ name_char c = true.
Proof.
  intros c H. pose proof (by_bytes (fun c => implb (name_start c) (negb (Ascii.eqb c newline) && negb (blank c) && name_char c))
    ltac:(vm_compute; reflexivity) c) as K. cbv beta in K. rewrite H in K. cbn [implb] in K.
  rewrite !andb_true_iff, !negb_true_iff in K. tauto.
Qed.
Lemma digit_class : forall c, is_digit c = true -> Ascii.eqb c newline = false /\ blank c = false /\ name_start c = false /\ name_char c = true.
Proof.
  intros c H. pose proof (by_bytes (fun c => implb (is_digit c) (negb (Ascii.eqb c newline) && negb (blank c) && negb (name_start c) && name_char c))
    ltac:(vm_compute; reflexivity) c) as K. cbv beta in K. rewrite H in K. cbn [implb] in K.
  rewrite !andb_true_iff, !negb_true_iff in K. tauto.
Qed.
Lemma op_class : forall c, op_char c = true -> Ascii.eqb c newline = false /\ blank c = false /\ name_start c = false /\
  is_digit c = false /\ b2z c < 128 /\ name_char c = false.
Proof.
  intros c H. pose proof (by_bytes (fun c => implb (op_char c) (negb (Ascii.eqb c newline) && negb (blank c) && negb (name_start c) && negb (is_digit c) && (b2z c <? 128) && negb (name_char c)))
    ltac:(vm_compute; reflexivity) c) as K. cbv beta in K. rewrite H in K. cbn [implb] in K.
  rewrite !andb_true_iff, !negb_true_iff, Z.ltb_lt in K. tauto.
Qed.
Lemma blank_class : forall c, blank c = true -> Ascii.eqb c newline = false /\ name_char c = false /\ is_eq c = false /\ is_digit c = false.
Proof.
  intros c H. pose proof (by_bytes (fun c => implb (blank c) (negb (Ascii.eqb c newline) && negb (name_char c) && negb (is_eq c) && negb (is_digit c)))
    ltac:(vm_compute; reflexivity) c) as K. cbv beta in K. rewrite H in K. cbn [implb] in K.
  rewrite !andb_true_iff, !negb_true_iff in K. tauto.
Qed.
Lemma punct_class : forall c, mem c (L "#()-{},|") = true -> Ascii.eqb c newline = false /\ blank c = false /\ name_start c = false /\
  is_digit c = false /\ op_char c = false /\ b2z c < 128.
Proof.
  intros c H. pose proof (by_bytes (fun c => implb (mem c (L "#()-{},|")) (negb (Ascii.eqb c newline) && negb (blank c) && negb (name_start c) && negb (is_digit c) && negb (op_char c) && (b2z c <? 128)))
    ltac:(vm_compute; reflexivity) c) as K. cbv beta in K. rewrite H in K. cbn [implb] in K.
  rewrite !andb_true_iff, !negb_true_iff, Z.ltb_lt in K. tauto.
Qed.

Lemma lex_blanks : forall b s, blanks b -> lex (b ++ s) = lex s.
Proof.
  intros b s H. destruct b as [|c b]; auto.
  remember (length b) as n eqn:En. revert c b s H En.
  induction n as [n IH] using (well_founded_induction lt_wf). intros c b s H En. subst n.
  assert (blank c = true) as Hc by (unfold blanks in H; cbn [forallb] in H; apply andb_prop in H; tauto).
  assert (forallb blank b = true) as Hb by (unfold blanks in H; cbn [forallb] in H; apply andb_prop in H; tauto).
  cbn [app]. rewrite lex_step. unfold first.
  destruct (blank_class c Hc) as (-> & _). rewrite Hc. cbn [fst snd].
  change (emit 4 _) with (@nil tok). cbn [app].
  (* the run of blanks goes on into s *)
  revert Hb. clear. revert s. induction b as [|x b IHb]; intros s Hb; cbn [app].
  - clear Hb. induction s as [|y s IHs]; [reflexivity|]. cbn [span].
    destruct (blank y) eqn:Ey; [|reflexivity].
    destruct (span blank s) as [u v] eqn:Es. cbn [snd]. rewrite lex_step. unfold first.
    destruct (blank_class y Ey) as (-> & _). rewrite Ey, Es. reflexivity.
  - cbn [forallb] in Hb. apply andb_prop in Hb as [Hx Hb]. cbn [span]. rewrite Hx.
    destruct (span blank (b ++ s)) as [u v] eqn:Es. cbn [snd]. specialize (IHb s Hb). rewrite Es in IHb. exact IHb.
Qed.

Lemma lex_word : forall w s, is_word w = true -> next_is name_char s = false -> lex (w ++ s) = rule_word w :: lex s.
Proof.
  intros [|c w] s Hw Hs; [discriminate|]. cbn [is_word forallb] in Hw. apply andb_prop in Hw as [Hc Hw].
  cbn [app]. rewrite lex_step. unfold first. destruct (start_class c Hc) as (-> & -> & _). rewrite Hc.
  rewrite (span_unique name_char w s Hw Hs). reflexivity.
Qed.
Lemma lex_digits : forall w s, w <> [] -> forallb is_digit w = true -> next_is is_digit s = false ->
  lex (w ++ s) = rule_uint w :: lex s.
Proof.
  intros [|c w] s Hn Hw Hs; [congruence|]. cbn [is_word forallb] in Hw. apply andb_prop in Hw as [Hc Hw].
  cbn [app]. rewrite lex_step. unfold first. destruct (digit_class c Hc) as (-> & -> & -> & _). rewrite Hc.
  rewrite (span_unique is_digit w s Hw Hs). reflexivity.
Qed.
Lemma lex_op : forall c s, op_char c = true -> lex (c :: "="%char :: s) = rule_op [c; "="%char] :: lex s.
Proof.
  intros c s Hc. rewrite lex_step. unfold first. destruct (op_class c Hc) as (-> & -> & -> & -> & _). rewrite Hc. reflexivity.
Qed.
Lemma lex_opchar : forall c s, op_char c = true -> next_is is_eq s = false -> lex (c :: s) = rule_char [c] :: lex s.
Proof.
  intros c s Hc Hs. rewrite lex_step. unfold first. destruct (op_class c Hc) as (-> & -> & -> & -> & _). rewrite Hc, Hs. reflexivity.
Qed.
Lemma lex_punct : forall c s, mem c (L "#()-{},|") = true -> lex (c :: s) = rule_char [c] :: lex s.
Proof.
  intros c s Hc. rewrite lex_step. unfold first. destruct (punct_class c Hc) as (-> & -> & -> & -> & -> & _). reflexivity.
Qed.

Lemma rule_char_ascii : forall c, b2z c < 128 -> rule_char [c] = tk (b2z c).
Proof. intros c H. unfold rule_char. replace (b2z c <? 128) with true by lia. reflexivity. Qed.
Lemma is_name_spec : forall s, is_name s = true -> is_word s = true /\ rule_word s = leaf_tok s.
Proof.
  intros s H. unfold is_name in H. rewrite !andb_true_iff, !negb_true_iff in H. destruct H as ((H1 & H2) & H3).
  split; auto. unfold reserved in H2. cbn [existsb] in H2. rewrite !orb_false_iff in H2.
  destruct H2 as (R1 & R2 & R3 & R4 & R5 & R6 & R7 & R8 & _).
  unfold rule_word. rewrite R1, R2, R3, R4, R5, R6, R7, R8. unfold EXPINT_KEYWORD. rewrite H3. reflexivity.
Qed.

Lemma spells_lex : forall t w s, spells t w s -> lex (w ++ s) = t :: lex s.
Proof.
  intros t w s H. destruct H.
  - destruct (is_name_spec _ H) as [Hw Hr]. rewrite lex_word, Hr by auto. reflexivity.
  - destruct H as [-> | ->]; rewrite lex_word by (auto; reflexivity); reflexivity.
  - destruct H as [-> | ->]; rewrite lex_word by (auto; reflexivity); reflexivity.
  - destruct H as [-> | ->]; rewrite lex_word by (auto; reflexivity); reflexivity.
  - rewrite lex_digits by auto. unfold rule_uint. rewrite H1. unfold UINT_MAX.
    replace (negb (n <? 4294967295)) with false by lia. replace (n =? 0) with false by lia. reflexivity.
  - apply (lex_op "<"%char). reflexivity.
  - apply (lex_op ">"%char). reflexivity.
  - apply (lex_op "="%char). reflexivity.
  - cbn [app]. rewrite lex_opchar, rule_char_ascii; auto. apply (op_class c H).
  - cbn [app]. rewrite lex_punct, rule_char_ascii; auto. apply (punct_class c H).
Qed.
Lemma text_pre_lex : forall ts s s', text_pre ts s s' -> lex s = ts ++ lex s'.
Proof.
  intros ts s s' H. induction H; auto. rewrite lex_blanks by auto. rewrite (spells_lex _ _ _ H0), IHtext_pre. reflexivity.
Qed.
Lemma text_of_lex : forall ts s, text_of ts s -> lex s = ts.
Proof.
  intros ts s (b & Hb & H). rewrite (text_pre_lex _ _ _ H). rewrite <- (app_nil_r b), lex_blanks by auto. apply app_nil_r.
Qed.

(** ** Converse *)
Definition good (t : tok) : Prop :=
  (exists s, t = leaf_tok s) \/ (exists n, t = uint_tok n) \/
  In t (map tk [OR; AND; IN; LEQ; GEQ; EQ; c_hash; c_lt; c_gt; c_lp; c_rp; c_minus; c_lb; c_rb; c_eq; c_comma; c_bar]).

Lemma rule_word_inv : forall s rest, is_word s = true -> next_is name_char rest = false -> good (rule_word s) ->
  spells (rule_word s) s rest.
Proof.
  intros s rest W N G. unfold rule_word in *.
  destruct (str_eqb s (L "[0]:")) eqn:E1; [exfalso; destruct G as [(x & G)|[(x & G)|G]]; try discriminate; cbn in G; decompose [or] G; try discriminate; assumption|].
  destruct (str_eqb s (L "[1]:")) eqn:E2; [exfalso; destruct G as [(x & G)|[(x & G)|G]]; try discriminate; cbn in G; decompose [or] G; try discriminate; assumption|].
  destruct (str_eqb s (L "or") || str_eqb s (L "OR")) eqn:E3.
  { apply sp_or; auto. apply orb_true_iff in E3. rewrite !str_eqb_eq in E3. auto. }
  destruct (str_eqb s (L "and") || str_eqb s (L "AND")) eqn:E4.
  { apply sp_and; auto. apply orb_true_iff in E4. rewrite !str_eqb_eq in E4. auto. }
  destruct (str_eqb s (L "in") || str_eqb s (L "IN")) eqn:E5.
  { apply sp_in; auto. apply orb_true_iff in E5. rewrite !str_eqb_eq in E5. auto. }
  destruct (contains EXPINT_KEYWORD s) eqn:E6.
  { exfalso. destruct G as [(x & G)|[(x & G)|G]]; try discriminate; cbn in G; decompose [or] G; try discriminate; assumption. }
  apply sp_name; auto. unfold is_name. rewrite W. unfold EXPINT_KEYWORD in E6. rewrite E6. cbn [reserved existsb].
  apply orb_false_iff in E3 as [E3 E3']. apply orb_false_iff in E4 as [E4 E4']. apply orb_false_iff in E5 as [E5 E5'].
  rewrite E1, E2, E3, E3', E4, E4', E5, E5'. reflexivity.
Qed.
Lemma undec_nonneg : forall s, forallb is_digit s = true -> 0 <= undec s.
Proof.
  intros s. unfold undec. assert (forall a, 0 <= a -> forallb is_digit s = true -> 0 <= fold_left (fun a c => a * 10 + (b2z c - 48)) s a) as H.
  { induction s as [|c s IH]; intros a Ha Hd; auto. cbn [forallb] in Hd. apply andb_prop in Hd as [Hc Hd]. cbn [fold_left].
    apply IH; auto. unfold is_digit in Hc. lia. }
  intro Hd. apply H; auto. lia.
Qed.
Lemma error_not_good : ~ good (ERROR, NoVal).
Proof. intros [(x & X)|[(x & X)|X]]; try discriminate; cbn in X; decompose [or] X; try discriminate; assumption. Qed.
Lemma rule_uint_inv : forall s rest, s <> [] -> forallb is_digit s = true -> next_is is_digit rest = false -> good (rule_uint s) ->
  spells (rule_uint s) s rest.
Proof.
  intros s rest Hn Hd Hr. pose proof (undec_nonneg s Hd) as U. unfold rule_uint. cbv zeta.
  destruct (undec s <? UINT_MAX) eqn:E1; cbn [negb]; [|intro G; destruct (error_not_good G)].
  destruct (undec s =? 0) eqn:E2; [intro G; destruct (error_not_good G)|]. intros _.
  apply Z.ltb_lt in E1. apply Z.eqb_neq in E2. apply (sp_uint (undec s)); auto. unfold UINT_MAX in E1.
  revert U E1 E2. generalize (undec s). intros. lia.
Qed.
Lemma punct_codes : forall c, op_char c = false -> (if existsb (Z.eqb (if b2z c <? 128 then b2z c else b2z c - 256))
    [OR; AND; IN; LEQ; GEQ; EQ; c_hash; c_lt; c_gt; c_lp; c_rp; c_minus; c_lb; c_rb; c_eq; c_comma; c_bar]
    then (b2z c <? 128) && mem c (L "#()-{},|") else true) = true.
Proof.
  intros c H. pose proof (by_bytes (fun c => op_char c || (if existsb (Z.eqb (if b2z c <? 128 then b2z c else b2z c - 256))
    [OR; AND; IN; LEQ; GEQ; EQ; c_hash; c_lt; c_gt; c_lp; c_rp; c_minus; c_lb; c_rb; c_eq; c_comma; c_bar]
    then (b2z c <? 128) && mem c (L "#()-{},|") else true)) ltac:(vm_compute; reflexivity) c) as Q. cbn beta in Q.
  rewrite H in Q. exact Q.
Qed.
Lemma good_char : forall c, good (rule_char [c]) ->
  existsb (Z.eqb (if b2z c <? 128 then b2z c else b2z c - 256))
    [OR; AND; IN; LEQ; GEQ; EQ; c_hash; c_lt; c_gt; c_lp; c_rp; c_minus; c_lb; c_rb; c_eq; c_comma; c_bar] = true.
Proof.
  intros c [(x & X)|[(x & X)|X]]; [discriminate..|]. apply existsb_exists. apply in_map_iff in X as (z & Ez & Hz).
  exists z. split; auto. unfold rule_char, tk in Ez. injection Ez as ->. lia.
Qed.

Lemma cons_inv : forall (A : Type) (a b : A) l m, a :: l = b :: m -> b = a /\ l = m.
Proof. intros A a b l m H. injection H. auto. Qed.
Lemma lex_first : forall s t r, lex s = t :: r -> good t -> exists b w s', s = b ++ w ++ s' /\ blanks b /\ spells t w s' /\ lex s' = r.
Proof.
  intro s. remember (length s) as n eqn:En. revert s En.
  induction n as [n IH] using (well_founded_induction lt_wf). intros [|c u] En t r E G; [discriminate|]. subst n.
  pose proof (first_rest c u) as Lr. pose proof (first_app c u) as Fa.
  rewrite lex_step in E. unfold first in *.
  destruct (Ascii.eqb c newline) eqn:E1.
  { exfalso. cbn in E. injection E as <- _. destruct G as [(x & G)|[(x & G)|G]]; try discriminate; cbn in G; decompose [or] G; try discriminate; assumption. }
  destruct (blank c) eqn:E2.
  { cbn [fst snd] in *. change (emit 4 _) with (@nil tok) in E. cbn [app] in E.
    destruct (IH (length (snd (span blank u))) ltac:(cbn [length]; lia) _ eq_refl _ _ E G) as (b & w & s' & Es & Hb & Hw & Hl).
    exists (c :: fst (span blank u) ++ b), w, s'. split; [|split; [|auto]].
    - cbn [app]. rewrite <- app_assoc, <- Es, span_app. reflexivity.
    - unfold blanks in *. cbn [forallb]. rewrite E2, forallb_app, span_all, Hb. reflexivity. }
  destruct (name_start c) eqn:E3.
  { cbn [fst snd] in *. injection E as Et Er. exists [], (c :: fst (span name_char u)), (snd (span name_char u)).
    split; [symmetry; exact Fa|]. split; [reflexivity|]. split; auto. subst t. apply rule_word_inv; auto.
    - cbn [is_word]. rewrite E3. apply span_all.
    - apply span_stop. }
  destruct (is_digit c) eqn:E4.
  { cbn [fst snd] in *. injection E as Et Er. exists [], (c :: fst (span is_digit u)), (snd (span is_digit u)).
    split; [symmetry; exact Fa|]. split; [reflexivity|]. split; auto. subst t. apply rule_uint_inv; auto; try discriminate.
    - cbn [forallb]. rewrite E4. apply span_all.
    - apply span_stop. }
  destruct (op_char c) eqn:E5.
  - destruct (next_is is_eq u) eqn:E6; cbn [andb fst snd] in *.
    + injection E as Et Er. exists [], [c; "="%char], (tl u). split; [symmetry; exact Fa|]. split; [reflexivity|]. split; auto. subst t.
      unfold op_char, mem in E5. cbn in E5. rewrite !orb_true_iff, !Ascii.eqb_eq in E5.
      destruct E5 as [->|[->|[->|E5]]]; [constructor..|discriminate].
    + destruct (cons_inv _ _ _ _ _ E) as [Et Er]. exists [], [c], u. split; [reflexivity|]. split; [reflexivity|]. split; auto. subst t.
      rewrite rule_char_ascii by apply (op_class c E5). apply sp_char; auto.
  - cbn [andb fst snd] in *. destruct (cons_inv _ _ _ _ _ E) as [Et Er]. exists [], [c], u. split; [reflexivity|]. split; [reflexivity|]. split; auto. subst t.
    pose proof (good_char c G) as Gc. pose proof (punct_codes c E5) as K. rewrite Gc in K. apply andb_prop in K as [K1 K2].
    rewrite rule_char_ascii by lia. apply sp_punct; auto.
Qed.
Lemma lex_text_pre : forall ts s r, Forall good ts -> lex s = ts ++ r -> exists s', text_pre ts s s' /\ lex s' = r.
Proof.
  induction ts as [|t ts IH]; intros s r G E; [exists s; split; [constructor|exact E]|].
  inversion G; subst. cbn [app] in E. destruct (lex_first s t _ E ltac:(assumption)) as (b & w & s1 & -> & Hb & Hw & Hl).
  destruct (IH s1 r ltac:(assumption) Hl) as (s' & Hs & Hr). exists s'. split; auto. constructor; auto.
Qed.
Lemma lex_empty : forall s, lex s = [] -> blanks s.
Proof.
  intro s. remember (length s) as n eqn:En. revert s En.
  induction n as [n IH] using (well_founded_induction lt_wf). intros [|c u] En E; [reflexivity|]. subst n.
  pose proof (first_rest c u) as Lr. rewrite lex_step in E. unfold first in *.
  destruct (Ascii.eqb c newline) eqn:E1; [discriminate|].
  destruct (blank c) eqn:E2.
  { cbn [fst snd] in *. change (emit 4 _) with (@nil tok) in E. cbn [app] in E.
    pose proof (IH (length (snd (span blank u))) ltac:(cbn [length]; lia) _ eq_refl E) as Hb. unfold blanks in *. cbn [forallb]. rewrite E2.
    rewrite <- (span_app blank u), forallb_app, span_all, Hb. reflexivity. }
  destruct (name_start c); [discriminate|]. destruct (is_digit c); [discriminate|].
  destruct (op_char c && next_is is_eq u); discriminate.
Qed.
Lemma stop_class : forall c, stops c = true -> Ascii.eqb c newline = false /\ blank c = false /\ name_start c = false /\
  is_digit c = false /\ op_char c = false /\ name_char c = false.
Proof.
  intros c H. pose proof (by_bytes (fun c => implb (stops c) (negb (Ascii.eqb c newline) && negb (blank c) && negb (name_start c) && negb (is_digit c) && negb (op_char c) && negb (name_char c)))
    ltac:(vm_compute; reflexivity) c) as K. cbv beta in K. rewrite H in K. cbn [implb] in K.
  rewrite !andb_true_iff, !negb_true_iff in K. tauto.
Qed.
Lemma lex_stop : forall c s, stops c = true -> exists v, lex (c :: s) = v :: lex s /\ fst v <= 0.
Proof.
  intros c s H. rewrite lex_step. unfold first. destruct (stop_class c H) as (-> & -> & -> & -> & -> & _).
  eexists. split; [reflexivity|]. unfold stops in H. pose proof (b2z_range c). cbn. destruct (b2z c <? 128) eqn:E; lia.
Qed.
Lemma rule_word_pos : forall s, 0 < fst (rule_word s).
Proof.
  intro s. unfold rule_word. repeat match goal with |- context [if ?b then _ else _] => destruct b end; reflexivity.
Qed.
Lemma rule_uint_pos : forall s, 0 < fst (rule_uint s).
Proof.
  intro s. unfold rule_uint. repeat match goal with |- context [if ?b then _ else _] => destruct b end; reflexivity.
Qed.
Lemma rule_op_pos : forall s, 0 < fst (rule_op s).
Proof.
  intro s. unfold rule_op. repeat match goal with |- context [if ?b then _ else _] => destruct b end; reflexivity.
Qed.
Lemma lex_end : forall s t r, lex s = t :: r -> fst t <= 0 -> exists b c s', s = b ++ c :: s' /\ blanks b /\ stops c = true.
Proof.
  intro s. remember (length s) as n eqn:En. revert s En.
  induction n as [n IH] using (well_founded_induction lt_wf). intros [|c u] En t r E G; [discriminate|]. subst n.
  pose proof (first_rest c u) as Lr. rewrite lex_step in E. unfold first in *.
  destruct (Ascii.eqb c newline) eqn:E1; [cbn in E; injection E as <- _; cbn in G; unfold EOL in G; lia|].
  destruct (blank c) eqn:E2.
  { cbn [fst snd] in *. change (emit 4 _) with (@nil tok) in E. cbn [app] in E.
    destruct (IH (length (snd (span blank u))) ltac:(cbn [length]; lia) _ eq_refl _ _ E G) as (b & x & s' & Es & Hb & Hx).
    exists (c :: fst (span blank u) ++ b), x, s'. split; [|split; auto].
    - cbn [app]. rewrite <- app_assoc, <- Es, span_app. reflexivity.
    - unfold blanks in *. cbn [forallb]. rewrite E2, forallb_app, span_all, Hb. reflexivity. }
  destruct (name_start c) eqn:E3; [cbn [fst snd] in E; injection E as <- _; pose proof (rule_word_pos (c :: fst (span name_char u))); lia|].
  destruct (is_digit c) eqn:E4; [cbn [fst snd] in E; injection E as <- _; pose proof (rule_uint_pos (c :: fst (span is_digit u))); lia|].
  destruct (op_char c && next_is is_eq u); [cbn [fst snd] in E; injection E as <- _; pose proof (rule_op_pos [c; "="%char]); lia|].
  cbn [fst snd] in E. injection E as <- _. exists [], c, u. split; [reflexivity|]. split; [reflexivity|].
  cbn in G. unfold stops. pose proof (b2z_range c). destruct (b2z c <? 128) eqn:E; lia.
Qed.

(** ** Types of tokens *)
Lemma rule_word_typed : forall s, tok_typed (rule_word s).
Proof.
  intro s. unfold rule_word. repeat match goal with |- context [if ?b then _ else _] => destruct b end; cbn; eauto; congruence.
Qed.
Lemma rule_uint_typed : forall s, tok_typed (rule_uint s).
Proof.
  intro s. unfold rule_uint. repeat match goal with |- context [if ?b then _ else _] => destruct b end; cbn; eauto; congruence.
Qed.
Lemma rule_op_typed : forall s, tok_typed (rule_op s).
Proof.
  intro s. unfold rule_op. repeat match goal with |- context [if ?b then _ else _] => destruct b end; cbn; eauto; congruence.
Qed.
Lemma rule_char_typed : forall c, tok_typed (rule_char [c]).
Proof.
  intro c. unfold rule_char, tok_typed. pose proof (b2z_range c).
  destruct (b2z c <? 128) eqn:E; unfold LEAF, UINT;
    match goal with |- context [if ?b then _ else _] => replace b with false by lia end;
    match goal with |- context [if ?b then _ else _] => replace b with false by lia end; auto.
Qed.
Lemma lex_typed : forall s, Forall tok_typed (lex s).
Proof.
  intro s. remember (length s) as n eqn:En. revert s En.
  induction n as [n IH] using (well_founded_induction lt_wf). intros [|c u] En; [constructor|]. subst n.
  pose proof (first_rest c u) as Lr. rewrite lex_step.
  apply Forall_app. split; [|apply (IH (length (snd (first c u)))); auto; cbn [length]; lia].
  unfold first.
  destruct (Ascii.eqb c newline). { repeat constructor. }
  destruct (blank c). { constructor. }
  destruct (name_start c). { constructor; [apply rule_word_typed|constructor]. }
  destruct (is_digit c). { constructor; [apply rule_uint_typed|constructor]. }
  destruct (op_char c && next_is is_eq u). { constructor; [apply rule_op_typed|constructor]. }
  constructor; [apply rule_char_typed|constructor].
Qed.

(** The prefixes the driver puts in front of the text. *)
Lemma lex_start_policy : forall s, lex (L "[0]: " ++ s) = (START_POLICY, NoVal) :: lex s.
Proof.
  intro s. change (L "[0]: " ++ s) with (L "[0]:" ++ (" "%char :: s)). rewrite lex_word by reflexivity.
  change (rule_word (L "[0]:")) with (START_POLICY, NoVal). f_equal. apply (lex_blanks [" "%char]). reflexivity.
Qed.
Lemma lex_start_attrs : forall s, lex (L "[1]: " ++ s) = (START_ATTRLIST, NoVal) :: lex s.
Proof.
  intro s. change (L "[1]: " ++ s) with (L "[1]:" ++ (" "%char :: s)). rewrite lex_word by reflexivity.
  change (rule_word (L "[1]:")) with (START_ATTRLIST, NoVal). f_equal. apply (lex_blanks [" "%char]). reflexivity.
Qed.

(** Names and numbers among the tokens. *)
Definition tok_good (t : tok) : Prop :=
  (fst t = LEAF -> exists s, snd t = StrVal s /\ is_name s = true) /\
  (fst t = UINT -> exists n, snd t = UIntVal n /\ 0 < n < 4294967295).
Lemma spells_good : forall t w rest, spells t w rest -> tok_good t.
Proof.
  intros t w rest H. split; intro E; inversion H; subst; cbn [fst snd leaf_tok uint_tok tk] in *; eauto; try discriminate;
    exfalso; match goal with X : mem ?c _ = true |- _ => pose proof (b2z_range c); unfold LEAF, UINT in E; lia end.
Qed.
Lemma text_pre_good : forall ts s s', text_pre ts s s' -> Forall tok_good ts.
Proof. intros ts s s' H. induction H; constructor; auto. eapply spells_good; eauto. Qed.
Lemma rule_char_good : forall t, tok_good (rule_char t).
Proof.
  intros [|c t]; [split; discriminate|]. pose proof (b2z_range c). unfold rule_char. split; cbn [fst]; unfold LEAF, UINT; intro E; exfalso;
    destruct (b2z c <? 128); lia.
Qed.
Lemma lex_good : forall s, Forall tok_good (lex s).
Proof.
  intro s. remember (length s) as n eqn:En. revert s En.
  induction n as [n IH] using (well_founded_induction lt_wf). intros [|c u] En; [constructor|]. subst n.
  pose proof (first_rest c u) as Lr. rewrite lex_step.
  apply Forall_app. split; [|apply (IH (length (snd (first c u)))); auto; cbn [length]; lia].
  unfold first.
  destruct (Ascii.eqb c newline). { constructor; [split; discriminate|constructor]. }
  destruct (blank c). { constructor. }
  destruct (name_start c) eqn:E3.
  { cbn [fst snd]. constructor; [|constructor].
    set (w := c :: fst (span name_char u)).
    assert (is_word w = true) as W by (unfold w; cbn [is_word]; rewrite E3; apply span_all).
    pose proof (rule_word_typed w) as T. split; intro E.
    - assert (exists s, rule_word w = leaf_tok s) as (s & Es).
      { destruct (rule_word w) as [k v]. cbn [fst] in E. subst k. cbn in T. destruct T as (s & ->). exists s. reflexivity. }
      pose proof (rule_word_inv w [] W eq_refl ltac:(left; eauto)) as Sp. apply (proj1 (spells_good _ _ _ Sp)). exact E.
    - exfalso. revert E. unfold rule_word. repeat match goal with |- context [if ?b then _ else _] => destruct b end; discriminate. }
  destruct (is_digit c) eqn:E4.
  { cbn [fst snd]. constructor; [|constructor].
    set (w := c :: fst (span is_digit u)).
    assert (forallb is_digit w = true) as W by (unfold w; cbn [forallb]; rewrite E4; apply span_all).
    pose proof (rule_uint_typed w) as T. split; intro E.
    - exfalso. revert E. unfold rule_uint. repeat match goal with |- context [if ?b then _ else _] => destruct b end; discriminate.
    - assert (exists k, rule_uint w = uint_tok k) as (s & Es).
      { destruct (rule_uint w) as [k v]. cbn [fst] in E. subst k. cbn in T. destruct T as (s & ->). exists s. reflexivity. }
      pose proof (rule_uint_inv w [] ltac:(discriminate) W eq_refl ltac:(right; left; eauto)) as Sp. apply (proj2 (spells_good _ _ _ Sp)). exact E. }
  destruct (op_char c && next_is is_eq u).
  { constructor; [|constructor]. unfold emit. unfold rule_op. repeat match goal with |- context [if ?b then _ else _] => destruct b end; split; discriminate. }
  constructor; [apply rule_char_good|constructor].
Qed.

(** ** Where tokens come from *)
Lemma lex_tail : forall s t r, lex s = t :: r -> exists a s', s = a ++ s' /\ lex s' = r.
Proof.
  intro s. remember (length s) as n eqn:En. revert s En.
  induction n as [n IH] using (well_founded_induction lt_wf). intros [|c u] En t r E; [discriminate|]. subst n.
  pose proof (first_rest c u) as Lr. pose proof (first_app c u) as Fa. rewrite lex_step in E.
  assert (emit (fst (fst (first c u))) (snd (fst (first c u))) = [] \/ exists x, emit (fst (fst (first c u))) (snd (fst (first c u))) = [x]) as [Em|(x & Em)].
  { unfold emit. repeat match goal with |- context [if ?b then _ else _] => destruct b end; eauto. }
  - rewrite Em in E. cbn [app] in E. destruct (IH (length (snd (first c u))) ltac:(cbn [length]; lia) _ eq_refl _ _ E) as (a & s' & Ea & El).
    exists (snd (fst (first c u)) ++ a), s'. split; auto. rewrite <- app_assoc, <- Ea. symmetry. exact Fa.
  - rewrite Em in E. cbn [app] in E. injection E as _ E. exists (snd (fst (first c u))), (snd (first c u)). split; auto.
Qed.
Lemma lex_occurs : forall t s, In t (lex s) -> good t -> exists w rest, occurs w s /\ spells t w rest.
Proof.
  intros t s I G. remember (lex s) as l eqn:El. revert s El. induction l as [|x l IH]; [contradiction|]. intros s El.
  destruct I as [->|I].
  - destruct (lex_first s t l (eq_sym El) G) as (b & w & s' & -> & _ & Hw & _). exists w, s'. split; auto. exists b, s'. reflexivity.
  - destruct (lex_tail s x l (eq_sym El)) as (a & s' & -> & El'). destruct (IH I s' (eq_sym El')) as (w & rest & (p & q & ->) & Hw).
    exists w, rest. split; auto. exists (a ++ p), q. rewrite app_assoc. reflexivity.
Qed.
