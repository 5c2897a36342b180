(** The parser never reads a semantic value of the wrong kind, never runs out of
    its stack and always stops. *)
From Verif Require Import Base ByteString StrMap Dec UInteger Policy LsssSpec Scanner Grammar PolicySyntax Lexical PolicyMeaning Driver Parser ParserSound ParserRun ParserTop ScannerProofs NumProofs NumTree PolicyTruth.
From Coq Require Import ZArith List Ascii Bool Lia ZifyBool ZifyNat Permutation.
Import ListNotations.
Open Scope Z_scope.

Section Safe.
Variable mktime : tm -> Z * tm.
Notation act := (action mktime).

(** What a comma may mean, and the states that occur. *)
Variable dk : Prop.
Variable SI : Z -> Prop.
Variable pol : bool.
Hypothesis Hedge : forall s x s', SI s -> 0 <= x < 36 -> edge s x s' = true -> SI s'.
(** The tokens read, and the dates that can be made of them. *)
Variable T : list tok.
Definition dates_fine : Prop :=
  (forall r m d y, In (leaf_tok m) T -> In (uint_tok d) T -> In (uint_tok y) T -> day_ok r (day mktime m d y) = true) /\
  (forall m lo hi y, In (leaf_tok m) T -> In (uint_tok lo) T -> In (uint_tok hi) T -> In (uint_tok y) T -> day_ok RLe (last_day mktime m lo hi y) = true).
Hypothesis Hdate : forall r s, 17 <= r <= 22 -> SI s -> has s r (znth yyr2 r) = true -> dk -> dates_fine.

Definition VT (x : Z) (v : sval) : Prop :=
  if x =? 4 then exists s, v = VTok (StrVal s) /\ is_name s = true /\ In (leaf_tok s) T
  else if x =? 5 then exists n, v = VTok (UIntVal n) /\ 0 < n < 4294967295 /\ In (uint_tok n) T
  else if x =? 33 then exists n, v = VNum (num_uint n) /\ num_range n /\ num_ok n = true /\ In (uint_tok (num_val n)) T
  else if x =? 34 then exists t, v = VTree t /\ binary t = true
  else if x =? 35 then exists l, v = VList l
  else if x =? 29 then dk
  else True.
Definition DI (d : driver) : Prop := dpol d = None /\ dattr d = None /\ dispolicy d = pol.
Definition tok_ok (t : tok) : Prop := tok_good t /\ In t T /\ (fst t = c_comma -> dk).

Lemma Htok : forall c v, tok_ok (c, v) -> VT (yytranslate c) (VTok v).
Proof.
  intros c v ((H1 & H2) & H0 & H3). cbn [fst snd] in *. unfold VT.
  assert (forall x, yytranslate c = x -> code_of x <> -1 -> c = code_of x) as TT.
  { intros x <- H. apply translate_inv; auto. }
  destruct (Z.eqb_spec (yytranslate c) 4) as [E|_].
  { pose proof (TT 4 E ltac:(cbn; lia)) as Ec. destruct (H1 Ec) as (s & -> & N). cbn in Ec. subst c. eauto. }
  destruct (Z.eqb_spec (yytranslate c) 5) as [E|_].
  { pose proof (TT 5 E ltac:(cbn; lia)) as Ec. destruct (H2 Ec) as (s & -> & N). cbn in Ec. subst c. eauto. }
  pose proof (translate_range c).
  destruct (Z.eqb_spec (yytranslate c) 33); [lia|]. destruct (Z.eqb_spec (yytranslate c) 34); [lia|]. destruct (Z.eqb_spec (yytranslate c) 35); [lia|].
  destruct (Z.eqb_spec (yytranslate c) 29) as [E|_]; auto. apply H3. exact (TT 29 E ltac:(cbn; lia)).
Qed.

Lemma Forall2_cons_inv : forall (A B : Type) (R : A -> B -> Prop) a l m, Forall2 R (a :: l) m -> exists b m', m = b :: m' /\ R a b /\ Forall2 R l m'.
Proof. intros A B R a l m H. inversion H; subst. eauto. Qed.
Lemma Forall2_nil_inv : forall (A B : Type) (R : A -> B -> Prop) m, Forall2 R [] m -> m = [].
Proof. intros A B R m H. inversion H. reflexivity. Qed.
Ltac args := repeat match goal with
  | H : Forall2 _ (_ :: _) _ |- _ => let b := fresh "b" in let m := fresh "m" in let Hb := fresh "Hb" in
      apply Forall2_cons_inv in H as (b & m & -> & Hb & H)
  | H : Forall2 _ [] _ |- _ => apply Forall2_nil_inv in H; subst
  end.
Ltac types := repeat match goal with
  | H : VT 4 _ |- _ => let s := fresh "s" in let N := fresh "N" in let M := fresh "Tk" in destruct H as (s & -> & N & M)
  | H : VT 5 _ |- _ => let s := fresh "n" in let N := fresh "N" in let M := fresh "Tk" in destruct H as (s & -> & N & M)
  | H : VT 33 _ |- _ => let s := fresh "u" in let N := fresh "N" in let K := fresh "K" in let M := fresh "Tk" in destruct H as (s & -> & N & K & M)
  | H : VT 34 _ |- _ => let s := fresh "t" in let N := fresh "N" in destruct H as (s & -> & N)
  | H : VT 35 _ |- _ => let s := fresh "l" in destruct H as (s & ->)
  | H : VT 29 _ |- _ => change dk in H
  end.

Lemma built_DI : forall d cs n d', built d cs n d' -> DI d -> DI d'.
Proof. intros d cs n d' [_ (ns & I & _)] H. apply issues_keep in I. unfold DI in *. destruct I as (_ & _ & _ & -> & -> & ->). exact H. Qed.
Lemma cmp_case : forall r d s u, DI d -> is_name s = true -> num_range u -> num_ok u = true ->
  match tree_of (num_policy (rel_op r) d s (num_uint u)) with
  | Ok (Some (v, d')) => VT 34 v /\ DI d' | Ok None => True | _ => False end.
Proof.
  intros r d s u Hd N R K. destruct (num_step r d s u R K (name_starts s N)) as (t & d' & E & [(cs & B & _) _]).
  rewrite E. cbn [tree_of bind]. split; [|eapply built_DI; eauto]. exists t. split; auto. apply B.
Qed.

Lemma date_case : forall r d s m u w, DI d -> is_name s = true -> day_ok r (day mktime m (num_val u) (num_val w)) = true ->
  match tree_of (date_policy mktime (rel_op r) d s (get_month m) (num_uint u) (num_uint w)) with
  | Ok (Some (v, d')) => VT 34 v /\ DI d' | Ok None => True | _ => False end.
Proof.
  intros r d s m u w Hd N K. unfold date_policy. cbn [num_uint uval]. cbv zeta. rewrite date_attr_dated.
  destruct (day_step r d (dated s) _ K (dated_starts s (name_starts s N))) as (t & d' & E & [(cs & B & _) _]).
  unfold day in E. rewrite E. cbn [tree_of bind]. split; [|eapply built_DI; eauto]. exists t. split; auto. apply B.
Qed.
Lemma range_case : forall d s m lo hi y, DI d -> is_name s = true -> day_ok RGe (day mktime m (num_val lo) (num_val y)) = true ->
  day_ok RLe (last_day mktime m (num_val lo) (num_val hi) (num_val y)) = true ->
  match tree_of (range_date_in_policy mktime d s (get_month m) (num_uint lo) (num_uint hi) (num_uint y)) with
  | Ok (Some (v, d')) => VT 34 v /\ DI d' | Ok None => True | _ => False end.
Proof.
  intros d s m lo hi y Hd N K1 K2. unfold range_date_in_policy. cbn [num_uint uval]. rewrite date_attr_dated.
  unfold day, validate_date in K1. unfold last_day in K2. cbv zeta in K2.
  destruct (mktime (tm_of (get_month m) (num_val lo) (num_val y))) as [s1 t1]. cbn [fst snd] in K1, K2.
  match goal with |- context [mktime ?t] => destruct (mktime t) as [s2 t2] end. cbn [fst] in K2.
  destruct (day_step RGe d (dated s) _ K1 (dated_starts s (name_starts s N))) as (n1 & d1 & E1 & M1). cbn [rel_op num_policy] in E1. rewrite E1. cbn [bind].
  destruct (day_step RLe d1 (dated s) _ K2 (dated_starts s (name_starts s N))) as (n2 & d2 & E2 & M2). cbn [rel_op num_policy] in E2. rewrite E2. cbn [bind tree_of].
  destruct (num_tree_two _ _ _ _ _ _ _ _ _ _ _ _ _ M1 M2) as (cs & B & _). split; [|eapply built_DI; eauto]. eexists. split; [reflexivity|]. apply B.
Qed.

Lemma Hact : forall r vs d, 4 <= r <= 28 -> (exists s, SI s /\ has s r (znth yyr2 r) = true) ->
  Forall2 VT (rhs r) vs -> DI d ->
  match act r vs d with
  | Ok (Some (v, d')) => VT (lhs r) v /\ DI d'
  | Ok None => True
  | _ => False
  end.
Proof.
  intros r vs d Hr (s0 & Hs & Hh) F Hd.
  assert (17 <= r <= 22 -> dk -> dates_fine) as ND by (intros; eapply Hdate; eauto).
  assert (In r (map Z.of_nat (seq 4 25))) as I. { apply in_map_iff. exists (Z.to_nat r). split; [lia|]. apply in_seq. lia. }
  clear Hs Hh Hr s0. cbn in I.
  repeat (destruct I as [<-|I]; [cbn [rhs] in F; args; types; try (destruct (ND ltac:(lia) ltac:(assumption)) as [F1 F2])|]); try contradiction; cbn [lhs].
  - cbn [action]. rewrite valid_bit by lia. destruct (num_ok (Num n0 (Some n))) eqn:E; [|exact Logic.I]. split; auto.
    exists (Num n0 (Some n)). repeat split; auto; try lia. f_equal. unfold create_expint, num_uint. cbn [num_val num_width width]. f_equal.
    apply Z.mod_small. unfold num_ok, width, width_ok in E. apply andb_prop in E as [E _]. lia.
  - cbn [action]. split; auto. exists (Num n None). repeat split; auto; try lia. unfold num_ok, width. change (2 ^ 32) with 4294967296. cbn [width_ok]. apply andb_true_intro. split; [reflexivity|lia].
  - cbn [action]. destruct (leaf_total d s (name_starts s N)) as (t & d' & E). rewrite E. cbn [tree_of bind].
    destruct (built_leaf _ _ _ _ E) as (B & _). split; [|eapply built_DI; eauto]. exists t. split; auto. apply B.
  - cbn [action]. split; auto. eexists. split; [reflexivity|]. cbn. rewrite N, N0. reflexivity.
  - cbn [action]. split; auto. eexists. split; [reflexivity|]. cbn. rewrite N, N0. reflexivity.
  - apply (cmp_case RLt d s u); auto.
  - apply (cmp_case RGt d s u); auto.
  - apply (cmp_case RLe d s u); auto.
  - apply (cmp_case RGe d s u); auto.
  - apply (cmp_case REq d s u); auto.
  - cbn [action]. split; auto. eexists. split; [reflexivity|]. auto.
  - cbn [action]. unfold range_policy.
    destruct (num_step RGt d s u0 N1 K0 (name_starts s N)) as (t1 & d1 & E1 & M1). cbn [rel_op num_policy] in E1. rewrite E1. cbn [bind].
    destruct (num_step RLt d1 s u N0 K (name_starts s N)) as (t2 & d2 & E2 & M3). cbn [rel_op num_policy] in E2. rewrite E2. cbn [bind tree_of].
    destruct (num_tree_two _ _ _ _ _ _ _ _ _ _ _ _ _ M1 M3) as (cs & B & _). split; [|eapply built_DI; eauto]. eexists. split; [reflexivity|]. apply B.
  - cbn [action]. unfold range_incl_policy.
    destruct (num_step RGe d s u0 N1 K0 (name_starts s N)) as (t1 & d1 & E1 & M1). cbn [rel_op num_policy] in E1. rewrite E1. cbn [bind].
    destruct (num_step RLe d1 s u N0 K (name_starts s N)) as (t2 & d2 & E2 & M3). cbn [rel_op num_policy] in E2. rewrite E2. cbn [bind tree_of].
    destruct (num_tree_two _ _ _ _ _ _ _ _ _ _ _ _ _ M1 M3) as (cs & B & _). split; [|eapply built_DI; eauto]. eexists. split; [reflexivity|]. apply B.
  - apply (date_case REq); auto.
  - apply range_case; auto.
  - apply (date_case RGt); auto.
  - apply (date_case RLt); auto.
  - apply (date_case RGe); auto.
  - apply (date_case RLe); auto.
  - cbn [action]. unfold leaf_attr. destruct (check_total s (name_starts s N)) as (p & a & E). rewrite E. cbn [bind].
    destruct (mget s (dcount d)); cbn [bind]; (split; [eexists; reflexivity|exact Hd]).
  - cbn [action]. split; [eexists; reflexivity|exact Hd].
  - cbn [action]. split; [eexists; reflexivity|exact Hd].
  - cbn [action]. split; [eexists; reflexivity|exact Hd].
  - cbn [action]. unfold attr_num. cbv zeta. destruct (1 <=? count_of (dcount d) s); cbv iota beta; (split; [eexists; reflexivity|exact Hd]).
  - cbn [action]. unfold set_date_in_attrlist. cbv zeta. destruct (smem _ (ddate d)); cbv iota beta; (split; [eexists; reflexivity|exact Hd]).
Qed.
Lemma Hact2 : forall d0, dcount d0 = [] -> forall r vs d, 2 <= r <= 3 -> (exists s, SI s /\ has s r (znth yyr2 r) = true) ->
  Forall2 VT (rhs r) vs -> DI d -> (exists ks, wf_pt (PN r ks) /\ evs VTok act ks d0 = Ok (EV vs d)) ->
  match act r vs d with Ok (Some _) => True | _ => False end.
Proof.
  intros d0 D0 r vs d Hr _ F Hd (ks & W & E). assert (r = 2 \/ r = 3) as [-> | ->] by lia; cbn [rhs] in F; args; types; [exact I|].
  cbn [action]. destruct l as [l|]; [exact I|]. exfalso.
  cbn [wf_pt rhs] in W. destruct W as (_ & W1 & W2).
  destruct ks as [|k1 [|k2 [|k3 ks]]]; try discriminate. cbn in W1. injection W1 as S1 S2. cbn [fold_right] in W2. destruct W2 as (_ & Wk & _).
  destruct k1 as [[c x]|r1 k1]; [|exfalso; cbn [psym] in S1; unfold lhs in S1; repeat match type of S1 with (if ?b then _ else _) = _ => destruct b; try lia end].
  cbn [Grammar.evs Grammar.ev bind] in E.
  destruct k2 as [[c2 x2]|r2 ks2]; [exfalso; cbn in S2; pose proof (translate_range c2); lia|].
  rewrite ev_PN in E. destruct (evs VTok act ks2 d0) as [[vs2 d2|d2]| | | |] eqn:E2; cbn [bind] in E; try discriminate.
  destruct (act r2 vs2 d2) as [[[v3 d3]|]| | | |] eqn:E3; cbn [bind] in E; try discriminate.
  injection E as _ E _. subst v3.
  cbn [wf_pt] in Wk. destruct Wk as (R2 & K1 & K2).
  assert (23 <= r2 <= 28) as R3. { cbn [psym] in S2. unfold lhs in S2. repeat match type of S2 with (if ?b then _ else _) = _ => destruct b eqn:?; try lia end. }
  assert (r2 = 23 \/ 24 <= r2) as [-> |R4] by lia.
  - cbn [rhs] in K1. destruct ks2 as [|k [|]]; try discriminate. cbn in K1. injection K1 as K1.
    destruct k as [[ck xk]|rk kk]; [|exfalso; cbn [psym] in K1; unfold lhs in K1; repeat match type of K1 with (if ?b then _ else _) = _ => destruct b; try lia end].
    cbn [Grammar.evs Grammar.ev bind] in E2. injection E2 as <- <-. cbn [action] in E3. destruct xk; try discriminate.
    unfold leaf_attr in E3. destruct (check_attribute s) as [[p a]| | | |]; cbn [bind] in E3; try discriminate.
    rewrite D0 in E3. cbn [mget bind] in E3. discriminate.
  - assert (r2 = 24 \/ r2 = 25 \/ r2 = 26 \/ r2 = 27 \/ r2 = 28) as R5 by lia. clear R4 R3 R2 S2.
    assert (forall a b : option (list str), concat_attr a b = concat_attr a b) as _ by reflexivity.
    destruct R5 as [-> | [-> | [-> | [-> | ->]]]]; cbn [action] in E3;
      repeat match type of E3 with
      | match ?l with _ => _ end = _ => is_var l; destruct l; try discriminate
      | (let '(_, _) := ?m in _) = _ => destruct m
      end; discriminate.
Qed.
End Safe.
