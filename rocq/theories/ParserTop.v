(** Attribute lists, whole texts, and the exact sets of token sequences the
    parser accepts. *)
From Verif Require Import Base Scanner Driver Parser Grammar PolicySyntax ParserSound ParserRun ParserComplete.
From Coq Require Import ZArith List Ascii Bool Lia ZifyBool ZifyNat.
Import ListNotations.
Open Scope Z_scope.

(** ** Derivation trees of attribute lists *)
Fixpoint wrap (n : nat) (t : pt) : pt := match n with O => t | S m => PN 24 [PT (tk c_bar); wrap m t] end.
Fixpoint atree (a : alist) : pt :=
  match a with
  | AOne n i O => wrap n (itree i)
  | AOne n i _ => wrap n (PN 25 [itree i; PT (tk c_bar)])
  | AMore n i r => wrap n (PN 26 [itree i; PT (tk c_bar); atree r])
  end.

Section Attr.
Context {V D : Type}.
Variable inj : yylval -> V.
Variable act : Z -> list V -> D -> res (option (V * D)).
Notation ev := (ev inj act).
Notation run := (run inj act).
Notation reach := (@reach D).

Definition astates := [2; 8; 23].
Ltac each H := repeat (destruct H as [H|H]; [try subst|]); [.. | destruct H].
Ltac ne10 := first [lia | vm_compute; discriminate].
Ltac shift t := eapply reach_trans; [apply r_shift with (s' := t); [reflexivity|ne10]|].
Ltac shiftL t := eapply reach_trans; [apply r_shift with (s' := t); [|try ne10]|].
Ltac outcome E := match goal with |- context [cont (Grammar.ev inj act (ntree ?n) ?d) _] =>
    destruct (Grammar.ev inj act (ntree n) d) as [[? ?|?]| | | |] eqn:E; cbn [cont bind]; try apply reach_refl end.
Ltac reduce x := eapply reach_trans; [apply r_reduce with (r := x); [reflexivity|ne10|reflexivity]|].

Lemma complete_item : forall i s v st rest d, In s astates -> In (la_sym rest) [0; 30] ->
  reach (fun f => run f ((s, v) :: st) (itoks i ++ rest) d)
        (fun f => cont (ev (itree i) d) (fun v' d' => run f ((goto_state s 35, v') :: (s, v) :: st) rest d')).
Proof.
  intros i s v st rest d Hs Hr.
  assert (s <> 10) as S10 by (cbn in Hs; lia).
  assert (la_sym rest <> 20) as R20 by (cbn in Hr; lia).
  destruct i as [a|a n|a m dd y]; cbn [itoks app itree]; (shiftL 7; [cbn in Hs; each Hs; reflexivity|]).
  - eapply reach_trans; [apply r_reduce with (r := 23); [|lia|reflexivity]|].
    + cbn in Hr. each Hr; rewrite <- Hr; reflexivity.
    + apply reach_refl.
  - shift 21. eapply reach_trans; [apply complete_num; [cbn; tauto|exact R20]|].
    rewrite ev_PN. cbn [Grammar.evs Grammar.ev bind leaf_tok tk]. outcome E1.
    eapply reach_trans; [apply r_reduce with (r := 27); [cbn in Hr; each Hr; rewrite <- Hr; reflexivity|ne10|reflexivity]|].
    apply reach_refl.
  - shift 21. shift 40. rewrite <- app_assoc. eapply reach_trans; [apply complete_num; [cbn; tauto|cbn; discriminate]|].
    rewrite ev_PN. cbn [Grammar.evs Grammar.ev bind leaf_tok tk]. outcome E1.
    cbn [app]. shift 61. eapply reach_trans; [apply complete_num; [cbn; tauto|exact R20]|]. outcome E2.
    eapply reach_trans; [apply r_reduce with (r := 28); [cbn in Hr; each Hr; rewrite <- Hr; reflexivity|ne10|reflexivity]|].
    apply reach_refl.
Qed.

Definition consumes (B : list tok) (T : pt) (rest : list tok) : Prop :=
  forall s v st d, In s astates ->
  reach (fun f => run f ((s, v) :: st) (B ++ rest) d)
        (fun f => cont (ev T d) (fun v' d' => run f ((goto_state s 35, v') :: (s, v) :: st) rest d')).

Lemma consumes_wrap : forall n B T rest, la_sym rest = 0 -> consumes B T rest ->
  consumes (bars n ++ B) (wrap n T) rest.
Proof.
  induction n as [|n IH]; intros B T rest Hr H; auto.
  intros s v st d Hs. cbn [bars repeat app wrap]. fold (bars n).
  assert (s <> 10) by (cbn in Hs; lia).
  shiftL 8; [cbn in Hs; each Hs; reflexivity|].
  eapply reach_trans; [apply (IH B T rest Hr H); cbn; tauto|].
  rewrite ev_PN. cbn [Grammar.evs Grammar.ev bind tk].
  destruct (Grammar.ev inj act (wrap n T) d) as [[? ?|?]| | | |]; cbn [cont bind]; try apply reach_refl.
  eapply reach_trans; [apply r_reduce with (r := 24); [rewrite Hr; reflexivity|ne10|reflexivity]|].
  apply reach_refl.
Qed.

Lemma complete_alist : forall a rest, (atrail a <= 1)%nat -> la_sym rest = 0 -> consumes (atoks a) (atree a) rest.
Proof.
  induction a as [n i k|n i r IH]; intros rest Hk Hr; cbn [atoks atree].
  - destruct k as [|[|k]]; [| |cbn in Hk; lia]; apply consumes_wrap; auto; intros s v st d Hs.
    + cbn [bars repeat]. rewrite app_nil_r. apply complete_item; auto. rewrite Hr. cbn; tauto.
    + cbn [bars repeat]. rewrite <- app_assoc. cbn [app].
      eapply reach_trans; [apply complete_item; [auto|cbn; tauto]|].
      rewrite ev_PN. cbn [Grammar.evs].
      destruct (Grammar.ev inj act (itree i) d) as [[? ?|?]| | | |]; cbn [cont bind Grammar.ev tk]; try apply reach_refl.
      shiftL 23; [cbn in Hs; each Hs; reflexivity|cbn in Hs; each Hs; ne10|].
      eapply reach_trans; [apply r_reduce with (r := 25); [rewrite Hr; reflexivity|ne10|reflexivity]|].
      apply reach_refl.
  - apply consumes_wrap; auto. intros s v st d Hs. rewrite <- app_assoc. cbn [app].
    eapply reach_trans; [apply complete_item; [auto|cbn; tauto]|].
    rewrite ev_PN. cbn [Grammar.evs].
    destruct (Grammar.ev inj act (itree i) d) as [[? ?|?]| | | |]; cbn [cont bind Grammar.ev tk]; try apply reach_refl.
    shiftL 23; [cbn in Hs; each Hs; reflexivity|cbn in Hs; each Hs; ne10|].
    eapply reach_trans; [apply IH; [exact Hk|exact Hr|cbn; tauto]|].
    destruct (Grammar.ev inj act (atree r) d0) as [[? ?|?]| | | |]; cbn [cont bind Grammar.ev tk]; try apply reach_refl.
    eapply reach_trans; [apply r_reduce with (r := 26); [rewrite Hr; reflexivity|ne10|reflexivity]|].
    apply reach_refl.
Qed.

(** Two or more separators at the end are never accepted. *)
Definition dead (A : nat -> res (presult D)) : Prop := exists n, forall f d, A (n + f)%nat <> Ok (Accepted d).
Lemma reach_dead : forall A B, reach A B -> dead B -> dead A.
Proof.
  intros A B [n H] [m K]. exists (n + m)%nat. intros f d. rewrite <- Nat.add_assoc, H. apply K.
Qed.
Lemma dead_cont : forall (o : res (eres V)) (K : nat -> V -> D -> res (presult D)),
  (forall v d, o = Ok (EV v d) -> dead (fun f => K f v d)) -> dead (fun f => cont o (K f)).
Proof.
  intros [[v d|d]|e| | |] K H; cbn [cont]; [apply H; reflexivity|..]; exists O; intros; discriminate.
Qed.
Lemma dead_bars : forall n s v st rest d, In s astates -> la_sym rest = 0 -> (s = 23 -> (1 <= n)%nat) ->
  dead (fun f => run f ((s, v) :: st) (bars n ++ rest) d).
Proof.
  induction n as [|n IH]; intros s v st rest d Hs Hr Hn; cbn [bars repeat app].
  - exists 1%nat. intros f d'. cbn [Nat.add Parser.run]. rewrite Hr.
    assert (s = 2 \/ s = 8) as [-> | ->] by (cbn in Hs; lia); discriminate.
  - eapply reach_dead; [apply r_shift with (s' := 8); [cbn in Hs; each Hs; reflexivity|cbn in Hs; each Hs; ne10]|].
    apply IH; [cbn; tauto|auto|lia].
Qed.
Lemma dead_leading : forall n B rest, (forall s v st d, In s astates -> dead (fun f => run f ((s, v) :: st) (B ++ rest) d)) ->
  forall s v st d, In s astates -> dead (fun f => run f ((s, v) :: st) ((bars n ++ B) ++ rest) d).
Proof.
  induction n as [|n IH]; intros B rest H s v st d Hs; cbn [bars repeat app]; [apply H; auto|].
  eapply reach_dead; [apply r_shift with (s' := 8); [cbn in Hs; each Hs; reflexivity|cbn in Hs; each Hs; ne10]|].
  apply IH; auto. cbn; tauto.
Qed.
Lemma dead_trail : forall a rest, (2 <= atrail a)%nat -> la_sym rest = 0 ->
  forall s v st d, In s astates -> dead (fun f => run f ((s, v) :: st) (atoks a ++ rest) d).
Proof.
  induction a as [n i k|n i r IH]; intros rest Hk Hr; cbn [atoks atrail] in *; apply dead_leading; intros s v st d Hs;
    rewrite <- app_assoc.
  - destruct k as [|[|k]]; [lia..|].
    eapply reach_dead; [apply complete_item; [auto|cbn; tauto]|].
    apply dead_cont. intros v' d' _. cbn [bars repeat app].
    eapply reach_dead; [apply r_shift with (s' := 23); [cbn in Hs; each Hs; reflexivity|cbn in Hs; each Hs; ne10]|].
    apply (dead_bars (S k) 23); [cbn; tauto|auto|lia].
  - cbn [app]. eapply reach_dead; [apply complete_item; [auto|cbn; tauto]|].
    apply dead_cont. intros v' d' _.
    eapply reach_dead; [apply r_shift with (s' := 23); [cbn in Hs; each Hs; reflexivity|cbn in Hs; each Hs; ne10]|].
    apply IH; auto. cbn; tauto.
Qed.

(** ** Whole inputs *)
Definition accept_with (o : res (eres V)) : res (presult D) := cont o (fun _ d => Ok (Accepted d)).

Lemma start_policy : forall e rest v0 d, well e = true -> la_sym rest = 0 ->
  reach (fun f => run f [(0, v0)] ((START_POLICY, NoVal) :: ptoks e ++ rest) d)
        (fun f => match f with O => accept_with (ev (PN 2 [PT (START_POLICY, NoVal); ptree e]) d)
                  | S _ => accept_with (ev (PN 2 [PT (START_POLICY, NoVal); ptree e]) d) end).
Proof.
  intros e rest v0 d W Hr.
  shift 1. eapply reach_trans.
  { apply complete; auto; [split; [cbn; tauto|lia]|unfold follow; rewrite Hr; cbn; tauto|lia]. }
  rewrite ev_PN. cbn [Grammar.evs Grammar.ev bind].
  destruct (Grammar.ev inj act (ptree e) d) as [[? ?|?]| | | |]; cbn [cont bind accept_with];
    try (exists O; intros []; reflexivity).
  eapply reach_trans; [apply r_reduce with (r := 2); [rewrite Hr; reflexivity|ne10|reflexivity]|].
  cbn [firstn Z.to_nat znth rev map app].
  match goal with |- reach (fun f => cont (of_act _ ?o) _) _ => change o with (act 2 [inj NoVal; v] d0) end.
  destruct (act 2 [inj NoVal; v] d0) as [[[v' d']|]| | | |]; cbn [of_act bind cont accept_with];
    try (exists O; intros []; reflexivity).
  exists 2%nat. intro f. cbn [Nat.add Parser.run].
  change (goto_state 0 (znth yyr1 2) =? yyfinal) with false. cbn iota.
  rewrite Hr. change (move (goto_state 0 (znth yyr1 2)) 0) with (Shift 10). cbn iota.
  change (10 =? yyfinal) with true. destruct f; reflexivity.
Qed.
Lemma start_attrs : forall a rest v0 d, (atrail a <= 1)%nat -> la_sym rest = 0 ->
  reach (fun f => run f [(0, v0)] ((START_ATTRLIST, NoVal) :: atoks a ++ rest) d)
        (fun f => match f with O => accept_with (ev (PN 3 [PT (START_ATTRLIST, NoVal); atree a]) d)
                  | S _ => accept_with (ev (PN 3 [PT (START_ATTRLIST, NoVal); atree a]) d) end).
Proof.
  intros a rest v0 d W Hr.
  shift 2. eapply reach_trans.
  { apply complete_alist; auto. cbn; tauto. }
  rewrite ev_PN. cbn [Grammar.evs Grammar.ev bind].
  destruct (Grammar.ev inj act (atree a) d) as [[? ?|?]| | | |]; cbn [cont bind accept_with];
    try (exists O; intros []; reflexivity).
  eapply reach_trans; [apply r_reduce with (r := 3); [rewrite Hr; reflexivity|ne10|reflexivity]|].
  cbn [firstn Z.to_nat znth rev map app].
  match goal with |- reach (fun f => cont (of_act _ ?o) _) _ => change o with (act 3 [inj NoVal; v] d0) end.
  destruct (act 3 [inj NoVal; v] d0) as [[[v' d']|]| | | |]; cbn [of_act bind cont accept_with];
    try (exists O; intros []; reflexivity).
  exists 2%nat. intro f. cbn [Nat.add Parser.run].
  change (goto_state 0 (znth yyr1 3) =? yyfinal) with false. cbn iota.
  rewrite Hr. change (move (goto_state 0 (znth yyr1 3)) 0) with (Shift 10). cbn iota.
  change (10 =? yyfinal) with true. destruct f; reflexivity.
Qed.

Hypothesis NA : act2_never_aborts act.
Hypothesis NF : forall r vs d, act r vs d <> NoFuel.

(** The fuel of [parse_string] is enough. *)
Lemma enough : forall v0 d toks f, (f >= 4 * length toks + 3)%nat -> run f [(0, v0)] toks d <> NoFuel.
Proof.
  intros v0 d toks f Hf E.
  pose proof (run_final inj act v0 d NA f [(0, v0)] [] d toks (stk_base _ _ _ _) ltac:(cbn [weight]; lia)) as F.
  rewrite E in F. cbn [final] in F. destruct F as (r & vs & d' & F). exact (NF _ _ _ F).
Qed.
Lemma settled : forall v0 d toks f X, (f >= 4 * length toks + 3)%nat ->
  reach (fun f => run f [(0, v0)] toks d) (fun f => match f with O => X | S _ => X end) -> run f [(0, v0)] toks d = X.
Proof.
  intros v0 d toks f X Hf [n H].
  assert (run (f + n) [(0, v0)] toks d = X) as E.
  { specialize (H f). rewrite (Nat.add_comm n f) in H. rewrite H. destruct f; reflexivity. }
  rewrite <- E. symmetry. apply run_more; [lia|]. apply enough. exact Hf.
Qed.

Lemma run_policy : forall e rest v0 d f, well e = true -> la_sym rest = 0 ->
  (f >= 4 * length ((START_POLICY, NoVal) :: ptoks e ++ rest) + 3)%nat ->
  run f [(0, v0)] ((START_POLICY, NoVal) :: ptoks e ++ rest) d =
  accept_with (ev (PN 2 [PT (START_POLICY, NoVal); ptree e]) d).
Proof. intros. apply settled; auto. apply start_policy; auto. Qed.
Lemma run_attrs : forall a rest v0 d f, (atrail a <= 1)%nat -> la_sym rest = 0 ->
  (f >= 4 * length ((START_ATTRLIST, NoVal) :: atoks a ++ rest) + 3)%nat ->
  run f [(0, v0)] ((START_ATTRLIST, NoVal) :: atoks a ++ rest) d =
  accept_with (ev (PN 3 [PT (START_ATTRLIST, NoVal); atree a]) d).
Proof. intros. apply settled; auto. apply start_attrs; auto. Qed.
Lemma run_trail : forall a rest v0 d f d', (2 <= atrail a)%nat -> la_sym rest = 0 ->
  run f [(0, v0)] ((START_ATTRLIST, NoVal) :: atoks a ++ rest) d <> Ok (Accepted d').
Proof.
  intros a rest v0 d f d' Ha Hr E.
  assert (dead (fun f => run f [(0, v0)] ((START_ATTRLIST, NoVal) :: atoks a ++ rest) d)) as [n K].
  { eapply reach_dead; [apply r_shift with (s' := 2); [reflexivity|ne10]|]. apply dead_trail; auto. cbn; tauto. }
  apply (K f d'). rewrite (run_more inj act f (n + f)); [exact E|lia|]. rewrite E. discriminate.
Qed.
End Attr.

(** ** From derivation trees back to the abstract syntax *)
Definition tok_typed (t : tok) : Prop :=
  match t with
  | (c, v) => if c =? LEAF then exists s, v = StrVal s
              else if c =? UINT then exists n, v = UIntVal n
              else 0 < c -> c <> ERROR -> v = NoVal
  end.
Definition code_of (x : Z) : Z :=
  match x with
  | 3 => 258 | 4 => 259 | 5 => 260 | 9 => 264 | 10 => 265 | 12 => 267 | 14 => 269 | 15 => 270 | 16 => 271
  | 17 => 272 | 18 => 273 | 19 => 274 | 20 => 35 | 21 => 60 | 22 => 62 | 23 => 40 | 24 => 41 | 25 => 45 | 26 => 123
  | 27 => 125 | 28 => 61 | 29 => 44 | 30 => 124 | _ => -1
  end.
Lemma translate_inv : forall c, code_of (yytranslate c) <> -1 -> c = code_of (yytranslate c).
Proof.
  intros c H. unfold yytranslate in *. destruct (c <=? 0) eqn:E0; [cbn in H; congruence|].
  destruct (c <=? 274) eqn:E1; [|cbn in H; congruence].
  assert (forallb (fun c => (code_of (znth translate_table c) =? -1) || (c =? code_of (znth translate_table c)))
            (map Z.of_nat (seq 0 275)) = true) as C by (vm_compute; reflexivity).
  rewrite forallb_forall in C. specialize (C c). cbn beta in C.
  assert (In c (map Z.of_nat (seq 0 275))) as I. { apply in_map_iff. exists (Z.to_nat c). split; [lia|]. apply in_seq. lia. }
  specialize (C I). lia.
Qed.
Lemma pt_term : forall p x, psym p = x -> 0 <= x < 31 -> code_of x <> -1 -> wf_pt p ->
  Forall tok_typed (yield p) -> exists v, p = PT (code_of x, v) /\ tok_typed (code_of x, v).
Proof.
  intros [[c v]|r ks] x H Hx Hc W T.
  - cbn in H. subst x. exists v. rewrite <- (translate_inv c Hc). split; auto. inversion T; auto.
  - cbn in H. cbn in W. pose proof (lhs_range r ltac:(tauto)). lia.
Qed.
Lemma pt_plain : forall p x, psym p = x -> 0 <= x < 31 -> code_of x <> -1 -> x <> 4 -> x <> 5 -> x <> 16 -> wf_pt p ->
  Forall tok_typed (yield p) -> yield p = [tk (code_of x)].
Proof.
  intros p x H Hx Hc N1 N2 N3 W T. destruct (pt_term p x H Hx Hc W T) as (v & -> & Ty).
  assert (code_of x <> LEAF /\ code_of x <> UINT /\ 0 < code_of x /\ code_of x <> ERROR) as (C1 & C2 & C3 & C4).
  { clear -N1 N2 N3 Hc Hx.
    assert (forallb (fun x => (x =? 4) || (x =? 5) || (x =? 16) || (code_of x =? -1) ||
      (negb (code_of x =? LEAF) && negb (code_of x =? UINT) && (0 <? code_of x) && negb (code_of x =? ERROR))) symbols = true) as C by (vm_compute; reflexivity).
    rewrite forallb_forall in C. specialize (C x (in_symbols x ltac:(lia))). cbn beta in C. lia. }
  unfold tok_typed in Ty. replace (code_of x =? LEAF) with false in Ty by lia. replace (code_of x =? UINT) with false in Ty by lia.
  rewrite (Ty C3 C4). reflexivity.
Qed.
Lemma pt_leaf : forall p, psym p = 4 -> wf_pt p -> Forall tok_typed (yield p) -> exists s, yield p = [leaf_tok s].
Proof.
  intros p H W T. destruct (pt_term p 4 H ltac:(lia) ltac:(cbn; lia) W T) as (v & -> & Ty). cbn in Ty. destruct Ty as [s ->]. exists s; reflexivity.
Qed.
Lemma pt_uint : forall p, psym p = 5 -> wf_pt p -> Forall tok_typed (yield p) -> exists n, yield p = [uint_tok n].
Proof.
  intros p H W T. destruct (pt_term p 5 H ltac:(lia) ltac:(cbn; lia) W T) as (v & -> & Ty). cbn in Ty. destruct Ty as [s ->]. exists s; reflexivity.
Qed.

(** Shapes of the children of a node. *)
Ltac kids := repeat match goal with
  | H : map psym ?l = [] |- _ => destruct l; [clear H|discriminate]
  | H : map psym ?l = _ :: _ |- _ => destruct l as [|? ?]; [discriminate|]; cbn [map] in H; injection H as ? H
  end.
Ltac typed_kids T W := cbn [yield flat_map] in T; cbn [fold_right] in W;
  repeat match type of T with Forall _ (_ ++ _) => idtac | _ => idtac end;
  rewrite ?Forall_app in T.

Lemma derive_num : forall p, psym p = 33 -> wf_pt p -> Forall tok_typed (yield p) -> exists n, yield p = ntoks n.
Proof.
  intros [[c v]|r ks] H W T; cbn in H; [pose proof (translate_range c); lia|].
  cbn [wf_pt] in W. destruct W as (Hr & Hm & Hk).
  assert (r = 4 \/ r = 5) as [-> | ->].
  { unfold lhs in H. repeat match type of H with (if ?b then _ else _) = _ => destruct b eqn:?; try lia end. }
  - cbn [rhs] in Hm. kids. cbn [fold_right] in Hk. cbn [yield flat_map] in *. rewrite !app_nil_r in *.
    rewrite !Forall_app in T. destruct Hk as (K1 & K2 & K3 & _). destruct T as (T1 & T2 & T3).
    destruct (pt_uint p) as [a Ea]; auto. destruct (pt_uint p1) as [b Eb]; auto.
    rewrite Ea, Eb, (pt_plain p0 20); auto; try lia; try (cbn; lia). exists (Num a (Some b)). reflexivity.
  - cbn [rhs] in Hm. kids. cbn [fold_right] in Hk. cbn [yield flat_map] in *. rewrite !app_nil_r in *.
    destruct (pt_uint p) as [a Ea]; auto; [tauto|]. rewrite Ea. exists (Num a None). reflexivity.
Qed.

Lemma join_or : forall b a, well a = true -> well b = true ->
  exists e, well e = true /\ ptoks e = ptoks a ++ tk OR :: ptoks b.
Proof.
  induction b; intros a' Wa Wb; match goal with |- exists e, _ /\ _ = _ ++ _ :: ptoks ?b =>
    try (exists (EOr a' b); change (well (EOr a' b)) with (well a' && well b && negb (is_or b)); rewrite Wa, Wb; split; reflexivity) end.
  cbn [well] in Wb. rewrite !andb_true_iff in Wb. destruct Wb as ((W1 & W2) & W3).
  destruct (IHb1 a' Wa W1) as (e & We & Te).
  exists (EOr e b2). cbn [well ptoks]. rewrite We, W2, W3. split; [reflexivity|]. rewrite Te, <- app_assoc. reflexivity.
Qed.
Lemma join_and0 : forall b a, well a = true -> well b = true -> is_or a = false ->
  exists e, well e = true /\ ptoks e = ptoks a ++ tk AND :: ptoks b /\ (is_or b = false -> is_or e = false).
Proof.
  induction b; intros a' Wa Wb Oa;
    match goal with |- exists e, _ /\ (_ = _ ++ _ :: ptoks ?b) /\ _ =>
      try (exists (EAnd a' b); change (well (EAnd a' b)) with (well a' && well b && negb (is_or a') && negb (is_or b) && negb (is_and b));
        rewrite Wa, Wb, Oa; split; [reflexivity|split; [reflexivity|reflexivity]]) end.
  - cbn [well] in Wb. rewrite !andb_true_iff, !negb_true_iff in Wb. destruct Wb as ((((W1 & W2) & W3) & W4) & W5).
    destruct (IHb1 a' Wa W1 Oa) as (e & We & Te & Oe).
    exists (EAnd e b2). cbn [well ptoks is_or]. rewrite We, W2, W4, W5, (Oe W3). split; [reflexivity|].
    split; auto. rewrite Te, <- app_assoc. reflexivity.
  - cbn [well] in Wb. rewrite !andb_true_iff, !negb_true_iff in Wb. destruct Wb as ((W1 & W2) & W3).
    destruct (IHb1 a' Wa W1 Oa) as (e & We & Te & _).
    exists (EOr e b2). cbn [well ptoks is_or]. rewrite We, W2, W3. split; [reflexivity|].
    split; [|discriminate]. rewrite Te, <- app_assoc. reflexivity.
Qed.
Lemma join_and : forall a b, well a = true -> well b = true ->
  exists e, well e = true /\ ptoks e = ptoks a ++ tk AND :: ptoks b.
Proof.
  induction a; intros b' Wa Wb; try (edestruct join_and0 as (e & We & Te & _); [exact Wa|exact Wb|reflexivity|exists e; split; [exact We|exact Te]]).
  cbn [well] in Wa. rewrite !andb_true_iff, !negb_true_iff in Wa. destruct Wa as ((W1 & W2) & W3).
  destruct (IHa2 b' W2 Wb) as (e & We & Te).
  destruct (join_or e a1 W1 We) as (e' & We' & Te').
  exists e'. split; auto. rewrite Te', Te. cbn [ptoks]. rewrite <- app_assoc. reflexivity.
Qed.

Fixpoint pt_size (p : pt) : nat :=
  match p with PT _ => 1 | PN _ ks => S (fold_right (fun k n => pt_size k + n)%nat O ks) end.

Lemma derive_policy : forall m p, (pt_size p <= m)%nat -> psym p = 34 -> wf_pt p -> Forall tok_typed (yield p) ->
  exists e, well e = true /\ yield p = ptoks e.
Proof.
  induction m as [|m IH]; intros [[c v]|r ks] Hm H W T; cbn in H; try (cbn in Hm; lia); [pose proof (translate_range c); lia|].
  cbn [wf_pt] in W. destruct W as (Hr & Hs & Hk).
  assert (6 <= r <= 22) as R.
  { unfold lhs in H. repeat match type of H with (if ?b then _ else _) = _ => destruct b eqn:?; try lia end. }
  cbn [pt_size] in Hm.
  assert (r = 6 \/ r = 7 \/ r = 8 \/ r = 9 \/ r = 10 \/ r = 11 \/ r = 12 \/ r = 13 \/ r = 14 \/ r = 15 \/ r = 16 \/
    r = 17 \/ r = 18 \/ r = 19 \/ r = 20 \/ r = 21 \/ r = 22) as Cases by lia.
  repeat (destruct Cases as [->|Cases]); [..|subst r]; cbn [rhs] in Hs; kids; cbn [fold_right] in Hk, Hm;
    cbn [yield flat_map] in *; rewrite ?app_nil_r in *; rewrite ?Forall_app in T;
    repeat match goal with H : _ /\ _ |- _ => destruct H end.
  all: repeat match goal with
    | H : psym ?q = 4 |- _ => let s := fresh "s" in let E := fresh "E" in
        destruct (pt_leaf q H) as [s E]; [assumption|assumption|]; rewrite E in *; clear H
    | H : psym ?q = 33 |- _ => let s := fresh "n" in let E := fresh "E" in
        destruct (derive_num q H) as [s E]; [assumption|assumption|]; rewrite E in *; clear H
    | H : psym ?q = 34 |- _ => let s := fresh "e" in let E := fresh "E" in let W := fresh "W" in
        destruct (IH q ltac:(lia) H) as (s & W & E); [assumption|assumption|]; rewrite E in *; clear H
    | H : psym ?q = ?x |- _ => let E := fresh "E" in
        assert (yield q = [tk (code_of x)]) as E by (apply (pt_plain q x H); [lia|cbn; lia|lia|lia|lia|assumption|assumption]);
        rewrite E in *; clear H
    end.
  - exists (EAttr s). split; reflexivity.
  - match goal with |- exists _, _ /\ ptoks ?a ++ _ ++ ptoks ?b = _ =>
      destruct (join_or b a) as (e' & We & Te); auto; exists e'; split; [exact We|]; rewrite Te; reflexivity end.
  - match goal with |- exists _, _ /\ ptoks ?a ++ _ ++ ptoks ?b = _ =>
      destruct (join_and a b) as (e' & We & Te); auto; exists e'; split; [exact We|]; rewrite Te; reflexivity end.
  - exists (ECmp RLt s n). split; reflexivity.
  - exists (ECmp RGt s n). split; reflexivity.
  - exists (ECmp RLe s n). split; reflexivity.
  - exists (ECmp RGe s n). split; reflexivity.
  - exists (ECmp REq s n). split; reflexivity.
  - exists (EPar e). split; auto.
  - refine (ex_intro _ (ERange false _ _ _) (conj eq_refl eq_refl)).
  - refine (ex_intro _ (ERange true _ _ _) (conj eq_refl eq_refl)).
  - refine (ex_intro _ (EDate REq _ _ _ _) (conj eq_refl eq_refl)).
  - refine (ex_intro _ (EDateRange _ _ _ _ _) (conj eq_refl eq_refl)).
  - refine (ex_intro _ (EDate RGt _ _ _ _) (conj eq_refl eq_refl)).
  - refine (ex_intro _ (EDate RLt _ _ _ _) (conj eq_refl eq_refl)).
  - refine (ex_intro _ (EDate RGe _ _ _ _) (conj eq_refl eq_refl)).
  - refine (ex_intro _ (EDate RLe _ _ _ _) (conj eq_refl eq_refl)).
Qed.

Definition lead (m : nat) (a : alist) : alist :=
  match a with AOne n i k => AOne (m + n) i k | AMore n i r => AMore (m + n) i r end.
Lemma bars_app : forall m n, bars (m + n) = bars m ++ bars n.
Proof. intros. apply repeat_app. Qed.
Lemma lead_toks : forall m a, atoks (lead m a) = bars m ++ atoks a.
Proof. intros m [n i k|n i r]; cbn [lead atoks]; rewrite bars_app, <- app_assoc; reflexivity. Qed.
Fixpoint trail1 (a : alist) : alist :=
  match a with AOne n i k => AOne n i (k + 1) | AMore n i r => AMore n i (trail1 r) end.
Lemma trail1_toks : forall a, atoks (trail1 a) = atoks a ++ [tk c_bar].
Proof.
  induction a as [n i k|n i r IH]; cbn [trail1 atoks].
  - rewrite bars_app, <- !app_assoc. reflexivity.
  - rewrite IH, <- !app_assoc. reflexivity.
Qed.
Fixpoint ajoin (a b : alist) : alist :=
  match a with AOne n i k => AMore n i (lead k b) | AMore n i r => AMore n i (ajoin r b) end.
Lemma bars_snoc : forall k, bars k ++ [tk c_bar] = tk c_bar :: bars k.
Proof. induction k as [|k IH]; auto. cbn [bars repeat app] in *. unfold bars in IH. rewrite IH. reflexivity. Qed.
Lemma ajoin_toks : forall a b, atoks (ajoin a b) = atoks a ++ tk c_bar :: atoks b.
Proof.
  induction a as [n i k|n i r IH]; intro b; cbn [ajoin atoks].
  - rewrite lead_toks, <- !app_assoc. f_equal. f_equal.
    change (tk c_bar :: bars k ++ atoks b) with ((tk c_bar :: bars k) ++ atoks b).
    rewrite <- bars_snoc, <- app_assoc. reflexivity.
  - rewrite IH, <- !app_assoc. reflexivity.
Qed.

Lemma derive_alist : forall m p, (pt_size p <= m)%nat -> psym p = 35 -> wf_pt p -> Forall tok_typed (yield p) ->
  exists a, yield p = atoks a.
Proof.
  induction m as [|m IH]; intros [[c v]|r ks] Hm H W T; cbn in H; try (cbn in Hm; lia); [pose proof (translate_range c); lia|].
  cbn [wf_pt] in W. destruct W as (Hr & Hs & Hk).
  assert (23 <= r <= 28) as R.
  { unfold lhs in H. repeat match type of H with (if ?b then _ else _) = _ => destruct b eqn:?; try lia end. }
  cbn [pt_size] in Hm.
  assert (r = 23 \/ r = 24 \/ r = 25 \/ r = 26 \/ r = 27 \/ r = 28) as Cases by lia.
  repeat (destruct Cases as [->|Cases]); [..|subst r]; cbn [rhs] in Hs; kids; cbn [fold_right] in Hk, Hm;
    cbn [yield flat_map] in *; rewrite ?app_nil_r in *; rewrite ?Forall_app in T;
    repeat match goal with H : _ /\ _ |- _ => destruct H end.
  all: repeat match goal with
    | H : psym ?q = 4 |- _ => let s := fresh "s" in let E := fresh "E" in
        destruct (pt_leaf q H) as [s E]; [assumption|assumption|]; rewrite E in *; clear H
    | H : psym ?q = 33 |- _ => let s := fresh "n" in let E := fresh "E" in
        destruct (derive_num q H) as [s E]; [assumption|assumption|]; rewrite E in *; clear H
    | H : psym ?q = 35 |- _ => let s := fresh "a" in let E := fresh "E" in
        destruct (IH q ltac:(lia) H) as (s & E); [assumption|assumption|]; rewrite E in *; clear H
    | H : psym ?q = ?x |- _ => let E := fresh "E" in
        assert (yield q = [tk (code_of x)]) as E by (apply (pt_plain q x H); [lia|cbn; lia|lia|lia|lia|assumption|assumption]);
        rewrite E in *; clear H
    end.
  - exists (AOne 0 (IName s) 0). reflexivity.
  - exists (lead 1 a). rewrite lead_toks. reflexivity.
  - exists (trail1 a). rewrite trail1_toks. reflexivity.
  - match goal with |- exists _, atoks ?x ++ _ ++ atoks ?y = _ => exists (ajoin x y) end. rewrite ajoin_toks. reflexivity.
  - exists (AOne 0 (INum s n) 0). cbn [atoks bars repeat app itoks]. rewrite app_nil_r. reflexivity.
  - match goal with |- exists _, _ ++ _ ++ [leaf_tok ?b] ++ ntoks ?n ++ _ ++ ntoks ?y = _ =>
      match goal with |- exists _, [leaf_tok ?x] ++ _ = _ => exists (AOne 0 (IDate x b n y) 0) end end.
    cbn [atoks bars repeat app itoks]. rewrite app_nil_r. reflexivity.
Qed.

Section Exact.
Context {V D : Type}.
Variable inj : yylval -> V.
Variable act : Z -> list V -> D -> res (option (V * D)).
Notation ev := (ev inj act).
Notation run := (run inj act).
Hypothesis NA : act2_never_aborts act.
Hypothesis NF : forall r vs d, act r vs d <> NoFuel.

Lemma accepted_tree : forall v0 d f toks d', (f >= 4 * length toks + 3)%nat ->
  Forall tok_typed toks -> run f [(0, v0)] toks d = Ok (Accepted d') ->
  exists rest, la_sym rest = 0 /\
    ((exists e, well e = true /\ toks = (START_POLICY, NoVal) :: ptoks e ++ rest) \/
     (exists a, toks = (START_ATTRLIST, NoVal) :: atoks a ++ rest)).
Proof.
  intros v0 d f toks d' Hf T E.
  pose proof (run_final inj act v0 d NA f [(0, v0)] [] d toks (stk_base _ _ _ _) ltac:(cbn [weight]; lia)) as F.
  rewrite E in F. cbn [final] in F. destruct F as (p & v & rest & W & P & _ & Ey & Hr).
  cbn [yields rev flat_map app] in Ey. exists rest. split; auto.
  rewrite Ey in T. rewrite Forall_app in T. destruct T as [T _].
  destruct p as [[c x]|r ks]; cbn in P; [pose proof (translate_range c); lia|].
  cbn [wf_pt] in W. destruct W as (Hr2 & Hs & Hk).
  assert (r = 2 \/ r = 3) as [-> | ->].
  { unfold lhs in P. repeat match type of P with (if ?b then _ else _) = _ => destruct b eqn:?; try lia end. }
  - cbn [rhs] in Hs. kids. cbn [fold_right] in Hk. cbn [yield flat_map] in *. rewrite app_nil_r in *.
    rewrite Forall_app in T. destruct T as [T1 T2]. destruct Hk as (K1 & K2 & _).
    destruct (derive_policy _ p0 (le_n _)) as (e & We & Ye); auto.
    rewrite (pt_plain p 17) in Ey; auto; try lia; try (cbn; lia).
    left. exists e. split; auto. rewrite Ye in Ey. rewrite <- app_assoc in Ey. exact Ey.
  - cbn [rhs] in Hs. kids. cbn [fold_right] in Hk. cbn [yield flat_map] in *. rewrite app_nil_r in *.
    rewrite Forall_app in T. destruct T as [T1 T2]. destruct Hk as (K1 & K2 & _).
    destruct (derive_alist _ p0 (le_n _)) as (a & Ye); auto.
    rewrite (pt_plain p 18) in Ey; auto; try lia; try (cbn; lia).
    right. exists a. rewrite Ye in Ey. rewrite <- app_assoc in Ey. exact Ey.
Qed.

(** Exactly which inputs are accepted, and with which result. *)
Lemma policy_exact : forall v0 d f toks d', (f >= 4 * length ((START_POLICY, NoVal) :: toks) + 3)%nat ->
  Forall tok_typed toks ->
  (run f [(0, v0)] ((START_POLICY, NoVal) :: toks) d = Ok (Accepted d') <->
   exists e rest v, well e = true /\ la_sym rest = 0 /\ toks = ptoks e ++ rest /\
     ev (PN 2 [PT (START_POLICY, NoVal); ptree e]) d = Ok (EV v d')).
Proof.
  intros v0 d f toks d' Hf T. split.
  - intro E. destruct (accepted_tree v0 d f _ d' Hf) with (2 := E) as (rest & Hr & [(e & We & Et)|(a & Et)]);
      [constructor; auto; cbn; auto| |discriminate].
    injection Et as Et. rewrite Et in E, Hf. rewrite (run_policy inj act NA NF e rest v0 d f We Hr Hf) in E.
    unfold accept_with in E.
    destruct (ev (PN 2 [PT (START_POLICY, NoVal); ptree e]) d) as [[v d1|]| | | |] eqn:Ev; cbn [cont] in E; try discriminate.
    injection E as ->. exists e, rest, v. auto.
  - intros (e & rest & v & We & Hr & -> & Ev).
    rewrite (run_policy inj act NA NF e rest v0 d f We Hr Hf). unfold accept_with. rewrite Ev. reflexivity.
Qed.
Lemma attrs_exact : forall v0 d f toks d', (f >= 4 * length ((START_ATTRLIST, NoVal) :: toks) + 3)%nat ->
  Forall tok_typed toks ->
  (run f [(0, v0)] ((START_ATTRLIST, NoVal) :: toks) d = Ok (Accepted d') <->
   exists a rest v, (atrail a <= 1)%nat /\ la_sym rest = 0 /\ toks = atoks a ++ rest /\
     ev (PN 3 [PT (START_ATTRLIST, NoVal); atree a]) d = Ok (EV v d')).
Proof.
  intros v0 d f toks d' Hf T. split.
  - intro E. destruct (accepted_tree v0 d f _ d' Hf) with (2 := E) as (rest & Hr & [(e & We & Et)|(a & Et)]);
      [constructor; auto; cbn; auto|discriminate|].
    injection Et as Et. rewrite Et in E, Hf.
    destruct (le_lt_dec 2 (atrail a)) as [Ha|Ha].
    { exfalso. exact (run_trail inj act a rest v0 d f d' Ha Hr E). }
    rewrite (run_attrs inj act NA NF a rest v0 d f ltac:(lia) Hr Hf) in E.
    unfold accept_with in E.
    destruct (ev (PN 3 [PT (START_ATTRLIST, NoVal); atree a]) d) as [[v d1|]| | | |] eqn:Ev; cbn [cont] in E; try discriminate.
    injection E as ->. exists a, rest, v. repeat split; auto. lia.
  - intros (a & rest & v & We & Hr & -> & Ev).
    rewrite (run_attrs inj act NA NF a rest v0 d f We Hr Hf). unfold accept_with. rewrite Ev. reflexivity.
Qed.
End Exact.
