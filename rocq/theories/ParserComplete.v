(** Completeness of the table-driven parser for texts that respect precedence. *)
From Verif Require Import Base Scanner Driver Parser Grammar PolicySyntax ParserSound ParserRun.
From Coq Require Import ZArith List Ascii Bool Lia ZifyBool ZifyNat.
Import ListNotations.
Open Scope Z_scope.

Section Complete.
Context {V D : Type}.
Variable inj : yylval -> V.
Variable act : Z -> list V -> D -> res (option (V * D)).
Notation ev := (ev inj act).
Notation evs := (evs inj act).
Notation run := (run inj act).

Definition reach (A B : nat -> res (presult D)) : Prop := exists n, forall f, A (n + f)%nat = B f.
Lemma reach_refl : forall A, reach A A.
Proof. intro A. exists O. reflexivity. Qed.
Lemma reach_trans : forall A B C, reach A B -> reach B C -> reach A C.
Proof.
  intros A B C [n H] [m K]. exists (n + m)%nat. intro f. rewrite <- Nat.add_assoc, H. apply K.
Qed.

Definition cont {A} (o : res (eres (D:=D) A)) (k : A -> D -> res (presult D)) : res (presult D) :=
  match o with
  | Ok (EV v d) => k v d | Ok (EA d) => Ok (Aborted d)
  | Throw e => Throw e | UB => UB | Exit => Exit | NoFuel => NoFuel
  end.
(** Result of one action. *)
Definition of_act (d : D) (o : res (option (V * D))) : res (eres (D:=D) V) :=
  bind o (fun a => match a with None => Ok (EA d) | Some (v, d2) => Ok (EV v d2) end).

Lemma r_shift : forall s v st c x toks d s', move s (yytranslate c) = Shift s' -> s <> 10 ->
  reach (fun f => run f ((s, v) :: st) ((c, x) :: toks) d)
        (fun f => run f ((s', inj x) :: (s, v) :: st) toks d).
Proof.
  intros s v st c x toks d s' H Hn. exists 1%nat. intro f. cbn [Nat.add Parser.run].
  replace (s =? yyfinal) with false by (unfold yyfinal; lia). cbn [la_sym la_val tl]. rewrite H. reflexivity.
Qed.
Lemma r_reduce : forall s v st toks d r s1 v1 below, move s (la_sym toks) = Reduce r -> s <> 10 ->
  skipn (Z.to_nat (znth yyr2 r)) ((s, v) :: st) = (s1, v1) :: below ->
  reach (fun f => run f ((s, v) :: st) toks d)
        (fun f => cont (of_act d (act r (map snd (rev (firstn (Z.to_nat (znth yyr2 r)) ((s, v) :: st)))) d))
           (fun v' d' => run f ((goto_state s1 (znth yyr1 r), v') :: (s1, v1) :: below) toks d')).
Proof.
  intros s v st toks d r s1 v1 below H Hn Hs. exists 1%nat. intro f. cbn [Nat.add Parser.run].
  replace (s =? yyfinal) with false by (unfold yyfinal; lia). rewrite H, Hs.
  destruct (act r _ d) as [[[v' d']|]| | | |]; reflexivity.
Qed.

Definition num_states := [11; 12; 13; 15; 16; 21; 26; 28; 30; 31; 32; 34; 36; 40; 53; 54; 55; 56; 57; 58; 59; 60; 61; 73].
Ltac each H := repeat (destruct H as [H|H]; [try subst|]); [.. | destruct H].

Lemma complete_num : forall n s v st rest d, In s num_states -> la_sym rest <> 20 ->
  reach (fun f => run f ((s, v) :: st) (ntoks n ++ rest) d)
        (fun f => cont (ev (ntree n) d) (fun v' d' => run f ((goto_state s 33, v') :: (s, v) :: st) rest d')).
Proof.
  intros [a [b|]] s v st rest d Hs Hr; cbn [ntoks app].
  - eapply reach_trans.
    { apply (r_shift s v st UINT (UIntVal a) _ d 24); [|cbn in Hs; each Hs; lia].
      cbn in Hs; each Hs; reflexivity. }
    eapply reach_trans. { apply r_shift with (s' := 43); [reflexivity|lia]. }
    eapply reach_trans. { apply r_shift with (s' := 52); [reflexivity|lia]. }
    eapply reach_trans. { apply r_reduce with (r := 4) (s1 := s) (v1 := v) (below := st); [reflexivity|lia|reflexivity]. }
    apply reach_refl.
  - eapply reach_trans.
    { apply (r_shift s v st UINT (UIntVal a) _ d 24); [|cbn in Hs; each Hs; lia].
      cbn in Hs; each Hs; reflexivity. }
    eapply reach_trans.
    { apply r_reduce with (r := 5) (s1 := s) (v1 := v) (below := st); [|lia|reflexivity].
      pose proof (la_range rest) as La. revert Hr La. generalize (la_sym rest). intros x Hr La.
      assert (forallb (fun x => (x =? 20) || match move 24 x with Reduce 5 => true | _ => false end)
                (map Z.of_nat (seq 0 31)) = true) as C by (vm_compute; reflexivity).
      rewrite forallb_forall in C. specialize (C x). cbn beta in C.
      assert (In x (map Z.of_nat (seq 0 31))) as I. { apply in_map_iff. exists (Z.to_nat x). split; [lia|]. apply in_seq. lia. }
      specialize (C I). replace (x =? 20) with false in C by lia. cbn [orb] in C.
      destruct (move 24 x) as [|r|]; try discriminate. destruct r as [|p|]; try discriminate.
      do 3 (destruct p; try discriminate). reflexivity. }
    apply reach_refl.
Qed.

Lemma ev_PT : forall c v d, ev (PT (c, v)) d = Ok (EV (inj v) d).
Proof. reflexivity. Qed.
Lemma of_act_eq : forall r vs d, of_act d (act r vs d) =
  bind (act r vs d) (fun a => match a with None => Ok (EA d) | Some (v, d2) => Ok (EV v d2) end).
Proof. reflexivity. Qed.

Definition follow (toks : list tok) : Prop := In (la_sym toks) [0; 9; 10; 24].
Definition pstates := [1; 5; 19; 20].
Definition allowed (s : Z) (e : pexp) : Prop :=
  In s pstates /\ (s = 19 -> is_or e = false) /\ (s = 20 -> is_or e = false /\ is_and e = false).

Ltac ne10 := first [lia | vm_compute; discriminate].
Ltac shift t := eapply reach_trans; [apply r_shift with (s' := t); [reflexivity|ne10]|].
Ltac shiftL t := eapply reach_trans; [apply r_shift with (s' := t); [|try ne10]|].
Ltac number := eapply reach_trans; [apply complete_num; [cbn; tauto|try discriminate]|].
Ltac outcome E := match goal with |- context [cont (Grammar.ev inj act (ntree ?n) ?d) _] =>
    destruct (Grammar.ev inj act (ntree n) d) as [[? ?|?]| | | |] eqn:E; cbn [cont bind]; try apply reach_refl end.
Ltac reduce x := eapply reach_trans; [apply r_reduce with (r := x); [reflexivity|ne10|reflexivity]|].

Lemma follow20 : forall rest, follow rest -> la_sym rest <> 20.
Proof. intros rest H. unfold follow in H. cbn in H. lia. Qed.

Lemma complete_atom : forall e, is_or e = false -> is_and e = false -> (forall a, e <> EPar a) ->
  forall s v st rest d, In s pstates -> follow rest ->
  reach (fun f => run f ((s, v) :: st) (ptoks e ++ rest) d)
        (fun f => cont (ev (ptree e) d) (fun v' d' => run f ((goto_state s 34, v') :: (s, v) :: st) rest d')).
Proof.
  intros e H1 H2 H3 s v st rest d Hs Hr.
  assert (s <> 10) as S10 by (cbn in Hs; lia).
  destruct e as [a|r a n|i a lo hi|r a m dd y|a m lo hi y|e1 e2|e1 e2|e1]; try discriminate; [..|exfalso; eapply H3; reflexivity];
    cbn [ptoks app ptree];
    (shiftL 4; [cbn in Hs; each Hs; reflexivity|]).
  - eapply reach_trans; [apply r_reduce with (r := 6); [|lia|reflexivity]|].
    + unfold follow in Hr. cbn in Hr. each Hr; rewrite <- Hr; reflexivity.
    + apply reach_refl.
  - assert (exists s2 s3, In s2 num_states /\ move 4 (yytranslate (fst (rel_tok r))) = Shift s2 /\ s2 <> 10 /\ s3 <> 10 /\
      goto_state s2 33 = s3 /\ (forall x, move s3 x = Reduce (rel_rule r)) /\ znth yyr2 (rel_rule r) = 3 /\ znth yyr1 (rel_rule r) = 34)
      as (s2 & s3 & A1 & A2 & A3 & A4 & A5 & A6 & A7 & A8).
    { destruct r; [exists 15, 33|exists 16, 35|exists 12, 27|exists 13, 29|exists 11, 25];
        repeat split; try lia; try reflexivity; cbn; tauto. }
    replace (rel_tok r) with (fst (rel_tok r), NoVal) by (destruct r; reflexivity).
    shiftL s2; [exact A2|].
    eapply reach_trans; [apply complete_num; [exact A1|apply follow20, Hr]|].
    cbn [fst]. rewrite ev_PN. cbn [Grammar.evs ev_PT Grammar.ev bind leaf_tok].
    destruct (Grammar.ev inj act (ntree n) d) as [[vn dn|?]| | | |]; cbn [cont bind]; try apply reach_refl.
    rewrite A5. eapply reach_trans; [apply r_reduce with (r := rel_rule r); [apply A6|lia|rewrite A7; reflexivity]|].
    rewrite A7, A8. apply reach_refl.
  - shift 14. destruct i; cbn [open_tok close_tok].
    + shift 31. rewrite <- app_assoc. number. rewrite ev_PN. cbn [Grammar.evs Grammar.ev bind leaf_tok tk open_tok close_tok date_rel_tok rel_tok].
      outcome E1. cbn [app]. shift 56. rewrite <- app_assoc. number. outcome E2. shift 72. reduce 16. apply reach_refl.
    + shift 30. rewrite <- app_assoc. number. rewrite ev_PN. cbn [Grammar.evs Grammar.ev bind leaf_tok tk open_tok close_tok date_rel_tok rel_tok].
      outcome E1. cbn [app]. shift 55. rewrite <- app_assoc. number. outcome E2. shift 71. reduce 15. apply reach_refl.
  - assert (exists s2 s3 s4 s5 s6, In s3 num_states /\ In s5 num_states /\
      move 4 (yytranslate (fst (date_rel_tok r))) = Shift s2 /\ move s2 4 = Shift s3 /\
      goto_state s3 33 = s4 /\ move s4 29 = Shift s5 /\ goto_state s5 33 = s6 /\
      (forall x, move s6 x = Reduce (date_rule r)) /\ znth yyr2 (date_rule r) = 6 /\ znth yyr1 (date_rule r) = 34 /\
      s2 <> 10 /\ s3 <> 10 /\ s4 <> 10 /\ s5 <> 10 /\ s6 <> 10)
      as (s2 & s3 & s4 & s5 & s6 & A1 & A2 & A3 & A4 & A5 & A6 & A7 & A8 & A9 & A10 & N2 & N3 & N4 & N5 & N6).
    { destruct r; [exists 15, 32, 48, 57, 66|exists 16, 34, 49, 58, 67|exists 12, 26, 44, 53, 62|exists 13, 28, 45, 54, 63|exists 17, 36, 50, 60, 69];
        repeat split; try lia; try reflexivity; cbn; tauto. }
    replace (date_rel_tok r) with (fst (date_rel_tok r), NoVal) by (destruct r; reflexivity).
    shiftL s2; [exact A3|]. shiftL s3; [exact A4|].
    rewrite <- app_assoc. eapply reach_trans; [apply complete_num; [exact A1|cbn; discriminate]|].
    cbn [fst]. rewrite ev_PN. cbn [Grammar.evs Grammar.ev bind leaf_tok tk open_tok close_tok date_rel_tok rel_tok].
    outcome E1. rewrite A5. cbn [app]. shiftL s5; [exact A6|].
    eapply reach_trans; [apply complete_num; [exact A2|apply follow20, Hr]|].
    outcome E2. rewrite A7.
    eapply reach_trans; [apply r_reduce with (r := date_rule r); [apply A8|lia|rewrite A9; reflexivity]|].
    rewrite A9, A10. apply reach_refl.
  - shift 17. shift 36. rewrite <- app_assoc. number. rewrite ev_PN. cbn [Grammar.evs Grammar.ev bind leaf_tok tk open_tok close_tok date_rel_tok rel_tok].
    outcome E1. cbn [app]. shift 59. rewrite <- app_assoc. number. outcome E2. cbn [app]. shift 73.
    eapply reach_trans; [apply complete_num; [cbn; tauto|apply follow20, Hr]|]. outcome E3.
    reduce 18. apply reach_refl.
Qed.

Lemma complete : forall e, well e = true -> forall s v st rest d, allowed s e -> follow rest ->
  (is_or e = true -> la_sym rest <> 10) ->
  reach (fun f => run f ((s, v) :: st) (ptoks e ++ rest) d)
        (fun f => cont (ev (ptree e) d) (fun v' d' => run f ((goto_state s 34, v') :: (s, v) :: st) rest d')).
Proof.
  induction e as [a|r a n|i a lo hi|r a m dd y|a m lo hi y|a IHa b IHb|a IHa b IHb|a IHa]; intros W s v st rest d (Hs & A1 & A2) Hr Hor;
    try (apply complete_atom; auto; intros; discriminate).
  - cbn in W. rewrite !andb_true_iff, !negb_true_iff in W. destruct W as ((((W1 & W2) & W3) & W4) & W5).
    cbn [ptoks]. rewrite <- app_assoc. cbn [app].
    assert (s <> 20) as N20 by (intro; destruct (A2 H); discriminate).
    eapply reach_trans.
    { apply IHa; auto.
      - split; auto. split; [auto|]. intro; contradiction.
      - cbn; tauto.
      - rewrite W3. discriminate. }
    cbn [ptree]. rewrite ev_PN. cbn [Grammar.evs Grammar.ev bind tk].
    destruct (Grammar.ev inj act (ptree a) d) as [[va da|?]| | | |]; cbn [cont bind]; try apply reach_refl.
    shiftL 20; [cbn in Hs; each Hs; try reflexivity; contradiction|cbn in Hs; each Hs; ne10|].
    eapply reach_trans.
    { apply IHb; auto.
      - split; [cbn; tauto|]. split; [lia|auto].
      - rewrite W4. discriminate. }
    destruct (Grammar.ev inj act (ptree b) da) as [[vb db|?]| | | |]; cbn [cont bind]; try apply reach_refl.
    reduce 8. apply reach_refl.
  - cbn in W. rewrite !andb_true_iff, !negb_true_iff in W. destruct W as ((W1 & W2) & W3).
    cbn [ptoks]. rewrite <- app_assoc. cbn [app].
    assert (s = 1 \/ s = 5) as S15.
    { cbn in Hs. destruct Hs as [<-|[<-|[<-|[<-|[]]]]]; auto; [specialize (A1 eq_refl)|destruct (A2 eq_refl)]; discriminate. }
    eapply reach_trans.
    { apply IHa; auto.
      - split; auto. split; intro; lia.
      - cbn; tauto.
      - intros _. vm_compute. discriminate. }
    cbn [ptree]. rewrite ev_PN. cbn [Grammar.evs Grammar.ev bind tk].
    destruct (Grammar.ev inj act (ptree a) d) as [[va da|?]| | | |]; cbn [cont bind]; try apply reach_refl.
    shiftL 19; [destruct S15; subst; reflexivity|destruct S15; subst; ne10|].
    eapply reach_trans.
    { apply IHb; auto.
      - split; [cbn; tauto|]. split; [auto|lia]. }
    destruct (Grammar.ev inj act (ptree b) da) as [[vb db|?]| | | |]; cbn [cont bind]; try apply reach_refl.
    eapply reach_trans; [apply r_reduce with (r := 7); [|ne10|reflexivity]|apply reach_refl].
    specialize (Hor eq_refl). unfold follow in Hr. cbn in Hr. each Hr; rewrite <- Hr in *; try reflexivity. contradiction.
  - cbn [ptoks app]. cbn in W.
    shiftL 5; [cbn in Hs; each Hs; reflexivity|cbn in Hs; each Hs; ne10|].
    rewrite <- app_assoc.
    eapply reach_trans.
    { apply IHa; auto.
      - split; [cbn; tauto|]. split; lia.
      - cbn; tauto.
      - intros _; vm_compute; discriminate. }
    cbn [ptree]. rewrite ev_PN. cbn [Grammar.evs Grammar.ev bind tk].
    destruct (Grammar.ev inj act (ptree a) d) as [[va da|?]| | | |]; cbn [cont bind]; try apply reach_refl.
    cbn [app]. shift 37. reduce 14. apply reach_refl.
Qed.
End Complete.
