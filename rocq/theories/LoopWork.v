(** How many rounds the loops over a policy take, whatever its flags are. *)
From Verif Require Import Base StrMap Dec Field FieldProofs Policy Lsss LsssSpec LsssProofs LsssScan LsssShare ParserTop Size PolicyTruth.
From Coq Require Import ZArith List Ascii Bool Lia ZifyBool ZifyNat.
Import ListNotations.
Open Scope Z_scope.

(** ** Nodes waiting in a stack *)
Fixpoint waiting {A} (f : A -> node) (l : list A) : nat := match l with [] => O | x :: l' => (tcost (f x) + waiting f l')%nat end.
Lemma waiting_app : forall A (f : A -> node) l l', waiting f (l ++ l') = (waiting f l + waiting f l')%nat.
Proof. intros A f l l'. induction l as [|x l IH]; cbn; [reflexivity|]. rewrite IH. lia. Qed.
Lemma waiting_rev : forall A (f : A -> node) l, waiting f (rev l) = waiting f l.
Proof. intros A f l. induction l as [|x l IH]; [reflexivity|]. cbn [rev]. rewrite waiting_app, IH. cbn. lia. Qed.
Lemma waiting_map : forall A B (f : B -> node) (g : A -> B) l, waiting f (map g l) = waiting (fun x => f (g x)) l.
Proof. intros A B f g l. induction l as [|x l IH]; [reflexivity|]. cbn. rewrite IH. reflexivity. Qed.
Lemma waiting_filter : forall A (f : A -> node) (g : A -> bool) l, (waiting f (filter g l) <= waiting f l)%nat.
Proof. intros A f g l. induction l as [|x l IH]; [cbn; lia|]. cbn [filter]. destruct (g x); cbn; lia. Qed.
Lemma waiting_ext : forall A (f g : A -> node) l, (forall x, f x = g x) -> waiting f l = waiting g l.
Proof. intros A f g l H. induction l as [|x l IH]; [reflexivity|]. cbn. rewrite IH, H. reflexivity. Qed.
Lemma waiting_kids : forall l j, waiting (@snd nat node) (combine (seq j (length l)) l) = ktcost l.
Proof. induction l as [|c l IH]; intro j; [reflexivity|]. cbn [length seq combine ktcost waiting snd]. cbn. rewrite IH. reflexivity. Qed.

Lemma tcost_pos : forall n, (1 <= tcost n)%nat.
Proof. intro n. destruct (is_leaf_dec n) as [H|H]; [rewrite (tcost_leaf n H)|rewrite (tcost_gate n H)]; lia. Qed.

(** ** The loops end within as many rounds as there are nodes *)
Lemma share_rounds : forall nd p cnt t fuel stack off rows, (waiting fst stack <= fuel)%nat -> share_loop nd p cnt t fuel stack off rows <> NoFuel.
Proof.
  intros nd p cnt t. induction fuel as [|f IH]; intros [|[n s] rest] off rows H; cbn [share_loop]; try discriminate.
  - pose proof (tcost_pos n). cbn in H. lia.
  - cbn [waiting fst] in H. pose proof (tcost_pos n).
    assert (forall off' rows', share_loop nd p cnt t f rest off' rows' <> NoFuel) as Hr by (intros; apply IH; lia).
    assert (ntype n <> GateLeaf -> forall cs off' rows', share_loop nd p cnt t f (rev (map (fun '(i, c) => (c, eval_poly p cs (Z.of_nat (i + 1)))) (combine (seq 0 (length (nkids n))) (nkids n))) ++ rest) off' rows' <> NoFuel) as Hk.
    { intros Hg cs off' rows'. rewrite (tcost_gate n Hg) in H. apply IH. rewrite waiting_app, waiting_rev, waiting_map.
      rewrite (waiting_ext _ _ snd) by (intros [i c]; reflexivity). rewrite waiting_kids. lia. }
    destruct (ntype n); try apply Hr; (destruct nd; [discriminate|]; destruct (threshold_value n =? 0); [discriminate|apply Hk; discriminate]).
Qed.
Lemma recover_rounds : forall p cnt st fuel stack rows r, (waiting (fun x => snd (fst x)) stack <= fuel)%nat -> recover_loop p cnt st fuel stack rows r <> None.
Proof.
  intros p cnt st. induction fuel as [|f IH]; intros [|[[q n] c] rest] rows r H; cbn [recover_loop]; try discriminate.
  - pose proof (tcost_pos n). cbn in H. lia.
  - cbn [waiting fst snd] in H. pose proof (tcost_pos n).
    set (pushed := map _ _). set (r' := match filter _ _ with [] => r | _ => true end).
    assert (ntype n <> GateLeaf -> recover_loop p cnt st f (rev pushed ++ rest) rows r' <> None) as Hk.
    { intro Hg. rewrite (tcost_gate n Hg) in H. apply IH. rewrite waiting_app, waiting_rev. unfold pushed. rewrite waiting_map.
      match goal with |- (waiting ?g ?l + _ <= _)%nat => assert (waiting g l = waiting snd l) as -> by (apply waiting_ext; intros [i k]; reflexivity) end.
      pose proof (waiting_filter _ snd (fun '(i, k) => fmark (st (i :: q))) (combine (seq 0 (length (nkids n))) (nkids n))) as F.
      rewrite waiting_kids in F. unfold ptr, path in *. lia. }
    destruct (ntype n); try (apply Hk; discriminate); apply IH; lia.
Qed.
Lemma reset_rounds : forall fuel stack st, (waiting snd stack <= fuel)%nat -> reset_loop fuel stack st <> None.
Proof.
  induction fuel as [|f IH]; intros [|[p n] rest] st H; cbn [reset_loop]; try discriminate.
  - pose proof (tcost_pos n). cbn in H. lia.
  - cbn [waiting snd] in H. pose proof (tcost_pos n). cbn zeta.
    assert (ntype n <> GateLeaf -> forall st', reset_loop f (rev (kid_ptrs (p, n)) ++ rest) st' <> None) as Hk.
    { intros Hg st'. rewrite (tcost_gate n Hg) in H. apply IH. rewrite waiting_app, waiting_rev. unfold kid_ptrs. rewrite waiting_map.
      rewrite (waiting_ext _ _ snd) by (intros [i k]; reflexivity). rewrite waiting_kids. unfold ptr, path in *. lia. }
    destruct (ntype n); try (apply Hk; discriminate); apply IH; lia.
Qed.

(** ** The scan *)
Section Scan.
Variable sort : list (nat * Z) -> list (nat * Z).
Variable attrs : list str.
(** A visited node stays visited. *)
Definition keeps (st st' : fstate) : Prop := forall q, fvisited (st q) = true -> fvisited (st' q) = true.
Lemma keeps_trans : forall a b c, keeps a b -> keeps b c -> keeps a c.
Proof. intros a b c H1 H2 q H. apply H2, H1, H. Qed.
Lemma keeps_mark : forall st p m s q, fvisited (set_mark st p m s q) = fvisited (st q).
Proof.
  intros st p m s q. destruct (list_eq_dec Nat.eq_dec p q) as [->|N]; [rewrite set_mark_same; reflexivity|rewrite set_mark_other by exact N; reflexivity].
Qed.
Lemma keeps_visited : forall st p, keeps st (set_visited st p true) /\ fvisited (set_visited st p true p) = true.
Proof.
  intros st p. split; [|rewrite set_visited_same; reflexivity]. intros q H.
  destruct (list_eq_dec Nat.eq_dec p q) as [->|N]; [rewrite set_visited_same; reflexivity|rewrite set_visited_other by exact N; exact H].
Qed.
Lemma keeps_or : forall p l st e r q, fvisited (fst (or_loop st p e r l) q) = fvisited (st q).
Proof.
  intros p l. induction l as [|[i w] l IH]; intros st e r q; [reflexivity|]. cbn [or_loop]. destruct (fmark (st (i :: p))); [|apply IH].
  destruct e; [|apply IH]. rewrite IH, keeps_mark. reflexivity.
Qed.
Lemma keeps_determine : forall th p n st q, fvisited (determine sort th p n st q) = fvisited (st q).
Proof.
  intros th p n st q. unfold determine. destruct (ntype n); try reflexivity.
  - destruct (forallb _ _); apply keeps_mark.
  - pose proof (keeps_or p (sort (marked_list st p n)) st th false q) as K. destruct (or_loop st p th false (sort (marked_list st p n))) as [st' [|]]; cbn [fst] in K;
      rewrite keeps_mark; exact K.
Qed.
Fixpoint turns (l : list ptr) : nat := match l with [] => O | x :: l' => (scost (snd x) + turns l')%nat end.
Lemma turns_filter : forall g l, (turns (filter g l) <= turns l)%nat.
Proof. intros g l. induction l as [|x l IH]; [cbn; lia|]. cbn [filter]. destruct (g x); cbn; lia. Qed.
Lemma turns_app : forall l l', turns (l ++ l') = (turns l + turns l')%nat.
Proof. intros l l'. induction l as [|x l IH]; cbn; [reflexivity|]. rewrite IH. lia. Qed.
Lemma turns_rev : forall l, turns (rev l) = turns l.
Proof. intro l. induction l as [|x l IH]; [reflexivity|]. cbn [rev]. rewrite turns_app, IH. cbn. lia. Qed.
Lemma turns_kids : forall l p j, turns (kptrs p j l) = kcost l.
Proof. induction l as [|c l IH]; intros p j; [reflexivity|]. cbn [kptrs kcost]. cbn. rewrite IH. reflexivity. Qed.
Definition finishes (x : ptr) : Prop := forall st rest, exists c st', (c <= scost (snd x))%nat /\ keeps st st' /\ fvisited (st' (fst x)) = true /\
  forall f, scan_loop sort attrs (c + f) (x :: rest) st = scan_loop sort attrs f rest st'.
Lemma finish_all : forall l, Forall finishes l -> forall st rest, exists c st', (c <= turns l)%nat /\ keeps st st' /\ (forall x, In x l -> fvisited (st' (fst x)) = true) /\
  forall f, scan_loop sort attrs (c + f) (l ++ rest) st = scan_loop sort attrs f rest st'.
Proof.
  induction l as [|x l IH]; intros H st rest.
  - exists O, st. split; [cbn; lia|]. split; [intros q Hq; exact Hq|]. split; [contradiction|reflexivity].
  - inversion H as [|? ? Hx Hl]; subst. destruct (Hx st (l ++ rest)) as (c1 & st1 & B1 & K1 & V1 & R1). destruct (IH Hl st1 rest) as (c2 & st2 & B2 & K2 & V2 & R2).
    exists (c1 + c2)%nat, st2. split; [cbn; lia|]. split; [eapply keeps_trans; eauto|]. split.
    + intros y [<-|Hy]; [apply K2, V1|apply V2, Hy].
    + intro f. cbn [app]. replace (c1 + c2 + f)%nat with (c1 + (c2 + f))%nat by lia. rewrite R1. apply R2.
Qed.
Lemma scan_any : forall n p, finishes (p, n).
Proof.
  induction n as [t k pr l i ks IH] using node_ind2. intros p st rest. set (n := Node t k pr l i ks) in *. cbn [fst snd].
  destruct (is_leaf_dec n) as [Hl|Hl].
  - rewrite (scost_leaf n Hl). exists 1%nat. eexists. split; [lia|]. split; [|split; [|intro f; cbn [Nat.add scan_loop]; rewrite Hl; reflexivity]].
    + eapply keeps_trans; [|apply keeps_visited]. intros q Hq. rewrite keeps_mark. exact Hq.
    + apply keeps_visited.
  - rewrite (scost_gate n Hl). set (open := fun st' : fstate => filter (fun q => negb (fvisited (st' (fst q)))) (kid_ptrs (p, n))).
    assert (Hlast : forall st' stk f', open st' = [] ->
      scan_loop sort attrs (S f') ((p, n) :: stk) st' = scan_loop sort attrs f' stk (set_visited (determine sort (scan_threshold n) p n st') p true)).
    { intros st' stk f' H. cbn [scan_loop]. unfold open in H. rewrite H. destruct (ntype n); try congruence; reflexivity. }
    assert (Hkeep : forall st', keeps st' (set_visited (determine sort (scan_threshold n) p n st') p true)).
    { intro st'. eapply keeps_trans; [|apply keeps_visited]. intros q Hq. rewrite keeps_determine. exact Hq. }
    destruct (open st) as [|y ys] eqn:Eo.
    + exists 1%nat. eexists. split; [destruct (nkids n); lia|]. split; [apply Hkeep|]. split; [apply keeps_visited|]. intro f. apply Hlast. exact Eo.
    + assert (Hfirst : forall f', scan_loop sort attrs (S f') ((p, n) :: rest) st = scan_loop sort attrs f' (rev (y :: ys) ++ (p, n) :: rest) st).
      { intro f'. cbn [scan_loop]. unfold open in Eo. rewrite Eo. destruct (ntype n); try congruence; reflexivity. }
      assert (Forall finishes (rev (y :: ys))) as Fk.
      { apply Forall_forall. intros x Hx. apply in_rev in Hx. rewrite <- Eo in Hx. apply filter_In in Hx as [Hx _]. rewrite kid_ptrs_kptrs in Hx.
        apply kptrs_In in Hx as (m & c & -> & Hc). apply nth_error_In in Hc. rewrite Forall_forall in IH. apply (IH c Hc). }
      destruct (finish_all _ Fk st ((p, n) :: rest)) as (c & st1 & B & K & V & R).
      exists (S c + 1)%nat. eexists. split; [|split; [|split; [|]]].
      * rewrite turns_rev in B. rewrite <- Eo in B. assert (turns (open st) <= turns (kid_ptrs (p, n)))%nat as F by apply turns_filter.
        assert (turns (kid_ptrs (p, n)) = kcost (nkids n)) as E by (rewrite kid_ptrs_kptrs; apply turns_kids). rewrite E in F. clear E.
        assert (nkids n <> []) as Nk. { intro E. unfold open in Eo. rewrite kid_ptrs_kptrs, E in Eo. discriminate. }
        destruct (nkids n); [congruence|]. lia.
      * eapply keeps_trans; [exact K|apply Hkeep].
      * apply keeps_visited.
      * intro f. replace (S c + 1 + f)%nat with (S (c + S f)) by lia. rewrite Hfirst, R. apply Hlast. unfold open. apply filter_none. intros x Hx.
        destruct (fvisited (st (fst x))) eqn:Ev; [rewrite (K _ Ev); reflexivity|].
        rewrite V; [reflexivity|]. rewrite <- in_rev, <- Eo. apply filter_In. rewrite Ev. auto.
Qed.
Lemma scan_rounds : forall fuel n p st, (scost n <= fuel)%nat -> scan_loop sort attrs fuel [(p, n)] st <> None.
Proof.
  intros fuel n p st H. destruct (scan_any n p st []) as (c & st' & B & _ & _ & R). cbn [snd] in B.
  replace fuel with (c + (fuel - c))%nat by lia. rewrite R. destruct (fuel - c)%nat; discriminate.
Qed.
End Scan.

(** ** In terms of leaves and gates *)
Lemma binary_size : forall n, binary n = true -> Z.of_nat (tcost n) = leaf_count n + gate_count n /\ Z.of_nat (scost n) = leaf_count n + 2 * gate_count n.
Proof.
  induction n as [g t p l i ks IH] using node_ind2. intro H. destruct g; try discriminate H.
  - unfold leaf_count. cbn. lia.
  - cbn [binary] in H. apply andb_prop in H as [H1 H2]. destruct ks as [|a [|b [|c ks]]]; try discriminate H1. cbn [forallb] in H2. apply andb_prop in H2 as [Ha H2]. apply andb_prop in H2 as [Hb _].
    inversion IH as [|? ? Ia I1]; subst. inversion I1 as [|? ? Ib I2]; subst. specialize (Ia Ha). specialize (Ib Hb).
    rewrite two_leaves by discriminate. cbn [gate_count fold_right tcost scost]. lia.
  - cbn [binary] in H. apply andb_prop in H as [H1 H2]. destruct ks as [|a [|b [|c ks]]]; try discriminate H1. cbn [forallb] in H2. apply andb_prop in H2 as [Ha H2]. apply andb_prop in H2 as [Hb _].
    inversion IH as [|? ? Ia I1]; subst. inversion I1 as [|? ? Ib I2]; subst. specialize (Ia Ha). specialize (Ib Hb).
    rewrite two_leaves by discriminate. cbn [gate_count fold_right tcost scost]. lia.
Qed.
