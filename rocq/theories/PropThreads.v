(** C102: the key manager shared by threads. *)
From Verif Require Import Base StrMap Dec ByteString UInteger Field Policy Driver Parser AttrList Utils Lsss LsssSpec Container Keystore Keymgr KeymgrSpec KeymgrProofs PropField PropContainer PropKeymgr Threads ThreadsSpec ThreadsProofs.
From Coq Require Import ZArith List Ascii Bool Lia Arith.
Import ListNotations.
Open Scope Z_scope.

(** * C102 *)
(** Threads that only use storeWithKeyPrefixCommand, getKeyCommand,
    searchKeyCommand and deleteKeyCommand: in every state of every schedule there is
    no race, and the calls that have returned gave the answers they would have given
    one after the other, in the order in which they returned, each thread's calls in
    its own order; when no thread is in a call, the object is the one they leave. *)
Theorem C102_serial_partial : forall K mktime sort rank m calls, (forall i c, In c (calls i) -> locks c = true) -> forall g, reached K mktime sort rank m calls g ->
  ~ race g /\ accounted calls g /\
  exists m', one_by_one K mktime sort rank m (g_log g) m' /\ (quiet g -> g_manager g = m').
Proof.
  intros K mktime sort rank m calls Hl g H. split.
  { eapply no_race; [|exact H]. intros i j c c' _ I1 I2. left. split; eapply Hl; eassumption. }
  split; [eapply accounted_reached; exact H|]. destruct (serial_reached K mktime sort rank m calls Hl g H) as (m' & O & X). exists m'. split; [exact O|]. intro Q.
  destruct (g_lock g) as [k|]; [destruct X as (c & p & A & _); rewrite Q in A; discriminate|]. apply X.
Qed.
Print Assumptions C102_serial_partial.
(** Whatever calls the threads make: as long as the process has not crashed and
    some thread is not finished, some thread can go on. *)
Theorem C102_no_deadlock : forall K mktime sort rank m calls g, reached K mktime sort rank m calls g -> g_dead g = false -> (exists i, unfinished g i) ->
  exists i g', move K mktime sort rank i g = Some g'.
Proof. exact progress. Qed.
Print Assumptions C102_no_deadlock.
(** The other calls can be mixed in without races if, between threads, they do not
    clash with anything. *)
Theorem C102_no_race : forall K mktime sort rank m calls g,
  (forall i j c c', i <> j -> In c (calls i) -> In c' (calls j) -> (locks c = true /\ locks c' = true) \/ ~ clash c c') ->
  reached K mktime sort rank m calls g -> ~ race g.
Proof. exact no_race. Qed.
Print Assumptions C102_no_race.

(** A schedule: the threads that move, in order. *)
Fixpoint follow K mktime sort rank (schedule : list nat) (g : process) : option process :=
  match schedule with [] => Some g | i :: rest => match move K mktime sort rank i g with Some g' => follow K mktime sort rank rest g' | None => None end end.
Lemma follow_reached : forall K mktime sort rank m calls schedule g g', reached K mktime sort rank m calls g -> follow K mktime sort rank schedule g = Some g' -> reached K mktime sort rank m calls g'.
Proof.
  intros K mktime sort rank m calls schedule. induction schedule as [|i s IH]; intros g g' H E; cbn in E; [injection E as <-; exact H|].
  destruct (move K mktime sort rank i g) as [g1|] eqn:Em; [|discriminate]. eapply IH; [eapply one_more; eassumption|exact E].
Qed.
Definition pair_of (a b : list call) (i : nat) : list call := match i with 0%nat => a | 1%nat => b | _ => [] end.

(** But storeWithKeyIDCommand, setPassphrase, getActiveUsers and getUserKeyCount do
    not take the lock.  Replacing a key races with reading any key; two
    registrations race; two counts race; whatever the object holds. *)
Theorem C102_replace_race_refuted : forall K mktime sort rank m user id b e ca r user' id', user <> [] -> mmem id (km_meta m) = true ->
  exists g, reached K mktime sort rank m (pair_of [Run (StoreID user id b e ca r)] [Run (GetCommand user' id')]) g /\ race g.
Proof.
  intros K mktime sort rank m user id b e ca r user' id' Hu Hm. destruct user as [|x user]; [congruence|].
  eexists. split.
  - eapply (follow_reached K mktime sort rank _ _ [0; 0; 1]%nat); [apply at_start|]. cbn. unfold keep. rewrite Hm. reflexivity.
  - exists 0%nat, 1%nat, FMeta, true, false. split; [discriminate|]. split; [|split; [|reflexivity]]; unfold about_to; cbn; eauto.
Qed.
Print Assumptions C102_replace_race_refuted.
Theorem C102_register_race_refuted : forall K mktime sort rank m p u w p' u' w',
  exists g, reached K mktime sort rank m (pair_of [Run (SetPass p u w)] [Run (SetPass p' u' w')]) g /\ race g.
Proof.
  intros. eexists. split.
  - eapply (follow_reached K mktime sort rank _ _ [0; 1]%nat); [apply at_start|]. reflexivity.
  - exists 0%nat, 1%nat, FPass, true, true. split; [discriminate|]. split; [|split; [|reflexivity]]; unfold about_to; cbn; eauto.
Qed.
Print Assumptions C102_register_race_refuted.
Theorem C102_count_race_refuted : forall K mktime sort rank m u u',
  exists g, reached K mktime sort rank m (pair_of [Run (Count u)] [Run (Count u')]) g /\ race g.
Proof.
  intros. eexists. split.
  - eapply (follow_reached K mktime sort rank _ _ [0; 1]%nat); [apply at_start|]. reflexivity.
  - exists 0%nat, 1%nat, FCounter, true, true. split; [discriminate|]. split; [|split; [|reflexivity]]; unfold about_to; cbn; eauto.
Qed.
Print Assumptions C102_count_race_refuted.
(** Even if the accesses were atomic: a key replaced during a search makes the
    assert of searchKey fail and the process abort, although both calls succeed in
    either order. *)
Theorem C102_search_abort_refuted : exists m a b, 
  (exists g, reached toy mk0 same isort m (pair_of [a] [b]) g /\ g_dead g = true) /\
  let one x m := alone toy mk0 same isort x m in
  snd (one a m) = Ok (AText (L "k1")) /\ snd (one b m) = Ok (ABool true) /\
  snd (one a (fst (one b m))) = Ok (AText (L "k1")) /\ snd (one b (fst (one a m))) = Ok (ABool true).
Proof.
  exists (run [put_key (L "alice") (L "k1") (L "a and b")]), (Run (Search (L "alice") false holds_ab)), (Run (put_key (L "alice") (L "k1") (L "a and b"))). split.
  - destruct (follow toy mk0 same isort [0; 0; 1; 1; 1; 0; 0]%nat (launch (run [put_key (L "alice") (L "k1") (L "a and b")]) (pair_of [Run (Search (L "alice") false holds_ab)] [Run (put_key (L "alice") (L "k1") (L "a and b"))]))) as [g|] eqn:E.
    + exists g. split; [eapply follow_reached; [apply at_start|exact E]|]. assert (option_map g_dead (Some g) = Some true) as X by (rewrite <- E; vm_compute; reflexivity). injection X as X. exact X.
    + exfalso. assert (option_map g_dead None = Some true) as X by (rewrite <- E; vm_compute; reflexivity). discriminate.
  - split; [|split; [|split]]; vm_compute; reflexivity.
Qed.
Print Assumptions C102_search_abort_refuted.
(** And two stores of keys for the same input both report success, which no order
    of the two calls gives. *)
Theorem C102_duplicate_refuted : exists m a b, 
  (exists g, reached toy mk0 same isort m (pair_of [a] [b]) g /\ g_dead g = false /\ g_log g = [(0%nat, a, Ok (ABool true)); (1%nat, b, Ok (ABool true))]) /\
  forall l m', one_by_one toy mk0 same isort m l m' ->
    l <> [(0%nat, a, Ok (ABool true)); (1%nat, b, Ok (ABool true))] /\ l <> [(1%nat, b, Ok (ABool true)); (0%nat, a, Ok (ABool true))].
Proof.
  set (a := Run (put_key (L "alice") (L "k1") (L "a and b"))). set (b := Run (put_key (L "alice") (L "k2") (L "a and b"))). exists new_manager, a, b. split.
  - destruct (follow toy mk0 same isort [0; 0; 0; 1; 1; 1; 0; 1; 0; 1]%nat (launch new_manager (pair_of [a] [b]))) as [g|] eqn:E.
    + exists g. split; [eapply follow_reached; [apply at_start|exact E]|].
      assert (option_map (fun g => (g_dead g, g_log g)) (Some g) = Some (false, [(0%nat, a, Ok (ABool true)); (1%nat, b, Ok (ABool true))])) as X by (rewrite <- E; vm_compute; reflexivity). injection X as X Y. auto.
    + exfalso. assert (option_map g_dead None = Some false) as X by (rewrite <- E; vm_compute; reflexivity). discriminate.
  - assert (forall x y i j l m', one_by_one toy mk0 same isort new_manager l m' -> l = [(i, x, Ok (ABool true)); (j, y, Ok (ABool true))] -> snd (alone toy mk0 same isort y (fst (alone toy mk0 same isort x new_manager))) = Ok (ABool true)) as S.
    { intros x y i j l m' H E. destruct H as [|l1 m1 i1 c1 r1 m2 H A]; [discriminate|]. apply (app_inj_tail l1 [(i, x, Ok (ABool true))]) in E as [-> E]. injection E as -> -> ->.
      remember [(i, x, Ok (ABool true))] as l2 eqn:E2. destruct H as [|l3 m3 i3 c3 r3 m4 H B]; [discriminate|]. apply (app_inj_tail l3 []) in E2 as [-> E2]. injection E2 as -> -> ->.
      remember [] as l4 eqn:E4. destruct H as [|l5 m5 i5 c5 r5 m6 H C]; [|destruct l5; discriminate]. rewrite B. cbn [fst]. rewrite A. reflexivity. }
    intros l m' H. split; intro E.
    + specialize (S _ _ _ _ _ _ H E). vm_compute in S. discriminate.
    + specialize (S _ _ _ _ _ _ H E). vm_compute in S. discriminate.
Qed.
Print Assumptions C102_duplicate_refuted.
(** Three threads of locking calls, interleaved; one of them reads in the middle. *)
Definition three_threads (i : nat) : list call :=
  match i with
  | 0%nat => [Run (StorePrefix (L "alice") (L "k") (blob (kp (L "a and b"))) 0 false []); Run (Search (L "alice") true holds_ab)]
  | 1%nat => [Run (GetCommand (L "alice") (L "k0")); Run (Delete (L "bob") 0)]
  | 2%nat => [Run (StorePrefix (L "bob") (L "k") (blob (kp (L "a or b"))) 0 false [])]
  | _ => [] end.
Fixpoint turns (schedule : list nat) (g : process) : process :=
  match schedule with [] => g | i :: rest => turns rest (match move toy mk0 same isort i g with Some g' => g' | None => g end) end.
Lemma turns_reached : forall m calls schedule g, reached toy mk0 same isort m calls g -> reached toy mk0 same isort m calls (turns schedule g).
Proof.
  intros m calls schedule. induction schedule as [|i s IH]; intros g H; [exact H|]. cbn [turns]. apply IH. destruct (move toy mk0 same isort i g) as [g1|] eqn:Em; [eapply one_more; eassumption|exact H].
Qed.
Example C102_nonvacuous : (forall i c, In c (three_threads i) -> locks c = true) /\
  exists g g1, reached toy mk0 same isort new_manager three_threads g /\ quiet g /\ g_dead g = false /\
    map (fun e => (fst (fst e), snd e)) (g_log g) =
      [(0%nat, Ok (AText (L "k0"))); (1%nat, Ok (APair (L "a and b") (blob (kp (L "a and b"))))); (2%nat, Ok (AText (L "k0"))); (0%nat, Ok (AText [])); (1%nat, Ok (AIds [L "k0"]))] /\
    reached toy mk0 same isort new_manager three_threads g1 /\ g_lock g1 = Some 0%nat /\ move toy mk0 same isort 1%nat g1 = None.
Proof.
  split; [intros [|[|[|i]]] c; cbn; intuition; subst; reflexivity|].
  set (s := concat (repeat [0; 1; 2]%nat 60)). set (g := turns s (launch new_manager three_threads)). exists g, (turns [0; 1; 0]%nat (launch new_manager three_threads)).
  assert (reached toy mk0 same isort new_manager three_threads g) as R by (apply turns_reached; apply at_start).
  split; [exact R|]. split.
  { intro i. destruct i as [|[|[|i]]]; try (vm_compute; reflexivity). }
  split; [vm_compute; reflexivity|]. split; [vm_compute; reflexivity|]. split; [apply turns_reached; apply at_start|]. split; vm_compute; reflexivity.
Qed.
(** Calls that may be mixed: one thread counts while another registers users. *)
Example C102_mixed : let calls := pair_of [Run (Count (L "alice")); Run (GetCommand (L "alice") (L "k"))] [Run (SetPass (L "mail") (L "bob") (L "pw")); Users; Run (Search (L "bob") true holds_ab)] in
  forall i j c c', i <> j -> In c (calls i) -> In c' (calls j) -> (locks c = true /\ locks c' = true) \/ ~ clash c c'.
Proof.
  intros calls i j c c' N A B. destruct i as [|[|i]], j as [|[|j]]; cbn in A, B; try contradiction; try congruence; intuition; subst;
    first [left; split; reflexivity | right; intros (f & w & w' & X & Y & Z); destruct f, w, w'; discriminate].
Qed.
