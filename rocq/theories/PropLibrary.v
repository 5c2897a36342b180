(** C103: starting and stopping the library. *)
From Verif Require Import Library LibrarySpec.
From Coq Require Import List Bool Arith Lia.
Import ListNotations.

Section Facts.
Variables core curve : nat -> bool.
Notation step := (lib_step core curve).
Notation run := (lib_run core curve).

Lemma run_snoc : forall h e l, run (h ++ [e]) l = fst (step (fst e) (snd e) (run h l)).
Proof. intros. unfold lib_run. rewrite fold_left_app. reflexivity. Qed.
Lemma put_same : forall {A} (f : nat -> A) i a, put f i a i = a.
Proof. intros. unfold put. rewrite Nat.eqb_refl. reflexivity. Qed.
Lemma put_other : forall {A} (f : nat -> A) i j a, j <> i -> put f i a j = f j.
Proof. intros A f i j a H. unfold put. apply Nat.eqb_neq in H. rewrite H. reflexivity. Qed.

Lemma ready_step : forall t c l, lib_ready (fst (step t c l)) = match c with Initialize => true | Shutdown => false | _ => lib_ready l end.
Proof.
  intros t c l. destruct c; cbn; unfold initialize, new_pairing, new_context, init_thread, shut_thread, drop_context, set_object; cbn.
  - destruct (lib_ready l) eqn:E; cbn; auto.
  - reflexivity.
  - destruct (lib_ready l) eqn:E; cbn; auto.
  - destruct (lib_objects l o); cbn; [reflexivity|]. rewrite put_same. reflexivity.
  - destruct (lib_objects l o) as [[|]|]; reflexivity.
  - destruct (lib_objects l o) as [[|]|]; reflexivity.
  - destruct (lib_objects l o) as [[|]|] eqn:E; try reflexivity. cbn. unfold shut_thread. rewrite E. reflexivity.
Qed.

Lemma on_snoc : forall h t c, on (h ++ [(t, c)]) <-> match c with Initialize => True | Shutdown => False | _ => on h end.
Proof.
  intros h t c. 
  assert (forall c, c <> Initialize -> c <> Shutdown -> (on (h ++ [(t, c)]) <-> on h)) as G.
  { intros d N1 N2. split.
    - intros (a & u & b & E & X). destruct b as [|e b _] using rev_ind.
      + apply app_inj_tail in E as [_ E]. injection E as _ E. congruence.
      + rewrite app_comm_cons, app_assoc in E. apply app_inj_tail in E as [-> _]. exists a, u, b. split; [reflexivity|]. intros t' I. apply (X t'). apply in_or_app. auto.
    - intros (a & u & b & -> & X). exists a, u, (b ++ [(t, d)]). split; [rewrite <- app_assoc; reflexivity|]. intros t' I. apply in_app_or in I as [I|[I|[]]]; [exact (X t' I)|]. injection I as _ I. congruence. }
  destruct c; try (apply G; discriminate).
  - split; [auto|]. intros _. exists h, t, []. split; [reflexivity|]. intros t' [].
  - split; [|intros []]. intros (a & u & b & E & X). destruct b as [|e b _] using rev_ind.
    + apply app_inj_tail in E as [_ E]. discriminate.
    + rewrite app_comm_cons, app_assoc in E. apply app_inj_tail in E as [_ <-]. apply (X t). apply in_or_app. right. left. reflexivity.
Qed.

Lemma ready_on : forall h, lib_ready (run h fresh_library) = true <-> on h.
Proof.
  induction h as [|[t c] h IH] using rev_ind.
  - split; [discriminate|]. intros (a & u & b & E & _). destruct a; discriminate.
  - rewrite run_snoc, ready_step, on_snoc. cbn [snd]. destruct c; try exact IH; split; auto; try discriminate; intros [].
Qed.

(** RELIC of a thread: only ShutdownOpenABE, called in the thread, takes it away. *)
Lemma math_init_up : forall t u l, lib_relic l u = Up -> lib_relic (fst (math_init core curve t l)) u = Up.
Proof.
  intros t u l H. unfold math_init. cbn. destruct (Nat.eq_dec u t) as [->|N]; [rewrite put_same|rewrite put_other; assumption].
  rewrite H. destruct (andb _ _); [reflexivity|]. destruct (core _); reflexivity.
Qed.
Lemma step_up : forall t c u l, lib_relic l u = Up -> (t, c) <> (u, Shutdown) -> lib_relic (fst (step t c l)) u = Up.
Proof.
  intros t c u l H N. destruct c; cbn; unfold initialize, new_pairing, new_context, init_thread, shut_thread, drop_context.
  - destruct (lib_ready l); [exact H|]. exact (math_init_up t u l H).
  - cbn. rewrite put_other; [exact H|congruence].
  - destruct (lib_ready l); exact H.
  - destruct (lib_objects l o); [exact H|]. cbn [set_object lib_objects]. rewrite put_same.
    exact (math_init_up t u (set_object o (Some false) l) H).
  - destruct (lib_objects l o) as [[|]|]; try exact H. apply math_init_up. exact H.
  - destruct (lib_objects l o) as [[|]|]; try exact H. exact (math_init_up t u l H).
  - destruct (lib_objects l o) as [[|]|] eqn:E; try exact H. unfold shut_thread. rewrite E. exact (math_init_up t u l H).
Qed.
Lemma run_up : forall u h l, lib_relic l u = Up -> ~ In (u, Shutdown) h -> lib_relic (run h l) u = Up.
Proof.
  intros u h. induction h as [|[t c] h IH]; intros l H N; [exact H|]. cbn. apply IH; [|intro I; apply N; right; exact I].
  apply step_up; [exact H|]. intro E. apply N. left. exact E.
Qed.
Lemma run_app : forall a b l, run (a ++ b) l = run b (run a l).
Proof. intros. unfold lib_run. apply fold_left_app. Qed.

(** The objects that exist are those the history made and did not drop. *)
Definition live (l : library) (o : nat) : bool := match lib_objects l o with Some _ => true | None => false end.
Lemma live_step : forall t c l o, live (fst (step t c l)) o =
  match c with NewContext o' => if Nat.eqb o' o then true else live l o | DropContext o' => if Nat.eqb o' o then false else live l o | _ => live l o end.
Proof.
  intros t c l o'. unfold live. destruct c; cbn; unfold initialize, new_pairing, new_context, init_thread, shut_thread, drop_context; cbn.
  - destruct (lib_ready l); reflexivity.
  - reflexivity.
  - destruct (lib_ready l); reflexivity.
  - destruct (Nat.eqb_spec o o') as [->|N].
    + destruct (lib_objects l o') eqn:E; cbn; [rewrite E; reflexivity|]. rewrite put_same. cbn. rewrite put_same. reflexivity.
    + destruct (lib_objects l o) eqn:E; cbn; [reflexivity|]. rewrite put_same. cbn. rewrite put_other by congruence. rewrite put_other by congruence. reflexivity.
  - destruct (lib_objects l o) as [[|]|]; reflexivity.
  - destruct (lib_objects l o) as [[|]|] eqn:E; try reflexivity. cbn. destruct (Nat.eq_dec o' o) as [->|N]; [rewrite put_same, E; reflexivity|rewrite put_other by assumption; reflexivity].
  - destruct (lib_objects l o) as [[|]|] eqn:E; unfold shut_thread; rewrite ?E; cbn.
    + destruct (Nat.eqb_spec o o') as [->|N]; [rewrite put_same; reflexivity|]. rewrite !put_other by congruence. reflexivity.
    + destruct (Nat.eqb_spec o o') as [->|N]; [rewrite put_same; reflexivity|]. rewrite !put_other by congruence. reflexivity.
    + destruct (Nat.eqb_spec o o') as [->|N]; [rewrite E; reflexivity|reflexivity].
Qed.
Lemma alive_app : forall o a b l, alive o (a ++ b) (live l o) -> alive o b (live (run a l) o).
Proof.
  intros o a. induction a as [|[t c] a IH]; intros b l H; [exact H|]. cbn [app] in H. cbn [lib_run fold_left fst snd]. apply IH. rewrite live_step.
  destruct c as [| | |o'|o'|o'|o']; cbn in H; try exact H; try apply H.
  - destruct H as [(-> & _ & H)|(N & H)]; [rewrite Nat.eqb_refl; exact H|]. apply Nat.eqb_neq in N. rewrite N. exact H.
  - destruct H as [(-> & _ & H)|(N & H)]; [rewrite Nat.eqb_refl; exact H|]. apply Nat.eqb_neq in N. rewrite N. exact H.
Qed.
End Facts.

(** * C103 *)
(** After any history of calls by any threads, and whatever RELIC answers:
    InitializeOpenABE throws exactly when the library is on, making a pairing throws
    exactly when it is off, and no other call throws. *)
Theorem C103_guard : forall core curve h t c,
  let r := snd (lib_step core curve t c (lib_run core curve h fresh_library)) in
  r = Threw <-> (c = Initialize /\ on h) \/ (c = NewPairing /\ ~ on h).
Proof.
  intros core curve h t c. cbv zeta. pose proof (ready_on core curve h) as R. set (l := lib_run core curve h fresh_library) in *.
  destruct c; cbn; unfold initialize, new_pairing, new_context, init_thread, shut_thread, drop_context.
  - destruct (lib_ready l); cbn; intuition congruence.
  - intuition discriminate.
  - destruct (lib_ready l); cbn; [destruct (lib_relic l t)|]; intuition congruence.
  - destruct (lib_objects l o); cbn; [intuition discriminate|]. rewrite put_same. cbn. intuition discriminate.
  - destruct (lib_objects l o) as [[|]|]; cbn; intuition discriminate.
  - destruct (lib_objects l o) as [[|]|]; cbn; intuition discriminate.
  - destruct (lib_objects l o) as [[|]|] eqn:E; unfold shut_thread; rewrite ?E; cbn; intuition discriminate.
Qed.
Print Assumptions C103_guard.
(** If RELIC always starts: a thread that prepared itself can make pairings whenever
    the library is on, whatever other threads did in between. *)
Theorem C103_prepared_partial : forall core curve h t, (forall n, core n = true) -> (forall n, curve n = true) ->
  well_used h -> on h -> prepared t h ->
  snd (lib_step core curve t NewPairing (lib_run core curve h fresh_library)) = Returned.
Proof.
  intros core curve h t Hc Hv W O (a & c & b & -> & N & P). cbn. unfold new_pairing.
  rewrite (proj2 (ready_on core curve _) O). cbn [snd].
  assert (lib_relic (lib_run core curve (a ++ (t, c) :: b) fresh_library) t = Up) as ->; [|reflexivity].
  rewrite run_app. cbn [lib_run fold_left fst snd]. apply run_up; [|exact N]. set (l := lib_run core curve a fresh_library).
  destruct c; try contradiction; cbn.
  - unfold initialize. assert (lib_ready l = false) as ->. { apply not_true_is_false. intro X. apply P. eapply ready_on. exact X. }
    unfold math_init. rewrite Hc, Hv. cbn. apply put_same.
  - unfold new_context. pose proof (W o) as A. apply (alive_app core curve o a _ fresh_library) in A. fold l in A. cbn in A. destruct A as [(_ & A & _)|(X & _)]; [|congruence].
    unfold live in A. destruct (lib_objects l o); [discriminate|]. unfold init_thread. cbn [set_object lib_objects]. rewrite put_same. unfold math_init. rewrite Hc, Hv. cbn. apply put_same.
Qed.
Print Assumptions C103_prepared_partial.
(** But InitializeOpenABE returns normally when RELIC did not start, and the first
    pairing is undefined behaviour, in every history. *)
Theorem C103_failed_start_refuted : forall core curve h t, ~ on h -> core (lib_tries (lib_run core curve h fresh_library)) = false -> lib_relic (lib_run core curve h fresh_library) t = Down ->
  snd (lib_step core curve t Initialize (lib_run core curve h fresh_library)) = Returned /\
  snd (lib_step core curve t NewPairing (lib_run core curve (h ++ [(t, Initialize)]) fresh_library)) = Undefined.
Proof.
  intros core curve h t N C D. rewrite run_snoc. pose proof (ready_on core curve h) as R. set (l := lib_run core curve h fresh_library) in *.
  assert (lib_ready l = false) as F by (apply not_true_is_false; tauto). cbn. unfold initialize. rewrite F. split; [reflexivity|].
  unfold math_init. rewrite C. cbn. unfold new_pairing. cbn. rewrite put_same, D. reflexivity.
Qed.
Print Assumptions C103_failed_start_refuted.
(** And no call on an OpenABEStateContext, its destructor included, takes RELIC away
    from a thread: what the constructor set up stays until the thread itself calls
    ShutdownOpenABE, which abe_lsss.h L80-86 does not ask of it. *)
Theorem C103_thread_cleanup_refuted : forall core curve h h' t,
  lib_relic (lib_run core curve h fresh_library) t = Up -> ~ In (t, Shutdown) h' ->
  lib_relic (lib_run core curve (h ++ h') fresh_library) t = Up.
Proof. intros core curve h h' t U N. rewrite run_app. apply run_up; assumption. Qed.
Print Assumptions C103_thread_cleanup_refuted.
(** shutdownThread can even start RELIC in a thread that had none. *)
Theorem C103_shutdown_starts_refuted : exists h, well_used (h ++ [(1, ShutThread 0)]) /\
  lib_relic (lib_run (fun _ => true) (fun _ => true) h fresh_library) 1 = Down /\
  lib_relic (lib_run (fun _ => true) (fun _ => true) (h ++ [(1, ShutThread 0)]) fresh_library) 1 = Up.
Proof. exists [(0, NewContext 0)]. split; [|split; reflexivity]. intros [|o]; cbn; [left; auto|right; split; [discriminate|]]. split; [discriminate|exact I]. Qed.
Print Assumptions C103_shutdown_starts_refuted.
(** Every shutdownThread turns its object off, so that the next initializeThread
    asks RELIC again and, if RELIC starts, leaves the thread that calls it ready. *)
Theorem C103_again : forall core curve h t u o, (forall n, core n = true) -> (forall n, curve n = true) ->
  well_used (h ++ [(t, ShutThread o); (u, InitThread o)]) ->
  lib_relic (lib_run core curve (h ++ [(t, ShutThread o); (u, InitThread o)]) fresh_library) u = Up.
Proof.
  intros core curve h t u o Hc Hv W. rewrite run_app. set (l := lib_run core curve h fresh_library).
  pose proof (W o) as A. apply (alive_app core curve o h _ fresh_library) in A. fold l in A. cbn in A.
  cbn [lib_run fold_left fst snd lib_step]. unfold shut_thread, init_thread. unfold live in A.
  destruct (lib_objects l o) as [[|]|] eqn:E; [| |exfalso; intuition congruence].
  - cbn [fst set_object lib_objects]. rewrite put_same. unfold math_init. cbn. rewrite !Hc, !Hv. cbn. apply put_same.
  - cbn [fst]. rewrite E. unfold math_init. cbn. rewrite Hc, Hv. cbn. apply put_same.
Qed.
Print Assumptions C103_again.
(** A main thread and a worker; the worker ends, the main thread goes on. *)
Definition main_and_worker : list (nat * lib_call) := [(0, Initialize); (1, NewContext 7); (1, NewPairing); (1, DropContext 7); (0, NewPairing)].
Example C103_nonvacuous : well_used main_and_worker /\ on main_and_worker /\ prepared 0 main_and_worker /\ prepared 1 main_and_worker /\
  ~ on (main_and_worker ++ [(0, Shutdown)]) /\ well_used ([(0, NewContext 7)] ++ [(1, ShutThread 7); (2, InitThread 7)]).
Proof.
  split; [|split; [|split; [|split; [|split]]]].
  - intros o. destruct (Nat.eq_dec 7 o) as [<-|N]; [left; split; [reflexivity|split; [reflexivity|left; repeat split]]|right; split; [exact N|right; split; [exact N|exact I]]].
  - exists [], 0, (tl main_and_worker). split; [reflexivity|]. intros t' H. cbn in H. intuition discriminate.
  - exists [], Initialize, (tl main_and_worker). split; [reflexivity|]. split; [cbn; intuition discriminate|]. intros (a & t & b & E & _). destruct a; discriminate.
  - exists [(0, Initialize)], (NewContext 7), (tl (tl main_and_worker)). split; [reflexivity|]. split; [cbn; intuition discriminate|exact I].
  - intro H. apply on_snoc in H. exact H.
  - intros o. destruct (Nat.eq_dec 7 o) as [<-|N]; [left; repeat split|right; repeat split; congruence].
Qed.
Example C103_failed_start : snd (lib_step (fun _ => false) (fun _ => false) 0 Initialize fresh_library) = Returned.
Proof. reflexivity. Qed.
