(** C112: the components of keys and ciphertexts are never used after they are
    gone.  C113: what is left in memory.  C114: copies of containers. *)
From Verif Require Import Base StrMap ByteString UInteger Field Policy Driver Parser AttrList Utils Container PropContainer Memory MemorySpec MemoryInv MemoryProg ContMem ContMemSpec ContMemProofs.
From Coq Require Import ZArith List Ascii Bool Lia Permutation.
Import ListNotations.
Open Scope Z_scope.

(** ** C112 *)
Theorem C112_programs : forall K mktime l p a, no_copies l -> csteps K mktime l (cstart K) = Some (p, a) -> legal (chistory p).
Proof. intros K mktime l p a N H. destruct (crun_ok K mktime l p a N H) as (own & v & I & _). exact (c_legal _ _ _ I). Qed.
Print Assumptions C112_programs.
(** The program sees containers with values of their own, and a pointer gives the
    value it was obtained for. *)
Theorem C112_values : forall K mktime l, no_copies l ->
  match csteps K mktime l (cstart K) with
  | Some (p, a) => exists v, vsteps K mktime l (vstart K) = Some (v, a)
  | None => vsteps K mktime l (vstart K) = None
  end.
Proof.
  intros K mktime l N. pose proof (csteps_ok K mktime l [] (cstart K) (vstart K) N (cstart_inv K)) as S. specialize (S ltac:(split; [reflexivity|constructor])).
  destruct (csteps K mktime l (cstart K)) as [[p a]|]; auto. destruct S as (v & more & V & _). eauto.
Qed.
Print Assumptions C112_values.
(** A pointer is good until its container is destroyed, whatever happens to the
    component or to other containers. *)
Theorem C112_pointers : forall K mktime l p r k i a, no_copies l -> csteps K mktime l (cstart K) = Some (p, r) ->
  nth_error (ptrs p) k = Some (i, a) -> chandle p i <> None -> remains (chistory p) a.
Proof.
  intros K mktime l p r k i a N H Hp Hc. destruct (crun_ok K mktime l p r N H) as (own & v & I & _). unfold remains, chistory. rewrite <- !in_rev.
  pose proof (c_ptr _ _ _ I i a (nth_error_In _ _ Hp)) as Q. split.
  - apply (c_new _ _ _ I). rewrite <- (c_len _ _ _ I). apply nth_error_Some. congruence.
  - intro D. destruct (c_del _ _ _ I a D) as (j & Qj & E). assert (j = i) as -> by congruence. apply Hc. unfold chandle. rewrite E. reflexivity.
Qed.
Print Assumptions C112_pointers.
(** A component that is in a container is there, and in no other. *)
Theorem C112_own_components : forall K mktime l p r i a, no_copies l -> csteps K mktime l (cstart K) = Some (p, r) -> holds p i a ->
  remains (chistory p) a /\ forall j, holds p j a -> j = i.
Proof.
  intros K mktime l p r i a N H (c & name & Hc & Hg). destruct (crun_ok K mktime l p r N H) as (own & v & I & _).
  assert (In a (addrs c)) as Ha by (apply addrs_in; exists name; apply mget_In; exact Hg). split.
  - unfold remains, chistory. rewrite <- !in_rev. exact (held_live K own p i c a I Hc Ha).
  - intros j (d & name' & Hd & Hg'). assert (In a (addrs d)) as Hb by (apply addrs_in; exists name'; apply mget_In; exact Hg').
    apply chandle_at in Hc, Hd. destruct (c_kept _ _ _ I _ _ Hc) as (_ & _ & Q). destruct (c_kept _ _ _ I _ _ Hd) as (_ & _ & Q'). specialize (Q a Ha). specialize (Q' a Hb). congruence.
Qed.
Print Assumptions C112_own_components.

Definition a_day : tm -> Z * tm := fun t => (0, t).
(** Two containers; a pointer used after its component was replaced and erased,
    and after the other container was destroyed; a load. *)
Definition some_cops (K : curve) : list (cop K) :=
  [CNew; CSet 0 (L "k") (OBytes (L "one")); CSet 0 (L "n") (OInt {| uval := 7; ubits := 16 |}); CGet 0 (L "k"); CGet 0 (L "x"); CErase 0 (L "x"); CPack 0;
   CNew; CSet 1 (L "k") (OBytes (L "two")); CGet 1 (L "k"); CSet 0 (L "k") (OBytes (L "three")); CRead 0; CErase 0 (L "k"); CRead 0;
   CLoad 1 (smart_pack (smart_pack [] (L "n")) (bs_serialize (L "four"))); CFree 1; CRead 1; CRead 0; CFree 0].
Example C112_nonvacuous : forall K, no_copies (some_cops K) /\ exists p a, csteps K a_day (some_cops K) (cstart K) = Some (p, a) /\
  nth_error a 11 = Some (AObj (OBytes (L "one"))) /\ nth_error a 17 = Some (AObj (OBytes (L "one"))) /\ nth_error a 14 = Some (ADone (Ok tt)) /\ length (remaining (chistory p)) = 2%nat.
Proof.
  intro K. split; [intros o H; cbn in H; repeat (destruct H as [<-|H]; [reflexivity|]); destruct H|].
  eexists _, _. split; [vm_compute; reflexivity|]. split; [vm_compute; reflexivity|]. split; [vm_compute; reflexivity|]. split; vm_compute; reflexivity.
Qed.

(** ** C113 *)

(** Destroying a container deletes what it holds at that time ... *)
Theorem C113_destroy : forall K mktime l p r i p' r', no_copies l -> csteps K mktime l (cstart K) = Some (p, r) -> cstep K mktime (CFree i) p = Some (p', r') ->
  forall a, remains (chistory p') a <-> remains (chistory p) a /\ ~ holds p i a.
Proof.
  intros K mktime l p r i p' r' N H Hs a. destruct (crun_ok K mktime l p r N H) as (own & v & I & _). cbn [cstep] in Hs. unfold remains, chistory, holds. rewrite <- !in_rev.
  destruct (chandle p i) as [c|] eqn:Eh.
  - injection Hs as <- <-. cbn [cm]. pose proof Eh as Hh. apply chandle_at in Hh. destruct (c_kept _ _ _ I _ _ Hh) as (So & Nd & Q).
    destruct (h_free_step K c (cm p) (c_legal _ _ _ I) Nd (fun a Ha => held_live K own p i c a I Eh Ha)) as (A1 & A2 & A3 & A4). rewrite A3, A4. split.
    + intros [X Y]. split; [tauto|]. intros (d & name & E & G). injection E as <-. apply Y. left. apply addrs_in. exists name. apply mget_In. exact G.
    + intros [[X Y] Z]. split; auto. intros [W|W]; auto. apply Z. apply addrs_in in W as (k & W). exists c, k. split; auto. apply In_mget; auto. apply msorted_NoDup. exact So.
  - injection Hs as <- <-. split; [intro X; split; auto; intros (d & name & E & _); discriminate|tauto].
Qed.
Print Assumptions C113_destroy.
(** ... and an object that no container holds is never deleted. *)
Theorem C113_never_freed_partial : forall K mktime l p r l' p' r' a, no_copies l -> no_copies l' -> csteps K mktime l (cstart K) = Some (p, r) -> csteps K mktime l' p = Some (p', r') ->
  remains (chistory p) a -> (forall i, ~ holds p i a) -> remains (chistory p') a /\ nth_error (objs (cm p')) a = nth_error (objs (cm p)) a.
Proof.
  intros K mktime l p r l' p' r' a N N' H H' R Nh. destruct (crun_ok K mktime l p r N H) as (own & v & I & V & Rl).
  pose proof (csteps_ok K mktime l' own p v N' I Rl) as S. rewrite H' in S. destruct S as (v' & more & _ & _ & I' & Kl & (os & O)).
  unfold remains, chistory in *. rewrite <- !in_rev in *. destruct R as [R1 R2]. pose proof R1 as La. apply (c_new _ _ _ I) in La. split; [split|].
  - apply (c_new _ _ _ I'). rewrite O, app_length. lia.
  - intro D. apply R2. destruct (Kl a La) as [_ Q]; auto. intros i c Hc Ha. apply (Nh i). apply addrs_in in Ha as (k & Ha). exists c, k. split; auto.
    apply In_mget; auto. apply msorted_NoDup. apply chandle_at in Hc. apply (c_kept _ _ _ I _ _ Hc).
  - rewrite O, nth_error_app1 by exact La. reflexivity.
Qed.
Print Assumptions C113_never_freed_partial.

(** A program that never replaces nor erases a component releases everything with
    its containers. *)
Lemma addrs_mset_keeps : forall k v c, msorted c -> (forall a, mget k c <> Some (Some a)) -> incl (addrs c) (addrs (mset k v c)).
Proof.
  intros k v c So H a Ha. apply addrs_in in Ha as (k' & Ha). apply addrs_in. exists k'. apply mget_In. pose proof (In_mget _ _ _ (msorted_NoDup c So) Ha) as G.
  rewrite mget_mset_other; auto. intros ->. exact (H a G).
Qed.
Definition tended {K} (p : cprog K) : Prop := forall a, (a < length (objs (cm p)))%nat -> In (Del a) (ev (cm p)) \/ exists i c, chandle p i = Some c /\ In a (addrs c).
Lemma tended_put : forall K (p : cprog K) i c c' m, tended p -> chandle p i = Some c -> incl (addrs c) (addrs c') -> (forall a, In (Del a) (ev (cm p)) -> In (Del a) (ev m)) ->
  (forall a, (length (objs (cm p)) <= a < length (objs m))%nat -> In a (addrs c')) -> tended (with_mem K (with_cont K p i c') m).
Proof.
  intros K p i c c' m T H Inc D A a La. cbn [with_mem with_cont cm] in La.
  assert (chandle (with_mem K (with_cont K p i c') m) i = Some c') as Hi by (eapply chandle_with; eauto).
  destruct (Nat.lt_ge_cases a (length (objs (cm p)))) as [Lt|Ge]; [|right; exists i, c'; split; auto].
  destruct (T a Lt) as [X|(j & d & Hd & Ha)]; [left; apply D; exact X|right]. destruct (Nat.eq_dec j i) as [->|Ne].
  - exists i, c'. split; auto. apply Inc. congruence.
  - exists j, d. split; auto. apply chandle_at. cbn [with_mem with_cont conts]. rewrite update_other by auto. apply chandle_at. exact Hd.
Qed.
Lemma tidy_step : forall K mktime o own (p : cprog K) p' r, copies o = false -> cinv K own p -> tended p -> tidy_op K o p -> cstep K mktime o p = Some (p', r) -> tended p'.
Proof.
  intros K mktime o own p p' r N I T Ti H. assert (forall i c, chandle p i = Some c -> msorted c) as Sorts by (intros i c Hc; apply chandle_at in Hc; apply (c_kept _ _ _ I _ _ Hc)).
  destruct o as [|i name o|i name|k|i name|i|i blob|i|i|i j]; cbn [cstep tidy_op] in *; try discriminate.
  - injection H as <- <-. intros a La. destruct (T a La) as [X|(j & d & Hd & Ha)]; [left; exact X|right]. exists j, d. split; auto. apply chandle_at. cbn [conts]. apply nth_app. apply chandle_at. exact Hd.
  - destruct (chandle p i) as [c|] eqn:Eh; [|injection H as <- <-; exact T]. destruct (h_set K c name o (cm p)) as [c' m] eqn:Es. injection H as <- <-.
    unfold h_set in Es. destruct (clone o) as [o'|]; injection Es as <- <-; (eapply tended_put; [exact T|exact Eh|apply addrs_mset_keeps; [eauto|intros a; exact (Ti c a Eh)]| |]).
    + intros a Ha. right. exact Ha.
    + intros a La. cbn [objs] in La. rewrite app_length in La. cbn [length] in La. assert (a = length (objs (cm p))) as -> by lia. apply addrs_in. exists name. apply mget_In. apply mget_mset_same.
    + auto.
    + intros a La. lia.
  - destruct (chandle p i) as [c|] eqn:Eh; [|injection H as <- <-; exact T]. unfold h_get, index in H. destruct (mget name c) as [[a|]|] eqn:Eg.
    + injection H as <- <-. intros x Lx. destruct (tended_put K p i c c (cm p) T Eh (incl_refl _) (fun _ X => X) ltac:(intros; lia) x Lx) as [X|X]; auto.
    + injection H as <- <-. apply (tended_put K p i c c (cm p) T Eh (incl_refl _) (fun _ X => X) ltac:(intros; lia)).
    + injection H as <- <-. apply (tended_put K p i c _ (cm p) T Eh); [apply addrs_mset_keeps; [eauto|congruence]|auto|intros; lia].
  - destruct (nth_error (ptrs p) k) as [[i a]|]; [|injection H as <- <-; exact T]. destruct (chandle p i); [|injection H as <- <-; exact T]. destruct (nth_error (objs (cm p)) a); [|discriminate].
    injection H as <- <-. intros x Lx. destruct (T x Lx) as [X|X]; [left; right; exact X|right; exact X].
  - destruct (chandle p i) as [c|] eqn:Eh; [|injection H as <- <-; exact T]. unfold h_erase in H. destruct (mget name c) as [w|] eqn:Eg; injection H as <- <-.
    + apply (tended_put K p i c _ (cm p) T Eh); [|auto|intros; lia]. intros a Ha. apply addrs_in in Ha as (k' & Ha). apply addrs_in. exists k'. apply filter_In. split; auto. cbn [fst].
      apply negb_true_iff. apply str_eqb_neq. intros <-. pose proof (In_mget _ _ _ (msorted_NoDup c (Sorts i c Eh)) Ha) as G. exact (Ti c a Eh G).
    + apply (tended_put K p i c c (cm p) T Eh (incl_refl _) (fun _ X => X) ltac:(intros; lia)).
  - destruct (chandle p i) as [c|] eqn:Eh; [|injection H as <- <-; exact T].
    pose proof (h_pack_step K c own p [] [] I (fun a Ha => held_live K own p i c a I Eh Ha)) as St. destruct (h_pack K c [] [] (cm p)) as [[s|e| | |] m]; try discriminate. injection H as <- <-.
    destruct St as (_ & _ & S3 & S4). intros x Lx. cbn [with_mem cm] in *. rewrite S3 in Lx. destruct (T x Lx) as [X|X]; [left; apply S4; exact X|right; exact X].
  - destruct (chandle p i) as [c|] eqn:Eh; [destruct Ti|injection H as <- <-; exact T].
  - destruct (chandle p i) as [c|] eqn:Eh; [|injection H as <- <-; exact T]. injection H as <- <-. pose proof Eh as Hh. apply chandle_at in Hh. destruct (c_kept _ _ _ I _ _ Hh) as (So & Nd & Q).
    destruct (h_free_step K c (cm p) (c_legal _ _ _ I) Nd (fun a Ha => held_live K own p i c a I Eh Ha)) as (A1 & A2 & A3 & A4).
    intros x Lx. cbn [cm] in *. rewrite A2 in Lx. destruct (T x Lx) as [X|(j & d & Hd & Ha)]; [left; apply A4; auto|]. destruct (Nat.eq_dec j i) as [->|Ne]; [left; apply A4; left; congruence|].
    right. exists j, d. split; auto. apply chandle_at. cbn [conts]. rewrite update_other by auto. apply chandle_at. exact Hd.
Qed.
Theorem C113_tidy_partial : forall K mktime l p r, no_copies l -> tidy K mktime l (cstart K) -> csteps K mktime l (cstart K) = Some (p, r) -> (forall i, chandle p i = None) -> all_freed (chistory p).
Proof.
  intros K mktime l p r N Ti H Hn. assert (exists own, cinv K own p /\ tended p) as (own & I & T).
  { assert (exists v, rel K (cstart K) v) as (v & R) by (exists (vstart K); split; [reflexivity|constructor]).
    assert (tended (cstart K)) as T by (intros a La; cbn in La; lia). pose proof (cstart_inv K) as I. clear Hn. revert v R I T Ti r H. generalize (@nil nat) as own. generalize (cstart K) as q.
    induction l as [|o l IH]; intros q own v R I T Ti r H; cbn [csteps tidy] in *.
    - injection H as -> _. eauto.
    - destruct Ti as [T1 T2]. pose proof (cstep_ok K mktime o own q v (N o (or_introl eq_refl)) I R) as S. destruct (cstep K mktime o q) as [[q1 a]|] eqn:E; [|discriminate].
      destruct S as (v1 & more & _ & R1 & I1 & _). destruct (csteps K mktime l q1) as [[q2 r2]|] eqn:E2; [|discriminate]. injection H as -> _.
      exact (IH (fun x X => N x (or_intror X)) q1 (own ++ more) v1 R1 I1 (tidy_step K mktime o own q q1 a (N o (or_introl eq_refl)) I T T1 E) T2 r2 E2). }
  intros a [R1 R2]. unfold chistory in *. rewrite <- in_rev in *. apply (c_new _ _ _ I) in R1. destruct (T a R1) as [X|(i & c & Hc & _)]; [auto|]. rewrite Hn in Hc. discriminate.
Qed.
Print Assumptions C113_tidy_partial.
(** The claim fails for a component that is replaced ... *)
Theorem C113_replaced_refuted : forall K, exists p r, csteps K a_day [CNew; CSet 0 (L "k") (OBytes (L "one")); CSet 0 (L "k") (OBytes (L "two")); CFree 0] (cstart K) = Some (p, r) /\
  (forall i, chandle p i = None) /\ remains (chistory p) 0 /\ nth_error (objs (cm p)) 0 = Some (OBytes (L "one")).
Proof.
  intro K. eexists _, _. split; [vm_compute; reflexivity|]. split; [intros [|[|i]]; reflexivity|]. split; [|reflexivity].
  split; [vm_compute; tauto|]. vm_compute. intros [H|[H|[H|[]]]]; discriminate.
Qed.
Print Assumptions C113_replaced_refuted.
(** ... and for one that is erased: the call answers that it is gone, the secret
    stays in memory for good. *)
Theorem C113_erased_refuted : forall K, exists p r, csteps K a_day [CNew; CSet 0 (L "k") (OBytes (L "secret")); CErase 0 (L "k"); CFree 0] (cstart K) = Some (p, r) /\
  nth_error r 2 = Some (ACode 0) /\ (forall i, chandle p i = None) /\ remains (chistory p) 0 /\ nth_error (objs (cm p)) 0 = Some (OBytes (L "secret")).
Proof.
  intro K. eexists _, _. split; [vm_compute; reflexivity|]. split; [reflexivity|]. split; [intros [|[|i]]; reflexivity|]. split; [|reflexivity].
  split; [vm_compute; tauto|]. vm_compute. intros [H|[]]; discriminate.
Qed.
Print Assumptions C113_erased_refuted.
Definition tidy_cops (K : curve) : list (cop K) := [CNew; CSet 0 (L "k") (OBytes (L "one")); CNew; CSet 1 (L "k") (OBytes (L "two")); CGet 0 (L "k"); CPack 0; CRead 0; CFree 1; CFree 0].
Example C113_nonvacuous : forall K, no_copies (tidy_cops K) /\ tidy K a_day (tidy_cops K) (cstart K) /\ exists p r, csteps K a_day (tidy_cops K) (cstart K) = Some (p, r) /\ (forall i, chandle p i = None) /\
  length (chistory p) = 6%nat.
Proof.
  intro K. split; [intros o H; cbn in H; repeat (destruct H as [<-|H]; [reflexivity|]); destruct H|]. split.
  - cbn. repeat split; intros c a Hc; injection Hc as <-; cbn; discriminate.
  - eexists _, _. split; [vm_compute; reflexivity|]. split; [intros [|[|[|i]]]; reflexivity|vm_compute; reflexivity].
Qed.

(** ** C114 *)

(** A copy of a container shares its components: destroying both deletes them
    twice, *)
Theorem C114_copy_refuted : forall K, exists p r, csteps K a_day [CNew; CSet 0 (L "k") (OBytes (L "one")); CCopy 0; CFree 0; CFree 1] (cstart K) = Some (p, r) /\ ~ legal (chistory p).
Proof.
  intro K. eexists _, _. split; [vm_compute; reflexivity|]. intro Lg. destruct (Lg [New 0; Del 0] (Del 0) [] eq_refl) as [_ X]. apply X. cbn. auto.
Qed.
Print Assumptions C114_copy_refuted.
(** and after the assignment of one to another, reading the survivor reads a
    deleted object. *)
Theorem C114_assign_refuted : forall K, exists p r, csteps K a_day [CNew; CSet 0 (L "k") (OBytes (L "one")); CNew; CAssign 1 0; CFree 0; CPack 1] (cstart K) = Some (p, r) /\ ~ legal (chistory p).
Proof.
  intro K. eexists _, _. split; [vm_compute; reflexivity|]. intro Lg. destruct (Lg [New 0; Del 0] (Use 0) [] eq_refl) as [_ X]. apply X. cbn. auto.
Qed.
Print Assumptions C114_assign_refuted.
(** What holds: without copies every program is safe (C112), and with copies every
    program that destroys no container. *)
Record lax {K} (p : cprog K) : Prop := {
  l_legal : legal (chistory p);
  l_new : forall a, In (New a) (ev (cm p)) <-> (a < length (objs (cm p)))%nat;
  l_del : forall a, ~ In (Del a) (ev (cm p));
  l_held : forall i c a, chandle p i = Some c -> In a (addrs c) -> (a < length (objs (cm p)))%nat;
  l_ptr : forall i a, In (i, a) (ptrs p) -> (a < length (objs (cm p)))%nat }.
Definition lax_mem {K} (m : cmem K) : Prop := legal (rev (ev m)) /\ (forall a, In (New a) (ev m) <-> (a < length (objs m))%nat) /\ (forall a, ~ In (Del a) (ev m)).
Definition within {K} (m : cmem K) (c : handle) : Prop := forall a, In a (addrs c) -> (a < length (objs m))%nat.
Lemma lax_use : forall K (m : cmem K) a, lax_mem m -> (a < length (objs m))%nat -> lax_mem (note K (Use a) m).
Proof.
  intros K m a (L & N & D) La. split; [|split].
  - change (legal (rev (ev m) ++ [Use a])). apply legal_snoc; auto. rewrite <- !in_rev, N. auto.
  - intro x. cbn. rewrite <- N. split; [intros [E|E]; [discriminate|exact E]|auto].
  - intros x [E|E]; [discriminate|exact (D x E)].
Qed.
Lemma lax_set : forall K c name o (m : cmem K), lax_mem m -> within m c -> let '(c', m') := h_set K c name o m in lax_mem m' /\ within m' c' /\ (length (objs m) <= length (objs m'))%nat.
Proof.
  intros K c name o m (L & N & D) W. unfold h_set. destruct (clone o) as [o'|].
  - destruct (addrs_mset name (Some (length (objs m))) c) as (rest & Pm & Inc & _). unfold lax_mem, within. cbn [objs ev]. rewrite app_length. cbn [length]. split; [split; [|split]|split; [|lia]].
    + change (legal (rev (ev m) ++ [New (length (objs m))])). apply legal_snoc; auto. rewrite <- in_rev, N. lia.
    + intro a. cbn [In]. rewrite N. split; [intros [E|E]; [injection E as ->; lia|lia]|]. intro E. destruct (Nat.eq_dec a (length (objs m))) as [->|]; auto. right. lia.
    + intros a [E|E]; [discriminate|exact (D a E)].
    + intros a Ha. apply (Permutation_in _ Pm) in Ha. cbn in Ha. destruct Ha as [<-|Ha]; [lia|]. specialize (W a (Inc a Ha)). lia.
  - destruct (addrs_mset name None c) as (rest & Pm & Inc & _). split; [split; auto|]. split; [|lia]. intros a Ha. apply W. apply Inc. exact (Permutation_in _ Pm Ha).
Qed.
Lemma lax_load : forall K mktime f blob k c (m : cmem K), lax_mem m -> within m c -> let '(c', r, m') := h_load K mktime f blob k c m in lax_mem m' /\ within m' c' /\ (length (objs m) <= length (objs m'))%nat.
Proof.
  induction f as [|f IH]; intros blob k c m L W; cbn [h_load]; auto.
  destruct (smart_unpack blob k) as [i1 [key|e| | |]]; auto. destruct (smart_unpack blob i1) as [i2 [value|e| | |]]; auto.
  unfold h_element. destruct (element_of K mktime value) as [[o|]|e| | |]; auto.
  - pose proof (lax_set K c key o m L W) as S. destruct (h_set K c key o m) as [c1 m1]. destruct S as (L1 & W1 & Le1). destruct (i2 <? length blob)%nat; auto.
    specialize (IH blob i2 c1 m1 L1 W1). destruct (h_load K mktime f blob i2 c1 m1) as [[c2 r] m2]. destruct IH as (A & B & C). split; auto. split; auto. lia.
  - destruct (i2 <? length blob)%nat; auto. apply IH; auto.
Qed.
Lemma lax_pack : forall K c bytes result (m : cmem K), lax_mem m -> within m c -> match h_pack K c bytes result m with (Ok _, m') => lax_mem m' /\ objs m' = objs m | _ => True end.
Proof.
  induction c as [|[k [a|]] c IH]; intros bytes result m L W; cbn [h_pack]; auto. destruct (nth_error (objs m) a) as [o|]; auto.
  specialize (IH (obj_serialize bytes o) (smart_pack (smart_pack result k) (obj_serialize bytes o)) _ (lax_use K m a L (W a (or_introl eq_refl))) (fun x X => W x (or_intror X))). exact IH.
Qed.
Lemma lax_put : forall K (p : cprog K) i c m, lax p -> lax_mem m -> within m c -> (length (objs (cm p)) <= length (objs m))%nat -> lax (with_mem K (with_cont K p i c) m).
Proof.
  intros K p i c m [L N D H P] (L1 & N1 & D1) W Le. split; auto; cbn [with_mem with_cont cm ptrs].
  - intros j d a Hj Ha. apply chandle_at in Hj. cbn [with_mem with_cont conts] in Hj. destruct (nth_error (conts p) i) as [x|] eqn:E.
    + destruct (Nat.eq_dec i j) as [->|Ne]; [rewrite (update_same j _ _ _ E) in Hj; injection Hj as <-; auto|]. rewrite update_other in Hj by auto. apply chandle_at in Hj. specialize (H j d a Hj Ha). lia.
    + assert (i <> j) as Ne by (intros ->; assert (nth_error (update j (Some c) (conts p)) j <> None) as X by congruence; apply nth_error_Some in X; rewrite update_length in X; apply nth_error_None in E; lia).
      rewrite update_other in Hj by auto. apply chandle_at in Hj. specialize (H j d a Hj Ha). lia.
  - intros j a Ha. specialize (P j a Ha). lia.
Qed.
Lemma lax_step : forall K mktime o (p : cprog K) p' r, (forall i, o <> CFree i) -> lax p -> cstep K mktime o p = Some (p', r) -> lax p'.
Proof.
  intros K mktime o p p' r Nf Lx H. pose proof Lx as [L N D Hd P]. assert (lax_mem (cm p)) as Lm by (split; [exact L|split; auto]).
  assert (forall i c, chandle p i = Some c -> within (cm p) c) as Wi by (intros i c Hc a Ha; eauto).
  destruct o as [|i name o|i name|k|i name|i|i blob|i|i|i j]; cbn [cstep] in H.
  - injection H as <- <-. split; auto. intros i c a Hc Ha. apply chandle_at in Hc. cbn [conts cm] in *. destruct (Nat.lt_ge_cases i (length (conts p))) as [Lt|Ge].
    + rewrite nth_error_app1 in Hc by auto. apply chandle_at in Hc. eauto.
    + rewrite nth_error_app2 in Hc by auto. destruct (i - length (conts p))%nat as [|n]; [injection Hc as <-; destruct Ha|destruct n; discriminate].
  - destruct (chandle p i) as [c|] eqn:Eh; [|injection H as <- <-; exact Lx]. pose proof (lax_set K c name o (cm p) Lm (Wi i c Eh)) as S. destruct (h_set K c name o (cm p)) as [c' m].
    injection H as <- <-. destruct S as (A & B & C). apply lax_put; auto.
  - destruct (chandle p i) as [c|] eqn:Eh; [|injection H as <- <-; exact Lx]. unfold h_get, index in H. destruct (mget name c) as [[a|]|] eqn:Eg; injection H as <- <-.
    + pose proof (lax_put K p i c (cm p) Lx Lm (Wi i c Eh) ltac:(lia)) as [A1 A2 A3 A4 A5]. split; auto. cbn [ptrs cm with_cont] in *. intros j b Hb. apply in_app_or in Hb as [Hb|[Hb|[]]]; [eauto|].
      injection Hb as <- <-. apply (Wi i c Eh). apply addrs_in. exists name. apply mget_In. exact Eg.
    + exact (lax_put K p i c (cm p) Lx Lm (Wi i c Eh) ltac:(lia)).
    + apply (lax_put K p i _ (cm p) Lx Lm); [|lia]. destruct (addrs_mset name None c) as (rest & Pm & Inc & _). intros a Ha. apply (Wi i c Eh). apply Inc. exact (Permutation_in _ Pm Ha).
  - destruct (nth_error (ptrs p) k) as [[i a]|] eqn:Ep; [|injection H as <- <-; exact Lx]. destruct (chandle p i); [|injection H as <- <-; exact Lx]. destruct (nth_error (objs (cm p)) a); [|discriminate].
    injection H as <- <-. destruct (lax_use K (cm p) a Lm (P i a (nth_error_In _ _ Ep))) as (A & B & C). split; auto.
  - destruct (chandle p i) as [c|] eqn:Eh; [|injection H as <- <-; exact Lx]. unfold h_erase in H. destruct (mget name c); injection H as <- <-; apply (lax_put K p i _ (cm p) Lx Lm); try lia; [|exact (Wi i c Eh)].
    intros a Ha. apply (Wi i c Eh). apply (proj1 (addrs_mdel name c)). exact Ha.
  - destruct (chandle p i) as [c|] eqn:Eh; [|injection H as <- <-; exact Lx]. pose proof (lax_pack K c [] [] (cm p) Lm (Wi i c Eh)) as S. destruct (h_pack K c [] [] (cm p)) as [[s|e| | |] m]; try discriminate.
    injection H as <- <-. destruct S as ((A1 & A2 & A3) & B). split; auto; cbn [with_mem cm ptrs]; rewrite B; auto.
  - destruct (chandle p i) as [c|] eqn:Eh; [|injection H as <- <-; exact Lx]. pose proof (lax_load K mktime (S (length blob)) blob 0 c (cm p) Lm (Wi i c Eh)) as St.
    destruct (h_load K mktime (S (length blob)) blob 0 c (cm p)) as [[c' q] m]. destruct St as (A & B & C). destruct q as [u|e| | |]; try discriminate; injection H as <- <-; apply lax_put; auto.
  - destruct (Nf i eq_refl).
  - destruct (chandle p i) as [c|] eqn:Eh; [|injection H as <- <-; exact Lx]. injection H as <- <-. split; auto. intros j d a Hc Ha. apply chandle_at in Hc. cbn [conts cm] in *.
    destruct (Nat.lt_ge_cases j (length (conts p))) as [Lt|Ge].
    + rewrite nth_error_app1 in Hc by auto. apply chandle_at in Hc. eauto.
    + rewrite nth_error_app2 in Hc by auto. destruct (j - length (conts p))%nat as [|n]; [injection Hc as <-; exact (Wi i c Eh a Ha)|destruct n; discriminate].
  - destruct (chandle p i) as [c|] eqn:Ei; [|injection H as <- <-; exact Lx]. destruct (chandle p j) as [d|] eqn:Ej; injection H as <- <-; [|exact Lx].
    exact (lax_put K p i d (cm p) Lx Lm (Wi j d Ej) ltac:(lia)).
Qed.
Theorem C114_nothing_destroyed_partial : forall K mktime l p r, (forall i, ~ In (CFree i) l) -> csteps K mktime l (cstart K) = Some (p, r) -> legal (chistory p).
Proof.
  intros K mktime l p r N H. assert (lax (cstart K)) as Lx.
  { split; cbn; [intros before e after E; destruct before; discriminate|intro a; split; [contradiction|lia]|auto|intros i c a Hc; unfold chandle in Hc; destruct i; discriminate|contradiction]. }
  revert r H N Lx. generalize (cstart K) as q. induction l as [|o l IH]; intros q r H N Lx; cbn [csteps] in H; [injection H as -> _; apply Lx|].
  destruct (cstep K mktime o q) as [[q1 a]|] eqn:E; [|discriminate]. destruct (csteps K mktime l q1) as [[q2 r2]|] eqn:E2; [|discriminate]. injection H as -> _.
  apply (IH q1 r2 E2); [intros i X; exact (N i (or_intror X))|]. eapply lax_step; eauto. intros i ->. exact (N i (or_introl eq_refl)).
Qed.
Print Assumptions C114_nothing_destroyed_partial.
Example C114_nonvacuous : forall K, exists p r, csteps K a_day [CNew; CSet 0 (L "k") (OBytes (L "one")); CCopy 0; CNew; CAssign 2 1; CGet 2 (L "k"); CRead 0; CPack 1] (cstart K) = Some (p, r) /\ length (chistory p) = 3%nat.
Proof. intro K. eexists _, _. split; vm_compute; reflexivity. Qed.
