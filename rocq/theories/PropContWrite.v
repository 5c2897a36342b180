(** C145: a change through a component pointer reaches its component and no other. *)
From Verif Require Import Base StrMap ByteString UInteger Field Policy Driver Parser AttrList Utils Container Memory MemorySpec MemoryInv ContMem ContMemSpec ContMemProofs ContWrite PropContMem.
From Coq Require Import ZArith List Bool Arith Lia.
Import ListNotations.
Local Open Scope nat_scope.

(** ** Specification *)
(** The value under a name of a container. *)
Definition seen {K} (p : cprog K) (i : nat) (n : str) : option (zobj K) :=
  match chandle p i with
  | Some c => match mget n c with Some (Some a) => nth_error (objs (cm p)) a | _ => None end
  | None => None
  end.
(** Containers are not copied (C114). *)
Definition plain {K} (l : list (wop K)) : Prop := forall o, In (WDo o) l -> copies o = false.
(** Nothing is done to the name [n] of the container [i], other than through
    pointers. *)
Definition leaves {K} (i : nat) (n : str) (l : list (wop K)) : Prop :=
  forall o, In (WDo o) l ->
    match o with CSet j m _ | CErase j m => (j, m) <> (i, n) | CLoad j _ | CFree j => j <> i | CAssign j _ => j <> i | _ => True end.

Section Writes.
Context (K : curve) (mktime : tm -> Z * tm).
Lemma rel_exists : forall own (p : cprog K), cinv K own p -> exists v, rel K p v.
Proof.
  intros own p I. assert (exists vs, Forall2 (fun x y => fst x = fst y /\ nth_error (objs (cm p)) (snd x) = Some (snd y)) (ptrs p) vs) as (vs & F).
  { pose proof (c_ptr _ _ _ I) as P. induction (ptrs p) as [|[i a] l IH]; [exists []; constructor|].
    destruct IH as (vs & F); [intros j b H; apply P; right; exact H|]. specialize (P i a (or_introl eq_refl)).
    destruct (nth_error (objs (cm p)) a) as [o|] eqn:E.
    - exists ((i, o) :: vs). constructor; auto.
    - apply nth_error_None in E. rewrite <- (c_len _ _ _ I) in E. apply nth_error_None in E. congruence. }
  exists {| vconts := map (option_map (view K (cm p))) (conts p); vptrs := vs |}. split; auto.
Qed.
Lemma do_cinv : forall o own (p p' : cprog K), copies o = false -> cinv K own p -> wstep K mktime (WDo o) p = Some p' ->
  exists more, cinv K (own ++ more) p' /\ keeps_loose K p p' /\ exists os, objs (cm p') = objs (cm p) ++ os.
Proof.
  intros o own p p' Hc I H. destruct (rel_exists own p I) as (v & R). pose proof (cstep_ok K mktime o own p v Hc I R) as S. cbn [wstep] in H.
  destruct (cstep K mktime o p) as [[q a]|]; [|discriminate]. injection H as <-. destruct S as (v' & more & _ & _ & C & L & O). eauto.
Qed.
Lemma put_cinv : forall k o own (p p' : cprog K), cinv K own p -> wstep K mktime (WPut k o) p = Some p' -> cinv K own p'.
Proof.
  intros k o own p p' I H. cbn [wstep] in H. destruct (nth_error (ptrs p) k) as [[i a]|] eqn:Ep; [|congruence]. destruct (chandle p i) as [c|] eqn:Ec; [|congruence].
  destruct (nth_error (objs (cm p)) a) as [x|] eqn:Ea; [|discriminate]. injection H as <-. pose proof I as [Lg Ln Nw Kp D P].
  split; cbn [with_mem conts ptrs cm objs ev]; auto.
  - change (legal (chistory p ++ [Use a])). apply legal_snoc; auto. unfold chistory. rewrite <- !in_rev. split; [apply Nw; apply nth_error_Some; congruence|].
    intro Z. destruct (D a Z) as (j & Q & E). rewrite (P i a (nth_error_In _ _ Ep)) in Q. injection Q as <-. apply chandle_at in Ec. congruence.
  - rewrite update_length. exact Ln.
  - intro b. rewrite update_length, <- Nw. cbn. split; [intros [Z|Z]; [discriminate|exact Z]|auto].
  - intros b [Z|Z]; [discriminate|auto].
Qed.
Lemma step_cinv : forall w own (p p' : cprog K), plain [w] -> cinv K own p -> wstep K mktime w p = Some p' ->
  exists own', cinv K own' p' /\ length (objs (cm p)) <= length (objs (cm p')).
Proof.
  intros [o|k o] own p p' Pl I H.
  - destruct (do_cinv o own p p') as (more & C & _ & os & O); auto; [apply Pl; left; reflexivity|]. exists (own ++ more). split; [exact C|]. rewrite O, app_length. lia.
  - exists own. split; [eapply put_cinv; eauto|]. cbn [wstep] in H. destruct (nth_error (ptrs p) k) as [[i a]|]; [|injection H as <-; lia]. destruct (chandle p i); [|injection H as <-; lia].
    destruct (nth_error (objs (cm p)) a); [|discriminate]. injection H as <-. cbn. rewrite update_length. lia.
Qed.
Lemma steps_cinv : forall l own (p p' : cprog K), plain l -> cinv K own p -> wsteps K mktime l p = Some p' -> exists own', cinv K own' p' /\ length (objs (cm p)) <= length (objs (cm p')).
Proof.
  induction l as [|w l IH]; intros own p p' Pl I H; cbn [wsteps] in H; [injection H as <-; eauto|]. destruct (wstep K mktime w p) as [q|] eqn:E; [|discriminate].
  destruct (step_cinv w own p q) as (own1 & I1 & L1); auto; [intros o Ho; apply Pl; destruct Ho as [Ho|[]]; left; exact Ho|].
  destruct (IH own1 q p') as (own2 & I2 & L2); auto; [intros o Ho; apply Pl; right; exact Ho|]. exists own2. split; [exact I2|lia].
Qed.

(** An entry of a container is old, or new with a new address. *)
Lemma handle_put : forall (p : cprog K) i c c' h (m : cmem K) j d, chandle p i = Some c -> chandle {| conts := update i (Some c') (conts p); ptrs := h; cm := m |} j = Some d -> (j = i /\ d = c') \/ (j <> i /\ chandle p j = Some d).
Proof.
  intros p i c c' h m j d H Hd. apply chandle_at in H, Hd. cbn [conts] in Hd. destruct (Nat.eq_dec i j) as [<-|N].
  - rewrite (update_same i _ _ _ H) in Hd. left. split; congruence.
  - rewrite update_other in Hd by exact N. right. split; [congruence|]. apply chandle_at. exact Hd.
Qed.
Lemma set_entry : forall c n o (m : cmem K) x a, mget x (fst (h_set K c n o m)) = Some (Some a) -> a < length (objs m) -> mget x c = Some (Some a).
Proof.
  intros c n o m x a H La. unfold h_set in H. destruct (str_eqb x n) eqn:E.
  - apply str_eqb_eq in E. subst. destruct (clone o); cbn [fst] in H; rewrite mget_mset_same in H; injection H as H; [lia|discriminate].
  - apply str_eqb_neq in E. destruct (clone o); cbn [fst] in H; rewrite mget_mset_other in H; auto.
Qed.
Lemma set_grows : forall c n o (m : cmem K), length (objs m) <= length (objs (snd (h_set K c n o m))).
Proof. intros. unfold h_set. destruct (clone o); cbn; [rewrite app_length; lia|lia]. Qed.
Lemma load_entry : forall f blob k c (m : cmem K) x a, mget x (fst (fst (h_load K mktime f blob k c m))) = Some (Some a) -> a < length (objs m) -> mget x c = Some (Some a).
Proof.
  induction f as [|f IH]; intros blob k c m x a H La; cbn [h_load] in H; [exact H|].
  destruct (smart_unpack blob k) as [i1 [key| | | |]]; try exact H. destruct (smart_unpack blob i1) as [i2 [value| | | |]]; try exact H.
  unfold h_element in H. destruct (element_of K mktime value) as [[o|]| | | |]; try exact H.
  - pose proof (set_grows c key o m) as G. pose proof (set_entry c key o m x a) as SE. destruct (h_set K c key o m) as [c1 m1]. cbn [fst snd] in *.
    destruct (i2 <? length blob); [|exact (SE H La)]. apply IH in H; [exact (SE H La)|lia].
  - destruct (i2 <? length blob); [|exact H]. apply IH in H; auto.
Qed.
Lemma index_entry : forall (c : handle) n x a, mget x (fst (index c n)) = Some (Some a) <-> mget x c = Some (Some a).
Proof.
  intros c n x a. unfold index. destruct (mget n c) eqn:E; cbn [fst]; [tauto|]. destruct (str_eqb x n) eqn:Ex.
  - apply str_eqb_eq in Ex. subst. rewrite mget_mset_same, E. split; discriminate.
  - apply str_eqb_neq in Ex. rewrite mget_mset_other by auto. tauto.
Qed.
Lemma step_entry : forall w (p p' : cprog K) j c' x a, plain [w] -> wstep K mktime w p = Some p' -> chandle p' j = Some c' -> mget x c' = Some (Some a) -> a < length (objs (cm p)) ->
  exists c, chandle p j = Some c /\ mget x c = Some (Some a).
Proof.
  intros [o|k o] p p' j c' x a Pl H Hc Hg La; cbn [wstep] in H.
  2:{ destruct (nth_error (ptrs p) k) as [[i b]|]; [|injection H as <-; eauto]. destruct (chandle p i); [|injection H as <-; eauto].
      destruct (nth_error (objs (cm p)) b); [|discriminate]. injection H as <-. exists c'. auto. }
  assert (copies o = false) as Cp by (apply Pl; left; reflexivity).
  destruct o as [|i name o|i name|k|i name|i|i blob|i|i|i i']; cbn [cstep] in H; try discriminate Cp.
  - injection H as <-. apply chandle_at in Hc. cbn [conts] in Hc. destruct (Nat.lt_ge_cases j (length (conts p))) as [L|L].
    + rewrite nth_error_app1 in Hc by exact L. exists c'. split; [apply chandle_at; exact Hc|exact Hg].
    + rewrite nth_error_app2 in Hc by exact L. destruct (j - length (conts p)) as [|[|]]; cbn in Hc; try discriminate. injection Hc as <-. discriminate.
  - destruct (chandle p i) as [c|] eqn:Ei; [|injection H as <-; eauto]. pose proof (set_entry c name o (cm p) x a) as SE. destruct (h_set K c name o (cm p)) as [c1 m1]. injection H as <-.
    destruct (handle_put p i c c1 _ _ j c' Ei Hc) as [[-> ->]|[N E]]; eauto.
  - destruct (chandle p i) as [c|] eqn:Ei; [|injection H as <-; eauto]. unfold h_get in H. pose proof (index_entry c name x a) as SE. destruct (index c name) as [c1 [v|]]; injection H as <-;
      (destruct (handle_put p i c c1 _ _ j c' Ei Hc) as [[-> ->]|[N E]]; [exists c; split; [exact Ei|apply SE; exact Hg]|eauto]).
  - destruct (nth_error (ptrs p) k) as [[i b]|]; [|injection H as <-; eauto]. destruct (chandle p i); [|injection H as <-; eauto]. destruct (nth_error (objs (cm p)) b); [|discriminate]. injection H as <-. exists c'. auto.
  - destruct (chandle p i) as [c|] eqn:Ei; [|injection H as <-; eauto]. assert (mget x (fst (h_erase c name)) = Some (Some a) -> mget x c = Some (Some a)) as SE.
    { unfold h_erase. destruct (mget name c) eqn:En; cbn [fst]; auto. destruct (str_eqb x name) eqn:Ex; [apply str_eqb_eq in Ex; subst; rewrite mget_mdel_same; discriminate|].
      apply str_eqb_neq in Ex. rewrite mget_mdel_other; auto. }
    destruct (h_erase c name) as [c1 z]. injection H as <-. destruct (handle_put p i c c1 _ _ j c' Ei Hc) as [[-> ->]|[N E]]; eauto.
  - destruct (chandle p i) as [c|] eqn:Ei; [|injection H as <-; eauto]. destruct (h_pack K c [] [] (cm p)) as [[s| | | |] m]; try discriminate. injection H as <-. exists c'. auto.
  - destruct (chandle p i) as [c|] eqn:Ei; [|injection H as <-; eauto]. pose proof (load_entry (S (length blob)) blob 0 c (cm p) x a) as SE.
    destruct (h_load K mktime (S (length blob)) blob 0 c (cm p)) as [[c1 [u|e| | |]] m]; try discriminate; injection H as <-; destruct (handle_put p i c c1 _ _ j c' Ei Hc) as [[-> ->]|[N E]]; eauto.
  - destruct (chandle p i) as [c|] eqn:Ei; [|injection H as <-; eauto]. injection H as <-. apply chandle_at in Hc. cbn [conts] in Hc. apply chandle_at in Ei. destruct (Nat.eq_dec i j) as [<-|N].
    + rewrite (update_same i _ _ _ Ei) in Hc. discriminate.
    + rewrite update_other in Hc by exact N. exists c'. split; [apply chandle_at; exact Hc|exact Hg].
Qed.
Lemma steps_entry : forall l own (p p' : cprog K) j c' x a, plain l -> cinv K own p -> wsteps K mktime l p = Some p' -> chandle p' j = Some c' -> mget x c' = Some (Some a) -> a < length (objs (cm p)) ->
  exists c, chandle p j = Some c /\ mget x c = Some (Some a).
Proof.
  induction l as [|w l IH]; intros own p p' j c' x a Pl I H Hc Hg La; cbn [wsteps] in H; [injection H as <-; eauto|].
  destruct (wstep K mktime w p) as [q|] eqn:E; [|discriminate]. assert (plain [w]) as Pw by (intros o [Ho|[]]; apply Pl; left; exact Ho).
  destruct (step_cinv w own p q Pw I E) as (own1 & I1 & L1). destruct (IH own1 q p' j c' x a) as (c & Hc1 & Hg1); auto; [intros o Ho; apply Pl; right; exact Ho|lia|].
  eapply step_entry; eauto.
Qed.

(** An entry stays unless something is done to it. *)
Lemma handle_same : forall (p : cprog K) i c c' h (m : cmem K), chandle p i = Some c -> chandle {| conts := update i (Some c') (conts p); ptrs := h; cm := m |} i = Some c'.
Proof. intros p i c c' h m H. apply chandle_at in H. apply chandle_at. cbn [conts]. eapply update_same; eauto. Qed.
Lemma handle_other : forall (p : cprog K) i x h (m : cmem K) j d, j <> i -> chandle p j = Some d -> chandle {| conts := update i x (conts p); ptrs := h; cm := m |} j = Some d.
Proof. intros p i x h m j d N H. apply chandle_at in H. apply chandle_at. cbn [conts]. rewrite update_other by congruence. exact H. Qed.
Lemma step_stays : forall w (p p' : cprog K) i n c a, leaves i n [w] -> wstep K mktime w p = Some p' -> chandle p i = Some c -> mget n c = Some (Some a) ->
  exists c', chandle p' i = Some c' /\ mget n c' = Some (Some a).
Proof.
  intros [o|k o] p p' i n c a Lv H Hc Hg; cbn [wstep] in H.
  2:{ destruct (nth_error (ptrs p) k) as [[i' b]|]; [|injection H as <-; eauto]. destruct (chandle p i'); [|injection H as <-; eauto].
      destruct (nth_error (objs (cm p)) b); [|discriminate]. injection H as <-. exists c. auto. }
  specialize (Lv o (or_introl eq_refl)).
  destruct o as [|j name o|j name|k|j name|j|j blob|j|j|j j']; cbn [cstep] in H.
  - injection H as <-. exists c. split; [|exact Hg]. apply chandle_at in Hc. apply chandle_at. apply nth_app. exact Hc.
  - destruct (chandle p j) as [d|] eqn:Ej; [|injection H as <-; eauto]. destruct (h_set K d name o (cm p)) as [c1 m1] eqn:Es. injection H as <-.
    destruct (Nat.eq_dec i j) as [->|N]; [|exists c; split; [apply handle_other; auto|exact Hg]]. exists c1. split; [eapply handle_same; eauto|].
    rewrite Ej in Hc. injection Hc as ->. assert (n <> name) as Nn by (intros ->; apply Lv; reflexivity). unfold h_set in Es. destruct (clone o); injection Es as <- <-; rewrite mget_mset_other; auto.
  - destruct (chandle p j) as [d|] eqn:Ej; [|injection H as <-; eauto]. unfold h_get in H. pose proof (index_entry d name n a) as SE. destruct (index d name) as [c1 [v|]]; injection H as <-;
      (destruct (Nat.eq_dec i j) as [->|N]; [exists c1; split; [eapply handle_same; eauto|apply SE; congruence]|exists c; split; [apply handle_other; auto|exact Hg]]).
  - destruct (nth_error (ptrs p) k) as [[i' b]|]; [|injection H as <-; eauto]. destruct (chandle p i'); [|injection H as <-; eauto]. destruct (nth_error (objs (cm p)) b); [|discriminate]. injection H as <-. exists c. auto.
  - destruct (chandle p j) as [d|] eqn:Ej; [|injection H as <-; eauto]. destruct (h_erase d name) as [c1 z] eqn:Es. injection H as <-.
    destruct (Nat.eq_dec i j) as [->|N]; [|exists c; split; [apply handle_other; auto|exact Hg]]. exists c1. split; [eapply handle_same; eauto|].
    rewrite Ej in Hc. injection Hc as ->. assert (n <> name) as Nn by (intros ->; apply Lv; reflexivity). unfold h_erase in Es. destruct (mget name c); injection Es as <- <-; [rewrite mget_mdel_other|]; auto.
  - destruct (chandle p j) as [d|] eqn:Ej; [|injection H as <-; eauto]. destruct (h_pack K d [] [] (cm p)) as [[s| | | |] m]; try discriminate. injection H as <-. exists c. auto.
  - destruct (chandle p j) as [d|] eqn:Ej; [|injection H as <-; eauto].
    destruct (h_load K mktime (S (length blob)) blob 0 d (cm p)) as [[c1 [u|e| | |]] m]; try discriminate; injection H as <-; exists c; (split; [apply handle_other; auto|exact Hg]).
  - destruct (chandle p j) as [d|] eqn:Ej; [|injection H as <-; eauto]. injection H as <-. exists c. split; [apply handle_other; auto|exact Hg].
  - destruct (chandle p j) as [d|] eqn:Ej; [|injection H as <-; eauto]. injection H as <-. exists c. split; [|exact Hg]. apply chandle_at in Hc. apply chandle_at. apply nth_app. exact Hc.
  - destruct (chandle p j) as [d|] eqn:Ej; [|injection H as <-; eauto]. destruct (chandle p j') as [d'|] eqn:Ej'; injection H as <-; [|eauto]. exists c. split; [apply handle_other; auto|exact Hg].
Qed.
Lemma steps_stay : forall l (p p' : cprog K) i n c a, leaves i n l -> wsteps K mktime l p = Some p' -> chandle p i = Some c -> mget n c = Some (Some a) ->
  exists c', chandle p' i = Some c' /\ mget n c' = Some (Some a).
Proof.
  induction l as [|w l IH]; intros p p' i n c a Lv H Hc Hg; cbn [wsteps] in H; [injection H as <-; eauto|].
  destruct (wstep K mktime w p) as [q|] eqn:E; [|discriminate]. destruct (step_stays w p q i n c a) as (c1 & Hc1 & Hg1); auto; [intros o [Ho|[]]; apply Lv; left; exact Ho|].
  apply (IH q p' i n c1 a); auto. intros o Ho. apply Lv. right. exact Ho.
Qed.
Lemma steps_ptr : forall l (p p' : cprog K) k x, wsteps K mktime l p = Some p' -> nth_error (ptrs p) k = Some x -> nth_error (ptrs p') k = Some x.
Proof.
  induction l as [|w l IH]; intros p p' k x H Hk; cbn [wsteps] in H; [injection H as <-; exact Hk|].
  destruct (wstep K mktime w p) as [q|] eqn:E; [|discriminate]. apply (IH q p' k x H). clear H IH.
  destruct w as [o|k' o]; cbn [wstep] in E.
  - destruct o as [|j name o|j name|k'|j name|j|j blob|j|j|j j']; cbn [cstep] in E; repeat match type of E with
      | option_map _ (match ?e with _ => _ end) = _ => destruct e; try discriminate E end; try (injection E as <-; cbn [with_mem with_cont ptrs]; auto; apply nth_app; exact Hk).
  - destruct (nth_error (ptrs p) k') as [[i b]|]; [|injection E as <-; exact Hk]. destruct (chandle p i); [|injection E as <-; exact Hk]. destruct (nth_error (objs (cm p)) b); [|discriminate]. injection E as <-. exact Hk.
Qed.
(** The two sides of a lookup that finds something. *)
Lemma get_found : forall (p p1 : cprog K) i n, wstep K mktime (WDo (CGet i n)) p = Some p1 -> length (ptrs p1) = S (length (ptrs p)) ->
  exists c a, nth_error (ptrs p1) (length (ptrs p)) = Some (i, a) /\ chandle p1 i = Some c /\ mget n c = Some (Some a) /\ cm p1 = cm p.
Proof.
  intros p p1 i n H L. cbn [wstep cstep] in H. destruct (chandle p i) as [c|] eqn:Ei; [|injection H as <-; cbn in L; lia]. unfold h_get in H. destruct (index c n) as [c1 [a|]] eqn:Ex.
  - injection H as <-. exists c1, a. cbn [with_cont ptrs cm conts]. split; [rewrite nth_error_app2, Nat.sub_diag by lia; reflexivity|]. split; [eapply handle_same; eauto|].
    unfold index in Ex. destruct (mget n c) eqn:Eg; injection Ex as <- Ex; [subst; auto|discriminate].
  - injection H as <-. cbn in L. lia.
Qed.
(** The name of an address. *)
Lemma one_entry : forall own (p : cprog K) i c n j d m a, cinv K own p -> chandle p i = Some c -> mget n c = Some (Some a) -> chandle p j = Some d -> mget m d = Some (Some a) -> j = i /\ m = n.
Proof.
  intros own p i c n j d m a I Hc Hg Hd Hm. assert (In a (addrs c)) as Ha by (apply addrs_in; exists n; apply mget_In; exact Hg). assert (In a (addrs d)) as Hb by (apply addrs_in; exists m; apply mget_In; exact Hm).
  apply chandle_at in Hc, Hd. destruct (c_kept _ _ _ I _ _ Hc) as (S & N & Q). destruct (c_kept _ _ _ I _ _ Hd) as (_ & _ & Q'). assert (j = i) as -> by (specialize (Q a Ha); specialize (Q' a Hb); congruence).
  split; [reflexivity|]. assert (d = c) as -> by congruence. apply mget_In in Hg, Hm. clear - N Hg Hm. induction c as [|[k [b|]] c IH]; [contradiction| |].
  - cbn in N. inversion N as [|? ? Nb N']; subst. destruct Hg as [Hg|Hg], Hm as [Hm|Hm].
    + congruence.
    + injection Hg as -> ->. exfalso. apply Nb. apply addrs_in. eauto.
    + injection Hm as -> ->. exfalso. apply Nb. apply addrs_in. eauto.
    + apply IH; auto.
  - cbn in N. destruct Hg as [Hg|Hg]; [discriminate|]. destruct Hm as [Hm|Hm]; [discriminate|]. apply IH; auto.
Qed.
Lemma put_seen : forall (p p' : cprog K) k o i a, wstep K mktime (WPut k o) p = Some p' -> nth_error (ptrs p) k = Some (i, a) ->
  forall j m, seen p' j m = seen p j m \/ exists d, chandle p j = Some d /\ mget m d = Some (Some a).
Proof.
  intros p p' k o i a H Hk j m. cbn [wstep] in H. rewrite Hk in H. destruct (chandle p i); [|injection H as <-; auto]. destruct (nth_error (objs (cm p)) a) as [x|] eqn:Ea; [|discriminate]. injection H as <-.
  unfold seen. change (chandle (with_mem K p {| objs := update a o (objs (cm p)); ev := Use a :: ev (cm p) |}) j) with (chandle p j). destruct (chandle p j) as [d|] eqn:Ed; [|auto]. destruct (mget m d) as [[b|]|] eqn:Em; auto.
  destruct (Nat.eq_dec a b) as [<-|N]; [right; eauto|left]. cbn [with_mem cm objs]. apply update_other. exact N.
Qed.
Lemma put_done : forall (p p' : cprog K) k o i a c n own, cinv K own p -> wstep K mktime (WPut k o) p = Some p' -> nth_error (ptrs p) k = Some (i, a) -> chandle p i = Some c -> mget n c = Some (Some a) -> seen p' i n = Some o.
Proof.
  intros p p' k o i a c n own I H Hk Hc Hg. cbn [wstep] in H. rewrite Hk, Hc in H. destruct (nth_error (objs (cm p)) a) as [x|] eqn:Ea; [|discriminate]. injection H as <-.
  unfold seen. change (chandle (with_mem K p {| objs := update a o (objs (cm p)); ev := Use a :: ev (cm p) |}) i) with (chandle p i). rewrite Hc, Hg. cbn [with_mem cm objs]. eapply update_same; eauto.
Qed.
End Writes.

Lemma plain_app : forall K (l l' : list (wop K)), plain (l ++ l') <-> plain l /\ plain l'.
Proof. intros K l l'. unfold plain. split; [intro H; split; intros o Ho; apply H, in_or_app; auto|intros [A B] o Ho; apply in_app_or in Ho; destruct Ho; auto]. Qed.
Lemma reached : forall K mktime l (p : cprog K), plain l -> wsteps K mktime l (cstart K) = Some p -> exists own, cinv K own p.
Proof. intros K mktime l p Pl H. destruct (steps_cinv K mktime l [] (cstart K) p Pl (cstart_inv K) H) as (own & I & _). eauto. Qed.
Lemma wsteps_app : forall K mktime l l' (p : cprog K), wsteps K mktime (l ++ l') p = match wsteps K mktime l p with Some q => wsteps K mktime l' q | None => None end.
Proof. intros K mktime l l'. induction l as [|w l IH]; intro p; [reflexivity|]. cbn [app wsteps]. destruct (wstep K mktime w p); auto. Qed.

(** * C145 *)
(** With assignments through pointers anywhere in a program it still touches no
    object that is not there. *)
Theorem C145_safe : forall K mktime l (p : cprog K), plain l -> wsteps K mktime l (cstart K) = Some p -> legal (chistory p).
Proof. intros K mktime l p Pl H. destruct (reached K mktime l p Pl H) as (own & I). apply (c_legal _ _ _ I). Qed.
Print Assumptions C145_safe.
(** An assignment through the pointer got for a name changes nothing under any
    other name, in any container, whatever happened in between. *)
Theorem C145_elsewhere : forall K mktime l (p p1 p2 p3 : cprog K) i n more o j m, plain l -> plain more -> wsteps K mktime l (cstart K) = Some p ->
  wstep K mktime (WDo (CGet i n)) p = Some p1 -> length (ptrs p1) = S (length (ptrs p)) -> wsteps K mktime more p1 = Some p2 ->
  wstep K mktime (WPut (length (ptrs p)) o) p2 = Some p3 -> (j, m) <> (i, n) -> seen p3 j m = seen p2 j m.
Proof.
  intros K mktime l p p1 p2 p3 i n more o j m Pl Pm H G L M W N. destruct (reached K mktime l p Pl H) as (own & I).
  destruct (step_cinv K mktime (WDo (CGet i n)) own p p1 ltac:(intros x [E|[]]; injection E as <-; reflexivity) I G) as (own1 & I1 & _).
  destruct (get_found K mktime p p1 i n G L) as (c & a & Hk & Hc & Hg & _). pose proof (steps_ptr K mktime more p1 p2 _ _ M Hk) as Hk2.
  destruct (put_seen K mktime p2 p3 _ o i a W Hk2 j m) as [E|(d & Hd & Hm)]; [exact E|exfalso].
  assert (a < length (objs (cm p1))) as La by (rewrite <- (c_len _ _ _ I1); apply nth_error_Some; rewrite (c_ptr _ _ _ I1 i a (nth_error_In _ _ Hk)); discriminate).
  destruct (steps_entry K mktime more own1 p1 p2 j d m a Pm I1 M Hd Hm La) as (d1 & Hd1 & Hm1). destruct (one_entry K own1 p1 i c n j d1 m a I1 Hc Hg Hd1 Hm1) as [-> ->]. apply N. reflexivity.
Qed.
Print Assumptions C145_elsewhere.
(** It is seen under the name it was got for, if that was not set, erased, loaded
    or destroyed since ... *)
Theorem C145_reaches : forall K mktime l (p p1 p2 p3 : cprog K) i n more o, plain l -> plain more -> leaves i n more -> wsteps K mktime l (cstart K) = Some p ->
  wstep K mktime (WDo (CGet i n)) p = Some p1 -> length (ptrs p1) = S (length (ptrs p)) -> wsteps K mktime more p1 = Some p2 ->
  wstep K mktime (WPut (length (ptrs p)) o) p2 = Some p3 ->
  seen p3 i n = Some o /\ exists p4, cstep K mktime (CRead (length (ptrs p))) p2 = Some (p4, match seen p2 i n with Some x => AObj x | None => ANone end) /\ seen p2 i n <> None.
Proof.
  intros K mktime l p p1 p2 p3 i n more o Pl Pm Lv H G L M W. destruct (reached K mktime l p Pl H) as (own & I).
  destruct (step_cinv K mktime (WDo (CGet i n)) own p p1 ltac:(intros x [E|[]]; injection E as <-; reflexivity) I G) as (own1 & I1 & _).
  destruct (get_found K mktime p p1 i n G L) as (c & a & Hk & Hc & Hg & _). pose proof (steps_ptr K mktime more p1 p2 _ _ M Hk) as Hk2.
  destruct (steps_cinv K mktime more own1 p1 p2 Pm I1 M) as (own2 & I2 & _). destruct (steps_stay K mktime more p1 p2 i n c a Lv M Hc Hg) as (c2 & Hc2 & Hg2).
  split; [eapply put_done; eauto|]. cbn [wstep] in W. rewrite Hk2, Hc2 in W. cbn [cstep]. rewrite Hk2, Hc2. unfold seen. rewrite Hc2, Hg2. destruct (nth_error (objs (cm p2)) a); [|discriminate].
  eexists. split; [reflexivity|discriminate].
Qed.
Print Assumptions C145_reaches.
(** ... and nowhere, once the name was set again or erased. *)
Theorem C145_replaced : forall K mktime l (p p1 p2 p3 q q' : cprog K) i n more w more' o, plain l -> plain more -> plain more' -> wsteps K mktime l (cstart K) = Some p ->
  wstep K mktime (WDo (CGet i n)) p = Some p1 -> length (ptrs p1) = S (length (ptrs p)) -> wsteps K mktime more p1 = Some q ->
  (exists x, w = CSet i n x) \/ w = CErase i n -> wstep K mktime (WDo w) q = Some q' -> wsteps K mktime more' q' = Some p2 ->
  wstep K mktime (WPut (length (ptrs p)) o) p2 = Some p3 -> forall j m, seen p3 j m = seen p2 j m.
Proof.
  intros K mktime l p p1 p2 p3 q q' i n more w more' o Pl Pm Pm' H G L M Hw Wq M' W j m.
  assert (plain [WDo w]) as Pw by (intros x [E|[]]; injection E as <-; destruct Hw as [(y & ->)| ->]; reflexivity).
  assert (wsteps K mktime (more ++ [WDo w] ++ more') p1 = Some p2) as MM by (rewrite wsteps_app, M; cbn [app wsteps]; rewrite Wq; exact M').
  assert ({(j, m) = (i, n)} + {(j, m) <> (i, n)}) as [E|N] by (destruct (Nat.eq_dec j i) as [->|]; [destruct (str_eqb m n) eqn:E; [apply str_eqb_eq in E; subst; auto|apply str_eqb_neq in E; right; congruence]|right; congruence]).
  2:{ apply (C145_elsewhere K mktime l p p1 p2 p3 i n (more ++ [WDo w] ++ more') o j m); auto. apply plain_app. split; [exact Pm|]. apply plain_app. auto. }
  injection E as -> ->. destruct (reached K mktime l p Pl H) as (own & I).
  destruct (step_cinv K mktime (WDo (CGet i n)) own p p1 ltac:(intros x [E|[]]; injection E as <-; reflexivity) I G) as (own1 & I1 & _).
  destruct (get_found K mktime p p1 i n G L) as (c & a & Hk & Hc & Hg & _). pose proof (steps_ptr K mktime _ p1 p2 _ _ MM Hk) as Hk2.
  destruct (put_seen K mktime p2 p3 _ o i a W Hk2 i n) as [E|(d & Hd & Hm)]; [exact E|exfalso].
  assert (a < length (objs (cm p1))) as La by (rewrite <- (c_len _ _ _ I1); apply nth_error_Some; rewrite (c_ptr _ _ _ I1 i a (nth_error_In _ _ Hk)); discriminate).
  destruct (steps_cinv K mktime more own1 p1 q Pm I1 M) as (ownq & Iq & Lq). destruct (step_cinv K mktime _ ownq q q' Pw Iq Wq) as (own3 & I3 & L3).
  destruct (steps_entry K mktime more' own3 q' p2 i d n a Pm' I3 M' Hd Hm ltac:(lia)) as (d1 & Hd1 & Hm1).
  destruct (step_entry K mktime _ q q' i d1 n a Pw Wq Hd1 Hm1 ltac:(lia)) as (d0 & Hd0 & Hm0).
  destruct Hw as [(x & ->)| ->]; cbn [wstep cstep] in Wq; rewrite Hd0 in Wq.
  - destruct (h_set K d0 n x (cm q)) as [c1 m1] eqn:Es. injection Wq as <-. unfold with_mem, with_cont in Hd1. cbn [fst conts ptrs cm] in Hd1. erewrite handle_same in Hd1 by eauto. injection Hd1 as <-.
    unfold h_set in Es. destruct (clone x); injection Es as <- <-; rewrite mget_mset_same in Hm1; injection Hm1 as Hm1; [lia|discriminate].
  - destruct (h_erase d0 n) as [c1 z] eqn:Es. injection Wq as <-. unfold with_cont in Hd1. cbn [fst conts ptrs cm] in Hd1. erewrite handle_same in Hd1 by eauto. injection Hd1 as <-.
    unfold h_erase in Es. rewrite Hm0 in Es. injection Es as <- <-. rewrite mget_mdel_same in Hm1. discriminate.
Qed.
Print Assumptions C145_replaced.
(** A component of one container set from another, then changed in the first; a
    pointer kept over a replacement. *)
Definition some_wops (K : curve) : list (wop K) :=
  [WDo CNew; WDo (CSet 0 (L "k") (OBytes (L "one"))); WDo CNew; WDo (CSet 1 (L "k") (OBytes (L "one"))); WDo (CSet 1 (L "m") (OBytes (L "one")))].
Example C145_nonvacuous : forall K, plain (some_wops K) /\ leaves 1 (L "k") [@WDo K (CSet 1 (L "m") (OBytes (L "two"))); WDo (CErase 0 (L "k"))] /\
  exists p p1 p2 p3 p4 p5, wsteps K a_day (some_wops K) (cstart K) = Some p /\ wstep K a_day (WDo (CGet 1 (L "k"))) p = Some p1 /\ length (ptrs p1) = S (length (ptrs p)) /\
    wsteps K a_day [WDo (CSet 1 (L "m") (OBytes (L "two"))); WDo (CErase 0 (L "k"))] p1 = Some p2 /\ wstep K a_day (WPut (length (ptrs p)) (OBytes (L "new"))) p2 = Some p3 /\
    seen p3 1 (L "k") = Some (OBytes (L "new")) /\ seen p3 1 (L "m") = Some (OBytes (L "two")) /\ seen p3 0 (L "k") = None /\
    wstep K a_day (WDo (CSet 1 (L "k") (OBytes (L "three")))) p3 = Some p4 /\ wstep K a_day (WPut (length (ptrs p)) (OBytes (L "late"))) p4 = Some p5 /\
    seen p5 1 (L "k") = Some (OBytes (L "three")).
Proof.
  intro K. split; [intros o H; cbn in H; repeat (destruct H as [H|H]; [try discriminate H; injection H as <-; reflexivity|]); contradiction|]. split.
  - intros o H. cbn in H. destruct H as [H|[H|[]]]; injection H as <-; discriminate.
  - eexists _, _, _, _, _, _. repeat (split; [vm_compute; reflexivity|]). vm_compute. reflexivity.
Qed.
