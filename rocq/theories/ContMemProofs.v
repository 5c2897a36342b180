(** Proofs about ContMem.v. *)
From Verif Require Import Base StrMap ByteString UInteger Field Policy Driver Parser AttrList Utils Container Memory MemorySpec MemoryInv ContMem ContMemSpec.
From Coq Require Import ZArith List Ascii Bool Lia Permutation.
Import ListNotations.
Open Scope Z_scope.

(** ** Maps *)
Definition mmap {A B} (f : A -> B) (c : smap A) : smap B := map (fun e => (fst e, f (snd e))) c.
Lemma mget_mmap : forall {A B} (f : A -> B) k c, mget k (mmap f c) = option_map f (mget k c).
Proof. intros A B f k c. induction c as [|[k' v] c IH]; cbn; auto. destruct (str_eqb k k'); auto. Qed.
Lemma mset_mmap : forall {A B} (f : A -> B) k v c, mset k (f v) (mmap f c) = mmap f (mset k v c).
Proof.
  intros A B f k v c. induction c as [|[k' v'] c IH]; cbn; auto. destruct (str_eqb k k'); cbn; auto. destruct (str_ltb k k'); cbn; auto. unfold mmap in *. rewrite IH. reflexivity.
Qed.
Lemma mdel_mmap : forall {A B} (f : A -> B) k c, mdel k (mmap f c) = mmap f (mdel k c).
Proof. intros A B f k c. induction c as [|[k' v] c IH]; cbn; auto. destruct (str_eqb k k'); cbn; auto. unfold mmap, mdel in *. rewrite IH. reflexivity. Qed.
Lemma mset_split : forall {A} k (v : A) c, exists pre post, mset k v c = pre ++ (k, v) :: post /\ (c = pre ++ post \/ exists old, c = pre ++ (k, old) :: post).
Proof.
  intros A k v c. induction c as [|[k' v'] c IH]; cbn [mset]; [exists [], []; auto|]. destruct (str_eqb k k') eqn:E.
  - apply str_eqb_eq in E. subst k'. exists [], c. split; auto. right. exists v'. reflexivity.
  - destruct (str_ltb k k'); [exists [], ((k', v') :: c); auto|]. destruct IH as (pre & post & -> & H). exists ((k', v') :: pre), post. split; auto.
    destruct H as [->|(old & ->)]; [left; reflexivity|right; exists old; reflexivity].
Qed.
Lemma update_length : forall {A} i (x : A) l, length (update i x l) = length l.
Proof. intros A i x l. revert i. induction l as [|y l IH]; intros [|i]; cbn; auto. Qed.
Lemma update_same : forall {A} i (x : A) l y, nth_error l i = Some y -> nth_error (update i x l) i = Some x.
Proof. intros A i x l. revert i. induction l as [|z l IH]; intros [|i] y H; try discriminate; auto. cbn in *. eauto. Qed.
Lemma update_other : forall {A} i j (x : A) l, i <> j -> nth_error (update i x l) j = nth_error l j.
Proof. intros A i j x l. revert i j. induction l as [|z l IH]; intros [|i] [|j] H; auto; try congruence. cbn. apply IH. congruence. Qed.
Lemma update_id : forall {A} i (x : A) l, nth_error l i = Some x -> update i x l = l.
Proof. intros A i x l. revert i. induction l as [|z l IH]; intros [|i] H; try discriminate; cbn in *; [congruence|]. rewrite IH; auto. Qed.
Lemma map_update : forall {A B} (f : A -> B) i x l, map f (update i x l) = update i (f x) (map f l).
Proof. intros A B f i x l. revert i. induction l as [|z l IH]; intros [|i]; cbn; auto. rewrite IH. reflexivity. Qed.

Lemma same_length : forall {A B} {R : A -> B -> Prop} {l l'}, Forall2 R l l' -> length l = length l'.
Proof. intros A B R l l' F. induction F; cbn; auto. Qed.

Section Proofs.
Context (K : curve) (mktime : tm -> Z * tm).
Notation cmem := (cmem K).
Notation cprog := (cprog K).

Definition addr (e : str * option nat) : list nat := match snd e with Some a => [a] | None => [] end.
Definition addrs (c : handle) : list nat := flat_map addr c.
Lemma addrs_app : forall a b, addrs (a ++ b) = addrs a ++ addrs b.
Proof. intros. apply flat_map_app. Qed.
Lemma addrs_in : forall c a, In a (addrs c) <-> exists k, In (k, Some a) c.
Proof.
  intros c a. unfold addrs. rewrite in_flat_map. split.
  - intros ([k [b|]] & H & Hb); [|contradiction]. destruct Hb as [<-|[]]. exists k. exact H.
  - intros (k & H). exists (k, Some a). split; auto. left. reflexivity.
Qed.
Lemma addrs_mset : forall k v c, exists rest, Permutation (addrs (mset k v c)) (match v with Some a => [a] | None => [] end ++ rest) /\
  incl rest (addrs c) /\ (NoDup (addrs c) -> NoDup rest).
Proof.
  intros k v c. destruct (mset_split k v c) as (pre & post & -> & H). exists (addrs pre ++ addrs post). split; [|split].
  - rewrite addrs_app. change (addrs ((k, v) :: post)) with (match v with Some a => [a] | None => [] end ++ addrs post). apply Permutation_app_swap_app.
  - destruct H as [->|(old & ->)]; rewrite addrs_app; [apply incl_refl|]. change (addrs ((k, old) :: post)) with (addr (k, old) ++ addrs post). intros x Hx.
    apply in_app_or in Hx as [Hx|Hx]; apply in_or_app; auto. right. apply in_or_app. auto.
  - destruct H as [->|(old & ->)]; rewrite addrs_app; auto. change (addrs ((k, old) :: post)) with (addr (k, old) ++ addrs post). intro N.
    eapply Permutation_NoDup in N; [|apply Permutation_app_swap_app]. clear -N. induction (addr (k, old)) as [|x r IH]; auto. cbn in N. apply NoDup_cons_iff in N as [_ N]. auto.
Qed.
Lemma addrs_mdel : forall k c, incl (addrs (mdel k c)) (addrs c) /\ (NoDup (addrs c) -> NoDup (addrs (mdel k c))).
Proof.
  intros k c. assert (incl (addrs (mdel k c)) (addrs c)) as I.
  { intros a H. apply addrs_in in H as (k' & H). apply filter_In in H as [H _]. apply addrs_in. eauto. }
  split; auto. clear I. induction c as [|e c IH]; auto. cbn [mdel filter]. intro N. change (addrs (e :: c)) with (addr e ++ addrs c) in N.
  assert (NoDup (addrs c)) as N1 by (clear -N; induction (addr e) as [|x r IH]; auto; cbn in N; apply NoDup_cons_iff in N as [_ N]; auto).
  destruct (negb (str_eqb k (fst e))); [|exact (IH N1)]. change (NoDup (addr e ++ addrs (mdel k c))). unfold addr in *. destruct (snd e) as [a|]; [|exact (IH N1)].
  cbn in *. apply NoDup_cons_iff in N as [N _]. constructor; [|exact (IH N1)]. intro H. apply N. apply addrs_in in H as (k' & H). apply filter_In in H as [H _]. apply addrs_in. eauto.
Qed.

(** [own]: the container that made the object. *)
Definition kept (own : list nat) (i : nat) (c : handle) : Prop :=
  msorted c /\ NoDup (addrs c) /\ forall a, In a (addrs c) -> nth_error own a = Some i.
Record cinv (own : list nat) (p : cprog) : Prop := {
  c_legal : legal (chistory p);
  c_len : length own = length (objs (cm p));
  c_new : forall a, In (New a) (ev (cm p)) <-> (a < length (objs (cm p)))%nat;
  c_kept : forall i c, nth_error (conts p) i = Some (Some c) -> kept own i c;
  c_del : forall a, In (Del a) (ev (cm p)) -> exists i, nth_error own a = Some i /\ nth_error (conts p) i = Some None;
  c_ptr : forall i a, In (i, a) (ptrs p) -> nth_error own a = Some i }.

Lemma chandle_at : forall (p : cprog) i c, chandle p i = Some c <-> nth_error (conts p) i = Some (Some c).
Proof. intros p i c. unfold chandle. destruct (nth_error (conts p) i) as [[x|]|]; split; congruence. Qed.
Lemma kept_grows : forall own x i c, kept own i c -> kept (own ++ x) i c.
Proof.
  intros own x i c (S & N & H). split; auto. split; auto. intros a Ha. specialize (H a Ha). rewrite nth_error_app1; auto. apply nth_error_Some. congruence.
Qed.
Lemma nth_app : forall {A} (l x : list A) a y, nth_error l a = Some y -> nth_error (l ++ x) a = Some y.
Proof. intros A l x a y H. rewrite nth_error_app1; auto. apply nth_error_Some. congruence. Qed.

(** Replacing one container's map by another that is kept, in a memory that has
    grown by [n] objects of that container. *)
Lemma held_live : forall own p i c a, cinv own p -> chandle p i = Some c -> In a (addrs c) -> In (New a) (ev (cm p)) /\ ~ In (Del a) (ev (cm p)).
Proof.
  intros own p i c a I H Ha. apply chandle_at in H. destruct (c_kept _ _ I _ _ H) as (_ & _ & Q). specialize (Q a Ha). split.
  - apply (c_new _ _ I). rewrite <- (c_len _ _ I). apply nth_error_Some. congruence.
  - intro D. destruct (c_del _ _ I a D) as (j & Q2 & E). congruence.
Qed.

Lemma set_cinv : forall own p i c c', cinv own p -> chandle p i = Some c -> msorted c' -> incl (addrs c') (addrs c) -> NoDup (addrs c') -> cinv own (with_cont K p i c').
Proof.
  intros own p i c c' I H So Inc N. pose proof I as [L Ln Nw Kp D P]. apply chandle_at in H. split; auto; cbn [with_cont conts ptrs cm].
  - intros j d Hj. destruct (Nat.eq_dec i j) as [->|Ne].
    + rewrite (update_same j _ _ _ H) in Hj. injection Hj as <-. destruct (Kp _ _ H) as (_ & _ & Q). split; auto.
    + rewrite update_other in Hj by auto. auto.
  - intros a Ha. destruct (D a Ha) as (j & Q & E). exists j. split; auto. destruct (Nat.eq_dec i j) as [->|Ne]; [congruence|]. rewrite update_other; auto.
Qed.

Definition made (i : nat) (o : zobj K) (p : cprog) : cprog :=
  with_mem K p {| objs := objs (cm p) ++ [o]; ev := New (length (objs (cm p))) :: ev (cm p) |}.
Lemma made_cinv : forall own p i o, cinv own p -> cinv (own ++ [i]) (made i o p).
Proof.
  intros own p i o I. pose proof I as [L Ln Nw Kp D P]. split; cbn [made with_mem conts ptrs cm objs ev].
  - change (legal (chistory p ++ [New (length (objs (cm p)))])). apply legal_snoc; auto. unfold chistory. rewrite <- in_rev, Nw. lia.
  - rewrite !app_length, Ln. reflexivity.
  - intro a. rewrite app_length. cbn [In length]. rewrite Nw. split; [intros [E|E]; [injection E as ->; lia|lia]|]. intro E. destruct (Nat.eq_dec a (length (objs (cm p)))) as [->|]; auto. right. lia.
  - intros j c Hc. apply kept_grows. auto.
  - intros a [E|Ha]; [discriminate|]. destruct (D a Ha) as (j & Q & E). exists j. split; [apply nth_app; exact Q|exact E].
  - intros j a Ha. apply nth_app. auto.
Qed.
Lemma made_handle : forall p i j o, chandle (made i o p) j = chandle p j.
Proof. reflexivity. Qed.

(** The objects keep their values. *)
Definition ext (p p' : cprog) : Prop := exists more, objs (cm p') = objs (cm p) ++ more.
Definition val (m : cmem) (v : option nat) : option (zobj K) := match v with Some a => nth_error (objs m) a | None => None end.
Definition view (m : cmem) (c : handle) : container K := mmap (val m) c.
Lemma view_ext : forall own i c m m', kept own i c -> length own = length (objs m) -> (exists more, objs m' = objs m ++ more) -> view m' c = view m c.
Proof.
  intros own i c m m' (_ & _ & Q) Ln (more & E). unfold view, mmap. apply map_ext_in. intros [k [a|]] He; cbn; auto. rewrite E. rewrite nth_error_app1; auto.
  rewrite <- Ln. apply nth_error_Some. rewrite Q; [discriminate|]. apply addrs_in. eauto.
Qed.

(** setComponent. *)
Lemma h_set_step : forall own p i c name o, cinv own p -> chandle p i = Some c ->
  let '(c', m) := h_set K c name o (cm p) in
  exists more, cinv (own ++ more) (with_mem K (with_cont K p i c') m) /\ view m c' = set_component (view (cm p) c) name o /\
  (exists os, objs m = objs (cm p) ++ os) /\ (forall a, In (Del a) (ev m) <-> In (Del a) (ev (cm p))) /\ (forall a, In a (addrs c') -> In a (addrs c) \/ (length (objs (cm p)) <= a)%nat).
Proof.
  intros own p i c name o I H. pose proof H as Hh. apply chandle_at in Hh. destruct (c_kept _ _ I _ _ Hh) as (So & N & Q). unfold h_set, set_component.
  destruct (clone o) as [o'|] eqn:Ec.
  - exists [i]. set (a := length (objs (cm p))) in *. pose proof (made_cinv own p i o' I) as I1.
    destruct (addrs_mset name (Some a) c) as (rest & Pm & Inc & Nd). cbn [app] in Pm.
    assert (~ In a rest) as Na. { intro X. specialize (Q a (Inc a X)). assert (a < length own)%nat by (apply nth_error_Some; congruence). rewrite (c_len _ _ I) in *. subst a. lia. }
    split; [|split; [|split; [|split]]].
    + split; cbn [with_mem with_cont conts ptrs cm]; try apply I1.
      * intros j d Hj. destruct (Nat.eq_dec i j) as [->|Ne]; [|rewrite update_other in Hj by auto; exact (c_kept _ _ I1 j d Hj)].
        rewrite (update_same j _ _ _ Hh) in Hj. injection Hj as <-. split; [apply msorted_mset; exact So|]. split; [eapply Permutation_NoDup; [symmetry; exact Pm|constructor; auto]|].
        intros x Hx. apply (Permutation_in _ Pm) in Hx. destruct Hx as [<-|Hx]; [|apply nth_app; auto]. rewrite nth_error_app2 by (rewrite (c_len _ _ I); subst a; lia). subst a. rewrite (c_len _ _ I), Nat.sub_diag. reflexivity.
      * intros x Hx. destruct (c_del _ _ I1 x Hx) as (j & Q1 & E). exists j. split; auto. destruct (Nat.eq_dec i j) as [->|Ne]; [cbn [made with_mem conts] in E; congruence|]. rewrite update_other; auto.
    + set (m := {| objs := objs (cm p) ++ [o']; ev := New a :: ev (cm p) |}).
      assert (view m c = view (cm p) c) as <- by (eapply view_ext; [split; [exact So|split; [exact N|exact Q]]|exact (c_len _ _ I)|exists [o']; reflexivity]).
      unfold view. rewrite <- (mset_mmap (val m)). f_equal. cbn. subst a. rewrite nth_error_app2, Nat.sub_diag by lia. reflexivity.
    + exists [o']. reflexivity.
    + intro x. cbn. split; [intros [E|E]; [discriminate|exact E]|auto].
    + intros x Hx. apply (Permutation_in _ Pm) in Hx. destruct Hx as [<-|Hx]; [right; lia|left; auto].
  - exists []. rewrite app_nil_r. destruct (addrs_mset name None c) as (rest & Pm & Inc & Nd). cbn [app] in Pm.
    split; [|split; [|split; [|split]]].
    + pose proof (set_cinv own p i c (mset name None c) I H) as W.
      assert (with_mem K (with_cont K p i (mset name None c)) (cm p) = with_cont K p i (mset name None c)) as -> by reflexivity.
      apply W; [apply msorted_mset; exact So|intros x Hx; apply Inc; exact (Permutation_in _ Pm Hx)|eapply Permutation_NoDup; [symmetry; exact Pm|auto]].
    + unfold view. rewrite <- (mset_mmap (val (cm p))). reflexivity.
    + exists []. rewrite app_nil_r. reflexivity.
    + tauto.
    + intros x Hx. left. apply Inc. exact (Permutation_in _ Pm Hx).
Qed.
Lemma chandle_with : forall (p : cprog) i c c' m, chandle p i = Some c -> chandle (with_mem K (with_cont K p i c') m) i = Some c'.
Proof. intros p i c c' m H. apply chandle_at in H. apply chandle_at. cbn [with_mem with_cont conts]. eapply update_same; eauto. Qed.
Lemma with_twice : forall (p : cprog) i c c' m, with_mem K (with_cont K (with_mem K (with_cont K p i c) m) i c') m = with_mem K (with_cont K p i c') m.
Proof.
  intros p i c c' m. unfold with_mem, with_cont. cbn. f_equal. generalize (conts p) as l. intro l. revert i. induction l as [|x l IH]; intros [|i]; cbn; auto. rewrite IH. reflexivity.
Qed.

(** deserialize. *)
Lemma h_load_step : forall f blob k own p i c, cinv own p -> chandle p i = Some c ->
  let '(c', r, m) := h_load K mktime f blob k c (cm p) in
  (view m c', r) = deserialize_loop K mktime f blob k (view (cm p) c) /\
  exists more, cinv (own ++ more) (with_mem K (with_cont K p i c') m) /\
  (exists os, objs m = objs (cm p) ++ os) /\ (forall a, In (Del a) (ev m) <-> In (Del a) (ev (cm p))) /\ (forall a, In a (addrs c') -> In a (addrs c) \/ (length (objs (cm p)) <= a)%nat).
Proof.
  induction f as [|f IH]; intros blob k own p i c I H.
  - cbn. split; auto. exists []. rewrite app_nil_r. split; [|split; [exists []; rewrite app_nil_r; reflexivity|split; [tauto|auto]]].
    assert (with_mem K (with_cont K p i c) (cm p) = p) as ->; [|exact I]. destruct p as [cs ps m]. unfold with_mem, with_cont. cbn. f_equal. apply update_id. apply chandle_at in H. exact H.
  - cbn [h_load deserialize_loop].
    assert (exists more : list nat, cinv (own ++ more) (with_mem K (with_cont K p i c) (cm p)) /\
      (exists os, objs (cm p) = objs (cm p) ++ os) /\ (forall a, In (Del a) (ev (cm p)) <-> In (Del a) (ev (cm p))) /\ (forall a, In a (addrs c) -> In a (addrs c) \/ (length (objs (cm p)) <= a)%nat)) as Stay.
    { exists []. rewrite app_nil_r. split; [|split; [exists []; rewrite app_nil_r; reflexivity|split; [tauto|auto]]].
      assert (with_mem K (with_cont K p i c) (cm p) = p) as ->; [|exact I]. destruct p as [cs ps m]. unfold with_mem, with_cont. cbn. f_equal. apply update_id. apply chandle_at in H. exact H. }
    destruct (smart_unpack blob k) as [i1 [key|e| | |]]; [|split; [reflexivity|exact Stay]..].
    destruct (smart_unpack blob i1) as [i2 [value|e| | |]]; [|split; [reflexivity|exact Stay]..].
    unfold h_element, deserialize_element. destruct (element_of K mktime value) as [[o|]|e| | |]; [| |split; [reflexivity|exact Stay]..].
    + pose proof (h_set_step own p i c key o I H) as S. destruct (h_set K c key o (cm p)) as [c1 m1]. destruct S as (more & I1 & V1 & (os & O1) & D1 & A1).
      rewrite <- V1. destruct (i2 <? length blob)%nat; [|split; [reflexivity|exists more; split; [exact I1|split; [exists os; exact O1|split; auto]]]].
      pose proof (IH blob i2 (own ++ more) _ i c1 I1 (chandle_with p i c c1 m1 H)) as R. cbn [with_mem with_cont cm] in R.
      destruct (h_load K mktime f blob i2 c1 m1) as [[c2 r] m2]. destruct R as (V2 & more2 & I2 & (os2 & O2) & D2 & A2). split; [exact V2|].
      exists (more ++ more2). rewrite app_assoc. split; [|split; [exists (os ++ os2); rewrite O2, O1, app_assoc; reflexivity|split; [intro a; rewrite D2; apply D1|]]].
      * cbn [with_mem with_cont conts ptrs cm] in I2. eapply eq_ind; [exact I2|]. unfold with_mem, with_cont. cbn. f_equal.
        generalize (conts p) as l. intro l. clear. revert i. induction l as [|x l IH]; intros [|i]; cbn; auto. rewrite IH. reflexivity.
      * intros a Ha. destruct (A2 a Ha) as [X|X]; [auto|]. right. rewrite O1, app_length in X. lia.
    + destruct (i2 <? length blob)%nat; [|split; [reflexivity|exact Stay]]. apply IH; auto.
Qed.

(** serialize. *)
Lemma h_pack_step : forall c own p bytes result, cinv own p -> (forall a, In a (addrs c) -> In (New a) (ev (cm p)) /\ ~ In (Del a) (ev (cm p))) ->
  match h_pack K c bytes result (cm p) with
  | (Ok s, m) => serialize_loop (view (cm p) c) bytes result = Ok s /\ cinv own (with_mem K p m) /\ objs m = objs (cm p) /\ (forall a, In (Del a) (ev m) <-> In (Del a) (ev (cm p)))
  | (r, _) => serialize_loop (view (cm p) c) bytes result = r
  end.
Proof.
  induction c as [|[k [a|]] c IH]; intros own p bytes result I H.
  - cbn. split; auto. split; [destruct p; exact I|]. split; [auto|tauto].
  - cbn [h_pack view mmap map serialize_loop fst snd val]. destruct (nth_error (objs (cm p)) a) as [o|] eqn:E.
    + pose proof (H a (or_introl eq_refl)) as Ha.
      assert (cinv own (with_mem K p (note K (Use a) (cm p)))) as I1.
      { pose proof I as [L Ln Nw Kp D P]. split; cbn [with_mem conts ptrs cm note objs ev]; auto.
        - change (legal (chistory p ++ [Use a])). apply legal_snoc; auto. unfold chistory. rewrite <- !in_rev. exact Ha.
        - intro x. rewrite <- Nw. cbn. split; [intros [Z|Z]; [discriminate|exact Z]|auto].
        - intros x [Z|Z]; [discriminate|auto]. }
      specialize (IH own _ (obj_serialize bytes o) (smart_pack (smart_pack result k) (obj_serialize bytes o)) I1).
      cbn [with_mem cm note objs ev] in IH. change (view (note K (Use a) (cm p)) c) with (view (cm p) c) in IH.
      assert (forall x, In x (addrs c) -> In (New x) (Use a :: ev (cm p)) /\ ~ In (Del x) (Use a :: ev (cm p))) as H1.
      { intros x Hx. destruct (H x (or_intror Hx)) as [X Y]. split; [right; exact X|]. intros [Z|Z]; [discriminate|auto]. }
      specialize (IH H1). destruct (h_pack K c _ _ _) as [[s| | | |] m]; auto. destruct IH as (A & B & C & D). split; [exact A|]. split; [exact B|]. split; [exact C|].
      intro x. rewrite D. cbn. split; [intros [Z|Z]; [discriminate|exact Z]|auto].
    + reflexivity.
  - reflexivity.
Qed.

(** The destructor. *)
Lemma h_free_step : forall c (m : cmem), legal (rev (ev m)) -> NoDup (addrs c) -> (forall a, In a (addrs c) -> In (New a) (ev m) /\ ~ In (Del a) (ev m)) ->
  legal (rev (ev (h_free K c m))) /\ objs (h_free K c m) = objs m /\ (forall a, In (New a) (ev (h_free K c m)) <-> In (New a) (ev m)) /\
  (forall a, In (Del a) (ev (h_free K c m)) <-> In a (addrs c) \/ In (Del a) (ev m)).
Proof.
  induction c as [|[k [a|]] c IH]; intros m L N H; unfold h_free; cbn [fold_left snd].
  - split; auto. split; auto. split; [tauto|]. intro a. cbn. tauto.
  - fold (h_free K c (note K (Del a) m)). change (addrs ((k, Some a) :: c)) with (a :: addrs c) in *. apply NoDup_cons_iff in N as [N1 N2].
    destruct (IH (note K (Del a) m)) as (A & B & C & D).
    + change (legal (rev (ev m) ++ [Del a])). apply legal_snoc; auto. rewrite <- !in_rev. apply H. left. reflexivity.
    + exact N2.
    + intros x Hx. destruct (H x (or_intror Hx)) as [X Y]. split; [right; exact X|]. intros [Z|Z]; [injection Z as ->; auto|auto].
    + split; auto. split; auto. split.
      * intro x. rewrite C. cbn. split; [intros [Z|Z]; [discriminate|exact Z]|auto].
      * intro x. rewrite D. cbn. split; [intros [Z|[Z|Z]]; [auto|injection Z as ->; auto|auto]|intros [[->|Z]|Z]; auto].
  - exact (IH m L N H).
Qed.

(** ** One step *)
Definition rel (p : cprog) (v : vprog K) : Prop :=
  vconts v = map (option_map (view (cm p))) (conts p) /\ Forall2 (fun x y => fst x = fst y /\ nth_error (objs (cm p)) (snd x) = Some (snd y)) (ptrs p) (vptrs v).
Lemma rel_cont : forall p v i, rel p v -> vcont K v i = option_map (view (cm p)) (chandle p i).
Proof. intros p v i [E _]. unfold vcont, chandle. rewrite E, nth_error_map. destruct (nth_error (conts p) i) as [[c|]|]; reflexivity. Qed.
Lemma views_ext : forall own p m, cinv own p -> (exists os, objs m = objs (cm p) ++ os) -> map (option_map (view m)) (conts p) = map (option_map (view (cm p))) (conts p).
Proof.
  intros own p m I E. apply map_ext_in. intros [c|] Hc; [|reflexivity]. apply In_nth_error in Hc as (j & Hj). cbn. f_equal. eapply view_ext; [exact (c_kept _ _ I _ _ Hj)|exact (c_len _ _ I)|exact E].
Qed.
Lemma ptrs_ext : forall (p : cprog) v m, (exists os, objs m = objs (cm p) ++ os) -> Forall2 (fun x y => fst x = fst y /\ nth_error (objs (cm p)) (snd x) = Some (snd y)) (ptrs p) v ->
  Forall2 (fun x y => fst x = fst y /\ nth_error (objs m) (snd x) = Some (snd y)) (ptrs p) v.
Proof. intros p v m (os & E) F. induction F as [|x y l l' [A B] F IH]; constructor; auto. split; auto. rewrite E. apply nth_app. exact B. Qed.
Lemma rel_set : forall own p v i c c' m, cinv own p -> rel p v -> chandle p i = Some c -> (exists os, objs m = objs (cm p) ++ os) ->
  rel (with_mem K (with_cont K p i c') m) (put_cont K v i (Some (view m c'))).
Proof.
  intros own p v i c c' m I [E F] H X. split; cbn [with_mem with_cont conts ptrs cm put_cont vconts vptrs].
  - rewrite map_update, E, (views_ext own p m I X). reflexivity.
  - apply ptrs_ext; auto.
Qed.

(** What a step does to objects nobody holds. *)
Definition loose (p : cprog) (a : nat) : Prop := forall i c, chandle p i = Some c -> ~ In a (addrs c).
Definition keeps_loose (p p' : cprog) : Prop :=
  forall a, (a < length (objs (cm p)))%nat -> loose p a -> loose p' a /\ (In (Del a) (ev (cm p')) -> In (Del a) (ev (cm p))).

Lemma loose_set : forall (p : cprog) i c c' m, chandle p i = Some c -> (forall a, In (Del a) (ev m) <-> In (Del a) (ev (cm p))) ->
  (forall a, In a (addrs c') -> In a (addrs c) \/ (length (objs (cm p)) <= a)%nat) -> keeps_loose p (with_mem K (with_cont K p i c') m).
Proof.
  intros p i c c' m H D A a La Lo. split; [|cbn; apply D]. intros j d Hd Ha. apply chandle_at in Hd. cbn [with_mem with_cont conts] in Hd. pose proof H as Hh. apply chandle_at in Hh.
  destruct (Nat.eq_dec i j) as [->|Ne].
  - rewrite (update_same j _ _ _ Hh) in Hd. injection Hd as <-. destruct (A a Ha) as [X|X]; [exact (Lo j c H X)|lia].
  - rewrite update_other in Hd by auto. apply chandle_at in Hd. exact (Lo j d Hd Ha).
Qed.
Lemma loose_refl : forall p, keeps_loose p p.
Proof. intros p a _ L. auto. Qed.

Theorem cstep_ok : forall o own p v, copies o = false -> cinv own p -> rel p v ->
  match cstep K mktime o p with
  | Some (p', a) => exists v' more, vstep K mktime o v = Some (v', a) /\ rel p' v' /\ cinv (own ++ more) p' /\ keeps_loose p p' /\ (exists os, objs (cm p') = objs (cm p) ++ os)
  | None => vstep K mktime o v = None
  end.
Proof.
  intros o own p v Hc I R.
  assert (exists v' more, Some (v, @ANone K) = Some (v', ANone) /\ rel p v' /\ cinv (own ++ more) p /\ keeps_loose p p /\ (exists os, objs (cm p) = objs (cm p) ++ os)) as Skip.
  { exists v, []. rewrite app_nil_r. split; auto. split; auto. split; auto. split; [apply loose_refl|exists []; rewrite app_nil_r; reflexivity]. }
  destruct o as [|i name o|i name|k|i name|i|i blob|i|i|i j]; cbn [cstep vstep] in *; try discriminate.
  - (* new *)
    eexists _, []. split; [reflexivity|]. rewrite app_nil_r. pose proof I as [L Ln Nw Kp D P]. destruct R as [E F]. split; [|split; [|split]].
    + split; cbn [vconts vptrs conts ptrs cm]; auto. rewrite map_app, E. reflexivity.
    + split; cbn [conts ptrs cm]; auto.
      * intros i c H. destruct (Nat.lt_ge_cases i (length (conts p))) as [Lt|Ge]; [rewrite nth_error_app1 in H by auto; auto|]. rewrite nth_error_app2 in H by auto.
        destruct (i - length (conts p))%nat as [|n]; [injection H as <-|destruct n; discriminate]. split; [apply msorted_nil|]. split; [constructor|intros a []].
      * intros a Ha. destruct (D a Ha) as (i & Q & Z). exists i. split; auto. apply nth_app. exact Z.
    + intros a La Lo. split; [|auto]. intros i c H. apply chandle_at in H. cbn [conts] in H. destruct (Nat.lt_ge_cases i (length (conts p))) as [Lt|Ge].
      * rewrite nth_error_app1 in H by auto. apply chandle_at in H. eauto.
      * rewrite nth_error_app2 in H by auto. destruct (i - length (conts p))%nat as [|n]; [injection H as <-; intros []|destruct n; discriminate].
    + exists []. rewrite app_nil_r. reflexivity.
  - (* set *)
    rewrite (rel_cont p v i R). destruct (chandle p i) as [c|] eqn:Eh; cbn [option_map]; [|exact Skip].
    pose proof (h_set_step own p i c name o I Eh) as S. destruct (h_set K c name o (cm p)) as [c' m]. destruct S as (more & I1 & V & X & D & A).
    rewrite <- V. eexists _, more. split; [reflexivity|]. split; [eapply rel_set; eauto|]. split; [exact I1|]. split; [eapply loose_set; eauto|exact X].
  - (* get *)
    rewrite (rel_cont p v i R). destruct (chandle p i) as [c|] eqn:Eh; cbn [option_map]; [|exact Skip].
    pose proof Eh as Hh. apply chandle_at in Hh. destruct (c_kept _ _ I _ _ Hh) as (So & N & Q).
    unfold h_get, get_component, index. unfold view at 1 2. rewrite mget_mmap. destruct (mget name c) as [[a|]|] eqn:Eg; cbn [option_map val].
    + apply mget_In in Eg. assert (In a (addrs c)) as Ha by (apply addrs_in; eauto). pose proof (Q a Ha) as Qa.
      assert (a < length (objs (cm p)))%nat as La by (rewrite <- (c_len _ _ I); apply nth_error_Some; congruence).
      destruct (nth_error (objs (cm p)) a) as [x|] eqn:Ex; [|apply nth_error_None in Ex; lia].
      assert (update i (Some c) (conts p) = conts p) as Eu by (apply update_id; exact Hh).
      assert (put_cont K v i (Some (view (cm p) c)) = v) as Ev.
      { destruct v as [vc vp]. unfold put_cont. cbn. f_equal. destruct R as [E _]. cbn in E. rewrite E, <- (map_update (option_map (view (cm p))) i (Some c)), Eu. reflexivity. }
      fold (view (cm p) c). rewrite Ev. eexists _, []. split; [reflexivity|]. rewrite app_nil_r. destruct R as [E F]. cbn [with_cont conts ptrs cm]. rewrite Eu. split; [|split; [|split]].
      * split; cbn [vconts vptrs conts ptrs cm]; auto. apply Forall2_app; auto.
      * destruct I as [L Ln Nw Kp D P]. split; auto. cbn [ptrs]. intros j b Hb. apply in_app_or in Hb as [Hb|[Hb|[]]]; [auto|]. injection Hb as <- <-. exact Qa.
      * intros b Lb Lo. split; auto.
      * exists []. rewrite app_nil_r. reflexivity.
    + assert (update i (Some c) (conts p) = conts p) as Eu by (apply update_id; exact Hh).
      assert (put_cont K v i (Some (view (cm p) c)) = v) as Ev.
      { destruct v as [vc vp]. unfold put_cont. cbn. f_equal. destruct R as [E _]. cbn in E. rewrite E, <- (map_update (option_map (view (cm p))) i (Some c)), Eu. reflexivity. }
      fold (view (cm p) c). rewrite Ev. assert (with_cont K p i c = p) as -> by (destruct p; unfold with_cont; cbn in *; rewrite Eu; reflexivity).
      eexists _, []. split; [reflexivity|]. rewrite app_nil_r. split; [exact R|]. split; [exact I|]. split; [apply loose_refl|exists []; rewrite app_nil_r; reflexivity].
    + destruct (addrs_mset name None c) as (rest & Pm & Inc & Nd). cbn [app] in Pm.
      assert (incl (addrs (mset name None c)) (addrs c)) as Inc2 by (intros x Hx; apply Inc; exact (Permutation_in _ Pm Hx)).
      fold (view (cm p) c). assert (mset name None (view (cm p) c) = view (cm p) (mset name None c)) as Ev by exact (mset_mmap (val (cm p)) name None c). rewrite Ev.
      eexists _, []. split; [reflexivity|]. rewrite app_nil_r. change (with_cont K p i (mset name None c)) with (with_mem K (with_cont K p i (mset name None c)) (cm p)).
      split; [eapply rel_set; eauto; exists []; rewrite app_nil_r; reflexivity|]. split; [|split].
      * change (with_mem K (with_cont K p i (mset name None c)) (cm p)) with (with_cont K p i (mset name None c)). eapply set_cinv; eauto; [apply msorted_mset; exact So|eapply Permutation_NoDup; [symmetry; exact Pm|auto]].
      * eapply loose_set; eauto; tauto.
      * exists []. rewrite app_nil_r. reflexivity.
  - (* read *)
    destruct R as [E F]. destruct (nth_error (ptrs p) k) as [[i a]|] eqn:Ep.
    + assert (exists x, nth_error (vptrs v) k = Some (i, x) /\ nth_error (objs (cm p)) a = Some x) as (x & Ex & Ea).
      { clear -Ep F. revert k Ep. induction F as [|y z l l' [A B] F IH]; intros [|k] Ep; try discriminate; cbn in *; [|eauto]. injection Ep as ->. cbn in *. destruct z as [z1 z2]. cbn in *. subst z1. eauto. }
      rewrite Ex, (rel_cont p v i (conj E F)), Ea. destruct (chandle p i) as [c|] eqn:Eh; cbn [option_map]; [|exact Skip].
      eexists _, []. split; [reflexivity|]. rewrite app_nil_r. split; [split; auto|]. split; [|split; [|exists []; cbn; rewrite app_nil_r; reflexivity]].
      * pose proof I as [L Ln Nw Kp D P]. pose proof (P i a (nth_error_In _ _ Ep)) as Qa. apply chandle_at in Eh. split; cbn [with_mem conts ptrs cm note objs ev]; auto.
        -- change (legal (chistory p ++ [Use a])). apply legal_snoc; auto. unfold chistory. rewrite <- !in_rev, Nw, <- Ln. split; [apply nth_error_Some; congruence|]. intro Z. destruct (D a Z) as (j & Q & Zj). congruence.
        -- intro y. rewrite <- Nw. cbn. split; [intros [Z|Z]; [discriminate|exact Z]|auto].
        -- intros y [Z|Z]; [discriminate|auto].
      * intros y Ly Lo. split; [exact Lo|]. cbn. intros [Z|Z]; [discriminate|exact Z].
    + assert (nth_error (vptrs v) k = None) as -> by (apply nth_error_None; apply nth_error_None in Ep; rewrite <- (same_length F); exact Ep). exact Skip.
  - (* erase *)
    rewrite (rel_cont p v i R). destruct (chandle p i) as [c|] eqn:Eh; cbn [option_map]; [|exact Skip].
    pose proof Eh as Hh. apply chandle_at in Hh. destruct (c_kept _ _ I _ _ Hh) as (So & N & Q).
    unfold h_erase, delete_component. assert (mget name (view (cm p) c) = option_map (val (cm p)) (mget name c)) as -> by apply mget_mmap. destruct (mget name c) as [w|] eqn:Eg; cbn [option_map].
    + assert (mdel name (view (cm p) c) = view (cm p) (mdel name c)) as -> by apply mdel_mmap. destruct (addrs_mdel name c) as [Inc Nd]. eexists _, []. split; [reflexivity|]. rewrite app_nil_r. change (with_cont K p i (mdel name c)) with (with_mem K (with_cont K p i (mdel name c)) (cm p)).
      split; [eapply rel_set; eauto; exists []; rewrite app_nil_r; reflexivity|]. split; [|split].
      * change (with_mem K (with_cont K p i (mdel name c)) (cm p)) with (with_cont K p i (mdel name c)). eapply set_cinv; eauto. apply msorted_mdel. exact So.
      * eapply loose_set; eauto; tauto.
      * exists []. rewrite app_nil_r. reflexivity.
    + eexists _, []. split; [reflexivity|]. rewrite app_nil_r. change (with_cont K p i c) with (with_mem K (with_cont K p i c) (cm p)).
      split; [eapply rel_set; eauto; exists []; rewrite app_nil_r; reflexivity|]. split; [|split].
      * change (with_mem K (with_cont K p i c) (cm p)) with (with_cont K p i c). eapply set_cinv; eauto. apply incl_refl.
      * eapply loose_set; eauto; tauto.
      * exists []. rewrite app_nil_r. reflexivity.
  - (* pack *)
    rewrite (rel_cont p v i R). destruct (chandle p i) as [c|] eqn:Eh; cbn [option_map]; [|exact Skip].
    pose proof (h_pack_step c own p [] [] I (fun a Ha => held_live own p i c a I Eh Ha)) as S. unfold serialize. destruct (h_pack K c [] [] (cm p)) as [[s|e| | |] m]; try (rewrite S; reflexivity).
    destruct S as (S1 & S2 & S3 & S4). rewrite S1. eexists _, []. split; [reflexivity|]. rewrite app_nil_r. assert (exists os, objs m = objs (cm p) ++ os) as X by (exists []; rewrite app_nil_r; exact S3).
    split; [|split; [exact S2|split; [|exact X]]].
    + destruct R as [E F]. split; cbn [with_mem conts ptrs cm]; [rewrite (views_ext own p m I X); exact E|apply ptrs_ext; auto].
    + intros a La Lo. split; [exact Lo|]. cbn. apply S4.
  - (* load *)
    rewrite (rel_cont p v i R). destruct (chandle p i) as [c|] eqn:Eh; cbn [option_map]; [|exact Skip].
    pose proof (h_load_step (S (length blob)) blob 0 own p i c I Eh) as St. unfold deserialize. destruct (h_load K mktime (S (length blob)) blob 0 c (cm p)) as [[c' r] m].
    destruct St as (V & more & I1 & X & D & A). rewrite <- V. destruct r as [u|e| | |]; auto; eexists _, more; (split; [reflexivity|]); (split; [eapply rel_set; eauto|]); (split; [exact I1|]); (split; [eapply loose_set; eauto|exact X]).
  - (* free *)
    rewrite (rel_cont p v i R). destruct (chandle p i) as [c|] eqn:Eh; cbn [option_map]; [|exact Skip].
    pose proof Eh as Hh. apply chandle_at in Hh. destruct (c_kept _ _ I _ _ Hh) as (So & N & Q). pose proof I as [L Ln Nw Kp D P].
    destruct (h_free_step c (cm p) L N (fun a Ha => held_live own p i c a I Eh Ha)) as (A1 & A2 & A3 & A4).
    eexists _, []. split; [reflexivity|]. rewrite app_nil_r. assert (exists os, objs (h_free K c (cm p)) = objs (cm p) ++ os) as X by (exists []; rewrite app_nil_r; exact A2).
    split; [|split; [|split; [|exact X]]].
    + destruct R as [E F]. split; cbn [conts ptrs cm put_cont vconts vptrs]; [|apply ptrs_ext; auto]. rewrite map_update, E, (views_ext own p _ I X). reflexivity.
    + split; cbn [conts ptrs cm]; auto.
      * rewrite A2. exact Ln.
      * intro a. rewrite A3, A2. apply Nw.
      * intros j d Hj. destruct (Nat.eq_dec i j) as [->|Ne]; [rewrite (update_same j _ _ _ Hh) in Hj; discriminate|rewrite update_other in Hj by auto; auto].
      * intros a Ha. apply A4 in Ha as [Ha|Ha]; [exists i; split; [auto|eapply update_same; eauto]|]. destruct (D a Ha) as (j & Qj & E). exists j. split; auto.
        destruct (Nat.eq_dec i j) as [->|Ne]; [congruence|rewrite update_other; auto].
    + intros a La Lo. split.
      * intros j d Hj Ha. apply chandle_at in Hj. cbn [conts] in Hj. destruct (Nat.eq_dec i j) as [->|Ne]; [rewrite (update_same j _ _ _ Hh) in Hj; discriminate|rewrite update_other in Hj by auto].
        apply chandle_at in Hj. exact (Lo j d Hj Ha).
      * cbn [cm]. intro Z. apply A4 in Z as [Z|Z]; [destruct (Lo i c Eh Z)|exact Z].
Qed.

Lemma csteps_ok : forall l own p v, no_copies l -> cinv own p -> rel p v ->
  match csteps K mktime l p with
  | Some (p', a) => exists v' more, vsteps K mktime l v = Some (v', a) /\ rel p' v' /\ cinv (own ++ more) p' /\ keeps_loose p p' /\ (exists os, objs (cm p') = objs (cm p) ++ os)
  | None => vsteps K mktime l v = None
  end.
Proof.
  induction l as [|o l IH]; intros own p v N I R; cbn [csteps vsteps].
  - exists v, []. rewrite app_nil_r. split; auto. split; auto. split; auto. split; [apply loose_refl|exists []; rewrite app_nil_r; reflexivity].
  - pose proof (cstep_ok o own p v (N o (or_introl eq_refl)) I R) as S. destruct (cstep K mktime o p) as [[p1 a]|]; [|rewrite S; reflexivity].
    destruct S as (v1 & more & -> & R1 & I1 & L1 & (os1 & O1)). specialize (IH _ p1 v1 (fun x H => N x (or_intror H)) I1 R1).
    destruct (csteps K mktime l p1) as [[p2 r]|]; [|rewrite IH; reflexivity]. destruct IH as (v2 & more2 & -> & R2 & I2 & L2 & (os2 & O2)).
    exists v2, (more ++ more2). rewrite app_assoc. split; auto. split; auto. split; auto. split; [|exists (os1 ++ os2); rewrite O2, O1, app_assoc; reflexivity].
    intros x Lx Lo. destruct (L1 x Lx Lo) as [A B]. destruct (L2 x) as [C D]; [rewrite O1, app_length; lia|exact A|]. auto.
Qed.
Lemma cstart_inv : cinv [] (cstart K).
Proof.
  split; cbn.
  - intros before e after H. destruct before; discriminate.
  - reflexivity.
  - intro a. split; [contradiction|lia].
  - intros i c H. destruct i; discriminate.
  - contradiction.
  - contradiction.
Qed.
Lemma crun_ok : forall l p a, no_copies l -> csteps K mktime l (cstart K) = Some (p, a) -> exists own v, cinv own p /\ vsteps K mktime l (vstart K) = Some (v, a) /\ rel p v.
Proof.
  intros l p a N H. pose proof (csteps_ok l [] (cstart K) (vstart K) N cstart_inv) as S. specialize (S ltac:(split; [reflexivity|constructor])). rewrite H in S.
  destruct S as (v & more & V & R & I & _). exists ([] ++ more), v. auto.
Qed.
End Proofs.
