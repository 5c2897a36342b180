(** C144: a key object lives exactly as long as a store or a caller holds it. *)
From Verif Require Import Base StrMap Container Memory Keystore StoreMem.
From Coq Require Import List Bool Arith Lia Sorting.Sorted.
Import ListNotations.

(** ** Specification *)
(** Somebody holds the object: the caller, or a store that still exists under
    some name. *)
Definition holds (p : kprog) (a : nat) : Prop :=
  In (Some a) (hands p) \/
  exists i s name, nth_error (stores p) i = Some (Some s) /\ (mget name (pub_keys s) = Some (Some a) \/ mget name (sec_keys s) = Some (Some a)).
Definition alive (p : kprog) (a : nat) : Prop := exists n, nth_error (refs (km p)) a = Some (S n).

(** ** Counting pointers *)
Definition is_at (a : nat) (p : option nat) : nat := match p with Some b => if Nat.eqb a b then 1 else 0 | None => 0 end.
Fixpoint occ (a : nat) (l : list (option nat)) : nat := match l with [] => 0 | p :: l' => is_at a p + occ a l' end.
Lemma occ_app : forall a l l', occ a (l ++ l') = occ a l + occ a l'.
Proof. intros a l l'. induction l as [|p l IH]; cbn; lia. Qed.
Lemma is_at_some : forall a p, 0 < is_at a p <-> p = Some a.
Proof. intros a [b|]; cbn; [|split; [lia|discriminate]]. destruct (Nat.eqb_spec a b); split; intro H; try lia; congruence. Qed.
Lemma occ_in : forall a l, 0 < occ a l <-> In (Some a) l.
Proof.
  intros a l. induction l as [|p l IH]; cbn; [split; [lia|contradiction]|]. pose proof (is_at_some a p). split.
  - intro H1. destruct (is_at a p) eqn:E; [right; apply IH; lia|left; apply H; lia].
  - intros [H1|H1]; [apply H in H1; lia|apply IH in H1; lia].
Qed.
Lemma occ_entry_set : forall a n v m, msorted m -> occ a (entries (mset n v m)) + is_at a (entry m n) = occ a (entries m) + is_at a v.
Proof.
  intros a n v m. unfold entries, entry. induction m as [|[k w] m IH]; intro S; [cbn; lia|]. cbn [mset mget].
  destruct (str_eqb n k) eqn:E; [cbn; lia|]. destruct (str_ltb n k) eqn:El.
  - pose proof (mget_lt_head n k w m S El) as G. cbn [mget] in G. rewrite E in G. rewrite G. cbn. lia.
  - inversion S; subst. cbn [map snd occ]. specialize (IH H1). lia.
Qed.
Lemma entry_above : forall n k (w : option nat) m, msorted ((k, w) :: m) -> str_eqb n k = true -> mget n m = None /\ mdel n m = m.
Proof.
  intros n k w m S E. apply str_eqb_eq in E. subst k. pose proof (msorted_NoDup _ S) as D. cbn in D. inversion D as [|? ? N D']; subst.
  split; [apply mget_None; exact N|]. unfold mdel. clear S D D'. induction m as [|[k w'] m IH]; [reflexivity|]. cbn [filter fst].
  destruct (str_eqb n k) eqn:E; [exfalso; apply N; left; cbn; symmetry; apply str_eqb_eq; exact E|]. cbn [negb]. f_equal. apply IH. intro I. apply N. right. exact I.
Qed.
Lemma occ_entry_del : forall a n m, msorted m -> occ a (entries (mdel n m)) + is_at a (entry m n) = occ a (entries m).
Proof.
  intros a n m. unfold entries, entry. induction m as [|[k w] m IH]; intro S; [reflexivity|]. cbn [mdel filter mget fst].
  destruct (str_eqb n k) eqn:E.
  - destruct (entry_above n k w m S E) as [_ D]. unfold mdel in D. cbn [negb]. rewrite D. cbn. lia.
  - inversion S; subst. cbn [negb map snd occ]. specialize (IH H1). unfold mdel in IH. lia.
Qed.
Lemma occ_index : forall a m n, msorted m -> occ a (entries (fst (index m n))) = occ a (entries m) /\ snd (index m n) = entry m n /\ msorted (fst (index m n)) /\
  entry (fst (index m n)) n = entry m n.
Proof.
  intros a m n S. unfold index, entry. destruct (mget n m) eqn:E; [cbn; rewrite E; auto|]. cbn [fst snd].
  split; [|split; [reflexivity|split; [apply msorted_mset; exact S|rewrite mget_mset_same; reflexivity]]].
  pose proof (occ_entry_set a n None m S) as H. unfold entry in H. rewrite E in H. cbn in H. lia.
Qed.

(** ** The counts are the numbers of pointers *)
Definition balanced (m : kmem) (l : list (option nat)) : Prop := bad m = false /\ forall a, nth a (refs m) 0 = occ a l.
Lemma balanced_same : forall m l l', balanced m l -> (forall a, occ a l' = occ a l) -> balanced m l'.
Proof. intros m l l' [B H] E. split; [exact B|]. intro a. rewrite E. apply H. Qed.
Lemma nth_update : forall (l : list nat) a b n d, a < length l -> nth b (update a n l) d = if Nat.eqb a b then n else nth b l d.
Proof.
  induction l as [|x l IH]; intros a b n d H; cbn in H; [lia|]. destruct a, b; cbn [update nth Nat.eqb]; try reflexivity. apply IH. lia.
Qed.
Lemma counted_there : forall m l a, balanced m l -> 0 < occ a l -> exists n, nth_error (refs m) a = Some (S n) /\ occ a l = S n /\ a < length (refs m).
Proof.
  intros m l a [_ H] O. rewrite <- H in O. destruct (nth_error (refs m) a) as [n|] eqn:E.
  - assert (a < length (refs m)) as La by (apply nth_error_Some; congruence). pose proof (nth_error_nth _ _ 0 E) as E'. rewrite E' in O. destruct n as [|n]; [lia|].
    exists n. rewrite <- H, E'. auto.
  - apply nth_error_None in E. rewrite nth_overflow in O by exact E. lia.
Qed.
Lemma share_ok : forall m l p, balanced m l -> (forall a, p = Some a -> 0 < occ a l) -> balanced (share p m) (p :: l).
Proof.
  intros m l [a|] B H; [|exact B]. destruct (counted_there m l a B (H a eq_refl)) as (n & E & O & La). cbn [share]. rewrite E. destruct B as [B C].
  split; [exact B|]. intro b. cbn [counted refs occ is_at]. rewrite nth_update by exact La. rewrite (Nat.eqb_sym b a). destruct (Nat.eqb_spec a b) as [<-|N]; [lia|apply C].
Qed.
Lemma drop_ok : forall m l p, balanced m (p :: l) -> balanced (drop p m) l.
Proof.
  intros m l [a|] B; [|exact B]. destruct (counted_there m _ a B) as (n & E & O & La); [cbn; rewrite Nat.eqb_refl; lia|]. cbn [drop]. rewrite E. destruct B as [B C].
  cbn [occ is_at] in O. rewrite Nat.eqb_refl in O.
  split; [exact B|]. intro b. cbn [counted refs]. rewrite nth_update by exact La. destruct (Nat.eqb_spec a b) as [<-|N]; [lia|]. rewrite C. cbn [occ is_at].
  destruct (Nat.eqb_spec b a); [congruence|reflexivity].
Qed.
Lemma drops_ok : forall ps m l, balanced m (ps ++ l) -> balanced (drops ps m) l.
Proof. induction ps as [|p ps IH]; intros m l B; [exact B|]. cbn [drops fold_left]. apply IH. apply drop_ok. exact B. Qed.
Lemma touch_ok : forall m l p, balanced m l -> (forall a, p = Some a -> 0 < occ a l) -> touch p m = m.
Proof. intros m l [a|] B H; [|reflexivity]. destruct (counted_there m l a B (H a eq_refl)) as (n & E & _). cbn [touch]. rewrite E. reflexivity. Qed.
Lemma head_occ : forall p l a, p = Some a -> 0 < occ a (p :: l).
Proof. intros p l a ->. cbn. rewrite Nat.eqb_refl. lia. Qed.
Lemma close_ok : forall ps m l, balanced m (ps ++ l) -> balanced (close_map ps m) l.
Proof.
  intros ps m l B. unfold close_map. apply drops_ok.
  assert (forall qs m, (forall a, In (Some a) qs -> 0 < occ a (ps ++ l)) -> balanced m (ps ++ l) -> balanced (fold_left (fun m p => drop p (touch p (share p m))) qs m) (ps ++ l)) as G.
  { induction qs as [|q qs IH]; intros m' H B'; [exact B'|]. cbn [fold_left]. apply IH; [intros a I; apply H; right; exact I|].
    assert (balanced (share q m') (q :: ps ++ l)) as B1 by (apply share_ok; [exact B'|intros a ->; apply H; left; reflexivity]).
    rewrite (touch_ok _ _ q B1) by (intros a ->; apply head_occ; reflexivity). apply drop_ok. exact B1. }
  apply G; [|exact B]. intros a I. rewrite occ_app. apply occ_in in I. lia.
Qed.

(** ** Programs *)
Definition of_store (o : option (store nat)) : list (option nat) := match o with Some s => entries (pub_keys s) ++ entries (sec_keys s) | None => [] end.
Definition pointers (p : kprog) : list (option nat) := hands p ++ flat_map of_store (stores p).
Definition tidy (p : kprog) : Prop := forall i s, nth_error (stores p) i = Some (Some s) -> msorted (pub_keys s) /\ msorted (sec_keys s).
Definition ok (p : kprog) : Prop := balanced (km p) (pointers p) /\ tidy p.

Lemma occ_update : forall a l i o o', nth_error l i = Some o -> occ a (flat_map of_store (update i o' l)) + occ a (of_store o) = occ a (flat_map of_store l) + occ a (of_store o').
Proof.
  intros a. induction l as [|x l IH]; intros [|i] o o' H; try discriminate; cbn [update flat_map]; rewrite !occ_app.
  - injection H as ->. lia.
  - specialize (IH i o o' H). lia.
Qed.
Lemma occ_hand : forall a l k, occ a (update k None l) + is_at a (match nth_error l k with Some v => v | None => None end) = occ a l.
Proof. intros a. induction l as [|x l IH]; intros [|k]; cbn; try lia. specialize (IH k). lia. Qed.
Lemma hand_occ : forall p k a, hand p k = Some a -> 0 < occ a (pointers p).
Proof.
  intros p k a H. unfold pointers. rewrite occ_app. assert (0 < occ a (hands p)); [|lia]. apply occ_in. unfold hand in H.
  destruct (nth_error (hands p) k) eqn:E; [|discriminate]. subst. eapply nth_error_In; eauto.
Qed.
Lemma update_other : forall A (l : list A) i j x, i <> j -> nth_error (update i x l) j = nth_error l j.
Proof. induction l as [|y l IH]; intros [|i] [|j] x H; cbn; try reflexivity; try congruence. apply IH. congruence. Qed.
Lemma update_same : forall A (l : list A) i x o, nth_error l i = Some o -> nth_error (update i x l) i = Some x.
Proof. induction l as [|y l IH]; intros [|i] x o H; cbn in *; try discriminate; [reflexivity|]. eapply IH; eauto. Qed.
Lemma tidy_update : forall p i s s' m h, tidy p -> nth_error (stores p) i = Some (Some s) -> msorted (pub_keys s') -> msorted (sec_keys s') ->
  tidy {| stores := update i (Some s') (stores p); hands := h; km := m |}.
Proof.
  intros p i s s' m h T E S1 S2 j t H. cbn [stores] in H. destruct (Nat.eq_dec i j) as [<-|N].
  - rewrite (update_same _ _ _ _ _ E) in H. injection H as <-. auto.
  - rewrite update_other in H by exact N. apply (T j t H).
Qed.
Lemma store_at_some : forall p i s, store_at p i = Some s -> nth_error (stores p) i = Some (Some s).
Proof. intros p i s H. unfold store_at in H. destruct (nth_error (stores p) i) as [o|]; [subst; reflexivity|discriminate]. Qed.

(** A store whose entries are those of another, and what a lookup gives. *)
Definition looked (s s' : store nat) (v : option nat) : Prop :=
  msorted (pub_keys s') /\ msorted (sec_keys s') /\ (forall a, occ a (of_store (Some s')) = occ a (of_store (Some s))) /\
  (forall a, v = Some a -> 0 < occ a (of_store (Some s))).
Lemma entry_occ : forall m n a, entry m n = Some a -> 0 < occ a (entries m).
Proof.
  intros m n a H. apply occ_in. unfold entry in H. destruct (mget n m) as [v|] eqn:E; [|discriminate]. subst v. apply mget_In in E.
  apply in_map_iff. exists (n, Some a). auto.
Qed.
Lemma public_looked : forall s n, msorted (pub_keys s) -> msorted (sec_keys s) -> looked s (fst (get_public_key s n)) (snd (get_public_key s n)).
Proof.
  intros s n S1 S2. unfold get_public_key. pose proof (fun a => occ_index a (pub_keys s) n S1) as H. destruct (index (pub_keys s) n) as [m v]. cbn [fst snd] in *.
  split; [apply (H 0)|]. split; [exact S2|]. split.
  - intro a. cbn [of_store pub_keys sec_keys]. rewrite !occ_app. destruct (H a) as (-> & _). reflexivity.
  - intros a ->. cbn [of_store]. rewrite occ_app. destruct (H a) as (_ & E & _). symmetry in E. apply entry_occ in E. lia.
Qed.
Lemma secret_looked : forall s n, msorted (pub_keys s) -> msorted (sec_keys s) -> looked s (fst (get_secret_key s n)) (snd (get_secret_key s n)).
Proof.
  intros s n S1 S2. unfold get_secret_key. pose proof (fun a => occ_index a (sec_keys s) n S2) as H. destruct (index (sec_keys s) n) as [m v]. cbn [fst snd] in *.
  split; [exact S1|]. split; [apply (H 0)|]. split.
  - intro a. cbn [of_store pub_keys sec_keys]. rewrite !occ_app. destruct (H a) as (-> & _). reflexivity.
  - intros a ->. cbn [of_store]. rewrite occ_app. destruct (H a) as (_ & E & _). symmetry in E. apply entry_occ in E. lia.
Qed.
Lemma key_looked : forall s n, msorted (pub_keys s) -> msorted (sec_keys s) -> looked s (fst (get_key s n)) (snd (get_key s n)).
Proof.
  intros s n S1 S2. unfold get_key. pose proof (public_looked s n S1 S2) as P. destruct (get_public_key s n) as [s1 [k|]]; cbn [fst snd] in *; [exact P|].
  destruct P as (A & B & C & _). destruct (secret_looked s1 n A B) as (A' & B' & C' & D'). split; [exact A'|]. split; [exact B'|]. split.
  - intro a. rewrite C'. apply C.
  - intros a E. specialize (D' a E). rewrite C in D'. exact D'.
Qed.
Lemma put_occ : forall p i s s' h a, nth_error (stores p) i = Some (Some s) -> (forall a, occ a (of_store (Some s')) = occ a (of_store (Some s))) ->
  occ a (h ++ flat_map of_store (update i (Some s') (stores p))) = occ a (h ++ flat_map of_store (stores p)).
Proof. intros p i s s' h a E H. rewrite !occ_app. pose proof (occ_update a _ i _ (Some s') E) as U. rewrite H in U. lia. Qed.
Lemma store_occ : forall p i s a, nth_error (stores p) i = Some (Some s) -> 0 < occ a (of_store (Some s)) -> 0 < occ a (pointers p).
Proof.
  intros p i s a E H. unfold pointers. rewrite occ_app. assert (0 < occ a (flat_map of_store (stores p))); [|lia]. apply occ_in. apply occ_in in H.
  apply in_flat_map. exists (Some s). split; [eapply nth_error_In; eauto|exact H].
Qed.
Lemma lookup_ok : forall p i s s' v, ok p -> nth_error (stores p) i = Some (Some s) -> looked s s' v -> ok (give (put_store p i s' (share v (km p))) v).
Proof.
  intros p i s s' v [B T] E (S1 & S2 & C & D). split; [|unfold give, put_store; cbn; eapply tidy_update; eauto].
  cbn [give put_store km]. eapply balanced_same; [apply share_ok; [exact B|intros a Hv; eapply store_occ; eauto]|].
  intro a. unfold pointers. cbn [hands stores give put_store occ]. rewrite (put_occ p i s s' _ a E C). rewrite !occ_app. cbn [occ]. lia.
Qed.
Lemma temp_ok : forall p i s s' v, ok p -> nth_error (stores p) i = Some (Some s) -> looked s s' v ->
  ok (put_store p i s' (drop v (share v (km p)))) /\ ok (put_store p i s' (drop v (touch v (share v (km p))))).
Proof.
  intros p i s s' v [B T] E (S1 & S2 & C & D).
  assert (balanced (share v (km p)) (v :: pointers p)) as B1 by (apply share_ok; [exact B|intros a Hv; eapply store_occ; eauto]).
  rewrite (touch_ok _ _ v B1) by (intros a Hv; apply head_occ; exact Hv).
  assert (ok (put_store p i s' (drop v (share v (km p))))) as G; [|auto]. split; [|unfold put_store; eapply tidy_update; eauto].
  eapply balanced_same; [apply drop_ok; exact B1|]. intro a. apply (put_occ p i s s' (hands p) a E C).
Qed.

Lemma step_ok : forall o p, ok p -> ok (kstep o p).
Proof.
  intros o p H. pose proof H as [B T]. destruct o; cbn [kstep].
  - split; [|exact T]. destruct B as [B C]. split; [exact B|]. intro a. unfold pointers. cbn [km refs hands stores]. rewrite !occ_app. specialize (C a). unfold pointers in C. rewrite occ_app in C.
    cbn [occ is_at]. destruct (Nat.eqb_spec a (length (refs (km p)))) as [->|N].
    + rewrite nth_overflow in C by lia. rewrite app_nth2, Nat.sub_diag by lia. cbn. lia.
    + destruct (Nat.lt_ge_cases a (length (refs (km p)))); [rewrite app_nth1 by assumption; lia|].
      rewrite nth_overflow in C by lia. rewrite nth_overflow by (rewrite app_length; cbn; lia). lia.
  - split.
    + eapply balanced_same; [exact B|]. intro a. unfold pointers. cbn [hands stores]. rewrite flat_map_app, !occ_app. cbn. lia.
    + intros j t E. cbn [stores] in E. destruct (Nat.lt_ge_cases j (length (stores p))) as [L|L].
      * rewrite nth_error_app1 in E by exact L. eapply T; eauto.
      * rewrite nth_error_app2 in E by exact L. destruct (j - length (stores p)) as [|[|]]; cbn in E; try discriminate. injection E as <-. split; constructor.
  - destruct (store_at p i) as [s|] eqn:E; [|exact H]. apply store_at_some in E. destruct (T i s E) as [S1 S2].
    set (old := entry _ _). assert (forall a, occ a (of_store (Some (add_key s name (hand p k) c))) + is_at a old = occ a (of_store (Some s)) + is_at a (hand p k)) as Ho.
    { intro a. unfold old. destruct c; cbn [add_key of_store pub_keys sec_keys]; rewrite !occ_app.
      - pose proof (occ_entry_set a name (hand p k) _ S1). lia.
      - pose proof (occ_entry_set a name (hand p k) _ S2). lia. }
    split.
    + cbn [put_store km]. apply drop_ok. eapply balanced_same; [apply share_ok; [exact B|intros a Ha; eapply hand_occ; eauto]|].
      intro a. unfold pointers. cbn [put_store hands stores occ]. rewrite !occ_app. pose proof (occ_update a _ i _ (Some (add_key s name (hand p k) c)) E) as U.
      specialize (Ho a). lia.
    + unfold put_store. eapply tidy_update; eauto; destruct c; cbn [add_key pub_keys sec_keys]; auto; apply msorted_mset; assumption.
  - destruct (store_at p i) as [s|] eqn:E; [|exact H]. apply store_at_some in E. destruct (T i s E) as [S1 S2]. pose proof (key_looked s name S1 S2) as L.
    destruct (get_key s name) as [s' v]. eapply lookup_ok; eauto.
  - destruct (store_at p i) as [s|] eqn:E; [|exact H]. apply store_at_some in E. destruct (T i s E) as [S1 S2]. pose proof (public_looked s name S1 S2) as L.
    destruct (get_public_key s name) as [s' v]. eapply lookup_ok; eauto.
  - destruct (store_at p i) as [s|] eqn:E; [|exact H]. apply store_at_some in E. destruct (T i s E) as [S1 S2]. pose proof (secret_looked s name S1 S2) as L.
    destruct (get_secret_key s name) as [s' v]. eapply lookup_ok; eauto.
  - destruct (store_at p i) as [s|] eqn:E; [|exact H]. apply store_at_some in E. destruct (T i s E) as [S1 S2]. pose proof (key_looked s name S1 S2) as L.
    destruct (get_key s name) as [s' v]. eapply temp_ok; eauto.
  - destruct (store_at p i) as [s|] eqn:E; [|exact H]. apply store_at_some in E. destruct (T i s E) as [S1 S2]. pose proof (key_looked s name S1 S2) as L.
    destruct (get_key s name) as [s' v]. eapply temp_ok; eauto.
  - destruct (store_at p i) as [s|] eqn:E; [|exact H]. apply store_at_some in E. destruct (T i s E) as [S1 S2]. pose proof (key_looked s name S1 S2) as L.
    unfold delete_key. destruct (get_key s name) as [s1 [k|]]; cbn [fst snd] in L; destruct L as (M1 & M2 & C & D).
    + set (s' := {| pub_keys := _; sec_keys := _ |}).
      assert (balanced (share (Some k) (km p)) (Some k :: pointers p)) as B1 by (apply share_ok; [exact B|intros a Hv; eapply store_occ; eauto]).
      rewrite (touch_ok _ _ (Some k) B1) by (intros a Hv; apply head_occ; exact Hv).
      assert (forall a m, msorted m -> occ a (entries (if mmem name m then mdel name m else m)) + is_at a (entry m name) = occ a (entries m)) as Hd.
      { intros a m Sm. unfold mmem. destruct (mget name m) eqn:Em; [apply occ_entry_del; exact Sm|]. unfold entry. rewrite Em. cbn. lia. }
      split.
      * cbn [put_store km]. apply drop_ok. apply drops_ok. eapply balanced_same; [exact B1|]. intro a. unfold pointers. cbn [put_store hands stores occ app].
        rewrite !occ_app. pose proof (occ_update a _ i _ (Some s') E) as U. rewrite <- (C a) in U. unfold s' in U at 2. cbn [of_store pub_keys sec_keys] in U. rewrite !occ_app in U.
        pose proof (Hd a _ M1). pose proof (Hd a _ M2). lia.
      * unfold put_store. eapply tidy_update; eauto; unfold s'; cbn [pub_keys sec_keys]; match goal with |- msorted (if ?b then _ else _) => destruct b end; auto; apply msorted_mdel; assumption.
    + split; [|unfold put_store; eapply tidy_update; eauto]. eapply balanced_same; [exact B|]. intro a. apply (put_occ p i s s1 (hands p) a E C).
  - rewrite (touch_ok _ _ (hand p k) B) by (intros a Ha; eapply hand_occ; eauto). exact H.
  - split; [|exact T]. cbn [give km]. eapply balanced_same; [apply share_ok; [exact B|intros a Ha; eapply hand_occ; eauto]|].
    intro a. unfold pointers. cbn [give hands stores occ]. rewrite !occ_app. cbn [occ]. lia.
  - split; [|exact T]. cbn [km]. apply drop_ok. eapply balanced_same; [exact B|]. intro a. unfold pointers. cbn [hands stores occ]. rewrite !occ_app.
    pose proof (occ_hand a (hands p) k). unfold hand. lia.
  - destruct (store_at p i) as [s|] eqn:E; [|exact H]. apply store_at_some in E. split.
    + cbn [km]. apply close_ok. apply close_ok. eapply balanced_same; [exact B|]. intro a. unfold pointers. cbn [hands stores]. rewrite !occ_app.
      pose proof (occ_update a _ i _ None E) as U. cbn [of_store occ] in U. rewrite occ_app in U. lia.
    + intros j t Ej. cbn [stores] in Ej. destruct (Nat.eq_dec i j) as [<-|N]; [rewrite (update_same _ _ _ _ _ E) in Ej; discriminate|].
      rewrite update_other in Ej by exact N. eapply T; eauto.
Qed.
Lemma run_ok : forall l p, ok p -> ok (krun l p).
Proof. induction l as [|o l IH]; intros p H; [exact H|]. cbn [krun fold_left]. apply IH. apply step_ok. exact H. Qed.
Lemma start_ok : ok no_keys.
Proof. split; [split; [reflexivity|intros [|a]; reflexivity]|]. intros [|i] s E; discriminate. Qed.
Lemma held_pointers : forall p a, tidy p -> (holds p a <-> 0 < occ a (pointers p)).
Proof.
  intros p a T. rewrite occ_in. unfold pointers. rewrite in_app_iff, in_flat_map. unfold holds. split; (intros [H|H]; [left; exact H|right]).
  - destruct H as (i & s & n & E & H). exists (Some s). split; [eapply nth_error_In; eauto|]. cbn [of_store]. apply in_or_app.
    destruct H as [H|H]; apply mget_In in H; [left|right]; apply in_map_iff; exists (n, Some a); auto.
  - destruct H as ([s|] & I & H); [|contradiction]. apply In_nth_error in I as (i & E). destruct (T i s E) as [S1 S2]. cbn [of_store] in H. apply in_app_or in H.
    destruct H as [H|H]; apply in_map_iff in H as ([n v] & Hv & H); cbn [snd] in Hv; subst v; exists i, s, n; split; auto; [left|right]; apply In_mget; auto; apply msorted_NoDup; assumption.
Qed.

(** * C144 *)
(** Whatever a program does with any number of stores: no pointer it follows,
    copies or lets go of leads to an object that was deleted. *)
Theorem C144_safe : forall l, bad (km (krun l no_keys)) = false.
Proof. intro l. apply (run_ok l no_keys start_ok). Qed.
Print Assumptions C144_safe.
(** And the objects that exist are those somebody holds. *)
Theorem C144_alive : forall l a, alive (krun l no_keys) a <-> holds (krun l no_keys) a.
Proof.
  intros l a. destruct (run_ok l no_keys start_ok) as [B T]. rewrite (held_pointers _ a T). split.
  - intros (n & E). destruct B as [_ C]. rewrite <- C. rewrite (nth_error_nth _ _ 0 E). lia.
  - intro O. destruct (counted_there _ _ a B O) as (n & E & _). exists n. exact E.
Qed.
Print Assumptions C144_alive.
(** So a key handed out stays until its pointer is released, even if the store
    deletes it, replaces it or is destroyed ... *)
Lemma step_hand : forall o p k, o <> KRelease k -> k < length (hands p) -> hand (kstep o p) k = hand p k /\ k < length (hands (kstep o p)).
Proof.
  assert (forall (h : list (option nat)) v k, k < length h -> nth_error (h ++ [v]) k = nth_error h k /\ k < length (h ++ [v])) as G.
  { intros h v k L. split; [apply nth_error_app1; exact L|rewrite app_length; lia]. }
  intros o p k N L. unfold hand. destruct o; cbn [kstep].
  - cbn [hands]. edestruct G as [-> ?]; eauto.
  - auto.
  - destruct (store_at p i); auto.
  - destruct (store_at p i) as [s|]; auto. destruct (get_key s name). cbn. edestruct G as [-> ?]; eauto.
  - destruct (store_at p i) as [s|]; auto. destruct (get_public_key s name). cbn. edestruct G as [-> ?]; eauto.
  - destruct (store_at p i) as [s|]; auto. destruct (get_secret_key s name). cbn. edestruct G as [-> ?]; eauto.
  - destruct (store_at p i) as [s|]; auto. destruct (get_key s name). auto.
  - destruct (store_at p i) as [s|]; auto. destruct (get_key s name). auto.
  - destruct (store_at p i) as [s|]; auto. destruct (get_key s name), (delete_key s name) as [[? [|]] ?]; auto.
  - auto.
  - cbn. edestruct G as [-> ?]; eauto.
  - cbn [hands]. rewrite update_other by congruence. split; [reflexivity|]. clear N. revert k0 k L. generalize (hands p). induction l as [|x l IH]; intros [|k0] [|k] L; cbn in *; try lia.
    specialize (IH k0 k ltac:(lia)). lia.
  - destruct (store_at p i); auto.
Qed.
Theorem C144_kept : forall l more k a, hand (krun l no_keys) k = Some a -> ~ In (KRelease k) more -> alive (krun (l ++ more) no_keys) a.
Proof.
  intros l more k a H N. apply C144_alive. left. unfold krun. rewrite fold_left_app. fold (krun l no_keys). fold (krun more (krun l no_keys)).
  assert (k < length (hands (krun l no_keys))) as L.
  { unfold hand in H. destruct (nth_error (hands (krun l no_keys)) k) eqn:E; [|discriminate]. apply nth_error_Some. congruence. }
  revert H L. generalize (krun l no_keys). induction more as [|o more IH]; intros p H L.
  - cbn [krun fold_left]. unfold hand in H. destruct (nth_error (hands p) k) eqn:E; [|discriminate]. subst. eapply nth_error_In; eauto.
  - cbn [krun fold_left]. destruct (step_hand o p k) as [E L']; [intro X; apply N; left; exact X|exact L|].
    apply IH; [intro X; apply N; right; exact X|congruence|exact L'].
Qed.
Print Assumptions C144_kept.
(** ... and nothing is left once all stores are gone and all pointers released. *)
Theorem C144_nothing_left : forall l a, Forall (fun o => o = None) (stores (krun l no_keys)) -> Forall (fun h => h = None) (hands (krun l no_keys)) ->
  ~ alive (krun l no_keys) a.
Proof.
  intros l a S H A. apply C144_alive in A. rewrite Forall_forall in S, H. destruct A as [A|(i & s & n & E & _)].
  - apply H in A. discriminate.
  - apply nth_error_In, S in E. discriminate.
Qed.
Print Assumptions C144_nothing_left.
(** A key under two names in two stores, replaced in one, deleted from the other,
    and both stores destroyed while the caller holds one of two keys. *)
Definition two_stores : list kop :=
  [KOpen; KOpen; KMake; KMake; KAdd 0 (L "a") 0 KEY_PUBLIC; KAdd 0 (L "a") 0 KEY_SECRET; KAdd 1 (L "b") 0 KEY_SECRET; KRelease 0;
   KGet 1 (L "b"); KAdd 0 (L "a") 1 KEY_PUBLIC; KSecret 0 (L "none"); KDelete 1 (L "b"); KExport 0 (L "a"); KClose 1; KRelease 1; KClose 0].
Example C144_nonvacuous :
  refs (km (krun two_stores no_keys)) = [1; 0] /\ hand (krun two_stores no_keys) 2 = Some 0 /\
  refs (km (krun (firstn 10 two_stores) no_keys)) = [3; 2] /\
  refs (km (krun (two_stores ++ [KUse 2; KRelease 2]) no_keys)) = [0; 0].
Proof. vm_compute. repeat split; reflexivity. Qed.
