(** Interleavings of key manager calls. *)
From Verif Require Import Base StrMap Dec ByteString UInteger Field Policy Driver Parser AttrList Utils Lsss LsssSpec Container Keystore Keymgr KeymgrSpec KeymgrProofs Threads ThreadsSpec.
From Coq Require Import ZArith List Ascii Bool Lia Arith.
Import ListNotations.
Open Scope Z_scope.

Section P.
Context (K : curve) (mktime : tm -> Z * tm) (sort : list (nat * Z) -> list (nat * Z)) (rank : list (str * Z) -> list (str * Z)).
Notation program := (program K mktime sort rank).
Notation alone := (alone K mktime sort rank).
Notation move := (move K mktime sort rank).
Notation reached := (reached K mktime sort rank).
Notation store_prog := (store_prog K mktime).
Notation store_rest := (store_rest K mktime).
Notation store_with_id := (store_with_id K mktime).
Notation search_prog := (search_prog sort rank).
Notation one_by_one := (one_by_one K mktime sort rank).

(** ** One call without interruption *)
Fixpoint perform (p : prog) (m : manager) : manager * res answer :=
  match p with Done r => (m, r) | Access _ _ update next => perform (next m) (update m) end.
Lemma mmem_get : forall A k (m : smap A), mmem k m = match mget k m with Some _ => true | None => false end.
Proof. intros A k m. unfold mmem. reflexivity. Qed.
Lemma with_meta_same : forall m, with_meta m (km_meta m) = m.
Proof. intros []. reflexivity. Qed.
Lemma with_counter_same : forall m, with_counter m (km_counter m) = m.
Proof. intros []. reflexivity. Qed.
Lemma store_perform : forall u id b e ca r fin m, perform (store_prog u id b e ca r fin) m = perform (fin (snd (store_with_id m u id b e ca r))) (fst (store_with_id m u id b e ca r)).
Proof.
  intros u id b e ca r fin m. unfold Threads.store_prog, Keymgr.store_with_id. destruct u as [|a u]; [reflexivity|]. cbn [perform].
  set (m1 := with_meta m (mdel id (km_meta m))).
  assert (perform (store_rest (a :: u) id b e ca r fin) m1 = perform (fin (snd (match read_key K mktime b r with
      | Ok None => (m1, Ok false)
      | Ok (Some (scheme, f)) =>
          if has_duplicate (km_meta m1) (a :: u) f then (m1, Ok false)
          else (with_meta m1 (mset id {| m_user := a :: u; m_cached := ca; m_type := ftype f; m_input := f; m_scheme := scheme; m_blob := b; m_expire := e |} (km_meta m1)), Ok true)
      | Throw e => (m1, Throw e) | UB => (m1, UB) | Exit => (m1, Exit) | NoFuel => (m1, NoFuel)
      end))) (fst (match read_key K mktime b r with
      | Ok None => (m1, Ok false)
      | Ok (Some (scheme, f)) =>
          if has_duplicate (km_meta m1) (a :: u) f then (m1, Ok false)
          else (with_meta m1 (mset id {| m_user := a :: u; m_cached := ca; m_type := ftype f; m_input := f; m_scheme := scheme; m_blob := b; m_expire := e |} (km_meta m1)), Ok true)
      | Throw e => (m1, Throw e) | UB => (m1, UB) | Exit => (m1, Exit) | NoFuel => (m1, NoFuel)
      end))) as X.
  { unfold Threads.store_rest. destruct (read_key K mktime b r) as [[[sc f]|]| | | |]; try reflexivity. cbn [perform keep]. unfold keep. destruct (has_duplicate (km_meta m1) (a :: u) f); reflexivity. }
  unfold keep. rewrite mmem_get. destruct (mget id (km_meta m)) eqn:Em; cbn [perform]; [exact X|].
  rewrite <- X. unfold m1. rewrite mdel_absent by exact Em. rewrite with_meta_same. reflexivity.
Qed.
Lemma drop_perform : forall ids all m, perform (drop_prog ids all) m =
  ({| km_meta := km_meta m; km_counter := km_counter m; km_pass := km_pass m; km_active := km_active m; km_store := delete_all (km_store m) ids |}, Ok (AIds all)).
Proof. induction ids as [|id ids IH]; intros all m; cbn [drop_prog perform delete_all]; [destruct m; reflexivity|]. rewrite IH. reflexivity. Qed.
Definition choose (r : res (str + list (str * Z))) : res answer :=
  match r with
  | Ok (inl id) => Ok (AText id)
  | Ok (inr []) => Ok (AText [])
  | Ok (inr found) => match rank found with [] => UB | e :: _ => Ok (AText (fst e)) end
  | Throw e => Throw e | UB => UB | Exit => Exit | NoFuel => NoFuel
  end.
Lemma search_perform : forall ids eff q found m, perform (search_prog ids eff q found) m =
  (fst (fst (search_loop sort ids eff m q found)), choose (snd (search_loop sort ids eff m q found))).
Proof.
  induction ids as [|id ids IH]; intros eff q found m; cbn [Threads.search_prog perform search_loop].
  - cbn [fst snd choose]. destruct (rev found); reflexivity.
  - unfold keep. rewrite mmem_get. destruct (mget id (km_meta m)) as [d|] eqn:Em; [|reflexivity]. cbn [perform]. rewrite Em.
    destruct (test_a_key sort (m_type d) (m_input d) q) as [[[[b n] st] q']| | | |]; try reflexivity.
    destruct b; [destruct eff|]; try apply IH. reflexivity.
Qed.
Lemma perform_alone : forall c m, perform (program c) m = alone c m.
Proof.
  intros [c|] m; [|reflexivity]. destruct c as [u id b e ca r|u p b e ca r|u eff q|u now|u id|u|pr u pw]; cbn [Threads.program ThreadsSpec.alone].
  - rewrite store_perform. destruct (snd (store_with_id m u id b e ca r)); reflexivity.
  - unfold prefix_prog. cbn [perform]. unfold keep at 1. set (m1 := with_counter m (touch_counter (km_counter m) u)).
    assert (perform (prefix_rest K mktime u p b e ca r) m1 = (fst (store_with_prefix K mktime m u p b e ca r), bindr AText (snd (store_with_prefix K mktime m u p b e ca r)))) as X.
    { unfold prefix_rest, store_with_prefix. fold m1. cbn [perform]. unfold keep. rewrite store_perform. set (id := p ++ dec (count_at (km_counter m1) u)).
      assert (km_counter (fst (store_with_id m1 u id b e ca r)) = km_counter m1) as Kc.
      { unfold Keymgr.store_with_id. destruct u; [reflexivity|]. destruct (read_key K mktime b r) as [[[sc f]|]| | | |]; try reflexivity. destruct (has_duplicate _ _ _); reflexivity. }
      destruct (store_with_id m1 u id b e ca r) as [m2 x] eqn:Es. cbn [fst snd] in *. destruct x as [[|]| | | |]; try reflexivity. cbn [perform]. rewrite Kc. reflexivity. }
    rewrite mmem_get. destruct (mget u (km_counter m)) eqn:Em.
    + rewrite <- X. unfold m1, touch_counter. rewrite Em, with_counter_same. reflexivity.
    + cbn [perform]. rewrite <- X. unfold m1, touch_counter. rewrite Em. reflexivity.
  - cbn [perform]. unfold keep. rewrite search_perform. unfold search_key. destruct (search_loop sort (filter_keys m u (ftype q)) eff m q []) as [[m' q'] x]. cbn [fst snd].
    destruct x as [[id|[|e l]]| | | |]; try reflexivity. cbn [choose bind]. destruct (rank (e :: l)); reflexivity.
  - cbn [perform]. unfold keep, delete_key_command. destruct (0 <? now) eqn:En; cbn [negb andb fst snd bindr].
    + rewrite drop_perform. reflexivity.
    + destruct (str_eqb u []); [reflexivity|]. cbn [perform]. rewrite drop_perform. reflexivity.
  - reflexivity.
  - reflexivity.
  - reflexivity.
Qed.

(** ** The members a call touches *)
Fixpoint within (c : call) (p : prog) : Prop :=
  match p with Done _ => True | Access f w _ next => touches c f w = true /\ forall m, within c (next m) end.
Lemma fail_within : forall A c (r : res A), within c (fail r).
Proof. intros A c r. destruct r; exact I. Qed.
Lemma store_within : forall c u id b e ca r fin, (forall w, touches c FMeta w = true) -> (forall x, within c (fin x)) -> within c (store_prog u id b e ca r fin).
Proof.
  intros c u id b e ca r fin Ht Hf. assert (within c (store_rest u id b e ca r fin)) as X.
  { unfold Threads.store_rest. destruct (read_key K mktime b r) as [[[sc f]|]| | | |]; try apply Hf. split; [apply Ht|]. intro m. destruct (has_duplicate _ _ _); [apply Hf|]. split; [apply Ht|]. intros _. apply Hf. }
  unfold Threads.store_prog. destruct u; [apply Hf|]. split; [apply Ht|]. intro m. destruct (mmem id (km_meta m)); [|exact X]. split; [apply Ht|]. intros _. exact X.
Qed.
Lemma drop_within : forall c ids all, touches c FStore true = true -> within c (drop_prog ids all).
Proof. intros c ids all H. induction ids as [|i ids IH]; [exact I|]. split; [exact H|]. intros _. exact IH. Qed.
Lemma search_within : forall c ids eff q found, (forall w, touches c FMeta w = true) -> within c (search_prog ids eff q found).
Proof.
  intros c ids. induction ids as [|i ids IH]; intros eff q found H; [exact I|]. split; [apply H|]. intro m. destruct (mmem i (km_meta m)); [|exact I]. split; [apply H|]. intro m'.
  destruct (mget i (km_meta m')) as [d|]; [|exact I]. destruct (test_a_key sort (m_type d) (m_input d) q) as [[[[b n] st] q']| | | |]; try exact I. destruct b; [destruct eff; [|exact I]|]; apply IH; exact H.
Qed.
Lemma program_within : forall c, within c (program c).
Proof.
  intros [c|]; [|split; [reflexivity|]; intros m; exact I]. destruct c as [u id b e ca r|u p b e ca r|u eff q|u now|u id|u|pr u pw]; cbn [Threads.program].
  - apply store_within; [intros []; reflexivity|]. intros [x| | | |]; exact I.
  - assert (within (Run (StorePrefix u p b e ca r)) (prefix_rest K mktime u p b e ca r)) as X.
    { unfold prefix_rest. split; [reflexivity|]. intro m. apply store_within; [intros []; reflexivity|]. intros [[|]| | | |]; try exact I. split; [reflexivity|]. intro m'. split; [reflexivity|]. intros _. exact I. }
    unfold prefix_prog. split; [reflexivity|]. intro m. destruct (mmem u (km_counter m)); [exact X|]. split; [reflexivity|]. intros _. exact X.
  - split; [reflexivity|]. intro m. apply search_within. intros []; reflexivity.
  - split; [reflexivity|]. intro m. destruct (0 <? now); [apply drop_within; reflexivity|]. destruct (str_eqb u []); [exact I|]. split; [reflexivity|]. intros _. apply drop_within. reflexivity.
  - split; [reflexivity|]. intro m. exact I.
  - split; [reflexivity|]. intro m. exact I.
  - split; [reflexivity|]. intro m. split; [reflexivity|]. intros _. exact I.
Qed.

(** ** What every schedule keeps *)
Lemma set_same : forall T i t, set_thread T i t i = t.
Proof. intros. unfold set_thread. rewrite Nat.eqb_refl. reflexivity. Qed.
Lemma set_other : forall T i t j, j <> i -> set_thread T i t j = T j.
Proof. intros T i t j H. unfold set_thread. apply Nat.eqb_neq in H. rewrite H. reflexivity. Qed.
Lemma returned_snoc : forall i l j c r, returned_by i (l ++ [(j, c, r)]) = returned_by i l ++ (if Nat.eqb j i then [c] else []).
Proof. intros i l j c r. unfold returned_by. rewrite filter_app, map_app. cbn [filter fst]. destruct (Nat.eqb j i); reflexivity. Qed.
(** The way a step is made. *)
Lemma move_inv : forall i g g', move i g = Some g' -> g_dead g = false /\
  ((exists c rest, t_now (g_threads g i) = None /\ t_todo (g_threads g i) = c :: rest /\ (locks c = true -> g_lock g = None) /\
      g' = {| g_manager := g_manager g; g_lock := (if locks c then Some i else g_lock g); g_threads := set_thread (g_threads g) i {| t_todo := rest; t_now := Some (c, program c) |}; g_log := g_log g; g_dead := false |}) \/
   (exists c f w update next, t_now (g_threads g i) = Some (c, Access f w update next) /\
      g' = {| g_manager := update (g_manager g); g_lock := g_lock g; g_threads := set_thread (g_threads g) i {| t_todo := t_todo (g_threads g i); t_now := Some (c, next (g_manager g)) |}; g_log := g_log g; g_dead := false |}) \/
   (exists c r, t_now (g_threads g i) = Some (c, Done r) /\ ((exists a, r = Ok a) \/ exists e, r = Throw e) /\
      g' = {| g_manager := g_manager g; g_lock := (if locks c then None else g_lock g); g_threads := set_thread (g_threads g) i {| t_todo := t_todo (g_threads g i); t_now := None |}; g_log := g_log g ++ [(i, c, r)]; g_dead := false |}) \/
   (exists c r, t_now (g_threads g i) = Some (c, Done r) /\ g' = {| g_manager := g_manager g; g_lock := g_lock g; g_threads := g_threads g; g_log := g_log g; g_dead := true |})).
Proof.
  intros i g g' H. unfold Threads.move in H. destruct (g_dead g); [discriminate|]. split; [reflexivity|].
  destruct (t_now (g_threads g i)) as [[c [r|f w up nx]]|].
  - right. right. destruct r; injection H as <-; [left|left|right|right|right]; eauto 8.
  - right. left. injection H as <-. eauto 9.
  - left. destruct (t_todo (g_threads g i)) as [|c rest]; [discriminate|]. exists c, rest. split; [reflexivity|]. split; [reflexivity|]. destruct (locks c) eqn:El.
    + destruct (g_lock g); [discriminate|]. injection H as <-. auto.
    + injection H as <-. split; [discriminate|reflexivity].
Qed.
Lemma accounted_reached : forall m calls g, reached m calls g -> accounted calls g.
Proof.
  intros m calls g H. induction H as [|g i g' H IH Hm]; [intro i; reflexivity|].
  apply move_inv in Hm as (_ & [(c & rest & E1 & E2 & _ & ->)|[(c & f & w & up & nx & E1 & ->)|[(c & r & E1 & _ & ->)|(c & r & E1 & ->)]]]); intro j; specialize (IH j); cbn [g_log g_threads]; try exact IH.
  - destruct (Nat.eq_dec j i) as [->|N]; [|rewrite set_other by exact N; exact IH]. rewrite set_same. cbn [t_now t_todo]. rewrite E1, E2 in IH. exact IH.
  - destruct (Nat.eq_dec j i) as [->|N]; [|rewrite set_other by exact N; exact IH]. rewrite set_same. cbn [t_now t_todo]. rewrite E1 in IH. exact IH.
  - rewrite returned_snoc. destruct (Nat.eq_dec j i) as [->|N].
    + rewrite set_same, Nat.eqb_refl. cbn [t_now t_todo]. rewrite E1 in IH. rewrite <- app_assoc. exact IH.
    + rewrite set_other by exact N. apply not_eq_sym, Nat.eqb_neq in N. rewrite N, app_nil_r. exact IH.
Qed.
(** The thread in a locking call holds the lock; what is left of a call touches
    only the members of the call. *)
Lemma guarded_reached : forall m calls g, reached m calls g ->
  (forall i c p, t_now (g_threads g i) = Some (c, p) -> within c p /\ (locks c = true -> g_lock g = Some i)) /\
  (forall i, g_lock g = Some i -> exists c p, t_now (g_threads g i) = Some (c, p) /\ locks c = true).
Proof.
  intros m calls g H. induction H as [|g i g' H [IH1 IH2] Hm]; [split; intros; discriminate|].
  apply move_inv in Hm as (_ & [(c & rest & E1 & E2 & El & ->)|[(c & f & w & up & nx & E1 & ->)|[(c & r & E1 & _ & ->)|(c & r & E1 & ->)]]]); cbn [g_log g_threads g_lock].
  - split.
    + intros j c' p X. destruct (Nat.eq_dec j i) as [->|N].
      * rewrite set_same in X. cbn [t_now] in X. injection X as <- <-. split; [apply program_within|]. intros ->. reflexivity.
      * rewrite set_other in X by exact N. destruct (IH1 j c' p X) as [A B]. split; [exact A|]. intro C. specialize (B C). destruct (locks c); [|exact B]. rewrite (El eq_refl) in B. discriminate.
    + intros j X. destruct (locks c) eqn:Ec.
      * injection X as <-. exists c, (program c). rewrite set_same. auto.
      * destruct (IH2 j X) as (c' & p & A & B). destruct (Nat.eq_dec j i) as [->|N]; [congruence|]. exists c', p. rewrite set_other by exact N. auto.
  - split.
    + intros j c' p X. destruct (Nat.eq_dec j i) as [->|N].
      * rewrite set_same in X. cbn [t_now] in X. injection X as <- <-. destruct (IH1 i _ _ E1) as [[_ A] B]. auto.
      * rewrite set_other in X by exact N. apply IH1. exact X.
    + intros j X. destruct (IH2 j X) as (c' & p & A & B). destruct (Nat.eq_dec j i) as [->|N].
      * rewrite set_same. cbn [t_now]. rewrite E1 in A. injection A as <- _. eauto.
      * rewrite set_other by exact N. eauto.
  - split.
    + intros j c' p X. destruct (Nat.eq_dec j i) as [->|N]; [rewrite set_same in X; discriminate|]. rewrite set_other in X by exact N. destruct (IH1 j c' p X) as [A B]. split; [exact A|]. intro C. specialize (B C).
      destruct (locks c) eqn:Ec; [|exact B]. destruct (IH1 i _ _ E1) as [_ D]. specialize (D Ec). congruence.
    + intros j X. destruct (locks c) eqn:Ec; [discriminate|]. destruct (IH2 j X) as (c' & p & A & B). destruct (Nat.eq_dec j i) as [->|N]; [congruence|]. exists c', p. rewrite set_other by exact N. auto.
  - split; [exact IH1|exact IH2].
Qed.
Lemma in_call : forall m calls g i c p, reached m calls g -> t_now (g_threads g i) = Some (c, p) -> In c (calls i).
Proof. intros m calls g i c p H E. rewrite <- (accounted_reached m calls g H i), E. apply in_or_app. right. left. reflexivity. Qed.
Lemma no_race : forall m calls g, (forall i j c c', i <> j -> In c (calls i) -> In c' (calls j) -> (locks c = true /\ locks c' = true) \/ ~ clash c c') -> reached m calls g -> ~ race g.
Proof.
  intros m calls g Hc H (i & j & f & w & w' & N & (c & up & nx & A) & (c' & up' & nx' & B) & W). destruct (guarded_reached m calls g H) as [G _].
  destruct (G i _ _ A) as [[T1 _] L1]. destruct (G j _ _ B) as [[T2 _] L2].
  destruct (Hc i j c c' N (in_call _ _ _ _ _ _ H A) (in_call _ _ _ _ _ _ H B)) as [[X Y]|X].
  - specialize (L1 X). specialize (L2 Y). congruence.
  - apply X. exists f, w, w'. auto.
Qed.
(** ** Locking calls *)
Lemma serial_reached : forall m calls, (forall i c, In c (calls i) -> locks c = true) -> forall g, reached m calls g ->
  exists m', one_by_one m (g_log g) m' /\
    match g_lock g with
    | None => quiet g /\ g_manager g = m'
    | Some k => exists c p, t_now (g_threads g k) = Some (c, p) /\ perform p (g_manager g) = alone c m' /\ forall j, j <> k -> t_now (g_threads g j) = None
    end.
Proof.
  intros m calls Hl g H. induction H as [|g i g' H IH Hm]; [exists m; split; [constructor|split; [intro i; reflexivity|reflexivity]]|].
  destruct IH as (m' & O & X). pose proof (accounted_reached _ _ _ H) as Acc.
  apply move_inv in Hm as (_ & [(c & rest & E1 & E2 & El & ->)|[(c & f & w & up & nx & E1 & ->)|[(c & r & E1 & _ & ->)|(c & r & E1 & ->)]]]); cbn [g_log g_threads g_lock g_manager].
  - assert (locks c = true) as Lc by (apply (Hl i); rewrite <- (Acc i), E1, E2; apply in_or_app; right; left; reflexivity). specialize (El Lc). rewrite Lc. rewrite El in X. destruct X as [Q ->].
    exists m'. split; [exact O|]. exists c, (program c). rewrite set_same. split; [reflexivity|]. split; [apply perform_alone|]. intros j N. rewrite set_other by exact N. apply Q.
  - exists m'. split; [exact O|]. assert (locks c = true) as Lc by (apply (Hl i); rewrite <- (Acc i), E1; apply in_or_app; right; left; reflexivity).
    destruct (guarded_reached m calls g H) as [G _]. destruct (G i _ _ E1) as [_ L1]. rewrite (L1 Lc) in *. destruct X as (c' & p & A & B & C). rewrite E1 in A. injection A as <- <-.
    exists c, (nx (g_manager g)). rewrite set_same. split; [reflexivity|]. split; [exact B|]. intros j N. rewrite set_other by exact N. apply C. exact N.
  - assert (locks c = true) as Lc by (apply (Hl i); rewrite <- (Acc i), E1; apply in_or_app; right; left; reflexivity).
    destruct (guarded_reached m calls g H) as [G _]. destruct (G i _ _ E1) as [_ L1]. rewrite (L1 Lc) in *. rewrite Lc. destruct X as (c' & p & A & B & C). rewrite E1 in A. injection A as <- <-. cbn [perform] in B.
    exists (g_manager g). split; [eapply then_one; [exact O|symmetry; exact B]|]. split; [|reflexivity]. intro j. cbn [g_threads]. destruct (Nat.eq_dec j i) as [->|N]; [rewrite set_same; reflexivity|]. rewrite set_other by exact N. apply C. exact N.
  - exists m'. split; [exact O|]. exact X.
Qed.
(** ** Nothing gets stuck *)
Lemma progress : forall m calls g, reached m calls g -> g_dead g = false -> (exists i, unfinished g i) -> exists i g', move i g = Some g'.
Proof.
  intros m calls g H D (i & U). destruct (guarded_reached m calls g H) as [_ G2].
  assert (forall j c p, t_now (g_threads g j) = Some (c, p) -> exists g', move j g = Some g') as Run.
  { intros j c p E1. unfold Threads.move. rewrite D, E1. destruct p as [[| | | |]|]; eauto. }
  destruct (g_lock g) as [k|] eqn:El.
  - destruct (G2 k eq_refl) as (c & p & A & _). destruct (Run k c p A) as (g' & X). eauto.
  - destruct (t_now (g_threads g i)) as [[c p]|] eqn:En; [destruct (Run i c p En) as (g' & X); eauto|]. destruct U as [U|U]; [congruence|]. exists i. unfold Threads.move. rewrite D, En, El.
    destruct (t_todo (g_threads g i)) as [|c rest]; [congruence|]. destruct (locks c); eauto.
Qed.
End P.
