(** Histories of the key manager. *)
From Verif Require Import Base StrMap Dec ByteString ByteStringProofs UInteger Field Policy Driver Parser AttrList ListText Utils Lsss LsssSpec LsssProofs LsssScan LsssRecover LsssUse LsssFinal PolicyUse TextUse
  Container ContainerSpec ContainerProofs Keystore Keymgr KeymgrSpec KeymgrProofs.
From Coq Require Import ZArith List Ascii Bool Lia Permutation Sorted.
Import ListNotations.
Open Scope Z_scope.

Lemma dec_fuel_acc : forall f n acc, acc <> [] -> dec_fuel f n acc <> [].
Proof. induction f as [|f IH]; intros n acc H; cbn [dec_fuel]; [exact H|]. destruct (n <? 10); [discriminate|]. apply IH. discriminate. Qed.
Lemma dec_nonempty : forall n, dec n <> [].
Proof.
  intro n. unfold dec, dec_nat. destruct (n <? 0); [discriminate|]. rewrite Nat.add_1_r. cbn [dec_fuel]. destruct (n <? 10); [discriminate|]. apply dec_fuel_acc. discriminate.
Qed.

Section U.
Context (K : curve) (mktime : tm -> Z * tm) (sort : list (nat * Z) -> list (nat * Z)) (rank : list (str * Z) -> list (str * Z)).
Hypothesis sort_perm : forall l, Permutation (sort l) l.
Hypothesis rank_perm : forall l, Permutation (rank l) l.
Hypothesis rank_sorted : forall l, StronglySorted (fun a b => snd a <= snd b) (rank l).
Notation good := (good K mktime).
Notation after := (after K mktime sort rank).
Notation exec := (exec K mktime sort rank).
Notation stores := (stores K mktime).

(** A search leaves the entries alone, whatever the query. *)
Lemma test_keeps : forall s q b n s' q', askable s -> test_a_key sort (ftype s) s q = Ok (b, n, s', q') -> same_input s s' /\ askable s'.
Proof.
  intros [p st|l] [q st'|l'] b n s' q' Ha; unfold test_a_key; cbn [ftype]; try discriminate.
  - destruct Ha as (r & Hr & Ha & Hc). unfold get_string_list. destruct (check_clean sort sort_perm (aattrs l') p r st Hr Ha Hc) as (st2 & -> & Hc2).
    cbn [bind]. intros [= _ _ <- _]. cbn. split; [reflexivity|]. exists r. auto.
  - destruct (check_if_satisfied sort (get_string_list l) q true st') as [[[b0 n0] st2]| | | |]; cbn [bind]; try discriminate.
    intros [= _ _ <- _]. cbn. auto.
Qed.
Lemma search_loop_keeps : forall ids eff m q found, good m -> good (fst (fst (search_loop sort ids eff m q found))) /\ malike m (fst (fst (search_loop sort ids eff m q found))).
Proof.
  induction ids as [|id ids IH]; intros eff m q found Hg; cbn [search_loop]; [split; [exact Hg|apply malike_refl]|].
  destruct (mget id (km_meta m)) as [d|] eqn:Ed; [|split; [exact Hg|apply malike_refl]].
  destruct (proj2 Hg id d Ed) as (G1 & G2 & G3 & _).
  destruct (test_a_key sort (m_type d) (m_input d) q) as [[[[b n] s'] q']| | | |] eqn:Et; try (split; [exact Hg|apply malike_refl]).
  rewrite G2 in Et. apply test_keeps in Et as [S1 A1]; [|exact G3]. destruct (good_set K mktime m id d s' Hg Ed S1 A1) as [Hg' Hm'].
  destruct b; [destruct eff|].
  - destruct (IH true _ q' ((id, n) :: found) Hg') as [H1 H2]. split; [exact H1|eapply malike_trans; eauto].
  - split; assumption.
  - destruct (IH eff _ q' found Hg') as [H1 H2]. split; [exact H1|eapply malike_trans; eauto].
Qed.
Lemma search_keeps : forall m user eff q, good m -> good (fst (fst (search_key sort rank m user eff q))) /\ malike m (fst (fst (search_key sort rank m user eff q))).
Proof.
  intros m user eff q Hg. unfold search_key. pose proof (search_loop_keeps (filter_keys m user (ftype q)) eff m q [] Hg) as H.
  destruct (search_loop _ _ _ _ _ _) as [[m' q'] r]. exact H.
Qed.
Lemma malike_get : forall m m' user id, malike m m' -> get_key_command m' user id = get_key_command m user id.
Proof.
  intros m m' user id H. specialize (H id). unfold get_key_command. destruct (mget id (km_meta m)) as [d|], (mget id (km_meta m')) as [d'|]; try tauto.
  destruct H as (-> & _ & -> & _ & H). rewrite (same_compact _ _ H). reflexivity.
Qed.
Lemma delete_meta : forall m user now, km_meta (fst (delete_key_command m user now)) = km_meta m.
Proof. intros m user now. unfold delete_key_command. destruct (negb (0 <? now) && str_eqb user []); reflexivity. Qed.

Lemma good_exec : forall m c, good m -> good (exec m c).
Proof.
  intros m c Hg. destruct c; cbn [KeymgrProofs.exec].
  - apply good_store. exact Hg.
  - apply good_prefix. exact Hg.
  - apply search_keeps. exact Hg.
  - unfold KeymgrProofs.good. rewrite delete_meta. exact Hg.
  - exact Hg.
  - exact Hg.
  - exact Hg.
Qed.
Lemma good_after : forall h, good (after h).
Proof. induction h as [|c h IH]; cbn [KeymgrProofs.after]; [split; [apply msorted_nil|intros id d H; discriminate]|]. apply good_exec. exact IH. Qed.

(** ** Where an entry comes from *)
Lemma store_entry : forall m user id blob expire cache random k d',
  mget k (km_meta (fst (store_with_id K mktime m user id blob expire cache random))) = Some d' ->
  (k = id /\ m_user d' = user /\ m_blob d' = blob /\ snd (store_with_id K mktime m user id blob expire cache random) = Ok true) \/
  (mget k (km_meta m) = Some d' /\ (k = id -> snd (store_with_id K mktime m user id blob expire cache random) <> Ok true)).
Proof.
  intros m user id blob expire cache random k d' E.
  destruct (store_cases K mktime m user id blob expire cache random) as [(-> & Er)|[(Hu & Em & Hr)|(Hu & Hr & scheme & f & Ek & _ & Em)]].
  - right. rewrite Er in *. cbn [fst snd] in *. split; [exact E|discriminate].
  - right. rewrite Em in E. destruct (str_eq_dec k id) as [->|Hne]; [rewrite mget_mdel_same in E; discriminate|]. rewrite mget_mdel_other in E by assumption. auto.
  - rewrite Em in E. destruct (str_eq_dec k id) as [->|Hne].
    + left. rewrite mget_mset_same in E. injection E as <-. cbn [entry_of m_user m_blob]. auto.
    + right. rewrite mget_mset_other, mget_mdel_other in E by assumption. split; [exact E|congruence].
Qed.
Lemma store_true_entry : forall m user id blob expire cache random, snd (store_with_id K mktime m user id blob expire cache random) = Ok true ->
  exists d, mget id (km_meta (fst (store_with_id K mktime m user id blob expire cache random))) = Some d /\ m_user d = user /\ m_blob d = blob.
Proof.
  intros m user id blob expire cache random H.
  destruct (store_cases K mktime m user id blob expire cache random) as [(-> & Er)|[(Hu & Em & Hr)|(Hu & Hr & scheme & f & Ek & _ & Em)]].
  - rewrite Er in H. discriminate.
  - congruence.
  - rewrite Em, mget_mset_same. eauto.
Qed.
Lemma prefix_ok : forall m user prefix blob expire cache random id, id <> [] ->
  snd (store_with_prefix K mktime m user prefix blob expire cache random) = Ok id <->
  id = prefix_id m user prefix /\ snd (store_with_id K mktime (with_counter m (touch_counter (km_counter m) user)) user id blob expire cache random) = Ok true.
Proof.
  intros m user prefix blob expire cache random id Hid. destruct (prefix_cases K mktime m user prefix blob expire cache random) as [_ ->]. split.
  - destruct (snd (store_with_id K mktime _ user (prefix_id m user prefix) blob expire cache random)) as [[]| | | |] eqn:E; try congruence. intros [= <-]. auto.
  - intros [-> ->]. reflexivity.
Qed.
Lemma exec_entry : forall m c id, good m ->
  (exists u b d, stores m c u id b /\ mget id (km_meta (exec m c)) = Some d /\ m_user d = u /\ m_blob d = b) \/
  ((forall u b, ~ stores m c u id b) /\ forall d', mget id (km_meta (exec m c)) = Some d' -> exists d, mget id (km_meta m) = Some d /\ m_user d = m_user d' /\ m_blob d = m_blob d').
Proof.
  intros m c id Hg. destruct c as [user id0 blob expire cache random|user prefix blob expire cache random|user eff q|user now|user id0|user|pr user pa]; cbn [KeymgrProofs.exec KeymgrSpec.stores].
  - destruct (str_eq_dec id0 id) as [->|Hne].
    + assert (D : snd (store_with_id K mktime m user id blob expire cache random) = Ok true \/ snd (store_with_id K mktime m user id blob expire cache random) <> Ok true).
      { destruct (snd (store_with_id K mktime m user id blob expire cache random)) as [[]| | | |]; auto; right; discriminate. }
      destruct D as [D|D].
      * left. destruct (store_true_entry _ _ _ _ _ _ _ D) as (d & E1 & E2 & E3). exists user, blob, d. auto.
      * right. split; [intros u b (_ & _ & _ & H); auto|]. intros d' E. apply store_entry in E as [(_ & _ & _ & H)|[H _]]; [congruence|eauto].
    + right. split; [intros u b (_ & H & _); congruence|]. intros d' E. apply store_entry in E as [(H & _)|[H _]]; [congruence|eauto].
  - destruct (prefix_cases K mktime m user prefix blob expire cache random) as [Em _].
    set (m1 := with_counter m (touch_counter (km_counter m) user)) in *. set (pid := prefix_id m user prefix) in *.
    assert (Hp : pid <> []). { unfold pid, prefix_id. intro X. apply app_eq_nil in X as [_ X]. apply dec_nonempty in X. exact X. }
    assert (D : snd (store_with_id K mktime m1 user pid blob expire cache random) = Ok true \/ snd (store_with_id K mktime m1 user pid blob expire cache random) <> Ok true).
    { destruct (snd (store_with_id K mktime m1 user pid blob expire cache random)) as [[]| | | |]; auto; right; discriminate. }
    destruct (str_eq_dec pid id) as [Hpi|Hne]; [destruct D as [D|D]|].
    + left. subst id. destruct (store_true_entry _ _ _ _ _ _ _ D) as (d & E1 & E2 & E3). exists user, blob, d. rewrite Em. split; [|auto].
      split; [reflexivity|]. split; [reflexivity|]. split; [exact Hp|]. apply prefix_ok; auto.
    + right. split.
      * intros u b (_ & _ & Hid & H). apply prefix_ok in H as [H1 H2]; [|exact Hid]. apply D. fold m1 in H2. rewrite Hpi. exact H2.
      * intros d' E. rewrite Em in E. apply store_entry in E as [(_ & _ & _ & H)|[H _]]; [congruence|eauto].
    + right. split.
      * intros u b (_ & _ & Hid & H). apply prefix_ok in H as [H1 H2]; [|exact Hid]. fold pid in H1. congruence.
      * intros d' E. rewrite Em in E. apply store_entry in E as [(H & _)|[H _]]; [congruence|eauto].
  - right. split; [intros u b []|]. intros d' E. destruct (search_keeps m user eff q Hg) as [_ H]. specialize (H id). rewrite E in H.
    destruct (mget id (km_meta m)) as [d|]; [|tauto]. exists d. split; [reflexivity|]. destruct H as (-> & _ & -> & _). auto.
  - right. split; [intros u b []|]. intros d' E. rewrite delete_meta in E. eauto.
  - right. split; [intros u b []|]. eauto.
  - right. split; [intros u b []|]. intros d' E. cbn in E. eauto.
  - right. split; [intros u b []|]. intros d' E. cbn in E. eauto.
Qed.
(** The entry of an identifier is that of the last successful store under it. *)
Lemma entry_history : forall h id d, mget id (km_meta (after h)) = Some d ->
  exists h1 c h2, h = h1 ++ c :: h2 /\ stores (after h2) c (m_user d) id (m_blob d) /\
    forall a c' b, h1 = a ++ c' :: b -> forall u' b', ~ stores (after (b ++ c :: h2)) c' u' id b'.
Proof.
  induction h as [|c h IH]; intros id d E; [discriminate|]. cbn [KeymgrProofs.after] in E.
  destruct (exec_entry (after h) c id (good_after h)) as [(u & b & d0 & Hs & E0 & Hu & Hb)|[Hn Hd]].
  - rewrite E0 in E. injection E as <-. exists [], c, h. split; [reflexivity|]. subst. split; [exact Hs|]. intros a c' b0 H. destruct a; discriminate.
  - destruct (Hd d E) as (d0 & E0 & Hu & Hb). destruct (IH id d0 E0) as (h1 & c1 & h2 & -> & Hs & Hl). exists (c :: h1), c1, h2. split; [reflexivity|].
    rewrite <- Hu, <- Hb. split; [exact Hs|]. intros [|a0 a] c' b' H.
    + injection H as <- <-. exact Hn.
    + injection H as _ H. exact (Hl a c' b' H).
Qed.

(** ** Owning *)
Lemma owns_entry : forall m user id blob, good m -> owns m user id blob <-> exists d, mget id (km_meta m) = Some d /\ m_user d = user /\ m_blob d = blob.
Proof.
  intros m user id blob [_ Hg]. unfold owns, get_key_command. split.
  - intros [Hb E]. destruct (mget id (km_meta m)) as [d|]; [|cbn in E; congruence]. destruct (str_eqb (m_user d) user) eqn:Eu; [|cbn in E; congruence].
    apply str_eqb_eq in Eu. cbn in E. eauto.
  - intros (d & E & <- & <-). rewrite E, str_eqb_refl. cbn. destruct (Hg id d E) as (_ & _ & _ & H & _). auto.
Qed.
Lemma fits_type : forall a q, fits a q -> ftype a = opposite (ftype q).
Proof. intros [] []; cbn; try tauto; reflexivity. Qed.
Lemma same_fits : forall a b q, same_input a b -> fits a q -> fits b q.
Proof. intros [] [] []; cbn; try tauto; intros; subst; auto. Qed.
Lemma same_reported : forall a b q n, same_input a b -> reported sort a q n -> reported sort b q n.
Proof. intros [] [] []; cbn; try tauto; intros; subst; auto. Qed.
Lemma candidate : forall m q user id, good m ->
  In id (filter (fits_id m q) (filter_keys m user (ftype q))) <->
  exists d, mget id (km_meta m) = Some d /\ m_user d = user /\ fits (m_input d) q.
Proof.
  intros m q user id Hg. rewrite filter_In, filter_keys_In by exact Hg. unfold fits_id. split.
  - intros [(_ & d & E & _ & Hu) H]. rewrite E in H. apply fitsb_fits in H. eauto.
  - intros (d & E & Hu & Hf). rewrite E. split; [|apply fitsb_fits; exact Hf]. destruct (proj2 Hg id d E) as (G1 & G2 & _). split; [congruence|].
    exists d. split; [reflexivity|]. split; [rewrite G2; apply fits_type; exact Hf|exact Hu].
Qed.
Lemma search_lemma : forall m user eff q, good m -> askable q ->
  exists m' q' r, search_key sort rank m user eff q = (m', q', Ok r) /\
    (forall u id, get_key_command m' u id = get_key_command m u id) /\ same_input q q' /\ askable q' /\
    ((exists id blob f, owns m user id blob /\ blob_input K mktime blob f /\ fits f q) ->
     exists blob f, owns m user r blob /\ blob_input K mktime blob f /\ fits f q /\
       (eff = true -> forall id' blob' f' n n', owns m user id' blob' -> blob_input K mktime blob' f' -> fits f' q -> reported sort f q n -> reported sort f' q n' -> n <= n')) /\
    ((forall id blob f, owns m user id blob -> blob_input K mktime blob f -> ~ fits f q) -> r = []).
Proof.
  intros m user eff q Hg Hq. destruct (search_ok K mktime sort rank sort_perm rank_perm rank_sorted m user eff q Hg Hq) as (m' & q' & r & E & Hg' & Hm & Hs & Ha & Hr).
  exists m', q', r. split; [exact E|]. split; [intros u id; apply malike_get; exact Hm|]. split; [exact Hs|]. split; [exact Ha|].
  assert (C : forall id, In id (filter (fits_id m q) (filter_keys m user (ftype q))) <-> exists blob f, owns m user id blob /\ blob_input K mktime blob f /\ fits f q).
  { intro id. rewrite (candidate m q user id Hg). split.
    - intros (d & Ed & Hu & Hf). destruct (proj2 Hg id d Ed) as (_ & _ & _ & _ & f & Hb & Hsi & _). exists (m_blob d), f.
      split; [apply owns_entry; eauto|]. split; [exact Hb|]. eapply same_fits; [apply same_input_sym; exact Hsi|exact Hf].
    - intros (blob & f & Ho & Hb & Hf). apply owns_entry in Ho as (d & Ed & Hu & <-); [|exact Hg]. exists d. split; [exact Ed|]. split; [exact Hu|].
      destruct (proj2 Hg id d Ed) as (_ & _ & _ & _ & f' & Hb' & Hsi & _). rewrite (blob_det K mktime _ _ _ Hb Hb') in Hf. eapply same_fits; eauto. }
  destruct Hr as [[En Er]|[Hin Hmin]].
  - split; [|intros _; exact Er]. intros (id & blob & f & H). exfalso. assert (X : In id []) by (rewrite <- En; apply C; eauto). destruct X.
  - split.
    + intros _. destruct (proj1 (C r) Hin) as (blob & f & Ho & Hb & Hf). exists blob, f. split; [exact Ho|]. split; [exact Hb|]. split; [exact Hf|].
      intros He id' blob' f' n n' Ho' Hb' Hf' Rn Rn'. specialize (Hmin He id').
      assert (G : forall i bl g k, owns m user i bl -> blob_input K mktime bl g -> fits g q -> reported sort g q k -> k = cost_id sort m q i).
      { intros i bl g k Oi Bi Fi Ri. apply owns_entry in Oi as (d & Ed & _ & <-); [|exact Hg]. destruct (proj2 Hg i d Ed) as (_ & _ & A & _ & g' & Bi' & Si & _).
        rewrite (blob_det K mktime _ _ _ Bi Bi') in Fi, Ri. unfold cost_id. rewrite Ed. apply (reported_cost sort sort_perm); auto.
        - eapply same_fits; eauto.
        - eapply same_reported; eauto. }
      rewrite (G r blob f n), (G id' blob' f' n') by assumption. apply Hmin, C. eauto.
    + intro Hno. exfalso. destruct (proj1 (C r) Hin) as (blob & f & Ho & Hb & Hf). eapply Hno; eauto.
Qed.

(** ** Storing an exported key *)
Lemma abe_scheme : forall k text, abe_key K mktime k text -> get_scheme_id (k_alg k) = Ok (k_alg k) /\ (k_alg k =? SCHEME_NONE) = false /\ known_scheme (k_alg k).
Proof. intros k text [[[-> | ->] _]|[[-> | ->] _]]; (split; [reflexivity|split; [reflexivity|unfold known_scheme; cbn; auto 20]]). Qed.
Lemma read_exported : forall k text random, curve_ok K -> msorted (k_parts k) -> all_portable K mktime (k_parts k) ->
  (forall body, serialize (k_parts k) [] = Ok body -> len body < 2^32) -> 0 <= k_version k <= 170 -> len (k_uid k) = 16 -> len (k_id k) < 2^31 ->
  abe_key K mktime k text ->
  exists blob f, key_export k = Ok blob /\ read_key K mktime blob random = Ok (Some (k_alg k, f)) /\ fcompact f = text /\ ftype f = (if (k_alg k =? 101) || (k_alg k =? 201) then FUNC_ATTRLIST else FUNC_POLICY).
Proof.
  intros k text random HK Hs Hp Hb Hv Hu Hi Hk. destruct (abe_scheme k text Hk) as (S1 & S2 & S3).
  assert (Hne : k_parts k <> []). { intro X. destruct Hk as [(_ & l & E & _)|(_ & E & _)]; rewrite X in E; discriminate. }
  destruct (key_back K mktime k [] random HK Hs Hp Hne Hb Hv S3 Hu Hi) as (blob & k0 & body & k' & E1 & E2 & E3 & A1 & _ & _ & _ & Hc).
  exists blob. unfold read_key. rewrite E2. cbn [bind].
  assert (A0 : k_alg k0 = k_alg k). { unfold key_load in E3. destruct (deserialize K mktime (k_parts k0) body) as [pp rr]. injection E3 as <- _. exact A1. }
  rewrite A0, S1. cbn [bind]. rewrite S2, E3. cbn [bind]. unfold get_function_input. rewrite A1, S1. cbn [bind].
  assert (Gc : forall o, mget (L "input") (k_parts k) = Some (Some o) -> exists o', snd (get_component (k_parts k') (L "input")) = Ok o' /\ same_value o o').
  { intros o E. destruct (proj2 Hc (L "input") o E) as (o' & E' & Hsv). exists o'. split; [|exact Hsv]. unfold get_component, index. rewrite E'. reflexivity. }
  destruct Hk as [(Ha & l & E & ->)|(Ha & E & p & Ep)].
  - destruct (Gc _ E) as (o' & Eo & Hsv). destruct o' as [| | | | | |l'|]; try destruct Hsv. destruct H0 as [_ Hcomp].
    destruct (Hp _ _ E) as [_ (o & Eo2 & Hport)]. injection Eo2 as <-. destruct Hport as [(t & Et) _]. destruct (compact_roundtrip mktime t l Et) as (l2 & E2' & _ & _ & Ec).
    exists (InAttrs l2). split; [exact E1|].
    assert (X : existsb (Z.eqb (k_alg k)) [CP_WATERS; CP_WATERS_CCA] = true /\ (k_alg k =? 101) || (k_alg k =? 201) = true) by (destruct Ha as [-> | ->]; split; reflexivity).
    destruct X as [-> ->]. rewrite Eo. cbn [bind]. rewrite Hcomp, E2'. cbn [bind]. auto.
  - destruct (Gc _ E) as (o' & Eo & Hsv). destruct o' as [| | | | |b| |]; try destruct Hsv.
    exists (InPolicy p fresh). split; [exact E1|].
    assert (X : existsb (Z.eqb (k_alg k)) [CP_WATERS; CP_WATERS_CCA] = false /\ existsb (Z.eqb (k_alg k)) [KP_GPSW; KP_GPSW_CCA] = true /\ (k_alg k =? 101) || (k_alg k =? 201) = false) by (destruct Ha as [-> | ->]; split; [reflexivity|split; reflexivity|reflexivity|split; reflexivity]).
    destruct X as (-> & -> & ->). rewrite Eo. cbn [bind]. rewrite Ep. cbn [bind]. split; [reflexivity|]. cbn [fcompact].
    apply policy_ready in Ep as (e & r & _ & _ & _ & _ & _ & _ & T & _). auto.
Qed.
Lemma duplicate_spec : forall m user f, good m -> has_duplicate (km_meta m) user f = true <->
  exists id blob g, owns m user id blob /\ blob_input K mktime blob g /\ fcompact g = fcompact f /\ ftype g = ftype f.
Proof.
  intros m user f Hg. unfold has_duplicate. rewrite existsb_exists. split.
  - intros ([id d] & Hin & H). cbn [snd] in H. apply andb_prop in H as [H H3]. apply andb_prop in H as [H1 H2]. apply str_eqb_eq in H1, H3. apply type_eqb_eq in H2.
    assert (Ed : mget id (km_meta m) = Some d) by (apply In_mget; [apply msorted_NoDup, Hg|exact Hin]).
    destruct (proj2 Hg id d Ed) as (_ & _ & _ & _ & g & Hb & Hsi & _). exists id, (m_blob d), g. split; [apply owns_entry; eauto|]. split; [exact Hb|].
    rewrite <- (same_compact _ _ Hsi), <- (same_ftype _ _ Hsi). auto.
  - intros (id & blob & g & Ho & Hb & Hc & Ht). apply owns_entry in Ho as (d & Ed & Hu & <-); [|exact Hg]. exists (id, d). split; [apply mget_In; exact Ed|]. cbn [snd].
    destruct (proj2 Hg id d Ed) as (_ & _ & _ & _ & g' & Hb' & Hsi & _). rewrite (blob_det K mktime _ _ _ Hb Hb') in Hc, Ht.
    rewrite (same_compact _ _ Hsi), (same_ftype _ _ Hsi), Hc, Ht, Hu, !str_eqb_refl. rewrite (proj2 (type_eqb_eq _ _) eq_refl). reflexivity.
Qed.

(** ** Whatever is asked, a search answers with the user's keys *)
Lemma search_loop_ids : forall ids eff m q found m' q' x, search_loop sort ids eff m q found = (m', q', Ok x) ->
  match x with inl id => In id ids | inr l => forall e, In e l -> In e found \/ In (fst e) ids end.
Proof.
  induction ids as [|id ids IH]; intros eff m q found m' q' x; cbn [search_loop].
  - intros [= _ _ <-] e He. left. apply in_rev. exact He.
  - destruct (mget id (km_meta m)) as [d|]; [|discriminate].
    destruct (test_a_key sort (m_type d) (m_input d) q) as [[[[b n] s'] q2]| | | |]; try discriminate.
    destruct b; [destruct eff|]; intro H.
    + apply IH in H. destruct x as [i|l]; [right; exact H|]. intros e He. apply H in He as [[He|He]|He]; [right; left; subst e; reflexivity|auto|right; right; exact He].
    + injection H as _ _ <-. left. reflexivity.
    + apply IH in H. destruct x as [i|l]; [right; exact H|]. intros e He. apply H in He as [He|He]; [auto|right; right; exact He].
Qed.
Lemma search_owned : forall m user eff q m' q' r, good m -> search_key sort rank m user eff q = (m', q', Ok r) -> r = [] \/ exists blob, owns m user r blob.
Proof.
  intros m user eff q m' q' r Hg. unfold search_key. destruct (search_loop sort (filter_keys m user (ftype q)) eff m q []) as [[m2 q2] [x| | | |]] eqn:E; cbn [bind]; try discriminate.
  apply search_loop_ids in E.
  assert (F : forall id, In id (filter_keys m user (ftype q)) -> exists blob, owns m user id blob).
  { intros id Hid. apply (filter_keys_In K mktime) in Hid as (_ & d & Ed & _ & Hu); [|exact Hg]. exists (m_blob d). apply owns_entry; eauto. }
  destruct x as [id|l]; [intros [= _ _ <-]; right; apply F, E|]. destruct l as [|e l]; [intros [= _ _ <-]; auto|].
  destruct (rank (e :: l)) as [|e' l'] eqn:Er; [discriminate|]. intros [= _ _ <-]. right. apply F.
  assert (Hin : In e' (e :: l)). { eapply Permutation_in; [apply rank_perm|]. rewrite Er. left. reflexivity. }
  apply E in Hin as [[]|H]; exact H.
Qed.

(** ** Commands leave the other identifiers alone *)
Lemma store_other : forall m user id blob expire cache random u k, k <> id ->
  get_key_command (fst (store_with_id K mktime m user id blob expire cache random)) u k = get_key_command m u k.
Proof.
  intros m user id blob expire cache random u k Hne. unfold get_key_command.
  destruct (store_cases K mktime m user id blob expire cache random) as [(-> & Er)|[(Hu & Em & Hr)|(Hu & Hr & scheme & f & Ek & _ & Em)]].
  - rewrite Er. reflexivity.
  - rewrite Em, mget_mdel_other by assumption. reflexivity.
  - rewrite Em, mget_mset_other, mget_mdel_other by assumption. reflexivity.
Qed.
Lemma exec_other : forall m c u k, good m -> ~ targets m c k -> get_key_command (exec m c) u k = get_key_command m u k.
Proof.
  intros m c u k Hg Ht. destruct c as [user id0 blob expire cache random|user prefix blob expire cache random|user eff q|user now|user id0|user|pr user pa]; cbn [KeymgrProofs.exec targets] in *.
  - apply store_other. congruence.
  - destruct (prefix_cases K mktime m user prefix blob expire cache random) as [Em _]. unfold get_key_command at 1. rewrite Em.
    pose proof (store_other (with_counter m (touch_counter (km_counter m) user)) user (prefix_id m user prefix) blob expire cache random u k) as X.
    unfold get_key_command in X at 1. rewrite X; [reflexivity|]. unfold prefix_id. cbn [get_user_key_count snd] in Ht. congruence.
  - apply malike_get. apply search_keeps. exact Hg.
  - unfold get_key_command. rewrite delete_meta. reflexivity.
  - reflexivity.
  - reflexivity.
  - reflexivity.
Qed.
Lemma absent_get : forall m id, (forall u, snd (get_key_command m u id) = []) -> good m -> mget id (km_meta m) = None.
Proof.
  intros m id H Hg. destruct (mget id (km_meta m)) as [d|] eqn:Ed; [|reflexivity]. exfalso. specialize (H (m_user d)). unfold get_key_command in H. rewrite Ed, str_eqb_refl in H.
  destruct (proj2 Hg id d Ed) as (_ & _ & _ & Hb & _). exact (Hb H).
Qed.
Lemma manager_eta : forall m, with_meta m (km_meta m) = m. Proof. intros []. reflexivity. Qed.
Lemma store_failed : forall m user id blob expire cache random, good m -> (forall u, snd (get_key_command m u id) = []) ->
  snd (store_with_id K mktime m user id blob expire cache random) <> Ok true -> fst (store_with_id K mktime m user id blob expire cache random) = m.
Proof.
  intros m user id blob expire cache random Hg Ha Hr. apply absent_get in Ha; [|exact Hg]. unfold store_with_id in *. destruct user as [|c us]; [reflexivity|].
  rewrite (mdel_absent _ _ _ Ha), manager_eta in *.
  destruct (read_key K mktime blob random) as [[[scheme f]|]| | | |]; try reflexivity. destruct (has_duplicate _ _ _); [reflexivity|]. exfalso. apply Hr. reflexivity.
Qed.
(** ** A store of a readable key *)
Lemma store_readable : forall m user id blob expire cache random scheme f, good m -> user <> [] -> read_key K mktime blob random = Ok (Some (scheme, f)) ->
  let r := store_with_id K mktime m user id blob expire cache random in
  ((exists id' blob' g, id' <> id /\ owns m user id' blob' /\ blob_input K mktime blob' g /\ fcompact g = fcompact f /\ ftype g = ftype f) /\ snd r = Ok false) \/
  (~ (exists id' blob' g, id' <> id /\ owns m user id' blob' /\ blob_input K mktime blob' g /\ fcompact g = fcompact f /\ ftype g = ftype f) /\
   snd r = Ok true /\ get_key_command (fst r) user id = (fcompact f, blob)).
Proof.
  intros m user id blob expire cache random scheme f Hg Hu E. cbn zeta. unfold store_with_id. destruct user as [|c us]; [congruence|]. set (user := c :: us). rewrite E.
  pose proof (good_del K mktime m id Hg) as Hgd. pose proof (duplicate_spec (with_meta m (mdel id (km_meta m))) user f Hgd) as D.
  assert (O : forall id' blob', owns (with_meta m (mdel id (km_meta m))) user id' blob' <-> id' <> id /\ owns m user id' blob').
  { intros id' blob'. unfold owns, get_key_command. cbn [km_meta with_meta]. destruct (str_eq_dec id' id) as [->|Hne].
    - rewrite mget_mdel_same. cbn. intuition congruence.
    - rewrite mget_mdel_other by assumption. tauto. }
  destruct (has_duplicate (km_meta (with_meta m (mdel id (km_meta m)))) user f) eqn:Hd.
  - left. split; [|reflexivity]. destruct (proj1 D eq_refl) as (id' & blob' & g & Ho & H). apply O in Ho as [H1 H2]. exists id', blob', g. auto.
  - right. split.
    + intros (id' & blob' & g & H1 & H2 & H3). assert (X : false = true) by (apply D; exists id', blob', g; split; [apply O; auto|exact H3]). discriminate.
    + split; [reflexivity|]. unfold get_key_command. cbn [fst km_meta with_meta]. rewrite mget_mset_same. cbn [m_user m_input m_blob]. rewrite str_eqb_refl. reflexivity.
Qed.
(** ** Deleting *)
Lemma delete_ids_zero : forall m user id, good m -> In id (get_key_ids m user 0) <-> exists blob, owns m user id blob.
Proof.
  intros m user id Hg. unfold get_key_ids. rewrite in_map_iff. split.
  - intros ([k d] & <- & H). cbn [fst]. apply filter_In in H as [Hin H]. cbn [snd] in H. destruct (str_eqb user (m_user d)) eqn:Eu; [|discriminate]. apply str_eqb_eq in Eu.
    exists (m_blob d). apply owns_entry; [exact Hg|]. exists d. split; [|auto]. apply In_mget; [apply msorted_NoDup, Hg|exact Hin].
  - intros (blob & Ho). apply owns_entry in Ho as (d & Ed & Hu & _); [|exact Hg]. exists (id, d). split; [reflexivity|]. apply filter_In. split; [apply mget_In; exact Ed|]. cbn [snd].
    rewrite <- Hu, str_eqb_refl. reflexivity.
Qed.
Lemma delete_ids_expired : forall m user now id, good m -> 0 < now -> In id (get_key_ids m user now) <-> exists d, mget id (km_meta m) = Some d /\ m_expire d <= now.
Proof.
  intros m user now id Hg Hn. unfold get_key_ids. rewrite in_map_iff. replace (now =? 0) with false by (symmetry; apply Z.eqb_neq; lia). replace (0 <? now) with true by (symmetry; apply Z.ltb_lt; lia). split.
  - intros ([k d] & <- & H). cbn [fst]. apply filter_In in H as [Hin H]. cbn [snd] in H. exists d. split; [apply In_mget; [apply msorted_NoDup, Hg|exact Hin]|].
    destruct (str_eqb user (m_user d)); apply Z.leb_le; exact H.
  - intros (d & Ed & He). exists (id, d). split; [reflexivity|]. apply filter_In. split; [apply mget_In; exact Ed|]. cbn [snd]. apply Z.leb_le in He. rewrite He. destruct (str_eqb _ _); reflexivity.
Qed.
Lemma delete_search : forall m user now, same_answers sort rank m (fst (delete_key_command m user now)).
Proof.
  intros m user now. split.
  - intros u id. unfold get_key_command. rewrite delete_meta. reflexivity.
  - assert (L : forall ids eff q found a b, km_meta a = km_meta b ->
      snd (search_loop sort ids eff a q found) = snd (search_loop sort ids eff b q found)).
    { induction ids as [|id ids IH]; intros eff q found a b E; cbn [search_loop]; [reflexivity|]. rewrite E. destruct (mget id (km_meta b)) as [d|]; [|reflexivity].
      destruct (test_a_key sort (m_type d) (m_input d) q) as [[[[bb n] s'] q2]| | | |]; try reflexivity. destruct bb; [destruct eff; [|reflexivity]|]; apply IH; reflexivity. }
    intros u eff q. unfold search_key. assert (E : filter_keys (fst (delete_key_command m user now)) u (ftype q) = filter_keys m u (ftype q)) by (unfold filter_keys; rewrite delete_meta; reflexivity).
    rewrite E. specialize (L (filter_keys m u (ftype q)) eff q [] m (fst (delete_key_command m user now)) (eq_sym (delete_meta m user now))).
    destruct (search_loop sort _ eff m q []) as [[a b] x], (search_loop sort _ eff (fst (delete_key_command m user now)) q []) as [[a' b'] x']. cbn [snd] in *. subst x'. reflexivity.
Qed.
End U.
