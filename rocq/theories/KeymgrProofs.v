From Verif Require Import Base StrMap Dec ByteString ByteStringProofs UInteger Field Policy Driver Parser AttrList Utils Lsss LsssSpec LsssProofs LsssScan LsssRecover LsssUse LsssFinal PolicyUse
  Container ContainerSpec ContainerProofs Keystore Keymgr KeymgrSpec.
From Coq Require Import ZArith List Ascii Bool Lia Permutation Sorted.
Import ListNotations.
Open Scope Z_scope.

Lemma mdel_absent : forall A k (m : smap A), mget k m = None -> mdel k m = m.
Proof.
  intros A k m. induction m as [|[k' v] m IH]; cbn; [reflexivity|]. destruct (str_eqb k k') eqn:E; [discriminate|]. cbn. intro H. f_equal. apply IH, H.
Qed.
Lemma type_eqb_eq : forall a b, type_eqb a b = true <-> a = b.
Proof. intros [] []; cbn; split; congruence. Qed.

Section P.
Context (K : curve) (mktime : tm -> Z * tm) (sort : list (nat * Z) -> list (nat * Z)) (rank : list (str * Z) -> list (str * Z)).
Hypothesis sort_perm : forall l, Permutation (sort l) l.
Hypothesis rank_perm : forall l, Permutation (rank l) l.
Hypothesis rank_sorted : forall l, StronglySorted (fun a b => snd a <= snd b) (rank l).

Definition exec (m : manager) (c : command) : manager :=
  match c with
  | StoreID u id b e ca r => fst (store_with_id K mktime m u id b e ca r)
  | StorePrefix u p b e ca r => fst (store_with_prefix K mktime m u p b e ca r)
  | Search u eff q => fst (fst (search_key sort rank m u eff q))
  | Delete u now => fst (delete_key_command m u now)
  | GetCommand _ _ => m
  | Count u => fst (get_user_key_count m u)
  | SetPass a b c => set_passphrase m a b c
  end.
(** The manager after a history, latest command first. *)
Fixpoint after (latest_first : list command) : manager :=
  match latest_first with [] => new_manager | c :: h => exec (after h) c end.

(** ** Blobs *)
Lemma parse_random : forall blob bytes r r', parse_key_header K blob bytes r = parse_key_header K blob bytes r'.
Proof.
  intros blob bytes r r'. unfold parse_key_header, construct_key. destruct (len blob <? 18); [reflexivity|].
  destruct (unpack blob 0) as [[h i]| | | |]; cbn [bind]; try reflexivity. destruct (18 <=? len h) eqn:El; [|reflexivity].
  destruct (at_ h 0) as [v| | | |]; cbn [bind]; try reflexivity. destruct (at_ h 1) as [a| | | |]; cbn [bind]; try reflexivity.
  destruct (v <=? 170); [|reflexivity]. destruct (get_scheme_id a) as [id| | | |]; try reflexivity.
  destruct (get_subset h 2 16) as [uid| | | |] eqn:Eu; cbn [bind]; try reflexivity.
  assert (Hu : len uid = 16).
  { unfold get_subset in Eu. change ((2 + 16) mod 2 ^ 64) with 18 in Eu. change (16 mod 2 ^ 32) with 16 in Eu. change (2 + 16) with 18 in Eu. rewrite El in Eu.
    assert (E : uid = firstn (Z.to_nat 16) (skipn (Z.to_nat 2) h)) by congruence. rewrite E. apply Z.leb_le in El. unfold len in *. rewrite firstn_length, skipn_length. lia. }
  destruct (if 18 <? len h then get_subset h 18 (len h - 18) else Ok []) as [idn| | | |]; cbn [bind]; try reflexivity.
  destruct (unpack blob i) as [[b j]| | | |]; cbn [bind]; try reflexivity.
  unfold new_key. rewrite Hu. reflexivity.
Qed.
Lemma scheme_nonempty : forall blob r k body, parse_key_header K blob [] r = Ok (k, body) -> blob <> [].
Proof. intros [|c b] r k body H; [discriminate|discriminate]. Qed.
(** An input that came out of a parser, untouched. *)
Definition born (f : finput) : Prop :=
  match f with
  | InPolicy p st => (exists s, create_policy_tree mktime s = Ok (Some p)) /\ st = fresh
  | InAttrs l => exists s, create_attribute_list mktime s = Ok (Some l)
  end.
Lemma input_born : forall k f, get_function_input K mktime k = Ok (Some f) -> born f.
Proof.
  intros k f. unfold get_function_input. destruct (get_scheme_id (k_alg k)); cbn [bind]; try discriminate.
  destruct (existsb _ [CP_WATERS; CP_WATERS_CCA]).
  - destruct (snd (get_component (k_parts k) (L "input"))) as [o| | | |]; cbn [bind]; try discriminate. destruct o as [| | | | | |l|]; [discriminate|discriminate|discriminate|discriminate|discriminate|discriminate| |discriminate].
    intro H. remember (create_attribute_list mktime (compact l)) as x eqn:E. destruct x as [[l'|]| | | |]. injection H as <-. exists (compact l). 
   symmetry. exact E.
   all: discriminate.
  - destruct (existsb _ [KP_GPSW; KP_GPSW_CCA]); [|discriminate].
    destruct (snd (get_component (k_parts k) (L "input"))) as [o| | | |]; cbn [bind]; try discriminate. destruct o as [| | | | |b| |]; [discriminate|discriminate|discriminate|discriminate|discriminate| |discriminate|discriminate].
    destruct (create_policy_tree mktime b) as [[p|]| | | |] eqn:E; cbn [bind]; try discriminate. intros [= <-]. split; [exists b; exact E|reflexivity].
Qed.
Lemma fresh_clean : forall r, clean r fresh.
Proof. intros r q _. split; reflexivity. Qed.
Lemma born_askable : forall f, born f -> askable f.
Proof.
  intros [p st|l]; cbn; [|auto]. intros [(s & E) ->]. apply policy_ready in E as (e & r & _ & _ & _ & _ & Hr & B & _).
  exists r. split; [exact Hr|]. split; [apply (binary_and_or r B)|apply fresh_clean].
Qed.
Lemma read_blob : forall blob random scheme f, read_key K mktime blob random = Ok (Some (scheme, f)) ->
  blob_input K mktime blob f /\ blob <> [] /\ born f.
Proof.
  intros blob random scheme f. unfold read_key. rewrite (parse_random blob [] random []).
  destruct (parse_key_header K blob [] []) as [[k body]| | | |] eqn:E; cbn [bind]; try discriminate.
  destruct (get_scheme_id (k_alg k)); cbn [bind]; try discriminate. destruct (_ =? SCHEME_NONE); [discriminate|].
  destruct (key_load K mktime k body) as [k' [u| | | |]] eqn:El; cbn [bind]; try discriminate. destruct u.
  destruct (get_function_input K mktime k') as [[f'|]| | | |] eqn:Ef; cbn [bind]; try discriminate. intros [= _ <-].
  split; [exists k, body, k'; auto|]. split; [eapply scheme_nonempty; eauto|eapply input_born; eauto].
Qed.
Lemma blob_det : forall blob f f', blob_input K mktime blob f -> blob_input K mktime blob f' -> f = f'.
Proof. intros blob f f' (k & b & k' & E1 & E2 & E3) (k2 & b2 & k2' & F1 & F2 & F3). congruence. Qed.

(** ** What is kept about every entry *)
Definition good_entry (d : meta) : Prop :=
  m_user d <> [] /\ m_type d = ftype (m_input d) /\ askable (m_input d) /\ m_blob d <> [] /\
  exists f, blob_input K mktime (m_blob d) f /\ same_input f (m_input d) /\ born f.
Definition good (m : manager) : Prop := msorted (km_meta m) /\ forall id d, mget id (km_meta m) = Some d -> good_entry d.

(** Entries and managers that differ in the flags of policies only. *)
Definition alike (d d' : meta) : Prop :=
  m_user d' = m_user d /\ m_type d' = m_type d /\ m_blob d' = m_blob d /\ m_expire d' = m_expire d /\ same_input (m_input d) (m_input d').
Definition malike (m m' : manager) : Prop :=
  forall id, match mget id (km_meta m), mget id (km_meta m') with
             | Some d, Some d' => alike d d' | None, None => True | _, _ => False end.
Lemma same_input_refl : forall a, same_input a a. Proof. intros [p st|l]; reflexivity. Qed.
Lemma same_input_trans : forall a b c, same_input a b -> same_input b c -> same_input a c.
Proof. intros [] [] []; cbn; try tauto; congruence. Qed.
Lemma same_input_sym : forall a b, same_input a b -> same_input b a.
Proof. intros [] []; cbn; try tauto; congruence. Qed.
Lemma alike_refl : forall d, alike d d. Proof. intro d. repeat split; try reflexivity. apply same_input_refl. Qed.
Lemma alike_trans : forall a b c, alike a b -> alike b c -> alike a c.
Proof. intros a b c (H1 & H2 & H3 & H4 & H5) (G1 & G2 & G3 & G4 & G5). repeat split; try congruence. eapply same_input_trans; eauto. Qed.
Lemma malike_refl : forall m, malike m m. Proof. intros m id. destruct (mget id (km_meta m)); [apply alike_refl|exact Logic.I]. Qed.
Lemma malike_trans : forall a b c, malike a b -> malike b c -> malike a c.
Proof.
  intros a b c H G id. specialize (H id). specialize (G id).
  destruct (mget id (km_meta a)), (mget id (km_meta b)), (mget id (km_meta c)); try tauto. eapply alike_trans; eauto.
Qed.
Lemma same_ftype : forall a b, same_input a b -> ftype b = ftype a.
Proof. intros [] []; cbn; try tauto; reflexivity. Qed.
Lemma same_compact : forall a b, same_input a b -> fcompact b = fcompact a.
Proof. intros [] []; cbn; try tauto; congruence. Qed.

(** ** Testing a key *)
Definition fitsb (a b : finput) : bool :=
  match a, b with
  | InPolicy p _, InAttrs l | InAttrs l, InPolicy p _ => match proot p with Some r => sat (match_attribute (aattrs l)) r | None => false end
  | _, _ => false
  end.
Definition costof (a b : finput) : Z :=
  match a, b with
  | InPolicy p _, InAttrs l | InAttrs l, InPolicy p _ => match proot p with Some r => cnt sort (aattrs l) r | None => 0 end
  | _, _ => 0
  end.
Lemma fitsb_fits : forall a b, fitsb a b = true <-> fits a b.
Proof.
  intros [p st|l] [q st'|l']; cbn; try (split; [discriminate|tauto]).
  - destruct (proot p) as [r|]; split; [intro H; exists r; auto|intros (x & [= <-] & H); exact H|discriminate|intros (x & H & _); discriminate].
  - destruct (proot q) as [r|]; split; [intro H; exists r; auto|intros (x & [= <-] & H); exact H|discriminate|intros (x & H & _); discriminate].
Qed.
Lemma fitsb_same : forall a a' b b', same_input a a' -> same_input b b' -> fitsb a' b' = fitsb a b /\ costof a' b' = costof a b.
Proof. intros [] [] [] []; cbn; try tauto; intros; subst; split; reflexivity. Qed.
Lemma check_clean : forall l p r st, proot p = Some r -> and_or r = true -> clean r st ->
  exists st', check_if_satisfied sort l p true st = Ok (sat (match_attribute l) r, cnt sort l r, st') /\ clean r st'.
Proof.
  intros l p r st Hr Ha Hc. destruct (check_count sort sort_perm l p r st true Hr Ha Hc) as (st' & E).
  destruct (check_ok sort sort_perm l p r st true Hr Ha Hc) as (n & st2 & E2 & H2). rewrite E in E2. injection E2 as _ <-.
  exists st'. split; [exact E|]. intros x Hx. rewrite (proj1 (H2 eq_refl x) Hx). split; reflexivity.
Qed.
Lemma test_ok : forall s q, ftype s = opposite (ftype q) -> askable s -> askable q ->
  exists s' q', test_a_key sort (ftype s) s q = Ok (fitsb s q, costof s q, s', q') /\
    same_input s s' /\ same_input q q' /\ askable s' /\ askable q'.
Proof.
  intros [p st|l] [q st'|l']; cbn [ftype opposite]; try discriminate; intros _ Hs Hq; cbn [test_a_key ftype fitsb costof askable] in *; unfold get_string_list.
  - destruct Hs as (r & Hr & Ha & Hc). destruct (check_clean (aattrs l') p r st Hr Ha Hc) as (st2 & -> & Hc2). cbn [bind]. rewrite Hr.
    eexists _, _. split; [reflexivity|]. cbn. repeat split; auto. exists r. auto.
  - destruct Hq as (r & Hr & Ha & Hc). destruct (check_clean (aattrs l) q r st' Hr Ha Hc) as (st2 & -> & Hc2). cbn [bind]. rewrite Hr.
    eexists _, _. split; [reflexivity|]. cbn. repeat split; auto. exists r. auto.
Qed.
Lemma reported_cost : forall s q, askable s -> askable q -> fits s q -> forall n, reported sort s q n <-> n = costof s q.
Proof.
  intros [p st|l] [q st'|l']; cbn [fits]; try tauto; intros Hs Hq (r & Hr & Hsat) n; cbn [askable reported costof] in *.
  - destruct Hs as (r0 & Hr0 & Ha & _). rewrite Hr in Hr0. injection Hr0 as <-. destruct (check_clean (aattrs l') p r fresh Hr Ha (fresh_clean r)) as (st2 & E & _).
    rewrite Hsat in E. rewrite E, Hr. split; [intros (x & [= -> _]); reflexivity|intros ->; eauto].
  - destruct Hq as (r0 & Hr0 & Ha & _). rewrite Hr in Hr0. injection Hr0 as <-. destruct (check_clean (aattrs l) q r fresh Hr Ha (fresh_clean r)) as (st2 & E & _).
    rewrite Hsat in E. rewrite E, Hr. split; [intros (x & [= -> _]); reflexivity|intros ->; eauto].
Qed.

(** ** The search loop *)
Definition fits_id (m : manager) (q : finput) (id : str) : bool := match mget id (km_meta m) with Some d => fitsb (m_input d) q | None => false end.
Definition cost_id (m : manager) (q : finput) (id : str) : Z := match mget id (km_meta m) with Some d => costof (m_input d) q | None => 0 end.
Lemma id_same : forall m m' q q' id, malike m m' -> same_input q q' -> fits_id m' q' id = fits_id m q id /\ cost_id m' q' id = cost_id m q id.
Proof.
  intros m m' q q' id H Hq. specialize (H id). unfold fits_id, cost_id. destruct (mget id (km_meta m)) as [d|], (mget id (km_meta m')) as [d'|]; try tauto; auto.
  destruct H as (_ & _ & _ & _ & H). apply fitsb_same; assumption.
Qed.
Lemma good_set : forall m id d s', good m -> mget id (km_meta m) = Some d -> same_input (m_input d) s' -> askable s' ->
  good (with_meta m (mset id (with_input d s') (km_meta m))) /\ malike m (with_meta m (mset id (with_input d s') (km_meta m))).
Proof.
  intros m id d s' [Hs Hg] E Hi Ha. assert (Hd := Hg id d E). split; [split|].
  - cbn [km_meta with_meta]. apply msorted_mset. exact Hs.
  - intros k dk. cbn [km_meta with_meta]. destruct (str_eq_dec k id) as [->|Hne].
    + rewrite mget_mset_same. intros [= <-]. destruct Hd as (H1 & H2 & H3 & H4 & f & H5 & H6 & H7). unfold good_entry. cbn [with_input m_user m_type m_input m_blob].
      split; [exact H1|]. split; [rewrite (same_ftype _ _ Hi); exact H2|]. split; [exact Ha|]. split; [exact H4|].
      exists f. split; [exact H5|]. split; [eapply same_input_trans; eauto|exact H7].
    + rewrite mget_mset_other by assumption. apply Hg.
  - intro k. cbn [km_meta with_meta]. destruct (str_eq_dec k id) as [->|Hne].
    + rewrite E, mget_mset_same. unfold alike. cbn [with_input m_user m_type m_input m_blob m_expire]. auto.
    + rewrite mget_mset_other by assumption. destruct (mget k (km_meta m)); [apply alike_refl|exact Logic.I].
Qed.
Lemma search_loop_ok : forall ids eff m q found, good m -> askable q ->
  (forall id, In id ids -> exists d, mget id (km_meta m) = Some d /\ m_type d = opposite (ftype q)) ->
  exists m' q', good m' /\ malike m m' /\ askable q' /\ same_input q q' /\
    search_loop sort ids eff m q found = (m', q', Ok
      (if (eff : bool) then inr (rev found ++ map (fun id => (id, cost_id m q id)) (filter (fits_id m q) ids))
       else match filter (fits_id m q) ids with [] => inr (rev found) | id :: _ => inl id end)).
Proof.
  induction ids as [|id ids IH]; intros eff m q found Hg Hq Hids; cbn [search_loop].
  - exists m, q. split; [exact Hg|]. split; [apply malike_refl|]. split; [exact Hq|]. split; [apply same_input_refl|]. cbn [filter map]. rewrite app_nil_r. destruct eff; reflexivity.
  - destruct (Hids id (or_introl eq_refl)) as (d & Ed & Et). rewrite Ed. destruct (proj2 Hg id d Ed) as (G1 & G2 & G3 & _).
    destruct (test_ok (m_input d) q) as (s' & q' & Et2 & S1 & S2 & A1 & A2); [congruence|exact G3|exact Hq|]. rewrite G2, Et2.
    destruct (good_set m id d s' Hg Ed S1 A1) as [Hg' Hm']. set (m1 := with_meta m (mset id (with_input d s') (km_meta m))) in *.
    assert (Hids' : forall id0, In id0 ids -> exists d0, mget id0 (km_meta m1) = Some d0 /\ m_type d0 = opposite (ftype q')).
    { intros id0 H0. destruct (Hids id0 (or_intror H0)) as (d0 & E0 & T0). specialize (Hm' id0). rewrite E0 in Hm'. destruct (mget id0 (km_meta m1)) as [d1|]; [|tauto].
      exists d1. split; [reflexivity|]. destruct Hm' as (_ & -> & _). rewrite (same_ftype q q' S2). exact T0. }
    assert (Hf : fits_id m q id = fitsb (m_input d) q) by (unfold fits_id; rewrite Ed; reflexivity).
    assert (Hco : cost_id m q id = costof (m_input d) q) by (unfold cost_id; rewrite Ed; reflexivity).
    assert (F1 : filter (fits_id m1 q') ids = filter (fits_id m q) ids) by (apply filter_ext; intro; apply id_same; assumption).
    assert (F2 : forall l, map (fun id => (id, cost_id m1 q' id)) l = map (fun id => (id, cost_id m q id)) l).
    { intro l. apply map_ext. intro a. destruct (id_same m m1 q q' a Hm' S2) as [_ ->]. reflexivity. }
    cbn [filter]. rewrite Hf. destruct (fitsb (m_input d) q).
    + destruct eff.
      * destruct (IH true m1 q' ((id, costof (m_input d) q) :: found) Hg' A2 Hids') as (m2 & q2 & B1 & B2 & B3 & B4 & E2).
        exists m2, q2. split; [exact B1|]. split; [eapply malike_trans; eauto|]. split; [exact B3|]. split; [eapply same_input_trans; eauto|].
        rewrite E2, F1, F2. cbn [rev map]. rewrite <- app_assoc, Hco. reflexivity.
      * exists m1, q'. auto.
    + destruct (IH eff m1 q' found Hg' A2 Hids') as (m2 & q2 & B1 & B2 & B3 & B4 & E2).
      exists m2, q2. split; [exact B1|]. split; [eapply malike_trans; eauto|]. split; [exact B3|]. split; [eapply same_input_trans; eauto|].
      rewrite E2, F1, F2. reflexivity.
Qed.
Lemma filter_keys_In : forall m user t id, good m -> In id (filter_keys m user t) <->
  user <> [] /\ exists d, mget id (km_meta m) = Some d /\ m_type d = opposite t /\ m_user d = user.
Proof.
  intros m user t id [Hs _]. unfold filter_keys. destruct user as [|c u]; [split; [intros []|intros [H _]; congruence]|]. set (user := c :: u).
  rewrite in_map_iff. split.
  - intros ([k d] & <- & H). apply filter_In in H as [H1 H2]. cbn [fst snd] in *. apply andb_prop in H2 as [H2 H3]. apply type_eqb_eq in H2. apply str_eqb_eq in H3.
    split; [discriminate|]. exists d. split; [apply In_mget; [apply msorted_NoDup; exact Hs|exact H1]|]. auto.
  - intros [_ (d & E & Ht & Hu)]. exists (id, d). split; [reflexivity|]. apply filter_In. split; [apply mget_In; exact E|]. cbn [fst snd].
    rewrite Ht, Hu, str_eqb_refl, andb_true_r. apply type_eqb_eq. reflexivity.
Qed.
Lemma rank_head : forall l e l', rank l = e :: l' -> In e l /\ forall x, In x l -> snd e <= snd x.
Proof.
  intros l e l' E. pose proof (rank_perm l) as P. pose proof (rank_sorted l) as Q. rewrite E in P, Q. split.
  - eapply Permutation_in; [exact P|left; reflexivity].
  - intros x Hx. apply (Permutation_in _ (Permutation_sym P)) in Hx. inversion Q as [|? ? ? F]; subst. destruct Hx as [<-|Hx]; [lia|]. rewrite Forall_forall in F. apply F, Hx.
Qed.
(** What a search answers. *)
Lemma search_ok : forall m user eff q, good m -> askable q ->
  exists m' q' r, search_key sort rank m user eff q = (m', q', Ok r) /\ good m' /\ malike m m' /\ same_input q q' /\ askable q' /\
    ((filter (fits_id m q) (filter_keys m user (ftype q)) = [] /\ r = []) \/
     (In r (filter (fits_id m q) (filter_keys m user (ftype q))) /\
      (eff = true -> forall id, In id (filter (fits_id m q) (filter_keys m user (ftype q))) -> cost_id m q r <= cost_id m q id))).
Proof.
  intros m user eff q Hg Hq. unfold search_key.
  destruct (search_loop_ok (filter_keys m user (ftype q)) eff m q [] Hg Hq) as (m' & q' & B1 & B2 & B3 & B4 & ->).
  { intros id H. apply filter_keys_In in H as (_ & d & E & T & _); [|exact Hg]. eauto. }
  set (l := filter (fits_id m q) (filter_keys m user (ftype q))). cbn [rev app]. exists m', q'. destruct eff.
  - destruct l as [|a l'] eqn:El.
    + exists []. cbn [map bind]. auto 10.
    + cbn [map bind]. destruct (rank ((a, cost_id m q a) :: map (fun id => (id, cost_id m q id)) l')) as [|e t] eqn:Er.
      { exfalso. pose proof (rank_perm ((a, cost_id m q a) :: map (fun id => (id, cost_id m q id)) l')) as P. rewrite Er in P. apply Permutation_nil in P. discriminate. }
      apply rank_head in Er as [H1 H2]. change ((a, cost_id m q a) :: map (fun id => (id, cost_id m q id)) l') with (map (fun id => (id, cost_id m q id)) (a :: l')) in *.
      apply in_map_iff in H1 as (b & <- & Hb). cbn [fst snd] in *. exists b. split; [reflexivity|]. do 4 (split; [assumption|]). right. split; [exact Hb|].
      intros _ id Hid. specialize (H2 (id, cost_id m q id)). cbn [snd] in H2. apply H2. apply in_map_iff. eauto.
  - destruct l as [|a l']; cbn [bind].
    + exists []. auto 10.
    + exists a. split; [reflexivity|]. do 4 (split; [assumption|]). right. split; [left; reflexivity|discriminate].
Qed.

(** ** Stores *)
Lemma good_del : forall m id, good m -> good (with_meta m (mdel id (km_meta m))).
Proof.
  intros m id [Hs Hg]. split; cbn [km_meta with_meta]; [apply msorted_mdel; exact Hs|]. intros k d. destruct (str_eq_dec k id) as [->|Hne].
  - rewrite mget_mdel_same. discriminate.
  - rewrite mget_mdel_other by assumption. apply Hg.
Qed.
Definition entry_of (user blob : str) (expire : Z) (cache : bool) (scheme : Z) (f : finput) : meta :=
  {| m_user := user; m_cached := cache; m_type := ftype f; m_input := f; m_scheme := scheme; m_blob := blob; m_expire := expire |}.
Lemma good_new : forall user blob expire cache random scheme f, user <> [] -> read_key K mktime blob random = Ok (Some (scheme, f)) -> good_entry (entry_of user blob expire cache scheme f).
Proof.
  intros user blob expire cache random scheme f Hu E. apply read_blob in E as (E1 & E2 & E3). unfold good_entry, entry_of. cbn.
  split; [exact Hu|]. split; [reflexivity|]. split; [apply born_askable; exact E3|]. split; [exact E2|]. exists f. split; [exact E1|]. split; [apply same_input_refl|exact E3].
Qed.
(** The possible effects of a store on the entries. *)
Lemma store_cases : forall m user id blob expire cache random,
  let r := store_with_id K mktime m user id blob expire cache random in
  (user = [] /\ r = (m, Exit)) \/
  (user <> [] /\ km_meta (fst r) = mdel id (km_meta m) /\ snd r <> Ok true) \/
  (user <> [] /\ snd r = Ok true /\ exists scheme f, read_key K mktime blob random = Ok (Some (scheme, f)) /\
     has_duplicate (mdel id (km_meta m)) user f = false /\
     km_meta (fst r) = mset id (entry_of user blob expire cache scheme f) (mdel id (km_meta m))).
Proof.
  intros m user id blob expire cache random. cbn zeta. unfold store_with_id. destruct user as [|c u]; [auto|]. right. set (user := c :: u).
  destruct (read_key K mktime blob random) as [[[scheme f]|]| | | |] eqn:E; try (left; cbn; split; [discriminate|]; split; [reflexivity|discriminate]).
  cbn [km_meta with_meta]. destruct (has_duplicate (mdel id (km_meta m)) user f) eqn:D; [left; cbn; split; [discriminate|]; split; [reflexivity|discriminate]|].
  right. cbn [fst snd km_meta with_meta]. split; [discriminate|]. split; [reflexivity|]. exists scheme, f. auto.
Qed.
Lemma store_rest : forall m user id blob expire cache random,
  let m' := fst (store_with_id K mktime m user id blob expire cache random) in
  km_counter m' = km_counter m /\ km_pass m' = km_pass m /\ km_active m' = km_active m /\ km_store m' = km_store m.
Proof.
  intros m user id blob expire cache random. cbn zeta. unfold store_with_id. destruct user; [auto|].
  destruct (read_key K mktime blob random) as [[[scheme f]|]| | | |]; auto. cbn [km_meta with_meta]. destruct (has_duplicate _ _ _); auto.
Qed.
Lemma good_store : forall m user id blob expire cache random, good m -> good (fst (store_with_id K mktime m user id blob expire cache random)).
Proof.
  intros m user id blob expire cache random Hg. pose proof (good_del m id Hg) as [Hs Hd].
  destruct (store_cases m user id blob expire cache random) as [(-> & ->)|[(Hu & E & _)|(Hu & _ & scheme & f & Er & _ & E)]]; [exact Hg| |]; unfold good; rewrite E.
  - split; assumption.
  - split; [apply msorted_mset; exact Hs|]. intros k d. destruct (str_eq_dec k id) as [->|Hne].
    + rewrite mget_mset_same. intros [= <-]. eapply good_new; eauto.
    + rewrite mget_mset_other by assumption. apply Hd.
Qed.
Lemma good_counter : forall m c, good m -> good (with_counter m c). Proof. intros m c H. exact H. Qed.
(** Storing under a prefix is storing under one identifier. *)
Definition prefix_id (m : manager) (user prefix : str) : str := prefix ++ dec (count_at (km_counter m) user).
Lemma count_touch : forall c user, count_at (touch_counter c user) user = count_at c user.
Proof. intros c user. unfold count_at, touch_counter. destruct (mget user c) eqn:E; [rewrite E; reflexivity|]. rewrite mget_mset_same. reflexivity. Qed.
Lemma prefix_cases : forall m user prefix blob expire cache random,
  let m1 := with_counter m (touch_counter (km_counter m) user) in
  let id := prefix_id m user prefix in
  km_meta (fst (store_with_prefix K mktime m user prefix blob expire cache random)) = km_meta (fst (store_with_id K mktime m1 user id blob expire cache random)) /\
  snd (store_with_prefix K mktime m user prefix blob expire cache random) =
    (match snd (store_with_id K mktime m1 user id blob expire cache random) with
     | Ok true => Ok id | Ok false => Ok [] | Throw e => Throw e | UB => UB | Exit => Exit | NoFuel => NoFuel end).
Proof.
  intros m user prefix blob expire cache random. cbn zeta. unfold store_with_prefix, prefix_id. cbn [km_counter with_counter]. rewrite count_touch.
  destruct (store_with_id K mktime _ user _ blob expire cache random) as [m2 [[]| | | |]]; auto.
Qed.
Lemma good_prefix : forall m user prefix blob expire cache random, good m -> good (fst (store_with_prefix K mktime m user prefix blob expire cache random)).
Proof.
  intros m user prefix blob expire cache random Hg. destruct (prefix_cases m user prefix blob expire cache random) as [E _]. unfold good. rewrite E.
  apply good_store. exact Hg.
Qed.
End P.
