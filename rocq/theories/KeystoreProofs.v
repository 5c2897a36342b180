From Verif Require Import Base StrMap ByteString UInteger Field Policy Driver Parser AttrList Utils Container Keystore KeystoreSpec.
From Coq Require Import ZArith List Ascii Bool Lia.
Import ListNotations.
Open Scope Z_scope.

Section P.
Context {A : Type}.

(** What the maps answer: null when the name is missing. *)
Definition look (m : smap (option A)) (name : str) : option A := match mget name m with Some v => v | None => None end.

Definition step (s : store A) (x : call A) : store A :=
  match x with
  | AddKey n p c => add_key s n p c
  | GetKey n => fst (get_key s n)
  | GetPublic n => fst (get_public_key s n)
  | GetSecret n => fst (get_secret_key s n)
  | CheckSecret n => s
  | DeleteKey n => fst (fst (delete_key s n))
  | ValidateID n => fst (validate_new_params_id s n)
  end.
(** The store after a history, latest call first. *)
Fixpoint after (latest_first : list (call A)) : store A :=
  match latest_first with [] => new_store | x :: h => step (after h) x end.

Lemma look_index : forall m n k, look (fst (index m n)) k = look m k.
Proof.
  intros m n k. unfold index, look. destruct (mget n m) eqn:E; cbn; [reflexivity|].
  destruct (str_eq_dec k n) as [->|H]; [rewrite mget_mset_same, E; reflexivity|rewrite mget_mset_other by assumption; reflexivity].
Qed.
Lemma snd_index : forall m n, snd (index m n) = look m n.
Proof. intros m n. unfold index, look. destruct (mget n m); reflexivity. Qed.
Lemma look_mset : forall m n v k, look (mset n v m) k = if str_eqb k n then v else look m k.
Proof.
  intros m n v k. unfold look. destruct (str_eqb k n) eqn:E.
  - apply str_eqb_eq in E. subst. rewrite mget_mset_same. reflexivity.
  - rewrite mget_mset_other; [reflexivity|]. intros ->. rewrite str_eqb_refl in E. discriminate.
Qed.
Lemma look_mdel : forall m n k, look (mdel n m) k = if str_eqb k n then None else look m k.
Proof.
  intros m n k. unfold look. destruct (str_eqb k n) eqn:E.
  - apply str_eqb_eq in E. subst. rewrite mget_mdel_same. reflexivity.
  - rewrite mget_mdel_other; [reflexivity|]. intros ->. rewrite str_eqb_refl in E. discriminate.
Qed.

Lemma get_public_spec : forall s n, (forall k, look (pub_keys (fst (get_public_key s n))) k = look (pub_keys s) k) /\
  sec_keys (fst (get_public_key s n)) = sec_keys s /\ snd (get_public_key s n) = look (pub_keys s) n.
Proof.
  intros s n. unfold get_public_key. pose proof (look_index (pub_keys s) n) as H. pose proof (snd_index (pub_keys s) n) as H2.
  destruct (index (pub_keys s) n) as [m v]. cbn in *. auto.
Qed.
Lemma get_secret_spec : forall s n, (forall k, look (sec_keys (fst (get_secret_key s n))) k = look (sec_keys s) k) /\
  pub_keys (fst (get_secret_key s n)) = pub_keys s /\ snd (get_secret_key s n) = look (sec_keys s) n.
Proof.
  intros s n. unfold get_secret_key. pose proof (look_index (sec_keys s) n) as H. pose proof (snd_index (sec_keys s) n) as H2.
  destruct (index (sec_keys s) n) as [m v]. cbn in *. auto.
Qed.
Lemma get_key_spec : forall s n, (forall k, look (pub_keys (fst (get_key s n))) k = look (pub_keys s) k) /\
  (forall k, look (sec_keys (fst (get_key s n))) k = look (sec_keys s) k) /\
  snd (get_key s n) = match look (pub_keys s) n with Some x => Some x | None => look (sec_keys s) n end.
Proof.
  intros s n. unfold get_key. destruct (get_public_spec s n) as (H1 & H2 & H3).
  destruct (get_public_key s n) as [s1 v]. cbn [fst snd] in *. subst v. destruct (look (pub_keys s) n) eqn:E; cbn [fst snd].
  - rewrite H2. auto.
  - destruct (get_secret_spec s1 n) as (G1 & G2 & G3). rewrite G2, G3, H2 in *. auto.
Qed.
Lemma delete_key_spec : forall s n,
  (forall k, look (pub_keys (fst (fst (delete_key s n)))) k = if str_eqb k n then None else look (pub_keys s) k) /\
  (forall k, look (sec_keys (fst (fst (delete_key s n)))) k = if str_eqb k n then None else look (sec_keys s) k) /\
  snd (delete_key s n) = 0.
Proof.
  intros s n. unfold delete_key. destruct (get_key_spec s n) as (H1 & H2 & H3).
  destruct (get_key s n) as [s1 v]. cbn [fst snd] in *. destruct v as [a|].
  - cbn [fst snd pub_keys sec_keys].
    assert (G : forall m k, look (if mmem n m then mdel n m else m) k = if str_eqb k n then None else look m k).
    { intros m k. unfold mmem. destruct (mget n m) eqn:E; [apply look_mdel|]. destruct (str_eqb k n) eqn:Ek; [|reflexivity].
      apply str_eqb_eq in Ek. subst. unfold look. rewrite E. reflexivity. }
    split; [intro k; rewrite G, H1; reflexivity|]. split; [intro k; rewrite G, H2; reflexivity|].
    destruct (mmem n (pub_keys s1)) eqn:E1; [reflexivity|]. destruct (mmem n (sec_keys s1)) eqn:E2; [reflexivity|]. exfalso.
    unfold mmem in *. assert (look (pub_keys s1) n = None). { unfold look. destruct (mget n (pub_keys s1)); [discriminate|reflexivity]. }
    assert (look (sec_keys s1) n = None). { unfold look. destruct (mget n (sec_keys s1)); [discriminate|reflexivity]. }
    rewrite H1 in H. rewrite H2 in H0. rewrite H, H0 in H3. discriminate.
  - cbn [fst snd].
    assert (P : look (pub_keys s) n = None) by (destruct (look (pub_keys s) n); [discriminate|reflexivity]). rewrite P in H3.
    split; [|split; [|reflexivity]]; intro k; [rewrite H1|rewrite H2]; destruct (str_eqb k n) eqn:E; try reflexivity; apply str_eqb_eq in E; subst; auto.
Qed.

Definition class_map (c : key_class) (s : store A) : smap (option A) := match c with KEY_PUBLIC => pub_keys s | KEY_SECRET => sec_keys s end.
Lemma class_map_after : forall c h name, look (class_map c (after h)) name = last_added c name h.
Proof.
  intros c h name. induction h as [|x h IH]; [destruct c; reflexivity|].
  cbn [after last_added]. destruct x as [n p c'|n|n|n|n|n|n]; cbn [step].
  - destruct c, c'; cbn [same_class class_map add_key pub_keys sec_keys] in *; rewrite ?andb_true_r, ?andb_false_r; try exact IH;
    rewrite look_mset; destruct (str_eqb name n); auto.
  - destruct (get_key_spec (after h) n) as (H1 & H2 & _). destruct c; cbn [class_map] in *; rewrite ?H1, ?H2; exact IH.
  - destruct (get_public_spec (after h) n) as (H1 & H2 & _). destruct c; cbn [class_map] in *; rewrite ?H1, ?H2; exact IH.
  - destruct (get_secret_spec (after h) n) as (H1 & H2 & _). destruct c; cbn [class_map] in *; rewrite ?H1, ?H2; exact IH.
  - exact IH.
  - destruct (delete_key_spec (after h) n) as (H1 & H2 & _). destruct c; cbn [class_map] in *; rewrite ?H1, ?H2; destruct (str_eqb name n); auto.
  - unfold validate_new_params_id. destruct (get_key_spec (after h) n) as (H1 & H2 & _). destruct (get_key (after h) n) as [s1 v]. cbn [fst] in *.
    destruct c; cbn [class_map] in *; rewrite ?H1, ?H2; exact IH.
Qed.

(** checkSecretKey: what it answers at all times. *)
Lemma look_mem : forall m n, look m n <> None -> mmem n m = true.
Proof. intros m n. unfold look, mmem. destruct (mget n m); congruence. Qed.
Lemma mmem_index : forall (m : smap (option A)) n k, mmem k (fst (index m n)) = (str_eqb k n || mmem k m)%bool.
Proof.
  intros m n k. unfold index, mmem. destruct (mget n m) eqn:E; cbn.
  - destruct (str_eqb k n) eqn:Ek; [|reflexivity]. apply str_eqb_eq in Ek. subst. rewrite E. reflexivity.
  - destruct (str_eqb k n) eqn:Ek; [apply str_eqb_eq in Ek; subst; rewrite mget_mset_same; reflexivity|].
    rewrite mget_mset_other; [reflexivity|]. intros ->. rewrite str_eqb_refl in Ek. discriminate.
Qed.
(** Without looking the name up, checkSecretKey is right as long as no null
    pointer is added. *)
Lemma mmem_get_other : forall (s : store A) n k, str_eqb k n = false -> mmem k (sec_keys (fst (get_key s n))) = mmem k (sec_keys s).
Proof.
  intros s n k E. unfold get_key, get_public_key, get_secret_key. destruct (index (pub_keys s) n) as [m [v|]]; [reflexivity|].
  cbn [sec_keys]. pose proof (mmem_index (sec_keys s) n k) as H. destruct (index (sec_keys s) n) as [m' v']. cbn in *. rewrite H, E. reflexivity.
Qed.
Lemma mmem_mset : forall (m : smap (option A)) n v k, mmem k (mset n v m) = (str_eqb k n || mmem k m)%bool.
Proof.
  intros m n v k. unfold mmem. destruct (str_eqb k n) eqn:E.
  - apply str_eqb_eq in E. subst. rewrite mget_mset_same. reflexivity.
  - rewrite mget_mset_other; [reflexivity|]. intros ->. rewrite str_eqb_refl in E. discriminate.
Qed.
Lemma mmem_mdel_other : forall (m : smap (option A)) n k, str_eqb k n = false -> mmem k (mdel n m) = mmem k m.
Proof. intros m n k E. unfold mmem. rewrite mget_mdel_other; [reflexivity|]. intros ->. rewrite str_eqb_refl in E. discriminate. Qed.
Lemma check_exact : forall name h, (forall x, In x h -> looks_up name x = false) -> (forall c, ~ In (AddKey name None c) h) ->
  (check_secret_key (after h) name = true <-> last_added KEY_SECRET name h <> None).
Proof.
  intros name h. unfold check_secret_key. induction h as [|x h IH]; intros Hl Hn; cbn [after last_added]; [cbn; split; [discriminate|congruence]|].
  assert (IH' := IH (fun y Hy => Hl y (or_intror Hy)) (fun c H => Hn c (or_intror H))). clear IH.
  specialize (Hl x (or_introl eq_refl)). destruct x as [n p c'|n|n|n|n|n|n]; cbn [step looks_up] in *.
  - destruct c'; cbn [same_class add_key sec_keys]; rewrite ?andb_false_r, ?andb_true_r; [exact IH'|].
    rewrite mmem_mset. destruct (str_eqb name n) eqn:E; cbn [orb]; [|exact IH'].
    apply str_eqb_eq in E. subst n. split; [intros _ ->; eapply Hn; left; reflexivity|reflexivity].
  - rewrite mmem_get_other by assumption. exact IH'.
  - destruct (get_public_spec (after h) n) as (_ & -> & _). exact IH'.
  - unfold get_secret_key. pose proof (mmem_index (sec_keys (after h)) n name) as H. destruct (index (sec_keys (after h)) n) as [m v]. cbn [fst sec_keys] in *. rewrite H, Hl. exact IH'.
  - exact IH'.
  - rewrite Hl. unfold delete_key. pose proof (mmem_get_other (after h) n name Hl) as H. destruct (get_key (after h) n) as [s1 [v|]]; cbn [fst sec_keys] in *; [|rewrite H; exact IH'].
    destruct (mmem n (sec_keys s1)); [rewrite mmem_mdel_other by assumption|]; rewrite H; exact IH'.
  - unfold validate_new_params_id. pose proof (mmem_get_other (after h) n name Hl) as H. destruct (get_key (after h) n). cbn [fst] in *. rewrite H. exact IH'.
Qed.
Lemma mmem_get : forall (s : store A) n k, mmem k (sec_keys (fst (get_key s n))) =
  ((str_eqb k n && match look (pub_keys s) n with Some _ => false | None => true end) || mmem k (sec_keys s))%bool.
Proof.
  intros s n k. unfold get_key, get_public_key, get_secret_key. rewrite <- snd_index.
  destruct (index (pub_keys s) n) as [m [v|]]; cbn [snd]; [rewrite andb_false_r; reflexivity|].
  cbn [sec_keys]. rewrite andb_true_r. pose proof (mmem_index (sec_keys s) n k) as H. destruct (index (sec_keys s) n) as [m' v']. exact H.
Qed.
Lemma check_entered : forall name h, check_secret_key (after h) name = entered name h.
Proof.
  intros name h. unfold check_secret_key. induction h as [|x h IH]; cbn [after entered]; [reflexivity|].
  rewrite <- !class_map_after. cbn [class_map]. destruct x as [n p c'|n|n|n|n|n|n]; cbn [step].
  - destruct c'; cbn [add_key sec_keys]; [exact IH|]. rewrite mmem_mset, IH. reflexivity.
  - rewrite mmem_get, IH. destruct (str_eqb name n) eqn:E; [|reflexivity]. apply str_eqb_eq in E. subst. destruct (look (pub_keys (after h)) n); reflexivity.
  - destruct (get_public_spec (after h) n) as (_ & -> & _). exact IH.
  - unfold get_secret_key. pose proof (mmem_index (sec_keys (after h)) n name) as H. destruct (index (sec_keys (after h)) n) as [m v]. cbn [fst sec_keys] in *. rewrite H, IH. reflexivity.
  - exact IH.
  - unfold delete_key. pose proof (get_key_spec (after h) n) as (_ & _ & H3). pose proof (mmem_get (after h) n name) as H.
    destruct (get_key (after h) n) as [s1 v]. cbn [fst snd] in *. rewrite IH in H.
    destruct (str_eqb name n) eqn:E; cbn [andb] in H.
    + apply str_eqb_eq in E. subst n. destruct v as [a|]; cbn [fst sec_keys].
      * destruct (mmem name (sec_keys s1)) eqn:E1; [unfold mmem; rewrite mget_mdel_same|rewrite E1];
          destruct (look (pub_keys (after h)) name), (look (sec_keys (after h)) name); try reflexivity; discriminate.
      * destruct (look (pub_keys (after h)) name); [discriminate|]. rewrite <- H3. exact H.
    + destruct v as [a|]; cbn [fst sec_keys]; [|exact H]. destruct (mmem n (sec_keys s1)); [rewrite mmem_mdel_other by assumption|]; exact H.
  - unfold validate_new_params_id. pose proof (mmem_get (after h) n name) as H. destruct (get_key (after h) n). cbn [fst] in *. rewrite H, IH.
    destruct (str_eqb name n) eqn:E; [|reflexivity]. apply str_eqb_eq in E. subst. destruct (look (pub_keys (after h)) n); reflexivity.
Qed.
End P.
