(** Using the schemes: policies and lists from texts, who can decrypt, what later
    calls and transport leave of keys and ciphertexts. *)
From Verif Require Import Base StrMap ByteString ByteStringProofs UInteger Field FieldProofs Policy Driver Parser AttrList Utils Kdf KdfProofs Lsss LsssSpec LsssRecover LsssUse LsssFinal PolicySyntax Lexical PolicyMeaning ParserTop CreatePolicy ParserFinal PolicyUse NoThrow SchemeRows Container ContainerSpec ContainerProofs Keystore Scheme SchemeSpec SchemeStep SchemeCp SchemeKp SchemeFrame PropUtil.
From Coq Require Import ZArith Znumtheory List Ascii Bool Lia Permutation.
Import ListNotations.
Open Scope Z_scope.

Section Use.
Context (E : engine).
Notation K := (e_curve E).
Notation short := (short_label E).

Lemma usable_from_text : forall s q e, create_policy_tree (e_mktime E) s = Ok (Some q) -> reads e s -> well e = true -> tidy_names e = true -> no_percent_names e = true ->
  exists r, usable E q r.
Proof.
  intros s q e H Re We Ty Np. destruct (policy_ready (e_mktime E) s q H) as (e' & r & R' & W & Nm & D & Hr & B & T & I1 & I2).
  assert (e' = e) as -> by (eapply reads_unique; eassumption).
  exists r. split; [exact Hr|]. split; [exact B|]. split; [apply I1; exact Ty|]. split; [apply I2; assumption|]. rewrite T. exact H.
Qed.
Lemma short_names : forall l, (forall a, In a l -> len a <= 16) -> no_collision short l.
Proof. intros l H a b Ia Ib X. unfold short_label in X. rewrite !C70_short in X by auto. exact X. Qed.

(** ** Who can decrypt *)
Lemma recover_says : (forall l, Permutation (e_sort E l) l) -> forall s q l, create_policy_tree (e_mktime E) s = Ok (Some q) ->
  exists r rows, proot q = Some r /\ recover E (Some q) (Some l) = Ok (sat (match_attribute (aattrs l)) r, rows).
Proof.
  intros Hs s q l H. destruct (policy_ready (e_mktime E) s q H) as (e' & r & R' & W & Nm & D & Hr & B & T & I1 & I2).
  destruct (binary_and_or r B) as [Ha _].
  destruct (recover_iff_lemma (order K) (e_sort E) (aattrs l) lsss_new q r fresh Hs Hr Ha (SchemeRows.clean_fresh r)) as (co & st & Er & _).
  exists r, (l_rows co). split; [exact Hr|]. unfold recover. rewrite Er. reflexivity.
Qed.

Lemma andthen_inv : forall A B (m : code E A) (f : A -> code E B) w w2 b, andthen E m f w = (w2, Ok b) -> exists a w1, m w = (w1, Ok a) /\ f a w1 = (w2, Ok b).
Proof. intros A B m f w w2 b H. unfold andthen in H. destruct (m w) as [w1 [a|x| | |]]; try discriminate. eauto. Qed.
Lemma catch_zero : forall (m : code E Z) w w', catch_code E m w = (w', Ok 0) -> m w = (w', Ok 0) \/ m w = (w', Throw (OpenABEError 0)).
Proof. intros m w w' H. unfold catch_code in H. destruct (m w) as [w1 [a|[]| | |]]; try discriminate; injection H as -> ->; auto. Qed.
Lemma secret_inv : forall id w w' o, secret_key E id w = (w', Ok o) -> (forall k, o = Some k -> w' = w /\ holds E KEY_SECRET id k w) /\ w_ct E w' = w_ct E w.
Proof.
  intros id w w' o H. unfold secret_key, get_secret_key, index in H. unfold holds. cbn [class_map].
  destruct (mget id (sec_keys (w_store E w))) as [v|] eqn:Em; injection H as <- <-; split; try reflexivity; intros k X; [|discriminate].
  subst v. split; [destruct w as [[] ? ? ?]; reflexivity|]. first [exact Em|reflexivity|congruence].
Qed.
Lemma key_part_inv : forall A (cast : zobj K -> option A) c id name w w' v, key_part E cast c id name w = (w', Ok v) ->
  w' = w /\ exists k o, holds E c id k w /\ part E (k_parts k) name o /\ v = cast o.
Proof.
  intros A cast c id name w w' v H. unfold key_part in H. apply andthen_inv in H as (o & w1 & H1 & H2). unfold ret in H2. injection H2 as <- <-.
  unfold key_component in H1. destruct (mget id (class_map E c (w_store E w))) as [[k|]|] eqn:Em; try discriminate.
  destruct (mget name (k_parts k)) as [[x|]|] eqn:Ep; [rewrite (get_present _ _ _ _ Ep) in H1|rewrite (get_null _ _ _ Ep) in H1; discriminate|rewrite (get_missing _ _ _ Ep) in H1; discriminate].
  rewrite with_parts_same, change_same, set_store_same in H1 by exact Em. injection H1 as <- <-. split; [reflexivity|]. exists k, x. auto.
Qed.
Lemma ct_part_inv : forall A (cast : zobj K -> option A) name w w' v, ct_part E cast name w = (w', Ok v) ->
  w' = w /\ exists o, part E (ct_parts (w_ct E w)) name o /\ v = cast o.
Proof.
  intros A cast name w w' v H. pose proof H as H0. unfold ct_part in H. apply andthen_inv in H as (o & w1 & H1 & H2). unfold ret in H2. injection H2 as <- <-.
  unfold ct_component in H1. destruct (mget name (ct_parts (w_ct E w))) as [[x|]|] eqn:Ep; [|rewrite (get_null _ _ _ Ep) in H1; discriminate|rewrite (get_missing _ _ _ Ep) in H1; discriminate].
  rewrite (ct_part_ok E _ cast name x w Ep) in H0. injection H0 as <- <-. rewrite (get_present _ _ _ _ Ep) in H1. injection H1 as _ <-. split; [reflexivity|]. eauto.
Qed.
Lemma assert_inv : forall A (o : option A) w w' a, assert_notnull E o w = (w', Ok a) -> o = Some a /\ w' = w.
Proof. intros A [x|] w w' a H; [injection H as <- <-; auto|discriminate]. Qed.
Lemma lift_inv : forall A (r : res A) w w' a, lift E r w = (w', Ok a) -> r = Ok a /\ w' = w.
Proof. intros A r w w' a H. injection H as <- ->. auto. Qed.
Lemma as_attrs_inv : forall o l, as_attrs E o = Some l -> o = OAttrs l.
Proof. intros o y H. destruct o; try discriminate. injection H as <-. reflexivity. Qed.
Lemma as_bytes_inv : forall o b, as_bytes E o = Some b -> o = OBytes b.
Proof. intros o y H. destruct o; try discriminate. injection H as <-. reflexivity. Qed.

Definition decrypt_ready (sch : scheme) (kid : str) (w : world E) (s : str) (l : attrlist) : Prop :=
  match sch with
  | CP => (exists k, holds E KEY_SECRET kid k w /\ part E (k_parts k) (L "input") (OAttrs l)) /\ part E (ct_parts (w_ct E w)) (L "policy") (OBytes s)
  | KP => (exists k, holds E KEY_SECRET kid k w /\ part E (k_parts k) (L "input") (OBytes s)) /\ part E (ct_parts (w_ct E w)) (L "attributes") (OAttrs l)
  end.

Lemma denied : (forall l, Permutation (e_sort E l) l) -> forall sch mpk kid w s l q r, decrypt_ready sch kid w s l ->
  create_policy_tree (e_mktime E) s = Ok (Some q) -> proot q = Some r -> sat (match_attribute (aattrs l)) r = false ->
  decrypt E sch mpk kid w = (set_sym E w [], Ok (32, [])).
Proof.
  intros Hs sch mpk kid w s l q r D Hq Hr Hsat. destruct (recover_says Hs s q l Hq) as (r' & rows & Hr' & Er). rewrite Hr in Hr'. injection Hr' as <-. rewrite Hsat in Er.
  assert (decrypt_kem E sch mpk kid 32 (set_sym E w []) = (set_sym E w [], Ok 32)) as Ek.
  { destruct sch; cbn [decrypt_kem]; destruct D as [(k & Hk & Hp) Hc];
    assert (holds E KEY_SECRET kid k (set_sym E w [])) as Hk' by exact Hk.
    - unfold cp_decrypt_kem, catch_code. do 2 step.
      erewrite andthen_ok by (eapply key_part_ok; [exact Hk'|exact Hp]). erewrite andthen_ok by (apply ct_part_ok; exact Hc). cbn [as_attrs as_bytes].
      step. rewrite Hq. step. rewrite Er. step. reflexivity.
    - unfold kp_decrypt_kem, catch_code. do 2 step.
      erewrite andthen_ok by (eapply key_part_ok; [exact Hk'|exact Hp]). cbn [as_bytes]. step. rewrite Hq. step.
      erewrite andthen_ok by (apply ct_part_ok; exact Hc). cbn [as_attrs]. rewrite Er. step. reflexivity. }
  unfold decrypt, decrypt_body. erewrite andthen_ok by reflexivity. erewrite andthen_ok by exact Ek. reflexivity.
Qed.


(** What may follow a step that must not stop with code 0. *)
Definition zero_stop {A} (x : world E * res A) : Prop := exists w', x = (w', Throw (OpenABEError 0)).
Lemma andthen_zero : forall A (m : code E A) (f : A -> code E Z) w w', (~ zero_stop (m w)) ->
  andthen E m f w = (w', Ok 0) \/ andthen E m f w = (w', Throw (OpenABEError 0)) ->
  exists a w1, m w = (w1, Ok a) /\ (f a w1 = (w', Ok 0) \/ f a w1 = (w', Throw (OpenABEError 0))).
Proof.
  intros A m f w w' N H. unfold andthen in H. unfold zero_stop in N. destruct (m w) as [w1 r] eqn:Em. destruct r as [a|x| | |].
  - exists a, w1. auto.
  - exfalso. destruct H as [H|H]; [discriminate|]. injection H as -> ->. apply N. eauto.
  - exfalso. destruct H; discriminate.
  - exfalso. destruct H; discriminate.
  - exfalso. destruct H; discriminate.
Qed.
Lemma nz_secret : forall id w, ~ zero_stop (secret_key E id w).
Proof. intros id w (w' & H). unfold secret_key in H. destruct (get_secret_key _ _). discriminate. Qed.
Lemma nz_assert : forall A (o : option A) w, ~ zero_stop (assert_notnull E o w).
Proof. intros A [a|] w (w' & H); discriminate. Qed.
Lemma nz_component : forall (c : container K) n, snd (get_component c n) <> Throw (OpenABEError 0).
Proof. intros c n. unfold get_component, index. destruct (mget n c) as [[v|]|]; discriminate. Qed.
Lemma nz_key_part : forall A (cast : zobj K -> option A) c id n w, ~ zero_stop (key_part E cast c id n w).
Proof.
  intros A cast c id n w (w' & H). unfold key_part, andthen, key_component in H. destruct (mget id _) as [[k|]|]; try discriminate.
  pose proof (nz_component (k_parts k) n) as N. destruct (get_component (k_parts k) n) as [p r]. cbn [snd] in N. destruct r; try discriminate. injection H as _ ->. congruence.
Qed.
Lemma nz_ct_part : forall A (cast : zobj K -> option A) n w, ~ zero_stop (ct_part E cast n w).
Proof.
  intros A cast n w (w' & H). unfold ct_part, andthen, ct_component in H.
  pose proof (nz_component (ct_parts (w_ct E w)) n) as N. destruct (get_component (ct_parts (w_ct E w)) n) as [p r]. cbn [snd] in N. destruct r; try discriminate. injection H as _ ->. congruence.
Qed.
Lemma nz_policy : forall s w, ~ zero_stop (lift E (create_policy_tree (e_mktime E) s) w).
Proof. intros s w (w' & H). pose proof (calm_policy (e_mktime E) s) as C. unfold lift in H. injection H as _ H. rewrite H in C. exact C. Qed.
Lemma nz_recover : (forall l, Permutation (e_sort E l) l) -> forall s q l w, create_policy_tree (e_mktime E) s = Ok q -> ~ zero_stop (lift E (recover E q l) w).
Proof.
  intros Hs s q l w Hq (w' & H). unfold lift in H. injection H as _ H. destruct q as [q|]; [|discriminate]. destruct l as [l|]; [|discriminate].
  destruct (recover_says Hs s q l Hq) as (r & rows & _ & Er). rewrite Er in H. discriminate.
Qed.

Lemma allowed_kem : (forall l, Permutation (e_sort E l) l) -> forall sch mpk kid n w w', decrypt_kem E sch mpk kid n w = (w', Ok 0) ->
  exists s l q r, decrypt_ready sch kid w s l /\ create_policy_tree (e_mktime E) s = Ok (Some q) /\ proot q = Some r /\ sat (match_attribute (aattrs l)) r = true.
Proof.
  intros Hs sch mpk kid n w w' H. destruct sch; cbn [decrypt_kem] in H; unfold cp_decrypt_kem, kp_decrypt_kem in H; apply catch_zero in H;
  apply andthen_zero in H as (dec & w1 & H1 & H); [|apply nz_secret| |apply nz_secret];
  apply andthen_zero in H as (k & w2 & H2 & H); [|apply nz_assert| |apply nz_assert];
  apply assert_inv in H2 as [-> ->]; apply secret_inv in H1 as [H1 _]; destruct (H1 k eq_refl) as [-> Hk]; clear H1.
  - apply andthen_zero in H as (l & w3 & H3 & H); [|apply nz_key_part]. apply key_part_inv in H3 as (-> & k' & o & Hk' & Hp & ->).
    unfold holds in Hk, Hk'. rewrite Hk in Hk'. injection Hk' as <-.
    apply andthen_zero in H as (pol0 & w4 & H4 & H); [|apply nz_ct_part]. apply ct_part_inv in H4 as (-> & o4 & Hc & ->).
    apply andthen_zero in H as (s & w5 & H5 & H); [|apply nz_assert]. apply assert_inv in H5 as [H5 ->]. apply as_bytes_inv in H5 as ->.
    apply andthen_zero in H as (q & w6 & H6 & H); [|apply nz_policy]. apply lift_inv in H6 as [H6 ->].
    apply andthen_zero in H as ([ok rows] & w7 & H7 & H); [|eapply nz_recover; eassumption]. apply lift_inv in H7 as [H7 ->].
    destruct q as [q|]; [|discriminate]. destruct (as_attrs E o) as [l|] eqn:Eo; [|discriminate]. apply as_attrs_inv in Eo as ->.
    destruct (recover_says Hs s q l H6) as (r & rows' & Hr & Er). rewrite H7 in Er. injection Er as -> _.
    exists s, l, q, r. split; [split; [exists k; split; [exact Hk|exact Hp]|exact Hc]|]. split; [exact H6|]. split; [exact Hr|].
    destruct (sat (match_attribute (aattrs l)) r); [reflexivity|]. exfalso. cbn [negb] in H. unfold throw in H. destruct H; discriminate.
  - apply andthen_zero in H as (pol0 & w3 & H3 & H); [|apply nz_key_part]. apply key_part_inv in H3 as (-> & k' & o & Hk' & Hp & ->).
    unfold holds in Hk, Hk'. rewrite Hk in Hk'. injection Hk' as <-.
    apply andthen_zero in H as (s & w5 & H5 & H); [|apply nz_assert]. apply assert_inv in H5 as [H5 ->]. apply as_bytes_inv in H5 as ->.
    apply andthen_zero in H as (q & w6 & H6 & H); [|apply nz_policy]. apply lift_inv in H6 as [H6 ->].
    apply andthen_zero in H as (l & w4 & H4 & H); [|apply nz_ct_part]. apply ct_part_inv in H4 as (-> & o4 & Hc & ->).
    apply andthen_zero in H as ([ok rows] & w7 & H7 & H); [|eapply nz_recover; eassumption]. apply lift_inv in H7 as [H7 ->].
    destruct q as [q|]; [|discriminate]. destruct (as_attrs E o4) as [l|] eqn:Eo; [|discriminate]. apply as_attrs_inv in Eo as ->.
    destruct (recover_says Hs s q l H6) as (r & rows' & Hr & Er). rewrite H7 in Er. injection Er as -> _.
    exists s, l, q, r. split; [split; [exists k; split; [exact Hk|exact Hp]|exact Hc]|]. split; [exact H6|]. split; [exact Hr|].
    destruct (sat (match_attribute (aattrs l)) r); [reflexivity|]. exfalso. cbn [negb] in H. unfold throw in H. destruct H; discriminate.
Qed.
Lemma allowed : (forall l, Permutation (e_sort E l) l) -> forall sch mpk kid w w' pt, decrypt E sch mpk kid w = (w', Ok (0, pt)) ->
  exists s l q r, decrypt_ready sch kid w s l /\ create_policy_tree (e_mktime E) s = Ok (Some q) /\ proot q = Some r /\ sat (match_attribute (aattrs l)) r = true.
Proof.
  intros Hs sch mpk kid w w' pt H. assert (exists w2, decrypt_kem E sch mpk kid 32 (set_sym E w []) = (w2, Ok 0)) as (w2 & Hk).
  { unfold decrypt, decrypt_body in H. unfold fresh_sym in H. unfold andthen at 1 in H. unfold andthen at 1 in H.
    destruct (decrypt_kem E sch mpk kid 32 (set_sym E w [])) as [w2 r] eqn:Ek. destruct r as [c|x| | |]; try discriminate.
    - destruct (Z.eqb_spec c 0) as [->|N]; [eauto|]. cbn [negb] in H. unfold throw in H. injection H as _ -> _. congruence.
    - destruct sch; cbn [decrypt_kem] in Ek; unfold cp_decrypt_kem, kp_decrypt_kem, catch_code in Ek;
        match type of Ek with (match ?m with _ => _ end) = _ => destruct m as [w3 [c|y| | |]]; try discriminate; destruct y; try discriminate; injection Ek as <- <-; discriminate end. }
  destruct (allowed_kem Hs sch mpk kid 32 _ _ Hk) as (s & l & q & r & D & R). exists s, l, q, r. split; [|exact R]. destruct sch; exact D.
Qed.
Lemma decrypt_empty : forall sch mpk kid w w' c pt, decrypt E sch mpk kid w = (w', Ok (c, pt)) -> c <> 0 -> pt = [].
Proof.
  intros sch mpk kid w w' c pt H N. unfold decrypt in H. destruct (decrypt_body E sch mpk kid w) as [w2 [a|[]| | |]]; try discriminate.
  - injection H as _ <- _. congruence.
  - injection H as _ _ <-. reflexivity.
Qed.

(** ** What is carried over *)
Definition carried (c c' : container K) : Prop := forall n o, part E c n o -> exists o', part E c' n o' /\ (o' = o \/ same_value o o').
Lemma carried_trans : forall a b d, carried a b -> (forall n o, part E b n o -> part E d n o) -> carried a d.
Proof. intros a b d H G n o P. destruct (H n o P) as (o' & P' & R). exists o'. auto. Qed.
Lemma same_key_carried : forall k k', same_key E k k' -> carried (k_parts k) (k_parts k').
Proof. intros k k' (_ & _ & _ & _ & _ & H) n o P. exists o. split; [apply H; exact P|auto]. Qed.
Lemma same_content_carried : forall c c', same_content c c' -> carried c c'.
Proof. intros c c' [_ H] n o P. destruct (H n o P) as (o' & P' & R). exists o'. auto. Qed.
Lemma carried_g1 : forall c c' n x, carried c c' -> part E c n (OG1 x) -> part E c' n (OG1 x).
Proof. intros c c' n x H P. destruct (H n _ P) as (o' & P' & [-> | R]); [exact P'|]. destruct o'; try contradiction. cbn in R. subst. exact P'. Qed.
Lemma carried_g2 : forall c c' n x, carried c c' -> part E c n (OG2 x) -> part E c' n (OG2 x).
Proof. intros c c' n x H P. destruct (H n _ P) as (o' & P' & [-> | R]); [exact P'|]. destruct o'; try contradiction. cbn in R. subst. exact P'. Qed.
Lemma carried_gt : forall c c' n x, carried c c' -> part E c n (OGt x) -> part E c' n (OGt x).
Proof. intros c c' n x H P. destruct (H n _ P) as (o' & P' & [-> | R]); [exact P'|]. destruct o'; try contradiction. cbn in R. subst. exact P'. Qed.
Lemma carried_bytes : forall c c' n x, carried c c' -> part E c n (OBytes x) -> part E c' n (OBytes x).
Proof. intros c c' n x H P. destruct (H n _ P) as (o' & P' & [-> | R]); [exact P'|]. destruct o'; try contradiction. cbn in R. subst. exact P'. Qed.
Lemma carried_zp : forall c c' n z, carried c c' -> part E c n (OZp z) -> exists z', part E c' n (OZp z') /\ zv z' = zv z.
Proof. intros c c' n x H P. destruct (H n _ P) as (o' & P' & [-> | R]); [eauto|]. destruct o'; try contradiction. cbn in R. eexists. split; [exact P'|]. auto. Qed.
Lemma carried_attrs : forall c c' n l, carried c c' -> part E c n (OAttrs l) -> exists l', part E c' n (OAttrs l') /\ forall a, In a (aattrs l') <-> In a (aattrs l).
Proof. intros c c' n x H P. destruct (H n _ P) as (o' & P' & [-> | R]); [eexists; split; [exact P'|reflexivity]|]. destruct o'; try contradiction. cbn in R. eexists. split; [exact P'|]. apply R. Qed.

Lemma cp_public_carried : forall P c c', carried c c' -> cp_public E P c -> cp_public E P c'.
Proof. intros P c c' H (A & B & C & D & F). repeat split; eauto using carried_g1, carried_g2, carried_gt, carried_bytes. Qed.
Lemma cp_master_carried : forall P c c', carried c c' -> cp_master E P c -> cp_master E P c'.
Proof. intros P c c' H ((z & A & Az) & B). split; [|eauto using carried_g2]. destruct (carried_zp _ _ _ _ H A) as (z' & A' & Ez). exists z'. split; [exact A'|congruence]. Qed.
Lemma cp_user_carried : forall P l c c', carried c c' -> cp_user E P l c -> cp_user E P l c'.
Proof.
  intros P l c c' H (t & l0 & A & B & C & D & F). destruct (carried_attrs _ _ _ _ H A) as (l1 & A' & B'). exists t, l1. split; [exact A'|]. split; [intro a; rewrite B', B; reflexivity|].
  split; [eauto using carried_g2|]. split; [eauto using carried_g2|]. intros a Ia. eauto using carried_g1.
Qed.
Lemma cp_sealed_carried : forall P q pt c c', carried c c' -> cp_sealed E P q pt c -> cp_sealed E P q pt c'.
Proof.
  intros P q pt c c' H (s & sh & off & off' & A & B & C & D & F & G). exists s, sh, off, off'. split; [exact A|]. split; [exact B|]. split; [eauto using carried_bytes|]. split; [eauto using carried_g1|]. split.
  - intros u lab e I. destruct (F u lab e I) as (r & F1 & F2). exists r. eauto using carried_g1, carried_g2.
  - destruct G as (m & b & G1 & G2 & G3). exists m, b. eauto using carried_bytes.
Qed.
Lemma kp_public_carried : forall P c c', carried c c' -> kp_public E P c -> kp_public E P c'.
Proof. intros P c c' H (A & B & C & D). repeat split; eauto using carried_g1, carried_g2, carried_gt, carried_bytes. Qed.
Lemma kp_master_carried : forall P c c', carried c c' -> kp_master E P c -> kp_master E P c'.
Proof. intros P c c' H (R & z & A & Az). split; [exact R|]. destruct (carried_zp _ _ _ _ H A) as (z' & A' & Ez). exists z'. split; [exact A'|congruence]. Qed.
Lemma kp_user_carried : forall P q c c', carried c c' -> kp_user E P q c -> kp_user E P q c'.
Proof.
  intros P q c c' H (sh & off & off' & A & B & C & F). exists sh, off, off'. split; [exact A|]. split; [exact B|]. split; [eauto using carried_bytes|].
  intros u lab e I. destruct (F u lab e I) as (r & F1 & F2). exists r. eauto using carried_g1, carried_g2.
Qed.
Lemma kp_sealed_carried : forall P l pt c c', carried c c' -> kp_sealed E P l pt c -> kp_sealed E P l pt c'.
Proof.
  intros P l pt c c' H (t & l0 & A & B & C & D & G). destruct (carried_attrs _ _ _ _ H A) as (l1 & A' & B'). exists t, l1. split; [exact A'|]. split; [intro a; rewrite B', B; reflexivity|].
  split; [eauto using carried_g2|]. split; [intros a Ia; eauto using carried_g1|]. destruct G as (m & b & G1 & G2 & G3). exists m, b. eauto using carried_bytes.
Qed.
Lemma steady_carried : forall c id s s' k, steady E c id s s' -> has E c id k s -> exists k', has E c id k' s' /\ carried (k_parts k) (k_parts k').
Proof. intros c id s s' k H Hk. destruct (H k Hk) as (k' & H1 & H2). exists k'. split; [exact H1|]. apply same_key_carried. exact H2. Qed.
End Use.
