(** C125 and C126: texts of error codes, contexts by scheme identifier. *)
From Verif Require Import Base StrMap ByteString UInteger Field Utils Sym Container ContainerSpec ContainerProofs Travel Keystore Scheme SchemeSpec DeliverySpec SchemeStep SchemeCp SchemeKp SchemeUse SchemeSession SchemeTravel SchemeToy NetworkSpec NetworkStore Factory.
From Coq Require Import ZArith List Ascii Bool Lia.
Import ListNotations.
Open Scope Z_scope.

(** ** C125 *)
(** include/abe/zerror.h: the codes the library declares. *)
Definition declared (c : Z) : Prop := c = 0 \/ 2 <= c <= 61 \/ c = 99 \/ c = 100.
Definition nameless (c : Z) : Prop := c = 21 \/ c = 58 \/ c = 100.
Definition no_text : str := L "Unrecognized error code".
Lemma find_fst : forall l c t, find (fun p : Z * str => fst p =? c) l = Some t -> In t l /\ fst t = c.
Proof. intros l c t H. apply find_some in H as [I J]. apply Z.eqb_eq in J. auto. Qed.
Lemma texts_unique : forall c c' t, In (c, t) error_texts -> In (c', t) error_texts -> c = c'.
Proof.
  assert (forallb (fun p => forallb (fun q => implb (str_eqb (snd p) (snd q)) (fst p =? fst q)) error_texts) error_texts = true) as B by (vm_compute; reflexivity).
  intros c c' t H H'. rewrite forallb_forall in B. specialize (B _ H). rewrite forallb_forall in B. specialize (B _ H'). cbn [fst snd] in B. rewrite str_eqb_refl in B. apply Z.eqb_eq. exact B.
Qed.
Lemma default_apart : forall c t, In (c, t) error_texts -> t <> no_text /\ t <> [].
Proof.
  assert (forallb (fun p => negb (str_eqb (snd p) no_text) && negb (str_eqb (snd p) [])) error_texts = true) as B by (vm_compute; reflexivity).
  intros c t H. rewrite forallb_forall in B. specialize (B _ H). cbn [snd] in B. apply andb_true_iff in B as [B1 B2].
  split; intros ->; rewrite str_eqb_refl in *; discriminate.
Qed.
Definition listed (c : Z) : bool := (c =? 0) || ((2 <=? c) && (c <=? 61) && negb (c =? 21) && negb (c =? 58)) || (c =? 99).
Lemma listed_same : forall c, listed c = true <-> exists t, In (c, t) error_texts.
Proof.
  intro c. split.
  - intro H. assert (In c (0 :: 99 :: map Z.of_nat (seq 2 60))) as I.
    { unfold listed in H. apply orb_true_iff in H as [H|H]; [|apply Z.eqb_eq in H; right; left; auto]. apply orb_true_iff in H as [H|H]; [apply Z.eqb_eq in H; left; auto|].
      apply andb_true_iff in H as [H _]. apply andb_true_iff in H as [H _]. apply andb_true_iff in H as [H1 H2]. apply Z.leb_le in H1. apply Z.leb_le in H2. right. right.
      apply in_map_iff. exists (Z.to_nat c). split; [lia|]. apply in_seq. lia. }
    assert (forallb (fun c => implb (listed c) (existsb (fun p => fst p =? c) error_texts)) (0 :: 99 :: map Z.of_nat (seq 2 60)) = true) as B by (vm_compute; reflexivity).
    rewrite forallb_forall in B. specialize (B _ I). rewrite H in B. apply existsb_exists in B as ([c' t] & J & X). cbn in X. apply Z.eqb_eq in X as ->. eauto.
  - intros (t & H). assert (forallb (fun p => listed (fst p)) error_texts = true) as B by (vm_compute; reflexivity). rewrite forallb_forall in B. exact (B _ H).
Qed.
Lemma text_of_listed : forall c, listed c = true -> In (c, error_text c) error_texts.
Proof.
  intros c H. apply listed_same in H as (t & H). unfold error_text. destruct (find (fun p => fst p =? c) error_texts) as [[c' t']|] eqn:F.
  - apply find_fst in F as [I J]. cbn in J. subst c'. exact I.
  - exfalso. apply (find_none _ _ F) in H. cbn in H. rewrite Z.eqb_refl in H. discriminate.
Qed.
Lemma text_of_unlisted : forall c, listed c = false -> error_text c = no_text.
Proof.
  intros c H. unfold error_text. destruct (find (fun p => fst p =? c) error_texts) as [[c' t']|] eqn:F; [|reflexivity].
  apply find_fst in F as [I J]. cbn in J. subst c'. assert (listed c = true) by (apply listed_same; eauto). congruence.
Qed.
Lemma listed_declared : forall c, listed c = true <-> declared c /\ ~ nameless c.
Proof.
  intro c. unfold listed, declared, nameless. rewrite !orb_true_iff, !andb_true_iff, !negb_true_iff, !Z.eqb_eq, !Z.leb_le, !Z.eqb_neq. lia.
Qed.

(** Codes are told apart by their texts; what is not a code gets the default. *)
Theorem C125_own_text : forall c c', declared c -> ~ nameless c -> error_text c <> no_text /\ error_text c <> [] /\ (error_text c = error_text c' -> c = c').
Proof.
  intros c c' D N. assert (listed c = true) as H by (apply listed_declared; auto). pose proof (text_of_listed c H) as I. destruct (default_apart _ _ I) as [A B]. split; [exact A|]. split; [exact B|].
  intro X. destruct (listed c') eqn:H'; [|exfalso; apply A; rewrite X; apply text_of_unlisted; exact H']. pose proof (text_of_listed c' H') as I'. rewrite <- X in I'. exact (texts_unique _ _ _ I I').
Qed.
Print Assumptions C125_own_text.
Theorem C125_others : forall c, ~ declared c -> error_text c = no_text.
Proof. intros c N. apply text_of_unlisted. destruct (listed c) eqn:H; [|reflexivity]. apply listed_declared in H. tauto. Qed.
Print Assumptions C125_others.
(** Three codes were forgotten; one of them is what the library answers. *)
Theorem C125_forgotten_refuted : exists c c', declared c /\ declared c' /\ c <> c' /\ error_text c = error_text c' /\ error_text c = no_text.
Proof. exists 21, 58. unfold declared. repeat split; try lia; vm_compute; reflexivity. Qed.
Print Assumptions C125_forgotten_refuted.
Theorem C125_nameless : forall c, nameless c -> declared c /\ error_text c = no_text.
Proof. intros c [-> | [-> | ->]]; unfold declared; (split; [lia|vm_compute; reflexivity]). Qed.
Print Assumptions C125_nameless.
Example C125_nonvacuous : declared 32 /\ ~ nameless 32 /\ error_text 32 = L "Error occurred during decryption" /\ error_text 37 = L "Error occurred during deserialization" /\ ~ declared 62 /\ ~ declared (-1).
Proof. unfold declared, nameless. repeat split; try lia; vm_compute; reflexivity. Qed.
(** What the stream cipher answers when no associated data was set has no text. *)
Theorem C125_answered_refuted : exists s s' c, set_aad s = (s', Ok c) /\ c <> 0 /\ error_text c = no_text.
Proof. exists (new_stream []). eexists _, _. split; [reflexivity|]. split; [discriminate|vm_compute; reflexivity]. Qed.
Print Assumptions C125_answered_refuted.

(** ** C126 *)
Theorem C126_which : forall id, (exists s, create_scheme_cpa id = Some s) <-> id = 101 \/ id = 102.
Proof.
  intro id. unfold create_scheme_cpa, create_context_abe, CP_WATERS, KP_GPSW. split.
  - intros (s & H). destruct (Z.eqb_spec id 101); [auto|]. destruct (Z.eqb_spec id 102); [auto|discriminate].
  - intros [-> | ->]; cbn; eauto.
Qed.
Print Assumptions C126_which.
Lemma created : forall id s, create_scheme_cpa id = Some s -> id = alg_of s.
Proof.
  intros id s. unfold create_scheme_cpa, create_context_abe. destruct (Z.eqb_spec id CP_WATERS); [intro H; injection H as <-; assumption|]. destruct (Z.eqb_spec id KP_GPSW); [intro H; injection H as <-; assumption|discriminate].
Qed.
Section Made.
Context (E : engine) (HE : lawful E) (HK : curve_ok (e_curve E)).
Notation K := (e_curve E).
Notation sound := (Travel.sound (K:=K) (e_mktime E)).
Lemma made_public : forall sch mpk msk w, seen E KEY_PUBLIC mpk (w_store E w) = None -> seen E KEY_SECRET mpk (w_store E w) = None -> seen E KEY_PUBLIC msk (w_store E w) = None -> seen E KEY_SECRET msk (w_store E w) = None ->
  exists w' kp ks, generate_params E sch mpk msk w = (w', Ok 0) /\ seen E KEY_PUBLIC mpk (w_store E w') = Some kp /\ seen E KEY_SECRET msk (w_store E w') = Some ks /\
    stamped E (alg_of sch) mpk kp /\ stamped E (alg_of sch) msk ks /\ sound (k_parts kp) /\ k_parts kp <> [].
Proof.
  intros sch mpk msk w N1 N2 N3 N4. destruct (both_new_seen E mpk msk w) as (w1 & b & Eb & A & Vb). rewrite N1, N2, N3, N4 in Vb. subst b.
  destruct sch.
  - destruct (cp_generate_runs E HE mpk msk w w1 Eb) as (P & kp & ks & off & X1 & (Y & _) & X3 & X4 & X5 & X6 & _). eexists _, kp, ks. split; [exact X1|]. cbn [w_store set_off set_store].
    rewrite !seen_add. cbn [same_class]. rewrite !str_eqb_refl. cbn [andb]. repeat (split; [first [assumption|reflexivity]|]). exact (part_some _ _ _ Y).
  - destruct (kp_generate_runs E HE mpk msk w w1 Eb) as (P & kp & ks & off & X1 & (Y & _) & X3 & X4 & X5 & X6 & _). eexists _, kp, ks. split; [exact X1|]. cbn [w_store set_off set_store].
    rewrite !seen_add. cbn [same_class]. rewrite !str_eqb_refl. cbn [andb]. repeat (split; [first [assumption|reflexivity]|]). exact (part_some _ _ _ Y).
Qed.
Lemma other_refused : forall sch sch' k blob, fit E sch k -> k_parts k <> [] -> light E (k_parts k) -> sch <> sch' -> key_export k = Ok blob ->
  forall name c w, exists w', load_key E sch' name blob c w = (w', Ok 30) /\ w_store E w' = w_store E w.
Proof.
  intros sch sch' k blob [(nm & Hi & A1 & A2 & A3 & A4) [S1 S2]] Hne Hl Hd Ex name c w.
  assert (known_scheme (k_alg k)) as Ha by (rewrite A1; unfold known_scheme; destruct sch; cbn; tauto).
  destruct (key_back K (e_mktime E) k [] (e_bytes E (w_off E w) 16) HK S1 S2 Hne Hl ltac:(lia) Ha A3 ltac:(congruence)) as (b & k0 & body & k' & E1 & E2 & E3 & E4 & _).
  rewrite Ex in E1. injection E1 as <-. unfold load_key, random_bytes. erewrite andthen_ok by apply tick_ok. rewrite E2. erewrite andthen_ok by apply lift_ok. cbv beta iota.
  assert (k_alg k0 = alg_of sch) as X.
  { unfold key_load in E3. destruct (deserialize K (e_mktime E) (k_parts k0) body) as [p r]. injection E3 as <- _. cbn [k_alg] in E4. congruence. }
  rewrite X. replace (alg_of sch =? alg_of sch') with false by (destruct sch, sch'; try congruence; reflexivity). cbn [negb]. eexists. split; [reflexivity|reflexivity].
Qed.
End Made.
(** A context asked for by identifier makes keys marked with that identifier; every
    context of the same identifier takes them, and no other does. *)
Theorem C126_keys : forall E id id' sch sch' mpk msk w, lawful E -> curve_ok (e_curve E) -> create_scheme_cpa id = Some sch -> create_scheme_cpa id' = Some sch' ->
  seen E KEY_PUBLIC mpk (w_store E w) = None -> seen E KEY_SECRET mpk (w_store E w) = None -> seen E KEY_PUBLIC msk (w_store E w) = None -> seen E KEY_SECRET msk (w_store E w) = None -> len mpk < 2 ^ 31 ->
  exists w' kp ks, generate_params E sch mpk msk w = (w', Ok 0) /\ seen E KEY_PUBLIC mpk (w_store E w') = Some kp /\ seen E KEY_SECRET msk (w_store E w') = Some ks /\
    k_alg kp = id /\ k_alg ks = id /\
    (light E (k_parts kp) -> exists blob, key_export kp = Ok blob /\ forall name c v, exists v',
      if id =? id' then load_key E sch' name blob c v = (v', Ok 0) /\ seen E c name (w_store E v') <> None
      else load_key E sch' name blob c v = (v', Ok 30) /\ w_store E v' = w_store E v).
Proof.
  intros E id id' sch sch' mpk msk w HE HK C C' N1 N2 N3 N4 Lm. apply created in C. apply created in C'.
  destruct (made_public E HE sch mpk msk w N1 N2 N3 N4) as (w' & kp & ks & X1 & X2 & X3 & X4 & X5 & X6 & X7). exists w', kp, ks.
  split; [exact X1|]. split; [exact X2|]. split; [exact X3|]. split; [destruct X4; congruence|]. split; [destruct X5; congruence|]. intro Hl.
  assert (fit E sch kp) as F by (split; [exists mpk; auto|exact X6]). destruct (key_travels E sch kp HK F X7 Hl) as (blob & Ex & T). exists blob. split; [exact Ex|]. intros name c v.
  destruct (Z.eqb_spec id id') as [e|n].
  - assert (sch' = sch) as -> by (destruct sch, sch'; try reflexivity; subst; discriminate). destruct (T name c v) as (v' & k' & Y1 & Y2 & _). exists v'. split; [exact Y1|]. rewrite Y2, seen_add.
    replace (same_class c c) with true by (destruct c; reflexivity). rewrite str_eqb_refl. discriminate.
  - assert (sch <> sch') as Hd by congruence. destruct (other_refused E HK sch sch' kp blob F X7 Hl Hd Ex name c v) as (v' & Y1 & Y2). eauto.
Qed.
Print Assumptions C126_keys.
Example C126_nonvacuous : lawful toy_engine /\ curve_ok (e_curve toy_engine) /\ create_scheme_cpa 101 = Some CP /\ create_scheme_cpa 102 = Some KP /\ create_scheme_cpa 201 = None /\
  (forall c n, seen toy_engine c n (w_store toy_engine (start toy_engine (new_store, 0%nat) (no_ct toy_engine))) = None).
Proof. split; [exact toy_lawful|]. split; [exact toy_curve_ok|]. do 3 (split; [reflexivity|]). intros c n. destruct c; reflexivity. Qed.
