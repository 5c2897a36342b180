(** The contexts answer as the ideal world does. *)
From Verif Require Import Base StrMap ByteString ByteStringProofs UInteger Field FieldProofs Policy Driver Parser AttrList Utils Kdf KdfProofs Lsss LsssSpec LsssRecover LsssUse LsssFinal SchemeRows PolicySyntax Lexical PolicyMeaning AttrMeaning PrintParse PolicyUse Container ContainerSpec ContainerProofs Travel Keystore Scheme SchemeSpec DeliverySpec SchemeStep SchemeCp SchemeKp SchemeFrame SchemeUse SchemeFirm SchemeKeep SchemeSession SchemeTravel PropScheme NetworkSpec Network NetworkStore.
From Coq Require Import ZArith Znumtheory List Ascii Bool Lia Permutation.
Import ListNotations.
Open Scope Z_scope.

(** Documents a party may use. *)
Definition readable (E : engine) (d : doc) : Prop :=
  match d with
  | Rule e s => text_of (ptoks e) s /\ well e = true /\ tidy_names e = true /\ no_percent_names e = true /\ len s < 2 ^ 31 /\
      exists q, create_policy_tree (e_mktime E) s = Ok (Some q) /\ no_collision (short_label E) (row_names q)
  | Traits a t => text_of (atoks a) t /\
      exists l, create_attribute_list (e_mktime E) t = Ok (Some l) /\ no_collision (short_label E) (aattrs l) /\ len (compact l) < 2 ^ 31
  end.
Fixpoint permitted (E : engine) (sch : scheme) (st : ideal) (x : place E) (os : list op) : Prop :=
  match os with
  | [] => True
  | o :: os => allowed (e_mktime E) (readable E) st o /\ small E x o /\
      permitted E sch (fst (ideal_step sch (e_mktime E) st o)) (fst (perform E sch x o)) os
  end.

Section Refine.
Context (E : engine) (HE : lawful E) (HK : curve_ok (e_curve E)) (sch : scheme).
Notation K := (e_curve E).
Notation sound := (sound (K:=K) (e_mktime E)).
Notation place := (place E).
Definition ct_fit (ct : ciphertext K) : Prop := sound (ct_parts ct) /\ ct_version ct = 170 /\ ct_alg ct = alg_of sch /\ len (ct_uid ct) = 16.
Context (Par : Type) (pub mas : Par -> container K -> Prop) (usr : Par -> doc -> container K -> Prop) (sea : Par -> doc -> str -> container K -> Prop)
  (Cp : forall P c c', carried E c c' -> pub P c -> pub P c') (Cu : forall P d c c', carried E c c' -> usr P d c -> usr P d c') (Cs : forall P d pt c c', carried E c c' -> sea P d pt c -> sea P d pt c')
  (Np : forall P c, pub P c -> c <> []) (Nu : forall P d c, usr P d c -> c <> []) (Ns : forall P d pt c, sea P d pt c -> c <> [])
  (Gen : forall mpk msk w w1, both_new E mpk msk w = (w1, Ok true) ->
     exists P kp ks off, generate_params E sch mpk msk w = (set_off E (set_store E w1 (add_key (add_key (w_store E w1) mpk (Some kp) KEY_PUBLIC) msk (Some ks) KEY_SECRET)) off, Ok 0) /\
       pub P (k_parts kp) /\ mas P (k_parts ks) /\ stamped E (alg_of sch) mpk kp /\ sound (k_parts kp))
  (Key : forall P d inp id mpk msk kp ks w, holds E KEY_PUBLIC mpk kp w -> holds E KEY_SECRET msk ks w -> pub P (k_parts kp) -> mas P (k_parts ks) ->
     readable E d -> for_key sch d = true -> read_doc E d = Some inp ->
     exists dec off, keygen E sch inp id mpk msk w = (set_off E (set_store E w (add_key (w_store E w) id (Some dec) KEY_SECRET)) off, Ok 0) /\ usr P d (k_parts dec) /\
       stamped E (alg_of sch) id dec /\ sound (k_parts dec))
  (Enc : forall P d inp mpk kp pt w, holds E KEY_PUBLIC mpk kp w -> pub P (k_parts kp) -> readable E d -> for_message sch d = true -> read_doc E d = Some inp -> len pt < 2147483616 -> w_ct E w = no_ct E ->
     exists w', encrypt E sch mpk inp pt w = (w', Ok 0) /\ w_store E w' = w_store E w /\ sea P d pt (ct_parts (w_ct E w')) /\ ct_fit (w_ct E w'))
  (Dec : forall P P' d d' pt id k w mpk, holds E KEY_SECRET id k w -> usr P d (k_parts k) -> sea P' d' pt (ct_parts (w_ct E w)) -> decided (e_mktime E) d d' ->
     exists w' r, decrypt E sch mpk id w = (w', r) /\ w_store E w' = w_store E w /\
       (granted (e_mktime E) d d' = false -> r = Ok (32, []) /\ w_ct E w' = w_ct E w) /\
       (granted (e_mktime E) d d' = true -> P = P' -> r = Ok (0, pt) /\ w_ct E w' = w_ct E w)).

Definition fact_ok (Pa : nat -> Par) (b : nat) (f : standing) (k : key K) : Prop :=
  match f with
  | Params n => (n < b)%nat /\ pub (Pa n) (k_parts k) /\ fit E sch k
  | Master n => (n < b)%nat /\ mas (Pa n) (k_parts k)
  | Right n d => (n < b)%nat /\ usr (Pa n) d (k_parts k) /\ fit E sch k
  end.
Definition fact_blob Pa b (f : standing) (blob : str) : Prop :=
  forall id c w, exists w' k', load_key E sch id blob c w = (w', Ok 0) /\ w_store E w' = add_key (w_store E w) id (Some k') c /\ fact_ok Pa b f k'.
Definition letter Pa b (m : nat * doc * str) (ct : ciphertext K) : Prop :=
  let '(n, d, pt) := m in (n < b)%nat /\ sea (Pa n) d pt (ct_parts ct) /\ ct_fit ct.
Record agree Pa (st : ideal) (x : place) : Prop := {
  ag_keys : forall i c id, match keys st i c id with Some f => class_of f = c /\ exists k, seen E c id (p_stores E x i) = Some k /\ fact_ok Pa (founded st) f k | None => seen E c id (p_stores E x i) = None end;
  ag_mail : Forall2 (letter Pa (founded st)) (mail st) (p_mail E x);
  ag_parcels : Forall2 (fact_blob Pa (founded st)) (parcels st) (p_parcels E x)
}.
Lemma agree_empty : forall Pa, agree Pa nobody (empty_place E).
Proof. intro Pa. split; [|constructor|constructor]. intros i c id. cbn. destruct c; reflexivity. Qed.
Lemma fact_mono : forall Pa Pa' b b' f k, (forall n, (n < b)%nat -> Pa' n = Pa n) -> (b <= b')%nat -> fact_ok Pa b f k -> fact_ok Pa' b' f k.
Proof. intros Pa Pa' b b' f k H L F. destruct f; cbn [fact_ok] in *; destruct F as (F1 & F2); rewrite H by exact F1; split; auto; lia. Qed.
Lemma letter_mono : forall Pa Pa' b b' m ct, (forall n, (n < b)%nat -> Pa' n = Pa n) -> (b <= b')%nat -> letter Pa b m ct -> letter Pa' b' m ct.
Proof. intros Pa Pa' b b' [[n d] pt] ct H L (F1 & F2). cbn [letter]. rewrite H by exact F1. split; auto; lia. Qed.
Lemma blob_mono : forall Pa Pa' b b' f blob, (forall n, (n < b)%nat -> Pa' n = Pa n) -> (b <= b')%nat -> fact_blob Pa b f blob -> fact_blob Pa' b' f blob.
Proof. intros Pa Pa' b b' f blob H L F id c w. destruct (F id c w) as (w' & k' & A & B & C). exists w', k'. split; [exact A|]. split; [exact B|]. eapply fact_mono; eauto. Qed.
Lemma Forall2_weaken : forall A B (P Q : A -> B -> Prop) l l', (forall a b, P a b -> Q a b) -> Forall2 P l l' -> Forall2 Q l l'.
Proof. intros A B P Q l l' H F. induction F; constructor; auto. Qed.
Lemma Forall2_nth : forall A B (P : A -> B -> Prop) l l', Forall2 P l l' -> forall j a, nth_error l j = Some a -> exists b, nth_error l' j = Some b /\ P a b.
Proof. intros A B P l l' F. induction F as [|x y l l' R F IH]; intros [|j] a H; cbn in *; try discriminate; [injection H as <-; eauto|apply IH; exact H]. Qed.
Lemma set_nth_same : forall A (l : list A) j v, nth_error l j = Some v -> set_nth l j v = l.
Proof. intros A l. induction l as [|x l IH]; intros [|j] v H; cbn in *; try discriminate; [congruence|rewrite IH by exact H; reflexivity]. Qed.

(** ** What a call does to its party's store *)
Lemma agree_still : forall Pa st x i w, agree Pa st x -> alike_stores E (p_stores E x i) (w_store E w) -> agree Pa st (after E x i w).
Proof.
  intros Pa st x i w [A1 A2 A3] H. split; [|exact A2|exact A3]. intros i' c id. specialize (A1 i' c id). cbn [after p_stores]. unfold upd. destruct (Nat.eqb i i') eqn:Ei; [|exact A1].
  apply Nat.eqb_eq in Ei as <-. rewrite (H c id). exact A1.
Qed.
Lemma agree_put : forall Pa st x i w c id f k, agree Pa st x ->
  (forall c' id', seen E c' id' (w_store E w) = if same_class c c' && str_eqb id id' then Some k else seen E c' id' (p_stores E x i)) -> class_of f = c -> fact_ok Pa (founded st) f k ->
  agree Pa {| keys := put (keys st) i c id (Some f); founded := founded st; mail := mail st; parcels := parcels st |} (after E x i w).
Proof.
  intros Pa st x i w c id f k [A1 A2 A3] H Hc F. split; [|exact A2|exact A3]. intros i' c' id'. specialize (A1 i' c' id'). cbn [after p_stores keys founded]. unfold upd, put.
  destruct (Nat.eqb i i') eqn:Ei; [|exact A1]. apply Nat.eqb_eq in Ei as <-. rewrite H. cbn [andb]. destruct (same_class c c' && str_eqb id id') eqn:Ec; [|exact A1].
  split; [|eauto]. apply andb_true_iff in Ec as [Ec _]. destruct c, c'; try discriminate; exact Hc.
Qed.
Lemma agree_letter : forall Pa st x m ct, agree Pa st x -> letter Pa (founded st) m ct ->
  agree Pa {| keys := keys st; founded := founded st; mail := mail st ++ [m]; parcels := parcels st |} (with_mail E x (p_mail E x ++ [ct])).
Proof. intros Pa st x m ct [A1 A2 A3] H. split; [exact A1| |exact A3]. cbn. apply Forall2_app; [exact A2|]. constructor; [exact H|constructor]. Qed.
Lemma agree_parcel : forall Pa st x f b, agree Pa st x -> fact_blob Pa (founded st) f b ->
  agree Pa {| keys := keys st; founded := founded st; mail := mail st; parcels := parcels st ++ [f] |} (with_parcels E x (p_parcels E x ++ [b])).
Proof. intros Pa st x f b [A1 A2 A3] H. split; [exact A1|exact A2|]. cbn. apply Forall2_app; [exact A3|]. constructor; [exact H|constructor]. Qed.
Lemma known : forall Pa st x i c id, agree Pa st x -> forall f, keys st i c id = Some f -> class_of f = c /\ exists k, seen E c id (p_stores E x i) = Some k /\ fact_ok Pa (founded st) f k.
Proof. intros Pa st x i c id [A _ _] f H. specialize (A i c id). rewrite H in A. exact A. Qed.
Lemma unknown : forall Pa st x i c id, agree Pa st x -> keys st i c id = None -> seen E c id (p_stores E x i) = None.
Proof. intros Pa st x i c id [A _ _] H. specialize (A i c id). rewrite H in A. exact A. Qed.
Lemma seen_none : forall Pa st x i c id, agree Pa st x -> (seen E c id (p_stores E x i) = None <-> keys st i c id = None).
Proof.
  intros Pa st x i c id A. split; [|eapply unknown; eauto]. intro H. destruct (keys st i c id) as [f|] eqn:Ek; [|reflexivity]. destruct (known _ _ _ _ _ _ A f Ek) as (_ & k & X & _). congruence.
Qed.
Lemma read_kind : forall d inp, read_doc E d = Some inp -> (for_key sch d = true -> takes (key_takes sch) inp) /\ (for_key sch d = false -> ~ takes (key_takes sch) inp) /\
  (for_message sch d = true -> takes (negb (key_takes sch)) inp) /\ (for_message sch d = false -> ~ takes (negb (key_takes sch)) inp).
Proof.
  intros d inp H. destruct d as [e s|a t]; cbn [read_doc] in H.
  - destruct (create_policy_tree (e_mktime E) s) as [[q|]| | | |]; try discriminate. injection H as <-. destruct sch; cbn; repeat split; congruence.
  - destruct (create_attribute_list (e_mktime E) t) as [[q|]| | | |]; try discriminate. injection H as <-. destruct sch; cbn; repeat split; congruence.
Qed.
Lemma readable_read : forall d, readable E d -> exists inp, read_doc E d = Some inp.
Proof. intros [e s|a t] H; cbn [readable read_doc] in *; [destruct H as (_ & _ & _ & _ & _ & q & -> & _)|destruct H as (_ & l & -> & _)]; eauto. Qed.

Definition goes_on (st : ideal) (x : place) (o : op) : Prop :=
  exists Pa', agree Pa' (fst (ideal_step sch (e_mktime E) st o)) (fst (perform E sch x o)) /\ meets (snd (ideal_step sch (e_mktime E) st o)) (snd (perform E sch x o)).

Lemma step_found : forall Pa st x i mpk msk, agree Pa st x -> allowed (e_mktime E) (readable E) st (Found i mpk msk) -> goes_on st x (Found i mpk msk).
Proof.
  intros Pa st x i mpk msk A [Lp Ls]. unfold goes_on. cbn [ideal_step perform].
  destruct (both_new_seen E mpk msk (at_party E x i (no_ct E))) as (w1 & b & Eb & Al & Hb). cbn [at_party w_store] in Al, Hb.
  pose proof (seen_none Pa st x i KEY_PUBLIC mpk A) as S1. pose proof (seen_none Pa st x i KEY_SECRET mpk A) as S2. pose proof (seen_none Pa st x i KEY_PUBLIC msk A) as S3. pose proof (seen_none Pa st x i KEY_SECRET msk A) as S4.
  destruct b.
  - destruct (seen E KEY_PUBLIC mpk (p_stores E x i)) eqn:X1; [discriminate|]. destruct (seen E KEY_SECRET mpk (p_stores E x i)) eqn:X2; [discriminate|].
    destruct (seen E KEY_PUBLIC msk (p_stores E x i)) eqn:X3; [discriminate|]. destruct (seen E KEY_SECRET msk (p_stores E x i)) eqn:X4; [discriminate|].
    rewrite (proj1 S1 eq_refl), (proj1 S2 eq_refl), (proj1 S3 eq_refl), (proj1 S4 eq_refl).
    destruct (Gen mpk msk _ w1 Eb) as (P & kp & ks & off & Eg & Pp & Pm & St & So). rewrite Eg. cbn [fst snd told meets].
    set (Pa' := fun n => if Nat.eqb n (founded st) then P else Pa n). exists Pa'. split; [|reflexivity].
    assert (forall n, (n < founded st)%nat -> Pa' n = Pa n) as Hold by (intros n L; unfold Pa'; destruct (Nat.eqb_spec n (founded st)); [lia|reflexivity]).
    assert (Pa' (founded st) = P) as Hnew by (unfold Pa'; rewrite Nat.eqb_refl; reflexivity).
    destruct A as [A1 A2 A3]. split.
    + intros i' c id. specialize (A1 i' c id). cbn [after p_stores keys founded w_store set_off set_store]. unfold upd, put. destruct (Nat.eqb i i') eqn:Ei.
      2: { cbn [andb]. destruct (keys st i' c id); [|exact A1]. destruct A1 as (B1 & k & B2 & B3). split; [exact B1|]. exists k. split; [exact B2|]. eapply fact_mono; [exact Hold| |exact B3]. lia. }
      apply Nat.eqb_eq in Ei as <-. rewrite !seen_add. cbn [andb]. rewrite (Al c id).
      destruct (same_class KEY_SECRET c && str_eqb msk id) eqn:E1.
      { apply andb_true_iff in E1 as [E1 _]. split; [destruct c; [discriminate|reflexivity]|]. exists ks. split; [reflexivity|]. cbn [fact_ok]. rewrite Hnew. split; [lia|exact Pm]. }
      destruct (same_class KEY_PUBLIC c && str_eqb mpk id) eqn:E2.
      { apply andb_true_iff in E2 as [E2 _]. split; [destruct c; [reflexivity|discriminate]|]. exists kp. split; [reflexivity|]. cbn [fact_ok]. rewrite Hnew. split; [lia|]. split; [exact Pp|]. split; [exists mpk; auto|exact So]. }
      destruct (keys st i c id); [|exact A1]. destruct A1 as (B1 & k & B2 & B3). split; [exact B1|]. exists k. split; [exact B2|]. eapply fact_mono; [exact Hold| |exact B3]. lia.
    + cbn. eapply Forall2_weaken; [|exact A2]. intros m ct. apply letter_mono; [exact Hold|lia].
    + cbn. eapply Forall2_weaken; [|exact A3]. intros f bl. apply blob_mono; [exact Hold|lia].
  - assert (generate_params E sch mpk msk (at_party E x i (no_ct E)) = (w1, Ok 17)) as -> by (destruct sch; cbn [generate_params]; unfold cp_generate_params, kp_generate_params, catch_code; erewrite andthen_ok by exact Eb; reflexivity).
    cbn [fst snd told]. exists Pa.
    assert ((match keys st i KEY_PUBLIC mpk, keys st i KEY_SECRET mpk, keys st i KEY_PUBLIC msk, keys st i KEY_SECRET msk with
      | None, None, None, None => ({| keys := put (put (keys st) i KEY_PUBLIC mpk (Some (Params (founded st)))) i KEY_SECRET msk (Some (Master (founded st))); founded := S (founded st); mail := mail st; parcels := parcels st |}, Some (Code 0))
      | _, _, _, _ => (st, Some (Code 17)) end) = (st, Some (Code 17))) as ->.
    { destruct (keys st i KEY_PUBLIC mpk); [reflexivity|]. destruct (keys st i KEY_SECRET mpk); [reflexivity|]. destruct (keys st i KEY_PUBLIC msk); [reflexivity|]. destruct (keys st i KEY_SECRET msk); [reflexivity|].
      rewrite (proj2 S1 eq_refl), (proj2 S2 eq_refl), (proj2 S3 eq_refl), (proj2 S4 eq_refl) in Hb. discriminate. }
    cbn [fst snd meets]. split; [|reflexivity]. apply agree_still; assumption.
Qed.

Lemma step_issue : forall Pa st x i id mpk msk d, agree Pa st x -> allowed (e_mktime E) (readable E) st (Issue i id mpk msk d) -> goes_on st x (Issue i id mpk msk d).
Proof.
  intros Pa st x i id mpk msk d A (Rd & Li & Hpm). unfold goes_on. cbn [ideal_step perform]. destruct (readable_read d Rd) as (inp & Ri). rewrite Ri.
  destruct (read_kind d inp Ri) as (T1 & T2 & _ & _). exists Pa. destruct (for_key sch d) eqn:Fk; cbn [negb].
  - destruct (keys st i KEY_PUBLIC mpk) as [p|] eqn:Kp; [destruct (keys st i KEY_SECRET msk) as [m|] eqn:Km|].
    + destruct (Hpm p m eq_refl eq_refl) as (n & -> & ->).
      destruct (known _ _ _ _ _ _ A _ Kp) as (_ & kp & Sp & Lp & Pp & _). destruct (known _ _ _ _ _ _ A _ Km) as (_ & ks & Ss & _ & Pm).
      destruct (Key (Pa n) d inp id mpk msk kp ks (at_party E x i (no_ct E)) (seen_holds E _ _ _ (at_party E x i (no_ct E)) Sp) (seen_holds E _ _ _ (at_party E x i (no_ct E)) Ss) Pp Pm Rd Fk Ri) as (dec & off & Ek & Pu & St & So).
      rewrite Ek. cbn [fst snd told meets]. split; [|reflexivity]. eapply agree_put; [exact A| |reflexivity|].
      * intros c' id'. cbn [w_store set_off set_store at_party]. apply seen_add.
      * cbn [fact_ok]. split; [exact Lp|]. split; [exact Pu|]. split; [exists id; auto|exact So].
    + destruct (keygen_missing E sch inp id mpk msk (at_party E x i (no_ct E)) (T1 eq_refl)) as (w' & Ek & Al); [right; eapply unknown; eauto|].
      rewrite Ek. destruct p; cbn [fst snd told meets]; (split; [apply agree_still; assumption|reflexivity]).
    + destruct (keygen_missing E sch inp id mpk msk (at_party E x i (no_ct E)) (T1 eq_refl)) as (w' & Ek & Al); [left; eapply unknown; eauto|].
      rewrite Ek. cbn [fst snd told meets]; (split; [apply agree_still; assumption|reflexivity]).
  - rewrite (keygen_kind E sch inp id mpk msk _ (T2 eq_refl)). cbn [fst snd told meets]. split; [|reflexivity]. apply agree_still; [exact A|]. intros c' id'. reflexivity.
Qed.

Lemma step_seal : forall Pa st x i mpk d pt, agree Pa st x -> allowed (e_mktime E) (readable E) st (Seal i mpk d pt) -> goes_on st x (Seal i mpk d pt).
Proof.
  intros Pa st x i mpk d pt A (Rd & Lpt). unfold goes_on. cbn [ideal_step perform]. destruct (readable_read d Rd) as (inp & Ri). rewrite Ri.
  destruct (read_kind d inp Ri) as (_ & _ & T1 & T2). exists Pa. destruct (for_message sch d) eqn:Fk; cbn [negb].
  - destruct (keys st i KEY_PUBLIC mpk) as [p|] eqn:Kp.
    + destruct (known _ _ _ _ _ _ A _ Kp) as (Cl & kp & Sp & F). destruct p as [n|n|n d0]; try discriminate. destruct F as (Lp & Pp & _).
      destruct (Enc (Pa n) d inp mpk kp pt (at_party E x i (no_ct E)) (seen_holds E _ _ _ (at_party E x i (no_ct E)) Sp) Pp Rd Fk Ri Lpt eq_refl) as (w' & Ee & Es & Se & Fi).
      rewrite Ee. cbn [fst snd told meets]. split; [|reflexivity]. cbn [after p_mail]. change (p_mail E x) with (p_mail E (after E x i w')).
      apply agree_letter; [|split; [exact Lp|split; [exact Se|exact Fi]]]. apply agree_still; [exact A|]. rewrite Es. intros c' id'. reflexivity.
    + destruct (encrypt_missing E sch inp mpk pt (at_party E x i (no_ct E)) (T1 eq_refl)) as (w' & Ek & Al); [eapply unknown; eauto|].
      rewrite Ek. cbn [fst snd told meets]. split; [|reflexivity]. apply agree_still; assumption.
  - rewrite (encrypt_kind E sch inp mpk pt _ (T2 eq_refl)). cbn [fst snd told meets]. split; [|reflexivity]. apply agree_still; [exact A|]. intros c' id'. reflexivity.
Qed.

Lemma step_open : forall Pa st x i mpk id j wire, agree Pa st x -> allowed (e_mktime E) (readable E) st (Open i mpk id j wire) -> small E x (Open i mpk id j wire) -> goes_on st x (Open i mpk id j wire).
Proof.
  intros Pa st x i mpk id j wire A (m & d' & pt & Nm & Hf) Sm. unfold goes_on. cbn [ideal_step perform fst]. exists Pa.
  destruct (Forall2_nth _ _ _ _ _ (ag_mail Pa st x A) j _ Nm) as (ct & Nc & Lm & Se & Fi). rewrite Nm, Nc.
  assert (exists ct', (wire = false -> ct' = ct) /\ sea (Pa m) d' pt (ct_parts ct') /\
    (wire = true -> exists blob, ct_export ct = Ok blob /\ ct_load K (e_mktime E) (no_ct E) blob = (ct', Ok tt))) as (ct' & W1 & Se' & W2).
  { destruct wire; [|exists ct; split; [auto|split; [exact Se|discriminate]]].
    destruct Fi as (So & V & Al & U). destruct (ct_crosses E HK ct So (Ns _ _ _ _ Se) (Sm ct Nc) V) as (blob & ct' & X1 & X2 & X3); [rewrite Al; destruct sch; auto|exact U|].
    exists ct'. split; [discriminate|]. split; [eapply Cs; eauto|]. intros _. eauto. }
  assert (exists w' r, decrypt E sch mpk id (at_party E x i ct') = (w', r) /\ alike_stores E (p_stores E x i) (w_store E w') /\ (wire = false -> w_ct E w' = ct) /\
    meets (match keys st i KEY_SECRET id with None => Some (Text 8 []) | Some (Right n d) => if granted (e_mktime E) d d' then if Nat.eqb n m then Some (Text 0 pt) else None else Some (Text 32 []) | _ => None end) (told_text r)) as (w' & r & Ed & Al & Wc & Me).
  { destruct (keys st i KEY_SECRET id) as [f|] eqn:Kf.
    - destruct (Hf f eq_refl) as (n & d & -> & Dd & Way). destruct (known _ _ _ _ _ _ A _ Kf) as (_ & k & Sk & Ln & Pu & _).
      destruct (Dec (Pa n) (Pa m) d d' pt id k (at_party E x i ct') mpk (seen_holds E _ _ _ (at_party E x i ct') Sk) Pu Se' Dd) as (w' & r & Ed & Es & No & Yes).
      exists w', r. split; [exact Ed|]. split; [rewrite Es; intros c' id'; reflexivity|].
      destruct (granted (e_mktime E) d d') eqn:G.
      + destruct (Nat.eqb_spec n m) as [->|Nm'].
        * destruct (Yes eq_refl eq_refl) as (-> & Wt). split; [intro W; rewrite Wt; apply W1; exact W|reflexivity].
        * destruct Way as [-> | [X | X]]; try congruence. split; [discriminate|exact I].
      + destruct (No eq_refl) as (-> & Wt). split; [intro W; rewrite Wt; apply W1; exact W|reflexivity].
    - destruct (decrypt_missing E sch mpk id (at_party E x i ct')) as (w' & Ed & Al & Wt); [eapply unknown; eauto|].
      exists w', (Ok (8, [])). split; [exact Ed|]. split; [exact Al|]. split; [intro W; rewrite Wt; apply W1; exact W|reflexivity]. }
  assert (agree Pa st (after E x i w')) as A' by (apply agree_still; assumption).
  destruct wire.
  - destruct (W2 eq_refl) as (blob & X1 & X2). rewrite X1, X2, Ed. cbn [fst snd]. split; [exact A'|]. destruct (keys st i KEY_SECRET id) as [[]|]; exact Me.
  - rewrite (W1 eq_refl) in Ed. rewrite Ed. cbn [fst snd]. rewrite (Wc eq_refl), (set_nth_same _ _ _ _ Nc). split; [|destruct (keys st i KEY_SECRET id) as [[]|]; exact Me].
    destruct A' as [B1 B2 B3]. split; [exact B1|exact B2|exact B3].
Qed.

Lemma send_ok : forall Pa b c f k, class_of f = c -> (forall n, f <> Master n) -> fact_ok Pa b f k -> light E (k_parts k) -> exists blob, key_export k = Ok blob /\ fact_blob Pa b f blob.
Proof.
  intros Pa b c f k Hc Nm F Hl.
  assert (fit E sch k /\ k_parts k <> [] /\ forall k', carried E (k_parts k) (k_parts k') -> fit E sch k' -> fact_ok Pa b f k') as (Fi & Ne & Go).
  { destruct f as [n|n|n d]; [|destruct (Nm n eq_refl)|]; destruct F as (F1 & F2 & F3); (split; [exact F3|]); (split; [first [exact (Np _ _ F2)|exact (Nu _ _ _ F2)]|]);
      intros k' Ca Fi'; (split; [exact F1|]); (split; [first [exact (Cp _ _ _ Ca F2)|exact (Cu _ _ _ _ Ca F2)]|exact Fi']). }
  destruct (key_travels E sch k HK Fi Ne Hl) as (blob & X & Y). exists blob. split; [exact X|]. intros id c' w. destruct (Y id c' w) as (w' & k' & Y1 & Y2 & Y3 & Y4). exists w', k'. auto.
Qed.
Lemma step_export : forall Pa st x i id, agree Pa st x -> allowed (e_mktime E) (readable E) st (Export i id) -> small E x (Export i id) -> goes_on st x (Export i id).
Proof.
  intros Pa st x i id A Hm Sm. unfold goes_on. cbn [ideal_step perform]. exists Pa. cbn [allowed small] in *.
  destruct (export_seen E id (at_party E x i (no_ct E))) as (w' & Ex & Al). rewrite Ex. clear Ex. cbn [at_party w_store] in *.
  assert (agree Pa st (after E x i w')) as A' by (apply agree_still; assumption).
  assert (forall c k, seen E c id (p_stores E x i) = Some k -> light E (k_parts k)) as Sl.
  { intros c k H. apply (Sm c k). unfold seen in H. destruct (mget id (class_map E c (p_stores E x i))) as [[v|]|]; congruence. }
  destruct (keys st i KEY_PUBLIC id) as [f|] eqn:Kp.
  - destruct (known _ _ _ _ _ _ A _ Kp) as (Cl & k & Sk & F). rewrite Sk.
    destruct (send_ok Pa (founded st) KEY_PUBLIC f k Cl) as (blob & Eb & Fb); [intros n ->; discriminate|exact F|exact (Sl _ _ Sk)|]. rewrite Eb. cbn [bind fst snd meets]. split; [|reflexivity].
    apply agree_parcel; assumption.
  - rewrite (unknown _ _ _ _ _ _ A Kp). destruct (keys st i KEY_SECRET id) as [f|] eqn:Ks.
    + destruct (known _ _ _ _ _ _ A _ Ks) as (Cl & k & Sk & F). rewrite Sk.
      destruct (send_ok Pa (founded st) KEY_SECRET f k Cl) as (blob & Eb & Fb); [intros n ->; exact (Hm eq_refl n eq_refl)|exact F|exact (Sl _ _ Sk)|]. rewrite Eb. cbn [bind fst snd meets]. split; [|reflexivity].
      apply agree_parcel; assumption.
    + rewrite (unknown _ _ _ _ _ _ A Ks). cbn [fst snd meets]. split; [exact A'|reflexivity].
Qed.
Lemma fact_class : forall Pa st x i c id k f, agree Pa st x -> keys st i c id = Some f -> fact_ok Pa (founded st) f k -> class_of f = c.
Proof. intros Pa st x i c id k f A H _. apply (known _ _ _ _ _ _ A _ H). Qed.
Lemma step_load : forall Pa st x i id j c, agree Pa st x -> allowed (e_mktime E) (readable E) st (Load i id j c) -> goes_on st x (Load i id j c).
Proof.
  intros Pa st x i id j c A (f & Nf & Cf). unfold goes_on. cbn [ideal_step perform]. rewrite Nf. destruct (Forall2_nth _ _ _ _ _ (ag_parcels Pa st x A) j _ Nf) as (blob & Nb & Fb). rewrite Nb.
  destruct (Fb id c (at_party E x i (no_ct E))) as (w' & k' & El & Es & F). rewrite El. cbn [fst snd told meets]. exists Pa. split; [|reflexivity].
  eapply agree_put; [exact A| |exact Cf|exact F]. intros c' id'. rewrite Es. apply seen_add.
Qed.
Lemma step_forget : forall Pa st x i id, agree Pa st x -> goes_on st x (Forget i id).
Proof.
  intros Pa st x i id A. unfold goes_on. cbn [ideal_step perform]. destruct (drop_seen E id (at_party E x i (no_ct E))) as (w' & Ed & Se). rewrite Ed. cbn [fst snd told meets]. exists Pa. split; [|reflexivity].
  destruct A as [A1 A2 A3]. split; [|exact A2|exact A3]. intros i' c id'. specialize (A1 i' c id'). cbn [after p_stores keys founded]. unfold upd, put. destruct (Nat.eqb i i') eqn:Ei; [|exact A1].
  apply Nat.eqb_eq in Ei as <-. rewrite Se. cbn [andb at_party w_store]. destruct (str_eqb id id') eqn:Eq; [destruct c; reflexivity|]. rewrite !andb_false_r. exact A1.
Qed.
Lemma step_any : forall Pa st x o, agree Pa st x -> allowed (e_mktime E) (readable E) st o -> small E x o -> goes_on st x o.
Proof.
  intros Pa st x o A Al Sm. destruct o.
  - eapply step_found; eauto.
  - eapply step_issue; eauto.
  - eapply step_seal; eauto.
  - eapply step_open; eauto.
  - eapply step_export; eauto.
  - eapply step_load; eauto.
  - eapply step_forget; eauto.
Qed.
Lemma refine_run : forall os Pa st x, agree Pa st x -> permitted E sch st x os -> Forall2 meets (ideal_run sch (e_mktime E) st os) (perform_run E sch x os).
Proof.
  induction os as [|o os IH]; intros Pa st x A P; cbn [ideal_run perform_run]; [constructor|]. destruct P as (P1 & P2 & P3). destruct (step_any Pa st x o A P1 P2) as (Pa' & A' & M).
  constructor; [exact M|]. eapply IH; eauto.
Qed.
End Refine.
