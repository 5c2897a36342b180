(** What an issued key and a sent ciphertext say they are for. *)
From Verif Require Import Base StrMap ByteString ByteStringProofs UInteger Field FieldProofs PolicySyntax Lexical PolicyMeaning AttrMeaning PolicyUse Policy Driver Parser AttrList ListText TextUse ParserFinal Utils Kdf KdfProofs Lsss LsssSpec LsssRecover LsssUse LsssFinal SchemeRows Container ContainerSpec ContainerProofs Travel Keystore Keymgr KeymgrSpec Query Scheme SchemeSpec DeliverySpec FindSpec SchemeStep SchemeCp SchemeKp SchemeFrame SchemeUse SchemeFirm SchemeKeep SchemeSession SchemeTravel.
From Coq Require Import ZArith Znumtheory List Ascii Bool Lia Permutation.
Import ListNotations.
Open Scope Z_scope.

Section Find.
Context (E : engine) (HE : lawful E) (HK : curve_ok (e_curve E)).
Notation K := (e_curve E).
Notation short := (short_label E).
Notation sound := (sound (K:=K) (e_mktime E)).

(** The exported key object. *)
Lemma issued_rule : forall sch kinp Par (pub mas usr : Par -> container K -> Prop),
  (forall P c c', carried E c c' -> pub P c -> pub P c') -> (forall P c c', carried E c c' -> mas P c -> mas P c') ->
  (forall P c, usr P c -> ready E sch c) ->
  (forall mpk msk w w', generate_params E sch mpk msk w = (w', Ok 0) -> exists P kp ks, holds E KEY_PUBLIC mpk kp w' /\ holds E KEY_SECRET msk ks w' /\ pub P (k_parts kp) /\ mas P (k_parts ks)) ->
  (forall P kid mpk msk kp ks w, holds E KEY_PUBLIC mpk kp w -> holds E KEY_SECRET msk ks w -> pub P (k_parts kp) -> mas P (k_parts ks) ->
     exists dec off, keygen E sch kinp kid mpk msk w = (set_off E (set_store E w (add_key (w_store E w) kid (Some dec) KEY_SECRET)) off, Ok 0) /\ usr P (k_parts dec) /\
       stamped E (alg_of sch) kid dec /\ sound (k_parts dec)) ->
  forall mpk msk w0 w1 blob, generate_params E sch mpk msk w0 = (w1, Ok 0) -> issued E sch mpk msk w1 kinp blob ->
  exists P k k0 body k', usr P (k_parts k) /\ sound (k_parts k) /\ parse_key_header K blob [] [] = Ok (k0, body) /\ key_load K (e_mktime E) k0 body = (k', Ok tt) /\
    k_alg k' = alg_of sch /\ carried E (k_parts k) (k_parts k').
Proof.
  intros sch kinp Par pub mas usr Cp Cm Nu Gen Key mpk msk w0 w1 blob E1 (kid & h1 & a2 & w3 & rk & h2 & a4 & bufx & wx & Ik & H1 & S1 & S1' & E2 & H2 & S2 & N2 & Nk & Ex & Lx).
  destruct (Gen _ _ _ _ E1) as (P & kp & ks & Hp & Hs & Pp & Pm).
  destruct (steady_carried E _ _ _ _ _ (history_steady E HE sch _ _ _ _ _ H1 S1) Hp) as (kp2 & Hp2 & C1).
  destruct (steady_carried E _ _ _ _ _ (history_steady E HE sch _ _ _ _ _ H1 S1') Hs) as (ks2 & Hs2 & C2).
  destruct (Key P kid mpk msk kp2 ks2 (start E a2 (no_ct E)) Hp2 Hs2 (Cp _ _ _ C1 Pp) (Cm _ _ _ C2 Pm)) as (dec & off & Ek & Pu & Stu & Sou).
  rewrite E2 in Ek. injection Ek as -> ->.
  assert (has E KEY_SECRET kid dec (fst a4)) as Hu4.
  { apply (history_keeps E HE sch KEY_SECRET kid dec) with (h := h2) (x := left_by E (set_off E (set_store E (start E a2 (no_ct E)) (add_key (w_store E (start E a2 (no_ct E))) kid (Some dec) KEY_SECRET)) off)); [discriminate|intros _; exact (Nu P _ Pu)|exact H2| |unfold has; cbn; apply mget_mset_same].
    intros r I0. split; [apply S2; exact I0|]. intros _. destruct r; try exact I. eapply N2. exact I0. }
  assert (k_parts dec <> []) as Neu.
  { pose proof (Nu P _ Pu) as R. destruct sch; cbn [ready] in R; [destruct R as (l & x & y & R & _)|destruct R as (q & r & sh & o & o' & s & R & _)]; exact (part_some _ _ _ R). }
  destruct Stu as (A1 & A2 & A3 & A4). destruct Sou as [So1 So2].
  assert (known_scheme (k_alg dec)) as Ha by (rewrite A1; unfold known_scheme; destruct sch; cbn; tauto).
  destruct (key_back K (e_mktime E) dec [] [] HK So1 So2 Neu (Lx dec Hu4) ltac:(lia) Ha A3 ltac:(congruence)) as (b & k0 & body & k' & X1 & X2 & X3 & X4 & _ & _ & _ & X5).
  pose proof (export_secret E kid dec bufx (start E a4 (no_ct E)) Hu4 Nk) as X. rewrite Ex, X1 in X. cbn [snd bind] in X. injection X as ->.
  exists P, dec, k0, body, k'. split; [exact Pu|]. split; [split; assumption|]. split; [exact X2|]. split; [exact X3|]. split; [congruence|]. apply same_content_carried. exact X5.
Qed.
Lemma sent_rule : forall sch einp pt Par (pub sea : Par -> container K -> Prop),
  (forall P c c', carried E c c' -> pub P c -> pub P c') ->
  (forall P c, pub P c -> forall n, In n (pub_names sch) -> exists o, part E c n o) ->
  (forall mpk msk w w', generate_params E sch mpk msk w = (w', Ok 0) -> exists P kp, holds E KEY_PUBLIC mpk kp w' /\ pub P (k_parts kp) /\ stamped E (alg_of sch) mpk kp /\ sound (k_parts kp)) ->
  (forall P mpk kp w, holds E KEY_PUBLIC mpk kp w -> pub P (k_parts kp) -> w_ct E w = no_ct E ->
     exists w', encrypt E sch mpk einp pt w = (w', Ok 0) /\ sea P (ct_parts (w_ct E w')) /\ sound (ct_parts (w_ct E w')) /\
       ct_version (w_ct E w') = 170 /\ ct_alg (w_ct E w') = alg_of sch /\ len (ct_uid (w_ct E w')) = 16) ->
  (forall P c, sea P c -> c <> []) ->
  forall mpk msk w0 w1 blob, generate_params E sch mpk msk w0 = (w1, Ok 0) -> sent E sch mpk w1 einp pt blob ->
  exists P c ct, sea P c /\ sound c /\ ct_load K (e_mktime E) (no_ct E) blob = (ct, Ok tt) /\ ct_alg ct = alg_of sch /\ carried E c (ct_parts ct).
Proof.
  intros sch einp pt Par pub sea Cp Np Gen Enc Ne mpk msk w0 w1 blob E1 (ha & a1 & bufp & wp & rp & mpk1 & b0 & v1 & l1 & g1 & b2 & v3 & re & Im & Ha & Sa & Ep & Lp & El1 & G1 & SG & Ee & Ec & Lc).
  destruct (Gen _ _ _ _ E1) as (P & kp & Hp & Pp & St & So).
  assert (has E KEY_PUBLIC mpk kp (fst a1)) as Hp1.
  { apply (history_keeps E HE sch KEY_PUBLIC mpk kp (fun _ => Np P _ Pp)) with (h := ha) (x := left_by E w1); [discriminate|exact Ha| |exact Hp].
    intros r I0. split; [apply Sa; exact I0|discriminate]. }
  assert (k_parts kp <> []) as Nep by (destruct (Np P _ Pp (L "g1")) as (o & Ho); [unfold pub_names; destruct sch; cbn; tauto|exact (part_some _ _ _ Ho)]).
  destruct (key_crosses E HK sch mpk kp St So Nep (Lp kp Hp1) Im) as (blobp & Xp & Loadp).
  assert (rp = Ok (0, blobp)) as -> by (pose proof (export_public E mpk kp bufp (start E a1 (no_ct E)) Hp1) as X; rewrite Ep, Xp in X; exact X). cbn [bytes_of] in *.
  destruct (Loadp mpk1 KEY_PUBLIC (start E b0 (no_ct E))) as (w' & kp3 & X1 & X2 & X3 & _). rewrite El1 in X1. injection X1 as -> ->.
  destruct (steady_carried E _ _ _ _ _ (history_steady E HE sch _ _ _ _ _ G1 SG) X2) as (kp4 & Hp4 & C3).
  destruct (Enc P mpk1 kp4 (start E b2 (no_ct E)) Hp4 (Cp _ _ _ C3 (Cp _ _ _ X3 Pp)) eq_refl) as (v' & Y1 & Y3 & Y4 & Y5 & Y6 & Y7). rewrite Ee in Y1. injection Y1 as -> ->.
  destruct Y4 as [S1 S2].
  assert (known_scheme (ct_alg (w_ct E v'))) as Hk by (rewrite Y6; unfold known_scheme; destruct sch; cbn; tauto).
  destruct (ct_back K (e_mktime E) (w_ct E v') (no_ct E) HK S1 S2 (Ne P _ Y3) Lc ltac:(lia) Hk Y7 eq_refl) as (b & ct' & Z1 & Z2 & _ & Z3 & _ & Z4).
  rewrite Ec in Z1. injection Z1 as <-. exists P, (ct_parts (w_ct E v')), ct'. split; [exact Y3|]. split; [split; assumption|]. split; [exact Z2|]. split; [congruence|]. apply same_content_carried. exact Z4.
Qed.

(** Reading an attribute list that travelled gives the same attributes. *)
Lemma list_back : forall c c' n l, sound c -> carried E c c' -> part E c n (OAttrs l) ->
  exists l' l2, snd (get_component c' n) = Ok (OAttrs l') /\ create_attribute_list (e_mktime E) (compact l') = Ok (Some l2) /\ (forall a, In a (aattrs l2) <-> In a (aattrs l)).
Proof.
  intros c c' n l [S1 S2] H P. destruct (S2 n (Some (OAttrs l)) P) as (_ & o & X & Y). injection X as <-. cbn [portable] in Y. destruct Y as [(t & Y) _].
  destruct (compact_roundtrip (e_mktime E) t l Y) as (l2 & R1 & R2 & _). destruct (H n _ P) as (o' & P' & R).
  assert (exists l', o' = OAttrs l' /\ compact l' = compact l) as (l' & -> & Ec).
  { destruct R as [-> | R]; [eauto|]. destruct o'; try contradiction. destruct R as (_ & _ & R). eauto. }
  exists l', l2. split; [unfold get_component, index; unfold part in P'; rewrite P'; reflexivity|]. rewrite Ec. auto.
Qed.
Lemma text_back : forall c c' n b, carried E c c' -> part E c n (OBytes b) -> snd (get_component c' n) = Ok (OBytes b).
Proof.
  intros c c' n b H P. destruct (H n _ P) as (o' & P' & R). unfold get_component, index. unfold part in P'. rewrite P'.
  destruct R as [-> | R]; [reflexivity|]. destruct o'; try contradiction. cbn in R. subst. reflexivity.
Qed.

(** What the blobs say. *)
Definition says (i : input) (f : finput) : Prop :=
  match i, f with
  | Scheme.InPolicy q, Keymgr.InPolicy q' st => q' = q /\ st = fresh
  | Scheme.InAttrs l, Keymgr.InAttrs l' => forall a, In a (aattrs l') <-> In a (aattrs l)
  | _, _ => False
  end.
Lemma workable_policy : forall q, workable E (Scheme.InPolicy q) -> exists r, usable E q r.
Proof. intros q ((e & s & T & W & Ty & Np & Hq) & _). apply (usable_from_text E s q e Hq); [apply text_reads; exact T|assumption|assumption|assumption]. Qed.
Lemma workable_list : forall l, workable E (Scheme.InAttrs l) -> portable K (e_mktime E) (OAttrs l).
Proof. intros l ((t & Hl) & _ & H). cbn [portable]. eauto. Qed.
Lemma issued_says : forall sch mpk msk w0 w1 kinp blob, generate_params E sch mpk msk w0 = (w1, Ok 0) -> key_side sch kinp -> workable E kinp -> issued E sch mpk msk w1 kinp blob ->
  exists f, blob_input K (e_mktime E) blob f /\ says kinp f.
Proof.
  intros sch mpk msk w0 w1 kinp blob G Hs Hw Hi. destruct sch, kinp as [q|l|]; try contradiction.
  - pose proof (workable_list l Hw) as Po. destruct Hw as (_ & Nc & _).
    destruct (issued_rule CP (InAttrs l) (cp_params E) (cp_public E) (cp_master E) (fun P => cp_user E P (aattrs l))) with (7 := Hi) (6 := G) as (P & k & k0 & body & k' & U & So & X1 & X2 & X3 & X4).
    + apply cp_public_carried.
    + apply cp_master_carried.
    + intros P c. apply cp_user_ready.
    + intros ? ? ? ? A. destruct (cp_generate_ok E HE _ _ _ _ A) as (P & kp & ks & Y1 & Y2 & Y3 & Y4 & _). eauto 8.
    + intros P kid m1 m2 kp ks w A B C D. destruct (cp_keygen_ok E HE P l kid m1 m2 kp ks w A B C D Nc) as (dec & off & X & Y & Z & V). exists dec, off. auto.
    + destruct U as (t & l0 & U1 & U2 & _). destruct (list_back _ _ _ _ So X4 U1) as (l' & l2 & L1 & L2 & L3). exists (Keymgr.InAttrs l2). split.
      * exists k0, body, k'. split; [exact X1|]. split; [exact X2|]. unfold get_function_input. rewrite X3. cbn [alg_of]. change (get_scheme_id CP_WATERS) with (@Ok Z CP_WATERS). cbn [bind existsb]. rewrite Z.eqb_refl. cbn [orb]. rewrite L1. cbn [bind]. rewrite L2. reflexivity.
      * cbn [says]. intro a. rewrite L3. apply U2.
  - destruct (workable_policy q Hw) as (r & Uq). destruct Hw as (_ & Nc & Lt).
    destruct (issued_rule KP (InPolicy q) (kp_params E) (kp_public E) (kp_master E) (fun P => kp_user E P q)) with (7 := Hi) (6 := G) as (P & k & k0 & body & k' & U & So & X1 & X2 & X3 & X4).
    + apply kp_public_carried.
    + apply kp_master_carried.
    + intros P c. apply (kp_user_ready E P q r); assumption.
    + intros ? ? ? ? A. destruct (kp_generate_ok E HE _ _ _ _ A) as (P & kp & ks & Y1 & Y2 & Y3 & Y4 & _). eauto 8.
    + intros P kid m1 m2 kp ks w A B C D. destruct (kp_keygen_ok E HE P q r kid m1 m2 kp ks w A B C D Uq Nc) as (dec & off & X & Y & Z & V). exists dec, off. auto.
    + destruct U as (sh & o & o' & _ & _ & U1 & _). pose proof (text_back _ _ _ _ X4 U1) as L1. destruct Uq as (_ & _ & _ & _ & Q5). exists (Keymgr.InPolicy q fresh). split; [|split; reflexivity].
      exists k0, body, k'. split; [exact X1|]. split; [exact X2|]. unfold get_function_input. rewrite X3. cbn [alg_of]. change (get_scheme_id KP_GPSW) with (@Ok Z KP_GPSW). cbn [bind]. change (existsb (Z.eqb KP_GPSW) [CP_WATERS; CP_WATERS_CCA]) with false. change (existsb (Z.eqb KP_GPSW) [KP_GPSW; KP_GPSW_CCA]) with true. cbv iota.
      rewrite L1. cbn [bind]. rewrite Q5. reflexivity.
Qed.
Lemma sent_says : forall sch mpk msk w0 w1 einp pt blob, generate_params E sch mpk msk w0 = (w1, Ok 0) -> sender_side sch einp -> workable E einp -> len pt < 2147483616 -> sent E sch mpk w1 einp pt blob ->
  exists ct f, ct_load K (e_mktime E) (no_ct E) blob = (ct, Ok tt) /\ ciphertext_input K (e_mktime E) ct = Ok (Some f) /\ says einp f.
Proof.
  intros sch mpk msk w0 w1 einp pt blob G Hs Hw Hl Hi. destruct sch, einp as [q|l|]; try contradiction.
  - destruct (workable_policy q Hw) as (r & Uq). destruct Hw as (_ & Nc & Lt).
    destruct (sent_rule CP (InPolicy q) pt (cp_params E) (cp_public E) (fun P => cp_sealed E P q pt)) with (7 := Hi) (6 := G) as (P & c & ct & U & So & X1 & X2 & X3).
    + apply cp_public_carried.
    + intros P c (A & B & C & D & F) n I0. cbn [pub_names In] in I0. repeat (destruct I0 as [<-|I0]; [eauto|]). destruct I0.
    + intros ? ? ? ? A. destruct (cp_generate_ok E HE _ _ _ _ A) as (P & kp & ks & Y1 & Y2 & Y3 & Y4 & Y5 & _ & Y6 & _). eauto 8.
    + intros P m1 kp w A B W. destruct (cp_encrypt_ok E HE P q r m1 kp pt w A B Uq Nc Hl) as (w' & X & Y & Z & V1 & V2 & V3 & V4). exists w'. split; [exact X|]. split; [exact Z|].
      rewrite V1, V2, V3, W in *. split; [apply V4; [exact Lt|apply sound_nil]|]. split; [reflexivity|]. split; reflexivity.
    + intros P c (s & sh & o & o' & _ & _ & C1 & _). exact (part_some _ _ _ C1).
    + destruct U as (s & sh & o & o' & _ & _ & U1 & _). pose proof (text_back _ _ _ _ X3 U1) as L1. destruct Uq as (_ & _ & _ & _ & Q5). exists ct, (Keymgr.InPolicy q fresh). split; [exact X1|]. split; [|split; reflexivity].
      unfold ciphertext_input. rewrite X2. cbn [alg_of]. change (existsb (Z.eqb CP_WATERS) [CP_WATERS; CP_WATERS_CCA]) with true. cbv iota. rewrite L1. cbn [bind]. rewrite Q5. reflexivity.
  - pose proof (workable_list l Hw) as Po. destruct Hw as (_ & Nc & _).
    destruct (sent_rule KP (InAttrs l) pt (kp_params E) (kp_public E) (fun P => kp_sealed E P (aattrs l) pt)) with (7 := Hi) (6 := G) as (P & c & ct & U & So & X1 & X2 & X3).
    + apply kp_public_carried.
    + intros P c (A & B & C & D) n I0. cbn [pub_names In] in I0. repeat (destruct I0 as [<-|I0]; [eauto|]). destruct I0.
    + intros ? ? ? ? A. destruct (kp_generate_ok E HE _ _ _ _ A) as (P & kp & ks & Y1 & Y2 & Y3 & Y4 & Y5 & _ & Y6 & _). eauto 8.
    + intros P m1 kp w A B W. destruct (kp_encrypt_ok E HE P l m1 kp pt w A B Nc Hl) as (w' & X & Y & Z & V1 & V2 & V3 & V4). exists w'. split; [exact X|]. split; [exact Z|].
      rewrite V1, V2, V3, W in *. split; [apply V4; [exact Po|apply sound_nil]|]. split; [reflexivity|]. split; reflexivity.
    + intros P c (t & l' & C1 & _). exact (part_some _ _ _ C1).
    + destruct U as (t & l0 & U1 & U2 & _). destruct (list_back _ _ _ _ So X3 U1) as (l' & l2 & L1 & L2 & L3). exists ct, (Keymgr.InAttrs l2). split; [exact X1|]. split.
      * unfold ciphertext_input. rewrite X2. cbn [alg_of]. change (existsb (Z.eqb KP_GPSW) [CP_WATERS; CP_WATERS_CCA]) with false. change (existsb (Z.eqb KP_GPSW) [KP_GPSW; KP_GPSW_CCA]) with true. cbv iota. rewrite L1. cbn [bind]. rewrite L2. reflexivity.
      * cbn [says]. intro a. rewrite L3. apply U2.
Qed.
End Find.
