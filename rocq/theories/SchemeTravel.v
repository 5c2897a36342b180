(** Keys and ciphertexts that travel still fit together. *)
From Verif Require Import Base StrMap ByteString ByteStringProofs UInteger Field FieldProofs Policy Driver Parser AttrList Utils Kdf KdfProofs Lsss LsssSpec LsssRecover LsssUse LsssFinal SchemeRows Container ContainerSpec ContainerProofs Travel Keystore Scheme SchemeSpec DeliverySpec SchemeStep SchemeCp SchemeKp SchemeFrame SchemeUse SchemeFirm SchemeKeep SchemeSession.
From Coq Require Import ZArith Znumtheory List Ascii Bool Lia Permutation.
Import ListNotations.
Open Scope Z_scope.

Section Travel.
Context (E : engine) (HE : lawful E) (HK : curve_ok (e_curve E)).
Notation K := (e_curve E).
Notation short := (short_label E).
Notation sound := (sound (K:=K) (e_mktime E)).

(** ** Export *)
Lemma export_public : forall id k buf w, holds E KEY_PUBLIC id k w -> snd (export_key E id buf w) = (do b <- key_export k; Ok (0, b)).
Proof. intros id k buf w H. unfold export_key, get_key, get_public_key, index. unfold holds in H. cbn [class_map] in H. rewrite H. reflexivity. Qed.
Lemma export_secret : forall id k buf w, holds E KEY_SECRET id k w -> (forall k', mget id (pub_keys (w_store E w)) <> Some (Some k')) -> snd (export_key E id buf w) = (do b <- key_export k; Ok (0, b)).
Proof.
  intros id k buf w H N. unfold export_key, get_key, get_public_key, get_secret_key, index. unfold holds in H. cbn [class_map] in H.
  destruct (mget id (pub_keys (w_store E w))) as [[v|]|] eqn:Ep; [destruct (N v eq_refl)| |]; cbn [sec_keys]; rewrite H; reflexivity.
Qed.
Lemma key_crosses : forall sch id k, stamped E (alg_of sch) id k -> sound (k_parts k) -> k_parts k <> [] -> light E (k_parts k) -> len id < 2 ^ 31 ->
  exists blob, key_export k = Ok blob /\ forall id' c w, exists w' k', load_key E sch id' blob c w = (w', Ok 0) /\ holds E c id' k' w' /\ carried E (k_parts k) (k_parts k') /\
    k_alg k' = k_alg k /\ k_uid k' = k_uid k /\ k_id k' = k_id k.
Proof.
  intros sch id k (A1 & A2 & A3 & A4) [S1 S2] Hne Hl Hi.
  assert (known_scheme (k_alg k)) as Ha by (rewrite A1; unfold known_scheme; destruct sch; cbn; tauto).
  destruct (key_export k) as [blob| | | |] eqn:Ex.
  2-5: (destruct (key_back K (e_mktime E) k [] [] HK S1 S2 Hne Hl ltac:(lia) Ha A3 ltac:(congruence)) as (b & k0 & body & k' & E1 & _); congruence).
  exists blob. split; [reflexivity|]. intros id' c w. destruct (key_back K (e_mktime E) k [] (e_bytes E (w_off E w) 16) HK S1 S2 Hne Hl ltac:(lia) Ha A3 ltac:(congruence)) as (b & k0 & body & k' & E1 & E2 & E3 & E4 & E5 & E6 & _ & E7).
  rewrite Ex in E1. injection E1 as <-. unfold load_key, random_bytes. erewrite andthen_ok by apply tick_ok. rewrite E2. erewrite andthen_ok by apply lift_ok. cbv beta iota.
  assert (k_alg k0 = k_alg k') as Ek by (unfold key_load in E3; destruct (deserialize K (e_mktime E) (k_parts k0) body) as [p r]; injection E3 as <- _; reflexivity).
  rewrite Ek, E4, A1, Z.eqb_refl. cbn [negb]. rewrite E3. erewrite andthen_ok by apply lift_ok. erewrite andthen_ok by apply put_key_ok. eexists _, k'. split; [reflexivity|].
  split; [apply (holds_add E c id' k')|]. split; [apply same_content_carried; exact E7|]. repeat split; congruence.
Qed.
Lemma ct_crosses : forall ct, sound (ct_parts ct) -> ct_parts ct <> [] -> light E (ct_parts ct) -> ct_version ct = 170 -> (ct_alg ct = CP_WATERS \/ ct_alg ct = KP_GPSW) -> len (ct_uid ct) = 16 ->
  exists blob ct', ct_export ct = Ok blob /\ ct_load K (e_mktime E) (no_ct E) blob = (ct', Ok tt) /\ carried E (ct_parts ct) (ct_parts ct').
Proof.
  intros ct [S1 S2] Hne Hl Hv Ha Hu.
  assert (known_scheme (ct_alg ct)) as Ha' by (unfold known_scheme; destruct Ha as [-> | ->]; cbn; tauto).
  destruct (ct_back K (e_mktime E) ct (no_ct E) HK S1 S2 Hne Hl ltac:(lia) Ha' Hu eq_refl) as (blob & ct' & E1 & E2 & _ & _ & _ & E3).
  exists blob, ct'. split; [exact E1|]. split; [exact E2|]. apply same_content_carried. exact E3.
Qed.

(** One rule for both schemes. *)
Lemma delivery_rule : forall sch kinp einp pt Par (pub mas usr sea : Par -> container K -> Prop) good,
  (forall P c c', carried E c c' -> pub P c -> pub P c') -> (forall P c c', carried E c c' -> mas P c -> mas P c') -> (forall P c c', carried E c c' -> usr P c -> usr P c') -> (forall P c c', carried E c c' -> sea P c -> sea P c') ->
  (forall P c, pub P c -> forall n, In n (pub_names sch) -> exists o, part E c n o) -> (forall P c, usr P c -> ready E sch c) ->
  (forall mpk msk w w', generate_params E sch mpk msk w = (w', Ok 0) -> exists P kp ks, holds E KEY_PUBLIC mpk kp w' /\ holds E KEY_SECRET msk ks w' /\ pub P (k_parts kp) /\ mas P (k_parts ks) /\
     stamped E (alg_of sch) mpk kp /\ sound (k_parts kp)) ->
  (forall P kid mpk msk kp ks w, holds E KEY_PUBLIC mpk kp w -> holds E KEY_SECRET msk ks w -> pub P (k_parts kp) -> mas P (k_parts ks) ->
     exists dec off, keygen E sch kinp kid mpk msk w = (set_off E (set_store E w (add_key (w_store E w) kid (Some dec) KEY_SECRET)) off, Ok 0) /\ usr P (k_parts dec) /\
       stamped E (alg_of sch) kid dec /\ sound (k_parts dec)) ->
  (forall P mpk kp w, holds E KEY_PUBLIC mpk kp w -> pub P (k_parts kp) -> w_ct E w = no_ct E ->
     exists w', encrypt E sch mpk einp pt w = (w', Ok 0) /\ w_store E w' = w_store E w /\ sea P (ct_parts (w_ct E w')) /\ sound (ct_parts (w_ct E w')) /\
       ct_version (w_ct E w') = 170 /\ ct_alg (w_ct E w') = alg_of sch /\ len (ct_uid (w_ct E w')) = 16) ->
  (forall P c, sea P c -> c <> []) ->
  (forall P kid k w mpk, holds E KEY_SECRET kid k w -> usr P (k_parts k) -> sea P (ct_parts (w_ct E w)) -> exists w', decrypt E sch mpk kid w = (w', Ok good)) ->
  forall rk rp rx l1 re rc l2 lc out, delivery E sch kinp einp pt rk rp rx l1 re rc l2 lc out ->
    rk = Ok 0 /\ (exists b, rp = Ok (0, b)) /\ (exists b, rx = Ok (0, b)) /\ l1 = Ok 0 /\ re = Ok 0 /\ (exists b, rc = Ok b) /\ l2 = Ok 0 /\ lc = Ok tt /\ out = Ok good.
Proof.
  intros sch kinp einp pt Par pub mas usr sea good Cp Cm Cu Cs Np Nu Gen Key Enc Ne Dec rk rp rx l1 re rc l2 lc out H.
  destruct H as [mpk msk kid a0 w1 ha a1 bufp wp h1 a2 w3 h2 a4 bufx wx mpk1 b0 v1 g1 b2 v3 kid1 c0 u1 f1 c2 ct mpk2 u3
    E1 Im Ik Ha Sa Ep Lp H1 S1 S1' E2 H2 S2 N2 Nk Ex Lx El1 G1 SG Ee Ec Lc El2 F1 SF Elc Ed].
  destruct (Gen _ _ _ _ E1) as (P & kp & ks & Hp & Hs & Pp & Pm & St & So).
  (* the public parameters *)
  assert (has E KEY_PUBLIC mpk kp (fst a1)) as Hp1.
  { apply (history_keeps E HE sch KEY_PUBLIC mpk kp (fun _ => Np P _ Pp)) with (h := ha) (x := left_by E w1); [discriminate|exact Ha| |exact Hp].
    intros r I0. split; [apply Sa; exact I0|discriminate]. }
  assert (k_parts kp <> []) as Nep by (destruct (Np P _ Pp (L "g1")) as (o & Ho); [unfold pub_names; destruct sch; cbn; tauto|exact (part_some _ _ _ Ho)]).
  destruct (key_crosses sch mpk kp St So Nep (Lp kp Hp1) Im) as (blobp & Xp & Loadp).
  assert (rp = Ok (0, blobp)) as -> by (pose proof (export_public mpk kp bufp (start E a1 (no_ct E)) Hp1) as X; rewrite Ep, Xp in X; exact X).
  (* the user key *)
  destruct (steady_carried E _ _ _ _ _ (history_steady E HE sch _ _ _ _ _ H1 S1) Hp) as (kp2 & Hp2 & C1).
  destruct (steady_carried E _ _ _ _ _ (history_steady E HE sch _ _ _ _ _ H1 S1') Hs) as (ks2 & Hs2 & C2).
  destruct (Key P kid mpk msk kp2 ks2 (start E a2 (no_ct E)) Hp2 Hs2 (Cp _ _ _ C1 Pp) (Cm _ _ _ C2 Pm)) as (dec & off & Ek & Pu & Stu & Sou).
  rewrite E2 in Ek. injection Ek as -> ->. split; [reflexivity|]. split; [eauto|].
  assert (has E KEY_SECRET kid dec (fst a4)) as Hu4.
  { apply (history_keeps E HE sch KEY_SECRET kid dec) with (h := h2) (x := left_by E (set_off E (set_store E (start E a2 (no_ct E)) (add_key (w_store E (start E a2 (no_ct E))) kid (Some dec) KEY_SECRET)) off)); [discriminate|intros _; exact (Nu P _ Pu)|exact H2| |unfold has; cbn; apply mget_mset_same].
    intros r I0. split; [apply S2; exact I0|]. intros _. destruct r; try exact I. eapply N2. exact I0. }
  assert (k_parts dec <> []) as Neu.
  { pose proof (Nu P _ Pu) as R. destruct sch; cbn [ready] in R; [destruct R as (l & x & y & R & _)|destruct R as (q & r & sh & o & o' & s & R & _)]; exact (part_some _ _ _ R). }
  destruct (key_crosses sch kid dec Stu Sou Neu (Lx dec Hu4) Ik) as (blobx & Xx & Loadx).
  assert (rx = Ok (0, blobx)) as -> by (pose proof (export_secret kid dec bufx (start E a4 (no_ct E)) Hu4 Nk) as X; rewrite Ex, Xx in X; exact X).
  split; [eauto|]. cbn [bytes_of] in *.
  (* the sender *)
  destruct (Loadp mpk1 KEY_PUBLIC (start E b0 (no_ct E))) as (w' & kp3 & X1 & X2 & X3 & _). rewrite El1 in X1. injection X1 as -> ->. split; [reflexivity|].
  destruct (steady_carried E _ _ _ _ _ (history_steady E HE sch _ _ _ _ _ G1 SG) X2) as (kp4 & Hp4 & C3).
  destruct (Enc P mpk1 kp4 (start E b2 (no_ct E)) Hp4 (Cp _ _ _ C3 (Cp _ _ _ X3 Pp)) eq_refl) as (v' & Y1 & Y2 & Y3 & Y4 & Y5 & Y6 & Y7). rewrite Ee in Y1. injection Y1 as -> ->. split; [reflexivity|].
  destruct (ct_crosses (w_ct E v') Y4 (Ne P _ Y3) Lc Y5) as (blobc & ct' & Z1 & Z2 & Z3); [rewrite Y6; destruct sch; auto|exact Y7|]. rewrite Ec in Z1. subst rc. rewrite Z1 in *. split; [eauto|]. cbn [blob_of] in Elc. 
  (* the receiver *)
  destruct (Loadx kid1 KEY_SECRET (start E c0 (no_ct E))) as (u' & k3 & X4 & X5 & X6 & _). rewrite El2 in X4. injection X4 as -> ->. split; [reflexivity|].
  rewrite Z2 in Elc. injection Elc as -> <-. split; [reflexivity|].
  destruct (steady_carried E _ _ _ _ _ (history_steady E HE sch _ _ _ _ _ F1 SF) X5) as (k4 & Hk4 & C5).
  destruct (Dec P kid1 k4 (start E c2 ct) mpk2 Hk4 (Cu _ _ _ C5 (Cu _ _ _ X6 Pu)) (Cs _ _ _ Z3 Y3)) as (w8 & D). rewrite Ed in D. injection D as _ ->. reflexivity.
Qed.

Lemma cp_delivery : forall q r l pt rk rp rx l1 re rc l2 lc out, usable E q r -> no_collision short (aattrs l) -> no_collision short (row_names q) -> len pt < 2147483616 ->
  portable K (e_mktime E) (OAttrs l) -> len (ptext q) < 2 ^ 31 ->
  delivery E CP (InAttrs l) (InPolicy q) pt rk rp rx l1 re rc l2 lc out ->
  rk = Ok 0 /\ (exists b, rp = Ok (0, b)) /\ (exists b, rx = Ok (0, b)) /\ l1 = Ok 0 /\ re = Ok 0 /\ (exists b, rc = Ok b) /\ l2 = Ok 0 /\ lc = Ok tt /\
  out = Ok (verdict (sat (match_attribute (aattrs l)) r) pt).
Proof.
  intros q r l pt rk rp rx l1 re rc l2 lc out Hq N1 N2 Hl Po Lt. apply (delivery_rule CP (InAttrs l) (InPolicy q) pt (cp_params E) (cp_public E) (cp_master E) (fun P => cp_user E P (aattrs l)) (fun P => cp_sealed E P q pt)).
  - apply cp_public_carried.
  - apply cp_master_carried.
  - intros P c c'. apply cp_user_carried.
  - intros P c c'. apply cp_sealed_carried.
  - intros P c (A & B & C & D & F) n I0. cbn [pub_names In] in I0. repeat (destruct I0 as [<-|I0]; [eauto|]). destruct I0.
  - intros P c. apply cp_user_ready.
  - intros mpk msk w w' A. destruct (cp_generate_ok E HE mpk msk w w' A) as (P & kp & ks & X1 & X2 & X3 & X4 & X5 & _ & X6 & _). exists P, kp, ks. repeat (split; [assumption|]). assumption.
  - intros P kid mpk msk kp ks w A B C D. destruct (cp_keygen_ok E HE P l kid mpk msk kp ks w A B C D N1) as (dec & off & X & Y & Z & V). exists dec, off. auto.
  - intros P mpk kp w A B W. destruct (cp_encrypt_ok E HE P q r mpk kp pt w A B Hq N2 Hl) as (w' & X & Y & Z & V1 & V2 & V3 & V4). exists w'. split; [exact X|]. split; [exact Y|]. split; [exact Z|].
    rewrite V1, V2, V3, W in *. split; [apply V4; [exact Lt|apply sound_nil]|]. split; [reflexivity|]. split; [reflexivity|]. reflexivity.
  - intros P c (s & sh & o & o' & _ & _ & C1 & _). exact (part_some _ _ _ C1).
  - intros P kid k w mpk A B C. destruct (sat (match_attribute (aattrs l)) r) eqn:Es; cbn [verdict].
    + destruct (cp_decrypt_ok E HE P q r (aattrs l) pt kid k w mpk A B C Hq Es Hl) as (key & X). eauto.
    + destruct B as (tt & l' & B1 & B2 & _). destruct C as (s & sh & o & o' & _ & _ & C1 & _). destruct Hq as (Q1 & _ & _ & _ & Q5).
      eexists. eapply (denied E (law_sort E HE) CP mpk kid w (ptext q) l'); [split; [eauto|exact C1]|exact Q5|exact Q1|]. rewrite (match_same (aattrs l) (aattrs l') B2). exact Es.
Qed.
Lemma kp_delivery : forall q r l pt rk rp rx l1 re rc l2 lc out, usable E q r -> no_collision short (aattrs l) -> no_collision short (row_names q) -> len pt < 2147483616 ->
  portable K (e_mktime E) (OAttrs l) -> len (ptext q) < 2 ^ 31 ->
  delivery E KP (InPolicy q) (InAttrs l) pt rk rp rx l1 re rc l2 lc out ->
  rk = Ok 0 /\ (exists b, rp = Ok (0, b)) /\ (exists b, rx = Ok (0, b)) /\ l1 = Ok 0 /\ re = Ok 0 /\ (exists b, rc = Ok b) /\ l2 = Ok 0 /\ lc = Ok tt /\
  out = Ok (verdict (sat (match_attribute (aattrs l)) r) pt).
Proof.
  intros q r l pt rk rp rx l1 re rc l2 lc out Hq N1 N2 Hl Po Lt. apply (delivery_rule KP (InPolicy q) (InAttrs l) pt (kp_params E) (kp_public E) (kp_master E) (fun P => kp_user E P q) (fun P => kp_sealed E P (aattrs l) pt)).
  - apply kp_public_carried.
  - apply kp_master_carried.
  - intros P c c'. apply kp_user_carried.
  - intros P c c'. apply kp_sealed_carried.
  - intros P c (A & B & C & D) n I0. cbn [pub_names In] in I0. repeat (destruct I0 as [<-|I0]; [eauto|]). destruct I0.
  - intros P c. apply (kp_user_ready E P q r); assumption.
  - intros mpk msk w w' A. destruct (kp_generate_ok E HE mpk msk w w' A) as (P & kp & ks & X1 & X2 & X3 & X4 & X5 & _ & X6 & _). exists P, kp, ks. repeat (split; [assumption|]). assumption.
  - intros P kid mpk msk kp ks w A B C D. destruct (kp_keygen_ok E HE P q r kid mpk msk kp ks w A B C D Hq N2) as (dec & off & X & Y & Z & V). exists dec, off. auto.
  - intros P mpk kp w A B W. destruct (kp_encrypt_ok E HE P l mpk kp pt w A B N1 Hl) as (w' & X & Y & Z & V1 & V2 & V3 & V4). exists w'. split; [exact X|]. split; [exact Y|]. split; [exact Z|].
    rewrite V1, V2, V3, W in *. split; [apply V4; [exact Po|apply sound_nil]|]. split; [reflexivity|]. split; [reflexivity|]. reflexivity.
  - intros P c (t & l' & C1 & _). exact (part_some _ _ _ C1).
  - intros P kid k w mpk A B C. destruct (sat (match_attribute (aattrs l)) r) eqn:Es; cbn [verdict].
    + destruct (kp_decrypt_ok E HE P q r (aattrs l) pt kid k w mpk A B C Hq Es Hl) as (key & X). eauto.
    + destruct B as (sh & o & o' & _ & _ & B1 & _). destruct C as (tt & l' & C1 & C2 & _). destruct Hq as (Q1 & _ & _ & _ & Q5).
      eexists. eapply (denied E (law_sort E HE) KP mpk kid w (ptext q) l'); [split; [eauto|exact C1]|exact Q5|exact Q1|]. rewrite (match_same (aattrs l) (aattrs l') C2). exact Es.
Qed.
End Travel.
