(** Complete sessions end in the plaintext or in the refusal. *)
From Verif Require Import Base StrMap ByteString ByteStringProofs UInteger Field FieldProofs Policy Driver Parser AttrList Utils Kdf KdfProofs Lsss LsssSpec LsssRecover LsssUse LsssFinal SchemeRows Container ContainerSpec ContainerProofs Keystore Scheme SchemeSpec SchemeStep SchemeCp SchemeKp SchemeFrame SchemeUse.
From Coq Require Import ZArith Znumtheory List Ascii Bool Lia Permutation.
Import ListNotations.
Open Scope Z_scope.

Section Session.
Context (E : engine) (HE : lawful E).
Notation K := (e_curve E).
Notation short := (short_label E).

(** One rule for both schemes: [pub], [mas], [usr], [sea] say what a public key, a
    master key, a user key and a ciphertext of the same parameters hold. *)
Lemma session_rule : forall sch kinp einp pt Par (pub mas usr sea : Par -> container K -> Prop) good,
  (forall P c c', carried E c c' -> pub P c -> pub P c') -> (forall P c c', carried E c c' -> mas P c -> mas P c') -> (forall P c c', carried E c c' -> usr P c -> usr P c') ->
  (forall mpk msk w w', generate_params E sch mpk msk w = (w', Ok 0) -> exists P kp ks, holds E KEY_PUBLIC mpk kp w' /\ holds E KEY_SECRET msk ks w' /\ pub P (k_parts kp) /\ mas P (k_parts ks)) ->
  (forall P kid mpk msk kp ks w, holds E KEY_PUBLIC mpk kp w -> holds E KEY_SECRET msk ks w -> pub P (k_parts kp) -> mas P (k_parts ks) ->
     exists dec off, keygen E sch kinp kid mpk msk w = (set_off E (set_store E w (add_key (w_store E w) kid (Some dec) KEY_SECRET)) off, Ok 0) /\ usr P (k_parts dec)) ->
  (forall P mpk kp w, holds E KEY_PUBLIC mpk kp w -> pub P (k_parts kp) ->
     exists w', encrypt E sch mpk einp pt w = (w', Ok 0) /\ w_store E w' = w_store E w /\ sea P (ct_parts (w_ct E w'))) ->
  (forall P kid k w mpk, holds E KEY_SECRET kid k w -> usr P (k_parts k) -> sea P (ct_parts (w_ct E w)) -> exists w', decrypt E sch mpk kid w = (w', Ok good)) ->
  forall rk re out, session E sch kinp einp pt rk re out -> rk = Ok 0 /\ re = Ok 0 /\ out = Ok good.
Proof.
  intros sch kinp einp pt Par pub mas usr sea good Cp Cm Cu Gen Key Enc Dec rk re out H. inversion H as
    [mpk msk kid mpk' x0 w1 h1 x2 w3 h2 x4 ct0 w5 h3 x6 w7 E1 H1 S1 S1' E2 H2 S2 S2' E3 H3 S3 E4 | mpk msk kid mpk' x0 w1 h1 x2 ct0 w3 h2 x4 w5 h3 x6 w7 E1 H1 S1 S1' E2 H2 S2 S2' E3 H3 S3 E4].
  - destruct (Gen _ _ _ _ E1) as (P & kp & ks & Hp & Hs & Pp & Pm).
    destruct (steady_carried E _ _ _ _ _ (history_steady E HE sch _ _ _ _ _ H1 S1) Hp) as (kp2 & Hp2 & C1).
    destruct (steady_carried E _ _ _ _ _ (history_steady E HE sch _ _ _ _ _ H1 S1') Hs) as (ks2 & Hs2 & C2).
    destruct (Key P kid mpk msk kp2 ks2 (start E x2 (no_ct E)) Hp2 Hs2 (Cp _ _ _ C1 Pp) (Cm _ _ _ C2 Pm)) as (dec & off & Ek & Pu).
    rewrite E2 in Ek. injection Ek as -> ->. split; [reflexivity|]. cbn [left_by] in H2.
    assert (has E KEY_PUBLIC mpk kp2 (fst (left_by E (set_off E (set_store E (start E x2 (no_ct E)) (add_key (w_store E (start E x2 (no_ct E))) kid (Some dec) KEY_SECRET)) off)))) as Hp3 by exact Hp2.
    destruct (steady_carried E _ _ _ _ _ (history_steady E HE sch _ _ _ _ _ H2 S2) Hp3) as (kp4 & Hp4 & C3).
    assert (has E KEY_SECRET kid dec (fst (left_by E (set_off E (set_store E (start E x2 (no_ct E)) (add_key (w_store E (start E x2 (no_ct E))) kid (Some dec) KEY_SECRET)) off)))) as Hu3 by (unfold has; cbn; apply mget_mset_same).
    destruct (steady_carried E _ _ _ _ _ (history_steady E HE sch _ _ _ _ _ H2 S2') Hu3) as (u4 & Hu4 & C4).
    destruct (Enc P mpk kp4 (start E x4 ct0) Hp4 (Cp _ _ _ C3 (Cp _ _ _ C1 Pp))) as (w' & Ee & Es & Psea). rewrite E3 in Ee. injection Ee as -> ->. split; [reflexivity|].
    assert (has E KEY_SECRET kid u4 (fst (left_by E w'))) as Hu5 by (unfold has, left_by; cbn [fst]; rewrite Es; exact Hu4).
    destruct (steady_carried E _ _ _ _ _ (history_steady E HE sch _ _ _ _ _ H3 S3) Hu5) as (u6 & Hu6 & C5).
    destruct (Dec P kid u6 (start E x6 (w_ct E w')) mpk' Hu6 (Cu _ _ _ C5 (Cu _ _ _ C4 Pu)) Psea) as (w8 & Ed). rewrite E4 in Ed. injection Ed as _ ->. reflexivity.
  - destruct (Gen _ _ _ _ E1) as (P & kp & ks & Hp & Hs & Pp & Pm).
    destruct (steady_carried E _ _ _ _ _ (history_steady E HE sch _ _ _ _ _ H1 S1) Hp) as (kp2 & Hp2 & C1).
    destruct (steady_carried E _ _ _ _ _ (history_steady E HE sch _ _ _ _ _ H1 S1') Hs) as (ks2 & Hs2 & C2).
    destruct (Enc P mpk kp2 (start E x2 ct0) Hp2 (Cp _ _ _ C1 Pp)) as (w' & Ee & Es & Psea). rewrite E2 in Ee. injection Ee as -> ->.
    assert (has E KEY_PUBLIC mpk kp2 (fst (left_by E w'))) as Hp3 by (unfold has, left_by; cbn [fst]; rewrite Es; exact Hp2).
    assert (has E KEY_SECRET msk ks2 (fst (left_by E w'))) as Hs3 by (unfold has, left_by; cbn [fst]; rewrite Es; exact Hs2).
    destruct (steady_carried E _ _ _ _ _ (history_steady E HE sch _ _ _ _ _ H2 S2) Hp3) as (kp4 & Hp4 & C3).
    destruct (steady_carried E _ _ _ _ _ (history_steady E HE sch _ _ _ _ _ H2 S2') Hs3) as (ks4 & Hs4 & C4).
    destruct (Key P kid mpk msk kp4 ks4 (start E x4 (no_ct E)) Hp4 Hs4 (Cp _ _ _ C3 (Cp _ _ _ C1 Pp)) (Cm _ _ _ C4 (Cm _ _ _ C2 Pm))) as (dec & off & Ek & Pu).
    rewrite E3 in Ek. injection Ek as -> ->. split; [reflexivity|]. split; [reflexivity|].
    assert (has E KEY_SECRET kid dec (fst (left_by E (set_off E (set_store E (start E x4 (no_ct E)) (add_key (w_store E (start E x4 (no_ct E))) kid (Some dec) KEY_SECRET)) off)))) as Hu3 by (unfold has; cbn; apply mget_mset_same).
    destruct (steady_carried E _ _ _ _ _ (history_steady E HE sch _ _ _ _ _ H3 S3) Hu3) as (u6 & Hu6 & C5).
    destruct (Dec P kid u6 (start E x6 (w_ct E w')) mpk' Hu6 (Cu _ _ _ C5 Pu) Psea) as (w8 & Ed). rewrite E4 in Ed. injection Ed as _ ->. reflexivity.
Qed.

Definition verdict (b : bool) (pt : str) : Z * str := if b then (0, pt) else (32, []).

Lemma cp_session : forall q r l pt rk re out, usable E q r -> no_collision short (aattrs l) -> no_collision short (row_names q) -> len pt < 2147483616 ->
  session E CP (InAttrs l) (InPolicy q) pt rk re out -> rk = Ok 0 /\ re = Ok 0 /\ out = Ok (verdict (sat (match_attribute (aattrs l)) r) pt).
Proof.
  intros q r l pt rk re out Hq N1 N2 Hl. apply (session_rule CP (InAttrs l) (InPolicy q) pt (cp_params E) (cp_public E) (cp_master E) (fun P => cp_user E P (aattrs l)) (fun P => cp_sealed E P q pt)).
  - apply cp_public_carried.
  - apply cp_master_carried.
  - intros P c c'. apply cp_user_carried.
  - intros mpk msk w w' A. destruct (cp_generate_ok E HE mpk msk w w' A) as (P & kp & ks & X1 & X2 & X3 & X4 & _). exists P, kp, ks. auto.
  - intros P kid mpk msk kp ks w A B C D. destruct (cp_keygen_ok E HE P l kid mpk msk kp ks w A B C D N1) as (dec & off & X & Y & _). eauto.
  - intros P mpk kp w A B. destruct (cp_encrypt_ok E HE P q r mpk kp pt w A B Hq N2 Hl) as (w' & X & Y & Z & _). eauto.
  - intros P kid k w mpk A B C. destruct (sat (match_attribute (aattrs l)) r) eqn:Es; cbn [verdict].
    + destruct (cp_decrypt_ok E HE P q r (aattrs l) pt kid k w mpk A B C Hq Es Hl) as (key & X). eauto.
    + destruct B as (tt & l' & B1 & B2 & _). destruct C as (s & sh & o & o' & _ & _ & C1 & _). destruct Hq as (Q1 & _ & _ & _ & Q5).
      eexists. eapply (denied E (law_sort E HE) CP mpk kid w (ptext q) l'); [split; [eauto|exact C1]|exact Q5|exact Q1|]. rewrite (match_same (aattrs l) (aattrs l') B2). exact Es.
Qed.
Lemma kp_session : forall q r l pt rk re out, usable E q r -> no_collision short (aattrs l) -> no_collision short (row_names q) -> len pt < 2147483616 ->
  session E KP (InPolicy q) (InAttrs l) pt rk re out -> rk = Ok 0 /\ re = Ok 0 /\ out = Ok (verdict (sat (match_attribute (aattrs l)) r) pt).
Proof.
  intros q r l pt rk re out Hq N1 N2 Hl. apply (session_rule KP (InPolicy q) (InAttrs l) pt (kp_params E) (kp_public E) (kp_master E) (fun P => kp_user E P q) (fun P => kp_sealed E P (aattrs l) pt)).
  - apply kp_public_carried.
  - apply kp_master_carried.
  - intros P c c'. apply kp_user_carried.
  - intros mpk msk w w' A. destruct (kp_generate_ok E HE mpk msk w w' A) as (P & kp & ks & X1 & X2 & X3 & X4 & _). exists P, kp, ks. auto.
  - intros P kid mpk msk kp ks w A B C D. destruct (kp_keygen_ok E HE P q r kid mpk msk kp ks w A B C D Hq N2) as (dec & off & X & Y & _). eauto.
  - intros P mpk kp w A B. destruct (kp_encrypt_ok E HE P l mpk kp pt w A B N1 Hl) as (w' & X & Y & Z & _). eauto.
  - intros P kid k w mpk A B C. destruct (sat (match_attribute (aattrs l)) r) eqn:Es; cbn [verdict].
    + destruct (kp_decrypt_ok E HE P q r (aattrs l) pt kid k w mpk A B C Hq Es Hl) as (key & X). eauto.
    + destruct B as (sh & o & o' & _ & _ & B1 & _). destruct C as (tt & l' & C1 & C2 & _). destruct Hq as (Q1 & _ & _ & _ & Q5).
      eexists. eapply (denied E (law_sort E HE) KP mpk kid w (ptext q) l'); [split; [eauto|exact C1]|exact Q5|exact Q1|]. rewrite (match_same (aattrs l) (aattrs l') C2). exact Es.
Qed.
End Session.
