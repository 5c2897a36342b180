(** C124: any number of parties using the contexts. *)
From Verif Require Import Base StrMap ByteString ByteStringProofs UInteger Field FieldProofs Policy Driver Parser AttrList Utils Kdf KdfProofs Lsss LsssSpec LsssRecover LsssUse LsssFinal SchemeRows PolicySyntax Lexical PolicyMeaning AttrMeaning PrintParse PolicyUse PolicyTruth ParserFinal CreatePolicy Container ContainerSpec ContainerProofs Travel Keystore Scheme SchemeSpec DeliverySpec SchemeStep SchemeCp SchemeKp SchemeFrame SchemeUse SchemeFirm SchemeKeep SchemeSession SchemeTravel SchemeToy PropScheme PropParser CreateAttrs NetworkSpec Network NetworkStore NetworkProofs.
From Coq Require Import ZArith Znumtheory List Ascii String Bool Lia Permutation.
Import ListNotations.
Open Scope Z_scope.

Section Instances.
Context (E : engine) (HE : lawful E) (HK : curve_ok (e_curve E)).
Notation K := (e_curve E).
Notation short := (short_label E).
Notation sound := (Travel.sound (K:=K) (e_mktime E)).
(** A list document, the list made of it; a policy document, the policy. *)
Definition traits_of (d : doc) (l : attrlist) : Prop := exists a t, d = Traits a t /\ readable E d /\ create_attribute_list (e_mktime E) t = Ok (Some l).
Definition rule_of (d : doc) (q : policy) : Prop := exists e s, d = Rule e s /\ readable E d /\ create_policy_tree (e_mktime E) s = Ok (Some q).
Lemma docs_meet : forall d d' l q, traits_of d l -> rule_of d' q -> decided (e_mktime E) d d' ->
  exists r, usable E q r /\ sat (match_attribute (aattrs l)) r = granted (e_mktime E) d d' /\ granted (e_mktime E) d' d = granted (e_mktime E) d d'.
Proof.
  intros d d' l q (a & t & -> & (R1 & _) & Hl) (e & s & -> & (R2 & R3 & R4 & R5 & _) & Hq) Dd.
  destruct (texts_usable E e s a t q l) as (r & U & S0); [constructor; assumption|exact Hq|exact Hl|]. exists r. split; [exact U|]. split; [exact S0|reflexivity].
Qed.
Lemma rule_usable : forall d q, rule_of d q -> (exists r, usable E q r) /\ no_collision short (row_names q) /\ len (ptext q) < 2 ^ 31.
Proof.
  intros d q (e & s & -> & (R2 & R3 & R4 & R5 & R6 & q' & Hq' & N) & Hq). rewrite Hq in Hq'. injection Hq' as <-.
  assert (reads e s) as R by (apply text_reads; exact R2). destruct (usable_from_text E s q e Hq R R3 R4 R5) as (r & U). split; [eauto|]. split; [exact N|].
  destruct (policy_ready (e_mktime E) s q Hq) as (_ & _ & _ & _ & _ & _ & _ & _ & T & _). rewrite T. exact R6.
Qed.
Lemma traits_fine : forall d l, traits_of d l -> no_collision short (aattrs l) /\ portable K (e_mktime E) (OAttrs l).
Proof. intros d l (a & t & -> & (R1 & l' & Hl' & N & C) & Hl). rewrite Hl in Hl'. injection Hl' as <-. split; [exact N|]. split; [eauto|exact C]. Qed.
Lemma key_doc : forall d inp, readable E d -> read_doc E d = Some inp -> match d with Traits _ _ => exists l, inp = InAttrs l /\ traits_of d l | Rule _ _ => exists q, inp = InPolicy q /\ rule_of d q end.
Proof.
  intros d inp R H. destruct d as [e s|a t]; cbn [read_doc] in H.
  - destruct (create_policy_tree (e_mktime E) s) as [[q|]| | | |] eqn:X; try discriminate. injection H as <-. exists q. split; [reflexivity|]. exists e, s. auto.
  - destruct (create_attribute_list (e_mktime E) t) as [[q|]| | | |] eqn:X; try discriminate. injection H as <-. exists q. split; [reflexivity|]. exists a, t. auto.
Qed.
Lemma set_sym_store : forall w k, w_store E (set_sym E w k) = w_store E w.
Proof. reflexivity. Qed.

Lemma cp_network : forall os, permitted E CP nobody (empty_place E) os -> Forall2 meets (ideal_run CP (e_mktime E) nobody os) (perform_run E CP (empty_place E) os).
Proof.
  intros os P. pose (P0 := {| P1 := zero1 E; P2 := e_g2 E 0; Palpha := 0; Pa := 0; Pk := [] |} : cp_params E).
  eapply (refine_run E HK CP (cp_params E) (cp_public E) (cp_master E)
    (fun P d c => exists l, traits_of d l /\ cp_user E P (aattrs l) c) (fun P d pt c => exists q, rule_of d q /\ len pt < 2147483616 /\ cp_sealed E P q pt c)) with (Pa := fun _ => P0).
  - apply cp_public_carried.
  - intros P1 d c c' C (l & T & U). exists l. split; [exact T|]. eapply cp_user_carried; eauto.
  - intros P1 d pt c c' C (q & T & Lp & U). exists q. split; [exact T|]. split; [exact Lp|]. eapply cp_sealed_carried; eauto.
  - intros P1 c (A & _). exact (part_some _ _ _ A).
  - intros P1 d c (l & _ & t & l' & A & _). exact (part_some _ _ _ A).
  - intros P1 d pt c (q & _ & _ & s & sh & o & o' & _ & _ & A & _). exact (part_some _ _ _ A).
  - intros mpk msk w w1 Eb. destruct (cp_generate_runs E HE mpk msk w w1 Eb) as (P1 & kp & ks & off & X1 & X2 & X3 & X4 & X5 & X6 & _). exists P1, kp, ks, off. auto.
  - intros P1 d inp id mpk msk kp ks w Hp Hs Pp Pm Rd Fk Ri. pose proof (key_doc d inp Rd Ri) as X. destruct d as [e s|a t]; [discriminate|]. destruct X as (l & -> & T). destruct (traits_fine _ _ T) as [N Po].
    destruct (cp_keygen_ok E HE P1 l id mpk msk kp ks w Hp Hs Pp Pm N) as (dec & off & Y1 & Y2 & Y3 & Y4). exists dec, off. split; [exact Y1|]. split; [eauto|]. auto.
  - intros P1 d inp mpk kp pt w Hp Pp Rd Fk Ri Lp Ct. pose proof (key_doc d inp Rd Ri) as X. destruct d as [e s|a t]; [|discriminate]. destruct X as (q & -> & T). destruct (rule_usable _ _ T) as ((r & U) & N & Lt).
    destruct (cp_encrypt_ok E HE P1 q r mpk kp pt w Hp Pp U N Lp) as (w' & Y1 & Y2 & Y3 & V1 & V2 & V3 & V4). exists w'. split; [exact Y1|]. split; [exact Y2|]. split; [eauto|].
    rewrite Ct in *. split; [apply V4; [exact Lt|apply sound_nil]|]. split; [rewrite V2; reflexivity|]. split; [exact V1|rewrite V3; reflexivity].
  - intros P1 P1' d d' pt id k w mpk Hk (l & T & Us) (q & T' & Lp & Se) Dd. destruct (docs_meet d d' l q T T' Dd) as (r & U & S0 & _).
    pose proof (decrypt_still E HE CP mpk id k w Hk (cp_user_ready E P1 _ _ Us)) as Still. destruct (decrypt E CP mpk id w) as [w' rr] eqn:Ed. cbn [fst] in Still. exists w', rr. split; [reflexivity|]. split; [exact Still|]. split.
    + intro G. rewrite G in S0. destruct Us as (tt & l' & B1 & B2 & _). destruct Se as (s & sh & o & o' & _ & _ & C1 & _). destruct U as (Q1 & _ & _ & _ & Q5).
      rewrite (denied E (law_sort E HE) CP mpk id w (ptext q) l' q r) in Ed; [injection Ed as <- <-; auto|split; [eauto|exact C1]|exact Q5|exact Q1|]. rewrite (match_same (aattrs l) (aattrs l') B2). exact S0.
    + intros G <-. rewrite G in S0. destruct (cp_decrypt_ok E HE P1 q r (aattrs l) pt id k w mpk Hk Us Se U S0 Lp) as (key & X). rewrite X in Ed. injection Ed as <- <-. auto.
  - apply agree_empty.
  - exact P.
Qed.
Lemma kp_network : forall os, permitted E KP nobody (empty_place E) os -> Forall2 meets (ideal_run KP (e_mktime E) nobody os) (perform_run E KP (empty_place E) os).
Proof.
  intros os P. pose (P0 := {| Q1 := zero1 E; Q2 := e_g2 E 0; Qy := 0; Qk := [] |} : kp_params E).
  eapply (refine_run E HK KP (kp_params E) (kp_public E) (kp_master E)
    (fun P d c => exists q, rule_of d q /\ kp_user E P q c) (fun P d pt c => exists l, traits_of d l /\ len pt < 2147483616 /\ kp_sealed E P (aattrs l) pt c)) with (Pa := fun _ => P0).
  - apply kp_public_carried.
  - intros P1 d c c' C (l & T & U). exists l. split; [exact T|]. eapply kp_user_carried; eauto.
  - intros P1 d pt c c' C (q & T & Lp & U). exists q. split; [exact T|]. split; [exact Lp|]. eapply kp_sealed_carried; eauto.
  - intros P1 c (A & _). exact (part_some _ _ _ A).
  - intros P1 d c (l & _ & sh & o & o' & _ & _ & A & _). exact (part_some _ _ _ A).
  - intros P1 d pt c (q & _ & _ & t & l & A & _). exact (part_some _ _ _ A).
  - intros mpk msk w w1 Eb. destruct (kp_generate_runs E HE mpk msk w w1 Eb) as (P1 & kp & ks & off & X1 & X2 & X3 & X4 & X5 & X6 & _). exists P1, kp, ks, off. auto.
  - intros P1 d inp id mpk msk kp ks w Hp Hs Pp Pm Rd Fk Ri. pose proof (key_doc d inp Rd Ri) as X. destruct d as [e s|a t]; [|discriminate]. destruct X as (q & -> & T). destruct (rule_usable _ _ T) as ((r & U) & N & Lt).
    destruct (kp_keygen_ok E HE P1 q r id mpk msk kp ks w Hp Hs Pp Pm U N) as (dec & off & Y1 & Y2 & Y3 & Y4). exists dec, off. split; [exact Y1|]. split; [eauto|]. auto.
  - intros P1 d inp mpk kp pt w Hp Pp Rd Fk Ri Lp Ct. pose proof (key_doc d inp Rd Ri) as X. destruct d as [e s|a t]; [discriminate|]. destruct X as (l & -> & T). destruct (traits_fine _ _ T) as [N Po].
    destruct (kp_encrypt_ok E HE P1 l mpk kp pt w Hp Pp N Lp) as (w' & Y1 & Y2 & Y3 & V1 & V2 & V3 & V4). exists w'. split; [exact Y1|]. split; [exact Y2|]. split; [eauto|].
    rewrite Ct in *. split; [apply V4; [exact Po|apply sound_nil]|]. split; [rewrite V2; reflexivity|]. split; [exact V1|rewrite V3; reflexivity].
  - intros P1 P1' d d' pt id k w mpk Hk (q & T' & Us) (l & T & Lp & Se) Dd. destruct (docs_meet d' d l q T T') as (r & U & S0 & S1).
    { destruct T as (a & t & -> & _), T' as (e & s & -> & _). exact Dd. }
    rewrite <- S1 in S0.
    pose proof (decrypt_still E HE KP mpk id k w Hk (kp_user_ready E P1 _ _ _ U Us)) as Still. destruct (decrypt E KP mpk id w) as [w' rr] eqn:Ed. cbn [fst] in Still. exists w', rr. split; [reflexivity|]. split; [exact Still|]. split.
    + intro G. rewrite G in S0. destruct Us as (sh & o & o' & _ & _ & B1 & _). destruct Se as (tt & l' & C1 & C2 & _). destruct U as (Q1 & _ & _ & _ & Q5).
      rewrite (denied E (law_sort E HE) KP mpk id w (ptext q) l' q r) in Ed; [injection Ed as <- <-; auto|split; [eauto|exact C1]|exact Q5|exact Q1|]. rewrite (match_same (aattrs l) (aattrs l') C2). exact S0.
    + intros G <-. rewrite G in S0. destruct (kp_decrypt_ok E HE P1 q r (aattrs l) pt id k w mpk Hk Us Se U S0 Lp) as (key & X). rewrite X in Ed. injection Ed as <- <-. auto.
  - apply agree_empty.
  - exact P.
Qed.
End Instances.

(** * C124 *)
Theorem C124_as_ideal : forall E sch os, lawful E -> curve_ok (e_curve E) -> permitted E sch nobody (empty_place E) os ->
  Forall2 meets (ideal_run sch (e_mktime E) nobody os) (perform_run E sch (empty_place E) os).
Proof. intros E sch os HE HK P. destruct sch; [apply cp_network|apply kp_network]; assumption. Qed.
Print Assumptions C124_as_ideal.

(** Two authorities, four parties: every kind of call, under both schemes. *)
Definition net_rule : doc := Rule ex_sentence ex_text.
Definition net_traits (n : Z) (t : string) : doc := Traits (ex_list n) (L t).
Definition net_17 := net_traits 17 "c|age=17#8|d".
Definition net_4 := net_traits 4 "c|age=4#8|d".
Definition net_key (sch : scheme) (b : bool) : doc := match sch with CP => if b then net_17 else net_4 | KP => net_rule end.
Definition net_msg (sch : scheme) (b : bool) : doc := match sch with CP => net_rule | KP => if b then net_17 else net_4 end.
Definition net_ops (sch : scheme) : list op := [
  Found 0 (L "mpk") (L "msk"); Found 0 (L "mpk") (L "other"); Found 1 (L "mpk") (L "msk");
  Issue 0 (L "alice") (L "mpk") (L "msk") (net_key sch true); Issue 0 (L "bob") (L "mpk") (L "msk") (net_key sch false);
  Issue 0 (L "carol") (L "none") (L "msk") (net_key sch true); Issue 0 (L "carol") (L "mpk") (L "msk") (net_msg sch true);
  Export 0 (L "mpk"); Export 0 (L "alice"); Load 2 (L "theirs") 0 KEY_PUBLIC; Load 2 (L "me") 1 KEY_SECRET; Export 2 (L "me"); Load 3 (L "again") 2 KEY_SECRET;
  Seal 2 (L "theirs") (net_msg sch true) (L "hello"); Seal 1 (L "mpk") (net_msg sch true) (L "elsewhere"); Seal 2 (L "theirs") (net_msg sch false) (L "secret"); Seal 3 (L "mpk") (net_msg sch true) (L "x");
  Open 3 [] (L "again") 0 true; Open 2 [] (L "me") 0 false; Open 3 [] (L "again") 1 true; Open 0 [] (L "bob") 2 true; Open 0 [] (L "bob") 2 false;
  Forget 2 (L "me"); Open 2 [] (L "me") 0 true; Export 2 (L "me"); Open 3 [] (L "again") 0 true ].
Definition net_light (c : container (e_curve toy_engine)) : bool := match serialize c [] with Ok b => len b <? 2 ^ 32 | _ => true end.
Definition net_small (x : place toy_engine) (o : op) : bool :=
  match o with
  | Open _ _ _ j true => match nth_error (p_mail toy_engine x) j with Some ct => net_light (ct_parts ct) | None => true end
  | Export i id => forallb (fun c => match mget id (class_map toy_engine c (p_stores toy_engine x i)) with Some (Some k) => net_light (k_parts k) | _ => true end) [KEY_PUBLIC; KEY_SECRET]
  | _ => true
  end.
Lemma net_light_ok : forall c, net_light c = true -> light toy_engine c.
Proof. intros c H b X. unfold net_light in H. rewrite X in H. apply Z.ltb_lt. exact H. Qed.
Lemma net_small_ok : forall x o, net_small x o = true -> small toy_engine x o.
Proof.
  intros x o H. destruct o; try exact I; cbn [small net_small] in *.
  - destruct wire; [|exact I]. intros ct X. rewrite X in H. apply net_light_ok. exact H.
  - intros c k X. rewrite forallb_forall in H. specialize (H c). rewrite X in H. apply net_light_ok. apply H. destruct c; cbn; auto.
Qed.
Lemma net_readable : forall d, In d [net_rule; net_17; net_4] -> readable toy_engine d.
Proof.
  intros d [<-|[<-|[<-|[]]]].
  - split; [apply by_lex; [apply good_ptoks|vm_compute; reflexivity]|]. do 4 (split; [vm_compute; reflexivity|]). exists (parsed_policy ex_text). split; [vm_compute; reflexivity|no_names].
  - split; [apply by_lex; [apply good_atoks|vm_compute; reflexivity]|]. exists (parsed_list (L "c|age=17#8|d")). split; [vm_compute; reflexivity|]. split; [no_names|vm_compute; reflexivity].
  - split; [apply by_lex; [apply good_atoks|vm_compute; reflexivity]|]. exists (parsed_list (L "c|age=4#8|d")). split; [vm_compute; reflexivity|]. split; [no_names|vm_compute; reflexivity].
Qed.
Lemma net_decided : forall d d', In d [net_rule; net_17; net_4] -> In d' [net_rule; net_17; net_4] -> decided (e_mktime toy_engine) d d'.
Proof.
  intros d d' [<-|[<-|[<-|[]]]] [<-|[<-|[<-|[]]]]; try exact I; (intros c b _ x y; cbn; intros [X|[]] [Y|[]]; congruence).
Qed.
(** The conditions on the parties, checked by running the script. *)
Definition net_allowed (st : ideal) (o : op) : bool :=
  match o with
  | Found _ mpk msk => (len mpk <? 2 ^ 31) && (len msk <? 2 ^ 31)
  | Issue i id mpk msk _ => (len id <? 2 ^ 31) &&
      match keys st i KEY_PUBLIC mpk, keys st i KEY_SECRET msk with Some (Params n), Some (Master m) => Nat.eqb n m | Some _, Some _ => false | _, _ => true end
  | Seal _ _ _ pt => len pt <? 2147483616
  | Open i _ id j wire =>
      match nth_error (mail st) j with
      | Some (m, d', _) => match keys st i KEY_SECRET id with Some (Right n d) => wire || negb (granted (e_mktime toy_engine) d d') || Nat.eqb n m | Some _ => false | None => true end
      | None => false
      end
  | Export i id => match keys st i KEY_PUBLIC id, keys st i KEY_SECRET id with None, Some (Master _) => false | _, _ => true end
  | Load _ _ j c => match nth_error (parcels st) j with Some f => same_class (class_of f) c | None => false end
  | Forget _ _ => true
  end.
Fixpoint net_permitted (sch : scheme) (st : ideal) (x : place toy_engine) (os : list op) : bool :=
  match os with
  | [] => true
  | o :: os => net_allowed st o && net_small x o && net_permitted sch (fst (ideal_step sch (e_mktime toy_engine) st o)) (fst (perform toy_engine sch x o)) os
  end.
Definition net_doc (d : doc) : Prop := In d [net_rule; net_17; net_4].
Definition net_standing (f : standing) : Prop := match f with Right _ d => net_doc d | _ => True end.
Definition net_docs (st : ideal) : Prop :=
  (forall i c id f, keys st i c id = Some f -> net_standing f) /\ (forall m, In m (mail st) -> net_doc (snd (fst m))) /\ (forall f, In f (parcels st) -> net_standing f).
Definition net_op (o : op) : Prop := match o with Issue _ _ _ _ d | Seal _ _ d _ => net_doc d | _ => True end.
Lemma net_put : forall k i c id v, (forall i c id f, k i c id = Some f -> net_standing f) -> (forall f, v = Some f -> net_standing f) ->
  forall i' c' id' f, put k i c id v i' c' id' = Some f -> net_standing f.
Proof. intros k i c id v A B i' c' id' f H. unfold put in H. destruct (Nat.eqb i i' && same_class c c' && str_eqb id id'); eauto. Qed.
Lemma net_step : forall sch st o, net_docs st -> net_op o -> net_docs (fst (ideal_step sch (e_mktime toy_engine) st o)).
Proof.
  intros sch st o (A & B & C) N. destruct o; cbn [ideal_step].
  - destruct (keys st i KEY_PUBLIC mpk), (keys st i KEY_SECRET mpk), (keys st i KEY_PUBLIC msk), (keys st i KEY_SECRET msk); cbn [fst]; try (split; [exact A|split; assumption]).
    split; [|split; assumption]. cbn [keys]. apply net_put; [apply net_put; [exact A|]|]; intros f X; injection X as <-; exact I.
  - destruct (negb (for_key sch d)); [split; [exact A|split; assumption]|].
    destruct (keys st i KEY_PUBLIC mpk) as [[]|], (keys st i KEY_SECRET msk) as [[]|]; try (split; [exact A|split; assumption]).
    split; [|split; assumption]. cbn [fst keys]. apply net_put; [exact A|]. intros f X; injection X as <-. exact N.
  - destruct (negb (for_message sch d)); [split; [exact A|split; assumption]|].
    destruct (keys st i KEY_PUBLIC mpk) as [[]|]; try (split; [exact A|split; assumption]).
    split; [exact A|]. split; [|exact C]. intros m H. cbn [fst mail] in H. apply in_app_or in H as [H|[<-|[]]]; [exact (B m H)|exact N].
  - split; [exact A|split; assumption].
  - destruct (keys st i KEY_PUBLIC id) eqn:X; [|destruct (keys st i KEY_SECRET id) eqn:Y; [|split; [exact A|split; assumption]]];
      (split; [exact A|]; split; [exact B|]; intros f H; cbn [fst parcels] in H; apply in_app_or in H as [H|[<-|[]]]; eauto).
  - destruct (nth_error (parcels st) j) eqn:X; [|split; [exact A|split; assumption]]. split; [|split; assumption]. cbn [fst keys]. apply net_put; [exact A|]. intros f Y; injection Y as <-. apply C. eapply nth_error_In; eauto.
  - split; [|split; assumption]. cbn [fst keys]. apply net_put; [apply net_put; [exact A|]|]; intros f X; discriminate.
Qed.
Lemma net_allowed_ok : forall st o, net_docs st -> net_op o -> net_allowed st o = true -> allowed (e_mktime toy_engine) (readable toy_engine) st o.
Proof.
  intros st o (A & B & C) N H. destruct o; cbn [net_allowed allowed] in *.
  - apply andb_true_iff in H as [H1 H2]. split; apply Z.ltb_lt; assumption.
  - apply andb_true_iff in H as [H1 H2]. split; [apply net_readable; exact N|]. split; [apply Z.ltb_lt; exact H1|]. intros p m X Y. rewrite X, Y in H2.
    destruct p; try discriminate. destruct m; try discriminate. apply Nat.eqb_eq in H2. subst. eauto.
  - split; [apply net_readable; exact N|apply Z.ltb_lt; exact H].
  - destruct (nth_error (mail st) j) as [[[m d'] pt]|] eqn:X; [|discriminate]. exists m, d', pt. split; [reflexivity|]. intros f Y. rewrite Y in H. destruct f; try discriminate.
    exists n, d. split; [reflexivity|]. split; [apply net_decided; [exact (A _ _ _ _ Y)|exact (B _ (nth_error_In _ _ X))]|].
    apply orb_true_iff in H as [H|H]; [apply orb_true_iff in H as [H|H]; [auto|apply negb_true_iff in H; auto]|apply Nat.eqb_eq in H; auto].
  - intros X n Y. rewrite X, Y in H. discriminate.
  - destruct (nth_error (parcels st) j) as [f|] eqn:X; [|discriminate]. exists f. split; [reflexivity|]. destruct (class_of f), c; try discriminate; reflexivity.
  - exact I.
Qed.
Lemma net_permitted_ok : forall sch os st x, net_docs st -> Forall net_op os -> net_permitted sch st x os = true -> permitted toy_engine sch st x os.
Proof.
  intros sch os. induction os as [|o os IH]; intros st x D N H; [exact I|]. cbn [permitted net_permitted] in *. apply andb_true_iff in H as [H H3]. apply andb_true_iff in H as [H1 H2]. inversion N; subst.
  split; [apply net_allowed_ok; assumption|]. split; [apply net_small_ok; exact H2|]. apply IH; [apply net_step; assumption|assumption|exact H3].
Qed.
Definition net_answers : list answer := [
  Code 0; Code 17; Code 0; Code 0; Code 0; Code 5; Code 8; Code 0; Code 0; Code 0; Code 0; Code 0; Code 0; Code 0; Code 0; Code 0; Code 5;
  Text 0 (L "hello"); Text 0 (L "hello"); Stray; Text 32 []; Text 32 []; Code 0; Text 8 []; Code 8; Text 0 (L "hello") ].
Example C124_nonvacuous : forall sch, lawful toy_engine /\ curve_ok (e_curve toy_engine) /\ permitted toy_engine sch nobody (empty_place toy_engine) (net_ops sch) /\
  ideal_run sch (e_mktime toy_engine) nobody (net_ops sch) = map (fun a => match a with Stray => None | _ => Some a end) net_answers.
Proof.
  intro sch. split; [exact toy_lawful|]. split; [exact toy_curve_ok|]. split.
  - apply net_permitted_ok.
    + split; [discriminate|]. split; intros ? [].
    + destruct sch; repeat (constructor; [cbn; auto|]); constructor.
    + destruct sch; vm_compute; reflexivity.
  - destruct sch; vm_compute; reflexivity.
Qed.
