(** Decrypting with an issued key: the key is not touched, and the call answers. *)
From Verif Require Import Base StrMap ByteString ByteStringProofs UInteger Field FieldProofs Policy Driver Parser AttrList Utils Kdf KdfProofs Lsss LsssSpec LsssRecover LsssShare LsssUse LsssFinal PolicySyntax Lexical PolicyMeaning ParserTop CreatePolicy ParserFinal PolicyUse NoThrow SchemeRows Container ContainerSpec ContainerProofs Keystore Scheme SchemeSpec SchemeStep SchemeCp SchemeKp SchemeFrame SchemeUse PropUtil.
From Coq Require Import ZArith Znumtheory List Ascii Bool Lia Permutation.
Import ListNotations.
Open Scope Z_scope.

Section Firm.
Context (E : engine) (HE : lawful E).
Notation K := (e_curve E).
Notation short := (short_label E).

(** A step that leaves the key store alone, and under [G] gives a value or an
    OpenABE error code. *)
Definition calm {A} (r : res A) : Prop := match r with Ok _ | Throw (OpenABEError _) => True | _ => False end.
Definition tame {A} (G : Prop) (w : world E) (x : world E * res A) : Prop :=
  w_store E (fst x) = w_store E w /\ (forall n, G -> mget n (ct_parts (w_ct E (fst x))) = mget n (ct_parts (w_ct E w)) \/ mget n (ct_parts (w_ct E w)) = None /\ mget n (ct_parts (w_ct E (fst x))) = Some None) /\ (G -> calm (snd x)).
Lemma tame_trans_ct : forall (a b c : option (option (zobj K))), (b = a \/ a = None /\ b = Some None) -> (c = b \/ b = None /\ c = Some None) -> c = a \/ a = None /\ c = Some None.
Proof. intros a b c [->|[-> ->]] [->|[X ->]]; auto; discriminate. Qed.
Lemma tame_andthen : forall A B G (m : code E A) (f : A -> code E B) w, tame G w (m w) ->
  (forall a w1, m w = (w1, Ok a) -> w_store E w1 = w_store E w -> tame G w1 (f a w1)) -> tame G w (andthen E m f w).
Proof.
  intros A B G m f w (H1 & H2 & H3) Hf. unfold andthen. destruct (m w) as [w1 r]. cbn [fst snd] in *. destruct r; cbn [fst snd]; try (split; [exact H1|split; [exact H2|exact H3]]).
  destruct (Hf a w1 eq_refl H1) as (F1 & F2 & F3). split; [congruence|]. split; [|exact F3]. intros n g. eapply tame_trans_ct; eauto.
Qed.
Lemma tame_catch : forall G m w, tame G w (m w) -> tame G w (catch_code E m w).
Proof. intros G m w (H1 & H2 & H3). unfold catch_code. destruct (m w) as [w1 r]. destruct r as [a|[]| | |]; (split; [exact H1|split; [exact H2|]]); cbn [fst snd] in *; auto; intro g; exact I. Qed.
Lemma tame_here : forall A (G : Prop) w (r : res A), (G -> calm r) -> tame G w (w, r).
Proof. intros A G w r H. split; [reflexivity|]. split; [auto|exact H]. Qed.
Lemma tame_ct_part : forall A (cast : zobj K -> option A) G n w, tame G w (ct_part E cast n w).
Proof.
  intros A cast G n w. unfold ct_part, andthen, ct_component. destruct (mget n (ct_parts (w_ct E w))) as [[x|]|] eqn:Em.
  - rewrite (get_present _ _ _ _ Em). split; [reflexivity|]. split; [intros; left; reflexivity|intros; exact I].
  - rewrite (get_null _ _ _ Em). split; [reflexivity|]. split; [intros; left; reflexivity|intros; exact I].
  - rewrite (get_missing _ _ _ Em). split; [reflexivity|]. split; [|intros; exact I]. intros n' _. cbn [fst w_ct set_ct ct_parts with_parts]. destruct (str_eq_dec n' n) as [->|N]; [right; rewrite mget_mset_same; auto|left; apply mget_mset_other; exact N].
Qed.
Lemma tame_assert : forall A G (o : option A) w, tame G w (assert_notnull E o w).
Proof. intros A G [a|] w; apply tame_here; intro; exact I. Qed.
Lemma tame_lift : forall A (G : Prop) (r : res A) w, (G -> calm r) -> tame G w (lift E r w).
Proof. intros. apply tame_here. assumption. Qed.
Lemma tame_throw : forall A G e w, tame G w (throw E (A:=A) e w).
Proof. intros. apply tame_here. intro. exact I. Qed.
Lemma tame_ret : forall A G (a : A) w, tame G w (ret E a w).
Proof. intros. apply tame_here. intro. exact I. Qed.
Lemma tame_sym : forall G x w, tame G w (hash_to_sym E x 32 w).
Proof. intros G x w. rewrite hash_to_sym_ok by exact HE. split; [reflexivity|]. split; [auto|intro; exact I]. Qed.
Lemma calm_pairing : forall a b, calm (multi_pairing E a b).
Proof. intros a b. unfold multi_pairing. destruct (_ || _); exact I. Qed.

(** ** Rows found for any policy and list *)
Lemma recover_rows : forall s q l b rows, create_policy_tree (e_mktime E) s = Ok (Some q) -> recover E (Some q) (Some l) = Ok (b, rows) -> b = true ->
  forall u lab c, In (u, (lab, c)) rows -> In lab (aattrs l).
Proof.
  intros s q l b rows Hq H Hb u lab c I0. destruct (policy_ready (e_mktime E) s q Hq) as (e' & r & _ & _ & _ & _ & Hr & B & _). destruct (binary_and_or r B) as [Ha _].
  destruct (recover_ok (order K) (e_sort E) (law_sort E HE) (aattrs l) lsss_new q r fresh Hr Ha (SchemeRows.clean_fresh r)) as (st & Er & _).
  unfold recover in H. rewrite Er in H. destruct (sat (match_attribute (aattrs l)) r) eqn:Es; [|cbn in H; congruence].
  cbn [bind] in H. injection H as <- <-. cbn [l_rows] in I0. apply add_rows_In in I0. destruct I0 as [I0|[]]. apply in_map_iff in I0 as (x & Ee & He).
  unfold entry in Ee. injection Ee as _ <- _. assert (match_attribute (aattrs l) (complete_label (fst x)) = true) as Hm.
  { eapply (used_held (order K) (e_sort E) (law_sort E HE) (aattrs l) r); [exact Ha|exact Es|]. unfold used. apply in_map. exact He. }
  unfold match_attribute in Hm. apply existsb_exists in Hm as (y & Iy & Ey). apply str_eqb_eq in Ey. rewrite Ey. exact Iy.
Qed.

(** ** CP *)
Definition cp_ready (c : container K) : Prop := exists l x y, part E c (L "input") (OAttrs l) /\ part E c (L "K") (OG2 x) /\ part E c (L "L") (OG2 y) /\
  forall a, In a (aattrs l) -> exists z, part E c (element_label (L "KX") (short a)) (OG1 z).
Lemma cp_user_ready : forall P attrs c, cp_user E P attrs c -> cp_ready c.
Proof. intros P attrs c (t & l & A & B & C & D & F). exists l; eexists _, _. split; [exact A|]. split; [exact C|]. split; [exact D|]. intros a Ia. eexists. apply F. apply B. exact Ia. Qed.
Lemma cp_dec_loop_tame : forall G kid k rows w a b d, holds E KEY_SECRET kid k w ->
  (forall u lab c, In (u, (lab, c)) rows -> exists z, part E (k_parts k) (element_label (L "KX") (short lab)) (OG1 z)) ->
  tame G w (cp_dec_loop E kid rows a b d w).
Proof.
  intros G kid k rows. induction rows as [|[u [lab c]] rows IH]; intros w a b d Hk Hr; cbn [cp_dec_loop]; [apply tame_ret|].
  destruct (Hr u lab c (or_introl eq_refl)) as (z & Hz). step.
  apply tame_andthen; [apply tame_ct_part|]. intros cx0 w1 _ S1. apply tame_andthen; [apply tame_assert|]. intros cx w2 H2 S2. apply assert_inv in H2 as [_ ->].
  apply tame_andthen; [apply tame_ct_part|]. intros dx0 w3 _ S3. apply tame_andthen; [apply tame_assert|]. intros dx w4 H4 S4. apply assert_inv in H4 as [_ ->].
  step. apply IH; [unfold holds in *; rewrite S3, S1; exact Hk|]. intros u' lab' c' I'. apply (Hr u' lab' c'). right. exact I'.
Qed.
(** What is asked of the ciphertext for the answer. *)
Definition cp_legible (ct : container K) : Prop :=
  forall s, part E ct (L "policy") (OBytes s) -> exists q, create_policy_tree (e_mktime E) s = Ok (Some q).
Lemma cp_kem_tame : forall (G : Prop) mpk kid k w, holds E KEY_SECRET kid k w -> cp_ready (k_parts k) -> (G -> cp_legible (ct_parts (w_ct E w))) -> tame G w (cp_decrypt_kem E mpk kid 32 w).
Proof.
  intros G mpk kid k w Hk (l & x & y & A & B & C & D) Hg. unfold cp_decrypt_kem. apply tame_catch. do 3 step.
  apply tame_andthen; [apply tame_ct_part|]. intros pol0 w1 H1 S1. apply ct_part_inv in H1 as (-> & o & Ho & ->).
  apply tame_andthen; [apply tame_assert|]. intros s w2 H2 S2. apply assert_inv in H2 as [H2 ->]. apply as_bytes_inv in H2 as ->.
  apply tame_andthen; [apply tame_lift; intro g; destruct (Hg g s Ho) as (q & ->); exact I|]. intros q w3 H3 S3. apply lift_inv in H3 as [H3 ->].
  apply tame_andthen. { apply tame_lift. intro g. destruct (Hg g s Ho) as (q' & Eq). rewrite H3 in Eq. injection Eq as ->. destruct (recover_says E (law_sort E HE) s q' l H3) as (r & rows & _ & ->). exact I. }
  intros [ok rows] w4 H4 S4. apply lift_inv in H4 as [H4 ->]. destruct q as [q|]; [|discriminate]. destruct ok; cbn [negb]; [|apply tame_throw].
  apply tame_andthen. { eapply cp_dec_loop_tame; [exact Hk|]. intros u lab c I0. apply D. eapply recover_rows; eauto. }
  intros [[prod1 g1s] g2s] w5 _ S5. assert (holds E KEY_SECRET kid k w5) as Hk5 by (unfold holds; rewrite S5; exact Hk).
  apply tame_andthen; [apply tame_lift; intro; apply calm_pairing|]. intros prodT w6 H6 S6. apply lift_inv in H6 as [_ ->].
  apply tame_andthen; [apply tame_ct_part|]. intros cp0 w7 _ S7. assert (holds E KEY_SECRET kid k w7) as Hk7 by (unfold holds; rewrite S7; exact Hk5).
  do 2 step. apply tame_andthen; [apply tame_assert|]. intros cp w8 H8 S8. apply assert_inv in H8 as [_ ->]. do 2 step.
  apply tame_andthen; [apply tame_sym|]. intros. apply tame_ret.
Qed.

(** ** KP *)
Definition kp_ready (c : container K) : Prop := exists q r sh off off' s, part E c (L "input") (OBytes (ptext q)) /\ usable E q r /\ 0 <= s < order K /\
  share_secret false (order K) lsss_new q s (e_zp E) off = Ok (sh, off') /\
  forall u v, In (u, v) (l_rows sh) -> exists x y, part E c (element_label (L "D") (short u)) (OG1 x) /\ part E c (element_label (L "d") (short u)) (OG2 y).
Lemma kp_user_ready : forall P q r c, usable E q r -> kp_user E P q c -> kp_ready c.
Proof.
  intros P q r c U (sh & off & off' & A & B & C & D). exists q, r, sh, off, off', (Qy E P). split; [exact C|]. split; [exact U|]. split; [exact A|]. split; [exact B|].
  intros u [lab e] I0. destruct (D u lab e I0) as (rr & X & Y). eauto.
Qed.
Definition kp_legible (ct : container K) : Prop :=
  (forall o, part E ct (L "attributes") o -> exists l, o = OAttrs l) /\
  (forall x o, part E ct (element_label (L "C") x) o -> exists y, o = OG1 y).
Lemma kp_dec_loop_tame : forall (G : Prop) kid k rows w a b d, holds E KEY_SECRET kid k w ->
  (forall u lab c, In (u, (lab, c)) rows -> exists x y, part E (k_parts k) (element_label (L "D") (short u)) (OG1 x) /\ part E (k_parts k) (element_label (L "d") (short u)) (OG2 y)) ->
  (G -> forall x o, part E (ct_parts (w_ct E w)) (element_label (L "C") x) o -> exists y, o = OG1 y) ->
  tame G w (kp_dec_loop E kid rows a b d w).
Proof.
  intros G kid k rows. induction rows as [|[u [lab c]] rows IH]; intros w a b d Hk Hr Hg; cbn [kp_dec_loop]; [apply tame_ret|].
  destruct (Hr u lab c (or_introl eq_refl)) as (x & y & Hx & Hy).
  apply tame_andthen; [apply tame_ct_part|]. intros ci0 w1 H1 S1. apply ct_part_inv in H1 as (-> & o & Ho & ->). do 3 step.
  apply tame_andthen. { destruct (as_g1 E o) eqn:Eo; [apply tame_here; intro; exact I|]. apply tame_here. intro g. destruct (Hg g _ _ Ho) as (z & ->). discriminate. }
  intros ci w2 H2 S2. assert (w2 = w) as -> by (destruct (as_g1 E o); [injection H2; auto|discriminate]). step.
  apply IH; [exact Hk| |exact Hg]. intros u' lab' c' I'. apply (Hr u' lab' c'). right. exact I'.
Qed.
Lemma kp_rows : forall q r sh off off' s l b rows, usable E q r -> 0 <= s < order K -> share_secret false (order K) lsss_new q s (e_zp E) off = Ok (sh, off') ->
  recover E (Some q) (Some l) = Ok (b, rows) -> b = true -> forall u lab c, In (u, (lab, c)) rows -> exists v, In (u, v) (l_rows sh).
Proof.
  intros q r sh off off' s l b rows (R1 & R2 & R3 & R4 & R5) Hs Es H Hb u lab c I0.
  destruct (rows_lemma (order K) (e_sort E) (aattrs l) q r s (e_zp E) off (law_prime E HE) (law_sort E HE) R1 R2 R3 R4 Hs) as (sh' & o2 & Es' & Nsh & _ & Hyes & Hno).
  rewrite Es in Es'. injection Es' as <- <-. destruct (sat (match_attribute (aattrs l)) r) eqn:Esat.
  - destruct (Hyes eq_refl) as (co & st & Er & _ & _ & Hrow). unfold recover in H. rewrite Er in H. cbn [bind] in H. injection H as _ <-.
    destruct (Hrow u lab c I0) as (_ & e & Eg & _). exists (lab, e). apply mget_In. exact Eg.
  - destruct (Hno eq_refl) as (co & st & Er). unfold recover in H. rewrite Er in H. cbn [bind] in H. injection H as <- _. discriminate.
Qed.
Lemma kp_kem_tame : forall (G : Prop) mpk kid k w, holds E KEY_SECRET kid k w -> kp_ready (k_parts k) -> (G -> kp_legible (ct_parts (w_ct E w))) -> tame G w (kp_decrypt_kem E mpk kid 32 w).
Proof.
  intros G mpk kid k w Hk (q & r & sh & off & off' & s & A & U & Hs & B & D) Hg. pose proof U as (_ & _ & _ & _ & U5). unfold kp_decrypt_kem. apply tame_catch. do 4 step.
  rewrite U5. step.
  apply tame_andthen; [apply tame_ct_part|]. intros l0 w1 H1 S1. apply ct_part_inv in H1 as (-> & o & Ho & ->).
  apply tame_andthen. { apply tame_lift. intro g. destruct (proj1 (Hg g) o Ho) as (l & ->). cbn [as_attrs]. destruct (recover_says E (law_sort E HE) (ptext q) q l U5) as (r' & rows & _ & ->). exact I. }
  intros [ok rows] w4 H4 S4. apply lift_inv in H4 as [H4 ->]. destruct (as_attrs E o) as [l|] eqn:Eo; [|discriminate]. destruct ok; cbn [negb]; [|apply tame_throw].
  apply tame_andthen. { eapply kp_dec_loop_tame; [exact Hk| |intro g; apply (Hg g)]. intros u lab c I0. destruct (kp_rows q r sh off off' s l true rows U Hs B H4 eq_refl u lab c I0) as (v & Iv). eapply D; exact Iv. }
  intros [[prod1 g1s] g2s] w5 _ S5.
  apply tame_andthen; [apply tame_lift; intro; apply calm_pairing|]. intros prodT w6 H6 S6.
  apply tame_andthen; [apply tame_ct_part|]. intros cp0 w7 _ S7. apply tame_andthen; [apply tame_assert|]. intros cp w8 H8 S8.
  apply tame_andthen; [apply tame_sym|]. intros. apply tame_ret.
Qed.

(** ** decrypt *)
Definition ready (sch : scheme) : container K -> Prop := match sch with CP => cp_ready | KP => kp_ready end.
Definition legible (sch : scheme) (ct : container K) : Prop := (match sch with CP => cp_legible | KP => kp_legible end) ct /\ forall b, part E ct (L "_ED") (OBytes b) -> len b < 2147483616.
Lemma kem_tame : forall (G : Prop) sch mpk kid k w, holds E KEY_SECRET kid k w -> ready sch (k_parts k) -> (G -> legible sch (ct_parts (w_ct E w))) -> tame G w (decrypt_kem E sch mpk kid 32 w).
Proof. intros G [] mpk kid k w Hk Hr Hg; cbn [decrypt_kem ready legible] in *; [eapply cp_kem_tame|eapply kp_kem_tame]; eauto; intro g; apply (Hg g). Qed.
Lemma body_tame : forall (G : Prop) sch mpk kid k w, holds E KEY_SECRET kid k w -> ready sch (k_parts k) -> (G -> legible sch (ct_parts (w_ct E w))) -> tame G w (decrypt_body E sch mpk kid w).
Proof.
  intros G sch mpk kid k w Hk Hr Hg. unfold decrypt_body. apply tame_andthen; [split; [reflexivity|split; [auto|intro; exact I]]|].
  intros [] w1 H1 S1. unfold fresh_sym in H1. injection H1 as <-.
  assert (tame G (set_sym E w []) (decrypt_kem E sch mpk kid 32 (set_sym E w []))) as T by (eapply kem_tame; eauto).
  apply tame_andthen; [exact T|]. intros c w2 H2 S2. rewrite H2 in T. destruct T as (_ & T2 & _). cbn [fst] in T2. destruct (negb (c =? 0)); [apply tame_throw|].
  apply tame_andthen; [apply tame_ct_part|]. intros e0 w3 H3 S3. apply ct_part_inv in H3 as (-> & o & Ho & ->).
  apply tame_andthen; [apply tame_assert|]. intros enc w4 H4 S4. apply assert_inv in H4 as [H4 ->]. apply as_bytes_inv in H4 as ->.
  apply tame_andthen; [apply tame_here; intro; exact I|]. intros key w5 H5 S5. unfold sym_bytes in H5. injection H5 as <- <-.
  assert (G -> len enc < 2147483616) as Hl.
  { intro g. destruct (Hg g) as [_ X]. apply X. unfold part in *. destruct (T2 (L "_ED") g) as [X2|[_ X2]]; cbn [w_ct set_sym] in X2; congruence. }
  apply tame_andthen. { apply tame_lift. intro g. destruct (mask_ok E (w_sym E w2) enc HE (Hl g)) as (m & b & -> & _). exact I. }
  intros m w6 H6 S6. apply lift_inv in H6 as [H6 ->]. apply tame_lift. intro g. destruct (mask_ok E (w_sym E w2) enc HE (Hl g)) as (m' & b & E1 & E2 & _). rewrite H6 in E1. injection E1 as <-. rewrite E2. exact I.
Qed.
(** An issued key is left as it is by every decryption. *)
Lemma decrypt_still : forall sch mpk kid k w, holds E KEY_SECRET kid k w -> ready sch (k_parts k) -> w_store E (fst (decrypt E sch mpk kid w)) = w_store E w.
Proof.
  intros sch mpk kid k w Hk Hr. destruct (body_tame False sch mpk kid k w Hk Hr (fun f => match f with end)) as (H & _). unfold decrypt. destruct (decrypt_body E sch mpk kid w) as [w1 [a|[]| | |]]; exact H.
Qed.
(** Every legible ciphertext is answered with a code. *)
Lemma decrypt_answers : forall sch mpk kid k w, holds E KEY_SECRET kid k w -> ready sch (k_parts k) -> legible sch (ct_parts (w_ct E w)) ->
  exists w' c pt, decrypt E sch mpk kid w = (w', Ok (c, pt)) /\ w_store E w' = w_store E w /\
    forall n, mget n (ct_parts (w_ct E w')) = mget n (ct_parts (w_ct E w)) \/ mget n (ct_parts (w_ct E w)) = None /\ mget n (ct_parts (w_ct E w')) = Some None.
Proof.
  intros sch mpk kid k w Hk Hr Hg. destruct (body_tame True sch mpk kid k w Hk Hr (fun _ => Hg)) as (H & T & C). unfold decrypt. destruct (decrypt_body E sch mpk kid w) as [w1 r]. cbn [fst snd] in *.
  specialize (C I). destruct r as [a|[]| | |]; try contradiction; eexists _, _, _; (split; [reflexivity|]); (split; [exact H|]); intro n; apply T; exact I.
Qed.
End Firm.
