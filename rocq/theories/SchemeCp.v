(** Waters CP-ABE: what the calls leave behind, and that decryption inverts encryption. *)
From Verif Require Import Base StrMap ByteString ByteStringProofs UInteger Field FieldProofs Policy Driver Parser AttrList Utils Kdf KdfProofs Lsss LsssSpec LsssRecover LsssFinal SchemeRows Container ContainerSpec ContainerProofs Travel PropUtil Keystore Scheme SchemeSpec SchemeStep.
From Coq Require Import ZArith Znumtheory List Ascii Bool Lia Permutation.
Import ListNotations.
Open Scope Z_scope.

Ltac step := erewrite andthen_ok; [|first [apply lift_ok|apply deref_ok|apply assert_ok|apply random_zp_ok|apply tick_ok|apply set_part_ok|apply put_key_ok|apply make_key_ok|
  eapply key_part_ok; eassumption|eapply ct_part_ok; eassumption|eapply public_ok; eassumption|eapply secret_ok; eassumption]]; cbn [as_zp as_g1 as_g2 as_gt as_bytes as_attrs].

(** A policy object that came out of the parser: binary, leaves told apart, and
    its text reads back as itself. *)
Definition usable (E : engine) (q : policy) (r : node) : Prop :=
  proot q = Some r /\ binary r = true /\ well_indexed (repeated q) r /\ no_percent r /\ create_policy_tree (e_mktime E) (ptext q) = Ok (Some q).

Section Cp.
Context (E : engine) (HE : lawful E).
Notation K := (e_curve E).
Notation p := (order K).
Notation world := (world E).
Notation short := (short_label E).
Notation sound := (sound (K:=K) (e_mktime E)).
Lemma label_good : forall b a, len b <= 2 -> good_name (element_label b (short a)).
Proof.
  intros b a Hb. unfold element_label. split; [intro X; apply app_eq_nil in X as [_ X]; apply app_eq_nil in X as [X _]; discriminate|].
  pose proof (C70_length (e_hash E) (law_hash E HE) a) as Hl. unfold short_label, len in *. rewrite !app_length. cbn [L length list_ascii_of_string] in *. lia.
Qed.

Record cp_params := { P1 : g1 K; P2 : g2 K; Palpha : Z; Pa : Z; Pk : str }.
Definition cp_base (P : cp_params) : gt K := pair E (P1 P) (P2 P).
Definition cp_public (P : cp_params) (c : container K) : Prop :=
  part E c (L "g1") (OG1 (P1 P)) /\ part E c (L "g2") (OG2 (P2 P)) /\ part E c (L "g1a") (OG1 (mul1 E (Pa P) (P1 P))) /\
  part E c (L "A") (OGt (expT E (Palpha P) (cp_base P))) /\ part E c (L "k") (OBytes (Pk P)).
Definition cp_master (P : cp_params) (c : container K) : Prop :=
  (exists z, part E c (L "alpha") (OZp z) /\ zv z = Palpha P) /\ part E c (L "g2a") (OG2 (mul2 E (Pa P) (P2 P))).
Definition cp_user (P : cp_params) (attrs : list str) (c : container K) : Prop :=
  exists t l, part E c (L "input") (OAttrs l) /\ (forall a, In a (aattrs l) <-> In a attrs) /\
    part E c (L "K") (OG2 (add2 E (mul2 E (Palpha P) (P2 P)) (mul2 E t (mul2 E (Pa P) (P2 P))))) /\
    part E c (L "L") (OG2 (mul2 E t (P2 P))) /\
    forall a, In a attrs -> part E c (element_label (L "KX") (short a)) (OG1 (mul1 E t (hash_to_g1 E (Pk P) a))).
Definition cp_row (P : cp_params) (c : container K) (u lab : str) (e : Z) : Prop :=
  exists r, part E c (element_label (L "D") (short u)) (OG2 (mul2 E r (P2 P))) /\
    part E c (element_label (L "C") (short u)) (OG1 (add1 E (mul1 E e (mul1 E (Pa P) (P1 P))) (mul1 E (fneg p r) (hash_to_g1 E (Pk P) lab)))).
Definition cp_sealed (P : cp_params) (q : policy) (pt : str) (c : container K) : Prop :=
  exists s sh off off', 0 <= s < p /\ share_secret false p lsss_new q s (e_zp E) off = Ok (sh, off') /\
    part E c (L "policy") (OBytes (ptext q)) /\ part E c (L "Cprime") (OG1 (mul1 E s (P1 P))) /\
    (forall u lab e, In (u, (lab, e)) (l_rows sh) -> cp_row P c u lab e) /\
    body_of E (sym_of E (expT E s (expT E (Palpha P) (cp_base P)))) pt c.

(** ** Decryption *)
(** What a row of the coefficients finds. *)
Definition cp_found (P : cp_params) (t : Z) (kc c : container K) (sh : rowmap) (u lab : str) : Prop :=
  part E kc (element_label (L "KX") (short lab)) (OG1 (mul1 E t (hash_to_g1 E (Pk P) lab))) /\
  cp_row P c u lab (coef_of sh u).

Lemma neg_mod : forall r, fneg p r mod p = (- r) mod p.
Proof. intro r. unfold fneg. rewrite ?Zmod_mod. try reflexivity; f_equal; lia. Qed.

Lemma cp_row_pairs : forall P t c r e h,
  multT E (pair E (mul1 E c (mul1 E t h)) (mul2 E r (P2 P)))
          (pair E (mul1 E c (add1 E (mul1 E e (mul1 E (Pa P) (P1 P))) (mul1 E (fneg p r) h))) (mul2 E t (P2 P)))
  = expT E (c * e * (Pa P * t)) (cp_base P).
Proof.
  intros P t c r e h. unfold cp_base.
  rewrite !(law_pair_mul1 E HE), !(law_pair_mul2 E HE), !(law_pair_add1 E HE), !(law_pair_mul1 E HE).
  rewrite !(law_expT_mul E HE). set (A := pair E (P1 P) (P2 P)). set (B := pair E h (P2 P)).
  (* expT c of a product of powers *)
  assert (forall x y z, expT E z (multT E (expT E x A) (expT E y B)) = multT E (expT E (z * x) A) (expT E (z * y) B)) as D.
  { intros x y z. assert (G : multT E (expT E x A) (expT E y B) = pair E (add1 E (mul1 E x (P1 P)) (mul1 E y h)) (P2 P)) by (rewrite (law_pair_add1 E HE), !(law_pair_mul1 E HE); reflexivity).
    rewrite G, <- (law_pair_mul2 E HE), (law_pair_add1 E HE), !(law_pair_mul1 E HE), !(law_pair_mul2 E HE), !(law_expT_mul E HE). f_equal; f_equal; lia. }
  rewrite ?D, ?(law_expT_mul E HE).
  rewrite (law_multT_comm E HE). rewrite <- (law_multT_assoc E HE), <- (law_expT_add E HE).
  match goal with |- multT E (expT E ?x A) (expT E ?y B) = _ => assert (expT E y B = oneT E) as Z0; [rewrite <- (expT_zero E HE B); apply (expT_cong E HE)|rewrite Z0, (law_multT_comm E HE), (law_multT_one E HE); f_equal; lia] end.
  assert (fneg p r mod p = (- r) mod p) as Hn by apply neg_mod.
  match goal with |- ?x mod p = _ => replace x with (c * t * (fneg p r + r)) by lia end.
  rewrite Zmult_mod, Zplus_mod, Hn, <- Zplus_mod. replace (- r + r) with 0 by lia. rewrite Z.mod_0_l by (pose proof (prime_ge_2 _ (law_prime E HE)); lia). rewrite Z.mul_0_r. reflexivity.
Qed.

Lemma cp_dec_loop_ok : forall P t sh kid k rows w prod1 g1s g2s, holds E KEY_SECRET kid k w ->
  (forall u lab c, In (u, (lab, c)) rows -> cp_found P t (k_parts k) (ct_parts (w_ct E w)) sh u lab) -> length g1s = length g2s ->
  exists r1 r2 r3, cp_dec_loop E kid rows prod1 g1s g2s w = (w, Ok (r1, r2, r3)) /\ length r2 = length r3 /\ length r2 = (length g1s + length rows)%nat /\
    multT E (pairings E r2 r3) (pair E r1 (mul2 E t (P2 P))) =
    multT E (multT E (pairings E g1s g2s) (pair E prod1 (mul2 E t (P2 P)))) (expT E (weighed rows sh * (Pa P * t)) (cp_base P)).
Proof.
  intros P t sh kid k. induction rows as [|[u [lab c]] rows IH]; intros w prod1 g1s g2s Hk Hf Hl.
  - exists prod1, g1s, g2s. cbn [cp_dec_loop weighed]. split; [reflexivity|]. split; [exact Hl|]. split; [cbn [length]; lia|].
    rewrite Z.mul_0_l, (expT_zero E HE), (law_multT_comm E HE _ (oneT E)), (law_multT_one E HE). reflexivity.
  - cbn [cp_dec_loop]. destruct (Hf u lab c (or_introl eq_refl)) as (F1 & r & F2 & F3).
    do 6 step.
    destruct (IH w (add1 E prod1 (mul1 E c (add1 E (mul1 E (coef_of sh u) (mul1 E (Pa P) (P1 P))) (mul1 E (fneg p r) (hash_to_g1 E (Pk P) lab)))))
      (g1s ++ [mul1 E c (mul1 E t (hash_to_g1 E (Pk P) lab))]) (g2s ++ [mul2 E r (P2 P)]) Hk) as (r1 & r2 & r3 & E1 & E2 & E3 & E4).
    { intros u' lab' c' I. apply (Hf u' lab' c'). right. exact I. }
    { rewrite !app_length, Hl. reflexivity. }
    exists r1, r2, r3. split; [exact E1|]. split; [exact E2|]. split; [rewrite E3, app_length; cbn [length]; lia|].
    rewrite E4, pairings_snoc by exact Hl. rewrite (law_pair_add1 E HE). cbn [weighed].
    rewrite (multT_swap E HE (pairings E g1s g2s)). rewrite cp_row_pairs. rewrite <- (law_multT_assoc E HE), <- (law_expT_add E HE). f_equal. f_equal. lia.
Qed.

Lemma match_same : forall l l', (forall a, In a l' <-> In a l) -> forall r, sat (match_attribute l') r = sat (match_attribute l) r.
Proof.
  intros l l' H r. assert (forall a, match_attribute l' a = match_attribute l a) as M.
  { intro a. unfold match_attribute. destruct (existsb (str_eqb a) l) eqn:E1, (existsb (str_eqb a) l') eqn:E2; try reflexivity.
    - apply existsb_exists in E1 as (x & I & X). assert (existsb (str_eqb a) l' = true) by (apply existsb_exists; exists x; split; [apply H|]; assumption). congruence.
    - apply existsb_exists in E2 as (x & I & X). assert (existsb (str_eqb a) l = true) by (apply existsb_exists; exists x; split; [apply H|]; assumption). congruence. }
  rewrite !LsssUse.sat_by_sat. generalize (match_attribute l') (match_attribute l) M. clear. intros f g M.
  induction r as [ty k pr l i ks IH] using LsssProofs.node_ind2. rewrite Forall_forall in IH. destruct ty; cbn [sat_by]; try reflexivity.
  - apply M.
  - induction ks as [|c ks IHk]; [reflexivity|]. cbn [forallb]. rewrite IH by (left; reflexivity). f_equal. apply IHk. intros; apply IH; right; assumption.
  - induction ks as [|c ks IHk]; [reflexivity|]. cbn [existsb]. rewrite IH by (left; reflexivity). f_equal. apply IHk. intros; apply IH; right; assumption.
  - do 2 f_equal. f_equal. apply filter_ext_in. assumption.
Qed.

Lemma cp_kem_back : forall P q r attrs pt kid k w mpk, holds E KEY_SECRET kid k w -> cp_user P attrs (k_parts k) -> cp_sealed P q pt (ct_parts (w_ct E w)) ->
  usable E q r -> sat (match_attribute attrs) r = true ->
  exists key, cp_decrypt_kem E mpk kid 32 w = (set_sym E w key, Ok 0) /\ body_of E key pt (ct_parts (w_ct E w)).
Proof.
  intros P q r attrs pt kid k w mpk Hk (t & l & U1 & U2 & U3 & U4 & U5) (s & sh & off & off' & Hs & Es & C1 & C2 & C3 & C4) (Q1 & Q2 & Q3 & Q4 & Q5) Hsat.
  exists (sym_of E (expT E s (expT E (Palpha P) (cp_base P)))). split; [|exact C4].
  unfold cp_decrypt_kem, catch_code.
  destruct (rows_lemma p (e_sort E) (aattrs l) q r s (e_zp E) off (law_prime E HE) (law_sort E HE) Q1 Q2 Q3 Q4 Hs) as (sh' & o2 & Es' & Nsh & _ & Hyes & _).
  rewrite Es in Es'. injection Es' as <- <-.
  rewrite (match_same _ _ U2) in Hyes. destruct (Hyes Hsat) as (co & st & Er & Hw & Hne & Hrow).
  do 5 step. rewrite Q5. step.
  assert (recover E (Some q) (Some l) = Ok (true, l_rows co)) as Erec by (unfold recover; rewrite Er; reflexivity). rewrite Erec. step. cbn [negb].
  destruct (cp_dec_loop_ok P t (l_rows sh) kid k (l_rows co) w (zero1 E) [] [] Hk) as (r1 & r2 & r3 & E1 & E2 & E3 & E4); [|reflexivity|].
  { intros u lab c I. destruct (Hrow u lab c I) as (I1 & e & Eg & Ec). split; [apply U5; apply U2; exact I1|]. rewrite Ec. apply C3. apply mget_In. exact Eg. }
  erewrite andthen_ok by exact E1.
  assert (multi_pairing E r2 r3 = Ok (pairings E r2 r3)) as Em.
  { unfold multi_pairing. rewrite E2, Nat.eqb_refl. cbn [length] in E3. rewrite <- E2, E3. destruct (l_rows co); [congruence|]. reflexivity. }
  cbv beta iota. rewrite Em. do 7 step.
  assert (divT E (pair E (mul1 E s (P1 P)) (add2 E (mul2 E (Palpha P) (P2 P)) (mul2 E t (mul2 E (Pa P) (P2 P))))) (multT E (pairings E r2 r3) (pair E r1 (mul2 E t (P2 P)))) =
          expT E s (expT E (Palpha P) (cp_base P))) as Ed.
  { rewrite E4. unfold divT. change (pairings E [] []) with (oneT E). rewrite (law_pair_zero1 E HE), !(law_multT_one E HE).
    rewrite (law_pair_add2 E HE), !(law_pair_mul1 E HE), !(law_pair_mul2 E HE). fold (cp_base P). rewrite !(law_expT_mul E HE).
    rewrite (expT_cong E HE (weighed (l_rows co) (l_rows sh) * (Pa P * t)) (s * t * Pa P)).
    - rewrite multT_inv_r by exact HE. reflexivity.
    - replace (s * t * Pa P) with (s * (Pa P * t)) by lia. rewrite Zmult_mod, Hw, <- (Z.mod_small s p) at 1 by exact Hs. rewrite Zmult_mod_idemp_l, Zmult_mod_idemp_r. reflexivity. }
  rewrite Ed. erewrite andthen_ok by (apply hash_to_sym_ok; exact HE). reflexivity.
Qed.


Lemma cp_decrypt_ok : forall P q r attrs pt kid k w mpk, holds E KEY_SECRET kid k w -> cp_user P attrs (k_parts k) -> cp_sealed P q pt (ct_parts (w_ct E w)) ->
  usable E q r -> sat (match_attribute attrs) r = true -> len pt < 2147483616 ->
  exists key, decrypt E CP mpk kid w = (set_sym E w key, Ok (0, pt)).
Proof.
  intros P q r attrs pt kid k w mpk Hk Hu Hc Hq Hsat Hl.
  destruct (cp_kem_back P q r attrs pt kid k (set_sym E w []) mpk Hk Hu Hc Hq Hsat) as (key & E1 & E2).
  exists key. apply decrypt_back; auto.
Qed.

(** ** Parameters *)
Lemma both_new_ok : forall mpk msk w, exists w1 b, both_new E mpk msk w = (w1, Ok b).
Proof.
  intros mpk msk w. unfold both_new. unfold andthen, is_new_id. destruct (validate_new_params_id (w_store E w) mpk) as [s b]. destruct b; [|unfold ret; eauto].
  match goal with |- context [validate_new_params_id ?x ?y] => destruct (validate_new_params_id x y) as [s2 b2] end. eauto.
Qed.
Ltac part_tac := repeat first [apply part_same; reflexivity | apply part_other; [let X := fresh in intro X; discriminate X|]].
Ltac sound_tac := repeat (apply sound_set; [|split; [discriminate|vm_compute; reflexivity]|try exact Logic.I]); try apply sound_nil.
Lemma cp_generate_runs : forall mpk msk w w1, both_new E mpk msk w = (w1, Ok true) ->
  exists P kp ks off, cp_generate_params E mpk msk w =
      (set_off E (set_store E w1 (add_key (add_key (w_store E w1) mpk (Some kp) KEY_PUBLIC) msk (Some ks) KEY_SECRET)) off, Ok 0) /\
    cp_public P (k_parts kp) /\ cp_master P (k_parts ks) /\ stamped E CP_WATERS mpk kp /\ stamped E CP_WATERS msk ks /\ sound (k_parts kp) /\ (0 < Palpha P -> sound (k_parts ks)).
Proof.
  intros mpk msk w w1 Eb. unfold cp_generate_params, catch_code. erewrite andthen_ok by exact Eb. cbn [negb].
  unfold random_g1, random_g2, random_bytes. do 9 step. unfold ret.
  set (o := w_off E w1). 
  exists {| P1 := e_g1 E (S (S o)); P2 := e_g2 E (S (S (S o))); Palpha := e_zp E (S (S (S (S o)))) mod p; Pa := e_zp E (S (S (S (S (S o))))) mod p; Pk := e_bytes E (S (S (S (S (S (S o)))))) 32 |}.
  eexists _, _, _. split; [reflexivity|]. unfold cp_public, cp_master, cp_base. cbn [P1 P2 Palpha Pa Pk k_parts key_set_component zv].
  split; [repeat split; part_tac|]. split; [split; [eexists; split; [part_tac|reflexivity]|part_tac]|].
  split; [split; [reflexivity|]; split; [reflexivity|]; split; [apply (law_bytes E HE); lia|reflexivity]|].
  split; [split; [reflexivity|]; split; [reflexivity|]; split; [apply (law_bytes E HE); lia|reflexivity]|]. split.
  - sound_tac. unfold portable. rewrite (law_bytes E HE) by lia. lia.
  - intro Ha. sound_tac. split; [exact Ha|]. cbn [zv]. apply Z.mod_pos_bound. pose proof (prime_ge_2 _ (law_prime E HE)). lia.
Qed.
Lemma cp_generate_ok : forall mpk msk w w', cp_generate_params E mpk msk w = (w', Ok 0) ->
  exists P kp ks, holds E KEY_PUBLIC mpk kp w' /\ holds E KEY_SECRET msk ks w' /\ cp_public P (k_parts kp) /\ cp_master P (k_parts ks) /\ stamped E CP_WATERS mpk kp /\ stamped E CP_WATERS msk ks /\ sound (k_parts kp) /\ (0 < Palpha P -> sound (k_parts ks)).
Proof.
  intros mpk msk w w' H. destruct (both_new_ok mpk msk w) as (w1 & b & Eb). destruct b.
  - destruct (cp_generate_runs mpk msk w w1 Eb) as (P & kp & ks & off & E1 & E2 & E3). rewrite E1 in H. injection H as <-. exists P, kp, ks.
    split; [|split; [|split; [exact E2|exact E3]]]; unfold holds; cbn; apply mget_mset_same.
  - unfold cp_generate_params, catch_code in H. erewrite andthen_ok in H by exact Eb. discriminate.
Qed.

(** ** User keys *)
Lemma cp_key_loop_ok : forall prefix t attrs dec w, exists dec', cp_key_loop E (Some prefix) t attrs dec w = (w, Ok dec') /\
  k_alg dec' = k_alg dec /\ k_version dec' = k_version dec /\ k_uid dec' = k_uid dec /\ k_id dec' = k_id dec /\
  (forall name, (exists a, In a attrs /\ name = element_label (L "KX") (short a) /\ part E (k_parts dec') name (OG1 (mul1 E (zv t) (hash_to_g1 E prefix a)))) \/
    (~ (exists a, In a attrs /\ name = element_label (L "KX") (short a)) /\ mget name (k_parts dec') = mget name (k_parts dec))) /\
  (sound (k_parts dec) -> sound (k_parts dec')).
Proof.
  intros prefix t. induction attrs as [|a attrs IH]; intros dec w.
  - exists dec. split; [reflexivity|]. do 4 (split; [reflexivity|]). split; [|auto]. intro name. right. split; [intros (a & [] & _)|reflexivity].
  - cbn [cp_key_loop]. step.
    match goal with |- context [cp_key_loop E _ _ _ ?d] => destruct (IH d w) as (dec' & E1 & F1 & F2 & F3 & F4 & E2 & E3) end. exists dec'. split; [exact E1|].
    split; [exact F1|]. split; [exact F2|]. split; [exact F3|]. split; [exact F4|].
    split; [|intro S0; apply E3; apply sound_set; [exact S0|apply label_good; cbn; lia|exact Logic.I]].
    intro name. destruct (E2 name) as [(b & I & En & Ep)|(N & Em)].
    + left. exists b. split; [right; exact I|]. auto.
    + destruct (str_eq_dec name (element_label (L "KX") (short a))) as [D|D].
      * left. exists a. split; [left; reflexivity|]. split; [exact D|]. unfold part. rewrite Em, D. apply part_same. reflexivity.
      * right. split; [intros (b & [<-|I] & En); [exact (D En)|apply N; eauto]|]. rewrite Em. cbn [k_parts key_set_component]. unfold set_component. rewrite mget_mset_other by exact D. reflexivity.
Qed.
Lemma cp_keygen_ok : forall P l kid mpk msk kp ks w, holds E KEY_PUBLIC mpk kp w -> holds E KEY_SECRET msk ks w -> cp_public P (k_parts kp) -> cp_master P (k_parts ks) ->
  no_collision short (aattrs l) ->
  exists dec off, cp_keygen E (InAttrs l) kid mpk msk w = (set_off E (set_store E w (add_key (w_store E w) kid (Some dec) KEY_SECRET)) off, Ok 0) /\
    cp_user P (aattrs l) (k_parts dec) /\ stamped E CP_WATERS kid dec /\
    (portable K (e_mktime E) (OAttrs l) -> sound (k_parts dec)).
Proof.
  intros P l kid mpk msk kp ks w Hp Hs (A1 & A2 & A3 & A4 & A5) ((z & B1 & Bz) & B2) Hn. unfold cp_keygen, catch_code.
  do 13 step.
  match goal with |- context [andthen E (cp_key_loop E (Some ?pre) ?t ?al ?d) _ ?ww] => destruct (cp_key_loop_ok pre t al d ww) as (dec & E1 & F1 & F2 & F3 & F4 & E2 & F5) end.
  erewrite andthen_ok by exact E1. step. unfold ret. exists dec. eexists. split; [reflexivity|].
  cbn [k_parts key_set_component new_key zv] in E2.
  assert (forall name o, (forall x, name <> element_label (L "KX") x) -> part E (k_parts dec) name o <-> part E (set_component (set_component (set_component (k_parts (new_key K CP_WATERS kid None (e_bytes E (w_off E w) 16))) (L "input") (OAttrs l)) (L "K")
      (OG2 (add2 E (mul2 E (zv z) (P2 P)) (mul2 E (e_zp E (S (w_off E w)) mod p) (mul2 E (Pa P) (P2 P)))))) (L "L") (OG2 (mul2 E (e_zp E (S (w_off E w)) mod p) (P2 P)))) name o) as Hk.
  { intros name o N. destruct (E2 name) as [(a & _ & En & _)|(_ & Em)]; [destruct (N _ En)|]. unfold part. rewrite Em. reflexivity. }
  split; [|split; [unfold stamped; rewrite F1, F2, F3, F4; cbn [k_alg k_version k_uid k_id key_set_component new_key]; split; [reflexivity|]; split; [reflexivity|]; split; [apply (law_bytes E HE); lia|reflexivity]|
    intro Hl; apply F5; cbn [k_parts key_set_component new_key]; sound_tac; exact Hl]].
  exists (e_zp E (S (w_off E w)) mod p), (copy_list l).
  split; [apply Hk; [intros x X; discriminate X|]; part_tac|]. split; [reflexivity|].
  split; [apply Hk; [intros x X; discriminate X|]; rewrite <- Bz; part_tac|]. split; [apply Hk; [intros x X; discriminate X|]; part_tac|].
  intros a Ia. destruct (E2 (element_label (L "KX") (short a))) as [(b & Ib & En & Ep)|(N & _)]; [|exfalso; apply N; eauto].
  apply label_inj in En. rewrite (Hn a b Ia Ib En) at 2. exact Ep.
Qed.

(** ** Encryption *)
Lemma cp_enc_loop_ok : forall P mpk kp rows w, holds E KEY_PUBLIC mpk kp w -> cp_public P (k_parts kp) ->
  exists w', cp_enc_loop E mpk (Some (Pk P)) rows w = (w', Ok tt) /\ w_store E w' = w_store E w /\ w_sym E w' = w_sym E w /\
    ct_version (w_ct E w') = ct_version (w_ct E w) /\ ct_uid (w_ct E w') = ct_uid (w_ct E w) /\
    (forall name, (forall x, name <> element_label (L "D") x) -> (forall x, name <> element_label (L "C") x) -> mget name (ct_parts (w_ct E w')) = mget name (ct_parts (w_ct E w))) /\
    (forall x, (exists u lab e, In (u, (lab, e)) rows /\ x = short u /\ cp_row P (ct_parts (w_ct E w')) u lab e) \/
       (~ (exists u v, In (u, v) rows /\ x = short u) /\ mget (element_label (L "D") x) (ct_parts (w_ct E w')) = mget (element_label (L "D") x) (ct_parts (w_ct E w)) /\
          mget (element_label (L "C") x) (ct_parts (w_ct E w')) = mget (element_label (L "C") x) (ct_parts (w_ct E w)))) /\
    (sound (ct_parts (w_ct E w)) -> sound (ct_parts (w_ct E w'))).
Proof.
  intros P mpk kp rows. induction rows as [|[u [lab e]] rows IH]; intros w Hk HP.
  - exists w. do 6 (split; [reflexivity || auto|]). split; [|auto]. intro x. right. split; [intros (u & v & [] & _)|auto].
  - pose proof HP as (A1 & A2 & A3 & A4 & A5). cbn [cp_enc_loop]. do 4 step. step. do 2 step.
    unfold zp_neg. cbn [zord zv]. do 2 step.
    match goal with |- exists w', cp_enc_loop E mpk (Some (Pk P)) rows ?ww = _ /\ _ => set (w1 := ww) end.
    destruct (IH w1 Hk HP) as (w' & E1 & E2 & E3 & E4 & E5 & E6 & E7 & E8). exists w'. split; [exact E1|]. split; [rewrite E2; reflexivity|]. split; [rewrite E3; reflexivity|].
    split; [rewrite E4; reflexivity|]. split; [rewrite E5; reflexivity|]. split.
    + intros name N1 N2. rewrite E6 by assumption. unfold w1. cbn [w_ct set_ct set_off ct_parts ct_set_component]. unfold set_component. rewrite !mget_mset_other by (first [apply N1|apply N2]). reflexivity.
    + split; [|intro S0; apply E8; unfold w1; cbn [w_ct set_ct set_off ct_parts ct_set_component]; repeat (apply sound_set; [|apply label_good; cbn; lia|exact Logic.I]); exact S0].
      intro x. destruct (E7 x) as [(u' & lab' & e' & I & Ex & Er)|(N & D1 & D2)]; [left; exists u', lab', e'; split; [right; exact I|]; auto|].
      destruct (str_eq_dec x (short u)) as [->|Dx].
      * left. exists u, lab, e. split; [left; reflexivity|]. split; [reflexivity|].
        exists (e_zp E (w_off E w) mod p). unfold part. rewrite D1, D2. unfold w1. cbn [w_ct set_ct set_off ct_parts ct_set_component].
        split; [apply part_other; [let X := fresh in intro X; discriminate X|]; apply part_same; reflexivity|apply part_same; reflexivity].
      * right. split; [intros (u' & v' & [Eu|I] & Ex); [injection Eu as <- _; exact (Dx Ex)|apply N; eauto]|].
        rewrite D1, D2. unfold w1. cbn [w_ct set_ct set_off ct_parts ct_set_component]. unfold set_component.
        split; rewrite !mget_mset_other by (let X := fresh in intro X; first [discriminate X|apply label_inj in X; exact (Dx X)]); reflexivity.
Qed.
Lemma cp_encrypt_ok : forall P q r mpk kp pt w, holds E KEY_PUBLIC mpk kp w -> cp_public P (k_parts kp) -> usable E q r -> no_collision short (row_names q) -> len pt < 2147483616 ->
  exists w', encrypt E CP mpk (InPolicy q) pt w = (w', Ok 0) /\ w_store E w' = w_store E w /\ cp_sealed P q pt (ct_parts (w_ct E w')) /\
    ct_alg (w_ct E w') = CP_WATERS /\ ct_version (w_ct E w') = ct_version (w_ct E w) /\ ct_uid (w_ct E w') = ct_uid (w_ct E w) /\
    (len (ptext q) < 2 ^ 31 -> sound (ct_parts (w_ct E w)) -> sound (ct_parts (w_ct E w'))).
Proof.
  intros P q r mpk kp pt w Hk HP (Q1 & Q2 & Q3 & Q4 & Q5) Hn Hl. pose proof HP as (A1 & A2 & A3 & A4 & A5).
  unfold encrypt, catch_code. erewrite andthen_ok by reflexivity.
  assert (holds E KEY_PUBLIC mpk kp (set_sym E w [])) as Hk0 by exact Hk. set (w0 := set_sym E w []) in *.
  set (s := e_zp E (w_off E w0) mod p). assert (0 <= s < p) as Hs by (apply Z.mod_pos_bound; pose proof (prime_ge_2 _ (law_prime E HE)); lia).
  destruct (rows_lemma p (e_sort E) [] q r s (e_zp E) (S (w_off E w0)) (law_prime E HE) (law_sort E HE) Q1 Q2 Q3 Q4 Hs) as (sh & off & Es & Nsh & Hrows & _ & _).
  assert (exists w', cp_encrypt_kem E mpk (InPolicy q) 32 w0 = (w', Ok 0) /\ w_store E w' = w_store E w /\ w_sym E w' = sym_of E (expT E s (expT E (Palpha P) (cp_base P))) /\
     ct_alg (w_ct E w') = CP_WATERS /\ ct_version (w_ct E w') = ct_version (w_ct E w) /\ ct_uid (w_ct E w') = ct_uid (w_ct E w) /\
     part E (ct_parts (w_ct E w')) (L "policy") (OBytes (ptext q)) /\ part E (ct_parts (w_ct E w')) (L "Cprime") (OG1 (mul1 E s (P1 P))) /\
     (forall u lab e, In (u, (lab, e)) (l_rows sh) -> cp_row P (ct_parts (w_ct E w')) u lab e) /\
     (len (ptext q) < 2 ^ 31 -> sound (ct_parts (w_ct E w)) -> sound (ct_parts (w_ct E w')))) as (w' & K1 & K2 & K3 & K4 & K5 & K6 & K7 & K8 & K9 & K10).
  { unfold cp_encrypt_kem, catch_code. do 5 step. cbn [zv]. fold s.
    erewrite andthen_ok by (apply share_ok; exact Es). do 4 step.
    match goal with |- context [andthen E (cp_enc_loop E mpk _ _) _ ?ww] => destruct (cp_enc_loop_ok P mpk kp (l_rows sh) ww Hk HP) as (w' & E1 & E2 & E3 & E4 & E5 & E6 & E7 & E8) end.
    erewrite andthen_ok by exact E1. erewrite andthen_ok by (apply hash_to_sym_ok; exact HE). erewrite andthen_ok by reflexivity. unfold ret.
    eexists. split; [reflexivity|]. cbn [w_store set_ct set_sym w_ct ct_alg ct_version ct_uid ct_parts w_sym].
    split; [rewrite E2; reflexivity|]. split; [reflexivity|]. split; [reflexivity|]. split; [rewrite E4; reflexivity|]. split; [rewrite E5; reflexivity|].
    split; [unfold part; rewrite E6 by (intros x X; discriminate X); cbn [w_ct set_ct set_off ct_parts ct_set_component]; part_tac|].
    split; [unfold part; rewrite E6 by (intros x X; discriminate X); cbn [w_ct set_ct set_off ct_parts ct_set_component]; part_tac|].
    split; [|intros Ht S0; apply E8; cbn [w_ct set_ct set_off ct_parts ct_set_component]; sound_tac; [exact S0|exact Ht]].
    intros u lab e I. destruct (E7 (short u)) as [(u' & lab' & e' & I' & Ex & Er)|(N & _)]; [|exfalso; apply N; eauto].
    assert (u = u') as <- by (apply Hn; [apply Hrows; apply (in_map fst) in I; exact I|apply Hrows; apply (in_map fst) in I'; exact I'|exact Ex]).
    apply In_mget in I; [|exact Nsh]. apply In_mget in I'; [|exact Nsh]. rewrite I in I'. injection I' as <- <-. exact Er. }
  change (encrypt_kem E CP) with (cp_encrypt_kem E). erewrite andthen_ok by exact K1. cbn [Z.eqb negb]. erewrite andthen_ok by reflexivity. rewrite K3.
  destruct (mask_ok E (sym_of E (expT E s (expT E (Palpha P) (cp_base P)))) pt HE Hl) as (m & b & M1 & M2 & M3 & M4). rewrite M1. step. rewrite M2. do 2 step. unfold ret.
  eexists. split; [reflexivity|]. cbn [w_store set_ct w_ct ct_alg ct_version ct_uid ct_parts ct_set_component]. split; [exact K2|]. split; [|split; [exact K4|]; split; [exact K5|]; split; [exact K6|]; intros Ht S0; apply sound_set; [apply K10; assumption|split; [discriminate|vm_compute; reflexivity]|unfold portable; rewrite M3; lia]].
  exists s, sh, (S (w_off E w0)), off. split; [exact Hs|]. split; [exact Es|].
  split; [apply part_other; [intro X; discriminate X|exact K7]|]. split; [apply part_other; [intro X; discriminate X|exact K8]|]. split.
  - intros u lab e I. destruct (K9 u lab e I) as (rr & R1 & R2). exists rr. split; (apply part_other; [intro X; discriminate X|assumption]).
  - exists m, b. split; [exact M1|]. split; [exact M2|]. apply part_same. reflexivity.
Qed.
End Cp.
