(** GPSW KP-ABE: what the calls leave behind, and that decryption inverts encryption. *)
From Verif Require Import Base StrMap ByteString ByteStringProofs UInteger Field FieldProofs Policy Driver Parser AttrList Utils Kdf KdfProofs Lsss LsssSpec LsssRecover LsssFinal SchemeRows Container ContainerSpec ContainerProofs Travel PropUtil Keystore Scheme SchemeSpec SchemeStep SchemeCp.
From Coq Require Import ZArith Znumtheory List Ascii Bool Lia Permutation.
Import ListNotations.
Open Scope Z_scope.

Ltac part_tac := repeat first [apply part_same; reflexivity | apply part_other; [let X := fresh in intro X; discriminate X|]].

Section Kp.
Context (E : engine) (HE : lawful E).
Notation K := (e_curve E).
Notation p := (order K).
Notation world := (world E).
Notation short := (short_label E).
Notation sound := (sound (K:=K) (e_mktime E)).
Ltac sound_tac := repeat (apply sound_set; [|split; [discriminate|vm_compute; reflexivity]|try exact Logic.I]); try apply sound_nil.

Record kp_params := { Q1 : g1 K; Q2 : g2 K; Qy : Z; Qk : str }.
Definition kp_base (P : kp_params) : gt K := pair E (Q1 P) (Q2 P).
Definition kp_public (P : kp_params) (c : container K) : Prop :=
  part E c (L "g1") (OG1 (Q1 P)) /\ part E c (L "g2") (OG2 (Q2 P)) /\
  part E c (L "Y") (OGt (expT E (Qy P) (kp_base P))) /\ part E c (L "k") (OBytes (Qk P)).
Definition kp_master (P : kp_params) (c : container K) : Prop := 0 <= Qy P < p /\ exists z, part E c (L "y") (OZp z) /\ zv z = Qy P.
Definition kp_row (P : kp_params) (c : container K) (u lab : str) (e : Z) : Prop :=
  exists r, part E c (element_label (L "D") (short u)) (OG1 (add1 E (mul1 E e (Q1 P)) (mul1 E r (hash_to_g1 E (Qk P) lab)))) /\
    part E c (element_label (L "d") (short u)) (OG2 (mul2 E r (Q2 P))).
Definition kp_user (P : kp_params) (q : policy) (c : container K) : Prop :=
  exists sh off off', 0 <= Qy P < p /\ share_secret false p lsss_new q (Qy P) (e_zp E) off = Ok (sh, off') /\
    part E c (L "input") (OBytes (ptext q)) /\ (forall u lab e, In (u, (lab, e)) (l_rows sh) -> kp_row P c u lab e).
Definition kp_sealed (P : kp_params) (attrs : list str) (pt : str) (c : container K) : Prop :=
  exists t l, part E c (L "attributes") (OAttrs l) /\ (forall a, In a (aattrs l) <-> In a attrs) /\ part E c (L "Cpr2") (OG2 (mul2 E t (Q2 P))) /\
    (forall a, In a attrs -> part E c (element_label (L "C") (short a)) (OG1 (mul1 E t (hash_to_g1 E (Qk P) a)))) /\
    body_of E (sym_of E (expT E t (expT E (Qy P) (kp_base P)))) pt c.

(** ** Decryption *)
Definition kp_found (P : kp_params) (t : Z) (kc c : container K) (sh : rowmap) (u lab : str) : Prop :=
  part E c (element_label (L "C") (short lab)) (OG1 (mul1 E t (hash_to_g1 E (Qk P) lab))) /\
  kp_row P kc u lab (coef_of sh u).

Lemma kp_row_pairs : forall P t c r e h,
  pair E (mul1 E c (add1 E (mul1 E e (Q1 P)) (mul1 E r h))) (mul2 E t (Q2 P))
  = multT E (pair E (mul1 E c (mul1 E t h)) (mul2 E r (Q2 P))) (expT E (c * e * t) (kp_base P)).
Proof.
  intros P t c r e h. unfold kp_base.
  rewrite !(law_pair_mul1 E HE), !(law_pair_mul2 E HE), !(law_pair_add1 E HE), !(law_pair_mul1 E HE), !(law_expT_mul E HE).
  set (A := pair E (Q1 P) (Q2 P)). set (B := pair E h (Q2 P)).
  assert (forall x y z, expT E z (multT E (expT E x A) (expT E y B)) = multT E (expT E (z * x) A) (expT E (z * y) B)) as D.
  { intros x y z. assert (G : multT E (expT E x A) (expT E y B) = pair E (add1 E (mul1 E x (Q1 P)) (mul1 E y h)) (Q2 P)) by (rewrite (law_pair_add1 E HE), !(law_pair_mul1 E HE); reflexivity).
    rewrite G, <- (law_pair_mul2 E HE), (law_pair_add1 E HE), !(law_pair_mul1 E HE), !(law_pair_mul2 E HE), !(law_expT_mul E HE). f_equal; f_equal; lia. }
  rewrite D. rewrite (law_multT_comm E HE). f_equal; f_equal; lia.
Qed.

Lemma kp_dec_loop_ok : forall P t sh kid k rows w prod1 g1s g2s z, holds E KEY_SECRET kid k w ->
  (forall u lab c, In (u, (lab, c)) rows -> kp_found P t (k_parts k) (ct_parts (w_ct E w)) sh u lab) -> length g1s = length g2s ->
  pair E prod1 (mul2 E t (Q2 P)) = multT E (pairings E g1s g2s) (expT E z (kp_base P)) ->
  exists r1 r2 r3, kp_dec_loop E kid rows prod1 g1s g2s w = (w, Ok (r1, r2, r3)) /\ length r2 = length r3 /\ length r2 = (length g1s + length rows)%nat /\
    pair E r1 (mul2 E t (Q2 P)) = multT E (pairings E r2 r3) (expT E (z + weighed rows sh * t) (kp_base P)).
Proof.
  intros P t sh kid k. induction rows as [|[u [lab c]] rows IH]; intros w prod1 g1s g2s z Hk Hf Hl Hi.
  - exists prod1, g1s, g2s. cbn [kp_dec_loop weighed]. split; [reflexivity|]. split; [exact Hl|]. split; [cbn [length]; lia|].
    rewrite Z.mul_0_l, Z.add_0_r. exact Hi.
  - cbn [kp_dec_loop]. destruct (Hf u lab c (or_introl eq_refl)) as (F1 & r & F2 & F3).
    do 6 step.
    destruct (IH w (add1 E prod1 (mul1 E c (add1 E (mul1 E (coef_of sh u) (Q1 P)) (mul1 E r (hash_to_g1 E (Qk P) lab)))))
      (g1s ++ [mul1 E c (mul1 E t (hash_to_g1 E (Qk P) lab))]) (g2s ++ [mul2 E r (Q2 P)]) (z + c * coef_of sh u * t) Hk) as (r1 & r2 & r3 & E1 & E2 & E3 & E4).
    { intros u' lab' c' I. apply (Hf u' lab' c'). right. exact I. }
    { rewrite !app_length, Hl. reflexivity. }
    { rewrite (law_pair_add1 E HE), Hi, kp_row_pairs, (multT_swap E HE), pairings_snoc by exact Hl. rewrite <- (law_expT_add E HE). reflexivity. }
    exists r1, r2, r3. split; [exact E1|]. split; [exact E2|]. split; [rewrite E3, app_length; cbn [length]; lia|].
    rewrite E4. cbn [weighed]. f_equal. f_equal. lia.
Qed.

Lemma kp_kem_back : forall P q r attrs pt kid k w mpk, holds E KEY_SECRET kid k w -> kp_user P q (k_parts k) -> kp_sealed P attrs pt (ct_parts (w_ct E w)) ->
  usable E q r -> sat (match_attribute attrs) r = true ->
  exists key, kp_decrypt_kem E mpk kid 32 w = (set_sym E w key, Ok 0) /\ body_of E key pt (ct_parts (w_ct E w)).
Proof.
  intros P q r attrs pt kid k w mpk Hk (sh & off & off' & Hs & Es & U1 & U2) (t & l & C1 & C2 & C3 & C4 & C5) (R1 & R2 & R3 & R4 & R5) Hsat.
  exists (sym_of E (expT E t (expT E (Qy P) (kp_base P)))). split; [|exact C5].
  unfold kp_decrypt_kem, catch_code.
  destruct (rows_lemma p (e_sort E) (aattrs l) q r (Qy P) (e_zp E) off (law_prime E HE) (law_sort E HE) R1 R2 R3 R4 Hs) as (sh' & o2 & Es' & Nsh & _ & Hyes & _).
  rewrite Es in Es'. injection Es' as <- <-.
  rewrite (match_same _ _ C2) in Hyes. destruct (Hyes Hsat) as (co & st & Er & Hw & Hne & Hrow).
  do 4 step. rewrite R5. do 2 step.
  assert (recover E (Some q) (Some l) = Ok (true, l_rows co)) as Erec by (unfold recover; rewrite Er; reflexivity). rewrite Erec. step. cbn [negb].
  destruct (kp_dec_loop_ok P t (l_rows sh) kid k (l_rows co) w (zero1 E) [] [] 0 Hk) as (r1 & r2 & r3 & E1 & E2 & E3 & E4); [|reflexivity| |].
  { intros u lab c I. destruct (Hrow u lab c I) as (I1 & e & Eg & Ec). split; [apply C4; apply C2; exact I1|]. rewrite Ec. apply U2. apply mget_In. exact Eg. }
  { change (pairings E [] []) with (oneT E). rewrite (law_pair_zero1 E HE), (expT_zero E HE), (law_multT_one E HE). reflexivity. }
  erewrite andthen_ok by exact E1.
  assert (multi_pairing E r2 r3 = Ok (pairings E r2 r3)) as Em.
  { unfold multi_pairing. rewrite E2, Nat.eqb_refl. cbn [length] in E3. rewrite <- E2, E3. destruct (l_rows co); [congruence|]. reflexivity. }
  cbv beta iota. rewrite Em. do 3 step.
  assert (divT E (pair E r1 (mul2 E t (Q2 P))) (pairings E r2 r3) = expT E t (expT E (Qy P) (kp_base P))) as Ed.
  { rewrite E4. unfold divT. rewrite (law_multT_comm E HE (pairings E r2 r3)), multT_inv_r by exact HE. rewrite (law_expT_mul E HE). apply expT_cong; [exact HE|].
    rewrite Z.add_0_l, Zmult_mod, Hw, <- (Z.mod_small (Qy P) p) at 1 by exact Hs. rewrite Zmult_mod_idemp_l, Zmult_mod_idemp_r, Z.mul_comm. reflexivity. }
  rewrite Ed. erewrite andthen_ok by (apply hash_to_sym_ok; exact HE). reflexivity.
Qed.
Lemma kp_decrypt_ok : forall P q r attrs pt kid k w mpk, holds E KEY_SECRET kid k w -> kp_user P q (k_parts k) -> kp_sealed P attrs pt (ct_parts (w_ct E w)) ->
  usable E q r -> sat (match_attribute attrs) r = true -> len pt < 2147483616 ->
  exists key, decrypt E KP mpk kid w = (set_sym E w key, Ok (0, pt)).
Proof.
  intros P q r attrs pt kid k w mpk Hk Hu Hc Hq Hsat Hl.
  destruct (kp_kem_back P q r attrs pt kid k (set_sym E w []) mpk Hk Hu Hc Hq Hsat) as (key & E1 & E2).
  exists key. apply decrypt_back; auto.
Qed.

(** ** Parameters *)
Lemma kp_generate_runs : forall mpk msk w w1, both_new E mpk msk w = (w1, Ok true) ->
  exists P kp ks off, kp_generate_params E mpk msk w =
      (set_off E (set_store E w1 (add_key (add_key (w_store E w1) mpk (Some kp) KEY_PUBLIC) msk (Some ks) KEY_SECRET)) off, Ok 0) /\
    kp_public P (k_parts kp) /\ kp_master P (k_parts ks) /\ stamped E KP_GPSW mpk kp /\ stamped E KP_GPSW msk ks /\ sound (k_parts kp) /\ (0 < Qy P -> sound (k_parts ks)).
Proof.
  intros mpk msk w w1 Eb. unfold kp_generate_params, catch_code. erewrite andthen_ok by exact Eb. cbn [negb].
  unfold random_g1, random_g2, random_bytes. do 8 step. unfold ret.
  set (o := w_off E w1).
  exists {| Q1 := e_g1 E (S (S o)); Q2 := e_g2 E (S (S (S o))); Qy := e_zp E (S (S (S (S o)))) mod p; Qk := e_bytes E (S (S (S (S (S o))))) 32 |}.
  eexists _, _, _. split; [reflexivity|]. unfold kp_public, kp_master, kp_base. cbn [Q1 Q2 Qy Qk k_parts key_set_component zv].
  assert (0 <= e_zp E (S (S (S (S o)))) mod p < p) as Hm by (apply Z.mod_pos_bound; pose proof (prime_ge_2 _ (law_prime E HE)); lia).
  split; [repeat split; part_tac|]. split; [split; [exact Hm|]; eexists; split; [part_tac|reflexivity]|].
  split; [split; [reflexivity|]; split; [reflexivity|]; split; [apply (law_bytes E HE); lia|reflexivity]|].
  split; [split; [reflexivity|]; split; [reflexivity|]; split; [apply (law_bytes E HE); lia|reflexivity]|]. split.
  - sound_tac. unfold portable. rewrite (law_bytes E HE) by lia. lia.
  - intro Ha. sound_tac. split; [exact Ha|]. cbn [zv]. apply Hm.
Qed.
Lemma kp_generate_ok : forall mpk msk w w', kp_generate_params E mpk msk w = (w', Ok 0) ->
  exists P kp ks, holds E KEY_PUBLIC mpk kp w' /\ holds E KEY_SECRET msk ks w' /\ kp_public P (k_parts kp) /\ kp_master P (k_parts ks) /\ stamped E KP_GPSW mpk kp /\ stamped E KP_GPSW msk ks /\ sound (k_parts kp) /\ (0 < Qy P -> sound (k_parts ks)).
Proof.
  intros mpk msk w w' H. destruct (both_new_ok E mpk msk w) as (w1 & b & Eb). destruct b.
  - destruct (kp_generate_runs mpk msk w w1 Eb) as (P & kp & ks & off & E1 & E2 & E3). rewrite E1 in H. injection H as <-. exists P, kp, ks.
    split; [|split; [|split; [exact E2|exact E3]]]; unfold holds; cbn; apply mget_mset_same.
  - unfold kp_generate_params, catch_code in H. erewrite andthen_ok in H by exact Eb. discriminate.
Qed.

(** ** User keys *)
Lemma kp_key_loop_ok : forall P mpk kp rows dec w, holds E KEY_PUBLIC mpk kp w -> kp_public P (k_parts kp) ->
  exists dec' off, kp_key_loop E mpk (Some (Qk P)) rows dec w = (set_off E w off, Ok dec') /\
    k_alg dec' = k_alg dec /\ k_version dec' = k_version dec /\ k_uid dec' = k_uid dec /\ k_id dec' = k_id dec /\
    (forall name, (forall x, name <> element_label (L "D") x) -> (forall x, name <> element_label (L "d") x) -> mget name (k_parts dec') = mget name (k_parts dec)) /\
    (forall x, (exists u lab e, In (u, (lab, e)) rows /\ x = short u /\ kp_row P (k_parts dec') u lab e) \/
       (~ (exists u v, In (u, v) rows /\ x = short u) /\ mget (element_label (L "D") x) (k_parts dec') = mget (element_label (L "D") x) (k_parts dec) /\
          mget (element_label (L "d") x) (k_parts dec') = mget (element_label (L "d") x) (k_parts dec))) /\
    (sound (k_parts dec) -> sound (k_parts dec')).
Proof.
  intros P mpk kp rows. induction rows as [|[u [lab e]] rows IH]; intros dec w Hk HP.
  - exists dec, (w_off E w). split; [destruct w; reflexivity|]. do 5 (split; [reflexivity || auto|]). split; [|auto]. intro x. right. split; [intros (u & v & [] & _)|auto].
  - pose proof HP as (A1 & A2 & A3 & A4). cbn [kp_key_loop]. do 6 step. cbn [zv].
    match goal with |- exists dec' off, kp_key_loop E mpk (Some (Qk P)) rows ?d ?ww = _ /\ _ => set (w1 := ww); set (d1 := d) end.
    destruct (IH d1 w1 Hk HP) as (dec' & off & E1 & F1 & F2 & F3 & F4 & E6 & E7 & E8). exists dec', off. split; [exact E1|].
    split; [exact F1|]. split; [exact F2|]. split; [exact F3|]. split; [exact F4|]. split.
    + intros name N1 N2. rewrite E6 by assumption. unfold d1. cbn [k_parts key_set_component]. unfold set_component. rewrite !mget_mset_other by (first [apply N1|apply N2]). reflexivity.
    + split; [|intro S0; apply E8; unfold d1; cbn [k_parts key_set_component]; repeat (apply sound_set; [|apply label_good; [exact HE|cbn; lia]|exact Logic.I]); exact S0].
      intro x. destruct (E7 x) as [(u' & lab' & e' & I & Ex & Er)|(N & D1 & D2)]; [left; exists u', lab', e'; split; [right; exact I|]; auto|].
      destruct (str_eq_dec x (short u)) as [->|Dx].
      * left. exists u, lab, e. split; [left; reflexivity|]. split; [reflexivity|].
        exists (e_zp E (w_off E w) mod p). unfold part. rewrite D1, D2. unfold d1. cbn [k_parts key_set_component].
        split; [apply part_other; [let X := fresh in intro X; discriminate X|]; apply part_same; reflexivity|apply part_same; reflexivity].
      * right. split; [intros (u' & v' & [Eu|I] & Ex); [injection Eu as <- _; exact (Dx Ex)|apply N; eauto]|].
        rewrite D1, D2. unfold d1. cbn [k_parts key_set_component]. unfold set_component.
        split; rewrite !mget_mset_other by (let X := fresh in intro X; first [discriminate X|apply label_inj in X; exact (Dx X)]); reflexivity.
Qed.
Lemma kp_keygen_ok : forall P q r kid mpk msk kp ks w, holds E KEY_PUBLIC mpk kp w -> holds E KEY_SECRET msk ks w -> kp_public P (k_parts kp) -> kp_master P (k_parts ks) ->
  usable E q r -> no_collision short (row_names q) ->
  exists dec off, kp_keygen E (InPolicy q) kid mpk msk w = (set_off E (set_store E w (add_key (w_store E w) kid (Some dec) KEY_SECRET)) off, Ok 0) /\
    kp_user P q (k_parts dec) /\ stamped E KP_GPSW kid dec /\ (len (ptext q) < 2 ^ 31 -> sound (k_parts dec)).
Proof.
  intros P q r kid mpk msk kp ks w Hp Hs HP (Hy & z & B1 & Bz) (R1 & R2 & R3 & R4 & R5) Hn. pose proof HP as (A1 & A2 & A3 & A4). unfold kp_keygen, catch_code.
  do 6 step. rewrite Bz.
  match goal with |- context [andthen E (share E q (Qy P)) _ ?ww] => set (w1 := ww) end.
  destruct (rows_lemma p (e_sort E) [] q r (Qy P) (e_zp E) (w_off E w1) (law_prime E HE) (law_sort E HE) R1 R2 R3 R4 Hy) as (sh & off & Es & Nsh & Hrows & _ & _).
  erewrite andthen_ok by (apply share_ok; exact Es).
  match goal with |- context [andthen E (kp_key_loop E mpk _ _ ?d) _ ?ww] => destruct (kp_key_loop_ok P mpk kp (l_rows sh) d ww Hp HP) as (dec & off2 & E1 & F1 & F2 & F3 & F4 & E6 & E7 & F5) end.
  erewrite andthen_ok by exact E1. step. unfold ret. exists dec, off2. split; [reflexivity|].
  split; [|split; [unfold stamped; rewrite F1, F2, F3, F4; cbn [k_alg k_version k_uid k_id key_set_component new_key]; split; [reflexivity|]; split; [reflexivity|]; split; [apply (law_bytes E HE); lia|reflexivity]|
    intro Hl; apply F5; cbn [k_parts key_set_component new_key]; sound_tac; exact Hl]].
  exists sh, (w_off E w1), off. split; [exact Hy|]. split; [exact Es|]. split.
  - unfold part. rewrite E6 by (intros x X; discriminate X). cbn [k_parts key_set_component]. apply part_same. reflexivity.
  - intros u lab e I. destruct (E7 (short u)) as [(u' & lab' & e' & I' & Ex & Er)|(N & _)]; [|exfalso; apply N; eauto].
    assert (u = u') as <- by (apply Hn; [apply Hrows; apply (in_map fst) in I; exact I|apply Hrows; apply (in_map fst) in I'; exact I'|exact Ex]).
    apply In_mget in I; [|exact Nsh]. apply In_mget in I'; [|exact Nsh]. rewrite I in I'. injection I' as <- <-. exact Er.
Qed.

(** ** Encryption *)
Lemma kp_enc_loop_ok : forall prefix t attrs w, exists w', kp_enc_loop E (Some prefix) t attrs w = (w', Ok tt) /\ w_store E w' = w_store E w /\ w_off E w' = w_off E w /\
  ct_version (w_ct E w') = ct_version (w_ct E w) /\ ct_uid (w_ct E w') = ct_uid (w_ct E w) /\
  (forall name, (exists a, In a attrs /\ name = element_label (L "C") (short a) /\ part E (ct_parts (w_ct E w')) name (OG1 (mul1 E (zv t) (hash_to_g1 E prefix a)))) \/
    (~ (exists a, In a attrs /\ name = element_label (L "C") (short a)) /\ mget name (ct_parts (w_ct E w')) = mget name (ct_parts (w_ct E w)))) /\
  (sound (ct_parts (w_ct E w)) -> sound (ct_parts (w_ct E w'))).
Proof.
  intros prefix t. induction attrs as [|a attrs IH]; intro w.
  - exists w. do 5 (split; [reflexivity|]). split; [|auto]. intro name. right. split; [intros (a & [] & _)|reflexivity].
  - cbn [kp_enc_loop]. do 2 step.
    match goal with |- exists w', kp_enc_loop E _ _ _ ?ww = _ /\ _ => destruct (IH ww) as (w' & E1 & F1 & F2 & F3 & F4 & E2 & E3) end. exists w'. split; [exact E1|].
    split; [exact F1|]. split; [exact F2|]. split; [exact F3|]. split; [exact F4|].
    split; [|intro S0; apply E3; cbn [w_ct set_ct ct_parts ct_set_component]; apply sound_set; [exact S0|apply label_good; [exact HE|cbn; lia]|exact Logic.I]].
    intro name. destruct (E2 name) as [(b & I & En & Ep)|(N & Em)].
    + left. exists b. split; [right; exact I|]. auto.
    + destruct (str_eq_dec name (element_label (L "C") (short a))) as [D|D].
      * left. exists a. split; [left; reflexivity|]. split; [exact D|]. unfold part. rewrite Em, D. apply part_same. reflexivity.
      * right. split; [intros (b & [<-|I] & En); [exact (D En)|apply N; eauto]|]. rewrite Em. cbn [w_ct set_ct ct_parts ct_set_component]. unfold set_component. rewrite mget_mset_other by exact D. reflexivity.
Qed.
Lemma kp_encrypt_ok : forall P l mpk kp pt w, holds E KEY_PUBLIC mpk kp w -> kp_public P (k_parts kp) -> no_collision short (aattrs l) -> len pt < 2147483616 ->
  exists w', encrypt E KP mpk (InAttrs l) pt w = (w', Ok 0) /\ w_store E w' = w_store E w /\ kp_sealed P (aattrs l) pt (ct_parts (w_ct E w')) /\
    ct_alg (w_ct E w') = KP_GPSW /\ ct_version (w_ct E w') = ct_version (w_ct E w) /\ ct_uid (w_ct E w') = ct_uid (w_ct E w) /\
    (portable K (e_mktime E) (OAttrs l) -> sound (ct_parts (w_ct E w)) -> sound (ct_parts (w_ct E w'))).
Proof.
  intros P l mpk kp pt w Hk HP Hn Hl. pose proof HP as (A1 & A2 & A3 & A4).
  unfold encrypt, catch_code. erewrite andthen_ok by reflexivity.
  assert (holds E KEY_PUBLIC mpk kp (set_sym E w [])) as Hk0 by exact Hk. set (w0 := set_sym E w []) in *.
  set (t := e_zp E (w_off E w0) mod p).
  assert (exists w', kp_encrypt_kem E mpk (InAttrs l) 32 w0 = (w', Ok 0) /\ w_store E w' = w_store E w /\ w_sym E w' = sym_of E (expT E t (expT E (Qy P) (kp_base P))) /\
     ct_alg (w_ct E w') = KP_GPSW /\ ct_version (w_ct E w') = ct_version (w_ct E w) /\ ct_uid (w_ct E w') = ct_uid (w_ct E w) /\
     part E (ct_parts (w_ct E w')) (L "attributes") (OAttrs (copy_list l)) /\ part E (ct_parts (w_ct E w')) (L "Cpr2") (OG2 (mul2 E t (Q2 P))) /\
     (forall a, In a (aattrs l) -> part E (ct_parts (w_ct E w')) (element_label (L "C") (short a)) (OG1 (mul1 E t (hash_to_g1 E (Qk P) a)))) /\
     (portable K (e_mktime E) (OAttrs l) -> sound (ct_parts (w_ct E w)) -> sound (ct_parts (w_ct E w')))) as (w' & K1 & K2 & K3 & K4 & K5 & K6 & K7 & K8 & K9 & K10).
  { unfold kp_encrypt_kem, catch_code. do 8 step. cbn [zv]. fold t.
    match goal with |- context [andthen E (kp_enc_loop E _ ?tt ?al) _ ?ww] => destruct (kp_enc_loop_ok (Qk P) tt al ww) as (w' & E1 & E2 & E3 & E4 & E5 & E6 & E7) end.
    erewrite andthen_ok by exact E1. step. erewrite andthen_ok by (apply hash_to_sym_ok; exact HE). erewrite andthen_ok by reflexivity. unfold ret.
    eexists. split; [reflexivity|]. cbn [w_store set_ct set_sym w_ct ct_alg ct_version ct_uid ct_parts w_sym ct_set_component].
    split; [rewrite E2; reflexivity|]. split; [reflexivity|]. split; [reflexivity|]. split; [rewrite E4; reflexivity|]. split; [rewrite E5; reflexivity|].
    split; [apply part_same; reflexivity|]. split; [|split; [|intros Ht S0; sound_tac; [apply E7; cbn [w_ct set_ct set_off ct_parts ct_set_component]; sound_tac; exact S0|exact Ht]]].
    - apply part_other; [intro X; discriminate X|]. destruct (E6 (L "Cpr2")) as [(a & _ & X & _)|(_ & Em)]; [discriminate X|]. unfold part. rewrite Em. apply part_same. reflexivity.
    - intros a Ia. apply part_other; [intro X; discriminate X|]. destruct (E6 (element_label (L "C") (short a))) as [(b & Ib & En & Ep)|(N & _)]; [|exfalso; apply N; eauto].
      apply label_inj in En. rewrite (Hn a b Ia Ib En) at 2. exact Ep. }
  change (encrypt_kem E KP) with (kp_encrypt_kem E). erewrite andthen_ok by exact K1. cbn [Z.eqb negb]. erewrite andthen_ok by reflexivity. rewrite K3.
  destruct (mask_ok E (sym_of E (expT E t (expT E (Qy P) (kp_base P)))) pt HE Hl) as (m & b & M1 & M2 & M3 & M4). rewrite M1. step. rewrite M2. do 2 step. unfold ret.
  eexists. split; [reflexivity|]. cbn [w_store set_ct w_ct ct_alg ct_version ct_uid ct_parts ct_set_component]. split; [exact K2|]. split; [|split; [exact K4|]; split; [exact K5|]; split; [exact K6|]; intros Ht S0; apply sound_set; [apply K10; assumption|split; [discriminate|vm_compute; reflexivity]|unfold portable; rewrite M3; lia]].
  exists t, (copy_list l). split; [apply part_other; [intro X; discriminate X|exact K7]|]. split; [reflexivity|]. split; [apply part_other; [intro X; discriminate X|exact K8]|]. split.
  - intros a Ia. apply part_other; [intro X; discriminate X|]. apply K9. exact Ia.
  - exists m, b. split; [exact M1|]. split; [exact M2|]. apply part_same. reflexivity.
Qed.
End Kp.
