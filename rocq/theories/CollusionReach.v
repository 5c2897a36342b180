(** The other direction: the key of one member who may read the ciphertext is enough
    for a fixed computation that always works. *)
From Verif Require Import Base StrMap ByteString ByteStringProofs UInteger Field FieldProofs Policy Driver Parser AttrList Utils Kdf KdfProofs Lsss LsssSpec LsssProofs LsssScan LsssShare LsssAlgebra LsssRecover LsssPrivacy LsssFinal SchemeRows Container ContainerSpec ContainerProofs Travel PropUtil Keystore Scheme SchemeSpec SchemeStep SchemeCp SchemeKp CollusionSpec CollusionShape CollusionCp CollusionCpCut CollusionKp CollusionKpCut.
From Coq Require Import ZArith Znumtheory List Ascii Bool Lia Permutation.
Import ListNotations.
Open Scope Z_scope.

(** The pairings of decryption, for the key with number [j]. *)
Section Attack.
Context (E : engine).
Notation short := (short_label E).
Definition cp_attack (j : nat) (rows : rowmap) : list move :=
  Pair (At InCiphertext (L "Cprime")) (InKey j) (L "K") 1 ::
  flat_map (fun x => let '(u, (lab, c)) := x in
    [Pair (At InCiphertext (element_label (L "C") (short u))) (InKey j) (L "L") (- c);
     Pair (At (InKey j) (element_label (L "KX") (short lab))) InCiphertext (element_label (L "D") (short u)) (- c)]) rows.
Definition kp_attack (j : nat) (rows : rowmap) : list move :=
  flat_map (fun x => let '(u, (lab, c)) := x in
    [Pair (At (InKey j) (element_label (L "D") (short u))) InCiphertext (L "Cpr2") c;
     Pair (At InCiphertext (element_label (L "C") (short lab))) (InKey j) (element_label (L "d") (short u)) (- c)]) rows.
End Attack.

Section Reach.
Context (E : engine) (HE : lawful E).
Notation K := (e_curve E).
Notation p := (order K).
Notation short := (short_label E).

Lemma read_part : forall (h : holdings E) w name o, part E (place_of E h w) name o -> read E h w name = Some o.
Proof. intros h w name o H. unfold read, part in *. rewrite H. reflexivity. Qed.

(** Two moves of CP decryption. *)
Lemma cp_moves : forall P t c r e hh,
  multT E (expT E (- c) (pair E (add1 E (mul1 E e (mul1 E (Pa E P) (P1 E P))) (mul1 E (fneg p r) hh)) (mul2 E t (P2 E P))))
          (expT E (- c) (pair E (mul1 E t hh) (mul2 E r (P2 E P))))
  = expT E (- (c * e) * (Pa E P * t)) (cp_base E P).
Proof.
  intros P t c r e hh. pose proof (cp_row_pairs E HE P t (- c) r e hh) as G. rewrite !(law_pair_mul1 E HE (- c)) in G. rewrite (law_multT_comm E HE), G. f_equal. lia.
Qed.
Lemma cp_attack_ok : forall P q r l h j k pt, usable E q r -> sat (match_attribute (aattrs l)) r = true ->
  cp_public E P (of_params E h) -> nth_error (of_keys E h) j = Some k -> cp_user E P (aattrs l) k -> cp_sealed E P q pt (of_ct E h) ->
  forall co st, recover_coefficients (e_sort E) (aattrs l) false p lsss_new q fresh = Ok (true, co, st) ->
  forall C, secret_of E CP h C -> outcome E h (cp_attack E j (l_rows co)) = C.
Proof.
  intros P q r l h j k pt (R1 & R2 & R3 & R4 & R5) Hsat (A1 & A2 & A3 & A4 & A5) Hj (t & l' & U1 & U2 & U3 & U4 & U5) (s & sh & off & off' & Hs & Es & C1 & C2 & C3 & C4) co st Er C (g & A & s' & S1 & S2 & S3 & ->).
  pose proof (read_part h InParams _ _ A1) as B1. pose proof (read_part h InParams _ _ A4) as B4. rewrite S1 in B1. injection B1 as ->. rewrite S2 in B4. injection B4 as ->.
  pose proof (read_part h InCiphertext _ _ C2) as B2. rewrite S3 in B2. injection B2 as B2.
  assert (expT E s' (expT E (Palpha E P) (cp_base E P)) = expT E s (expT E (Palpha E P) (cp_base E P))) as ->.
  { unfold cp_base. rewrite <- (law_pair_mul2 E HE), <- !(law_pair_mul1 E HE), B2. reflexivity. }
  destruct (rows_lemma p (e_sort E) (aattrs l) q r s (e_zp E) off (law_prime E HE) (law_sort E HE) R1 R2 R3 R4 Hs) as (sh' & o2 & Es' & Nsh & _ & Hyes & _).
  rewrite Es in Es'. injection Es' as <- <-. destruct (Hyes Hsat) as (co' & st' & Er' & Hw & Hne & Hrow). rewrite Er in Er'. injection Er' as <- <-.
  assert (nth j (of_keys E h) [] = k) as Nj by (apply nth_error_nth; exact Hj).
  assert (forall rows, (forall u lab c, In (u, (lab, c)) rows -> In lab (aattrs l) /\ exists e, mget u (l_rows sh) = Some (lab, e) /\ coef_of (l_rows sh) u = e) ->
    fold_right (fun m acc => multT E (yields E h m) acc) (oneT E) (flat_map (fun x => let '(u, (lab, c)) := x in
      [Pair (At InCiphertext (element_label (L "C") (short u))) (InKey j) (L "L") (- c);
       Pair (At (InKey j) (element_label (L "KX") (short lab))) InCiphertext (element_label (L "D") (short u)) (- c)]) rows)
    = expT E (- weighed rows (l_rows sh) * (Pa E P * t)) (cp_base E P)) as Loop.
  { induction rows as [|[u [lab c]] rows IH]; intro Hr; [cbn [flat_map fold_right weighed]; symmetry; apply (expT_zero E HE)|].
    cbn [flat_map app fold_right weighed]. rewrite IH by (intros u' lab' c' I0; apply (Hr u' lab' c'); right; exact I0).
    destruct (Hr u lab c (or_introl eq_refl)) as (Ia & e & Ee & Ec). destruct (C3 u lab e (mget_In _ _ _ Ee)) as (rr & D1 & D2).
    cbn [yields read1]. rewrite (read_part h InCiphertext _ _ D2). unfold read2. rewrite (read_part h InCiphertext _ _ D1).
    rewrite (read_part h (InKey j) (L "L") (OG2 (mul2 E t (P2 E P)))) by (cbn [place_of]; rewrite Nj; exact U4).
    rewrite (read_part h (InKey j) (element_label (L "KX") (short lab)) (OG1 (mul1 E t (hash_to_g1 E (Pk E P) lab)))) by (cbn [place_of]; rewrite Nj; apply U5; exact Ia).
    rewrite (law_multT_assoc E HE), cp_moves, <- (law_expT_add E HE), Ec. f_equal. lia. }
  unfold outcome, cp_attack. cbn [fold_right]. rewrite (Loop (l_rows co) Hrow). cbn [yields read1]. rewrite (read_part h InCiphertext _ _ C2). unfold read2.
  rewrite (read_part h (InKey j) (L "K") _) by (cbn [place_of]; rewrite Nj; exact U3).
  cbv beta iota. rewrite (law_pair_mul1 E HE), (law_pair_add2 E HE), !(law_pair_mul2 E HE), !(law_expT_mul E HE). fold (cp_base E P).
  rewrite <- !(law_expT_add E HE), !(law_expT_mul E HE), <- !(law_expT_add E HE). apply (expT_cong E HE).
  set (W := weighed (l_rows co) (l_rows sh)) in *. pose proof (prime_ge_2 _ (law_prime E HE)).
  assert (exists n, W = s + p * n) as [n ->] by (exists (W / p); rewrite <- Hw at 1; rewrite Z.add_comm; apply Z.div_mod; lia).
  match goal with |- ?x mod p = ?y mod p => replace x with (y + (- n * (Pa E P * t)) * p) by ring end. apply Z.mod_add. lia.
Qed.

(** Two moves of KP decryption. *)
Lemma kp_moves : forall P t c r e hh,
  multT E (expT E c (pair E (add1 E (mul1 E e (Q1 E P)) (mul1 E r hh)) (mul2 E t (Q2 E P)))) (expT E (- c) (pair E (mul1 E t hh) (mul2 E r (Q2 E P))))
  = expT E (c * e * t) (kp_base E P).
Proof.
  intros P t c r e hh. pose proof (kp_row_pairs E HE P t c r e hh) as G. rewrite !(law_pair_mul1 E HE c) in G. rewrite G.
  rewrite (law_multT_comm E HE (expT E c _)), <- (law_multT_assoc E HE), <- (law_expT_add E HE). replace (c + - c) with 0 by lia. rewrite (expT_zero E HE), (law_multT_comm E HE), (law_multT_one E HE). reflexivity.
Qed.
Lemma kp_attack_ok : forall P q r l h j k pt, usable E q r -> sat (match_attribute (aattrs l)) r = true ->
  kp_public E P (of_params E h) -> nth_error (of_keys E h) j = Some k -> kp_user E P q k -> kp_sealed E P (aattrs l) pt (of_ct E h) ->
  forall co st, recover_coefficients (e_sort E) (aattrs l) false p lsss_new q fresh = Ok (true, co, st) ->
  forall C, secret_of E KP h C -> outcome E h (kp_attack E j (l_rows co)) = C.
Proof.
  intros P q r l h j k pt (R1 & R2 & R3 & R4 & R5) Hsat (A1 & A2 & A3 & A4) Hj (sh & off & off' & Hs & Es & U1 & U2) (t & l' & C1 & C2 & C3 & C4 & C5) co st Er C (g & Y & t' & S1 & S2 & S3 & ->).
  pose proof (read_part h InParams _ _ A2) as B1. pose proof (read_part h InParams _ _ A3) as B4. rewrite S1 in B1. injection B1 as ->. rewrite S2 in B4. injection B4 as ->.
  pose proof (read_part h InCiphertext _ _ C3) as B2. rewrite S3 in B2. injection B2 as B2.
  assert (expT E t' (expT E (Qy E P) (kp_base E P)) = expT E t (expT E (Qy E P) (kp_base E P))) as ->.
  { unfold kp_base. rewrite <- (law_pair_mul1 E HE), <- !(law_pair_mul2 E HE), B2. reflexivity. }
  destruct (rows_lemma p (e_sort E) (aattrs l) q r (Qy E P) (e_zp E) off (law_prime E HE) (law_sort E HE) R1 R2 R3 R4 Hs) as (sh' & o2 & Es' & Nsh & _ & Hyes & _).
  rewrite Es in Es'. injection Es' as <- <-. destruct (Hyes Hsat) as (co' & st' & Er' & Hw & Hne & Hrow). rewrite Er in Er'. injection Er' as <- <-.
  assert (nth j (of_keys E h) [] = k) as Nj by (apply nth_error_nth; exact Hj).
  assert (forall rows, (forall u lab c, In (u, (lab, c)) rows -> In lab (aattrs l) /\ exists e, mget u (l_rows sh) = Some (lab, e) /\ coef_of (l_rows sh) u = e) ->
    outcome E h (kp_attack E j rows) = expT E (weighed rows (l_rows sh) * t) (kp_base E P)) as Loop.
  { unfold outcome, kp_attack. induction rows as [|[u [lab c]] rows IH]; intro Hr; [cbn [flat_map fold_right weighed]; symmetry; apply (expT_zero E HE)|].
    cbn [flat_map app fold_right weighed]. rewrite IH by (intros u' lab' c' I0; apply (Hr u' lab' c'); right; exact I0).
    destruct (Hr u lab c (or_introl eq_refl)) as (Ia & e & Ee & Ec). destruct (U2 u lab e (mget_In _ _ _ Ee)) as (rr & D1 & D2).
    cbn [yields read1]. rewrite (read_part h InCiphertext _ _ (C4 lab Ia)). unfold read2. rewrite (read_part h InCiphertext _ _ C3).
    rewrite (read_part h (InKey j) (element_label (L "D") (short u)) _) by (cbn [place_of]; rewrite Nj; exact D1).
    rewrite (read_part h (InKey j) (element_label (L "d") (short u)) _) by (cbn [place_of]; rewrite Nj; exact D2).
    rewrite (law_multT_assoc E HE), kp_moves, <- (law_expT_add E HE), Ec. f_equal. lia. }
  rewrite (Loop (l_rows co) Hrow), (law_expT_mul E HE). apply (expT_cong E HE).
  set (W := weighed (l_rows co) (l_rows sh)) in *. pose proof (prime_ge_2 _ (law_prime E HE)).
  assert (exists n, W = Qy E P + p * n) as [n ->] by (exists (W / p); rewrite <- Hw at 1; rewrite Z.add_comm; apply Z.div_mod; lia).
  match goal with |- ?x mod p = ?y mod p => replace x with (y + (n * t) * p) by ring end. apply Z.mod_add. lia.
Qed.

(** The key comes from the element the ciphertext is sealed with. *)
Lemma cp_sealed_with : forall P q r mpk kp pt x w h, mget mpk (pub_keys (fst x)) = Some (Some kp) -> cp_public E P (k_parts kp) -> usable E q r -> len pt < 2147483616 ->
  encrypt E CP mpk (InPolicy q) pt (start E x (no_ct E)) = (w, Ok 0) -> of_params E h = k_parts kp -> of_ct E h = ct_parts (w_ct E w) ->
  exists C, secret_of E CP h C /\ w_sym E w = derived E C.
Proof.
  intros P q r mpk kp pt x w h Hk HP (R1 & R2 & R3 & R4 & R5) Hl En Hp Hc. pose proof (prime_ge_2 _ (law_prime E HE)).
  destruct (rows_lemma p (e_sort E) [] q r (e_zp E (snd x) mod p) (e_zp E) (S (snd x)) (law_prime E HE) (law_sort E HE) R1 R2 R3 R4 ltac:(apply Z.mod_pos_bound; lia)) as (sh & off & Es & _).
  destruct (cp_encrypt_exact E HE P q mpk kp pt (start E x (no_ct E)) sh off Hk HP Hl eq_refl Es) as (w' & En' & Sy & D). rewrite En in En'. injection En' as <-.
  set (row k := match nth_error (l_rows sh) k with Some (_, x) => x | None => ([], 0) end).
  pose (v := {| vP := P; vs := e_zp E (snd x) mod p; vt := fun _ => 0; vrow := row; vr := fun k => e_zp E (off + k) mod p |}).
  assert (described (cfits E v) (d_ct E (map fst (l_rows sh))) (ct_parts (w_ct E w))) as G by (apply D; [reflexivity|reflexivity|intros k u lab e N; cbn [vrow vr v]; unfold row; rewrite N; split; reflexivity]).
  specialize (G (L "Cprime")). rewrite d_ct_prime in G. destruct G as (o & Go & Fo). cbn [cfits] in Fo. subst o. destruct HP as (A1 & A2 & A3 & A4 & A5).
  exists (expT E (e_zp E (snd x) mod p) (expT E (Palpha E P) (cp_base E P))). split; [|exact Sy]. cbn [secret_of]. eexists _, _, _.
  split; [apply (read_part h InParams); cbn [place_of]; rewrite Hp; exact A1|]. split; [apply (read_part h InParams); cbn [place_of]; rewrite Hp; exact A4|].
  split; [apply (read_part h InCiphertext); cbn [place_of]; rewrite Hc; exact Go|reflexivity].
Qed.
Lemma kp_sealed_with : forall P l mpk kp pt x w h, mget mpk (pub_keys (fst x)) = Some (Some kp) -> kp_public E P (k_parts kp) -> len pt < 2147483616 ->
  encrypt E KP mpk (InAttrs l) pt (start E x (no_ct E)) = (w, Ok 0) -> of_params E h = k_parts kp -> of_ct E h = ct_parts (w_ct E w) ->
  exists C, secret_of E KP h C /\ w_sym E w = derived E C.
Proof.
  intros P l mpk kp pt x w h Hk HP Hl En Hp Hc.
  destruct (kp_encrypt_exact E HE P l mpk kp pt (start E x (no_ct E)) Hk HP Hl eq_refl) as (w' & En' & Sy & D). rewrite En in En'. injection En' as <-.
  pose (v := {| wP := P; wt := e_zp E (snd x) mod p; wrow := fun _ _ => ([], 0); wr := fun _ _ => 0 |}).
  assert (described (kfits E v) (k_ct E (aattrs l)) (ct_parts (w_ct E w))) as G by (apply D; reflexivity).
  specialize (G (L "Cpr2")). rewrite k_ct_prime in G. destruct G as (o & Go & Fo). cbn [kfits] in Fo. subst o. destruct HP as (A1 & A2 & A3 & A4).
  exists (expT E (e_zp E (snd x) mod p) (expT E (Qy E P) (kp_base E P))). split; [|exact Sy]. cbn [secret_of]. eexists _, _, _.
  split; [apply (read_part h InParams); cbn [place_of]; rewrite Hp; exact A2|]. split; [apply (read_part h InParams); cbn [place_of]; rewrite Hp; exact A3|].
  split; [apply (read_part h InCiphertext); cbn [place_of]; rewrite Hc; exact Go|reflexivity].
Qed.

(** ** What a coalition holds *)
Lemma cp_issued : forall P mpk msk kp ks, cp_public E P (k_parts kp) -> cp_master E P (k_parts ks) -> forall users x y, issue E CP mpk msk (with_lists users) x y ->
  mget mpk (pub_keys (fst x)) = Some (Some kp) -> mget msk (sec_keys (fst x)) = Some (Some ks) -> NoDup (map fst users) -> ~ In msk (map fst users) ->
  mget mpk (pub_keys (fst y)) = Some (Some kp) /\ (forall id, ~ In id (map fst users) -> mget id (sec_keys (fst y)) = mget id (sec_keys (fst x))) /\
  forall id l, In (id, l) users -> no_collision short (aattrs l) -> exists dec, mget id (sec_keys (fst y)) = Some (Some dec) /\ cp_user E P (aattrs l) (k_parts dec).
Proof.
  intros P mpk msk kp ks HP HM. induction users as [|[id l] users IH]; intros x y Is Hp Hs ND NI.
  - inversion Is; subst. split; [exact Hp|]. split; [reflexivity|]. intros id l [].
  - unfold with_lists in Is. cbn [map fst snd] in Is, ND, NI. fold (with_lists users) in Is. inversion ND as [|? ? N1 N2]; subst. inversion Is as [|id' inp rest x' w y' Ek Ir]; subst.
    destruct (cp_keygen_exact E P l id mpk msk kp ks (start E x (no_ct E)) Hp Hs HP HM) as (dec & Ed & _). cbn [keygen] in Ek. pose proof Ek as Ek0. rewrite Ed in Ek. injection Ek as <-.
    match type of Ed with _ = (?w, _) => set (w1 := w) in * end.
    destruct (IH _ _ Ir) as (I1 & I2 & I3); try assumption.
    { unfold left_by, w1. cbn [fst w_store set_off set_store start add_key sec_keys pub_keys]. rewrite mget_mset_other by (intro X; apply NI; left; symmetry; exact X). exact Hs. }
    { intro X. apply NI. right. exact X. }
    split; [exact I1|]. split.
    + intros id' N'. rewrite I2 by (intro X; apply N'; right; exact X). unfold left_by, w1. cbn [fst w_store set_off set_store start add_key sec_keys pub_keys].
      rewrite mget_mset_other by (intro X; apply N'; left; symmetry; exact X). reflexivity.
    + intros id' l' [X|X] Nc; [|apply I3; assumption]. injection X as <- <-. exists dec. split.
      * rewrite I2 by exact N1. unfold left_by, w1. cbn [fst w_store set_off set_store start add_key sec_keys pub_keys]. apply mget_mset_same.
      * destruct (cp_keygen_ok E HE P l id mpk msk kp ks (start E x (no_ct E)) Hp Hs HP HM Nc) as (dec' & off' & Ed' & Hu & _). rewrite Ek0 in Ed'. injection Ed' as Ed'.
        assert (Some (Some dec) = Some (Some dec')) as X1.
        { rewrite <- (mget_mset_same id (Some dec) (sec_keys (fst x))), <- (mget_mset_same id (Some dec') (sec_keys (fst x))).
          exact (f_equal (mget id) Ed'). }
        injection X1 as <-. exact Hu.
Qed.
Lemma cp_reach : forall q r users mpk msk pt x0 h key j id l, coalition E CP mpk msk (with_lists users) (InPolicy q) pt x0 h key ->
  usable E q r -> no_collision short (row_names q) -> NoDup (map fst users) -> ~ In msk (map fst users) -> len pt < 2147483616 ->
  nth_error users j = Some (id, l) -> no_collision short (aattrs l) -> sat (match_attribute (aattrs l)) r = true ->
  forall co st, recover_coefficients (e_sort E) (aattrs l) false p lsss_new q fresh = Ok (true, co, st) ->
  secret_of E CP h (outcome E h (cp_attack E j (l_rows co))) /\ key = derived E (outcome E h (cp_attack E j (l_rows co))).
Proof.
  intros q r users mpk msk pt x0 h key j id l (w1 & x2 & w3 & kp & G & Is & Gp & Ep & F2 & En & Ec & Ek) U N1 ND NI Hl Hj Nl Hsat co st Er.
  cbn [generate_params] in G. destruct (cp_generate_ok E HE _ _ _ _ G) as (P & kp0 & ks & H1 & H2 & HP & HM & _).
  destruct (cp_issued P mpk msk kp0 ks HP HM users _ _ Is H1 H2 ND NI) as (I1 & _ & I3). rewrite I1 in Gp. injection Gp as <-.
  assert (exists k, nth_error (of_keys E h) j = Some k /\ exists dec, mget id (sec_keys (fst x2)) = Some (Some dec) /\ k = k_parts dec) as (k & Nk & dec & Gd & ->).
  { clear - F2 Hj. unfold with_lists in F2. revert j Hj F2. generalize (of_keys E h). induction users as [|u users IH]; intros cs [|j] Hj F2; try discriminate Hj; inversion F2; subst.
    - cbn [nth_error] in Hj. injection Hj as ->. match goal with H : exists _, _ |- _ => destruct H as (d & D1 & D2) end. cbn [fst] in D1. eexists. split; [reflexivity|]. eauto.
    - cbn [nth_error] in *. eapply IH; eauto. }
  destruct (I3 id l (nth_error_In _ _ Hj) Nl) as (dec' & Gd' & Hu). rewrite Gd in Gd'. injection Gd' as <-.
  destruct (cp_encrypt_ok E HE P q r mpk kp0 pt (start E x2 (no_ct E)) I1 HP U N1 Hl) as (w' & En' & _ & Hc & _). rewrite En in En'. injection En' as <-.
  destruct (cp_sealed_with P q r mpk kp0 pt x2 w3 h I1 HP U Hl En Ep Ec) as (C & Sc & Sk).
  rewrite (cp_attack_ok P q r l h j (k_parts dec) pt U Hsat ltac:(rewrite Ep; exact HP) Nk Hu ltac:(rewrite Ec; exact Hc) co st Er C Sc). split; [exact Sc|congruence].
Qed.

Lemma kp_issued : forall P mpk msk kp ks, kp_public E P (k_parts kp) -> kp_master E P (k_parts ks) -> forall users x y, issue E KP mpk msk (with_policies users) x y ->
  (forall id q, In (id, q) users -> exists r, usable E q r /\ no_collision short (row_names q)) ->
  mget mpk (pub_keys (fst x)) = Some (Some kp) -> mget msk (sec_keys (fst x)) = Some (Some ks) -> NoDup (map fst users) -> ~ In msk (map fst users) ->
  mget mpk (pub_keys (fst y)) = Some (Some kp) /\ (forall id, ~ In id (map fst users) -> mget id (sec_keys (fst y)) = mget id (sec_keys (fst x))) /\
  forall id q, In (id, q) users -> exists dec, mget id (sec_keys (fst y)) = Some (Some dec) /\ kp_user E P q (k_parts dec).
Proof.
  intros P mpk msk kp ks HP HM. induction users as [|[id q] users IH]; intros x y Is Hu Hp Hs ND NI.
  - inversion Is; subst. split; [exact Hp|]. split; [reflexivity|]. intros id q [].
  - unfold with_policies in Is. cbn [map fst snd] in Is, ND, NI. fold (with_policies users) in Is. inversion ND as [|? ? N1 N2]; subst. inversion Is as [|id' inp rest x' w y' Ek Ir]; subst.
    destruct (Hu id q (or_introl eq_refl)) as (r & U & Nc).
    destruct (kp_keygen_ok E HE P q r id mpk msk kp ks (start E x (no_ct E)) Hp Hs HP HM U Nc) as (dec & off & Ed & Hk & _). cbn [keygen] in Ek. rewrite Ed in Ek. injection Ek as <-.
    match type of Ed with _ = (?w, _) => set (w1 := w) in * end.
    destruct (IH _ _ Ir) as (I1 & I2 & I3); try assumption.
    { intros id' q' X. apply (Hu id' q'). right. exact X. }
    { unfold left_by, w1. cbn [fst w_store set_off set_store start add_key sec_keys pub_keys]. rewrite mget_mset_other by (intro X; apply NI; left; symmetry; exact X). exact Hs. }
    { intro X. apply NI. right. exact X. }
    split; [exact I1|]. split.
    + intros id' N'. rewrite I2 by (intro X; apply N'; right; exact X). unfold left_by, w1. cbn [fst w_store set_off set_store start add_key sec_keys pub_keys].
      rewrite mget_mset_other by (intro X; apply N'; left; symmetry; exact X). reflexivity.
    + intros id' q' [X|X]; [|apply I3; assumption]. injection X as <- <-. exists dec. split; [|exact Hk].
      rewrite I2 by exact N1. unfold left_by, w1. cbn [fst w_store set_off set_store start add_key sec_keys pub_keys]. apply mget_mset_same.
Qed.
Lemma kp_reach : forall q r users mpk msk pt x0 h key j id l, coalition E KP mpk msk (with_policies users) (InAttrs l) pt x0 h key ->
  (forall id q, In (id, q) users -> exists r, usable E q r /\ no_collision short (row_names q)) -> NoDup (map fst users) -> ~ In msk (map fst users) -> len pt < 2147483616 ->
  nth_error users j = Some (id, q) -> usable E q r -> no_collision short (aattrs l) -> sat (match_attribute (aattrs l)) r = true ->
  forall co st, recover_coefficients (e_sort E) (aattrs l) false p lsss_new q fresh = Ok (true, co, st) ->
  secret_of E KP h (outcome E h (kp_attack E j (l_rows co))) /\ key = derived E (outcome E h (kp_attack E j (l_rows co))).
Proof.
  intros q r users mpk msk pt x0 h key j id l (w1 & x2 & w3 & kp & G & Is & Gp & Ep & F2 & En & Ec & Ek) Hu ND NI Hl Hj U Nl Hsat co st Er.
  cbn [generate_params] in G. destruct (kp_generate_ok E HE _ _ _ _ G) as (P & kp0 & ks & H1 & H2 & HP & HM & _).
  destruct (kp_issued P mpk msk kp0 ks HP HM users _ _ Is Hu H1 H2 ND NI) as (I1 & _ & I3). rewrite I1 in Gp. injection Gp as <-.
  assert (exists k, nth_error (of_keys E h) j = Some k /\ exists dec, mget id (sec_keys (fst x2)) = Some (Some dec) /\ k = k_parts dec) as (k & Nk & dec & Gd & ->).
  { clear - F2 Hj. unfold with_policies in F2. revert j Hj F2. generalize (of_keys E h). induction users as [|u users IH]; intros cs [|j] Hj F2; try discriminate Hj; inversion F2; subst.
    - cbn [nth_error] in Hj. injection Hj as ->. match goal with H : exists _, _ |- _ => destruct H as (d & D1 & D2) end. cbn [fst] in D1. eexists. split; [reflexivity|]. eauto.
    - cbn [nth_error] in *. eapply IH; eauto. }
  destruct (I3 id q (nth_error_In _ _ Hj)) as (dec' & Gd' & Hk). rewrite Gd in Gd'. injection Gd' as <-.
  destruct (kp_encrypt_ok E HE P l mpk kp0 pt (start E x2 (no_ct E)) I1 HP Nl Hl) as (w' & En' & _ & Hc & _). rewrite En in En'. injection En' as <-.
  destruct (kp_sealed_with P l mpk kp0 pt x2 w3 h I1 HP Hl En Ep Ec) as (C & Sc & Sk).
  rewrite (kp_attack_ok P q r l h j (k_parts dec) pt U Hsat ltac:(rewrite Ep; exact HP) Nk Hk ltac:(rewrite Ec; exact Hc) co st Er C Sc). split; [exact Sc|congruence].
Qed.
End Reach.
