(** GPSW KP-ABE: no single computation recovers the key for every choice of the
    random exponents, when no member's policy is satisfied by the attributes. *)
From Verif Require Import Base StrMap ByteString ByteStringProofs UInteger Field FieldProofs Policy Driver Parser AttrList Utils Kdf KdfProofs Lsss LsssSpec LsssProofs LsssScan LsssShare LsssAlgebra LsssRecover LsssPrivacy LsssFinal SchemeRows Container ContainerSpec ContainerProofs Travel PropUtil Keystore Scheme SchemeSpec SchemeStep SchemeCp SchemeKp CollusionSpec CollusionShape CollusionKp.
From Coq Require Import ZArith Znumtheory List Ascii Bool Lia Permutation.
Import ListNotations.
Open Scope Z_scope.

Definition with_policies (users : list (str * policy)) : list (str * input) := map (fun u => (fst u, InPolicy (snd u))) users.

(** ** Random choices for the user keys *)
Section Plan.
Variables (p : Z) (held : str -> bool).
Hypothesis p_prime : prime p.
Definition rho (rows : rowmap) (i : nat) : Z := match nth_error rows i with Some (_, (lab, e)) => if held lab then 0 else - e | None => 0 end.
(** [T] hides the secret one in the keys for these policies, drawn from [off] to [fin]. *)
Inductive planned (T : nat -> Z) : list policy -> nat -> list (rowmap * rowmap) -> nat -> Prop :=
| planned_none : forall off, planned T [] off [] off
| planned_one : forall q r rest off R0 R1 plans fin, proot q = Some r ->
    (forall t, (forall i, (S off <= i < S off + ndraws r)%nat -> eqm p (t i) 0) -> exists o, share_secret false p lsss_new q 0 t (S off) = Ok (o, (S off + ndraws r)%nat) /\ l_rows o = R0) ->
    (forall t, (forall i, (S off <= i < S off + ndraws r)%nat -> eqm p (t i) (T i)) -> exists o, share_secret false p lsss_new q 1 t (S off) = Ok (o, (S off + ndraws r)%nat) /\ l_rows o = R1) ->
    skeleton R1 = skeleton R0 -> (forall u lab e, In (u, (lab, e)) R0 -> e = 0) ->
    (forall u lab e, In (u, (lab, e)) R1 -> held lab = true -> e = 0) ->
    (forall u lab e, In (u, (lab, e)) R0 -> In lab (map complete_label (leaves r))) ->
    (forall i, (i < length R0)%nat -> T (S off + ndraws r + i)%nat = rho R1 i) ->
    planned T rest (S off + ndraws r + length R0) plans fin -> planned T (q :: rest) off ((R0, R1) :: plans) fin.
Lemma planned_ext : forall T T' qs off plans fin, planned T qs off plans fin -> (forall i, (off <= i)%nat -> T i = T' i) -> planned T' qs off plans fin.
Proof.
  intros T T' qs off plans fin H. induction H as [off|q r rest off R0 R1 plans fin Hq S0 S1 Sk Zr Hd Lb Rh Hr IH]; intro Ex; [constructor|].
  apply (planned_one T' q r rest off R0 R1 plans fin); try assumption.
  - intros t Ht. apply S1. intros i Hi. rewrite (Ht i Hi), Ex by lia. reflexivity.
  - intros i Hi. rewrite <- Ex by lia. apply Rh. exact Hi.
  - apply IH. intros i Hi. apply Ex. lia.
Qed.
Lemma planned_le : forall T qs off plans fin, planned T qs off plans fin -> (off <= fin)%nat.
Proof. intros T qs off plans fin H. induction H; lia. Qed.
Lemma plan_exists : forall qs, (forall q, In q qs -> exists r, proot q = Some r /\ shareable r = true /\ fanout_lt p r = true /\ sat held r = false) ->
  forall off, exists T plans fin, planned T qs off plans fin.
Proof.
  induction qs as [|q qs IH]; intros Hq off; [exists (fun _ => 0), [], off; constructor|].
  destruct (Hq q (or_introl eq_refl)) as (r & Er & Sr & Fr & Ur). destruct (hidden_rows p p_prime held q r (S off) Er Sr Fr Ur) as (hide & R0 & R1 & S0 & S1 & Sk & Zr & Hd & Lb).
  destruct (IH (fun q' I0 => Hq q' (or_intror I0)) (S off + ndraws r + length R0)%nat) as (T & plans & fin & Pl).
  exists (fun i => if Nat.ltb i (S off + ndraws r) then hide i else if Nat.ltb i (S off + ndraws r + length R0) then rho R1 (i - (S off + ndraws r)) else T i), ((R0, R1) :: plans), fin.
  apply (planned_one _ q r); try assumption.
  - intros t Ht. apply S1. intros i Hi. rewrite (Ht i Hi). replace (Nat.ltb i (S off + ndraws r)) with true by (symmetry; apply Nat.ltb_lt; lia). reflexivity.
  - intros i Hi. replace (Nat.ltb (S off + ndraws r + i) (S off + ndraws r)) with false by (symmetry; apply Nat.ltb_ge; lia).
    replace (Nat.ltb (S off + ndraws r + i) (S off + ndraws r + length R0)) with true by (symmetry; apply Nat.ltb_lt; lia). f_equal. lia.
  - eapply planned_ext; [exact Pl|]. intros i Hi. replace (Nat.ltb i (S off + ndraws r)) with false by (symmetry; apply Nat.ltb_ge; lia).
    replace (Nat.ltb i (S off + ndraws r + length R0)) with false by (symmetry; apply Nat.ltb_ge; lia). reflexivity.
Qed.
(** What a plan says about the rows of one key. *)
Lemma planned_rows : forall T qs off plans fin, planned T qs off plans fin -> forall j R0 R1, nth_error plans j = Some (R0, R1) ->
  skeleton R1 = skeleton R0 /\ (forall u lab e, In (u, (lab, e)) R0 -> e = 0) /\ (forall u lab e, In (u, (lab, e)) R1 -> held lab = true -> e = 0) /\
  (forall u lab e, In (u, (lab, e)) R0 -> exists q r, In q qs /\ proot q = Some r /\ In lab (map complete_label (leaves r))).
Proof.
  intros T qs off plans fin H. induction H as [off|q r rest off R0 R1 plans fin Hq S0 S1 Sk Zr Hd Lb Rh Hr IH]; intros [|j] A B N; try discriminate N.
  - injection N as <- <-. split; [exact Sk|]. split; [exact Zr|]. split; [exact Hd|]. intros u lab e I0. exists q, r. split; [left; reflexivity|]. split; [exact Hq|eapply Lb; exact I0].
  - cbn [nth_error] in N. destruct (IH j A B N) as (X1 & X2 & X3 & X4). split; [exact X1|]. split; [exact X2|]. split; [exact X3|]. intros u lab e I0. destruct (X4 u lab e I0) as (q' & r' & I1 & I2). exists q', r'. split; [right; exact I1|exact I2].
Qed.
Definition rows_at (y : Z) (plan : rowmap * rowmap) : rowmap := if y =? 0 then fst plan else snd plan.
End Plan.

(** ** A coalition *)
Section Run.
Context (E : engine) (HE : lawful E).
Notation K := (e_curve E).
Notation p := (order K).
Variable held : str -> bool.
Lemma kp_issue : forall P mpk msk T users plans fin x kp ks, planned p held T (map snd users) (snd x) plans fin ->
  mget mpk (pub_keys (fst x)) = Some (Some kp) -> mget msk (sec_keys (fst x)) = Some (Some ks) ->
  kp_public E P (k_parts kp) -> kp_master E P (k_parts ks) -> NoDup (map fst users) -> ~ In msk (map fst users) ->
  In (Qy E P) [0; 1] -> (forall i, (snd x <= i < fin)%nat -> eqm p (e_zp E i) (Qy E P * T i)) ->
  exists z cs, issue E KP mpk msk (with_policies users) x z /\ mget mpk (pub_keys (fst z)) = Some (Some kp) /\ snd z = fin /\
    (forall id, ~ In id (map fst users) -> mget id (sec_keys (fst z)) = mget id (sec_keys (fst x))) /\
    Forall2 (fun u c => exists k, mget (fst u) (sec_keys (fst z)) = Some (Some k) /\ c = k_parts k) (with_policies users) cs /\
    length cs = length plans /\
    forall v i, wP E v = P ->
      (forall j plan, nth_error plans j = Some plan -> forall k u lab e, nth_error (rows_at (Qy E P) plan) k = Some (u, (lab, e)) -> wrow E v (i + j) k = (lab, e) /\ wr E v (i + j) k = (Qy E P * rho held (snd plan) k) mod p) ->
      forall j plan, nth_error plans j = Some plan -> described (kfits E v) (k_user E (i + j) (map fst (fst plan))) (nth j cs []).
Proof.
  intros P mpk msk T users. induction users as [|[id q] users IH]; intros plans fin x kp ks Pl Hp Hs HP HM ND NI Hy Ht.
  - cbn [map] in Pl. inversion Pl; subst. exists x, []. split; [apply issue_none|]. split; [exact Hp|]. split; [reflexivity|]. split; [reflexivity|]. split; [constructor|]. split; [reflexivity|]. intros v i _ _ [|j] plan X; discriminate X.
  - cbn [map fst snd] in Pl, ND, NI. inversion ND as [|? ? N1 N2]; subst. inversion Pl as [|q' r rest off R0 R1 plans' fin' Hq S0 S1 Sk Zr Hd Lb Rh Hr]; subst. clear Pl.
    pose proof (planned_le _ _ _ _ _ _ _ Hr) as Hfin.
    assert (forall (A B : rowmap), skeleton A = skeleton B -> length A = length B) as SL by (intros A B X; apply (f_equal (@length _)) in X; unfold skeleton in X; rewrite !map_length in X; exact X).
    set (Ry := rows_at (Qy E P) (R0, R1)).
    assert (exists sh, share_secret false p lsss_new q (Qy E P) (e_zp E) (S (snd x)) = Ok (sh, (S (snd x) + ndraws r)%nat) /\ l_rows sh = Ry) as (sh & Es & Er).
    { unfold Ry, rows_at. destruct Hy as [Y|[Y|[]]]; rewrite <- Y in *; cbn [Z.eqb fst snd].
      - apply S0. intros i Hi. rewrite Ht by lia. reflexivity.
      - apply S1. intros i Hi. rewrite Ht by lia. unfold eqm. f_equal. lia. }
    assert (length Ry = length R0 /\ map fst Ry = map fst R0) as [LR FR].
    { unfold Ry, rows_at. destruct (Qy E P =? 0); cbn [fst snd]; [split; reflexivity|]. split; [apply SL; exact Sk|apply skeleton_fst; exact Sk]. }
    destruct (kp_keygen_exact E P q id mpk msk kp ks (start E x (no_ct E)) sh _ Hp Hs HP HM Es) as (dec & Ek & Ed). rewrite Er, LR in Ek.
    match type of Ek with _ = (?w, _) => set (w1 := w) in * end.
    destruct (IH plans' fin (left_by E w1) kp ks) as (z & cs & I1 & I2 & I3 & I4 & I5 & IL & I6); try assumption.
    { unfold left_by, w1. cbn [fst w_store set_off set_store start add_key sec_keys pub_keys]. rewrite mget_mset_other by (intro X; apply NI; left; symmetry; exact X). exact Hs. }
    { intro X. apply NI. right. exact X. }
    { intros i Hi. apply Ht. unfold left_by, w1 in Hi. cbn [snd w_off set_off] in Hi. lia. }
    exists z, (k_parts dec :: cs). split; [eapply issue_one; [exact Ek|exact I1]|]. split; [exact I2|]. split; [exact I3|].
    assert (mget id (sec_keys (fst z)) = Some (Some dec)) as Gd.
    { rewrite I4 by exact N1. unfold left_by, w1. cbn [fst w_store set_off set_store start add_key sec_keys pub_keys]. apply mget_mset_same. }
    split.
    { intros id' N'. rewrite I4 by (intro X; apply N'; right; exact X). unfold left_by, w1. cbn [fst w_store set_off set_store start add_key sec_keys pub_keys].
      rewrite mget_mset_other by (intro X; apply N'; left; symmetry; exact X). reflexivity. }
    split; [constructor; [exists dec; split; [exact Gd|reflexivity]|exact I5]|]. split; [cbn [length]; congruence|].
    intros v i Hv Hw [|j] plan X.
    + cbn [nth_error] in X. injection X as <-. cbn [nth fst]. rewrite Nat.add_0_r, <- FR, <- Er. apply Ed; [exact Hv|].
      intros k u lab e N. rewrite Er in N. pose proof (Hw 0%nat (R0, R1) eq_refl k u lab e N) as [W1 W2]. rewrite Nat.add_0_r in W1, W2. split; [exact W1|]. rewrite W2. cbn [snd].
      assert (k < length R0)%nat as Lk by (rewrite <- LR; apply nth_error_Some; congruence).
      pose proof (Ht (S (snd x) + ndraws r + k)%nat ltac:(lia)) as Q. unfold eqm in Q. rewrite Rh in Q by exact Lk. symmetry. exact Q.
    + cbn [nth_error] in X. cbn [nth]. replace (i + S j)%nat with (S i + j)%nat by lia. apply (I6 v (S i) Hv); [|exact X].
      intros j' plan' X' k u lab e N. replace (S i + j')%nat with (i + S j')%nat by lia. eapply Hw; [exact X'|exact N].
Qed.
Lemma kp_coalition : forall mpk msk T users plans fin l pt x0, names_free (fst x0) mpk msk = true ->
  planned p held T (map snd users) (snd x0 + 6) plans fin -> NoDup (map fst users) -> ~ In msk (map fst users) -> len pt < 2147483616 ->
  forall y t, e_zp E (snd x0 + 4) mod p = y -> e_zp E fin mod p = t -> In y [0; 1] -> (forall i, (snd x0 + 6 <= i < fin)%nat -> eqm p (e_zp E i) (y * T i)) ->
  exists h key, coalition E KP mpk msk (with_policies users) (InAttrs l) pt x0 h key /\
    key = derived E (expT E t (expT E y (pair E (e_g1 E (snd x0 + 2)) (e_g2 E (snd x0 + 3))))) /\
    forall v, wP E v = kp_drawn E (snd x0) -> wt E v = t ->
      (forall j plan, nth_error plans j = Some plan -> forall k u lab e, nth_error (rows_at y plan) k = Some (u, (lab, e)) -> wrow E v j k = (lab, e) /\ wr E v j k = (y * rho held (snd plan) k) mod p) ->
      described (kfits E v) k_params (of_params E h) /\
      (forall j plan, nth_error plans j = Some plan -> described (kfits E v) (k_user E j (map fst (fst plan))) (nth j (of_keys E h) [])) /\
      length (of_keys E h) = length plans /\
      described (kfits E v) (k_ct E (aattrs l)) (of_ct E h).
Proof.
  intros mpk msk T users plans fin l pt x0 Nf Pl ND NI Hl y t <- <- Hy Ht. destruct (both_new_free E mpk msk (start E x0 (no_ct E))) as (w1 & Eb). cbn [w_store start] in Eb. rewrite Nf in Eb.
  pose proof (both_new_off _ _ _ _ _ _ Eb) as Eo. cbn [w_off start] in Eo.
  destruct (kp_generate_exact E HE mpk msk _ w1 Eb) as (w' & kp & ks & G1 & G2 & G3 & G4 & G5 & G6 & G7). rewrite Eo in *.
  assert (snd (left_by E w') = (snd x0 + 6)%nat) as Ey by exact G2.
  destruct (kp_issue (kp_drawn E (snd x0)) mpk msk T users plans fin (left_by E w') kp ks) as (z & cs & I1 & I2 & I3 & I4 & I5 & IL & I6); try assumption.
  { rewrite Ey. exact Pl. }
  { rewrite Ey. exact Ht. }
  assert (w_off E (start E z (no_ct E)) = fin) as EB by (cbn [w_off start]; exact I3).
  destruct (kp_encrypt_exact E HE (kp_drawn E (snd x0)) l mpk kp pt (start E z (no_ct E)) I2 G5 Hl eq_refl) as (w3 & C1 & C2 & C3).
  rewrite EB in C2, C3. exists {| of_params := k_parts kp; of_keys := cs; of_ct := ct_parts (w_ct E w3) |}, (w_sym E w3).
  split; [exists w', z, w3, kp; repeat (split; [first [assumption|reflexivity]|]); reflexivity|]. split; [exact C2|].
  intros v V1 V2 V3. split; [apply G7; exact V1|]. split; [intros j plan X; apply (I6 v 0%nat V1 V3 j plan X)|]. split; [exact IL|]. apply C3; assumption.
Qed.

(** ** Exponents *)
Variables (nu : str -> Z) (v : kenv E).
Hypothesis map_nu : forall h, map1 E h = mul1 E (nu h) (Q1 E (wP E v)).
Notation P := (wP E v).
Notation base := (pair E (Q1 E P) (Q2 E P)).
Definition khv (a : str) : Z := nu (e_hash E (Qk E P ++ a)).
Definition kval1 (f : kform) : option Z :=
  match f with U0 => Some 1 | Ud j i => Some (snd (wrow E v j i) + wr E v j i * khv (fst (wrow E v j i))) | Uc a => Some (wt E v * khv a) | _ => None end.
Definition kval2 (f : kform) : option Z := match f with V0 => Some 1 | Vr j i => Some (wr E v j i) | Vt => Some (wt E v) | _ => None end.
Definition kvalT (f : kform) : option Z := match f with Wy => Some (Qy E P) | _ => None end.
Variables (plans : list (rowmap * rowmap)) (attrs : list str) (h : holdings E).
Definition kforms (w : place) : smap kform :=
  match w with
  | InParams => k_params
  | InKey j => match nth_error plans j with Some plan => k_user E j (map fst (fst plan)) | None => [] end
  | InCiphertext => k_ct E attrs
  end.
Hypothesis H1 : described (kfits E v) k_params (of_params E h).
Hypothesis H2 : forall j plan, nth_error plans j = Some plan -> described (kfits E v) (k_user E j (map fst (fst plan))) (nth j (of_keys E h) []).
Hypothesis H3 : length (of_keys E h) = length plans.
Hypothesis H4 : described (kfits E v) (k_ct E attrs) (of_ct E h).
Lemma kforms_ok : forall w, described (kfits E v) (kforms w) (place_of E h w).
Proof.
  intros [|j|]; cbn [kforms place_of]; [exact H1| |exact H4]. destruct (nth_error plans j) as [plan|] eqn:Ej; [eapply H2; exact Ej|].
  apply nth_error_None in Ej. rewrite nth_overflow by lia. apply described_nil.
Qed.
Definition kex1 (x : point) : option Z :=
  match x with At w name => match mget name (kforms w) with Some f => kval1 f | None => None end | Hashed m => Some (nu (e_hash E m)) end.
Definition kex2 (w : place) (name : str) : option Z := match mget name (kforms w) with Some f => kval2 f | None => None end.
Definition kexT (w : place) (name : str) : option Z := match mget name (kforms w) with Some f => kvalT f | None => None end.
Definition kpower (m : move) : Z :=
  match m with
  | Pair x w name c => match kex1 x, kex2 w name with Some a, Some b => c * (a * b) | _, _ => 0 end
  | Take w name c => match kexT w name with Some a => c * a | None => 0 end
  end.
Lemma kread1_ok : forall x, match kex1 x with Some a => exists g, read1 E h x = Some g /\ forall y, pair E g y = expT E a (pair E (Q1 E P) y) \/ (a = 1 /\ g = Q1 E P) | None => read1 E h x = None end.
Proof.
  intros [w name|m]; cbn [kex1 read1].
  - pose proof (kforms_ok w name) as D. unfold read. destruct (mget name (kforms w)) as [f|]; [|rewrite D; reflexivity]. destruct D as (o & -> & F).
    destruct f; cbn [kfits kval1] in *; try (subst o; reflexivity); try (subst o; eexists; split; [reflexivity|]; intro y).
    + right. auto.
    + left. unfold hash_to_g1. rewrite map_nu, !(law_mul1_mul E HE), <- (law_mul1_add E HE), (law_pair_mul1 E HE). reflexivity.
    + left. unfold hash_to_g1. rewrite map_nu, !(law_mul1_mul E HE), (law_pair_mul1 E HE). reflexivity.
    + destruct o; try destruct F; reflexivity.
  - exists (map1 E (e_hash E m)). split; [reflexivity|]. intro y. left. rewrite map_nu. apply (law_pair_mul1 E HE).
Qed.
Lemma kread2_ok : forall w name, match kex2 w name with Some b => exists g, read2 E h w name = Some g /\ forall y, pair E y g = expT E b (pair E y (Q2 E P)) \/ (b = 1 /\ g = Q2 E P) | None => read2 E h w name = None end.
Proof.
  intros w name. unfold kex2, read2. pose proof (kforms_ok w name) as D. unfold read. destruct (mget name (kforms w)) as [f|]; [|rewrite D; reflexivity]. destruct D as (o & -> & F).
  destruct f; cbn [kfits kval2] in *; try (subst o; reflexivity); try (subst o; eexists; split; [reflexivity|]; intro y).
  - right. auto.
  - left. apply (law_pair_mul2 E HE).
  - left. apply (law_pair_mul2 E HE).
  - destruct o; try destruct F; reflexivity.
Qed.
Lemma kyields_ok : forall m, yields E h m = expT E (kpower m) base.
Proof.
  intros [x w name c|w name c]; cbn [yields kpower].
  - pose proof (kread1_ok x) as A. pose proof (kread2_ok w name) as B. destruct (kex1 x) as [a|]; [|rewrite A; symmetry; apply (expT_zero E HE)].
    destruct A as (g & -> & A). destruct (kex2 w name) as [b|]; [|rewrite B; symmetry; apply (expT_zero E HE)]. destruct B as (g' & -> & B).
    destruct (A g') as [Ag|[-> ->]].
    + rewrite Ag. destruct (B (Q1 E P)) as [Bg|[-> ->]]; [rewrite Bg, !(law_expT_mul E HE); f_equal; lia|rewrite (law_expT_mul E HE); f_equal; lia].
    + destruct (B (Q1 E P)) as [Bg|[-> ->]]; [rewrite Bg, (law_expT_mul E HE); f_equal; lia|f_equal; lia].
  - unfold kexT, readT. pose proof (kforms_ok w name) as D. unfold read. destruct (mget name (kforms w)) as [f|]; [|rewrite D; symmetry; apply (expT_zero E HE)]. destruct D as (o & -> & F).
    destruct f; cbn [kfits kvalT] in *; try (subst o; symmetry; apply (expT_zero E HE)).
    + subst o. unfold kp_base. rewrite (law_expT_mul E HE). reflexivity.
    + destruct o; try destruct F; symmetry; apply (expT_zero E HE).
Qed.
Definition ktotal (attack : list move) : Z := fold_right (fun m acc => kpower m + acc) 0 attack.
Lemma koutcome_ok : forall attack, outcome E h attack = expT E (ktotal attack) base.
Proof.
  unfold outcome, ktotal. induction attack as [|m attack IH]; cbn [fold_right]; [symmetry; apply (expT_zero E HE)|]. rewrite IH, kyields_ok, <- (law_expT_add E HE). reflexivity.
Qed.
End Run.

(** ** Which forms occur where, and the exponents as polynomials in two unknowns *)
Section Forms.
Context (E : engine) (plans : list (rowmap * rowmap)) (attrs : list str).
Lemma k_attrs_get : forall l d name f, mget name (k_attrs E l d) = Some f -> mget name d = Some f \/ exists a, In a l /\ f = Uc a.
Proof.
  induction l as [|a l IH]; intros d name f H; [left; exact H|]. cbn [k_attrs] in H. apply IH in H as [H|(b & A & B)]; [|right; exists b; split; [right; exact A|exact B]].
  destruct (str_eq_dec name (element_label (L "C") (short_label E a))) as [->|N].
  - rewrite mget_mset_same in H. injection H as <-. right. exists a. split; [left; reflexivity|reflexivity].
  - rewrite mget_mset_other in H by exact N. left. exact H.
Qed.
Lemma k_rows_get : forall us j i d name f, mget name (k_rows E j i us d) = Some f -> mget name d = Some f \/ exists k, f = Vr j k \/ f = Ud j k.
Proof.
  induction us as [|u us IH]; intros j i d name f H; [left; exact H|]. cbn [k_rows] in H. apply IH in H as [H|H]; [|auto].
  do 2 match type of H with mget name (mset ?k ?x ?m) = _ => let N := fresh in destruct (str_eq_dec name k) as [->|N]; [rewrite mget_mset_same in H; injection H as <-; right; exists i; auto|rewrite mget_mset_other in H by exact N; clear N] end. auto.
Qed.
Lemma k_attrs_other : forall l d name, (forall y, name <> element_label (L "C") y) -> mget name (k_attrs E l d) = mget name d.
Proof. induction l as [|a l IH]; intros d name H; [reflexivity|]. cbn [k_attrs]. rewrite IH, mget_mset_other by (exact H || apply H). reflexivity. Qed.
Lemma k_ct_prime : forall l, mget (L "Cpr2") (k_ct E l) = Some Vt.
Proof. intro l. unfold k_ct. rewrite !mget_mset_other by discriminate. rewrite k_attrs_other by (intros y X; discriminate X). apply mget_mset_same. Qed.
Lemma kforms_get : forall w name a, mget name (kforms E plans attrs w) = Some (Uc a) -> In a attrs.
Proof.
  intros [|j|] name a H; cbn [kforms] in H.
  - unfold k_params in H. repeat match type of H with mget name (mset ?k ?x ?m) = _ => let N := fresh in destruct (str_eq_dec name k) as [->|N]; [rewrite mget_mset_same in H; discriminate|rewrite mget_mset_other in H by exact N; clear N] end. discriminate.
  - destruct (nth_error plans j) as [plan|]; [|discriminate]. unfold k_user in H. apply k_rows_get in H as [H|(k & [H|H])]; try discriminate.
    destruct (str_eq_dec name (L "input")) as [->|N]; [rewrite mget_mset_same in H; discriminate|rewrite mget_mset_other in H by exact N; discriminate].
  - unfold k_ct in H. do 2 match type of H with mget name (mset ?k ?x ?m) = _ => let N := fresh in destruct (str_eq_dec name k) as [->|N]; [rewrite mget_mset_same in H; discriminate|rewrite mget_mset_other in H by exact N; clear N] end.
    apply k_attrs_get in H as [H|(b & A & B)]; [|injection B as ->; exact A].
    destruct (str_eq_dec name (L "Cpr2")) as [->|N]; [rewrite mget_mset_same in H; discriminate|rewrite mget_mset_other in H by exact N; discriminate].
Qed.
Section Poly.
Variables (nu : str -> Z) (ro : nat -> nat -> Z) (t y : Z).
Definition kn1 (f : kform) : option Z := match f with U0 => Some 1 | Ud _ _ => Some 0 | Uc _ => Some 0 | _ => None end.
Definition kn2 (f : kform) : option Z := match f with V0 => Some 1 | Vr j i => Some (y * ro j i) | Vt => Some t | _ => None end.
Definition knT (f : kform) : option Z := match f with Wy => Some y | _ => None end.
Definition knpow (m : move) : Z :=
  match m with
  | Pair x w name c =>
      match (match x with At w' name' => match mget name' (kforms E plans attrs w') with Some f => kn1 f | None => None end | Hashed m => Some (nu (e_hash E m)) end),
            (match mget name (kforms E plans attrs w) with Some f => kn2 f | None => None end) with
      | Some a, Some b => c * (a * b) | _, _ => 0 end
  | Take w name c => match (match mget name (kforms E plans attrs w) with Some f => knT f | None => None end) with Some a => c * a | None => 0 end
  end.
Definition kntot (attack : list move) : Z := fold_right (fun m acc => knpow m + acc) 0 attack.
End Poly.
Lemma kdiff : forall nu ro attack, kntot nu ro 1 1 attack - kntot nu ro 0 1 attack - kntot nu ro 1 0 attack + kntot nu ro 0 0 attack = 0.
Proof.
  intros nu ro. induction attack as [|m attack IH]; [reflexivity|]. unfold kntot in *. cbn [fold_right].
  enough (knpow nu ro 1 1 m - knpow nu ro 0 1 m - knpow nu ro 1 0 m + knpow nu ro 0 0 m = 0) by lia.
  destruct m as [[w' name'|ms] w name c|w name c]; cbn [knpow].
  - destruct (mget name' (kforms E plans attrs w')) as [f|]; [|lia]. destruct (mget name (kforms E plans attrs w)) as [g|]; [|destruct f; cbn [kn1]; lia].
    destruct f; cbn [kn1]; try lia; destruct g; cbn [kn2]; lia.
  - destruct (mget name (kforms E plans attrs w)) as [g|]; [|lia]. destruct g; cbn [kn2]; lia.
  - destruct (mget name (kforms E plans attrs w)) as [g|]; [|lia]. destruct g; cbn [knT]; lia.
Qed.
End Forms.

(** ** The family of random choices *)
Section Cut.
Context (E : engine) (HE : lawful E) (Hp : 2 < order (e_curve E)).
Notation p := (order (e_curve E)).
Variables (mpk msk : str) (users : list (str * policy)) (l : attrlist) (pt : str) (x0 : context E).
Hypothesis names_new : names_free (fst x0) mpk msk = true.
Hypothesis ids_differ : NoDup (map fst users).
Hypothesis ids_msk : ~ In msk (map fst users).
Hypothesis pt_short : len pt < 2147483616.
Notation o := (snd x0).
Notation k := (e_bytes E (o + 5) 32).
Notation base := (pair E (e_g1 E (o + 2)) (e_g2 E (o + 3))).
Notation A := (aattrs l).
Notation held := (match_attribute A).
Hypothesis full_order : nondegenerate E.
Hypothesis nobody : forall id q, In (id, q) users -> exists r, proot q = Some r /\ binary r = true /\ sat held r = false.
Hypothesis no_clash : forall id q r a b, In (id, q) users -> proot q = Some r -> In a A -> In b (map complete_label (leaves r)) -> e_hash E (k ++ a) = e_hash E (k ++ b) -> a = b.
Section One.
Variables (T : nat -> Z) (plans : list (rowmap * rowmap)) (fin : nat).
Hypothesis plan : planned p held T (map snd users) (o + 6) plans fin.
Variables t y : Z.
Hypothesis bits : In t [0; 1] /\ In y [0; 1].
Definition knu (h : str) : Z := if existsb (fun a => str_eqb h (e_hash E (k ++ a))) A then 0 else 1.
Definition ktape (i : nat) : Z := if Nat.eqb i (o + 4) then y else if Nat.eqb i fin then t else y * T i.
Definition kpoints (h : str) : g1 (e_curve E) := mul1 E (knu h) (e_g1 E (o + 2)).
Notation E' := (reroll E ktape kpoints).
Definition kro (j i : nat) : Z := match nth_error plans j with Some x => rho held (snd x) i | None => 0 end.
Definition krow (j i : nat) : str * Z := match nth_error plans j with Some x => match nth_error (rows_at y x) i with Some (_, z) => z | None => ([], 0) end | None => ([], 0) end.
Definition kenv0 : kenv E' := {| wP := kp_drawn E' o; wt := t; wrow := krow; wr := fun j i => (y * kro j i) mod p |}.
Lemma kbit_mod : forall b, In b [0; 1] -> b mod p = b.
Proof. intros b [<-|[<-|[]]]; apply Z.mod_small; lia. Qed.
Lemma ktape_y : ktape (o + 4) = y. Proof. unfold ktape. rewrite Nat.eqb_refl. reflexivity. Qed.
Lemma ktape_t : ktape fin = t.
Proof. pose proof (planned_le _ _ _ _ _ _ _ plan). unfold ktape. rewrite Nat.eqb_refl. replace (Nat.eqb fin (o + 4)) with false by (symmetry; apply Nat.eqb_neq; lia). reflexivity. Qed.
Lemma ktape_mid : forall i, (o + 6 <= i < fin)%nat -> ktape i = y * T i.
Proof. intros i Hi. unfold ktape. replace (Nat.eqb i (o + 4)) with false by (symmetry; apply Nat.eqb_neq; lia). replace (Nat.eqb i fin) with false by (symmetry; apply Nat.eqb_neq; lia). reflexivity. Qed.
Lemma krow_zero : forall j i, eqm p (snd (krow j i) + (y * kro j i) mod p * knu (e_hash E (k ++ fst (krow j i)))) 0.
Proof.
  intros j i. pose proof (prime_ge_2 _ (law_prime E HE)). unfold krow, kro. destruct (nth_error plans j) as [[R0 R1]|] eqn:Ej; [|cbn [fst snd]; rewrite Z.mul_0_r, Z.mod_0_l by lia; reflexivity].
  destruct (planned_rows _ _ _ _ _ _ _ plan j R0 R1 Ej) as (Sk & Zr & Hd & Lb). unfold rows_at. cbn [fst snd].
  destruct bits as [_ [Y|[Y|[]]]]; rewrite <- Y; cbn [Z.eqb].
  - match goal with |- context [?a mod ?b] => replace (a mod b) with 0 by (rewrite Z.mul_0_l; symmetry; apply Z.mod_0_l; lia) end. rewrite Z.mul_0_l, Z.add_0_r. destruct (nth_error R0 i) as [[u [lab e]]|] eqn:N; [|reflexivity]. apply nth_error_In in N. cbn [snd]. rewrite (Zr _ _ _ N). reflexivity.
  - unfold rho. destruct (nth_error R1 i) as [[u [lab e]]|] eqn:N; [|cbn [fst snd]; rewrite Z.mul_0_r, Z.mod_0_l by lia; reflexivity]. cbn [fst snd].
    destruct (skeleton_nth R1 R0 i u lab e Sk N) as (e' & N0). apply nth_error_In in N, N0. destruct (Lb _ _ _ N0) as (q & r & Iq & Hr & Il).
    destruct (held lab) eqn:Hl.
    + rewrite (Hd _ _ _ N Hl). rewrite Z.mod_0_l by lia. reflexivity.
    + replace (knu (e_hash E (k ++ lab))) with 1.
      * rewrite Z.mul_1_r. unfold eqm. rewrite Zplus_mod_idemp_r. replace (e + 1 * - e) with 0 by lia. reflexivity.
      * unfold knu. match goal with |- context [if ?c then _ else _] => destruct c eqn:X end; [|reflexivity]. exfalso. apply existsb_exists in X as (a & Ia & Ha). apply str_eqb_eq in Ha.
        apply in_map_iff in Iq as ([id q'] & Eq & Iu). cbn [snd] in Eq. subst q'. rewrite (no_clash id q r a lab Iu Hr Ia Il (eq_sym Ha)) in Ia.
        unfold match_attribute in Hl. apply not_true_iff_false in Hl. apply Hl. apply existsb_exists. exists lab. split; [exact Ia|apply str_eqb_refl].
Qed.
Lemma kval1_ok : forall w name f, mget name (kforms E plans A w) = Some f ->
  match kval1 E' knu kenv0 f, kn1 f with Some x, Some z => eqm p x z | None, None => True | _, _ => False end.
Proof.
  intros w name f H. destruct f; cbn [kval1 kn1]; try exact Logic.I; try reflexivity.
  - apply krow_zero.
  - apply kforms_get in H. unfold khv. cbn [wP wt kenv0 kp_drawn Qk e_bytes e_hash reroll].
    assert (knu (e_hash E (k ++ a)) = 0) as ->; [|rewrite Z.mul_0_r; reflexivity]. unfold knu. match goal with |- context [if ?c then _ else _] => replace c with true; [reflexivity|symmetry] end. apply existsb_exists. exists a. split; [exact H|apply str_eqb_refl].
Qed.
Lemma kval2_ok : forall f, match kval2 E' kenv0 f, kn2 kro t y f with Some x, Some z => eqm p x z | None, None => True | _, _ => False end.
Proof. intro f. destruct f; cbn [kval2 kn2]; try exact Logic.I; try reflexivity. cbn [wr kenv0]. unfold eqm. apply Zmod_mod. Qed.
Lemma kpower_ok : forall m, eqm p (kpower E' knu kenv0 plans A m) (knpow E plans A knu kro t y m).
Proof.
  assert (forall c x x' z z', eqm p x x' -> eqm p z z' -> eqm p (c * (x * z)) (c * (x' * z'))) as M.
  { intros c x x' z z' X Y. unfold eqm in *. rewrite (Zmult_mod c (x * z)), (Zmult_mod x z), X, Y, <- (Zmult_mod x' z'), <- Zmult_mod. reflexivity. }
  intros [x w name c|w name c]; cbn [kpower knpow].
  - assert (match kex1 E' knu kenv0 plans A x, (match x with At w' name' => match mget name' (kforms E plans A w') with Some f => kn1 f | None => None end | Hashed m => Some (knu (e_hash E m)) end) with Some x, Some z => eqm p x z | None, None => True | _, _ => False end) as X.
    { destruct x as [w' name'|m]; cbn [kex1]; [|reflexivity]. change (kforms E' plans A w') with (kforms E plans A w'). destruct (mget name' (kforms E plans A w')) as [f|] eqn:F; [|exact Logic.I]. eapply kval1_ok. exact F. }
    unfold kex2. change (kforms E' plans A w) with (kforms E plans A w). destruct (mget name (kforms E plans A w)) as [g|].
    + pose proof (kval2_ok g) as Y. destruct (kex1 E' knu kenv0 plans A x); match type of X with match ?z with _ => _ end => destruct z end; try contradiction; try reflexivity;
        destruct (kval2 E' kenv0 g); destruct (kn2 kro t y g); try contradiction; try reflexivity. apply M; assumption.
    + destruct (kex1 E' knu kenv0 plans A x); match type of X with match ?z with _ => _ end => destruct z end; reflexivity.
  - unfold kexT. change (kforms E' plans A w) with (kforms E plans A w). destruct (mget name (kforms E plans A w)) as [g|]; [|reflexivity]. destruct g; cbn [kvalT knT]; try reflexivity.
    cbn [wP kenv0 kp_drawn Qy e_zp reroll e_curve]. rewrite ktape_y, (kbit_mod y) by apply bits. reflexivity.
Qed.
Lemma ktotal_ok : forall attack, eqm p (ktotal E' knu kenv0 plans A attack) (kntot E plans A knu kro t y attack).
Proof.
  unfold ktotal, kntot. induction attack as [|m attack IH]; [reflexivity|]. cbn [fold_right]. pose proof (kpower_ok m) as M. unfold eqm in *. rewrite Zplus_mod, M, IH, <- Zplus_mod. reflexivity.
Qed.
Lemma krealised : forall attack, exists h key, coalition E' KP mpk msk (with_policies users) (InAttrs l) pt x0 h key /\ secret_of E' KP h (expT E (t * y) base) /\ key = derived E (expT E (t * y) base) /\
  exists z, outcome E' h attack = expT E z base /\ eqm p z (kntot E plans A knu kro t y attack).
Proof.
  intro attack. destruct bits as (B1 & B2). pose proof (reroll_lawful E ktape kpoints HE) as HE'.
  assert (e_zp E' (o + 4) mod order (e_curve E') = y) as Ey by (cbn [e_zp reroll e_curve]; rewrite ktape_y; apply kbit_mod; exact B2).
  assert (e_zp E' fin mod order (e_curve E') = t) as Et by (cbn [e_zp reroll e_curve]; rewrite ktape_t; apply kbit_mod; exact B1).
  destruct (kp_coalition E' HE' held mpk msk T users plans fin l pt x0 names_new plan ids_differ ids_msk pt_short y t Ey Et B2) as (h & key & C1 & C2 & C3).
  { intros i Hi. cbn [e_zp reroll e_curve]. rewrite ktape_mid by exact Hi. reflexivity. }
  exists h, key. split; [exact C1|].
  destruct (C3 kenv0) as (D1 & D2 & D3 & D4).
  - reflexivity.
  - reflexivity.
  - intros j x Ej i u lab e N. cbn [wrow wr kenv0]. unfold krow, kro. rewrite Ej, N. split; reflexivity.
  - split.
    { cbn [secret_of]. pose proof (D1 (L "g2")) as (o1 & G1 & F1). pose proof (D1 (L "Y")) as (o2 & G2 & F2). pose proof (D4 (L "Cpr2")) as G3. rewrite k_ct_prime in G3. destruct G3 as (o3 & G3 & F3).
      cbn [kfits] in F1, F2, F3. subst o1 o2 o3. unfold read. cbn [place_of]. rewrite G1, G2, G3. eexists _, _, t. do 3 (split; [reflexivity|]).
      unfold kp_base. cbn [wP kenv0 kp_drawn Qy Q1 Q2 e_zp e_g1 e_g2 expT pair reroll e_curve]. rewrite ktape_y, (kbit_mod _ B2), (law_expT_mul E HE). reflexivity. }
    split; [rewrite C2; unfold derived; cbn [expT pair e_g1 e_g2 reroll]; rewrite (law_expT_mul E HE); reflexivity|].
    exists (ktotal E' knu kenv0 plans A attack). split; [|apply ktotal_ok]. rewrite (koutcome_ok E' HE' held knu kenv0 (fun _ => eq_refl) plans A h D1 D2 D3 D4 attack). reflexivity.
Qed.
End One.
Lemma kp_cut : forall attack, exists zp map h key C, coalition (reroll E zp map) KP mpk msk (with_policies users) (InAttrs l) pt x0 h key /\ secret_of (reroll E zp map) KP h C /\ key = derived E C /\ outcome (reroll E zp map) h attack <> C.
Proof.
  intro attack. pose proof (law_prime E HE) as Pp. pose proof (prime_ge_2 _ Pp).
  destruct (plan_exists p held Pp (map snd users)) with (off := (o + 6)%nat) as (T & plans & fin & Pl).
  { intros q Iq. apply in_map_iff in Iq as ([id q'] & Eq & Iu). cbn [snd] in Eq. subst q'. destruct (nobody id q Iu) as (r & R1 & R2 & R3). exists r. split; [exact R1|].
    split; [apply and_or_shareable; apply binary_and_or; exact R2|]. split; [apply binary_fanout; assumption|exact R3]. }
  pose (nt := fun x : Z * Z => kntot E plans A knu (kro plans) (fst x) (snd x) attack).
  pose (test := fun x : Z * Z => nt x mod p =? (fst x * snd x) mod p).
  destruct (some_fails _ test (list_prod [0; 1] [0; 1])) as ([t y] & Ix & F).
  - intro F. assert (forall t y, In t [0; 1] -> In y [0; 1] -> exists n, kntot E plans A knu (kro plans) t y attack = t * y + p * n) as Q.
    { intros t y A1 A2. assert (test (t, y) = true) as G by (apply F; apply in_prod; assumption). unfold test, nt in G. cbn [fst snd] in G. apply Z.eqb_eq in G. set (N0 := kntot _ _ _ _ _ _ _ _) in *.
      exists ((N0 - t * y) / p). enough ((N0 - t * y) mod p = 0) as M by (apply Z.mod_divide in M; [|lia]; destruct M as [m M]; rewrite M, Z.div_mul by lia; lia).
      rewrite Zminus_mod, G, Z.sub_diag. apply Z.mod_0_l. lia. }
    pose proof (kdiff E plans A knu (kro plans) attack) as D.
    assert (In 0 [0; 1]) as I0 by (left; reflexivity). assert (In 1 [0; 1]) as I1 by (right; left; reflexivity).
    destruct (Q 1 1 I1 I1) as (n1 & E1). destruct (Q 0 1 I0 I1) as (n2 & E2). destruct (Q 1 0 I1 I0) as (n3 & E3). destruct (Q 0 0 I0 I0) as (n4 & E4). rewrite E1, E2, E3, E4 in D.
    assert (p * (n2 + n3 - n1 - n4) = 1) as X by lia. assert (p = 1 \/ p = -1) by (apply Z.eq_mul_1 in X; exact X). lia.
  - apply in_prod_iff in Ix as [A1 A2]. destruct (krealised T plans fin Pl t y (conj A1 A2) attack) as (h & key & C1 & C0 & C2 & z & C3 & C4).
    eexists _, _, h, key, _. split; [exact C1|]. split; [exact C0|]. split; [exact C2|]. rewrite C3. intro X. apply (powers_equal E HE) in X; [|apply full_order].
    unfold test, nt in F. cbn [fst snd] in F. apply Z.eqb_neq in F. apply F. unfold eqm in C4. rewrite <- C4. exact X.
Qed.
End Cut.
