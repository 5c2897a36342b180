(** Waters CP-ABE: the form of every component, and the exponents a coalition can
    reach. *)
From Verif Require Import Base StrMap ByteString ByteStringProofs UInteger Field FieldProofs Policy Driver Parser AttrList Utils Kdf KdfProofs Lsss LsssSpec LsssProofs LsssScan LsssShare LsssAlgebra LsssRecover LsssPrivacy LsssFinal SchemeRows Container ContainerSpec ContainerProofs Travel PropUtil Keystore Scheme SchemeSpec SchemeStep SchemeCp CollusionSpec CollusionShape.
From Coq Require Import ZArith Znumtheory List Ascii Bool Lia Permutation.
Import ListNotations.
Open Scope Z_scope.

(** Components: of the first group, of the second, of the target group, or none. *)
Inductive cform := X0 | Xa | Xs | Xc (i : nat) | Xk (j : nat) (a : str) | Y0 | Yr (i : nat) | Yk (j : nat) | Yl (j : nat) | Ta | Plain.

Section Shape.
Context (E : engine) (HE : lawful E).
Notation K := (e_curve E).
Notation p := (order K).
Notation world := (world E).
Notation short := (short_label E).

Record cenv := { vP : cp_params E; vs : Z; vt : nat -> Z; vrow : nat -> str * Z; vr : nat -> Z }.
Definition cfits (v : cenv) (f : cform) (o : zobj K) : Prop :=
  let P := vP v in
  match f with
  | X0 => o = OG1 (P1 E P)
  | Xa => o = OG1 (mul1 E (Pa E P) (P1 E P))
  | Xs => o = OG1 (mul1 E (vs v) (P1 E P))
  | Xc i => o = OG1 (add1 E (mul1 E (snd (vrow v i)) (mul1 E (Pa E P) (P1 E P))) (mul1 E (fneg p (vr v i)) (hash_to_g1 E (Pk E P) (fst (vrow v i)))))
  | Xk j a => o = OG1 (mul1 E (vt v j) (hash_to_g1 E (Pk E P) a))
  | Y0 => o = OG2 (P2 E P)
  | Yr i => o = OG2 (mul2 E (vr v i) (P2 E P))
  | Yk j => o = OG2 (add2 E (mul2 E (Palpha E P) (P2 E P)) (mul2 E (vt v j) (mul2 E (Pa E P) (P2 E P))))
  | Yl j => o = OG2 (mul2 E (vt v j) (P2 E P))
  | Ta => o = OGt (expT E (Palpha E P) (cp_base E P))
  | Plain => match o with OG1 _ | OG2 _ | OGt _ => False | _ => True end
  end.

(** Parameters *)
Definition d_params : smap cform := mset (L "k") Plain (mset (L "A") Ta (mset (L "g1a") Xa (mset (L "g2") Y0 (mset (L "g1") X0 [])))).
Definition cp_drawn (o : nat) : cp_params E :=
  {| P1 := e_g1 E (o + 2); P2 := e_g2 E (o + 3); Palpha := e_zp E (o + 4) mod p; Pa := e_zp E (o + 5) mod p; Pk := e_bytes E (o + 6) 32 |}.
Lemma cp_generate_exact : forall mpk msk w w1, both_new E mpk msk w = (w1, Ok true) ->
  exists w' kp ks, cp_generate_params E mpk msk w = (w', Ok 0) /\ w_off E w' = (w_off E w1 + 7)%nat /\ holds E KEY_PUBLIC mpk kp w' /\ holds E KEY_SECRET msk ks w' /\
    cp_public E (cp_drawn (w_off E w1)) (k_parts kp) /\ cp_master E (cp_drawn (w_off E w1)) (k_parts ks) /\
    forall v, vP v = cp_drawn (w_off E w1) -> described (cfits v) d_params (k_parts kp).
Proof.
  intros mpk msk w w1 Eb. unfold cp_generate_params, catch_code. erewrite andthen_ok by exact Eb. cbn [negb].
  unfold random_g1, random_g2, random_bytes. do 9 step. unfold ret. set (o := w_off E w1).
  eexists _, _, _. split; [reflexivity|]. cbn [w_off set_store set_off]. split; [unfold o; lia|].
  split; [unfold holds; cbn; apply mget_mset_same|]. split; [unfold holds; cbn; apply mget_mset_same|].
  unfold cp_public, cp_master, cp_base, cp_drawn. cbn [P1 P2 Palpha Pa Pk k_parts key_set_component zv].
  replace (o + 2)%nat with (S (S o)) by lia. replace (o + 3)%nat with (S (S (S o))) by lia. replace (o + 4)%nat with (S (S (S (S o)))) by lia.
  replace (o + 5)%nat with (S (S (S (S (S o))))) by lia. replace (o + 6)%nat with (S (S (S (S (S (S o)))))) by lia.
  split; [repeat split; repeat first [apply part_same; reflexivity | apply part_other; [let X := fresh in intro X; discriminate X|]]|].
  split; [split; [eexists; split; [repeat first [apply part_same; reflexivity | apply part_other; [let X := fresh in intro X; discriminate X|]]|reflexivity]|repeat first [apply part_same; reflexivity | apply part_other; [let X := fresh in intro X; discriminate X|]]]|].
  intros v Hv. unfold d_params. repeat (eapply described_set; [|reflexivity|cbn [cfits]; rewrite ?Hv; try reflexivity; exact Logic.I]). apply described_nil.
Qed.

(** User keys *)
Fixpoint d_attrs (j : nat) (attrs : list str) (d : smap cform) : smap cform :=
  match attrs with [] => d | a :: rest => d_attrs j rest (mset (element_label (L "KX") (short a)) (Xk j a) d) end.
Definition d_user (j : nat) (attrs : list str) : smap cform :=
  d_attrs j attrs (mset (L "L") (Yl j) (mset (L "K") (Yk j) (mset (L "input") Plain []))).
Lemma cp_key_loop_exact : forall prefix t attrs dec w, exists dec', cp_key_loop E (Some prefix) t attrs dec w = (w, Ok dec') /\
  forall v j d, Pk E (vP v) = prefix -> vt v j = zv t -> described (cfits v) d (k_parts dec) -> described (cfits v) (d_attrs j attrs d) (k_parts dec').
Proof.
  intros prefix t. induction attrs as [|a attrs IH]; intros dec w.
  - exists dec. split; [reflexivity|]. auto.
  - cbn [cp_key_loop]. step. match goal with |- context [cp_key_loop E _ _ _ ?d] => destruct (IH d w) as (dec' & E1 & E2) end. exists dec'. split; [exact E1|].
    intros v j d Hp Ht D. cbn [d_attrs]. apply E2; [exact Hp|exact Ht|]. eapply described_set; [exact D|reflexivity|]. cbn [cfits]. rewrite Hp, Ht. reflexivity.
Qed.
Lemma cp_keygen_exact : forall P l kid mpk msk kp ks w, holds E KEY_PUBLIC mpk kp w -> holds E KEY_SECRET msk ks w -> cp_public E P (k_parts kp) -> cp_master E P (k_parts ks) ->
  exists dec, cp_keygen E (InAttrs l) kid mpk msk w = (set_off E (set_store E w (add_key (w_store E w) kid (Some dec) KEY_SECRET)) (w_off E w + 2), Ok 0) /\
    forall v j, vP v = P -> vt v j = e_zp E (w_off E w + 1) mod p -> described (cfits v) (d_user j (aattrs l)) (k_parts dec).
Proof.
  intros P l kid mpk msk kp ks w Hp Hs (A1 & A2 & A3 & A4 & A5) ((z & B1 & Bz) & B2). unfold cp_keygen, catch_code.
  do 13 step.
  match goal with |- context [andthen E (cp_key_loop E (Some ?pre) ?t ?al ?d) _ ?ww] => destruct (cp_key_loop_exact pre t al d ww) as (dec & E1 & E2) end.
  erewrite andthen_ok by exact E1. step. unfold ret. exists dec. split; [unfold set_off, set_store; cbn [w_store w_off w_ct w_sym]; rewrite (Nat.add_comm (w_off E w) 2); reflexivity|].
  intros v j HP Ht. rewrite (Nat.add_comm (w_off E w) 1) in Ht. cbn [Nat.add] in Ht. unfold d_user. apply E2; [rewrite HP; reflexivity|exact Ht|].
  cbn [k_parts key_set_component new_key zv].
  repeat (eapply described_set; [|reflexivity|cbn [cfits]; rewrite ?HP, ?Ht, ?Bz; try reflexivity; exact Logic.I]). apply described_nil.
Qed.

(** Ciphertexts *)
Fixpoint d_rows (i : nat) (us : list str) (d : smap cform) : smap cform :=
  match us with
  | [] => d
  | u :: rest => d_rows (S i) rest (mset (element_label (L "C") (short u)) (Xc i) (mset (element_label (L "D") (short u)) (Yr i) d))
  end.
Definition d_ct (us : list str) : smap cform := mset (L "_ED") Plain (d_rows 0 us (mset (L "Cprime") Xs (mset (L "policy") Plain []))).
Lemma cp_enc_loop_exact : forall P mpk kp rows w, holds E KEY_PUBLIC mpk kp w -> cp_public E P (k_parts kp) ->
  exists w', cp_enc_loop E mpk (Some (Pk E P)) rows w = (w', Ok tt) /\ w_store E w' = w_store E w /\ w_sym E w' = w_sym E w /\
    forall v i d, vP v = P -> (forall k u lab e, nth_error rows k = Some (u, (lab, e)) -> vrow v (i + k)%nat = (lab, e) /\ vr v (i + k)%nat = e_zp E (w_off E w + k) mod p) ->
      described (cfits v) d (ct_parts (w_ct E w)) -> described (cfits v) (d_rows i (map fst rows) d) (ct_parts (w_ct E w')).
Proof.
  intros P mpk kp rows. induction rows as [|[u [lab e]] rows IH]; intros w Hk HP.
  - exists w. do 3 (split; [reflexivity|]). auto.
  - pose proof HP as (A1 & A2 & A3 & A4 & A5). cbn [cp_enc_loop]. do 4 step. step. do 2 step.
    unfold zp_neg. cbn [zord zv]. do 2 step.
    match goal with |- exists w', cp_enc_loop E mpk (Some (Pk E P)) rows ?ww = _ /\ _ => set (w1 := ww) end.
    destruct (IH w1 Hk HP) as (w' & E1 & E2 & E3 & E4). exists w'. split; [exact E1|]. split; [rewrite E2; reflexivity|]. split; [rewrite E3; reflexivity|].
    intros v i d Hv Hr D. cbn [map fst d_rows]. apply E4; [exact Hv| |].
    + intros k u' lab' e' Hk'. destruct (Hr (S k) u' lab' e' Hk') as [R1 R2]. replace (S i + k)%nat with (i + S k)%nat by lia. split; [exact R1|]. rewrite R2. unfold w1. cbn [w_off set_ct set_off]. do 2 f_equal. lia.
    + destruct (Hr 0%nat u lab e eq_refl) as [R1 R2]. rewrite Nat.add_0_r in R1, R2. rewrite Nat.add_0_r in R2. unfold w1. cbn [w_ct set_ct set_off ct_parts ct_set_component].
      eapply described_set; [eapply described_set; [exact D|reflexivity|]|reflexivity|]; cbn [cfits]; rewrite ?R1, ?R2, Hv; reflexivity.
Qed.
Lemma cp_encrypt_exact : forall P q mpk kp pt w sh off, holds E KEY_PUBLIC mpk kp w -> cp_public E P (k_parts kp) -> len pt < 2147483616 -> ct_parts (w_ct E w) = [] ->
  share_secret false p lsss_new q (e_zp E (w_off E w) mod p) (e_zp E) (S (w_off E w)) = Ok (sh, off) ->
  exists w', encrypt E CP mpk (InPolicy q) pt w = (w', Ok 0) /\ w_sym E w' = sym_of E (expT E (e_zp E (w_off E w) mod p) (expT E (Palpha E P) (cp_base E P))) /\
    forall v, vP v = P -> vs v = e_zp E (w_off E w) mod p ->
      (forall k u lab e, nth_error (l_rows sh) k = Some (u, (lab, e)) -> vrow v k = (lab, e) /\ vr v k = e_zp E (off + k) mod p) ->
      described (cfits v) (d_ct (map fst (l_rows sh))) (ct_parts (w_ct E w')).
Proof.
  intros P q mpk kp pt w sh off Hk HP Hl Hc Es. pose proof HP as (A1 & A2 & A3 & A4 & A5).
  unfold encrypt, catch_code. erewrite andthen_ok by reflexivity.
  assert (holds E KEY_PUBLIC mpk kp (set_sym E w [])) as Hk0 by exact Hk. set (w0 := set_sym E w []) in *.
  set (s := e_zp E (w_off E w) mod p) in *.
  assert (exists w', cp_encrypt_kem E mpk (InPolicy q) 32 w0 = (w', Ok 0) /\ w_sym E w' = sym_of E (expT E s (expT E (Palpha E P) (cp_base E P))) /\
     forall v, vP v = P -> vs v = s -> (forall k u lab e, nth_error (l_rows sh) k = Some (u, (lab, e)) -> vrow v k = (lab, e) /\ vr v k = e_zp E (off + k) mod p) ->
      described (cfits v) (d_rows 0 (map fst (l_rows sh)) (mset (L "Cprime") Xs (mset (L "policy") Plain []))) (ct_parts (w_ct E w'))) as (w' & K1 & K3 & K2).
  { unfold cp_encrypt_kem, catch_code. do 5 step. cbn [zv]. change (e_zp E (w_off E w0) mod p) with s.
    erewrite andthen_ok by (apply share_ok; exact Es). do 4 step.
    match goal with |- context [andthen E (cp_enc_loop E mpk _ _) _ ?ww] => destruct (cp_enc_loop_exact P mpk kp (l_rows sh) ww Hk HP) as (w' & E1 & E2 & E3 & E4) end.
    erewrite andthen_ok by exact E1. erewrite andthen_ok by (apply hash_to_sym_ok; exact HE). erewrite andthen_ok by reflexivity. unfold ret.
    eexists. split; [reflexivity|]. cbn [w_store set_ct set_sym w_ct ct_alg ct_version ct_uid ct_parts w_sym].
    split; [reflexivity|]. intros v Hv Hs Hr. apply E4; [exact Hv|exact Hr|].
    cbn [w_ct set_ct set_off ct_parts ct_set_component w0 set_sym]. rewrite Hc.
    repeat (eapply described_set; [|reflexivity|cbn [cfits]; rewrite ?Hv, ?Hs; try reflexivity; exact Logic.I]). apply described_nil. }
  change (encrypt_kem E CP) with (cp_encrypt_kem E). erewrite andthen_ok by exact K1. cbn [Z.eqb negb]. erewrite andthen_ok by reflexivity. rewrite K3.
  destruct (mask_ok E (sym_of E (expT E s (expT E (Palpha E P) (cp_base E P)))) pt HE Hl) as (m & b & M1 & M2 & M3 & M4). rewrite M1. step. rewrite M2. do 2 step. unfold ret.
  eexists. split; [reflexivity|]. cbn [w_store set_ct w_ct ct_alg ct_version ct_uid ct_parts ct_set_component w_sym]. split; [exact K3|].
  intros v Hv Hs Hr. unfold d_ct. eapply described_set; [apply K2; assumption|reflexivity|exact Logic.I].
Qed.
End Shape.

(** ** A coalition *)
Definition with_lists (users : list (str * attrlist)) : list (str * input) := map (fun u => (fst u, InAttrs (snd u))) users.
Section Run.
Context (E : engine) (HE : lawful E).
Notation K := (e_curve E).
Notation p := (order K).
Notation world := (world E).

Lemma cp_issue : forall P mpk msk users x kp ks, mget mpk (pub_keys (fst x)) = Some (Some kp) -> mget msk (sec_keys (fst x)) = Some (Some ks) ->
  cp_public E P (k_parts kp) -> cp_master E P (k_parts ks) -> NoDup (map fst users) -> ~ In msk (map fst users) ->
  exists y cs, issue E CP mpk msk (with_lists users) x y /\ mget mpk (pub_keys (fst y)) = Some (Some kp) /\ snd y = (snd x + 2 * length users)%nat /\
    (forall id, ~ In id (map fst users) -> mget id (sec_keys (fst y)) = mget id (sec_keys (fst x))) /\
    Forall2 (fun u c => exists k, mget (fst u) (sec_keys (fst y)) = Some (Some k) /\ c = k_parts k) (with_lists users) cs /\
    forall v i, vP E v = P -> (forall j, (j < length users)%nat -> vt E v (i + j)%nat = e_zp E (snd x + 2 * j + 1) mod p) ->
      forall j id l, nth_error users j = Some (id, l) -> described (cfits E v) (d_user E (i + j) (aattrs l)) (nth j cs []).
Proof.
  intros P mpk msk users. induction users as [|[id l] users IH]; intros x kp ks Hp Hs HP HM ND NI.
  - exists x, []. split; [apply issue_none|]. split; [exact Hp|]. split; [cbn; lia|]. split; [reflexivity|]. split; [constructor|]. intros v i _ _ [|j] id l X; discriminate X.
  - cbn [map fst] in ND, NI. inversion ND as [|? ? N1 N2]; subst.
    destruct (cp_keygen_exact E P l id mpk msk kp ks (start E x (no_ct E)) Hp Hs HP HM) as (dec & Ek & Ed). cbn [w_off start] in Ek, Ed.
    match type of Ek with _ = (?w, _) => set (w1 := w) in * end.
    destruct (IH (left_by E w1) kp ks) as (y & cs & I1 & I2 & I3 & I4 & I5 & I6); try assumption.
    { unfold left_by, w1. cbn [fst w_store set_off set_store start add_key sec_keys pub_keys]. rewrite mget_mset_other by (intro X; apply NI; left; symmetry; exact X). exact Hs. }
    { intro X. apply NI. right. exact X. }
    exists y, (k_parts dec :: cs). split; [eapply issue_one; [exact Ek|exact I1]|]. split; [exact I2|].
    assert (snd (left_by E w1) = (snd x + 2)%nat) as Eo by reflexivity.
    split; [rewrite I3, Eo; cbn [length]; lia|].
    assert (mget id (sec_keys (fst y)) = Some (Some dec)) as Gd.
    { rewrite I4 by exact N1. unfold left_by, w1. cbn [fst w_store set_off set_store start add_key sec_keys pub_keys]. apply mget_mset_same. }
    split.
    { intros id' N'. rewrite I4 by (intro X; apply N'; right; exact X). unfold left_by, w1. cbn [fst w_store set_off set_store start add_key sec_keys pub_keys].
      rewrite mget_mset_other by (intro X; apply N'; left; symmetry; exact X). reflexivity. }
    split; [constructor; [exists dec; split; [exact Gd|reflexivity]|exact I5]|].
    intros v i Hv Ht [|j] id' l' X.
    + cbn [nth_error] in X. injection X as <- <-. cbn [nth]. rewrite Nat.add_0_r. apply Ed; [exact Hv|]. pose proof (Ht 0%nat ltac:(cbn [length]; lia)) as T. rewrite Nat.add_0_r in T. rewrite T. do 2 f_equal. cbn [snd]. lia.
    + cbn [nth_error] in X. cbn [nth]. replace (i + S j)%nat with (S i + j)%nat by lia. apply (I6 v (S i) Hv) with (id := id'); [|exact X].
      intros j' Hj'. replace (S i + j')%nat with (i + S j')%nat by lia. rewrite (Ht (S j')) by (cbn [length]; lia). do 2 f_equal. rewrite Eo. lia.
Qed.

Lemma cp_coalition : forall mpk msk users q pt x0 w1 sh off, both_new E mpk msk (start E x0 (no_ct E)) = (w1, Ok true) ->
  NoDup (map fst users) -> ~ In msk (map fst users) -> len pt < 2147483616 ->
  let B := (snd x0 + 7 + 2 * length users)%nat in
  share_secret false p lsss_new q (e_zp E B mod p) (e_zp E) (S B) = Ok (sh, off) ->
  exists h key, coalition E CP mpk msk (with_lists users) (InPolicy q) pt x0 h key /\
    key = derived E (expT E (e_zp E B mod p) (expT E (e_zp E (snd x0 + 4) mod p) (pair E (e_g1 E (snd x0 + 2)) (e_g2 E (snd x0 + 3))))) /\
    forall v, vP E v = cp_drawn E (snd x0) -> vs E v = e_zp E B mod p -> (forall j, (j < length users)%nat -> vt E v j = e_zp E (snd x0 + 8 + 2 * j) mod p) ->
      (forall k u lab e, nth_error (l_rows sh) k = Some (u, (lab, e)) -> vrow E v k = (lab, e) /\ vr E v k = e_zp E (off + k) mod p) ->
      described (cfits E v) d_params (of_params E h) /\
      (forall j id l, nth_error users j = Some (id, l) -> described (cfits E v) (d_user E j (aattrs l)) (nth j (of_keys E h) [])) /\
      length (of_keys E h) = length users /\
      described (cfits E v) (d_ct E (map fst (l_rows sh))) (of_ct E h).
Proof.
  intros mpk msk users q pt x0 w1 sh off Eb ND NI Hl B Es. pose proof (both_new_off _ _ _ _ _ _ Eb) as Eo. cbn [w_off start] in Eo.
  destruct (cp_generate_exact E mpk msk _ w1 Eb) as (w' & kp & ks & G1 & G2 & G3 & G4 & G5 & G6 & G7). rewrite Eo in *.
  destruct (cp_issue (cp_drawn E (snd x0)) mpk msk users (left_by E w') kp ks G3 G4 G5 G6 ND NI) as (y & cs & I1 & I2 & I3 & I4 & I5 & I6).
  assert (snd (left_by E w') = (snd x0 + 7)%nat) as Ey by exact G2. rewrite Ey in I3, I6.
  assert (w_off E (start E y (no_ct E)) = B) as EB by (cbn [w_off start]; rewrite I3; reflexivity).
  destruct (cp_encrypt_exact E HE (cp_drawn E (snd x0)) q mpk kp pt (start E y (no_ct E)) sh off I2 G5 Hl eq_refl) as (w3 & C1 & C2 & C3).
  { rewrite EB. exact Es. }
  rewrite EB in C2, C3. exists {| of_params := k_parts kp; of_keys := cs; of_ct := ct_parts (w_ct E w3) |}, (w_sym E w3).
  split; [exists w', y, w3, kp; repeat (split; [first [assumption|reflexivity]|]); reflexivity|]. split; [exact C2|].
  intros v V1 V2 V3 V4. split; [apply G7; exact V1|]. split; [|split; [|apply C3; assumption]].
  - intros j id l X. apply (I6 v 0%nat V1) with (id := id); [|exact X]. intros j' Hj'. cbn [Nat.add]. rewrite V3 by exact Hj'. do 2 f_equal. lia.
  - cbn [of_keys]. assert (forall A B (R : A -> B -> Prop) a b, Forall2 R a b -> length a = length b) as F2 by (intros A0 B0 R a b F; induction F; cbn [length]; congruence).
    rewrite <- (F2 _ _ _ _ _ I5). unfold with_lists. apply map_length.
Qed.

(** ** Exponents *)
Variables (nu : str -> Z) (v : cenv E).
Hypothesis map_nu : forall h, map1 E h = mul1 E (nu h) (P1 E (vP E v)).
Notation P := (vP E v).
Notation base := (pair E (P1 E P) (P2 E P)).
Definition hv (a : str) : Z := nu (e_hash E (Pk E P ++ a)).
Definition val1 (f : cform) : option Z :=
  match f with
  | X0 => Some 1 | Xa => Some (Pa E P) | Xs => Some (vs E v)
  | Xc i => Some (snd (vrow E v i) * Pa E P + fneg p (vr E v i) * hv (fst (vrow E v i)))
  | Xk j a => Some (vt E v j * hv a)
  | _ => None end.
Definition val2 (f : cform) : option Z :=
  match f with
  | Y0 => Some 1 | Yr i => Some (vr E v i) | Yk j => Some (Palpha E P + vt E v j * Pa E P) | Yl j => Some (vt E v j)
  | _ => None end.
Definition valT (f : cform) : option Z := match f with Ta => Some (Palpha E P) | _ => None end.

(** The forms at a place. *)
Variables (users : list (str * attrlist)) (us : list str) (h : holdings E).
Definition forms (w : place) : smap cform :=
  match w with
  | InParams => d_params
  | InKey j => match nth_error users j with Some (_, l) => d_user E j (aattrs l) | None => [] end
  | InCiphertext => d_ct E us
  end.
Hypothesis H1 : described (cfits E v) d_params (of_params E h).
Hypothesis H2 : forall j id l, nth_error users j = Some (id, l) -> described (cfits E v) (d_user E j (aattrs l)) (nth j (of_keys E h) []).
Hypothesis H3 : length (of_keys E h) = length users.
Hypothesis H4 : described (cfits E v) (d_ct E us) (of_ct E h).
Lemma forms_ok : forall w, described (cfits E v) (forms w) (place_of E h w).
Proof.
  intros [|j|]; cbn [forms place_of]; [exact H1| |exact H4]. destruct (nth_error users j) as [[id l]|] eqn:Ej; [eapply H2; exact Ej|].
  apply nth_error_None in Ej. rewrite nth_overflow by lia. apply described_nil.
Qed.
Definition ex1 (x : point) : option Z :=
  match x with At w name => match mget name (forms w) with Some f => val1 f | None => None end | Hashed m => Some (nu (e_hash E m)) end.
Definition ex2 (w : place) (name : str) : option Z := match mget name (forms w) with Some f => val2 f | None => None end.
Definition exT (w : place) (name : str) : option Z := match mget name (forms w) with Some f => valT f | None => None end.
Definition power (m : move) : Z :=
  match m with
  | Pair x w name c => match ex1 x, ex2 w name with Some a, Some b => c * (a * b) | _, _ => 0 end
  | Take w name c => match exT w name with Some a => c * a | None => 0 end
  end.
Lemma read1_ok : forall x, match ex1 x with Some a => exists g, read1 E h x = Some g /\ forall y, pair E g y = expT E a (pair E (P1 E P) y) \/ (a = 1 /\ g = P1 E P) | None => read1 E h x = None end.
Proof.
  intros [w name|m]; cbn [ex1 read1].
  - pose proof (forms_ok w name) as D. unfold read. destruct (mget name (forms w)) as [f|]; [|rewrite D; reflexivity]. destruct D as (o & -> & F).
    destruct f; cbn [cfits val1] in *; try (subst o; reflexivity); try (subst o; eexists; split; [reflexivity|]; intro y).
    + right. auto.
    + left. apply (law_pair_mul1 E HE).
    + left. apply (law_pair_mul1 E HE).
    + left. unfold hash_to_g1. rewrite map_nu, !(law_mul1_mul E HE), <- (law_mul1_add E HE), (law_pair_mul1 E HE). reflexivity.
    + left. unfold hash_to_g1. rewrite map_nu, !(law_mul1_mul E HE), (law_pair_mul1 E HE). reflexivity.
    + destruct o; try destruct F; reflexivity.
  - exists (map1 E (e_hash E m)). split; [reflexivity|]. intro y. left. rewrite map_nu. apply (law_pair_mul1 E HE).
Qed.
Lemma read2_ok : forall w name, match ex2 w name with Some b => exists g, read2 E h w name = Some g /\ forall y, pair E y g = expT E b (pair E y (P2 E P)) \/ (b = 1 /\ g = P2 E P) | None => read2 E h w name = None end.
Proof.
  intros w name. unfold ex2, read2. pose proof (forms_ok w name) as D. unfold read. destruct (mget name (forms w)) as [f|]; [|rewrite D; reflexivity]. destruct D as (o & -> & F).
  destruct f; cbn [cfits val2] in *; try (subst o; reflexivity); try (subst o; eexists; split; [reflexivity|]; intro y).
  - right. auto.
  - left. apply (law_pair_mul2 E HE).
  - left. rewrite (law_pair_add2 E HE), !(law_pair_mul2 E HE), (law_expT_mul E HE), <- (law_expT_add E HE). reflexivity.
  - left. apply (law_pair_mul2 E HE).
  - destruct o; try destruct F; reflexivity.
Qed.
Lemma yields_ok : forall m, yields E h m = expT E (power m) base.
Proof.
  intros [x w name c|w name c]; cbn [yields power].
  - pose proof (read1_ok x) as A. pose proof (read2_ok w name) as B. destruct (ex1 x) as [a|]; [|rewrite A; symmetry; apply (expT_zero E HE)].
    destruct A as (g & -> & A). destruct (ex2 w name) as [b|]; [|rewrite B; symmetry; apply (expT_zero E HE)]. destruct B as (g' & -> & B).
    destruct (A g') as [Ag|[-> ->]].
    + rewrite Ag. destruct (B (P1 E P)) as [Bg|[-> ->]]; [rewrite Bg, !(law_expT_mul E HE); f_equal; lia|rewrite (law_expT_mul E HE); f_equal; lia].
    + destruct (B (P1 E P)) as [Bg|[-> ->]]; [rewrite Bg, (law_expT_mul E HE); f_equal; lia|f_equal; lia].
  - unfold exT, readT. pose proof (forms_ok w name) as D. unfold read. destruct (mget name (forms w)) as [f|]; [|rewrite D; symmetry; apply (expT_zero E HE)]. destruct D as (o & -> & F).
    destruct f; cbn [cfits valT] in *; try (subst o; symmetry; apply (expT_zero E HE)).
    + subst o. unfold cp_base. rewrite (law_expT_mul E HE). reflexivity.
    + destruct o; try destruct F; symmetry; apply (expT_zero E HE).
Qed.
Definition total (attack : list move) : Z := fold_right (fun m acc => power m + acc) 0 attack.
Lemma outcome_ok : forall attack, outcome E h attack = expT E (total attack) base.
Proof.
  unfold outcome, total. induction attack as [|m attack IH]; cbn [fold_right]; [symmetry; apply (expT_zero E HE)|]. rewrite IH, yields_ok, <- (law_expT_add E HE). reflexivity.
Qed.
End Run.
