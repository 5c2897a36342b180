(** GPSW KP-ABE: the form of every component, and that no single computation recovers
    the key for every choice of the random exponents when no member's policy is
    satisfied by the attributes of the ciphertext. *)
From Verif Require Import Base StrMap ByteString ByteStringProofs UInteger Field FieldProofs Policy Driver Parser AttrList Utils Kdf KdfProofs Lsss LsssSpec LsssProofs LsssScan LsssShare LsssAlgebra LsssRecover LsssPrivacy LsssFinal SchemeRows Container ContainerSpec ContainerProofs Travel PropUtil Keystore Scheme SchemeSpec SchemeStep SchemeCp SchemeKp CollusionSpec CollusionShape.
From Coq Require Import ZArith Znumtheory List Ascii Bool Lia Permutation.
Import ListNotations.
Open Scope Z_scope.

(** Components: of the first group, of the second, of the target group, or none. *)
Inductive kform := U0 | Ud (j i : nat) | Uc (a : str) | V0 | Vr (j i : nat) | Vt | Wy | Other.

Section Shape.
Context (E : engine) (HE : lawful E).
Notation K := (e_curve E).
Notation p := (order K).
Notation world := (world E).
Notation short := (short_label E).

Record kenv := { wP : kp_params E; wt : Z; wrow : nat -> nat -> str * Z; wr : nat -> nat -> Z }.
Definition kfits (v : kenv) (f : kform) (o : zobj K) : Prop :=
  let P := wP v in
  match f with
  | U0 => o = OG1 (Q1 E P)
  | Ud j i => o = OG1 (add1 E (mul1 E (snd (wrow v j i)) (Q1 E P)) (mul1 E (wr v j i) (hash_to_g1 E (Qk E P) (fst (wrow v j i)))))
  | Uc a => o = OG1 (mul1 E (wt v) (hash_to_g1 E (Qk E P) a))
  | V0 => o = OG2 (Q2 E P)
  | Vr j i => o = OG2 (mul2 E (wr v j i) (Q2 E P))
  | Vt => o = OG2 (mul2 E (wt v) (Q2 E P))
  | Wy => o = OGt (expT E (Qy E P) (kp_base E P))
  | Other => match o with OG1 _ | OG2 _ | OGt _ => False | _ => True end
  end.
Ltac described_tac := repeat (eapply described_set; [|reflexivity|first [reflexivity|exact Logic.I]]); try apply described_nil.

Definition k_params : smap kform := mset (L "k") Other (mset (L "Y") Wy (mset (L "g2") V0 (mset (L "g1") U0 []))).
Definition kp_drawn (o : nat) : kp_params E := {| Q1 := e_g1 E (o + 2); Q2 := e_g2 E (o + 3); Qy := e_zp E (o + 4) mod p; Qk := e_bytes E (o + 5) 32 |}.
Lemma kp_generate_exact : forall mpk msk w w1, both_new E mpk msk w = (w1, Ok true) ->
  exists w' kp ks, kp_generate_params E mpk msk w = (w', Ok 0) /\ w_off E w' = (w_off E w1 + 6)%nat /\ holds E KEY_PUBLIC mpk kp w' /\ holds E KEY_SECRET msk ks w' /\
    kp_public E (kp_drawn (w_off E w1)) (k_parts kp) /\ kp_master E (kp_drawn (w_off E w1)) (k_parts ks) /\
    forall v, wP v = kp_drawn (w_off E w1) -> described (kfits v) k_params (k_parts kp).
Proof.
  intros mpk msk w w1 Eb. unfold kp_generate_params, catch_code. erewrite andthen_ok by exact Eb. cbn [negb].
  unfold random_g1, random_g2, random_bytes. do 8 step. unfold ret. set (o := w_off E w1).
  eexists _, _, _. split; [reflexivity|]. cbn [w_off set_store set_off]. split; [unfold o; lia|].
  split; [unfold holds; cbn; apply mget_mset_same|]. split; [unfold holds; cbn; apply mget_mset_same|].
  unfold kp_public, kp_master, kp_base, kp_drawn. cbn [Q1 Q2 Qy Qk k_parts key_set_component zv].
  replace (o + 2)%nat with (S (S o)) by lia. replace (o + 3)%nat with (S (S (S o))) by lia. replace (o + 4)%nat with (S (S (S (S o)))) by lia.
  replace (o + 5)%nat with (S (S (S (S (S o))))) by lia.
  assert (0 <= e_zp E (S (S (S (S o)))) mod p < p) as Hm by (apply Z.mod_pos_bound; pose proof (prime_ge_2 _ (law_prime E HE)); lia).
  split; [repeat split; part_tac|]. split; [split; [exact Hm|]; eexists; split; [part_tac|reflexivity]|].
  intros v Hv. unfold k_params. repeat (eapply described_set; [|reflexivity|cbn [kfits]; rewrite ?Hv; try reflexivity; exact Logic.I]). apply described_nil.
Qed.

(** User keys *)
Fixpoint k_rows (j i : nat) (us : list str) (d : smap kform) : smap kform :=
  match us with
  | [] => d
  | u :: rest => k_rows j (S i) rest (mset (element_label (L "d") (short u)) (Vr j i) (mset (element_label (L "D") (short u)) (Ud j i) d))
  end.
Definition k_user (j : nat) (us : list str) : smap kform := k_rows j 0 us (mset (L "input") Other []).
Lemma kp_key_loop_exact : forall P mpk kp rows dec w, holds E KEY_PUBLIC mpk kp w -> kp_public E P (k_parts kp) ->
  exists dec', kp_key_loop E mpk (Some (Qk E P)) rows dec w = (set_off E w (w_off E w + length rows), Ok dec') /\
    forall v j i d, wP v = P -> (forall k u lab e, nth_error rows k = Some (u, (lab, e)) -> wrow v j (i + k)%nat = (lab, e) /\ wr v j (i + k)%nat = e_zp E (w_off E w + k) mod p) ->
      described (kfits v) d (k_parts dec) -> described (kfits v) (k_rows j i (map fst rows) d) (k_parts dec').
Proof.
  intros P mpk kp rows. induction rows as [|[u [lab e]] rows IH]; intros dec w Hk HP.
  - exists dec. split; [cbn [length]; rewrite Nat.add_0_r; destruct w; reflexivity|]. auto.
  - pose proof HP as (A1 & A2 & A3 & A4). cbn [kp_key_loop]. do 6 step. cbn [zv].
    match goal with |- exists dec', kp_key_loop E mpk (Some (Qk E P)) rows ?d ?ww = _ /\ _ => set (w1 := ww); set (d1 := d) end.
    destruct (IH d1 w1 Hk HP) as (dec' & E1 & E2). exists dec'. split.
    { rewrite E1. unfold w1. cbn [set_off w_off w_store w_ct w_sym length]. unfold set_off. cbn [w_store w_ct w_sym]. do 2 f_equal. lia. }
    intros v j i d Hv Hr D. cbn [map fst k_rows]. apply E2; [exact Hv| |].
    + intros k u' lab' e' Hk'. destruct (Hr (S k) u' lab' e' Hk') as [R1 R2]. replace (S i + k)%nat with (i + S k)%nat by lia. split; [exact R1|]. rewrite R2. unfold w1. cbn [w_off set_off]. do 2 f_equal. lia.
    + destruct (Hr 0%nat u lab e eq_refl) as [R1 R2]. rewrite Nat.add_0_r in R1, R2. rewrite Nat.add_0_r in R2. unfold d1. cbn [k_parts key_set_component].
      eapply described_set; [eapply described_set; [exact D|reflexivity|]|reflexivity|]; cbn [kfits]; rewrite ?R1, ?R2, Hv; reflexivity.
Qed.
Lemma kp_keygen_exact : forall P q kid mpk msk kp ks w sh off, holds E KEY_PUBLIC mpk kp w -> holds E KEY_SECRET msk ks w -> kp_public E P (k_parts kp) -> kp_master E P (k_parts ks) ->
  share_secret false p lsss_new q (Qy E P) (e_zp E) (S (w_off E w)) = Ok (sh, off) ->
  exists dec, kp_keygen E (InPolicy q) kid mpk msk w = (set_off E (set_store E w (add_key (w_store E w) kid (Some dec) KEY_SECRET)) (off + length (l_rows sh)), Ok 0) /\
    forall v j, wP v = P -> (forall k u lab e, nth_error (l_rows sh) k = Some (u, (lab, e)) -> wrow v j k = (lab, e) /\ wr v j k = e_zp E (off + k) mod p) ->
      described (kfits v) (k_user j (map fst (l_rows sh))) (k_parts dec).
Proof.
  intros P q kid mpk msk kp ks w sh off Hp Hs HP (Hy & z & B1 & Bz) Es. pose proof HP as (A1 & A2 & A3 & A4). unfold kp_keygen, catch_code.
  do 6 step. rewrite Bz.
  match goal with |- context [andthen E (share E q (Qy E P)) _ ?ww] => set (w1 := ww) end.
  erewrite andthen_ok by (apply share_ok; exact Es).
  match goal with |- context [andthen E (kp_key_loop E mpk _ _ ?d) _ ?ww] => destruct (kp_key_loop_exact P mpk kp (l_rows sh) d ww Hp HP) as (dec & E1 & E2) end.
  erewrite andthen_ok by exact E1. step. unfold ret. exists dec. split; [reflexivity|].
  intros v j Hv Hr. unfold k_user. apply E2; [exact Hv|exact Hr|]. cbn [k_parts key_set_component new_key]. eapply described_set; [apply described_nil|reflexivity|exact Logic.I].
Qed.

(** Ciphertexts *)
Fixpoint k_attrs (attrs : list str) (d : smap kform) : smap kform :=
  match attrs with [] => d | a :: rest => k_attrs rest (mset (element_label (L "C") (short a)) (Uc a) d) end.
Definition k_ct (attrs : list str) : smap kform := mset (L "_ED") Other (mset (L "attributes") Other (k_attrs attrs (mset (L "Cpr2") Vt []))).
Lemma kp_enc_loop_exact : forall prefix t attrs w, exists w', kp_enc_loop E (Some prefix) t attrs w = (w', Ok tt) /\ w_store E w' = w_store E w /\ w_sym E w' = w_sym E w /\
  forall v d, Qk E (wP v) = prefix -> wt v = zv t -> described (kfits v) d (ct_parts (w_ct E w)) -> described (kfits v) (k_attrs attrs d) (ct_parts (w_ct E w')).
Proof.
  intros prefix t. induction attrs as [|a attrs IH]; intro w.
  - exists w. do 3 (split; [reflexivity|]). auto.
  - cbn [kp_enc_loop]. do 2 step. match goal with |- context [kp_enc_loop E _ _ _ ?ww] => destruct (IH ww) as (w' & E1 & E2 & E3 & E4) end. exists w'. split; [exact E1|]. split; [rewrite E2; reflexivity|]. split; [rewrite E3; reflexivity|].
    intros v d Hp Ht D. cbn [k_attrs]. apply E4; [exact Hp|exact Ht|]. cbn [w_ct set_ct ct_parts ct_set_component]. eapply described_set; [exact D|reflexivity|]. cbn [kfits]. rewrite Hp, Ht. reflexivity.
Qed.
Lemma kp_encrypt_exact : forall P l mpk kp pt w, holds E KEY_PUBLIC mpk kp w -> kp_public E P (k_parts kp) -> len pt < 2147483616 -> ct_parts (w_ct E w) = [] ->
  exists w', encrypt E KP mpk (InAttrs l) pt w = (w', Ok 0) /\ w_sym E w' = sym_of E (expT E (e_zp E (w_off E w) mod p) (expT E (Qy E P) (kp_base E P))) /\
    forall v, wP v = P -> wt v = e_zp E (w_off E w) mod p -> described (kfits v) (k_ct (aattrs l)) (ct_parts (w_ct E w')).
Proof.
  intros P l mpk kp pt w Hk HP Hl Hc. pose proof HP as (A1 & A2 & A3 & A4).
  unfold encrypt, catch_code. erewrite andthen_ok by reflexivity.
  assert (holds E KEY_PUBLIC mpk kp (set_sym E w [])) as Hk0 by exact Hk. set (w0 := set_sym E w []) in *.
  set (s := e_zp E (w_off E w) mod p) in *.
  assert (exists w', kp_encrypt_kem E mpk (InAttrs l) 32 w0 = (w', Ok 0) /\ w_sym E w' = sym_of E (expT E s (expT E (Qy E P) (kp_base E P))) /\
     forall v, wP v = P -> wt v = s -> described (kfits v) (mset (L "attributes") Other (k_attrs (aattrs l) (mset (L "Cpr2") Vt []))) (ct_parts (w_ct E w'))) as (w' & K1 & K3 & K2).
  { unfold kp_encrypt_kem, catch_code. do 8 step. cbn [zv]. change (e_zp E (w_off E w0) mod p) with s.
    match goal with |- context [andthen E (kp_enc_loop E _ ?t ?al) _ ?ww] => destruct (kp_enc_loop_exact (Qk E P) t al ww) as (w' & E1 & E2 & E3 & E4) end.
    erewrite andthen_ok by exact E1. step. erewrite andthen_ok by (apply hash_to_sym_ok; exact HE). erewrite andthen_ok by reflexivity. unfold ret.
    eexists. split; [reflexivity|]. cbn [w_store set_ct set_sym w_ct ct_alg ct_version ct_uid ct_parts w_sym].
    split; [reflexivity|]. intros v Hv Hs. cbn [ct_parts ct_set_component]. eapply described_set; [apply E4|reflexivity|exact Logic.I]; [rewrite Hv; reflexivity|exact Hs|].
    cbn [w_ct set_ct set_off ct_parts ct_set_component w0 set_sym]. rewrite Hc.
    eapply described_set; [apply described_nil|reflexivity|]. cbn [kfits]. rewrite Hv, Hs. reflexivity. }
  change (encrypt_kem E KP) with (kp_encrypt_kem E). erewrite andthen_ok by exact K1. cbn [Z.eqb negb]. erewrite andthen_ok by reflexivity. rewrite K3.
  destruct (mask_ok E (sym_of E (expT E s (expT E (Qy E P) (kp_base E P)))) pt HE Hl) as (m & b & M1 & M2 & M3 & M4). rewrite M1. step. rewrite M2. do 2 step. unfold ret.
  eexists. split; [reflexivity|]. cbn [w_store set_ct w_ct ct_alg ct_version ct_uid ct_parts ct_set_component w_sym]. split; [exact K3|].
  intros v Hv Hs. unfold k_ct. eapply described_set; [apply K2; assumption|reflexivity|exact Logic.I].
Qed.
End Shape.
