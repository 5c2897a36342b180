(** Specification vocabulary: the blobs an authority issues and a sender sends,
    and what a receiver gets who loads one of each. *)
From Verif Require Import Base StrMap ByteString UInteger Field PolicySyntax Lexical PolicyMeaning AttrMeaning PolicyUse Policy Driver Parser AttrList Utils Container Keystore Scheme SchemeSpec DeliverySpec Lsss LsssSpec LsssUse SchemeRows.
From Coq Require Import ZArith List Ascii Bool.
Import ListNotations.
Open Scope Z_scope.

Section Find.
Context (E : engine) (sch : scheme).
Notation K := (e_curve E).
(** A user key for [kinp], made with the parameters of [w1] and exported. *)
Definition issued (mpk msk : str) (w1 : world E) (kinp : input) (blob : str) : Prop :=
  exists kid h1 (a2 : context E) w3 rk h2 (a4 : context E) bufx wx,
    len kid < 2 ^ 31 /\
    history E sch h1 (left_by E w1) a2 /\ spares E KEY_PUBLIC mpk h1 /\ spares E KEY_SECRET msk h1 /\
    keygen E sch kinp kid mpk msk (start E a2 (no_ct E)) = (w3, rk) /\
    history E sch h2 (left_by E w3) a4 /\ spares E KEY_SECRET kid h2 /\ never_master E kid h2 /\
    (forall k, mget kid (pub_keys (fst a4)) <> Some (Some k)) /\
    export_key E kid bufx (start E a4 (no_ct E)) = (wx, Ok (0, blob)) /\
    (forall k, mget kid (sec_keys (fst a4)) = Some (Some k) -> light E (k_parts k)).
(** A ciphertext of [pt] for [einp], made by a sender who loaded the exported
    public parameters, and exported. *)
Definition sent (mpk : str) (w1 : world E) (einp : input) (pt blob : str) : Prop :=
  exists ha (a1 : context E) bufp wp rp mpk1 (b0 : context E) v1 l1 g1 (b2 : context E) v3 re,
    len mpk < 2 ^ 31 /\
    history E sch ha (left_by E w1) a1 /\ spares E KEY_PUBLIC mpk ha /\
    export_key E mpk bufp (start E a1 (no_ct E)) = (wp, rp) /\
    (forall k, mget mpk (pub_keys (fst a1)) = Some (Some k) -> light E (k_parts k)) /\
    load_key E sch mpk1 (bytes_of rp) KEY_PUBLIC (start E b0 (no_ct E)) = (v1, l1) /\
    history E sch g1 (left_by E v1) b2 /\ spares E KEY_PUBLIC mpk1 g1 /\
    encrypt E sch mpk1 einp pt (start E b2 (no_ct E)) = (v3, re) /\
    ct_export (w_ct E v3) = Ok blob /\ light E (ct_parts (w_ct E v3)).
(** A receiver loads a key blob and a ciphertext blob and decrypts. *)
Definition opened (kblob cblob : str) (out : res (Z * str)) : Prop :=
  exists kid1 (c0 : context E) u1 l2 f1 (c2 : context E) ct lc mpk2 u3,
    load_key E sch kid1 kblob KEY_SECRET (start E c0 (no_ct E)) = (u1, l2) /\
    history E sch f1 (left_by E u1) c2 /\ spares E KEY_SECRET kid1 f1 /\
    ct_load K (e_mktime E) (no_ct E) cblob = (ct, lc) /\
    decrypt E sch mpk2 kid1 (start E c2 ct) = (u3, out).

(** An input the scheme can work with: read from a sentence whose names survive
    printing, or from a list; of travelling length; no two of its names with the
    same short form. *)
Definition workable (i : input) : Prop :=
  match i with
  | InPolicy q => (exists e s, text_of (ptoks e) s /\ well e = true /\ tidy_names e = true /\ no_percent_names e = true /\ create_policy_tree (e_mktime E) s = Ok (Some q)) /\
      no_collision (short_label E) (row_names q) /\ len (ptext q) < 2 ^ 31
  | InAttrs l => (exists t, create_attribute_list (e_mktime E) t = Ok (Some l)) /\ no_collision (short_label E) (aattrs l) /\ len (compact l) < 2 ^ 31
  | InNull => False
  end.
(** The kinds of input: lists in keys and policies in ciphertexts for CP, the
    other way around for KP. *)
Definition key_side (i : input) : Prop := match sch, i with CP, InAttrs _ | KP, InPolicy _ => True | _, _ => False end.
Definition sender_side (i : input) : Prop := match sch, i with CP, InPolicy _ | KP, InAttrs _ => True | _, _ => False end.
End Find.
