(** C104: the plaintext in the ciphertext; C105: altered ciphertexts. *)
From Verif Require Import Base StrMap ByteString ByteStringProofs UInteger Field FieldProofs Policy Driver Parser AttrList Utils Kdf KdfProofs Lsss LsssSpec LsssRecover SchemeRows Container ContainerProofs Keystore Scheme SchemeSpec SchemeStep SchemeUse SchemeSession SchemeToy PropUtil PropScheme PlainSpec PlainProofs.
From Coq Require Import ZArith List Ascii Bool Lia.
Import ListNotations.
Open Scope Z_scope.

Lemma xor_xored : forall a m b, length m = length a -> xor_assign a m = Ok b -> xored a m b.
Proof.
  intros a m b Hl H. destruct a as [|c a].
  - destruct m; [|discriminate]. cbn in H. injection H as <-. split; [reflexivity|]. split; [reflexivity|]. intros [|i]; discriminate.
  - destruct (xor_assign_lemma (c :: a) m) as (d & E1 & _ & E3 & E4); [intro X; subst m; discriminate|]. rewrite H in E1. injection E1 as <-.
    split; [exact Hl|]. split; [exact E3|]. intros i x y Hx Hy. rewrite (E4 i x Hx). rewrite Nat.mod_small by (apply nth_error_Some; congruence).
    rewrite (nth_error_nth m i (z2b 0) Hy). reflexivity.
Qed.
Lemma mask_length : forall E key n m, lawful E -> 0 <= n < 2147483616 -> mask E key n = Ok m -> length m = Z.to_nat n.
Proof.
  intros E key n m HE Hn H. unfold mask in H. rewrite Z.mod_small in H by lia. rewrite (mask_exact (e_hash E) (law_hash E HE) key n 42 Hn) in H. injection H as <-.
  rewrite firstn_length, (stream_length (fun c => e_hash E (mask_input 42 key c)) _ _ 32%nat) by (intros; apply (law_hash E HE)). apply Nat.min_l. assert (n <= 32 * ((n + 31) / 32)) by (Z.div_mod_to_equations; lia). lia.
Qed.

(** What encrypt does, in one step. *)
Lemma encrypt_exact : forall E s mpk inp m w, lawful E -> len m < 2147483616 ->
  let (w1, r) := encrypt_kem E s mpk inp 32 (set_sym E w []) in
  match r with
  | Ok 0 => exists pad ed, mask E (w_sym E w1) (len m) = Ok pad /\ xor_assign m pad = Ok ed /\ xored m pad ed /\ encrypt E s mpk inp m w = (set_ct E w1 (ct_set_component (w_ct E w1) carrier (OBytes ed)), Ok 0)
  | Throw (OpenABEError e) => encrypt E s mpk inp m w = (w1, Ok e)
  | r => encrypt E s mpk inp m w = (w1, r)
  end.
Proof.
  intros E s mpk inp m w HE Hl. destruct (encrypt_kem E s mpk inp 32 (set_sym E w [])) as [w1 r] eqn:Ek.
  unfold encrypt, catch_code. erewrite andthen_ok by reflexivity. destruct r as [z|[]| | |]; try (unfold andthen; rewrite Ek; reflexivity).
  erewrite andthen_ok by exact Ek.
  destruct (Z.eqb_spec z 0) as [->|N]; cbn [negb].
  - destruct (mask_ok E (w_sym E w1) m HE Hl) as (pad & ed & M & X & _ & _). exists pad, ed. split; [exact M|]. split; [exact X|].
    split. { apply xor_xored; [|exact X]. rewrite (mask_length E _ _ _ HE (conj (len_nonneg m) Hl) M). unfold len. apply Nat2Z.id. }
    erewrite andthen_ok by reflexivity. rewrite M. erewrite andthen_ok by apply lift_ok. rewrite X. erewrite andthen_ok by apply lift_ok. erewrite andthen_ok by reflexivity. reflexivity.
  - destruct z; [congruence| |]; reflexivity.
Qed.

Lemma catch_never : forall E m w w' e, catch_code E m w <> (w', Throw (OpenABEError e)).
Proof. intros E m w w' e H. unfold catch_code in H. destruct (m w) as [w1 [|[]| | |]]; discriminate. Qed.
Lemma encrypt_kem_catches : forall E s mpk inp n w w' e, encrypt_kem E s mpk inp n w <> (w', Throw (OpenABEError e)).
Proof. intros E [] mpk inp n w w' e; apply catch_never. Qed.

Lemma nth_skipn : forall A (l : list A) k j, nth_error (skipn k l) j = nth_error l (k + j).
Proof. intros A l k. revert l. induction k as [|k IH]; intros [|a l] j; try reflexivity; [now destruct j|]. apply IH. Qed.
Lemma nth_firstn : forall A (l : list A) n j, (j < n)%nat -> nth_error (firstn n l) j = nth_error l j.
Proof. intros A l n. revert l. induction n as [|n IH]; intros [|a l] [|j] H; try reflexivity; try lia. cbn; apply IH; lia. Qed.

(** * C104 *)
(** Two plaintexts of one length, encrypted in the same situation: the outcome, the
    context, the header and all components but one are the same.  That one is the
    plaintext XOR a pad as long as the plaintext, and the pad is the same for both. *)
Theorem C104_only_under_pad : forall E s mpk inp m m' w, lawful E -> length m' = length m -> len m < 2147483616 ->
  let a := encrypt E s mpk inp m w in let b := encrypt E s mpk inp m' w in
  snd a = snd b /\ w_store E (fst a) = w_store E (fst b) /\ w_off E (fst a) = w_off E (fst b) /\
  same_header (w_ct E (fst a)) (w_ct E (fst b)) /\ same_but_body (w_ct E (fst a)) (w_ct E (fst b)) /\
  (snd a = Ok 0 -> exists pad ed ed', body (w_ct E (fst a)) = Some (Some (OBytes ed)) /\ body (w_ct E (fst b)) = Some (Some (OBytes ed')) /\ xored m pad ed /\ xored m' pad ed').
Proof.
  intros E s mpk inp m m' w HE Hl Hb. cbv zeta. assert (len m' = len m) as Hl' by (unfold len; rewrite Hl; reflexivity).
  pose proof (encrypt_exact E s mpk inp m w HE Hb) as A. pose proof (encrypt_exact E s mpk inp m' w HE) as B. rewrite Hl' in B. specialize (B Hb).
  destruct (encrypt_kem E s mpk inp 32 (set_sym E w [])) as [w1 r] eqn:Ek. destruct r as [[|z|z]|[|e|]| | |]; try (rewrite A, B; cbn; repeat split; auto; try discriminate; fail).
  - destruct A as (pad & ed & M & X & Q & ->), B as (pad' & ed' & M' & X' & Q' & ->). rewrite M in M'. injection M' as <-. cbn. do 3 (split; [reflexivity|]). split; [repeat split; reflexivity|].
    split; [intros name N; cbn; unfold set_component; rewrite !mget_mset_other by exact N; reflexivity|].
    intros _. exists pad, ed, ed'. unfold body. cbn. unfold set_component. rewrite !mget_mset_same. auto.
  - exfalso. exact (encrypt_kem_catches E s mpk inp 32 (set_sym E w []) w1 e Ek).
Qed.
Print Assumptions C104_only_under_pad.
(** The pad repeats after 8192 bytes (C39): two bytes of a long plaintext at that
    distance can be compared in the ciphertext without any key. *)
Theorem C104_long_plaintext_refuted : forall E s mpk inp m w w', lawful E -> len m < 2147483616 -> encrypt E s mpk inp m w = (w', Ok 0) ->
  exists ed, body (w_ct E w') = Some (Some (OBytes ed)) /\
    forall i x y c d, Z.of_nat i + 8192 + 32 <= len m -> nth_error m i = Some x -> nth_error m (i + 256 * 32) = Some y -> nth_error ed i = Some c -> nth_error ed (i + 256 * 32) = Some d ->
      Z.lxor (b2z c) (b2z d) = Z.lxor (b2z x) (b2z y).
Proof.
  intros E s mpk inp m w w' HE Hb H. pose proof (encrypt_exact E s mpk inp m w HE Hb) as A. rewrite H in A.
  destruct (encrypt_kem E s mpk inp 32 (set_sym E w [])) as [w1 r] eqn:Ek. destruct r as [[|z|z]|[|e|]| | |]; try discriminate; [|exfalso; exact (encrypt_kem_catches E s mpk inp 32 (set_sym E w []) w1 e Ek)].
  destruct A as (pad & ed & M & _ & Q & A). injection A as ->. exists ed. split; [unfold body; cbn; unfold set_component; rewrite mget_mset_same; reflexivity|].
  intros i x y c d Hi Hx Hy Hc Hd. destruct Q as (L1 & L2 & Q).
  assert (nth_error pad i = nth_error pad (i + 256 * 32)) as P.
  { unfold mask in M. pose proof (len_nonneg m). rewrite Z.mod_small in M by lia.
    pose proof (C39_mask_refuted (e_hash E) (law_hash E HE) (w_sym E w1) 42 (len m) (i / 32) pad (conj (len_nonneg m) Hb) M) as R.
    assert (32 * (Z.of_nat (i / 32) + 257) <= len m) as G. { rewrite Nat2Z.inj_div. change (Z.of_nat 32) with 32. Z.div_mod_to_equations; lia. }
    specialize (R G). assert (forall a k j, (j < 32)%nat -> nth_error (firstn 32 (skipn k a)) j = nth_error a (k + j) :> option ascii) as N.
    { intros a k j Hj. rewrite nth_firstn by exact Hj. apply nth_skipn. }
    assert (i = i / 32 * 32 + i mod 32)%nat as D by (pose proof (Nat.div_mod i 32 ltac:(lia)); lia).
    assert (i mod 32 < 32)%nat as D' by (apply Nat.mod_upper_bound; lia).
    rewrite D at 1. rewrite <- (N pad _ _ D'), R, (N pad _ _ D'). f_equal. lia. }
  assert (exists z, nth_error pad i = Some z) as [z Hz]. { destruct (nth_error pad i) eqn:En; [eauto|]. apply nth_error_None in En. assert (nth_error m i <> None) as V by congruence. apply nth_error_Some in V. lia. }
  rewrite (Q i x z Hx Hz) in Hc. rewrite P in Hz. rewrite (Q _ y z Hy Hz) in Hd. injection Hc as <-. injection Hd as <-.
  rewrite !z2b_small by (apply lxor_byte_range; apply b2z_range). rewrite (Z.lxor_comm (b2z y)). rewrite Z.lxor_assoc, <- (Z.lxor_assoc (b2z z)), Z.lxor_nilpotent, Z.lxor_0_l. reflexivity.
Qed.
Print Assumptions C104_long_plaintext_refuted.

(** * C105 *)
(** Decryption notices nothing of this kind: a ciphertext that decrypts, with any
    other header and with the carrier replaced with any bytes of the same length, is
    decrypted without error to the plaintext with the same bits flipped. *)
Theorem C105_altered_refuted : forall E s mpk kid w c' ed ed' p, lawful E ->
  snd (decrypt E s mpk kid w) = Ok (0, p) -> body (w_ct E w) = Some (Some (OBytes ed)) -> len ed < 2147483616 ->
  same_but_body (w_ct E w) c' -> body c' = Some (Some (OBytes ed')) -> length ed' = length ed ->
  exists p', snd (decrypt E s mpk kid (set_ct E w c')) = Ok (0, p') /\ length p' = length p /\
    forall i x y z, nth_error p i = Some x -> nth_error ed i = Some y -> nth_error ed' i = Some z -> nth_error p' i = Some (z2b (Z.lxor (b2z x) (Z.lxor (b2z y) (b2z z)))).
Proof.
  intros E s mpk kid w c' ed ed' p HE H B Hl S B' Hl'.
  assert (alike E (Some (Some (OBytes ed))) (Some (Some (OBytes ed'))) (set_sym E w []) (set_sym E (set_ct E w c') [])) as A by (repeat split; auto).
  destruct (blind_kem E s mpk kid 32 _ _ _ _ A) as [R A'].
  unfold decrypt, decrypt_body in *. erewrite andthen_ok in H by reflexivity. erewrite andthen_ok by reflexivity. 
  destruct (decrypt_kem E s mpk kid 32 (set_sym E w [])) as [w1 r] eqn:E1. destruct (decrypt_kem E s mpk kid 32 (set_sym E (set_ct E w c') [])) as [w2 r2] eqn:E2. cbn [fst snd] in R, A'. subst r2.
  destruct r as [z|[|e|]| | |]; try (unfold andthen in H; rewrite E1 in H; discriminate).
  - erewrite andthen_ok in H by exact E1. erewrite andthen_ok by exact E2. destruct (Z.eqb_spec z 0) as [->|N]; cbn [negb] in *; [|cbn in H; injection H; congruence].
    destruct A' as (_ & _ & Y & _ & B1 & B2). erewrite andthen_ok in H by (apply ct_part_ok; exact B1). erewrite andthen_ok by (apply ct_part_ok; exact B2). cbn [as_bytes] in *.
    erewrite andthen_ok in H by apply assert_ok. erewrite andthen_ok by apply assert_ok. erewrite andthen_ok in H by reflexivity. erewrite andthen_ok by reflexivity. rewrite <- Y.
    assert (len ed' = len ed) as El by (unfold len; rewrite Hl'; reflexivity). rewrite El.
    destruct (mask_ok E (w_sym E w1) ed HE Hl) as (pad & b & M & X & _). rewrite M in *. erewrite andthen_ok in H by apply lift_ok. erewrite andthen_ok by apply lift_ok. rewrite X in H. cbn in H. injection H as <-.
    destruct (mask_ok E (w_sym E w1) ed' HE ltac:(lia)) as (pad' & b' & M' & X' & _). rewrite El, M in M'. injection M' as <-. rewrite X'. exists b'. cbn.
    assert (length pad = length ed) as Lp by (rewrite (mask_length E _ _ _ HE (conj (len_nonneg ed) Hl) M); unfold len; apply Nat2Z.id).
    destruct (xor_xored _ _ _ Lp X) as (L1 & L2 & Q). destruct (xor_xored _ _ _ (eq_trans Lp (eq_sym Hl')) X') as (L1' & L2' & Q').
    split; [reflexivity|]. split; [congruence|]. intros i x y z Hx Hy Hz.
    assert (exists k, nth_error pad i = Some k) as [k Hk]. { destruct (nth_error pad i) eqn:En; [eauto|]. apply nth_error_None in En. assert (nth_error ed i <> None) as V by congruence. apply nth_error_Some in V. lia. }
    rewrite (Q i y k Hy Hk) in Hx. injection Hx as <-. rewrite (Q' i z k Hz Hk). rewrite z2b_small by (apply lxor_byte_range; apply b2z_range). f_equal. f_equal.
    rewrite (Z.lxor_comm (b2z y) (b2z k)), Z.lxor_assoc, <- (Z.lxor_assoc (b2z y)), Z.lxor_nilpotent, Z.lxor_0_l. apply Z.lxor_comm.
  - exfalso. destruct s; exact (catch_never E _ _ _ _ E1).
Qed.
Print Assumptions C105_altered_refuted.
(** A ciphertext of "hello", as sent and with a byte changed, both schemes. *)
Definition key_input sch := match sch with CP => InAttrs (parsed_list (L "c|age=17#8|d")) | KP => InPolicy (parsed_policy ex_text) end.
Definition ct_input sch := match sch with CP => InPolicy (parsed_policy ex_text) | KP => InAttrs (parsed_list (L "c|age=17#8|d")) end.
Definition at_reader sch : world toy_engine := let sent := w_enc toy_engine sch (key_input sch) (ct_input sch) (L "hello") in start toy_engine (left_by toy_engine (w_gone toy_engine sch (key_input sch) (ct_input sch) (L "hello"))) (w_ct toy_engine sent).
Definition with_body (c : ciphertext (e_curve toy_engine)) (b : str) := {| ct_version := 7; ct_alg := 9; ct_uid := L "nobody"; ct_parts := mset carrier (Some (OBytes b)) (ct_parts c) |}.
Example C105_nonvacuous : forall sch, exists ed ed', lawful toy_engine /\
  snd (decrypt toy_engine sch [] (L "alice") (at_reader sch)) = Ok (0, L "hello") /\ body (w_ct toy_engine (at_reader sch)) = Some (Some (OBytes ed)) /\ len ed = 5 /\
  let c' := with_body (w_ct toy_engine (at_reader sch)) ed' in
  same_but_body (w_ct toy_engine (at_reader sch)) c' /\ body c' = Some (Some (OBytes ed')) /\ length ed' = length ed /\
  snd (decrypt toy_engine sch [] (L "alice") (set_ct toy_engine (at_reader sch) c')) = Ok (0, L "jello").
Proof.
  intro sch. set (ed := match body (w_ct toy_engine (at_reader sch)) with Some (Some (OBytes ed)) => ed | _ => [] end).
  set (ed' := match ed with [] => [] | c :: t => z2b (Z.lxor (b2z c) 2) :: t end).
  exists ed, ed'. split; [apply toy_lawful|].
  split; [destruct sch; vm_compute; reflexivity|]. split; [destruct sch; vm_compute; reflexivity|]. split; [destruct sch; vm_compute; reflexivity|].
  split; [intros name N; cbn; rewrite mget_mset_other by exact N; reflexivity|]. split; [unfold body; cbn; rewrite mget_mset_same; reflexivity|].
  split; [destruct sch; vm_compute; reflexivity|destruct sch; vm_compute; reflexivity].
Qed.
Example C104_nonvacuous : forall sch, let w := w_gone toy_engine sch (key_input sch) (ct_input sch) (L "hello") in
  snd (encrypt toy_engine sch (L "mpk") (ct_input sch) (L "hello") w) = Ok 0 /\ snd (encrypt toy_engine sch (L "mpk") (ct_input sch) (L "HELLO") w) = Ok 0.
Proof. intros []; split; vm_compute; reflexivity. Qed.
