(** Keys that stay exactly as they are: a public key under every call that does
    not replace it, an issued key under every call that neither replaces it nor
    uses it as a master key. *)
From Verif Require Import Base StrMap ByteString ByteStringProofs UInteger Field FieldProofs Policy Driver Parser AttrList Utils Kdf KdfProofs Lsss LsssSpec LsssRecover LsssFinal SchemeRows Container ContainerSpec ContainerProofs Keystore Scheme SchemeSpec SchemeStep SchemeCp SchemeKp SchemeFrame SchemeUse SchemeFirm.
From Coq Require Import ZArith Znumtheory List Ascii Bool Lia Permutation.
Import ListNotations.
Open Scope Z_scope.

Section Keep.
Context (E : engine) (HE : lawful E) (sch : scheme).
Notation K := (e_curve E).
Notation code := (code E).

Section One.
Context (c : key_class) (id : str) (k : key K).
Definition keeps {A} (m : code A) : Prop := forall w, holds E c id k w -> holds E c id k (fst (m w)).
Lemma keeps_andthen : forall A B (m : code A) (f : A -> code B), keeps m -> (forall a, keeps (f a)) -> keeps (andthen E m f).
Proof. intros A B m f Hm Hf w H. unfold andthen. specialize (Hm w H). destruct (m w) as [w' r]. cbn [fst] in Hm. destruct r; cbn [fst]; try exact Hm. apply Hf. exact Hm. Qed.
Lemma keeps_still : forall A (m : code A), (forall w, w_store E (fst (m w)) = w_store E w) -> keeps m.
Proof. intros A m H w Hw. unfold holds in *. rewrite H. exact Hw. Qed.
Lemma keeps_catch : forall m, keeps m -> keeps (catch_code E m).
Proof. intros m H w Hw. specialize (H w Hw). unfold catch_code. destruct (m w) as [w' r]. destruct r as [a|e| | |]; try exact H. destruct e; exact H. Qed.
Lemma keeps_ret : forall A (a : A), keeps (ret E a).
Proof. intros. apply keeps_still. reflexivity. Qed.
Lemma keeps_throw : forall A e, keeps (throw E (A:=A) e).
Proof. intros. apply keeps_still. reflexivity. Qed.
Lemma keeps_deref : forall A (o : option A), keeps (deref E o).
Proof. intros A [a|]; apply keeps_still; reflexivity. Qed.
Lemma keeps_assert : forall A (o : option A), keeps (assert_notnull E o).
Proof. intros A [a|]; apply keeps_still; reflexivity. Qed.
Lemma keeps_lift : forall A (r : res A), keeps (lift E r).
Proof. intros A r. apply keeps_still. reflexivity. Qed.
Lemma keeps_tick : forall A (f : nat -> A), keeps (tick E f).
Proof. intros A f. apply keeps_still. reflexivity. Qed.
Lemma keeps_share : forall q s, keeps (share E q s).
Proof. intros q s. apply keeps_still. intro w. unfold share. destruct (share_secret _ _ _ _ _ _ _) as [[o off]| | | |]; reflexivity. Qed.
Lemma keeps_set_part : forall n o, keeps (set_part E n o).
Proof. intros. apply keeps_still. reflexivity. Qed.
Lemma keeps_set_scheme : forall n, keeps (set_scheme E n).
Proof. intros. apply keeps_still. reflexivity. Qed.
Lemma keeps_fresh : keeps (fresh_sym E).
Proof. apply keeps_still. reflexivity. Qed.
Lemma keeps_bytes : keeps (sym_bytes E).
Proof. apply keeps_still. reflexivity. Qed.
Lemma keeps_ct_component : forall n, keeps (ct_component E n).
Proof. intro n. apply keeps_still. intro w. unfold ct_component. destruct (get_component _ _). reflexivity. Qed.
Lemma keeps_hash_to_sym : forall x n, keeps (hash_to_sym E x n).
Proof. intros x n. apply keeps_andthen; [apply keeps_lift|]. intro key. destruct (_ && _); [apply keeps_throw|apply keeps_still; reflexivity]. Qed.

Lemma public_kept : forall (s : store (key K)) n, mget id (class_map E c s) = Some (Some k) -> mget id (class_map E c (fst (get_public_key s n))) = Some (Some k).
Proof.
  intros s n H. unfold get_public_key. destruct (index (pub_keys s) n) as [m v] eqn:Ei. cbn [fst]. destruct c; cbn [class_map pub_keys sec_keys] in *; [|exact H].
  change m with (fst (m, v)). rewrite <- Ei. apply mget_index. exact H.
Qed.
Lemma secret_kept : forall (s : store (key K)) n, mget id (class_map E c s) = Some (Some k) -> mget id (class_map E c (fst (get_secret_key s n))) = Some (Some k).
Proof.
  intros s n H. unfold get_secret_key. destruct (index (sec_keys s) n) as [m v] eqn:Ei. cbn [fst]. destruct c; cbn [class_map pub_keys sec_keys] in *; [exact H|].
  change m with (fst (m, v)). rewrite <- Ei. apply mget_index. exact H.
Qed.
Lemma get_key_kept : forall (s : store (key K)) n, mget id (class_map E c s) = Some (Some k) -> mget id (class_map E c (fst (get_key s n))) = Some (Some k).
Proof.
  intros s n H. unfold get_key. pose proof (public_kept s n H) as P. destruct (get_public_key s n) as [s1 v]. cbn [fst] in P. destruct v; [exact P|]. apply secret_kept. exact P.
Qed.
Lemma keeps_public : forall n, keeps (public_key E n).
Proof. intros n w H. unfold public_key. pose proof (public_kept (w_store E w) n H) as P. destruct (get_public_key _ _). exact P. Qed.
Lemma keeps_secret : forall n, keeps (secret_key E n).
Proof. intros n w H. unfold secret_key. pose proof (secret_kept (w_store E w) n H) as P. destruct (get_secret_key _ _). exact P. Qed.
Lemma keeps_key_component : forall c' i n, (c' = c -> i = id -> exists o, part E (k_parts k) n o) -> keeps (key_component E c' i n).
Proof.
  intros c' i n Hn w H. unfold key_component. destruct (mget i (class_map E c' (w_store E w))) as [[k0|]|] eqn:Ei; try exact H.
  destruct (get_component (k_parts k0) n) as [p r] eqn:Eg. cbn [fst]. unfold holds in *. cbn [w_store set_store].
  destruct (str_eq_dec i id) as [->|N].
  - assert (c' = c \/ c' <> c) as [->|Nc] by (destruct c', c; auto; right; discriminate).
    + rewrite H in Ei. injection Ei as <-. destruct (Hn eq_refl eq_refl) as (o & Ho). rewrite (get_present _ _ _ _ Ho) in Eg. injection Eg as <- _.
      rewrite with_parts_same, change_same by exact H. exact H.
    + destruct c', c; try congruence; exact H.
  - destruct c', c; cbn [class_map change_object pub_keys sec_keys] in *; try exact H; rewrite put_object_other by congruence; exact H.
Qed.
Lemma keeps_put : forall i k' c', (c' <> c \/ i <> id) -> keeps (put_key E i k' c').
Proof.
  intros i k' c' N w H. unfold put_key, holds in *. cbn [fst w_store set_store].
  destruct c', c; cbn [class_map add_key pub_keys sec_keys] in *; try exact H; (rewrite mget_mset_other; [exact H|]; intro X; destruct N as [N|N]; congruence).
Qed.
Ltac keep := repeat first [apply keeps_catch | apply keeps_andthen; [|intro] | apply keeps_ret | apply keeps_throw | apply keeps_deref | apply keeps_assert | apply keeps_lift | apply keeps_tick |
  apply keeps_share | apply keeps_set_part | apply keeps_set_scheme | apply keeps_fresh | apply keeps_bytes | apply keeps_ct_component | apply keeps_public | apply keeps_secret |
  apply keeps_key_component | apply keeps_hash_to_sym | progress unfold key_part, ct_part, random_zp, random_g1, random_g2, random_bytes, make_key
  | match goal with |- keeps (match ?x with _ => _ end) => destruct x end | match goal with |- keeps (if ?x then _ else _) => destruct x end].

(** The names looked up in public keys. *)
Definition pub_names : list str := match sch with CP => [L "g1"; L "g2"; L "g1a"; L "A"; L "k"] | KP => [L "g1"; L "g2"; L "Y"; L "k"] end.
Context (Hpub : c = KEY_PUBLIC -> forall n, In n pub_names -> exists o, part E (k_parts k) n o).
Ltac names := first [assumption | let X := fresh in intro X; first [discriminate X|intros _; apply Hpub; [congruence|unfold pub_names; cbn [In]; tauto]|intro; congruence|idtac]].
(** Does [r] use the key as a master key? *)
Lemma keeps_keygen : forall inp i mpk msk, (c = KEY_SECRET -> i <> id /\ msk <> id) -> keeps (keygen E sch inp i mpk msk).
Proof.
  intros inp i mpk msk N. assert (forall k', keeps (put_key E i k' KEY_SECRET)) as Hp by (intro k'; apply keeps_put; destruct c; [left; discriminate|right; apply N; reflexivity]).
  assert (forall n, keeps (key_component E KEY_SECRET msk n)) as Hm by (intro n; apply keeps_key_component; intros X Y; destruct (N (eq_sym X)) as [_ N2]; congruence).
  unfold pub_names in Hpub. destruct sch; cbn [keygen].
  - assert (forall k t l dec, keeps (cp_key_loop E k t l dec)) as Hl by (intros k' t l; induction l as [|a l IH]; intro dec; cbn [cp_key_loop]; keep; apply IH).
    unfold cp_keygen. keep; first [apply Hl|apply Hp|intros; exfalso; apply N; congruence|intros X _; apply Hpub; [congruence|cbn [In]; tauto]].
  - assert (forall k rows dec, keeps (kp_key_loop E mpk k rows dec)) as Hl.
    { intros k' rows. induction rows as [|[u [lab e]] rows IH]; intro dec; cbn [kp_key_loop]; keep; first [apply IH|intros X _; apply Hpub; [congruence|cbn [In]; tauto]]. }
    unfold kp_keygen. keep; first [apply Hl|apply Hp|intros; exfalso; apply N; congruence|intros X _; apply Hpub; [congruence|cbn [In]; tauto]].
Qed.
Lemma keeps_encrypt : forall mpk inp pt, keeps (encrypt E sch mpk inp pt).
Proof.
  intros mpk inp pt. unfold pub_names in Hpub. unfold encrypt. destruct sch; cbn [encrypt_kem].
  - assert (forall k rows, keeps (cp_enc_loop E mpk k rows)) as Hl.
    { intros k' rows. induction rows as [|[u [lab e]] rows IH]; cbn [cp_enc_loop]; keep; first [apply IH|intros X _; apply Hpub; [congruence|cbn [In]; tauto]]. }
    unfold cp_encrypt_kem. keep; first [apply Hl|intros X _; apply Hpub; [congruence|cbn [In]; tauto]].
  - assert (forall k t l, keeps (kp_enc_loop E k t l)) as Hl by (intros k' t l; induction l as [|a l IH]; cbn [kp_enc_loop]; keep; apply IH).
    unfold kp_encrypt_kem. keep; first [apply Hl|intros X _; apply Hpub; [congruence|cbn [In]; tauto]].
Qed.
(** Decrypting with another key, or with this one when it is an issued key. *)
Context (Hsec : c = KEY_SECRET -> ready E sch (k_parts k)).
Lemma keeps_decrypt : forall mpk i, keeps (decrypt E sch mpk i).
Proof.
  intros mpk i. assert ((KEY_SECRET = c /\ i = id) \/ (KEY_SECRET = c -> i <> id)) as [[Hc ->]|N].
  { destruct (str_eq_dec i id) as [->|N]; [destruct c; [right; discriminate|left; auto]|right; intros _; exact N]. }
  - intros w H. unfold holds in *. rewrite <- Hc in *. rewrite (decrypt_still E HE sch mpk id k w H) by (apply Hsec; reflexivity). exact H.
  - assert (forall n, keeps (key_component E KEY_SECRET i n)) as Hm by (intro n; apply keeps_key_component; intros X Y; destruct (N X Y)).
    assert (keeps (decrypt_body E sch mpk i)) as Hb.
    { unfold decrypt_body. destruct sch; cbn [decrypt_kem].
      - assert (forall rows a b d, keeps (cp_dec_loop E i rows a b d)) as Hl by (intros rows; induction rows as [|[u [lab e]] rows IH]; intros; cbn [cp_dec_loop]; keep; first [apply IH|intros X Y; destruct (N X Y)]).
        unfold cp_decrypt_kem. keep; first [apply Hl|intros X Y; destruct (N X Y)].
      - assert (forall rows a b d, keeps (kp_dec_loop E i rows a b d)) as Hl by (intros rows; induction rows as [|[u [lab e]] rows IH]; intros; cbn [kp_dec_loop]; keep; first [apply IH|intros X Y; destruct (N X Y)]).
        unfold kp_decrypt_kem. keep; first [apply Hl|intros X Y; destruct (N X Y)]. }
    intros w H. specialize (Hb w H). unfold decrypt. destruct (decrypt_body E sch mpk i w) as [w' r]. destruct r as [a|e| | |]; try exact Hb. destruct e; exact Hb.
Qed.
Lemma keeps_hash_key : forall mpk, keeps (get_hash_key E mpk).
Proof. intro mpk. unfold get_hash_key. keep. intros X _. apply Hpub; [congruence|]. unfold pub_names. destruct sch; cbn [In]; tauto. Qed.
Lemma keeps_export : forall i out, keeps (export_key E i out).
Proof. intros i out w H. unfold export_key. pose proof (get_key_kept (w_store E w) i H) as P. destruct (get_key _ _). exact P. Qed.
Lemma keeps_load : forall i blob c', (c' = c -> i <> id) -> keeps (load_key E sch i blob c').
Proof.
  intros i blob c' N. assert (forall k', keeps (put_key E i k' c')) as Hp by (intro k'; apply keeps_put; destruct c, c'; first [left; discriminate|right; auto]).
  unfold load_key. keep; apply Hp.
Qed.
Lemma keeps_drop : forall i, i <> id -> keeps (drop_key E i).
Proof.
  intros i N w H. unfold drop_key, delete_key. pose proof (get_key_kept (w_store E w) i H) as P. destruct (get_key (w_store E w) i) as [s1 v]. cbn [fst] in P. unfold holds in *. destruct v; cbn [fst w_store set_store]; [|exact P].
  destruct c; cbn [class_map pub_keys sec_keys] in *; match goal with |- context [if ?b then _ else _] => destruct b end; try exact P; rewrite mget_mdel_other; auto.
Qed.
Lemma keeps_generate : forall mpk msk, keeps (generate_params E sch mpk msk).
Proof.
  intros mpk msk w H. destruct (both_new_ok E mpk msk w) as (w1 & b & Eb).
  assert (keeps (both_new E mpk msk)) as F.
  { assert (forall n, keeps (is_new_id E n)) as Hi by (intros n w0 H0; unfold is_new_id, validate_new_params_id; pose proof (get_key_kept (w_store E w0) n H0) as P; destruct (get_key _ _); exact P).
    unfold both_new. apply keeps_andthen; [apply Hi|]. intros [|]; [apply Hi|apply keeps_ret]. }
  specialize (F w H). rewrite Eb in F. cbn [fst] in F. destruct b.
  - destruct (both_new_free E mpk msk w w1 Eb c k id H) as [N1 N2].
    assert (exists kp ks off, generate_params E sch mpk msk w = (set_off E (set_store E w1 (add_key (add_key (w_store E w1) mpk (Some kp) KEY_PUBLIC) msk (Some ks) KEY_SECRET)) off, Ok 0)) as (kp & ks & off & ->).
    { destruct sch; cbn [generate_params]; [destruct (cp_generate_runs E HE mpk msk w w1 Eb) as (P & kp & ks & off & X & _)|destruct (kp_generate_runs E HE mpk msk w w1 Eb) as (P & kp & ks & off & X & _)]; eauto. }
    unfold holds in *. cbn [fst w_store set_off set_store]. destruct c; cbn [class_map add_key pub_keys sec_keys] in *; rewrite mget_mset_other by assumption; exact F.
  - destruct sch; cbn [generate_params]; unfold cp_generate_params, kp_generate_params, catch_code; erewrite andthen_ok by exact Eb; exact F.
Qed.
(** The calls of a history that keep it. *)
Definition gentle (r : request E) : Prop := ~ replaces E c id r /\ (c = KEY_SECRET -> match r with RKeygen _ _ _ _ msk => msk <> id | _ => True end).
Lemma call_keeps : forall A (m : code A) ct x y, keeps m -> call E m ct x y -> has E c id k (fst x) -> has E c id k (fst y).
Proof. intros A m ct x y F (w & r & Em & _ & ->) H. specialize (F (start E x ct) H). rewrite Em in F. exact F. Qed.
Lemma served_keeps : forall r x y, served E sch r x y -> gentle r -> has E c id k (fst x) -> has E c id k (fst y).
Proof.
  intros r x y H [N G]. destruct r; cbn [served replaces] in *; (eapply call_keeps; [|exact H]).
  - apply keeps_generate.
  - apply keeps_keygen. intro X. split; [intros ->; apply N; auto|auto].
  - apply keeps_encrypt.
  - apply keeps_decrypt.
  - apply keeps_export.
  - apply keeps_load. intros -> ->. apply N. auto.
  - apply keeps_drop. exact N.
  - apply keeps_still. reflexivity.
  - apply keeps_hash_key.
Qed.
Lemma history_keeps : forall h x y, history E sch h x y -> (forall r, In r h -> gentle r) -> has E c id k (fst x) -> has E c id k (fst y).
Proof.
  intros h x y H. induction H as [x|r h x y z H1 H2 IH]; intros N Hk; [exact Hk|]. apply IH; [intros r' I; apply N; right; exact I|]. eapply served_keeps; [exact H1|apply N; left; reflexivity|exact Hk].
Qed.
End One.
End Keep.
