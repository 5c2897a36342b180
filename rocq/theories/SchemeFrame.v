(** What a history of calls leaves alone: a held key keeps its header and its
    components until a call replaces it. *)
From Verif Require Import Base StrMap ByteString ByteStringProofs UInteger Field FieldProofs Policy Driver Parser AttrList Utils Kdf KdfProofs Lsss LsssSpec LsssRecover LsssFinal SchemeRows Container ContainerProofs Keystore Scheme SchemeSpec SchemeStep SchemeCp SchemeKp.
From Coq Require Import ZArith Znumtheory List Ascii Bool Lia Permutation.
Import ListNotations.
Open Scope Z_scope.

Section Frame.
Context (E : engine).
Notation K := (e_curve E).
Notation code := (code E).
Notation keystore := (store (key K)).

(** The same key, apart from names that were looked up in vain. *)
Definition same_key (k k' : key K) : Prop :=
  k_version k' = k_version k /\ k_alg k' = k_alg k /\ k_uid k' = k_uid k /\ k_id k' = k_id k /\ k_type k' = k_type k /\
  forall name o, part E (k_parts k') name o <-> part E (k_parts k) name o.
Definition has (c : key_class) (id : str) (k : key K) (s : keystore) : Prop := mget id (class_map E c s) = Some (Some k).
Definition steady (c : key_class) (id : str) (s s' : keystore) : Prop := forall k, has c id k s -> exists k', has c id k' s' /\ same_key k k'.

Lemma same_key_refl : forall k, same_key k k.
Proof. intro k. repeat split; auto. Qed.
Lemma same_key_trans : forall a b c, same_key a b -> same_key b c -> same_key a c.
Proof.
  intros a b c (A1 & A2 & A3 & A4 & A5 & A6) (B1 & B2 & B3 & B4 & B5 & B6). repeat split; try congruence; intro H.
  - apply A6, B6, H.
  - apply B6, A6, H.
Qed.
Lemma steady_refl : forall c id s, steady c id s s.
Proof. intros c id s k H. exists k. split; [exact H|apply same_key_refl]. Qed.
Lemma steady_trans : forall c id a b d, steady c id a b -> steady c id b d -> steady c id a d.
Proof.
  intros c id a b d H G k Hk. destruct (H k Hk) as (k' & H1 & H2). destruct (G k' H1) as (k2 & H3 & H4). exists k2. split; [exact H3|]. eapply same_key_trans; eassumption.
Qed.

Section One.
Context (c : key_class) (id : str).
Definition frames {A} (m : code A) : Prop := forall w, steady c id (w_store E w) (w_store E (fst (m w))).
Lemma frames_andthen : forall A B (m : code A) (f : A -> code B), frames m -> (forall a, frames (f a)) -> frames (andthen E m f).
Proof.
  intros A B m f Hm Hf w. unfold andthen. specialize (Hm w). destruct (m w) as [w' r]. cbn [fst] in Hm. destruct r; cbn [fst]; try exact Hm. eapply steady_trans; [exact Hm|apply Hf].
Qed.
Lemma frames_still : forall A (m : code A), (forall w, w_store E (fst (m w)) = w_store E w) -> frames m.
Proof. intros A m H w. rewrite H. apply steady_refl. Qed.
Lemma frames_catch : forall m, frames m -> frames (catch_code E m).
Proof. intros m H w. specialize (H w). unfold catch_code. destruct (m w) as [w' r]. destruct r as [a|e| | |]; try exact H. destruct e; exact H. Qed.
Lemma frames_ret : forall A (a : A), frames (ret E a).
Proof. intros. apply frames_still. reflexivity. Qed.
Lemma frames_throw : forall A e, frames (throw E (A:=A) e).
Proof. intros. apply frames_still. reflexivity. Qed.
Lemma frames_deref : forall A (o : option A), frames (deref E o).
Proof. intros A [a|]; apply frames_still; reflexivity. Qed.
Lemma frames_assert : forall A (o : option A), frames (assert_notnull E o).
Proof. intros A [a|]; apply frames_still; reflexivity. Qed.
Lemma frames_lift : forall A (r : res A), frames (lift E r).
Proof. intros A r. apply frames_still. reflexivity. Qed.
Lemma frames_tick : forall A (f : nat -> A), frames (tick E f).
Proof. intros A f. apply frames_still. reflexivity. Qed.
Lemma frames_share : forall q s, frames (share E q s).
Proof. intros q s. apply frames_still. intro w. unfold share. destruct (share_secret _ _ _ _ _ _ _) as [[o off]| | | |]; reflexivity. Qed.
Lemma frames_set_part : forall n o, frames (set_part E n o).
Proof. intros. apply frames_still. reflexivity. Qed.
Lemma frames_set_scheme : forall n, frames (set_scheme E n).
Proof. intros. apply frames_still. reflexivity. Qed.
Lemma frames_fresh : frames (fresh_sym E).
Proof. apply frames_still. reflexivity. Qed.
Lemma frames_bytes : frames (sym_bytes E).
Proof. apply frames_still. reflexivity. Qed.
Lemma frames_ct_component : forall n, frames (ct_component E n).
Proof. intro n. apply frames_still. intro w. unfold ct_component. destruct (get_component _ _). reflexivity. Qed.

Lemma mget_index : forall (m : smap (option (key K))) n i k, mget i m = Some (Some k) -> mget i (fst (index m n)) = Some (Some k).
Proof.
  intros m n i k H. unfold index. destruct (mget n m) as [v|] eqn:En; [exact H|]. cbn [fst]. destruct (str_eq_dec i n) as [->|N]; [congruence|]. rewrite mget_mset_other by exact N. exact H.
Qed.
Lemma public_steady : forall s n, steady c id s (fst (get_public_key s n)).
Proof.
  intros s n k H. exists k. split; [|apply same_key_refl]. unfold has in *. unfold get_public_key. destruct (index (pub_keys s) n) as [m v] eqn:Ei. cbn [fst].
  destruct c; cbn [class_map pub_keys sec_keys] in *; [|exact H]. change m with (fst (m, v)). rewrite <- Ei. apply mget_index. exact H.
Qed.
Lemma secret_steady : forall s n, steady c id s (fst (get_secret_key s n)).
Proof.
  intros s n k H. exists k. split; [|apply same_key_refl]. unfold has in *. unfold get_secret_key. destruct (index (sec_keys s) n) as [m v] eqn:Ei. cbn [fst].
  destruct c; cbn [class_map pub_keys sec_keys] in *; [exact H|]. change m with (fst (m, v)). rewrite <- Ei. apply mget_index. exact H.
Qed.
Lemma get_key_steady : forall s n, steady c id s (fst (get_key s n)).
Proof.
  intros s n. unfold get_key. pose proof (public_steady s n) as H. destruct (get_public_key s n) as [s1 v]. cbn [fst] in H. destruct v; [exact H|]. eapply steady_trans; [exact H|apply secret_steady].
Qed.
Lemma frames_public : forall n, frames (public_key E n).
Proof. intros n w. unfold public_key. pose proof (public_steady (w_store E w) n) as H. destruct (get_public_key _ _). exact H. Qed.
Lemma frames_secret : forall n, frames (secret_key E n).
Proof. intros n w. unfold secret_key. pose proof (secret_steady (w_store E w) n) as H. destruct (get_secret_key _ _). exact H. Qed.
Lemma frames_is_new : forall n, frames (is_new_id E n).
Proof.
  intros n w. unfold is_new_id, validate_new_params_id. pose proof (get_key_steady (w_store E w) n) as H. destruct (get_key _ _). exact H.
Qed.
Lemma put_object_get : forall i v m k, mget i m = Some (Some k) -> mget i (put_object E i v m) = Some (Some v).
Proof. intros i v m k. induction m as [|[j x] m IH]; intro H; [discriminate|]. cbn [mget put_object] in *. destruct (str_eqb i j) eqn:Eq; cbn [mget]; rewrite Eq; [reflexivity|auto]. Qed.
Lemma put_object_other : forall i j v m, j <> i -> mget j (put_object E i v m) = mget j m.
Proof.
  intros i j v m N. induction m as [|[l x] m IH]; [reflexivity|]. cbn [put_object]. destruct (str_eqb i l) eqn:Eq; cbn [mget]; [|rewrite IH; reflexivity].
  apply str_eqb_eq in Eq. subst l. replace (str_eqb j i) with false; [reflexivity|]. symmetry. destruct (str_eqb j i) eqn:X; [apply str_eqb_eq in X; contradiction|reflexivity].
Qed.
Lemma component_same : forall k n, same_key k (with_key_parts E k (fst (get_component (k_parts k) n))).
Proof.
  intros k n. repeat split; cbn [k_parts with_key_parts]; unfold part.
  - destruct (mget n (k_parts k)) as [[v|]|] eqn:En; [rewrite (get_present _ _ _ _ En)|rewrite (get_null _ _ _ En)|rewrite (get_missing _ _ _ En)]; cbn [fst]; auto.
    intro H. destruct (str_eq_dec name n) as [->|N]; [rewrite mget_mset_same in H; discriminate|rewrite mget_mset_other in H by exact N; exact H].
  - destruct (mget n (k_parts k)) as [[v|]|] eqn:En; [rewrite (get_present _ _ _ _ En)|rewrite (get_null _ _ _ En)|rewrite (get_missing _ _ _ En)]; cbn [fst]; auto.
    intro H. destruct (str_eq_dec name n) as [->|N]; [congruence|]. rewrite mget_mset_other by exact N. exact H.
Qed.
Lemma frames_key_component : forall c' i n, frames (key_component E c' i n).
Proof.
  intros c' i n w k H. unfold key_component. destruct (mget i (class_map E c' (w_store E w))) as [[k0|]|] eqn:Ei; try (exists k; split; [exact H|apply same_key_refl]).
  pose proof (component_same k0 n) as Hs. destruct (get_component (k_parts k0) n) as [p r]. cbn [fst] in *. cbn [set_store w_store].
  unfold has in *.
  destruct c', c; cbn [class_map change_object pub_keys sec_keys] in *; try (exists k; split; [exact H|apply same_key_refl]);
    (destruct (str_eq_dec id i) as [->|N]; [exists (with_key_parts E k0 p); split; [eapply put_object_get; exact Ei|congruence]|exists k; split; [rewrite put_object_other by exact N; exact H|apply same_key_refl]]).
Qed.
Lemma frames_put : forall i k c', (c' <> c \/ i <> id) -> frames (put_key E i k c').
Proof.
  intros i k c' N w k0 H. exists k0. split; [|apply same_key_refl]. unfold put_key. cbn [fst w_store set_store]. unfold has in *.
  destruct c', c; cbn [class_map add_key pub_keys sec_keys] in *; try exact H; (rewrite mget_mset_other; [exact H|]; intro X; destruct N as [N|N]; congruence).
Qed.
Lemma frames_hash_to_sym : forall x n, frames (hash_to_sym E x n).
Proof.
  intros x n. apply frames_andthen; [apply frames_lift|]. intro key. destruct (_ && _); [apply frames_throw|apply frames_still; reflexivity].
Qed.

Ltac frame := repeat first [apply frames_catch | apply frames_andthen; [|intro] | apply frames_ret | apply frames_throw | apply frames_deref | apply frames_assert | apply frames_lift | apply frames_tick |
  apply frames_share | apply frames_set_part | apply frames_set_scheme | apply frames_fresh | apply frames_bytes | apply frames_ct_component | apply frames_public | apply frames_secret | apply frames_is_new |
  apply frames_key_component | apply frames_hash_to_sym | progress unfold key_part, ct_part, random_zp, random_g1, random_g2, random_bytes, make_key, both_new
  | match goal with |- frames (match ?x with _ => _ end) => destruct x end | match goal with |- frames (if ?x then _ else _) => destruct x end].

Lemma frames_cp_key_loop : forall k t l dec, frames (cp_key_loop E k t l dec).
Proof. intros k t l. induction l as [|a l IH]; intro dec; cbn [cp_key_loop]; frame. apply IH. Qed.
Lemma frames_cp_enc_loop : forall m k rows, frames (cp_enc_loop E m k rows).
Proof. intros m k rows. induction rows as [|[u [lab e]] rows IH]; cbn [cp_enc_loop]; frame. exact IH. Qed.
Lemma frames_cp_dec_loop : forall i rows a b d, frames (cp_dec_loop E i rows a b d).
Proof. intros i rows. induction rows as [|[u [lab e]] rows IH]; intros; cbn [cp_dec_loop]; frame. apply IH. Qed.
Lemma frames_kp_key_loop : forall m k rows dec, frames (kp_key_loop E m k rows dec).
Proof. intros m k rows. induction rows as [|[u [lab e]] rows IH]; intro dec; cbn [kp_key_loop]; frame. apply IH. Qed.
Lemma frames_kp_enc_loop : forall k t l, frames (kp_enc_loop E k t l).
Proof. intros k t l. induction l as [|a l IH]; cbn [kp_enc_loop]; frame. exact IH. Qed.
Lemma frames_kp_dec_loop : forall i rows a b d, frames (kp_dec_loop E i rows a b d).
Proof. intros i rows. induction rows as [|[u [lab e]] rows IH]; intros; cbn [kp_dec_loop]; frame. apply IH. Qed.

Lemma frames_keygen : forall s inp i mpk msk, (c = KEY_SECRET -> i <> id) -> frames (keygen E s inp i mpk msk).
Proof.
  intros s inp i mpk msk N. assert (forall k, frames (put_key E i k KEY_SECRET)) as Hp.
  { intro k. apply frames_put. destruct c; [left; discriminate|right; auto]. }
  destruct s; cbn [keygen]; unfold cp_keygen, kp_keygen; frame; first [apply frames_cp_key_loop|apply frames_kp_key_loop|apply Hp].
Qed.
Lemma frames_encrypt : forall s mpk inp p, frames (encrypt E s mpk inp p).
Proof. intros s mpk inp p. unfold encrypt. destruct s; cbn [encrypt_kem]; unfold cp_encrypt_kem, kp_encrypt_kem; frame; first [apply frames_cp_enc_loop|apply frames_kp_enc_loop]. Qed.
Lemma frames_decrypt : forall s mpk i, frames (decrypt E s mpk i).
Proof.
  intros s mpk i. assert (frames (decrypt_body E s mpk i)) as H.
  { unfold decrypt_body. destruct s; cbn [decrypt_kem]; unfold cp_decrypt_kem, kp_decrypt_kem; frame; first [apply frames_cp_dec_loop|apply frames_kp_dec_loop]. }
  intro w. specialize (H w). unfold decrypt. destruct (decrypt_body E s mpk i w) as [w' r]. destruct r as [a|e| | |]; try exact H. destruct e; exact H.
Qed.
Lemma frames_hash_key : forall mpk, frames (get_hash_key E mpk).
Proof. intro mpk. unfold get_hash_key. frame. Qed.
Lemma frames_export : forall i out, frames (export_key E i out).
Proof. intros i out w. unfold export_key. pose proof (get_key_steady (w_store E w) i) as H. destruct (get_key _ _). exact H. Qed.
Lemma frames_load : forall s i blob c', (c' = c -> i <> id) -> frames (load_key E s i blob c').
Proof.
  intros s i blob c' N. assert (forall k, frames (put_key E i k c')) as Hp.
  { intro k. apply frames_put. destruct c, c'; first [left; discriminate|right; auto]. }
  unfold load_key. frame; apply Hp.
Qed.
Lemma frames_drop : forall i, i <> id -> frames (drop_key E i).
Proof.
  intros i N w k H. unfold drop_key. unfold delete_key. pose proof (get_key_steady (w_store E w) i k H) as (k' & H1 & H2).
  destruct (get_key (w_store E w) i) as [s1 v]. cbn [fst] in H1. exists k'. split; [|exact H2]. destruct v; cbn [fst w_store set_store]; [|exact H1].
  unfold has in *. destruct c; cbn [class_map pub_keys sec_keys] in *; match goal with |- context [if ?b then _ else _] => destruct b end; try exact H1; rewrite mget_mdel_other; auto.
Qed.
Lemma frames_check : forall i, frames (has_secret_key E i).
Proof. intro i. apply frames_still. reflexivity. Qed.
End One.

(** ** generateParams *)
Lemma get_key_none : forall (s : keystore) n s1, get_key s n = (s1, None) -> forall c k, ~ has c n k s.
Proof.
  intros s n s1 H c k Hk. unfold get_key, get_public_key, get_secret_key, index in H. unfold has in Hk. destruct c; cbn [class_map] in Hk.
  - rewrite Hk in H. discriminate.
  - destruct (mget n (pub_keys s)) as [[v|]|]; cbn [sec_keys] in H; try discriminate; rewrite Hk in H; discriminate.
Qed.
Lemma both_new_free : forall mpk msk w w1, both_new E mpk msk w = (w1, Ok true) -> forall c k i, has c i k (w_store E w) -> i <> mpk /\ i <> msk.
Proof.
  intros mpk msk w w1 H c k i Hk. unfold both_new, andthen, is_new_id, validate_new_params_id in H.
  destruct (get_key (w_store E w) mpk) as [s1 v] eqn:E1. destruct v; [discriminate|]. cbn [w_store set_store] in H.
  destruct (get_key s1 msk) as [s2 v2] eqn:E2. destruct v2; [discriminate|].
  split; intros ->.
  - exact (get_key_none _ _ _ E1 c k Hk).
  - pose proof (get_key_steady c msk (w_store E w) mpk k Hk) as (k' & H1 & _). rewrite E1 in H1. exact (get_key_none _ _ _ E2 c k' H1).
Qed.
Lemma frames_generate : forall c i (HE : lawful E) s mpk msk, frames c i (generate_params E s mpk msk).
Proof.
  intros c i HE s mpk msk w. destruct (both_new_ok E mpk msk w) as (w1 & b & Eb).
  assert (steady c i (w_store E w) (w_store E w1)) as Hs.
  { assert (frames c i (both_new E mpk msk)) as F by (unfold both_new; apply frames_andthen; [apply frames_is_new|intros [|]; [apply frames_is_new|apply frames_ret]]). specialize (F w). rewrite Eb in F. exact F. }
  destruct b.
  - intros k Hk. destruct (both_new_free mpk msk w w1 Eb c k i Hk) as [N1 N2]. destruct (Hs k Hk) as (k' & H1 & H2). exists k'. split; [|exact H2].
    assert (exists kp ks off, generate_params E s mpk msk w = (set_off E (set_store E w1 (add_key (add_key (w_store E w1) mpk (Some kp) KEY_PUBLIC) msk (Some ks) KEY_SECRET)) off, Ok 0)) as (kp & ks & off & ->).
    { destruct s; cbn [generate_params]; [destruct (cp_generate_runs E HE mpk msk w w1 Eb) as (P & kp & ks & off & X & _)|destruct (kp_generate_runs E HE mpk msk w w1 Eb) as (P & kp & ks & off & X & _)]; eauto. }
    unfold has in *. cbn [fst w_store set_off set_store]. destruct c; cbn [class_map add_key pub_keys sec_keys] in *; rewrite mget_mset_other by assumption; exact H1.
  - destruct s; cbn [generate_params]; unfold cp_generate_params, kp_generate_params, catch_code; erewrite andthen_ok by exact Eb; exact Hs.
Qed.

(** ** Histories *)
Context (HE : lawful E) (sch : scheme).
Lemma call_steady : forall A (m : code A) c i ct x y, frames c i m -> call E m ct x y -> steady c i (fst x) (fst y).
Proof. intros A m c i ct x y F (w & r & Em & _ & ->). specialize (F (start E x ct)). rewrite Em in F. exact F. Qed.
Lemma served_steady : forall c i r x y, served E sch r x y -> ~ replaces E c i r -> steady c i (fst x) (fst y).
Proof.
  intros c i r x y H N. destruct r; cbn [served replaces] in *.
  - eapply call_steady; [apply frames_generate; exact HE|exact H].
  - eapply call_steady; [apply frames_keygen|exact H]. intros -> ->. apply N. auto.
  - eapply call_steady; [apply frames_encrypt|exact H].
  - eapply call_steady; [apply frames_decrypt|exact H].
  - eapply call_steady; [apply frames_export|exact H].
  - eapply call_steady; [apply frames_load|exact H]. intros -> ->. apply N. auto.
  - eapply call_steady; [apply frames_drop; exact N|exact H].
  - eapply call_steady; [apply frames_check|exact H].
  - eapply call_steady; [apply frames_hash_key|exact H].
Qed.
Lemma history_steady : forall c i h x y, history E sch h x y -> spares E c i h -> steady c i (fst x) (fst y).
Proof.
  intros c i h x y H. induction H as [x|r h x y z H1 H2 IH]; intro N; [apply steady_refl|].
  eapply steady_trans; [eapply served_steady; [exact H1|apply N; left; reflexivity]|]. apply IH. intros r' I. apply N. right. exact I.
Qed.
End Frame.
