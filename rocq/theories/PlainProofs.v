(** Decryption does not look at the header of the ciphertext, and at the carrier
    only at the end. *)
From Verif Require Import Base StrMap ByteString ByteStringProofs UInteger Field FieldProofs Policy Driver Parser AttrList Utils Kdf KdfProofs Lsss LsssSpec LsssRecover SchemeRows Container ContainerProofs Keystore Scheme SchemeSpec SchemeStep PlainSpec.
From Coq Require Import ZArith List Ascii Bool Lia.
Import ListNotations.
Open Scope Z_scope.

Section Blind.
Context (E : engine).
Notation K := (e_curve E).
Notation world := (world E).
Notation code := (code E).

(** Worlds that differ at most in the header and the carrier of the ciphertext. *)
Definition alike (b b' : option (option (zobj K))) (w w' : world) : Prop :=
  w_store E w = w_store E w' /\ w_off E w = w_off E w' /\ w_sym E w = w_sym E w' /\ same_but_body (w_ct E w) (w_ct E w') /\ body (w_ct E w) = b /\ body (w_ct E w') = b'.
(** Code that goes the same way in such worlds and keeps the carriers. *)
Definition blind {A} (m : code A) : Prop := forall b b' w w', alike b b' w w' -> snd (m w) = snd (m w') /\ alike b b' (fst (m w)) (fst (m w')).

Lemma blind_ret : forall A (a : A), blind (ret E a).
Proof. intros A a b b' w w' H. split; [reflexivity|exact H]. Qed.
Lemma blind_lift : forall A (r : res A), blind (lift E r).
Proof. intros A a b b' w w' H. split; [reflexivity|exact H]. Qed.
Lemma blind_throw : forall A e, blind (@throw E A e).
Proof. intros A a b b' w w' H. split; [reflexivity|exact H]. Qed.
Lemma blind_undefined : forall A, blind (@undefined E A).
Proof. intros A b b' w w' H. split; [reflexivity|exact H]. Qed.
Lemma blind_then : forall A B (m : code A) (f : A -> code B), blind m -> (forall a, blind (f a)) -> blind (andthen E m f).
Proof.
  intros A B m f Hm Hf b b' w w' H. unfold andthen. destruct (Hm b b' w w' H) as [R S]. destruct (m w) as [w1 r1], (m w') as [w2 r2]. cbn in R, S. subst r2.
  destruct r1; try (split; [reflexivity|exact S]). apply Hf. exact S.
Qed.
Lemma blind_catch : forall m, blind m -> blind (catch_code E m).
Proof.
  intros m Hm b b' w w' H. unfold catch_code. destruct (Hm b b' w w' H) as [R S]. destruct (m w) as [w1 r1], (m w') as [w2 r2]. cbn in R, S. subst r2.
  destruct r1 as [|[]| | |]; split; try reflexivity; exact S.
Qed.
Lemma blind_deref : forall A (o : option A), blind (deref E o).
Proof. intros A [a|]; [apply blind_ret|apply blind_undefined]. Qed.
Lemma blind_assert : forall A (o : option A), blind (assert_notnull E o).
Proof. intros A [a|]; [apply blind_ret|apply blind_throw]. Qed.
Lemma blind_secret : forall id, blind (secret_key E id).
Proof.
  intros id b b' w w' (S & O & Y & R). unfold secret_key. rewrite S. destruct (get_secret_key (w_store E w') id) as [s v]. split; [reflexivity|]. repeat split; cbn; auto; apply R.
Qed.
Lemma blind_key_component : forall c id name, blind (key_component E c id name).
Proof.
  intros c id name b b' w w' (S & O & Y & R). unfold key_component. rewrite S. destruct (mget id (class_map E c (w_store E w'))) as [[k|]|].
  - destruct (get_component (k_parts k) name) as [p r]. split; [reflexivity|]. repeat split; cbn; auto; apply R.
  - split; [reflexivity|]. repeat split; auto; apply R.
  - split; [reflexivity|]. repeat split; auto; apply R.
Qed.
Lemma blind_key_part : forall A (cast : zobj K -> option A) c id name, blind (key_part E cast c id name).
Proof. intros. apply blind_then; [apply blind_key_component|]. intro. apply blind_ret. Qed.
Lemma blind_ct_component : forall name, name <> carrier -> blind (ct_component E name).
Proof.
  intros name N b b' w w' (S & O & Y & R & B & B'). unfold ct_component, get_component, index. rewrite <- (R name N).
  destruct (mget name (ct_parts (w_ct E w))) as [v|] eqn:Ev.
  - split; [reflexivity|]. repeat split; cbn; auto.
  - split; [reflexivity|]. repeat split; cbn; auto.
    + intros n Nn. cbn. destruct (list_eq_dec ascii_dec n name) as [->|Nn']; [rewrite !mget_mset_same; reflexivity|]. rewrite !mget_mset_other by exact Nn'. apply R. exact Nn.
    + unfold body. cbn. rewrite mget_mset_other by (intro X; apply N; symmetry; exact X). exact B.
    + unfold body. cbn. rewrite mget_mset_other by (intro X; apply N; symmetry; exact X). exact B'.
Qed.
Lemma blind_ct_part : forall A (cast : zobj K -> option A) name, name <> carrier -> blind (ct_part E cast name).
Proof. intros. apply blind_then; [apply blind_ct_component; assumption|]. intro. apply blind_ret. Qed.
Lemma blind_sym : forall x n, blind (hash_to_sym E x n).
Proof.
  intros x n. unfold hash_to_sym. apply blind_then; [apply blind_lift|]. intro k. destruct (negb _ && negb _); [apply blind_throw|].
  intros b b' w w' (S & O & Y & R). split; [reflexivity|]. repeat split; cbn; auto; apply R.
Qed.
Ltac blind_steps :=
  repeat first
   [ apply blind_ret | apply blind_lift | apply blind_throw | apply blind_deref | apply blind_assert | apply blind_secret | apply blind_key_part | apply blind_sym
   | apply blind_ct_part; (let X := fresh in intro X; unfold element_label, carrier in X; discriminate X)
   | apply blind_then; [|intro] | match goal with |- blind (let '(_, _) := ?x in _) => destruct x end | match goal with |- blind (if ?b then _ else _) => destruct b end ].
Lemma blind_cp_loop : forall id rows p a b, blind (cp_dec_loop E id rows p a b).
Proof.
  intros id rows. induction rows as [|[u [lab c]] rows IH]; intros p a b; cbn [cp_dec_loop]; blind_steps. apply IH.
Qed.
Lemma blind_kp_loop : forall id rows p a b, blind (kp_dec_loop E id rows p a b).
Proof.
  intros id rows. induction rows as [|[u [lab c]] rows IH]; intros p a b; cbn [kp_dec_loop]; blind_steps. apply IH.
Qed.
Lemma blind_kem : forall s mpk id n, blind (decrypt_kem E s mpk id n).
Proof.
  intros [] mpk id n; cbn [decrypt_kem]; [unfold cp_decrypt_kem|unfold kp_decrypt_kem]; apply blind_catch; blind_steps; [apply blind_cp_loop|apply blind_kp_loop].
Qed.

Lemma xored_self : forall a b out, xored a b out -> xored out b a.
Proof.
  intros a b out (L1 & L2 & H). split; [congruence|]. split; [congruence|]. intros i x y Hx Hy.
  destruct (nth_error a i) as [z|] eqn:Ez.
  - specialize (H i z y Ez Hy). rewrite H in Hx. injection Hx as <-. f_equal. rewrite z2b_small by (apply lxor_byte_range; apply b2z_range). rewrite Z.lxor_assoc, Z.lxor_nilpotent, Z.lxor_0_r, z2b_b2z. reflexivity.
  - exfalso. apply nth_error_None in Ez. assert (nth_error out i <> None) as N by congruence. apply nth_error_Some in N. lia.
Qed.
End Blind.
