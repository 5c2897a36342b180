(** Running the scheme code one call at a time, and the algebra of the groups. *)
From Verif Require Import Base StrMap ByteString ByteStringProofs UInteger Field FieldProofs Policy Driver Parser AttrList Utils Kdf KdfProofs Lsss LsssSpec LsssRecover SchemeRows Container ContainerProofs Keystore Scheme SchemeSpec.
From Coq Require Import ZArith Znumtheory List Ascii Bool Lia Permutation.
Import ListNotations.
Open Scope Z_scope.

Section Step.
Context (E : engine).
Notation K := (e_curve E).
Notation world := (world E).
Notation code := (code E).

Lemma andthen_ok : forall A B (m : code A) (f : A -> code B) w w' a, m w = (w', Ok a) -> andthen E m f w = f a w'.
Proof. intros A B m f w w' a H. unfold andthen. rewrite H. reflexivity. Qed.

(** The context holds key [k] under [id]. *)
Definition holds (c : key_class) (id : str) (k : key K) (w : world) : Prop := mget id (class_map E c (w_store E w)) = Some (Some k).
Definition part (p : container K) (name : str) (o : zobj K) : Prop := mget name p = Some (Some o).

Lemma put_object_same : forall id k m, mget id m = Some (Some k) -> put_object E id k m = m.
Proof.
  intros id k. induction m as [|[i v] m IH]; intro H; [discriminate|]. cbn [mget put_object] in *. destruct (str_eqb id i); [congruence|]. rewrite IH by exact H. reflexivity.
Qed.
Lemma with_parts_same : forall k, with_key_parts E k (k_parts k) = k.
Proof. intros []. reflexivity. Qed.
Lemma set_store_same : forall w, set_store E w (w_store E w) = w.
Proof. intros []. reflexivity. Qed.
Lemma set_ct_same : forall w, set_ct E w (w_ct E w) = w.
Proof. intros []. reflexivity. Qed.
Lemma change_same : forall c id k s, mget id (class_map E c s) = Some (Some k) -> change_object E c id k s = s.
Proof. intros [] id k [p q] H; cbn [class_map change_object pub_keys sec_keys] in *; rewrite put_object_same by exact H; reflexivity. Qed.

Lemma key_part_ok : forall A (cast : zobj K -> option A) c id name k o w, holds c id k w -> part (k_parts k) name o ->
  key_part E cast c id name w = (w, Ok (cast o)).
Proof.
  intros A cast c id name k o w H P. unfold key_part, andthen, key_component. unfold holds in H. rewrite H, (get_present _ _ _ _ P), with_parts_same, change_same, set_store_same by exact H. reflexivity.
Qed.
Lemma ct_part_ok : forall A (cast : zobj K -> option A) name o w, part (ct_parts (w_ct E w)) name o ->
  ct_part E cast name w = (w, Ok (cast o)).
Proof.
  intros A cast name o w P. unfold ct_part, andthen, ct_component. rewrite (get_present _ _ _ _ P). unfold with_parts.
  replace {| ct_version := _; ct_alg := _; ct_uid := _; ct_parts := _ |} with (w_ct E w) by (destruct (w_ct E w); reflexivity). rewrite set_ct_same. reflexivity.
Qed.
Lemma public_ok : forall id k w, holds KEY_PUBLIC id k w -> public_key E id w = (w, Ok (Some k)).
Proof.
  intros id k w H. unfold public_key, get_public_key, index. unfold holds in H. cbn [class_map] in H. rewrite H. unfold set_store. destruct w as [[p q] ? ? ?]. reflexivity.
Qed.
Lemma secret_ok : forall id k w, holds KEY_SECRET id k w -> secret_key E id w = (w, Ok (Some k)).
Proof.
  intros id k w H. unfold secret_key, get_secret_key, index. unfold holds in H. cbn [class_map] in H. rewrite H. unfold set_store. destruct w as [[p q] ? ? ?]. reflexivity.
Qed.
Lemma lift_ok : forall A (a : A) w, lift E (Ok a) w = (w, Ok a).
Proof. reflexivity. Qed.
Lemma deref_ok : forall A (a : A) w, deref E (Some a) w = (w, Ok a).
Proof. reflexivity. Qed.
Lemma assert_ok : forall A (a : A) w, assert_notnull E (Some a) w = (w, Ok a).
Proof. reflexivity. Qed.
Lemma tick_ok : forall A (f : nat -> A) w, tick E f w = (set_off E w (S (w_off E w)), Ok (f (w_off E w))).
Proof. reflexivity. Qed.
Lemma random_zp_ok : forall w, random_zp E w = (set_off E w (S (w_off E w)), Ok {| zv := e_zp E (w_off E w) mod order K; zord := Some (order K) |}).
Proof. reflexivity. Qed.
Lemma set_part_ok : forall name o w, set_part E name o w = (set_ct E w (ct_set_component (w_ct E w) name o), Ok tt).
Proof. reflexivity. Qed.
Lemma put_key_ok : forall id k c w, put_key E id k c w = (set_store E w (add_key (w_store E w) id (Some k) c), Ok tt).
Proof. reflexivity. Qed.
Lemma make_key_ok : forall alg id w, make_key E alg id w = (set_off E w (S (w_off E w)), Ok (new_key K alg id None (e_bytes E (w_off E w) 16))).
Proof. reflexivity. Qed.

Definition sym_of (x : gt K) : str := e_kdf E 32 (e_hash E (obj_serialize [] (OGt x))).
Lemma hash_to_sym_ok : forall x w, lawful E -> hash_to_sym E x 32 w = (set_sym E w (sym_of x), Ok tt).
Proof.
  intros x w HE. unfold hash_to_sym, compute_kdf2, andthen, lift.
  assert (len (e_hash E (obj_serialize [] (OGt x))) = 32) as Hl by (unfold len; rewrite (law_hash E HE); reflexivity). rewrite Hl. cbn [Z.ltb Z.compare negb].
  fold (sym_of x). replace (len (sym_of x)) with 32 by (symmetry; unfold sym_of; apply (law_kdf E HE); lia). reflexivity.
Qed.

Lemma share_ok : forall q s o off w, share_secret false (order K) lsss_new q s (e_zp E) (w_off E w) = Ok (o, off) -> share E q s w = (set_off E w off, Ok (l_rows o)).
Proof. intros q s o off w H. unfold share. rewrite H. reflexivity. Qed.

(** ** The body *)
Definition body_of (key pt : str) (p : container K) : Prop :=
  exists m b, mask E key (len pt) = Ok m /\ xor_assign pt m = Ok b /\ part p (L "_ED") (OBytes b).
Lemma mask_ok : forall key pt, lawful E -> len pt < 2147483616 -> exists m b, mask E key (len pt) = Ok m /\ xor_assign pt m = Ok b /\ len b = len pt /\ xor_assign b m = Ok pt.
Proof.
  intros key pt HE Hl. unfold mask. assert (0 <= len pt) as H0 by apply len_nonneg. rewrite (Z.mod_small (len pt) (2^32)) by lia.
  pose proof (mask_exact (e_hash E) (law_hash E HE) key (len pt) 42 ltac:(lia)) as Em. rewrite Em.
  set (m := firstn _ _) in *. assert (length m = length pt) as Lm.
  { unfold m. rewrite firstn_length. rewrite (stream_length (fun c => e_hash E (mask_input 42 key c)) _ _ 32%nat) by (intros; apply (law_hash E HE)). unfold len in *. rewrite Nat2Z.id. apply Nat.min_l. assert (Z.of_nat (length pt) <= 32 * ((Z.of_nat (length pt) + 31) / 32)) by (Z.div_mod_to_equations; lia). lia. }
  destruct pt as [|c pt].
  - exists m, []. repeat split; reflexivity.
  - destruct (xor_assign_lemma (c :: pt) m) as (d & E1 & E2 & E3 & _); [intro X; rewrite X in Lm; discriminate|].
    exists m, d. unfold len. rewrite E3. auto.
Qed.

Lemma decrypt_back : forall s mpk kid w key pt, lawful E -> len pt < 2147483616 ->
  decrypt_kem E s mpk kid 32 (set_sym E w []) = (set_sym E w key, Ok 0) -> body_of key pt (ct_parts (w_ct E w)) ->
  decrypt E s mpk kid w = (set_sym E w key, Ok (0, pt)).
Proof.
  intros s mpk kid w key pt HE Hl Hd (m & b & E1 & E2 & E3). destruct (mask_ok key pt HE Hl) as (m' & b' & F1 & F2 & F3 & F4). rewrite E1 in F1. injection F1 as <-. rewrite E2 in F2. injection F2 as <-.
  unfold decrypt, decrypt_body. erewrite andthen_ok by reflexivity. erewrite andthen_ok by exact Hd. cbn [Z.eqb negb].
  erewrite andthen_ok by (apply ct_part_ok; exact E3). cbn [as_bytes]. erewrite andthen_ok by apply assert_ok. erewrite andthen_ok by reflexivity.
  change (w_sym E (set_sym E w key)) with key. rewrite F3, E1. erewrite andthen_ok by apply lift_ok. rewrite F4. reflexivity.
Qed.

(** ** Components *)
(** The header of a newly made key. *)
Definition stamped (alg : Z) (id : str) (k : key K) : Prop := k_alg k = alg /\ k_version k = 170 /\ len (k_uid k) = 16 /\ k_id k = id.
Lemma part_same : forall c name o o', clone o = Some o' -> part (set_component c name o) name o'.
Proof. intros c name o o' H. unfold part, set_component. rewrite mget_mset_same. congruence. Qed.
Lemma part_other : forall c name name' o v, name' <> name -> part c name' v -> part (set_component c name o) name' v.
Proof. intros c name name' o v N H. unfold part, set_component. rewrite mget_mset_other by exact N. exact H. Qed.
Lemma label_inj : forall b x y, element_label b x = element_label b y -> x = y.
Proof. intros b x y H. unfold element_label in H. rewrite !app_assoc in H. apply app_inv_head in H. exact H. Qed.
Lemma holds_add : forall c id k w, holds c id k (set_store E w (add_key (w_store E w) id (Some k) c)).
Proof. intros [] id k w; unfold holds; cbn; apply mget_mset_same. Qed.
Lemma holds_add_other : forall c id k w c' id' k', (c' <> c \/ id' <> id) -> holds c' id' k' w -> holds c' id' k' (set_store E w (add_key (w_store E w) id (Some k) c)).
Proof. intros c id k w c' id' k' N H. unfold holds in *. destruct c, c'; cbn in *; auto; destruct N as [N|N]; try congruence; rewrite mget_mset_other by exact N; exact H. Qed.

(** ** Algebra *)
Context (HE : lawful E).
Notation p := (order K).
Lemma expT_zero : forall x, expT E 0 x = oneT E.
Proof.
  intro x. pose proof (law_expT_add E HE 0 0 x) as H. cbn [Z.add] in H.
  assert (multT E (expT E 0 x) (invT E (expT E 0 x)) = multT E (multT E (expT E 0 x) (expT E 0 x)) (invT E (expT E 0 x))) as G by (rewrite <- H; reflexivity).
  rewrite <- (law_multT_assoc E HE), (law_multT_inv E HE), (law_multT_comm E HE), (law_multT_one E HE) in G. congruence.
Qed.
Lemma expT_mod : forall a x, expT E (a mod p) x = expT E a x.
Proof.
  intros a x. rewrite (Z.div_mod a p) at 2 by (pose proof (prime_ge_2 _ (law_prime E HE)); lia). rewrite (law_expT_add E HE), <- (law_expT_mul E HE).
  rewrite (law_expT_order E HE). rewrite (law_multT_one E HE). reflexivity.
Qed.
Lemma expT_cong : forall a b x, a mod p = b mod p -> expT E a x = expT E b x.
Proof. intros a b x H. rewrite <- (expT_mod a), <- (expT_mod b), H. reflexivity. Qed.
Lemma multT_inv_r : forall x y, multT E (multT E x y) (invT E y) = x.
Proof. intros. rewrite <- (law_multT_assoc E HE), (law_multT_inv E HE), (law_multT_comm E HE), (law_multT_one E HE). reflexivity. Qed.
Lemma multT_swap : forall a b c d, multT E (multT E a b) (multT E c d) = multT E (multT E a c) (multT E b d).
Proof.
  intros. rewrite !(law_multT_assoc E HE). f_equal. rewrite <- !(law_multT_assoc E HE). f_equal. apply (law_multT_comm E HE).
Qed.

(** The product of the pairings of two lists. *)
Definition pairings (a : list (g1 K)) (b : list (g2 K)) : gt K := fold_left (fun acc '(x, y) => multT E acc (pair E x y)) (combine a b) (oneT E).
Lemma pairings_snoc : forall a b x y, length a = length b -> pairings (a ++ [x]) (b ++ [y]) = multT E (pairings a b) (pair E x y).
Proof.
  intros a b x y H. unfold pairings. assert (combine (a ++ [x]) (b ++ [y]) = combine a b ++ [(x, y)]) as Ec.
  { revert b H. induction a as [|h a IH]; intros [|h' b] H; try discriminate; [reflexivity|]. cbn in *. rewrite IH by lia. reflexivity. }
  rewrite Ec, fold_left_app. reflexivity.
Qed.
End Step.
