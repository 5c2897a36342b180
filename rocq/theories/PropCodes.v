(** C137: the codes that the calls of a context can return. *)
From Verif Require Import Base StrMap ByteString ByteStringProofs UInteger Field FieldProofs Policy Driver Parser AttrList Utils Kdf KdfProofs Lsss LsssSpec LsssRecover LsssShare LsssUse LsssFinal PolicySyntax Lexical PolicyMeaning ParserTop CreatePolicy ParserFinal PolicyUse NoThrow SchemeRows Container ContainerSpec ContainerProofs Keystore Scheme SchemeSpec SchemeStep SchemeCp SchemeKp SchemeFrame SchemeUse SchemeToy PropUtil SchemeFirm PropScheme PropContext.
From Coq Require Import ZArith Znumtheory List Ascii Bool Lia Permutation.
Import ListNotations.
Open Scope Z_scope.

Section Codes.
Context (E : engine) (HE : lawful E).
Notation K := (e_curve E).

(** No exception but the OpenABE errors of [errs]. *)
Definition limited {A} (errs : list Z) (r : res A) : Prop := match r with Throw (OpenABEError e) => In e errs | Throw _ => False | _ => True end.
Definition raises {A} (errs : list Z) (m : code E A) : Prop := forall w, limited errs (snd (m w)).
Lemma raises_then : forall A B errs (m : code E A) (f : A -> code E B), raises errs m -> (forall a w w1, m w = (w1, Ok a) -> limited errs (snd (f a w1))) -> raises errs (andthen E m f).
Proof. intros A B errs m f Hm Hf w. unfold andthen. specialize (Hm w). destruct (m w) as [w1 r] eqn:Em. destruct r; try exact Hm. apply (Hf a w w1 Em). Qed.
Lemma raises_and : forall A B errs (m : code E A) (f : A -> code E B), raises errs m -> (forall a, raises errs (f a)) -> raises errs (andthen E m f).
Proof. intros A B errs m f Hm Hf. apply raises_then; [exact Hm|]. intros a w w1 _. apply Hf. Qed.
Lemma raises_lift : forall A errs (r : res A), limited errs r -> raises errs (lift E r).
Proof. intros A errs r H w. exact H. Qed.
Lemma raises_ret : forall A errs (a : A), raises errs (ret E a).
Proof. intros A errs a w. exact I. Qed.
Lemma raises_throw : forall A errs e, In e errs -> raises errs (throw E (A := A) e).
Proof. intros A errs e H w. exact H. Qed.
Lemma raises_deref : forall A errs (o : option A), raises errs (deref E o).
Proof. intros A errs [a|] w; exact I. Qed.
Lemma raises_assert : forall A errs (o : option A), In 8 errs -> raises errs (assert_notnull E o).
Proof. intros A errs [a|] H w; [exact I|exact H]. Qed.
Lemma raises_tick : forall A errs (f : nat -> A), raises errs (tick E f).
Proof. intros A errs f w. exact I. Qed.
Lemma raises_public : forall errs id, raises errs (public_key E id).
Proof. intros errs id w. unfold public_key. destruct (get_public_key _ _). exact I. Qed.
Lemma raises_secret : forall errs id, raises errs (secret_key E id).
Proof. intros errs id w. unfold secret_key. destruct (get_secret_key _ _). exact I. Qed.
Lemma raises_new : forall errs id, raises errs (is_new_id E id).
Proof. intros errs id w. unfold is_new_id. destruct (validate_new_params_id _ _). exact I. Qed.
Lemma raises_put : forall errs id k c, raises errs (put_key E id k c).
Proof. intros errs id k c w. exact I. Qed.
Lemma raises_set_part : forall errs n o, raises errs (set_part E n o).
Proof. intros errs n o w. exact I. Qed.
Lemma raises_set_scheme : forall errs a, raises errs (set_scheme E a).
Proof. intros errs a w. exact I. Qed.
Lemma limited_get : forall errs (c : container K) n, In 18 errs -> limited errs (snd (get_component c n)).
Proof. intros errs c n H. unfold get_component. destruct (index c n) as [c1 v]. destruct v; [exact I|exact H]. Qed.
Lemma raises_key_part : forall A errs (cast : zobj K -> option A) c id n, In 18 errs -> raises errs (key_part E cast c id n).
Proof.
  intros A errs cast c id n H. apply raises_and; [|intro; apply raises_ret]. intro w. unfold key_component. destruct (mget id (class_map E c (w_store E w))) as [[k|]|]; try exact I.
  pose proof (limited_get errs (k_parts k) n H) as X. destruct (get_component (k_parts k) n). exact X.
Qed.
Lemma raises_ct_part : forall A errs (cast : zobj K -> option A) n, In 18 errs -> raises errs (ct_part E cast n).
Proof.
  intros A errs cast n H. apply raises_and; [|intro; apply raises_ret]. intro w. unfold ct_component.
  pose proof (limited_get errs (ct_parts (w_ct E w)) n H) as X. destruct (get_component (ct_parts (w_ct E w)) n). exact X.
Qed.
Lemma share_loop_limited : forall nd p cnt t fuel errs stack off rows, limited errs (share_loop nd p cnt t fuel stack off rows).
Proof.
  intros nd p cnt t fuel errs. induction fuel as [|f IH]; intros [|[n s] stack] off rows; cbn [share_loop]; try exact I.
  destruct (ntype n); try apply IH; (destruct nd; [exact I|]); (destruct (_ =? 0); [exact I|]); apply IH.
Qed.
Lemma raises_share : forall errs q s, raises errs (share E q s).
Proof.
  intros errs q s w. unfold share, share_secret. destruct (proot q) as [r|]; [|exact I].
  pose proof (share_loop_limited false (order K) (take_count lsss_new q) (e_zp E) (tree_size r) errs [(r, s)] (w_off E w) []) as X.
  destruct (share_loop _ _ _ _ _ _ _ _) as [[rows off]|e| | |]; cbn [bind] in *; try exact I. exact X.
Qed.
Lemma raises_neg : forall errs z, limited errs (zp_neg {| zv := z; zord := Some (order K) |}).
Proof. intros. exact I. Qed.
Lemma raises_sym : forall errs x, raises errs (hash_to_sym E x 32).
Proof. intros errs x w. rewrite hash_to_sym_ok by exact HE. exact I. Qed.
Lemma raises_make : forall errs a id, raises errs (make_key E a id).
Proof. intros. apply raises_and; [apply raises_tick|intro; apply raises_ret]. Qed.
Ltac listed := first [assumption | cbn; tauto].
Ltac raised := repeat match goal with
  | |- raises _ (andthen _ _ _) => apply raises_and; intros
  | |- raises _ (ret _ _) => apply raises_ret
  | |- raises _ (deref _ _) => apply raises_deref
  | |- raises _ (assert_notnull _ _) => apply raises_assert; listed
  | |- raises _ (throw _ _) => apply raises_throw; listed
  | |- raises _ (tick _ _) => apply raises_tick
  | |- raises _ (random_zp _) => apply raises_tick
  | |- raises _ (random_g1 _) => apply raises_tick
  | |- raises _ (random_g2 _) => apply raises_tick
  | |- raises _ (random_bytes _ _) => apply raises_tick
  | |- raises _ (public_key _ _) => apply raises_public
  | |- raises _ (secret_key _ _) => apply raises_secret
  | |- raises _ (is_new_id _ _) => apply raises_new
  | |- raises _ (put_key _ _ _ _) => apply raises_put
  | |- raises _ (set_part _ _ _) => apply raises_set_part
  | |- raises _ (set_scheme _ _) => apply raises_set_scheme
  | |- raises _ (make_key _ _ _) => apply raises_make
  | |- raises _ (share _ _ _) => apply raises_share
  | |- raises _ (hash_to_sym _ _ 32) => apply raises_sym
  | |- raises _ (key_part _ _ _ _ _) => apply raises_key_part; listed
  | |- raises _ (ct_part _ _ _) => apply raises_ct_part; listed
  | |- raises _ (match ?x with _ => _ end) => destruct x
  | |- raises _ (if ?x then _ else _) => destruct x
  end.
Lemma caught : forall errs (m : code E Z) w, raises errs m -> (forall w w1 c, m w = (w1, Ok c) -> c = 0) ->
  match snd (catch_code E m w) with Ok c => In c (0 :: errs) | Throw _ => False | _ => True end.
Proof.
  intros errs m w H Hz. specialize (H w). specialize (Hz w). unfold catch_code. destruct (m w) as [w1 r]. destruct r as [c|[]| | |]; cbn [snd] in *; try exact I; try contradiction.
  - left. symmetry. eapply Hz. reflexivity.
  - right. exact H.
Qed.
Lemma caught_at : forall errs (m : code E Z) w, limited errs (snd (m w)) -> (forall w w1 c, m w = (w1, Ok c) -> c = 0) ->
  match snd (catch_code E m w) with Ok c => In c (0 :: errs) | Throw _ => False | _ => True end.
Proof.
  intros errs m w H Hz. specialize (Hz w). unfold catch_code. destruct (m w) as [w1 r]. destruct r as [c|[]| | |]; cbn [snd] in *; try exact I; try contradiction.
  - left. symmetry. eapply Hz. reflexivity.
  - right. exact H.
Qed.
Lemma zero_then : forall A (m : code E A) (f : A -> code E Z), (forall a w w1 c, f a w = (w1, Ok c) -> c = 0) -> forall w w1 c, andthen E m f w = (w1, Ok c) -> c = 0.
Proof. intros A m f H w w1 c X. unfold andthen in X. destruct (m w) as [w2 r]. destruct r; try discriminate. eapply H. exact X. Qed.
Ltac zeroes := repeat match goal with
  | |- forall w w1 c, andthen _ _ _ w = (w1, Ok c) -> c = 0 => apply zero_then; intro
  | |- forall w w1 c, ret _ 0 w = (w1, Ok c) -> c = 0 => let X := fresh in intros ? ? ? X; injection X as _ X; symmetry; exact X
  | |- forall w w1 c, throw _ _ w = (w1, Ok c) -> c = 0 => let X := fresh in intros ? ? ? X; discriminate X
  | |- forall w w1 c, (match ?x with _ => _ end) w = (w1, Ok c) -> c = 0 => destruct x
  end.
Definition coded (codes : list Z) (r : res Z) : Prop := match r with Ok c => In c codes | Throw _ => False | _ => True end.

Lemma generate_coded : forall sch mpk msk w, coded [0; 17] (snd (generate_params E sch mpk msk w)).
Proof.
  intros [] mpk msk w; cbn [generate_params]; [unfold cp_generate_params|unfold kp_generate_params]; (apply (caught [17]); [|zeroes]);
    unfold both_new; raised.
Qed.
Lemma kp_key_loop_raises : forall errs, In 18 errs -> forall mpk k rows dec, raises errs (kp_key_loop E mpk k rows dec).
Proof. intros errs H18 mpk k rows. induction rows as [|[u [lab e]] rows IH]; intro dec; cbn [kp_key_loop]; raised. apply IH. Qed.
Lemma cp_key_loop_raises : forall errs, In 18 errs -> forall k t l dec, raises errs (cp_key_loop E k t l dec).
Proof. intros errs H18 k t l. induction l as [|a l IH]; intro dec; cbn [cp_key_loop]; raised. apply IH. Qed.
Lemma keygen_coded : forall sch inp kid mpk msk w, coded [0; 5; 8; 18] (snd (keygen E sch inp kid mpk msk w)).
Proof.
  intros [] inp kid mpk msk w; cbn [keygen]; [unfold cp_keygen|unfold kp_keygen]; (apply (caught [5; 8; 18]); [|zeroes]); raised.
  - apply cp_key_loop_raises; listed.
  - apply kp_key_loop_raises; listed.
Qed.
Lemma kp_enc_loop_raises : forall errs, In 18 errs -> forall k t l, raises errs (kp_enc_loop E k t l).
Proof. intros errs H18 k t l. induction l as [|a l IH]; cbn [kp_enc_loop]; raised. apply IH. Qed.
Lemma cp_enc_loop_raises : forall errs, In 18 errs -> forall mpk k rows, raises errs (cp_enc_loop E mpk k rows).
Proof.
  intros errs H18 mpk k rows. induction rows as [|[u [lab e]] rows IH]; cbn [cp_enc_loop]; [raised|].
  apply raises_then; [raised|]. intros ri w w1 Er. unfold random_zp, tick in Er. injection Er as _ <-. revert w1.
  match goal with |- forall w1, limited ?e (snd (?m w1)) => change (raises e m) end. raised; [apply raises_lift; apply raises_neg|apply IH].
Qed.
Lemma kem_coded : forall sch mpk inp w, coded [0; 5; 8; 18] (snd (encrypt_kem E sch mpk inp 32 w)).
Proof.
  intros [] mpk inp w; cbn [encrypt_kem]; [unfold cp_encrypt_kem|unfold kp_encrypt_kem]; (apply (caught [5; 8; 18]); [|zeroes]); raised.
  - apply cp_enc_loop_raises; listed.
  - apply kp_enc_loop_raises; listed.
Qed.
Lemma write_limited : forall errs m o b, limited errs (write_at m o b).
Proof. intros. unfold write_at. destruct (_ <=? _)%nat; exact I. Qed.
Lemma loop_limited : forall h set inc step errs n c b o m, limited errs (hash_loop h set inc step n c b o m).
Proof. intros h set inc step errs. induction n as [|n IH]; intros c b o m; cbn [hash_loop]; [exact I|]. unfold write_at. destruct (_ <=? _)%nat; cbn [bind]; [apply IH|exact I]. Qed.
Lemma mask_limited : forall errs key n, limited errs (mask E key n).
Proof.
  intros errs key n. unfold mask, hash_from_bytes, ceil_div, md_len. cbn [Z.eqb bind]. unfold vla. destruct (_ <? _); cbn [bind]; [|exact I].
  match goal with |- limited _ (bind ?x _) => assert (limited errs x) as X by apply loop_limited; destruct x as [m|e| | |] end; cbn [bind]; try exact I; try exact X. destruct (_ <=? _); exact I.
Qed.
Lemma xor_limited : forall errs a b, limited errs (xor_assign a b).
Proof. intros errs [|x a] [|y b]; exact I. Qed.
Lemma encrypt_coded : forall sch mpk inp pt w, coded [0; 5; 8; 18] (snd (encrypt E sch mpk inp pt w)).
Proof.
  intros sch mpk inp pt w. unfold encrypt. apply (caught [5; 8; 18]); [|zeroes].
  apply raises_and; [intros ?; exact I|]. intros _. apply raises_then.
  - intro w0. pose proof (kem_coded sch mpk inp w0) as X. unfold coded, limited in *. destruct (snd _) as [c|e| | |]; try exact I. destruct X.
  - intros c w0 w1 Ek. pose proof (kem_coded sch mpk inp w0) as X. rewrite Ek in X. cbn [coded snd] in X. revert w1 Ek. intros w1 _. destruct (Z.eqb_spec c 0) as [->|N]; cbn [negb].
    + revert w1. match goal with |- forall w1, limited ?e (snd (?m w1)) => change (raises e m) end.
      apply raises_and; [intros ?; exact I|]. intro key. apply raises_and; [apply raises_lift; apply mask_limited|]. intro m. apply raises_and; [apply raises_lift; apply xor_limited|]. intro ct. raised.
    + cbn [throw snd limited]. destruct X as [X|X]; [exfalso; apply N; symmetry; exact X|exact X].
Qed.

(** ** decrypt *)
Lemma mset_there : forall A k (v : A) m, mset k v m <> [].
Proof. intros A k v [|[k' v'] m] X; cbn in X; [discriminate|]. destruct (str_eqb k k'); [discriminate|]. destruct (str_ltb k k'); discriminate. Qed.
Lemma rows_there : forall s q l rows, create_policy_tree (e_mktime E) s = Ok (Some q) -> recover E (Some q) (Some l) = Ok (true, rows) -> rows <> [].
Proof.
  intros s q l rows Hq H. destruct (policy_ready (e_mktime E) s q Hq) as (e' & r & _ & _ & _ & _ & Hr & B & _). destruct (binary_and_or r B) as [Ha _].
  destruct (recover_ok (order K) (e_sort E) (law_sort E HE) (aattrs l) lsss_new q r fresh Hr Ha (SchemeRows.clean_fresh r)) as (st & Er & _).
  unfold recover in H. rewrite Er in H. cbn [bind] in H. destruct (sat (match_attribute (aattrs l)) r) eqn:Es; [|discriminate]. injection H as <-. cbn [l_rows].
  intro X. assert (used (order K) (e_sort E) (aattrs l) r = []) as U.
  { unfold used. match goal with |- map fst ?c = [] => destruct c as [|y c'] eqn:Ec end; [reflexivity|]. exfalso.
    unfold LsssShare.add_rows in X. cbn [fold_left] in X.
    assert (forall cnt (k : list (node * Z)) (m : rowmap), m <> [] -> fold_left (fun m e => add_share cnt m (fst e) (snd e)) k m <> []) as F.
    { clear. intros cnt k. induction k as [|z k IH]; intros m H; [exact H|]. cbn [fold_left]. apply IH. apply mset_there. }
    revert X. apply F. apply mset_there. }
  pose proof (used_sat (order K) (e_sort E) (law_sort E HE) (aattrs l) (fun _ => false) r Ha Es) as Y. rewrite U in Y.
  rewrite (sat_by_none (fun _ => false) r Ha) in Y by reflexivity. discriminate Y. intros x [].
Qed.
Lemma recover_limited : forall errs s q l, create_policy_tree (e_mktime E) s = Ok q -> limited errs (recover E q l).
Proof.
  intros errs s [q|] [l|] Hq; try exact I. destruct (policy_ready (e_mktime E) s q Hq) as (e' & r & _ & _ & _ & _ & Hr & B & _). destruct (binary_and_or r B) as [Ha _].
  destruct (recover_ok (order K) (e_sort E) (law_sort E HE) (aattrs l) lsss_new q r fresh Hr Ha (SchemeRows.clean_fresh r)) as (st & Er & _).
  unfold recover. rewrite Er. exact I.
Qed.
Lemma calm_limited : forall A errs (r : res A), NoThrow.calm r -> limited errs r.
Proof. intros A errs [a|e| | |] H; try exact I. destruct H. Qed.
Lemma cp_loop_raises : forall errs, In 8 errs -> In 18 errs -> forall kid rows p g1s g2s, raises errs (cp_dec_loop E kid rows p g1s g2s).
Proof. intros errs H8 H18 kid rows. induction rows as [|[u [lab c]] rows IH]; intros p g1s g2s; cbn [cp_dec_loop]; raised. apply IH. Qed.
Lemma kp_loop_raises : forall errs, In 8 errs -> In 18 errs -> forall kid rows p g1s g2s, raises errs (kp_dec_loop E kid rows p g1s g2s).
Proof. intros errs H8 H18 kid rows. induction rows as [|[u [lab c]] rows IH]; intros p g1s g2s; cbn [kp_dec_loop]; raised. apply IH. Qed.
Lemma then_inv : forall A B (m : code E A) (f : A -> code E B) w w2 b, andthen E m f w = (w2, Ok b) -> exists w1 a, m w = (w1, Ok a) /\ f a w1 = (w2, Ok b).
Proof. intros A B m f w w2 b H. unfold andthen in H. destruct (m w) as [w1 r]. destruct r; try discriminate. eauto. Qed.
Lemma cp_loop_length : forall kid rows p g1s g2s w w1 p' h1 h2, cp_dec_loop E kid rows p g1s g2s w = (w1, Ok (p', h1, h2)) ->
  length h1 = (length g1s + length rows)%nat /\ length h2 = (length g2s + length rows)%nat.
Proof.
  intros kid rows. induction rows as [|[u [lab c]] rows IH]; intros p g1s g2s w w1 p' h1 h2 H; cbn [cp_dec_loop] in H.
  - injection H as _ _ <- <-. cbn. lia.
  - do 6 (apply then_inv in H; destruct H as (? & ? & _ & H)). apply IH in H. rewrite !app_length in H. cbn [length] in *. lia.
Qed.
Lemma kp_loop_length : forall kid rows p g1s g2s w w1 p' h1 h2, kp_dec_loop E kid rows p g1s g2s w = (w1, Ok (p', h1, h2)) ->
  length h1 = (length g1s + length rows)%nat /\ length h2 = (length g2s + length rows)%nat.
Proof.
  intros kid rows. induction rows as [|[u [lab c]] rows IH]; intros p g1s g2s w w1 p' h1 h2 H; cbn [kp_dec_loop] in H.
  - injection H as _ _ <- <-. cbn. lia.
  - do 6 (apply then_inv in H; destruct H as (? & ? & _ & H)). apply IH in H. rewrite !app_length in H. cbn [length] in *. lia.
Qed.
Lemma pairing_limited : forall errs n h1 h2, length h1 = n -> length h2 = n -> n <> 0%nat -> limited errs (multi_pairing E h1 h2).
Proof. intros errs n h1 h2 H1 H2 N. unfold multi_pairing. rewrite H1, H2, Nat.eqb_refl. destruct n; [congruence|]. exact I. Qed.
Ltac on_result w1 := match goal with |- limited ?e (snd (?m w1)) => let X := fresh in cut (raises e m); [intro X; apply X|try clear w1] end.
Lemma dec_coded : forall sch mpk kid w, coded [0; 8; 18; 32] (snd (decrypt_kem E sch mpk kid 32 w)).
Proof.
  intros [] mpk kid w; cbn [decrypt_kem]; [unfold cp_decrypt_kem|unfold kp_decrypt_kem]; (apply (caught [8; 18; 32]); [|zeroes]).
  - apply raises_and; [raised|intros dec]. apply raises_and; [raised|intros _]. apply raises_and; [raised|intros l]. apply raises_and; [raised|intros pol0]. apply raises_and; [raised|intros pol].
    apply raises_then; [apply raises_lift; apply calm_limited; apply calm_policy|]. intros q w0 w1 Eq. injection Eq as _ Eq. on_result w1.
    apply raises_then; [apply raises_lift; apply (recover_limited _ _ _ _ Eq)|]. intros [ok rows] w2 w1 Er. injection Er as _ Er. on_result w1.
    destruct ok; cbn [negb]; [|raised]. apply raises_then; [apply cp_loop_raises; listed|]. intros [[p h1] h2] w3 w1 El. apply cp_loop_length in El. on_result w1.
    apply raises_and; [|intros; raised]. apply raises_lift. cbn [length Nat.add] in El. apply (pairing_limited _ (length rows)); [apply El|apply El|].
    destruct q as [q|]; [|discriminate Er]. destruct l as [l|]; [|discriminate Er]. pose proof (rows_there _ _ _ _ Eq Er) as X. destruct rows; [congruence|discriminate].
  - apply raises_and; [raised|intros dec]. apply raises_and; [raised|intros _]. apply raises_and; [raised|intros pol0]. apply raises_and; [raised|intros pol].
    apply raises_then; [apply raises_lift; apply calm_limited; apply calm_policy|]. intros q w0 w1 Eq. injection Eq as _ Eq. on_result w1. apply raises_and; [raised|intros l].
    apply raises_then; [apply raises_lift; apply (recover_limited _ _ _ _ Eq)|]. intros [ok rows] w2 w1 Er. injection Er as _ Er. on_result w1.
    destruct ok; cbn [negb]; [|raised]. apply raises_then; [apply kp_loop_raises; listed|]. intros [[p h1] h2] w3 w1 El. apply kp_loop_length in El. on_result w1.
    apply raises_and; [|intros; raised]. apply raises_lift. cbn [length Nat.add] in El. apply (pairing_limited _ (length rows)); [apply El|apply El|].
    destruct q as [q|]; [|discriminate Er]. destruct l as [l|]; [|discriminate Er]. pose proof (rows_there _ _ _ _ Eq Er) as X. destruct rows; [congruence|discriminate].
Qed.
Lemma body_raises : forall sch mpk kid, raises [8; 18; 32] (decrypt_body E sch mpk kid).
Proof.
  intros sch mpk kid. unfold decrypt_body. apply raises_and; [intros ?; exact I|]. intros _. apply raises_then.
  - intro w0. pose proof (dec_coded sch mpk kid w0) as X. unfold coded, limited in *. destruct (snd _) as [c|e| | |]; try exact I. destruct X.
  - intros c w0 w1 Ek. pose proof (dec_coded sch mpk kid w0) as X. rewrite Ek in X. cbn [coded snd] in X. clear Ek. destruct (Z.eqb_spec c 0) as [->|N]; cbn [negb].
    + on_result w1. apply raises_and; [raised|intro e0]. apply raises_and; [raised|intro e]. apply raises_and; [intros ?; exact I|]. intro key.
      apply raises_and; [apply raises_lift; apply mask_limited|]. intro m. apply raises_lift. apply xor_limited.
    + cbn [throw snd limited]. destruct X as [X|X]; [exfalso; apply N; symmetry; exact X|exact X].
Qed.

Lemma serialize_told : forall K (c : container K) b r, match serialize_loop c b r with Throw _ => False | _ => True end.
Proof. intros K c. induction c as [|[k [o|]] c IH]; intros b r; cbn [serialize_loop]; [exact I|apply IH|exact I]. Qed.
Lemma get_key_there : forall A (s : store A) id s1 k, get_key s id = (s1, Some k) -> mmem id (pub_keys s1) || mmem id (sec_keys s1) = true.
Proof.
  intros A s id s1 k H. unfold get_key, get_public_key, get_secret_key, index in H. unfold mmem. destruct (mget id (pub_keys s)) as [[k0|]|] eqn:Ep; cbn in H.
  - injection H as <- _. cbn. rewrite Ep. reflexivity.
  - destruct (mget id (sec_keys s)) as [[k1|]|] eqn:Es; cbn in H; try discriminate H. injection H as <- _. cbn. rewrite Es. apply orb_true_r.
  - destruct (mget id (sec_keys s)) as [[k1|]|] eqn:Es; cbn in H; try discriminate H. injection H as <- _. cbn. rewrite Es. apply orb_true_r.
Qed.

(** What a call answers with a code: one of [codes], or it ends otherwise than by an exception. *)
Definition told {A} (code : A -> Z) (codes : list Z) (r : res A) : Prop := match r with Ok a => In (code a) codes | Throw _ => False | _ => True end.


(** What the codes mean, told from the store alone. *)
Definition there {A} (id : str) (m : smap (option A)) : Prop := exists k, mget id m = Some (Some k).
Definition key_kind (sch : scheme) (inp : input) : Prop := match sch, inp with CP, InAttrs _ => True | KP, InPolicy _ => True | _, _ => False end.
Definition ct_kind (sch : scheme) (inp : input) : Prop := match sch, inp with CP, InPolicy _ => True | KP, InAttrs _ => True | _, _ => False end.

Lemma found : forall A (m : smap (option A)) id, snd (index m id) <> None <-> there id m.
Proof.
  intros A m id. unfold index, there. destruct (mget id m) as [[k|]|]; cbn [snd].
  - split; [eauto|congruence].
  - split; [congruence|intros [k X]; discriminate X].
  - split; [congruence|intros [k X]; discriminate X].
Qed.
Lemma there_index : forall A (m : smap (option A)) id id', there id' (fst (index m id)) <-> there id' m.
Proof.
  intros A m id id'. unfold index, there. destruct (mget id m) as [v|] eqn:Em; cbn [fst]; [tauto|]. destruct (str_eqb id' id) eqn:Ei.
  - apply str_eqb_eq in Ei. subst id'. rewrite mget_mset_same, Em. split; intros [k X]; discriminate X.
  - rewrite mget_mset_other; [tauto|]. intros ->. rewrite str_eqb_refl in Ei. discriminate.
Qed.
Lemma new_says : forall id w, exists b, snd (is_new_id E id w) = Ok b /\ (b = false <-> there id (pub_keys (w_store E w)) \/ there id (sec_keys (w_store E w))) /\
  forall id', (there id' (pub_keys (w_store E (fst (is_new_id E id w)))) <-> there id' (pub_keys (w_store E w))) /\ (there id' (sec_keys (w_store E (fst (is_new_id E id w)))) <-> there id' (sec_keys (w_store E w))).
Proof.
  intros id w. unfold is_new_id, validate_new_params_id, get_key, get_public_key, get_secret_key.
  pose proof (found _ (pub_keys (w_store E w)) id) as Fp. pose proof (there_index _ (pub_keys (w_store E w)) id) as Tp.
  destruct (index (pub_keys (w_store E w)) id) as [mp [k|]]; cbn [fst snd] in *.
  - exists false. cbn. split; [reflexivity|]. split; [split; [intros _; left; apply Fp; discriminate|reflexivity]|]. intro id'. split; [apply Tp|tauto].
  - pose proof (found _ (sec_keys (w_store E w)) id) as Fs. pose proof (there_index _ (sec_keys (w_store E w)) id) as Ts. cbn [pub_keys sec_keys].
    destruct (index (sec_keys (w_store E w)) id) as [ms [k|]]; cbn [fst snd] in *.
    + exists false. cbn. split; [reflexivity|]. split; [split; [intros _; right; apply Fs; discriminate|reflexivity]|]. intro id'. split; [apply Tp|apply Ts].
    + exists true. cbn. split; [reflexivity|]. split; [split; [discriminate|]|]. 
      * intros [X|X]; [apply Fp in X|apply Fs in X]; congruence.
      * intro id'. split; [apply Tp|apply Ts].
Qed.
Definition taken (w : world E) (id : str) : Prop := there id (pub_keys (w_store E w)) \/ there id (sec_keys (w_store E w)).
Lemma both_says : forall mpk msk w, exists b w1, both_new E mpk msk w = (w1, Ok b) /\ (b = false <-> taken w mpk \/ taken w msk).
Proof.
  intros mpk msk w. unfold both_new, andthen, taken. destruct (new_says mpk w) as (b & Eb & Hb & Ht). destruct (is_new_id E mpk w) as [w1 r]. cbn [fst snd] in *. subst r. destruct b.
  - destruct (new_says msk w1) as (b & Eb & Hc & _). destruct (is_new_id E msk w1) as [w2 r]. cbn [fst snd] in *. subst r. exists b, w2. split; [reflexivity|].
    destruct (Ht msk) as [H1 H2]. rewrite Hc, H1, H2. split; [tauto|]. intros [X|X]; [|exact X]. apply Hb in X. discriminate X.
  - exists false, w1. split; [reflexivity|]. split; [intros _; left; apply Hb; reflexivity|reflexivity].
Qed.
Lemma generate_says : forall sch mpk msk w, exists b, snd (generate_params E sch mpk msk w) = Ok (if b : bool then 0 else 17) /\ (b = false <-> taken w mpk \/ taken w msk).
Proof.
  intros sch mpk msk w. destruct (both_says mpk msk w) as (b & w1 & Eb & Hb). exists b. split; [|exact Hb].
  destruct sch; cbn [generate_params]; unfold cp_generate_params, kp_generate_params, catch_code; unfold andthen at 1; rewrite Eb; destruct b; reflexivity.
Qed.
Lemma public_says : forall id w, exists o w1, public_key E id w = (w1, Ok o) /\ (o <> None <-> there id (pub_keys (w_store E w))) /\ sec_keys (w_store E w1) = sec_keys (w_store E w).
Proof.
  intros id w. unfold public_key, get_public_key. pose proof (found _ (pub_keys (w_store E w)) id) as F. destruct (index (pub_keys (w_store E w)) id) as [m o]. cbn in *.
  exists o. eexists. split; [reflexivity|]. split; [exact F|reflexivity].
Qed.
Lemma secret_says : forall id w, exists o w1, secret_key E id w = (w1, Ok o) /\ (o <> None <-> there id (sec_keys (w_store E w))).
Proof.
  intros id w. unfold secret_key, get_secret_key. pose proof (found _ (sec_keys (w_store E w)) id) as F. destruct (index (sec_keys (w_store E w)) id) as [m o]. cbn in *.
  exists o. eexists. split; [reflexivity|exact F].
Qed.
(** The calls once the keys were looked up. *)
Lemma keygen_says : forall sch inp kid mpk msk w,
  (~ key_kind sch inp -> snd (keygen E sch inp kid mpk msk w) = Ok 8) /\
  (key_kind sch inp -> ~ (there mpk (pub_keys (w_store E w)) /\ there msk (sec_keys (w_store E w))) -> snd (keygen E sch inp kid mpk msk w) = Ok 5) /\
  (key_kind sch inp -> there mpk (pub_keys (w_store E w)) /\ there msk (sec_keys (w_store E w)) -> told (fun c => c) [0; 18] (snd (keygen E sch inp kid mpk msk w))).
Proof.
  intros sch inp kid mpk msk w. destruct (public_says mpk w) as (o & w1 & Ep & Ho & Hs). destruct (secret_says msk w1) as (o' & w2 & Es & Ho'). rewrite Hs in Ho'. rewrite <- Ho, <- Ho'.
  destruct sch; destruct inp; cbn [key_kind keygen]; (split; [intro X; try reflexivity; exfalso; apply X; exact I|]); (split; intros X Y); try destruct X.
  - unfold cp_keygen, catch_code. unfold andthen at 1. rewrite Ep. unfold andthen at 1. rewrite Es. destruct o as [k1|]; [|reflexivity]. destruct o' as [k2|]; [|reflexivity]. exfalso. apply Y. split; discriminate.
  - unfold cp_keygen. apply (caught_at [18]); [|zeroes]. unfold andthen at 1. rewrite Ep. unfold andthen at 1. rewrite Es. destruct Y as [Y1 Y2]. destruct o as [k1|]; [|congruence]. destruct o' as [k2|]; [|congruence].
    on_result w2. raised. apply cp_key_loop_raises. listed.
  - unfold kp_keygen, catch_code. unfold andthen at 1. rewrite Ep. unfold andthen at 1. rewrite Es. destruct o as [k1|]; [|reflexivity]. destruct o' as [k2|]; [|reflexivity]. exfalso. apply Y. split; discriminate.
  - unfold kp_keygen. apply (caught_at [18]); [|zeroes]. unfold andthen at 1. rewrite Ep. unfold andthen at 1. rewrite Es. destruct Y as [Y1 Y2]. destruct o as [k1|]; [|congruence]. destruct o' as [k2|]; [|congruence].
    on_result w2. raised. apply kp_key_loop_raises. listed.
Qed.
Lemma kem_says : forall sch mpk inp w,
  (~ ct_kind sch inp -> snd (encrypt_kem E sch mpk inp 32 w) = Ok 8) /\
  (ct_kind sch inp -> ~ there mpk (pub_keys (w_store E w)) -> snd (encrypt_kem E sch mpk inp 32 w) = Ok 5) /\
  (ct_kind sch inp -> there mpk (pub_keys (w_store E w)) -> told (fun c => c) [0; 18] (snd (encrypt_kem E sch mpk inp 32 w))).
Proof.
  intros sch mpk inp w. destruct (public_says mpk w) as (o & w1 & Ep & Ho & Hs). rewrite <- Ho.
  destruct sch; destruct inp; cbn [ct_kind encrypt_kem]; (split; [intro X; try reflexivity; exfalso; apply X; exact I|]); (split; intros X Y); try destruct X.
  - unfold cp_encrypt_kem, catch_code. unfold andthen at 1. rewrite Ep. destruct o as [k1|]; [|reflexivity]. exfalso. apply Y. discriminate.
  - unfold cp_encrypt_kem. apply (caught_at [18]); [|zeroes]. unfold andthen at 1. rewrite Ep. destruct o as [k1|]; [|congruence].
    on_result w1. raised; apply cp_enc_loop_raises; listed.
  - unfold kp_encrypt_kem, catch_code. unfold andthen at 1. rewrite Ep. destruct o as [k1|]; [|reflexivity]. exfalso. apply Y. discriminate.
  - unfold kp_encrypt_kem. apply (caught_at [18]); [|zeroes]. unfold andthen at 1. rewrite Ep. destruct o as [k1|]; [|congruence].
    on_result w1. raised; apply kp_enc_loop_raises; listed.
Qed.
Lemma encrypt_says : forall sch mpk inp pt w,
  (~ ct_kind sch inp -> snd (encrypt E sch mpk inp pt w) = Ok 8) /\
  (ct_kind sch inp -> ~ there mpk (pub_keys (w_store E w)) -> snd (encrypt E sch mpk inp pt w) = Ok 5) /\
  (ct_kind sch inp -> there mpk (pub_keys (w_store E w)) -> told (fun c => c) [0; 18] (snd (encrypt E sch mpk inp pt w))).
Proof.
  intros sch mpk inp pt w. destruct (kem_says sch mpk inp (set_sym E w [])) as (H1 & H2 & H3). cbn [w_store set_sym] in H2, H3.
  split; [|split].
  - intro X. specialize (H1 X). unfold encrypt, catch_code. unfold andthen at 1. cbn [fresh_sym]. unfold andthen at 1. destruct (encrypt_kem _ _ _ _ _ _) as [w1 r]. cbn [snd] in H1. subst r. reflexivity.
  - intros X Y. specialize (H2 X Y). unfold encrypt, catch_code. unfold andthen at 1. cbn [fresh_sym]. unfold andthen at 1. destruct (encrypt_kem _ _ _ _ _ _) as [w1 r]. cbn [snd] in H2. subst r. reflexivity.
  - intros X Y. specialize (H3 X Y). unfold encrypt. apply (caught_at [18]); [|zeroes]. unfold andthen at 1. cbn [fresh_sym]. unfold andthen at 1. destruct (encrypt_kem _ _ _ _ _ _) as [w1 r]. cbn [snd] in H3.
    destruct r as [c|e| | |]; try exact I; [|destruct H3]. destruct (Z.eqb_spec c 0) as [->|N]; cbn [negb].
    + on_result w1. apply raises_and; [intros ?; exact I|]. intro key. apply raises_and; [apply raises_lift; apply mask_limited|]. intro m. apply raises_and; [apply raises_lift; apply xor_limited|]. intro ct. raised.
    + cbn [told] in H3. cbn [throw snd limited]. destruct H3 as [X3|X3]; [exfalso; apply N; symmetry; exact X3|exact X3].
Qed.
(** Where code 32 comes from. *)
Lemma thrown_inv : forall A B errs e (m : code E A) (f : A -> code E B) w, raises errs m -> ~ In e errs -> snd (andthen E m f w) = Throw (OpenABEError e) ->
  exists w1 a, m w = (w1, Ok a) /\ snd (f a w1) = Throw (OpenABEError e).
Proof.
  intros A B errs e m f w R N H. specialize (R w). unfold andthen in H. destruct (m w) as [w1 r]. destruct r as [a|x| | |]; cbn [snd] in *; try discriminate H; [eauto|]. injection H as ->. contradiction.
Qed.
Lemma caught_inv : forall (m : code E Z) w e, e <> 0 -> (forall w w1 c, m w = (w1, Ok c) -> c = 0) -> snd (catch_code E m w) = Ok e -> snd (m w) = Throw (OpenABEError e).
Proof.
  intros m w e N Hz H. specialize (Hz w). unfold catch_code in H. destruct (m w) as [w1 r]. destruct r as [c|[]| | |]; cbn [snd] in *; try discriminate H.
  - injection H as ->. exfalso. apply N. eapply Hz. reflexivity.
  - injection H as ->. reflexivity.
Qed.
Definition unmet (sch : scheme) (kid : str) (w : world E) : Prop := exists k s l q r,
  mget kid (sec_keys (w_store E w)) = Some (Some k) /\
  match sch with
  | CP => mget (L "input") (k_parts k) = Some (Some (OAttrs l)) /\ mget (L "policy") (ct_parts (w_ct E w)) = Some (Some (OBytes s))
  | KP => mget (L "input") (k_parts k) = Some (Some (OBytes s)) /\ mget (L "attributes") (ct_parts (w_ct E w)) = Some (Some (OAttrs l))
  end /\
  create_policy_tree (e_mktime E) s = Ok (Some q) /\ proot q = Some r /\ sat (match_attribute (aattrs l)) r = false.
Lemma kem_unmet : forall sch mpk kid w, snd (decrypt_kem E sch mpk kid 32 w) = Ok 32 -> unmet sch kid w.
Proof.
  intros [] mpk kid w H; cbn [decrypt_kem] in H; [unfold cp_decrypt_kem in H|unfold kp_decrypt_kem in H]; (apply caught_inv in H; [|discriminate|zeroes]).
  - apply (thrown_inv _ _ [8; 18]) in H; [|raised|cbn; lia]. destruct H as (w1 & o & E1 & H). apply secret_inv in E1 as [E1 _].
    apply (thrown_inv _ _ [8; 18]) in H; [|raised|cbn; lia]. destruct H as (w2 & k & E2 & H). apply assert_inv in E2 as [-> ->]. destruct (E1 k eq_refl) as [-> Hk]. clear E1.
    apply (thrown_inv _ _ [8; 18]) in H; [|raised|cbn; lia]. destruct H as (w3 & l & E3 & H). apply key_part_inv in E3 as (-> & k' & x & Hk' & Px & ->). unfold holds in Hk, Hk'. rewrite Hk in Hk'. injection Hk' as <-.
    apply (thrown_inv _ _ [8; 18]) in H; [|raised|cbn; lia]. destruct H as (w4 & p0 & E4 & H). apply ct_part_inv in E4 as (-> & y & Py & ->).
    apply (thrown_inv _ _ [8; 18]) in H; [|raised|cbn; lia]. destruct H as (w5 & s & E5 & H). apply assert_inv in E5 as [E5 ->]. apply as_bytes_inv in E5. subst y.
    apply (thrown_inv _ _ [8; 18]) in H; [|apply raises_lift; apply calm_limited; apply calm_policy|cbn; lia]. destruct H as (w6 & q & E6 & H). apply lift_inv in E6 as [Eq ->].
    apply (thrown_inv _ _ [8; 18]) in H; [|apply raises_lift; apply (recover_limited _ _ _ _ Eq)|cbn; lia]. destruct H as (w7 & [ok rows] & E7 & H). apply lift_inv in E7 as [Er ->].
    destruct q as [q|]; [|discriminate Er]. destruct (as_attrs E x) as [l|] eqn:El; [|discriminate Er]. apply as_attrs_inv in El. subst x.
    destruct (recover_says E (law_sort E HE) s q l Eq) as (r & rows' & Hr & Es). rewrite Er in Es. injection Es as Eok _. destruct ok; cbn [negb] in H.
    + exfalso. apply (thrown_inv _ _ [8; 18]) in H; [|apply cp_loop_raises; listed|cbn; lia]. destruct H as (w8 & [[p h1] h2] & E8 & H). apply cp_loop_length in E8.
      match type of H with snd (?m w8) = _ => assert (raises [8; 18] m) as X end.
      { apply raises_and; [|intros; raised]. apply raises_lift. cbn [length Nat.add] in E8. apply (pairing_limited _ (length rows)); [apply E8|apply E8|].
        pose proof (rows_there _ _ _ _ Eq Er) as X. destruct rows; [congruence|discriminate]. }
      specialize (X w8). rewrite H in X. cbn in X. lia.
    + exists k, s, l, q, r. split; [exact Hk|]. split; [split; [exact Px|exact Py]|]. auto.
  - apply (thrown_inv _ _ [8; 18]) in H; [|raised|cbn; lia]. destruct H as (w1 & o & E1 & H). apply secret_inv in E1 as [E1 _].
    apply (thrown_inv _ _ [8; 18]) in H; [|raised|cbn; lia]. destruct H as (w2 & k & E2 & H). apply assert_inv in E2 as [-> ->]. destruct (E1 k eq_refl) as [-> Hk]. clear E1.
    apply (thrown_inv _ _ [8; 18]) in H; [|raised|cbn; lia]. destruct H as (w3 & p0 & E3 & H). apply key_part_inv in E3 as (-> & k' & x & Hk' & Px & ->). unfold holds in Hk, Hk'. rewrite Hk in Hk'. injection Hk' as <-.
    apply (thrown_inv _ _ [8; 18]) in H; [|raised|cbn; lia]. destruct H as (w5 & s & E5 & H). apply assert_inv in E5 as [E5 ->]. apply as_bytes_inv in E5. subst x.
    apply (thrown_inv _ _ [8; 18]) in H; [|apply raises_lift; apply calm_limited; apply calm_policy|cbn; lia]. destruct H as (w6 & q & E6 & H). apply lift_inv in E6 as [Eq ->].
    apply (thrown_inv _ _ [8; 18]) in H; [|raised|cbn; lia]. destruct H as (w4 & l0 & E4 & H). apply ct_part_inv in E4 as (-> & y & Py & ->).
    apply (thrown_inv _ _ [8; 18]) in H; [|apply raises_lift; apply (recover_limited _ _ _ _ Eq)|cbn; lia]. destruct H as (w7 & [ok rows] & E7 & H). apply lift_inv in E7 as [Er ->].
    destruct q as [q|]; [|discriminate Er]. destruct (as_attrs E y) as [l|] eqn:El; [|discriminate Er]. apply as_attrs_inv in El. subst y.
    destruct (recover_says E (law_sort E HE) s q l Eq) as (r & rows' & Hr & Es). rewrite Er in Es. injection Es as Eok _. destruct ok; cbn [negb] in H.
    + exfalso. apply (thrown_inv _ _ [8; 18]) in H; [|apply kp_loop_raises; listed|cbn; lia]. destruct H as (w8 & [[p h1] h2] & E8 & H). apply kp_loop_length in E8.
      match type of H with snd (?m w8) = _ => assert (raises [8; 18] m) as X end.
      { apply raises_and; [|intros; raised]. apply raises_lift. cbn [length Nat.add] in E8. apply (pairing_limited _ (length rows)); [apply E8|apply E8|].
        pose proof (rows_there _ _ _ _ Eq Er) as X. destruct rows; [congruence|discriminate]. }
      specialize (X w8). rewrite H in X. cbn in X. lia.
    + exists k, s, l, q, r. split; [exact Hk|]. split; [split; [exact Px|exact Py]|]. auto.
Qed.
Lemma decrypt_says : forall sch mpk kid w,
  (~ there kid (sec_keys (w_store E w)) -> snd (decrypt E sch mpk kid w) = Ok (8, [])) /\
  ((exists pt, snd (decrypt E sch mpk kid w) = Ok (32, pt)) <-> unmet sch kid w).
Proof.
  intros sch mpk kid w. split; [|split].
  - intro N. destruct (secret_says kid (set_sym E w [])) as (o & w1 & Es & Ho). cbn [w_store set_sym] in Ho. destruct o as [k|]; [exfalso; apply N; apply Ho; discriminate|].
    unfold decrypt, decrypt_body. unfold andthen at 1. cbn [fresh_sym]. unfold andthen at 1.
    destruct sch; cbn [decrypt_kem]; [unfold cp_decrypt_kem|unfold kp_decrypt_kem]; unfold catch_code; unfold andthen at 1; rewrite Es; reflexivity.
  - intros [pt H]. assert (snd (decrypt_body E sch mpk kid w) = Throw (OpenABEError 32)) as B.
    { unfold decrypt in H. destruct (decrypt_body E sch mpk kid w) as [w' r]. destruct r as [p|[]| | |]; cbn [snd] in *; try discriminate H. injection H as -> _. reflexivity. }
    unfold decrypt_body in B. apply (thrown_inv _ _ []) in B; [|intro; exact I|intros []]. destruct B as (w0 & u & E0 & B). injection E0 as <- _.
    apply (thrown_inv _ _ []) in B; [| |intros []].
    + destruct B as (w1 & c & E1 & B). pose proof (f_equal snd E1) as X. cbn [snd] in X. destruct (Z.eqb_spec c 0) as [->|N]; cbn [negb] in B.
      * exfalso. match type of B with snd (?m w1) = _ => assert (raises [8; 18] m) as Y end.
        { apply raises_and; [raised|intro e0]. apply raises_and; [raised|intro e]. apply raises_and; [intros ?; exact I|]. intro key. apply raises_and; [apply raises_lift; apply mask_limited|]. intro m. apply raises_lift. apply xor_limited. }
        specialize (Y w1). rewrite B in Y. cbn in Y. lia.
      * cbn [throw snd] in B. injection B as ->. apply kem_unmet in X. exact X.
    + clear B. intro w1. pose proof (dec_coded sch mpk kid w1) as Y. unfold coded, limited in *. destruct (snd (decrypt_kem E sch mpk kid 32 w1)) as [c|e| | |]; try exact I. destruct Y.
  - intros (k & s & l & q & r & Hk & Hp & Hq & Hr & Hs). exists []. rewrite (denied E (law_sort E HE) sch mpk kid w s l q r); [reflexivity| |exact Hq|exact Hr|exact Hs].
    destruct sch; (split; [exists k; split; [exact Hk|apply Hp]|apply Hp]).
Qed.
End Codes.

Theorem C137_codes : forall E sch w, lawful E ->
  (forall mpk msk, told (fun c => c) [0; 17] (snd (generate_params E sch mpk msk w))) /\
  (forall inp kid mpk msk, told (fun c => c) [0; 5; 8; 18] (snd (keygen E sch inp kid mpk msk w))) /\
  (forall mpk inp pt, told (fun c => c) [0; 5; 8; 18] (snd (encrypt E sch mpk inp pt w))) /\
  (forall mpk kid, told fst [0; 8; 18; 32] (snd (decrypt E sch mpk kid w))) /\
  (forall kid out, told fst [0; 8] (snd (export_key E kid out w))) /\
  (forall kid, snd (drop_key E kid w) = Ok 0) /\
  (forall id blob c r, snd (load_key E sch id blob c w) = Ok r -> r = 0 \/ r = 30).
Proof.
  intros E sch w HE. split; [intros; apply (generate_coded E)|]. split; [intros; apply (keygen_coded E)|]. split; [intros; apply (encrypt_coded E HE)|]. split; [|split; [|split]].
  - intros mpk kid. pose proof (body_raises E HE sch mpk kid w) as X. unfold decrypt. destruct (decrypt_body E sch mpk kid w) as [w' r]. cbn [snd] in X. destruct r as [p|[]| | |]; cbn in *; tauto.
  - intros kid out. unfold export_key. destruct (get_key (w_store E w) kid) as [s [k|]]; cbn [snd]; [|right; left; reflexivity].
    unfold key_export, serialize. pose proof (serialize_told _ (k_parts k) [] []) as X. destruct (serialize_loop _ _ _); cbn [bind] in *; try exact I; [left; reflexivity|exact X].
  - intro kid. unfold drop_key, delete_key. destruct (get_key (w_store E w) kid) as [s [k|]] eqn:Eg; cbn [snd]; [|reflexivity].
    pose proof (get_key_there _ _ _ _ _ Eg) as X. destruct (mmem kid (pub_keys s)); [reflexivity|]. destruct (mmem kid (sec_keys s)); [reflexivity|]. discriminate X.
  - intros id blob c r H. unfold load_key in H. unfold andthen, random_bytes, tick, lift, ret, put_key in H. destruct (parse_key_header _ _ _ _) as [[k body]|e| | |]; try discriminate H.
    destruct (negb _); cbn in H; [injection H as <-; right; reflexivity|]. destruct (key_load _ _ _ _) as [k' r']. destruct r' as [u|e| | |]; try discriminate H. injection H as <-. left. reflexivity.
Qed.
Print Assumptions C137_codes.

(** What they mean. *)
Theorem C137_meaning : forall E sch w, lawful E ->
  let pub := pub_keys (w_store E w) in let sec := sec_keys (w_store E w) in
  (forall mpk msk, snd (generate_params E sch mpk msk w) = Ok 17 <-> there mpk pub \/ there mpk sec \/ there msk pub \/ there msk sec) /\
  (forall mpk msk, snd (generate_params E sch mpk msk w) = Ok 0 <-> ~ (there mpk pub \/ there mpk sec \/ there msk pub \/ there msk sec)) /\
  (forall inp kid mpk msk, snd (keygen E sch inp kid mpk msk w) = Ok 8 <-> ~ key_kind sch inp) /\
  (forall inp kid mpk msk, snd (keygen E sch inp kid mpk msk w) = Ok 5 <-> key_kind sch inp /\ ~ (there mpk pub /\ there msk sec)) /\
  (forall mpk inp pt, snd (encrypt E sch mpk inp pt w) = Ok 8 <-> ~ ct_kind sch inp) /\
  (forall mpk inp pt, snd (encrypt E sch mpk inp pt w) = Ok 5 <-> ct_kind sch inp /\ ~ there mpk pub) /\
  (forall mpk kid, ~ there kid sec -> snd (decrypt E sch mpk kid w) = Ok (8, [])) /\
  (forall mpk kid, (exists pt, snd (decrypt E sch mpk kid w) = Ok (32, pt)) <-> unmet E sch kid w) /\
  (forall kid out, snd (export_key E kid out w) = Ok (8, out) <-> ~ (there kid pub \/ there kid sec)).
Proof.
  assert (forall A (m : smap (option A)) id, there id m \/ ~ there id m) as D.
  { intros A m id. unfold there. destruct (mget id m) as [[k|]|]; [left; eauto|right; intros [k X]; discriminate X|right; intros [k X]; discriminate X]. }
  assert (forall sch inp, key_kind sch inp \/ ~ key_kind sch inp) as Dk by (intros [] []; cbn; auto).
  assert (forall sch inp, ct_kind sch inp \/ ~ ct_kind sch inp) as Dc by (intros [] []; cbn; auto).
  intros E sch w HE pub sec. subst pub sec.
  split; [|split; [|split; [|split; [|split; [|split; [|split; [|split]]]]]]].
  - intros mpk msk. destruct (generate_says E sch mpk msk w) as (b & Eb & Hb). unfold taken in Hb. rewrite Eb. destruct b.
    + split; [discriminate|]. intro X. assert (true = false) by (apply Hb; tauto). discriminate.
    + split; [intros _|reflexivity]. destruct Hb as [Hb _]. specialize (Hb eq_refl). tauto.
  - intros mpk msk. destruct (generate_says E sch mpk msk w) as (b & Eb & Hb). unfold taken in Hb. rewrite Eb. destruct b.
    + split; [intros _ X|reflexivity]. assert (true = false) by (apply Hb; tauto). discriminate.
    + split; [discriminate|]. intro X. exfalso. apply X. destruct Hb as [Hb _]. specialize (Hb eq_refl). tauto.
  - intros inp kid mpk msk. destruct (keygen_says E sch inp kid mpk msk w) as (H1 & H2 & H3). split; [|exact H1]. intros X Y.
    destruct (D _ (pub_keys (w_store E w)) mpk) as [D1|D1]; [destruct (D _ (sec_keys (w_store E w)) msk) as [D2|D2]|].
    + specialize (H3 Y (conj D1 D2)). rewrite X in H3. cbn in H3. lia.
    + rewrite H2 in X; [discriminate X|exact Y|tauto].
    + rewrite H2 in X; [discriminate X|exact Y|tauto].
  - intros inp kid mpk msk. destruct (keygen_says E sch inp kid mpk msk w) as (H1 & H2 & H3). split; [|intros [X Y]; exact (H2 X Y)]. intro X.
    destruct (Dk sch inp) as [Y|Y]; [|rewrite (H1 Y) in X; discriminate X]. split; [exact Y|]. intro Z. specialize (H3 Y Z). rewrite X in H3. cbn in H3. lia.
  - intros mpk inp pt. destruct (encrypt_says E HE sch mpk inp pt w) as (H1 & H2 & H3). split; [|exact H1]. intros X Y.
    destruct (D _ (pub_keys (w_store E w)) mpk) as [D1|D1].
    + specialize (H3 Y D1). rewrite X in H3. cbn in H3. lia.
    + rewrite (H2 Y D1) in X. discriminate X.
  - intros mpk inp pt. destruct (encrypt_says E HE sch mpk inp pt w) as (H1 & H2 & H3). split; [|intros [X Y]; exact (H2 X Y)]. intro X.
    destruct (Dc sch inp) as [Y|Y]; [|rewrite (H1 Y) in X; discriminate X]. split; [exact Y|]. intro Z. specialize (H3 Y Z). rewrite X in H3. cbn in H3. lia.
  - intros mpk kid. apply (decrypt_says E HE sch mpk kid w).
  - intros mpk kid. apply (decrypt_says E HE sch mpk kid w).
  - intros kid out. destruct (new_says E kid w) as (b & Eb & Hb & _). rewrite <- Hb. unfold export_key. unfold is_new_id, validate_new_params_id in Eb. destruct (get_key (w_store E w) kid) as [s [k|]]; cbn [snd] in *; injection Eb as <-.
    + split; [|intro X; exfalso; apply X; reflexivity]. intro X. unfold key_export in X. destruct (serialize _ _); discriminate X.
    + split; [intros _; discriminate|reflexivity].
Qed.
Print Assumptions C137_meaning.

(** Every code is met. *)
Definition q1 := parsed_policy (L "a").
Definition l1 := parsed_list (L "a").
Definition l2 := parsed_list (L "b").
Definition ki sch := match sch with CP => InAttrs l1 | KP => InPolicy q1 end.
Definition ei sch := match sch with CP => InPolicy q1 | KP => InAttrs l1 end.
Definition no_ei sch := match sch with CP => InPolicy (parsed_policy (L "b")) | KP => InAttrs l2 end.
Definition empty_world : world toy_engine := start toy_engine (new_store, 0%nat) (no_ct toy_engine).
Definition with_key sch : world toy_engine := w_alice toy_engine sch (ki sch).
(** Parameters without any component, as loadKey may leave them. *)
Definition hollow sch : world toy_engine :=
  let k := new_key (e_curve toy_engine) (alg_of sch) [] None [] in
  start toy_engine (add_key (add_key new_store (L "mpk") (Some k) KEY_PUBLIC) (L "msk") (Some k) KEY_SECRET, 0%nat) (no_ct toy_engine).
Definition enc_world sch inp : world toy_engine := fst (encrypt toy_engine sch (L "mpk") inp (L "hi") (start toy_engine (left_by toy_engine (with_key sch)) (no_ct toy_engine))).
Example C137_nonvacuous : forall sch,
  snd (generate_params toy_engine sch (L "mpk") (L "msk") empty_world) = Ok 0 /\
  snd (generate_params toy_engine sch (L "mpk") (L "other") (with_key sch)) = Ok 17 /\
  snd (generate_params toy_engine sch (L "other") (L "alice") (with_key sch)) = Ok 17 /\
  snd (keygen toy_engine sch (ki sch) (L "x") (L "mpk") (L "msk") (with_key sch)) = Ok 0 /\
  snd (keygen toy_engine sch (ki sch) (L "x") (L "mpk") (L "none") (with_key sch)) = Ok 5 /\
  snd (keygen toy_engine sch (ei sch) (L "x") (L "mpk") (L "msk") (with_key sch)) = Ok 8 /\
  snd (keygen toy_engine sch (ki sch) (L "x") (L "mpk") (L "msk") (hollow sch)) = Ok 18 /\
  snd (encrypt toy_engine sch (L "mpk") (ei sch) (L "hi") (with_key sch)) = Ok 0 /\
  snd (encrypt toy_engine sch (L "none") (ei sch) (L "hi") (with_key sch)) = Ok 5 /\
  snd (encrypt toy_engine sch (L "mpk") InNull (L "hi") (with_key sch)) = Ok 8 /\
  snd (encrypt toy_engine sch (L "mpk") (ei sch) (L "hi") (hollow sch)) = Ok 18 /\
  snd (decrypt toy_engine sch [] (L "alice") (enc_world sch (ei sch))) = Ok (0, L "hi") /\
  snd (decrypt toy_engine sch [] (L "none") (enc_world sch (ei sch))) = Ok (8, []) /\
  snd (decrypt toy_engine sch [] (L "alice") (with_key sch)) = Ok (18, []) /\
  snd (decrypt toy_engine sch [] (L "alice") (enc_world sch (no_ei sch))) = Ok (32, []) /\
  snd (export_key toy_engine (L "none") (L "old") (with_key sch)) = Ok (8, L "old") /\
  match snd (export_key toy_engine (L "mpk") [] (with_key sch)) with Ok (c, _) => c = 0 | _ => False end.
Proof. intros []; vm_compute; repeat split; reflexivity. Qed.

(** ** C138: loadKey *)
(** Whatever the bytes, it leaves the store as it was unless it answers 0; then the store has one key more,
    of this context's scheme, and nothing else changed. *)
Theorem C138_load_partial : forall E sch id blob c w,
  let out := load_key E sch id blob c w in
  match snd out with
  | Ok r => r = 30 /\ w_store E (fst out) = w_store E w \/
      r = 0 /\ exists k, k_alg k = alg_of sch /\ class_map E c (w_store E (fst out)) = mset id (Some k) (class_map E c (w_store E w)) /\
        (forall c', c' <> c -> class_map E c' (w_store E (fst out)) = class_map E c' (w_store E w))
  | _ => w_store E (fst out) = w_store E w
  end /\ w_ct E (fst out) = w_ct E w /\ w_sym E (fst out) = w_sym E w.
Proof.
  intros E sch id blob c w out. subst out. unfold load_key. unfold andthen, random_bytes, tick, lift, ret, put_key. destruct (parse_key_header _ _ _ _) as [[k body]|e| | |]; cbn [fst snd]; try (split; [reflexivity|split; reflexivity]).
  destruct (Z.eqb_spec (k_alg k) (alg_of sch)) as [Ea|Na]; cbn [negb fst snd]; [|split; [left; split; reflexivity|split; reflexivity]].
  unfold key_load. destruct (deserialize _ _ _ _) as [p r]. destruct r as [u|e| | |]; cbn [fst snd]; try (split; [reflexivity|split; reflexivity]). split; [|split; reflexivity].
  right. split; [reflexivity|]. exists {| k_version := k_version k; k_alg := k_alg k; k_uid := k_uid k; k_id := k_id k; k_type := k_type k; k_parts := p |}. split; [|split].
  - exact Ea.
  - destruct c; reflexivity.
  - intros c' N. destruct c, c'; try congruence; reflexivity.
Qed.
Print Assumptions C138_load_partial.

(** Bytes that are no key do not give a code: exceptions of both kinds pass through the call, and some bytes end the process. *)
Definition key_of sch body : str := pack (pack [] (z2b 160 :: z2b (alg_of sch) :: repeat (z2b 7) 16)) body.
Definition part_of (value : str) : str := smart_pack (smart_pack [] (L "K")) value.
Theorem C138_load_refuted : forall sch, exists too_short cut_off odd_part odd_size,
  let load b := snd (load_key toy_engine sch (L "k") b KEY_SECRET empty_world) in
  load too_short = Throw (OpenABEError 8) /\ load cut_off = Throw OutOfRange /\ load odd_part = Throw (OpenABEError 100) /\ load odd_size = Exit.
Proof.
  intro sch. exists [], (repeat (z2b 255) 20), (key_of sch (part_of [z2b 255; z2b 255])), (key_of sch (part_of (smart_pack [z2b 178] (L "x y")))).
  destruct sch; vm_compute; repeat split; reflexivity.
Qed.
Print Assumptions C138_load_refuted.
(** The two answers that are codes. *)
Example C138_nonvacuous : forall sch, let load b := snd (load_key toy_engine sch (L "k") b KEY_SECRET empty_world) in
  load (key_of sch (part_of (L "zzz"))) = Ok 0 /\ load (key_of (match sch with CP => KP | KP => CP end) (part_of (L "zzz"))) = Ok 30.
Proof. intros []; vm_compute; repeat split; reflexivity. Qed.
