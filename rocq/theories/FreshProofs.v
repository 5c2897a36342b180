(** Every call uses the random choices from the position it finds to the one it
    leaves, and no others. *)
From Verif Require Import Base StrMap ByteString ByteStringProofs UInteger Field Policy Driver Parser AttrList Utils Kdf Lsss Container Keystore Scheme SchemeSpec SchemeStep FreshSpec.
From Coq Require Import ZArith List Ascii Bool Lia.
Import ListNotations.
Open Scope Z_scope.

(** * Sharing *)
Lemma draw_agree : forall p t t' off k, (forall i, (off <= i < off + k)%nat -> t' i = t i) -> draw p t' off k = draw p t off k.
Proof. intros p t t' off k H. unfold draw. apply map_ext_in. intros i Hi. apply in_seq in Hi. rewrite H by lia. reflexivity. Qed.
Lemma loop_forward : forall p cnt t fuel stack off rows rows' off', share_loop false p cnt t fuel stack off rows = Ok (rows', off') -> (off <= off')%nat.
Proof.
  intros p cnt t fuel. induction fuel as [|f IH]; intros [|[n s] rest] off rows rows' off' H; cbn [share_loop] in H.
  - injection H as _ <-. lia.
  - discriminate.
  - injection H as _ <-. lia.
  - destruct (ntype n); first [apply IH in H; exact H|destruct (threshold_value n =? 0); [discriminate|]; apply IH in H; lia].
Qed.
Lemma loop_agree : forall p cnt t t' fuel stack off rows rows' off', share_loop false p cnt t fuel stack off rows = Ok (rows', off') ->
  (forall i, (off <= i < off')%nat -> t' i = t i) -> share_loop false p cnt t' fuel stack off rows = Ok (rows', off').
Proof.
  intros p cnt t t' fuel. induction fuel as [|f IH]; intros [|[n s] rest] off rows rows' off' H G; cbn [share_loop] in *; try exact H.
  destruct (ntype n); first [apply IH; assumption|
     destruct (threshold_value n =? 0); [exact H|]; pose proof (loop_forward _ _ _ _ _ _ _ _ _ H);
     rewrite (draw_agree p t t') by (intros i Hi; apply G; lia); apply IH; [exact H|intros i Hi; apply G; lia]].
Qed.
(** Failures do not depend on the random choices. *)
Definition same_failure {A B} (r : res A) (r' : res B) : Prop :=
  match r, r' with
  | Ok _, Ok _ => True | Throw e, Throw e' => e = e' | UB, UB => True | Exit, Exit => True | NoFuel, NoFuel => True
  | _, _ => False
  end.
Lemma kids_nodes : forall f g (l : list node) k, map fst (map (fun '(i, c) => (c, f i : Z)) (combine (seq k (length l)) l)) = map fst (map (fun '(i, c) => (c, g i : Z)) (combine (seq k (length l)) l)).
Proof. intros f g l. induction l as [|a l IH]; intro k; cbn; [reflexivity|]. f_equal. apply IH. Qed.
Lemma loop_failure : forall p cnt t t' fuel stack stack' off rows rows', map fst stack = map fst stack' ->
  same_failure (share_loop false p cnt t fuel stack off rows) (share_loop false p cnt t' fuel stack' off rows').
Proof.
  intros p cnt t t' fuel. induction fuel as [|f IH]; intros [|[n s] rest] [|[n' s'] rest'] off rows rows' H; cbn in H; try discriminate; cbn [share_loop]; try exact I.
  injection H as -> H. destruct (ntype n'); first [apply IH; exact H|
     destruct (threshold_value n' =? 0); [exact I|]; apply IH; rewrite !map_app, !map_rev, H; do 2 f_equal; apply kids_nodes].
Qed.
Lemma share_forward : forall p q s t off o off', share_secret false p lsss_new q s t off = Ok (o, off') -> (off <= off')%nat.
Proof.
  intros p q s t off o off' H. unfold share_secret in H. destruct (proot q) as [r|]; [|discriminate].
  destruct (share_loop _ _ _ _ _ _ _ _) as [[rows n]| | | |] eqn:El; try discriminate. cbn in H. injection H as _ <-. exact (loop_forward _ _ _ _ _ _ _ _ _ El).
Qed.
Lemma share_agree : forall p q s t t' off o off', share_secret false p lsss_new q s t off = Ok (o, off') -> (forall i, (off <= i < off')%nat -> t' i = t i) ->
  share_secret false p lsss_new q s t' off = Ok (o, off').
Proof.
  intros p q s t t' off o off' H G. unfold share_secret in *. destruct (proot q) as [r|]; [|discriminate].
  destruct (share_loop _ _ _ t _ _ _ _) as [[rows n]| | | |] eqn:El; try discriminate. cbn in H. injection H as <- <-. rewrite (loop_agree _ _ _ t' _ _ _ _ _ _ El G). reflexivity.
Qed.
Lemma share_failure : forall p q s t t' off, same_failure (share_secret false p lsss_new q s t off) (share_secret false p lsss_new q s t' off).
Proof.
  intros p q s t t' off. unfold share_secret. destruct (proot q) as [r|]; [|exact I].
  pose proof (loop_failure p (take_count lsss_new q) t t' (tree_size r) [(r, s)] [(r, s)] off [] [] eq_refl) as H.
  destruct (share_loop _ _ _ t _ _ _ _) as [[]| | | |], (share_loop _ _ _ t' _ _ _ _) as [[]| | | |]; cbn in *; try contradiction; try exact I; congruence.
Qed.

(** * Code *)
Section Own.
Context (E : engine) (c : coins (e_curve E)).
Notation E' := (retape E c).
Notation own := (own_coins E c).
Ltac fin := split; [lia|]; intro; repeat split.
Ltac own_by_hand := let s := fresh "s" in let off := fresh "off" in let ct := fresh "ct" in let sym := fresh "sym" in intros s off ct sym; cbn; split; [auto with arith|]; intro.
Lemma own_ret : forall A (a : A), own (ret E a) (ret E' a).
Proof. intros A a. own_by_hand. auto. Qed.
Lemma own_lift : forall A (r : res A), own (lift E r) (lift E' r).
Proof. intros A a. own_by_hand. auto. Qed.
Lemma own_throw : forall A e, own (@throw E A e) (@throw E' A e).
Proof. intros A a. own_by_hand. auto. Qed.
Lemma own_undefined : forall A, own (@undefined E A) (@undefined E' A).
Proof. intros A. own_by_hand. auto. Qed.
Lemma own_then : forall A B (m : code E A) m' (f : A -> code E B) f', own m m' -> (forall a, own (f a) (f' a)) -> own (andthen E m f) (andthen E' m' f').
Proof.
  intros A B m m' f f' Hm Hf s off ct sym. cbv zeta. destruct (Hm s off ct sym) as [P Q]. unfold andthen.
  destruct (m (Build_world E s off ct sym)) as [[s1 o1 c1 y1] r1], (m' (Build_world E' s off ct sym)) as [[s2 o2 c2 y2] r2]. cbn in P, Q.
  destruct r1 as [a|e| | |].
  - destruct (Hf a s1 o1 c1 y1) as [P' Q']. cbn in P', Q'. destruct (f a _) as [[s3 o3 c3 y3] r3] eqn:Ef. cbn in P', Q' |- *. split; [lia|].
    intro G. destruct Q as (<- & <- & <- & <- & <-); [intros i Hi; apply G; lia|]. apply Q'. intros i Hi. apply G. lia.
  - cbn. split; [exact P|]. intro G. destruct (Q G) as (<- & R). exact (conj eq_refl R).
  - cbn. split; [exact P|]. intro G. destruct (Q G) as (<- & R). exact (conj eq_refl R).
  - cbn. split; [exact P|]. intro G. destruct (Q G) as (<- & R). exact (conj eq_refl R).
  - cbn. split; [exact P|]. intro G. destruct (Q G) as (<- & R). exact (conj eq_refl R).
Qed.
Lemma own_catch : forall m m', own m m' -> own (catch_code E m) (catch_code E' m').
Proof.
  intros m m' Hm s off ct sym. cbv zeta. destruct (Hm s off ct sym) as [P Q]. unfold catch_code.
  destruct (m (Build_world E s off ct sym)) as [w1 r1], (m' (Build_world E' s off ct sym)) as [w2 r2]. cbn in P, Q.
  destruct r1 as [|[]| | |]; cbn; (split; [exact P|]; intro G; destruct (Q G) as (<- & R); exact (conj eq_refl R)).
Qed.
Lemma own_deref : forall A (o : option A), own (deref E o) (deref E' o).
Proof. intros A [a|]; [apply own_ret|apply own_undefined]. Qed.
Lemma own_assert : forall A (o : option A), own (assert_notnull E o) (assert_notnull E' o).
Proof. intros A [a|]; [apply own_ret|apply own_throw]. Qed.
Lemma own_public : forall id, own (public_key E id) (public_key E' id).
Proof. intros id s off ct sym. cbn. unfold public_key. cbn. destruct (get_public_key s id) as [s' v]. cbn. fin. Qed.
Lemma own_secret : forall id, own (secret_key E id) (secret_key E' id).
Proof. intros id s off ct sym. cbn. unfold secret_key. cbn. destruct (get_secret_key s id) as [s' v]. cbn. fin. Qed.
Lemma own_is_new : forall id, own (is_new_id E id) (is_new_id E' id).
Proof. intros id s off ct sym. cbn. unfold is_new_id. cbn. destruct (validate_new_params_id s id) as [s' v]. cbn. fin. Qed.
Lemma own_put : forall id k cl, own (put_key E id k cl) (put_key E' id k cl).
Proof. intros id k cl. own_by_hand. auto. Qed.
Lemma own_zp : own (random_zp E) (random_zp E').
Proof. own_by_hand. destruct (H off) as (H1 & _); [cbn; lia|]. rewrite H1. auto. Qed.
Lemma own_g1 : own (random_g1 E) (random_g1 E').
Proof. own_by_hand. destruct (H off) as (_ & H1 & _); [cbn; lia|]. rewrite H1. auto. Qed.
Lemma own_g2 : own (random_g2 E) (random_g2 E').
Proof. own_by_hand. destruct (H off) as (_ & _ & H1 & _); [cbn; lia|]. rewrite H1. auto. Qed.
Lemma own_bytes : forall n, own (random_bytes E n) (random_bytes E' n).
Proof. intro n. own_by_hand. destruct (H off) as (_ & _ & _ & H1); [cbn; lia|]. rewrite H1. auto. Qed.
Lemma own_make : forall alg id, own (make_key E alg id) (make_key E' alg id).
Proof. intros alg id. unfold make_key. apply own_then; [apply own_bytes|]. intro a. apply own_ret. Qed.
Lemma own_key_component : forall cl id name, own (key_component E cl id name) (key_component E' cl id name).
Proof.
  intros cl id name s off ct sym. cbn. unfold key_component. cbn. change (class_map E' cl s) with (class_map E cl s).
  destruct (mget id (class_map E cl s)) as [[k|]|]; [|cbn; fin|cbn; fin]. destruct (get_component (k_parts k) name) as [p r]. cbn.
  split; [auto|]. intro. split; [reflexivity|]. split; [|auto].
  assert (forall v m, put_object E id v m = put_object E' id v m) as X by (intros v m; induction m as [|[i x] m IH]; [reflexivity|]; cbn; rewrite IH; reflexivity).
  destruct cl; cbn; rewrite X; reflexivity.
Qed.
Lemma own_key_part : forall A (cast : zobj (e_curve E) -> option A) cl id name, own (key_part E cast cl id name) (key_part E' cast cl id name).
Proof. intros. apply own_then; [apply own_key_component|]. intro. apply own_ret. Qed.
Lemma own_ct_component : forall name, own (ct_component E name) (ct_component E' name).
Proof. intros name s off ct sym. cbn. unfold ct_component. cbn. destruct (get_component (ct_parts ct) name) as [p r]. cbn. fin. Qed.
Lemma own_ct_part : forall A (cast : zobj (e_curve E) -> option A) name, own (ct_part E cast name) (ct_part E' cast name).
Proof. intros. apply own_then; [apply own_ct_component|]. intro. apply own_ret. Qed.
Lemma own_set_part : forall name o, own (set_part E name o) (set_part E' name o).
Proof. intros. own_by_hand. auto. Qed.
Lemma own_set_scheme : forall alg, own (set_scheme E alg) (set_scheme E' alg).
Proof. intros. own_by_hand. auto. Qed.
Lemma own_fresh : own (fresh_sym E) (fresh_sym E').
Proof. own_by_hand. auto. Qed.
Lemma own_sym_bytes : own (sym_bytes E) (sym_bytes E').
Proof. own_by_hand. auto. Qed.
Lemma own_hash_to_sym : forall x n, own (hash_to_sym E x n) (hash_to_sym E' x n).
Proof.
  intros x n. unfold hash_to_sym. apply own_then; [apply own_lift|]. intro k. destruct (negb _ && negb _); [apply own_throw|]. own_by_hand. auto.
Qed.
Lemma own_share : forall q s, own (share E q s) (share E' q s).
Proof.
  intros q s st off ct sym. cbv zeta. unfold share. cbn [w_off order e_curve retape e_zp].
  pose proof (share_failure (order (e_curve E)) q s (e_zp E) (c_zp c) off) as F.
  destruct (share_secret false (order (e_curve E)) lsss_new q s (e_zp E) off) as [[o n]|e| | |] eqn:Es.
  - cbn. split; [exact (share_forward _ _ _ _ _ _ _ Es)|]. intro G. rewrite (share_agree _ _ _ _ (c_zp c) _ _ _ Es) by (intros i Hi; apply G; exact Hi). repeat split.
  - destruct (share_secret _ _ _ _ _ (c_zp c) _) as [[]| | | |]; try contradiction. cbn in *. subst. fin.
  - destruct (share_secret _ _ _ _ _ (c_zp c) _) as [[]| | | |]; try contradiction. cbn. fin.
  - destruct (share_secret _ _ _ _ _ (c_zp c) _) as [[]| | | |]; try contradiction. cbn. fin.
  - destruct (share_secret _ _ _ _ _ (c_zp c) _) as [[]| | | |]; try contradiction. cbn. fin.
Qed.
Ltac own_steps :=
  repeat first
   [ apply own_ret | apply own_lift | apply own_throw | apply own_deref | apply own_assert | apply own_public | apply own_secret | apply own_is_new | apply own_put
   | apply own_zp | apply own_g1 | apply own_g2 | apply own_bytes | apply own_make | apply own_key_part | apply own_ct_part | apply own_set_part | apply own_set_scheme
   | apply own_fresh | apply own_sym_bytes | apply own_hash_to_sym | apply own_share
   | apply own_then; [|intro]
   | match goal with |- own_coins _ _ (let '(_, _) := ?x in _) _ => destruct x end
   | match goal with |- own_coins _ _ (if ?b then _ else _) _ => destruct b end
   | match goal with |- own_coins _ _ (match ?x with Some _ => _ | None => _ end) _ => destruct x end ].
Lemma own_params : forall sch mpk msk, own (generate_params E sch mpk msk) (generate_params E' sch mpk msk).
Proof. intros [] mpk msk; cbn [generate_params]; [unfold cp_generate_params|unfold kp_generate_params]; apply own_catch; unfold both_new; own_steps. Qed.
Lemma own_cp_key_loop : forall k t attrs dec, own (cp_key_loop E k t attrs dec) (cp_key_loop E' k t attrs dec).
Proof. intros k t attrs. induction attrs as [|a l IH]; intro dec; cbn [cp_key_loop]; own_steps. apply IH. Qed.
Lemma own_kp_key_loop : forall mpk k rows dec, own (kp_key_loop E mpk k rows dec) (kp_key_loop E' mpk k rows dec).
Proof. intros mpk k rows. induction rows as [|[u [lab e]] l IH]; intro dec; cbn [kp_key_loop]; own_steps. apply IH. Qed.
Lemma own_keygen : forall sch inp id mpk msk, own (keygen E sch inp id mpk msk) (keygen E' sch inp id mpk msk).
Proof.
  intros [] inp id mpk msk; cbn [keygen]; [unfold cp_keygen|unfold kp_keygen]; apply own_catch; destruct inp; own_steps.
  - apply own_cp_key_loop.
  - apply own_kp_key_loop.
Qed.
Lemma own_cp_enc_loop : forall mpk k rows, own (cp_enc_loop E mpk k rows) (cp_enc_loop E' mpk k rows).
Proof. intros mpk k rows. induction rows as [|[u [lab e]] l IH]; cbn [cp_enc_loop]; own_steps. apply IH. Qed.
Lemma own_kp_enc_loop : forall k t attrs, own (kp_enc_loop E k t attrs) (kp_enc_loop E' k t attrs).
Proof. intros k t attrs. induction attrs as [|a l IH]; cbn [kp_enc_loop]; own_steps. apply IH. Qed.
Lemma own_encrypt_kem : forall sch mpk inp n, own (encrypt_kem E sch mpk inp n) (encrypt_kem E' sch mpk inp n).
Proof.
  intros [] mpk inp n; cbn [encrypt_kem]; [unfold cp_encrypt_kem|unfold kp_encrypt_kem]; apply own_catch; destruct inp; own_steps.
  - apply own_cp_enc_loop.
  - apply own_kp_enc_loop.
Qed.
Lemma own_encrypt : forall sch mpk inp m, own (encrypt E sch mpk inp m) (encrypt E' sch mpk inp m).
Proof. intros. unfold encrypt. apply own_catch. own_steps. apply own_encrypt_kem. Qed.
Lemma own_load : forall sch id blob cl, own (load_key E sch id blob cl) (load_key E' sch id blob cl).
Proof.
  intros. unfold load_key. apply own_then; [apply own_bytes|]. intro uid. apply own_then; [apply own_lift|]. intros [k body].
  destruct (negb _); [apply own_ret|]. change (key_load (e_curve E') (e_mktime E') k body) with (key_load (e_curve E) (e_mktime E) k body). destruct (key_load (e_curve E) (e_mktime E) k body). own_steps.
Qed.
Lemma own_cp_dec_loop : forall id rows p a b, own (cp_dec_loop E id rows p a b) (cp_dec_loop E' id rows p a b).
Proof. intros id rows. induction rows as [|[u [lab e]] l IH]; intros p a b; cbn [cp_dec_loop]; own_steps. apply IH. Qed.
Lemma own_kp_dec_loop : forall id rows p a b, own (kp_dec_loop E id rows p a b) (kp_dec_loop E' id rows p a b).
Proof. intros id rows. induction rows as [|[u [lab e]] l IH]; intros p a b; cbn [kp_dec_loop]; own_steps. apply IH. Qed.
Lemma own_decrypt_kem : forall sch mpk id n, own (decrypt_kem E sch mpk id n) (decrypt_kem E' sch mpk id n).
Proof.
  intros [] mpk id n; cbn [decrypt_kem]; [unfold cp_decrypt_kem|unfold kp_decrypt_kem]; apply own_catch; own_steps.
  - apply own_cp_dec_loop.
  - apply own_kp_dec_loop.
Qed.
Lemma own_decrypt : forall sch mpk id, own (decrypt E sch mpk id) (decrypt E' sch mpk id).
Proof.
  intros sch mpk id. assert (own (decrypt_body E sch mpk id) (decrypt_body E' sch mpk id)) as H by (unfold decrypt_body; own_steps; apply own_decrypt_kem).
  intros s off ct sym. destruct (H s off ct sym) as [P Q]. cbv zeta. unfold decrypt. destruct (decrypt_body E sch mpk id _) as [w r], (decrypt_body E' sch mpk id _) as [w' r']. cbn in P, Q.
  destruct r as [|[]| | |]; cbn; (split; [exact P|]; intro G; destruct (Q G) as (<- & R); exact (conj eq_refl R)).
Qed.
Lemma own_hash_key : forall mpk, own (get_hash_key E mpk) (get_hash_key E' mpk).
Proof. intros. unfold get_hash_key. own_steps. Qed.
Lemma own_export : forall id out, own (export_key E id out) (export_key E' id out).
Proof. intros id out s off ct sym. cbn. unfold export_key. cbn. destruct (get_key s id) as [s' v]. cbn. fin. Qed.
Lemma own_drop : forall id, own (drop_key E id) (drop_key E' id).
Proof. intros id s off ct sym. cbn. unfold drop_key. cbn. destruct (delete_key s id) as [[s' v] z]. cbn. fin. Qed.
Lemma own_has : forall id, own (has_secret_key E id) (has_secret_key E' id).
Proof. intros id. own_by_hand. auto. Qed.
End Own.
