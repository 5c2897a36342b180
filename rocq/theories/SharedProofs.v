(** Run alone, the programs of SharedCtx.v are the functions of Scheme.v; programs
    that only read what is shared do not disturb each other. *)
From Verif Require Import Base StrMap ByteString UInteger Field Policy Driver Parser AttrList Utils Kdf Lsss Container Keystore Scheme SchemeSpec FreshSpec SharedCtx SharedSpec.
From Coq Require Import ZArith List Ascii Bool Lia.
Import ListNotations.
Open Scope Z_scope.

(** ** Running a program alone *)
Section Denote.
Context {K : curve}.
Fixpoint denote {A} (p : prog K A) (s : store (key K)) (o : own K) : store (key K) * own K * res A :=
  match p with
  | Ended r => (s, o, r)
  | Inside g k => denote (k o) s (g o)
  | Outside a k => let '(s', r) := perform a s in denote (k r) s' o
  end.
Lemma denote_after : forall A B (p : prog K A) (f : A -> prog K B) s o, denote (after p f) s o =
  match denote p s o with
  | (s', o', Ok a) => denote (f a) s' o'
  | (s', o', Throw e) => (s', o', Throw e) | (s', o', UB) => (s', o', UB) | (s', o', Exit) => (s', o', Exit) | (s', o', NoFuel) => (s', o', NoFuel)
  end.
Proof.
  intros A B p f. induction p as [r|g k IH|a k IH]; intros s o; cbn [after denote]; auto.
  - destruct r; auto.
  - destruct (perform a s) as [s' r]. apply IH.
Qed.
Lemma denote_outcome : forall A B (p : prog K A) (f : res A -> prog K B) s o, denote (outcome p f) s o =
  let '(s', o', r) := denote p s o in denote (f r) s' o'.
Proof.
  intros A B p f. induction p as [r|g k IH|a k IH]; intros s o; cbn [outcome denote]; auto.
  destruct (perform a s) as [s' r]. apply IH.
Qed.
End Denote.

Section Same.
Context (E : engine).
Notation K := (e_curve E).
(** The program does what the function does. *)
Definition same {A} (p : prog K A) (m : code E A) : Prop := forall w,
  denote p (w_store E w) (own_of E w) = (w_store E (fst (m w)), own_of E (fst (m w)), snd (m w)).
Lemma same_after : forall A B (p : prog K A) (m : code E A) (f : A -> prog K B) (g : A -> code E B), same p m -> (forall a, same (f a) (g a)) -> same (after p f) (andthen E m g).
Proof.
  intros A B p m f g H1 H2 w. rewrite denote_after, H1. unfold andthen. destruct (m w) as [w' [a|e| | |]]; cbn [fst snd]; auto. apply H2.
Qed.
Lemma same_catch : forall p m, same p m -> same (caught p) (catch_code E m).
Proof.
  intros p m H w. unfold caught. rewrite denote_outcome, H. unfold catch_code. destruct (m w) as [w' [a|[]| | |]]; reflexivity.
Qed.
Lemma same_ret : forall A (a : A), same (pret a) (ret E a). Proof. intros A a w. reflexivity. Qed.
Lemma same_lift : forall A (r : res A), same (plift r) (lift E r). Proof. intros A a w. reflexivity. Qed.
Lemma same_throw : forall A e, same (@pthrow K A e) (throw E e). Proof. intros A e w. reflexivity. Qed.
Lemma same_deref : forall A (o : option A), same (pderef o) (deref E o). Proof. intros A [a|] w; reflexivity. Qed.
Lemma same_notnull : forall A (o : option A), same (pnotnull o) (assert_notnull E o). Proof. intros A [a|] w; reflexivity. Qed.
Lemma same_public : forall id, same (ppublic id) (public_key E id).
Proof. intros id w. unfold ppublic, public_key. cbn [denote perform]. destruct (get_public_key (w_store E w) id) as [s v]. reflexivity. Qed.
Lemma same_secret : forall id, same (psecret id) (secret_key E id).
Proof. intros id w. unfold psecret, secret_key. cbn [denote perform]. destruct (get_secret_key (w_store E w) id) as [s v]. reflexivity. Qed.
Lemma same_put : forall id k c, same (pput id k c) (put_key E id k c). Proof. intros id k c w. reflexivity. Qed.
Lemma change_same : forall id v m, change_at K id v m = put_object E id v m.
Proof. induction m as [|[i x] m IH]; cbn; [auto|]. destruct (str_eqb id i); congruence. Qed.
Lemma same_component : forall c id name, same (pcomponent c id name) (key_component E c id name).
Proof.
  intros c id name w. unfold pcomponent, key_component. cbn [denote perform]. unfold class_map.
  destruct (mget id match c with KEY_PUBLIC => pub_keys (w_store E w) | KEY_SECRET => sec_keys (w_store E w) end) as [[k|]|] eqn:Ek; try reflexivity.
  destruct (get_component (k_parts k) name) as [p r] eqn:Ep. destruct c; cbn [denote]; rewrite change_same; destruct r; reflexivity.
Qed.
Lemma same_key_part : forall A (cast : zobj K -> option A) c id name, same (pkey_part E cast c id name) (key_part E cast c id name).
Proof. intros. unfold pkey_part, key_part. apply same_after; [apply same_component|intros; apply same_ret]. Qed.
Lemma same_ct_part : forall A (cast : zobj K -> option A) name, same (pct_part E cast name) (ct_part E cast name).
Proof.
  intros. unfold pct_part, ct_part. apply same_after; [|intros; apply same_ret]. intros w. unfold pct_component, ct_component. cbn [denote].
  change (o_ct (own_of E w)) with (w_ct E w). destruct (get_component (ct_parts (w_ct E w)) name) as [p r]. cbn [fst snd]. destruct r; reflexivity.
Qed.
Lemma same_set : forall name x, same (pset name x) (set_part E name x). Proof. intros name x w. reflexivity. Qed.
Lemma same_scheme : forall a, same (pscheme a) (set_scheme E a). Proof. intros a w. reflexivity. Qed.
Lemma same_fresh : same pfresh_sym (fresh_sym E). Proof. intros w. reflexivity. Qed.
Lemma same_bytes : same psym_bytes (sym_bytes E). Proof. intros w. reflexivity. Qed.
Lemma same_tick : forall A (f : nat -> A), same (ptick E f) (tick E f). Proof. intros A f w. reflexivity. Qed.
Lemma same_make : forall a id, same (pmake_key E a id) (make_key E a id).
Proof. intros. apply same_after; [apply same_tick|intros; apply same_ret]. Qed.
Lemma same_share : forall q s, same (pshare E q s) (share E q s).
Proof.
  intros q s w. unfold pshare, share. cbn [denote]. change (o_off (own_of E w)) with (w_off E w).
  destruct (share_secret false (order K) lsss_new q s (e_zp E) (w_off E w)) as [[l off]|e| | |]; reflexivity.
Qed.
Lemma same_sym : forall x n, same (phash_to_sym E x n) (hash_to_sym E x n).
Proof.
  intros. unfold phash_to_sym, hash_to_sym. cbv zeta. apply same_after; [apply same_lift|]. intros k.
  destruct (negb (len k =? 16) && negb (len k =? 32)); [apply same_throw|intros w; reflexivity].
Qed.
Lemma same_new : forall id, same (pis_new E id) (is_new_id E id).
Proof.
  intros id w. unfold pis_new, pget_key, is_new_id, validate_new_params_id, get_key. rewrite !denote_after.
  pose proof (same_public id w) as H. unfold public_key in H. rewrite H. destruct (get_public_key (w_store E w) id) as [s [k|]] eqn:E1; [reflexivity|].
  cbn [fst snd]. rewrite denote_after. pose proof (same_secret id (set_store E w s)) as H2. unfold secret_key in H2. rewrite H2. cbn [w_store set_store].
  destruct (get_secret_key s id) as [s' [k|]]; reflexivity.
Qed.
Ltac same_step := first
  [ apply same_ret | apply same_lift | apply same_throw | apply same_deref | apply same_notnull | apply same_public | apply same_secret
  | apply same_put | apply same_key_part | apply same_ct_part | apply same_set | apply same_scheme | apply same_fresh | apply same_bytes | apply same_tick
  | apply same_make | apply same_share | apply same_sym | apply same_new | apply same_catch
  | apply same_after; [|intros ?] ].
Ltac same_all := repeat (first [same_step | progress cbv zeta | match goal with |- same (match ?x with _ => _ end) _ => destruct x end]).
Lemma same_cp_params : forall a b, same (pcp_generate_params E a b) (cp_generate_params E a b).
Proof. intros. unfold pcp_generate_params, cp_generate_params, pboth_new, both_new. same_all. Qed.
Lemma same_kp_params : forall a b, same (pkp_generate_params E a b) (kp_generate_params E a b).
Proof. intros. unfold pkp_generate_params, kp_generate_params, pboth_new, both_new. same_all. Qed.
Lemma same_cp_key_loop : forall k t attrs dec, same (pcp_key_loop E k t attrs dec) (cp_key_loop E k t attrs dec).
Proof. intros k t. induction attrs as [|a l IH]; intros dec; cbn [pcp_key_loop cp_key_loop]; same_all. apply IH. Qed.
Lemma same_kp_key_loop : forall mpk k rows dec, same (pkp_key_loop E mpk k rows dec) (kp_key_loop E mpk k rows dec).
Proof. intros mpk k. induction rows as [|[u [lab e]] l IH]; intros dec; cbn [pkp_key_loop kp_key_loop]; same_all. apply IH. Qed.
Lemma same_cp_keygen : forall inp a b c, same (pcp_keygen E inp a b c) (cp_keygen E inp a b c).
Proof. intros. unfold pcp_keygen, cp_keygen. same_all. apply same_cp_key_loop. Qed.
Lemma same_kp_keygen : forall inp a b c, same (pkp_keygen E inp a b c) (kp_keygen E inp a b c).
Proof. intros. unfold pkp_keygen, kp_keygen. same_all. apply same_kp_key_loop. Qed.
Lemma same_cp_enc_loop : forall mpk k rows, same (pcp_enc_loop E mpk k rows) (cp_enc_loop E mpk k rows).
Proof. intros mpk k. induction rows as [|[u [lab e]] l IH]; cbn [pcp_enc_loop cp_enc_loop]; same_all. apply IH. Qed.
Lemma same_kp_enc_loop : forall k t attrs, same (pkp_enc_loop E k t attrs) (kp_enc_loop E k t attrs).
Proof. intros k t. induction attrs as [|a l IH]; cbn [pkp_enc_loop kp_enc_loop]; same_all. apply IH. Qed.
Lemma same_cp_dec_loop : forall id rows p a b, same (pcp_dec_loop E id rows p a b) (cp_dec_loop E id rows p a b).
Proof. intros id. induction rows as [|[u [lab e]] l IH]; intros; cbn [pcp_dec_loop cp_dec_loop]; same_all. apply IH. Qed.
Lemma same_kp_dec_loop : forall id rows p a b, same (pkp_dec_loop E id rows p a b) (kp_dec_loop E id rows p a b).
Proof. intros id. induction rows as [|[u [lab e]] l IH]; intros; cbn [pkp_dec_loop kp_dec_loop]; same_all. apply IH. Qed.
Lemma same_encrypt_kem : forall sch mpk inp n, same (pencrypt_kem E sch mpk inp n) (encrypt_kem E sch mpk inp n).
Proof.
  intros [] mpk inp n; cbn [pencrypt_kem encrypt_kem].
  - unfold pcp_encrypt_kem, cp_encrypt_kem. same_all. apply same_cp_enc_loop.
  - unfold pkp_encrypt_kem, kp_encrypt_kem. same_all. apply same_kp_enc_loop.
Qed.
Lemma same_decrypt_kem : forall sch mpk id n, same (pdecrypt_kem E sch mpk id n) (decrypt_kem E sch mpk id n).
Proof.
  intros [] mpk id n; cbn [pdecrypt_kem decrypt_kem].
  - unfold pcp_decrypt_kem, cp_decrypt_kem. same_all. apply same_cp_dec_loop.
  - unfold pkp_decrypt_kem, kp_decrypt_kem. same_all. apply same_kp_dec_loop.
Qed.
Lemma same_encrypt : forall sch mpk inp pt, same (pencrypt E sch mpk inp pt) (encrypt E sch mpk inp pt).
Proof. intros. unfold pencrypt, encrypt. same_all. apply same_encrypt_kem. Qed.
Lemma same_decrypt : forall sch mpk id, same (pdecrypt E sch mpk id) (decrypt E sch mpk id).
Proof.
  intros sch mpk id w. unfold pdecrypt, decrypt. rewrite denote_outcome.
  match goal with |- context [denote ?p _ _] => assert (same p (decrypt_body E sch mpk id)) as H end.
  { unfold decrypt_body. same_all. apply same_decrypt_kem. }
  rewrite H. destruct (decrypt_body E sch mpk id w) as [w' [p|[]| | |]]; reflexivity.
Qed.
Lemma public_found : forall (s s' : store (key K)) id k, get_public_key s id = (s', Some k) -> mget id (pub_keys s') = Some (Some k).
Proof.
  intros s s' id k H. unfold get_public_key, index in H. destruct (mget id (pub_keys s)) as [v|] eqn:Em; inversion H; subst; cbn [pub_keys]; exact Em.
Qed.
Lemma secret_found : forall (s s' : store (key K)) id k, get_secret_key s id = (s', Some k) -> mget id (sec_keys s') = Some (Some k).
Proof.
  intros s s' id k H. unfold get_secret_key, index in H. destruct (mget id (sec_keys s)) as [v|] eqn:Em; inversion H; subst; cbn [sec_keys]; exact Em.
Qed.
Lemma same_export : forall id out, same (pexport_key E id out) (export_key E id out).
Proof.
  intros id out w. unfold pexport_key, pget_key, export_key, get_key. rewrite !denote_after.
  pose proof (same_public id w) as H. unfold public_key in H. rewrite H. destruct (get_public_key (w_store E w) id) as [s [k|]] eqn:E1; cbn [fst snd].
  - cbn [denote pret perform w_store set_store]. rewrite (public_found _ _ _ _ E1). cbn [denote]. destruct (key_export k); reflexivity.
  - rewrite denote_after. pose proof (same_secret id (set_store E w s)) as H2. unfold secret_key in H2. rewrite H2. cbn [w_store set_store].
    destruct (get_secret_key s id) as [s' [k|]] eqn:E2; cbn [fst snd]; [|reflexivity].
    cbn [denote pret perform w_store set_store]. rewrite (secret_found _ _ _ _ E2). cbn [denote]. destruct (key_export k); reflexivity.
Qed.
Lemma same_load : forall sch id blob c, same (pload_key E sch id blob c) (load_key E sch id blob c).
Proof.
  intros. unfold pload_key, load_key. same_all.
Qed.
Lemma same_drop : forall id, same (pdrop_key E id) (drop_key E id).
Proof.
  intros id w. unfold pdrop_key, pget_key, drop_key, delete_key, get_key. rewrite !denote_after.
  pose proof (same_public id w) as H. unfold public_key in H. rewrite H. destruct (get_public_key (w_store E w) id) as [s [k|]] eqn:E1; cbn [fst snd]; [reflexivity|].
  rewrite denote_after. pose proof (same_secret id (set_store E w s)) as H2. unfold secret_key in H2. rewrite H2. cbn [w_store set_store].
  destruct (get_secret_key s id) as [s' [k|]] eqn:E2; cbn [fst snd]; reflexivity.
Qed.
Lemma same_request : forall sch q s o, denote (prequest E sch q) s o = (let '(s', o', a) := serve E sch q s o in (s', o', Ok a)).
Proof.
  intros sch q s o. assert (own_of E (world_of E s o) = o) as Ho by (destruct o; reflexivity).
  destruct q; cbn [prequest serve].
  - assert (same (match sch with CP => pcp_generate_params E | KP => pkp_generate_params E end mpk_id msk_id) (generate_params E sch mpk_id msk_id)) as H by (destruct sch; [apply same_cp_params|apply same_kp_params]).
    specialize (H (world_of E s o)). rewrite Ho in H. change (w_store E (world_of E s o)) with s in H. rewrite denote_outcome, H.
    destruct (generate_params E sch mpk_id msk_id (world_of E s o)) as [w r]. reflexivity.
  - assert (same (match sch with CP => pcp_keygen E | KP => pkp_keygen E end inp key_id mpk_id msk_id) (keygen E sch inp key_id mpk_id msk_id)) as H by (destruct sch; [apply same_cp_keygen|apply same_kp_keygen]).
    specialize (H (world_of E s o)). rewrite Ho in H. change (w_store E (world_of E s o)) with s in H. rewrite denote_outcome, H.
    destruct (keygen E sch inp key_id mpk_id msk_id (world_of E s o)) as [w r]. reflexivity.
  - cbn [denote]. rewrite denote_outcome. pose proof (same_encrypt sch mpk_id inp plaintext (set_ct E (world_of E s o) ct)) as H.
    change (w_store E (set_ct E (world_of E s o) ct)) with s in H. change (own_of E (set_ct E (world_of E s o) ct)) with (with_ct o ct) in H. rewrite H.
    destruct (encrypt E sch mpk_id inp plaintext (set_ct E (world_of E s o) ct)) as [w r]. reflexivity.
  - cbn [denote]. rewrite denote_outcome. pose proof (same_decrypt sch mpk_id key_id (set_ct E (world_of E s o) ct)) as H.
    change (w_store E (set_ct E (world_of E s o) ct)) with s in H. change (own_of E (set_ct E (world_of E s o) ct)) with (with_ct o ct) in H. rewrite H.
    destruct (decrypt E sch mpk_id key_id (set_ct E (world_of E s o) ct)) as [w r]. reflexivity.
  - rewrite denote_outcome. pose proof (same_export key_id [] (world_of E s o)) as H. rewrite Ho in H. change (w_store E (world_of E s o)) with s in H. rewrite H.
    destruct (export_key E key_id [] (world_of E s o)) as [w r]. reflexivity.
  - rewrite denote_outcome. pose proof (same_load sch id blob c (world_of E s o)) as H. rewrite Ho in H. change (w_store E (world_of E s o)) with s in H. rewrite H.
    destruct (load_key E sch id blob c (world_of E s o)) as [w r]. reflexivity.
  - rewrite denote_outcome. pose proof (same_drop key_id (world_of E s o)) as H. rewrite Ho in H. change (w_store E (world_of E s o)) with s in H. rewrite H.
    destruct (drop_key E key_id (world_of E s o)) as [w r]. reflexivity.
  - cbn. rewrite Ho. reflexivity.
Qed.
Lemma same_requests : forall sch l s o, denote (prequests E sch l) s o = (let '(s', o', a) := serve_all E sch l s o in (s', o', Ok a)).
Proof.
  intros sch. induction l as [|q l IH]; intros s o; [reflexivity|]. cbn [prequests serve_all]. rewrite denote_after, same_request.
  destruct (serve E sch q s o) as [[s1 o1] a]. rewrite denote_after, IH. destruct (serve_all E sch l s1 o1) as [[s2 o2] r]. reflexivity.
Qed.
End Same.

(** ** Programs that only read *)
Section Quiet.
Context {K : curve}.
Notation st := (store (key K)).
Definition reads (a : access K) (s : st) : Prop := forall p w, In (p, w) (touched a s) -> w = false.
Lemma change_at_same : forall id k (m : smap (option (key K))), mget id m = Some (Some k) -> change_at K id k m = m.
Proof. induction m as [|[i x] m IH]; cbn; [discriminate|]. destruct (str_eqb id i) eqn:Ei; intro H; [congruence|]. rewrite IH; auto. Qed.
Lemma reads_same : forall a s, reads a s -> fst (perform a s) = s.
Proof.
  intros a s H. unfold reads in H. destruct a; cbn [perform touched] in *.
  - unfold get_public_key, index. unfold mmem in H. destruct (mget id (pub_keys s)) eqn:Em; [destruct s; reflexivity|].
    specialize (H _ _ (or_introl eq_refl)). discriminate.
  - unfold get_secret_key, index. unfold mmem in H. destruct (mget id (sec_keys s)) eqn:Em; [destruct s; reflexivity|].
    specialize (H _ _ (or_introl eq_refl)). discriminate.
  - unfold class_of in H. destruct (mget id match c with KEY_PUBLIC => pub_keys s | KEY_SECRET => sec_keys s end) as [[k|]|] eqn:Em; try reflexivity.
    specialize (H _ _ (or_introl eq_refl)). unfold mmem in H. unfold get_component, index. destruct (mget name (k_parts k)) as [v|] eqn:En; [|discriminate].
    destruct s as [p q]. destruct c; cbn [fst pub_keys sec_keys] in *; rewrite change_at_same by (destruct k; exact Em); reflexivity.
  - specialize (H _ _ (or_introl eq_refl)). discriminate.
  - pose proof (H _ _ (or_introl eq_refl)) as H1. pose proof (H _ _ (or_intror (or_introl eq_refl))) as H2. rewrite H1, H2. destruct s; reflexivity.
  - reflexivity.
  - reflexivity.
Qed.
(** The program, started so, only reads. *)
Fixpoint calm_prog {A} (s : st) (o : own K) (p : prog K A) : Prop :=
  match p with
  | Ended _ => True
  | Inside g k => calm_prog s (g o) (k o)
  | Outside a k => reads a s /\ calm_prog s o (k (snd (perform a s)))
  end.
(** How many turns it takes. *)
Fixpoint length_of {A} (s : st) (o : own K) (p : prog K A) : nat :=
  match p with
  | Ended _ => O
  | Inside g k => S (length_of s (g o) (k o))
  | Outside a k => S (length_of s o (k (snd (perform a s))))
  end.

(** ** Machines of such programs *)
Context {R : Type}.
Definition expects (s : st) (t : own K * prog K R) (x : own K * res R) : Prop :=
  calm_prog s (fst t) (snd t) /\ denote (snd t) s (fst t) = (s, fst x, snd x).
Definition settled (s : st) (xs : list (own K * res R)) (m : machine K R) : Prop := m_store m = s /\ Forall2 (expects s) (m_threads m) xs.
Lemma replace_forall2 : forall T U (P : T -> U -> Prop) l xs i t t', Forall2 P l xs -> nth_error l i = Some t -> (forall x, P t x -> P t' x) -> Forall2 P (replace_at i t' l) xs.
Proof.
  intros T U P l xs i t t' H. revert i. induction H as [|a x l xs Hh Ht IH]; intros [|i] Hn Hp; cbn in *; try discriminate.
  - injection Hn as ->. constructor; auto.
  - constructor; eauto.
Qed.
Lemma nth_replace : forall T i (x : T) l j, nth_error (replace_at i x l) j = if Nat.eqb i j then (match nth_error l j with Some _ => Some x | None => None end) else nth_error l j.
Proof.
  intros T i x l. revert i. induction l as [|y l IH]; intros [|i] [|j]; cbn; auto; destruct (Nat.eqb i j) eqn:Ej; auto; rewrite IH, Ej; reflexivity.
Qed.
Lemma move_settled : forall s xs m i, settled s xs m -> settled s xs (move m i).
Proof.
  intros s xs m i [Hs H]. unfold move. destruct (nth_error (m_threads m) i) as [[o p]|] eqn:En; [|split; auto]. destruct p as [r|g k|a k].
  - split; auto.
  - split; [exact Hs|]. cbn [m_threads]. eapply replace_forall2; [exact H|exact En|]. intros x [C D]. exact (conj C D).
  - destruct (perform a (m_store m)) as [s' r] eqn:Ep. rewrite Hs in Ep.
    assert (s' = s /\ r = snd (perform a s)) as [E1 E2].
    { clear - H En Ep. assert (reads a s) as Ra.
      { apply nth_error_In in En. clear Ep. induction H as [|t x l xs Hh Ht IH]; [destruct En|]. destruct En as [->|En]; [exact (proj1 (proj1 Hh))|auto]. }
      apply reads_same in Ra. rewrite Ep in *. cbn in *. auto. }
    subst s' r. split; [reflexivity|]. cbn [m_threads]. eapply replace_forall2; [exact H|exact En|].
    intros x [[C1 C2] D]. split; [exact C2|]. cbn [fst snd denote] in *. rewrite Ep in D. rewrite Ep. exact D.
Qed.
Lemma play_settled : forall s xs schedule m, settled s xs m -> settled s xs (play m schedule).
Proof. intros s xs. induction schedule as [|i l IH]; intros m H; [exact H|]. cbn. apply IH, move_settled, H. Qed.
Lemma settled_calm : forall s xs m i o p, settled s xs m -> nth_error (m_threads m) i = Some (o, p) -> calm_prog s o p.
Proof.
  intros s xs m i o p [_ H] En. apply nth_error_In in En. induction H as [|t x l xs Hh Ht IH]; [destruct En|]. destruct En as [->|En]; [exact (proj1 Hh)|auto].
Qed.
Lemma settled_no_race : forall s xs m, settled s xs m -> ~ race m.
Proof.
  intros s xs m H (i & j & p & w & w' & Nij & (o & a & k & Ha & Ia) & (o' & a' & k' & Ha' & Ia') & Hw). rewrite (proj1 H) in Ia, Ia'.
  pose proof (settled_calm _ _ _ _ _ _ H Ha) as [R1 _]. pose proof (settled_calm _ _ _ _ _ _ H Ha') as [R2 _].
  rewrite (R1 _ _ Ia), (R2 _ _ Ia') in Hw. discriminate.
Qed.
Lemma settled_nth : forall s xs m i o r, settled s xs m -> nth_error (m_threads m) i = Some (o, Ended r) -> nth_error xs i = Some (o, r).
Proof.
  intros s xs m i o r [_ H]. revert i. induction H as [|t x l xs Hh Ht IH]; intros [|i] En; cbn in *; try discriminate; [|eauto].
  injection En as ->. destruct Hh as [_ D]. cbn in D. injection D as -> ->. destruct x; reflexivity.
Qed.
(** Every turn is progress. *)
Lemma move_length : forall s xs m i j o p, settled s xs m -> nth_error (m_threads m) j = Some (o, p) ->
  exists o' p', nth_error (m_threads (move m i)) j = Some (o', p') /\ length_of s o' p' = (length_of s o p - (if Nat.eq_dec i j then 1 else 0))%nat.
Proof.
  intros s xs m i j o p H En. destruct (Nat.eq_dec i j) as [->|N].
  - unfold move. rewrite En. destruct p as [r|g k|a k].
    + exists o, (Ended r). split; [exact En|reflexivity].
    + exists (g o), (k o). cbn [m_threads]. rewrite nth_replace, Nat.eqb_refl, En. split; [reflexivity|]. cbn. lia.
    + pose proof (settled_calm _ _ _ _ _ _ H En) as [Ra _]. rewrite (proj1 H). destruct (perform a s) as [s' r] eqn:Ep. exists o, (k r). cbn [m_threads].
      rewrite nth_replace, Nat.eqb_refl, En. split; [reflexivity|]. cbn [length_of]. rewrite Ep. cbn. lia.
  - exists o, p. split; [|lia]. unfold move. destruct (nth_error (m_threads m) i) as [[o1 p1]|]; [|exact En].
    destruct p1 as [r|g k|a k]; [exact En| |destruct (perform a (m_store m))]; cbn [m_threads]; rewrite nth_replace; apply Nat.eqb_neq in N; rewrite N; exact En.
Qed.
Lemma play_length : forall s xs j schedule m o p, settled s xs m -> nth_error (m_threads m) j = Some (o, p) ->
  exists o' p', nth_error (m_threads (play m schedule)) j = Some (o', p') /\ length_of s o' p' = (length_of s o p - turns_of j schedule)%nat.
Proof.
  intros s xs j. induction schedule as [|i l IH]; intros m o p H En.
  - exists o, p. split; [exact En|]. cbn. lia.
  - destruct (move_length s xs m i j o p H En) as (o1 & p1 & E1 & L1). destruct (IH (move m i) o1 p1 (move_settled _ _ _ _ H) E1) as (o2 & p2 & E2 & L2).
    exists o2, p2. split; [exact E2|]. rewrite L2, L1. unfold turns_of. cbn [count_occ]. destruct (Nat.eq_dec i j); lia.
Qed.
Lemma play_ends : forall s xs j schedule m o p, settled s xs m -> nth_error (m_threads m) j = Some (o, p) -> (length_of s o p <= turns_of j schedule)%nat ->
  exists x, nth_error xs j = Some x /\ nth_error (m_threads (play m schedule)) j = Some (fst x, Ended (snd x)).
Proof.
  intros s xs j schedule m o p H En Hl. destruct (play_length s xs j schedule m o p H En) as (o' & p' & E' & L').
  destruct p' as [r|g k|a k]; cbn [length_of] in L'; try lia. exists (o', r). split; [|exact E'].
  eapply settled_nth; [apply play_settled; exact H|exact E'].
Qed.
End Quiet.

(** ** Lookups that change nothing *)
Section Weight.
Context {K : curve}.
Notation st := (store (key K)).
Fixpoint entries (m : smap (option (key K))) : nat :=
  match m with [] => O | (_, Some k) :: m' => (S (length (k_parts k)) + entries m')%nat | (_, None) :: m' => S (entries m') end.
Definition weight (s : st) : nat := (entries (pub_keys s) + entries (sec_keys s))%nat.
Definition lookup (a : access K) : bool := match a with Assign _ _ _ | Erase _ => false | _ => true end.
Lemma entries_new : forall id (m : smap (option (key K))), mget id m = None -> entries (mset id None m) = S (entries m).
Proof.
  induction m as [|[i x] m IH]; cbn; auto. destruct (str_eqb id i); [discriminate|]. intro H. destruct (str_ltb id i); cbn; auto. destruct x; rewrite IH; auto.
Qed.
Lemma parts_new : forall (c : container K) n, mget n c = None -> length (mset n None c) = S (length c).
Proof. induction c as [|[i x] m IH]; cbn; auto. intros n. destruct (str_eqb n i); [discriminate|]. intro H. destruct (str_ltb n i); cbn; auto. Qed.
Lemma entries_change : forall id k k' (m : smap (option (key K))), mget id m = Some (Some k) -> length (k_parts k') = S (length (k_parts k)) ->
  entries (change_at K id k' m) = S (entries m).
Proof.
  induction m as [|[i x] m IH]; cbn; [discriminate|]. destruct (str_eqb id i).
  - intros H L. injection H as ->. cbn [entries]. lia.
  - intros H L. cbn [entries]. destruct x; rewrite (IH H L); lia.
Qed.
Lemma lookup_grows : forall a s, lookup a = true -> reads a s \/ (weight s < weight (fst (perform a s)))%nat.
Proof.
  intros a s H. unfold reads, weight. destruct a; try discriminate; cbn [perform touched].
  - unfold get_public_key, index, mmem. destruct (mget id (pub_keys s)) eqn:Em.
    + left. intros p w [X|[]]. injection X as _ <-. reflexivity.
    + right. cbn [fst pub_keys sec_keys]. rewrite (entries_new _ _ Em). lia.
  - unfold get_secret_key, index, mmem. destruct (mget id (sec_keys s)) eqn:Em.
    + left. intros p w [X|[]]. injection X as _ <-. reflexivity.
    + right. cbn [fst pub_keys sec_keys]. rewrite (entries_new _ _ Em). lia.
  - unfold class_of. destruct (mget id match c with KEY_PUBLIC => pub_keys s | KEY_SECRET => sec_keys s end) as [[k|]|] eqn:Em; try solve [left; intros p w []].
    unfold get_component, index, mmem. destruct (mget name (k_parts k)) eqn:En.
    + left. intros p w [X|[]]. injection X as _ <-. reflexivity.
    + right. destruct c; cbn [fst pub_keys sec_keys];
        rewrite (entries_change _ k) by (try exact Em; cbn [k_parts]; apply parts_new; exact En); lia.
  - left. intros p w [X|[]]. injection X as _ <-. reflexivity.
  - left. intros p w [X|[]]. injection X as _ <-. reflexivity.
Qed.
Fixpoint looker {A} (p : prog K A) : Prop :=
  match p with
  | Ended _ => True
  | Inside g k => forall o, looker (k o)
  | Outside a k => lookup a = true /\ forall r, looker (k r)
  end.
Lemma looker_grows : forall A (p : prog K A) s o, looker p -> (weight s <= weight (fst (fst (denote p s o))))%nat.
Proof.
  intros A. induction p as [r|g k IH|a k IH]; intros s o H; cbn [denote]; [cbn; lia|apply IH, H|].
  destruct H as [Ha Hk]. destruct (perform a s) as [s' r] eqn:Ep. specialize (IH r s' o (Hk r)).
  destruct (lookup_grows a s Ha) as [R1|R1]; [apply reads_same in R1|]; rewrite Ep in R1; cbn [fst] in R1; [subst; exact IH|lia].
Qed.
Lemma looker_calm : forall A (p : prog K A) s o, looker p -> fst (fst (denote p s o)) = s -> calm_prog s o p.
Proof.
  intros A. induction p as [r|g k IH|a k IH]; intros s o H E; cbn [denote calm_prog] in *; [exact I|apply IH; auto|].
  destruct H as [Ha Hk]. destruct (perform a s) as [s' r] eqn:Ep. pose proof (looker_grows _ (k r) s' o (Hk r)) as G.
  destruct (lookup_grows a s Ha) as [R1|R1].
  - split; [exact R1|]. apply reads_same in R1. rewrite Ep in R1. cbn in R1. subst s'. cbn [snd]. apply IH; auto.
  - exfalso. rewrite E in G. rewrite Ep in R1. cbn in R1. lia.
Qed.
Lemma looker_after : forall A B (p : prog K A) (f : A -> prog K B), looker p -> (forall a, looker (f a)) -> looker (after p f).
Proof.
  intros A B p f. induction p as [r|g k IH|a k IH]; intros H1 H2; cbn [after looker] in *.
  - destruct r; cbn; auto.
  - intros o. apply IH; auto.
  - destruct H1 as [Ha Hk]. split; [exact Ha|]. intros r. apply IH; auto.
Qed.
Lemma looker_outcome : forall A B (p : prog K A) (f : res A -> prog K B), looker p -> (forall a, looker (f a)) -> looker (outcome p f).
Proof.
  intros A B p f. induction p as [r|g k IH|a k IH]; intros H1 H2; cbn [outcome looker] in *.
  - apply H2.
  - intros o. apply IH; auto.
  - destruct H1 as [Ha Hk]. split; [exact Ha|]. intros r. apply IH; auto.
Qed.
Lemma looker_caught : forall (p : prog K Z), looker p -> looker (caught p).
Proof. intros p H. apply looker_outcome; [exact H|]. intros [a|[]| | |]; exact I. Qed.
End Weight.

Section Lookers.
Context (E : engine).
Notation K := (e_curve E).
Lemma looker_deref : forall A (o : option A), @looker K A (pderef o). Proof. intros A [a|]; exact I. Qed.
Lemma looker_notnull : forall A (o : option A), @looker K A (pnotnull o). Proof. intros A [a|]; exact I. Qed.
Lemma looker_public : forall id, @looker K _ (ppublic id). Proof. intros id. split; [reflexivity|]. intros []; exact I. Qed.
Lemma looker_secret : forall id, @looker K _ (psecret id). Proof. intros id. split; [reflexivity|]. intros []; exact I. Qed.
Lemma looker_key_part : forall A (cast : zobj K -> option A) c id n, looker (pkey_part E cast c id n).
Proof. intros. apply looker_after; [|intros a; exact I]. split; [reflexivity|]. intros []; exact I. Qed.
Lemma looker_ct_part : forall A (cast : zobj K -> option A) n, looker (pct_part E cast n).
Proof. intros. apply looker_after; [|intros a; exact I]. intros o. exact I. Qed.
Lemma looker_tick : forall A (f : nat -> A), looker (ptick E f). Proof. intros A f o. exact I. Qed.
Lemma looker_set : forall n x, @looker K _ (pset n x). Proof. intros n x o. exact I. Qed.
Lemma looker_share : forall q s, looker (pshare E q s).
Proof. intros q s o. destruct (share_secret _ _ _ _ _ _ _) as [[l off]| | | |]; exact I. Qed.
Lemma looker_sym : forall x n, looker (phash_to_sym E x n).
Proof. intros. unfold phash_to_sym. cbv zeta. apply looker_after; [exact I|]. intros k. destruct (_ && _); [exact I|intros o; exact I]. Qed.
Ltac look := repeat first [exact I | apply looker_deref | apply looker_notnull | apply looker_public | apply looker_secret | apply looker_key_part | apply looker_ct_part
  | apply looker_tick | apply looker_set | apply looker_share | apply looker_sym | apply looker_caught | apply looker_after; [|intros ?] | progress cbv zeta
  | match goal with |- looker (match ?x with _ => _ end) => destruct x end | (intros o; exact I)].
Lemma looker_encrypt : forall sch mpk inp pt, looker (pencrypt E sch mpk inp pt).
Proof.
  intros. unfold pencrypt. apply looker_caught. apply looker_after; [intros o; exact I|]. intros _. apply looker_after; [|intros r; look].
  destruct sch; cbn [pencrypt_kem]; [unfold pcp_encrypt_kem|unfold pkp_encrypt_kem]; look.
  - match goal with |- looker (pcp_enc_loop E _ _ ?l) => induction l as [|[u [lab e]] l IH] end; cbn [pcp_enc_loop]; look. exact IH.
  - match goal with |- looker (pkp_enc_loop E _ _ ?l) => induction l as [|x0 l' IH] end; cbn [pkp_enc_loop]; look. exact IH.
Qed.
Lemma looker_decrypt : forall sch mpk id, looker (pdecrypt E sch mpk id).
Proof.
  intros. unfold pdecrypt. apply looker_outcome; [|intros [a|[]| | |]; exact I]. apply looker_after; [intros o; exact I|]. intros _. apply looker_after; [|intros r; look].
  destruct sch; cbn [pdecrypt_kem]; [unfold pcp_decrypt_kem|unfold pkp_decrypt_kem]; look.
  - match goal with |- looker (pcp_dec_loop E _ ?l ?a ?b ?c) => generalize a b c; induction l as [|[u [lab e]] l IH] end; intros; cbn [pcp_dec_loop]; look. apply IH.
  - match goal with |- looker (pkp_dec_loop E _ ?l ?a ?b ?c) => generalize a b c; induction l as [|[u [lab e]] l IH] end; intros; cbn [pkp_dec_loop]; look. apply IH.
Qed.
Lemma looker_request : forall sch q, uses_keys q -> looker (prequest E sch q).
Proof.
  intros sch q H. destruct q; try destruct H; cbn [prequest].
  - intros o. apply looker_outcome; [apply looker_encrypt|]. intros r o'. exact I.
  - intros o. apply looker_outcome; [apply looker_decrypt|]. intros r. exact I.
  - apply looker_outcome; [|intros r; exact I]. unfold pexport_key, pget_key. apply looker_after; [look|]. intros [[k c]|]; [|exact I].
    split; [reflexivity|]. intros [[k'|]| | | |]; exact I.
  - apply looker_outcome; [|intros r; exact I]. split; [reflexivity|]. intros []; exact I.
Qed.
Lemma looker_requests : forall sch l, Forall uses_keys l -> looker (prequests E sch l).
Proof.
  intros sch l H. induction H as [|q l Hq Hl IH]; cbn [prequests]; [exact I|]. apply looker_after; [apply looker_request, Hq|]. intros a. apply looker_after; [exact IH|]. intros r. exact I.
Qed.
End Lookers.

(** ** When encrypt and decrypt leave the store alone *)
Section Honest.
Context (E : engine).
Notation K := (e_curve E).
Definition lost (e : Z) : Prop := e = 5 \/ e = 8 \/ e = 18.
Definition honest {A} (m : code E A) : Prop := forall w, w_store E (fst (m w)) = w_store E w \/ exists e, lost e /\ snd (m w) = Throw (OpenABEError e).
Lemma honest_same : forall A (m : code E A), (forall w, w_store E (fst (m w)) = w_store E w) -> honest m.
Proof. intros A m H w. left. apply H. Qed.
Lemma honest_then : forall A B (m : code E A) (f : A -> code E B), honest m -> (forall a, honest (f a)) -> honest (andthen E m f).
Proof.
  intros A B m f Hm Hf w. unfold andthen. destruct (Hm w) as [H|(e & Le & H)]; destruct (m w) as [w' [a|x| | |]]; cbn [fst snd] in *; try discriminate; auto.
  - destruct (Hf a w') as [H'|H']; [left; congruence|right; exact H'].
  - right. exists e. injection H as ->. auto.
Qed.
Lemma honest_key_part : forall A (cast : zobj K -> option A) c id n, honest (key_part E cast c id n).
Proof.
  intros. unfold key_part. apply honest_then; [|intros a; apply honest_same; reflexivity]. intros w. unfold key_component.
  destruct (mget id (class_map E c (w_store E w))) as [[k|]|] eqn:Em; try (left; reflexivity). unfold get_component, index.
  destruct (mget n (k_parts k)) as [v|] eqn:En.
  - left. cbn [fst]. unfold set_store. cbn [w_store]. destruct (w_store E w) as [p s]. destruct c; cbn in *; f_equal; rewrite <- change_same; apply change_at_same; destruct k; exact Em.
  - right. exists 18. split; [unfold lost; auto|reflexivity].
Qed.
Lemma honest_public : forall A id (f : option (key K) -> code E A), (forall k, honest (f (Some k))) -> (forall w, exists w' e, f None w = (w', Throw (OpenABEError e)) /\ lost e) -> honest (andthen E (public_key E id) f).
Proof.
  intros A id f H1 H2 w. unfold andthen, public_key, get_public_key, index. destruct (mget id (pub_keys (w_store E w))) as [[k|]|] eqn:Em.
  - destruct (H1 k (set_store E w {| pub_keys := pub_keys (w_store E w); sec_keys := sec_keys (w_store E w) |})) as [H|H]; [left|right; exact H].
    rewrite H. cbn. destruct (w_store E w); reflexivity.
  - right. destruct (H2 (set_store E w {| pub_keys := pub_keys (w_store E w); sec_keys := sec_keys (w_store E w) |})) as (w' & e & H & Le). exists e. rewrite H. auto.
  - right. destruct (H2 (set_store E w {| pub_keys := mset id None (pub_keys (w_store E w)); sec_keys := sec_keys (w_store E w) |})) as (w' & e & H & Le). exists e. rewrite H. auto.
Qed.
Lemma honest_secret : forall A id (f : option (key K) -> code E A), (forall k, honest (f (Some k))) -> (forall w, exists w' e, f None w = (w', Throw (OpenABEError e)) /\ lost e) -> honest (andthen E (secret_key E id) f).
Proof.
  intros A id f H1 H2 w. unfold andthen, secret_key, get_secret_key, index. destruct (mget id (sec_keys (w_store E w))) as [[k|]|] eqn:Em.
  - destruct (H1 k (set_store E w {| pub_keys := pub_keys (w_store E w); sec_keys := sec_keys (w_store E w) |})) as [H|H]; [left|right; exact H].
    rewrite H. cbn. destruct (w_store E w); reflexivity.
  - right. destruct (H2 (set_store E w {| pub_keys := pub_keys (w_store E w); sec_keys := sec_keys (w_store E w) |})) as (w' & e & H & Le). exists e. rewrite H. auto.
  - right. destruct (H2 (set_store E w {| pub_keys := pub_keys (w_store E w); sec_keys := mset id None (sec_keys (w_store E w)) |})) as (w' & e & H & Le). exists e. rewrite H. auto.
Qed.
Lemma honest_deref : forall A (o : option A), honest (deref E o). Proof. intros A [a|] w; left; reflexivity. Qed.
Lemma honest_notnull : forall A (o : option A), honest (assert_notnull E o). Proof. intros A [a|] w; left; reflexivity. Qed.
Lemma honest_ct_part : forall A (cast : zobj K -> option A) n, honest (ct_part E cast n).
Proof. intros. apply honest_then; [|intros a; apply honest_same; reflexivity]. intros w. left. unfold ct_component. destruct (get_component _ n). reflexivity. Qed.
Lemma honest_share : forall q s, honest (share E q s).
Proof. intros q s w. left. unfold share. destruct (share_secret _ _ _ _ _ _ _) as [[l off]| | | |]; reflexivity. Qed.
Lemma honest_sym : forall x n, honest (hash_to_sym E x n).
Proof. intros. unfold hash_to_sym. cbv zeta. apply honest_then; [apply honest_same; reflexivity|]. intros k. destruct (_ && _); apply honest_same; reflexivity. Qed.
Ltac hon := repeat first [apply honest_deref | apply honest_notnull | apply honest_key_part | apply honest_ct_part | apply honest_share | apply honest_sym
  | (apply honest_same; reflexivity)
  | (apply honest_public; [intros ?|intros ?w; eexists; eexists; split; [reflexivity|unfold lost; auto; fail]])
  | (apply honest_secret; [intros ?|intros ?w; eexists; eexists; split; [reflexivity|unfold lost; auto; fail]])
  | apply honest_then; [|intros ?] | progress cbv zeta
  | match goal with |- honest (match ?x with _ => _ end) => destruct x end ].
(** After the catch: the code says it. *)
Definition told (m : code E Z) : Prop := forall w, w_store E (fst (m w)) = w_store E w \/ exists e, lost e /\ snd (m w) = Ok e.
Lemma told_catch : forall m, honest m -> told (catch_code E m).
Proof.
  intros m H w. unfold catch_code. destruct (H w) as [H1|(e & Le & H1)]; destruct (m w) as [w' [a|[]| | |]]; cbn [fst snd] in *; try discriminate; auto.
  right. exists e. split; [exact Le|congruence].
Qed.
Lemma told_then : forall A (m : code E Z) (f : Z -> code E A), told m -> (forall a, honest (f a)) -> (forall e w, lost e -> snd (f e w) = Throw (OpenABEError e)) -> honest (andthen E m f).
Proof.
  intros A m f Hm Hf Hl w. unfold andthen. destruct (Hm w) as [H|(e & Le & H)]; destruct (m w) as [w' [a|x| | |]]; cbn [fst snd] in *; try discriminate; auto.
  - destruct (Hf a w') as [H'|H']; [left; congruence|right; exact H'].
  - right. exists e. injection H as ->. auto.
Qed.
Lemma told_encrypt_kem : forall sch mpk inp n, told (encrypt_kem E sch mpk inp n).
Proof.
  intros [] mpk inp n; cbn [encrypt_kem]; apply told_catch; destruct inp; try (apply honest_same; reflexivity); hon.
  - match goal with |- honest (cp_enc_loop E _ _ ?l) => induction l as [|[u [lab e]] rows IH] end; cbn [cp_enc_loop]; hon. exact IH.
  - match goal with |- honest (kp_enc_loop E _ _ ?l) => induction l as [|x0 rows IH] end; cbn [kp_enc_loop]; hon. exact IH.
Qed.
Lemma told_decrypt_kem : forall sch mpk id n, told (decrypt_kem E sch mpk id n).
Proof.
  intros [] mpk id n; cbn [decrypt_kem]; apply told_catch; hon.
  - match goal with |- honest (cp_dec_loop E _ ?l ?a ?b ?c) => generalize a b c; induction l as [|[u [lab e]] rows IH] end; intros; cbn [cp_dec_loop]; hon. apply IH.
  - match goal with |- honest (kp_dec_loop E _ ?l ?a ?b ?c) => generalize a b c; induction l as [|[u [lab e]] rows IH] end; intros; cbn [kp_dec_loop]; hon. apply IH.
Qed.
Lemma told_encrypt : forall sch mpk inp pt, told (encrypt E sch mpk inp pt).
Proof.
  intros. unfold encrypt. apply told_catch. apply honest_then; [apply honest_same; reflexivity|]. intros _. apply told_then; [apply told_encrypt_kem| |].
  - intros a. hon.
  - intros e w Le. destruct Le as [->|[->| ->]]; reflexivity.
Qed.
Lemma told_decrypt : forall sch mpk id w, w_store E (fst (decrypt E sch mpk id w)) = w_store E w \/ exists e, lost e /\ snd (decrypt E sch mpk id w) = Ok (e, []).
Proof.
  intros sch mpk id w. assert (honest (decrypt_body E sch mpk id)) as H.
  { unfold decrypt_body. apply honest_then; [apply honest_same; reflexivity|]. intros _. apply told_then; [apply told_decrypt_kem| |].
    - intros a. hon.
    - intros e w' Le. destruct Le as [->|[->| ->]]; reflexivity. }
  unfold decrypt. destruct (H w) as [H1|(e & Le & H1)]; destruct (decrypt_body E sch mpk id w) as [w' [a|[]| | |]]; cbn [fst snd] in *; try discriminate; auto.
  right. exists e. injection H1 as ->. auto.
Qed.
End Honest.
