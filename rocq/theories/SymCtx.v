(** Proofs about the symmetric streaming context. *)
From Verif Require Import Base StrMap ByteString ByteStringProofs Utils Keystore KeystoreProofs Sym SymSpec SymProofs.
From Coq Require Import ZArith List Ascii Bool Lia ZifyBool ZifyNat.
Import ListNotations.
Open Scope Z_scope.

Definition key_of (c : ske) (id : str) : option symkey := look (sec_keys (c_store c)) id.

Lemma get_secret_eq : forall (s : store symkey) id, get_secret_key s id = (fst (get_secret_key s id), look (sec_keys s) id).
Proof. intros s id. destruct (get_secret_spec s id) as (_ & _ & H). destruct (get_secret_key s id). cbn in *. now subst. Qed.

(** *** A session through the context is a session of a fresh stream *)
Lemma ctx_enc_loop_spec : forall G blocks c s out, c_enc c = Some s -> (exists e v, s_enc s = true /\ s_ctx s = Some e /\ ev_iv e = Some v) ->
  Forall (fun b => 0 < len b < 2147483647) blocks ->
  match enc_loop G s out blocks with
  | Some (s', out') => ctx_enc_loop G c out blocks = Some (with_enc c (Some s'), out')
  | None => True
  end.
Proof.
  intros G. induction blocks as [|b bs IH]; intros c s out Hc (e & v & He & Hx & Hv) Hb; cbn [enc_loop ctx_enc_loop].
  - destruct c. cbn in *. subst. reflexivity.
  - inversion Hb as [|? ? Hb1 Hb2]; subst. unfold ctx_encrypt_update. rewrite Hc.
    unfold encrypt_update. rewrite He, Hx, too_long_false by lia. replace (0 <? len b) with true by lia. cbn [negb].
    unfold evp_update. rewrite Hv, crypt_len, Z.eqb_refl.
    match goal with |- match enc_loop G ?s1 ?o1 bs with _ => _ end => specialize (IH (with_enc c (Some s1)) s1 o1 eq_refl) end.
    apply IH; [|exact Hb2]. cbn [s_enc s_ctx]. eexists _, v. split; [reflexivity|]. split; reflexivity.
Qed.
Lemma ctx_dec_loop_spec : forall G blocks c s out, c_dec c = Some s -> (exists e v, s_dec s = true /\ s_ctx s = Some e /\ ev_iv e = Some v) ->
  Forall (fun b => 0 < len b < 2147483647) blocks ->
  match dec_loop G s out blocks with
  | Some (s', out') => ctx_dec_loop G c out blocks = Some (with_dec c (Some s'), out')
  | None => True
  end.
Proof.
  intros G. induction blocks as [|b bs IH]; intros c s out Hc (e & v & He & Hx & Hv) Hb; cbn [dec_loop ctx_dec_loop].
  - destruct c. cbn in *. subst. reflexivity.
  - inversion Hb as [|? ? Hb1 Hb2]; subst. unfold ctx_decrypt_update. rewrite Hc.
    unfold decrypt_update. rewrite He, Hx, too_long_false by lia. replace (0 <? len b) with true by lia. cbn [negb].
    unfold evp_update. rewrite Hv, crypt_len, Z.eqb_refl.
    match goal with |- match dec_loop G ?s1 ?o1 bs with _ => _ end => specialize (IH (with_dec c (Some s1)) s1 o1 eq_refl) end.
    apply IH; [|exact Hb2]. cbn [s_dec s_ctx]. eexists _, v. split; [reflexivity|]. split; reflexivity.
Qed.
Definition opened (G : gcm) (enc : bool) (key v iv0 : str) (t : option str) : stream :=
  {| s_key := key; s_ctx := Some {| ev_key := key; ev_iv := Some v; ev_aad := zeros16; ev_data := []; ev_tag := t |};
     s_iv := iv0; s_aad := zeros16; s_aad_set := true; s_enc := enc; s_dec := negb enc;
     s_total := if enc then 0 else 2^64 - 1; s_encn := if enc then 0 else 2^64 - 1; s_decn := if enc then 2^64 - 1 else 0 |}.
Lemma ctx_encrypt_init_exact : forall G c id iv k iv0, gcm_ok G -> key_of c id = Some k -> len (sk_data k) = 32 -> len iv = 16 ->
  ctx_encrypt_init G c id iv0 iv =
  ({| c_store := fst (get_secret_key (c_store c) id); c_enc := Some (opened G true (sk_data k) iv iv None); c_dec := c_dec c |}, iv, Ok 0).
Proof.
  intros G c id iv k iv0 [Hm Hi] Hk Hl Hiv. unfold ctx_encrypt_init. rewrite get_secret_eq. unfold key_of in Hk. rewrite Hk.
  unfold encrypt_init, new_stream. cbn [s_enc s_dec s_key s_aad s_aad_set s_decn]. unfold evp_init. replace (len (sk_data k) <? 32) with false by lia.
  rewrite Hi by auto. rewrite firstn_self by (unfold len in Hl; lia). reflexivity.
Qed.
Lemma ctx_decrypt_init_exact : forall G c id iv t k v, key_of c id = Some k -> len (sk_data k) = 32 -> iv_used G iv = Some v ->
  ctx_decrypt_init G c id iv t =
  ({| c_store := fst (get_secret_key (c_store c) id); c_enc := c_enc c;
      c_dec := Some (opened G false (sk_data k) v [] (if (0 <? len t) && (len t <=? 16) then Some t else None)) |}, Ok 0).
Proof.
  intros G c id iv t k v Hk Hl Hv. unfold ctx_decrypt_init. rewrite get_secret_eq. unfold key_of in Hk. rewrite Hk.
  unfold decrypt_init, new_stream. cbn [s_enc s_dec s_key s_aad s_aad_set s_decn]. unfold evp_init. replace (len (sk_data k) <? 32) with false by lia.
  rewrite Hv. rewrite firstn_self by (unfold len in Hl; lia). unfold evp_set_tag. cbn [ev_iv ev_key ev_aad ev_data ev_tag].
  destruct ((0 <? len t) && (len t <=? 16)); reflexivity.
Qed.
Lemma keys_kept : forall (s : store symkey) id x, look (sec_keys (fst (get_secret_key s id))) x = look (sec_keys s) x.
Proof. intros s id x. apply (proj1 (get_secret_spec s id)). Qed.

Lemma ctx_enc_session_exact : forall G c id iv k blocks, gcm_ok G -> key_of c id = Some k -> len (sk_data k) = 32 -> len iv = 16 -> blocks_ok blocks -> total_len blocks < 2^32 ->
  exists c', c_enc c' = None /\ c_dec c' = c_dec c /\ (forall x, key_of c' x = key_of c x) /\
  ctx_enc_session G c id iv blocks =
  Some (iv, crypt G (sk_data k) iv 0 (concat blocks), mac G (sk_data k) iv zeros16 (crypt G (sk_data k) iv 0 (concat blocks)), c', Ok 0).
Proof.
  intros G c id iv k blocks HG Hk Hl Hiv Hb Ht. pose proof (blocks_pos blocks Hb) as Hbp. destruct Hb as [Hbn Hbf].
  unfold ctx_enc_session. erewrite ctx_encrypt_init_exact by eauto.
  set (c1 := {| c_store := _; c_enc := _; c_dec := _ |}).
  pose proof (ctx_enc_loop_spec G blocks c1 (opened G true (sk_data k) iv iv None) [] eq_refl) as X.
  erewrite enc_loop_exact in X; [|reflexivity|reflexivity|reflexivity|exact Hbf|cbn [opened s_total]; lia|cbn [opened s_encn]; lia|cbn [opened s_total]; lia|cbn [opened s_encn]; lia].
  rewrite X; [|cbn [opened s_enc s_ctx]; eexists _, iv; repeat split; reflexivity|exact Hbf]. clear X.
  cbn [opened ev_key ev_data ev_aad ev_tag ev_iv length app s_key s_ctx s_iv s_aad s_aad_set s_enc s_dec s_total s_encn s_decn negb].
  unfold ctx_encrypt_finalize, encrypt_finalize. cbn [with_enc c_enc s_key s_ctx s_iv s_aad s_aad_set s_enc s_dec s_total s_encn s_decn]. rewrite !Z.add_0_l.
  replace (0 <? Z.of_nat (length blocks)) with true by lia. cbn [andb]. rewrite crypt_len. fold (total_len blocks). rewrite Z.eqb_refl. cbn [negb].
  rewrite (Z.div_small (total_len blocks) (2^32)) by lia. rewrite Z.mul_0_l. cbn [Z.eqb].
  unfold evp_get_tag. cbn [ev_iv ev_key ev_aad ev_data app].
  eexists. split; [|split; [|split; [|reflexivity]]]; [reflexivity|reflexivity|].
  intro x. unfold key_of, with_enc, c1. cbn [c_store]. apply keys_kept.
Qed.
(** The result of finalize never depends on the tag. *)
Lemma ctx_dec_session_exact : forall G c id iv t k v blocks, key_of c id = Some k -> len (sk_data k) = 32 -> iv_used G iv = Some v -> blocks_ok blocks -> total_len blocks < 2^64 ->
  exists c', c_dec c' = None /\ c_enc c' = c_enc c /\ (forall x, key_of c' x = key_of c x) /\
  ctx_dec_session G c id iv t blocks = Some (crypt G (sk_data k) v 0 (concat blocks), c', Ok 0).
Proof.
  intros G c id iv t k v blocks Hk Hl Hv Hb Ht. pose proof (blocks_pos blocks Hb) as Hbp. destruct Hb as [Hbn Hbf].
  unfold ctx_dec_session. erewrite ctx_decrypt_init_exact by eauto.
  set (c1 := {| c_store := _; c_enc := _; c_dec := _ |}). set (tt' := if (0 <? len t) && (len t <=? 16) then Some t else None) in *.
  pose proof (ctx_dec_loop_spec G blocks c1 (opened G false (sk_data k) v [] tt') [] eq_refl) as X.
  erewrite dec_loop_exact in X; [|reflexivity|reflexivity|reflexivity|exact Hbf|cbn [opened s_decn]; lia|cbn [opened s_decn]; lia].
  rewrite X; [|cbn [opened s_dec s_ctx]; eexists _, v; repeat split; reflexivity|exact Hbf]. clear X.
  cbn [opened ev_key ev_data ev_aad ev_tag ev_iv length app s_key s_ctx s_iv s_aad s_aad_set s_enc s_dec s_total s_encn s_decn negb].
  unfold ctx_decrypt_finalize, decrypt_finalize. cbn [with_dec c_dec s_key s_ctx s_iv s_aad s_aad_set s_enc s_dec s_total s_encn s_decn]. rewrite !Z.add_0_l.
  replace (0 <? Z.of_nat (length blocks)) with true by lia. cbn [andb].
  eexists. split; [|split; [|split; [|reflexivity]]]; [reflexivity|reflexivity|].
  intro x. unfold key_of, with_dec, c1. cbn [c_store]. apply keys_kept.
Qed.

(** *** Calls without an open session *)
Lemma attach_not_6 : forall s, snd (attach_aad s) <> Ok 6.
Proof.
  intro s. unfold attach_aad. set (s1 := init_aad s None). unfold set_aad.
  destruct ((s_enc s1 || s_dec s1) && s_aad_set s1); [|discriminate].
  destruct (too_long (s_aad s1)); [discriminate|]. destruct (s_ctx s1) as [e|]; [|discriminate].
  destruct (evp_add_aad e (s_aad s1)) as [e' n]. destruct (n =? len (s_aad s1)); discriminate.
Qed.
Lemma sexec_enc : forall G c o, let '(c', _, r) := sexec G c o in
  match o with
  | SEncInit _ _ _ => r = Ok 6 -> c_enc c' = None
  | SEncFinal _ _ => (r = Ok 0 -> c_enc c' = None) /\ (c_enc c = None -> c_enc c' = None)
  | SEncUpdate _ _ => c_enc c = None -> c_enc c' = None
  | _ => c_enc c' = c_enc c
  end.
Proof.
  intros G c [id r|id b r|id b|id|id iv r|b out|ct tag|id iv tag|b out|]; cbn [sexec].
  - unfold ctx_keygen. destruct (check_secret_key (c_store c) id); [reflexivity|]. destruct (generate_symmetric_key blank_symkey r) as [|[]| | |]; reflexivity.
  - unfold ctx_load. destruct (load_symmetric_key (c_store c) id b r); reflexivity.
  - unfold ctx_export. destruct (get_key (c_store c) id) as [s [k|]]; reflexivity.
  - unfold ctx_delete. destruct (delete_key (c_store c) id) as [[s v] code]; reflexivity.
  - unfold ctx_encrypt_init. rewrite get_secret_eq. destruct (look (sec_keys (c_store c)) id) as [k|]; [|reflexivity].
    unfold encrypt_init, new_stream. cbn [s_enc s_dec s_key]. unfold evp_init. destruct (len (sk_data k) <? 32); [discriminate|].
    match goal with |- context [attach_aad ?s] => pose proof (attach_not_6 s) as N; destruct (attach_aad s) as [s' rr] end.
    intro X. contradiction.
  - unfold ctx_encrypt_update. destruct (c_enc c) as [s|] eqn:E; [destruct (encrypt_update G s b out) as [[s' o] []]; discriminate|]. auto.
  - unfold ctx_encrypt_finalize. destruct (c_enc c) as [s|] eqn:E; [|auto].
    assert (F : forall s' o r, encrypt_finalize G s ct tag = (s', o, r) -> r <> Throw (OpenABEError 0)).
    { intros s' o r. unfold encrypt_finalize. destruct (s_enc s && (0 <? s_encn s)); [|congruence].
      destruct (negb (len ct =? s_total s)); [congruence|]. destruct (s_ctx s); [|congruence].
      destruct (s_total s / 2 ^ 32 * 2 ^ 32 =? 0); congruence. }
    destruct (encrypt_finalize G s ct tag) as [[s' o] [z|[|e|]| | |]] eqn:Ef; try (split; [discriminate|discriminate]).
    + split; [reflexivity|discriminate].
    + split; [|discriminate]. cbn [to_code]. intro X. exfalso. apply (F _ _ _ eq_refl). congruence.
  - unfold ctx_decrypt_init. rewrite get_secret_eq. destruct (look (sec_keys (c_store c)) id) as [k|]; [|reflexivity].
    destruct (decrypt_init G (new_stream (sk_data k)) iv tag) as [s []]; try reflexivity. destruct (attach_aad s); reflexivity.
  - unfold ctx_decrypt_update. destruct (c_dec c) as [s|]; [|reflexivity]. destruct (decrypt_update G s b out) as [[s' o] []]; reflexivity.
  - unfold ctx_decrypt_finalize. destruct (c_dec c) as [s|]; [|reflexivity]. destruct (decrypt_finalize G s) as [s' []]; reflexivity.
Qed.
Lemma sexec_dec : forall G c o, let '(c', _, r) := sexec G c o in
  match o with
  | SDecInit _ _ _ => r = Ok 6 -> c_dec c' = None
  | SDecFinal => (r = Ok 0 -> c_dec c' = None) /\ (c_dec c = None -> c_dec c' = None)
  | SDecUpdate _ _ => c_dec c = None -> c_dec c' = None
  | _ => c_dec c' = c_dec c
  end.
Proof.
  intros G c [id r|id b r|id b|id|id iv r|b out|ct tag|id iv tag|b out|]; cbn [sexec].
  - unfold ctx_keygen. destruct (check_secret_key (c_store c) id); [reflexivity|]. destruct (generate_symmetric_key blank_symkey r) as [|[]| | |]; reflexivity.
  - unfold ctx_load. destruct (load_symmetric_key (c_store c) id b r); reflexivity.
  - unfold ctx_export. destruct (get_key (c_store c) id) as [s [k|]]; reflexivity.
  - unfold ctx_delete. destruct (delete_key (c_store c) id) as [[s v] code]; reflexivity.
  - unfold ctx_encrypt_init. rewrite get_secret_eq. destruct (look (sec_keys (c_store c)) id) as [k|]; [|reflexivity].
    destruct (encrypt_init G (new_stream (sk_data k)) iv r) as [[s iv'] [z|e| | |]]; try reflexivity. destruct z; try reflexivity. destruct (attach_aad s); reflexivity.
  - unfold ctx_encrypt_update. destruct (c_enc c) as [s|]; [|reflexivity]. destruct (encrypt_update G s b out) as [[s' o] []]; reflexivity.
  - unfold ctx_encrypt_finalize. destruct (c_enc c) as [s|]; [|reflexivity]. destruct (encrypt_finalize G s ct tag) as [[s' o] []]; reflexivity.
  - unfold ctx_decrypt_init. rewrite get_secret_eq. destruct (look (sec_keys (c_store c)) id) as [k|]; [|reflexivity].
    unfold decrypt_init, new_stream. cbn [s_enc s_dec s_key]. unfold evp_init. destruct (len (sk_data k) <? 32); [discriminate|].
    match goal with |- context [attach_aad ?s] => pose proof (attach_not_6 s) as N; destruct (attach_aad s) as [s' rr] end.
    intro X. contradiction.
  - unfold ctx_decrypt_update. destruct (c_dec c) as [s|] eqn:E; [destruct (decrypt_update G s b out) as [[s' o] []]; discriminate|]. auto.
  - unfold ctx_decrypt_finalize. destruct (c_dec c) as [s|] eqn:E; [|auto].
    assert (F : forall s' r, decrypt_finalize G s = (s', r) -> r <> Throw (OpenABEError 0)).
    { intros s' r. unfold decrypt_finalize. destruct (s_dec s && (0 <? s_decn s)); [|congruence]. destruct (s_ctx s); congruence. }
    destruct (decrypt_finalize G s) as [s' [z|[|e|]| | |]] eqn:Ef; try (split; [discriminate|discriminate]).
    + split; [reflexivity|discriminate].
    + split; [|discriminate]. cbn [to_code]. intro X. exfalso. apply (F _ _ eq_refl). congruence.
Qed.
Lemma enc_open_inv : forall G os c b, (b = false -> c_enc c = None) -> enc_open b (snd (srun G c os)) = false -> c_enc (fst (srun G c os)) = None.
Proof.
  intros G. induction os as [|o os IH]; intros c b Hb H; [exact (Hb H)|].
  cbn [srun] in *. pose proof (sexec_enc G c o) as S1. destruct (sexec G c o) as [[c1 out] r].
  specialize (IH c1). destruct (srun G c1 os) as [c2 l]. cbn [fst snd] in *.
  destruct o; cbn [enc_open] in H; try (apply (IH b); [intro X; rewrite S1; exact (Hb X)|exact H]).
  - refine (IH _ _ H). destruct r as [z| | | |]; try discriminate. destruct z; try discriminate. repeat (destruct p; try discriminate). intros _. now apply S1.
  - apply (IH b); [intro X; exact (S1 (Hb X))|exact H].
  - destruct S1 as [Sa Sb]. destruct r as [z| | | |]; try (apply (IH b); [intro X; exact (Sb (Hb X))|exact H]).
    destruct z; try (apply (IH b); [intro X; exact (Sb (Hb X))|exact H]). apply (IH false); [intros _; now apply Sa|exact H].
Qed.
Lemma dec_open_inv : forall G os c b, (b = false -> c_dec c = None) -> dec_open b (snd (srun G c os)) = false -> c_dec (fst (srun G c os)) = None.
Proof.
  intros G. induction os as [|o os IH]; intros c b Hb H; [exact (Hb H)|].
  cbn [srun] in *. pose proof (sexec_dec G c o) as S1. destruct (sexec G c o) as [[c1 out] r].
  specialize (IH c1). destruct (srun G c1 os) as [c2 l]. cbn [fst snd] in *.
  destruct o; cbn [dec_open] in H; try (apply (IH b); [intro X; rewrite S1; exact (Hb X)|exact H]).
  - refine (IH _ _ H). destruct r as [z| | | |]; try discriminate. destruct z; try discriminate. repeat (destruct p; try discriminate). intros _. now apply S1.
  - apply (IH b); [intro X; exact (S1 (Hb X))|exact H].
  - destruct S1 as [Sa Sb]. destruct r as [z| | | |]; try (apply (IH b); [intro X; exact (Sb (Hb X))|exact H]).
    destruct z; try (apply (IH b); [intro X; exact (Sb (Hb X))|exact H]). apply (IH false); [intros _; now apply Sa|exact H].
Qed.

(** *** Keys *)
(** Nothing throws the code of success. *)
Definition nz {A} (m : res A) : Prop := m <> Throw (OpenABEError 0).
Lemma nz_bind : forall A B (m : res A) (f : A -> res B), nz m -> (forall x, nz (f x)) -> nz (bind m f).
Proof. intros A B [a|e| | |] f H Hf; cbn [bind]; try (unfold nz; discriminate); [apply Hf|]. unfold nz in *. intro X. apply H. congruence. Qed.
Lemma nz_at : forall b i, nz (at_ b i).
Proof. intros. unfold at_, nz. destruct (nth_error b i); discriminate. Qed.
Lemma nz_copy : forall s n, nz (copy_loop s n).
Proof.
  induction s as [|c s IH]; intro n; cbn [copy_loop]; destruct (n <=? 0); try (unfold nz; discriminate).
  apply nz_bind; [apply IH|]. intro; unfold nz; discriminate.
Qed.

Lemma nz_body : forall b i n, nz (unpack_body b i n).
Proof. intros. unfold unpack_body. apply nz_bind; [apply nz_copy|]. intro; unfold nz; discriminate. Qed.
Lemma nz_unpack : forall b i, nz (snd (smart_unpack b i)).
Proof.
  intros b i. unfold smart_unpack. pose proof (nz_at b i) as Ha. destruct (at_ b i) as [tag|e| | |]; cbn [snd]; try (unfold nz; discriminate).
  - assert (F : forall r : res (str * nat), nz r -> nz (snd (match r with Ok (s, i2) => (i2, Ok s) | Throw e => ((i + 1)%nat, Throw e)
        | UB => ((i + 1)%nat, UB) | Exit => ((i + 1)%nat, Exit) | NoFuel => ((i + 1)%nat, NoFuel) end))).
    { intros [[x y]|e| | |] H; cbn [snd]; unfold nz in *; congruence. }
    destruct (tag =? 195); [apply F; unfold unpack; repeat (apply nz_bind; [apply nz_at|intro]); apply nz_body|].
    destruct (tag =? 178); [apply F; unfold unpack16bits; repeat (apply nz_bind; [apply nz_at|intro]); apply nz_body|].
    destruct (tag =? 161); [apply F; unfold unpack8bits; repeat (apply nz_bind; [apply nz_at|intro]); apply nz_body|].
    unfold nz. discriminate.
  - unfold nz in *. congruence.
Qed.
Lemma nz_subset : forall b i n, nz (get_subset b i n).
Proof. intros. unfold get_subset, nz. destruct (_ <=? _); [destruct (_ <=? _)|]; discriminate. Qed.
Lemma nz_load : forall k b r, nz (snd (symkey_load k b r)).
Proof.
  intros k b r. unfold symkey_load. destruct (len b =? 0); [unfold nz; discriminate|].
  pose proof (nz_unpack b 0) as H0. destruct (smart_unpack b 0) as [i h]. cbn [snd] in H0.
  match goal with |- nz (snd (match ?m with _ => _ end)) => assert (H : nz m); [|destruct m; cbn [snd]; unfold nz in *; congruence] end.
  apply nz_bind; [exact H0|]. intro hd. destruct (len hd <? 2); [unfold nz; discriminate|].
  apply nz_bind; [apply nz_at|intros _]. apply nz_bind; [apply nz_at|intro alg].
  apply nz_bind.
  { destruct (18 <=? len hd); [|unfold nz; discriminate].
    apply nz_bind; [apply nz_subset|intro uid]. apply nz_bind; [apply nz_subset|intro ident].
    unfold new_symkey. destruct (len ident =? 0); [unfold nz; discriminate|].
    apply nz_bind; [unfold get_scheme_id, nz; destruct (existsb _ _); discriminate|]. intro x. destruct (key_type_of alg); unfold nz; discriminate. }
  intro key. apply nz_bind; [apply nz_unpack|]. intro d. unfold set_symmetric_key. destruct (_ && _); unfold nz; discriminate.
Qed.
Lemma sexec_keys : forall G c o id, (forall x, look (pub_keys (c_store c)) x = None) ->
  let '(c', out, r) := sexec G c o in
  (forall x, look (pub_keys (c_store c')) x = None) /\
  forall past, key_named id past = key_of c id -> key_named id ((o, (out, r)) :: past) = key_of c' id.
Proof.
  intros G c [i r|i b r|i b|i|i iv r|b out|ct tag|i iv tag|b out|] id Hp; cbn [sexec].
  - unfold ctx_keygen. destruct (check_secret_key (c_store c) i); [split; [exact Hp|intros past H; exact H]|].
    unfold generate_symmetric_key, set_symmetric_key. destruct (negb (len r =? 16) && negb (len r =? 32)); [split; [exact Hp|intros past H; exact H]|].
    split; [exact Hp|]. intros past H. cbn [key_named]. unfold key_of, with_store, add_key. cbn [c_store sec_keys]. rewrite look_mset, H. reflexivity.
  - unfold ctx_load, load_symmetric_key. pose proof (nz_load blank_symkey b r) as Hn.
    destruct (symkey_load blank_symkey b r) as [k [z|[|e|]| | |]] eqn:E; cbn [to_code snd] in *;
      try (split; [exact Hp|intros past H; exact H]).
    + split; [exact Hp|]. intros past H. cbn [key_named]. rewrite E. unfold key_of, with_store, add_key. cbn [c_store sec_keys fst]. rewrite look_mset, H. reflexivity.
    + split; [exact Hp|]. intros past H. assert (e <> 0) by (intro X; subst e; now apply Hn).
      destruct e; [congruence|exact H|exact H].
  - unfold ctx_export. destruct (get_key_spec (c_store c) i) as (H1 & H2 & H3). destruct (get_key (c_store c) i) as [s v]. cbn [fst snd] in *.
    destruct v; (split; [intro x; cbn [with_store c_store]; rewrite H1; apply Hp|]); intros past H; cbn [key_named]; unfold key_of, with_store; cbn [c_store]; rewrite H2; exact H.
  - unfold ctx_delete. destruct (delete_key_spec (c_store c) i) as (H1 & H2 & H3). destruct (delete_key (c_store c) i) as [[s v] code]. cbn [fst snd] in *.
    split; [intro x; cbn [with_store c_store]; rewrite H1, Hp; destruct (str_eqb x i); reflexivity|].
    intros past H. cbn [key_named]. unfold key_of, with_store. cbn [c_store]. rewrite H2, H. reflexivity.
  - unfold ctx_encrypt_init. destruct (get_secret_spec (c_store c) i) as (H1 & H2 & H3). destruct (get_secret_key (c_store c) i) as [s v]. cbn [fst snd] in *.
    assert (F : forall e, (forall x, look (pub_keys (c_store {| c_store := s; c_enc := e; c_dec := c_dec c |})) x = None) /\
      forall past out r0, key_named id past = key_of c id -> key_named id ((SEncInit i iv r, (out, r0)) :: past) = key_of {| c_store := s; c_enc := e; c_dec := c_dec c |} id).
    { intro e. split; [intro x; cbn [c_store]; rewrite H2; apply Hp|]. intros past out r0 H. cbn [key_named]. unfold key_of. cbn [c_store]. rewrite H1. exact H. }
    destruct v as [k|]; [|destruct (F None) as [Fa Fb]; split; [exact Fa|intros past H; exact (Fb past _ _ H)]].
    destruct (encrypt_init G (new_stream (sk_data k)) iv r) as [[s' iv'] res].
    assert (K : forall st o rr, (forall x, look (pub_keys (c_store (with_enc {| c_store := s; c_enc := None; c_dec := c_dec c |} st))) x = None) /\
      (forall past, key_named id past = key_of c id -> key_named id ((SEncInit i iv r, (o, rr)) :: past) = key_of (with_enc {| c_store := s; c_enc := None; c_dec := c_dec c |} st) id)).
    { intros st o rr. destruct (F st) as [Fa Fb]. split; [exact Fa|intros past H; exact (Fb past _ _ H)]. }
    destruct res as [z| | | |]; try apply K. destruct z; try apply K. destruct (attach_aad s'). apply K.
  - unfold ctx_encrypt_update. destruct (c_enc c) as [s|]; [|split; [exact Hp|intros past H; exact H]].
    destruct (encrypt_update G s b out) as [[s' o] []]; (split; [exact Hp|intros past H; exact H]).
  - unfold ctx_encrypt_finalize. destruct (c_enc c) as [s|]; [|split; [exact Hp|intros past H; exact H]].
    destruct (encrypt_finalize G s ct tag) as [[s' o] []]; (split; [exact Hp|intros past H; exact H]).
  - unfold ctx_decrypt_init. destruct (get_secret_spec (c_store c) i) as (H1 & H2 & H3). destruct (get_secret_key (c_store c) i) as [s v]. cbn [fst snd] in *.
    assert (F : forall e o rr, (forall x, look (pub_keys (c_store {| c_store := s; c_enc := c_enc c; c_dec := e |})) x = None) /\
      forall past, key_named id past = key_of c id -> key_named id ((SDecInit i iv tag, (o, rr)) :: past) = key_of {| c_store := s; c_enc := c_enc c; c_dec := e |} id).
    { intros e o rr. split; [intro x; cbn [c_store]; rewrite H2; apply Hp|]. intros past H. cbn [key_named]. unfold key_of. cbn [c_store]. rewrite H1. exact H. }
    destruct v as [k|]; [|apply F].
    destruct (decrypt_init G (new_stream (sk_data k)) iv tag) as [s' []]; try apply F. destruct (attach_aad s'). apply F.
  - unfold ctx_decrypt_update. destruct (c_dec c) as [s|]; [|split; [exact Hp|intros past H; exact H]].
    destruct (decrypt_update G s b out) as [[s' o] []]; (split; [exact Hp|intros past H; exact H]).
  - unfold ctx_decrypt_finalize. destruct (c_dec c) as [s|]; [|split; [exact Hp|intros past H; exact H]].
    destruct (decrypt_finalize G s) as [s' []]; (split; [exact Hp|intros past H; exact H]).
Qed.
Lemma key_history_from : forall G os c id past, (forall x, look (pub_keys (c_store c)) x = None) -> key_named id past = key_of c id ->
  key_of (fst (srun G c os)) id = key_named id (rev (snd (srun G c os)) ++ past) /\ (forall x, look (pub_keys (c_store (fst (srun G c os)))) x = None).
Proof.
  intros G. induction os as [|o os IH]; intros c id past Hp H; [split; [symmetry; exact H|exact Hp]|].
  cbn [srun]. pose proof (sexec_keys G c o id Hp) as S1. destruct (sexec G c o) as [[c1 out] r]. destruct S1 as [Sa Sb].
  specialize (IH c1 id ((o, (out, r)) :: past) Sa (Sb past H)). destruct (srun G c1 os) as [c2 l]. cbn [fst snd rev] in *.
  rewrite <- app_assoc. exact IH.
Qed.
Lemma key_history : forall G os id, key_of (fst (srun G new_ske os)) id = key_named id (rev (snd (srun G new_ske os))).
Proof. intros. rewrite <- (app_nil_r (rev _)). apply (key_history_from G os new_ske id []); reflexivity. Qed.

(** *** The two sessions of a context do not meet *)
Lemma enc_step_indep : forall G c d o, on_enc o = true -> (match o with SEncInit _ _ _ => False | _ => True end) -> c_enc c = c_enc d ->
  let '(c', x, r) := sexec G c o in let '(d', y, q) := sexec G d o in c_enc c' = c_enc d' /\ x = y /\ r = q.
Proof.
  intros G c d [| | | |id iv r|b out|ct tag| | |] Ho Hi E; try discriminate Ho; [contradiction| |]; cbn [sexec]; clear Ho Hi.
  - unfold ctx_encrypt_update. rewrite E. destruct (c_enc d) as [s|] eqn:Ed; [destruct (encrypt_update G s b out) as [[s' o] []]|]; cbn [c_enc with_enc]; rewrite ?E, ?Ed; auto.
  - unfold ctx_encrypt_finalize. rewrite E. destruct (c_enc d) as [s|] eqn:Ed; [destruct (encrypt_finalize G s ct tag) as [[s' o] []]|]; cbn [c_enc with_enc]; rewrite ?E, ?Ed; auto.
Qed.
Lemma dec_step_indep : forall G c d o, on_dec o = true -> (match o with SDecInit _ _ _ => False | _ => True end) -> c_dec c = c_dec d ->
  let '(c', x, r) := sexec G c o in let '(d', y, q) := sexec G d o in c_dec c' = c_dec d' /\ x = y /\ r = q.
Proof.
  intros G c d [| | | | | | |id iv tag|b out|] Ho Hi E; try discriminate Ho; [contradiction| |]; cbn [sexec]; clear Ho Hi.
  - unfold ctx_decrypt_update. rewrite E. destruct (c_dec d) as [s|] eqn:Ed; [destruct (decrypt_update G s b out) as [[s' o] []]|]; cbn [c_dec with_dec]; rewrite ?E, ?Ed; auto.
  - unfold ctx_decrypt_finalize. rewrite E. destruct (c_dec d) as [s|] eqn:Ed; [destruct (decrypt_finalize G s) as [s' []]|]; cbn [c_dec with_dec]; rewrite ?E, ?Ed; auto.
Qed.
(** Calls after an init, mixed with any calls that do not start a new session in
    this direction, return what they return alone. *)
Lemma enc_isolated : forall G os c d, (forall o, In o os -> match o with SEncInit _ _ _ => False | _ => True end) -> c_enc c = c_enc d ->
  filter (fun x => on_enc (fst x)) (snd (srun G c os)) = snd (srun G d (filter on_enc os)).
Proof.
  intros G. induction os as [|o os IH]; intros c d Hi E; [reflexivity|]. cbn [srun filter].
  pose proof (sexec_enc G c o) as S1. pose proof (enc_step_indep G c d o) as S2. pose proof (Hi o (or_introl eq_refl)) as Hio.
  destruct (sexec G c o) as [[c1 x] r]. specialize (IH c1).
  destruct (on_enc o) eqn:Eo.
  - cbn [srun]. destruct (sexec G d o) as [[d1 y] q]. destruct (S2 eq_refl Hio E) as (Sa & <- & <-).
    specialize (IH d1 (fun o' H => Hi o' (or_intror H)) Sa). destruct (srun G c1 os) as [c2 l]. destruct (srun G d1 (filter on_enc os)) as [d2 l2].
    cbn [snd filter fst] in *. rewrite Eo. now rewrite IH.
  - assert (E1 : c_enc c1 = c_enc d) by (destruct o; try discriminate Eo; congruence).
    specialize (IH d (fun o' H => Hi o' (or_intror H)) E1). destruct (srun G c1 os) as [c2 l]. cbn [snd filter fst] in *. rewrite Eo. exact IH.
Qed.
Lemma dec_isolated : forall G os c d, (forall o, In o os -> match o with SDecInit _ _ _ => False | _ => True end) -> c_dec c = c_dec d ->
  filter (fun x => on_dec (fst x)) (snd (srun G c os)) = snd (srun G d (filter on_dec os)).
Proof.
  intros G. induction os as [|o os IH]; intros c d Hi E; [reflexivity|]. cbn [srun filter].
  pose proof (sexec_dec G c o) as S1. pose proof (dec_step_indep G c d o) as S2. pose proof (Hi o (or_introl eq_refl)) as Hio.
  destruct (sexec G c o) as [[c1 x] r]. specialize (IH c1).
  destruct (on_dec o) eqn:Eo.
  - cbn [srun]. destruct (sexec G d o) as [[d1 y] q]. destruct (S2 eq_refl Hio E) as (Sa & <- & <-).
    specialize (IH d1 (fun o' H => Hi o' (or_intror H)) Sa). destruct (srun G c1 os) as [c2 l]. destruct (srun G d1 (filter on_dec os)) as [d2 l2].
    cbn [snd filter fst] in *. rewrite Eo. now rewrite IH.
  - assert (E1 : c_dec c1 = c_dec d) by (destruct o; try discriminate Eo; congruence).
    specialize (IH d (fun o' H => Hi o' (or_intror H)) E1). destruct (srun G c1 os) as [c2 l]. cbn [snd filter fst] in *. rewrite Eo. exact IH.
Qed.

(** *** Export *)
Lemma base_export_load : forall k r, len (symkey_header k) < 2^24 -> symkey_load blank_symkey (base_export k) r = (blank_symkey, Throw (OpenABEError 24)).
Proof.
  intros k r H. unfold base_export, symkey_load. set (h := symkey_header k) in *. pose proof (len_nonneg h) as Hn.
  assert (Eb : exists tl, pack (pack [] h) [] = z2b 0 :: tl).
  { unfold pack at 2, pack32bits. rewrite (Z.mod_small (len h)) by lia. rewrite (Z.mod_small (len h)) by lia. cbn [app]. unfold be32, pack, pack32bits.
    eexists. cbn [app]. f_equal. rewrite Z.div_small by lia. reflexivity. }
  destruct Eb as [tl ->]. replace (len (z2b 0 :: tl) =? 0) with false by (rewrite len_cons; pose proof (len_nonneg tl); lia).
  unfold smart_unpack at 1. change (at_ (z2b 0 :: tl) 0) with (Ok 0 : res Z). cbn [Z.eqb bind]. reflexivity.
Qed.
