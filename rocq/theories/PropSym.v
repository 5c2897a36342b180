(** C53-C59 and C76-C89: symmetric encryption. *)
From Verif Require Import Base StrMap ByteString ByteStringProofs Base64 Base64Proofs Utils Keystore KeystoreProofs Sym SymSpec SymProofs SymCtx.
From Coq Require Import ZArith List Ascii Bool Lia ZifyBool ZifyNat.
Import ListNotations.
Open Scope Z_scope.

(** Values for the examples. *)
Definition ex_key : str := repeat (ascii_of_nat 75) 32.
Definition ex_iv : str := repeat (ascii_of_nat 9) 16.
Definition ex_hash (s : str) : str := map (digest s) (seq 0 32).
Definition ex_handler : handler := {| sh_b64 := true; sh_aad := []; sh_mode := GCM; sh_gcm := Some ex_key |}.
Definition ex_key_obj : symkey := {| sk_version := 170; sk_alg := 71; sk_uid := repeat (ascii_of_nat 3) 16; sk_id := L "key"; sk_type := SK_ENC; sk_data := ex_key |}.
Lemma toy_ok : gcm_ok toy.
Proof.
  split; [intros; unfold toy, mac, len; rewrite map_length, seq_length; reflexivity|].
  intros iv H. unfold toy, iv_used. rewrite H. reflexivity.
Qed.

(** ** C53 *)
(** A handler made for a 32-byte key, with any authenticated data. *)
Theorem C53_round_trip : forall G hash key b64 a h0 h m iv, gcm_ok G -> (forall x, 16 <= len (hash x)) -> len key = 32 ->
  new_handler key GCM b64 = Ok h0 -> set_auth_data hash h0 a = Ok h -> len iv = 16 -> 0 < len m < 2^31 - 1 ->
  exists c, handler_encrypt G h m iv = Ok c /\ handler_decrypt G h c = Ok m /\
            handler_encrypt_string G h m iv = Ok c /\ handler_decrypt_string G h c = Ok m.
Proof.
  intros G hash key b a h0 h m iv HG Hh Hk H0 Ha Hiv Hm. destruct (new_handler_ready key b h0 Hk H0) as (R0 & _ & _).
  destruct (set_auth_data_ready hash a h0 h key Hh R0 Ha) as (R & _ & _). change (2^31 - 1) with 2147483647 in Hm.
  assert (D : handler_decrypt G h (if sh_b64 h then Base64Proofs.b64 (blob_of G key iv (sh_aad h) m) else blob_of G key iv (sh_aad h) m) = Ok m).
  { rewrite handler_reads by (auto; apply R). replace (negb (bs_eq (sh_aad h) (sh_aad h))) with false
      by (rewrite (proj2 (proj1 (bs_eq_spec_lemma (sh_aad h) (sh_aad h))) eq_refl); reflexivity).
    rewrite andb_false_r. destruct (sh_aad h); cbn [aad_or_zeros]; now rewrite str_eqb_refl. }
  assert (E := handler_encrypt_exact G h key m iv HG R Hiv ltac:(lia)).
  eexists. split; [exact E|]. split; [exact D|]. unfold handler_encrypt_string, handler_decrypt_string. rewrite E, D. split; reflexivity.
Qed.
Print Assumptions C53_round_trip.
(** The empty plaintext, without authenticated data. *)
Theorem C53_empty : forall G key b64 h iv, gcm_ok G -> len key = 32 -> new_handler key GCM b64 = Ok h -> len iv = 16 ->
  exists c, handler_encrypt G h [] iv = Ok c /\ handler_decrypt G h c = Ok [].
Proof.
  intros G key b h iv HG Hk H Hiv. destruct (new_handler_ready key b h Hk H) as (R & _ & Ea).
  eexists. split; [apply (handler_encrypt_exact G h key [] iv HG R Hiv); now vm_compute|]. rewrite Ea. now apply handler_reads_empty.
Qed.
Print Assumptions C53_empty.
(** Keys given as objects, as the tests do. *)
Theorem C53_key_object : forall G k b64 h m iv, gcm_ok G -> len (sk_data k) = 32 -> new_handler_key k GCM b64 = Ok h -> len iv = 16 -> len m < 2^31 - 1 ->
  exists c, handler_encrypt G h m iv = Ok c /\ handler_decrypt G h c = Ok m.
Proof.
  intros G k b h m iv HG Hk H Hiv Hm. destruct (new_handler_key_ready k b h Hk H) as (R & _ & Ea). change (2^31 - 1) with 2147483647 in Hm.
  eexists. split; [now apply (handler_encrypt_exact G h (sk_data k) m iv HG R Hiv)|]. rewrite Ea.
  destruct m as [|x m]; [now apply handler_reads_empty|].
  assert (Hp : 0 < len (x :: m) < 2147483647) by (rewrite len_cons in *; pose proof (len_nonneg m); lia).
  rewrite (handler_reads G h (sk_data k) iv [] (x :: m) HG R Hiv ltac:(discriminate) Hp). rewrite Ea. change (0 <? len []) with false. cbn [andb]. now rewrite str_eqb_refl.
Qed.
Print Assumptions C53_key_object.
Example C53_nonvacuous : gcm_ok toy /\ (forall x, 16 <= len (ex_hash x)) /\ new_handler ex_key GCM true = Ok ex_handler /\
  (exists h, set_auth_data ex_hash ex_handler (L "a header of more than sixteen bytes") = Ok h /\
   exists c, handler_encrypt toy h (L "attack at dawn") ex_iv = Ok c /\ handler_decrypt toy h c = Ok (L "attack at dawn") /\ c <> L "attack at dawn").
Proof.
  split; [exact toy_ok|]. split; [intro; unfold ex_hash, len; rewrite map_length, seq_length; lia|]. split; [reflexivity|].
  eexists. split; [vm_compute; reflexivity|]. eexists. split; [vm_compute; reflexivity|]. split; [vm_compute; reflexivity|vm_compute; discriminate].
Qed.

(** ** C54 *)
(** Every plaintext the handler returns belongs to fields of the blob that the
    AEAD accepts, under the key and the authenticated data of the handler. *)
Theorem C54_handler : forall G h blob p, gcm_ok G -> handler_decrypt G h blob = Ok p ->
  exists key iv c t a, sh_gcm h = Some key /\ len t = 16 /\
    fields (if sh_b64 h then base64_decode blob else blob) iv c t a /\
    (sh_aad h = [] \/ a = [] \/ a = sh_aad h) /\
    opens G (firstn 32 key) iv (match sh_aad h with [] => aad_or_zeros a | x => x end) c t p.
Proof. exact handler_sound. Qed.
Print Assumptions C54_handler.
(** So a blob whose fields the AEAD does not accept gives no plaintext, and ""
    through the string interface. *)
Theorem C54_rejected : forall G h blob key, gcm_ok G -> sh_gcm h = Some key ->
  (forall iv c t a p, fields (if sh_b64 h then base64_decode blob else blob) iv c t a ->
     ~ opens G (firstn 32 key) iv (match sh_aad h with [] => aad_or_zeros a | x => x end) c t p) ->
  (forall p, handler_decrypt G h blob <> Ok p) /\ (forall p, handler_decrypt_string G h blob = Ok p -> p = []).
Proof.
  intros G h blob key HG Hk Hn.
  assert (N : forall p, handler_decrypt G h blob <> Ok p).
  { intros p H. destruct (handler_sound G h blob p HG H) as (key' & iv & c & t & a & E & _ & F & _ & O). rewrite Hk in E. injection E as <-. exact (Hn iv c t a p F O). }
  split; [exact N|]. intros p H. unfold handler_decrypt_string in H. apply or_empty_ok in H. destruct H as [H|[-> _]]; [now apply N in H|reflexivity].
Qed.
Print Assumptions C54_rejected.
Theorem C54_handle : forall G h blob p, gcm_ok G -> handle_decrypt G h blob = Ok p ->
  exists iv c t, opens G (firstn 32 (h_key h)) iv (aad_or_zeros (h_aad h)) c t p /\ len t = 16 /\
    (let z := if h_b64 h then base64_decode blob else blob in
     exists i j k, smart_unpack z 0 = (i, Ok iv) /\ smart_unpack z i = (j, Ok c) /\ smart_unpack z j = (k, Ok t)).
Proof. exact handle_sound. Qed.
Print Assumptions C54_handle.
Theorem C54_object : forall G o iv c t, gcm_ok G -> len (ae_key o) = 32 -> ae_aad_set o = true -> len c < 2^31 - 1 -> len (ae_aad o) < 2^31 - 1 -> len t = 16 ->
  exists r, ae_decrypt G o iv c t = Ok r /\ forall p, r = Some p <-> opens G (ae_key o) iv (ae_aad o) c t p.
Proof.
  intros G o iv c t HG Hk Hs Hc Ha Ht. change (2^31 - 1) with 2147483647 in *. rewrite ae_decrypt_exact by (auto; apply HG). eexists. split; [reflexivity|].
  intro p. split.
  - intro H. destruct (iv_used G iv) as [v|] eqn:E; [|discriminate H]. destruct (str_eqb t _) eqn:Et; [|discriminate H]. apply str_eqb_eq in Et.
    exists v. split; [exact E|]. split; [exact Et|]. apply masked_crypt. congruence.
  - intros (v & E & Et & M). rewrite E, <- Et, str_eqb_refl. apply masked_crypt in M. congruence.
Qed.
Print Assumptions C54_object.
Example C54_nonvacuous : exists c h,
  handler_encrypt toy ex_handler (L "attack at dawn") ex_iv = Ok c /\
  (* another key: refused, and "" through the string interface *)
  new_handler (repeat (ascii_of_nat 76) 32) GCM true = Ok h /\ handler_decrypt toy h c = Throw RuntimeError /\ handler_decrypt_string toy h c = Ok [].
Proof. eexists _, _. split; [vm_compute; reflexivity|]. split; [vm_compute; reflexivity|]. split; [vm_compute; reflexivity|vm_compute; reflexivity]. Qed.

(** ** C55 *)
(** The stream object reports the check (32) unless the tag is a prefix, of 1 to
    16 bytes, of the right tag. *)
Theorem C55_stream : forall G s a iv t blocks v, idle s -> iv_used G iv = Some v -> blocks_ok blocks -> len (aad_in_force s a) < 2^31 - 1 -> len (concat blocks) < 2^64 ->
  exists p s' code, dec_session G s a iv t blocks = Some (p, s', Ok code) /\
    (code = 0 /\ 1 <= len t <= 16 /\ (exists rest, mac G (s_key s) v (aad_in_force s a) (concat blocks) = t ++ rest) \/
     code = 32 /\ ~ (1 <= len t <= 16 /\ exists rest, mac G (s_key s) v (aad_in_force s a) (concat blocks) = t ++ rest)).
Proof.
  intros G s a iv t blocks v Hi Hv Hb Ha Ht. change (2^31 - 1) with 2147483647 in Ha.
  destruct (dec_session_exact G s a iv t blocks v Hi Hv Hb Ha Ht) as (s' & _ & _ & _ & E).
  eexists _, s', _. split; [exact E|]. set (m := mac G (s_key s) v (aad_in_force s a) (concat blocks)). unfold tag_ok.
  destruct (0 <? len t) eqn:E1; [|right; split; [reflexivity|intros [X _]; lia]].
  destruct (len t <=? 16) eqn:E2; [|right; split; [reflexivity|intros [X _]; lia]]. cbn [andb].
  destruct (str_eqb t (firstn (length t) m)) eqn:E3.
  - left. apply str_eqb_eq in E3. split; [reflexivity|]. split; [lia|]. exists (skipn (length t) m). rewrite E3 at 1. rewrite <- (firstn_skipn (length t) m) at 1. reflexivity.
  - right. split; [reflexivity|]. intros [_ [rest X]]. rewrite X, firstn_app, firstn_all, Nat.sub_diag in E3. cbn [firstn] in E3. rewrite app_nil_r, str_eqb_refl in E3. discriminate.
Qed.
Print Assumptions C55_stream.
(** The context drops that result: whatever the tag, finalize reports success. *)
Theorem C55_context_refuted : forall G c id iv t k v blocks, key_of c id = Some k -> len (sk_data k) = 32 -> iv_used G iv = Some v -> blocks_ok blocks -> len (concat blocks) < 2^64 ->
  exists p c', ctx_dec_session G c id iv t blocks = Some (p, c', Ok 0).
Proof.
  intros G c id iv t k v blocks Hk Hl Hv Hb Ht. destruct (ctx_dec_session_exact G c id iv t k v blocks Hk Hl Hv Hb Ht) as (c' & _ & _ & _ & E). eauto.
Qed.
Print Assumptions C55_context_refuted.
Example C55_nonvacuous : exists c tag p s', key_of c (L "k") <> None /\
  (* a tag the stream object refuses *)
  dec_session toy (new_stream ex_key) None ex_iv tag [L "forged"; L " text"] = Some (p, s', Ok 32) /\
  (exists c', ctx_dec_session toy c (L "k") ex_iv tag [L "forged"; L " text"] = Some (p, c', Ok 0)).
Proof.
  exists (fst (ctx_keygen new_ske (L "k") ex_key)), (repeat (ascii_of_nat 1) 16). eexists _, _. split; [vm_compute; discriminate|].
  split; [vm_compute; reflexivity|]. eexists. vm_compute. reflexivity.
Qed.

(** ** C56 *)
(** Ciphertext and tag are those of the whole message, whatever the blocks. *)
Theorem C56_encrypt : forall G s a iv blocks, gcm_ok G -> idle s -> len iv = 16 -> blocks_ok blocks -> len (aad_in_force s a) < 2^31 - 1 -> len (concat blocks) < 2^32 ->
  exists c t s', enc_session G s a iv blocks = Some (iv, c, t, s', Ok 0) /\ masked G (s_key s) iv (concat blocks) c /\ t = mac G (s_key s) iv (aad_in_force s a) c.
Proof.
  intros G s a iv blocks HG Hi Hiv Hb Ha Ht. change (2^31 - 1) with 2147483647 in Ha.
  destruct (enc_session_exact G s a iv blocks HG Hi Hiv Hb Ha ltac:(unfold total_len; lia)) as (s' & _ & E & _). destruct (E Ht) as (_ & _ & E').
  eexists _, _, s'. split; [exact E'|]. split; [now apply masked_crypt|reflexivity].
Qed.
Print Assumptions C56_encrypt.
Theorem C56_chunking : forall G s a iv b1 b2, gcm_ok G -> idle s -> len iv = 16 -> blocks_ok b1 -> blocks_ok b2 -> concat b1 = concat b2 ->
  len (aad_in_force s a) < 2^31 - 1 -> len (concat b1) < 2^32 ->
  exists c t s1 s2, enc_session G s a iv b1 = Some (iv, c, t, s1, Ok 0) /\ enc_session G s a iv b2 = Some (iv, c, t, s2, Ok 0).
Proof.
  intros G s a iv b1 b2 HG Hi Hiv H1 H2 Hc Ha Ht. change (2^31 - 1) with 2147483647 in Ha.
  destruct (enc_session_exact G s a iv b1 HG Hi Hiv H1 Ha ltac:(unfold total_len; lia)) as (s1 & _ & E1 & _).
  destruct (enc_session_exact G s a iv b2 HG Hi Hiv H2 Ha ltac:(unfold total_len; rewrite <- Hc; lia)) as (s2 & _ & E2 & _).
  destruct (E1 Ht) as (_ & _ & F1). destruct (E2 ltac:(unfold total_len; rewrite <- Hc; exact Ht)) as (_ & _ & F2). rewrite <- Hc in F2.
  eexists _, _, s1, s2. split; [exact F1|exact F2].
Qed.
Print Assumptions C56_chunking.
(** Decryption, by a stream object with the same key and in any other blocks. *)
Theorem C56_decrypt : forall G s s0 iv blocks blocks' a, gcm_ok G -> idle s -> idle s0 -> s_key s0 = s_key s -> s_aad s = [] -> s_aad s0 = [] -> len iv = 16 ->
  blocks_ok blocks -> blocks_ok blocks' -> len (aad_in_force s a) < 2^31 - 1 -> len (concat blocks) < 2^32 ->
  exists c t s1, enc_session G s a iv blocks = Some (iv, c, t, s1, Ok 0) /\
    (concat blocks' = c -> exists s2, dec_session G s0 a iv t blocks' = Some (concat blocks, s2, Ok 0)).
Proof.
  intros G s s0 iv blocks blocks' a HG Hi Hi0 Hk Hs Hs0 Hiv Hb Hb' Ha Ht. change (2^31 - 1) with 2147483647 in Ha.
  destruct (enc_session_exact G s a iv blocks HG Hi Hiv Hb Ha ltac:(unfold total_len; lia)) as (s1 & _ & E1 & _). destruct (E1 Ht) as (_ & _ & F1).
  eexists _, _, s1. split; [exact F1|]. intro Hc.
  assert (Ea : aad_in_force s0 a = aad_in_force s a) by (unfold aad_in_force; destruct a; [now rewrite Hs, Hs0|reflexivity]).
  destruct (dec_session_exact G s0 a iv (mac G (s_key s) iv (aad_in_force s a) (crypt G (s_key s) iv 0 (concat blocks))) blocks' iv Hi0 (proj2 HG iv Hiv) Hb') as (s2 & _ & _ & _ & E2).
  { now rewrite Ea. }
  { unfold total_len. rewrite Hc, crypt_len. lia. }
  exists s2. rewrite E2, Hk, Ea, Hc, crypt_crypt. do 3 f_equal. unfold tag_ok.
  set (m := mac G (s_key s) iv (aad_in_force s a) (crypt G (s_key s) iv 0 (concat blocks))).
  assert (Hm : len m = 16) by apply HG. rewrite firstn_all, str_eqb_refl, Hm. reflexivity.
Qed.
Print Assumptions C56_decrypt.
Example C56_nonvacuous : idle (new_stream ex_key) /\ blocks_ok [L "att"; L "ack at dawn"] /\
  exists c t s1, enc_session toy (new_stream ex_key) (Some (L "hdr")) ex_iv [L "att"; L "ack at dawn"] = Some (ex_iv, c, t, s1, Ok 0) /\
  (exists s2, enc_session toy (new_stream ex_key) (Some (L "hdr")) ex_iv [L "attack"; L " at "; L "dawn"] = Some (ex_iv, c, t, s2, Ok 0)) /\
  (exists s3, dec_session toy (new_stream ex_key) (Some (L "hdr")) ex_iv t [firstn 5 c; skipn 5 c] = Some (L "attack at dawn", s3, Ok 0)).
Proof.
  split; [repeat split|]. split; [split; [discriminate|repeat (constructor; [vm_compute; split; reflexivity|]); constructor]|].
  eexists _, _, _. split; [vm_compute; reflexivity|]. split; [eexists; vm_compute; reflexivity|eexists; vm_compute; reflexivity].
Qed.

(** ** C57 *)
(** Through the context, in every history: while no session is open, update and
    finalize return an error and leave the caller's buffer alone. *)
Theorem C57_context : forall G os,
  let '(c, trace) := srun G new_ske os in
  (enc_open false trace = false ->
     (forall block out, ctx_encrypt_update G c block out = (c, out, Ok 8)) /\ (forall ct tag, ctx_encrypt_finalize G c ct tag = (c, tag, Ok 8))) /\
  (dec_open false trace = false ->
     (forall block out, ctx_decrypt_update G c block out = (c, out, Ok 8)) /\ ctx_decrypt_finalize G c = (c, Ok 8)).
Proof.
  intros G os. pose proof (enc_open_inv G os new_ske false (fun _ => eq_refl)) as He. pose proof (dec_open_inv G os new_ske false (fun _ => eq_refl)) as Hd.
  destruct (srun G new_ske os) as [c tr]. cbn [fst snd] in *. split.
  - intro H. specialize (He H). unfold ctx_encrypt_update, ctx_encrypt_finalize. rewrite He. split; reflexivity.
  - intro H. specialize (Hd H). unfold ctx_decrypt_update, ctx_decrypt_finalize. rewrite Hd. split; reflexivity.
Qed.
Print Assumptions C57_context.
(** The stream object: no output without a session, and decryptFinalize reports. *)
Theorem C57_stream_no_output : forall G s, s_enc s = false -> s_dec s = false ->
  (forall block out, exists r, encrypt_update G s block out = (s, out, r)) /\ (forall ct tag, exists r, encrypt_finalize G s ct tag = (s, tag, r)) /\
  (forall block out, exists r, decrypt_update G s block out = (s, out, r)) /\ decrypt_finalize G s = (s, Ok 8).
Proof.
  intros G s He Hd. unfold encrypt_update, encrypt_finalize, decrypt_update, decrypt_finalize. rewrite He, Hd. repeat split; intros; try (eexists; reflexivity).
Qed.
Print Assumptions C57_stream_no_output.
(** ... but the other calls report success. *)
Theorem C57_stream_silent_refuted : forall G key block out ct tag,
  encrypt_update G (new_stream key) block out = (new_stream key, out, Ok 0) /\
  encrypt_finalize G (new_stream key) ct tag = (new_stream key, tag, Ok 0) /\
  decrypt_update G (new_stream key) block out = (new_stream key, out, Ok 0).
Proof. intros. repeat split. Qed.
Print Assumptions C57_stream_silent_refuted.
(** Associated data: it cannot be given before a session, and a session that got
    none reports that it has none (OpenABE_INVALID_INPUT_TYPE = 100). *)
Theorem C57_associated_data : forall G key a iv r s' iv' t s'',
  init_aad (new_stream key) a = new_stream key /\ set_aad (new_stream key) = (new_stream key, Ok 100) /\
  (encrypt_init G (new_stream key) iv r = (s', iv', Ok 0) -> set_aad s' = (s', Ok 100)) /\
  (decrypt_init G (new_stream key) iv t = (s'', Ok 0) -> set_aad s'' = (s'', Ok 100)).
Proof.
  intros G key a iv r s' iv' t s''. split; [reflexivity|]. split; [reflexivity|]. split; intro H.
  - unfold encrypt_init, new_stream in H. cbn [s_enc s_dec s_key] in H. destruct (evp_init G key r); try discriminate H. injection H as <- _. reflexivity.
  - unfold decrypt_init, new_stream in H. cbn [s_enc s_dec s_key] in H. destruct (evp_init G key iv); try discriminate H. injection H as <-. reflexivity.
Qed.
Print Assumptions C57_associated_data.
(** Nor after the first block: the call throws (OpenABE_ERROR_INVALID_INPUT = 8) and
    the session goes on as it was. *)
Theorem C57_late_data : forall s e, s_enc s || s_dec s = true -> s_aad_set s = true -> 0 < len (s_aad s) < 2^31 - 1 -> s_ctx s = Some e -> ev_data e <> [] ->
  set_aad s = (s, Throw (OpenABEError 8)).
Proof.
  intros s e Ho Ha Hl Hc Hd. change (2^31 - 1) with 2147483647 in Hl. unfold set_aad. rewrite Ho, Ha. cbn [andb]. rewrite too_long_false by lia. rewrite Hc. unfold evp_add_aad.
  destruct (ev_data e) as [|x l] eqn:E; [contradiction|].
  destruct (ev_iv e); replace (0 =? len (s_aad s)) with false by lia; f_equal; destruct s; cbn in *; unfold with_ctx; cbn; congruence.
Qed.
Print Assumptions C57_late_data.
Example C57_late_data_nonvacuous : exists s iv s1 out e, encrypt_init toy (new_stream ex_key) [] ex_iv = (s, iv, Ok 0) /\ encrypt_update toy (init_aad s (Some (L "d"))) (L "block") [] = (s1, out, Ok 0) /\
  s_enc s1 || s_dec s1 = true /\ s_aad_set s1 = true /\ len (s_aad s1) = 1 /\ s_ctx s1 = Some e /\ ev_data e <> [].
Proof. eexists _, _, _, _, _. split; [vm_compute; reflexivity|]. split; [vm_compute; reflexivity|]. repeat (split; [reflexivity|]). vm_compute. discriminate. Qed.
Example C57_associated_data_nonvacuous : exists s iv s', encrypt_init toy (new_stream ex_key) [] ex_iv = (s, iv, Ok 0) /\ decrypt_init toy (new_stream ex_key) ex_iv zeros16 = (s', Ok 0) /\ snd (set_aad (init_aad s (Some (L "data")))) = Ok 0.
Proof. eexists _, _, _. split; [vm_compute; reflexivity|]. split; [vm_compute; reflexivity|]. vm_compute. reflexivity. Qed.
Example C57_nonvacuous : exists c trace, srun toy new_ske [SKeygen (L "k") ex_key; SEncInit (L "k") [] ex_iv; SEncUpdate (L "abc") []; SDecInit (L "none") ex_iv []; SEncFinal (L "abc") []] = (c, trace) /\
  enc_open false trace = false /\ dec_open false trace = false /\ enc_open false (firstn 3 trace) = true /\ map (fun x => snd (snd x)) trace = [Ok 0; Ok 0; Ok 0; Ok 6; Ok 0].
Proof. eexists _, _. split; [vm_compute; reflexivity|]. repeat split. Qed.

(** ** C58 *)
Theorem C58_object : forall k this random, named_key k \/ unnamed_key k -> symkey_load this (symkey_export k) random = (k, Ok 0).
Proof. exact symkey_round. Qed.
Print Assumptions C58_object.
(** Every key the constructor makes, whatever identifiers it was given. *)
Theorem C58_constructed : forall id uid alg random d k0 k this r, new_symkey id uid alg random = Ok k0 -> set_symmetric_key k0 d = Ok k -> len random = 16 -> len id < 2^31 ->
  symkey_load this (symkey_export k) r = (k, Ok 0) /\ sk_data k = d /\ sk_id k = id /\ (forall u, uid = Some u -> len u = 16 -> sk_uid k = u).
Proof.
  intros id uid alg random d k0 k this r H0 H Hr Hi. unfold new_symkey in H0. destruct (len id =? 0) eqn:E0; [discriminate H0|].
  destruct (get_scheme_id alg) as [a| | | |] eqn:Ea; try discriminate H0. cbn [bind] in H0. destruct (key_type_of alg) eqn:Et; try discriminate H0. injection H0 as <-.
  unfold set_symmetric_key in H. destruct (negb (len d =? 16) && negb (len d =? 32)) eqn:Ed; [discriminate H|]. cbn [sk_version sk_alg sk_uid sk_id sk_type] in H. injection H as <-.
  split; [|split; [reflexivity|split; [reflexivity|]]].
  - apply symkey_round. left. unfold named_key. cbn [sk_version sk_alg sk_uid sk_id sk_type sk_data]. split; [reflexivity|]. split.
    + unfold get_scheme_id in Ea. destruct (existsb _ _) in Ea; [|discriminate Ea]. injection Ea as <-. unfold key_type_of in Et.
      destruct (existsb (Z.eqb alg) [AES_CBC; AES_GCM; AES_GCM_STREAM]) eqn:Ex.
      * cbn [existsb] in Ex. unfold AES_CBC, AES_GCM, AES_GCM_STREAM in Ex. lia.
      * destruct (alg =? PK_OPDH); [discriminate Et|]. destruct (existsb _ _) in Et; [discriminate Et|]. destruct (existsb _ _) in Et; [discriminate Et|]. destruct (alg =? PKSIG_ECDSA); discriminate Et.
    + split; [reflexivity|]. split; [destruct uid as [u|]; [destruct (len u =? 16) eqn:Eu; lia|exact Hr]|]. split; [unfold len in *; lia|lia].
  - intros u -> Hu. cbn [sk_uid]. rewrite Hu. reflexivity.
Qed.
Print Assumptions C58_constructed.
Example C58_constructed_nonvacuous : exists k0 k, new_symkey (L "key") (Some (L "short")) AES_GCM ex_iv = Ok k0 /\ set_symmetric_key k0 ex_key = Ok k /\ sk_uid k = ex_iv.
Proof. eexists _, _. split; [vm_compute; reflexivity|]. split; vm_compute; reflexivity. Qed.
(** Through the context nothing of the key is exported: the blob is the same for
    all key bytes, and loading it reports an error. *)
Theorem C58_context_refuted : forall c c' id k blob blob' random, key_of c id = Some k -> look (pub_keys (c_store c)) id = None ->
  ctx_export c id blob = (c', blob', Ok 0) -> len (symkey_header k) < 2^24 ->
  (forall d, blob' = base_export {| sk_version := sk_version k; sk_alg := sk_alg k; sk_uid := sk_uid k; sk_id := sk_id k; sk_type := sk_type k; sk_data := d |}) /\
  (forall c2 id2, ctx_load c2 id2 blob' random = (c2, Ok 24)).
Proof.
  intros c c' id k blob blob' random Hk Hp He Hh. unfold ctx_export in He. destruct (get_key_spec (c_store c) id) as (_ & _ & Hg).
  destruct (get_key (c_store c) id) as [s v]. cbn [snd] in Hg. rewrite Hp in Hg. unfold key_of in Hk. rewrite Hk in Hg. subst v.
  assert (E : blob' = base_export k) by congruence. subst blob'. split; [intro; reflexivity|].
  intros c2 id2. unfold ctx_load, load_symmetric_key. rewrite base_export_load by exact Hh. destruct c2. reflexivity.
Qed.
Print Assumptions C58_context_refuted.
Example C58_nonvacuous : named_key ex_key_obj /\ unnamed_key (match set_symmetric_key blank_symkey ex_key with Ok k => k | _ => blank_symkey end) /\
  exists c c' blob, srun toy new_ske [SKeygen (L "k") ex_key] = (c, [(SKeygen (L "k") ex_key, ([], Ok 0))]) /\ ctx_export c (L "k") [] = (c', blob, Ok 0) /\
  snd (ctx_load c' (L "copy") blob []) = Ok 24.
Proof.
  split; [unfold named_key, ex_key_obj; cbn [sk_version sk_alg sk_type sk_uid sk_id sk_data]; repeat split; try (now vm_compute); auto|].
  split; [exists ex_key; split; [right; reflexivity|reflexivity]|].
  eexists _, _, _. split; [vm_compute; reflexivity|]. split; [vm_compute; reflexivity|vm_compute; reflexivity].
Qed.

(** ** C59 *)
Theorem C59_refuted : exists k1 k2, symkey_eq k1 k2 = true /\ sk_data k1 <> sk_data k2 /\ sk_id k1 = sk_id k2.
Proof. exists ex_key_obj, {| sk_version := 170; sk_alg := 71; sk_uid := sk_uid ex_key_obj; sk_id := L "key"; sk_type := SK_ENC; sk_data := repeat (ascii_of_nat 1) 32 |}. split; [vm_compute; reflexivity|]. split; [vm_compute; discriminate|reflexivity]. Qed.
Print Assumptions C59_refuted.
(** What is compared: the headers, never the key bytes. *)
Theorem C59_header_partial : forall k1 k2, symkey_eq k1 k2 = true <-> symkey_header k1 = symkey_header k2.
Proof.
  intros k1 k2. unfold symkey_eq. rewrite (proj2 (proj1 (bs_eq_spec_lemma (sk_data k1) (sk_data k1))) eq_refl), andb_true_r. apply bs_eq_spec_lemma.
Qed.
Print Assumptions C59_header_partial.
Example C59_nonvacuous : symkey_eq ex_key_obj ex_key_obj = true /\ symkey_eq ex_key_obj blank_symkey = false.
Proof. split; vm_compute; reflexivity. Qed.

(** ** C76 *)
(** A second session on the same stream object with the same associated data is
    computed over zeros followed by that data. *)
Theorem C76_reuse_refuted : forall G key a iv1 iv2 b1 b2, gcm_ok G -> len key = 32 -> len iv1 = 16 -> len iv2 = 16 -> blocks_ok b1 -> blocks_ok b2 ->
  0 < len a < 2^30 -> len (concat b1) < 2^32 -> len (concat b2) < 2^32 ->
  exists c1 t1 s1 c2 t2 s2, enc_session G (new_stream key) (Some a) iv1 b1 = Some (iv1, c1, t1, s1, Ok 0) /\
    enc_session G s1 (Some a) iv2 b2 = Some (iv2, c2, t2, s2, Ok 0) /\
    t1 = mac G key iv1 a c1 /\ t2 = mac G key iv2 (repeat (z2b 0) (length a) ++ a) c2.
Proof.
  intros G key a iv1 iv2 b1 b2 HG Hk H1 H2 Hb1 Hb2 Ha Ht1 Ht2. assert (Hi : idle (new_stream key)) by (repeat split; exact Hk).
  change (2^30) with 1073741824 in Ha.
  destruct (enc_session_exact G (new_stream key) (Some a) iv1 b1 HG Hi H1 Hb1) as (s1 & Hk1 & E1 & _); [cbn; lia|unfold total_len; lia|]. destruct (E1 Ht1) as (Hi1 & Ha1 & F1).
  cbn [aad_in_force new_stream s_aad s_key app] in F1, Ha1, Hk1.
  assert (Hf : fill_buffer 0 (len a) = repeat (z2b 0) (length a)) by (unfold fill_buffer; rewrite Z.mod_small by lia; unfold len; now rewrite Nat2Z.id).
  rewrite Hf in Ha1.
  assert (La : len (repeat (z2b 0) (length a)) = len a) by (unfold len; now rewrite repeat_length).
  destruct (enc_session_exact G s1 (Some a) iv2 b2 HG Hi1 H2 Hb2) as (s2 & _ & E2 & _); [cbn [aad_in_force]; rewrite Ha1, len_app; lia|unfold total_len; lia|].
  destruct (E2 Ht2) as (_ & _ & F2). cbn [aad_in_force] in F2. rewrite Ha1, Hk1 in F2.
  eexists _, _, s1, _, _, s2. split; [exact F1|]. split; [exact F2|]. split; reflexivity.
Qed.
Print Assumptions C76_reuse_refuted.
(** So the receiver, who starts from a fresh object, is told the tag is wrong. *)
Example C76_witness : exists c1 t1 s1 c2 t2 s2 p s3, enc_session toy (new_stream ex_key) (Some (L "hdr")) ex_iv [L "one"] = Some (ex_iv, c1, t1, s1, Ok 0) /\
  enc_session toy s1 (Some (L "hdr")) ex_iv [L "two"] = Some (ex_iv, c2, t2, s2, Ok 0) /\
  dec_session toy (new_stream ex_key) (Some (L "hdr")) ex_iv t2 [c2] = Some (p, s3, Ok 32).
Proof. eexists _, _, _, _, _, _, _, _. split; [vm_compute; reflexivity|]. split; [vm_compute; reflexivity|vm_compute; reflexivity]. Qed.
(** With the default (null) associated data a stream object can be used again,
    as the tests do. *)
Theorem C76_default : forall G s iv blocks, gcm_ok G -> idle s -> len iv = 16 -> blocks_ok blocks -> len (concat blocks) < 2^32 ->
  exists c t s1, enc_session G s None iv blocks = Some (iv, c, t, s1, Ok 0) /\ idle s1 /\ s_key s1 = s_key s /\ t = mac G (s_key s) iv zeros16 c.
Proof.
  intros G s iv blocks HG Hi Hiv Hb Ht. destruct (enc_session_exact G s None iv blocks HG Hi Hiv Hb) as (s1 & Hk & E1 & _); [now vm_compute|unfold total_len; lia|].
  destruct (E1 Ht) as (Hi1 & _ & F1). eexists _, _, s1. split; [exact F1|]. auto.
Qed.
Print Assumptions C76_default.

(** ** C77 *)
(** One byte of the tag is enough for the stream object. *)
Theorem C77_short_tag_refuted : forall G key iv blocks, gcm_ok G -> len key = 32 -> len iv = 16 -> blocks_ok blocks -> len (concat blocks) < 2^64 ->
  exists t p s', len t = 1 /\ dec_session G (new_stream key) None iv t blocks = Some (p, s', Ok 0).
Proof.
  intros G key iv blocks HG Hk Hiv Hb Ht. set (m := mac G key iv zeros16 (concat blocks)). assert (Hm : len m = 16) by apply HG.
  exists (firstn 1 m). assert (L1 : len (firstn 1 m) = 1) by (unfold len in *; rewrite firstn_length; lia).
  destruct (dec_session_exact G (new_stream key) None iv (firstn 1 m) blocks iv) as (s' & _ & _ & _ & E); [repeat split; exact Hk|now apply HG|exact Hb|now vm_compute|exact Ht|].
  eexists _, s'. split; [exact L1|]. rewrite E. do 3 f_equal. unfold tag_ok. rewrite L1. cbn [aad_in_force new_stream s_key]. fold m.
  assert (N : length (firstn 1 m) = 1%nat) by (unfold len in L1; lia). rewrite N, str_eqb_refl. reflexivity.
Qed.
Print Assumptions C77_short_tag_refuted.
Example C77_witness : exists t p s', len t = 1 /\ dec_session toy (new_stream ex_key) None ex_iv t [L "forged"] = Some (p, s', Ok 0).
Proof. exists (firstn 1 (mac toy ex_key ex_iv zeros16 (L "forged"))). eexists _, _. split; [vm_compute; reflexivity|vm_compute; reflexivity]. Qed.

(** ** C78 *)
(** A 16-byte key is accepted, but AES-256 then reads 32 bytes of it. *)
Theorem C78_short_key_refuted : forall G key b64 m iv, len key = 16 -> len m < 2^31 - 1 ->
  exists h, new_handler key GCM b64 = Ok h /\ handler_encrypt G h m iv = UB.
Proof.
  intros G key b m iv Hk Hm. change (2^31 - 1) with 2147483647 in Hm. eexists. split.
  - unfold new_handler, set_ske_handler_bytes, set_symmetric_key. rewrite Hk. reflexivity.
  - unfold handler_encrypt. cbn [sh_mode sh_gcm sh_aad]. unfold ae_encrypt. rewrite too_long_false by exact Hm. unfold evp_init. rewrite with_aad_key. cbn [sk_data new_auth_enc ae_key]. rewrite Hk. reflexivity.
Qed.
Print Assumptions C78_short_key_refuted.
(** A handler made by the default constructor has no key, and encryption follows
    the null pointer. *)
Theorem C78_no_key_refuted : forall G m iv, handler_encrypt G blank_handler m iv = UB.
Proof. reflexivity. Qed.
Print Assumptions C78_no_key_refuted.
(** With a key of 32 bytes it works for every message that fits. *)
Theorem C78_long_key : forall G hash key b64 h a h' m iv, new_handler key GCM b64 = Ok h -> set_auth_data hash h a = Ok h' -> len key = 32 -> len m < 2^31 - 1 -> len (sh_aad h') < 2^31 - 1 ->
  handler_encrypt G h' m iv <> UB.
Proof.
  intros G hash key b h a h' m iv H Ha Hk Hm Hl. change (2^31 - 1) with 2147483647 in *. unfold new_handler, set_ske_handler_bytes, set_symmetric_key in H. rewrite Hk in H. cbn in H. injection H as <-.
  unfold set_auth_data in Ha. cbn [sh_b64 sh_mode sh_gcm] in Ha. destruct (if 16 <? len a then get_subset (hash a) 0 16 else Ok a) as [d| | | |]; try discriminate Ha. cbn [bind] in Ha. injection Ha as <-.
  unfold handler_encrypt. cbn [sh_mode sh_gcm sh_aad sh_b64] in *. unfold ae_encrypt. rewrite (too_long_false m) by exact Hm.
  assert (too_long (ae_aad (with_aad (new_auth_enc key) d)) = false) as ->.
  { unfold too_long, with_aad. destruct (0 <? len d) eqn:E; cbn [ae_aad ae_set_aad ae_set_aad_ptr]; [|vm_compute; reflexivity]. replace (len d =? 0) with false by lia. lia. }
  cbn [orb]. unfold evp_init. rewrite with_aad_key. cbn [new_auth_enc ae_key]. rewrite Hk. cbn [bind Z.ltb Z.compare Pos.compare Pos.compare_cont].
  match goal with |- context [evp_update G true ?e m] => destruct (evp_update G true e m) as [e2 ct] end. cbn [to_runtime bind].
  destruct b; [rewrite encode_exact|]; discriminate.
Qed.
Print Assumptions C78_long_key.
(** The other class checks for 32 bytes. *)
Theorem C78_handle : forall key b64 h, new_handle key b64 = Ok h -> len (h_key h) = 32.
Proof. intros key b h H. unfold new_handle in H. destruct (len key =? 32) eqn:E; [|discriminate H]. injection H as <-. cbn. lia. Qed.
Print Assumptions C78_handle.
Example C78_nonvacuous : exists h, new_handle ex_key true = Ok h.
Proof. eexists. reflexivity. Qed.

(** ** C79 *)
(** A second decryptInit reports success and is ignored. *)
Theorem C79_second_init_refuted : forall G key iv t iv' t', len key = 32 ->
  exists s1, decrypt_init G (new_stream key) iv t = (s1, Ok 0) /\ decrypt_init G s1 iv' t' = (s1, Ok 0).
Proof.
  intros G key iv t iv' t' Hk. unfold decrypt_init at 1, new_stream. cbn [s_enc s_dec s_key]. unfold evp_init at 1. replace (len key <? 32) with false by lia.
  eexists. split; [reflexivity|]. unfold decrypt_init. cbn [s_dec]. reflexivity.
Qed.
Print Assumptions C79_second_init_refuted.
(** The second encryptInit is reported. *)
Theorem C79_encrypt : forall G s iv r, s_enc s = true -> encrypt_init G s iv r = (s, iv, Ok 29).
Proof. intros G s iv r H. unfold encrypt_init. now rewrite H. Qed.
Print Assumptions C79_encrypt.
Example C79_nonvacuous : exists s iv, encrypt_init toy (new_stream ex_key) [] ex_iv = (s, iv, Ok 0) /\ s_enc s = true.
Proof. eexists _, _. split; [vm_compute; reflexivity|reflexivity]. Qed.

(** ** C80 *)
Theorem C80_handle_partial : forall G h m iv, gcm_ok G -> len (h_key h) = 32 -> len (h_aad h) < 2^31 - 1 -> len iv = 16 -> 0 < len m < 2^31 - 1 ->
  exists c, handle_encrypt G h m iv = Ok c /\ handle_decrypt G h c = Ok m.
Proof. intros G h m iv. change (2^31 - 1) with 2147483647. apply handle_round. Qed.
Print Assumptions C80_handle_partial.
Theorem C80_empty_refuted : forall G h iv, gcm_ok G -> len (h_key h) = 32 -> len (h_aad h) < 2^31 - 1 -> len iv = 16 ->
  exists c, handle_encrypt G h [] iv = Ok c /\ handle_decrypt G h c = Throw OutOfRange.
Proof. intros G h iv. change (2^31 - 1) with 2147483647. apply handle_round_empty. Qed.
Print Assumptions C80_empty_refuted.
Example C80_nonvacuous : exists h c, new_handle_aad ex_key (L "hdr") false = Ok h /\ handle_encrypt toy h (L "dawn") ex_iv = Ok c /\ handle_decrypt toy h c = Ok (L "dawn").
Proof. eexists _, _. split; [reflexivity|]. split; [vm_compute; reflexivity|vm_compute; reflexivity]. Qed.

(** ** C81 *)
(** Loading an empty blob reports success; the key it stores makes the next
    encryption undefined. *)
Theorem C81_empty_blob_refuted : forall G c id random iv,
  exists c', ctx_load c id [] random = (c', Ok 0) /\ key_of c' id = Some blank_symkey /\ snd (ctx_encrypt_init G c' id iv random) = UB.
Proof.
  intros G c id random iv. eexists. split; [reflexivity|].
  assert (K : key_of (with_store c (add_key (c_store c) id (Some blank_symkey) KEY_SECRET)) id = Some blank_symkey).
  { unfold key_of, with_store, add_key. cbn [c_store sec_keys]. rewrite look_mset, str_eqb_refl. reflexivity. }
  split; [exact K|]. unfold ctx_encrypt_init. rewrite get_secret_eq. unfold key_of in K. cbn [fst]. rewrite K. reflexivity.
Qed.
Print Assumptions C81_empty_blob_refuted.

(** ** C82 *)
(** A stream of 4 GiB or more cannot be finished: finalize throws and there is no tag. *)
Theorem C82_long_stream_refuted : forall G s iv blocks, gcm_ok G -> idle s -> len iv = 16 -> blocks_ok blocks -> 2^32 <= len (concat blocks) < 2^64 ->
  exists c s', enc_session G s None iv blocks = Some (iv, c, [], s', Throw (OpenABEError 28)).
Proof.
  intros G s iv blocks HG Hi Hiv Hb Ht. destruct (enc_session_exact G s None iv blocks HG Hi Hiv Hb) as (s1 & _ & _ & E); [now vm_compute|unfold total_len; lia|].
  eexists _, s1. apply E. unfold total_len. lia.
Qed.
Print Assumptions C82_long_stream_refuted.
Example C82_nonvacuous : exists blocks, blocks_ok blocks /\ 2^32 <= len (concat blocks) < 2^64.
Proof.
  exists (repeat (repeat (z2b 0) (Z.to_nat (2^30))) 4). assert (Hl : len (repeat (z2b 0) (Z.to_nat (2^30))) = 2^30) by (unfold len; rewrite repeat_length, Z2Nat.id by lia; reflexivity).
  remember (repeat (z2b 0) (Z.to_nat (2^30))) as b eqn:Eb. clear Eb. split.
  - split; [discriminate|]. cbn [repeat]. repeat (constructor; [lia|]). constructor.
  - cbn [repeat concat]. rewrite !len_app, Hl. change (len []) with 0. lia.
Qed.

(** ** C83 *)
(** With authenticated data of 1 to 15 bytes the empty plaintext is lost. *)
Theorem C83_empty_aad_refuted : forall G hash key b64 a h0 h iv, gcm_ok G -> (forall x, 16 <= len (hash x)) -> len key = 32 ->
  new_handler key GCM b64 = Ok h0 -> set_auth_data hash h0 a = Ok h -> 0 < len a < 16 -> len iv = 16 ->
  exists c, handler_encrypt G h [] iv = Ok c /\ handler_decrypt G h c = Throw RuntimeError.
Proof.
  intros G hash key b a h0 h iv HG Hh Hk H0 H Ha Hiv. destruct (new_handler_ready key b h0 Hk H0) as (R0 & _ & _).
  destruct (set_auth_data_ready hash a h0 h key Hh R0 H) as (R & _ & Ea & _). specialize (Ea ltac:(lia)).
  eexists. split; [apply (handler_encrypt_exact G h key [] iv HG R Hiv); now vm_compute|]. apply handler_reads_empty_aad; auto. now rewrite Ea.
Qed.
Print Assumptions C83_empty_aad_refuted.
Example C83_witness : exists h c, set_auth_data ex_hash ex_handler (L "hdr") = Ok h /\ handler_encrypt toy h [] ex_iv = Ok c /\ handler_decrypt toy h c = Throw RuntimeError.
Proof. eexists _, _. split; [vm_compute; reflexivity|]. split; [vm_compute; reflexivity|vm_compute; reflexivity]. Qed.

(** ** C84 *)
(** Finalizing an encryption without any update reports success and gives no tag. *)
Theorem C84_no_tag_refuted : forall G c id k iv iv0, gcm_ok G -> key_of c id = Some k -> len (sk_data k) = 32 -> len iv = 16 ->
  exists c1 c2, ctx_encrypt_init G c id iv0 iv = (c1, iv, Ok 0) /\ ctx_encrypt_finalize G c1 [] [] = (c2, [], Ok 0).
Proof.
  intros G c id k iv iv0 HG Hk Hl Hiv. eexists _, _. split; [now apply (ctx_encrypt_init_exact G c id iv k iv0)|]. reflexivity.
Qed.
Print Assumptions C84_no_tag_refuted.
(** After at least one update the tag is there (C56, C86). *)
Example C84_nonvacuous : exists c, ctx_keygen new_ske (L "k") ex_key = (c, Ok 0) /\ exists k, key_of c (L "k") = Some k /\ len (sk_data k) = 32.
Proof. eexists. split; [vm_compute; reflexivity|]. eexists. split; [vm_compute; reflexivity|vm_compute; reflexivity]. Qed.

(** ** C85 *)
(** A handler with other authenticated data refuses the ciphertext. *)
Theorem C85_other_data : forall G key h h' m iv, gcm_ok G -> ready h key -> ready h' key -> sh_b64 h' = sh_b64 h ->
  sh_aad h <> [] -> sh_aad h' <> [] -> sh_aad h' <> sh_aad h -> len iv = 16 -> 0 < len m < 2^31 - 1 ->
  exists c, handler_encrypt G h m iv = Ok c /\ handler_decrypt G h' c = Throw RuntimeError.
Proof.
  intros G key h h' m iv HG R R' Eb Ha Ha' Hd Hiv Hm. change (2^31 - 1) with 2147483647 in Hm.
  eexists. split; [apply (handler_encrypt_exact G h key m iv HG R Hiv); lia|]. rewrite <- Eb. rewrite handler_reads by (auto; apply R).
  apply len_pos in Ha. apply len_pos in Ha'. replace (0 <? len (sh_aad h')) with true by lia. replace (len (sh_aad h) =? 0) with false by lia. cbn [andb negb].
  destruct (bs_eq (sh_aad h) (sh_aad h')) eqn:E; [|reflexivity]. apply bs_eq_spec_lemma in E. congruence.
Qed.
Print Assumptions C85_other_data.
(** A handler without authenticated data takes it from the ciphertext. *)
Theorem C85_carried : forall G key h h' m iv, gcm_ok G -> ready h key -> ready h' key -> sh_b64 h' = sh_b64 h -> sh_aad h' = [] -> len iv = 16 -> 0 < len m < 2^31 - 1 ->
  exists c, handler_encrypt G h m iv = Ok c /\ handler_decrypt G h' c = Ok m.
Proof.
  intros G key h h' m iv HG R R' Eb Ha' Hiv Hm. change (2^31 - 1) with 2147483647 in Hm.
  eexists. split; [apply (handler_encrypt_exact G h key m iv HG R Hiv); lia|]. rewrite <- Eb. rewrite handler_reads by (auto; apply R).
  rewrite Ha'. change (0 <? len []) with false. cbn [andb]. now rewrite str_eqb_refl.
Qed.
Print Assumptions C85_carried.
Example C85_nonvacuous : exists h h', set_auth_data ex_hash ex_handler (L "hdr") = Ok h /\ set_auth_data ex_hash ex_handler (L "other") = Ok h' /\ ready h ex_key /\ ready h' ex_key /\ ready ex_handler ex_key /\
  exists c, handler_encrypt toy h (L "dawn") ex_iv = Ok c /\ handler_decrypt toy h' c = Throw RuntimeError /\ handler_decrypt toy ex_handler c = Ok (L "dawn").
Proof.
  eexists _, _. split; [vm_compute; reflexivity|]. split; [vm_compute; reflexivity|].
  split; [repeat split; now vm_compute|]. split; [repeat split; now vm_compute|]. split; [repeat split; now vm_compute|].
  eexists. split; [vm_compute; reflexivity|]. split; [vm_compute; reflexivity|vm_compute; reflexivity].
Qed.

(** ** C86 *)
Theorem C86_context_round_trip : forall G c id k iv blocks, gcm_ok G -> key_of c id = Some k -> len (sk_data k) = 32 -> len iv = 16 -> blocks_ok blocks -> len (concat blocks) < 2^32 ->
  exists ct tag c1, ctx_enc_session G c id iv blocks = Some (iv, ct, tag, c1, Ok 0) /\ len tag = 16 /\
    forall blocks', blocks_ok blocks' -> concat blocks' = ct -> exists c2, ctx_dec_session G c1 id iv tag blocks' = Some (concat blocks, c2, Ok 0).
Proof.
  intros G c id k iv blocks HG Hk Hl Hiv Hb Ht. destruct (ctx_enc_session_exact G c id iv k blocks HG Hk Hl Hiv Hb Ht) as (c1 & _ & _ & Kc & E).
  eexists _, _, c1. split; [exact E|]. split; [apply HG|]. intros blocks' Hb' Hc.
  destruct (ctx_dec_session_exact G c1 id iv (mac G (sk_data k) iv zeros16 (crypt G (sk_data k) iv 0 (concat blocks))) k iv blocks') as (c2 & _ & _ & _ & E2).
  - now rewrite Kc.
  - exact Hl.
  - now apply HG.
  - exact Hb'.
  - unfold total_len. rewrite Hc, crypt_len. lia.
  - exists c2. rewrite E2, Hc, crypt_crypt. reflexivity.
Qed.
Print Assumptions C86_context_round_trip.
Example C86_nonvacuous : exists c ct tag c1 c2, ctx_keygen new_ske (L "k") ex_key = (c, Ok 0) /\
  ctx_enc_session toy c (L "k") ex_iv [L "attack"; L " at dawn"] = Some (ex_iv, ct, tag, c1, Ok 0) /\
  ctx_dec_session toy c1 (L "k") ex_iv tag [firstn 3 ct; skipn 3 ct] = Some (L "attack at dawn", c2, Ok 0).
Proof. eexists _, _, _, _, _. split; [vm_compute; reflexivity|]. split; [vm_compute; reflexivity|vm_compute; reflexivity]. Qed.

(** ** C87 *)
(** Mixed with any other calls that do not restart it, an encryption (decryption)
    session returns exactly what it returns alone. *)
Theorem C87_encryption : forall G c os, (forall o, In o os -> match o with SEncInit _ _ _ => False | _ => True end) ->
  filter (fun x => on_enc (fst x)) (snd (srun G c os)) = snd (srun G c (filter on_enc os)).
Proof. intros G c os H. now apply enc_isolated. Qed.
Print Assumptions C87_encryption.
Theorem C87_decryption : forall G c os, (forall o, In o os -> match o with SDecInit _ _ _ => False | _ => True end) ->
  filter (fun x => on_dec (fst x)) (snd (srun G c os)) = snd (srun G c (filter on_dec os)).
Proof. intros G c os H. now apply dec_isolated. Qed.
Print Assumptions C87_decryption.
Example C87_nonvacuous : exists c, c = fst (srun toy new_ske [SKeygen (L "k") ex_key; SEncInit (L "k") [] ex_iv; SDecInit (L "k") ex_iv []]) /\
  let os := [SEncUpdate (L "abc") []; SDecUpdate (L "zzz") []; SDelete (L "k"); SEncUpdate (L "de") (L "xyz"); SDecFinal; SEncFinal (L "vwxyz") []] in
  length (filter (fun x => on_enc (fst x)) (snd (srun toy c os))) = 3%nat /\ map (fun x => snd (snd x)) (snd (srun toy c os)) = [Ok 0; Ok 0; Ok 0; Ok 0; Ok 0; Ok 0] /\
  forall o, In o os -> match o with SEncInit _ _ _ | SDecInit _ _ _ => False | _ => True end.
Proof. eexists. split; [reflexivity|]. cbv zeta. split; [vm_compute; reflexivity|]. split; [vm_compute; reflexivity|]. intros o Ho. cbn [In] in Ho. repeat (destruct Ho as [<-|Ho]; [exact Logic.I|]). contradiction. Qed.

(** ** C88 *)
(** Sessions and exports use, for every identifier, the key last generated or
    loaded under it since it was last deleted. *)
Theorem C88_key_history : forall G os id, key_of (fst (srun G new_ske os)) id = key_named id (rev (snd (srun G new_ske os))).
Proof. exact key_history. Qed.
Print Assumptions C88_key_history.
(** The calls use that key and report 6 (8 for export) when there is none. *)
Theorem C88_used : forall G os id, let c := fst (srun G new_ske os) in let trace := snd (srun G new_ske os) in
  match key_named id (rev trace) with
  | Some k =>
      (forall iv0 iv, gcm_ok G -> len (sk_data k) = 32 -> len iv = 16 -> exists c' s, ctx_encrypt_init G c id iv0 iv = (c', iv, Ok 0) /\ c_enc c' = Some s /\ s_key s = sk_data k) /\
      (forall iv t v, len (sk_data k) = 32 -> iv_used G iv = Some v -> exists c' s, ctx_decrypt_init G c id iv t = (c', Ok 0) /\ c_dec c' = Some s /\ s_key s = sk_data k)
  | None =>
      (forall iv0 iv, exists c', ctx_encrypt_init G c id iv0 iv = (c', iv0, Ok 6)) /\ (forall iv t, exists c', ctx_decrypt_init G c id iv t = (c', Ok 6)) /\
      (forall blob, exists c', ctx_export c id blob = (c', blob, Ok 8))
  end.
Proof.
  intros G os id c trace. pose proof (key_history G os id) as H. destruct (key_history_from G os new_ske id [] (fun _ => eq_refl) eq_refl) as [_ Hp].
  fold c in H, Hp. fold trace in H. rewrite <- H. destruct (key_of c id) as [k|] eqn:Ek.
  - split.
    + intros iv0 iv HG Hl Hiv. eexists _, _. split; [now apply (ctx_encrypt_init_exact G c id iv k iv0)|]. split; reflexivity.
    + intros iv t v Hl Hv. eexists _, _. split; [now apply (ctx_decrypt_init_exact G c id iv t k v)|]. split; reflexivity.
  - unfold key_of in Ek. split; [|split].
    + intros iv0 iv. unfold ctx_encrypt_init. rewrite get_secret_eq, Ek. eexists. reflexivity.
    + intros iv t. unfold ctx_decrypt_init. rewrite get_secret_eq, Ek. eexists. reflexivity.
    + intro blob. unfold ctx_export. destruct (get_key_spec (c_store c) id) as (_ & _ & Hg). destruct (get_key (c_store c) id) as [s v]. cbn [snd] in Hg.
      rewrite Hp, Ek in Hg. subst v. eexists. reflexivity.
Qed.
Print Assumptions C88_used.
(** Deleting reports success, with or without a key under the identifier. *)
Theorem C88_delete_code : forall c id, snd (ctx_delete c id) = Ok 0.
Proof.
  intros c id. unfold ctx_delete. destruct (delete_key_spec (c_store c) id) as (_ & _ & H). destruct (delete_key (c_store c) id) as [[s v] code]. cbn [snd] in H. subst code. reflexivity.
Qed.
Print Assumptions C88_delete_code.
Example C88_nonvacuous : key_named (L "k") (rev (snd (srun toy new_ske [SKeygen (L "k") ex_key; SLoad (L "b") (symkey_export ex_key_obj) []; SDelete (L "zz"); SLoad (L "k") (symkey_export ex_key_obj) []; SDelete (L "b")]))) = Some ex_key_obj /\
  key_named (L "b") (rev (snd (srun toy new_ske [SKeygen (L "k") ex_key; SLoad (L "b") (symkey_export ex_key_obj) []; SDelete (L "b")]))) = None.
Proof. split; [vm_compute; reflexivity|vm_compute; reflexivity]. Qed.

(** ** C89 *)
(** Generating a key under an identifier that has one never replaces it. *)
Theorem C89_no_overwrite : forall c id random k, key_of c id = Some k -> ctx_keygen c id random = (c, Ok 29).
Proof.
  intros c id random k H. unfold ctx_keygen, check_secret_key. rewrite look_mem; [reflexivity|]. unfold key_of in H. rewrite H. discriminate.
Qed.
Print Assumptions C89_no_overwrite.
(** But asking for a key that does not exist makes its identifier unusable for
    keygen: it reports "in use" although there is no key. *)
Theorem C89_probe_refuted : forall G id iv0 iv random, exists c1,
  ctx_encrypt_init G new_ske id iv0 iv = (c1, iv0, Ok 6) /\ key_of c1 id = None /\ ctx_keygen c1 id random = (c1, Ok 29).
Proof.
  intros G id iv0 iv random. unfold ctx_encrypt_init. cbn [new_ske c_store c_dec]. unfold get_secret_key, index, new_store. cbn [sec_keys pub_keys mget].
  eexists. split; [reflexivity|]. split; [unfold key_of, look; cbn [c_store sec_keys]; rewrite mget_mset_same; reflexivity|].
  unfold ctx_keygen, check_secret_key, mmem. cbn [c_store sec_keys]. rewrite mget_mset_same. reflexivity.
Qed.
Print Assumptions C89_probe_refuted.
Example C89_nonvacuous : exists c k, ctx_keygen new_ske (L "k") ex_key = (c, Ok 0) /\ key_of c (L "k") = Some k.
Proof. eexists _, _. split; [vm_compute; reflexivity|vm_compute; reflexivity]. Qed.
