(** Proofs about the symmetric encryption model. *)
From Verif Require Import Base StrMap ByteString ByteStringProofs Base64 Base64Proofs Utils Keystore KeystoreProofs Sym SymSpec.
From Coq Require Import ZArith List Ascii Bool Lia ZifyBool ZifyNat.
Import ListNotations.
Open Scope Z_scope.

(** ** The cipher *)
Lemma crypt_length : forall G k iv d i, length (crypt G k iv i d) = length d.
Proof. induction d; intros; simpl; auto. Qed.
Lemma crypt_len : forall G k iv d i, len (crypt G k iv i d) = len d.
Proof. intros. unfold len. now rewrite crypt_length. Qed.
Lemma crypt_app : forall G k iv a b i, crypt G k iv i (a ++ b) = crypt G k iv i a ++ crypt G k iv (i + length a) b.
Proof.
  induction a; intros; simpl; [now rewrite Nat.add_0_r|]. rewrite IHa. simpl. repeat f_equal. lia.
Qed.
Lemma crypt_crypt : forall G k iv d i, crypt G k iv i (crypt G k iv i d) = d.
Proof.
  induction d as [|c d IH]; intros; simpl; auto. rewrite IH. f_equal.
  rewrite z2b_small by (apply lxor_byte_range; apply b2z_range).
  rewrite Z.lxor_assoc, Z.lxor_nilpotent, Z.lxor_0_r. apply z2b_b2z.
Qed.
Lemma crypt_nth : forall G k iv d i j, nth_error (crypt G k iv i d) j = option_map (fun x => z2b (Z.lxor (b2z x) (b2z (ks G k iv (i + j))))) (nth_error d j).
Proof.
  induction d as [|c d IH]; intros i j; [now destruct j|]. destruct j; simpl.
  - now rewrite Nat.add_0_r.
  - rewrite IH. now replace (S i + j)%nat with (i + S j)%nat by lia.
Qed.
Lemma nth_ext_eq : forall (l m : str), (forall i, nth_error l i = nth_error m i) -> l = m.
Proof.
  induction l as [|x l IH]; intros [|y m] H; auto; try (specialize (H 0%nat); discriminate H).
  f_equal; [specialize (H 0%nat); simpl in H; congruence|]. apply IH. intro i. exact (H (S i)).
Qed.
Lemma masked_crypt : forall G k iv a b, masked G k iv a b <-> b = crypt G k iv 0 a.
Proof.
  intros G k iv a b. split.
  - intros [Hl Hn]. apply nth_ext_eq. intro i. rewrite crypt_nth. simpl.
    destruct (nth_error a i) eqn:E; simpl; [now apply Hn|].
    apply nth_error_None. apply nth_error_None in E. lia.
  - intros ->. split; [apply crypt_length|]. intros i x E. rewrite crypt_nth, E. reflexivity.
Qed.
Lemma masked_inv : forall G k iv a b, masked G k iv a b -> masked G k iv b a.
Proof. intros G k iv a b H. apply masked_crypt in H. apply masked_crypt. subst. now rewrite crypt_crypt. Qed.

Lemma len16 : forall t : str, len t = 16 -> length t = 16%nat.
Proof. unfold len; lia. Qed.
Lemma firstn_self : forall (l : str) n, length l = n -> firstn n l = l.
Proof. intros l n <-. apply firstn_all. Qed.
Lemma too_long_false : forall b, len b < 2147483647 -> too_long b = false.
Proof. intros. unfold too_long. lia. Qed.
Lemma zeros16_fill : fill_buffer 0 16 = zeros16.
Proof. reflexivity. Qed.
Lemma evp_add_aad_first : forall e a v, ev_iv e = Some v -> ev_data e = [] ->
  evp_add_aad e a = ({| ev_key := ev_key e; ev_iv := ev_iv e; ev_aad := ev_aad e ++ a; ev_data := []; ev_tag := ev_tag e |}, len a).
Proof. intros e a v H H0. unfold evp_add_aad. now rewrite H, H0. Qed.

(** ** One-shot encryption *)
Lemma ae_encrypt_exact : forall G o m iv, gcm_ok G -> len (ae_key o) = 32 -> len iv = 16 -> len m < 2147483647 -> len (ae_aad o) < 2147483647 -> ae_aad_set o = true ->
  ae_encrypt G o m iv = Ok (iv, crypt G (ae_key o) iv 0 m, mac G (ae_key o) iv (ae_aad o) (crypt G (ae_key o) iv 0 m)).
Proof.
  intros G o m iv [Hm Hi] Hk Hiv Hl Ha Hs. unfold ae_encrypt. rewrite !too_long_false by auto. simpl orb. cbv iota.
  unfold evp_init. replace (len (ae_key o) <? 32) with false by lia. cbn [bind]. rewrite Hs, Hi by auto.
  rewrite firstn_self by (unfold len in Hk; lia). reflexivity.
Qed.
Lemma ae_decrypt_exact : forall G o iv c t, len (ae_key o) = 32 -> len c < 2147483647 -> len (ae_aad o) < 2147483647 -> ae_aad_set o = true -> len t = 16 ->
  (forall k v a d, len (mac G k v a d) = 16) ->
  ae_decrypt G o iv c t = Ok (match iv_used G iv with
     | Some v => if str_eqb t (mac G (ae_key o) v (ae_aad o) c) then Some (crypt G (ae_key o) v 0 c) else None
     | None => None end).
Proof.
  intros G o iv c t Hk Hl Ha Hs Ht Hm. unfold ae_decrypt. replace (len t =? 16) with true by lia. simpl negb. cbv iota.
  rewrite !too_long_false by auto. simpl orb. cbv iota.
  unfold evp_init. replace (len (ae_key o) <? 32) with false by lia. cbn [bind]. rewrite Hs.
  rewrite firstn_self by (unfold len in Hk; lia).
  unfold evp_set_tag, evp_add_aad. cbn [ev_iv ev_data ev_aad ev_key ev_tag fst].
  replace (0 <? len t) with true by lia. replace (len t <=? 16) with true by lia. cbn [andb].
  destruct (iv_used G iv) as [v|] eqn:E; cbn [fst].
  - unfold evp_update, evp_verify. cbn [ev_iv ev_data ev_aad ev_key ev_tag]. rewrite !app_nil_l.
    rewrite (firstn_self (mac G (ae_key o) v (ae_aad o) c)); [reflexivity|].
    specialize (Hm (ae_key o) v (ae_aad o) c). unfold len in *. lia.
  - unfold evp_update, evp_verify. cbn [ev_iv]. reflexivity.
Qed.
(** Whatever the key length or settings, a plaintext only comes out of an accepted tag. *)
Lemma ae_decrypt_sound : forall G o iv c t p, gcm_ok G -> ae_aad_set o = true -> ae_decrypt G o iv c t = Ok (Some p) ->
  len t = 16 /\ opens G (firstn 32 (ae_key o)) iv (ae_aad o) c t p.
Proof.
  intros G o iv c t p [Hm _] Hs H. unfold ae_decrypt in H.
  destruct (len t =? 16) eqn:Et; [|discriminate H]. cbn [negb] in H.
  destruct (too_long c || too_long (ae_aad o)); [discriminate H|].
  unfold evp_init in H. destruct (len (ae_key o) <? 32); [discriminate H|]. cbn [bind] in H. rewrite Hs in H.
  unfold evp_set_tag, evp_add_aad in H. cbn [ev_iv ev_data ev_aad ev_key ev_tag fst] in H.
  replace (0 <? len t) with true in H by lia. replace (len t <=? 16) with true in H by lia. cbn [andb] in H.
  destruct (iv_used G iv) as [v|] eqn:E; cbn [fst] in H.
  - unfold evp_update, evp_verify in H. cbn [ev_iv ev_data ev_aad ev_key ev_tag] in H. rewrite !app_nil_l in H.
    destruct (str_eqb t (firstn (length t) (mac G (firstn 32 (ae_key o)) v (ae_aad o) c))) eqn:Ev; [|discriminate H].
    apply str_eqb_eq in Ev. split; [lia|]. exists v. split; [exact E|].
    specialize (Hm (firstn 32 (ae_key o)) v (ae_aad o) c).
    rewrite (firstn_self (mac G (firstn 32 (ae_key o)) v (ae_aad o) c)) in Ev by (unfold len in *; lia).
    split; [exact Ev|]. apply masked_crypt. injection H as H. symmetry. exact H.
  - unfold evp_update, evp_verify in H. cbn [ev_iv] in H. discriminate H.
Qed.

(** ** Packing of the parts *)
Lemma unpack_at : forall pre p suf b i, 0 < len p < 2^32 -> b = pre ++ smart_pack [] p ++ suf -> i = length pre ->
  smart_unpack b i = (length (pre ++ smart_pack [] p), Ok p).
Proof.
  intros pre p suf b i H -> ->. rewrite app_assoc, <- smart_pack_app. now apply smart_unpack_pack_lemma.
Qed.
Lemma pow32 : 2^32 = 4294967296. Proof. reflexivity. Qed.

Lemma with_aad_key : forall o a, ae_key (with_aad o a) = ae_key o.
Proof. intros. unfold with_aad. destruct (0 <? len a); reflexivity. Qed.
Lemma with_aad_set : forall o a, ae_aad_set (with_aad o a) = true.
Proof. intros. unfold with_aad. destruct (0 <? len a); reflexivity. Qed.
Lemma with_aad_aad : forall o a, ae_aad (with_aad o a) = aad_or_zeros a.
Proof. intros. unfold with_aad, ae_set_aad, ae_set_aad_ptr. destruct a; reflexivity. Qed.
Lemma aad_or_zeros_len : forall a n, len a < n -> 16 < n -> len (aad_or_zeros a) < n.
Proof. intros a n H Hn. destruct a; [change (len (aad_or_zeros [])) with 16; lia|exact H]. Qed.

(** *** OpenABESymKeyHandle *)
Lemma handle_round : forall G h m iv, gcm_ok G -> len (h_key h) = 32 -> len (h_aad h) < 2147483647 -> len iv = 16 -> 0 < len m < 2147483647 ->
  exists c, handle_encrypt G h m iv = Ok c /\ handle_decrypt G h c = Ok m.
Proof.
  intros G h m iv HG Hk Ha Hiv Hm. destruct HG as [Hmac Hiu] eqn:EG. clear EG.
  unfold handle_encrypt. rewrite ae_encrypt_exact by (rewrite ?with_aad_key, ?with_aad_set, ?with_aad_aad; auto; try lia; try (apply aad_or_zeros_len; lia)).
  cbn [to_runtime bind]. rewrite with_aad_key, with_aad_aad. cbn [ae_key new_auth_enc].
  set (ct := crypt G (h_key h) iv 0 m). set (tag := mac G (h_key h) iv (aad_or_zeros (h_aad h)) ct).
  assert (Hct : len ct = len m) by apply crypt_len. assert (Htag : len tag = 16) by apply Hmac.
  set (z := smart_pack (smart_pack (smart_pack [] iv) ct) tag).
  assert (Ez : z = smart_pack [] iv ++ smart_pack [] ct ++ smart_pack [] tag).
  { unfold z. rewrite smart_pack_app, (smart_pack_app (smart_pack [] iv)). now rewrite app_assoc. }
  exists (if h_b64 h then b64 z else z). split; [destruct (h_b64 h); [apply encode_exact|reflexivity]|].
  unfold handle_decrypt. replace (if h_b64 h then base64_decode (if h_b64 h then b64 z else z) else if h_b64 h then b64 z else z) with z
    by (destruct (h_b64 h); [now rewrite decode_encode|reflexivity]).
  cbv zeta.
  rewrite (unpack_at [] iv (smart_pack [] ct ++ smart_pack [] tag)) by (auto; rewrite ?pow32; lia). cbn [bind].
  rewrite (unpack_at (smart_pack [] iv) ct (smart_pack [] tag)) by (auto; rewrite ?pow32; lia). cbn [bind].
  rewrite (unpack_at (smart_pack [] iv ++ smart_pack [] ct) tag []) by (rewrite ?app_nil_r, <- ?app_assoc; auto; rewrite ?pow32; lia). cbn [bind].
  rewrite ae_decrypt_exact by (rewrite ?with_aad_key, ?with_aad_set, ?with_aad_aad; auto; try lia; try (apply aad_or_zeros_len; lia)).
  rewrite Hiu by auto. rewrite with_aad_key, with_aad_aad. cbn [ae_key new_auth_enc]. fold tag. rewrite str_eqb_refl. cbn [bind to_runtime].
  unfold ct. now rewrite crypt_crypt.
Qed.
Lemma smart_unpack_end : forall b i, (length b <= i)%nat -> smart_unpack b i = (i, Throw OutOfRange).
Proof.
  intros b i H. unfold smart_unpack, at_. apply nth_error_None in H. rewrite H. reflexivity.
Qed.
Lemma handle_round_empty : forall G h iv, gcm_ok G -> len (h_key h) = 32 -> len (h_aad h) < 2147483647 -> len iv = 16 ->
  exists c, handle_encrypt G h [] iv = Ok c /\ handle_decrypt G h c = Throw OutOfRange.
Proof.
  intros G h iv HG Hk Ha Hiv. destruct HG as [Hmac Hiu] eqn:EG. clear EG.
  unfold handle_encrypt. rewrite ae_encrypt_exact by (rewrite ?with_aad_key, ?with_aad_set, ?with_aad_aad; auto; try (apply aad_or_zeros_len; lia); now vm_compute).
  cbn [to_runtime bind crypt]. rewrite with_aad_key, with_aad_aad. cbn [ae_key new_auth_enc].
  set (tag := mac G (h_key h) iv (aad_or_zeros (h_aad h)) []). assert (Htag : len tag = 16) by apply Hmac.
  set (z := smart_pack (smart_pack (smart_pack [] iv) []) tag).
  assert (Ez : z = smart_pack [] iv ++ smart_pack [] tag).
  { unfold z. rewrite smart_pack_app, smart_pack_empty_lemma. reflexivity. }
  exists (if h_b64 h then b64 z else z). split; [destruct (h_b64 h); [apply encode_exact|reflexivity]|].
  unfold handle_decrypt. replace (if h_b64 h then base64_decode (if h_b64 h then b64 z else z) else if h_b64 h then b64 z else z) with z
    by (destruct (h_b64 h); [now rewrite decode_encode|reflexivity]).
  cbv zeta.
  rewrite (unpack_at [] iv (smart_pack [] tag)) by (auto; rewrite ?pow32; lia). cbn [bind].
  rewrite (unpack_at (smart_pack [] iv) tag []) by (rewrite ?app_nil_r; auto; rewrite ?pow32; lia). cbn [bind].
  rewrite smart_unpack_end by (rewrite Ez; lia). reflexivity.
Qed.

(** *** SymKeyEncHandler *)
Definition ready (h : handler) (key : str) : Prop := sh_mode h = GCM /\ sh_gcm h = Some key /\ len key = 32 /\ len (sh_aad h) <= 16.
Lemma new_handler_ready : forall key b h, len key = 32 -> new_handler key GCM b = Ok h -> ready h key /\ sh_b64 h = b /\ sh_aad h = [].
Proof.
  intros key b h Hk H. unfold new_handler, set_ske_handler_bytes, set_symmetric_key in H. rewrite Hk in H. simpl in H.
  injection H as <-. unfold ready. simpl. change (len []) with 0. repeat split; auto; lia.
Qed.
Lemma new_handler_key_ready : forall k b h, len (sk_data k) = 32 -> new_handler_key k GCM b = Ok h -> ready h (sk_data k) /\ sh_b64 h = b /\ sh_aad h = [].
Proof.
  intros k b h Hk H. unfold new_handler_key, set_ske_handler in H. cbn [sh_mode] in H.
  destruct (negb (sk_alg k =? scheme_of_mode GCM) && negb (sk_alg k =? SCHEME_NONE)); [discriminate H|].
  injection H as <-. unfold ready. simpl. change (len []) with 0. repeat split; auto; lia.
Qed.
Lemma set_auth_data_ready : forall hash a h h' key, (forall x, 16 <= len (hash x)) -> ready h key -> set_auth_data hash h a = Ok h' ->
  ready h' key /\ sh_b64 h' = sh_b64 h /\ (len a <= 16 -> sh_aad h' = a) /\ (16 < len a -> sh_aad h' = firstn 16 (hash a)).
Proof.
  intros hash a h h' key Hh [Hm [Hg [Hk Ha]]] H. unfold set_auth_data in H. specialize (Hh a).
  destruct (16 <? len a) eqn:E.
  - rewrite get_subset_spec_lemma in H by lia. replace (0 + 16 <=? len (hash a)) with true in H by lia. cbn [bind] in H.
    change (firstn (Z.to_nat 16) (skipn (Z.to_nat 0) (hash a))) with (firstn 16 (hash a)) in H.
    assert (Hd : len (firstn 16 (hash a)) <= 16) by (unfold len; rewrite firstn_length; lia).
    remember (firstn 16 (hash a)) as d eqn:Ed. injection H as <-. unfold ready. cbn [sh_mode sh_gcm sh_aad sh_b64].
    repeat split; auto; lia.
  - cbn [bind] in H. injection H as <-. unfold ready. cbn [sh_mode sh_gcm sh_aad sh_b64]. repeat split; auto; lia.
Qed.

Definition blob_of (G : gcm) (key iv aad m : str) : str :=
  smart_pack (smart_pack (smart_pack (smart_pack [] iv) (crypt G key iv 0 m)) (mac G key iv (aad_or_zeros aad) (crypt G key iv 0 m))) aad.
Lemma handler_encrypt_exact : forall G h key m iv, gcm_ok G -> ready h key -> len iv = 16 -> len m < 2147483647 ->
  handler_encrypt G h m iv = Ok (if sh_b64 h then b64 (blob_of G key iv (sh_aad h) m) else blob_of G key iv (sh_aad h) m).
Proof.
  intros G h key m iv HG [Hm [Hg [Hk Ha]]] Hiv Hl. unfold handler_encrypt. rewrite Hm, Hg.
  rewrite ae_encrypt_exact by (rewrite ?with_aad_key, ?with_aad_set, ?with_aad_aad; auto; apply aad_or_zeros_len; lia).
  cbn [to_runtime bind]. rewrite with_aad_key, with_aad_aad. cbn [ae_key new_auth_enc]. fold (blob_of G key iv (sh_aad h) m).
  destruct (sh_b64 h); [apply encode_exact|reflexivity].
Qed.
Lemma decoded : forall (b : bool) z, (if b then base64_decode (if b then b64 z else z) else if b then b64 z else z) = z.
Proof. intros [] z; [apply decode_encode|reflexivity]. Qed.
Lemma dec_aad_key : forall h key aad,
  ae_key (if 0 <? len (sh_aad h) then ae_set_aad (new_auth_enc key) (sh_aad h)
          else if 0 <? len aad then ae_set_aad (new_auth_enc key) aad else ae_set_aad_ptr (new_auth_enc key) None) = key.
Proof. intros. destruct (0 <? len (sh_aad h)), (0 <? len aad); reflexivity. Qed.
Lemma dec_aad_set : forall h key aad,
  ae_aad_set (if 0 <? len (sh_aad h) then ae_set_aad (new_auth_enc key) (sh_aad h)
          else if 0 <? len aad then ae_set_aad (new_auth_enc key) aad else ae_set_aad_ptr (new_auth_enc key) None) = true.
Proof. intros. destruct (0 <? len (sh_aad h)), (0 <? len aad); reflexivity. Qed.
Lemma dec_aad_aad : forall h key aad,
  ae_aad (if 0 <? len (sh_aad h) then ae_set_aad (new_auth_enc key) (sh_aad h)
          else if 0 <? len aad then ae_set_aad (new_auth_enc key) aad else ae_set_aad_ptr (new_auth_enc key) None)
  = match sh_aad h with [] => aad_or_zeros aad | a => a end.
Proof.
  intros. destruct (sh_aad h) as [|x l] eqn:E.
  - change (0 <? len []) with false. cbv iota. destruct aad; reflexivity.
  - replace (0 <? len (x :: l)) with true by (unfold len; simpl; lia). reflexivity.
Qed.
Lemma len_pos : forall (a : str), a <> [] -> 0 < len a.
Proof. intros [|x a] H; [congruence|]. unfold len; simpl; lia. Qed.

Lemma pack4 : forall a b c d, smart_pack (smart_pack (smart_pack (smart_pack [] a) b) c) d = smart_pack [] a ++ smart_pack [] b ++ smart_pack [] c ++ smart_pack [] d.
Proof.
  intros. rewrite (smart_pack_app (smart_pack (smart_pack (smart_pack [] a) b) c) d), (smart_pack_app (smart_pack (smart_pack [] a) b) c), (smart_pack_app (smart_pack [] a) b).
  now rewrite <- !app_assoc.
Qed.
Lemma blob_parts : forall G key iv aad m, smart_pack [] iv ++ smart_pack [] (crypt G key iv 0 m) ++ smart_pack [] (mac G key iv (aad_or_zeros aad) (crypt G key iv 0 m)) ++ smart_pack [] aad
  = blob_of G key iv aad m.
Proof.
  intros. unfold blob_of. symmetry. apply pack4.
Qed.
Lemma smart_pack_pos : forall p, 0 < len p -> (0 < length (smart_pack [] p))%nat.
Proof. intros p H. exact (smart_pack_nonempty_length [] p H). Qed.
(** The four fields of a blob with a non-empty ciphertext are read back. *)
Lemma handler_reads : forall G h key iv aad m, gcm_ok G -> ready h key -> len iv = 16 -> len aad <= 16 -> 0 < len m < 2147483647 ->
  handler_decrypt G h (if sh_b64 h then b64 (blob_of G key iv aad m) else blob_of G key iv aad m) =
  if (0 <? len (sh_aad h)) && negb (len aad =? 0) && negb (bs_eq aad (sh_aad h)) then Throw RuntimeError
  else if str_eqb (mac G key iv (aad_or_zeros aad) (crypt G key iv 0 m)) (mac G key iv (match sh_aad h with [] => aad_or_zeros aad | a => a end) (crypt G key iv 0 m))
       then Ok m else Throw RuntimeError.
Proof.
  intros G h key iv aad m HG [Hm [Hg [Hk Ha]]] Hiv Had Hl. destruct HG as [Hmac Hiu] eqn:EG. clear EG.
  unfold handler_decrypt. rewrite decoded. cbv zeta. rewrite <- blob_parts.
  set (ct := crypt G key iv 0 m). assert (Hct : len ct = len m) by apply crypt_len.
  set (tag := mac G key iv (aad_or_zeros aad) ct). assert (Htag : len tag = 16) by apply Hmac.
  pose proof (smart_pack_pos tag ltac:(lia)) as Ptag.
  rewrite (unpack_at [] iv (smart_pack [] ct ++ smart_pack [] tag ++ smart_pack [] aad)) by (auto; rewrite ?pow32; lia). cbn [bind].
  rewrite (unpack_at (smart_pack [] iv) ct (smart_pack [] tag ++ smart_pack [] aad)) by (auto; rewrite ?pow32; lia). cbn [bind].
  rewrite Hm.
  replace (Z.of_nat (length (smart_pack [] iv ++ smart_pack [] ct)) <? len (smart_pack [] iv ++ smart_pack [] ct ++ smart_pack [] tag ++ smart_pack [] aad)) with true
    by (unfold len; rewrite !app_length; lia).
  rewrite (unpack_at (smart_pack [] iv ++ smart_pack [] ct) tag (smart_pack [] aad)) by (rewrite <- ?app_assoc; auto; rewrite ?pow32; lia). cbn [bind].
  assert (Eaad : (if Z.of_nat (length ((smart_pack [] iv ++ smart_pack [] ct) ++ smart_pack [] tag)) <? len (smart_pack [] iv ++ smart_pack [] ct ++ smart_pack [] tag ++ smart_pack [] aad)
     then snd (smart_unpack (smart_pack [] iv ++ smart_pack [] ct ++ smart_pack [] tag ++ smart_pack [] aad) (length ((smart_pack [] iv ++ smart_pack [] ct) ++ smart_pack [] tag))) else Ok []) = Ok aad).
  { destruct aad as [|x l].
    - rewrite smart_pack_empty_lemma, app_nil_r. replace (Z.of_nat _ <? _) with false by (unfold len; rewrite !app_length; lia). reflexivity.
    - pose proof (smart_pack_pos (x :: l) ltac:(unfold len; simpl; lia)).
      replace (Z.of_nat _ <? _) with true by (unfold len; rewrite !app_length; lia).
      rewrite (unpack_at ((smart_pack [] iv ++ smart_pack [] ct) ++ smart_pack [] tag) (x :: l) []); [reflexivity| |now rewrite app_nil_r, <- !app_assoc|reflexivity].
      rewrite pow32. unfold len in *. simpl in *. lia. }
  rewrite Eaad. cbn [bind]. rewrite Hg. clear Eaad.
  destruct ((0 <? len (sh_aad h)) && negb (len aad =? 0) && negb (bs_eq aad (sh_aad h))); [reflexivity|].
  rewrite ae_decrypt_exact; rewrite ?dec_aad_key, ?dec_aad_set, ?dec_aad_aad; auto; try lia.
  - rewrite Hiu by auto. destruct (str_eqb tag _); [|reflexivity]. cbn [bind to_runtime]. unfold ct. now rewrite crypt_crypt.
  - destruct (sh_aad h) as [|x l] eqn:Es; [apply aad_or_zeros_len; lia|lia].
Qed.
Lemma handler_reads_empty : forall G h key iv, gcm_ok G -> ready h key -> len iv = 16 -> sh_aad h = [] ->
  handler_decrypt G h (if sh_b64 h then b64 (blob_of G key iv [] []) else blob_of G key iv [] []) = Ok [].
Proof.
  intros G h key iv HG [Hm [Hg [Hk Ha]]] Hiv Had. destruct HG as [Hmac Hiu] eqn:EG. clear EG.
  unfold handler_decrypt. rewrite decoded. cbv zeta. rewrite <- blob_parts. cbn [crypt]. rewrite !smart_pack_empty_lemma, app_nil_l, app_nil_r.
  set (tag := mac G key iv (aad_or_zeros []) []). assert (Htag : len tag = 16) by apply Hmac.
  rewrite (unpack_at [] iv (smart_pack [] tag)) by (auto; rewrite ?pow32; lia). cbn [bind].
  rewrite (unpack_at (smart_pack [] iv) tag []) by (rewrite ?app_nil_r; auto; rewrite ?pow32; lia). cbn [bind]. rewrite Hm.
  replace (Z.of_nat _ <? _) with false by (unfold len; lia). cbn [bind]. rewrite Had, Hg. change (0 <? len []) with false. cbn [andb negb].
  rewrite ae_decrypt_exact; auto; try (now vm_compute); try lia.
  rewrite Hiu by auto. cbn [ae_key ae_aad new_auth_enc ae_set_aad_ptr]. change (fill_buffer 0 16) with (aad_or_zeros []). fold tag. now rewrite str_eqb_refl.
Qed.
Lemma handler_reads_empty_aad : forall G h key iv, gcm_ok G -> ready h key -> len iv = 16 -> 0 < len (sh_aad h) < 16 ->
  handler_decrypt G h (if sh_b64 h then b64 (blob_of G key iv (sh_aad h) []) else blob_of G key iv (sh_aad h) []) = Throw RuntimeError.
Proof.
  intros G h key iv HG [Hm [Hg [Hk Ha]]] Hiv Had. destruct HG as [Hmac Hiu] eqn:EG. clear EG.
  unfold handler_decrypt. rewrite decoded. cbv zeta. rewrite <- blob_parts. cbn [crypt]. rewrite !smart_pack_empty_lemma, app_nil_l.
  set (tag := mac G key iv (aad_or_zeros (sh_aad h)) []). assert (Htag : len tag = 16) by apply Hmac.
  pose proof (smart_pack_pos (sh_aad h) ltac:(lia)) as Paad.
  rewrite (unpack_at [] iv (smart_pack [] tag ++ smart_pack [] (sh_aad h))) by (auto; rewrite ?pow32; lia). cbn [bind].
  rewrite (unpack_at (smart_pack [] iv) tag (smart_pack [] (sh_aad h))) by (auto; rewrite ?pow32; lia). cbn [bind]. rewrite Hm.
  replace (Z.of_nat _ <? _) with true by (unfold len; rewrite !app_length; lia).
  rewrite (unpack_at (smart_pack [] iv ++ smart_pack [] tag) (sh_aad h) []) by (rewrite ?app_nil_r, <- ?app_assoc; auto; rewrite ?pow32; lia). cbn [bind].
  replace (Z.of_nat _ <? _) with false by (unfold len; rewrite !app_length; lia). cbn [bind]. rewrite Hg.
  change (len [] =? 0) with true. cbn [negb]. rewrite andb_false_r. cbn [andb].
  unfold ae_decrypt. replace (len (sh_aad h) =? 16) with false by lia. reflexivity.
Qed.

(** Every plaintext comes from an accepted tag. *)
Lemma handle_sound : forall G h z p, gcm_ok G -> handle_decrypt G h z = Ok p ->
  exists iv c t, opens G (firstn 32 (h_key h)) iv (aad_or_zeros (h_aad h)) c t p /\ len t = 16 /\
    (let z := if h_b64 h then base64_decode z else z in
     exists i j k, smart_unpack z 0 = (i, Ok iv) /\ smart_unpack z i = (j, Ok c) /\ smart_unpack z j = (k, Ok t)).
Proof.
  intros G h z p HG H. unfold handle_decrypt in H. cbv zeta in *. set (z' := if h_b64 h then base64_decode z else z) in *.
  destruct (smart_unpack z' 0) as [i [iv| | | |]] eqn:E1; try discriminate H. cbn [bind] in H.
  destruct (smart_unpack z' i) as [j [c| | | |]] eqn:E2; try discriminate H. 2:{ destruct e; discriminate H. } cbn [bind] in H.
  destruct (smart_unpack z' j) as [k [t| | | |]] eqn:E3; try discriminate H. 2:{ destruct e; discriminate H. } cbn [bind] in H.
  destruct (ae_decrypt G (with_aad (new_auth_enc (h_key h)) (h_aad h)) iv c t) as [[q|]|[]| | |] eqn:E4; try discriminate H. cbn [bind to_runtime] in H.
  injection H as ->. apply ae_decrypt_sound in E4; [|exact HG|apply with_aad_set]. rewrite with_aad_key, with_aad_aad in E4.
  exists iv, c, t. destruct E4 as [Ht Ho]. split; [exact Ho|]. split; [exact Ht|]. exists i, j, k. auto.
  destruct e; discriminate H.
Qed.
Lemma to_runtime_ok : forall A (m : res A) x, to_runtime m = Ok x -> m = Ok x.
Proof. intros A [a|[]| | |] x H; try discriminate H; exact H. Qed.
Lemma handler_sound : forall G h blob p, gcm_ok G -> handler_decrypt G h blob = Ok p ->
  exists key iv c t a, sh_gcm h = Some key /\ len t = 16 /\
    fields (if sh_b64 h then base64_decode blob else blob) iv c t a /\
    (sh_aad h = [] \/ a = [] \/ a = sh_aad h) /\
    opens G (firstn 32 key) iv (match sh_aad h with [] => aad_or_zeros a | x => x end) c t p.
Proof.
  intros G h blob p HG H. unfold handler_decrypt in H. cbv zeta in H. set (z := if sh_b64 h then base64_decode blob else blob) in *.
  destruct (smart_unpack z 0) as [i [iv|e| | |]] eqn:E1; try discriminate H. cbn [bind] in H.
  destruct (smart_unpack z i) as [j [x|e| | |]] eqn:E2; try discriminate H. cbn [bind] in H.
  destruct (sh_mode h); try discriminate H. apply to_runtime_ok in H.
  match type of H with bind ?m _ = _ => remember m as parts eqn:Ep end.
  destruct parts as [[[c t] a]| | | |]; try discriminate H. cbn [bind] in H.
  destruct ((0 <? len (sh_aad h)) && negb (len a =? 0) && negb (bs_eq a (sh_aad h))) eqn:Ec; [discriminate H|].
  destruct (sh_gcm h) as [key|] eqn:Eg; [|discriminate H].
  match type of H with bind ?m _ = _ => destruct m as [[q|]| | | |] eqn:Ed end; try discriminate H. cbn [bind] in H. injection H as ->.
  apply ae_decrypt_sound in Ed; [|exact HG|apply dec_aad_set]. rewrite dec_aad_key, dec_aad_aad in Ed. destruct Ed as [Ht Ho].
  exists key, iv, c, t, a. split; [reflexivity|]. split; [exact Ht|]. split; [|split; [|exact Ho]].
  - exists i, j, x. split; [exact E1|]. split; [exact E2|].
    destruct (Z.of_nat j <? len z) eqn:Ej.
    + right. split; [unfold len in Ej; lia|].
      destruct (smart_unpack z j) as [k [t'|e| | |]] eqn:E3; try discriminate Ep. cbn [bind] in Ep.
      destruct (Z.of_nat k <? len z) eqn:Ek.
      * destruct (snd (smart_unpack z k)) as [a'|e| | |] eqn:E4; try discriminate Ep. cbn [bind] in Ep. injection Ep as -> -> ->.
        split; [reflexivity|]. exists k. split; [reflexivity|]. right. split; [unfold len in Ek; lia|exact E4].
      * cbn [bind] in Ep. injection Ep as -> -> ->. split; [reflexivity|]. exists k. split; [reflexivity|]. left. split; [unfold len in Ek; lia|reflexivity].
    + left. injection Ep as -> -> ->. split; [unfold len in Ej; lia|auto].
  - destruct (0 <? len (sh_aad h)) eqn:A1.
    + destruct (len a =? 0) eqn:A2; [right; left; apply len_nil_inv; lia|].
      cbn [andb negb] in Ec. right. right. apply (proj1 (bs_eq_spec_lemma a (sh_aad h))). destruct (bs_eq a (sh_aad h)); [reflexivity|discriminate Ec].
    + left. apply len_nil_inv. pose proof (len_nonneg (sh_aad h)). lia.
Qed.
Lemma or_empty_ok : forall m p, or_empty m = Ok p -> m = Ok p \/ p = [] /\ m = Throw RuntimeError.
Proof. intros [x|[]| | |] p H; cbn in H; try discriminate H; auto. injection H as <-. auto. Qed.

(** ** Streams *)
Definition total_len (bs : list str) : Z := len (concat bs).
Lemma total_len_cons : forall b bs, total_len (b :: bs) = len b + total_len bs.
Proof. intros. unfold total_len. simpl. apply len_app. Qed.
Lemma enc_loop_exact : forall G blocks s e v out, s_enc s = true -> s_ctx s = Some e -> ev_iv e = Some v ->
  Forall (fun b => 0 < len b < 2147483647) blocks -> 0 <= s_total s -> 0 <= s_encn s ->
  s_total s + total_len blocks < 2^64 -> s_encn s + total_len blocks < 2^64 ->
  enc_loop G s out blocks =
  Some ({| s_key := s_key s;
           s_ctx := Some {| ev_key := ev_key e; ev_iv := ev_iv e; ev_aad := ev_aad e; ev_data := ev_data e ++ crypt G (ev_key e) v (length (ev_data e)) (concat blocks); ev_tag := ev_tag e |};
           s_iv := s_iv s; s_aad := s_aad s; s_aad_set := s_aad_set s; s_enc := s_enc s; s_dec := s_dec s;
           s_total := s_total s + total_len blocks; s_encn := s_encn s + Z.of_nat (length blocks); s_decn := s_decn s |},
        out ++ crypt G (ev_key e) v (length (ev_data e)) (concat blocks)).
Proof.
  intros G. induction blocks as [|b bs IH]; intros s e v out He Hc Hv Hb Ht Hn Htl Hnl.
  - cbn [enc_loop concat crypt length]. rewrite !app_nil_r. change (total_len []) with 0. rewrite !Z.add_0_r.
    destruct e, s. cbn in *. subst. reflexivity.
  - inversion Hb as [|? ? Hb1 Hb2]; subst. rewrite total_len_cons in *. pose proof (len_nonneg (concat bs)) as Hp. fold (total_len bs) in Hp.
    cbn [enc_loop]. unfold encrypt_update. rewrite He, Hc, too_long_false by lia. replace (0 <? len b) with true by lia. cbn [negb].
    unfold evp_update. rewrite Hv. rewrite crypt_len, Z.eqb_refl.
    rewrite (Z.mod_small (s_total s + len b)), (Z.mod_small (s_encn s + 1)) by lia.
    erewrite IH; cbn [s_enc s_ctx s_total s_encn ev_iv ev_key ev_data ev_aad ev_tag s_key s_iv s_aad s_aad_set s_dec s_decn]; try reflexivity; auto; try lia.
    cbn [concat ev_iv ev_key ev_data ev_aad ev_tag]. rewrite crypt_app, !app_length, crypt_length, <- !app_assoc.
    cbn [length]. do 3 f_equal; lia.
Qed.
Lemma dec_loop_exact : forall G blocks s e v out, s_dec s = true -> s_ctx s = Some e -> ev_iv e = Some v ->
  Forall (fun b => 0 < len b < 2147483647) blocks -> 0 <= s_decn s -> s_decn s + total_len blocks < 2^64 ->
  dec_loop G s out blocks =
  Some ({| s_key := s_key s;
           s_ctx := Some {| ev_key := ev_key e; ev_iv := ev_iv e; ev_aad := ev_aad e; ev_data := ev_data e ++ concat blocks; ev_tag := ev_tag e |};
           s_iv := s_iv s; s_aad := s_aad s; s_aad_set := s_aad_set s; s_enc := s_enc s; s_dec := s_dec s;
           s_total := s_total s; s_encn := s_encn s; s_decn := s_decn s + Z.of_nat (length blocks) |},
        out ++ crypt G (ev_key e) v (length (ev_data e)) (concat blocks)).
Proof.
  intros G. induction blocks as [|b bs IH]; intros s e v out He Hc Hv Hb Hn Hnl.
  - cbn [dec_loop concat crypt length]. rewrite !app_nil_r. change (Z.of_nat 0) with 0. rewrite !Z.add_0_r.
    destruct e, s. cbn in *. subst. reflexivity.
  - inversion Hb as [|? ? Hb1 Hb2]; subst. rewrite total_len_cons in *. pose proof (len_nonneg (concat bs)) as Hp. fold (total_len bs) in Hp.
    cbn [dec_loop]. unfold decrypt_update. rewrite He, Hc, too_long_false by lia. replace (0 <? len b) with true by lia. cbn [negb].
    unfold evp_update. rewrite Hv. rewrite crypt_len, Z.eqb_refl.
    rewrite (Z.mod_small (s_decn s + 1)) by lia.
    erewrite IH; cbn [s_enc s_ctx s_total s_encn ev_iv ev_key ev_data ev_aad ev_tag s_key s_iv s_aad s_aad_set s_dec s_decn]; try reflexivity; auto; try lia.
    cbn [concat ev_iv ev_key ev_data ev_aad ev_tag]. rewrite crypt_app, !app_length, <- !app_assoc.
    cbn [length]. do 3 f_equal; lia.
Qed.
(** The associated data in force: appended to what the object still holds. *)
Definition aad_in_force (s : stream) (a : option str) : str := match a with None => zeros16 | Some a => s_aad s ++ a end.
Lemma blocks_pos : forall bs, blocks_ok bs -> 0 < Z.of_nat (length bs) <= total_len bs.
Proof.
  intros bs [Hn Hf]. split; [destruct bs; [congruence|simpl; lia]|]. clear Hn. induction Hf; [simpl; reflexivity|].
  rewrite total_len_cons. cbn [length]. lia.
Qed.
Lemma enc_session_exact : forall G s a iv blocks, gcm_ok G -> idle s -> len iv = 16 -> blocks_ok blocks -> len (aad_in_force s a) < 2147483647 -> total_len blocks < 2^64 ->
  let ct := crypt G (s_key s) iv 0 (concat blocks) in
  let tag := mac G (s_key s) iv (aad_in_force s a) ct in
  exists s', s_key s' = s_key s /\
  (total_len blocks < 2^32 -> idle s' /\ s_aad s' = fill_buffer 0 (len (aad_in_force s a)) /\ enc_session G s a iv blocks = Some (iv, ct, tag, s', Ok 0)) /\
  (2^32 <= total_len blocks -> enc_session G s a iv blocks = Some (iv, ct, [], s', Throw (OpenABEError 28))).
Proof.
  intros G s a iv blocks [Hm Hi] [He [Hd Hk]] Hiv Hb Ha Ht ct tag. pose proof (blocks_pos blocks Hb) as Hbp. destruct Hb as [Hbn Hbf].
  unfold enc_session. unfold encrypt_init. rewrite He, Hd. unfold evp_init. replace (len (s_key s) <? 32) with false by lia.
  rewrite Hi by auto. rewrite firstn_self by (unfold len in Hk; lia).
  unfold init_aad, set_aad. cbn [s_enc s_dec orb andb s_aad s_aad_set s_ctx].
  change (match a with Some a0 => s_aad s ++ a0 | None => fill_buffer 0 16 end) with (aad_in_force s a).
  rewrite too_long_false by auto. unfold evp_add_aad. cbn [ev_iv ev_data ev_aad ev_key ev_tag].
  rewrite Z.eqb_refl. cbn [app].
  erewrite enc_loop_exact; cbn [with_ctx s_key s_ctx s_iv s_aad s_aad_set s_enc s_dec s_total s_encn s_decn ev_iv ev_data ev_aad ev_key ev_tag]; try reflexivity; auto; try lia.
  cbn [length app ev_iv ev_data ev_aad ev_key ev_tag]. fold ct. unfold encrypt_finalize.
  cbn [with_ctx s_key s_ctx s_iv s_aad s_aad_set s_enc s_dec s_total s_encn s_decn]. rewrite !Z.add_0_l.
  replace (0 <? Z.of_nat (length blocks)) with true by lia. cbn [andb].
  assert (Hct : len ct = total_len blocks) by apply crypt_len. rewrite Hct, Z.eqb_refl. cbn [negb].
  unfold evp_get_tag. cbn [ev_iv ev_key ev_aad ev_data]. fold tag.
  destruct (Z_lt_ge_dec (total_len blocks) (2^32)) as [Hs|Hs].
  - rewrite (Z.div_small (total_len blocks) (2^32)) by lia. rewrite Z.mul_0_l. cbn [Z.eqb].
    eexists. split; [|split; [intros _|intros X; exfalso; lia]].
    2:{ split; [|split; [|reflexivity]]; [unfold idle|]; cbn [s_key s_enc s_dec s_aad]; auto. }
    reflexivity.
  - assert (Hdiv : 1 <= total_len blocks / 2^32) by (apply Z.div_le_lower_bound; lia).
    assert (Hz : (total_len blocks / 2^32 * 2^32 =? 0) = false) by (apply Z.eqb_neq; lia).
    rewrite Hz. eexists. split; [|split; [intro X; exfalso; lia|intros _; reflexivity]]. reflexivity.
Qed.

Definition tag_ok (t m : str) : bool := (0 <? len t) && (len t <=? 16) && str_eqb t (firstn (length t) m).
Lemma dec_session_exact : forall G s a iv t blocks v, idle s -> iv_used G iv = Some v -> blocks_ok blocks -> len (aad_in_force s a) < 2147483647 -> total_len blocks < 2^64 ->
  exists s', idle s' /\ s_key s' = s_key s /\ s_aad s' = fill_buffer 0 (len (aad_in_force s a)) /\
    dec_session G s a iv t blocks = Some (crypt G (s_key s) v 0 (concat blocks), s', Ok (if tag_ok t (mac G (s_key s) v (aad_in_force s a) (concat blocks)) then 0 else 32)).
Proof.
  intros G s a iv t blocks v [He [Hd Hk]] Hv Hb Ha Ht. pose proof (blocks_pos blocks Hb) as Hbp. destruct Hb as [Hbn Hbf].
  unfold dec_session. unfold decrypt_init. rewrite He, Hd. unfold evp_init. replace (len (s_key s) <? 32) with false by lia.
  rewrite Hv. rewrite firstn_self by (unfold len in Hk; lia).
  unfold init_aad, set_aad. cbn [s_enc s_dec orb andb s_aad s_aad_set s_ctx].
  change (match a with Some a0 => s_aad s ++ a0 | None => fill_buffer 0 16 end) with (aad_in_force s a).
  replace (s_enc s || true) with true by (now rewrite orb_true_r). cbn [s_enc s_dec orb andb s_aad s_aad_set s_ctx].
  replace (s_enc s || true) with true by (now rewrite orb_true_r). cbn [s_enc s_dec orb andb s_aad s_aad_set s_ctx].
  rewrite too_long_false by auto. unfold evp_set_tag, evp_add_aad. cbn [ev_iv ev_data ev_aad ev_key ev_tag].
  rewrite Z.eqb_refl. cbn [app].
  erewrite dec_loop_exact; cbn [with_ctx s_key s_ctx s_iv s_aad s_aad_set s_enc s_dec s_total s_encn s_decn ev_iv ev_data ev_aad ev_key ev_tag]; try reflexivity; auto; try lia.
  cbn [length app ev_iv ev_data ev_aad ev_key ev_tag]. unfold decrypt_finalize.
  cbn [with_ctx s_key s_ctx s_iv s_aad s_aad_set s_enc s_dec s_total s_encn s_decn]. rewrite !Z.add_0_l.
  replace (0 <? Z.of_nat (length blocks)) with true by lia. cbn [andb].
  unfold evp_verify. cbn [ev_iv ev_key ev_aad ev_data ev_tag].
  eexists. split; [|split; [|split; [|unfold tag_ok; destruct ((0 <? len t) && (len t <=? 16)); cbn [andb]; reflexivity]]].
  - unfold idle. cbn [s_enc s_dec s_key]. auto.
  - reflexivity.
  - reflexivity.
Qed.

(** ** Key objects *)
Lemma len_cons : forall c (b : str), len (c :: b) = 1 + len b.
Proof. intros. unfold len. cbn [length]. lia. Qed.
Lemma get_subset_exact : forall pre mid suf, len pre + len mid < 2^32 -> get_subset (pre ++ mid ++ suf) (len pre) (len mid) = Ok mid.
Proof.
  intros pre mid suf H. pose proof (len_nonneg pre). pose proof (len_nonneg mid). pose proof (len_nonneg suf).
  rewrite get_subset_spec_lemma by lia. rewrite !len_app. replace (len pre + len mid <=? len pre + (len mid + len suf)) with true by lia.
  unfold len. rewrite !Nat2Z.id. rewrite skipn_app, skipn_all, Nat.sub_diag. cbn [app skipn]. rewrite firstn_app, firstn_all, Nat.sub_diag. cbn [firstn]. now rewrite app_nil_r.
Qed.
Definition named_key (k : symkey) : Prop :=
  sk_version k = 170 /\ (sk_alg k = 70 \/ sk_alg k = 71 \/ sk_alg k = 72) /\ sk_type k = SK_ENC /\ len (sk_uid k) = 16 /\ 0 < len (sk_id k) < 2^31 /\ (len (sk_data k) = 16 \/ len (sk_data k) = 32).
Definition unnamed_key (k : symkey) : Prop := exists d, (len d = 16 \/ len d = 32) /\ set_symmetric_key blank_symkey d = Ok k.
Lemma symkey_round : forall k this random, named_key k \/ unnamed_key k -> symkey_load this (symkey_export k) random = (k, Ok 0).
Proof.
  intros k this random [H|H].
  - destruct H as [Hv [Ha [Ht [Hu [Hi Hd]]]]]. destruct k as [ver alg uid id ty d]. cbn [sk_version sk_alg sk_uid sk_id sk_type sk_data] in *. subst ver ty.
    unfold symkey_load, symkey_export, symkey_header. cbn [sk_version sk_alg sk_uid sk_id sk_type sk_data].
    set (h := z2b 170 :: z2b alg :: uid ++ id).
    assert (Hh : len h = 18 + len id) by (unfold h; rewrite !len_cons, len_app; lia).
    rewrite (smart_pack_app (smart_pack [] h) d).
    pose proof (smart_pack_pos h ltac:(lia)) as Hp.
    replace (len (smart_pack [] h ++ smart_pack [] d) =? 0) with false by (unfold len; rewrite app_length; lia).
    rewrite (unpack_at [] h (smart_pack [] d)) by (auto; rewrite pow32; lia). cbn [bind app].
    rewrite (unpack_at (smart_pack [] h) d []) by (rewrite ?app_nil_r; auto; rewrite pow32; lia). cbn [snd].
    replace (len h <? 2) with false by lia. replace (18 <=? len h) with true by lia.
    change (at_ h 0) with (Ok (b2z (z2b 170)) : res Z). change (at_ h 1) with (Ok (b2z (z2b alg)) : res Z). cbn [bind].
    rewrite (z2b_small alg) by lia.
    assert (G1 : get_subset h 2 16 = Ok uid).
    { pose proof (get_subset_exact [z2b 170; z2b alg] uid id) as X. rewrite Hu in X. apply X. change (len [z2b 170; z2b alg]) with 2. lia. }
    assert (G2 : get_subset h 18 (len h - 16 - 1 - 1) = Ok id).
    { rewrite Hh. replace (18 + len id - 16 - 1 - 1) with (len id) by lia.
      pose proof (get_subset_exact (z2b 170 :: z2b alg :: uid) id []) as X. rewrite app_nil_r in X.
      replace (len (z2b 170 :: z2b alg :: uid)) with 18 in X by (rewrite !len_cons; lia). apply X. rewrite pow32. lia. }
    rewrite G1, G2. cbn [bind]. unfold new_symkey. replace (len id =? 0) with false by lia.
    assert (G3 : get_scheme_id alg = Ok alg /\ key_type_of alg = SK_ENC) by (destruct Ha as [-> | [-> | ->]]; split; reflexivity).
    destruct G3 as [G3 G4]. rewrite G3, G4. cbn [bind]. rewrite Hu. cbn [Z.eqb Pos.eqb].
    unfold set_symmetric_key. destruct Hd as [Hd|Hd]; rewrite Hd; reflexivity.
  - destruct H as [d [Hd Hk]]. unfold set_symmetric_key in Hk.
    assert (Ek : k = {| sk_version := 170; sk_alg := 0; sk_uid := []; sk_id := []; sk_type := KEY_NONE; sk_data := d |}).
    { destruct Hd as [Hd|Hd]; rewrite Hd in Hk; cbn [Z.eqb Pos.eqb negb andb] in Hk; injection Hk as <-; reflexivity. }
    subst k. unfold symkey_load, symkey_export. cbn [sk_data]. change (symkey_header _) with [z2b 170; z2b 0]. set (h := [z2b 170; z2b 0]).
    rewrite (smart_pack_app (smart_pack [] h) d).
    replace (len (smart_pack [] h ++ smart_pack [] d) =? 0) with false by (unfold len; rewrite app_length; change (length (smart_pack [] h)) with 4%nat; lia).
    rewrite (unpack_at [] h (smart_pack [] d)) by (auto; now vm_compute). cbn [bind app].
    rewrite (unpack_at (smart_pack [] h) d []) by (rewrite ?app_nil_r; auto; rewrite pow32; lia). cbn [snd].
    change (len h <? 2) with false. change (18 <=? len h) with false. change (at_ h 0) with (Ok 170 : res Z). change (at_ h 1) with (Ok 0 : res Z). cbn [bind].
    unfold set_symmetric_key. destruct Hd as [Hd|Hd]; rewrite Hd; reflexivity.
Qed.
