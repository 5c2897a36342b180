(** Properties C09, C10, C39, C60, C61, C69, C70: base64, hash streams, key derivation
    and identifiers. *)
From Verif Require Import Base ByteString Base64 Base64Proofs Kdf KdfProofs Utils.
From Coq Require Import ZArith List Ascii Bool Lia ZifyBool ZifyNat.
Import ListNotations.
Open Scope Z_scope.

(** * C09: base64 *)
(** Encoding never fails and is the encoding of RFC 4648 with the URL-safe alphabet
    ([b64] in Base64Proofs.v, written with numbers to the base 64 instead of masks and
    shifts); decoding it gives the bytes back. *)
Theorem C09_encode_exact : forall b : str, base64_encode b = Ok (b64 b).
Proof. exact encode_exact. Qed.
Print Assumptions C09_encode_exact.
Theorem C09_roundtrip : forall b : str, exists t, base64_encode b = Ok t /\ base64_decode t = b.
Proof. intro b. exists (b64 b). split; [apply encode_exact|apply decode_encode]. Qed.
Print Assumptions C09_roundtrip.
(** Length, alphabet and padding. *)
Theorem C09_shape : forall b t, base64_encode b = Ok t ->
  len t = 4 * ((len b + 2) / 3) /\
  exists p pad, t = p ++ pad /\ Forall (fun c => In c alphabet) p /\ pad = repeat "="%char (Z.to_nat ((3 - len b mod 3) mod 3)).
Proof.
  intros b t E. rewrite encode_exact in E. injection E as <-. split; [apply b64_length|].
  destruct (encoding_parts b) as (p & rest & E & F & Hr & K). exists p, rest. split; auto. split.
  - apply Forall_forall. intros c I. rewrite Forall_forall in F. specialize (F c I). unfold in_alphabet in F. rewrite existsb_exists in F. destruct F as (x & Hx & Ex). apply Ascii.eqb_eq in Ex. subst. auto.
  - revert p rest E F Hr K. induction b as [|a|a c|a c d r IH] using by_threes; intros p rest E F Hr K.
    + cbn in E. symmetry in E. apply app_eq_nil in E as [-> ->]. reflexivity.
    + pose proof (b64_length [a]) as Lx. rewrite E, len_app in Lx. change (4 * ((len [a] + 2) / 3)) with 4 in Lx.
      destruct Hr as [-> |[-> | ->]]; [| |reflexivity].
      * change (len []) with 0 in Lx. destruct p as [|x1 [|x2 [|x3 [|x4 [|]]]]]; unfold len in Lx; cbn [length] in Lx; try lia. apply (f_equal (@length _)) in K. cbn in K. discriminate.
      * change (len (L "=")) with 1 in Lx. destruct p as [|x1 [|x2 [|x3 [|x4 ?]]]]; unfold len in Lx; cbn [length] in Lx; try lia. apply (f_equal (@length _)) in K. cbn in K. discriminate.
    + pose proof (b64_length [a; c]) as Lx. rewrite E, len_app in Lx. change (4 * ((len [a; c] + 2) / 3)) with 4 in Lx.
      destruct Hr as [-> |[-> | ->]]; [|reflexivity|].
      * change (len []) with 0 in Lx. destruct p as [|x1 [|x2 [|x3 [|x4 [|]]]]]; unfold len in Lx; cbn [length] in Lx; try lia. apply (f_equal (@length _)) in K. cbn in K. discriminate.
      * change (len (L "==")) with 2 in Lx. destruct p as [|x1 [|x2 [|x3 ?]]]; unfold len in Lx; cbn [length] in Lx; try lia. apply (f_equal (@length _)) in K. cbn in K. discriminate.
    + replace ((3 - len (a :: c :: d :: r) mod 3) mod 3) with ((3 - len r mod 3) mod 3) by (replace (len (a :: c :: d :: r)) with (len r + 1 * 3) by (unfold len; cbn [length]; lia); rewrite Z_mod_plus_full; reflexivity).
      assert (4 <= len p) as Lp by (pose proof (bytes_length p) as Lx; rewrite K in Lx; pose proof (len_nonneg r); replace (len (a :: c :: d :: r)) with (len r + 3) in Lx by (unfold len; cbn [length]; lia); lia).
      destruct p as [|x1 [|x2 [|x3 [|x4 p]]]]; try (unfold len in Lp; cbn [length] in Lp; lia).
      rewrite !Forall_cons_iff in F. destruct F as (_ & _ & _ & _ & F). cbn [b64 digits24 map app] in E. injection E as _ _ _ _ E.
      apply (IH p rest); auto. cbn [b64_bytes bytes24 app] in K. injection K as _ _ _ K. exact K.
Qed.
Print Assumptions C09_shape.
Example C09_example : base64_encode (map z2b [251; 255; 254; 0]) = Ok (L "-__-AA==") /\ base64_decode (L "-__-AA==") = map z2b [251; 255; 254; 0].
Proof. split; reflexivity. Qed.

(** * C10: decoding arbitrary text *)
(** What decoding returns for every text: the bytes of the longest prefix made of
    alphabet characters, if what follows is at most two '=', else nothing. *)
Theorem C10_decode_exact : forall t p rest : str, t = p ++ rest -> Forall (fun c => In c alphabet) p -> (forall c r, rest = c :: r -> ~ In c alphabet) ->
  base64_decode t = if (len rest <=? 2) && forallb (Ascii.eqb "="%char) rest then b64_bytes p else [].
Proof.
  assert (forall c, in_alphabet c = true <-> In c alphabet) as A.
  { intro c. unfold in_alphabet. rewrite existsb_exists. split; [intros (x & I & E); apply Ascii.eqb_eq in E; subst; auto|intro I; exists c; split; auto; apply Ascii.eqb_refl]. }
  intros t p rest -> F H. rewrite decode_exact, split_app; [reflexivity| |].
  - apply Forall_forall. rewrite Forall_forall in F. intros. apply A, F. auto.
  - destruct rest as [|c r]; auto. destruct (in_alphabet c) eqn:E; auto. exfalso. apply (H c r eq_refl), A, E.
Qed.
Print Assumptions C10_decode_exact.
Theorem C10_length : forall t : str, 4 * len (base64_decode t) <= 3 * len t.
Proof. exact decode_length. Qed.
Print Assumptions C10_length.
Theorem C10_encode_injective : forall b b' t, base64_encode b = Ok t -> base64_encode b' = Ok t -> b = b'.
Proof. intros b b' t E E'. rewrite encode_exact in E, E'. injection E as <-. injection E' as E'. rewrite <- (decode_encode b), <- (decode_encode b'). congruence. Qed.
Print Assumptions C10_encode_injective.
(** Decoding is not injective on text: the bits that do not fill a byte are ignored,
    padding may be missing, and a refused text decodes like the empty one. *)
Theorem C10_text_refuted : exists t t', t <> t' /\ base64_decode t = base64_decode t' /\ base64_decode t = L "A".
Proof. exists (L "QQ=="), (L "QR"). split; [discriminate|]. split; reflexivity. Qed.
Print Assumptions C10_text_refuted.
Example C10_example : base64_decode (L "QUJD!") = [] /\ base64_decode (L "QUJD=") = L "ABC" /\ base64_decode (L "QUJD===") = [].
Proof. repeat split; reflexivity. Qed.

(** * C39: the mask *)
(** hashFromBytes is H(0|p|m) | H(1|p|m) | ..., cut to the length asked for; the
    counter is one byte. *)
Theorem C39_mask_exact : forall (hash : str -> str), (forall x, length (hash x) = 32%nat) ->
  forall buf n prefix, 0 <= n < 2147483616 ->
  hash_from_bytes hash buf n prefix = Ok (firstn (Z.to_nat n) (stream (fun c => hash (z2b c :: z2b prefix :: buf)) 0 (Z.to_nat ((n + 31) / 32)))).
Proof. intros hash H buf n prefix B. apply (mask_exact hash H); auto. Qed.
Print Assumptions C39_mask_exact.
(** Up to 256 blocks (8192 bytes) no two blocks come from the same hash input. *)
Theorem C39_distinct_inputs : forall buf prefix i j, 0 <= i < 256 -> 0 <= j < 256 -> i <> j -> z2b i :: z2b prefix :: buf <> z2b j :: z2b prefix :: buf.
Proof. intros buf prefix i j Hi Hj N E. apply N. exact (mask_input_inj prefix buf i j Hi Hj E). Qed.
Print Assumptions C39_distinct_inputs.
(** Beyond, the mask repeats with period 8192, whatever the hash function. *)
Theorem C39_mask_refuted : forall (hash : str -> str), (forall x, length (hash x) = 32%nat) ->
  forall buf prefix n i mask, 0 <= n < 2147483616 -> hash_from_bytes hash buf n prefix = Ok mask -> 32 * (Z.of_nat i + 257) <= n ->
  firstn 32 (skipn (i * 32) mask) = firstn 32 (skipn ((i + 256) * 32) mask).
Proof.
  intros hash H buf prefix n i mask B E Hi. rewrite (C39_mask_exact hash H) in E by auto. injection E as <-.
  set (st := stream _ 0 _). assert (forall k, 32 * (Z.of_nat k + 1) <= n -> firstn 32 (skipn (k * 32) (firstn (Z.to_nat n) st)) = hash (z2b (Z.of_nat k) :: z2b prefix :: buf)) as K.
  { intros k Hk. rewrite skipn_firstn_comm, firstn_firstn. replace (Nat.min 32 (Z.to_nat n - k * 32)) with 32%nat by lia. unfold st. rewrite stream_block by (auto; Z.div_mod_to_equations; lia). reflexivity. }
  rewrite !K by lia. f_equal. pose proof (mask_input_wrap prefix buf (Z.of_nat i)) as W. unfold mask_input in W. rewrite <- W. f_equal. f_equal. lia.
Qed.
Print Assumptions C39_mask_refuted.
(** A hash of 32 bytes, for the examples. *)
Definition toy_hash (x : str) : str := firstn 32 (rev x ++ repeat (z2b (len x)) 32).
Lemma toy_hash_length : forall x, length (toy_hash x) = 32%nat.
Proof. intro x. unfold toy_hash. rewrite firstn_length, app_length, repeat_length. lia. Qed.
Example C39_example : exists m, hash_from_bytes toy_hash (L "key") 40 42 = Ok m /\ len m = 40 /\ firstn 32 m <> firstn 32 (skipn 32 m ++ repeat (z2b 5) 24).
Proof. eexists. split; [vm_compute; reflexivity|]. split; [reflexivity|]. vm_compute. discriminate. Qed.

(** * C60: HKDF *)
(** ComputeHKDF is HKDF-Expand of RFC 5869 with PRK = HMAC(key, H(salt)) (an empty salt
    stands for 32 zero bytes); the counter is taken modulo 256. *)
Theorem C60_hkdf_exact : forall hash hmac, (forall k x : str, length (hmac k x) = 32%nat) ->
  forall key salt info n m, 0 <= n <= 32 * 2147483647 -> n <= 32 * Z.of_nat m ->
  let salt' := if len salt =? 0 then zeros 32 else salt in
  compute_hkdf hash hmac key salt info n = Ok (firstn (Z.to_nat n) (expand hmac (hmac key (hash salt')) info m), salt').
Proof. intros hash hmac H key salt info n m Hn Hm. apply hkdf_exact; auto. Qed.
Print Assumptions C60_hkdf_exact.
(** Exactly the requested length. *)
Theorem C60_length : forall hash hmac, (forall k x : str, length (hmac k x) = 32%nat) ->
  forall key salt info n, 0 <= n <= 32 * 2147483647 -> exists out salt', compute_hkdf hash hmac key salt info n = Ok (out, salt') /\ len out = n.
Proof.
  intros hash hmac H key salt info n Hn. do 2 eexists. split; [apply (C60_hkdf_exact hash hmac H) with (m := Z.to_nat n); lia|].
  unfold len. rewrite firstn_length, expand_length by auto. lia.
Qed.
Print Assumptions C60_length.
(** A shorter request is a prefix of a longer one, also when the salt variable is used
    again after the first call has overwritten it. *)
Theorem C60_prefix : forall hash hmac, (forall k x : str, length (hmac k x) = 32%nat) ->
  forall key salt info n n' out salt1 out' salt2, 0 <= n <= n' -> n' <= 32 * 2147483647 ->
  compute_hkdf hash hmac key salt info n = Ok (out, salt1) ->
  compute_hkdf hash hmac key salt info n' = Ok (out', salt2) \/ compute_hkdf hash hmac key salt1 info n' = Ok (out', salt2) ->
  out = firstn (Z.to_nat n) out'.
Proof.
  intros hash hmac H key salt info n n' out salt1 out' salt2 Hn Hn' E E'.
  rewrite (C60_hkdf_exact hash hmac H _ _ _ _ (Z.to_nat n')) in E by lia. cbv zeta in E. injection E as <- <-.
  assert (forall s : str, len (if len s =? 0 then zeros 32 else s) =? 0 = false) as Z0.
  { intro s. destruct (Z.eqb_spec (len s) 0); [reflexivity|]. lia. }
  assert (out' = firstn (Z.to_nat n') (expand hmac (hmac key (hash (if len salt =? 0 then zeros 32 else salt))) info (Z.to_nat n'))) as ->.
  { destruct E' as [E'|E']; rewrite (C60_hkdf_exact hash hmac H _ _ _ _ (Z.to_nat n')) in E' by lia; cbv zeta in E'; rewrite ?Z0 in E'; injection E' as <- _; reflexivity. }
  rewrite firstn_firstn, Nat.min_l by lia. reflexivity.
Qed.
Print Assumptions C60_prefix.
(** The salt argument is changed, and an empty salt is the same as one of 32 zero bytes. *)
Theorem C60_salt : forall hash hmac, (forall k x : str, length (hmac k x) = 32%nat) ->
  forall key info n, 0 <= n <= 32 * 2147483647 -> compute_hkdf hash hmac key [] info n = compute_hkdf hash hmac key (repeat (z2b 0) 32) info n.
Proof. intros hash hmac H key info n Hn. rewrite !(C60_hkdf_exact hash hmac H _ _ _ _ (Z.to_nat n)) by lia. reflexivity. Qed.
Print Assumptions C60_salt.
Definition toy_hmac (k x : str) : str := toy_hash (k ++ x).
Example C60_example : exists o o' s, compute_hkdf toy_hash toy_hmac (L "k") [] (L "info") 50 = Ok (o, s) /\ compute_hkdf toy_hash toy_hmac (L "k") [] (L "info") 70 = Ok (o', s) /\ o = firstn 50 o' /\ s = repeat (z2b 0) 32.
Proof. do 3 eexists. split; [vm_compute; reflexivity|]. split; [vm_compute; reflexivity|]. split; reflexivity. Qed.

(** * C61: scheme identifiers *)
(** The identifiers, their names and the kind of key they use. *)
Definition schemes : list (Z * str * key_type) :=
  [ (0, L "No Scheme", KEY_NONE); (60, L "EC-DSA", PK_SIG); (70, L "SK-ENC", SK_ENC); (71, L "SK-ENC", SK_ENC); (72, L "SK-ENC", SK_ENC);
    (100, L "PK-ENC", PK_ENC); (101, L "CP-ABE", CP_ENC); (102, L "KP-ABE", KP_ENC); (201, L "CP-ABE", CP_ENC); (202, L "KP-ABE", KP_ENC) ].
Definition defined_id (id : Z) := exists n k, In (id, n, k) schemes.
Theorem C61_accepts : forall id, 0 <= id < 256 -> (defined_id id /\ get_scheme_id id = Ok id) \/ (~ defined_id id /\ get_scheme_id id = Throw (OpenABEError 39)).
Proof.
  intros id B. unfold get_scheme_id. destruct (existsb _ _) eqn:E.
  - left. split; auto. apply existsb_exists in E as (x & I & E). apply Z.eqb_eq in E. subst x. cbn in I. unfold defined_id, schemes.
    repeat (destruct I as [<-|I]; [do 2 eexists; cbn; eauto 12|]). destruct I.
  - right. split; auto. intros (n & k & I). rewrite <- not_true_iff_false in E. apply E. apply existsb_exists. exists id. split; [|apply Z.eqb_refl].
    cbn in I. cbn. repeat (destruct I as [I|I]; [injection I as <- _ _; auto 12|]). destruct I.
Qed.
Print Assumptions C61_accepts.
(** To a name and back: same name, same kind of key; and the name of a defined
    identifier always exists. *)
Theorem C61_names : forall id name kind, In (id, name, kind) schemes ->
  scheme_to_string id = Ok name /\ key_type_of id = kind /\ scheme_to_string (string_to_scheme name) = Ok name /\ key_type_of (string_to_scheme name) = kind.
Proof. intros id name kind I. cbn in I. repeat (destruct I as [I|I]; [injection I as <- <- <-; repeat split; reflexivity|]). destruct I. Qed.
Print Assumptions C61_names.
Theorem C61_undefined : forall id, ~ defined_id id -> scheme_to_string id = Throw (OpenABEError 39) /\ key_type_of id = KEY_NONE.
Proof.
  intros id N. assert (forall z, defined_id z -> (id =? z) = false) as K by (intros z D; apply Z.eqb_neq; intros ->; auto).
  assert (forall z n k, In (z, n, k) schemes -> (id =? z) = false) as K' by (intros z n k I; apply K; do 2 eexists; eauto).
  unfold scheme_to_string, key_type_of, existsb, SCHEME_NONE, PKSIG_ECDSA, AES_CBC, AES_GCM, AES_GCM_STREAM, PK_OPDH, CP_WATERS, KP_GPSW, CP_WATERS_CCA, KP_GPSW_CCA.
  assert ((id =? 0) = false) as -> by (eapply K'; cbn; eauto 12). assert ((id =? 60) = false) as -> by (eapply K'; cbn; eauto 12). assert ((id =? 70) = false) as -> by (eapply K'; cbn; eauto 12).
  assert ((id =? 71) = false) as -> by (eapply K'; cbn; eauto 12). assert ((id =? 72) = false) as -> by (eapply K'; cbn; eauto 12). assert ((id =? 100) = false) as -> by (eapply K'; cbn; eauto 12).
  assert ((id =? 101) = false) as -> by (eapply K'; cbn; eauto 12). assert ((id =? 102) = false) as -> by (eapply K'; cbn; eauto 12). assert ((id =? 201) = false) as -> by (eapply K'; cbn; eauto 12). assert ((id =? 202) = false) as -> by (eapply K'; cbn; eauto 14).
  split; reflexivity.
Qed.
Print Assumptions C61_undefined.
(** A text that is no scheme name is the identifier 0. *)
Theorem C61_strings : forall s : str, (exists id kind, In (id, s, kind) schemes /\ id <> 0 /\ scheme_to_string (string_to_scheme s) = Ok s) \/ string_to_scheme s = 0.
Proof.
  intro s. unfold string_to_scheme. repeat match goal with |- context [str_eqb s ?t] => destruct (str_eqb s t) eqn:?; [left; match goal with H : str_eqb s _ = true |- _ => apply str_eqb_eq in H as -> end; do 2 eexists; split; [cbn; eauto 12|split; [discriminate|reflexivity]]|] end.
  right; reflexivity.
Qed.
Print Assumptions C61_strings.

(** The identifier of each name (zconstants.h): the authenticated symmetric mode, the
    signature scheme, and the schemes without the CCA transform. *)
Theorem C61_identifiers : forall s id, id <> 0 ->
  (string_to_scheme s = id <-> In (s, id) [(L "SK-ENC", 71); (L "EC-DSA", 60); (L "PK-ENC", 100); (L "CP-ABE", 101); (L "KP-ABE", 102)]).
Proof.
  intros s id N. split.
  - unfold string_to_scheme. intro H. cbn [In].
    repeat match type of H with context [str_eqb s ?t] => destruct (str_eqb s t) eqn:?; [match goal with X : str_eqb s _ = true |- _ => apply str_eqb_eq in X as -> end; subst id; auto 8|] end.
    subst id. elim N. reflexivity.
  - intro I. cbn [In] in I. repeat (destruct I as [I|I]; [injection I as <- <-; reflexivity|]). destruct I.
Qed.
Print Assumptions C61_identifiers.

(** * C69: DeriveKey *)
(** The concatenation KDF of NIST SP 800-56A: H(1|..) | H(2|..) | ... *)
Definition nist_input (prefix : Z) (z metadata : str) (c : Z) : str := be32 (c mod 2 ^ 32) ++ [z2b prefix] ++ z ++ metadata.
(** With the hash length given in bytes, DeriveKey is that function. *)
Theorem C69_bytes_length : forall (hash : str -> str), (forall x, length (hash x) = 32%nat) ->
  forall prefix mx z bits metadata, 0 <= bits < 2147483616 -> 5 + len z + len metadata <= mx ->
  derive_key hash prefix 32 mx z bits metadata = Ok (firstn (Z.to_nat (bits / 8)) (stream (fun c => hash (nist_input prefix z metadata c)) 1 (Z.to_nat ((bits + 31) / 32)))).
Proof.
  intros hash H prefix mx z bits metadata B M. rewrite derive_exact by (auto; try lia; Z.div_mod_to_equations; lia). replace (bits + 32 - 1) with (bits + 31) by lia. do 2 f_equal.
  apply stream_ext. intros x _. cbn. apply app_nil_r.
Qed.
Print Assumptions C69_bytes_length.
(** With the default arguments (256, a number of bits) it is for keys of up to 256 bits. *)
Theorem C69_default_256 : forall (hash : str -> str), (forall x, length (hash x) = 32%nat) ->
  forall prefix mx z bits metadata, 0 <= bits <= 256 -> 5 + len z + len metadata <= mx ->
  derive_key hash prefix 256 mx z bits metadata = Ok (firstn (Z.to_nat (bits / 8)) (hash (nist_input prefix z metadata 1))).
Proof.
  intros hash H prefix mx z bits metadata B M. rewrite derive_exact by (auto; try lia; Z.div_mod_to_equations; lia). apply f_equal.
  destruct (Z.eq_dec bits 0) as [-> |N]; [reflexivity|]. replace ((bits + 256 - 1) / 256) with 1 by (Z.div_mod_to_equations; lia). change (Z.to_nat 1) with 1%nat. cbn [stream]. rewrite app_nil_r.
  rewrite firstn_app_le; [reflexivity|]. rewrite H. Z.div_mod_to_equations; lia.
Qed.
Print Assumptions C69_default_256.
(** For longer keys bytes 32 to 255 are zero, for every secret and every hash function. *)
Theorem C69_default_refuted : forall (hash : str -> str), (forall x, length (hash x) = 32%nat) ->
  forall prefix mx z bits metadata, 256 <= bits <= 2048 -> 5 + len z + len metadata <= mx ->
  derive_key hash prefix 256 mx z bits metadata = Ok (hash (nist_input prefix z metadata 1) ++ repeat (z2b 0) (Z.to_nat (bits / 8 - 32))).
Proof.
  intros hash H prefix mx z bits metadata B M. rewrite derive_exact by (auto; try lia; Z.div_mod_to_equations; lia). apply f_equal.
  assert (1 <= (bits + 256 - 1) / 256) by (Z.div_mod_to_equations; lia). replace (Z.to_nat ((bits + 256 - 1) / 256)) with (S (Z.to_nat ((bits + 256 - 1) / 256 - 1))) by lia. cbn [stream].
  assert (32 <= bits / 8 <= 256) by (Z.div_mod_to_equations; lia).
  rewrite firstn_app_le by (rewrite app_length, H; unfold zeros; rewrite repeat_length; lia). rewrite firstn_app, H, firstn_all2 by (rewrite H; lia). f_equal.
  unfold zeros. replace (Z.to_nat (256 - 32)) with ((Z.to_nat (bits / 8) - 32) + (256 - Z.to_nat (bits / 8)))%nat by lia. rewrite repeat_app, firstn_app_le by (rewrite repeat_length; lia).
  rewrite firstn_all2 by (rewrite repeat_length; lia). f_equal. lia.
Qed.
Print Assumptions C69_default_refuted.
Theorem C69_too_long : forall hash prefix hl mx z bits metadata, 32 <= hl -> 0 <= bits < 2 ^ 32 -> mx < 5 + len z + len metadata ->
  derive_key hash prefix hl mx z bits metadata = Throw (OpenABEError 24).
Proof. intros. apply derive_too_long; auto. Qed.
Print Assumptions C69_too_long.
Example C69_example : derive_key toy_hash 43 256 4294967295 (L "secret") 512 (L "meta") = Ok (toy_hash (map z2b [0; 0; 0; 1; 43] ++ L "secretmeta") ++ repeat (z2b 0) 32).
Proof. vm_compute. reflexivity. Qed.

(** * C70: component names of attributes *)
(** Attributes of up to 16 characters are kept; longer ones become 16 hexadecimal digits. *)
Theorem C70_short : forall hash a, len a <= 16 -> hash_key hash a = a.
Proof. intros hash a H. unfold hash_key. destruct (Z.ltb_spec 16 (len a)); [lia|reflexivity]. Qed.
Print Assumptions C70_short.
Theorem C70_length : forall hash, (forall x : str, length (hash x) = 32%nat) -> forall a, len (hash_key hash a) <= 16.
Proof.
  intros hash H a. unfold hash_key. destruct (Z.ltb_spec 16 (len a)); [|lia]. unfold append_array, to_lower_hex. cbn [app].
  assert (forall up s, len (to_hex_gen up s) = 2 * len s) as K by (induction s as [|x s IH]; [reflexivity|]; unfold len in *; cbn [to_hex_gen length]; lia).
  rewrite K. unfold len. rewrite firstn_length, H. lia.
Qed.
Print Assumptions C70_length.
(** Not injective: the digest of a long attribute is the same as the short attribute of
    that very text, whatever the hash function. *)
Theorem C70_injective_refuted : forall hash, (forall x : str, length (hash x) = 32%nat) -> forall a, 16 < len a ->
  hash_key hash a <> a /\ hash_key hash (hash_key hash a) = hash_key hash a.
Proof.
  intros hash H a La. pose proof (C70_length hash H a) as K. split; [intro E; rewrite E in K; lia|]. apply C70_short. exact K.
Qed.
Print Assumptions C70_injective_refuted.
Example C70_example : hash_key toy_hash (L "department_of_physics") = L "736369737968705f" /\ hash_key toy_hash (L "736369737968705f") = L "736369737968705f".
Proof. split; vm_compute; reflexivity. Qed.
