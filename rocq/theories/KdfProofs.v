(** Streams of hash blocks: specification of the key derivation functions and of the
    mask, and the functions of zkdf.cpp / zpairing.cpp against it. *)
From Verif Require Import Base ByteString Kdf.
From Coq Require Import ZArith List Ascii Bool Lia ZifyBool ZifyNat.
Import ListNotations.
Open Scope Z_scope.

(** ** Specification *)
(** The blocks f c, f (c+1), ..., f (c+n-1), concatenated. *)
Fixpoint stream (f : Z -> str) (c : Z) (n : nat) : str :=
  match n with O => [] | S m => f c ++ stream f (c + 1) m end.
Definition zeros (n : nat) : str := repeat (z2b 0) n.
(** Key expansion of RFC 5869 (the counter is one octet). *)
Section Rfc.
Variable hmac : str -> str -> str.
Variables prk info : str.
Fixpoint block (n : nat) : str := match n with O => [] | S m => hmac prk (block m ++ info ++ [z2b (Z.of_nat n)]) end.
Fixpoint expand (n : nat) : str := match n with O => [] | S m => expand m ++ block n end.
End Rfc.

(** ** Lists *)
Lemma zeros_app : forall a b, zeros (a + b) = zeros a ++ zeros b.
Proof. intros. apply repeat_app. Qed.
Lemma write_zeros : forall pre k bytes, (length bytes <= k)%nat -> write_at (pre ++ zeros k) (length pre) bytes = Ok (pre ++ bytes ++ zeros (k - length bytes)).
Proof.
  intros pre k bytes H. unfold write_at, zeros. rewrite app_length, repeat_length.
  destruct (Nat.leb_spec (length pre + length bytes) (length pre + k)); [|lia].
  rewrite firstn_app, firstn_all, Nat.sub_diag. cbn [firstn]. rewrite app_nil_r.
  rewrite skipn_app, skipn_all2 by lia. cbn [app]. replace (length pre + length bytes - length pre)%nat with (length bytes) by lia.
  replace k with (length bytes + (k - length bytes))%nat at 1 by lia. rewrite repeat_app, skipn_app, skipn_all2 by (rewrite repeat_length; lia).
  rewrite repeat_length, Nat.sub_diag. reflexivity.
Qed.
Lemma stream_length : forall f n c k, (forall x, length (f x) = k) -> length (stream f c n) = (n * k)%nat.
Proof. induction n as [|n IH]; intros c k H; cbn [stream]; [reflexivity|]. rewrite app_length, (IH _ k), H by auto. lia. Qed.
Lemma stream_app : forall f n m c, stream f c (n + m) = stream f c n ++ stream f (c + Z.of_nat n) m.
Proof.
  induction n as [|n IH]; intros m c; cbn [stream Nat.add app].
  - replace (c + Z.of_nat 0) with c by lia. reflexivity.
  - rewrite IH, <- app_assoc. replace (c + 1 + Z.of_nat n) with (c + Z.of_nat (S n)) by lia. reflexivity.
Qed.
Lemma stream_ext : forall f g n c, (forall x, c <= x < c + Z.of_nat n -> f x = g x) -> stream f c n = stream g c n.
Proof. induction n as [|n IH]; intros c H; cbn [stream]; [reflexivity|]. rewrite H by lia. f_equal. apply IH. intros. apply H. lia. Qed.
(** The block that holds a position. *)
Lemma stream_block : forall f n k i c, (forall x, length (f x) = k) -> (i < n)%nat -> firstn k (skipn (i * k) (stream f c n)) = f (c + Z.of_nat i).
Proof.
  intros f n k i c H B. replace n with (i + (1 + (n - i - 1)))%nat by lia. rewrite stream_app, skipn_app, skipn_all2 by (rewrite (stream_length _ _ _ k); auto; lia).
  cbn [app]. rewrite (stream_length _ _ _ k), Nat.sub_diag by auto. cbn [skipn Nat.add stream].
  rewrite firstn_app, H, Nat.sub_diag. cbn [firstn]. rewrite app_nil_r, firstn_all2; auto. rewrite H. lia.
Qed.
Lemma firstn_app_le : forall {A} n (a b : list A), (n <= length a)%nat -> firstn n (a ++ b) = firstn n a.
Proof. intros. rewrite firstn_app. replace (n - length a)%nat with 0%nat by lia. cbn. apply app_nil_r. Qed.

Section Proofs.
Variable hash : str -> str.
Hypothesis hash_len32 : forall x, length (hash x) = 32%nat.

(** ** The loop *)
Lemma loop_spec : forall set inc (input : Z -> str) M step, (32 <= step)%nat ->
  (forall c, inc (c mod M) = (c + 1) mod M) -> (forall c, set (input c) ((c + 1) mod M) = input (c + 1)) ->
  forall n c pre k, (n * step <= k)%nat ->
  hash_loop hash set inc step n (c mod M) (input c) (length pre) (pre ++ zeros k) =
  Ok (pre ++ stream (fun x => hash (input x) ++ zeros (step - 32)) c n ++ zeros (k - n * step)).
Proof.
  intros set inc input M step Hs Hi Hset. induction n as [|n IH]; intros c pre k H; cbn [hash_loop stream].
  - cbn [app]. replace (k - 0 * step)%nat with k by lia. reflexivity.
  - rewrite write_zeros by (rewrite hash_len32; lia). cbn [bind]. rewrite Hi, Hset, hash_len32.
    replace (k - 32)%nat with ((step - 32) + (k - step))%nat by lia. rewrite zeros_app.
    specialize (IH (c + 1) (pre ++ hash (input c) ++ zeros (step - 32)) (k - step)%nat ltac:(lia)).
    rewrite !app_length, hash_len32 in IH. unfold zeros in IH at 1. rewrite repeat_length in IH. replace (length pre + (32 + (step - 32)))%nat with (length pre + step)%nat in IH by lia.
    rewrite <- !app_assoc in IH |- *. rewrite IH. replace (k - S n * step)%nat with (k - step - n * step)%nat by lia. rewrite <- !app_assoc. reflexivity.
Qed.

(** ** DeriveKey *)
Definition derive_input (prefix : Z) (z metadata : str) (c : Z) : str := be32 (c mod 2 ^ 32) ++ [z2b prefix] ++ z ++ metadata.
Lemma set_first_be32 : forall x c rest, set_first_bytes (be32 x ++ rest) c = be32 (c mod 2 ^ 32) ++ rest.
Proof. intros. unfold be32. cbn. reflexivity. Qed.
Lemma derive_exact : forall prefix hl mx z kb metadata,
  32 <= hl -> 0 <= kb < 2 ^ 32 -> (kb + hl - 1) / hl * hl < 2147483647 -> 5 + len z + len metadata <= mx ->
  derive_key hash prefix hl mx z kb metadata =
  Ok (firstn (Z.to_nat (kb / 8)) (stream (fun c => hash (derive_input prefix z metadata c) ++ zeros (Z.to_nat (hl - 32))) 1 (Z.to_nat ((kb + hl - 1) / hl)))).
Proof.
  intros prefix hl mx z kb metadata Hh Hk Hv Hm. unfold derive_key, ceil_div. destruct (Z.eqb_spec hl 0); [lia|]. cbn [bind].
  set (reps := (kb + hl - 1) / hl) in *. assert (0 <= reps) as R0 by (apply Z.div_pos; lia). assert (kb <= reps * hl) as R1 by (subst reps; Z.div_mod_to_equations; nia).
  assert (reps < 2147483647) by nia. destruct (Z.ltb_spec 4294967295 reps); [lia|].
  assert (append_array (append_array (set_first_bytes [] 1 ++ [z2b prefix]) z) metadata = derive_input prefix z metadata 1) as -> by (unfold append_array, derive_input, set_first_bytes; cbn [app]; rewrite <- !app_assoc; reflexivity).
  assert (len (derive_input prefix z metadata 1) = 5 + len z + len metadata) as -> by (unfold derive_input; rewrite !len_app; change (len (be32 _)) with 4; change (len [_]) with 1; lia).
  destruct (Z.ltb_spec mx (5 + len z + len metadata)); [lia|]. unfold vla. destruct (Z.ltb_spec (reps * hl) 2147483647); [|lia]. cbn [bind].
  pose proof (loop_spec set_first_bytes (fun c => (c + 1) mod 2 ^ 32) (derive_input prefix z metadata) (2 ^ 32) (Z.to_nat hl) ltac:(lia)) as K.
  specialize (K ltac:(intro c; cbv beta; rewrite Zplus_mod_idemp_l; reflexivity)).
  specialize (K ltac:(intro c; unfold derive_input; rewrite set_first_be32, Zmod_mod; reflexivity) (Z.to_nat reps) 1 [] (Z.to_nat (reps * hl + 1))).
  specialize (K ltac:(rewrite <- Z2Nat.inj_mul by lia; lia)). cbn [app length] in K. change (1 mod 2 ^ 32) with 1 in K. unfold zeros in K at 1. rewrite K. cbn [bind].
  rewrite <- Z2Nat.inj_mul by lia. replace (Z.to_nat (reps * hl + 1) - Z.to_nat (reps * hl))%nat with 1%nat by lia.
  replace (Z.to_nat hl - 32)%nat with (Z.to_nat (hl - 32)) by lia.
  set (st := stream _ 1 _). assert (length st = Z.to_nat (reps * hl)) as Ls.
  { unfold st. rewrite (stream_length _ _ _ (Z.to_nat hl)); [rewrite Z2Nat.inj_mul by lia; reflexivity|]. intro x. rewrite app_length, hash_len32. unfold zeros. rewrite repeat_length. lia. }
  rewrite len_app. change (len (zeros 1)) with 1. replace (len st) with (reps * hl) by (unfold len; rewrite Ls; lia).
  assert (kb / 8 <= kb) by (Z.div_mod_to_equations; lia). assert (0 <= kb / 8) by (apply Z.div_pos; lia).
  destruct (Z.leb_spec (kb / 8) (reps * hl + 1)); [|lia]. rewrite firstn_app_le by lia. reflexivity.
Qed.
(** ** hashFromBytes *)
Definition mask_input (prefix : Z) (buf : str) (c : Z) : str := z2b c :: z2b prefix :: buf.
Lemma z2b_mod : forall c, z2b (c mod 256) = z2b c.
Proof. intro c. unfold z2b. rewrite Zmod_mod. reflexivity. Qed.
Lemma mask_exact : forall buf n prefix, 0 <= n < 2147483616 ->
  hash_from_bytes hash buf n prefix = Ok (firstn (Z.to_nat n) (stream (fun c => hash (mask_input prefix buf c)) 0 (Z.to_nat ((n + 31) / 32)))).
Proof.
  intros buf n prefix Hn. unfold hash_from_bytes, ceil_div, md_len. cbn [Z.eqb bind]. replace (n + 32 - 1) with (n + 31) by lia.
  set (bl := (n + 31) / 32) in *. assert (0 <= bl /\ n <= bl * 32 /\ bl * 32 < 2147483647) as (B0 & B1 & B2) by (subst bl; Z.div_mod_to_equations; lia).
  unfold vla. destruct (Z.ltb_spec (bl * 32) 2147483647); [|lia]. cbn [bind].
  pose proof (loop_spec set_count (fun c => (c + 1) mod 256) (mask_input prefix buf) 256 32 ltac:(lia)) as K.
  specialize (K ltac:(intro c; cbv beta; rewrite Zplus_mod_idemp_l; reflexivity)).
  specialize (K ltac:(intro c; unfold mask_input, set_count; rewrite z2b_mod; reflexivity) (Z.to_nat bl) 0 [] (Z.to_nat (bl * 32 + 1)) ltac:(lia)). cbn [app length] in K. change (0 mod 256) with 0 in K. unfold zeros in K at 1.
  change (insert_first_byte (insert_first_byte buf prefix) 0) with (mask_input prefix buf 0). change (Z.to_nat 32) with 32%nat. rewrite K. cbn [bind]. clear K.
  assert (stream (fun x => hash (mask_input prefix buf x) ++ zeros (32 - 32)) 0 (Z.to_nat bl) = stream (fun c => hash (mask_input prefix buf c)) 0 (Z.to_nat bl)) as ->.
  { apply stream_ext. intros. cbn. apply app_nil_r. }
  set (st := stream _ 0 _). assert (length st = Z.to_nat (bl * 32)) as Ls by (unfold st; rewrite (stream_length _ _ _ 32); auto; lia).
  rewrite len_app. replace (len st) with (bl * 32) by (unfold len; rewrite Ls; lia). pose proof (len_nonneg (zeros (Z.to_nat (bl * 32 + 1) - Z.to_nat bl * 32))).
  destruct (Z.leb_spec n (bl * 32 + len (zeros (Z.to_nat (bl * 32 + 1) - Z.to_nat bl * 32)))); [|lia]. rewrite firstn_app_le by lia. reflexivity.
Qed.
End Proofs.
Lemma mask_input_inj : forall prefix buf i j, 0 <= i < 256 -> 0 <= j < 256 -> mask_input prefix buf i = mask_input prefix buf j -> i = j.
Proof. intros prefix buf i j Hi Hj E. injection E as E. apply (f_equal b2z) in E. rewrite !z2b_small in E by lia. exact E. Qed.
Lemma mask_input_wrap : forall prefix buf i, mask_input prefix buf (i + 256) = mask_input prefix buf i.
Proof. intros. unfold mask_input. rewrite <- (z2b_mod (i + 256)). replace (i + 256) with (i + 1 * 256) by lia. rewrite Z_mod_plus_full, z2b_mod. reflexivity. Qed.



Lemma derive_too_long : forall hash prefix hl mx z kb metadata, 32 <= hl -> 0 <= kb < 2 ^ 32 -> mx < 5 + len z + len metadata ->
  derive_key hash prefix hl mx z kb metadata = Throw (OpenABEError 24).
Proof.
  intros hash prefix hl mx z kb metadata Hh Hk Hm. unfold derive_key, ceil_div. destruct (Z.eqb_spec hl 0); [lia|]. cbn [bind]. destruct (Z.ltb_spec 4294967295 ((kb + hl - 1) / hl)); [reflexivity|].
  assert (len (append_array (append_array (set_first_bytes [] 1 ++ [z2b prefix]) z) metadata) = 5 + len z + len metadata) as -> by (unfold append_array; rewrite !len_app; change (len (set_first_bytes [] 1)) with 4; change (len [_]) with 1; lia).
  destruct (Z.ltb_spec mx (5 + len z + len metadata)); [reflexivity|lia].
Qed.

(** ** HKDF *)
Section Hkdf.
Variable hash : str -> str.
Variable hmac : str -> str -> str.
Hypothesis hmac_len32 : forall k x, length (hmac k x) = 32%nat.
Lemma expand_length : forall prk info n, length (expand hmac prk info n) = (n * 32)%nat.
Proof. induction n as [|n IH]; [reflexivity|]. cbn [expand]. rewrite app_length, IH. cbn [block]. rewrite hmac_len32. lia. Qed.
Lemma expand_prefix : forall prk info n m, (n <= m)%nat -> exists r, expand hmac prk info m = expand hmac prk info n ++ r.
Proof.
  intros prk info n m H. induction H as [|m H IH]; [exists []; rewrite app_nil_r; reflexivity|]. destruct IH as [r E]. exists (r ++ block hmac prk info (S m)).
  cbn [expand]. rewrite E, <- app_assoc. reflexivity.
Qed.
Lemma expand_firstn : forall prk info n m k, (k <= n * 32)%nat -> (k <= m * 32)%nat -> firstn k (expand hmac prk info n) = firstn k (expand hmac prk info m).
Proof.
  intros prk info n m k Hn Hm. destruct (Nat.le_ge_cases n m) as [H|H]; destruct (expand_prefix prk info _ _ H) as [r ->]; rewrite firstn_app_le; auto; rewrite expand_length; lia.
Qed.
Lemma hkdf_loop_spec : forall prk info key_len fuel i, key_len <= 32 * (Z.of_nat i + Z.of_nat fuel) -> key_len <= 32 * 2147483647 ->
  exists m, hkdf_loop hmac fuel prk info key_len (Z.of_nat i) (block hmac prk info i) (expand hmac prk info i) = Ok (expand hmac prk info m) /\ key_len <= 32 * Z.of_nat m.
Proof.
  intros prk info key_len. induction fuel as [|fuel IH]; intros i H B; cbn [hkdf_loop]; unfold len; rewrite expand_length.
  - destruct (Z.ltb_spec (Z.of_nat (i * 32)) key_len); [lia|]. exists i. split; auto. lia.
  - destruct (Z.ltb_spec (Z.of_nat (i * 32)) key_len); [|exists i; split; auto; lia]. destruct (Z.leb_spec 2147483647 (Z.of_nat i)); [lia|].
    cbv zeta. unfold pack8bits, compute_hmac. rewrite <- app_assoc.
    specialize (IH (S i) ltac:(lia) B). destruct IH as (m & E & K). exists m. split; auto. cbn [expand block] in E. replace (Z.of_nat i + 1) with (Z.of_nat (S i)) by lia. exact E.
Qed.
Lemma hkdf_exact : forall key salt info n, 0 <= n <= 32 * 2147483647 ->
  let salt' := if len salt =? 0 then zeros 32 else salt in
  forall m, n <= 32 * Z.of_nat m ->
  compute_hkdf hash hmac key salt info n = Ok (firstn (Z.to_nat n) (expand hmac (hmac key (hash salt')) info m), salt').
Proof.
  intros key salt info n Hn salt' m Hm. unfold compute_hkdf. change (fill_buffer 0 md_len) with (zeros 32). fold salt'. cbv zeta. unfold compute_hmac.
  destruct (hkdf_loop_spec (hmac key (hash salt')) info n (Z.to_nat n) 0 ltac:(lia) ltac:(lia)) as (m' & E & K). cbn [block expand] in E. change (Z.of_nat 0) with 0 in E. rewrite E. cbn [bind].
  do 2 f_equal. apply expand_firstn; lia.
Qed.
End Hkdf.
