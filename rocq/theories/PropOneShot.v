(** C147: encryption and decryption in one call give back their temporary objects:
    refuted for decryption with a tag of the wrong length, and proved otherwise. *)
From Verif Require Import Base ByteString ByteStringProofs Base64 Memory MemorySpec MemoryInv Sym SymSpec SymProofs StreamMem PropStreamMem OneShot.
From Coq Require Import ZArith List Bool Lia Permutation.
Import ListNotations.
Local Open Scope nat_scope.

(** Does the call hand a tag of another length than 16 bytes to the cipher? *)
Definition odd_tag (t : option str) : bool := match t with Some t => negb (len t =? 16)%Z | None => false end.
Definition odd (o : oop) : bool :=
  match o with
  | ADecrypt _ _ _ tag => odd_tag (Some tag) | HDecrypt h ct => odd_tag (handle_tag h ct) | KDecrypt h ct => odd_tag (handler_tag h ct)
  | _ => false
  end.
Lemma mok_use_head : forall m l a, mok m (a :: l) -> mok (told (Use a) m) (a :: l).
Proof. intros m l a M. apply mok_use; [exact M|left; reflexivity]. Qed.
Lemma encrypt_clean : forall m l, mok m l -> mok (encrypt_objects m) l.
Proof.
  intros m l M. unfold encrypt_objects, tell. cbn [fold_left].
  apply mok_del. apply mok_del. apply mok_new_ in M. apply mok_new_ in M. cbn [tnew next] in *.
  eapply mok_perm; [|apply perm_swap]. repeat (apply mok_use; [|cbn; auto]). exact M.
Qed.
Lemma decrypt_clean : forall t m l, mok m l -> mok (decrypt_objects t m) ((if odd_tag (Some t) then [next m] else []) ++ l).
Proof.
  intros t m l M. unfold decrypt_objects, odd_tag. destruct (negb (len t =? 16)%Z); cbn [app].
  - apply mok_new_. exact M.
  - unfold tell. cbn [fold_left]. apply mok_new_ in M. apply mok_del, mok_del.
    apply mok_use_head in M. apply mok_new_ in M. cbn [tnew told next] in *.
    repeat (apply mok_use; [|cbn; auto]). exact M.
Qed.
Lemma omem_ok : forall o m l, mok m l -> exists l', mok (omem o m) l' /\ length l' = (if odd o then 1 else 0) + length l.
Proof.
  intros o m l M. destruct o; cbn [omem odd].
  - exists l. split; [apply encrypt_clean; exact M|reflexivity].
  - eexists. split; [apply decrypt_clean; exact M|]. rewrite app_length. destruct (odd_tag (Some tag)); reflexivity.
  - exists l. split; [|reflexivity]. apply mok_del, encrypt_clean. apply mok_use; [apply mok_new_; exact M|left; reflexivity].
  - apply mok_new_ in M. destruct (handle_tag h ct) as [t|].
    + exists ((if odd_tag (Some t) then [next (told (Use (next m)) (tnew m))] else []) ++ l). split.
      * apply mok_del. apply mok_use_head in M. apply (decrypt_clean t) in M.
        eapply mok_perm; [exact M|]. apply Permutation_sym, Permutation_middle.
      * rewrite app_length. destruct (odd_tag (Some t)); reflexivity.
    + exists l. split; [apply mok_del; exact M|reflexivity].
  - exists l. split; [|reflexivity]. destruct (sh_mode h); try exact M. destruct (sh_gcm h); [apply encrypt_clean|]; exact M.
  - destruct (handler_tag h ct) as [t|].
    + eexists. split; [apply decrypt_clean; exact M|]. rewrite app_length. destruct (odd_tag (Some t)); reflexivity.
    + exists l. split; [exact M|reflexivity].
Qed.
Lemma oruns_ok : forall G os m l, mok m l -> exists l', mok (fst (oruns G os m)) l' /\
  (snd (oruns G os m) = true -> length l' = length (filter odd os) + length l).
Proof.
  intros G. induction os as [|o os IH]; intros m l M; cbn [oruns].
  - exists l. split; [exact M|reflexivity].
  - destruct (goes_on (oresult G o)); [|exists l; split; [exact M|discriminate]].
    destruct (omem_ok o m l M) as (l1 & M1 & N1). destruct (IH _ _ M1) as (l2 & M2 & N2). exists l2. split; [exact M2|].
    intro B. rewrite (N2 B), N1. cbn [filter]. destruct (odd o); cbn [length]; lia.
Qed.

(** No object is used or deleted wrongly, whatever is called. *)
Theorem C147_legal : forall G os, legal (events (fst (oruns G os nothing))).
Proof. intros G os. destruct (oruns_ok G os nothing [] nothing_ok) as (l & M & _). exact (mok_legal _ _ M). Qed.
Print Assumptions C147_legal.
(** Exactly one object, the cipher context, is lost by each call that passes on a tag
    of another length than 16, and none by any other call. *)
Theorem C147_exact : forall G os, snd (oruns G os nothing) = true ->
  exists lost, NoDup lost /\ (forall a, In a lost <-> remains (events (fst (oruns G os nothing))) a) /\ length lost = length (filter odd os).
Proof.
  intros G os B. destruct (oruns_ok G os nothing [] nothing_ok) as (l & M & N). exists l. split; [exact (mok_dup _ _ M)|].
  split; [intro a; symmetry; apply mok_remains, M|]. rewrite (N B). cbn. lia.
Qed.
Print Assumptions C147_exact.
(** The tag that counts is the third part of the text. *)
Definition three (iv ct tag : str) : str := smart_pack (smart_pack (smart_pack [] iv) ct) tag.
Theorem C147_third_part : forall h k key iv ct tag, h_b64 h = false -> sh_b64 k = false -> sh_mode k = GCM -> sh_gcm k = Some key ->
  (0 < len iv < 2^32)%Z -> (0 < len ct < 2^32)%Z -> (0 < len tag < 2^32)%Z ->
  handle_tag h (three iv ct tag) = Some tag /\ handler_tag k (three iv ct tag) = Some tag.
Proof.
  intros h k key iv ct tag Hh Hk Hm Hg Hi Hc Ht. unfold handle_tag, handler_tag. rewrite Hh, Hk, Hm, Hg. cbv zeta.
  assert (three iv ct tag = smart_pack [] iv ++ smart_pack [] ct ++ smart_pack [] tag) as ->.
  { unfold three. rewrite (smart_pack_app (smart_pack (smart_pack [] iv) ct) tag), (smart_pack_app (smart_pack [] iv) ct), <- app_assoc. reflexivity. }
  pose proof (smart_pack_pos tag (proj1 Ht)) as P.
  rewrite (unpack_at [] iv (smart_pack [] ct ++ smart_pack [] tag)) by auto. cbn [bind].
  change ([] ++ smart_pack [] iv) with (smart_pack [] iv).
  rewrite (unpack_at (smart_pack [] iv) ct (smart_pack [] tag)) by auto. cbn [bind].
  rewrite (unpack_at (smart_pack [] iv ++ smart_pack [] ct) tag []) by (rewrite ?app_nil_r, <- ?app_assoc; auto). cbn [bind snd got].
  split; [reflexivity|].
  replace (Z.of_nat (length (smart_pack [] iv ++ smart_pack [] ct)) <? len (smart_pack [] iv ++ smart_pack [] ct ++ smart_pack [] tag))%Z with true
    by (unfold len; rewrite !app_length; lia).
  replace (Z.of_nat (length ((smart_pack [] iv ++ smart_pack [] ct) ++ smart_pack [] tag)) <? len (smart_pack [] iv ++ smart_pack [] ct ++ smart_pack [] tag))%Z with false
    by (unfold len; rewrite !app_length; lia).
  cbn [bind]. change (len [] =? 0)%Z with true. cbn [negb]. rewrite andb_false_r. reflexivity.
Qed.
Print Assumptions C147_third_part.
(** Such calls never succeed: *)
Lemma throws_runtime : forall A (m : res A) a, to_runtime m = Ok a -> m = Ok a.
Proof. intros A [v|[]| | |] a H; try discriminate; exact H. Qed.
Lemma unit_ok : forall A (m : res A), unit_res m = Ok 0%Z -> exists a, m = Ok a.
Proof. intros A [a| | | |] H; try discriminate. eauto. Qed.
Lemma ae_tag : forall G o iv ct tag p, ae_decrypt G o iv ct tag = Ok p -> negb (len tag =? 16)%Z = false.
Proof. intros G o iv ct tag p. unfold ae_decrypt. destruct (negb (len tag =? 16)%Z); [discriminate|reflexivity]. Qed.
Theorem C147_never_succeeds : forall G o, odd o = true -> oresult G o <> Ok 0%Z.
Proof.
  intros G o Hodd H. destruct o; try discriminate; cbn [oresult odd] in *; apply unit_ok in H as [a H].
  - apply ae_tag in H. cbn [odd_tag] in Hodd. congruence.
  - unfold handle_decrypt in H. apply throws_runtime in H. unfold handle_tag in Hodd. revert Hodd H.
    set (z := if h_b64 h then base64_decode ct else ct). destruct (smart_unpack z 0) as [i1 [iv| | | |]]; cbn [bind got odd_tag]; try discriminate.
    destruct (smart_unpack z i1) as [i2 [c| | | |]]; cbn [bind got odd_tag]; try discriminate.
    destruct (smart_unpack z i2) as [i3 [t| | | |]]; cbn [bind snd got odd_tag]; try discriminate.
    intro Hodd. destruct (ae_decrypt G _ iv c t) eqn:E; cbn [bind]; try discriminate. apply ae_tag in E. congruence.
  - unfold handler_decrypt in H. unfold handler_tag in Hodd. revert Hodd H.
    set (z := if sh_b64 h then base64_decode ct else ct). destruct (smart_unpack z 0) as [i1 [iv| | | |]]; cbn [bind got odd_tag]; try discriminate.
    destruct (smart_unpack z i1) as [i2 [x| | | |]]; cbn [bind got odd_tag]; try discriminate.
    destruct (sh_mode h); cbn [got odd_tag]; try discriminate. intros Hodd H. apply throws_runtime in H. revert Hodd H.
    destruct (Z.of_nat i2 <? len z)%Z.
    + destruct (smart_unpack z i2) as [i3 [t| | | |]]; cbn [bind]; try discriminate.
      destruct (if (Z.of_nat i3 <? len z)%Z then snd (smart_unpack z i3) else Ok []) as [ad| | | |]; cbn [bind]; try discriminate.
      destruct ((0 <? len (sh_aad h)) && negb (len ad =? 0) && negb (bs_eq ad (sh_aad h)))%Z; [discriminate|]. destruct (sh_gcm h) as [key|]; cbn [got odd_tag bind]; [|discriminate].
      intro Hodd. destruct (ae_decrypt G _ iv x t) eqn:E; cbn [bind]; try discriminate. apply ae_tag in E. congruence.
    + cbn [bind].
      destruct ((0 <? len (sh_aad h)) && negb (len [] =? 0) && negb (bs_eq [] (sh_aad h)))%Z; [discriminate|]. destruct (sh_gcm h) as [key|]; cbn [got odd_tag bind]; [|discriminate].
      intro Hodd. destruct (ae_decrypt G _ iv [] x) eqn:E; cbn [bind]; try discriminate. apply ae_tag in E. congruence.
Qed.
Print Assumptions C147_never_succeeds.
(** ... so a program in which every call succeeds loses nothing. *)
Theorem C147_success_partial : forall G os, (forall o, In o os -> oresult G o = Ok 0%Z) -> snd (oruns G os nothing) = true /\ all_freed (events (fst (oruns G os nothing))).
Proof.
  intros G os H.
  assert (forall m, snd (oruns G os m) = true) as B.
  { clear -H. induction os as [|o os IH]; intro m; [reflexivity|]. cbn [oruns]. rewrite (H o (or_introl eq_refl)). cbn [goes_on]. apply IH. intros x X. apply H. right. exact X. }
  split; [apply B|]. destruct (C147_exact G os (B _)) as (l & _ & A & N). intros a X. apply A in X.
  assert (filter odd os = []) as F.
  { clear -H. induction os as [|o os IH]; [reflexivity|]. cbn [filter]. destruct (odd o) eqn:E.
    - exfalso. apply (C147_never_succeeds G o E), H. left. reflexivity.
    - apply IH. intros x X. apply H. right. exact X. }
  rewrite F in N. destruct l; [exact X|discriminate].
Qed.
Print Assumptions C147_success_partial.
(** Refuted in general: three bytes that are no ciphertext cost every handle a cipher
    context, as often as they are sent. *)
Theorem C147_refuted : forall G key n, (len key = 32)%Z -> exists h, new_handle key false = Ok h /\
  let os := repeat (HDecrypt h (L "abc")) n in
  (forall o, In o os -> oresult G o = Throw RuntimeError) /\
  exists lost, NoDup lost /\ (forall a, In a lost <-> remains (events (fst (oruns G os nothing))) a) /\ length lost = n.
Proof.
  intros G key n Hk. exists {| h_key := key; h_b64 := false; h_aad := [] |}. split; [unfold new_handle; rewrite Hk; reflexivity|]. cbn zeta.
  set (h := {| h_key := key; h_b64 := false; h_aad := [] |}).
  assert (oresult G (HDecrypt h (L "abc")) = Throw RuntimeError) as R by reflexivity.
  split. { intros o X. apply repeat_spec in X as ->. exact R. }
  assert (forall m, snd (oruns G (repeat (HDecrypt h (L "abc")) n) m) = true) as B.
  { induction n as [|n IH]; intro m; [reflexivity|]. cbn [repeat oruns]. rewrite R. cbn [goes_on]. apply IH. }
  destruct (C147_exact G _ (B nothing)) as (l & A1 & A2 & A3). exists l. split; [exact A1|]. split; [exact A2|]. rewrite A3. clear.
  induction n as [|n IH]; [reflexivity|]. cbn [repeat filter]. change (odd (HDecrypt h (L "abc"))) with true. cbn [length]. f_equal. exact IH.
Qed.
Print Assumptions C147_refuted.

(** Encrypting and decrypting through all three classes, and a bad tag between. *)
Definition ae0 : auth_enc := new_auth_enc key32.
Definition h0 : handle := {| h_key := key32; h_b64 := false; h_aad := [] |}.
Definition k0 : handler := {| sh_b64 := false; sh_aad := []; sh_mode := GCM; sh_gcm := Some key32 |}.
Definition sealed : str := match handle_encrypt toy h0 (L "text") iv16 with Ok s => s | _ => [] end.
Definition sealed' : str := match handler_encrypt toy k0 (L "text") iv16 with Ok s => s | _ => [] end.
Example C147_nonvacuous :
  map (oresult toy) [AEncrypt ae0 (L "p") iv16; HEncrypt h0 (L "text") iv16; HDecrypt h0 sealed; KEncrypt k0 (L "text") iv16; KDecrypt k0 sealed'] = repeat (Ok 0%Z) 5 /\
  made_by (events (fst (oruns toy [AEncrypt ae0 (L "p") iv16; HDecrypt h0 sealed; KDecrypt k0 sealed'] nothing))) = [0; 1; 2; 3; 4; 5; 6].
Proof. split; vm_compute; reflexivity. Qed.
Example C147_exact_nonvacuous :
  let os := [AEncrypt ae0 (L "p") iv16; ADecrypt ae0 iv16 (L "c") (L "short"); HDecrypt h0 sealed; KDecrypt k0 (L "abc"); HDecrypt h0 (L "a"); KDecrypt k0 sealed'] in
  snd (oruns toy os nothing) = true /\ length (filter odd os) = 2 /\ remaining (events (fst (oruns toy os nothing))) = [2; 6].
Proof. cbv zeta. split; [vm_compute; reflexivity|]. split; vm_compute; reflexivity. Qed.
Example C147_third_part_nonvacuous : odd (HDecrypt h0 (three iv16 (L "c") (L "short"))) = true /\ odd (KDecrypt k0 (three iv16 (L "c") (L "short"))) = true /\ odd (HDecrypt h0 (three iv16 (L "c") iv16)) = false.
Proof. repeat split; vm_compute; reflexivity. Qed.
