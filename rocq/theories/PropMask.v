(** C129: how much of the stack encryption takes for a message. *)
From Verif Require Import Base ByteString ByteStringProofs StrMap Dec UInteger Field Policy Lsss LsssSpec LsssUse Scanner Grammar PolicySyntax Lexical PolicyMeaning AttrMeaning Driver Parser AttrList Utils Sym Kdf KdfProofs ParserSound ParserRun ParserTop ParserFinal AttrUse PolicyUse Container Keystore Scheme SchemeSpec SchemeStep SchemeRows SchemeCp SchemeKp SchemeUse SchemeHarm SchemeToy PropParser PropScheme CreatePolicy MaskRoom.
From Coq Require Import ZArith List Ascii Bool Lia ZifyBool.
Import ListNotations.
Open Scope Z_scope.

(** The bytes taken for a message of [n] bytes: whole blocks of 32, and one more. *)
Definition taken (n : Z) : Z := 32 * ((n + 31) / 32) + 1.

Lemma vla_ok : forall blocks step mem, 0 <= blocks * step -> vla blocks step = Ok mem -> len mem = blocks * step + 1.
Proof. intros blocks step mem P H. unfold vla in H. destruct (blocks * step <? 2147483647); [|discriminate]. injection H as <-. unfold len. rewrite repeat_length. lia. Qed.
Lemma mask_taken : forall room hash buf n prefix, 0 <= n -> hash_from_bytes_in room hash buf n prefix = if room <? taken n then UB else hash_from_bytes hash buf n prefix.
Proof.
  intros room hash buf n prefix Hn. unfold hash_from_bytes_in, hash_from_bytes, vla_in, taken. cbn [ceil_div md_len Z.eqb bind]. unfold ceil_div. cbn [Z.eqb md_len bind].
  change md_len with 32. cbn [Z.eqb bind]. replace (n + 32 - 1) with (n + 31) by lia. set (b := (n + 31) / 32). assert (0 <= b) by (apply Z.div_pos; lia).
  destruct (vla b 32) as [mem| | | |] eqn:V; cbn [bind]; try (destruct (room <? _); reflexivity).
  - rewrite (vla_ok b 32 mem) by (auto; lia). replace (b * 32 + 1) with (32 * b + 1) by lia. destruct (room <? 32 * b + 1); reflexivity.
  - unfold vla in V. destruct (b * 32 <? 2147483647); discriminate.
  - unfold vla in V. destruct (b * 32 <? 2147483647); discriminate.
  - unfold vla in V. destruct (b * 32 <? 2147483647); discriminate.
Qed.

(** ** Key derivation *)
Lemma loop_calm : forall hash set inc step n c buf off mem, (exists m, hash_loop hash set inc step n c buf off mem = Ok m) \/ hash_loop hash set inc step n c buf off mem = UB.
Proof.
  intros hash set inc step. induction n as [|n IH]; intros c buf off mem; cbn [hash_loop]; [eauto|]. unfold write_at. destruct (_ <=? _)%nat; cbn [bind]; auto.
Qed.
(** Whole blocks (of 256 bytes for every 256 bits, with the default arguments), and one
    byte more. *)
Theorem C129_derive : forall room hash prefix hl max z bits metadata, 0 < hl -> 0 <= bits ->
  derive_key_in room hash prefix hl max z bits metadata =
  match derive_key hash prefix hl max z bits metadata with
  | Ok k => if room <? hl * ((bits + hl - 1) / hl) + 1 then UB else Ok k
  | x => x
  end.
Proof.
  intros room hash prefix hl max z bits metadata Hh Hb. unfold derive_key_in, derive_key, ceil_div, vla_in. destruct (Z.eqb_spec hl 0); [lia|]. cbn [bind].
  set (b := (bits + hl - 1) / hl). assert (0 <= b) by (apply Z.div_pos; lia). destruct (4294967295 <? b); [reflexivity|]. destruct (max <? _); [reflexivity|].
  destruct (vla b hl) as [mem| | | |] eqn:V; cbn [bind]; try reflexivity. rewrite (vla_ok b hl mem) by (auto; nia). replace (b * hl + 1) with (hl * b + 1) by lia.
  match goal with |- context [hash_loop ?h ?s ?i ?st ?n ?c ?bu ?o ?m] => destruct (loop_calm h s i st n c bu o m) as [(mem' & El)|El]; pose proof El as El' end.
  - destruct (room <? hl * b + 1); cbn [bind]; rewrite El; cbn [bind]; destruct (_ <=? _); reflexivity.
  - destruct (room <? hl * b + 1); cbn [bind]; rewrite El; reflexivity.
Qed.
Print Assumptions C129_derive.

(** ** The stream interface *)
(** A block takes its own length and one byte more. *)
Theorem C129_stream : forall G room s block out,
  (0 < len block < 2147483647 -> s_enc s = true -> room < len block + 1 -> encrypt_update_in room G s block out = (s, out, UB)) /\
  (0 < len block < 2147483647 -> s_dec s = true -> room < len block + 1 -> decrypt_update_in room G s block out = (s, out, UB)) /\
  (len block + 1 <= room -> encrypt_update_in room G s block out = encrypt_update G s block out /\ decrypt_update_in room G s block out = decrypt_update G s block out).
Proof.
  intros G room s block out. unfold encrypt_update_in, decrypt_update_in, too_long. split; [|split].
  - intros Hb -> Hr. destruct (Z.leb_spec 2147483647 (len block)); [lia|]. destruct (Z.ltb_spec 0 (len block)); [|lia]. destruct (Z.ltb_spec room (len block + 1)); [reflexivity|lia].
  - intros Hb -> Hr. destruct (Z.leb_spec 2147483647 (len block)); [lia|]. destruct (Z.ltb_spec 0 (len block)); [|lia]. destruct (Z.ltb_spec room (len block + 1)); [reflexivity|lia].
  - intro Hr. destruct (Z.ltb_spec room (len block + 1)); [lia|]. unfold encrypt_update, decrypt_update, too_long. split.
    + destruct (s_enc s); [|reflexivity]. destruct (_ <=? _); [reflexivity|]. destruct (negb _); reflexivity.
    + destruct (s_dec s); [|reflexivity]. destruct (negb _); [reflexivity|]. destruct (_ <=? _); reflexivity.
Qed.
Print Assumptions C129_stream.

(** ** Encryption *)
Section Room.
Context (E : engine) (HE : lawful E) (room : Z).
Lemma short_mod : forall s : str, len s < 2147483616 -> 0 <= len s < 2147483616 /\ len s mod 2 ^ 32 = len s.
Proof. intros s H. assert (0 <= len s) by (unfold len; lia). split; [lia|]. apply Z.mod_small. lia. Qed.
Lemma mask_within : forall key s, len s < 2147483616 -> mask_in room E key (len s) = if room <? taken (len s) then UB else mask E key (len s).
Proof. intros key s H. destruct (short_mod s H) as [P Q]. unfold mask_in, mask. rewrite Q. apply mask_taken. lia. Qed.
Lemma caught : forall m w w' e, catch_code E m w <> (w', Throw (OpenABEError e)).
Proof. intros m w w' e. unfold catch_code. destruct (m w) as [w1 [a|[]| | |]]; discriminate. Qed.
Lemma bytes_then : forall A (F : str -> code E A) w, andthen E (sym_bytes E) F w = F (w_sym E w) w.
Proof. reflexivity. Qed.
Lemma fresh_then : forall A (F : unit -> code E A) w, andthen E (fresh_sym E) F w = F tt (set_sym E w []).
Proof. reflexivity. Qed.
Lemma step_then : forall A B (m : code E A) (F : A -> code E B) w w1 a, m w = (w1, Ok a) -> andthen E m F w = F a w1.
Proof. intros A B m F w w1 a H. unfold andthen. rewrite H. reflexivity. Qed.
Lemma encrypt_room : forall sch mpk inp pt w, len pt < 2147483616 ->
  (taken (len pt) <= room -> encrypt_within room E sch mpk inp pt w = encrypt E sch mpk inp pt w) /\
  (room < taken (len pt) -> (snd (encrypt E sch mpk inp pt w) = Ok 0 -> snd (encrypt_within room E sch mpk inp pt w) = UB) /\
     (snd (encrypt E sch mpk inp pt w) <> Ok 0 -> encrypt_within room E sch mpk inp pt w = encrypt E sch mpk inp pt w)).
Proof.
  intros sch mpk inp pt w Hl. unfold encrypt_within, encrypt. set (f := fun r : Z => if negb (r =? 0) then _ else _). set (g := fun r : Z => if negb (r =? 0) then _ else _).
  assert (forall F : Z -> code E Z, catch_code E (andthen E (fresh_sym E) (fun _ => andthen E (encrypt_kem E sch mpk inp 32) F)) w =
    match encrypt_kem E sch mpk inp 32 (set_sym E w []) with (w1, Ok r) => catch_code E (F r) w1 | (w1, Throw e) => (w1, Throw e) | (w1, UB) => (w1, UB) | (w1, Exit) => (w1, Exit) | (w1, NoFuel) => (w1, NoFuel) end) as X.
  { intro F. unfold catch_code, andthen, fresh_sym. destruct (encrypt_kem E sch mpk inp 32 (set_sym E w [])) as [w1 [r|e| | |]] eqn:Ek; try reflexivity.
    destruct e; try reflexivity. destruct sch; exfalso; eapply caught; exact Ek. }
  rewrite !X. clear X. destruct (encrypt_kem E sch mpk inp 32 (set_sym E w [])) as [w1 [r|e| | |]]; try (split; [reflexivity|]; intros _; split; [discriminate|reflexivity]).
  subst f g. cbn beta. destruct (Z.eqb_spec r 0) as [->|N]; cbn [negb].
  - destruct (mask_ok E (w_sym E w1) pt HE Hl) as (m & b & E1 & E2 & _). unfold catch_code. rewrite !(bytes_then Z).
    rewrite (mask_within _ _ Hl), !E1. split.
    + intro R. destruct (Z.ltb_spec room (taken (len pt))); [lia|]. reflexivity.
    + intro R. destruct (Z.ltb_spec room (taken (len pt))); [|lia]. split; [reflexivity|]. intro B. exfalso. apply B. erewrite andthen_ok by apply lift_ok. rewrite E2. reflexivity.
  - split; [reflexivity|]. intros _. split; [|reflexivity]. cbn. intro B. injection B as ->. congruence.
Qed.
Lemma decrypt_room : forall sch mpk kid w, (forall enc, part E (ct_parts (w_ct E w)) (L "_ED") (OBytes enc) -> len enc < 2147483616) ->
  ((forall enc, part E (ct_parts (w_ct E w)) (L "_ED") (OBytes enc) -> taken (len enc) <= room) -> decrypt_within room E sch mpk kid w = decrypt E sch mpk kid w) /\
  (forall enc, part E (ct_parts (w_ct E w)) (L "_ED") (OBytes enc) -> room < taken (len enc) -> (forall pt, snd (decrypt E sch mpk kid w) = Ok (0, pt) -> snd (decrypt_within room E sch mpk kid w) = UB) /\
     ((forall pt, snd (decrypt E sch mpk kid w) <> Ok (0, pt)) -> decrypt_within room E sch mpk kid w = decrypt E sch mpk kid w)).
Proof.
  intros sch mpk kid w Hl. unfold decrypt_within, decrypt, decrypt_body_within, decrypt_body. rewrite !fresh_then. pose proof (slight_kem E HE sch mpk kid (set_sym E w [])) as Sl.
  set (f := fun r : Z => if negb (r =? 0) then _ else _). set (g := fun r : Z => if negb (r =? 0) then _ else _).
  destruct (decrypt_kem E sch mpk kid 32 (set_sym E w [])) as [w1 r] eqn:Ek. unfold slight in Sl. cbn [fst] in Sl.
  assert (forall F : Z -> code E str, andthen E (decrypt_kem E sch mpk kid 32) F (set_sym E w []) = match r with Ok r => F r w1 | Throw e => (w1, Throw e) | UB => (w1, UB) | Exit => (w1, Exit) | NoFuel => (w1, NoFuel) end) as X.
  { intro F. unfold andthen. rewrite Ek. reflexivity. }
  rewrite !X. clear X. destruct r as [r|e| | |]; try (split; [reflexivity|]; intros enc _ _; split; [discriminate|reflexivity]).
  2:{ split; [reflexivity|]. intros enc _ _. split; [|reflexivity]. intros pt B. destruct e; try discriminate. exfalso. destruct sch; eapply caught; exact Ek. }
  subst f g. cbn beta. destruct (Z.eqb_spec r 0) as [->|N]; cbn [negb].
  2:{ split; [reflexivity|]. intros enc _ _. split; [|reflexivity]. intros pt B. cbn in B. injection B as -> _. congruence. }
  destruct (part_or E (ct_parts (w_ct E w1)) (L "_ED")) as [(o & Ho)|No].
  2:{ destruct (ct_part_lacks E _ (as_bytes E) _ w1 No) as (w2 & E2). unfold andthen at 1 5. rewrite E2. split; [reflexivity|]. intros enc He. exfalso. apply (No (OBytes enc)). apply Sl. exact He. }
  rewrite !(step_then _ _ _ _ _ _ _ (ct_part_ok E _ (as_bytes E) _ _ w1 Ho)). destruct (as_bytes E o) as [b|] eqn:Eb.
  2:{ split; [reflexivity|]. intros enc He. exfalso. apply Sl in He. rewrite (part_fun E _ _ _ _ Ho He) in Eb. discriminate. }
  apply as_bytes_inv in Eb as ->. rewrite !(step_then _ _ _ _ _ _ _ (assert_ok E _ b w1)), !bytes_then.
  assert (part E (ct_parts (w_ct E w)) (L "_ED") (OBytes b)) as Hb by (apply Sl in Ho; exact Ho). specialize (Hl b Hb).
  destruct (mask_ok E (w_sym E w1) b HE Hl) as (m & b' & E1 & E2 & _). rewrite (mask_within _ _ Hl), !E1. split.
  - intro R. specialize (R b Hb). destruct (Z.ltb_spec room (taken (len b))); [lia|]. reflexivity.
  - intros enc He R. assert (enc = b) as ->. { pose proof (part_fun E _ _ _ _ He Hb) as Y. injection Y as ->. reflexivity. }
    destruct (Z.ltb_spec room (taken (len b))); [|lia]. split; [reflexivity|]. intro B. exfalso. apply (B b'). erewrite andthen_ok by apply lift_ok. rewrite E2. reflexivity.
Qed.
End Room.
(** Encryption needs whole blocks of 32 bytes for the message, and one byte more: with
    so much it does as it should, with less every encryption that would succeed
    overflows the stack. *)
Theorem C129_encrypt : forall E room sch mpk inp pt w, lawful E -> len pt < 2147483616 ->
  (32 * ((len pt + 31) / 32) + 1 <= room -> encrypt_within room E sch mpk inp pt w = encrypt E sch mpk inp pt w) /\
  (room < 32 * ((len pt + 31) / 32) + 1 ->
     (snd (encrypt E sch mpk inp pt w) = Ok 0 -> snd (encrypt_within room E sch mpk inp pt w) = UB) /\
     (snd (encrypt E sch mpk inp pt w) <> Ok 0 -> encrypt_within room E sch mpk inp pt w = encrypt E sch mpk inp pt w)).
Proof. intros. apply encrypt_room; assumption. Qed.
Print Assumptions C129_encrypt.
(** The same for decryption, where the encrypted message counts. *)
Theorem C129_decrypt : forall E room sch mpk kid w enc, lawful E -> mget (L "_ED") (ct_parts (w_ct E w)) = Some (Some (OBytes enc)) -> len enc < 2147483616 ->
  (32 * ((len enc + 31) / 32) + 1 <= room -> decrypt_within room E sch mpk kid w = decrypt E sch mpk kid w) /\
  (room < 32 * ((len enc + 31) / 32) + 1 ->
     (forall pt, snd (decrypt E sch mpk kid w) = Ok (0, pt) -> snd (decrypt_within room E sch mpk kid w) = UB) /\
     ((forall pt, snd (decrypt E sch mpk kid w) <> Ok (0, pt)) -> decrypt_within room E sch mpk kid w = decrypt E sch mpk kid w)).
Proof.
  intros E room sch mpk kid w enc HE He Hl. assert (forall e, part E (ct_parts (w_ct E w)) (L "_ED") (OBytes e) -> e = enc) as U.
  { unfold part. intros e H. rewrite He in H. injection H as ->. reflexivity. }
  destruct (decrypt_room E HE room sch mpk kid w) as [A B]; [intros e H; rewrite (U e H); exact Hl|]. split; [intro R; apply A; intros e H; rewrite (U e H); exact R|]. exact (B enc He).
Qed.
Print Assumptions C129_decrypt.

(** So no stack is large enough for all the messages that the library takes. *)
Theorem C129_calls_refuted : forall E room, lawful E -> 0 <= room < 2147483616 -> exists pt, len pt = room /\
  forall sch mpk msk w w1, generate_params E sch mpk msk w = (w1, Ok 0) -> exists inp w2,
    match sch, inp with
    | CP, InPolicy q => create_policy_tree (e_mktime E) (L "a") = Ok (Some q)
    | KP, InAttrs l => create_attribute_list (e_mktime E) (L "a") = Ok (Some l)
    | _, _ => False
    end /\ encrypt E sch mpk inp pt w1 = (w2, Ok 0) /\ snd (encrypt_within room E sch mpk inp pt w1) = UB.
Proof.
  intros E room HE Hr. set (pt := repeat (z2b 0) (Z.to_nat room)). assert (len pt = room) as Lp by (unfold pt, len; rewrite repeat_length; lia). exists pt. split; [exact Lp|].
  intros sch mpk msk w w1 Hg. assert (exists inp w2, match sch, inp with CP, InPolicy q => create_policy_tree (e_mktime E) (L "a") = Ok (Some q) | KP, InAttrs l => create_attribute_list (e_mktime E) (L "a") = Ok (Some l) | _, _ => False end /\
      encrypt E sch mpk inp pt w1 = (w2, Ok 0)) as (inp & w2 & Hi & He).
  { destruct sch.
    - assert (exists q, create_policy_tree (e_mktime E) (L "a") = Ok (Some q) /\ row_names q = [L "a"]) as (q & Hq & Rn) by (eexists; split; vm_compute; reflexivity).
      destruct (usable_from_text E (L "a") q (EAttr (L "a")) Hq) as (r & U); [apply text_reads, by_lex; [apply good_ptoks|]; vm_compute; reflexivity|reflexivity..|].
      destruct (cp_generate_ok E HE mpk msk w w1 Hg) as (P & kp & ks & Hp & Hs & Pp & Pm & _).
      destruct (cp_encrypt_ok E HE P q r mpk kp pt w1 Hp Pp U) as (w2 & He & _); [apply short_names; rewrite Rn; intros a [<-|[]]; cbn; lia|lia|].
      exists (InPolicy q), w2. split; assumption.
    - assert (exists l, create_attribute_list (e_mktime E) (L "a") = Ok (Some l) /\ aattrs l = [L "a"]) as (l & Hl & Al) by (eexists; split; vm_compute; reflexivity).
      destruct (kp_generate_ok E HE mpk msk w w1 Hg) as (P & kp & ks & Hp & Hs & Pp & Pm & _).
      destruct (kp_encrypt_ok E HE P l mpk kp pt w1 Hp Pp) as (w2 & He & _); [apply short_names; rewrite Al; intros a [<-|[]]; cbn; lia|lia|].
      exists (InAttrs l), w2. split; assumption. }
  exists inp, w2. split; [exact Hi|]. split; [exact He|]. destruct (C129_encrypt E room sch mpk inp pt w1 HE ltac:(lia)) as [_ X]. apply X; [rewrite Lp; Z.div_mod_to_equations; lia|]. rewrite He. reflexivity.
Qed.
Print Assumptions C129_calls_refuted.
(** Five bytes need 33. *)
Definition w_a := w_alice toy_engine CP (InAttrs (parsed_list (L "a"))).
Definition w_five := w_enc toy_engine CP (InAttrs (parsed_list (L "a"))) (InPolicy (parsed_policy (L "a"))) (L "hello").
Example C129_calls :
  snd (encrypt_within 33 toy_engine CP (L "mpk") (InPolicy (parsed_policy (L "a"))) (L "hello") w_a) = Ok 0 /\
  snd (encrypt_within 32 toy_engine CP (L "mpk") (InPolicy (parsed_policy (L "a"))) (L "hello") w_a) = UB /\
  snd (decrypt_within 33 toy_engine CP (L "mpk") (L "alice") w_five) = Ok (0, L "hello") /\ snd (decrypt_within 32 toy_engine CP (L "mpk") (L "alice") w_five) = UB /\
  (exists enc, mget (L "_ED") (ct_parts (w_ct toy_engine w_five)) = Some (Some (OBytes enc)) /\ len enc = 5) /\
  (exists w w1, generate_params toy_engine CP (L "mpk") (L "msk") w = (w1, Ok 0)) /\ lawful toy_engine /\
  (exists k, derive_key_in 257 (e_hash toy_engine) 43 256 4294967295 (L "z") 128 [] = Ok k) /\ derive_key_in 256 (e_hash toy_engine) 43 256 4294967295 (L "z") 128 [] = UB.
Proof.
  do 4 (split; [vm_compute; reflexivity|]). split; [eexists; split; vm_compute; reflexivity|].
  split; [exists (start toy_engine (new_store, 0%nat) (no_ct toy_engine)); eexists; rewrite surjective_pairing at 1; f_equal; vm_compute; reflexivity|].
  split; [exact toy_lawful|]. split; [eexists|]; vm_compute; reflexivity.
Qed.
