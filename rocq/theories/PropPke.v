(** Public-key encryption: C107 round trip, C108 authenticity, C109 loading keys. *)
From Verif Require Import Base StrMap ByteString ByteStringProofs UInteger Field Policy Driver Parser AttrList Utils Kdf Lsss Container ContainerSpec ContainerProofs Keystore Sym SymSpec SymProofs NoThrow Scheme SchemeSpec SchemeStep SchemeFrame SchemeUse SchemeToy Pke PkeSpec PropContainer.
From Coq Require Import ZArith List Ascii Bool Lia.
Import ListNotations.
Open Scope Z_scope.

Section Run.
Context (E : engine) (G : gcm) (M : kem E).
Notation K := (e_curve E).

Lemma header_is : forall (c : ciphertext K), get_header c = header_bytes c.
Proof. reflexivity. Qed.
Lemma header_aad : forall key (c : ciphertext K), ae_aad (ae_set_aad (new_auth_enc key) (get_header c)) = header_bytes c.
Proof. intros. cbn [ae_set_aad ae_aad]. unfold get_header. rewrite !len_cons. pose proof (len_nonneg (ct_uid c)). replace (1 + (1 + len (ct_uid c)) =? 0) with false by lia. reflexivity. Qed.
Lemma header_len : forall (c : ciphertext K), len (header_bytes c) = 2 + len (ct_uid c).
Proof. intros. unfold header_bytes. rewrite !len_cons. lia. Qed.
Lemma carries_header : forall names (c c' : ciphertext K), carries names c c' -> header_bytes c' = header_bytes c.
Proof. intros names c c' (A & B & C & _). unfold header_bytes. congruence. Qed.
Lemma carries_trans : forall (c c' c'' : ciphertext K) n b, carries every c' c'' -> mget n (ct_parts c') = Some (Some (OBytes b)) -> mget n (ct_parts c'') = Some (Some (OBytes b)).
Proof. intros c c' c'' n b (_ & _ & _ & H) X. destruct (H n _ I X) as (o & A & B). destruct B as [->|B]; [exact A|]. destruct o; cbn in B; try contradiction. subst. exact A. Qed.

(** What decrypt does once the encapsulation is open. *)
Lemma decrypt_run : forall sid skid before v v1 iv ct tag, kem_decrypt E M sid skid 256 (set_sym E v []) = (v1, Ok 0) -> message (w_ct E v1) iv ct tag ->
  pke_decrypt E G M sid skid before v =
    (v1, match ae_decrypt G (ae_set_aad (new_auth_enc (w_sym E v1)) (get_header (w_ct E v1))) iv ct tag with
         | Ok (Some m) => Ok (0, m) | Ok None => Ok (32, before)
         | Throw (OpenABEError e) => Ok (e, before) | Throw e => Throw e | UB => UB | Exit => Exit | NoFuel => NoFuel end).
Proof.
  intros sid skid before v v1 iv ct tag Hk (H1 & H2 & H3). unfold pke_decrypt, pke_decrypt_body.
  rewrite (andthen_ok E _ _ _ _ v (set_sym E v []) tt) by reflexivity. rewrite (andthen_ok E _ _ _ _ _ v1 0 Hk). cbn [Z.eqb negb].
  rewrite (andthen_ok E _ _ _ _ _ _ _ (ct_part_ok E _ (as_bytes E) (L "IV") (OBytes iv) v1 H1)). rewrite (andthen_ok E _ _ _ _ v1 v1 iv) by reflexivity.
  rewrite (andthen_ok E _ _ _ _ _ _ _ (ct_part_ok E _ (as_bytes E) (L "CT") (OBytes ct) v1 H2)). rewrite (andthen_ok E _ _ _ _ v1 v1 ct) by reflexivity.
  rewrite (andthen_ok E _ _ _ _ _ _ _ (ct_part_ok E _ (as_bytes E) (L "Tag") (OBytes tag) v1 H3)). rewrite (andthen_ok E _ _ _ _ v1 v1 tag) by reflexivity.
  rewrite (andthen_ok E _ _ _ _ v1 v1 (w_sym E v1)) by reflexivity. rewrite (andthen_ok E _ _ _ _ v1 v1 (get_header (w_ct E v1))) by reflexivity.
  unfold andthen, lift. destruct (ae_decrypt _ _ _ _ _) as [[m|]|[]| | |]; reflexivity.
Qed.
Lemma decrypt_inv : forall sid skid before v v' e p, pke_decrypt E G M sid skid before v = (v', Ok (e, p)) ->
  p = before /\ (e = 0 -> exists v1, kem_decrypt E M sid skid 256 (set_sym E v []) = (v1, Throw (OpenABEError 0))) \/
  e = 0 /\ exists iv ct tag, kem_decrypt E M sid skid 256 (set_sym E v []) = (v', Ok 0) /\ message (w_ct E v') iv ct tag /\
     ae_decrypt G (ae_set_aad (new_auth_enc (w_sym E v')) (get_header (w_ct E v'))) iv ct tag = Ok (Some p).
Proof.
  intros sid skid before v v' e p H. unfold pke_decrypt in H. destruct (pke_decrypt_body E G M sid skid v) as [w r] eqn:Eb. destruct r as [m|[|x|]| | |]; try discriminate.
  - injection H as -> <- <-. right. split; [reflexivity|]. unfold pke_decrypt_body in Eb.
    apply andthen_inv in Eb as (t & w0 & E0 & Eb). injection E0 as <- <-. apply andthen_inv in Eb as (z & w1 & Ek & Eb). destruct (Z.eqb_spec z 0) as [->|]; [|discriminate Eb]. cbn [negb] in Eb.
    apply andthen_inv in Eb as (o1 & w2 & E1 & Eb). apply ct_part_inv in E1 as (-> & x1 & P1 & ->). apply andthen_inv in Eb as (iv & w3 & E2 & Eb). apply assert_inv in E2 as (C1 & ->).
    apply andthen_inv in Eb as (o2 & w4 & E3 & Eb). apply ct_part_inv in E3 as (-> & x2 & P2 & ->). apply andthen_inv in Eb as (ct & w5 & E4 & Eb). apply assert_inv in E4 as (C2 & ->).
    apply andthen_inv in Eb as (o3 & w6 & E5 & Eb). apply ct_part_inv in E5 as (-> & x3 & P3 & ->). apply andthen_inv in Eb as (tag & w7 & E6 & Eb). apply assert_inv in E6 as (C3 & ->).
    apply andthen_inv in Eb as (key & w8 & E7 & Eb). injection E7 as <- <-. apply andthen_inv in Eb as (h & w9 & E8 & Eb). injection E8 as <- <-.
    apply andthen_inv in Eb as (q & w10 & E9 & Eb). apply lift_inv in E9 as (E9 & ->). destruct q as [m'|]; [|discriminate Eb]. injection Eb as <- <-.
    destruct x1; try discriminate C1; destruct x2; try discriminate C2; destruct x3; try discriminate C3. injection C1 as ->. injection C2 as ->. injection C3 as ->.
    exists iv, ct, tag. repeat split; assumption.
  - injection H as -> <- <-. left. split; [reflexivity|]. intros ->. unfold pke_decrypt_body in Eb.
    rewrite (andthen_ok E _ _ _ _ v (set_sym E v []) tt) in Eb by reflexivity. unfold andthen at 1 in Eb.
    destruct (kem_decrypt E M sid skid 256 (set_sym E v [])) as [w1 [z|[|y|]| | |]] eqn:Ek; try discriminate.
    + exfalso. destruct (Z.eqb_spec z 0) as [->|Nz]; cbn [negb] in Eb; [|unfold throw in Eb; congruence].
      unfold andthen in Eb.
      assert (forall A (cast : zobj K -> option A) n w w' y, ct_part E cast n w = (w', Throw (OpenABEError y)) -> y = 18) as P.
      { intros A cast n u u' y H. unfold ct_part, andthen, ct_component in H. destruct (mget n (ct_parts (w_ct E u))) as [[o|]|] eqn:En; [rewrite (get_present _ _ _ _ En) in H|rewrite (get_null _ _ _ En) in H|rewrite (get_missing _ _ _ En) in H]; cbn in H; first [discriminate H|injection H as _ <-; reflexivity]. }
      destruct (ct_part E (as_bytes E) (L "IV") w1) as [w2 [o1|[|y|]| | |]] eqn:E1; try discriminate; [|injection Eb as _ ->; apply P in E1; discriminate].
      destruct o1 as [iv|]; [|discriminate]. cbn [assert_notnull ret] in Eb.
      destruct (ct_part E (as_bytes E) (L "CT") w2) as [w3 [o2|[|y|]| | |]] eqn:E2; try discriminate; [|injection Eb as _ ->; apply P in E2; discriminate].
      destruct o2 as [ct|]; [|discriminate]. cbn [assert_notnull ret] in Eb.
      destruct (ct_part E (as_bytes E) (L "Tag") w3) as [w4 [o3|[|y|]| | |]] eqn:E3; try discriminate; [|injection Eb as _ ->; apply P in E3; discriminate].
      destruct o3 as [tag|]; [|discriminate]. cbn [assert_notnull ret sym_bytes header lift] in Eb.
      destruct (ae_decrypt G _ iv ct tag) as [[m|]|[|y|]| | |] eqn:Ea; try discriminate. injection Eb as _ ->. unfold ae_decrypt in Ea.
      destruct (negb (len tag =? 16)); [discriminate|]. destruct (_ || _); [discriminate|]. unfold evp_init in Ea. destruct (_ <? 32); [discriminate|]. cbn [bind] in Ea. destruct (evp_update _ _ _ _) in Ea. discriminate.
    + injection Eb as <- ->. eauto.
Qed.

(** What encrypt does once the encapsulation is made. *)
Lemma encrypt_run : forall pk sid m w k w1, mget sid (pub_keys (w_store E w)) = Some (Some k) -> 0 < len m ->
  kem_encrypt E M pk (k_uid k) 256 (set_sym E w []) = (w1, Ok 0) ->
  pke_encrypt E G M pk sid m w =
    match ae_encrypt G (ae_set_aad (new_auth_enc (w_sym E w1)) (get_header (w_ct E w1))) m (e_bytes E (w_off E w1) 16) with
    | Ok (iv, ct, tag) => (set_ct E (set_off E w1 (S (w_off E w1)))
        (ct_set_component (ct_set_component (ct_set_component (w_ct E w1) (L "IV") (OBytes iv)) (L "CT") (OBytes ct)) (L "Tag") (OBytes tag)), Ok 0)
    | Throw (OpenABEError e) => (set_off E w1 (S (w_off E w1)), Ok e)
    | Throw e => (set_off E w1 (S (w_off E w1)), Throw e) | UB => (set_off E w1 (S (w_off E w1)), UB) | Exit => (set_off E w1 (S (w_off E w1)), Exit) | NoFuel => (set_off E w1 (S (w_off E w1)), NoFuel)
    end.
Proof.
  intros pk sid m w k w1 Hs Hl Hk. unfold pke_encrypt, catch_code. rewrite (andthen_ok E _ _ _ _ w (set_sym E w []) tt) by reflexivity.
  replace (0 <? len m) with true by lia. cbn [negb]. rewrite (andthen_ok E _ _ _ _ _ _ _ (public_ok E sid k (set_sym E w []) Hs)). cbv beta iota.
  rewrite (andthen_ok E _ _ _ _ _ _ _ Hk). cbn [Z.eqb negb]. rewrite (andthen_ok E _ _ _ _ w1 w1 (w_sym E w1)) by reflexivity. rewrite (andthen_ok E _ _ _ _ w1 w1 (get_header (w_ct E w1))) by reflexivity.
  rewrite (andthen_ok E _ _ _ _ w1 (set_off E w1 (S (w_off E w1))) (e_bytes E (w_off E w1) 16)) by reflexivity. unfold andthen, lift.
  destruct (ae_encrypt _ _ _ _) as [[[iv ct] tag]|[]| | |]; reflexivity.
Qed.
Lemma outside_mget : forall name iv ct tag (c : ciphertext K), outside name ->
  mget name (ct_parts (ct_set_component (ct_set_component (ct_set_component c (L "IV") (OBytes iv)) (L "CT") (OBytes ct)) (L "Tag") (OBytes tag))) = mget name (ct_parts c).
Proof.
  intros name iv ct tag c H. unfold ct_set_component. cbn [with_parts ct_parts]. unfold set_component.
  rewrite !mget_mset_other; [reflexivity|intro X; apply H; rewrite X; cbn; auto..].
Qed.
End Run.

(** No exception carries the code of success, unless the curve library throws it. *)
Definition tells {A} (r : res A) : Prop := r <> Throw (OpenABEError 0).
Lemma tells_bind : forall A B (m : res A) (f : A -> res B), tells m -> (forall a, tells (f a)) -> tells (bind m f).
Proof. intros A B [a|e| | |] f Hm Hf; cbn; auto; try discriminate. intro X. injection X as ->. apply Hm. reflexivity. Qed.
Lemma tells_calm : forall A (r : res A), NoThrow.calm r -> tells r.
Proof. intros A [a|e| | |] H; cbn in *; try discriminate. contradiction. Qed.
Lemma tells_at : forall b i, tells (at_ b i).
Proof. intros b i. unfold at_. destruct (nth_error b i); discriminate. Qed.
Lemma tells_body : forall b i n, tells (unpack_body b i n).
Proof.
  intros. unfold unpack_body. apply tells_bind; [|discriminate]. generalize (skipn i b). intro s. revert n. induction s as [|a s IH]; intro n; cbn [copy_loop]; [destruct (n <=? 0); discriminate|].
  destruct (n <=? 0); [discriminate|]. apply tells_bind; [apply IH|discriminate].
Qed.
Ltac tell := repeat first [discriminate | apply tells_at | apply tells_body | assumption | apply tells_bind; [|intro] | match goal with |- tells (match ?x with _ => _ end) => destruct x end].
Lemma tells_smart : forall b i, tells (snd (smart_unpack b i)).
Proof.
  intros b i. unfold smart_unpack. pose proof (tells_at b i) as T. destruct (at_ b i) as [tag|e| | |]; cbn [snd]; try discriminate; [|intro X; apply T; injection X as ->; reflexivity].
  assert (forall r : res (str * nat), tells r -> tells (snd (match r with Ok (s, i2) => (i2, Ok s) | Throw e => ((i + 1)%nat, Throw e) | UB => ((i + 1)%nat, UB) | Exit => ((i + 1)%nat, Exit) | NoFuel => ((i + 1)%nat, NoFuel) end))) as F.
  { intros [[s j]|e| | |] H; cbn [snd]; try discriminate. intro X. apply H. injection X as ->. reflexivity. }
  destruct (tag =? 195); [apply F; unfold unpack; tell|]. destruct (tag =? 178); [apply F; unfold unpack16bits; tell|].
  destruct (tag =? 161); [apply F; unfold unpack8bits; tell|discriminate].
Qed.
Definition curve_tells (K : curve) : Prop := (forall b, tells (g1_in K b)) /\ (forall b, tells (g2_in K b)) /\ (forall b, tells (gt_in K b)).
Lemma tells_attrs : forall mktime s, tells (create_attribute_list mktime s).
Proof. intros mktime [|c s]; [discriminate|]. unfold create_attribute_list. apply tells_bind; [apply tells_calm, calm_parse|discriminate]. Qed.
Lemma tells_element : forall K mktime v, curve_tells K -> tells (element_of K mktime v).
Proof.
  intros K mktime v (H1 & H2 & H3). unfold element_of. destruct (len v =? 0); [discriminate|]. apply tells_bind; [apply tells_at|]. intro type.
  destruct (type =? 161); [unfold uint_deserialize; tell|]. destruct (type =? 177); [unfold zp_deserialize; tell|].
  destruct (type =? 178); [unfold group_read; tell; first [apply tells_smart|apply H1]|]. destruct (type =? 179); [unfold group_read; tell; first [apply tells_smart|apply H2]|].
  destruct (type =? 180); [tell; first [apply tells_smart|apply H3]|]. destruct (type =? 29); [unfold bs_deserialize, get_subset; tell|].
  destruct (type =? 122); [apply tells_bind; [apply tells_calm, calm_policy|intros []; discriminate]|]. destruct (type =? 124); [apply tells_bind; [apply tells_attrs|intros []; discriminate]|]. tell.
Qed.
Lemma tells_loop : forall K mktime, curve_tells K -> forall n blob i c, tells (snd (deserialize_loop K mktime n blob i c)).
Proof.
  intros K mktime HK. induction n as [|n IH]; intros blob i c; cbn [deserialize_loop]; [discriminate|].
  pose proof (tells_smart blob i) as T1. destruct (smart_unpack blob i) as [i1 [k|e| | |]]; cbn [snd] in *; try discriminate; [|intro X; apply T1; injection X as ->; reflexivity].
  pose proof (tells_smart blob i1) as T2. destruct (smart_unpack blob i1) as [i2 [v|e| | |]]; cbn [snd] in *; try discriminate; [|intro X; apply T2; injection X as ->; reflexivity].
  unfold deserialize_element. pose proof (tells_element K mktime v HK) as T3. destruct (element_of K mktime v) as [[o|]|e| | |]; cbn [snd] in *; try discriminate; [destruct (_ <? _)%nat; [apply IH|discriminate]..|intro X; apply T3; injection X as ->; reflexivity].
Qed.
Lemma tells_key_load : forall K mktime k b, curve_tells K -> tells (snd (key_load K mktime k b)).
Proof. intros K mktime k b HK. unfold key_load, deserialize. pose proof (tells_loop K mktime HK (S (length b)) b 0 (k_parts k)) as T. destruct (deserialize_loop _ _ _ _ _ _). exact T. Qed.
Lemma tells_construct : forall K blob b r, tells (construct_key K blob b r).
Proof.
  intros. unfold construct_key. destruct (_ <? 18); [discriminate|]. apply tells_bind; [unfold unpack; tell|]. intros [h i]. destruct (18 <=? len h); [|discriminate].
  apply tells_bind; [apply tells_at|]. intro v. apply tells_bind; [apply tells_at|]. intro a. destruct (v <=? 170); [|discriminate]. destruct (get_scheme_id a); try discriminate.
  apply tells_bind; [unfold get_subset; tell|]. intro u. apply tells_bind; [unfold get_subset; tell|]. intro d. apply tells_bind; [unfold unpack; tell|]. discriminate.
Qed.

(** C107.  The sender encapsulates a 32-byte key; then encrypt succeeds, and whoever
    opens the encapsulation to that key gets the message, from any ciphertext object
    that says what the sender's says. *)
Theorem C107_round_trip : forall E G (M : kem E) pk sid m w k w1, lawful E -> gcm_ok G -> 0 < len m < 2147483647 -> len (ct_uid (w_ct E w1)) < 2147483645 ->
  mget sid (pub_keys (w_store E w)) = Some (Some k) -> kem_encrypt E M pk (k_uid k) 256 (set_sym E w []) = (w1, Ok 0) -> len (w_sym E w1) = 32 ->
  exists w2, pke_encrypt E G M pk sid m w = (w2, Ok 0) /\ w_store E w2 = w_store E w1 /\
    forall v c' sid' skid before, agrees E M sid' skid w1 v -> carries every (w_ct E w2) c' ->
    exists v', pke_decrypt E G M sid' skid before (set_ct E v c') = (v', Ok (0, m)).
Proof.
  intros E G M pk sid m w k w1 HE HG Hl Hu Hs Hk H32. pose proof HG as [Hmac Hiv].
  assert (len (e_bytes E (w_off E w1) 16) = 16) as L16 by (apply (law_bytes E HE); lia). set (iv := e_bytes E (w_off E w1) 16) in *.
  pose proof (encrypt_run E G M pk sid m w k w1 Hs (proj1 Hl) Hk) as X. fold iv in X.
  rewrite ae_encrypt_exact in X; [|exact HG|exact H32|exact L16|lia|rewrite header_aad, header_len; lia|reflexivity]. rewrite header_aad in X. cbn [ae_set_aad ae_key new_auth_enc] in X.
  set (ct := crypt G (w_sym E w1) iv 0 m) in *. set (tag := mac G (w_sym E w1) iv (header_bytes (w_ct E w1)) ct) in *.
  eexists. split; [exact X|]. split; [reflexivity|]. intros v c' sid' skid before Ha Hc. cbn [set_ct w_ct] in Hc. destruct (Ha c') as (v' & Ek & Es & Hv).
  { destruct Hc as (A & B & C & D). split; [exact A|]. split; [exact B|]. split; [exact C|]. intros name o Hn Hm. apply D; [exact I|]. rewrite outside_mget by exact Hn. exact Hm. }
  assert (message (w_ct E v') iv ct tag) as Hmsg.
  { repeat split; apply (carries_trans E (w_ct E v') _ _ _ _ Hv); apply (carries_trans E (w_ct E v') _ _ _ _ Hc);
      unfold ct_set_component; cbn [with_parts ct_parts]; unfold set_component; repeat (rewrite mget_mset_same || rewrite mget_mset_other by discriminate); reflexivity. }
  exists v'. rewrite (decrypt_run E G M sid' skid before (set_ct E v c') v' iv ct tag Ek Hmsg).
  assert (header_bytes (w_ct E v') = header_bytes (w_ct E w1)) as Hh by (rewrite (carries_header E _ _ _ Hv), (carries_header E _ _ _ Hc); reflexivity).
  rewrite ae_decrypt_exact; [|cbn; rewrite Es; exact H32|unfold ct; rewrite crypt_len; lia|rewrite header_aad, Hh, header_len; lia|reflexivity|apply Hmac|exact Hmac].
  rewrite header_aad, Hh, Es, (Hiv iv L16). cbn [ae_set_aad ae_key new_auth_enc]. fold tag. rewrite str_eqb_refl. unfold ct. rewrite crypt_crypt. reflexivity.
Qed.
Print Assumptions C107_round_trip.
(** Through bytes: the ciphertext is exported and loaded into a new object. *)
Theorem C107_by_bytes : forall E G (M : kem E) pk sid m w k w1, lawful E -> curve_ok (e_curve E) -> gcm_ok G -> 0 < len m < 2147483647 -> len (ct_uid (w_ct E w1)) = 16 ->
  mget sid (pub_keys (w_store E w)) = Some (Some k) -> kem_encrypt E M pk (k_uid k) 256 (set_sym E w []) = (w1, Ok 0) -> len (w_sym E w1) = 32 ->
  exists w2, pke_encrypt E G M pk sid m w = (w2, Ok 0) /\
    (msorted (ct_parts (w_ct E w2)) -> all_portable _ (e_mktime E) (ct_parts (w_ct E w2)) -> (forall body, serialize (ct_parts (w_ct E w2)) [] = Ok body -> len body < 2^32) ->
     0 <= ct_version (w_ct E w2) <= 170 -> known_scheme (ct_alg (w_ct E w2)) ->
     exists blob c', ct_export (w_ct E w2) = Ok blob /\ ct_load _ (e_mktime E) (new_ciphertext _) blob = (c', Ok tt) /\
       forall v sid' skid before, agrees E M sid' skid w1 v -> exists v', pke_decrypt E G M sid' skid before (set_ct E v c') = (v', Ok (0, m))).
Proof.
  intros E G M pk sid m w k w1 HE HK HG Hl Hu Hs Hk H32. destruct (C107_round_trip E G M pk sid m w k w1 HE HG Hl) as (w2 & E2 & _ & R); auto; [lia|].
  exists w2. split; [exact E2|]. intros So Po Sz V A.
  assert (ct_parts (w_ct E w2) <> []) as Ne.
  { pose proof (encrypt_run E G M pk sid m w k w1 Hs (proj1 Hl) Hk) as X. rewrite E2 in X. destruct (ae_encrypt _ _ _ _) as [[[iv ct] tag]|[|e|]| | |] eqn:Ea in X; try discriminate.
    - injection X as ->. cbn [set_ct w_ct]. unfold ct_set_component. cbn [with_parts ct_parts]. intro Y. apply (f_equal (mget (L "Tag"))) in Y. unfold set_component in Y. rewrite mget_mset_same in Y. discriminate.
    - exfalso. unfold ae_encrypt in Ea. destruct (_ || _); [discriminate|]. unfold evp_init in Ea. destruct (_ <? 32); [discriminate|]. cbn [bind] in Ea. destruct (evp_update _ _ _ _) in Ea. discriminate. }
  assert (ct_uid (w_ct E w2) = ct_uid (w_ct E w1)) as U.
  { pose proof (encrypt_run E G M pk sid m w k w1 Hs (proj1 Hl) Hk) as X. rewrite E2 in X. destruct (ae_encrypt _ _ _ _) as [[[iv ct] tag]|[|e|]| | |] in X; try discriminate; injection X as ->; try reflexivity. }
  destruct (C41_ciphertext_roundtrip _ (e_mktime E) (w_ct E w2) (new_ciphertext _) HK So Po Ne Sz V A) as (blob & c' & Eb & El & C1 & C2 & C3 & C4 & C5); [rewrite U; exact Hu|reflexivity|].
  exists blob, c'. split; [exact Eb|]. split; [exact El|]. intros v sid' skid before Ha. apply R; [exact Ha|]. split; [exact C1|]. split; [exact C2|]. split; [exact C3|]. intros name o _ Hm. destruct (C5 name o Hm) as (o' & X & Y). eauto.
Qed.
Print Assumptions C107_by_bytes.
(** What is refused, and how it is reported. *)
Theorem C107_refused : forall E G (M : kem E) pk sid m w,
  (m = [] -> snd (pke_encrypt E G M pk sid m w) = Ok 60) /\
  (m <> [] -> mget sid (pub_keys (w_store E w)) = None -> snd (pke_encrypt E G M pk sid m w) = Ok 47) /\
  (forall k w1 e, m <> [] -> mget sid (pub_keys (w_store E w)) = Some (Some k) -> kem_encrypt E M pk (k_uid k) 256 (set_sym E w []) = (w1, Ok e) -> e <> 0 ->
     pke_encrypt E G M pk sid m w = (w1, Ok e)).
Proof.
  intros E G M pk sid m w. assert (m <> [] -> (0 <? len m) = true) as Nm by (intro N; destruct m as [|a m]; [congruence|]; rewrite len_cons; pose proof (len_nonneg m); lia).
  split; [intros ->; reflexivity|]. split.
  - intros N H. unfold pke_encrypt, catch_code. rewrite (andthen_ok E _ _ _ _ w (set_sym E w []) tt) by reflexivity. rewrite (Nm N). cbn [negb]. unfold andthen, public_key, get_public_key, index. cbn [set_sym w_store]. rewrite H. reflexivity.
  - intros k w1 e N H Hk Ne. unfold pke_encrypt, catch_code. rewrite (andthen_ok E _ _ _ _ w (set_sym E w []) tt) by reflexivity. rewrite (Nm N). cbn [negb].
    rewrite (andthen_ok E _ _ _ _ _ _ _ (public_ok E sid k (set_sym E w []) H)). cbv beta iota. rewrite (andthen_ok E _ _ _ _ _ _ _ Hk). replace (e =? 0) with false by lia. reflexivity.
Qed.
Print Assumptions C107_refused.

(** C108.  A plaintext comes only out of a ciphertext whose tag fits the header, the
    vector and the body under the key of the encapsulation. *)
Theorem C108_authentic : forall E G (M : kem E) sid skid before v v' p, gcm_ok G ->
  (forall w1, kem_decrypt E M sid skid 256 (set_sym E v []) <> (w1, Throw (OpenABEError 0))) ->
  pke_decrypt E G M sid skid before v = (v', Ok (0, p)) ->
  exists iv ct tag, kem_decrypt E M sid skid 256 (set_sym E v []) = (v', Ok 0) /\ message (w_ct E v') iv ct tag /\ len tag = 16 /\
    opens G (firstn 32 (w_sym E v')) iv (header_bytes (w_ct E v')) ct tag p.
Proof.
  intros E G M sid skid before v v' p HG Nz H. destruct (decrypt_inv E G M sid skid before v v' 0 p H) as [[_ X]|[_ (iv & ct & tag & A & B & C)]]; [destruct (X eq_refl) as (w1 & Y); destruct (Nz _ Y)|].
  exists iv, ct, tag. split; [exact A|]. split; [exact B|]. apply ae_decrypt_sound in C as [C1 C2]; [|exact HG|reflexivity]. rewrite header_aad in C2. auto.
Qed.
Print Assumptions C108_authentic.
(** Otherwise the code is not 0 and the caller's string stays as it was. *)
Theorem C108_untouched : forall E G (M : kem E) sid skid before v v' e p,
  pke_decrypt E G M sid skid before v = (v', Ok (e, p)) -> e <> 0 -> p = before.
Proof. intros E G M sid skid before v v' e p H N. destruct (decrypt_inv E G M sid skid before v v' e p H) as [[X _]|[X _]]; [exact X|congruence]. Qed.
Print Assumptions C108_untouched.
(** The outcome in full once the encapsulation opens to a 32-byte key: a tag of 16
    bytes that fits gives the plaintext, one that does not code 32; another size 61. *)
Theorem C108_outcome : forall E G (M : kem E) sid skid before v v' iv ct tag, gcm_ok G ->
  kem_decrypt E M sid skid 256 (set_sym E v []) = (v', Ok 0) -> message (w_ct E v') iv ct tag -> len (w_sym E v') = 32 ->
  len ct < 2147483647 -> len (ct_uid (w_ct E v')) < 2147483645 ->
  (len tag <> 16 -> pke_decrypt E G M sid skid before v = (v', Ok (61, before))) /\
  (len tag = 16 -> (exists p, opens G (w_sym E v') iv (header_bytes (w_ct E v')) ct tag p /\ pke_decrypt E G M sid skid before v = (v', Ok (0, p))) \/
     (forall p, ~ opens G (w_sym E v') iv (header_bytes (w_ct E v')) ct tag p) /\ pke_decrypt E G M sid skid before v = (v', Ok (32, before))).
Proof.
  intros E G M sid skid before v v' iv ct tag HG Hk Hm H32 Hc Hu. rewrite (decrypt_run E G M sid skid before v v' iv ct tag Hk Hm). split.
  - intro N. unfold ae_decrypt. replace (len tag =? 16) with false by lia. reflexivity.
  - intro L16. rewrite ae_decrypt_exact; [|exact H32|exact Hc|rewrite header_aad, header_len; lia|reflexivity|exact L16|apply HG]. rewrite header_aad. cbn [ae_set_aad ae_key new_auth_enc].
    destruct (iv_used G iv) as [u|] eqn:Eu; [|right; split; [|reflexivity]; intros p (u & X & _); congruence].
    destruct (str_eqb tag (mac G (w_sym E v') u (header_bytes (w_ct E v')) ct)) eqn:Et.
    + left. eexists. split; [|reflexivity]. exists u. split; [exact Eu|]. split; [now apply str_eqb_eq in Et|]. split; [apply crypt_length|]. intros i x Hx. rewrite crypt_nth, Hx. reflexivity.
    + right. split; [|reflexivity]. intros p (u' & X & Y & _). rewrite Eu in X. injection X as <-. rewrite Y, str_eqb_refl in Et. discriminate.
Qed.
Print Assumptions C108_outcome.
(** An alteration on the way: if a ciphertext with the tag of a sent message is
    accepted under the same key, then header, body and plaintext are those of the
    sent message, or two different inputs of the tag function have the same tag. *)
Theorem C108_altered : forall E G (M : kem E) pk sid m w k w1 w2 iv ct tag sid' skid before v v' iv' ct' p, lawful E -> gcm_ok G -> 0 < len m < 2147483647 -> len (ct_uid (w_ct E w1)) < 2147483645 ->
  mget sid (pub_keys (w_store E w)) = Some (Some k) -> kem_encrypt E M pk (k_uid k) 256 (set_sym E w []) = (w1, Ok 0) -> len (w_sym E w1) = 32 ->
  pke_encrypt E G M pk sid m w = (w2, Ok 0) -> message (w_ct E w2) iv ct tag ->
  (forall u, kem_decrypt E M sid' skid 256 (set_sym E v []) <> (u, Throw (OpenABEError 0))) ->
  pke_decrypt E G M sid' skid before v = (v', Ok (0, p)) -> w_sym E v' = w_sym E w1 -> message (w_ct E v') iv' ct' tag ->
  header_bytes (w_ct E v') = header_bytes (w_ct E w2) /\ ct' = ct /\ p = m \/
  exists a b, a <> b /\ (let '(u, h, c) := a in mac G (w_sym E w1) u h c) = (let '(u, h, c) := b in mac G (w_sym E w1) u h c).
Proof.
  intros E G M pk sid m w k w1 w2 iv ct tag sid' skid before v v' iv' ct' p HE HG Hl Hu Hs Hk H32 He Hm Nz Hd Es Hm'. pose proof HG as [Hmac Hiv].
  assert (len (e_bytes E (w_off E w1) 16) = 16) as L16 by (apply (law_bytes E HE); lia).
  rewrite (encrypt_run E G M pk sid m w k w1 Hs (proj1 Hl) Hk) in He. rewrite ae_encrypt_exact in He; [|exact HG|exact H32|exact L16|lia|rewrite header_aad, header_len; lia|reflexivity]. rewrite header_aad in He. cbn [ae_set_aad ae_key new_auth_enc] in He.
  injection He as <-. destruct Hm as (M1 & M2 & M3). cbn [set_ct w_ct] in M1, M2, M3 |- *. unfold ct_set_component in M1, M2, M3. cbn [with_parts ct_parts] in M1, M2, M3. unfold set_component in M1, M2, M3.
  rewrite mget_mset_same in M3. injection M3 as <-. rewrite mget_mset_other, mget_mset_same in M2 by discriminate. injection M2 as <-. rewrite !mget_mset_other, mget_mset_same in M1 by discriminate. injection M1 as <-.
  destruct (C108_authentic E G M sid' skid before v v' p HG Nz Hd) as (i2 & c2 & t2 & _ & (A1 & A2 & A3) & _ & (u & U1 & U2 & U3)).
  destruct Hm' as (B1 & B2 & B3). rewrite B1 in A1. rewrite B2 in A2. rewrite B3 in A3. injection A1 as <-. injection A2 as <-. injection A3 as <-.
  rewrite Es, firstn_self in U2, U3 by (unfold len in H32; lia). change (header_bytes (set_ct E _ _).(w_ct E)) with (header_bytes (w_ct E w1)).
  set (iv := e_bytes E (w_off E w1) 16) in *. set (ct := crypt G (w_sym E w1) iv 0 m) in *.
  assert ({(u, header_bytes (w_ct E v'), ct') = (iv, header_bytes (w_ct E w1), ct)} + {(u, header_bytes (w_ct E v'), ct') <> (iv, header_bytes (w_ct E w1), ct)}) as [X|X] by (repeat decide equality).
  - left. pose proof (f_equal (fun x => fst (fst x)) X) as X1. pose proof (f_equal (fun x => snd (fst x)) X) as Hh. pose proof (f_equal snd X) as X3. cbn [fst snd] in X1, Hh, X3. subst u ct'. split; [exact Hh|]. split; [reflexivity|]. destruct U3 as [U3 U4]. apply nth_ext_eq. intro i.
    assert (length ct = length m) as Lc by apply crypt_length. destruct (nth_error m i) as [x|] eqn:Ex.
    + assert (nth_error ct i = Some (z2b (Z.lxor (b2z x) (b2z (ks G (w_sym E w1) iv i))))) as Y by (unfold ct; rewrite crypt_nth, Ex; reflexivity).
      rewrite (U4 i _ Y). f_equal. rewrite z2b_small by (apply lxor_byte_range; apply b2z_range). rewrite Z.lxor_assoc, Z.lxor_nilpotent, Z.lxor_0_r. apply z2b_b2z.
    + apply nth_error_None in Ex. apply nth_error_None. lia.
  - right. exists (u, header_bytes (w_ct E v'), ct'), (iv, header_bytes (w_ct E w1), ct). split; [exact X|]. congruence.
Qed.
Print Assumptions C108_altered.

(** C109.  Loading: the store changes only when 0 is returned, and then only under the
    given name, where a key of the scheme is that passed validation. *)
Theorem C109_load : forall E (M : kem E) c id blob w, kem_paired E M = true -> curve_tells (e_curve E) -> (forall k, tells (kem_valid E M c k)) ->
  match pke_load E M c id blob w with
  | (w', Ok e) => if e =? 0
      then exists k, kem_valid E M c k = Ok true /\ k_alg k = kem_alg E M /\ w_store E w' = add_key (w_store E w) id (Some k) c
      else w_store E w' = w_store E w
  | (w', _) => w_store E w' = w_store E w
  end.
Proof.
  intros E M c id blob w Hp HK Hv. unfold pke_load, catch_code. rewrite (andthen_ok E _ _ _ _ w (set_off E w (S (w_off E w))) (e_bytes E (w_off E w) 16)) by reflexivity.
  unfold andthen at 1, lift. pose proof (tells_construct (e_curve E) blob [] (e_bytes E (w_off E w) 16)) as Tc. destruct (construct_key _ blob [] _) as [[[k|] body]|[|x|]| | |] eqn:Ec; try reflexivity.
  - destruct (Z.eqb_spec (k_alg k) (kem_alg E M)) as [Ha|]; [|reflexivity]. cbn [negb]. rewrite Hp. cbn [negb]. pose proof (tells_key_load _ (e_mktime E) k body HK) as Tl. destruct (key_load _ _ k body) as [k' r] eqn:El. cbn [snd] in Tl.
    unfold andthen at 1. destruct r as [u|[|x|]| | |]; try reflexivity.
    + unfold andthen at 1. pose proof (Hv k') as V. destruct (kem_valid E M c k') as [[]|[|x|]| | |] eqn:Ev; try reflexivity.
      * unfold andthen, put_key, ret. cbn [Z.eqb]. exists k'. split; [exact Ev|]. split; [|reflexivity]. unfold key_load in El. destruct (deserialize _ _ _ _) in El. injection El as <- _. exact Ha.
      * destruct (Z.eqb_spec x 0) as [->|]; [destruct V; reflexivity|reflexivity].
    + destruct (Z.eqb_spec x 0) as [->|]; [destruct Tl; reflexivity|reflexivity].
  - destruct (Z.eqb_spec x 0) as [->|]; [destruct Tc; reflexivity|reflexivity].
Qed.
Print Assumptions C109_load.
(** A valid key that was exported is loaded, with the same content. *)
Theorem C109_transport : forall E (M : kem E) c id k w, kem_paired E M = true -> curve_ok (e_curve E) -> k_alg k = kem_alg E M -> msorted (k_parts k) -> all_portable _ (e_mktime E) (k_parts k) -> k_parts k <> [] ->
  (forall body, serialize (k_parts k) [] = Ok body -> len body < 2^32) -> 0 <= k_version k <= 170 -> known_scheme (k_alg k) -> len (k_uid k) = 16 -> len (k_id k) < 2^31 ->
  (forall k', k_alg k' = k_alg k -> k_uid k' = k_uid k -> k_id k' = k_id k -> same_content (k_parts k) (k_parts k') -> kem_valid E M c k' = Ok true) ->
  exists blob k' w', key_export k = Ok blob /\ pke_load E M c id blob w = (w', Ok 0) /\ w_store E w' = add_key (w_store E w) id (Some k') c /\
    k_alg k' = k_alg k /\ k_uid k' = k_uid k /\ k_id k' = k_id k /\ same_content (k_parts k) (k_parts k').
Proof.
  intros E M c id k w Hp HK Ha So Po Ne Sz V A U Li Hv.
  destruct (C43_key_roundtrip _ (e_mktime E) k [] (e_bytes E (w_off E w) 16) HK So Po Ne Sz V A U Li) as (blob & k0 & body & k' & Eb & Eh & El & C1 & C2 & C3 & _ & C4).
  unfold parse_key_header in Eh. destruct (construct_key _ blob [] _) as [[[k1|] b1]|x| | |] eqn:Ec; try discriminate. cbn [bind] in Eh. injection Eh as -> ->.
  exists blob, k'. eexists. split; [exact Eb|]. split; cycle 1. { split; [|auto]. instantiate (1 := set_store E (set_off E w (S (w_off E w))) (add_key (w_store E w) id (Some k') c)). reflexivity. } unfold pke_load, catch_code. rewrite (andthen_ok E _ _ _ _ w (set_off E w (S (w_off E w))) (e_bytes E (w_off E w) 16)) by reflexivity.
  unfold andthen at 1, lift. rewrite Ec. assert (k_alg k0 = k_alg k) as A0. { unfold key_load in El. destruct (deserialize _ _ _ _) in El. injection El as <- _. exact C1. }
  rewrite A0, Ha, Z.eqb_refl, Hp, El. cbn [negb]. unfold andthen at 1. unfold andthen at 1. rewrite (Hv k' C1 C2 C3 C4). reflexivity.
Qed.
Print Assumptions C109_transport.
(** Nothing in the class creates the pairing it dereferences: unless the subclass did,
    every blob with a header of the scheme crashes the process. *)
Theorem C109_no_pairing : forall E (M : kem E) c id blob w k body, kem_paired E M = false ->
  construct_key (e_curve E) blob [] (e_bytes E (w_off E w) 16) = Ok (Some k, body) -> k_alg k = kem_alg E M -> snd (pke_load E M c id blob w) = UB.
Proof.
  intros E M c id blob w k body Hp Hc Ha. unfold pke_load, catch_code. rewrite (andthen_ok E _ _ _ _ w (set_off E w (S (w_off E w))) (e_bytes E (w_off E w) 16)) by reflexivity.
  unfold andthen at 1, lift. rewrite Hc, Ha, Z.eqb_refl, Hp. reflexivity.
Qed.
Print Assumptions C109_no_pairing.

(** ** One-pass Diffie-Hellman as the encapsulation *)
Lemma tells_hashes : forall hash set inc step n c buf off mem, tells (hash_loop hash set inc step n c buf off mem).
Proof. induction n as [|n IH]; intros; cbn [hash_loop]; [discriminate|]. apply tells_bind; [unfold write_at; tell|]. intro. apply IH. Qed.
Lemma tells_derive : forall hash hp hl mx z bits md, tells (derive_key hash hp hl mx z bits md).
Proof. intros. unfold derive_key, ceil_div, vla. tell. apply tells_hashes. Qed.
Lemma derive_stays : forall E p bits a b w, opdh_derive E p bits a b w =
  match derive_key (e_hash E) 43 256 4294967295 (obj_serialize [] (OG1 p)) bits (insert_first_byte [] PK_OPDH ++ a ++ b) with
  | Ok key => if negb (len key =? 16) && negb (len key =? 32) then (w, Throw (OpenABEError 24)) else (set_sym E w key, Ok tt)
  | Throw e => (w, Throw e) | UB => (w, UB) | Exit => (w, Exit) | NoFuel => (w, NoFuel) end.
Proof. intros. unfold opdh_derive, andthen, lift. destruct (derive_key _ _ _ _ _ _ _); try reflexivity. destruct (_ && _); reflexivity. Qed.
(** The two sides agree when the receiver's keys are a pair and both know the sender
    by the same identifier. *)
Theorem C107_diffie_hellman : forall E g b pk sid skid uid w w1 v k k' d a, lawful E ->
  mget pk (pub_keys (w_store E w)) = Some (Some k) -> mget (L "A") (k_parts k) = Some (Some (OG1 (mul1 E (zv a) g))) -> kem_encrypt E (opdh E g b) pk uid 256 w = (w1, Ok 0) ->
  mget sid (pub_keys (w_store E v)) = Some (Some k') -> k_uid k' = uid ->
  mget skid (sec_keys (w_store E v)) = Some (Some d) -> k_uid d = k_uid k -> mget (L "a") (k_parts d) = Some (Some (OZp a)) ->
  agrees E (opdh E g b) sid skid w1 v.
Proof.
  intros E g b pk sid skid uid w w1 v k k' d a HE Hk HA Henc Hk' Hu Hd Hu' Ha. cbn [opdh kem_encrypt] in Henc. unfold opdh_encrypt in Henc. apply catch_zero in Henc.
  set (e := {| zv := e_zp E (w_off E w) mod order (e_curve E); zord := Some (order (e_curve E)) |}) in *.
  set (r := derive_key (e_hash E) 43 256 4294967295 (obj_serialize [] (OG1 (mul1 E (zv e) (mul1 E (zv a) g)))) 256 (insert_first_byte [] PK_OPDH ++ uid ++ k_uid k)).
  assert (exists key, r = Ok key /\ negb (len key =? 16) && negb (len key =? 32) = false /\
    w1 = set_ct E (set_sym E (set_ct E (set_off E w (S (w_off E w))) (ct_set_component (w_ct E w) (L "C") (OG1 (mul1 E (zv e) g)))) key)
      {| ct_version := ct_version (w_ct E w); ct_alg := PK_OPDH; ct_uid := ct_uid (w_ct E w); ct_parts := set_component (ct_parts (w_ct E w)) (L "C") (OG1 (mul1 E (zv e) g)) |}) as (key & Er & Ek & ->).
  { rewrite (andthen_ok E _ _ _ _ _ _ _ (public_ok E pk k w Hk)) in Henc. rewrite (andthen_ok E _ _ _ _ w (set_off E w (S (w_off E w))) e) in Henc by reflexivity.
    set (w2 := set_ct E (set_off E w (S (w_off E w))) (ct_set_component (w_ct E w) (L "C") (OG1 (mul1 E (zv e) g)))) in *.
    rewrite (andthen_ok E _ _ _ _ (set_off E w (S (w_off E w))) w2 tt) in Henc by reflexivity.
    rewrite (andthen_ok E _ _ _ _ _ _ _ (key_part_ok E _ (as_g1 E) KEY_PUBLIC pk (L "A") k _ w2 Hk HA)) in Henc. cbn [as_g1] in Henc.
    rewrite (andthen_ok E _ _ _ _ w2 w2 (mul1 E (zv a) g)) in Henc by reflexivity. unfold andthen at 1 in Henc. unfold andthen at 2 in Henc. rewrite derive_stays in Henc. fold r in Henc.
    destruct r as [key|x| | |] eqn:Er; [|exfalso..]; [|destruct Henc as [X|X]; [discriminate X|]|destruct Henc as [X|X]; discriminate X..].
    - exists key. split; [reflexivity|]. destruct (negb (len key =? 16) && negb (len key =? 32)); [destruct Henc as [X|X]; discriminate X|]. split; [reflexivity|].
      destruct Henc as [X|X]; [|discriminate X]. injection X as <-. reflexivity.
    - injection X as _ ->. exact (tells_derive _ _ _ _ _ _ _ Er). }
  intros c' Hc. cbn [set_ct w_ct set_sym set_off w_sym] in *.
  assert (mget (L "C") (ct_parts c') = Some (Some (OG1 (mul1 E (zv e) g)))) as HC.
  { destruct Hc as (_ & _ & _ & X). destruct (X (L "C") (OG1 (mul1 E (zv e) g))) as (o & O1 & O2); [intro Y; cbn in Y; repeat destruct Y as [Y|Y]; try discriminate Y; exact Y|cbn [ct_parts]; unfold set_component; apply mget_mset_same|].
    destruct O2 as [->|O2]; [exact O1|]. destruct o; cbn in O2; try contradiction. subst. exact O1. }
  set (v0 := set_sym E (set_ct E v c') []). exists (set_sym E v0 key). split; [|split; [reflexivity|]].
  - cbn [opdh kem_decrypt]. unfold opdh_decrypt, catch_code. rewrite (andthen_ok E _ _ _ _ _ _ _ (public_ok E sid k' v0 Hk')). rewrite (andthen_ok E _ _ _ _ _ _ _ (secret_ok E skid d v0 Hd)).
    rewrite (andthen_ok E _ _ _ _ _ _ _ (ct_part_ok E _ (as_g1 E) (L "C") _ v0 HC)). cbn [as_g1]. rewrite (andthen_ok E _ _ _ _ v0 v0 (mul1 E (zv e) g)) by reflexivity.
    rewrite (andthen_ok E _ _ _ _ _ _ _ (key_part_ok E _ (as_zp E) KEY_SECRET skid (L "a") d _ v0 Hd Ha)). cbn [as_zp]. rewrite (andthen_ok E _ _ _ _ v0 v0 a) by reflexivity.
    unfold andthen. rewrite derive_stays, Hu, Hu', (law_mul1_mul E HE), Z.mul_comm, <- (law_mul1_mul E HE). fold r. rewrite Er, Ek. reflexivity.
  - split; [reflexivity|]. split; [reflexivity|]. split; [reflexivity|]. intros name o _ X. exists o. auto.
Qed.
Print Assumptions C107_diffie_hellman.

(** Key generation leaves a pair. *)
Lemma opdh_pair : forall E g b id pk sk w, exists k d a, let w' := fst (pke_keygen E (opdh E g b) id pk sk w) in
  snd (pke_keygen E (opdh E g b) id pk sk w) = Ok 0 /\ pub_keys (w_store E w') = mset pk (Some k) (pub_keys (w_store E w)) /\ sec_keys (w_store E w') = mset sk (Some d) (sec_keys (w_store E w)) /\
  mget (L "A") (k_parts k) = Some (Some (OG1 (mul1 E (zv a) g))) /\ mget (L "a") (k_parts d) = Some (Some (OZp a)) /\ k_uid d = k_uid k.
Proof. intros. eexists _, _, _. cbv zeta. repeat split; reflexivity. Qed.

(** Alice writes to Bob; their keys are in one store; the ciphertext travels as bytes.
    A flipped bit of the body or of the header is noticed.  Keys travel too. *)
Section Play.
Notation E := toy_engine.
Definition pke_g := map1 E (L "generator").
Definition pke_M := opdh E pke_g true.
Notation M := pke_M.
Definition pke_w0 : world E := start E ({| pub_keys := []; sec_keys := [] |}, 0%nat) (new_ciphertext _).
Definition pke_w1 := fst (pke_keygen E M (L "alice") (L "alice") (L "alice") pke_w0).
Definition pke_w2 := fst (pke_keygen E M (L "bob") (L "bob") (L "bob") pke_w1).
Definition pke_w3 := fst (pke_encrypt E SymSpec.toy M (L "bob") (L "alice") (L "hello") pke_w2).
Definition changed (f : str -> str) (n : str) (w : world E) : world E :=
  match mget n (ct_parts (w_ct E w)) with Some (Some (OBytes b)) => set_ct E w (ct_set_component (w_ct E w) n (OBytes (f b))) | _ => w end.
Definition flip (b : str) : str := match b with [] => [] | c :: r => z2b (Z.lxor (b2z c) 1) :: r end.
Definition sender_uid : str := match mget (L "alice") (pub_keys (w_store E pke_w2)) with Some (Some k) => k_uid k | _ => [] end.
(** All hypotheses of the round trip and of the agreement. *)
Example C107_nonvacuous : exists k we, mget (L "alice") (pub_keys (w_store E pke_w2)) = Some (Some k) /\
  kem_encrypt E M (L "bob") (k_uid k) 256 (set_sym E pke_w2 []) = (we, Ok 0) /\ len (w_sym E we) = 32 /\ len (ct_uid (w_ct E we)) = 16 /\
  agrees E M (L "alice") (L "bob") we pke_w2.
Proof.
  destruct (opdh_pair E pke_g true (L "alice") (L "alice") (L "alice") pke_w0) as (k1 & d1 & a1 & _ & P1 & _ & _ & _ & _).
  destruct (opdh_pair E pke_g true (L "bob") (L "bob") (L "bob") pke_w1) as (k2 & d2 & a2 & _ & P2 & S2 & A2 & B2 & U2). fold pke_M pke_w1 in P1. fold pke_M pke_w2 in P2, S2. rewrite P1 in P2.
  assert (mget (L "alice") (pub_keys (w_store E pke_w2)) = Some (Some k1)) as K1 by (rewrite P2, mget_mset_other, mget_mset_same by discriminate; reflexivity).
  assert (sender_uid = k_uid k1) as Us by (unfold sender_uid; rewrite K1; reflexivity).
  assert (snd (kem_encrypt E M (L "bob") sender_uid 256 (set_sym E pke_w2 [])) = Ok 0) as X1 by (vm_compute; reflexivity).
  assert (len (w_sym E (fst (kem_encrypt E M (L "bob") sender_uid 256 (set_sym E pke_w2 [])))) = 32) as X2 by (vm_compute; reflexivity).
  assert (len (ct_uid (w_ct E (fst (kem_encrypt E M (L "bob") sender_uid 256 (set_sym E pke_w2 []))))) = 16) as X3 by (vm_compute; reflexivity).
  rewrite Us in X1, X2, X3. destruct (kem_encrypt E M (L "bob") (k_uid k1) 256 (set_sym E pke_w2 [])) as [we r] eqn:Ek. cbn [fst snd] in X1, X2, X3. subst r.
  exists k1, we. split; [exact K1|]. split; [exact Ek|]. split; [exact X2|]. split; [exact X3|].
  eapply (C107_diffie_hellman E pke_g true (L "bob") (L "alice") (L "bob") (k_uid k1) (set_sym E pke_w2 []) we pke_w2 k2 k1 d2 a2 toy_lawful); try assumption; [| |].
  - cbn [set_sym w_store]. rewrite P2. apply mget_mset_same.
  - reflexivity.
  - rewrite S2. apply mget_mset_same.
Qed.
Example C107_by_bytes_nonvacuous : snd (pke_encrypt E SymSpec.toy M (L "bob") (L "alice") (L "hello") pke_w2) = Ok 0 /\
  match ct_export (w_ct E pke_w3) with
  | Ok blob => let '(c', r) := ct_load _ (e_mktime E) (new_ciphertext _) blob in
      r = Ok tt /\ snd (pke_decrypt E SymSpec.toy M (L "alice") (L "bob") [] (set_ct E pke_w2 c')) = Ok (0, L "hello")
  | _ => False end.
Proof. split; [vm_compute; reflexivity|]. vm_compute. split; reflexivity. Qed.
Example C108_nonvacuous :
  snd (pke_decrypt E SymSpec.toy M (L "alice") (L "bob") (L "old") pke_w3) = Ok (0, L "hello") /\
  snd (pke_decrypt E SymSpec.toy M (L "alice") (L "bob") (L "old") (changed flip (L "CT") pke_w3)) = Ok (32, L "old") /\
  snd (pke_decrypt E SymSpec.toy M (L "alice") (L "bob") (L "old") (changed flip (L "IV") pke_w3)) = Ok (32, L "old") /\
  snd (pke_decrypt E SymSpec.toy M (L "alice") (L "bob") (L "old") (changed (firstn 8) (L "Tag") pke_w3)) = Ok (61, L "old") /\
  snd (pke_decrypt E SymSpec.toy M (L "alice") (L "bob") (L "old") (fst (set_scheme E 71 pke_w3))) = Ok (32, L "old") /\
  snd (pke_decrypt E SymSpec.toy M (L "bob") (L "bob") (L "old") pke_w3) = Ok (32, L "old").
Proof. repeat split; vm_compute; reflexivity. Qed.
Definition bobs_blob : str := match mget (L "bob") (pub_keys (w_store E pke_w2)) with Some (Some k) => match key_export k with Ok b => b | _ => [] end | _ => [] end.
Example C109_nonvacuous :
  snd (pke_load E M KEY_PUBLIC (L "robert") bobs_blob pke_w0) = Ok 0 /\ mkeys (pub_keys (w_store E (fst (pke_load E M KEY_PUBLIC (L "robert") bobs_blob pke_w0)))) = [L "robert"] /\
  snd (pke_load E M KEY_SECRET (L "robert") bobs_blob pke_w0) = Ok 18 /\ snd (pke_load E (opdh E pke_g false) KEY_PUBLIC (L "robert") bobs_blob pke_w0) = UB /\ snd (pke_load E M KEY_PUBLIC (L "robert") [] pke_w0) = Ok 8 /\
  curve_tells (e_curve E) /\ forall c k, tells (kem_valid E M c k).
Proof.
  do 5 (split; [vm_compute; reflexivity|]). split.
  - assert (forall b, tells (f_in b)) as F by (intro b; unfold f_in; tell). split; [|split]; exact F.
  - intros c k. cbn [pke_M opdh kem_valid]. unfold opdh_valid, get_component, index. destruct c; destruct (mget _ (k_parts k)) as [[[]|]|]; discriminate.
Qed.
Theorem C109_no_pairing_refuted : exists E (M : kem E) c id blob w, lawful E /\ curve_ok (e_curve E) /\ curve_safe (e_curve E) /\ snd (pke_load E M c id blob w) = UB.
Proof. exists E, (opdh E pke_g false), KEY_PUBLIC, (L "robert"), bobs_blob, pke_w0. split; [exact toy_lawful|]. split; [exact toy_curve_ok|]. split; [exact toy_curve_safe|]. vm_compute. reflexivity. Qed.
Print Assumptions C109_no_pairing_refuted.
End Play.
