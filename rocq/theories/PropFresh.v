(** C106: random choices are never used twice. *)
From Verif Require Import Base StrMap ByteString ByteStringProofs UInteger Field Policy Driver Parser AttrList Utils Kdf Lsss Container ContainerProofs Keystore Scheme SchemeSpec SchemeStep FreshSpec FreshProofs PropContainer PropUtil SchemeToy PropScheme PlainSpec PropPlain.
From Coq Require Import ZArith List Ascii Bool Lia.
Import ListNotations.
Open Scope Z_scope.

Section Inv.
Context (E : engine).
Notation K := (e_curve E).
Notation code := (code E).
Definition its_coins : coins K := {| c_zp := e_zp E; c_g1 := e_g1 E; c_g2 := e_g2 E; c_bytes := e_bytes E |}.
Lemma forward : forall A (m : code A) m', own_coins E its_coins m m' -> forall w, (w_off E w <= w_off E (fst (m w)))%nat.
Proof. intros A m m' H [s off ct sym]. exact (proj1 (H s off ct sym)). Qed.

Lemma then_inv : forall A B (m : code A) (f : A -> code B) w w' b, andthen E m f w = (w', Ok b) -> exists a w1, m w = (w1, Ok a) /\ f a w1 = (w', Ok b).
Proof. intros A B m f w w' b H. unfold andthen in H. destruct (m w) as [w1 [a|e| | |]]; try discriminate. exists a, w1. auto. Qed.
Lemma public_inv : forall id w w' v, public_key E id w = (w', Ok (Some v)) -> w' = w /\ mget id (pub_keys (w_store E w)) = Some (Some v).
Proof.
  intros id w w' v H. unfold public_key, get_public_key, index in H. destruct (mget id (pub_keys (w_store E w))) as [o|] eqn:Eo; [|discriminate]. injection H as <- ->.
  split; [destruct w as [[] ? ? ?]; reflexivity|reflexivity].
Qed.
Lemma secret_inv : forall id w w' v, secret_key E id w = (w', Ok (Some v)) -> w' = w /\ mget id (sec_keys (w_store E w)) = Some (Some v).
Proof.
  intros id w w' v H. unfold secret_key, get_secret_key, index in H. destruct (mget id (sec_keys (w_store E w))) as [o|] eqn:Eo; [|discriminate]. injection H as <- ->.
  split; [destruct w as [[] ? ? ?]; reflexivity|reflexivity].
Qed.
Lemma key_part_inv : forall A (cast : zobj K -> option A) cl id name w w' o, key_part E cast cl id name w = (w', Ok o) ->
  w' = w /\ exists k ob, mget id (class_map E cl (w_store E w)) = Some (Some k) /\ at_name (k_parts k) name ob /\ o = cast ob.
Proof.
  intros A cast cl id name w w' o H. apply then_inv in H. destruct H as (ob & w1 & H & R). injection R as <- <-. unfold key_component in H.
  destruct (mget id (class_map E cl (w_store E w))) as [[k|]|] eqn:Ek; try discriminate.
  destruct (mget name (k_parts k)) as [[v|]|] eqn:En; [rewrite (get_present _ _ _ _ En) in H|rewrite (get_null _ _ _ En) in H; discriminate|rewrite (get_missing _ _ _ En) in H; discriminate].
  injection H as <- <-. split; [|exists k, v; auto].
  assert (with_key_parts E k (k_parts k) = k) as -> by (destruct k; reflexivity).
  destruct w as [[p s] ? ? ?]. unfold set_store. cbn in *. destruct cl; cbn in *; rewrite put_object_same by exact Ek; reflexivity.
Qed.
Lemma deref_inv : forall A (o : option A) w w' a, deref E o w = (w', Ok a) -> w' = w /\ o = Some a.
Proof. intros A [x|] w w' a H; [injection H as <- <-; auto|discriminate]. Qed.
Lemma zp_inv : forall w w' z, random_zp E w = (w', Ok z) -> w' = set_off E w (S (w_off E w)) /\ zv z = e_zp E (w_off E w) mod order K.
Proof. intros w w' z H. injection H as <- <-. auto. Qed.

(** Code that keeps a component of the ciphertext. *)
Definition keeps_part {A} (name : str) (m : code A) : Prop := forall w, mget name (ct_parts (w_ct E (fst (m w)))) = mget name (ct_parts (w_ct E w)).
Lemma keeps_then : forall A B name (m : code A) (f : A -> code B), keeps_part name m -> (forall a, keeps_part name (f a)) -> keeps_part name (andthen E m f).
Proof. intros A B name m f Hm Hf w. unfold andthen. specialize (Hm w). destruct (m w) as [w1 [a|e| | |]]; cbn in *; try exact Hm. rewrite Hf. exact Hm. Qed.
Lemma keeps_key_part : forall A name (cast : zobj K -> option A) cl id n, keeps_part name (key_part E cast cl id n).
Proof.
  intros. apply keeps_then; [|intros a w; reflexivity]. intro w. unfold key_component. destruct (mget id _) as [[k|]|]; try reflexivity. destruct (get_component _ _). reflexivity.
Qed.
Lemma keeps_deref : forall A name (o : option A), keeps_part name (deref E o).
Proof. intros A name [a|] w; reflexivity. Qed.
Lemma keeps_set : forall name n o, name <> n -> keeps_part name (set_part E n o).
Proof. intros name n o N w. cbn. unfold set_component. apply mget_mset_other. exact N. Qed.
Lemma keeps_sym : forall name x n, keeps_part name (hash_to_sym E x n).
Proof. intros. unfold hash_to_sym. apply keeps_then; [intro; reflexivity|]. intro k. destruct (negb _ && negb _); intro; reflexivity. Qed.
Ltac keep := repeat first [apply keeps_key_part | apply keeps_deref | apply keeps_then; [|intro] | apply keeps_deref | apply keeps_sym
  | apply keeps_set; (let X := fresh in intro X; unfold element_label in X; discriminate X) | (intro; reflexivity)].
Lemma keeps_cp_loop : forall mpk k rows, keeps_part (L "Cprime") (cp_enc_loop E mpk k rows).
Proof. intros mpk k rows. induction rows as [|[u [lab e]] rows IH]; cbn [cp_enc_loop]; keep. exact IH. Qed.
Lemma keeps_kp_loop : forall k t attrs, keeps_part (L "Cpr2") (kp_enc_loop E k t attrs).
Proof. intros k t attrs. induction attrs as [|a l IH]; cbn [kp_enc_loop]; keep. exact IH. Qed.
Lemma share_inv : forall q s w w' rows, share E q s w = (w', Ok rows) -> exists off, w' = set_off E w off /\ (w_off E w <= off)%nat.
Proof.
  intros q s w w' rows H. unfold share in H. destruct (share_secret _ _ _ _ _ _ _) as [[o off]| | | |] eqn:Es; try discriminate. injection H as <- _. exists off. split; [reflexivity|exact (share_forward _ _ _ _ _ _ _ Es)].
Qed.

(** Code that does not throw the number 0. *)
Definition nz {A} (m : code A) : Prop := forall w w', m w <> (w', Throw (OpenABEError 0)).
Lemma nz_then : forall A B (m : code A) (f : A -> code B), nz m -> (forall a, nz (f a)) -> nz (andthen E m f).
Proof. intros A B m f Hm Hf w w' H. unfold andthen in H. destruct (m w) as [w1 [a|e| | |]] eqn:Em; try discriminate; [exact (Hf a _ _ H)|]. injection H as <- ->. exact (Hm _ _ Em). Qed.
Lemma nz_key_part : forall A (cast : zobj K -> option A) cl id n, nz (key_part E cast cl id n).
Proof.
  intros. apply nz_then; [|intros a w w'; discriminate]. intros w w'. unfold key_component. destruct (mget id _) as [[k|]|]; try discriminate.
  destruct (mget n (k_parts k)) as [[v|]|] eqn:En; [rewrite (get_present _ _ _ _ En)|rewrite (get_null _ _ _ En)|rewrite (get_missing _ _ _ En)]; discriminate.
Qed.
Lemma nz_deref : forall A (o : option A), nz (deref E o).
Proof. intros A [a|] w w'; discriminate. Qed.
Lemma nz_sym : forall x n, nz (hash_to_sym E x n).
Proof.
  intros x n. unfold hash_to_sym, compute_kdf2. apply nz_then.
  - intros w w'. unfold lift. destruct (negb _); [discriminate|]. destruct (negb _); discriminate.
  - intro k. destruct (negb _ && negb _); intros w w'; discriminate.
Qed.
Lemma loop_nz : forall p cnt t fuel stack off rows e, share_loop false p cnt t fuel stack off rows <> Throw e.
Proof.
  intros p cnt t fuel. induction fuel as [|f IH]; intros [|[n s] rest] off rows e; cbn [share_loop]; try discriminate.
  destruct (ntype n); first [apply IH|destruct (threshold_value n =? 0); [discriminate|apply IH]].
Qed.
Lemma nz_share : forall q s, nz (share E q s).
Proof.
  intros q s w w' H. unfold share, share_secret in H. destruct (proot q) as [r|]; [|discriminate].
  destruct (share_loop _ _ _ _ _ _ _ _) as [[rows n]|e| | |] eqn:El; try discriminate. exact (loop_nz _ _ _ _ _ _ _ _ El).
Qed.
Lemma nz_neg : forall z, nz (lift E (zp_neg z)).
Proof. intros z w w'. unfold lift, zp_neg. destruct (zord z); discriminate. Qed.
Lemma nz_public : forall id, nz (public_key E id).
Proof. intros id w w'. unfold public_key. destruct (get_public_key _ _). discriminate. Qed.
Lemma nz_secret : forall id, nz (secret_key E id).
Proof. intros id w w'. unfold secret_key. destruct (get_secret_key _ _). discriminate. Qed.
Ltac nzs := repeat first [apply nz_key_part | apply nz_deref | apply nz_sym | apply nz_share | apply nz_neg | apply nz_public | apply nz_secret | apply nz_then; [|intro]
  | match goal with |- nz (match ?x with Some _ => _ | None => _ end) => destruct x end | (intros w w'; discriminate)].
Lemma nz_cp_enc_loop : forall mpk k rows, nz (cp_enc_loop E mpk k rows).
Proof. intros mpk k rows. induction rows as [|[u [lab e]] rows IH]; cbn [cp_enc_loop]; nzs. exact IH. Qed.
Lemma nz_kp_enc_loop : forall k t attrs, nz (kp_enc_loop E k t attrs).
Proof. intros k t attrs. induction attrs as [|a l IH]; cbn [kp_enc_loop]; nzs. exact IH. Qed.
Lemma nz_cp_key_loop : forall k t attrs dec, nz (cp_key_loop E k t attrs dec).
Proof. intros k t attrs. induction attrs as [|a l IH]; intro dec; cbn [cp_key_loop]; nzs. apply IH. Qed.
Lemma nz_kp_key_loop : forall mpk k rows dec, nz (kp_key_loop E mpk k rows dec).
Proof. intros mpk k rows. induction rows as [|[u [lab e]] rows IH]; intro dec; cbn [kp_key_loop]; nzs. apply IH. Qed.
Lemma catch_inv : forall m w w', nz m -> catch_code E m w = (w', Ok 0) -> m w = (w', Ok 0).
Proof.
  intros m w w' N H. unfold catch_code in H. destruct (m w) as [w1 [|[]| | |]] eqn:Em; try discriminate; injection H as -> ->; [reflexivity|]. destruct (N _ _ Em).
Qed.
End Inv.
Ltac nzs := repeat first [apply nz_key_part | apply nz_deref | apply nz_sym | apply nz_share | apply nz_neg | apply nz_public | apply nz_secret
  | apply nz_cp_enc_loop | apply nz_kp_enc_loop | apply nz_cp_key_loop | apply nz_kp_key_loop | apply nz_then; [|intro]
  | match goal with |- nz _ (match ?x with Some _ => _ | None => _ end) => destruct x end | (let w := fresh in let w' := fresh in intros w w'; discriminate)].
Ltac go H := let a := fresh "v" in let w := fresh "w" in let R := fresh "R" in apply then_inv in H; destruct H as (a & w & R & H).

Section Seal.
Context (E : engine) (HE : lawful E).
Notation K := (e_curve E).
Ltac part_of H Hk k P := apply key_part_inv in H; let K1 := fresh "K1" in destruct H as [-> (k & ? & K1 & P & ->)]; cbn [set_off set_ct w_store class_map] in K1; rewrite Hk in K1; injection K1 as <-.
Ltac value H x := apply deref_inv in H; let V := fresh "V" in destruct H as [-> V]; match type of V with _ ?o = Some _ => destruct o as [x|x|x|x|x|x|x|x] || destruct o as [x|x|x|x|x|x|x] || destruct o as [x|x|x|x|x|x]; try discriminate V; injection V as <- end.
Lemma kem_seals : forall sch mpk inp w w', encrypt_kem E sch mpk inp 32 w = (w', Ok 0) ->
  exists kp, mget mpk (pub_keys (w_store E w)) = Some (Some kp) /\ (w_off E w < w_off E w')%nat /\
    sealed_with E sch (k_parts kp) (e_zp E (w_off E w) mod order K) (ct_parts (w_ct E w')) (w_sym E w').
Proof.
  intros [] mpk inp w w' H; cbn [encrypt_kem] in H; [unfold cp_encrypt_kem in H|unfold kp_encrypt_kem in H]; (apply catch_inv in H; [|destruct inp; nzs]); destruct inp as [q|l|]; try discriminate.
  - go H. destruct v as [kp|]; [|discriminate]. apply public_inv in R. destruct R as [-> Hk]. exists kp. split; [exact Hk|].
    go H. apply key_part_inv in R. destruct R as [-> _]. go H. apply zp_inv in R. destruct R as [-> Hz].
    go H. part_of R Hk k1 PA. go H. value R A.
    go H. apply share_inv in R. destruct R as (off & -> & Ho). cbn [set_off w_off] in Ho.
    go H. injection R as <- _.
    go H. part_of R Hk k2 PG. go H. value R g. go H. injection R as <- _.
    go H. pose proof (keeps_cp_loop E mpk v v1) as KL. match type of R with cp_enc_loop _ _ _ _ ?x = _ => set (wa := x) in * end.
    pose proof (forward E _ _ _ (own_cp_enc_loop E (its_coins E) mpk v v1) wa) as F1. specialize (KL wa). rewrite R in F1, KL. cbn [fst] in F1, KL.
    go H. rewrite hash_to_sym_ok in R0 by exact HE. injection R0 as <- _. go H. injection R0 as <- _. injection H as <-.
    split; [unfold wa in F1; cbn in F1 |- *; lia|]. cbn [sealed_with]. exists g, A. split; [exact PG|]. split; [exact PA|].
    rewrite Hz. split; [|reflexivity]. unfold at_name. cbn [set_ct set_sym w_ct ct_parts]. rewrite KL. unfold wa. cbn. unfold set_component. rewrite mget_mset_same. rewrite Hz. reflexivity.
  - go H. destruct v as [kp|]; [|discriminate]. apply public_inv in R. destruct R as [-> Hk]. exists kp. split; [exact Hk|].
    go H. apply key_part_inv in R. destruct R as [-> _]. go H. apply zp_inv in R. destruct R as [-> Hz].
    go H. part_of R Hk k1 PA. go H. value R Y.
    go H. part_of R Hk k2 PG. go H. value R g. go H. injection R as <- _.
    go H. match type of R with kp_enc_loop _ _ _ _ ?x = _ => set (wa := x) in * end.
    pose proof (keeps_kp_loop E v v0 (aattrs l) wa) as KL. pose proof (forward E _ _ _ (own_kp_enc_loop E (its_coins E) v v0 (aattrs l)) wa) as F1. rewrite R in F1, KL. cbn [fst] in F1, KL.
    go H. injection R0 as <- _. go H. rewrite hash_to_sym_ok in R0 by exact HE. injection R0 as <- _. go H. injection R0 as <- _. injection H as <-.
    split; [unfold wa in F1; cbn in F1 |- *; lia|]. cbn [sealed_with]. exists g, Y. split; [exact PG|]. split; [exact PA|].
    rewrite Hz. split; [|reflexivity]. unfold at_name. cbn [set_ct set_sym w_ct ct_parts ct_set_component]. unfold set_component. rewrite mget_mset_other by discriminate. rewrite KL. unfold wa. cbn. unfold set_component. rewrite mget_mset_same. rewrite Hz. reflexivity.
Qed.

(** * User keys *)
Definition placed (public : container K) (lo hi : nat) (pos : str -> nat) (user : container K) : Prop :=
  (forall n o, at_name user (L "d_" ++ n) o -> (lo <= pos (L "d_" ++ n) < hi)%nat /\ exists g, at_name public (L "g2") (OG2 g) /\ o = OG2 (mul2 E (e_zp E (pos (L "d_" ++ n)) mod order K) g)) /\
  forall n n' o o', at_name user (L "d_" ++ n) o -> at_name user (L "d_" ++ n') o' -> pos (L "d_" ++ n) = pos (L "d_" ++ n') -> n = n'.
Lemma placed_step : forall public lo hi pos user u o1 g, (lo <= hi)%nat -> at_name public (L "g2") (OG2 g) -> placed public lo hi pos user ->
  exists pos', placed public lo (S hi) pos' (set_component (set_component user (element_label (L "D") u) o1) (element_label (L "d") u) (OG2 (mul2 E (e_zp E hi mod order K) g))).
Proof.
  intros public lo hi pos user u o1 g Hlo Hg [P1 P2]. exists (fun n => if str_eqb n (L "d_" ++ u) then hi else pos n).
  assert (forall n o, at_name (set_component (set_component user (element_label (L "D") u) o1) (element_label (L "d") u) (OG2 (mul2 E (e_zp E hi mod order K) g))) (L "d_" ++ n) o ->
    (n = u /\ o = OG2 (mul2 E (e_zp E hi mod order K) g) /\ str_eqb (L "d_" ++ n) (L "d_" ++ u) = true) \/ (n <> u /\ at_name user (L "d_" ++ n) o /\ str_eqb (L "d_" ++ n) (L "d_" ++ u) = false)) as C.
  { intros n o H. unfold at_name, set_component in H. change (element_label (L "d") u) with (L "d_" ++ u) in H. destruct (str_eq_dec n u) as [->|N].
    - rewrite mget_mset_same in H. injection H as <-. left. rewrite str_eqb_refl. auto.
    - assert (L "d_" ++ n <> L "d_" ++ u) as N' by (intro X; apply app_inv_head in X; contradiction).
      rewrite mget_mset_other in H by exact N'. rewrite mget_mset_other in H by discriminate. right. split; [exact N|]. split; [exact H|]. destruct (str_eqb _ _) eqn:X; [apply str_eqb_eq in X; contradiction|reflexivity]. }
  split.
  - intros n o H. destruct (C n o H) as [(-> & -> & ->)|(N & A & ->)]; [split; [lia|]; exists g; auto|]. destruct (P1 n o A) as [R G]. split; [lia|exact G].
  - intros n n' o o' H H' X. destruct (C n o H) as [(-> & -> & Y)|(N & A & Y)], (C n' o' H') as [(-> & -> & Y')|(N' & A' & Y')]; rewrite ?Y, ?Y' in X; [reflexivity|..].
    + destruct (P1 n' o' A'). lia.
    + destruct (P1 n o A). lia.
    + exact (P2 n n' o o' A A' X).
Qed.
Lemma kp_loop_placed : forall mpk k kp lo rows dec pos w w' dec', mget mpk (pub_keys (w_store E w)) = Some (Some kp) -> (lo <= w_off E w)%nat ->
  placed (k_parts kp) lo (w_off E w) pos (k_parts dec) -> kp_key_loop E mpk k rows dec w = (w', Ok dec') ->
  w_store E w' = w_store E w /\ (w_off E w <= w_off E w')%nat /\ exists pos', placed (k_parts kp) lo (w_off E w') pos' (k_parts dec').
Proof.
  intros mpk k kp lo rows. induction rows as [|[u [lab e]] rows IH]; intros dec pos w w' dec' Hk Hlo P H; cbn [kp_key_loop] in H.
  - injection H as <- <-. eauto.
  - go H. apply zp_inv in R. destruct R as [-> Hz]. go H. part_of R Hk k1 PG. go H. value R x1. go H. apply deref_inv in R. destruct R as [-> _].
    go H. part_of R Hk k2 PH. go H. value R x2. rewrite Hz in H.
    destruct (placed_step (k_parts kp) lo (w_off E w) pos (k_parts dec) (short_label E u) (OG1 (add1 E (mul1 E e x1) (mul1 E (e_zp E (w_off E w) mod order K) (hash_to_g1 E v0 lab)))) x2 Hlo PH P) as [pos' P'].
    eapply IH in H; [|exact Hk|cbn; lia|exact P']. destruct H as (S1 & O1 & R1). cbn in O1. split; [exact S1|]. split; [lia|exact R1].
Qed.
Lemma cp_loop_L : forall k t attrs dec w w' dec', cp_key_loop E k t attrs dec w = (w', Ok dec') -> w' = w /\ mget (L "L") (k_parts dec') = mget (L "L") (k_parts dec).
Proof.
  intros k t attrs. induction attrs as [|a l IH]; intros dec w w' dec' H; cbn [cp_key_loop] in H; [injection H as <- <-; auto|].
  go H. apply deref_inv in R. destruct R as [-> _]. apply IH in H. destruct H as [-> ->]. split; [reflexivity|]. cbn. unfold set_component. apply mget_mset_other. discriminate.
Qed.
Lemma make_inv : forall alg id w w' k, make_key E alg id w = (w', Ok k) -> w' = set_off E w (S (w_off E w)) /\ k_parts k = [].
Proof. intros alg id w w' k H. unfold make_key in H. go H. injection R as <- _. injection H as <- <-. auto. Qed.
Lemma keygen_keys : forall sch inp id mpk msk w w', keygen E sch inp id mpk msk w = (w', Ok 0) ->
  exists kp dec, mget mpk (pub_keys (w_store E w)) = Some (Some kp) /\ mget id (sec_keys (w_store E w')) = Some (Some dec) /\ keyed_with E sch (k_parts kp) (w_off E w) (w_off E w') (k_parts dec).
Proof.
  intros [] inp id mpk msk w w' H; cbn [keygen] in H; [unfold cp_keygen in H|unfold kp_keygen in H]; (apply catch_inv in H; [|destruct inp; nzs]); destruct inp as [q|l|]; try discriminate.
  - go H. go H. destruct v as [kp|]; [|discriminate]. destruct v0 as [ks|]; [|discriminate]. apply public_inv in R. destruct R as [-> Hk]. apply secret_inv in R0. destruct R0 as [-> Hs].
    go H. apply key_part_inv in R. destruct R as [-> _]. go H. apply make_inv in R. destruct R as [-> Hd]. go H. apply zp_inv in R. destruct R as [-> Hz]. cbn [set_off w_off] in Hz.
    go H. apply key_part_inv in R. destruct R as [-> _]. go H. apply deref_inv in R. destruct R as [-> _].
    go H. apply key_part_inv in R. destruct R as [-> _]. go H. apply deref_inv in R. destruct R as [-> _].
    go H. apply key_part_inv in R. destruct R as [-> _]. go H. apply deref_inv in R. destruct R as [-> _].
    go H. part_of R Hk k1 PG. go H. value R g. go H. apply cp_loop_L in R. destruct R as [-> HL]. go H. injection R as <- _. injection H as <-.
    match goal with H : mget (L "L") (k_parts ?d) = _ |- _ => exists kp, d end. split; [exact Hk|]. split; [cbn; apply mget_mset_same|].
    cbn [keyed_with]. exists (S (w_off E w)), g. split; [cbn; lia|]. split; [exact PG|]. unfold at_name. rewrite HL. cbn. unfold set_component. rewrite mget_mset_same, Hz. reflexivity.
  - go H. go H. destruct v as [kp|]; [|discriminate]. destruct v0 as [ks|]; [|discriminate]. apply public_inv in R. destruct R as [-> Hk]. apply secret_inv in R0. destruct R0 as [-> Hs].
    go H. apply key_part_inv in R. destruct R as [-> _]. go H. apply make_inv in R. destruct R as [-> Hd].
    go H. apply key_part_inv in R. destruct R as [-> _]. go H. apply deref_inv in R. destruct R as [-> _].
    go H. apply share_inv in R. destruct R as (off & -> & Ho). cbn [set_off w_off] in Ho. go H.
    eapply (kp_loop_placed mpk _ kp (w_off E w) _ _ (fun _ => 0%nat)) in R; [|exact Hk|cbn; lia|].
    + destruct R as (S1 & O1 & pos & P). cbn in O1. go H. injection R as <- _. injection H as <-.
      exists kp, v4. split; [exact Hk|]. split; [cbn; apply mget_mset_same|]. exists pos. exact P.
    + assert (forall n o, ~ at_name (k_parts (key_set_component v0 (L "input") (OBytes (ptext q)))) (L "d_" ++ n) o) as N.
      { intros n o X. unfold at_name in X. cbn in X. rewrite Hd in X. cbn in X. discriminate. }
      split; [intros n o X; destruct (N _ _ X)|intros n n' o o' X; destruct (N _ _ X)].
Qed.
End Seal.

(** * C106 *)
(** What a call returns and leaves depends only on the state it finds and on the
    random choices made between the positions at which it starts and stops. *)
Theorem C106_own_choices : forall E (c : coins (e_curve E)) sch,
  (forall mpk msk, own_coins E c (generate_params E sch mpk msk) (generate_params (retape E c) sch mpk msk)) /\
  (forall inp id mpk msk, own_coins E c (keygen E sch inp id mpk msk) (keygen (retape E c) sch inp id mpk msk)) /\
  (forall mpk inp m, own_coins E c (encrypt E sch mpk inp m) (encrypt (retape E c) sch mpk inp m)) /\
  (forall mpk id, own_coins E c (decrypt E sch mpk id) (decrypt (retape E c) sch mpk id)) /\
  (forall id out, own_coins E c (export_key E id out) (export_key (retape E c) id out)) /\
  (forall id blob cl, own_coins E c (load_key E sch id blob cl) (load_key (retape E c) sch id blob cl)) /\
  (forall id, own_coins E c (drop_key E id) (drop_key (retape E c) id)) /\
  (forall id, own_coins E c (has_secret_key E id) (has_secret_key (retape E c) id)) /\
  (forall mpk, own_coins E c (get_hash_key E mpk) (get_hash_key (retape E c) mpk)).
Proof.
  intros E c sch. repeat match goal with |- _ /\ _ => split end; intros; first [apply own_params|apply own_keygen|apply own_encrypt|apply own_decrypt|apply own_export|apply own_load|apply own_drop|apply own_has|apply own_hash_key].
Qed.
Print Assumptions C106_own_choices.
(** Calls do not share positions: over any history the position only moves on, so
    what one call used is behind every later call. *)
Theorem C106_never_back : forall E sch h x y, history E sch h x y -> (snd x <= snd y)%nat.
Proof.
  intros E sch h x y H. induction H as [x|r h x y z Hs _ IH]; [lia|]. assert (snd x <= snd y)%nat; [|lia].
  destruct (C106_own_choices E (its_coins E) sch) as (P1 & P2 & P3 & P4 & P5 & P6 & P7 & P8 & P9).
  assert (forall A (m : code E A) m' ct, own_coins E (its_coins E) m m' -> call E m ct x y -> (snd x <= snd y)%nat) as G.
  { intros A m m' ct Hm (w & r' & Ew & _ & ->). pose proof (forward E _ _ _ Hm (start E x ct)) as F. rewrite Ew in F. exact F. }
  destruct r; cbn [served] in Hs; (eapply G; [|exact Hs]); auto.
Qed.
Print Assumptions C106_never_back.
(** The exponent that protects a ciphertext is one of the choices of its own call... *)
Theorem C106_encrypt : forall E sch mpk inp pt x ct w, lawful E -> len pt < 2147483616 ->
  encrypt E sch mpk inp pt (start E x ct) = (w, Ok 0) ->
  exists kp i, mget mpk (pub_keys (fst x)) = Some (Some kp) /\ (snd x <= i < w_off E w)%nat /\
    sealed_with E sch (k_parts kp) (e_zp E i mod order (e_curve E)) (ct_parts (w_ct E w)) (w_sym E w).
Proof.
  intros E sch mpk inp pt x ct w HE Hl H. pose proof (encrypt_exact E sch mpk inp pt (start E x ct) HE Hl) as X. rewrite H in X.
  destruct (encrypt_kem E sch mpk inp 32 (set_sym E (start E x ct) [])) as [w1 r] eqn:Ek. destruct r as [[|z|z]|[|e|]| | |]; try discriminate; [|destruct (encrypt_kem_catches E sch mpk inp 32 _ w1 e Ek)].
  destruct X as (pad & ed & _ & _ & _ & X). injection X as ->. destruct (kem_seals E HE _ _ _ _ _ Ek) as (kp & Hk & Ho & S). exists kp, (snd x). split; [exact Hk|]. split; [cbn in *; lia|].
  destruct sch; cbn [sealed_with] in *; destruct S as (g & A & S1 & S2 & S3 & S4); exists g, A; repeat split; auto; unfold at_name in *; cbn; unfold set_component; rewrite mget_mset_other by discriminate; exact S3.
Qed.
Print Assumptions C106_encrypt.
(** ... and so are those of a user key. *)
Theorem C106_keygen : forall E sch inp id mpk msk x ct w, keygen E sch inp id mpk msk (start E x ct) = (w, Ok 0) ->
  exists kp dec, mget mpk (pub_keys (fst x)) = Some (Some kp) /\ mget id (sec_keys (w_store E w)) = Some (Some dec) /\
    keyed_with E sch (k_parts kp) (snd x) (w_off E w) (k_parts dec).
Proof. intros E sch inp id mpk msk x ct w H. exact (keygen_keys E sch inp id mpk msk _ _ H). Qed.
Print Assumptions C106_keygen.
(** Two ciphertexts made at any two times: their exponents are different choices. *)
Theorem C106_two_ciphertexts : forall E sch mpk inp pt mpk' inp' pt' x ct w1 h y ct' w2, lawful E -> len pt < 2147483616 -> len pt' < 2147483616 ->
  encrypt E sch mpk inp pt (start E x ct) = (w1, Ok 0) -> history E sch h (left_by E w1) y -> encrypt E sch mpk' inp' pt' (start E y ct') = (w2, Ok 0) ->
  exists kp kp' i j, (i < j)%nat /\ mget mpk (pub_keys (fst x)) = Some (Some kp) /\ mget mpk' (pub_keys (fst y)) = Some (Some kp') /\
    sealed_with E sch (k_parts kp) (e_zp E i mod order (e_curve E)) (ct_parts (w_ct E w1)) (w_sym E w1) /\
    sealed_with E sch (k_parts kp') (e_zp E j mod order (e_curve E)) (ct_parts (w_ct E w2)) (w_sym E w2).
Proof.
  intros E sch mpk inp pt mpk' inp' pt' x ct w1 h y ct' w2 HE Hl Hl' H1 Hh H2.
  destruct (C106_encrypt E sch mpk inp pt x ct w1 HE Hl H1) as (kp & i & K1 & I1 & S1). destruct (C106_encrypt E sch mpk' inp' pt' y ct' w2 HE Hl' H2) as (kp' & j & K2 & I2 & S2).
  pose proof (C106_never_back E sch h _ _ Hh) as N. cbn in N. exists kp, kp', i, j. repeat split; auto. lia.
Qed.
Print Assumptions C106_two_ciphertexts.
(** Two ciphertexts, with a key deleted in between, both schemes; and a key. *)
Example C106_nonvacuous : forall sch,
  let enc n w := encrypt toy_engine sch (L "mpk") (ct_input sch) n w in
  let w1 := w_enc toy_engine sch (key_input sch) (ct_input sch) (L "hello") in
  let w2 := w_gone toy_engine sch (key_input sch) (ct_input sch) (L "hello") in
  snd (enc (L "hello") (start toy_engine (left_by toy_engine (w_alice toy_engine sch (key_input sch))) (no_ct toy_engine))) = Ok 0 /\
  history toy_engine sch [RDelete toy_engine (L "msk")] (left_by toy_engine w1) (left_by toy_engine w2) /\
  snd (enc (L "hello") (start toy_engine (left_by toy_engine w2) (no_ct toy_engine))) = Ok 0 /\
  snd (keygen toy_engine sch (key_input sch) (L "alice") (L "mpk") (L "msk") (start toy_engine (left_by toy_engine (w_bob toy_engine sch (key_input sch))) (no_ct toy_engine))) = Ok 0.
Proof.
  intro sch. cbv zeta. split; [destruct sch; vm_compute; reflexivity|]. split; [|split; destruct sch; vm_compute; reflexivity].
  eapply h_cons; [|apply h_nil]. exists (w_gone toy_engine sch (key_input sch) (ct_input sch) (L "hello")), (snd (drop_key toy_engine (L "msk") (start toy_engine (left_by toy_engine (w_enc toy_engine sch (key_input sch) (ct_input sch) (L "hello"))) (no_ct toy_engine)))).
  split; [apply surjective_pairing|]. split; [|reflexivity]. unfold drop_key. destruct (delete_key _ _) as [[s k] c]. exact I.
Qed.
