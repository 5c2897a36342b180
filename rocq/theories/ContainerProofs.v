(** Proofs about containers, ciphertexts and keys. *)
From Verif Require Import Base StrMap ByteString ByteStringProofs UInteger Field FieldProofs Policy Driver Parser AttrList ListText CreateAttrs Utils Container ContainerSpec.
From Coq Require Import ZArith List Ascii Bool Lia ZifyBool ZifyNat Sorted.
Import ListNotations.
Open Scope Z_scope.
Open Scope res_scope.

(** ** The wire *)
Lemma su : forall pre p suf, 0 < len p < 2^32 ->
  smart_unpack (pre ++ smart_pack [] p ++ suf) (length pre) = ((length pre + length (smart_pack [] p))%nat, Ok p).
Proof.
  intros pre p suf H. pose proof (smart_unpack_pack_lemma pre p suf H) as E.
  rewrite smart_pack_app, <- app_assoc, app_length in E. exact E.
Qed.
Lemma smart_pack_bounds : forall p, 0 < len p < 2^32 -> len p + 2 <= len (smart_pack [] p) <= len p + 5.
Proof.
  intros p H. unfold smart_pack. rewrite (Z.mod_small (len p) (2^32)) by lia.
  replace (firstn (Z.to_nat (len p)) p) with p by (symmetry; unfold len; rewrite Nat2Z.id; apply firstn_all).
  unfold pack32bits, pack16bits, pack8bits.
  destruct (65535 <? len p); [|destruct (255 <? len p); [|destruct (0 <? len p) eqn:E; [|lia]]];
    unfold len; rewrite !app_length; cbn; lia.
Qed.
Lemma good_len : forall k, good_name k -> 0 < len k < 2^32.
Proof.
  intros k [H1 H2]. split; [|lia]. destruct k as [|a k]; [congruence|]. unfold len. cbn [length]. lia.
Qed.
Lemma at_tag : forall t rest, 0 <= t < 256 -> at_ (z2b t :: rest) 0 = Ok t.
Proof. intros t rest H. unfold at_. cbn [nth_error]. rewrite b2z_z2b, Z.mod_small by lia. reflexivity. Qed.
Lemma len_cons : forall x (l : str), len (x :: l) = len l + 1.
Proof. intros. unfold len. cbn [length]. lia. Qed.
Lemma len_app : forall a b : str, len (a ++ b) = len a + len b.
Proof. intros. unfold len. rewrite app_length. lia. Qed.

Lemma uint_back : forall u, 0 <= uval u < 2^32 -> uint_deserialize {| uval := 0; ubits := 0 |} (uint_serialize u) = Ok {| uval := uval u; ubits := 0 |}.
Proof.
  intros u H. unfold uint_serialize, uint_deserialize, be32. rewrite (Z.mod_small (uval u)) by lia.
  unfold at_. cbn [nth_error bind ubits]. rewrite be32_value by lia. reflexivity.
Qed.
Lemma bs_back : forall b, len b < 2^32 -> bs_deserialize [] (bs_serialize b) = Ok b.
Proof. intros [|x b] H; [reflexivity|]. apply bs_roundtrip_lemma; [discriminate|exact H]. Qed.
Lemma group_back : forall G (inn : str -> res G) size tag b x, 0 < len b < 2^32 -> (len b = 1 \/ len b = size) -> inn b = Ok x ->
  group_read inn size (smart_pack [z2b tag] b) = Ok x.
Proof.
  intros G inn size tag b x H Hs E. unfold group_read.
  replace (smart_pack [z2b tag] b) with ([z2b tag] ++ smart_pack [] b ++ []) by (rewrite app_nil_r; symmetry; apply smart_pack_app).
  change 1%nat with (length [z2b tag]) at 1. rewrite su by exact H. cbn [snd bind].
  replace ((len b =? 1) || (len b =? size)) with true by lia. exact E.
Qed.

Section P.
Context (K : curve) (mktime : tm -> Z * tm).

(** ** One component *)
Lemma element_back : forall old o, curve_ok K -> portable K mktime o ->
  0 < len (obj_serialize old o) < 2^32 /\
  exists o' o'', element_of K mktime (obj_serialize old o) = Ok (Some o') /\ clone o' = Some o'' /\ same_value o o''.
Proof.
  intros old o HK H. destruct o as [u|z|x|x|x|b|l|q]; cbn [portable obj_serialize] in *.
  - destruct H as [H1 H2]. split; [cbv; auto|]. eexists _, _. unfold element_of.
    change (len (uint_serialize u) =? 0) with false. cbn iota.
    unfold uint_serialize at 1. rewrite at_tag by lia. cbn [bind Z.eqb Pos.eqb]. rewrite uint_back by lia. cbn [bind].
    split; [reflexivity|]. split; [reflexivity|]. cbn [same_value uval ubits]. auto.
  - pose proof (order_pos K HK) as [HO1 HO2].
    assert (Hb : 0 < len (to_be (zv z)) <= 64).
    { split.
      - pose proof (to_be_nonempty (zv z) ltac:(lia)). destruct (to_be (zv z)); [congruence|]. rewrite len_cons. pose proof (len_nonneg s). lia.
      - unfold to_be. pose proof (to_be_fuel_len (Z.to_nat (Z.log2 (zv z)) + 1) (zv z) [] 64 ltac:(lia) ltac:(lia)) as X.
        change (len []) with 0 in X. lia. }
    assert (El : len (zp_serialize z) = len (to_be (zv z)) + 3).
    { unfold zp_serialize, pack16bits, be16. cbn [app]. rewrite !len_cons. lia. }
    split; [rewrite El; lia|].
    eexists _, _. unfold element_of. replace (len (zp_serialize z) =? 0) with false by lia. cbn iota.
    unfold zp_serialize at 1, pack16bits. cbn [app]. rewrite at_tag by lia. cbn [bind Z.eqb Pos.eqb].
    rewrite zp_roundtrip_lemma; [| lia | lia | cbn [zord]; intros o E; injection E as <-; lia]. cbn [bind].
    split; [reflexivity|]. split; [reflexivity|]. reflexivity.
  - pose proof (g1_pos K HK). pose proof (g1_len K HK x) as Hl. assert (0 < len (g1_out K x) < 2^32) as Hp by lia.
    pose proof (smart_pack_bounds _ Hp) as Hb. split; [rewrite smart_pack_app, len_app; change (len [z2b 178]) with 1; lia|].
    eexists _, _. unfold element_of. rewrite smart_pack_app at 1. cbn [app]. rewrite len_cons. replace (len (smart_pack [] (g1_out K x)) + 1 =? 0) with false by lia.
    rewrite (smart_pack_app [z2b 178]) at 1. cbn [app]. rewrite at_tag by lia. cbn [bind Z.eqb Pos.eqb].
    rewrite (group_back _ _ _ _ _ x Hp Hl (g1_back K HK x)). cbn [bind]. split; [reflexivity|]. split; reflexivity.
  - pose proof (g2_pos K HK). pose proof (g2_len K HK x) as Hl. assert (0 < len (g2_out K x) < 2^32) as Hp by lia.
    pose proof (smart_pack_bounds _ Hp) as Hb. split; [rewrite smart_pack_app, len_app; change (len [z2b 179]) with 1; lia|].
    eexists _, _. unfold element_of. rewrite smart_pack_app at 1. cbn [app]. rewrite len_cons. replace (len (smart_pack [] (g2_out K x)) + 1 =? 0) with false by lia.
    rewrite (smart_pack_app [z2b 179]) at 1. cbn [app]. rewrite at_tag by lia. cbn [bind Z.eqb Pos.eqb].
    rewrite (group_back _ _ _ _ _ x Hp Hl (g2_back K HK x)). cbn [bind]. split; [reflexivity|]. split; reflexivity.
  - pose proof (gt_len K HK x) as Hl. assert (0 < len (gt_out K x) < 2^32) as Hp by lia.
    pose proof (smart_pack_bounds _ Hp) as Hb. split; [rewrite smart_pack_app, len_app; change (len [z2b 180]) with 1; lia|].
    eexists _, _. unfold element_of. rewrite smart_pack_app at 1. cbn [app]. rewrite len_cons. replace (len (smart_pack [] (gt_out K x)) + 1 =? 0) with false by lia.
    rewrite (smart_pack_app [z2b 180]). cbn [app]. rewrite at_tag by lia. cbn [bind Z.eqb Pos.eqb].
    replace (z2b 180 :: smart_pack [] (gt_out K x)) with ([z2b 180] ++ smart_pack [] (gt_out K x) ++ []) by (rewrite app_nil_r; reflexivity).
    change 1%nat with (length [z2b 180]) at 1. rewrite su by exact Hp. cbn [snd bind]. rewrite (gt_back K HK x). cbn [bind]. split; [reflexivity|]. split; reflexivity.
  - assert (El : len (bs_serialize b) = len b + 5).
    { unfold bs_serialize, be32. cbn [app]. rewrite !len_cons. lia. }
    pose proof (len_nonneg b). split; [lia|]. eexists _, _. unfold element_of. replace (len (bs_serialize b) =? 0) with false by lia.
    unfold bs_serialize at 1. rewrite at_tag by lia. cbn [bind Z.eqb Pos.eqb]. rewrite bs_back by lia. cbn [bind]. split; [reflexivity|]. split; reflexivity.
  - destruct H as ((t & H) & Hl). destruct (compact_roundtrip mktime t l H) as (l' & E & Ea & Eo & Ec).
    assert (exists r, compact l = z2b 124 :: r) as [r Er] by (unfold compact; eexists; reflexivity).
    split; [split; [rewrite Er, len_cons; pose proof (len_nonneg r); lia|lia]|].
    exists (OAttrs l'), (OAttrs (copy_list l')). unfold element_of. replace (len (compact l) =? 0) with false by (rewrite Er, len_cons; pose proof (len_nonneg r); lia).
    rewrite Er at 1. rewrite at_tag by lia. cbn [bind Z.eqb Pos.eqb]. rewrite E. cbn [bind]. split; [reflexivity|]. split; [reflexivity|].
    cbn [same_value copy_list aattrs aorig]. auto.
  - destruct H.
Qed.

(** ** Writing *)
Lemma serialize_app : forall c bytes result, serialize_loop (K:=K) c bytes result =
  match serialize_loop c bytes [] with Ok s => Ok (result ++ s) | Throw e => Throw e | UB => UB | Exit => Exit | NoFuel => NoFuel end.
Proof.
  induction c as [|[k [o|]] c IH]; intros bytes result; cbn [serialize_loop]; [rewrite app_nil_r; reflexivity| |reflexivity].
  rewrite IH. rewrite (IH _ (smart_pack (smart_pack [] k) _)). destruct (serialize_loop c _ []); try reflexivity.
  rewrite (smart_pack_app (smart_pack result k)), (smart_pack_app result), (smart_pack_app (smart_pack [] k)), <- !app_assoc. reflexivity.
Qed.
Lemma serialize_defined : forall c bytes result, (exists s, serialize_loop (K:=K) c bytes result = Ok s) <-> (forall k v, In (k, v) c -> v <> None).
Proof.
  induction c as [|[k [o|]] c IH]; intros bytes result; cbn [serialize_loop].
  - split; [intros _ ? ? []|eauto].
  - rewrite IH. split.
    + intros H k' v' [E|E]; [congruence|eauto].
    + intros H k' v' E. apply (H k' v'). right. exact E.
  - split; [intros [s E]; discriminate|]. intro H. exfalso. apply (H k None); [left; reflexivity|reflexivity].
Qed.
Lemma serialize_else : forall c bytes result, (exists s, serialize_loop (K:=K) c bytes result = Ok s) \/ serialize_loop c bytes result = UB.
Proof. induction c as [|[k [o|]] c IH]; intros bytes result; cbn [serialize_loop]; eauto. Qed.

(** ** Reading back *)
Lemma loop_back : forall l old pre c0 fuel s, curve_ok K ->
  Forall (fun e => good_name (fst e) /\ exists o, snd e = Some o /\ portable K mktime o) l -> NoDup (map fst l) -> l <> [] ->
  serialize_loop l old [] = Ok s -> (length l <= fuel)%nat ->
  exists c', deserialize_loop K mktime fuel (pre ++ s) (length pre) c0 = (c', Ok tt) /\
    (forall k o, In (k, Some o) l -> exists o', mget k c' = Some (Some o') /\ same_value o o') /\
    (forall k, ~ In k (map fst l) -> mget k c' = mget k c0) /\ (msorted c0 -> msorted c').
Proof.
  induction l as [|[k v] l IH]; intros old pre c0 fuel s HK HF HN Hne E Hf; [congruence|].
  inversion HF as [|? ? [Hk (o & Ev & Ho)] HF']; subst. cbn [fst snd] in *. subst v. inversion HN as [|? ? Hnk HN']; subst.
  cbn [serialize_loop] in E. rewrite serialize_app in E. destruct (serialize_loop l _ []) as [s'| | | |] eqn:Es; try discriminate. injection E as <-.
  destruct (element_back old o HK Ho) as (Hlen & o' & o'' & Eo & Ec & Hsame). set (value := obj_serialize old o) in *.
  rewrite (smart_pack_app (smart_pack [] k)), <- app_assoc. destruct fuel as [|f]; [cbn in Hf; lia|]. cbn [deserialize_loop].
  rewrite su by (apply good_len; exact Hk).
  set (pre2 := pre ++ smart_pack [] k). replace (length pre + length (smart_pack [] k))%nat with (length pre2) by (unfold pre2; rewrite app_length; reflexivity).
  replace (pre ++ smart_pack [] k ++ smart_pack [] value ++ s') with (pre2 ++ smart_pack [] value ++ s') by (unfold pre2; rewrite <- app_assoc; reflexivity).
  rewrite su by exact Hlen. unfold deserialize_element. rewrite Eo. unfold set_component. rewrite Ec.
  set (c1 := mset k (Some o'') c0). set (pre3 := pre2 ++ smart_pack [] value).
  replace (length pre2 + length (smart_pack [] value))%nat with (length pre3) by (unfold pre3; rewrite app_length; reflexivity).
  replace (pre2 ++ smart_pack [] value ++ s') with (pre3 ++ s') by (unfold pre3; rewrite <- app_assoc; reflexivity).
  destruct l as [|e l].
  - cbn [serialize_loop] in Es. injection Es as <-. rewrite app_nil_r, Nat.ltb_irrefl. exists c1. split; [reflexivity|]. split; [|split].
    + intros k' x [X|[]]. injection X as <- <-. exists o''. split; [apply mget_mset_same|exact Hsame].
    + intros k' Hk'. apply mget_mset_other. intro X. apply Hk'. left. auto.
    + apply msorted_mset.
  - assert (s' <> []) as Hs'.
    { intro X. subst s'. inversion HF' as [|? ? [Hk2 (o2 & Ev2 & Ho2)] _]; subst. destruct e as [k2 v2]. cbn [fst snd] in *. subst v2.
      cbn [serialize_loop] in Es. rewrite serialize_app in Es. destruct (serialize_loop l _ []); try discriminate. injection Es as Es.
      apply app_eq_nil in Es as [Es _]. rewrite smart_pack_app in Es. apply app_eq_nil in Es as [Es _]. pose proof (smart_pack_bounds _ (good_len _ Hk2)). rewrite Es in *.
      change (len []) with 0 in *. pose proof (good_len _ Hk2). lia. }
    replace (length pre3 <? length (pre3 ++ s'))%nat with true.
    2: { symmetry. apply Nat.ltb_lt. rewrite app_length. destruct s'; [congruence|]. cbn [length]. lia. }
    destruct (IH value pre3 c1 f s' HK HF' HN' ltac:(discriminate) Es ltac:(cbn [length] in *; lia)) as (c' & E1 & E2 & E3 & E4).
    exists c'. split; [exact E1|]. split; [|split].
    + intros k' x [X|X]; [|eauto]. injection X as <- <-. exists o''. split; [|exact Hsame]. rewrite E3 by exact Hnk. apply mget_mset_same.
    + intros k' Hk'. rewrite E3 by (intro X; apply Hk'; right; exact X). apply mget_mset_other. intro X. apply Hk'. left. auto.
    + intro X. apply E4. apply msorted_mset. exact X.
Qed.
Lemma portable_forall : forall c, msorted c -> all_portable K mktime c ->
  Forall (fun e => good_name (fst e) /\ exists o, snd e = Some o /\ portable K mktime o) c.
Proof.
  intros c Hs H. apply Forall_forall. intros [k v] Hin. apply (H k v). apply In_mget; [apply msorted_NoDup|]; assumption.
Qed.
Lemma portable_serialize : forall c, msorted c -> all_portable K mktime c -> forall old r, exists s, serialize_loop c old r = Ok s.
Proof.
  intros c Hs H old r. apply serialize_defined. intros k v Hin. apply In_mget in Hin; [|apply msorted_NoDup; exact Hs].
  destruct (H k v Hin) as [_ (o & -> & _)]. discriminate.
Qed.
Lemma serialized_len : forall l old s, curve_ok K -> Forall (fun e => good_name (fst e) /\ exists o, snd e = Some o /\ portable K mktime o) l ->
  serialize_loop l old [] = Ok s -> (length l <= length s)%nat.
Proof.
  induction l as [|[k v] l IH]; intros old s HK HF E; [cbn; lia|].
  inversion HF as [|? ? [Hk (o & Ev & Ho)] HF']; subst. cbn [fst snd] in *. subst v. cbn [serialize_loop] in E. rewrite serialize_app in E.
  destruct (serialize_loop l _ []) as [s'| | | |] eqn:Es; try discriminate. injection E as <-. apply IH in Es; auto.
  rewrite (smart_pack_app (smart_pack [] k)), !app_length. cbn [length]. pose proof (smart_pack_bounds _ (good_len _ Hk)). pose proof (good_len _ Hk). unfold len in *. lia.
Qed.
(** Reading a serialised container into any container. *)
Lemma container_back : forall c c0, curve_ok K -> msorted c -> all_portable K mktime c -> c <> [] ->
  exists blob c', serialize c [] = Ok blob /\ blob <> [] /\ deserialize K mktime c0 blob = (c', Ok tt) /\
    (forall name o, mget name c = Some (Some o) -> exists o', mget name c' = Some (Some o') /\ same_value o o') /\
    (forall name, mget name c = None -> mget name c' = mget name c0) /\ (msorted c0 -> msorted c').
Proof.
  intros c c0 HK Hs H Hne. destruct (portable_serialize c Hs H [] []) as [s Es]. pose proof (portable_forall c Hs H) as HF.
  pose proof (serialized_len c [] s HK HF Es) as Hl.
  destruct (loop_back c [] [] c0 (S (length s)) s HK HF (msorted_NoDup c Hs) Hne Es ltac:(lia)) as (c' & E1 & E2 & E3 & E4).
  exists s, c'. split; [exact Es|]. split.
  { intro X. subst s. destruct c; [congruence|]. cbn in Hl. lia. }
  split; [exact E1|]. split; [|split].
  - intros name o Eo. apply E2. apply mget_In. exact Eo.
  - intros name En. apply E3. apply mget_None. exact En.
  - exact E4.
Qed.
Lemma keys_ext : forall (a b : container K), msorted a -> msorted b -> (forall k, mget k a = None <-> mget k b = None) -> mkeys a = mkeys b.
Proof.
  intros a b Ha Hb H. assert (forall c : container K, exists d : smap unit, mkeys d = mkeys c /\ (msorted c -> msorted d) /\ forall k, mget k d = match mget k c with Some _ => Some tt | None => None end) as D.
  { clear. intro c. exists (map (fun e => (fst e, tt)) c). split; [unfold mkeys; rewrite map_map; reflexivity|]. split.
    - unfold msorted. induction c as [|[k v] c IH]; intro H; [constructor|]. inversion H as [|? ? H1 H2]; subst. cbn [map fst]. constructor; [auto|].
      rewrite Forall_map. exact H2.
    - intro k. induction c as [|[k' v] c IH]; [reflexivity|]. cbn [map fst mget]. destruct (str_eqb k k'); [reflexivity|exact IH]. }
  destruct (D a) as (da & Ka & Sa & Ga), (D b) as (db & Kb & Sb & Gb). rewrite <- Ka, <- Kb. f_equal. apply smap_ext; auto.
  intro k. rewrite Ga, Gb. specialize (H k). destruct (mget k a), (mget k b); auto; exfalso; destruct H as [X Y]; (specialize (Y eq_refl); discriminate) || (specialize (X eq_refl); discriminate).
Qed.
Lemma fresh_back : forall c, curve_ok K -> msorted c -> all_portable K mktime c -> c <> [] ->
  exists blob c', serialize c [] = Ok blob /\ blob <> [] /\ deserialize K mktime [] blob = (c', Ok tt) /\ same_content c c'.
Proof.
  intros c HK Hs H Hne. destruct (container_back c [] HK Hs H Hne) as (blob & c' & E0 & E1 & E2 & E3 & E4 & E5).
  exists blob, c'. repeat split; auto. apply keys_ext; [apply E5; constructor|exact Hs|]. intro k. split; intro E.
  - destruct (mget k c) as [v|] eqn:Ek; [|reflexivity]. destruct (H k v Ek) as [_ (o & -> & _)]. destruct (E3 k o Ek) as (o' & X & _). congruence.
  - rewrite E4 by exact E. reflexivity.
Qed.

(** ** Ciphertexts *)
Lemma scheme_known : forall a, known_scheme a <-> get_scheme_id a = Ok a.
Proof.
  intro a. unfold get_scheme_id. change [SCHEME_NONE; PKSIG_ECDSA; AES_CBC; AES_GCM; AES_GCM_STREAM; PK_OPDH; CP_WATERS; KP_GPSW; CP_WATERS_CCA; KP_GPSW_CCA] with [0; 60; 70; 71; 72; 100; 101; 102; 201; 202].
  unfold known_scheme. destruct (existsb (Z.eqb a) _) eqn:E.
  - apply existsb_exists in E as (x & Hx & E). apply Z.eqb_eq in E. subst x. tauto.
  - split; [|discriminate]. intro H. exfalso. assert (existsb (Z.eqb a) [0; 60; 70; 71; 72; 100; 101; 102; 201; 202] = true) by (apply existsb_exists; exists a; split; [exact H|apply Z.eqb_refl]). congruence.
Qed.
Lemma scheme_else : forall a, ~ known_scheme a -> get_scheme_id a = Throw (OpenABEError 39).
Proof.
  intros a H. unfold get_scheme_id. destruct (existsb _ _) eqn:E; [|reflexivity]. exfalso. apply H. apply scheme_known. unfold get_scheme_id. rewrite E. reflexivity.
Qed.
Lemma known_range : forall a, known_scheme a -> 0 <= a < 256.
Proof. intros a H. unfold known_scheme in H. cbn in H. lia. Qed.
Lemma subset_whole : forall h rest, len h < 2^32 -> len (h ++ rest) < 2^32 -> forall pre, len (pre ++ h ++ rest) < 2^32 -> get_subset (pre ++ h ++ rest) (len pre) (len h) = Ok h.
Proof.
  intros h rest Hh Hr pre Hp. unfold get_subset. pose proof (len_nonneg h). pose proof (len_nonneg pre). rewrite !len_app in *. pose proof (len_nonneg rest).
  rewrite (Z.mod_small (len pre + len h)) by lia. rewrite (Z.mod_small (len h)) by lia.
  replace (len pre + len h <=? len pre + (len h + len rest)) with true by lia. apply f_equal.
  unfold len. rewrite !Nat2Z.id. rewrite skipn_app, skipn_all, Nat.sub_diag. cbn [skipn app]. rewrite firstn_app, firstn_all, Nat.sub_diag. cbn [firstn]. apply app_nil_r.
Qed.
Lemma header_bytes : forall v a, 0 <= v < 256 -> 0 <= a < 256 -> forall t, at_ (z2b v :: z2b a :: t) 0 = Ok v /\ at_ (z2b v :: z2b a :: t) 1 = Ok a.
Proof. intros. unfold at_. cbn [nth_error]. rewrite !b2z_z2b, !Z.mod_small by lia. auto. Qed.

Lemma ct_back : forall ct c0, curve_ok K -> msorted (ct_parts ct) -> all_portable K mktime (ct_parts ct) -> ct_parts ct <> [] ->
  (forall body, serialize (ct_parts ct) [] = Ok body -> len body < 2^32) ->
  0 <= ct_version ct <= 170 -> known_scheme (ct_alg ct) -> len (ct_uid ct) = 16 -> ct_parts c0 = [] ->
  exists blob ct', ct_export ct = Ok blob /\ ct_load K mktime c0 blob = (ct', Ok tt) /\
    ct_version ct' = ct_version ct /\ ct_alg ct' = ct_alg ct /\ ct_uid ct' = ct_uid ct /\ same_content (ct_parts ct) (ct_parts ct').
Proof.
  intros ct c0 HK Hs H Hne Hb Hv Ha Hu H0. destruct (fresh_back _ HK Hs H Hne) as (body & c' & Eb & Nb & Ed & Hc). specialize (Hb body Eb).
  pose proof (known_range _ Ha) as Hr. set (hdr := get_header ct).
  assert (Lh : len hdr = 18) by (unfold hdr, get_header; rewrite !len_cons; lia).
  assert (Lb : 0 < len body < 2^32) by (split; [destruct body; [congruence|]; rewrite len_cons; pose proof (len_nonneg body); lia|lia]).
  eexists _, _. split; [unfold ct_export; rewrite Eb; cbn [bind]; reflexivity|]. fold hdr. rewrite smart_pack_app.
  pose proof (smart_pack_bounds hdr ltac:(lia)) as B1. pose proof (smart_pack_bounds body Lb) as B2.
  unfold ct_load. replace (len (smart_pack [] hdr ++ smart_pack [] body) <? 18) with false by (rewrite len_app; lia).
  pose proof (su [] hdr (smart_pack [] body) ltac:(lia)) as E1. cbn [app length Nat.add] in E1. rewrite E1. rewrite Lh. cbn [Z.eqb Pos.eqb].
  destruct (header_bytes (ct_version ct) (ct_alg ct) ltac:(lia) Hr (ct_uid ct)) as [A0 A1].
  change (z2b (ct_version ct) :: z2b (ct_alg ct) :: ct_uid ct) with hdr in A0, A1. rewrite A0, A1.
  replace (ct_version ct <=? 170) with true by lia. rewrite (proj1 (scheme_known _) Ha).
  assert (get_subset hdr 2 16 = Ok (ct_uid ct)) as ->.
  { pose proof (subset_whole (ct_uid ct) [] ltac:(lia) ltac:(rewrite len_app; change (len []) with 0; lia) [z2b (ct_version ct); z2b (ct_alg ct)]) as X.
    rewrite app_nil_r, Hu in X. apply X. rewrite len_app, !len_cons. change (len []) with 0. lia. }
  unfold load_body. pose proof (su (smart_pack [] hdr) body [] Lb) as E2. rewrite app_nil_r in E2. rewrite E2. cbn [snd].
  replace (0 <? len body) with true by lia. cbn [ct_parts]. rewrite H0, Ed. cbn beta iota zeta.
  split; [reflexivity|]. cbn [with_parts ct_version ct_alg ct_uid ct_parts]. auto.
Qed.

(** ** Keys *)
Lemma key_back : forall k bytes random, curve_ok K -> msorted (k_parts k) -> all_portable K mktime (k_parts k) -> k_parts k <> [] ->
  (forall body, serialize (k_parts k) [] = Ok body -> len body < 2^32) ->
  0 <= k_version k <= 170 -> known_scheme (k_alg k) -> len (k_uid k) = 16 -> len (k_id k) < 2^31 ->
  exists blob k0 body k', key_export k = Ok blob /\ parse_key_header K blob bytes random = Ok (k0, body) /\ key_load K mktime k0 body = (k', Ok tt) /\
    k_alg k' = k_alg k /\ k_uid k' = k_uid k /\ k_id k' = k_id k /\ k_type k' = key_type_of (k_alg k) /\ same_content (k_parts k) (k_parts k').
Proof.
  intros k bytes random HK Hs H Hne Hb Hv Ha Hu Hi. destruct (fresh_back _ HK Hs H Hne) as (body & c' & Eb & Nb & Ed & Hc). specialize (Hb body Eb).
  pose proof (known_range _ Ha) as Hr. set (hdr := key_header k). pose proof (len_nonneg (k_id k)) as Li.
  assert (Lh : len hdr = 18 + len (k_id k)) by (unfold hdr, key_header; rewrite !len_cons, len_app; lia).
  assert (Lb : 0 < len body) by (destruct body; [congruence|]; rewrite len_cons; pose proof (len_nonneg body); lia).
  eexists _, _, _, _. split; [unfold key_export; rewrite Eb; cbn [bind]; reflexivity|]. fold hdr.
  unfold parse_key_header, construct_key.
  assert (Ep : pack (pack [] hdr) body = pack [] hdr ++ pack [] body) by (unfold pack, pack32bits; rewrite <- !app_assoc; reflexivity).
  assert (Lp : len (pack [] hdr) = 4 + len hdr).
  { unfold pack, pack32bits. rewrite !len_app. rewrite (Z.mod_small (len hdr)) by lia. replace (firstn (Z.to_nat (len hdr)) hdr) with hdr by (symmetry; unfold len; rewrite Nat2Z.id; apply firstn_all). unfold be32. rewrite !len_cons. change (len []) with 0. lia. }
  replace (len (pack (pack [] hdr) body) <? 18) with false by (rewrite Ep, len_app; pose proof (len_nonneg (pack [] body)); lia).
  pose proof (unpack_pack_lemma [] hdr (pack [] body) ltac:(lia)) as U1. rewrite <- Ep in U1. cbn [length] in U1. rewrite U1. cbn [bind].
  replace (18 <=? len hdr) with true by lia.
  destruct (header_bytes (k_version k) (k_alg k) ltac:(lia) Hr (k_uid k ++ k_id k)) as [A0 A1].
  change (z2b (k_version k) :: z2b (k_alg k) :: k_uid k ++ k_id k) with hdr in A0, A1. rewrite A0, A1. cbn [bind].
  replace (k_version k <=? 170) with true by lia. rewrite (proj1 (scheme_known _) Ha).
  assert (get_subset hdr 2 16 = Ok (k_uid k)) as ->.
  { pose proof (subset_whole (k_uid k) (k_id k) ltac:(lia) ltac:(rewrite len_app; lia) [z2b (k_version k); z2b (k_alg k)]) as X.
    rewrite Hu in X. apply X. rewrite !len_app, !len_cons. change (len []) with 0. lia. }
  cbn [bind].
  assert ((if 18 <? len hdr then get_subset hdr 18 (len hdr - 18) else Ok []) = Ok (k_id k)) as ->.
  { destruct (18 <? len hdr) eqn:E18.
    - pose proof (subset_whole (k_id k) [] ltac:(lia) ltac:(rewrite len_app; change (len []) with 0; lia) (z2b (k_version k) :: z2b (k_alg k) :: k_uid k)) as X.
      rewrite app_nil_r in X. replace (len hdr - 18) with (len (k_id k)) by lia. rewrite !len_cons, Hu in X. apply X. cbn [app]. rewrite !len_cons, len_app. lia.
    - assert (len (k_id k) = 0) as Z0 by lia. unfold len in Z0. destruct (k_id k); [reflexivity|cbn in Z0; lia]. }
  cbn [bind].
  pose proof (unpack_pack_lemma (pack [] hdr) body [] ltac:(lia)) as U2. rewrite app_nil_r in U2. rewrite U2. cbn [bind fst].
  split; [reflexivity|]. unfold key_load. cbn [k_parts new_key]. rewrite Ed. split; [reflexivity|].
  unfold new_key. cbn [k_alg k_uid k_id k_type k_parts k_version]. rewrite Hu. cbn [Z.eqb Pos.eqb]. auto.
Qed.

(** ** Lookups *)
Lemma get_present : forall c name o, mget name c = Some (Some o) -> get_component (K:=K) c name = (c, Ok o).
Proof. intros c name o E. unfold get_component, index. rewrite E. reflexivity. Qed.
Lemma get_missing : forall c name, mget name c = None -> get_component (K:=K) c name = (mset name None c, Throw (OpenABEError 18)).
Proof. intros c name E. unfold get_component, index. rewrite E. reflexivity. Qed.
Lemma get_null : forall c name, mget name c = Some None -> get_component (K:=K) c name = (c, Throw (OpenABEError 18)).
Proof. intros c name E. unfold get_component, index. rewrite E. reflexivity. Qed.
Lemma serialize_null : forall c name r, mget name c = Some None -> serialize (K:=K) c r = UB.
Proof.
  intros c name r E. destruct (serialize_else c [] r) as [X|X]; [|exact X]. exfalso. apply serialize_defined with (k:=name) (v:=None) in X; [congruence|]. apply mget_In. exact E.
Qed.

(** ** Equality *)
Definition comparable (c1 c2 : container K) : Prop := forall name v, mget name c1 = Some v ->
  exists x y b, v = Some x /\ mget name c2 = Some (Some y) /\ obj_is_equal x y = Ok b.
Definition equal_at (c1 c2 : container K) (name : str) : Prop := exists x y, mget name c1 = Some (Some x) /\ mget name c2 = Some (Some y) /\ obj_is_equal x y = Ok true.
Lemma compare_ok : forall keys (c1 c2 : container K) diff,
  (forall k, In k keys -> exists x y b, mget k c1 = Some (Some x) /\ mget k c2 = Some (Some y) /\ obj_is_equal x y = Ok b) ->
  exists b, compare_loop keys c1 c2 diff = (c1, c2, Ok b) /\ (b = true <-> diff = false /\ forall k, In k keys -> equal_at c1 c2 k).
Proof.
  induction keys as [|k keys IH]; intros c1 c2 diff H; cbn [compare_loop].
  - exists (negb diff). split; [reflexivity|]. destruct diff; cbn; intuition congruence.
  - destruct (H k (or_introl eq_refl)) as (x & y & b & E1 & E2 & E3). rewrite (get_present _ _ _ E1), (get_present _ _ _ E2), E3.
    destruct (IH c1 c2 (diff || negb b) ltac:(intros k' Hk'; apply H; right; exact Hk')) as (r & Er & Hr). exists r. split; [exact Er|]. rewrite Hr. split.
    + intros [D1 D2]. apply orb_false_elim in D1 as [D1 D3]. split; [exact D1|]. intros k' [<-|Hk']; [|auto]. exists x, y. rewrite E3. destruct b; [auto|discriminate].
    + intros [D1 D2]. split; [|intros k' Hk'; apply D2; right; exact Hk']. destruct (D2 k (or_introl eq_refl)) as (x' & y' & F1 & F2 & F3). rewrite E1 in F1. rewrite E2 in F2. injection F1 as <-. injection F2 as <-.
      rewrite E3 in F3. injection F3 as ->. rewrite D1. reflexivity.
Qed.
Lemma obj_equal_outcome : forall x y : zobj K, (exists b, obj_is_equal x y = Ok b) \/ obj_is_equal x y = UB.
Proof.
  intros x y. destruct x, y; cbn; eauto. unfold list_is_equal. destruct (nth_error _ _); eauto.
Qed.
Lemma compare_bad : forall keys (c1 c2 : container K) diff, NoDup keys ->
  ~ (forall k, In k keys -> exists x y b, mget k c1 = Some (Some x) /\ mget k c2 = Some (Some y) /\ obj_is_equal x y = Ok b) ->
  (forall k, In k keys -> mget k c1 <> None) ->
  snd (compare_loop keys c1 c2 diff) = Throw (OpenABEError 18) \/ snd (compare_loop keys c1 c2 diff) = UB.
Proof.
  induction keys as [|k keys IH]; intros c1 c2 diff HN H Hp; cbn [compare_loop]; [exfalso; apply H; intros ? []|].
  destruct (mget k c1) as [[x|]|] eqn:E1.
  - rewrite (get_present _ _ _ E1). destruct (mget k c2) as [[y|]|] eqn:E2.
    + rewrite (get_present _ _ _ E2). destruct (obj_equal_outcome x y) as [[b Eb]|Eb]; rewrite Eb; [|right; reflexivity].
      inversion HN; subst. apply IH; auto.
      * intro X. apply H. intros k' [<-|Hk']; [|auto]. exists x, y, b. auto.
      * intros k' Hk'. apply Hp. right. exact Hk'.
    + rewrite (get_null _ _ E2). left. reflexivity.
    + rewrite (get_missing _ _ E2). left. reflexivity.
  - rewrite (get_null _ _ E1). left. reflexivity.
  - exfalso. apply (Hp k (or_introl eq_refl)). exact E1.
Qed.
Lemma set_difference_len : forall n a b, (length (set_difference n a b) <= length a)%nat.
Proof.
  induction n as [|n IH]; intros a b; cbn [set_difference]; [cbn; lia|]. destruct a as [|x a]; [cbn; lia|]. destruct b as [|y b]; [lia|].
  destruct (str_ltb x y); [cbn [length]; specialize (IH a (y :: b)); lia|]. destruct (str_ltb y x); [apply IH|]. cbn [length]. specialize (IH a b). lia.
Qed.
Lemma container_eq_start : forall c1 c2 : container K, container_eq c1 c2 = match c2 with [] => (c1, c2, UB) | _ => compare_loop (mkeys c1) c1 c2 false end.
Proof.
  intros c1 c2. unfold container_eq, get_keys. pose proof (set_difference_len (length (mkeys c1) + length (mkeys c2)) (mkeys c1) (mkeys c2)) as HL.
  set (out := set_difference _ _ _) in *. destruct c2 as [|e c2].
  - cbn [mkeys map length] in *. rewrite Nat.add_0_r in *.
    assert (out = mkeys c1) as Eo. { unfold out. destruct (mkeys c1); reflexivity. }
    rewrite Eo, Nat.sub_diag, app_nil_r. replace (nth_error (mkeys c1) (length (mkeys c1))) with (@None str) by (symmetry; apply nth_error_None; lia). reflexivity.
  - set (n := (length (mkeys c1) + length (mkeys (e :: c2)))%nat) in *. rewrite nth_error_app2 by lia. rewrite Nat.sub_diag.
    destruct (n - length out)%nat as [|m] eqn:En; [exfalso; unfold n in En; unfold mkeys in *; cbn [map length] in En; lia|]. cbn [repeat nth_error]. reflexivity.
Qed.
Lemma keys_present : forall (c : container K) k, In k (mkeys c) <-> mget k c <> None.
Proof. intros c k. pose proof (mget_None k c). split; [tauto|]. intro X. destruct (in_dec str_eq_dec k (mkeys c)); tauto. Qed.

(** ** Loading arbitrary bytes *)
Lemma deserialize_element_res : forall c key value c' r, deserialize_element K mktime c key value = (c', r) ->
  match r with
  | Ok _ => exists o, element_of K mktime value = Ok o /\ c' = match o with Some x => set_component c key x | None => c end
  | Throw e => element_of K mktime value = Throw e /\ c' = c
  | UB => element_of K mktime value = UB /\ c' = c
  | Exit => element_of K mktime value = Exit /\ c' = c
  | NoFuel => element_of K mktime value = NoFuel /\ c' = c
  end.
Proof.
  intros c key value c' r E. unfold deserialize_element in E. destruct (element_of K mktime value) as [[o|]| | | |] eqn:Ee; injection E as <- <-; eauto.
Qed.
End P.
