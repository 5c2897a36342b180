(** Loading arbitrary bytes: what is accepted, and what can go wrong. *)
From Verif Require Import Base StrMap ByteString ByteStringProofs UInteger Field FieldProofs Policy Driver Parser AttrList CreateAttrs Utils Container ContainerSpec ContainerProofs.
From Coq Require Import ZArith List Ascii Bool Lia ZifyBool ZifyNat.
Import ListNotations.
Open Scope Z_scope.
Open Scope res_scope.

Lemma byte_is : forall c n, b2z c = n -> c = z2b n.
Proof. intros c n H. rewrite <- (z2b_b2z c), H. reflexivity. Qed.
Lemma slice_after : forall p tl s, slice_of (p ++ tl) (length p) s -> exists rest, tl = s ++ rest.
Proof.
  intros p tl s (pre & suf & E & H). exists suf. apply (f_equal (skipn (length p))) in E. rewrite skipn_app, skipn_all, Nat.sub_diag in E. cbn [skipn app] in E.
  rewrite E, <- H, skipn_app, skipn_all, Nat.sub_diag. reflexivity.
Qed.
(** What a length-prefixed item of 18 bytes looks like. *)
Lemma header_shape : forall blob j h, smart_unpack blob 0 = (j, Ok h) -> len h = 18 ->
  exists p rest, length_prefix 18 p /\ blob = p ++ h ++ rest /\ j = length (p ++ h).
Proof.
  intros blob j h E Hh. unfold smart_unpack in E. destruct blob as [|t blob]; [discriminate|]. change (at_ (t :: blob) 0) with (Ok (b2z t)) in E. cbn beta iota in E.
  destruct (b2z t =? 195) eqn:T1; [|destruct (b2z t =? 178) eqn:T2; [|destruct (b2z t =? 161) eqn:T3]].
  - unfold unpack in E. destruct blob as [|b0 [|b1 [|b2 [|b3 tl]]]]; try discriminate. unfold at_ in E. cbn [Nat.add nth_error bind] in E.
    pose proof (b2z_range b0). pose proof (b2z_range b1). pose proof (b2z_range b2). pose proof (b2z_range b3).
    match type of E with context [unpack_body ?b ?i ?n] => pose proof (unpack_body_safe b i n ltac:(lia) ltac:(cbn; lia)) as X; destruct (unpack_body b i n) as [[s k]| | | |] end; try discriminate.
    injection E as <- <-. destruct X as (Sl & Ej & _ & El). apply (slice_after [t; b0; b1; b2; b3] tl) in Sl as [rest ->].
    exists [t; b0; b1; b2; b3], rest. split; [|split; [reflexivity|rewrite Ej; reflexivity]]. right. right. split; [|lia].
    rewrite (byte_is t 195), (byte_is b0 0), (byte_is b1 0), (byte_is b2 0), (byte_is b3 18) by lia. reflexivity.
  - unfold unpack16bits in E. destruct blob as [|b0 [|b1 tl]]; try discriminate. unfold at_ in E. cbn [Nat.add nth_error bind] in E.
    pose proof (b2z_range b0). pose proof (b2z_range b1).
    match type of E with context [unpack_body ?b ?i ?n] => pose proof (unpack_body_safe b i n ltac:(lia) ltac:(cbn; lia)) as X; destruct (unpack_body b i n) as [[s k]| | | |] end; try discriminate.
    injection E as <- <-. destruct X as (Sl & Ej & _ & El). apply (slice_after [t; b0; b1] tl) in Sl as [rest ->].
    exists [t; b0; b1], rest. split; [|split; [reflexivity|rewrite Ej; reflexivity]]. right. left. split; [|lia].
    rewrite (byte_is t 178), (byte_is b0 0), (byte_is b1 18) by lia. reflexivity.
  - unfold unpack8bits in E. destruct blob as [|b0 tl]; try discriminate. unfold at_ in E. cbn [Nat.add nth_error bind] in E.
    pose proof (b2z_range b0).
    match type of E with context [unpack_body ?b ?i ?n] => pose proof (unpack_body_safe b i n ltac:(lia) ltac:(cbn; lia)) as X; destruct (unpack_body b i n) as [[s k]| | | |] end; try discriminate.
    injection E as <- <-. destruct X as (Sl & Ej & _ & El). apply (slice_after [t; b0] tl) in Sl as [rest ->].
    exists [t; b0], rest. split; [|split; [reflexivity|rewrite Ej; reflexivity]]. left. split; [|lia].
    rewrite (byte_is t 161), (byte_is b0 18) by lia. reflexivity.
  - injection E as <- <-. discriminate.
Qed.
Lemma header_split : forall h, len h = 18 -> exists v a uid, h = v :: a :: uid /\ len uid = 16.
Proof. intros [|v [|a uid]] H; [discriminate|discriminate|]. rewrite !len_cons in H. exists v, a, uid. split; [reflexivity|lia]. Qed.

Section L.
Context (K : curve) (mktime : tm -> Z * tm).

(** ** One element *)
Lemma element_outcome : forall value, curve_safe K ->
  match element_of K mktime value with Ok _ | Throw _ => True | _ => crashing K mktime value end.
Proof.
  intros value (S1 & S2 & S3). unfold element_of. destruct (len value =? 0) eqn:E0; [exact Logic.I|]. destruct value as [|t rest]; [discriminate|].
  change (at_ (t :: rest) 0) with (Ok (b2z t)). cbn [bind].
  destruct (b2z t =? 161) eqn:T1.
  { unfold uint_deserialize, at_. destruct rest as [|b1 [|b2 [|b3 [|b4 tl]]]]; cbn [nth_error bind]; exact Logic.I. }
  destruct (b2z t =? 177) eqn:T2.
  { set (z0 := {| zv := 0; zord := Some (order K) |}). destruct (zp_deserialize z0 (t :: rest)) eqn:Ez; cbn [bind]; auto.
    - left. apply zp_deserialize_ub_lemma in Ez. exact Ez.
    - exfalso. revert Ez. unfold zp_deserialize, at_. cbn [nth_error bind]. destruct (_ && _); [|discriminate]. destruct rest as [|b1 [|b2 tl]]; cbn [nth_error bind]; try discriminate. destruct (_ <=? _); discriminate.
    - exfalso. revert Ez. unfold zp_deserialize, at_. cbn [nth_error bind]. destruct (_ && _); [|discriminate]. destruct rest as [|b1 [|b2 tl]]; cbn [nth_error bind]; try discriminate. destruct (_ <=? _); discriminate. }
  destruct (b2z t =? 178) eqn:T3.
  { unfold group_read. pose proof (smart_unpack_safe_lemma (t :: rest) 1) as X. destruct (smart_unpack (t :: rest) 1) as [j [b|e| | |]] eqn:Eu; cbn [snd bind]; auto; try (exfalso; exact X).
    destruct ((len b =? 1) || (len b =? g1_size K)) eqn:Es.
    - specialize (S1 b). destruct (g1_in K b); cbn [bind]; auto; exfalso; exact S1.
    - cbn [bind]. right. left. exists 178, rest, b, j. rewrite (byte_is t 178) in * by lia. split; [reflexivity|]. split; [exact Eu|]. split; [lia|]. left. lia. }
  destruct (b2z t =? 179) eqn:T4.
  { unfold group_read. pose proof (smart_unpack_safe_lemma (t :: rest) 1) as X. destruct (smart_unpack (t :: rest) 1) as [j [b|e| | |]] eqn:Eu; cbn [snd bind]; auto; try (exfalso; exact X).
    destruct ((len b =? 1) || (len b =? g2_size K)) eqn:Es.
    - specialize (S2 b). destruct (g2_in K b); cbn [bind]; auto; exfalso; exact S2.
    - cbn [bind]. right. left. exists 179, rest, b, j. rewrite (byte_is t 179) in * by lia. split; [reflexivity|]. split; [exact Eu|]. split; [lia|]. right. lia. }
  destruct (b2z t =? 180) eqn:T5.
  { pose proof (smart_unpack_safe_lemma (t :: rest) 1) as X. destruct (smart_unpack (t :: rest) 1) as [j [b|e| | |]] eqn:Eu; cbn [snd bind]; auto; try (exfalso; exact X).
    specialize (S3 b). destruct (gt_in K b); cbn [bind]; auto; exfalso; exact S3. }
  destruct (b2z t =? 29) eqn:T6.
  { destruct (bs_deserialize_total_lemma [] (t :: rest)) as [b ->]. cbn [bind]. exact Logic.I. }
  destruct (b2z t =? 122) eqn:T7.
  { assert (t = z2b 122) as -> by (apply byte_is; lia).
    destruct (create_policy_tree mktime (z2b 122 :: rest)) as [[q|]| | | |] eqn:Ep; cbn [bind]; auto; right; right; exists rest; (split; [reflexivity|]); intros o; rewrite Ep; discriminate. }
  destruct (b2z t =? 124) eqn:T8.
  { destruct (attrs_total mktime (t :: rest)) as [[a|] ->]; cbn [bind]; exact Logic.I. }
  destruct ((b2z t =? 193) || (b2z t =? 194)); exact Logic.I.
Qed.
Lemma element_policy : forall value p, element_of K mktime value = Ok (Some (OPolicy p)) -> exists r, value = z2b 122 :: r /\ create_policy_tree mktime value = Ok (Some p).
Proof.
  intros value p. unfold element_of. destruct (len value =? 0) eqn:E0; [discriminate|]. destruct value as [|t rest]; [discriminate|].
  change (at_ (t :: rest) 0) with (Ok (b2z t)). cbn [bind].
  destruct (b2z t =? 161). { destruct (uint_deserialize _ _); discriminate. }
  destruct (b2z t =? 177). { destruct (zp_deserialize _ _); discriminate. }
  destruct (b2z t =? 178). { destruct (group_read _ _ _); discriminate. }
  destruct (b2z t =? 179). { destruct (group_read _ _ _); discriminate. }
  destruct (b2z t =? 180). { destruct (snd _); try discriminate. cbn [bind]. destruct (gt_in K _); discriminate. }
  destruct (b2z t =? 29). { destruct (bs_deserialize _ _); discriminate. }
  destruct (b2z t =? 122) eqn:T.
  { intro E. exists rest. rewrite (byte_is t 122) in * by lia. split; [reflexivity|]. destruct (create_policy_tree _ _) as [[q|]| | | |]; try discriminate. cbn [bind] in E. injection E as <-. reflexivity. }
  destruct (b2z t =? 124). { destruct (create_attribute_list _ _) as [[a|]| | | |]; discriminate. }
  destruct ((b2z t =? 193) || (b2z t =? 194)); discriminate.
Qed.

(** ** The loop *)
Lemma slice_inside : forall b i s j, smart_unpack b i = (j, Ok s) -> s = [] \/ exists k, slice_of b k s.
Proof.
  intros b i s j E. pose proof (smart_unpack_safe_lemma b i) as X. rewrite E in X. destruct X as [_ [X|(k & _ & X & _)]]; eauto.
Qed.
Lemma loop_outcome : forall fuel blob i c, curve_safe K -> (length blob - i < fuel)%nat ->
  match snd (deserialize_loop K mktime fuel blob i c) with
  | Ok _ | Throw _ => True
  | _ => exists k value, slice_of blob k value /\ crashing K mktime value
  end.
Proof.
  induction fuel as [|f IH]; intros blob i c HS Hf; [lia|]. cbn [deserialize_loop].
  pose proof (smart_unpack_safe_lemma blob i) as X1. destruct (smart_unpack blob i) as [i1 [key|e| | |]] eqn:E1; cbn [snd]; auto; try (exfalso; exact X1).
  pose proof (smart_unpack_safe_lemma blob i1) as X2. destruct (smart_unpack blob i1) as [i2 [value|e| | |]] eqn:E2; cbn [snd]; auto; try (exfalso; exact X2).
  destruct (deserialize_element K mktime c key value) as [c' r] eqn:Ed. apply deserialize_element_res in Ed. pose proof (element_outcome value HS) as Ho.
  assert (crashing K mktime value -> exists k v, slice_of blob k v /\ crashing K mktime v) as Hc.
  { intro Hc. destruct (slice_inside _ _ _ _ E2) as [Z0|[k Hk]]; [|eauto]. exfalso. subst value. destruct Hc as [(? & ? & ? & X & _)|[(? & ? & ? & ? & X & _)|(? & X & _)]]; discriminate. }
  destruct r as [u|e| | |]; cbn [snd]; auto.
  - destruct (i2 <? length blob)%nat eqn:Ei; [|exact Logic.I]. apply IH; [exact HS|]. destruct X1 as [X1 _], X2 as [X2 _]. apply Nat.ltb_lt in Ei. lia.
  - destruct Ed as [Ed _]. rewrite Ed in Ho. auto.
  - destruct Ed as [Ed _]. rewrite Ed in Ho. auto.
  - destruct Ed as [Ed _]. rewrite Ed in Ho. auto.
Qed.
Lemma loop_nulls : forall fuel blob i c c' name, deserialize_loop K mktime fuel blob i c = (c', Ok tt) -> mget name c' = Some None ->
  mget name c = Some None \/ exists k value q, slice_of blob k value /\ (exists r, value = z2b 122 :: r) /\ create_policy_tree mktime value = Ok (Some q).
Proof.
  induction fuel as [|f IH]; intros blob i c c' name E H; [discriminate|]. cbn [deserialize_loop] in E.
  destruct (smart_unpack blob i) as [i1 [key|e| | |]] eqn:E1; try discriminate.
  destruct (smart_unpack blob i1) as [i2 [value|e| | |]] eqn:E2; try discriminate.
  destruct (deserialize_element K mktime c key value) as [c1 r] eqn:Ed. apply deserialize_element_res in Ed. destruct r as [u| | | |]; try discriminate.
  destruct Ed as (o & Eo & Ec1).
  assert (mget name c1 = Some None -> mget name c = Some None \/ exists k value q, slice_of blob k value /\ (exists r, value = z2b 122 :: r) /\ create_policy_tree mktime value = Ok (Some q)) as Step.
  { intro Hn. subst c1. destruct o as [x|]; [|left; exact Hn]. unfold set_component in Hn. destruct (str_eq_dec name key) as [->|Hne]; [|left; rewrite mget_mset_other in Hn by exact Hne; exact Hn].
    rewrite mget_mset_same in Hn. injection Hn as Hn. destruct x; try discriminate. apply element_policy in Eo as (r & Er & Eq). right.
    destruct (slice_inside _ _ _ _ E2) as [Z0|[k Hk]]; [subst value; discriminate|]. exists k, value, p. eauto. }
  destruct (i2 <? length blob)%nat.
  - apply IH with (name:=name) in E; [|exact H]. destruct E as [E|E]; auto.
  - injection E as <-. auto.
Qed.

Lemma loop_sorted : forall fuel blob i c, msorted c -> msorted (fst (deserialize_loop K mktime fuel blob i c)).
Proof.
  induction fuel as [|f IH]; intros blob i c H; [exact H|]. cbn [deserialize_loop].
  destruct (smart_unpack blob i) as [i1 [key|e| | |]]; try exact H. destruct (smart_unpack blob i1) as [i2 [value|e| | |]]; try exact H.
  destruct (deserialize_element K mktime c key value) as [c' r] eqn:Ed. apply deserialize_element_res in Ed.
  assert (msorted c') as H'. { destruct r; try (destruct Ed as [_ ->]; exact H). destruct Ed as (o & _ & ->). destruct o; [apply msorted_mset|]; exact H. }
  destruct r; try exact H'. destruct (i2 <? length blob)%nat; [apply IH|]; exact H'.
Qed.

(** ** Ciphertexts *)
Lemma load_body_parts : forall c input i c' r, load_body K mktime c input i = (c', r) ->
  ct_version c' = ct_version c /\ ct_alg c' = ct_alg c /\ ct_uid c' = ct_uid c.
Proof.
  intros c input i c' r E. unfold load_body in E. destruct (snd _) as [body| | | |]; try (injection E as <- <-; auto; fail).
  destruct (0 <? len body); [|injection E as <- <-; auto]. destruct (deserialize K mktime (ct_parts c) body). injection E as <- <-. cbn. auto.
Qed.
Lemma load_body_outcome : forall c input i, curve_safe K ->
  match snd (load_body K mktime c input i) with
  | Ok _ | Throw _ => True
  | _ => exists k k' body value, slice_of input k body /\ slice_of body k' value /\ crashing K mktime value
  end.
Proof.
  intros c input i HS. unfold load_body. pose proof (smart_unpack_safe_lemma input i) as X. destruct (smart_unpack input i) as [j [body|e| | |]] eqn:E; cbn [snd]; auto; try (exfalso; exact X).
  destruct (0 <? len body) eqn:Eb; [|exact Logic.I]. pose proof (loop_outcome (S (length body)) body 0 (ct_parts c) HS ltac:(lia)) as O. unfold deserialize.
  destruct (deserialize_loop K mktime (S (length body)) body 0 (ct_parts c)) as [p r]. cbn [snd] in *.
  destruct (slice_inside _ _ _ _ E) as [Z0|[k Hk]]; [subst body; discriminate|].
  destruct r; auto; destruct O as (k' & v & O1 & O2); exists k, k', body, v; auto.
Qed.
Lemma ct_load_cases : forall c input,
  (exists e, snd (ct_load K mktime c input) = Throw e /\ ct_parts (fst (ct_load K mktime c input)) = ct_parts c) \/
  (exists v a uid rest i, has_header input v a uid rest /\ v <= 170 /\ known_scheme a /\
     ct_load K mktime c input = load_body K mktime {| ct_version := v; ct_alg := a; ct_uid := uid; ct_parts := ct_parts c |} input i).
Proof.
  intros c input. unfold ct_load. destruct (len input <? 18) eqn:E0; [left; eexists; split; reflexivity|].
  pose proof (smart_unpack_safe_lemma input 0) as X. destruct (smart_unpack input 0) as [i [h|e| | |]] eqn:E1; try (exfalso; exact X); [|left; eexists; split; reflexivity].
  destruct (len h =? 18) eqn:Eh; [|left; eexists; split; reflexivity]. apply Z.eqb_eq in Eh.
  destruct (header_shape input i h E1 Eh) as (p & rest & Hp & Ei & _). destruct (header_split h Eh) as (v & a & uid & -> & Hu).
  change (at_ (v :: a :: uid) 0) with (Ok (b2z v)). change (at_ (v :: a :: uid) 1) with (Ok (b2z a)). cbn beta iota.
  destruct (b2z v <=? 170) eqn:Ev; [|left; eexists; split; reflexivity].
  destruct (in_dec Z.eq_dec (b2z a) [0; 60; 70; 71; 72; 100; 101; 102; 201; 202]) as [Ha|Ha].
  - rewrite (proj1 (scheme_known (b2z a)) Ha).
    assert (get_subset (v :: a :: uid) 2 16 = Ok uid) as ->.
    { pose proof (subset_whole uid [] ltac:(lia) ltac:(rewrite len_app; change (len []) with 0; lia) [v; a]) as Y. rewrite app_nil_r, Hu in Y. apply Y. rewrite len_app, !len_cons. change (len []) with 0. lia. }
    right. exists (b2z v), (b2z a), uid, rest, i. split; [exists p, v, a; auto|]. split; [lia|]. split; [exact Ha|reflexivity].
  - rewrite (scheme_else (b2z a) Ha). left. eexists. split; reflexivity.
Qed.
Lemma ct_load_sorted : forall c input, msorted (ct_parts c) -> msorted (ct_parts (fst (ct_load K mktime c input))).
Proof.
  intros c input H. destruct (ct_load_cases c input) as [(e & _ & ->)|(v & a & uid & rest & i & _ & _ & _ & ->)]; [exact H|]. unfold load_body.
  destruct (snd _) as [body| | | |]; try exact H. destruct (0 <? len body); [|exact H]. cbn [ct_parts]. pose proof (loop_sorted (S (length body)) body 0 (ct_parts c) H) as X. unfold deserialize.
  destruct (deserialize_loop _ _ _ _ _ _) as [p r]. exact X.
Qed.
Lemma ct_load_accepts : forall c input c', ct_load K mktime c input = (c', Ok tt) ->
  exists rest, has_header input (ct_version c') (ct_alg c') (ct_uid c') rest /\ ct_version c' <= 170 /\ known_scheme (ct_alg c').
Proof.
  intros c input c' E. destruct (ct_load_cases c input) as [(e & X & _)|(v & a & uid & rest & i & Hh & Hv & Ha & X)]; [rewrite E in X; discriminate|].
  rewrite E in X. symmetry in X. apply load_body_parts in X as (-> & -> & ->). cbn [ct_version ct_alg ct_uid]. eauto.
Qed.
Lemma prefix_det : forall p p' (x y : str), length_prefix 18 p -> length_prefix 18 p' -> p ++ x = p' ++ y -> p = p' /\ x = y.
Proof.
  intros p p' x y H H' E. unfold length_prefix in *.
  destruct H as [[-> _]|[[-> _]|[-> _]]], H' as [[-> _]|[[-> _]|[-> _]]]; cbn [app] in E; try discriminate E; injection E as E; auto.
Qed.
Lemma header_det : forall blob v a uid rest v' a' uid' rest', has_header blob v a uid rest -> has_header blob v' a' uid' rest' ->
  v = v' /\ a = a' /\ uid = uid' /\ rest = rest'.
Proof.
  intros blob v a uid rest v' a' uid' rest' (p & x & y & Hp & E & -> & -> & Hu) (p' & x' & y' & Hp' & E' & -> & -> & Hu'). rewrite E in E'.
  apply prefix_det in E' as [_ E']; auto. injection E' as -> -> E'. assert (length uid = length uid') as L by (unfold len in *; lia).
  assert (uid = uid' /\ rest = rest') as [-> ->]; [|auto]. clear - L E'. revert uid' L E'. induction uid as [|c u IH]; intros [|c' u'] L E'; try discriminate; auto.
  injection E' as -> E'. injection L as L. destruct (IH u' L E') as [-> ->]. auto.
Qed.
Lemma ct_load_bad_header : forall c input, (forall v a uid rest, has_header input v a uid rest -> 170 < v \/ ~ known_scheme a) ->
  exists e, snd (ct_load K mktime c input) = Throw e /\ ct_parts (fst (ct_load K mktime c input)) = ct_parts c.
Proof.
  intros c input H. destruct (ct_load_cases c input) as [X|(v & a & uid & rest & i & Hh & Hv & Ha & _)]; [exact X|]. exfalso. destruct (H _ _ _ _ Hh); [lia|tauto].
Qed.
Lemma ct_load_outcome : forall c input, curve_safe K ->
  match snd (ct_load K mktime c input) with
  | Ok _ | Throw _ => True
  | _ => exists k k' body value, slice_of input k body /\ slice_of body k' value /\ crashing K mktime value
  end.
Proof.
  intros c input HS. destruct (ct_load_cases c input) as [(e & X & _)|(v & a & uid & rest & i & _ & _ & _ & X)].
  - rewrite X. exact Logic.I.
  - rewrite X. apply load_body_outcome. exact HS.
Qed.
Lemma ct_load_nulls : forall c input c' name, ct_load K mktime c input = (c', Ok tt) -> mget name (ct_parts c') = Some None ->
  mget name (ct_parts c) = Some None \/ exists k k' body value q, slice_of input k body /\ slice_of body k' value /\ (exists r, value = z2b 122 :: r) /\ create_policy_tree mktime value = Ok (Some q).
Proof.
  intros c input c' name E H. destruct (ct_load_cases c input) as [(e & X & _)|(v & a & uid & rest & i & _ & _ & _ & X)]; [rewrite E in X; discriminate|].
  rewrite E in X. symmetry in X. unfold load_body in X. destruct (smart_unpack input i) as [j [body| | | |]] eqn:Eu; cbn [snd] in X; try discriminate.
  destruct (0 <? len body) eqn:Eb; [|discriminate]. cbn [ct_parts] in X. unfold deserialize in X. destruct (deserialize_loop K mktime (S (length body)) body 0 (ct_parts c)) as [p r] eqn:Ed.
  injection X as <- ->. cbn [with_parts ct_parts] in H. apply (loop_nulls _ _ _ _ _ name) in Ed; [|exact H]. destruct Ed as [Ed|(k' & value & q & S1 & S2 & S3)]; [auto|].
  destruct (slice_inside _ _ _ _ Eu) as [Z0|[k Hk]]; [subst body; discriminate|]. right. exists k, k', body, value, q. auto.
Qed.

(** ** Keys *)
Lemma key_header_cases : forall blob bytes random,
  (exists e, parse_key_header K blob bytes random = Throw e) \/
  (exists v a uid id rest k body, has_key_header blob v a uid id rest /\ v <= 170 /\ known_scheme a /\
     parse_key_header K blob bytes random = Ok (k, body) /\ k_alg k = a /\ k_uid k = uid /\ k_id k = id /\ k_parts k = []).
Proof.
  intros blob bytes random. unfold parse_key_header, construct_key. destruct (len blob <? 18) eqn:E0; [left; eexists; reflexivity|].
  pose proof (unpack_safe_lemma blob 0) as X. destruct (unpack blob 0) as [[h i]|e| | |] eqn:E1; cbn [bind]; try (exfalso; exact X); [|left; eexists; reflexivity].
  destruct (18 <=? len h) eqn:Eh; [|left; eexists; reflexivity].
  destruct h as [|v [|a h]]; [discriminate|discriminate|].
  change (at_ (v :: a :: h) 0) with (Ok (b2z v)). change (at_ (v :: a :: h) 1) with (Ok (b2z a)). cbn [bind].
  destruct (b2z v <=? 170) eqn:Ev; [|left; eexists; reflexivity].
  destruct (in_dec Z.eq_dec (b2z a) [0; 60; 70; 71; 72; 100; 101; 102; 201; 202]) as [Ha|Ha].
  2: { rewrite (scheme_else (b2z a) Ha). left. eexists. reflexivity. }
  rewrite (proj1 (scheme_known (b2z a)) Ha).
  (* the header's bytes *)
  unfold unpack in E1. destruct blob as [|b0 [|b1 [|b2 [|b3 tl]]]]; try discriminate. unfold at_ in E1. cbn [Nat.add nth_error bind] in E1.
  pose proof (b2z_range b0). pose proof (b2z_range b1). pose proof (b2z_range b2). pose proof (b2z_range b3).
  match type of E1 with context [unpack_body ?b ?i ?n] => pose proof (unpack_body_safe b i n ltac:(lia) ltac:(cbn; lia)) as Y; destruct (unpack_body b i n) as [[s k]| | | |]; try discriminate end.
  injection E1 as -> ->. destruct Y as (Sl & Ej & _ & El). apply (slice_after [b0; b1; b2; b3] tl) in Sl as [rest ->].
  rewrite !len_cons in El, Eh. set (uid := firstn 16 h). set (id := skipn 16 h). assert (h = uid ++ id) as Eh2 by (symmetry; apply firstn_skipn).
  assert (len uid = 16) as Lu by (unfold uid, len; rewrite firstn_length; unfold len in Eh; lia). assert (len h = len uid + len id) as Lh2 by (rewrite <- len_app, <- Eh2; reflexivity). assert (len id = len h - 16) as Li by lia.
  clearbody uid id.
  assert (len h < 2^32) as Lh by lia.
  assert (get_subset (v :: a :: h) 2 16 = Ok uid) as ->.
  { pose proof (subset_whole uid id ltac:(lia) ltac:(rewrite <- Eh2; lia) [v; a]) as Y. rewrite <- Eh2, Lu in Y. apply Y. rewrite len_app, !len_cons. change (len []) with 0. lia. }
  cbn [bind]. rewrite !len_cons.
  assert ((if 18 <? len h + 1 + 1 then get_subset (v :: a :: h) 18 (len h + 1 + 1 - 18) else Ok []) = Ok id) as ->.
  { destruct (18 <? len h + 1 + 1) eqn:E18.
    - pose proof (subset_whole id [] ltac:(lia) ltac:(rewrite len_app; change (len []) with 0; lia) (v :: a :: uid)) as Y.
      rewrite app_nil_r in Y. cbn [app] in Y. rewrite <- Eh2, !len_cons, Lu in Y. replace (len h + 1 + 1 - 18) with (len id) by lia. apply Y. lia.
    - assert (len id = 0) as Z0 by lia. unfold len in Z0. destruct id; [reflexivity|cbn in Z0; lia]. }
  cbn [bind].
  match goal with |- context [unpack ?b ?i] => pose proof (unpack_safe_lemma b i) as Y; destruct (unpack b i) as [[body j]|e| | |]; cbn [bind fst]; try (exfalso; exact Y) end; [|left; eexists; reflexivity].
  right. exists (b2z v), (b2z a), uid, id, rest. eexists _, _. split; [|split; [lia|split; [exact Ha|split; [reflexivity|]]]].
  - exists v, a. split; [|auto]. rewrite Eh2. cbn [app]. rewrite <- app_assoc. unfold be32. cbn [app].
    set (n := 18 + len id). assert (b2z b0 * 2^24 + b2z b1 * 2^16 + b2z b2 * 2^8 + b2z b3 = n) as En by (unfold n; lia).
    rewrite (byte_is b0 (b2z b0)), (byte_is b1 (b2z b1)), (byte_is b2 (b2z b2)), (byte_is b3 (b2z b3)) by reflexivity.
    rewrite <- En. change (2^24) with 16777216. change (2^16) with 65536. change (2^8) with 256.
    replace ((b2z b0 * 16777216 + b2z b1 * 65536 + b2z b2 * 256 + b2z b3) / 16777216) with (b2z b0) by (apply Z.div_unique with (r := b2z b1 * 65536 + b2z b2 * 256 + b2z b3); lia).
    assert (forall x k, 0 <= k -> z2b (x + 256 * k) = z2b x) as M by (intros x k Hk; unfold z2b; rewrite (Z.mul_comm 256), Z.mod_add by lia; reflexivity).
    replace ((b2z b0 * 16777216 + b2z b1 * 65536 + b2z b2 * 256 + b2z b3) / 65536) with (b2z b1 + 256 * b2z b0) by (apply Z.div_unique with (r := b2z b2 * 256 + b2z b3); lia).
    replace ((b2z b0 * 16777216 + b2z b1 * 65536 + b2z b2 * 256 + b2z b3) / 256) with (b2z b2 + 256 * (b2z b1 + 256 * b2z b0)) by (apply Z.div_unique with (r := b2z b3); lia).
    replace (b2z b0 * 16777216 + b2z b1 * 65536 + b2z b2 * 256 + b2z b3) with (b2z b3 + 256 * (b2z b2 + 256 * (b2z b1 + 256 * b2z b0))) by lia.
    rewrite !M by lia. reflexivity.
  - unfold new_key. cbn [k_alg k_uid k_id k_parts]. rewrite Lu. auto.
Qed.
End L.
