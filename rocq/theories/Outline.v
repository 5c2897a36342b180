(** Proofs about what ciphertexts and keys show (OutlineSpec.v). *)
From Verif Require Import Base StrMap ByteString ByteStringProofs UInteger Field Policy Driver Parser AttrList Utils Kdf Lsss LsssSpec LsssShare Container ContainerProofs Keystore Scheme SchemeSpec SchemeStep OutlineSpec PropUtil PropPlain PropFresh.
From Coq Require Import ZArith List Ascii Bool Lia Sorted Permutation.
Import ListNotations.
Open Scope Z_scope.

(** ** Views *)
Lemma view_set : forall (K : curve) name (o : option (zobj K)) c, view (mset name o c) = mset name (see name o) (view c).
Proof.
  intros K name o. induction c as [|[k v] c IH]; [reflexivity|]. cbn [mset view map]. destruct (str_eqb name k) eqn:E; [reflexivity|]. destruct (str_ltb name k); [reflexivity|].
  cbn [map]. f_equal. exact IH.
Qed.
Lemma copy_same : forall l, copy_list l = l.
Proof. intros []. reflexivity. Qed.
Lemma view_put : forall (K : curve) (c : container K) name o, (forall p, o <> OPolicy p) -> view (set_component c name o) = mset name (see name (Some o)) (view c).
Proof.
  intros K c name o H. unfold set_component. rewrite view_set. f_equal. destruct o; try reflexivity; [cbn [clone]; rewrite copy_same; reflexivity|]. destruct (H p eq_refl).
Qed.

(** ** The names of the rows *)
Lemma order_sorted : forall l, msorted (fold_right (fun n m => mset n tt m) [] l).
Proof. induction l as [|a l IH]; cbn; [apply msorted_nil|apply msorted_mset; exact IH]. Qed.
Lemma in_order_In : forall l x, In x (in_order l) <-> In x l.
Proof. unfold in_order. induction l as [|a l IH]; intro x; cbn [fold_right]; [reflexivity|]. rewrite mkeys_mset, IH. cbn. intuition. Qed.
Lemma keys_exact : forall A (m : smap A) l, msorted m -> (forall x, In x (mkeys m) <-> In x l) -> mkeys m = in_order l.
Proof.
  intros A m l S H. assert (mkeys m = mkeys (map (fun e => (fst e, tt)) m)) as -> by (unfold mkeys; rewrite map_map; reflexivity).
  unfold in_order. f_equal. apply smap_ext.
  - clear H. induction S as [|[k v] m S IH F]; cbn; constructor; [exact IH|]. apply Forall_forall. intros e I. apply in_map_iff in I as (y & <- & I). rewrite Forall_forall in F. exact (F y I).
  - apply order_sorted.
  - intro k. assert (forall (m1 m2 : smap unit), (In k (mkeys m1) <-> In k (mkeys m2)) -> mget k m1 = mget k m2) as X.
    { intros m1 m2 Q. destruct (mget k m1) as [[]|] eqn:E1; destruct (mget k m2) as [[]|] eqn:E2; try reflexivity.
      - apply mget_None in E2. destruct E2. apply Q. apply mget_In in E1. apply (in_map fst) in E1. exact E1.
      - apply mget_None in E1. destruct E1. apply Q. apply mget_In in E2. apply (in_map fst) in E2. exact E2. }
    apply X. change (mkeys (fold_right (fun n m0 => mset n tt m0) [] l)) with (in_order l). rewrite in_order_In, <- H. unfold mkeys. rewrite map_map. reflexivity.
Qed.
Lemma numbered_fst : forall p cs (ks : list node) j, map (fun x : nat * node => fst (let '(i, c) := x in (c, eval_poly p cs (Z.of_nat (i + 1))))) (combine (seq j (length ks)) ks) = ks.
Proof. intros p cs. induction ks as [|a ks IH]; intro j; [reflexivity|]. cbn. f_equal. apply IH. Qed.
Lemma shares_named : forall p cnt t fuel stack off rows rows' off', msorted rows -> share_loop false p cnt t fuel stack off rows = Ok (rows', off') ->
  msorted rows' /\ (forall x, In x (mkeys rows') <-> In x (mkeys rows) \/ In x (map (unique_label cnt) (flat_map leaves (map fst stack)))).
Proof.
  intros p cnt t. induction fuel as [|f IH]; intros [|[n s] rest] off rows rows' off' S H; cbn [share_loop] in H.
  - injection H as <- <-. split; [exact S|]. intro x. cbn. tauto.
  - discriminate.
  - injection H as <- <-. split; [exact S|]. intro x. cbn. tauto.
  - destruct n as [g k pr l i ks]. cbn [ntype nkids] in H. set (n := Node g k pr l i ks) in *.
    assert (g = GateLeaf -> msorted rows' /\ (forall x, In x (mkeys rows') <-> In x (mkeys rows) \/ In x (map (unique_label cnt) (flat_map leaves (map fst ((n, s) :: rest)))))) as HL.
    { intros ->. apply IH in H; [|apply msorted_mset; exact S]. destruct H as [S' H]. split; [exact S'|]. intro x. rewrite H. unfold add_share. rewrite mkeys_mset. cbn. intuition. }
    assert (g <> GateLeaf -> (if threshold_value n =? 0 then Exit else
       share_loop false p cnt t f (rev (map (fun '(i, c) => (c, eval_poly p (set_first s (draw p t off (Z.to_nat (threshold_value n)))) (Z.of_nat (i + 1)))) (combine (seq 0 (length ks)) ks)) ++ rest) (off + Z.to_nat (threshold_value n)) rows) = Ok (rows', off') ->
       msorted rows' /\ (forall x, In x (mkeys rows') <-> In x (mkeys rows) \/ In x (map (unique_label cnt) (flat_map leaves (map fst ((n, s) :: rest)))))) as HG.
    { intros G X. destruct (threshold_value n =? 0); [discriminate|]. apply IH in X; [|exact S]. destruct X as [S' X]. split; [exact S'|]. intro x. rewrite X.
      assert (flat_map leaves (map fst ((n, s) :: rest)) = flat_map leaves ks ++ flat_map leaves (map fst rest)) as ->.
      { cbn [map fst flat_map]. f_equal. destruct g; try congruence; reflexivity. }
      rewrite map_app, flat_map_app, !map_app, !in_app_iff. apply or_iff_compat_l. apply or_iff_compat_r.
      rewrite map_rev, map_map, numbered_fst.
      rewrite !in_map_iff. split; intros (y & E & I); exists y; (split; [exact E|]); apply in_flat_map in I as (c & I1 & I2); apply in_flat_map; exists c; (split; [|exact I2]); [apply in_rev; exact I1|apply in_rev in I1; exact I1]. }
    destruct g; auto; (apply HG; [discriminate|exact H]).
Qed.

Section Codes.
Context (E : engine).
Notation K := (e_curve E).
Notation code := (code E).
Notation hash := (e_hash E).
Lemma share_rows : forall q s w w' rows, share E q s w = (w', Ok rows) -> mkeys rows = in_order (leaf_names q).
Proof.
  intros q s w w' rows H. unfold share, share_secret in H. destruct (proot q) as [r|] eqn:R; [|discriminate].
  destruct (share_loop _ _ _ _ _ _ _ _) as [[rs off]|e| | |] eqn:El; try discriminate. cbn in H. injection H as _ <-.
  apply shares_named in El as [S X]; [|apply msorted_nil]. apply keys_exact; [exact S|]. intro x. rewrite X. unfold leaf_names. rewrite R. cbn [map fst flat_map mkeys]. rewrite app_nil_r. cbn. tauto.
Qed.

(** What is seen of the ciphertext of a state: its header and its parts. *)
Definition looks (w : world E) : Z * Z * str * smap sight := (ct_version (w_ct E w), ct_alg (w_ct E w), ct_uid (w_ct E w), view (ct_parts (w_ct E w))).
Definition on_parts (f : smap sight -> smap sight) : Z * Z * str * smap sight -> Z * Z * str * smap sight := fun '(a, b, c, v) => (a, b, c, f v).
(** When [m] ends normally, what is seen changes by [f]. *)
Definition turns {A} (m : code A) (f : Z * Z * str * smap sight -> Z * Z * str * smap sight) : Prop := forall w w' a, m w = (w', Ok a) -> looks w' = f (looks w).
Definition calm {A} (m : code A) : Prop := turns m (fun v => v).
Lemma turns_then : forall A B (m : code A) (P : A -> Prop) (g : A -> code B) f h, turns m f -> (forall w w' a, m w = (w', Ok a) -> P a) -> (forall a, P a -> turns (g a) h) -> turns (andthen E m g) (fun v => h (f v)).
Proof. intros A B m P g f h Hm Hp Hg w w' b H. apply then_inv in H as (a & w1 & H1 & H2). rewrite (Hg a (Hp _ _ _ H1) _ _ _ H2), (Hm _ _ _ H1). reflexivity. Qed.
Lemma calm_then : forall A B (m : code A) (g : A -> code B) h, calm m -> (forall a, turns (g a) h) -> turns (andthen E m g) h.
Proof. intros A B m g h Hm Hg w w' b H. apply then_inv in H as (a & w1 & H1 & H2). rewrite (Hg a _ _ _ H2), (Hm _ _ _ H1). reflexivity. Qed.
Lemma put_then : forall sg B name o (g : unit -> code B) h f, (forall p, o <> OPolicy p) -> see name (Some o) = sg -> (forall a, turns (g a) h) -> (forall v, h (on_parts (mset name sg) v) = f v) -> turns (andthen E (set_part E name o) g) f.
Proof.
  intros sg B name o g h f N Sg Hg F w w' b H. apply then_inv in H as (a & w1 & H1 & H2). rewrite (Hg a _ _ _ H2), <- F. f_equal. injection H1 as <- _.
  unfold looks, on_parts. cbn [w_ct set_ct ct_set_component ct_version ct_alg ct_uid ct_parts]. rewrite view_put, Sg by exact N. reflexivity.
Qed.
Lemma put_next : forall sg B name o (g : unit -> code B) h, (forall p, o <> OPolicy p) -> see name (Some o) = sg -> (forall a, turns (g a) h) -> turns (andthen E (set_part E name o) g) (fun v => h (on_parts (mset name sg) v)).
Proof. intros sg B name o g h N Sg Hg. eapply put_then; eauto. Qed.
Lemma calm_key_part : forall A (cast : zobj K -> option A) cl id n, calm (key_part E cast cl id n).
Proof. intros A cast cl id n w w' a H. apply key_part_inv in H as [-> _]. reflexivity. Qed.
Lemma calm_deref : forall A (o : option A), calm (deref E o).
Proof. intros A o w w' a H. apply deref_inv in H as [-> _]. reflexivity. Qed.
Lemma calm_lift : forall A (r : res A), calm (lift E r).
Proof. intros A r w w' a H. injection H as <- _. reflexivity. Qed.
Lemma calm_ret : forall A (a : A), calm (ret E a).
Proof. intros A r w w' a H. injection H as <- _. reflexivity. Qed.
Lemma calm_tick : forall A (f : nat -> A), calm (tick E f).
Proof. intros A f w w' a H. injection H as <- _. reflexivity. Qed.
Lemma calm_public : forall id, calm (public_key E id).
Proof. intros id w w' a H. unfold public_key in H. destruct (get_public_key _ _). injection H as <- _. reflexivity. Qed.
Lemma calm_secret : forall id, calm (secret_key E id).
Proof. intros id w w' a H. unfold secret_key in H. destruct (get_secret_key _ _). injection H as <- _. reflexivity. Qed.
Lemma calm_throw : forall A e f, turns (throw E (A := A) e) f.
Proof. intros A e f w w' a H. discriminate. Qed.
Lemma calm_share : forall q s, calm (share E q s).
Proof. intros q s w w' a H. apply share_inv in H as (off & -> & _). reflexivity. Qed.
Lemma calm_sym : forall x n, calm (hash_to_sym E x n).
Proof.
  intros x n w w' a H. unfold hash_to_sym in H. apply then_inv in H as (k & w1 & H1 & H2). injection H1 as <- _. destruct (negb _ && negb _); [discriminate|]. injection H2 as <- _. reflexivity.
Qed.
Lemma turns_ext : forall A (m : code A) f g, turns m f -> (forall v, f v = g v) -> turns m g.
Proof. intros A m f g H X w w' a R. rewrite <- X. exact (H _ _ _ R). Qed.
Ltac calms := repeat first [apply calm_key_part|apply calm_deref|apply calm_lift|apply calm_tick|apply calm_public|apply calm_secret|apply calm_share|apply calm_sym].
Ltac walk := repeat (apply calm_then; [solve [calms]|intro]).
Lemma cp_loop_turns : forall mpk k rows, turns (cp_enc_loop E mpk k rows)
  (on_parts (fold_left (fun v u => mset (name_of hash (L "C") u) SG1 (mset (name_of hash (L "D") u) SG2 v)) (mkeys rows))).
Proof.
  intros mpk k rows. induction rows as [|[u [lab e]] rows IH]; cbn [cp_enc_loop].
  - intros w w' a H. injection H as <- _. destruct w as [? ? [] ?]. reflexivity.
  - walk. eapply (put_then SG2); [discriminate|reflexivity| |].
    + intros []. walk. eapply (put_then SG1); [discriminate|reflexivity|intros []; exact IH|]. intro v. reflexivity.
    + intros [[[? ?] ?] ?]. reflexivity.
Qed.
Lemma cp_loop_keys : forall mpk k rows keys, mkeys rows = keys -> turns (cp_enc_loop E mpk k rows)
  (on_parts (fold_left (fun v u => mset (name_of hash (L "C") u) SG1 (mset (name_of hash (L "D") u) SG2 v)) keys)).
Proof. intros mpk k rows keys <-. apply cp_loop_turns. Qed.
Lemma kp_loop_turns : forall k t attrs, turns (kp_enc_loop E k t attrs) (on_parts (fold_left (fun v a => mset (name_of hash (L "C") a) SG1 v) attrs)).
Proof.
  intros k t attrs. induction attrs as [|a l IH]; cbn [kp_enc_loop].
  - intros w w' a H. injection H as <- _. destruct w as [? ? [] ?]. reflexivity.
  - walk. eapply (put_then SG1); [discriminate|reflexivity|intros []; exact IH|]. intros [[[x y] z] v]. reflexivity.
Qed.
(** setSchemeType. *)
Definition as_scheme (alg : Z) : Z * Z * str * smap sight -> Z * Z * str * smap sight := fun '(a, _, c, v) => (a, alg, c, v).
Lemma scheme_turns : forall alg, turns (set_scheme E alg) (as_scheme alg).
Proof. intros alg w w' a H. injection H as <- _. reflexivity. Qed.

(** The parts of a ciphertext before the message is added. *)
Definition kem_parts (s : scheme) (inp : input) (v : smap sight) : smap sight :=
  match s, inp with
  | CP, InPolicy q => fold_left (fun v u => mset (name_of hash (L "C") u) SG1 (mset (name_of hash (L "D") u) SG2 v)) (in_order (leaf_names q)) (mset (L "Cprime") SG1 (mset (L "policy") (SText (ptext q)) v))
  | KP, InAttrs l => mset (L "attributes") (SAttrs l) (fold_left (fun v a => mset (name_of hash (L "C") a) SG1 v) (aattrs l) (mset (L "Cpr2") SG2 v))
  | _, _ => v
  end.
Lemma by_turns : forall A (m : code A) f w w' a r, m w = (w', Ok a) -> turns m f -> f (looks w) = r -> looks w' = r.
Proof. intros A m f w w' a r H T R. rewrite (T _ _ _ H). exact R. Qed.
Lemma kem_looks : forall s mpk inp n w w', encrypt_kem E s mpk inp n w = (w', Ok 0) ->
  (match s, inp with CP, InPolicy _ | KP, InAttrs _ => True | _, _ => False end) /\
  looks w' = (fun '(a, _, c, v) => (a, alg_of s, c, kem_parts s inp v)) (looks w).
Proof.
  intros [] mpk inp n w w' H; cbn [encrypt_kem] in H; [unfold cp_encrypt_kem in H|unfold kp_encrypt_kem in H]; (apply catch_inv in H; [|destruct inp; nzs]); destruct inp as [q|l|]; try discriminate; (split; [exact I|]).
  - go H. destruct v as [kp|]; [|discriminate]. rewrite <- (calm_public _ _ _ _ R). eapply by_turns; [exact H| |].
    + do 4 (apply calm_then; [solve [calms]|intro]). eapply (turns_then _ _ _ (fun rows => mkeys rows = in_order (leaf_names q))); [apply calm_share|intros ? ? ? X; exact (share_rows _ _ _ _ _ X)|]. intros rows Hr.
      eapply (put_next (SText (ptext q))); [discriminate|reflexivity|]. intros _. walk. eapply (put_next SG1); [discriminate|reflexivity|]. intros _.
      eapply (turns_then _ _ _ (fun _ => True)); [exact (cp_loop_keys _ _ _ _ Hr)|auto|]. intros _ _. walk. eapply (turns_then _ _ _ (fun _ => True)); [apply scheme_turns|auto|]. intros _ _. apply calm_ret.
    + destruct (looks w0) as [[[a b] c] v]. reflexivity.
  - go H. destruct v as [kp|]; [|discriminate]. rewrite <- (calm_public _ _ _ _ R). eapply by_turns; [exact H| |].
    + walk. eapply (put_next SG2); [discriminate|reflexivity|]. intros _.
      eapply (turns_then _ _ _ (fun _ => True)); [apply kp_loop_turns|auto|]. intros _ _.
      eapply (put_next (SAttrs l)); [discriminate|reflexivity|]. intros _. walk. eapply (turns_then _ _ _ (fun _ => True)); [apply scheme_turns|auto|]. intros _ _. apply calm_ret.
    + destruct (looks w0) as [[[a b] c] v]. reflexivity.
Qed.
Lemma hash_loop_calm : forall h set inc step n count buf off mem e, hash_loop h set inc step n count buf off mem <> Throw e.
Proof.
  intros h set inc step. induction n as [|n IH]; intros count buf off mem e; cbn [hash_loop]; [discriminate|]. unfold write_at. destruct (_ <=? _)%nat; cbn [bind]; [apply IH|discriminate].
Qed.
Lemma nz_mask : forall k n, nz E (lift E (mask E k n)).
Proof.
  intros k n w w' H. injection H as _ H. revert H. unfold mask, hash_from_bytes, ceil_div. destruct (md_len =? 0); cbn [bind]; [discriminate|]. unfold vla. destruct (_ <? _); cbn [bind]; [|discriminate].
  match goal with |- bind ?x _ = _ -> _ => destruct x as [m|e| | |] eqn:Eh; cbn [bind]; try discriminate end.
  - destruct (_ <=? _); discriminate.
  - intros _. exact (hash_loop_calm _ _ _ _ _ _ _ _ _ _ Eh).
Qed.
Lemma nz_xor : forall a b, nz E (lift E (xor_assign a b)).
Proof. intros [|x a] [|y b] w w'; discriminate. Qed.
Lemma nz_catch : forall m, nz E (catch_code E m).
Proof. intros m w w' H. unfold catch_code in H. destruct (m w) as [w1 [|[]| | |]]; discriminate. Qed.
Lemma xor_len : forall a b c, xor_assign a b = Ok c -> len c = len a.
Proof.
  intros [|x a] [|y b] c H; cbn [xor_assign] in H; try discriminate H; apply (f_equal (fun r => match r with Ok z => z | _ => [] end)) in H; cbv beta iota in H; subst c; try reflexivity. unfold len. rewrite xor_loop_length. reflexivity.
Qed.
Lemma encrypt_looks : forall s mpk inp pt w w', encrypt E s mpk inp pt w = (w', Ok 0) ->
  (match s, inp with CP, InPolicy _ | KP, InAttrs _ => True | _, _ => False end) /\
  looks w' = (fun '(a, _, c, v) => (a, alg_of s, c, mset (L "_ED") (SSealed (len pt)) (kem_parts s inp v))) (looks w).
Proof.
  intros s mpk inp pt w w' H. unfold encrypt in H. apply catch_inv in H.
  2: { apply nz_then; [intros x y; discriminate|]. intros _. apply nz_then; [destruct s; apply nz_catch|]. intro r. destruct (r =? 0) eqn:Er; cbn [negb].
       - apply nz_then; [intros x y; discriminate|]. intro k. apply nz_then; [apply nz_mask|]. intro m. apply nz_then; [apply nz_xor|]. intro c. apply nz_then; [intros x y; discriminate|]. intros _ x y; discriminate.
       - intros x y X. injection X as _ ->. discriminate. }
  go H. injection R as <- _. go H. destruct (v0 =? 0) eqn:Ev; cbn [negb] in H; [|discriminate]. apply Z.eqb_eq in Ev. subst v0.
  apply kem_looks in R. destruct R as [T R]. split; [exact T|]. go H. injection R0 as <- _. go H. injection R0 as <- Em. go H. injection R0 as <- Ex. go H. injection R0 as <- _. injection H as <-.
  change (looks (set_sym E w [])) with (looks w) in R. unfold looks in R |- *. cbn [w_ct set_ct ct_set_component ct_version ct_alg ct_uid ct_parts]. rewrite view_put by discriminate. injection R as -> -> -> ->. cbn [see str_eqb]. 
  rewrite (xor_len _ _ _ Ex). reflexivity.
Qed.

(** ** Keys *)
Definition like (k k' : key K) : Prop := k_version k' = k_version k /\ k_alg k' = k_alg k /\ k_uid k' = k_uid k /\ k_id k' = k_id k /\ k_type k' = k_type k.
Lemma key_put : forall (k : key K) name o, (forall p, o <> OPolicy p) -> like k (key_set_component k name o) /\ view (k_parts (key_set_component k name o)) = mset name (see name (Some o)) (view (k_parts k)).
Proof. intros k name o N. split; [repeat split|]. cbn [key_set_component k_parts]. apply view_put. exact N. Qed.
Lemma like_trans : forall a b c, like a b -> like b c -> like a c.
Proof. unfold like. intuition congruence. Qed.
Lemma cp_key_view : forall k t attrs dec w w' dec', cp_key_loop E k t attrs dec w = (w', Ok dec') ->
  like dec dec' /\ view (k_parts dec') = fold_left (fun v a => mset (name_of hash (L "KX") a) SG1 v) attrs (view (k_parts dec)).
Proof.
  intros k t attrs. induction attrs as [|a l IH]; intros dec w w' dec' H; cbn [cp_key_loop] in H.
  - injection H as _ <-. split; [repeat split|reflexivity].
  - go H. apply IH in H as [H1 H2]. match type of H1 with like (key_set_component _ ?n ?o) _ => destruct (key_put dec n o ltac:(discriminate)) as [P1 P2] end.
    split; [exact (like_trans _ _ _ P1 H1)|]. rewrite H2, P2. reflexivity.
Qed.
Lemma kp_key_view : forall mpk k rows dec w w' dec', kp_key_loop E mpk k rows dec w = (w', Ok dec') ->
  like dec dec' /\ view (k_parts dec') = fold_left (fun v u => mset (name_of hash (L "d") u) SG2 (mset (name_of hash (L "D") u) SG1 v)) (mkeys rows) (view (k_parts dec)).
Proof.
  intros mpk k rows. induction rows as [|[u [lab e]] rows IH]; intros dec w w' dec' H; cbn [kp_key_loop] in H.
  - injection H as _ <-. split; [repeat split|reflexivity].
  - do 6 go H. apply IH in H as [H1 H2]. match type of H1 with like (key_set_component (key_set_component _ ?n ?o) ?n2 ?o2) _ => destruct (key_put dec n o ltac:(discriminate)) as [P1 P2]; destruct (key_put (key_set_component dec n o) n2 o2 ltac:(discriminate)) as [Q1 Q2] end.
    split; [exact (like_trans _ _ _ P1 (like_trans _ _ _ Q1 H1))|]. rewrite H2, Q2, P2. reflexivity.
Qed.
Lemma put_found : forall id k w w', put_key E id k KEY_SECRET w = (w', Ok tt) -> mget id (sec_keys (w_store E w')) = Some (Some k).
Proof. intros id k w w' H. injection H as <-. cbn. apply mget_mset_same. Qed.
Lemma made_key : forall alg id w w' k, make_key E alg id w = (w', Ok k) -> k_parts k = [] /\ k_version k = 170 /\ k_alg k = alg /\ k_id k = id /\ k_type k = key_type_of alg.
Proof. intros alg id w w' k H. unfold make_key in H. go H. injection H as _ <-. cbn. auto. Qed.
Lemma keygen_looks : forall s inp id mpk msk w w', keygen E s inp id mpk msk w = (w', Ok 0) ->
  (match s, inp with CP, InAttrs _ | KP, InPolicy _ => True | _, _ => False end) /\
  exists k, mget id (sec_keys (w_store E w')) = Some (Some k) /\ k_version k = 170 /\ k_alg k = alg_of s /\ k_id k = id /\ view (k_parts k) = key_shown hash s inp.
Proof.
  intros [] inp id mpk msk w w' H; cbn [keygen] in H; [unfold cp_keygen in H|unfold kp_keygen in H]; (apply catch_inv in H; [|destruct inp; nzs]); destruct inp as [q|l|]; try discriminate; (split; [exact I|]).
  - do 2 go H. destruct v as [kp|]; [|discriminate]. destruct v0 as [ks|]; [|discriminate]. go H. go H. apply made_key in R2 as (P0 & P1 & P2 & P3 & P4). do 9 go H. 
    do 2 go H. match goal with X : cp_key_loop _ _ _ _ _ _ = (_, Ok ?d) |- _ => apply cp_key_view in X as [X1 X2]; exists d end.
    match goal with X : put_key _ _ _ _ _ = (_, Ok ?u) |- _ => destruct u; apply put_found in X; rename X into F end. injection H as <-. split; [exact F|].
    unfold like in X1. cbn [key_set_component k_version k_alg k_id] in X1. destruct X1 as (A1 & A2 & _ & A4 & _). split; [congruence|]. split; [cbn [alg_of]; congruence|]. split; [congruence|].
    rewrite X2. cbn [key_set_component k_parts]. rewrite !view_put by discriminate. rewrite P0. reflexivity.
  - do 2 go H. destruct v as [kp|]; [|discriminate]. destruct v0 as [ks|]; [|discriminate]. go H. go H. apply made_key in R2 as (P0 & P1 & P2 & P3 & P4). do 2 go H. go H. apply share_rows in R4.
    do 2 go H. match goal with X : kp_key_loop _ _ _ _ _ _ = (_, Ok ?d) |- _ => apply kp_key_view in X as [X1 X2]; exists d end.
    match goal with X : put_key _ _ _ _ _ = (_, Ok ?u) |- _ => destruct u; apply put_found in X; rename X into F end. injection H as <-. split; [exact F|].
    unfold like in X1. cbn [key_set_component k_version k_alg k_id] in X1. destruct X1 as (A1 & A2 & _ & A4 & _). split; [congruence|]. split; [cbn [alg_of]; congruence|]. split; [congruence|].
    rewrite X2, R4. cbn [key_set_component k_parts]. rewrite !view_put by discriminate. rewrite P0. reflexivity.
Qed.
End Codes.

(** ** Lengths *)
Lemma len_firstn_mod : forall s, len (firstn (Z.to_nat (len s mod 2 ^ 32)) s) = len s mod 2 ^ 32.
Proof.
  intro s. unfold len. rewrite firstn_length. pose proof (Z.mod_le (Z.of_nat (length s)) (2 ^ 32) ltac:(lia) ltac:(reflexivity)). pose proof (Z.mod_pos_bound (Z.of_nat (length s)) (2 ^ 32) ltac:(reflexivity)). lia.
Qed.
Lemma smart_len : forall pre s, len (smart_pack pre s) = len pre + packed (len s).
Proof.
  intros pre s. pose proof (len_nonneg s) as N. unfold smart_pack, packed, pack32bits, pack16bits, pack8bits. destruct (65535 <? len s) eqn:E1; [|destruct (255 <? len s) eqn:E2; [|destruct (0 <? len s) eqn:E3]].
  - rewrite !len_app, len_firstn_mod. unfold len at 2 3. cbn. lia.
  - apply Z.ltb_ge in E1. rewrite !len_app, len_firstn_mod, Z.mod_small by lia. unfold len at 2 3. cbn. lia.
  - apply Z.ltb_ge in E1, E2. rewrite !len_app, len_firstn_mod, Z.mod_small by lia. unfold len at 2 3. cbn. lia.
  - apply Z.ltb_ge in E3. assert (len s = 0) as -> by lia. cbn. rewrite app_nil_r. lia.
Qed.
Lemma plain_len : forall (s : str) n, len (pack [] s) = n -> n = 4 + len s mod 2 ^ 32.
Proof. intros s n <-. unfold pack, pack32bits. rewrite !len_app. rewrite Z.mod_small by (apply Z.mod_pos_bound; reflexivity). rewrite len_firstn_mod. unfold len at 1 2. cbn. lia. Qed.
Definition writable (s : sight) : Prop := match s with SNull | SPolicy => False | _ => True end.
Lemma obj_len : forall (K : curve) n1 n2 nt old name (o : zobj K), writable (see name (Some o)) ->
  (match o with OG1 x => len (g1_out K x) = n1 | OG2 x => len (g2_out K x) = n2 | OGt x => len (gt_out K x) = nt | _ => True end) ->
  len (obj_serialize old o) = sight_size n1 n2 nt (see name (Some o)).
Proof.
  intros K n1 n2 nt old name o W R. destruct o; cbn [see obj_serialize] in *; try reflexivity; try (rewrite smart_len, R; reflexivity); [|destruct W].
  assert (len (bs_serialize b) = 5 + len b) as X. { unfold bs_serialize. change (z2b 29 :: be32 (len b mod 2 ^ 32) ++ b) with ((z2b 29 :: be32 (len b mod 2 ^ 32)) ++ b). rewrite len_app. unfold len at 1. cbn. lia. }
  destruct (str_eqb name (L "_ED")); exact X.
Qed.
Lemma serialize_len : forall (K : curve) n1 n2 nt (c : container K) old r, Forall writable (map snd (view c)) -> regular n1 n2 nt c ->
  exists out, serialize_loop c old r = Ok out /\ len out = len r + view_size n1 n2 nt (view c).
Proof.
  intros K n1 n2 nt. induction c as [|[k [o|]] c IH]; intros old r W R.
  - exists r. split; [reflexivity|]. cbn. lia.
  - cbn [view map snd] in W. inversion W as [|? ? W1 W2]; subst. cbn [serialize_loop].
    destruct (IH (obj_serialize old o) (smart_pack (smart_pack r k) (obj_serialize old o)) W2) as (out & E & H). { intros name x I. apply (R name x). right. exact I. }
    exists out. split; [exact E|]. rewrite H, !smart_len. cbn [view map fst snd view_size fold_right]. rewrite (obj_len K n1 n2 nt old k o W1 (R k o (or_introl eq_refl))). unfold view_size, view. lia.
  - cbn [view map snd see] in W. inversion W as [|? ? W1 _]; subst. destruct W1.
Qed.
Lemma writable_set : forall n s v, writable s -> Forall writable (map snd v) -> Forall writable (map snd (mset n s v)).
Proof. intros n s v W F. rewrite Forall_forall in *. intros x I. apply in_map_iff in I as ([k y] & <- & I). apply In_mset in I as [E|I]; [injection E as _ ->; exact W|]. apply F. apply (in_map snd) in I. exact I. Qed.
Lemma writable_fold : forall A (g : A -> smap sight -> smap sight) l v, (forall a v, Forall writable (map snd v) -> Forall writable (map snd (g a v))) -> Forall writable (map snd v) -> Forall writable (map snd (fold_left (fun v a => g a v) l v)).
Proof. intros A g l. induction l as [|a l IH]; intros v Hg F; [exact F|]. cbn. apply IH; auto. Qed.
Lemma writable_shown : forall h s inp n, Forall writable (map snd (shown h s inp n)).
Proof.
  intros h [] [q|l|] n; cbn [shown]; try constructor.
  - apply writable_set; [exact I|]. apply (writable_fold _ (fun u v => mset (name_of h (L "C") u) SG1 (mset (name_of h (L "D") u) SG2 v))).
    + intros a v F. apply writable_set; [exact I|]. apply writable_set; [exact I|exact F].
    + apply writable_set; [exact I|]. apply writable_set; [exact I|constructor].
  - apply writable_set; [exact I|]. apply writable_set; [exact I|]. apply (writable_fold _ (fun a v => mset (name_of h (L "C") a) SG1 v)).
    + intros a v F. apply writable_set; [exact I|exact F].
    + apply writable_set; [exact I|constructor].
Qed.
Lemma writable_key_shown : forall h s inp, Forall writable (map snd (key_shown h s inp)).
Proof.
  intros h [] [q|l|]; cbn [key_shown]; try constructor.
  - apply (writable_fold _ (fun a v => mset (name_of h (L "KX") a) SG1 v)).
    + intros a v F. apply writable_set; [exact I|exact F].
    + apply writable_set; [exact I|]. apply writable_set; [exact I|]. apply writable_set; [exact I|constructor].
  - apply (writable_fold _ (fun u v => mset (name_of h (L "d") u) SG2 (mset (name_of h (L "D") u) SG1 v))).
    + intros a v F. apply writable_set; [exact I|]. apply writable_set; [exact I|exact F].
    + apply writable_set; [exact I|constructor].
Qed.

(** ** Counting parts *)
Lemma set_count_le : forall A k (v : A) m, (length (mset k v m) <= S (length m))%nat.
Proof. intros A k v. induction m as [|[k' v'] m IH]; cbn; [lia|]. destruct (str_eqb k k'); cbn; [lia|]. destruct (str_ltb k k'); cbn; lia. Qed.
Lemma set_count_new : forall A k (v : A) m, ~ In k (mkeys m) -> length (mset k v m) = S (length m).
Proof.
  intros A k v. induction m as [|[k' v'] m IH]; intro N; cbn; [reflexivity|]. cbn in N. destruct (str_eqb k k') eqn:E; [apply str_eqb_eq in E; subst; tauto|]. destruct (str_ltb k k'); cbn; [reflexivity|]. rewrite IH; tauto.
Qed.
Lemma order_le : forall l, (length (in_order l) <= length l)%nat.
Proof. unfold in_order, mkeys. induction l as [|a l IH]; cbn [fold_right length]; [cbn; lia|]. rewrite map_length in *. pose proof (set_count_le _ a tt (fold_right (fun n m => mset n tt m) [] l)). lia. Qed.
Lemma order_NoDup : forall l, NoDup (in_order l).
Proof. intro l. apply msorted_NoDup. apply order_sorted. Qed.
Lemma order_all : forall l, NoDup l -> length (in_order l) = length l.
Proof. intros l N. apply Permutation_length. apply NoDup_Permutation; [apply order_NoDup|exact N|apply in_order_In]. Qed.
Section Count.
Variable hash : str -> str.
Lemma one_per : forall b l (v : smap sight) s, NoDup l -> (forall x y, In x l -> In y l -> hash_key hash x = hash_key hash y -> x = y) -> (forall x, In x l -> ~ In (name_of hash b x) (mkeys v)) ->
  length (fold_left (fun v a => mset (name_of hash b a) s v) l v) = (length v + length l)%nat.
Proof.
  intros b l. induction l as [|a l IH]; intros v s N C F; cbn [fold_left length]; [lia|]. inversion N as [|? ? Na N']; subst. rewrite IH.
  - rewrite set_count_new by (apply F; left; reflexivity). lia.
  - exact N'.
  - intros x y X Y. apply C; right; assumption.
  - intros x X I. rewrite mkeys_mset in I. destruct I as [I|I]; [|exact (F x (or_intror X) I)]. apply Na. unfold name_of in I. apply app_inv_head in I. apply app_inv_head in I. apply C in I; [subst; exact X|right; exact X|left; reflexivity].
Qed.
Lemma two_per : forall b1 b2 l (v : smap sight) s1 s2, (forall x y, name_of hash b1 x <> name_of hash b2 y) -> NoDup l -> (forall x y, In x l -> In y l -> hash_key hash x = hash_key hash y -> x = y) ->
  (forall x, In x l -> ~ In (name_of hash b1 x) (mkeys v) /\ ~ In (name_of hash b2 x) (mkeys v)) ->
  length (fold_left (fun v a => mset (name_of hash b2 a) s2 (mset (name_of hash b1 a) s1 v)) l v) = (length v + 2 * length l)%nat.
Proof.
  intros b1 b2 l. induction l as [|a l IH]; intros v s1 s2 D N C F; cbn [fold_left length]; [lia|]. inversion N as [|? ? Na N']; subst. rewrite IH.
  - destruct (F a (or_introl eq_refl)) as [F1 F2]. rewrite set_count_new; [rewrite set_count_new by exact F1; lia|]. rewrite mkeys_mset. intros [X|X]; [symmetry in X; exact (D _ _ X)|exact (F2 X)].
  - exact D.
  - exact N'.
  - intros x y X Y. apply C; right; assumption.
  - assert (forall b x, In x l -> name_of hash b x <> name_of hash b a) as Nb.
    { intros b x X I. apply Na. unfold name_of in I. apply app_inv_head in I. apply app_inv_head in I. apply C in I; [subst; exact X|right; exact X|left; reflexivity]. }
    intros x X. destruct (F x (or_intror X)) as [F1 F2]. rewrite !mkeys_mset. split; intros [I|[I|I]]; try tauto.
    + exact (D _ _ I).
    + exact (Nb _ _ X I).
    + exact (Nb _ _ X I).
    + symmetry in I. exact (D _ _ I).
Qed.
End Count.

(** ** Bounds on bytes *)
Lemma packed_le : forall n, 0 <= n -> 0 <= packed n <= n + 5.
Proof.
  intros n H. unfold packed. pose proof (Z.mod_pos_bound n (2 ^ 32) ltac:(reflexivity)). pose proof (Z.mod_le n (2 ^ 32) H ltac:(reflexivity)).
  destruct (65535 <? n); [|destruct (255 <? n); [|destruct (0 <? n)]]; lia.
Qed.
Section Bytes.
Variables n1 n2 nt : Z.
Hypothesis N1 : 0 <= n1.
Hypothesis N2 : 0 <= n2.
Hypothesis NT : 0 <= nt.
Definition positive_sight (s : sight) : Prop := match s with SSealed n => 0 <= n | _ => True end.
Lemma sight_nonneg : forall s, positive_sight s -> 0 <= sight_size n1 n2 nt s.
Proof.
  intros s P. pose proof (packed_le n1 N1). pose proof (packed_le n2 N2). pose proof (packed_le nt NT).
  destruct s; cbn [sight_size positive_sight] in *; try (pose proof (len_nonneg b)); try apply len_nonneg; lia.
Qed.
Lemma size_set : forall k s v, Forall (fun e => positive_sight (snd e)) v -> view_size n1 n2 nt (mset k s v) <= packed (len k) + packed (sight_size n1 n2 nt s) + view_size n1 n2 nt v.
Proof.
  intros k s. induction v as [|[k' s'] v IH]; intro F; cbn [mset].
  - cbn. lia.
  - inversion F as [|? ? P F']; subst. cbn [snd] in P. pose proof (packed_le _ (sight_nonneg s' P)). pose proof (packed_le _ (len_nonneg k')). specialize (IH F').
    destruct (str_eqb k k'); [|destruct (str_ltb k k')]; cbn [view_size fold_right fst snd] in *; fold (view_size n1 n2 nt v) in *; fold (view_size n1 n2 nt (mset k s v)); lia.
Qed.
Lemma positive_set : forall k s v, positive_sight s -> Forall (fun e => positive_sight (snd e)) v -> Forall (fun e => positive_sight (snd e)) (mset k s v).
Proof. intros k s v P F. rewrite Forall_forall in *. intros e I. apply In_mset in I as [->|I]; auto. Qed.
Lemma fold_size : forall A (g : A -> smap sight -> smap sight) c l v,
  (forall a v, Forall (fun e => positive_sight (snd e)) v -> Forall (fun e => positive_sight (snd e)) (g a v) /\ view_size n1 n2 nt (g a v) <= c + view_size n1 n2 nt v) ->
  Forall (fun e => positive_sight (snd e)) v ->
  Forall (fun e => positive_sight (snd e)) (fold_left (fun v a => g a v) l v) /\ view_size n1 n2 nt (fold_left (fun v a => g a v) l v) <= Z.of_nat (length l) * c + view_size n1 n2 nt v.
Proof.
  intros A g c l. induction l as [|a l IH]; intros v G F; cbn [fold_left length]; [split; [exact F|lia]|]. destruct (G a v F) as [G1 G2]. destruct (IH _ G G1) as [H1 H2]. split; [exact H1|lia].
Qed.
Variable hash : str -> str.
Hypothesis H32 : forall x : str, length (hash x) = 32%nat.
Lemma name_len : forall b u, len (name_of hash b u) <= len b + 17.
Proof. intros b u. unfold name_of. rewrite !len_app. pose proof (C70_length hash H32 u). change (len (L "_")) with 1. lia. Qed.
Lemma one_size : forall b s u v, positive_sight s -> Forall (fun e => positive_sight (snd e)) v ->
  Forall (fun e => positive_sight (snd e)) (mset (name_of hash b u) s v) /\ view_size n1 n2 nt (mset (name_of hash b u) s v) <= len b + 27 + sight_size n1 n2 nt s + view_size n1 n2 nt v.
Proof.
  intros b s u v P F. split; [apply positive_set; assumption|]. pose proof (size_set (name_of hash b u) s v F). pose proof (packed_le _ (len_nonneg (name_of hash b u))). pose proof (name_len b u). pose proof (packed_le _ (sight_nonneg s P)). lia.
Qed.
Lemma fixed_size : forall k s v, positive_sight s -> Forall (fun e => positive_sight (snd e)) v ->
  Forall (fun e => positive_sight (snd e)) (mset k s v) /\ view_size n1 n2 nt (mset k s v) <= len k + 10 + sight_size n1 n2 nt s + view_size n1 n2 nt v.
Proof.
  intros k s v P F. split; [apply positive_set; assumption|]. pose proof (size_set k s v F). pose proof (packed_le _ (len_nonneg k)). pose proof (packed_le _ (sight_nonneg s P)). lia.
Qed.
Lemma cp_size : forall q n, 0 <= n -> view_size n1 n2 nt (cp_shown hash q n) <= Z.of_nat (length (leaf_names q)) * (n1 + n2 + 68) + len (ptext q) + n + n1 + 61.
Proof.
  intros q n Hn. unfold cp_shown. pose proof (packed_le n1 N1). pose proof (packed_le n2 N2).
  destruct (fixed_size (L "policy") (SText (ptext q)) [] I (Forall_nil _)) as [A1 A2]. destruct (fixed_size (L "Cprime") SG1 _ I A1) as [B1 B2].
  destruct (fold_size _ (fun u v => mset (name_of hash (L "C") u) SG1 (mset (name_of hash (L "D") u) SG2 v)) (n1 + n2 + 68) (in_order (leaf_names q)) _
    (fun u v F => ltac:(destruct (one_size (L "D") SG2 u v I F) as [X1 X2]; destruct (one_size (L "C") SG1 u _ I X1) as [Y1 Y2]; split; [exact Y1|]; cbn [sight_size] in *; change (len (L "D")) with 1 in *; change (len (L "C")) with 1 in *; lia)) B1) as [C1 C2].
  destruct (fixed_size (L "_ED") (SSealed n) _ Hn C1) as [D1 D2]. pose proof (order_le (leaf_names q)) as O.
  cbn [sight_size] in *. change (len (L "policy")) with 6 in *. change (len (L "Cprime")) with 6 in *. change (len (L "_ED")) with 3 in *. cbn [view_size fold_right] in A2.
  assert (Z.of_nat (length (in_order (leaf_names q))) * (n1 + n2 + 68) <= Z.of_nat (length (leaf_names q)) * (n1 + n2 + 68)) by (apply Z.mul_le_mono_nonneg_r; lia). lia.
Qed.
Lemma kp_size : forall l n, 0 <= n -> view_size n1 n2 nt (kp_shown hash l n) <= Z.of_nat (length (aattrs l)) * (n1 + 34) + len (compact l) + n + n2 + 58.
Proof.
  intros l n Hn. unfold kp_shown. pose proof (packed_le n1 N1). pose proof (packed_le n2 N2).
  destruct (fixed_size (L "Cpr2") SG2 [] I (Forall_nil _)) as [A1 A2].
  destruct (fold_size _ (fun a v => mset (name_of hash (L "C") a) SG1 v) (n1 + 34) (aattrs l) _
    (fun u v F => ltac:(destruct (one_size (L "C") SG1 u v I F) as [X1 X2]; split; [exact X1|]; cbn [sight_size] in *; change (len (L "C")) with 1 in *; lia)) A1) as [C1 C2].
  destruct (fixed_size (L "attributes") (SAttrs l) _ I C1) as [B1 B2]. destruct (fixed_size (L "_ED") (SSealed n) _ Hn B1) as [D1 D2].
  cbn [sight_size] in *. change (len (L "Cpr2")) with 4 in *. change (len (L "attributes")) with 10 in *. change (len (L "_ED")) with 3 in *. cbn [view_size fold_right] in A2. lia.
Qed.
End Bytes.
