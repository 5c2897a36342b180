(** Exactly which ciphertexts a decryption with an issued key answers. *)
From Verif Require Import Base StrMap ByteString ByteStringProofs UInteger Field FieldProofs Policy Driver Parser AttrList Utils Kdf KdfProofs Lsss LsssSpec LsssRecover LsssShare LsssUse LsssFinal PolicySyntax Lexical PolicyMeaning ParserTop CreatePolicy ParserFinal PolicyUse NoThrow SchemeRows Container ContainerSpec ContainerProofs Keystore Scheme SchemeSpec SchemeStep SchemeCp SchemeKp SchemeFrame SchemeUse PropUtil SchemeFirm.
From Coq Require Import ZArith Znumtheory List Ascii Bool Lia Permutation.
Import ListNotations.
Open Scope Z_scope.

Section Harm.
Context (E : engine) (HE : lawful E).
Notation K := (e_curve E).
Notation short := (short_label E).
Notation calm := SchemeFirm.calm.

(** The step is answered unless [H] holds, and not when it does. *)
Definition verdict {A} (H : Prop) (x : world E * res A) : Prop := calm (snd x) /\ ~ H \/ ~ calm (snd x) /\ H.
Lemma verdict_catch : forall H m w, verdict H (m w) -> verdict H (catch_code E m w).
Proof. intros H m w V. unfold verdict, catch_code in *. destruct (m w) as [w1 r]. destruct r as [a|[]| | |]; exact V. Qed.
Lemma verdict_iff : forall A (H H' : Prop) (x : world E * res A), (H <-> H') -> verdict H x -> verdict H' x.
Proof. intros A H H' x HH [[A1 A2]|[A1 A2]]; [left|right]; tauto. Qed.
Lemma verdict_fails : forall A B (H : Prop) (m : code E A) (f : A -> code E B) w, ~ calm (snd (m w)) -> H -> verdict H (andthen E m f w).
Proof. intros A B H m f w N h. right. split; [|exact h]. unfold andthen. destruct (m w) as [w1 r]. destruct r as [a|[]| | |]; cbn [snd] in *; auto. exfalso. apply N. exact I. Qed.
Lemma verdict_refuses : forall A B (H : Prop) (m : code E A) (f : A -> code E B) w w1 e, m w = (w1, Throw (OpenABEError e)) -> ~ H -> verdict H (andthen E m f w).
Proof. intros A B H m f w w1 e Em h. left. split; [|exact h]. unfold andthen. rewrite Em. exact I. Qed.
Lemma tame_verdict : forall A w (H : Prop) (x : world E * res A), tame E True w x -> ~ H -> verdict H x.
Proof. intros A w H x (_ & _ & C) h. left. split; [apply C; exact I|exact h]. Qed.
Lemma verdict_then : forall A B (H : Prop) (m : code E A) (f : A -> code E B) w, verdict H (m w) ->
  (forall a w1, m w = (w1, Ok a) -> tame E True w1 (f a w1)) -> verdict H (andthen E m f w).
Proof.
  intros A B H m f w V Hf. unfold verdict, andthen in *. destruct (m w) as [w1 r]. destruct r; cbn [snd] in *; try exact V.
  destruct (Hf a w1 eq_refl) as (_ & _ & C). destruct V as [[_ V]|[V _]]; [left; split; [apply C; exact I|exact V]|exfalso; apply V; exact I].
Qed.
Lemma ct_part_lacks : forall A (cast : zobj K -> option A) n w, (forall o, ~ part E (ct_parts (w_ct E w)) n o) -> exists w1, ct_part E cast n w = (w1, Throw (OpenABEError 18)).
Proof.
  intros A cast n w H. unfold ct_part, andthen, ct_component, part in *. destruct (mget n (ct_parts (w_ct E w))) as [[x|]|] eqn:Em.
  - exfalso. apply (H x). reflexivity.
  - rewrite (get_null _ _ _ Em). eauto.
  - rewrite (get_missing _ _ _ Em). eauto.
Qed.
Lemma part_or : forall (c : container K) n, (exists o, part E c n o) \/ forall o, ~ part E c n o.
Proof. intros c n. unfold part. destruct (mget n c) as [[o|]|]; [left; eauto|right; intros o X; discriminate X|right; intros o X; discriminate X]. Qed.
Lemma part_fun : forall (c : container K) n o o', part E c n o -> part E c n o' -> o = o'.
Proof. unfold part. intros. congruence. Qed.

(** ** CP *)
Definition cp_harm (ct : container K) : Prop := exists s, part E ct (L "policy") (OBytes s) /\ forall q, create_policy_tree (e_mktime E) s <> Ok (Some q).
Lemma cp_legible_or : forall ct, cp_legible E ct /\ ~ cp_harm ct \/ cp_harm ct.
Proof.
  intro ct. assert ((forall s, ~ part E ct (L "policy") (OBytes s)) -> cp_legible E ct /\ ~ cp_harm ct) as Z.
  { intro N. split; [intros s Hs; exfalso; exact (N s Hs)|intros (s & Hs & _); exact (N s Hs)]. }
  destruct (part_or ct (L "policy")) as [(o & Ho)|N]; [|left; apply Z; intro s; apply N].
  destruct (as_bytes E o) as [s|] eqn:Eo.
  - apply as_bytes_inv in Eo as ->. destruct (create_policy_tree (e_mktime E) s) as [[q|]|e| | |] eqn:Eq; try (right; exists s; split; [exact Ho|]; intros q' X; congruence).
    left. split; [intros s' Hs'|intros (s' & Hs' & N)]; (pose proof (part_fun _ _ _ _ Ho Hs') as X; injection X as <-); [eauto|exact (N q Eq)].
  - left. apply Z. intros s Hs. rewrite (part_fun _ _ _ _ Ho Hs) in Eo. discriminate.
Qed.
Lemma cp_verdict : forall mpk kid k w, holds E KEY_SECRET kid k w -> cp_ready E (k_parts k) -> verdict (cp_harm (ct_parts (w_ct E w))) (cp_decrypt_kem E mpk kid 32 w).
Proof.
  intros mpk kid k w Hk Hr. destruct (cp_legible_or (ct_parts (w_ct E w))) as [[Y N]|Hh].
  { eapply tame_verdict; [eapply cp_kem_tame; eauto|exact N]. }
  destruct Hr as (l & x & y & A & B & C & D). pose proof Hh as (s & Hs & Nq). unfold cp_decrypt_kem. apply verdict_catch. do 5 step.
  pose proof (calm_policy (e_mktime E) s) as Cq. destruct (create_policy_tree (e_mktime E) s) as [[q|]|e| | |] eqn:Eq;
    [exfalso; exact (Nq q eq_refl)| |destruct Cq|apply verdict_fails; auto|apply verdict_fails; auto|apply verdict_fails; auto].
  step. apply verdict_fails; auto.
Qed.

(** ** KP *)
Definition first_bad (ct : container K) (rows : rowmap) : Prop := exists before u lab c after o,
  rows = before ++ (u, (lab, c)) :: after /\
  (forall u' lab' c', In (u', (lab', c')) before -> exists y, part E ct (element_label (L "C") (short lab')) (OG1 y)) /\
  part E ct (element_label (L "C") (short lab)) o /\ forall y, o <> OG1 y.
Lemma first_bad_nil : forall ct, ~ first_bad ct [].
Proof. intros ct (b & u & lab & c & a & o & X & _). destruct b; discriminate. Qed.
Lemma first_bad_cons : forall ct u lab c rows o, part E ct (element_label (L "C") (short lab)) o ->
  first_bad ct ((u, (lab, c)) :: rows) <-> (forall y, o <> OG1 y) \/ (exists y, o = OG1 y) /\ first_bad ct rows.
Proof.
  intros ct u lab c rows o Ho. split.
  - intros ([|[u1 [lab1 c1]] b] & u' & lab' & c' & a & o' & X & Y & Z & W); cbn [app] in X; injection X as -> -> -> ->.
    + left. rewrite (part_fun _ _ _ _ Ho Z). exact W.
    + right. destruct (Y u1 lab1 c1 (or_introl eq_refl)) as (y & Hy). split; [exists y; apply (part_fun _ _ _ _ Ho Hy)|].
      exists b, u', lab', c', a, o'. split; [reflexivity|]. split; [intros u2 lab2 c2 I2; apply (Y u2 lab2 c2); right; exact I2|]. split; assumption.
  - intros [N|[(y & ->) (b & u' & lab' & c' & a & o' & X & Y & Z & W)]].
    + exists [], u, lab, c, rows, o. split; [reflexivity|]. split; [intros ? ? ? []|]. split; assumption.
    + exists ((u, (lab, c)) :: b), u', lab', c', a, o'. subst rows. split; [reflexivity|]. split; [|split; assumption].
      intros u2 lab2 c2 [X|X]; [injection X as -> -> ->; eauto|eauto].
Qed.
Lemma first_bad_lacks : forall ct u lab c rows, (forall o, ~ part E ct (element_label (L "C") (short lab)) o) -> ~ first_bad ct ((u, (lab, c)) :: rows).
Proof.
  intros ct u lab c rows N ([|[u1 [lab1 c1]] b] & u' & lab' & c' & a & o' & X & Y & Z & W); cbn [app] in X; injection X as -> -> -> ->.
  - exact (N o' Z).
  - destruct (Y u1 lab1 c1 (or_introl eq_refl)) as (y & Hy). exact (N _ Hy).
Qed.
Lemma kp_loop_verdict : forall kid k rows w a b d, holds E KEY_SECRET kid k w ->
  (forall u lab c, In (u, (lab, c)) rows -> exists x y, part E (k_parts k) (element_label (L "D") (short u)) (OG1 x) /\ part E (k_parts k) (element_label (L "d") (short u)) (OG2 y)) ->
  verdict (first_bad (ct_parts (w_ct E w)) rows) (kp_dec_loop E kid rows a b d w).
Proof.
  intros kid k rows. induction rows as [|[u [lab c]] rows IH]; intros w a b d Hk Hr; cbn [kp_dec_loop].
  { left. split; [exact I|apply first_bad_nil]. }
  destruct (Hr u lab c (or_introl eq_refl)) as (x & y & Hx & Hy).
  destruct (part_or (ct_parts (w_ct E w)) (element_label (L "C") (short lab))) as [(o & Ho)|N].
  - eapply verdict_iff; [symmetry; apply first_bad_cons; exact Ho|]. do 4 step. destruct (as_g1 E o) as [z|] eqn:Eo.
    + assert (o = OG1 z) as -> by (destruct o; try discriminate; injection Eo as ->; reflexivity). do 2 step.
      assert (forall u' lab' c', In (u', (lab', c')) rows -> exists x0 y0, part E (k_parts k) (element_label (L "D") (short u')) (OG1 x0) /\ part E (k_parts k) (element_label (L "d") (short u')) (OG2 y0)) as Hr'
        by (intros u' lab' c' I'; apply (Hr u' lab' c'); right; exact I').
      eapply verdict_iff; [|apply IH; [exact Hk|exact Hr']]. split; [intro X; right; split; [eauto|exact X]|intros [X|[_ X]]; [exfalso; apply (X z); reflexivity|exact X]].
    + apply verdict_fails; [intros []|]. left. intros z ->. discriminate.
  - destruct (ct_part_lacks _ (as_g1 E) _ w N) as (w1 & E1). eapply verdict_refuses; [exact E1|]. apply first_bad_lacks. exact N.
Qed.
Definition kp_harm (q : policy) (ct : container K) : Prop := exists o, part E ct (L "attributes") o /\
  ((forall l, o <> OAttrs l) \/ exists l rows, o = OAttrs l /\ recover E (Some q) (Some l) = Ok (true, rows) /\ first_bad ct rows).
Lemma kp_verdict : forall mpk kid k w q r sh off off' s, holds E KEY_SECRET kid k w ->
  part E (k_parts k) (L "input") (OBytes (ptext q)) -> usable E q r -> 0 <= s < order K ->
  share_secret false (order K) lsss_new q s (e_zp E) off = Ok (sh, off') ->
  (forall u v, In (u, v) (l_rows sh) -> exists x y, part E (k_parts k) (element_label (L "D") (short u)) (OG1 x) /\ part E (k_parts k) (element_label (L "d") (short u)) (OG2 y)) ->
  verdict (kp_harm q (ct_parts (w_ct E w))) (kp_decrypt_kem E mpk kid 32 w).
Proof.
  intros mpk kid k w q r sh off off' s Hk A U Hs B D. pose proof U as (_ & _ & _ & _ & U5). unfold kp_decrypt_kem. apply verdict_catch. do 4 step. rewrite U5. step.
  destruct (part_or (ct_parts (w_ct E w)) (L "attributes")) as [(o & Ho)|N].
  2:{ destruct (ct_part_lacks _ (as_attrs E) _ w N) as (w1 & E1). eapply verdict_refuses; [exact E1|]. intros (o & Ho & _). exact (N o Ho). }
  step. destruct (as_attrs E o) as [l|] eqn:Eo.
  2:{ apply verdict_fails; [intros []|]. exists o. split; [exact Ho|]. left. intros l ->. discriminate. }
  assert (o = OAttrs l) as -> by (destruct o; try discriminate; injection Eo as ->; reflexivity).
  destruct (recover_says E (law_sort E HE) (ptext q) q l U5) as (r' & rows & _ & Er). rewrite Er. step. destruct (sat (match_attribute (aattrs l)) r'); cbn [negb].
  2:{ left. split; [exact I|]. intros (o & Ho' & [X|(l' & rows' & -> & X & _)]); [apply (X l); exact (part_fun _ _ _ _ Ho' Ho)|].
      pose proof (part_fun _ _ _ _ Ho Ho') as Y. injection Y as <-. congruence. }
  apply verdict_then.
  - eapply verdict_iff; [|eapply kp_loop_verdict; [exact Hk|]].
    + split; [intro X; exists (OAttrs l); split; [exact Ho|]; right; exists l, rows; auto|].
      intros (o & Ho' & [X|(l' & rows' & -> & X & Y)]); [exfalso; apply (X l); exact (part_fun _ _ _ _ Ho' Ho)|].
      pose proof (part_fun _ _ _ _ Ho Ho') as Z. injection Z as <-. rewrite Er in X. injection X as <-. exact Y.
    + intros u lab c I0. destruct (kp_rows E HE q r sh off off' s l true rows U Hs B Er eq_refl u lab c I0) as (v & Iv). eapply D; exact Iv.
  - intros [[prod1 g1s] g2s] w5 _.
    apply tame_andthen; [apply tame_lift; intro; apply calm_pairing|]. intros prodT w6 H6 S6.
    apply tame_andthen; [apply tame_ct_part|]. intros cp0 w7 _ S7. apply tame_andthen; [apply tame_assert|]. intros cp w8 H8 S8.
    apply tame_andthen; [apply tame_sym; exact HE|]. intros. apply tame_ret.
Qed.

(** ** The body *)
Definition stray (b : str) : Prop := 2147483616 < len b mod 2 ^ 32 \/ len b mod 2 ^ 32 = 0 /\ b <> [].
Lemma mask_last : forall buf n prefix, 0 <= n <= 2147483616 -> exists m, hash_from_bytes (e_hash E) buf n prefix = Ok m /\ length m = Z.to_nat n.
Proof.
  intros buf n prefix Hn. unfold hash_from_bytes, ceil_div, md_len. cbn [Z.eqb bind]. replace (n + 32 - 1) with (n + 31) by lia.
  set (bl := (n + 31) / 32) in *. assert (0 <= bl /\ n <= bl * 32 /\ bl * 32 < 2147483647) as (B0 & B1 & B2) by (subst bl; Z.div_mod_to_equations; lia).
  unfold vla. destruct (Z.ltb_spec (bl * 32) 2147483647); [|lia]. cbn [bind].
  pose proof (loop_spec (e_hash E) (law_hash E HE) set_count (fun c => (c + 1) mod 256) (mask_input prefix buf) 256 32 ltac:(lia)) as Q.
  specialize (Q ltac:(intro c; cbv beta; rewrite Zplus_mod_idemp_l; reflexivity)).
  specialize (Q ltac:(intro c; unfold mask_input, set_count; rewrite z2b_mod; reflexivity) (Z.to_nat bl) 0 [] (Z.to_nat (bl * 32 + 1)) ltac:(lia)). cbn [app length] in Q. change (0 mod 256) with 0 in Q. unfold zeros in Q at 1.
  change (insert_first_byte (insert_first_byte buf prefix) 0) with (mask_input prefix buf 0). change (Z.to_nat 32) with 32%nat. rewrite Q. cbn [bind]. clear Q.
  set (st := KdfProofs.stream _ 0 _). assert (length st = Z.to_nat (bl * 32)) as Ls.
  { unfold st. rewrite (stream_length _ _ _ 32%nat); [lia|]. intro. rewrite app_length, (law_hash E HE). reflexivity. }
  rewrite len_app. replace (len st) with (bl * 32) by (unfold len; rewrite Ls; lia). set (z := zeros _). pose proof (len_nonneg z).
  destruct (Z.leb_spec n (bl * 32 + len z)); [|lia]. eexists. split; [reflexivity|]. rewrite firstn_length, app_length, Ls. lia.
Qed.
Lemma mask_beyond : forall buf n prefix, 2147483616 < n < 2 ^ 32 -> hash_from_bytes (e_hash E) buf n prefix = UB.
Proof.
  intros buf n prefix Hn. unfold hash_from_bytes, ceil_div, md_len. cbn [Z.eqb bind]. unfold vla. destruct (Z.ltb_spec ((n + 32 - 1) / 32 * 32) 2147483647) as [X|X]; [|reflexivity].
  exfalso. revert X. Z.div_mod_to_equations. lia.
Qed.
Lemma body_verdict : forall key b w, verdict (stray b) (andthen E (lift E (mask E key (len b))) (fun m => lift E (xor_assign b m)) w).
Proof.
  intros key b w. assert (0 <= len b mod 2 ^ 32 < 2 ^ 32) as Hn by (apply Z.mod_pos_bound; lia). unfold mask, stray. set (n := len b mod 2 ^ 32) in *.
  destruct (Z_lt_le_dec 2147483616 n) as [Hb|Hb].
  - rewrite mask_beyond by lia. apply verdict_fails; [intros []|left; exact Hb].
  - destruct (mask_last key n 42 ltac:(lia)) as (m & Em & Lm). rewrite Em. erewrite andthen_ok by apply lift_ok.
    destruct b as [|c b]; [left; split; [exact I|intros [X|[_ X]]; [lia|apply X; reflexivity]]|].
    destruct m as [|x m].
    + right. split; [intros []|]. right. split; [cbn [length] in Lm; lia|discriminate].
    + left. split; [exact I|]. intros [X|[X _]]; [lia|]. rewrite X in Lm. discriminate.
Qed.

(** ** decrypt *)
Definition kem_harm (sch : scheme) (q : policy) : container K -> Prop := match sch with CP => cp_harm | KP => kp_harm q end.
Definition fit (sch : scheme) (q : policy) (c : container K) : Prop := match sch with
  | CP => cp_ready E c
  | KP => exists r sh off off' s, part E c (L "input") (OBytes (ptext q)) /\ usable E q r /\ 0 <= s < order K /\
      share_secret false (order K) lsss_new q s (e_zp E) off = Ok (sh, off') /\
      forall u v, In (u, v) (l_rows sh) -> exists x y, part E c (element_label (L "D") (short u)) (OG1 x) /\ part E c (element_label (L "d") (short u)) (OG2 y)
  end.
Definition harm (sch : scheme) (q : policy) (mpk kid : str) (w : world E) : Prop :=
  kem_harm sch q (ct_parts (w_ct E w)) \/
  exists w' b, decrypt_kem E sch mpk kid 32 (set_sym E w []) = (w', Ok 0) /\ part E (ct_parts (w_ct E w)) (L "_ED") (OBytes b) /\ stray b.
Lemma fit_ready : forall sch q c, fit sch q c -> ready E sch c.
Proof. intros [] q c H; [exact H|]. destruct H as (r & sh & off & off' & s & H). exists q, r, sh, off, off', s. exact H. Qed.
Lemma kp_user_fit : forall P q r c, usable E q r -> kp_user E P q c -> fit KP q c.
Proof.
  intros P q r c U (sh & off & off' & A & B & C & D). exists r, sh, off, off', (Qy E P). split; [exact C|]. split; [exact U|]. split; [exact A|]. split; [exact B|].
  intros u [lab e] I0. destruct (D u lab e I0) as (rr & X & Y). eauto.
Qed.
Lemma fit_verdict : forall sch q mpk kid k w, holds E KEY_SECRET kid k w -> fit sch q (k_parts k) -> verdict (kem_harm sch q (ct_parts (w_ct E w))) (decrypt_kem E sch mpk kid 32 w).
Proof. intros [] q mpk kid k w Hk Hf; cbn [fit kem_harm decrypt_kem] in *; [eapply cp_verdict; eauto|]. destruct Hf as (r & sh & off & off' & s & A & U & Hs & B & D). eapply kp_verdict; eauto. Qed.

(** A decryption changes the ciphertext at most by null entries. *)
Definition slight {A} (w : world E) (x : world E * res A) : Prop := forall n o, part E (ct_parts (w_ct E (fst x))) n o <-> part E (ct_parts (w_ct E w)) n o.
Lemma slight_then : forall A B (m : code E A) (f : A -> code E B) w, (forall w, slight w (m w)) -> (forall a w, slight w (f a w)) -> slight w (andthen E m f w).
Proof.
  intros A B m f w Hm Hf n o. unfold andthen. specialize (Hm w n o). destruct (m w) as [w1 r]. cbn [fst] in Hm. destruct r; cbn [fst]; try exact Hm. specialize (Hf a w1 n o). tauto.
Qed.
Lemma slight_catch : forall m w, slight w (m w) -> slight w (catch_code E m w).
Proof. intros m w H. unfold catch_code. unfold slight in *. destruct (m w) as [w1 r]. destruct r as [a|[]| | |]; exact H. Qed.
Lemma slight_ct_part : forall A (cast : zobj K -> option A) n w, slight w (ct_part E cast n w).
Proof.
  intros A cast n w n' o. destruct (tame_ct_part E A cast True n w) as (_ & T & _). destruct (T n' I) as [X|[X Y]]; unfold part; [rewrite X; reflexivity|]. rewrite X, Y. split; discriminate.
Qed.
Lemma slight_here : forall A w (r : res A), slight w (w, r).
Proof. intros A w r n o. reflexivity. Qed.
Lemma slight_ct : forall A w w' (r : res A), w_ct E w' = w_ct E w -> slight w (w', r).
Proof. intros A w w' r H n o. cbn [fst]. rewrite H. reflexivity. Qed.
Lemma slight_key_part : forall A (cast : zobj K -> option A) c id n w, slight w (key_part E cast c id n w).
Proof.
  intros A cast c id n w. unfold key_part. apply slight_then; [|intros; apply slight_here]. clear w. intro w. unfold key_component.
  destruct (mget id (class_map E c (w_store E w))) as [[k|]|]; try (apply slight_ct; reflexivity).
  destruct (get_component (k_parts k) n) as [c' r]. destruct r; apply slight_ct; reflexivity.
Qed.
Ltac slights := repeat match goal with
  | |- slight _ (andthen _ _ _ _) => apply slight_then; intros
  | |- slight _ (ct_part _ _ _ _) => apply slight_ct_part
  | |- slight _ (key_part _ _ _ _ _ _) => apply slight_key_part
  | |- slight _ (lift _ _ _) => apply slight_here
  | |- slight _ (ret _ _ _) => apply slight_here
  | |- slight _ (throw _ _ _) => apply slight_here
  | |- slight _ (assert_notnull _ ?o _) => destruct o; apply slight_here
  | |- slight _ (deref _ ?o _) => destruct o; apply slight_here
  | |- slight _ (hash_to_sym _ _ _ _) => rewrite hash_to_sym_ok by exact HE; apply slight_ct; reflexivity
  | |- slight _ ((if ?b then _ else _) _) => destruct b
  | |- slight _ ((let '(_, _) := ?x in _) _) => destruct x
  end.
Lemma slight_cp_loop : forall kid rows a b d w, slight w (cp_dec_loop E kid rows a b d w).
Proof. intros kid rows. induction rows as [|[u [lab c]] rows IH]; intros a b d w; cbn [cp_dec_loop]; slights; apply IH. Qed.
Lemma slight_kp_loop : forall kid rows a b d w, slight w (kp_dec_loop E kid rows a b d w).
Proof. intros kid rows. induction rows as [|[u [lab c]] rows IH]; intros a b d w; cbn [kp_dec_loop]; slights; apply IH. Qed.
Lemma slight_kem : forall sch mpk kid w, slight w (decrypt_kem E sch mpk kid 32 w).
Proof.
  intros [] mpk kid w; cbn [decrypt_kem]; [unfold cp_decrypt_kem|unfold kp_decrypt_kem]; apply slight_catch; slights; try apply slight_cp_loop; try apply slight_kp_loop;
    unfold secret_key; destruct (get_secret_key _ _); apply slight_ct; reflexivity.
Qed.
Lemma decrypt_verdict : forall sch q mpk kid k w, holds E KEY_SECRET kid k w -> fit sch q (k_parts k) -> verdict (harm sch q mpk kid w) (decrypt_body E sch mpk kid w).
Proof.
  intros sch q mpk kid k w Hk Hf. unfold decrypt_body. erewrite andthen_ok by reflexivity. set (w0 := set_sym E w []).
  assert (ct_parts (w_ct E w0) = ct_parts (w_ct E w)) as Ec by reflexivity. pose proof (slight_kem sch mpk kid w0) as Sl.
  assert (holds E KEY_SECRET kid k w0) as Hk0 by exact Hk. pose proof (fit_verdict sch q mpk kid k w0 Hk0 Hf) as V. unfold harm. fold w0. rewrite <- Ec.
  unfold verdict in V. unfold andthen at 1. destruct (decrypt_kem E sch mpk kid 32 w0) as [w1 r] eqn:Ek. cbn [fst snd] in *.
  destruct r as [c|e| | |]; try (destruct V as [[V1 V2]|[V1 V2]]; [left|right]; (split; [exact V1|]); [intros [X|(w' & b & X & _)]; [exact (V2 X)|discriminate X]|left; exact V2]).
  destruct V as [[_ V]|[V _]]; [|exfalso; apply V; exact I].
  assert (forall (c : Z) (x : world E * res str) , c <> 0 -> calm (snd x) -> verdict (kem_harm sch q (ct_parts (w_ct E w0)) \/ (exists w' b, (w1, Ok c) = (w', Ok 0) /\ part E (ct_parts (w_ct E w0)) (L "_ED") (OBytes b) /\ stray b)) x) as Z1.
  { intros c' x N C. left. split; [exact C|]. intros [X|(w' & b & X & _)]; [exact (V X)|injection X as _ X; exact (N X)]. }
  destruct (Z.eqb_spec c 0) as [->|N]; cbn [negb]; [|apply Z1; [exact N|exact I]]. clear Z1.
  eapply verdict_iff with (H := exists b, part E (ct_parts (w_ct E w1)) (L "_ED") (OBytes b) /\ stray b).
  { split; [intros (b & X & Y); right; exists w1, b; split; [reflexivity|]; split; [apply (Sl (L "_ED") (OBytes b)); exact X|exact Y]|].
    intros [X|(w' & b & X & Y & Z)]; [exfalso; exact (V X)|]. injection X as <-. exists b. split; [apply (Sl (L "_ED") (OBytes b)); exact Y|exact Z]. }
  destruct (part_or (ct_parts (w_ct E w1)) (L "_ED")) as [(o & Ho)|N].
  2:{ destruct (ct_part_lacks _ (as_bytes E) _ w1 N) as (w2 & E2). eapply verdict_refuses; [exact E2|]. intros (b & X & _). exact (N _ X). }
  step. destruct (as_bytes E o) as [b|] eqn:Eb.
  2:{ left. split; [exact I|]. intros (b & X & _). rewrite (part_fun _ _ _ _ Ho X) in Eb. discriminate. }
  apply as_bytes_inv in Eb as ->. step. erewrite andthen_ok by reflexivity.
  eapply verdict_iff; [|apply body_verdict]. split; [eauto|]. intros (b' & X & Y). pose proof (part_fun _ _ _ _ Ho X) as Z. injection Z as <-. exact Y.
Qed.
(** Answered, or harmed. *)
Lemma decrypt_exact : forall sch q mpk kid k w, holds E KEY_SECRET kid k w -> fit sch q (k_parts k) ->
  ((exists c pt, snd (decrypt E sch mpk kid w) = Ok (c, pt)) <-> ~ harm sch q mpk kid w) /\ ((forall a, snd (decrypt E sch mpk kid w) <> Ok a) <-> harm sch q mpk kid w).
Proof.
  intros sch q mpk kid k w Hk Hf. pose proof (decrypt_verdict sch q mpk kid k w Hk Hf) as V. unfold decrypt, verdict in *. destruct (decrypt_body E sch mpk kid w) as [w1 r]. cbn [snd] in V.
  assert (forall c pt, ~ harm sch q mpk kid w -> ((exists c' pt', @Ok (Z * str) (c, pt) = Ok (c', pt')) <-> ~ harm sch q mpk kid w) /\ ((forall a, Ok (c, pt) <> Ok a) <-> harm sch q mpk kid w)) as Y.
  { intros c pt N. split; [split; [intros _; exact N|eauto]|]. split; [intro X; exfalso; exact (X _ eq_refl)|intro X; exfalso; exact (N X)]. }
  assert (forall r : res (Z * str), (forall a, r <> Ok a) -> harm sch q mpk kid w -> ((exists c' pt', r = Ok (c', pt')) <-> ~ harm sch q mpk kid w) /\ ((forall a, r <> Ok a) <-> harm sch q mpk kid w)) as Z.
  { intros r0 N h. split; [split; [intros (c & pt & X); exfalso; exact (N _ X)|intro X; exfalso; exact (X h)]|]. split; auto. }
  destruct V as [[C N]|[C h]]; destruct r as [a|[]| | |]; cbn [snd]; try (exfalso; exact C); try (apply Y; exact N); try (apply Z; [intros; discriminate|exact h]); exfalso; apply C; exact I.
Qed.
End Harm.
