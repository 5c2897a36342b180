(** C122-C123: nonces of symmetric encryption are never reused; exported keys. *)
From Verif Require Import Base StrMap ByteString ByteStringProofs Base64 Base64Proofs Utils Keystore KeystoreProofs Kdf KdfProofs PropUtil Sym SymSpec SymProofs SymCtx PropSym SymKeys NonceSpec.
From Coq Require Import ZArith List Ascii Bool Lia ZifyBool ZifyNat.
Import ListNotations.
Open Scope Z_scope.

(** ** Support *)
(** The open encryption session of a context: key, nonce, bytes used. *)
Definition live (c : ske) : option (str * str * nat) :=
  match c_enc c with
  | Some s => if s_enc s then match s_ctx s with Some e => match ev_iv e with Some v => Some (ev_key e, v, length (ev_data e)) | None => None end | None => None end else None
  | None => None
  end.
Lemma live_enc : forall c d, c_enc c = c_enc d -> live c = live d.
Proof. intros c d H. unfold live. now rewrite H. Qed.
Lemma live_none : forall c, c_enc c = None -> live c = None.
Proof. intros c H. unfold live. now rewrite H. Qed.
Lemma attach_live : forall s e v, s_enc s = true -> s_ctx s = Some e -> ev_iv e = Some v -> ev_data e = [] ->
  let s' := fst (attach_aad s) in s_enc s' = true /\ exists e', s_ctx s' = Some e' /\ ev_iv e' = Some v /\ ev_key e' = ev_key e /\ ev_data e' = [].
Proof.
  intros s e v H1 H2 H3 H4. unfold attach_aad, init_aad, set_aad. rewrite H1. cbn [orb s_enc s_dec s_aad_set andb s_aad s_ctx]. rewrite ?H1. cbn [orb andb].
  destruct (too_long (fill_buffer 0 16)).
  - cbn [fst]. cbn. rewrite ?H1. split; [reflexivity|]. exists e. auto.
  - rewrite H2. unfold evp_add_aad. rewrite H3, H4. cbn [with_ctx].
    destruct (len (fill_buffer 0 16) =? len (fill_buffer 0 16)); cbn; rewrite ?H1; (split; [reflexivity|]); eexists; repeat split; auto.
Qed.
Lemma attach_dead : forall s, s_enc s = true -> (forall e, s_ctx s = Some e -> ev_iv e = None) ->
  let s' := fst (attach_aad s) in s_enc s' = true /\ forall e, s_ctx s' = Some e -> ev_iv e = None.
Proof.
  intros s H1 H2. unfold attach_aad, init_aad, set_aad. rewrite H1. cbn [orb s_enc s_dec s_aad_set andb s_aad s_ctx]. rewrite ?H1. cbn [orb andb].
  destruct (too_long (fill_buffer 0 16)); [cbn; rewrite ?H1; auto|].
  destruct (s_ctx s) as [e|] eqn:E; [|cbn; rewrite ?H1; rewrite ?E; split; [reflexivity|discriminate]].
  unfold evp_add_aad. rewrite (H2 e eq_refl). cbn [with_ctx].
  destruct (0 =? len (fill_buffer 0 16)); cbn; rewrite ?H1; (split; [reflexivity|]); intros e' X; injection X as <-; auto.
Qed.
Lemma live_step : forall G c o, let '(c', out, r) := sexec G c o in
  match o with
  | SEncInit _ _ rnd => live c' = None \/ exists k v, live c' = Some (k, v, 0%nat) /\ iv_used G rnd = Some v
  | SEncUpdate b before => (out = before /\ live c' = live c) \/
      exists k v n, live c = Some (k, v, n) /\ live c' = Some (k, v, (n + length b)%nat) /\ out = before ++ crypt G k v n b
  | _ => live c' = None \/ live c' = live c
  end.
Proof.
  intros G c o. destruct o; cbn [sexec].
  - unfold ctx_keygen. destruct (check_secret_key _ _); [auto|]. destruct (generate_symmetric_key _ _) as [k|[| |]| | |]; right; try reflexivity; try (apply live_enc; reflexivity).
  - unfold ctx_load. destruct (load_symmetric_key _ _ _ _) as [s x]. right. apply live_enc. reflexivity.
  - unfold ctx_export. destruct (get_key _ _) as [s [k|]]; right; apply live_enc; reflexivity.
  - unfold ctx_delete. destruct (delete_key _ _) as [[s k] z]. right. apply live_enc. reflexivity.
  - unfold ctx_encrypt_init. destruct (get_secret_key _ _) as [st [k|]]; [|left; reflexivity].
    unfold encrypt_init. cbn [new_stream s_enc s_dec]. unfold evp_init.
    destruct (len (s_key (new_stream (sk_data k))) <? 32); [left; reflexivity|].
    match goal with |- context[attach_aad ?s] => set (s0 := s) end.
    destruct (iv_used G random) as [v|] eqn:Ev.
    + destruct (attach_live s0 _ v eq_refl eq_refl eq_refl eq_refl) as (A1 & e' & A2 & A3 & A4 & A5).
      destruct (attach_aad s0) as [s' r'] eqn:Ea. cbn [fst] in *. right. unfold live. cbn [with_enc c_enc]. rewrite A1, A2, A3, A5. eauto.
    + destruct (attach_dead s0 eq_refl) as (A1 & A2).
      { intros e E. injection E as <-. reflexivity. }
      destruct (attach_aad s0) as [s' r'] eqn:Ea. cbn [fst] in *. left. unfold live. cbn [with_enc c_enc]. rewrite A1.
      destruct (s_ctx s') as [e|]; [|reflexivity]. now rewrite (A2 e eq_refl).
  - unfold ctx_encrypt_update. destruct (c_enc c) as [s|] eqn:Ec; [|left; split; [reflexivity|now apply live_enc]].
    assert (Hsame : live (with_enc c (Some s)) = live c) by (apply live_enc; cbn; now rewrite Ec).
    unfold encrypt_update. destruct (s_enc s) eqn:E; [|left; split; [reflexivity|exact Hsame]].
    destruct (too_long block); [left; split; [reflexivity|exact Hsame]|].
    destruct (negb (0 <? len block)) eqn:Hb; [left; split; [reflexivity|exact Hsame]|].
    destruct (s_ctx s) as [e|] eqn:Ex; [|left; split; [reflexivity|exact Hsame]].
    unfold evp_update. destruct (ev_iv e) as [v|] eqn:Ev.
    + rewrite crypt_len, Z.eqb_refl. right. exists (ev_key e), v, (length (ev_data e)).
      unfold live at 1. rewrite Ec, E, Ex, Ev. split; [reflexivity|].
      unfold live. cbn. rewrite ?E, ?Ev, app_length, crypt_length. auto.
    + replace (len block =? len []) with false by (change (len (@nil ascii)) with 0; lia). left. split; [reflexivity|].
      unfold live. cbn. rewrite Ec, E, ?Ex, ?Ev. reflexivity.
  - unfold ctx_encrypt_finalize. destruct (c_enc c) as [s|] eqn:Ec; [|auto].
    unfold encrypt_finalize. destruct (s_enc s && (0 <? s_encn s)) eqn:E; [|left; reflexivity].
    destruct (negb (len ct =? s_total s)); [right; apply live_enc; cbn; now rewrite Ec|].
    destruct (s_ctx s) as [e|] eqn:Ex; [|right; apply live_enc; cbn; now rewrite Ec].
    destruct (s_total s / 2 ^ 32 * 2 ^ 32 =? 0); [left; reflexivity|].
    right. unfold live. cbn. rewrite Ec. cbn. now rewrite Ex.
  - unfold ctx_decrypt_init. destruct (get_secret_key _ _) as [st [k|]]; [|right; reflexivity].
    destruct (decrypt_init _ _ _ _) as [s x]. destruct x; try (right; reflexivity). destruct (attach_aad s) as [s' x]. right; reflexivity.
  - unfold ctx_decrypt_update. destruct (c_dec c) as [s|]; [|auto]. destruct (decrypt_update _ _ _ _) as [[s' x] [z|y| | |]]; right; reflexivity.
  - unfold ctx_decrypt_finalize. destruct (c_dec c) as [s|]; [|auto]. destruct (decrypt_finalize _ _) as [s' [z|y| | |]]; right; reflexivity.
Qed.

Section Runs.
Context (G : gcm) (hash : str -> str) (tape : nat -> Z -> str).
Hypothesis HG : gcm_ok G.
Hypothesis Ht : source tape.
Lemma nonce_is : forall i, nonce G tape i = Some (tape i 16).
Proof. intro i. unfold nonce. apply HG. apply Ht. lia. Qed.
(** Each live session has a draw of its own; [used] counts the bytes. *)
Definition tidy (lo : nat) (w : room) (owner : nat -> nat) (used : nat -> nat) : Prop :=
  (forall n c k v m, tools w n = Some (TContext c) -> live c = Some (k, v, m) ->
     (lo <= owner n < next w)%nat /\ nonce G tape (owner n) = Some v /\ used (owner n) = m) /\
  (forall n n' c c', tools w n = Some (TContext c) -> tools w n' = Some (TContext c') -> live c <> None -> live c' <> None -> owner n = owner n' -> n = n') /\
  (forall d, (next w <= d)%nat -> used d = 0%nat) /\ (lo <= next w)%nat.
Definition later (p q : option piece) : Prop := forall a b, p = Some a -> q = Some b -> p_draw a = p_draw b -> (p_at a + length (p_text a) <= p_at b)%nat.
Definition good (lo hi : nat) (used : nat -> nat) (p : option piece) : Prop := forall a, p = Some a -> (covers G tape a /\ (lo <= p_draw a < hi)%nat) /\ (used (p_draw a) <= p_at a)%nat.
Definition outcome (lo hi : nat) (l : list (nat * use * answer)) (used : nat -> nat) : Prop :=
  exists ps, Forall2 (fun x p => lets_out tape (snd (fst x)) (snd x) p) l ps /\ Forall (good lo hi used) ps /\ ForallOrdPairs later ps.
Lemma covers_crypt : forall d k v n m, nonce G tape d = Some v -> covers G tape {| p_draw := d; p_at := n; p_key := k; p_text := m; p_out := crypt G k v n m |}.
Proof.
  intros d k v n m H. exists v. cbn. split; [exact H|]. split; [apply crypt_length|]. intros i x E. now rewrite crypt_nth, E.
Qed.
Lemma seal_shape : forall o m iv x, ae_encrypt G o m iv = Ok x -> len iv = 16 -> exists t, x = (iv, crypt G (firstn 32 (ae_key o)) iv 0 m, t).
Proof.
  intros o m iv x H Hl. unfold ae_encrypt in H. destruct (_ || _); [discriminate H|]. unfold evp_init in H. destruct (len (ae_key o) <? 32); [discriminate H|]. cbn [bind] in H.
  rewrite (proj2 HG _ Hl) in H.
  destruct (ae_aad_set o); cbn in H; injection H as <-; eexists; reflexivity.
Qed.
Lemma to_runtime_ok : forall A (m : res A) x, to_runtime m = Ok x -> m = Ok x.
Proof. intros A [y|[| |]| | |] x H; cbn in H; congruence. Qed.
(** The piece of a one-shot message. *)
Lemma seal_piece : forall d t m a, apply_use G hash tape (Some t) d (USeal m) = a -> forall wire, snd a = AText (Ok wire) ->
  exists k, message wire (tape d 16) (crypt G k (tape d 16) 0 m).
Proof.
  intros d t m a <- wire H. cbn in H. destruct t as [h|h|c]; cbn in H; [| |discriminate H].
  - injection H as H. unfold handle_encrypt in H.
    destruct (to_runtime (ae_encrypt G (with_aad (new_auth_enc (h_key h)) (h_aad h)) m (tape d 16))) as [x| | | |] eqn:E; try discriminate H. cbn [bind] in H.
    apply to_runtime_ok in E. destruct (seal_shape _ _ _ _ E (Ht d 16 ltac:(lia))) as (t & ->). cbv zeta in H.
    eexists. exists (smart_pack [] t). cbv zeta.
    rewrite (smart_pack_app (smart_pack (smart_pack [] (tape d 16)) _)), (smart_pack_app (smart_pack [] (tape d 16))) in H. rewrite <- app_assoc in H.
    destruct (h_b64 h); [right; exact H|left; injection H as <-; reflexivity].
  - injection H as H. unfold handler_encrypt in H. destruct (sh_mode h); try discriminate H. destruct (sh_gcm h) as [key|]; [|discriminate H].
    destruct (to_runtime (ae_encrypt G (with_aad (new_auth_enc key) (sh_aad h)) m (tape d 16))) as [x| | | |] eqn:E; try discriminate H. cbn [bind] in H.
    apply to_runtime_ok in E. destruct (seal_shape _ _ _ _ E (Ht d 16 ltac:(lia))) as (t & ->). cbv zeta in H.
    eexists. exists (smart_pack [] t ++ smart_pack [] (sh_aad h)). cbv zeta.
    rewrite (smart_pack_app (smart_pack (smart_pack (smart_pack [] (tape d 16)) _) _)), (smart_pack_app (smart_pack (smart_pack [] (tape d 16)) _)), (smart_pack_app (smart_pack [] (tape d 16))) in H. rewrite <- !app_assoc in H.
    destruct (sh_b64 h); [right; exact H|left; injection H as <-; reflexivity].
Qed.
Lemma outcome_cons : forall lo hi n u a l used used' p, lets_out tape u a p -> (forall d, (used d <= used' d)%nat) ->
  (forall q, p = Some q -> (covers G tape q /\ (lo <= p_draw q < hi)%nat) /\ (used (p_draw q) <= p_at q)%nat /\ (p_at q + length (p_text q) <= used' (p_draw q))%nat) ->
  outcome lo hi l used' -> outcome lo hi ((n, u, a) :: l) used.
Proof.
  intros lo hi n u a l used used' p Hl Hm Hp (ps & F & Gd & O). exists (p :: ps). split; [constructor; [exact Hl|exact F]|]. split.
  - constructor.
    + intros q E. destruct (Hp q E) as (A & B & _). auto.
    + eapply Forall_impl; [|exact Gd]. intros q Hq b E. destruct (Hq b E) as (A & B). split; [exact A|]. specialize (Hm (p_draw b)). lia.
  - constructor; [|exact O]. apply Forall_forall. intros q Hq a' b' E1 E2 Ed. rewrite Forall_forall in Gd. destruct (Gd q Hq b' E2) as (_ & B). destruct (Hp a' E1) as (_ & _ & C). rewrite Ed in C. lia.
Qed.
Lemma run_outcome : forall lo us w owner used, tidy lo w owner used -> outcome lo (next w + length us) (run G hash tape w us) used.
Proof.
  intro lo. induction us as [|[n u] us IH]; intros w owner used (T1 & T2 & T3 & T4); [exists []; repeat split; constructor|].
  cbn [run length]. replace (next w + S (length us))%nat with (S (next w) + length us)%nat by lia. unfold step. destruct (apply_use G hash tape (tools w n) (next w) u) as [t a] eqn:Ea.
  assert (Hput : forall x, put (tools w) n t x = if Nat.eqb x n then t else tools w x) by reflexivity.
  (* steps after which the object at [n] has no session, or the one it had *)
  assert (Quiet : lets_out tape u a None -> (forall c', t = Some (TContext c') -> live c' = None \/ exists c, tools w n = Some (TContext c) /\ live c' = live c) ->
    outcome lo (S (next w) + length us) ((n, u, a) :: run G hash tape {| tools := put (tools w) n t; next := S (next w) |} us) used).
  { intros Hl Hq. eapply outcome_cons with (used' := used) (p := None); [exact Hl|auto|discriminate|]. apply (IH {| tools := _; next := S (next w) |} owner). split; [|split; [|split; [|cbn; lia]]].
    - intros x c k v m Hx Hc. cbn in Hx. rewrite Hput in Hx. destruct (Nat.eqb_spec x n) as [->|].
      + destruct (Hq c Hx) as [E|(c0 & E0 & E)]; [congruence|]. rewrite E in Hc. destruct (T1 _ _ _ _ _ E0 Hc) as (A & B & C). cbn. repeat split; auto; lia.
      + destruct (T1 _ _ _ _ _ Hx Hc) as (A & B & C). cbn. repeat split; auto; lia.
    - intros x y c c' Hx Hy Hc Hc' Ho. cbn in Hx, Hy. rewrite Hput in Hx, Hy.
      assert (forall z cz, (if Nat.eqb z n then t else tools w z) = Some (TContext cz) -> live cz <> None -> exists c0, tools w z = Some (TContext c0) /\ live c0 <> None) as W.
      { intros z cz Hz Hl0. destruct (Nat.eqb_spec z n) as [->|]; [|eauto]. destruct (Hq cz Hz) as [E|(c0 & E0 & E)]; [congruence|]. exists c0. split; [exact E0|congruence]. }
      destruct (W _ _ Hx Hc) as (c1 & W1 & W2). destruct (W _ _ Hy Hc') as (c2 & W3 & W4). exact (T2 _ _ _ _ W1 W3 W2 W4 Ho).
    - intros d Hd. apply T3. cbn in Hd. lia. }
  assert (Same : lets_out tape u a None -> t = tools w n -> outcome lo (S (next w) + length us) ((n, u, a) :: run G hash tape {| tools := put (tools w) n t; next := S (next w) |} us) used).
  { intros Hl E. apply Quiet; [exact Hl|]. intros c' Hc. right. exists c'. split; [congruence|reflexivity]. }
  destruct u as [key aad b64|key m b64| | |key|au|m|ct|o].
  - cbn in Ea. apply Quiet; [exact eq_refl|]. intros c' Hc. destruct (new_handle_aad key aad b64); cbn in Ea; injection Ea as <- <-; congruence.
  - cbn in Ea. apply Quiet; [exact eq_refl|]. intros c' Hc. destruct (new_handler key m b64); cbn in Ea; injection Ea as <- <-; congruence.
  - cbn in Ea. injection Ea as <- <-. apply Quiet; [exact eq_refl|]. intros c' Hc. injection Hc as <-. left. reflexivity.
  - cbn in Ea. injection Ea as <- <-. apply Quiet; [exact eq_refl|]. discriminate.
  - destruct (tools w n) as [[h|h|c]|] eqn:Et; cbn in Ea; try (injection Ea as <- <-; apply Same; [exact eq_refl|auto]; fail).
    apply Quiet; [exact eq_refl|]. intros c' Hc. destruct (set_ske_handler_bytes h key); injection Ea as <- <-; congruence.
  - destruct (tools w n) as [[h|h|c]|] eqn:Et; cbn in Ea; try (injection Ea as <- <-; apply Same; [exact eq_refl|auto]; fail).
    apply Quiet; [exact eq_refl|]. intros c' Hc. destruct (set_auth_data hash h au); injection Ea as <- <-; congruence.
  - (* one-shot encryption *)
    destruct (tools w n) as [tl|] eqn:Et; [|cbn in Ea; injection Ea as <- <-; apply Same; [exact eq_refl|auto]].
    pose proof (seal_piece (next w) tl m _ Ea) as Sp. cbn [snd] in Sp.
    assert (t = Some tl) as -> by (destruct tl; cbn in Ea; injection Ea as <- <-; reflexivity).
    destruct a as [r|[wire| | | |]|out r|]; try (apply Same; [exact eq_refl|auto]; fail).
    destruct (Sp wire eq_refl) as (k & Hm). clear Same Quiet.
    set (q := {| p_draw := next w; p_at := 0%nat; p_key := k; p_text := m; p_out := crypt G k (tape (next w) 16) 0 m |}).
    apply outcome_cons with (used' := fun d => if Nat.eqb d (next w) then length m else used d) (p := Some q).
    + exists q. auto.
    + intro d. destruct (Nat.eqb_spec d (next w)) as [->|]; [|auto]. rewrite T3 by lia. lia.
    + intros q' E. injection E as <-. split; [split; [apply covers_crypt; apply nonce_is|cbn; lia]|]. cbn. rewrite Nat.eqb_refl. rewrite T3 by lia. lia.
    + apply (IH {| tools := _; next := S (next w) |} owner). split; [|split; [|split; [|cbn; lia]]].
      * intros x c k' v m' Hx Hc. cbn in Hx. rewrite Hput in Hx.
        assert (tools w x = Some (TContext c)) as Hx' by (destruct (Nat.eqb_spec x n) as [->|]; congruence).
        destruct (T1 _ _ _ _ _ Hx' Hc) as (A & B & C). cbn. split; [lia|]. split; [auto|]. destruct (Nat.eqb_spec (owner x) (next w)); [lia|exact C].
      * intros x y c c' Hx Hy Hc Hc' Ho. cbn in Hx, Hy. rewrite Hput in Hx, Hy.
        assert (tools w x = Some (TContext c)) as Hx' by (destruct (Nat.eqb_spec x n) as [->|]; congruence).
        assert (tools w y = Some (TContext c')) as Hy' by (destruct (Nat.eqb_spec y n) as [->|]; congruence).
        exact (T2 _ _ _ _ Hx' Hy' Hc Hc' Ho).
      * intros d Hd. cbn in Hd. destruct (Nat.eqb_spec d (next w)); [lia|]. apply T3. lia.
  - destruct (tools w n) as [[h|h|c]|] eqn:Et; cbn in Ea; injection Ea as <- <-; (apply Same; [exact eq_refl|auto]).
  - destruct (tools w n) as [[h|h|c]|] eqn:Et; cbn [apply_use] in Ea; try (injection Ea as <- <-; apply Same; [destruct o; exact eq_refl|auto]; fail).
    pose proof (live_step G c (redraw tape (next w) o)) as Ls. destruct (sexec G c (redraw tape (next w) o)) as [[c' out] r]. injection Ea as <- <-.
    assert (Rest : live c' = None \/ live c' = live c -> (lets_out tape (UContextCall o) (ABuffer out r) None) ->
      outcome lo (S (next w) + length us) ((n, UContextCall o, ABuffer out r) :: run G hash tape {| tools := put (tools w) n (Some (TContext c')); next := S (next w) |} us) used).
    { intros H Hl. apply Quiet; [exact Hl|]. intros d Hd. injection Hd as <-. destruct H as [H|H]; [auto|right; exists c; auto]. }
    destruct o as [id rnd|id blob rnd|id blob|id|id iv rnd|block before|ctx tag|id iv tag|block before|]; cbn [redraw] in Ls; try (apply Rest; [exact Ls|exact eq_refl]).
    + (* a session starts *)
      clear Rest Same. destruct Ls as [E|(k & v & E & Ev)]; [apply Quiet; [exact eq_refl|]; intros d Hd; injection Hd as <-; auto|]. clear Quiet.
      eapply outcome_cons with (used' := used) (p := None); [exact eq_refl|auto|discriminate|].
      apply (IH {| tools := _; next := S (next w) |} (fun x => if Nat.eqb x n then next w else owner x)). split; [|split; [|split; [|cbn; lia]]].
      * intros x c0 k' v' m' Hx Hc. cbn in Hx. rewrite Hput in Hx. cbn. destruct (Nat.eqb_spec x n) as [->|].
        -- injection Hx as <-. rewrite E in Hc. injection Hc as <- <- <-. split; [lia|]. split; [exact Ev|]. apply T3. lia.
        -- destruct (T1 _ _ _ _ _ Hx Hc) as (A & B & C). repeat split; auto; lia.
      * assert (forall z cz, z <> n -> tools w z = Some (TContext cz) -> live cz <> None -> owner z <> next w) as W.
        { intros z cz _ Hz Hl Eo. destruct (live cz) as [[[k' v'] m']|] eqn:El; [|congruence]. destruct (T1 _ _ _ _ _ Hz El) as (A & _). lia. }
        intros x y c0 c1 Hx Hy Hc Hc' Ho. cbn in Hx, Hy. rewrite Hput in Hx, Hy. destruct (Nat.eqb_spec x n) as [->|]; destruct (Nat.eqb_spec y n) as [->|]; auto.
        -- exfalso. symmetry in Ho. revert Ho. eapply W; eauto.
        -- exfalso. revert Ho. eapply W; eauto.
        -- exact (T2 _ _ _ _ Hx Hy Hc Hc' Ho).
      * intros d Hd. cbn in Hd. apply T3. lia.
    + (* a session goes on *)
      destruct Ls as [(-> & E)|(k & v & m & E & E' & ->)]; [apply Rest; [auto|cbn; auto]|]. clear Rest Same Quiet.
      destruct (T1 _ _ _ _ _ Et E) as (A & B & C).
      set (q := {| p_draw := owner n; p_at := m; p_key := k; p_text := block; p_out := crypt G k v m block |}).
      apply outcome_cons with (used' := fun d => if Nat.eqb d (owner n) then (m + length block)%nat else used d) (p := Some q).
      * right. exists q. auto.
      * intro d. destruct (Nat.eqb_spec d (owner n)) as [->|]; lia.
      * intros q' Eq. injection Eq as <-. split; [split; [apply covers_crypt; exact B|cbn; lia]|]. cbn. rewrite Nat.eqb_refl. lia.
      * apply (IH {| tools := _; next := S (next w) |} owner). split; [|split; [|split; [|cbn; lia]]].
        -- intros x c0 k' v' m' Hx Hc. cbn in Hx. rewrite Hput in Hx. cbn. destruct (Nat.eqb_spec x n) as [->|Nx].
           ++ injection Hx as <-. rewrite E' in Hc. injection Hc as <- <- <-. rewrite Nat.eqb_refl. repeat split; auto; lia.
           ++ destruct (T1 _ _ _ _ _ Hx Hc) as (A' & B' & C'). split; [lia|]. split; [auto|]. destruct (Nat.eqb_spec (owner x) (owner n)) as [Eo|]; [|exact C'].
              exfalso. apply Nx. refine (T2 _ _ _ _ Hx Et _ _ Eo); congruence.
        -- assert (forall z cz, (if Nat.eqb z n then Some (TContext c') else tools w z) = Some (TContext cz) -> live cz <> None -> exists c0, tools w z = Some (TContext c0) /\ live c0 <> None) as W.
           { intros z cz Hz Hl0. destruct (Nat.eqb_spec z n) as [->|]; [|eauto]. exists c. split; [exact Et|congruence]. }
           intros x y c0 c1 Hx Hy Hc Hc' Ho. cbn in Hx, Hy. rewrite Hput in Hx, Hy.
           destruct (W _ _ Hx Hc) as (c2 & W1 & W2). destruct (W _ _ Hy Hc') as (c3 & W3 & W4). exact (T2 _ _ _ _ W1 W3 W2 W4 Ho).
        -- intros d Hd. cbn in Hd. destruct (Nat.eqb_spec d (owner n)); [lia|]. apply T3. lia.
Qed.
Lemma fresh_tidy : forall n, tidy n (no_tools n) (fun _ => 0%nat) (fun _ => 0%nat).
Proof. intro n. split; [|split; [|split]]; [discriminate|discriminate|reflexivity|apply le_n]. Qed.
Lemma ordered_nth : forall ps i j p q, ForallOrdPairs later ps -> (i < j)%nat -> nth_error ps i = Some (Some p) -> nth_error ps j = Some (Some q) -> p_draw p = p_draw q -> (p_at p + length (p_text p) <= p_at q)%nat.
Proof.
  induction ps as [|x ps IH]; intros i j p q O Hij Hi Hj Hd; [destruct i; discriminate Hi|]. inversion O as [|? ? F O']; subst. destruct j as [|j]; [lia|]. cbn in Hj. destruct i as [|i].
  - cbn in Hi. injection Hi as ->. rewrite Forall_forall in F. exact (F _ (nth_error_In _ _ Hj) p q eq_refl eq_refl Hd).
  - cbn in Hi. exact (IH i j p q O' ltac:(lia) Hi Hj Hd).
Qed.
End Runs.

(** ** C122 *)
(** In every program, each piece of ciphertext that leaves it is covered by a part of
    a key stream whose nonce is one random draw, and no two pieces share a byte. *)
Theorem C122_pieces : forall G hash tape us n, gcm_ok G -> source tape ->
  exists ps, Forall2 (fun x p => lets_out tape (snd (fst x)) (snd x) p) (run G hash tape (no_tools n) us) ps /\
    (forall p, In (Some p) ps -> covers G tape p /\ (n <= p_draw p < n + length us)%nat) /\
    (forall i j p q, i <> j -> nth_error ps i = Some (Some p) -> nth_error ps j = Some (Some q) -> apart p q).
Proof.
  intros G hash tape us n HG Ht. destruct (run_outcome G hash tape HG Ht n us _ _ _ (fresh_tidy G tape n)) as (ps & F & Gd & O). exists ps. split; [exact F|]. split.
  - intros p Hp. rewrite Forall_forall in Gd. exact (proj1 (Gd _ Hp p eq_refl)).
  - intros i j p q Hij Hi Hj Hd. destruct (Nat.lt_trichotomy i j) as [H|[H|H]]; [left|congruence|right].
    + exact (ordered_nth ps i j p q O H Hi Hj Hd).
    + exact (ordered_nth ps j i q p O H Hj Hi (eq_sym Hd)).
Qed.
Print Assumptions C122_pieces.

(** With a source that does not repeat itself, no byte of key stream (nonce and
    position, whatever the key) is used for two pieces. *)
Theorem C122_no_reuse : forall G hash tape us n, gcm_ok G -> source tape -> distinct tape n (n + length us)%nat ->
  exists ps, Forall2 (fun x p => lets_out tape (snd (fst x)) (snd x) p) (run G hash tape (no_tools n) us) ps /\
    (forall p, In (Some p) ps -> covers G tape p) /\
    (forall i j p q v b, nth_error ps i = Some (Some p) -> nth_error ps j = Some (Some q) -> uses_byte G tape p v b -> uses_byte G tape q v b -> i = j).
Proof.
  intros G hash tape us n HG Ht Hd. destruct (C122_pieces G hash tape us n HG Ht) as (ps & F & C & A). exists ps. split; [exact F|]. split; [intros p Hp; apply C; exact Hp|].
  intros i j p q v b Hi Hj (N & B) (N' & B'). destruct (Nat.eq_dec i j) as [|Hij]; [assumption|exfalso].
  rewrite (nonce_is G tape HG Ht) in N, N'. assert (p_draw p = p_draw q) as E by (apply Hd; [apply C; eapply nth_error_In; eauto|apply C; eapply nth_error_In; eauto|congruence]).
  destruct (A i j p q Hij Hi Hj E); lia.
Qed.
Print Assumptions C122_no_reuse.
(** The same message sealed twice, by any two objects at any two times, gives two
    different texts. *)
Lemma message_head : forall wire iv ct iv' ct', len iv = 16 -> len iv' = 16 -> (exists b : bool, (if b then (exists rest, base64_encode (smart_pack [] iv ++ smart_pack [] ct ++ rest) = Ok wire) else exists rest, wire = smart_pack [] iv ++ smart_pack [] ct ++ rest) /\
   (if b then (exists rest, base64_encode (smart_pack [] iv' ++ smart_pack [] ct' ++ rest) = Ok wire) else exists rest, wire = smart_pack [] iv' ++ smart_pack [] ct' ++ rest)) -> iv = iv'.
Proof.
  intros wire iv ct iv' ct' H H' (b & X & Y).
  assert (exists r r', smart_pack [] iv ++ r = smart_pack [] iv' ++ r') as (r & r' & E).
  { destruct b.
    - destruct X as (r & X), Y as (r' & Y). do 2 eexists. exact (C10_encode_injective _ _ _ X Y).
    - destruct X as (r & ->), Y as (r' & Y). do 2 eexists. exact Y. }
  pose proof (unpack_at [] iv r _ 0%nat ltac:(lia) eq_refl eq_refl) as U. pose proof (unpack_at [] iv' r' _ 0%nat ltac:(lia) eq_refl eq_refl) as U'.
  cbn [app] in U, U'. rewrite E in U. rewrite U in U'. congruence.
Qed.
Theorem C122_handle_texts : forall G h h' m m' r r' c, len r = 16 -> len r' = 16 -> r <> r' -> h_b64 h = h_b64 h' ->
  handle_encrypt G h m r = Ok c -> handle_encrypt G h' m' r' <> Ok c.
Proof.
  intros G h h' m m' r r' c Hr Hr' Hn Hb H H'. apply Hn.
  assert (forall h m r, handle_encrypt G h m r = Ok c -> exists ct, if h_b64 h then exists rest, base64_encode (smart_pack [] r ++ smart_pack [] ct ++ rest) = Ok c else exists rest, c = smart_pack [] r ++ smart_pack [] ct ++ rest) as S.
  { clear. intros h m r H. unfold handle_encrypt in H. destruct (to_runtime _) as [[[iv ct] t]| | | |] eqn:E; try discriminate H. cbn [bind] in H. apply to_runtime_ok in E.
    assert (iv = r) as ->.
    { unfold ae_encrypt in E. destruct (_ || _); [discriminate E|]. destruct (evp_init _ _ _) as [e| | | |]; try discriminate E. cbn [bind] in E. destruct (evp_update _ _ _ _) in E. congruence. }
    exists ct. rewrite (smart_pack_app (smart_pack (smart_pack [] r) _)), (smart_pack_app (smart_pack [] r)) in H. rewrite <- app_assoc in H.
    destruct (h_b64 h); exists (smart_pack [] t); [exact H|injection H as <-; reflexivity]. }
  destruct (S _ _ _ H) as (ct & X). destruct (S _ _ _ H') as (ct' & X'). rewrite <- Hb in X'.
  refine (message_head c _ ct _ ct' Hr Hr' _). exists (h_b64 h). destruct (h_b64 h); auto.
Qed.
Print Assumptions C122_handle_texts.
(** A program with a handle, a handler and a context of one key each, whose session
    and messages interleave. *)
Definition ex_tape (i : nat) (n : Z) : str := repeat (z2b (Z.of_nat i)) (Z.to_nat n).
Definition ex_program : list (nat * use) :=
  [(0%nat, UNewHandle ex_key [] true); (1%nat, UNewHandler ex_key GCM false); (2%nat, UNewContext);
   (2%nat, UContextCall (SKeygen (L "k") [])); (2%nat, UContextCall (SEncInit (L "k") [] []));
   (0%nat, USeal (L "one")); (2%nat, UContextCall (SEncUpdate (L "first") [])); (1%nat, USeal (L "two"));
   (2%nat, UContextCall (SEncUpdate (L "second") [])); (0%nat, USeal (L "one"))].
Example C122_example : gcm_ok toy /\ source ex_tape /\ distinct ex_tape 0 10 /\
  (let answers := map (fun x => match snd x with AText (Ok t) => t | ABuffer t (Ok 0) => t | _ => [] end) (run toy ex_hash ex_tape (no_tools 0) ex_program) in
   nth 5 answers [] <> nth 9 answers [] /\ map len answers = [0; 0; 0; 0; 16; 56; 5; 41; 6; 56]).
Proof.
  split; [exact toy_ok|]. split; [intros i n H; unfold ex_tape, len; rewrite repeat_length; lia|]. split.
  - intros i j Hi Hj E. unfold ex_tape in E. change (Z.to_nat 16) with (S 15) in E. cbn [repeat] in E. apply (f_equal (hd Ascii.zero)) in E. cbn [hd] in E.
    apply (f_equal b2z) in E. rewrite !z2b_small in E by lia. lia.
  - split; [|vm_compute; reflexivity]. intro H. vm_compute in H. discriminate H.
Qed.

(** ** C123 *)
(** The raw key rebuilds a handle that opens and makes the same texts. *)
Theorem C123_raw : forall G key aad b64 h, new_handle_aad key aad b64 = Ok h ->
  export_raw_key h = key /\ exists h', new_handle_aad (export_raw_key h) aad b64 = Ok h' /\
    (forall m r, handle_encrypt G h' m r = handle_encrypt G h m r) /\ (forall c, handle_decrypt G h' c = handle_decrypt G h c).
Proof.
  intros G key aad b64 h H. unfold new_handle_aad in H. destruct (len key =? 32) eqn:E; [|discriminate H]. injection H as <-. split; [reflexivity|].
  unfold export_raw_key. cbn [h_key]. unfold new_handle_aad. rewrite E. eexists. split; [reflexivity|]. auto.
Qed.
Print Assumptions C123_raw.
(** exportKey: one round of HKDF of the key with the label; it depends on the key
    alone, has the length of a key, and a handle can be made for it. *)
Theorem C123_exported : forall hash hmac, (forall k x : str, length (hmac k x) = 32%nat) -> forall key aad b64 h, new_handle_aad key aad b64 = Ok h ->
  exists out, export_key hash hmac h = Ok out /\
    out = hmac (hmac key (hash (repeat (z2b 0) 32))) (L "export key" ++ [z2b 1]) /\
    forall aad' b64', exists h', new_handle_aad out aad' b64' = Ok h' /\ h_key h' = out.
Proof.
  intros hash hmac Hh key aad b64 h H. unfold new_handle_aad in H. destruct (len key =? 32) eqn:E; [|discriminate H]. injection H as <-.
  assert (len key = 32) as Hk by lia. unfold export_key. cbn [h_key]. rewrite Hk.
  rewrite (C60_hkdf_exact hash hmac Hh key [] (L "export key") 32 1) by lia. cbn [bind fst]. cbv zeta. eexists. split; [reflexivity|].
  assert (firstn (Z.to_nat 32) (expand hmac (hmac key (hash (zeros 32))) (L "export key") 1) = hmac (hmac key (hash (repeat (z2b 0) 32))) (L "export key" ++ [z2b 1])) as X.
  { cbn [expand block app]. apply firstn_self. apply Hh. }
  split; [exact X|]. intros aad' b64'. change (if len [] =? 0 then zeros 32 else []) with (zeros 32). rewrite X. unfold new_handle_aad.
  replace (len _ =? 32) with true by (unfold len; rewrite Hh; reflexivity). eexists. split; reflexivity.
Qed.
Print Assumptions C123_exported.
(** Handles of one key export the same key, whatever their authenticated data. *)
Theorem C123_same : forall hash hmac h h', h_key h = h_key h' -> export_key hash hmac h = export_key hash hmac h'.
Proof. intros hash hmac h h' H. unfold export_key. now rewrite H. Qed.
Print Assumptions C123_same.
Example C123_example : exists h out h', new_handle_aad ex_key (L "aad") true = Ok h /\ export_key toy_hash toy_hmac h = Ok out /\ new_handle out false = Ok h' /\ out <> ex_key.
Proof. do 3 eexists. split; [vm_compute; reflexivity|]. split; [vm_compute; reflexivity|]. split; [vm_compute; reflexivity|]. intro H. vm_compute in H. discriminate H. Qed.
