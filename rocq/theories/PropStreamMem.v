(** C146: the streaming encryption classes use, delete and leak none of their objects
    wrongly, whatever is called in whatever order. *)
From Verif Require Import Base StrMap ByteString Memory MemorySpec MemoryInv Keystore Sym SymSpec SymCtx StreamMem.
From Coq Require Import ZArith List Bool Lia Permutation.
Import ListNotations.
Local Open Scope nat_scope.

(** What has happened, in order. *)
Definition events (m : tmem) : list event := rev (log m).

(** ** The owned addresses *)
Record mok (m : tmem) (own : list nat) : Prop := {
  mok_legal : legal (events m);
  mok_new : forall a, In (New a) (log m) <-> a < next m;
  mok_dup : NoDup own;
  mok_own : forall a, In a own <-> a < next m /\ ~ In (Del a) (log m) }.
Lemma mok_perm : forall m l l', mok m l -> Permutation l l' -> mok m l'.
Proof.
  intros m l l' [A B C D] P. constructor; auto; [eapply Permutation_NoDup; eauto|].
  intro a. rewrite <- D. split; apply Permutation_in; [apply Permutation_sym|]; exact P.
Qed.
Lemma mok_told : forall m l e, mok m l ->
  match e with New a => ~ In (New a) (log m) | Use a | Del a => In (New a) (log m) /\ ~ In (Del a) (log m) | Wild => False end ->
  legal (events (told e m)).
Proof.
  intros m l e [A _ _ _] H. unfold events, told. cbn [log rev]. apply legal_snoc; [exact A|].
  destruct e; rewrite <- ?in_rev; exact H.
Qed.
Lemma mok_use : forall m l a, mok m l -> In a l -> mok (told (Use a) m) l.
Proof.
  intros m l a M I. pose proof M as [A B C D]. pose proof (proj1 (D a) I) as [E F]. constructor; auto.
  - eapply mok_told; [exact M|]. split; [apply B; exact E|exact F].
  - intro b. cbn. rewrite <- B. split; [intros [X|X]; [discriminate|exact X]|auto].
  - intro b. rewrite D. cbn. split; intros [X Y]; split; auto; intro Z; apply Y; auto. destruct Z as [Z|Z]; [discriminate|exact Z].
Qed.
Lemma mok_del : forall m l a, mok m (a :: l) -> mok (told (Del a) m) l.
Proof.
  intros m l a M. pose proof M as [A B C D]. pose proof (proj1 (D a) (or_introl eq_refl)) as [E F]. apply NoDup_cons_iff in C as [C1 C2]. constructor; auto.
  - eapply mok_told; [exact M|]. split; [apply B; exact E|exact F].
  - intro b. cbn. rewrite <- B. split; [intros [X|X]; [discriminate|exact X]|auto].
  - intro b. cbn. split.
    + intro X. destruct (proj1 (D b) (or_intror X)) as [Y Z]. split; auto. intros [Q|Q]; [injection Q as <-; contradiction|contradiction].
    + intros [X Y]. destruct (proj2 (D b) (conj X (fun Z => Y (or_intror Z)))) as [->|Z]; auto. exfalso. apply Y. left. reflexivity.
Qed.
Lemma mok_new_ : forall m l, mok m l -> mok (tnew m) (next m :: l).
Proof.
  intros m l M. pose proof M as [A B C D].
  assert (~ In (Del (next m)) (log m)) as N.
  { intro X. apply in_rev in X. apply in_split in X as (b & c & X). pose proof (A _ _ _ X) as [Y _]. apply (in_or_app b (Del (next m) :: c)) in Y || idtac.
    assert (In (New (next m)) (events m)) as Z by (unfold events; rewrite X; apply in_or_app; left; exact Y).
    apply in_rev, B in Z. lia. }
  constructor.
  - change (events (tnew m)) with (events (told (New (next m)) m)). eapply mok_told; [exact M|]. rewrite B. lia.
  - intro b. cbn. rewrite B. split; [intros [X|X]; [injection X as <-; lia|lia]|]. intro X. destruct (Nat.eq_dec (next m) b) as [->|Q]; [left; reflexivity|right; lia].
  - constructor; auto. intro X. apply D in X. lia.
  - intro b. cbn. rewrite D. split.
    + intros [<-|[X Y]]; (split; [lia|]); intros [Q|Q]; try discriminate; auto.
    + intros [X Y]. destruct (Nat.eq_dec (next m) b) as [->|Q]; [left; reflexivity|right]. split; [lia|]. intro Z. apply Y. right. exact Z.
Qed.

(** ** One stream object *)
Definition opt_list {A} (o : option A) : list A := match o with Some a => [a] | None => [] end.
Definition addrs (x : cell) : list nat := place x :: opt_list (cipher x).
Record srel (s : stream) (x : cell) : Prop := {
  srel_ctx : s_ctx s = None <-> cipher x = None;
  srel_open : s_enc s || s_dec s = true <-> s_ctx s <> None;
  srel_one : s_enc s && s_dec s = false }.
Lemma srel_cipher : forall s x, srel s x -> s_enc s || s_dec s = true -> exists a, cipher x = Some a.
Proof. intros s x [A B _] H. apply B in H. destruct (cipher x) as [a|] eqn:E; [eauto|]. exfalso. apply H, A. reflexivity. Qed.
Lemma use_ctx_ok : forall x m R, mok m (addrs x ++ R) -> (exists a, cipher x = Some a) -> mok (use_ctx x m) (addrs x ++ R).
Proof. intros x m R M [a E]. unfold use_ctx. rewrite E. apply mok_use; [exact M|]. unfold addrs. rewrite E. right. left. reflexivity. Qed.
Lemma closed_ok : forall x m R, mok m (addrs x ++ R) -> mok (snd (closed x m)) (addrs (fst (closed x m)) ++ R).
Proof.
  intros x m R M. unfold closed, free_ctx, addrs in *. cbn [fst snd place cipher opt_list app] in *.
  destruct (cipher x) as [a|]; cbn [opt_list app] in *; [|exact M]. apply mok_del. eapply mok_perm; [exact M|apply perm_swap].
Qed.
Lemma fresh_ok : forall x m R, cipher x = None -> mok m (addrs x ++ R) -> mok (snd (fresh_ctx x m)) (addrs (fst (fresh_ctx x m)) ++ R).
Proof.
  intros x m R E M. unfold fresh_ctx. cbn [fst snd]. apply use_ctx_ok; [|cbn; eauto]. unfold addrs in *. rewrite E in M. cbn [cipher place opt_list app] in *.
  eapply mok_perm; [apply mok_new_; exact M|apply perm_swap].
Qed.
Lemma delete_ok : forall x m R, mok m (addrs x ++ R) -> mok (tdelete x m) R.
Proof.
  intros x m R M. unfold tdelete. apply mok_del. apply closed_ok in M. exact M.
Qed.
Lemma make_ok : forall m R, mok m R -> mok (snd (tmake m)) (addrs (fst (tmake m)) ++ R).
Proof. intros m R M. apply mok_new_. exact M. Qed.

Section One.
Context (G : gcm).
Lemma srel_closed : forall s x, srel s x -> s_enc s = false -> s_dec s = false -> s_ctx s = None /\ cipher x = None.
Proof.
  intros s x [A B _] H1 H2. rewrite H1, H2 in B. destruct (s_ctx s) eqn:E; [|split; [reflexivity|apply A; reflexivity]].
  assert (false || false = true) by (apply B; discriminate). discriminate.
Qed.
(** A call keeps the memory in order, and the relation if it returns. *)
Lemma tevents_ok : forall o s x m R, srel s x -> mok m (addrs x ++ R) ->
  mok (snd (tevents s x o m)) (addrs (fst (tevents s x o m)) ++ R).
Proof.
  intros o s x m R S M. pose proof (srel_cipher s x S) as U.
  destruct o; cbn [tevents];
    repeat match goal with
    | |- context [if ?b then _ else _] => destruct b eqn:?; cbn [fst snd]
    end; auto;
    repeat match goal with
    | H : _ && _ = true |- _ => apply andb_prop in H as [? ?]
    | H : negb _ = true |- _ => apply negb_true_iff in H
    end.
  all: try (apply use_ctx_ok; [exact M|apply U; match goal with H : s_enc _ = true |- _ => rewrite H | H : s_dec _ = true |- _ => rewrite H end; rewrite ?orb_true_r; reflexivity]).
  all: try (apply fresh_ok; [eapply srel_closed; eauto|exact M]).
  - apply closed_ok. assert (exists a, cipher x = Some a) as V by (apply U; match goal with H : s_enc _ = true |- _ => rewrite H end; reflexivity).
    apply use_ctx_ok; [apply use_ctx_ok; assumption|exact V].
  - apply closed_ok. apply use_ctx_ok; [exact M|]. apply U. match goal with H : s_dec _ = true |- _ => rewrite H end. apply orb_true_r.
Qed.
Lemma tevents_place : forall o s x m, place (fst (tevents s x o m)) = place x.
Proof.
  intros o s x m. destruct o; cbn [tevents]; repeat match goal with |- context [if ?b then _ else _] => destruct b; cbn [fst] end; reflexivity.
Qed.
Lemma srel_same : forall s s' x, srel s x -> s_enc s' = s_enc s -> s_dec s' = s_dec s -> (s_ctx s' = None <-> s_ctx s = None) -> srel s' x.
Proof.
  intros s s' x [A B C] H1 H2 H3. constructor.
  - rewrite H3. exact A.
  - rewrite H1, H2, B. split; intros X Y; apply X, H3, Y.
  - rewrite H1, H2. exact C.
Qed.
Lemma tstep_rel : forall o s x m, srel s x -> goes_on (snd (tdata G s o)) = true -> srel (fst (tdata G s o)) (fst (tevents s x o m)).
Proof.
  intros o s x m S. pose proof S as [A B C].
  destruct o; cbn [tdata tevents].
  - unfold encrypt_init. destruct (s_enc s) eqn:E; [cbn; auto|]. destruct (s_dec s) eqn:D; [cbn; auto|]. cbn [negb].
    destruct (evp_init G (s_key s) random); cbn; try discriminate. intros _. constructor; cbn; [split; discriminate|split; [discriminate|reflexivity]|reflexivity].
  - intros _. cbn [fst snd]. unfold init_aad. destruct (s_enc s || s_dec s); [|exact S]. apply (srel_same s); auto. reflexivity.
  - unfold set_aad. intro H. assert (fst (if s_enc s && s_aad_set s then (x, use_ctx x m) else if s_dec s && s_aad_set s then (x, use_ctx x m) else (x, m)) = x) as ->
      by (destruct (s_enc s && s_aad_set s), (s_dec s && s_aad_set s); reflexivity).
    destruct ((s_enc s || s_dec s) && s_aad_set s); [|exact S]. destruct (too_long (s_aad s)); [discriminate|].
    destruct (s_ctx s) as [e|] eqn:Ec; [|discriminate]. destruct (evp_add_aad e (s_aad s)) as [e' n]. cbn [fst]. apply (srel_same s); auto. cbn. rewrite Ec. split; discriminate.
  - unfold encrypt_update. intro H. assert (fst (if s_enc s && (0 <? len block)%Z then (x, use_ctx x m) else (x, m)) = x) as ->
      by (destruct (s_enc s && (0 <? len block)%Z); reflexivity).
    destruct (s_enc s) eqn:E; [|exact S]. destruct (too_long block); [exact S|]. destruct (negb (0 <? len block)%Z); [exact S|].
    destruct (s_ctx s) as [e|] eqn:Ec; [|discriminate]. destruct (evp_update G true e block) as [e' ct].
    destruct (len block =? len ct)%Z; cbn [fst]; apply (srel_same s); auto; cbn; rewrite ?Ec; split; discriminate.
  - unfold encrypt_finalize. destruct (s_enc s) eqn:E; [|cbn; auto]. destruct (0 <? s_encn s)%Z; [|cbn; auto]. cbn [andb].
    destruct (len ct =? s_total s)%Z; [|cbn; auto]. cbn [negb]. destruct (s_ctx s) as [e|] eqn:Ec; [|cbn; discriminate].
    destruct (s_total s / 2 ^ 32 * 2 ^ 32 =? 0)%Z; intros _; cbn [fst closed].
    + constructor; cbn; [tauto| |reflexivity]. cbn in C. rewrite C. split; [discriminate|intro X; exfalso; apply X; reflexivity].
    + apply (srel_same s); auto. cbn. rewrite Ec. tauto.
  - unfold decrypt_init. destruct (s_dec s) eqn:D; [cbn; auto|]. destruct (s_enc s) eqn:E; [cbn; auto|]. cbn [negb].
    destruct (evp_init G (s_key s) iv); cbn; try discriminate. intros _. constructor; cbn; [split; discriminate| |reflexivity].
    split; [discriminate|reflexivity].
  - unfold decrypt_update. intro H. assert (fst (if s_dec s && (0 <? len block)%Z then (x, use_ctx x m) else (x, m)) = x) as ->
      by (destruct (s_dec s && (0 <? len block)%Z); reflexivity).
    destruct (s_dec s) eqn:E; [|exact S]. destruct (negb (0 <? len block)%Z); [exact S|]. destruct (too_long block); [exact S|].
    destruct (s_ctx s) as [e|] eqn:Ec; [|discriminate]. destruct (evp_update G false e block) as [e' ct].
    destruct (len ct =? len block)%Z; cbn [fst]; apply (srel_same s); auto; cbn; rewrite ?Ec; split; discriminate.
  - unfold decrypt_finalize. destruct (s_dec s) eqn:D; [|cbn; auto]. destruct (0 <? s_decn s)%Z; [|cbn; auto]. cbn [andb].
    destruct (s_ctx s) as [e|] eqn:Ec; [|cbn; discriminate]. intros _. cbn [fst closed].
    rewrite andb_true_r in C. constructor; cbn; [tauto| |rewrite C; reflexivity]. rewrite C. split; [discriminate|intro X; exfalso; apply X; reflexivity].
Qed.
Lemma tstep_ok : forall o s x m R, srel s x -> mok m (addrs x ++ R) ->
  let '(s', x', m', r) := tstep G o s x m in
  (s', r) = tdata G s o /\ mok m' (addrs x' ++ R) /\ (goes_on r = true -> srel s' x').
Proof.
  intros o s x m R S M. unfold tstep. pose proof (tstep_rel o s x (told (Use (place x)) m) S) as H.
  destruct (tdata G s o) as [s' r]. cbn [fst snd] in H.
  assert (mok (told (Use (place x)) m) (addrs x ++ R)) as M1 by (apply mok_use; [exact M|left; reflexivity]).
  pose proof (tevents_ok o s x _ R S M1) as K. destruct (tevents s x o _) as [x' m']. cbn [fst snd] in *. auto.
Qed.
Lemma new_srel : forall k m, srel (new_stream k) (fst (tmake m)).
Proof. intros. constructor; cbn; [tauto|split; [discriminate|intro X; exfalso; apply X; reflexivity]|reflexivity]. Qed.
Lemma tsteps_ok : forall l s x m R, srel s x -> mok m (addrs x ++ R) ->
  let '(s', x', m', _) := tsteps G l s x m in mok m' (addrs x' ++ R).
Proof.
  induction l as [|o l IH]; intros s x m R S M; cbn [tsteps]; [exact M|].
  pose proof (tstep_ok o s x m R S M) as H. destruct (tstep G o s x m) as [[[s' x'] m'] r]. destruct H as (_ & H1 & H2).
  destruct (goes_on r); [|exact H1]. apply IH; [apply H2; reflexivity|exact H1].
Qed.
End One.

(** No objects yet. *)
Definition nothing : tmem := {| next := 0; log := [] |}.
Lemma nothing_ok : mok nothing [].
Proof.
  constructor; cbn; [|split; [tauto|lia]|constructor|split; [tauto|lia]].
  intros b e a H. destruct b; discriminate.
Qed.
Lemma mok_remains : forall m l a, mok m l -> (remains (events m) a <-> In a l).
Proof. intros m l a [A B C D]. unfold remains, events. rewrite <- !in_rev, D, B. tauto. Qed.

(** ** The context *)
Definition slot (o : option stream) (x : option cell) : Prop :=
  match o, x with
  | None, None => True
  | Some s, Some x => srel s x /\ s_enc s || s_dec s = true
  | _, _ => False
  end.
Definition owned (x : option cell) : list nat := match x with Some x => addrs x | None => [] end.
Record pok (p : sprog) : Prop := {
  pok_enc : slot (c_enc (ctx p)) (enc_at p);
  pok_dec : slot (c_dec (ctx p)) (dec_at p);
  pok_mem : mok (heap p) (owned (enc_at p) ++ owned (dec_at p)) }.
Lemma safe_delete_ok : forall x m R, mok m (owned x ++ R) -> mok (safe_delete x m) R.
Proof. intros [x|] m R M; [apply delete_ok; exact M|exact M]. Qed.
Lemma swap_ok : forall m A B, mok m (A ++ B) -> mok m (B ++ A).
Proof. intros m A B M. eapply mok_perm; [exact M|apply Permutation_app_comm]. Qed.
Section Two.
Context (G : gcm).
(** A call that is not a successful finalize leaves a session open. *)
Lemma stays_open : forall o s, s_enc s || s_dec s = true -> goes_on (snd (tdata G s o)) = true ->
  match o, snd (tdata G s o) with TEncFinal _ _, Ok _ | TDecFinal, _ => True | _, _ => s_enc (fst (tdata G s o)) || s_dec (fst (tdata G s o)) = true end.
Proof.
  intros o s H. destruct o; cbn [tdata]; intro K.
  - revert K. unfold encrypt_init. destruct (s_enc s) eqn:E; [cbn; rewrite ?E, ?orb_true_r; auto|]. destruct (s_dec s) eqn:D; [cbn; rewrite ?E, ?D; auto|]. discriminate.
  - cbn [fst snd]. unfold init_aad. rewrite H. cbn. exact H.
  - revert K. unfold set_aad. destruct (_ && _); [|cbn; auto]. destruct (too_long _); [discriminate|]. destruct (s_ctx s); [|discriminate].
    destruct (evp_add_aad _ _). cbn. destruct (_ =? _)%Z; auto.
  - revert K. unfold encrypt_update. destruct (s_enc s) eqn:E; [|cbn; rewrite ?E, ?orb_true_r; auto]. destruct (too_long _); [discriminate|]. destruct (negb _); [cbn; rewrite ?E, ?orb_true_r; auto|].
    destruct (s_ctx s); [|discriminate]. destruct (evp_update _ _ _ _). destruct (_ =? _)%Z; cbn; rewrite ?E, ?orb_true_r; auto.
  - revert K. unfold encrypt_finalize. destruct (_ && _); [|cbn; auto]. destruct (negb _); [cbn; auto|]. destruct (s_ctx s); [|discriminate].
    destruct (_ =? _)%Z; cbn; auto.
  - revert K. unfold decrypt_init. destruct (s_dec s) eqn:D; [cbn; rewrite ?D; auto|]. destruct (s_enc s) eqn:E; [cbn; rewrite ?E, ?orb_true_r; auto|]. discriminate.
  - revert K. unfold decrypt_update. destruct (s_dec s) eqn:E; [|cbn; rewrite ?E, ?orb_true_r; auto]. destruct (negb _); [cbn; rewrite ?E, ?orb_true_r; auto|]. destruct (too_long _); [discriminate|].
    destruct (s_ctx s); [|discriminate]. destruct (evp_update _ _ _ _). destruct (_ =? _)%Z; cbn; rewrite ?E, ?orb_true_r; auto.
  - exact I.
Qed.
Lemma goes_on_code : forall r, goes_on (to_code r) = goes_on r.
Proof. intros [v|[]| | |]; reflexivity. Qed.
Lemma attach_ok : forall s x m R, srel s x -> s_enc s || s_dec s = true -> mok m (addrs x ++ R) ->
  let '(s', x', m', r) := attach G s x m in
  (s', to_code r) = attach_aad s /\ mok m' (addrs x' ++ R) /\ (goes_on r = true -> slot (Some s') (Some x')).
Proof.
  intros s x m R S H M. unfold attach.
  pose proof (tstep_ok G (TInitAad None) s x m R S M) as A. pose proof (stays_open (TInitAad None) s H eq_refl) as A'. cbn [tdata fst snd] in A'.
  destruct (tstep G (TInitAad None) s x m) as [[[s1 x1] m1] r1]. destruct A as (A1 & A2 & A3). cbn [tdata] in A1. injection A1 as -> ->.
  specialize (A3 eq_refl). pose proof (tstep_ok G TSetAad _ x1 m1 R A3 A2) as B. pose proof (stays_open TSetAad _ A') as B'.
  destruct (tstep G TSetAad (init_aad s None) x1 m1) as [[[s2 x2] m2] r2]. destruct B as (B1 & B2 & B3).
  cbn [tdata] in *. unfold attach_aad. rewrite <- B1 in *. cbn [fst snd] in B'. split; [|split; [exact B2|]].
  - destruct r2 as [[]| | | |]; reflexivity.
  - intro K. split; [apply B3, K|]. specialize (B' K). exact B'.
Qed.
Definition open_ok (r : res Z) (p : sprog) : Prop :=
  mok (heap p) (owned (enc_at p) ++ owned (dec_at p)) /\ (goes_on r = true -> pok p).
(** One call of the context. *)
Ltac fin := split; [split; [cbn; rewrite ?app_nil_r; auto|first [discriminate|intro; constructor; cbn; rewrite ?app_nil_r; auto]]|split; reflexivity].
Lemma sstep_ok : forall o p, pok p ->
  let '(p', r) := sstep G p o in
  open_ok r p' /\ ctx p' = fst (fst (sexec G (ctx p) o)) /\ r = snd (sexec G (ctx p) o).
Proof.
  intros o p P. pose proof P as [E D M].
  destruct o; cbn [sstep].
  1-4: match goal with |- context [sexec ?g ?c0 ?o] => pose proof (sexec_enc g c0 o) as X; pose proof (sexec_dec g c0 o) as Y; destruct (sexec g c0 o) as [[c out] r] end;
    cbn [fst snd ctx]; (split; [split; [exact M|intros _; constructor; cbn [heap enc_at dec_at ctx]; [rewrite X; exact E|rewrite Y; exact D|exact M]]|split; reflexivity]).
  - (* encryptInit *)
    cbn [sexec]. unfold ctx_encrypt_init. destruct (get_secret_key (c_store (ctx p)) id) as [st [k|]].
    2: { apply safe_delete_ok in M. fin. }
    apply safe_delete_ok in M. pose proof (make_ok _ _ M) as M1.
    destruct (tmake (safe_delete (enc_at p) (heap p))) as [x0 m1] eqn:Ex.
    assert (srel (new_stream (sk_data k)) x0) as S0 by (pose proof (new_srel (sk_data k) (safe_delete (enc_at p) (heap p))) as Y; rewrite Ex in Y; exact Y).
    cbn [fst snd] in M1. pose proof (tstep_ok G (TEncInit iv random) _ x0 m1 _ S0 M1) as A.
    destruct (tstep G (TEncInit iv random) _ x0 m1) as [[[s x] m] r]. destruct A as (A1 & A2 & A3). cbn [tdata] in A1.
    destruct (encrypt_init G (new_stream (sk_data k)) iv random) as [[s' iv'] r'] eqn:Ei. injection A1 as -> ->.
    assert (r' = UB \/ r' = Ok 0%Z /\ s_enc s' = true) as Q.
    { revert Ei. unfold encrypt_init. cbn [new_stream s_enc s_dec]. destruct (evp_init _ _ _); intro Y; injection Y as <- _ <-; auto. }
    destruct Q as [->|[-> Q]].
    + fin.
    + assert (s_enc s' || s_dec s' = true) as O by (rewrite Q; reflexivity).
      pose proof (attach_ok s' x m _ (A3 eq_refl) O A2) as B. destruct (attach G s' x m) as [[[s2 x2] m2] r2]. destruct B as (B1 & B2 & B3).
      destruct (attach_aad s') as [s3 r3]. injection B1 as <- <-. cbn [fst snd put_enc ctx heap enc_at dec_at with_enc c_enc c_dec].
      split; [|split; reflexivity]. split; [exact B2|]. rewrite goes_on_code. intro K. constructor; cbn; auto. apply B3, K.
  - (* encryptUpdate *)
    cbn [sexec]. unfold ctx_encrypt_update. unfold slot in E. destruct (enc_at p) as [x|] eqn:Ex, (c_enc (ctx p)) as [s|] eqn:Es; try contradiction.
    2: { split; [split; [rewrite Ex; exact M|intros _; exact P]|split; reflexivity]. }
    destruct E as [S O]. pose proof (tstep_ok G (TEncUpdate block out) s x _ _ S M) as A. pose proof (stays_open (TEncUpdate block out) s O) as B.
    destruct (tstep G (TEncUpdate block out) s x (heap p)) as [[[s' x'] m] r]. destruct A as (A1 & A2 & A3). cbn [tdata] in A1, B.
    destruct (encrypt_update G s block out) as [[s1 o1] r1]. injection A1 as -> ->. cbn [fst snd] in B.
    assert (goes_on (match r1 with Ok _ => Ok 0%Z | _ => to_code r1 end) = goes_on r1) as Q by (destruct r1 as [|[]| | |]; reflexivity).
    split; [|destruct r1; split; reflexivity]. split; [exact A2|]. rewrite Q. intro K. constructor; cbn; auto.
  - (* encryptFinalize *)
    cbn [sexec]. unfold ctx_encrypt_finalize. unfold slot in E. destruct (enc_at p) as [x|] eqn:Ex, (c_enc (ctx p)) as [s|] eqn:Es; try contradiction.
    2: { split; [split; [rewrite Ex; exact M|intros _; exact P]|split; reflexivity]. }
    destruct E as [S O]. pose proof (tstep_ok G (TEncFinal ct tag) s x _ _ S M) as A. pose proof (stays_open (TEncFinal ct tag) s O) as B.
    destruct (tstep G (TEncFinal ct tag) s x (heap p)) as [[[s' x'] m] r]. destruct A as (A1 & A2 & A3). cbn [tdata] in A1, B.
    destruct (encrypt_finalize G s ct tag) as [[s1 o1] r1]. injection A1 as -> ->. cbn [fst snd] in B.
    destruct r1 as [v|e| | |].
    { apply delete_ok in A2. fin. }
    all: split; [|split; reflexivity]; split; [exact A2|]; rewrite goes_on_code; intro K; constructor; cbn; auto.
  - (* decryptInit *)
    apply swap_ok in M. cbn [sexec]. unfold ctx_decrypt_init. destruct (get_secret_key (c_store (ctx p)) id) as [st [k|]].
    2: { apply safe_delete_ok in M. fin. }
    apply safe_delete_ok in M. pose proof (make_ok _ _ M) as M1.
    destruct (tmake (safe_delete (dec_at p) (heap p))) as [x0 m1] eqn:Ex.
    assert (srel (new_stream (sk_data k)) x0) as S0 by (pose proof (new_srel (sk_data k) (safe_delete (dec_at p) (heap p))) as Y; rewrite Ex in Y; exact Y).
    cbn [fst snd] in M1. pose proof (tstep_ok G (TDecInit iv tag) _ x0 m1 _ S0 M1) as A.
    destruct (tstep G (TDecInit iv tag) _ x0 m1) as [[[s x] m] r]. destruct A as (A1 & A2 & A3). cbn [tdata] in A1.
    destruct (decrypt_init G (new_stream (sk_data k)) iv tag) as [s' r'] eqn:Ei. injection A1 as -> ->.
    assert (r' = UB \/ r' = Ok 0%Z /\ s_dec s' = true) as Q.
    { revert Ei. unfold decrypt_init. cbn [new_stream s_enc s_dec]. destruct (evp_init _ _ _); intro Y; injection Y as <- <-; auto. }
    destruct Q as [->|[-> Q]].
    + apply swap_ok in A2. fin.
    + assert (s_enc s' || s_dec s' = true) as O by (rewrite Q; apply orb_true_r).
      pose proof (attach_ok s' x m _ (A3 eq_refl) O A2) as B. destruct (attach G s' x m) as [[[s2 x2] m2] r2]. destruct B as (B1 & B2 & B3). apply swap_ok in B2.
      destruct (attach_aad s') as [s3 r3]. injection B1 as <- <-. cbn [fst snd put_dec ctx heap enc_at dec_at with_dec c_enc c_dec].
      split; [|split; reflexivity]. split; [exact B2|]. rewrite goes_on_code. intro K. constructor; cbn; auto. apply B3, K.
  - (* decryptUpdate *)
    apply swap_ok in M. cbn [sexec]. unfold ctx_decrypt_update. unfold slot in D. destruct (dec_at p) as [x|] eqn:Ex, (c_dec (ctx p)) as [s|] eqn:Es; try contradiction.
    2: { split; [split; [rewrite Ex; apply swap_ok; exact M|intros _; exact P]|split; reflexivity]. }
    destruct D as [S O]. pose proof (tstep_ok G (TDecUpdate block out) s x _ _ S M) as A. pose proof (stays_open (TDecUpdate block out) s O) as B.
    destruct (tstep G (TDecUpdate block out) s x (heap p)) as [[[s' x'] m] r]. destruct A as (A1 & A2 & A3). cbn [tdata] in A1, B. apply swap_ok in A2.
    destruct (decrypt_update G s block out) as [[s1 o1] r1]. injection A1 as -> ->. cbn [fst snd] in B.
    assert (goes_on (match r1 with Ok _ => Ok 0%Z | _ => to_code r1 end) = goes_on r1) as Q by (destruct r1 as [|[]| | |]; reflexivity).
    split; [|destruct r1; split; reflexivity]. split; [exact A2|]. rewrite Q. intro K. constructor; cbn; auto.
  - (* decryptFinalize *)
    apply swap_ok in M. cbn [sexec]. unfold ctx_decrypt_finalize. unfold slot in D. destruct (dec_at p) as [x|] eqn:Ex, (c_dec (ctx p)) as [s|] eqn:Es; try contradiction.
    2: { split; [split; [rewrite Ex; apply swap_ok; exact M|intros _; exact P]|split; reflexivity]. }
    destruct D as [S O]. pose proof (tstep_ok G TDecFinal s x _ _ S M) as A.
    destruct (tstep G TDecFinal s x (heap p)) as [[[s' x'] m] r]. destruct A as (A1 & A2 & A3). cbn [tdata] in A1.
    assert (r = UB \/ exists v, r = Ok v) as Q.
    { revert A1. unfold decrypt_finalize. destruct (_ && _); [destruct (s_ctx s)|]; intro Y; injection Y as _ ->; eauto. }
    destruct (decrypt_finalize G s) as [s1 r1]. injection A1 as -> ->.
    destruct Q as [->|[v ->]].
    + apply swap_ok in A2. fin.
    + apply delete_ok in A2. fin.
Qed.
Lemma ssteps_ok : forall l p, pok p ->
  let '(p', rs, b) := ssteps G l p in
  mok (heap p') (owned (enc_at p') ++ owned (dec_at p')) /\
  (b = true -> pok p' /\ ctx p' = fst (srun G (ctx p) l) /\ rs = map (fun e => snd (snd e)) (snd (srun G (ctx p) l))).
Proof.
  induction l as [|o l IH]; intros p P; cbn [ssteps srun].
  - split; [apply P|]. intros _. split; [exact P|split; reflexivity].
  - pose proof (sstep_ok o p P) as H. destruct (sstep G p o) as [p1 r]. destruct H as ([H1 H2] & H3 & H4).
    destruct (sexec G (ctx p) o) as [[c out] r']. cbn [fst snd] in H3, H4. subst c r'.
    destruct (goes_on r) eqn:K; [|split; [exact H1|discriminate]].
    pose proof (IH p1 (H2 eq_refl)) as J. destruct (ssteps G l p1) as [[p2 rs] b]. destruct (srun G (ctx p1) l) as [c2 tr]. destruct J as [J1 J2].
    split; [exact J1|]. intro B. destruct (J2 B) as (J3 & J4 & J5). split; [exact J3|]. split; [exact J4|]. cbn. rewrite J5. reflexivity.
Qed.
End Two.
Lemma sempty_ok : pok sempty.
Proof. constructor; cbn; auto. exact nothing_ok. Qed.

(** ** The theorems *)
(** Every program of calls on a context, up to the first call with undefined
    behaviour of another kind if there is one: streams and cipher contexts are used
    after their creation and before their deletion only, and no null pointer is used. *)
Theorem C146_legal : forall G l, legal (events (heap (fst (fst (ssteps G l sempty))))).
Proof. intros G l. pose proof (ssteps_ok G l sempty sempty_ok) as H. destruct (ssteps G l sempty) as [[p rs] b]. destruct H as [H _]. exact (mok_legal _ _ H). Qed.
Print Assumptions C146_legal.
(** Destroying the context then is as safe, and leaves nothing. *)
Theorem C146_nothing_left : forall G l,
  legal (events (sdestroy (fst (fst (ssteps G l sempty))))) /\ all_freed (events (sdestroy (fst (fst (ssteps G l sempty))))).
Proof.
  intros G l. pose proof (ssteps_ok G l sempty sempty_ok) as H. destruct (ssteps G l sempty) as [[p rs] b]. destruct H as [H _]. cbn [fst].
  assert (mok (sdestroy p) []) as M. { unfold sdestroy. apply safe_delete_ok. rewrite app_nil_r. apply safe_delete_ok. exact H. }
  split; [exact (mok_legal _ _ M)|]. intros a X. apply (mok_remains _ _ a M) in X. exact X.
Qed.
Print Assumptions C146_nothing_left.
(** The pointers do not change what the calls return (Sym.v). *)
Theorem C146_same : forall G l, let '(p, rs, b) := ssteps G l sempty in
  b = true -> ctx p = fst (srun G new_ske l) /\ rs = map (fun e => snd (snd e)) (snd (srun G new_ske l)).
Proof. intros G l. pose proof (ssteps_ok G l sempty sempty_ok) as H. destruct (ssteps G l sempty) as [[p rs] b]. intro B. destruct H as [_ H]. exact (proj2 (H B)). Qed.
Print Assumptions C146_same.
(** Between calls there are two objects for an open session, the stream and its
    cipher context, and nothing else. *)
Definition opened {A} (o : option A) : nat := match o with Some _ => 1 | None => 0 end.
Lemma slot_two : forall o x, slot o x -> length (owned x) = 2 * opened o.
Proof.
  intros [s|] [x|] H; try contradiction; [|reflexivity]. destruct H as [S O]. destruct (srel_cipher s x S O) as [a E].
  cbn. rewrite E. reflexivity.
Qed.
Theorem C146_two : forall G l, let '(p, _, b) := ssteps G l sempty in b = true ->
  exists live, NoDup live /\ (forall a, In a live <-> remains (events (heap p)) a) /\
    length live = 2 * (opened (c_enc (fst (srun G new_ske l))) + opened (c_dec (fst (srun G new_ske l)))).
Proof.
  intros G l. pose proof (ssteps_ok G l sempty sempty_ok) as H. destruct (ssteps G l sempty) as [[p rs] b]. intro B. destruct H as [M H].
  destruct (H B) as (P & C & _). change (ctx sempty) with new_ske in C. rewrite <- C. exists (owned (enc_at p) ++ owned (dec_at p)).
  split; [exact (mok_dup _ _ M)|]. split; [intro a; symmetry; apply mok_remains, M|].
  rewrite app_length, (slot_two _ _ (pok_enc _ P)), (slot_two _ _ (pok_dec _ P)). lia.
Qed.
Print Assumptions C146_two.
(** A caller who has finalised what they began (by the returned codes) leaves no
    object behind even while the context lives. *)
Theorem C146_idle : forall G l, let '(p, _, b) := ssteps G l sempty in b = true ->
  enc_open false (snd (srun G new_ske l)) = false -> dec_open false (snd (srun G new_ske l)) = false -> all_freed (events (heap p)).
Proof.
  intros G l. pose proof (C146_two G l) as H. destruct (ssteps G l sempty) as [[p rs] b]. intros B E D a X.
  apply enc_open_inv in E; [|auto]. apply dec_open_inv in D; [|auto]. destruct (H B) as (live & _ & A & N). rewrite E, D in N. apply A in X.
  destruct live; [exact X|discriminate].
Qed.
Print Assumptions C146_idle.
(** A stream object used directly: the same. *)
Theorem C146_stream : forall G key l,
  let '(x0, m0) := tmake nothing in
  let '(_, x, m, _) := tsteps G l (new_stream key) x0 m0 in
  legal (events m) /\ legal (events (tdelete x m)) /\ all_freed (events (tdelete x m)).
Proof.
  intros G key l. destruct (tmake nothing) as [x0 m0] eqn:E.
  assert (mok m0 (addrs x0 ++ [])) as M by (pose proof (make_ok _ _ nothing_ok) as Y; rewrite E in Y; exact Y).
  assert (srel (new_stream key) x0) as S by (pose proof (new_srel key nothing) as Y; rewrite E in Y; exact Y).
  pose proof (tsteps_ok G l _ _ _ _ S M) as H. destruct (tsteps G l (new_stream key) x0 m0) as [[[s x] m] b].
  split; [exact (mok_legal _ _ H)|]. apply delete_ok in H. split; [exact (mok_legal _ _ H)|]. intros a X. apply (mok_remains _ _ a H) in X. exact X.
Qed.
Print Assumptions C146_stream.

(** A context used badly: an encryption begun twice, a decryption begun and given up
    for a missing key, a finalize with the wrong text (which keeps the session). *)
Definition key32 : str := repeat (z2b 107) 32.
Definition iv16 : str := repeat (z2b 118) 16.
Definition careless : list sop :=
  [SEncUpdate (L "x") []; SKeygen (L "k") key32; SEncInit (L "k") [] iv16; SEncUpdate (L "abc") []; SEncInit (L "k") [] iv16; SDecInit (L "k") iv16 [];
   SEncUpdate (L "abc") []; SEncUpdate [] []; SEncFinal (L "ab") []; SDecUpdate (L "abc") []; SDecInit (L "none") iv16 []; SDecFinal].
Example C146_nonvacuous : exists p rs, ssteps toy careless sempty = (p, rs, true) /\
  rs = [Ok 8; Ok 0; Ok 0; Ok 0; Ok 0; Ok 0; Ok 0; Ok 8; Ok 8; Ok 0; Ok 6; Ok 8]%Z /\
  remaining (events (heap p)) = [2; 3] /\ remaining (events (sdestroy p)) = [] /\ made_by (events (sdestroy p)) = [0; 1; 2; 3; 4; 5] /\
  opened (c_enc (fst (srun toy new_ske careless))) = 1 /\ opened (c_dec (fst (srun toy new_ske careless))) = 0.
Proof. eexists _, _. split; [vm_compute; reflexivity|]. repeat (split; [vm_compute; reflexivity|]). vm_compute. reflexivity. Qed.
Example C146_idle_nonvacuous : exists p rs, ssteps toy (careless ++ [SEncFinal (L "abc") []]) sempty = (p, rs, true) /\
  enc_open false (snd (srun toy new_ske (careless ++ [SEncFinal (L "abc") []]))) = false /\ dec_open false (snd (srun toy new_ske (careless ++ [SEncFinal (L "abc") []]))) = false /\
  made_by (events (heap p)) = [0; 1; 2; 3; 4; 5].
Proof. eexists _, _. split; [vm_compute; reflexivity|]. repeat (split; [vm_compute; reflexivity|]). vm_compute. reflexivity. Qed.
(** A stream object used again after it was finalised, and for both directions. *)
Example C146_stream_nonvacuous : exists s x m,
  tsteps toy [TEncInit [] iv16; TDecInit iv16 []; TEncUpdate (L "abc") []; TEncFinal (L "abc") []; TEncFinal [] []; TDecInit iv16 []; TDecUpdate (L "abc") []; TDecFinal; TEncInit [] iv16]
    (new_stream key32) (fst (tmake nothing)) (snd (tmake nothing)) = (s, x, m, true) /\
  made_by (events m) = [0; 1; 2; 3] /\ remaining (events m) = [0; 3].
Proof. eexists _, _, _. split; [vm_compute; reflexivity|]. split; vm_compute; reflexivity. Qed.
