(** C133, C134: threads that share a context. *)
From Verif Require Import Base StrMap ByteString UInteger Field Policy Driver Parser AttrList Utils Kdf Lsss Container Keystore Scheme SchemeSpec SchemeStep FreshSpec PropContainer PropUtil SchemeToy PropScheme PlainSpec PropPlain PropFresh SharedCtx SharedSpec SharedProofs.
From Coq Require Import ZArith List Ascii Bool Lia.
Import ListNotations.
Open Scope Z_scope.

(** ** One thread *)
Section One.
Context {K : curve} {R : Type}.
Fixpoint run_length {A} (s : store (key K)) (o : own K) (p : prog K A) : nat :=
  match p with
  | Ended _ => O
  | Inside g k => S (run_length s (g o) (k o))
  | Outside a k => S (run_length (fst (perform a s)) o (k (snd (perform a s))))
  end.
Lemma one_thread : forall schedule s o (p : prog K R), (run_length s o p <= turns_of 0 schedule)%nat ->
  play {| m_store := s; m_threads := [(o, p)] |} schedule =
  {| m_store := fst (fst (denote p s o)); m_threads := [(snd (fst (denote p s o)), Ended (snd (denote p s o)))] |}.
Proof.
  induction schedule as [|i l IH]; intros s o p H.
  - unfold turns_of in H. cbn in H. destruct p; cbn in H; try lia. reflexivity.
  - cbn [play fold_left]. change (fold_left move l) with (fun m => @play K R m l). cbv beta. unfold turns_of in *. cbn [count_occ] in H. destruct (Nat.eq_dec i 0) as [->|N].
    + unfold move. cbn [m_threads nth_error m_store]. destruct p as [r|g k|a k]; cbn [run_length denote] in *.
      * rewrite IH by (cbn; lia). reflexivity.
      * cbn [replace_at]. rewrite IH by lia. reflexivity.
      * destruct (perform a s) as [s' r] eqn:Ep. cbn [replace_at fst snd] in *. rewrite IH by lia. reflexivity.
    + assert (move {| m_store := s; m_threads := [(o, p)] |} i = {| m_store := s; m_threads := [(o, p)] |}) as ->.
      { unfold move. cbn [m_threads]. destruct i as [|i]; [congruence|]. destruct i; reflexivity. }
      apply IH. exact H.
Qed.
End One.
(** A single thread is told, and leaves, what the functions of Scheme.v say. *)
Theorem C133_one_thread : forall E sch s (t : thread E), exists n, forall schedule, (n <= turns_of 0 schedule)%nat ->
  let m := play (begin E sch s [t]) schedule in
  m_store m = fst (fst (by_itself E sch s t)) /\ finished m 0 (snd (fst (by_itself E sch s t))) (snd (by_itself E sch s t)).
Proof.
  intros E sch s [[c o] l]. exists (run_length s o (prequests (retape E c) sch l : prog (e_curve E) (list (answer (e_curve E))))). intros schedule H m. subst m.
  unfold begin. cbn [map]. rewrite one_thread by exact H. cbn [m_store m_threads]. unfold finished, by_itself. cbn [m_threads nth_error].
  pose proof (same_requests (retape E c) sch l s o) as D. cbn [e_curve retape] in D. rewrite D.
  destruct (serve_all (retape E c) sch l s o) as [[s' o'] a]. split; reflexivity.
Qed.
Print Assumptions C133_one_thread.

(** ** Any number of threads *)
(** If each thread by itself would use the keys and leave the store as it is, then
    under every schedule the store stays as it is, there is no race, each thread
    that is through was told and left what it would have by itself, and each
    thread with enough turns is through. *)
Theorem C133_together : forall E sch s (ts : list (thread E)),
  (forall t, In t ts -> Forall uses_keys (snd t) /\ fst (fst (by_itself E sch s t)) = s) ->
  (forall schedule, let m := play (begin E sch s ts) schedule in
     m_store m = s /\ ~ race m /\
     forall i o r, finished m i o r -> exists t, nth_error ts i = Some t /\ (o, r) = (snd (fst (by_itself E sch s t)), snd (by_itself E sch s t))) /\
  (forall i t, nth_error ts i = Some t -> exists n, forall schedule, (n <= turns_of i schedule)%nat ->
     finished (play (begin E sch s ts) schedule) i (snd (fst (by_itself E sch s t))) (snd (by_itself E sch s t))).
Proof.
  intros E sch s ts H.
  set (xs := map (fun t => (snd (fst (by_itself E sch s t)), Ok (snd (by_itself E sch s t)))) ts).
  assert (settled s xs (begin E sch s ts)) as S0.
  { split; [reflexivity|]. unfold begin, xs. cbn [m_threads]. induction ts as [|[[c o] l] ts IH]; cbn [map]; constructor.
    - destruct (H _ (or_introl eq_refl)) as [Hu Hs]. cbn [snd] in Hu. unfold by_itself in Hs. pose proof (same_requests (retape E c) sch l s o) as D.
      cbn [e_curve retape] in D. unfold expects. cbn [fst snd]. unfold by_itself. destruct (serve_all (retape E c) sch l s o) as [[s' o'] a] eqn:Ea.
      cbn [fst snd] in *. subst s'. split; [|exact D]. apply looker_calm; [apply (looker_requests (retape E c)); exact Hu|]. cbn [e_curve retape]. rewrite D. reflexivity.
    - apply IH. intros t Ht. apply H. right. exact Ht. }
  split.
  - intros schedule m. pose proof (play_settled s xs schedule _ S0) as S1. split; [exact (proj1 S1)|]. split; [eapply settled_no_race; exact S1|].
    intros i o r F. unfold finished in F. pose proof (settled_nth _ _ _ _ _ _ S1 F) as N. unfold xs in N. rewrite nth_error_map in N.
    destruct (nth_error ts i) as [t|]; [|discriminate]. exists t. split; [reflexivity|]. cbn in N. injection N as <- <-. reflexivity.
  - intros i t Ht. assert (exists o p, nth_error (m_threads (begin E sch s ts)) i = Some (o, p)) as (o & p & Hp).
    { unfold begin. cbn [m_threads]. rewrite nth_error_map, Ht. destruct t as [[c o] l]. cbn. eauto. }
    exists (length_of s o p). intros schedule Hl. destruct (play_ends s xs i schedule _ o p S0 Hp Hl) as (x & Hx & Hm).
    unfold xs in Hx. rewrite nth_error_map, Ht in Hx. cbn in Hx. injection Hx as <-. exact Hm.
Qed.
Print Assumptions C133_together.

(** When that is so: encryptions and decryptions whose code, for each thread by
    itself, is none of 5, 8 and 18 - a key or a component that is not there. *)
Definition finds_keys {K} (a : answer K) : Prop := an_code a <> Ok 5 /\ an_code a <> Ok 8 /\ an_code a <> Ok 18.
Definition asks_only {K} (q : request K) : Prop := match q with AskEncrypt _ _ _ _ | AskDecrypt _ _ _ | AskHas _ => True | _ => False end.
Lemma untroubled : forall E sch l s o, Forall asks_only l -> Forall finds_keys (snd (serve_all E sch l s o)) -> fst (fst (serve_all E sch l s o)) = s.
Proof.
  intros E sch. induction l as [|q l IH]; intros s o Ha Hf; [reflexivity|]. inversion Ha; subst. cbn [serve_all] in *.
  assert (finds_keys (snd (serve E sch q s o)) -> fst (fst (serve E sch q s o)) = s) as Hq.
  { intros (N5 & N8 & N18). destruct q; try contradiction; cbn [serve] in *.
    - pose proof (told_encrypt E sch mpk_id inp plaintext (set_ct E (world_of E s o) ct)) as T.
      destruct (encrypt E sch mpk_id inp plaintext (set_ct E (world_of E s o) ct)) as [w r]. cbn [fst snd an_code code_and_ct] in *.
      destruct T as [T|(e & Le & ->)]; [exact T|]. destruct Le as [->|[->| ->]]; congruence.
    - pose proof (told_decrypt E sch mpk_id key_id (set_ct E (world_of E s o) ct)) as T.
      destruct (decrypt E sch mpk_id key_id (set_ct E (world_of E s o) ct)) as [w r]. cbn [fst snd] in *.
      destruct T as [T|(e & Le & ->)]; [exact T|]. cbn [code_and_bytes an_code] in *. destruct Le as [->|[->| ->]]; congruence.
    - reflexivity. }
  destruct (serve E sch q s o) as [[s1 o1] a]. specialize (IH s1 o1). destruct (serve_all E sch l s1 o1) as [[s2 o2] r]. cbn [fst snd] in *.
  inversion Hf; subst. rewrite IH by assumption. apply Hq. assumption.
Qed.
Theorem C133_found : forall E sch s (ts : list (thread E)),
  (forall t, In t ts -> Forall asks_only (snd t) /\ Forall finds_keys (snd (by_itself E sch s t))) ->
  (forall schedule, let m := play (begin E sch s ts) schedule in
     m_store m = s /\ ~ race m /\
     forall i o r, finished m i o r -> exists t, nth_error ts i = Some t /\ (o, r) = (snd (fst (by_itself E sch s t)), snd (by_itself E sch s t))) /\
  (forall i t, nth_error ts i = Some t -> exists n, forall schedule, (n <= turns_of i schedule)%nat ->
     finished (play (begin E sch s ts) schedule) i (snd (fst (by_itself E sch s t))) (snd (by_itself E sch s t))).
Proof.
  intros E sch s ts H. apply C133_together. intros t Ht. destruct (H t Ht) as [Ha Hf]. split.
  - eapply Forall_impl; [|exact Ha]. intros [] X; try exact I; contradiction.
  - destruct t as [[c o] l]. unfold by_itself in *. cbn [snd] in Ha. exact (untroubled (retape E c) sch l s o Ha Hf).
Qed.
Print Assumptions C133_found.

(** ** Examples *)
Definition found_b {K} (a : answer K) : bool := match an_code a with Ok e => negb (e =? 5) && negb (e =? 8) && negb (e =? 18) | _ => true end.
Lemma found_by : forall K (l : list (answer K)), forallb found_b l = true -> Forall finds_keys l.
Proof.
  intros K l H. rewrite forallb_forall in H. apply Forall_forall. intros a Ia. specialize (H a Ia). unfold found_b in H.
  repeat split; intro X; rewrite X in H; discriminate.
Qed.
Definition coins_of (n : nat) : coins (e_curve toy_engine) := {| c_zp := fun i => e_zp toy_engine (i + n); c_g1 := fun i => e_g1 toy_engine (i + n); c_g2 := fun i => e_g2 toy_engine (i + n); c_bytes := fun i => e_bytes toy_engine (i + n) |}.
Definition idle : own (e_curve toy_engine) := {| o_off := 0%nat; o_ct := no_ct toy_engine; o_sym := [] |}.
Definition shared_store sch := w_store toy_engine (w_alice toy_engine sch (key_input sch)).
Definition a_ct sch := w_ct toy_engine (w_enc toy_engine sch (key_input sch) (ct_input sch) (L "hello")).
(** Two threads: one encrypts and decrypts, the other decrypts, asks whether a key is
    there and exports the public parameters. *)
Definition two_threads sch : list (thread toy_engine) :=
  [ (coins_of 0, idle, [AskEncrypt (L "mpk") (ct_input sch) (L "night") (no_ct toy_engine); AskDecrypt [] (L "alice") (a_ct sch)]);
    (coins_of 5, idle, [AskDecrypt [] (L "alice") (a_ct sch); AskHas (L "alice"); AskExport (L "mpk")]) ].
Definition codes_of sch t := map (fun a => an_code a) (snd (by_itself toy_engine sch (shared_store sch) t)).
Definition bytes_of sch t := map (fun a => an_bytes a) (firstn 2 (snd (by_itself toy_engine sch (shared_store sch) t))).
Lemma serve_app : forall E sch l1 l2 s o, fst (fst (serve_all E sch l1 s o)) = s -> (forall o', fst (fst (serve_all E sch l2 s o')) = s) -> fst (fst (serve_all E sch (l1 ++ l2) s o)) = s.
Proof.
  intros E sch. assert (forall l1 l2 s o, fst (fst (serve_all E sch (l1 ++ l2) s o)) = fst (fst (serve_all E sch l2 (fst (fst (serve_all E sch l1 s o))) (snd (fst (serve_all E sch l1 s o)))))) as H.
  { induction l1 as [|q l1 IH]; intros l2 s o; [reflexivity|]. cbn [app serve_all]. destruct (serve E sch q s o) as [[s1 o1] a]. specialize (IH l2 s1 o1).
    destruct (serve_all E sch (l1 ++ l2) s1 o1) as [[s2 o2] r]. destruct (serve_all E sch l1 s1 o1) as [[s3 o3] r']. exact IH. }
  intros l1 l2 s o H1 H2. rewrite H, H1. apply H2.
Qed.
Lemma export_public : forall E sch id s o, (exists k, mget id (pub_keys s) = Some (Some k)) -> fst (fst (serve_all E sch [AskExport id] s o)) = s.
Proof.
  intros E sch id s o (k & Hk). cbn [serve_all serve]. unfold export_key, get_key, get_public_key, index. cbn [w_store world_of]. rewrite Hk. cbn. destruct s; reflexivity.
Qed.
Example C133_nonvacuous : forall sch,
  map (codes_of sch) (two_threads sch) = [[Ok 0; Ok 0]; [Ok 0; Ok 1; Ok 0]] /\
  map (bytes_of sch) (two_threads sch) = [[[]; L "hello"]; [L "hello"; []]] /\
  forall t, In t (two_threads sch) -> Forall uses_keys (snd t) /\ fst (fst (by_itself toy_engine sch (shared_store sch) t)) = shared_store sch.
Proof.
  intros sch. assert (map (codes_of sch) (two_threads sch) = [[Ok 0; Ok 0]; [Ok 0; Ok 1; Ok 0]]) as Hc by (destruct sch; vm_compute; reflexivity).
  split; [exact Hc|]. split; [destruct sch; vm_compute; reflexivity|].
  assert (exists k, mget (L "mpk") (pub_keys (shared_store sch)) = Some (Some k)) as Hp.
  { destruct (mget (L "mpk") (pub_keys (shared_store sch))) as [[k|]|] eqn:Em; [eauto| |];
    (assert ((match mget (L "mpk") (pub_keys (shared_store sch)) with Some (Some _) => true | _ => false end) = true) as X by (destruct sch; vm_compute; reflexivity); rewrite Em in X; discriminate). }
  assert (forall c o l, Forall asks_only l -> forallb found_b (snd (by_itself toy_engine sch (shared_store sch) (c, o, l))) = true ->
     fst (fst (by_itself toy_engine sch (shared_store sch) (c, o, l))) = shared_store sch) as Hu.
  { intros c o l Ha Hf. apply (untroubled (retape toy_engine c) sch l); [exact Ha|]. apply found_by. exact Hf. }
  intros t [<-|[<-|[]]]; (split; [repeat constructor|]).
  - apply Hu; [repeat constructor|]. destruct sch; vm_compute; reflexivity.
  - assert (forallb found_b (snd (by_itself toy_engine sch (shared_store sch) (coins_of 5, idle, [AskDecrypt [] (L "alice") (a_ct sch); AskHas (L "alice")]))) = true) as Hf by (destruct sch; vm_compute; reflexivity).
    pose proof (Hu (coins_of 5) idle [AskDecrypt [] (L "alice") (a_ct sch); AskHas (L "alice")] ltac:(repeat constructor) Hf) as H1.
    exact (serve_app (retape toy_engine (coins_of 5)) sch [AskDecrypt [] (L "alice") (a_ct sch); AskHas (L "alice")] [AskExport (L "mpk")] (shared_store sch) idle H1
      (fun o' => export_public (retape toy_engine (coins_of 5)) sch (L "mpk") (shared_store sch) o' Hp)).
Qed.

(** ** What goes wrong otherwise *)
Definition class_eqb (a b : key_class) : bool := match a, b with KEY_PUBLIC, KEY_PUBLIC | KEY_SECRET, KEY_SECRET => true | _, _ => false end.
Definition place_eqb (a b : place) : bool :=
  match a, b with Map c, Map d => class_eqb c d | Object c i, Object d j => class_eqb c d && str_eqb i j | _, _ => false end.
Lemma place_eqb_eq : forall a b, place_eqb a b = true -> a = b.
Proof.
  intros [[]|[] i] [[]|[] j]; cbn; intro H; try discriminate; try reflexivity; apply str_eqb_eq in H; congruence.
Qed.
Definition about_b {K R} (m : machine K R) (i : nat) (p : place) (w : bool) : bool :=
  match nth_error (m_threads m) i with
  | Some (_, Outside a _) => existsb (fun '(q, v) => place_eqb p q && Bool.eqb w v) (touched a (m_store m))
  | _ => false
  end.
Lemma about_by : forall K R (m : machine K R) i p w, about_b m i p w = true -> about_to m i p w.
Proof.
  intros K R m i p w H. unfold about_b in H. destruct (nth_error (m_threads m) i) as [[o [r|g k|a k]]|] eqn:En; try discriminate.
  exists o, a, k. split; [exact En|]. apply existsb_exists in H as ((q & v) & Iq & H). apply andb_prop in H as [H1 H2]. apply place_eqb_eq in H1. apply Bool.eqb_prop in H2. subst. exact Iq.
Qed.
(** Two threads look for a key that is not there: both lookups insert an entry. *)
Theorem C134_missing_refuted : forall sch, exists ts schedule, (forall t, In t ts -> Forall asks_only (snd t)) /\
  race (play (begin toy_engine sch (shared_store sch) ts) schedule).
Proof.
  intros sch. exists [(coins_of 0, idle, [AskDecrypt [] (L "carol") (a_ct sch)]); (coins_of 5, idle, [AskDecrypt [] (L "carol") (a_ct sch)])], [0; 0; 1; 1]%nat.
  split; [intros t [<-|[<-|[]]]; repeat constructor|].
  exists 0%nat, 1%nat, (Map KEY_SECRET), true, true. split; [discriminate|]. split; [apply about_by; destruct sch; vm_compute; reflexivity|]. split; [apply about_by; destruct sch; vm_compute; reflexivity|reflexivity].
Qed.
Print Assumptions C134_missing_refuted.
(** Two threads export the same user key, which is there: the public map is looked
    at first, and written. *)
Theorem C134_export_refuted : forall sch, exists ts schedule, (forall t, In t ts -> snd t = [AskExport (L "alice")] /\ map (fun a => an_code a) (snd (by_itself toy_engine sch (shared_store sch) t)) = [Ok 0]) /\
  race (play (begin toy_engine sch (shared_store sch) ts) schedule).
Proof.
  intros sch. exists [(coins_of 0, idle, [AskExport (L "alice")]); (coins_of 5, idle, [AskExport (L "alice")])], [].
  split; [intros t [<-|[<-|[]]]; (split; [reflexivity|destruct sch; vm_compute; reflexivity])|].
  exists 0%nat, 1%nat, (Map KEY_PUBLIC), true, true. split; [discriminate|]. split; [apply about_by; destruct sch; vm_compute; reflexivity|]. split; [apply about_by; destruct sch; vm_compute; reflexivity|reflexivity].
Qed.
Print Assumptions C134_export_refuted.
(** A key is made or deleted while another thread decrypts with a key that is
    there. *)
Definition writers sch : list (request (e_curve toy_engine)) := [AskKey (key_input sch) (L "dave") (L "mpk") (L "msk"); AskDelete (L "mpk")].
Fixpoint turns (n : nat) (i : nat) : list nat := match n with O => [] | S n' => i :: turns n' i end.
Fixpoint until {K R} (m : machine K R) (i : nat) (p : place) (fuel : nat) : nat :=
  match fuel with O => O | S f => if about_b m i p true then O else S (until (move m i) i p f) end.
Theorem C134_writer_refuted : forall sch q, In q (writers sch) -> exists schedule,
  race (play (begin toy_engine sch (shared_store sch) [(coins_of 0, idle, [q]); (coins_of 5, idle, [AskDecrypt [] (L "alice") (a_ct sch); AskEncrypt (L "mpk") (ct_input sch) (L "hi") (no_ct toy_engine)])]) schedule).
Proof.
  intros sch q [<-|[<-|[]]].
  - pose (m0 := begin toy_engine sch (shared_store sch) [(coins_of 0, idle, [AskKey (key_input sch) (L "dave") (L "mpk") (L "msk")]); (coins_of 5, idle, [AskDecrypt [] (L "alice") (a_ct sch); AskEncrypt (L "mpk") (ct_input sch) (L "hi") (no_ct toy_engine)])]).
    exists ([1; 1]%nat ++ turns (until m0 0 (Map KEY_SECRET) 900) 0%nat).
    exists 0%nat, 1%nat, (Map KEY_SECRET), true, false. split; [discriminate|]. split; [apply about_by; destruct sch; vm_compute; reflexivity|]. split; [apply about_by; destruct sch; vm_compute; reflexivity|reflexivity].
  - pose (m0 := begin toy_engine sch (shared_store sch) [(coins_of 0, idle, [AskDelete (L "mpk")]); (coins_of 5, idle, [AskDecrypt [] (L "alice") (a_ct sch); AskEncrypt (L "mpk") (ct_input sch) (L "hi") (no_ct toy_engine)])]).
    exists ([1; 1]%nat ++ turns (until m0 0 (Map KEY_PUBLIC) 900) 0%nat ++ []).
    exists 0%nat, 1%nat, (Map KEY_SECRET), true, false. split; [discriminate|]. split; [apply about_by; destruct sch; vm_compute; reflexivity|]. split; [apply about_by; destruct sch; vm_compute; reflexivity|reflexivity].
Qed.
Print Assumptions C134_writer_refuted.
(** Two threads make parameters of the same names at the same time.  One after the
    other, the second would be refused (code 17).  Even if every access were
    atomic, both can be told that it worked, the public parameters being those of
    one and the master key that of the other: user keys are issued, decryption
    says 0, and returns something else than what was encrypted. *)
Definition both_make : list (thread toy_engine) := [(coins_of 0, idle, [AskParams (L "mpk") (L "msk")]); (coins_of 5, idle, [AskParams (L "mpk") (L "msk")])].
Definition mixing sch : list nat := match sch with CP => turns 4 1 ++ turns 12 0 ++ turns 9 1 ++ turns 1 0 | KP => turns 4 1 ++ turns 11 0 ++ turns 8 1 ++ turns 1 0 end.
Definition codes_told {K} (m : machine K (list (answer K))) : list (option (list (res Z))) :=
  map (fun t => match snd t with Ended (Ok l) => Some (map (fun a => an_code a) l) | _ => None end) (m_threads m).
Definition after_mixing sch := m_store (play (begin toy_engine sch new_store both_make) (mixing sch)).
Definition used_then sch : list (answer (e_curve toy_engine)) :=
  let x := serve_all toy_engine sch [AskKey (key_input sch) (L "alice") (L "mpk") (L "msk"); AskEncrypt (L "mpk") (ct_input sch) (L "hello") (no_ct toy_engine)] (after_mixing sch) idle in
  snd x ++ match snd x with
           | [_; e] => match an_ct e with Some ct => snd (serve_all toy_engine sch [AskDecrypt (L "mpk") (L "alice") ct] (fst (fst x)) idle) | None => [] end
           | _ => []
           end.
Theorem C134_params_refuted : forall sch, exists schedule,
  codes_told (play (begin toy_engine sch new_store both_make) schedule) = [Some [Ok 0]; Some [Ok 0]] /\
  map (fun a => an_code a) (snd (serve_all toy_engine sch [AskParams (L "mpk") (L "msk"); AskParams (L "mpk") (L "msk")] new_store idle)) = [Ok 0; Ok 17] /\
  let s := m_store (play (begin toy_engine sch new_store both_make) schedule) in
  exists ka kx s1 o1 ct s2 o2 pt, 
    serve_all toy_engine sch [AskKey (key_input sch) (L "alice") (L "mpk") (L "msk"); AskEncrypt (L "mpk") (ct_input sch) (L "hello") (no_ct toy_engine)] s idle = (s1, o1, [ka; kx]) /\
    an_code ka = Ok 0 /\ an_code kx = Ok 0 /\ an_ct kx = Some ct /\
    serve_all toy_engine sch [AskDecrypt (L "mpk") (L "alice") ct] s1 idle = (s2, o2, [{| an_code := Ok 0; an_bytes := pt; an_ct := None |}]) /\ pt <> L "hello".
Proof.
  intros sch. exists (mixing sch). split; [destruct sch; vm_compute; reflexivity|]. split; [destruct sch; vm_compute; reflexivity|].
  cbv zeta. fold (after_mixing sch).
  assert (map (fun a => an_code a) (used_then sch) = [Ok 0; Ok 0; Ok 0]) as Hc by (destruct sch; vm_compute; reflexivity).
  assert (forallb (fun a => negb (str_eqb (an_bytes a) (L "hello"))) (used_then sch) = true) as Hb by (destruct sch; vm_compute; reflexivity).
  unfold used_then in Hc, Hb.
  destruct (serve_all toy_engine sch [AskKey (key_input sch) (L "alice") (L "mpk") (L "msk"); AskEncrypt (L "mpk") (ct_input sch) (L "hello") (no_ct toy_engine)] (after_mixing sch) idle) as [[s1 o1] r1] eqn:E1.
  cbn [fst snd] in Hc, Hb. destruct r1 as [|ka [|kx [|? ?]]]; try discriminate.
  - destruct (an_ct kx) as [ct|] eqn:Ect; [|discriminate].
    destruct (serve_all toy_engine sch [AskDecrypt (L "mpk") (L "alice") ct] s1 idle) as [[s2 o2] r2] eqn:E2. cbn [snd] in Hc, Hb.
    destruct r2 as [|[c2 b2 t2] [|? ?]]; try discriminate. cbn in Hc. injection Hc as H1 H2 H3. subst c2.
    assert (t2 = None) as ->.
    { cbn [serve_all serve] in E2. destruct (decrypt toy_engine sch (L "mpk") (L "alice") _) as [w r]. injection E2 as _ _ E2. destruct r as [[] | | | |]; cbn in E2; inversion E2; reflexivity. }
    exists ka, kx, s1, o1, ct, s2, o2, b2. split; [reflexivity|]. split; [exact H1|]. split; [exact H2|]. split; [exact Ect|]. split; [exact E2|].
    intros ->. cbn [forallb app an_bytes] in Hb. rewrite str_eqb_refl in Hb. cbn in Hb. rewrite !andb_false_r in Hb. discriminate.
  - exfalso. cbn [serve_all] in E1. destruct (serve toy_engine sch _ _ _) as [[? ?] ?]. destruct (serve toy_engine sch _ _ _) as [[? ?] ?]. discriminate.
Qed.
Print Assumptions C134_params_refuted.
