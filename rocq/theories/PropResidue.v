(** C127-C129: what encryption and decryption leave in memory. *)
From Verif Require Import Base ByteString ByteStringProofs PropSym Sym SymSpec SymProofs Kdf KdfProofs Container Scheme SchemeSpec SchemeStep SchemeToy Residue.
From Coq Require Import ZArith List Ascii Bool Lia.
Import ListNotations.
Open Scope Z_scope.

(** A policy for growing vectors makes enough room. *)
Definition roomy (grow : nat -> nat -> nat) : Prop := forall n k, (n + k <= grow n k)%nat.
(** Nothing to be read: never written, or overwritten with zeros. *)
Definition blank (r : region) : Prop := Forall (fun c => c = None \/ c = Some (z2b 0)) (snd r).
(** The bytes [s] can be read off the beginning of a region. *)
Definition shows (r : region) (s : str) : Prop := exists t, snd r = map Some s ++ t.

Section Proofs.
Context (grow : nat -> nat -> nat).
Lemma insert_now : forall v s, now (fst (vinsert grow v s)) = now v ++ s.
Proof. intros v s. unfold vinsert. destruct (length s <=? length (rest v))%nat; reflexivity. Qed.
Lemma insert_new : forall s, s <> [] -> vinsert grow vnew s = ({| now := s; rest := repeat None (grow 0 (length s) - length s) |}, []).
Proof. intros [|c s] H; [congruence|reflexivity]. Qed.
Lemma insert_new_all : forall s, exists n, vinsert grow vnew s = ({| now := s; rest := repeat None n |}, []).
Proof. intros [|c s]; [exists O; reflexivity|]. rewrite insert_new by discriminate. eauto. Qed.
Lemma first_now : forall v b, now (fst (vfirst grow v b)) = b :: now v.
Proof. intros v b. unfold vfirst. destruct (rest v); reflexivity. Qed.
Lemma free_one : forall v, block v <> [] -> vfree v = [(Heap, block v)].
Proof. intros v H. unfold vfree. destruct (block v); [congruence|reflexivity]. Qed.
Lemma block_some : forall v, now v <> [] -> block v <> [].
Proof. intros [[|c s] r] H; [contradiction|discriminate]. Qed.
Lemma fill_now : forall n v b, now (fst (vfill grow v b n)) = now v ++ repeat b n.
Proof.
  induction n as [|n IH]; intros v b; cbn [vfill repeat]; [rewrite app_nil_r; reflexivity|].
  pose proof (insert_now v [b]) as I. destruct (vinsert grow v [b]) as [v1 d1]. cbn [fst] in I. specialize (IH v1 b). destruct (vfill grow v1 b n) as [v2 d2]. cbn [fst] in *. rewrite IH, I, <- app_assoc. reflexivity.
Qed.
Lemma blank_zeros : forall (s : str) n, Forall (fun c : cell => c = None \/ c = Some (z2b 0)) (map (fun _ => Some (z2b 0)) s ++ repeat None n).
Proof. intros s n. apply Forall_app. split; [apply Forall_forall; intros c H; apply in_map_iff in H as (x & <- & _); auto|]. apply Forall_forall. intros c H. apply repeat_spec in H. auto. Qed.
Lemma blank_wiped : forall s n r, In r (vfree (vzeroize {| now := s; rest := repeat None n |})) -> blank r.
Proof.
  intros s n r H. unfold vfree in H. destruct (block (vzeroize {| now := s; rest := repeat None n |})) as [|c l] eqn:B; [contradiction|]. destruct H as [<-|[]]. unfold blank. cbn [snd]. rewrite <- B. apply blank_zeros.
Qed.

Context (E : engine) (HE : lawful E).
Notation K := (e_curve E).
Definition digest (x : gt K) : str := e_hash E (obj_serialize [] (OGt x)).
Lemma digest_len : forall x, length (digest x) = 32%nat.
Proof. intro x. apply (law_hash E HE). Qed.
Lemma serial_some : forall x : gt K, obj_serialize [] (OGt x) <> [].
Proof.
  intros x H. cbn [obj_serialize] in H. unfold smart_pack, pack32bits, pack16bits, pack8bits in H.
  destruct (65535 <? _); [|destruct (255 <? _); [|destruct (0 <? _)]]; rewrite ?app_nil_r in H; cbn [app] in H; rewrite <- ?app_assoc in H; cbn [app] in H; discriminate H.
Qed.
Lemma sym_len : forall x, len (sym_of E x) = 32.
Proof. intro x. apply (law_kdf E HE). lia. Qed.
(** ** Blocks that are never given back *)
Definition lost (l : list region) : list region := filter (fun r => match fst r with Leaked => true | _ => false end) l.
(** Bytes needed on the stack for arrays whose size depends on the message. *)
Definition on_stack (l : list region) : Z := fold_right (fun r n => match fst r with Stack => Z.of_nat (length (snd r)) + n | _ => n end) 0 l.
Lemma lost_app : forall a b, lost (a ++ b) = lost a ++ lost b.
Proof. intros a b. unfold lost. apply filter_app. Qed.
Lemma on_stack_app : forall a b, on_stack (a ++ b) = on_stack a + on_stack b.
Proof. induction a as [|[[| |] c] a IH]; intro b; [reflexivity|..]; specialize (IH b); unfold on_stack in *; cbn [app fold_right fst snd]; lia. Qed.
Definition heaps (l : list region) : Prop := Forall (fun r => fst r = Heap) l.
Lemma heaps_app : forall a b, heaps a -> heaps b -> heaps (a ++ b).
Proof. intros a b A B. apply Forall_app. split; assumption. Qed.
Lemma heaps_lost : forall l, heaps l -> lost l = [].
Proof. intros l H. induction H as [|[w c] l Hw _ IH]; [reflexivity|]. cbn [fst] in Hw. subst w. exact IH. Qed.
Lemma heaps_stack : forall l, heaps l -> on_stack l = 0.
Proof. intros l H. induction H as [|[w c] l Hw _ IH]; [reflexivity|]. cbn [fst] in Hw. subst w. exact IH. Qed.
Lemma heaps_free : forall v, heaps (vfree v).
Proof. intro v. unfold vfree. destruct (block v); repeat constructor. Qed.
Lemma heaps_insert : forall v s, heaps (snd (vinsert grow v s)).
Proof. intros v s. unfold vinsert. destruct (length s <=? length (rest v))%nat; cbn [snd]; [constructor|apply heaps_free]. Qed.
Lemma heaps_first : forall v b, heaps (snd (vfirst grow v b)).
Proof. intros v b. unfold vfirst. destruct (rest v); cbn [snd]; [apply heaps_free|constructor]. Qed.
Lemma heaps_fill : forall n v b, heaps (snd (vfill grow v b n)).
Proof.
  induction n as [|n IH]; intros v b; cbn [vfill]; [constructor|]. pose proof (heaps_insert v [b]) as I. destruct (vinsert grow v [b]) as [v1 d1]. specialize (IH v1 b). destruct (vfill grow v1 b n) as [v2 d2].
  cbn [snd] in *. apply heaps_app; assumption.
Qed.
(** What hashToSymmetricKey leaves. *)
Lemma sym_mem : forall x, exists z n, hash_to_sym_mem grow E vnew x 32 = Ok (vcopy (sym_of E x),
    [(Leaked, map Some (digest x)); (Leaked, map Some (gt_out K x)); (Heap, map Some (obj_serialize [] (OGt x)) ++ repeat None n)] ++ z) /\ heaps z.
Proof.
  intro x. unfold hash_to_sym_mem, gt_digest. pose proof (heaps_insert vnew (gt_out K x)) as LT. destruct (vinsert grow vnew (gt_out K x)) as [tmp d0]. cbn [snd] in LT. destruct (insert_new_all (obj_serialize [] (OGt x))) as (n & ->). cbn [now]. fold (digest x).
  destruct (insert_new_all (digest x)) as (n2 & ->). unfold kdf2_mem. cbn [now].
  assert (len (digest x) = 32) as Hd by (unfold len; rewrite digest_len; reflexivity). rewrite Hd. cbn [Z.ltb Z.compare negb bind].
  pose proof (heaps_fill (Z.to_nat 32) vnew (z2b 0)) as LF. destruct (vfill grow vnew (z2b 0) (Z.to_nat 32)) as [v d3]. cbn [snd] in LF. cbn [bind now vwrite]. change (e_kdf E 32 (digest x)) with (sym_of E x). rewrite sym_len. cbn [Z.eqb negb andb].
  unfold vassign. cbn [vclear vnew now rest block map app length]. assert (length (sym_of E x) = 32%nat) as Hl by (pose proof (sym_len x) as H; unfold len in H; lia). rewrite Hl. cbn [Nat.leb].
  eexists _, n. split; [rewrite free_one by (apply block_some; cbn [now]; apply serial_some); cbn [app]; reflexivity|].
  repeat first [apply heaps_app | apply heaps_free | exact LF | exact LT | constructor].
Qed.
Lemma first_twice : forall buf p c, exists v1 d1 v2 d2, vfirst grow (vcopy buf) p = (v1, d1) /\ vfirst grow v1 c = (v2, d2) /\ now v2 = c :: p :: buf /\ heaps d1 /\ heaps d2.
Proof.
  intros buf p c. pose proof (first_now (vcopy buf) p) as N1. pose proof (heaps_first (vcopy buf) p) as L1. destruct (vfirst grow (vcopy buf) p) as [v1 d1]. cbn [fst snd now vcopy] in *.
  pose proof (first_now v1 c) as N2. pose proof (heaps_first v1 c) as L2. destruct (vfirst grow v1 c) as [v2 d2] eqn:V2. cbn [fst snd] in *. exists v1, d1, v2, d2. rewrite N2, N1. auto 10.
Qed.
(** What hashFromBytes leaves: the pad on the stack, the key on the heap. *)
Lemma bytes_mem : forall buf n p, 0 <= n < 2147483616 -> exists m z t k c r, hash_from_bytes (e_hash E) buf n p = Ok m /\
  hash_from_bytes_mem grow E buf n p = Ok ({| now := m; rest := repeat None k |}, z ++ [(Stack, map Some (m ++ t)); (Heap, map Some (c :: z2b p :: buf) ++ r)]) /\
  heaps z /\ len (m ++ t) = 32 * ((n + 31) / 32) + 1.
Proof.
  intros buf n p Hn. pose proof (mask_exact (e_hash E) (law_hash E HE) buf n p Hn) as M. 
  unfold hash_from_bytes in M. unfold hash_from_bytes_mem. unfold ceil_div, md_len in *. cbn [Z.eqb bind] in *. replace (n + 32 - 1) with (n + 31) in * by lia.
  set (bl := (n + 31) / 32) in *. assert (0 <= bl /\ n <= bl * 32 /\ bl * 32 < 2147483647) as (B0 & B1 & B2) by (subst bl; Z.div_mod_to_equations; lia).
  unfold vla in *. destruct (Z.ltb_spec (bl * 32) 2147483647); [|lia]. cbn [bind] in *.
  destruct (first_twice buf (z2b p) (z2b 0)) as (v1 & d1 & v2 & d2 & -> & -> & N2 & L1 & L2). rewrite N2.
  pose proof (loop_spec (e_hash E) (law_hash E HE) set_count (fun c => (c + 1) mod 256) (mask_input p buf) 256 32 ltac:(lia)) as P.
  specialize (P ltac:(intro c; cbv beta; rewrite Zplus_mod_idemp_l; reflexivity)).
  specialize (P ltac:(intro c; unfold mask_input, set_count; rewrite z2b_mod; reflexivity) (Z.to_nat bl) 0 [] (Z.to_nat (bl * 32 + 1)) ltac:(lia)). cbn [app length] in P. change (0 mod 256) with 0 in P.
  change (Z.to_nat 32) with 32%nat in *. change (insert_first_byte (insert_first_byte buf p) 0) with (mask_input p buf 0) in M. change (z2b 0 :: z2b p :: buf) with (mask_input p buf 0).
  unfold zeros in P at 1. unfold zeros in *. rewrite P in *. cbn [bind] in *.
  set (mem := stream _ 0 _ ++ _) in *. destruct (n <=? len mem); [|discriminate M]. injection M as M.
  destruct (insert_new_all (firstn (Z.to_nat n) mem)) as (k & ->).
  exists (firstn (Z.to_nat n) mem), (d1 ++ d2), (skipn (Z.to_nat n) mem), k, (z2b (bl mod 256)), (rest v2).
  split; [rewrite M; apply mask_exact; [apply (law_hash E HE)|exact Hn]|]. rewrite firstn_skipn.
  split; [|split; [apply heaps_app; assumption|]].
  - rewrite <- app_assoc. cbn [app]. do 4 f_equal. all: try reflexivity.
  - subst mem. rewrite len_app. unfold len at 2. rewrite repeat_length. unfold len. rewrite (stream_length _ _ _ 32); [lia|]. intro c. rewrite app_length, (law_hash E HE), repeat_length. lia.
Qed.

(** Everything a call leaves, in one place. *)
Lemma pads_mem : forall x n, 0 <= n < 2147483616 -> exists m z1 z2 t k i c r, mask E (sym_of E x) n = Ok m /\
  pads grow E x n = Ok (vcopy (sym_of E x), {| now := m; rest := repeat None k |},
    [(Leaked, map Some (digest x)); (Leaked, map Some (gt_out K x)); (Heap, map Some (obj_serialize [] (OGt x)) ++ repeat None i)] ++ z1 ++ z2 ++
    [(Stack, map Some (m ++ t)); (Heap, map Some (c :: z2b 42 :: sym_of E x) ++ r)]) /\
  heaps z1 /\ heaps z2 /\ len (m ++ t) = 32 * ((n + 31) / 32) + 1.
Proof.
  intros x n Hn. destruct (sym_mem x) as (z1 & i & S1 & L1). assert (n mod 2 ^ 32 = n) as Hm by (apply Z.mod_small; lia).
  destruct (bytes_mem (sym_of E x) n 42 Hn) as (m & z2 & t & k & c & r & M & B & L2 & Lt).
  exists m, z1, z2, t, k, i, c, r. unfold mask. rewrite Hm. split; [exact M|]. split; [|auto]. unfold pads. rewrite S1. cbn [bind now vcopy]. rewrite Hm, B. cbn [bind app]. reflexivity.
Qed.
Lemma own_blank : forall (m : str) k x, Forall blank (vfree (vzeroize {| now := m; rest := repeat None k |}) ++ vfree (vzeroize (vcopy (sym_of E x)))).
Proof. intros m k x. apply Forall_app. split; apply Forall_forall; intros r H; [exact (blank_wiped m k r H)|]. exact (blank_wiped (sym_of E x) 0 r H). Qed.
End Proofs.

(** The text a call makes of [t] when its session element is [x]. *)
Definition text_of (E : engine) (x : gt (e_curve E)) (t : str) : res str := bind (mask E (sym_of E x) (len t)) (xor_assign t).

(** ** C127 *)
(** The byte strings the calls wipe hold nothing when they are freed, whatever the
    allocation policy: the pad and the symmetric key. *)
Theorem C127_own_blocks : forall grow E x t, lawful E -> len t < 2147483616 ->
  (exists y own left, encrypt_mem grow E x t = Ok (y, own, left) /\ text_of E x t = Ok y /\ Forall blank own) /\
  (exists y own left, decrypt_mem grow E x t = Ok (y, own, left) /\ text_of E x t = Ok y /\ Forall blank own).
Proof.
  intros grow E x t HE Ht. assert (0 <= len t < 2147483616) as Hn by (pose proof (len_nonneg t); lia).
  destruct (pads_mem grow E HE x (len t) Hn) as (m & z1 & z2 & tl & k & i & c & r & M & P & _).
  destruct (mask_ok E (sym_of E x) t HE Ht) as (m' & y & M' & X & _). rewrite M in M'. injection M' as <-.
  unfold encrypt_mem, decrypt_mem, text_of. rewrite P, M. cbn [bind now]. rewrite X. cbn [bind].
  split; eexists _, _, _; (split; [reflexivity|]); (split; [reflexivity|]); apply own_blank.
Qed.
(** Wiping overwrites every element with zero and nothing else. *)
Theorem C127_zeroize : forall v, now (vzeroize v) = [] /\ block (vzeroize v) = map (fun _ => Some (z2b 0)) (now v) ++ rest v.
Proof. intro v. split; reflexivity. Qed.
(** What is left readable: the session element, freed and once more in a block that is
    never freed, the digest the key is made of, the key with two bytes before it, and
    the pad. *)
Definition readable (E : engine) (x : gt (e_curve E)) (m : str) (left : list region) : Prop :=
  (exists r, In r left /\ shows r (obj_serialize [] (OGt x))) /\ In (Leaked, map Some (gt_out (e_curve E) x)) left /\
  (exists r h, In r left /\ fst r = Leaked /\ snd r = map Some h /\ e_kdf E 32 h = sym_of E x) /\
  (exists r c, In r left /\ shows r (c :: z2b 42 :: sym_of E x)) /\
  (exists r, In r left /\ fst r = Stack /\ shows r m).
Lemma left_readable : forall E x m z1 z2 t i c r w, readable E x m
  (([(Leaked, map Some (digest E x)); (Leaked, map Some (gt_out (e_curve E) x)); (Heap, map Some (obj_serialize [] (OGt x)) ++ repeat None i)] ++ z1 ++ z2 ++ [(Stack, map Some (m ++ t)); (Heap, map Some (c :: z2b 42 :: sym_of E x) ++ r)]) ++ w).
Proof.
  intros E x m z1 z2 t i c r w. split; [|split; [|split; [|split]]].
  - eexists. split; [right; right; left; reflexivity|]. exists (repeat None i). reflexivity.
  - right. left. reflexivity.
  - eexists _, (digest E x). split; [left; reflexivity|]. repeat split; reflexivity.
  - eexists _, c. split; [apply in_or_app; left; do 3 (apply in_or_app; right); right; left; reflexivity|]. exists r. reflexivity.
  - eexists. split; [apply in_or_app; left; do 3 (apply in_or_app; right); left; reflexivity|]. split; [reflexivity|]. exists (map Some t). cbn [snd]. apply map_app.
Qed.
(** Both calls leave them behind, for every message; with any one of them and the
    ciphertext the message is read: the pad is there as it is, and the other three
    determine it. *)
Theorem C127_left_refuted : forall grow E x t, lawful E -> len t < 2147483616 ->
  exists m y, mask E (sym_of E x) (len t) = Ok m /\ xor_assign t m = Ok y /\ xor_assign y m = Ok t /\
    (exists own left, encrypt_mem grow E x t = Ok (y, own, left) /\ readable E x m left) /\
    (exists own left, decrypt_mem grow E x y = Ok (t, own, left) /\ readable E x m left).
Proof.
  intros grow E x t HE Ht. assert (0 <= len t < 2147483616) as Hn by (pose proof (len_nonneg t); lia).
  destruct (pads_mem grow E HE x (len t) Hn) as (m & z1 & z2 & tl & k & i & c & r & M & P & _).
  destruct (mask_ok E (sym_of E x) t HE Ht) as (m' & y & M' & X & Ly & Y). rewrite M in M'. injection M' as <-.
  exists m, y. split; [exact M|]. split; [exact X|]. split; [exact Y|]. unfold encrypt_mem, decrypt_mem. rewrite Ly, P. cbn [bind now]. rewrite X, Y. cbn [bind].
  split; eexists _, _; (split; [reflexivity|]); [apply left_readable|]. rewrite <- (app_nil_r (_ ++ z1 ++ _)). apply left_readable.
Qed.
Lemma leaked_opens : forall E x m left t y, readable E x m left -> mask E (sym_of E x) (len t) = Ok m -> len y = len t -> xor_assign y m = Ok t ->
  exists r h, In r left /\ fst r = Leaked /\ snd r = map Some h /\ bind (mask E (e_kdf E 32 h) (len y)) (xor_assign y) = Ok t.
Proof. intros E x m left t y (_ & _ & (r & h & I & F & Sn & Hk) & _) M Ly Y. exists r, h. rewrite Hk, Ly, M. auto. Qed.
(** The block that is never freed suffices to read the ciphertext. *)
Theorem C127_leak_opens_refuted : forall grow E x t, lawful E -> len t < 2147483616 ->
  exists y own left r h, encrypt_mem grow E x t = Ok (y, own, left) /\ In r left /\ fst r = Leaked /\ snd r = map Some h /\
    bind (mask E (e_kdf E 32 h) (len y)) (xor_assign y) = Ok t.
Proof.
  intros grow E x t HE Ht. destruct (C127_left_refuted grow E x t HE Ht) as (m & y & M & X & Y & (own & left & En & R) & _).
  destruct (mask_ok E (sym_of E x) t HE Ht) as (m' & y' & M' & X' & Ly & _). rewrite M in M'. injection M' as <-. rewrite X in X'. injection X' as <-.
  destruct (leaked_opens E x m left t y R M Ly Y) as (r & h & A & B & C & D). exists y, own, left, r, h. auto.
Qed.
(** A byte string that was longer before keeps the rest of the earlier contents when
    it is wiped. *)
Theorem C127_shrunk_refuted : forall a b, (length b < length a)%nat ->
  exists v, vassign (vcopy a) b = (v, []) /\ now v = b /\ vfree (vzeroize v) = [(Heap, map (fun _ => Some (z2b 0)) b ++ map Some (skipn (length b) a))].
Proof.
  intros a b H. unfold vassign, vcopy, block. cbn [now rest]. rewrite app_nil_r, map_length. replace (length b <=? length a)%nat with true by (symmetry; apply Nat.leb_le; lia).
  eexists. split; [reflexivity|]. split; [reflexivity|]. unfold vfree, block. cbn [vzeroize now rest map app]. rewrite skipn_map.
  destruct (map (fun _ => Some (z2b 0)) b ++ map Some (skipn (length b) a)) eqn:F; [|reflexivity]. exfalso. apply (f_equal (@length cell)) in F. rewrite app_length, !map_length, skipn_length in F. cbn in F. lia.
Qed.
(** A handle that is destroyed leaves its key but for the first byte; the object that
    encrypts for it leaves all of it.  Only the associated data is wiped. *)
Theorem C127_handle_refuted : forall c key, handle_destroyed (c :: key) = [(Heap, Some (z2b 0) :: map Some (key ++ [z2b 0]))].
Proof. intros c key. unfold handle_destroyed, sclear, vcopy, block, vfree. cbn [now rest block map app tl]. rewrite app_nil_r. reflexivity. Qed.
Theorem C127_object_refuted : forall grow key aad, key <> [] -> exists n,
  auth_enc_destroyed grow key aad = vfree (vzeroize (vcopy aad)) ++ [(Heap, map Some key ++ repeat None n)] /\ Forall blank (vfree (vzeroize (vcopy aad))).
Proof.
  intros grow key aad H. exists (grow 0%nat (length key) - length key)%nat. unfold auth_enc_destroyed. change (vclear vnew) with vnew. rewrite insert_new by exact H. cbn [app]. split.
  - rewrite (free_one {| now := key; rest := _ |}) by (apply block_some; exact H). reflexivity.
  - apply Forall_forall. intros r I. exact (blank_wiped aad 0 r I).
Qed.
(** Decryption with authentication: the model with memory answers as without; when
    the tag is right the plaintext stays in one freed block, when it is wrong what the
    rejected ciphertext decrypts to stays in two. *)
Theorem C127_same_answer : forall grow G o iv c t, ae_decrypt G o iv c t = match ae_decrypt_mem grow G o iv c t with
  | Ok (a, _) => Ok a | Throw e => Throw e | UB => UB | Exit => Exit | NoFuel => NoFuel end.
Proof.
  intros grow G o iv c t. unfold ae_decrypt, ae_decrypt_mem. destruct (negb (len t =? 16)); [reflexivity|]. destruct (too_long c || too_long (ae_aad o)); [reflexivity|].
  destruct (evp_init G (ae_key o) iv) as [e|e| | |]; cbn [bind]; try reflexivity.
  destruct (evp_update G false (if ae_aad_set o then fst (evp_add_aad (evp_set_tag e t) (ae_aad o)) else evp_set_tag e t) c) as [e2 pt].
  destruct (insert_new_all grow pt) as (n & ->). destruct (evp_verify G e2); reflexivity.
Qed.
Theorem C127_rejected_refuted : forall grow G o iv c t p, gcm_ok G -> len (ae_key o) = 32 -> len c < 2147483647 -> len (ae_aad o) < 2147483647 -> ae_aad_set o = true -> len t = 16 -> len iv = 16 ->
  c <> [] -> masked G (ae_key o) iv c p ->
  exists a n, ae_decrypt_mem grow G o iv c t = Ok (a, [(Heap, map Some p ++ [Some (z2b 0)])] ++
    [(Heap, (if str_eqb t (mac G (ae_key o) iv (ae_aad o) c) then map (fun _ => Some (z2b 0)) p else map Some p) ++ repeat None n)]) /\
    a = if str_eqb t (mac G (ae_key o) iv (ae_aad o) c) then Some p else None.
Proof.
  intros grow G o iv c t p [Hm Hi] Hk Hl Ha Hs Ht Hiv Hc Hp. apply masked_crypt in Hp. unfold ae_decrypt_mem. replace (len t =? 16) with true by lia. simpl negb. cbv iota.
  rewrite !too_long_false by auto. simpl orb. cbv iota. unfold evp_init. replace (len (ae_key o) <? 32) with false by lia. cbn [bind]. rewrite Hs.
  rewrite firstn_self by (unfold len in Hk; lia). unfold evp_set_tag, evp_add_aad. cbn [ev_iv ev_data ev_aad ev_key ev_tag fst].
  replace (0 <? len t) with true by lia. replace (len t <=? 16) with true by lia. cbn [andb]. rewrite (Hi iv Hiv). cbn [fst].
  unfold evp_update, evp_verify. cbn [ev_iv ev_data ev_aad ev_key ev_tag length]. rewrite !app_nil_l. rewrite <- Hp.
  rewrite (firstn_self (mac G (ae_key o) iv (ae_aad o) c)) by (specialize (Hm (ae_key o) iv (ae_aad o) c); unfold len in *; lia).
  assert (length p = length c) as Lp by (apply masked_crypt in Hp; apply Hp). rewrite Lp. replace (S (length c) - length c)%nat with 1%nat by lia.
  assert (p <> []) as Np by (intro X; subst p; rewrite X in Lp; destruct c; [congruence|discriminate]).
  destruct (insert_new_all grow p) as (n & ->). exists (if str_eqb t (mac G (ae_key o) iv (ae_aad o) c) then Some p else None), n. cbn [now app repeat].
  destruct (str_eqb t (mac G (ae_key o) iv (ae_aad o) c)); (split; [|reflexivity]); rewrite free_one; try reflexivity; [|apply block_some; exact Np].
  destruct p; [congruence|discriminate].
Qed.

(** ** C128 *)
(** Each call loses exactly two blocks, the digest of 32 bytes and the serialized
    session element, whatever the message: memory runs out with the number of calls. *)
Theorem C128_leak_refuted : forall grow E x t, lawful E -> len t < 2147483616 ->
  (exists y own left h, encrypt_mem grow E x t = Ok (y, own, left) /\ lost (own ++ left) = [(Leaked, map Some h); (Leaked, map Some (gt_out (e_curve E) x))] /\ len h = 32) /\
  (exists y own left h, decrypt_mem grow E x t = Ok (y, own, left) /\ lost (own ++ left) = [(Leaked, map Some h); (Leaked, map Some (gt_out (e_curve E) x))] /\ len h = 32).
Proof.
  intros grow E x t HE Ht. assert (0 <= len t < 2147483616) as Hn by (pose proof (len_nonneg t); lia).
  destruct (pads_mem grow E HE x (len t) Hn) as (m & z1 & z2 & tl & k & i & c & r & M & P & L1 & L2 & _).
  destruct (mask_ok E (sym_of E x) t HE Ht) as (m' & y & M' & X & _). rewrite M in M'. injection M' as <-.
  unfold encrypt_mem, decrypt_mem. rewrite P. cbn [bind now]. rewrite X. cbn [bind].
  split; eexists _, _, _, (digest E x); (split; [reflexivity|]); (split; [|unfold len; rewrite (digest_len E HE); reflexivity]);
    rewrite !lost_app, !(heaps_lost (vfree _) (heaps_free _)), (heaps_lost z1 L1), (heaps_lost z2 L2); reflexivity.
Qed.

(** ** C129 *)
Lemma stack_free : forall v, on_stack (vfree v) = 0.
Proof. intro v. apply heaps_stack, heaps_free. Qed.
(** The exact need: the message rounded up to blocks of 32 bytes, and one byte. *)
Theorem C129_need : forall grow E x t, lawful E -> len t < 2147483616 ->
  (exists y own left, encrypt_mem grow E x t = Ok (y, own, left) /\ on_stack (own ++ left) = 32 * ((len t + 31) / 32) + 1) /\
  (exists y own left, decrypt_mem grow E x t = Ok (y, own, left) /\ on_stack (own ++ left) = 32 * ((len t + 31) / 32) + 1).
Proof.
  intros grow E x t HE Ht. assert (0 <= len t < 2147483616) as Hn by (pose proof (len_nonneg t); lia).
  destruct (pads_mem grow E HE x (len t) Hn) as (m & z1 & z2 & tl & k & i & c & r & M & P & L1 & L2 & Lt).
  destruct (mask_ok E (sym_of E x) t HE Ht) as (m' & y & M' & X & _). rewrite M in M'. injection M' as <-.
  unfold encrypt_mem, decrypt_mem. rewrite P. cbn [bind now]. rewrite X. cbn [bind].
  split; eexists _, _, _; (split; [reflexivity|]);
    rewrite !on_stack_app, !stack_free, (heaps_stack z1 L1), (heaps_stack z2 L2); cbn [on_stack fold_right fst snd]; rewrite map_length; unfold len in *; lia.
Qed.
(** Whatever room the stack has, up to the length where the size itself overflows,
    every message of that length or more needs more. *)
Theorem C129_room_refuted : forall grow E x room t, lawful E -> 0 <= room -> room <= len t < 2147483616 ->
  exists y own left, encrypt_mem grow E x t = Ok (y, own, left) /\ room < on_stack (own ++ left).
Proof.
  intros grow E x room t HE H0 Ht. destruct (C129_need grow E x t HE ltac:(lia)) as [(y & own & left & En & N) _]. exists y, own, left. split; [exact En|]. rewrite N. Z.div_mod_to_equations. lia.
Qed.
(** A short enough message fits. *)
Theorem C129_fits : forall grow E x room t, lawful E -> len t < 2147483616 -> len t + 32 <= room ->
  exists y own left, encrypt_mem grow E x t = Ok (y, own, left) /\ on_stack (own ++ left) <= room.
Proof.
  intros grow E x room t HE H0 Ht. destruct (C129_need grow E x t HE ltac:(lia)) as [(y & own & left & En & N) _]. exists y, own, left. split; [exact En|]. rewrite N. Z.div_mod_to_equations. lia.
Qed.

(** ** A case *)
Definition ex_grow (n k : nat) : nat := Nat.max (n + n) (n + k).
Definition ex_el : gt (e_curve toy_engine) := of_z 5.
Definition ex_msg : str := L "attack at dawn".
Example C127_nonvacuous : lawful toy_engine /\ len ex_msg < 2147483616 /\
  match encrypt_mem ex_grow toy_engine ex_el ex_msg with
  | Ok (y, own, other) => (str_eqb y ex_msg, map (fun r => length (snd r)) own, map (fun r => (fst r, length (snd r))) other, on_stack other)
      = (false, [14; 32]%nat, [(Leaked, 32); (Leaked, 1); (Heap, 4); (Heap, 1); (Heap, 1); (Heap, 2); (Heap, 4); (Heap, 8); (Heap, 16); (Heap, 32); (Heap, 32); (Heap, 32); (Stack, 33); (Heap, 64); (Heap, 14)]%nat, 33)
  | _ => False
  end.
Proof. split; [exact toy_lawful|]. split; [reflexivity|]. vm_compute. reflexivity. Qed.
(** A forged tag. *)
Example C127_rejected_case : gcm_ok SymSpec.toy /\
  match ae_decrypt_mem ex_grow SymSpec.toy {| ae_key := repeat (z2b 7) 32; ae_aad := L "x"; ae_aad_set := true |} (repeat (z2b 1) 16) (L "forged") (repeat (z2b 9) 16) with
  | Ok (None, [(Heap, a); (Heap, b)]) => (length a, length b) = (7, 6)%nat
  | _ => False
  end.
Proof. split; [exact PropSym.toy_ok|]. vm_compute. reflexivity. Qed.
Print Assumptions C127_own_blocks. Print Assumptions C127_zeroize. Print Assumptions C127_left_refuted. Print Assumptions C127_leak_opens_refuted. Print Assumptions C127_shrunk_refuted.
Print Assumptions C127_handle_refuted. Print Assumptions C127_object_refuted. Print Assumptions C127_same_answer. Print Assumptions C127_rejected_refuted. Print Assumptions C128_leak_refuted.
Print Assumptions C129_need. Print Assumptions C129_room_refuted. Print Assumptions C129_fits.
