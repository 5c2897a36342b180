(** C148: exporting gives back the memory it took: refuted, with the exact loss. *)
From Verif Require Import Base StrMap ByteString UInteger Field Policy Driver Parser AttrList Utils Container ContainerSpec PropContainer Memory MemorySpec MemoryInv StreamMem PropStreamMem ExportMem Keystore Kdf Lsss LsssSpec Scheme SchemeSpec SchemeToy PropUtil PropParser PropScheme PlainSpec PropPlain FreshSpec PropFresh OutlineSpec Outline PropSize.
From Coq Require Import ZArith List Ascii Bool Lia Permutation.
Import ListNotations.
Local Open Scope nat_scope.

(** ** Specification *)
(** The encodings of the group elements among the components, in order. *)
Definition raw {K} (o : option (zobj K)) : list str :=
  match o with Some (OG1 x) => [g1_out K x] | Some (OG2 x) => [g2_out K x] | Some (OGt x) => [gt_out K x] | _ => [] end.
Definition raws {K} (c : container K) : list str := flat_map (fun e => raw (snd e)) c.
(** What the exports return. *)
Definition xresult {K} (o : xop K) : res str :=
  match o with XContainer c r => serialize c r | XCipher c => ct_export c | XBare c => ct_export_bare c | XKey k => key_export k end.
(** What is in the arrays that remain, in the order they were made. *)
Definition kept (m : emem) : list str := map (fun a => nth a (held m) []) (remaining (events (hist m))).
(** Nothing is freed: every array remains. *)
Record xok (m : emem) : Prop := {
  xok_mok : exists l, mok (hist m) l;
  xok_made : made_by (events (hist m)) = seq 0 (next (hist m));
  xok_del : forall a, ~ In (Del a) (log (hist m));
  xok_len : length (held m) = next (hist m) }.
Lemma enothing_ok : xok enothing.
Proof. split; auto. exists []. exact nothing_ok. Qed.
Lemma made_app : forall h k, made_by (h ++ k) = made_by h ++ made_by k.
Proof. intros. unfold made_by. apply flat_map_app. Qed.
Lemma get_bytes_ok : forall s m, xok m -> xok (get_bytes s m).
Proof.
  intros s m [[l A] B C D]. split.
  - exists (next (hist m) :: l). apply mok_new_ in A. cbn [get_bytes hist]. repeat (apply mok_use; [|left; reflexivity]). exact A.
  - cbn [get_bytes hist events log told tnew next]. unfold events in *. cbn [log told tnew rev]. rewrite !made_app, B. cbn. rewrite !app_nil_r.
    symmetry. exact (seq_S (next (hist m)) 0).
  - intros a X. cbn in X. destruct X as [X|[X|[X|X]]]; try discriminate. exact (C a X).
  - cbn. rewrite app_length, D. cbn. lia.
Qed.
Lemma nth_all : forall h : list str, map (fun a => nth a h []) (seq 0 (length h)) = h.
Proof. induction h as [|x h IH]; [reflexivity|]. cbn [length seq map nth]. f_equal. rewrite <- seq_shift, map_map. exact IH. Qed.
Lemma kept_held : forall m, xok m -> kept m = held m.
Proof.
  intros m [_ B C D]. unfold kept, remaining. rewrite B.
  assert (forall l, filter (fun a => negb (existsb (is_del a) (events (hist m)))) l = l) as F.
  { induction l as [|a l IH]; [reflexivity|]. cbn [filter]. rewrite IH. destruct (existsb (is_del a) (events (hist m))) eqn:E; [|reflexivity].
    exfalso. apply existsb_exists in E as (e & I & X). destruct e; try discriminate. apply Nat.eqb_eq in X as ->. apply in_rev in I. exact (C _ I). }
  rewrite F, <- D. apply nth_all.
Qed.
Section Runs.
Context (K : curve).
Lemma obj_step : forall old (o : zobj K) m, xok m -> fst (obj_serialize_mem K old o m) = obj_serialize old o /\
  xok (snd (obj_serialize_mem K old o m)) /\ held (snd (obj_serialize_mem K old o m)) = held m ++ raw (Some o).
Proof.
  intros old o m M. split; [reflexivity|]. destruct o; cbn [obj_serialize_mem snd raw]; rewrite ?app_nil_r;
    (split; [first [exact M | apply get_bytes_ok, M] | reflexivity]).
Qed.
Lemma loop_step : forall (c : container K) bytes result m, xok m ->
  fst (serialize_loop_mem K c bytes result m) = serialize_loop c bytes result /\ xok (snd (serialize_loop_mem K c bytes result m)) /\
  (forall s, serialize_loop c bytes result = Ok s -> held (snd (serialize_loop_mem K c bytes result m)) = held m ++ raws c).
Proof.
  induction c as [|[k [o|]] c IH]; intros bytes result m M; cbn [serialize_loop_mem serialize_loop].
  - split; [reflexivity|]. split; [exact M|]. intros s _. symmetry. apply app_nil_r.
  - destruct (obj_step bytes o m M) as (A & B & C). destruct (obj_serialize_mem K bytes o m) as [b m1]. cbn [fst snd] in *. subst b.
    destruct (IH (obj_serialize bytes o) (smart_pack (smart_pack result k) (obj_serialize bytes o)) m1 B) as (A2 & B2 & C2).
    split; [exact A2|]. split; [exact B2|]. intros s H. rewrite (C2 s H), C, <- app_assoc. reflexivity.
  - split; [reflexivity|]. split; [exact M|]. discriminate.
Qed.
Lemma xstep_ok : forall (o : xop K) m, xok m -> fst (xstep K o m) = xresult o /\ xok (snd (xstep K o m)) /\
  (forall s, xresult o = Ok s -> held (snd (xstep K o m)) = held m ++ raws (xparts K o)).
Proof.
  intros o m M. unfold xstep.
  destruct (loop_step (xparts K o) [] (match o with XContainer _ r => r | _ => [] end) m M) as (A & B & C).
  destruct (serialize_loop_mem K (xparts K o) [] _ m) as [body m']. cbn [fst snd] in *. subst body.
  destruct o; cbn [xparts xresult] in *; unfold serialize, ct_export, ct_export_bare, key_export, serialize in *;
    (split; [reflexivity|]; split; [exact B|]); intros s H; try exact (C s H);
    (destruct (serialize_loop _ [] []) as [b| | | |]; try discriminate; exact (C b eq_refl)).
Qed.
Lemma xruns_ok : forall (l : list (xop K)) m, xok m -> xok (snd (xruns K l m)) /\
  ((forall o, In o l -> exists s, xresult o = Ok s) -> fst (xruns K l m) = map xresult l /\ held (snd (xruns K l m)) = held m ++ flat_map (fun o => raws (xparts K o)) l).
Proof.
  induction l as [|o l IH]; intros m M; cbn [xruns].
  - split; [exact M|]. intros _. split; [reflexivity|]. symmetry. apply app_nil_r.
  - destruct (xstep_ok o m M) as (A & B & C). destruct (xstep K o m) as [r m1]. cbn [fst snd] in *. subst r.
    destruct (IH m1 B) as (D & E). destruct (xruns K l m1) as [rs m2]. cbn [fst snd] in *.
    split; [destruct (xresult o); first [exact B | exact D]|]. intro H. destruct (H o (or_introl eq_refl)) as [s Hs]. rewrite (C s Hs) in E.
    destruct (E (fun x X => H x (or_intror X))) as [E1 E2]. cbn [map flat_map]. rewrite Hs. cbn [fst snd].
    split; [f_equal; exact E1|]. rewrite E2, <- app_assoc. reflexivity.
Qed.
End Runs.
Lemma freed_kept : forall m, xok m -> (all_freed (events (hist m)) <-> kept m = []).
Proof.
  intros m M. pose proof (kept_held m M) as E. destruct M as [[l A] B C D]. rewrite E. split.
  - intro F. destruct (held m) as [|x h] eqn:H; [reflexivity|]. exfalso. apply (F 0). split.
    + apply in_rev. unfold events. rewrite rev_involutive. apply (mok_new _ _ A). rewrite <- D. cbn. lia.
    + intro X. apply in_rev in X. exact (C 0 X).
  - intros H a [X _]. apply in_rev in X. apply (mok_new _ _ A) in X. rewrite <- D, H in X. cbn in X. lia.
Qed.

(** ** C148 *)
(** The exports return what they return in the model without memory. *)
Theorem C148_same : forall K (o : xop K) m, fst (xstep K o m) = xresult o.
Proof.
  intros K o m. unfold xstep.
  assert (forall (c : container K) b r m, fst (serialize_loop_mem K c b r m) = serialize_loop c b r) as A.
  { induction c as [|[k [x|]] c IH]; intros b r m'; try reflexivity. cbn [serialize_loop_mem serialize_loop]. unfold obj_serialize_mem. apply IH. }
  specialize (A (xparts K o) [] (match o with XContainer _ r => r | _ => [] end) m).
  destruct (serialize_loop_mem K (xparts K o) [] _ m) as [body m']. cbn [fst] in *. subst body. destruct o; reflexivity.
Qed.
Print Assumptions C148_same.
(** No array is used after it was freed or freed twice. *)
Theorem C148_legal : forall K (l : list (xop K)), legal (events (hist (snd (xruns K l enothing)))).
Proof. intros K l. destruct (xruns_ok K l enothing enothing_ok) as [[[o M] _ _ _] _]. exact (mok_legal _ _ M). Qed.
Print Assumptions C148_legal.
(** What a program of exports loses: for each export and each group element among the
    components an array with the encoding of that element, and nothing else. *)
Theorem C148_exact : forall K (l : list (xop K)), (forall o, In o l -> exists s, xresult o = Ok s) ->
  fst (xruns K l enothing) = map xresult l /\ kept (snd (xruns K l enothing)) = flat_map (fun o => raws (xparts K o)) l.
Proof. intros K l H. destruct (xruns_ok K l enothing enothing_ok) as [M E]. destruct (E H) as [E1 E2]. split; [exact E1|]. rewrite (kept_held _ M). exact E2. Qed.
Print Assumptions C148_exact.
(** Everything is given back exactly if no component is a group element. *)
Theorem C148_plain_partial : forall K (l : list (xop K)), (forall o, In o l -> exists s, xresult o = Ok s) ->
  (all_freed (events (hist (snd (xruns K l enothing)))) <->
   forall o name x, In o l -> In (name, Some x) (xparts K o) -> match x with OG1 _ | OG2 _ | OGt _ => False | _ => True end).
Proof.
  intros K l H. destruct (xruns_ok K l enothing enothing_ok) as [M _]. rewrite (freed_kept _ M), (proj2 (C148_exact K l H)). split.
  - intros E o name x I J. assert (raw (Some x) = []) as R.
    { destruct (raw (Some x)) as [|s t] eqn:Er; [reflexivity|]. exfalso. assert (In s []) as X; [|exact X]. rewrite <- E. apply in_flat_map. exists o. split; [exact I|].
      apply in_flat_map. exists (name, Some x). split; [exact J|]. cbn [snd]. rewrite Er. left. reflexivity. }
    destruct x; try exact Logic.I; discriminate R.
  - intro P. destruct (flat_map _ l) as [|s t] eqn:E; [reflexivity|]. exfalso.
    assert (In s (s :: t)) as X by (left; reflexivity). rewrite <- E in X. apply in_flat_map in X as (o & I & X). apply in_flat_map in X as ([name [x|]] & J & X); [|destruct X].
    specialize (P o name x I J). destruct x; try exact X; exact P.
Qed.
Print Assumptions C148_plain_partial.
(** Refuted: exporting n times something with a group element loses that many arrays
    n times. *)
Theorem C148_refuted : forall K (o : xop K) s name x n, xresult o = Ok s -> In (name, Some x) (xparts K o) ->
  match x with OG1 _ | OG2 _ | OGt _ => True | _ => False end ->
  let m := snd (xruns K (repeat o n) enothing) in
  fst (xruns K (repeat o n) enothing) = repeat (Ok s) n /\ length (kept m) = n * length (raws (xparts K o)) /\ n <= length (kept m) /\ (0 < n -> ~ all_freed (events (hist m))).
Proof.
  intros K o s name x n H I X m. subst m.
  assert (forall y, In y (repeat o n) -> exists s, xresult y = Ok s) as A by (intros y Y; apply repeat_spec in Y as ->; eauto).
  destruct (C148_exact K _ A) as [E1 E2]. destruct (xruns_ok K (repeat o n) enothing enothing_ok) as [M _].
  assert (1 <= length (raws (xparts K o))) as P.
  { assert (exists r, In r (raws (xparts K o))) as [r Hr].
    { destruct x; try destruct X; eexists; (apply in_flat_map; eexists; split; [exact I|left; reflexivity]). }
    destruct (raws (xparts K o)); [destruct Hr|cbn; lia]. }
  assert (length (kept (snd (xruns K (repeat o n) enothing))) = n * length (raws (xparts K o))) as Ln.
  { rewrite E2. clear. induction n as [|n IH]; [reflexivity|]. cbn [repeat flat_map]. rewrite app_length, IH. reflexivity. }
  split; [rewrite E1, <- H; clear; induction n; [reflexivity|cbn; f_equal; assumption]|].
  split; [exact Ln|]. split; [rewrite Ln; nia|]. intros Hn F. apply (freed_kept _ M) in F. rewrite F in Ln. cbn in Ln. nia.
Qed.
Print Assumptions C148_refuted.
(** The arrays of an exported key are the secret components themselves. *)
Theorem C148_secret_refuted : forall K (k : key K) s name x, key_export k = Ok s -> mget name (k_parts k) = Some (Some x) ->
  forall r, raw (Some x) = [r] -> In r (kept (snd (xruns K [XKey k] enothing))).
Proof.
  intros K k s name x H E r R. assert (forall o, In o [XKey k] -> exists s, xresult o = Ok s) as A by (intros o [<-|[]]; exists s; exact H).
  rewrite (proj2 (C148_exact K _ A)). cbn [flat_map xparts]. rewrite app_nil_r. apply in_flat_map. exists (name, Some x). split; [apply mget_In, E|]. cbn [snd]. rewrite R. left. reflexivity.
Qed.
Print Assumptions C148_secret_refuted.

(** ** What the two schemes export *)
Definition is_element (v : sight) : bool := match v with SG1 | SG2 | SGt => true | _ => false end.
Definition others (v : smap sight) : nat := length (filter (fun e => negb (is_element (snd e))) v).
Lemma raws_count : forall K (c : container K), length (raws c) + others (view c) = length c.
Proof.
  intros K. induction c as [|[k o] c IH]; [reflexivity|]. unfold raws, view, others in *. cbn [flat_map map filter snd length]. rewrite app_length.
  destruct o as [[]|]; cbn [raw see is_element negb length]; try (destruct (str_eqb k (L "_ED"))); cbn [is_element negb length]; lia.
Qed.
Lemma others_element : forall k s v, is_element s = true -> (forall t, mget k v = Some t -> is_element t = true) -> others (mset k s v) = others v.
Proof.
  intros k s v Hs. unfold others. induction v as [|[k' t] v IH]; intro H; cbn [mset mget] in *.
  - cbn [filter snd]. rewrite Hs. reflexivity.
  - destruct (str_eqb k k') eqn:E.
    + cbn [filter snd]. rewrite Hs, (H t eq_refl). reflexivity.
    + destruct (str_ltb k k'); cbn [filter snd]; [rewrite Hs; reflexivity|]. destruct (negb (is_element t)); cbn [length]; rewrite (IH H); reflexivity.
Qed.
Lemma others_other : forall k s v, is_element s = false -> mget k v = None -> others (mset k s v) = S (others v).
Proof.
  intros k s v Hs. unfold others. induction v as [|[k' t] v IH]; intro H; cbn [mset mget] in *.
  - cbn [filter snd]. rewrite Hs. reflexivity.
  - destruct (str_eqb k k') eqn:E; [discriminate|].
    destruct (str_ltb k k'); cbn [filter snd]; [rewrite Hs; reflexivity|]. destruct (negb (is_element t)); cbn [length]; rewrite (IH H); reflexivity.
Qed.
(** A name with the base of a leaf or attribute is only given to elements. *)
Definition tidy (h : str -> str) (b : str) (v : smap sight) : Prop := forall u t, mget (name_of h b u) v = Some t -> is_element t = true.
Lemma tidy_set : forall h b k s v, (is_element s = true \/ forall u, name_of h b u <> k) -> tidy h b v -> tidy h b (mset k s v).
Proof.
  intros h b k s v H T u t E. destruct (str_eq_dec (name_of h b u) k) as [Q|Q].
  - destruct H as [H|H]; [|destruct (H u Q)]. rewrite Q, mget_mset_same in E. injection E as <-. exact H.
  - rewrite mget_mset_other in E by exact Q. exact (T u t E).
Qed.
Lemma one_fold : forall h b e l v, is_element e = true -> tidy h b v -> others (fold_left (fun v a => mset (name_of h b a) e v) l v) = others v.
Proof.
  intros h b e. induction l as [|a l IH]; intros v He T; [reflexivity|]. cbn [fold_left]. rewrite IH; [|exact He|apply tidy_set; auto].
  apply others_element; [exact He|]. intros t. apply T.
Qed.
Lemma two_fold : forall h b d e f l v, is_element e = true -> is_element f = true -> tidy h b v -> tidy h d v ->
  others (fold_left (fun v a => mset (name_of h b a) e (mset (name_of h d a) f v)) l v) = others v.
Proof.
  intros h b d e f. induction l as [|a l IH]; intros v He Hf T S; [reflexivity|]. cbn [fold_left]. rewrite IH; auto; [|apply tidy_set; auto; apply tidy_set; auto..].
  rewrite others_element; [|exact He|]. { apply others_element; [exact Hf|]. intro t. apply S. }
  intro t. assert (tidy h b (mset (name_of h d a) f v)) as X by (apply tidy_set; auto). apply X.
Qed.
Lemma none_fold : forall h b (e : sight) k l v, (forall u, name_of h b u <> k) -> mget k v = None -> mget k (fold_left (fun v a => mset (name_of h b a) e v) l v) = None.
Proof. intros h b e k. induction l as [|a l IH]; intros v D N; [exact N|]. cbn [fold_left]. apply IH; [exact D|]. rewrite mget_mset_other; [exact N|]. intro X. exact (D a (eq_sym X)). Qed.
Lemma none_fold2 : forall h b d (e f : sight) k l v, (forall u, name_of h b u <> k) -> (forall u, name_of h d u <> k) -> mget k v = None ->
  mget k (fold_left (fun v a => mset (name_of h b a) e (mset (name_of h d a) f v)) l v) = None.
Proof.
  intros h b d e f k. induction l as [|a l IH]; intros v D D2 N; [exact N|]. cbn [fold_left]. apply IH; [exact D|exact D2|].
  rewrite !mget_mset_other; [exact N| |]; intro X; [exact (D2 a (eq_sym X))|exact (D a (eq_sym X))].
Qed.
Ltac tidy_tac := repeat (apply tidy_set; [first [left; reflexivity | right; intros ? X; discriminate X]|]); intros ? ? X; discriminate X.
Lemma others_shown : forall h s inp n, fits s inp -> others (shown h s inp n) = 2.
Proof.
  intros h [] [q|l|] n F; try destruct F; cbn [shown].
  - unfold cp_shown. rewrite others_other; [|reflexivity|apply none_fold2; [intros ? X; discriminate X..|reflexivity]].
    rewrite two_fold; [reflexivity|reflexivity|reflexivity|tidy_tac|tidy_tac].
  - unfold kp_shown. rewrite others_other; [|reflexivity|].
    + rewrite others_other; [|reflexivity|apply none_fold; [intros ? X; discriminate X|reflexivity]]. rewrite one_fold; [reflexivity|reflexivity|tidy_tac].
    + rewrite mget_mset_other by discriminate. apply none_fold; [intros ? X; discriminate X|reflexivity].
Qed.
Lemma others_key : forall h s inp, (match s, inp with CP, InAttrs _ | KP, InPolicy _ => True | _, _ => False end) -> others (key_shown h s inp) = 1.
Proof.
  intros h [] [q|l|] N; cbn [key_shown] in *; try destruct N.
  - unfold cp_key_shown. rewrite one_fold; [reflexivity|reflexivity|tidy_tac].
  - unfold kp_key_shown. rewrite two_fold; [reflexivity|reflexivity|reflexivity|tidy_tac|tidy_tac].
Qed.
Lemma written : forall K (c : container K) old r, Forall writable (map snd (view c)) -> exists out, serialize_loop c old r = Ok out.
Proof.
  intros K. induction c as [|[k [o|]] c IH]; intros old r W; cbn [serialize_loop]; [eauto| |]; inversion W as [|? ? W1 W2]; subst.
  - apply IH. exact W2.
  - destruct W1.
Qed.
(** Exporting a ciphertext made by encrypt loses an array for every component but
    two, the policy or attributes and the sealed message; C132_parts says how many
    components there are.  Exporting the key made by keygen loses one for every
    component but one. *)
Theorem C148_ciphertext_refuted : forall E s mpk inp pt w w', ct_parts (w_ct E w) = [] -> encrypt E s mpk inp pt w = (w', Ok 0%Z) ->
  exists blob, ct_export (w_ct E w') = Ok blob /\
    Z.of_nat (length (kept (snd (xruns _ [XCipher (w_ct E w')] enothing)))) = (num_components (ct_parts (w_ct E w')) - 2)%Z /\
    ~ all_freed (events (hist (snd (xruns _ [XCipher (w_ct E w')] enothing)))).
Proof.
  intros E s mpk inp pt w w' B H. destruct (C131_ciphertext _ _ _ _ _ _ _ B H) as (F & _ & _ & _ & V).
  destruct (written _ (ct_parts (w_ct E w')) [] []) as [out W]; [rewrite V; apply writable_shown|].
  assert (exists blob, ct_export (w_ct E w') = Ok blob) as [blob Eb] by (unfold ct_export, serialize; rewrite W; cbn [bind]; eauto).
  exists blob. split; [exact Eb|].
  assert (forall o, In o [XCipher (w_ct E w')] -> exists s, xresult o = Ok s) as A by (intros o [<-|[]]; exists blob; exact Eb).
  pose proof (raws_count _ (ct_parts (w_ct E w'))) as R. rewrite V, others_shown in R by exact F.
  destruct (C148_exact _ _ A) as [_ X]. split.
  - rewrite X. cbn [flat_map xparts]. rewrite app_nil_r. unfold num_components. lia.
  - intro Fr. rewrite (C148_plain_partial _ _ A) in Fr.
    assert (exists name, In (name, SG1) (view (ct_parts (w_ct E w'))) \/ In (name, SG2) (view (ct_parts (w_ct E w')))) as (name & Y).
    { rewrite V. destruct s, inp as [q|l|]; try destruct F; cbn [shown].
      - exists (L "Cprime"). left. apply mget_In. unfold cp_shown. rewrite mget_mset_other by discriminate.
        assert (forall l v, mget (L "Cprime") v = Some SG1 -> mget (L "Cprime") (fold_left (fun v u => mset (name_of (e_hash E) (L "C") u) SG1 (mset (name_of (e_hash E) (L "D") u) SG2 v)) l v) = Some SG1) as G.
        { induction l as [|a l IH]; intros v N; [exact N|]. cbn [fold_left]. apply IH. rewrite !mget_mset_other; [exact N|discriminate..]. }
        apply G. reflexivity.
      - exists (L "Cpr2"). right. apply mget_In. unfold kp_shown. rewrite !mget_mset_other by discriminate.
        assert (forall l v, mget (L "Cpr2") v = Some SG2 -> mget (L "Cpr2") (fold_left (fun v a => mset (name_of (e_hash E) (L "C") a) SG1 v) l v) = Some SG2) as G.
        { induction l0 as [|a l0 IH]; intros v N; [exact N|]. cbn [fold_left]. apply IH. rewrite !mget_mset_other; [exact N|discriminate]. }
        apply G. reflexivity. }
    unfold view in Y. rewrite !in_map_iff in Y. destruct Y as [([k o] & Q & I)|([k o] & Q & I)]; injection Q as -> Q; destruct o as [o|]; try discriminate;
      (specialize (Fr _ name o (or_introl eq_refl) I); destruct o; cbn [see] in Q; try discriminate; try (destruct (str_eqb name (L "_ED")); discriminate); exact Fr).
Qed.
Print Assumptions C148_ciphertext_refuted.
Theorem C148_key_refuted : forall E s inp id mpk msk w w', keygen E s inp id mpk msk w = (w', Ok 0%Z) ->
  exists k blob, mget id (sec_keys (w_store E w')) = Some (Some k) /\ key_export k = Ok blob /\
    Z.of_nat (length (kept (snd (xruns _ [XKey k] enothing)))) = (num_components (k_parts k) - 1)%Z.
Proof.
  intros E s inp id mpk msk w w' H. destruct (keygen_looks _ _ _ _ _ _ _ _ H) as (N & k & Hk & _ & _ & _ & V). exists k.
  destruct (written _ (k_parts k) [] []) as [out W]; [rewrite V; apply writable_key_shown|].
  assert (exists blob, key_export k = Ok blob) as [blob Eb] by (unfold key_export, serialize; rewrite W; cbn [bind]; eauto).
  exists blob. split; [exact Hk|]. split; [exact Eb|].
  assert (forall o, In o [XKey k] -> exists s, xresult o = Ok s) as A by (intros o [<-|[]]; exists blob; exact Eb).
  pose proof (raws_count _ (k_parts k)) as R. rewrite V, others_key in R by exact N.
  destruct (C148_exact _ _ A) as [_ X]. rewrite X. cbn [flat_map xparts]. rewrite app_nil_r. unfold num_components. lia.
Qed.
Print Assumptions C148_key_refuted.

(** Three exports of a container with an element of each group: nine arrays. *)
Example C148_nonvacuous :
  let l := [XContainer sample (L "x"); XCipher sample_ct; XKey sample_key] in
  forallb (fun o => match xresult o with Ok _ => true | _ => false end) l = true /\
  remaining (events (hist (snd (xruns toy l enothing)))) = seq 0 9 /\
  kept (snd (xruns toy [XContainer sample []] enothing)) = [[z2b 4; z2b 9; z2b 9]; [z2b 2; z2b 200]; [z2b 3; z2b 0]].
Proof. cbv zeta. repeat split; vm_compute; reflexivity. Qed.
Example C148_plain_nonvacuous :
  let c := build [(L "n", OInt {| uval := 5; ubits := 32 |}); (L "policy", OBytes (L "a and b")); (L "s", OZp {| zv := 77; zord := Some 101%Z |})] in
  (exists s, serialize c [] = Ok s) /\ length c = 3 /\ made_by (events (hist (snd (xruns toy [XContainer c []] enothing)))) = [].
Proof. cbv zeta. split; [eexists; vm_compute; reflexivity|]. split; vm_compute; reflexivity. Qed.
Example C148_secret_nonvacuous : mget (L "C") (k_parts sample_key) = Some (Some (e1 (z2b 200))) /\ exists s, key_export sample_key = Ok s.
Proof. split; [vm_compute; reflexivity|]. eexists. vm_compute. reflexivity. Qed.
(** A policy with two leaves: a ciphertext of seven components loses five arrays. *)
Example C148_ciphertext_nonvacuous :
  let '(w, r) := encrypt toy_engine CP (L "mpk") (InPolicy (parsed_policy (L "(one or two)"))) (L "hello")
    (start toy_engine (left_by toy_engine (w_alice toy_engine CP (key_input CP))) (no_ct toy_engine)) in
  r = Ok 0%Z /\ length (kept (snd (xruns _ [XCipher (w_ct toy_engine w)] enothing))) = 5.
Proof. vm_compute. split; reflexivity. Qed.
