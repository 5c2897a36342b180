(** C140: how much of the stack decryption takes. *)
From Verif Require Import Base ByteString StrMap Dec UInteger Field Policy Lsss LsssSpec LsssFinal LsssRecover LsssProofs LsssShare LsssAlgebra LsssUse Scanner Grammar PolicySyntax Lexical PolicyMeaning AttrMeaning Driver Parser AttrList Utils Kdf ParserSound ParserRun ParserTop ScannerProofs NumProofs NumTree CreatePolicy ParserFinal AttrUse PolicyUse PrintParse Size Container Keystore Scheme SchemeSpec SchemeStep SchemeRows SchemeCp SchemeKp SchemeUse SchemeToy PropParser PropScheme Depth PropDepth PolicyTruth CreateAttrs PairRoom.
From Coq Require Import ZArith Znumtheory List Ascii Bool Lia Permutation.
Import ListNotations.
Open Scope Z_scope.

(** ** How many rows are used *)
Lemma mset_length : forall A k (v : A) m, (length (mset k v m) <= S (length m))%nat.
Proof. intros A k v. induction m as [|[a x] m IH]; [cbn; lia|]. cbn [mset]. destruct (str_eqb k a); [cbn; lia|]. destruct (str_ltb k a); cbn in *; lia. Qed.
Lemma add_rows_length : forall cnt l m, (length (add_rows cnt m l) <= length m + length l)%nat.
Proof.
  intros cnt. induction l as [|[n e] l IH]; intro m; [cbn; lia|]. cbn [add_rows length].
  unfold add_rows in *. cbn [fold_left]. match goal with |- (length (fold_left _ _ ?m') <= _)%nat => pose proof (IH m') as H; assert (length m' <= S (length m))%nat as X by apply mset_length end. lia.
Qed.
Lemma sublist_length : forall A (a b : list A), sublist a b -> (length a <= length b)%nat.
Proof. intros A a b H. induction H; cbn; lia. Qed.
Section Rows.
Context (E : engine) (Hs : forall l, Permutation (e_sort E l) l).
Lemma rows_of : forall s q l rows, create_policy_tree (e_mktime E) s = Ok (Some q) -> recover E (Some q) (Some l) = Ok (true, rows) ->
  exists r, proot q = Some r /\ binary r = true /\ sat (match_attribute (aattrs l)) r = true /\
    rows = add_rows (take_count lsss_new q) [] (crows (order (e_curve E)) (e_sort E) (aattrs l) r 1).
Proof.
  intros s q l rows Hq Hr. destruct (policy_size _ _ _ Hq) as (r & R & B & _). exists r. split; [exact R|]. split; [exact B|].
  destruct (binary_and_or r B) as [Ha _]. destruct (recover_ok (order (e_curve E)) (e_sort E) Hs (aattrs l) lsss_new q r fresh R Ha (clean_fresh r)) as (st & Er & _).
  unfold recover in Hr. rewrite Er in Hr. cbn [bind l_rows] in Hr. injection Hr as -> <-. split; reflexivity.
Qed.
Lemma few_rows : forall s q l rows, create_policy_tree (e_mktime E) s = Ok (Some q) -> recover E (Some q) (Some l) = Ok (true, rows) -> 3 * Z.of_nat (length rows) <= 32 * len s.
Proof.
  intros s q l rows Hq Hr. destruct (rows_of s q l rows Hq Hr) as (r & R & B & _ & ->). destruct (policy_size _ _ _ Hq) as (r' & R' & _ & _ & L2).
  assert (r' = r) as -> by congruence. pose proof (add_rows_length (take_count lsss_new q) (crows (order (e_curve E)) (e_sort E) (aattrs l) r 1) []) as H1. cbn [length] in H1.
  pose proof (sublist_length _ _ _ (rrows_srows (order (e_curve E)) (e_sort E) (aattrs l) (fun _ => 0) r 1 0 0)) as H2. rewrite map_length in H2.
  pose proof (f_equal (@length _) (rrows_crows (order (e_curve E)) (e_sort E) (aattrs l) (fun _ => 0) r 1 0 0)) as H3. rewrite map_length in H3.
  rewrite <- (map_length fst (srows _ _ _ _ _)), srows_fst, rev_length in H2. unfold leaf_count in L2. lia.
Qed.
End Rows.
(** Policies with AND gates only. *)
Fixpoint only_and (n : node) : bool :=
  match n with
  | Node GateLeaf _ _ _ _ _ => true
  | Node GateAnd _ _ _ _ ks => forallb only_and ks
  | _ => false
  end.
Lemma and_all : forall f n, only_and n = true -> sat_by f n = true -> forall x, In x (leaves n) -> f x = true.
Proof.
  intros f. induction n as [g t p l i ks IH] using node_ind2. rewrite Forall_forall in IH. intros O S x I. destruct g; try discriminate.
  - destruct I as [<-|[]]. exact S.
  - cbn [only_and sat_by leaves] in *. rewrite forallb_forall in O, S. apply in_flat_map in I as (c & Ic & Ix). eauto.
Qed.

Section Room.
Context (E : engine) (HE : lawful E).
Notation K := (e_curve E).
Lemma many_rows : forall q r l rows, usable E q r -> only_and r = true -> recover E (Some q) (Some l) = Ok (true, rows) -> (length (leaves r) <= length rows)%nat.
Proof.
  intros q r l rows (R & B & W & Np & T) O Hr. destruct (rows_of E (law_sort E HE) _ _ _ _ T Hr) as (r' & R' & _ & S & ->). assert (r' = r) as -> by congruence.
  destruct (binary_and_or r B) as [Ha _].
  destruct (minimal_lemma (order K) (e_sort E) (aattrs l) q r fresh (law_sort E HE) R Ha W Np (clean_fresh r) S) as (co & st & Er & _ & Sb & _).
  destruct (recover_ok (order K) (e_sort E) (law_sort E HE) (aattrs l) lsss_new q r fresh R Ha (clean_fresh r)) as (st' & Er' & _). rewrite Er, S in Er'. injection Er' as -> _. cbn [l_rows] in Sb.
  pose proof (distinct_new q r W Np) as D. unfold distinct_rows in D. rewrite <- (map_length (unique_label (take_count lsss_new q)) (leaves r)).
  rewrite <- (map_length fst (add_rows _ _ _)). apply NoDup_incl_length; [exact D|]. intros u I. apply in_map_iff in I as (x & <- & I).
  pose proof (and_all _ r O Sb x I) as M. cbv beta in M. unfold mmem in M. destruct (mget _ _) as [v|] eqn:G; [|discriminate]. apply mget_In in G. apply (in_map fst) in G. exact G.
Qed.

(** ** The loops hand over one pair for each row *)
Lemma cp_pairs : forall kid rows p g1s g2s w w' p' r2 r3, cp_dec_loop E kid rows p g1s g2s w = (w', Ok (p', r2, r3)) ->
  length r2 = (length g1s + length rows)%nat /\ length r3 = (length g2s + length rows)%nat.
Proof.
  intro kid. induction rows as [|[u [lab c]] rows IH]; intros p g1s g2s w w' p' r2 r3 H; cbn [cp_dec_loop] in H.
  - injection H as _ _ <- <-. cbn [length]. lia.
  - do 6 (apply andthen_inv in H as (? & ? & _ & H)). apply IH in H. rewrite !app_length in H. cbn [length] in *. lia.
Qed.
Lemma kp_pairs : forall kid rows p g1s g2s w w' p' r2 r3, kp_dec_loop E kid rows p g1s g2s w = (w', Ok (p', r2, r3)) ->
  length r2 = (length g1s + length rows)%nat /\ length r3 = (length g2s + length rows)%nat.
Proof.
  intro kid. induction rows as [|[u [lab c]] rows IH]; intros p g1s g2s w w' p' r2 r3 H; cbn [kp_dec_loop] in H.
  - injection H as _ _ <- <-. cbn [length]. lia.
  - do 6 (apply andthen_inv in H as (? & ? & _ & H)). apply IH in H. rewrite !app_length in H. cbn [length] in *. lia.
Qed.
Lemma nz_deref : forall A (o : option A) w, ~ zero_stop E (deref E o w).
Proof. intros A [a|] w (w' & H); discriminate. Qed.
Lemma nz_then : forall A B (m : code E A) (f : A -> code E B) w, ~ zero_stop E (m w) -> (forall a w1, m w = (w1, Ok a) -> ~ zero_stop E (f a w1)) -> ~ zero_stop E (andthen E m f w).
Proof.
  intros A B m f w N F (w' & H). unfold andthen in H. destruct (m w) as [w1 [a|x| | |]] eqn:Em; try discriminate.
  - apply (F a w1 eq_refl). exists w'. exact H.
  - injection H as -> ->. apply N. exists w'. reflexivity.
Qed.
Lemma nz_cp_loop : forall kid rows p g1s g2s w, ~ zero_stop E (cp_dec_loop E kid rows p g1s g2s w).
Proof.
  intro kid. induction rows as [|[u [lab c]] rows IH]; intros p g1s g2s w; cbn [cp_dec_loop]; [intros (? & H); discriminate|].
  repeat (apply nz_then; [first [apply nz_key_part|apply nz_ct_part|apply nz_assert|apply nz_deref]|intros ? ? _]). apply IH.
Qed.
Lemma nz_kp_loop : forall kid rows p g1s g2s w, ~ zero_stop E (kp_dec_loop E kid rows p g1s g2s w).
Proof.
  intro kid. induction rows as [|[u [lab c]] rows IH]; intros p g1s g2s w; cbn [kp_dec_loop]; [intros (? & H); discriminate|].
  repeat (apply nz_then; [first [apply nz_key_part|apply nz_ct_part|apply nz_assert|apply nz_deref]|intros ? ? _]). apply IH.
Qed.

(** ** Enough room *)
Lemma then_same : forall A B (m : code E A) (f g : A -> code E B) w, (forall a w1, m w = (w1, Ok a) -> f a w1 = g a w1) -> andthen E m f w = andthen E m g w.
Proof. intros A B m f g w H. unfold andthen. destruct (m w) as [w1 [a|x| | |]]; try reflexivity. apply H. reflexivity. Qed.
Lemma catch_same : forall (m n : code E Z) w, m w = n w -> catch_code E m w = catch_code E n w.
Proof. intros m n w H. unfold catch_code. rewrite H. reflexivity. Qed.
Lemma pairing_enough : forall room g1s g2s, (length g1s <= room)%nat -> multi_pairing_in E room g1s g2s = multi_pairing E g1s g2s.
Proof.
  intros room g1s g2s H. unfold multi_pairing_in. destruct (negb (length g1s =? length g2s)%nat || (length g1s =? 0)%nat) eqn:X.
  - unfold multi_pairing. rewrite X. reflexivity.
  - destruct (Nat.ltb_spec room (length g1s)); [lia|reflexivity].
Qed.
(** The text of the policy that a decryption reads. *)
Definition policy_read (sch : scheme) (kid : str) (w : world E) (s : str) : Prop :=
  match sch with
  | CP => mget (L "policy") (ct_parts (w_ct E w)) = Some (Some (OBytes s))
  | KP => exists k, mget kid (sec_keys (w_store E w)) = Some (Some k) /\ mget (L "input") (k_parts k) = Some (Some (OBytes s))
  end.
Lemma kem_enough : forall room sch mpk kid n w, (forall s, policy_read sch kid w s -> 32 * len s <= 3 * Z.of_nat room) ->
  decrypt_kem_in E room sch mpk kid n w = decrypt_kem E sch mpk kid n w.
Proof.
  intros room sch mpk kid n w H. destruct sch; cbn [decrypt_kem_in decrypt_kem]; unfold cp_decrypt_kem_in, cp_decrypt_kem, kp_decrypt_kem_in, kp_decrypt_kem; apply catch_same;
    apply then_same; intros dec w1 E1; apply then_same; intros k w2 E2; apply assert_inv in E2 as [-> ->]; apply secret_inv in E1 as [E1 _]; destruct (E1 k eq_refl) as [-> Hk]; clear E1.
  - apply then_same. intros l w3 E3. apply key_part_inv in E3 as (-> & k' & o & Hk' & Hp & ->).
    apply then_same. intros pol0 w4 E4. apply ct_part_inv in E4 as (-> & o4 & Hc & ->).
    apply then_same. intros s w5 E5. apply assert_inv in E5 as [E5 ->]. apply as_bytes_inv in E5 as ->.
    apply then_same. intros q w6 E6. apply lift_inv in E6 as [E6 ->].
    apply then_same. intros [ok rows] w7 E7. apply lift_inv in E7 as [E7 ->]. destruct ok; [|reflexivity]. cbn [negb].
    apply then_same. intros [[p1 g1s] g2s] w8 E8. apply cp_pairs in E8 as [L1 _]. rewrite pairing_enough; [reflexivity|]. rewrite L1. cbn [length].
    destruct q as [q|]; [|discriminate]. destruct (as_attrs E o) as [l|]; [|discriminate]. pose proof (few_rows E (law_sort E HE) s q l rows E6 E7). specialize (H s Hc). lia.
  - apply then_same. intros pol0 w3 E3. apply key_part_inv in E3 as (-> & k' & o & Hk' & Hp & ->).
    apply then_same. intros s w5 E5. apply assert_inv in E5 as [E5 ->]. apply as_bytes_inv in E5 as ->.
    apply then_same. intros q w6 E6. apply lift_inv in E6 as [E6 ->].
    apply then_same. intros l w4 E4. apply ct_part_inv in E4 as (-> & o4 & Hc & ->).
    apply then_same. intros [ok rows] w7 E7. apply lift_inv in E7 as [E7 ->]. destruct ok; [|reflexivity]. cbn [negb].
    apply then_same. intros [[p1 g1s] g2s] w8 E8. apply kp_pairs in E8 as [L1 _]. rewrite pairing_enough; [reflexivity|]. rewrite L1. cbn [length].
    destruct q as [q|]; [|discriminate]. destruct (as_attrs E o4) as [l|]; [|discriminate]. pose proof (few_rows E (law_sort E HE) s q l rows E6 E7).
    assert (32 * len s <= 3 * Z.of_nat room) by (apply H; exists k'; split; [exact Hk'|exact Hp]). lia.
Qed.

(** ** Too little room *)
Lemma pairing_overflow : forall room g1s g2s, length g1s = length g2s -> (room < length g1s)%nat -> multi_pairing_in E room g1s g2s = UB.
Proof.
  intros room g1s g2s H L. unfold multi_pairing_in. rewrite H, Nat.eqb_refl. rewrite <- H. destruct (Nat.eqb_spec (length g1s) 0); [lia|]. cbn [negb orb].
  destruct (Nat.ltb_spec room (length g1s)); [reflexivity|lia].
Qed.
Lemma then_ub : forall A B (m : code E A) (f : A -> code E B) w w1, m w = (w1, UB) -> snd (andthen E m f w) = UB.
Proof. intros A B m f w w1 H. unfold andthen. rewrite H. reflexivity. Qed.
Lemma catch_ub : forall (m : code E Z) w, snd (m w) = UB -> snd (catch_code E m w) = UB.
Proof. intros m w H. unfold catch_code. destruct (m w) as [w1 r]. cbn [snd] in H. subst r. reflexivity. Qed.
Lemma kem_overflow : forall room sch mpk kid n w w' s q r, policy_read sch kid w s -> create_policy_tree (e_mktime E) s = Ok (Some q) -> usable E q r -> only_and r = true ->
  (room < length (leaves r))%nat -> decrypt_kem E sch mpk kid n w = (w', Ok 0) -> snd (decrypt_kem_in E room sch mpk kid n w) = UB.
Proof.
  intros room sch mpk kid n w w' s q r Hp Hq U O Hr H. destruct sch; cbn [decrypt_kem decrypt_kem_in] in *; unfold cp_decrypt_kem, kp_decrypt_kem in H; unfold cp_decrypt_kem_in, kp_decrypt_kem_in;
    apply catch_zero in H; apply catch_ub;
    apply andthen_zero in H as (dec & w1 & H1 & H); [|apply nz_secret| |apply nz_secret]; erewrite andthen_ok by exact H1;
    apply andthen_zero in H as (k & w2 & H2 & H); [|apply nz_assert| |apply nz_assert]; erewrite andthen_ok by exact H2;
    apply assert_inv in H2 as [-> ->]; apply secret_inv in H1 as [H1 _]; destruct (H1 k eq_refl) as [-> Hk]; clear H1.
  - apply andthen_zero in H as (l & w3 & H3 & H); [|apply nz_key_part]. erewrite andthen_ok by exact H3. apply key_part_inv in H3 as (-> & k' & o & Hk' & Hi & ->).
    apply andthen_zero in H as (pol0 & w4 & H4 & H); [|apply nz_ct_part]. erewrite andthen_ok by exact H4. apply ct_part_inv in H4 as (-> & o4 & Hc & ->).
    apply andthen_zero in H as (s' & w5 & H5 & H); [|apply nz_assert]. erewrite andthen_ok by exact H5. apply assert_inv in H5 as [H5 ->]. apply as_bytes_inv in H5 as ->.
    cbn [policy_read] in Hp. unfold part in Hc. rewrite Hp in Hc. injection Hc as <-.
    apply andthen_zero in H as (q' & w6 & H6 & H); [|apply nz_policy]. erewrite andthen_ok by exact H6. apply lift_inv in H6 as [H6 ->]. rewrite Hq in H6. injection H6 as <-.
    apply andthen_zero in H as ([ok rows] & w7 & H7 & H); [|eapply nz_recover; [apply (law_sort E HE)|exact Hq]]. erewrite andthen_ok by exact H7. apply lift_inv in H7 as [H7 ->].
    destruct ok; cbn [negb] in *; [|destruct H; discriminate].
    destruct (as_attrs E o) as [l|]; [|discriminate]. pose proof (many_rows q r l rows U O H7) as M.
    apply andthen_zero in H as ([[p1 g1s] g2s] & w8 & H8 & _); [|apply nz_cp_loop]. erewrite andthen_ok by exact H8. apply cp_pairs in H8 as [L1 L2]. cbn [length] in L1, L2.
    eapply then_ub. unfold lift. rewrite pairing_overflow by lia. reflexivity.
  - apply andthen_zero in H as (pol0 & w3 & H3 & H); [|apply nz_key_part]. erewrite andthen_ok by exact H3. apply key_part_inv in H3 as (-> & k' & o & Hk' & Hi & ->).
    apply andthen_zero in H as (s' & w5 & H5 & H); [|apply nz_assert]. erewrite andthen_ok by exact H5. apply assert_inv in H5 as [H5 ->]. apply as_bytes_inv in H5 as ->.
    cbn [policy_read] in Hp. destruct Hp as (k2 & Hk2 & Hp). unfold holds in Hk'. cbn [class_map] in Hk'. rewrite Hk2 in Hk'. injection Hk' as <-. unfold part in Hi. rewrite Hp in Hi. injection Hi as <-.
    apply andthen_zero in H as (q' & w6 & H6 & H); [|apply nz_policy]. erewrite andthen_ok by exact H6. apply lift_inv in H6 as [H6 ->]. rewrite Hq in H6. injection H6 as <-.
    apply andthen_zero in H as (l & w4 & H4 & H); [|apply nz_ct_part]. erewrite andthen_ok by exact H4. apply ct_part_inv in H4 as (-> & o4 & Hc & ->).
    apply andthen_zero in H as ([ok rows] & w7 & H7 & H); [|eapply nz_recover; [apply (law_sort E HE)|exact Hq]]. erewrite andthen_ok by exact H7. apply lift_inv in H7 as [H7 ->].
    destruct ok; cbn [negb] in *; [|destruct H; discriminate].
    destruct (as_attrs E o4) as [l|]; [|discriminate]. pose proof (many_rows q r l rows U O H7) as M.
    apply andthen_zero in H as ([[p1 g1s] g2s] & w8 & H8 & _); [|apply nz_kp_loop]. erewrite andthen_ok by exact H8. apply kp_pairs in H8 as [L1 L2]. cbn [length] in L1, L2.
    eapply then_ub. unfold lift. rewrite pairing_overflow by lia. reflexivity.
Qed.
End Room.

(** * C140 *)
(** Stack for one pair of group elements for every leaf is enough, and so is stack in
    proportion to the length of the text of the policy that decryption reads: with it
    every outcome, in any state, is the one of decrypt. *)
Theorem C140_enough_partial : forall E sch mpk kid w room, lawful E -> (forall s, policy_read E sch kid w s -> 32 * len s <= 3 * Z.of_nat room) ->
  decrypt_in E room sch mpk kid w = decrypt E sch mpk kid w.
Proof.
  intros E sch mpk kid w room HE H. unfold decrypt_in, decrypt.
  assert (decrypt_body_in E room sch mpk kid w = decrypt_body E sch mpk kid w) as ->; [|reflexivity]. unfold decrypt_body_in, decrypt_body.
  unfold fresh_sym. unfold andthen at 1. symmetry. unfold andthen at 1. symmetry. unfold andthen at 1. symmetry. unfold andthen at 1. rewrite (kem_enough E HE room sch mpk kid 32 (set_sym E w [])); [reflexivity|].
  intros s Hs. apply H. destruct sch; exact Hs.
Qed.
Print Assumptions C140_enough_partial.
(** When all leaves of the policy are needed, it takes stack for a pair for each of
    them: with less, a decryption that would succeed overflows the stack. *)
Theorem C140_need : forall E sch mpk kid w w' s q r room pt, lawful E -> policy_read E sch kid w s -> create_policy_tree (e_mktime E) s = Ok (Some q) -> usable E q r ->
  only_and r = true -> Z.of_nat room < leaf_count r -> decrypt E sch mpk kid w = (w', Ok (0, pt)) -> snd (decrypt_in E room sch mpk kid w) = UB.
Proof.
  intros E sch mpk kid w w' s q r room pt HE Hp Hq U O Hr H. assert (exists w2, decrypt_kem E sch mpk kid 32 (set_sym E w []) = (w2, Ok 0)) as (w2 & Hk).
  { unfold decrypt, decrypt_body in H. unfold fresh_sym in H. unfold andthen at 1 in H. unfold andthen at 1 in H.
    destruct (decrypt_kem E sch mpk kid 32 (set_sym E w [])) as [w2 x] eqn:Ek. destruct x as [c|x| | |]; try discriminate.
    - destruct (Z.eqb_spec c 0) as [->|N]; [eauto|]. cbn [negb] in H. unfold throw in H. injection H as _ -> _. congruence.
    - destruct sch; cbn [decrypt_kem] in Ek; unfold cp_decrypt_kem, kp_decrypt_kem, catch_code in Ek;
        match type of Ek with (match ?m with _ => _ end) = _ => destruct m as [w3 [c|y| | |]]; try discriminate; destruct y; try discriminate; injection Ek as <- <-; discriminate end. }
  assert (snd (decrypt_kem_in E room sch mpk kid 32 (set_sym E w [])) = UB) as X.
  { apply (kem_overflow E HE room sch mpk kid 32 (set_sym E w []) w2 s q r); [destruct sch; exact Hp|exact Hq|exact U|exact O|unfold leaf_count in Hr; lia|exact Hk]. }
  unfold decrypt_in, decrypt_body_in, fresh_sym. unfold andthen at 1. unfold andthen at 1. destruct (decrypt_kem_in E room sch mpk kid 32 (set_sym E w [])) as [w3 x]. cbn [snd] in X. subst x. reflexivity.
Qed.
Print Assumptions C140_need.

(** ** A policy needing more than any given stack *)
Lemma dec_fuel_length : forall k fuel n acc, 0 <= n < 10 ^ Z.of_nat (S k) -> len (dec_fuel fuel n acc) <= len acc + Z.of_nat (S k).
Proof.
  induction k as [|k IH]; intros [|f] n acc H; cbn [dec_fuel]; try lia.
  - change (10 ^ Z.of_nat 1) with 10 in H. destruct (Z.ltb_spec n 10); [|lia]. unfold len. cbn [length]. lia.
  - destruct (Z.ltb_spec n 10); [unfold len; cbn [length]; lia|]. rewrite Nat2Z.inj_succ, Z.pow_succ_r in H by lia.
    specialize (IH f (n / 10) (digit (n mod 10) :: acc)). assert (0 <= n / 10 < 10 ^ Z.of_nat (S k)) as D by (split; [apply Z.div_pos; lia|apply Z.div_lt_upper_bound; lia]).
    specialize (IH D). unfold len in *. cbn [length] in *. lia.
Qed.
Lemma dec_length : forall k n, 0 <= n < 10 ^ Z.of_nat (S k) -> len (dec n) <= Z.of_nat (S k).
Proof. intros k n H. unfold dec, dec_nat. destruct (Z.ltb_spec n 0); [lia|]. apply (dec_fuel_length k (Z.to_nat (Z.log2 n) + 1) n []). exact H. Qed.

Lemma issues_below : forall d cs ns d', issues d cs ns d' -> forall b, (forall c, 0 <= count_of (dcount d) c <= b) ->
  forall n, In n ns -> 0 <= nindex n < b + Z.of_nat (length cs).
Proof.
  intros d cs ns d' H. induction H as [|d c n d1 cs ns d2 Hl _ IH]; intros b Hb m I; [destruct I|].
  destruct (leaf_inv _ _ _ _ Hl) as (p & a & -> & _ & Ec & _). cbn [length]. destruct I as [<-|I].
  - cbn [nindex Leaf]. specialize (Hb c). lia.
  - assert (0 <= nindex m < (b + 1) + Z.of_nat (length cs)); [|lia]. apply IH; [|exact I]. intro x. rewrite Ec. pose proof (Hb c) as H1. pose proof (Hb x) as H2.
    assert (count_of (mset c (count_of (dcount d) c + 1) (dcount d)) x = if str_eqb x c then count_of (dcount d) c + 1 else count_of (dcount d) x) as ->; [|destruct (str_eqb x c); lia].
    unfold count_of at 1. rewrite mget_set. destruct (str_eqb x c); reflexivity.
Qed.
Lemma leaf_index : forall mktime s q r, create_policy_tree mktime s = Ok (Some q) -> proot q = Some r -> forall n, In n (leaves r) -> 0 <= nindex n < leaf_count r.
Proof.
  intros mktime s q r H R n I. apply create_accept in H as (e & s' & m & d' & _ & _ & _ & _ & _ & M & _ & ->). cbn [made set_policy proot] in R.
  assert (m = r) as -> by (injection R as ->; reflexivity). destruct M as [(cs & (_ & (ns & Is & P)) & _) _].
  pose proof (issues_below _ _ _ _ Is 0) as X. assert (length cs = length ns) as Ln. { pose proof (issues_labels _ _ _ _ Is) as Y. apply (f_equal (@length _)) in Y. rewrite !map_length in Y. lia. }
  unfold leaf_count. rewrite (Permutation_length P), <- Ln. apply X; [|apply (Permutation_in _ P I)]. intro c. cbn. lia.
Qed.

Fixpoint and_formula (f : formula) : bool := match f with FLeaf _ => true | FGate GateAnd _ l => forallb and_formula l | _ => false end.
Lemma and_formula_of : forall n, only_and n = and_formula (formula_of n).
Proof.
  induction n as [g t p l i ks IH] using node_ind2. rewrite Forall_forall in IH. destruct g; cbn; try reflexivity.
  induction ks as [|k ks IHk]; [reflexivity|]. cbn. rewrite IH by (left; reflexivity). rewrite IHk; [reflexivity|]. intros x I. apply IH. right. exact I.
Qed.
Fixpoint formula_labels (f : formula) : list str := match f with FLeaf a => [a] | FGate _ _ l => flat_map formula_labels l end.
Lemma formula_labels_of : forall n, map complete_label (leaves n) = formula_labels (formula_of n).
Proof.
  induction n as [g t p l i ks IH] using node_ind2. rewrite Forall_forall in IH. destruct g; cbn [leaves formula_of formula_labels]; try reflexivity;
    (induction ks as [|k ks IHk]; [reflexivity|]; cbn [flat_map map]; rewrite map_app, IH by (left; reflexivity); rewrite IHk; [reflexivity|]; intros x I; apply IH; right; exact I).
Qed.
Lemma ladder_and : forall k, only_and (ladder k) = true.
Proof. induction k; [reflexivity|]. cbn. rewrite IHk. reflexivity. Qed.
Lemma ladder_count : forall k, length (leaves (ladder k)) = S k.
Proof. induction k; [reflexivity|]. change (leaves (ladder (S k))) with (PropDepth.one :: (leaves (ladder k) ++ [])). rewrite app_nil_r. cbn [length]. rewrite IHk. reflexivity. Qed.
Lemma ladder_sat : forall h k, h (L "a") = true -> sat h (ladder k) = true.
Proof. intros h k H. induction k as [|k IH]; [exact H|]. change (sat h (ladder (S k))) with (h (L "a") && (sat h (ladder k) && true)). rewrite H, IH. reflexivity. Qed.
Lemma ladder_names : forall k, no_percent_names (e_of (ladder k)) = true.
Proof. unfold no_percent_names. induction k as [|k IH]; [reflexivity|]. cbn [ladder e_of names PropDepth.one]. rewrite forallb_app, IH. reflexivity. Qed.

(** The text has 8 characters for a pair.  The policy is "(a and (a and ...))", which a
    key for the single attribute a satisfies. *)
Theorem C140_refuted : forall E room pt, lawful E -> Z.of_nat room < 10 ^ 13 -> len pt < 2147483616 -> exists s q l,
  len s = 8 * Z.of_nat room + 1 /\ create_policy_tree (e_mktime E) s = Ok (Some q) /\ create_attribute_list (e_mktime E) (L "a") = Ok (Some l) /\
  forall mpk msk kid w w1, generate_params E CP mpk msk w = (w1, Ok 0) -> exists w2 w3 w4,
    keygen E CP (InAttrs l) kid mpk msk w1 = (w2, Ok 0) /\ encrypt E CP mpk (InPolicy q) pt w2 = (w3, Ok 0) /\
    decrypt E CP mpk kid w3 = (w4, Ok (0, pt)) /\ snd (decrypt_in E room CP mpk kid w3) = UB.
Proof.
  intros E room pt HE Hroom Hpt. set (n := ladder room). set (s := node_to_string n).
  assert (legal_leaves n) as Lg by (intros a I; rewrite (ladder_leaves _ _ I); split; reflexivity).
  destruct (C16_print_parse (e_mktime E) n (ladder_binary room) Lg) as (q & r & H & R & F & B).
  destruct (e_of_facts (day (e_mktime E)) (last_day (e_mktime E)) n (ladder_binary room) Lg) as (A1 & _ & _ & _ & _ & A6 & _).
  assert (reads (e_of n) s) as Re. { exists []. split; [|left; reflexivity]. unfold s. rewrite <- (app_nil_r (node_to_string n)). apply e_of_text; [apply ladder_binary|exact Lg|reflexivity]. }
  destruct (usable_from_text E s q (e_of n) H Re A1 A6 (ladder_names room)) as (r' & U). assert (r' = r) as -> by (destruct U as [U1 _]; congruence).
  assert (map complete_label (leaves r) = map complete_label (leaves n)) as La by (rewrite !formula_labels_of, F; reflexivity).
  assert (leaf_count r = Z.of_nat room + 1) as Lc. { apply (f_equal (@length _)) in La. rewrite !map_length in La. unfold leaf_count. rewrite La. unfold n. rewrite ladder_count. lia. }
  assert (only_and r = true) as Oa by (rewrite and_formula_of, F, <- and_formula_of; apply ladder_and).
  assert (no_collision (short_label E) (row_names q)) as N2.
  { apply short_names. unfold row_names. rewrite R. intros a I. apply in_map_iff in I as (x & <- & I). pose proof (leaf_index _ _ _ _ H R x I) as Ix. rewrite Lc in Ix.
    assert (complete_label x = L "a") as Ex. { apply (in_map complete_label) in I. rewrite La in I. apply in_map_iff in I as (y & <- & I). rewrite (ladder_leaves _ _ I). reflexivity. }
    unfold unique_label. rewrite Ex. pose proof (dec_length 12 (nindex x)) as D. change (10 ^ Z.of_nat 13) with (10 ^ 13) in D. specialize (D ltac:(lia)).
    destruct (mmem _ _); [|cbn; lia]. unfold len in *. rewrite !app_length. cbn [length]. change (length (L "a")) with 1%nat. change (length (L "%")) with 1%nat. lia. }
  assert (exists l, create_attribute_list (e_mktime E) (L "a") = Ok (Some l) /\ aattrs l = [L "a"]) as (l & Hl & Al) by (eexists; split; vm_compute; reflexivity).
  exists s, q, l. split; [apply ladder_text|]. split; [exact H|]. split; [exact Hl|]. intros mpk msk kid w w1 Hg.
  destruct (cp_generate_ok E HE mpk msk w w1 Hg) as (P & kp & ks & Hp & Hs & Pp & Pm & _).
  destruct (cp_keygen_ok E HE P l kid mpk msk kp ks w1 Hp Hs Pp Pm) as (dec & off & Hk & Pu & _).
  { apply short_names. rewrite Al. intros a [<-|[]]. cbn. lia. }
  match type of Hk with _ = (?ww, _) => set (w2 := ww) in *; exists w2; assert (holds E KEY_PUBLIC mpk kp w2) as Hp2 by exact Hp; assert (holds E KEY_SECRET kid dec w2) as Hd by (unfold holds; cbn; apply mget_mset_same) end.
  destruct (cp_encrypt_ok E HE P q r mpk kp pt w2 Hp2 Pp U N2 Hpt) as (w3 & He & St & Sl & _).
  assert (holds E KEY_SECRET kid dec w3) as Hd3 by (unfold holds in *; rewrite St; exact Hd).
  assert (sat (match_attribute (aattrs l)) r = true) as Sa. { rewrite (sat_formula _ r n B (ladder_binary room) F). apply ladder_sat. rewrite Al. reflexivity. }
  destruct (cp_decrypt_ok E HE P q r (aattrs l) pt kid dec w3 mpk Hd3 Pu Sl U Sa Hpt) as (key & Hx).
  exists w3, (set_sym E w3 key). split; [exact Hk|]. split; [exact He|]. split; [exact Hx|].
  destruct Sl as (z & sh & o & o' & _ & _ & C1 & _). destruct U as (U1 & U2 & U3 & U4 & U5).
  eapply (C140_need E CP mpk kid w3 _ (ptext q) q r room pt HE); [exact C1|exact U5|exact (conj U1 (conj U2 (conj U3 (conj U4 U5))))|exact Oa|lia|exact Hx].
Qed.
Print Assumptions C140_refuted.
(** Two pairs are needed for "a and b": there is enough stack for two but not for one. *)
Definition both := parsed_policy (L "a and b").
Definition both_list := parsed_list (L "|a|b").
Definition w_both := w_enc toy_engine CP (InAttrs both_list) (InPolicy both) (L "hello").
Example C140_nonvacuous : lawful toy_engine /\ (exists w1, generate_params toy_engine CP (L "mpk") (L "msk") (start toy_engine (new_store, 0%nat) (no_ct toy_engine)) = (w1, Ok 0)) /\
  policy_read toy_engine CP (L "alice") w_both (L "a and b") /\ snd (decrypt toy_engine CP (L "mpk") (L "alice") w_both) = Ok (0, L "hello") /\
  snd (decrypt_in toy_engine 2 CP (L "mpk") (L "alice") w_both) = Ok (0, L "hello") /\ snd (decrypt_in toy_engine 1 CP (L "mpk") (L "alice") w_both) = UB /\
  (exists r, usable toy_engine both r /\ only_and r = true /\ leaf_count r = 2) /\ 32 * len (L "a and b") <= 3 * Z.of_nat 80.
Proof.
  split; [exact toy_lawful|]. split; [eexists; rewrite surjective_pairing at 1; f_equal; vm_compute; reflexivity|]. split; [vm_compute; reflexivity|].
  do 3 (split; [vm_compute; reflexivity|]). split; [|vm_compute; congruence].
  destruct (usable_from_text toy_engine (L "a and b") both (EAnd (EAttr (L "a")) (EAttr (L "b")))) as (r & U); [vm_compute; reflexivity| |reflexivity|reflexivity|reflexivity|].
  - apply text_reads, by_lex; [apply good_ptoks|]; vm_compute; reflexivity.
  - exists r. split; [exact U|]. destruct U as (U1 & _). vm_compute in U1. injection U1 as <-. split; reflexivity.
Qed.
