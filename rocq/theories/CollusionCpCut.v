(** Waters CP-ABE: no single computation recovers the key for every choice of the
    random exponents, when no member's attributes satisfy the policy. *)
From Verif Require Import Base StrMap ByteString ByteStringProofs UInteger Field FieldProofs Policy Driver Parser AttrList Utils Kdf KdfProofs Lsss LsssSpec LsssProofs LsssScan LsssShare LsssAlgebra LsssRecover LsssPrivacy LsssFinal SchemeRows Container ContainerSpec ContainerProofs Travel PropUtil Keystore Scheme SchemeSpec SchemeStep SchemeCp CollusionSpec CollusionShape CollusionCp.
From Coq Require Import ZArith Znumtheory List Ascii Bool Lia Permutation.
Import ListNotations.
Open Scope Z_scope.

(** ** Which forms occur where *)
Section Forms.
Context (E : engine).
Lemma d_attrs_get : forall j attrs d name f, mget name (d_attrs E j attrs d) = Some f -> mget name d = Some f \/ exists a, In a attrs /\ f = Xk j a.
Proof.
  intros j attrs. induction attrs as [|a attrs IH]; intros d name f H; [left; exact H|]. cbn [d_attrs] in H. apply IH in H as [H|(b & A & B)]; [|right; exists b; split; [right; exact A|exact B]].
  destruct (str_eq_dec name (element_label (L "KX") (short_label E a))) as [->|N].
  - rewrite mget_mset_same in H. injection H as <-. right. exists a. split; [left; reflexivity|reflexivity].
  - rewrite mget_mset_other in H by exact N. left. exact H.
Qed.
Lemma d_user_get : forall j attrs name f, mget name (d_user E j attrs) = Some f -> f = Yl j \/ f = Yk j \/ f = Plain \/ exists a, In a attrs /\ f = Xk j a.
Proof.
  intros j attrs name f H. unfold d_user in H. apply d_attrs_get in H as [H|H]; [|auto].
  destruct (str_eq_dec name (L "L")) as [->|N1]; [rewrite mget_mset_same in H; injection H as <-; auto|]. rewrite mget_mset_other in H by exact N1.
  destruct (str_eq_dec name (L "K")) as [->|N2]; [rewrite mget_mset_same in H; injection H as <-; auto|]. rewrite mget_mset_other in H by exact N2.
  destruct (str_eq_dec name (L "input")) as [->|N3]; [rewrite mget_mset_same in H; injection H as <-; auto|]. rewrite mget_mset_other in H by exact N3. discriminate.
Qed.
Definition keyed (f : cform) : bool := match f with Xk _ _ | Yk _ | Yl _ => true | _ => false end.
Lemma d_params_get : forall name f, mget name d_params = Some f -> keyed f = false.
Proof.
  intros name f H. unfold d_params in H.
  repeat match type of H with mget name (mset ?k ?x ?m) = _ => let N := fresh in destruct (str_eq_dec name k) as [->|N]; [rewrite mget_mset_same in H; injection H as <-; reflexivity|rewrite mget_mset_other in H by exact N; clear N] end. discriminate.
Qed.
Lemma d_rows_get : forall us i d name f, mget name (d_rows E i us d) = Some f -> mget name d = Some f \/ keyed f = false.
Proof.
  induction us as [|u us IH]; intros i d name f H; [left; exact H|]. cbn [d_rows] in H. apply IH in H as [H|H]; [|auto].
  do 2 match type of H with mget name (mset ?k ?x ?m) = _ => let N := fresh in destruct (str_eq_dec name k) as [->|N]; [rewrite mget_mset_same in H; injection H as <-; right; reflexivity|rewrite mget_mset_other in H by exact N; clear N] end. auto.
Qed.
Lemma d_rows_other : forall us i d name, (forall x y, name <> element_label x y \/ (x <> L "C" /\ x <> L "D")) -> mget name (d_rows E i us d) = mget name d.
Proof.
  induction us as [|u us IH]; intros i d name H; [reflexivity|]. cbn [d_rows]. rewrite IH by exact H.
  rewrite !mget_mset_other; [reflexivity| |]; [destruct (H (L "D") (short_label E u)) as [N|[_ N]]|destruct (H (L "C") (short_label E u)) as [N|[N _]]]; congruence.
Qed.
Lemma d_ct_prime : forall us, mget (L "Cprime") (d_ct E us) = Some Xs.
Proof.
  intro us. unfold d_ct. rewrite mget_mset_other by discriminate. rewrite d_rows_other; [apply mget_mset_same|].
  intros x y. destruct (str_eq_dec x (L "C")) as [->|N1]; [left; discriminate|]. destruct (str_eq_dec x (L "D")) as [->|N2]; [left; discriminate|]. right. auto.
Qed.
Lemma d_ct_get : forall us name f, mget name (d_ct E us) = Some f -> keyed f = false.
Proof.
  intros us name f H. unfold d_ct in H. destruct (str_eq_dec name (L "_ED")) as [->|N]; [rewrite mget_mset_same in H; injection H as <-; reflexivity|]. rewrite mget_mset_other in H by exact N.
  apply d_rows_get in H as [H|H]; [|exact H].
  repeat match type of H with mget name (mset ?k ?x ?m) = _ => let N := fresh in destruct (str_eq_dec name k) as [->|N]; [rewrite mget_mset_same in H; injection H as <-; reflexivity|rewrite mget_mset_other in H by exact N; clear N] end. discriminate.
Qed.
Variables (users : list (str * attrlist)) (us : list str).
Definition attrs_of (j : nat) : list str := match nth_error users j with Some (_, l) => aattrs l | None => [] end.
Lemma forms_get : forall w name f, mget name (forms E users us w) = Some f ->
  match f with Xk j a => In a (attrs_of j) | Yk j => (j < length users)%nat | _ => True end.
Proof.
  intros [|j|] name f H; cbn [forms] in H.
  - apply d_params_get in H. destruct f; try exact Logic.I; discriminate.
  - destruct (nth_error users j) as [[id l]|] eqn:Ej; [|discriminate]. assert (j < length users)%nat as Hj by (apply nth_error_Some; congruence).
    apply d_user_get in H as [->|[->|[->|(a & Ia & ->)]]]; try exact Logic.I; [exact Hj|]. unfold attrs_of. rewrite Ej. exact Ia.
  - apply d_ct_get in H. destruct f; try exact Logic.I; discriminate.
Qed.

(** ** The exponents as polynomials in four unknowns *)
Section Poly.
Variables (nu : str -> Z) (j : nat) (row : nat -> Z).
Section At.
Variables al a sg ta : Z.
Definition n1 (f : cform) : option Z := match f with X0 => Some 1 | Xa => Some a | Xs => Some sg | Xc _ => Some 0 | Xk _ _ => Some 0 | _ => None end.
Definition tj (i : nat) : Z := if Nat.eqb i j then ta else 0.
Definition n2 (f : cform) : option Z := match f with Y0 => Some 1 | Yr i => Some (sg * row i * a) | Yk i => Some (al + tj i * a) | Yl i => Some (tj i) | _ => None end.
Definition nT (f : cform) : option Z := match f with Ta => Some al | _ => None end.
Definition npow (m : move) : Z :=
  match m with
  | Pair x w name c =>
      match (match x with At w' name' => match mget name' (forms E users us w') with Some f => n1 f | None => None end | Hashed m => Some (nu (e_hash E m)) end),
            (match mget name (forms E users us w) with Some f => n2 f | None => None end) with
      | Some a, Some b => c * (a * b) | _, _ => 0 end
  | Take w name c => match (match mget name (forms E users us w) with Some f => nT f | None => None end) with Some a => c * a | None => 0 end
  end.
Definition ntot (attack : list move) : Z := fold_right (fun m acc => npow m + acc) 0 attack.
End At.
End Poly.
(** The exponents of the pairings of C' with the K components. *)
Definition cross (m : move) : option (nat * Z) :=
  match m with
  | Pair (At w' name') w name c =>
      match mget name' (forms E users us w'), mget name (forms E users us w) with Some Xs, Some (Yk i) => Some (i, c) | _, _ => None end
  | _ => None
  end.
Definition cross_all (attack : list move) : Z := fold_right (fun m acc => match cross m with Some (_, c) => c | None => 0 end + acc) 0 attack.
Definition cross_at (j : nat) (attack : list move) : Z := fold_right (fun m acc => match cross m with Some (i, c) => if Nat.eqb i j then c else 0 | None => 0 end + acc) 0 attack.
Lemma diff_all : forall nu j row attack, let T := fun al sg => ntot nu j row al 0 sg 0 attack in T 1 1 - T 0 1 - T 1 0 + T 0 0 = cross_all attack.
Proof.
  intros nu j row. cbv zeta. induction attack as [|m attack IH]; [reflexivity|]. unfold ntot, cross_all in *. cbn [fold_right]. rewrite <- IH.
  assert (forall al sg, npow nu j row al 0 sg 0 m + 0 = npow nu j row al 0 sg 0 m) as _ by (intros; lia).
  enough (npow nu j row 1 0 1 0 m - npow nu j row 0 0 1 0 m - npow nu j row 1 0 0 0 m + npow nu j row 0 0 0 0 m = match cross m with Some (_, c) => c | None => 0 end) by lia.
  destruct m as [[w' name'|ms] w name c|w name c]; cbn [npow cross].
  - destruct (mget name' (forms E users us w')) as [f|]; [|lia]. destruct (mget name (forms E users us w)) as [g|]; [|destruct f; cbn [n1]; lia].
    destruct f; cbn [n1]; try lia; destruct g; cbn [n2]; unfold tj; try destruct (Nat.eqb _ _); lia.
  - destruct (mget name (forms E users us w)) as [g|]; [|lia]. destruct g; cbn [n2]; unfold tj; try destruct (Nat.eqb _ _); lia.
  - destruct (mget name (forms E users us w)) as [g|]; [|lia]. destruct g; cbn [nT]; lia.
Qed.
Lemma diff_at : forall nu j row attack, let T := fun a sg ta => ntot nu j row 0 a sg ta attack in
  (T 1 1 1 - T 0 1 1 - T 1 0 1 + T 0 0 1) - (T 1 1 0 - T 0 1 0 - T 1 0 0 + T 0 0 0) = cross_at j attack.
Proof.
  intros nu j row. cbv zeta. induction attack as [|m attack IH]; [reflexivity|]. unfold ntot, cross_at in *. cbn [fold_right]. rewrite <- IH.
  enough ((npow nu j row 0 1 1 1 m - npow nu j row 0 0 1 1 m - npow nu j row 0 1 0 1 m + npow nu j row 0 0 0 1 m) - (npow nu j row 0 1 1 0 m - npow nu j row 0 0 1 0 m - npow nu j row 0 1 0 0 m + npow nu j row 0 0 0 0 m) = match cross m with Some (i, c) => if Nat.eqb i j then c else 0 | None => 0 end) by lia.
  destruct m as [[w' name'|ms] w name c|w name c]; cbn [npow cross].
  - destruct (mget name' (forms E users us w')) as [f|]; [|lia]. destruct (mget name (forms E users us w)) as [g|]; [|destruct f; cbn [n1]; lia].
    destruct f; cbn [n1]; try lia; destruct g; cbn [n2]; unfold tj; try destruct (Nat.eqb _ _); lia.
  - destruct (mget name (forms E users us w)) as [g|]; [|lia]. destruct g; cbn [n2]; unfold tj; try destruct (Nat.eqb _ _); lia.
  - destruct (mget name (forms E users us w)) as [g|]; [|lia]. destruct g; cbn [nT]; lia.
Qed.
Lemma cross_sum : forall attack, cross_all attack = fold_right (fun j acc => cross_at j attack + acc) 0 (seq 0 (length users)).
Proof.
  induction attack as [|m attack IH].
  - cbn. induction (seq 0 (length users)) as [|x l IH]; [reflexivity|]. cbn [fold_right]. lia.
  - unfold cross_all, cross_at in *. cbn [fold_right]. rewrite IH.
    assert (forall (f g : nat -> Z) l, fold_right (fun j acc => f j + g j + acc) 0 l = fold_right (fun j acc => f j + acc) 0 l + fold_right (fun j acc => g j + acc) 0 l) as Add
      by (intros f g; induction l as [|x l IHl]; [reflexivity|cbn [fold_right]; lia]).
    rewrite Add. f_equal. destruct (cross m) as [[i c]|] eqn:Ec.
    + assert (i < length users)%nat as Hi.
      { destruct m as [[w' name'|ms] w name c'|w name c']; cbn [cross] in Ec; try discriminate.
        destruct (mget name' (forms E users us w')) as [f|]; [|discriminate]. destruct (mget name (forms E users us w)) as [g|] eqn:Eg; [|destruct f; discriminate].
        destruct f; try discriminate. destruct g; try discriminate. injection Ec as <- <-. apply forms_get in Eg. exact Eg. }
      assert (forall k s, fold_right (fun j acc => (if Nat.eqb i j then c else 0) + acc) 0 (seq s k) = if (s <=? i)%nat && (i <? s + k)%nat then c else 0) as G.
      { induction k as [|k IHk]; intro s; cbn [seq fold_right].
        - destruct (s <=? i)%nat eqn:X; destruct (i <? s + 0)%nat eqn:Y; try reflexivity. apply Nat.leb_le in X. apply Nat.ltb_lt in Y. lia.
        - rewrite IHk. destruct (Nat.eqb_spec i s) as [->|N].
          + rewrite Nat.leb_refl. replace (S s <=? s)%nat with false by (symmetry; apply Nat.leb_gt; lia). replace (s <? s + S k)%nat with true by (symmetry; apply Nat.ltb_lt; lia). cbn [andb]. lia.
          + replace (S s + k)%nat with (s + S k)%nat by lia. replace (S s <=? i)%nat with (s <=? i)%nat by (destruct (s <=? i)%nat eqn:X; symmetry; [apply Nat.leb_le; apply Nat.leb_le in X; lia|apply Nat.leb_gt; apply Nat.leb_gt in X; lia]). lia. }
      rewrite G. cbn [Nat.leb Nat.add]. replace (i <? length users)%nat with true by (symmetry; apply Nat.ltb_lt; lia). reflexivity.
    + generalize (seq 0 (length users)). induction l as [|x l IHl]; [reflexivity|]. cbn [fold_right]. lia.
Qed.
End Forms.

(** ** The family of random choices *)
Section Cut.
Context (E : engine) (HE : lawful E) (Hp : 2 < order (e_curve E)).
Notation p := (order (e_curve E)).
Variables (mpk msk : str) (users : list (str * attrlist)) (q : policy) (r : node) (pt : str) (x0 : context E).
Hypothesis names_new : names_free (fst x0) mpk msk = true.
Hypothesis ids_differ : NoDup (map fst users).
Hypothesis ids_msk : ~ In msk (map fst users).
Hypothesis pt_short : len pt < 2147483616.
Hypothesis q_root : proot q = Some r.
Notation o := (snd x0).
Notation B := (o + 7 + 2 * length users)%nat.
Notation off := (S B + ndraws r)%nat.
Notation k := (e_bytes E (o + 6) 32).
Notation base := (pair E (e_g1 E (o + 2)) (e_g2 E (o + 3))).
Section One.
Variables (j : nat) (hide : nat -> Z) (R0 R1 : rowmap).
Notation A := (attrs_of users j).
Hypothesis rows0 : forall t, (forall i, (S B <= i < S B + ndraws r)%nat -> eqm p (t i) 0) -> exists l, share_secret false p lsss_new q 0 t (S B) = Ok (l, off) /\ l_rows l = R0.
Hypothesis rows1 : forall t, (forall i, (S B <= i < S B + ndraws r)%nat -> eqm p (t i) (hide i)) -> exists l, share_secret false p lsss_new q 1 t (S B) = Ok (l, off) /\ l_rows l = R1.
Hypothesis same_rows : skeleton R1 = skeleton R0.
Hypothesis zeros : forall u lab e, In (u, (lab, e)) R0 -> e = 0.
Hypothesis hidden : forall u lab e, In (u, (lab, e)) R1 -> match_attribute A lab = true -> e = 0.
Hypothesis labels : forall u lab e, In (u, (lab, e)) R0 -> In lab (map complete_label (leaves r)).
Hypothesis digests : forall a b, In a A -> In b (map complete_label (leaves r)) -> e_hash E (k ++ a) = e_hash E (k ++ b) -> a = b.

Definition row (i : nat) : Z := match nth_error R1 i with Some (_, (_, e)) => e | None => 0 end.
Definition nu (h : str) : Z := if existsb (fun a => str_eqb h (e_hash E (k ++ a))) A then 0 else 1.
Variables al a sg ta : Z.
Hypothesis bits : In al [0; 1] /\ In a [0; 1] /\ In sg [0; 1] /\ In ta [0; 1].
Definition tape (i : nat) : Z :=
  if Nat.eqb i (o + 4) then al else if Nat.eqb i (o + 5) then a else if Nat.ltb i B then (if Nat.eqb i (o + 8 + 2 * j) then ta else 0)
  else if Nat.eqb i B then sg else if Nat.ltb i off then sg * hide i else sg * row (i - off) * a.
Definition points (h : str) : g1 (e_curve E) := mul1 E (nu h) (e_g1 E (o + 2)).
Notation E' := (reroll E tape points).
Definition rows : rowmap := if sg =? 0 then R0 else R1.
Definition env : cenv E' :=
  {| vP := cp_drawn E' o; vs := sg; vt := tj j ta; vrow := fun i => match nth_error rows i with Some (_, x) => x | None => ([], 0) end; vr := fun i => (sg * row i * a) mod p |}.

Lemma bit_mod : forall b, In b [0; 1] -> b mod p = b.
Proof. intros b [<-|[<-|[]]]; apply Z.mod_small; lia. Qed.
Lemma tape_al : tape (o + 4) = al. Proof. unfold tape. rewrite Nat.eqb_refl. reflexivity. Qed.
Lemma tape_a : tape (o + 5) = a. Proof. unfold tape. rewrite Nat.eqb_refl. replace (Nat.eqb (o + 5) (o + 4)) with false by (symmetry; apply Nat.eqb_neq; lia). reflexivity. Qed.
Lemma tape_t : forall i, (i < length users)%nat -> tape (o + 8 + 2 * i) = tj j ta i.
Proof.
  intros i Hi. unfold tape, tj. replace (Nat.eqb (o + 8 + 2 * i) (o + 4)) with false by (symmetry; apply Nat.eqb_neq; lia). replace (Nat.eqb (o + 8 + 2 * i) (o + 5)) with false by (symmetry; apply Nat.eqb_neq; lia).
  replace (Nat.ltb (o + 8 + 2 * i) B) with true by (symmetry; apply Nat.ltb_lt; lia). destruct (Nat.eqb_spec i j) as [->|N]; [rewrite Nat.eqb_refl; reflexivity|].
  replace (Nat.eqb (o + 8 + 2 * i) (o + 8 + 2 * j)) with false by (symmetry; apply Nat.eqb_neq; lia). reflexivity.
Qed.
Lemma tape_late : forall i, (o + 6 <= i)%nat -> (B <= i)%nat -> tape i = if Nat.eqb i B then sg else if Nat.ltb i off then sg * hide i else sg * row (i - off) * a.
Proof.
  intros i H1 H2. unfold tape. replace (Nat.eqb i (o + 4)) with false by (symmetry; apply Nat.eqb_neq; lia). replace (Nat.eqb i (o + 5)) with false by (symmetry; apply Nat.eqb_neq; lia).
  replace (Nat.ltb i B) with false by (symmetry; apply Nat.ltb_ge; lia). reflexivity.
Qed.
Lemma tape_s : tape B = sg. Proof. rewrite tape_late by lia. rewrite Nat.eqb_refl. reflexivity. Qed.
Lemma tape_share : forall i, (S B <= i < off)%nat -> tape i = sg * hide i.
Proof. intros i Hi. rewrite tape_late by lia. replace (Nat.eqb i B) with false by (symmetry; apply Nat.eqb_neq; lia). replace (Nat.ltb i off) with true by (symmetry; apply Nat.ltb_lt; lia). reflexivity. Qed.
Lemma tape_r : forall i, tape (off + i) = sg * row i * a.
Proof.
  intro i. rewrite tape_late by lia. replace (Nat.eqb (off + i) B) with false by (symmetry; apply Nat.eqb_neq; lia). replace (Nat.ltb (off + i) off) with false by (symmetry; apply Nat.ltb_ge; lia).
  replace (off + i - off)%nat with i by lia. reflexivity.
Qed.
Lemma shared : exists sh, share_secret false p lsss_new q sg tape (S B) = Ok (sh, off) /\ l_rows sh = rows.
Proof.
  destruct bits as (_ & _ & [Sg|[Sg|[]]] & _); unfold rows; rewrite <- Sg; cbn [Z.eqb].
  - apply rows0. intros i Hi. rewrite tape_share, <- Sg by lia. reflexivity.
  - apply rows1. intros i Hi. rewrite tape_share, <- Sg by lia. unfold eqm. f_equal. lia.
Qed.
Lemma rows_share : forall i u lab e, nth_error rows i = Some (u, (lab, e)) -> e = sg * row i.
Proof.
  intros i u lab e H. unfold rows in H. destruct bits as (_ & _ & [Sg|[Sg|[]]] & _); rewrite <- Sg in H |- *; cbn [Z.eqb] in H.
  - rewrite Z.mul_0_l. eapply zeros. eapply nth_error_In. exact H.
  - unfold row. rewrite H. lia.
Qed.
Lemma rows_held : forall i u lab e, nth_error rows i = Some (u, (lab, e)) -> e = 0 \/ nu (e_hash E (k ++ lab)) = 1.
Proof.
  intros i u lab e H. unfold nu. match goal with |- context [if ?c then _ else _] => destruct c eqn:X end; [|auto]. left. apply existsb_exists in X as (x & Ix & Hx). apply str_eqb_eq in Hx.
  unfold rows in H. destruct bits as (_ & _ & [Sg|[Sg|[]]] & _); rewrite <- Sg in H; cbn [Z.eqb] in H; [eapply zeros; eapply nth_error_In; exact H|].
  apply nth_error_In in H as I0. apply (hidden _ _ _ I0). unfold match_attribute. apply existsb_exists. exists x. split; [exact Ix|]. apply str_eqb_eq. symmetry. apply digests; [exact Ix| |auto].
  destruct (skeleton_nth R1 R0 i u lab e same_rows H) as (e' & N). apply nth_error_In in N. eapply labels. exact N.
Qed.
Lemma val1_ok : forall w name f, mget name (forms E users (map fst rows) w) = Some f ->
  match val1 E' nu env f, n1 a sg f with Some x, Some y => eqm p x y | None, None => True | _, _ => False end.
Proof.
  intros w name f H. pose proof (prime_ge_2 _ (law_prime E HE)). destruct f; cbn [val1 n1]; try exact Logic.I; try reflexivity.
  - cbn. rewrite tape_a. unfold eqm. rewrite (Z.mod_mod a) by lia. reflexivity.
  - cbn [vrow vr vP env cp_drawn Pa e_zp e_curve order reroll]. rewrite tape_a.
    unfold hv. cbn [vP env cp_drawn Pk e_bytes e_hash reroll]. destruct bits as (_ & Ba & _ & _). rewrite (bit_mod _ Ba).
    destruct (nth_error rows i) as [[u [lab e]]|] eqn:N; cbn [fst snd].
    + rewrite <- (rows_share _ _ _ _ N). unfold fneg, eqm. destruct (rows_held _ _ _ _ N) as [Z0|Z0]; rewrite Z0.
      * cbn [e_curve reroll]. replace (0 * a) with 0 by lia. rewrite Z.mod_0_l by lia. change (- 0) with 0. rewrite Z.mod_0_l by lia. reflexivity.
      * rewrite Z.mul_1_r. rewrite Zplus_mod, Zmod_mod. rewrite <- Zplus_mod. 
        replace (e * a) with (e * a mod p + p * (e * a / p)) at 1 by (rewrite Z.add_comm; symmetry; apply Z.div_mod; lia).
        replace (e * a mod p + p * (e * a / p) + - (e * a mod p)) with ((e * a / p) * p) by lia. rewrite Z.mod_mul, Z.mod_0_l by lia. reflexivity.
    + assert (sg * row i * a = 0) as ->; [|cbn [e_curve reroll]; rewrite Z.mod_0_l by lia; unfold fneg; change (- 0) with 0; rewrite Z.mod_0_l by lia; reflexivity].
      assert (row i = 0 \/ sg = 0) as [Z0|Z0]; [|rewrite Z0; lia|rewrite Z0; lia]. unfold rows in N. destruct bits as (_ & _ & [Sg|[Sg|[]]] & _); rewrite <- Sg in N; cbn [Z.eqb] in N; [auto|]. left. unfold row. rewrite N. reflexivity.
  - apply forms_get in H. unfold hv. cbn [vP env cp_drawn Pk e_bytes e_hash reroll vt]. unfold tj. destruct (Nat.eqb_spec j0 j) as [->|N]; [|reflexivity].
    assert (nu (e_hash E (k ++ a0)) = 0) as ->; [|rewrite Z.mul_0_r; reflexivity]. unfold nu. match goal with |- context [if ?c then _ else _] => replace c with true; [reflexivity|symmetry] end. apply existsb_exists. exists a0. split; [exact H|apply str_eqb_refl].
Qed.
Lemma val2_ok : forall f, match val2 E' env f, n2 j row al a sg ta f with Some x, Some y => eqm p x y | None, None => True | _, _ => False end.
Proof.
  intro f. pose proof (prime_ge_2 _ (law_prime E HE)). destruct bits as (B1 & B2 & _). destruct f; cbn [val2 n2]; try exact Logic.I; try reflexivity.
  - cbn [vr env]. unfold eqm. apply Zmod_mod.
  - cbn [vt vP env cp_drawn Pa Palpha e_zp reroll e_curve]. rewrite tape_al, tape_a, (bit_mod _ B1), (bit_mod _ B2). reflexivity.
Qed.
Lemma power_ok : forall m, eqm p (power E' nu env users (map fst rows) m) (npow E users (map fst rows) nu j row al a sg ta m).
Proof.
  assert (forall c x x' y y', eqm p x x' -> eqm p y y' -> eqm p (c * (x * y)) (c * (x' * y'))) as M.
  { intros c x x' y y' X Y. unfold eqm in *. rewrite (Zmult_mod c (x * y)), (Zmult_mod x y), X, Y, <- (Zmult_mod x' y'), <- Zmult_mod. reflexivity. }
  intros [x w name c|w name c]; cbn [power npow].
  - assert (match ex1 E' nu env users (map fst rows) x, (match x with At w' name' => match mget name' (forms E users (map fst rows) w') with Some f => n1 a sg f | None => None end | Hashed m => Some (nu (e_hash E m)) end) with Some x, Some y => eqm p x y | None, None => True | _, _ => False end) as X.
    { destruct x as [w' name'|m]; cbn [ex1]; [|reflexivity]. change (forms E' users (map fst rows) w') with (forms E users (map fst rows) w'). destruct (mget name' (forms E users (map fst rows) w')) as [f|] eqn:F; [|exact Logic.I]. eapply val1_ok. exact F. }
    unfold ex2. change (forms E' users (map fst rows) w) with (forms E users (map fst rows) w). destruct (mget name (forms E users (map fst rows) w)) as [g|].
    + pose proof (val2_ok g) as Y. destruct (ex1 E' nu env users (map fst rows) x); match type of X with match ?z with _ => _ end => destruct z end; try contradiction; try reflexivity;
        destruct (val2 E' env g); destruct (n2 j row al a sg ta g); try contradiction; try reflexivity. apply M; assumption.
    + destruct (ex1 E' nu env users (map fst rows) x); match type of X with match ?z with _ => _ end => destruct z end; reflexivity.
  - unfold exT. change (forms E' users (map fst rows) w) with (forms E users (map fst rows) w). destruct (mget name (forms E users (map fst rows) w)) as [g|]; [|reflexivity]. destruct g; cbn [valT nT]; try reflexivity.
    cbn [vP env cp_drawn Palpha e_zp reroll e_curve]. rewrite tape_al, (bit_mod al) by apply bits. reflexivity.
Qed.
Lemma total_ok : forall attack, eqm p (total E' nu env users (map fst rows) attack) (ntot E users (map fst rows) nu j row al a sg ta attack).
Proof.
  unfold total, ntot. induction attack as [|m attack IH]; [reflexivity|]. cbn [fold_right]. pose proof (power_ok m) as M. unfold eqm in *. rewrite Zplus_mod, M, IH, <- Zplus_mod. reflexivity.
Qed.
Lemma realised : forall attack, exists h key, coalition E' CP mpk msk (with_lists users) (InPolicy q) pt x0 h key /\ secret_of E' CP h (expT E (sg * al) base) /\ key = derived E (expT E (sg * al) base) /\
  exists t, outcome E' h attack = expT E t base /\ eqm p t (ntot E users (map fst rows) nu j row al a sg ta attack).
Proof.
  intro attack. destruct bits as (B1 & B2 & B3 & B4). destruct shared as (sh & Es & Er). pose proof (reroll_lawful E tape points HE) as HE'.
  destruct (both_new_free E' mpk msk (start E' x0 (no_ct E'))) as (w1 & Eb). assert (names_free (w_store E' (start E' x0 (no_ct E'))) mpk msk = true) as Nf by exact names_new. rewrite Nf in Eb.
  destruct (cp_coalition E' HE' mpk msk users q pt x0 w1 sh off Eb ids_differ ids_msk pt_short) as (h & key & C1 & C2 & C3).
  { cbn [e_zp reroll e_curve]. rewrite tape_s, (bit_mod _ B3). exact Es. }
  cbn [e_zp reroll e_curve] in C2, C3. rewrite tape_s, tape_al, (bit_mod _ B3), (bit_mod _ B1) in C2.
  exists h, key. split; [exact C1|].
  destruct (C3 env) as (D1 & D2 & D3 & D4).
  - reflexivity.
  - cbn [vs env]. rewrite tape_s. symmetry. apply bit_mod, B3.
  - intros i Hi. cbn [vt env]. rewrite tape_t by exact Hi. symmetry. unfold tj. destruct (Nat.eqb i j); [apply bit_mod, B4|apply bit_mod; left; reflexivity].
  - intros i u lab e N. cbn [vrow vr env]. rewrite Er in N. rewrite N. split; [reflexivity|]. rewrite tape_r. reflexivity.
  - rewrite Er in D4. split.
    { cbn [secret_of]. pose proof (D1 (L "g1")) as (o1 & G1 & F1). pose proof (D1 (L "A")) as (o2 & G2 & F2). pose proof (D4 (L "Cprime")) as G3. rewrite d_ct_prime in G3. destruct G3 as (o3 & G3 & F3).
      cbn [cfits] in F1, F2, F3. subst o1 o2 o3. eexists _, _, sg. unfold read, place_of. split; [exact (f_equal (fun x => match x with Some o => o | None => None end) G1)|]. split; [exact (f_equal (fun x => match x with Some o => o | None => None end) G2)|]. split; [exact (f_equal (fun x => match x with Some o => o | None => None end) G3)|].
      unfold cp_base. cbn [vP env cp_drawn Palpha P1 P2 e_zp e_g1 e_g2 expT pair reroll e_curve]. rewrite tape_al, (bit_mod _ B1), (law_expT_mul E HE). reflexivity. }
    split; [rewrite C2; unfold derived; cbn [expT pair e_g1 e_g2 reroll]; rewrite (law_expT_mul E HE); reflexivity|].
    exists (total E' nu env users (map fst rows) attack). split; [|apply total_ok]. rewrite (outcome_ok E' HE' nu env (fun _ => eq_refl) users (map fst rows) h D1 D2 D3 D4 attack). reflexivity.
Qed.
End One.

Hypothesis full_order : nondegenerate E.
Hypothesis r_binary : binary r = true.
Hypothesis nobody : forall id l, In (id, l) users -> sat (match_attribute (aattrs l)) r = false.
Hypothesis no_clash : forall id l a b, In (id, l) users -> In a (aattrs l) -> In b (map complete_label (leaves r)) -> e_hash E (k ++ a) = e_hash E (k ++ b) -> a = b.
Definition cut (attack : list move) : Prop :=
  exists zp map h key C, coalition (reroll E zp map) CP mpk msk (with_lists users) (InPolicy q) pt x0 h key /\ secret_of (reroll E zp map) CP h C /\ key = derived E C /\ outcome (reroll E zp map) h attack <> C.
Lemma cp_try : forall us attack, (forall sh off', share_secret false p lsss_new q 0 (fun _ => 0) (S B) = Ok (sh, off') -> us = map fst (l_rows sh)) ->
  forall j, cut attack \/ (cross_at E users us j attack mod p = 0 /\ cross_all E users us attack mod p = 1).
Proof.
  intros us attack Hus j. pose proof (law_prime E HE) as Pp. pose proof (prime_ge_2 _ Pp).
  assert (forall i l, nth_error users i = Some l -> In l users) as NI by (intros i l X; eapply nth_error_In; exact X).
  destruct (hidden_rows p Pp (match_attribute (attrs_of users j)) q r (S B) q_root) as (hide & R0 & R1 & S0 & S1 & Sk & Zr & Hd & Lb).
  { apply and_or_shareable. apply binary_and_or. exact r_binary. }
  { apply binary_fanout; [exact Hp|exact r_binary]. }
  { unfold attrs_of. destruct (nth_error users j) as [[id l]|] eqn:N; [eapply nobody; eapply NI; exact N|apply sat_none; exact r_binary]. }
  assert (forall a b, In a (attrs_of users j) -> In b (map complete_label (leaves r)) -> e_hash E (k ++ a) = e_hash E (k ++ b) -> a = b) as Dg.
  { intros a b Ia. unfold attrs_of in Ia. destruct (nth_error users j) as [[id l]|] eqn:N; [|destruct Ia]. eapply no_clash; [eapply NI; exact N|exact Ia]. }
  assert (us = map fst R0) as U0. { destruct (S0 (fun _ => 0)) as (sh & Es & <-); [intros i Hi; reflexivity|]. eapply Hus. exact Es. }
  assert (forall sg, map fst (rows R0 R1 sg) = us) as U1 by (intro sg; unfold rows; destruct (sg =? 0); [symmetry; exact U0|rewrite U0; apply skeleton_fst; exact Sk]).
  pose (bit2 := [0; 1]). pose (points4 := list_prod (list_prod bit2 bit2) (list_prod bit2 bit2)).
  pose (nt := fun x : (Z * Z) * (Z * Z) => let '((al, a), (sg, ta)) := x in ntot E users us (nu j) j (row R1) al a sg ta attack).
  pose (test := fun x : (Z * Z) * (Z * Z) => nt x mod p =? (fst (snd x) * fst (fst x)) mod p).
  destruct (forallb test points4) eqn:F.
  - right. rewrite forallb_forall in F.
    assert (forall al a sg ta, In al [0; 1] -> In a [0; 1] -> In sg [0; 1] -> In ta [0; 1] -> exists n, ntot E users us (nu j) j (row R1) al a sg ta attack = sg * al + p * n) as Q.
    { intros al a sg ta A1 A2 A3 A4. assert (test ((al, a), (sg, ta)) = true) as T by (apply F; apply in_prod; apply in_prod; assumption).
      unfold test, nt in T. cbn [fst snd] in T. apply Z.eqb_eq in T. set (N0 := ntot _ _ _ _ _ _ _ _ _ _ _) in *.
      exists ((N0 - sg * al) / p). enough ((N0 - sg * al) mod p = 0) as M by (apply Z.mod_divide in M; [|lia]; destruct M as [m M]; rewrite M, Z.div_mul by lia; lia).
      rewrite Zminus_mod, T, Z.sub_diag. apply Z.mod_0_l. lia. }
    pose proof (diff_all E users us (nu j) j (row R1) attack) as DA. pose proof (diff_at E users us (nu j) j (row R1) attack) as DB. cbv beta zeta in DA, DB.
    assert (In 0 [0; 1]) as I0 by (left; reflexivity). assert (In 1 [0; 1]) as I1 by (right; left; reflexivity).
    destruct (Q 1 0 1 0 I1 I0 I1 I0) as (n1 & E1). destruct (Q 0 0 1 0 I0 I0 I1 I0) as (n2 & E2). destruct (Q 1 0 0 0 I1 I0 I0 I0) as (n3 & E3). destruct (Q 0 0 0 0 I0 I0 I0 I0) as (n4 & E4).
    destruct (Q 0 1 1 1 I0 I1 I1 I1) as (m1 & F1). destruct (Q 0 0 1 1 I0 I0 I1 I1) as (m2 & F2). destruct (Q 0 1 0 1 I0 I1 I0 I1) as (m3 & F3). destruct (Q 0 0 0 1 I0 I0 I0 I1) as (m4 & F4).
    destruct (Q 0 1 1 0 I0 I1 I1 I0) as (m5 & F5). destruct (Q 0 1 0 0 I0 I1 I0 I0) as (m6 & F6).
    rewrite E1, E2, E3, E4 in DA. rewrite F1, F2, F3, F4, F5, F6, E2, E4 in DB.
    split; [rewrite <- DB|rewrite <- DA].
    + match goal with |- ?x mod p = 0 => replace x with ((m1 - m2 - m3 + m4 - m5 + n2 + m6 - n4) * p) by ring end. apply Z.mod_mul. lia.
    + match goal with |- ?x mod p = 1 => replace x with (1 + (n1 - n2 - n3 + n4) * p) by ring end. rewrite Z.mod_add by lia. apply Z.mod_small. lia.
  - left. assert (exists x, In x points4 /\ test x = false) as ([[al a] [sg ta]] & Ix & T).
    { apply some_fails. intro G. apply not_true_iff_false in F. apply F, forallb_forall, G. }
    apply in_prod_iff in Ix as [Ix1 Ix2]. apply in_prod_iff in Ix1 as [A1 A2]. apply in_prod_iff in Ix2 as [A3 A4].
    destruct (realised j hide R0 R1 S0 S1 Sk Zr Hd Lb Dg al a sg ta (conj A1 (conj A2 (conj A3 A4))) attack) as (h & key & C1 & C0 & C2 & t & C3 & C4).
    eexists _, _, h, key, _. split; [exact C1|]. split; [exact C0|]. split; [exact C2|]. rewrite C3. intro X. apply (powers_equal E HE) in X; [|apply full_order].
    unfold test, nt in T. cbn [fst snd] in T. apply Z.eqb_neq in T. apply T. unfold eqm in C4. rewrite (U1 sg) in C4. rewrite <- C4. exact X.
Qed.
Lemma cp_cut : forall attack, cut attack.
Proof.
  intro attack. pose proof (law_prime E HE) as Pp. pose proof (prime_ge_2 _ Pp).
  assert (exists sh, share_secret false p lsss_new q 0 (fun _ => 0) (S B) = Ok (sh, off)) as (sh & Es).
  { eexists. apply LsssRecover.share_ok; [exact q_root|]. apply and_or_shareable. apply binary_and_or. exact r_binary. }
  set (us := map fst (l_rows sh)).
  pose proof (cp_try us attack (fun sh' off' X => ltac:(rewrite Es in X; injection X as <- _; reflexivity))) as T.
  assert (forall l, cut attack \/ forall j, In j l -> cross_at E users us j attack mod p = 0) as G.
  { induction l as [|j l IH]; [right; intros j []|]. destruct (T j) as [C|[C _]]; [left; exact C|]. destruct IH as [D|D]; [left; exact D|]. right. intros i [<-|Ii]; auto. }
  destruct (G (seq 0 (length users))) as [C|C]; [exact C|]. destruct (T 0%nat) as [D|[_ D]]; [exact D|]. exfalso.
  rewrite cross_sum in D. assert (forall l, (forall j, In j l -> cross_at E users us j attack mod p = 0) -> fold_right (fun j acc => cross_at E users us j attack + acc) 0 l mod p = 0) as S0.
  { induction l as [|j l IH]; intro Hl; cbn [fold_right]; [apply Z.mod_0_l; lia|]. rewrite Zplus_mod, Hl, IH; [apply Z.mod_0_l; lia| |left; reflexivity]. intros i Ii. apply Hl. right. exact Ii. }
  rewrite (S0 _ C) in D. discriminate.
Qed.
End Cut.
