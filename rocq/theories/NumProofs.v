(** Trees built for numeric comparisons, names and leaves. *)
From Verif Require Import Base ByteString StrMap Dec UInteger Policy LsssSpec Scanner PolicySyntax Lexical PolicyMeaning Driver.
From Coq Require Import ZArith List Ascii Bool Lia ZifyBool ZifyNat Permutation.
Import ListNotations.
Open Scope Z_scope.

(** ** Names *)
Lemma colon_eqb : forall c, ascii_eqb c colon = Ascii.eqb c colon.
Proof. reflexivity. Qed.

Lemma split_join : forall s cur, tidy_from (match cur with [] => true | _ => false end) s = true ->
  split_acc colon cur s <> [] /\ join (split_acc colon cur s) = rev cur ++ s.
Proof.
  induction s as [|c s IH]; intros cur H.
  - cbn in H. destruct cur as [|x cur]; [discriminate|]. cbn [split_acc join]. rewrite app_nil_r. split; [discriminate|reflexivity].
  - cbn [tidy_from] in H. cbn [split_acc]. rewrite colon_eqb. destruct (Ascii.eqb c colon) eqn:E.
    + destruct cur as [|x cur]; [discriminate|]. cbn [negb andb] in H.
      destruct (IH [] H) as [N J]. split; [discriminate|].
      destruct (split_acc colon [] s) as [|y l] eqn:Es; [congruence|].
      change (join (rev (x :: cur) :: y :: l)) with (rev (x :: cur) ++ [colon] ++ join (y :: l)). cbn [rev app] in J. rewrite J. apply Ascii.eqb_eq in E. subst c. reflexivity.
    + destruct (IH (c :: cur)) as [N J]; [exact H|]. split; auto. rewrite J. cbn [rev]. rewrite <- app_assoc. reflexivity.
Qed.
Lemma split_nonempty : forall s cur, cur <> [] -> split_acc colon cur s <> [].
Proof.
  induction s as [|c s IH]; intros cur H; cbn [split_acc].
  - destruct cur; [congruence|discriminate].
  - destruct (ascii_eqb c colon); [destruct cur; [congruence|discriminate]|apply IH; discriminate].
Qed.
Lemma split_items : forall s cur x, In x (split_acc colon cur s) -> x <> [].
Proof.
  induction s as [|c s IH]; intros cur x H; cbn [split_acc] in H.
  - destruct cur as [|y cur]; [destruct H|]. destruct H as [<-|[]]. cbn [rev]. intro E. apply (f_equal (@length ascii)) in E.
    rewrite app_length in E. cbn in E. lia.
  - destruct (ascii_eqb c colon).
    + destruct cur as [|y cur]; [eapply IH; eauto|]. destruct H as [<-|H]; [|eapply IH; eauto].
      cbn [rev]. intro E. apply (f_equal (@length ascii)) in E. rewrite app_length in E. cbn in E. lia.
    + eapply IH; eauto.
Qed.

(** The name begins with something other than a colon. *)
Definition starts_ok (s : str) : bool := match s with [] => false | c :: _ => negb (Ascii.eqb c colon) end.
Lemma check_total : forall c, starts_ok c = true -> exists p a, check_attribute c = Ok (p, a).
Proof.
  intros c H. unfold check_attribute. destruct (existsb (fun x => ascii_eqb x colon) c); [|eauto].
  destruct c as [|x c]; [discriminate|]. cbn [starts_ok] in H. unfold Driver.split. cbn [split_acc]. rewrite colon_eqb.
  destruct (Ascii.eqb x colon); [discriminate|].
  pose proof (split_nonempty c [x] ltac:(discriminate)) as N. destruct (split_acc colon [x] c); [congruence|]. eauto.
Qed.
Lemma tidy_starts : forall c, tidy c = true -> starts_ok c = true.
Proof.
  intros [|c s] H; [discriminate|]. unfold tidy in H. cbn [tidy_from starts_ok] in *. destruct (Ascii.eqb c colon); [discriminate|reflexivity].
Qed.

Lemma split_two : forall s cur, existsb (fun x => ascii_eqb x colon) s = true -> tidy_from (match cur with [] => true | _ => false end) s = true ->
  (2 <= length (split_acc colon cur s))%nat.
Proof.
  induction s as [|x s IH]; intros cur E H; [discriminate|]. cbn [existsb tidy_from split_acc] in *.
  rewrite colon_eqb in *. destruct (Ascii.eqb x colon).
  - destruct cur as [|z cur]; [discriminate|]. cbn [negb andb] in H. destruct (split_join s [] H) as [N _].
    cbn [length]. destruct (split_acc colon [] s); [congruence|]. cbn. lia.
  - cbn [orb] in E. apply (IH (x :: cur) E H).
Qed.

Definition label (c : str) : str :=
  match check_attribute c with Ok (p, a) => complete_label (Leaf p a 0) | _ => [] end.
Lemma label_index : forall p a i j, complete_label (Leaf p a i) = complete_label (Leaf p a j).
Proof. reflexivity. Qed.
Lemma label_tidy : forall c, tidy c = true -> label c = c.
Proof.
  intros c H. unfold label, check_attribute.
  destruct (existsb (fun x => ascii_eqb x colon) c) eqn:E; [|reflexivity].
  destruct (split_join c [] H) as [N J]. cbn [rev app] in J. unfold Driver.split.
  destruct (split_acc colon [] c) as [|p l] eqn:Es; [congruence|].
  assert (p <> []) as Np by (apply (split_items c []); rewrite Es; left; reflexivity).
  destruct p as [|p0 p]; [congruence|]. unfold complete_label. cbn [nprefix Leaf nlabel].
  destruct l as [|y l].
  - pose proof (split_two c [] E H) as G. rewrite Es in G. cbn in G. lia.
  - cbn [join] in J. exact J.
Qed.

Lemma tidy_from_app : forall s b t, forallb (fun x => negb (Ascii.eqb x colon)) t = true -> t <> [] ->
  tidy_from b s = true \/ s = [] -> tidy_from b (s ++ t) = true.
Proof.
  assert (forall t b, forallb (fun x => negb (Ascii.eqb x colon)) t = true -> t <> [] -> tidy_from b t = true) as G.
  { induction t as [|x t IH]; intros b H N; [congruence|]. cbn [forallb] in H. apply andb_prop in H as [H1 H2].
    cbn [tidy_from]. destruct (Ascii.eqb x colon); [discriminate|]. destruct t as [|y t]; [reflexivity|]. apply IH; auto. discriminate. }
  induction s as [|c s IH]; intros b t H N Hs; [apply G; auto|].
  destruct Hs as [Hs|Hs]; [|discriminate]. cbn [app tidy_from] in *. destruct (Ascii.eqb c colon).
  - apply andb_prop in Hs as [H1 H2]. rewrite H1. cbn [andb]. apply IH; auto.
  - apply IH; auto.
Qed.
Lemma tidy_app : forall s t, tidy s = true -> forallb (fun x => negb (Ascii.eqb x colon)) t = true -> t <> [] -> tidy (s ++ t) = true.
Proof. intros. apply tidy_from_app; auto. Qed.

(** ** Markers *)
Lemma marker_bit : forall c b i v, width_ok b = true -> bit_marker false c i v b = marker c b i v.
Proof.
  intros c b i v H. unfold bit_marker, marker, xs. cbn iota.
  assert (pad2 (dec b) = (if b <? 10 then L "0" else []) ++ dec b) as ->.
  { unfold width_ok in H. assert (b = 4 \/ b = 8 \/ b = 16 \/ b = 32) as [-> | [-> | [-> | ->]]] by lia; reflexivity. }
  rewrite <- !app_assoc. replace (32 - i - 1) with (31 - i) by lia. reflexivity.
Qed.
Definition suffix (b i : Z) (v : bool) : str :=
  L "_expint" ++ (if b <? 10 then L "0" else []) ++ dec b ++ L "_"
    ++ repeat "x"%char (Z.to_nat (31 - i)) ++ (if v then L "1" else L "0") ++ repeat "x"%char (Z.to_nat i).
Lemma marker_suffix : forall c b i v, marker c b i v = c ++ suffix b i v.
Proof. reflexivity. Qed.
Lemma suffix_length : forall b i v, width_ok b = true -> 0 <= i < 32 -> length (suffix b i v) = 42%nat.
Proof.
  intros b i v H Hi. unfold suffix. rewrite !app_length, !repeat_length.
  assert ((length (if (b <? 10)%Z then L "0" else []) + length (dec b))%nat = 2%nat).
  { unfold width_ok in H. assert (b = 4 \/ b = 8 \/ b = 16 \/ b = 32) as [-> | [-> | [-> | ->]]] by lia; reflexivity. }
  destruct v; cbn [length L String.list_ascii_of_string] in *; lia.
Qed.
Lemma no_colon_app : forall a b, forallb (fun x => negb (Ascii.eqb x colon)) (a ++ b) =
  forallb (fun x => negb (Ascii.eqb x colon)) a && forallb (fun x => negb (Ascii.eqb x colon)) b.
Proof. intros. apply forallb_app. Qed.
Lemma no_colon_xs : forall n, forallb (fun x => negb (Ascii.eqb x colon)) (repeat "x"%char n) = true.
Proof. induction n as [|n IH]; auto. Qed.
Lemma suffix_colon : forall b i v, width_ok b = true -> forallb (fun x => negb (Ascii.eqb x colon)) (suffix b i v) = true.
Proof.
  intros b i v H. unfold suffix. rewrite !no_colon_app, !no_colon_xs.
  unfold width_ok in H. assert (b = 4 \/ b = 8 \/ b = 16 \/ b = 32) as [-> | [-> | [-> | ->]]] by lia; destruct v; reflexivity.
Qed.
Lemma suffix_nonempty : forall b i v, suffix b i v <> [].
Proof. intros. unfold suffix. discriminate. Qed.
Lemma marker_tidy : forall c b i v, tidy c = true -> width_ok b = true -> tidy (marker c b i v) = true.
Proof. intros. rewrite marker_suffix. apply tidy_app; auto using suffix_colon, suffix_nonempty. Qed.
Lemma marker_starts : forall c b i v, starts_ok c = true -> starts_ok (marker c b i v) = true.
Proof. intros [|c s] b i v H; [discriminate|]. exact H. Qed.

Lemma app_inj_tail_len : forall (A : Type) (a b c d : list A), length b = length d -> a ++ b = c ++ d -> a = c /\ b = d.
Proof.
  intros A a b c d Hl H. assert (length a = length c) as La by (apply (f_equal (@length A)) in H; rewrite !app_length in H; lia).
  revert c La H. induction a as [|x a IH]; intros [|y c] La H; cbn in *; try lia; auto.
  injection H as -> H. destruct (IH c ltac:(lia) H) as [-> ->]. auto.
Qed.
Lemma xs_inj : forall m n m' n' u v, u <> "x"%char -> v <> "x"%char ->
  repeat "x"%char m ++ u :: repeat "x"%char n = repeat "x"%char m' ++ v :: repeat "x"%char n' -> m = m' /\ n = n' /\ u = v.
Proof.
  induction m as [|m IH]; intros n m' n' u v Hu Hv H; destruct m' as [|m']; cbn in H.
  - injection H as -> H. apply (f_equal (@length ascii)) in H. rewrite !repeat_length in H. auto.
  - injection H as -> _. congruence.
  - injection H as <- _. congruence.
  - injection H as H. destruct (IH _ _ _ _ _ Hu Hv H) as (-> & -> & ->). auto.
Qed.
Lemma marker_inj : forall c b i v c' b' i' v', width_ok b = true -> width_ok b' = true -> 0 <= i < 32 -> 0 <= i' < 32 ->
  marker c b i v = marker c' b' i' v' -> c = c' /\ b = b' /\ i = i' /\ v = v'.
Proof.
  intros c b i v c' b' i' v' Hb Hb' Hi Hi' E. rewrite !marker_suffix in E.
  apply app_inj_tail_len in E; [|rewrite !suffix_length by auto; reflexivity]. destruct E as [-> E]. split; auto.
  unfold suffix in E. apply app_inv_head in E.
  assert (b = b' /\ repeat "x"%char (Z.to_nat (31 - i)) ++ (if v then L "1" else L "0") ++ repeat "x"%char (Z.to_nat i) =
    repeat "x"%char (Z.to_nat (31 - i')) ++ (if v' then L "1" else L "0") ++ repeat "x"%char (Z.to_nat i')) as [-> E'].
  { unfold width_ok in *. assert (b = 4 \/ b = 8 \/ b = 16 \/ b = 32) as B by lia. assert (b' = 4 \/ b' = 8 \/ b' = 16 \/ b' = 32) as B' by lia.
    clear -E B B'. destruct B as [-> | [-> | [-> | ->]]], B' as [-> | [-> | [-> | ->]]];
      cbn [Z.ltb Z.compare Pos.compare Pos.compare_cont app L String.list_ascii_of_string] in E; vm_compute dec in E; cbn [app] in E;
      try discriminate; (split; [reflexivity|]); injection E as E; exact E. }
  split; auto.
  destruct (xs_inj (Z.to_nat (31 - i)) (Z.to_nat i) (Z.to_nat (31 - i')) (Z.to_nat i') (if v then "1"%char else "0"%char) (if v' then "1"%char else "0"%char)) as (X1 & X2 & X3).
  - destruct v; discriminate.
  - destruct v'; discriminate.
  - destruct v, v'; exact E'.
  - split; [lia|]. destruct v, v'; congruence.
Qed.
