(** Decimal text: std::to_string, operator<< on integers, and reading back. *)
From Verif Require Import Base.
From Coq Require Import ZArith List Ascii Bool Lia ZifyBool ZifyNat.
Import ListNotations.
Open Scope Z_scope.

Definition digit (d : Z) : ascii := z2b (48 + d).
Fixpoint dec_fuel (fuel : nat) (n : Z) (acc : str) : str :=
  match fuel with
  | O => acc
  | S f => let acc' := digit (n mod 10) :: acc in
           if n <? 10 then acc' else dec_fuel f (n / 10) acc'
  end.
(** Non-negative numbers without leading zeros. *)
Definition dec_nat (n : Z) : str := dec_fuel (Z.to_nat (Z.log2 n) + 1) n [].
Definition dec (n : Z) : str := if n <? 0 then L "-" ++ dec_nat (- n) else dec_nat n.

Definition is_digit (c : ascii) : bool := (48 <=? b2z c) && (b2z c <=? 57).
(** Value of a digit string (strtoul on [0-9]+ without the range check). *)
Definition undec (s : str) : Z := fold_left (fun a c => a * 10 + (b2z c - 48)) s 0.

Lemma undec_app : forall a b, undec (a ++ b) = undec a * 10 ^ len b + undec b.
Proof.
  intros a b. unfold undec. rewrite fold_left_app.
  generalize (fold_left (fun a0 c => a0 * 10 + (b2z c - 48)) a 0). clear a.
  assert (forall b acc, fold_left (fun a0 c => a0 * 10 + (b2z c - 48)) b acc
     = acc * 10 ^ len b + fold_left (fun a0 c => a0 * 10 + (b2z c - 48)) b 0).
  { clear b. induction b as [|c b IH]; intro acc; cbn [fold_left].
    - unfold len. simpl. lia.
    - rewrite IH. rewrite (IH (0 * 10 + _)).
      unfold len. cbn [length]. rewrite Nat2Z.inj_succ, Z.pow_succ_r by lia. ring. }
  intro z. apply H.
Qed.

Lemma b2z_digit : forall d, 0 <= d < 10 -> b2z (digit d) = 48 + d.
Proof. intros. unfold digit. rewrite b2z_z2b. apply Z.mod_small. lia. Qed.

Lemma dec_fuel_spec : forall fuel n acc, 0 <= n < 2 ^ Z.of_nat fuel ->
  undec (dec_fuel fuel n acc) = n * 10 ^ len acc + undec acc.
Proof.
  induction fuel as [|f IH]; intros n acc Hn.
  - simpl in Hn. assert (n = 0) by lia. subst. reflexivity.
  - rewrite Nat2Z.inj_succ, Z.pow_succ_r in Hn by lia.
    assert (E : undec (digit (n mod 10) :: acc) = (n mod 10) * 10 ^ len acc + undec acc).
    { change (digit (n mod 10) :: acc) with ([digit (n mod 10)] ++ acc). rewrite undec_app.
      f_equal. f_equal. unfold undec. cbn [fold_left]. rewrite b2z_digit by (apply Z.mod_pos_bound; lia). lia. }
    cbn [dec_fuel]. destruct (n <? 10) eqn:E2.
    + rewrite E. rewrite Z.mod_small by lia. reflexivity.
    + rewrite IH by (split; [apply Z.div_pos; lia|apply Z.div_lt_upper_bound; lia]).
      rewrite E. replace (len (digit (n mod 10) :: acc)) with (1 + len acc) by (unfold len; cbn [length]; lia).
      rewrite Z.pow_add_r by (try lia; apply len_nonneg).
      pose proof (Z.div_mod n 10 ltac:(lia)). nia.
Qed.

Lemma undec_dec_nat : forall n, 0 <= n -> undec (dec_nat n) = n.
Proof.
  intros n Hn. unfold dec_nat. rewrite dec_fuel_spec.
  - unfold undec, len. simpl. lia.
  - split; [lia|]. assert (n = 0 \/ 0 < n) as [->|H] by lia; [reflexivity|].
    pose proof (Z.log2_spec n H). pose proof (Z.log2_nonneg n).
    replace (Z.of_nat (Z.to_nat (Z.log2 n) + 1)) with (Z.succ (Z.log2 n)) by lia. lia.
Qed.

Lemma dec_fuel_digits : forall fuel n acc, 0 <= n -> forallb is_digit acc = true -> forallb is_digit (dec_fuel fuel n acc) = true.
Proof.
  induction fuel as [|f IH]; intros n acc Hn Ha; cbn [dec_fuel]; [assumption|].
  assert (forallb is_digit (digit (n mod 10) :: acc) = true).
  { cbn [forallb]. rewrite Ha, andb_true_r. unfold is_digit.
    pose proof (Z.mod_pos_bound n 10 ltac:(lia)). rewrite b2z_digit by lia. lia. }
  destruct (n <? 10); [assumption|]. apply IH; [apply Z.div_pos; lia|assumption].
Qed.

Lemma dec_digits : forall n, 0 <= n -> forallb is_digit (dec n) = true.
Proof.
  intros n Hn. unfold dec. replace (n <? 0) with false by lia. apply dec_fuel_digits; [lia|reflexivity].
Qed.

Lemma undec_dec : forall n, 0 <= n -> undec (dec n) = n.
Proof. intros n Hn. unfold dec. replace (n <? 0) with false by lia. apply undec_dec_nat. lia. Qed.

Lemma dec_inj : forall a b, 0 <= a -> 0 <= b -> dec a = dec b -> a = b.
Proof. intros a b Ha Hb H. rewrite <- (undec_dec a), <- (undec_dec b), H by lia. reflexivity. Qed.

Lemma dec_fuel_nonempty : forall fuel n acc, acc <> [] -> dec_fuel fuel n acc <> [].
Proof.
  induction fuel as [|f IH]; intros n acc H; cbn [dec_fuel]; [assumption|].
  destruct (n <? 10); [discriminate|]. apply IH. discriminate.
Qed.

Lemma dec_nonempty : forall n, 0 <= n -> dec n <> [].
Proof.
  intros n Hn. unfold dec. replace (n <? 0) with false by lia. unfold dec_nat.
  rewrite Nat.add_1_r. cbn [dec_fuel]. destruct (n <? 10); [discriminate|]. apply dec_fuel_nonempty. discriminate.
Qed.
