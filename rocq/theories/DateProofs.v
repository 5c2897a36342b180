(** Day numbers order dates in zones of constant offset. *)
From Verif Require Import Base ByteString StrMap Dec UInteger Policy LsssSpec Scanner Grammar PolicySyntax Lexical PolicyMeaning Driver Parser ParserSound ParserRun ParserTop ScannerProofs NumProofs NumTree PolicyTruth Calendar.
From Coq Require Import ZArith List Ascii Bool Lia ZifyBool ZifyNat.
Import ListNotations.
Open Scope Z_scope.

Lemma year_step : forall y, before_year (y + 1) = before_year y + (if leap y then 366 else 365).
Proof.
  intro y. unfold before_year, leap. replace (y + 1 - 1) with y by lia.
  assert (forall k, 0 < k -> y / k = (y - 1) / k + (if y mod k =? 0 then 1 else 0)) as H.
  { intros k Hk. pose proof (Z.div_mod y k ltac:(lia)). pose proof (Z.mod_pos_bound y k Hk). destruct (Z.eqb_spec (y mod k) 0) as [E|E].
    - rewrite E in *. replace (y - 1) with ((y / k - 1) * k + (k - 1)) by lia. rewrite Z.div_add_l by lia. rewrite (Z.div_small (k - 1)) by lia. lia.
    - rewrite Z.add_0_r. apply (Z.div_unique (y - 1) k (y / k) (y mod k - 1)); lia. }
  rewrite (H 4), (H 100), (H 400) by lia.
  assert (y mod 100 = 0 -> y mod 4 = 0) as A. { intro E. apply Z.mod_divide in E as [z ->]; [|lia]. apply Z.mod_divide; [lia|]. exists (25 * z). lia. }
  assert (y mod 400 = 0 -> y mod 100 = 0) as B. { intro E. apply Z.mod_divide in E as [z ->]; [|lia]. apply Z.mod_divide; [lia|]. exists (4 * z). lia. }
  destruct (Z.eqb_spec (y mod 4) 0), (Z.eqb_spec (y mod 100) 0), (Z.eqb_spec (y mod 400) 0); cbn [negb andb orb]; try lia; exfalso; tauto.
Qed.
Definition year_days (y : Z) : Z := if leap y then 366 else 365.
Lemma year_mono : forall y y', y < y' -> before_year y + year_days y <= before_year y'.
Proof.
  intros y y' H. replace y' with (y + 1 + Z.of_nat (Z.to_nat (y' - y - 1))) by lia. generalize (Z.to_nat (y' - y - 1)). intro n. clear H.
  induction n as [|n IH].
  - rewrite Z.add_0_r, year_step. unfold year_days. lia.
  - replace (y + 1 + Z.of_nat (S n)) with (y + 1 + Z.of_nat n + 1) by lia. rewrite year_step. destruct (leap (y + 1 + Z.of_nat n)); lia.
Qed.
Lemma by_month : forall (P : Z -> Prop), (forall m, In m [1;2;3;4;5;6;7;8;9;10;11;12] -> P m) -> forall m, 1 <= m <= 12 -> P m.
Proof. intros P H m B. apply H. cbn. lia. Qed.
Lemma month_mono : forall y m m', 1 <= m <= 12 -> 1 <= m' <= 12 -> m < m' -> before_month y m + month_days y m <= before_month y m'.
Proof.
  intros y m m' H H'. revert m' H'. revert m H. apply (by_month (fun m => forall m', 1 <= m' <= 12 -> m < m' -> before_month y m + month_days y m <= before_month y m')).
  intros m I. apply (by_month (fun m' => m < m' -> before_month y m + month_days y m <= before_month y m')). intros m' I'.
  cbn in I, I'. unfold before_month, month_days. destruct (leap y);
  repeat (destruct I as [<-|I]; [repeat (destruct I' as [<-|I']; [cbv; intros; congruence|]); destruct I'|]); destruct I.
Qed.
Lemma month_end : forall y m, 1 <= m <= 12 -> 0 <= before_month y m /\ before_month y m + month_days y m <= year_days y.
Proof.
  intros y. apply by_month. intros m I. cbn in I. unfold before_month, month_days, year_days. destruct (leap y); repeat (destruct I as [<-|I]; [cbv; split; intros; congruence|]); destruct I.
Qed.
Lemma civil_compare : forall x y, valid x -> valid y -> date_compare x y = (civil x ?= civil y).
Proof.
  intros [y m d] [y' m' d'] [Vm Vd] [Vm' Vd']. cbn [dyear dmonth dday] in *. unfold date_compare, civil. cbn [dyear dmonth dday].
  pose proof (month_end y m Vm). pose proof (month_end y' m' Vm').
  destruct (Z.compare_spec y y') as [<-|L|L].
  - destruct (Z.compare_spec m m') as [<-|L|L].
    + destruct (Z.compare_spec d d'); symmetry; [apply Z.compare_eq_iff|apply Z.compare_lt_iff|apply Z.compare_gt_iff]; lia.
    + pose proof (month_mono y m m' Vm Vm' L). symmetry. apply Z.compare_lt_iff. lia.
    + pose proof (month_mono y m' m Vm' Vm L). symmetry. apply Z.compare_gt_iff. lia.
  - pose proof (year_mono y y' L). symmetry. apply Z.compare_lt_iff. lia.
  - pose proof (year_mono y' y L). symmetry. apply Z.compare_gt_iff. lia.
Qed.
Lemma holds_civil : forall r x v k, valid x -> valid v -> rel_holds r (civil x + k) (civil v + k) = date_holds r x v.
Proof.
  intros r x v k Vx Vv. unfold date_holds. rewrite civil_compare by auto. destruct (Z.compare_spec (civil x) (civil v)); destruct r; cbn [rel_holds]; lia.
Qed.
Lemma civil_range : forall x, modern x -> 365 <= civil x < 3000000.
Proof.
  intros [y m d] [[Vm Vd] Vy]. cbn [dyear dmonth dday] in *. unfold civil. cbn [dyear dmonth dday]. pose proof (month_end y m Vm).
  pose proof (year_mono 1970 y ltac:(lia)) as A. pose proof (year_mono y 10000 ltac:(lia)) as B.
  change (before_year 1970) with 719162 in A. change (year_days 1970) with 365 in A. change (before_year 10000) with 3652059 in B. lia.
Qed.
Lemma month_named : forall s m, names_month s m -> get_month s = m.
Proof.
  intros s m [V (a & b & E & H)]. revert a b E H. revert m V. apply (by_month (fun m => forall a b, nth_error month_names (Z.to_nat (m - 1)) = Some (a, b) -> s = a \/ s = b -> get_month s = m)).
  intros m I a b E H. cbn in I. repeat (destruct I as [<-|I]; [cbv in E; injection E as <- <-; destruct H as [-> | ->]; reflexivity|]). destruct I.
Qed.
Section Zone.
Variable mktime : tm -> Z * tm.
Variable off : Z.
Hypothesis zone : constant_zone off mktime.
Hypothesis off_small : -86400 <= off <= 86400.
Lemma int_small : forall z, 0 <= z < 100000 -> to_int z = z.
Proof. intros z H. unfold to_int. change (2 ^ 32) with 4294967296. change (2 ^ 31) with 2147483648. rewrite Z.mod_small by lia. destruct (Z.ltb_spec z 2147483648); lia. Qed.
Lemma days_small : forall c, 365 <= c < 3000000 -> in_days (86400 * c + off) = c + off / 86400.
Proof.
  intros c H. unfold in_days. change (2 ^ 64) with 18446744073709551616. change (2 ^ 32) with 4294967296. rewrite (Z.mod_small (86400 * c + off) 18446744073709551616) by lia.
  rewrite (Z.mul_comm 86400), Z.div_add_l by lia. pose proof (Z.div_le_lower_bound off 86400 (-1) ltac:(lia) ltac:(lia)). pose proof (Z.div_le_upper_bound off 86400 1 ltac:(lia) ltac:(lia)).
  apply Z.mod_small. lia.
Qed.
Lemma month_days_small : forall y m, 28 <= month_days y m <= 31.
Proof. intros y m. unfold month_days. destruct (leap y); destruct ((m =? 4) || (m =? 6) || (m =? 9) || (m =? 11)); try lia; destruct (m =? 2); lia. Qed.
Lemma tm_date : forall x, modern x -> date_of (tm_of (dmonth x) (dday x) (dyear x)) = x.
Proof.
  intros [y m d] [[Vm Vd] Vy]. cbn [dyear dmonth dday] in *. pose proof (month_days_small y m). unfold date_of, tm_of. cbn [tm_year tm_mon tm_mday].
  rewrite !int_small by lia. f_equal; lia.
Qed.
Lemma day_zone : forall m x, names_month m (dmonth x) -> modern x -> day mktime m (dday x) (dyear x) = civil x + off / 86400.
Proof.
  intros m x N M. unfold day, validate_date. rewrite (month_named _ _ N). pose proof (tm_date x M) as T.
  destruct (zone (tm_of (dmonth x) (dday x) (dyear x))) as [-> _]; [rewrite T; apply M|]. rewrite T. apply days_small, civil_range, M.
Qed.
Lemma last_day_zone : forall m x hi, names_month m (dmonth x) -> modern x -> modern {| dyear := dyear x; dmonth := dmonth x; dday := hi |} ->
  last_day mktime m (dday x) hi (dyear x) = civil {| dyear := dyear x; dmonth := dmonth x; dday := hi |} + off / 86400.
Proof.
  intros m x hi N M M'. unfold last_day. rewrite (month_named _ _ N). pose proof (tm_date x M) as T.
  destruct (zone (tm_of (dmonth x) (dday x) (dyear x))) as [_ D]; [rewrite T; apply M|]. rewrite T in D.
  set (t := snd (mktime _)) in *. assert (0 <= hi < 100000) as B. { destruct M' as [[_ V] _]. cbn [dday dmonth dyear] in V. pose proof (month_days_small (dyear x) (dmonth x)). lia. }
  set (t' := {| tm_year := tm_year t; tm_mon := tm_mon t; tm_mday := to_int hi; tm_rest := tm_rest t |}).
  assert (date_of t' = {| dyear := dyear x; dmonth := dmonth x; dday := hi |}) as D'.
  { unfold date_of, t' in *. cbn [tm_year tm_mon tm_mday] in *. rewrite int_small by auto. destruct x as [y0 m0 d0]. injection D as D1 D2 D3. cbn. f_equal; auto. }
  destruct (zone t') as [-> _]; [rewrite D'; apply M'|]. rewrite D'. apply days_small, civil_range, M'.
Qed.
Lemma day_small : forall x, modern x -> 0 < civil x + off / 86400 < 4294967295.
Proof.
  intros x M. pose proof (civil_range x M). pose proof (Z.div_le_lower_bound off 86400 (-1) ltac:(lia) ltac:(lia)). pose proof (Z.div_le_upper_bound off 86400 1 ltac:(lia) ltac:(lia)). lia.
Qed.
Lemma day_ok_zone : forall r x, modern x -> day_ok r (civil x + off / 86400) = true.
Proof. intros r x M. pose proof (day_small x M). unfold day_ok. destruct r; lia. Qed.
End Zone.
