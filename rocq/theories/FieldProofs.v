(** Arithmetic modulo a prime. *)
From Verif Require Import Base ByteString ByteStringProofs Field.
From Coq Require Import ZArith Znumtheory List Ascii Bool Lia ZifyBool ZifyNat Setoid Morphisms Ring.
Import ListNotations.
Open Scope Z_scope.

(** ** Congruence modulo p as a setoid ring *)
Section Mod.
Variable p : Z.
Definition eqm (a b : Z) : Prop := a mod p = b mod p.

Lemma eqm_refl : Reflexive eqm. Proof. intro; reflexivity. Qed.
Lemma eqm_sym : Symmetric eqm. Proof. intros x y H; symmetry; exact H. Qed.
Lemma eqm_trans : Transitive eqm. Proof. intros x y z H1 H2; unfold eqm in *; congruence. Qed.
Global Instance eqm_equiv : Equivalence eqm.
Proof. split; [exact eqm_refl|exact eqm_sym|exact eqm_trans]. Qed.

Global Instance eqm_add : Proper (eqm ==> eqm ==> eqm) Z.add.
Proof. intros a b H c d H2. unfold eqm in *. rewrite Zplus_mod, H, H2, <- Zplus_mod. reflexivity. Qed.
Global Instance eqm_mul : Proper (eqm ==> eqm ==> eqm) Z.mul.
Proof. intros a b H c d H2. unfold eqm in *. rewrite Zmult_mod, H, H2, <- Zmult_mod. reflexivity. Qed.
Global Instance eqm_sub : Proper (eqm ==> eqm ==> eqm) Z.sub.
Proof. intros a b H c d H2. unfold eqm in *. rewrite Zminus_mod, H, H2, <- Zminus_mod. reflexivity. Qed.
Global Instance eqm_opp : Proper (eqm ==> eqm) Z.opp.
Proof.
  intros a b H. change (eqm (0 - a) (0 - b)). rewrite H. reflexivity.
Qed.

Lemma eqm_mod : forall a, eqm (a mod p) a.
Proof. intro a. unfold eqm. apply Zmod_mod. Qed.

Lemma eqm_mod_eq : forall a b, eqm a b -> a mod p = b mod p.
Proof. auto. Qed.

Lemma eqm_small : forall a b, 0 <= a < p -> 0 <= b < p -> eqm a b -> a = b.
Proof. intros a b Ha Hb H. unfold eqm in H. rewrite !Z.mod_small in H by lia. exact H. Qed.
End Mod.

(** Rewrites every [mod p] away inside an [eqm p] goal, then calls [ring]. *)
Ltac eqm_norm p :=
  unfold fadd, fsub, fmul, fneg, fdiv in *; repeat setoid_rewrite (eqm_mod p).

(** ** Extended Euclid *)

Lemma egcd_bezout_gen : forall n fuel a b, 0 <= a -> 0 <= b -> b < 2 ^ Z.of_nat n -> (2 * n + 1 <= fuel)%nat ->
  let '(x, y) := egcd fuel a b in a * x + b * y = Z.gcd a b.
Proof.
  induction n as [|n IH]; intros fuel a b Ha Hb Hn Hf.
  - simpl in Hn. assert (b = 0) by lia. subst.
    destruct fuel; [lia|]. cbn [egcd]. rewrite Z.eqb_refl. rewrite Z.gcd_0_r. lia.
  - rewrite Nat2Z.inj_succ, Z.pow_succ_r in Hn by lia.
    destruct fuel as [|fuel]; [lia|]. cbn [egcd].
    destruct (b =? 0) eqn:E. { assert (b = 0) by lia. subst. rewrite Z.gcd_0_r. lia. }
    destruct fuel as [|fuel]; [lia|]. cbn [egcd].
    pose proof (Z.mod_pos_bound a b ltac:(lia)).
    destruct (a mod b =? 0) eqn:E2.
    + pose proof (Z.div_mod a b ltac:(lia)).
      assert (a = b * (a / b)) by lia.
      rewrite Z.gcd_comm. 
      assert (Z.gcd b a = b). { apply Z.divide_gcd_iff; [lia|]. exists (a / b). lia. }
      lia.
    + set (r := a mod b) in *.
      pose proof (Z.mod_pos_bound b r ltac:(lia)).
      assert (b mod r < 2 ^ Z.of_nat n).
      { pose proof (Z.div_mod b r ltac:(lia)).
        assert (1 <= b / r). { apply Z.div_le_lower_bound; lia. }
        assert (2 * (b mod r) < b) by nia. lia. }
      specialize (IH fuel r (b mod r) ltac:(lia) ltac:(lia) ltac:(lia) ltac:(lia)).
      destruct (egcd fuel r (b mod r)) as [x y].
      rewrite (Z.gcd_comm a b), <- (Z.gcd_mod a b ltac:(lia)). fold r.
      rewrite <- (Z.gcd_mod b r) by lia.
      rewrite Z.gcd_comm, <- IH.
      pose proof (Z.div_mod a b ltac:(lia)). pose proof (Z.div_mod b r ltac:(lia)).
      fold r in H2.
      replace (b mod r) with (b - r * (b / r)) by lia.
      replace r with (a - b * (a / b)) at 3 by (unfold r; lia). 
      replace (x - b / r * y) with (x - b / r * y) by lia.
      assert (Hr : r = a - b * (a / b)) by (unfold r; lia).
      nia.
Qed.

Lemma finv_spec : forall p y, prime p -> y mod p <> 0 -> (y * finv p y) mod p = 1.
Proof.
  intros p y Hp Hy. destruct Hp as [Hp1 Hp2].
  pose proof (Z.mod_pos_bound y p ltac:(lia)).
  unfold finv.
  assert (Hlog : p < 2 ^ Z.of_nat (S (Z.to_nat (Z.log2 p)))).
  { rewrite Nat2Z.inj_succ, Z2Nat.id by apply Z.log2_nonneg. apply Z.log2_spec. lia. }
  pose proof (egcd_bezout_gen (S (Z.to_nat (Z.log2 p))) (egcd_fuel p) (y mod p) p ltac:(lia) ltac:(lia) Hlog ltac:(unfold egcd_fuel; lia)) as HB.
  destruct (egcd (egcd_fuel p) (y mod p) p) as [u v]. cbn [fst].
  assert (Hg : Z.gcd (y mod p) p = 1).
  { apply Zgcd_1_rel_prime. apply Hp2. lia. }
  rewrite Hg in HB.
  change (eqm p (y * (u mod p)) 1) || idtac.
  assert (E : eqm p (y * (u mod p)) 1).
  { rewrite eqm_mod. rewrite <- (eqm_mod p y) at 1.
    unfold eqm. rewrite <- HB. rewrite Z.mul_comm, (Z.mul_comm p v), Z.mod_add by lia.
    rewrite Z.mul_comm. reflexivity. }
  unfold eqm in E. rewrite E. apply Z.mod_small. lia.
Qed.

Lemma finv_range : forall p y, 0 < p -> 0 <= finv p y < p.
Proof. intros. unfold finv. apply Z.mod_pos_bound. lia. Qed.

Lemma fmul_finv : forall p y, prime p -> y mod p <> 0 -> eqm p (y * finv p y) 1.
Proof.
  intros p y Hp Hy. unfold eqm. rewrite finv_spec by assumption.
  destruct Hp. symmetry. apply Z.mod_small. lia.
Qed.

(** ** The ZP class *)
Lemma zp_ring_ops_lemma : forall p x y, 1 < p -> zord x = Some p ->
  zp_add x y = Ok {| zv := (zv x + zv y) mod p; zord := Some p |} /\
  zp_sub x y = Ok {| zv := (zv x - zv y) mod p; zord := Some p |} /\
  zp_mul x y = Ok {| zv := (zv x * zv y) mod p; zord := Some p |} /\
  zp_neg x = Ok {| zv := (- zv x) mod p; zord := Some p |} /\
  (forall e, 0 <= e -> zp_power x e = Ok {| zv := (zv x ^ e) mod p; zord := Some p |}).
Proof.
  intros p x y Hp Hx. unfold zp_add, zp_sub, zp_mul, zp_neg, zp_power, zp_op, join_order. rewrite Hx.
  repeat split.
Qed.

Lemma zp_div_lemma : forall p x y, prime p -> zord x = Some p -> 0 <= zv x < p -> 0 <= zv y < p ->
  (zv y = 0 /\ zp_div x y = Exit) \/
  (zv y <> 0 /\ exists q, zp_div x y = Ok q /\ zord q = Some p /\ 0 <= zv q < p /\
     (zv q * zv y) mod p = zv x /\
     (forall z, 0 <= z < p -> (z * zv y) mod p = zv x -> z = zv q)).
Proof.
  intros p x y Hp Hx Hxr Hyr. unfold zp_div. destruct (zv y =? 0) eqn:E; [left; split; [lia|reflexivity]|right].
  split; [lia|]. unfold zp_op, join_order. rewrite Hx.
  eexists; split; [reflexivity|]. cbn [zv zord].
  pose proof Hp as [Hp1 _].
  assert (Hy : zv y mod p <> 0) by (rewrite Z.mod_small by lia; lia).
  pose proof (fmul_finv p (zv y) Hp Hy) as HI.
  split; [reflexivity|]. unfold fdiv, fmul. split; [apply Z.mod_pos_bound; lia|].
  split.
  - assert (E2 : eqm p ((finv p (zv y) * zv x) mod p * zv y) (zv x)).
    { rewrite eqm_mod. replace (finv p (zv y) * zv x * zv y) with (zv x * (zv y * finv p (zv y))) by ring.
      rewrite HI. rewrite Z.mul_1_r. reflexivity. }
    unfold eqm in E2. rewrite E2. apply Z.mod_small. lia.
  - intros z Hz Hzz. apply (eqm_small p); [lia|apply Z.mod_pos_bound; lia|].
    rewrite eqm_mod.
    assert (E3 : eqm p (zv x) (z * zv y)).
    { unfold eqm. rewrite Hzz. apply Z.mod_small. lia. }
    rewrite E3. replace (finv p (zv y) * (z * zv y)) with (z * (zv y * finv p (zv y))) by ring.
    rewrite HI. rewrite Z.mul_1_r. reflexivity.
Qed.

(** ** Big-endian conversion *)
Lemma of_be_app : forall a b, of_be (a ++ b) = of_be a * 256 ^ len b + of_be b.
Proof.
  intros a b. unfold of_be. rewrite fold_left_app.
  generalize (fold_left (fun a0 c => a0 * 256 + b2z c) a 0). clear a.
  assert (forall b acc, fold_left (fun a0 c => a0 * 256 + b2z c) b acc = acc * 256 ^ len b + fold_left (fun a0 c => a0 * 256 + b2z c) b 0).
  { clear b. induction b as [|c b IH]; intro acc; cbn [fold_left].
    - unfold len. simpl. lia.
    - rewrite IH. rewrite (IH (0 * 256 + b2z c)).
      unfold len. cbn [length]. rewrite Nat2Z.inj_succ, Z.pow_succ_r by lia. ring. }
  intro z. apply H.
Qed.

Lemma to_be_fuel_spec : forall fuel x acc, 0 <= x < 2 ^ Z.of_nat fuel ->
  of_be (to_be_fuel fuel x acc) = x * 256 ^ len acc + of_be acc.
Proof.
  induction fuel as [|f IH]; intros x acc Hx.
  - simpl in Hx. assert (x = 0) by lia. subst. reflexivity.
  - rewrite Nat2Z.inj_succ, Z.pow_succ_r in Hx by lia.
    cbn [to_be_fuel]. destruct (x <=? 0) eqn:E. { assert (x = 0) by lia. subst. reflexivity. }
    rewrite IH.
    2: { split; [apply Z.div_pos; lia|]. apply Z.div_lt_upper_bound; lia. }
    change (z2b x :: acc) with ([z2b x] ++ acc). rewrite of_be_app.
    unfold of_be at 1. cbn [fold_left]. rewrite b2z_z2b.
    rewrite len_app. change (len [z2b x]) with 1. 
    rewrite Z.pow_add_r by (try lia; apply len_nonneg). 
    pose proof (Z.div_mod x 256 ltac:(lia)). nia.
Qed.

Lemma of_be_to_be : forall x, 0 <= x -> of_be (to_be x) = x.
Proof.
  intros x Hx. unfold to_be.
  assert (x = 0 \/ 0 < x) as [->|Hx'] by lia; [reflexivity|].
  rewrite to_be_fuel_spec.
  - unfold of_be, len. simpl. lia.
  - split; [lia|]. pose proof (Z.log2_spec x Hx').
    replace (Z.of_nat (Z.to_nat (Z.log2 x) + 1)) with (Z.succ (Z.log2 x)).
    + lia.
    + pose proof (Z.log2_nonneg x). lia.
Qed.

Lemma to_be_fuel_len : forall fuel x acc k, 0 <= x < 256 ^ k -> 0 <= k ->
  len (to_be_fuel fuel x acc) <= k + len acc.
Proof.
  induction fuel as [|f IH]; intros x acc k Hx Hk; cbn [to_be_fuel]; [lia|].
  destruct (x <=? 0) eqn:E; [lia|].
  assert (k = 0 \/ 0 < k) as [->|Hk'] by lia; [simpl in Hx; lia|].
  assert (HP : 256 ^ k = 256 * 256 ^ (k - 1)).
  { rewrite <- Z.pow_succ_r by lia. f_equal. lia. }
  pose proof (IH (x / 256) (z2b x :: acc) (k - 1)) as H.
  unfold len in *. cbn [length] in H.
  assert (0 <= x / 256 < 256 ^ (k - 1)).
  { split; [apply Z.div_pos; lia|]. apply Z.div_lt_upper_bound; lia. }
  specialize (H ltac:(lia) ltac:(lia)). lia.
Qed.

Lemma to_be_nonempty : forall x, 0 < x -> to_be x <> [].
Proof.
  intros x Hx H. pose proof (of_be_to_be x ltac:(lia)) as E. rewrite H in E. unfold of_be in E. simpl in E. lia.
Qed.

Lemma zp_roundtrip_lemma : forall x t, 0 < zv x -> len (to_be (zv x)) < 2^16 ->
  (forall o, zord t = Some o -> zv x <= o) ->
  zp_deserialize t (zp_serialize x) = Ok {| zv := zv x; zord := zord t |}.
Proof.
  intros x t Hx Hl Ho. unfold zp_deserialize, zp_serialize, pack16bits.
  set (d := to_be (zv x)) in *.
  pose proof (len_nonneg d). rewrite Z.mod_small by lia.
  change (([z2b 177] ++ be16 (len d)) ++ d) with (z2b 177 :: z2b (len d / 2^8) :: z2b (len d) :: d).
  change (at_ (z2b 177 :: z2b (len d / 2 ^ 8) :: z2b (len d) :: d) 0) with (@Ok Z 177).
  cbn [bind].
  assert (Hd : 0 < len d).
  { assert (d <> []) by (apply to_be_nonempty; lia). destruct d; [congruence|]. unfold len. simpl. lia. }
  assert (HL : len (z2b 177 :: z2b (len d / 2 ^ 8) :: z2b (len d) :: d) = len d + 3).
  { unfold len. cbn [length]. lia. }
  rewrite HL. replace (3 <? len d + 3) with true by (symmetry; apply Z.ltb_lt; lia).
  cbn [andb Z.eqb Pos.eqb]. unfold at_. cbn [nth_error bind].
  rewrite !b2z_z2b.
  replace ((len d / 2 ^ 8) mod 256 * 256 + len d mod 256) with (len d).
  2: { pose proof (Z.div_mod (len d) 256 ltac:(lia)). rewrite (Z.mod_small (len d / 2^8)).
       - change (2^8) with 256. lia.
       - split; [apply Z.div_pos; lia|]. apply Z.div_lt_upper_bound; lia. }
  replace (len d <=? len d + 3 - 3) with true by (symmetry; apply Z.leb_le; lia).
  cbn [skipn]. replace (Z.to_nat (len d)) with (length d) by (unfold len; lia). rewrite firstn_all.
  unfold d. rewrite of_be_to_be by lia.
  destruct (zord t) as [o|]; [|reflexivity].
  specialize (Ho o eq_refl). replace (o <? zv x) with false by (symmetry; apply Z.ltb_ge; lia). reflexivity.
Qed.

Lemma zp_roundtrip_bytes_lemma : forall x t k, 0 <= k < 2^16 -> 0 < zv x < 256 ^ k ->
  (forall o, zord t = Some o -> zv x <= o) ->
  zp_deserialize t (zp_serialize x) = Ok {| zv := zv x; zord := zord t |}.
Proof.
  intros x t k Hk Hx Ho. apply zp_roundtrip_lemma; [lia| |assumption].
  unfold to_be. pose proof (to_be_fuel_len (Z.to_nat (Z.log2 (zv x)) + 1) (zv x) [] k ltac:(lia) ltac:(lia)) as H.
  change (len []) with 0 in H. lia.
Qed.

Lemma zp_zero_lemma : forall o t, zp_deserialize t (zp_serialize {| zv := 0; zord := o |}) = Ok t.
Proof. intros. reflexivity. Qed.

(** Exactly which blobs make the library read past the end of its buffer. *)
Lemma zp_deserialize_ub_lemma : forall t input,
  zp_deserialize t input = UB <->
  (exists b1 b2 rest, input = z2b 177 :: b1 :: b2 :: rest /\ rest <> [] /\ len rest < b2z b1 * 256 + b2z b2).
Proof.
  intros t input. unfold zp_deserialize. split.
  - destruct input as [|c0 [|c1 [|c2 rest]]]; unfold at_; cbn [nth_error bind]; try discriminate.
    + rewrite andb_false_r. discriminate.
    + rewrite andb_false_r. discriminate.
    + intro H. assert (HL : len (c0 :: c1 :: c2 :: rest) = len rest + 3) by (unfold len; cbn [length]; lia).
      rewrite HL in H.
      destruct (b2z c0 =? 177) eqn:E0; [|discriminate]. destruct (3 <? len rest + 3) eqn:E1; [|discriminate].
      cbn [andb] in H. 
      destruct (_ <=? len rest + 3 - 3) eqn:E2 in H. { destruct (zord t); discriminate. }
      exists c1, c2, rest. split; [|split].
      * f_equal. rewrite <- (z2b_b2z c0). f_equal. lia.
      * intro; subst. unfold len in E1. simpl in E1. discriminate.
      * lia.
  - intros (b1 & b2 & rest & -> & Hne & Hlt).
    assert (HL : len (z2b 177 :: b1 :: b2 :: rest) = len rest + 3) by (unfold len; cbn [length]; lia).
    rewrite HL. unfold at_. cbn [nth_error bind].
    change (b2z (z2b 177) =? 177) with true.
    assert (0 < len rest). { destruct rest; [congruence|]. unfold len; cbn [length]; lia. }
    replace (3 <? len rest + 3) with true by (symmetry; apply Z.ltb_lt; lia). cbn [andb].
    replace (_ <=? _) with false; [reflexivity|]. symmetry. apply Z.leb_gt. lia.
Qed.
