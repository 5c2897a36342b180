(** C11, C12, C65: field elements and integers. *)
From Verif Require Import Base ByteString ByteStringProofs Field FieldProofs UInteger.
From Coq Require Import ZArith Znumtheory List Ascii Bool Lia.
Import ListNotations.
Open Scope Z_scope.

(** C11 *)
Theorem C11_ring_operations : forall p x y, 1 < p -> zord x = Some p ->
  zp_add x y = Ok {| zv := (zv x + zv y) mod p; zord := Some p |} /\
  zp_sub x y = Ok {| zv := (zv x - zv y) mod p; zord := Some p |} /\
  zp_mul x y = Ok {| zv := (zv x * zv y) mod p; zord := Some p |} /\
  zp_neg x = Ok {| zv := (- zv x) mod p; zord := Some p |} /\
  (forall e, 0 <= e -> zp_power x e = Ok {| zv := (zv x ^ e) mod p; zord := Some p |}).
Proof. exact zp_ring_ops_lemma. Qed.
Print Assumptions C11_ring_operations.

(** An element without an order (a small constant) takes the order of the other operand. *)
Theorem C11_second_order : forall p x y, prime p -> zord x = None -> zord y = Some p -> 0 <= zv x < p -> 0 <= zv y < p ->
  zp_add x y = Ok {| zv := (zv x + zv y) mod p; zord := Some p |} /\
  zp_sub x y = Ok {| zv := (zv x - zv y) mod p; zord := Some p |} /\
  zp_mul x y = Ok {| zv := (zv x * zv y) mod p; zord := Some p |} /\
  ((zv y = 0 /\ zp_div x y = Exit) \/
   (zv y <> 0 /\ exists q, zp_div x y = Ok q /\ zord q = Some p /\ 0 <= zv q < p /\ (zv q * zv y) mod p = zv x)).
Proof.
  intros p x y Hp Hx Hy Rx Ry.
  assert (zp_div x y = zp_div {| zv := zv x; zord := Some p |} y) as E by (unfold zp_div, zp_op, join_order; cbn [zord zv]; rewrite Hx, Hy; reflexivity).
  unfold zp_add, zp_sub, zp_mul. unfold zp_op, join_order. rewrite Hx, Hy. split; [reflexivity|]. split; [reflexivity|]. split; [reflexivity|].
  rewrite E. destruct (zp_div_lemma p {| zv := zv x; zord := Some p |} y Hp eq_refl Rx Ry) as [D|[N [q [D [O [R [M _]]]]]]]; [left; exact D|].
  right. split; [exact N|]. exists q. auto.
Qed.
Print Assumptions C11_second_order.

(** Division returns the unique quotient, and only zero has none. *)
Theorem C11_division : forall p x y, prime p -> zord x = Some p -> 0 <= zv x < p -> 0 <= zv y < p ->
  (zv y = 0 /\ zp_div x y = Exit) \/
  (zv y <> 0 /\ exists q, zp_div x y = Ok q /\ zord q = Some p /\ 0 <= zv q < p /\
     (zv q * zv y) mod p = zv x /\
     (forall z, 0 <= z < p -> (z * zv y) mod p = zv x -> z = zv q)).
Proof. exact zp_div_lemma. Qed.
Print Assumptions C11_division.
Lemma prime_13 : prime 13.
Proof.
  apply prime_intro; [lia|]. intros n Hn.
  assert (n = 1 \/ n = 2 \/ n = 3 \/ n = 4 \/ n = 5 \/ n = 6 \/ n = 7 \/ n = 8 \/ n = 9 \/ n = 10 \/ n = 11 \/ n = 12) as H by lia.
  repeat (destruct H as [->|H]; [apply Zgcd_1_rel_prime; reflexivity|]).
  subst. apply Zgcd_1_rel_prime. reflexivity.
Qed.
Example C11_nonvacuous : prime 13 /\
  zp_div {| zv := 5; zord := Some 13 |} {| zv := 7; zord := Some 13 |} = Ok {| zv := 10; zord := Some 13 |} /\
  zp_sub {| zv := 5; zord := None |} {| zv := 7; zord := Some 13 |} = Ok {| zv := 11; zord := Some 13 |}.
Proof. split; [exact prime_13|vm_compute; auto]. Qed.

(** C12 *)
Theorem C12_roundtrip : forall x t k, 0 <= k < 2^16 -> 0 < zv x < 256 ^ k ->
  (forall o, zord t = Some o -> zv x <= o) ->
  zp_deserialize t (zp_serialize x) = Ok {| zv := zv x; zord := zord t |}.
Proof. exact zp_roundtrip_bytes_lemma. Qed.
Print Assumptions C12_roundtrip.
(** Zero is not transmitted: the target keeps whatever it held. *)
Theorem C12_zero_not_transmitted : forall o t,
  zp_deserialize t (zp_serialize {| zv := 0; zord := o |}) = Ok t.
Proof. exact zp_zero_lemma. Qed.
Print Assumptions C12_zero_not_transmitted.
(** Exactly the blobs that declare more bytes than they carry are read out of bounds. *)
Theorem C12_out_of_bounds : forall t input,
  zp_deserialize t input = UB <->
  (exists b1 b2 rest, input = z2b 177 :: b1 :: b2 :: rest /\ rest <> [] /\ len rest < b2z b1 * 256 + b2z b2).
Proof. exact zp_deserialize_ub_lemma. Qed.
Print Assumptions C12_out_of_bounds.
Lemma of_be_nonneg : forall b, 0 <= of_be b.
Proof.
  intro b. unfold of_be. assert (forall l a, 0 <= a -> 0 <= fold_left (fun a c => a * 256 + b2z c) l a) as K; [|apply K; lia].
  induction l as [|c l IH]; intros a A; cbn [fold_left]; [exact A|]. apply IH. pose proof (b2z_range c). lia.
Qed.
(** What is read is the declared bytes as a number, reduced only when greater than the
    order: always congruent, never above the order. *)
Theorem C12_value : forall t input z o, zp_deserialize t input = Ok z -> zord t = Some o -> 0 < o -> 
  z = t \/ exists b1 b2 body rest, input = z2b 177 :: b1 :: b2 :: body ++ rest /\ len body = b2z b1 * 256 + b2z b2 /\
    zord z = Some o /\ 0 <= zv z <= o /\ zv z mod o = of_be body mod o /\ (of_be body < o -> zv z = of_be body).
Proof.
  intros t input z o H Ho Po. unfold zp_deserialize in H. destruct input as [|c input]; [discriminate|]. cbn [at_ nth_error bind] in H.
  unfold at_ in H. cbn [nth_error bind] in H. destruct ((b2z c =? 177) && (3 <? len (c :: input))) eqn:E; [|left; congruence]. apply andb_prop in E as [E1 E2]. apply Z.eqb_eq in E1.
  destruct input as [|b1 [|b2 rest]]; cbn [nth_error bind] in H; try discriminate. right.
  destruct (b2z b1 * 256 + b2z b2 <=? len (c :: b1 :: b2 :: rest) - 3) eqn:E3; [|discriminate]. apply Z.leb_le in E3. rewrite Ho in H. cbn [skipn] in H.
  pose proof (b2z_range b1) as R1. pose proof (b2z_range b2) as R2.
  set (n := Z.to_nat (b2z b1 * 256 + b2z b2)) in *. exists b1, b2, (firstn n rest), (skipn n rest). rewrite firstn_skipn.
  assert (c = z2b 177) as -> by (rewrite <- E1; symmetry; apply z2b_b2z). split; [reflexivity|].
  assert (len (firstn n rest) = b2z b1 * 256 + b2z b2) as Ln by (unfold len in *; rewrite firstn_length; cbn [length] in E3; lia). split; [exact Ln|].
  injection H as <-. cbn [zv zord]. split; [reflexivity|]. assert (0 <= of_be (firstn n rest)) as P by apply of_be_nonneg.
  destruct (o <? of_be (firstn n rest)) eqn:E4.
  - apply Z.ltb_lt in E4. pose proof (Z.mod_pos_bound (of_be (firstn n rest)) o Po). split; [lia|]. split; [apply Z.mod_mod; lia|lia].
  - apply Z.ltb_ge in E4. split; [lia|]. auto.
Qed.
Print Assumptions C12_value.
(** The order itself is not reduced to zero. *)
Theorem C12_order_refuted : exists t input z o, zp_deserialize t input = Ok z /\ zord t = Some o /\ ~ zv z < o.
Proof. exists {| zv := 0; zord := Some 7 |}, (map z2b [177; 0; 1; 7]). eexists _, 7. split; [vm_compute; reflexivity|]. split; [reflexivity|]. cbn. lia. Qed.
Print Assumptions C12_order_refuted.
Example C12_nonvacuous :
  let x := {| zv := 123456789; zord := None |} in
  let t := {| zv := 5; zord := Some (2^61 - 1) |} in
  zp_deserialize t (zp_serialize x) = Ok {| zv := 123456789; zord := Some (2^61 - 1) |} /\
  zp_deserialize t (map z2b [177; 0; 2; 9]) = UB.
Proof. vm_compute. auto. Qed.

(** C65 *)
Theorem C65_roundtrip : forall u t, 0 <= uval u < 2^32 ->
  uint_deserialize t (uint_serialize u) = Ok {| uval := uval u; ubits := ubits t |}.
Proof.
  intros u t H. pose proof (get32_pack32_lemma [z2b 161] (uval u) [] H) as G.
  unfold get32bits, pack32bits in G. cbn [length Nat.add] in G. rewrite app_nil_r in G.
  unfold uint_deserialize, uint_serialize. cbn [app] in G.
  destruct (at_ _ 1) eqn:E1; try discriminate.
  destruct (at_ _ 2) eqn:E2; try discriminate.
  destruct (at_ _ 3) eqn:E3; try discriminate.
  destruct (at_ _ 4) eqn:E4; try discriminate.
  cbn [bind] in G |- *. change (Ok {| uval := fst (a * 2 ^ 24 + a0 * 2 ^ 16 + a1 * 2 ^ 8 + a2, 5%nat); ubits := ubits t |} = Ok {| uval := uval u; ubits := ubits t |}).
  assert (G2 : forall (x y : Z * nat), Ok x = Ok y -> x = y) by (intros x y K; congruence).
  apply G2 in G. rewrite G. reflexivity.
Qed.
Print Assumptions C65_roundtrip.
Theorem C65_short : forall t input, len input < 5 -> uint_deserialize t input = Throw OutOfRange.
Proof.
  intros t input H. unfold uint_deserialize.
  destruct input as [|a [|b [|c [|d [|e l]]]]]; try reflexivity.
  exfalso. unfold len in H. cbn [length] in H. lia.
Qed.
Print Assumptions C65_short.
(** The width is not part of the serialisation. *)
Theorem C65_width_not_transmitted : exists u t, 0 <= uval u < 2^32 /\
  uint_deserialize t (uint_serialize u) <> Ok u.
Proof. exists {| uval := 5; ubits := 8 |}, {| uval := 0; ubits := 0 |}. split; [split; [discriminate|reflexivity]|]. vm_compute. discriminate. Qed.
Print Assumptions C65_width_not_transmitted.
Example C65_nonvacuous :
  uint_deserialize {| uval := 0; ubits := 0 |} (uint_serialize {| uval := 305419896; ubits := 0 |}) = Ok {| uval := 305419896; ubits := 0 |}.
Proof. vm_compute. reflexivity. Qed.
