(** C115-C119: the classes ZP, G1, G2 and GT, compression and sizes. *)
From Verif Require Import Base StrMap ByteString ByteStringProofs UInteger Field FieldProofs PropField Policy Driver Parser AttrList Container ContainerSpec ContainerProofs Element ElementSpec.
From Coq Require Import ZArith Znumtheory List Ascii Bool Lia.
Import ListNotations.
Open Scope Z_scope.

(** ** C115 *)
Section Expressions.
Context (p : Z) (rho : nat -> zp).
Hypothesis P : prime p.
Hypothesis P32 : 2^32 <= p.
Hypothesis F : in_field p rho.
Notation val e v := (value p (values rho) e v).
Definition settled (e : zexpr) : Prop :=
  (exists z, zeval rho e = Ok z /\ 0 <= zv z < p /\ zord z = (if literal e then None else Some p) /\ forall v, val e v <-> v = zv z) \/
  ((forall v, ~ val e v) /\ (zeval rho e = Exit \/ zeval rho e = UB /\ uses_inverse e = true)).
Lemma p_pos : 0 < p. Proof. lia. Qed.
Lemma join_some : forall a b x y, zord x = (if literal a then None else Some p) -> zord y = (if literal b then None else Some p) ->
  literal a && literal b = false -> join_order x y = Some p.
Proof. intros a b x y Hx Hy H. unfold join_order. rewrite Hx, Hy. destruct (literal a), (literal b); try reflexivity; discriminate. Qed.
Lemma settle2 : forall a b (op : zexpr -> zexpr -> zexpr) (f : zp -> zp -> res zp) (g : Z -> Z -> Z),
  settled a -> settled b -> literal a && literal b = false ->
  zeval rho (op a b) = bind (zeval rho a) (fun x => bind (zeval rho b) (fun y => f x y)) ->
  (forall v, val (op a b) v <-> exists x y, val a x /\ val b y /\ v = g x y mod p) ->
  uses_inverse (op a b) = uses_inverse a || uses_inverse b -> literal (op a b) = false ->
  (forall x y, join_order x y = Some p -> f x y = Ok {| zv := g (zv x) (zv y) mod p; zord := Some p |}) ->
  settled (op a b).
Proof.
  intros a b op f g Ha Hb Hl Ee Ev Ei El Hf. unfold settled. rewrite Ee, El.
  destruct Ha as [(x & Ex & Rx & Ox & Vx)|(Na & Ea)].
  - destruct Hb as [(y & Ey & Ry & Oy & Vy)|(Nb & Eb)].
    + left. rewrite Ex. cbn [bind]. rewrite Ey. cbn [bind]. rewrite (Hf x y (join_some a b x y Ox Oy Hl)). eexists. split; [reflexivity|]. cbn [zv zord].
      split; [apply Z.mod_pos_bound, p_pos|]. split; [reflexivity|]. intro v. rewrite Ev. split.
      * intros (u & w & Hu & Hw & ->). apply Vx in Hu. apply Vy in Hw. subst. reflexivity.
      * intros ->. exists (zv x), (zv y). rewrite Vx, Vy. auto.
    + right. split; [intros v Hv; apply Ev in Hv as (u & w & _ & Hw & _); exact (Nb w Hw)|]. rewrite Ex. cbn [bind]. rewrite Ei.
      destruct Eb as [->|[-> ->]]; [left; reflexivity|right]. rewrite orb_true_r. auto.
  - right. split; [intros v Hv; apply Ev in Hv as (u & w & Hu & _); exact (Na u Hu)|]. rewrite Ei. destruct Ea as [->|[-> ->]]; [left; reflexivity|right; auto].
Qed.
Lemma settle1 : forall a (e : zexpr) (f : zp -> res zp) (g : Z -> Z),
  settled a -> zeval rho e = bind (zeval rho a) f -> (forall v, val e v <-> exists x, val a x /\ v = g x mod p) ->
  uses_inverse e = uses_inverse a -> literal e = false ->
  (forall x, zord x = (if literal a then None else Some p) -> f x = Ok {| zv := g (zv x) mod p; zord := Some p |}) -> settled e.
Proof.
  intros a e f g Ha Ee Ev Ei El Hf. unfold settled. rewrite Ee, El. destruct Ha as [(x & Ex & Rx & Ox & Vx)|(Na & Ea)].
  - left. rewrite Ex. cbn [bind]. rewrite (Hf x Ox). eexists. split; [reflexivity|]. cbn [zv zord]. split; [apply Z.mod_pos_bound, p_pos|]. split; [reflexivity|].
    intro v. rewrite Ev. split; [intros (u & Hu & ->); apply Vx in Hu; subst; reflexivity|intros ->; exists (zv x); rewrite Vx; auto].
  - right. split; [intros v Hv; apply Ev in Hv as (u & Hu & _); exact (Na u Hu)|]. rewrite Ei. destruct Ea as [->|[-> ->]]; auto.
Qed.
Lemma quotient_unique : forall y v w, y mod p <> 0 -> 0 <= v < p -> 0 <= w < p -> (v * y) mod p = (w * y) mod p -> v = w.
Proof.
  intros y v w Hy Hv Hw E. pose proof (fmul_finv p y P Hy) as I.
  assert (forall u, u mod p = ((u * y) mod p * finv p y) mod p) as T.
  { intro u. rewrite Zmult_mod_idemp_l. replace (u * y * finv p y) with (u * (y * finv p y)) by ring. rewrite <- Zmult_mod_idemp_r.
    unfold eqm in I. rewrite I, Zmult_mod_idemp_r. f_equal. ring. }
  rewrite <- (Z.mod_small v p), <- (Z.mod_small w p) by assumption. rewrite (T v), (T w), E. reflexivity.
Qed.
Lemma expression_settled : forall e, fits e -> settled e.
Proof.
  induction e as [i|x|a IHa b IHb|a IHa b IHb|a IHa b IHb|a IHa b IHb|a IHa|a IHa k|a IHa b IHb|a IHa|i a IHa k]; intro H; cbn [fits] in H.
  - left. exists (rho i). destruct (F i) as [O R]. split; [reflexivity|]. split; [exact R|]. split; [exact O|]. intro v. cbn. reflexivity.
  - left. exists (zp_uint x). split; [reflexivity|]. unfold zp_uint. cbn [zv zord literal]. rewrite Z.mod_small by exact H. split; [lia|]. split; [reflexivity|]. intro v. cbn. reflexivity.
  - destruct H as (Fa & Fb & L). apply (settle2 a b ZAdd zp_add Z.add (IHa Fa) (IHb Fb) L); try reflexivity. intros x y J. unfold zp_add, zp_op. rewrite J. reflexivity.
  - destruct H as (Fa & Fb & L). apply (settle2 a b ZSub zp_sub Z.sub (IHa Fa) (IHb Fb) L); try reflexivity. intros x y J. unfold zp_sub, zp_op. rewrite J. reflexivity.
  - destruct H as (Fa & Fb & L). apply (settle2 a b ZMul zp_mul Z.mul (IHa Fa) (IHb Fb) L); try reflexivity. intros x y J. unfold zp_mul, zp_op. rewrite J. reflexivity.
  - destruct H as (Fa & Fb & L). specialize (IHa Fa). specialize (IHb Fb). unfold settled. cbn [zeval literal uses_inverse value].
    destruct IHa as [(x & Ex & Rx & Ox & Vx)|(Na & Ea)].
    2: { right. split; [intros v (u & w & Hu & _); exact (Na u Hu)|]. destruct Ea as [->|[-> ->]]; [left; reflexivity|right; auto]. }
    rewrite Ex. cbn [bind]. destruct IHb as [(y & Ey & Ry & Oy & Vy)|(Nb & Eb)].
    2: { right. split; [intros v (u & w & _ & Hw & _); exact (Nb w Hw)|]. destruct Eb as [->|[-> ->]]; [left; reflexivity|right; rewrite orb_true_r; auto]. }
    rewrite Ey. cbn [bind]. pose proof (join_some a b x y Ox Oy L) as J.
    destruct (Z.eq_dec (zv y) 0) as [Zy|Zy].
    + right. split; [intros v (u & w & _ & Hw & N & _); apply Vy in Hw; subst w; rewrite Zy in N; apply N; apply Z.mod_0_l; lia|]. left. unfold zp_div. rewrite Zy. reflexivity.
    + assert (zp_div x y = zp_div {| zv := zv x; zord := Some p |} y) as E by (unfold zp_div, zp_op; rewrite J; reflexivity).
      destruct (zp_div_lemma p {| zv := zv x; zord := Some p |} y P eq_refl Rx Ry) as [[C _]|[_ (q & D & O & R & M & U)]]; [contradiction|].
      left. exists q. rewrite E. split; [exact D|]. split; [exact R|]. split; [exact O|]. cbn [zv] in M.
      assert (zv y mod p <> 0) as Ny by (rewrite Z.mod_small by exact Ry; exact Zy). intro v. split.
      * intros (u & w & Hu & Hw & N & Rv & Q). apply Vx in Hu. apply Vy in Hw. subst u w. apply (quotient_unique (zv y)); auto. rewrite Q, M. apply Z.mod_small. exact Rx.
      * intros ->. exists (zv x), (zv y). rewrite Vx, Vy. split; [reflexivity|]. split; [reflexivity|]. split; [exact Ny|]. split; [exact R|]. rewrite M. symmetry. apply Z.mod_small. exact Rx.
  - destruct H as (Fa & L). apply (settle1 a (ZNeg a) zp_neg Z.opp (IHa Fa)); try reflexivity. intros x O. rewrite L in O. unfold zp_neg. rewrite O. reflexivity.
  - destruct H as (Fa & L & K). apply (settle1 a (ZPow a k) (fun x => zp_power x k) (fun x => x ^ k) (IHa Fa)); try reflexivity. intros x O. rewrite L in O. unfold zp_power. rewrite O. reflexivity.
  - destruct H as (Fa & Fb & L). apply (settle2 a b ZPowZ zp_power_zp Z.pow (IHa Fa) (IHb Fb) L); try reflexivity. intros x y J. unfold zp_power_zp, zp_op. rewrite J. reflexivity.
  - destruct H as (Fa & L). specialize (IHa Fa). unfold settled. cbn [zeval literal uses_inverse value].
    destruct IHa as [(x & Ex & Rx & Ox & Vx)|(Na & Ea)].
    2: { right. split; [intros v (u & Hu & _); exact (Na u Hu)|]. destruct Ea as [->|[-> _]]; auto. }
    rewrite Ex. cbn [bind]. rewrite L in Ox. unfold zp_inverse. rewrite Ox. destruct (zv x mod p =? 0) eqn:Zx.
    + right. split; [|auto]. intros v (u & Hu & _ & Q). apply Vx in Hu. subst u. apply Z.eqb_eq in Zx.
      rewrite <- Zmult_mod_idemp_r, Zx, Z.mul_0_r, Z.mod_0_l in Q by lia. discriminate.
    + apply Z.eqb_neq in Zx. left. eexists. split; [reflexivity|]. cbn [zv zord]. pose proof (finv_range p (zv x) p_pos) as R. split; [exact R|]. split; [reflexivity|].
      pose proof (finv_spec p (zv x) P Zx) as S. intro v. split.
      * intros (u & Hu & Rv & Q). apply Vx in Hu. subst u. apply (quotient_unique (zv x)); auto. rewrite Q, <- S. f_equal. ring.
      * intros ->. exists (zv x). rewrite Vx. split; [reflexivity|]. split; [exact R|]. rewrite <- S. f_equal. ring.
  - destruct H as (Fa & K). apply (settle1 a (ZFrom i a k) (fun x => zp_set_from (rho i) x k) (fun x => x + k) (IHa Fa)); try reflexivity.
    intros x O. destruct (F i) as [Oi _]. unfold zp_set_from, zp_add, zp_op, join_order. cbn [zord zv]. rewrite Oi. unfold zp_uint, fadd. cbn [zv]. rewrite (Z.mod_small k) by exact K. reflexivity.
Qed.
End Expressions.

(** An expression over elements of the field yields the one value it has there, as
    an element of the field, or the program ends because it divides by zero. *)
Theorem C115_expressions : forall p rho e, prime p -> 2^32 <= p -> in_field p rho -> fits e ->
  (exists z, zeval rho e = Ok z /\ 0 <= zv z < p /\ (literal e = false -> zord z = Some p) /\ forall v, value p (values rho) e v <-> v = zv z) \/
  ((forall v, ~ value p (values rho) e v) /\ (zeval rho e = Exit \/ zeval rho e = UB /\ uses_inverse e = true)).
Proof.
  intros p rho e P P32 F Fe. destruct (expression_settled p rho P P32 F e Fe) as [(z & E & R & O & V)|H]; [|right; exact H].
  left. exists z. split; [exact E|]. split; [exact R|]. split; [intro L; rewrite L in O; exact O|exact V].
Qed.
Print Assumptions C115_expressions.

Lemma value_ext : forall p s s' e v, (forall i, s i = s' i) -> value p s e v -> value p s' e v.
Proof.
  intros p s s' e v E. revert v. induction e; intro v; cbn [value]; intro H;
    try (destruct H as (x & y & Hx & Hy & H); exists x, y; split; [auto|]; split; [auto|exact H]);
    try (destruct H as (x & Hx & H); exists x; split; [auto|exact H]); auto. rewrite <- E. exact H.
Qed.
Lemma field_run_ext : forall p l s s' t, (forall i, s i = s' i) -> field_run p l s t -> field_run p l s' t.
Proof.
  intros p l s s' t E H. destruct H as [s0 s1 H|i e l s0 s1 t H1 H2 H3].
  - constructor. intro i. rewrite <- E. apply H.
  - apply run_cons with (s1 := s1); [apply value_ext with (s := s0); auto|intros j J; rewrite <- E; apply H2, J|exact H3].
Qed.
(** A program of assignments computes as over the field, step by step. *)
Theorem C115_programs : forall p l rho, prime p -> 2^32 <= p -> in_field p rho -> Forall (fun a => fits (snd a) /\ literal (snd a) = false) l ->
  (forall rho', zrun l rho = Ok rho' -> in_field p rho' /\ field_run p l (values rho) (values rho')) /\
  (forall s', field_run p l (values rho) s' -> exists rho', zrun l rho = Ok rho' /\ forall i, s' i = values rho' i).
Proof.
  intros p l. induction l as [|[i e] l IH]; intros rho P P32 F H.
  - split; [intros rho' E; injection E as <-; split; [exact F|constructor; reflexivity]|]. intros s' R. inversion R; subst. exists rho. split; [reflexivity|]. intro i. symmetry. auto.
  - inversion H as [|? ? [Fe Le] Hl]; subst. cbn [snd] in *. cbn [zrun].
    assert (forall z, 0 <= zv z < p -> zord z = Some p -> in_field p (zset rho i z)) as FS.
    { intros z R O j. unfold zset. destruct (Nat.eqb i j); [auto|apply F]. }
    destruct (C115_expressions p rho e P P32 F Fe) as [(z & E & R & O & V)|(N & E)].
    + rewrite E. cbn [bind]. destruct (IH (zset rho i z) P P32 (FS z R (O Le)) Hl) as [I1 I2]. split.
      * intros rho' E'. destruct (I1 rho' E') as [F' R']. split; [exact F'|]. apply run_cons with (s1 := values (zset rho i z)); [|intros j J|exact R'].
        -- unfold values at 2. unfold zset. rewrite Nat.eqb_refl. apply V. reflexivity.
        -- unfold values, zset. destruct (Nat.eqb_spec i j); [congruence|reflexivity].
      * intros s' R'. inversion R' as [|? ? ? ? s1 ? Hv Hj Hr]; subst. apply I2. apply field_run_ext with (s := s1); [|exact Hr].
        intro j. unfold values, zset. destruct (Nat.eqb_spec i j) as [<-|D]; [apply V; exact Hv|apply Hj; congruence].
    + split; [intros rho' E'; destruct E as [E|[E _]]; rewrite E in E'; discriminate|]. intros s' R'. inversion R' as [|? ? ? ? s1 ? Hv Hj Hr]; subst. exfalso. exact (N _ Hv).
Qed.
Print Assumptions C115_programs.
(** Two constants cannot be added, and the inverse of a constant is the constant. *)
Theorem C115_constants_refuted : zeval (fun _ => zp_uint 0) (ZAdd (ZLit 2) (ZLit 3)) = UB /\ zeval (fun _ => zp_uint 0) (ZPow (ZLit 2) 3) = UB /\
  exists x, zp_inverse (zp_uint 5) = Ok x /\ forall p, prime p -> 5 < p -> (zv x * 5) mod p <> 1.
Proof.
  split; [reflexivity|]. split; [reflexivity|]. eexists. split; [reflexivity|]. intros p P L. change (zv (zp_uint 5)) with 5. intro E.
  assert (p <= 25) as B by (destruct (Z.le_gt_cases p 25); [assumption|rewrite Z.mod_small in E by lia; discriminate]).
  destruct P as [_ P].
  assert (p = 6 \/ p = 7 \/ p = 8 \/ p = 9 \/ p = 10 \/ p = 11 \/ p = 12 \/ p = 13 \/ p = 14 \/ p = 15 \/ p = 16 \/ p = 17 \/ p = 18 \/ p = 19 \/ p = 20 \/ p = 21 \/ p = 22 \/ p = 23 \/ p = 24 \/ p = 25) as H by lia.
  repeat (destruct H as [->|H]; [vm_compute in E; try discriminate E; exfalso|]); try (subst; vm_compute in E; try discriminate E; exfalso);
    match goal with P : forall n, 1 <= n < ?q -> _ |- _ => 
      first [ assert (rel_prime 2 q) as X by (apply P; lia); apply Zgcd_1_rel_prime in X; vm_compute in X; discriminate X ] end.
Qed.
Print Assumptions C115_constants_refuted.

(** Non-vacuity: the program [x := (x + 3) / y; y := -x * y] on 11 and 7. *)
Definition demo_field : nat -> zp := fun i => {| zv := if Nat.eqb i 0 then 11 else 7; zord := Some 4294967311 |}.
Example C115_example : in_field 4294967311 demo_field /\
  Forall (fun a => fits (snd a) /\ literal (snd a) = false) [(0%nat, ZDiv (ZAdd (ZVar 0) (ZLit 3)) (ZVar 1)); (1%nat, ZMul (ZNeg (ZVar 0)) (ZVar 1))] /\
  exists r, zrun [(0%nat, ZDiv (ZAdd (ZVar 0) (ZLit 3)) (ZVar 1)); (1%nat, ZMul (ZNeg (ZVar 0)) (ZVar 1))] demo_field = Ok r /\ zv (r 0%nat) = 2 /\ zv (r 1%nat) = 4294967297.
Proof.
  split; [intro i; unfold demo_field; cbn [zord zv]; destruct (Nat.eqb i 0); split; (reflexivity || lia)|]. split.
  - repeat constructor; cbn; try lia.
  - eexists. split; [vm_compute; reflexivity|]. split; vm_compute; reflexivity.
Qed.
Example C115_division_by_zero : zeval demo_field (ZDiv (ZVar 0) (ZSub (ZVar 1) (ZVar 1))) = Exit /\ zeval demo_field (ZInv (ZSub (ZVar 1) (ZVar 1))) = UB.
Proof. split; vm_compute; reflexivity. Qed.

(** Assigning a constant takes the order away from the variable. *)
Theorem C115_assignment_refuted : exists p rho rho', in_field p rho /\ zrun [(0%nat, ZLit 5)] rho = Ok rho' /\ zord (rho' 0%nat) = None /\
  zrun [(0%nat, ZLit 5); (0%nat, ZNeg (ZVar 0))] rho = UB.
Proof.
  exists 4294967311, demo_field. eexists. split; [apply C115_example|]. split; [reflexivity|]. split; reflexivity.
Qed.
Print Assumptions C115_assignment_refuted.
(** A random element: below the order it has, whatever is asked for, and any one
    reachable; but asked with an element of the field instead of a bare number, the
    call changes nothing. *)
Theorem C115_random : forall p, 0 < p ->
  (forall this r, zord this = None \/ zord this = Some p -> zord (zp_random this p r) = Some p /\ 0 <= zv (zp_random this p r) < p) /\
  (forall this v, zord this = None \/ zord this = Some p -> 0 <= v < p -> exists r, zv (zp_random this p r) = v) /\
  (forall this o r, zord this = Some p -> zord (zp_random this o r) = Some p /\ 0 <= zv (zp_random this o r) < p) /\
  (forall this order r, zord order <> None -> zp_random_zp this order r = this) /\
  (forall this r, zord this = None -> zord (zp_random_zp this {| zv := p; zord := None |} r) = Some p /\ 0 <= zv (zp_random_zp this {| zv := p; zord := None |} r) < p).
Proof.
  intros p P. split; [|split; [|split; [|split]]].
  - intros this r [E|E]; unfold zp_random; rewrite E; cbn [zord zv]; split; auto; apply Z.mod_pos_bound; exact P.
  - intros this v [E|E] H; exists v; unfold zp_random; rewrite E; cbn [zv]; apply Z.mod_small; exact H.
  - intros this o r E. unfold zp_random. rewrite E. cbn [zord zv]. split; auto; apply Z.mod_pos_bound; exact P.
  - intros this order r H. unfold zp_random_zp. destruct (zord order); [reflexivity|congruence].
  - intros this r E. unfold zp_random_zp. cbn [zord zv]. rewrite E. split; auto; apply Z.mod_pos_bound; exact P.
Qed.
Print Assumptions C115_random.

(** ** C116 *)
Theorem C116_order : forall x y z,
  ((zp_ltb x y = true /\ zp_eqb x y = false /\ zp_gtb x y = false) \/
   (zp_ltb x y = false /\ zp_eqb x y = true /\ zp_gtb x y = false) \/
   (zp_ltb x y = false /\ zp_eqb x y = false /\ zp_gtb x y = true)) /\
  (zp_ltb x y = true -> zp_ltb y z = true -> zp_ltb x z = true) /\
  zp_gtb x y = zp_ltb y x /\ zp_leb x y = negb (zp_gtb x y) /\ zp_geb x y = negb (zp_ltb x y) /\ zp_neb x y = negb (zp_eqb x y).
Proof. intros [x ox] [y oy] [z oz]. unfold zp_ltb, zp_eqb, zp_gtb, zp_leb, zp_geb, zp_neb. cbn [zv]. lia. Qed.
Print Assumptions C116_order.
(** On elements of the field, == is equality in the field. *)
Theorem C116_equality : forall p x y, zord x = Some p -> zord y = Some p -> zp_ismember x = true -> zp_ismember y = true ->
  (zp_eqb x y = true <-> zv x mod p = zv y mod p).
Proof.
  intros p x y Ox Oy Mx My. unfold zp_ismember in *. rewrite Ox in Mx. rewrite Oy in My. unfold zp_eqb. rewrite !Z.mod_small by lia. lia.
Qed.
Print Assumptions C116_equality.
(** Comparing what two expressions yield decides whether they have the same value. *)
Theorem C116_expressions : forall p rho e1 e2 x y, prime p -> 2^32 <= p -> in_field p rho -> fits e1 -> fits e2 ->
  zeval rho e1 = Ok x -> zeval rho e2 = Ok y -> (zp_eqb x y = true <-> exists v, value p (values rho) e1 v /\ value p (values rho) e2 v).
Proof.
  intros p rho e1 e2 x y P P32 F F1 F2 E1 E2.
  destruct (C115_expressions p rho e1 P P32 F F1) as [(x' & E1' & _ & _ & V1)|(_ & [E|[E _]])]; [|congruence..].
  destruct (C115_expressions p rho e2 P P32 F F2) as [(y' & E2' & _ & _ & V2)|(_ & [E|[E _]])]; [|congruence..].
  rewrite E1 in E1'. rewrite E2 in E2'. injection E1' as <-. injection E2' as <-. unfold zp_eqb. rewrite Z.eqb_eq. split.
  - intro H. exists (zv x). rewrite V1, V2. auto.
  - intros (v & H1 & H2). apply V1 in H1. apply V2 in H2. congruence.
Qed.
Print Assumptions C116_expressions.
(** A shift is multiplication by a power of two, but the result is an element of
    the field only when nothing overflows the order. *)
Theorem C116_shift : forall p x b, 0 < p -> zord x = Some p -> 0 <= zv x < p -> 0 <= b ->
  exists y, zp_lshift x b = Ok y /\ zord y = Some p /\ zv y mod p = (zv x * 2 ^ b) mod p /\ (zp_ismember y = true <-> zv x * 2 ^ b < p) /\
    exists z, zp_rshift y b = Ok z /\ zp_eqb z x = true.
Proof.
  intros p x b P O R B. unfold zp_lshift. replace (b <? 0) with false by lia. eexists. split; [reflexivity|]. cbn [zord zv]. split; [exact O|]. split; [reflexivity|].
  pose proof (Z.pow_pos_nonneg 2 b). split.
  - unfold zp_ismember. cbn [zord zv]. rewrite O. nia.
  - unfold zp_rshift. cbn [zord zv]. replace (b <? 0) with false by lia. eexists. split; [reflexivity|]. unfold zp_eqb. cbn [zv]. rewrite Z.div_mul by lia. apply Z.eqb_refl.
Qed.
Print Assumptions C116_shift.
Theorem C116_shift_refuted : exists p x a b, zord x = Some p /\ zp_ismember x = true /\ zp_lshift x 1 = Ok a /\ zp_add x x = Ok b /\
  zv a mod p = zv b mod p /\ zp_eqb a b = false /\ zp_ltb b a = true.
Proof. exists 7, {| zv := 5; zord := Some 7 |}. eexists _, _. repeat split; reflexivity. Qed.
Print Assumptions C116_shift_refuted.
(** The constructor from text does not reduce either. *)
Theorem C116_text_refuted : exists p v, zp_ismember (zp_hex v p) = false /\ zp_eqb (zp_hex v p) (zp_bin (to_be v) p) = false /\ zv (zp_hex v p) mod p = zv (zp_bin (to_be v) p) mod p.
Proof. exists 7, 12. repeat split; vm_compute; reflexivity. Qed.
Print Assumptions C116_text_refuted.
Theorem C116_bytes : forall b p, 0 < p -> zord (zp_bin b p) = Some p /\ zp_ismember (zp_bin b p) = true /\ zv (zp_bin b p) mod p = of_be b mod p.
Proof.
  intros b p P. unfold zp_bin. cbn [zord zv]. split; [reflexivity|]. pose proof (Z.mod_pos_bound (of_be b) p P). split; [unfold zp_ismember; cbn [zord zv]; lia|]. apply Z.mod_mod. lia.
Qed.
Print Assumptions C116_bytes.

(** ** C117 *)
Section GroupFacts.
Context (R : relic) (p : Z).
Hypothesis G : group_laws R p.
Notation "x [+] y" := (r_add R x y) (at level 50, left associativity).
Notation O := (r_zero R).
Lemma g_zero_r : forall x, x [+] O = x.
Proof. intro x. rewrite (gl_comm R p G). apply (gl_zero R p G). Qed.
Lemma g_cancel : forall x y z, x [+] y = x [+] z -> y = z.
Proof.
  intros x y z E. rewrite <- (gl_zero R p G y), <- (gl_zero R p G z), <- (gl_neg R p G x), (gl_comm R p G x), <- !(gl_assoc R p G), E. reflexivity.
Qed.
Lemma g_neg_unique : forall x y, x [+] y = O -> y = r_neg R x.
Proof. intros x y E. apply (g_cancel x). rewrite E, (gl_neg R p G). reflexivity. Qed.
Lemma mul_0 : forall x, r_mul R x 0 = O.
Proof. intro x. apply (g_cancel (r_mul R x 0)). rewrite <- (gl_mul_add R p G), g_zero_r. reflexivity. Qed.
Lemma mul_neg : forall x a, r_mul R x (- a) = r_neg R (r_mul R x a).
Proof. intros x a. apply g_neg_unique. rewrite <- (gl_mul_add R p G), Z.add_opp_diag_r. apply mul_0. Qed.
Lemma mul_m1 : forall x, r_mul R x (-1) = r_neg R x.
Proof. intro x. change (-1) with (- (1)). rewrite mul_neg, (gl_mul_1 R p G). reflexivity. Qed.
Lemma zero_neg : r_neg R O = O.
Proof. symmetry. apply g_neg_unique. apply (gl_zero R p G). Qed.
Lemma mul_multiple : forall x q, r_mul R x (p * q) = O.
Proof.
  intros x q. induction q as [|q IH|q IH] using Z.peano_ind.
  - rewrite Z.mul_0_r. apply mul_0.
  - replace (p * Z.succ q) with (p * q + p) by (unfold Z.succ; ring). rewrite (gl_mul_add R p G), IH, (gl_order R p G). apply (gl_zero R p G).
  - replace (p * Z.pred q) with (p * q + - p) by (unfold Z.pred; ring). rewrite (gl_mul_add R p G), IH, mul_neg, (gl_order R p G), zero_neg. apply (gl_zero R p G).
Qed.
Lemma mul_mod : forall x a, 0 < p -> r_mul R x (a mod p) = r_mul R x a.
Proof. intros x a P. rewrite (Z.div_mod a p) at 2 by lia. rewrite (gl_mul_add R p G), mul_multiple, (gl_zero R p G). reflexivity. Qed.
Lemma mul_congruent : forall x a b, 0 < p -> a mod p = b mod p -> r_mul R x a = r_mul R x b.
Proof. intros x a b P E. rewrite <- (mul_mod x a P), E. apply mul_mod. exact P. Qed.
Lemma mul_sum : forall x y a, r_mul R (x [+] y) a = r_mul R x a [+] r_mul R y a.
Proof.
  assert (forall a b c d, (a [+] b) [+] (c [+] d) = (a [+] c) [+] (b [+] d)) as S.
  { intros a b c d. rewrite <- !(gl_assoc R p G). f_equal. rewrite !(gl_assoc R p G), (gl_comm R p G b c). reflexivity. }
  assert (forall u v, r_neg R (u [+] v) = r_neg R u [+] r_neg R v) as N.
  { intros u v. symmetry. apply g_neg_unique. rewrite S, !(gl_neg R p G). apply (gl_zero R p G). }
  intros x y a. induction a as [|a IH|a IH] using Z.peano_ind.
  - rewrite !mul_0. symmetry. apply (gl_zero R p G).
  - unfold Z.succ. rewrite !(gl_mul_add R p G), !(gl_mul_1 R p G), IH. apply S.
  - replace (Z.pred a) with (a + -1) by lia. rewrite !(gl_mul_add R p G), !mul_m1, IH, N. apply S.
Qed.
Lemma mul_mul : forall x a b, r_mul R (r_mul R x a) b = r_mul R x (a * b).
Proof.
  intros x a b. induction b as [|b IH|b IH] using Z.peano_ind.
  - rewrite Z.mul_0_r, !mul_0. reflexivity.
  - replace (a * Z.succ b) with (a * b + a) by (unfold Z.succ; ring). unfold Z.succ. rewrite !(gl_mul_add R p G), (gl_mul_1 R p G), IH. reflexivity.
  - replace (a * Z.pred b) with (a * b + - a) by (unfold Z.pred; ring). replace (Z.pred b) with (b + -1) by lia. rewrite !(gl_mul_add R p G), mul_m1, mul_neg, IH. reflexivity.
Qed.
End GroupFacts.

(** Expressions over G1 and G2 without the binary minus, and all expressions over
    GT, mean what they say.  Missing: the binary minus of G1 and G2 (see below). *)
Theorem C117_expressions_partial : forall R rho ks e, no_minus e = true -> geval R rho ks e = gmeans R rho (fun i => zv (ks i)) e.
Proof.
  intros R rho ks e. induction e; cbn [no_minus geval gmeans]; intro H; try reflexivity; try discriminate.
  - apply andb_prop in H as [H1 H2]. rewrite IHe1, IHe2 by assumption. reflexivity.
  - rewrite IHe by assumption. reflexivity.
Qed.
Print Assumptions C117_expressions_partial.
Theorem C117_target_expressions : forall R rho ks e, teval R rho ks e = tmeans R rho (fun i => zv (ks i)) e.
Proof. intros R rho ks e. induction e; cbn [teval tmeans]; unfold gt_over, gt_inverse, g_times, g_plus, g_new; try reflexivity; rewrite ?IHe, ?IHe1, ?IHe2; reflexivity. Qed.
Print Assumptions C117_target_expressions.
(** In a group of order [p]: quotients undo products, inverses cancel, comparison
    is equality. *)
Theorem C117_target_quotient : forall R p x y, group_laws R p ->
  g_equal R (gt_over R (g_plus R x y) y) x = true /\ g_equal R (g_plus R x (gt_inverse R x)) (g_new R) = true /\ g_equal R (gt_over R x y) (g_plus R x (gt_inverse R y)) = true.
Proof.
  intros R p x y G. unfold g_equal, gt_over, g_plus, gt_inverse, g_new. rewrite !(gl_cmp R p G), <- (gl_assoc R p G), !(gl_neg R p G). split; [apply (g_zero_r R p G)|auto].
Qed.
Print Assumptions C117_target_quotient.
(** Scalars act as the field does: sums, products, opposites and quotients of
    scalars become sums, repeated scalings, inverses and divisions of elements. *)
Theorem C117_scalars : forall R p x a b, prime p -> group_laws R p -> zord a = Some p -> zord b = Some p ->
  (forall c, zp_add a b = Ok c -> g_times R x c = g_plus R (g_times R x a) (g_times R x b)) /\
  (forall c, zp_sub a b = Ok c -> g_plus R (g_times R x c) (g_times R x b) = g_times R x a) /\
  (forall c, zp_mul a b = Ok c -> g_times R x c = g_times R (g_times R x a) b) /\
  (forall c, zp_neg a = Ok c -> g_plus R (g_times R x a) (g_times R x c) = g_new R) /\
  (forall c, 0 <= zv a < p -> 0 <= zv b < p -> zp_div a b = Ok c -> g_times R (g_times R x c) b = g_times R x a) /\
  (zp_eqb a b = true -> g_times R x a = g_times R x b).
Proof.
  intros R p x a b P G Oa Ob. assert (0 < p) as Pp by (destruct P; lia). unfold g_times, g_plus, g_new.
  split; [|split; [|split; [|split; [|split]]]].
  - unfold zp_add, zp_op, join_order. rewrite Oa. intros c E. injection E as <-. cbn [zv]. unfold fadd. rewrite (mul_mod R p G) by exact Pp. apply (gl_mul_add R p G).
  - unfold zp_sub, zp_op, join_order. rewrite Oa. intros c E. injection E as <-. cbn [zv]. unfold fsub. rewrite (mul_mod R p G) by exact Pp. rewrite <- (gl_mul_add R p G). f_equal. lia.
  - unfold zp_mul, zp_op, join_order. rewrite Oa. intros c E. injection E as <-. cbn [zv]. unfold fmul. rewrite (mul_mod R p G) by exact Pp. symmetry. apply (mul_mul R p G).
  - unfold zp_neg. rewrite Oa. intros c E. injection E as <-. cbn [zv]. unfold fneg. rewrite (mul_mod R p G), (mul_neg R p G) by exact Pp. apply (gl_neg R p G).
  - intros c Ra Rb E. destruct (zp_div_lemma p a b P Oa Ra Rb) as [[_ X]|[_ (q & D & _ & _ & M & _)]]; [congruence|]. rewrite E in D. injection D as <-.
    rewrite (mul_mul R p G). apply (mul_congruent R p G); [exact Pp|]. rewrite M. symmetry. apply Z.mod_small. exact Ra.
  - unfold zp_eqb. intro E. apply Z.eqb_eq in E. rewrite E. reflexivity.
Qed.
Print Assumptions C117_scalars.
(** The binary minus of G1 and G2 forgets its left operand: it is right exactly when
    that operand is the neutral element. *)
Theorem C117_minus : forall R p x y, group_laws R p ->
  (g_equal R (g_plus R (g_minus R x y) y) x = true <-> x = r_zero R) /\ (forall x', g_minus R x y = g_minus R x' y).
Proof.
  intros R p x y G. split; [|reflexivity]. unfold g_equal, g_plus, g_minus. rewrite (gl_cmp R p G), (gl_comm R p G), (gl_neg R p G). split; auto.
Qed.
Print Assumptions C117_minus.
Definition toy_group (p : Z) : relic := {| elt := Z; r_zero := 0; r_add x y := (x + y) mod p; r_neg x := (- x) mod p; r_mul x k := (x * k) mod p; r_cmp := Z.eqb |}.
Theorem C117_minus_refuted : exists R (rho : nat -> elt R) ks, g_equal R (geval R rho ks (GMinus (GVar 0) (GVar 1))) (gmeans R rho (fun i => zv (ks i)) (GMinus (GVar 0) (GVar 1))) = false.
Proof. exists (toy_group 7), (fun i => if Nat.eqb i 0 then 5 else 3), (fun _ => zp_uint 0). vm_compute. reflexivity. Qed.
Print Assumptions C117_minus_refuted.
(** Non-vacuity: the laws hold for the residues modulo [p]. *)
Definition residue (p : Z) := { x : Z | (x mod p =? x) = true }.
Definition residue_of (p x : Z) : residue p := exist _ (x mod p) (proj2 (Z.eqb_eq _ _) (Zmod_mod x p)).
Definition residues (p : Z) : relic := {| elt := residue p; r_zero := residue_of p 0; r_add x y := residue_of p (proj1_sig x + proj1_sig y);
  r_neg x := residue_of p (- proj1_sig x); r_mul x k := residue_of p (proj1_sig x * k); r_cmp x y := proj1_sig x =? proj1_sig y |}.
Lemma residue_ext : forall p (x y : residue p), proj1_sig x = proj1_sig y -> x = y.
Proof. intros p [x Hx] [y Hy] E. cbn in E. subst y. f_equal. apply Eqdep_dec.UIP_dec. apply bool_dec. Qed.
Example C117_example : forall p, group_laws (residues p) p.
Proof.
  intro p. constructor; cbn [residues elt r_zero r_add r_neg r_mul r_cmp]; intros; try (apply residue_ext; cbn [proj1_sig residue_of]).
  - rewrite Zplus_mod_idemp_r, Zplus_mod_idemp_l. f_equal. ring.
  - f_equal. ring.
  - rewrite Zplus_mod_idemp_l. destruct x as [x H]. cbn [proj1_sig]. apply Z.eqb_eq. exact H.
  - rewrite Zplus_mod_idemp_r. f_equal. ring.
  - rewrite Z.mul_1_r. destruct x as [x H]. cbn [proj1_sig]. apply Z.eqb_eq. exact H.
  - rewrite Zplus_mod_idemp_r, Zplus_mod_idemp_l. f_equal. ring.
  - rewrite Z_mod_mult. symmetry. apply Zmod_0_l.
  - split; [intro E; apply Z.eqb_eq in E; apply residue_ext; exact E|intros ->; apply Z.eqb_refl].
Qed.

(** ** C118 *)
Lemma codec_curve : forall C f, codec_ok C -> curve_ok (curve_at C f).
Proof.
  intros C f H. constructor; cbn [curve_at g1_in g1_out g1_size g1_same g2_in g2_out g2_size g2_same gt_in gt_out gt_same order g1 g2 gt]; intros.
  - apply (co1_back C H).
  - apply (co1_len C H).
  - pose proof (co1_size C H f). lia.
  - apply (co1_same C H).
  - apply (co2_back C H).
  - apply (co2_len C H).
  - pose proof (co2_size C H f). lia.
  - apply (co2_same C H).
  - apply (cot_back C H).
  - apply (cot_len C H).
  - apply (cot_same C H).
  - apply (co_order C H).
Qed.
Definition flag (f : Z) : Prop := f = 0 \/ f = 1.
(** Reading an element whose bytes have neither length. *)
Lemma group_exit : forall G (inn : str -> res G) size tag b, 0 < len b < 2^32 -> len b <> 1 -> len b <> size -> group_read inn size (smart_pack [z2b tag] b) = Exit.
Proof.
  intros G inn size tag b H H1 Hs. unfold group_read.
  replace (smart_pack [z2b tag] b) with ([z2b tag] ++ smart_pack [] b ++ []) by (rewrite app_nil_r; symmetry; apply smart_pack_app).
  change 1%nat with (length [z2b tag]) at 1. rewrite su by exact H. cbn [snd bind].
  replace ((len b =? 1) || (len b =? size)) with false by lia. reflexivity.
Qed.
Lemma tagged : forall K mktime t b, 0 < len b < 2^32 -> t = 178 \/ t = 179 \/ t = 180 ->
  0 < len (smart_pack [z2b t] b) < 2^32 + 10 /\ element_of K mktime (smart_pack [z2b t] b) =
    if t =? 178 then bind (group_read (g1_in K) (g1_size K) (smart_pack [z2b t] b)) (fun x => Ok (Some (OG1 x)))
    else if t =? 179 then bind (group_read (g2_in K) (g2_size K) (smart_pack [z2b t] b)) (fun x => Ok (Some (OG2 x)))
    else bind (gt_in K b) (fun x => Ok (Some (OGt x))).
Proof.
  intros K mktime t b H T. pose proof (smart_pack_bounds b H) as B.
  assert (smart_pack [z2b t] b = z2b t :: smart_pack [] b) as E by apply smart_pack_app.
  assert (0 < len (smart_pack [z2b t] b) < 2^32 + 10) as L by (rewrite E, len_cons; lia). split; [exact L|]. unfold element_of.
  replace (len (smart_pack [z2b t] b) =? 0) with false by lia. rewrite E at 1. rewrite at_tag by lia. cbn [bind].
  destruct T as [->|[->| ->]]; cbn [Z.eqb Pos.eqb]; try reflexivity.
  rewrite E. replace (z2b 180 :: smart_pack [] b) with ([z2b 180] ++ smart_pack [] b ++ []) by (rewrite app_nil_r; reflexivity).
  change 1%nat with (length [z2b 180]) at 1. rewrite su by exact H. reflexivity.
Qed.
Section Cross.
Context (C : codec) (mktime : tm -> Z * tm) (f g : Z).
Hypothesis OK : codec_ok C.
Notation Kf := (curve_at C f).
Notation Kg := (curve_at C g).
Lemma element_cross : forall old (o : zobj Kf), portable Kf mktime o -> ~ point o ->
  exists o' o'', element_of Kg mktime (obj_serialize old o) = Ok (Some o') /\ clone o' = Some o'' /\ same_value (seen_at g o) o''.
Proof.
  intros old o H N. pose proof (codec_curve C g OK) as Cg. pose proof (codec_curve C f OK) as Cf.
  destruct o as [u|z|x|x|x|b|l|q]; cbn [portable] in H.
  - exact (proj2 (element_back Kg mktime old (OInt u) Cg H)).
  - exact (proj2 (element_back Kg mktime old (OZp z) Cg H)).
  - cbn [point] in N. assert (len (c1_write C f x) = 1) as L1 by (destruct (Z.eq_dec (len (c1_write C f x)) 1); [assumption|contradiction]).
    exists (@OG1 Kg x), (@OG1 Kg x). split; [|split; reflexivity]. cbn [obj_serialize]. cbn [curve_at g1_out].
    rewrite (proj2 (tagged Kg mktime 178 (c1_write C f x) ltac:(lia) (or_introl eq_refl))). cbn [Z.eqb Pos.eqb].
    rewrite (group_back _ _ _ _ _ x); [reflexivity|lia|left; exact L1|apply (co1_back C OK)].
  - cbn [point] in N. assert (len (c2_write C f x) = 1) as L1 by (destruct (Z.eq_dec (len (c2_write C f x)) 1); [assumption|contradiction]).
    exists (@OG2 Kg x), (@OG2 Kg x). split; [|split; reflexivity]. cbn [obj_serialize]. cbn [curve_at g2_out].
    rewrite (proj2 (tagged Kg mktime 179 (c2_write C f x) ltac:(lia) (or_intror (or_introl eq_refl)))). cbn [Z.eqb Pos.eqb].
    rewrite (group_back _ _ _ _ _ x); [reflexivity|lia|left; exact L1|apply (co2_back C OK)].
  - exists (@OGt Kg x), (@OGt Kg x). split; [|split; reflexivity]. cbn [obj_serialize]. cbn [curve_at gt_out]. pose proof (cot_len C OK f x) as L.
    rewrite (proj2 (tagged Kg mktime 180 (ct_write C f x) ltac:(lia) (or_intror (or_intror eq_refl)))). cbn [Z.eqb Pos.eqb].
    cbn [curve_at gt_in]. rewrite (cot_back C OK). reflexivity.
  - exact (proj2 (element_back Kg mktime old (OBytes b) Cg H)).
  - exact (proj2 (element_back Kg mktime old (OAttrs l) Cg H)).
  - destruct H.
Qed.
Lemma element_lost : forall old (o : zobj Kf), flag f -> flag g -> f <> g -> point o -> element_of Kg mktime (obj_serialize old o) = Exit.
Proof.
  intros old o Ff Fg D H.
  assert (len (c1_write C f (c1_gen C)) <> len (c1_write C g (c1_gen C)) /\ len (c2_write C f (c2_gen C)) <> len (c2_write C g (c2_gen C))) as [D1 D2].
  { pose proof (co1_differ C OK). pose proof (co2_differ C OK). destruct Ff as [->| ->], Fg as [->| ->]; try congruence; split; congruence. }
  destruct o as [u|z|x|x|x|b|l|q]; cbn [point] in H; try (destruct H; fail); cbn [obj_serialize]; cbn [curve_at g1_out g2_out].
  - destruct (co1_len C OK f x) as [L|L]; [contradiction|]. pose proof (co1_size C OK f).
    rewrite (proj2 (tagged Kg mktime 178 (c1_write C f x) ltac:(lia) (or_introl eq_refl))). cbn [Z.eqb Pos.eqb].
    rewrite group_exit; [reflexivity|lia|lia|cbn [curve_at g1_size]; lia].
  - destruct (co2_len C OK f x) as [L|L]; [contradiction|]. pose proof (co2_size C OK f).
    rewrite (proj2 (tagged Kg mktime 179 (c2_write C f x) ltac:(lia) (or_intror (or_introl eq_refl)))). cbn [Z.eqb Pos.eqb].
    rewrite group_exit; [reflexivity|lia|lia|cbn [curve_at g2_size]; lia].
Qed.
Lemma point_dec : forall o : zobj Kf, point o \/ ~ point o.
Proof. intros [u|z|x|x|x|b|l|q]; cbn [point]; try (right; tauto); match goal with |- ?a <> 1 \/ _ => destruct (Z.eq_dec a 1); [right|left]; tauto end. Qed.
Lemma loop_cross : forall l old pre c0 fuel s,
  Forall (fun e => good_name (fst e) /\ exists o, snd e = Some o /\ portable Kf mktime o) l -> NoDup (map fst l) -> l <> [] ->
  serialize_loop l old [] = Ok s -> (length l <= fuel)%nat ->
  (flag f -> flag g -> f <> g -> (exists k o, In (k, Some o) l /\ point o) -> snd (deserialize_loop Kg mktime fuel (pre ++ s) (length pre) c0) = Exit) /\
  ((forall k o, In (k, Some o) l -> ~ point o) -> exists c', deserialize_loop Kg mktime fuel (pre ++ s) (length pre) c0 = (c', Ok tt) /\
    (forall k o, In (k, Some o) l -> exists o', mget k c' = Some (Some o') /\ same_value (seen_at g o) o') /\
    (forall k, ~ In k (map fst l) -> mget k c' = mget k c0) /\ (msorted c0 -> msorted c')).
Proof.
  induction l as [|[k v] l IH]; intros old pre c0 fuel s HF HN Hne E Hf; [congruence|].
  inversion HF as [|? ? [Hk (o & Ev & Ho)] HF']; subst. cbn [fst snd] in *. subst v. inversion HN as [|? ? Hnk HN']; subst.
  cbn [serialize_loop] in E. rewrite serialize_app in E. destruct (serialize_loop l _ []) as [s'| | | |] eqn:Es; try discriminate. injection E as <-.
  destruct (element_back Kf mktime old o (codec_curve C f OK) Ho) as (Hlen & _). set (value := obj_serialize old o) in *.
  rewrite (smart_pack_app (smart_pack [] k)), <- app_assoc. destruct fuel as [|n]; [cbn in Hf; lia|]. cbn [deserialize_loop].
  rewrite su by (apply good_len; exact Hk).
  set (pre2 := pre ++ smart_pack [] k). replace (length pre + length (smart_pack [] k))%nat with (length pre2) by (unfold pre2; rewrite app_length; reflexivity).
  replace (pre ++ smart_pack [] k ++ smart_pack [] value ++ s') with (pre2 ++ smart_pack [] value ++ s') by (unfold pre2; rewrite <- app_assoc; reflexivity).
  rewrite su by exact Hlen. unfold deserialize_element.
  destruct (point_dec o) as [Hp|Hp].
  { split.
    - intros Ff Fg D _. unfold value. rewrite (element_lost old o Ff Fg D Hp). reflexivity.
    - intro N. exfalso. apply (N k o); [left; reflexivity|exact Hp]. }
  destruct (element_cross old o Ho Hp) as (o' & o'' & Eo & Ec & Hsame). fold value in Eo. rewrite Eo. unfold set_component. rewrite Ec.
  set (c1 := mset k (Some o'') c0). set (pre3 := pre2 ++ smart_pack [] value).
  replace (length pre2 + length (smart_pack [] value))%nat with (length pre3) by (unfold pre3; rewrite app_length; reflexivity).
  replace (pre2 ++ smart_pack [] value ++ s') with (pre3 ++ s') by (unfold pre3; rewrite <- app_assoc; reflexivity).
  destruct l as [|e l].
  - cbn [serialize_loop] in Es. injection Es as <-. rewrite app_nil_r, Nat.ltb_irrefl. split.
    { intros _ _ _ (k' & x & [X|[]] & Px). injection X as <- <-. contradiction. }
    intros _. exists c1. split; [reflexivity|]. split; [|split].
    + intros k' x [X|[]]. injection X as <- <-. exists o''. split; [apply mget_mset_same|exact Hsame].
    + intros k' Hk'. apply mget_mset_other. intro X. apply Hk'. left. auto.
    + apply msorted_mset.
  - assert (s' <> []) as Hs'.
    { intro X. subst s'. inversion HF' as [|? ? [Hk2 (o2 & Ev2 & Ho2)] _]; subst. destruct e as [k2 v2]. cbn [fst snd] in *. subst v2.
      cbn [serialize_loop] in Es. rewrite serialize_app in Es. destruct (serialize_loop l _ []); try discriminate. injection Es as Es.
      apply app_eq_nil in Es as [Es _]. rewrite smart_pack_app in Es. apply app_eq_nil in Es as [Es _]. pose proof (smart_pack_bounds _ (good_len _ Hk2)). rewrite Es in *.
      change (len []) with 0 in *. pose proof (good_len _ Hk2). lia. }
    replace (length pre3 <? length (pre3 ++ s'))%nat with true.
    2: { symmetry. apply Nat.ltb_lt. rewrite app_length. destruct s'; [congruence|]. cbn [length]. lia. }
    destruct (IH value pre3 c1 n s' HF' HN' ltac:(discriminate) Es ltac:(cbn [length] in *; lia)) as [I1 I2]. split.
    + intros Ff Fg D (k' & x & [X|X] & Px); [injection X as <- <-; contradiction|]. apply I1; eauto.
    + intro N. destruct I2 as (c' & E1 & E2 & E3 & E4); [intros k' x X; apply (N k' x); right; exact X|].
      exists c'. split; [exact E1|]. split; [|split].
      * intros k' x [X|X]; [|eauto]. injection X as <- <-. exists o''. split; [|exact Hsame]. rewrite E3 by exact Hnk. apply mget_mset_same.
      * intros k' Hk'. rewrite E3 by (intro X; apply Hk'; right; exact X). apply mget_mset_other. intro X. apply Hk'. left. auto.
      * intro X. apply E4. apply msorted_mset. exact X.
Qed.
End Cross.

(** With one setting throughout, what is written is read back. *)
Theorem C118_same_setting : forall C mktime f c, codec_ok C -> msorted c -> all_portable (curve_at C f) mktime c -> c <> [] ->
  exists blob c', serialize c [] = Ok blob /\ deserialize (curve_at C f) mktime [] blob = (c', Ok tt) /\ same_content c c'.
Proof.
  intros C mktime f c OK S P N. destruct (fresh_back (curve_at C f) mktime c (codec_curve C f OK) S P N) as (b & c' & E1 & _ & E2 & E3). eauto.
Qed.
Print Assumptions C118_same_setting.
(** After the setting changed, reading anything that holds a point of G1 or G2 ends
    the process; everything else is still read. *)
Theorem C118_changed_setting : forall C mktime f g c blob, codec_ok C -> flag f -> flag g -> f <> g ->
  msorted c -> all_portable (curve_at C f) mktime c -> c <> [] -> serialize c [] = Ok blob ->
  ((exists name o, mget name c = Some (Some o) /\ point o) -> forall c0, snd (deserialize (curve_at C g) mktime c0 blob) = Exit) /\
  ((forall name o, mget name c = Some (Some o) -> ~ point o) -> exists c', deserialize (curve_at C g) mktime [] blob = (c', Ok tt) /\
     forall name, match mget name c with
                  | Some (Some o) => exists o', mget name c' = Some (Some o') /\ same_value (seen_at g o) o'
                  | _ => mget name c' = None
                  end).
Proof.
  intros C mktime f g c blob OK Ff Fg D Hs P N E. pose proof (portable_forall _ mktime c Hs P) as HF.
  pose proof (serialized_len _ mktime c [] blob (codec_curve C f OK) HF E) as Hl. split.
  - intros (name & o & Eo & Ho) c0.
    destruct (loop_cross C mktime f g OK c [] [] c0 (S (length blob)) blob HF (msorted_NoDup c Hs) N E ltac:(lia)) as [I _].
    apply I; auto. exists name, o. split; [apply mget_In; exact Eo|exact Ho].
  - intro H. destruct (loop_cross C mktime f g OK c [] [] [] (S (length blob)) blob HF (msorted_NoDup c Hs) N E ltac:(lia)) as [_ I].
    destruct I as (c' & E1 & E2 & E3 & _).
    { intros k o Hin. apply (H k o). apply In_mget; [apply msorted_NoDup; exact Hs|exact Hin]. }
    exists c'. split; [exact E1|]. intro name. destruct (mget name c) as [[o|]|] eqn:Em.
    + apply E2. apply mget_In. exact Em.
    + exfalso. destruct (P name None Em) as [_ (o & X & _)]. discriminate.
    + rewrite E3; [reflexivity|]. apply mget_None. exact Em.
Qed.
Print Assumptions C118_changed_setting.
(** Only 0 and 1 are settings. *)
Theorem C118_settings : forall f v, flag f -> flag (set_flag f v) /\ (flag v -> set_flag f v = v) /\ (~ flag v -> set_flag f v = f).
Proof. intros f v F. unfold set_flag, flag in *. destruct (Z.eqb_spec v 0), (Z.eqb_spec v 1); cbn [orb]; intuition. Qed.
Print Assumptions C118_settings.

(** ** C119 *)
Definition group_element {K} (o : zobj K) : option str :=
  match o with OG1 x => Some (g1_out K x) | OG2 x => Some (g2_out K x) | OGt x => Some (gt_out K x) | _ => None end.
(** The size reported is the length of the serialisation exactly when the element
    takes at most 255 bytes; above, the serialisation is longer. *)
Theorem C119_size : forall K (o : zobj K) b old, group_element o = Some b -> 0 < len b < 2^32 ->
  (size_in_bytes o = len (obj_serialize old o) <-> len b <= 255) /\ size_in_bytes o <= len (obj_serialize old o) <= size_in_bytes o + 3.
Proof.
  intros K o b old E H.
  assert (exists t, obj_serialize old o = smart_pack [z2b t] b /\ size_in_bytes o = len b + 3) as (t & -> & ->).
  { destruct o; cbn [group_element] in E; try discriminate; injection E as <-; cbn [obj_serialize size_in_bytes]; eauto. }
  rewrite smart_pack_app, len_app. change (len [z2b t]) with 1.
  assert (len (smart_pack [] b) = len b + (if 65535 <? len b then 5 else if 255 <? len b then 3 else 2)) as ->.
  { unfold smart_pack. rewrite (Z.mod_small (len b) (2^32)) by lia.
    replace (firstn (Z.to_nat (len b)) b) with b by (symmetry; unfold len; rewrite Nat2Z.id; apply firstn_all).
    unfold pack32bits, pack16bits, pack8bits. destruct (65535 <? len b); [|destruct (255 <? len b); [|replace (0 <? len b) with true by lia]];
      unfold len; rewrite !app_length; cbn; lia. }
  destruct (65535 <? len b) eqn:A; [lia|]. destruct (255 <? len b) eqn:B; lia.
Qed.
Print Assumptions C119_size.

(** ** Non-vacuity of C118 and C119: one point at infinity, one other point. *)
Definition toy_codec : codec := {|
  c1 := bool; c1_write f x := if x then (if f =? 1 then L "cx" else L "uxy") else L "0"; c1_read b := Ok (1 <? len b); c1_gen := true; c1_same := Bool.eqb;
  c2 := bool; c2_write f x := if x then (if f =? 1 then L "cxx" else L "uxxyy") else L "0"; c2_read b := Ok (1 <? len b); c2_gen := true; c2_same := Bool.eqb;
  ct := bool; ct_write f x := (if x then L "1" else L "0") ++ repeat "000"%char (if f =? 1 then 255 else 383); ct_read b := Ok (hd "000"%char b =? "1")%char; ct_same := Bool.eqb;
  c_order := 7 |}.
Example toy_codec_ok : codec_ok toy_codec.
Proof.
  constructor; cbn [toy_codec c1 c1_write c1_read c1_gen c1_same c2 c2_write c2_read c2_gen c2_same ct ct_write ct_read ct_same c_order];
    try (intros f x; destruct (f =? 1), x; vm_compute; intuition congruence); try (intros f; destruct (f =? 1); vm_compute; intuition congruence);
    try (intros x y; apply eqb_true_iff); try (vm_compute; intuition congruence).
Qed.
Definition toy_content : container (curve_at toy_codec 1) := [(L "a", Some (@OG1 (curve_at toy_codec 1) true)); (L "b", Some (OBytes (L "x")))].
Example C118_example : msorted toy_content /\ (forall mktime, all_portable (curve_at toy_codec 1) mktime toy_content) /\
  (exists name o, mget name toy_content = Some (Some o) /\ point o) /\
  exists blob, serialize toy_content [] = Ok blob /\ forall mktime, snd (deserialize (curve_at toy_codec 0) mktime [] blob) = Exit.
Proof.
  assert (msorted toy_content) as S by (repeat constructor).
  assert (forall mktime, all_portable (curve_at toy_codec 1) mktime toy_content) as P.
  { intros mktime name v E. unfold toy_content in E. cbn [mget] in E. destruct (str_eqb name (L "a")) eqn:E1.
    - apply str_eqb_eq in E1. injection E as <-. subst name. split; [split; [discriminate|reflexivity]|]. eexists. split; [reflexivity|exact I].
    - destruct (str_eqb name (L "b")) eqn:E2; [|discriminate]. apply str_eqb_eq in E2. injection E as <-. subst name. split; [split; [discriminate|reflexivity]|].
      eexists. split; [reflexivity|]. reflexivity. }
  assert (exists name o, mget name toy_content = Some (Some o) /\ point o) as Q.
  { exists (L "a"), (@OG1 (curve_at toy_codec 1) true). split; [reflexivity|]. cbn. intro X. vm_compute in X. discriminate. }
  split; [exact S|]. split; [exact P|]. split; [exact Q|]. destruct (serialize toy_content []) as [blob| | | |] eqn:E; [|vm_compute in E; discriminate..].
  exists blob. split; [reflexivity|]. intro mktime.
  refine (proj1 (C118_changed_setting toy_codec mktime 1 0 toy_content blob toy_codec_ok _ _ _ S (P mktime) _ E) Q []); [right; reflexivity|left; reflexivity|discriminate|discriminate].
Qed.
(** So the setting cannot be changed at any time: what is written under one may end
    the process when it is read under the other. *)
Theorem C118_refuted : exists C f g (c : container (curve_at C f)) blob, codec_ok C /\ flag f /\ flag g /\ msorted c /\ (forall mktime, all_portable (curve_at C f) mktime c) /\
  serialize c [] = Ok blob /\ (forall mktime, exists c', deserialize (curve_at C f) mktime [] blob = (c', Ok tt)) /\
  forall mktime, snd (deserialize (curve_at C g) mktime [] blob) = Exit.
Proof.
  destruct C118_example as (S & P & _ & blob & E & X). exists toy_codec, 1, 0, toy_content, blob. split; [exact toy_codec_ok|]. split; [right; reflexivity|]. split; [left; reflexivity|].
  split; [exact S|]. split; [exact P|]. split; [exact E|]. split; [|exact X]. intro mktime.
  destruct (C118_same_setting toy_codec mktime 1 toy_content toy_codec_ok S (P mktime)) as (b & c' & E1 & E2 & _); [discriminate|]. exists c'. congruence.
Qed.
Print Assumptions C118_refuted.
(** A GT element of 384 bytes. *)
Theorem C119_refuted : exists C f, codec_ok C /\ forall x old, size_in_bytes (@OGt (curve_at C f) x) <> len (obj_serialize old (@OGt (curve_at C f) x)).
Proof. exists toy_codec, 0. split; [exact toy_codec_ok|]. intros [|] old; vm_compute; discriminate. Qed.
Print Assumptions C119_refuted.
Example C119_example : size_in_bytes (@OG1 (curve_at toy_codec 0) true) = len (obj_serialize [] (@OG1 (curve_at toy_codec 0) true)).
Proof. reflexivity. Qed.
