(** Specification vocabulary for field and group expressions: what an expression
    means over the integers modulo the order and in an abstract group. *)
From Verif Require Import Base ByteString Field Container Element.
From Coq Require Import ZArith Znumtheory List Ascii Bool.
Import ListNotations.
Open Scope Z_scope.

(** The value of an expression modulo [p]; [s] gives the values of the variables. *)
Fixpoint value (p : Z) (s : nat -> Z) (e : zexpr) (v : Z) : Prop :=
  match e with
  | ZVar i => v = s i
  | ZLit x => v = x
  | ZAdd a b => exists x y, value p s a x /\ value p s b y /\ v = (x + y) mod p
  | ZSub a b => exists x y, value p s a x /\ value p s b y /\ v = (x - y) mod p
  | ZMul a b => exists x y, value p s a x /\ value p s b y /\ v = (x * y) mod p
  | ZDiv a b => exists x y, value p s a x /\ value p s b y /\ y mod p <> 0 /\ 0 <= v < p /\ (v * y) mod p = x mod p
  | ZNeg a => exists x, value p s a x /\ v = (- x) mod p
  | ZPow a e => exists x, value p s a x /\ v = (x ^ e) mod p
  | ZPowZ a b => exists x y, value p s a x /\ value p s b y /\ v = (x ^ y) mod p
  | ZInv a => exists x, value p s a x /\ 0 <= v < p /\ (v * x) mod p = 1
  | ZFrom _ a k => exists x, value p s a x /\ v = (x + k) mod p
  end.
Definition literal (e : zexpr) : bool := match e with ZLit _ => true | _ => false end.
(** Constants are 32-bit numbers, and no operation has only constants. *)
Fixpoint fits (e : zexpr) : Prop :=
  match e with
  | ZVar _ => True
  | ZLit x => 0 <= x < 2^32
  | ZAdd a b | ZSub a b | ZMul a b | ZDiv a b | ZPowZ a b => fits a /\ fits b /\ literal a && literal b = false
  | ZNeg a | ZInv a => fits a /\ literal a = false
  | ZPow a e => fits a /\ literal a = false /\ 0 <= e < 2^32
  | ZFrom _ a k => fits a /\ 0 <= k < 2^32
  end.
Fixpoint uses_inverse (e : zexpr) : bool :=
  match e with
  | ZVar _ | ZLit _ => false
  | ZAdd a b | ZSub a b | ZMul a b | ZDiv a b | ZPowZ a b => uses_inverse a || uses_inverse b
  | ZNeg a | ZPow a _ | ZFrom _ a _ => uses_inverse a
  | ZInv _ => true
  end.
(** Every variable is an element of the field of order [p]. *)
Definition in_field (p : Z) (rho : nat -> zp) : Prop := forall i, zord (rho i) = Some p /\ 0 <= zv (rho i) < p.
Definition values (rho : nat -> zp) : nat -> Z := fun i => zv (rho i).
(** A run over the field: each assignment changes one variable to a value of its
    expression. *)
Inductive field_run (p : Z) : list (nat * zexpr) -> (nat -> Z) -> (nat -> Z) -> Prop :=
| run_nil : forall s s', (forall i, s i = s' i) -> field_run p [] s s'
| run_cons : forall i e l s s1 s', value p s e (s1 i) -> (forall j, j <> i -> s1 j = s j) -> field_run p l s1 s' -> field_run p ((i, e) :: l) s s'.

(** The laws of a commutative group of order [p], and of multiplication by integers. *)
Record group_laws (R : relic) (p : Z) : Prop := {
  gl_assoc : forall x y z, r_add R x (r_add R y z) = r_add R (r_add R x y) z;
  gl_comm : forall x y, r_add R x y = r_add R y x;
  gl_zero : forall x, r_add R (r_zero R) x = x;
  gl_neg : forall x, r_add R x (r_neg R x) = r_zero R;
  gl_mul_1 : forall x, r_mul R x 1 = x;
  gl_mul_add : forall x a b, r_mul R x (a + b) = r_add R (r_mul R x a) (r_mul R x b);
  gl_order : forall x, r_mul R x p = r_zero R;
  gl_cmp : forall x y, r_cmp R x y = true <-> x = y
}.
(** What expressions over G1 and G2 should mean, with exponents from Z/p. *)
Fixpoint gmeans (R : relic) (rho : nat -> elt R) (ks : nat -> Z) (e : gexpr) : elt R :=
  match e with
  | GVar i => rho i
  | GNew => r_zero R
  | GPlus a b => r_add R (gmeans R rho ks a) (gmeans R rho ks b)
  | GMinus a b => r_add R (gmeans R rho ks a) (r_neg R (gmeans R rho ks b))
  | GTimes a k => r_mul R (gmeans R rho ks a) (ks k)
  end.
Fixpoint no_minus (e : gexpr) : bool :=
  match e with GVar _ | GNew => true | GPlus a b => no_minus a && no_minus b | GMinus _ _ => false | GTimes a _ => no_minus a end.
Fixpoint tmeans (R : relic) (rho : nat -> elt R) (ks : nat -> Z) (e : texpr) : elt R :=
  match e with
  | TVar i => rho i
  | TNew => r_zero R
  | TTimes a b => r_add R (tmeans R rho ks a) (tmeans R rho ks b)
  | TOver a b => r_add R (tmeans R rho ks a) (r_neg R (tmeans R rho ks b))
  | TInverse a => r_neg R (tmeans R rho ks a)
  | TExp a k => r_mul R (tmeans R rho ks a) (ks k)
  end.

(** What is assumed of RELIC's encodings: what is written with either setting is
    read back; an element takes one byte or the size of the generator; the sizes
    of the generator with and without compression differ. *)
Record codec_ok (C : codec) : Prop := {
  co1_back : forall f x, c1_read C (c1_write C f x) = Ok x;
  co1_len : forall f x, len (c1_write C f x) = 1 \/ len (c1_write C f x) = len (c1_write C f (c1_gen C));
  co1_size : forall f, 1 < len (c1_write C f (c1_gen C)) < 2^31;
  co1_differ : len (c1_write C 0 (c1_gen C)) <> len (c1_write C 1 (c1_gen C));
  co1_same : forall x y, c1_same C x y = true <-> x = y;
  co2_back : forall f x, c2_read C (c2_write C f x) = Ok x;
  co2_len : forall f x, len (c2_write C f x) = 1 \/ len (c2_write C f x) = len (c2_write C f (c2_gen C));
  co2_size : forall f, 1 < len (c2_write C f (c2_gen C)) < 2^31;
  co2_differ : len (c2_write C 0 (c2_gen C)) <> len (c2_write C 1 (c2_gen C));
  co2_same : forall x y, c2_same C x y = true <-> x = y;
  cot_back : forall f x, ct_read C (ct_write C f x) = Ok x;
  cot_len : forall f x, 0 < len (ct_write C f x) < 2^31;
  cot_same : forall x y, ct_same C x y = true <-> x = y;
  co_order : 1 < c_order C < 256 ^ 64
}.
(** An element of G1 or G2 that takes more than one byte. *)
Definition point {C f} (o : zobj (curve_at C f)) : Prop :=
  match o with OG1 x => len (c1_write C f x) <> 1 | OG2 x => len (c2_write C f x) <> 1 | _ => False end.
