(** Model of the parts of src/lsss/zelement_bp.cpp that Field.v and Container.v
    leave out: the remaining members of ZP, the operators of G1, G2 and GT as
    calls of RELIC, the compression flag, the sizes reported. *)
From Verif Require Import Base ByteString Field Container.
From Coq Require Import ZArith List Ascii Bool.
Import ListNotations.
Open Scope Z_scope.
Open Scope res_scope.

(** ** ZP *)

(** L96-103 ZP(uint32_t). *)
Definition zp_uint (x : Z) : zp := {| zv := x mod 2^32; zord := None |}.
(** L105-113 ZP(char*, bignum_t): [v] is what bn_read_str made of the text; it is
    not reduced. *)
Definition zp_hex (v o : Z) : zp := {| zv := v; zord := Some o |}.
(** L115-124 ZP(uint8_t*, uint32_t, bignum_t). *)
Definition zp_bin (b : str) (o : Z) : zp := {| zv := of_be b mod o; zord := Some o |}.
(** zpairing.cpp L119-131 initZP. *)
Definition init_zp (v o : Z) : zp := zp_set_order (zp_uint v) o.
(** L205-208 multInverse: nothing happens without an order.  bn_mod_inv of a
    number without inverse is an error of RELIC; modelled as UB. *)
Definition zp_inverse (x : zp) : res zp :=
  match zord x with
  | None => Ok x
  | Some o => if zv x mod o =? 0 then UB else Ok {| zv := finv o (zv x); zord := Some o |}
  end.
(** L239-246 power(x, ZP). *)
Definition zp_power_zp (x r : zp) : res zp := zp_op fpow x r.
(** L260-266 setRandom(bignum_t): bn_rand_mod by the order the element has; [r]
    is what the generator yields. *)
Definition zp_random (this : zp) (o r : Z) : zp :=
  let o' := match zord this with Some o' => o' | None => o end in {| zv := r mod o'; zord := Some o' |}.
(** L268-276 setRandom(ZP&): nothing happens when the argument has an order. *)
Definition zp_random_zp (this order : zp) (r : Z) : zp :=
  match zord order with
  | Some _ => this
  | None => {| zv := r mod zv order; zord := match zord this with Some o => Some o | None => Some (zv order) end |}
  end.
(** L284-287 setFrom. *)
Definition zp_set_from (this z : zp) (index : Z) : res zp := zp_add {| zv := zv z; zord := zord this |} (zp_uint index).
(** L303-325 comparisons: of the numbers stored. *)
Definition zp_ltb (x y : zp) : bool := zv x <? zv y.
Definition zp_leb (x y : zp) : bool := zv x <=? zv y.
Definition zp_gtb (x y : zp) : bool := zv y <? zv x.
Definition zp_geb (x y : zp) : bool := zv y <=? zv x.
Definition zp_neb (x y : zp) : bool := negb (zv x =? zv y).
(** L327-339 shifts: of the number stored, not reduced.  A negative count becomes
    a huge unsigned one: UB. *)
Definition zp_lshift (a : zp) (b : Z) : res zp := if b <? 0 then UB else Ok {| zv := zv a * 2^b; zord := zord a |}.
Definition zp_rshift (a : zp) (b : Z) : res zp := if b <? 0 then UB else Ok {| zv := zv a / 2^b; zord := zord a |}.

(** Programs of assignments to variables of type ZP.  [x += e] is [x = x + e]
    (L150-154), [x *= e] is [x = x * e] (L156-160). *)
Inductive zexpr :=
| ZVar (i : nat) | ZLit (x : Z)
| ZAdd (a b : zexpr) | ZSub (a b : zexpr) | ZMul (a b : zexpr) | ZDiv (a b : zexpr) | ZNeg (a : zexpr)
| ZPow (a : zexpr) (e : Z) | ZPowZ (a b : zexpr)
| ZInv (a : zexpr)                        (* a copy of [a] after multInverse *)
| ZFrom (i : nat) (a : zexpr) (k : Z).    (* a copy of variable [i] after setFrom(a, k) *)
Fixpoint zeval (rho : nat -> zp) (e : zexpr) : res zp :=
  match e with
  | ZVar i => Ok (rho i)
  | ZLit x => Ok (zp_uint x)
  | ZAdd a b => do x <- zeval rho a; do y <- zeval rho b; zp_add x y
  | ZSub a b => do x <- zeval rho a; do y <- zeval rho b; zp_sub x y
  | ZMul a b => do x <- zeval rho a; do y <- zeval rho b; zp_mul x y
  | ZDiv a b => do x <- zeval rho a; do y <- zeval rho b; zp_div x y
  | ZNeg a => do x <- zeval rho a; zp_neg x
  | ZPow a e => do x <- zeval rho a; zp_power x e
  | ZPowZ a b => do x <- zeval rho a; do y <- zeval rho b; zp_power_zp x y
  | ZInv a => do x <- zeval rho a; zp_inverse x
  | ZFrom i a k => do x <- zeval rho a; zp_set_from (rho i) x k
  end.
Definition zset (rho : nat -> zp) (i : nat) (x : zp) : nat -> zp := fun j => if Nat.eqb i j then x else rho j.
Fixpoint zrun (l : list (nat * zexpr)) (rho : nat -> zp) : res (nat -> zp) :=
  match l with
  | [] => Ok rho
  | (i, e) :: l' => do x <- zeval rho e; zrun l' (zset rho i x)
  end.

(** ** G1, G2, GT *)

(** What RELIC offers for a group; written additively. *)
Record relic := { elt : Type; r_zero : elt; r_add : elt -> elt -> elt; r_neg : elt -> elt; r_mul : elt -> Z -> elt; r_cmp : elt -> elt -> bool }.
Section Group.
Context (R : relic).
(** L411-415, L578-582 and L744-748 the default constructors. *)
Definition g_new : elt R := r_zero R.
(** L509-513, L675-679 operator times, exp L802-806: with the number stored in the ZP. *)
Definition g_times (x : elt R) (k : zp) : elt R := r_mul R x (zv k).
(** L515-519, L681-685: the binary operator- of G1 and G2 negates its argument; the
    left operand is not used. *)
Definition g_minus (x y : elt R) : elt R := r_neg R y.
(** L521-525, L687-691; L814-818 for GT. *)
Definition g_plus (x y : elt R) : elt R := r_add R x y.
(** L527-529, L693-695, L838-840. *)
Definition g_equal (x y : elt R) : bool := r_cmp R x y.
(** L808-812 GT::inverse and L820-825 GT::operator/ (tmp is overwritten with the
    inverse first). *)
Definition gt_inverse (x : elt R) : elt R := r_neg R x.
Definition gt_over (x y : elt R) : elt R := let tmp := r_neg R y in r_add R x tmp.

(** Expressions over elements and exponents. *)
Inductive gexpr :=
| GVar (i : nat) | GNew
| GPlus (a b : gexpr) | GMinus (a b : gexpr) | GTimes (a : gexpr) (k : nat).
Fixpoint geval (rho : nat -> elt R) (ks : nat -> zp) (e : gexpr) : elt R :=
  match e with
  | GVar i => rho i
  | GNew => g_new
  | GPlus a b => g_plus (geval rho ks a) (geval rho ks b)
  | GMinus a b => g_minus (geval rho ks a) (geval rho ks b)
  | GTimes a k => g_times (geval rho ks a) (ks k)
  end.
(** The same for GT. *)
Inductive texpr :=
| TVar (i : nat) | TNew
| TTimes (a b : texpr) | TOver (a b : texpr) | TInverse (a : texpr) | TExp (a : texpr) (k : nat).
Fixpoint teval (rho : nat -> elt R) (ks : nat -> zp) (e : texpr) : elt R :=
  match e with
  | TVar i => rho i
  | TNew => g_new
  | TTimes a b => g_plus (teval rho ks a) (teval rho ks b)
  | TOver a b => gt_over (teval rho ks a) (teval rho ks b)
  | TInverse a => gt_inverse (teval rho ks a)
  | TExp a k => g_times (teval rho ks a) (ks k)
  end.
End Group.

(** ** Compression *)

(** L48-53 set_compression_flag: other values are ignored. *)
Definition set_flag (flag value : Z) : Z := if (value =? 0) || (value =? 1) then value else flag.
(** RELIC's encodings: writing depends on the flag, reading looks at the bytes. *)
Record codec := {
  c1 : Type; c1_write : Z -> c1 -> str; c1_read : str -> res c1; c1_gen : c1; c1_same : c1 -> c1 -> bool;
  c2 : Type; c2_write : Z -> c2 -> str; c2_read : str -> res c2; c2_gen : c2; c2_same : c2 -> c2 -> bool;
  ct : Type; ct_write : Z -> ct -> str; ct_read : str -> res ct; ct_same : ct -> ct -> bool;
  c_order : Z
}.
(** The library with the flag at [flag]; the size expected when reading is that
    of the generator written now (L483-486, L657-660). *)
Definition curve_at (C : codec) (flag : Z) : curve := {|
  g1 := c1 C; g1_out := c1_write C flag; g1_in := c1_read C; g1_size := len (c1_write C flag (c1_gen C)); g1_same := c1_same C;
  g2 := c2 C; g2_out := c2_write C flag; g2_in := c2_read C; g2_size := len (c2_write C flag (c2_gen C)); g2_same := c2_same C;
  gt := ct C; gt_out := ct_write C flag; gt_in := ct_read C; gt_same := ct_same C;
  order := c_order C |}.
(** The same object seen with another setting of the flag. *)
Definition seen_at {C f} (g : Z) (o : zobj (curve_at C f)) : zobj (curve_at C g) :=
  match o with
  | OInt u => OInt u | OZp z => OZp z | OG1 x => @OG1 (curve_at C g) x | OG2 x => @OG2 (curve_at C g) x | OGt x => @OGt (curve_at C g) x
  | OBytes b => OBytes b | OAttrs l => OAttrs l | OPolicy p => OPolicy p
  end.

(** ** Sizes *)

(** L488-491, L666-669, L789-792 getSizeInBytes. *)
Definition size_in_bytes {K} (o : zobj K) : Z :=
  match o with
  | OG1 x => len (g1_out K x) + 3
  | OG2 x => len (g2_out K x) + 3
  | OGt x => len (gt_out K x) + 3
  | _ => 0
  end.
