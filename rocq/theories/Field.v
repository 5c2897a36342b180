(** Model of the ZP class (src/lsss/zelement_bp.cpp, include/lsss/zelement.h).
    RELIC's bn_* functions are modelled by their mathematical meaning on Z. *)
From Verif Require Import Base ByteString.
From Coq Require Import ZArith List Ascii Bool.
Import ListNotations.
Open Scope Z_scope.
Open Scope res_scope.

(** ** Residues: the macros of include/lsss/zelement.h on already-known order *)

(** L60 zmbignum_add: bn_add; bn_mod. *)
Definition fadd (p x y : Z) : Z := (x + y) mod p.
(** L62 zmbignum_sub_order. *)
Definition fsub (p x y : Z) : Z := (x - y) mod p.
(** L63 zmbignum_mul. *)
Definition fmul (p x y : Z) : Z := (x * y) mod p.
(** L68 zmbignum_negate. *)
Definition fneg (p x : Z) : Z := (- x) mod p.

(** bn_mod_inv (RELIC): extended Euclid.  [egcd] returns Bezout coefficients;
    the fuel is twice the bit length, enough by the halving argument
    (FieldProofs.egcd_spec). *)
Fixpoint egcd (fuel : nat) (a b : Z) : Z * Z :=
  match fuel with
  | O => (1, 0)
  | S f =>
      if b =? 0 then (1, 0)
      else let '(x, y) := egcd f b (a mod b) in (y, x - (a / b) * y)
  end.
Definition egcd_fuel (b : Z) : nat := (2 * Z.to_nat (Z.log2 b) + 4)%nat.
Definition finv (p y : Z) : Z := fst (egcd (egcd_fuel p) (y mod p) p) mod p.
(** L64 zmbignum_div: bn_mod_inv(r,y,o); mul(r,r,x,o). *)
Definition fdiv (p x y : Z) : Z := fmul p (finv p y) x.
(** L65 zmbignum_exp: bn_mxp, square-and-multiply modulo p. *)
Definition fpow (p x e : Z) : Z := (x ^ e) mod p.

(** ** The ZP class: value, order (isOrderSet) *)
Record zp := { zv : Z; zord : option Z }.

(** zelement_bp.cpp L172-203: the result takes x's order if set, else y's.  With
    neither order set, y.order is the freshly initialised number 0: bn_mod by
    zero is an error in RELIC; modelled as UB. *)
Definition join_order (x y : zp) : option Z :=
  match zord x with Some o => Some o | None => zord y end.
Definition zp_op (f : Z -> Z -> Z -> Z) (x y : zp) : res zp :=
  match join_order x y with
  | Some o => Ok {| zv := f o (zv x) (zv y); zord := Some o |}
  | None => UB
  end.
Definition zp_add := zp_op fadd.
Definition zp_sub := zp_op fsub.
Definition zp_mul := zp_op fmul.
(** L190-194 unary minus. *)
Definition zp_neg (x : zp) : res zp :=
  match zord x with
  | Some o => Ok {| zv := fneg o (zv x); zord := Some o |}
  | None => UB
  end.
(** L210-224 operator/: exit(-1) when y is zero. *)
Definition zp_div (x y : zp) : res zp :=
  if zv y =? 0 then Exit else zp_op fdiv x y.
(** L226-237 power(x, unsigned). *)
Definition zp_power (x : zp) (r : Z) : res zp :=
  match zord x with
  | Some o => Ok {| zv := fpow o (zv x) r; zord := Some o |}
  | None => UB
  end.
(** L253-258 setOrder: only the first call has an effect. *)
Definition zp_set_order (x : zp) (o : Z) : zp :=
  match zord x with None => {| zv := zv x; zord := Some o |} | Some _ => x end.
(** L319-321 operator== compares values only. *)
Definition zp_eqb (x y : zp) : bool := zv x =? zv y.
(** L248-251 ismember (the number is non-negative by construction of the class). *)
Definition zp_ismember (x : zp) : bool :=
  match zord x with Some o => (zv x <? o) && (0 <=? zv x) | None => false end.

(** ** Serialisation *)

(** bn_size_bin: number of bytes of the minimal big-endian form; 0 for zero. *)
Fixpoint to_be_fuel (fuel : nat) (x : Z) (acc : str) : str :=
  match fuel with
  | O => acc
  | S f => if x <=? 0 then acc else to_be_fuel f (x / 256) (z2b x :: acc)
  end.
(** bn_write_bin of the minimal length. *)
Definition to_be (x : Z) : str := to_be_fuel (Z.to_nat (Z.log2 x) + 1) x [].
(** bn_read_bin. *)
Definition of_be (b : str) : Z := fold_left (fun a c => a * 256 + b2z c) b 0.

(** L395-405 getLengthAndByteString, L341-346 serialize (OpenABE_ELEMENT_ZP = 0xB1). *)
Definition zp_serialize (x : zp) : str :=
  let d := to_be (zv x) in
  pack16bits [z2b 177] (len d) ++ d.

(** L349-366 deserialize: the declared length is not compared with the input
    size; reading past the end is undefined.  The value is reduced only when it
    is strictly greater than the order. *)
Definition zp_deserialize (this : zp) (input : str) : res zp :=
  do t <- at_ input 0;
  if (t =? 177) && (3 <? len input) then
    do b2 <- at_ input 2;
    do b1 <- at_ input 1;
    let n := b1 * 256 + b2 in
    if n <=? len input - 3 then
      let v := of_be (firstn (Z.to_nat n) (skipn 3 input)) in
      match zord this with
      | Some o => Ok {| zv := if o <? v then v mod o else v; zord := Some o |}
      | None => Ok {| zv := v; zord := None |}
      end
    else UB
  else Ok this.
