(** Model of the text forms of field elements, integers and attribute lists. *)
From Verif Require Import Base ByteString Dec UInteger Field Element Driver AttrList.
From Coq Require Import ZArith List Ascii Bool.
Import ListNotations.
Open Scope Z_scope.

(** zelement_bp.cpp L289-302 operator<< for ZP: bn_write_str in base 10 writes the
    minimal decimal form with its sign. *)
Definition zp_text (x : zp) : str :=
  dec (zv x) ++ L " (orderSet: " ++ match zord x with Some _ => L "true)" | None => L "false)" end.
(** zelement_bp.cpp L388-393 getBytesAsString: bn_write_bin drops the sign. *)
Definition zp_hex_text (x : zp) : str := to_hex (to_be (Z.abs (zv x))).
(** zelement.h L45 zmbignum_fromHex is RELIC's bn_read_str in base 16: an optional
    sign, then digits up to the first character that is none. *)
Fixpoint read_digits (s : str) (acc : Z) : Z :=
  match s with
  | [] => acc
  | c :: r => match hexval c with Some d => read_digits r (acc * 16 + d) | None => acc end
  end.
Definition read_hex (s : str) : Z :=
  match s with
  | c :: r => if Ascii.eqb c "-" then - read_digits r 0 else read_digits s 0
  | [] => 0
  end.
(** zelement_bp.cpp L105-113: the constructor from a hexadecimal text. *)
Definition zp_from_hex (s : str) (o : Z) : zp := zp_hex (read_hex s) o.

(** zattributelist.cpp L172-181 operator<< for attribute lists (endl is a newline). *)
Definition newline_char : ascii := ascii_of_nat 10.
Fixpoint list_lines (i : Z) (l : list str) : str :=
  match l with
  | [] => []
  | a :: r => dec i ++ L ":" ++ a ++ newline_char :: list_lines (i + 1) r
  end.
Definition list_print (l : attrlist) : str := list_lines 0 (aattrs l).
