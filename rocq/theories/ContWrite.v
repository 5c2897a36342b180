(** Changing a component through the pointer that getComponent hands out
    (zcontainer.cpp L97-106): the programs of ContMem.v with one more operation. *)
From Verif Require Import Base StrMap ByteString UInteger Field Policy Driver Parser AttrList Utils Container Memory ContMem.
From Coq Require Import ZArith List Bool Arith.
Import ListNotations.

Section ContWrite.
Context (K : curve) (mktime : tm -> Z * tm).
Inductive wop := WDo (o : cop K) | WPut (k : nat) (o : zobj K).
(** An assignment through the [k]th pointer.  In C++ the new value has the class of
    the old one; here it is any value.  As with CRead, the use of a pointer whose
    container is gone is no operation of a program. *)
Definition wstep (w : wop) (p : cprog K) : option (cprog K) :=
  match w with
  | WDo o => option_map fst (cstep K mktime o p)
  | WPut k o =>
      match nth_error (ptrs p) k with
      | None => Some p
      | Some (i, a) =>
          match chandle p i with
          | None => Some p
          | Some _ =>
              match nth_error (objs (cm p)) a with
              | Some _ => Some (with_mem K p {| objs := update a o (objs (cm p)); ev := Use a :: ev (cm p) |})
              | None => None
              end
          end
      end
  end.
Fixpoint wsteps (l : list wop) (p : cprog K) : option (cprog K) :=
  match l with [] => Some p | w :: l' => match wstep w p with Some p' => wsteps l' p' | None => None end end.
End ContWrite.
Arguments WDo {K} o. Arguments WPut {K} k o.
