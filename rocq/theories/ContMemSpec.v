(** What a program with containers should see: every container holds values of its
    own, a pointer keeps giving the value it was obtained for. *)
From Verif Require Import Base StrMap Container Driver Memory ContMem.
From Coq Require Import ZArith List Ascii Bool.
Import ListNotations.
Open Scope Z_scope.

Section Spec.
Context (K : curve) (mktime : tm -> Z * tm).
Record vprog := { vconts : list (option (container K)); vptrs : list (nat * zobj K) }.
Definition vcont (p : vprog) (i : nat) : option (container K) := match nth_error (vconts p) i with Some o => o | None => None end.
Definition put_cont (p : vprog) (i : nat) (o : option (container K)) : vprog := {| vconts := update i o (vconts p); vptrs := vptrs p |}.
Definition vstep (o : cop K) (p : vprog) : option (vprog * answer K) :=
  match o with
  | CNew => Some ({| vconts := vconts p ++ [Some []]; vptrs := vptrs p |}, ANone)
  | CRead k =>
      match nth_error (vptrs p) k with
      | Some (i, x) => match vcont p i with Some _ => Some (p, AObj x) | None => Some (p, ANone) end
      | None => Some (p, ANone)
      end
  | CSet i name x => match vcont p i with Some c => Some (put_cont p i (Some (set_component c name x)), ANone) | None => Some (p, ANone) end
  | CGet i name =>
      match vcont p i with
      | Some c =>
          let '(c', r) := get_component c name in
          let p' := put_cont p i (Some c') in
          match r with
          | Ok x => Some ({| vconts := vconts p'; vptrs := vptrs p' ++ [(i, x)] |}, AGot true)
          | _ => Some (p', AGot false)
          end
      | None => Some (p, ANone)
      end
  | CErase i name => match vcont p i with Some c => let '(c', z) := delete_component c name in Some (put_cont p i (Some c'), ACode z) | None => Some (p, ANone) end
  | CPack i => match vcont p i with Some c => match serialize c [] with Ok s => Some (p, ABytes s) | _ => None end | None => Some (p, ANone) end
  | CLoad i blob =>
      match vcont p i with
      | Some c =>
          match deserialize K mktime c blob with
          | (c', Ok _) => Some (put_cont p i (Some c'), ADone (Ok tt))
          | (c', Throw e) => Some (put_cont p i (Some c'), ADone (Throw e))
          | _ => None
          end
      | None => Some (p, ANone)
      end
  | CFree i => match vcont p i with Some _ => Some (put_cont p i None, ANone) | None => Some (p, ANone) end
  | CCopy i => match vcont p i with Some c => Some ({| vconts := vconts p ++ [Some c]; vptrs := vptrs p |}, ANone) | None => Some (p, ANone) end
  | CAssign i j => match vcont p i, vcont p j with Some _, Some c => Some (put_cont p i (Some c), ANone) | _, _ => Some (p, ANone) end
  end.
Fixpoint vsteps (l : list (cop K)) (p : vprog) : option (vprog * list (answer K)) :=
  match l with
  | [] => Some (p, [])
  | o :: l' =>
      match vstep o p with
      | Some (p', a) => match vsteps l' p' with Some (p'', r) => Some (p'', a :: r) | None => None end
      | None => None
      end
  end.
Definition vstart : vprog := {| vconts := []; vptrs := [] |}.
(** No container is copied. *)
Definition copies (o : cop K) : bool := match o with CCopy _ | CAssign _ _ => true | _ => false end.
Definition no_copies (l : list (cop K)) : Prop := forall o, In o l -> copies o = false.
(** Events in the order they happened. *)
Definition chistory (p : cprog K) : list event := rev (ev (cm p)).
(** The container holds the object under some name. *)
Definition holds (p : cprog K) (i a : nat) : Prop := exists c name, chandle p i = Some c /\ mget name c = Some (Some a).
End Spec.
Arguments copies {K} o. Arguments no_copies {K} l. Arguments chistory {K} p. Arguments holds {K} p i a.
Arguments vconts {K} v. Arguments vptrs {K} v.

(** A program that never replaces or erases a component and loads nothing. *)
Section Tidy.
Context (K : curve) (mktime : tm -> Z * tm).
Definition vacant (p : cprog K) (i : nat) (name : str) : Prop := forall c a, chandle p i = Some c -> mget name c <> Some (Some a).
Definition tidy_op (o : cop K) (p : cprog K) : Prop :=
  match o with
  | CSet i name _ | CErase i name => vacant p i name
  | CLoad _ _ => False
  | _ => True
  end.
Fixpoint tidy (l : list (cop K)) (p : cprog K) : Prop :=
  match l with
  | [] => True
  | o :: l' => tidy_op o p /\ match cstep K mktime o p with Some (p', _) => tidy l' p' | None => True end
  end.
End Tidy.
