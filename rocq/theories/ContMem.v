(** Model of the memory behind the containers of keys and ciphertexts: which
    component object is created, read and deleted, and when.
    src/abe/zcontainer.cpp, include/abe/zcontainer.h L47-81.

    What the objects contain is that of Container.v.  Here a container maps names
    to addresses, and every creation, access and deletion is written to a history
    as in Memory.v; nothing is checked.  An address is never used twice.  The
    objects deserializeElement makes in a std::unique_ptr are released by the
    language and not recorded. *)
From Verif Require Import Base StrMap ByteString UInteger Field Policy Driver Parser AttrList Utils Container Memory.
From Coq Require Import ZArith List Ascii Bool.
Import ListNotations.
Open Scope Z_scope.

Section ContMem.
Context (K : curve) (mktime : tm -> Z * tm).

(** [ev] has the latest event first. *)
Record cmem := { objs : list (zobj K); ev : list event }.
Definition note (e : event) (m : cmem) : cmem := {| objs := objs m; ev := e :: ev m |}.
(** std::map<std::string, ZObject*> val; [None] is a null pointer. *)
Definition handle := smap (option nat).

(** zcontainer.cpp L84-88 setComponent: the entry is overwritten; what it pointed
    to is not deleted. *)
Definition h_set (c : handle) (name : str) (o : zobj K) (m : cmem) : handle * cmem :=
  match clone o with
  | None => (mset name None c, m)
  | Some o' => (mset name (Some (length (objs m))) c,
                {| objs := objs m ++ [o']; ev := New (length (objs m)) :: ev m |})
  end.
(** L97-106 getComponent: the pointer handed out. *)
Definition h_get (c : handle) (name : str) : handle * option nat := index c name.
(** L108-116 deleteComponent: the entry is erased; the object is not deleted. *)
Definition h_erase (c : handle) (name : str) : handle * Z :=
  match mget name c with Some _ => (mdel name c, 0) | None => (c, 18) end.
(** L69-75 the destructor; delete of a null pointer does nothing. *)
Definition h_free (c : handle) (m : cmem) : cmem :=
  fold_left (fun m e => match snd e with Some a => note (Del a) m | None => m end) c m.
(** L135-144 serialize. *)
Fixpoint h_pack (c : handle) (bytes result : str) (m : cmem) : res str * cmem :=
  match c with
  | [] => (Ok result, m)
  | (key, Some a) :: rest =>
      match nth_error (objs m) a with
      | Some o =>
          let bytes' := obj_serialize bytes o in
          h_pack rest bytes' (smart_pack (smart_pack result key) bytes') (note (Use a) m)
      | None => (UB, note Wild m)
      end
  | (_, None) :: _ => (UB, note Wild m)
  end.
(** L146-206 deserializeElement and L208-219 deserialize. *)
Definition h_element (c : handle) (key value : str) (m : cmem) : handle * res unit * cmem :=
  match element_of K mktime value with
  | Ok (Some o) => let '(c', m') := h_set c key o m in (c', Ok tt, m')
  | Ok None => (c, Ok tt, m)
  | Throw e => (c, Throw e, m) | UB => (c, UB, m) | Exit => (c, Exit, m) | NoFuel => (c, NoFuel, m)
  end.
Fixpoint h_load (fuel : nat) (blob : str) (i : nat) (c : handle) (m : cmem) : handle * res unit * cmem :=
  match fuel with
  | O => (c, NoFuel, m)
  | S f =>
      match smart_unpack blob i with
      | (i1, Ok key) =>
          match smart_unpack blob i1 with
          | (i2, Ok value) =>
              match h_element c key value m with
              | (c', Ok _, m') => if (i2 <? length blob)%nat then h_load f blob i2 c' m' else (c', Ok tt, m')
              | (c', r, m') => (c', r, m')
              end
          | (_, Throw e) => (c, Throw e, m)
          | (_, _) => (c, UB, m)
          end
      | (_, Throw e) => (c, Throw e, m)
      | (_, _) => (c, UB, m)
      end
  end.

(** ** Programs *)

(** The containers ([None]: destroyed), the pointers obtained from getComponent,
    each with the container it came from, and the memory. *)
Record cprog := { conts : list (option handle); ptrs : list (nat * nat); cm : cmem }.
Inductive cop :=
| CNew                                   (* L55-61 the constructors *)
| CSet (i : nat) (name : str) (o : zobj K)
| CGet (i : nat) (name : str)
| CRead (k : nat)                        (* the [k]th pointer obtained is used *)
| CErase (i : nat) (name : str)
| CPack (i : nat)
| CLoad (i : nat) (blob : str)
| CFree (i : nat)
| CCopy (i : nat)                        (* the implicit copy constructor: the map of pointers is copied *)
| CAssign (i j : nat).                   (* the implicit assignment *)
(** What the caller sees. *)
Inductive answer := ANone | ACode (z : Z) | AGot (found : bool) | AObj (o : zobj K) | ABytes (s : str) | ADone (r : res unit).

Definition chandle (p : cprog) (i : nat) : option handle :=
  match nth_error (conts p) i with Some o => o | None => None end.
Definition with_cont (p : cprog) (i : nat) (c : handle) : cprog :=
  {| conts := update i (Some c) (conts p); ptrs := ptrs p; cm := cm p |}.
Definition with_mem (p : cprog) (m : cmem) : cprog := {| conts := conts p; ptrs := ptrs p; cm := m |}.

(** An operation on a container that does not exist is no operation of a program
    and does nothing, nor does the use of a pointer whose container is gone.
    [None]: undefined, or the process ends. *)
Definition cstep (o : cop) (p : cprog) : option (cprog * answer) :=
  match o with
  | CNew => Some ({| conts := conts p ++ [Some []]; ptrs := ptrs p; cm := cm p |}, ANone)
  | CSet i name ob =>
      match chandle p i with
      | None => Some (p, ANone)
      | Some c => let '(c', m) := h_set c name ob (cm p) in Some (with_mem (with_cont p i c') m, ANone)
      end
  | CGet i name =>
      match chandle p i with
      | None => Some (p, ANone)
      | Some c =>
          let '(c', v) := h_get c name in
          let p' := with_cont p i c' in
          match v with
          | Some a => Some ({| conts := conts p'; ptrs := ptrs p' ++ [(i, a)]; cm := cm p' |}, AGot true)
          | None => Some (p', AGot false)
          end
      end
  | CRead k =>
      match nth_error (ptrs p) k with
      | None => Some (p, ANone)
      | Some (i, a) =>
          match chandle p i with
          | None => Some (p, ANone)
          | Some _ =>
              match nth_error (objs (cm p)) a with
              | Some o => Some (with_mem p (note (Use a) (cm p)), AObj o)
              | None => None
              end
          end
      end
  | CErase i name =>
      match chandle p i with
      | None => Some (p, ANone)
      | Some c => let '(c', z) := h_erase c name in Some (with_cont p i c', ACode z)
      end
  | CPack i =>
      match chandle p i with
      | None => Some (p, ANone)
      | Some c => match h_pack c [] [] (cm p) with (Ok s, m) => Some (with_mem p m, ABytes s) | _ => None end
      end
  | CLoad i blob =>
      match chandle p i with
      | None => Some (p, ANone)
      | Some c =>
          match h_load (S (length blob)) blob 0 c (cm p) with
          | (c', Ok _, m) => Some (with_mem (with_cont p i c') m, ADone (Ok tt))
          | (c', Throw e, m) => Some (with_mem (with_cont p i c') m, ADone (Throw e))
          | _ => None
          end
      end
  | CFree i =>
      match chandle p i with
      | None => Some (p, ANone)
      | Some c => Some ({| conts := update i None (conts p); ptrs := ptrs p; cm := h_free c (cm p) |}, ANone)
      end
  | CCopy i =>
      match chandle p i with
      | None => Some (p, ANone)
      | Some c => Some ({| conts := conts p ++ [Some c]; ptrs := ptrs p; cm := cm p |}, ANone)
      end
  | CAssign i j =>
      match chandle p i, chandle p j with
      | Some _, Some c => Some (with_cont p i c, ANone)
      | _, _ => Some (p, ANone)
      end
  end.
Fixpoint csteps (l : list cop) (p : cprog) : option (cprog * list answer) :=
  match l with
  | [] => Some (p, [])
  | o :: l' =>
      match cstep o p with
      | Some (p', a) => match csteps l' p' with Some (p'', r) => Some (p'', a :: r) | None => None end
      | None => None
      end
  end.
Definition cstart : cprog := {| conts := []; ptrs := []; cm := {| objs := []; ev := [] |} |}.
End ContMem.
Arguments objs {K} c. Arguments ev {K} c. Arguments conts {K} c. Arguments ptrs {K} c. Arguments cm {K} c. Arguments chandle {K} p i.
Arguments CNew {K}. Arguments CSet {K} i name o. Arguments CGet {K} i name. Arguments CRead {K} k. Arguments CErase {K} i name.
Arguments CPack {K} i. Arguments CLoad {K} i blob. Arguments CFree {K} i. Arguments CCopy {K} i. Arguments CAssign {K} i j.
Arguments ANone {K}. Arguments ACode {K} z. Arguments AGot {K} found. Arguments AObj {K} o. Arguments ABytes {K} s. Arguments ADone {K} r.
