(** The life of the key objects behind the key stores: src/abe/zkeystore.cpp, where
    keys are held by std::shared_ptr.  What the maps contain is that of Keystore.v
    with numbers for the objects; here every copy and every end of a shared_ptr is
    a step on the reference counts.  An object is deleted when its count drops to
    zero; [bad] records a use, a copy or a release of an object already deleted. *)
From Verif Require Import Base StrMap Container Memory Keystore.
From Coq Require Import List Bool Arith.
Import ListNotations.

Record kmem := { refs : list nat; bad : bool }.
Definition counted (a n : nat) (m : kmem) : kmem := {| refs := update a n (refs m); bad := bad m |}.
Definition spoiled (m : kmem) : kmem := {| refs := refs m; bad := true |}.
(** The copy constructor of shared_ptr. *)
Definition share (p : option nat) (m : kmem) : kmem :=
  match p with
  | None => m
  | Some a => match nth_error (refs m) a with Some (S n) => counted a (S (S n)) m | _ => spoiled m end
  end.
(** Its destructor. *)
Definition drop (p : option nat) (m : kmem) : kmem :=
  match p with
  | None => m
  | Some a => match nth_error (refs m) a with Some (S n) => counted a n m | _ => spoiled m end
  end.
(** Following the pointer. *)
Definition touch (p : option nat) (m : kmem) : kmem :=
  match p with
  | None => m
  | Some a => match nth_error (refs m) a with Some (S _) => m | _ => spoiled m end
  end.
Definition drops (l : list (option nat)) (m : kmem) : kmem := fold_left (fun m p => drop p m) l m.

(** Stores ([None]: destroyed) and the pointers in the hands of the caller ([None]:
    null, or released). *)
Record kprog := { stores : list (option (store nat)); hands : list (option nat); km : kmem }.
Definition no_keys : kprog := {| stores := []; hands := []; km := {| refs := []; bad := false |} |}.
Inductive kop :=
| KMake                                                  (* std::make_shared<OpenABEKey> *)
| KOpen                                                  (* L58-60 a new store *)
| KAdd (i : nat) (name : str) (k : nat) (c : key_class)  (* with the [k]th pointer of the caller *)
| KGet (i : nat) (name : str)
| KPublic (i : nat) (name : str)
| KSecret (i : nat) (name : str)
| KValidate (i : nat) (name : str)
| KExport (i : nat) (name : str)
| KDelete (i : nat) (name : str)
| KUse (k : nat)
| KCopy (k : nat)
| KRelease (k : nat)
| KClose (i : nat).

Definition store_at (p : kprog) (i : nat) : option (store nat) := match nth_error (stores p) i with Some o => o | None => None end.
Definition hand (p : kprog) (k : nat) : option nat := match nth_error (hands p) k with Some v => v | None => None end.
Definition entries (m : smap (option nat)) : list (option nat) := map snd m.
Definition entry (m : smap (option nat)) (name : str) : option nat := match mget name m with Some v => v | None => None end.
Definition put_store (p : kprog) (i : nat) (s : store nat) (m : kmem) : kprog :=
  {| stores := update i (Some s) (stores p); hands := hands p; km := m |}.
Definition give (p : kprog) (v : option nat) : kprog := {| stores := stores p; hands := hands p ++ [v]; km := km p |}.

(** L67-91: one of the two loops of the destructor with the clear() after it.  The
    loop copies each pointer, calls zeroize and lets the copy go. *)
Definition close_map (l : list (option nat)) (m : kmem) : kmem :=
  drops l (fold_left (fun m p => drop p (touch p (share p m))) l m).

(** An operation on a store that does not exist does nothing. *)
Definition kstep (o : kop) (p : kprog) : kprog :=
  match o with
  | KMake => {| stores := stores p; hands := hands p ++ [Some (length (refs (km p)))];
                km := {| refs := refs (km p) ++ [1]; bad := bad (km p) |} |}
  | KOpen => {| stores := stores p ++ [Some new_store]; hands := hands p; km := km p |}
  | KAdd i name k c =>
      (* L99-110: the assignment copies the pointer and releases the old one *)
      match store_at p i with
      | None => p
      | Some s =>
          let old := entry (match c with KEY_PUBLIC => pub_keys s | KEY_SECRET => sec_keys s end) name in
          put_store p i (add_key s name (hand p k) c) (drop old (share (hand p k) (km p)))
      end
  | KGet i name =>
      match store_at p i with
      | None => p
      | Some s => let '(s', v) := get_key s name in give (put_store p i s' (share v (km p))) v
      end
  | KPublic i name =>
      match store_at p i with
      | None => p
      | Some s => let '(s', v) := get_public_key s name in give (put_store p i s' (share v (km p))) v
      end
  | KSecret i name =>
      match store_at p i with
      | None => p
      | Some s => let '(s', v) := get_secret_key s name in give (put_store p i s' (share v (km p))) v
      end
  | KValidate i name =>
      (* L259-262: the result of getKey is a temporary *)
      match store_at p i with
      | None => p
      | Some s => let '(s', v) := get_key s name in put_store p i s' (drop v (share v (km p)))
      end
  | KExport i name =>
      (* L264-273 *)
      match store_at p i with
      | None => p
      | Some s => let '(s', v) := get_key s name in put_store p i s' (drop v (touch v (share v (km p))))
      end
  | KDelete i name =>
      (* L221-250: the pointer found is held until the end of the function; the
         entries of the name are erased if it is not null *)
      match store_at p i with
      | None => p
      | Some s =>
          let '(s1, _) := get_key s name in
          let '(s', v, _) := delete_key s name in
          match v with
          | None => put_store p i s' (km p)
          | Some _ => put_store p i s' (drop v (drops [entry (pub_keys s1) name; entry (sec_keys s1) name] (touch v (share v (km p)))))
          end
      end
  | KUse k => {| stores := stores p; hands := hands p; km := touch (hand p k) (km p) |}
  | KCopy k => give {| stores := stores p; hands := hands p; km := share (hand p k) (km p) |} (hand p k)
  | KRelease k => {| stores := stores p; hands := update k None (hands p); km := drop (hand p k) (km p) |}
  | KClose i =>
      match store_at p i with
      | None => p
      | Some s => {| stores := update i None (stores p); hands := hands p;
                     km := close_map (entries (sec_keys s)) (close_map (entries (pub_keys s)) (km p)) |}
      end
  end.
Definition krun (l : list kop) (p : kprog) : kprog := fold_left (fun p o => kstep o p) l p.
