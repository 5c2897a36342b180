(** Specification vocabulary for the key manager shared by threads. *)
From Verif Require Import Base StrMap Dec ByteString UInteger Field Policy Driver Parser AttrList Utils Lsss Container Keystore Keymgr KeymgrSpec Threads.
From Coq Require Import ZArith List Ascii Bool.
Import ListNotations.
Open Scope Z_scope.

(** A data race: two threads about to access the same member, one to write it. *)
Definition about_to (g : process) (i : nat) (f : member) (w : bool) : Prop :=
  exists c update next, t_now (g_threads g i) = Some (c, Access f w update next).
Definition race (g : process) : Prop :=
  exists i j f w w', i <> j /\ about_to g i f w /\ about_to g j f w' /\ w || w' = true.

Section Serial.
Context (K : curve) (mktime : tm -> Z * tm) (sort : list (nat * Z) -> list (nat * Z)) (rank : list (str * Z) -> list (str * Z)).
(** A call made by a single thread: the functions of Keymgr.v. *)
Definition bindr {A} (f : A -> answer) (r : res A) : res answer := match r with Ok a => Ok (f a) | Throw e => Throw e | UB => UB | Exit => Exit | NoFuel => NoFuel end.
Definition alone (c : call) (m : manager) : manager * res answer :=
  match c with
  | Run (StoreID u id b e ca r) => let x := store_with_id K mktime m u id b e ca r in (fst x, bindr ABool (snd x))
  | Run (StorePrefix u p b e ca r) => let x := store_with_prefix K mktime m u p b e ca r in (fst x, bindr AText (snd x))
  | Run (Search u eff q) => let x := search_key sort rank m u eff q in (fst (fst x), bindr AText (snd x))
  | Run (Delete u now) => let x := delete_key_command m u now in (fst x, bindr AIds (snd x))
  | Run (GetCommand u id) => (m, Ok (APair (fst (get_key_command m u id)) (snd (get_key_command m u id))))
  | Run (Count u) => let x := get_user_key_count m u in (fst x, Ok (ACount (snd x)))
  | Run (SetPass program u pw) => (set_passphrase m program u pw, Ok ANone)
  | Users => (m, Ok (AUsers (get_active_users m)))
  end.
(** Made one after the other, the calls of the log return what the log says and
    take the object from [m] to [m']. *)
Inductive one_by_one (m : manager) : list (nat * call * res answer) -> manager -> Prop :=
| none_yet : one_by_one m [] m
| then_one : forall l m' i c r m'', one_by_one m l m' -> alone c m' = (m'', r) -> one_by_one m (l ++ [(i, c, r)]) m''.
(** The calls of a thread: those that returned, the one it is in, those to come. *)
Definition returned_by (i : nat) (l : list (nat * call * res answer)) : list call :=
  map (fun e => snd (fst e)) (filter (fun e => Nat.eqb (fst (fst e)) i) l).
Definition accounted (calls : nat -> list call) (g : process) : Prop :=
  forall i, returned_by i (g_log g) ++ (match t_now (g_threads g i) with Some (c, _) => [c] | None => [] end) ++ t_todo (g_threads g i) = calls i.
(** No thread is in a call. *)
Definition quiet (g : process) : Prop := forall i, t_now (g_threads g i) = None.
Definition unfinished (g : process) (i : nat) : Prop := t_now (g_threads g i) <> None \/ t_todo (g_threads g i) <> [].
End Serial.
(** Which members a call may touch, and whether it may write them. *)
Definition touches (c : call) (f : member) (w : bool) : bool :=
  match c, f, w with
  | Run (StoreID _ _ _ _ _ _), FMeta, _ | Run (StorePrefix _ _ _ _ _ _), FMeta, _ | Run (StorePrefix _ _ _ _ _ _), FCounter, _ => true
  | Run (Search _ _ _), FMeta, _ => true
  | Run (Delete _ _), FMeta, false | Run (Delete _ _), FActive, true | Run (Delete _ _), FStore, true => true
  | Run (GetCommand _ _), FMeta, false => true
  | Run (Count _), FCounter, true => true
  | Run (SetPass _ _ _), FPass, true | Run (SetPass _ _ _), FActive, true => true
  | Users, FActive, false => true
  | _, _, _ => false
  end.
(** The two calls may touch the same member, one of them writing. *)
Definition clash (c c' : call) : Prop := exists f w w', touches c f w = true /\ touches c' f w' = true /\ w || w' = true.
