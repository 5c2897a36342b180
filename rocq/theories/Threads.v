(** Model of the key manager shared by threads (src/abe/zkeymgr.cpp): each command
    as the sequence of its accesses to the members of the object, the lock
    ks_lock_, and the interleavings of the commands of several threads.
    One access is one step: a lookup, an insertion, an erasure, or a loop that
    only reads the map (zkeymgr.cpp L107-115, L194-204, L213-229).  Steps are
    interleaved; a race (two threads about to access the same member, one of
    them writing) is undefined behaviour in C++ and is a property of the state
    (ThreadsSpec.v).  The query object belongs to the caller of a search. *)
From Verif Require Import Base StrMap Dec ByteString UInteger Field Policy Driver Parser AttrList Utils Lsss Container Keystore Keymgr KeymgrSpec.
From Coq Require Import ZArith List Ascii Bool.
Import ListNotations.
Open Scope Z_scope.

(** The data members (zkeymgr.h L104-107 and the inherited store); keyLoaded_ is
    never used. *)
Inductive member := FMeta | FCounter | FPass | FActive | FStore.
(** What a command returns. *)
Inductive answer := ABool (b : bool) | AText (s : str) | APair (a b : str) | AIds (l : list str) | ACount (n : Z) | AUsers (u : smap str) | ANone.
(** A command in progress: finished, or about to access a member ([true]: to
    write it).  [next] sees the object before the update. *)
Inductive prog := Done (r : res answer) | Access (f : member) (writes : bool) (update : manager -> manager) (next : manager -> prog).
Definition keep (m : manager) : manager := m.
(** The commands of KeymgrSpec.v and getActiveUsers. *)
Inductive call := Run (c : command) | Users.

Section Threads.
Context (K : curve) (mktime : tm -> Z * tm) (sort : list (nat * Z) -> list (nat * Z)) (rank : list (str * Z) -> list (str * Z)).

(** The end of a command that ended early. *)
Definition fail {A} (r : res A) : prog := match r with Ok _ => Done UB | Throw e => Done (Throw e) | UB => Done UB | Exit => Done Exit | NoFuel => Done NoFuel end.
Definition pass {A B} (r : res A) : res B := match r with Ok _ => UB | Throw e => Throw e | UB => UB | Exit => Exit | NoFuel => NoFuel end.

(** L91-133, after the erasure. *)
Definition store_rest (user id blob : str) (expire : Z) (cache : bool) (random : str) (finish : res bool -> prog) : prog :=
  match read_key K mktime blob random with
  | Ok None => finish (Ok false)
  | Ok (Some (scheme, f)) =>
      Access FMeta false keep (fun m =>
        if has_duplicate (km_meta m) user f then finish (Ok false)
        else Access FMeta true
          (fun m => with_meta m (mset id {| m_user := user; m_cached := cache; m_type := ftype f; m_input := f; m_scheme := scheme; m_blob := blob; m_expire := expire |} (km_meta m)))
          (fun _ => finish (Ok true)))
  | r => finish (pass r)
  end.
(** L74-133 storeWithKeyIDCommand. *)
Definition store_prog (user id blob : str) (expire : Z) (cache : bool) (random : str) (finish : res bool -> prog) : prog :=
  match user with
  | [] => finish Exit
  | _ => Access FMeta false keep (fun m =>
           if mmem id (km_meta m) then Access FMeta true (fun m => with_meta m (mdel id (km_meta m))) (fun _ => store_rest user id blob expire cache random finish)
           else store_rest user id blob expire cache random finish)
  end.
(** L142-155 of storeWithKeyPrefixCommand, under the lock. *)
Definition prefix_rest (user prefix blob : str) (expire : Z) (cache : bool) (random : str) : prog :=
  Access FCounter false keep (fun m =>
    let id := prefix ++ dec (count_at (km_counter m) user) in
    store_prog user id blob expire cache random (fun r =>
      match r with
      | Ok true => Access FCounter false keep (fun m =>
          let n := count_at (km_counter m) user in
          Access FCounter true (fun m => with_counter m (mset user ((n + 1) mod 20) (km_counter m))) (fun _ => Done (Ok (AText id))))
      | Ok false => Done (Ok (AText []))
      | r => fail r
      end)).
Definition prefix_prog (user prefix blob : str) (expire : Z) (cache : bool) (random : str) : prog :=
  Access FCounter false keep (fun m =>
    if mmem user (km_counter m) then prefix_rest user prefix blob expire cache random
    else Access FCounter true (fun m => with_counter m (mset user 0 (km_counter m))) (fun _ => prefix_rest user prefix blob expire cache random)).

(** L307-331: the loop of searchKey.  The assert of L308 looks the identifier up;
    then keyMetadata_[id] is tested, which sets flags in the stored policy.  An
    entry that is gone by then is replaced with a null pointer and dereferenced. *)
Fixpoint search_prog (ids : list str) (efficient : bool) (query : finput) (found : list (str * Z)) : prog :=
  match ids with
  | [] => Done (match rev found with [] => Ok (AText []) | l => match rank l with [] => UB | e :: _ => Ok (AText (fst e)) end end)
  | id :: ids' =>
      Access FMeta false keep (fun m =>
        if mmem id (km_meta m) then
          Access FMeta true
            (fun m => match mget id (km_meta m) with
              | Some d => match test_a_key sort (m_type d) (m_input d) query with
                | Ok (_, _, stored, _) => with_meta m (mset id (with_input d stored) (km_meta m))
                | _ => m end
              | None => m end)
            (fun m => match mget id (km_meta m) with
              | Some d => match test_a_key sort (m_type d) (m_input d) query with
                | Ok (b, n, _, query') =>
                    if b then if efficient then search_prog ids' efficient query' ((id, n) :: found) else Done (Ok (AText id))
                    else search_prog ids' efficient query' found
                | r => fail r end
              | None => Done UB end)
        else Done Exit)
  end.
(** L289-293: deleteKey of the inherited store for each identifier. *)
Fixpoint drop_prog (ids all : list str) : prog :=
  match ids with
  | [] => Done (Ok (AIds all))
  | id :: ids' => Access FStore true (fun m =>
      {| km_meta := km_meta m; km_counter := km_counter m; km_pass := km_pass m; km_active := km_active m; km_store := fst (fst (delete_key (km_store m) id)) |})
      (fun _ => drop_prog ids' all)
  end.

(** The commands. *)
Definition program (c : call) : prog :=
  match c with
  | Run (StoreID u id b e ca r) => store_prog u id b e ca r (fun x => match x with Ok v => Done (Ok (ABool v)) | r => fail r end)
  | Run (StorePrefix u p b e ca r) => prefix_prog u p b e ca r
  | Run (Search u eff q) => Access FMeta false keep (fun m => search_prog (filter_keys m u (ftype q)) eff q [])
  | Run (Delete u now) => Access FMeta false keep (fun m =>
      let ids := get_key_ids m u now in
      if 0 <? now then drop_prog ids ids
      else if str_eqb u [] then Done (Throw RuntimeError)
      else Access FActive true
        (fun m => {| km_meta := km_meta m; km_counter := km_counter m; km_pass := km_pass m; km_active := mdel u (km_active m); km_store := km_store m |})
        (fun _ => drop_prog ids ids))
  | Run (GetCommand u id) => Access FMeta false keep (fun m => Done (Ok (APair (fst (get_key_command m u id)) (snd (get_key_command m u id)))))
  | Run (Count u) => Access FCounter true (fun m => with_counter m (touch_counter (km_counter m) u)) (fun m => Done (Ok (ACount (count_at (km_counter m) u))))
  | Run (SetPass program user pw) =>
      Access FPass true (fun m => {| km_meta := km_meta m; km_counter := km_counter m; km_pass := mset user pw (km_pass m); km_active := km_active m; km_store := km_store m |})
        (fun _ => Access FActive true
          (fun m => {| km_meta := km_meta m; km_counter := km_counter m; km_pass := km_pass m; km_active := mset user program (km_active m); km_store := km_store m |})
          (fun _ => Done (Ok ANone)))
  | Users => Access FActive false keep (fun m => Done (Ok (AUsers (get_active_users m))))
  end.
(** The commands that take ks_lock_: L140, L165, L268, L277. *)
Definition locks (c : call) : bool :=
  match c with Run (StorePrefix _ _ _ _ _ _) | Run (GetCommand _ _) | Run (Search _ _ _) | Run (Delete _ _) => true | _ => false end.

(** A thread: the calls it has yet to make and the one it is in. *)
Record thread := { t_todo : list call; t_now : option (call * prog) }.
(** The process: the object, the holder of the lock, the threads, the calls that
    returned (oldest first), and whether it crashed. *)
Record process := { g_manager : manager; g_lock : option nat; g_threads : nat -> thread; g_log : list (nat * call * res answer); g_dead : bool }.
Definition set_thread (T : nat -> thread) (i : nat) (t : thread) : nat -> thread := fun j => if Nat.eqb j i then t else T j.

(** Thread [i] makes a step, if it can: it enters a call (a call that locks waits
    for the lock), makes an access, or returns.  lock_guard releases the lock when
    the call returns or throws.  A failed assert or undefined behaviour ends the
    process. *)
Definition move (i : nat) (g : process) : option process :=
  if g_dead g then None else
  match t_now (g_threads g i) with
  | None =>
      match t_todo (g_threads g i) with
      | [] => None
      | c :: rest =>
          let T := set_thread (g_threads g) i {| t_todo := rest; t_now := Some (c, program c) |} in
          if locks c then
            match g_lock g with
            | None => Some {| g_manager := g_manager g; g_lock := Some i; g_threads := T; g_log := g_log g; g_dead := false |}
            | Some _ => None
            end
          else Some {| g_manager := g_manager g; g_lock := g_lock g; g_threads := T; g_log := g_log g; g_dead := false |}
      end
  | Some (c, Access _ _ update next) =>
      Some {| g_manager := update (g_manager g); g_lock := g_lock g;
              g_threads := set_thread (g_threads g) i {| t_todo := t_todo (g_threads g i); t_now := Some (c, next (g_manager g)) |}; g_log := g_log g; g_dead := false |}
  | Some (c, Done r) =>
      match r with
      | Ok _ | Throw _ =>
          Some {| g_manager := g_manager g; g_lock := if locks c then None else g_lock g;
                  g_threads := set_thread (g_threads g) i {| t_todo := t_todo (g_threads g i); t_now := None |}; g_log := g_log g ++ [(i, c, r)]; g_dead := false |}
      | _ => Some {| g_manager := g_manager g; g_lock := g_lock g; g_threads := g_threads g; g_log := g_log g; g_dead := true |}
      end
  end.
(** The process at the start, with what each thread is going to do. *)
Definition launch (m : manager) (calls : nat -> list call) : process :=
  {| g_manager := m; g_lock := None; g_threads := fun i => {| t_todo := calls i; t_now := None |}; g_log := []; g_dead := false |}.
(** The states of all schedules. *)
Inductive reached (m : manager) (calls : nat -> list call) : process -> Prop :=
| at_start : reached m calls (launch m calls)
| one_more : forall g i g', reached m calls g -> move i g = Some g' -> reached m calls g'.
End Threads.
