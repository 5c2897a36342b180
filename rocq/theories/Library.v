(** Starting and stopping the library: src/abe/zabe.cpp, the two zMath functions and
    the constructors of OpenABEPairing in src/abe/zpairing.cpp, and
    OpenABEStateContext of include/abe_lsss.h.

    RELIC keeps a context per thread.  [core_init] makes one for the calling
    thread, [pc_param_set_any] selects the curve in it, [core_clean] removes it;
    group operations need both.  Whether a call of the first two succeeds is a
    parameter: the n-th attempt asks [core n] and [curve n]. *)
From Coq Require Import List Bool Arith.
Import ListNotations.

(** What a thread has of RELIC: nothing, a context without a curve, or all. *)
Inductive relic := Down | NoCurve | Up.

(** The process.  [lib_ready]: gLibraryState (zabe.cpp L43-51) is READY.
    [lib_relic]: RELIC in each thread.  [lib_objects]: isInitialized_ of every
    living OpenABEStateContext object (abe_lsss.h L102), None if there is no such
    object.  [lib_tries]: calls of zMathInitLibrary so far. *)
Record library := { lib_ready : bool; lib_relic : nat -> relic; lib_objects : nat -> option bool; lib_tries : nat }.
Definition fresh_library : library := {| lib_ready := false; lib_relic := fun _ => Down; lib_objects := fun _ => None; lib_tries := 0 |}.

(** The calls a program can make; [o] is an OpenABEStateContext object. *)
Inductive lib_call :=
| Initialize
| Shutdown
| NewPairing
| NewContext (o : nat)
| InitThread (o : nat)
| ShutThread (o : nat)
| DropContext (o : nat).
(** A call returns, throws std::runtime_error, or has undefined behaviour (RELIC
    used in a thread without a context or a curve; an object used outside its
    life). *)
Inductive lib_result := Returned | Threw | Undefined.

Section Relic.
Variables core curve : nat -> bool.

Definition put {A} (f : nat -> A) (i : nat) (a : A) : nat -> A := fun j => if Nat.eqb j i then a else f j.

(** zMathInitLibrary, zpairing.cpp L57-64.  The code is 0 or
    OpenABE_ERROR_LIBRARY_NOT_INITIALIZED; here: whether it is 0.  A second
    [core_init] leaves an existing context in place (RELIC's relic_core.c). *)
Definition math_init (t : nat) (l : library) : library * bool :=
  let n := lib_tries l in
  let c := core n in
  let p := andb c (curve n) in
  let r := if p then Up else if c then match lib_relic l t with Down => NoCurve | r => r end else lib_relic l t in
  ({| lib_ready := lib_ready l; lib_relic := put (lib_relic l) t r; lib_objects := lib_objects l; lib_tries := S n |}, p).
(** zMathShutdownLibrary, zpairing.cpp L72-77. *)
Definition math_shutdown (t : nat) (l : library) : library :=
  {| lib_ready := lib_ready l; lib_relic := put (lib_relic l) t Down; lib_objects := lib_objects l; lib_tries := lib_tries l |}.
Definition set_ready (b : bool) (l : library) : library :=
  {| lib_ready := b; lib_relic := lib_relic l; lib_objects := lib_objects l; lib_tries := lib_tries l |}.
Definition set_object (o : nat) (b : option bool) (l : library) : library :=
  {| lib_ready := lib_ready l; lib_relic := lib_relic l; lib_objects := put (lib_objects l) o b; lib_tries := lib_tries l |}.

(** InitializeOpenABE, zabe.cpp L120-126, with OpenABE_initialize, L66-89: the
    result of zMathInitLibrary is overwritten by OpenABE_NOERROR. *)
Definition initialize (t : nat) (l : library) : library * lib_result :=
  if lib_ready l then (l, Threw)
  else let (l1, _) := math_init t l in (set_ready true l1, Returned).
(** ShutdownOpenABE, zabe.cpp L133-138, with OpenABE_shutdown, L97-106: whatever the
    state. *)
Definition shutdown (t : nat) (l : library) : library * lib_result :=
  (set_ready false (math_shutdown t l), Returned).
(** OpenABEPairing(), zpairing.cpp L89-95, and the copy constructor L101-107:
    AssertLibInit (zabe.cpp L108-112), then BPGroup and getGroupOrder ask RELIC for
    the order of the curve. *)
Definition new_pairing (t : nat) (l : library) : library * lib_result :=
  if lib_ready l then (l, match lib_relic l t with Up => Returned | _ => Undefined end)
  else (l, Threw).
(** initializeThread, zabe.cpp L140-145: the flag is not set here. *)
Definition init_thread (t o : nat) (l : library) : library * lib_result :=
  match lib_objects l o with
  | Some false => (fst (math_init t l), Returned)
  | Some true => (l, Returned)
  | None => (l, Undefined)
  end.
(** shutdownThread, zabe.cpp L147-154: calls zMathInitLibrary. *)
Definition shut_thread (t o : nat) (l : library) : library * lib_result :=
  match lib_objects l o with
  | Some true => (set_object o (Some false) (fst (math_init t l)), Returned)
  | Some false => (l, Returned)
  | None => (l, Undefined)
  end.
(** The constructor, abe_lsss.h L87-91. *)
Definition new_context (t o : nat) (l : library) : library * lib_result :=
  match lib_objects l o with
  | Some _ => (l, Undefined)
  | None => let (l1, r) := init_thread t o (set_object o (Some false) l) in (set_object o (Some true) l1, r)
  end.
(** The destructor, abe_lsss.h L93-98. *)
Definition drop_context (t o : nat) (l : library) : library * lib_result :=
  match lib_objects l o with
  | None => (l, Undefined)
  | Some true => let (l1, r) := shut_thread t o l in (set_object o None l1, r)
  | Some false => (set_object o None l, Returned)
  end.

Definition lib_step (t : nat) (c : lib_call) (l : library) : library * lib_result :=
  match c with
  | Initialize => initialize t l
  | Shutdown => shutdown t l
  | NewPairing => new_pairing t l
  | NewContext o => new_context t o l
  | InitThread o => init_thread t o l
  | ShutThread o => shut_thread t o l
  | DropContext o => drop_context t o l
  end.
(** A history: calls with the thread that makes them, first call first. *)
Definition lib_run (h : list (nat * lib_call)) (l : library) : library :=
  fold_left (fun l e => fst (lib_step (fst e) (snd e) l)) h l.
End Relic.
