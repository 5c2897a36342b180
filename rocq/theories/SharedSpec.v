(** Specification vocabulary for a context shared by threads. *)
From Verif Require Import Base StrMap ByteString UInteger Field Policy Driver Parser AttrList Utils Kdf Lsss Container Keystore Scheme SchemeSpec FreshSpec SharedCtx.
From Coq Require Import ZArith List Ascii Bool.
Import ListNotations.
Open Scope Z_scope.

Section Alone.
Context (E : engine) (sch : scheme).
Notation K := (e_curve E).
(** The calls made by a single thread: the functions of Scheme.v. *)
Definition world_of (s : store (key K)) (o : own K) : world E := {| w_store := s; w_off := o_off o; w_ct := o_ct o; w_sym := o_sym o |}.
Definition own_of (w : world E) : own K := {| o_off := w_off E w; o_ct := w_ct E w; o_sym := w_sym E w |}.
Definition serve (q : request K) (s : store (key K)) (o : own K) : store (key K) * own K * answer K :=
  match q with
  | AskParams mpk msk => let '(w, r) := generate_params E sch mpk msk (world_of s o) in (w_store E w, own_of w, code_only r)
  | AskKey inp id mpk msk => let '(w, r) := keygen E sch inp id mpk msk (world_of s o) in (w_store E w, own_of w, code_only r)
  | AskEncrypt mpk inp pt ct => let '(w, r) := encrypt E sch mpk inp pt (set_ct E (world_of s o) ct) in (w_store E w, own_of w, code_and_ct r (w_ct E w))
  | AskDecrypt mpk id ct => let '(w, r) := decrypt E sch mpk id (set_ct E (world_of s o) ct) in (w_store E w, own_of w, code_and_bytes r)
  | AskExport id => let '(w, r) := export_key E id [] (world_of s o) in (w_store E w, own_of w, code_and_bytes r)
  | AskLoad id blob c => let '(w, r) := load_key E sch id blob c (world_of s o) in (w_store E w, own_of w, code_only r)
  | AskDelete id => let '(w, r) := drop_key E id (world_of s o) in (w_store E w, own_of w, code_only r)
  | AskHas id => let '(w, r) := has_secret_key E id (world_of s o) in (w_store E w, own_of w, code_only (flag_code r))
  end.
Fixpoint serve_all (l : list (request K)) (s : store (key K)) (o : own K) : store (key K) * own K * list (answer K) :=
  match l with
  | [] => (s, o, [])
  | q :: l' => let '(s1, o1, a) := serve q s o in let '(s2, o2, r) := serve_all l' s1 o1 in (s2, o2, a :: r)
  end.
End Alone.

(** The calls that make or remove no key. *)
Definition uses_keys {K} (q : request K) : Prop :=
  match q with AskEncrypt _ _ _ _ | AskDecrypt _ _ _ | AskExport _ | AskHas _ => True | _ => False end.

(** The threads when they start: the random choices of each, what is its own, and
    its calls. *)
Section Start.
Context (E : engine) (sch : scheme).
Notation K := (e_curve E).
Definition thread := (coins K * own K * list (request K))%type.
Definition begin (s : store (key K)) (ts : list thread) : machine K (list (answer K)) :=
  {| m_store := s; m_threads := map (fun t : thread => let '(c, o, l) := t in (o, prequests (retape E c) sch l : prog K (list (answer K)))) ts |}.
(** What the thread alone would get and leave. *)
Definition by_itself (s : store (key K)) (t : thread) : store (key K) * own K * list (answer K) :=
  let '(c, o, l) := t in serve_all (retape E c) sch l s o.
End Start.

(** A data race: two threads about to access the same place, one to write it. *)
Definition about_to {K R} (m : machine K R) (i : nat) (p : place) (w : bool) : Prop :=
  exists o a next, nth_error (m_threads m) i = Some (o, Outside a next) /\ In (p, w) (touched a (m_store m)).
Definition race {K R} (m : machine K R) : Prop :=
  exists i j p w w', i <> j /\ about_to m i p w /\ about_to m j p w' /\ w || w' = true.
(** The thread is through with its calls. *)
Definition finished {K R} (m : machine K R) (i : nat) (o : own K) (r : R) : Prop := nth_error (m_threads m) i = Some (o, Ended (Ok r)).
(** The turns of a thread in a schedule. *)
Definition turns_of (i : nat) (schedule : list nat) : nat := count_occ Nat.eq_dec schedule i.
