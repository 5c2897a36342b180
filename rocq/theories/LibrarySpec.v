(** What a program sees of starting and stopping the library, said of the history of
    calls alone. *)
From Verif Require Import Library.
From Coq Require Import List.
Import ListNotations.

(** Someone called InitializeOpenABE, and nobody ShutdownOpenABE after. *)
Definition on (h : list (nat * lib_call)) : Prop :=
  exists a t b, h = a ++ (t, Initialize) :: b /\ forall t', ~ In (t', Shutdown) b.
(** Thread [t] prepared itself as abe_lsss.h L70-78 asks (it made an
    OpenABEStateContext, or it is the one whose InitializeOpenABE succeeded) and did
    not call ShutdownOpenABE after. *)
Definition prepared (t : nat) (h : list (nat * lib_call)) : Prop :=
  exists a c b, h = a ++ (t, c) :: b /\ ~ In (t, Shutdown) b /\
    match c with Initialize => ~ on a | NewContext o => True | _ => False end.
(** Objects are used as C++ asks: made before use, not made twice, not used after
    they are gone. *)
Fixpoint alive (o : nat) (h : list (nat * lib_call)) (b : bool) : Prop :=
  match h with
  | [] => True
  | (_, c) :: h =>
      match c with
      | NewContext o' => (o' = o /\ b = false /\ alive o h true) \/ (o' <> o /\ alive o h b)
      | DropContext o' => (o' = o /\ b = true /\ alive o h false) \/ (o' <> o /\ alive o h b)
      | InitThread o' | ShutThread o' => (o' = o -> b = true) /\ alive o h b
      | _ => alive o h b
      end
  end.
Definition well_used (h : list (nat * lib_call)) : Prop := forall o, alive o h false.
