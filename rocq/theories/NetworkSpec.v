(** Parties that found authorities, issue keys, exchange keys and ciphertexts as
    bytes and decrypt: what a world without cryptography would answer. *)
From Verif Require Import Base PolicySyntax PolicyMeaning AttrMeaning Lexical Keystore Scheme PolicyTruth PropScheme.
From Coq Require Import ZArith List Ascii Bool.
Import ListNotations.
Open Scope Z_scope.

(** A policy or an attribute list: what it says, and its text. *)
Inductive doc := Rule (e : pexp) (s : str) | Traits (a : alist) (t : str).
(** What a party does; [i] numbers the parties, messages and parcels are numbered
    in the order in which they were made.  [wire]: the message is read from its
    bytes; otherwise the object itself is handed over. *)
Inductive op :=
| Found (i : nat) (mpk msk : str)
| Issue (i : nat) (id mpk msk : str) (d : doc)
| Seal (i : nat) (mpk : str) (d : doc) (pt : str)
| Open (i : nat) (mpk id : str) (j : nat) (wire : bool)
| Export (i : nat) (id : str)
| Load (i : nat) (id : str) (j : nat) (c : key_class)
| Forget (i : nat) (id : str).
(** What the party is told: a code, a code and a plaintext, or neither. *)
Inductive answer := Code (c : Z) | Text (c : Z) (pt : str) | Stray.

(** What a name stands for: authorities are numbered. *)
Inductive standing := Params (n : nat) | Master (n : nat) | Right (n : nat) (d : doc).
Record ideal := { keys : nat -> key_class -> str -> option standing; founded : nat; mail : list (nat * doc * str); parcels : list standing }.
Definition nobody : ideal := {| keys := fun _ _ _ => None; founded := 0; mail := []; parcels := [] |}.
Definition same_class (a b : key_class) : bool := match a, b with KEY_PUBLIC, KEY_PUBLIC | KEY_SECRET, KEY_SECRET => true | _, _ => false end.
Definition put (k : nat -> key_class -> str -> option standing) i c id v : nat -> key_class -> str -> option standing :=
  fun i' c' id' => if Nat.eqb i i' && same_class c c' && str_eqb id id' then v else k i' c' id'.
(** The kind of document a key and a message are made for. *)
Definition for_key (sch : scheme) (d : doc) : bool := match sch, d with CP, Traits _ _ | KP, Rule _ _ => true | _, _ => false end.
Definition for_message (sch : scheme) (d : doc) : bool := match sch, d with CP, Rule _ _ | KP, Traits _ _ => true | _, _ => false end.
(** Does the policy of the one hold of the attributes of the other? *)
Definition granted mktime (d d' : doc) : bool :=
  match d, d' with Rule e _, Traits a _ | Traits a _, Rule e _ => authorised mktime e a | _, _ => false end.
(** Every attribute the policy compares has at most one value in the list. *)
Definition decided mktime (d d' : doc) : Prop :=
  match d, d' with
  | Rule e _, Traits a _ | Traits a _, Rule e _ => forall c b, In (c, b) (compared e) -> single_valued (day mktime) (aitems a) c b
  | _, _ => True
  end.

(** [None]: nothing is said about the answer. *)
Definition ideal_step (sch : scheme) mktime (st : ideal) (o : op) : ideal * option answer :=
  let set_keys k := {| keys := k; founded := founded st; mail := mail st; parcels := parcels st |} in
  match o with
  | Found i mpk msk =>
      match keys st i KEY_PUBLIC mpk, keys st i KEY_SECRET mpk, keys st i KEY_PUBLIC msk, keys st i KEY_SECRET msk with
      | None, None, None, None =>
          ({| keys := put (put (keys st) i KEY_PUBLIC mpk (Some (Params (founded st)))) i KEY_SECRET msk (Some (Master (founded st)));
              founded := S (founded st); mail := mail st; parcels := parcels st |}, Some (Code 0))
      | _, _, _, _ => (st, Some (Code 17))
      end
  | Issue i id mpk msk d =>
      if negb (for_key sch d) then (st, Some (Code 8)) else
      match keys st i KEY_PUBLIC mpk, keys st i KEY_SECRET msk with
      | Some (Params n), Some (Master _) => (set_keys (put (keys st) i KEY_SECRET id (Some (Right n d))), Some (Code 0))
      | Some _, Some _ => (st, None)
      | _, _ => (st, Some (Code 5))
      end
  | Seal i mpk d pt =>
      if negb (for_message sch d) then (st, Some (Code 8)) else
      match keys st i KEY_PUBLIC mpk with
      | Some (Params n) => ({| keys := keys st; founded := founded st; mail := mail st ++ [(n, d, pt)]; parcels := parcels st |}, Some (Code 0))
      | Some _ => (st, None)
      | None => (st, Some (Code 5))
      end
  | Open i mpk id j _ =>
      (st, match keys st i KEY_SECRET id, nth_error (mail st) j with
           | None, Some _ => Some (Text 8 [])
           | Some (Right n d), Some (m, d', pt) =>
               if granted mktime d d' then if Nat.eqb n m then Some (Text 0 pt) else None else Some (Text 32 [])
           | _, _ => None
           end)
  | Export i id =>
      let send f := ({| keys := keys st; founded := founded st; mail := mail st; parcels := parcels st ++ [f] |}, Some (Code 0)) in
      match keys st i KEY_PUBLIC id, keys st i KEY_SECRET id with
      | Some f, _ => send f
      | None, Some f => send f
      | None, None => (st, Some (Code 8))
      end
  | Load i id j c => match nth_error (parcels st) j with Some f => (set_keys (put (keys st) i c id (Some f)), Some (Code 0)) | None => (st, None) end
  | Forget i id => (set_keys (put (put (keys st) i KEY_PUBLIC id None) i KEY_SECRET id None), Some (Code 0))
  end.
Fixpoint ideal_run sch mktime (st : ideal) (os : list op) : list (option answer) :=
  match os with [] => [] | o :: os => snd (ideal_step sch mktime st o) :: ideal_run sch mktime (fst (ideal_step sch mktime st o)) os end.
Definition meets (e : option answer) (a : answer) : Prop := match e with Some a' => a = a' | None => True end.

(** How the parties must behave.  A user key is made with the two keys of one
    authority; a name under which decryption is asked for does not hold a master
    key; a key of another authority is tried on bytes only; master keys stay where
    they are; keys are loaded as what they are. *)
Definition class_of (f : standing) : key_class := match f with Params _ => KEY_PUBLIC | _ => KEY_SECRET end.
Definition allowed mktime (readable : doc -> Prop) (st : ideal) (o : op) : Prop :=
  match o with
  | Found _ mpk msk => len mpk < 2 ^ 31 /\ len msk < 2 ^ 31
  | Issue i id mpk msk d => readable d /\ len id < 2 ^ 31 /\
      forall p m, keys st i KEY_PUBLIC mpk = Some p -> keys st i KEY_SECRET msk = Some m -> exists n, p = Params n /\ m = Master n
  | Seal _ _ d pt => readable d /\ len pt < 2147483616
  | Open i _ id j wire => exists m d' pt, nth_error (mail st) j = Some (m, d', pt) /\
      forall f, keys st i KEY_SECRET id = Some f -> exists n d, f = Right n d /\ decided mktime d d' /\ (wire = true \/ granted mktime d d' = false \/ n = m)
  | Export i id => keys st i KEY_PUBLIC id = None -> forall n, keys st i KEY_SECRET id <> Some (Master n)
  | Load _ _ j c => exists f, nth_error (parcels st) j = Some f /\ class_of f = c
  | Forget _ _ => True
  end.
