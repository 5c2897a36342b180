(** Model of the key exports of OpenABESymKeyHandle (src/abe/zsymcrypto.cpp
    L160-179) and of programs that use several symmetric encryption objects with
    one random source.  Only definitions; proofs are in PropNonce.v. *)
From Verif Require Import Base StrMap ByteString Base64 Utils Keystore Kdf Sym SymSpec.
From Coq Require Import ZArith List Ascii Bool.
Import ListNotations.
Open Scope Z_scope.
Open Scope res_scope.

(** L160-163 exportRawKey. *)
Definition export_raw_key (h : handle) : str := h_key h.
(** L165-179 exportKey: the salt is a local, empty buffer. *)
Definition export_key (hash : str -> str) (hmac : str -> str -> str) (h : handle) : res str :=
  do r <- compute_hkdf hash hmac (h_key h) [] (L "export key") (len (h_key h)); Ok (fst r).

(** ** Programs *)
Section Programs.
Context (G : gcm) (hash : str -> str).
(** The random source: draw number [i] of [n] bytes (zkey.cpp L134-143 getRandomBytes). *)
Variable tape : nat -> Z -> str.

Inductive tool := THandle (h : handle) | THandler (h : handler) | TContext (c : ske).
(** The objects of the program, by number, and the next draw.  A call that draws
    nothing may still move on: the numbers only tell draws apart. *)
Record room := { tools : nat -> option tool; next : nat }.
Definition no_tools (n : nat) : room := {| tools := fun _ => None; next := n |}.

(** Calls on an object.  The random arguments inside [UContextCall] are replaced by
    the draw. *)
Inductive use :=
| UNewHandle (key aad : str) (b64 : bool) | UNewHandler (key : str) (m : mode) (b64 : bool) | UNewContext | UDrop
| USetKey (key : str) | USetAuth (a : str) | USeal (m : str) | UOpen (ct : str)
| UContextCall (o : sop).
Inductive answer := ACode (r : res Z) | AText (r : res str) | ABuffer (out : str) (r : res Z) | ANone.

Definition redraw (i : nat) (o : sop) : sop :=
  match o with
  | SKeygen id _ => SKeygen id (tape i 32)
  | SLoad id b _ => SLoad id b (tape i 16)
  | SEncInit id iv _ => SEncInit id iv (tape i 16)
  | _ => o
  end.
Definition put (f : nat -> option tool) (n : nat) (t : option tool) : nat -> option tool := fun m => if Nat.eqb m n then t else f m.
Definition made (t : res tool) : option tool * answer :=
  match t with Ok t => (Some t, ACode (Ok 0)) | Throw e => (None, ACode (Throw e)) | UB => (None, ACode UB) | Exit => (None, ACode Exit) | NoFuel => (None, ACode NoFuel) end.
(** A constructor that throws makes no object; a setter that throws leaves it. *)
Definition apply_use (t : option tool) (i : nat) (u : use) : option tool * answer :=
  match u, t with
  | UNewHandle key aad b64, _ => made (do h <- new_handle_aad key aad b64; Ok (THandle h))
  | UNewHandler key m b64, _ => made (do h <- new_handler key m b64; Ok (THandler h))
  | UNewContext, _ => (Some (TContext new_ske), ACode (Ok 0))
  | UDrop, _ => (None, ANone)
  | USetKey key, Some (THandler h) => match set_ske_handler_bytes h key with Ok h' => (Some (THandler h'), ACode (Ok 0)) | _ => (t, ANone) end
  | USetAuth a, Some (THandler h) => match set_auth_data hash h a with Ok h' => (Some (THandler h'), ACode (Ok 0)) | _ => (t, ANone) end
  | USeal m, Some (THandle h) => (t, AText (handle_encrypt G h m (tape i 16)))
  | USeal m, Some (THandler h) => (t, AText (handler_encrypt G h m (tape i 16)))
  | UOpen ct, Some (THandle h) => (t, AText (handle_decrypt G h ct))
  | UOpen ct, Some (THandler h) => (t, AText (handler_decrypt G h ct))
  | UContextCall o, Some (TContext c) => let '(c', out, r) := sexec G c (redraw i o) in (Some (TContext c'), ABuffer out r)
  | _, _ => (t, ANone)
  end.
Definition step (w : room) (n : nat) (u : use) : room * answer :=
  let '(t, a) := apply_use (tools w n) (next w) u in ({| tools := put (tools w) n t; next := S (next w) |}, a).
Fixpoint run (w : room) (us : list (nat * use)) : list (nat * use * answer) :=
  match us with
  | [] => []
  | (n, u) :: t => let '(w', a) := step w n u in (n, u, a) :: run w' t
  end.
End Programs.
