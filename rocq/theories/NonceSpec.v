(** Nonces: which bytes of which key stream cover a piece of plaintext that left
    the program. *)
From Verif Require Import Base ByteString Base64 Sym SymSpec SymKeys.
From Coq Require Import ZArith List Ascii Bool.
Import ListNotations.
Open Scope Z_scope.

(** A piece: [p_text] was encrypted to [p_out] with the bytes [p_at], [p_at]+1, ... of
    the key stream of key [p_key] and the nonce of draw number [p_draw]. *)
Record piece := { p_draw : nat; p_at : nat; p_key : str; p_text : str; p_out : str }.
(** The nonce a draw gives. *)
Definition nonce (G : gcm) (tape : nat -> Z -> str) (d : nat) : option str := iv_used G (tape d 16).
Definition covers (G : gcm) (tape : nat -> Z -> str) (p : piece) : Prop :=
  exists v, nonce G tape (p_draw p) = Some v /\ length (p_out p) = length (p_text p) /\
    forall i x, nth_error (p_text p) i = Some x -> nth_error (p_out p) i = Some (z2b (Z.lxor (b2z x) (b2z (ks G (p_key p) v (p_at p + i))))).
(** A message that begins with a nonce and a ciphertext, as bytes or in base64. *)
Definition message (wire iv ct : str) : Prop :=
  exists rest, let w := smart_pack [] iv ++ smart_pack [] ct ++ rest in wire = w \/ base64_encode w = Ok wire.

(** What a call and its answer let out: nothing, or a piece.  One-shot encryption
    returns a message with the drawn nonce, covered from the start of the key
    stream; an update of a session appends to the caller's buffer. *)
Definition lets_out (tape : nat -> Z -> str) (u : use) (a : answer) (p : option piece) : Prop :=
  match u, a with
  | USeal m, AText (Ok wire) => exists q, p = Some q /\ p_text q = m /\ p_at q = 0%nat /\ message wire (tape (p_draw q) 16) (p_out q)
  | UContextCall (SEncUpdate block before), ABuffer after _ =>
      (after = before /\ p = None) \/ exists q, p = Some q /\ p_text q = block /\ after = before ++ p_out q
  | _, _ => p = None
  end.
(** Two pieces share no byte of a key stream. *)
Definition apart (p q : piece) : Prop := p_draw p = p_draw q -> (p_at p + length (p_text p) <= p_at q)%nat \/ (p_at q + length (p_text q) <= p_at p)%nat.
(** A source gives as many bytes as asked for; one whose draws
    from [lo] to below [hi] are all different. *)
Definition source (tape : nat -> Z -> str) : Prop := forall i n, 0 <= n -> len (tape i n) = n.
Definition distinct (tape : nat -> Z -> str) (lo hi : nat) : Prop := forall i j, (lo <= i < hi)%nat -> (lo <= j < hi)%nat -> tape i 16 = tape j 16 -> i = j.
(** The bytes of key stream a piece uses: a nonce and a position. *)
Definition uses_byte (G : gcm) (tape : nat -> Z -> str) (p : piece) (v : str) (i : nat) : Prop :=
  nonce G tape (p_draw p) = Some v /\ (p_at p <= i < p_at p + length (p_text p))%nat.
