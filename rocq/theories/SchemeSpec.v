(** Specification vocabulary for the encryption contexts: what is expected of the
    pairing library, and what a history of calls on a context is. *)
From Verif Require Import Base StrMap ByteString UInteger Field Policy Driver Parser AttrList Utils Kdf Lsss LsssSpec Container Keystore Scheme.
From Coq Require Import ZArith Znumtheory List Ascii Bool Permutation.
Import ListNotations.
Open Scope Z_scope.

(** Three groups of prime order with a bilinear map; digests of 32 bytes; a key
    derivation that fills its output; a sort that permutes; a random generator that
    fills its buffer. *)
Record lawful (E : engine) : Prop := {
  law_prime : prime (order (e_curve E));
  law_add1_assoc : forall x y z, add1 E x (add1 E y z) = add1 E (add1 E x y) z;
  law_add1_comm : forall x y, add1 E x y = add1 E y x;
  law_add1_zero : forall x, add1 E (zero1 E) x = x;
  law_mul1_add : forall a b x, mul1 E (a + b) x = add1 E (mul1 E a x) (mul1 E b x);
  law_mul1_mul : forall a b x, mul1 E a (mul1 E b x) = mul1 E (a * b) x;
  law_multT_assoc : forall x y z, multT E x (multT E y z) = multT E (multT E x y) z;
  law_multT_comm : forall x y, multT E x y = multT E y x;
  law_multT_one : forall x, multT E (oneT E) x = x;
  law_multT_inv : forall x, multT E x (invT E x) = oneT E;
  law_expT_add : forall a b x, expT E (a + b) x = multT E (expT E a x) (expT E b x);
  law_expT_mul : forall a b x, expT E a (expT E b x) = expT E (a * b) x;
  law_expT_order : forall x, expT E (order (e_curve E)) x = oneT E;
  law_pair_add1 : forall x y z, pair E (add1 E x y) z = multT E (pair E x z) (pair E y z);
  law_pair_zero1 : forall z, pair E (zero1 E) z = oneT E;
  law_pair_add2 : forall x y z, pair E z (add2 E x y) = multT E (pair E z x) (pair E z y);
  law_pair_mul1 : forall a x z, pair E (mul1 E a x) z = expT E a (pair E x z);
  law_pair_mul2 : forall a x z, pair E z (mul2 E a x) = expT E a (pair E z x);
  law_hash : forall b, length (e_hash E b) = 32%nat;
  law_kdf : forall n b, 0 < n -> len (e_kdf E n b) = n;
  law_sort : forall l, Permutation (e_sort E l) l;
  law_bytes : forall i n, 0 <= n -> len (e_bytes E i n) = n
}.

(** No two different names of the list have the same short form. *)
Definition no_collision (f : str -> str) (l : list str) : Prop :=
  forall a b, In a l -> In b l -> f a = f b -> a = b.

(** The calls of OpenABEContextSchemeCPA.  A ciphertext is an object of the caller. *)
Section History.
Context (E : engine) (sch : scheme).
Notation K := (e_curve E).
Inductive request :=
| RParams (mpk msk : str)
| RKeygen (inp : input) (id mpk msk : str)
| REncrypt (mpk : str) (inp : input) (plaintext : str) (ct : ciphertext K)
| RDecrypt (mpk id : str) (ct : ciphertext K)
| RExport (id out : str)
| RLoad (id blob : str) (c : key_class)
| RDelete (id : str)
| RCheck (id : str)
| RHashKey (mpk : str).
(** A context: its key store and the position in the random sequence. *)
Definition context : Type := store (key K) * nat.
Definition start (x : context) (ct : ciphertext K) : world E :=
  {| w_store := fst x; w_off := snd x; w_ct := ct; w_sym := [] |}.
Definition left_by (w : world E) : context := (w_store E w, w_off E w).
(** The call returned: with a result or with an exception. *)
Definition returned {A} (r : res A) : Prop := match r with Ok _ | Throw _ => True | _ => False end.
Definition call {A} (m : code E A) (ct : ciphertext K) (x x' : context) : Prop :=
  exists w r, m (start x ct) = (w, r) /\ returned r /\ x' = left_by w.
Definition no_ct : ciphertext K := new_ciphertext K.
Definition served (r : request) : context -> context -> Prop :=
  match r with
  | RParams mpk msk => call (generate_params E sch mpk msk) no_ct
  | RKeygen inp id mpk msk => call (keygen E sch inp id mpk msk) no_ct
  | REncrypt mpk inp p ct => call (encrypt E sch mpk inp p) ct
  | RDecrypt mpk id ct => call (decrypt E sch mpk id) ct
  | RExport id out => call (export_key E id out) no_ct
  | RLoad id blob c => call (load_key E sch id blob c) no_ct
  | RDelete id => call (drop_key E id) no_ct
  | RCheck id => call (has_secret_key E id) no_ct
  | RHashKey mpk => call (get_hash_key E mpk) no_ct
  end.
Inductive history : list request -> context -> context -> Prop :=
| h_nil : forall x, history [] x x
| h_cons : forall r h x y z, served r x y -> history h y z -> history (r :: h) x z.

(** The calls that may replace or remove the key of a class under a name: a new
    key of that name, loading one, deleting one.  (generateParams refuses names
    in use.) *)
Definition replaces (c : key_class) (id : str) (r : request) : Prop :=
  match r with
  | RKeygen _ i _ _ => c = KEY_SECRET /\ i = id
  | RLoad i _ c' => c' = c /\ i = id
  | RDelete i => i = id
  | _ => False
  end.
Definition spares (c : key_class) (id : str) (h : list request) : Prop := forall r, In r h -> ~ replaces c id r.

(** A complete use of the scheme on one context: parameters, a user key, a
    ciphertext (in either order) and its decryption, with any other calls in
    between that leave the keys still needed in place.  [rk], [re] and [out] are
    the outcomes of generateDecryptionKey, encrypt and decrypt.  The ciphertext
    object may have held anything before. *)
Inductive session (kinp einp : input) (pt : str) (rk re : res Z) (out : res (Z * str)) : Prop :=
| key_first : forall mpk msk kid mpk' x0 w1 h1 x2 w3 h2 x4 ct0 w5 h3 x6 w7,
    generate_params E sch mpk msk (start x0 no_ct) = (w1, Ok 0) ->
    history h1 (left_by w1) x2 -> spares KEY_PUBLIC mpk h1 -> spares KEY_SECRET msk h1 ->
    keygen E sch kinp kid mpk msk (start x2 no_ct) = (w3, rk) ->
    history h2 (left_by w3) x4 -> spares KEY_PUBLIC mpk h2 -> spares KEY_SECRET kid h2 ->
    encrypt E sch mpk einp pt (start x4 ct0) = (w5, re) ->
    history h3 (left_by w5) x6 -> spares KEY_SECRET kid h3 ->
    decrypt E sch mpk' kid (start x6 (w_ct E w5)) = (w7, out) ->
    session kinp einp pt rk re out
| ciphertext_first : forall mpk msk kid mpk' x0 w1 h1 x2 ct0 w3 h2 x4 w5 h3 x6 w7,
    generate_params E sch mpk msk (start x0 no_ct) = (w1, Ok 0) ->
    history h1 (left_by w1) x2 -> spares KEY_PUBLIC mpk h1 -> spares KEY_SECRET msk h1 ->
    encrypt E sch mpk einp pt (start x2 ct0) = (w3, re) ->
    history h2 (left_by w3) x4 -> spares KEY_PUBLIC mpk h2 -> spares KEY_SECRET msk h2 ->
    keygen E sch kinp kid mpk msk (start x4 no_ct) = (w5, rk) ->
    history h3 (left_by w5) x6 -> spares KEY_SECRET kid h3 ->
    decrypt E sch mpk' kid (start x6 (w_ct E w3)) = (w7, out) ->
    session kinp einp pt rk re out.
End History.
