(** Decryption with room on the stack for a given number of pairs of group elements.
    multi_pairing copies its operands into two arrays on the stack, as long as the
    vectors it is given (zpairing.cpp L203-205); [UB] is running out of stack. *)
From Verif Require Import Base StrMap ByteString Field Policy Driver Parser AttrList Utils Kdf Lsss Container Keystore Scheme.
From Coq Require Import ZArith List Ascii Bool Lia.
Import ListNotations.
Open Scope Z_scope.

Section Room.
Context (E : engine) (room : nat).
Notation K := (e_curve E).
Notation code := (code E).
Notation "'let!' x := m 'in' k" := (andthen E m (fun x => k)) (at level 200, x pattern, m at level 100, k at level 200).

(** zpairing.cpp L197-216 multi_pairing: the lengths are checked before the arrays are
    made. *)
Definition multi_pairing_in (g1s : list (g1 K)) (g2s : list (g2 K)) : res (gt K) :=
  if negb (length g1s =? length g2s)%nat || (length g1s =? 0)%nat then Throw (OpenABEError 24)
  else if (room <? length g1s)%nat then UB else multi_pairing E g1s g2s.

(** schemes/zcontextcpwaters.cpp L303-377 decryptKEM. *)
Definition cp_decrypt_kem_in (mpk_id key_id : str) (key_len : Z) : code Z := catch_code E (
  let! dec := secret_key E key_id in
  let! _ := assert_notnull E dec in
  let! l := key_part E (as_attrs E) KEY_SECRET key_id (L "input") in
  let! pol0 := ct_part E (as_bytes E) (L "policy") in
  let! pol := assert_notnull E pol0 in
  let! q := lift E (create_policy_tree (e_mktime E) pol) in
  let! out := lift E (recover E q l) in
  let '(ok, rows) := out in
  if negb ok then throw E 32 else
  let! prods := cp_dec_loop E key_id rows (zero1 E) [] [] in
  let '(prod1, g1s, g2s) := prods in
  let! prodT := lift E (multi_pairing_in g1s g2s) in
  let! cprime0 := ct_part E (as_g1 E) (L "Cprime") in
  let! k0 := key_part E (as_g2 E) KEY_SECRET key_id (L "K") in
  let! l0 := key_part E (as_g2 E) KEY_SECRET key_id (L "L") in
  let! cprime := assert_notnull E cprime0 in
  let! kk := assert_notnull E k0 in
  let! ll := assert_notnull E l0 in
  let! _ := hash_to_sym E (divT E (pair E cprime kk) (multT E prodT (pair E prod1 ll))) key_len in
  ret E 0).

(** schemes/zcontextkpgpsw.cpp L284-354 decryptKEM. *)
Definition kp_decrypt_kem_in (mpk_id key_id : str) (key_len : Z) : code Z := catch_code E (
  let! dec := secret_key E key_id in
  let! _ := assert_notnull E dec in
  let! pol0 := key_part E (as_bytes E) KEY_SECRET key_id (L "input") in
  let! pol := assert_notnull E pol0 in
  let! q := lift E (create_policy_tree (e_mktime E) pol) in
  let! l := ct_part E (as_attrs E) (L "attributes") in
  let! out := lift E (recover E q l) in
  let '(ok, rows) := out in
  if negb ok then throw E 32 else
  let! prods := kp_dec_loop E key_id rows (zero1 E) [] [] in
  let '(prod1, g1s, g2s) := prods in
  let! prodT := lift E (multi_pairing_in g1s g2s) in
  let! cpr0 := ct_part E (as_g2 E) (L "Cpr2") in
  let! cpr := assert_notnull E cpr0 in
  let! _ := hash_to_sym E (divT E (pair E prod1 cpr) prodT) key_len in
  ret E 0).
Definition decrypt_kem_in (s : scheme) := match s with CP => cp_decrypt_kem_in | KP => kp_decrypt_kem_in end.

(** src/abe/zcontextabe.cpp L351-385 decrypt. *)
Definition decrypt_body_in (s : scheme) (mpk_id key_id : str) : code str :=
  let! _ := fresh_sym E in
  let! result := decrypt_kem_in s mpk_id key_id 32 in
  if negb (result =? 0) then throw E result else
  let! enc0 := ct_part E (as_bytes E) (L "_ED") in
  let! enc := assert_notnull E enc0 in
  let! key := sym_bytes E in
  let! m := lift E (mask E key (len enc)) in
  lift E (xor_assign enc m).
Definition decrypt_in (s : scheme) (mpk_id key_id : str) : code (Z * str) := fun w =>
  match decrypt_body_in s mpk_id key_id w with
  | (w', Ok p) => (w', Ok (0, p))
  | (w', Throw (OpenABEError e)) => (w', Ok (e, []))
  | (w', Throw e) => (w', Throw e) | (w', UB) => (w', UB) | (w', Exit) => (w', Exit) | (w', NoFuel) => (w', NoFuel)
  end.
End Room.
