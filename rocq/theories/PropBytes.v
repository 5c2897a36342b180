(** Properties C01-C08 (byte strings).  Statements only; proofs in ByteStringProofs.v. *)
From Verif Require Import Base ByteString ByteStringProofs.
From Coq Require Import ZArith List Ascii Bool.
Import ListNotations.
Open Scope Z_scope.

(** C01 *)
Theorem C01_pack_unpack : forall pre payload suf,
  len payload < 2^32 ->
  unpack (pack pre payload ++ suf) (length pre) = Ok (payload, length (pack pre payload)).
Proof. exact unpack_pack_lemma. Qed.
Print Assumptions C01_pack_unpack.
Example C01_nonvacuous :
  unpack (pack (L "hdr") (L "payload") ++ L "tail") 3 = Ok (L "payload", 14%nat).
Proof. vm_compute. reflexivity. Qed.

(** C02 *)
Theorem C02_smart_sequence : forall l,
  Forall (fun s => len s < 2^32) l ->
  read_all (length l) (write_all l) 0 = Some (filter nonempty l).
Proof. exact read_all_write_all. Qed.
Print Assumptions C02_smart_sequence.
Theorem C02_smart_single : forall pre payload suf,
  0 < len payload < 2^32 ->
  smart_unpack (smart_pack pre payload ++ suf) (length pre)
  = (length (smart_pack pre payload), Ok payload).
Proof. exact smart_unpack_pack_lemma. Qed.
Print Assumptions C02_smart_single.
Theorem C02_empty_writes_nothing : forall pre, smart_pack pre [] = pre.
Proof. exact smart_pack_empty_lemma. Qed.
Print Assumptions C02_empty_writes_nothing.
Example C02_nonvacuous :
  let l := [L "a"; []; repeat (z2b 7) 300; L "bc"] in
  read_all 4 (write_all l) 0 = Some [L "a"; repeat (z2b 7) 300; L "bc"].
Proof. vm_compute. reflexivity. Qed.

(** C03 *)
Theorem C03_smart_unpack_safe : forall b i,
  match smart_unpack b i with
  | (j, Ok s) => (i < j <= length b)%nat /\
                 (s = [] \/ exists k, (i < k)%nat /\ slice_of b k s /\ j = (k + length s)%nat)
  | (j, Throw e) => e = OutOfRange /\ (j = i \/ (j = i + 1)%nat) /\ (j <= Nat.max i (length b))%nat
  | _ => False
  end.
Proof. exact smart_unpack_safe_lemma. Qed.
Print Assumptions C03_smart_unpack_safe.
Theorem C03_unpack_safe : forall b i,
  match unpack b i with
  | Ok (s, j) => slice_of b (i + 4) s /\ j = (i + 4 + length s)%nat /\ (j <= length b)%nat
  | Throw e => e = OutOfRange
  | _ => False
  end.
Proof. exact unpack_safe_lemma. Qed.
Print Assumptions C03_unpack_safe.
Theorem C03_get32_safe : forall b i,
  match get32bits b i with
  | Ok (v, j) => 0 <= v < 2^32 /\ j = (i + 4)%nat /\ (j <= length b)%nat
  | Throw e => e = OutOfRange
  | _ => False
  end.
Proof. exact get32bits_safe_lemma. Qed.
Print Assumptions C03_get32_safe.
Theorem C03_get16_safe : forall b i,
  match get16bits b i with
  | Ok (v, j) => 0 <= v < 2^16 /\ j = (i + 2)%nat /\ (j <= length b)%nat
  | Throw e => e = OutOfRange
  | _ => False
  end.
Proof. exact get16bits_safe_lemma. Qed.
Print Assumptions C03_get16_safe.
(** A truncated buffer throws; a complete one reads. *)
Example C03_nonvacuous :
  smart_unpack (map z2b [161; 5; 1; 2]) 0 = (1%nat, Throw OutOfRange) /\
  smart_unpack (map z2b [161; 2; 1; 2]) 0 = (4%nat, Ok (map z2b [1; 2])).
Proof. vm_compute. auto. Qed.

(** C04 *)
Theorem C04_hex_roundtrip : forall this b,
  from_hex this (to_hex b) = (b, true) /\ from_hex this (to_lower_hex b) = (b, true).
Proof. intros. split; apply from_hex_to_hex_lemma. Qed.
Print Assumptions C04_hex_roundtrip.
(** Specification of a hex digit by enumeration, independent of [hexval]. *)
Definition hex_alphabet : str := L "0123456789abcdefABCDEF".
Theorem C04_hex_accepts_iff : forall this s,
  (snd (from_hex this s) = true <->
     Forall (fun c => In c hex_alphabet) s /\ Nat.Even (length s)) /\
  (snd (from_hex this s) = false -> fst (from_hex this s) = this).
Proof. exact from_hex_accepts_lemma. Qed.
Print Assumptions C04_hex_accepts_iff.
Example C04_nonvacuous :
  from_hex (L "old") (L "DeAdbeef") = (map z2b [222; 173; 190; 239], true) /\
  from_hex (L "old") (L "abc") = (L "old", false) /\
  from_hex (L "old") (L "zz") = (L "old", false).
Proof. vm_compute. auto. Qed.

(** C05 *)
Theorem C05_equality : forall a b,
  (bs_eq a b = true <-> a = b) /\
  snd (bs_eq_steps a b) = if Nat.eqb (length a) (length b) then length a else 0%nat.
Proof. exact bs_eq_spec_lemma. Qed.
Print Assumptions C05_equality.

(** C06 *)
Theorem C06_roundtrip : forall this b, b <> [] -> len b < 2^32 ->
  bs_deserialize this (bs_serialize b) = Ok b.
Proof. exact bs_roundtrip_lemma. Qed.
Print Assumptions C06_roundtrip.
Theorem C06_total : forall this input, exists b, bs_deserialize this input = Ok b.
Proof. exact bs_deserialize_total_lemma. Qed.
Print Assumptions C06_total.
Theorem C06_only_wellformed : forall this input b,
  bs_deserialize this input = Ok b ->
  b = this \/ (exists tag, input = z2b tag :: be32 (len b) ++ b).
Proof. exact bs_deserialize_reject_lemma. Qed.
Print Assumptions C06_only_wellformed.
Theorem C06_empty_not_transmitted : forall this, bs_deserialize this (bs_serialize []) = Ok this.
Proof. reflexivity. Qed.
Print Assumptions C06_empty_not_transmitted.
Example C06_nonvacuous :
  bs_deserialize (L "old") (bs_serialize (L "new")) = Ok (L "new") /\
  bs_deserialize (L "old") (map z2b [29; 0; 0; 0; 9; 1; 2]) = Ok (L "old").
Proof. vm_compute. auto. Qed.

(** C07 *)
Theorem C07_xor_involution : forall data mask,
  mask <> [] ->
  exists d2, xor_assign data mask = Ok d2 /\ xor_assign d2 mask = Ok data /\
    length d2 = length data /\
    (forall k c, nth_error data k = Some c ->
       nth_error d2 k = Some (z2b (Z.lxor (b2z c) (b2z (nth (k mod length mask) mask (z2b 0)))))).
Proof. exact xor_assign_lemma. Qed.
Print Assumptions C07_xor_involution.
Theorem C07_xor_empty_mask : forall data, data <> [] -> xor_assign data [] = UB.
Proof. exact xor_empty_mask_lemma. Qed.
Print Assumptions C07_xor_empty_mask.
Example C07_nonvacuous : xor_assign (map z2b [1; 2; 3]) (map z2b [255; 1]) = Ok (map z2b [254; 3; 252]).
Proof. vm_compute. reflexivity. Qed.

(** C08 *)
Theorem C08_get_subset : forall b start num,
  0 <= start -> 0 <= num < 2^32 -> start + num < 2^64 ->
  (exists pre mid suf, b = pre ++ mid ++ suf /\ len pre = start /\ len mid = num /\ get_subset b start num = Ok mid)
  \/ (len b < start + num /\ get_subset b start num = Ok []).
Proof. exact get_subset_slice_lemma. Qed.
Print Assumptions C08_get_subset.
(** Without the no-wrap hypothesis the bound check is defeated. *)
Theorem C08_wrap_refuted : exists b start num,
  0 <= start < 2^64 /\ 0 <= num < 2^64 /\ get_subset b start num = UB.
Proof.
  exists (L "abc"), (2^64 - 1), 2. split; [split; reflexivity || discriminate|].
  split; [split; reflexivity || discriminate|]. vm_compute. reflexivity.
Qed.
Print Assumptions C08_wrap_refuted.
Example C08_nonvacuous : get_subset (L "abcdef") 2 3 = Ok (L "cde") /\ get_subset (L "abcdef") 4 3 = Ok [].
Proof. vm_compute. auto. Qed.

(** C66: operator+(std::string) does not concatenate. *)
Theorem C66_plus_string_refuted : exists b s, plus_string b s <> b ++ s.
Proof. exists (L "ab"), (L "!"). vm_compute. discriminate. Qed.
Print Assumptions C66_plus_string_refuted.
Theorem C66_plus_string_partial : forall b s, plus_string b s = b ++ s <-> s = [].

Proof. exact plus_string_lemma. Qed.
Print Assumptions C66_plus_string_partial.
