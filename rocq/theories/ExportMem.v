(** The arrays that exporting containers, ciphertexts and keys takes from malloc:
    src/lsss/zelement_bp.cpp L540-563 (G1), L706-729 (G2), L851-872 (GT), called by
    src/abe/zcontainer.cpp L135-144, src/abe/zciphertext.cpp L92-111 and L158-167, and
    src/abe/zkey.cpp L109-127.  The exported bytes are those of Container.v; here the
    arrays and their contents are kept as well, with a history as in StreamMem.v.
    Byte strings are released by the language and not recorded.  Every element is
    initialized, as in Container.v. *)
From Verif Require Import Base StrMap ByteString UInteger Field Policy Driver Parser AttrList Utils Container Memory StreamMem.
From Coq Require Import ZArith List Bool.
Import ListNotations.
Open Scope Z_scope.

(** [held] has what is in the array with address n as its n-th item. *)
Record emem := { hist : tmem; held : list str }.
Definition enothing : emem := {| hist := {| next := O; log := [] |}; held := [] |}.
Section ExportMem.
Context (K : curve).
(** getBytes: malloc, and g1_write_bin (g2, gt) writes the array.  serialize copies it
    (appendArray); free is not called. *)
Definition get_bytes (raw : str) (m : emem) : emem :=
  let a := next (hist m) in {| hist := told (Use a) (told (Use a) (tnew (hist m))); held := held m ++ [raw] |}.
(** serialize of each class; ZP, integers, byte strings and attribute lists make
    byte strings only (zelement_bp.cpp L341-346). *)
Definition obj_serialize_mem (old : str) (o : zobj K) (m : emem) : str * emem :=
  (obj_serialize old o,
   match o with
   | OG1 x => get_bytes (g1_out K x) m
   | OG2 x => get_bytes (g2_out K x) m
   | OGt x => get_bytes (gt_out K x) m
   | _ => m
   end).
(** zcontainer.cpp L135-144. *)
Fixpoint serialize_loop_mem (entries : container K) (bytes result : str) (m : emem) : res str * emem :=
  match entries with
  | [] => (Ok result, m)
  | (key, Some o) :: rest =>
      let '(bytes', m') := obj_serialize_mem bytes o m in
      serialize_loop_mem rest bytes' (smart_pack (smart_pack result key) bytes') m'
  | (_, None) :: _ => (UB, m)
  end.
(** Calls: serialize of a container into a byte string, exportToBytes and
    exportToBytesWithoutHeader of a ciphertext, exportKeyToBytes of a key. *)
Inductive xop := XContainer (c : container K) (result : str) | XCipher (c : ciphertext K) | XBare (c : ciphertext K) | XKey (k : key K).
Definition xparts (o : xop) : container K :=
  match o with XContainer c _ => c | XCipher c | XBare c => ct_parts c | XKey k => k_parts k end.
Definition xstep (o : xop) (m : emem) : res str * emem :=
  let '(body, m') := serialize_loop_mem (xparts o) [] (match o with XContainer _ r => r | _ => [] end) m in
  (match o with
   | XContainer _ _ => body
   | XCipher c => do b <- body; Ok (smart_pack (smart_pack [] (get_header c)) b)
   | XBare _ => do b <- body; Ok (smart_pack [] b)
   | XKey k => do b <- body; Ok (pack (pack [] (key_header k)) b)
   end, m').
(** A program of exports, until one has undefined behaviour. *)
Fixpoint xruns (l : list xop) (m : emem) : list (res str) * emem :=
  match l with
  | [] => ([], m)
  | o :: l' =>
      let '(r, m1) := xstep o m in
      match r with UB => ([r], m1) | _ => let '(rs, m2) := xruns l' m1 in (r :: rs, m2) end
  end.
End ExportMem.
Arguments XContainer {K} c result. Arguments XCipher {K} c. Arguments XBare {K} c. Arguments XKey {K} k.
