(** Proofs about the byte-string model. *)
From Verif Require Import Base ByteString.
From Coq Require Import ZArith List Ascii Bool Lia ZifyBool ZifyNat.
Import ListNotations.
Open Scope Z_scope.
Ltac Zify.zify_post_hook ::= Z.div_mod_to_equations.

(** ** Reads *)

Lemma at_app : forall pre l k, at_ (pre ++ l) (length pre + k) = at_ l k.
Proof.
  intros. unfold at_. rewrite nth_error_app2 by lia.
  replace (length pre + k - length pre)%nat with k by lia. reflexivity.
Qed.

Lemma at_app0 : forall pre l, at_ (pre ++ l) (length pre) = at_ l 0.
Proof. intros. rewrite <- (Nat.add_0_r (length pre)) at 1. apply at_app. Qed.

Lemma skipn_app_exact : forall {A} (pre l : list A) k, skipn (length pre + k) (pre ++ l) = skipn k l.
Proof.
  intros. rewrite skipn_app. rewrite skipn_all2 by lia.
  replace (length pre + k - length pre)%nat with k by lia. reflexivity.
Qed.

Lemma copy_loop_app : forall p suf, copy_loop (p ++ suf) (len p) = Ok p.
Proof.
  induction p as [|c p IH]; intros.
  - destruct suf; reflexivity.
  - unfold len in *. cbn [length app copy_loop].
    destruct (Z.of_nat (S (length p)) <=? 0) eqn:E; [lia|].
    replace (Z.of_nat (S (length p)) - 1) with (Z.of_nat (length p)) by lia.
    rewrite IH. reflexivity.
Qed.

(** Every outcome of the copy loop: the first [n] bytes, or out_of_range. *)
Lemma copy_loop_spec : forall s n,
  copy_loop s n = if n <=? len s then Ok (firstn (Z.to_nat n) s) else Throw OutOfRange.
Proof.
  induction s as [|c s IH]; intros n.
  - cbn [copy_loop]. unfold len; simpl length.
    destruct (n <=? 0) eqn:E; destruct (n <=? Z.of_nat 0) eqn:E2; try lia; auto.
    rewrite firstn_nil. reflexivity.
  - cbn [copy_loop]. rewrite IH. unfold len. cbn [length].
    destruct (n <=? 0) eqn:E.
    + destruct (n <=? Z.of_nat (S (length s))) eqn:E2; [|lia].
      replace (Z.to_nat n) with 0%nat by lia. reflexivity.
    + destruct (n - 1 <=? Z.of_nat (length s)) eqn:E2;
      destruct (n <=? Z.of_nat (S (length s))) eqn:E3; try lia; cbn [bind]; auto.
      replace (Z.to_nat n) with (S (Z.to_nat (n - 1))) by lia. reflexivity.
Qed.

Lemma len_skipn : forall b k, len (skipn k b) = Z.max 0 (len b - Z.of_nat k).
Proof. intros. unfold len. rewrite skipn_length. lia. Qed.

Lemma unpack_body_spec : forall b i n, 0 <= n ->
  unpack_body b i n =
  if (Z.of_nat i + n <=? len b) || (n =? 0)
  then Ok (firstn (Z.to_nat n) (skipn i b), (i + Z.to_nat n)%nat)
  else Throw OutOfRange.
Proof.
  intros. unfold unpack_body. rewrite copy_loop_spec, len_skipn.
  destruct (n <=? Z.max 0 (len b - Z.of_nat i)) eqn:E;
  destruct ((Z.of_nat i + n <=? len b) || (n =? 0)) eqn:E2; cbn [bind]; auto; lia.
Qed.

Lemma at_spec : forall b i,
  at_ b i = if Z.of_nat i <? len b then Ok (b2z (nth i b (z2b 0))) else Throw OutOfRange.
Proof.
  intros. unfold at_, len.
  destruct (nth_error b i) eqn:E.
  - pose proof (proj1 (nth_error_Some b i) ltac:(congruence)).
    destruct (Z.of_nat i <? Z.of_nat (length b)) eqn:E2; [|lia].
    rewrite (nth_error_nth _ _ _ E). reflexivity.
  - apply nth_error_None in E.
    destruct (Z.of_nat i <? Z.of_nat (length b)) eqn:E2; [lia|reflexivity].
Qed.

(** ** Big-endian fields *)

Lemma be32_value : forall x, 0 <= x < 2^32 ->
  b2z (z2b (x / 2^24)) * 2^24 + b2z (z2b (x / 2^16)) * 2^16 + b2z (z2b (x / 2^8)) * 2^8 + b2z (z2b x) = x.
Proof. intros. rewrite !b2z_z2b. lia. Qed.

Lemma be16_value : forall x, 0 <= x < 2^16 ->
  b2z (z2b (x / 256)) * 2^8 + b2z (z2b x) = x.
Proof. intros. rewrite !b2z_z2b. lia. Qed.

Lemma firstn_len : forall b, firstn (Z.to_nat (len b)) b = b.
Proof. intros. unfold len. rewrite Nat2Z.id. apply firstn_all. Qed.

Lemma unpack_be32 : forall pre x suf, 0 <= x < 2^32 ->
  unpack (pre ++ be32 x ++ suf) (length pre) = unpack_body (pre ++ be32 x ++ suf) (length pre + 4) x.
Proof.
  intros. unfold unpack.
  rewrite at_app0, !at_app. unfold be32, at_. cbn [nth_error app bind].
  rewrite be32_value by lia. reflexivity.
Qed.

Theorem unpack_pack_lemma : forall pre payload suf,
  len payload < 2^32 ->
  unpack (pack pre payload ++ suf) (length pre) = Ok (payload, length (pack pre payload)).
Proof.
  intros pre payload suf H. pose proof (len_nonneg payload).
  unfold pack. rewrite Z.mod_small by lia. unfold pack32bits. rewrite Z.mod_small by lia.
  rewrite firstn_len, <- !app_assoc.
  rewrite unpack_be32 by lia.
  unfold unpack_body. rewrite skipn_app_exact. cbn [be32 app skipn].
  rewrite copy_loop_app. cbn [bind]. f_equal. f_equal.
  rewrite !app_length. cbn [length be32]. unfold len. lia.
Qed.

(** ** smartPack / smartUnpack *)

Lemma smart_pack_app : forall pre buf, smart_pack pre buf = pre ++ smart_pack [] buf.
Proof.
  intros. unfold smart_pack, pack32bits, pack16bits, pack8bits.
  repeat match goal with |- context [if ?c then _ else _] => destruct c end;
  rewrite <- ?app_assoc; reflexivity.
Qed.

Lemma smart_unpack_pack_lemma : forall pre payload suf,
  0 < len payload < 2^32 ->
  smart_unpack (smart_pack pre payload ++ suf) (length pre)
  = (length (smart_pack pre payload), Ok payload).
Proof.
  intros pre payload suf H. unfold smart_pack. rewrite (Z.mod_small (len payload) (2^32)) by lia.
  rewrite firstn_len.
  destruct (65535 <? len payload) eqn:E1; [|destruct (255 <? len payload) eqn:E2; [|destruct (0 <? len payload) eqn:E3; [|lia]]];
  unfold pack32bits, pack16bits, pack8bits; rewrite <- ?app_assoc;
  unfold smart_unpack; rewrite at_app0; cbn [at_ nth_error app]; rewrite z2b_small by lia.
  - cbn [Z.eqb Pos.eqb].
    rewrite Z.mod_small by lia.
    set (p1 := pre ++ [z2b 195]).
    replace (length pre + 1)%nat with (length p1) by (unfold p1; rewrite app_length; reflexivity).
    replace (pre ++ z2b 195 :: be32 (len payload) ++ payload ++ suf)
       with (p1 ++ be32 (len payload) ++ payload ++ suf) by (unfold p1; rewrite <- app_assoc; reflexivity).
    rewrite unpack_be32 by lia. unfold unpack_body.
    rewrite skipn_app_exact. cbn [be32 app skipn]. rewrite copy_loop_app. cbn [bind].
    f_equal. unfold p1. rewrite !app_length. cbn [length app be32]. rewrite ?app_length. unfold len. simpl. lia.
  - cbn [Z.eqb Pos.eqb].
    rewrite Z.mod_small by lia.
    set (p1 := pre ++ [z2b 178]).
    replace (length pre + 1)%nat with (length p1) by (unfold p1; rewrite app_length; reflexivity).
    replace (pre ++ z2b 178 :: be16 (len payload) ++ payload ++ suf)
       with (p1 ++ be16 (len payload) ++ payload ++ suf) by (unfold p1; rewrite <- app_assoc; reflexivity).
    unfold unpack16bits. rewrite at_app, at_app0. unfold be16, at_. cbn [nth_error app bind].
    rewrite be16_value by lia.
    unfold unpack_body. rewrite skipn_app_exact. cbn [app skipn]. rewrite copy_loop_app. cbn [bind].
    f_equal. unfold p1. rewrite !app_length. cbn [length app be16]. rewrite ?app_length. unfold len. simpl. lia.
  - cbn [Z.eqb Pos.eqb].
    set (p1 := pre ++ [z2b 161]).
    replace (length pre + 1)%nat with (length p1) by (unfold p1; rewrite app_length; reflexivity).
    replace (pre ++ z2b 161 :: z2b (len payload) :: payload ++ suf)
       with (p1 ++ [z2b (len payload)] ++ payload ++ suf) by (unfold p1; rewrite <- app_assoc; reflexivity).
    unfold unpack8bits. rewrite at_app0. unfold at_. cbn [nth_error app bind].
    rewrite z2b_small by lia.
    unfold unpack_body. rewrite skipn_app_exact. cbn [app skipn]. rewrite copy_loop_app. cbn [bind].
    f_equal. unfold p1. rewrite !app_length. cbn [length app]. rewrite ?app_length. unfold len. simpl. lia.
Qed.

Lemma smart_pack_empty_lemma : forall pre, smart_pack pre [] = pre.
Proof. intros. unfold smart_pack. simpl. apply app_nil_r. Qed.

Lemma smart_pack_nonempty_length : forall pre buf, 0 < len buf ->
  (length pre < length (smart_pack pre buf))%nat.
Proof.
  intros. rewrite smart_pack_app, app_length.
  unfold smart_pack, pack32bits, pack16bits, pack8bits.
  destruct (65535 <? len buf); [|destruct (255 <? len buf); [|destruct (0 <? len buf) eqn:E; [|lia]]];
  rewrite !app_length; simpl; lia.
Qed.

(** Specification-side reader: call smartUnpack until the index reaches the end
    (the shape of the do-while loop in OpenABEContainer::deserialize). *)
Fixpoint read_all (fuel : nat) (b : str) (index : nat) : option (list str) :=
  if (length b <=? index)%nat then Some []
  else match fuel with
       | O => None
       | S f =>
           match smart_unpack b index with
           | (i2, Ok s) => match read_all f b i2 with Some l => Some (s :: l) | None => None end
           | _ => None
           end
       end.

Definition write_all (l : list str) : str := fold_left smart_pack l [].

Lemma fold_smart_pack_app : forall l pre, fold_left smart_pack l pre = pre ++ write_all l.
Proof.
  unfold write_all. induction l as [|x l IH]; intros; simpl.
  - rewrite app_nil_r. reflexivity.
  - rewrite IH, (IH (smart_pack [] x)), smart_pack_app, app_assoc. reflexivity.
Qed.

Definition nonempty (s : str) : bool := match s with [] => false | _ => true end.

Lemma read_all_write_all_gen : forall l pre fuel,
  Forall (fun s => len s < 2^32) l ->
  (length l <= fuel)%nat ->
  read_all fuel (pre ++ write_all l) (length pre) = Some (filter nonempty l).
Proof.
  induction l as [|x l IH]; intros pre fuel Hl Hf.
  - unfold write_all; simpl. rewrite app_nil_r.
    destruct fuel; simpl; rewrite Nat.leb_refl; reflexivity.
  - inversion Hl; subst.
    unfold write_all. simpl fold_left. rewrite fold_smart_pack_app.
    destruct x as [|c x].
    + rewrite smart_pack_empty_lemma. simpl. apply IH; auto. simpl in Hf. lia.
    + assert (0 < len (c :: x)) by (unfold len; simpl; lia).
      destruct fuel as [|f]; [simpl in Hf; lia|].
      rewrite app_assoc, <- smart_pack_app.
      pose proof (smart_pack_nonempty_length pre (c :: x) ltac:(lia)).
      cbn [read_all].
      replace (length (smart_pack pre (c :: x) ++ write_all l) <=? length pre)%nat with false
        by (rewrite app_length; lia).
      rewrite smart_unpack_pack_lemma by lia.
      rewrite IH; auto. simpl in Hf; lia.
Qed.

Lemma read_all_write_all : forall l,
  Forall (fun s => len s < 2^32) l ->
  read_all (length l) (write_all l) 0 = Some (filter nonempty l).
Proof. intros. apply (read_all_write_all_gen l [] (length l)); auto. Qed.

(** ** Safety of unpacking on arbitrary input *)

(** A slice of [b] : [s] is the sub-list starting at [i] ending before [j]. *)
Definition slice_of (b : str) (i : nat) (s : str) : Prop :=
  exists pre suf, b = pre ++ s ++ suf /\ length pre = i.

Lemma slice_firstn_skipn : forall b i n, (i + n <= length b)%nat -> slice_of b i (firstn n (skipn i b)).
Proof.
  intros. exists (firstn i b), (skipn n (skipn i b)). split.
  - rewrite firstn_skipn, firstn_skipn. reflexivity.
  - rewrite firstn_length. lia.
Qed.

Lemma unpack_body_safe : forall b i n, 0 <= n -> (i <= length b)%nat ->
  match unpack_body b i n with
  | Ok (s, j) => slice_of b i s /\ j = (i + length s)%nat /\ (j <= length b)%nat /\ len s = n
  | Throw e => e = OutOfRange
  | _ => False
  end.
Proof.
  intros. rewrite unpack_body_spec by lia.
  destruct ((Z.of_nat i + n <=? len b) || (n =? 0)) eqn:E; auto.
  assert (i + Z.to_nat n <= length b)%nat by (unfold len in E; lia).
  assert (length (firstn (Z.to_nat n) (skipn i b)) = Z.to_nat n)
    by (rewrite firstn_length, skipn_length; lia).
  split; [apply slice_firstn_skipn; lia|]. unfold len. lia.
Qed.

Lemma unpack_safe_lemma : forall b i,
  match unpack b i with
  | Ok (s, j) => slice_of b (i + 4) s /\ j = (i + 4 + length s)%nat /\ (j <= length b)%nat
  | Throw e => e = OutOfRange
  | _ => False
  end.
Proof.
  intros. unfold unpack. rewrite !at_spec. unfold len.
  destruct (Z.of_nat i <? Z.of_nat (length b)) eqn:E0; cbn [bind]; auto.
  destruct (Z.of_nat (i+1) <? Z.of_nat (length b)) eqn:E1; cbn [bind]; auto.
  destruct (Z.of_nat (i+2) <? Z.of_nat (length b)) eqn:E2; cbn [bind]; auto.
  destruct (Z.of_nat (i+3) <? Z.of_nat (length b)) eqn:E3; cbn [bind]; auto.
  match goal with |- context [unpack_body b ?i ?n] => pose proof (unpack_body_safe b i n) as H end.
  pose proof (b2z_range (nth i b (z2b 0))). pose proof (b2z_range (nth (i+1) b (z2b 0))).
  pose proof (b2z_range (nth (i+2) b (z2b 0))). pose proof (b2z_range (nth (i+3) b (z2b 0))).
  specialize (H ltac:(lia) ltac:(lia)).
  destruct (unpack_body _ _ _) as [[s j]| | | |]; intuition.
Qed.

Lemma unpack16_safe_lemma : forall b i,
  match unpack16bits b i with
  | Ok (s, j) => slice_of b (i + 2) s /\ j = (i + 2 + length s)%nat /\ (j <= length b)%nat
  | Throw e => e = OutOfRange
  | _ => False
  end.
Proof.
  intros. unfold unpack16bits. rewrite !at_spec. unfold len.
  destruct (Z.of_nat (i+1) <? Z.of_nat (length b)) eqn:E1; cbn [bind]; auto.
  destruct (Z.of_nat i <? Z.of_nat (length b)) eqn:E0; cbn [bind]; auto.
  match goal with |- context [unpack_body b ?i ?n] => pose proof (unpack_body_safe b i n) as H end.
  pose proof (b2z_range (nth i b (z2b 0))). pose proof (b2z_range (nth (i+1) b (z2b 0))).
  specialize (H ltac:(lia) ltac:(lia)).
  destruct (unpack_body _ _ _) as [[s j]| | | |]; intuition.
Qed.

Lemma unpack8_safe_lemma : forall b i,
  match unpack8bits b i with
  | Ok (s, j) => slice_of b (i + 1) s /\ j = (i + 1 + length s)%nat /\ (j <= length b)%nat
  | Throw e => e = OutOfRange
  | _ => False
  end.
Proof.
  intros. unfold unpack8bits. rewrite !at_spec. unfold len.
  destruct (Z.of_nat i <? Z.of_nat (length b)) eqn:E0; cbn [bind]; auto.
  match goal with |- context [unpack_body b ?i ?n] => pose proof (unpack_body_safe b i n) as H end.
  pose proof (b2z_range (nth i b (z2b 0))).
  specialize (H ltac:(lia) ltac:(lia)).
  destruct (unpack_body _ _ _) as [[s j]| | | |]; intuition.
Qed.

Lemma smart_unpack_safe_lemma : forall b i,
  match smart_unpack b i with
  | (j, Ok s) => (i < j <= length b)%nat /\
                 (s = [] \/ exists k, (i < k)%nat /\ slice_of b k s /\ j = (k + length s)%nat)
  | (j, Throw e) => e = OutOfRange /\ (j = i \/ (j = i + 1)%nat) /\ (j <= Nat.max i (length b))%nat
  | _ => False
  end.
Proof.
  intros. unfold smart_unpack. rewrite at_spec. unfold len.
  destruct (Z.of_nat i <? Z.of_nat (length b)) eqn:E0; [|intuition].
  destruct (_ =? 195).
  { pose proof (unpack_safe_lemma b (i+1)). destruct (unpack b (i+1)) as [[s j]|e| | |]; intuition; subst; try lia.
    right. exists (i+1+4)%nat. intuition; lia. }
  destruct (_ =? 178).
  { pose proof (unpack16_safe_lemma b (i+1)). destruct (unpack16bits b (i+1)) as [[s j]|e| | |]; intuition; subst; try lia.
    right. exists (i+1+2)%nat. intuition; lia. }
  destruct (_ =? 161).
  { pose proof (unpack8_safe_lemma b (i+1)). destruct (unpack8bits b (i+1)) as [[s j]|e| | |]; intuition; subst; try lia.
    right. exists (i+1+1)%nat. intuition; lia. }
  intuition; lia.
Qed.

Lemma get32bits_safe_lemma : forall b i,
  match get32bits b i with
  | Ok (v, j) => 0 <= v < 2^32 /\ j = (i + 4)%nat /\ (j <= length b)%nat
  | Throw e => e = OutOfRange
  | _ => False
  end.
Proof.
  intros. unfold get32bits. rewrite !at_spec. unfold len.
  destruct (Z.of_nat i <? Z.of_nat (length b)) eqn:E0; cbn [bind]; auto.
  destruct (Z.of_nat (i+1) <? Z.of_nat (length b)) eqn:E1; cbn [bind]; auto.
  destruct (Z.of_nat (i+2) <? Z.of_nat (length b)) eqn:E2; cbn [bind]; auto.
  destruct (Z.of_nat (i+3) <? Z.of_nat (length b)) eqn:E3; cbn [bind]; auto.
  pose proof (b2z_range (nth i b (z2b 0))). pose proof (b2z_range (nth (i+1) b (z2b 0))).
  pose proof (b2z_range (nth (i+2) b (z2b 0))). pose proof (b2z_range (nth (i+3) b (z2b 0))).
  lia.
Qed.

Lemma get16bits_safe_lemma : forall b i,
  match get16bits b i with
  | Ok (v, j) => 0 <= v < 2^16 /\ j = (i + 2)%nat /\ (j <= length b)%nat
  | Throw e => e = OutOfRange
  | _ => False
  end.
Proof.
  intros. unfold get16bits. rewrite !at_spec. unfold len.
  destruct (Z.of_nat (i+1) <? Z.of_nat (length b)) eqn:E1; cbn [bind]; auto.
  destruct (Z.of_nat i <? Z.of_nat (length b)) eqn:E0; cbn [bind]; auto.
  pose proof (b2z_range (nth i b (z2b 0))). pose proof (b2z_range (nth (i+1) b (z2b 0))).
  lia.
Qed.

Lemma get32_pack32_lemma : forall pre x suf, 0 <= x < 2^32 ->
  get32bits (pack32bits pre x ++ suf) (length pre) = Ok (x, (length pre + 4)%nat).
Proof.
  intros. unfold pack32bits. rewrite Z.mod_small by lia. rewrite <- app_assoc.
  unfold get32bits. rewrite at_app0, !at_app. unfold be32, at_. cbn [nth_error app bind].
  rewrite be32_value by lia. reflexivity.
Qed.

Lemma get16_pack16_lemma : forall pre x suf, 0 <= x < 2^16 ->
  get16bits (pack16bits pre x ++ suf) (length pre) = Ok (x, (length pre + 2)%nat).
Proof.
  intros. unfold pack16bits. rewrite Z.mod_small by lia. rewrite <- app_assoc.
  unfold get16bits. rewrite at_app0, !at_app. unfold be16, at_. cbn [nth_error app bind].
  rewrite be16_value by lia. reflexivity.
Qed.

(** ** Hexadecimal *)

Lemma hexval_hexdigit : forall u n, 0 <= n < 16 -> hexval (hexdigit u n) = Some n.
Proof.
  intros u n H.
  assert (Hn : n = 0 \/ n = 1 \/ n = 2 \/ n = 3 \/ n = 4 \/ n = 5 \/ n = 6 \/ n = 7 \/ n = 8 \/ n = 9 \/
          n = 10 \/ n = 11 \/ n = 12 \/ n = 13 \/ n = 14 \/ n = 15) by lia.
  destruct u; repeat destruct Hn as [Hn|Hn]; subst; reflexivity.
Qed.

Lemma to_hex_all_hex : forall u b, forallb is_hex (to_hex_gen u b) = true.
Proof.
  intros. induction b as [|c b IH]; auto. cbn [to_hex_gen forallb].
  pose proof (b2z_range c). unfold is_hex.
  rewrite !hexval_hexdigit by lia. exact IH.
Qed.

Lemma to_hex_len : forall u b, len (to_hex_gen u b) = 2 * len b.
Proof.
  intros. induction b as [|c b IH]; auto. unfold len in *. cbn [to_hex_gen length]. lia.
Qed.

Lemma from_to_hex_loop : forall u b, from_hex_loop (to_hex_gen u b) = b.
Proof.
  intros. induction b as [|c b IH]; auto. cbn [to_hex_gen from_hex_loop].
  pose proof (b2z_range c).
  rewrite !hexval_hexdigit by lia. rewrite IH. f_equal.
  replace (16 * (b2z c / 16) + b2z c mod 16) with (b2z c) by lia. apply z2b_b2z.
Qed.

Lemma from_hex_to_hex_lemma : forall u this b, from_hex this (to_hex_gen u b) = (b, true).
Proof.
  intros. unfold from_hex. rewrite to_hex_all_hex, to_hex_len.
  rewrite Z.even_mul. simpl. rewrite from_to_hex_loop. reflexivity.
Qed.

(** ** Comparison *)

Lemma eq_loop_spec : forall a b rc n, length a = length b -> 0 <= rc ->
  exists rc', eq_loop a b rc n = (rc', (n + length a)%nat) /\ 0 <= rc' /\ (rc' = 0 <-> rc = 0 /\ a = b).
Proof.
  induction a as [|x a IH]; destruct b as [|y b]; intros rc n Hl Hrc; simpl in Hl; try lia.
  - exists rc. simpl. rewrite Nat.add_0_r. intuition.
  - cbn [eq_loop].
    pose proof (b2z_range x). pose proof (b2z_range y).
    assert (0 <= Z.lxor (b2z x) (b2z y)) by (apply Z.lxor_nonneg; lia).
    assert (0 <= Z.lor rc (Z.lxor (b2z x) (b2z y))) by (apply Z.lor_nonneg; lia).
    destruct (IH b (Z.lor rc (Z.lxor (b2z x) (b2z y))) (S n) ltac:(lia) ltac:(lia)) as (rc' & E & Hp & Hi).
    exists rc'. rewrite E. split; [f_equal; simpl; lia|]. split; auto.
    rewrite Hi, Z.lor_eq_0_iff, Z.lxor_eq_0_iff. split.
    + intros [[H3 H4] H5]. apply b2z_inj in H4. subst. auto.
    + intros [H3 H4]. inversion H4; subst. auto.
Qed.

Lemma bs_eq_spec_lemma : forall a b,
  (bs_eq a b = true <-> a = b) /\
  snd (bs_eq_steps a b) = if Nat.eqb (length a) (length b) then length a else 0%nat.
Proof.
  intros. unfold bs_eq, bs_eq_steps.
  destruct (Nat.eqb (length a) (length b)) eqn:E; simpl.
  - apply Nat.eqb_eq in E.
    destruct (eq_loop_spec a b 0 0%nat E ltac:(lia)) as (rc & Hq & Hp & Hi).
    rewrite Hq. simpl. split; auto. rewrite Z.eqb_eq, Hi. tauto.
  - split; auto. split; [discriminate|]. intro; subst. rewrite Nat.eqb_refl in E. discriminate.
Qed.

(** ** Serialisation of byte strings *)

Lemma get_subset_spec_lemma : forall b start num,
  0 <= start -> 0 <= num < 2^32 -> start + num < 2^64 ->
  get_subset b start num =
  Ok (if start + num <=? len b then firstn (Z.to_nat num) (skipn (Z.to_nat start) b) else []).
Proof.
  intros. unfold get_subset. rewrite !Z.mod_small by lia.
  destruct (start + num <=? len b); auto.
Qed.

Lemma bs_roundtrip_lemma : forall this b, b <> [] -> len b < 2^32 ->
  bs_deserialize this (bs_serialize b) = Ok b.
Proof.
  intros this b Hne Hlen.
  assert (0 < len b) by (destruct b; [congruence|unfold len; simpl; lia]).
  unfold bs_deserialize, bs_serialize. rewrite Z.mod_small by lia.
  set (x := len b) in *.
  assert (E : len (z2b 29 :: be32 x ++ b) = x + 5)
    by (unfold len; cbn [length app be32]; unfold x, len; lia).
  rewrite E. destruct (5 <? x + 5) eqn:E5; [|lia].
  unfold at_, be32. cbn [nth_error app bind]. rewrite be32_value by lia.
  rewrite Z.eqb_refl. rewrite get_subset_spec_lemma by lia.
  unfold be32 in E. cbn [app] in E. rewrite E.
  replace (5 + x <=? x + 5) with true by lia.
  change (Z.to_nat 5) with 5%nat. cbn [skipn]. unfold x. rewrite firstn_len. reflexivity.
Qed.

Lemma bs_deserialize_reject_lemma : forall this input b,
  bs_deserialize this input = Ok b ->
  b = this \/ (exists tag, input = z2b tag :: be32 (len b) ++ b).
Proof.
  intros this input b. unfold bs_deserialize.
  destruct (5 <? len input) eqn:E; [|intro H; inversion H; auto].
  destruct input as [|c0 [|c1 [|c2 [|c3 [|c4 tl]]]]]; unfold len in E; simpl in E; try lia.
  unfold at_. cbn [nth_error bind].
  set (n := b2z c1 * 2^24 + b2z c2 * 2^16 + b2z c3 * 2^8 + b2z c4).
  destruct (len (c0 :: c1 :: c2 :: c3 :: c4 :: tl) =? n + 5) eqn:E2; [|intro H; inversion H; auto].
  pose proof (b2z_range c1). pose proof (b2z_range c2). pose proof (b2z_range c3). pose proof (b2z_range c4).
  apply Z.eqb_eq in E2. unfold len in E2. cbn [length] in E2.
  rewrite get_subset_spec_lemma by (unfold n in *; lia).
  unfold len. cbn [length].
  replace (5 + n <=? Z.of_nat (S (S (S (S (S (length tl))))))) with true by lia.
  change (Z.to_nat 5) with 5%nat. cbn [skipn].
  intro H'; inversion H'; subst b. right.
  assert (Ht : firstn (Z.to_nat n) tl = tl) by (apply firstn_all2; lia).
  rewrite Ht. exists (b2z c0). rewrite z2b_b2z. f_equal.
  replace (Z.of_nat (length tl)) with n by lia.
  unfold be32. cbn [app].
  assert (n / 2^24 = b2z c1) by (unfold n; lia).
  assert (z2b (n / 2^24) = c1) by (rewrite H3; apply z2b_b2z).
  assert (z2b (n / 2^16) = c2). { apply b2z_inj. rewrite b2z_z2b. unfold n. lia. }
  assert (z2b (n / 2^8) = c3). { apply b2z_inj. rewrite b2z_z2b. unfold n. lia. }
  assert (z2b n = c4). { apply b2z_inj. rewrite b2z_z2b. unfold n. lia. }
  congruence.
Qed.

Lemma bs_deserialize_total_lemma : forall this input, exists b, bs_deserialize this input = Ok b.
Proof.
  intros. unfold bs_deserialize.
  destruct (5 <? len input) eqn:E; [|eauto].
  destruct input as [|c0 [|c1 [|c2 [|c3 [|c4 tl]]]]]; unfold len in E; simpl in E; try lia.
  unfold at_. cbn [nth_error bind].
  match goal with |- context [if ?c then _ else _] => destruct c eqn:E2 end; [|eauto].
  pose proof (b2z_range c1). pose proof (b2z_range c2). pose proof (b2z_range c3). pose proof (b2z_range c4).
  rewrite get_subset_spec_lemma by lia. eauto.
Qed.

(** ** XOR *)

Lemma lxor_byte_range : forall a b, 0 <= a < 256 -> 0 <= b < 256 -> 0 <= Z.lxor a b < 256.
Proof.
  intros a b Ha Hb.
  assert (H0 : 0 <= Z.lxor a b) by (apply Z.lxor_nonneg; lia).
  split; auto.
  destruct (Z.eq_dec (Z.lxor a b) 0) as [->|Hz]; [lia|].
  apply Z.log2_lt_cancel. change (Z.log2 256) with 8.
  pose proof (Z.log2_lxor a b ltac:(lia) ltac:(lia)).
  assert (Z.log2 a < 8). { destruct (Z.eq_dec a 0); [subst; simpl; lia|]. apply Z.log2_lt_pow2; lia. }
  assert (Z.log2 b < 8). { destruct (Z.eq_dec b 0); [subst; simpl; lia|]. apply Z.log2_lt_pow2; lia. }
  lia.
Qed.

Lemma xor_loop_twice : forall rhs lhs i, xor_loop (xor_loop lhs rhs i) rhs i = lhs.
Proof.
  intros rhs. induction lhs as [|c lhs IH]; intros; cbn [xor_loop]; auto.
  rewrite IH. f_equal.
  set (m := nth (i mod length rhs) rhs (z2b 0)).
  rewrite z2b_small by (apply lxor_byte_range; apply b2z_range).
  rewrite Z.lxor_assoc, Z.lxor_nilpotent, Z.lxor_0_r. apply z2b_b2z.
Qed.

Lemma xor_loop_length : forall rhs lhs i, length (xor_loop lhs rhs i) = length lhs.
Proof. intros rhs. induction lhs; intros; simpl; auto. Qed.

Lemma xor_loop_nth : forall rhs lhs i k c, nth_error lhs k = Some c ->
  nth_error (xor_loop lhs rhs i) k
  = Some (z2b (Z.lxor (b2z c) (b2z (nth ((i + k) mod length rhs) rhs (z2b 0))))).
Proof.
  intros rhs. induction lhs as [|x lhs IH]; intros i k c H; destruct k; simpl in H; try discriminate.
  - inversion H; subst. cbn [xor_loop nth_error]. rewrite Nat.add_0_r. reflexivity.
  - cbn [xor_loop nth_error]. rewrite (IH (S i) k c H).
    replace (S i + k)%nat with (i + S k)%nat by lia. reflexivity.
Qed.

Lemma xor_assign_lemma : forall data mask,
  mask <> [] ->
  exists d2, xor_assign data mask = Ok d2 /\ xor_assign d2 mask = Ok data /\
    length d2 = length data /\
    (forall k c, nth_error data k = Some c ->
       nth_error d2 k = Some (z2b (Z.lxor (b2z c) (b2z (nth (k mod length mask) mask (z2b 0)))))).
Proof.
  intros data mask Hm. exists (xor_loop data mask 0).
  destruct mask as [|m mask]; [congruence|].
  split; [destruct data; reflexivity|].
  split.
  { pose proof (xor_loop_twice (m :: mask) data 0) as H.
    unfold xor_assign. destruct (xor_loop data (m :: mask) 0) eqn:E.
    - rewrite <- H. reflexivity.
    - rewrite H. reflexivity. }
  split; [apply xor_loop_length|].
  intros. rewrite (xor_loop_nth (m :: mask) data 0 k c H). reflexivity.
Qed.

Lemma xor_empty_mask_lemma : forall data, data <> [] -> xor_assign data [] = UB.
Proof. destruct data; [congruence|reflexivity]. Qed.

Lemma get_subset_slice_lemma : forall b start num,
  0 <= start -> 0 <= num < 2^32 -> start + num < 2^64 ->
  (exists pre mid suf, b = pre ++ mid ++ suf /\ len pre = start /\ len mid = num /\ get_subset b start num = Ok mid)
  \/ (len b < start + num /\ get_subset b start num = Ok []).
Proof.
  intros. rewrite get_subset_spec_lemma by lia.
  destruct (start + num <=? len b) eqn:E.
  - left. exists (firstn (Z.to_nat start) b), (firstn (Z.to_nat num) (skipn (Z.to_nat start) b)),
      (skipn (Z.to_nat num) (skipn (Z.to_nat start) b)).
    rewrite !firstn_skipn. unfold len in *. rewrite !firstn_length, skipn_length. intuition lia.
  - right. split; [lia|reflexivity].
Qed.

Lemma hex_alphabet_spec : forall c,
  In c (L "0123456789abcdefABCDEF") <-> is_hex c = true.
Proof.
  intro c. split.
  - intro H. repeat (destruct H as [<-|H]; [reflexivity|]). destruct H.
  - destruct c as [[] [] [] [] [] [] [] []]; vm_compute; intro H; try discriminate; tauto.
Qed.

Lemma from_hex_accepts_lemma : forall this s,
  (snd (from_hex this s) = true <->
     Forall (fun c => In c (L "0123456789abcdefABCDEF")) s /\ Nat.Even (length s)) /\
  (snd (from_hex this s) = false -> fst (from_hex this s) = this).
Proof.
  intros. unfold from_hex.
  assert (H1 : forallb is_hex s = true <-> Forall (fun c => In c (L "0123456789abcdefABCDEF")) s).
  { rewrite forallb_forall, Forall_forall. split; intros H c Hc; apply hex_alphabet_spec; auto.
    }
  assert (H2 : Z.even (len s) = true <-> Nat.Even (length s)).
  { rewrite Z.even_spec. unfold len. split; intros [k Hk]; [exists (Z.to_nat k)|exists (Z.of_nat k)]; lia. }
  rewrite <- H1, <- H2.
  destruct (forallb is_hex s), (Z.even (len s)); simpl; intuition discriminate.
Qed.

Lemma plus_string_lemma : forall b s, plus_string b s = b ++ s <-> s = [].
Proof.
  intros. unfold plus_string. split.
  - intro H. apply app_inv_head in H. destruct s as [|c s]; auto. exfalso.
    destruct (Z.to_nat (b2z c)) eqn:E; simpl in H; [discriminate|].
    inversion H; subst c. rewrite b2z_z2b in E. simpl in E. lia.
  - intros ->. reflexivity.
Qed.
