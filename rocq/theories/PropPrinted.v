(** C142: what is printed for an element, an integer or an attribute list tells
    which one it is. *)
From Verif Require Import Base ByteString StrMap Dec UInteger Field FieldProofs Element Policy PolicySyntax Lexical Scanner Driver Parser AttrList AttrMeaning ParserTop ScannerProofs ParserSafe CreatePolicy CreateAttrs ParserFinal TextUse DateProofs AttrUse PolicyUse ListText NumProofs NumTree PolicyTruth PolicyMeaning PrintParse Calendar PropParser Printed.
From Coq Require Import ZArith List Ascii Bool Lia ZifyBool ZifyNat.
Import ListNotations.
Open Scope Z_scope.

(** ** Decimal numbers *)
Lemma dec_minus : forall n, n < 0 -> dec n = "-"%char :: dec (- n).
Proof.
  intros n H. unfold dec. replace (n <? 0) with true by lia. replace (- n <? 0) with false by lia. reflexivity.
Qed.
Lemma dec_first : forall n, 0 <= n -> exists c r, dec n = c :: r /\ is_digit c = true.
Proof.
  intros n H. pose proof (dec_digits n H) as D. pose proof (dec_nonempty n H) as N. destruct (dec n) as [|c r]; [congruence|].
  exists c, r. cbn [forallb] in D. apply andb_prop in D as [D _]. auto.
Qed.
Definition numeral (c : ascii) : bool := is_digit c || Ascii.eqb c "-".
Lemma dec_numeral : forall n, forallb numeral (dec n) = true.
Proof.
  assert (forall n, 0 <= n -> forallb numeral (dec n) = true) as P.
  { intros n H. pose proof (dec_digits n H) as D. rewrite forallb_forall in *. intros c Hc. unfold numeral. rewrite (D c Hc). reflexivity. }
  intro n. destruct (Z_lt_le_dec n 0) as [H|H]; [|auto]. rewrite dec_minus by exact H. cbn [forallb]. rewrite P by lia. reflexivity.
Qed.
Lemma dec_inj_all : forall a b, dec a = dec b -> a = b.
Proof.
  intros a b E. destruct (Z_lt_le_dec a 0) as [A|A], (Z_lt_le_dec b 0) as [B|B].
  - rewrite (dec_minus a A), (dec_minus b B) in E. apply (f_equal (@tl ascii)) in E. cbn [tl] in E. apply dec_inj in E; lia.
  - rewrite (dec_minus a A) in E. destruct (dec_first b B) as (c & r & F & G). rewrite F in E. injection E as <- _. discriminate.
  - rewrite (dec_minus b B) in E. destruct (dec_first a A) as (c & r & F & G). rewrite F in E. injection E as -> _. discriminate.
  - apply dec_inj; auto.
Qed.
(** Texts that end before a character that does not belong to them. *)
Lemma cut_at : forall (f : ascii -> bool) a b x y c d, forallb f a = true -> forallb f b = true -> f c = false -> f d = false ->
  a ++ c :: x = b ++ d :: y -> a = b /\ c = d /\ x = y.
Proof.
  induction a as [|k a IH]; intros [|j b] x y c d A B C D E; cbn [app] in E.
  - injection E as -> ->. auto.
  - injection E as -> _. cbn [forallb] in B. rewrite C in B. discriminate.
  - injection E as -> _. cbn [forallb] in A. rewrite D in A. discriminate.
  - injection E as -> E. cbn [forallb] in A, B. apply andb_prop in A as [_ A]. apply andb_prop in B as [_ B].
    destruct (IH b x y c d A B C D E) as (-> & -> & ->). auto.
Qed.

(** The text of a field element tells its value and whether it has an order. *)
Theorem C142_element : forall x y, zp_text x = zp_text y <-> zv x = zv y /\ (zord x = None <-> zord y = None).
Proof.
  intros x y. unfold zp_text. split.
  - intro E. cbn [L list_ascii_of_string app] in E.
    apply (cut_at numeral) in E as (E1 & _ & E2); try apply dec_numeral; try reflexivity.
    apply dec_inj_all in E1. split; [exact E1|]. destruct (zord x), (zord y); try discriminate; split; congruence.
  - intros [E1 E2]. rewrite E1. destruct (zord x), (zord y); auto; destruct E2 as [E2 E3]; [specialize (E3 eq_refl)|specialize (E2 eq_refl)]; discriminate.
Qed.
Print Assumptions C142_element.

(** ** Hexadecimal *)
Lemma hexval_digit : forall u n, 0 <= n < 16 -> hexval (hexdigit u n) = Some n.
Proof.
  intros u n H. unfold hexdigit, hexval. destruct (n <? 10) eqn:E.
  - rewrite b2z_z2b. rewrite Z.mod_small by lia. replace ((48 <=? 48 + n) && (48 + n <=? 57)) with true by lia. f_equal. lia.
  - rewrite b2z_z2b. destruct u; rewrite Z.mod_small by lia.
    + replace ((48 <=? 65 + (n - 10)) && (65 + (n - 10) <=? 57)) with false by lia.
      replace ((97 <=? 65 + (n - 10)) && (65 + (n - 10) <=? 102)) with false by lia.
      replace ((65 <=? 65 + (n - 10)) && (65 + (n - 10) <=? 70)) with true by lia. f_equal. lia.
    + replace ((48 <=? 97 + (n - 10)) && (97 + (n - 10) <=? 57)) with false by lia.
      replace ((97 <=? 97 + (n - 10)) && (97 + (n - 10) <=? 102)) with true by lia. f_equal. lia.
Qed.
Lemma read_to_hex : forall u b acc, read_digits (to_hex_gen u b) acc = fold_left (fun a c => a * 256 + b2z c) b acc.
Proof.
  intros u. induction b as [|c b IH]; intro acc; [reflexivity|]. cbn [to_hex_gen read_digits fold_left].
  pose proof (b2z_range c). pose proof (Z.div_mod (b2z c) 16 ltac:(lia)). pose proof (Z.mod_pos_bound (b2z c) 16 ltac:(lia)).
  rewrite !hexval_digit by (auto; lia). rewrite IH. f_equal. lia.
Qed.
Lemma no_sign : forall u b, read_hex (to_hex_gen u b) = read_digits (to_hex_gen u b) 0.
Proof.
  intros u [|c b]; [reflexivity|]. cbn [to_hex_gen]. unfold read_hex. destruct (Ascii.eqb _ _) eqn:E; [|reflexivity].
  apply Ascii.eqb_eq in E. pose proof (b2z_range c). pose proof (hexval_digit u (b2z c / 16) ltac:(split; [apply Z.div_pos; lia|apply Z.div_lt_upper_bound; lia])) as K.
  rewrite E in K. discriminate.
Qed.
(** The hexadecimal text read back with an order gives the element with that order. *)
Theorem C142_hex : forall x o, 0 <= zv x -> zp_from_hex (zp_hex_text x) o = {| zv := zv x; zord := Some o |}.
Proof.
  intros x o H. unfold zp_from_hex, zp_hex, zp_hex_text, to_hex. rewrite no_sign, read_to_hex. f_equal.
  rewrite Z.abs_eq by exact H. exact (of_be_to_be (zv x) H).
Qed.
Print Assumptions C142_hex.
(** A minus in front is read as a sign. *)
Theorem C142_negative : forall x o, 0 <= zv x -> zp_from_hex ("-"%char :: zp_hex_text x) o = {| zv := - zv x; zord := Some o |}.
Proof.
  intros x o H. pose proof (C142_hex x o H) as E. unfold zp_from_hex, zp_hex in *. injection E as E. f_equal.
  unfold zp_hex_text, to_hex in *. rewrite no_sign in E. cbn [read_hex]. change (Ascii.eqb "-" "-") with true. cbn iota. rewrite E. reflexivity.
Qed.
Print Assumptions C142_negative.
(** The sign is not part of it. *)
Theorem C142_sign_refuted : exists x y, zv x <> zv y /\ zp_hex_text x = zp_hex_text y.
Proof. exists {| zv := 5; zord := None |}, {| zv := -5; zord := None |}. split; [discriminate|reflexivity]. Qed.
Print Assumptions C142_sign_refuted.

(** ** Integers *)
(** The width an integer prints: none for 0 and from 32 on. *)
Definition shown_bits (u : uint) : option Z := if (1 <=? ubits u) && (ubits u <=? 31) then Some (ubits u) else None.
Theorem C142_integer : forall u v, uint_text u = uint_text v <-> uval u = uval v /\ shown_bits u = shown_bits v.
Proof.
  intros u v. unfold uint_text, shown_bits.
  replace ((0 <? ubits u) && (ubits u <? 32)) with ((1 <=? ubits u) && (ubits u <=? 31)) by lia.
  replace ((0 <? ubits v) && (ubits v <? 32)) with ((1 <=? ubits v) && (ubits v <=? 31)) by lia.
  assert (forall a b r, dec a ++ "#"%char :: r <> dec b) as K.
  { intros a b r E. pose proof (dec_numeral b) as D. rewrite <- E in D. rewrite forallb_app in D. apply andb_prop in D as [_ D]. discriminate. }
  split.
  - destruct ((1 <=? ubits u) && (ubits u <=? 31)), ((1 <=? ubits v) && (ubits v <=? 31)); cbn [L list_ascii_of_string app]; rewrite ?app_nil_r; intro E.
    + apply (cut_at numeral) in E as (E1 & _ & E2); try apply dec_numeral; try reflexivity.
      apply dec_inj_all in E1. apply dec_inj_all in E2. rewrite E1, E2. auto.
    + destruct (K _ _ _ E).
    + symmetry in E. destruct (K _ _ _ E).
    + apply dec_inj_all in E. auto.
  - intros [E1 E2]. rewrite E1.
    destruct ((1 <=? ubits u) && (ubits u <=? 31)), ((1 <=? ubits v) && (ubits v <=? 31)); try discriminate; [|reflexivity].
    injection E2 as ->. reflexivity.
Qed.
Print Assumptions C142_integer.

(** ** Attribute lists *)
Definition one_line (a : str) : Prop := ~ In newline_char a.
Lemma colon_cut : forall i j x y, dec i ++ L ":" ++ x = dec j ++ L ":" ++ y -> i = j /\ x = y.
Proof.
  intros i j x y E. cbn [L list_ascii_of_string app] in E.
  apply (cut_at numeral) in E as (E1 & _ & E2); try apply dec_numeral; try reflexivity. apply dec_inj_all in E1. auto.
Qed.
Definition not_newline (c : ascii) : bool := negb (Ascii.eqb c newline_char).
Lemma one_line_b : forall a, one_line a -> forallb not_newline a = true.
Proof.
  intros a H. apply forallb_forall. intros c Hc. unfold not_newline. destruct (Ascii.eqb c newline_char) eqn:E; [|reflexivity].
  apply Ascii.eqb_eq in E. subst c. contradiction.
Qed.
Lemma lines_inj : forall A B i, Forall one_line A -> Forall one_line B -> list_lines i A = list_lines i B -> A = B.
Proof.
  induction A as [|a A IH]; intros [|b B] i FA FB E; cbn [list_lines] in E.
  - reflexivity.
  - exfalso. destruct (dec i); discriminate.
  - exfalso. destruct (dec i); discriminate.
  - apply colon_cut in E as [_ E]. inversion FA as [|? ? A1 A2]; inversion FB as [|? ? B1 B2]; subst.
    apply (cut_at not_newline) in E as (-> & _ & E); try (apply one_line_b; assumption); try reflexivity.
    f_equal. eapply IH; eauto.
Qed.

Lemma one_line_app : forall a b, one_line a -> one_line b -> one_line (a ++ b).
Proof. intros a b A B H. apply in_app_or in H as [H|H]; auto. Qed.
Lemma one_line_all : forall (f : ascii -> bool) a, f newline_char = false -> forallb f a = true -> one_line a.
Proof. intros f a N F H. rewrite forallb_forall in F. specialize (F _ H). congruence. Qed.
Lemma one_line_name : forall s, is_name s = true -> one_line s.
Proof.
  intros s H. unfold is_name in H. apply andb_prop in H as [H _]. apply andb_prop in H as [H _].
  destruct s as [|c r]; [discriminate|]. cbn [is_word] in H. apply andb_prop in H as [H1 H2].
  intros [E|I]; [subst c; discriminate H1|]. rewrite forallb_forall in H2. specialize (H2 _ I). discriminate H2.
Qed.
Lemma one_line_lit : forall a, forallb not_newline a = true -> one_line a.
Proof. intros a H. apply (one_line_all not_newline); [reflexivity|exact H]. Qed.
Lemma one_line_repeat : forall n, one_line (repeat "x"%char n).
Proof. intros n H. apply repeat_spec in H. discriminate. Qed.
Lemma attr_one_line : forall mktime t l a, create_attribute_list mktime t = Ok (Some l) -> In a (aattrs l) -> one_line a.
Proof.
  intros mktime t l a E Ia. apply attrs_accept in E as (x & (t' & P & En) & _ & K & Ea & _).
  assert (Forall item_named (aitems x)) as F by (apply items_named; eapply text_pre_good; eauto).
  rewrite Ea in Ia. unfold attrs_of in Ia. apply attrs_member in Ia as [[_ H]|(c & b & v & i & Iv & _ & ->)].
  - apply one_line_name. eapply first_named; eauto.
  - assert (forall ll before, Forall item_named ll -> In (c, b, v) (values_from (day mktime) before ll) -> one_line c) as V.
    { induction ll as [|j r IH]; intros before G I0; [destruct I0|]. inversion G as [|? ? G1 G2]; subst. cbn [values_from] in I0. apply in_app_or in I0 as [I0|I0]; [|eapply IH; eauto].
      destruct j as [s|s n|p m d y]; cbn [item_values item_named] in *; [destruct I0| |].
      - destruct (first_mention s before) as [[]|]; [destruct I0| |]; (destruct I0 as [I0|[]]; injection I0 as <- _ _; apply one_line_name; apply G1).
      - destruct (dated_in p before); [destruct I0|]. destruct I0 as [I0|[]]. injection I0 as <- _ _. apply one_line_app; [apply one_line_name, G1|]. apply one_line_lit. reflexivity. }
    pose proof (V _ _ F Iv) as Nc. unfold marker.
    apply one_line_app; [exact Nc|]. apply one_line_app; [apply one_line_lit; reflexivity|].
    apply one_line_app; [destruct (b <? 10); apply one_line_lit; reflexivity|].
    apply one_line_app; [apply (one_line_all numeral); [reflexivity|apply dec_numeral]|].
    apply one_line_app; [apply one_line_lit; reflexivity|]. apply one_line_app; [apply one_line_repeat|].
    apply one_line_app; [destruct (Z.testbit v i); apply one_line_lit; reflexivity|]. apply one_line_repeat.
Qed.
(** The print of a list made from a text tells its attributes. *)
Theorem C142_list : forall mktime t t' l l', create_attribute_list mktime t = Ok (Some l) -> create_attribute_list mktime t' = Ok (Some l') ->
  list_print l = list_print l' -> aattrs l = aattrs l'.
Proof.
  intros mktime t t' l l' E E' H. apply (lines_inj _ _ 0); [| |exact H]; apply Forall_forall; intros a Ha.
  - exact (attr_one_line mktime t l a E Ha).
  - exact (attr_one_line mktime t' l' a E' Ha).
Qed.
Print Assumptions C142_list.
(** A list built attribute by attribute can hold a newline, and then it does not. *)
Theorem C142_built_refuted : exists mktime l l', make_list mktime 1 [L "a" ++ newline_char :: L "1:b"] = Ok l /\
  make_list mktime 2 [L "a"; L "b"] = Ok l' /\ list_print l = list_print l' /\ aattrs l <> aattrs l'.
Proof.
  exists mk. eexists _, _. split; [vm_compute; reflexivity|]. split; [vm_compute; reflexivity|]. split; [vm_compute; reflexivity|]. discriminate.
Qed.
Print Assumptions C142_built_refuted.

Example C142_nonvacuous :
  zp_text {| zv := 120; zord := Some 13 |} = L "120 (orderSet: true)" /\ zp_hex_text {| zv := 703710; zord := None |} = L "0ABCDE" /\
  uint_text {| uval := 5; ubits := 8 |} = L "5#8" /\ uint_text {| uval := 5; ubits := 32 |} = L "5" /\
  exists l, create_attribute_list mk (L "a|b") = Ok (Some l) /\ list_print l = L "0:a" ++ "010"%char :: L "1:b" ++ ["010"%char].
Proof.
  split; [vm_compute; reflexivity|]. split; [vm_compute; reflexivity|]. split; [vm_compute; reflexivity|]. split; [vm_compute; reflexivity|].
  eexists. split; vm_compute; reflexivity.
Qed.
