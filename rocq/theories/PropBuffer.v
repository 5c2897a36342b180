(** C141: the length of a policy or of an attribute list, and with it the buffer
    through which the scanner reads the text, has no influence on how it is read. *)
From Verif Require Import Base Dec Policy AttrList Driver Scanner PolicySyntax Lexical ParserTop Parser ScannerProofs Buffer BufferProofs.
From Coq Require Import ZArith List Ascii Bool Lia ZifyBool ZifyNat.
Import ListNotations.
Open Scope Z_scope.
Local Open Scope res_scope.

(** ** Specification *)
(** Every stretch of the text that has to be kept in one piece (characters of
    names and numbers, or blanks) is shorter than [n]. *)
Definition runs_below (n : Z) (s : str) : Prop :=
  forall a p z, s = a ++ p ++ z -> forallb name_char p = true \/ forallb blank p = true -> Z.of_nat (length p) < n.
(** A buffer size flex can start with: a power of two that is an int. *)
Definition buffer_size (z : Z) : Prop := exists k, 0 <= k <= 30 /\ z = 2 ^ k.

(** ** createPolicyTree and createAttributeList over the buffered scanner *)
(** zdriver.cpp L60-84 as in Parser.v, with the tokens of [flex].  All tokens are
    fetched beforehand; the parser fetches them one by one and stops at the
    first error. *)
Definition parse_buffered (mktime : tm -> Z * tm) (buf_size read_size : Z) (ispol : bool) (text : str) : res driver :=
  let prefix := if ispol then L "[0]: " else L "[1]: " in
  let d0 := {| dcount := []; ddup := []; dprefix := []; ddate := []; dorig := []; dtext := text;
               dispolicy := ispol; dpol := None; dattr := None |} in
  do toks <- flex buf_size read_size (prefix ++ text);
  do r <- Parser.run VTok (action mktime) (parse_fuel toks) [(0, VTok NoVal)] toks d0;
  match r with
  | Accepted d => Ok d
  | SyntaxError d => Ok (driver_error d)
  | Aborted d => Ok d
  end.
Definition policy_buffered (mktime : tm -> Z * tm) (buf_size read_size : Z) (s : str) : res (option policy) :=
  match s with [] => Ok None | _ => do d <- parse_buffered mktime buf_size read_size true s; Ok (dpol d) end.
Definition list_buffered (mktime : tm -> Z * tm) (buf_size read_size : Z) (s : str) : res (option attrlist) :=
  match s with [] => Ok None | _ => do d <- parse_buffered mktime buf_size read_size false s; Ok (dattr d) end.

(** ** Proofs *)
Lemma start_is_char : forall c, name_start c = true -> name_char c = true.
Proof.
  intros c H. assert (negb (name_start c) || name_char c = true) as Q.
  { apply (by_bytes (fun c => negb (name_start c) || name_char c)). vm_compute. reflexivity. }
  rewrite H in Q. exact Q.
Qed.
Lemma digit_is_char : forall c, is_digit c = true -> name_char c = true.
Proof.
  intros c H. assert (negb (is_digit c) || name_char c = true) as Q.
  { apply (by_bytes (fun c => negb (is_digit c) || name_char c)). vm_compute. reflexivity. }
  rewrite H in Q. exact Q.
Qed.
Lemma forallb_weak : forall (f g : ascii -> bool) s, (forall c, f c = true -> g c = true) -> forallb f s = true -> forallb g s = true.
Proof. intros f g s H. rewrite !forallb_forall. auto. Qed.
Lemma first_run : forall c r, let t := snd (fst (first c r)) in
  (length t <= 2)%nat \/ forallb name_char t = true \/ forallb blank t = true.
Proof.
  intros c r. unfold first. destruct (Ascii.eqb c newline); [left; cbn; lia|].
  destruct (blank c) eqn:Eb; [right; right; cbn [fst snd forallb]; rewrite Eb; apply span_all|].
  destruct (name_start c) eqn:En; [right; left; cbn [fst snd forallb]; rewrite (start_is_char c En); apply span_all|].
  destruct (is_digit c) eqn:Ed.
  - right. left. cbn [fst snd forallb]. rewrite (digit_is_char c Ed). cbn [andb].
    apply (forallb_weak is_digit); [exact digit_is_char|apply span_all].
  - destruct (op_char c && next_is is_eq r); left; cbn; lia.
Qed.
Lemma pieces_runs : forall s p, In p (pieces s) ->
  (exists a z, s = a ++ p ++ z) /\ ((length p <= 2)%nat \/ forallb name_char p = true \/ forallb blank p = true).
Proof.
  intro s. remember (length s) as n eqn:E. revert s E. induction n as [n IH] using (well_founded_induction lt_wf).
  intros [|c r] E p Hp; [contradiction|]. rewrite pieces_step in Hp. pose proof (first_app c r) as F. pose proof (first_rest c r).
  cbn [length] in E. destruct Hp as [<-|Hp].
  - split; [exists [], (snd (first c r)); symmetry; exact F|apply first_run].
  - destruct (IH (length (snd (first c r))) ltac:(lia) _ eq_refl p Hp) as [(a & z & K) Q]. split; [|exact Q].
    exists (snd (fst (first c r)) ++ a), z. rewrite <- app_assoc, <- K. symmetry. exact F.
Qed.
Lemma runs_short : forall s, runs_below (2 ^ 30 - 1) s -> forallb short (pieces s) = true.
Proof.
  intros s H. apply forallb_forall. intros p Hp. unfold short. destruct (pieces_runs s p Hp) as [(a & z & E) [Q|Q]].
  - unfold limit. lia.
  - pose proof (H a p z E Q). unfold limit. lia.
Qed.

(** The scanner delivers the tokens of the text, whatever the size of its buffer
    and the number of characters it reads at a time. *)
Theorem C141_tokens : forall buf_size read_size s, buffer_size buf_size -> 1 <= read_size -> runs_below (2 ^ 30 - 1) s ->
  flex buf_size read_size s = Ok (lex s).
Proof. intros bs rs s (k & Hk & ->) Hr H. rewrite flex_exact by auto. rewrite runs_short by exact H. reflexivity. Qed.
Print Assumptions C141_tokens.

Lemma long_below : forall n s, Z.of_nat (length s) < n -> runs_below n s.
Proof. intros n s H a p z -> _. rewrite !app_length in H. lia. Qed.
Lemma YY_size : buffer_size YY_BUF_SIZE.
Proof. exists 14. split; [lia|reflexivity]. Qed.

(** With the sizes of the library: a policy and an attribute list of less than a
    gigabyte are what the parser makes of the whole text. *)
Theorem C141_policy : forall mktime s, Z.of_nat (length s) < 2 ^ 30 - 6 ->
  policy_buffered mktime YY_BUF_SIZE YY_READ_BUF_SIZE s = create_policy_tree mktime s.
Proof.
  intros mktime [|c s] H; [reflexivity|]. unfold policy_buffered, create_policy_tree, parse_buffered, parse_string.
  rewrite C141_tokens; [reflexivity|exact YY_size|unfold YY_READ_BUF_SIZE; lia|].
  apply long_below. rewrite app_length. change (length (L "[0]: ")) with 5%nat. lia.
Qed.
Print Assumptions C141_policy.
Theorem C141_list : forall mktime s, Z.of_nat (length s) < 2 ^ 30 - 6 ->
  list_buffered mktime YY_BUF_SIZE YY_READ_BUF_SIZE s = create_attribute_list mktime s.
Proof.
  intros mktime [|c s] H; [reflexivity|]. unfold list_buffered, create_attribute_list, parse_buffered, parse_string.
  rewrite C141_tokens; [reflexivity|exact YY_size|unfold YY_READ_BUF_SIZE; lia|].
  apply long_below. rewrite app_length. change (length (L "[1]: ")) with 5%nat. lia.
Qed.
Print Assumptions C141_list.

(** The bound is met by nothing longer: from a name of 2^30 - 1 characters on the
    size of the buffer overflows an int, which is undefined. *)
Theorem C141_overflow : forall buf_size read_size c r, buffer_size buf_size -> 1 <= read_size ->
  name_start c = true -> forallb name_char r = true -> 2 ^ 30 - 1 <= Z.of_nat (length (c :: r)) ->
  flex buf_size read_size (c :: r) = UB.
Proof.
  intros bs rs c r (k & Hk & ->) Hr Hc Hn Hl. rewrite flex_exact by auto. rewrite pieces_step. cbn [forallb].
  assert (snd (fst (first c r)) = c :: r) as E.
  { unfold first. assert (Ascii.eqb c newline = false /\ blank c = false) as [-> ->].
    { assert (negb (name_start c) || (negb (Ascii.eqb c newline) && negb (blank c)) = true) as Q.
      { apply (by_bytes (fun c => negb (name_start c) || (negb (Ascii.eqb c newline) && negb (blank c)))). vm_compute. reflexivity. }
      rewrite Hc in Q. cbn [negb orb] in Q. destruct (Ascii.eqb c newline), (blank c); try discriminate; auto. }
    rewrite Hc. cbn [fst snd]. f_equal. pose proof (span_unique name_char r [] Hn eq_refl) as S1.
    rewrite app_nil_r in S1. rewrite S1. reflexivity. }
  rewrite E. unfold short at 1. replace (Z.of_nat (length (c :: r)) <? limit) with false by (unfold limit; lia). reflexivity.
Qed.
Print Assumptions C141_overflow.

Lemma nat_above : forall z, exists n, z <= Z.of_nat n.
Proof. intro z. exists (Z.to_nat z). lia. Qed.
Theorem C141_overflows : exists s, flex YY_BUF_SIZE YY_READ_BUF_SIZE s = UB.
Proof.
  destruct (nat_above (2 ^ 30)) as [n Hn]. exists ("a"%char :: repeat "a"%char n).
  apply C141_overflow; [exact YY_size|unfold YY_READ_BUF_SIZE; lia|reflexivity| |].
  - apply forallb_forall. intros x Hx. apply repeat_spec in Hx. subst x. reflexivity.
  - cbn [length]. rewrite repeat_length. lia.
Qed.
Print Assumptions C141_overflows.

(** Buffers of one and of four characters, a NUL in the text, and a policy longer
    than the buffer. *)
Example C141_nonvacuous :
  let s := L "[0]: (alpha or date >= 12345) and" ++ [EOB] ++ L "beta" in
  flex 1 1 s = Ok (lex s) /\ flex 4 3 s = Ok (lex s) /\ flex YY_BUF_SIZE YY_READ_BUF_SIZE s = Ok (lex s) /\ length (lex s) = 11%nat /\
  runs_below (2 ^ 30 - 1) s.
Proof.
  cbv zeta. split; [vm_compute; reflexivity|]. split; [vm_compute; reflexivity|]. split; [vm_compute; reflexivity|].
  split; [vm_compute; reflexivity|]. apply long_below. vm_compute. reflexivity.
Qed.
