(** C143: reading a policy, sharing a secret under it and checking attributes
    against it takes work in proportion to the length of its text. *)
From Verif Require Import Base StrMap Dec Field Policy AttrList Lsss LsssSpec LsssProofs LsssScan LsssShare Driver Scanner Grammar PolicySyntax Lexical ParserTop Parser ParserSound ParserRun ParserSafe ScannerProofs CreatePolicy ParserFinal PropParser Size PropSize Buffer BufferProofs PropBuffer Work WorkProofs LoopWork.
From Coq Require Import ZArith List Ascii Bool Lia ZifyBool ZifyNat.
Import ListNotations.
Open Scope Z_scope.

(** ** The scanner *)
(** With the whole text at hand its automaton makes at most two transitions for
    every character. *)
Theorem C143_transitions : forall s, (lex_work (length s) s <= 2 * length s)%nat.
Proof. intro s. apply lex_work_bound. Qed.
Print Assumptions C143_transitions.
(** Reading through the buffer costs in addition a factor of the longest name,
    number or blank: it is scanned again from its beginning with every refill. *)
Theorem C143_buffered_partial : forall buf_size read_size longest s, buffer_size buf_size -> 1 <= read_size ->
  (2 <= longest)%nat -> Z.of_nat longest < 2 ^ 30 - 1 -> runs_below (Z.of_nat longest + 1) s ->
  (flex_work buf_size read_size s <= (4 * length s + 3) * (3 * longest + 5))%nat.
Proof.
  intros bs rs T s (k & Hk & ->) Hr H2 HT H. unfold flex_work.
  set (b := {| chars := []; size := 2 ^ k; text := 0; stat := New; source := s |}).
  assert (buf_ok b) as Hb.
  { split; [exists k; auto|]. unfold b. cbn [chars size text stat source length]. split; [lia|]. split; [lia|]. discriminate. }
  assert (ahead b = s) as Ha by reflexivity.
  pose proof (rounds_cost rs Hr T HT (S (length s)) b Hb) as R. rewrite Ha in R. change (source b) with s in R.
  replace (4 * length s + 3)%nat with (length s + 3 * length s + 3)%nat by lia. apply R.
  intros p Hp. destruct (pieces_runs s p Hp) as [(a & z & E) [Q|Q]]; [lia|]. specialize (H a p z E Q). lia.
Qed.
Print Assumptions C143_buffered_partial.
Lemma one_word : forall c r, name_start c = true -> forallb name_char r = true -> first c r = (2, c :: r, []).
Proof.
  intros c r Hc Hn. unfold first. assert (Ascii.eqb c newline = false /\ blank c = false) as [-> ->].
  { assert (negb (name_start c) || (negb (Ascii.eqb c newline) && negb (blank c)) = true) as Q.
    { apply (by_bytes (fun c => negb (name_start c) || (negb (Ascii.eqb c newline) && negb (blank c)))). vm_compute. reflexivity. }
    rewrite Hc in Q. cbn [negb orb] in Q. destruct (Ascii.eqb c newline), (blank c); try discriminate; auto. }
  rewrite Hc. pose proof (span_unique name_char r [] Hn eq_refl) as S1. rewrite app_nil_r in S1. rewrite S1. reflexivity.
Qed.
Lemma nat_exact : forall z, 0 <= z -> exists n, Z.of_nat n = z.
Proof. intros z H. exists (Z.to_nat z). lia. Qed.
Lemma emit_one : forall a t, (length (emit a t) <= 1)%nat.
Proof. intros a t. unfold emit. repeat match goal with |- context [if ?x then _ else _] => destruct x | |- context [match ?x with _ => _ end] => destruct x end; cbn; lia. Qed.
Lemma lex_short : forall s, (length (lex s) <= length s)%nat.
Proof.
  intro s. remember (length s) as n eqn:E. revert s E. induction n as [n IH] using (well_founded_induction lt_wf). intros [|c r] E; [cbn; lia|].
  rewrite lex_step, app_length. pose proof (emit_one (fst (fst (first c r))) (snd (fst (first c r)))). pose proof (first_rest c r). cbn [length] in E.
  specialize (IH (length (snd (first c r))) ltac:(lia) _ eq_refl). lia.
Qed.
(** The factor is real: the work for a single name grows with the square of its
    length. *)
Theorem C143_word : forall buf_size read_size c r, buffer_size buf_size -> 1 <= read_size ->
  name_start c = true -> forallb name_char r = true -> Z.of_nat (length (c :: r)) < 2 ^ 30 - 1 ->
  let n := Z.of_nat (length (c :: r)) in
  n * n - read_size * n <= 2 * read_size * Z.of_nat (flex_work buf_size read_size (c :: r)).
Proof.
  intros bs rs c r (k & Hk & ->) Hr Hc Hn Hl n. unfold flex_work.
  set (b := {| chars := []; size := 2 ^ k; text := 0; stat := New; source := c :: r |}).
  assert (buf_ok b) as Hb.
  { split; [exists k; auto|]. unfold b. cbn [chars size text stat source length]. split; [lia|]. split; [lia|]. discriminate. }
  cbn [rounds_work]. set (f := (2 * (length (chars b) + 2 * length (source b)) + 4)%nat).
  pose proof (scan_least rs Hr (2 * length (c :: r)) f b 1 [] [] None Hb eq_refl at_start) as W.
  cbn [app length Nat.add] in W. change (text b + 0)%nat with (text b) in W.
  specialize (W ltac:(unfold b; cbn [source]; cbn [length]; lia) ltac:(unfold f, b; cbn [source chars length]; lia) ltac:(exact Hl)).
  assert (forall x, name_char x = true -> x <> EOB) as Hx by (intros x Hx ->; discriminate Hx).
  specialize (W ltac:(intros [I|I]; [exact (Hx c (start_is_char c Hc) I)|rewrite forallb_forall in Hn; exact (Hx EOB (Hn EOB I) eq_refl)])).
  assert (exists a t, munch 1 ([] ++ source b) (rev []) None = Some (a, t, [])) as M.
  { exists 2, (c :: r). cbn [app rev]. change (source b) with (c :: r). rewrite munch_first, (one_word c r Hc Hn). reflexivity. }
  specialize (W M). cbn zeta in W. change (length (source b)) with (length (c :: r)) in W. fold n in W.
  set (w1 := scan_work rs f b (Match 1 (text b) None)) in *. set (w2 := match scan rs f b (Match 1 (text b) None) with Ok (Some _, b') => _ | _ => _ end).
  clearbody w1 w2 n. rewrite Nat2Z.inj_add.
  assert (0 <= rs * Z.of_nat w2) as P by (apply Z.mul_nonneg_nonneg; lia).
  replace (2 * rs * (Z.of_nat w1 + Z.of_nat w2)) with (2 * rs * Z.of_nat w1 + 2 * (rs * Z.of_nat w2)) by ring. change (Z.of_nat 0) with 0 in W. lia.
Qed.
Print Assumptions C143_word.
(** So no number of steps for each character is enough: a name just below the
    largest that can be read at all costs 60000 steps for each of its characters. *)
Theorem C143_scanner_refuted : exists s, Z.of_nat (length s) < 2 ^ 30 - 1 /\
  60000 * Z.of_nat (length s) < Z.of_nat (flex_work YY_BUF_SIZE YY_READ_BUF_SIZE s).
Proof.
  destruct (nat_exact (2 ^ 30 - 3) ltac:(lia)) as [m Hm]. exists ("a"%char :: repeat "a"%char m).
  assert (Z.of_nat (length ("a"%char :: repeat "a"%char m)) = 2 ^ 30 - 2) as E by (cbn [length]; rewrite repeat_length; lia).
  pose proof (C143_word YY_BUF_SIZE YY_READ_BUF_SIZE "a"%char (repeat "a"%char m) YY_size ltac:(unfold YY_READ_BUF_SIZE; lia) eq_refl) as W.
  rewrite E in *. split; [lia|]. cbn zeta in W.
  specialize (W ltac:(apply forallb_forall; intros x Hx; apply repeat_spec in Hx; subst x; reflexivity) ltac:(lia)).
  unfold YY_READ_BUF_SIZE in *. lia.
Qed.
Print Assumptions C143_scanner_refuted.

(** ** The parser *)
(** The automaton of the parser makes at most four steps for every character, and
    fourteen more, whether the text is accepted or not. *)
Theorem C143_parser : forall mktime b s, (b = true -> dates_in_range mktime s) ->
  exists steps r, Z.of_nat steps <= 4 * len s + 14 /\
    Parser.run VTok (action mktime) steps [(0, VTok NoVal)] (lex ((if b then L "[0]: " else L "[1]: ") ++ s)) (start_driver b s) = Ok r.
Proof.
  intros mktime b s H. exists (parse_fuel (start_tok b :: lex s)).
  assert (lex ((if b then L "[0]: " else L "[1]: ") ++ s) = start_tok b :: lex s) as -> by (destruct b; [apply lex_start_policy|apply lex_start_attrs]).
  pose proof (run_finishes mktime b s) as R. pose proof (lex_short s) as Ls.
  assert (safe (DI b) (Parser.run VTok (action mktime) (parse_fuel (start_tok b :: lex s)) [(0, VTok NoVal)] (start_tok b :: lex s) (start_driver b s))) as Sf.
  { apply R. intros E I. destruct (H E (lex_comma_occurs s I)) as [D1 D2]. split.
    - intros r m d y M Hd Hy. apply lex_name_occurs in M as [M1 M2]. apply D1; auto using lex_num_occurs.
    - intros m lo hi y M Hl Hh Hy. apply lex_name_occurs in M as [M1 M2]. apply D2; auto using lex_num_occurs. }
  destruct (Parser.run VTok (action mktime) (parse_fuel (start_tok b :: lex s)) [(0, VTok NoVal)] (start_tok b :: lex s) (start_driver b s)) as [r| | | |] eqn:Er; try contradiction.
  exists r. split; [|reflexivity]. unfold parse_fuel. cbn [length]. unfold len. lia.
Qed.
Print Assumptions C143_parser.

(** ** The loops over the policy *)
(** For every three characters of the text, sharing a secret, recovering
    coefficients and clearing the flags take at most 64 rounds, and marking the
    tree at most 96 -- whatever the flags of the policy are beforehand. *)
Theorem C143_loops : forall mktime s q, create_policy_tree mktime s = Ok (Some q) -> exists r, proot q = Some r /\
  forall k, 64 * len s <= 3 * Z.of_nat k ->
    (forall ndebug p cnt t secret off rows, share_loop ndebug p cnt t k [(r, secret)] off rows <> NoFuel) /\
    (forall p cnt st c rows result, recover_loop p cnt st k [(([], r), c)] rows result <> None) /\
    (forall st, reset_loop k [([], r)] st <> None) /\
    (forall sort attrs st, 96 * len s <= 3 * Z.of_nat k -> scan_loop sort attrs k [([], r)] st <> None).
Proof.
  intros mktime s q H. destruct (policy_size mktime s q H) as (r & R & B & L1 & L2). exists r. split; [exact R|]. intros k Hk.
  destruct (binary_gates r B) as [G _]. destruct (binary_size r B) as [T S']. 
  split; [|split; [|split]].
  - intros. apply share_rounds. cbn [waiting fst]. lia.
  - intros. apply recover_rounds. cbn [waiting fst snd]. lia.
  - intros. apply reset_rounds. cbn [waiting snd]. lia.
  - intros. apply scan_rounds. lia.
Qed.
Print Assumptions C143_loops.

(** Doubling a name four times: the work with the whole text at hand doubles, the
    work through a buffer refilled eight characters at a time comes close to four
    times as much.  A policy of 27 characters with 64 leaves: marking takes 190
    rounds, not one fewer. *)
Example C143_nonvacuous :
  map (fun n => lex_work n (repeat "a"%char n)) [64; 128; 256; 512; 1024]%nat = [64; 128; 256; 512; 1024]%nat /\
  map (fun n => Z.of_nat (flex_work 16 8 (repeat "a"%char n))) [64; 128; 256; 512; 1024]%nat = [840; 2696; 9480; 35336; 136200] /\
  runs_below 28 (L "(one and two) or n in (3-9)") /\ dates_in_range mk (L "(one and two) or n in (3-9)") /\
  exists q r, create_policy_tree mk (L "(one and two) or n in (3-9)") = Ok (Some q) /\ proot q = Some r /\
    (match scan_loop (fun l => l) [] 190 [([], r)] (fun _ => {| fmark := false; fsat := 0; fvisited := false |}) with Some _ => true | None => false end,
     match scan_loop (fun l => l) [] 189 [([], r)] (fun _ => {| fmark := false; fsat := 0; fvisited := false |}) with Some _ => true | None => false end) = (true, false).
Proof.
  split; [vm_compute; reflexivity|]. split; [vm_compute; reflexivity|]. split; [apply long_below; vm_compute; reflexivity|].
  split; [intro I; vm_compute in I; repeat destruct I as [I|I]; try discriminate; contradiction|].
  destruct (create_policy_tree mk (L "(one and two) or n in (3-9)")) as [[q|]| | | |] eqn:Eq; [|vm_compute in Eq; discriminate ..].
  vm_compute in Eq. injection Eq as Eq. destruct (proot q) as [r|] eqn:R; [|subst q; discriminate]. exists q, r. subst q. cbn in R. injection R as <-.
  repeat split; vm_compute; reflexivity.
Qed.
