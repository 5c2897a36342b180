(** Model of how the scanner reads its text: src/lsss/zscanner.cpp (generated by
    flex) keeps a buffer of YY_BUF_SIZE characters, refills it from the stream
    when it comes to its end and enlarges it when a word does not fit.
    Scanner.v describes what the automaton matches in a text given as a whole;
    this file describes the matching in the buffer.

    Simplifications: the NUL that YY_DO_BEFORE_ACTION (L395-401) writes behind
    the matched text is taken back (L740, L914) before the character is read
    again and is not modelled; yyrealloc always succeeds; yylloc is left out. *)
From Verif Require Import Base Dec Scanner.
From Coq Require Import ZArith List Ascii Bool.
Import ListNotations.
Open Scope Z_scope.
Local Open Scope res_scope.

(** L305-317 yy_buffer_status. *)
Inductive status := New | Normal | EofPending.
(** The buffer (struct yy_buffer_state, L254-319, and the members yy_n_chars and
    yytext_ptr): [chars] is yy_ch_buf up to yy_n_chars, where the two EOB
    characters follow; [size] is yy_buf_size, and size + 2 bytes are allocated;
    [text] is the index of yytext_ptr; [source] is what the stream yyin still
    holds. *)
Record buf := { chars : str; size : Z; text : nat; stat : status; source : str }.

(** L203 YY_BUF_SIZE and L587 YY_READ_BUF_SIZE (ia64 has twice these values). *)
Definition YY_BUF_SIZE := 16384.
Definition YY_READ_BUF_SIZE := 8192.
Definition INT_MAX := 2147483647.

(** YY_END_OF_BUFFER_CHAR, L192. *)
Definition EOB : ascii := z2b 0.
(** What yy_cp can read from index [cp] on. *)
Definition view (b : buf) (cp : nat) : str := skipn cp (chars b ++ [EOB; EOB]).

(** yy_last_accepting_state and yy_last_accepting_cpos; None when they were not
    set for the present content of the buffer. *)
Definition mark := option (Z * nat).
Definition accepting (s : Z) (cp : nat) (last : mark) : mark :=
  if znth yy_accept s =? 0 then last else Some (s, cp).

(** L752-769 yy_match: run the automaton until it jams.  A NUL has class 0
    here.  UB: yy_cp leaves the buffer. *)
Fixpoint run (s : Z) (v : str) (cp : nat) (last : mark) : res mark :=
  match v with
  | [] => UB
  | c :: r =>
      let last' := accepting s cp last in
      let s' := yy_next 3 s (znth yy_ec (b2z c)) in
      if s' =? 14 then Ok last' else run s' r (S cp) last'
  end.

(** L1324-1352 yy_get_previous_state, over the characters from yytext_ptr to
    yy_c_buf_p; a NUL has class 1 here. *)
Fixpoint previous (s : Z) (v : str) (cp : nat) (last : mark) : Z * mark :=
  match v with
  | [] => (s, last)
  | c :: r => previous (yy_next 3 s (if b2z c =? 0 then 1 else znth yy_ec (b2z c))) r (S cp) (accepting s cp last)
  end.

(** L1228-1263: enlarge the buffer until a character more can be read.  UB: the
    signed multiplication of L1240 overflows. *)
Fixpoint grow (fuel : nat) (sz : Z) (moved : Z) : res Z :=
  if sz - moved - 1 <=? 0 then
    match fuel with
    | O => NoFuel
    | S f => let new_size := sz * 2 in
             if INT_MAX <? new_size then UB
             else if new_size <=? 0 then grow f (sz + Z.quot sz 8) moved
             else grow f new_size moved
    end
  else Ok sz.

(** L1181-1316 yy_get_next_buffer, called with yy_c_buf_p at index [cp].  Exit:
    YY_FATAL_ERROR.  LexerInput (L1134-1160) is istream::read, which delivers
    what was asked for or what there is. *)
Inductive eob := EndOfFile | ContinueScan | LastMatch.
Definition get_next_buffer (read_size : Z) (b : buf) (cp : nat) : res (eob * buf) :=
  if (length (chars b) + 1 <? cp)%nat then Exit
  else
  let moved := (cp - text b - 1)%nat in
  let kept := firstn moved (skipn (text b) (chars b)) in
  do r <- (match stat b with
           | EofPending => Ok ([], source b, size b)
           | _ => do z <- grow (S moved) (size b) (Z.of_nat moved);
                  let num := Z.to_nat (Z.min (z - Z.of_nat moved - 1) read_size) in
                  Ok (firstn num (source b), skipn num (source b), z)
           end);
  let '(chunk, source', size') := r in
  let n := Z.of_nat (length chunk) in
  if size' + 2 <? Z.of_nat moved + n then UB
  else
  let ret := match chunk with
             | [] => match moved with O => EndOfFile | _ => LastMatch end
             | _ => ContinueScan
             end in
  let size'' := if size' <? n + Z.of_nat moved then n + Z.of_nat moved + n / 2 - 2 else size' in
  if size'' <? n + Z.of_nat moved then UB
  else Ok (ret, {| chars := kept ++ chunk; size := size''; text := 0;
                   stat := match ret with EndOfFile => New | LastMatch => EofPending | ContinueScan => stat b end;
                   source := source' |}).

(** The labels yy_match (L751) and yy_find_action (L772). *)
Inductive label := Match (s : Z) (cp : nat) (last : mark) | Action (s : Z) (cp : nat) (last : mark).
(** L916-938: a buffer that is still marked new becomes a normal one. *)
Definition opened (b : buf) : buf :=
  match stat b with
  | New => {| chars := chars b; size := size b; text := text b; stat := Normal; source := source b |}
  | _ => b
  end.
(** The characters from yytext_ptr to index [cp]. *)
Definition matched (b : buf) (cp : nat) : str := firstn (cp - text b) (skipn (text b) (chars b)).
(** L751-1033: from one of the labels to the next rule of the scanner (its number
    and yytext), or to the end of the text (None).  Fuel: one unit per goto. *)
Fixpoint scan (read_size : Z) (fuel : nat) (b : buf) (l : label) : res (option (Z * str) * buf) :=
  match fuel with
  | O => NoFuel
  | S f =>
    match l with
    | Match s cp last =>
        do m <- run s (view b cp) cp last;
        match m with
        | Some (s', cp') => scan read_size f b (Action s' cp' m)
        | None => UB
        end
    | Action s cp last =>
        let act := znth yy_accept s in
        if act =? 0 then (* L800-805 *)
          match last with
          | Some (s', cp') => scan read_size f b (Action s' cp' last)
          | None => UB
          end
        else if act =? 8 then (* L909-1033 YY_END_OF_BUFFER *)
          let amount := (cp - text b - 1)%nat in
          let b1 := opened b in
          if (cp <=? length (chars b1))%nat then (* L946-979: a NUL of the text *)
            let pos := (text b1 + amount)%nat in
            let (s1, last1) := previous 1 (matched b1 pos) (text b1) last in
            (* L1362-1385 yy_try_NUL_trans *)
            let last2 := accepting s1 pos last1 in
            let s2 := yy_next 3 s1 1 in
            if s2 =? 14 then
              match last2 with
              | Some (s', cp') => scan read_size f b1 (Action s' cp' last2)
              | None => UB
              end
            else scan read_size f b1 (Match s2 (S pos) last2)
          else
            do r <- get_next_buffer read_size b1 cp;
            let '(ret, b2) := r in
            match ret with
            | EndOfFile => Ok (None, b2)
            | ContinueScan =>
                let pos := (text b2 + amount)%nat in
                let (s1, last1) := previous 1 (matched b2 pos) (text b2) None in
                scan read_size f b2 (Match s1 pos last1)
            | LastMatch =>
                let pos := length (chars b2) in
                let (s1, last1) := previous 1 (matched b2 pos) (text b2) None in
                scan read_size f b2 (Action s1 pos last1)
            end
        else Ok (Some (act, matched b cp),
                 {| chars := chars b; size := size b; text := cp; stat := stat b; source := source b |})
    end
  end.

(** L806-895: what the rules return. *)
Definition rule (act : Z) (t : str) : list tok :=
  if act =? 1 then [rule_uint t]
  else if act =? 2 then [rule_word t]
  else if act =? 3 then [rule_op t]
  else if act =? 5 then [(EOL, NoVal)]
  else if act =? 6 then [rule_char t]
  else [].
(** Successive rounds of the loop L735-1036. *)
Fixpoint rounds (read_size : Z) (fuel : nat) (b : buf) : res (list tok) :=
  match fuel with
  | O => NoFuel
  | S f =>
    do r <- scan read_size (2 * (length (chars b) + 2 * length (source b)) + 4) b (Match 1 (text b) None);
    let '(m, b') := r in
    match m with
    | None => Ok []
    | Some (act, t) => do l <- rounds read_size f b'; Ok (rule act t ++ l)
    end
  end.
(** L709-715: the buffer yylex starts with (yy_create_buffer, yy_init_buffer and
    yy_flush_buffer); all tokens of a text. *)
Definition flex (buf_size read_size : Z) (s : str) : res (list tok) :=
  rounds read_size (S (length s)) {| chars := []; size := buf_size; text := 0; stat := New; source := s |}.
