(** How much the scanner does: the number of transitions of its automaton and of
    characters it moves, for the functions of Scanner.v and Buffer.v. *)
From Verif Require Import Base Scanner Buffer.
From Coq Require Import ZArith List Ascii Bool.
Import ListNotations.
Open Scope Z_scope.

(** zscanner.cpp L754-771: the transitions of one match when the whole text is in
    the buffer. *)
Fixpoint munch_work (s : Z) (rest : str) : nat :=
  match rest with
  | [] => 0
  | c :: r => S (if yy_trans s c =? 14 then 0 else munch_work (yy_trans s c) r)
  end.
(** All matches of a text, as in [lex_fuel]. *)
Fixpoint lex_work (fuel : nat) (text : str) : nat :=
  match fuel, text with
  | S f, _ :: _ => munch_work 1 text + match munch 1 text [] None with Some (_, _, rest) => lex_work f rest | None => 0 end
  | _, _ => 0
  end%nat.

(** L752-769 yy_match, in the buffer: the transitions of [run]. *)
Fixpoint run_work (s : Z) (v : str) : nat :=
  match v with
  | [] => 0
  | c :: r => S (if yy_next 3 s (znth yy_ec (b2z c)) =? 14 then 0 else run_work (yy_next 3 s (znth yy_ec (b2z c))) r)
  end.
(** [scan]: its transitions, those of yy_get_previous_state (L1324-1352, one for
    every character matched so far), and the characters yy_get_next_buffer moves to
    the front of the buffer (L1217-1218) and reads. *)
Fixpoint scan_work (read_size : Z) (fuel : nat) (b : buf) (l : label) : nat :=
  match fuel with
  | O => O
  | S f =>
    match l with
    | Match s cp last =>
        run_work s (view b cp) +
        match run s (view b cp) cp last with
        | Ok (Some (s', cp')) => scan_work read_size f b (Action s' cp' (Some (s', cp')))
        | _ => O
        end
    | Action s cp last =>
        let act := znth yy_accept s in
        if (act =? 0)%Z then
          match last with Some (s', cp') => scan_work read_size f b (Action s' cp' last) | None => O end
        else if (act =? 8)%Z then
          let amount := (cp - text b - 1)%nat in
          let b1 := opened b in
          if (cp <=? length (chars b1))%nat then
            let pos := (text b1 + amount)%nat in
            let (s1, last1) := previous 1 (matched b1 pos) (text b1) last in
            let last2 := accepting s1 pos last1 in
            let s2 := yy_next 3 s1 1 in
            length (matched b1 pos) + 1 +
            (if (s2 =? 14)%Z then
               match last2 with Some (s', cp') => scan_work read_size f b1 (Action s' cp' last2) | None => O end
             else scan_work read_size f b1 (Match s2 (S pos) last2))
          else
            match get_next_buffer read_size b1 cp with
            | Ok (EndOfFile, b2) => length (chars b2)
            | Ok (ContinueScan, b2) =>
                let pos := (text b2 + amount)%nat in
                let (s1, last1) := previous 1 (matched b2 pos) (text b2) None in
                length (chars b2) + length (matched b2 pos) + scan_work read_size f b2 (Match s1 pos last1)
            | Ok (LastMatch, b2) =>
                let pos := length (chars b2) in
                let (s1, last1) := previous 1 (matched b2 pos) (text b2) None in
                length (chars b2) + length (matched b2 pos) + scan_work read_size f b2 (Action s1 pos last1)
            | _ => O
            end
        else O
    end
  end%nat.
(** [rounds] and [flex]. *)
Fixpoint rounds_work (read_size : Z) (fuel : nat) (b : buf) : nat :=
  match fuel with
  | O => O
  | S f =>
    let n := (2 * (length (chars b) + 2 * length (source b)) + 4)%nat in
    (scan_work read_size n b (Match 1 (text b) None) +
     match scan read_size n b (Match 1 (text b) None) with
     | Ok (Some _, b') => rounds_work read_size f b'
     | _ => O
     end)%nat
  end.
Definition flex_work (buf_size read_size : Z) (s : str) : nat :=
  rounds_work read_size (S (length s)) {| chars := []; size := buf_size; text := 0; stat := New; source := s |}.
