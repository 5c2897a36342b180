(** Model of the linear secret sharing scheme: src/lsss/zlsss.cpp,
    include/lsss/zlsss.h.

    Elements: every ZP created here carries the order p of the pairing group
    (setOrder(group.order)), so ZP arithmetic is that of Field.v with order p.
    uint32_t counters over children are nat (a node with 2^32 children is not
    considered).  The zero divisor exit of ZP operator/ cannot occur in
    calculateCoefficient when the fan-out is below p (LsssProofs.calc_divisor). *)
From Verif Require Import Base StrMap Dec Field Policy.
From Coq Require Import ZArith List Ascii Bool.
Import ListNotations.
Open Scope Z_scope.
Open Scope res_scope.

(** zlsss.h L51-55 OpenABELSSSElement: label and element. m_Prefix (the first
    component of check_attribute(label), zlsss.cpp L59-63) is not kept. *)
Definition row := (str * Z)%type.
Definition rowmap := smap row.

(** zlsss.h L90-96: m_ResultMap and m_AttrCount; the scratch numbers are local. *)
Record lsss := { l_rows : rowmap; l_count : smap Z }.
Definition lsss_new : lsss := {| l_rows := []; l_count := [] |}.

(** L489-499 makeUniqueLabel. *)
Definition unique_label (cnt : smap Z) (n : node) : str :=
  let label := complete_label n in
  if mmem label cnt then label ++ L "%" ++ dec (nindex n) else label.

(** L434-440 addShareToResults. *)
Definition add_share (cnt : smap Z) (rows : rowmap) (n : node) (e : Z) : rowmap :=
  mset (unique_label cnt n) (complete_label n, e) rows.

(** L452-476 evaluatePolynomial. *)
Fixpoint eval_poly_from (p : Z) (i : Z) (cs : list Z) (x share : Z) : Z :=
  match cs with
  | [] => share
  | c :: cs' => eval_poly_from p (i + 1) cs' x (fadd p share (fmul p c (fpow p x i)))
  end.
Definition eval_poly (p : Z) (cs : list Z) (x : Z) : Z := eval_poly_from p 0 cs (x mod p) 0.

(** ** Sharing *)

(** The random tape: the i-th call of bn_rand_mod returns [tape i] mod p. *)
Definition tape := nat -> Z.
(** L267-273: [k] draws starting at position [off]. *)
Definition draw (p : Z) (t : tape) (off k : nat) : list Z := map (fun i => t i mod p) (seq off k).
(** L275 coefficients[0] = theSecret. *)
Definition set_first (s : Z) (cs : list Z) : list Z := match cs with [] => [] | _ :: r => s :: r end.

(** L222-288 iterativeShareSecret; [ndebug] tells whether the assert of L264,
    which contains the assignment of [threshold], is compiled out.  Then
    [threshold] stays 0 and coefficients[0] writes to an empty vector. *)
Fixpoint share_loop (ndebug : bool) (p : Z) (cnt : smap Z) (t : tape) (fuel : nat)
         (stack : list (node * Z)) (off : nat) (rows : rowmap) : res (rowmap * nat) :=
  match stack with
  | [] => Ok (rows, off)
  | (n, s) :: rest =>
      match fuel with
      | O => NoFuel
      | S f =>
          match ntype n with
          | GateLeaf => share_loop ndebug p cnt t f rest off (add_share cnt rows n s)
          | _ =>
              if ndebug then UB
              else if threshold_value n =? 0 then Exit
              else
                let k := Z.to_nat (threshold_value n) in
                let cs := set_first s (draw p t off k) in
                let kids := map (fun '(i, c) => (c, eval_poly p cs (Z.of_nat (i + 1))))
                                (combine (seq 0 (length (nkids n))) (nkids n)) in
                share_loop ndebug p cnt t f (rev kids ++ rest) (off + k) rows
          end
      end
  end.

(** L156-158, L181-183: getDuplicateInfo only if the policy has duplicates. *)
Definition take_count (o : lsss) (q : policy) : smap Z := if pdup q then pcount q else l_count o.

(** L96-109 shareSecret, L151-164 performSecretSharing (assert(node != NULL)). *)
Definition share_secret (ndebug : bool) (p : Z) (o : lsss) (q : policy) (s : Z) (t : tape) (off : nat)
  : res (lsss * nat) :=
  let cnt := take_count o q in
  match proot q with
  | None => if ndebug then UB else Exit
  | Some r =>
      do (rows, off') <- share_loop ndebug p cnt t (tree_size r) [(r, s)] off [];
      Ok ({| l_rows := rows; l_count := cnt |}, off')
  end.

(** ** Scanning *)

Section Scan.
(** std::sort with comparator less_than (L579-583): the order of elements that
    compare equal is unspecified; all results hold for any function that returns
    a sorted permutation. *)
Variable sort : list (nat * Z) -> list (nat * Z).
(** zattributelist.cpp L126-129 matchAttribute. *)
Variable attrs : list str.
Definition match_attribute (a : str) : bool := existsb (str_eqb a) attrs.

(** L611-620 list of marked children with their weight. *)
Definition marked_list (st : fstate) (p : path) (n : node) : list (nat * Z) :=
  map (fun '(i, c) => (i, Z.max 1 (Z.of_nat (length (nkids c)))))
      (filter (fun '(i, c) => fmark (st (i :: p)))
              (combine (seq 0 (length (nkids n))) (nkids n))).

(** L626-635. *)
Fixpoint or_loop (st : fstate) (p : path) (enough : nat) (result : bool) (l : list (nat * Z)) : fstate * bool :=
  match l with
  | [] => (st, result)
  | (i, _) :: l' =>
      if fmark (st (i :: p)) then
        match enough with
        | S e => or_loop st p e true l'
        | O => or_loop (set_mark st (i :: p) false 0) p O result l'
        end
      else or_loop st p enough result l'
  end.

(** L585-648 determineIfNodeShouldBeMarked. *)
Definition determine (threshold : nat) (p : path) (n : node) (st : fstate) : fstate :=
  match ntype n with
  | GateAnd =>
      let ks := kid_ptrs (p, n) in
      let result := forallb (fun q => fmark (st (fst q))) ks in
      let sum := fold_left (fun a q => a + fsat (st (fst q))) ks 0 in
      if result then set_mark st p true sum else set_mark st p false 0
  | GateOr =>
      let l := sort (marked_list st p n) in
      let '(st', result) := or_loop st p threshold false l in
      if result then set_mark st' p true (snd (hd (O, 0) l)) else set_mark st' p false 0
  | _ => st
  end.

(** L510-576 iterativeScanTree.  For gates other than AND/OR [threshold] keeps a
    stale value, which determine does not use. *)
Definition scan_threshold (n : node) : nat :=
  match ntype n with GateAnd => length (nkids n) | _ => 1%nat end.
Fixpoint scan_loop (fuel : nat) (stack : list ptr) (st : fstate) : option fstate :=
  match stack with
  | [] => Some st
  | (p, n) :: rest =>
      match fuel with
      | O => None
      | S f =>
          match ntype n with
          | GateLeaf =>
              let m := match_attribute (complete_label n) in
              scan_loop f rest (set_visited (set_mark st p m (if m then 1 else 0)) p true)
          | _ =>
              match filter (fun q => negb (fvisited (st (fst q)))) (kid_ptrs (p, n)) with
              | [] => scan_loop f rest (set_visited (determine (scan_threshold n) p n st) p true)
              | unv => scan_loop f (rev unv ++ stack) st
              end
          end
      end
  end.
Definition scan_tree (root : node) (st : fstate) : option fstate :=
  scan_loop (2 * tree_size root) [([], root)] st.

(** L650-658 checkIfSatisfied; UB: null root. *)
Definition check_if_satisfied (q : policy) (reset : bool) (st : fstate) : res (bool * Z * fstate) :=
  match proot q with
  | None => UB
  | Some r =>
      match scan_tree r st with
      | None => NoFuel
      | Some st1 =>
          let out := (fmark (st1 []), fsat (st1 [])) in
          if reset then
            match reset_flags r st1 with
            | Some st2 => Ok (out, st2)
            | None => NoFuel
            end
          else Ok (out, st1)
      end
  end.

(** ** Coefficients *)

(** L389-423 calculateCoefficient: note [result *= result * (...)]. getSubnode(i)
    for i < threshold <= number of children. *)
Fixpoint calc_loop (p : Z) (st : fstate) (q : path) (index : Z) (fuel : nat) (i : nat) (result : Z) : Z :=
  match fuel with
  | O => result
  | S f =>
      let r' :=
        if fmark (st (i :: q)) && negb (Z.of_nat i =? index) then
          fmul p result (fmul p result
            (fdiv p (fsub p 0 (Z.of_nat i + 1)) (fsub p (index + 1) (Z.of_nat i + 1))))
        else result in
      calc_loop p st q index f (S i) r'
  end.
Definition calculate_coefficient (p : Z) (st : fstate) (q : path) (index : nat) (threshold : nat) : Z :=
  calc_loop p st q (Z.of_nat index) threshold 0 1.

(** L343-348: AND -> number of children, OR -> 1, otherwise 0. *)
Definition coeff_threshold (n : node) : nat :=
  match ntype n with GateAnd => length (nkids n) | GateOr => 1%nat | _ => 0%nat end.

(** L302-375 iterativeCoefficientRecover. *)
Fixpoint recover_loop (p : Z) (cnt : smap Z) (st : fstate) (fuel : nat)
         (stack : list (ptr * Z)) (rows : rowmap) (result : bool) : option (rowmap * bool) :=
  match stack with
  | [] => Some (rows, result)
  | ((q, n), c) :: rest =>
      match fuel with
      | O => None
      | S f =>
          match ntype n with
          | GateLeaf => recover_loop p cnt st f rest (add_share cnt rows n c) true
          | _ =>
              let ks := filter (fun '(i, k) => fmark (st (i :: q)))
                               (combine (seq 0 (length (nkids n))) (nkids n)) in
              let pushed := map (fun '(i, k) =>
                 ((i :: q, k), fmul p c (calculate_coefficient p st q i (coeff_threshold n)))) ks in
              recover_loop p cnt st f (rev pushed ++ rest) rows
                (match ks with [] => result | _ => true end)
          end
      end
  end.

(** L122-140 recoverCoefficients, L176-209 performCoefficientRecovery.  The flags
    left in the policy are part of the result. *)
Definition recover_coefficients (ndebug : bool) (p : Z) (o : lsss) (q : policy) (st : fstate)
  : res (bool * lsss * fstate) :=
  let cnt := take_count o q in
  match proot q with
  | None => if ndebug then UB else Exit
  | Some r =>
      match scan_tree r st with
      | None => NoFuel
      | Some st1 =>
          if fmark (st1 []) then
            match recover_loop p cnt st1 (tree_size r) [(([], r), 1)] [] false with
            | None => NoFuel
            | Some (rows, true) => Ok (true, {| l_rows := rows; l_count := cnt |}, st1)
            | Some (rows, false) => Ok (false, {| l_rows := []; l_count := cnt |}, st1)
            end
          else Ok (false, {| l_rows := []; l_count := cnt |}, st1)
      end
  end.
End Scan.

(** L667-689 LSSStestSecretRecovery, also the way the schemes combine the rows:
    sum over the shares that have a coefficient. *)
Fixpoint combine_rows (p : Z) (coeffs : rowmap) (shares : rowmap) (acc : Z) : Z :=
  match shares with
  | [] => acc
  | (u, (_, s)) :: rest =>
      match mget u coeffs with
      | None => combine_rows p coeffs rest acc
      | Some (_, c) => combine_rows p coeffs rest (fadd p acc (fmul p c s))
      end
  end.
Definition test_secret_recovery (p : Z) (coeffs shares : rowmap) : Z := combine_rows p coeffs shares 0.

(** An instance of std::sort: insertion sort (stable), used in examples. *)
Fixpoint insert_pair (e : nat * Z) (l : list (nat * Z)) : list (nat * Z) :=
  match l with
  | [] => [e]
  | x :: l' => if snd e <=? snd x then e :: x :: l' else x :: insert_pair e l'
  end.
Fixpoint isort (l : list (nat * Z)) : list (nat * Z) :=
  match l with [] => [] | e :: l' => insert_pair e (isort l') end.
