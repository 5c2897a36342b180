(** The scanner with its buffer matches what the automaton matches in the whole
    text, as long as no piece of the text makes the size of the buffer overflow. *)
From Verif Require Import Base Dec Scanner PolicySyntax Lexical ParserTop ScannerProofs Buffer.
From Coq Require Import ZArith List Ascii Bool Lia ZifyBool ZifyNat.
Import ListNotations.
Open Scope Z_scope.

Definition late : list Z := [4; 5; 6; 7; 8; 9; 10; 11; 12; 13].
Definition nul (c : ascii) : bool := b2z c =? 0.

Lemma by_state_byte : forall (f : Z -> ascii -> bool) l,
  forallb (fun s => forallb (f s) all_bytes) l = true -> forall s c, In s l -> f s c = true.
Proof. intros f l H s c Hs. rewrite forallb_forall in H. specialize (H s Hs). exact (by_bytes _ H c). Qed.
Definition late_b (s : Z) : bool := (4 <=? s) && (s <=? 13).
Lemma late_in : forall s, late_b s = true -> In s late.
Proof. unfold late_b, late. cbn [In]. lia. Qed.
Lemma trans_first : forall c, In (yy_trans 1 c) late.
Proof.
  intro c. apply late_in. apply (by_bytes (fun c => late_b (yy_trans 1 c))). vm_compute. reflexivity.
Qed.
Lemma trans_late : forall s c, In s late -> yy_trans s c = 14 \/ In (yy_trans s c) late.
Proof.
  intros s c Hs.
  assert ((yy_trans s c =? 14) || late_b (yy_trans s c) = true) as H.
  { apply (by_state_byte (fun s c => (yy_trans s c =? 14) || late_b (yy_trans s c)) late); [vm_compute; reflexivity|exact Hs]. }
  apply orb_prop in H as [H|H]; [left; lia|right; apply late_in; exact H].
Qed.
Lemma accept_late : forall s, In s late -> 1 <= znth yy_accept s <= 6.
Proof.
  intros s Hs. cbn in Hs. repeat (destruct Hs as [<-|Hs]; [vm_compute; split; discriminate|]). contradiction.
Qed.
Lemma late_not_jam : forall s, In s late -> s <> 14.
Proof. intros s Hs. cbn in Hs. lia. Qed.
Lemma late_not_eob : forall s, In s late -> znth yy_accept s <> 8 /\ znth yy_accept s <> 0.
Proof. intros s Hs. pose proof (accept_late s Hs). lia. Qed.
Lemma trans_char : forall s c, nul c = false -> yy_next 3 s (znth yy_ec (b2z c)) = yy_trans s c.
Proof. intros s c H. unfold yy_trans, yy_class, nul in *. rewrite H. reflexivity. Qed.
Lemma trans_nul : forall s c, nul c = true -> yy_trans s c = yy_next 3 s 1.
Proof. intros s c H. unfold yy_trans, yy_class, nul in *. rewrite H. reflexivity. Qed.
Lemma nul_eob : forall c, nul c = true -> c = EOB.
Proof. intros c H. unfold nul, EOB in *. rewrite <- (z2b_b2z c). f_equal. lia. Qed.
Lemma to_eob : forall s, In s (1 :: late) -> yy_next 3 s 0 = 3.
Proof. intros s Hs. cbn in Hs. repeat (destruct Hs as [<-|Hs]; [reflexivity|]). contradiction. Qed.
Lemma after_eob : forall c, yy_next 3 3 (znth yy_ec (b2z c)) = 14.
Proof.
  intro c. assert ((yy_next 3 3 (znth yy_ec (b2z c)) =? 14) = true); [|lia].
  apply (by_bytes (fun c => yy_next 3 3 (znth yy_ec (b2z c)) =? 14)). vm_compute. reflexivity.
Qed.

(** The state after some text. *)
Fixpoint walk (s : Z) (u : str) : Z := match u with [] => s | c :: r => walk (yy_trans s c) r end.
Lemma walk_app : forall u v s, walk s (u ++ v) = walk (walk s u) v.
Proof. induction u as [|c u IH]; intros v s; [reflexivity|apply IH]. Qed.
Lemma previous_walk : forall v s cp last, fst (previous s v cp last) = walk s v.
Proof.
  induction v as [|c v IH]; intros s cp last; [reflexivity|]. cbn [previous walk]. rewrite IH. reflexivity.
Qed.

(** [s] is where the automaton is after [u]: in its start state before the first
    character, in an accepting state afterwards. *)
Definition at_state (s : Z) (u : str) : Prop := walk 1 u = s /\ (u = [] -> s = 1) /\ (u <> [] -> In s late).
Lemma at_in : forall s u, at_state s u -> In s (1 :: late).
Proof. intros s [|c u] (_ & H1 & H2); [left; symmetry; auto|right; apply H2; discriminate]. Qed.
Lemma at_jam : forall s u c, at_state s u -> yy_trans s c = 14 -> In s late /\ u <> [].
Proof.
  intros s [|x u] c (_ & H1 & H2) J.
  - rewrite (H1 eq_refl) in J. pose proof (late_not_jam _ (trans_first c)). contradiction.
  - split; [apply H2|]; discriminate.
Qed.
Lemma at_step : forall s u c, at_state s u -> yy_trans s c <> 14 -> at_state (yy_trans s c) (u ++ [c]).
Proof.
  intros s u c (H0 & H1 & H2) J. split; [rewrite walk_app, H0; reflexivity|]. split.
  - intro E. apply app_eq_nil in E as [_ E]. discriminate.
  - intros _. destruct u as [|x u].
    + rewrite (H1 eq_refl). apply trans_first.
    + destruct (trans_late s c) as [E|E]; [apply H2; discriminate|contradiction|exact E].
Qed.

Lemma munch_unfold : forall s r cur last, munch s r cur last =
  let last' := if znth yy_accept s =? 0 then last else Some (znth yy_accept s, rev cur, r) in
  match r with [] => last' | c :: r' => if yy_trans s c =? 14 then last' else munch (yy_trans s c) r' (c :: cur) last' end.
Proof. intros s [|c r] cur last; reflexivity. Qed.
Lemma munch_last : forall s r cur l1 l2, In s late -> munch s r cur l1 = munch s r cur l2.
Proof.
  intros s r cur l1 l2 Hs. rewrite (munch_unfold s r cur l1), (munch_unfold s r cur l2).
  replace (znth yy_accept s =? 0) with false by (pose proof (accept_late s Hs); lia). reflexivity.
Qed.
Lemma munch_at : forall s u c r, at_state s u -> yy_trans s c <> 14 ->
  munch s (c :: r) (rev u) None = munch (yy_trans s c) r (rev (u ++ [c])) None.
Proof.
  intros s u c r Hs J. rewrite munch_unfold. cbn zeta. replace (yy_trans s c =? 14) with false by lia.
  rewrite rev_unit. apply munch_last. destruct (at_step s u c Hs J) as (_ & _ & H). apply H.
  intro E. apply app_eq_nil in E as [_ E]. discriminate.
Qed.
Lemma munch_jam : forall s u c r, at_state s u -> yy_trans s c = 14 ->
  munch s (c :: r) (rev u) None = Some (znth yy_accept s, u, c :: r).
Proof.
  intros s u c r Hs J. destruct (at_jam s u c Hs J) as [Hl _]. rewrite munch_unfold. cbn zeta.
  replace (yy_trans s c =? 14) with true by lia.
  replace (znth yy_accept s =? 0) with false by (pose proof (accept_late s Hl); lia). rewrite rev_involutive. reflexivity.
Qed.
Lemma munch_end : forall s u, at_state s u -> u <> [] -> munch s [] (rev u) None = Some (znth yy_accept s, u, []).
Proof.
  intros s u (_ & _ & Hs) N. specialize (Hs N). rewrite munch_unfold. cbn zeta.
  replace (znth yy_accept s =? 0) with false by (pose proof (accept_late s Hs); lia). rewrite rev_involutive. reflexivity.
Qed.
(** What is matched begins with what was read. *)
Lemma munch_begins : forall r s u, at_state s u -> u ++ r <> [] ->
  exists a t rest, munch s r (rev u) None = Some (a, t, rest) /\ u ++ r = t ++ rest /\ (length u <= length t)%nat /\ t <> [].
Proof.
  induction r as [|c r IH]; intros s u Hs N.
  - rewrite app_nil_r in *. rewrite munch_end by auto. exists (znth yy_accept s), u, []. rewrite app_nil_r. auto.
  - destruct (Z.eq_dec (yy_trans s c) 14) as [J|J].
    + rewrite munch_jam by auto. exists (znth yy_accept s), u, (c :: r). split; [reflexivity|]. split; [reflexivity|].
      split; [lia|]. apply (at_jam s u c Hs J).
    + rewrite munch_at by auto. destruct (IH (yy_trans s c) (u ++ [c])) as (a & t & rest & E & F & G & K).
      * apply at_step; auto.
      * rewrite <- app_assoc. destruct u; discriminate.
      * exists a, t, rest. rewrite <- app_assoc in F. rewrite app_length in G. cbn [length] in G.
        split; [exact E|]. split; [exact F|]. split; [lia|exact K].
Qed.

(** Where the automaton stops in the buffer. *)
Lemma run_stop : forall w s u cp last src, at_state s u ->
  exists w1 w2 s1, w = w1 ++ w2 /\ at_state s1 (u ++ w1) /\
    munch s (w ++ src) (rev u) None = munch s1 (w2 ++ src) (rev (u ++ w1)) None /\
    ((exists c w3, w2 = c :: w3 /\ yy_trans s1 c = 14 /\ run s (w ++ [EOB; EOB]) cp last = Ok (Some (s1, cp + length w1)%nat)) \/
     ((w2 = [] \/ exists w3, w2 = EOB :: w3) /\ run s (w ++ [EOB; EOB]) cp last = Ok (Some (3, S (cp + length w1))))).
Proof.
  induction w as [|c w IH]; intros s u cp last src Hs.
  - exists [], [], s. rewrite (app_nil_r u). split; [reflexivity|]. split; [exact Hs|]. split; [reflexivity|]. right.
    split; [left; reflexivity|]. cbn [app run length]. change (znth yy_ec (b2z EOB)) with 0. rewrite (to_eob s (at_in s u Hs)).
    change (3 =? 14) with false. cbn iota. change (yy_next 3 3 0) with 14. cbn [Z.eqb Pos.eqb]. unfold accepting at 1.
    change (znth yy_accept 3 =? 0) with false. cbn iota. repeat f_equal. lia.
  - cbn [app run]. destruct (nul c) eqn:Ec.
    + exists [], (c :: w), s. rewrite (app_nil_r u). split; [reflexivity|]. split; [exact Hs|]. split; [reflexivity|]. right.
      rewrite (nul_eob c Ec). split; [right; eauto|]. change (znth yy_ec (b2z EOB)) with 0.
      rewrite (to_eob s (at_in s u Hs)). change (3 =? 14) with false. cbn iota.
      destruct (w ++ [EOB; EOB]) as [|d v] eqn:E; [destruct w; discriminate|]. cbn [run]. rewrite after_eob.
      cbn [Z.eqb Pos.eqb]. unfold accepting at 1. change (znth yy_accept 3 =? 0) with false. cbn iota. cbn [length].
      repeat f_equal. lia.
    + rewrite trans_char by exact Ec. destruct (Z.eq_dec (yy_trans s c) 14) as [J|J].
      * rewrite J. cbn [Z.eqb Pos.eqb]. exists [], (c :: w), s. rewrite (app_nil_r u). split; [reflexivity|]. split; [exact Hs|].
        split; [reflexivity|]. left. exists c, w. split; [reflexivity|]. split; [exact J|]. unfold accepting.
        destruct (at_jam s u c Hs J) as [Hl _].
        replace (znth yy_accept s =? 0) with false by (pose proof (accept_late s Hl); lia). cbn [length]. repeat f_equal. lia.
      * replace (yy_trans s c =? 14) with false by lia.
        destruct (IH (yy_trans s c) (u ++ [c]) (S cp) (accepting s cp last) src (at_step s u c Hs J))
          as (w1 & w2 & s1 & E1 & E2 & E3 & E4).
        exists (c :: w1), w2, s1. rewrite <- app_assoc in E2, E3. cbn [app] in E2, E3. split; [cbn [app]; congruence|].
        split; [exact E2|]. split; [rewrite munch_at by auto; exact E3|]. cbn [length].
        destruct E4 as [(d & w3 & F1 & F2 & F3)|[F1 F3]].
        -- left. exists d, w3. split; [exact F1|]. split; [exact F2|]. rewrite F3. cbn [length]. rewrite <- plus_n_Sm. reflexivity.
        -- right. split; [exact F1|]. rewrite F3. cbn [length]. rewrite <- plus_n_Sm. reflexivity.
Qed.

(** Enlarging the buffer. *)
Definition size_ok (z : Z) : Prop := exists k, 0 <= k <= 30 /\ z = 2 ^ k.
Lemma size_pos : forall z, size_ok z -> 1 <= z <= 2 ^ 30.
Proof.
  intros z (k & Hk & ->). split.
  - pose proof (Z.pow_pos_nonneg 2 k). lia.
  - apply Z.pow_le_mono_r; lia.
Qed.
Lemma size_double : forall z, size_ok z -> z * 2 <= INT_MAX -> size_ok (z * 2).
Proof.
  intros z (k & Hk & ->) H. destruct (Z.eq_dec k 30) as [->|N].
  - exfalso. revert H. vm_compute. intro H. apply H. reflexivity.
  - exists (k + 1). split; [lia|]. rewrite Z.pow_add_r by lia. reflexivity.
Qed.
Lemma grow_fits : forall fuel z moved, size_ok z -> 0 <= moved -> moved + 1 < 2 ^ 30 -> moved + 2 <= z + Z.of_nat fuel ->
  exists z', grow fuel z moved = Ok z' /\ size_ok z' /\ moved + 1 < z'.
Proof.
  induction fuel as [|f IH]; intros z moved Hz Hm Hb Hf; pose proof (size_pos z Hz) as P.
  - cbn [grow]. replace (z - moved - 1 <=? 0) with false by lia. exists z. split; [reflexivity|]. split; [exact Hz|lia].
  - cbn [grow]. destruct (z - moved - 1 <=? 0) eqn:E.
    + cbn zeta. assert (z * 2 <= INT_MAX) as I.
      { destruct Hz as (k & Hk & ->). unfold INT_MAX. destruct (Z.eq_dec k 30) as [->|N]; [lia|].
        assert (2 ^ k <= 2 ^ 29) by (apply Z.pow_le_mono_r; lia). change (2 ^ 29) with 536870912 in *. lia. }
      replace (INT_MAX <? z * 2) with false by lia. replace (z * 2 <=? 0) with false by lia.
      apply IH; auto; [apply size_double; auto|lia].
    + exists z. split; [reflexivity|]. split; [exact Hz|lia].
Qed.
Lemma grow_breaks : forall fuel z moved, size_ok z -> 2 ^ 30 <= moved + 1 -> moved + 2 <= z + Z.of_nat fuel ->
  grow fuel z moved = UB.
Proof.
  induction fuel as [|f IH]; intros z moved Hz Hb Hf; pose proof (size_pos z Hz) as P.
  - lia.
  - cbn [grow]. replace (z - moved - 1 <=? 0) with true by lia. cbn zeta.
    destruct (INT_MAX <? z * 2) eqn:E; [reflexivity|]. replace (z * 2 <=? 0) with false by lia.
    apply IH; auto; [apply size_double; auto; lia|lia].
Qed.

(** The buffer between two refills. *)
Definition buf_ok (b : buf) : Prop :=
  size_ok (size b) /\ Z.of_nat (length (chars b)) + 1 <= size b /\ (text b <= length (chars b))%nat /\
  (stat b = EofPending -> source b = [] /\ text b = length (chars b)).
Definition ahead (b : buf) : str := skipn (text b) (chars b) ++ source b.

(** What [scan] has to deliver for what the automaton matches. *)
Definition limit : Z := 2 ^ 30 - 1.
Definition delivers (m : option (Z * str * str)) (r : res (option (Z * str) * buf)) : Prop :=
  match m with
  | None => exists b', r = Ok (None, b')
  | Some (a, t, rest) =>
      if Z.of_nat (length t) <? limit
      then exists b', r = Ok (Some (a, t), b') /\ buf_ok b' /\ ahead b' = rest
      else r = UB
  end.

Lemma matched_at : forall b u w, skipn (text b) (chars b) = u ++ w -> matched b (text b + length u) = u.
Proof.
  intros b u w E. unfold matched. replace (text b + length u - text b)%nat with (length u) by lia. rewrite E.
  rewrite firstn_app, Nat.sub_diag, firstn_all. apply app_nil_r.
Qed.
Lemma skip_split : forall (l : str) n u w, skipn n l = u ++ w -> skipn (n + length u) l = w.
Proof.
  intros l n u w E. revert l E. induction n as [|n IH]; intros l E.
  - cbn [skipn Nat.add] in *. subst l. rewrite skipn_app, Nat.sub_diag, skipn_all. reflexivity.
  - destruct l as [|c l]; [|exact (IH l E)]. cbn [skipn] in E. symmetry in E. apply app_eq_nil in E as [-> ->]. reflexivity.
Qed.
Lemma view_at : forall b u w, (text b <= length (chars b))%nat -> skipn (text b) (chars b) = u ++ w ->
  view b (text b + length u) = w ++ [EOB; EOB].
Proof.
  intros b u w H E. unfold view. pose proof (f_equal (@length ascii) E) as F. rewrite skipn_length, app_length in F.
  rewrite skipn_app. rewrite (skip_split _ _ u w E).
  replace (text b + length u - length (chars b))%nat with 0%nat by lia. reflexivity.
Qed.

Lemma action_rule : forall rs f b s cp last, In s late ->
  scan rs (S f) b (Action s cp last) = Ok (Some (znth yy_accept s, matched b cp),
    {| chars := chars b; size := size b; text := cp; stat := stat b; source := source b |}).
Proof.
  intros rs f b s cp last Hs. pose proof (accept_late s Hs). cbn [scan].
  replace (znth yy_accept s =? 0) with false by lia. replace (znth yy_accept s =? 8) with false by lia. reflexivity.
Qed.

Lemma opened_same : forall b, chars (opened b) = chars b /\ size (opened b) = size b /\ text (opened b) = text b /\
  source (opened b) = source b /\ (stat (opened b) = EofPending <-> stat b = EofPending) /\ stat (opened b) <> New.
Proof. intros [c z t [| |] s]; cbn; repeat split; auto; discriminate. Qed.

Theorem scan_delivers : forall rs, 1 <= rs -> forall m fuel b s u w last,
  buf_ok b -> skipn (text b) (chars b) = u ++ w -> at_state s u ->
  (length w + 2 * length (source b) <= m)%nat -> (2 * m + 3 <= fuel)%nat ->
  delivers (if match u ++ w ++ source b with [] => true | _ => false end then None else munch s (w ++ source b) (rev u) None)
    (scan rs fuel b (Match s (text b + length u) last)).
Proof.
  intros rs Hrs. induction m as [m IH] using (well_founded_induction lt_wf). intros fuel b s u w last Hb Hw Hs Hm Hf.
  destruct fuel as [|f]; [lia|]. destruct Hb as (Bs & Bn & Bt & Be).
  pose proof (f_equal (@length ascii) Hw) as Lw. rewrite skipn_length, app_length in Lw.
  cbn [scan]. rewrite (view_at b u w Bt Hw).
  destruct (run_stop w s u (text b + length u) last (source b) Hs) as (w1 & w2 & s1 & E1 & E2 & E3 & E4).
  rewrite E3. subst w. rewrite app_length in Lw, Hm. rewrite app_assoc in Hw.
  destruct E4 as [(c & w3 & -> & J & R)|[N R]]; rewrite R; cbn [bind].
  - (* the automaton jams at a character of the buffer *)
    destruct (at_jam s1 (u ++ w1) c E2 J) as [Hl Nn]. destruct f as [|f]; [lia|]. rewrite action_rule by exact Hl.
    cbn [app]. rewrite munch_jam by auto. rewrite <- app_assoc in *.
    replace (match u ++ w1 ++ (c :: w3) ++ source b with [] => true | _ => false end) with false
      by (destruct u; [destruct w1|]; reflexivity). cbn [delivers].
    pose proof (size_pos _ Bs). cbn [length] in Lw. rewrite app_length.
    replace (Z.of_nat (length u + length w1) <? limit) with true by (unfold limit; lia).
    replace (text b + length u + length w1)%nat with (text b + length (u ++ w1))%nat by (rewrite app_length; lia).
    rewrite (matched_at b (u ++ w1) (c :: w3)) by (rewrite <- app_assoc; exact Hw). eexists. split; [reflexivity|].
    split.
    + split; [exact Bs|]. split; [exact Bn|]. cbn [chars text stat source]. split; [rewrite app_length; lia|].
      intro P. apply Be in P. lia.
    + unfold ahead. cbn [chars text source]. rewrite (skip_split _ _ (u ++ w1) (c :: w3)) by (rewrite <- app_assoc; exact Hw).
      reflexivity.
  - (* a NUL of the text, or the end of the buffer *)
    destruct f as [|f]; [lia|]. cbn [scan]. change (znth yy_accept 3 =? 0) with false. change (znth yy_accept 3 =? 8) with true.
    cbn iota. cbn zeta. destruct (opened_same b) as (O1 & O2 & O3 & O4 & O5 & O6). rewrite O1, O3.
    replace (S (text b + length u + length w1) - text b - 1)%nat with (length (u ++ w1)) by (rewrite app_length; lia).
    set (b1 := opened b) in *. 
    assert (skipn (text b1) (chars b1) = (u ++ w1) ++ w2) as Hw1 by (rewrite O1, O3; exact Hw).
    destruct N as [->|(w3 & ->)].
    + (* the end of the buffer *)
      cbn [length] in Lw. replace (S (text b + length u + length w1) <=? length (chars b))%nat with false by lia.
      unfold get_next_buffer. rewrite O1, O3.
      replace (length (chars b) + 1 <? S (text b + length u + length w1))%nat with false by lia.
      replace (S (text b + length u + length w1) - text b - 1)%nat with (length (u ++ w1)) by (rewrite app_length; lia).
      rewrite app_nil_r in Hw. rewrite Hw, firstn_all. cbn zeta. rewrite O2, O4. cbn [app].
      rewrite app_nil_r in Hw1. set (v := u ++ w1) in *.
      assert (u ++ (w1 ++ []) ++ source b = v ++ source b) as -> by (unfold v; rewrite !app_nil_r, app_assoc; reflexivity).
      assert (length v = length u + length w1)%nat as Lv by (apply app_length).
      destruct (stat b1) eqn:St; [congruence| |].
      * destruct (Z_lt_le_dec (Z.of_nat (length v) + 1) (2 ^ 30)) as [Small|Big].
        -- destruct (grow_fits (S (length v)) (size b) (Z.of_nat (length v)) Bs) as (z & G & Gz & Gm); [lia|exact Small|
             pose proof (size_pos _ Bs); lia|]. rewrite G. cbn [bind].
           set (num := Z.to_nat (Z.min (z - Z.of_nat (length v) - 1) rs)).
           assert (1 <= Z.of_nat num <= z - Z.of_nat (length v) - 1) as Hn by (unfold num; lia).
           assert (length (firstn num (source b)) <= num)%nat as Hc by (rewrite firstn_length; lia).
           replace (z + 2 <? Z.of_nat (length v) + Z.of_nat (length (firstn num (source b)))) with false by lia.
           replace (z <? Z.of_nat (length (firstn num (source b))) + Z.of_nat (length v)) with false by lia.
           replace (z <? Z.of_nat (length (firstn num (source b))) + Z.of_nat (length v)) with false by lia.
           cbn [bind].
           destruct (source b) as [|c src] eqn:Src.
           ++ rewrite firstn_nil, skipn_nil. cbn [length] in *. destruct v as [|x v'] eqn:Ev.
              ** cbn [app length]. cbn [delivers]. eexists. reflexivity.
              ** cbn [length]. cbn [app]. cbn [text chars stat source size].
                 set (b2 := {| chars := x :: v' ++ []; size := z; text := 0; stat := EofPending; source := [] |}).
                 assert (matched b2 (length (x :: v' ++ [])) = x :: v') as Mt.
                 { unfold matched, b2. cbn [text chars]. rewrite Nat.sub_0_r. cbn [skipn]. rewrite app_nil_r. apply firstn_all. }
                 rewrite Mt. pose proof (previous_walk (x :: v') 1 0 None) as W.
                 destruct (previous 1 (x :: v') 0 None) as [s2 last2]. cbn [fst] in W.
                 destruct E2 as (E2 & E2a & E2b). rewrite E2 in W. subst s2. destruct f as [|f]; [lia|].
                 rewrite action_rule by (apply E2b; discriminate).
                 rewrite Mt. change (munch s1 [] (rev (x :: v')) None) with (munch s1 [] (rev (x :: v')) None).
                 rewrite munch_end; [|split; [exact E2|split; [exact E2a|exact E2b]]|discriminate].
                 cbn [delivers]. replace (Z.of_nat (length (x :: v')) <? limit) with true by (unfold limit; lia).
                 eexists. split; [reflexivity|]. unfold b2. split.
                 --- split; [exact Gz|]. cbn [chars size text stat source]. rewrite app_nil_r. cbn [length] in *. split; [lia|]. split; [lia|].
                     intros _. split; reflexivity.
                 --- unfold ahead. cbn [chars text source]. rewrite skipn_all. reflexivity.
           ++ destruct num as [|num']; [lia|]. cbn [firstn]. cbn iota. cbn [text chars stat source size skipn].
              set (chunk := c :: firstn num' src) in *. set (src' := skipn num' src).
              assert (chunk ++ src' = c :: src) as Cs by (unfold chunk, src'; cbn [app]; rewrite firstn_skipn; reflexivity).
              set (b2 := {| chars := v ++ chunk; size := z; text := 0; stat := Normal; source := src' |}).
              assert (matched b2 (0 + length v) = v) as Mt.
              { apply (matched_at b2 v chunk). reflexivity. }
              rewrite Mt. pose proof (previous_walk v 1 0 None) as W.
              destruct (previous 1 v 0 None) as [s2 last2]. cbn [fst] in W.
              assert (s2 = s1) as -> by (rewrite W; apply E2).
              assert (length (c :: src) = length chunk + length src')%nat as Ls by (rewrite <- Cs; apply app_length).
              assert (1 <= length chunk)%nat as Lc by (unfold chunk; cbn [length]; lia).
              replace (v ++ c :: src) with (v ++ chunk ++ src') by (rewrite Cs; reflexivity).
              change src' with (source b2).
              replace (munch s1 (c :: src) (rev v) None) with (munch s1 (chunk ++ source b2) (rev v) None)
                by (unfold b2; cbn [source]; rewrite Cs; reflexivity).
              change (0 + length v)%nat with (text b2 + length v)%nat.
              apply (IH (m - 1)%nat); try lia.
              ** split; [exact Gz|]. cbn [chars size text stat source]. cbn [length firstn] in Hc, Hn. unfold b2. cbn [chars size text stat source].
                 rewrite app_length. cbn [length] in *. unfold chunk in *. cbn [length] in *. split; [lia|]. split; [lia|]. discriminate.
              ** reflexivity.
              ** exact E2.
              ** unfold b2. cbn [source]. rewrite Ls in Hm. lia.
        -- rewrite grow_breaks; [|exact Bs|exact Big|pose proof (size_pos _ Bs); lia]. cbn [bind].
           destruct (munch_begins (source b) s1 v E2) as (a & t & rest & Em & _ & Lt & _).
           { destruct v; [cbn [length] in Big; lia|discriminate]. }
           replace (match v ++ source b with [] => true | _ => false end) with false
             by (destruct v; [cbn [length] in Big; lia|reflexivity]).
           rewrite Em. cbn [delivers]. replace (Z.of_nat (length t) <? limit) with false by (unfold limit; lia). reflexivity.
      * assert (stat b = EofPending) as P by (apply O5; reflexivity). destruct (Be P) as [Sb Tb].
        destruct v as [|x v']; [|cbn [length] in Lv; lia]. rewrite Sb. cbn [bind app length].
        pose proof (size_pos _ Bs). replace (size b + 2 <? Z.of_nat 0 + Z.of_nat 0) with false by lia.
        replace (size b <? Z.of_nat 0 + Z.of_nat 0) with false by lia.
        replace (size b <? Z.of_nat 0 + Z.of_nat 0) with false by lia. cbn [bind delivers]. eexists. reflexivity.
    + (* a NUL of the text *)
      cbn [length] in Lw. replace (S (text b + length u + length w1) <=? length (chars b))%nat with true by lia.
      rewrite <- O3. rewrite (matched_at b1 (u ++ w1) (EOB :: w3) Hw1).
      pose proof (previous_walk (u ++ w1) 1 (text b1) (Some (3, S (text b1 + length u + length w1)))) as W.
      destruct (previous 1 (u ++ w1) (text b1) (Some (3, S (text b1 + length u + length w1)))) as [s2 last2]. cbn [fst] in W.
      assert (s2 = s1) as -> by (rewrite W; apply E2).
      rewrite <- (trans_nul s1 EOB) by reflexivity.
      replace (match u ++ (w1 ++ EOB :: w3) ++ source b with [] => true | _ => false end) with false
        by (destruct u; [destruct w1|]; reflexivity).
      destruct (Z.eq_dec (yy_trans s1 EOB) 14) as [J|J].
      * replace (yy_trans s1 EOB =? 14) with true by lia. destruct (at_jam s1 (u ++ w1) EOB E2 J) as [Hl Nn].
        unfold accepting. replace (znth yy_accept s1 =? 0) with false by (pose proof (accept_late s1 Hl); lia).
        destruct f as [|f]; [lia|]. rewrite action_rule by exact Hl. cbn [app]. rewrite munch_jam by auto. cbn [delivers].
        pose proof (size_pos _ Bs).
        replace (Z.of_nat (length (u ++ w1)) <? limit) with true by (rewrite app_length; unfold limit; lia).
        rewrite (matched_at b1 (u ++ w1) (EOB :: w3) Hw1). eexists. split; [reflexivity|]. split.
        -- split; [cbn [size]; rewrite O2; exact Bs|]. cbn [chars size text stat source]. rewrite O1, O2. split; [exact Bn|].
           split; [rewrite app_length; lia|]. intro P. apply O5 in P. apply Be in P. lia.
        -- unfold ahead. cbn [chars text source]. rewrite (skip_split _ _ (u ++ w1) (EOB :: w3) Hw1), O4. reflexivity.
      * replace (yy_trans s1 EOB =? 14) with false by lia. cbn [app]. rewrite munch_at by auto.
        replace (S (text b1 + length (u ++ w1)))%nat with (text b1 + length ((u ++ w1) ++ [EOB]))%nat
          by (rewrite (app_length (u ++ w1)); cbn [length]; lia).
        rewrite <- O4.
        assert (forall (x : option (Z * str * str)), x = (if match ((u ++ w1) ++ [EOB]) ++ w3 ++ source b1 with [] => true | _ => false end then None else x)) as Ig.
        { intro x. replace (match ((u ++ w1) ++ [EOB]) ++ w3 ++ source b1 with [] => true | _ => false end) with false; [reflexivity|].
          destruct u; [destruct w1|]; reflexivity. }
        rewrite (Ig (munch _ _ _ _)). cbn [length] in Hm. apply (IH (m - 1)%nat); [lia| | | | |lia].
        -- split; [rewrite O2; exact Bs|]. rewrite O1, O2, O3. split; [exact Bn|]. split; [exact Bt|]. intro P. apply O5 in P. rewrite O4. apply Be in P. exact P.
        -- rewrite Hw1, <- (app_assoc (u ++ w1)). reflexivity.
        -- apply at_step; auto.
        -- rewrite O4. cbn [length] in Hm. lia.
Qed.

(** The pieces (names, numbers, blanks, operators, single characters) a text
    consists of, in the lexical conventions of Lexical.v. *)
Fixpoint pieces_fuel (fuel : nat) (s : str) : list str :=
  match fuel, s with
  | S f, c :: r => snd (fst (first c r)) :: pieces_fuel f (snd (first c r))
  | _, _ => []
  end.
Definition pieces (s : str) : list str := pieces_fuel (length s) s.
Lemma pieces_enough : forall f s, (length s <= f)%nat -> pieces_fuel f s = pieces s.
Proof.
  induction f as [f IH] using (well_founded_induction lt_wf). intros [|c r] Hf.
  - destruct f; reflexivity.
  - cbn [length] in Hf. destruct f as [|f]; [lia|]. unfold pieces. cbn [length pieces_fuel]. f_equal.
    pose proof (first_rest c r). rewrite (IH f) by lia. rewrite (IH (length r)) by lia. reflexivity.
Qed.
Lemma pieces_step : forall c r, pieces (c :: r) = snd (fst (first c r)) :: pieces (snd (first c r)).
Proof. intros c r. unfold pieces at 1. cbn [length pieces_fuel]. f_equal. apply pieces_enough. apply first_rest. Qed.
(** They make up the text. *)
Lemma pieces_concat : forall s, concat (pieces s) = s.
Proof.
  intro s. remember (length s) as n eqn:E. revert s E. induction n as [n IH] using (well_founded_induction lt_wf).
  intros [|c r] E; [reflexivity|]. rewrite pieces_step. cbn [concat]. pose proof (first_rest c r). cbn [length] in E.
  rewrite (IH (length (snd (first c r)))) by (auto; lia). apply first_app.
Qed.

Definition short (p : str) : bool := Z.of_nat (length p) <? limit.
Lemma rule_emit : forall a t, rule a t = emit a t.
Proof.
  intros a t. unfold rule, emit. destruct (a =? 1), (a =? 2), (a =? 3); try reflexivity. destruct (a =? 4) eqn:E; [|reflexivity].
  replace (a =? 5) with false by lia. replace (a =? 6) with false by lia. reflexivity.
Qed.

Theorem rounds_exact : forall rs, 1 <= rs -> forall fuel b, buf_ok b -> (length (ahead b) < fuel)%nat ->
  rounds rs fuel b = if forallb short (pieces (ahead b)) then Ok (lex (ahead b)) else UB.
Proof.
  intros rs Hrs. induction fuel as [|f IH]; intros b Hb Hf; [lia|]. cbn [rounds].
  pose proof (scan_delivers rs Hrs (length (chars b) + 2 * length (source b))
    (2 * (length (chars b) + 2 * length (source b)) + 4) b 1 [] (skipn (text b) (chars b)) None Hb eq_refl) as D.
  cbn [app rev] in D. change (length (@nil ascii)) with 0%nat in D. rewrite Nat.add_0_r in D.
  fold (ahead b) in D. specialize (D ltac:(split; [reflexivity|split; [reflexivity|intro N; contradiction]])).
  specialize (D ltac:(rewrite skipn_length; lia) ltac:(lia)).
  destruct (ahead b) as [|c r] eqn:Ea.
  - cbn [delivers] in D. destruct D as [b' ->]. reflexivity.
  - rewrite munch_first in D. rewrite pieces_step. cbn [forallb]. rewrite lex_step.
    pose proof (first_rest c r) as Lr. destruct (first c r) as [[a t] rest]. cbn [fst snd] in *. cbn [delivers] in D.
    unfold short at 1. destruct (Z.of_nat (length t) <? limit).
    + destruct D as (b' & -> & Hb' & Ha). cbn [bind andb]. rewrite (IH b' Hb') by (rewrite Ha; cbn [length] in Hf; lia).
      rewrite Ha. destruct (forallb short (pieces rest)); [|reflexivity]. cbn [bind]. rewrite rule_emit. reflexivity.
    + rewrite D. reflexivity.
Qed.

Theorem flex_exact : forall k rs s, 0 <= k <= 30 -> 1 <= rs ->
  flex (2 ^ k) rs s = if forallb short (pieces s) then Ok (lex s) else UB.
Proof.
  intros k rs s Hk Hr. unfold flex.
  apply (rounds_exact rs Hr (S (length s)) {| chars := []; size := 2 ^ k; text := 0; stat := New; source := s |}).
  - split; [exists k; auto|]. cbn [chars size text stat source length]. pose proof (Z.pow_pos_nonneg 2 k). split; [lia|]. split; [lia|]. discriminate.
  - unfold ahead. cbn [chars text source skipn app]. lia.
Qed.
