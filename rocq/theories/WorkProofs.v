(** How much the scanner does for a text. *)
From Verif Require Import Base Dec Scanner PolicySyntax Lexical ParserTop ScannerProofs Buffer BufferProofs Work.
From Coq Require Import ZArith ArithRing List Ascii Bool Lia ZifyBool ZifyNat.
Import ListNotations.
Open Scope Z_scope.

(** ** The whole text in the buffer *)
Lemma munch_work_bound : forall r s u a t rest, at_state s u -> munch s r (rev u) None = Some (a, t, rest) ->
  (length u + munch_work s r <= length t + 1)%nat.
Proof.
  induction r as [|c r IH]; intros s u a t rest Hs M.
  - cbn [munch_work]. destruct u as [|x u].
    + cbn. lia.
    + rewrite munch_end in M by (auto; discriminate). injection M as _ <- _. lia.
  - cbn [munch_work]. destruct (Z.eq_dec (yy_trans s c) 14) as [J|J].
    + replace (yy_trans s c =? 14) with true by lia. rewrite munch_jam in M by auto. injection M as _ <- _. lia.
    + replace (yy_trans s c =? 14) with false by lia. rewrite munch_at in M by auto.
      pose proof (IH _ _ _ _ _ (at_step s u c Hs J) M) as H. rewrite app_length in H. cbn [length] in H. lia.
Qed.
Lemma at_start : at_state 1 [].
Proof. split; [reflexivity|]. split; [reflexivity|]. intro N. contradiction. Qed.
Theorem lex_work_bound : forall f s, (lex_work f s <= 2 * length s)%nat.
Proof.
  induction f as [|f IH]; intros [|c r]; cbn [lex_work]; try (cbn; lia).
  pose proof (munch_first c r) as M. pose proof (first_app c r) as A.
  destruct (first c r) as [[a t] rest] eqn:F. cbn [fst snd] in A.
  pose proof (munch_work_bound (c :: r) 1 [] a t rest at_start) as W. cbn [rev] in W. rewrite M in W. specialize (W eq_refl). rewrite M.
  pose proof (IH rest). pose proof (f_equal (@length ascii) A) as Q. rewrite app_length in Q. pose proof (first_rest c r) as R. rewrite F in R. cbn [snd] in R.
  cbn [length] in *. lia.
Qed.

(** ** Through the buffer *)
Definition reached (s : Z) : bool := (3 <=? s) && (s <=? 13).
Lemma accept_reached : forall s, reached s = true -> znth yy_accept s =? 0 = false.
Proof.
  intros s H. assert (In s [3; 4; 5; 6; 7; 8; 9; 10; 11; 12; 13]) as I by (unfold reached in H; cbn [In]; lia).
  cbn [In] in I. repeat (destruct I as [<-|I]; [reflexivity|]). contradiction.
Qed.
Lemma next_reached : forall s c, s = 1 \/ reached s = true ->
  yy_next 3 s (znth yy_ec (b2z c)) = 14 \/ reached (yy_next 3 s (znth yy_ec (b2z c))) = true.
Proof.
  intros s c H. assert (In s [1; 3; 4; 5; 6; 7; 8; 9; 10; 11; 12; 13]) as I by (unfold reached in H; cbn [In]; lia).
  assert ((yy_next 3 s (znth yy_ec (b2z c)) =? 14) || reached (yy_next 3 s (znth yy_ec (b2z c))) = true) as Q.
  { apply (by_state_byte (fun s c => (yy_next 3 s (znth yy_ec (b2z c)) =? 14) || reached (yy_next 3 s (znth yy_ec (b2z c)))) [1; 3; 4; 5; 6; 7; 8; 9; 10; 11; 12; 13]); [vm_compute; reflexivity|exact I]. }
  apply orb_prop in Q as [Q|Q]; [left; lia|right; exact Q].
Qed.
Lemma run_work_exact : forall v s cp last s' cp', reached s = true -> run s v cp last = Ok (Some (s', cp')) ->
  (cp + run_work s v = cp' + 1)%nat.
Proof.
  induction v as [|c v IH]; intros s cp last s' cp' Hs R; [discriminate|]. cbn [run] in R. cbn [run_work]. unfold accepting in R.
  rewrite (accept_reached s Hs) in R. destruct (next_reached s c (or_intror Hs)) as [J|J].
  - rewrite J in *. cbn [Z.eqb Pos.eqb] in *. injection R as <- <-. lia.
  - replace (yy_next 3 s (znth yy_ec (b2z c)) =? 14) with false in * by (unfold reached in J; lia).
    pose proof (IH _ _ _ _ _ J R). lia.
Qed.
Lemma run_work_start : forall v s u cp last s' cp', at_state s u -> run s v cp last = Ok (Some (s', cp')) ->
  (cp + run_work s v = cp' + 1)%nat.
Proof.
  intros v s u cp last s' cp' Hs R. pose proof (at_in s u Hs) as I. destruct (Z.eq_dec s 1) as [->|N].
  - destruct v as [|c v]; [discriminate|]. cbn [run] in R. cbn [run_work].
    destruct (next_reached 1 c (or_introl eq_refl)) as [J|J].
    + exfalso. assert ((yy_next 3 1 (znth yy_ec (b2z c)) =? 14) = false) as Q; [|lia].
      apply negb_true_iff. apply (by_bytes (fun c => negb (yy_next 3 1 (znth yy_ec (b2z c)) =? 14))). vm_compute. reflexivity.
    + replace (yy_next 3 1 (znth yy_ec (b2z c)) =? 14) with false in * by (unfold reached in J; lia).
      pose proof (run_work_exact _ _ _ _ _ _ J R). lia.
  - eapply run_work_exact; [|exact R]. cbn [In late] in I. unfold reached. lia.
Qed.

Lemma nul_alone : forall s u, at_state s u -> yy_trans s EOB <> 14 -> u = [].
Proof.
  intros s [|x u] (_ & _ & H) J; [reflexivity|]. specialize (H ltac:(discriminate)). exfalso. apply J.
  cbn in H. repeat (destruct H as [<-|H]; [reflexivity|]). contradiction.
Qed.
Lemma action_work : forall rs f b s cp last, In s late -> scan_work rs f b (Action s cp last) = O.
Proof.
  intros rs [|f] b s cp last Hs; [reflexivity|]. pose proof (accept_late s Hs). cbn [scan_work].
  replace (znth yy_accept s =? 0) with false by lia. replace (znth yy_accept s =? 8) with false by lia. reflexivity.
Qed.

Definition fresh (u : str) : nat := match u with [] => 1 | _ => 0 end.
Lemma arith_refill : forall r v ch W x s1 fu fv T K, (r <= T + 2 -> v <= T -> 1 <= ch -> W + x * K <= (s1 + 2 + fv) * K -> fv <= fu -> K = 3 * T + 5 ->
  r + (v + ch + v + W) + x * K <= (ch + s1 + 2 + fu) * K)%nat.
Proof.
  intros r v ch W x s1 fu fv T K Hr Hv Hc H Hf HK.
  assert ((s1 + 2 + fv) * K <= (s1 + 2 + fu) * K)%nat by (apply Nat.mul_le_mono_nonneg_r; lia).
  assert (K + (ch - 1) <= ch * K)%nat by (destruct ch as [|ch]; [lia|]; cbn [Nat.mul]; assert (ch * 1 <= ch * K)%nat by (apply Nat.mul_le_mono_nonneg_l; lia); lia).
  replace ((ch + s1 + 2 + fu) * K)%nat with (ch * K + (s1 + 2 + fu) * K)%nat by ring. lia.
Qed.
Lemma arith_stop : forall r x s fu T K, (r <= 3 * T + 5 -> x <= s -> K = 3 * T + 5 -> r + x * K <= (s + 2 + fu) * K)%nat.
Proof.
  intros r x s fu T K Hr Hx HK. assert (x * K <= s * K)%nat by (apply Nat.mul_le_mono_nonneg_r; lia).
  replace ((s + 2 + fu) * K)%nat with (s * K + (2 + fu) * K)%nat by ring. cbn [Nat.add Nat.mul]. lia.
Qed.
(** The work for one match: proportional to the longest piece, for every character
    taken from the stream and a few times more. *)
Theorem scan_cost : forall rs, 1 <= rs -> forall T m fuel b s u w last,
  buf_ok b -> skipn (text b) (chars b) = u ++ w -> at_state s u ->
  (length w + 2 * length (source b) <= m)%nat -> (2 * m + 3 <= fuel)%nat ->
  (forall a t rest, munch s (w ++ source b) (rev u) None = Some (a, t, rest) -> (length t <= T)%nat) ->
  forall o b', scan rs fuel b (Match s (text b + length u) last) = Ok (o, b') ->
  (scan_work rs fuel b (Match s (text b + length u) last) + length (source b') * (3 * T + 5) <=
   (length (source b) + 2 + fresh u) * (3 * T + 5))%nat.
Proof.
  intros rs Hrs T. induction m as [m IH] using (well_founded_induction lt_wf). intros fuel b s u w last Hb Hw Hs Hm Hf HT o b' Hr.
  destruct fuel as [|f]; [lia|]. destruct Hb as (Bs & Bn & Bt & Be).
  pose proof (f_equal (@length ascii) Hw) as Lw. rewrite skipn_length, app_length in Lw.
  cbn [scan] in Hr. cbn [scan_work]. rewrite (view_at b u w Bt Hw) in *.
  destruct (run_stop w s u (text b + length u) last (source b) Hs) as (w1 & w2 & s1 & E1 & E2 & E3 & E4).
  assert (length (u ++ w1) <= T)%nat as Lt.
  { destruct (u ++ w1) as [|x y] eqn:Eq; [cbn; lia|]. rewrite <- Eq in *.
    destruct (munch_begins (w2 ++ source b) s1 (u ++ w1) E2) as (a & t & rest & M1 & M2 & M3 & M4); [rewrite Eq; discriminate|].
    rewrite <- E3 in M1. apply HT in M1. lia. }
  rewrite E3 in HT. subst w. rewrite app_length in Lw, Hm. rewrite app_assoc in Hw.
  assert (length (u ++ w1) = length u + length w1)%nat as Lv by apply app_length.
  set (K := (3 * T + 5)%nat) in *.
  destruct E4 as [(c & w3 & -> & J & R)|[N R]]; pose proof (run_work_start _ s u _ _ _ _ Hs R) as RW; rewrite R in *; cbn [bind] in *.
  - (* the automaton jams at a character of the buffer *)
    destruct (at_jam s1 (u ++ w1) c E2 J) as [Hl Nn]. destruct f as [|f]; [lia|]. rewrite action_rule in Hr by exact Hl.
    injection Hr as _ <-. rewrite action_work by exact Hl. cbn [source]. apply (arith_stop _ _ _ _ T); [lia|lia|reflexivity].
  - (* a NUL of the text, or the end of the buffer *)
    destruct f as [|f]; [lia|]. cbn [scan] in Hr. cbn [scan_work]. change (znth yy_accept 3 =? 0) with false in *. change (znth yy_accept 3 =? 8) with true in *.
    cbn iota in *. cbn zeta in *. destruct (opened_same b) as (O1 & O2 & O3 & O4 & O5 & O6). rewrite O1, O3 in *.
    replace (S (text b + length u + length w1) - text b - 1)%nat with (length (u ++ w1)) in * by lia.
    set (b1 := opened b) in *. 
    assert (skipn (text b1) (chars b1) = (u ++ w1) ++ w2) as Hw1 by (rewrite O1, O3; exact Hw).
    destruct N as [->|(w3 & ->)].
    + (* the end of the buffer *)
      cbn [length] in Lw. replace (S (text b + length u + length w1) <=? length (chars b))%nat with false in * by lia.
      unfold get_next_buffer in *. rewrite O1, O3 in *.
      replace (length (chars b) + 1 <? S (text b + length u + length w1))%nat with false in * by lia.
      replace (S (text b + length u + length w1) - text b - 1)%nat with (length (u ++ w1)) in * by lia.
      rewrite app_nil_r in Hw. rewrite Hw, firstn_all in *. cbn zeta in *. rewrite O2, O4 in *. cbn [app] in *.
      rewrite app_nil_r in Hw1. set (v := u ++ w1) in *.
      destruct (stat b1) eqn:St; [congruence| |].
      * destruct (Z_lt_le_dec (Z.of_nat (length v) + 1) (2 ^ 30)) as [Small|Big].
        -- destruct (grow_fits (S (length v)) (size b) (Z.of_nat (length v)) Bs) as (z & G & Gz & Gm); [lia|exact Small|
             pose proof (size_pos _ Bs); lia|]. rewrite G in *. cbn [bind] in *.
           set (num := Z.to_nat (Z.min (z - Z.of_nat (length v) - 1) rs)) in *.
           assert (1 <= Z.of_nat num <= z - Z.of_nat (length v) - 1) as Hn by (unfold num; lia).
           assert (length (firstn num (source b)) <= num)%nat as Hc by (rewrite firstn_length; lia).
           replace (z + 2 <? Z.of_nat (length v) + Z.of_nat (length (firstn num (source b)))) with false in * by lia.
           replace (z <? Z.of_nat (length (firstn num (source b))) + Z.of_nat (length v)) with false in * by lia.
           replace (z <? Z.of_nat (length (firstn num (source b))) + Z.of_nat (length v)) with false in * by lia.
           cbn [bind] in *.
           destruct (source b) as [|c src] eqn:Src.
           ++ rewrite firstn_nil, skipn_nil in *. cbn [length] in *. destruct v as [|x v'] eqn:Ev.
              ** cbn [app length] in *. injection Hr as _ <-. cbn [source chars length]. apply (arith_stop _ _ _ _ T); [lia|lia|reflexivity].
              ** cbn [length] in *. cbn [app] in *. cbn [text chars stat source size] in *.
                 set (b2 := {| chars := x :: v' ++ []; size := z; text := 0; stat := EofPending; source := [] |}) in *.
                 assert (matched b2 (length (x :: v' ++ [])) = x :: v') as Mt.
                 { unfold matched, b2. cbn [text chars]. rewrite Nat.sub_0_r. cbn [skipn]. rewrite app_nil_r. apply firstn_all. }
                 rewrite Mt in *. pose proof (previous_walk (x :: v') 1 0 None) as W.
                 destruct (previous 1 (x :: v') 0 None) as [s2 last2]. cbn [fst] in W.
                 destruct E2 as (E2 & E2a & E2b). rewrite E2 in W. subst s2. destruct f as [|f]; [lia|].
                 rewrite action_rule in Hr by (apply E2b; discriminate). rewrite action_work by (apply E2b; discriminate).
                 injection Hr as _ <-. unfold b2. cbn [source length]. rewrite (app_nil_r v'). apply (arith_stop _ _ _ _ T); [lia|lia|reflexivity].
           ++ destruct num as [|num']; [lia|]. cbn [firstn] in *. cbn iota in *. cbn [text chars stat source size skipn] in *.
              set (chunk := c :: firstn num' src) in *. set (src' := skipn num' src) in *.
              assert (chunk ++ src' = c :: src) as Cs by (unfold chunk, src'; cbn [app]; rewrite firstn_skipn; reflexivity).
              set (b2 := {| chars := v ++ chunk; size := z; text := 0; stat := Normal; source := src' |}) in *.
              assert (matched b2 (0 + length v) = v) as Mt.
              { apply (matched_at b2 v chunk). reflexivity. }
              rewrite Mt in *. pose proof (previous_walk v 1 0 None) as W.
              destruct (previous 1 v 0 None) as [s2 last2]. cbn [fst] in W.
              assert (s2 = s1) as -> by (rewrite W; apply E2).
              assert (length (c :: src) = length chunk + length src')%nat as Ls by (rewrite <- Cs; apply app_length).
              assert (1 <= length chunk)%nat as Lc by (unfold chunk; cbn [length]; lia).
              change (0 + length v)%nat with (text b2 + length v)%nat in *.
              assert (buf_ok b2) as Ok2.
              { split; [exact Gz|]. cbn [chars size text stat source]. cbn [length firstn] in Hc, Hn. unfold b2. cbn [chars size text stat source].
                rewrite app_length. cbn [length] in *. unfold chunk in *. cbn [length] in *. split; [lia|]. split; [lia|]. discriminate. }
              assert (length chunk + 2 * length (source b2) <= m - 1)%nat as Hm2 by (unfold b2; cbn [source]; lia).
              assert (forall a t rest, munch s1 (chunk ++ source b2) (rev v) None = Some (a, t, rest) -> (length t <= T)%nat) as HT2.
              { intros a t rest M. apply (HT a t rest). rewrite <- M. unfold b2. cbn [source]. rewrite Cs. reflexivity. }
              pose proof (IH (m - 1)%nat ltac:(lia) f b2 s1 v chunk last2 Ok2 eq_refl E2 Hm2 ltac:(lia) HT2 o b' Hr) as D.
              assert (length (chars b2) = length v + length chunk)%nat as Lb by (unfold b2; cbn [chars]; apply app_length).
              assert (fresh v <= fresh u)%nat as Fv by (unfold v, fresh; destruct u; [destruct w1; cbn; lia|cbn; lia]).
              assert (length (source b2) = length src') as Lsb by reflexivity. rewrite Lsb in D. rewrite app_length, Ls.
              apply (arith_refill _ _ _ _ _ _ _ (fresh v) T); [lia|exact Lt|exact Lc|exact D|exact Fv|reflexivity].
        -- rewrite grow_breaks in Hr; [discriminate|exact Bs|exact Big|pose proof (size_pos _ Bs); lia].
      * assert (stat b = EofPending) as P by (apply O5; reflexivity). destruct (Be P) as [Sb Tb].
        destruct v as [|x v']; [|cbn [length] in Lv; lia]. rewrite Sb in *. cbn [bind app length] in *.
        pose proof (size_pos _ Bs). replace (size b + 2 <? Z.of_nat 0 + Z.of_nat 0) with false in * by lia.
        replace (size b <? Z.of_nat 0 + Z.of_nat 0) with false in * by lia.
        replace (size b <? Z.of_nat 0 + Z.of_nat 0) with false in * by lia. cbn [bind] in *. injection Hr as _ <-. cbn [source chars length].
        apply (arith_stop _ _ _ _ T); [lia|lia|reflexivity].
    + (* a NUL of the text *)
      cbn [length] in Lw. replace (S (text b + length u + length w1) <=? length (chars b))%nat with true in * by lia.
      rewrite <- O3 in *. rewrite (matched_at b1 (u ++ w1) (EOB :: w3) Hw1) in *.
      pose proof (previous_walk (u ++ w1) 1 (text b1) (Some (3, S (text b1 + length u + length w1)))) as W.
      destruct (previous 1 (u ++ w1) (text b1) (Some (3, S (text b1 + length u + length w1)))) as [s2 last2]. cbn [fst] in W.
      assert (s2 = s1) as -> by (rewrite W; apply E2).
      rewrite <- (trans_nul s1 EOB) in * by reflexivity.
      destruct (Z.eq_dec (yy_trans s1 EOB) 14) as [J|J].
      * replace (yy_trans s1 EOB =? 14) with true in * by lia. destruct (at_jam s1 (u ++ w1) EOB E2 J) as [Hl Nn].
        unfold accepting in *. replace (znth yy_accept s1 =? 0) with false in * by (pose proof (accept_late s1 Hl); lia).
        destruct f as [|f]; [lia|]. rewrite action_rule in Hr by exact Hl. rewrite action_work by exact Hl. injection Hr as _ <-. cbn [source].
        rewrite O4. apply (arith_stop _ _ _ _ T); [lia|lia|reflexivity].
      * replace (yy_trans s1 EOB =? 14) with false in * by lia. pose proof (nul_alone s1 (u ++ w1) E2 J) as Z0.
        replace (S (text b1 + length (u ++ w1)))%nat with (text b1 + length ((u ++ w1) ++ [EOB]))%nat in *
          by (rewrite (app_length (u ++ w1)); cbn [length]; lia).
        cbn [length] in Hm.
        assert (buf_ok b1) as Ok1.
        { split; [rewrite O2; exact Bs|]. rewrite O1, O2. split; [exact Bn|]. split; [exact Bt|]. intro P. apply O5 in P. rewrite O4. apply Be in P. exact P. }
        assert (skipn (text b1) (chars b1) = ((u ++ w1) ++ [EOB]) ++ w3) as Hw2 by (rewrite Hw1, <- (app_assoc (u ++ w1)); reflexivity).
        assert (forall a t rest, munch (yy_trans s1 EOB) (w3 ++ source b1) (rev ((u ++ w1) ++ [EOB])) None = Some (a, t, rest) -> (length t <= T)%nat) as HT2.
        { intros a t rest M. apply (HT a t rest). cbn [app]. rewrite munch_at by auto. rewrite <- O4. exact M. }
        pose proof (IH (m - 1)%nat ltac:(lia) f b1 (yy_trans s1 EOB) ((u ++ w1) ++ [EOB]) w3 (accepting s1 (text b1 + length (u ++ w1)) last2) Ok1 Hw2
          (at_step s1 (u ++ w1) EOB E2 J) ltac:(rewrite O4; lia) ltac:(lia) HT2 o b' Hr) as D.
        rewrite Z0 in *. cbn [app length fresh] in *. assert (u = []) as -> by (destruct u; [reflexivity|discriminate]). cbn [fresh]. rewrite O4 in D.
        change (b2z EOB =? 0) with true in *.
        set (W2 := scan_work rs f b1 _) in *. replace ((length (source b) + 2 + 1) * K)%nat with (K + (length (source b) + 2 + 0) * K)%nat by ring. unfold K at 2. lia.
Qed.

(** The whole text: every piece is at most [T] long. *)
Definition pieces_within (T : nat) (s : str) : Prop := forall p, In p (pieces s) -> (length p <= T)%nat.
Lemma source_ahead : forall b, (length (source b) <= length (ahead b))%nat.
Proof. intro b. unfold ahead. rewrite app_length. lia. Qed.
Theorem rounds_cost : forall rs, 1 <= rs -> forall T, Z.of_nat T < limit -> forall fuel b, buf_ok b -> pieces_within T (ahead b) ->
  (rounds_work rs fuel b <= (length (source b) + 3 * length (ahead b) + 3) * (3 * T + 5))%nat.
Proof.
  intros rs Hrs T HTl. induction fuel as [|f IH]; intros b Hb Ht; [cbn; lia|]. cbn [rounds_work].
  set (n := (2 * (length (chars b) + 2 * length (source b)) + 4)%nat).
  pose proof (scan_delivers rs Hrs (length (chars b) + 2 * length (source b)) n b 1 [] (skipn (text b) (chars b)) None Hb eq_refl at_start) as D.
  specialize (D ltac:(rewrite skipn_length; lia) ltac:(unfold n; lia)).
  pose proof (scan_cost rs Hrs T (length (chars b) + 2 * length (source b)) n b 1 [] (skipn (text b) (chars b)) None Hb eq_refl at_start) as C.
  specialize (C ltac:(rewrite skipn_length; lia) ltac:(unfold n; lia)).
  cbn [app rev length] in D, C. rewrite Nat.add_0_r in D, C. fold (ahead b) in D, C.
  assert (forall a t rest, munch 1 (ahead b) [] None = Some (a, t, rest) -> (length t <= T)%nat) as HT.
  { intros a t rest M. destruct (ahead b) as [|c r] eqn:Ea; [discriminate|]. rewrite munch_first in M. apply Ht. rewrite pieces_step. left.
    injection M as M. rewrite M. reflexivity. }
  specialize (C HT). set (W := scan_work rs n b (Match 1 (text b) None)) in *. set (K := (3 * T + 5)%nat) in *.
  pose proof (source_ahead b) as Sa.
  assert (forall o b', scan rs n b (Match 1 (text b) None) = Ok (o, b') -> (W + length (source b') * K <= (length (source b) + 3) * K)%nat) as C'.
  { intros o b' E. specialize (C o b' E). cbn [fresh] in C. replace (length (source b) + 2 + 1)%nat with (length (source b) + 3)%nat in C by lia. exact C. }
  clear C. destruct (ahead b) as [|c r] eqn:Ea.
  - cbn [delivers] in D. destruct D as [b' D]. specialize (C' _ _ D). rewrite D. cbn [length] in *.
    replace ((length (source b) + 3 * 0 + 3) * K)%nat with ((length (source b) + 3) * K)%nat by (f_equal; lia). lia.
  - rewrite munch_first in D. pose proof (first_app c r) as A. pose proof (first_rest c r) as Lr.
    destruct (first c r) as [[a t] rest] eqn:Fr. cbn [fst snd] in A, Lr. cbn [delivers] in D.
    destruct (Z.of_nat (length t) <? limit) eqn:El.
    + destruct D as (b' & D & Hb' & Ha). specialize (C' _ _ D). rewrite D.
      assert (pieces_within T (ahead b')) as Ht'.
      { intros p Hp. apply Ht. rewrite pieces_step, Fr. cbn [fst snd]. right. rewrite <- Ha. exact Hp. }
      specialize (IH b' Hb' Ht'). rewrite Ha in IH. fold K in IH. cbn [length] in *.
      assert ((length (source b') + 3 * length rest + 3) * K <= length (source b') * K + (3 * length r + 3) * K)%nat as I2.
      { replace ((length (source b') + 3 * length rest + 3) * K)%nat with (length (source b') * K + (3 * length rest + 3) * K)%nat by ring.
        apply Nat.add_le_mono_l. apply Nat.mul_le_mono_nonneg_r; lia. }
      replace ((length (source b) + 3 * S (length r) + 3) * K)%nat with ((length (source b) + 3) * K + (3 * length r + 3) * K)%nat by ring. lia.
    + exfalso. assert (length t <= T)%nat; [|unfold limit in *; lia]. apply Ht. rewrite pieces_step, Fr. left. reflexivity.
Qed.

(** Every refill in the middle of a piece scans it again. *)
Theorem scan_least : forall rs, 1 <= rs -> forall m fuel b s u w last,
  buf_ok b -> skipn (text b) (chars b) = u ++ w -> at_state s u ->
  (length w + 2 * length (source b) <= m)%nat -> (2 * m + 3 <= fuel)%nat ->
  Z.of_nat (length (u ++ w ++ source b)) < limit -> ~ In EOB (w ++ source b) ->
  (exists a t, munch s (w ++ source b) (rev u) None = Some (a, t, [])) ->
  let r := Z.of_nat (length (source b)) in
  2 * Z.of_nat (length (u ++ w)) * r + r * r - rs * r <= 2 * rs * Z.of_nat (scan_work rs fuel b (Match s (text b + length u) last)).
Proof.
  intros rs Hrs. induction m as [m IH] using (well_founded_induction lt_wf). intros fuel b s u w last Hb Hw Hs Hm Hf Hl Hn0 HM r.
  destruct (source b) as [|c0 src0] eqn:Src0; [unfold r; cbn [length]; lia|]. rewrite <- Src0 in *.
  destruct fuel as [|f]; [lia|]. destruct Hb as (Bs & Bn & Bt & Be).
  pose proof (f_equal (@length ascii) Hw) as Lw. rewrite skipn_length, app_length in Lw.
  cbn [scan_work]. rewrite (view_at b u w Bt Hw) in *.
  destruct (run_stop w s u (text b + length u) last (source b) Hs) as (w1 & w2 & s1 & E1 & E2 & E3 & E4).
  rewrite E3 in HM. 
  destruct E4 as [(c & w3 & -> & J & R)|[N R]].
  - exfalso. destruct HM as (a & t & M). cbn [app] in M. rewrite munch_jam in M by auto. discriminate.
  - destruct N as [->|(w3 & ->)]; [|exfalso; apply Hn0; rewrite E1; apply in_or_app; left; apply in_or_app; right; left; reflexivity].
    rewrite app_nil_r in E1. subst w1. rewrite R. destruct f as [|f]; [lia|]. cbn [scan_work]. change (znth yy_accept 3 =? 0) with false. change (znth yy_accept 3 =? 8) with true.
    cbn iota. cbn zeta. destruct (opened_same b) as (O1 & O2 & O3 & O4 & O5 & O6). rewrite O1, O3.
    set (b1 := opened b) in *. assert (length (u ++ w) = length u + length w)%nat as Lv by apply app_length.
    replace (S (text b + length u + length w) - text b - 1)%nat with (length (u ++ w)) by lia.
    replace (S (text b + length u + length w) <=? length (chars b))%nat with false by lia.
    unfold get_next_buffer. rewrite O1, O3.
    replace (length (chars b) + 1 <? S (text b + length u + length w))%nat with false by lia.
    replace (S (text b + length u + length w) - text b - 1)%nat with (length (u ++ w)) by lia.
    rewrite Hw, firstn_all. cbn zeta. rewrite O2, O4. cbn [app] in *. set (v := u ++ w) in *.
    rewrite !app_length in Hl. 
    assert (stat b1 = Normal) as St.
    { destruct (stat b1) eqn:St; [congruence|reflexivity|]. assert (stat b = EofPending) as P by (apply O5; reflexivity).
      destruct (Be P) as [Sb _]. congruence. }
    rewrite St.
    destruct (grow_fits (S (length v)) (size b) (Z.of_nat (length v)) Bs) as (z & G & Gz & Gm); [lia|unfold limit in Hl; lia|
      pose proof (size_pos _ Bs); lia|]. rewrite G. cbn [bind].
    set (num := Z.to_nat (Z.min (z - Z.of_nat (length v) - 1) rs)).
    assert (1 <= Z.of_nat num <= z - Z.of_nat (length v) - 1) as Hn by (unfold num; lia).
    assert (Z.of_nat num <= rs) as Hnr by (unfold num; lia).
    assert (length (firstn num (source b)) <= num)%nat as Hc by (rewrite firstn_length; lia).
    replace (z + 2 <? Z.of_nat (length v) + Z.of_nat (length (firstn num (source b)))) with false by lia.
    replace (z <? Z.of_nat (length (firstn num (source b))) + Z.of_nat (length v)) with false by lia.
    replace (z <? Z.of_nat (length (firstn num (source b))) + Z.of_nat (length v)) with false by lia.
    cbn [bind]. unfold r. rewrite Src0 in *. destruct num as [|num']; [lia|]. cbn [firstn skipn] in *. cbn iota. cbn [text chars stat source size].
    set (chunk := c0 :: firstn num' src0) in *. set (src' := skipn num' src0).
    assert (chunk ++ src' = c0 :: src0) as Cs by (unfold chunk, src'; cbn [app]; rewrite firstn_skipn; reflexivity).
    set (b2 := {| chars := v ++ chunk; size := z; text := 0; stat := Normal; source := src' |}).
    assert (matched b2 (0 + length v) = v) as Mt by (apply (matched_at b2 v chunk); reflexivity).
    rewrite Mt. pose proof (previous_walk v 1 0 None) as W. destruct (previous 1 v 0 None) as [s2 last2]. cbn [fst] in W.
    assert (s2 = s1) as -> by (rewrite W; apply E2).
    assert (length (c0 :: src0) = length chunk + length src')%nat as Ls by (rewrite <- Cs; apply app_length).
    assert (1 <= length chunk)%nat as Lc by (unfold chunk; cbn [length]; lia).
    change (0 + length v)%nat with (text b2 + length v)%nat.
    assert (buf_ok b2) as Ok2.
    { split; [exact Gz|]. unfold b2. cbn [chars size text stat source]. rewrite app_length. split; [lia|]. split; [lia|]. discriminate. }
    assert (length chunk + 2 * length (source b2) <= m - 1)%nat as Hm2 by (unfold b2; cbn [source]; lia).
    pose proof (IH (m - 1)%nat ltac:(lia) f b2 s1 v chunk last2 Ok2 eq_refl E2 Hm2 ltac:(lia)) as D.
    specialize (D ltac:(unfold b2; cbn [source]; rewrite Cs, app_length; lia)).
    specialize (D ltac:(unfold b2; cbn [source]; rewrite Cs; intro I; apply Hn0; apply in_or_app; right; exact I)).
    specialize (D ltac:(unfold b2; cbn [source]; rewrite Cs; exact HM)).
    cbn zeta in D. assert (length (source b2) = length src') as Lsb by reflexivity. rewrite Lsb in D. rewrite app_length in D |- *. rewrite Ls.
    set (W2 := scan_work rs f b2 (Match s1 (text b2 + length v) last2)) in *. clearbody W2.
    clear - D Hc Hnr Lc Hrs. 
    assert (Z.of_nat (length chunk) <= rs) as H1 by lia. rewrite !Nat2Z.inj_add in *.
    set (n := Z.of_nat (length chunk)) in *. set (q := Z.of_nat (length src')) in *. set (p := Z.of_nat (length v)) in *. set (x := Z.of_nat W2) in *.
    set (y := Z.of_nat (run_work s (w ++ [EOB; EOB]))) in *.
    assert (0 <= p /\ 0 <= y /\ 1 <= n) as (P0 & P1 & P2) by lia.
    assert (0 <= (rs - n) * (2 * p + n)) as H2 by (apply Z.mul_nonneg_nonneg; lia).
    assert (0 <= rs * (y + p + n)) as H3 by (apply Z.mul_nonneg_nonneg; lia).
    replace (2 * rs * (y + (p + n + p + x))) with (2 * rs * x + 2 * (rs * (y + p + n)) + 2 * rs * p) by ring. 
    replace (2 * p * (n + q) + (n + q) * (n + q) - rs * (n + q)) with (2 * (p + n) * q + q * q - rs * q - (rs - n) * (2 * p + n) + 2 * rs * p) by ring.
    lia.
Qed.
