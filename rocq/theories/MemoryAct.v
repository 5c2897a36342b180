(** What a parser action does to the objects of its arguments. *)
From Verif Require Import Base StrMap Policy Scanner Grammar Driver Parser ParserSound ParserRun Memory MemorySpec MemoryInv.
From Coq Require Import ZArith List Ascii Bool Lia ZifyBool ZifyNat Permutation.
Import ListNotations.
Open Scope Z_scope.

Definition olist (p : option nat) : list nat := match p with Some a => [a] | None => [] end.
(** The symbols with a destructor own the object their value points to. *)
Definition owns (x : Z) : bool := (x =? 4) || (x =? 33) || (x =? 34) || (x =? 35).
Definition own_of (x : Z) (v : mval) : list nat := if owns x then olist (snd v) else [].
Definition own_all (xs : list Z) (vs : list mval) : list nat := flat_map (fun e => own_of (fst e) (snd e)) (combine xs vs).
(** A value of a symbol points to an object of the type of the symbol. *)
Definition vt (m : mem) (x : Z) (v : mval) : Prop :=
  if x =? 4 then exists s a, v = (VTok (StrVal s), Some a) /\ at_shape m a = Some CStr
  else if x =? 33 then exists u a, v = (VNum u, Some a) /\ at_shape m a = Some CInt
  else if x =? 34 then exists t a, v = (VTree t, Some a) /\ is_node m a
  else if x =? 35 then (exists l a, v = (VList (Some l), Some a) /\ at_shape m a = Some CVec) \/ v = (VList None, None)
  else match fst v with VTok _ => True | _ => False end.
Definition debt (v : mval) : nat := match fst v with VTree t => below t | _ => O end.
Definition debts (vs : list mval) : nat := fold_right (fun v n => (debt v + n)%nat) O vs.

Lemma vt_grows : forall m m' x v, grows m m' -> vt m x v -> vt m' x v.
Proof.
  unfold vt. intros m m' x v G H.
  destruct (x =? 4); [destruct H as (s & a & -> & H); exists s, a; split; auto; eapply grows_at; eauto|].
  destruct (x =? 33); [destruct H as (s & a & -> & H); exists s, a; split; auto; eapply grows_at; eauto|].
  destruct (x =? 34); [destruct H as (s & a & -> & H); exists s, a; split; auto; eapply grows_node; eauto|].
  destruct (x =? 35); [|exact H]. destruct H as [(s & a & -> & H)|H]; [left; exists s, a; split; auto; eapply grows_at; eauto|right; exact H].
Qed.

(** ** Arguments that are read and deleted *)

Definition plain (k : cell) : Prop := match k with CNode _ _ => False | _ => True end.
Lemma at_plain : forall m a k, plain k -> at_shape m a = Some k -> nth_error (cells m) a = Some k.
Proof. unfold at_shape. intros m a k P H. destruct (nth_error (cells m) a) as [c|]; [|discriminate]. cbn in H. injection H as H. f_equal. destruct c, k; cbn in *; try discriminate; try contradiction; reflexivity. Qed.
Lemma delete_cell_eq : forall k a m, plain k -> at_shape m a = Some k -> delete_cell k (Some a) m = emit (Del a) m.
Proof. intros k a m P H. unfold delete_cell. rewrite (at_plain _ _ _ P H). destruct k; try contradiction; reflexivity. Qed.

Definition okarg (m : mem) (v : mval) (a : nat) : Prop :=
  (exists s, v = (VTok (StrVal s), Some a) /\ at_shape m a = Some CStr) \/
  (exists u, v = (VNum u, Some a) /\ at_shape m a = Some CInt) \/
  (exists l, v = (VList (Some l), Some a) /\ at_shape m a = Some CVec).
Lemma okarg_grows : forall m m' v a, grows m m' -> okarg m v a -> okarg m' v a.
Proof. intros m m' v a G [(x & E & H)|[(x & E & H)|(x & E & H)]]; [left|right; left|right; right]; exists x; split; auto; eapply grows_at; eauto. Qed.
Lemma okarg_del : forall m v a, okarg m v a -> delete_arg v m = emit (Del a) m.
Proof. intros m v a [(x & -> & H)|[(x & -> & H)|(x & -> & H)]]; cbn [delete_arg fst snd]; apply delete_cell_eq; cbn; auto. Qed.
Lemma okarg_addr : forall m v a, okarg m v a -> snd v = Some a.
Proof. intros m v a [(x & -> & H)|[(x & -> & H)|(x & -> & H)]]; reflexivity. Qed.

Lemma reads_step : forall vs reads addrs own lost m, Forall2 (fun i a => okarg m (arg vs i) a) reads addrs ->
  (forall a, In a addrs -> In a own) -> inv own lost m ->
  let m' := fold_left (fun m i => use (snd (arg vs i)) m) reads m in inv own lost m' /\ same m m'.
Proof.
  intros vs. induction reads as [|i reads IH]; intros addrs own lost m F H I; cbn [fold_left].
  - split; [exact I|apply same_refl].
  - inversion F as [|i' a l l' F1 F2]; subst. rewrite (okarg_addr _ _ _ F1). cbn [use].
    destruct (IH l' own lost (emit (Use a) m)) as [I1 S1].
    + exact F2.
    + intros b Hb. apply H. right. exact Hb.
    + apply inv_use; auto. apply in_or_app. left. apply H. left. reflexivity.
    + split; [exact I1|exact S1].
Qed.
Lemma dels_step : forall vs dels addrs pre own lost m, Forall2 (fun i a => okarg m (arg vs i) a) dels addrs ->
  inv (pre ++ addrs ++ own) lost m ->
  let m' := fold_left (fun m i => delete_arg (arg vs i) m) dels m in inv (pre ++ own) lost m' /\ same m m'.
Proof.
  intros vs. induction dels as [|i dels IH]; intros addrs pre own lost m F I; cbn [fold_left].
  - inversion F; subst. split; [exact I|apply same_refl].
  - inversion F as [|i' a l l' F1 F2]; subst. rewrite (okarg_del _ _ _ F1).
    destruct (IH l' pre own lost (emit (Del a) m)) as [I1 S1].
    + exact F2.
    + apply inv_del. eapply inv_perm; [|exact I]. cbn [app]. symmetry. apply Permutation_middle.
    + split; [exact I1|exact S1].
Qed.

Section Act.
Variable mktime : tm -> Z * tm.

(** What the theorem about one action says. *)
Definition act_ok (r : Z) (vs : list mval) (d : driver) (root : option nat) (own lost : list nat) (m : mem)
  (out : res (option (mval * driver)) * option nat * mem) : Prop :=
  let '(o, root', m') := out in
  legal (history m') /\ grows m m' /\
  match o with
  | Ok (Some (v, d')) =>
      action mktime r (map fst vs) d = Ok (Some (fst v, d')) /\
      vt m' (lhs r) v /\ inv (own_of (lhs r) v ++ olist root' ++ own) lost m' /\
      (forall a, root' = Some a -> is_node m' a) /\ (r <> 2 -> root' = root) /\
      (r = 2 -> (exists t a, arg vs 1 = (VTree t, Some a) /\ root' = Some a) /\ length (kids_of m') = length (kids_of m)) /\
      (r <> 2 -> (length (kids_of m') + debts vs = length (kids_of m) + debt v)%nat) /\
      (r <= 5 \/ 23 <= r -> kids_of m' = kids_of m)
  | Ok None => action mktime r (map fst vs) d = Ok None /\ r = 4 /\ root' = root /\ inv (olist root ++ own) lost m' /\ kids_of m' = kids_of m
  | Throw e => action mktime r (map fst vs) d = Throw e /\ root' = root /\ (exists l, inv (own_all (rhs r) vs ++ olist root ++ own) (lost ++ l) m') /\ kids_of m' = kids_of m
  | UB => action mktime r (map fst vs) d = UB
  | Exit => action mktime r (map fst vs) d = Exit
  | NoFuel => action mktime r (map fst vs) d = NoFuel
  end.

(** Rules that read their arguments, make something new and delete the
    arguments. *)
Definition makes (k : made) (out : sval) (x : Z) : Prop :=
  match k with
  | Fresh CInt => x = 33 /\ exists u, out = VNum u
  | Fresh CVec => x = 35 /\ exists l, out = VList (Some l)
  | FreshTree => x = 34 /\ exists t, out = VTree t
  | MaybeVec => x = 35 /\ exists l, out = VList l
  | _ => False
  end.
Lemma make_step : forall k out x vs root own lost m, makes k out x -> inv own lost m ->
  let '(p, root', m') := make k vs out root m in
  root' = root /\ vt m' x (out, p) /\ inv (own_of x (out, p) ++ own) lost m' /\ grows m m' /\
  (length (kids_of m') = length (kids_of m) + debt (out, p))%nat /\ (k <> FreshTree -> kids_of m' = kids_of m).
Proof.
  intros k out x vs root own lost m Hk I. destruct k as [i|i j|c| | |i j|i|i]; try contradiction.
  - destruct c; try contradiction; destruct Hk as (-> & u & ->); cbn [make].
    + unfold alloc. cbn zeta iota. change (Datatypes.length (cells m), {| cells := cells m ++ [CInt]; past := New (length (cells m)) :: past m |}) with (alloc CInt m).
      split; auto. split. { exists u, (length (cells m)). split; auto. apply (at_alloc CInt m). } split; [apply (inv_alloc0 CInt own lost m I Logic.I)|]. split; [apply (grows_alloc CInt m)|].
      assert (kids_of {| cells := cells m ++ [CInt]; past := New (length (cells m)) :: past m |} = kids_of m) as -> by (pose proof (kids_alloc CInt m) as Q; rewrite app_nil_r in Q; exact Q). split; auto.
    + unfold alloc. cbn zeta iota.
      split; auto. split. { left. exists u, (length (cells m)). split; auto. apply (at_alloc CVec m). } split; [apply (inv_alloc0 CVec own lost m I Logic.I)|]. split; [apply (grows_alloc CVec m)|].
      assert (kids_of {| cells := cells m ++ [CVec]; past := New (length (cells m)) :: past m |} = kids_of m) as -> by (pose proof (kids_alloc CVec m) as Q; rewrite app_nil_r in Q; exact Q). split; auto.
  - destruct Hk as (-> & t & ->). cbn [make]. pose proof (alloc_tree_step t own lost m I) as (I1 & G1 & N1 & K1 & _).
    destruct (alloc_tree t m) as [a m1]. cbn [fst snd] in *. split; auto. split; [exists t, a; auto|]. split; [exact I1|]. split; [exact G1|]. split; [exact K1|congruence].
  - destruct Hk as (-> & [l|] & ->); cbn [make].
    + unfold alloc. cbn zeta iota.
      split; auto. split. { left. exists l, (length (cells m)). split; auto. apply (at_alloc CVec m). } split; [apply (inv_alloc0 CVec own lost m I Logic.I)|]. split; [apply (grows_alloc CVec m)|].
      assert (kids_of {| cells := cells m ++ [CVec]; past := New (length (cells m)) :: past m |} = kids_of m) as -> by (pose proof (kids_alloc CVec m) as Q; rewrite app_nil_r in Q; exact Q). split; auto.
    + split; auto. split; [right; reflexivity|]. split; [exact I|]. split; [apply grows_refl|]. split; auto.
Qed.

Lemma fresh_rule : forall r vs d root own lost m reads month k addrs,
  plan r = (reads, month, k, reads) -> r <> 2 -> Forall2 (fun i a => okarg m (arg vs i) a) reads addrs ->
  own_all (rhs r) vs = addrs -> inv (addrs ++ olist root ++ own) lost m -> (forall a, root = Some a -> is_node m a) -> debts vs = O ->
  (forall out d', action mktime r (map fst vs) d = Ok (Some (out, d')) -> makes k out (lhs r)) ->
  (action mktime r (map fst vs) d = Ok None -> r = 4 /\ addrs = [] /\ month = false) ->
  (k = FreshTree -> 5 < r < 23) ->
  act_ok r vs d root own lost m (maction mktime r vs d root m).
Proof.
  intros r vs d root own lost m reads month k addrs Hp H2 F Ho I Hr Hd Hm Hn Hk. unfold maction. rewrite Hp.
  (* the month *)
  assert (exists mo m1, (if month then let '(a, m') := alloc CInt m in (Some a, m') else (None, m)) = (mo, m1) /\
    inv (olist mo ++ addrs ++ olist root ++ own) lost m1 /\ grows m m1 /\ kids_of m1 = kids_of m /\
    (forall a, mo = Some a -> at_shape m1 a = Some CInt) /\ (month = false -> mo = None)) as (mo & m1 & -> & I1 & G1 & K1 & A1 & Mo).
  { destruct month.
    - eexists _, _. unfold alloc. split; [reflexivity|]. split; [apply (inv_alloc0 CInt _ lost m I Logic.I)|]. split; [apply (grows_alloc CInt m)|].
      split. { pose proof (kids_alloc CInt m) as Q; rewrite app_nil_r in Q; exact Q. } split; [|discriminate]. intros a E. injection E as <-. apply (at_alloc CInt m).
    - exists None, m. split; auto. split; auto. split; [apply grows_refl|]. split; auto. split; [discriminate|auto]. }
  assert (Forall2 (fun i a => okarg m1 (arg vs i) a) reads addrs) as F1.
  { clear -F G1. induction F; constructor; auto. eapply okarg_grows; eauto. }
  destruct (reads_step vs reads addrs _ lost m1 F1 (fun a Ha => in_or_app (olist mo) _ a (or_intror (in_or_app addrs _ a (or_introl Ha)))) I1) as [I2 S2]. cbv zeta in I2, S2.
  set (m2 := fold_left (fun m i => use (snd (arg vs i)) m) reads m1) in *.
  assert (grows m m2) as G2 by (eapply grows_trans; [exact G1|apply same_grows; exact S2]).
  assert (kids_of m2 = kids_of m) as K2 by (rewrite (same_kids _ _ S2); exact K1).
  destruct (action mktime r (map fst vs) d) as [[[out d']|]| | | |] eqn:Ea.
  - specialize (Hm out d' eq_refl). pose proof (make_step k out (lhs r) vs root _ lost m2 Hm I2) as M.
    destruct (make k vs out root m2) as [[p root'] m3]. destruct M as (-> & M1 & M2 & M3 & M4 & M5).
    destruct (dels_step vs reads addrs (own_of (lhs r) (out, p) ++ olist mo) (olist root ++ own) lost m3) as [I4 S4].
    { clear -F1 S2 M3. assert (grows m1 m3) as G by (eapply grows_trans; [apply same_grows; exact S2|exact M3]). clear S2 M3. induction F1; constructor; auto. eapply okarg_grows; eauto. }
    { rewrite <- !app_assoc. exact M2. }
    cbv zeta in I4, S4. set (m4 := fold_left (fun m i => delete_arg (arg vs i) m) reads m3) in *.
    assert (inv (own_of (lhs r) (out, p) ++ olist root ++ own) lost (delete_cell CInt mo m4) /\ same m4 (delete_cell CInt mo m4)) as [I5 S5].
    { destruct mo as [a|]; [|split; [rewrite <- app_assoc in I4; exact I4|apply same_refl]].
      rewrite delete_cell_eq; [|exact Logic.I|].
      - split; [|apply same_emit]. apply inv_del. eapply inv_perm; [|exact I4]. rewrite <- app_assoc. cbn [olist app]. symmetry. apply Permutation_middle.
      - rewrite (same_at _ _ _ S4). eapply grows_at; [exact M3|]. rewrite (same_at _ _ _ S2). apply A1. reflexivity. }
    assert (same m3 (delete_cell CInt mo m4)) as S6 by (eapply same_trans; eauto).
    unfold act_ok. split; [exact (i_legal _ _ _ I5)|]. split; [eapply grows_trans; [exact G2|]; eapply grows_trans; [exact M3|apply same_grows; exact S6]|].
    split; [exact Ea|]. split; [eapply vt_grows; [apply same_grows; exact S6|exact M1]|]. split; [exact I5|]. split; [|split; [auto|split; [congruence|split]]].
    + intros a E. eapply grows_node; [|apply Hr; exact E]. eapply grows_trans; [exact G2|]. eapply grows_trans; [exact M3|apply same_grows; exact S6].
    + intros _. rewrite (same_kids _ _ S6), M4, K2, Hd. lia.
    + intro H5. rewrite (same_kids _ _ S6), M5, K2; auto. intro E. specialize (Hk E). lia.
  - destruct (Hn eq_refl) as (-> & -> & ->). rewrite (Mo eq_refl). cbn [delete_cell]. unfold act_ok.
    split; [exact (i_legal _ _ _ I2)|]. split; [exact G2|]. split; auto. split; auto. split; auto. split; [|exact K2].
    rewrite (Mo eq_refl) in I2. exact I2.
  - unfold act_ok. split; [exact (i_legal _ _ _ I2)|]. split; auto. split; auto. split; auto. split; [|exact K2].
    rewrite Ho. destruct mo as [a|]; [|exists []; rewrite app_nil_r; exact I2]. exists [a]. apply inv_lose. exact I2.
  - unfold act_ok. split; [exact (i_legal _ _ _ I2)|]. split; auto.
  - unfold act_ok. split; [exact (i_legal _ _ _ I2)|]. split; auto.
  - unfold act_ok. split; [exact (i_legal _ _ _ I2)|]. split; auto.
Qed.

Lemma tree_out : forall m out d', tree_of m = Ok (Some (out, d')) -> makes FreshTree out 34.
Proof. unfold tree_of. intros [[t d]| | | |] out d' H; cbn in H; try discriminate. injection H as <- <-. split; eauto. Qed.
Lemma tree_some : forall m, tree_of m <> Ok None.
Proof. unfold tree_of. intros [[t d]| | | |] H; cbn in H; discriminate. Qed.

Ltac args := repeat match goal with
  | H : Forall2 _ (_ :: _) _ |- _ => let b := fresh "b" in let m := fresh "l" in let Hb := fresh "Hb" in
      inversion H as [|? b ? m Hb]; clear H; subst
  | H : Forall2 _ [] _ |- _ => inversion H; clear H; subst
  end.
Ltac types := repeat match goal with
  | H : vt _ 4 _ |- _ => let s := fresh "s" in let a := fresh "a" in let A := fresh "A" in destruct H as (s & a & -> & A)
  | H : vt _ 33 _ |- _ => let s := fresh "u" in let a := fresh "a" in let A := fresh "A" in destruct H as (s & a & -> & A)
  | H : vt _ 34 _ |- _ => let s := fresh "t" in let a := fresh "a" in let A := fresh "A" in destruct H as (s & a & -> & A)
  | H : vt ?m ?x ?b |- _ => lazymatch x with 35 => fail | _ =>
      let w := fresh "w" in let p := fresh "p" in destruct b as [w p]; change (match w with VTok _ => True | _ => False end) in H; destruct w; try contradiction; clear H end
  end.
Ltac ok1 := first [left; eexists; split; [reflexivity|assumption] | right; left; eexists; split; [reflexivity|assumption] | right; right; eexists; split; [reflexivity|assumption]].
Ltac oks := repeat (constructor; [ok1|]); constructor.

Lemma maction_step : forall r vs d root own lost m, 2 <= r <= 28 -> Forall2 (vt m) (rhs r) vs ->
  inv (own_all (rhs r) vs ++ olist root ++ own) lost m -> (forall a, root = Some a -> is_node m a) ->
  act_ok r vs d root own lost m (maction mktime r vs d root m).
Proof.
  intros r vs d root own lost m Hr F I Hroot.
  assert (In r (map Z.of_nat (seq 2 27))) as Ir. { apply in_map_iff. exists (Z.to_nat r). split; [lia|]. apply in_seq. lia. }
  clear Hr. cbn in Ir.
  repeat (destruct Ir as [<-|Ir]; [cbn [rhs] in F, I; args; types; cbn [own_all combine flat_map own_of fst snd owns] in I|]); try contradiction.
  - (* set_policy *)
    cbn in I. unfold maction. cbn [plan fold_left map fst action]. cbn [make arg nth snd].
    destruct root as [b|].
    + assert (inv (b :: a :: own) lost m) as I1 by (eapply inv_perm; [|exact I]; apply perm_swap).
      destruct (inv_delete b (a :: own) lost m I1 (Hroot b eq_refl)) as [I2 S2]. cbv zeta in I2, S2. cbn [delete_cell].
      split; [exact (i_legal _ _ _ I2)|]. split; [apply same_grows; exact S2|]. split; [reflexivity|]. split; [exact Logic.I|]. split; [exact I2|].
      split; [intros c E; injection E as <-; eapply grows_node; [apply same_grows; exact S2|assumption]|].
      split; [congruence|]. split; [intros _; split; [exists t, a; auto|rewrite (same_kids _ _ S2); auto]|]. split; [congruence|]. intros _. apply (same_kids _ _ S2).
    + cbn [delete_cell]. split; [exact (i_legal _ _ _ I)|]. split; [apply grows_refl|]. split; [reflexivity|]. split; [exact Logic.I|]. split; [exact I|].
      split; [intros c E; injection E as <-; assumption|]. split; [congruence|]. split; [intros _; split; [exists t, a; auto|auto]|]. split; [congruence|]. auto.
  - (* set_attrlist *)
    unfold maction. cbn [plan fold_left map fst snd action]. destruct Hb0 as [(l & a & -> & A)| -> ].
    + cbn in I. cbn [make arg nth snd use fst set_attrlist]. 
      assert (inv (olist root ++ own) lost (emit (Del a) (emit (Use a) m))) as I1.
      { apply inv_del. apply inv_use; auto. left. reflexivity. }
      assert (delete_cell CVec (Some a) (emit (Use a) m) = emit (Del a) (emit (Use a) m)) as E by (apply delete_cell_eq; cbn; auto).
      cbn [bind]. rewrite E. cbn [delete_cell].
      split; [exact (i_legal _ _ _ I1)|]. split; [apply same_grows; apply (same_trans _ (emit (Use a) m)); apply same_emit|]. split; [reflexivity|].
      split; [exact Logic.I|]. split; [exact I1|]. split; [exact Hroot|]. split; [auto|]. split; [lia|]. split; auto.
    + cbn in I. cbn [fst set_attrlist bind]. split; [exact (i_legal _ _ _ I)|]. split; [apply grows_refl|]. reflexivity.
  - eapply (fresh_rule 4); [reflexivity|lia|oks|reflexivity|exact I|exact Hroot|reflexivity| | |discriminate]; cbn [map fst action].
    + intros out d' H. destruct v, v1; try discriminate. destruct (check_valid_bit _ _); [|discriminate]. injection H as <- <-. split; eauto.
    + auto.
  - eapply (fresh_rule 5); [reflexivity|lia|oks|reflexivity|exact I|exact Hroot|reflexivity| | |discriminate]; cbn [map fst action].
    + intros out d' H. destruct v; try discriminate. injection H as <- <-. split; eauto.
    + intro H. destruct v; discriminate.
  - eapply (fresh_rule 6); [reflexivity|lia|oks|reflexivity|exact I|exact Hroot|reflexivity|intros out d' H; exact (tree_out _ _ _ H)|intro H; exfalso; exact (tree_some _ H)|lia].
  - (* a gate over two trees *)
    unfold maction. cbn [plan fold_left map fst snd action make arg nth]. cbn in I.
    pose proof (alloc_node [a0; a] (olist root ++ own) lost m I ltac:(repeat constructor; assumption)) as (I1 & G1 & N1 & K1 & _).
    destruct (alloc (CNode 1 [a0; a]) m) as [c m1] eqn:Ec. cbn [fst snd length] in *. cbn [delete_cell].
    split; [exact (i_legal _ _ _ I1)|]. split; [exact G1|]. split; [reflexivity|]. split; [eexists _, c; auto|]. split; [exact I1|].
    split; [intros b E; eapply grows_node; [exact G1|auto]|]. split; [auto|]. split; [lia|]. split; [|lia]. intros _. rewrite K1. cbn [debts fold_right debt fst].
    unfold below. rewrite (size_kids (kof2_tree _ t0 t)). cbn. unfold debt, below. cbn [fst]. rewrite ?(size_kids t0), ?(size_kids t). cbn [pred]. lia.
  - (* a gate over two trees *)
    unfold maction. cbn [plan fold_left map fst snd action make arg nth]. cbn in I.
    pose proof (alloc_node [a0; a] (olist root ++ own) lost m I ltac:(repeat constructor; assumption)) as (I1 & G1 & N1 & K1 & _).
    destruct (alloc (CNode 1 [a0; a]) m) as [c m1] eqn:Ec. cbn [fst snd length] in *. cbn [delete_cell].
    split; [exact (i_legal _ _ _ I1)|]. split; [exact G1|]. split; [reflexivity|]. split; [eexists _, c; auto|]. split; [exact I1|].
    split; [intros b E; eapply grows_node; [exact G1|auto]|]. split; [auto|]. split; [lia|]. split; [|lia]. intros _. rewrite K1. cbn [debts fold_right debt fst].
    unfold below. rewrite (size_kids (kof2_tree _ t0 t)). cbn. unfold debt, below. cbn [fst]. rewrite ?(size_kids t0), ?(size_kids t). cbn [pred]. lia.
  - eapply (fresh_rule 9); [reflexivity|lia|oks|reflexivity|exact I|exact Hroot|reflexivity|intros out d' H; exact (tree_out _ _ _ H)|intro H; exfalso; exact (tree_some _ H)|lia].
  - eapply (fresh_rule 10); [reflexivity|lia|oks|reflexivity|exact I|exact Hroot|reflexivity|intros out d' H; exact (tree_out _ _ _ H)|intro H; exfalso; exact (tree_some _ H)|lia].
  - eapply (fresh_rule 11); [reflexivity|lia|oks|reflexivity|exact I|exact Hroot|reflexivity|intros out d' H; exact (tree_out _ _ _ H)|intro H; exfalso; exact (tree_some _ H)|lia].
  - eapply (fresh_rule 12); [reflexivity|lia|oks|reflexivity|exact I|exact Hroot|reflexivity|intros out d' H; exact (tree_out _ _ _ H)|intro H; exfalso; exact (tree_some _ H)|lia].
  - eapply (fresh_rule 13); [reflexivity|lia|oks|reflexivity|exact I|exact Hroot|reflexivity|intros out d' H; exact (tree_out _ _ _ H)|intro H; exfalso; exact (tree_some _ H)|lia].
  - unfold maction. cbn [plan fold_left map fst snd action make arg nth delete_cell]. cbn in I.
    split; [exact (i_legal _ _ _ I)|]. split; [apply grows_refl|]. split; [reflexivity|]. split; [exists t, a; auto|]. split; [exact I|].
    split; [exact Hroot|]. split; [auto|]. split; [lia|]. split; [cbn; lia|auto].
  - eapply (fresh_rule 15); [reflexivity|lia|oks|reflexivity|exact I|exact Hroot|reflexivity|intros out d' H; exact (tree_out _ _ _ H)|intro H; exfalso; exact (tree_some _ H)|lia].
  - eapply (fresh_rule 16); [reflexivity|lia|oks|reflexivity|exact I|exact Hroot|reflexivity|intros out d' H; exact (tree_out _ _ _ H)|intro H; exfalso; exact (tree_some _ H)|lia].
  - eapply (fresh_rule 17); [reflexivity|lia|oks|reflexivity|exact I|exact Hroot|reflexivity|intros out d' H; exact (tree_out _ _ _ H)|intro H; exfalso; exact (tree_some _ H)|lia].
  - eapply (fresh_rule 18); [reflexivity|lia|oks|reflexivity|exact I|exact Hroot|reflexivity|intros out d' H; exact (tree_out _ _ _ H)|intro H; exfalso; exact (tree_some _ H)|lia].
  - eapply (fresh_rule 19); [reflexivity|lia|oks|reflexivity|exact I|exact Hroot|reflexivity|intros out d' H; exact (tree_out _ _ _ H)|intro H; exfalso; exact (tree_some _ H)|lia].
  - eapply (fresh_rule 20); [reflexivity|lia|oks|reflexivity|exact I|exact Hroot|reflexivity|intros out d' H; exact (tree_out _ _ _ H)|intro H; exfalso; exact (tree_some _ H)|lia].
  - eapply (fresh_rule 21); [reflexivity|lia|oks|reflexivity|exact I|exact Hroot|reflexivity|intros out d' H; exact (tree_out _ _ _ H)|intro H; exfalso; exact (tree_some _ H)|lia].
  - eapply (fresh_rule 22); [reflexivity|lia|oks|reflexivity|exact I|exact Hroot|reflexivity|intros out d' H; exact (tree_out _ _ _ H)|intro H; exfalso; exact (tree_some _ H)|lia].
  - eapply (fresh_rule 23); [reflexivity|lia|oks|reflexivity|exact I|exact Hroot|reflexivity| | |discriminate]; cbn [map fst action].
    + intros out d' H. destruct (leaf_attr d s) as [[l d1]| | | |]; try discriminate. injection H as <- <-. split; eauto.
    + intro H. destruct (leaf_attr d s) as [[l d1]| | | |]; discriminate.
  - (* concat_attr with nothing *)
    unfold maction. cbn [plan fold_left]. destruct Hb0 as [(l & a & -> & A)| -> ]; cbn in I; cbn [map fst snd action make arg nth delete_cell].
    + split; [exact (i_legal _ _ _ I)|]. split; [apply grows_refl|]. split; [reflexivity|]. split; [left; eexists _, a; auto|]. split; [exact I|].
      split; [exact Hroot|]. split; [auto|]. split; [lia|]. split; auto.
    + pose proof (inv_alloc0 CVec _ _ _ I Logic.I) as I1. pose proof (at_alloc CVec m) as A1. pose proof (grows_alloc CVec m) as G1. pose proof (kids_alloc CVec m) as K1. rewrite app_nil_r in K1.
      unfold alloc in *. cbn [fst snd] in *.
      split; [exact (i_legal _ _ _ I1)|]. split; [exact G1|]. split; [reflexivity|]. split; [left; eexists _, _; auto|]. split; [exact I1|].
      split; [intros b E; eapply grows_node; [exact G1|auto]|]. split; [auto|]. split; [lia|]. split; [intros _; rewrite K1; cbn [debts fold_right debt fst]; lia|auto].
  - unfold maction. cbn [plan fold_left]. destruct Hb as [(l & a & -> & A)| -> ]; cbn in I; cbn [map fst snd action make arg nth delete_cell].
    + split; [exact (i_legal _ _ _ I)|]. split; [apply grows_refl|]. split; [reflexivity|]. split; [left; eexists _, a; auto|]. split; [exact I|].
      split; [exact Hroot|]. split; [auto|]. split; [lia|]. split; auto.
    + pose proof (inv_alloc0 CVec _ _ _ I Logic.I) as I1. pose proof (at_alloc CVec m) as A1. pose proof (grows_alloc CVec m) as G1. pose proof (kids_alloc CVec m) as K1. rewrite app_nil_r in K1.
      unfold alloc in *. cbn [fst snd] in *.
      split; [exact (i_legal _ _ _ I1)|]. split; [exact G1|]. split; [reflexivity|]. split; [left; eexists _, _; auto|]. split; [exact I1|].
      split; [intros b E; eapply grows_node; [exact G1|auto]|]. split; [auto|]. split; [lia|]. split; [intros _; rewrite K1; cbn [debts fold_right debt fst]; lia|auto].
  - (* concat_attr *)
    unfold maction. cbn [plan fold_left].
    destruct Hb as [(l & a & -> & A)| -> ], Hb1 as [(l' & a' & -> & A')| -> ]; cbn in I; cbn [map fst snd action make arg nth delete_cell delete_arg].
    + assert (delete_cell CVec (Some a') (emit (Use a) (emit (Use a') m)) = emit (Del a') (emit (Use a) (emit (Use a') m))) as E by (apply delete_cell_eq; cbn; auto).
      cbn [delete_cell] in E. rewrite E.
      assert (inv (a :: olist root ++ own) lost (emit (Del a') (emit (Use a) (emit (Use a') m)))) as I1.
      { apply inv_del. eapply inv_perm; [apply perm_swap|]. apply inv_use; [apply inv_use; [exact I|]|]; apply in_or_app; cbn; auto. }
      split; [exact (i_legal _ _ _ I1)|]. split; [apply same_grows; do 2 (eapply same_trans; [|apply same_emit]); apply same_emit|].
      split; [reflexivity|]. split; [left; eexists _, a; auto|]. split; [exact I1|].
      split; [exact Hroot|]. split; [auto|]. split; [lia|]. split; auto.
    + split; [exact (i_legal _ _ _ I)|]. split; [apply grows_refl|]. split; [reflexivity|]. split; [left; eexists _, a; auto|]. split; [exact I|].
      split; [exact Hroot|]. split; [auto|]. split; [lia|]. split; auto.
    + pose proof (inv_alloc0 CVec _ _ _ I Logic.I) as I0. pose proof (at_alloc CVec m) as A1. pose proof (grows_alloc CVec m) as G1. pose proof (kids_alloc CVec m) as K1. rewrite app_nil_r in K1.
      pose proof (grows_at _ _ _ _ G1 A') as A2.
      unfold alloc in *. cbn [fst snd] in *. set (a := length (cells m)) in *. set (m1 := {| cells := _; past := _ |}) in *.
      assert (delete_cell CVec (Some a') (emit (Use a) (emit (Use a') m1)) = emit (Del a') (emit (Use a) (emit (Use a') m1))) as E by (apply delete_cell_eq; cbn; auto).
      cbn [delete_cell] in E. rewrite E.
      assert (inv (a :: olist root ++ own) lost (emit (Del a') (emit (Use a) (emit (Use a') m1)))) as I1.
      { apply inv_del. eapply inv_perm; [apply perm_swap|]. apply inv_use; [apply inv_use; [exact I0|]|]; apply in_or_app; cbn; auto. }
      assert (grows m (emit (Del a') (emit (Use a) (emit (Use a') m1)))) as G2 by (eapply grows_trans; [exact G1|]; apply same_grows; do 2 (eapply same_trans; [|apply same_emit]); apply same_emit).
      split; [exact (i_legal _ _ _ I1)|]. split; [exact G2|].
      split; [reflexivity|]. split; [left; eexists _, a; auto|]. split; [exact I1|].
      split; [intros b Eb; eapply grows_node; [exact G2|auto]|]. split; [auto|]. split; [lia|].
      assert (kids_of (emit (Del a') (emit (Use a) (emit (Use a') m1))) = kids_of m) as -> by exact K1. split; auto.
    + pose proof (inv_alloc0 CVec _ _ _ I Logic.I) as I1. pose proof (at_alloc CVec m) as A1. pose proof (grows_alloc CVec m) as G1. pose proof (kids_alloc CVec m) as K1. rewrite app_nil_r in K1.
      unfold alloc in *. cbn [fst snd] in *.
      split; [exact (i_legal _ _ _ I1)|]. split; [exact G1|]. split; [reflexivity|]. split; [left; eexists _, _; auto|]. split; [exact I1|].
      split; [intros b E; eapply grows_node; [exact G1|auto]|]. split; [auto|]. split; [lia|]. split; [intros _; rewrite K1; cbn [debts fold_right debt fst]; lia|auto].
  - eapply (fresh_rule 27); [reflexivity|lia|oks|reflexivity|exact I|exact Hroot|reflexivity| | |discriminate]; cbn [map fst action].
    + intros out d' H. destruct (attr_num d s u) as [l d1]. injection H as <- <-. split; eauto.
    + intro H. destruct (attr_num d s u) as [l d1]. discriminate.
  - eapply (fresh_rule 28); [reflexivity|lia|oks|reflexivity|exact I|exact Hroot|reflexivity| | |discriminate]; cbn [map fst action].
    + intros out d' H. destruct (set_date_in_attrlist _ _ _ _ _ _ _) as [l d1]. injection H as <- <-. split; eauto.
    + intro H. destruct (set_date_in_attrlist _ _ _ _ _ _ _) as [l d1]. discriminate.
Qed.
End Act.
