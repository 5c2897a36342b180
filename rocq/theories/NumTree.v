(** Leaves issued by the driver and the trees it builds for comparisons. *)
From Verif Require Import Base ByteString StrMap Dec UInteger Policy LsssSpec Scanner PolicySyntax Lexical PolicyMeaning Driver NumProofs.
From Coq Require Import ZArith List Ascii Bool Lia ZifyBool ZifyNat Permutation.
Import ListNotations.
Open Scope Z_scope.

(** ** Leaves *)
Lemma leaf_total : forall d c, starts_ok c = true -> exists n d', leaf_node d c = Ok (n, d').
Proof. intros d c H. unfold leaf_node. destruct (check_total c H) as (p & a & ->). cbn [bind]. destruct (mget c (dcount d)); eauto. Qed.
Lemma leaf_inv : forall d c n d', leaf_node d c = Ok (n, d') ->
  exists p a, n = Leaf p a (count_of (dcount d) c) /\ complete_label n = label c /\
    dcount d' = mset c (count_of (dcount d) c + 1) (dcount d) /\
    ddup d' = (match mget c (dcount d) with None => ddup d | Some _ => sins c (ddup d) end) /\
    ddate d' = ddate d /\ dorig d' = dorig d /\ dtext d' = dtext d /\ dispolicy d' = dispolicy d /\
    dpol d' = dpol d /\ dattr d' = dattr d.
Proof.
  intros d c n d' H. unfold leaf_node in H. unfold label, count_of. destruct (check_attribute c) as [[p a]| | | |] eqn:E; cbn [bind] in H; try discriminate.
  exists p, a. destruct (mget c (dcount d)) as [k|]; injection H as <- <-; repeat split; reflexivity.
Qed.

(** [issues d cs ns d']: successive calls of leaf_node. *)
Inductive issues : driver -> list str -> list node -> driver -> Prop :=
| is_nil : forall d, issues d [] [] d
| is_cons : forall d c n d1 cs ns d2, leaf_node d c = Ok (n, d1) -> issues d1 cs ns d2 -> issues d (c :: cs) (n :: ns) d2.
Lemma issues_one : forall d c n d', leaf_node d c = Ok (n, d') -> issues d [c] [n] d'.
Proof. intros. econstructor; eauto. constructor. Qed.
Lemma issues_app : forall d cs ns d1 cs' ns' d2, issues d cs ns d1 -> issues d1 cs' ns' d2 -> issues d (cs ++ cs') (ns ++ ns') d2.
Proof. induction 1; intros; cbn; auto. econstructor; eauto. Qed.
Lemma issues_labels : forall d cs ns d', issues d cs ns d' -> map complete_label ns = map label cs.
Proof.
  induction 1 as [|d c n d1 cs ns d2 H _ IH]; cbn; auto. destruct (leaf_inv _ _ _ _ H) as (p & a & _ & -> & _). f_equal; auto.
Qed.
Lemma issues_keep : forall d cs ns d', issues d cs ns d' ->
  ddate d' = ddate d /\ dorig d' = dorig d /\ dtext d' = dtext d /\ dispolicy d' = dispolicy d /\ dpol d' = dpol d /\ dattr d' = dattr d.
Proof.
  induction 1 as [|d c n d1 cs ns d2 H _ IH]; [tauto|]. destruct (leaf_inv _ _ _ _ H) as (p & a & _ & _ & _ & _ & K1 & K2 & K3 & K4 & K5 & K6).
  rewrite <- K1, <- K2, <- K3, <- K4, <- K5, <- K6. exact IH.
Qed.

(** A tree whose leaves are those issued for the names [cs]. *)
Definition built (d : driver) (cs : list str) (n : node) (d' : driver) : Prop :=
  binary n = true /\ exists ns, issues d cs ns d' /\ Permutation (leaves n) ns.
Lemma built_leaf : forall d c n d', leaf_node d c = Ok (n, d') -> built d [c] n d' /\ complete_label n = label c /\ ntype n = GateLeaf /\ leaves n = [n].
Proof.
  intros d c n d' H. pose proof (issues_one _ _ _ _ H) as I. destruct (leaf_inv _ _ _ _ H) as (p & a & -> & E & _).
  repeat split; auto. eexists. split; [exact I|]. apply Permutation_refl.
Qed.
Lemma binary_gate : forall g a b, binary (Gate g [a; b]) = (match g with GateAnd | GateOr => binary a && binary b | GateLeaf => true | _ => false end).
Proof. intros [] a b; cbn; rewrite ?andb_true_r; reflexivity. Qed.
Lemma leaves_gate : forall g a b, (g = GateAnd \/ g = GateOr) -> leaves (Gate g [a; b]) = leaves a ++ leaves b.
Proof. intros g a b [-> | ->]; cbn; rewrite app_nil_r; reflexivity. Qed.
Lemma built_gate : forall g d cs a d1 cs' b d2, (g = GateAnd \/ g = GateOr) -> built d cs a d1 -> built d1 cs' b d2 ->
  built d (cs ++ cs') (Gate g [a; b]) d2 /\ built d (cs ++ cs') (Gate g [b; a]) d2.
Proof.
  intros g d cs a d1 cs' b d2 G [Ba (na & Ia & Pa)] [Bb (nb & Ib & Pb)].
  split; (split; [rewrite binary_gate; destruct G as [-> | ->]; rewrite Ba, Bb; reflexivity|]);
    exists (na ++ nb); (split; [eapply issues_app; eauto|]); rewrite leaves_gate by auto.
  - apply Permutation_app; auto.
  - etransitivity; [apply Permutation_app_comm|]. apply Permutation_app; auto.
Qed.
Lemma built_labels : forall d cs n d', built d cs n d' -> Permutation (map complete_label (leaves n)) (map label cs).
Proof. intros d cs n d' [_ (ns & I & P)]. rewrite <- (issues_labels _ _ _ _ I). apply Permutation_map, P. Qed.
Lemma kof2_gate : forall k a b, k = 1 \/ k = 2 -> kof2_tree k a b = Gate (if k =? 1 then GateOr else GateAnd) [a; b].
Proof. intros k a b [-> | ->]; reflexivity. Qed.
Lemma sat_gate_and : forall h a b, sat h (Gate GateAnd [a; b]) = sat h a && sat h b.
Proof. intros. cbn. rewrite andb_true_r. reflexivity. Qed.
Lemma sat_gate_or : forall h a b, sat h (Gate GateOr [a; b]) = sat h a || sat h b.
Proof. intros. cbn. rewrite orb_false_r. reflexivity. Qed.
Lemma sat_leaf : forall h n, ntype n = GateLeaf -> sat h n = h (complete_label n).
Proof. intros h [g k p l i ks] H. cbn in H. subst. reflexivity. Qed.

(** ** Comparisons *)
Section Bits.
Lemma mod_succ : forall x i, 0 <= x -> 0 <= i -> x mod 2 ^ (i + 1) = x mod 2 ^ i + (if Z.testbit x i then 2 ^ i else 0).
Proof.
  intros x i Hx Hi. rewrite Z.pow_add_r by lia. change (2 ^ 1) with 2.
  rewrite Z.rem_mul_r by (try lia; apply Z.pow_nonzero; lia).
  pose proof (Z.testbit_spec' x i Hi) as T. destruct (Z.testbit x i); cbn [Z.b2z] in T; rewrite <- T; lia.
Qed.
Lemma mod_bound : forall x i, 0 <= i -> 0 <= x mod 2 ^ i < 2 ^ i.
Proof. intros. apply Z.mod_pos_bound. apply Z.pow_pos_nonneg; lia. Qed.
End Bits.

Definition beyond (gt : bool) (x value : Z) : bool := if gt then value <? x else x <? value.

Lemma beyond_step : forall gt x value i, 0 <= x -> 0 <= value -> 0 <= i ->
  beyond gt (x mod 2 ^ (i + 1)) (value mod 2 ^ (i + 1)) =
  (if Bool.eqb (Z.testbit value i) gt then Bool.eqb (Z.testbit x i) gt && beyond gt (x mod 2 ^ i) (value mod 2 ^ i)
   else Bool.eqb (Z.testbit x i) gt || beyond gt (x mod 2 ^ i) (value mod 2 ^ i)).
Proof.
  intros gt x value i Hx Hv Hi. rewrite !mod_succ by auto.
  pose proof (mod_bound x i Hi). pose proof (mod_bound value i Hi).
  generalize dependent (2 ^ i). intros. unfold beyond.
  destruct gt, (Z.testbit x i), (Z.testbit value i); cbn [Bool.eqb andb orb]; lia.
Qed.

Lemma first_bit_spec : forall f (gt : bool) value i, 0 <= i -> 0 <= value ->
  value mod 2 ^ i = (if gt then 2 ^ i - 1 else 0) ->
  match first_bit f gt value i with
  | Ok k => i <= k < i + Z.of_nat f /\ Z.testbit value k = negb gt /\ value mod 2 ^ k = (if gt then 2 ^ k - 1 else 0)
  | UB => value mod 2 ^ (i + Z.of_nat f) = (if gt then 2 ^ (i + Z.of_nat f) - 1 else 0)
  | _ => False
  end.
Proof.
  induction f as [|f IH]; intros gt value i Hi Hv E; cbn [first_bit].
  - rewrite Z.add_0_r. exact E.
  - destruct (Bool.eqb (Z.testbit value i) gt) eqn:T.
    + apply eqb_prop in T. specialize (IH gt value (i + 1) ltac:(lia) Hv).
      replace (i + Z.of_nat (S f)) with (i + 1 + Z.of_nat f) by lia.
      assert (value mod 2 ^ (i + 1) = (if gt then 2 ^ (i + 1) - 1 else 0)) as E'.
      { rewrite mod_succ, E, T by auto. rewrite Z.pow_add_r by lia. change (2 ^ 1) with 2. destruct gt; lia. }
      specialize (IH E'). destruct (first_bit f gt value (i + 1)); auto. destruct IH as (I1 & I2 & I3). repeat split; auto; lia.
    + repeat split; auto; lia.
Qed.

(** The markers of [c]. *)
Definition marks (c : str) (b : Z) (cs : list str) : Prop :=
  forall s, In s cs -> exists i v, s = marker c b i v /\ 0 <= i < recorded b.
Lemma marks_app : forall c b l l', marks c b l -> marks c b l' -> marks c b (l ++ l').
Proof. intros c b l l' H H' s I. apply in_app_or in I as [I|I]; auto. Qed.
Lemma marks_one : forall c b i v, 0 <= i < recorded b -> marks c b [marker c b i v].
Proof. intros c b i v H s [<-|[]]. eauto. Qed.

Definition cmp_ok (gt : bool) (d : driver) (c : str) (b value : Z) (n : node) (d' : driver) : Prop :=
  (exists cs, built d cs n d' /\ marks c b cs) /\
  (tidy c = true -> forall held x, 0 <= x < 2 ^ b -> encodes held c b x -> sat held n = beyond gt x value).

Lemma levels_ok : forall n gt c b value i p d d0 cs, width_ok b = true -> starts_ok c = true -> 0 <= i -> 0 <= value ->
  i + Z.of_nat n <= recorded b ->
  built d0 cs p d -> marks c b cs ->
  (tidy c = true -> forall held x, 0 <= x -> encodes held c b x -> sat held p = beyond gt (x mod 2 ^ i) (value mod 2 ^ i)) ->
  exists q d' cs', marker_levels n false gt c b value i p d = Ok (q, d') /\ built d0 cs' q d' /\ marks c b cs' /\
  (tidy c = true -> forall held x, 0 <= x -> encodes held c b x ->
     sat held q = beyond gt (x mod 2 ^ (i + Z.of_nat n)) (value mod 2 ^ (i + Z.of_nat n))).
Proof.
  induction n as [|n IH]; intros gt c b value i p d d0 cs Hb Hc Hi Hv Hn Bp Mp Sp; cbn [marker_levels].
  - exists p, d, cs. rewrite Z.add_0_r. auto.
  - rewrite marker_bit by auto.
    destruct (leaf_total d (marker c b i gt) (marker_starts c b i gt Hc)) as (l & d1 & E). rewrite E. cbn [bind].
    destruct (built_leaf _ _ _ _ E) as (Bl & Ll & Tl & _).
    set (k := if gt then if Z.testbit value i then 2 else 1 else if Z.testbit value i then 1 else 2).
    assert (k = 1 \/ k = 2) as Hk by (unfold k; destruct gt, (Z.testbit value i); auto).
    rewrite kof2_gate by auto. set (g := if k =? 1 then GateOr else GateAnd).
    assert (g = GateAnd \/ g = GateOr) as Hg by (unfold g; destruct (k =? 1); auto).
    destruct (built_gate g _ _ _ _ _ _ _ Hg Bp Bl) as [_ Bq].
    destruct (IH gt c b value (i + 1) (Gate g [l; p]) d1 d0 (cs ++ [marker c b i gt])) as (q & d' & cs' & Q1 & Q2 & Q3 & Q4); auto; try lia.
    + apply marks_app; auto. apply marks_one. lia.
    + intros T held x Hx Henc. rewrite beyond_step by lia. specialize (Sp T held x Hx Henc).
      assert (sat held l = Bool.eqb (Z.testbit x i) gt) as Sl.
      { rewrite sat_leaf, Ll, label_tidy by auto using marker_tidy. apply Henc. lia. }
      unfold g, k. destruct gt, (Z.testbit value i); cbn [Z.eqb Pos.eqb Bool.eqb];
        rewrite ?sat_gate_and, ?sat_gate_or, Sl, Sp; reflexivity.
    + exists q, d', cs'. replace (i + Z.of_nat (S n)) with (i + 1 + Z.of_nat n) by lia. auto.
Qed.

Lemma pow_ok : forall b, width_ok b = true -> 0 < b <= 32 /\ 2 ^ b <= 4294967296 /\ 0 < 2 ^ b.
Proof. intros b H. unfold width_ok in H. assert (b = 4 \/ b = 8 \/ b = 16 \/ b = 32) as [-> | [-> | [-> | ->]]] by lia; vm_compute; intuition congruence. Qed.

Lemma bit_list_ok : forall gt d c b value, width_ok b = true -> starts_ok c = true -> 0 <= value <= 2 ^ b ->
  value < 4294967296 -> (gt = true -> value < 2 ^ b /\ value < 4294967295) -> (gt = false -> 0 < value) ->
  exists n d', bit_marker_list d false gt c b value = Ok (n, d') /\ cmp_ok gt d c b value n d'.
Proof.
  intros gt d c b value Hb Hc Hv Hm Hgt Hlt. destruct (pow_ok b Hb) as (B1 & B2 & B3).
  unfold bit_marker_list. pose proof (first_bit_spec 32 gt value 0 ltac:(lia) ltac:(lia)) as F.
  rewrite Z.pow_0_r, Z.mod_1_r in F. specialize (F ltac:(destruct gt; reflexivity)).
  destruct (first_bit 32 gt value 0) as [i| | | |] eqn:Ei; try contradiction.
  2:{ exfalso. change (0 + Z.of_nat 32) with 32 in F. change (2 ^ 32) with 4294967296 in F. rewrite Z.mod_small in F by lia.
      destruct gt; lia. }
  destruct F as (F1 & F2 & F3). change (0 + Z.of_nat 32) with 32 in F1. cbn [bind]. rewrite marker_bit by auto.
  assert (i < recorded b /\ Z.max (i + 1) b <= recorded b /\ value < 2 ^ Z.max (i + 1) b) as (R1 & R2 & R3).
  { assert (2 ^ i <= 2 ^ b) as P.
    { assert (value >= 2 ^ i - 1 /\ (gt = false -> value >= 2 ^ i)) as [V1 V2].
      { pose proof (Z.mod_le value (2 ^ i) ltac:(lia) ltac:(apply Z.pow_pos_nonneg; lia)).
        pose proof (mod_succ value i ltac:(lia) ltac:(lia)) as M. rewrite F3, F2 in M.
        pose proof (Z.mod_le value (2 ^ (i + 1)) ltac:(lia) ltac:(apply Z.pow_pos_nonneg; lia)).
        destruct gt; cbn [negb] in M; split; intros; try discriminate; lia. }
      destruct gt; [specialize (Hgt eq_refl)|specialize (V2 eq_refl)]; lia. }
    assert (i <= b) as Ib. { destruct (Z_le_gt_dec i b); auto. assert (2 ^ b < 2 ^ i) by (apply Z.pow_lt_mono_r; lia). lia. }
    assert (b < 32 -> recorded b = b + 2) as Rb by (unfold recorded; intros; destruct (Z.ltb_spec b 32); lia).
    assert (b = 32 -> recorded b = 32) as Rc by (unfold recorded; intros ->; reflexivity).
    split; [|split]; try lia.
    destruct (Z.eq_dec i b) as [->|Ne].
    - replace (Z.max (b + 1) b) with (b + 1) by lia. rewrite Z.pow_add_r by lia. change (2 ^ 1) with 2. lia.
    - replace (Z.max (i + 1) b) with b by lia.
      destruct (Z.eq_dec value (2 ^ b)) as [->|]; [|lia]. exfalso.
      destruct gt; [specialize (Hgt eq_refl); lia|]. cbn [negb] in F2. rewrite Z.pow2_bits_false in F2 by lia. discriminate. }
  destruct (leaf_total d (marker c b i gt) (marker_starts c b i gt Hc)) as (l & d1 & E). rewrite E. cbn [bind].
  destruct (built_leaf _ _ _ _ E) as (Bl & Ll & Tl & _).
  destruct (levels_ok (Z.to_nat (b - (i + 1))) gt c b value (i + 1) l d1 d [marker c b i gt]) as (q & d' & cs' & Q1 & Q2 & Q3 & Q4); auto; try lia.
  - apply marks_one. lia.
  - intros T held x Hx Henc. rewrite sat_leaf, Ll, label_tidy by auto using marker_tidy.
    rewrite Henc by lia. rewrite beyond_step by lia. rewrite F2, F3.
    replace (Bool.eqb (negb gt) gt) with false by (destruct gt; reflexivity).
    assert (beyond gt (x mod 2 ^ i) (if gt then 2 ^ i - 1 else 0) = false) as ->.
    { pose proof (mod_bound x i ltac:(lia)). unfold beyond. destruct gt; lia. }
    rewrite orb_false_r. reflexivity.
  - exists q, d'. split; auto. split; [eauto|]. intros T held x Hx Henc. rewrite (Q4 T held x) by (auto; lia).
    replace (i + 1 + Z.of_nat (Z.to_nat (b - (i + 1)))) with (Z.max (i + 1) b) by lia.
    rewrite (Z.mod_small value) by lia. rewrite (Z.mod_small x); auto.
    split; [lia|]. eapply Z.lt_le_trans; [apply Hx|]. apply Z.pow_le_mono_r; lia.
Qed.

(** ** Equality *)
Lemma eq_levels_ok : forall i c b value p d d0 cs, width_ok b = true -> starts_ok c = true -> Z.of_nat i < recorded b ->
  built d0 cs p d -> marks c b cs ->
  exists q d' cs', eq_levels i false c b value p d = Ok (q, d') /\ built d0 cs' q d' /\ marks c b cs' /\
  (tidy c = true -> forall held x, encodes held c b x ->
     sat held q = sat held p && forallb (fun j => Bool.eqb (Z.testbit x j) (Z.testbit value j)) (map Z.of_nat (seq 0 i))).
Proof.
  induction i as [|i IH]; intros c b value p d d0 cs Hb Hc Hi Bp Mp; cbn [eq_levels].
  - exists p, d, cs. split; [reflexivity|]. split; [exact Bp|]. split; [exact Mp|]. intros. cbn [seq map forallb]. rewrite andb_true_r. reflexivity.
  - rewrite marker_bit by auto.
    destruct (leaf_total d (marker c b (Z.of_nat i) (Z.testbit value (Z.of_nat i))) (marker_starts _ _ _ _ Hc)) as (l & d1 & E). rewrite E. cbn [bind].
    destruct (built_leaf _ _ _ _ E) as (Bl & Ll & Tl & _). rewrite kof2_gate by auto. cbn [Z.eqb Pos.eqb].
    destruct (built_gate GateAnd _ _ _ _ _ _ _ (or_introl eq_refl) Bp Bl) as [Bq _].
    destruct (IH c b value (Gate GateAnd [p; l]) d1 d0 _ Hb Hc ltac:(lia) Bq) as (q & d' & cs' & Q1 & Q2 & Q3 & Q4).
    + apply marks_app; auto. apply marks_one. lia.
    + exists q, d', cs'. repeat split; auto; try apply Q2. intros T held x Henc. rewrite (Q4 T held x) by auto. rewrite sat_gate_and.
      rewrite (sat_leaf held l), Ll, label_tidy by auto using marker_tidy. rewrite Henc by lia.
      rewrite seq_S, map_app, forallb_app. cbn [map forallb plus]. rewrite andb_true_r.
      destruct (sat held p), (Bool.eqb (Z.testbit x (Z.of_nat i)) (Z.testbit value (Z.of_nat i)));
        cbn [andb]; rewrite ?andb_false_r, ?andb_true_r; reflexivity.
Qed.

Lemma eq_ok : forall d c b value, width_ok b = true -> starts_ok c = true -> 0 <= value < 2 ^ b ->
  exists n d', eq_policy d c {| uval := value; ubits := b |} = Ok (n, d') /\
  (exists cs, built d cs n d' /\ marks c b cs) /\
  (tidy c = true -> forall held x, 0 <= x < 2 ^ b -> encodes held c b x -> sat held n = (x =? value)).
Proof.
  intros d c b value Hb Hc Hv. destruct (pow_ok b Hb) as (B1 & B2 & B3). unfold eq_policy. cbn [uval ubits].
  replace (b =? 0) with false by lia. rewrite marker_bit by auto.
  assert (b <= recorded b) as R by (unfold recorded; destruct (b <? 32); lia).
  destruct (leaf_total d (marker c b (b - 1) (Z.testbit value (b - 1))) (marker_starts _ _ _ _ Hc)) as (l & d1 & E). rewrite E. cbn [bind].
  destruct (built_leaf _ _ _ _ E) as (Bl & Ll & Tl & _).
  destruct (eq_levels_ok (Z.to_nat (b - 1)) c b value l d1 d _ Hb Hc ltac:(lia) Bl) as (q & d' & cs' & Q1 & Q2 & Q3 & Q4).
  { apply marks_one. lia. }
  exists q, d'. split; auto. split; [eauto|]. intros T held x Hx Henc. rewrite (Q4 T held x) by auto.
  rewrite (sat_leaf held l), Ll, label_tidy by auto using marker_tidy. rewrite Henc by lia.
  destruct (Z.eqb_spec x value) as [->|Ne].
  - rewrite eqb_reflx. cbn [andb]. apply forallb_forall. intros j _. apply eqb_reflx.
  - apply not_true_iff_false. intro A. apply Ne. apply andb_prop in A as [A1 A2]. rewrite forallb_forall in A2.
    apply Z.bits_inj'. intros j Hj. destruct (Z_lt_ge_dec j b) as [Lj|Gj].
    + destruct (Z.eq_dec j (b - 1)) as [->|]; [apply eqb_prop; auto|]. apply eqb_prop, A2. apply in_map_iff. exists (Z.to_nat j).
      split; [lia|]. apply in_seq. lia.
    + rewrite <- (Z.mod_small x (2 ^ b)), <- (Z.mod_small value (2 ^ b)) by lia. rewrite !Z.mod_pow2_bits_high by lia. reflexivity.
Qed.

(** ** The five operators *)
Definition rel_op (r : rel) : cmpop := match r with RLt => OpLt | RGt => OpGt | RLe => OpLe | RGe => OpGe | REq => OpEq end.
Definition num_tree (r : rel) (d : driver) (c : str) (b value : Z) (n : node) (d' : driver) : Prop :=
  (exists cs, built d cs n d' /\ marks c b cs) /\
  (tidy c = true -> forall held x, 0 <= x < 2 ^ b -> encodes held c b x -> sat held n = rel_holds r x value).

(** The values a comparison handles: the next or previous value must exist. *)
Definition in_reach (r : rel) (value : Z) : bool :=
  match r with
  | RLt => 0 <? value | RGt => value <? 4294967295 | RLe => value <? 4294967295 | RGe => 0 <? value | REq => true
  end.
Lemma num_policy_ok : forall r d c b value, width_ok b = true -> starts_ok c = true -> 0 <= value < 2 ^ b ->
  in_reach r value = true ->
  exists n d', num_policy (rel_op r) d c {| uval := value; ubits := b |} = Ok (n, d') /\ num_tree r d c b value n d'.
Proof.
  intros r d c b value Hb Hc Hv Hr. destruct (pow_ok b Hb) as (B1 & B2 & B3).
  assert (b =? 0 = false) as Nb by lia.
  destruct r; cbn [rel_op num_policy in_reach] in *;
    unfold lt_policy, gt_policy, le_policy, ge_policy, cmp_policy, uint_add, uint_sub; cbn [uval ubits]; rewrite ?Nb; cbn iota.
  - destruct (bit_list_ok false d c b value) as (n & d' & E & K1 & K2); auto; try lia; try discriminate.
    exists n, d'. split; auto. split; auto.
  - destruct (bit_list_ok true d c b value) as (n & d' & E & K1 & K2); auto; try lia; try discriminate.
    exists n, d'. split; auto. split; auto.
  - change (2 ^ 32) with 4294967296. rewrite Z.mod_small by lia.
    destruct (bit_list_ok false d c b (value + 1)) as (n & d' & E & K1 & K2); auto; try lia; try discriminate.
    exists n, d'. split; auto. split; auto. intros. match goal with X : encodes ?h _ _ ?x |- _ => rewrite (K2 ltac:(assumption) h x) by auto end. unfold beyond, rel_holds. lia.
  - change (2 ^ 32) with 4294967296. rewrite Z.mod_small by lia.
    destruct (bit_list_ok true d c b (value - 1)) as (n & d' & E & K1 & K2); auto; try lia; try discriminate.
    exists n, d'. split; auto. split; auto. intros. match goal with X : encodes ?h _ _ ?x |- _ => rewrite (K2 ltac:(assumption) h x) by auto end. unfold beyond, rel_holds. lia.
  - apply eq_ok; auto.
Qed.

(** Without the attribute the comparison is false. *)
Lemma binary_false : forall n held, binary n = true -> (forall a, In a (leaves n) -> held (complete_label a) = false) -> sat held n = false.
Proof.
  fix IH 1. intros [g k p l i ks] held B H. destruct g; cbn in B; try discriminate.
  - apply H. left. reflexivity.
  - apply andb_prop in B as [L B]. destruct ks as [|a [|b [|]]]; try discriminate. cbn in B. rewrite andb_true_r in B. apply andb_prop in B as [Ba Bb].
    cbn. rewrite (IH a held Ba); [reflexivity|]. intros x I. apply H. cbn. apply in_or_app. auto.
  - apply andb_prop in B as [L B]. destruct ks as [|a [|b [|]]]; try discriminate. cbn in B. rewrite andb_true_r in B. apply andb_prop in B as [Ba Bb].
    cbn. rewrite (IH a held Ba), (IH b held Bb); [reflexivity| |]; intros x I; apply H; cbn; apply in_or_app; [right; apply in_or_app|]; auto.
Qed.
Lemma num_tree_absent : forall r d c b value n d' held, num_tree r d c b value n d' -> width_ok b = true -> tidy c = true ->
  no_value held c b -> sat held n = false.
Proof.
  intros r d c b value n d' held [(cs & B & M) _] Hb T N. apply binary_false; [apply B|].
  intros a I. pose proof (built_labels _ _ _ _ B) as P. apply (in_map complete_label) in I. apply (Permutation_in _ P) in I.
  apply in_map_iff in I as (s & <- & I). destruct (M s I) as (i & v & -> & Hi). rewrite label_tidy by auto using marker_tidy. apply N, Hi.
Qed.
