(** Attribute lists written, read and written back. *)
From Verif Require Import Base ByteString StrMap Dec UInteger Policy Lsss LsssSpec LsssProofs Scanner Grammar PolicySyntax Lexical PolicyMeaning AttrMeaning Driver Parser AttrList ParserSound ParserRun ParserTop ScannerProofs NumProofs NumTree PolicyTruth ParserSafe CreatePolicy CreateAttrs ParserFinal AttrUse PolicyUse PrintParse.
From Coq Require Import ZArith List Ascii Bool Lia ZifyBool ZifyNat Permutation.
Import ListNotations.
Open Scope Z_scope.

(** ** The items are determined by the tokens *)
Definition tail_ok (l : list tok) : Prop := l = [] \/ exists r, l = tk c_bar :: r.
Lemma ntoks_tail : forall n m x y, (forall r, x <> tk c_hash :: r) -> (forall r, y <> tk c_hash :: r) -> ntoks n ++ x = ntoks m ++ y -> n = m /\ x = y.
Proof.
  intros [v [w|]] [v' [w'|]] x y Hx Hy E; cbn [ntoks app] in E; injection E; intros; subst; auto.
  - exfalso. eapply Hy. reflexivity.
  - exfalso. eapply Hx. reflexivity.
Qed.
Lemma tail_hash : forall x, tail_ok x -> forall r, x <> tk c_hash :: r.
Proof. intros x [-> | (r & ->)] r' E; discriminate. Qed.
Lemma itoks_tail : forall i j x y, tail_ok x -> tail_ok y -> itoks i ++ x = itoks j ++ y -> i = j /\ x = y.
Proof.
  intros [s|s n|s m d z] [s'|s' n'|s' m' d' z'] x y Tx Ty E; cbn [itoks app] in E.
  - injection E as -> ->. auto.
  - exfalso. injection E as _ E. destruct Tx as [-> | (r & ->)]; discriminate.
  - exfalso. injection E as _ E. destruct Tx as [-> | (r & ->)]; discriminate.
  - exfalso. injection E as _ E. destruct Ty as [-> | (r & ->)]; discriminate.
  - injection E as -> E. apply ntoks_tail in E as [-> ->]; auto using tail_hash.
  - exfalso. injection E as _ E. destruct n as [v [w|]]; discriminate.
  - exfalso. injection E as _ E. destruct Ty as [-> | (r & ->)]; discriminate.
  - exfalso. injection E as _ E. destruct n' as [v [w|]]; discriminate.
  - injection E as -> -> E. rewrite <- !app_assoc in E. cbn [app] in E. apply ntoks_tail in E as [-> E]; try discriminate. injection E as E.
    apply ntoks_tail in E as [-> ->]; auto using tail_hash.
Qed.
Lemma bars_item : forall n m i j x y, bars n ++ itoks i ++ x = bars m ++ itoks j ++ y -> n = m /\ itoks i ++ x = itoks j ++ y.
Proof.
  induction n as [|n IH]; intros [|m] i j x y E; auto.
  - exfalso. destruct i; discriminate.
  - exfalso. destruct j; discriminate.
  - cbn [bars repeat app] in E. injection E as E. destruct (IH m i j x y E) as [-> K]. auto.
Qed.
Lemma bars_tail : forall k, tail_ok (bars k).
Proof. intros [|k]; [left; reflexivity|right; eexists; reflexivity]. Qed.
Lemma bars_atoks : forall a k, tk c_bar :: atoks a <> bars k.
Proof.
  intros a k E. assert (forall t, In t (atoks a) -> t = tk c_bar) as H.
  { intros t I. assert (In t (bars k)) as J by (rewrite <- E; right; exact I). apply repeat_spec in J. exact J. }
  destruct a as [n i r|n i r]; cbn [atoks] in H; (specialize (H (hd (tk c_bar) (itoks i)))); assert (hd (tk c_bar) (itoks i) <> tk c_bar) as X by (destruct i; discriminate); apply X, H; apply in_or_app; right; apply in_or_app; left; destruct i; left; reflexivity.
Qed.
Lemma atoks_inj : forall a b, atoks a = atoks b -> aitems a = aitems b /\ atrail a = atrail b.
Proof.
  induction a as [n i k|n i r IH]; intros [m j k'|m j r'] E; cbn [atoks aitems atrail] in *; apply bars_item in E as [_ E].
  - apply itoks_tail in E as [-> E]; auto using bars_tail. split; auto. apply (f_equal (@length tok)) in E. unfold bars in E. rewrite !repeat_length in E. exact E.
  - exfalso. apply itoks_tail in E as [-> E]; auto using bars_tail; [|right; eexists; reflexivity]. symmetry in E. eapply bars_atoks; eauto.
  - exfalso. apply itoks_tail in E as [-> E]; auto using bars_tail; [|right; eexists; reflexivity]. eapply bars_atoks; eauto.
  - apply itoks_tail in E as [-> E]; try (right; eexists; reflexivity). injection E as E. destruct (IH _ E) as [-> ->]. auto.
Qed.
Lemma attr_text_unique : forall a b s, attr_text a s -> attr_text b s -> aitems a = aitems b /\ atrail a = atrail b.
Proof.
  intros a b s (r & P & Er) (r' & P' & Er'). apply atoks_inj. apply text_pre_lex in P. apply text_pre_lex in P'.
  assert (forall c, Forall (fun t => yytranslate (fst t) <> 0) (atoks c)) as Z.
  { intro c. eapply Forall_impl; [|exact (good_atoks c)]. intros [k v] [(x & E)|[(x & E)|E]]; cbn [fst] in *.
    - injection E as -> _. vm_compute. discriminate.
    - injection E as -> _. vm_compute. discriminate.
    - cbn in E. decompose [or] E; try contradiction; match goal with H : tk _ = _ |- _ => injection H as <- _ end; vm_compute; discriminate. }
  eapply prefix_same; try apply Z; [apply ended_lex; exact Er|apply ended_lex; exact Er'|]. congruence.
Qed.

(** ** Writing items *)
Definition canon (n : num) : num := let 'Num v w := n in Num v (if width w <? 32 then Some (width w) else None).
Definition canon_item (i : item) : item :=
  match i with IName s => IName s | INum s n => INum s (canon n) | IDate p m d y => IDate p m (canon d) (canon y) end.
Definition show_item (i : item) : str :=
  match i with
  | IName s => s
  | INum s n => s ++ L "=" ++ show_num n
  | IDate p m d y => p ++ L "=" ++ m ++ L " " ++ show_num d ++ L ", " ++ show_num y
  end.
Lemma canon_facts : forall n, num_ok n = true -> num_width (canon n) = num_width n /\ num_val (canon n) = num_val n /\ num_ok (canon n) = true /\
  show_num (canon n) = show_num n.
Proof.
  intros [v w] K. unfold show_num. cbn [canon num_width num_val num_ok] in *. assert (width (if width w <? 32 then Some (width w) else None) = width w) as ->; auto.
  apply andb_prop in K as [K _]. unfold width_ok in K. destruct (width w <? 32) eqn:E; cbn [width]; lia.
Qed.
Lemma num_text : forall n rest, num_range n -> num_ok n = true -> next_is is_digit rest = false ->
  text_pre (ntoks (canon n)) (show_num n ++ rest) rest.
Proof.
  intros [v w] rest R K H. unfold show_num. cbn [canon num_width num_val num_ok num_range] in *. apply andb_prop in K as [K _].
  destruct (width w <? 32) eqn:E; cbn [ntoks].
  - rewrite <- !app_assoc. apply text_step.
    { constructor; auto using dec_digits, dec_nonempty, undec_dec; try lia; [apply dec_nonempty|apply dec_digits|apply undec_dec]; lia. }
    apply text_step; [apply (sp_punct "#"%char); reflexivity|]. apply text_one. unfold width_ok in K.
    constructor; auto; try lia; [apply dec_nonempty|apply dec_digits|apply undec_dec]; lia.
  - rewrite app_nil_r. apply text_one. constructor; auto; try lia; [apply dec_nonempty|apply dec_digits|apply undec_dec]; lia.
Qed.
Lemma not_digit_name : forall f s r, is_name s = true -> (forall c, name_start c = true -> f c = false) -> next_is f (s ++ r) = false.
Proof. intros f [|c s] r N F; [discriminate|]. apply F. unfold is_name, is_word in N. destruct (name_start c); auto; discriminate. Qed.
Lemma ntoks_cons : forall n, exists t r, ntoks n = t :: r.
Proof. intros [v [w|]]; eexists _, _; reflexivity. Qed.
Lemma item_text : forall i rest, item_named i -> item_ok i = true -> quiet rest -> text_pre (itoks (canon_item i)) (show_item i ++ rest) rest.
Proof.
  intros [s|s n|p m d y] rest N K (Q1 & Q2 & Q3); cbn [canon_item itoks show_item item_named item_ok] in *.
  - apply text_one. constructor; auto.
  - destruct N as [N R]. rewrite <- !app_assoc. apply text_step; [constructor; auto|]. apply text_step.
    + apply (sp_char "="%char); [reflexivity|]. unfold show_num. destruct (dec (num_val n)) as [|c l] eqn:E.
      { exfalso. revert E. apply dec_nonempty. destruct n; cbn in *; lia. }
      pose proof (dec_digits (num_val n)) as D. rewrite E in D. cbn [forallb] in D. cbn [app next_is]. unfold is_eq.
      destruct (Ascii.eqb c "=") eqn:X; auto. apply Ascii.eqb_eq in X as ->. destruct n; cbn in *; lia.
    + apply num_text; auto.
  - destruct N as (Np & Nm & Rd & Ry). apply andb_prop in K as [Kd Ky]. rewrite <- !app_assoc. apply text_step; [constructor; auto|]. apply text_step.
    + apply (sp_char "="%char); [reflexivity|]. apply not_digit_name; auto. intros c H. unfold is_eq. destruct (Ascii.eqb c "=") eqn:X; auto. apply Ascii.eqb_eq in X as ->. discriminate.
    + apply text_step; [constructor; auto|].
      assert (text_pre (ntoks (canon d) ++ tk c_comma :: ntoks (canon y)) (show_num d ++ L ", " ++ show_num y ++ rest) rest) as Kt.
      { apply text_pre_app with (s' := L ", " ++ show_num y ++ rest); [apply num_text; auto|].
        change (L ", ") with (L "," ++ L " "). rewrite <- app_assoc. apply text_step; [apply (sp_punct ","%char); reflexivity|].
        pose proof (num_text y rest Ry Ky Q2) as Ty. destruct (ntoks_cons (canon y)) as (t & r & E). rewrite E in *. apply text_skip; [reflexivity|exact Ty]. }
      destruct (ntoks_cons (canon d)) as (t & r & E). rewrite E in *. apply text_skip; [reflexivity|exact Kt].
Qed.

(** ** Writing lists *)
Fixpoint alist_of (lead : nat) (i : item) (l : list item) (trail : nat) : alist :=
  match l with [] => AOne lead i trail | j :: r => AMore lead i (alist_of 0 j r trail) end.
Fixpoint items_text (lead : nat) (i : item) (l : list item) (trail : nat) : str :=
  repeat bar lead ++ show_item i ++ match l with [] => repeat bar trail | j :: r => bar :: items_text 0 j r trail end.
Lemma alist_items : forall l lead i trail, aitems (alist_of lead i l trail) = i :: l /\ atrail (alist_of lead i l trail) = trail.
Proof. induction l as [|j r IH]; intros; cbn [alist_of aitems atrail]; auto. destruct (IH 0%nat j trail) as [-> ->]. auto. Qed.
Lemma bars_text : forall k rest, text_pre (bars k) (repeat bar k ++ rest) rest.
Proof.
  induction k as [|k IH]; intro rest; [constructor|]. cbn [bars repeat app]. apply (text_step (tk c_bar) [bar]); [|apply IH]. apply (sp_punct "|"%char). reflexivity.
Qed.
Lemma list_text : forall l lead i trail, Forall item_named (i :: l) -> items_ok (i :: l) = true ->
  text_pre (atoks (alist_of lead (canon_item i) (map canon_item l) trail)) (items_text lead i l trail) [].
Proof.
  induction l as [|j r IH]; intros lead i trail F K; inversion F as [|? ? N F']; subst; cbn [items_ok forallb] in K; apply andb_prop in K as [Ki Kr];
    cbn [map alist_of atoks items_text].
  - apply text_pre_app with (s' := show_item i ++ repeat bar trail); [apply bars_text|].
    apply text_pre_app with (s' := repeat bar trail); [apply item_text; auto; destruct trail; repeat split|].
    pose proof (bars_text trail []) as T. rewrite app_nil_r in T. exact T.
  - apply text_pre_app with (s' := show_item i ++ bar :: items_text 0 j r trail); [apply bars_text|].
    apply text_pre_app with (s' := bar :: items_text 0 j r trail); [apply item_text; auto; repeat split|].
    apply (text_step (tk c_bar) [bar]); [apply (sp_punct "|"%char); reflexivity|]. apply IH; auto.
Qed.

Section Lists.
Variable mktime : tm -> Z * tm.
Notation day := (day mktime).

Lemma list_made : forall lead i l trail, Forall item_named (i :: l) -> items_ok (i :: l) = true -> (trail <= 1)%nat ->
  exists m, create_attribute_list mktime (items_text lead i l trail) = Ok (Some m) /\
    aattrs m = attrs_of day (map canon_item (i :: l)) /\ aorig m = orig_of (map canon_item (i :: l)).
Proof.
  intros lead i l trail F K T. destruct (alist_items (map canon_item l) lead (canon_item i) trail) as [Ia It].
  destruct (attrs_made mktime (items_text lead i l trail) (alist_of lead (canon_item i) (map canon_item l) trail)) as (m & E & A & O).
  - exists []. split; [apply list_text; auto|left; reflexivity].
  - rewrite It. exact T.
  - rewrite Ia. change (canon_item i :: map canon_item l) with (map canon_item (i :: l)). unfold items_ok in *. apply forallb_forall. intros x I. apply in_map_iff in I as (y & <- & I).
    rewrite forallb_forall in K. specialize (K y I). destruct y as [s|s n|p mm d y]; cbn [canon_item item_ok] in *; auto.
    + apply canon_facts, K.
    + apply andb_prop in K as [K1 K2]. destruct (canon_facts d K1) as (_ & _ & -> & _), (canon_facts y K2) as (_ & _ & -> & _). reflexivity.
  - rewrite Ia in A, O. exists m. auto.
Qed.
Lemma list_bars_rejected : forall lead i l trail, Forall item_named (i :: l) -> items_ok (i :: l) = true -> (2 <= trail)%nat ->
  create_attribute_list mktime (items_text lead i l trail) = Ok None.
Proof.
  intros lead i l trail F K T. destruct (attrs_total mktime (items_text lead i l trail)) as ([m|] & E); auto. exfalso.
  apply attrs_accept in E as (a & Ta & Tr & _).
  assert (attr_text (alist_of lead (canon_item i) (map canon_item l) trail) (items_text lead i l trail)) as Tb by (exists []; split; [apply list_text; auto|left; reflexivity]).
  destruct (attr_text_unique _ _ _ Ta Tb) as [_ X]. destruct (alist_items (map canon_item l) lead (canon_item i) trail) as [_ It]. lia.
Qed.

(** Names only. *)
Fixpoint distinct (seen l : list str) : list str :=
  match l with [] => [] | x :: r => if existsb (str_eqb x) seen then distinct seen r else x :: distinct (x :: seen) r end.
Lemma names_attrs : forall l before seen, (forall s, (first_mention s before = None <-> existsb (str_eqb s) seen = false)) ->
  attrs_from day before (map IName l) = distinct seen l /\ orig_from before (map IName l) = [].
Proof.
  induction l as [|x l IH]; intros before seen H; cbn [map attrs_from orig_from distinct]; auto. cbn [item_attrs item_orig app].
  destruct (existsb (str_eqb x) seen) eqn:E.
  - destruct (first_mention x before) eqn:F; [|apply H in F; congruence]. cbn [app]. apply IH. intro s. rewrite first_mention_app, <- H. cbn [first_mention].
    destruct (first_mention s before) eqn:G; [tauto|]. destruct (str_eqb s x) eqn:X; [|tauto]. apply str_eqb_eq in X. congruence.
  - apply H in E. rewrite E. cbn [app]. destruct (IH (before ++ [IName x]) (x :: seen)) as [-> ->]; auto.
    intro s. rewrite first_mention_app. cbn [first_mention existsb]. destruct (first_mention s before) eqn:G.
    + split; [discriminate|]. intro X. apply orb_false_iff in X as [_ X]. apply H in X. congruence.
    + apply H in G. rewrite G. destruct (str_eqb s x); cbn; split; auto; discriminate.
Qed.
Lemma names_list : forall lead x l trail, Forall (fun s => is_name s = true) (x :: l) -> (trail <= 1)%nat ->
  exists m, create_attribute_list mktime (items_text lead (IName x) (map IName l) trail) = Ok (Some m) /\ aattrs m = distinct [] (x :: l) /\ aorig m = [].
Proof.
  intros lead x l trail F T. destruct (list_made lead (IName x) (map IName l) trail) as (m & E & A & O); auto.
  - change (IName x :: map IName l) with (map IName (x :: l)). apply Forall_map. exact F.
  - change (IName x :: map IName l) with (map IName (x :: l)). unfold items_ok. apply forallb_forall. intros i I. apply in_map_iff in I as (s & <- & _). reflexivity.
  - exists m. split; auto. change (IName x :: map IName l) with (map IName (x :: l)) in *. rewrite map_map in *. cbn [canon_item] in *.
    change (fun x0 => IName x0) with IName in *. destruct (names_attrs (x :: l) [] []) as [P1 P2]; [intro; split; reflexivity|]. rewrite <- P1, <- P2. auto.
Qed.

(** ** Compact strings *)
Fixpoint counted_from (before l : list item) : list item :=
  match l with
  | [] => []
  | i :: r => match i with
              | IName _ => []
              | INum s n => match first_mention s before with Some true => [] | _ => [i] end
              | IDate p _ _ _ => if dated_in p before then [] else [i]
              end ++ counted_from (before ++ [i]) r
  end.
Lemma orig_counted : forall l before, orig_from before l = map show_item (counted_from before l).
Proof.
  induction l as [|i r IH]; intros before; auto. cbn [orig_from counted_from]. rewrite map_app, IH. f_equal. destruct i as [s|s n|p m d y]; cbn [item_orig]; auto.
  - destruct (first_mention s before) as [[]|]; reflexivity.
  - destruct (dated_in p before); reflexivity.
Qed.
Lemma counted_in : forall l before i, In i (counted_from before l) -> In i l.
Proof.
  induction l as [|j r IH]; intros before i I; [destruct I|]. cbn [counted_from] in I. apply in_app_or in I as [I|I]; [left|right; eauto].
  destruct j as [s|s n|p m d y]; [destruct I|destruct (first_mention s before) as [[]|]|destruct (dated_in p before)]; try destruct I as [I|[]]; try destruct I; auto.
Qed.
Lemma counted_kind : forall l before i, In i (counted_from before l) -> match i with IName _ => False | _ => True end.
Proof.
  induction l as [|j r IH]; intros before i I; [destruct I|]. cbn [counted_from] in I. apply in_app_or in I as [I|I]; [|exact (IH _ _ I)].
  destruct j as [s|s n|p m d y]; [destruct I|destruct (first_mention s before) as [[]|]|destruct (dated_in p before)]; try destruct I as [<-|[]]; try destruct I; exact Logic.I.
Qed.
Lemma first_app : forall s a b, first_mention s (a ++ b) = match first_mention s a with Some x => Some x | None => first_mention s b end.
Proof. intros s a b. induction a as [|[x|x n|p m d y] a IH]; cbn [app first_mention]; auto; destruct (str_eqb s x); auto. Qed.
Lemma first_names : forall s l, first_mention s (map IName l) = if existsb (str_eqb s) l then Some true else None.
Proof. intros s l. induction l as [|x l IH]; cbn [map first_mention existsb]; auto. destruct (str_eqb s x); auto. Qed.
Lemma dated_cat : forall p a b, dated_in p (a ++ b) = dated_in p a || dated_in p b.
Proof. intros. unfold dated_in. apply existsb_app. Qed.
Lemma dated_names : forall p l, dated_in p (map IName l) = false.
Proof. intros p l. unfold dated_in. induction l; auto. Qed.
Definition unplain (C : list item) : Prop := forall s, first_mention s C <> Some true.
Lemma values_counted : forall l before C plains, items_ok l = true ->
  (forall s, existsb (str_eqb s) plains = true -> first_mention s (before ++ l) = Some true) -> unplain C ->
  (forall p, dated_in p C = dated_in p before) ->
  values_from day (map IName plains ++ C) (map canon_item (counted_from before l)) = values_from day before l /\
  orig_from (map IName plains ++ C) (map canon_item (counted_from before l)) = orig_from before l /\
  (forall s, first_mention s (C ++ map canon_item (counted_from before l)) <> Some true).
Proof.
  induction l as [|i r IH]; intros before C plains K P U D.
  - cbn [counted_from map values_from orig_from]. rewrite app_nil_r. auto.
  - cbn [items_ok forallb] in K. apply andb_prop in K as [Ki Kr]. change (items_ok r = true) in Kr.
    assert (forall s, existsb (str_eqb s) plains = true -> first_mention s ((before ++ [i]) ++ r) = Some true) as P' by (intros s H; rewrite <- app_assoc; apply P, H).
    cbn [counted_from]. rewrite map_app. destruct i as [s|s n|p m d y]; cbn [values_from orig_from item_values item_orig].
    + cbn [map app]. apply (IH (before ++ [IName s]) C plains); auto. intro p. rewrite dated_cat, D. cbn. rewrite orb_false_r. reflexivity.
    + destruct (canon_facts n Ki) as (Wn & Vn & Kn & Sn).
      assert (forall p, dated_in p C = dated_in p (before ++ [INum s n])) as D1 by (intro p; rewrite dated_cat, D; cbn; rewrite orb_false_r; reflexivity).
      assert (forall p, dated_in p (C ++ [INum s (canon n)]) = dated_in p (before ++ [INum s n])) as D2 by (intro p; rewrite !dated_cat, D; reflexivity).
      assert (unplain (C ++ [INum s (canon n)])) as U2.
      { intro x. rewrite first_app. specialize (U x). destruct (first_mention x C); auto. cbn. destruct (str_eqb x s); discriminate. }
      destruct (first_mention s before) as [[]|] eqn:E.
      * cbn [map app]. apply IH; auto.
      * assert (first_mention s (map IName plains ++ C) <> Some true) as X.
        { rewrite first_app, first_names. destruct (existsb (str_eqb s) plains) eqn:Q; [|apply U]. apply P in Q. rewrite first_app, E in Q. discriminate. }
        cbn [map app canon_item values_from orig_from item_values item_orig]. rewrite <- app_assoc. destruct (IH (before ++ [INum s n]) (C ++ [INum s (canon n)]) plains) as (I1 & I2 & I3); auto.
        rewrite I1, I2, Wn, Vn, Sn. rewrite <- app_assoc in I3. cbn [app] in I3. destruct (first_mention s (map IName plains ++ C)) as [[]|]; auto; congruence.
      * assert (first_mention s (map IName plains ++ C) <> Some true) as X.
        { rewrite first_app, first_names. destruct (existsb (str_eqb s) plains) eqn:Q; [|apply U]. apply P in Q. rewrite first_app, E in Q. cbn [first_mention] in Q. rewrite str_eqb_refl in Q. discriminate. }
        cbn [map app canon_item values_from orig_from item_values item_orig]. rewrite <- app_assoc. destruct (IH (before ++ [INum s n]) (C ++ [INum s (canon n)]) plains) as (I1 & I2 & I3); auto.
        rewrite I1, I2, Wn, Vn, Sn. rewrite <- app_assoc in I3. cbn [app] in I3. destruct (first_mention s (map IName plains ++ C)) as [[]|]; auto; congruence.
    + apply andb_prop in Ki as [Kd Ky]. destruct (canon_facts d Kd) as (_ & Vd & _ & Sd), (canon_facts y Ky) as (_ & Vy & _ & Sy).
      destruct (dated_in p before) eqn:E.
      * cbn [map app]. apply IH; auto. intro x. rewrite dated_cat, D. cbn. rewrite orb_false_r. destruct (str_eqb x p) eqn:X; [|rewrite orb_false_r; reflexivity].
        apply str_eqb_eq in X as ->. rewrite E. reflexivity.
      * assert (dated_in p (map IName plains ++ C) = false) as X by (rewrite dated_cat, dated_names, D; exact E).
        cbn [map app canon_item values_from orig_from item_values item_orig]. rewrite X, <- app_assoc.
        destruct (IH (before ++ [IDate p m d y]) (C ++ [IDate p m (canon d) (canon y)]) plains) as (I1 & I2 & I3); auto.
        { intro x. rewrite first_app. specialize (U x). destruct (first_mention x C); auto; cbn; discriminate. }
        { intro x. rewrite !dated_cat, D. reflexivity. }
        rewrite I1, I2, Vd, Vy, Sd, Sy. rewrite <- app_assoc in I3. auto.
Qed.

Definition plains_of (l : list item) : list str := filter (fun a => negb (contains (L "_expint") a)) (attrs_of day l).
Lemma expint_sub : forall s, contains (L "_expint") s = true -> contains (L "expint") s = true.
Proof.
  induction s as [|c s IH]; intro H; [discriminate|]. change (contains (L "_expint") (c :: s)) with (is_prefix (L "_expint") (c :: s) || contains (L "_expint") s) in H.
  change (contains (L "expint") (c :: s)) with (is_prefix (L "expint") (c :: s) || contains (L "expint") s).
  apply orb_prop in H as [H|H]; [|rewrite (IH H); apply orb_true_r].
  change (is_prefix (L "_expint") (c :: s)) with (ascii_eqb "_" c && is_prefix (L "expint") s) in H. apply andb_prop in H as [_ H].
  assert (contains (L "expint") s = true) as ->; [|apply orb_true_r]. destruct s; cbn [contains]; rewrite H; reflexivity.
Qed.
Lemma name_no_expint : forall s, is_name s = true -> contains (L "_expint") s = false.
Proof.
  intros s N. destruct (contains (L "_expint") s) eqn:E; auto. apply expint_sub in E. unfold is_name in N. rewrite E in N. rewrite andb_false_r in N. discriminate.
Qed.
Lemma marker_has_expint : forall c b i v, contains (L "_expint") (marker c b i v) = true.
Proof. intros. unfold marker. apply (proj2 (contains_app (L "_expint") c _)). apply (proj1 (contains_app (L "_expint") [] _)). Qed.
Lemma plains_member : forall l s, Forall item_named l -> (In s (plains_of l) <-> first_mention s l = Some true).
Proof.
  intros l s F. unfold plains_of. rewrite filter_In. unfold attrs_of. rewrite attrs_member. split.
  - intros [[[_ H]|(c & b & x & i & _ & _ & ->)] E]; auto. rewrite marker_has_expint in E. discriminate.
  - intro H. split; [left; auto|]. rewrite name_no_expint; auto. eapply first_named; eauto.
Qed.
Lemma attrs_names : forall l before plains, (forall s, existsb (str_eqb s) plains = true -> existsb (str_eqb s) before = false) -> NoDup plains ->
  attrs_from day (map IName before) (map IName plains ++ l) = plains ++ attrs_from day (map IName (before ++ plains)) l /\
  orig_from (map IName before) (map IName plains ++ l) = orig_from (map IName (before ++ plains)) l /\
  values_from day (map IName before) (map IName plains ++ l) = values_from day (map IName (before ++ plains)) l.
Proof.
  intros l before plains. revert before. induction plains as [|x plains IH]; intros before H Nd; [rewrite app_nil_r; auto|]. inversion Nd as [|? ? Nx Nd']; subst.
  cbn [map app attrs_from orig_from values_from item_attrs item_orig item_values]. rewrite first_names, (H x) by (cbn [existsb]; rewrite str_eqb_refl; reflexivity).
  cbn [app]. change (map IName before ++ [IName x]) with (map IName before ++ map IName [x]). rewrite <- map_app.
  destruct (IH (before ++ [x])) as (I1 & I2 & I3); auto.
  - intros s E. rewrite existsb_app. cbn [existsb]. rewrite (H s) by (cbn [existsb]; rewrite E; apply orb_true_r). cbn. rewrite orb_false_r. destruct (str_eqb s x) eqn:X; auto.
    apply str_eqb_eq in X as ->. exfalso. apply Nx. apply existsb_exists in E as (y & I & Y). apply str_eqb_eq in Y as ->. exact I.
  - rewrite I1, I2, I3, <- app_assoc. auto.
Qed.
Lemma plain_attrs_nodup : forall l before, Forall item_named l ->
  NoDup (filter (fun a => negb (contains (L "_expint") a)) (attrs_from day before l)).
Proof.
  induction l as [|i r IH]; intros before F; [constructor|]. inversion F as [|? ? N F']; subst. cbn [attrs_from]. rewrite filter_app.
  assert (forall c b x, filter (fun a => negb (contains (L "_expint") a)) (bits_of c b x) = []) as Bf.
  { intros c b x. unfold bits_of. induction (rev (map Z.of_nat (seq 0 (Z.to_nat (recorded b))))) as [|k ks IHk]; auto. cbn [map filter]. rewrite marker_has_expint. exact IHk. }
  destruct i as [s|s n|p m d y]; cbn [item_attrs item_named] in *.
  - destruct (first_mention s before) eqn:E; [apply IH; auto|]. cbn [filter]. rewrite name_no_expint by auto. cbn [negb app]. constructor; auto.
    intro I. apply filter_In in I as [I _]. apply attrs_member in I as [[I _]|(c & b & x & i & _ & _ & I)].
    + rewrite first_app, E in I. cbn in I. rewrite str_eqb_refl in I. discriminate.
    + eapply name_not_marker; eauto.
  - destruct (first_mention s before) as [[]|]; rewrite ?Bf; apply IH; auto.
  - destruct (dated_in p before); rewrite ?Bf; apply IH; auto.
Qed.
Lemma plains_filter : forall l, filter (fun a => negb (contains (L "_expint") a)) (plains_of l) = plains_of l.
Proof.
  intro l. unfold plains_of. induction (attrs_of day l) as [|a r IH]; auto. cbn [filter]. destruct (negb (contains (L "_expint") a)) eqn:E; auto. cbn [filter]. rewrite E, IH. reflexivity.
Qed.
Lemma bits_filter : forall vs, filter (fun a => negb (contains (L "_expint") a)) (concat (map (fun '(c, b, x) => bits_of c b x) vs)) = [].
Proof.
  induction vs as [|[[c b] x] vs IH]; auto. cbn [map concat]. rewrite filter_app, IH, app_nil_r. unfold bits_of.
  induction (rev (map Z.of_nat (seq 0 (Z.to_nat (recorded b))))) as [|k ks IHk]; auto. cbn [map filter]. rewrite marker_has_expint. exact IHk.
Qed.
Lemma attrs_of_values : forall l before, (forall i, In i l -> match i with IName _ => False | _ => True end) ->
  attrs_from day before l = concat (map (fun '(c, b, x) => bits_of c b x) (values_from day before l)).
Proof.
  induction l as [|i r IH]; intros before H; auto. cbn [attrs_from values_from]. rewrite map_app, concat_app, (IH (before ++ [i])) by (intros; apply H; right; auto). f_equal.
  specialize (H i (or_introl eq_refl)). destruct i as [s|s n|p m d y]; [contradiction| |]; cbn [item_attrs item_values].
  - destruct (first_mention s before) as [[]|]; cbn; rewrite ?app_nil_r; reflexivity.
  - destruct (dated_in p before); cbn; rewrite ?app_nil_r; reflexivity.
Qed.

(** The items written by toCompactString. *)
Definition compact_items (l : list item) : list item := map IName (plains_of l) ++ counted_from [] l.
Lemma compact_text_eq : forall x l, concat (map (fun a => a ++ [bar]) (map show_item (x :: l))) = items_text 0 x l 1.
Proof.
  intros x l. revert x. induction l as [|y l IH]; intro x; cbn [map concat items_text repeat app].
  - rewrite app_nil_r. reflexivity.
  - rewrite <- IH. cbn [map concat]. rewrite <- !app_assoc. reflexivity.
Qed.
Lemma compact_roundtrip : forall t l, create_attribute_list mktime t = Ok (Some l) ->
  exists l', create_attribute_list mktime (compact l) = Ok (Some l') /\ (forall a, In a (aattrs l') <-> In a (aattrs l)) /\
    aorig l' = aorig l /\ compact l' = compact l.
Proof.
  intros t l E. apply attrs_accept in E as (a & (t' & P & En) & _ & K & Ea & Eo). set (I := aitems a) in *.
  assert (Forall item_named I) as F by (apply items_named; eapply text_pre_good; eauto).
  assert (compact l = bar :: concat (map (fun a => a ++ [bar]) (map show_item (compact_items I)))) as Ec.
  { unfold compact, compact_items. rewrite Ea, Eo. unfold orig_of. rewrite orig_counted, !map_app, concat_app. f_equal. f_equal.
    unfold plains_of. rewrite !map_map. reflexivity. }
  assert (exists x r, compact_items I = x :: r) as (x & r & Ex).
  { unfold compact_items. destruct I as [|i0 I0] eqn:EI; [exfalso; destruct a; discriminate|]. destruct i0 as [s|s n|p m d y].
    - assert (In s (plains_of (IName s :: I0))) as X by (apply plains_member; auto; cbn; rewrite str_eqb_refl; reflexivity).
      destruct (plains_of (IName s :: I0)); [destruct X|]. eexists _, _. reflexivity.
    - cbn [counted_from first_mention app]. destruct (map IName (plains_of (INum s n :: I0))); eexists _, _; reflexivity.
    - cbn [counted_from]. change (dated_in p []) with false. cbn [app]. destruct (map IName (plains_of (IDate p m d y :: I0))); eexists _, _; reflexivity. }
  assert (Forall item_named (x :: r)) as F2.
  { rewrite <- Ex. unfold compact_items. apply Forall_app. split.
    - apply Forall_map, Forall_forall. intros s Hs. apply plains_member in Hs; auto. cbn. eapply first_named; eauto.
    - apply Forall_forall. intros i Hi. apply counted_in in Hi. rewrite Forall_forall in F. auto. }
  assert (items_ok (x :: r) = true) as K2.
  { rewrite <- Ex. unfold compact_items, items_ok. rewrite forallb_app. apply andb_true_intro. split; apply forallb_forall.
    - intros i Hi. apply in_map_iff in Hi as (s & <- & _). reflexivity.
    - intros i Hi. apply counted_in in Hi. unfold items_ok in K. rewrite forallb_forall in K. auto. }
  destruct (list_made 1 x r 1 F2 K2 (le_n 1)) as (l' & E' & A' & O').
  assert (compact l = items_text 1 x r 1) as Ec2.
  { rewrite Ec, Ex, compact_text_eq. destruct r; reflexivity. }
  rewrite <- Ec2 in E'. exists l'. split; auto.
  rewrite <- Ex in A', O'. unfold compact_items in A', O'. rewrite map_app, map_map in A', O'. cbn [canon_item] in A', O'. change (fun x0 => IName x0) with IName in A', O'.
  assert (NoDup (plains_of I)) as Nd by (apply plain_attrs_nodup; auto).
  destruct (attrs_names (map canon_item (counted_from [] I)) [] (plains_of I)) as (N1 & N2 & N3); auto. cbn [map app] in N1, N2, N3.
  destruct (values_counted I [] [] (plains_of I)) as (V1 & V2 & V3); auto.
  { intros s H. apply existsb_exists in H as (y & Iy & Y). apply str_eqb_eq in Y as ->. apply plains_member in Iy; auto. }
  { intros s H. discriminate. }
  rewrite app_nil_r in V1, V2. unfold attrs_of in A'. unfold orig_of in O'. rewrite N1 in A'. rewrite N2, V2 in O'. change (orig_from [] I) with (orig_of I) in O'. rewrite <- Eo in O'.
  rewrite attrs_of_values, V1 in A'.
  2:{ intros i Hi. apply in_map_iff in Hi as (j & <- & Hj). apply counted_kind in Hj. destruct j; auto. }
  split; [|split].
  - intro s. rewrite A', Ea. rewrite in_app_iff, plains_member by auto. unfold attrs_of. rewrite attrs_member.
    assert (In s (concat (map (fun '(c, b, x0) => bits_of c b x0) (values_from day [] I))) <-> by_value s (values_from day [] I)) as ->.
    { generalize (values_from day [] I). intro vs. rewrite in_concat. split.
      - intros (z & Hz & Hs). apply in_map_iff in Hz as ([[c b] v] & <- & Hv). apply bits_member in Hs as (i & Hi & ->). exists c, b, v, i. auto.
      - intros (c & b & v & i & Hv & Hi & ->). exists (bits_of c b v). split; [apply in_map_iff; exists (c, b, v); auto|]. apply bits_member. eauto. }
    split; [intros [H|H]; auto|intros [[_ H]|H]; auto].
  - exact O'.
  - unfold compact. rewrite A', O', Ea, filter_app, plains_filter, bits_filter, app_nil_r. reflexivity.
Qed.
End Lists.
