(** Textual replacement of attributes in policy and list texts. *)
From Verif Require Import Base ByteString StrMap Dec UInteger Policy Lsss LsssSpec LsssUse Scanner Grammar PolicySyntax Lexical PolicyMeaning AttrMeaning Driver Parser ParserSound ParserRun ParserTop ScannerProofs NumProofs NumTree PolicyTruth ParserSafe CreatePolicy CreateAttrs ParserFinal AttrUse PolicyUse PrintParse ListText TextUse Base64 Base64Proofs HashAttrs.
From Coq Require Import ZArith List Ascii Bool Lia ZifyBool ZifyNat Permutation.
Import ListNotations.
Open Scope Z_scope.

(** ** Occurrences *)
Lemma is_prefix_iff : forall p s, is_prefix p s = true <-> exists r, s = p ++ r.
Proof.
  induction p as [|x p IH]; intros [|y s]; cbn [is_prefix app]; split; intro H; eauto; try discriminate.
  - destruct H as (r & H). discriminate.
  - apply andb_prop in H as [H1 H2]. apply Ascii.eqb_eq in H1 as ->. apply IH in H2 as (r & ->). exists r. reflexivity.
  - destruct H as (r & H). injection H as -> ->. unfold ascii_eqb. rewrite Ascii.eqb_refl. apply IH. eauto.
Qed.
Lemma contains_iff : forall p s, contains p s = true <-> occurs p s.
Proof.
  intros p s. induction s as [|c s IH]; cbn [contains]; rewrite orb_true_iff, is_prefix_iff; split.
  - intros [(r & ->)|H]; [exists [], r; reflexivity|discriminate].
  - intros (a & b & H). symmetry in H. apply app_eq_nil in H as [-> H]. left. exists b. auto.
  - intros [(r & ->)|H]; [exists [], r; reflexivity|]. apply IH in H as (a & b & ->). exists (c :: a), b. reflexivity.
  - intros ([|x a] & b & H); [left; exists b; exact H|]. right. injection H as -> ->. apply IH. exists a, b. reflexivity.
Qed.
Lemma occurs_trans : forall a b c, occurs a b -> occurs b c -> occurs a c.
Proof. intros a b c (x & y & ->) (u & v & ->). exists (u ++ x), (y ++ v). rewrite <- !app_assoc. reflexivity. Qed.

(** ** Replacement as one pass over the text *)
Fixpoint scan (old new : str) (skip : nat) (s : str) : str :=
  match s with
  | [] => []
  | c :: r => match skip with
              | S k => scan old new k r
              | O => if is_prefix old s then new ++ scan old new (length old - 1) r else c :: scan old new 0 r
              end
  end.
Lemma scan_skip : forall old new s k, scan old new k s = scan old new 0 (skipn k s).
Proof. intros old new s. induction s as [|c s IH]; intros [|k]; try reflexivity. cbn [scan skipn]. apply IH. Qed.
Lemma scan_prefix : forall old new s, old <> [] -> scan old new 0 (old ++ s) = new ++ scan old new 0 s.
Proof.
  intros [|c old] new s N; [congruence|]. cbn [app]. cbn [scan]. assert (is_prefix (c :: old) (c :: old ++ s) = true) as -> by (apply is_prefix_iff; exists s; reflexivity).
  rewrite scan_skip. cbn [length]. rewrite Nat.sub_succ, Nat.sub_0_r. rewrite skipn_app, skipn_all, Nat.sub_diag. reflexivity.
Qed.
Lemma scan_no_prefix : forall old new c s, is_prefix old (c :: s) = false -> scan old new 0 (c :: s) = c :: scan old new 0 s.
Proof. intros old new c s H. cbn [scan]. rewrite H. reflexivity. Qed.
Lemma find_scan : forall old new s, old <> [] -> match find_in old s with
  | None => scan old new 0 s = s
  | Some p => exists r, s = firstn p s ++ old ++ r /\ length (firstn p s) = p /\ scan old new 0 s = firstn p s ++ new ++ scan old new 0 r
  end.
Proof.
  intros old new s N. induction s as [|c s IH]; cbn [find_in].
  - destruct old as [|x old]; [congruence|]. cbn. reflexivity.
  - destruct (is_prefix old (c :: s)) eqn:E.
    + apply is_prefix_iff in E as (r & E). exists r. rewrite E. cbn [firstn app length]. split; auto. split; auto. apply scan_prefix, N.
    + rewrite scan_no_prefix by auto. destruct (find_in old s) as [p|]; cbn [option_map].
      * destruct IH as (r & E1 & E2 & E3). exists r. cbn [firstn app length]. rewrite E3, E2. split; [f_equal; exact E1|]. split; auto.
      * rewrite IH. reflexivity.
Qed.
Lemma replace_scan : forall old new, old <> [] -> forall fuel t pre, (length t < fuel)%nat -> replace_loop fuel (pre ++ t) (length pre) old new = Ok (pre ++ scan old new 0 t).
Proof.
  intros old new N. induction fuel as [|f IH]; intros t pre F; [lia|]. cbn [replace_loop]. unfold find_from. rewrite app_length. destruct (Nat.leb_spec (length pre) (length pre + length t)); [|lia].
  rewrite skipn_app, skipn_all, Nat.sub_diag. cbn [app skipn]. pose proof (find_scan old new t N) as K. destruct (find_in old t) as [p|]; cbn [option_map]; [|rewrite K; reflexivity].
  destruct K as (r & E1 & E2 & E3). rewrite E3. set (u := firstn p t) in *. assert (length t = p + length old + length r)%nat as Lt by (rewrite E1, !app_length; lia).
  rewrite E1. rewrite firstn_app, firstn_all2 by lia. replace (length pre + p - length pre)%nat with p by lia. rewrite firstn_app, firstn_all2 by lia. replace (p - length u)%nat with 0%nat by lia. cbn [firstn]. rewrite app_nil_r.
  replace (pre ++ u ++ old ++ r) with ((pre ++ u ++ old) ++ r) by (rewrite <- !app_assoc; reflexivity).
  rewrite skipn_app, skipn_all2 by (rewrite !app_length; lia). cbn [app]. rewrite !app_length. replace (length pre + p + length old - (length pre + (length u + length old)))%nat with 0%nat by lia. cbn [skipn].
  specialize (IH r (pre ++ u ++ new)). rewrite !app_length in IH. rewrite <- !app_assoc in *. replace (length pre + (length u + length new))%nat with (length pre + p + length new)%nat in IH by lia.
  destruct old as [|x old']; [congruence|]. cbn [length] in Lt. rewrite IH by lia. reflexivity.
Qed.
Lemma replace_all_scan : forall s old new, old <> [] -> replace_all s old new = Ok (scan old new 0 s).
Proof. intros s old new N. unfold replace_all. apply (replace_scan old new N (S (length s)) s []). lia. Qed.

(** ** Words *)
Definition name_chars (w : str) : Prop := forallb name_char w = true.
Lemma prefix_word : forall old w rest, name_chars old -> next_is name_char rest = false -> is_prefix old (w ++ rest) = is_prefix old w.
Proof.
  unfold name_chars. induction old as [|x old IH]; intros w rest H Hr; [destruct w; reflexivity|]. cbn [forallb] in H. apply andb_prop in H as [Hx H]. destruct w as [|y w].
  - cbn [app is_prefix]. destruct rest as [|z rest]; [reflexivity|]. cbn in Hr. destruct (ascii_eqb x z) eqn:E; [|reflexivity]. apply Ascii.eqb_eq in E. subst. congruence.
  - cbn [app is_prefix]. rewrite IH; auto.
Qed.
Lemma scan_word : forall old new, old <> [] -> name_chars old -> forall n w rest, (length w <= n)%nat -> next_is name_char rest = false ->
  scan old new 0 (w ++ rest) = scan old new 0 w ++ scan old new 0 rest.
Proof.
  intros old new N H. induction n as [|n IH]; intros w rest Ln Hr; destruct w as [|c w]; try reflexivity; cbn [length] in Ln; [lia|].
  destruct (is_prefix old (c :: w)) eqn:E.
  - apply is_prefix_iff in E as (r & E). rewrite E. rewrite <- app_assoc, !scan_prefix by auto. rewrite <- app_assoc. f_equal. apply IH; auto.
    apply (f_equal (@length _)) in E. rewrite app_length in E. destruct old; [congruence|]. cbn [length] in E. lia.
  - change ((c :: w) ++ rest) with (c :: (w ++ rest)). rewrite !scan_no_prefix; auto; [|rewrite <- (prefix_word old (c :: w) rest) in E; auto].
    cbn [app]. f_equal. apply IH; auto. lia.
Qed.
Lemma scan_absent : forall old new s, ~ occurs old s -> scan old new 0 s = s.
Proof.
  intros old new s. induction s as [|c s IH]; intro H; [reflexivity|]. rewrite scan_no_prefix; [f_equal; apply IH; intros (a & b & ->); apply H; exists (c :: a), b; reflexivity|].
  destruct (is_prefix old (c :: s)) eqn:E; auto. apply is_prefix_iff in E as (r & E). exfalso. apply H. exists [], r. exact E.
Qed.
Lemma scan_self : forall old new, old <> [] -> scan old new 0 old = new.
Proof. intros old new N. rewrite <- (app_nil_r old) at 2. rewrite scan_prefix by auto. cbn. apply app_nil_r. Qed.
Definition no_start (w : str) : Prop := forallb (fun c => negb (name_start c)) w = true.
Lemma scan_other : forall old new w rest, next_is name_start old = true -> no_start w -> scan old new 0 (w ++ rest) = w ++ scan old new 0 rest.
Proof.
  intros old new w rest H. unfold no_start. induction w as [|c w IH]; intro Hw; [reflexivity|]. cbn [forallb] in Hw. apply andb_prop in Hw as [Hc Hw]. cbn [app]. rewrite scan_no_prefix; [f_equal; auto|].
  destruct old as [|x old]; [discriminate|]. cbn in H |- *. destruct (ascii_eqb x c) eqn:E; [|reflexivity]. apply Ascii.eqb_eq in E. subst. rewrite H in Hc. discriminate.
Qed.

(** ** Tokens *)
Definition tmap (f : str -> str) (t : tok) : tok := match t with (c, StrVal s) => if c =? LEAF then (c, StrVal (f s)) else t | _ => t end.
Lemma tmap_leaf : forall f s, tmap f (leaf_tok s) = leaf_tok (f s).
Proof. reflexivity. Qed.
Lemma tmap_tk : forall f c, tmap f (tk c) = tk c.
Proof. reflexivity. Qed.
Lemma tmap_uint : forall f c, tmap f (uint_tok c) = uint_tok c.
Proof. reflexivity. Qed.
Definition keywords : list str := [L "or"; L "OR"; L "and"; L "AND"; L "in"; L "IN"].
(** What replacing [old] does to a token's word. *)
Definition sub1 (old new w : str) : str := if str_eqb w old then new else w.
Definition sep (old new : str) (ts : list tok) : Prop :=
  (forall s, In (leaf_tok s) ts -> s = old /\ is_name new = true \/ ~ occurs old s) /\ (forall k, In k keywords -> ~ occurs old k).
Lemma word_facts : forall s, is_word s = true -> s <> [] /\ name_chars s /\ next_is name_start s = true.
Proof.
  intros s H. destruct s as [|c s]; [discriminate|]. cbn in H. apply andb_prop in H as [H1 H2].
  split; [discriminate|]. split; auto. unfold name_chars. cbn. rewrite H2, (start_is_char c H1). reflexivity.
Qed.
Lemma name_word : forall s, is_name s = true -> is_word s = true.
Proof. intros s H. unfold is_name in H. apply andb_prop in H as [H _]. apply andb_prop in H as [H _]. exact H. Qed.
Lemma next_scan : forall (f : ascii -> bool) old new rest, new <> [] -> next_is f new = false -> next_is f rest = false -> next_is f (scan old new 0 rest) = false.
Proof.
  intros f old new [|c rest] Hn Hf Hr; [reflexivity|]. cbn [scan]. destruct (is_prefix old (c :: rest)) eqn:E; [|exact Hr].
  destruct new as [|x new]; [congruence|exact Hf].
Qed.
Lemma next_name_scan : forall old new rest, next_is name_start old = true -> next_is name_char rest = false -> next_is name_char (scan old new 0 rest) = false.
Proof.
  intros old new [|c rest] Ho Hr; [reflexivity|]. cbn [scan]. destruct (is_prefix old (c :: rest)) eqn:E; [|exact Hr].
  destruct old as [|x old]; [discriminate|]. cbn in E, Ho, Hr. apply andb_prop in E as [E _]. apply Ascii.eqb_eq in E. subst. rewrite (start_is_char _ Ho) in Hr. discriminate.
Qed.
Lemma class_start : forall c, (is_digit c = true \/ blank c = true \/ mem c (L "#()-{},|<>=") = true) -> name_start c = false.
Proof.
  intros c H. pose proof (by_bytes (fun c => implb (is_digit c || blank c || mem c (L "#()-{},|<>=")) (negb (name_start c))) ltac:(vm_compute; reflexivity) c) as K.
  cbv beta in K. destruct (name_start c); auto. rewrite implb_false_r in K. destruct H as [H|[H|H]]; rewrite H in K; rewrite ?orb_true_r in K; cbn in K; discriminate.
Qed.
Lemma next_digit : forall s, is_word s = true -> next_is is_digit s = false /\ next_is is_eq s = false.
Proof.
  intros s H. apply word_facts in H as (_ & _ & H). destruct s as [|c s]; [discriminate|]. cbn in *.
  pose proof (by_bytes (fun c => implb (name_start c) (negb (is_digit c) && negb (is_eq c))) ltac:(vm_compute; reflexivity) c) as K. cbv beta in K. rewrite H in K. cbn in K. apply andb_prop in K as [K1 K2].
  destruct (is_digit c), (is_eq c); auto; discriminate.
Qed.
Lemma punct_facts : forall c, (mem c (L "<>=") = true \/ mem c (L "#()-{},|") = true) -> mem c (L "#()-{},|<>=") = true.
Proof.
  intros c H. pose proof (by_bytes (fun c => implb (mem c (L "<>=") || mem c (L "#()-{},|")) (mem c (L "#()-{},|<>="))) ltac:(vm_compute; reflexivity) c) as K.
  cbv beta in K. destruct H as [H|H]; rewrite H in K; rewrite ?orb_true_r in K; exact K.
Qed.
Section Replace.
Variables old new : str.
Hypothesis Ho : old <> [].
Hypothesis Hc : name_chars old.
Hypothesis Hs : next_is name_start old = true.
Hypothesis Hn : is_word new = true.
Lemma spells_scan : forall t w rest, spells t w rest -> (forall s, t = leaf_tok s -> s = old /\ is_name new = true \/ ~ occurs old s) -> (forall k, In k keywords -> ~ occurs old k) ->
  exists w', scan old new 0 (w ++ rest) = w' ++ scan old new 0 rest /\ spells (tmap (sub1 old new) t) w' (scan old new 0 rest).
Proof.
  intros t w rest H Hleaf Hk.
  assert (forall f, next_is f new = false -> next_is f rest = false -> next_is f (scan old new 0 rest) = false) as Nx.
  { intros f. apply next_scan. apply word_facts in Hn. tauto. }
  destruct (next_digit new Hn) as [Nd Ne].
  assert (forall k, In k keywords -> next_is name_char rest = false -> scan old new 0 (k ++ rest) = k ++ scan old new 0 rest) as Kw.
  { intros k I Hr. rewrite (scan_word old new Ho Hc (length k)) by auto. rewrite scan_absent by auto. reflexivity. }
  destruct H as [s rest H Hr|w rest H Hr|w rest H Hr|w rest H Hr|n w rest Hw H Hu Hb Hr|rest|rest|rest|c rest H Hr|c rest H].
  - rewrite tmap_leaf. unfold sub1. rewrite (scan_word old new Ho Hc (length s)) by auto. destruct (str_eqb s old) eqn:E.
    + apply str_eqb_eq in E. subst. exists new. rewrite scan_self by auto. split; auto. destruct (Hleaf old eq_refl) as [[_ Hv]|Hv]; [|exfalso; apply Hv; exists [], []; rewrite app_nil_r; reflexivity]. apply sp_name; auto. apply next_name_scan; auto.
    + exists s. rewrite scan_absent; [|destruct (Hleaf s eq_refl) as [[-> _]|]; auto; rewrite str_eqb_refl in E; discriminate]. split; auto. apply sp_name; auto. apply next_name_scan; auto.
  - rewrite tmap_tk. exists w. rewrite Kw by (auto; destruct H as [-> | ->]; cbn; auto 8). split; auto. apply sp_or; auto. apply next_name_scan; auto.
  - rewrite tmap_tk. exists w. rewrite Kw by (auto; destruct H as [-> | ->]; cbn; auto 8). split; auto. apply sp_and; auto. apply next_name_scan; auto.
  - rewrite tmap_tk. exists w. rewrite Kw by (auto; destruct H as [-> | ->]; cbn; auto 8). split; auto. apply sp_in; auto. apply next_name_scan; auto.
  - rewrite tmap_uint. exists w. rewrite scan_other; auto; [split; auto; apply sp_uint; auto|]. unfold no_start. apply forallb_forall. intros c I. rewrite forallb_forall in H. rewrite class_start; auto.
  - exists (L "<="). rewrite scan_other; auto; [split; auto; apply sp_leq|reflexivity].
  - exists (L ">="). rewrite scan_other; auto; [split; auto; apply sp_geq|reflexivity].
  - exists (L "=="). rewrite scan_other; auto; [split; auto; apply sp_eq|reflexivity].
  - rewrite tmap_tk. exists [c]. rewrite scan_other; auto; [split; auto; apply sp_char; auto|]. unfold no_start. cbn. rewrite class_start; auto. right. right. apply punct_facts. auto.
  - rewrite tmap_tk. exists [c]. rewrite scan_other; auto; [split; auto; apply (sp_punct c); auto|]. unfold no_start. cbn. rewrite class_start; auto. right. right. apply punct_facts. auto.
Qed.
Lemma text_scan : forall ts s x, text_pre ts s x -> sep old new ts -> text_pre (map (tmap (sub1 old new)) ts) (scan old new 0 s) (scan old new 0 x).
Proof.
  intros ts s x H. induction H as [s|b t w ts s s' B Sp H IH]; intros [S1 S2]; [constructor|]. cbn [map].
  rewrite scan_other; auto.
  - destruct (spells_scan t w s Sp) as (w' & E & Sp'); auto.
    { intros v ->. apply S1. left. reflexivity. }
    rewrite E. constructor; auto. apply IH. split; auto. intros v I. apply S1. right. auto.
  - unfold no_start. apply forallb_forall. intros c I. unfold blanks in B. rewrite forallb_forall in B. rewrite class_start; auto.
Qed.
Lemma ended_scan : forall x, ended x -> ended (scan old new 0 x).
Proof.
  intros x [B|(b & c & r & -> & B & St)].
  - left. rewrite <- (app_nil_r x) at 1. rewrite scan_other; auto; [cbn; rewrite app_nil_r; auto|]. unfold no_start. apply forallb_forall. intros c I. unfold blanks in B. rewrite forallb_forall in B. rewrite class_start; auto.
  - right. exists b, c, (scan old new 0 r). split; auto. rewrite scan_other; auto.
    + f_equal. apply (scan_other old new [c] r); auto. unfold no_start. cbn. pose proof (by_bytes (fun c => implb (stops c) (negb (name_start c))) ltac:(vm_compute; reflexivity) c) as K. cbv beta in K. rewrite St in K. cbn in K. rewrite K. reflexivity.
    + unfold no_start. apply forallb_forall. intros z I. unfold blanks in B. rewrite forallb_forall in B. rewrite class_start; auto.
Qed.
End Replace.

(** ** Hashing all attributes of a text *)
Lemma b64_full : forall s : str, len s mod 3 = 0 -> Forall (fun c => in_alphabet c = true) (b64 s).
Proof.
  induction s as [|a|a b|a b c r IH] using by_threes; intro H; try (vm_compute in H; discriminate); [constructor|]. cbn [b64]. apply Forall_app. split.
  - apply Forall_forall. intros x I. apply in_map_iff in I as (k & <- & I). pose proof (b2z_range a). pose proof (b2z_range b). pose proof (b2z_range c).
    pose proof (digits_range (b2z a * 65536 + b2z b * 256 + b2z c) ltac:(lia)) as F. rewrite Forall_forall in F. apply digit_facts, F, I.
  - apply IH. replace (len (a :: b :: c :: r)) with (len r + 1 * 3) in H by (unfold len; cbn [length]; lia). rewrite Z_mod_plus_full in H. exact H.
Qed.
Lemma alphabet_chars : forall c, in_alphabet c = true -> name_char c = true /\ Ascii.eqb c colon = false.
Proof.
  intros c H. pose proof (by_bytes (fun c => implb (in_alphabet c) (name_char c && negb (Ascii.eqb c colon))) ltac:(vm_compute; reflexivity) c) as K. cbv beta in K. rewrite H in K. cbn [implb] in K.
  apply andb_prop in K as [K1 K2]. split; auto. destruct (Ascii.eqb c colon); auto; discriminate.
Qed.
Lemma tmap_tmap : forall f g t, tmap f (tmap g t) = tmap (fun w => f (g w)) t.
Proof. intros f g [c [|s| ]]; try reflexivity. cbn. destruct (c =? LEAF) eqn:E; cbn; rewrite ?E; reflexivity. Qed.
Lemma in_tmap : forall f ts s, In (leaf_tok s) (map (tmap f) ts) -> exists w, In (leaf_tok w) ts /\ s = f w.
Proof.
  intros f ts s I. apply in_map_iff in I as ([c v] & E & I). destruct v; cbn in E; try discriminate. destruct (c =? LEAF) eqn:F.
  - apply Z.eqb_eq in F. subst. injection E as <-. eauto.
  - injection E as -> _. cbn in F. discriminate.
Qed.

Section Hashing.
Variable digest : str -> str.
Hypothesis digest9 : forall x, length (digest x) = 9%nat.
Definition hname (a : str) : str := L "A:" ++ b64 (digest a).
Lemma hash_attribute_eq : forall a, hash_attribute digest a = Ok (hname a).
Proof. intro a. unfold hash_attribute. rewrite encode_exact. reflexivity. Qed.
Lemma hname_full : forall a, Forall (fun c => in_alphabet c = true) (b64 (digest a)).
Proof. intro a. apply b64_full. unfold len. rewrite digest9. reflexivity. Qed.
Lemma hname_length : forall a, length (hname a) = 14%nat.
Proof. intro a. unfold hname. rewrite app_length. pose proof (b64_length (digest a)) as K. unfold len in K. rewrite digest9 in K. change (4 * ((Z.of_nat 9 + 2) / 3)) with 12 in K. cbn [length]. change (length (L "A:")) with 2%nat. lia. Qed.
Lemma hname_word : forall a, is_word (hname a) = true.
Proof.
  intro a. unfold hname. cbn. apply forallb_forall. intros c I. pose proof (hname_full a) as F. rewrite Forall_forall in F. apply alphabet_chars, F, I.
Qed.
Lemma hname_name : forall a, ~ occurs (L "expint") (hname a) -> is_name (hname a) = true.
Proof.
  intros a H. unfold is_name. rewrite hname_word. cbn [andb]. apply andb_true_intro. split.
  - reflexivity.
  - destruct (contains (L "expint") (hname a)) eqn:E; auto. apply contains_iff in E. contradiction.
Qed.
Lemma hname_tidy : forall a, tidy (hname a) = true.
Proof.
  intro a. unfold hname, tidy. pose proof (hname_length a) as K. unfold hname in K. rewrite app_length in K. pose proof (hname_full a) as F. destruct (b64 (digest a)) as [|c r]; [vm_compute in K; discriminate|].
  change (tidy_from true (c :: r) = true). clear K. rewrite Forall_cons_iff in F. destruct F as [Fc F]. cbn [tidy_from]. destruct (alphabet_chars c Fc) as [_ ->].
  induction F as [|x r Fx F IH]; [reflexivity|]. cbn [tidy_from]. destruct (alphabet_chars x Fx) as [_ ->]. exact IH.
Qed.

(** The names a text may use: [P] are hashed, [C] are not. *)
Definition separate (P C : list str) : Prop :=
  (forall a b, In a P -> In b P -> a <> b -> ~ occurs a b) /\
  (forall a c, In a P -> In c C \/ In c keywords -> ~ occurs a c) /\
  (forall a b, In a P -> In b P -> ~ occurs a (hname b)) /\
  (forall a b, In a P -> In b P -> hname a = hname b -> a = b) /\
  (forall a c, In a P -> In c C -> hname a <> c) /\
  (forall a, In a P -> ~ occurs (L "expint") (hname a)).
(** What may be asked to be hashed: names and the attributes of numbers. *)
Definition hashable (P : list str) (a : str) : Prop := is_word a = true /\ (In a P \/ occurs (L "expint") a).
Lemma hash_each_spec : forall P C ts0, separate P C -> (forall w, In (leaf_tok w) ts0 -> is_name w = true /\ (In w P \/ In w C)) ->
  forall ks f s x, Forall (hashable P) ks -> text_pre (map (tmap f) ts0) s x ->
  (forall w, In (leaf_tok w) ts0 -> f w = w \/ In w P /\ f w = hname w) ->
  exists s' x' g, hash_each digest ks s = Ok s' /\ text_pre (map (tmap g) ts0) s' x' /\ (ended x -> ended x') /\
    forall w, In (leaf_tok w) ts0 -> (g w = hname w /\ In w P /\ (f w = hname w \/ In w ks)) \/ (g w = w /\ f w = w /\ ~ In w ks).
Proof.
  intros P C ts0 (S1 & S2 & S3 & S4 & S5 & S6) Hw ks. induction ks as [|a ks IH]; intros f s x F T Hf.
  - exists s, x, f. split; [reflexivity|]. split; auto. split; auto. intros w I. destruct (Hf w I) as [E|[I' E]]; auto.
  - inversion F as [|? ? [Wa Ha] F']; subst. destruct (word_facts a Wa) as (N & Nc & Ns). cbn [hash_each]. rewrite hash_attribute_eq. cbn [bind]. rewrite replace_all_scan by auto. cbn [bind].
    assert (forall w, is_name w = true -> ~ occurs (L "expint") w) as Ex.
    { intros w Hn O. unfold is_name in Hn. apply andb_prop in Hn as [_ Hn]. apply contains_iff in O. rewrite O in Hn. discriminate. }
    assert (forall w, In (leaf_tok w) ts0 -> w = a /\ In a P \/ ~ occurs a w) as Ow.
    { intros w I. destruct (Hw w I) as [Hn Hp]. destruct (str_eq_dec w a) as [-> |Na].
      - destruct Ha as [Ha|Ha]; auto. exfalso. exact (Ex a Hn Ha).
      - right. destruct Ha as [Ha|Ha]; [|intro O; apply (Ex w Hn); eapply occurs_trans; eauto]. destruct Hp as [Hp|Hp]; [apply S1; auto|apply S2; auto]. }
    assert (forall w, In w P -> ~ occurs a (hname w)) as Oh.
    { intros w I O. destruct Ha as [Ha|Ha]; [exact (S3 a w Ha I O)|]. apply (S6 w I). eapply occurs_trans; eauto. }
    assert (sep a (hname a) (map (tmap f) ts0)) as Sp.
    { split.
      - intros v I. apply in_tmap in I as (w & I & ->). destruct (Hf w I) as [-> |[Ip ->]]; [|right; auto]. destruct (Ow w I) as [[-> Hp]|]; auto. left. split; auto. apply hname_name, S6, Hp.
      - intros k I O. destruct Ha as [Ha|Ha]; [exact (S2 a k Ha (or_intror I) O)|]. assert (occurs (L "expint") k) as K by (eapply occurs_trans; eauto). apply contains_iff in K. cbn in I. repeat (destruct I as [<-|I]; [vm_compute in K; discriminate|]). destruct I. }
    pose proof (text_scan a (hname a) N Nc Ns (hname_word a) _ _ _ T Sp) as T'. rewrite map_map in T'. rewrite (map_ext _ (tmap (fun w => sub1 a (hname a) (f w)))) in T' by (intro; apply tmap_tmap).
    destruct (IH (fun w => sub1 a (hname a) (f w)) _ _ F' T') as (s' & x' & g & Eg & Tg & En & G).
    { intros w I. unfold sub1. destruct (Hf w I) as [-> |[Ip ->]].
      - destruct (str_eqb w a) eqn:E; auto. apply str_eqb_eq in E. subst. right. split; auto. destruct (Ow a I) as [[_ H]|H]; auto. exfalso. apply H. exists [], []. rewrite app_nil_r. reflexivity.
      - destruct (str_eqb (hname w) a) eqn:E; [|right; auto]. apply str_eqb_eq in E. exfalso. apply (Oh w Ip). rewrite E. exists [], []. rewrite app_nil_r. reflexivity. }
    exists s', x', g. split; auto. split; auto. split; [intro; apply En, ended_scan; auto|].
    intros w I. destruct (G w I) as [(G1 & G2 & G3)|(G1 & G2 & G3)].
    + left. split; auto. split; auto. destruct G3 as [G3|G3]; [|right; right; auto]. unfold sub1 in G3. destruct (str_eqb (f w) a) eqn:E; auto. apply str_eqb_eq in E.
      destruct (Hf w I) as [Fw|[Ip Fw]]; [right; left; congruence|left; auto].
    + unfold sub1 in G2. destruct (str_eqb (f w) a) eqn:E.
      * apply str_eqb_eq in E. destruct (Hf w I) as [Fw|[Ip Fw]]; [|exfalso; apply (Oh w Ip); rewrite <- Fw, E; exists [], []; rewrite app_nil_r; reflexivity].
        rewrite Fw in E. subst w. exfalso. destruct (Ow a I) as [[_ H]|H]; [|apply H; exists [], []; rewrite app_nil_r; reflexivity]. apply (Oh a H). rewrite G2. exists [], []. rewrite app_nil_r. reflexivity.
      * right. split; auto. split; auto. intros [<-|J]; [|contradiction]. rewrite G2 in E. rewrite str_eqb_refl in E. discriminate.
Qed.
End Hashing.
