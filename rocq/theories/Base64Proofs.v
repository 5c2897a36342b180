(** Base64 with the URL-safe alphabet (RFC 4648) as a specification, and the
    functions of hashattributes.cpp against it. *)
From Verif Require Import Base Base64.
From Coq Require Import ZArith List Ascii Bool Lia ZifyBool ZifyNat.
Import ListNotations.
Open Scope Z_scope.

(** ** Specification *)
Definition alphabet : str := L "ABCDEFGHIJKLMNOPQRSTUVWXYZabcdefghijklmnopqrstuvwxyz0123456789-_".
Definition digit (k : Z) : ascii := nth (Z.to_nat k) alphabet "="%char.
(** Three bytes are a number below 2^24, four digits to the base 64. *)
Definition digits24 (v : Z) : list Z := [v / 262144; v / 4096 mod 64; v / 64 mod 64; v mod 64].
Fixpoint b64 (s : str) : str :=
  match s with
  | a :: b :: c :: r => map digit (digits24 (b2z a * 65536 + b2z b * 256 + b2z c)) ++ b64 r
  | [a; b] => map digit (firstn 3 (digits24 (b2z a * 65536 + b2z b * 256))) ++ L "="
  | [a] => map digit (firstn 2 (digits24 (b2z a * 65536))) ++ L "=="
  | [] => []
  end.
Definition in_alphabet (c : ascii) : bool := existsb (Ascii.eqb c) alphabet.
Fixpoint position (c : ascii) (s : str) : Z := match s with [] => 0 | x :: r => if Ascii.eqb c x then 0 else 1 + position c r end.
Definition digit_value (c : ascii) : Z := position c alphabet.
(** The bytes of a sequence of digits; bits that do not fill a byte are dropped. *)
Definition bytes24 (v : Z) : str := [z2b (v / 65536); z2b (v / 256 mod 256); z2b (v mod 256)].
Fixpoint b64_bytes (s : str) : str :=
  match s with
  | a :: b :: c :: d :: r => bytes24 (digit_value a * 262144 + digit_value b * 4096 + digit_value c * 64 + digit_value d) ++ b64_bytes r
  | [a; b; c] => firstn 2 (bytes24 (digit_value a * 262144 + digit_value b * 4096 + digit_value c * 64))
  | [a; b] => firstn 1 (bytes24 (digit_value a * 262144 + digit_value b * 4096))
  | _ => []
  end.

(** ** Bits *)
Definition zs256 : list Z := map Z.of_nat (seq 0 256).
Lemma by_byte : forall P : Z -> bool, forallb P zs256 = true -> forall z, 0 <= z < 256 -> P z = true.
Proof. intros P H z B. rewrite forallb_forall in H. apply H. apply in_map_iff. exists (Z.to_nat z). split; [lia|]. apply in_seq. lia. Qed.
Lemma bit_facts : forall z, 0 <= z < 256 ->
  Z.shiftr (Z.land z 252) 2 = z / 4 /\ Z.land z 3 = z mod 4 /\ Z.shiftr (Z.land z 240) 4 = z / 16 /\ Z.land z 15 = z mod 16 /\
  Z.shiftr (Z.land z 192) 6 = z / 64 /\ Z.land z 63 = z mod 64 /\ Z.shiftr (Z.land z 48) 4 = z / 16 mod 4 /\ Z.shiftr (Z.land z 60) 2 = z / 4 mod 16.
Proof.
  intros z B. pose proof (by_byte (fun z => (Z.shiftr (Z.land z 252) 2 =? z / 4) && (Z.land z 3 =? z mod 4) && (Z.shiftr (Z.land z 240) 4 =? z / 16) && (Z.land z 15 =? z mod 16) &&
    (Z.shiftr (Z.land z 192) 6 =? z / 64) && (Z.land z 63 =? z mod 64) && (Z.shiftr (Z.land z 48) 4 =? z / 16 mod 4) && (Z.shiftr (Z.land z 60) 2 =? z / 4 mod 16)) ltac:(vm_compute; reflexivity) z B) as K.
  cbv beta in K. rewrite !andb_true_iff, !Z.eqb_eq in K. tauto.
Qed.
Lemma four : forall {A} (a b c d a' b' c' d' : A), a = a' -> b = b' -> c = c' -> d = d' -> [a; b; c; d] = [a'; b'; c'; d'].
Proof. intros; subst; reflexivity. Qed.
Lemma three : forall {A} (a b c a' b' c' : A), a = a' -> b = b' -> c = c' -> [a; b; c] = [a'; b'; c'].
Proof. intros; subst; reflexivity. Qed.
Lemma sextets_digits : forall a b c, 0 <= a < 256 -> 0 <= b < 256 -> 0 <= c < 256 -> sextets a b c = digits24 (a * 65536 + b * 256 + c).
Proof.
  intros a b c A B C. destruct (bit_facts a A) as (A1 & A2 & _). destruct (bit_facts b B) as (_ & _ & B1 & B2 & _). destruct (bit_facts c C) as (_ & _ & _ & _ & C1 & C2 & _).
  unfold sextets, digits24. rewrite A1, A2, B1, B2, C1, C2, !Z.shiftl_mul_pow2 by lia. change (2 ^ 4) with 16. change (2 ^ 2) with 4.
  apply four; Z.div_mod_to_equations; lia.
Qed.
Lemma octets_bytes : forall a b c d, 0 <= a < 64 -> 0 <= b < 64 -> 0 <= c < 64 -> 0 <= d < 64 ->
  map z2b (octets a b c d) = bytes24 (a * 262144 + b * 4096 + c * 64 + d).
Proof.
  intros a b c d A B C D. destruct (bit_facts b ltac:(lia)) as (_ & _ & _ & B2 & _ & _ & B3 & _). destruct (bit_facts c ltac:(lia)) as (_ & C1 & _ & _ & _ & _ & _ & C2).
  unfold octets, bytes24. rewrite B2, B3, C1, C2, !Z.shiftl_mul_pow2 by lia. change (2 ^ 4) with 16. change (2 ^ 2) with 4. change (2 ^ 6) with 64. cbn [map].
  apply three; apply f_equal; Z.div_mod_to_equations; lia.
Qed.
(** The last group, padded with 255: only the first bytes are used. *)
Lemma octets_two : forall a b c d, 0 <= a < 64 -> 0 <= b < 64 -> map z2b (firstn 1 (octets a b c d)) = firstn 1 (bytes24 (a * 262144 + b * 4096)).
Proof.
  intros a b c d A B. destruct (bit_facts b ltac:(lia)) as (_ & _ & _ & B2 & _ & _ & B3 & _).
  unfold octets, bytes24. cbn [firstn map]. rewrite B3, !Z.shiftl_mul_pow2 by lia. change (2 ^ 2) with 4. apply f_equal2; [apply f_equal; Z.div_mod_to_equations; lia|reflexivity].
Qed.
Lemma octets_three : forall a b c d, 0 <= a < 64 -> 0 <= b < 64 -> 0 <= c < 64 -> map z2b (firstn 2 (octets a b c d)) = firstn 2 (bytes24 (a * 262144 + b * 4096 + c * 64)).
Proof.
  intros a b c d A B C. destruct (bit_facts b ltac:(lia)) as (_ & _ & _ & B2 & _ & _ & B3 & _). destruct (bit_facts c ltac:(lia)) as (_ & C1 & _ & _ & _ & _ & _ & C2).
  unfold octets, bytes24. cbn [firstn map]. rewrite B2, B3, C2, !Z.shiftl_mul_pow2 by lia. change (2 ^ 4) with 16. change (2 ^ 2) with 4. apply f_equal2; [apply f_equal; Z.div_mod_to_equations; lia|apply f_equal2; [apply f_equal; Z.div_mod_to_equations; lia|reflexivity]].
Qed.

(** ** Characters *)
Lemma by_char : forall P : ascii -> bool, forallb P (map z2b zs256) = true -> forall c, P c = true.
Proof.
  intros P H c. rewrite forallb_forall in H. apply H. apply in_map_iff. exists (b2z c). split; [apply z2b_b2z|]. apply in_map_iff. exists (Z.to_nat (b2z c)).
  pose proof (b2z_range c). split; [lia|]. apply in_seq. lia.
Qed.
Lemma base64_alphabet : forall c, negb (ascii_eqb c "=") && is_base64 c = in_alphabet c.
Proof.
  intro c. pose proof (by_char (fun c => Bool.eqb (negb (ascii_eqb c "=") && is_base64 c) (in_alphabet c)) ltac:(vm_compute; reflexivity) c) as K. cbv beta in K. apply eqb_prop in K. exact K.
Qed.
Lemma find_value : forall c, in_alphabet c = true -> find_char c = digit_value c /\ 0 <= digit_value c < 64 /\ digit (digit_value c) = c.
Proof.
  intros c H. pose proof (by_char (fun c => implb (in_alphabet c) ((find_char c =? digit_value c) && (0 <=? digit_value c) && (digit_value c <? 64) && Ascii.eqb (digit (digit_value c)) c)) ltac:(vm_compute; reflexivity) c) as K.
  cbv beta in K. rewrite H in K. cbn [implb] in K. rewrite !andb_true_iff in K. destruct K as [[[K1 K2] K3] K4]. apply Ascii.eqb_eq in K4. split; [|split]; [lia|lia|exact K4].
Qed.
Lemma digit_facts : forall k, 0 <= k < 64 -> char_at k = Ok (digit k) /\ in_alphabet (digit k) = true /\ digit_value (digit k) = k.
Proof.
  intros k B. pose proof (by_byte (fun k => implb (k <? 64) (match char_at k with Ok c => Ascii.eqb c (digit k) | _ => false end && in_alphabet (digit k) && (digit_value (digit k) =? k))) ltac:(vm_compute; reflexivity) k ltac:(lia)) as K.
  cbv beta in K. assert ((k <? 64) = true) as E by lia. rewrite E in K. cbn [implb] in K. rewrite !andb_true_iff in K. destruct K as [[K1 K2] K3].
  destruct (char_at k); try discriminate. apply Ascii.eqb_eq in K1 as ->. split; [|split]; auto. lia.
Qed.
Lemma digits_range : forall v, 0 <= v < 16777216 -> Forall (fun k => 0 <= k < 64) (digits24 v).
Proof. intros v B. unfold digits24. repeat constructor; Z.div_mod_to_equations; lia. Qed.

(** ** Encoding *)
Lemma put_digits : forall ks ret, Forall (fun k => 0 <= k < 64) ks -> put_chars ks ret = Ok (ret ++ map digit ks).
Proof.
  induction ks as [|k ks IH]; intros ret F; cbn; [rewrite app_nil_r; reflexivity|]. inversion F; subst. destruct (digit_facts k) as (-> & _); auto. cbn. rewrite IH by auto. rewrite <- app_assoc. reflexivity.
Qed.
Lemma by_threes : forall P : str -> Prop, P [] -> (forall a, P [a]) -> (forall a b, P [a; b]) -> (forall a b c r, P r -> P (a :: b :: c :: r)) -> forall s, P s.
Proof.
  intros P H0 H1 H2 H3. fix F 1. intros [|a [|b [|c r]]]; [apply H0|apply H1|apply H2|apply H3, F].
Qed.
Lemma encode_spec : forall s ret, bind (encode_loop s [] ret) (fun '(pend, r) => encode_end pend r) = Ok (ret ++ b64 s).
Proof.
  intro s. pose proof b2z_range as R. induction s as [|a|a b|a b c r IH] using by_threes; intro ret; cbn [encode_loop app bind b64].
  - cbn. rewrite app_nil_r. reflexivity.
  - cbn [encode_end length Nat.add nth Nat.sub]. rewrite sextets_digits by (auto; lia). rewrite Z.mul_0_l, !Z.add_0_r.
    rewrite put_digits by (pose proof (R a); apply Forall_forall; intros k I; pose proof (digits_range (b2z a * 65536) ltac:(lia)) as F; rewrite Forall_forall in F; apply F; cbn [firstn digits24 In] in *; tauto).
    cbn [bind]. rewrite <- app_assoc. reflexivity.
  - cbn [encode_end length Nat.add nth Nat.sub]. rewrite sextets_digits by (auto; lia). rewrite !Z.add_0_r.
    rewrite put_digits by (pose proof (R a); pose proof (R b); apply Forall_forall; intros k I; pose proof (digits_range (b2z a * 65536 + b2z b * 256) ltac:(lia)) as F; rewrite Forall_forall in F; apply F; cbn [firstn digits24 In] in *; tauto).
    cbn [bind]. rewrite <- app_assoc. reflexivity.
  - rewrite sextets_digits by auto. rewrite put_digits by (pose proof (R a); pose proof (R b); pose proof (R c); apply digits_range; lia). cbn [bind]. rewrite IH, <- app_assoc. reflexivity.
Qed.
Lemma encode_exact : forall s, base64_encode s = Ok (b64 s).
Proof. intro s. exact (encode_spec s []). Qed.

(** ** Decoding *)
Fixpoint split_text (s : str) : str * str :=
  match s with [] => ([], []) | x :: r => if in_alphabet x then let '(p, q) := split_text r in (x :: p, q) else ([], s) end.
Lemma split_app : forall p rest, Forall (fun c => in_alphabet c = true) p -> match rest with [] => True | c :: _ => in_alphabet c = false end -> split_text (p ++ rest) = (p, rest).
Proof.
  induction p as [|x p IH]; intros rest F H.
  - cbn [app]. destruct rest as [|c r]; [reflexivity|]. cbn [split_text]. rewrite H. reflexivity.
  - inversion F; subst. cbn [app split_text]. rewrite H2, (IH rest H3 H). reflexivity.
Qed.
Lemma split_inv : forall s, let '(p, rest) := split_text s in s = p ++ rest /\ Forall (fun c => in_alphabet c = true) p /\ match rest with [] => True | c :: _ => in_alphabet c = false end.
Proof.
  induction s as [|x s IH]; [cbn; auto|]. cbn [split_text]. destruct (in_alphabet x) eqn:E; [|auto].
  destruct (split_text s) as [p rest]. destruct IH as (-> & F & H). auto.
Qed.
Definition finish_decode (pend : list ascii) (ret : str) : str :=
  match pend with
  | [] => ret
  | _ => let at_ k := find_char (nth k pend zero_char) in
         ret ++ map z2b (firstn (length pend - 1) (octets (at_ 0%nat) (at_ 1%nat) (at_ 2%nat) (at_ 3%nat)))
  end.
Lemma by_fours : forall P : str -> Prop, P [] -> (forall a, P [a]) -> (forall a b, P [a; b]) -> (forall a b c, P [a; b; c]) -> (forall a b c d r, P r -> P (a :: b :: c :: d :: r)) -> forall s, P s.
Proof.
  intros P H0 H1 H2 H3 H4. fix F 1. intros [|a [|b [|c [|d r]]]]; [apply H0|apply H1|apply H2|apply H3|apply H4, F].
Qed.
Lemma loop_stop : forall rest pend ret, match rest with [] => True | c :: _ => in_alphabet c = false end -> decode_loop rest pend ret = (pend, ret, rest).
Proof. intros [|c r] pend ret H; cbn [decode_loop]; [reflexivity|]. rewrite base64_alphabet, H. reflexivity. Qed.
Lemma loop_go : forall x s pend ret, in_alphabet x = true -> decode_loop (x :: s) pend ret =
  match pend ++ [x] with
  | [a; b; c; d] => decode_loop s [] (ret ++ map z2b (octets (find_char a) (find_char b) (find_char c) (find_char d)))
  | p => decode_loop s p ret
  end.
Proof. intros x s pend ret H. cbn [decode_loop]. rewrite base64_alphabet, H. reflexivity. Qed.
Lemma decode_spec : forall (p rest : str) ret, Forall (fun c => in_alphabet c = true) p -> match rest with [] => True | c :: _ => in_alphabet c = false end ->
  exists pend ret', decode_loop (p ++ rest) [] ret = (pend, ret', rest) /\ finish_decode pend ret' = ret ++ b64_bytes p.
Proof.
  intros p rest. induction p as [|a|a b|a b c|a b c d r IH] using by_fours; intros ret F H; rewrite ?Forall_cons_iff in F; cbn [app].
  - exists [], ret. rewrite loop_stop by auto. split; [reflexivity|]. cbn. rewrite app_nil_r. reflexivity.
  - destruct F as [A _]. exists [a], ret. rewrite loop_go by auto. cbn [app]. rewrite loop_stop by auto. split; [reflexivity|]. cbn. reflexivity.
  - destruct F as (A & B & _). exists [a; b], ret. rewrite !loop_go by auto. cbn [app]. rewrite loop_go by auto. cbn [app]. rewrite loop_stop by auto. split; [reflexivity|].
    unfold finish_decode. cbn [nth length Nat.sub]. destruct (find_value a A) as (-> & ? & _), (find_value b B) as (-> & ? & _). rewrite octets_two by auto. reflexivity.
  - destruct F as (A & B & C & _). exists [a; b; c], ret. rewrite loop_go by auto. cbn [app]. rewrite loop_go by auto. cbn [app]. rewrite loop_go by auto. cbn [app]. rewrite loop_stop by auto. split; [reflexivity|].
    unfold finish_decode. cbn [nth length Nat.sub]. destruct (find_value a A) as (-> & ? & _), (find_value b B) as (-> & ? & _), (find_value c C) as (-> & ? & _). rewrite octets_three by auto. reflexivity.
  - destruct F as (A & B & C & D & F). destruct (find_value a A) as (Ea & ? & _), (find_value b B) as (Eb & ? & _), (find_value c C) as (Ec & ? & _), (find_value d D) as (Ed & ? & _).
    rewrite loop_go by auto. cbn [app]. rewrite loop_go by auto. cbn [app]. rewrite loop_go by auto. cbn [app]. rewrite loop_go by auto. cbn [app].
    rewrite Ea, Eb, Ec, Ed, octets_bytes by auto. destruct (IH (ret ++ bytes24 (digit_value a * 262144 + digit_value b * 4096 + digit_value c * 64 + digit_value d)) F H) as (pend & ret' & E & K).
    exists pend, ret'. split; auto. rewrite K. cbn [b64_bytes]. rewrite <- app_assoc. reflexivity.
Qed.
(** What follows the digits must be nothing, "=" or "==". *)
Definition padding (s : str) : bool := (len s <=? 2) && forallb (Ascii.eqb "="%char) s.
Lemma decode_exact : forall s, base64_decode s = let '(p, rest) := split_text s in if padding rest then b64_bytes p else [].
Proof.
  intro s. pose proof (split_inv s) as K. destruct (split_text s) as [p rest]. destruct K as (-> & F & H).
  destruct (decode_spec p rest [] F H) as (pend & ret & E & K). unfold base64_decode. rewrite E. unfold padding.
  assert (forallb (fun c => ascii_eqb c "=") rest = forallb (Ascii.eqb "=") rest) as ->.
  { clear. induction rest as [|c r IH]; [reflexivity|]. cbn [forallb]. rewrite IH. unfold ascii_eqb. rewrite Ascii.eqb_sym. reflexivity. }
  destruct (Z.leb_spec (len rest) 2), (Z.ltb_spec 2 (len rest)); try lia; cbn [orb andb negb]; [|reflexivity].
  destruct (forallb (Ascii.eqb "=") rest); cbn [negb]; [|reflexivity]. unfold finish_decode in K. destruct pend; exact K.
Qed.

(** ** Round trip *)
Lemma digits_back : forall v, 0 <= v < 16777216 -> let ds := map digit_value (map digit (digits24 v)) in ds = digits24 v.
Proof.
  intros v B. cbv zeta. rewrite map_map. rewrite <- (map_id (digits24 v)) at 2. apply map_ext_in. intros k I.
  pose proof (digits_range v B) as F. rewrite Forall_forall in F. apply digit_facts, F, I.
Qed.
Lemma bytes_back : forall a b c, bytes24 (b2z a * 65536 + b2z b * 256 + b2z c) = [a; b; c].
Proof.
  intros a b c. pose proof (b2z_range a). pose proof (b2z_range b). pose proof (b2z_range c). unfold bytes24.
  replace ((b2z a * 65536 + b2z b * 256 + b2z c) / 65536) with (b2z a) by (Z.div_mod_to_equations; lia).
  replace ((b2z a * 65536 + b2z b * 256 + b2z c) / 256 mod 256) with (b2z b) by (Z.div_mod_to_equations; lia).
  replace ((b2z a * 65536 + b2z b * 256 + b2z c) mod 256) with (b2z c) by (Z.div_mod_to_equations; lia).
  rewrite !z2b_b2z. reflexivity.
Qed.
(** The digits of an encoding and its padding. *)
Lemma encoding_parts : forall s : str, exists p rest, b64 s = p ++ rest /\ Forall (fun c => in_alphabet c = true) p /\ (rest = [] \/ rest = L "=" \/ rest = L "==") /\ b64_bytes p = s.
Proof.
  intro s. assert (forall v, 0 <= v < 16777216 -> Forall (fun c => in_alphabet c = true) (map digit (digits24 v))) as D.
  { intros v B. apply Forall_forall. intros c I. apply in_map_iff in I as (k & <- & I). pose proof (digits_range v B) as F. rewrite Forall_forall in F. apply digit_facts, F, I. }
  pose proof b2z_range as R. induction s as [|a|a b|a b c r IH] using by_threes.
  - exists [], []. auto.
  - exists (map digit (firstn 2 (digits24 (b2z a * 65536)))), (L "=="). split; [reflexivity|]. pose proof (R a) as Ra. specialize (D (b2z a * 65536) ltac:(lia)). split.
    { apply Forall_forall. intros c I. rewrite Forall_forall in D. apply D. rewrite in_map_iff in *. destruct I as (k & E & I). exists k. split; auto. cbn [firstn digits24 In] in *. tauto. }
    split; auto. pose proof (digits_back (b2z a * 65536) ltac:(lia)) as E. cbv zeta in E. cbn [digits24 map] in E. injection E as E1 E2 _ _. cbn [digits24 firstn map b64_bytes]. rewrite E1, E2.
    replace (b2z a * 65536 / 262144 * 262144 + b2z a * 65536 / 4096 mod 64 * 4096) with (b2z a * 65536 + b2z zero_char * 256 + b2z zero_char) by (change (b2z zero_char) with 0; Z.div_mod_to_equations; lia).
    rewrite bytes_back. reflexivity.
  - exists (map digit (firstn 3 (digits24 (b2z a * 65536 + b2z b * 256)))), (L "="). split; [reflexivity|]. pose proof (R a) as Ra. pose proof (R b) as Rb. specialize (D (b2z a * 65536 + b2z b * 256) ltac:(lia)). split.
    { apply Forall_forall. intros c I. rewrite Forall_forall in D. apply D. rewrite in_map_iff in *. destruct I as (k & E & I). exists k. split; auto. cbn [firstn digits24 In] in *. tauto. }
    split; auto. pose proof (digits_back (b2z a * 65536 + b2z b * 256) ltac:(lia)) as E. cbv zeta in E. cbn [digits24 map] in E. injection E as E1 E2 E3 _. cbn [digits24 firstn map b64_bytes]. rewrite E1, E2, E3.
    match goal with |- context [bytes24 ?v] => replace v with (b2z a * 65536 + b2z b * 256 + b2z zero_char) by (change (b2z zero_char) with 0; Z.div_mod_to_equations; lia) end.
    rewrite bytes_back. reflexivity.
  - destruct IH as (p & rest & E & F & Hr & K). set (v := b2z a * 65536 + b2z b * 256 + b2z c) in *. exists (map digit (digits24 v) ++ p), rest.
    pose proof (R a) as Ra. pose proof (R b) as Rb. pose proof (R c) as Rc. assert (0 <= v < 16777216) as V by (unfold v; lia).
    split; [cbn [b64]; fold v; rewrite E, app_assoc; reflexivity|]. split; [apply Forall_app; auto|]. split; auto.
    pose proof (digits_back v V) as Ed. cbv zeta in Ed. cbn [digits24 map] in Ed. injection Ed as E1 E2 E3 E4. cbn [digits24 map app b64_bytes]. rewrite E1, E2, E3, E4, K.
    match goal with |- bytes24 ?w ++ _ = _ => replace w with v by (Z.div_mod_to_equations; lia) end. unfold v. rewrite bytes_back. reflexivity.
Qed.
Lemma decode_encode : forall s, base64_decode (b64 s) = s.
Proof.
  intro s. destruct (encoding_parts s) as (p & rest & -> & F & Hr & K). rewrite decode_exact, split_app; auto; [|destruct Hr as [-> |[-> | ->]]; reflexivity].
  assert (padding rest = true) as -> by (destruct Hr as [-> |[-> | ->]]; reflexivity). exact K.
Qed.
Lemma b64_length : forall s : str, len (b64 s) = 4 * ((len s + 2) / 3).
Proof.
  induction s as [|a|a b|a b c r IH] using by_threes; try reflexivity. cbn [b64]. rewrite len_app, IH. change (len (map digit (digits24 (b2z a * 65536 + b2z b * 256 + b2z c)))) with 4.
  replace (len (a :: b :: c :: r)) with (3 + len r) by (unfold len; cbn [length]; lia). Z.div_mod_to_equations; lia.
Qed.
Lemma bytes_length : forall p : str, 4 * len (b64_bytes p) <= 3 * len p.
Proof.
  induction p as [|a|a b|a b c|a b c d r IH] using by_fours; try (vm_compute; discriminate). cbn [b64_bytes]. rewrite len_app. change (len (bytes24 _)) with 3 .
  replace (len (a :: b :: c :: d :: r)) with (4 + len r) by (unfold len; cbn [length]; lia). lia.
Qed.
Lemma decode_length : forall s, 4 * len (base64_decode s) <= 3 * len s.
Proof.
  intro s. rewrite decode_exact. pose proof (split_inv s) as K. destruct (split_text s) as [p rest]. destruct K as (-> & _). rewrite len_app. pose proof (bytes_length p). pose proof (len_nonneg rest).
  destruct (padding rest); [lia|]. change (len []) with 0. pose proof (len_nonneg p). lia.
Qed.
