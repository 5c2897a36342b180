(** A small instance of the pairing library: three copies of the integers modulo 13,
    the pairing is multiplication.  Used to show that the hypotheses of the scheme
    theorems can be met, and as a witness for refutations. *)
From Verif Require Import Base StrMap ByteString ByteStringProofs UInteger Field Policy Driver Parser AttrList Utils Kdf Lsss LsssSpec Container ContainerSpec Keystore Scheme SchemeSpec PropUtil PropField PropLsss PropParser.
From Coq Require Import ZArith Znumtheory List Ascii Bool Lia Permutation Eqdep_dec.
Import ListNotations.
Open Scope Z_scope.

Definition f13 : Type := { z : Z | (z mod 13 =? z) = true }.
Lemma f13_mod : forall z, ((z mod 13) mod 13 =? z mod 13) = true.
Proof. intro z. apply Z.eqb_eq. apply Zmod_mod. Qed.
Definition of_z (z : Z) : f13 := exist _ (z mod 13) (f13_mod z).
Definition to_z (x : f13) : Z := proj1_sig x.
Lemma f13_ext : forall x y, to_z x mod 13 = to_z y mod 13 -> x = y.
Proof.
  intros [x Hx] [y Hy] H. cbn in H. assert (x = y) as <- by (apply Z.eqb_eq in Hx; apply Z.eqb_eq in Hy; congruence).
  f_equal. apply UIP_dec. apply bool_dec.
Qed.
Lemma f13_range : forall x, 0 <= to_z x < 13.
Proof. intros [x Hx]. cbn. apply Z.eqb_eq in Hx. rewrite <- Hx. apply Z.mod_pos_bound. lia. Qed.
Lemma of_to : forall x, of_z (to_z x) = x.
Proof. intro x. apply f13_ext. unfold of_z. cbn. apply Zmod_mod. Qed.

Definition f_out (x : f13) : str := [z2b (to_z x)].
Definition f_in (b : str) : res f13 := match b with [c] => Ok (of_z (b2z c)) | _ => Throw (OpenABEError 8) end.
Definition f_same (x y : f13) : bool := to_z x =? to_z y.
Definition toy_curve : curve := {|
  g1 := f13; g1_out := f_out; g1_in := f_in; g1_size := 1; g1_same := f_same;
  g2 := f13; g2_out := f_out; g2_in := f_in; g2_size := 1; g2_same := f_same;
  gt := f13; gt_out := f_out; gt_in := f_in; gt_same := f_same; order := 13 |}.
Lemma f_back : forall x, f_in (f_out x) = Ok x.
Proof. intro x. unfold f_in, f_out. pose proof (f13_range x). rewrite b2z_z2b, Z.mod_small by lia. rewrite of_to. reflexivity. Qed.
Lemma f_cmp : forall x y, f_same x y = true <-> x = y.
Proof. intros x y. unfold f_same. rewrite Z.eqb_eq. split; [intro H; apply f13_ext; congruence|congruence]. Qed.
Lemma toy_curve_ok : curve_ok toy_curve.
Proof. split; cbn; auto using f_back, f_cmp; try lia; try (intro; left; reflexivity); try (intros; unfold len; cbn [length f_out]; lia); exact f_back. Qed.
Lemma toy_curve_safe : curve_safe toy_curve.
Proof. repeat split; intros [|c [|d b]]; exact I. Qed.

Definition f_add (x y : f13) : f13 := of_z (to_z x + to_z y).
Definition f_mul (a : Z) (x : f13) : f13 := of_z (a * to_z x).
Definition toy_with (hash : str -> str) : engine := {|
  e_curve := toy_curve;
  add1 := f_add; mul1 := f_mul; zero1 := of_z 0; add2 := f_add; mul2 := f_mul;
  multT := f_add; invT := fun x => of_z (- to_z x); expT := f_mul; oneT := of_z 0;
  pair := fun x y => of_z (to_z x * to_z y);
  map1 := fun h => of_z (fold_right (fun c n => b2z c + n) 0 h);
  e_hash := hash; e_kdf := fun n b => firstn (Z.to_nat n) (b ++ repeat (z2b 7) (Z.to_nat n));
  e_sort := isort; e_mktime := mk;
  e_zp := fun i => Z.of_nat (7 * i * i + 3 * i + 1); e_g1 := fun i => of_z (Z.of_nat i + 1); e_g2 := fun i => of_z (Z.of_nat i + 2);
  e_bytes := fun i n => repeat (z2b (Z.of_nat i)) (Z.to_nat n) |}.
Ltac push := repeat first [rewrite Zmod_mod | rewrite Z.add_mod_idemp_l by lia | rewrite Z.add_mod_idemp_r by lia | rewrite Z.mul_mod_idemp_l by lia | rewrite Z.mul_mod_idemp_r by lia].
Ltac toy_law := intros; cbn -[Z.mul Z.add Z.modulo]; apply f13_ext; cbn -[Z.mul Z.add Z.modulo]; unfold to_z; push; try (apply (f_equal (fun z => z mod 13)); ring).
Lemma toy_with_lawful : forall hash, (forall x, length (hash x) = 32%nat) -> lawful (toy_with hash).
Proof.
  intros hash Hh. split; try (toy_law; fail).
  - exact prime_13.
  - toy_law. rewrite Z.mul_comm, Z.mod_mul by lia. reflexivity.
  - exact Hh.
  - intros n b Hn. cbn. unfold len. rewrite firstn_length, app_length, repeat_length. lia.
  - exact isort_perm.
  - intros i n Hn. cbn. unfold len. rewrite repeat_length. lia.
Qed.
(** A digest, every byte of which depends on the whole input. *)
Definition mix_hash (x : str) : str := map (fun c => z2b (b2z c + fold_right (fun d n => (b2z d + 3 * n) mod 251) 0 x)) (toy_hash x).
Lemma mix_hash_length : forall x, length (mix_hash x) = 32%nat.
Proof. intro x. unfold mix_hash. rewrite map_length. apply toy_hash_length. Qed.
Definition toy_engine : engine := toy_with mix_hash.
Lemma toy_lawful : lawful toy_engine.
Proof. apply toy_with_lawful, mix_hash_length. Qed.
