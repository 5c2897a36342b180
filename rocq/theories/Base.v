(** Common vocabulary of the model: 8-bit characters, byte strings, outcomes. *)
From Coq Require Export String.
Export Coq.Init.Datatypes.
From Coq Require Import ZArith NArith List Ascii Bool Lia.
Import ListNotations.
Open Scope Z_scope.

(** std::string and std::vector<uint8_t> are both modelled as lists of 8-bit
    characters: the type [ascii] has exactly 256 values, so no side condition
    on the range of bytes is needed. *)
Definition str := list ascii.

(** String literal to [str]. *)
Definition L (x : String.string) : str := String.list_ascii_of_string x.
Arguments L x%string_scope.

(** uint8_t value of a character and back (conversion truncates modulo 256). *)
Definition b2z (b : ascii) : Z := Z.of_N (N_of_ascii b).
Definition z2b (z : Z) : ascii := ascii_of_N (Z.to_N (z mod 256)).

Definition len (b : str) : Z := Z.of_nat (length b).

(** Exceptions that occur in the code. [OpenABEError c] is [throw OpenABE_ERROR_c]
    (zerror.h), [OutOfRange] is std::out_of_range thrown by [vector::at],
    [RuntimeError] is std::runtime_error. *)
Inductive exn := OutOfRange | OpenABEError (code : Z) | RuntimeError.

(** Outcome of a call.  [UB]: the C++ code has undefined behaviour.
    [Exit]: the process is terminated by exit().  [NoFuel]: artefact of the
    model only (a loop ran out of fuel), proved unreachable where it matters. *)
Inductive res (A : Type) :=
| Ok (a : A) | Throw (e : exn) | UB | Exit | NoFuel.
Arguments Ok {A} _.
Arguments Throw {A} _.
Arguments UB {A}.
Arguments Exit {A}.
Arguments NoFuel {A}.

Definition bind {A B} (m : res A) (f : A -> res B) : res B :=
  match m with
  | Ok a => f a
  | Throw e => Throw e
  | UB => UB
  | Exit => Exit
  | NoFuel => NoFuel
  end.

Declare Scope res_scope.
Delimit Scope res_scope with res.
Notation "'do' x <- m ; k" := (bind m (fun x => k))
  (at level 200, x pattern, m at level 100, k at level 200, right associativity) : res_scope.

Definition is_ok {A} (m : res A) : bool := match m with Ok _ => true | _ => false end.

(** Decidable equality on strings. *)
Definition ascii_eqb := Ascii.eqb.
Fixpoint str_eqb (a b : str) : bool :=
  match a, b with
  | [], [] => true
  | x :: a', y :: b' => ascii_eqb x y && str_eqb a' b'
  | _, _ => false
  end.

(** Lexicographic order of std::string (operator<, unsigned bytes via
    char_traits<char>::compare), used by std::map and std::set. *)
Fixpoint str_ltb (a b : str) : bool :=
  match a, b with
  | _, [] => false
  | [], _ :: _ => true
  | x :: a', y :: b' =>
      if b2z x <? b2z y then true
      else if b2z y <? b2z x then false
      else str_ltb a' b'
  end.

(** ** Basic facts *)

Lemma N_of_ascii_lt : forall c, (N_of_ascii c < 256)%N.
Proof. exact N_ascii_bounded. Qed.

Lemma b2z_range : forall b, 0 <= b2z b < 256.
Proof. intro b. unfold b2z. pose proof (N_of_ascii_lt b). lia. Qed.

Lemma b2z_z2b : forall z, b2z (z2b z) = z mod 256.
Proof.
  intro z. unfold b2z, z2b.
  pose proof (Z.mod_pos_bound z 256 ltac:(lia)).
  rewrite N_ascii_embedding by lia. lia.
Qed.

Lemma z2b_b2z : forall b, z2b (b2z b) = b.
Proof.
  intro b. unfold z2b. pose proof (b2z_range b).
  rewrite Z.mod_small by lia. unfold b2z.
  rewrite N2Z.id. apply ascii_N_embedding.
Qed.

Lemma b2z_inj : forall a b, b2z a = b2z b -> a = b.
Proof. intros a b H. rewrite <- (z2b_b2z a), <- (z2b_b2z b), H. reflexivity. Qed.

Lemma z2b_small : forall z, 0 <= z < 256 -> b2z (z2b z) = z.
Proof. intros. rewrite b2z_z2b. apply Z.mod_small. lia. Qed.

Lemma str_eqb_refl : forall a, str_eqb a a = true.
Proof. induction a; simpl; auto. unfold ascii_eqb. rewrite Ascii.eqb_refl. auto. Qed.

Lemma str_eqb_eq : forall a b, str_eqb a b = true <-> a = b.
Proof.
  induction a as [|x a IH]; destruct b as [|y b]; simpl; split; intro H; try easy.
  - apply andb_prop in H as [H1 H2]. apply Ascii.eqb_eq in H1. apply IH in H2. congruence.
  - inversion H; subst. unfold ascii_eqb. rewrite Ascii.eqb_refl. apply str_eqb_refl.
Qed.

Lemma str_eqb_neq : forall a b, str_eqb a b = false <-> a <> b.
Proof.
  intros. rewrite <- not_true_iff_false, str_eqb_eq. tauto.
Qed.

Lemma str_eqb_sym : forall a b, str_eqb a b = str_eqb b a.
Proof.
  intros. destruct (str_eqb a b) eqn:E.
  - apply str_eqb_eq in E. subst. symmetry. apply str_eqb_refl.
  - symmetry. apply str_eqb_neq. apply str_eqb_neq in E. congruence.
Qed.

Lemma str_eq_dec : forall a b : str, {a = b} + {a <> b}.
Proof. apply list_eq_dec. apply ascii_dec. Qed.

Lemma str_ltb_irrefl : forall a, str_ltb a a = false.
Proof. induction a; simpl; auto. rewrite Z.ltb_irrefl. auto. Qed.

Lemma str_ltb_trans : forall a b c, str_ltb a b = true -> str_ltb b c = true -> str_ltb a c = true.
Proof.
  induction a as [|x a IH]; destruct b as [|y b]; destruct c as [|z c]; simpl; try easy.
  destruct (b2z x <? b2z y) eqn:E1; destruct (b2z y <? b2z z) eqn:E2;
  destruct (b2z y <? b2z x) eqn:E3; destruct (b2z z <? b2z y) eqn:E4;
  destruct (b2z x <? b2z z) eqn:E5; destruct (b2z z <? b2z x) eqn:E6; try easy;
  rewrite ?Z.ltb_lt, ?Z.ltb_ge in *; try lia; eauto.
Qed.

Lemma str_ltb_total : forall a b, str_ltb a b = false -> str_ltb b a = false -> a = b.
Proof.
  induction a as [|x a IH]; destruct b as [|y b]; simpl; try easy.
  destruct (b2z x <? b2z y) eqn:E1; destruct (b2z y <? b2z x) eqn:E3; try easy.
  rewrite ?Z.ltb_lt, ?Z.ltb_ge in *.
  intros H1 H2. f_equal. apply b2z_inj; lia. auto.
Qed.

Lemma str_ltb_asym : forall a b, str_ltb a b = true -> str_ltb b a = false.
Proof.
  intros a b H. destruct (str_ltb b a) eqn:E; auto.
  pose proof (str_ltb_trans _ _ _ H E). rewrite str_ltb_irrefl in *. discriminate.
Qed.

Lemma len_nonneg : forall b, 0 <= len b.
Proof. unfold len; lia. Qed.

Lemma len_app : forall a b, len (a ++ b) = len a + len b.
Proof. intros. unfold len. rewrite app_length. lia. Qed.

Lemma len_nil_inv : forall b, len b = 0 -> b = [].
Proof. destruct b; unfold len; simpl; auto; lia. Qed.
