(** Containers that can travel: sorted, and every entry portable. *)
From Verif Require Import Base StrMap ByteString ByteStringProofs UInteger Field Policy Driver Parser AttrList Utils Container ContainerSpec ContainerProofs.
From Coq Require Import ZArith List Ascii Bool Lia.
Import ListNotations.
Open Scope Z_scope.

Section Travel.
Context {K : curve} (mktime : tm -> Z * tm).
Definition sound (c : container K) : Prop := msorted c /\ all_portable K mktime c.
Lemma sound_nil : sound [].
Proof. split; [apply msorted_nil|]. intros n v H. discriminate. Qed.
Lemma clone_portable : forall o, portable K mktime o -> clone o = Some o.
Proof. intros o H. destruct o as [| | | | | |l|]; try reflexivity; [|destruct H]. destruct l. reflexivity. Qed.
Lemma sound_set : forall c n o, sound c -> good_name n -> portable K mktime o -> sound (set_component c n o).
Proof.
  intros c n o [A B] Hn Ho. split; [apply msorted_mset; exact A|]. intros name v H. unfold set_component in H. destruct (str_eq_dec name n) as [->|N].
  - rewrite mget_mset_same in H. injection H as <-. split; [exact Hn|]. exists o. split; [apply clone_portable; exact Ho|exact Ho].
  - rewrite mget_mset_other in H by exact N. apply B. exact H.
Qed.
Lemma set_some : forall (c : container K) n o, set_component c n o <> [].
Proof. intros c n o H. assert (mget n (set_component c n o) = None) as X by (rewrite H; reflexivity). unfold set_component in X. rewrite mget_mset_same in X. discriminate. Qed.
Lemma part_some : forall (c : container K) n v, mget n c = Some v -> c <> [].
Proof. intros c n v H ->. discriminate. Qed.
End Travel.
