(** The same parties using OpenABEContextSchemeCPA (schemes/zcontextcpwaters.cpp,
    schemes/zcontextkpgpsw.cpp, src/abe/zcontextabe.cpp as modelled in Scheme.v):
    one context per party, one random generator for the process, ciphertext
    objects and exported keys kept in the order in which they were made. *)
From Verif Require Import Base StrMap ByteString UInteger Field Policy Driver Parser AttrList Utils Kdf Lsss Container Keystore Scheme SchemeSpec DeliverySpec NetworkSpec.
From Coq Require Import ZArith List Ascii Bool.
Import ListNotations.
Open Scope Z_scope.

Section Network.
Context (E : engine) (sch : scheme).
Notation K := (e_curve E).
Record place := { p_stores : nat -> store (key K); p_off : nat; p_mail : list (ciphertext K); p_parcels : list str }.
Definition empty_place : place := {| p_stores := fun _ => new_store; p_off := 0; p_mail := []; p_parcels := [] |}.
Definition upd {A} (f : nat -> A) (i : nat) (v : A) : nat -> A := fun j => if Nat.eqb i j then v else f j.
Fixpoint set_nth {A} (l : list A) (j : nat) (v : A) : list A :=
  match l, j with [], _ => [] | _ :: l, O => v :: l | x :: l, S j => x :: set_nth l j v end.
(** Party [i] makes a call on its context with a ciphertext object. *)
Definition at_party (x : place) (i : nat) (ct : ciphertext K) : world E :=
  {| w_store := p_stores x i; w_off := p_off x; w_ct := ct; w_sym := [] |}.
Definition after (x : place) (i : nat) (w : world E) : place :=
  {| p_stores := upd (p_stores x) i (w_store E w); p_off := w_off E w; p_mail := p_mail x; p_parcels := p_parcels x |}.
Definition with_mail (x : place) (l : list (ciphertext K)) : place :=
  {| p_stores := p_stores x; p_off := p_off x; p_mail := l; p_parcels := p_parcels x |}.
Definition with_parcels (x : place) (l : list str) : place :=
  {| p_stores := p_stores x; p_off := p_off x; p_mail := p_mail x; p_parcels := l |}.
(** The text of a document is handed to createPolicyTree or createAttributeList. *)
Definition read_doc (d : doc) : option input :=
  match d with
  | Rule _ s => match create_policy_tree (e_mktime E) s with Ok (Some q) => Some (InPolicy q) | _ => None end
  | Traits _ t => match create_attribute_list (e_mktime E) t with Ok (Some l) => Some (InAttrs l) | _ => None end
  end.
Definition told (r : res Z) : answer := match r with Ok c => Code c | _ => Stray end.
Definition told_text (r : res (Z * str)) : answer := match r with Ok (c, pt) => Text c pt | _ => Stray end.
Definition perform (x : place) (o : op) : place * answer :=
  match o with
  | Found i mpk msk => let '(w, r) := generate_params E sch mpk msk (at_party x i (no_ct E)) in (after x i w, told r)
  | Issue i id mpk msk d =>
      match read_doc d with
      | None => (x, Stray)
      | Some inp => let '(w, r) := keygen E sch inp id mpk msk (at_party x i (no_ct E)) in (after x i w, told r)
      end
  | Seal i mpk d pt =>
      match read_doc d with
      | None => (x, Stray)
      | Some inp =>
          let '(w, r) := encrypt E sch mpk inp pt (at_party x i (no_ct E)) in
          let y := after x i w in
          (match r with Ok 0 => with_mail y (p_mail y ++ [w_ct E w]) | _ => y end, told r)
      end
  | Open i mpk id j wire =>
      match nth_error (p_mail x) j with
      | None => (x, Stray)
      | Some ct =>
          if wire then
            match ct_export ct with
            | Ok blob => match ct_load K (e_mktime E) (no_ct E) blob with
                         | (ct', Ok _) => let '(w, r) := decrypt E sch mpk id (at_party x i ct') in (after x i w, told_text r)
                         | _ => (x, Stray)
                         end
            | _ => (x, Stray)
            end
          else let '(w, r) := decrypt E sch mpk id (at_party x i ct) in (with_mail (after x i w) (set_nth (p_mail x) j (w_ct E w)), told_text r)
      end
  | Export i id =>
      let '(w, r) := export_key E id [] (at_party x i (no_ct E)) in
      let y := after x i w in
      match r with
      | Ok (0, b) => (with_parcels y (p_parcels y ++ [b]), Code 0)
      | Ok (c, _) => (y, Code c)
      | _ => (y, Stray)
      end
  | Load i id j c =>
      match nth_error (p_parcels x) j with
      | None => (x, Stray)
      | Some blob => let '(w, r) := load_key E sch id blob c (at_party x i (no_ct E)) in (after x i w, told r)
      end
  | Forget i id => let '(w, r) := drop_key E id (at_party x i (no_ct E)) in (after x i w, told r)
  end.
Fixpoint perform_run (x : place) (os : list op) : list answer :=
  match os with [] => [] | o :: os => snd (perform x o) :: perform_run (fst (perform x o)) os end.

(** What travels serializes to less than 4 GB. *)
Definition small (x : place) (o : op) : Prop :=
  match o with
  | Open _ _ _ j true => forall ct, nth_error (p_mail x) j = Some ct -> light E (ct_parts ct)
  | Export i id => forall c k, mget id (class_map E c (p_stores x i)) = Some (Some k) -> light E (k_parts k)
  | _ => True
  end.
End Network.
