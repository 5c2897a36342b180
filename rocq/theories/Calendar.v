(** The calendar (specification): order of dates, day numbers, and what a clock
    in a zone of constant offset returns. *)
From Verif Require Import Base PolicySyntax PolicyMeaning Driver.
From Coq Require Import ZArith List Ascii Bool.
Import ListNotations.
Open Scope Z_scope.

Record date := { dyear : Z; dmonth : Z; dday : Z }.
Definition leap (y : Z) : bool := (y mod 4 =? 0) && (negb (y mod 100 =? 0) || (y mod 400 =? 0)).
Definition month_days (y m : Z) : Z :=
  if (m =? 4) || (m =? 6) || (m =? 9) || (m =? 11) then 30 else if m =? 2 then (if leap y then 29 else 28) else 31.
Definition valid (x : date) : Prop := 1 <= dmonth x <= 12 /\ 1 <= dday x <= month_days (dyear x) (dmonth x).

(** Dates compare by year, then month, then day. *)
Definition date_compare (x y : date) : comparison :=
  match dyear x ?= dyear y with
  | Eq => match dmonth x ?= dmonth y with Eq => dday x ?= dday y | c => c end
  | c => c
  end.
Definition date_holds (r : rel) (x v : date) : bool :=
  match r, date_compare x v with
  | RLt, Lt | RGt, Gt | RLe, Lt | RLe, Eq | RGe, Gt | RGe, Eq | REq, Eq => true
  | _, _ => false
  end.

(** Days from 1 January 1970 to a date (Gregorian calendar). *)
Definition before_year (y : Z) : Z := 365 * (y - 1) + (y - 1) / 4 - (y - 1) / 100 + (y - 1) / 400.
Definition before_month (y m : Z) : Z :=
  fold_right Z.add 0 (map (month_days y) (map Z.of_nat (seq 1 (Z.to_nat (m - 1))))).
Definition civil (x : date) : Z := before_year (dyear x) + before_month (dyear x) (dmonth x) + (dday x - 1) - 719162.

Definition month_names : list (str * str) :=
  [ (L "January", L "Jan"); (L "February", L "Feb"); (L "March", L "Mar"); (L "April", L "Apr"); (L "May", L "May"); (L "June", L "Jun");
    (L "July", L "Jul"); (L "August", L "Aug"); (L "September", L "Sep"); (L "October", L "Oct"); (L "November", L "Nov"); (L "December", L "Dec") ].
(** [s] is a name of month [m]. *)
Definition names_month (s : str) (m : Z) : Prop :=
  1 <= m <= 12 /\ exists a b, nth_error month_names (Z.to_nat (m - 1)) = Some (a, b) /\ (s = a \/ s = b).

(** The date a broken-down time stands for. *)
Definition date_of (t : tm) : date := {| dyear := tm_year t + 1900; dmonth := tm_mon t + 1; dday := tm_mday t |}.
(** A clock of a zone whose offset never changes: the seconds of the midnight that
    begins a date, and the fields of an actual date unchanged. *)
Definition constant_zone (off : Z) (mktime : tm -> Z * tm) : Prop :=
  forall t, valid (date_of t) ->
    fst (mktime t) = 86400 * civil (date_of t) + off /\ date_of (snd (mktime t)) = date_of t.
(** The years meant: day numbers from 1970 on are positive then. *)
Definition modern (x : date) : Prop := valid x /\ 1971 <= dyear x <= 9999.
