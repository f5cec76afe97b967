(** The Gregorian calendar, day by day. *)

From Coq Require Import ZArith List Bool.
Local Open Scope Z_scope.

Definition leap_year (y : Z) : bool :=
  (y mod 400 =? 0) || ((y mod 4 =? 0) && negb (y mod 100 =? 0)).

(** days of a month (1 = January) *)
Definition month_days (y m : Z) : Z :=
  if m =? 2 then if leap_year y then 29 else 28
  else if (m =? 4) || (m =? 6) || (m =? 9) || (m =? 11) then 30 else 31.

(** year, month 1..12, day 1..31 *)
Definition date := (Z * Z * Z)%type.
Definition valid_date (d : date) : Prop :=
  let '(y, m, d) := d in 1 <= m <= 12 /\ 1 <= d <= month_days y m.

Definition tomorrow (d : date) : date :=
  let '(y, m, d) := d in
  if d <? month_days y m then (y, m, d + 1)
  else if m <? 12 then (y, m + 1, 1) else (y + 1, 1, 1).

(** the date [n] days after Thursday, January 1st 1970 *)
Definition date_after (n : nat) : date := Nat.iter n tomorrow (1970, 1, 1).
(** its day of the week, 0 is Sunday *)
Definition weekday_after (n : nat) : Z := Nat.iter n (fun w => if w =? 6 then 0 else w + 1) 4.
