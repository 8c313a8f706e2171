(** Specification: the proleptic Gregorian calendar, units of intervals, rounding. *)
From Verif Require Import Base DecLib.
Local Open Scope Z_scope.

Definition leap (y : Z) : bool := (y mod 4 =? 0) && (negb (y mod 100 =? 0) || (y mod 400 =? 0)).
Definition month_days (y m : Z) : Z :=
  if m =? 2 then (if leap y then 29 else 28)
  else if (m =? 4) || (m =? 6) || (m =? 9) || (m =? 11) then 30 else 31.
Definition valid_date (y m d : Z) : bool := (1 <=? m) && (m <=? 12) && (1 <=? d) && (d <=? month_days y m).
Definition next_day (x : Z * Z * Z) : Z * Z * Z :=
  let '(y, m, d) := x in
  if d <? month_days y m then (y, m, d + 1) else if m <? 12 then (y, m + 1, 1) else (y + 1, 1, 1).
(** yyyy-mm-dd *)
Definition date_text (y m d : Z) : list Z := fixed 4 y ++ [45] ++ fixed 2 m ++ [45] ++ fixed 2 d.
(** days of the calendar up to a date; 1721426 is 0001-01-01 (the Julian day number) *)
Definition month_start (y m : Z) : Z :=
  let f := if leap y then 1 else 0 in
  if m =? 1 then 0 else if m =? 2 then 31 else if m =? 3 then 59 + f else if m =? 4 then 90 + f else if m =? 5 then 120 + f
  else if m =? 6 then 151 + f else if m =? 7 then 181 + f else if m =? 8 then 212 + f else if m =? 9 then 243 + f
  else if m =? 10 then 273 + f else if m =? 11 then 304 + f else 334 + f.
Definition year_start (y : Z) : Z := 365 * (y - 1) + (y - 1) / 4 - (y - 1) / 100 + (y - 1) / 400.
Definition day_number (y m d : Z) : Z := year_start y + month_start y m + d - 1 + 1721426.
