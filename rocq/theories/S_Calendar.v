(** The Gregorian calendar, for C20. *)
From Coq Require Export ZArith List.
Export ListNotations.
Open Scope Z_scope.

Definition leap_year (y : Z) : Prop := (4 | y) /\ (~ (100 | y) \/ (400 | y)).
(** Month [m] of year [y] has [n] days. *)
Inductive month_length (y : Z) : Z -> Z -> Prop :=
| ml_31 m : In m [1; 3; 5; 7; 8; 10; 12] -> month_length y m 31
| ml_30 m : In m [4; 6; 9; 11] -> month_length y m 30
| ml_29 : leap_year y -> month_length y 2 29
| ml_28 : ~ leap_year y -> month_length y 2 28.
(** One day and the day after it. *)
Inductive day_after : Z * Z * Z -> Z * Z * Z -> Prop :=
| da_day y m d n : month_length y m n -> 1 <= d < n -> day_after (y, m, d) (y, m, d + 1)
| da_month y m n : month_length y m n -> m < 12 -> day_after (y, m, n) (y, m + 1, 1)
| da_year y : day_after (y, 12, 31) (y + 1, 1, 1).
