(** chrono: calendar dates and [DateTime<FixedOffset>].
    A date is its day number (1970-01-01 is day 0, proleptic Gregorian).
    A date-time is local seconds since 1970-01-01T00:00:00, nanoseconds and the
    offset east of UTC in seconds. Library behaviour, modelled from its
    documentation; chrono's year range limits are not modelled. *)
From Coq Require Export ZArith Bool.
Open Scope Z_scope.

Record datetime := { dt_local : Z; dt_nanos : Z; dt_off : Z }.

(** The instant, in seconds since the epoch; chrono orders and compares
    date-times by instant only. *)
Definition dt_instant (d : datetime) : Z := dt_local d - dt_off d.
Definition dt_cmp (a b : datetime) : comparison :=
  match Z.compare (dt_instant a) (dt_instant b) with
  | Eq => Z.compare (dt_nanos a) (dt_nanos b)
  | o => o
  end.

(** [date_naive]: the local calendar date. *)
Definition dt_date (d : datetime) : Z := dt_local d / 86400.
Definition dt_secs (d : datetime) : Z := dt_local d mod 86400.

(** Civil date of a day number and back (era arithmetic over 400-year cycles). *)
Definition civil_of_days (z : Z) : Z * Z * Z :=
  let z := z + 719468 in
  let era := z / 146097 in
  let doe := z - era * 146097 in
  let yoe := (doe - doe / 1460 + doe / 36524 - doe / 146096) / 365 in
  let doy := doe - (365 * yoe + yoe / 4 - yoe / 100) in
  let mp := (5 * doy + 2) / 153 in
  let d := doy - (153 * mp + 2) / 5 + 1 in
  let m := if mp <? 10 then mp + 3 else mp - 9 in
  let y := yoe + era * 400 in
  (if m <=? 2 then y + 1 else y, m, d).

Definition days_of_civil (y m d : Z) : Z :=
  let y := if m <=? 2 then y - 1 else y in
  let era := y / 400 in
  let yoe := y - era * 400 in
  let doy := (153 * (if 2 <? m then m - 3 else m + 9) + 2) / 5 + d - 1 in
  let doe := yoe * 365 + yoe / 4 - yoe / 100 + doy in
  era * 146097 + doe - 719468.

Definition is_leap (y : Z) : bool :=
  (y mod 4 =? 0) && (negb (y mod 100 =? 0) || (y mod 400 =? 0)).
Definition days_in_month (y m : Z) : Z :=
  if m =? 2 then (if is_leap y then 29 else 28)
  else if (m =? 4) || (m =? 6) || (m =? 9) || (m =? 11) then 30 else 31.
Definition valid_civil (y m d : Z) : bool :=
  (1 <=? m) && (m <=? 12) && (1 <=? d) && (d <=? days_in_month y m).
