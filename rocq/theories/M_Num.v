(** Decimal text of numbers: std [Display] and [FromStr] for integers and
    floats, and chrono's fixed-width numeric fields. *)
From Coq Require Import DecimalString DecimalN.
From Verif Require Export M_Str M_Float M_Time.
Close Scope Z_scope.

Definition digit (n : N) : ascii := ascii_of_N (48 + n).

Fixpoint uint_str (u : Decimal.uint) : str :=
  match u with
  | Decimal.Nil => []
  | Decimal.D0 u => "0"%char :: uint_str u
  | Decimal.D1 u => "1"%char :: uint_str u
  | Decimal.D2 u => "2"%char :: uint_str u
  | Decimal.D3 u => "3"%char :: uint_str u
  | Decimal.D4 u => "4"%char :: uint_str u
  | Decimal.D5 u => "5"%char :: uint_str u
  | Decimal.D6 u => "6"%char :: uint_str u
  | Decimal.D7 u => "7"%char :: uint_str u
  | Decimal.D8 u => "8"%char :: uint_str u
  | Decimal.D9 u => "9"%char :: uint_str u
  end.

(** [Display] for unsigned integers. *)
Definition show_N (n : N) : str := uint_str (N.to_uint n).

(** Value of a digit string, most significant first. *)
Fixpoint digits_val (acc : N) (s : str) : option N :=
  match s with
  | [] => Some acc
  | c :: s' => if is_digit c then digits_val (acc * 10 + (code c - 48)) s' else None
  end.

(** Non-empty digit string. *)
Definition parse_N (s : str) : option N :=
  match s with [] => None | _ => digits_val 0 s end.

(** [Display for i64]. *)
Definition show_Z (z : Z) : str :=
  match z with
  | Zneg p => "-"%char :: show_N (Npos p)
  | _ => show_N (Z.to_N z)
  end.

(** [str::parse::<i64>]: optional sign, digits, range check. *)
Definition parse_i64 (s : str) : option Z :=
  let r := match s with
           | "-"%char :: s' => option_map (fun n => - Z.of_N n)%Z (parse_N s')
           | "+"%char :: s' => option_map Z.of_N (parse_N s')
           | _ => option_map Z.of_N (parse_N s)
           end in
  match r with
  | Some z => if in_i64 z then Some z else None
  | None => None
  end.

(** [str::parse::<usize>] on a digit string (64 bit). *)
Definition parse_usize (s : str) : option N :=
  match parse_N s with
  | Some n => if (n <? 2 ^ 64)%N then Some n else None
  | None => None
  end.

(** [str::parse::<f64>] on the shape [-]digits[.digits], correctly rounded. *)
Definition parse_f64 (s : str) : option f64 :=
  let (neg, s) := match s with
                  | "-"%char :: s' => (true, s')
                  | _ => (false, s)
                  end in
  match split_once "."%char s with
  | None => option_map (fun n => f_of_ratio neg (Z.of_N n) 1) (parse_N s)
  | Some (a, b) =>
      match parse_N (a ++ b), a, b with
      | Some n, _ :: _, _ :: _ => Some (f_of_ratio neg (Z.of_N n) (Pos.of_nat 10 ^ Pos.of_nat (length b)))
      | _, _, _ => None
      end
  end.

(** Exactly [k] leading digits, and the rest. *)
Fixpoint take_digits (k : nat) (acc : N) (s : str) : option (N * str) :=
  match k, s with
  | 0, _ => Some (acc, s)
  | S k', c :: s' => if is_digit c then take_digits k' (acc * 10 + (code c - 48)) s' else None
  | _, _ => None
  end.
Definition expect (c : ascii) (s : str) : option str :=
  match s with c' :: s' => if Ascii.eqb c c' then Some s' else None | [] => None end.

(** YYYY-MM-DD at the start of a string: day number and the rest. chrono also
    accepts unpadded and signed fields and white space between fields; those
    shapes do not occur in the texts the grammars pass on. *)
Definition take_date (s : str) : option (Z * str) :=
  match take_digits 4 0 s with
  | Some (y, s1) =>
    match expect "-" s1 with
    | Some s2 =>
      match take_digits 2 0 s2 with
      | Some (m, s3) =>
        match expect "-" s3 with
        | Some s4 =>
          match take_digits 2 0 s4 with
          | Some (d, s5) =>
              if valid_civil (Z.of_N y) (Z.of_N m) (Z.of_N d)
              then Some (days_of_civil (Z.of_N y) (Z.of_N m) (Z.of_N d), s5) else None
          | None => None
          end
        | None => None
        end
      | None => None
      end
    | None => None
    end
  | None => None
  end.

(** [NaiveDate::parse_from_str(s, "%Y-%m-%d")]: trailing text is an error. *)
Definition parse_naive_date (s : str) : option Z :=
  match take_date s with
  | Some (d, []) => Some d
  | _ => None
  end.

Fixpoint frac_nanos (k : nat) (acc : N) (s : str) : N * str :=
  match s with
  | c :: s' =>
      if is_digit c then
        match k with
        | 0 => frac_nanos 0 acc s'
        | S k' => frac_nanos k' (acc * 10 + (code c - 48)) s'
        end
      else ((acc * 10 ^ N.of_nat k)%N, s)
  | [] => ((acc * 10 ^ N.of_nat k)%N, [])
  end.

(** Offset: Z, or a sign, two digits, an optional colon, two digits. *)
Definition take_offset (s : str) : option Z :=
  match s with
  | ["Z"%char] | ["z"%char] => Some 0%Z
  | c :: s1 =>
      let sgn := if Ascii.eqb c "+" then Some 1%Z else if Ascii.eqb c "-" then Some (-1)%Z else None in
      match sgn, take_digits 2 0 s1 with
      | Some sg, Some (h, s2) =>
          let s3 := match s2 with ":"%char :: s' => s' | _ => s2 end in
          match take_digits 2 0 s3 with
          | Some (m, []) => if (m <? 60)%N && (h <? 24)%N
                            then Some (sg * (Z.of_N h * 3600 + Z.of_N m * 60))%Z else None
          | _ => None
          end
      | _, _ => None
      end
  | [] => None
  end.

(** [str::parse::<DateTime<FixedOffset>>] (RFC 3339, with "T", "t" or a space
    between date and time). chrono additionally tolerates white space between
    fields, the word UTC and leap seconds; not modelled. *)
Definition parse_rfc3339 (s : str) : option datetime :=
  match take_date s with
  | Some (d, sep :: s1) =>
      if Ascii.eqb sep "T" || Ascii.eqb sep "t" || Ascii.eqb sep " " then
        match take_digits 2 0 s1 with
        | Some (h, s2) =>
          match expect ":" s2 with
          | Some s3 =>
            match take_digits 2 0 s3 with
            | Some (mi, s4) =>
              match expect ":" s4 with
              | Some s5 =>
                match take_digits 2 0 s5 with
                | Some (se, s6) =>
                    let (nanos, s7) := match s6 with
                                       | "."%char :: s' => frac_nanos 9 0 s'
                                       | _ => (0%N, s6)
                                       end in
                    match take_offset s7 with
                    | Some off =>
                        if ((h <? 24) && (mi <? 60) && (se <? 60))%N then
                          Some {| dt_local := (d * 86400 + Z.of_N h * 3600 + Z.of_N mi * 60 + Z.of_N se)%Z;
                                  dt_nanos := Z.of_N nanos; dt_off := off |}
                        else None
                    | None => None
                    end
                | None => None
                end
              | None => None
              end
            | None => None
            end
          | None => None
          end
        | None => None
        end
      else None
  | _ => None
  end.

(** Fixed-width decimal, as chrono's %Y, %m, %d, %H, %M, %S print it. *)
Fixpoint padded (k : nat) (n : N) : str :=
  match k with
  | 0 => []
  | S k' => padded k' (n / 10) ++ [digit (n mod 10)]
  end.
