(** JSON text: serde_json 1.0 with its default features, as far as
    [serde_json::to_string] and [serde_json::from_str] are used on the graph
    (firm_cli/src/files.rs:30-61, 64-93). Library behaviour, modelled from its
    documentation and published source. Reading is split into text to tree and
    tree to data; the library does both at once. *)
From Verif Require Export M_Num.

Definition QT : ascii := """".
Definition BSL : ascii := "\".

(** A number keeps the distinction the library makes: an integer that fits 64
    bits, or a float. *)
Inductive jv :=
| JvNull
| JvBool (b : bool)
| JvInt (z : Z)
| JvFloat (f : f64)
| JvStr (s : str)
| JvArr (l : list jv)
| JvObj (l : list (str * jv)).

(** ** Writing: the compact formatter *)

Definition hex_digit (n : N) : ascii := if (n <? 10)%N then digit n else ascii_of_N (87 + n).
(** One byte of a string. *)
Definition escape (c : ascii) : str :=
  if Ascii.eqb c QT then [BSL; QT]
  else if Ascii.eqb c BSL then [BSL; BSL]
  else if (code c <? 32)%N then
    if (code c =? 8)%N then L "\b" else if (code c =? 9)%N then L "\t" else if (code c =? 10)%N then L "\n"
    else if (code c =? 12)%N then L "\f" else if (code c =? 13)%N then L "\r"
    else L "\u00" ++ [hex_digit (code c / 16); hex_digit (code c mod 16)]
  else [c].
Definition quote (s : str) : str := [QT] ++ concat (map escape s) ++ [QT].

(** [wf] is the decimal text of a finite float (the ryu library); what is not
    finite is written as null. *)
Fixpoint show_jv (wf : f64 -> str) (v : jv) : str :=
  match v with
  | JvNull => L "null"
  | JvBool b => if b then L "true" else L "false"
  | JvInt z => show_Z z
  | JvFloat f => if f_is_finite f then wf f else L "null"
  | JvStr s => quote s
  | JvArr l => L "[" ++ join (L ",") (map (show_jv wf) l) ++ L "]"
  | JvObj l => L "{" ++ join (L ",") (map (fun kv => quote (fst kv) ++ L ":" ++ show_jv wf (snd kv)) l) ++ L "}"
  end.

(** ** Reading *)

Definition is_ws (c : ascii) : bool := ((code c =? 32) || (code c =? 10) || (code c =? 9) || (code c =? 13))%N.
Fixpoint skip_ws (s : str) : str :=
  match s with
  | c :: s' => if is_ws c then skip_ws s' else s
  | [] => []
  end.
(** The longest beginning made of such characters, and the rest. *)
Fixpoint take_run (p : ascii -> bool) (s : str) : str * str :=
  match s with
  | c :: s' => if p c then let (a, b) := take_run p s' in (c :: a, b) else ([], s)
  | [] => ([], [])
  end.
(** A literal word. *)
Fixpoint word (w s : str) : option str :=
  match w with
  | [] => Some s
  | c :: w' => match s with
               | c' :: s' => if Ascii.eqb c c' then word w' s' else None
               | [] => None
               end
  end.

(** *** Strings *)
Definition hex_val (c : ascii) : option N :=
  if is_digit c then Some (code c - 48)%N
  else if ((97 <=? code c) && (code c <=? 102))%N then Some (code c - 87)%N
  else if ((65 <=? code c) && (code c <=? 70))%N then Some (code c - 55)%N
  else None.
Definition hex4 (a b c d : ascii) : option N :=
  match hex_val a, hex_val b, hex_val c, hex_val d with
  | Some a, Some b, Some c, Some d => Some (((a * 16 + b) * 16 + c) * 16 + d)%N
  | _, _, _, _ => None
  end.
(** The UTF-8 bytes of a scalar value. *)
Definition utf8_of (n : N) : str :=
  if (n <? 128)%N then [ascii_of_N n]
  else if (n <? 2048)%N then [ascii_of_N (192 + n / 64); ascii_of_N (128 + n mod 64)]
  else if (n <? 65536)%N then [ascii_of_N (224 + n / 4096); ascii_of_N (128 + n / 64 mod 64); ascii_of_N (128 + n mod 64)]
  else [ascii_of_N (240 + n / 262144); ascii_of_N (128 + n / 4096 mod 64); ascii_of_N (128 + n / 64 mod 64); ascii_of_N (128 + n mod 64)].
Definition simple_escape (c : ascii) : option ascii :=
  if Ascii.eqb c QT then Some QT else if Ascii.eqb c BSL then Some BSL else if Ascii.eqb c "/" then Some "/"%char
  else if Ascii.eqb c "b" then Some "008"%char else if Ascii.eqb c "f" then Some "012"%char
  else if Ascii.eqb c "n" then Some "010"%char else if Ascii.eqb c "r" then Some "013"%char
  else if Ascii.eqb c "t" then Some "009"%char else None.
Definition prepend (a : str) (r : option (str * str)) : option (str * str) :=
  match r with Some (s, rest) => Some (a ++ s, rest) | None => None end.
(** After the opening quote: the content, and what follows the closing one. *)
Fixpoint read_str (s : str) : option (str * str) :=
  match s with
  | [] => None
  | c :: s1 =>
      if Ascii.eqb c QT then Some ([], s1)
      else if Ascii.eqb c BSL then
        match s1 with
        | [] => None
        | e :: s2 =>
            if Ascii.eqb e "u" then
              match s2 with
              | a1 :: a2 :: a3 :: a4 :: s3 =>
                  match hex4 a1 a2 a3 a4 with
                  | None => None
                  | Some n =>
                      if ((56320 <=? n) && (n <=? 57343))%N then None
                      else if ((55296 <=? n) && (n <=? 56319))%N then
                        match s3 with
                        | x :: y :: b1 :: b2 :: b3 :: b4 :: s4 =>
                            if Ascii.eqb x BSL && Ascii.eqb y "u" then
                              match hex4 b1 b2 b3 b4 with
                              | Some m => if ((56320 <=? m) && (m <=? 57343))%N
                                          then prepend (utf8_of (65536 + (n - 55296) * 1024 + (m - 56320))) (read_str s4)
                                          else None
                              | None => None
                              end
                            else None
                        | _ => None
                        end
                      else prepend (utf8_of n) (read_str s3)
                  end
              | _ => None
              end
            else match simple_escape e with
                 | Some c' => prepend [c'] (read_str s2)
                 | None => None
                 end
        end
      else if (code c <? 32)%N then None
      else prepend [c] (read_str s1)
  end.

(** *** Numbers *)
Definition u64_max : N := 18446744073709551615.
Definition i32_max : N := 2147483647.
(** The digits are added up while the sum fits 64 bits; the remaining ones. *)
Fixpoint accumulate (sig : N) (ds : str) : N * str :=
  match ds with
  | c :: ds' => let n := (sig * 10 + (code c - 48))%N in
                if (n <=? u64_max)%N then accumulate n ds' else (sig, ds)
  | [] => (sig, [])
  end.
Definition f_mul : f64 -> f64 -> f64 := SFmul fprec femax.
(** The library's table of powers of ten, up to the 308th. *)
Definition f_pow10 (k : Z) : f64 := f_of_Z (10 ^ k).
(** [f64_from_parts]: one multiplication or division by a power of ten, each of
    which rounds. Below the 308th power it divides repeatedly, which reaches
    zero after at most three rounds. *)
Fixpoint from_parts (rounds : nat) (f : f64) (e : Z) : option f64 :=
  if (Z.abs e <=? 308)%Z then
    if (0 <=? e)%Z then let r := f_mul f (f_pow10 e) in if f_is_finite r then Some r else None
    else Some (f_div f (f_pow10 (- e)))
  else if f_eq f f_zero then Some f
  else if (0 <=? e)%Z then None
  else match rounds with
       | 0 => None
       | S k => from_parts k (f_div f (f_pow10 308)) (e + 308)
       end.
Definition f_opp : f64 -> f64 := SFopp.
Definition signed (neg : bool) (f : f64) : f64 := if neg then f_opp f else f.
Definition f64_from_parts (neg : bool) (sig : N) (e : Z) : option f64 :=
  option_map (signed neg) (from_parts 3 (f_of_Z (Z.of_N sig)) e).
(** The parts of a number: sign, digits before the point, digits after it and
    the exponent's sign and digits. *)
Definition number_of (neg : bool) (ints : str) (frac : option str) (ex : option (bool * str)) : option jv :=
  let (sig, more) := accumulate 0 ints in
  match frac, ex with
  | None, None =>
      match more with
      | [] => if neg then
                if ((sig =? 0) || (9223372036854775808 <? sig))%N then Some (JvFloat (f_opp (f_of_Z (Z.of_N sig))))
                else Some (JvInt (- Z.of_N sig))
              else Some (JvInt (Z.of_N sig))
      | _ => option_map JvFloat (f64_from_parts neg sig (Z.of_nat (length more)))
      end
  | _, _ =>
      let before := Z.of_nat (length more) in
      let (sig, e) := match frac with
                      | Some ds => let (sig', rest) := accumulate sig ds in
                                   (sig', before - Z.of_nat (length ds - length rest))%Z
                      | None => (sig, before)
                      end in
      match ex with
      | None => option_map JvFloat (f64_from_parts neg sig e)
      | Some (down, ds) =>
          match digits_val 0 ds with
          | None => None
          | Some k =>
              if (i32_max <? k)%N then
                if negb (sig =? 0)%N && negb down then None else Some (JvFloat (signed neg f_zero))
              else option_map JvFloat (f64_from_parts neg sig (if down then e - Z.of_N k else e + Z.of_N k))
          end
      end
  end.
Definition no_leading_zero (ints : str) : bool :=
  match ints with
  | [] => false
  | [_] => true
  | c :: _ => negb (Ascii.eqb c "0")
  end.
Definition read_exponent (s : str) : option (option (bool * str) * str) :=
  match s with
  | c :: s1 =>
      if Ascii.eqb c "e" || Ascii.eqb c "E" then
        let (down, s2) := match s1 with
                          | d :: s' => if Ascii.eqb d "-" then (true, s') else if Ascii.eqb d "+" then (false, s') else (false, s1)
                          | [] => (false, [])
                          end in
        let (ds, s3) := take_run is_digit s2 in
        match ds with [] => None | _ => Some (Some (down, ds), s3) end
      else Some (None, s)
  | [] => Some (None, [])
  end.
Definition read_fraction (s : str) : option (option str * str) :=
  match s with
  | c :: s1 =>
      if Ascii.eqb c "." then
        let (ds, s2) := take_run is_digit s1 in
        match ds with [] => None | _ => Some (Some ds, s2) end
      else Some (None, s)
  | [] => Some (None, [])
  end.
(** [nv] is what the parts of a number stand for: [number_of], but for proofs. *)
Definition number_reader := bool -> str -> option str -> option (bool * str) -> option jv.
Definition read_unsigned (nv : number_reader) (neg : bool) (s : str) : option (jv * str) :=
  let (ints, s1) := take_run is_digit s in
  if no_leading_zero ints then
    match read_fraction s1 with
    | None => None
    | Some (frac, s2) =>
        match read_exponent s2 with
        | None => None
        | Some (ex, s3) => option_map (fun v => (v, s3)) (nv neg ints frac ex)
        end
    end
  else None.
Definition read_number (nv : number_reader) (s : str) : option (jv * str) :=
  match s with
  | c :: s' => if Ascii.eqb c "-" then read_unsigned nv true s' else read_unsigned nv false s
  | [] => None
  end.

(** *** Values *)
(** [rv] reads a value. Each round reads one member, so as many rounds as there
    are characters are enough. *)
Fixpoint read_items (rv : str -> option (jv * str)) (rounds : nat) (s : str) : option (list jv * str) :=
  match rounds with
  | 0 => None
  | S k =>
      match rv s with
      | None => None
      | Some (v, s1) =>
          match skip_ws s1 with
          | c :: s2 =>
              if Ascii.eqb c "," then
                match read_items rv k s2 with Some (l, s3) => Some (v :: l, s3) | None => None end
              else if Ascii.eqb c "]" then Some ([v], s2) else None
          | [] => None
          end
      end
  end.
Fixpoint read_members (rv : str -> option (jv * str)) (rounds : nat) (s : str) : option (list (str * jv) * str) :=
  match rounds with
  | 0 => None
  | S k =>
      match skip_ws s with
      | q :: s0 =>
          if Ascii.eqb q QT then
            match read_str s0 with
            | None => None
            | Some (key, s1) =>
                match skip_ws s1 with
                | c :: s2 =>
                    if Ascii.eqb c ":" then
                      match rv s2 with
                      | None => None
                      | Some (v, s3) =>
                          match skip_ws s3 with
                          | d :: s4 =>
                              if Ascii.eqb d "," then
                                match read_members rv k s4 with Some (l, s5) => Some ((key, v) :: l, s5) | None => None end
                              else if Ascii.eqb d "}" then Some ([(key, v)], s4) else None
                          | [] => None
                          end
                      end
                    else None
                | [] => None
                end
            end
          else None
      | [] => None
      end
  end.
(** [depth] is how many containers may still be entered. *)
Fixpoint read_value (nv : number_reader) (depth : nat) (s : str) : option (jv * str) :=
  match skip_ws s with
  | [] => None
  | c :: s1 =>
      if Ascii.eqb c "n" then option_map (fun r => (JvNull, r)) (word (L "ull") s1)
      else if Ascii.eqb c "t" then option_map (fun r => (JvBool true, r)) (word (L "rue") s1)
      else if Ascii.eqb c "f" then option_map (fun r => (JvBool false, r)) (word (L "alse") s1)
      else if Ascii.eqb c QT then match read_str s1 with Some (t, r) => Some (JvStr t, r) | None => None end
      else if Ascii.eqb c "[" then
        match depth with
        | 0 => None
        | S d =>
            match skip_ws s1 with
            | x :: r => if Ascii.eqb x "]" then Some (JvArr [], r)
                        else match read_items (read_value nv d) (length s1) s1 with
                             | Some (l, r) => Some (JvArr l, r)
                             | None => None
                             end
            | [] => None
            end
        end
      else if Ascii.eqb c "{" then
        match depth with
        | 0 => None
        | S d =>
            match skip_ws s1 with
            | x :: r => if Ascii.eqb x "}" then Some (JvObj [], r)
                        else match read_members (read_value nv d) (length s1) s1 with
                             | Some (l, r) => Some (JvObj l, r)
                             | None => None
                             end
            | [] => None
            end
        end
      else read_number nv (c :: s1)
  end.
(** The library allows 128 levels and counts the innermost value as one. *)
Definition max_depth : nat := 127.
(** [from_str]: one value and nothing after it. *)
Definition read_json (s : str) : option jv :=
  match read_value number_of max_depth s with
  | Some (v, r) => match skip_ws r with [] => Some v | _ => None end
  | None => None
  end.
