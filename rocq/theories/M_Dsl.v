(** Values in the Firm DSL: firm_lang/src/generate, firm_lang/src/parser/dsl
    and firm_lang/src/convert/to_entity.rs.
    The tree-sitter grammar (an empty submodule in /repo) is not modelled:
    parsing starts from the syntax nodes it hands over, each with its kind,
    its text and its children. *)
From Verif Require Export M_Text M_Value M_Num.
Close Scope Z_scope.

(** What the code takes from outside: the machine's offset from UTC, the ISO
    4217 table, the shortest decimal text of a float ([Display for f64]) and
    whether the binary was built with arithmetic overflow checks. *)
Record dsl_env := {
  local_offset : Z;
  known_currency : str -> bool;
  show_f64 : f64 -> str;
  overflow_checks : bool
}.

(** ** Writing *)

(** firm_lang/src/generate/generator_options.rs:5-10, 24-43. *)
Inductive indent_style := Spaces (n : nat) | Tabs.
Definition indent_string (st : indent_style) (level : nat) : str :=
  match st with
  | Spaces n => repeat " "%char (level * n)
  | Tabs => repeat "009"%char level
  end.
Record gen_options := { g_indent : indent_style; g_blank : bool }.
Definition default_options : gen_options := {| g_indent := Spaces 4; g_blank := true |}.

(** The double quote. *)
Definition DQ : ascii := """".
Definition q3 : str := [DQ; DQ; DQ].

(** firm_lang/src/generate/from_value.rs:27-43. *)
Definition generate_string (s : str) (o : gen_options) : str :=
  if contains s [LF] then
    let ind := indent_string (g_indent o) 1 in
    q3 ++ [LF] ++ concat (map (fun l => ind ++ l ++ [LF]) (lines s)) ++ ind ++ q3
  else
    [DQ] ++ replace_str [DQ] ["\"%char; DQ] s ++ [DQ].

(** firm_lang/src/generate/from_value.rs:46-55. *)
Definition generate_float (env : dsl_env) (f : f64) : str :=
  let t := show_f64 env f in
  if contains t (L ".") then t else t ++ L ".0".

(** firm_lang/src/generate/from_value.rs:58-65. *)
Definition generate_reference (r : ref_value) : str :=
  match r with
  | REntity id => id
  | RField id f => id ++ L "." ++ f
  end.

(** chrono [format("%Y-%m-%d")] and [format("%H:%M")] for years 0 to 9999. *)
Definition format_date (day : Z) : str :=
  let '(y, m, d) := civil_of_days day in
  padded 4 (Z.to_N y) ++ L "-" ++ padded 2 (Z.to_N m) ++ L "-" ++ padded 2 (Z.to_N d).
Definition format_hm (secs : Z) : str :=
  padded 2 (Z.to_N (secs / 3600)) ++ L ":" ++ padded 2 (Z.to_N (secs / 60 mod 60)).

(** firm_lang/src/generate/from_value.rs:79-97; [/] on i32 truncates. *)
Definition generate_datetime (d : datetime) : str :=
  let tz :=
    if Z.eqb (dt_off d) 0 then L "UTC"
    else
      let hours := Z.quot (dt_off d) 3600 in
      if Z.ltb 0 hours then L "UTC+" ++ show_Z hours else L "UTC" ++ show_Z hours in
  format_date (dt_date d) ++ L " at " ++ format_hm (dt_secs d) ++ L " " ++ tz.

(** [Display for Decimal]: all digits of the mantissa, with the point placed
    [scale] digits from the right and at least one digit before it. *)
Definition show_dec (d : dec) : str :=
  let a := Z.abs_N (d_mant d) in
  let p := (10 ^ N.of_nat (d_scale d))%N in
  (if Z.ltb (d_mant d) 0 then L "-" else [])
    ++ show_N (a / p)
    ++ (match d_scale d with 0 => [] | _ => L "." ++ padded (d_scale d) (a mod p) end).

(** firm_lang/src/generate/from_value.rs:100-102, 105-107. *)
Definition generate_path (p : str) : str := L "path" ++ [DQ] ++ p ++ [DQ].
Definition generate_enum (s : str) : str := L "enum" ++ [DQ] ++ s ++ [DQ].

(** firm_lang/src/generate/from_value.rs:9-24, 68-76 (lists). *)
Fixpoint generate_value (env : dsl_env) (o : gen_options) (v : value) : str :=
  match v with
  | VBool b => if b then L "true" else L "false"
  | VStr s => generate_string s o
  | VInt i => show_Z i
  | VFloat f => generate_float env f
  | VCur a c => show_dec a ++ L " " ++ c
  | VRef r => generate_reference r
  | VList vs =>
      match vs with
      | [] => L "[]"
      | _ => L "[" ++ join (L ", ") (map (generate_value env o) vs) ++ L "]"
      end
  | VDate d => generate_datetime d
  | VPath p => generate_path p
  | VEnum s => generate_enum s
  end.

(** firm_lang/src/generate/from_field.rs:6-13. *)
Definition generate_field (env : dsl_env) (o : gen_options) (name : str) (v : value) : str :=
  name ++ L " = " ++ generate_value env o v.

(** firm_lang/src/generate/from_entity.rs:6-28, 31-47. *)
Definition generate_entity (env : dsl_env) (o : gen_options) (e : entity) : str :=
  let (_, id) := decompose_entity_id (e_id e) in
  lower (e_type e) ++ L " " ++ id ++ L " {" ++ [LF]
    ++ concat (map (fun fv => indent_string (g_indent o) 1
                              ++ generate_field env o (fst fv) (snd fv) ++ [LF]) (e_fields e))
    ++ L "}" ++ [LF].

(** firm_lang/src/generate/mod.rs, [generate_dsl_with_options]. *)
Fixpoint generate_dsl (env : dsl_env) (o : gen_options) (es : list entity) : str :=
  match es with
  | [] => []
  | [e] => generate_entity env o e
  | e :: es' => generate_entity env o e ++ (if g_blank o then [LF] else []) ++ generate_dsl env o es'
  end.

(** ** Reading *)

(** firm_lang/src/parser/dsl/parsed_value.rs:50-79. *)
Inductive pvalue :=
| PBool (b : bool)
| PStr (s : str)
| PInt (z : Z)
| PFloat (f : f64)
| PCur (amount : dec) (code : str)
| PEntityRef (t i : str)
| PFieldRef (t i f : str)
| PList (l : list pvalue)
| PDate (d : datetime)
| PPath (p : str)
| PEnum (s : str).

(** firm_lang/src/parser/dsl/parser_errors.rs. *)
Inductive perr :=
| InvalidBoolean (raw : str)
| InvalidInteger (raw : str)
| InvalidFloat (raw : str)
| InvalidCurrencyAmount (raw : str)
| InvalidCurrencyCode (raw : str)
| InvalidCurrencyFormat (raw : str) (parts : nat)
| InvalidReferenceFormat (raw : str) (parts : nat)
| HeterogeneousList (expected found : str) (index : nat)
| InvalidDate (raw : str)
| InvalidDateTime (raw : str)
| InvalidTimezone (raw : str)
| UnknownValueKind
| MissingParseMethod
| MissingValue.

Definition presult := outcome perr.

(** firm_lang/src/parser/dsl/parsed_value.rs:83-97. *)
Definition type_name (p : pvalue) : str :=
  match p with
  | PBool _ => L "Boolean"
  | PStr _ => L "String"
  | PInt _ => L "Integer"
  | PFloat _ => L "Float"
  | PCur _ _ => L "Currency"
  | PEntityRef _ _ => L "EntityReference"
  | PFieldRef _ _ _ => L "FieldReference"
  | PList _ => L "List"
  | PDate _ => L "DateTime"
  | PPath _ => L "Path"
  | PEnum _ => L "Enum"
  end.

(** firm_lang/src/parser/dsl/parsed_value.rs:133-137. *)
Definition parse_boolean (raw : str) : presult pvalue :=
  if str_eqb raw (L "true") then Ok (PBool true)
  else if str_eqb raw (L "false") then Ok (PBool false)
  else Err (InvalidBoolean raw).

(** firm_lang/src/parser/dsl/parsed_value.rs:368-393. The minimum is taken over
    the non-blank lines, in bytes. *)
Definition line_indent (l : str) : nat := length l - length (utrim_start l).
Definition blank (l : str) : bool := match utrim l with [] => true | _ => false end.
Fixpoint list_min (l : list nat) : option nat :=
  match l with
  | [] => None
  | x :: l' => match list_min l' with Some m => Some (Nat.min x m) | None => Some x end
  end.
Definition min_indent (ls : list str) : nat :=
  match list_min (map line_indent (filter (fun l => negb (blank l)) ls)) with
  | Some m => m
  | None => 0
  end.
Definition dedent_line (k : nat) (l : str) : presult str :=
  if k <=? length l then slice_from k l else Ok l.
Definition trim_common_indentation (s : str) : presult str :=
  let ls := lines s in
  obind (omap (dedent_line (min_indent ls)) ls) (fun ds => Ok (utrim (join [LF] ds))).

(** firm_lang/src/parser/dsl/parsed_value.rs:140-155. *)
Definition parse_string (raw : str) : presult pvalue :=
  if starts_with raw q3 && ends_with raw q3 then
    obind (trim_common_indentation (trim_end_pat q3 (trim_start_pat q3 raw))) (fun s => Ok (PStr s))
  else Ok (PStr (trim_matches_char DQ raw)).

(** firm_lang/src/parser/dsl/parsed_value.rs:158-171. *)
Definition parse_number (raw : str) : presult pvalue :=
  if contains raw (L ".") then
    match parse_f64 raw with Some f => Ok (PFloat f) | None => Err (InvalidFloat raw) end
  else
    match parse_i64 raw with Some z => Ok (PInt z) | None => Err (InvalidInteger raw) end.

(** [Decimal::from_str_exact] on the shape [-]digits[.digits]: the scale is the
    number of digits after the point; an amount that does not fit exactly in 96
    bits and 28 decimals is an error. Underscores and a missing integer part,
    which the grammar does not produce, are not modelled. *)
Definition parse_dec (s : str) : option dec :=
  let (neg, s) := match s with
                  | "-"%char :: s' => (true, s')
                  | _ => (false, s)
                  end in
  let r := match split_once "."%char s with
           | None => option_map (fun n => (n, 0)) (parse_N s)
           | Some (a, b) =>
               match parse_N (a ++ b), a, b with
               | Some n, _ :: _, _ :: _ => Some (n, length b)
               | _, _, _ => None
               end
           end in
  match r with
  | Some (n, sc) =>
      if Z.ltb (Z.of_N n) dec_limit && (sc <=? 28)
      then Some {| d_mant := if neg then (- Z.of_N n)%Z else Z.of_N n; d_scale := sc |}
      else None
  | None => None
  end.

(** firm_lang/src/parser/dsl/parsed_value.rs:174-194. *)
Definition parse_currency (env : dsl_env) (raw : str) : presult pvalue :=
  match split_char " " raw with
  | [a; c] =>
      match parse_dec a with
      | None => Err (InvalidCurrencyAmount a)
      | Some d => if known_currency env c then Ok (PCur d c) else Err (InvalidCurrencyCode c)
      end
  | parts => Err (InvalidCurrencyFormat raw (length parts))
  end.

(** firm_lang/src/parser/dsl/parsed_value.rs:197-217. *)
Definition parse_reference (raw : str) : presult pvalue :=
  match split_char "." raw with
  | [t; i] => Ok (PEntityRef t i)
  | [t; i; f] => Ok (PFieldRef t i f)
  | parts => Err (InvalidReferenceFormat raw (length parts))
  end.

(** firm_lang/src/parser/dsl/parsed_value.rs:221-246. *)
Fixpoint check_items (expected : option str) (index : nat) (items : list pvalue) : option perr :=
  match items with
  | [] => None
  | it :: rest =>
      match expected with
      | None => check_items (Some (type_name it)) (S index) rest
      | Some ex =>
          if str_eqb (type_name it) ex then check_items expected (S index) rest
          else Some (HeterogeneousList ex (type_name it) index)
      end
  end.
Definition parse_list_from_vec (items : list pvalue) : presult pvalue :=
  match check_items None 0 items with
  | None => Ok (PList items)
  | Some e => Err e
  end.

(** firm_lang/src/parser/dsl/parsed_value.rs:275-291. A fixed offset maps every
    local time to exactly one instant. *)
Definition parse_date (env : dsl_env) (raw : str) : presult pvalue :=
  match parse_naive_date raw with
  | Some d => Ok (PDate {| dt_local := (d * 86400)%Z; dt_nanos := 0; dt_off := local_offset env |})
  | None => Err (InvalidDate raw)
  end.

(** [str::parse::<i32>]. *)
Definition in_i32 (z : Z) : bool := ((- 2 ^ 31 <=? z) && (z <? 2 ^ 31))%Z.
Definition parse_i32 (s : str) : option Z :=
  match parse_i64 s with
  | Some z => if in_i32 z then Some z else None
  | None => None
  end.
(** i32 multiplication: panics when overflow checks are on, wraps otherwise. *)
Definition wrap_i32 (z : Z) : Z := ((z + 2 ^ 31) mod 2 ^ 32 - 2 ^ 31)%Z.
Definition mul_i32 (checks : bool) (a b : Z) : presult Z :=
  if in_i32 (a * b) then Ok (a * b)%Z
  else if checks then Panic else Ok (wrap_i32 (a * b)).
(** [FixedOffset::east_opt]. *)
Definition east_opt (secs : Z) : option Z :=
  if ((- 86400 <? secs) && (secs <? 86400))%Z then Some secs else None.

(** firm_lang/src/parser/dsl/parsed_value.rs:396-408. *)
Definition parse_utc_offset (env : dsl_env) (s : str) : presult Z :=
  match s with
  | [] => Ok 0%Z
  | _ =>
      match parse_i32 s with
      | None => Err (InvalidTimezone s)
      | Some h =>
          obind (mul_i32 (overflow_checks env) h 3600)
                (fun secs => of_option (InvalidTimezone s) (east_opt secs))
      end
  end.

(** chrono's [%H] and [%M] (and [%k]): one or two digits. *)
Definition take_two (s : str) : option (N * str) :=
  match s with
  | c :: s' =>
      if is_digit c then
        match s' with
        | c2 :: s'' => if is_digit c2 then Some (((code c - 48) * 10 + (code c2 - 48))%N, s'')
                       else Some ((code c - 48)%N, s')
        | [] => Some ((code c - 48)%N, s')
        end
      else None
  | [] => None
  end.
(** [NaiveTime::parse_from_str(s, "%H:%M")], seconds of the day. White space
    between the fields, which chrono also accepts, is not modelled. *)
Definition parse_hm (s : str) : option Z :=
  match take_two s with
  | Some (h, s1) =>
      match expect ":" s1 with
      | Some s2 =>
          match take_two s2 with
          | Some (m, []) =>
              if ((h <? 24) && (m <? 60))%N then Some (Z.of_N h * 3600 + Z.of_N m * 60)%Z else None
          | _ => None
          end
      | None => None
      end
  | None => None
  end.

(** firm_lang/src/parser/dsl/parsed_value.rs:294-330. *)
Definition parse_datetime (env : dsl_env) (raw : str) : presult pvalue :=
  match split_str (L " at ") raw with
  | [date_part; time_and_tz] =>
      match parse_naive_date date_part with
      | None => Err (InvalidDateTime raw)
      | Some day =>
          obind (if contains time_and_tz (L " UTC") then
                   match split_str (L " UTC") time_and_tz with
                   | t :: z :: _ => obind (parse_utc_offset env z) (fun o => Ok (t, o))
                   | [t] => obind (parse_utc_offset env []) (fun o => Ok (t, o))
                   | [] => Panic
                   end
                 else Ok (time_and_tz, local_offset env))
                (fun '(t, off) =>
                   match parse_hm t with
                   | None => Err (InvalidDateTime raw)
                   | Some secs =>
                       Ok (PDate {| dt_local := (day * 86400 + secs)%Z; dt_nanos := 0; dt_off := off |})
                   end)
      end
  | _ => Err (InvalidDateTime raw)
  end.

(** [Path] as its text; [components]: the parts between slashes without the
    empty ones and ".". (A leading "." is a component for std, but
    [path_clean] drops it.) Unix paths only. *)
Definition is_absolute (p : str) : bool := starts_with p (L "/").
Definition components (p : str) : list str :=
  filter (fun c => negb (str_eqb c []) && negb (str_eqb c (L "."))) (split_char "/" p).
(** path_clean 1.0 [clean]: ".." removes the last ordinary component, is
    dropped at the root and kept at the start of a relative path.
    [out] is reversed. *)
Fixpoint clean_go (abs : bool) (out comps : list str) : list str :=
  match comps with
  | [] => rev out
  | c :: cs =>
      if str_eqb c (L "..") then
        match out with
        | [] => if abs then clean_go abs [] cs else clean_go abs [c] cs
        | o :: out' => if str_eqb o (L "..") then clean_go abs (c :: out) cs else clean_go abs out' cs
        end
      else clean_go abs (c :: out) cs
  end.
Definition clean (p : str) : str :=
  let abs := is_absolute p in
  let cs := clean_go abs [] (components p) in
  if abs then L "/" ++ join (L "/") cs
  else match cs with [] => L "." | _ => join (L "/") cs end.
(** [Path::starts_with("..")]: by components. *)
Definition starts_with_parent (p : str) : bool :=
  match split_char "/" p with c :: _ => str_eqb c (L "..") | [] => false end.
(** [Path::join]. *)
Definition path_join (a b : str) : str :=
  if is_absolute b then b
  else match a with
       | [] => b
       | _ => if ends_with a (L "/") then a ++ b else a ++ L "/" ++ b
       end.
(** [Path::parent] of a workspace-relative path as [strip_prefix] yields it:
    components joined by single slashes; the empty path has none. *)
Definition path_parent (p : str) : option str :=
  match p with
  | [] => None
  | _ => Some (join (L "/") (removelast (split_char "/" p)))
  end.

(** firm_lang/src/parser/dsl/parsed_value.rs:337-359. *)
Definition parse_path (raw source_path : str) : presult pvalue :=
  let target := trim_matches_char DQ (replace_str (L "path" ++ [DQ]) [] raw) in
  let combined :=
    if is_absolute target then target
    else match path_parent source_path with
         | Some dir => path_join dir target
         | None => target
         end in
  let cleaned := clean combined in
  Ok (PPath (if negb (is_absolute cleaned) && negb (starts_with_parent cleaned)
             then path_join (L "./") cleaned else cleaned)).

(** firm_lang/src/parser/dsl/parsed_value.rs:362-365. *)
Definition parse_enum (raw : str) : presult pvalue :=
  Ok (PEnum (trim_matches_char DQ (replace_str (L "enum" ++ [DQ]) [] raw))).

(** A [value] node of the syntax tree: the kind of its first child (if any),
    its text, and the [value] children of that first child. *)
Inductive vkind :=
| KBoolean | KString | KNumber | KCurrency | KReference | KList
| KDateTime | KDate | KPath | KEnum | KUnknown (name : str).
Inductive vnode := VNode (kind : option vkind) (raw : str) (items : list vnode).

(** firm_lang/src/parser/dsl/parsed_value.rs:100-123, 250-272. *)
Fixpoint from_node (env : dsl_env) (path : str) (n : vnode) : presult pvalue :=
  match n with
  | VNode None _ _ => Err UnknownValueKind
  | VNode (Some k) raw items =>
      match k with
      | KBoolean => parse_boolean raw
      | KString => parse_string raw
      | KNumber => parse_number raw
      | KCurrency => parse_currency env raw
      | KReference => parse_reference raw
      | KList => obind (omap (from_node env path) items) parse_list_from_vec
      | KDate => parse_date env raw
      | KDateTime => parse_datetime env raw
      | KPath => parse_path raw path
      | KEnum => parse_enum raw
      | KUnknown _ => Err MissingParseMethod
      end
  end.

(** ** Conversion to entities *)

(** firm_lang/src/convert/to_entity.rs:41-86. *)
Fixpoint to_value (p : pvalue) : value :=
  match p with
  | PBool b => VBool b
  | PStr s => VStr s
  | PInt z => VInt z
  | PFloat f => VFloat f
  | PCur a c => VCur a c
  | PEntityRef t i => VRef (REntity (compose_entity_id t i))
  | PFieldRef t i f => VRef (RField (compose_entity_id t i) f)
  | PList l => VList (map to_value l)
  | PDate d => VDate d
  | PPath p => VPath p
  | PEnum s => VEnum s
  end.

(** Syntax nodes of fields and entity blocks (parsed_field.rs, parsed_entity.rs):
    the text of the first child of each kind, if there is one. *)
Record fnode := { fn_id : option str; fn_value : option vnode }.
Record enode := { en_type : option str; en_id : option str; en_fields : list fnode }.

(** firm_lang/src/convert/conversion_errors.rs. *)
Inductive cerr := MissingEntityType | MissingEntityId | MissingFieldId | InvalidFieldValue.

(** firm_lang/src/parser/dsl/parsed_field.rs:37-42. *)
Definition field_value (env : dsl_env) (path : str) (f : fnode) : presult pvalue :=
  match fn_value f with
  | None => Err MissingValue
  | Some n => from_node env path n
  end.

(** firm_lang/src/convert/to_entity.rs:7-38. *)
Definition convert_field (env : dsl_env) (path : str) (f : fnode) : outcome cerr (field_id * value) :=
  obind (of_option MissingFieldId (fn_id f)) (fun id =>
  obind (omap_err (fun _ => InvalidFieldValue) (field_value env path f)) (fun p =>
  Ok (id, to_value p))).
Definition to_entity (env : dsl_env) (path : str) (n : enode) : outcome cerr entity :=
  obind (of_option MissingEntityType (en_type n)) (fun t =>
  obind (of_option MissingEntityId (en_id n)) (fun i =>
  obind (omap (convert_field env path) (en_fields n)) (fun fs =>
  Ok {| e_id := compose_entity_id t i; e_type := t; e_fields := fs |}))).
