(** Adding an entity by answering prompts: firm_cli/src/commands/field_prompt.rs
    and commands/add.rs:290-420. The prompts themselves (the texts shown, and
    completion while typing) are those of the library inquire. *)
From Verif Require Import M_Graph.
From Verif Require Export M_Cli.
Close Scope Z_scope.

(** What the user does at the terminal: submits a line, picks from the list or
    the calendar that is shown, presses Escape or Ctrl-C. When there is nothing
    more the terminal is closed. *)
Inductive act := Types (s : str) | Picks (n : nat) | PicksDay (day : Z) | Escapes | Interrupts.
(** How a prompt ends: with a value, skipped, each with what is done
    afterwards, or with an error, which ends the command. *)
Inductive prompted (A : Type) := Got (a : A) (rest : list act) | Skipped (rest : list act) | Quit.
Arguments Got {A}. Arguments Skipped {A}. Arguments Quit {A}.

(** What prompts use of the libraries: [str::parse::<f64>],
    [Decimal::from_str_exact] and the codes of [Currency::iter]. *)
Record prompt_env := { pe_float : str -> option f64; pe_decimal : str -> option dec; pe_codes : list str }.

(** inquire 0.7, [prompt_skippable]: what is not accepted is refused with a
    message, and the prompt stays. *)
Fixpoint ask {A} (accept : act -> option A) (acts : list act) : prompted A :=
  match acts with
  | [] | Interrupts :: _ => Quit
  | Escapes :: r => Skipped r
  | a :: r => match accept a with Some x => Got x r | None => ask accept r end
  end.
(** inquire, [prompt]: Escape is an error. *)
Definition need {A} (skippable : bool) (p : prompted A) : prompted A :=
  match p with Skipped _ => if skippable then p else Quit | _ => p end.
Definition pbind {A B} (p : prompted A) (f : A -> list act -> prompted B) : prompted B :=
  match p with Got a r => f a r | Skipped r => Skipped r | Quit => Quit end.

(** Text and CustomType prompts with their parser, and the default that an
    empty line stands for. *)
Definition line {A} (parse : str -> option A) (a : act) : option A := match a with Types s => parse s | _ => None end.
Definition or_default {A} (x : A) (parse : str -> option A) (s : str) : option A := match s with [] => Some x | _ => parse s end.
(** Confirm. *)
Definition yes_no (s : str) : option bool :=
  let s := lower s in
  if str_eqb s (L "y") || str_eqb s (L "yes") then Some true
  else if str_eqb s (L "n") || str_eqb s (L "no") then Some false
  else None.
(** Select: an error if there are no options. *)
Definition select {A} (opts : list A) (acts : list act) : prompted A :=
  match opts with
  | [] => Quit
  | _ => ask (fun a => match a with Picks n => nth_error opts n | _ => None end) acts
  end.

(** ** Field values: field_prompt.rs *)
(** field_prompt.rs:80-121. The loop around the prompt is that of [ask]. *)
Definition full_text (s : str) : option str := match utrim s with [] => None | _ => Some s end.
(** field_prompt.rs:234-294: the validator and what is made of the answer. *)
Definition known_reference (g : graph) (s : str) : option ref_value :=
  match split_char "." s with
  | [t; i] =>
      let id := compose_entity_id t i in
      match get_entity g id with Some _ => Some (REntity id) | None => None end
  | [t; i; f] =>
      let id := compose_entity_id t i in
      match get_entity g id with
      | Some e => match get_field e (from_str f) with Some _ => Some (RField id f) | None => None end
      | None => None
      end
  | _ => None
  end.
(** field_prompt.rs:549-553. *)
Definition prompt_path (c : ctx) (target : path) (s : str) : str :=
  let abs := join_path (c_ws c) s in
  match parent target with
  | None => path_text abs
  | Some dir => match diff_go (parts abs) (parts dir) with Some cs => path_text cs | None => s end
  end.
(** field_prompt.rs:431-515. The time defaults to 12:00, the offset to that of
    the machine in hours; an offset out of range ends the command. The days
    that chrono cannot represent are not modelled. *)
Definition date_prompt (c : ctx) (sk : bool) (acts : list act) : prompted value :=
  pbind (need sk (ask (fun a => match a with PicksDay d => Some d | _ => None end) acts)) (fun day acts =>
  pbind (need sk (ask (line (or_default (12 * 3600)%Z parse_hm)) acts)) (fun secs acts =>
  pbind (need sk (ask (line (or_default (Z.quot (local_offset (c_env c)) 3600) parse_i32)) acts)) (fun h acts =>
  if ((-12 <=? h) && (h <=? 14))%Z
  then Got (VDate {| dt_local := (day * 86400 + secs)%Z; dt_nanos := 0; dt_off := (h * 3600)%Z |}) acts
  else Quit))).
(** field_prompt.rs:170-209. *)
Definition currency_prompt (pe : prompt_env) (sk : bool) (acts : list act) : prompted value :=
  pbind (need sk (ask (line (pe_decimal pe)) acts)) (fun a acts =>
  pbind (need false (select (pe_codes pe) acts)) (fun k acts => Got (VCur a k) acts)).
(** field_prompt.rs:602-622: Escape is an error whether or not the field is required. *)
Definition enum_prompt (allowed : option (list str)) (acts : list act) : prompted value :=
  match allowed with
  | Some vs => pbind (need false (select vs acts)) (fun x acts => Got (VEnum x) acts)
  | None => Quit
  end.
(** field_prompt.rs:22-59 but for lists. *)
Definition scalar_prompt (c : ctx) (pe : prompt_env) (g : graph) (target : path) (t : field_type) (sk : bool)
  (allowed : option (list str)) (acts : list act) : prompted value :=
  match t with
  | TBool => pbind (need sk (ask (line yes_no) acts)) (fun b acts => Got (VBool b) acts)
  | TStr => pbind (need sk (ask (line full_text) acts)) (fun s acts => Got (VStr s) acts)
  | TInt => pbind (need sk (ask (line parse_i64) acts)) (fun z acts => Got (VInt z) acts)
  | TFloat => pbind (need sk (ask (line (pe_float pe)) acts)) (fun f acts => Got (VFloat f) acts)
  | TCur => currency_prompt pe sk acts
  | TRef => pbind (need sk (ask (line (known_reference g)) acts)) (fun r acts => Got (VRef r) acts)
  | TDate => date_prompt c sk acts
  | TPath => pbind (need sk (ask (line Some) acts)) (fun s acts => Got (VPath (prompt_path c target s)) acts)
  | TEnum => enum_prompt allowed acts
  | TList => Quit
  end.
(** field_prompt.rs:368-375. *)
Definition item_types : list field_type := [TStr; TInt; TFloat; TBool; TDate; TCur].
(** field_prompt.rs:400-425. Every item takes at least one answer, so [n] is
    not reached when it exceeds the number of answers. *)
Fixpoint items_prompt (n : nat) (item : list act -> prompted value) (acts : list act) : prompted (list value) :=
  match n with
  | 0 => Quit
  | S n' =>
      match item acts with
      | Quit => Quit
      | Skipped r => Got [] r
      | Got v r => pbind (items_prompt n' item r) (fun vs r => Got (v :: vs) r)
      end
  end.
(** field_prompt.rs:22-59, 356-428. *)
Definition field_prompt (c : ctx) (pe : prompt_env) (g : graph) (target : path) (f : fschema) (acts : list act) : prompted value :=
  let sk := negb (fs_required f) in
  match fs_type f with
  | TList =>
      pbind (need sk (select item_types acts)) (fun t acts =>
      pbind (items_prompt (S (length acts)) (scalar_prompt c pe g target t true None) acts) (fun vs acts => Got (VList vs) acts))
  | t => scalar_prompt c pe g target t sk (fs_allowed f) acts
  end.

(** ** The entity: add.rs:290-420 *)
(** add.rs:370-384, 402-416. *)
Fixpoint fields_prompt (c : ctx) (pe : prompt_env) (g : graph) (target : path) (l : list (field_id * fschema)) (acts : list act)
  : prompted (list (field_id * value)) :=
  match l with
  | [] => Got [] acts
  | (i, f) :: l' =>
      match field_prompt c pe g target f acts with
      | Quit => Quit
      | Skipped r => fields_prompt c pe g target l' r
      | Got v r => pbind (fields_prompt c pe g target l' r) (fun fvs r => Got ((i, v) :: fvs) r)
      end
  end.
(** add.rs:362-369, 394-401. *)
Definition by_field_id (a b : field_id * fschema) : comparison := str_cmp (fst a) (fst b).
Definition fields_of (c : ctx) (required : bool) (s : schema) : list (field_id * fschema) :=
  sort_by by_field_id (filter (fun p => Bool.eqb (fs_required (snd p)) required) (c_fields c (s_fields s))).
(** add.rs:301-342; the file to write to besides. *)
Definition entity_prompt (c : ctx) (pe : prompt_env) (g : graph) (schemas : list schema) (file : option str) (acts : list act)
  : prompted (path * entity) :=
  pbind (need false (select (sort_by (fun a b => str_cmp (s_type a) (s_type b)) schemas) acts)) (fun s acts =>
  pbind (need false (ask (line Some) acts)) (fun name acts =>
  let id := compute_unique_entity_id g (s_type s) name in
  let target := dsl_path c (s_type s) file in
  pbind (fields_prompt c pe g target (fields_of c true s) acts) (fun req acts =>
  pbind (need false (ask (line (or_default false yes_no)) acts)) (fun more acts =>
  pbind (if more then fields_prompt c pe g target (fields_of c false s) acts else Got [] acts) (fun opt acts =>
  Got (target, {| e_id := id; e_type := s_type s; e_fields := req ++ opt |}) acts))))).
(** add.rs:290-354. *)
Definition add_interactive (c : ctx) (x : cli_env) (pe : prompt_env) (d : fs) (file : option str) (acts : list act) : fs * ended_as entity :=
  match load_current_graph (cl_json x) c d with
  | None => (d, Failed)
  | Some g =>
      match workspace_build c d with
      | Err _ => (d, Failed)
      | Panic => (d, Died)
      | Ok (_, b) =>
          match entity_prompt c pe g (b_schemas b) file acts with
          | Got (p, e) _ =>
              match write_dsl c d p (generate_dsl (c_env c) default_options [e]) with
              | (d1, true) => (d1, Succeeded e)
              | (d1, false) => (d1, Failed)
              end
          | _ => (d, Failed)
          end
      end
  end.
(** main.rs:24-96. *)
Definition run_interactive (c : ctx) (x : cli_env) (pe : prompt_env) (cached : bool) (d : fs) (file : option str) (acts : list act)
  : fs * ended_as entity :=
  match prepare c x d cached with
  | (d1, Succeeded _) => add_interactive c x pe d1 file acts
  | (d1, Failed) => (d1, Failed)
  | (d1, Died) => (d1, Died)
  end.
