(** A parser of the documented syntax (S_Syntax.v), to show that there is one;
    nothing in the repository. dsl_reference_content.rs:7-156 describes what it
    reads. Texts outside the syntax give a tree with an error and nothing else:
    the recovery of tree-sitter is not described there. *)
From Verif Require Import M_Graph.
From Verif Require Export M_Json M_Server.
Close Scope Z_scope.

(** ** White space and comments *)
Fixpoint drop_line (s : str) : str :=
  match s with
  | [] => []
  | c :: s' => if Ascii.eqb c LF then s else drop_line s'
  end.
Fixpoint drop_comment (s : str) : option str :=
  match s with
  | [] => None
  | c :: s1 =>
      match s1 with
      | d :: s2 => if Ascii.eqb c "*" && Ascii.eqb d "/" then Some s2 else drop_comment s1
      | [] => None
      end
  end.
Fixpoint skip_gap (n : nat) (s : str) : str :=
  match n with
  | 0 => s
  | S k =>
      match s with
      | [] => []
      | c :: s1 =>
          if is_ws c then skip_gap k s1
          else if Ascii.eqb c "/" then
            match s1 with
            | d :: s2 =>
                if Ascii.eqb d "/" then skip_gap k (drop_line s2)
                else if Ascii.eqb d "*" then match drop_comment s2 with Some s3 => skip_gap k s3 | None => s end
                else s
            | [] => s
            end
          else s
      end
  end.
Definition skip (s : str) : str := skip_gap (S (length s)) s.

(** ** Values *)
Definition name_char (c : ascii) : bool := is_alpha c || is_digit c || Ascii.eqb c "_".
Definition name_start (c : ascii) : bool := is_alpha c || Ascii.eqb c "_".
(** Numbers, dates, references and words are made of these. *)
Definition dark (c : ascii) : bool :=
  name_char c || Ascii.eqb c "." || Ascii.eqb c ":" || Ascii.eqb c "+" || Ascii.eqb c "-".
Definition is_name (s : str) : bool :=
  match s with c :: r => name_start c && forallb name_char r | [] => false end.
Definition all_digits (s : str) : bool := negb (str_eqb s []) && forallb is_digit s.
Definition is_number (s : str) : bool :=
  let s := match s with c :: r => if Ascii.eqb c "-" then r else s | [] => [] end in
  match split_once "." s with
  | Some (a, b) => all_digits a && all_digits b
  | None => all_digits s
  end.
Definition is_date (s : str) : bool :=
  match s with
  | [y1; y2; y3; y4; d1; m1; m2; d2; a1; a2] =>
      forallb is_digit [y1; y2; y3; y4; m1; m2; a1; a2] && Ascii.eqb d1 "-" && Ascii.eqb d2 "-"
  | _ => false
  end.
Definition is_time (s : str) : bool :=
  match s with
  | [h; c; m1; m2] => forallb is_digit [h; m1; m2] && Ascii.eqb c ":"
  | [h1; h2; c; m1; m2] => forallb is_digit [h1; h2; m1; m2] && Ascii.eqb c ":"
  | _ => false
  end.
Definition is_zone (s : str) : bool :=
  match word (L "UTC") s with
  | Some [] => true
  | Some (c :: r) => (Ascii.eqb c "+" || Ascii.eqb c "-") && all_digits r
  | None => false
  end.
Definition is_code (s : str) : bool := (length s =? 3) && forallb is_upper s.
Definition is_reference (s : str) : bool :=
  match split_once "." s with
  | Some (t, r) =>
      is_name t && (is_name r || match split_once "." r with Some (i, f) => is_name i && is_name f | None => false end)
  | None => false
  end.
(** Up to the closing quote. *)
Fixpoint to_quote (s : str) : option (str * str) :=
  match s with
  | [] => None
  | c :: s' => if Ascii.eqb c DQ then Some ([], s') else if Ascii.eqb c LF then None else prepend [c] (to_quote s')
  end.
Fixpoint to_quotes (s : str) : option (str * str) :=
  match word q3 s with
  | Some r => Some ([], r)
  | None => match s with [] => None | c :: s' => prepend [c] (to_quotes s') end
  end.
Definition lit (k : vkind) (raw rest : str) : option (vnode * str) := Some (VNode (Some k) raw [], rest).
Definition read_text_value (s : str) : option (vnode * str) :=
  match word q3 s with
  | Some r => match to_quotes r with Some (b, r') => lit KString (q3 ++ b ++ q3) r' | None => None end
  | None =>
      match word [DQ] s with
      | Some r => match to_quote r with Some (b, r') => lit KString ([DQ] ++ b ++ [DQ]) r' | None => None end
      | None => None
      end
  end.
Definition read_dark (s : str) : option (vnode * str) :=
  let (w, r) := take_run dark s in
  if str_eqb w (L "true") || str_eqb w (L "false") then lit KBoolean w r
  else if is_number w then
    match r with
    | c :: r1 =>
        let (k, r2) := take_run dark r1 in
        if Ascii.eqb c " " && is_code k then lit KCurrency (w ++ L " " ++ k) r2 else lit KNumber w r
    | [] => lit KNumber w r
    end
  else if is_date w then
    match word (L " at ") r with
    | Some r1 =>
        let (t, r2) := take_run dark r1 in
        if is_time t then
          match r2 with
          | c :: r3 =>
              let (z, r4) := take_run dark r3 in
              if Ascii.eqb c " " && is_zone z then lit KDateTime (w ++ L " at " ++ t ++ L " " ++ z) r4
              else lit KDateTime (w ++ L " at " ++ t) r2
          | [] => lit KDateTime (w ++ L " at " ++ t) r2
          end
        else None
    | None => lit KDate w r
    end
  else if is_reference w then lit KReference w r
  else
    match word [DQ] r with
    | Some r1 =>
        match to_quote r1 with
        | Some (b, r2) =>
            if str_eqb w (L "path") then lit KPath (L "path" ++ [DQ] ++ b ++ [DQ]) r2
            else if str_eqb w (L "enum") then lit KEnum (L "enum" ++ [DQ] ++ b ++ [DQ]) r2
            else None
        | None => None
        end
    | None => None
    end.
(** The text that was read. *)
Definition taken (s rest : str) : str := firstn (length s - length rest) s.
Fixpoint read_list (rv : str -> option (vnode * str)) (n : nat) (s : str) : option (list vnode * str) :=
  match n with
  | 0 => None
  | S k =>
      match word (L "]") s with
      | Some r => Some ([], r)
      | None =>
          match rv s with
          | None => None
          | Some (v, s1) =>
              match skip s1 with
              | c :: s2 =>
                  if Ascii.eqb c "," then
                    match read_list rv k (skip s2) with Some (vs, r) => Some (v :: vs, r) | None => None end
                  else if Ascii.eqb c "]" then Some ([v], s2) else None
              | [] => None
              end
          end
      end
  end.
Fixpoint read_val (n : nat) (s : str) : option (vnode * str) :=
  match n with
  | 0 => None
  | S k =>
      match s with
      | [] => None
      | c :: s1 =>
          if Ascii.eqb c "[" then
            match read_list (read_val k) (length s) (skip s1) with
            | Some (vs, r) => Some (VNode (Some KList) (taken s r) vs, r)
            | None => None
            end
          else if Ascii.eqb c DQ then read_text_value s
          else read_dark s
      end
  end.

(** ** Blocks *)
(** A name does not begin with a digit. *)
Definition read_name (s : str) : str * str :=
  let (t, r) := take_run name_char s in
  match t with
  | c :: _ => if is_digit c then ([], s) else (t, r)
  | [] => ([], s)
  end.
Fixpoint read_block_fields (n : nat) (s : str) : option (list fnode * str) :=
  match n with
  | 0 => None
  | S k =>
      match word (L "}") s with
      | Some r => Some ([], r)
      | None =>
          let (name, s1) := read_name s in
          match word (L "=") (skip s1) with
          | None => None
          | Some s2 =>
              match read_val (length s) (skip s2) with
              | None => None
              | Some (v, s3) =>
                  match read_block_fields k (skip s3) with
                  | Some (fs, r) => Some ({| fn_id := Some name; fn_value := Some v |} :: fs, r)
                  | None => None
                  end
              end
          end
      end
  end.
Fixpoint read_blocks (n : nat) (s : str) : option (list nblock * str) :=
  match n with
  | 0 => None
  | S k =>
      match word (L "}") s with
      | Some r => Some ([], r)
      | None =>
          let (t, s1) := read_name s in
          match word (L "{") (skip s1) with
          | None => None
          | Some s2 =>
              match read_block_fields (length s) (skip s2) with
              | None => None
              | Some (fs, s3) =>
                  match read_blocks k (skip s3) with
                  | Some (bs, r) => Some ({| nb_type := Some t; nb_body := Some fs |} :: bs, r)
                  | None => None
                  end
              end
          end
      end
  end.
Definition no_source : parsed := {| ps_error := true; ps_schemas := []; ps_entities := [] |}.
Definition with_schema (b : snode) (p : parsed) : parsed :=
  {| ps_error := ps_error p; ps_schemas := b :: ps_schemas p; ps_entities := ps_entities p |}.
Definition with_entity (b : enode) (p : parsed) : parsed :=
  {| ps_error := ps_error p; ps_schemas := ps_schemas p; ps_entities := b :: ps_entities p |}.
Fixpoint read_file (n : nat) (s : str) : option parsed :=
  match n with
  | 0 => None
  | S k =>
      match skip s with
      | [] => Some {| ps_error := false; ps_schemas := []; ps_entities := [] |}
      | s0 =>
          let (t, s1) := read_name s0 in
          let (i, s2) := read_name (skip s1) in
          match word (L "{") (skip s2) with
          | None => None
          | Some s3 =>
              if str_eqb t (L "schema") then
                match read_blocks (length s) (skip s3) with
                | Some (bs, r) => option_map (with_schema {| sn_name := Some i; sn_blocks := bs |}) (read_file k r)
                | None => None
                end
              else
                match read_block_fields (length s) (skip s3) with
                | Some (fs, r) => option_map (with_entity {| en_type := Some t; en_id := Some i; en_fields := fs |}) (read_file k r)
                | None => None
                end
          end
      end
  end.
Definition read_source_text (s : str) : option parsed :=
  match read_file (S (length s)) s with
  | Some p => Some p
  | None => Some no_source
  end.
