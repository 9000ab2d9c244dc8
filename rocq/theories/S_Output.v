(** What the theorems about printed answers speak about. *)
From Verif Require Import M_Graph.
From Verif Require Export M_Output S_Show S_Cli.
Close Scope Z_scope.

(** How another program reads the answer to what it asked. *)
Definition found_from (env : json_env) (j : jv) : option query_result :=
  match j with
  | JvArr _ => option_map QEntities (list_from (dec_entity env) j)
  | j => option_map QAgg (result_from env j)
  end.
Definition read_reply (env : json_env) (q : command) (text : str) : option reply :=
  match q with
  | CGet t _ =>
      if str_eqb t (L "schema") then option_map (fun s => RGot (GotSchema s)) (read_output dec_schema text)
      else option_map (fun e => RGot (GotEntity e)) (read_output (dec_entity env) text)
  | CList _ => option_map RIds (read_output (list_from dec_str) text)
  | CQuery _ => option_map RFound (read_output (found_from env) text)
  | CSource t i =>
      match read_output source_from text with
      | Some (t', i', p) => if str_eqb t t' && str_eqb i i' then Some (RPath p) else None
      | None => None
      end
  | CRelated _ _ _ => None
  end.
(** What JSON can carry: no infinite floats, integers of 64 bits, and so on. *)
Definition carried (env : json_env) (r : reply) : Prop :=
  match r with
  | RGot (GotSchema s) => proper_schema s
  | RGot (GotEntity e) => storable_entity env e
  | RFound (QEntities es) => Forall (storable_entity env) es
  | RFound (QAgg a) => storable_result env a
  | _ => True
  end.
(** The same answer; the fields of a schema are a map. *)
Definition same_reply (r r' : reply) : Prop :=
  match r, r' with
  | RGot (GotSchema s), RGot (GotSchema s') => same_schema s s'
  | _, _ => r' = r
  end.
