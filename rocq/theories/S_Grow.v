(** What the theorems about growing a workspace by one entity speak about. *)
From Verif Require Import M_Graph S_Graph.
From Verif Require Export S_Cli.
Close Scope Z_scope.

(** To the parser, [text] is what [old] is with one more entity block [n]. *)
Definition adds_node (c : ctx) (old text : str) (n : enode) : Prop :=
  is_text text = true /\ exists p0 p1, c_parse c old = Some p0 /\ c_parse c text = Some p1 /\
    ps_schemas p1 = ps_schemas p0 /\ ps_entities p1 = ps_entities p0 ++ [n] /\
    (old = [] -> ps_schemas p0 = [] /\ ps_entities p0 = []).
(** The text of the source file [r] became [text]; it was [old], or there was no
    such file. *)
Definition became (w : place) (d d' : fs) (r : path) (old text : str) : Prop :=
  (node_at d (w ++ r) = Some (File old) \/ (node_at d (w ++ r) = None /\ old = [])) /\ source_of w d' r text.
(** What is served after [st'] is what was served after [st], and [e]. *)
Definition grown (st st' : state) (e : entity) : Prop :=
  Permutation (b_schemas (st_build st')) (b_schemas (st_build st)) /\
  Permutation (b_entities (st_build st')) (e :: b_entities (st_build st)) /\
  get_entity (st_graph st') (e_id e) = Some e /\
  forall id, id <> e_id e -> get_entity (st_graph st') id = get_entity (st_graph st) id.
(** A value as it is read: itself, but paths are read as the place they lead to. *)
Definition read_as (v v' : value) : Prop := v' = v \/ exists p p', v = VPath p /\ v' = VPath p'.
(** The entity, written to the source file [r], is read from it with these values. *)
Definition readable_at (c : ctx) (r : path) (e : entity) : Prop :=
  Forall (fun fv => exists v, read_back (c_env c) default_options (path_text r) (snd fv) = Ok v /\ read_as (snd fv) v) (e_fields e).
Definition entity_as (e e' : entity) : Prop :=
  e_id e' = e_id e /\ e_type e' = e_type e /\ Forall2 (fun fv fv' => fst fv' = fst fv /\ read_as (snd fv) (snd fv')) (e_fields e) (e_fields e').
