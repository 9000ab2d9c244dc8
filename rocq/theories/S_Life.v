(** A workspace that is only added to, over any time. *)
From Verif Require Import M_Graph.
From Verif Require Export S_Prompt S_Init S_Syntax.
Close Scope Z_scope.

(** The entity can be written in the documented syntax, and its values are read
    again from whatever file they are written to. *)
Definition fits (c : ctx) (w : place) (d : fs) (e : entity) : Prop :=
  expressible_entity (c_env c) e /\ forall r s, source_of w d r s -> readable_at c r e.
(** Prompts call an entity by the second part of its id. *)
Definition in_full (e : entity) : entity :=
  {| e_id := compose_entity_id (e_type e) (e_id e); e_type := e_type e; e_fields := e_fields e |}.

(** One request or command that succeeds or fails, the entities it is said to
    have added, and the files afterwards: an addition by the tool of a server
    that has loaded the files, by flags or by prompts, to a source file of the
    workspace; a question; a build, broken off at any point. *)
Inductive event (c : ctx) (ae : add_env) (x : cli_env) (pe : prompt_env) (w : place) (d : fs) : list entity -> fs -> Prop :=
| tool_adds st a d' st' res e : rebuild c d = Ok st -> adds_to_source c a -> ~ In "."%char (a_type a) ->
    add_tool c ae d st a = (d', st', res) -> res <> Refused -> asked c ae st a e -> fits c w d' e ->
    event c ae x pe w d [e] d'
| tool_refuses st a d' st' : rebuild c d = Ok st -> add_tool c ae d st a = (d', st', Refused) -> event c ae x pe w d [] d'
| flags_add a d' e : (forall st, rebuild c d = Ok st -> savable (cl_json x) (st_graph st)) ->
    writes_below c (x_type a) (x_file a) -> ~ In "."%char (x_type a) ->
    run_add c x false d a = (d', Succeeded e) -> fits c w d' e ->
    event c ae x pe w d [e] d'
| flags_fail cached a d' r : run_add c x cached d a = (d', r) -> (forall e, r <> Succeeded e) -> event c ae x pe w d [] d'
| prompts_add file acts d' e :
    (forall st, rebuild c d = Ok st -> savable (cl_json x) (st_graph st) /\ length (b_entities (st_build st)) < 1000) ->
    writes_below c (e_type e) file -> ~ In "."%char (e_type e) ->
    run_interactive c x pe false d file acts = (d', Succeeded e) ->
    expressible_entity (c_env c) e -> Forall (fun fv => writable c (snd fv)) (e_fields e) ->
    event c ae x pe w d [in_full e] d'
| prompts_fail cached file acts d' r : run_interactive c x pe cached d file acts = (d', r) -> (forall e, r <> Succeeded e) ->
    event c ae x pe w d [] d'
| asks cached q d' r : run_read c x cached d q = (d', r) -> event c ae x pe w d [] d'
| builds s d' b : build_and_save (cl_json x) c d s = (d', b) -> event c ae x pe w d [] d'.
(** One after the other; no directory is made that has the name of a graph file. *)
Inductive life (c : ctx) (ae : add_env) (x : cli_env) (pe : prompt_env) (w : place) (d : fs) : list entity -> fs -> Prop :=
| life_new : life c ae x pe w d [] d
| life_goes_on es d1 es1 d2 : life c ae x pe w d es d1 -> event c ae x pe w d1 es1 d2 -> no_graph_dirs d2 w ->
    life c ae x pe w d (es ++ es1) d2.

(** The workspace builds, and its files are in the documented syntax. *)
Definition in_order (c : ctx) (w : place) (d : fs) (st : state) : Prop :=
  runs_in c d w /\ no_links_in w d /\ no_graph_dirs d w /\ tidy d /\ documented w d /\ lines_ended w d /\ rebuild c d = Ok st.
(** [st'] has what [st] has and [es], and nothing else. *)
Definition gained (st st' : state) (es : list entity) : Prop :=
  exists es', Forall2 entity_as es es' /\
    Permutation (b_schemas (st_build st')) (b_schemas (st_build st)) /\
    Permutation (b_entities (st_build st')) (es' ++ b_entities (st_build st)) /\
    (forall e, In e es' -> get_entity (st_graph st') (e_id e) = Some e) /\
    (forall id e, get_entity (st_graph st) id = Some e -> get_entity (st_graph st') id = Some e) /\
    (forall id e, get_entity (st_graph st') id = Some e -> In e es' \/ get_entity (st_graph st) id = Some e).
