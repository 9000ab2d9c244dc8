(** The first entity of a type makes the file named after the type. *)
From Coq Require Import Lia.
From Verif Require Import S_Graph L_Graph.
From Verif Require Import S_Prompt S_First L_Str L_Text L_Ids L_Fs L_Server L_Load L_History L_Workspace L_DslVal L_Add L_Save L_Cli L_Prompt L_First P_Graph P_Dsl P_Schema P_Workspace P_Server P_Tools P_Add P_Save P_Cli P_Prompt.

(** ** C44: through the tool *)
Theorem C44_first_of_its_type : forall c ae d0 d w st a e, shuffles (c_fields c) -> (forall l, Permutation (c_schemas c l) l) ->
  rebuild c d0 = Ok st -> runs_in c d w -> asked c ae st a e -> a_file a = None -> file_word (a_type a) -> none_generated w (a_type a) d ->
  exists d' st' x, add_tool c ae d st a = (d', st', x) /\ x <> Refused /\
    generated_with w (a_type a) (generate_dsl (c_env c) default_options [e]) d d'.
Proof.
  intros c ae d0 d w st a e SH PS B RI A AF FW NG. destruct (served_schemas c d0 st SH PS B) as [ND WF].
  destruct FW as (F1 & F2 & F3). destruct (C44_default_file c a AF F1 F2 F3) as [T _].
  destruct (append_first c d w (a_type a) (generate_dsl (c_env c) default_options [e]) RI (conj F1 (conj F2 F3)) NG) as (d' & AP & GW).
  unfold add_tool. rewrite (asked_to_add c ae st a e SH ND WF A), T, AP. exists d'. clear B.
  destruct (rebuild c d') as [st'|err|]; [exists st', Accepted|exists st, Forced|exists st, Crashed]; (split; [reflexivity|]; split; [discriminate|exact GW]).
Qed.
Print Assumptions C44_first_of_its_type.

(** ** C58: with flags *)
Lemma prepared_none_generated c x d w d1 u t : workable c w d -> prepare c x d false = (d1, u) -> none_generated w t d -> none_generated w t d1.
Proof.
  intros W P (A & B). destruct (prepare_spec c x d w false d1 u W P) as (_ & R & _). pose proof (rest_kept w d d1 R) as K.
  unfold none_generated. rewrite !K; [split; assumption|..]; unfold default_file, default_dir, cp, bp; intros E; apply app_inv_head in E; discriminate.
Qed.
Theorem C58_first_of_its_type : forall c x d w st a d1 e, shuffles (c_fields c) -> (forall l, Permutation (cl_order x l) l) -> (forall l, Permutation (c_schemas c l) l) ->
  runs_in c d w -> no_links_in w d -> no_graph_dirs d w -> rebuild c d = Ok st -> savable (cl_json x) (st_graph st) ->
  prepare c x d false = (d1, Succeeded tt) -> asked_flags c x d1 (b_schemas (st_build st)) a e -> get_entity (st_graph st) (e_id e) = None ->
  x_file a = None -> file_word (x_type a) -> none_generated w (x_type a) d ->
  exists d' e', run_add c x false d a = (d', Succeeded e') /\ lists_shuffled a e e' /\ (x_lists a = [] -> e' = e) /\
    generated_with w (x_type a) (generate_dsl (c_env c) default_options [e']) d1 d'.
Proof.
  intros c x d w st a d1 e SH PO PS RI NL ND B SV P A G XF FW NG. assert (W : workable c w d) by (split; auto).
  assert (SV' : forall st, rebuild c d = Ok st -> savable (cl_json x) (st_graph st)) by (intros st0 B0; congruence).
  destruct (prepare_fresh c x d w d1 _ W SV' P) as (st1 & B0 & B1 & LG). assert (st1 = st) by congruence. subst st1.
  destruct (prepare_spec c x d w false d1 _ W P) as ((RI1 & _) & _). destruct (served_schemas c d st SH PS B) as [NDs WF].
  destruct (asked_cli_entity c x d1 (st_graph st) _ a e SH PO NDs WF A G) as (e' & CE & LS).
  destruct (write_first c d1 w (x_type a) (generate_dsl (c_env c) default_options [e']) RI1 FW (prepared_none_generated _ _ _ _ _ _ _ W P NG)) as (d' & WD & GW).
  exists d', e'. split; [|split; [exact LS|]; split; [intros XL; exact (shuffled_none _ _ _ _ _ _ _ XL A LS)|exact GW]].
  destruct FW as (F1 & F2 & F3). destruct (C58_default_file c (x_type a) F1 F2 F3) as [T _].
  unfold run_add. rewrite P. unfold add_command. rewrite LG, (workspace_of_rebuild c d1 st B1), CE, XF, T, WD. reflexivity.
Qed.
Print Assumptions C58_first_of_its_type.

(** ** C59: with prompts *)
Theorem C59_first_of_its_type : forall c x pe d w st core rest d1 e, shuffles (c_fields c) -> (forall l, Permutation (c_schemas c l) l) ->
  runs_in c d w -> no_links_in w d -> no_graph_dirs d w -> rebuild c d = Ok st -> savable (cl_json x) (st_graph st) ->
  prepare c x d false = (d1, Succeeded tt) -> dialogue c pe (st_graph st) (b_schemas (st_build st)) None core e ->
  file_word (e_type e) -> none_generated w (e_type e) d ->
  exists d', run_interactive c x pe false d None (core ++ rest) = (d', Succeeded e) /\
    generated_with w (e_type e) (generate_dsl (c_env c) default_options [e]) d1 d'.
Proof.
  intros c x pe d w st core rest d1 e SH PS RI NL ND B SV P D FW NG. assert (W : workable c w d) by (split; auto).
  assert (SV' : forall st, rebuild c d = Ok st -> savable (cl_json x) (st_graph st)) by (intros st0 B0; congruence).
  destruct (prepare_fresh c x d w d1 _ W SV' P) as (st1 & B0 & B1 & LG). assert (st1 = st) by congruence. subst st1.
  destruct (prepare_spec c x d w false d1 _ W P) as ((RI1 & _) & _). destruct (served_schemas c d st SH PS B) as [NDs WF].
  destruct (write_first c d1 w (e_type e) (generate_dsl (c_env c) default_options [e]) RI1 FW (prepared_none_generated _ _ _ _ _ _ _ W P NG)) as (d' & WD & GW).
  exists d'. split; [|exact GW]. destruct FW as (F1 & F2 & F3). destruct (C58_default_file c (e_type e) F1 F2 F3) as [T _].
  unfold run_interactive. rewrite P. unfold add_interactive. rewrite LG, (workspace_of_rebuild c d1 st B1), (dialogue_entity c pe _ _ None core e rest SH NDs WF D), T, WD. reflexivity.
Qed.
Print Assumptions C59_first_of_its_type.
Example C58_first_case : file_word (x_type flags_jane) /\ none_generated w0 (x_type flags_jane) d2_saved /\ x_file flags_jane = None /\
  exists d' e, run_add c1 x1 false d2_saved flags_jane = (d', Succeeded e) /\ e = jane /\
    node_at d2_saved (default_dir w0) = None /\ node_at d' (default_dir w0) = Some Dir /\
    node_at d' (default_file w0 (L "person")) = Some (File (generate_dsl (c_env c1) default_options [jane])).
Proof.
  split; [split; [discriminate|]; split; cbn; intuition discriminate|]. split; [split; [left|]; vm_compute; reflexivity|]. split; [reflexivity|].
  do 2 eexists. split; [vm_compute; reflexivity|]. split; [reflexivity|]. split; [vm_compute; reflexivity|]. split; [vm_compute; reflexivity|vm_compute; reflexivity].
Qed.
