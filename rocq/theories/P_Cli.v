(** The command line: C43 new ids, C57 reading, C58 adding from flags. *)
From Coq Require Import Lia.
From Verif Require Import S_Graph L_Graph.
From Verif Require Import S_Cli L_Str L_Text L_Ids L_Fs L_Server L_Load L_History L_Workspace L_DslVal L_Add L_Save L_Cli P_Graph P_Dsl P_Schema P_Workspace P_Server P_Tools P_Add P_Save.
From Verif Require P_Query.
Close Scope Z_scope.

(** ** C43 *)
(** The proposed id has the letters and digits of the name, in their order, in
    lower case. *)
Theorem C43_id_has_the_letters_of_the_name : forall s, filter letter (sanitize_entity_id s) = lower (filter letter s).
Proof.
  intros s. assert (A : forall c, letter c = true -> negb (is_sep c) = true) by (intros [[] [] [] [] [] [] [] []]; vm_compute; auto).
  assert (B : forall c, letter (lower_ascii c) = letter c) by (intros [[] [] [] [] [] [] [] []]; vm_compute; reflexivity).
  assert (C : forall c, id_char c && negb (is_sep c) = letter c) by (intros [[] [] [] [] [] [] [] []]; vm_compute; reflexivity).
  assert (F : forall l, filter letter l = filter letter (filter (fun c => negb (is_sep c)) l)).
  { induction l as [|x l IH]; [reflexivity|]. cbn [filter]. destruct (negb (is_sep x)) eqn:E; cbn [filter]; [now rewrite IH|]. destruct (letter x) eqn:K; [rewrite (A x K) in E; discriminate|exact IH]. }
  assert (G : forall l, filter (fun c => negb (is_sep c)) (filter id_char l) = filter letter l).
  { induction l as [|x l IH]; [reflexivity|]. cbn [filter]. rewrite <- C. destruct (id_char x); cbn [filter andb]; [|exact IH]. destruct (negb (is_sep x)); now rewrite IH. }
  unfold sanitize_entity_id. rewrite F, unsep_to_snake, G. unfold lower. clear - B. induction s as [|x s IH]; [reflexivity|]. cbn [filter]. destruct (letter x) eqn:E; [|exact IH].
  cbn [map filter]. rewrite B, E, IH. reflexivity.
Qed.
Print Assumptions C43_id_has_the_letters_of_the_name.
(** The id is the first of the candidates that is not used, if there is one among the first 1000. *)
Theorem C43_first_unused_candidate : forall g t chosen, exists k, k <= 999 /\
  compute_unique_entity_id g t chosen = candidate (sanitize_entity_id chosen) k /\
  (forall m, m < k -> ~ unused g t (candidate (sanitize_entity_id chosen) m)) /\
  (unused g t (candidate (sanitize_entity_id chosen) k) \/ k = 999).
Proof.
  intros g t chosen. unfold compute_unique_entity_id.
  match goal with |- context [unique_from ?f _ _ _ _] => destruct (unique_from_spec f (sanitize_entity_id chosen) 999 0 ltac:(lia)) as (k & K & E & B & F) end.
  exists k. split; [lia|]. split; [exact E|]. split.
  - intros m M. specialize (B m ltac:(lia)). unfold unused. cbn beta in B. destruct (get_entity _ _); discriminate.
  - destruct F as [F|F]; [left|right; lia]. unfold unused. cbn beta in F. destruct (get_entity _ _); [discriminate|reflexivity].
Qed.
Print Assumptions C43_first_unused_candidate.
Theorem C43_unused_if_any_candidate_is : forall g t chosen,
  unused g t (compute_unique_entity_id g t chosen) <-> exists k, k <= 999 /\ unused g t (candidate (sanitize_entity_id chosen) k).
Proof.
  intros g t chosen. destruct (C43_first_unused_candidate g t chosen) as (k & K & -> & B & F). split; [intros U; eauto|].
  intros (m & M & U). destruct F as [F| ->]; [exact F|]. destruct (Nat.eq_dec m 999) as [<-|]; [exact U|]. destruct (B m ltac:(lia) U).
Qed.
Print Assumptions C43_unused_if_any_candidate_is.
(** With fewer than 1000 entities the id is always new. *)
Theorem C43_unused_below_1000_entities : forall ops t chosen, length (spec_run ops) < 1000 ->
  unused (run ops) t (compute_unique_entity_id (run ops) t chosen).
Proof.
  intros ops t chosen H. apply C43_unused_if_any_candidate_is.
  pose (f := fun k => compose_entity_id t (candidate (sanitize_entity_id chosen) k)).
  destruct (Forall_Exists_dec (fun k => ~ unused (run ops) t (candidate (sanitize_entity_id chosen) k)) ltac:(intros k; unfold unused; destruct (get_entity _ _); [left; discriminate|right; auto]) (seq 0 1000)) as [A|E].
  - exfalso. assert (I : incl (map f (seq 0 1000)) (map e_id (spec_run ops))).
    { intros i Hi. apply in_map_iff in Hi as (k & <- & Hk). rewrite Forall_forall in A. specialize (A k Hk). unfold unused in A.
      rewrite (proj1 (C05_lookup_and_results ops)) in A. fold (f k) in A. destruct (lookup (spec_run ops) (f k)) as [e|] eqn:Q; [|congruence].
      apply lookup_some in Q as [Q <-]. apply in_map, Q. }
    apply NoDup_incl_length in I; [rewrite !map_length, seq_length in I; lia|].
    apply FinFun.Injective_map_NoDup; [|apply seq_NoDup]. intros n m Q. exact (candidate_ids t _ n m (sanitized_normal chosen) Q).
  - apply Exists_exists in E as (k & Hk & N). apply in_seq in Hk. exists k. split; [lia|]. unfold unused in *. destruct (get_entity _ _); [|reflexivity]. destruct N. discriminate.
Qed.
Print Assumptions C43_unused_below_1000_entities.
(** With 1000 it may be that of an entity that exists. *)
Theorem C43_cap_refuted : forall t chosen, exists ops, length ops = 1000 /\
  ~ unused (run ops) t (compute_unique_entity_id (run ops) t chosen).
Proof.
  intros t chosen. pose (f := fun k => {| e_id := compose_entity_id t (candidate (sanitize_entity_id chosen) k); e_type := t; e_fields := [] |}).
  exists (map OAdd (map f (seq 0 1000))). split; [rewrite !map_length; apply seq_length|]. intros U. apply C43_unused_if_any_candidate_is in U as (k & K & U).
  unfold unused in U. rewrite C05_first_added_wins in U. pose proof (find_none _ _ U (f k)) as N. cbn beta in N. unfold f in N at 2. cbn [e_id] in N.
  rewrite str_eqb_refl in N. discriminate N. apply in_map, in_seq. lia.
Qed.
Print Assumptions C43_cap_refuted.
(** The id is in normal form, so it is read from the written block as it is. *)
Theorem C43_id_is_read_back : forall g t chosen, new_id t = t -> ~ In "."%char t -> sanitize_entity_id chosen <> [] ->
  let i := compute_unique_entity_id g t chosen in
  compose_entity_id t i = t ++ L "." ++ i /\ decompose_entity_id (compose_entity_id t i) = (t, i).
Proof.
  intros g t chosen Nt Dt Ne i. destruct (C43_first_unused_candidate g t chosen) as (k & _ & E & _). fold i in E.
  assert (Ni : new_id i = i) by (rewrite E; apply candidate_normal; [apply sanitized_normal|exact Ne]).
  split; [apply compose_fixpoint; assumption|apply compose_decompose; assumption].
Qed.
Print Assumptions C43_id_is_read_back.
(** A name without letters and digits gives no id at all. *)
Theorem C43_empty_id_refuted : exists chosen, chosen <> [] /\ forall t, compute_unique_entity_id graph_new t chosen = [].
Proof. exists (L "!!!"). split; [discriminate|]. intros t. reflexivity. Qed.
Print Assumptions C43_empty_id_refuted.
Example C43_case : let e i := {| e_id := i; e_type := L "person"; e_fields := [] |} in
  let g := run [OAdd (e (L "person.john_doe")); OAdd (e (L "person.john_doe_1")); OAdd (e (L "person.john_doe_3"))] in
  compute_unique_entity_id g (L "person") (L "John (Doe)") = L "john_doe_2" /\ compute_unique_entity_id g (L "person") (L "JANE") = L "jane".
Proof. split; vm_compute; reflexivity. Qed.

(** ** C57 *)
Lemma answers_agree c x d st q : rebuild c d = Ok st -> load_current_graph (cl_json x) c d = Some (st_graph st) ->
  read_command c x d q = server_answer c x st q.
Proof.
  intros B G. pose proof (workspace_of_rebuild c d st B) as WB. destruct (rebuild_files c d st B) as (fs & LD & Ef & _).
  destruct (served_graph c d st B) as [ND E]. destruct q as [t i|t|t i dir|s|t i]; cbn [read_command server_answer].
  - destruct (str_eqb t (L "schema")) eqn:S.
    + rewrite WB. cbn [snd]. unfold get_tool, get_schema_tool. rewrite S. destruct (find _ _); reflexivity.
    + rewrite G. rewrite (C54_get_is_graph_lookup c d st t i B) by (apply str_eqb_neq; exact S). destruct (get_entity _ _); reflexivity.
  - unfold list_tool. destruct (str_eqb t (L "schema")) eqn:S; [rewrite WB; reflexivity|]. rewrite G, E at 1. rewrite C09_list_by_type_in_insertion_order, (load_spec _ ND). reflexivity.
  - rewrite G. unfold related_tool. destruct (get_related _ _ _); reflexivity.
  - rewrite G. reflexivity.
  - rewrite LD, <- Ef. reflexivity.
Qed.
(** A command that builds first answers what the tool server answers for the
    same files; if the workspace does not build, it fails. *)
Theorem C57_answers_are_the_servers : forall c x d w q d' r, runs_in c d w -> no_links_in w d -> no_graph_dirs d w ->
  (forall st, rebuild c d = Ok st -> savable (cl_json x) (st_graph st)) -> (forall t i, q <> CSource t i) ->
  run_read c x false d q = (d', r) ->
  match rebuild c d with Ok st => r = server_answer c x st q | Err _ => r = Failed | Panic => r = Died end.
Proof.
  intros c x d w q d' r RI NL ND SV NS H. assert (W : workable c w d) by (split; auto). unfold run_read in H.
  assert (Q : (false || match q with CSource _ _ => true | _ => false end) = false) by (destruct q; try reflexivity; edestruct NS; reflexivity). rewrite Q in H.
  destruct (prepare c x d false) as [d1 u] eqn:P. pose proof (prepare_fresh c x d w d1 u W SV P) as F. destruct u as [u| |].
  - destruct F as (st & B & B1 & G). injection H as <- <-. rewrite B. apply (answers_agree c x d1); assumption.
  - destruct F as (_ & e & ->). injection H as _ <-. reflexivity.
  - destruct F as (_ & ->). injection H as _ <-. reflexivity.
Qed.
Print Assumptions C57_answers_are_the_servers.
(** Asking where something is declared needs no building. *)
Theorem C57_source_is_the_servers : forall c x cached d t i d' r, run_read c x cached d (CSource t i) = (d', r) ->
  d' = d /\ match load_directory c d with
            | Ok fs => forall st, st_files st = c_files c fs -> r = server_answer c x st (CSource t i)
            | Err _ => r = Failed
            | Panic => r = Died
            end.
Proof.
  intros c x cached d t i d' r H. unfold run_read, prepare in H. rewrite Bool.orb_true_r in H. injection H as <- <-. split; [reflexivity|].
  cbn [read_command]. destruct (load_directory c d); try reflexivity. intros st E. cbn [server_answer]. rewrite E. reflexivity.
Qed.
Print Assumptions C57_source_is_the_servers.
(** With [--cached] the answer is that of the last command that built, whatever
    happened to the files since, as long as the saved graph is there. *)
Theorem C57_cached_answers_are_the_last_built : forall c x d0 w q0 d1 r1 st d q, runs_in c d0 w -> no_links_in w d0 -> no_graph_dirs d0 w ->
  rebuild c d0 = Ok st -> savable (cl_json x) (st_graph st) -> (forall t i, q0 <> CSource t i) ->
  run_read c x false d0 q0 = (d1, r1) -> load_current_graph (cl_json x) c d = load_current_graph (cl_json x) c d1 -> asks_graph q ->
  run_read c x true d q = (d, server_answer c x st q).
Proof.
  intros c x d0 w q0 d1 r1 st d q RI NL ND B SV NS H EQ AG. assert (W : workable c w d0) by (split; auto). unfold run_read in H.
  assert (Q : (false || match q0 with CSource _ _ => true | _ => false end) = false) by (destruct q0; try reflexivity; edestruct NS; reflexivity). rewrite Q in H.
  assert (SV' : forall st, rebuild c d0 = Ok st -> savable (cl_json x) (st_graph st)) by (intros st0 B0; congruence).
  destruct (prepare c x d0 false) as [d2 u] eqn:P. pose proof (prepare_fresh c x d0 w d2 u W SV' P) as F.
  assert (G : load_current_graph (cl_json x) c d = Some (st_graph st)).
  { destruct u as [u| |]; [|destruct F as (_ & e & F); congruence|destruct F as (_ & F); congruence].
    destruct F as (st' & B' & _ & G). injection H as <- _. rewrite EQ, G. congruence. }
  unfold run_read, prepare. cbn [orb]. f_equal. destruct (served_graph c d0 st B) as [ND' E].
  destruct q as [t i|t|t i dir|s|t i]; cbn [asks_graph] in AG; cbn [read_command server_answer]; try contradiction.
  - pose proof AG as AG'. apply str_eqb_neq in AG. rewrite AG, G, (C54_get_is_graph_lookup c d0 st t i B AG'). destruct (get_entity _ _); reflexivity.
  - unfold list_tool. apply str_eqb_neq in AG. rewrite !AG, G, E at 1. rewrite C09_list_by_type_in_insertion_order, (load_spec _ ND'). reflexivity.
  - rewrite G. unfold related_tool. destruct (get_related _ _ _); reflexivity.
  - rewrite G. reflexivity.
Qed.
Print Assumptions C57_cached_answers_are_the_last_built.
(** Asking changes nothing but the saved graph and its backup, and with
    [--cached] nothing. *)
Theorem C57_asking_changes_no_source : forall c x cached d w q d' r, runs_in c d w -> no_links_in w d -> no_graph_dirs d w ->
  run_read c x cached d q = (d', r) ->
  (forall p, p <> w ++ [current_name] -> p <> w ++ [backup_name] -> node_at d' p = node_at d p) /\ rebuild c d' = rebuild c d /\
  (cached = true -> d' = d).
Proof.
  intros c x cached d w q d' r RI NL ND H. assert (W : workable c w d) by (split; auto). unfold run_read in H.
  destruct (prepare c x d _) as [d1 u] eqn:P. assert (E : d' = d1) by (destruct u; congruence). subst d1.
  destruct (prepare_spec c x d w _ d' u W P) as (W' & R & _). split; [apply rest_kept, R|]. split; [apply (rebuild_rest c w); auto|].
  intros ->. cbn [orb prepare] in P. congruence.
Qed.
Print Assumptions C57_asking_changes_no_source.
(** Schemas are read from the files even with [--cached], so the answers may
    speak of different workspaces. *)
Theorem C57_cached_schemas_are_current : forall c x d st q, rebuild c d = Ok st -> ~ asks_graph q ->
  run_read c x true d q = (d, server_answer c x st q).
Proof.
  intros c x d st q B NA. unfold run_read, prepare. cbn [orb]. f_equal. pose proof (workspace_of_rebuild c d st B) as WB.
  destruct (rebuild_files c d st B) as (fs & LD & Ef & _). destruct q as [t i|t|t i dir|s|t i]; cbn [asks_graph read_command server_answer] in *; try tauto.
  - unfold get_tool, get_schema_tool. destruct (str_eqb t (L "schema")) eqn:S; [|apply str_eqb_neq in S; tauto]. rewrite WB. cbn [snd]. destruct (find _ _); reflexivity.
  - unfold list_tool. destruct (str_eqb t (L "schema")) eqn:S; [|apply str_eqb_neq in S; tauto]. rewrite WB. reflexivity.
  - rewrite LD, <- Ef. reflexivity.
Qed.
Print Assumptions C57_cached_schemas_are_current.
Definition x0 : cli_env := {| cl_json := j0; cl_cwd := path_of (L "/w"); cl_order := fun l => l; cl_ext := P_Query.ex_ext; cl_hash := P_Query.ex_ho |}.
Definition d_john_gone : fs := unset_node d_saved [L "w"; L "a.firm"].
Example C57_case :
  no_graph_dirs d_saved w0 /\ (forall st, rebuild c0 d_saved = Ok st -> savable j0 (st_graph st)) /\
  snd (run_read c0 x0 false d_saved (CList (L "person"))) = Succeeded (RIds [L "person.john"]) /\
  snd (run_read c0 x0 true d_saved (CList (L "person"))) = Succeeded (RIds []) /\
  snd (run_read c0 x0 true (fst (run_read c0 x0 false d_saved (CGet (L "org") (L "acme")))) (CRelated (L "person") (L "john") None)) = Succeeded (RIds [L "org.acme"]) /\
  snd (run_read c0 x0 false d_saved (CGet (L "person") (L "nobody"))) = Failed /\
  (exists r, snd (run_read c0 x0 false d_saved (CQuery (L "from person"))) = Succeeded (RFound r)).
Proof.
  split; [split; discriminate|]. split.
  - intros st H. apply j0_savable. right. assert (E : rebuild c0 d_saved = Ok st0) by (vm_compute; reflexivity). congruence.
  - repeat (split; [vm_compute; reflexivity|]). eexists. vm_compute. reflexivity.
Qed.

(** ** C58 *)
Lemma add_command_made c x d a d' e : shuffles (c_fields c) -> (forall l, Permutation (cl_order x l) l) -> add_command c x d a = (d', Succeeded e) ->
  exists g fb, load_current_graph (cl_json x) c d = Some g /\ workspace_build c d = Ok fb /\ asked_flags c x d (b_schemas (snd fb)) a e /\ get_entity g (e_id e) = None /\
    write_dsl c d (dsl_path c (x_type a) (x_file a)) (generate_dsl (c_env c) default_options [e]) = (d', true).
Proof.
  intros SH PO H. unfold add_command in H. destruct (load_current_graph _ c d) as [g|] eqn:G; [|discriminate]. exists g.
  destruct (workspace_build c d) as [[fs b]|er|]; try discriminate. exists (fs, b). destruct (cli_entity c x d g (b_schemas b) a) as [e'|er|] eqn:E; try discriminate.
  destruct (write_dsl _ _ _ _) as [d1 []] eqn:W; [|discriminate]. injection H as <- <-. destruct (cli_entity_asked c x d g _ a e' SH PO E) as [A B]. auto.
Qed.
(** What is added is the entity asked for, and its block is put at the end of
    the target. Nothing else changes but the saved graph and its backup. *)
Theorem C58_block_is_appended : forall c x cached d w a d' e, shuffles (c_fields c) -> (forall l, Permutation (cl_order x l) l) ->
  runs_in c d w -> no_links_in w d -> no_graph_dirs d w -> run_add c x cached d a = (d', Succeeded e) ->
  exists d1 fb q old, (forall p, p <> w ++ [current_name] -> p <> w ++ [backup_name] -> node_at d1 p = node_at d p) /\
    workspace_build c d = Ok fb /\ asked_flags c x d1 (b_schemas (snd fb)) a e /\
    resolve (c_links c) d' (dsl_path c (x_type a) (x_file a)) = At q /\ (node_at d1 q = Some (File old) \/ (node_at d1 q = None /\ old = [])) /\
    node_at d' q = Some (File (old ++ generate_dsl (c_env c) default_options [e])) /\ only_changed q d1 d'.
Proof.
  intros c x cached d w a d' e SH PO RI NL ND H. assert (W : workable c w d) by (split; auto). unfold run_add in H.
  destruct (prepare c x d cached) as [d1 u] eqn:P. destruct (prepare_spec c x d w cached d1 u W P) as (W1 & R & _).
  destruct u; try discriminate. destruct (add_command_made c x d1 a d' e SH PO H) as (g & fb & _ & WB & A & _ & WD).
  pose proof W1 as ((S1 & SW & _) & _). destruct (written_at c d1 _ _ d' S1 (dsl_slashless c _ _ SW) WD) as (q & old & Q & O & N & OC).
  exists d1, fb, q, old. split; [apply rest_kept, R|]. split; [rewrite (workspace_rest c w d d1 W W1 (eq_sym R)); exact WB|]. auto.
Qed.
Print Assumptions C58_block_is_appended.
(** The file is always named as a source file. *)
Theorem C58_file_is_named_as_a_source : forall c x cached d w a d' e p, shuffles (c_fields c) -> (forall l, Permutation (cl_order x l) l) ->
  runs_in c d w -> no_links_in w d -> no_graph_dirs d w -> x_file a = Some p -> run_add c x cached d a = (d', Succeeded e) ->
  exists r n, dsl_path c (x_type a) (x_file a) = r ++ [n] /\ firm_file_name n.
Proof.
  intros c x cached d w a d' e p SH PO RI NL ND XF H. assert (W : workable c w d) by (split; auto). unfold run_add in H.
  destruct (prepare c x d cached) as [d1 u] eqn:P. destruct (prepare_spec c x d w cached d1 u W P) as (W1 & R & _).
  destruct u; try discriminate. destruct (add_command_made c x d1 a d' e SH PO H) as (g & fb & _ & WB & A & _ & WD).
  pose proof W1 as (RI1 & _). pose proof RI1 as (S1 & SW & _). destruct (written_at c d1 _ _ d' S1 (dsl_slashless c _ _ SW) WD) as (q & old & Q & O & N & OC).
  destruct (written_served c d1 w _ _ d' RI1 (dsl_slashless c _ _ SW) WD) as ((S' & _) & _). rewrite XF in *. cbn [dsl_path] in *.
  exact (file_target_name _ _ _ _ _ S' Q N).
Qed.
Print Assumptions C58_file_is_named_as_a_source.
Theorem C58_default_file : forall c t, t <> [] -> ~ In "/"%char t -> ~ In "."%char t ->
  dsl_path c t None = c_ws c ++ [L "generated"; t ++ L ".firm"] /\ writes_below c t None.
Proof.
  intros c t A B C. unfold writes_below. rewrite dsl_default.
  exact (C44_default_file c {| a_type := t; a_id := []; a_fields := []; a_file := None; a_items := [] |} eq_refl A B C).
Qed.
Print Assumptions C58_default_file.
(** A command that does not succeed leaves all sources as they are. *)
Theorem C58_failure_leaves_the_sources : forall c x cached d w a d' r, runs_in c d w -> no_links_in w d -> no_graph_dirs d w ->
  run_add c x cached d a = (d', r) -> (forall e, r <> Succeeded e) -> sources_kept w d d'.
Proof.
  intros c x cached d w a d' r RI NL ND H NS. assert (W : workable c w d) by (split; auto). unfold run_add in H.
  destruct (prepare c x d cached) as [d1 u] eqn:P. destruct (prepare_spec c x d w cached d1 u W P) as (W1 & R & _).
  assert (K : only_dirs_added d1 d').
  { destruct u; try (injection H as <- _; apply dirs_refl). unfold add_command in H.
    destruct (load_current_graph _ c d1); [|injection H as <- _; apply dirs_refl].
    destruct (workspace_build c d1) as [[fs b]|er|]; try (injection H as <- _; apply dirs_refl).
    destruct (cli_entity _ _ _ _ _ _) as [e|er|]; try (injection H as <- _; apply dirs_refl).
    destruct (write_dsl _ _ _ _) as [d2 []] eqn:WD; [destruct (NS e); congruence|]. injection H as <- _.
    pose proof W1 as ((S1 & SW & _) & _). exact (proj1 (write_spec c d1 _ _ d2 false S1 (dsl_slashless c _ _ SW) WD)). }
  intros p A B. rewrite <- (rest_kept w d d1 R p A B). apply K.
Qed.
Print Assumptions C58_failure_leaves_the_sources.
(** Without [--cached] the id is not that of an entity of the workspace. *)
Theorem C58_id_is_new : forall c x d w a d' e, shuffles (c_fields c) -> (forall l, Permutation (cl_order x l) l) ->
  runs_in c d w -> no_links_in w d -> no_graph_dirs d w -> (forall st, rebuild c d = Ok st -> savable (cl_json x) (st_graph st)) ->
  run_add c x false d a = (d', Succeeded e) -> exists st, rebuild c d = Ok st /\ get_entity (st_graph st) (e_id e) = None.
Proof.
  intros c x d w a d' e SH PO RI NL ND SV H. assert (W : workable c w d) by (split; auto). unfold run_add in H.
  destruct (prepare c x d false) as [d1 u] eqn:P. pose proof (prepare_fresh c x d w d1 u W SV P) as F. destruct u; try discriminate.
  destruct F as (st & B & B1 & G). destruct (add_command_made c x d1 a d' e SH PO H) as (g & fb & G' & _ & _ & N & _). exists st. split; [exact B|]. congruence.
Qed.
Print Assumptions C58_id_is_new.
(** With [--cached] it may be, and then the workspace no longer builds. *)
Definition x1 : cli_env :=
  {| cl_json := {| to_json g := Some (match g_nodes g with [] => L "{}" | _ => L "{1}" end);
                   of_json t := if str_eqb t (L "{}") then Some (st_graph st2) else None |};
     cl_cwd := path_of (L "/w"); cl_order := fun l => l; cl_ext := P_Query.ex_ext; cl_hash := P_Query.ex_ho |}.
Definition d2_saved : fs := d2 ++ [([L "w"; current_name], File (L "{}"))].
Definition d2_jane : fs := d2_saved ++ [([L "w"; L "people.firm"], File (generate_dsl env0 default_options [jane]))].
Definition flags_jane : cli_add_params :=
  {| x_type := L "person"; x_id := L "Jane!"; x_fields := [(L "Full Name", L "Jane"); (L "cv", L "docs/jane.md")]; x_lists := []; x_values := []; x_file := None |}.
Theorem C58_cached_id_refuted : exists c x d w a d' e, ordinary c w d /\ no_graph_dirs d w /\ (exists st, rebuild c d = Ok st) /\
  run_add c x true d a = (d', Succeeded e) /\ exists er, rebuild c d' = Err er.
Proof.
  exists c1, x1, d2_jane, w0, flags_jane. do 2 eexists. split.
  - split; [runs|]. split; [apply no_links_list; reflexivity|]. split.
    + unfold tidy. cbn [map fst d2_jane d2_saved d2 app]. repeat (apply NoDup_cons; [cbn; intuition discriminate|]). apply NoDup_nil.
    + intros p s _ E. destruct p as [|y p]; [discriminate|]. cbn [node_at d2_jane d2_saved d2 app entry_at] in E.
      repeat (match type of E with context [place_eqb ?u ?v] => destruct (place_eqb u v) end; [injection E as <- || discriminate; vm_compute; reflexivity|]). discriminate.
  - split; [split; discriminate|]. split; [eexists; vm_compute; reflexivity|]. split; [vm_compute; reflexivity|]. eexists. vm_compute. reflexivity.
Qed.
Print Assumptions C58_cached_id_refuted.
(** An entity that was added is served when the workspace builds, if its block
    is read as it is written. *)
Theorem C58_added_entity_is_served : forall c x cached d w a d' e st', shuffles (c_fields c) -> (forall l, Permutation (cl_order x l) l) -> (forall l, Permutation (c_files c l) l) ->
  runs_in c d w -> no_links_in w d -> no_graph_dirs d w -> tidy d -> writes_below c (x_type a) (x_file a) ->
  run_add c x cached d a = (d', Succeeded e) -> rebuild c d' = Ok st' ->
  exists r text ps, source_of w d' r text /\ c_parse c text = Some ps /\
    (In (written_entity (c_env c) default_options e) (ps_entities ps) ->
     exists e', to_entity (c_env c) (path_text r) (written_entity (c_env c) default_options e) = Ok e' /\ get_entity (st_graph st') (e_id e') = Some e').
Proof.
  intros c x cached d w a d' e st' SH PO PC RI NL ND TD (rp & n & T & F & FN) H B. assert (W : workable c w d) by (split; auto). unfold run_add in H.
  destruct (prepare c x d cached) as [d1 u] eqn:P. destruct (prepare_spec c x d w cached d1 u W P) as ((RI1 & NL1 & _) & R & TD1). specialize (TD1 TD).
  destruct u; try discriminate. destruct (add_command_made c x d1 a d' e SH PO H) as (g & fb & _ & WB & A & _ & WD).
  pose proof RI1 as (S1 & SW & _). pose proof (dsl_slashless c (x_type a) (x_file a) SW) as SL.
  destruct (written_is_source c d1 w _ rp n _ d' RI1 NL1 SL T F FN WD) as (r & old & _ & SO & _).
  destruct (written_served c d1 w _ _ d' RI1 SL WD) as (RI' & NL' & TD'). destruct (rebuild_files c d' st' B) as (fs & LD & Ef & G).
  destruct (load_directory_spec c d' w fs RI' (NL' NL1) (TD' TD1) LD) as (_ & I & Rd). destruct (Rd r _ SO) as [_ PP].
  destruct (c_parse c _) as [ps|] eqn:PS in PP; [|congruence]. exists r. eexists. exists ps. split; [exact SO|]. split; [exact PS|].
  intros Wr. apply (C48_every_declared_entity_is_served _ _ _ _ _ _ SH G). rewrite Ef. unfold entity_blocks. apply in_flat_map.
  exists (loaded c r ps). split; [apply (Permutation_in _ (Permutation_sym (PC fs))); apply I; eauto 6|]. cbn. apply in_map. exact Wr.
Qed.
Print Assumptions C58_added_entity_is_served.
(** Conversely what is asked for is added to a file that exists; the lists come
    in whichever order the map of them has. *)
Theorem C58_what_is_asked_is_added : forall c x d w st a d1 e p n q old, shuffles (c_fields c) -> (forall l, Permutation (cl_order x l) l) -> (forall l, Permutation (c_schemas c l) l) ->
  runs_in c d w -> no_links_in w d -> no_graph_dirs d w -> rebuild c d = Ok st -> savable (cl_json x) (st_graph st) ->
  prepare c x d false = (d1, Succeeded tt) -> asked_flags c x d1 (b_schemas (st_build st)) a e -> get_entity (st_graph st) (e_id e) = None ->
  dsl_path c (x_type a) (x_file a) = p ++ [n] -> stays n = false -> climbs n = false ->
  resolve (c_links c) d1 (p ++ [n]) = At q -> node_at d1 q = Some (File old) ->
  exists e', lists_shuffled a e e' /\ (x_lists a = [] -> e' = e) /\
    run_add c x false d a = (set_node d1 q (File (old ++ generate_dsl (c_env c) default_options [e'])), Succeeded e').
Proof.
  intros c x d w st a d1 e p n q old SH PO PS RI NL ND B SV P A G T S1 C1 R F. assert (W : workable c w d) by (split; auto).
  assert (SV' : forall st, rebuild c d = Ok st -> savable (cl_json x) (st_graph st)) by (intros st0 B0; congruence).
  destruct (prepare_fresh c x d w d1 _ W SV' P) as (st1 & B0 & B1 & LG). assert (st1 = st) by congruence. subst st1.
  destruct (prepare_spec c x d w false d1 _ W P) as (((SD & _) & _) & _). destruct (served_schemas c d st SH PS B) as [NDs WF].
  destruct (asked_cli_entity c x d1 (st_graph st) _ a e SH PO NDs WF A G) as (e' & CE & LS). exists e'. split; [exact LS|]. split; [intros XL; exact (shuffled_none _ _ _ _ _ _ _ XL A LS)|].
  unfold run_add. rewrite P. unfold add_command. rewrite LG, (workspace_of_rebuild c d1 st B1).
  rewrite CE, T, (write_existing c d1 p n q old _ SD S1 C1 R F). reflexivity.
Qed.
Print Assumptions C58_what_is_asked_is_added.
(** A text that neither begins nor ends with a quote is taken as it is. *)
Theorem C58_text_is_taken_as_given : forall c x d target s v, (forall r, s <> DQ :: r) -> (forall r, s <> r ++ [DQ]) ->
  (given c x d target TStr s v <-> v = VStr s).
Proof.
  intros c x d target s v A B. rewrite <- cli_value_spec. cbn [cli_value]. unfold parse_string.
  assert (S3 : starts_with s q3 && ends_with s q3 = false).
  { destruct s as [|ch s]; [reflexivity|]. apply Bool.andb_false_iff. left. cbn [starts_with q3].
    destruct (Ascii.eqb_spec DQ ch) as [<-|]; [destruct (A s eq_refl)|reflexivity]. }
  rewrite S3, (trim_none DQ s A B). split; [intros (p & [= <-] & ->); reflexivity|intros ->; eexists; split; reflexivity].
Qed.
Print Assumptions C58_text_is_taken_as_given.
(** The quotes around a text are dropped. *)
Theorem C58_quotes_refuted : exists s s', s' <> s /\ forall c x d target v, given c x d target TStr s v <-> v = VStr s'.
Proof.
  exists (DQ :: L "Yes" ++ [DQ] ++ L ", they said"), (L "Yes" ++ [DQ] ++ L ", they said"). split; [discriminate|]. intros c x d target v. rewrite <- cli_value_spec.
  split; [intros (p & [= <-] & ->); reflexivity|intros ->; eexists; split; reflexivity].
Qed.
Print Assumptions C58_quotes_refuted.
(** Every value has the type of its field. *)
Theorem C58_values_have_the_types : forall c x cached d w a d' e, shuffles (c_fields c) -> (forall l, Permutation (cl_order x l) l) ->
  runs_in c d w -> no_links_in w d -> no_graph_dirs d w -> run_add c x cached d a = (d', Succeeded e) ->
  exists fb s, workspace_build c d = Ok fb /\ In s (b_schemas (snd fb)) /\ s_type s = x_type a /\ conforms s e.
Proof.
  intros c x cached d w a d' e SH PO RI NL ND H.
  destruct (C58_block_is_appended c x cached d w a d' e SH PO RI NL ND H) as (d1 & fb & q & old & _ & WB & (s & fs & ls & lists & I & T & _ & _ & Co & _) & _).
  exists fb, s. auto.
Qed.
Print Assumptions C58_values_have_the_types.
(** A whole number for a field of floating-point numbers is refused, although
    the tool server takes it. *)
Definition item_decl : snode := {| sn_name := Some (L "item"); sn_blocks := [decl (L "price") (L "float") false] |}.
Definition c2 : ctx :=
  {| c_ws := path_of (L "/w"); c_links := 40; c_env := env0; c_fields := fid; c_schemas := sid; c_files := fun l => l;
     c_parse := fun s => Some (if str_eqb s (L "schemas") then {| ps_error := false; ps_schemas := [item_decl]; ps_entities := [] |}
                               else {| ps_error := false; ps_schemas := []; ps_entities := [] |}) |}.
Theorem C58_whole_number_refuted : exists c x ae d w st, ordinary c w d /\ rebuild c d = Ok st /\
  (let a v := {| x_type := L "item"; x_id := L "pen"; x_fields := [(L "price", v)]; x_lists := []; x_values := []; x_file := None |} in
   (exists d' e, run_add c x true d (a (L "5.0")) = (d', Succeeded e)) /\ run_add c x true d (a (L "5")) = (d, Failed)) /\
  exists d' st', add_tool c ae d st {| a_type := L "item"; a_id := L "pen"; a_fields := [(L "price", JNum (JInt 5))]; a_file := None; a_items := [] |} = (d', st', Accepted).
Proof.
  exists c2, x1, ae0, d2_saved, w0. eexists. split.
  - split; [runs|]. split; [apply no_links_list; reflexivity|]. split.
    + unfold tidy. cbn [map fst d2_saved d2 app]. repeat (apply NoDup_cons; [cbn; intuition discriminate|]). apply NoDup_nil.
    + intros p s _ E. destruct p as [|y p]; [discriminate|]. cbn [node_at d2_saved d2 app entry_at] in E.
      repeat (match type of E with context [place_eqb ?u ?v] => destruct (place_eqb u v) end; [injection E as <- || discriminate; vm_compute; reflexivity|]). discriminate.
  - split; [vm_compute; reflexivity|]. split; [split; [do 2 eexists; vm_compute; reflexivity|vm_compute; reflexivity]|]. do 2 eexists. vm_compute. reflexivity.
Qed.
Print Assumptions C58_whole_number_refuted.
(** Two spellings of one field are both taken, so the entity has it twice. *)
Theorem C58_field_twice_refuted : exists c x d a d' e f v v', run_add c x true d a = (d', Succeeded e) /\ NoDup (map fst (x_fields a)) /\
  e_fields e = [(f, v); (f, v')] /\ v <> v' /\ exists st', rebuild c d' = Ok st' /\ get_entity (st_graph st') (e_id e) = Some e.
Proof.
  exists c1, x1, d2_saved, {| x_type := L "person"; x_id := L "jim"; x_fields := [(L "full_name", L "Jim"); (L "Full Name", L "James")]; x_lists := []; x_values := []; x_file := None |}.
  do 5 eexists. split; [vm_compute; reflexivity|]. split; [repeat constructor; cbn; intuition discriminate|]. split; [reflexivity|]. split; [discriminate|].
  eexists. split; vm_compute; reflexivity.
Qed.
Print Assumptions C58_field_twice_refuted.
(** The block is not put on a line of its own: a comment at the end of the file
    takes in its first line. *)
Theorem C58_no_new_line_refuted : exists c x d a d' e q old line rest, node_at d q = Some (File old) /\
  run_add c x true d a = (d', Succeeded e) /\ node_at d' q = Some (File (L "// " ++ line ++ L "person jane {" ++ LF :: rest)) /\ ~ In LF line /\ old = L "// " ++ line.
Proof.
  exists {| c_ws := c_ws c1; c_links := 40; c_env := env0; c_fields := fid; c_schemas := sid; c_files := fun l => l;
            c_parse := fun s => if str_eqb s (L "// people") then Some {| ps_error := false; ps_schemas := []; ps_entities := [] |} else parse1 s |},
    x1, (d2_saved ++ [([L "w"; L "people.firm"], File (L "// people"))]),
    {| x_type := L "person"; x_id := L "jane"; x_fields := [(L "full_name", L "Jane")]; x_lists := []; x_values := []; x_file := Some (L "people.firm") |}.
  do 2 eexists. exists [L "w"; L "people.firm"], (L "// people"), (L "people"). eexists. split; [reflexivity|]. split; [vm_compute; reflexivity|].
  split; [vm_compute; reflexivity|]. split; [cbn; intuition discriminate|reflexivity].
Qed.
Print Assumptions C58_no_new_line_refuted.
(** A path to something that exists leads there from the directory of the
    target, if that exists. *)
Theorem C58_path_leads_to_the_file : forall c x d target s q b dir, sound d -> canonicalize (c_links c) d (join_path (cl_cwd x) s) = Some q ->
  parent target = Some dir -> canonicalize (c_links c) d dir = Some b -> node_at d b = Some Dir ->
  exists p, (forall v, given c x d target TPath s v <-> v = VPath p) /\ resolve (c_links c) d (b ++ path_of p) = At q.
Proof.
  intros c x d target s q b dir SD CQ PT CB Db. exists (cli_path c x d target s). split.
  - intros v. rewrite <- cli_value_spec. cbn [cli_value]. split; [intros (p & [= <-] & ->); reflexivity|intros ->; eexists; split; reflexivity].
  - apply cli_path_leads; auto; congruence.
Qed.
Print Assumptions C58_path_leads_to_the_file.
(** If it does not exist yet, and the workspace is named through a link, the
    path leads elsewhere. *)
Definition d_link : fs :=
  [([L "l"], Link (L "/home/w")); ([L "home"], Dir); ([L "home"; L "w"], Dir); ([L "home"; L "w"; L "s.firm"], File (L "schemas"));
   ([L "home"; L "w"; L "cv.md"], File (L "..")); ([L "home"; L "w"; current_name], File (L "{}"))].
Theorem C58_path_through_link_refuted : exists c x d w a d' e s p q dir, runs_in c d w /\ no_links_in w d /\
  run_add c x true d a = (d', Succeeded e) /\ In (L "cv", s) (x_fields a) /\ In (L "cv", VPath p) (e_fields e) /\
  resolve (c_links c) d (join_path (cl_cwd x) s) = At q /\ parent (dsl_path c (x_type a) (x_file a)) = Some dir /\
  resolve (c_links c) d' (dir ++ path_of p) <> At q.
Proof.
  exists {| c_ws := path_of (L "/l"); c_links := 40; c_env := env0; c_fields := fid; c_schemas := sid; c_files := fun l => l; c_parse := parse1 |},
    {| cl_json := cl_json x1; cl_cwd := path_of (L "/home/w"); cl_order := fun l => l; cl_ext := P_Query.ex_ext; cl_hash := P_Query.ex_ho |},
    d_link, [L "home"; L "w"],
    {| x_type := L "person"; x_id := L "jane"; x_fields := [(L "full_name", L "Jane"); (L "cv", L "cv.md")]; x_lists := []; x_values := []; x_file := None |}.
  do 2 eexists. exists (L "cv.md"). eexists. exists [L "home"; L "w"; L "cv.md"]. eexists.
  split; [runs|]. split.
  { intros p t I E. destruct I as (r & ->). revert E. cbn. destruct r as [|y r]; cbn; [discriminate|]. repeat (match goal with |- context [if ?b then _ else _] => destruct b end; try discriminate). }
  split; [vm_compute; reflexivity|]. split; [right; left; reflexivity|]. split; [right; left; reflexivity|]. split; [vm_compute; reflexivity|].
  split; [vm_compute; reflexivity|]. vm_compute. discriminate.
Qed.
Print Assumptions C58_path_through_link_refuted.
Example C58_case :
  (forall st, rebuild c1 d2_saved = Ok st -> savable (cl_json x1) (st_graph st)) /\ writes_below c1 (x_type flags_jane) (x_file flags_jane) /\
  (exists d' e, run_add c1 x1 false d2_saved flags_jane = (d', Succeeded e) /\ e = jane /\
     exists st', rebuild c1 d' = Ok st' /\ get_entity (st_graph st') (L "person.jane") <> None) /\
  (exists d' e, run_add c1 x1 false d2_saved
     {| x_type := L "person"; x_id := L "kim"; x_fields := [(L "full_name", L "Kim")]; x_lists := [(L "tags", L "String"); (L "tags", L "Integer")];
        x_values := [(L "tags", L "1"); (L "tags", L "-2")]; x_file := Some (L "people") |} = (d', Succeeded e) /\
     e_fields e = [(L "full_name", VStr (L "Kim")); (L "tags", VList [VInt 1; VInt (-2)])] /\ node_at d' [L "w"; L "people.firm"] <> None) /\
  snd (run_add c1 x1 false d2_saved {| x_type := L "person"; x_id := L "kim"; x_fields := []; x_lists := []; x_values := []; x_file := None |}) = Failed.
Proof.
  split.
  { intros st H. assert (E : rebuild c1 d2_saved = Ok st2) by (vm_compute; reflexivity). assert (st = st2) by congruence. subst st. eexists. split; [vm_compute; reflexivity|].
    split; vm_compute; reflexivity. }
  split; [apply C58_default_file; [discriminate| |]; cbn; intuition discriminate|].
  split; [do 2 eexists; split; [vm_compute; reflexivity|]; split; [reflexivity|]; eexists; split; [vm_compute; reflexivity|vm_compute; discriminate]|].
  split; [do 2 eexists; split; [vm_compute; reflexivity|]; split; [reflexivity|vm_compute; discriminate]|]. vm_compute. reflexivity.
Qed.
