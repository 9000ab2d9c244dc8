(** Adding an entity by answering prompts: C59. *)
From Coq Require Import Lia.
From Verif Require Import S_Graph L_Graph.
From Verif Require Import S_Prompt L_Ids L_Fs L_Server L_Load L_History L_DslVal L_Add L_Save L_Cli L_Grow L_Prompt L_Prompt2.
From Verif Require Import P_Dsl P_Schema P_Workspace P_Server P_Add P_Save P_Cli P_Grow.
Close Scope Z_scope.

(** What is added was entered: the first answers, but for some lines and
    choices, are a dialogue for it; so neither Escape nor Ctrl-C was pressed
    but to skip a field or to end a list. Its block is put at the end
    of the target, and nothing else changes but the saved graph and its backup. *)
Theorem C59_only_what_was_entered : forall c x pe cached d w file acts d' e, shuffles (c_fields c) -> (forall l, Permutation (c_schemas c l) l) ->
  runs_in c d w -> no_links_in w d -> no_graph_dirs d w -> run_interactive c x pe cached d file acts = (d', Succeeded e) ->
  exists d1 g fb core used rest q old, (forall p, p <> w ++ [current_name] -> p <> w ++ [backup_name] -> node_at d1 p = node_at d p) /\
    load_current_graph (cl_json x) c d1 = Some g /\ workspace_build c d = Ok fb /\
    acts = used ++ rest /\ among core used /\ dialogue c pe g (b_schemas (snd fb)) file core e /\
    resolve (c_links c) d' (dsl_path c (e_type e) file) = At q /\ (node_at d1 q = Some (File old) \/ (node_at d1 q = None /\ old = [])) /\
    node_at d' q = Some (File (old ++ generate_dsl (c_env c) default_options [e])) /\ only_changed q d1 d'.
Proof.
  intros c x pe cached d w file acts d' e SH PS RI NL ND H. assert (W : workable c w d) by (split; auto).
  destruct (run_made c x pe cached d w file acts d' e SH PS W H) as (d1 & g & fb & core & used & rest & _ & ((S1 & SW & _) & _) & R & _ & G & WB & AE & A & D & WD).
  destruct (written_at c d1 _ _ d' S1 (dsl_slashless c _ _ SW) WD) as (q & old & Q & O & N & OC). exists d1, g, fb, core, used, rest, q, old.
  split; [exact R|]. split; [exact G|]. split; [exact WB|]. split; [exact AE|]. split; [exact A|]. split; [exact D|]. auto.
Qed.
Print Assumptions C59_only_what_was_entered.
(** Conversely an entity that is entered is added to a file that exists,
    whatever is done afterwards. *)
Theorem C59_what_is_entered_is_added : forall c x pe d w st file core rest d1 e p n q old, shuffles (c_fields c) -> (forall l, Permutation (c_schemas c l) l) ->
  runs_in c d w -> no_links_in w d -> no_graph_dirs d w -> rebuild c d = Ok st -> savable (cl_json x) (st_graph st) ->
  prepare c x d false = (d1, Succeeded tt) -> dialogue c pe (st_graph st) (b_schemas (st_build st)) file core e ->
  dsl_path c (e_type e) file = p ++ [n] -> stays n = false -> climbs n = false ->
  resolve (c_links c) d1 (p ++ [n]) = At q -> node_at d1 q = Some (File old) ->
  run_interactive c x pe false d file (core ++ rest) = (set_node d1 q (File (old ++ generate_dsl (c_env c) default_options [e])), Succeeded e).
Proof.
  intros c x pe d w st file core rest d1 e p n q old SH PS RI NL ND B SV P D T S1 C1 R F. assert (W : workable c w d) by (split; auto).
  assert (SV' : forall st, rebuild c d = Ok st -> savable (cl_json x) (st_graph st)) by (intros st0 B0; congruence).
  destruct (prepare_fresh c x d w d1 _ W SV' P) as (st1 & B0 & B1 & LG). assert (st1 = st) by congruence. subst st1.
  destruct (prepare_spec c x d w false d1 _ W P) as (((SD & _) & _) & _). destruct (served_schemas c d st SH PS B) as [NDs WF].
  unfold run_interactive. rewrite P. unfold add_interactive. rewrite LG, (workspace_of_rebuild c d1 st B1), (dialogue_entity c pe _ _ file core e rest SH NDs WF D), T,
    (L_Cli.write_existing c d1 p n q old _ SD S1 C1 R F). reflexivity.
Qed.
Print Assumptions C59_what_is_entered_is_added.
(** What is added satisfies the schema of its type. *)
Theorem C59_conforms_to_its_schema : forall c x pe cached d w file acts d' e, shuffles (c_fields c) -> (forall l, Permutation (c_schemas c l) l) ->
  runs_in c d w -> no_links_in w d -> no_graph_dirs d w -> run_interactive c x pe cached d file acts = (d', Succeeded e) ->
  exists fb s, workspace_build c d = Ok fb /\ In s (b_schemas (snd fb)) /\ s_type s = e_type e /\ conforms s e.
Proof.
  intros c x pe cached d w file acts d' e SH PS RI NL ND H. assert (W : workable c w d) by (split; auto).
  destruct (run_made c x pe cached d w file acts d' e SH PS W H) as (d1 & g & fb & core & used & rest & _ & _ & _ & _ & _ & WB & _ & _ & D & _).
  destruct (dialogue_conforms c pe g _ file core e (e_fields e) D (proj2 (workspace_schemas c d fb SH PS WB))) with (id := e_id e) as (s & I & T & Co).
  { clear. induction (e_fields e); constructor; auto. split; [reflexivity|]. left. reflexivity. }
  exists fb, s. destruct e. auto.
Qed.
Print Assumptions C59_conforms_to_its_schema.
(** The entity and the field that a reference names are there. *)
Theorem C59_references_lead_somewhere : forall c x pe d w file acts d' e, shuffles (c_fields c) -> (forall l, Permutation (c_schemas c l) l) ->
  runs_in c d w -> no_links_in w d -> no_graph_dirs d w -> (forall st, rebuild c d = Ok st -> savable (cl_json x) (st_graph st)) ->
  run_interactive c x pe false d file acts = (d', Succeeded e) ->
  exists st, rebuild c d = Ok st /\
    (forall i id, In (i, VRef (REntity id)) (e_fields e) -> exists e0, get_entity (st_graph st) id = Some e0) /\
    (forall i id f, In (i, VRef (RField id f)) (e_fields e) -> exists e0 v, get_entity (st_graph st) id = Some e0 /\ first_value e0 f v).
Proof.
  intros c x pe d w file acts d' e SH PS RI NL ND SV H. assert (W : workable c w d) by (split; auto).
  destruct (run_made c x pe false d w file acts d' e SH PS W H) as (d1 & g & fb & core & used & rest & P & _ & _ & _ & G & _ & _ & _ & D & _).
  destruct (prepare_fresh c x d w d1 _ W SV P) as (st & B & _ & G'). assert (g = st_graph st) by congruence. subst g. exists st. split; [exact B|].
  split; [intros i id I|intros i id f I]; destruct (dialogue_among_refs _ _ _ _ _ _ _ _ _ D I) as (s & t & i0 & e0 & _ & _ & GE & [[_ E]|(f0 & v & _ & _ & E & FV)]); try discriminate; injection E as E; subst; eauto.
Qed.
Print Assumptions C59_references_lead_somewhere.
(** In a workspace of fewer than a thousand entities the id is new. *)
Theorem C59_id_is_new : forall c x pe d w file acts d' e, shuffles (c_fields c) -> (forall l, Permutation (c_schemas c l) l) ->
  runs_in c d w -> no_links_in w d -> no_graph_dirs d w -> (forall st, rebuild c d = Ok st -> savable (cl_json x) (st_graph st)) ->
  run_interactive c x pe false d file acts = (d', Succeeded e) ->
  exists st, rebuild c d = Ok st /\ (length (b_entities (st_build st)) < 1000 -> get_entity (st_graph st) (compose_entity_id (e_type e) (e_id e)) = None).
Proof.
  intros c x pe d w file acts d' e SH PS RI NL ND SV H. assert (W : workable c w d) by (split; auto).
  destruct (run_made c x pe false d w file acts d' e SH PS W H) as (d1 & g & fb & core & used & rest & P & _ & _ & _ & G & _ & _ & _ & D & _).
  destruct (prepare_fresh c x d w d1 _ W SV P) as (st & B & _ & G'). assert (g = st_graph st) by congruence. subst g. exists st. split; [exact B|]. intros N.
  destruct (dialogue_fields _ _ _ _ _ _ _ D) as (s & _ & Et & (name & Ei) & _). rewrite Et, Ei. exact (small_unused c d st _ name B N).
Qed.
Print Assumptions C59_id_is_new.
(** A dialogue that is broken off, or fails otherwise, leaves all sources as they are. *)
Theorem C59_failure_leaves_the_sources : forall c x pe cached d w file acts d' r, runs_in c d w -> no_links_in w d -> no_graph_dirs d w ->
  run_interactive c x pe cached d file acts = (d', r) -> (forall e, r <> Succeeded e) -> sources_kept w d d'.
Proof.
  intros c x pe cached d w file acts d' r RI NL ND H NS. assert (W : workable c w d) by (split; auto). unfold run_interactive in H.
  destruct (prepare c x d cached) as [d1 u] eqn:P. destruct (prepare_spec c x d w cached d1 u W P) as (W1 & R & _).
  assert (K : only_dirs_added d1 d').
  { destruct u; try (injection H as <- _; apply dirs_refl). unfold add_interactive in H.
    destruct (load_current_graph _ c d1); [|injection H as <- _; apply dirs_refl].
    destruct (workspace_build c d1) as [[fs b]|er|]; try (injection H as <- _; apply dirs_refl).
    destruct (entity_prompt _ _ _ _ _ _) as [[p e] rest|rest|] eqn:EP; try (injection H as <- _; apply dirs_refl).
    destruct (write_dsl c d1 p _) as [d2 []] eqn:WD; [destruct (NS e); congruence|]. injection H as <- _. apply prompt_target in EP. subst p.
    pose proof W1 as ((S1 & SW & _) & _). exact (proj1 (write_spec c d1 _ _ d2 false S1 (dsl_slashless c _ _ SW) WD)). }
  intros p A B. rewrite <- (rest_kept w d d1 R p A B). apply K.
Qed.
Print Assumptions C59_failure_leaves_the_sources.
(** Whatever is done after Ctrl-C does not count: if an entity is added, it was
    entered before. *)
Theorem C59_nothing_is_entered_after_an_interrupt : forall c x pe cached d w file pre post d' e, shuffles (c_fields c) -> (forall l, Permutation (c_schemas c l) l) ->
  runs_in c d w -> no_links_in w d -> no_graph_dirs d w -> run_interactive c x pe cached d file (pre ++ Interrupts :: post) = (d', Succeeded e) ->
  exists d1 g fb core used rest, (forall p, p <> w ++ [current_name] -> p <> w ++ [backup_name] -> node_at d1 p = node_at d p) /\
    load_current_graph (cl_json x) c d1 = Some g /\ workspace_build c d = Ok fb /\
    pre = used ++ rest /\ among core used /\ dialogue c pe g (b_schemas (snd fb)) file core e.
Proof.
  intros c x pe cached d w file pre post d' e SH PS RI NL ND H. assert (W : workable c w d) by (split; auto).
  destruct (run_made c x pe cached d w file _ d' e SH PS W H) as (d1 & g & fb & core & used & rest & _ & _ & R & _ & G & WB & AE & A & D & _).
  destruct (cut_before Interrupts used rest pre post) as (rest' & E); [intros I; exact (dialogue_uninterrupted _ _ _ _ _ _ _ D (among_interrupts _ _ A I))|exact AE|].
  exists d1, g, fb, core, used, rest'. auto 8.
Qed.
Print Assumptions C59_nothing_is_entered_after_an_interrupt.
(** A relative path is read as the place it names from the root of the workspace. *)
Theorem C59_path_counts_from_the_root : forall c o ds name s r, Forall plain_component ds -> plain_component name ->
  is_absolute s = false -> path_argument s -> S_Dsl.walk false (0, []) (split_char "/" s) r ->
  read_back (c_env c) o (file_path ds name) (VPath (prompt_path c (c_ws c ++ ds ++ [name]) s)) = Ok (VPath (place_text false r)).
Proof. intros c o ds name s r F N A P W. rewrite (prompt_path_field c ds name s F N A). exact (path_field_read c o ds name s r F N A P W). Qed.
Print Assumptions C59_path_counts_from_the_root.
(** If the parser reads the block as it is written, and the values can be
    written, then the workspace builds with the entity, and with all that was
    served before. *)
Theorem C59_adding_grows_the_workspace : forall c x pe d w st file acts d' e, shuffles (c_fields c) ->
  (forall l, Permutation (c_schemas c l) l) -> (forall l, Permutation (c_files c l) l) ->
  runs_in c d w -> no_links_in w d -> no_graph_dirs d w -> tidy d -> rebuild c d = Ok st -> savable (cl_json x) (st_graph st) ->
  length (b_entities (st_build st)) < 1000 -> faithful c pe ->
  run_interactive c x pe false d file acts = (d', Succeeded e) -> writes_below c (e_type e) file -> ~ In "."%char (e_type e) ->
  Forall (fun fv => writable c (snd fv)) (e_fields e) ->
  (forall r old, let text := old ++ generate_dsl (c_env c) default_options [e] in became w d d' r old text ->
     adds_node c old text (written_entity (c_env c) default_options e)) ->
  exists st' e', rebuild c d' = Ok st' /\ grown st st' e' /\
    e_id e' = compose_entity_id (e_type e) (e_id e) /\ e_type e' = e_type e /\
    Forall2 (fun fv fv' => fst fv' = fst fv /\ read_as (snd fv) (snd fv')) (e_fields e) (e_fields e').
Proof.
  intros c x pe d w st file acts d' e SH PS PC RI NL ND TD B SV SM FA H (rp & n & T & F & FN) DT WR RD. assert (W : workable c w d) by (split; auto).
  assert (SV' : forall st, rebuild c d = Ok st -> savable (cl_json x) (st_graph st)) by (intros st0 B0; congruence).
  destruct (run_made c x pe false d w file acts d' e SH PS W H) as (d1 & g & fb & core & used & rest & P & (RI1 & NL1 & _) & R & TD1 & G & WB & _ & _ & D & WD). specialize (TD1 TD).
  destruct (prepare_fresh c x d w d1 _ W SV' P) as (st0 & B0 & B1 & LG). assert (st0 = st) by congruence. subst st0. assert (g = st_graph st) by congruence. subst g.
  pose proof RI1 as (S1 & SW & _). pose proof (dsl_slashless c (e_type e) file SW) as SL.
  destruct (written_is_source c d1 w _ rp n _ d' RI1 NL1 SL T F FN WD) as (r & old & O & SO & OC).
  destruct (written_served c d1 w _ _ d' RI1 SL WD) as (RI' & NL' & TD').
  destruct (source_not_graph w r d' _ SO) as [N1 N2]. pose proof (R (w ++ r) N1 N2) as K.
  assert (AN : adds_node c old (old ++ generate_dsl (c_env c) default_options [e]) (written_entity (c_env c) default_options e)).
  { apply (RD r old). split; [rewrite <- K; exact O|exact SO]. }
  destruct (dialogue_fields _ _ _ _ _ _ _ D) as (s0 & Is0 & Et & (name & Ei) & _). pose proof (workspace_type c d fb s0 SH PS WB Is0) as LT. rewrite <- Et in LT.
  destruct (dialogue_read c pe _ _ file core e (path_text r) FA D WR) as (fs & F1 & F2).
  pose proof (read_written _ _ _ _ _ F1) as TE. assert (UD : ~ In "."%char (e_id e)) by (rewrite Ei; apply unique_undotted).
  rewrite (plain_id_undotted _ UD), LT in TE. cbn [snd] in TE. set (e' := {| e_id := _; e_type := _; e_fields := fs |}) in TE.
  destruct (dialogue_conforms c pe _ _ file core e fs D (proj2 (workspace_schemas c d fb SH PS WB)) F2 (e_id e')) as (s & Is & _ & Co).
  rewrite (workspace_of_rebuild c d st B) in WB. injection WB as <-. cbn [snd] in Is.
  destruct (grow_rebuild c d1 d' w r old _ _ RI1 NL1 TD1 RI' (NL' NL1) (TD' TD1) (conj O SO) OC AN st s e' SH PS PC B1 TE Is Co) as (st' & B' & Gr).
  { unfold e'. cbn [e_id]. rewrite Et, Ei. exact (small_unused c d st _ name B SM). }
  exists st', e'. auto 6.
Qed.
Print Assumptions C59_adding_grows_the_workspace.

(** Example: a workspace with a task. *)
Definition state_decl : nblock :=
  {| nb_type := Some (L "field");
     nb_body := Some [field_node (L "name") (text_node (L "state")); field_node (L "type") (text_node (L "enum"));
                      field_node (L "allowed_values") (VNode (Some KList) [] [text_node (L "open"); text_node (L "done")])] |}.
Definition task_decl : snode :=
  {| sn_name := Some (L "task");
     sn_blocks := [decl (L "name") (L "string") true; decl (L "after") (L "reference") false; decl (L "due") (L "datetime") false;
                   state_decl; decl (L "weight") (L "float") false] |}.
Definition base_task : entity := {| e_id := L "task.base"; e_type := L "task"; e_fields := [(L "name", VStr (L "Base"))] |}.
Definition fix_task : entity :=
  {| e_id := L "fix_it"; e_type := L "task";
     e_fields := [(L "name", VStr (L "Fix")); (L "after", VRef (REntity (L "task.base")));
                  (L "due", VDate {| dt_local := 20000 * 86400 + 9 * 3600 + 30 * 60; dt_nanos := 0; dt_off := 7200 |}); (L "state", VEnum (L "done"))] |}.
Definition task_text (e : entity) : str := generate_dsl env0 default_options [e].
Definition parse6 (s : str) : option parsed :=
  match s with
  | [] => Some {| ps_error := false; ps_schemas := []; ps_entities := [] |}
  | _ => if str_eqb s (L "schemas") then Some {| ps_error := false; ps_schemas := [task_decl]; ps_entities := [] |}
         else match find (fun e => str_eqb s (task_text e)) [base_task; fix_task] with
              | Some e => Some {| ps_error := false; ps_schemas := []; ps_entities := [written_entity env0 default_options e] |}
              | None => None
              end
  end.
Definition c6 : ctx :=
  {| c_ws := path_of (L "/w"); c_links := 40; c_parse := parse6; c_env := env0; c_fields := fid; c_schemas := sid; c_files := fun l => l |}.
Definition d6 : fs := [([L "w"], Dir); ([L "w"; L "s.firm"], File (L "schemas")); ([L "w"; L "base.firm"], File (task_text base_task))].
Definition st6 : state := match rebuild c6 d6 with Ok st => st | _ => none0 end.
Definition x6 : cli_env :=
  {| cl_json := {| to_json _ := Some (L "{}"); of_json _ := Some (st_graph st6) |};
     cl_cwd := path_of (L "/w"); cl_order := fun l => l; cl_ext := P_Query.ex_ext; cl_hash := P_Query.ex_ho |}.
Definition pe6 : prompt_env :=
  {| pe_float s := if str_eqb s (L "inf") then Some (S754_infinity false) else None;
     pe_decimal s := if str_eqb s (L "5") then Some {| d_mant := 5; d_scale := 0 |} else None;
     pe_codes := [L "EUR"; L "USD"] |}.
(** The name is first left empty, a task is misspelled, and an hour is wrong. *)
Definition acts6 : list act :=
  [Picks 0; Types (L "Fix it!"); Types (L " "); Types (L "Fix"); Types (L "Y"); Types (L "task.bose"); Types (L "task.base");
   PicksDay 20000; Types (L "25:00"); Types (L "09:30"); Types (L "2"); Picks 1; Escapes].
Definition fix_place : path := [L "generated"; L "task.firm"].
Lemma d6_ordinary : runs_in c6 d6 w0 /\ no_links_in w0 d6 /\ no_graph_dirs d6 w0 /\ tidy d6.
Proof.
  split; [runs|]. split; [apply no_links_list; reflexivity|]. split; [split; discriminate|].
  unfold tidy. cbn [map fst d6]. repeat (apply NoDup_cons; [cbn; intuition discriminate|]). apply NoDup_nil.
Qed.
Example C59_case : rebuild c6 d6 = Ok st6 /\ savable (cl_json x6) (st_graph st6) /\ faithful c6 pe6 /\ writes_below c6 (L "task") None /\
  Forall (fun fv => writable c6 (snd fv)) (e_fields fix_task) /\
  exists d', run_interactive c6 x6 pe6 false d6 None (acts6 ++ [Interrupts]) = (d', Succeeded fix_task) /\
    forall r old, let text := old ++ generate_dsl (c_env c6) default_options [fix_task] in became w0 d6 d' r old text ->
      adds_node c6 old text (written_entity (c_env c6) default_options fix_task).
Proof.
  split; [vm_compute; reflexivity|]. split; [eexists; split; [reflexivity|]; split; reflexivity|]. split.
  { split.
    - cbn [pe6 pe_decimal]. intros s a H. destruct (str_eqb s (L "5")); [|discriminate]. injection H as <-. split; [reflexivity|cbn; lia].
    - cbn [pe6 pe_codes]. intros k [<-|[<-|[]]]; (split; [reflexivity|]); cbn; intuition discriminate. }
  split; [apply C58_default_file; [discriminate| |]; cbn; intuition discriminate|]. split.
  { constructor; [|constructor; [constructor|constructor; [constructor; vm_compute; split; discriminate|constructor; [|constructor]]]]; cbn [snd].
    - constructor; [|cbn; intuition discriminate|cbn; intuition discriminate].
      apply (utf8_cons (L "F")); [vm_compute; auto|]. apply (utf8_cons (L "i")); [vm_compute; auto|]. apply (utf8_cons (L "x") []); [vm_compute; auto|constructor].
    - constructor. apply (C28_enums_survive_exactly env0 default_options []). reflexivity. }
  eexists. split; [vm_compute; reflexivity|]. intros r old text [O (N & p & n & E & F)].
  assert (K : r = fix_place /\ text = task_text fix_task).
  { unfold text in N. assert (LN : forall t, old ++ generate_dsl (c_env c6) default_options [fix_task] = t -> length (task_text fix_task) <= length t).
    { intros t <-. rewrite app_length. unfold task_text. cbn [c6 c_env]. lia. }
    assert (FN : forall m, r = [m] -> ~ firm_file_name m -> False).
    { intros m -> NF. change [m] with ([] ++ [m]) in E. apply app_inj_tail in E as [_ <-]. exact (NF F). }
    assert (NG : forall m, (exists k, m = k ++ L ".graph") -> ~ firm_file_name m).
    { intros m (k & ->) (k' & _ & E'). apply (f_equal (@rev ascii)) in E'. rewrite !rev_app_distr in E'. discriminate. }
    apply in_fs in N; [|destruct r; discriminate]. repeat match type of N with In _ (_ :: _) => destruct N as [N|N] | In _ [] => destruct N end; try discriminate; injection N as Nr Nt; subst r.
    - exfalso. specialize (LN _ (eq_sym Nt)). revert LN. apply Nat.nle_gt, Nat.ltb_lt. vm_compute. reflexivity.
    - exfalso. specialize (LN _ (eq_sym Nt)). revert LN. apply Nat.nle_gt, Nat.ltb_lt. vm_compute. reflexivity.
    - exfalso. eapply FN; [reflexivity|]. apply NG. exists (L "current.firm"). reflexivity.
    - split; [reflexivity|]. symmetry. exact Nt. }
  destruct K as [-> K]. destruct O as [O|[_ O]]; [discriminate|]. subst old. unfold text in *. cbn [app] in *.
  split; [vm_compute; reflexivity|]. do 2 eexists. split; [reflexivity|]. split; [vm_compute; reflexivity|]. split; [reflexivity|]. split; [vm_compute; reflexivity|]. intros _. split; reflexivity.
Qed.

(** ** What fails *)
(** An optional enum cannot be skipped: Escape there ends the command, and what
    was entered is lost. *)
Theorem C59_skipping_an_enum_refuted : exists c x pe d w st s i f pre n post, runs_in c d w /\ no_links_in w d /\ rebuild c d = Ok st /\
  In s (b_schemas (st_build st)) /\ In (i, f) (s_fields s) /\ fs_required f = false /\
  (exists d' e v, run_interactive c x pe false d None (pre ++ Picks n :: post) = (d', Succeeded e) /\ In (i, v) (e_fields e)) /\
  snd (run_interactive c x pe false d None (pre ++ Escapes :: post)) = Failed.
Proof.
  exists c6, x6, pe6, d6, w0, st6. do 2 eexists. exists {| fs_type := TEnum; fs_required := false; fs_order := 3; fs_allowed := Some [L "open"; L "done"] |}.
  exists (firstn 11 acts6), 1, [Escapes]. split; [apply d6_ordinary|]. split; [apply d6_ordinary|]. split; [vm_compute; reflexivity|].
  split; [left; reflexivity|]. split; [do 3 right; left; vm_compute; reflexivity|]. split; [reflexivity|].
  split; [|vm_compute; reflexivity]. do 3 eexists. split; [vm_compute; reflexivity|]. do 3 right. left. reflexivity.
Qed.
Print Assumptions C59_skipping_an_enum_refuted.
(** A wrong time is asked for again, but a wrong time zone ends the command. *)
Theorem C59_wrong_offset_refuted : exists c x pe d w st pre post, runs_in c d w /\ no_links_in w d /\ rebuild c d = Ok st /\
  let answers times offsets := pre ++ map Types times ++ map Types offsets ++ post in
  (exists d' e, run_interactive c x pe false d None (answers [L "25:00"; L "09:30"] [L "2"]) = (d', Succeeded e)) /\
  snd (run_interactive c x pe false d None (answers [L "09:30"] [L "15"; L "2"])) = Failed.
Proof.
  exists c6, x6, pe6, d6, w0, st6, (firstn 8 acts6), [Picks 1; Escapes]. split; [apply d6_ordinary|]. split; [apply d6_ordinary|]. split; [vm_compute; reflexivity|].
  split; [do 2 eexists; vm_compute; reflexivity|vm_compute; reflexivity].
Qed.
Print Assumptions C59_wrong_offset_refuted.
(** A text with quotes is accepted but is not read as it was entered. *)
Theorem C59_quotes_refuted : exists c x pe d w st acts d' e i s, runs_in c d w /\ no_links_in w d /\ rebuild c d = Ok st /\ In (Types s) acts /\
  run_interactive c x pe false d None acts = (d', Succeeded e) /\ In (i, VStr s) (e_fields e) /\
  forall path, read_back (c_env c) default_options path (VStr s) <> Ok (VStr s).
Proof.
  exists c6, x6, pe6, d6, w0, st6, [Picks 0; Types (L "x"); Types (L "Say " ++ [DQ] ++ L "hi" ++ [DQ]); Types []]. do 3 eexists. exists (L "Say " ++ [DQ] ++ L "hi" ++ [DQ]).
  split; [apply d6_ordinary|]. split; [apply d6_ordinary|]. split; [vm_compute; reflexivity|]. split; [cbn; auto|]. split; [vm_compute; reflexivity|].
  split; [left; reflexivity|]. intros path. vm_compute. discriminate.
Qed.
Print Assumptions C59_quotes_refuted.
(** The word for infinity is accepted as a number, but what is written for it is not read. *)
Definition env7 : dsl_env :=
  {| local_offset := 3600; known_currency := known_currency env0; show_f64 := fun f => match f with S754_infinity false => L "inf" | _ => show_f64 env0 f end; overflow_checks := true |}.
Definition c7 : ctx := {| c_ws := c_ws c6; c_links := 40; c_parse := parse6; c_env := env7; c_fields := fid; c_schemas := sid; c_files := fun l => l |}.
Theorem C59_infinity_refuted : exists c x pe d w st acts d' e i f, runs_in c d w /\ no_links_in w d /\ rebuild c d = Ok st /\
  pe_float pe (L "inf") = Some f /\ show_f64 (c_env c) f = L "inf" /\ In (Types (L "inf")) acts /\
  run_interactive c x pe false d None acts = (d', Succeeded e) /\ In (i, VFloat f) (e_fields e) /\
  forall path, exists er, read_back (c_env c) default_options path (VFloat f) = Err er.
Proof.
  exists c7, x6, pe6, d6, w0, st6, [Picks 0; Types (L "x"); Types (L "X"); Types (L "y"); Escapes; Escapes; Picks 0; Types (L "inf")]. do 4 eexists.
  split; [runs|]. split; [apply no_links_list; reflexivity|]. split; [vm_compute; reflexivity|]. split; [reflexivity|]. split; [reflexivity|]. split; [cbn; auto 10|].
  split; [vm_compute; reflexivity|]. split; [do 2 right; left; reflexivity|]. intros path. eexists. vm_compute. reflexivity.
Qed.
Print Assumptions C59_infinity_refuted.
(** A name without letters or digits gives the empty id. *)
Theorem C59_empty_id_refuted : exists c x pe d w st acts d' e name, runs_in c d w /\ no_links_in w d /\ rebuild c d = Ok st /\ In (Types name) acts /\ name <> [] /\
  run_interactive c x pe false d None acts = (d', Succeeded e) /\ e_id e = [].
Proof.
  exists c6, x6, pe6, d6, w0, st6, [Picks 0; Types (L "?!"); Types (L "Fix"); Types []]. do 2 eexists. exists (L "?!").
  split; [apply d6_ordinary|]. split; [apply d6_ordinary|]. split; [vm_compute; reflexivity|]. split; [cbn; auto|]. split; [discriminate|]. split; vm_compute; reflexivity.
Qed.
Print Assumptions C59_empty_id_refuted.
