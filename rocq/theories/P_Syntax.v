(** The documented syntax of source files: C63, C64, C65. *)
From Coq Require Import Lia Permutation.
From Verif Require Import S_Graph L_Graph.
From Verif Require Import S_Init S_Syntax L_Str L_Ids L_Schema L_Schema2 L_Fs L_Server L_Load L_History L_DslStr L_DslVal L_Add L_Save L_Cli L_Grow L_Prompt L_Prompt2 L_Init L_Init2.
From Verif Require Import L_Syntax L_Syntax2 L_Syntax3 L_Syntax4 L_Syntax5.
From Verif Require Import P_Dsl P_Schema P_Workspace P_Server P_Add P_Save P_Cli P_Grow P_Prompt P_Init.
From Verif Require Import M_Fs M_Syntax.
Close Scope Z_scope.

(** ** C63 *)
(** A text in the documented syntax has one reading. *)
Theorem C63_one_reading : forall bs bs' text, file_syntax bs text -> file_syntax bs' text -> tree_of bs = tree_of bs'.
Proof. intros bs bs' text H H'. pose proof (reads_syntax bs text H) as E. rewrite (reads_syntax bs' text H') in E. congruence. Qed.
Print Assumptions C63_one_reading.
(** And it can be read: there is a parser for it. *)
Theorem C63_can_be_parsed : exists parse, follows_syntax parse.
Proof. exists read_source_text. exact reads_syntax. Qed.
Print Assumptions C63_can_be_parsed.
(** The blocks of two files, one put after the other on a new line, are those of both. *)
Theorem C63_files_can_be_joined : forall bs bs' a b, file_syntax bs a -> file_syntax bs' b -> file_syntax (bs ++ bs') (a ++ [LF] ++ b).
Proof. intros bs bs' a b A B. rewrite app_assoc. apply file_app; [now apply file_lf|right; now exists a|exact B]. Qed.
Print Assumptions C63_files_can_be_joined.
(** Refuted: that the new line is not needed. A comment takes the rest of the line. *)
Theorem C63_no_new_line_refuted : exists bs bs' a b, file_syntax bs a /\ file_syntax bs' b /\ forall bs'', ~ file_syntax bs'' (a ++ b).
Proof.
  exists [], [EntityBlock {| en_type := Some (L "person"); en_id := Some (L "jo"); en_fields := [] |}], (L "// people"), (L "person jo {" ++ [LF] ++ L "}"). split; [|split].
  - constructor. right. exists [], (L " people"). split; [constructor|]. split; [|reflexivity]. cbn. intuition discriminate.
  - apply (file_entity [] (L "person") (L " ") (L "jo") (L " ") [LF] [] (L "}") [] []); try exact space_gap; try exact lf_gap; try exact empty_file; try apply name_word; try reflexivity; try discriminate; constructor.
  - intros bs H. apply reads_syntax in H. vm_compute in H. discriminate.
Qed.
Print Assumptions C63_no_new_line_refuted.

(** Example: the reference's own examples, with comments. *)
Definition reference_text : str :=
  L "// Single-line comment" ++ [LF] ++
  L "person john_doe {" ++ [LF] ++
  L "    name = " ++ quoted (L "John Doe") ++ L " // Inline comment" ++ [LF] ++
  L "    height = 1.75" ++ [LF] ++
  L "    tags = [" ++ quoted (L "a") ++ L " , " ++ quoted (L "b") ++ L ",]" ++ [LF] ++
  L "}" ++ [LF] ++ L "/* Multi-line" ++ [LF] ++ L "comment. */" ++ [LF] ++
  L "schema task { field { name = " ++ quoted (L "name") ++ [LF] ++ L "type = " ++ quoted (L "string") ++ L "} }".
Definition reference_blocks : list S_Syntax.block :=
  [ EntityBlock {| en_type := Some (L "person"); en_id := Some (L "john_doe"); en_fields :=
      [ field_node (L "name") (text_node (L "John Doe")); field_node (L "height") (VNode (Some KNumber) (L "1.75") []);
        field_node (L "tags") (VNode (Some KList) (L "[" ++ quoted (L "a") ++ L " , " ++ quoted (L "b") ++ L ",]") [text_node (L "a"); text_node (L "b")]) ] |};
    SchemaBlock {| sn_name := Some (L "task"); sn_blocks :=
      [ {| nb_type := Some (L "field"); nb_body := Some [field_node (L "name") (text_node (L "name")); field_node (L "type") (text_node (L "string"))] |} ] |} ].
Lemma line_of s : forallb (fun c => negb (Ascii.eqb c DQ) && negb (Ascii.eqb c LF)) s = true -> one_line s.
Proof.
  intros H. rewrite forallb_forall in H. split; intros I; specialize (H _ I); vm_compute in H; discriminate.
Qed.
Lemma spaces_gap s : forallb (fun c => Ascii.eqb c " " || Ascii.eqb c LF) s = true -> gap s.
Proof.
  induction s as [|c s IH]; cbn [forallb]; intros H; [constructor|]. apply Bool.andb_true_iff in H as [C H]. constructor; [|exact (IH H)].
  apply Bool.orb_true_iff in C. rewrite !Ascii.eqb_eq in C. unfold blank_char. cbn. intuition.
Qed.
Lemma number_of i f : digits_syntax (length i) i -> 0 < length i -> digits_syntax (length f) f -> 0 < length f -> number_syntax (i ++ L "." ++ f).
Proof. intros I I0 F F0. exists [], i, (L "." ++ f). split; [reflexivity|]. split; [now left|]. split; [exists (length i); auto|]. right. exists f, (length f). auto. Qed.
Example C63_case : file_syntax reference_blocks reference_text.
Proof.
  apply (file_entity (L "// Single-line comment" ++ [LF]) (L "person") (L " ") (L "john_doe") (L " ") ([LF] ++ L "    ") _
    (L "name" ++ L " " ++ L "=" ++ L " " ++ quoted (L "John Doe") ++ (L " // Inline comment" ++ [LF] ++ L "    ") ++
     L "height" ++ L " " ++ L "=" ++ L " " ++ L "1.75" ++ ([LF] ++ L "    ") ++
     L "tags" ++ L " " ++ L "=" ++ L " " ++ (L "[" ++ [] ++ quoted (L "a") ++ L " " ++ L "," ++ L " " ++ quoted (L "b") ++ [] ++ L "," ++ [] ++ L "]") ++ [LF] ++ L "}") _
    (([LF] ++ L "/* Multi-line" ++ [LF] ++ L "comment. */" ++ [LF]) ++ L "schema" ++ L " " ++ L "task" ++ L " " ++ L "{" ++ L " " ++
     (L "field" ++ L " " ++ L "{" ++ L " " ++ (L "name" ++ L " " ++ L "=" ++ L " " ++ quoted (L "name") ++ [LF] ++ L "type" ++ L " " ++ L "=" ++ L " " ++ quoted (L "string") ++ [] ++ L "}") ++ L " " ++ L "}") ++ []));
    try (now apply name_word); try (now apply spaces_gap); try discriminate.
  - apply (gap_line (L " Single-line comment") []); [cbn; intuition discriminate|constructor].
  - apply fields_one; try (now apply name_word); try (now apply spaces_gap).
    + apply val_literal, syn_string. now apply line_of.
    + apply (gap_blank " "); [now left|]. apply (gap_line (L " Inline comment")); [cbn; intuition discriminate|]. now apply spaces_gap.
    + intros _. vm_compute. tauto.
    + apply (fields_one (L "height") (L " ") (L " ") (VNode (Some KNumber) (L "1.75") [])); try (now apply name_word); try (now apply spaces_gap).
      * apply val_literal, syn_number, (number_of (L "1") (L "75")); try (cbn; lia); split; try reflexivity; repeat constructor.
      * intros _. now left.
      * apply (fields_one (L "tags") (L " ") (L " ") (VNode (Some KList) (L "[" ++ [] ++ quoted (L "a") ++ L " " ++ L "," ++ L " " ++ quoted (L "b") ++ [] ++ L "," ++ [] ++ L "]") [text_node (L "a"); text_node (L "b")]));
          try (now apply name_word); try (now apply spaces_gap).
        -- apply val_list; [constructor| |repeat constructor; now apply line_of].
           apply (items_more (text_node (L "a")) (L " ") (L " ")); try (now apply spaces_gap). apply (items_more (text_node (L "b")) [] []); constructor.
        -- intros N. now elim N.
        -- constructor.
  - apply file_schema; try (now apply name_word); try (now apply spaces_gap); try discriminate.
    + apply (gap_blank LF); [cbn; tauto|]. apply (gap_block (L " Multi-line" ++ [LF] ++ L "comment. ")); [|now apply spaces_gap].
      intros a b E. repeat (destruct a as [|? a]; [cbn in E; try discriminate; injection E; intros; subst; reflexivity|]; cbn in E; injection E as _ E). destruct a; discriminate.
    + apply (blocks_one (L " ") (L " ")); try (now apply spaces_gap); [|constructor].
      apply fields_one; try (now apply name_word); try (now apply spaces_gap).
      * apply val_literal, syn_string. now apply line_of.
      * intros _. now left.
      * apply (fields_one (L "type") (L " ") (L " ") (text_node (L "string")) []); try (now apply name_word); try (now apply spaces_gap); try constructor.
        -- apply syn_string. now apply line_of.
        -- intros N. now elim N.
    + exact empty_file.
Qed.

(** ** C64 *)
(** What is generated for entities is in the syntax and read as their blocks. *)
Theorem C64_entities_are_read_as_written : forall parse env o es, follows_syntax parse -> Forall (expressible_entity env) es ->
  parse (generate_dsl env o es) = Some {| ps_error := false; ps_schemas := []; ps_entities := map (written_entity env o) es |}.
Proof.
  intros parse env o es P F. rewrite (P _ _ (entities_in_file env o es F)). unfold tree_of. destruct (entities_only (map (written_entity env o) es)) as [-> ->]. reflexivity.
Qed.
Print Assumptions C64_entities_are_read_as_written.
(** So entities written to a file are read from it as they were. *)
Theorem C64_entities_come_back : forall parse env o path es, follows_syntax parse -> Forall (kept_entity env) es ->
  exists ps, parse (generate_dsl env o es) = Some ps /\ ps_error ps = false /\ ps_schemas ps = [] /\
    Forall2 (fun n e => to_entity env path n = Ok e) (ps_entities ps) es.
Proof.
  intros parse env o path es P F. eexists. split; [apply C64_entities_are_read_as_written; [exact P|eapply Forall_impl; [|exact F]; intros e; apply kept_is_expressible]|].
  split; [reflexivity|]. split; [reflexivity|]. cbn [ps_entities]. induction F as [|e es E F IH]; [constructor|]. constructor; [now apply kept_reads|exact IH].
Qed.
Print Assumptions C64_entities_come_back.
(** The same for a schema: it comes back with its type and its fields in order. *)
Theorem C64_schemas_are_read_as_written : forall parse ho o s, follows_syntax parse -> shuffles ho -> expressible_schema s ->
  parse (generate_schema ho o s) = Some {| ps_error := false; ps_schemas := [written_schema ho s]; ps_entities := [] |}.
Proof. intros parse ho o s P SH X. exact (P _ _ (schema_file ho o s SH X)). Qed.
Print Assumptions C64_schemas_are_read_as_written.
Theorem C64_schemas_come_back : forall parse env path ho ho' o s, follows_syntax parse -> shuffles ho -> shuffles ho' -> well_formed s -> expressible_schema s ->
  new_id (s_type s) = s_type s -> Forall storable_field (s_fields s) ->
  exists ps n s', parse (generate_schema ho o s) = Some ps /\ ps_error ps = false /\ ps_entities ps = [] /\ ps_schemas ps = [n] /\
    to_schema env path n = Ok s' /\ s_type s' = s_type s /\ listing ho' s' = listing ho s.
Proof.
  intros parse env path ho ho' o s P SH SH' W X N F. destruct (C32_survives_exactly env path ho ho' s SH SH' W) as (s' & E & I).
  { destruct X as [_ X]. eapply Forall_impl; [|exact X]. intros p (_ & O & A). split; [exact O|]. intros vs V. eapply Forall_impl; [|exact (A vs V)]. now intros x [_ Y]. }
  do 3 eexists. split; [apply C64_schemas_are_read_as_written; auto|]. repeat (split; [reflexivity|]). split; [exact E|]. apply I. auto.
Qed.
Print Assumptions C64_schemas_come_back.
(** Refuted: that every value can be written. A quotation mark in a text, three
    of them in a text of several lines, a time zone of half an hour, a float
    that is not a number, a name with a hyphen. *)
Definition only_field (v : value) : entity := {| e_id := L "note.n"; e_type := L "note"; e_fields := [(L "body", v)] |}.
Theorem C64_any_value_refuted : forall env, show_f64 env S754_nan = L "NaN" -> forall v,
  In v [ VStr (L "5" ++ [DQ]);
         VStr (L "a" ++ [LF] ++ q3 ++ L "b");
         VDate {| dt_local := 1735725600; dt_nanos := 0; dt_off := 1800 |};
         VFloat S754_nan;
         VRef (REntity (L "person.mary-ann")) ] ->
  forall bs, ~ file_syntax bs (generate_dsl env default_options [only_field v]).
Proof.
  intros env N v H bs S. apply reads_syntax in S.
  assert (E : generate_dsl env default_options [only_field v] = generate_dsl env0 default_options [only_field v]).
  { repeat destruct H as [<-|H]; try destruct H; try reflexivity. unfold generate_dsl, generate_entity, only_field, generate_field. cbn [e_fields map fst snd generate_value].
    unfold generate_float. rewrite N. reflexivity. }
  rewrite E in S. repeat destruct H as [<-|H]; try destruct H; vm_compute in S; discriminate.
Qed.
Print Assumptions C64_any_value_refuted.
(** Examples. *)
Definition every_value : entity :=
  {| e_id := L "note.n"; e_type := L "note"; e_fields :=
     [ (L "a", VBool true); (L "b", VStr (L "two" ++ [LF] ++ L "lines")); (L "c", VInt (-5)); (L "d", VFloat (f_of_Z 3));
       (L "e", VCur {| d_mant := 1050; d_scale := 2 |} (L "EUR")); (L "f", VRef (REntity (L "person.jo"))); (L "g", VRef (RField (L "person.jo") (L "name")));
       (L "h", VList [VStr (L "x"); VStr (L "y")]); (L "i", VDate {| dt_local := 1735725600; dt_nanos := 0; dt_off := 7200 |}); (L "j", VEnum (L "open")) ] |}.
Lemma digits_are s : forallb is_digit s = true -> digits_syntax (length s) s.
Proof. apply digits_of. Qed.
Example C64_case : kept_entity env0 every_value.
Proof.
  exists (L "note"), (L "n"). repeat (split; [first [reflexivity | discriminate | now apply name_word]|]).
  repeat (constructor; [split; [now apply name_word|]|]); [..|constructor]; cbn [kept snd].
  - exact Logic.I.
  - split; [reflexivity|]. right. split; [cbn; tauto|]. split; [|split; [|split]].
    + intros a b E. assert (X : contains (L "two" ++ [LF] ++ L "lines") q3 = true) by (apply contains_spec; eauto). vm_compute in X. discriminate.
    + apply utrim_fixed. reflexivity.
    + apply utrim_fixed. reflexivity.
    + intros (a & b & E). assert (X : contains (L "two" ++ [LF] ++ L "lines") [CR; LF] = true) by (apply contains_spec; exists a, b; exact E). vm_compute in X. discriminate.
  - reflexivity.
  - split; [|vm_compute; reflexivity]. apply (number_of (L "3") (L "0")); try (cbn; lia); now apply digits_are.
  - split; [split; [reflexivity|cbn [d_scale]; lia]|]. split; [|reflexivity]. split; [reflexivity|repeat constructor].
  - exists (L "person"), (L "jo"). repeat (split; [first [reflexivity | now apply name_word]|]). reflexivity.
  - exists (L "person"), (L "jo"). repeat (split; [first [reflexivity | now apply name_word]|]). now apply name_word.
  - split; [intros a b [<-|[<-|[]]] [<-|[<-|[]]]; reflexivity|]. repeat split; try (left; now apply line_of).
  - split; [|split; [reflexivity|split; reflexivity]]. unfold printable_datetime. replace (civil_of_days _) with (2025, 1, 1)%Z by (vm_compute; reflexivity). cbn [dt_off dt_nanos]. lia.
  - split; [reflexivity|]. split; [now apply line_of|]. intros r E.
    assert (X : ends_with (L "open") (L "enum") = true) by (apply ends_with_spec; eauto). vm_compute in X. discriminate.
Qed.

(** ** C65 *)
(** In a workspace whose files are in the documented syntax, with a parser for
    that syntax: what the tool adds is accepted, and served along with all that
    was served before; and the workspace stays in the syntax. *)
Theorem C65_added_entity_is_accepted : forall c ae d w st a d' st' x, shuffles (c_fields c) -> (forall l, Permutation (c_schemas c l) l) -> (forall l, Permutation (c_files c l) l) ->
  runs_in c d w -> no_links_in w d -> tidy d -> rebuild c d = Ok st -> adds_to_source c a -> ~ In "."%char (a_type a) ->
  follows_syntax (c_parse c) -> documented w d ->
  add_tool c ae d st a = (d', st', x) -> x <> Refused ->
  (forall e, asked c ae st a e -> expressible_entity (c_env c) e /\ forall r s, source_of w d' r s -> readable_at c r e) ->
  x = Accepted /\ (exists e e', asked c ae st a e /\ entity_as e e' /\ grown st st' e') /\
  runs_in c d' w /\ no_links_in w d' /\ tidy d' /\ documented w d'.
Proof.
  intros c ae d w st a d' st' x SH PS PC RI NL TD B AS DT P D H NR EX.
  assert (ADD : forall e old before bs, asked c ae st a e -> on_new_line old before -> file_syntax bs old -> file_syntax (bs ++ [EntityBlock (written_entity (c_env c) default_options e)]) (before ++ generate_dsl (c_env c) default_options [e])).
  { intros e old before bs A N S. apply (file_after_line bs old before); [exact S|exact N|]. apply one_entity, EX, A. }
  destruct (C44_added_entity_is_accepted c ae d w st a d' st' x SH PS PC RI NL TD B AS DT H NR) as [E G].
  { intros e r old before text A N BC. destruct (EX e A) as [X Y]. split; [|exact (Y r text (proj2 BC))].
    destruct (old_syntax w d d' r old text D BC) as [bs S]. apply (syntax_adds c bs old _ e text P S eq_refl); [now apply ADD with (old := old)|].
    apply text_app; [|apply dsl_text; constructor; [exact X|constructor]]. exact (before_text old before N (old_text c w d st d' r old text RI NL TD B BC)). }
  split; [exact E|]. split; [exact G|]. destruct AS as (rp & n & T & F & FN). pose proof RI as (SD & SW & _). pose proof (target_slashless c a SW) as SL.
  destruct (add_effect c ae d st a d' st' x SH SD SL H) as [(-> & _)|(e & A & AB & _)]; [congruence|].
  destruct (added_is_source c d w _ rp n _ d' RI NL SL T F FN AB) as (r & old & O & SO & OC). destruct (append_served c d w _ _ d' RI SL AB) as (RI' & NL' & TD').
  split; [exact RI'|]. split; [auto|]. split; [auto|].
  destruct (old_syntax w d d' r old _ D (conj O SO)) as [bs S]. exact (documented_step w d d' r _ _ D OC SO (ADD e old _ bs A (ended_spec old) S)).
Qed.
Print Assumptions C65_added_entity_is_accepted.

(** The same for the command line, if no file ends in the middle of a line. *)
Theorem C65_adding_grows_the_workspace : forall c x d w st a d' e, shuffles (c_fields c) -> (forall l, Permutation (cl_order x l) l) ->
  (forall l, Permutation (c_schemas c l) l) -> (forall l, Permutation (c_files c l) l) ->
  runs_in c d w -> no_links_in w d -> no_graph_dirs d w -> tidy d -> rebuild c d = Ok st -> savable (cl_json x) (st_graph st) ->
  writes_below c (x_type a) (x_file a) -> ~ In "."%char (x_type a) ->
  follows_syntax (c_parse c) -> documented w d -> lines_ended w d ->
  run_add c x false d a = (d', Succeeded e) ->
  expressible_entity (c_env c) e -> (forall r s, source_of w d' r s -> readable_at c r e) ->
  (exists st' e', rebuild c d' = Ok st' /\ entity_as e e' /\ grown st st' e') /\ documented w d' /\ lines_ended w d'.
Proof.
  intros c x d w st a d' e SH PO PS PC RI NL ND TD B SV WB DT P D DE H EX RD.
  assert (ADD : forall old bs, file_syntax bs old -> old = [] \/ (exists y, old = y ++ [LF]) -> file_syntax (bs ++ [EntityBlock (written_entity (c_env c) default_options e)]) (old ++ generate_dsl (c_env c) default_options [e])).
  { intros old bs S O. apply file_app; [exact S|exact O|]. now apply one_entity. }
  split.
  - apply (C58_adding_grows_the_workspace c x d w st a d' e); auto. intros r old text BC. split; [|exact (RD r text (proj2 BC))].
    destruct (old_syntax w d d' r old text D BC) as [bs S]. apply (syntax_adds c bs old _ e text P S eq_refl); [apply ADD; [exact S|exact (old_ended w d d' r old text DE BC)]|].
    apply text_app; [exact (old_text c w d st d' r old text RI NL TD B BC)|apply dsl_text; constructor; [exact EX|constructor]].
  - assert (W : workable c w d) by (split; auto). unfold run_add in H. destruct (prepare c x d false) as [d1 u] eqn:Pr. destruct (prepare_spec c x d w false d1 u W Pr) as ((RI1 & NL1 & _) & R & TD1).
    destruct u; try discriminate. destruct (add_command_made c x d1 a d' e SH PO H) as (g & fb & G' & WBf & A & G & WD). destruct WB as (rp & n & T & F & FN).
    pose proof RI1 as (S1 & SW & _). pose proof (dsl_slashless c (x_type a) (x_file a) SW) as SL.
    destruct (written_is_source c d1 w _ rp n _ d' RI1 NL1 SL T F FN WD) as (r & old & O & SO & OC).
    pose proof (same_sources w d d1 (rest_kept w d d1 R)) as SS.
    assert (D1 : documented w d1) by (intros r' s' S'; exact (D r' s' (SS r' s' S'))). assert (DE1 : lines_ended w d1) by (intros r' s' S'; exact (DE r' s' (SS r' s' S'))).
    destruct (old_syntax w d1 d' r old _ D1 (conj O SO)) as [bs S]. split.
    + exact (documented_step w d1 d' r _ _ D1 OC SO (ADD old bs S (old_ended w d1 d' r old _ DE1 (conj O SO)))).
    + apply (ended_step w d1 d' r _ DE1 OC SO). destruct (entity_ends (c_env c) default_options e) as [y ->]. exists (old ++ y). now rewrite app_assoc.
Qed.
Print Assumptions C65_adding_grows_the_workspace.

(** The same for the prompts. *)
Theorem C65_prompted_entity_grows_the_workspace : forall c x pe d w st file acts d' e, shuffles (c_fields c) ->
  (forall l, Permutation (c_schemas c l) l) -> (forall l, Permutation (c_files c l) l) ->
  runs_in c d w -> no_links_in w d -> no_graph_dirs d w -> tidy d -> rebuild c d = Ok st -> savable (cl_json x) (st_graph st) ->
  length (b_entities (st_build st)) < 1000 -> faithful c pe ->
  follows_syntax (c_parse c) -> documented w d -> lines_ended w d ->
  run_interactive c x pe false d file acts = (d', Succeeded e) -> writes_below c (e_type e) file -> ~ In "."%char (e_type e) ->
  expressible_entity (c_env c) e -> Forall (fun fv => writable c (snd fv)) (e_fields e) ->
  (exists st' e', rebuild c d' = Ok st' /\ grown st st' e' /\
    e_id e' = compose_entity_id (e_type e) (e_id e) /\ e_type e' = e_type e /\
    Forall2 (fun fv fv' => fst fv' = fst fv /\ read_as (snd fv) (snd fv')) (e_fields e) (e_fields e')) /\
  documented w d' /\ lines_ended w d'.
Proof.
  intros c x pe d w st file acts d' e SH PS PC RI NL ND TD B SV SM FA P D DE H WB DT EX WR.
  assert (ADD : forall old bs, file_syntax bs old -> old = [] \/ (exists y, old = y ++ [LF]) -> file_syntax (bs ++ [EntityBlock (written_entity (c_env c) default_options e)]) (old ++ generate_dsl (c_env c) default_options [e])).
  { intros old bs S O. apply file_app; [exact S|exact O|]. now apply one_entity. }
  split.
  - apply (C59_adding_grows_the_workspace c x pe d w st file acts d' e); auto. intros r old text BC.
    destruct (old_syntax w d d' r old text D BC) as [bs S]. apply (syntax_adds c bs old _ e text P S eq_refl); [apply ADD; [exact S|exact (old_ended w d d' r old text DE BC)]|].
    apply text_app; [exact (old_text c w d st d' r old text RI NL TD B BC)|apply dsl_text; constructor; [exact EX|constructor]].
  - assert (W : workable c w d) by (split; auto).
    destruct (run_made c x pe false d w file acts d' e SH PS W H) as (d1 & g & fb & core & used & rest & Pr & (RI1 & NL1 & _) & R & TD1 & G & WBf & _ & _ & DI & WD). destruct WB as (rp & n & T & F & FN).
    pose proof RI1 as (S1 & SW & _). pose proof (dsl_slashless c (e_type e) file SW) as SL.
    destruct (written_is_source c d1 w _ rp n _ d' RI1 NL1 SL T F FN WD) as (r & old & O & SO & OC).
    pose proof (same_sources w d d1 R) as SS.
    assert (D1 : documented w d1) by (intros r' s' S'; exact (D r' s' (SS r' s' S'))). assert (DE1 : lines_ended w d1) by (intros r' s' S'; exact (DE r' s' (SS r' s' S'))).
    destruct (old_syntax w d1 d' r old _ D1 (conj O SO)) as [bs S]. split.
    + exact (documented_step w d1 d' r _ _ D1 OC SO (ADD old bs S (old_ended w d1 d' r old _ DE1 (conj O SO)))).
    + apply (ended_step w d1 d' r _ DE1 OC SO). destruct (entity_ends (c_env c) default_options e) as [y ->]. exists (old ++ y). now rewrite app_assoc.
Qed.
Print Assumptions C65_prompted_entity_grows_the_workspace.

(** The schemas that come with firm are in the syntax. *)
Definition plain_schema (s : schema) : bool :=
  forallb (fun c => is_alpha c || Ascii.eqb c "_") (s_type s) && negb (Nat.eqb (length (s_type s)) 0) &&
  forallb (fun p => forallb (fun x => is_text x && forallb (fun c => negb (Ascii.eqb c DQ) && negb (Ascii.eqb c LF)) x)
                            (fst p :: match fs_allowed (snd p) with Some vs => vs | None => [] end)) (s_fields s).
Lemma plain_schema_expressible s : plain_schema s = true -> expressible_schema s.
Proof.
  unfold plain_schema. rewrite !Bool.andb_true_iff. intros [[N N0] F]. split; [apply name_word; [exact N|]; intros E; rewrite E in N0; discriminate|].
  rewrite Forall_forall. rewrite forallb_forall in F. intros [id f] I. specialize (F _ I). cbn [fst snd] in *. cbn [forallb] in F. rewrite !Bool.andb_true_iff in F. destruct F as [[T O] A].
  split; [exact T|]. split; [now apply line_of|]. intros vs E. rewrite E in A. rewrite Forall_forall. rewrite forallb_forall in A. intros x Ix. specialize (A x Ix). rewrite Bool.andb_true_iff in A.
  destruct A as [A1 A2]. split; [exact A1|now apply line_of].
Qed.
Lemma default_expressible s : In s all_default_schemas -> expressible_schema s.
Proof.
  assert (F : forallb plain_schema all_default_schemas = true) by (vm_compute; reflexivity). rewrite forallb_forall in F. intros I. apply plain_schema_expressible, F, I.
Qed.
Lemma first_expressible env pn on : is_text pn = true -> one_line pn -> name_syntax (sanitize_entity_id pn) -> is_text on = true -> one_line on -> name_syntax (sanitize_entity_id on) ->
  Forall (expressible_entity env) (first_entities pn on).
Proof.
  intros T1 O1 N1 T2 O2 N2. constructor; [|constructor; [|constructor]].
  - split; [now apply name_word|]. split; [discriminate|]. split; [exact N1|]. constructor; [|constructor]. split; [now apply name_word|]. split; [exact T1|now left].
  - split; [now apply name_word|]. split; [discriminate|]. split; [exact N2|]. constructor; [|constructor]. split; [now apply name_word|]. split; [exact T2|now left].
Qed.
(** A new workspace is in the documented syntax, and builds, if the names that
    were entered make identifiers. *)
Theorem C65_new_workspace_builds : forall c template d w a1 a2 a3 a4 pn on rest, runs_in c d w -> no_links_in w d -> tidy d -> empty_dir w d ->
  agrees a1 -> agrees a2 -> agrees a3 -> agrees a4 ->
  shuffles (c_fields c) -> (forall l, Permutation (c_schemas c l) l) -> (forall l, Permutation (c_files c l) l) ->
  is_text pn = true -> one_line pn -> name_syntax (sanitize_entity_id pn) -> is_text on = true -> one_line on -> name_syntax (sanitize_entity_id on) ->
  follows_syntax (c_parse c) ->
  exists d' st, run_init c template d (a1 :: a2 :: a3 :: Types pn :: Types on :: a4 :: rest) = (d', Succeeded tt) /\
    rebuild c d' = Ok st /\ Permutation (b_entities (st_build st)) (first_entities pn on) /\
    (forall ho, shuffles ho -> Permutation (map (said ho) (b_schemas (st_build st))) (map (said (c_fields c)) all_default_schemas)) /\
    (forall e, In e (first_entities pn on) -> get_entity (st_graph st) (e_id e) = Some e) /\
    (forall id e, get_entity (st_graph st) id = Some e -> In e (first_entities pn on)) /\
    runs_in c d' w /\ no_links_in w d' /\ tidy d' /\ documented w d' /\ lines_ended w d'.
Proof.
  intros c template d w a1 a2 a3 a4 pn on rest RI NL TD ED A1 A2 A3 A4 SH PS PC T1 O1 N1 T2 O2 N2 P.
  pose proof (first_expressible (c_env c) pn on T1 O1 N1 T2 O2 N2) as FE.
  destruct (C60_new_workspace_builds c template d w a1 a2 a3 a4 pn on rest) as (d' & st & E & B & PE & PSc & G1 & G2); auto using text_utf8.
  - left. destruct O1. auto.
  - left. destruct O2. auto.
  - rewrite Forall_forall. intros s I. pose proof (default_expressible s I) as X. split; [now apply schema_is_text|]. eexists. split; [now apply C64_schemas_are_read_as_written|]. split; reflexivity.
  - split; [now apply dsl_text|]. eexists. split; [now apply C64_entities_are_read_as_written|]. split; reflexivity.
  - exists d', st. do 6 (split; [assumption|]).
    destruct (fresh_init c w d template (conj RI NL) ED a1 a2 a3 a4 pn on rest A1 A2 A3 A4) as (d2 & E2 & [RI' NL'] & TD' & S & G & M & K & R).
    assert (d2 = d') by (unfold run_init in E; rewrite E2 in E; congruence). subst d2. split; [exact RI'|]. split; [exact NL'|]. split; [auto|].
    assert (SRC : forall r s, source_of w d' r s -> s = generate_dsl (c_env c) default_options (first_entities pn on) \/ exists x, In x all_default_schemas /\ s = schema_text c x).
    { intros r s SO. apply (init_sources c d w d' pn on ED (proj2 (proj2 (proj2 RI)))) in SO; auto.
      - cbn [combine] in SO. destruct SO as [X|SO]; [left; congruence|]. apply in_combine_r in SO. apply in_map_iff in SO as (x & <- & I). right. eauto.
      - destruct (R (w ++ [L "schemas"])) as [X|[[_ X]|(f & F & X)]]; [|exact X|].
        + exfalso. assert (Q : node_at d' ((w ++ [L "schemas"]) ++ [L "person.firm"]) = Some (File (schema_text c person))) by (rewrite <- app_assoc; apply (S person); left; reflexivity).
          destruct (proj1 RI' (w ++ [L "schemas"]) (L "person.firm") ltac:(intros Q'; pose proof (eq_trans (eq_sym Q) Q'); discriminate)) as [Y _]. rewrite X, (ED [L "schemas"]) in Y by discriminate. discriminate.
        + apply app_inv_head in X. inversion F as [t It Ef|Ef|Ef|Ef]; rewrite <- Ef in X; discriminate.
      - intros p. destruct (R p) as [X|[[X _]|X]]; auto. }
    split.
    + intros r s SO. destruct (SRC r s SO) as [->|(x & I & ->)]; [eexists; apply entities_in_file, FE|]. eexists. apply schema_file; [exact SH|now apply default_expressible].
    + intros r s SO. right. destruct (SRC r s SO) as [->|(x & I & ->)].
      * cbn [first_entities generate_dsl]. unfold generate_entity. cbn [e_id]. repeat match goal with |- context [let (_, _) := ?p in _] => destruct p end. eexists. rewrite !app_assoc. reflexivity.
      * unfold schema_text, generate_schema. eexists. rewrite !app_assoc. reflexivity.
Qed.
Print Assumptions C65_new_workspace_builds.
(** Refuted: that any name does. Of a name that begins with a digit an
    identifier is made that the reference calls invalid. *)
Theorem C65_any_name_refuted : exists on, is_text on = true /\ one_line on /\ forall env bs,
  ~ file_syntax bs (generate_dsl env default_options (first_entities (L "Jane Doe") on)).
Proof.
  exists (L "42 Futures"). split; [reflexivity|]. split; [now apply line_of|]. intros env bs S. apply reads_syntax in S. vm_compute in S. discriminate.
Qed.
Print Assumptions C65_any_name_refuted.

(** ** Cases *)
(** A workspace with one file, which ends in a comment, and a parser for the
    documented syntax. *)
Definition person9 : schema :=
  match to_schema env0 (L "s.firm") {| sn_name := Some (L "person"); sn_blocks := [decl (L "full_name") (L "string") true] |} with Ok s => s | _ => schema_new [] end.
Definition text9 : str := generate_schema fid default_options person9 ++ L "// People" ++ [LF].
Definition c9 : ctx :=
  {| c_ws := path_of (L "/w"); c_links := 40; c_parse := read_source_text; c_env := env0; c_fields := fid; c_schemas := sid; c_files := fun l => l |}.
Definition d10 : fs := [([L "w"], Dir); ([L "w"; L "s.firm"], File text9)].
Definition st10 : state := match rebuild c9 d10 with Ok st => st | _ => none0 end.
Definition jo : entity := {| e_id := L "person.jo"; e_type := L "person"; e_fields := [(L "full_name", VStr (L "Jo Doe"))] |}.
Definition add_jo : add_params :=
  {| a_type := L "person"; a_id := L "Jo"; a_fields := [(L "Full Name", JStr (L "Jo Doe"))]; a_file := Some (L "s.firm"); a_items := [] |}.
Lemma d10_sources r s : source_of w0 d10 r s -> r = [L "s.firm"] /\ s = text9.
Proof.
  intros [H (r' & n & -> & _)]. apply in_fs in H; [|discriminate]. destruct H as [H|[H|[]]]; [discriminate|].
  injection H as H <-. split; [symmetry; exact H|reflexivity].
Qed.
Lemma text9_syntax : file_syntax [SchemaBlock (written_schema fid person9)] text9.
Proof.
  apply (schema_in_file fid default_options person9 [] [] (L "// People" ++ [LF])); [exact fid_ok|constructor|apply plain_schema_expressible; vm_compute; reflexivity|].
  constructor. left. apply gap_app; [exact lf_gap|]. apply (gap_line (L " People") []); [cbn; intuition discriminate|constructor].
Qed.
Example C65_case : runs_in c9 d10 w0 /\ no_links_in w0 d10 /\ tidy d10 /\ no_graph_dirs d10 w0 /\
  follows_syntax (c_parse c9) /\ documented w0 d10 /\ lines_ended w0 d10 /\ rebuild c9 d10 = Ok st10.
Proof.
  split; [runs|]. split; [apply no_links_list; reflexivity|]. split; [unfold tidy; cbn [map fst d10]; repeat (apply NoDup_cons; [cbn; intuition discriminate|]); apply NoDup_nil|].
  split; [split; reflexivity || discriminate|]. split; [exact reads_syntax|]. split; [intros r s H; destruct (d10_sources r s H) as [_ ->]; eexists; exact text9_syntax|].
  split; [intros r s H; destruct (d10_sources r s H) as [_ ->]; right; eexists; unfold text9; rewrite !app_assoc; reflexivity|]. vm_compute. reflexivity.
Qed.
Lemma jo_kept : kept_entity env0 jo.
Proof.
  exists (L "person"), (L "jo"). repeat (split; [first [reflexivity | discriminate | now apply name_word]|]).
  constructor; [|constructor]. split; [now apply name_word|]. split; [reflexivity|]. left. now apply line_of.
Qed.
Lemma jo_readable r : readable_at c9 r jo.
Proof. constructor; [|constructor]. eexists. split; [apply kept_survives; split; [reflexivity|]; left; now apply line_of|]. now left. Qed.
Example C65_tool_case : exists d' st', add_tool c9 ae0 d10 st10 add_jo = (d', st', Accepted) /\ adds_to_source c9 add_jo /\
  forall e, asked c9 ae0 st10 add_jo e -> expressible_entity env0 e /\ forall r s, source_of w0 d' r s -> readable_at c9 r e.
Proof.
  do 2 eexists. split; [vm_compute; reflexivity|]. split; [exists [], (L "s.firm"); split; [reflexivity|]; split; [constructor|]; exists (L "s"); split; [discriminate|reflexivity]|].
  intros e A. assert (e = jo) as ->.
  { apply asked_to_add in A; [|exact fid_ok| |].
    - vm_compute in A. injection A as <-. reflexivity.
    - vm_compute. repeat constructor. intros [].
    - intros s I. vm_compute in I. destruct I as [<-|[]]. vm_compute. repeat (constructor; [cbn; intuition discriminate|]). constructor. }
  split; [apply kept_is_expressible, jo_kept|]. intros r s _. apply jo_readable.
Qed.
Definition x9 : cli_env :=
  {| cl_json := {| to_json _ := Some (L "{}"); of_json _ := Some (st_graph st10) |};
     cl_cwd := path_of (L "/w"); cl_order := fun l => l; cl_ext := P_Query.ex_ext; cl_hash := P_Query.ex_ho |}.
Definition flags_jo : cli_add_params :=
  {| x_type := L "person"; x_id := L "Jo!"; x_fields := [(L "full_name", L "Jo Doe")]; x_lists := []; x_values := []; x_file := Some (L "s.firm") |}.
Example C65_flags_case : savable (cl_json x9) (st_graph st10) /\ writes_below c9 (x_type flags_jo) (x_file flags_jo) /\
  exists d', run_add c9 x9 false d10 flags_jo = (d', Succeeded jo) /\ node_at d' [L "w"; L "s.firm"] = Some (File (text9 ++ generate_dsl env0 default_options [jo])).
Proof.
  split; [eexists; split; [reflexivity|]; split; reflexivity|]. split; [exists [], (L "s.firm"); split; [reflexivity|]; split; [constructor|]; exists (L "s"); split; [discriminate|reflexivity]|].
  eexists. split; [vm_compute; reflexivity|]. reflexivity.
Qed.
Definition jo_entered : entity := {| e_id := L "jo"; e_type := L "person"; e_fields := e_fields jo |}.
Example C65_prompt_case : faithful c9 pe6 /\ writes_below c9 (e_type jo_entered) None /\ expressible_entity env0 jo_entered /\ Forall (fun fv => writable c9 (snd fv)) (e_fields jo_entered) /\
  exists d', run_interactive c9 x9 pe6 false d10 None [Picks 0; Types (L "Jo!"); Types (L "Jo Doe"); Types []] = (d', Succeeded jo_entered).
Proof.
  split; [|split; [|split; [|split]]].
  - split.
    + cbn [pe6 pe_decimal]. intros s a H. destruct (str_eqb s (L "5")); [|discriminate]. injection H as <-. split; [reflexivity|cbn; lia].
    + cbn [pe6 pe_codes]. intros k [<-|[<-|[]]]; (split; [reflexivity|]); cbn; intuition discriminate.
  - apply C58_default_file; [discriminate| |]; cbn; intuition discriminate.
  - split; [now apply name_word|]. split; [discriminate|]. split; [now apply name_word|]. constructor; [|constructor]. split; [now apply name_word|]. split; [reflexivity|left; now apply line_of].
  - constructor; [|constructor]. constructor; [now apply text_utf8|cbn; intuition discriminate|cbn; intuition discriminate].
  - eexists. vm_compute. reflexivity.
Qed.
Example C65_new_workspace_case : exists d' st, run_init c9 guide d8 [enter; yes; enter; Types (L "Jane Doe"); Types (L "Acme & Sons"); yes] = (d', Succeeded tt) /\
  rebuild c9 d' = Ok st /\ documented w0 d' /\ lines_ended w0 d' /\
  get_entity (st_graph st) (L "organization.acme_sons") <> None.
Proof.
  destruct (C65_new_workspace_builds c9 guide d8 w0 enter yes enter yes (L "Jane Doe") (L "Acme & Sons") []) as (d' & st & E & B & _ & _ & G & _ & _ & _ & _ & D & DE);
    auto using d8_runs, d8_links, d8_tidy, d8_empty, agrees_enter, agrees_yes, fid_ok, line_of, reads_syntax; try (now apply name_word).
  exists d', st. split; [exact E|]. split; [exact B|]. split; [exact D|]. split; [exact DE|]. 
  pose proof (G _ (or_intror (or_introl eq_refl))) as X. cbn [e_id] in X. replace (L "organization.acme_sons") with (L "organization." ++ sanitize_entity_id (L "Acme & Sons")) by reflexivity. rewrite X. discriminate.
Qed.
