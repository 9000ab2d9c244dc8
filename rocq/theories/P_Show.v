(** What the user is shown: C67 what is printed as JSON is read back, C68 what
    is shown alike is alike. *)
From Coq Require Import Lia.
From Verif Require Import M_Graph S_Graph L_Graph M_Query S_Query.
From Verif Require Import S_Schema L_Schema2 L_Json2 L_Str L_ShowText L_Show S_Output L_Output P_Server P_Schema P_Json P_Save P_Cli L_Save L_Cli.
Close Scope Z_scope.

(** ** C67 *)
Theorem C67_entity_is_read_back : forall env e, storable_entity env e -> read_output (dec_entity env) (json_entity env e) = Some e.
Proof. exact entity_output. Qed.
Print Assumptions C67_entity_is_read_back.
Theorem C67_entities_are_read_back : forall env es, Forall (storable_entity env) es -> read_output (list_from (dec_entity env)) (json_entities env es) = Some es.
Proof. exact entities_output. Qed.
Print Assumptions C67_entities_are_read_back.
(** Lists of ids and of names, whatever is in them. *)
Theorem C67_names_are_read_back : forall env l, read_output (list_from dec_str) (json_names env l) = Some l.
Proof. exact names_output. Qed.
Print Assumptions C67_names_are_read_back.
Theorem C67_schema_is_read_back : forall env ho s, shuffles ho -> proper_schema s ->
  exists s', read_output dec_schema (json_schema env ho s) = Some s' /\ same_schema s s'.
Proof. intros env ho s O P. apply schema_output; auto. Qed.
Print Assumptions C67_schema_is_read_back.
Theorem C67_result_is_read_back : forall env r, storable_result env r -> read_output (result_from env) (json_query env (QAgg r)) = Some r.
Proof. exact result_output. Qed.
Print Assumptions C67_result_is_read_back.
(** A command that succeeds prints what the server would answer about a
    workspace with these sources. *)
Theorem C67_printed_answer_is_the_servers : forall c x d w q d' r env ho, runs_in c d w -> no_links_in w d -> no_graph_dirs d w ->
  (forall st, rebuild c d = Ok st -> savable (cl_json x) (st_graph st)) -> (forall t i, q <> CSource t i) -> (forall t i dir, q <> CRelated t i dir) ->
  shuffles ho -> run_read c x false d q = (d', Succeeded r) -> carried env r ->
  exists st r', rebuild c d = Ok st /\ read_reply env q (print_json env ho q r) = Some r' /\ same_reply r r' /\ server_answer c x st q = Succeeded r.
Proof.
  intros c x d w q d' r env ho RI NL ND SV NS NR O H C. pose proof (C57_answers_are_the_servers c x d w q d' _ RI NL ND SV NS H) as A.
  destruct (rebuild c d) as [st|e|] eqn:B; [|discriminate A|discriminate A]. symmetry in A.
  destruct (answer_read c x st q r env ho A NR ltac:(intros; apply O) C) as (r' & R & S). exists st, r'. auto.
Qed.
Print Assumptions C67_printed_answer_is_the_servers.
Theorem C67_printed_source_is_the_servers : forall c x cached d t i d' p env ho fs st, run_read c x cached d (CSource t i) = (d', Succeeded (RPath p)) ->
  load_directory c d = Ok fs -> st_files st = c_files c fs ->
  read_reply env (CSource t i) (print_json env ho (CSource t i) (RPath p)) = Some (RPath p) /\ server_answer c x st (CSource t i) = Succeeded (RPath p).
Proof.
  intros c x cached d t i d' p env ho fs st H F E. destruct (C57_source_is_the_servers c x cached d t i d' _ H) as [_ A]. rewrite F in A. rewrite <- (A st E). split; [|reflexivity].
  cbn [print_json read_reply]. rewrite source_output, !str_eqb_refl. reflexivity.
Qed.
Print Assumptions C67_printed_source_is_the_servers.
(** The related entities are printed whole: what is read back is what the server's
    graph gives, and their ids are the answer of the command. *)
Theorem C67_printed_related_are_the_servers : forall c x d w env t i dir d' text, runs_in c d w -> no_links_in w d -> no_graph_dirs d w ->
  (forall st, rebuild c d = Ok st -> savable (cl_json x) (st_graph st)) ->
  run_related c x false d env t i dir = (d', Succeeded text) ->
  exists st es, rebuild c d = Ok st /\ get_related (st_graph st) (compose_entity_id t i) dir = Some es /\
    run_read c x false d (CRelated t i dir) = (d', Succeeded (RIds (map e_id es))) /\
    server_answer c x st (CRelated t i dir) = Succeeded (RIds (map e_id es)) /\
    (Forall (storable_entity env) es -> read_output (list_from (dec_entity env)) text = Some es).
Proof.
  intros c x d w env t i dir d' text RI NL ND SV H. assert (W : workable c w d) by (split; auto). unfold run_related in H.
  destruct (prepare c x d false) as [d1 u] eqn:P. pose proof (prepare_fresh c x d w d1 u W SV P) as F.
  destruct u as [u| |]; [|discriminate H|discriminate H]. destruct F as (st & B & _ & G). rewrite G in H.
  destruct (get_related (st_graph st) (compose_entity_id t i) dir) as [es|] eqn:R; [|discriminate H]. injection H as <- <-.
  assert (RR : run_read c x false d (CRelated t i dir) = (d1, Succeeded (RIds (map e_id es)))).
  { unfold run_read. cbn [orb]. rewrite P. cbn [read_command]. rewrite G, R. reflexivity. }
  exists st, es. split; [exact B|]. split; [exact R|]. split; [exact RR|]. split; [|apply entities_output].
  pose proof (C57_answers_are_the_servers c x d w (CRelated t i dir) d1 _ RI NL ND SV ltac:(intros; discriminate) RR) as A. rewrite B in A. symmetry. exact A.
Qed.
Print Assumptions C67_printed_related_are_the_servers.
Example C67_related_case : exists d' text e, run_related c0 x0 false d_saved je0 (L "person") (L "john") None = (d', Succeeded text) /\
  read_output (list_from (dec_entity je0)) text = Some [e] /\ e_fields e <> [].
Proof. do 3 eexists. split; [vm_compute; reflexivity|]. split; [vm_compute; reflexivity|discriminate]. Qed.
(** An infinite float is printed as null. *)
Theorem C67_infinite_float_refuted : exists e, forall env, read_output (dec_entity env) (json_entity env e) = None.
Proof.
  exists {| e_id := L "t.a"; e_type := L "t"; e_fields := [(L "f", VFloat (S754_infinity false))] |}. intros env. vm_compute. reflexivity.
Qed.
Print Assumptions C67_infinite_float_refuted.
Example C67_case : storable_entity je0 rich /\ proper_schema task_schema /\ shuffles (@rev (field_id * fschema)) /\
  (exists s', read_output dec_schema (json_schema je0 (@rev _) task_schema) = Some s' /\ s' <> task_schema) /\
  storable_result je0 (RSelect [L "n"; L "of"] [[Some (VInt (-7)); None]; [None; Some (VRef (REntity (L "person.b")))]]) /\
  no_graph_dirs d_saved w0 /\ (forall st, rebuild c0 d_saved = Ok st -> savable (cl_json x0) (st_graph st)) /\
  (exists e, snd (run_read c0 x0 false d_saved (CGet (L "org") (L "acme"))) = Succeeded (RGot (GotEntity e)) /\ carried je0 (RGot (GotEntity e)) /\ e_fields e <> []) /\
  exists p, snd (run_read c0 x0 false d_saved (CSource (L "person") (L "john"))) = Succeeded (RPath p).
Proof.
  split; [exact rich_storable|]. split; [split; [repeat constructor; cbn; intuition discriminate|repeat constructor]|].
  split; [intros l; symmetry; apply Permutation_rev|]. split; [eexists; split; [vm_compute; reflexivity|discriminate]|].
  split; [apply sr_select; repeat (apply Forall_cons || apply Forall_nil); intros v E; try discriminate E; injection E as <-; (split; [constructor; reflexivity|vm_compute; lia])|].
  split; [exact (proj1 C57_case)|]. split; [exact (proj1 (proj2 C57_case))|]. split; [|eexists; vm_compute; reflexivity].
  eexists. split; [vm_compute; reflexivity|]. split; [|discriminate]. split; [reflexivity|]. split; [reflexivity|].
  repeat (apply Forall_cons; [split; [reflexivity|]; split; [|vm_compute; lia]|]); try apply Forall_nil; cbn [snd]; constructor; reflexivity.
Qed.

(** ** C68 *)
(** The label of a field is its name again, with blanks and a capital. *)
Theorem C68_label_names_the_field : forall f, new_id (sentence f) = new_id f.
Proof. exact label_name. Qed.
Print Assumptions C68_label_names_the_field.
(** Two values of one type that are shown alike are the same. *)
Theorem C68_values_shown_alike_are_the_same : forall x v w, faithful x -> clear x v -> clear x w -> same_kind v w ->
  show_value x v = show_value x w -> v = w.
Proof. exact value_apart. Qed.
Print Assumptions C68_values_shown_alike_are_the_same.
(** Two entities that are shown alike have the same id, the same fields in the
    same order, and the same is shown of every field. *)
Theorem C68_entities_shown_alike : forall x e e', legible x e -> legible x e' -> show_entity x e = show_entity x e' -> shown_same x e e'.
Proof.
  intros x e e' A B E. destruct (entity_apart x e e' [] [] A B ltac:(left; reflexivity) ltac:(left; reflexivity)) as (E1 & E2 & E3 & _); [rewrite !app_nil_r; exact E|]. split; auto.
Qed.
Print Assumptions C68_entities_shown_alike.
(** If their fields have the same types, the fields are the same. *)
Theorem C68_entities_of_one_schema_shown_alike : forall x e e', faithful x -> legible x e -> legible x e' ->
  Forall (fun fv => clear x (snd fv)) (e_fields e) -> Forall (fun fv => clear x (snd fv)) (e_fields e') ->
  (forall f v w, In (f, v) (e_fields e) -> In (f, w) (e_fields e') -> same_kind v w) ->
  show_entity x e = show_entity x e' -> e_id e = e_id e' /\ e_fields e = e_fields e'.
Proof.
  intros x e e' F A B C C' K E. pose proof (C68_entities_shown_alike x e e' A B E) as S. split; [apply S|]. apply (same_fields x); auto.
  destruct S as (_ & N & _). revert K N. generalize (e_fields e) (e_fields e'). clear. intros l. induction l as [|[f v] l IH]; intros [|[g w] m] K N; try discriminate N; constructor.
  - injection N as <- _. apply (K f); left; reflexivity.
  - injection N as _ N. apply IH; [|exact N]. intros h a b I J. apply (K h); right; assumption.
Qed.
Print Assumptions C68_entities_of_one_schema_shown_alike.
(** Two answers to a query, and two lists on the command line. *)
Theorem C68_answers_shown_alike : forall x es es', Forall (legible x) es -> Forall (legible x) es' ->
  query_tool_text x (QEntities es) = query_tool_text x (QEntities es') -> Forall2 (shown_same x) es es'.
Proof.
  assert (NL : forall x e es, L "No entities found matching the query." <> join ([LF] ++ L "---" ++ [LF]) (map (show_entity x) (e :: es))).
  { intros x e es E. assert (I : In LF (L "No entities found matching the query.")).
    - rewrite E. destruct es as [|e2 es]; [|cbn [map]; rewrite join_cons by discriminate; apply in_or_app; left]; apply in_or_app; right; left; reflexivity.
    - revert I. clear. intros H; repeat (destruct H as [H|H]; [discriminate H|]); destruct H. }
  intros x [|e es] [|e' es'] F F' E; unfold query_tool_text in E.
  - constructor.
  - destruct (NL _ _ _ E).
  - symmetry in E. destruct (NL _ _ _ E).
  - apply answers_apart; auto; discriminate.
Qed.
Print Assumptions C68_answers_shown_alike.
Theorem C68_lists_shown_alike : forall x es es', Forall (legible x) es -> Forall (legible x) es' -> list_pretty x es = list_pretty x es' -> Forall2 (shown_same x) es es'.
Proof. exact list_apart. Qed.
Print Assumptions C68_lists_shown_alike.
(** Two tables with the same columns. *)
Theorem C68_tables_shown_alike : forall x cs rows rows',
  Forall (fun row => row <> [] /\ Forall (clear_cell x) row) rows -> Forall (fun row => row <> [] /\ Forall (clear_cell x) row) rows' ->
  show_table x cs rows = show_table x cs rows' -> map (map (shown_cell x)) rows = map (map (shown_cell x)) rows'.
Proof. intros x cs rows rows' F G E. unfold show_table in E. apply app_inv_head, app_inv_head in E. apply rows_of_table_apart; auto. Qed.
Print Assumptions C68_tables_shown_alike.
Theorem C68_schemas_shown_alike : forall ho ho' a b, shuffles ho -> shuffles ho' -> legible_schema a -> legible_schema b ->
  show_schema ho a = show_schema ho' b -> s_type a = s_type b /\ map shown_field (ordered_fields ho a) = map shown_field (ordered_fields ho' b).
Proof.
  intros ho ho' a b O O' [A FA] [B FB] E. unfold show_schema in E. cbn [app] in E. apply cut_at in E as [E1 E2]; auto. split; [exact E1|]. apply fields_apart; auto.
  - apply Forall_forall. intros p I. rewrite Forall_forall in FA. apply FA. eapply Permutation_in; [apply ordered_perm, O|exact I].
  - apply Forall_forall. intros p I. rewrite Forall_forall in FB. apply FB. eapply Permutation_in; [apply ordered_perm, O'|exact I].
Qed.
Print Assumptions C68_schemas_shown_alike.
(** A line feed in a text makes it look like a further field. *)
Theorem C68_line_feed_refuted : exists e e', e_id e = e_id e' /\ length (e_fields e) = 1 /\ length (e_fields e') = 2 /\
  Forall (fun fv => field_name (fst fv)) (e_fields e ++ e_fields e') /\ forall x, show_entity x e = show_entity x e'.
Proof.
  exists {| e_id := L "task.a"; e_type := L "task"; e_fields := [(L "title", VStr (L "x" ++ [LF] ++ L "Done: true"))] |},
    {| e_id := L "task.a"; e_type := L "task"; e_fields := [(L "title", VStr (L "x")); (L "done", VBool true)] |}.
  split; [reflexivity|]. split; [reflexivity|]. split; [reflexivity|]. split.
  - repeat (apply Forall_cons; [split; [discriminate|]; split; [vm_compute; reflexivity|repeat (apply Forall_cons; [left; reflexivity|]); apply Forall_nil]|]). apply Forall_nil.
  - intros x. vm_compute. reflexivity.
Qed.
Print Assumptions C68_line_feed_refuted.
(** Values of two types may be shown alike, and so may lists with items that
    have commas, and a text and a missing cell. *)
Theorem C68_types_are_not_shown_refuted : forall x, show_value x (VStr (L "7")) = show_value x (VInt 7) /\ show_value x (VStr (L "a.b")) = show_value x (VRef (REntity (L "a.b"))).
Proof. intros x. split; vm_compute; reflexivity. Qed.
Print Assumptions C68_types_are_not_shown_refuted.
Theorem C68_commas_refuted : forall x, show_value x (VList [VStr (L "a,b")]) = show_value x (VList [VStr (L "a"); VStr (L "b")]) /\ show_value x (VList []) = show_value x (VList [VStr []]).
Proof. intros x. split; vm_compute; reflexivity. Qed.
Print Assumptions C68_commas_refuted.
Theorem C68_missing_cells_refuted : forall x cs, show_table x cs [[Some (VStr (L "-"))]] = show_table x cs [[None]].
Proof. intros x cs. reflexivity. Qed.
Print Assumptions C68_missing_cells_refuted.

(** An environment in which different floats have different texts. *)
Fixpoint bits (p : positive) : str := match p with xI p => "1"%char :: bits p | xO p => "0"%char :: bits p | xH => [] end.
Definition sign (s : bool) : ascii := if s then "-"%char else "+"%char.
Definition float_bits (f : f64) : str :=
  match f with
  | S754_zero s => [sign s; "0"%char]
  | S754_infinity s => [sign s; "i"%char]
  | S754_nan => L "NaN"
  | S754_finite s m e => sign s :: "x"%char :: bits m ++ "e"%char :: match e with Z0 => [] | Zpos p => "+"%char :: bits p | Zneg p => "-"%char :: bits p end
  end.
Definition sx : show_env := {| sv_float := float_bits; sv_currency := fun k => k |}.
Lemma bits_apart p q : bits p = bits q -> p = q.
Proof. revert q. induction p as [p IH|p IH|]; intros [q|q|] E; try discriminate E; try reflexivity; injection E as E; f_equal; auto. Qed.
Lemma bits_no_e p : ~ In "e"%char (bits p).
Proof. induction p as [p IH|p IH|]; intros []; try discriminate; auto. Qed.
Lemma sx_faithful : faithful sx.
Proof.
  split; [|intros k l E; exact E]. intros f g _ _ E. cbn [sv_float sx] in E.
  assert (SG : forall a b, sign a = sign b -> a = b) by (intros [] [] H; try discriminate H; reflexivity).
  destruct f as [s|s| |s m e], g as [s'|s'| |s' m' e']; unfold float_bits in E; try discriminate E; try (destruct s; discriminate E); try (destruct s'; discriminate E).
  - injection E as E. apply SG in E. congruence.
  - injection E as E. apply SG in E. congruence.
  - reflexivity.
  - injection E as E1 E. apply SG in E1. subst s'. apply cut_at in E as [E1 E2]; try apply bits_no_e. apply bits_apart in E1. subst m'.
    destruct e, e'; try discriminate E2; [reflexivity| |]; injection E2 as E2; apply bits_apart in E2; congruence.
Qed.
Definition shown_task : entity :=
  {| e_id := L "task.a"; e_type := L "task";
     e_fields := [(L "due_date", VDate {| dt_local := 1700000000%Z; dt_nanos := 120000000%Z; dt_off := (-12600)%Z |}); (L "cost", VCur {| d_mant := (-1050)%Z; d_scale := 2 |} (L "EUR"));
                  (L "all", VList [VRef (REntity (L "person.b")); VRef (RField (L "person.b") (L "name"))]); (L "title", VStr (L "Paint: blue, red")); (L "share", VFloat f_zero)] |}.
Example C68_case : faithful sx /\ legible sx shown_task /\ Forall (fun fv => clear sx (snd fv)) (e_fields shown_task) /\
  show_entity sx shown_task = L "task.a" ++ [LF; LF] ++ L "Due date: 2023-11-14 22:13:20.120 -03:30" ++ [LF] ++ L "Cost: -10.50 EUR" ++ [LF]
    ++ L "All: [person.b,person.b.name]" ++ [LF] ++ L "Title: Paint: blue, red" ++ [LF] ++ L "Share: +0" ++ [LF] /\
  legible_schema task_schema /\ map shown_field (ordered_fields fid task_schema) = [(L "name", TStr, true, None); (L "due", TDate, false, None); (L "state", TEnum, true, Some [L "open"; L "done"])] /\
  Forall (fun row => row <> [] /\ Forall (clear_cell sx) row) [[Some (VInt (-7)); None]; [None; Some (VRef (REntity (L "person.b")))]].
Proof.
  assert (ONE : forall s, forallb (fun c => negb (Ascii.eqb c LF)) s = true -> one_line s).
  { intros s H I. rewrite forallb_forall in H. apply H in I. discriminate I. }
  assert (NO : forall a s, forallb (fun c => negb (Ascii.eqb c a)) s = true -> ~ In a s).
  { intros a s H I. rewrite forallb_forall in H. apply H in I. rewrite Ascii.eqb_refl in I. discriminate I. }
  assert (PB : entity_name (L "person.b")) by (exists (L "person"), (L "b"); split; [reflexivity|]; split; apply NO; reflexivity).
  split; [exact sx_faithful|]. split.
  - split; [apply ONE; reflexivity|]. repeat (apply Forall_cons; [split; [split; [discriminate|]; split; [vm_compute; reflexivity|]|apply ONE; vm_compute; reflexivity]|]); try apply Forall_nil;
      repeat (apply Forall_cons; [vm_compute; tauto|]); apply Forall_nil.
  - split.
    + repeat apply Forall_cons; try apply Forall_nil; cbn [snd clear clear_item].
      * split; [vm_compute; split; discriminate|]. split; [cbn; lia|]. exists (-210)%Z. cbn. lia.
      * split; cbn; lia.
      * split; [exact PB|]. split; [discriminate|apply NO; reflexivity].
      * split; [split; [exact PB|apply NO; reflexivity]|]. split; [discriminate|apply NO; reflexivity].
      * exact I.
      * vm_compute. reflexivity.
    + split; [vm_compute; reflexivity|]. split.
      * split; [apply ONE; reflexivity|]. repeat (apply Forall_cons; [split; [apply ONE; vm_compute; reflexivity|]; intros vs E; (discriminate E || injection E as <-)|]); try apply Forall_nil.
        repeat (apply Forall_cons; [split; [discriminate|]; split; [apply ONE; vm_compute; reflexivity|apply NO; vm_compute; reflexivity]|]); apply Forall_nil.
      * split; [vm_compute; reflexivity|]. apply Forall_cons; [split; [discriminate|]|apply Forall_cons; [split; [discriminate|]|apply Forall_nil]]; repeat (apply Forall_cons; [intros v E; (discriminate E || injection E as <-)|]); try apply Forall_nil;
          (split; [discriminate|]; split; [apply ONE; vm_compute; reflexivity|apply NO; vm_compute; reflexivity]).
Qed.
