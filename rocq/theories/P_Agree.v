(** C84: the commands get, list and related agree with the queries that ask the
    same. *)
From Coq Require Import Permutation.
From Verif Require Import S_Graph L_Graph.
From Verif Require M_Query M_QParse S_Query S_QText P_Query L_Whole2 L_Agree.
From Verif Require Import S_Whole S_Cli L_Str L_Text L_Schema L_Ids L_Fs L_Workspace L_Whole3 S_Agree.
From Verif Require Import P_Ids P_Schema P_Dsl P_Workspace P_Server P_Tools P_Add P_Cli P_Grow P_Syntax P_Whole.
From Verif Require Import M_Fs M_Dsl S_Whole.
Close Scope Z_scope.

Section Same.
Context (c : ctx) (x : cli_env) (d : fs) (st : state) (SH : shuffles (c_fields c)) (RB : rebuild c d = Ok st) (HO : S_Query.orders (cl_hash x)).
Let es := b_entities (st_build st).
Lemma ids_lower : L_Agree.all_lower es.
Proof.
  intros e I. destruct (L_History.rebuild_files c d st RB) as (fs & _ & _ & G). apply load_ok in G as (BW & _ & _). apply (build_ok _ _ _ _ _ SH) in BW as (ss & (_ & R & _) & _).
  destruct (L_Load.Forall2_in_r _ _ _ _ R I) as ([p n] & _ & T). unfold reads_entity in T; cbn [fst snd] in T. unfold to_entity in T.
  destruct (en_type n) as [t|], (en_id n) as [i|]; try discriminate. cbn [of_option obind] in T. destruct (omap _ _) as [fl| |]; try discriminate. injection T as <-. cbn [e_id]. apply compose_lower.
Qed.
Lemma served : st_graph st = build (run [OAddMany es]) /\ spec_run [OAddMany es] = es /\ NoDup (map e_id es).
Proof. destruct (served_graph c d st RB) as [N E]. split; [exact E|]. split; [|exact N]. pose proof (load_spec _ N) as X. exact X. Qed.
Lemma plain_id t i : plain_name t -> plain_name i -> compose_entity_id t i = t ++ L "." ++ i.
Proof. intros [IT NT] [_ NI]. exact (proj1 (C02_split_compose t i NT NI (identifier_no_dot t IT))). Qed.
Lemma plain_lower t i : plain_name t -> plain_name i -> lower (t ++ L "." ++ i) = t ++ L "." ++ i.
Proof. intros T I. rewrite <- (plain_id t i T I). apply compose_lower. Qed.
Lemma lookup_served id : get_entity (st_graph st) id = lookup es id.
Proof.
  destruct served as (E & SR & ND). rewrite E. change (build (run [OAddMany es])) with (run [OAddMany es; OBuild]). rewrite (proj1 (P_Graph.C05_lookup_and_results _)).
  change (spec_run [OAddMany es; OBuild]) with (spec_run [OAddMany es]). now rewrite SR.
Qed.
End Same.

(** The get command shows what  [from * | where @id == "t.i"]  finds; where it
    finds nothing, so does the query. *)
Theorem C84_get_is_a_query : forall c x d st t i, shuffles (c_fields c) -> rebuild c d = Ok st -> S_Query.orders (cl_hash x) ->
  plain_name t -> plain_name i -> t <> L "schema" ->
  match get_tool st t i with
  | GotEntity e => query_text x (st_graph st) (get_query t i) = Some (M_Query.QEntities [e])
  | NotGot => query_text x (st_graph st) (get_query t i) = Some (M_Query.QEntities [])
  | GotSchema _ => False
  end.
Proof.
  intros c x d st t i SH RB HO T I NS. rewrite (C54_get_is_graph_lookup c d st t i RB NS), (lookup_served c d st RB), (plain_id t i T I).
  destruct (served c d st RB) as (E & SR & ND). unfold query_text. rewrite (L_Agree.read_get t i (proj1 T) (proj1 I)), E.
  rewrite (L_Agree.ask_id (cl_ext x) (cl_hash x) HO [OAddMany (b_entities (st_build st))]);
    [|rewrite SR; exact (ids_lower c d st SH RB)|rewrite SR; exact ND|exact (plain_lower t i T I)].
  rewrite SR. unfold L_Agree.the. destruct (lookup _ _); reflexivity.
Qed.
Print Assumptions C84_get_is_a_query.

(** The list command shows the ids of what  [from t]  finds, in the same order,
    and  [from t | count]  counts them. It shows nothing exactly where the query
    knows no such type. *)
Theorem C84_list_is_a_query : forall c x d st t, rebuild c d = Ok st -> S_Query.orders (cl_hash x) -> plain_name t -> t <> L "schema" ->
  match list_tool st t with
  | [] => query_text x (st_graph st) (list_query t) = None /\ query_text x (st_graph st) (count_query t) = None
  | ids => (exists r, query_text x (st_graph st) (list_query t) = Some (M_Query.QEntities r) /\ map e_id r = ids) /\
      query_text x (st_graph st) (count_query t) = Some (M_Query.QAgg (M_Query.RCount (length ids)))
  end.
Proof.
  intros c x d st t RB HO [IT NT] NS. destruct (served c d st RB) as (E & SR & ND). unfold list_tool. apply str_eqb_neq in NS. rewrite NS. unfold query_text, list_query, count_query.
  rewrite (L_Whole2.read_from t IT), (L_Whole2.read_count t IT). unfold M_Query.execute, L_Whole2.ask. cbn [M_Query.q_from M_Query.q_ops M_Query.q_agg]. rewrite E, NT.
  destruct (proj2 (P_Query.C18_from_selects_exactly [OAddMany (b_entities (st_build st))] (cl_hash x) HO)) as [A B]. specialize (A t). specialize (B t). rewrite SR in A, B.
  destruct (filter (fun e => str_eqb (e_type e) t) (b_entities (st_build st))) as [|e r] eqn:F; cbn [map].
  - destruct B as (l & ->); [|split; reflexivity]. intros (e & I & T). assert (X : In e []) by (rewrite <- F; apply filter_In; split; [exact I|now apply str_eqb_eq]). destruct X.
  - assert (X : In e (e :: r)) by now left. rewrite <- F in X. apply filter_In in X as [I T]. apply str_eqb_eq in T.
    rewrite A by eauto. split; [exists (e :: r); split; reflexivity|]. cbn [M_Query.bind M_Query.exec_ops]. cbn [length]. rewrite map_length. reflexivity.
Qed.
Print Assumptions C84_list_is_a_query.

(** The query  [... | related]  finds the entity itself and the entities whose
    ids the related command shows. *)
Theorem C84_related_is_a_query : forall c x d st t i, shuffles (c_fields c) -> rebuild c d = Ok st -> S_Query.orders (cl_hash x) ->
  plain_name t -> plain_name i -> t <> L "schema" ->
  exists r, query_text x (st_graph st) (related_query t i) = Some (M_Query.QEntities r) /\ NoDup (map e_id r) /\
    match related_tool st t i None with
    | Some ids => forall id, In id (map e_id r) <-> id = t ++ L "." ++ i \/ In id ids
    | None => r = []
    end.
Proof.
  intros c x d st t i SH RB HO T I NS. pose proof (C54_related_is_exact c d st t i None RB NS) as R. rewrite (C54_get_is_graph_lookup c d st t i RB NS), (lookup_served c d st RB), (plain_id t i T I) in R.
  destruct (served c d st RB) as (E & SR & ND). unfold query_text. rewrite (L_Agree.read_related t i (proj1 T) (proj1 I)).
  destruct (L_Agree.ask_related (cl_ext x) (cl_hash x) HO [OAddMany (b_entities (st_build st))]) with (s := t ++ L "." ++ i) as (r & EX & N & C);
    [rewrite SR; exact (ids_lower c d st SH RB)|rewrite SR; exact ND|exact (plain_lower t i T I)|].
  rewrite SR in C. rewrite <- E in EX. rewrite EX. exists r. split; [reflexivity|]. split; [exact N|]. destruct (related_tool st t i None) as [ids|].
  - destruct R as (e & Ge & _ & IDS). destruct (lookup (b_entities (st_build st)) (t ++ L "." ++ i)) as [a|] eqn:Lk; [|discriminate]. injection Ge as ->.
    destruct (lookup_some _ _ _ Lk) as [Ie Qe]. intros id. rewrite in_map_iff, IDS. split.
    + intros (b & <- & Hb). apply C in Hb as (Ib & a & Ea & H). injection Ea as <-. destruct H as [->|H]; [now left|right]. exists b. rewrite (lookup_served c d st RB). split; [now apply lookup_in|exact H].
    + intros [->|(b & Hb & H)].
      * exists e. split; [exact Qe|]. apply C. eauto.
      * rewrite (lookup_served c d st RB) in Hb. apply lookup_some in Hb as [Ib <-]. exists b. split; [reflexivity|]. apply C. eauto.
  - destruct (lookup (b_entities (st_build st)) (t ++ L "." ++ i)) as [a|]; [discriminate|]. destruct r as [|b r]; [reflexivity|]. destruct (proj1 (C b)) as (_ & a & X & _); [now left|discriminate].
Qed.
Print Assumptions C84_related_is_a_query.

(** So too on the command line, where each command builds the graph again. *)
Theorem C84_command_line_agrees : forall c x d w st t i d1 r1 d2 r2, runs_in c d w -> no_links_in w d -> no_graph_dirs d w ->
  shuffles (c_fields c) -> rebuild c d = Ok st -> savable (cl_json x) (st_graph st) -> S_Query.orders (cl_hash x) ->
  plain_name t -> plain_name i -> t <> L "schema" ->
  run_read c x false d (CGet t i) = (d1, r1) -> run_read c x false d (CQuery (get_query t i)) = (d2, r2) ->
  (forall e, r1 = Succeeded (RGot (GotEntity e)) <-> r2 = Succeeded (RFound (M_Query.QEntities [e]))) /\
  (r1 = Failed <-> r2 = Succeeded (RFound (M_Query.QEntities []))).
Proof.
  intros c x d w st t i d1 r1 d2 r2 RI NL NG SH RB SV HO T I NS R1 R2.
  assert (S' : forall st', rebuild c d = Ok st' -> savable (cl_json x) (st_graph st')) by (intros st' R; rewrite RB in R; injection R as <-; exact SV).
  pose proof (C57_answers_are_the_servers c x d w (CGet t i) d1 r1 RI NL NG S' ltac:(intros; discriminate) R1) as A1.
  pose proof (C57_answers_are_the_servers c x d w (CQuery (get_query t i)) d2 r2 RI NL NG S' ltac:(intros; discriminate) R2) as A2.
  rewrite RB in A1, A2. unfold server_answer in A1, A2. pose proof (C84_get_is_a_query c x d st t i SH RB HO T I NS) as G.
  destruct (get_tool st t i) as [|e|]; [destruct G| |]; rewrite G in A2; rewrite A1, A2.
  - split; [|split; discriminate]. intros e'. split; intros H; injection H as <-; reflexivity.
  - split; [|split; reflexivity]. intros e'. split; discriminate.
Qed.
Print Assumptions C84_command_line_agrees.

(** The related command does not show the entity itself; the query does. *)
Theorem C84_related_the_same_refuted : exists c x w d st t i ids r, built c w d st /\ S_Query.orders (cl_hash x) /\ plain_name t /\ plain_name i /\
  related_tool st t i None = Some ids /\ query_text x (st_graph st) (related_query t i) = Some (M_Query.QEntities r) /\
  In (t ++ L "." ++ i) (map e_id r) /\ ~ In (t ++ L "." ++ i) ids.
Proof.
  destruct C73_case as (B & HO & PP & _). exists c9, x9, w0, d14, st14, (L "person"), (L "jane"). eexists _, _. split; [exact B|]. split; [exact HO|]. split; [exact PP|]. split.
  - split; [|vm_compute; reflexivity]. eexists _, _. split; [reflexivity|]. split; [now left|]. repeat (constructor; [now left|]). constructor.
  - split; [vm_compute; reflexivity|]. split; [vm_compute; reflexivity|]. split; [left; reflexivity|]. vm_compute. intros [H|[]]. discriminate.
Qed.
Print Assumptions C84_related_the_same_refuted.

(** The query takes the type in any spelling; the list command does not. *)
Theorem C84_spelling_refuted : exists c x w d st t e r, built c w d st /\ S_Query.orders (cl_hash x) /\ S_QText.identifier t /\
  list_tool st t = [] /\ query_text x (st_graph st) (list_query t) = Some (M_Query.QEntities (e :: r)).
Proof.
  destruct C73_case as (B & HO & PP & _). exists c9, x9, w0, d14, st14, (L "Person"). eexists _, _. split; [exact B|]. split; [exact HO|]. split.
  - eexists _, _. split; [reflexivity|]. split; [now left|]. repeat (constructor; [now left|]). constructor.
  - split; vm_compute; reflexivity.
Qed.
Print Assumptions C84_spelling_refuted.

Example C84_case : built c9 w0 d14 st14 /\ S_Query.orders (cl_hash x9) /\ plain_name (L "person") /\
  get_query (L "person") (L "jane") = L "from * | where @id == ""person.jane""" /\
  get_tool st14 (L "person") (L "jane") = GotEntity jane14 /\ query_text x9 (st_graph st14) (L "from * | where @id == ""person.jane""") = Some (M_Query.QEntities [jane14]) /\
  get_tool st14 (L "person") (L "nobody") = NotGot /\
  list_tool st14 (L "person") = [L "person.jane"; L "person.ann"] /\
  related_tool st14 (L "person") (L "ann") None = Some [L "person.jane"].
Proof. destruct C73_case as (B & HO & PP & _). do 3 (split; [assumption|]). repeat split; vm_compute; reflexivity. Qed.
