(** C73: what is declared in the source files is what queries find. *)
From Coq Require Import Permutation.
From Verif Require Import S_Graph L_Graph.
From Verif Require M_Query M_QParse S_Query S_QText P_Query L_Whole2.
From Verif Require Import S_Whole S_Cli L_Str L_Text L_Schema L_Ids L_Fs L_Workspace L_Syntax L_Syntax2 L_Syntax3 L_Syntax5 L_Whole L_Whole3.
From Verif Require Import P_Schema P_Dsl P_Server P_Add P_Cli P_Grow P_Syntax.
From Verif Require Import M_Fs M_Dsl S_Whole.
Close Scope Z_scope.

(** [from t] answers the entities of that type that some file declares, each
    once, and no others. *)
Theorem C73_every_declaration_is_listed : forall c x w d st t, built c w d st -> S_Query.orders (cl_hash x) -> plain_name t ->
  (exists i fs, declares w d t i fs) ->
  exists r, finds x st (L "from " ++ t) r /\
    forall id, In id (map e_id r) <-> exists i fs, declares w d t i fs /\ id = compose_entity_id t i.
Proof.
  intros c x w d st t B HO [IT NT] DE. exists (filter (fun e => str_eqb (e_type e) t) (b_entities (st_build st))). split; [|exact (ids_listed c w d st B t)]. split.
  - unfold query_text. rewrite (L_Whole2.read_from t IT). unfold M_Query.execute, L_Whole2.ask. cbn [M_Query.q_from M_Query.q_ops M_Query.q_agg].
    rewrite (select_declared c x w d st B HO t NT DE). reflexivity.
  - apply nodup_filter. destruct (built_parts c w d st B) as (ss & _ & _ & ND & _). exact ND.
Qed.
Print Assumptions C73_every_declaration_is_listed.

(** [from t | count] answers how many different entities of the type are declared. *)
Theorem C73_declarations_are_counted : forall c x w d st t, built c w d st -> S_Query.orders (cl_hash x) -> plain_name t ->
  (exists i fs, declares w d t i fs) ->
  exists ids, query_text x (st_graph st) (L "from " ++ t ++ L " | count") = Some (M_Query.QAgg (M_Query.RCount (length ids))) /\
    NoDup ids /\ forall id, In id ids <-> exists i fs, declares w d t i fs /\ id = compose_entity_id t i.
Proof.
  intros c x w d st t B HO [IT NT] DE. exists (map e_id (filter (fun e => str_eqb (e_type e) t) (b_entities (st_build st)))). split; [|split; [|exact (ids_listed c w d st B t)]].
  - unfold query_text. rewrite (L_Whole2.read_count t IT). unfold M_Query.execute, L_Whole2.ask. cbn [M_Query.q_from M_Query.q_ops M_Query.q_agg].
    rewrite (select_declared c x w d st B HO t NT DE), map_length. reflexivity.
  - apply nodup_filter. destruct (built_parts c w d st B) as (ss & _ & _ & ND & _). exact ND.
Qed.
Print Assumptions C73_declarations_are_counted.

(** A type no file declares an entity of cannot be asked for. *)
Theorem C73_undeclared_type_is_refused : forall c x w d st t, built c w d st -> S_Query.orders (cl_hash x) -> plain_name t ->
  ~ (exists i fs, declares w d t i fs) ->
  query_text x (st_graph st) (L "from " ++ t) = None /\ query_text x (st_graph st) (L "from " ++ t ++ L " | count") = None.
Proof.
  intros c x w d st t B HO [IT NT] U. destruct (select_undeclared c x w d st B HO t NT U) as (er & S). unfold query_text.
  rewrite (L_Whole2.read_from t IT), (L_Whole2.read_count t IT). unfold M_Query.execute, L_Whole2.ask. cbn [M_Query.q_from M_Query.q_ops M_Query.q_agg]. rewrite S. split; reflexivity.
Qed.
Print Assumptions C73_undeclared_type_is_refused.

(** [from t | where f o "s"], for a field the schema calls a string. *)
Theorem C73_text_is_found : forall c x w d st t f o s, built c w d st -> S_Query.orders (cl_hash x) -> plain_name t -> plain_name f ->
  field_typed st t f TStr -> (exists i fs, declares w d t i fs) -> tests_text o -> query_literal s ->
  exists r, finds x st (where_query t f o ([DQ] ++ s ++ [DQ])) r /\
    forall id, In id (map e_id r) <-> exists i fs a, declares w d t i fs /\ id = compose_entity_id t i /\ has_text fs f a /\ text_test o a s.
Proof.
  intros c x w d st t f o s B HO T F FT DE TO QL. destruct (text_found c x w d st B HO t f o s T F FT DE TO QL) as (r & FR & H). exists r. split; [exact FR|].
  intros id. rewrite H. split.
  - intros (i & fs & vn & D & E & FF & a & raw & -> & TL & TT). exists i, fs, a. repeat (split; [assumption|]). split; [exists raw; auto|exact TT].
  - intros (i & fs & a & D & E & (raw & FF & TL) & TT). exists i, fs, (VNode (Some KString) raw []). repeat (split; [assumption|]). exists a, raw. auto.
Qed.
Print Assumptions C73_text_is_found.

(** [from t | where f o k], for a field the schema calls an integer; the query
    reads its numbers as floating point numbers, which have 53 binary digits. *)
Theorem C73_integer_is_found : forall c x w d st t f o k, built c w d st -> S_Query.orders (cl_hash x) -> plain_name t -> plain_name f ->
  field_typed st t f TInt -> (exists i fs, declares w d t i fs) -> tests_integer o -> in_i64 k = true -> S_Round.has_53_digits k ->
  exists r, finds x st (where_query t f o (show_Z k)) r /\
    forall id, In id (map e_id r) <-> exists i fs z, declares w d t i fs /\ id = compose_entity_id t i /\ has_integer fs f z /\ integer_test o z k.
Proof.
  intros c x w d st t f o k B HO T F FT DE TO K KD. destruct (integer_found c x w d st B HO t f o k T F FT DE TO K KD) as (r & FR & H). exists r. split; [exact FR|].
  intros id. rewrite H. split.
  - intros (i & fs & vn & D & E & FF & a & raw & -> & TL & TT). exists i, fs, a. repeat (split; [assumption|]). split; [exists raw; auto|exact TT].
  - intros (i & fs & a & D & E & (raw & FF & TL) & TT). exists i, fs, (VNode (Some KNumber) raw []). repeat (split; [assumption|]). exists a, raw. auto.
Qed.
Print Assumptions C73_integer_is_found.

(** [from t | where f == a.b], for a field the schema calls a reference and an id
    as the program writes it: whatever spelling the file uses. *)
Theorem C73_reference_is_found : forall c x w d st t f a b, built c w d st -> S_Query.orders (cl_hash x) -> plain_name t -> plain_name f ->
  field_typed st t f TRef -> (exists i fs, declares w d t i fs) -> S_QText.identifier a -> S_QText.identifier b -> compose_entity_id a b = a ++ L "." ++ b ->
  exists r, finds x st (where_query t f M_Query.OpEq (a ++ L "." ++ b)) r /\
    forall id, In id (map e_id r) <-> exists i fs a' b', declares w d t i fs /\ id = compose_entity_id t i /\
      refers_to fs f a' b' /\ name_syntax a' /\ name_syntax b' /\ compose_entity_id a' b' = compose_entity_id a b.
Proof.
  intros c x w d st t f a b B HO T F FT DE IA IB C. destruct (reference_found c x w d st B HO t f a b T F FT DE IA IB C) as (r & FR & H). exists r. split; [exact FR|].
  intros id. rewrite H. split.
  - intros (i & fs & vn & D & E & FF & a' & b' & -> & NA & NB & EQ). exists i, fs, a', b'. auto 10.
  - intros (i & fs & a' & b' & D & E & FF & NA & NB & EQ). exists i, fs, (VNode (Some KReference) (a' ++ L "." ++ b') []). repeat (split; [assumption|]). exists a', b'. auto.
Qed.
Print Assumptions C73_reference_is_found.

(** [firm query] answers the same. *)
Theorem C73_command_line_finds : forall c x w d st text r, built c w d st -> no_graph_dirs d w -> savable (cl_json x) (st_graph st) ->
  finds x st text r -> snd (run_read c x false d (CQuery text)) = Succeeded (RFound (M_Query.QEntities r)).
Proof.
  intros c x w d st text r B NG SV [Q _]. destruct B as [RI NL TD FS DO SH PS PC RB]. destruct (run_read c x false d (CQuery text)) as [d' o] eqn:E.
  assert (S' : forall st', rebuild c d = Ok st' -> savable (cl_json x) (st_graph st')) by (intros st' R; rewrite RB in R; injection R as <-; exact SV).
  assert (X : forall t i, CQuery text <> CSource t i) by discriminate.
  pose proof (C57_answers_are_the_servers c x d w (CQuery text) d' o RI NL NG S' X E) as A. rewrite RB in A. cbn [server_answer] in A. rewrite Q in A. exact A.
Qed.
Print Assumptions C73_command_line_finds.

(** ** A case *)
(** Two people in one file, the schema in another. *)
Definition person14 : schema :=
  match to_schema env0 (L "s.firm") {| sn_name := Some (L "person"); sn_blocks :=
    [P_Add.decl (L "full_name") (L "string") true; P_Add.decl (L "age") (L "integer") false; P_Add.decl (L "boss") (L "reference") false] |} with Ok s => s | _ => schema_new [] end.
Definition jane14 : entity := {| e_id := L "person.jane"; e_type := L "person"; e_fields := [(L "full_name", VStr (L "Jane Doe")); (L "age", VInt 41)] |}.
Definition ann14 : entity :=
  {| e_id := L "person.ann"; e_type := L "person"; e_fields := [(L "full_name", VStr (L "ANN ROE")); (L "age", VInt 7); (L "boss", VRef (REntity (L "person.jane")))] |}.
Definition text14 : str := generate_dsl env0 default_options [jane14; ann14].
Definition d14 : fs := [([L "w"], Dir); ([L "w"; L "p.firm"], File text14); ([L "w"; L "s.firm"], File (generate_schema fid default_options person14))].
Definition st14 : state := match rebuild c9 d14 with Ok st => st | _ => none0 end.
Lemma d14_sources r s : source_of w0 d14 r s -> s = text14 \/ s = generate_schema fid default_options person14.
Proof.
  intros [H (r' & n & -> & _)]. apply in_fs in H; [|discriminate]. destruct H as [H|[H|[H|[]]]]; [discriminate| |]; injection H as _ <-; auto.
Qed.
Ltac word := now apply name_word.
Lemma people_kept : Forall (kept_entity env0) [jane14; ann14].
Proof.
  constructor; [|constructor; [|constructor]].
  - exists (L "person"), (L "jane"). repeat (split; [first [reflexivity | discriminate | word]|]).
    constructor; [split; [word|]; split; [reflexivity|]; left; now apply line_of|]. constructor; [split; [word|reflexivity]|]. constructor.
  - exists (L "person"), (L "ann"). repeat (split; [first [reflexivity | discriminate | word]|]).
    constructor; [split; [word|]; split; [reflexivity|]; left; now apply line_of|]. constructor; [split; [word|reflexivity]|].
    constructor; [split; [word|]|constructor]. cbn [kept snd]. exists (L "person"), (L "jane"). repeat (split; [first [reflexivity | word]|]). reflexivity.
Qed.
Lemma text14_syntax : file_syntax (map EntityBlock (map (written_entity env0 default_options) [jane14; ann14])) text14.
Proof.
  apply entities_in_file. apply (Forall_impl _ (kept_is_expressible env0)), people_kept.
Qed.
Lemma schema14_syntax : file_syntax [SchemaBlock (written_schema fid person14)] (generate_schema fid default_options person14).
Proof. apply schema_file; [exact fid_ok|]. apply plain_schema_expressible. vm_compute. reflexivity. Qed.
Lemma d14_built : built c9 w0 d14 st14.
Proof.
  split.
  - runs.
  - apply no_links_list; reflexivity.
  - unfold tidy; cbn [map fst d14]; repeat (apply NoDup_cons; [cbn; intuition discriminate|]); apply NoDup_nil.
  - exact reads_syntax.
  - intros r s H. destruct (d14_sources r s H) as [-> | ->]; eexists; [exact text14_syntax|exact schema14_syntax].
  - exact fid_ok.
  - intros l. apply Permutation_refl.
  - intros l. apply Permutation_refl.
  - vm_compute. reflexivity.
Qed.
Example C73_case : built c9 w0 d14 st14 /\ S_Query.orders (cl_hash x9) /\ plain_name (L "person") /\ plain_name (L "full_name") /\ plain_name (L "age") /\ plain_name (L "boss") /\
  field_typed st14 (L "person") (L "full_name") TStr /\ field_typed st14 (L "person") (L "age") TInt /\ field_typed st14 (L "person") (L "boss") TRef /\
  (exists fs, declares w0 d14 (L "person") (L "jane") fs /\ has_text fs (L "full_name") (L "Jane Doe") /\ has_integer fs (L "age") 41) /\
  (exists fs, declares w0 d14 (L "person") (L "ann") fs /\ refers_to fs (L "boss") (L "person") (L "jane")) /\
  compose_entity_id (L "person") (L "jane") = L "person.jane" /\
  finds x9 st14 (L "from person") [jane14; ann14] /\
  finds x9 st14 (where_query (L "person") (L "full_name") M_Query.OpEq (L """Ann Roe""")) [ann14] /\
  finds x9 st14 (where_query (L "person") (L "age") M_Query.OpGe (L "41")) [jane14] /\
  finds x9 st14 (where_query (L "person") (L "boss") M_Query.OpEq (L "person.jane")) [ann14] /\
  ~ (exists i fs, declares w0 d14 (L "organization") i fs) /\ no_graph_dirs d14 w0.
Proof.
  split; [exact d14_built|]. split; [exact P_Query.ex_ho_ok|]. do 4 (split; [split; [eexists; eexists; split; [reflexivity|]; split; [left; reflexivity|]; repeat constructor|reflexivity]|]).
  do 3 (split; [eexists; eexists; split; [vm_compute; left; reflexivity|]; split; [reflexivity|]; split; [cbn; intuition reflexivity|reflexivity]|]).
  assert (SP : source_of w0 d14 [L "p.firm"] text14) by (split; [reflexivity|]; exists [], (L "p.firm"); split; [reflexivity|]; exists (L "p"); split; [discriminate|reflexivity]).
  split; [|split; [|split; [reflexivity|]]].
  - eexists. split; [exists [L "p.firm"], text14; eexists; split; [exact SP|]; split; [exact text14_syntax|]; left; reflexivity|]. split.
    + exists ([DQ] ++ L "Jane Doe" ++ [DQ]). split; [exists []; eexists; split; [reflexivity|intros n []]|]. constructor. now apply line_of.
    + exists (L "41"). split; [eexists [_]; eexists; split; [reflexivity|intros n [<-|[]]; discriminate]|]. left. exact (numeral_next _ _ "1"%char (numeral_one "4"%char eq_refl) eq_refl).
  - eexists. split; [exists [L "p.firm"], text14; eexists; split; [exact SP|]; split; [exact text14_syntax|]; right; left; reflexivity|].
    eexists [_; _]; eexists. split; [reflexivity|]. intros n [<-|[<-|[]]]; discriminate.
  - assert (N2 : NoDup (map e_id [jane14; ann14])) by (vm_compute; repeat (constructor; [cbn; intuition discriminate|]); constructor).
    assert (N1 : forall e : entity, NoDup (map e_id [e])) by (intros e; repeat constructor; intros []).
    split; [split; [vm_compute; reflexivity|exact N2]|]. do 3 (split; [split; [vm_compute; reflexivity|apply N1]|]).
    split; [|split; vm_compute; discriminate]. intros (i & fs & r & s & bs & S & F & I).
    pose proof (reads_syntax _ _ F) as R. destruct (d14_sources r s S) as [-> | ->].
    + rewrite (reads_syntax _ _ text14_syntax) in R. injection R as _ R. apply in_entities in I. rewrite <- R in I. destruct I as [I|[I|[]]]; discriminate.
    + rewrite (reads_syntax _ _ schema14_syntax) in R. injection R as _ R. apply in_entities in I. rewrite <- R in I. destruct I.
Qed.
(** Refuted: that only the text that was asked for is found; letters may be in
    another case. *)
Theorem C73_exact_text_refuted : exists c x w d st t f s r, built c w d st /\ S_Query.orders (cl_hash x) /\ plain_name t /\ plain_name f /\
  field_typed st t f TStr /\ query_literal s /\ finds x st (where_query t f M_Query.OpEq ([DQ] ++ s ++ [DQ])) r /\
  exists e, In e r /\ forall i fs, declares w d t i fs -> e_id e = compose_entity_id t i -> ~ has_text fs f s.
Proof.
  destruct C73_case as (B & HO & T & F & _ & _ & FT & _).
  exists c9, x9, w0, d14, st14, (L "person"), (L "full_name"), (L "Ann Roe"), [ann14]. do 5 (split; [assumption|]).
  split; [split; [vm_compute; intuition discriminate|]; intros c r E; injection E as <- _; repeat split; discriminate|].
  split; [split; [vm_compute; reflexivity|repeat constructor; intros []]|]. exists ann14. split; [now left|].
  intros i fs (r & s & bs & S & FS & I) E (raw & FF & TL). pose proof (reads_syntax _ _ FS) as R. destruct (d14_sources r s S) as [-> | ->].
  - rewrite (reads_syntax _ _ text14_syntax) in R. injection R as _ R. apply in_entities in I. rewrite <- R in I. destruct I as [I|[I|[]]]; injection I as <- <-; [discriminate|].
    destruct FF as ([|n l] & r' & EF & NF).
    + cbn [app] in EF. injection EF as <- _. inversion TL; subst; discriminate.
    + cbn [app] in EF. injection EF as <- _. exact (NF _ (or_introl eq_refl) eq_refl).
  - rewrite (reads_syntax _ _ schema14_syntax) in R. injection R as _ R. apply in_entities in I. rewrite <- R in I. destruct I.
Qed.
Print Assumptions C73_exact_text_refuted.
