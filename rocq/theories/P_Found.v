(** C73: yes-or-no fields and enumerations of the source files are found. *)
From Coq Require Import Permutation.
From Verif Require Import S_Graph L_Graph.
From Verif Require M_Query M_QParse S_Query S_QText P_Query L_Whole2.
From Verif Require Import S_Found S_Cli L_Str L_Text L_Schema L_Ids L_Fs L_Workspace L_Syntax L_Syntax2 L_Syntax3 L_Syntax5 L_Whole L_Whole3 L_Found.
From Verif Require Import P_Schema P_Dsl P_Server P_Add P_Cli P_Grow P_Syntax P_Whole.
From Verif Require Import M_Fs M_Dsl S_Found.
Close Scope Z_scope.

(** [from t | where f == true], and the like, for a field the schema calls a boolean. *)
Theorem C73_boolean_is_found : forall c x w d st t f o b, built c w d st -> S_Query.orders (cl_hash x) -> plain_name t -> plain_name f ->
  field_typed st t f TBool -> (exists i fs, declares w d t i fs) -> tests_boolean o ->
  exists r, finds x st (where_query t f o (yes_no b)) r /\
    forall id, In id (map e_id r) <-> exists i fs a, declares w d t i fs /\ id = compose_entity_id t i /\ has_boolean fs f a /\ boolean_test o a b.
Proof.
  intros c x w d st t f o b B HO T F FT DE TO. destruct (boolean_found c x w d st B HO t f o b T F FT DE TO) as (r & FR & H). exists r. split; [exact FR|].
  intros id. rewrite H. split.
  - intros (i & fs & vn & D & E & FF & a & -> & TT). exists i, fs, a. auto.
  - intros (i & fs & a & D & E & FF & TT). exists i, fs, (VNode (Some KBoolean) (yes_no a) []). repeat (split; [assumption|]). exists a. auto.
Qed.
Print Assumptions C73_boolean_is_found.

(** [from t | where f o "s"], for a field the schema calls an enumeration. *)
Theorem C73_choice_is_found : forall c x w d st t f o s, built c w d st -> S_Query.orders (cl_hash x) -> plain_name t -> plain_name f ->
  field_typed st t f TEnum -> (exists i fs, declares w d t i fs) -> tests_text o -> query_literal s ->
  exists r, finds x st (where_query t f o ([DQ] ++ s ++ [DQ])) r /\
    forall id, In id (map e_id r) <-> exists i fs a, declares w d t i fs /\ id = compose_entity_id t i /\ has_choice fs f a /\ text_test o a s.
Proof.
  intros c x w d st t f o s B HO T F FT DE TO QL. destruct (enum_found c x w d st B HO t f o s T F FT DE TO QL) as (r & FR & H). exists r. split; [exact FR|].
  intros id. rewrite H. split.
  - intros (i & fs & vn & D & E & FF & a & u & -> & O & BQ & TT). exists i, fs, a. repeat (split; [assumption|]). split; [exists u; auto|exact TT].
  - intros (i & fs & a & D & E & (u & FF & O & BQ) & TT). exists i, fs, (VNode (Some KEnum) (L "enum" ++ [DQ] ++ u ++ [DQ]) []). repeat (split; [assumption|]). exists a, u. auto.
Qed.
Print Assumptions C73_choice_is_found.

(** [from t | where f o YYYY-MM-DD], for a field the schema calls a date: the day
    that is written counts, whatever the time and the zone beside it. *)
Theorem C73_day_is_found : forall c x w d st t f o s k, built c w d st -> S_Query.orders (cl_hash x) -> plain_name t -> plain_name f ->
  field_typed st t f TDate -> (exists i fs, declares w d t i fs) -> tests_integer o -> day_literal s k ->
  exists r, finds x st (where_query t f o s) r /\
    forall id, In id (map e_id r) <-> exists i fs day, declares w d t i fs /\ id = compose_entity_id t i /\ has_day fs f day /\ integer_test o day k.
Proof.
  intros c x w d st t f o s k B HO T F FT DE TO DL. destruct (day_found c x w d st B HO t f o s k T F FT DE TO DL) as (r & FR & H). exists r. split; [exact FR|].
  intros id. rewrite H. split.
  - intros (i & fs & vn & D & E & FF & day & OD & TT). exists i, fs, day. repeat (split; [assumption|]). split; [exists vn; auto|exact TT].
  - intros (i & fs & day & D & E & (vn & FF & OD) & TT). exists i, fs, vn. repeat (split; [assumption|]). exists day. auto.
Qed.
Print Assumptions C73_day_is_found.

(** ** A case *)
Definition task93 : schema :=
  match to_schema env0 (L "s.firm") {| sn_name := Some (L "task"); sn_blocks :=
    [P_Add.decl (L "done") (L "boolean") true; P_Add.decl (L "due") (L "datetime") false;
     {| nb_type := Some (L "field");
        nb_body := Some [field_node (L "name") (text_node (L "level")); field_node (L "type") (text_node (L "enum"));
          field_node (L "allowed_values") (VNode (Some KList) (L "") [text_node (L "high"); text_node (L "low")]);
          field_node (L "required") (VNode (Some KBoolean) (L "false") [])] |}] |} with Ok s => s | _ => schema_new [] end.
Definition call93 : entity := {| e_id := L "task.call"; e_type := L "task"; e_fields := [(L "done", VBool true); (L "level", VEnum (L "High"))] |}.
Definition mail93 : entity := {| e_id := L "task.mail"; e_type := L "task"; e_fields := [(L "done", VBool false); (L "level", VEnum (L "low"))] |}.
(** 2024-02-29, at 23:30 in a place two hours east. *)
Definition rest_due : datetime := {| dt_local := 19782 * 86400 + 84600; dt_nanos := 0; dt_off := 7200 |}.
Definition rest93 : entity := {| e_id := L "task.rest"; e_type := L "task"; e_fields := [(L "done", VBool false); (L "due", VDate rest_due)] |}.
Definition text93 : str := generate_dsl env0 default_options [call93; mail93; rest93].
Definition d93 : fs := [([L "w"], Dir); ([L "w"; L "p.firm"], File text93); ([L "w"; L "s.firm"], File (generate_schema fid default_options task93))].
Definition st93 : state := match rebuild c9 d93 with Ok st => st | _ => none0 end.
Lemma tasks_kept : Forall (kept_entity env0) [call93; mail93; rest93].
Proof.
  assert (E : forall s, In s [L "High"; L "low"] -> kept env0 (VEnum s)).
  { intros s [<-|[<-|[]]]; (split; [reflexivity|]; split; [now apply line_of|]); intros r X; apply (f_equal (@rev ascii)) in X; rewrite rev_app_distr in X; discriminate. }
  repeat constructor.
  - exists (L "task"), (L "call"). repeat (split; [first [reflexivity | discriminate | word]|]).
    constructor; [split; [word|exact I]|]. constructor; [split; [word|apply E; now left]|]. constructor.
  - exists (L "task"), (L "mail"). repeat (split; [first [reflexivity | discriminate | word]|]).
    constructor; [split; [word|exact I]|]. constructor; [split; [word|apply E; right; now left]|]. constructor.
  - exists (L "task"), (L "rest"). repeat (split; [first [reflexivity | discriminate | word]|]).
    constructor; [split; [word|exact I]|]. constructor; [split; [word|]|constructor]. split; [|repeat split]. vm_compute. intuition discriminate.
Qed.
Lemma text93_syntax : file_syntax (map EntityBlock (map (written_entity env0 default_options) [call93; mail93; rest93])) text93.
Proof. apply entities_in_file. apply (Forall_impl _ (kept_is_expressible env0)), tasks_kept. Qed.
Lemma schema93_syntax : file_syntax [SchemaBlock (written_schema fid task93)] (generate_schema fid default_options task93).
Proof. apply schema_file; [exact fid_ok|]. apply plain_schema_expressible. vm_compute. reflexivity. Qed.
Lemma d93_built : built c9 w0 d93 st93.
Proof.
  split.
  - runs.
  - apply no_links_list; reflexivity.
  - unfold tidy; cbn [map fst d93]; repeat (apply NoDup_cons; [cbn; intuition discriminate|]); apply NoDup_nil.
  - exact reads_syntax.
  - intros r s [H (r' & n & -> & _)]. apply in_fs in H; [|discriminate]. destruct H as [H|[H|[H|[]]]]; [discriminate| |]; injection H as _ <-; eexists; [exact text93_syntax|exact schema93_syntax].
  - exact fid_ok.
  - intros l. apply Permutation_refl.
  - intros l. apply Permutation_refl.
  - vm_compute. reflexivity.
Qed.
Example C73_choice_case : built c9 w0 d93 st93 /\ S_Query.orders (cl_hash x9) /\ plain_name (L "task") /\ plain_name (L "done") /\ plain_name (L "level") /\ plain_name (L "due") /\
  field_typed st93 (L "task") (L "done") TBool /\ field_typed st93 (L "task") (L "level") TEnum /\ field_typed st93 (L "task") (L "due") TDate /\
  (exists fs, declares w0 d93 (L "task") (L "call") fs /\ has_boolean fs (L "done") true /\ has_choice fs (L "level") (L "High")) /\
  finds x9 st93 (where_query (L "task") (L "done") M_Query.OpEq (L "true")) [call93] /\
  finds x9 st93 (where_query (L "task") (L "level") M_Query.OpEq (L """high""")) [call93] /\
  finds x9 st93 (where_query (L "task") (L "level") M_Query.OpNe (L """high""")) [mail93] /\
  (exists fs, declares w0 d93 (L "task") (L "rest") fs /\ has_day fs (L "due") 19782) /\ day_literal (L "2024-02-29") 19782 /\
  finds x9 st93 (where_query (L "task") (L "due") M_Query.OpLe (L "2024-02-29")) [rest93] /\
  finds x9 st93 (where_query (L "task") (L "due") M_Query.OpLt (L "2024-02-29")) [].
Proof.
  split; [exact d93_built|]. split; [exact P_Query.ex_ho_ok|]. do 4 (split; [split; [eexists; eexists; split; [reflexivity|]; split; [left; reflexivity|]; repeat constructor|reflexivity]|]).
  do 3 (split; [eexists; eexists; split; [vm_compute; left; reflexivity|]; split; [reflexivity|]; split; [cbn; intuition reflexivity|reflexivity]|]).
  assert (SP : source_of w0 d93 [L "p.firm"] text93) by (split; [reflexivity|]; exists [], (L "p.firm"); split; [reflexivity|]; exists (L "p"); split; [discriminate|reflexivity]).
  assert (DL : day_literal (L "2024-02-29") 19782).
  { exists (L "2024"), (L "02"), (L "29"), 2024%Z, 2%Z, 29%Z. repeat (split; [reflexivity|]).
    split; [exact (numeral_next _ _ "4"%char (numeral_next _ _ "2"%char (numeral_next _ _ "0"%char (numeral_one "2"%char eq_refl) eq_refl) eq_refl) eq_refl)|].
    split; [exact (numeral_next _ _ "2"%char (numeral_one "0"%char eq_refl) eq_refl)|].
    split; [exact (numeral_next _ _ "9"%char (numeral_one "2"%char eq_refl) eq_refl)|]. split; reflexivity. }
  split.
  - eexists. split; [exists [L "p.firm"], text93; eexists; split; [exact SP|]; split; [exact text93_syntax|]; left; reflexivity|]. split.
    + exists []; eexists; split; [reflexivity|intros n []].
    + exists (L "High"). split; [eexists [_]; eexists; split; [reflexivity|intros n [<-|[]]; discriminate]|]. split; [now apply line_of|].
      left. split; [reflexivity|]. intros r X; apply (f_equal (@rev ascii)) in X; rewrite rev_app_distr in X; discriminate.
  - assert (N1 : forall e : entity, NoDup (map e_id [e])) by (intros e; repeat constructor; intros []).
    do 3 (split; [split; [vm_compute; reflexivity|apply N1]|]). split.
    + eexists. split; [exists [L "p.firm"], text93; eexists; split; [exact SP|]; split; [exact text93_syntax|]; do 2 right; left; reflexivity|].
      eexists. split; [eexists [_]; eexists; split; [reflexivity|intros n [<-|[]]; discriminate]|]. exists (L "2024-02-29"). split; [exact DL|]. right. exists (L "23:30 UTC+2"). reflexivity.
    + split; [exact DL|]. split; [split; [vm_compute; reflexivity|apply N1]|]. split; [vm_compute; reflexivity|constructor].
Qed.
