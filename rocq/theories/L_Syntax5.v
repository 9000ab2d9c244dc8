(** Workspaces in the documented syntax. *)
From Verif Require Import M_Graph L_Graph L_Str L_Ids L_Num L_Text L_DslStr L_DslVal L_Schema L_Schema2 L_Load L_Cli L_Prompt2.
From Verif Require Import P_Dsl.
From Verif Require Export S_Grow L_Syntax4.
From Coq Require Import Lia Permutation.
Close Scope Z_scope.

Lemma kept_is_expressible env e : kept_entity env e -> expressible_entity env e.
Proof.
  intros (t & i & Ei & Et & NS & Nt & Ni & St & Si & F). unfold expressible_entity. rewrite Et, (fixpoint_lower t Nt), Ei. split; [exact St|]. split; [exact NS|].
  assert (D : decompose_entity_id (t ++ L "." ++ i) = (t, i)).
  { pose proof (compose_decompose t i Nt Ni (name_undotted t St)) as X. rewrite (compose_fixpoint t i Nt Ni) in X. exact X. }
  rewrite D. split; [exact Si|]. eapply Forall_impl; [|exact F]. intros fv [N K]. split; [exact N|now apply kept_expressible].
Qed.
Lemma kept_reads env o path e : kept_entity env e -> to_entity env path (written_entity env o e) = Ok e.
Proof.
  intros (t & i & Ei & Et & NS & Nt & Ni & St & Si & F). destruct e as [id ty fs]. cbn [e_id e_type e_fields] in *. subst.
  apply C47_normal_entities_survive; auto using name_undotted. eapply Forall_impl; [|exact F]. intros fv [_ K]. now apply kept_survives.
Qed.

Lemma entities_only es : schemas_in (map EntityBlock es) = [] /\ entities_in (map EntityBlock es) = es.
Proof. induction es as [|e es [IH1 IH2]]; [split; reflexivity|]. split; [exact IH1|]. cbn [map entities_in flat_map app]. f_equal. exact IH2. Qed.
Lemma blocks_app bs bs' : schemas_in (bs ++ bs') = schemas_in bs ++ schemas_in bs' /\ entities_in (bs ++ bs') = entities_in bs ++ entities_in bs'.
Proof. unfold schemas_in, entities_in. rewrite !flat_map_app. auto. Qed.
Lemma empty_file : file_syntax [] [].
Proof. constructor. left. constructor. Qed.
Lemma rebuild_text c d w st : runs_in c d w -> no_links_in w d -> tidy d -> rebuild c d = Ok st -> forall r s, source_of w d r s -> is_text s = true.
Proof.
  intros RI NL TD B. unfold rebuild, obind, omap_err in B. destruct (load_directory c d) as [fs| |] eqn:E; try discriminate.
  intros r s S. exact (proj1 (proj2 (proj2 (load_directory_spec c d w fs RI NL TD E)) r s S)).
Qed.
(** What a changed file was. *)
Lemma old_source w d d' r old text : became w d d' r old text -> source_of w d r old \/ old = [].
Proof. intros [[O|[_ O]] [_ N]]; [left; split; assumption|now right]. Qed.
Lemma old_syntax w d d' r old text : documented w d -> became w d d' r old text -> exists bs, file_syntax bs old.
Proof. intros D B. destruct (old_source _ _ _ _ _ _ B) as [S| ->]; [exact (D r old S)|]. exists []. exact empty_file. Qed.
Lemma old_text c w d st d' r old text : runs_in c d w -> no_links_in w d -> tidy d -> rebuild c d = Ok st -> became w d d' r old text -> is_text old = true.
Proof. intros RI NL TD B X. destruct (old_source _ _ _ _ _ _ X) as [S| ->]; [exact (rebuild_text c d w st RI NL TD B r old S)|reflexivity]. Qed.
Lemma old_ended w d d' r old text : lines_ended w d -> became w d d' r old text -> old = [] \/ exists x, old = x ++ [LF].
Proof. intros D B. destruct (old_source _ _ _ _ _ _ B) as [S| ->]; [exact (D r old S)|now left]. Qed.
Lemma one_entity env o e : expressible_entity env e -> file_syntax [EntityBlock (written_entity env o e)] (generate_dsl env o [e]).
Proof. intros E. exact (entities_in_file env o [e] (Forall_cons _ E (Forall_nil _))). Qed.
Lemma syntax_adds c bs old bs' e text : follows_syntax (c_parse c) -> file_syntax bs old -> bs' = bs ++ [EntityBlock (written_entity (c_env c) default_options e)] ->
  file_syntax bs' text -> is_text text = true -> adds_node c old text (written_entity (c_env c) default_options e).
Proof.
  intros P S -> S' T. split; [exact T|]. exists (tree_of bs), (tree_of (bs ++ [EntityBlock (written_entity (c_env c) default_options e)])).
  split; [exact (P _ _ S)|]. split; [exact (P _ _ S')|]. unfold tree_of. cbn [ps_schemas ps_entities]. destruct (blocks_app bs [EntityBlock (written_entity (c_env c) default_options e)]) as [-> ->].
  split; [apply app_nil_r|]. split; [reflexivity|]. intros ->. pose proof (reads_syntax _ _ S) as X. rewrite (reads_syntax _ _ empty_file) in X. injection X as X Y. split; now symmetry.
Qed.
Lemma before_text old before : on_new_line old before -> is_text old = true -> is_text before = true.
Proof. intros [|s|s _ _] T; try exact T. apply L_History.text_app; [exact T|reflexivity]. Qed.

(** One file changed. *)
Lemma documented_step w d d' r bs text : documented w d -> only_changed (w ++ r) d d' -> source_of w d' r text -> file_syntax bs text -> documented w d'.
Proof.
  intros D OC S F r' s S'. destruct (list_eq_dec (list_eq_dec ascii_dec) r' r) as [->|N].
  - exists bs. destruct S as [A _], S' as [B _]. assert (text = s) by congruence. now subst.
  - apply (D r' s). destruct S' as [A B]. split; [|exact B]. assert (X : w ++ r' <> w ++ r) by (intros E; apply app_inv_head in E; auto).
    destruct (OC _ X) as [<-|[_ E]]; [exact A|congruence].
Qed.
Lemma ended_step w d d' r text : lines_ended w d -> only_changed (w ++ r) d d' -> source_of w d' r text -> (exists x, text = x ++ [LF]) -> lines_ended w d'.
Proof.
  intros D OC S F r' s S'. destruct (list_eq_dec (list_eq_dec ascii_dec) r' r) as [->|N].
  - right. destruct S as [A _], S' as [B _]. assert (text = s) by congruence. now subst.
  - apply (D r' s). destruct S' as [A B]. split; [|exact B]. assert (X : w ++ r' <> w ++ r) by (intros E; apply app_inv_head in E; auto).
    destruct (OC _ X) as [<-|[_ E]]; [exact A|congruence].
Qed.
Lemma same_sources w d d1 : (forall p, p <> w ++ [current_name] -> p <> w ++ [backup_name] -> node_at d1 p = node_at d p) ->
  forall r s, source_of w d1 r s -> source_of w d r s.
Proof. intros K r s S. destruct (source_not_graph w r d1 s S) as [A B]. destruct S as [N F]. split; [|exact F]. rewrite <- (K _ A B). exact N. Qed.
Lemma entity_ends env o e : exists x, generate_dsl env o [e] = x ++ [LF].
Proof. cbn [generate_dsl]. unfold generate_entity. destruct (decompose_entity_id (e_id e)) as [t i]. eexists. rewrite !app_assoc. reflexivity. Qed.
