(** C80: additions change answers only by what was added. *)
From Coq Require Import Lia Permutation.
From Verif Require Import S_Graph L_Graph S_More L_Exec L_More P_Query.
From Verif Require Import S_Life L_Server L_Workspace L_Load L_Grow L_History L_Life P_Life.
From Verif Require Import P_Dsl P_Schema P_Workspace P_Server P_Add P_Save P_Cli P_Prompt P_Syntax.
From Verif Require Import M_Fs M_Syntax.
Close Scope Z_scope.

Lemma in_order_built c w d st : in_order c w d st ->
  L_Graph.built (st_graph st) (b_entities (st_build st)) /\ NoDup (map e_id (b_entities (st_build st))).
Proof.
  intros (_ & _ & _ & _ & _ & _ & RB). destruct (rebuild_files c d st RB) as (fs & _ & _ & LG). apply load_ok in LG as (_ & ND & ->).
  split; [|exact ND]. pose proof (load_spec _ ND) as E. rewrite <- E at 2. exact (built_run [OAddMany (b_entities (st_build st))]).
Qed.

(** In a workspace to which [es] were added, in whatever way and over whatever
    time: a query by type and conditions, in any order, answers what it did
    before and those of the new entities that it is about. *)
Theorem C80_answers_gain_what_was_added : forall c ae x pe w d es d' st, shuffles (c_fields c) -> (forall l, Permutation (cl_order x l) l) ->
  (forall l, Permutation (c_schemas c l) l) -> (forall l, Permutation (c_files c l) l) -> faithful c pe -> follows_syntax (c_parse c) ->
  in_order c w d st -> life c ae x pe w d es d' ->
  exists st' es', in_order c w d' st' /\ Forall2 entity_as es es' /\
  forall y ho ho' s ops r r', orders ho -> orders ho' -> no_limit ops -> no_related ops ->
    answers y (st_graph st) ho s ops r -> answers y (st_graph st') ho' s ops r' ->
    exists new, Permutation r' (new ++ r) /\ NoDup new /\ forall e, In e new <-> In e es' /\ selected s e /\ meets y ops e.
Proof.
  intros c ae x pe w d es d' st SH PO PS PC FA FS IO LF. destruct (C66_a_workspace_only_added_to_builds c ae x pe w d es d' st SH PO PS PC FA FS IO LF) as (st' & IO' & es' & F & _ & Pm & _).
  exists st', es'. split; [exact IO'|]. split; [exact F|]. intros y ho ho' s ops r r' O O' NL NR A A'.
  destruct (in_order_built _ _ _ _ IO) as [B _], (in_order_built _ _ _ _ IO') as [B' N'].
  destruct (answers_in y _ _ B ho O s ops r NL NR A) as [ND E], (answers_in y _ _ B' ho' O' s ops r' NL NR A') as [ND' E'].
  assert (I : incl r r'). { intros e J. apply E in J as [J K]. apply E'. split; [|exact K]. eapply Permutation_in; [symmetry; exact Pm|]. apply in_or_app. now right. }
  destruct (nodup_rest r r' ND ND' I) as (new & P & N). exists new. split; [exact P|]. split.
  { apply (Permutation_NoDup P) in ND'. clear -ND'. induction new as [|a l IH]; [constructor|]. inversion ND'; subst. constructor; [intros J; apply H1, in_or_app; auto|auto]. }
  pose proof (nodup_of_ids e_id _ (Permutation_NoDup (Permutation_map e_id Pm) N')) as NN.
  intros e. rewrite N, E, E'. split.
  - intros ((J & S & M) & H). split; [|auto]. apply (Permutation_in _ Pm) in J. apply in_app_or in J as [J|J]; [exact J|]. destruct H. auto.
  - intros (J & S & M). repeat split; auto; [eapply Permutation_in; [symmetry; exact Pm|]; apply in_or_app; now left|].
    intros (J' & _). apply in_split in J as (u & v & ->). rewrite <- app_assoc in NN. cbn [app] in NN. apply NoDup_remove_2 in NN. apply NN. rewrite !in_app_iff. auto.
Qed.
Print Assumptions C80_answers_gain_what_was_added.
(** So a count grows by as many. *)
Theorem C80_counts_grow : forall c ae x pe w d es d' st, shuffles (c_fields c) -> (forall l, Permutation (cl_order x l) l) ->
  (forall l, Permutation (c_schemas c l) l) -> (forall l, Permutation (c_files c l) l) -> faithful c pe -> follows_syntax (c_parse c) ->
  in_order c w d st -> life c ae x pe w d es d' ->
  exists st' es', in_order c w d' st' /\ Forall2 entity_as es es' /\
  forall y ho ho' s ops n n', orders ho -> orders ho' -> no_limit ops -> no_related ops ->
    M_Query.execute y (st_graph st) ho (S_Laws.ask s ops (Some (ACount None))) = M_Graph.Ok (QAgg (RCount n)) ->
    M_Query.execute y (st_graph st') ho' (S_Laws.ask s ops (Some (ACount None))) = M_Graph.Ok (QAgg (RCount n')) ->
    exists new, n' = n + length new /\ NoDup new /\ forall e, In e new <-> In e es' /\ selected s e /\ meets y ops e.
Proof.
  intros c ae x pe w d es d' st SH PO PS PC FA FS IO LF.
  destruct (C80_answers_gain_what_was_added c ae x pe w d es d' st SH PO PS PC FA FS IO LF) as (st' & es' & IO' & F & H). exists st', es'. split; [exact IO'|]. split; [exact F|].
  intros y ho ho' s ops n n' O O' NL NR A A'. apply L_Laws.execute_ok in A as (r & A & v & V & W), A' as (r' & A' & v' & V' & W').
  cbn in V, V'. injection V as <-. injection V' as <-. injection W as ->. injection W' as ->.
  destruct (H y ho ho' s ops r r' O O' NL NR A A') as (new & P & ND & N). exists new. split; [|auto]. rewrite (Permutation_length P), app_length. lia.
Qed.
Print Assumptions C80_counts_grow.
(** And a query that follows relationships loses nothing. *)
Theorem C80_nothing_is_lost : forall c ae x pe w d es d' st, shuffles (c_fields c) -> (forall l, Permutation (cl_order x l) l) ->
  (forall l, Permutation (c_schemas c l) l) -> (forall l, Permutation (c_files c l) l) -> faithful c pe -> follows_syntax (c_parse c) ->
  in_order c w d st -> life c ae x pe w d es d' ->
  exists st', in_order c w d' st' /\
  forall y ho ho' s ops r r', orders ho -> orders ho' -> no_limit ops ->
    answers y (st_graph st) ho s ops r -> answers y (st_graph st') ho' s ops r' -> incl r r'.
Proof.
  intros c ae x pe w d es d' st SH PO PS PC FA FS IO LF. destruct (C66_a_workspace_only_added_to_builds c ae x pe w d es d' st SH PO PS PC FA FS IO LF) as (st' & IO' & es' & F & _ & Pm & _).
  exists st'. split; [exact IO'|]. intros y ho ho' s ops r r' O O' NL A A'. destruct (in_order_built _ _ _ _ IO) as [B _], (in_order_built _ _ _ _ IO') as [B' N'].
  apply (answers_more y _ _ _ _ B B') with (ho := ho) (ho' := ho') (s := s) (ops := ops); auto.
  intros e J. eapply Permutation_in; [symmetry; exact Pm|]. apply in_or_app. now right.
Qed.
Print Assumptions C80_nothing_is_lost.
(** With a limit an entity may be pushed out by a new one. *)
Theorem C80_limit_refuted : exists y a b ops, let g es := build (run [OAddMany es]) in
  answers y (g [a]) ex_ho SAll ops [a] /\ answers y (g [a; b]) ex_ho SAll ops [b].
Proof.
  exists ex_ext, (ex_item (L "b") []), (ex_item (L "a") []), [QOrder (FMeta MId) Ascending; QLimit 1]. split; vm_compute; reflexivity.
Qed.
Print Assumptions C80_limit_refuted.

(** The workspace of [C66_case]: before, it is empty; afterwards Jo and Ann are
    answered. *)
Example C80_case : exists d' st', life c9 ae0 x9 pe6 w0 d10 [jo; ann] d' /\ in_order c9 w0 d' st' /\ answers ex_ext (st_graph st10) ex_ho SAll [] [] /\
  exists r', answers ex_ext (st_graph st') ex_ho SAll [] r' /\ In jo r' /\ In ann r'.
Proof.
  destruct C66_case as (d' & st' & LF & IO' & J & A). exists d', st'. split; [exact LF|]. split; [exact IO'|]. split; [vm_compute; reflexivity|].
  destruct (in_order_built _ _ _ _ IO') as [B' _].
  assert (M : forall id e, get_entity (st_graph st') id = Some e -> In e (b_entities (st_build st'))).
  { intros id e G. destruct B' as [Inv _]. rewrite (get_entity_lookup _ _ _ Inv) in G. apply lookup_some in G. tauto. }
  eexists. assert (A' : answers ex_ext (st_graph st') ex_ho SAll [] (flat_map (M_Graph.list_by_type (st_graph st')) (ex_ho [0] (type_keys (st_graph st'))))) by reflexivity.
  destruct (answers_in ex_ext _ _ B' ex_ho ex_ho_ok SAll [] _ ltac:(intros k []) ltac:(intros k t []) A') as [_ E].
  split; [exact A'|]. split; apply E; (split; [eapply M; eassumption|]); (split; [exact I|intros c []]).
Qed.
