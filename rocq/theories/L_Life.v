(** Lemmas for C66. *)
From Coq Require Import Lia Permutation.
From Verif Require Import S_Graph L_Graph.
From Verif Require Import S_Life L_Str L_Schema L_Schema2 L_Ids L_Fs L_Server L_Load L_Workspace L_History L_Add L_Save L_Cli L_Grow L_Prompt L_Prompt2 L_Syntax5.
From Verif Require Import P_Add P_Cli P_Grow P_Prompt P_Syntax.
From Verif Require P_Graph.
From Verif Require Import M_Fs.
Close Scope Z_scope.

(** ** Additions that fail *)
Lemma write_failed c d p dsl d' : sound d -> slashless p -> write_dsl c d p dsl = (d', false) -> only_dirs_added d d' /\ sound d' /\ (tidy d -> tidy d').
Proof.
  intros SD SL H. unfold write_dsl in H.
  destruct (match parent p with Some x => create_dir_all (S (length x)) (c_links c) d x | None => (d, true) end) as [d1 b] eqn:CR.
  assert (X : only_dirs_added d d1 /\ sound d1 /\ (tidy d -> tidy d1)).
  { destruct (parent p) as [x|] eqn:P; [|injection CR as <- <-; auto using dirs_refl].
    assert (SX : slashless x) by (apply (slashless_sub p x SL); intros y Hy; eapply parent_in; eauto).
    destruct (create_dirs _ _ _ _ _ _ SD SX CR) as [A B]. split; [exact A|]. split; [exact B|]. intros T. eapply tidy_create; eauto. }
  destruct b; [|injection H as <-; exact X]. destruct (append_to _ _ _ _); [discriminate|]. injection H as <-. exact X.
Qed.
Lemma append_failed c d p dsl d' : sound d -> slashless p -> append_block c d p dsl = (d', false) -> only_dirs_added d d' /\ sound d' /\ (tidy d -> tidy d').
Proof.
  intros SD SL H. unfold append_block in H.
  destruct (match parent p with Some x => create_dir_all (S (length x)) (c_links c) d x | None => (d, true) end) as [d1 b] eqn:CR.
  assert (X : only_dirs_added d d1 /\ sound d1 /\ (tidy d -> tidy d1)).
  { destruct (parent p) as [x|] eqn:P; [|injection CR as <- <-; auto using dirs_refl].
    assert (SX : slashless x) by (apply (slashless_sub p x SL); intros y Hy; eapply parent_in; eauto).
    destruct (create_dirs _ _ _ _ _ _ SD SX CR) as [A B]. split; [exact A|]. split; [exact B|]. intros T. eapply tidy_create; eauto. }
  destruct b; [|injection H as <-; exact X].
  repeat match type of H with context [match ?t with _ => _ end] => destruct t end; try discriminate; injection H as <-; exact X.
Qed.
(** A failed run leaves [d'] like [d], but for the graph files and directories. *)
Definition harmless (c : ctx) (w : place) (d d' : fs) : Prop :=
  exists d1, workable c w d1 /\ rest_of w d1 = rest_of w d /\ (tidy d -> tidy d1) /\ only_dirs_added d1 d' /\ sound d' /\ (tidy d1 -> tidy d').
Lemma prepared_harmless c x d w cached d1 r : workable c w d -> prepare c x d cached = (d1, r) -> harmless c w d d1.
Proof.
  intros W P. destruct (prepare_spec c x d w cached d1 r W P) as (W1 & R & T). exists d1. repeat (split; [assumption|]). split; [apply dirs_refl|]. split; [apply W1|auto].
Qed.
Lemma flags_harmless c x cached d w a d' r : workable c w d -> run_add c x cached d a = (d', r) -> (forall e, r <> Succeeded e) -> harmless c w d d'.
Proof.
  intros W H NS. unfold run_add in H. destruct (prepare c x d cached) as [d1 u] eqn:P. pose proof (prepared_harmless _ _ _ _ _ _ _ W P) as PH.
  destruct (prepare_spec c x d w cached d1 u W P) as (W1 & R & T). destruct u; try (injection H as <- _; exact PH). unfold add_command in H.
  destruct (load_current_graph _ c d1); [|injection H as <- _; exact PH].
  destruct (workspace_build c d1) as [[fs b]|er|]; try (injection H as <- _; exact PH).
  destruct (cli_entity _ _ _ _ _ _) as [e|er|]; try (injection H as <- _; exact PH).
  destruct (write_dsl _ _ _ _) as [d2 []] eqn:WD; [destruct (NS e); congruence|]. injection H as <- _.
  pose proof W1 as ((S1 & SW & _) & _). destruct (write_failed c d1 _ _ d2 S1 (dsl_slashless c _ _ SW) WD) as (A & B & C). exists d1. auto 10.
Qed.
Lemma prompts_harmless c x pe cached d w file acts d' r : workable c w d -> run_interactive c x pe cached d file acts = (d', r) -> (forall e, r <> Succeeded e) -> harmless c w d d'.
Proof.
  intros W H NS. unfold run_interactive in H. destruct (prepare c x d cached) as [d1 u] eqn:P. pose proof (prepared_harmless _ _ _ _ _ _ _ W P) as PH.
  destruct (prepare_spec c x d w cached d1 u W P) as (W1 & R & T). destruct u; try (injection H as <- _; exact PH). unfold add_interactive in H.
  destruct (load_current_graph _ c d1); [|injection H as <- _; exact PH].
  destruct (workspace_build c d1) as [[fs b]|er|]; try (injection H as <- _; exact PH).
  destruct (entity_prompt _ _ _ _ _ _) as [[p e] rest|rest|] eqn:EP; try (injection H as <- _; exact PH).
  destruct (write_dsl c d1 p _) as [d2 []] eqn:WD; [destruct (NS e); congruence|]. injection H as <- _. apply prompt_target in EP. subst p.
  pose proof W1 as ((S1 & SW & _) & _). destruct (write_failed c d1 _ _ d2 S1 (dsl_slashless c _ _ SW) WD) as (A & B & C). exists d1. auto 10.
Qed.
Lemma read_harmless c x cached d w q d' r : workable c w d -> run_read c x cached d q = (d', r) -> harmless c w d d'.
Proof.
  intros W H. unfold run_read in H. destruct (prepare c x d _) as [d1 u] eqn:P. pose proof (prepared_harmless _ _ _ _ _ _ _ W P) as PH.
  destruct u; injection H as <- _; exact PH.
Qed.
Lemma build_harmless j c d w s d' b : workable c w d -> build_and_save j c d s = (d', b) -> harmless c w d d'.
Proof.
  intros W H. unfold build_and_save in H. destruct (rebuild c d) as [st|e|].
  - assert (E : d' = fst (save_graph j c d (st_graph st) s)) by (rewrite H; reflexivity). subst d'. pose proof (save_workable j c w d (st_graph st) s W) as W1.
    exists (fst (save_graph j c d (st_graph st) s)). split; [exact W1|]. split; [now apply save_rest|]. split; [now apply save_tidy with (w := w)|]. split; [apply dirs_refl|]. split; [apply W1|auto].
  - injection H as <- _. exists d. split; [exact W|]. split; [reflexivity|]. split; [auto|]. split; [apply dirs_refl|]. split; [apply W|auto].
  - injection H as <- _. exists d. split; [exact W|]. split; [reflexivity|]. split; [auto|]. split; [apply dirs_refl|]. split; [apply W|auto].
Qed.
Lemma refused_harmless c ae d w st a d' st' : shuffles (c_fields c) -> workable c w d -> add_tool c ae d st a = (d', st', Refused) -> harmless c w d d'.
Proof.
  intros SH W H. exists d. split; [exact W|]. split; [reflexivity|]. split; [auto|]. pose proof W as ((SD & SW & _) & _). unfold add_tool in H.
  destruct (entity_to_add c ae st a) as [e|]; [|injection H as <- _; split; [apply dirs_refl|auto]].
  destruct (append_block c d (target_of c a) _) as [d1 ok] eqn:A. destruct ok.
  - destruct (rebuild c d1); discriminate.
  - injection H as <- _. exact (append_failed c d _ _ d1 SD (target_slashless c a SW) A).
Qed.

(** ** The same sources *)
Lemma source_dirs w d d' r s : only_dirs_added d d' -> (source_of w d' r s <-> source_of w d r s).
Proof.
  intros X. unfold source_of. destruct (X (w ++ r)) as [->|[A B]]; [reflexivity|]. rewrite A, B. split; intros [E _]; discriminate.
Qed.
Lemma same_load c w d d' fs : runs_in c d w -> no_links_in w d -> tidy d -> runs_in c d' w -> no_links_in w d' -> tidy d' ->
  (forall r s, source_of w d' r s <-> source_of w d r s) -> load_directory c d = Ok fs -> exists fs', load_directory c d' = Ok fs' /\ Permutation fs fs'.
Proof.
  intros RI NL TD RI' NL' TD' SS LD. destruct (load_directory_spec c d w fs RI NL TD LD) as (N & I & P).
  destruct (load_directory_success c d' w RI' NL') as (fs' & LD').
  { intros r s S. apply (P r s), SS, S. }
  exists fs'. split; [exact LD'|]. destruct (load_directory_spec c d' w fs' RI' NL' TD' LD') as (N' & I' & _).
  apply NoDup_Permutation; [apply nodup_keys, N|apply nodup_keys, N'|]. intros e. rewrite I, I'.
  split; intros (r & s & ps & S & Q & E); exists r, s, ps; (split; [now apply SS|auto]).
Qed.
Lemma rebuild_lookup c d st : rebuild c d = Ok st -> NoDup (map e_id (b_entities (st_build st))) /\
  forall id, get_entity (st_graph st) id = lookup (b_entities (st_build st)) id.
Proof.
  intros B. destruct (rebuild_files c d st B) as (fs & _ & _ & LG). apply load_ok in LG as (_ & ND & Eg). split; [exact ND|].
  intros id. rewrite Eg, (proj1 (P_Graph.C05_lookup_and_results _)), (load_spec _ ND). reflexivity.
Qed.
Lemma consistent_perm env fs fs' ss es : consistent env fs ss es -> Permutation (schema_blocks fs) (schema_blocks fs') -> Permutation (entity_blocks fs) (entity_blocks fs') ->
  exists ss' es', consistent env fs' ss' es' /\ Permutation ss ss' /\ Permutation es es'.
Proof.
  intros (F1 & F2 & N & C) P1 P2. destruct (Forall2_perm _ _ _ P1 _ F1) as (ss' & Q1 & F1'). destruct (Forall2_perm (reads_entity env) _ _ P2 es F2) as (es' & Q2 & F2').
  exists ss', es'. split; [|auto]. split; [exact F1'|]. split; [exact F2'|]. split.
  - eapply Permutation_NoDup; [apply Permutation_map; exact Q1|exact N].
  - intros e' He. apply (Permutation_in _ (Permutation_sym Q2)) in He. destruct (C e' He) as (s' & I' & H). exists s'. split; [exact (Permutation_in s' Q1 I')|exact H].
Qed.
Lemma same_rebuild c w d d' st : shuffles (c_fields c) -> (forall l, Permutation (c_schemas c l) l) -> (forall l, Permutation (c_files c l) l) ->
  runs_in c d w -> no_links_in w d -> tidy d -> runs_in c d' w -> no_links_in w d' -> tidy d' ->
  (forall r s, source_of w d' r s <-> source_of w d r s) -> rebuild c d = Ok st ->
  exists st', rebuild c d' = Ok st' /\ Permutation (b_schemas (st_build st')) (b_schemas (st_build st)) /\ Permutation (b_entities (st_build st')) (b_entities (st_build st)).
Proof.
  intros SH PS PC RI NL TD RI' NL' TD' SS B. destruct (rebuild_files c d st B) as (fs & LD & Ef & LG). destruct (same_load c w d d' fs RI NL TD RI' NL' TD' SS LD) as (fs' & LD' & PF).
  apply load_ok in LG as (BW & ND & Eg). apply (build_ok _ _ _ _ _ SH) in BW as (ss & Cn & Es).
  assert (F : Permutation (st_files st) (c_files c fs')) by (rewrite Ef, (PC fs), PF; apply Permutation_sym, PC).
  destruct (consistent_perm _ _ _ _ _ Cn (perm_flat_map _ _ _ F) (perm_flat_map _ _ _ F)) as (ss' & es' & Cn' & Q1 & Q2).
  assert (ND2 : NoDup (map e_id es')) by (eapply Permutation_NoDup; [apply Permutation_map; exact Q2|exact ND]).
  pose (b' := {| b_entities := es'; b_schemas := c_schemas c ss' |}).
  assert (LG' : load_graph (c_env c) (c_fields c) (c_schemas c) (c_files c fs') = Ok (b', run [OAddMany es'; OBuild])).
  { apply load_ok. split; [|auto]. apply (build_ok _ _ _ _ _ SH). exists ss'. auto. }
  exists {| st_files := c_files c fs'; st_build := b'; st_graph := run [OAddMany es'; OBuild] |}. split.
  - unfold rebuild. rewrite LD'. cbn [omap_err obind]. rewrite LG'. reflexivity.
  - split; [cbn [st_build b_schemas b']; rewrite Es, (PS ss'), (PS ss); apply Permutation_sym, Q1|cbn [st_build b_entities b']; apply Permutation_sym, Q2].
Qed.
Lemma harmless_kept c w d d' st : shuffles (c_fields c) -> (forall l, Permutation (c_schemas c l) l) -> (forall l, Permutation (c_files c l) l) ->
  in_order c w d st -> harmless c w d d' -> no_graph_dirs d' w ->
  exists st', in_order c w d' st' /\ Permutation (b_schemas (st_build st')) (b_schemas (st_build st)) /\ Permutation (b_entities (st_build st')) (b_entities (st_build st)).
Proof.
  intros SH PS PC (RI & NL & ND & TD & D & DE & B) (d1 & W1 & R & T1 & X & SD & T2) ND'. assert (W : workable c w d) by (split; auto). pose proof W1 as (RI1 & NL1 & _).
  pose proof (runs_dirs c d1 d' w RI1 X SD) as RI'.
  assert (NL' : no_links_in w d') by (intros p t I E; destruct (X p) as [Y|[_ Y]]; [exact (NL1 p t I (eq_trans (eq_sym Y) E))|congruence]).
  rewrite (rebuild_rest c w d d1 W W1 (eq_sym R)) in B.
  destruct (same_rebuild c w d1 d' st SH PS PC RI1 NL1 (T1 TD) RI' NL' (T2 (T1 TD)) (fun r s => source_dirs w d1 d' r s X) B) as (st' & B' & Q).
  assert (SS : forall r s, source_of w d' r s -> source_of w d r s) by (intros r s S; apply (same_sources w d d1 (rest_kept w d d1 R)); now apply (source_dirs w d1 d' r s X)).
  exists st'. split; [|exact Q]. split; [exact RI'|]. split; [exact NL'|]. split; [exact ND'|]. split; [auto|].
  split; [intros r s S; exact (D r s (SS r s S))|]. split; [intros r s S; exact (DE r s (SS r s S))|exact B'].
Qed.

(** ** One event *)
Lemma asked_unique c ae d st a e e' : shuffles (c_fields c) -> (forall l, Permutation (c_schemas c l) l) -> rebuild c d = Ok st -> asked c ae st a e -> asked c ae st a e' -> e = e'.
Proof.
  intros SH PS B A A'. destruct (served_schemas c d st SH PS B) as [ND WF]. apply (asked_to_add c ae st a e SH ND WF) in A. apply (asked_to_add c ae st a e' SH ND WF) in A'. congruence.
Qed.
Lemma tool_ended c ae d w st a d' st' x : shuffles (c_fields c) -> runs_in c d w -> no_links_in w d -> adds_to_source c a -> lines_ended w d ->
  add_tool c ae d st a = (d', st', x) -> x <> Refused -> lines_ended w d'.
Proof.
  intros SH RI NL (rp & n & T & F & FN) DE H NR. pose proof RI as (SD & SW & _). pose proof (target_slashless c a SW) as SL.
  destruct (add_effect c ae d st a d' st' x SH SD SL H) as [(-> & _)|(e & A & AB & _)]; [congruence|].
  destruct (added_is_source c d w _ rp n _ d' RI NL SL T F FN AB) as (r & old & O & SO & OC).
  apply (ended_step w d d' r _ DE OC SO). destruct (entity_ends (c_env c) default_options e) as [y ->]. exists (ended old ++ y). now rewrite app_assoc.
Qed.
Lemma event_kept c ae x pe w d es d' st : shuffles (c_fields c) -> (forall l, Permutation (cl_order x l) l) -> (forall l, Permutation (c_schemas c l) l) -> (forall l, Permutation (c_files c l) l) ->
  faithful c pe -> follows_syntax (c_parse c) -> in_order c w d st -> event c ae x pe w d es d' -> no_graph_dirs d' w ->
  exists st' es', in_order c w d' st' /\ Forall2 entity_as es es' /\ Permutation (b_schemas (st_build st')) (b_schemas (st_build st)) /\
    Permutation (b_entities (st_build st')) (es' ++ b_entities (st_build st)).
Proof.
  intros SH PO PS PC FA FS IO EV ND'. pose proof IO as (RI & NL & ND & TD & D & DE & B). assert (W : workable c w d) by (split; auto).
  assert (HARM : harmless c w d d' -> exists st' es', in_order c w d' st' /\ Forall2 entity_as [] es' /\ Permutation (b_schemas (st_build st')) (b_schemas (st_build st)) /\
    Permutation (b_entities (st_build st')) (es' ++ b_entities (st_build st))).
  { intros X. destruct (harmless_kept c w d d' st SH PS PC IO X ND') as (st' & IO' & Q1 & Q2). exists st', []. split; [exact IO'|]. split; [constructor|]. auto. }
  destruct EV as [st0 a d' st' res e B0 AS DT H NR A FI|st0 a d' st' B0 H|a d' e SV WB DT H [EX RD]|cached a d' r H NS|file acts d' e SV WB DT H EX WR|cached file acts d' r H NS|cached q d' r H|s d' b H].
  - assert (st0 = st) by congruence. subst st0.
    destruct (C65_added_entity_is_accepted c ae d w st a d' st' res SH PS PC RI NL TD B AS DT FS D H NR) as (-> & (e0 & e' & A0 & EA & G) & RI' & NL' & TD' & D').
    { intros e0 A0. rewrite (asked_unique c ae d st a e0 e SH PS B A0 A). exact FI. }
    rewrite (asked_unique c ae d st a e0 e SH PS B A0 A) in EA. exists st', [e'].
    split; [|split; [constructor; [exact EA|constructor]|split; apply G]].
    split; [exact RI'|]. split; [exact NL'|]. split; [exact ND'|]. split; [exact TD'|]. split; [exact D'|]. split; [exact (tool_ended c ae d w st a d' st' _ SH RI NL AS DE H NR)|].
    destruct (C44_block_is_appended c ae d w st a d' st' _ SH RI H NR) as (? & ? & ? & ? & _ & _ & _ & _ & _ & _ & Y). exact Y.
  - apply HARM. exact (refused_harmless c ae d w st0 a d' st' SH W H).
  - destruct (C65_adding_grows_the_workspace c x d w st a d' e SH PO PS PC RI NL ND TD B (SV st B) WB DT FS D DE H EX RD) as ((st' & e' & B' & EA & G) & D' & DE').
    exists st', [e']. split; [|split; [constructor; [exact EA|constructor]|split; apply G]].
    unfold run_add in H. destruct (prepare c x d false) as [d1 u] eqn:Pr. destruct (prepare_spec c x d w false d1 u W Pr) as ((RI1 & NL1 & _) & R & TD1).
    destruct u; try discriminate. destruct (add_command_made c x d1 a d' e SH PO H) as (g & fb & _ & _ & _ & _ & WD).
    pose proof RI1 as (S1 & SW & _). pose proof (dsl_slashless c (x_type a) (x_file a) SW) as SL. destruct (written_served c d1 w _ _ d' RI1 SL WD) as (RI' & NL' & TD').
    split; [exact RI'|]. split; [auto|]. split; [exact ND'|]. split; [auto|]. auto.
  - apply HARM. exact (flags_harmless c x cached d w a d' r W H NS).
  - destruct (SV st B) as [SV1 SM].
    destruct (C65_prompted_entity_grows_the_workspace c x pe d w st file acts d' e SH PS PC RI NL ND TD B SV1 SM FA FS D DE H WB DT EX WR) as ((st' & e' & B' & G & Ei & Et & F) & D' & DE').
    exists st', [e']. split; [|split; [constructor; [split; [exact Ei|]; split; [exact Et|exact F]|constructor]|split; apply G]].
    destruct (run_made c x pe false d w file acts d' e SH PS W H) as (d1 & g & fb & core & used & rest & Pr & (RI1 & NL1 & _) & R & TD1 & _ & _ & _ & _ & _ & WD).
    pose proof RI1 as (S1 & SW & _). pose proof (dsl_slashless c (e_type e) file SW) as SL. destruct (written_served c d1 w _ _ d' RI1 SL WD) as (RI' & NL' & TD').
    split; [exact RI'|]. split; [auto|]. split; [exact ND'|]. split; [auto|]. auto.
  - apply HARM. exact (prompts_harmless c x pe cached d w file acts d' r W H NS).
  - apply HARM. exact (read_harmless c x cached d w q d' r W H).
  - apply HARM. exact (build_harmless _ c d w s d' b W H).
Qed.
Lemma gains c d d' st st' es es' : rebuild c d = Ok st -> rebuild c d' = Ok st' -> Forall2 entity_as es es' -> Permutation (b_schemas (st_build st')) (b_schemas (st_build st)) ->
  Permutation (b_entities (st_build st')) (es' ++ b_entities (st_build st)) -> gained st st' es.
Proof.
  intros B B' F P1 P2. destruct (rebuild_lookup c d st B) as [N G], (rebuild_lookup c d' st' B') as [N' G']. exists es'. split; [exact F|]. split; [exact P1|]. split; [exact P2|]. split; [|split].
  - intros e I. rewrite G'. apply lookup_in; [exact N'|]. apply (Permutation_in _ (Permutation_sym P2)), in_or_app. now left.
  - intros id e E. rewrite G in E. rewrite G'. apply find_some in E as [I E]. apply str_eqb_eq in E. subst id. apply lookup_in; [exact N'|].
    apply (Permutation_in _ (Permutation_sym P2)), in_or_app. now right.
  - intros id e E. rewrite G' in E. apply find_some in E as [I E]. apply str_eqb_eq in E. subst id. apply (Permutation_in _ P2) in I. apply in_app_or in I as [I|I]; [now left|right].
    rewrite G. now apply lookup_in.
Qed.
Lemma life_kept c ae x pe w d es d' st : shuffles (c_fields c) -> (forall l, Permutation (cl_order x l) l) -> (forall l, Permutation (c_schemas c l) l) -> (forall l, Permutation (c_files c l) l) ->
  faithful c pe -> follows_syntax (c_parse c) -> in_order c w d st -> life c ae x pe w d es d' ->
  exists st' es', in_order c w d' st' /\ Forall2 entity_as es es' /\ Permutation (b_schemas (st_build st')) (b_schemas (st_build st)) /\
    Permutation (b_entities (st_build st')) (es' ++ b_entities (st_build st)).
Proof.
  intros SH PO PS PC FA FS IO LF. induction LF as [|es d1 es1 d2 LF (st1 & es' & IO1 & F & P1 & P2) EV ND].
  - exists st, []. split; [exact IO|]. split; [constructor|]. split; reflexivity.
  - destruct (event_kept c ae x pe w d1 es1 d2 st1 SH PO PS PC FA FS IO1 EV ND) as (st2 & es1' & IO2 & F2 & Q1 & Q2).
    exists st2, (es' ++ es1'). split; [exact IO2|]. split; [now apply Forall2_app|]. split; [now rewrite Q1|]. rewrite Q2, P2, app_assoc. apply Permutation_app_tail, Permutation_app_comm.
Qed.
