(** Processes that are killed: C74. *)
From Coq Require Import Lia.
From Verif Require Import S_Graph L_Graph.
From Verif Require Import S_Kill L_Str L_Fs L_Server L_History L_Add L_Save L_Cli L_Prompt2 L_Conc L_Kill P_Graph P_Dsl P_Schema P_Workspace P_Server P_Add P_Save P_Cli P_Conc.
From Verif Require Import M_Fs.
Close Scope Z_scope.

(** ** C74 *)
(** The file systems a step goes through lead to the one it ends with. *)
Theorem C74_steps_go_through_to_their_end : forall c ae d st ph d' st' ph', advance c ae d st ph = (d', st', ph') -> within_step c ae d st ph d'.
Proof. exact step_through. Qed.
Print Assumptions C74_steps_go_through_to_their_end.
(** Edits of different files, in any order of their steps, and the server is
    killed at any time: each of the files is what it was, what the edit makes of
    it, or the beginning of one of the two texts. Nothing else has changed but
    for new directories. *)
Theorem C74_killed_edits : forall c ae w d st ks d', ordinary c w d -> Forall plain_edit ks -> different_files w ks -> killed c ae d st ks d' ->
  (forall i k rel, nth_error ks i = Some k -> edits k rel -> left_by k (node_at d (names w rel)) (node_at d' (names w rel))) /\
  (forall p, (forall k rel, In k ks -> edits k rel -> p <> names w rel) -> node_at d' p = node_at d p \/ (node_at d p = None /\ node_at d' p = Some Dir)).
Proof. exact killed_edits. Qed.
Print Assumptions C74_killed_edits.
(** Additions do not lose anything: whatever paths and links there are, and
    however often the server is killed while it handles any number of them, every
    file still begins with the text it had. *)
Theorem C74_additions_lose_nothing : forall c ae d w d', runs_in c d w -> lives c ae d d' -> grown d d'.
Proof. intros c ae d w d' (S & SL & _) H. exact (proj1 (lives_grown c ae d d' SL H S)). Qed.
Print Assumptions C74_additions_lose_nothing.
(** What one addition leaves: new directories at most, or the block of the entity
    that was asked for, or the beginning of it, at the end of one file. *)
Theorem C74_killed_addition : forall c ae d w st a d', runs_in c d w -> shuffles (c_fields c) -> killed c ae d st [AddTask a] d' ->
  only_dirs_added d d' \/
  exists e q old, asked c ae st a e /\ added_part d q old (ended old ++ generate_dsl (c_env c) default_options [e]) d'.
Proof.
  intros c ae d w st a d' (S & SL & _) SH (sched & H). cbn zeta in H. pose proof (target_slashless c a SL) as ST.
  assert (St : forall d1, within_step c ae d st (Start (AddTask a)) d1 -> only_dirs_added d d1 \/
    exists e q old, asked c ae st a e /\ added_part d q old (ended old ++ generate_dsl (c_env c) default_options [e]) d1).
  { intros d1 [->|(e & E & B)]; [left; apply dirs_refl|]. destruct (in_append_part c d _ _ d1 S ST B) as [_ [X|(q & old & X)]]; [auto|]. right. exists e, q, old. split; [|exact X]. now apply to_add_asked. }
  assert (R : (runs c ae (begin d st [AddTask a]) sched = begin d st [AddTask a]) \/
    (exists ph, sy_phases (runs c ae (begin d st [AddTask a]) sched) = [ph] /\ (ph = Added \/ exists x, ph = Ended x)) /\
    within_step c ae d st (Start (AddTask a)) (sy_disk (runs c ae (begin d st [AddTask a]) sched))).
  { clear H. induction sched as [|i sched IH] using rev_ind; [auto|]. rewrite runs_snoc. destruct IH as [->|((ph & P & K) & B)].
    - unfold turn, begin. cbn [map sy_phases sy_disk sy_state]. destruct i as [|i]; [|destruct i; cbn [nth_error]; auto]. cbn [nth_error].
      destruct (advance c ae d st (Start (AddTask a))) as [[d1 st1] ph1] eqn:A. pose proof (step_through _ _ _ _ _ _ _ _ A) as B. right. split; [|exact B]. exists ph1. split; [reflexivity|].
      cbn [advance] in A. destruct (entity_to_add c ae st a); [|injection A as _ _ <-; eauto]. destruct (append_block _ _ _ _) as [d2 []]; injection A as _ _ <-; eauto.
    - right. unfold turn. rewrite P. destruct i as [|i]; [|destruct i; cbn [nth_error]; split; eauto]. cbn [nth_error].
      destruct K as [->|(y & ->)]; cbn [advance]; [unfold building; destruct (rebuild c _)|]; cbn [sy_phases sy_disk put]; split; eauto. }
  destruct R as [R|((ph & P & K) & B)].
  - rewrite R in H. destruct H as [->|(i & ph & N & H)]; [left; apply dirs_refl|]. destruct i as [|[|i]]; cbn in N; try discriminate. injection N as <-. auto.
  - destruct H as [->|(i & ph' & N & H)]; [auto|]. rewrite P in N. destruct i as [|[|i]]; cbn [nth_error] in N; try discriminate. injection N as <-.
    destruct H as [->|H]; [auto|]. destruct K as [->|(y & ->)]; destruct H.
Qed.
Print Assumptions C74_killed_addition.
(** [firm add], with flags and by questions, killed at any time: the sources and
    all other files but the two of the saved graph begin with the text they had,
    and what follows is the beginning of the new block. *)
Theorem C74_killed_add_command : forall c x cached d w a d', runs_in c d w -> no_links_in w d -> no_graph_dirs d w -> in_run_add c x cached d a d' ->
  exists d1, (forall p, ~ saved_graph w p -> node_at d1 p = node_at d p) /\
    (d' = d1 \/ only_dirs_added d1 d' \/ exists e q old, added_part d1 q old (old ++ generate_dsl (c_env c) default_options [e]) d' /\ e_type e = x_type a).
Proof.
  intros c x cached d w a d' RI NL ND H. assert (W : workable c w d) by (split; auto). destruct H as [H|(d1 & g & fb & e & P & _ & _ & E & B)].
  - destruct (in_prepare_rest c x d w cached d' W H) as [_ R]. exists d'. split; [|auto]. intros p N. apply (rest_kept w d d' R); intros ->; apply N; [now left|now right].
  - destruct (prepare_spec c x d w cached d1 _ W P) as (W1 & R & _). exists d1. split; [intros p N; apply (rest_kept w d d1 R); intros ->; apply N; [now left|now right]|].
    right. pose proof W1 as ((S1 & SL & _) & _). destruct (in_dsl_part c d1 _ _ d' S1 (dsl_slashless c _ _ SL) B) as [_ [X|(q & old & X)]]; [auto|]. right. exists e, q, old. split; [exact X|].
    unfold cli_entity in E. destruct (find _ (b_schemas (snd fb))) as [s|] eqn:F; [|discriminate]. apply find_some in F as [_ F]. apply str_eqb_eq in F. rewrite <- F.
    destruct (get_entity g _); [discriminate|]. destruct (omap _ (x_fields a)); cbn [obind] in E; try discriminate. destruct (omap _ (cl_order x _)); cbn [obind] in E; try discriminate.
    destruct (validate _ _ _); [|discriminate]. injection E as <-. reflexivity.
Qed.
Print Assumptions C74_killed_add_command.
Theorem C74_killed_prompts : forall c x pe cached d w file acts d', runs_in c d w -> no_links_in w d -> no_graph_dirs d w -> in_run_interactive c x pe cached d file acts d' ->
  exists d1, (forall p, ~ saved_graph w p -> node_at d1 p = node_at d p) /\
    (d' = d1 \/ only_dirs_added d1 d' \/ exists e q old, added_part d1 q old (old ++ generate_dsl (c_env c) default_options [e]) d').
Proof.
  intros c x pe cached d w file acts d' RI NL ND H. assert (W : workable c w d) by (split; auto). destruct H as [H|(d1 & g & fb & p & e & rest & P & _ & _ & E & B)].
  - destruct (in_prepare_rest c x d w cached d' W H) as [_ R]. exists d'. split; [|auto]. intros q N. apply (rest_kept w d d' R); intros ->; apply N; [now left|now right].
  - destruct (prepare_spec c x d w cached d1 _ W P) as (W1 & R & _). exists d1. split; [intros q N; apply (rest_kept w d d1 R); intros ->; apply N; [now left|now right]|].
    right. pose proof W1 as ((S1 & SL & _) & _). apply prompt_target in E. subst p. destruct (in_dsl_part c d1 _ _ d' S1 (dsl_slashless c _ _ SL) B) as [_ [X|(q & old & X)]]; eauto 6.
Qed.
Print Assumptions C74_killed_prompts.
(** These are the file systems the commands go through: they lead to the end. *)
Theorem C74_commands_go_through_to_their_end : forall c x pe cached d,
  (forall a, in_run_add c x cached d a (fst (run_add c x cached d a))) /\
  (forall file acts, in_run_interactive c x pe cached d file acts (fst (run_interactive c x pe cached d file acts))).
Proof.
  intros c x pe cached d. destruct (prepare c x d cached) as [d1 u] eqn:P.
  assert (IP : in_prepare c x d cached d1).
  { pose proof P as P'. unfold prepare in P'. destruct cached; [injection P' as <- _; now left|]. destruct (rebuild c d) eqn:B; try (right; split; [reflexivity|]; exists Finished; destruct (build_and_save _ c d Finished) as [d2 []]; injection P' as <- _; reflexivity).
    injection P' as <- _. now left. }
  assert (WD : forall d1 p dsl d2 b, write_dsl c d1 p dsl = (d2, b) -> d2 = d1 \/ in_write_dsl c d1 p dsl d2).
  { clear. intros d p dsl d' ok H. unfold write_dsl in H. fold (made_above (c_links c) d p) in H. unfold in_write_dsl. destruct (made_above (c_links c) d p) as [d1 b] eqn:M.
    assert (X : d' = d1 -> d' = d \/ making_above (c_links c) d p d') by (intros ->; destruct (above_made _ _ _ _ _ M) as [->|I]; auto).
    destruct b; [|injection H as <- _; destruct X; auto]. destruct (append_to (c_links c) d1 p dsl) as [d2|] eqn:A; injection H as <- _; [|destruct X; auto].
    right. right. exists d1. split; [reflexivity|]. exists (length dsl). rewrite firstn_whole. exact A. }
  split; [intros a|intros file acts].
  - unfold run_add. rewrite P. destruct u as [[]| |]; cbn [fst]; [|now left|now left]. unfold add_command. destruct (load_current_graph (cl_json x) c d1) as [g|] eqn:LG; [|now left].
    destruct (workspace_build c d1) as [[fs b]|er|] eqn:B; [|now left|now left]. destruct (cli_entity c x d1 g (b_schemas b) a) as [e|er|] eqn:E; [|now left|now left].
    destruct (write_dsl c d1 _ _) as [d2 ok] eqn:Wd. assert (E2 : fst (if ok then (d2, Succeeded e) else (d2, Failed)) = d2) by (destruct ok; reflexivity). rewrite E2.
    destruct (WD _ _ _ _ _ Wd) as [->|I]; [now left|]. right. exists d1, g, (fs, b), e. auto 6.
  - unfold run_interactive. rewrite P. destruct u as [[]| |]; cbn [fst]; [|now left|now left]. unfold add_interactive. destruct (load_current_graph (cl_json x) c d1) as [g|] eqn:LG; [|now left].
    destruct (workspace_build c d1) as [[fs b]|er|] eqn:B; [|now left|now left]. destruct (entity_prompt c pe g (b_schemas b) file acts) as [[p e] rest|rest|] eqn:E; [|now left|now left].
    destruct (write_dsl c d1 p _) as [d2 ok] eqn:Wd. assert (E2 : fst (if ok then (d2, Succeeded e) else (d2, Failed)) = d2) by (destruct ok; reflexivity). rewrite E2.
    destruct (WD _ _ _ _ _ Wd) as [->|I]; [now left|]. right. exists d1, g, (fs, b), p, e, rest. auto 7.
Qed.
Print Assumptions C74_commands_go_through_to_their_end.

(** Examples. *)
Definition parse15 (s : str) : option parsed :=
  match s with [] => Some {| ps_error := false; ps_schemas := []; ps_entities := [] |} | _ => parse0 s end.
Definition c15 : ctx :=
  {| c_ws := path_of (L "/w"); c_links := 40; c_parse := parse15; c_env := env0; c_fields := fid; c_schemas := sid; c_files := fun l => l |}.
Lemma d0_ordinary15 : ordinary c15 w0 d0. Proof. exact d0_ordinary. Qed.
(** An edit is not all or nothing: the old text is gone and the new one is not
    there, and the workspace builds without the entities of either. *)
Theorem C74_edit_is_all_or_nothing_refuted : exists c ae d w st rel content d' st', ordinary c w d /\ plain_edit (Edit (Write rel content false)) /\ rebuild c d = Ok st /\
  snd (handle c d st (Write rel content false)) = Accepted /\ killed c ae d st [Edit (Write rel content false)] d' /\
  node_at d (names w rel) = Some (File (L "john")) /\ node_at d' (names w rel) = Some (File []) /\ rebuild c d' = Ok st' /\
  get_entity (st_graph st) (L "person.john") <> None /\ get_entity (st_graph st') (L "person.john") = None /\ get_entity (st_graph st') (L "person.jane") = None.
Proof.
  exists c15, ae0, d0, w0, st0, (L "a.firm"), (L "jane"), (set_node d0 [L "w"; L "a.firm"] (File [])). eexists. split; [exact d0_ordinary15|]. split; [split; [split; reflexivity|reflexivity]|].
  split; [vm_compute; reflexivity|]. split; [vm_compute; reflexivity|]. split.
  { exists []. right. exists 0, (Start (Edit (Write (L "a.firm") (L "jane") false))). split; [reflexivity|]. right. eexists. split; [vm_compute; reflexivity|]. split; [reflexivity|].
    split; [vm_compute; reflexivity|]. eexists. split; [vm_compute; reflexivity|]. right. eexists. split; [vm_compute; reflexivity|]. exists 0. vm_compute. reflexivity. }
  split; [reflexivity|]. split; [vm_compute; reflexivity|]. split; [vm_compute; reflexivity|]. split; [vm_compute; discriminate|]. split; vm_compute; reflexivity.
Qed.
Print Assumptions C74_edit_is_all_or_nothing_refuted.
(** An edit that is rejected is not undone if the server is killed before that,
    and the workspace does not build; if it is killed while the edit is being
    undone, the old text may be lost. *)
Theorem C74_rejected_edit_is_undone_refuted : exists c ae d w st rel content d1 d2, ordinary c w d /\ plain_edit (Edit (Write rel content false)) /\ rebuild c d = Ok st /\
  handle c d st (Write rel content false) = (d, st, Invalid true) /\ killed c ae d st [Edit (Write rel content false)] d1 /\ killed c ae d st [Edit (Write rel content false)] d2 /\
  (forall st', rebuild c d1 <> Ok st') /\ node_at d (names w rel) = Some (File (L "john")) /\ node_at d2 (names w rel) = Some (File []).
Proof.
  exists c15, ae0, d0, w0, st0, (L "a.firm"), (L "unknown type"), (set_node d0 [L "w"; L "a.firm"] (File (L "unknown type"))), (set_node d0 [L "w"; L "a.firm"] (File [])).
  split; [exact d0_ordinary15|]. split; [split; [split; reflexivity|reflexivity]|]. split; [vm_compute; reflexivity|]. split; [vm_compute; reflexivity|].
  split; [exists [0]; left; vm_compute; reflexivity|]. split.
  { exists [0; 0]. right. exists 0, (UndoWrite (L "a.firm") (Some (L "john"))). split; [vm_compute; reflexivity|]. right. exists 0. vm_compute. reflexivity. }
  split; [intros st' H; vm_compute in H; discriminate|]. split; [reflexivity|vm_compute; reflexivity].
Qed.
Print Assumptions C74_rejected_edit_is_undone_refuted.
(** Nor is an addition: half a block may be left, at the end of a file or in a
    new one. *)
Theorem C74_addition_is_all_or_nothing_refuted : exists c ae d w st a d' t, runs_in c d w /\ rebuild c d = Ok st /\ snd (add_tool c ae d st a) = Accepted /\
  killed c ae d st [AddTask a] d' /\ node_at d' (w ++ [L "generated"; L "person.firm"]) = Some (File t) /\ t = L "person j".
Proof.
  exists c1, ae0, d2, w0, st2, add_jane. do 2 eexists. split; [exact d2_runs|]. split; [vm_compute; reflexivity|]. split; [vm_compute; reflexivity|]. split.
  { exists []. right. exists 0, (Start (AddTask add_jane)). split; [reflexivity|]. right. exists jane. split; [vm_compute; reflexivity|]. right. do 2 eexists. split; [vm_compute; reflexivity|].
    split; [vm_compute; reflexivity|]. exists 8. vm_compute. reflexivity. }
  split; [vm_compute; reflexivity|reflexivity].
Qed.
Print Assumptions C74_addition_is_all_or_nothing_refuted.
(** Two edits, one of them done and the other one broken off; two processes that
    are killed while they add the same entity; [firm add], killed in its last
    write. *)
Definition two_edits : list task := [Edit (Write (L "a.firm") (L "jane") false); Edit (Delete (L "b.firm") true)].
Lemma two_different : different_files w0 two_edits.
Proof.
  intros i j k k' rel rel' Ni Nj E E' NE (x & H). destruct i as [|[|[|i]]], j as [|[|[|j]]]; cbn in Ni, Nj; try congruence; injection Ni as <-; injection Nj as <-; cbn in E, E'; subst; vm_compute in H; discriminate.
Qed.
Definition half_jane : str := L "person jane {".
Example C74_case :
  (ordinary c15 w0 d0 /\ Forall plain_edit two_edits /\ different_files w0 two_edits /\
   exists d', killed c15 ae0 d0 st0 two_edits d' /\ node_at d' [L "w"; L "b.firm"] = None /\ node_at d' [L "w"; L "a.firm"] = Some (File (L "ja"))) /\
  (exists d', lives c1 ae0 d2 d' /\ node_at d' [L "w"; L "generated"; L "person.firm"] = Some (File (half_jane ++ [LF] ++ half_jane))) /\
  (runs_in c1 d2_saved w0 /\ no_links_in w0 d2_saved /\ no_graph_dirs d2_saved w0 /\
   exists d', in_run_add c1 x1 false d2_saved flags_jane d' /\ node_at d' [L "w"; L "generated"; L "person.firm"] = Some (File half_jane)).
Proof.
  split; [|split].
  - split; [exact d0_ordinary15|]. split; [repeat constructor; reflexivity|]. split; [exact two_different|]. eexists. split.
    { exists [1]. right. exists 0, (Start (Edit (Write (L "a.firm") (L "jane") false))). split; [vm_compute; reflexivity|]. right. eexists. split; [vm_compute; reflexivity|]. split; [reflexivity|].
      split; [vm_compute; reflexivity|]. eexists. split; [vm_compute; reflexivity|]. right. eexists. split; [vm_compute; reflexivity|]. exists 2. vm_compute. reflexivity. }
    split; vm_compute; reflexivity.
  - eexists. split.
    { eapply (lives_next c1 ae0 d2 st2 [AddTask add_jane]); [repeat constructor| |].
      - exists []. right. exists 0, (Start (AddTask add_jane)). split; [reflexivity|]. right. exists jane. split; [vm_compute; reflexivity|]. right. do 2 eexists. split; [vm_compute; reflexivity|].
        split; [vm_compute; reflexivity|]. exists 13. vm_compute. reflexivity.
      - eapply (lives_next c1 ae0 _ st2 [Edit Build; AddTask add_jane]); [repeat constructor| |apply lives_none].
        exists []. right. exists 1, (Start (AddTask add_jane)). split; [reflexivity|]. right. exists jane. split; [vm_compute; reflexivity|]. right. do 2 eexists. split; [vm_compute; reflexivity|].
        split; [vm_compute; reflexivity|]. exists 14. vm_compute. reflexivity. }
    vm_compute. reflexivity.
  - split; [runs|]. split; [apply no_links_list; reflexivity|]. split; [split; vm_compute; discriminate|]. eexists. split.
    { right. do 4 eexists. split; [vm_compute; reflexivity|]. split; [vm_compute; reflexivity|]. split; [vm_compute; reflexivity|]. split; [vm_compute; reflexivity|]. right. eexists.
      split; [vm_compute; reflexivity|]. exists 13. vm_compute. reflexivity. }
    vm_compute. reflexivity.
Qed.
