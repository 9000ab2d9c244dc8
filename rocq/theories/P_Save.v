(** The saved graph: C42 interrupted saves, C56 saving leaves the workspace as it is. *)
From Coq Require Import Lia.
From Verif Require Import S_Graph L_Graph.
From Verif Require Import S_Save L_Str L_Fs L_Server L_Load L_Save P_Server.
Close Scope Z_scope.

(** ** C42 *)
Theorem C42_one_interruption : forall j c d w g0 g s d' ok,
  runs_in c d w -> no_links_in w d -> no_graph_dirs d w -> holds j c d (current_graph c) g0 ->
  save_graph j c d g s = (d', ok) -> recoverable j c d' g0.
Proof.
  intros j c d w g0 g s d' ok RI NL ND H E. assert (W : workable c w d) by (split; auto).
  assert (D' : d' = fst (save_graph j c d g s)) by (rewrite E; reflexivity). subst d'.
  pose proof (save_workable j c w d g s W) as W'. unfold recoverable. rewrite (current_holds j c w _ g0 W'), (backup_holds j c w _ g0 W').
  apply (current_holds j c w d g0 W) in H. rewrite (save_spec j c w d g s W). pose proof (aside_holds j c w d g0 W H) as B.
  destruct s; cbn [fst]; auto; destruct (to_json j g); cbn [fst]; auto; right; apply set_holds_other; auto using cp_root, cp_bp.
Qed.
Print Assumptions C42_one_interruption.
Theorem C42_reported_success : forall j c d w g0 g s d',
  runs_in c d w -> no_links_in w d -> no_graph_dirs d w -> load_current_graph j c d = Some g0 -> savable j g ->
  save_graph j c d g s = (d', true) -> s = Finished /\ load_current_graph j c d' = Some g /\ holds j c d' (backup_graph c) g0.
Proof.
  intros j c d w g0 g s d' RI NL ND H (t & J & T & O) E. assert (W : workable c w d) by (split; auto).
  pose proof (save_workable j c w d g s W) as W'. rewrite E in W'. cbn [fst] in W'. rewrite (load_holds j c w d' g W'), (backup_holds j c w d' g0 W').
  apply (load_holds j c w d g0 W) in H. pose proof (aside_holds j c w d g0 W H) as B. rewrite (save_spec j c w d g s W), J in E.
  destruct s; try discriminate. injection E as <-. split; [reflexivity|]. split; [apply set_holds; auto using cp_root|].
  apply set_holds_other; auto using cp_root, cp_bp.
Qed.
Print Assumptions C42_reported_success.
Theorem C42_careful_histories : forall j c d w g0 l g,
  runs_in c d w -> no_links_in w d -> no_graph_dirs d w -> holds j c d (current_graph c) g0 ->
  Forall (fun x => savable j (fst x)) l -> careful l -> last_finished g0 l g -> recoverable j c (saves j c d l) g.
Proof.
  intros j c d w g0 l g RI NL ND H F C LF. assert (W : workable c w d) by (split; auto). apply (current_holds j c w d g0 W) in H.
  destruct (saves_after j c w d g0 l W H F C) as (g1 & torn & LF1 & _ & A). rewrite (last_finished_fun g0 l g LF g1 LF1).
  pose proof (saves_workable j c w l d W) as W'. unfold recoverable. rewrite (current_holds j c w _ g1 W'), (backup_holds j c w _ g1 W').
  destruct A; auto.
Qed.
Print Assumptions C42_careful_histories.
Theorem C42_only_saved_graphs : forall j c d w l g,
  runs_in c d w -> no_links_in w d -> no_graph_dirs d w -> Forall (fun x => savable j (fst x) /\ no_partial_graph j (fst x)) l ->
  recoverable j c (saves j c d l) g -> recoverable j c d g \/ In g (map fst l).
Proof.
  intros j c d w l g RI NL ND F R. assert (W : workable c w d) by (split; auto). revert g R. induction l as [|[g1 s] l IH] using rev_ind; intros g R; [left; exact R|].
  apply Forall_app in F as [F1 F2]. inversion F2 as [|? ? [S N] _]; subst. cbn [fst] in S, N. specialize (IH F1).
  rewrite saves_snoc in R. pose proof (saves_workable j c w l d W) as Wl. pose proof (save_workable j c w _ g1 s Wl) as Wn.
  unfold recoverable in R. rewrite (current_holds j c w _ g Wn), (backup_holds j c w _ g Wn) in R. rewrite map_app, in_app_iff. cbn [map fst In].
  rewrite (save_spec j c w _ g1 s Wl) in R. destruct S as (t & J & T & O).
  assert (OLD : file_holds j (saves j c d l) (cp w) g \/ file_holds j (saves j c d l) (bp w) g -> recoverable j c d g \/ In g (map fst l)).
  { intros H. apply IH. unfold recoverable. rewrite (current_holds j c w _ g Wl), (backup_holds j c w _ g Wl). exact H. }
  assert (AS : file_holds j (aside w (saves j c d l)) (cp w) g \/ file_holds j (aside w (saves j c d l)) (bp w) g -> recoverable j c d g \/ In g (map fst l)).
  { intros [(x & E & _)|(x & E & R')]; [rewrite aside_current in E; discriminate|]. rewrite aside_backup in E.
    destruct (node_at (saves j c d l) (cp w)) eqn:Nd; [injection E as ->; apply OLD; left|apply OLD; right]; exists x; auto. }
  destruct s as [| |k|]; try rewrite J in R; cbn [fst] in R.
  - apply OLD in R. tauto.
  - apply AS in R. tauto.
  - destruct R as [R|R].
    + apply set_holds in R as [_ O']; [|apply cp_root]. destruct (firstn_prefix k t) as [E|(b & E & NB)].
      * rewrite E in O'. assert (g1 = g) by congruence. tauto.
      * rewrite (N t _ b J E NB) in O'. discriminate.
    + apply set_holds_other in R; [|apply cp_root|apply cp_bp]. destruct (AS (or_intror R)); tauto.
  - destruct R as [R|R].
    + apply set_holds in R as [_ O']; [|apply cp_root]. assert (g1 = g) by congruence. tauto.
    + apply set_holds_other in R; [|apply cp_root|apply cp_bp]. destruct (AS (or_intror R)); tauto.
Qed.
Print Assumptions C42_only_saved_graphs.
(** A second interruption loses every graph. *)
Theorem C42_second_interruption_refuted : forall j c d w g0 g1 g2 t k,
  runs_in c d w -> no_links_in w d -> no_graph_dirs d w -> holds j c d (current_graph c) g0 ->
  to_json j g1 = Some t -> k < length t -> no_partial_graph j g1 ->
  forall g, ~ recoverable j c (saves j c d [(g1, InWrite k); (g2, BeforeWrite)]) g.
Proof.
  intros j c d w g0 g1 g2 t k RI NL ND H J K NP g R. assert (W : workable c w d) by (split; auto).
  change (saves j c d [(g1, InWrite k); (g2, BeforeWrite)]) with (fst (save_graph j c (fst (save_graph j c d g1 (InWrite k))) g2 BeforeWrite)) in R.
  pose proof (save_workable j c w d g1 (InWrite k) W) as W1. pose proof (save_workable j c w _ g2 BeforeWrite W1) as W2.
  unfold recoverable in R. rewrite (current_holds j c w _ g W2), (backup_holds j c w _ g W2) in R. rewrite (save_spec j c w _ g2 _ W1) in R. cbn [fst] in R.
  destruct R as [(x & E & _)|(x & E & _ & O)]; [rewrite aside_current in E; discriminate|]. rewrite aside_backup in E.
  rewrite (save_spec j c w d g1 _ W), J in E. cbn [fst] in E. rewrite node_set_same in E by apply cp_root. injection E as <-.
  destruct (firstn_prefix k t) as [E|(b & E & NB)].
  - apply (f_equal (@length ascii)) in E. rewrite firstn_length in E. lia.
  - rewrite (NP t _ b J E NB) in O. discriminate.
Qed.
Print Assumptions C42_second_interruption_refuted.
(** After an interruption the graph is there, but it is not loaded. *)
Theorem C42_backup_is_not_loaded_refuted : forall j c d w g0 g,
  runs_in c d w -> no_links_in w d -> no_graph_dirs d w -> holds j c d (current_graph c) g0 ->
  let d' := fst (save_graph j c d g BeforeWrite) in recoverable j c d' g0 /\ load_current_graph j c d' = None.
Proof.
  intros j c d w g0 g RI NL ND H d'. split; [apply (C42_one_interruption j c d w g0 g BeforeWrite d' (snd (save_graph j c d g BeforeWrite))); auto; apply surjective_pairing|].
  assert (W : workable c w d) by (split; auto). destruct (load_current_graph j c d') as [x|] eqn:E; [|reflexivity]. exfalso.
  apply (load_holds j c w d' x (save_workable j c w d g BeforeWrite W)) in E as (t & E & _). unfold d' in E.
  rewrite (save_spec j c w d g _ W) in E. cbn [fst] in E. rewrite aside_current in E. discriminate.
Qed.
Print Assumptions C42_backup_is_not_loaded_refuted.

(** An example library that knows two graphs, and a workspace where one is saved. *)
Definition j0 : graph_json :=
  {| to_json g := Some (match g_nodes g with [] => L "{}" | _ => L "{1}" end);
     of_json t := if str_eqb t (L "{}") then Some graph_new else if str_eqb t (L "{1}") then Some (st_graph st0) else None |}.
Definition d_saved : fs := d0 ++ [([L "w"; current_name], File (L "{}"))].
Lemma d_saved_runs : runs_in c0 d_saved w0.
Proof. runs. Qed.
Lemma j0_savable g : g = graph_new \/ g = st_graph st0 -> savable j0 g.
Proof. intros [-> | ->]; eexists; (split; [vm_compute; reflexivity|]); split; vm_compute; reflexivity. Qed.
Lemma prefix_cases {A} (x y : A) a b : [x; y] = a ++ b -> b <> [] -> a = [] \/ a = [x].
Proof.
  destruct a as [|p [|q a]]; cbn [app]; intros E N; [auto|injection E as <- _; auto|]. injection E as _ _ E.
  destruct a; [destruct N; auto|discriminate].
Qed.
Lemma j0_whole : no_partial_graph j0 graph_new.
Proof. intros t a b E P N. injection E as <-. destruct (prefix_cases _ _ a b P N) as [-> | ->]; reflexivity. Qed.
Example C42_case :
  runs_in c0 d_saved w0 /\ no_links_in w0 d_saved /\ no_graph_dirs d_saved w0 /\ holds j0 c0 d_saved (current_graph c0) graph_new /\
  savable j0 (st_graph st0) /\ no_partial_graph j0 graph_new /\
  careful [(graph_new, BeforeWrite); (st_graph st0, InWrite 1); (graph_new, BeforeRename); (st_graph st0, Finished); (graph_new, InWrite 1)] /\
  load_current_graph j0 c0 (saves j0 c0 d_saved [(graph_new, BeforeWrite); (st_graph st0, InWrite 1); (st_graph st0, Finished)]) = Some (st_graph st0) /\
  load_current_graph j0 c0 (saves j0 c0 d_saved [(graph_new, InWrite 1); (graph_new, BeforeWrite)]) = None.
Proof.
  split; [exact d_saved_runs|]. split; [apply no_links_list; reflexivity|]. split; [split; discriminate|].
  split; [eexists; split; vm_compute; reflexivity|]. split; [apply j0_savable; auto|]. split; [exact j0_whole|]. split.
  - intros a g k mid g' s b E M. destruct a as [|x a]; cbn [app] in E; [discriminate|]. injection E as <- E.
    destruct a as [|x a]; cbn [app] in E; [injection E as <- <- E|injection E as <- E].
    + destruct mid as [|m mid]; cbn [app] in E; [injection E as _ <- _; auto|]. injection E as <- E.
      destruct mid as [|m mid]; cbn [app] in E; [injection E as _ <- _; auto|]. injection E as <- E.
      specialize (M (st_graph st0, Finished) (or_intror (or_introl eq_refl))). discriminate.
    + destruct a as [|x a]; cbn [app] in E; [discriminate|]. injection E as <- E. destruct a as [|x a]; cbn [app] in E; [discriminate|].
      injection E as <- E. destruct a as [|x a]; cbn [app] in E; injection E as E; [destruct mid|destruct a]; discriminate.
  - split; vm_compute; reflexivity.
Qed.

(** ** C56 *)
Theorem C56_saving_leaves_the_workspace : forall j c d w l, runs_in c d w -> no_links_in w d -> no_graph_dirs d w ->
  rebuild c (saves j c d l) = rebuild c d.
Proof.
  intros j c d w l RI NL ND. assert (W : workable c w d) by (split; auto).
  apply (rebuild_rest c w); auto using saves_workable. apply saves_rest, W.
Qed.
Print Assumptions C56_saving_leaves_the_workspace.
Theorem C56_nothing_else_changes : forall j c d w l p, runs_in c d w -> no_links_in w d -> no_graph_dirs d w ->
  p <> w ++ [L "current.firm.graph"] -> p <> w ++ [L "backup.firm.graph"] -> node_at (saves j c d l) p = node_at d p.
Proof.
  intros j c d w l p RI NL ND A B. assert (W : workable c w d) by (split; auto). apply (node_rest w); [apply saves_rest, W|].
  unfold kept_key. apply Bool.negb_true_iff, Bool.orb_false_iff. split; apply place_eqb_neq; assumption.
Qed.
Print Assumptions C56_nothing_else_changes.
Theorem C56_what_is_built_is_loaded : forall j c d w d', runs_in c d w -> no_links_in w d -> no_graph_dirs d w ->
  (forall st, rebuild c d = Ok st -> savable j (st_graph st)) -> build_and_save j c d Finished = (d', true) ->
  exists st, rebuild c d = Ok st /\ rebuild c d' = Ok st /\ load_current_graph j c d' = Some (st_graph st).
Proof.
  intros j c d w d' RI NL ND SV E. unfold build_and_save in E. destruct (rebuild c d) as [st|e|] eqn:RB; try discriminate.
  assert (W : workable c w d) by (split; auto). exists st. split; [reflexivity|]. destruct (SV st eq_refl) as (t & J & T & O).
  assert (D' : d' = saves j c d [(st_graph st, Finished)]) by (cbn [saves fold_left fst snd]; rewrite E; reflexivity).
  split; [rewrite D', (C56_saving_leaves_the_workspace j c d w _ RI NL ND); exact RB|].
  pose proof (save_workable j c w d (st_graph st) Finished W) as W'. rewrite E in W'. apply (load_holds j c w d' _ W').
  rewrite (save_spec j c w d _ _ W), J in E. injection E as <-. apply set_holds; auto using cp_root.
Qed.
Print Assumptions C56_what_is_built_is_loaded.
(** A build fails exactly when the workspace does, and changes nothing then. *)
Theorem C56_failed_build_changes_nothing : forall j c d w s d' ok, runs_in c d w -> no_links_in w d -> no_graph_dirs d w ->
  (forall st, rebuild c d <> Ok st) -> build_and_save j c d s = (d', ok) -> d' = d /\ ok = false.
Proof.
  intros j c d w s d' ok RI NL ND NB E. unfold build_and_save in E. destruct (rebuild c d) as [st|e|]; [destruct (NB st eq_refl)| |];
    injection E as <- <-; auto.
Qed.
Print Assumptions C56_failed_build_changes_nothing.
Example C56_case : exists d', build_and_save j0 c0 d_saved Finished = (d', true) /\ d' <> d_saved /\
  load_current_graph j0 c0 d' = Some (st_graph st0) /\ get_entity (st_graph st0) (L "person.john") <> None.
Proof. eexists. split; [vm_compute; reflexivity|]. split; [vm_compute; discriminate|]. split; [vm_compute; reflexivity|vm_compute; discriminate]. Qed.
(** A link in the workspace makes the saved graph a source. *)
Definition d_linked : fs := d0 ++ [([L "w"; L "c.firm"], Link current_name)].
Theorem C56_link_refuted : exists j c d w g, runs_in c d w /\ no_graph_dirs d w /\ (exists st, rebuild c d = Ok st) /\
  snd (save_graph j c d g Finished) = true /\ exists e, rebuild c (fst (save_graph j c d g Finished)) = Err e.
Proof.
  exists j0, c0, d_linked, w0, graph_new. split; [runs|]. split; [split; discriminate|]. split; [eexists; vm_compute; reflexivity|].
  split; [vm_compute; reflexivity|]. eexists. vm_compute. reflexivity.
Qed.
Print Assumptions C56_link_refuted.
