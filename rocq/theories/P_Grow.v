(** Adding entities keeps a workspace sound: C44 and C58, continued. *)
From Coq Require Import Lia.
From Verif Require Import S_Graph L_Graph.
From Verif Require Import S_Grow L_Ids L_Fs L_Server L_Load L_History L_DslVal L_Add L_Save L_Cli L_Grow L_Prompt2.
From Verif Require Import P_Dsl P_Schema P_Workspace P_Server P_Add P_Save P_Cli.
Close Scope Z_scope.

(** If the parser reads the block as it is written, and the values survive
    being written, then what the tool adds is accepted, and served along with
    all that was served before. *)
Theorem C44_added_entity_is_accepted : forall c ae d w st a d' st' x, shuffles (c_fields c) -> (forall l, Permutation (c_schemas c l) l) -> (forall l, Permutation (c_files c l) l) ->
  runs_in c d w -> no_links_in w d -> tidy d -> rebuild c d = Ok st -> adds_to_source c a -> ~ In "."%char (a_type a) ->
  add_tool c ae d st a = (d', st', x) -> x <> Refused ->
  (forall e r old before, let text := before ++ generate_dsl (c_env c) default_options [e] in
     asked c ae st a e -> on_new_line old before -> became w d d' r old text ->
     adds_node c old text (written_entity (c_env c) default_options e) /\
     readable_at c r e) ->
  x = Accepted /\ exists e e', asked c ae st a e /\ entity_as e e' /\ grown st st' e'.
Proof.
  intros c ae d w st a d' st' x SH PS PC RI NL TD B (rp & n & T & F & FN) DT H NR RD. pose proof RI as (SD & SW & _). pose proof (target_slashless c a SW) as SL.
  destruct (add_effect c ae d st a d' st' x SH SD SL H) as [(-> & _)|(e & A & AB & X)]; [congruence|].
  destruct (added_is_source c d w _ rp n _ d' RI NL SL T F FN AB) as (r & old & O & SO & OC). destruct (append_served c d w _ _ d' RI SL AB) as (RI' & NL' & TD').
  destruct (RD e r old (ended old) A (ended_spec old) (conj O SO)) as [AN SV].
  pose proof A as (s & Is & Es & Ei & Et & G & _ & Co). pose proof Co as [Ct _].
  destruct (written_read c r e SV) as (e' & TE & As); [rewrite Et; apply fixpoint_lower, to_snake_idem|rewrite Ct, Es, Ei; apply compose_again, DT|].
  destruct (grow_rebuild c d d' w r old _ _ RI NL TD RI' (NL' NL) (TD' TD) (conj O SO) OC AN st s e' SH PS PC B TE Is (conforms_as s e e' Co As)) as (st1 & B1 & Gr).
  { rewrite (proj1 As). exact G. }
  destruct x; try contradiction; try match type of X with _ /\ (exists _, _) => destruct X as [_ [er X]]; congruence | _ /\ _ => destruct X as [_ X]; congruence end; [].
  split; [reflexivity|]. exists e, e'. assert (st' = st1) by congruence. subst st'. auto.
Qed.
Print Assumptions C44_added_entity_is_accepted.

(** The same for the command line. *)
Theorem C58_adding_grows_the_workspace : forall c x d w st a d' e, shuffles (c_fields c) -> (forall l, Permutation (cl_order x l) l) ->
  (forall l, Permutation (c_schemas c l) l) -> (forall l, Permutation (c_files c l) l) ->
  runs_in c d w -> no_links_in w d -> no_graph_dirs d w -> tidy d -> rebuild c d = Ok st -> savable (cl_json x) (st_graph st) ->
  writes_below c (x_type a) (x_file a) -> ~ In "."%char (x_type a) -> run_add c x false d a = (d', Succeeded e) ->
  (forall r old, let text := old ++ generate_dsl (c_env c) default_options [e] in became w d d' r old text ->
     adds_node c old text (written_entity (c_env c) default_options e) /\
     readable_at c r e) ->
  exists st' e', rebuild c d' = Ok st' /\ entity_as e e' /\ grown st st' e'.
Proof.
  intros c x d w st a d' e SH PO PS PC RI NL ND TD B SV (rp & n & T & F & FN) DT H RD. assert (W : workable c w d) by (split; auto). unfold run_add in H.
  assert (SV' : forall st, rebuild c d = Ok st -> savable (cl_json x) (st_graph st)) by (intros st0 B0; congruence).
  destruct (prepare c x d false) as [d1 u] eqn:P. destruct (prepare_spec c x d w false d1 u W P) as ((RI1 & NL1 & _) & R & TD1). specialize (TD1 TD).
  pose proof (prepare_fresh c x d w d1 u W SV' P) as PF. destruct u; try discriminate. destruct PF as (st0 & B0 & B1 & LG). assert (st0 = st) by congruence. subst st0.
  destruct (add_command_made c x d1 a d' e SH PO H) as (g & fb & G' & WB & A & G & WD).
  pose proof RI1 as (S1 & SW & _). pose proof (dsl_slashless c (x_type a) (x_file a) SW) as SL.
  destruct (written_is_source c d1 w _ rp n _ d' RI1 NL1 SL T F FN WD) as (r & old & O & SO & OC).
  destruct (written_served c d1 w _ _ d' RI1 SL WD) as (RI' & NL' & TD').
  destruct (source_not_graph w r d' _ SO) as [N1 N2]. pose proof (rest_kept w d d1 R (w ++ r) N1 N2) as K.
  destruct (RD r old) as [AN SVv]; [split; [rewrite <- K; exact O|exact SO]|].
  destruct A as (s & fs & ls & lists & Is & Es & Ei & Et & Co & _). pose proof (workspace_type c d1 fb s SH PS WB Is) as LT. rewrite Es in LT.
  rewrite (workspace_of_rebuild c d1 st B1) in WB. injection WB as <-. cbn [snd] in Is.
  destruct (written_read c r e SVv) as (e' & TE & As); [rewrite Et; exact LT|rewrite Et, Ei; apply compose_again, DT|].
  destruct (grow_rebuild c d1 d' w r old _ _ RI1 NL1 TD1 RI' (NL' NL1) (TD' TD1) (conj O SO) OC AN st s e' SH PS PC B1 TE Is (conforms_as s e e' Co As)) as (st' & B' & Gr).
  { rewrite (proj1 As). congruence. }
  exists st', e'. auto.
Qed.
Print Assumptions C58_adding_grows_the_workspace.

(** Example: a parser that reads nothing in an empty file. *)
Definition parse5 (s : str) : option parsed := match s with [] => Some {| ps_error := false; ps_schemas := []; ps_entities := [] |} | _ => parse1 s end.
Definition c5 : ctx :=
  {| c_ws := path_of (L "/w"); c_links := 40; c_parse := parse5; c_env := env0; c_fields := fid; c_schemas := sid; c_files := fun l => l |}.
Definition jane_place : path := [L "generated"; L "person.firm"].
Definition jane_text : str := generate_dsl env0 default_options [jane].
Lemma jane_read : adds_node c5 [] jane_text (written_entity env0 default_options jane) /\ readable_at c5 jane_place jane.
Proof.
  split.
  - split; [vm_compute; reflexivity|]. do 2 eexists. split; [reflexivity|]. split; [vm_compute; reflexivity|]. split; [vm_compute; reflexivity|]. split; [vm_compute; reflexivity|]. intros _; split; reflexivity.
  - constructor; [eexists; split; [vm_compute; reflexivity|left; reflexivity]|]. constructor; [|constructor]. eexists. split; [vm_compute; reflexivity|]. right. do 2 eexists. split; reflexivity.
Qed.
Lemma jane_added d d' r old before : became w0 d d' r old (before ++ jane_text) -> (forall s, node_at d (w0 ++ jane_place) <> Some (File s)) ->
  (forall p s, node_at d' (w0 ++ p) = Some (File s) -> p = jane_place /\ s = jane_text \/ s = L "schemas" \/ (exists n, p = [n] /\ (n = current_name \/ n = backup_name))) ->
  r = jane_place /\ before = [] /\ old = [].
Proof. 
  intros [O (N & p & n & E & F)] NJ H. destruct (H r _ N) as [[-> S]|[X|(m & -> & X)]].
  - split; [reflexivity|]. apply (f_equal (@length ascii)) in S. rewrite app_length in S. destruct before; [|cbn [length] in S; lia]. split; [reflexivity|].
    destruct O as [O|[_ O]]; [elim (NJ _ O)|exact O].
  - exfalso. apply (f_equal (@length ascii)) in X. rewrite app_length in X. assert (8 <= length jane_text) by (apply PeanoNat.Nat.leb_le; reflexivity). change (length (L "schemas")) with 7 in X. lia.
  - exfalso. change [m] with ([] ++ [m]) in E. apply app_inj_tail in E as [_ <-]. destruct F as (a & _ & E).
    destruct X as [X|X]; rewrite X in E; apply (f_equal (@rev ascii)) in E; rewrite rev_app_distr in E; vm_compute in E; discriminate.
Qed.
Lemma in_fs d p n : p <> [] -> node_at d p = Some n -> In (p, n) d.
Proof.
  intros N H. destruct p as [|x p]; [congruence|]. cbn [node_at] in H. clear N. induction d as [|[q m] d IH]; cbn [entry_at] in H; [discriminate|].
  destruct (place_eqb q (x :: p)) eqn:E; [injection H as ->; apply place_eqb_eq in E; subst; left; reflexivity|right; auto].
Qed.
Ltac listed := intros p s H; apply in_fs in H; [|discriminate]; vm_compute in H;
  repeat match type of H with _ \/ _ => destruct H as [H|H] | False => destruct H end;
  try discriminate; injection H as <- <-.
Example C44_accepted_case : exists d' st', add_tool c5 ae0 d2 st2 add_jane = (d', st', Accepted) /\
  forall e r old before, let text := before ++ generate_dsl (c_env c5) default_options [e] in
    asked c5 ae0 st2 add_jane e -> on_new_line old before -> became w0 d2 d' r old text ->
    adds_node c5 old text (written_entity (c_env c5) default_options e) /\ readable_at c5 r e.
Proof.
  assert (E2 : exists b, add_tool c5 ae0 d2 st2 add_jane = (d2 ++ [([L "w"; L "generated"], Dir); (w0 ++ jane_place, File jane_text)], b, Accepted)) by (eexists; vm_compute; reflexivity).
  destruct E2 as (b & E2). eexists. exists b. split; [exact E2|]. intros e r old before text A NL B.
  assert (Ej : e = jane).
  { apply asked_to_add in A; [|exact fid_ok| |].
    - vm_compute in A. injection A as <-. reflexivity.
    - vm_compute. repeat constructor. intros [].
    - intros s I. vm_compute in I. destruct I as [<-|[]]. vm_compute. repeat (constructor; [cbn; intuition discriminate|]). constructor. }
  subst e. destruct (jane_added d2 _ r old before B) as (-> & -> & ->); [vm_compute; discriminate| |exact jane_read].
  listed; auto.
Qed.
Example C58_grow_case : exists d', run_add c5 x1 false d2_saved flags_jane = (d', Succeeded jane) /\
  ~ In "."%char (x_type flags_jane) /\
  forall r old, let text := old ++ generate_dsl (c_env c5) default_options [jane] in became w0 d2_saved d' r old text ->
    adds_node c5 old text (written_entity (c_env c5) default_options jane) /\ readable_at c5 r jane.
Proof.
  eexists. split; [vm_compute; reflexivity|]. split; [cbn; intuition discriminate|]. intros r old text B.
  destruct (jane_added d2_saved _ r old old B) as (-> & -> & _); [vm_compute; discriminate| |exact jane_read].
  listed; eauto 8.
Qed.
