(** C91: an edit changes exactly what its file declares. *)
From Coq Require Import Permutation.
From Verif Require Import S_Graph L_Graph.
From Verif Require Import S_Life S_Part L_Str L_Ids L_Fs L_Server L_Load L_Workspace L_History L_Life L_Undo L_Swap L_Conc L_Part.
From Verif Require Import P_Schema P_Server.
From Verif Require Import M_Fs S_Swap.
Close Scope Z_scope.

Lemma parts_proper rel : plain rel -> Forall proper_name (parts rel).
Proof.
  intros [_ NC]. pose proof (no_climb rel NC) as CL. pose proof (path_of_slashless rel) as SR. unfold slashless in SR. rewrite Forall_forall in *.
  intros n I. apply filter_In in I as [I S]. apply Bool.negb_true_iff in S. destruct (climbs_split n S (CL n I)) as (A & B & C). repeat split; auto.
Qed.
Lemma edit_parts c w d st r rel d' st' : shuffles (c_fields c) -> (forall l, Permutation (c_schemas c l) l) -> (forall l, Permutation (c_files c l) l) ->
  ordinary c w d -> rebuild c d = Ok st -> plain_request r -> of_source r -> edited r = Some rel -> handle c d st r = (d', st', Accepted) ->
  rebuild c d' = Ok st' /\
  exists ss es ss1 es1 ss2 es2, file_declares c w d (parts rel) ss1 es1 /\ file_declares c w d' (parts rel) ss2 es2 /\
    Permutation (b_schemas (st_build st)) (ss1 ++ ss) /\ Permutation (b_schemas (st_build st')) (ss2 ++ ss) /\
    Permutation (b_entities (st_build st)) (es1 ++ es) /\ Permutation (b_entities (st_build st')) (es2 ++ es).
Proof.
  intros SH PS PC O B R SO Er H. destruct (one_edit c w d st r d' st' Accepted O R SO H (or_introl eq_refl)) as [O' E]. rewrite Er in E. destruct E as (o & _ & _ & K).
  pose proof (accepted_built c w d st r d' st' (proj1 O) H) as B'. split; [exact B'|].
  apply two_parts; auto.
  - intros r' s N. unfold source_of. rewrite (K (w ++ r') s); [reflexivity|]. intros X. apply app_inv_head in X. contradiction.
  - unfold of_source in SO. rewrite Er in SO. destruct SO as (dir & n & PR & FN). destruct (name_goes rel dir n PR FN) as [S1 _]. unfold parts. rewrite PR, filter_app. cbn [filter]. rewrite S1. cbn [negb].
    destruct (filter (fun n0 => negb (stays n0)) dir); discriminate.
  - apply parts_proper. destruct r; cbn in Er, R; try discriminate; injection Er as <-; tauto.
Qed.

(** The schemas and entities served after an accepted edit are those the
    edited file now declares and, unchanged, those that the other files
    declared before. *)
Theorem C91_edit_changes_its_file : forall c w d st r rel d' st', shuffles (c_fields c) -> (forall l, Permutation (c_schemas c l) l) -> (forall l, Permutation (c_files c l) l) ->
  ordinary c w d -> rebuild c d = Ok st -> plain_request r -> of_source r -> edited r = Some rel -> handle c d st r = (d', st', Accepted) ->
  exists schemas entities old_schemas old_entities new_schemas new_entities,
    file_declares c w d (parts rel) old_schemas old_entities /\ file_declares c w d' (parts rel) new_schemas new_entities /\
    Permutation (b_schemas (st_build st)) (old_schemas ++ schemas) /\ Permutation (b_schemas (st_build st')) (new_schemas ++ schemas) /\
    Permutation (b_entities (st_build st)) (old_entities ++ entities) /\ Permutation (b_entities (st_build st')) (new_entities ++ entities).
Proof. intros c w d st r rel d' st' SH PS PC O B R SO Er H. exact (proj2 (edit_parts c w d st r rel d' st' SH PS PC O B R SO Er H)). Qed.
Print Assumptions C91_edit_changes_its_file.
(** By id: the entity is the one the edited file now declares; if it declares
    none and declared one before there is none; else it is as before. *)
Theorem C91_entity_by_id : forall c w d st r rel d' st', shuffles (c_fields c) -> (forall l, Permutation (c_schemas c l) l) -> (forall l, Permutation (c_files c l) l) ->
  ordinary c w d -> rebuild c d = Ok st -> plain_request r -> of_source r -> edited r = Some rel -> handle c d st r = (d', st', Accepted) ->
  forall old_schemas old new_schemas new, file_declares c w d (parts rel) old_schemas old -> file_declares c w d' (parts rel) new_schemas new ->
  forall id, get_entity (st_graph st') id = after_edit old new (get_entity (st_graph st) id) id.
Proof.
  intros c w d st r rel d' st' SH PS PC O B R SO Er H os old ns new FO FN id.
  destruct (edit_parts c w d st r rel d' st' SH PS PC O B R SO Er H) as (B' & ss & es & ss1 & es1 & ss2 & es2 & F1 & F2 & _ & _ & P1 & P2).
  destruct (declares_once c w (parts rel) d _ _ _ _ F1 FO) as [_ ->]. destruct (declares_once c w (parts rel) d' _ _ _ _ F2 FN) as [_ ->].
  destruct (rebuild_lookup c d st B) as [N G], (rebuild_lookup c d' st' B') as [N' G']. rewrite G, G'. exact (edit_by_id old new es _ _ N N' P1 P2 id).
Qed.
Print Assumptions C91_entity_by_id.
(** A deletion takes away the entities of the file and no other. *)
Theorem C91_deletion : forall c w d st rel force d' st', shuffles (c_fields c) -> (forall l, Permutation (c_schemas c l) l) -> (forall l, Permutation (c_files c l) l) ->
  ordinary c w d -> rebuild c d = Ok st -> plain rel -> of_source (Delete rel force) -> handle c d st (Delete rel force) = (d', st', Accepted) ->
  exists schemas entities, file_declares c w d (parts rel) schemas entities /\
    Permutation (b_schemas (st_build st)) (schemas ++ b_schemas (st_build st')) /\ Permutation (b_entities (st_build st)) (entities ++ b_entities (st_build st')).
Proof.
  intros c w d st rel force d' st' SH PS PC O B R SO H.
  destruct (edit_parts c w d st (Delete rel force) rel d' st' SH PS PC O B R SO eq_refl H) as (_ & ss & es & ss1 & es1 & ss2 & es2 & F1 & F2 & Q1 & Q2 & P1 & P2).
  destruct (one_edit c w d st (Delete rel force) d' st' Accepted O R SO H (or_introl eq_refl)) as [_ (o & Lv & F & _)]. cbn in Lv. subst o.
  assert (N : forall s, ~ source_of w d' (parts rel) s) by (intros s [S _]; apply F in S; discriminate).
  destruct (declares_once c w (parts rel) d' _ _ _ _ F2 (declares_nothing c w d' (parts rel) N)) as [-> ->].
  exists ss1, es1. split; [exact F1|]. rewrite Q1, Q2, P1, P2. split; reflexivity.
Qed.
Print Assumptions C91_deletion.
(** A file written where there was none adds the entities it declares and
    leaves the others. *)
Theorem C91_new_file : forall c w d st rel content force d' st', shuffles (c_fields c) -> (forall l, Permutation (c_schemas c l) l) -> (forall l, Permutation (c_files c l) l) ->
  ordinary c w d -> rebuild c d = Ok st -> plain rel -> is_text content = true -> of_source (Write rel content force) ->
  (forall s, ~ source_of w d (parts rel) s) -> handle c d st (Write rel content force) = (d', st', Accepted) ->
  exists schemas entities, file_declares c w d' (parts rel) schemas entities /\
    Permutation (b_schemas (st_build st')) (schemas ++ b_schemas (st_build st)) /\ Permutation (b_entities (st_build st')) (entities ++ b_entities (st_build st)).
Proof.
  intros c w d st rel content force d' st' SH PS PC O B R T SO N H.
  destruct (edit_parts c w d st (Write rel content force) rel d' st' SH PS PC O B (conj R T) SO eq_refl H) as (_ & ss & es & ss1 & es1 & ss2 & es2 & F1 & F2 & Q1 & Q2 & P1 & P2).
  destruct (declares_once c w (parts rel) d _ _ _ _ F1 (declares_nothing c w d (parts rel) N)) as [-> ->].
  exists ss2, es2. split; [exact F2|]. rewrite Q1, Q2, P1, P2. split; reflexivity.
Qed.
Print Assumptions C91_new_file.
(** Finding: with force, what is served stays as it was whatever the file now
    declares. *)
Theorem C91_forced_refuted : exists c w d st r rel d' st' old_schemas old new_schemas new id, shuffles (c_fields c) /\ (forall l, Permutation (c_schemas c l) l) /\ (forall l, Permutation (c_files c l) l) /\
  ordinary c w d /\ rebuild c d = Ok st /\ plain_request r /\ of_source r /\ edited r = Some rel /\ handle c d st r = (d', st', Forced) /\
  file_declares c w d (parts rel) old_schemas old /\ file_declares c w d' (parts rel) new_schemas new /\
  get_entity (st_graph st') id <> after_edit old new (get_entity (st_graph st) id) id.
Proof.
  exists c0, w0, d0, st0, (Write (L "a.firm") (L "unknown type") true), (L "a.firm"). eexists. eexists. eexists. eexists. eexists. eexists. exists (L "person.john").
  split; [exact fid_ok|]. split; [intros l; apply Permutation_refl|]. split; [intros l; apply Permutation_refl|]. split; [exact d0_ordinary|]. split; [vm_compute; reflexivity|].
  split; [split; [split|]; reflexivity|]. split; [exists [], (L "a.firm"); split; [reflexivity|]; exists (L "a"); split; [discriminate|reflexivity]|]. split; [reflexivity|].
  split; [vm_compute; reflexivity|].
  split; [eapply declares_blocks; [split; [vm_compute; reflexivity|]; exists [], (L "a.firm"); split; [reflexivity|]; exists (L "a"); split; [discriminate|reflexivity]|vm_compute; reflexivity|constructor|]|].
  { cbn [ps_entities]. eapply Forall2_cons; [vm_compute; reflexivity|constructor]. }
  split; [eapply declares_blocks; [split; [vm_compute; reflexivity|]; exists [], (L "a.firm"); split; [reflexivity|]; exists (L "a"); split; [discriminate|reflexivity]|vm_compute; reflexivity|constructor|]|].
  { cbn [ps_entities]. eapply Forall2_cons; [vm_compute; reflexivity|constructor]. }
  vm_compute. discriminate.
Qed.
Print Assumptions C91_forced_refuted.

(** John's file is overwritten with Jane: Jane is served, John is not, and Acme,
    of another file, stays. *)
Example C91_case : exists d' st',
  ordinary c0 w0 d0 /\ rebuild c0 d0 = Ok st0 /\ plain_request (Write (L "a.firm") (L "jane") false) /\ of_source (Write (L "a.firm") (L "jane") false) /\
  handle c0 d0 st0 (Write (L "a.firm") (L "jane") false) = (d', st', Accepted) /\
  (exists john, file_declares c0 w0 d0 (parts (L "a.firm")) [] [john] /\ e_id john = L "person.john") /\
  (exists jane, file_declares c0 w0 d' (parts (L "a.firm")) [] [jane] /\ e_id jane = L "person.jane") /\
  map (fun id => match get_entity (st_graph st') id with Some _ => true | None => false end) [L "person.john"; L "person.jane"; L "org.acme"] = [false; true; true] /\
  exists d2 st2, handle c0 d0 st0 (Delete (L "a.firm") false) = (d2, st2, Accepted) /\ length (b_entities (st_build st2)) = 1.
Proof.
  assert (SO : exists r' n, [L "a.firm"] = r' ++ [n] /\ firm_file_name n) by (exists [], (L "a.firm"); split; [reflexivity|]; exists (L "a"); split; [discriminate|reflexivity]).
  eexists. eexists. split; [exact d0_ordinary|]. split; [vm_compute; reflexivity|]. split; [split; [split|]; reflexivity|]. split; [exact SO|]. split; [vm_compute; reflexivity|].
  split; [eexists; split; [eapply declares_blocks; [split; [vm_compute; reflexivity|exact SO]|vm_compute; reflexivity|constructor|cbn [ps_entities]; eapply Forall2_cons; [vm_compute; reflexivity|constructor]]|reflexivity]|].
  split; [eexists; split; [eapply declares_blocks; [split; [vm_compute; reflexivity|exact SO]|vm_compute; reflexivity|constructor|cbn [ps_entities]; eapply Forall2_cons; [vm_compute; reflexivity|constructor]]|reflexivity]|].
  split; [vm_compute; reflexivity|]. eexists. eexists. split; vm_compute; reflexivity.
Qed.
