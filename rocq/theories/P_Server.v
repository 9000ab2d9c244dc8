(** The tool server: C35 rejected edits, C36 accepted edits, C37 confinement,
    C51 dangling references, C52 what is loaded. *)
From Coq Require Import Lia.
From Verif Require Import S_Graph L_Graph.
From Verif Require Import S_Server S_Schema L_Str L_Text L_Fs L_Server L_Load L_History L_Workspace P_Graph P_Dsl P_Schema P_Workspace.
Close Scope Z_scope.

(** Example server. Its parser knows a few texts. *)
Definition block (t i : str) (fs : list fnode) : enode := {| en_type := Some t; en_id := Some i; en_fields := fs |}.
Definition parse0 (s : str) : option parsed :=
  let es l := Some {| ps_error := false; ps_schemas := []; ps_entities := l |} in
  if str_eqb s (L "schemas") then
    Some {| ps_error := false; ps_entities := [];
            ps_schemas := [ {| sn_name := Some (L "person"); sn_blocks := [] |}; {| sn_name := Some (L "org"); sn_blocks := [] |} ] |}
  else if str_eqb s (L "john") then es [block (L "person") (L "john") []]
  else if str_eqb s (L "jane") then es [block (L "person") (L "jane") []]
  else if str_eqb s (L "jim") then es [block (L "person") (L "jim") []]
  else if str_eqb s (L "acme") then es [block (L "org") (L "acme") [ref_field (L "boss") (L "person.john")]]
  else if str_eqb s (L "unknown type") then es [block (L "robot") (L "r2") []]
  else if str_eqb s (L "absurd zone") then
    es [block (L "person") (L "jim") [{| fn_id := Some (L "born"); fn_value := Some (VNode (Some KDateTime) (L "2024-01-01 at 09:00 UTC+600000") []) |}]]
  else if str_eqb s (L "{") then Some {| ps_error := true; ps_schemas := []; ps_entities := [] |}
  else None.
Definition c0 : ctx :=
  {| c_ws := path_of (L "/w"); c_links := 40; c_parse := parse0; c_env := env0; c_fields := fid; c_schemas := sid; c_files := fun l => l |}.
Definition w0 : place := [L "w"].
Definition d0 : fs :=
  [([L "w"], Dir); ([L "w"; L "s.firm"], File (L "schemas")); ([L "w"; L "a.firm"], File (L "john")); ([L "w"; L "b.firm"], File (L "acme"))].
Definition none0 : state := {| st_files := []; st_build := {| b_entities := []; b_schemas := [] |}; st_graph := graph_new |}.
Definition st0 : state := match rebuild c0 d0 with Ok st => st | _ => none0 end.
Lemma sound_list d : Forall (fun e => node_at d (removelast (fst e)) = Some Dir /\ proper_name (last (fst e) [])) d -> sound d.
Proof.
  intros F p c N. assert (I : In (p ++ [c]) (map fst d)) by (apply entry_listed; destruct p; exact N).
  apply in_map_iff in I as ([q m] & E & I). cbn [fst] in E. subst q. eapply Forall_forall in F; [|exact I]. cbn [fst] in F.
  rewrite removelast_last, last_last in F. exact F.
Qed.
Ltac proper := split; [discriminate|]; split; [discriminate|]; split; [discriminate|]; cbn; intuition discriminate.
Ltac runs := split; [apply sound_list; repeat constructor; try (cbn; intuition discriminate); discriminate
                    |split; [apply path_of_slashless|split; vm_compute; reflexivity]].
Lemma d0_runs : runs_in c0 d0 w0.
Proof. runs. Qed.
Lemma no_links_list w d : forallb (fun e => match snd e with Link _ => false | _ => true end) d = true -> no_links_in w d.
Proof.
  intros F p t _ E. destruct p as [|a p]; [discriminate|]. cbn [node_at] in E. revert E. induction d as [|[q m] d IH]; cbn [entry_at]; [discriminate|].
  cbn [forallb snd] in F. apply Bool.andb_true_iff in F as [F1 F2]. destruct (place_eqb q (a :: p)); [intros [= ->]; discriminate|auto].
Qed.
Lemma d0_ordinary : ordinary c0 w0 d0.
Proof.
  split; [exact d0_runs|]. split; [apply no_links_list; reflexivity|]. split.
  - unfold tidy. cbn [map fst d0]. repeat (apply NoDup_cons; [cbn; intuition discriminate|]). apply NoDup_nil.
  - intros p s _ E. destruct p as [|a p]; [discriminate|]. cbn [node_at d0 entry_at] in E.
    repeat (match type of E with context [place_eqb ?x ?y] => destruct (place_eqb x y) end; [injection E as <- || discriminate; reflexivity|]). discriminate.
Qed.

(** ** C35 *)
Theorem C35_rejected_write_leaves_no_trace : forall c d w st rel content force d' st' a,
  runs_in c d w -> unlinked c d w rel -> target_is_text c d w rel ->
  write_source c d st rel content force = (d', st', a) -> a = Refused \/ (exists ok, a = Invalid ok) ->
  st' = st /\ only_dirs_added d d' /\ (forall ok, a = Invalid ok -> ok = true).
Proof.
  intros c d w st rel content force d' st' a RI U TT H A.
  destruct (rejected_write c d w st rel content force d' st' a RI U TT H A) as (E & X & _ & B). auto.
Qed.
Print Assumptions C35_rejected_write_leaves_no_trace.
Theorem C35_rejected_replace_leaves_no_trace : forall c d w st rel old new all force d' st' a,
  runs_in c d w -> replace_source c d st rel old new all force = (d', st', a) -> a = Refused \/ (exists ok, a = Invalid ok) ->
  st' = st /\ d' = d /\ (forall ok, a = Invalid ok -> ok = true).
Proof.
  intros c d w st rel old new all force d' st' a RI H A.
  destruct (replace_effect c d w st rel old new all force d' st' a RI H) as [(-> & -> & B)|(q & text & content & n & _ & _ & _ & _ & _ & _ & _ & B)].
  - split; [reflexivity|]. split; [reflexivity|]. intros ok ->. destruct B as [B|[B|B]]; congruence.
  - destruct A as [->|(ok & ->)]; destruct B.
Qed.
Print Assumptions C35_rejected_replace_leaves_no_trace.
Theorem C35_rejected_delete_leaves_no_trace : forall c d w st rel force d' st' a,
  runs_in c d w -> delete_source c d st rel force = (d', st', a) -> a = Refused \/ (exists ok, a = Invalid ok) ->
  st' = st /\ same d d' /\ (forall ok, a = Invalid ok -> ok = true).
Proof.
  intros c d w st rel force d' st' a RI H A. unfold delete_source in H. destruct (delete_file c d rel) as [[d1 content]|] eqn:DF.
  - destruct (rollback_deleted c d w rel d1 content RI DF) as (q & Rq & I & F & TC & -> & _ & RB). rewrite RB in H.
    destruct (rebuild c (unset_node d q)) as [s|e|]; [|destruct force|]; injection H as <- <- <-;
      try (destruct A as [A|(ok & A)]; discriminate). split; [reflexivity|]. split; [apply put_back; exact F|]. intros ok [= <-]. reflexivity.
  - injection H as <- <- <-. split; [reflexivity|]. split; [intros p; reflexivity|]. discriminate.
Qed.
Print Assumptions C35_rejected_delete_leaves_no_trace.
Example C35_case :
  unlinked c0 d0 w0 (L "new/r.firm") /\ target_is_text c0 d0 w0 (L "new/r.firm") /\
  (exists d', write_source c0 d0 st0 (L "new/r.firm") (L "unknown type") false = (d', st0, Invalid true) /\ d' <> d0) /\
  write_source c0 d0 st0 (L "a.firm") (L "unknown type") false = (d0, st0, Invalid true) /\
  write_source c0 d0 st0 (L "a.firm") (L "{") false = (d0, st0, Refused) /\
  replace_source c0 d0 st0 (L "a.firm") (L "john") (L "unknown type") false false = (d0, st0, Invalid true) /\
  exists d', delete_source c0 d0 st0 (L "s.firm") false = (d', st0, Invalid true).
Proof.
  split; [right; split; [apply no_links_list|split]; reflexivity|]. split; [intros q s R; vm_compute in R; discriminate|].
  split; [eexists; split; [vm_compute; reflexivity|discriminate]|]. split; [vm_compute; reflexivity|]. split; [vm_compute; reflexivity|].
  split; [vm_compute; reflexivity|]. eexists. vm_compute. reflexivity.
Qed.
(** A file that is not UTF-8 is removed by the rollback of an edit. *)
Definition d_latin : fs := d0 ++ [([L "w"; L "c.firm"], File ["233"%char])].
Theorem C35_not_text_refuted : exists c d w st rel content d' st' q, runs_in c d w /\ unlinked c d w rel /\
  write_source c d st rel content false = (d', st', Invalid true) /\ (exists s, node_at d q = Some (File s)) /\ node_at d' q = None.
Proof.
  exists c0, d_latin, w0, st0, (L "c.firm"), (L "john"). eexists. eexists. exists [L "w"; L "c.firm"].
  split; [runs|]. split; [right; split; [apply no_links_list|split]; reflexivity|]. split; [vm_compute; reflexivity|].
  split; [eexists; vm_compute; reflexivity|vm_compute; reflexivity].
Qed.
Print Assumptions C35_not_text_refuted.
(** Through a dangling link a file is made that the rollback leaves behind, the
    link being removed in its stead. *)
Definition d_dangling : fs := d0 ++ [([L "w"; L "c.firm"], Link (L "/out.firm"))].
Theorem C35_dangling_link_refuted : exists c d w st rel content d' st' q, runs_in c d w /\ plain rel /\
  write_source c d st rel content false = (d', st', Invalid true) /\ ~ inside w q /\
  node_at d q = None /\ node_at d' q = Some (File content) /\ node_at d [L "w"; rel] <> None /\ node_at d' [L "w"; rel] = None.
Proof.
  exists c0, d_dangling, w0, st0, (L "c.firm"), (L "unknown type"). eexists. eexists. exists [L "out.firm"].
  split; [runs|]. split; [split; reflexivity|]. split; [vm_compute; reflexivity|].
  split; [intros (r & E); discriminate|]. repeat split; vm_compute; congruence.
Qed.
Print Assumptions C35_dangling_link_refuted.
(** The build may crash: then the edit stays, though it was not acknowledged. *)
Theorem C35_crash_refuted : exists c d w st rel content d' st' q, ordinary c w d /\ rebuild c d = Ok st /\ plain rel /\
  write_source c d st rel content false = (d', st', Crashed) /\ node_at d q = None /\ node_at d' q = Some (File content) /\ rebuild c d' = Panic.
Proof.
  exists c0, d0, w0, st0, (L "z.firm"), (L "absurd zone"). eexists. eexists. exists [L "w"; L "z.firm"].
  split; [exact d0_ordinary|]. split; [vm_compute; reflexivity|]. split; [split; reflexivity|]. split; [vm_compute; reflexivity|].
  split; [vm_compute; reflexivity|]. split; vm_compute; reflexivity.
Qed.
Print Assumptions C35_crash_refuted.

(** ** C36 *)
Theorem C36_accepted_write : forall c d w st rel content force d' st',
  runs_in c d w -> write_source c d st rel content force = (d', st', Accepted) ->
  rebuild c d' = Ok st' /\
  exists q, resolve (c_links c) d' (named c rel) = At q /\ node_at d' q = Some (File content) /\ only_changed q d d'.
Proof.
  intros c d w st rel content force d' st' RI H.
  destruct (accepted_write c d w st rel content force d' st' Accepted RI H (or_introl eq_refl)) as (A & _ & B).
  split; [exact A|eapply wrote_at; exact B].
Qed.
Print Assumptions C36_accepted_write.
(** A forced edit is kept; the server goes on with the last state that built. *)
Theorem C36_forced_write : forall c d w st rel content force d' st',
  runs_in c d w -> write_source c d st rel content force = (d', st', Forced) ->
  st' = st /\ force = true /\ (exists e, rebuild c d' = Err e) /\
  exists q, resolve (c_links c) d' (named c rel) = At q /\ node_at d' q = Some (File content) /\ only_changed q d d'.
Proof.
  intros c d w st rel content force d' st' RI H.
  destruct (accepted_write c d w st rel content force d' st' Forced RI H (or_intror eq_refl)) as ((A & B & C) & _ & D).
  split; [exact A|]. split; [exact B|]. split; [exact C|eapply wrote_at; exact D].
Qed.
Print Assumptions C36_forced_write.
Theorem C36_accepted_replace : forall c d w st rel old new all force d' st',
  runs_in c d w -> replace_source c d st rel old new all force = (d', st', Accepted) ->
  rebuild c d' = Ok st' /\
  exists q text content n, read_source_file c d rel = Ok text /\ replace_text text old new all = Replaced content n /\
    resolve (c_links c) d' (named c rel) = At q /\ node_at d' q = Some (File content) /\ forall p, p <> q -> node_at d' p = node_at d p.
Proof.
  intros c d w st rel old new all force d' st' RI H. pose proof H as H'.
  destruct (replace_effect c d w st rel old new all force d' st' Accepted RI H) as [(_ & _ & [B|[B|B]])|(q & text & content & n & R & I & F & T & RP & NE & -> & B)];
    try discriminate. split; [exact B|]. exists q, text, content, n.
  unfold replace_source in H'. destruct (replace_in_file c d rel old new all) as [| |content' n'] eqn:RF; try discriminate.
  destruct (replaced_read c d rel old new all content' n' RF) as (_ & text' & RT & RP').
  destruct (read_spec c d w rel text' RI RT) as (q' & R' & _ & F' & _). assert (q' = q) by congruence. subst q'. assert (text' = text) by congruence. subst text'.
  split; [exact RT|]. split; [exact RP|]. pose proof (file_not_root d q text F) as N. split; [|split].
  - unfold resolve in *. rewrite (walk_contents d _ _ _ _ (set_contents d q text content F N)). exact R.
  - apply node_set_same. exact N.
  - intros p Np. apply node_set_other; congruence.
Qed.
Print Assumptions C36_accepted_replace.
Theorem C36_accepted_delete : forall c d w st rel force d' st',
  runs_in c d w -> delete_source c d st rel force = (d', st', Accepted) ->
  rebuild c d' = Ok st' /\
  exists q, resolve (c_links c) d (named c rel) = At q /\ node_at d' q = None /\ path_exists (c_links c) d' (named c rel) = false /\
    forall p, p <> q -> node_at d' p = node_at d p.
Proof.
  intros c d w st rel force d' st' RI H. unfold delete_source in H. destruct (delete_file c d rel) as [[d1 content]|] eqn:DF; [|discriminate].
  destruct (rollback_deleted c d w rel d1 content RI DF) as (q & Rq & I & F & TC & -> & V & RB). rewrite RB in H.
  destruct (rebuild c (unset_node d q)) as [s|e|] eqn:B; [|destruct force|]; try discriminate. injection H as <- <-.
  split; [exact B|]. exists q. pose proof (file_not_root d q content F) as N. split; [exact Rq|]. split; [rewrite node_unset, place_eqb_refl; auto|].
  split; [unfold path_exists; rewrite V; reflexivity|]. intros p Np. rewrite node_unset by exact N.
  destruct (place_eqb q p) eqn:E; [apply place_eqb_eq in E; congruence|reflexivity].
Qed.
Print Assumptions C36_accepted_delete.
Example C36_case : (exists d' st', write_source c0 d0 st0 (L "deep/er/j.firm") (L "jane") false = (d', st', Accepted) /\ length (b_entities (st_build st')) = 3) /\
  (exists d' st', replace_source c0 d0 st0 (L "a.firm") (L "ohn") (L "ane") false false = (d', st', Accepted)) /\
  (exists d' st', delete_source c0 d0 st0 (L "b.firm") false = (d', st', Accepted) /\ length (b_entities (st_build st')) = 1) /\
  exists d', write_source c0 d0 st0 (L "j.firm") (L "unknown type") true = (d', st0, Forced).
Proof.
  split; [eexists; eexists; split; vm_compute; reflexivity|]. split; [eexists; eexists; vm_compute; reflexivity|].
  split; [eexists; eexists; split; vm_compute; reflexivity|]. eexists. vm_compute. reflexivity.
Qed.
(** What was written is what is read. *)
Theorem C36_read_back : forall c d w st rel content force d' st' a r n, runs_in c d w -> no_links_in w d -> plain rel -> is_text content = true ->
  path_of rel = r ++ [n] -> firm_file_name n ->
  write_source c d st rel content force = (d', st', a) -> a = Accepted \/ a = Forced -> read_source_file c d' rel = Ok content.
Proof.
  intros c d w st rel content force d' st' a r n RI NL P T PR FN H A. destruct P as [RR NC]. pose proof RI as (Sd & _).
  destruct (accepted_write c d w st rel content force d' st' a RI H A) as (_ & EW & K).
  destruct (wrote_at c w d d' rel content K) as (q & R & F & _).
  assert (RI' : runs_in c d' w /\ no_links_in w d').
  { destruct K as [(q' & old & _ & _ & F' & ->)|K].
    - pose proof (file_not_root d q' old F') as NE. split; [apply runs_set; eauto using sound_file|apply links_set; auto].
    - destruct (wrote_new_vacant c d d' w rel content RI (or_intror (conj NL (conj RR NC))) EW K) as (d2 & p & r' & n' & X & SX & _ & PN & _ & Dr & Nq & -> & _).
      split; [apply runs_set; [eapply runs_dirs; eauto|auto|apply sound_add; auto]|]. apply links_set; [eapply links_dirs; eauto|destruct r'; discriminate]. }
  destruct RI' as [RI' NL']. pose proof RI' as (S' & _ & W' & _). unfold read_source_file. rewrite (absolute_spec c d' w rel RI'), R.
  pose proof (no_climb rel NC) as CL. pose proof R as R2. rewrite (named_relative c rel RR) in R2.
  pose proof (below_inside c d' w (path_of rel) q RI' NL' CL (or_introl R2)) as I. pose proof I as I'. apply within_spec in I'. rewrite I'.
  pose proof (canon_again d' (c_links c) (c_links c) _ q S' R) as CA.
  unfold path_exists. rewrite CA. cbn [negb].
  destruct (walk_then d' (c_links c) [] (c_ws c) w S' ltac:(discriminate) W') as (k' & Sp). unfold resolve in R2. rewrite (Sp d' _ (extends_refl d')), PR in R2.
  apply firm_file_spec in FN. assert (S1 : stays n = false /\ climbs n = false).
  { apply firm_name, ends_with_spec. apply firm_file_spec in FN as (x & _ & ->). eauto. }
  rewrite PR in CL. destruct (walk_last w d' k' w r n q NL' (inside_refl w) CL (proj1 S1) R2) as (r2 & ->).
  unfold path_name. rewrite rev_unit. cbn [drop_stays]. rewrite (proj1 S1), (proj2 S1), FN. cbn [negb].
  unfold read_text, stat. rewrite CA, F, T. reflexivity.
Qed.
Print Assumptions C36_read_back.
Example C36_read_back_case : exists d' st', path_of (L "deep/j.firm") = [L "deep"] ++ [L "j.firm"] /\ firm_file_name (L "j.firm") /\
  write_source c0 d0 st0 (L "deep/j.firm") (L "jane") false = (d', st', Accepted) /\ read_source_file c0 d' (L "deep/j.firm") = Ok (L "jane").
Proof.
  eexists. eexists. split; [reflexivity|]. split; [exists (L "j"); split; [discriminate|reflexivity]|]. split; vm_compute; reflexivity.
Qed.
(** A file named just ".firm" is accepted but is neither loaded nor read. *)
Theorem C36_hidden_file_refuted : exists c d w st rel content d' st', ordinary c w d /\ rebuild c d = Ok st /\ plain rel /\
  write_source c d st rel content false = (d', st', Accepted) /\ read_source_file c d' rel = Err NotFirmFile /\ st' = st.
Proof.
  exists c0, d0, w0, st0, (L ".firm"), (L "jane"). eexists. eexists. split; [exact d0_ordinary|].
  split; [vm_compute; reflexivity|]. split; [split; reflexivity|]. split; [vm_compute; reflexivity|]. split; vm_compute; reflexivity.
Qed.
Print Assumptions C36_hidden_file_refuted.
(** After any sequence of requests that are not forced and do not crash the
    server serves what a build of the files as they are would give. *)
Theorem C36_serves_what_is_on_disk : forall c w d st rs d' st' l,
  shuffles (c_fields c) -> (forall l, Permutation (c_schemas c l) l) -> (forall l, Permutation (c_files c l) l) ->
  ordinary c w d -> rebuild c d = Ok st -> Forall ordinary_request rs -> serve c d st rs = (d', st', l) -> ~ In Crashed l ->
  exists st1, rebuild c d' = Ok st1 /\ Permutation (st_files st') (st_files st1) /\
    Permutation (b_entities (st_build st')) (b_entities (st_build st1)) /\
    Permutation (b_schemas (st_build st')) (b_schemas (st_build st1)) /\
    forall id, get_entity (st_graph st') id = get_entity (st_graph st1) id.
Proof.
  intros c w d st rs d' st' l PF PS PC O B F H NC.
  destruct (ordinary_serve c w rs d st d' st' l d O F H NC O B (dirs_refl d)) as (O' & d1 & O1 & B1 & X).
  destruct (rebuild_files c d1 st' B1) as (fs & L1 & E1 & G1).
  destruct (load_dirs c d1 d' w fs O1 O' X L1) as (fs2 & L2 & P).
  assert (P2 : Permutation (st_files st') (c_files c fs2)) by (rewrite E1, PC, PC; exact P).
  apply C48_loads_exactly_when_built_and_ids_distinct in G1 as (BW & ND & EG).
  destruct (C34_order_of_files_is_irrelevant _ _ _ _ _ _ _ _ PF PF PS PS P2 BW) as (b2 & BW2 & PE & PSc).
  assert (ND2 : NoDup (map e_id (b_entities b2))) by (eapply Permutation_NoDup; [apply Permutation_map; exact PE|exact ND]).
  exists {| st_files := c_files c fs2; st_build := b2; st_graph := run [OAddMany (b_entities b2); OBuild] |}.
  cbn [st_files st_build st_graph]. split; [|split; [exact P2|split; [exact PE|split; [exact PSc|]]]].
  - unfold rebuild. rewrite L2. cbn [omap_err obind].
    rewrite (proj2 (C48_loads_exactly_when_built_and_ids_distinct _ _ _ _ b2 _) (conj BW2 (conj ND2 eq_refl))). reflexivity.
  - intros id. rewrite EG, !(proj1 (C05_lookup_and_results _)), (load_spec _ ND), (load_spec _ ND2).
    apply lookup_perm; auto.
Qed.
Print Assumptions C36_serves_what_is_on_disk.
Example C36_serves_case : ordinary c0 w0 d0 /\ rebuild c0 d0 = Ok st0 /\
  Forall ordinary_request [Write (L "new/r.firm") (L "unknown type") false; Delete (L "a.firm") false; Write (L "j.firm") (L "jane") false;
                           Replace (L "j.firm") (L "ane") (L "ohn") false false; Delete (L "s.firm") false; Build] /\
  exists d' st', serve c0 d0 st0 [Write (L "new/r.firm") (L "unknown type") false; Delete (L "a.firm") false; Write (L "j.firm") (L "jane") false;
                                  Replace (L "j.firm") (L "ane") (L "ohn") false false; Delete (L "s.firm") false; Build]
    = (d', st', [Invalid true; Accepted; Accepted; Accepted; Invalid true; Accepted]) /\ map e_id (b_entities (st_build st')) = [L "org.acme"; L "person.john"].
Proof.
  split; [exact d0_ordinary|]. split; [vm_compute; reflexivity|]. split; [repeat constructor|]. eexists. eexists. split; vm_compute; reflexivity.
Qed.
(** Forced or not, crash or not: the state served was built from the files as
    they were at some moment since the server started. *)
Theorem C36_served_state_was_on_disk : forall c d st rs d' st' l, rebuild c d = Ok st -> serve c d st rs = (d', st', l) ->
  exists before after d1 st1 l1, rs = before ++ after /\ serve c d st before = (d1, st1, l1) /\ rebuild c d1 = Ok st'.
Proof. exact served_was_built. Qed.
Print Assumptions C36_served_state_was_on_disk.

(** ** C37 *)
Theorem C37_reads_inside : forall c d w rel text, runs_in c d w -> read_source_file c d rel = Ok text ->
  exists q, resolve (c_links c) d (named c rel) = At q /\ inside w q /\ node_at d q = Some (File text).
Proof. intros c d w rel text RI H. destruct (read_spec c d w rel text RI H) as (q & A & B & C & _). eauto. Qed.
Print Assumptions C37_reads_inside.
Theorem C37_plain_write_confined : forall c d w st rel content force d' st' a, runs_in c d w -> no_links_in w d -> plain rel ->
  write_source c d st rel content force = (d', st', a) -> confined w d d'.
Proof. intros c d w st rel content force d' st' a RI NL [RR NC]. apply write_confined; auto. Qed.
Print Assumptions C37_plain_write_confined.
Theorem C37_overwrite_confined : forall c d w st rel content force d' st' a q old, runs_in c d w ->
  resolve (c_links c) d (named c rel) = At q -> node_at d q = Some (File old) -> is_text old = true ->
  write_source c d st rel content force = (d', st', a) -> confined w d d'.
Proof.
  intros c d w st rel content force d' st' a q old RI R F T H.
  pose proof (write_existing c d w st rel content force d' st' a q old RI R F T H) as X. pose proof (file_not_root d q old F) as NE.
  destruct a; decompose [and] X; subst; auto using confined_refl, confined_set.
Qed.
Print Assumptions C37_overwrite_confined.
Theorem C37_replace_confined : forall c d w st rel old new all force d' st' a, runs_in c d w ->
  replace_source c d st rel old new all force = (d', st', a) -> confined w d d'.
Proof.
  intros c d w st rel old new all force d' st' a RI H.
  destruct (replace_effect c d w st rel old new all force d' st' a RI H) as [(-> & _)|(q & text & content & n & R & I & F & _ & _ & _ & -> & _)];
    [apply confined_refl|]. apply confined_set; [exact I|eapply file_not_root; exact F].
Qed.
Print Assumptions C37_replace_confined.
Theorem C37_delete_confined : forall c d w st rel force d' st' a, runs_in c d w ->
  delete_source c d st rel force = (d', st', a) -> confined w d d'.
Proof.
  intros c d w st rel force d' st' a RI H. unfold delete_source in H. destruct (delete_file c d rel) as [[d1 content]|] eqn:DF; [|injection H as <- _ _; apply confined_refl].
  destruct (rollback_deleted c d w rel d1 content RI DF) as (q & Rq & I & F & TC & -> & V & RB). rewrite RB in H.
  pose proof (confined_unset w d q I (file_not_root d q content F)) as C.
  destruct (rebuild c (unset_node d q)) as [s|e|]; [|destruct force|]; injection H as <- _ _; auto.
  intros p N. apply put_back. exact F.
Qed.
Print Assumptions C37_delete_confined.
Example C37_case : runs_in c0 d0 w0 /\ no_links_in w0 d0 /\ plain (L "x/y.firm") /\
  to_absolute_path c0 d0 (L "../w/a.firm") = Some [L "w"; L "a.firm"] /\ to_absolute_path c0 d0 (L "../v/a.firm") = None /\
  write_source c0 (([L "v"], Dir) :: ([L "v"; L "a.firm"], File []) :: d0) st0 (L "../v/a.firm") (L "jane") false
  = (([L "v"], Dir) :: ([L "v"; L "a.firm"], File []) :: d0, st0, Refused).
Proof. split; [exact d0_runs|]. split; [apply no_links_list; reflexivity|]. split; [split; reflexivity|]. repeat split; vm_compute; reflexivity. Qed.
(** A new file may be written anywhere, given its absolute path. *)
Theorem C37_absolute_path_refuted : exists c d w st rel content d' st' q, ordinary c w d /\ rebuild c d = Ok st /\
  write_source c d st rel content false = (d', st', Accepted) /\ ~ inside w q /\ node_at d q = None /\ node_at d' q = Some (File content).
Proof.
  exists c0, d0, w0, st0, (L "/etc/x.firm"), (L "jane"). eexists. eexists. exists [L "etc"; L "x.firm"].
  split; [exact d0_ordinary|]. split; [vm_compute; reflexivity|]. split; [vm_compute; reflexivity|].
  split; [intros (r & E); discriminate|]. split; vm_compute; reflexivity.
Qed.
Print Assumptions C37_absolute_path_refuted.
(** A new file may be written where a link in the workspace leads. *)
Definition d_linked : fs := d0 ++ [([L "out"], Dir); ([L "out"; L "x.firm"], File (L "jane")); ([L "w"; L "l"], Link (L "../out"))].
Theorem C37_linked_directory_refuted : exists c d w st rel content d' st' q, runs_in c d w /\ no_dangling_links (c_links c) d /\ plain rel /\
  write_source c d st rel content false = (d', st', Accepted) /\ ~ inside w q /\ node_at d q = None /\ node_at d' q = Some (File content).
Proof.
  exists c0, d_linked, w0, st0, (L "l/s.firm"), (L "jim"). eexists. eexists. exists [L "out"; L "s.firm"].
  split; [runs|]. split; [|split; [split; reflexivity|]].
  - intros p t E. destruct p as [|a p]; [discriminate|]. cbn [node_at d_linked d0 app entry_at] in E.
    repeat match type of E with context [place_eqb ?x ?y] => destruct (place_eqb x y) eqn:Q; [try discriminate|clear Q] end; [|discriminate].
    injection E as <-. apply place_eqb_eq in Q. rewrite <- Q. exists [L "out"]. vm_compute. reflexivity.
  - split; [vm_compute; reflexivity|]. split; [intros (r & E); discriminate|]. split; vm_compute; reflexivity.
Qed.
Print Assumptions C37_linked_directory_refuted.
(** A file outside that a link leads to is loaded, and its entities are served. *)
Theorem C37_loading_refuted : exists c d w st q s e, runs_in c d w /\ ~ inside w q /\ node_at d q = Some (File s) /\ rebuild c d = Ok st /\
  get_entity (st_graph st) (e_id e) = Some e /\ (forall st', rebuild c (unset_node d q) = Ok st' -> get_entity (st_graph st') (e_id e) = None).
Proof.
  exists c0, d_linked, w0. eexists. exists [L "out"; L "x.firm"], (L "jane"), {| e_id := L "person.jane"; e_type := L "person"; e_fields := [] |}.
  split; [runs|]. split; [intros (r & E); discriminate|]. split; [reflexivity|]. split; [vm_compute; reflexivity|]. split; [vm_compute; reflexivity|].
  intros st' H. vm_compute in H. injection H as <-. vm_compute. reflexivity.
Qed.
Print Assumptions C37_loading_refuted.

(** ** C51 *)
(** What is served links only what is served. *)
Theorem C51_links_lead_to_entities : forall c d st e1 e2 r, rebuild c d = Ok st -> linked (st_graph st) e1 e2 r ->
  get_entity (st_graph st) (e_id e1) = Some e1 /\ get_entity (st_graph st) (e_id e2) = Some e2.
Proof.
  intros c d st e1 e2 r B Lk. destruct (rebuild_files c d st B) as (fs & _ & _ & G).
  apply C48_loads_exactly_when_built_and_ids_distinct in G as (_ & ND & E). rewrite E in *.
  pose proof Lk as Lk2. change (run [OAddMany (b_entities (st_build st)); OBuild]) with (build (run [OAddMany (b_entities (st_build st))])) in Lk2.
  apply C06_build_links_exactly_resolvable_references in Lk2 as (I1 & I2 & _).
  rewrite !(proj1 (C05_lookup_and_results _)), (load_spec _ ND).
  assert (X : forall e, In e (spec_run [OAddMany (b_entities (st_build st))]) -> In e (b_entities (st_build st))).
  { intros e. change (spec_run [OAddMany (b_entities (st_build st))]) with (spec_run [OAddMany (b_entities (st_build st)); OBuild]). rewrite (load_spec _ ND). auto. }
  split; apply lookup_in; auto.
Qed.
Print Assumptions C51_links_lead_to_entities.
(** But an entity that others refer to can be deleted. *)
Theorem C51_no_dangling_references_refuted : exists c d w st rel d' st' e f id, ordinary c w d /\ rebuild c d = Ok st /\
  delete_source c d st rel false = (d', st', Accepted) /\ get_entity (st_graph st) id <> None /\
  get_entity (st_graph st') (e_id e) = Some e /\ In (f, VRef (REntity id)) (e_fields e) /\ get_entity (st_graph st') id = None.
Proof.
  exists c0, d0, w0, st0, (L "a.firm"). eexists. eexists.
  exists {| e_id := L "org.acme"; e_type := L "org"; e_fields := [(L "boss", VRef (REntity (L "person.john")))] |}, (L "boss"), (L "person.john").
  split; [exact d0_ordinary|]. split; [vm_compute; reflexivity|]. split; [vm_compute; reflexivity|]. split; [vm_compute; discriminate|].
  split; [vm_compute; reflexivity|]. split; [left; reflexivity|vm_compute; reflexivity].
Qed.
Print Assumptions C51_no_dangling_references_refuted.
Example C51_case : exists e1 e2 r, linked (st_graph st0) e1 e2 r.
Proof.
  exists {| e_id := L "org.acme"; e_type := L "org"; e_fields := [(L "boss", VRef (REntity (L "person.john")))] |},
         {| e_id := L "person.john"; e_type := L "person"; e_fields := [] |}, (EntityReference (L "boss")).
  vm_compute. eauto 20.
Qed.

(** ** C52 *)
(** Loading a workspace without links reads every source file in it, however
    deep, and no other. *)
Theorem C52_loads_exactly_the_source_files : forall c d w fs, runs_in c d w -> no_links_in w d -> tidy d -> load_directory c d = Ok fs ->
  NoDup (map fst fs) /\
  forall e, In e fs <-> exists r s ps, source_of w d r s /\ c_parse c s = Some ps /\ e = loaded c r ps.
Proof. intros c d w fs RI NL T H. destruct (load_directory_spec c d w fs RI NL T H) as (A & B & _). auto. Qed.
Print Assumptions C52_loads_exactly_the_source_files.
Theorem C52_loads_exactly_when_all_parse : forall c d w, runs_in c d w -> no_links_in w d -> tidy d ->
  ((exists fs, load_directory c d = Ok fs) <-> forall r s, source_of w d r s -> is_text s = true /\ c_parse c s <> None).
Proof.
  intros c d w RI NL T. split; [|apply load_directory_success; auto].
  intros (fs & H). destruct (load_directory_spec c d w fs RI NL T H) as (_ & _ & C). exact C.
Qed.
Print Assumptions C52_loads_exactly_when_all_parse.
Example C52_case : source_of w0 (d0 ++ [([L "w"; L "x"], Dir); ([L "w"; L "x"; L "c.firm"], File (L "jane")); ([L "w"; L "x"; L "c.txt"], File (L "?"))])
    ([L "x"] ++ [L "c.firm"]) (L "jane") /\
  exists fs, load_directory c0 (d0 ++ [([L "w"; L "x"], Dir); ([L "w"; L "x"; L "c.firm"], File (L "jane")); ([L "w"; L "x"; L "c.txt"], File (L "?"))]) = Ok fs /\ length fs = 4.
Proof.
  split; [split; [reflexivity|exists [L "x"], (L "c.firm"); split; [reflexivity|exists (L "c"); split; [discriminate|reflexivity]]]|].
  eexists. split; vm_compute; reflexivity.
Qed.
