(** Lemmas for C86. *)
From Coq Require Import Lia Permutation.
From Verif Require Import S_Graph L_Graph.
From Verif Require Import S_Schema S_Life S_Answer L_Str L_DslStr L_Num L_Ids L_Fs L_Server L_Load L_History L_Broken L_Life L_Replace L_Undo L_Add L_Workspace.
From Verif Require Import M_Fs.
Close Scope Z_scope.

(** ** The answers are those of the other model, with texts *)
Lemma write_file_same se c d rel content d1 s : write_file_said se c d rel content = (d1, s) ->
  write_source_file c d rel content = (d1, match s with None => true | Some _ => false end) /\ forall x, s = Some x -> exists t, x = fails t.
Proof.
  unfold write_file_said, write_source_file. intros H.
  destruct (negb (ends_with rel (L ".firm"))); [injection H as <- <-; split; [reflexivity|intros x [= <-]; eauto]|].
  destruct (to_absolute_path c d rel) as [p|]; [|injection H as <- <-; split; [reflexivity|intros x [= <-]; eauto]].
  destruct (match parent p with Some q => create_dir_all (S (length q)) (c_links c) d q | None => (d, true) end) as [d2 [|]]; [|injection H as <- <-; split; [reflexivity|intros x [= <-]; eauto]].
  destruct (write (c_links c) d2 p content) as [d3|]; injection H as <- <-; split; try reflexivity; intros x [= <-]; eauto.
Qed.
Lemma validate_same se c d rel content d1 s : validate_said se c d rel content = (d1, s) ->
  match s with
  | inl o => validate_and_write c d rel content = (d1, Some o) /\ o = read_text (c_links c) d (named c rel)
  | inr x => validate_and_write c d rel content = (d1, None) /\ exists t, x = fails t
  end.
Proof.
  unfold validate_said, validate_and_write. intros H. destruct (c_parse c content) as [ps|]; [|injection H as <- <-; eauto].
  destruct (ps_error ps); [injection H as <- <-; eauto|]. destruct (write_file_said se c d rel content) as [d2 [x|]] eqn:W; injection H as <- <-;
    destruct (write_file_same se c d rel content _ _ W) as [-> F]; eauto.
Qed.
Definition existed (c : ctx) (d : fs) (rel : str) : bool := match read_text (c_links c) d (named c rel) with Some _ => true | None => false end.
Lemma tell_write_same se c d st rel content force f d' st' s : tell_write se c d st rel content force f = (d', st', s) ->
  exists a, write_source c d st rel content force = (d', st', a) /\
  match a with
  | Accepted => rebuild c d' = Ok st' /\ s = Some (says (f (existed c d rel) ++ valid_text))
  | Forced => exists e, rebuild c d' = Err e /\ s = Some (says (f (existed c d rel) ++ warning_text (se_load se e)))
  | Refused => exists t, s = Some (fails t)
  | Invalid ok => exists e, s = Some (fails (invalid_text (se_load se e) ok))
  | Crashed => s = None
  end.
Proof.
  unfold tell_write, write_source. intros H. destruct (validate_said se c d rel content) as [d1 [o|x]] eqn:V; pose proof (validate_same se c d rel content _ _ V) as [E1 E2].
  - rewrite E1. unfold finish_write. cbv zeta in H. assert (EX : match o with Some _ => true | None => false end = existed c d rel) by (rewrite E2; reflexivity). rewrite EX in H. destruct (rebuild c d1) as [st1|e|] eqn:RB.
    + injection H as <- <- <-. exists Accepted. auto.
    + destruct force.
      * injection H as <- <- <-. exists Forced. eauto.
      * destruct (rollback_write c d1 rel o) as [d2 ok]. injection H as <- <- <-. exists (Invalid ok). eauto.
    + injection H as <- <- <-. exists Crashed. auto.
  - rewrite E1. destruct E2 as (t & ->). injection H as <- <- <-. exists Refused. eauto.
Qed.
Lemma replace_same se c d rel old new all :
  match replace_said se c d rel old new all with
  | None => replace_in_file c d rel old new all = ReplaceCrashed
  | Some (inr x) => replace_in_file c d rel old new all = NotReplaced /\ exists t, x = fails t
  | Some (inl (content, n)) => replace_in_file c d rel old new all = Replaced content n
  end.
Proof.
  unfold replace_said, replace_in_file, replace_text, read_said. destruct old as [|x old]; [eauto|].
  destruct (read_source_file c d rel) as [text|[]|]; eauto. cbv zeta. destruct (count_matches (x :: old) text =? 0); [destruct (cut_for_display (x :: old)); eauto|].
  destruct ((1 <? count_matches (x :: old) text) && negb all); [destruct (cut_for_display (x :: old)); eauto|]. reflexivity.
Qed.
Lemma delete_same se c d rel :
  match delete_file_said se c d rel with inl r => delete_file c d rel = Some r | inr _ => delete_file c d rel = None end.
Proof.
  unfold delete_file_said, delete_file. destruct (negb (ends_with rel (L ".firm"))); [reflexivity|]. destruct (to_absolute_path c d rel) as [p|]; [|reflexivity].
  destruct (negb (path_exists (c_links c) d p)); [reflexivity|]. destruct (read_text (c_links c) d p) as [s|]; [|reflexivity]. destruct (remove_file (c_links c) d p); reflexivity.
Qed.
(** What is said of a request that was done, up to the state of the workspace. *)
Definition head_said (c : ctx) (d : fs) (r : request) (t : str) : Prop :=
  match r with
  | Write rel content _ => t = say_written rel (length content) (existed c d rel)
  | Replace rel old new all _ => exists content n, replace_in_file c d rel old new all = Replaced content n /\ t = say_replaced rel n
  | Delete rel _ => t = say_deleted rel
  | Build => False
  end.
Lemma tell_same se c d st r d' st' s : tell se c d st r = (d', st', s) ->
  exists a, handle c d st r = (d', st', a) /\
  match a with
  | Accepted => rebuild c d' = Ok st' /\ exists t, s = Some (says t) /\ (r = Build /\ t = build_text st' \/ exists h, head_said c d r h /\ t = h ++ valid_text)
  | Forced => exists e h, rebuild c d' = Err e /\ head_said c d r h /\ s = Some (says (h ++ warning_text (se_load se e)))
  | Refused => exists t, s = Some (fails t)
  | Invalid ok => exists t, s = Some (fails t)
  | Crashed => s = None
  end.
Proof.
  destruct r as [rel content force|rel old new all force|rel force|]; cbn [tell handle head_said].
  - intros H. destruct (tell_write_same se c d st rel content force _ d' st' s H) as (a & -> & K). exists a. split; [reflexivity|]. destruct a; [destruct K as [RB ->]; split; [exact RB|]; eexists; split; [reflexivity|]; right; eauto
      |destruct K as (e & RB & ->); eauto 6|exact K|destruct K as (e & ->); eauto|exact K].
  - intros H. unfold replace_source. pose proof (replace_same se c d rel old new all) as RS. destruct (replace_said se c d rel old new all) as [[[content n]|x]|].
    + rewrite RS. destruct (tell_write_same se c d st rel content force _ d' st' s H) as (a & -> & K). exists a. split; [reflexivity|]. destruct a; [destruct K as [RB ->]; split; [exact RB|]; eexists; split; [reflexivity|]; right; eauto 6
        |destruct K as (e & RB & ->); eauto 9|exact K|destruct K as (e & ->); eauto|exact K].
    + destruct RS as [-> (t & ->)]. injection H as <- <- <-. exists Refused. eauto.
    + rewrite RS. injection H as <- <- <-. exists Crashed. auto.
  - intros H. unfold tell_delete in H. unfold delete_source. pose proof (delete_same se c d rel) as DS. destruct (delete_file_said se c d rel) as [[d1 text]|e]; rewrite DS.
    + destruct (rebuild c d1) as [st1|e|] eqn:RB.
      * injection H as <- <- <-. exists Accepted. split; [reflexivity|]. split; [exact RB|]. eexists. split; [reflexivity|]. right. eauto.
      * destruct force.
        -- injection H as <- <- <-. exists Forced. split; [reflexivity|]. exists e, (say_deleted rel). auto.
        -- destruct (rollback_delete c d1 rel text) as [d2 ok]. injection H as <- <- <-. exists (Invalid ok). eauto.
      * injection H as <- <- <-. exists Crashed. auto.
    + injection H as <- <- <-. exists Refused. unfold build_error. eauto.
  - intros H. unfold tell_build in H. unfold build_tool. destruct (rebuild c d) as [st1|e|] eqn:RB; injection H as <- <- <-.
    + exists Accepted. split; [reflexivity|]. split; [exact RB|]. eexists. split; [reflexivity|]. left. auto.
    + exists Refused. unfold build_error. eauto.
    + exists Crashed. auto.
Qed.

(** ** Texts *)
Lemma show_nat_said n : number_said (show_nat n) n.
Proof.
  unfold show_nat, number_said. split; [apply show_N_nonnil|]. split; [apply Forall_forall; intros a Ha; pose proof (show_N_digits (N.of_nat n)) as D; rewrite forallb_forall in D; auto|].
  pose proof (parse_show_N (N.of_nat n)) as P. unfold parse_N in P. pose proof (show_N_nonnil (N.of_nat n)) as NN. destruct (show_N (N.of_nat n)) as [|a s] eqn:E; [congruence|]. rewrite <- E in *. clear E NN. revert P.
  generalize 0%N as v. induction (show_N (N.of_nat n)) as [|b u IH]; intros v P; cbn [digits_val fold_left] in *; [injection P as <-; reflexivity|]. destruct (is_digit b); [auto|discriminate].
Qed.
Lemma warned_not_valid h e : ~ ends_in (h ++ warning_text e) valid_text.
Proof.
  intros (r & E). unfold warning_text in E. rewrite !app_assoc in E. apply (f_equal (@rev ascii)) in E. rewrite !rev_app_distr in E. set (x := rev e ++ _) in E. clearbody x.
  set (y := rev r) in E. clearbody y. vm_compute in E. discriminate E.
Qed.

(** ** What a successful request did *)
Lemma handled_done c w d st r d' st' a : ordinary c w d -> plain_request r -> of_source r -> handle c d st r = (d', st', a) -> succeeded a -> done c d d' r.
Proof.
  intros O R SO H A. destruct (edit_error_free c w d st r d' st' a O R H) as [O' _]. pose proof O as (RI & NL & _ & TX). pose proof O' as (RI' & NL' & _ & TX').
  destruct r as [rel content force|rel old new all force|rel force|]; unfold of_source in SO; cbn [edited plain_request handle done] in *.
  - destruct SO as (dir & n & PR & FN), R as [P TC]. destruct (accepted_write c d w st rel content force d' st' a RI H A) as (_ & _ & K).
    destruct (wrote_at c w d d' rel content K) as (q & R1 & F1 & _). destruct (resolves_to c w rel dir n P PR FN d' RI' NL' q R1) as [-> _]. now apply (reads c w rel dir n P PR FN d' RI' NL').
  - destruct SO as (dir & n & PR & FN), R as [P _]. destruct (replace_effect c d w st rel old new all force d' st' a RI H) as [(_ & _ & B)|(q & text & content & m & R1 & I & F & T & RT & NE & -> & _)].
    { exfalso. destruct A as [-> | ->]; destruct B as [B|[B|B]]; discriminate. }
    destruct (resolves_to c w rel dir n P PR FN d RI NL q R1) as [-> _]. apply replace_text_spec in RT as (ps & PS & _ & _ & _ & ->); [|exact NE].
    exists text, ps. split; [now apply (reads c w rel dir n P PR FN d RI NL)|]. split; [exact PS|].
    assert (N' : node_at (set_node d (spot w dir n) (File (join new ps))) (spot w dir n) = Some (File (join new ps))) by (apply node_set_same, spot_root).
    apply (reads c w rel dir n P PR FN _ RI' NL'); [exact N'|]. exact (TX' _ _ I N').
  - destruct SO as (dir & n & PR & FN). unfold delete_source in H. destruct (delete_file c d rel) as [[d1 text]|] eqn:DF; [|injection H as <- <- <-; destruct A; discriminate].
    destruct (rollback_deleted c d w rel d1 text RI DF) as (q & R1 & I & F & T & E & V & _).
    assert (d' = d1) as ->. { destruct (rebuild c d1); [injection H as <- <- <-; reflexivity| |injection H as <- <- <-; reflexivity]. destruct force; [injection H as <- <- <-; reflexivity|]. destruct (rollback_delete _ _ _ _). injection H as <- <- <-. destruct A; discriminate. }
    split; [destruct (resolves_to c w rel dir n R PR FN d RI NL q R1) as [-> _]; exists text; now apply (reads c w rel dir n R PR FN d RI NL)|].
    unfold read_source_file. rewrite (absolute_spec c d1 w rel RI'), V, (proj2 R). unfold path_exists. rewrite V. reflexivity.
  - unfold build_tool in H. destruct (rebuild c d); injection H as <- <- <-; reflexivity.
Qed.
Lemma existed_there c w d st rel content force d' st' a : ordinary c w d -> plain rel -> write_source c d st rel content force = (d', st', a) -> succeeded a ->
  existed c d rel = path_exists (c_links c) d (named c rel).
Proof.
  intros (RI & NL & _ & TX) P H A. destruct (accepted_write c d w st rel content force d' st' a RI H A) as (_ & _ & [(q & old & R & I & F & _)|(NA & _)]); unfold existed, read_text, stat, path_exists.
  - rewrite R, F, (TX _ _ I F). reflexivity.
  - destruct (resolve (c_links c) d (named c rel)) as [q| | |]; [destruct (NA q eq_refl)| | |]; reflexivity.
Qed.

(** ** Adding *)
Lemma add_same se c ae d st a d' st' s : tell_add se c ae d st a = (d', st', s) ->
  exists x, add_tool c ae d st a = (d', st', x) /\
  match x with
  | Accepted | Forced => exists e more, entity_to_add c ae st a = Some e /\ append_block c d (target_of c a) (generate_dsl (c_env c) default_options [e]) = (d', true) /\
      s = Some {| is_error := false; contents := added_text a (negb (file_exists c d (target_of c a))) :: generate_dsl (c_env c) default_options [e] :: more |} /\
      (x = Accepted -> more = [] /\ rebuild c d' = Ok st') /\
      (x = Forced -> exists err, more = [L "Warning: workspace rebuild failed after adding entity: " ++ se_load se err] /\ rebuild c d' = Err err)
  | Crashed => s = None
  | _ => exists t, s = Some (fails t)
  end.
Proof.
  unfold tell_add, add_tool. intros H. destruct (entity_to_add c ae st a) as [e|]; [|injection H as <- <- <-; exists Refused; unfold build_error; eauto].
  cbv zeta in H. destruct (append_block c d (target_of c a) (generate_dsl (c_env c) default_options [e])) as [d1 [|]] eqn:AB; [|injection H as <- <- <-; exists Refused; unfold build_error; eauto].
  destruct (rebuild c d1) as [st1|err|] eqn:RB; injection H as <- <- <-.
  - exists Accepted. split; [reflexivity|]. exists e, []. split; [reflexivity|]. split; [exact AB|]. split; [reflexivity|]. split; [auto|discriminate].
  - exists Forced. split; [reflexivity|]. exists e, [L "Warning: workspace rebuild failed after adding entity: " ++ se_load se err]. split; [reflexivity|]. split; [exact AB|]. split; [reflexivity|]. split; [discriminate|eauto].
  - exists Crashed. auto.
Qed.
Lemma created_spec c d p dsl d' : sound d -> slashless p -> append_block c d p dsl = (d', true) ->
  exists q old, resolve (c_links c) d' p = At q /\ node_at d' q = Some (File (ended old ++ dsl)) /\
    if file_exists c d p then node_at d q = Some (File old) else node_at d q = None /\ old = [].
Proof.
  intros SD SL H. destruct (append_spec c d p dsl d' true SD SL H) as (d1 & q & old & X & S1 & _ & P & K & ->). exists q, old.
  assert (NE : q <> []).
  { destruct K as [(_ & F & _)|(R & _)]; [eapply file_not_root; eauto|]. apply vacant_none in R. tauto. }
  assert (E : match parent p with Some q => fst (create_dir_all (S (length q)) (c_links c) d q) | None => d end = d1).
  { destruct (parent p); [rewrite P; reflexivity|auto]. }
  unfold file_exists. rewrite E. split; [|split].
  - destruct K as [(R & F & _)|(R & _)].
    + unfold resolve in *. rewrite <- R. apply walk_contents. apply set_contents with old; auto.
    + unfold resolve in *. apply walk_fill. exact R.
  - apply node_set_same. exact NE.
  - unfold path_exists. destruct K as [(R & F & _)|(R & N & ->)]; rewrite R.
    + destruct (X q) as [Y|[_ Y]]; congruence.
    + destruct (X q) as [Y|[_ Y]]; [|congruence]. split; [congruence|reflexivity].
Qed.
Lemma compose_nonempty t i : compose_entity_id t i <> [].
Proof.
  unfold compose_entity_id, new_id. intros E. pose proof (unsep_to_snake (lower t ++ L "." ++ i)) as U.
  assert (X : In "."%char (lower (unsep (lower t ++ L "." ++ i)))).
  { apply in_map_iff. exists "."%char. split; [reflexivity|]. apply filter_In. split; [|reflexivity]. apply in_or_app. right. left. reflexivity. }
  rewrite <- U in X. apply filter_In in X as [X _]. rewrite E in X. exact X.
Qed.
Lemma pairs_length {A B} (R : A -> B -> Prop) l m : Forall2 R l m -> length l = length m.
Proof. induction 1; cbn [length]; congruence. Qed.
Lemma served_id c d st e : shuffles (c_fields c) -> rebuild c d = Ok st -> In e (b_entities (st_build st)) -> exists t i, e_id e = compose_entity_id t i.
Proof.
  intros SH RB I. destruct (rebuild_files c d st RB) as (fs & _ & _ & G). apply load_ok in G as (BW & _ & _). apply (build_ok _ _ _ _ _ SH) in BW as (ss & (_ & R & _) & _).
  destruct (L_Load.Forall2_in_r _ _ _ _ R I) as ([p n] & _ & T). unfold reads_entity in T; cbn [fst snd] in T. unfold to_entity in T.
  destruct (en_type n) as [t|], (en_id n) as [i|]; try discriminate. cbn [of_option obind] in T. destruct (omap _ _) as [fl| |]; try discriminate. injection T as <-. cbn [e_id]. eauto.
Qed.
Lemma join_begins (x : str) l : x <> [] -> exists y z, join [LF] (x :: l) = y :: z /\ exists w, x = y :: w.
Proof. intros N. destruct x as [|y w]; [congruence|]. destruct l; cbn [join app]; eexists; eexists; (split; [reflexivity|eauto]). Qed.
(** The wordings of errors. *)
Definition other_error (t : str) : Prop := ~ begins_with t (L "Validation failed: ") /\ ~ begins_with t (L "Deletion would break the workspace: ").
Ltac other := split; intros (? & X); discriminate X.
Lemma write_file_errors se c d rel content d1 x : write_file_said se c d rel content = (d1, Some x) -> exists t, x = fails t /\ other_error t.
Proof.
  unfold write_file_said. intros H.
  destruct (negb (ends_with rel (L ".firm"))); [injection H as <- <-; eexists; split; [reflexivity|other]|].
  destruct (to_absolute_path c d rel) as [p|]; [|injection H as <- <-; eexists; split; [reflexivity|other]].
  destruct (match parent p with Some q => create_dir_all (S (length q)) (c_links c) d q | None => (d, true) end) as [d2 [|]]; [|injection H as <- <-; eexists; split; [reflexivity|other]].
  destruct (write (c_links c) d2 p content) as [d3|]; [discriminate|]. injection H as <- <-. eexists; split; [reflexivity|other].
Qed.
Lemma validate_errors se c d rel content d1 x : validate_said se c d rel content = (d1, inr x) -> exists t, x = fails t /\ other_error t.
Proof.
  unfold validate_said. intros H. destruct (c_parse c content) as [ps|]; [|injection H as <- <-; eexists; split; [reflexivity|other]].
  destruct (ps_error ps); [injection H as <- <-; eexists; split; [reflexivity|other]|]. destruct (write_file_said se c d rel content) as [d2 [y|]] eqn:W; [|discriminate].
  injection H as <- <-. exact (write_file_errors se c d rel content _ _ W).
Qed.
Lemma tell_write_errors se c d st rel content force f d' st' s : tell_write se c d st rel content force f = (d', st', Some s) -> is_error s = true ->
  exists t, contents s = [t] /\ (other_error t \/ exists ok x, write_source c d st rel content force = (d', st', Invalid ok) /\ t = invalid_text x ok).
Proof.
  unfold tell_write, write_source. intros H E. destruct (validate_said se c d rel content) as [d1 [o|x]] eqn:V.
  - pose proof (validate_same se c d rel content _ _ V) as [E1 E2]. rewrite E1. unfold finish_write. cbv zeta in H. destruct (rebuild c d1) as [st1|e|] eqn:RB.
    + injection H as <- <- <-. discriminate.
    + destruct force; [injection H as <- <- <-; discriminate|]. destruct (rollback_write c d1 rel o) as [d2 ok]. injection H as <- <- <-. eexists. split; [reflexivity|]. right. eauto.
    + discriminate.
  - destruct (validate_errors se c d rel content _ _ V) as (t & -> & O). injection H as <- <- <-. eexists. split; [reflexivity|]. auto.
Qed.
Lemma replace_errors se c d rel old new all x : replace_said se c d rel old new all = Some (inr x) -> exists t, x = fails t /\ other_error t.
Proof.
  unfold replace_said, read_said. intros H. destruct old as [|y old]; [injection H as <-; eexists; split; [reflexivity|other]|].
  destruct (read_source_file c d rel) as [text|[]|]; try (injection H as <-; eexists; split; [reflexivity|other]). cbv zeta in H.
  destruct (count_matches (y :: old) text =? 0); [destruct (cut_for_display (y :: old)); [injection H as <-; eexists; split; [reflexivity|other]|discriminate]|].
  destruct ((1 <? count_matches (y :: old) text) && negb all); [|discriminate]. destruct (cut_for_display (y :: old)); [injection H as <-; eexists; split; [reflexivity|other]|discriminate].
Qed.
Lemma tell_errors se c d st r d' st' s : tell se c d st r = (d', st', Some s) -> is_error s = true ->
  exists t, contents s = [t] /\ (other_error t \/ exists ok x, handle c d st r = (d', st', Invalid ok) /\ t = match r with Delete _ _ => say_undeleted x ok | _ => invalid_text x ok end).
Proof.
  destruct r as [rel content force|rel old new all force|rel force|]; cbn [tell handle]; intros H E.
  - eapply tell_write_errors; eauto.
  - unfold replace_source. pose proof (replace_same se c d rel old new all) as RS. destruct (replace_said se c d rel old new all) as [[[content n]|x]|] eqn:R; [|destruct (replace_errors se c d rel old new all x R) as (t & -> & O)|discriminate].
    + rewrite RS. eapply tell_write_errors; eauto.
    + injection H as <- <- <-. eexists. split; [reflexivity|]. auto.
  - unfold tell_delete in H. unfold delete_source. pose proof (delete_same se c d rel) as DS. destruct (delete_file_said se c d rel) as [[d1 text]|e]; rewrite DS.
    + destruct (rebuild c d1) as [st1|e|] eqn:RB; [injection H as <- <- <-; discriminate| |discriminate]. destruct force; [injection H as <- <- <-; discriminate|].
      destruct (rollback_delete c d1 rel text) as [d2 ok]. injection H as <- <- <-. eexists. split; [reflexivity|]. right. eauto.
    + injection H as <- <- <-. eexists. split; [reflexivity|]. left. other.
  - unfold tell_build in H. destruct (rebuild c d) as [st1|e|] eqn:RB; [injection H as <- <- <-; discriminate| |discriminate]. injection H as <- <- <-. eexists. split; [reflexivity|]. left. other.
Qed.
