(** Crashes of the command line. *)
From Coq Require Import Permutation.
From Verif Require Import M_Graph M_Add M_Cli S_Dsl S_Crash L_Crash.
From Verif Require Import M_Fs.
Close Scope Z_scope.

Lemma workspace_build_crash c d : (forall l, Permutation (c_files c l) l) -> workspace_build c d = Panic -> crash_on_disk c d.
Proof.
  intros P H. unfold workspace_build in H. apply obind_panic_inv in H as [H|(fs & LD & H)]; [destruct (load_dir_no_panic _ _ _ _ H)|].
  apply obind_panic_inv in H as [H|(b & _ & H)]; [|discriminate]. exact (workspace_crash c d fs P LD H).
Qed.
Lemma prepare_crash c x d cached d1 : (forall l, Permutation (c_files c l) l) -> prepare c x d cached = (d1, Died) -> d1 = d /\ crash_on_disk c d.
Proof.
  intros P. unfold prepare. destruct cached; [discriminate|]. destruct (rebuild c d) as [st|e|] eqn:B.
  1,2: destruct (build_and_save (cl_json x) c d Finished) as [d2 [|]]; discriminate.
  intros [= <-]. split; [reflexivity|]. apply build_crash; assumption.
Qed.
Lemma read_crash c x d q : (forall l, Permutation (c_files c l) l) -> read_command c x d q = Died -> crash_on_disk c d.
Proof.
  intros P. assert (G : forall (f : graph -> ended_as reply), (forall g, f g <> Died) -> match load_current_graph (cl_json x) c d with Some g => f g | None => Failed end <> Died).
  { intros f F. destruct (load_current_graph (cl_json x) c d); [apply F|discriminate]. }
  assert (W : forall (f : files * wbuild -> ended_as reply), (forall g, f g <> Died) ->
    match workspace_build c d with Ok fb => f fb | Err _ => Failed | Panic => Died end = Died -> crash_on_disk c d).
  { intros f F X. destruct (workspace_build c d) eqn:E; [destruct (F _ X)|discriminate|]. apply workspace_build_crash; assumption. }
  destruct q as [t i|t|t i dir|s|t i]; unfold read_command; cbv zeta.
  - destruct (str_eqb t (L "schema")); intros H.
    + revert H. apply W. intros fb. destruct (find _ _); discriminate.
    + exfalso. revert H. apply G. intros g. destruct (get_entity _ _); discriminate.
  - destruct (str_eqb t (L "schema")); intros H.
    + revert H. apply W. intros fb. discriminate.
    + exfalso. revert H. apply G. intros g. discriminate.
  - intros H. exfalso. revert H. apply G. intros g. destruct (get_related _ _ _); discriminate.
  - intros H. exfalso. revert H. apply G. intros g. destruct (query_text x g s); discriminate.
  - destruct (load_directory c d) as [fs|e|] eqn:LD; [|discriminate|destruct (load_dir_no_panic _ _ _ _ LD)].
    destruct (if str_eqb t (L "schema") then _ else _); discriminate.
Qed.
Lemma cli_value_crash c x d target t s : cli_value c x d target t s = Panic -> cut_string s \/ overflowing_zone (c_env c) s.
Proof.
  destruct t; unfold cli_value; intros H.
  all: try (exfalso; revert H; unfold parse_boolean, parse_number, parse_currency, parse_reference, parse_enum;
            repeat match goal with |- context [if ?x then _ else _] => destruct x | |- context [match ?x with _ => _ end] => destruct x end; discriminate).
  - left. apply string_crash, H.
  - right. apply datetime_crash. destruct (parse_datetime (c_env c) s); [discriminate| |reflexivity]. exfalso. revert H. unfold parse_date.
    repeat match goal with |- context [if ?x then _ else _] => destruct x | |- context [match ?x with _ => _ end] => destruct x end; discriminate.
Qed.
Lemma cli_entity_crash c x d g schemas a : cli_entity c x d g schemas a = Panic ->
  exists name s, (In (name, s) (x_fields a) \/ In (name, s) (x_values a)) /\ (cut_string s \/ overflowing_zone (c_env c) s).
Proof.
  unfold cli_entity. destruct (find _ schemas) as [sc|]; [|discriminate]. cbv zeta. destruct (get_entity g _); [discriminate|].
  intros H. apply obind_panic_inv in H as [H|(fs & _ & H)].
  - apply omap_panic in H as (good & [name s] & rest & E & _ & H). unfold cli_field in H. cbv zeta in H. destruct (assoc _ (s_fields sc)) as [f|]; [|discriminate].
    apply obind_panic_inv in H as [H|(p & _ & H)]; [|discriminate]. apply omap_err_panic, cli_value_crash in H. exists name, s. split; [|exact H].
    left. rewrite E. apply in_app_iff. right. left. reflexivity.
  - apply obind_panic_inv in H as [H|(ls & _ & H)]; [|destruct (validate (c_fields c) sc _); discriminate].
    apply omap_panic in H as (_ & nt & _ & _ & _ & H). unfold cli_list in H. cbv zeta in H. destruct (assoc _ (s_fields sc)) as [f|]; [|discriminate].
    destruct (negb _); [discriminate|]. destruct (item_type (snd nt)) as [t|]; [|discriminate].
    destruct (filter (fun nv => str_eqb (fst nv) (fst nt)) (x_values a)) as [|v0 vs] eqn:F; [discriminate|]. 
    apply obind_panic_inv in H as [H|(p & _ & H)].
    + apply omap_err_panic, omap_panic in H as (good & [name s] & rest & E & _ & H). apply cli_value_crash in H. exists name, s. split; [|exact H]. right.
      assert (I : In (name, s) (v0 :: vs)) by (rewrite E; apply in_app_iff; right; left; reflexivity). rewrite <- F in I. apply filter_In in I as [I _]. exact I.
    + apply obind_panic_inv in H as [H|(q & _ & H)]; [|discriminate]. apply omap_err_panic in H. destruct (list_no_panic _ H).
Qed.
Lemma add_crash c x d a d' : (forall l, Permutation (c_files c l) l) -> add_command c x d a = (d', Died) -> d' = d /\
  (crash_on_disk c d \/ exists name s, (In (name, s) (x_fields a) \/ In (name, s) (x_values a)) /\ (cut_string s \/ overflowing_zone (c_env c) s)).
Proof.
  intros P. unfold add_command. destruct (load_current_graph (cl_json x) c d) as [g|]; [|discriminate].
  destruct (workspace_build c d) as [[fs b]|e|] eqn:W; [|discriminate|].
  - destruct (cli_entity c x d g (b_schemas b) a) as [e|e|] eqn:E; [|discriminate|].
    + destruct (write_dsl c d (dsl_path c (x_type a) (x_file a)) (generate_dsl (c_env c) default_options [e])) as [d1 [|]]; discriminate.
    + intros [= <-]. split; [reflexivity|]. right. eapply cli_entity_crash. exact E.
  - intros [= <-]. split; [reflexivity|]. left. apply workspace_build_crash; assumption.
Qed.
Lemma add_tool_crash c ae d st a d' st' : (forall l, Permutation (c_files c l) l) -> add_tool c ae d st a = (d', st', Crashed) -> st' = st /\ crash_on_disk c d'.
Proof.
  intros P. unfold add_tool. destruct (entity_to_add c ae st a) as [e|]; [|discriminate].
  destruct (append_block c d (target_of c a) (generate_dsl (c_env c) default_options [e])) as [d1 [|]]; [|discriminate].
  destruct (rebuild c d1) as [st1|x|] eqn:B; try discriminate. intros [= <- <-]. split; [reflexivity|]. apply build_crash; assumption.
Qed.
