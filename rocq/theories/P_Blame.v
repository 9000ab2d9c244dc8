(** C87: the message of a failed build is true, and lists every fault of the
    entity it names. *)
From Coq Require Import Lia Permutation.
From Verif Require Import S_Graph L_Graph.
From Verif Require Import S_Blame S_Setup L_Str L_Schema L_Schema2 L_Fs L_Server L_Load L_History L_Workspace L_Replace L_Add L_Prompt L_Init L_Init2 L_Setup L_Blame.
From Verif Require Import P_Dsl P_Schema P_Workspace P_Server P_Init P_Setup.
From Verif Require Import M_Fs.
Close Scope Z_scope.

(** There is a message exactly if the build fails. *)
Theorem C87_message_iff_failed : forall be c d, (exists t, build_message be c d = Some t) <-> exists e, rebuild c d = Err e.
Proof.
  intros be c d. unfold build_message. pose proof (fault_rebuild_same be c d) as S. destruct (fault_rebuild be c d); split; eauto.
  - intros (t & X). discriminate.
  - intros (e & X). congruence.
  - intros (t & X). discriminate.
  - intros (e & X). congruence.
Qed.
Print Assumptions C87_message_iff_failed.
(** What it says is so. *)
Theorem C87_message_is_true : forall be c d t, shuffles (c_fields c) -> build_message be c d = Some t -> explained be c d t.
Proof. intros be c d t SH H. unfold build_message in H. destruct (fault_rebuild be c d) as [|x|] eqn:F; try discriminate. injection H as <-. apply rebuild_explained; auto. Qed.
Print Assumptions C87_message_is_true.
(** The same of a build of files that are loaded already. *)
Theorem C87_build_message_is_true : forall be env ho so fs x, shuffles ho -> fault_build be env ho so fs = Err x -> faulty be env fs (show_fault be x).
Proof. exact fault_build_err. Qed.
Print Assumptions C87_build_message_is_true.
(** A list of faults names the field of each. *)
Theorem C87_fields_are_named : forall be id xs x f, In x xs -> about_field x f ->
  occurs (L "FieldId(" ++ be_debug be f ++ L ")") (debug_verrors be id xs) /\ occurs (be_debug be (verror_message id x)) (debug_verrors be id xs) /\
  occurs (L "'" ++ f ++ L "'") (verror_message id x) /\ occurs (L "'" ++ id ++ L "'") (verror_message id x).
Proof.
  intros be id xs x f I AF.
  pose proof (occurs_in_list be id xs x I) as O.
  split; [|split; [|split]].
  - apply O. unfold debug_verror, occurs. destruct x as [| | |]; cbn [about_field] in AF; [contradiction| | |]; subst; cbn [debug_field].
    all: eexists (L "ValidationError { entity_id: Some(EntityId(" ++ be_debug be id ++ L ")), field: Some("), _; rewrite <- !app_assoc; reflexivity.
  - apply quoted_in_list. exact I.
  - unfold occurs. destruct x as [|g|g ? ?|g ? ?]; cbn [about_field] in AF; [contradiction| | |]; subst; cbn [verror_message].
    + eexists (L "Missing required field "), _. rewrite <- !app_assoc. reflexivity.
    + eexists (L "Expected field "), _. rewrite <- !app_assoc. reflexivity.
    + eexists (L "Invalid value '" ++ actual ++ L "' for enum field "), _. rewrite <- !app_assoc. reflexivity.
  - unfold occurs. destruct x as [|g|g ? ?|g ? ?]; cbn [about_field] in AF; [contradiction| | |]; subst; cbn [verror_message].
    + eexists (L "Missing required field '" ++ f ++ L "' for entity "), []. rewrite app_nil_r, <- !app_assoc. reflexivity.
    + eexists (L "Expected field '" ++ f ++ L "' for entity "), _. rewrite <- !app_assoc. reflexivity.
    + eexists (L "Invalid value '" ++ actual ++ L "' for enum field '" ++ f ++ L "' in entity "), _. rewrite <- !app_assoc. reflexivity.
Qed.
Print Assumptions C87_fields_are_named.
(** The messages of the list are those that are to be given, and each is quoted in it. *)
Theorem C87_violations_are_described : forall be ho s e t, shuffles ho ->
  (In t (map (verror_message (e_id e)) (validate ho s e)) <-> told s e t) /\
  (told s e t -> occurs (be_debug be t) (debug_verrors be (e_id e) (validate ho s e))).
Proof.
  intros be ho s e t SH.
  assert (K : In t (map (verror_message (e_id e)) (validate ho s e)) <-> told s e t).
  { rewrite in_map_iff. split.
    - intros (x & <- & I). apply (validate_in ho s e x SH) in I. destruct I as [N|id f I R A|id f v t I F T N|id f x ws I F T A N|id f x I F T A]; cbn [verror_message].
      + constructor; assumption.
      + econstructor; eassumption.
      + change (ftype_name (fs_type f)) with (type_title (fs_type f)). change (ftype_name t) with (type_title t). econstructor; eassumption.
      + econstructor; eauto.
      + eapply told_enum; eauto.
    - intros H. destruct H as [N|id f I R A|id f v t I F T N|id f x ws I F T A N].
      + eexists; split; [|apply (validate_in ho s e _ SH); apply viol_entity_type; assumption]. reflexivity.
      + eexists; split; [|apply (validate_in ho s e _ SH); eapply viol_missing; eassumption]. reflexivity.
      + eexists; split; [|apply (validate_in ho s e _ SH); eapply viol_field_type; eassumption]. reflexivity.
      + destruct A as [A|[A ->]].
        * eexists; split; [|apply (validate_in ho s e _ SH); eapply viol_enum; eassumption]. reflexivity.
        * eexists; split; [|apply (validate_in ho s e _ SH); eapply viol_enum_open; eassumption]. reflexivity. }
  split; [exact K|]. intros H. apply K in H. apply in_map_iff in H as (x & <- & I). apply quoted_in_list. exact I.
Qed.
Print Assumptions C87_violations_are_described.
(** The advice to run firm init helps: after it, with a yes to every question,
    no type is without a schema for which that is the advice. *)
Theorem C87_advice_helps : forall be c template d w y pn on, runs_in c d w -> no_links_in w d -> tidy d -> usable w d -> says_yes y ->
  shuffles (c_fields c) -> (forall l, Permutation (c_files c l) l) -> Forall (reads_schema_text c) all_default_schemas ->
  exists acts d', Forall (fun a => a = y \/ a = Types pn \/ a = Types on) acts /\ run_init c template d acts = (d', Succeeded tt) /\
    forall p t, fault_rebuild be c d' = Err (FMissing p t) -> ~ In t default_types.
Proof.
  intros be c template d w y pn on RI NL TD U Y SH PC RS. destruct (init_again c w y Y template d pn on (conj RI NL) U) as (acts & d' & F & E & [RI' NL'] & TD' & S & _).
  exists acts, d'. split; [exact F|]. specialize (E []). rewrite app_nil_r in E. unfold run_init. rewrite E. split; [reflexivity|].
  intros p t H D. change default_types with (map s_type all_default_schemas) in D. apply in_map_iff in D as (s & <- & Is).
  unfold fault_rebuild in H. pose proof (fault_load_same be c d') as LS. destruct (fault_load be c d') as [fs|z|] eqn:LD; cbn [obind omap_err] in *; [| |discriminate].
  2: { injection H as ->. destruct (fault_dir_err be _ c d' _ _ LD) as [X|(r & q & _ & _ & X)]; discriminate. }
  cbv zeta in H. pose proof (fault_build_same be (c_env c) (c_fields c) (c_schemas c) (c_files c fs)) as BS. destruct (fault_build be _ _ _ _) as [b|z|] eqn:B; cbn [obind omap_err] in *; [| |discriminate].
  { destruct (add_entities graph_new (b_entities b)) as [g [u|z]]; discriminate. }
  injection H as ->. symmetry in BS. apply (C33_errors_name_the_culprit _ _ _ _ _ SH) in BS. cbn [forget blamed] in BS. destruct BS as (_ & _ & _ & _ & _ & _ & _ & NO).
  rewrite Forall_forall in RS. destruct (RS s Is) as (TX & ps & PP & PS & _).
  destruct (C52_loads_exactly_the_source_files c d' w fs RI' NL' (TD' TD) (eq_sym LS)) as (_ & I).
  assert (SO : source_of w d' (schema_place s) (schema_text c s)).
  { split; [exact (S s Is)|]. exists [L "schemas"], (schema_file s). split; [reflexivity|].
    exists (s_type s). split; [|reflexivity]. assert (FA : Forall (fun x => s_type x <> []) all_default_schemas) by (repeat constructor; discriminate). rewrite Forall_forall in FA. exact (FA s Is). }
  assert (J : In (loaded c (schema_place s) ps) (c_files c fs)).
  { eapply Permutation_in; [apply Permutation_sym, PC|]. apply I. exists (schema_place s), (schema_text c s), ps. auto. }
  destruct (proj2 (proj2 C60_default_schemas) s Is) as (_ & K). destruct (K (c_env c) (wf_rel (snd (loaded c (schema_place s) ps))) (c_fields c) SH) as (s' & R & SA).
  apply (NO (wf_rel (snd (loaded c (schema_place s) ps)), written_schema (c_fields c) s) s').
  - apply in_flat_map. exists (loaded c (schema_place s) ps). split; [exact J|]. apply in_map. cbn [loaded snd wf_schemas]. rewrite PS. left. reflexivity.
  - exact R.
  - specialize (SA (c_fields c) SH). unfold said in SA. injection SA as SA _. exact SA.
Qed.
Print Assumptions C87_advice_helps.

(** ** Where it is not so *)
Definition be0 : blame_env := {| be_debug := fun s => L """" ++ s ++ L """"; be_io := L "io"; be_tree := fun _ => L "tree" |}.
Definition one_file (ss : list snode) (es : list enode) : files := [(L "/w/a.firm", {| wf_rel := L "a.firm"; wf_schemas := ss; wf_entities := es |})].
(** A second schema for a type is reported, but not for which type. *)
Theorem C87_second_schema_named_refuted : exists t t' x, t <> t' /\ forall be,
  fault_build be env0 fid sid (one_file [{| sn_name := Some t; sn_blocks := [] |}; {| sn_name := Some t; sn_blocks := [] |}; {| sn_name := Some t'; sn_blocks := [] |}] []) = Err x /\
  fault_build be env0 fid sid (one_file [{| sn_name := Some t'; sn_blocks := [] |}; {| sn_name := Some t'; sn_blocks := [] |}; {| sn_name := Some t; sn_blocks := [] |}] []) = Err x.
Proof. exists (L "person"), (L "org"). eexists. split; [discriminate|]. intros be. split; vm_compute; reflexivity. Qed.
Print Assumptions C87_second_schema_named_refuted.
(** A value that cannot be read is reported, but neither its field nor its entity. *)
Theorem C87_bad_value_named_refuted : exists t i f t' i' f' v x, t <> t' /\ i <> i' /\ f <> f' /\ forall be ss,
  fault_collect env0 (one_file ss []) [] <> Panic -> (forall y, fault_collect env0 (one_file ss []) [] <> Err y) ->
  fault_build be env0 fid sid (one_file ss [{| en_type := Some t; en_id := Some i; en_fields := [{| fn_id := Some f; fn_value := v |}] |}]) = Err x /\
  fault_build be env0 fid sid (one_file ss [{| en_type := Some t'; en_id := Some i'; en_fields := [{| fn_id := Some f'; fn_value := v |}] |}]) = Err x.
Proof.
  exists (L "person"), (L "ann"), (L "name"), (L "org"), (L "acme"), (L "boss"), None, (FParse (L "/w/a.firm") (show_cerr InvalidFieldValue)). split; [discriminate|]. split; [discriminate|]. split; [discriminate|]. intros be ss NP NE.
  unfold fault_build. cbn [one_file fault_collect wf_schemas wf_rel obind] in *.
  destruct (fault_schemas env0 (L "/w/a.firm") (L "a.firm") ss []) as [m|y|]; [|destruct (NE y eq_refl)|destruct (NP eq_refl)].
  cbn [obind omap fault_file fst snd wf_entities]. split; reflexivity.
Qed.
Print Assumptions C87_bad_value_named_refuted.
(** Of two entities at fault only one is reported. *)
Definition nameless (i : str) : enode := {| en_type := Some (L "person"); en_id := Some i; en_fields := [] |}.
Definition named_schema : snode := {| sn_name := Some (L "person"); sn_blocks := [text_field (L "true") (L "name")] |}.
Theorem C87_every_entity_named_refuted : exists x y,
  fault_build be0 env0 fid sid (one_file [named_schema] [nameless (L "ann"); nameless (L "bob")]) = Err x /\
  fault_build be0 env0 fid sid (one_file [named_schema] [nameless (L "bob")]) = Err y /\
  occurs (L "'person.bob'") (show_fault be0 y) /\ ~ occurs (L "bob") (show_fault be0 x).
Proof.
  eexists. eexists. split; [vm_compute; reflexivity|]. split; [vm_compute; reflexivity|]. split.
  - exists (L "Workspace file at /w/a.firm was invalid: Entity "). eexists. vm_compute. reflexivity.
  - match goal with |- ~ occurs ?p ?s => pose proof (split_pieces p s ltac:(discriminate)) as P; assert (E : split_str p s = [s]) by (vm_compute; reflexivity) end.
    rewrite E in P. inversion P as [? N|? a b ps C Q]; [assumption|]. subst. inversion Q.
Qed.
Print Assumptions C87_every_entity_named_refuted.

Example C87_case :
  (exists x, fault_build be0 env0 fid sid (one_file [named_schema] [nameless (L "ann")]) = Err x /\
     show_fault be0 x = L "Workspace file at /w/a.firm was invalid: Entity 'person.ann' failed validation: [ValidationError { entity_id: Some(EntityId(""person.ann"")), field: Some(FieldId(""name"")), message: ""Missing required field 'name' for entity 'person.ann'"", error_type: MissingRequiredField { required: FieldId(""name"") } }]") /\
  (exists x, fault_build be0 env0 fid sid (one_file [] [nameless (L "ann")]) = Err x /\
     show_fault be0 x = L "No schema found for entity type 'person' in /w/a.firm" ++ [LF; LF] ++ L "Run 'firm init' to create default schemas, or define your own schema in your workspace.") /\
  (exists t, build_message be0 c0 (fst (fst (write_source c0 d0 st0 (L "c.firm") (L "john") true))) = Some t /\
     t = L "Workspace file at /w was invalid: EntityAlreadyExists(EntityId(""person.john""))").
Proof. split; [|split]; eexists; split; vm_compute; reflexivity. Qed.
