(** Workspaces: C03 references, C33 and C34 building, C48 loading, C49 finding
    sources, C50 which schema governs an entity. *)
From Coq Require Import Lia.
From Verif Require Import S_Graph L_Graph.
From Verif Require Import M_Workspace S_Schema L_Str L_Text L_Schema L_Schema2 L_Workspace L_DslStr P_Graph P_Dsl P_Schema.
Close Scope Z_scope.

(** Example workspace: two files. *)
Definition text_field (req : str) (name : str) : nblock :=
  {| nb_type := Some (L "field");
     nb_body := Some [field_node (L "name") (text_node name); field_node (L "type") (text_node (L "reference"));
                      field_node (L "required") (VNode (Some KBoolean) req [])] |}.
Definition ref_field (f t : str) : fnode := {| fn_id := Some f; fn_value := Some (VNode (Some KReference) t []) |}.
Definition ws0 : files :=
  [ (L "/w/a.firm", {| wf_rel := L "a.firm"; wf_schemas := [];
       wf_entities := [ {| en_type := Some (L "person"); en_id := Some (L "JohnDoe"); en_fields := [] |};
                        {| en_type := Some (L "org"); en_id := Some (L "acme"); en_fields := [ref_field (L "boss") (L "person.JohnDoe")] |} ] |});
    (L "/w/b.firm", {| wf_rel := L "b.firm"; wf_entities := [];
       wf_schemas := [ {| sn_name := Some (L "Person"); sn_blocks := [] |};
                       {| sn_name := Some (L "org"); sn_blocks := [text_field (L "true") (L "boss")] |} ] |}) ].
Definition sid (l : list schema) : list schema := l.

(** ** C33 *)
Theorem C33_builds_exactly_the_consistent : forall env ho so fs b, shuffles ho ->
  (build_workspace env ho so fs = Ok b <-> exists ss, consistent env fs ss (b_entities b) /\ b_schemas b = so ss).
Proof. exact build_ok. Qed.
Print Assumptions C33_builds_exactly_the_consistent.
Theorem C33_one_governing_schema : forall env ho so fs b, shuffles ho -> (forall l, Permutation (so l) l) ->
  build_workspace env ho so fs = Ok b -> forall e, In e (b_entities b) ->
  exists s, In s (b_schemas b) /\ conforms s e /\ forall s', In s' (b_schemas b) -> s_type s' = e_type e -> s' = s.
Proof.
  intros env ho so fs b O P H e He. apply (build_ok env ho so fs b O) in H as (ss & (_ & _ & N & C) & E).
  destruct (C e He) as (s & Hs & Cs). exists s. rewrite E. split; [apply (Permutation_in s (Permutation_sym (P ss))); exact Hs|].
  split; [exact Cs|]. intros s' Hs' T. apply (Permutation_in s' (P ss)) in Hs'.
  assert (A : assoc (e_type e) (map (fun s => (s_type s, s)) ss) = Some s) by (apply typed_some; auto; split; auto; symmetry; exact (proj1 Cs)).
  assert (B : assoc (e_type e) (map (fun s => (s_type s, s)) ss) = Some s') by (apply typed_some; auto). congruence.
Qed.
Print Assumptions C33_one_governing_schema.
(** A failed build names a file that is at fault; a crash is that of reading a block. *)
Theorem C33_errors_name_the_culprit : forall env ho so fs x, shuffles ho -> build_workspace env ho so fs = Err x -> blamed env fs x.
Proof. exact build_blames. Qed.
Print Assumptions C33_errors_name_the_culprit.
Theorem C33_crashes_only_where_reading_does : forall env ho so fs, build_workspace env ho so fs = Panic ->
  exists p f, In (p, f) fs /\ ((exists n, In n (wf_schemas f) /\ to_schema env (wf_rel f) n = Panic) \/
                              (exists n, In n (wf_entities f) /\ to_entity env (wf_rel f) n = Panic)).
Proof. exact build_panics. Qed.
Print Assumptions C33_crashes_only_where_reading_does.
Example C33_errors_case : build_workspace env0 fid sid (ws0 ++ ws0) = Err (WValidationError (L "/w/b.firm")) /\ build_workspace env0 fid sid (firstn 1 ws0) = Err (WMissingSchemaError (L "/w/a.firm") (L "person")).
Proof. split; vm_compute; reflexivity. Qed.
Example C33_case : exists b, build_workspace env0 fid sid ws0 = Ok b /\ length (b_entities b) = 2 /\ length (b_schemas b) = 2.
Proof. eexists. split; [vm_compute; reflexivity|]. split; reflexivity. Qed.

(** ** C34 *)
Theorem C34_order_of_files_is_irrelevant : forall env ho ho' so so' fs fs' b, shuffles ho -> shuffles ho' ->
  (forall l, Permutation (so l) l) -> (forall l, Permutation (so' l) l) -> Permutation fs fs' ->
  build_workspace env ho so fs = Ok b ->
  exists b', build_workspace env ho' so' fs' = Ok b' /\
    Permutation (b_entities b) (b_entities b') /\ Permutation (b_schemas b) (b_schemas b').
Proof.
  intros env ho ho' so so' fs fs' b O O' P P' F H. apply (build_ok env ho so fs b O) in H as (ss & C & E).
  destruct (consistent_perm env fs fs' ss _ F C) as (ss' & es' & C' & P1 & P2).
  exists {| b_entities := es'; b_schemas := so' ss' |}. split; [apply build_ok; auto; exists ss'; auto|].
  cbn [b_entities b_schemas]. split; [exact P2|]. rewrite E, (P ss), (P' ss'). exact P1.
Qed.
Print Assumptions C34_order_of_files_is_irrelevant.
Example C34_case : Permutation ws0 (rev ws0) /\ rev ws0 <> ws0 /\
  exists b, build_workspace env0 frev sid (rev ws0) = Ok b.
Proof. split; [apply Permutation_rev|]. split; [discriminate|]. eexists. vm_compute. reflexivity. Qed.

(** ** C48 *)
Theorem C48_loads_exactly_when_built_and_ids_distinct : forall env ho so fs b g,
  load_graph env ho so fs = Ok (b, g) <->
  build_workspace env ho so fs = Ok b /\ NoDup (map e_id (b_entities b)) /\ g = run [OAddMany (b_entities b); OBuild].
Proof. exact load_ok. Qed.
Print Assumptions C48_loads_exactly_when_built_and_ids_distinct.
(** Every entity block of a loaded workspace is served under its id. *)
Theorem C48_every_declared_entity_is_served : forall env ho so fs b g, shuffles ho -> load_graph env ho so fs = Ok (b, g) ->
  forall path n, In (path, n) (entity_blocks fs) ->
  exists e, to_entity env path n = Ok e /\ get_entity g (e_id e) = Some e.
Proof.
  intros env ho so fs b g O H path n Hn. apply load_ok in H as (B & N & ->).
  apply (build_ok env ho so fs b O) in B as (ss & (_ & F & _) & _).
  destruct (Forall2_in_l _ _ _ F (path, n) Hn) as (e & He & R). exists e. split; [exact R|].
  rewrite (proj1 (C05_lookup_and_results _)), (load_spec _ N). apply lookup_in; auto.
Qed.
Print Assumptions C48_every_declared_entity_is_served.
(** And nothing else is. *)
Theorem C48_only_declared_entities_are_served : forall env ho so fs b g, shuffles ho -> load_graph env ho so fs = Ok (b, g) ->
  forall id e, get_entity g id = Some e ->
  e_id e = id /\ exists path n, In (path, n) (entity_blocks fs) /\ to_entity env path n = Ok e.
Proof.
  intros env ho so fs b g O H id e G. apply load_ok in H as (B & N & ->).
  apply (build_ok env ho so fs b O) in B as (ss & (_ & F & _) & _).
  rewrite (proj1 (C05_lookup_and_results _)), (load_spec _ N) in G. apply lookup_some in G as [I E]. split; [exact E|].
  destruct (Forall2_in_r _ _ _ F e I) as ((path & n) & Hn & R). exists path, n. auto.
Qed.
Print Assumptions C48_only_declared_entities_are_served.
Example C48_case : exists b g, load_graph env0 fid sid ws0 = Ok (b, g) /\
  map e_id (b_entities b) = [L "person.john_doe"; L "org.acme"] /\ length (g_edges g) = 1.
Proof. eexists. eexists. split; [vm_compute; reflexivity|]. split; vm_compute; reflexivity. Qed.

(** ** C03 *)
(** Read anywhere, the reference [t.i] denotes the entity declared as [t i]. *)
Theorem C03_same_spelling_same_entity : forall env path path' n e t i f items, to_entity env path n = Ok e ->
  en_type n = Some t -> en_id n = Some i -> dotless t -> dotless i -> dotless f ->
  (exists p, from_node env path' (VNode (Some KReference) (ref_text t i) items) = Ok p /\ to_value p = VRef (REntity (e_id e))) /\
  (exists p, from_node env path' (VNode (Some KReference) (field_ref_text t i f) items) = Ok p /\ to_value p = VRef (RField (e_id e) f)).
Proof.
  intros env path path' n e t i f items H T I D1 D2 D3.
  assert (E : e_id e = compose_entity_id t i).
  { unfold to_entity in H. rewrite T, I in H. cbn [of_option obind] in H.
    destruct (omap (convert_field env path) (en_fields n)); try discriminate. injection H as <-. reflexivity. }
  rewrite E. cbn [from_node]. unfold parse_reference, ref_text, field_ref_text.
  split.
  - replace (split_char "." (t ++ L "." ++ i)) with [t; i]; [eauto|]. symmetry.
    apply (split_char_join "."%char [t; i]); [discriminate|]. repeat constructor; auto.
  - replace (split_char "." (t ++ L "." ++ i ++ L "." ++ f)) with [t; i; f]; [eauto|]. symmetry.
    apply (split_char_join "."%char [t; i; f]); [discriminate|]. repeat constructor; auto.
Qed.
Print Assumptions C03_same_spelling_same_entity.
(** In a loaded workspace, a field that refers to an entity as it is declared
    leads to that entity. *)
Theorem C03_references_lead_to_the_declaration : forall env ho so fs b g, shuffles ho -> load_graph env ho so fs = Ok (b, g) ->
  forall p1 n1 p2 n2 t i m f, In (p1, n1) (entity_blocks fs) -> In (p2, n2) (entity_blocks fs) ->
  en_type n2 = Some t -> en_id n2 = Some i -> dotless t -> dotless i ->
  In m (en_fields n1) -> refers m f (ref_text t i) ->
  exists e1 e2, to_entity env p1 n1 = Ok e1 /\ to_entity env p2 n2 = Ok e2 /\
    In (f, VRef (REntity (e_id e2))) (e_fields e1) /\ get_entity g (e_id e2) = Some e2 /\ linked g e1 e2 (EntityReference f).
Proof.
  intros env ho so fs b g O H p1 n1 p2 n2 t i m f H1 H2 T I D1 D2 Hm (Fm & items & Vm).
  destruct (C48_every_declared_entity_is_served env ho so fs b g O H p1 n1 H1) as (e1 & R1 & G1).
  destruct (C48_every_declared_entity_is_served env ho so fs b g O H p2 n2 H2) as (e2 & R2 & G2).
  exists e1, e2. split; [exact R1|]. split; [exact R2|].
  destruct (C03_same_spelling_same_entity env p2 p1 n2 e2 t i [] items R2 T I D1 D2) as [(p & E1 & E2) _]; [intros []|].
  assert (X : In (f, VRef (REntity (e_id e2))) (e_fields e1)).
  { eapply to_entity_field; [exact R1|exact Hm|]. unfold convert_field, field_value. rewrite Fm, Vm. cbn [of_option obind].
    rewrite E1. cbn [omap_err obind]. rewrite E2. reflexivity. }
  split; [exact X|]. split; [exact G2|].
  apply load_ok in H as (B & N & ->). 
  change (run [OAddMany (b_entities b); OBuild]) with (build (run [OAddMany (b_entities b)])) in *.
  apply C06_build_links_exactly_resolvable_references.
  rewrite (proj1 (proj2 (C06_build_idempotent_and_keeps_entities _))), (proj1 (C05_lookup_and_results _)) in G1, G2.
  apply lookup_some in G1 as [G1 _]. apply lookup_some in G2 as [G2 _].
  split; [exact G1|]. split; [exact G2|]. exists f, (VRef (REntity (e_id e2))), (REntity (e_id e2)).
  split; [exact X|]. split; [constructor|]. split; reflexivity.
Qed.
Print Assumptions C03_references_lead_to_the_declaration.
Example C03_case : refers (ref_field (L "boss") (L "person.JohnDoe")) (L "boss") (ref_text (L "person") (L "JohnDoe")) /\
  dotless (L "person") /\ dotless (L "JohnDoe").
Proof. split; [split; [reflexivity|exists []; reflexivity]|]. split; intros H; cbn in H; intuition discriminate. Qed.
(** ** C49 *)
Theorem C49_finds_the_file_of_a_declaration : forall fs t i,
  match find_entity_source fs t i with
  | Some p => exists f n, In (p, f) fs /\ In n (wf_entities f) /\ en_type n = Some t /\ en_id n = Some i
  | None => forall p f n, In (p, f) fs -> In n (wf_entities f) -> ~ (en_type n = Some t /\ en_id n = Some i)
  end.
Proof.
  intros fs t i. unfold find_entity_source.
  assert (H : forall n, entity_here t i n = true <-> en_type n = Some t /\ en_id n = Some i).
  { intros n. unfold entity_here. destruct (en_type n) as [t'|], (en_id n) as [i'|]; try (split; [discriminate|intros [? ?]; discriminate]).
    rewrite Bool.andb_true_iff, !str_eqb_eq. split; [intros [-> ->]; auto|intros [[= ->] [= ->]]; auto]. }
  destruct (find _ fs) as [[p f]|] eqn:E.
  - apply find_some in E as [I X]. cbn [snd] in X. apply existsb_exists in X as (n & Hn & X). apply H in X. exists f, n. tauto.
  - intros p f n I J X. apply H in X. pose proof (find_none _ _ E (p, f) I) as Y. cbn [snd] in Y.
    assert (existsb (entity_here t i) (wf_entities f) = true) by (apply existsb_exists; eauto). congruence.
Qed.
Print Assumptions C49_finds_the_file_of_a_declaration.
Theorem C49_finds_the_file_of_a_schema : forall fs name,
  match find_schema_source fs name with
  | Some p => exists f n, In (p, f) fs /\ In n (wf_schemas f) /\ sn_name n = Some name
  | None => forall p f n, In (p, f) fs -> In n (wf_schemas f) -> sn_name n <> Some name
  end.
Proof.
  intros fs name. unfold find_schema_source.
  assert (H : forall n, schema_here name n = true <-> sn_name n = Some name).
  { intros n. unfold schema_here. destruct (sn_name n) as [t'|]; [|split; discriminate].
    rewrite str_eqb_eq. split; [intros ->; auto|intros [= ->]; auto]. }
  destruct (find _ fs) as [[p f]|] eqn:E.
  - apply find_some in E as [I X]. cbn [snd] in X. apply existsb_exists in X as (n & Hn & X). apply H in X. exists f, n. tauto.
  - intros p f n I J X. apply H in X. pose proof (find_none _ _ E (p, f) I) as Y. cbn [snd] in Y.
    assert (existsb (schema_here name) (wf_schemas f) = true) by (apply existsb_exists; eauto). congruence.
Qed.
Print Assumptions C49_finds_the_file_of_a_schema.
(** An entity that is served as [person.john_doe] has no source under that name. *)
Theorem C49_served_id_refuted : exists fs b g e, load_graph env0 fid sid fs = Ok (b, g) /\ get_entity g (e_id e) = Some e /\
  (let (t, i) := decompose_entity_id (e_id e) in find_entity_source fs t i = None).
Proof.
  exists ws0. eexists. eexists. exists {| e_id := L "person.john_doe"; e_type := L "person"; e_fields := [] |}.
  split; [vm_compute; reflexivity|]. split; vm_compute; reflexivity.
Qed.
Print Assumptions C49_served_id_refuted.

(** ** C50 *)
(** An entity block of type [t] can be governed by the schema block named [t]
    exactly if [t] is in normal form. *)
Theorem C50_schema_of_the_same_name : forall env path path' n s m e t, to_schema env path n = Ok s -> sn_name n = Some t ->
  to_entity env path' m = Ok e -> en_type m = Some t -> (s_type s = e_type e <-> new_id t = t).
Proof.
  intros env path path' n s m e t Hs N He T. apply to_schema_ok in Hs as (name & ds & k & l & N' & S & _).
  rewrite N in N'. injection N' as <-. rewrite S.
  unfold to_entity in He. rewrite T in He. cbn [of_option obind] in He. destruct (en_id m); [|discriminate]. cbn [of_option obind] in He.
  destruct (omap (convert_field env path') (en_fields m)); try discriminate. injection He as <-. reflexivity.
Qed.
Print Assumptions C50_schema_of_the_same_name.
Theorem C50_any_name_refuted : exists fs path n path' m t, In (path, n) (schema_blocks fs) /\ sn_name n = Some t /\
  In (path', m) (entity_blocks fs) /\ en_type m = Some t /\
  forall ho so, shuffles ho -> exists p, build_workspace env0 ho so fs = Err (WMissingSchemaError p t).
Proof.
  exists [(L "/w/a.firm", {| wf_rel := L "a.firm"; wf_schemas := [ {| sn_name := Some (L "workItem"); sn_blocks := [] |} ];
           wf_entities := [ {| en_type := Some (L "workItem"); en_id := Some (L "x"); en_fields := [] |} ] |})],
    (L "a.firm"), {| sn_name := Some (L "workItem"); sn_blocks := [] |}, (L "a.firm"),
    {| en_type := Some (L "workItem"); en_id := Some (L "x"); en_fields := [] |}, (L "workItem").
  split; [left; reflexivity|]. split; [reflexivity|]. split; [left; reflexivity|]. split; [reflexivity|].
  intros ho so O. exists (L "/w/a.firm"). vm_compute. reflexivity.
Qed.
Print Assumptions C50_any_name_refuted.
Example C50_case : new_id (L "work_item") = L "work_item" /\ new_id (L "workItem") = L "work_item".
Proof. split; vm_compute; reflexivity. Qed.
