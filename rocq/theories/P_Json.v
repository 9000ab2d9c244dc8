(** The text of the graph: C61 a saved graph is read back whole, C62 no part of
    a saved graph can be read. *)
From Coq Require Import Lia.
From Verif Require Import S_JsonText L_JsonText.
From Verif Require Import M_Graph S_Graph L_Graph M_Query S_Query.
From Verif Require Import M_GraphJson S_Json L_Str L_Fs L_Server L_Load L_Workspace L_History L_Save P_Server P_Save L_Json L_Json2 L_Json3 L_JsonFloat L_GraphJson L_GraphJson2 M_Fs.
Close Scope Z_scope.

Lemma history_kept ops : in_range (run ops) /\ one_each (run ops).
Proof. split; [exact (inv_range _ _ (run_inv ops))|exact (inv_one_each _ _ (run_inv ops))]. Qed.
Lemma history_nodes ops : g_nodes (run ops) = spec_run ops.
Proof. exact (inv_nodes _ _ (run_inv ops)). Qed.
Lemma run_snoc ops : run (ops ++ [OBuild]) = build (run ops).
Proof. unfold run. rewrite fold_left_app. reflexivity. Qed.
Lemma spec_snoc ops : spec_run (ops ++ [OBuild]) = spec_run ops.
Proof. unfold spec_run. rewrite fold_left_app. reflexivity. Qed.

(** ** C61 *)
Theorem C61_graph_is_read_back : forall env ops, walks env -> Forall (storable_entity env) (spec_run ops) -> countable (run ops) ->
  exists t g, to_json (serde_graph env) (run ops) = Some t /\ of_json (serde_graph env) t = Some g /\ same_graph (run ops) g.
Proof.
  intros env ops W F C. destruct (history_kept ops) as [R O]. rewrite <- history_nodes in F. exists (graph_text env (run ops)), (read_as env (run ops)).
  split; [reflexivity|]. split; [exact (graph_read env (run ops) W C F R O)|exact (same_read env (run ops) W)].
Qed.
Print Assumptions C61_graph_is_read_back.
(** A graph that was read answers as the one that was written. *)
Theorem C61_answers_are_the_same : forall ops g, same_graph (run ops) g ->
  (forall id, get_entity g id = get_entity (run ops) id) /\ (forall t, list_by_type g t = list_by_type (run ops) t) /\
  (forall id d, get_related g id d = get_related (run ops) id d) /\
  (forall v, resolve_entity_reference g v = resolve_entity_reference (run ops) v) /\
  (forall v, resolve_field_reference g v = resolve_field_reference (run ops) v) /\
  (forall t, In t (type_keys g) <-> In t (type_keys (run ops))) /\
  (forall x ho q, orders ho -> exists ho', orders ho' /\ execute x g ho q = execute x (run ops) ho' q).
Proof.
  intros ops g S. destruct (history_kept ops) as [_ O]. split; [exact (same_entity _ _ O S)|]. split; [exact (same_list _ _ O S)|]. split; [exact (same_related _ _ O S)|].
  split; [intros v; unfold resolve_entity_reference; destruct v as [| | | | |[id|id f]| | | |]; try reflexivity; rewrite (same_entity _ _ O S); reflexivity|].
  split; [intros v; unfold resolve_field_reference; destruct v as [| | | | |[id|id f]| | | |]; try reflexivity; apply (same_search _ _ O S)|].
  split; [intros t; split; apply Permutation_in; [|symmetry]; apply (same_keys _ _ S)|].
  intros x ho q H. exists (other_order (run ops) g ho). split; [exact (other_orders _ _ S ho H)|exact (same_execute _ _ O S x ho q)].
Qed.
Print Assumptions C61_answers_are_the_same.
Lemma served_history c d st : rebuild c d = Ok st -> exists es, st_graph st = run [OAddMany es; OBuild] /\ spec_run [OAddMany es; OBuild] = es /\ es = b_entities (st_build st).
Proof.
  intros R. destruct (rebuild_files c d st R) as (fs & _ & _ & LG). apply load_ok in LG as (_ & N & G). exists (b_entities (st_build st)). split; [exact G|]. split; [exact (load_spec _ N)|reflexivity].
Qed.
(** What the interrupted saves and the commands assume of the library holds of
    every graph that comes from a workspace of storable entities. *)
Theorem C61_workspace_graph_is_savable : forall env c d st, walks_in_order env -> rebuild c d = Ok st ->
  Forall (storable_entity env) (b_entities (st_build st)) -> countable (st_graph st) -> savable (serde_graph env) (st_graph st).
Proof.
  intros env c d st W R F C. destruct (served_history c d st R) as (es & G & S & ->). rewrite <- S in F. pose proof (in_order_walks env W) as W'.
  exists (graph_text env (st_graph st)). split; [reflexivity|]. rewrite G in *. destruct (history_kept [OAddMany (b_entities (st_build st)); OBuild]) as [RG O]. pose proof F as F'. rewrite <- history_nodes in F'. split.
  - apply graph_is_text; auto. change [OAddMany (b_entities (st_build st)); OBuild] with ([OAddMany (b_entities (st_build st))] ++ [OBuild]). rewrite run_snoc.
    apply (built_named env _ (spec_run [OAddMany (b_entities (st_build st))])); [apply run_inv|]. rewrite <- spec_snoc. exact F.
  - cbn [of_json serde_graph]. rewrite (graph_read env _ W' C F' RG O). rewrite (read_in_order env _ W). reflexivity.
Qed.
Print Assumptions C61_workspace_graph_is_savable.
Theorem C61_what_is_built_is_loaded : forall env c d w d', walks_in_order env -> runs_in c d w -> no_links_in w d -> no_graph_dirs d w ->
  (forall st, rebuild c d = Ok st -> Forall (storable_entity env) (b_entities (st_build st)) /\ countable (st_graph st)) ->
  build_and_save (serde_graph env) c d Finished = (d', true) ->
  exists st, rebuild c d = Ok st /\ load_current_graph (serde_graph env) c d' = Some (st_graph st).
Proof.
  intros env c d w d' W RI NL ND F B. destruct (C56_what_is_built_is_loaded (serde_graph env) c d w d' RI NL ND) as (st & R & _ & G); [|exact B|exists st; auto].
  intros st R. destruct (F st R). apply (C61_workspace_graph_is_savable env c d st); auto.
Qed.
Print Assumptions C61_what_is_built_is_loaded.
(** A graph with a value nested too deep is written, and never read. *)
Theorem C61_deep_list_refuted : forall env g e f v, writes_numbers env -> In e (g_nodes g) -> In (f, v) (e_fields e) -> 127 < 6 + levels v ->
  exists t, to_json (serde_graph env) g = Some t /\ of_json (serde_graph env) t = None.
Proof.
  intros env g e f v N I J D. exists (graph_text env g). split; [reflexivity|]. cbn [of_json serde_graph]. unfold read_graph, graph_text. rewrite too_deep; [reflexivity|exact N|].
  assert (A : S (depth (enc_value v)) <= fold_right Nat.max 0 (map depth (map (fun fv => JvArr [JvStr (fst fv); enc_value (snd fv)]) (e_fields e)))).
  { apply max_in. rewrite map_map. apply in_map_iff. exists (f, v). split; [|exact J]. cbn [depth map fold_right fst snd]. lia. }
  assert (B : 2 + S (depth (enc_value v)) <= fold_right Nat.max 0 (map depth (map enc_entity (g_nodes g)))).
  { etransitivity; [|apply max_in; rewrite map_map; apply in_map; exact I]. unfold enc_entity. cbn [depth map snd fold_right]. lia. }
  rewrite value_depth in A, B. unfold enc_graph. cbn [depth map snd fold_right]. lia.
Qed.
Print Assumptions C61_deep_list_refuted.
Definition one (v : value) : graph := run [OAdd {| e_id := L "task.a"; e_type := L "task"; e_fields := [(L "x", v)] |}; OBuild].
Lemma one_text env v : walks env -> graph_text env (one v) = show_jv (je_float env) (enc_graph {| je_float := je_float env; je_known := je_known env; je_ids := fun l => l; je_kinds := fun l => l |} (one v)).
Proof.
  intros [A B]. unfold graph_text, enc_graph. cbn [je_ids je_kinds]. 
  assert (GM : g_map (one v) = [(L "task.a", 0)]) by reflexivity. assert (GT : g_types (one v) = [(L "task", [0])]) by reflexivity. rewrite GM, GT.
  pose proof (A [(L "task.a", 0)]) as PA. apply Permutation_sym, Permutation_length_1_inv in PA. pose proof (B [(L "task", [0])]) as PB. apply Permutation_sym, Permutation_length_1_inv in PB. rewrite PA, PB. reflexivity.
Qed.
(** A float that is not finite is written, and the graph never read. *)
Theorem C61_infinite_float_refuted : forall env f, walks env -> f_is_finite f = false ->
  exists t, to_json (serde_graph env) (one (VFloat f)) = Some t /\ of_json (serde_graph env) t = None.
Proof.
  intros env f W F. eexists. split; [reflexivity|]. cbn [of_json serde_graph]. unfold read_graph. rewrite (one_text env (VFloat f) W).
  destruct f; try discriminate F; vm_compute; reflexivity.
Qed.
Print Assumptions C61_infinite_float_refuted.
(** A float of seventeen digits is read as its neighbour: the numbers are read
    with two roundings. *)
Theorem C61_long_float_refuted : exists f, parse_f64 (L "31.245270191439438") = Some f /\
  forall env, walks env -> je_float env f = L "31.245270191439438" ->
  exists t g v, to_json (serde_graph env) (one (VFloat f)) = Some t /\ of_json (serde_graph env) t = Some g /\
    option_map e_fields (get_entity g (L "task.a")) = Some [(L "x", VFloat v)] /\ v <> f.
Proof.
  eexists. split; [vm_compute; reflexivity|]. intros env W T. eexists. eexists. eexists. split; [reflexivity|]. cbn [of_json serde_graph]. unfold read_graph. rewrite (one_text env _ W).
  match goal with |- context [show_jv (je_float env) ?j] => assert (E : show_jv (je_float env) j = show_jv (fun _ => L "31.245270191439438") j) by (vm_compute; vm_compute in T; rewrite T; reflexivity); rewrite E; clear E end.
  split; [vm_compute; reflexivity|]. split; [vm_compute; reflexivity|]. discriminate.
Qed.
Print Assumptions C61_long_float_refuted.

(** A graph with every kind of value, and one that comes from a workspace. *)
Definition je0 : json_env :=
  {| je_float := fun f => match parse_f64 (L "-12.5") with Some f' => if f_eq f f' then L "-12.5" else L "0.5" | None => [] end;
     je_known := fun k => str_eqb k (L "EUR"); je_ids := fun l => l; je_kinds := fun l => rev l |}.
Definition rich : entity :=
  {| e_id := L "task.a"; e_type := L "task";
     e_fields := [(L "done", VBool true); (L "title", VStr (L "a """ ++ [ascii_of_nat 92; ascii_of_nat 10; ascii_of_nat 1] ++ L "Zürich")); (L "n", VInt (-7));
                  (L "f", VFloat (match parse_f64 (L "-12.5") with Some f => f | None => f_zero end)); (L "cost", VCur {| d_mant := (-1050)%Z; d_scale := 2 |} (L "EUR"));
                  (L "of", VRef (REntity (L "person.b"))); (L "at", VRef (RField (L "person.b") (L "name"))); (L "all", VList [VList []; VEnum (L "red"); VPath (L "a/b")]);
                  (L "due", VDate {| dt_local := 1700000000%Z; dt_nanos := 120000000%Z; dt_off := (-12600)%Z |})] |}.
Definition rich_ops : list op := [OAddMany [rich; {| e_id := L "person.b"; e_type := L "person"; e_fields := [(L "name", VStr (L "B"))] |}]; OBuild].
Lemma rich_storable : storable_entity je0 rich.
Proof.
  split; [reflexivity|]. split; [reflexivity|]. repeat (apply Forall_cons; [split; [reflexivity|]; split; [|vm_compute; lia]|]); try apply Forall_nil; cbn [snd].
  - constructor. - constructor. vm_compute. reflexivity. - constructor. reflexivity.
  - constructor; [reflexivity|]. exists true, (L "12"), (L "5"), 125%N. split; [vm_compute; reflexivity|]. split; [split; [split; [discriminate|reflexivity]|discriminate]|].
    split; [split; [discriminate|reflexivity]|]. split; [reflexivity|]. split; [reflexivity|]. split; [cbn; lia|]. vm_compute. reflexivity.
  - constructor; [split; cbn; lia|reflexivity|reflexivity].
  - constructor. reflexivity. - constructor; reflexivity. - constructor. repeat constructor.
  - constructor. split; [vm_compute; split; discriminate|]. split; [cbn; lia|]. exists (-210)%Z. cbn. lia.
Qed.
Example C61_case : walks je0 /\ Forall (storable_entity je0) (spec_run rich_ops) /\ countable (run rich_ops) /\ length (g_edges (run rich_ops)) = 2 /\
  exists g, of_json (serde_graph je0) (graph_text je0 (run rich_ops)) = Some g /\ get_entity g (L "task.a") = Some rich /\ g <> run rich_ops.
Proof.
  split; [split; intros l; [apply Permutation_refl|symmetry; apply Permutation_rev]|].
  split; [repeat (apply Forall_cons); try apply Forall_nil; [apply rich_storable|]; repeat split; try reflexivity; repeat constructor; cbn; lia|].
  split; [split; reflexivity|]. split; [reflexivity|].
  eexists. split; [apply graph_read|split; [vm_compute; reflexivity|vm_compute; discriminate]].
  - split; intros l; [apply Permutation_refl|symmetry; apply Permutation_rev].
  - split; reflexivity.
  - rewrite history_nodes. repeat (apply Forall_cons); try apply Forall_nil; [apply rich_storable|]; repeat split; try reflexivity; repeat constructor; cbn; lia.
  - apply history_kept.
  - apply history_kept.
Qed.

(** ** C62 *)
(** Whatever the graph, no beginning of its text can be read. *)
Theorem C62_no_partial_graph : forall env g, writes_numbers env -> no_partial_graph (serde_graph env) g.
Proof.
  intros env g N t a b J E NB. injection J as <-. cbn [of_json serde_graph]. unfold read_graph. destruct (read_json a) as [w|] eqn:R; [|reflexivity].
  pose proof (no_beginning (je_float env) _ a b w N E NB R) as C. destruct w; try discriminate C; reflexivity.
Qed.
Print Assumptions C62_no_partial_graph.
(** Nor can the text with anything but white space behind it. *)
Theorem C62_nothing_may_follow : forall env ops t x, walks env -> Forall (storable_entity env) (spec_run ops) -> countable (run ops) ->
  to_json (serde_graph env) (run ops) = Some t -> (exists c, In c x /\ ~ In c (L " " ++ [ascii_of_nat 10; ascii_of_nat 9; ascii_of_nat 13])) -> of_json (serde_graph env) (t ++ x) = None.
Proof.
  intros env ops t x W F C J (c & I & NW). injection J as <-. cbn [of_json serde_graph]. destruct (history_kept ops) as [R O]. rewrite <- history_nodes in F.
  pose proof (graph_kept env (run ops) W C F R) as K. pose proof (graph_depth env (run ops) F) as D. unfold read_graph, read_json, graph_text.
  change 127 with max_depth in D. revert D. generalize max_depth. intros d D. pose proof (read_back (je_float env) number_of _ _ d [] K D Logic.I) as H. rewrite app_nil_r in H.
  rewrite (nothing_follows_at _ _ _ x H eq_refl). assert (S : skip_ws x <> []); [|destruct (skip_ws x); [congruence|reflexivity]].
  clear - I NW. induction x as [|y x IH]; [destruct I|]. cbn [skip_ws]. destruct (is_ws y) eqn:E; [|discriminate]. destruct I as [->|I]; [|auto].
  exfalso. apply NW. clear - E. destruct c as [[] [] [] [] [] [] [] []]; cbn in E; try discriminate; cbn; tauto.
Qed.
Print Assumptions C62_nothing_may_follow.
Lemma read_graph_text env t g : read_graph env t = Some g -> exists v, json_text t v /\ dec_graph env v = Some g.
Proof.
  pose proof (read_json_text t) as R. unfold read_graph. revert R. generalize (read_json t). intros [v|] R H; [|discriminate]. exists v. split; [exact (R _ eq_refl)|exact H].
Qed.
(** What is read is JSON, and is taken for what it stands for. *)
Theorem C62_only_json_is_read : forall env t g, of_json (serde_graph env) t = Some g ->
  exists v, json_text t v /\ dec_graph env v = Some g.
Proof. exact read_graph_text. Qed.
Print Assumptions C62_only_json_is_read.
(** The graphs that can be recovered after any number of interrupted saves are
    graphs that were saved, in full. *)
Theorem C62_only_saved_graphs : forall env c d w l g, walks_in_order env -> writes_numbers env -> runs_in c d w -> no_links_in w d -> no_graph_dirs d w ->
  Forall (fun x => exists d0 st, rebuild c d0 = Ok st /\ fst x = st_graph st /\ Forall (storable_entity env) (b_entities (st_build st)) /\ countable (st_graph st)) l ->
  recoverable (serde_graph env) c (saves (serde_graph env) c d l) g -> recoverable (serde_graph env) c d g \/ In g (map fst l).
Proof.
  intros env c d w l g W N RI NL ND F. apply (C42_only_saved_graphs (serde_graph env) c d w l g RI NL ND). eapply Forall_impl; [|exact F].
  intros x (d1 & st & R & -> & S & C). split; [exact (C61_workspace_graph_is_savable env c d1 st W R S C)|exact (C62_no_partial_graph env _ N)].
Qed.
Print Assumptions C62_only_saved_graphs.
(** An interrupted write is noticed when the graph is loaded. *)
Theorem C62_interrupted_write_is_not_loaded : forall env c d w g k, writes_numbers env -> runs_in c d w -> no_links_in w d -> no_graph_dirs d w ->
  k < length (graph_text env g) -> load_current_graph (serde_graph env) c (fst (save_graph (serde_graph env) c d g (InWrite k))) = None.
Proof.
  intros env c d w g k N RI NL ND K. assert (W : workable c w d) by (split; auto). pose proof (save_workable (serde_graph env) c w d g (InWrite k) W) as W'.
  destruct (load_current_graph _ _ _) as [g'|] eqn:LG; [|reflexivity]. exfalso. apply (load_holds _ c w _ g' W') in LG as (x & E & _ & O).
  rewrite (save_spec _ c w d g _ W) in E. cbn [to_json serde_graph fst] in E. rewrite node_set_same in E by apply cp_root. injection E as <-.
  destruct (firstn_prefix k (graph_text env g)) as [E|(b & E & NB)].
  - apply (f_equal (@length ascii)) in E. rewrite firstn_length in E. lia.
  - rewrite (C62_no_partial_graph env g N (graph_text env g) _ b eq_refl E NB) in O. discriminate.
Qed.
Print Assumptions C62_interrupted_write_is_not_loaded.
Example C62_case : let env := {| je_float := fun _ => L "0.5"; je_known := je_known je0; je_ids := fun l => l; je_kinds := fun l => l |} in
  walks_in_order env /\ writes_numbers env /\ Forall (storable_entity env) (b_entities (st_build st0)) /\ countable (st_graph st0) /\
  load_current_graph (serde_graph env) c0 (fst (save_graph (serde_graph env) c0 d0 (st_graph st0) Finished)) = Some (st_graph st0) /\
  load_current_graph (serde_graph env) c0 (fst (save_graph (serde_graph env) c0 d0 (st_graph st0) (InWrite 40))) = None.
Proof.
  intros env. split; [split; reflexivity|]. split; [intros f _; apply (number_text_of [] (L "0") (L ".5") []); [auto|split; [split; [discriminate|reflexivity]|intros r [= <-]; reflexivity]|right; exists (L "5"); split; [split; [discriminate|reflexivity]|reflexivity]|auto]|].
  split; [|split; [split; vm_compute; reflexivity|split; vm_compute; reflexivity]].
  repeat (apply Forall_cons || apply Forall_nil); repeat split; try reflexivity; repeat (apply Forall_cons || apply Forall_nil); repeat split; try reflexivity; try (constructor; reflexivity); cbn; lia.
Qed.
