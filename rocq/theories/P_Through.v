(** C57 with the graph written and read as JSON, the hash maps in any order. *)
From Coq Require Import Lia.
From Verif Require Import M_Graph S_Graph L_Graph M_Query S_Query.
From Verif Require Import M_GraphJson S_Json L_Str L_Fs L_Server L_Load L_Workspace L_History L_Save L_Cli P_Server P_Save L_Json L_Json2 L_Json3 L_GraphJson L_GraphJson2.
From Verif Require Import M_Cli S_Cli S_Through P_Graph P_Tools P_Cli P_Json M_Fs.
Close Scope Z_scope.

(** What is saved can be read, as the same graph up to the order of the maps. *)
Lemma saved_as env c d st : walks env -> rebuild c d = Ok st -> Forall (storable_entity env) (b_entities (st_build st)) -> countable (st_graph st) ->
  is_text (graph_text env (st_graph st)) = true /\ of_json (serde_graph env) (graph_text env (st_graph st)) = Some (read_as env (st_graph st)).
Proof.
  intros W R F C. destruct (served_history c d st R) as (es & G & S & ->). rewrite <- S in F.
  rewrite G in *. destruct (history_kept [OAddMany (b_entities (st_build st)); OBuild]) as [RG O]. pose proof F as F'. rewrite <- history_nodes in F'.
  split; [|exact (graph_read env _ W C F' RG O)].
  apply graph_is_text; auto. change [OAddMany (b_entities (st_build st)); OBuild] with ([OAddMany (b_entities (st_build st))] ++ [OBuild]). rewrite run_snoc.
  apply (built_named env _ (spec_run [OAddMany (b_entities (st_build st))])); [apply run_inv|]. rewrite <- spec_snoc. exact F.
Qed.
Lemma saved_and_read env c d st : walks env -> rebuild c d = Ok st -> Forall (storable_entity env) (b_entities (st_build st)) -> countable (st_graph st) ->
  exists t g ops, st_graph st = run ops /\ to_json (serde_graph env) (st_graph st) = Some t /\ is_text t = true /\ of_json (serde_graph env) t = Some g /\ same_graph (run ops) g.
Proof.
  intros W R F C. destruct (saved_as env c d st W R F C) as [T O]. destruct (served_history c d st R) as (es & G & _).
  exists (graph_text env (st_graph st)), (read_as env (st_graph st)), [OAddMany es; OBuild]. split; [exact G|]. split; [reflexivity|]. split; [exact T|]. split; [exact O|].
  rewrite <- G. exact (same_read env _ W).
Qed.
Lemma prepare_read env c x d w d1 r : walks env -> cl_json x = serde_graph env -> workable c w d ->
  (forall st, rebuild c d = Ok st -> Forall (storable_entity env) (b_entities (st_build st)) /\ countable (st_graph st)) ->
  prepare c x d false = (d1, r) ->
  match r with
  | Succeeded _ => exists st g ops, rebuild c d = Ok st /\ rebuild c d1 = Ok st /\ load_current_graph (cl_json x) c d1 = Some g /\ st_graph st = run ops /\ same_graph (run ops) g
  | Failed => d1 = d /\ exists e, rebuild c d = Err e
  | Died => d1 = d /\ rebuild c d = Panic
  end.
Proof.
  intros WK EJ W SV H. pose proof (prepare_spec c x d w false d1 r W H) as (W1 & R1 & _). unfold prepare, build_and_save in H.
  destruct (rebuild c d) as [st|e|] eqn:B.
  - destruct (SV st eq_refl) as [F C]. destruct (saved_and_read env c d st WK B F C) as (t & g & ops & G & J & T & O & SG). rewrite <- EJ in J, O.
    rewrite (save_spec _ c w d _ _ W), J in H. injection H as <- <-. exists st, g, ops. split; [reflexivity|]. split; [|split; [|auto]].
    + rewrite <- B. apply (rebuild_rest c w); auto.
    + apply (load_holds _ c w _ _ W1). apply set_holds; auto using cp_root.
  - injection H as <- <-. eauto.
  - injection H as <- <-. auto.
Qed.
(** A question put to the graph that was read is answered as by the server. *)
Lemma asked_of_read c x d0 d st g ops q : rebuild c d0 = Ok st -> st_graph st = run ops -> same_graph (run ops) g -> orders (cl_hash x) ->
  load_current_graph (cl_json x) c d = Some g -> asks_graph q ->
  exists ho, orders ho /\ read_command c x d q = server_answer c (with_hash x ho) st q.
Proof.
  intros B G SG OH LG AG. destruct (C61_answers_are_the_same ops g SG) as (A1 & A2 & A3 & _ & _ & _ & A7). destruct (served_graph c d0 st B) as [ND E].
  destruct q as [t i|t|t i dir|s|t i]; cbn [asks_graph] in AG; cbn [read_command server_answer]; try contradiction.
  - exists (cl_hash x). split; [exact OH|]. pose proof AG as AG'. apply str_eqb_neq in AG. rewrite AG, LG, (C54_get_is_graph_lookup c d0 st t i B AG'), A1, <- G. destruct (get_entity _ _); reflexivity.
  - exists (cl_hash x). split; [exact OH|]. unfold list_tool. apply str_eqb_neq in AG. rewrite !AG, LG, A2, <- G, E at 1. rewrite C09_list_by_type_in_insertion_order, (load_spec _ ND). reflexivity.
  - exists (cl_hash x). split; [exact OH|]. rewrite LG, A3, <- G. unfold related_tool. destruct (get_related _ _ _); reflexivity.
  - rewrite LG. unfold query_text. destruct (M_QParse.read_query s) as [r|]; [|exists (cl_hash x); auto].
    destruct (A7 (cl_ext x) (cl_hash x) r OH) as (ho & O & X). exists ho. split; [exact O|]. rewrite X, <- G. reflexivity.
Qed.

(** What C57 says of a library that reads what it wrote, for the JSON that is
    written and read, whatever the order of the hash maps: the answer is one the
    server gives under some order of its own hash maps. *)
Theorem C57_answers_through_json : forall env c x d w q d' r, walks env -> cl_json x = serde_graph env -> orders (cl_hash x) ->
  runs_in c d w -> no_links_in w d -> no_graph_dirs d w ->
  (forall st, rebuild c d = Ok st -> Forall (storable_entity env) (b_entities (st_build st)) /\ countable (st_graph st)) ->
  (forall t i, q <> CSource t i) -> run_read c x false d q = (d', r) ->
  match rebuild c d with
  | Ok st => exists ho, orders ho /\ r = server_answer c (with_hash x ho) st q
  | Err _ => r = Failed
  | Panic => r = Died
  end.
Proof.
  intros env c x d w q d' r WK EJ OH RI NL ND SV NS H. assert (W : workable c w d) by (split; auto). unfold run_read in H.
  assert (Q : (false || match q with CSource _ _ => true | _ => false end) = false) by (destruct q; try reflexivity; edestruct NS; reflexivity). rewrite Q in H.
  destruct (prepare c x d false) as [d1 u] eqn:P. pose proof (prepare_read env c x d w d1 u WK EJ W SV P) as F. destruct u as [u| |].
  - destruct F as (st & g & ops & B & B1 & LG & G & SG). injection H as <- <-. rewrite B.
    assert (K : asks_graph q \/ ~ asks_graph q).
    { destruct q as [t i|t|t i dir|s|t i]; cbn [asks_graph]; try tauto; destruct (str_eqb t (L "schema")) eqn:S; [apply str_eqb_eq in S|apply str_eqb_neq in S|apply str_eqb_eq in S|apply str_eqb_neq in S]; tauto. }
    destruct K as [AG|AG]; [exact (asked_of_read c x d d1 st g ops q B G SG OH LG AG)|].
    exists (cl_hash x). split; [exact OH|]. pose proof (C57_cached_schemas_are_current c x d1 st q B1 AG) as K. unfold run_read, prepare in K. cbn [orb] in K. injection K as K. rewrite K.
    destruct q; reflexivity.
  - destruct F as (_ & e & ->). injection H as _ <-. reflexivity.
  - destruct F as (_ & ->). injection H as _ <-. reflexivity.
Qed.
Print Assumptions C57_answers_through_json.
(** With [--cached], as long as the saved graph is there. *)
Theorem C57_cached_through_json : forall env c x d0 w q0 d1 r1 st d q, walks env -> cl_json x = serde_graph env -> orders (cl_hash x) ->
  runs_in c d0 w -> no_links_in w d0 -> no_graph_dirs d0 w -> rebuild c d0 = Ok st ->
  Forall (storable_entity env) (b_entities (st_build st)) -> countable (st_graph st) -> (forall t i, q0 <> CSource t i) ->
  run_read c x false d0 q0 = (d1, r1) -> load_current_graph (cl_json x) c d = load_current_graph (cl_json x) c d1 -> asks_graph q ->
  exists ho, orders ho /\ run_read c x true d q = (d, server_answer c (with_hash x ho) st q).
Proof.
  intros env c x d0 w q0 d1 r1 st d q WK EJ OH RI NL ND B SE CN NS H EQ AG. assert (W : workable c w d0) by (split; auto). unfold run_read in H.
  assert (Q : (false || match q0 with CSource _ _ => true | _ => false end) = false) by (destruct q0; try reflexivity; edestruct NS; reflexivity). rewrite Q in H.
  assert (SV : forall st, rebuild c d0 = Ok st -> Forall (storable_entity env) (b_entities (st_build st)) /\ countable (st_graph st)) by (intros st0 B0; rewrite B in B0; injection B0 as <-; auto).
  destruct (prepare c x d0 false) as [d2 u] eqn:P. pose proof (prepare_read env c x d0 w d2 u WK EJ W SV P) as F.
  destruct u as [u| |]; [|destruct F as (_ & e & F); congruence|destruct F as (_ & F); congruence].
  destruct F as (st' & g & ops & B' & _ & LG & G & SG). injection H as <- _. rewrite B in B'. injection B' as <-. rewrite LG in EQ.
  destruct (asked_of_read c x d0 d st g ops q B G SG OH EQ AG) as (ho & O & X). exists ho. split; [exact O|]. unfold run_read, prepare. cbn [orb]. rewrite X. reflexivity.
Qed.
Print Assumptions C57_cached_through_json.

(** A workspace whose graph is written with its maps in another order. *)
Definition x_json : cli_env := {| cl_json := serde_graph je0; cl_cwd := path_of (L "/w"); cl_order := fun l => l; cl_ext := P_Query.ex_ext; cl_hash := P_Query.ex_ho |}.
Example C57_through_case : walks je0 /\ ~ walks_in_order je0 /\ orders (cl_hash x_json) /\ no_graph_dirs d_saved w0 /\
  (forall st, rebuild c0 d_saved = Ok st -> Forall (storable_entity je0) (b_entities (st_build st)) /\ countable (st_graph st)) /\
  snd (run_read c0 x_json false d_saved (CRelated (L "person") (L "john") None)) = Succeeded (RIds [L "org.acme"]) /\
  exists r, snd (run_read c0 x_json false d_saved (CQuery (L "from person"))) = Succeeded (RFound r).
Proof.
  split; [split; intros l; [apply Permutation.Permutation_refl|apply Permutation.Permutation_sym, Permutation.Permutation_rev]|].
  split; [intros [_ K]; specialize (K [(L "a", []); (L "b", [])]); discriminate K|]. split; [exact P_Query.ex_ho_ok|]. split; [split; discriminate|]. split.
  - intros st H. assert (E : rebuild c0 d_saved = Ok st0) by (vm_compute; reflexivity). rewrite E in H. injection H as <-. split; [|split; vm_compute; reflexivity].
    vm_compute b_entities. repeat (apply Forall_cons); try apply Forall_nil; repeat split; try reflexivity; repeat constructor; try reflexivity; cbn; lia.
  - split; [vm_compute; reflexivity|]. eexists. vm_compute. reflexivity.
Qed.

(** ** Interrupted saves *)
(** The graph with its maps in the order of the nodes. *)
Definition in_node_order (g : graph) : graph :=
  let g1 := fst (add_entities graph_new (g_nodes g)) in {| g_nodes := g_nodes g; g_map := g_map g1; g_types := g_types g1; g_edges := g_edges g |}.
Definition respelled (j : graph_json) : graph_json := {| to_json := fun g => to_json j (in_node_order g); of_json := of_json j |}.
Lemma of_respelled j t : of_json (respelled j) t = of_json j t.
Proof. reflexivity. Qed.
Lemma holds_respelled j c d p g : holds (respelled j) c d p g <-> holds j c d p g.
Proof. reflexivity. Qed.
Lemma recoverable_respelled j c d g : recoverable (respelled j) c d g <-> recoverable j c d g.
Proof. reflexivity. Qed.
Lemma load_respelled j c d : load_current_graph (respelled j) c d = load_current_graph j c d.
Proof. reflexivity. Qed.
Lemma to_respelled j g : to_json (respelled j) g = to_json j (in_node_order g).
Proof. reflexivity. Qed.
Lemma built_order c d st env : rebuild c d = Ok st -> in_node_order (read_as env (st_graph st)) = st_graph st.
Proof.
  intros R. destruct (served_history c d st R) as (es & G & S & _). unfold in_node_order, read_as. cbn [g_nodes g_edges]. rewrite G, history_nodes, S.
  change [OAddMany es; OBuild] with ([OAddMany es] ++ [OBuild]). rewrite run_snoc.
  assert (N : g_nodes (run [OAddMany es]) = es) by (rewrite history_nodes, <- spec_snoc; exact S).
  unfold build. rewrite N. reflexivity.
Qed.
Lemma respelled_savable env c g : walks env -> carried_graph env c g ->
  to_json (respelled (serde_graph env)) (read_as env g) = to_json (serde_graph env) g /\ savable (respelled (serde_graph env)) (read_as env g) /\
  same_graph g (read_as env g).
Proof.
  intros W (d & st & R & -> & F & C). assert (E : to_json (respelled (serde_graph env)) (read_as env (st_graph st)) = to_json (serde_graph env) (st_graph st)).
  { rewrite to_respelled, (built_order c d st env R). reflexivity. }
  split; [exact E|]. split; [|exact (same_read env _ W)].
  destruct (saved_as env c d st W R F C) as [T O]. exists (graph_text env (st_graph st)). rewrite E. split; [reflexivity|]. split; [exact T|]. rewrite of_respelled. exact O.
Qed.
Lemma save_respelled env c d g s : to_json (respelled (serde_graph env)) (read_as env g) = to_json (serde_graph env) g ->
  save_graph (respelled (serde_graph env)) c d (read_as env g) s = save_graph (serde_graph env) c d g s.
Proof. intros E. unfold save_graph. rewrite E. reflexivity. Qed.
Definition respell (env : json_env) (l : list (graph * stop)) : list (graph * stop) := map (fun x => (read_as env (fst x), snd x)) l.
Lemma saves_respelled env c l : walks env -> Forall (fun x => carried_graph env c (fst x)) l ->
  forall d, saves (respelled (serde_graph env)) c d (respell env l) = saves (serde_graph env) c d l.
Proof.
  intros W F. unfold saves, respell. induction F as [|[g s] l H _ IH]; intros d; [reflexivity|]. cbn [map fold_left fst snd] in *.
  rewrite (save_respelled env c d g s (proj1 (respelled_savable env c g W H))). apply IH.
Qed.
Lemma respelled_last env g0 l g : last_finished g0 l g -> last_finished g0 (respell env l) g \/ exists k, In (g, Finished) l /\ k = read_as env g /\ last_finished g0 (respell env l) k.
Proof.
  unfold respell. induction 1 as [|l g|l g s g1 NS H IH]; [left; constructor| |].
  - right. exists (read_as env g). split; [apply in_app_iff; right; left; reflexivity|]. split; [reflexivity|]. rewrite map_app. apply lf_done.
  - rewrite map_app. destruct IH as [IH|(k & I & -> & IH)]; [left; apply lf_stopped; auto|].
    right. exists (read_as env g1). split; [apply in_app_iff; auto|]. split; [reflexivity|]. apply lf_stopped; auto.
Qed.
Lemma respelled_careful env l : careful l -> careful (respell env l).
Proof.
  intros C a g k mid g' s b E M. unfold respell in E. apply map_eq_app in E as (a1 & r1 & -> & <- & E). apply map_eq_cons in E as ([g1 s1] & r2 & -> & E1 & E). injection E1 as <- ->.
  apply map_eq_app in E as (m1 & r3 & -> & <- & E). apply map_eq_cons in E as ([g2 s2] & b1 & -> & E2 & <-). injection E2 as <- ->.
  apply (C a1 g1 k m1 g2 s b1 eq_refl). intros x I. apply (M (read_as env (fst x), snd x)). apply in_map_iff. exists x. auto.
Qed.
(** What C42 says, for the JSON that is written and read, whatever the order of
    the hash maps. *)
Theorem C42_histories_through_json : forall env c d w g0 l g, walks env ->
  runs_in c d w -> no_links_in w d -> no_graph_dirs d w -> holds (serde_graph env) c d (current_graph c) g0 ->
  Forall (fun x => carried_graph env c (fst x)) l -> careful l -> last_finished g0 l g ->
  exists g', same_graph g g' /\ recoverable (serde_graph env) c (saves (serde_graph env) c d l) g'.
Proof.
  intros env c d w g0 l g W RI NL ND H F C LF. apply (proj2 (holds_respelled (serde_graph env) _ _ _ _)) in H. rewrite <- (saves_respelled env c l W F d).
  assert (F' : Forall (fun x => savable (respelled (serde_graph env)) (fst x)) (respell env l)).
  { unfold respell. rewrite Forall_map. eapply Forall_impl; [|exact F]. intros x X. exact (proj1 (proj2 (respelled_savable env c (fst x) W X))). }
  pose proof (C42_careful_histories (respelled (serde_graph env)) c d w g0 (respell env l)) as K.
  destruct (respelled_last env g0 l g LF) as [L'|(k & I & -> & L')].
  - exists g. split; [repeat split; apply Permutation.Permutation_refl|]. apply (proj1 (recoverable_respelled (serde_graph env) _ _ _)). exact (K g RI NL ND H F' (respelled_careful env l C) L').
  - exists (read_as env g). split; [|apply (proj1 (recoverable_respelled (serde_graph env) _ _ _)); exact (K _ RI NL ND H F' (respelled_careful env l C) L')].
    rewrite Forall_forall in F. exact (proj2 (proj2 (respelled_savable env c g W (F _ I)))).
Qed.
Print Assumptions C42_histories_through_json.
Theorem C62_only_saved_graphs_any_order : forall env c d w l g, walks env -> writes_numbers env -> runs_in c d w -> no_links_in w d -> no_graph_dirs d w ->
  Forall (fun x => carried_graph env c (fst x)) l -> recoverable (serde_graph env) c (saves (serde_graph env) c d l) g ->
  recoverable (serde_graph env) c d g \/ exists g0, In g0 (map fst l) /\ same_graph g0 g.
Proof.
  intros env c d w l g W N RI NL ND F R. rewrite <- (saves_respelled env c l W F d) in R. apply (proj2 (recoverable_respelled (serde_graph env) _ _ _)) in R.
  destruct (C42_only_saved_graphs (respelled (serde_graph env)) c d w (respell env l) g RI NL ND) as [K|K]; [|exact R|left; apply (proj1 (recoverable_respelled (serde_graph env) _ _ _)); exact K|].
  - unfold respell. rewrite Forall_map. eapply Forall_impl; [|exact F]. intros x X. cbn [fst]. destruct (respelled_savable env c (fst x) W X) as (E & S & _). split; [exact S|].
    intros t a b J EQ NB. rewrite E in J. rewrite of_respelled. exact (C62_no_partial_graph env (fst x) N t a b J EQ NB).
  - right. unfold respell in K. rewrite map_map in K. cbn [fst] in K. apply in_map_iff in K as (x & <- & I). exists (fst x). split; [apply in_map; exact I|].
    rewrite Forall_forall in F. exact (proj2 (proj2 (respelled_savable env c (fst x) W (F x I)))).
Qed.
Print Assumptions C62_only_saved_graphs_any_order.
(** A save reported as done is read back. *)
Theorem C42_success_through_json : forall env c d w g0 g s d', walks env -> runs_in c d w -> no_links_in w d -> no_graph_dirs d w ->
  load_current_graph (serde_graph env) c d = Some g0 -> carried_graph env c g -> save_graph (serde_graph env) c d g s = (d', true) ->
  s = Finished /\ holds (serde_graph env) c d' (backup_graph c) g0 /\ exists g', load_current_graph (serde_graph env) c d' = Some g' /\ same_graph g g'.
Proof.
  intros env c d w g0 g s d' W RI NL ND H K E. destruct (respelled_savable env c g W K) as (J & S & SG). rewrite <- (save_respelled env c d g s J) in E. rewrite <- load_respelled in H.
  destruct (C42_reported_success (respelled (serde_graph env)) c d w g0 (read_as env g) s d' RI NL ND H S E) as (A & B & D). rewrite load_respelled in B. apply (proj1 (holds_respelled (serde_graph env) _ _ _ _)) in D. split; [exact A|]. split; [exact D|]. exists (read_as env g). auto.
Qed.
Print Assumptions C42_success_through_json.
Example C42_through_case : walks je0 /\ ~ walks_in_order je0 /\ carried_graph je0 c0 (st_graph st0) /\
  exists g', load_current_graph (serde_graph je0) c0 (fst (save_graph (serde_graph je0) c0 d_saved (st_graph st0) Finished)) = Some g' /\ g' <> st_graph st0.
Proof.
  destruct C57_through_case as (A & B & _ & _ & D & _). split; [exact A|]. split; [exact B|].
  assert (E : rebuild c0 d_saved = Ok st0) by (vm_compute; reflexivity). destruct (D st0 E) as [D1 D2]. split; [exists d_saved, st0; auto|].
  eexists. split; [vm_compute; reflexivity|]. vm_compute. discriminate.
Qed.
