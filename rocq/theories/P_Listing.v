(** What the tool server prints of source files and of search results tells
    what it found: C40 search results, C53 the tree of source files. C05 what a
    reference to an entity stands for. C54 the schemas that are listed. *)
From Coq Require Import Lia Permutation Sorted.
From Verif Require Import M_Graph S_Graph L_Graph.
From Verif Require Import S_Listing S_Schema L_Workspace L_Add L_Str L_Text L_Fs L_Server L_Load L_History L_Replace L_Tools L_Listing P_Graph P_Server P_Tools.
Close Scope Z_scope.

Lemma one_line_path r : Forall (fun n => ~ In LF n) r -> ~ In LF (path_text r).
Proof.
  unfold path_text. induction r as [|n r IH]; intros F; [intros []|]. inversion F as [|? ? N F']; subst. destruct r as [|m r]; [exact N|].
  change (join (L "/") (n :: m :: r)) with (n ++ L "/" ++ join (L "/") (m :: r)). intros I. apply in_app_or in I as [I|I]; [exact (N I)|].
  apply in_app_or in I as [[I|[]]|I]; [discriminate|exact (IH F' I)].
Qed.
Lemma source_tree_fits c w d st : ordinary c w d -> (forall l, Permutation (c_files c l) l) -> rebuild c d = M_Text.Ok st -> one_line_names w d ->
  tree_fits (source_tree st).
Proof.
  intros O PC B ON. destruct (C53_tree_lists_each_source_file_once c w d st O PC B) as (SD & NE & M). split.
  - apply Forall_forall. intros [dir fs] I. rewrite Forall_forall in NE. destruct (NE _ I) as (N & _). cbn [fst snd] in *.
    assert (X : forall f, In f fs -> (~ In LF dir) /\ ~ In LF f /\ firm_line f).
    { intros f Hf. destruct (proj1 (M dir f)) as (r & s & SO & ->); [eauto|]. pose proof (ON _ _ SO) as F. apply Forall_app in F as [F1 F2].
      split; [apply one_line_path; exact F1|]. split; [inversion F2; assumption|].
      destruct SO as (_ & r' & n & E & (a & _ & E')). apply app_inj_tail in E as [_ ->]. exists a. exact E'. }
    split; [|split; [exact N|]].
    + destruct fs as [|f fs]; [destruct (N eq_refl)|]. apply (X f). left. reflexivity.
    + apply Forall_forall. intros f Hf. apply X. exact Hf.
  - intros g a b E N. rewrite E, map_app in SD. destruct a as [|h a]; [congruence|]. cbn [map app] in SD. inversion SD as [|? ? _ F]; subst.
    rewrite Forall_forall in F. intros X. specialize (F (fst g)). rewrite X in F. destruct (fst h); discriminate F; apply in_or_app; right; left; reflexivity.
Qed.

(** ** C53 *)
(** The tree is printed line by line. *)
Theorem C53_tree_is_printed_by_lines : forall c w d st, ordinary c w d -> (forall l, Permutation (c_files c l) l) -> rebuild c d = M_Text.Ok st -> one_line_names w d ->
  (source_tree st = [] -> tree_text (source_tree st) = L "No .firm source files found.") /\
  (source_tree st <> [] -> split_char LF (tree_text (source_tree st)) = tree_lines (source_tree st)).
Proof.
  intros c w d st O PC B ON. split; [intros ->; reflexivity|]. intros N. apply tree_text_lines; [exact N|]. eapply source_tree_fits; eauto.
Qed.
Print Assumptions C53_tree_is_printed_by_lines.
(** Workspaces that are printed alike have the same source files in the same
    places. *)
Theorem C53_what_is_printed_tells_the_tree : forall c c' w w' d d' st st',
  ordinary c w d -> (forall l, Permutation (c_files c l) l) -> rebuild c d = M_Text.Ok st -> one_line_names w d ->
  ordinary c' w' d' -> (forall l, Permutation (c_files c' l) l) -> rebuild c' d' = M_Text.Ok st' -> one_line_names w' d' ->
  tree_text (source_tree st) = tree_text (source_tree st') ->
  source_tree st = source_tree st' /\ forall r, (exists s, source_of w d r s) <-> exists s, source_of w' d' r s.
Proof.
  intros c c' w w' d d' st st' O PC B ON O' PC' B' ON' E.
  assert (T : source_tree st = source_tree st') by (apply tree_text_inj; [exact (source_tree_fits c w d st O PC B ON)|exact (source_tree_fits c' w' d' st' O' PC' B' ON')|exact E]).
  split; [exact T|].
  destruct (workspace_paths c w d st O PC B) as [_ I]. destruct (workspace_paths c' w' d' st' O' PC' B') as [_ I'].
  pose proof (proj2 (proj2 (C53_tree_lists_each_source_file_once c w d st O PC B))) as M.
  pose proof (proj2 (proj2 (C53_tree_lists_each_source_file_once c' w' d' st' O' PC' B'))) as M'. rewrite <- T in M'.
  assert (Half : forall w w' d d', sound d -> sound d' ->
    (forall dir f, (exists r s, source_of w d (r ++ [f]) s /\ dir = path_text r) -> exists r s, source_of w' d' (r ++ [f]) s /\ dir = path_text r) ->
    forall r, (exists s, source_of w d r s) -> exists s, source_of w' d' r s).
  { clear. intros w w' d d' S S' H r (s & SO). pose proof SO as (_ & r0 & f & E & _). subst r.
    destruct (H (path_text r0) f) as (r1 & s1 & SO1 & E); [eauto|]. enough (r0 = r1) as -> by eauto.
    assert (U : forall w d a r n s, sound d -> source_of w d ((a :: r) ++ [n]) s -> path_text (a :: r) <> []).
    { clear. intros w d a r n s S (N & _). assert (X : Forall proper_name (w ++ (a :: r) ++ [n])) by (apply (sound_names d); [exact S|congruence]).
      apply Forall_app in X as [_ X]. inversion X as [|? ? (Z & _) _]; subst. unfold path_text. destruct a as [|z a]; [congruence|]. destruct r; discriminate. }
    destruct (source_slashless w d _ s S SO) as [SL _], (source_slashless w' d' _ s1 S' SO1) as [SL' _].
    apply Forall_app in SL as [SL _], SL' as [SL' _]. destruct r0 as [|a r0], r1 as [|a' r1]; auto.
    - destruct (U _ _ _ _ _ _ S' SO1). symmetry. exact E.
    - destruct (U _ _ _ _ _ _ S SO). exact E.
    - apply path_text_inj; auto; discriminate. }
  intros r. split; apply Half; try apply O; try apply O'.
  - intros dir f H. apply M'. apply M. exact H.
  - intros dir f H. apply M. apply M'. exact H.
Qed.
Print Assumptions C53_what_is_printed_tells_the_tree.
Definition d_split : fs := [([L "w"], Dir); ([L "w"; L "s.firm"], File (L "schemas")); ([L "w"; L "a.firm"], File (L "john")); ([L "w"; L "b.firm"], File (L "jane"))].
Definition d_joined : fs := [([L "w"], Dir); ([L "w"; L "s.firm"], File (L "schemas")); ([L "w"; L "a.firm" ++ [LF] ++ L "b.firm"], File (L "john"))].
(** A line feed in a name makes two files of one. *)
Theorem C53_names_with_line_feeds_refuted : exists st st', rebuild c0 d_split = M_Text.Ok st /\ rebuild c0 d_joined = M_Text.Ok st' /\
  tree_text (source_tree st) = tree_text (source_tree st') /\ source_tree st <> source_tree st'.
Proof. do 2 eexists. split; [vm_compute; reflexivity|]. split; [vm_compute; reflexivity|]. split; [vm_compute; reflexivity|]. vm_compute. discriminate. Qed.
Print Assumptions C53_names_with_line_feeds_refuted.
Lemma names_of w d : Forall (fun e => Forall (fun n => ~ In LF n) (fst e)) d -> one_line_names w d.
Proof.
  intros F r s (N & r' & n & E & _). assert (I : In (w ++ r) (map fst d)) by (subst r; rewrite app_assoc in *; apply entry_listed; unfold node_at in N; destruct ((w ++ r') ++ [n]) eqn:Z; [destruct (w ++ r'); discriminate Z|]; intros Y; rewrite Y in N; discriminate N).
  apply in_map_iff in I as ([q m] & E' & I). cbn [fst] in E'. subst q. rewrite Forall_forall in F. specialize (F _ I). cbn [fst] in F.
  apply Forall_app in F as [_ F]. exact F.
Qed.
Example C53_listing_case : one_line_names w0 d_deep /\ exists st, rebuild c0 d_deep = M_Text.Ok st /\
  tree_lines (source_tree st) = [L "a.firm"; L "b.firm"; L "s.firm"; L "x/"; L "  b.firm"; L "  c.firm"].
Proof.
  split; [|eexists; split; [vm_compute; reflexivity|vm_compute; reflexivity]]. apply names_of. unfold d_deep, d0. cbn [app].
  repeat (apply Forall_cons; [cbn [fst]; repeat (apply Forall_cons; [vm_compute; intuition discriminate|]); apply Forall_nil|]). apply Forall_nil.
Qed.

(** ** C40 *)
Lemma found_groups_fit c w d st query cs groups tr : ordinary c w d -> (forall l, Permutation (c_files c l) l) -> rebuild c d = M_Text.Ok st -> one_line_names w d ->
  search_source c d st query cs = Matches groups tr -> groups <> [] /\ groups_fit groups.
Proof.
  intros O PC B ON E. assert (Q : query <> []) by (intros ->; discriminate E). destruct (workspace_paths c w d st O PC B) as [ND _].
  destruct (C40_reports_the_first_hits c d st query cs Q ND) as (l & A & H). rewrite E in H. destruct H as (N & R & _ & _ & NE).
  pose proof (proj2 (C40_searches_the_source_files c w d st query cs l O PC B A)) as M. split.
  - intros ->. destruct l as [|x l]; [congruence|]. discriminate R.
  - unfold groups_fit. apply Forall_forall. intros [p ms] I. rewrite Forall_forall in NE. specialize (NE _ I). cbn [fst snd] in *.
    assert (X : forall m, In m ms -> (~ In LF p) /\ ~ In LF (snd m)).
    { intros [k t] Hm. assert (J : In (p, k, t) (reported groups)).
      { unfold reported. apply in_flat_map. exists (p, ms). split; [exact I|]. apply in_map_iff. exists (k, t). auto. }
      rewrite R in J. assert (J' : In (p, k, t) l) by (rewrite <- (firstn_skipn 50 l); apply in_or_app; left; exact J).
      apply M in J' as (r & s & SO & -> & (a & b & _ & NL & _) & _). split; [apply one_line_path, (ON _ _ SO)|exact NL]. }
    split; [|split; [exact NE|]].
    + destruct ms as [|m ms]; [destruct (NE eq_refl)|]. apply (X m). left. reflexivity.
    + apply Forall_forall. intros m Hm. apply X. exact Hm.
Qed.
(** Results that are printed alike tell of the same files, lines and texts, and
    agree on whether there are more. *)
Theorem C40_what_is_printed_tells_the_hits : forall c c' w w' d d' st st' query query' cs cs' groups groups' tr tr',
  ordinary c w d -> (forall l, Permutation (c_files c l) l) -> rebuild c d = M_Text.Ok st -> one_line_names w d ->
  ordinary c' w' d' -> (forall l, Permutation (c_files c' l) l) -> rebuild c' d' = M_Text.Ok st' -> one_line_names w' d' ->
  search_source c d st query cs = Matches groups tr -> search_source c' d' st' query' cs' = Matches groups' tr' ->
  search_text groups tr = search_text groups' tr' -> tr = tr' /\ shown_hits groups = shown_hits groups'.
Proof.
  intros c c' w w' d d' st st' query query' cs cs' groups groups' tr tr' O PC B ON O' PC' B' ON' E E' T.
  destruct (found_groups_fit c w d st query cs groups tr O PC B ON E) as [N F]. destruct (found_groups_fit c' w' d' st' query' cs' groups' tr' O' PC' B' ON' E') as [N' F'].
  apply search_text_inj; auto.
Qed.
Print Assumptions C40_what_is_printed_tells_the_hits.
Example C40_listing_case : exists st groups, rebuild c0 d_deep = M_Text.Ok st /\ search_source c0 d_deep st (L "J") false = Matches groups false /\
  shown_hits groups = [(L "a.firm", [(1, L "john")]); (L "x/b.firm", [(1, L "jim")]); (L "x/c.firm", [(1, L "jane")])] /\
  search_text groups true <> search_text groups false.
Proof. do 2 eexists. split; [vm_compute; reflexivity|]. split; [vm_compute; reflexivity|]. split; [vm_compute; reflexivity|]. vm_compute. discriminate. Qed.

(** ** C05 *)
(** A reference to an entity stands for the entity that was added first under
    its id; no other value stands for one. *)
Theorem C05_references_stand_for_what_was_added : forall es v,
  match resolve_entity_reference (run (map OAdd es)) v with
  | M_Graph.Ok e => exists id, v = VRef (REntity id) /\ exists a b, es = a ++ e :: b /\ e_id e = id /\ Forall (fun x => e_id x <> id) a
  | M_Graph.Err (EntityNotFound id) => v = VRef (REntity id) /\ Forall (fun x => e_id x <> id) es
  | M_Graph.Err x => x = NotAnEntityReference /\ forall id, v <> VRef (REntity id)
  end.
Proof.
  intros es v. unfold resolve_entity_reference. destruct v as [| | | | |[id|id f]| | | | ]; try (split; [reflexivity|intros; discriminate]).
  rewrite C05_first_added_wins. destruct (find (fun e => str_eqb (e_id e) id) es) as [e|] eqn:F.
  - exists id. split; [reflexivity|]. induction es as [|x es IH]; [discriminate|]. cbn [find] in F. destruct (str_eqb (e_id x) id) eqn:X.
    + injection F as <-. exists [], es. split; [reflexivity|]. split; [apply str_eqb_eq; exact X|constructor].
    + destruct (IH F) as (a & b & -> & I & A). exists (x :: a), b. split; [reflexivity|]. split; [exact I|]. constructor; [|exact A].
      intros Y. rewrite Y, str_eqb_refl in X. discriminate.
  - split; [reflexivity|]. apply Forall_forall. intros x I Y. apply (find_none _ _ F) in I. rewrite Y, str_eqb_refl in I. discriminate.
Qed.
Print Assumptions C05_references_stand_for_what_was_added.

Example C05_references_case :
  resolve_entity_reference (run (map OAdd [ex_john; ex_acme; ex_john2])) (VRef (REntity (L "person.john"))) = M_Graph.Ok ex_john /\
  resolve_entity_reference (run (map OAdd [ex_john; ex_acme])) (VRef (REntity (L "person.jim"))) = M_Graph.Err (EntityNotFound (L "person.jim")) /\
  resolve_entity_reference (run (map OAdd [ex_john; ex_acme])) (VRef (RField (L "person.john") (L "name"))) = M_Graph.Err NotAnEntityReference.
Proof. vm_compute. auto. Qed.

(** ** C54 *)
(** The schemas: those the source files declare, each once, and each is given
    when asked for by its name. *)
Theorem C54_schemas_are_exact : forall c d st, shuffles (c_fields c) -> (forall l, Permutation (c_schemas c l) l) -> rebuild c d = M_Text.Ok st ->
  NoDup (list_tool st (L "schema")) /\
  (forall t, In t (list_tool st (L "schema")) <-> get_tool st (L "schema") t <> NotGot) /\
  (forall t e, get_tool st (L "schema") t <> GotEntity e) /\
  (forall t s, get_tool st (L "schema") t = GotSchema s <-> exists b, In b (schema_blocks (st_files st)) /\ reads_schema (c_env c) b s /\ s_type s = t).
Proof.
  intros c d st SH PS B. destruct (served_schemas c d st SH PS B) as [ND _]. destruct (rebuild_files c d st B) as (fs & _ & _ & G). apply load_ok in G as (B' & _ & _).
  apply (build_ok _ _ _ _ _ SH) in B' as (ss & (F & _ & _ & _) & E).
  assert (U : forall t s, get_tool st (L "schema") t = GotSchema s <-> In s (b_schemas (st_build st)) /\ s_type s = t).
  { intros t s. unfold get_tool, get_schema_tool. rewrite str_eqb_refl. clear E F. induction (b_schemas (st_build st)) as [|x l IH]; cbn [find In].
    - split; [discriminate|intros [[] _]].
    - cbn [map] in ND. inversion ND as [|? ? NI ND']; subst. destruct (str_eqb (s_type x) t) eqn:X.
      + apply str_eqb_eq in X. split; [intros [= <-]; auto|]. intros [[<- | I] T]; [reflexivity|]. destruct NI. rewrite X, <- T. apply in_map. exact I.
      + rewrite IH by exact ND'. split; [intros [I T]; auto|]. intros [[<- | I] T]; [|auto]. rewrite T, str_eqb_refl in X. discriminate. }
  assert (NE : forall t e, get_tool st (L "schema") t <> GotEntity e).
  { intros t e. unfold get_tool. rewrite str_eqb_refl. destruct (get_schema_tool st t); discriminate. }
  split; [unfold list_tool; rewrite str_eqb_refl; exact ND|]. split; [|split; [exact NE|]].
  - intros t. unfold list_tool. rewrite str_eqb_refl, in_map_iff. split.
    + intros (s & T & I) X. pose proof (proj2 (U t s) (conj I T)) as Y. rewrite X in Y. discriminate.
    + intros N. destruct (get_tool st (L "schema") t) as [s|e|] eqn:Q; [|destruct (NE _ _ Q)|congruence]. apply U in Q as [I T]. eauto.
  - intros t s. rewrite U, E. split.
    + intros [I T]. apply (Permutation_in s (PS ss)) in I. destruct (L_Workspace.Forall2_in_r _ _ _ F s I) as (b & Ib & R). eauto.
    + intros (b & Ib & R & T). split; [|exact T]. apply (Permutation_in s (Permutation_sym (PS ss))).
      clear - F Ib R. induction F as [|x y l l' H F IH]; [destruct Ib|]. destruct Ib as [-> | Ib]; [left|right; auto].
      unfold reads_schema in *. rewrite R in H. injection H as H. symmetry. exact H.
Qed.
Print Assumptions C54_schemas_are_exact.
Example C54_schemas_case : list_tool st0 (L "schema") = [L "person"; L "org"] /\ get_tool st0 (L "schema") (L "firm") = NotGot /\
  get_tool st0 (L "schema") (L "org") = GotSchema (schema_new (L "org")).
Proof. vm_compute. auto. Qed.
