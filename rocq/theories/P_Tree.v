(** Reading syntax trees: C69 the blocks of a file are read from its tree,
    C70 syntax errors. *)
From Coq Require Import Lia.
From Verif Require Import S_Graph L_Graph.
From Verif Require Import S_Server S_Schema S_Tree L_Str L_Fs L_Server L_History L_Tree L_Broken P_Dsl P_Schema P_Workspace P_Server.
Close Scope Z_scope.

(** ** C69 *)
(** From the tree of a file exactly its blocks are read, in order, whatever else
    (comments, braces) is among the nodes. *)
Theorem C69_file_is_read : forall src bs t, file_tree src bs t -> read_tree src t = Some (tree_of bs).
Proof. exact file_tree_read. Qed.
Print Assumptions C69_file_is_read.
(** If the library makes such trees of the texts in the documented syntax, the
    program reads the documented syntax: the hypothesis of C63 to C66. *)
Theorem C69_documented_syntax_is_read : forall tp, makes_trees tp -> follows_syntax (parse_with tp).
Proof.
  intros tp H bs text F. destruct (H bs text F) as (t & E & T). unfold parse_with. rewrite E. exact (file_tree_read _ _ _ T).
Qed.
Print Assumptions C69_documented_syntax_is_read.
(** Every text in the documented syntax has such a tree. *)
Theorem C69_every_text_has_a_tree : forall bs text, file_syntax bs text -> exists t, file_tree text bs t.
Proof. exact every_text_has_a_tree. Qed.
Print Assumptions C69_every_text_has_a_tree.
(** Two files of different blocks have different trees. *)
Theorem C69_tree_tells_the_blocks : forall src bs1 bs2 t, file_tree src bs1 t -> file_tree src bs2 t -> tree_of bs1 = tree_of bs2.
Proof. intros src bs1 bs2 t H1 H2. apply file_tree_read in H1, H2. congruence. Qed.
Print Assumptions C69_tree_tells_the_blocks.
(** Reading never panics, whatever the tree, if its ranges lie in the text,
    between characters; and whether there is an error in it is known. *)
Theorem C69_reading_never_panics : forall src t, in_text src t -> exists p, read_tree src t = Some p /\ (ps_error p = true <-> damaged t).
Proof. intros src t H. destruct (tree_total src t H) as (p & E & X). exists p. split; [exact E|]. rewrite X. apply has_error_iff. Qed.
Print Assumptions C69_reading_never_panics.
(** What is not a block makes no difference. *)
Theorem C69_only_blocks_are_read : forall src k m a b k' m' a' b' l c r, t_kind c <> L "entity_block" -> t_kind c <> L "schema_block" ->
  same_blocks (read_tree src (Node k m a b (l ++ c :: r))) (read_tree src (Node k' m' a' b' (l ++ r))).
Proof. exact other_skipped. Qed.
Print Assumptions C69_only_blocks_are_read.

(** A text with comments, and its tree. *)
Definition who : str := L "// who" ++ [LF] ++ L "person jane { tags = [1, /* and */ 2] }".
Definition on (before s k : str) (cs : list tree) : tree := over before s k cs.
Definition one_value (before s k : str) : tree := on before s (L "value") [on before s k []].
Definition b_list : str := L "// who" ++ [LF] ++ L "person jane { tags = ".
Definition the_list : str := L "[1, /* and */ 2]".
Definition who_field : tree :=
  on (L "// who" ++ [LF] ++ L "person jane { ") (L "tags = [1, /* and */ 2]") (L "field")
    [ on (L "// who" ++ [LF] ++ L "person jane { ") (L "tags") (L "field_name") [];
      on (L "// who" ++ [LF] ++ L "person jane { tags ") (L "=") (L "=") [];
      on b_list the_list (L "value")
        [ on b_list the_list (L "list")
            [ on b_list (L "[") (L "[") [];
              one_value (b_list ++ L "[") (L "1") (L "number");
              on (b_list ++ L "[1") (L ",") (L ",") [];
              on (b_list ++ L "[1, ") (L "/* and */") (L "comment") [];
              one_value (b_list ++ L "[1, /* and */ ") (L "2") (L "number");
              on (b_list ++ L "[1, /* and */ 2") (L "]") (L "]") [] ] ] ].
Definition who_tree : tree :=
  on [] who (L "source_file")
    [ on [] (L "// who") (L "comment") [];
      on (L "// who" ++ [LF]) (L "person jane { tags = [1, /* and */ 2] }") (L "entity_block")
        [ on (L "// who" ++ [LF]) (L "person") (L "entity_type") [];
          on (L "// who" ++ [LF] ++ L "person ") (L "jane") (L "entity_id") [];
          on (L "// who" ++ [LF] ++ L "person jane ") (L "{ tags = [1, /* and */ 2] }") (L "block")
            [ on (L "// who" ++ [LF] ++ L "person jane ") (L "{") (L "{") []; who_field;
              on (b_list ++ the_list ++ L " ") (L "}") (L "}") [] ] ] ].
Definition who_blocks : list S_Syntax.block :=
  [EntityBlock {| en_type := Some (L "person"); en_id := Some (L "jane");
                  en_fields := [field_node (L "tags") (VNode (Some KList) the_list [VNode (Some KNumber) (L "1") []; VNode (Some KNumber) (L "2") []])] |}].
(** Where a node of the example ends. *)
Ltac spot b a := eexists _, _, _, b, a; split; [reflexivity|split; [vm_compute; reflexivity|split; vm_compute; reflexivity]].
Ltac others := repeat (first [apply Forall_nil | apply Forall_cons; [discriminate|]]).
Example C69_case : file_tree who who_blocks who_tree /\ read_tree who who_tree = Some (tree_of who_blocks) /\ in_text who (one_value (b_list ++ L "[") (L "1") (L "number")).
Proof.
  split; [|split].
  - split; [|vm_compute; reflexivity]. cbn [t_children who_tree on over]. apply ba_other; [discriminate..|]. apply ba_one; [|apply ba_none].
    eapply bt_entity; [reflexivity|eapply first_next with (b := []); [reflexivity|reflexivity|others]| |eapply first_next with (b := [_]); [reflexivity|reflexivity|others]
      | |eapply first_next with (b := [_; _]); [reflexivity|reflexivity|others]|].
    + spot (L "// who" ++ [LF]) (L " jane { tags = [1, /* and */ 2] }").
    + spot (L "// who" ++ [LF] ++ L "person ") (L " { tags = [1, /* and */ 2] }").
    + exists [who_field]. split.
      * cbn [t_children]. apply among_other; [discriminate|]. apply among_one; [reflexivity|]. apply among_other; [discriminate|]. apply among_none.
      * apply Forall2_cons; [|apply Forall2_nil]. eexists _, _, _, _. split; [reflexivity|]. split; [eapply first_next with (b := []); [reflexivity|reflexivity|others]|split; [|split; [eapply first_next with (b := [_; _]); [reflexivity|reflexivity|others]|]]].
        -- spot (L "// who" ++ [LF] ++ L "person jane { ") (L " = [1, /* and */ 2] }").
        -- eapply vt_list; [spot b_list (L " }")|reflexivity|reflexivity| |].
           ++ cbn [t_children]. apply among_other; [discriminate|]. apply among_one; [reflexivity|]. apply among_other; [discriminate|].
              apply among_other; [discriminate|]. apply among_one; [reflexivity|]. apply among_other; [discriminate|]. apply among_none.
           ++ apply Forall2_cons; [|apply Forall2_cons; [|apply Forall2_nil]].
              ** eapply vt_literal; [spot (b_list ++ L "[") (L ", /* and */ 2] }")|reflexivity|discriminate|discriminate|reflexivity].
              ** eapply vt_literal; [spot (b_list ++ L "[1, /* and */ ") (L "] }")|reflexivity|discriminate|discriminate|reflexivity].
  - vm_compute. reflexivity.
  - econstructor; [spot (b_list ++ L "[") (L ", /* and */ 2] }")|]. apply Forall_cons; [|apply Forall_nil].
    econstructor; [spot (b_list ++ L "[") (L ", /* and */ 2] }")|]. apply Forall_nil.
Qed.

(** ** C70 *)
(** A write whose text has an error is refused and changes nothing, forced or
    not. *)
Theorem C70_broken_write_is_refused : forall c d st rel content force, ~ error_free c content ->
  write_source c d st rel content force = (d, st, Refused).
Proof.
  intros c d st rel content force N. unfold write_source, validate_and_write. destruct (c_parse c content) as [ps|] eqn:P; [|reflexivity].
  destruct (ps_error ps) eqn:E; [reflexivity|]. exfalso. apply N. exists ps. auto.
Qed.
Print Assumptions C70_broken_write_is_refused.
(** So it is for a parser that reads the library's trees, wherever in the tree
    the error is. *)
Theorem C70_damaged_write_is_refused : forall c tp d st rel content force t, c_parse c = parse_with tp -> tp content = Some t -> damaged t ->
  write_source c d st rel content force = (d, st, Refused).
Proof.
  intros c tp d st rel content force t P T D. apply C70_broken_write_is_refused. intros (ps & E & F). rewrite P in E. unfold parse_with in E. rewrite T in E.
  rewrite (read_tree_error _ _ _ E) in F. apply has_error_iff in D. congruence.
Qed.
Print Assumptions C70_damaged_write_is_refused.
(** So is a replacement after which the file would have one. *)
Theorem C70_broken_replacement_is_refused : forall c d w st rel old new all force q text content n d' st' a,
  runs_in c d w -> resolve (c_links c) d (named c rel) = At q -> node_at d q = Some (File text) ->
  replace_text text old new all = Replaced content n -> ~ error_free c content ->
  replace_source c d st rel old new all force = (d', st', a) -> d' = d /\ st' = st /\ a = Refused.
Proof.
  intros c d w st rel old new all force q text content n d' st' a RI R F RP N H. unfold replace_source in H.
  destruct (replace_in_file c d rel old new all) as [| |content' n'] eqn:X.
  - injection H as <- <- <-. auto.
  - exfalso. unfold replace_in_file in X. destruct old as [|o old]; [discriminate|]. destruct (read_source_file c d rel) as [t| |] eqn:Rd; try discriminate.
    destruct (read_spec c d w rel t RI Rd) as (q' & R' & _ & F' & _). assert (q' = q) by congruence. subst q'. assert (t = text) by congruence. subst t. congruence.
  - unfold replace_in_file in X. destruct old as [|o old]; [discriminate|]. destruct (read_source_file c d rel) as [t| |] eqn:Rd; try discriminate.
    destruct (read_spec c d w rel t RI Rd) as (q' & R' & _ & F' & _). assert (q' = q) by congruence. subst q'. assert (t = text) by congruence. subst t.
    assert (content' = content) by congruence. subst content'. rewrite C70_broken_write_is_refused in H by exact N. injection H as <- <- <-. auto.
Qed.
Print Assumptions C70_broken_replacement_is_refused.
(** After any requests, forced or not, a file is as it was before or free of
    errors. *)
Theorem C70_no_error_gets_in : forall c w d st rs d' st' l, ordinary c w d -> Forall plain_request rs -> serve c d st rs = (d', st', l) ->
  forall r s, source_of w d' r s -> source_of w d r s \/ error_free c s.
Proof.
  intros c w d st rs d' st' l O F H r s (N & X). destruct (edits_error_free c w rs d st d' st' l O F H) as (_ & E).
  destruct (E _ _ N) as [K|K]; [left; split; assumption|right; exact K].
Qed.
Print Assumptions C70_no_error_gets_in.
(** A workspace without errors stays so. *)
Theorem C70_stays_free_of_errors : forall c w d st rs d' st' l, ordinary c w d -> Forall plain_request rs -> serve c d st rs = (d', st', l) ->
  (forall r s, source_of w d r s -> error_free c s) -> forall r s, source_of w d' r s -> error_free c s.
Proof.
  intros c w d st rs d' st' l O F H E r s S. destruct (C70_no_error_gets_in c w d st rs d' st' l O F H r s S) as [K|K]; [exact (E r s K)|exact K].
Qed.
Print Assumptions C70_stays_free_of_errors.
(** Loading and building take no notice of errors: what comes of a workspace is
    the same as with a parser that finds none. *)
Theorem C70_build_ignores_errors : forall c d, rebuild (without_errors c) d = rebuild c d.
Proof. exact rebuild_without. Qed.
Print Assumptions C70_build_ignores_errors.

(** A source without its closing brace. What the parser could make nothing of
    is in a node of kind ERROR. *)
Definition broken : str := L "person jo { age = 3".
Definition broken_tree : tree :=
  on [] broken (L "source_file")
    [ on [] broken (L "ERROR")
        [ on [] (L "person") (L "entity_type") []; on (L "person ") (L "jo") (L "entity_id") []; on (L "person jo ") (L "{") (L "{") [];
          on (L "person jo { ") (L "age = 3") (L "field")
            [ on (L "person jo { ") (L "age") (L "field_name") []; on (L "person jo { age ") (L "=") (L "=") []; one_value (L "person jo { age = ") (L "3") (L "number") ] ] ].
Definition c_broken : ctx :=
  {| c_ws := path_of (L "/w"); c_links := 40; c_parse := fun s => if str_eqb s broken then read_tree broken broken_tree else parse0 s;
     c_env := env0; c_fields := fid; c_schemas := sid; c_files := fun l => l |}.
Definition d_broken : fs := d0 ++ [([L "w"; L "jo.firm"], File broken)].
Lemma broken_ordinary : ordinary c_broken w0 d_broken.
Proof.
  split; [runs|]. split; [apply no_links_list; reflexivity|]. split.
  - unfold tidy. cbn [map fst d0 d_broken app]. repeat (apply NoDup_cons; [cbn; intuition discriminate|]). apply NoDup_nil.
  - intros p s _ E. destruct p as [|a p]; [discriminate|]. cbn [node_at d0 d_broken app entry_at] in E.
    repeat (match type of E with context [place_eqb ?x ?y] => destruct (place_eqb x y) end; [injection E as <- || discriminate; reflexivity|]). discriminate.
Qed.
(** It is not so that a source with an error is reported: the build succeeds,
    without what the source declares. *)
Theorem C70_broken_source_is_reported_refuted : exists c w d st d1 st1 r s t, ordinary c w d /\ source_of w d r s /\
  c_parse c s = read_tree s t /\ has_error t = true /\ ~ error_free c s /\ rebuild c d = Ok st /\
  node_at d1 (w ++ r) = None /\ (forall p, p <> w ++ r -> node_at d1 p = node_at d p) /\ rebuild c d1 = Ok st1 /\ st_graph st = st_graph st1.
Proof.
  exists c_broken, w0, d_broken. eexists. exists d0. eexists. exists [L "jo.firm"], broken, broken_tree.
  split; [exact broken_ordinary|]. split; [split; [reflexivity|]; exists [], (L "jo.firm"); split; [reflexivity|]; exists (L "jo"); split; [discriminate|reflexivity]|].
  split; [vm_compute; reflexivity|]. split; [vm_compute; reflexivity|]. split; [intros (p & E & F); vm_compute in E; injection E as <-; discriminate F|].
  split; [vm_compute; reflexivity|]. split; [vm_compute; reflexivity|]. split; [|split; vm_compute; reflexivity].
  intros p N. destruct p as [|a p]; [reflexivity|]. unfold d_broken. cbn [node_at d0 app entry_at].
  repeat (match goal with |- context [place_eqb ?x ?y] => destruct (place_eqb x y) eqn:? end; [try reflexivity|]); [|reflexivity].
  exfalso. apply N. match goal with H : place_eqb [L "w"; L "jo.firm"] _ = true |- _ => apply place_eqb_eq in H; symmetry; exact H end.
Qed.
Print Assumptions C70_broken_source_is_reported_refuted.
(** A forced write of a text with an error is refused; one of a text with
    an entity of an unknown type is not. *)
Example C70_case : (forall r s, source_of w0 d0 r s -> error_free c_broken s) /\ ordinary c_broken w0 d0 /\
  Forall plain_request [Write (L "jo.firm") broken true; Replace (L "a.firm") (L "john") (L "unknown type") false true] /\
  (exists d' st' , serve c_broken d0 st0 [Write (L "jo.firm") broken true; Replace (L "a.firm") (L "john") (L "unknown type") false true] = (d', st', [Refused; Forced])).
Proof.
  split; [|split; [|split]].
  - intros r s (N & _). unfold w0 in N. cbn [app node_at] in N. unfold d0 in N. cbn [entry_at] in N.
    repeat (match type of N with context [place_eqb ?x ?y] => destruct (place_eqb x y) end; [injection N as <- || discriminate; eexists; split; vm_compute; reflexivity|]). discriminate.
  - split; [runs|]. exact (proj2 d0_ordinary).
  - repeat (apply Forall_cons || apply Forall_nil); repeat split; reflexivity.
  - eexists. eexists. vm_compute. reflexivity.
Qed.
(** A tree whose closing brace was added by the library, and the tree above. *)
Example C70_damage_case :
  damaged broken_tree /\ damaged (Node (L "source_file") false 0 19 [Node (L "entity_block") false 0 19 [Node (L "}") true 19 19 []]]) /\ ~ damaged who_tree.
Proof.
  split; [|split].
  - apply has_error_iff. vm_compute. reflexivity.
  - eapply damaged_inside; [now left|]. eapply damaged_inside; [now left|]. constructor.
  - intros D. apply has_error_iff in D. vm_compute in D. discriminate.
Qed.
