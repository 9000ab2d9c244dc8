(** C82: how the blocks of a workspace are distributed over files makes no
    difference. *)
From Coq Require Import Lia Permutation.
From Verif Require Import S_Graph S_Query L_Graph L_Exec L_Laws P_Query.
From Verif Require Import S_Spread L_Str L_Text L_Ids L_Fs L_Load L_Workspace L_History L_Life L_Syntax L_Syntax2 L_Syntax3 L_Syntax5 L_Whole L_Spread.
From Verif Require Import P_Schema P_Dsl P_Server P_Add P_Cli P_Grow P_Syntax P_Whole.
From Verif Require Import M_Fs M_Dsl S_Whole S_Spread.
Close Scope Z_scope.

Lemma rebuilt_graph c d st : rebuild c d = M_Text.Ok st ->
  L_Graph.built (st_graph st) (b_entities (st_build st)) /\ NoDup (map e_id (b_entities (st_build st))) /\
  st_graph st = build (run [OAddMany (b_entities (st_build st))]).
Proof.
  intros RB. destruct (rebuild_files c d st RB) as (fs & _ & _ & LG). apply load_ok in LG as (_ & ND & Eg). rewrite Eg.
  split; [|auto]. pose proof (load_spec _ ND) as E. rewrite <- E at 2. exact (built_run [OAddMany (b_entities (st_build st))]).
Qed.

(** Two workspaces with the same blocks, whatever the files and directories they
    are in, their order, and the white space and comments between them: one is
    built exactly if the other is, and to the same entities and schemas. *)
Theorem C82_arrangement_makes_no_difference : forall c w d c' w' d', readable c w d -> readable c' w' d' -> c_env c' = c_env c -> same_blocks w d w' d' ->
  ((exists st, rebuild c d = M_Text.Ok st) <-> exists st', rebuild c' d' = M_Text.Ok st') /\
  forall st st', rebuild c d = M_Text.Ok st -> rebuild c' d' = M_Text.Ok st' ->
    Permutation (b_entities (st_build st)) (b_entities (st_build st')) /\ Permutation (b_schemas (st_build st)) (b_schemas (st_build st')).
Proof.
  intros c w d c' w' d' R R' En SB. split; [split|].
  - intros (st & RB). destruct (rebuilt_alike _ _ _ _ _ _ st R R' En SB RB) as (st' & RB' & _). eauto.
  - intros (st & RB). destruct (rebuilt_alike _ _ _ _ _ _ st R' R (eq_sym En) (same_blocks_sym _ _ _ _ SB) RB) as (st' & RB' & _). eauto.
  - intros st st1 RB RB1. destruct (rebuilt_alike _ _ _ _ _ _ st R R' En SB RB) as (st' & RB' & P). rewrite RB' in RB1. injection RB1 as <-. exact P.
Qed.
Print Assumptions C82_arrangement_makes_no_difference.
(** Every entity is served alike. *)
Theorem C82_same_entity_by_id : forall c w d c' w' d' st st', readable c w d -> readable c' w' d' -> c_env c' = c_env c -> same_blocks w d w' d' ->
  rebuild c d = M_Text.Ok st -> rebuild c' d' = M_Text.Ok st' -> forall id, get_entity (st_graph st) id = get_entity (st_graph st') id.
Proof.
  intros c w d c' w' d' st st' R R' En SB RB RB' id.
  destruct (proj2 (C82_arrangement_makes_no_difference c w d c' w' d' R R' En SB) st st' RB RB') as [P _].
  destruct (rebuild_lookup c d st RB) as [N G], (rebuild_lookup c' d' st' RB') as [_ G']. rewrite G, G'. apply lookup_perm; assumption.
Qed.
Print Assumptions C82_same_entity_by_id.
(** And every query answers alike: with the same entities, if it has no limit ... *)
Theorem C82_queries_answer_alike : forall c w d c' w' d' st st', readable c w d -> readable c' w' d' -> c_env c' = c_env c -> same_blocks w d w' d' ->
  rebuild c d = M_Text.Ok st -> rebuild c' d' = M_Text.Ok st' ->
  forall x ho ho' s ops, orders ho -> orders ho' -> no_limit ops ->
  same_entities (execute x (st_graph st) ho {| q_from := s; q_ops := ops; q_agg := None |})
                (execute x (st_graph st') ho' {| q_from := s; q_ops := ops; q_agg := None |}).
Proof.
  intros c w d c' w' d' st st' R R' En SB RB RB' x ho ho' s ops O O' NL.
  destruct (proj2 (C82_arrangement_makes_no_difference c w d c' w' d' R R' En SB) st st' RB RB') as [P _].
  exact (execute_two x _ _ _ _ (proj1 (rebuilt_graph c d st RB)) (proj1 (rebuilt_graph c' d' st' RB')) P ho ho' O O' s ops NL).
Qed.
Print Assumptions C82_queries_answer_alike.
(** ... with the same number ... *)
Theorem C82_counts_alike : forall c w d c' w' d' st st', readable c w d -> readable c' w' d' -> c_env c' = c_env c -> same_blocks w d w' d' ->
  rebuild c d = M_Text.Ok st -> rebuild c' d' = M_Text.Ok st' ->
  forall x ho ho' s ops n, orders ho -> orders ho' -> no_limit ops ->
  execute x (st_graph st) ho {| q_from := s; q_ops := ops; q_agg := Some (ACount None) |} = M_Graph.Ok (QAgg (RCount n)) ->
  execute x (st_graph st') ho' {| q_from := s; q_ops := ops; q_agg := Some (ACount None) |} = M_Graph.Ok (QAgg (RCount n)).
Proof.
  intros c w d c' w' d' st st' R R' En SB RB RB' x ho ho' s ops n O O' NL A.
  pose proof (C82_queries_answer_alike c w d c' w' d' st st' R R' En SB RB RB' x ho ho' s ops O O' NL) as Q.
  apply (L_Laws.execute_ok x _ ho s ops (Some (ACount None))) in A as (r & A & v & V & W). cbn in V. injection V as <-. injection W as ->.
  unfold S_Laws.answers, S_Laws.ask in A. rewrite A in Q. cbn [same_entities] in Q.
  destruct (execute x (st_graph st') ho' {| q_from := s; q_ops := ops; q_agg := None |}) as [[r'|]|] eqn:E; try contradiction.
  apply (L_Laws.execute_ok x _ ho' s ops (Some (ACount None))). exists r'. split; [exact E|]. eexists. split; [reflexivity|]. now rewrite (Permutation_length Q).
Qed.
Print Assumptions C82_counts_alike.
(** ... and with the same list, if it is ordered by id before it is limited. *)
Theorem C82_ordered_answers_alike : forall c w d c' w' d' st st', readable c w d -> readable c' w' d' -> c_env c' = c_env c -> same_blocks w d w' d' ->
  rebuild c d = M_Text.Ok st -> rebuild c' d' = M_Text.Ok st' ->
  forall x ho ho' s pre o post, orders ho -> orders ho' -> no_limit pre -> no_related post ->
  let q := {| q_from := s; q_ops := pre ++ QOrder (FMeta MId) o :: post; q_agg := None |} in
  same_list (execute x (st_graph st) ho q) (execute x (st_graph st') ho' q).
Proof.
  intros c w d c' w' d' st st' R R' En SB RB RB' x ho ho' s pre o post O O' NL NR.
  destruct (proj2 (C82_arrangement_makes_no_difference c w d c' w' d' R R' En SB) st st' RB RB') as [P _].
  refine (execute_two_ordered x _ _ _ _ (proj1 (rebuilt_graph c d st RB)) (proj1 (rebuilt_graph c' d' st' RB')) P ho ho' O O' s pre o post NL NR _).
  intros e He. destruct (rebuild_files c d st RB) as (fs & _ & _ & LG). apply load_ok in LG as (BW & _ & _).
  apply (build_ok _ _ _ _ _ (rd_fields _ _ _ R)) in BW as (ss & (_ & F & _) & _). destruct (L_Load.Forall2_in_r _ _ _ _ F He) as ([p n] & _ & Rd).
  unfold reads_entity, to_entity in Rd. cbn [fst snd] in Rd. destruct (of_option _ (en_type n)) as [t| |]; try discriminate. cbn [obind] in Rd.
  destruct (of_option _ (en_id n)) as [i| |]; try discriminate. cbn [obind] in Rd. destruct (omap _ _); try discriminate. injection Rd as <-. apply compose_lower.
Qed.
Print Assumptions C82_ordered_answers_alike.

(** ** A case *)
(** The two people and the schema of C73, each in a file of its own, one of them
    in another directory. *)
Definition jane_text : str := generate_dsl env0 default_options [jane14].
Definition ann_text : str := generate_dsl env0 default_options [ann14].
Definition person_text : str := generate_schema fid default_options person14.
Definition d18 : fs := [([L "w"], Dir); ([L "w"; L "z.firm"], File ann_text); ([L "w"; L "a"], Dir);
  ([L "w"; L "a"; L "s.firm"], File person_text); ([L "w"; L "a"; L "jane.firm"], File jane_text)].
Definition st18 : state := match rebuild c9 d18 with M_Text.Ok st => st | _ => none0 end.
Lemma d18_sources r s : source_of w0 d18 r s -> (r, s) = ([L "z.firm"], ann_text) \/ (r, s) = ([L "a"; L "s.firm"], person_text) \/ (r, s) = ([L "a"; L "jane.firm"], jane_text).
Proof.
  intros [H (r' & n & -> & _)]. apply in_fs in H; [|discriminate]. cbn [In d18 w0 app] in H. 
  destruct H as [H|[H|[H|[H|[H|[]]]]]]; try discriminate; injection H as <- <-; auto.
Qed.
Ltac a_source := split; [reflexivity|]; match goal with |- exists r' n, ?r = _ /\ _ => let p := eval cbv [removelast last] in (removelast r, last r []) in
  match p with (?a, ?b) => exists a, b; split; [reflexivity|]; exists (firstn (length b - 5) b); split; [vm_compute; discriminate|vm_compute; reflexivity] end end.
Lemma one_entity e : kept_entity env0 e -> file_syntax [EntityBlock (written_entity env0 default_options e)] (generate_dsl env0 default_options [e]).
Proof. intros K. apply (entities_in_file env0 default_options [e]). constructor; [now apply kept_is_expressible|constructor]. Qed.
Lemma d14_written : written_in w0 d14 [([L "s.firm"], SchemaBlock (written_schema fid person14)); ([L "p.firm"], EntityBlock (written_entity env0 default_options ann14));
  ([L "p.firm"], EntityBlock (written_entity env0 default_options jane14))].
Proof.
  exists [([L "s.firm"], [SchemaBlock (written_schema fid person14)]); ([L "p.firm"], map EntityBlock (map (written_entity env0 default_options) [jane14; ann14]))].
  split; [repeat (apply NoDup_cons; [cbn; intuition discriminate|]); apply NoDup_nil|]. split; [|split].
  - intros r bs [H|[H|[]]]; injection H as <- <-; [exists person_text|exists text14]; (split; [a_source|]); [exact schema14_syntax|exact text14_syntax].
  - intros r s [H (r' & n & -> & _)]. apply in_fs in H; [|discriminate]. cbn [In d14 w0 app] in H.
    destruct H as [H|[H|[H|[]]]]; try discriminate; injection H as <- <-; eexists; [right; left; reflexivity|left; reflexivity].
  - cbn [flat_map map app fst snd]. constructor. apply perm_swap.
Qed.
Lemma d18_written : written_in w0 d18 [([L "a"; L "s.firm"], SchemaBlock (written_schema fid person14)); ([L "z.firm"], EntityBlock (written_entity env0 default_options ann14));
  ([L "a"; L "jane.firm"], EntityBlock (written_entity env0 default_options jane14))].
Proof.
  pose proof people_kept as PK. inversion PK as [|? ? K1 PK']; subst. inversion PK' as [|? ? K2 _]; subst. 
  exists [([L "a"; L "s.firm"], [SchemaBlock (written_schema fid person14)]); ([L "z.firm"], [EntityBlock (written_entity env0 default_options ann14)]);
    ([L "a"; L "jane.firm"], [EntityBlock (written_entity env0 default_options jane14)])].
  split; [repeat (apply NoDup_cons; [cbn; intuition discriminate|]); apply NoDup_nil|]. split; [|split].
  - intros r bs [H|[H|[H|[]]]]; injection H as <- <-; [exists person_text|exists ann_text|exists jane_text]; (split; [a_source|]);
      [exact schema14_syntax|exact (one_entity ann14 K2)|exact (one_entity jane14 K1)].
  - intros r s H. destruct (d18_sources r s H) as [E|[E|E]]; injection E as -> ->; eexists; cbn [In]; eauto.
  - reflexivity.
Qed.
Lemma c9_readable d : runs_in c9 d w0 -> forallb (fun e => match snd e with Link _ => false | _ => true end) d = true -> tidy d ->
  forallb (fun e => match snd e with File s => is_text s | _ => true end) d = true -> readable c9 w0 d.
Proof.
  intros RI NL TD TX. split; try assumption.
  - apply no_links_list, NL.
  - intros r s [H (r' & n & -> & _)]. apply in_fs in H; [|discriminate]. rewrite forallb_forall in TX. exact (TX _ H).
  - exact reads_syntax.
  - exact fid_ok.
  - intros l. apply Permutation_refl.
  - intros l. apply Permutation_refl.
Qed.
Ltac tidily := unfold tidy; cbn [map fst]; repeat (apply NoDup_cons; [cbn; intuition discriminate|]); apply NoDup_nil.
Ltac no_paths := repeat (first [apply Forall_nil | apply Forall_cons]);
  intros ? E; vm_compute in E; injection E as <-; repeat (constructor; try discriminate).
Example C82_case : readable c9 w0 d14 /\ readable c9 w0 d18 /\ same_blocks w0 d14 w0 d18 /\
  rebuild c9 d14 = M_Text.Ok st14 /\ rebuild c9 d18 = M_Text.Ok st18 /\
  map e_id (b_entities (st_build st14)) = [L "person.jane"; L "person.ann"] /\ map e_id (b_entities (st_build st18)) = [L "person.ann"; L "person.jane"].
Proof.
  split; [apply c9_readable; [runs|reflexivity|tidily|vm_compute; reflexivity]|].
  split; [apply c9_readable; [runs|reflexivity|tidily|vm_compute; reflexivity]|]. split.
  - do 2 eexists. split; [exact d14_written|]. split; [exact d18_written|].
    constructor; [split; [reflexivity|left]|constructor; [split; [reflexivity|left]|constructor; [split; [reflexivity|left]|constructor]]].
    + cbn [snd pathless_block]. intros nb fs I E. vm_compute in I. repeat (destruct I as [I|I]; [subst nb; vm_compute in E; injection E as <-; no_paths|]). destruct I.
    + cbn [snd pathless_block]. vm_compute. no_paths.
    + cbn [snd pathless_block]. vm_compute. no_paths.
  - split; [vm_compute; reflexivity|]. split; [vm_compute; reflexivity|]. split; vm_compute; reflexivity.
Qed.
(** A path is relative to the file it is written in: a block with one says
    something else in another directory. *)
Definition doc18 : entity := {| e_id := L "doc.a"; e_type := L "doc"; e_fields := [(L "at", VPath (L "x.pdf"))] |}.
Definition docs18 : schema :=
  match to_schema env0 (L "s.firm") {| sn_name := Some (L "doc"); sn_blocks := [P_Add.decl (L "at") (L "path") true] |} with M_Text.Ok s => s | _ => schema_new [] end.
Definition at_top : fs := [([L "w"], Dir); ([L "w"; L "s.firm"], File (generate_schema fid default_options docs18)); ([L "w"; L "f.firm"], File (generate_dsl env0 default_options [doc18]))].
Definition at_x : fs := [([L "w"], Dir); ([L "w"; L "s.firm"], File (generate_schema fid default_options docs18)); ([L "w"; L "x"], Dir);
  ([L "w"; L "x"; L "f.firm"], File (generate_dsl env0 default_options [doc18]))].
Lemma doc_syntax : file_syntax [EntityBlock (written_entity env0 default_options doc18)] (generate_dsl env0 default_options [doc18]).
Proof.
  apply (entities_in_file env0 default_options [doc18]). constructor; [|constructor]. split; [word|]. split; [discriminate|]. split; [word|].
  constructor; [|constructor]. split; [word|]. cbn [snd expressible]. split; [reflexivity|]. now apply line_of.
Qed.
Lemma docs_syntax : file_syntax [SchemaBlock (written_schema fid docs18)] (generate_schema fid default_options docs18).
Proof. apply schema_file; [exact fid_ok|]. apply plain_schema_expressible. vm_compute. reflexivity. Qed.
Theorem C82_moving_a_path_refuted : exists c w d d' l l' st st', readable c w d /\ readable c w d' /\ written_in w d l /\ written_in w d' l' /\ map snd l = map snd l' /\
  rebuild c d = M_Text.Ok st /\ rebuild c d' = M_Text.Ok st' /\ get_entity (st_graph st) (L "doc.a") <> get_entity (st_graph st') (L "doc.a").
Proof.
  exists c9, w0, at_top, at_x, [([L "s.firm"], SchemaBlock (written_schema fid docs18)); ([L "f.firm"], EntityBlock (written_entity env0 default_options doc18))],
    [([L "s.firm"], SchemaBlock (written_schema fid docs18)); ([L "x"; L "f.firm"], EntityBlock (written_entity env0 default_options doc18))].
  do 2 eexists. split; [apply c9_readable; [runs|reflexivity|tidily|vm_compute; reflexivity]|].
  split; [apply c9_readable; [runs|reflexivity|tidily|vm_compute; reflexivity]|].
  split; [|split; [|split; [reflexivity|split; [vm_compute; reflexivity|split; [vm_compute; reflexivity|vm_compute; discriminate]]]]].
  - exists [([L "s.firm"], [SchemaBlock (written_schema fid docs18)]); ([L "f.firm"], [EntityBlock (written_entity env0 default_options doc18)])].
    split; [repeat (apply NoDup_cons; [cbn; intuition discriminate|]); apply NoDup_nil|]. split; [|split; [|reflexivity]].
    + intros r bs [H|[H|[]]]; injection H as <- <-; eexists; (split; [a_source|]); [exact docs_syntax|exact doc_syntax].
    + intros r s [H (r' & n & -> & _)]. apply in_fs in H; [|discriminate]. cbn [In at_top w0 app] in H.
      destruct H as [H|[H|[H|[]]]]; try discriminate; injection H as <- <-; eexists; [left; reflexivity|right; left; reflexivity].
  - exists [([L "s.firm"], [SchemaBlock (written_schema fid docs18)]); ([L "x"; L "f.firm"], [EntityBlock (written_entity env0 default_options doc18)])].
    split; [repeat (apply NoDup_cons; [cbn; intuition discriminate|]); apply NoDup_nil|]. split; [|split; [|reflexivity]].
    + intros r bs [H|[H|[]]]; injection H as <- <-; eexists; (split; [a_source|]); [exact docs_syntax|exact doc_syntax].
    + intros r s [H (r' & n & -> & _)]. apply in_fs in H; [|discriminate]. cbn [In at_x w0 app] in H.
      destruct H as [H|[H|[H|[H|[]]]]]; try discriminate; injection H as <- <-; eexists; [left; reflexivity|right; left; reflexivity].
Qed.
Print Assumptions C82_moving_a_path_refuted.
