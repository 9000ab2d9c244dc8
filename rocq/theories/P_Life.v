(** A workspace that is only added to: C66. *)
From Coq Require Import Lia Permutation.
From Verif Require Import S_Graph L_Graph.
From Verif Require Import S_Life L_Str L_Ids L_Fs L_Server L_Load L_History L_Add L_Save L_Cli L_Grow L_Prompt L_Prompt2 L_Init L_Init2 L_Syntax L_Syntax3 L_Syntax4 L_Syntax5 L_Life.
From Verif Require Import P_Dsl P_Schema P_Workspace P_Server P_Add P_Save P_Cli P_Grow P_Prompt P_Init P_Syntax.
From Verif Require P_Query.
From Verif Require Import M_Fs M_Syntax.
Close Scope Z_scope.

(** Whatever is asked, built, broken off or added, by the tool, by flags or by
    prompts, with or without success: the workspace goes on building, with all
    it had, all that was said to be added, and nothing else; and its files stay
    in the documented syntax. *)
Theorem C66_a_workspace_only_added_to_builds : forall c ae x pe w d es d' st, shuffles (c_fields c) -> (forall l, Permutation (cl_order x l) l) ->
  (forall l, Permutation (c_schemas c l) l) -> (forall l, Permutation (c_files c l) l) -> faithful c pe -> follows_syntax (c_parse c) ->
  in_order c w d st -> life c ae x pe w d es d' -> exists st', in_order c w d' st' /\ gained st st' es.
Proof.
  intros c ae x pe w d es d' st SH PO PS PC FA FS IO LF. destruct (life_kept c ae x pe w d es d' st SH PO PS PC FA FS IO LF) as (st' & es' & IO' & F & P1 & P2).
  exists st'. split; [exact IO'|]. exact (gains c d d' st st' es es' ltac:(apply IO) ltac:(apply IO') F P1 P2).
Qed.
Print Assumptions C66_a_workspace_only_added_to_builds.
(** From the empty directory on. *)
Theorem C66_life_of_a_new_workspace : forall c ae x pe template d w a1 a2 a3 a4 pn on rest, shuffles (c_fields c) -> (forall l, Permutation (cl_order x l) l) ->
  (forall l, Permutation (c_schemas c l) l) -> (forall l, Permutation (c_files c l) l) -> faithful c pe -> follows_syntax (c_parse c) ->
  runs_in c d w -> no_links_in w d -> tidy d -> empty_dir w d -> agrees a1 -> agrees a2 -> agrees a3 -> agrees a4 ->
  is_text pn = true -> one_line pn -> name_syntax (sanitize_entity_id pn) -> is_text on = true -> one_line on -> name_syntax (sanitize_entity_id on) ->
  exists d0, run_init c template d (a1 :: a2 :: a3 :: Types pn :: Types on :: a4 :: rest) = (d0, Succeeded tt) /\
  forall es d', life c ae x pe w d0 es d' ->
  exists st es', in_order c w d' st /\ Forall2 entity_as es es' /\ Permutation (b_entities (st_build st)) (es' ++ first_entities pn on) /\
    (forall ho, shuffles ho -> Permutation (map (said ho) (b_schemas (st_build st))) (map (said (c_fields c)) all_default_schemas)) /\
    (forall e, In e (es' ++ first_entities pn on) -> get_entity (st_graph st) (e_id e) = Some e) /\
    (forall id e, get_entity (st_graph st) id = Some e -> In e (es' ++ first_entities pn on)).
Proof.
  intros c ae x pe template d w a1 a2 a3 a4 pn on rest SH PO PS PC FA FS RI NL TD ED A1 A2 A3 A4 T1 O1 N1 T2 O2 N2.
  destruct (C65_new_workspace_builds c template d w a1 a2 a3 a4 pn on rest RI NL TD ED A1 A2 A3 A4 SH PS PC T1 O1 N1 T2 O2 N2 FS) as (d0 & st0 & E & B & PE & PSc & G1 & G2 & RI0 & NL0 & TD0 & D0 & DE0).
  exists d0. split; [exact E|]. intros es d' LF.
  assert (ND : no_graph_dirs d0 w).
  { destruct (C60_touches_only_its_files c template d w _ d0 _ RI NL E) as (_ & _ & _ & K).
    assert (X : forall n, n = current_name \/ n = backup_name -> node_at d0 (w ++ [n]) = None).
    { intros n Hn. rewrite K; [apply ED; discriminate| |].
      - intros f F Q. apply app_inv_head in Q. inversion F as [t It Ef|Ef|Ef|Ef]; rewrite <- Ef in Q; destruct Hn as [-> | ->]; discriminate.
      - intros Q. apply app_inv_head in Q. destruct Hn as [-> | ->]; discriminate. }
    split; rewrite X; auto; discriminate. }
  destruct (C66_a_workspace_only_added_to_builds c ae x pe w d0 es d' st0 SH PO PS PC FA FS) as (st & IO & es' & F & P1 & P2 & Q1 & Q2 & Q3).
  { split; [exact RI0|]. split; [exact NL0|]. split; [exact ND|]. split; [exact TD0|]. auto. }
  { exact LF. }
  exists st, es'. split; [exact IO|]. split; [exact F|]. split; [now rewrite P2, PE|]. split; [|split].
  - intros ho SHo. rewrite (Permutation_map (said ho) P1). now apply PSc.
  - intros e I. apply in_app_or in I as [I|I]; [now apply Q1|]. apply Q2. now apply G1.
  - intros id e I. apply in_or_app. destruct (Q3 id e I) as [J|J]; [now left|]. right. exact (G2 id e J).
Qed.
Print Assumptions C66_life_of_a_new_workspace.

(** Refuted: that a directory may have the name of a graph file. An entity can be
    added to a file in one, and then no command that builds succeeds again. *)
Definition flags_below : cli_add_params :=
  {| x_type := L "person"; x_id := L "Jo"; x_fields := [(L "full_name", L "Jo Doe")]; x_lists := []; x_values := []; x_file := Some (L "backup.firm.graph/jo.firm") |}.
Lemma d10_in_order : in_order c9 w0 d10 st10.
Proof. destruct C65_case as (A & B & C & D & _ & E & F & G). repeat (split; [assumption|]). exact G. Qed.
Theorem C66_graph_directory_refuted : exists c x w d st a d' e, in_order c w d st /\ follows_syntax (c_parse c) /\ savable (cl_json x) (st_graph st) /\
  writes_below c (x_type a) (x_file a) /\ run_add c x false d a = (d', Succeeded e) /\ fits c w d' e /\
  (forall s, snd (build_and_save (cl_json x) c d' s) = false) /\ (forall a', run_add c x false d' a' = (d', Failed)).
Proof.
  exists c9, x9, w0, d10, st10, flags_below. do 2 eexists. split; [exact d10_in_order|]. split; [exact reads_syntax|]. split; [apply C65_flags_case|].
  split; [exists [L "backup.firm.graph"], (L "jo.firm"); split; [reflexivity|]; split; [repeat constructor|]; exists (L "jo"); split; [discriminate|reflexivity]|].
  split; [vm_compute; reflexivity|]. split; [split; [exact (kept_is_expressible _ _ jo_kept)|intros r s _; apply jo_readable]|].
  split; [intros [| |n|]; vm_compute; reflexivity|]. intros a'. unfold run_add.
  match goal with |- context [prepare c9 x9 ?d false] => replace (prepare c9 x9 d false) with (d, @Failed unit) by (vm_compute; reflexivity) end. reflexivity.
Qed.
Print Assumptions C66_graph_directory_refuted.

(** A build broken off while it writes, an addition by flags, a question, and an
    addition by the tool. *)
Definition add_ann : add_params :=
  {| a_type := L "person"; a_id := L "Ann"; a_fields := [(L "full_name", JStr (L "Ann Doe"))]; a_file := Some (L "people/a.firm"); a_items := [] |}.
Definition ann : entity := {| e_id := L "person.ann"; e_type := L "person"; e_fields := [(L "full_name", VStr (L "Ann Doe"))] |}.
Lemma ann_kept : kept_entity env0 ann.
Proof.
  exists (L "person"), (L "ann"). repeat (split; [first [reflexivity | discriminate | now apply name_word]|]).
  constructor; [|constructor]. split; [now apply name_word|]. split; [reflexivity|]. left. now apply line_of.
Qed.
Lemma ann_readable r : readable_at c9 r ann.
Proof. constructor; [|constructor]. eexists. split; [apply kept_survives; split; [reflexivity|]; left; now apply line_of|]. now left. Qed.
Example C66_case : exists d' st', life c9 ae0 x9 pe6 w0 d10 [jo; ann] d' /\ in_order c9 w0 d' st' /\
  get_entity (st_graph st') (L "person.jo") = Some jo /\ get_entity (st_graph st') (L "person.ann") = Some ann.
Proof.
  assert (LF : exists d', life c9 ae0 x9 pe6 w0 d10 [jo; ann] d').
  { eexists. eapply (life_goes_on _ _ _ _ _ _ [jo] _ [ann]).
    - eapply (life_goes_on _ _ _ _ _ _ [jo] _ []).
      + eapply (life_goes_on _ _ _ _ _ _ [] _ [jo]).
        * eapply (life_goes_on _ _ _ _ _ _ [] _ []); [constructor|eapply (builds _ _ _ _ _ _ (InWrite 1)); vm_compute; reflexivity|split; discriminate].
        * eapply (flags_add _ _ _ _ _ _ flags_jo).
          -- intros st E. vm_compute in E. injection E as <-. eexists. split; [reflexivity|]. split; reflexivity.
          -- exact (proj1 (proj2 C65_flags_case)).
          -- cbn. intuition discriminate.
          -- vm_compute. reflexivity.
          -- split; [exact (kept_is_expressible _ _ jo_kept)|intros r s _; apply jo_readable].
        * split; discriminate.
      + eapply (asks _ _ _ _ _ _ true (CGet (L "person") (L "jo"))). vm_compute. reflexivity.
      + split; discriminate.
    - eapply (tool_adds _ _ _ _ _ _ _ add_ann).
      + vm_compute. reflexivity.
      + exists [L "people"], (L "a.firm"). split; [reflexivity|]. split; [repeat constructor|]. exists (L "a"). split; [discriminate|reflexivity].
      + cbn. intuition discriminate.
      + vm_compute. reflexivity.
      + discriminate.
      + apply to_add_asked; [exact fid_ok|]. vm_compute. reflexivity.
      + split; [exact (kept_is_expressible _ _ ann_kept)|intros r s _; apply ann_readable].
    - split; discriminate. }
  destruct LF as [d' LF]. destruct (C66_a_workspace_only_added_to_builds c9 ae0 x9 pe6 w0 d10 [jo; ann] d' st10 fid_ok) as (st' & IO & G); try (intros; reflexivity); auto using reads_syntax, d10_in_order.
  - apply C65_prompt_case.
  - exists d', st'. split; [exact LF|]. split; [exact IO|]. destruct G as (es' & F & _ & _ & G & _). inversion F as [|? e1 ? ? A1 F1]; subst. inversion F1 as [|? e2 ? ? A2 F2]; subst. inversion F2; subst.
    assert (READ : forall e e', entity_as e e' -> (forall i v, In (i, v) (e_fields e) -> forall p, v <> VPath p) -> e' = e).
    { intros [i t fs] [i' t' fs'] (X & Y & Z) NP. cbn [e_id e_type e_fields] in *. subst. f_equal. clear - Z NP. induction Z as [|[k v] [k' v'] l l' [X Y] Z IH]; [reflexivity|]. cbn [fst snd] in *. subst k'.
      destruct Y as [->|(p & p' & -> & _)]; [|destruct (NP k (VPath p) (or_introl eq_refl) p eq_refl)]. f_equal. apply IH. intros i v0 I. exact (NP i v0 (or_intror I)). }
    apply READ in A1; [|intros i v [[= <- <-]|[]]; discriminate]. apply READ in A2; [|intros i v [[= <- <-]|[]]; discriminate]. subst.
    split; [exact (G jo (or_introl eq_refl))|exact (G ann (or_intror (or_introl eq_refl)))].
Qed.
