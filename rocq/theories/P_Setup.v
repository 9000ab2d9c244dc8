(** Property theorems C81: setting up a workspace, broken off and done again. *)
From Coq Require Import Lia Permutation.
From Verif Require Import S_Graph L_Graph.
From Verif Require Import S_Setup L_Str L_Schema L_Schema2 L_Fs L_Server L_Load L_History L_Add L_Prompt L_Init L_Init2 L_Setup.
From Verif Require Import P_Dsl P_Schema P_Workspace P_Server P_Init.
From Verif Require Import M_Fs.
Close Scope Z_scope.

Lemma yes_dec a : says_yes a \/ ~ says_yes a.
Proof.
  destruct a as [s|n|e| |]; try (right; intros (t & X & _); discriminate). destruct (yes_no s) as [[|]|] eqn:E.
  - left. exists s. split; [reflexivity|]. apply yes_no_says, E.
  - right. intros (t & [= <-] & X). apply yes_no_says in X. congruence.
  - right. intros (t & [= <-] & X). apply yes_no_says in X. congruence.
Qed.
Lemma in_run_left c template d w acts d' : runs_in c d w -> no_links_in w d -> in_run_init c template d acts d' ->
  runs_in c d' w /\ no_links_in w d' /\ (tidy d -> tidy d') /\ forall p, left_or_begun c template acts w (exists a, In a acts /\ says_yes a) d d' p.
Proof.
  intros RI NL [->|E].
  - split; [exact RI|]. split; [exact NL|]. split; [auto|]. left. reflexivity.
  - destruct (in_init_left c w acts (exists a, In a acts /\ says_yes a) template d acts d' (conj RI NL)) as ([A B] & T & X); [|exact E|auto].
    apply Forall_forall. intros a I. split; [|exact I]. destruct (yes_dec a); eauto.
Qed.

(** ** What is left behind *)
(** Wherever the command is killed, every place is as it was; or it is a file of
    the command, new or overwritten after a yes, with the beginning of the text
    the command has for it; or the directory for the schemas, new. The
    .gitignore has in it what it had before. *)
Theorem C81_what_is_left : forall c template d w acts d', runs_in c d w -> no_links_in w d -> in_run_init c template d acts d' ->
  forall p, left_or_begun c template acts w (exists a, In a acts /\ says_yes a) d d' p.
Proof. intros c template d w acts d' RI NL E. apply (in_run_left c template d w acts d' RI NL E). Qed.
Print Assumptions C81_what_is_left.

(** What the command leaves at its end is among this. *)
Theorem C81_goes_through_to_its_end : forall c template d acts d' r, run_init c template d acts = (d', r) -> in_run_init c template d acts d'.
Proof.
  intros c template d acts d' r H. unfold run_init in H. destruct (init_workspace c template d acts) as [d1 o] eqn:E.
  assert (d' = d1) as -> by (destruct o; congruence). exact (ends_init c template d acts d1 o E).
Qed.
Print Assumptions C81_goes_through_to_its_end.

Lemma ascii_begin t s : forallb (fun a => (code a <? 128)%N) t = true -> begins s t -> is_text s = true.
Proof.
  intros A (u & ->). rewrite forallb_app in A. apply Bool.andb_true_iff in A as [A _]. unfold is_text. induction s as [|a s IH]; cbn [forallb utf8_go] in *; [reflexivity|].
  apply Bool.andb_true_iff in A as [A1 A2]. rewrite A1. exact (IH A2).
Qed.
Lemma begins_cut (a s b : str) : begins a s -> begins s (a ++ b) -> exists u, s = a ++ u /\ begins u b.
Proof. intros (u & ->) (v & E). exists u. split; [reflexivity|]. exists v. rewrite <- app_assoc in E. apply app_inv_head in E. exact E. Qed.
Lemma graph_entry_ascii : forallb (fun a => (code a <? 128)%N) ([LF] ++ graph_entry) = true.
Proof. vm_compute. reflexivity. Qed.
Lemma graph_entry_ascii' : forallb (fun a => (code a <? 128)%N) graph_entry = true.
Proof. vm_compute. reflexivity. Qed.
(** A directory in which the command can be run stays one, however often it is
    broken off. *)
Theorem C81_can_be_run_again : forall c template d w acts d', runs_in c d w -> no_links_in w d -> usable w d -> in_run_init c template d acts d' ->
  runs_in c d' w /\ no_links_in w d' /\ usable w d'.
Proof.
  intros c template d w acts d' RI NL (U1 & U2 & U3) E. destruct (in_run_left c template d w acts d' RI NL E) as (RI' & NL' & _ & X).
  split; [exact RI'|]. split; [exact NL'|]. split; [|split].
  - destruct (X (w ++ [L "schemas"])) as [Y|[(_ & _ & Y)|(f & t & s & P & T & _)]]; [rewrite Y; exact U1|auto|]. apply app_inv_head in P. subst f. inversion T.
  - intros f F. destruct (X (w ++ f)) as [Y|[(P & _)|(g & t & s & P & _ & _ & Y & _)]]; [rewrite Y; exact (U2 f F)| |right; eauto].
    apply app_inv_head in P. subst f. inversion F.
  - intros t N. destruct (X (w ++ [L ".gitignore"])) as [Y|[(_ & _ & Y)|(f & t' & s & P & T & B & Y & O)]]; [rewrite Y in N; exact (U3 t N)|rewrite Y in N; discriminate|].
    rewrite Y in N. injection N as <-. apply app_inv_head in P. subst f.
    inversion T as [s' Is Ef Et|H Ef Et|old new H EA Ef Et|pn on I1 I2 Ef Et|Ef Et]; try discriminate; subst t'.
    + exact (ascii_begin graph_entry s graph_entry_ascii' B).
    + destruct O as [O|(old' & O & Z)]; [congruence|]. assert (old' = old) as -> by congruence. destruct Z as [[_ Z]|[Z _]]; [|elim Z; reflexivity].
      pose proof (U3 old H) as TX. destruct EA as [(b & _ & ->)|[_ ->]]; destruct (begins_cut _ _ _ Z B) as (u & -> & Bu); apply text_app; auto.
      * exact (ascii_begin graph_entry u graph_entry_ascii' Bu).
      * exact (ascii_begin ([LF] ++ graph_entry) u graph_entry_ascii Bu).
Qed.
Print Assumptions C81_can_be_run_again.

(** ** Setting up again *)
(** Saying yes to every question sets the workspace up, whatever is there of the
    command's own files: all of them are whole in the end, the .gitignore keeps
    what is in it, and nothing else is touched. *)
Theorem C81_saying_yes_completes : forall c template d w y pn on, runs_in c d w -> no_links_in w d -> usable w d -> says_yes y ->
  exists acts d', Forall (fun a => a = y \/ a = Types pn \/ a = Types on) acts /\
    run_init c template d acts = (d', Succeeded tt) /\
    (forall s, In s all_default_schemas ->
       node_at d' (w ++ [L "schemas"; s_type s ++ L ".firm"]) = Some (File (generate_schema (c_fields c) default_options s))) /\
    (exists t, node_at d' (w ++ [L ".gitignore"]) = Some (File t) /\ ignores_graph t /\
       forall s, node_at d (w ++ [L ".gitignore"]) = Some (File s) -> begins s t) /\
    node_at d' (w ++ [L "main.firm"]) = Some (File (generate_dsl (c_env c) default_options (first_entities pn on))) /\
    node_at d' (w ++ [L "AGENTS.md"]) = Some (File template) /\
    (forall p, node_at d' p = node_at d p \/ p = w ++ [L "schemas"] \/ exists f, init_file f /\ p = w ++ f).
Proof.
  intros c template d w y pn on RI NL U Y. destruct (init_again c w y Y template d pn on (conj RI NL) U) as (acts & d' & F & E & _ & _ & S & G & M & K & R).
  exists acts, d'. split; [exact F|]. specialize (E []). rewrite app_nil_r in E. unfold run_init. rewrite E. split; [reflexivity|]. split; [exact S|]. split; [exact G|]. split; [exact M|].
  split; [exact K|]. intros p. destruct (R p) as [X|[[X _]|X]]; auto.
Qed.
Print Assumptions C81_saying_yes_completes.

Lemma empty_usable w d : empty_dir w d -> usable w d.
Proof.
  intros E. split; [left; apply E; discriminate|]. split; [intros f F; left; apply E; intros ->; inversion F|]. intros s X. rewrite E in X by discriminate. discriminate.
Qed.
Lemma left_in_empty c template acts w (ow : Prop) d d' : empty_dir w d -> (forall p, left_or_begun c template acts w ow d d' p) ->
  forall p, node_at d' p = node_at d p \/ (p = w ++ [L "schemas"] /\ node_at d' p = Some Dir) \/ exists f, init_file f /\ p = w ++ f.
Proof.
  intros ED X p. destruct (X p) as [Y|[(P & _ & Y)|(f & t & s & P & T & _)]]; [auto|auto|]. right. right. exists f. split; [|exact P].
  inversion T as [s' Is Ef Et|H Ef Et|old new H EA Ef Et|pn on I1 I2 Ef Et|Ef Et]; try constructor. apply (in_map s_type) in Is. exact Is.
Qed.
(** The set-up of an empty directory that is killed can be finished: there are
    answers, a yes to every question, after which the workspace builds, with the
    sixteen schemas and with the two entities. *)
Theorem C81_after_a_kill_it_can_be_finished : forall c template d w acts d' y pn on, runs_in c d w -> no_links_in w d -> tidy d -> empty_dir w d ->
  in_run_init c template d acts d' -> says_yes y ->
  shuffles (c_fields c) -> (forall l, Permutation (c_schemas c l) l) -> (forall l, Permutation (c_files c l) l) ->
  utf8 pn -> storable_text pn -> utf8 on -> storable_text on ->
  Forall (reads_schema_text c) all_default_schemas -> reads_entities_text c (first_entities pn on) ->
  exists acts' d'' st, Forall (fun a => a = y \/ a = Types pn \/ a = Types on) acts' /\
    run_init c template d' acts' = (d'', Succeeded tt) /\
    rebuild c d'' = Ok st /\ Permutation (b_entities (st_build st)) (first_entities pn on) /\
    (forall ho, shuffles ho -> Permutation (map (said ho) (b_schemas (st_build st))) (map (said (c_fields c)) all_default_schemas)) /\
    (forall e, In e (first_entities pn on) -> get_entity (st_graph st) (e_id e) = Some e) /\
    (forall id e, get_entity (st_graph st) id = Some e -> In e (first_entities pn on)).
Proof.
  intros c template d w acts d' y pn on RI NL TD ED E Y SH PS PC U1 S1 U2 S2 RS RE.
  destruct (in_run_left c template d w acts d' RI NL E) as (RI1 & NL1 & TD1 & X).
  destruct (C81_can_be_run_again c template d w acts d' RI NL (empty_usable w d ED) E) as (_ & _ & U).
  destruct (init_again c w y Y template d' pn on (conj RI1 NL1) U) as (acts' & d'' & F & E' & [RI2 NL2] & TD2 & S & G & M & K & R).
  specialize (E' []). rewrite app_nil_r in E'.
  assert (R0 : forall p, node_at d'' p = node_at d p \/ (p = w ++ [L "schemas"] /\ node_at d'' p = Some Dir) \/ exists f, init_file f /\ p = w ++ f).
  { intros p. destruct (R p) as [Z|Z]; [|auto]. rewrite Z. exact (left_in_empty c template acts w _ d d' ED X p). }
  destruct (first_builds c w d'' pn on SH PS PC RI2 NL2 (TD2 (TD1 TD))) as (st & B).
  - apply (init_sources c d w d'' pn on ED (proj2 (proj2 (proj2 RI)))); auto.
    + destruct (R0 (w ++ [L "schemas"])) as [Z|[[_ Z]|(f & I & Z)]]; [|exact Z|].
      * exfalso. assert (P : node_at d'' ((w ++ [L "schemas"]) ++ [L "person.firm"]) = Some (File (schema_text c person))) by (rewrite <- app_assoc; apply (S person); left; reflexivity).
        destruct (proj1 RI2 (w ++ [L "schemas"]) (L "person.firm") ltac:(intros Q; pose proof (eq_trans (eq_sym P) Q); discriminate)) as [V _]. rewrite Z, (ED [L "schemas"]) in V by discriminate. discriminate.
      * apply app_inv_head in Z. inversion I as [t It Ef|Ef|Ef|Ef]; rewrite <- Ef in Z; discriminate.
    + intros p. destruct (R0 p) as [Z|[[Z _]|Z]]; auto.
  - exact RS.
  - exact RE.
  - apply C25_strings_survive_exactly; auto.
  - apply C25_strings_survive_exactly; auto.
  - exists acts', d'', st. split; [exact F|]. unfold run_init. rewrite E'. split; [reflexivity|exact B].
Qed.
Print Assumptions C81_after_a_kill_it_can_be_finished.

(** ** A case *)
(** A parser to which an empty file is one without blocks. *)
Definition parse17 (t : str) : option parsed :=
  match t with [] => Some {| ps_error := false; ps_schemas := []; ps_entities := [] |} | _ => parse8 t end.
Definition c17 : ctx :=
  {| c_ws := path_of (L "/w"); c_links := 40; c_parse := parse17; c_env := env0; c_fields := fid; c_schemas := sid; c_files := fun l => l |}.
(** Killed when the first file has been made and nothing is written to it. *)
Definition d17 : fs := set_node (set_node d8 (w0 ++ [L "schemas"]) Dir) (w0 ++ [L "schemas"; L "person.firm"]) (File []).
Lemma d17_left : in_run_init c17 guide d8 [enter] d17.
Proof.
  right. left. exists []. split; [reflexivity|]. unfold in_create_default_schemas.
  replace (existsb _ all_default_schemas) with false by (vm_compute; reflexivity). right. eexists. split; [vm_compute; reflexivity|]. left. exists 0. vm_compute. reflexivity.
Qed.
(** Whoever takes the answers that are offered the second time is told of
    success, and has a workspace that does not build: the schemas are not
    overwritten unless that is asked for, also if they are not all there. *)
Theorem C81_taking_what_is_offered_refuted : exists c template d w acts d' acts' d'',
  runs_in c d w /\ no_links_in w d /\ empty_dir w d /\ in_run_init c template d acts d' /\
  Forall (fun a => a = Types [] \/ In a [Types (L "Jane Doe"); Types (L "Acme & Sons")]) acts' /\
  run_init c template d' acts' = (d'', Succeeded tt) /\ forall st, rebuild c d'' <> Ok st.
Proof.
  exists c17, guide, d8, w0, [enter], d17, [enter; enter; enter; enter; Types (L "Jane Doe"); Types (L "Acme & Sons"); enter]. eexists.
  split; [apply d8_runs; reflexivity|]. split; [apply d8_links|]. split; [apply d8_empty|]. split; [apply d17_left|].
  split; [repeat (apply Forall_cons; [cbn [In]; auto|]); constructor|]. split; [vm_compute; reflexivity|]. intros st H. vm_compute in H. discriminate.
Qed.
Print Assumptions C81_taking_what_is_offered_refuted.

Lemma c17_schemas : Forall (reads_schema_text c17) all_default_schemas.
Proof. repeat (apply Forall_cons; [split; [vm_compute; reflexivity|eexists; split; [vm_compute; reflexivity|split; reflexivity]]|]). constructor. Qed.
Lemma c17_entities : reads_entities_text c17 names8.
Proof. split; [vm_compute; reflexivity|eexists; split; [vm_compute; reflexivity|split; reflexivity]]. Qed.
Example C81_case :
  (node_at d17 (w0 ++ [L "schemas"; L "person.firm"]) = Some (File []) /\ usable w0 d17 /\ runs_in c17 d17 w0) /\
  exists d'' st, run_init c17 guide d17 [yes; yes; yes; yes; Types (L "Jane Doe"); Types (L "Acme & Sons"); yes] = (d'', Succeeded tt) /\
    rebuild c17 d'' = Ok st /\ node_at d'' (w0 ++ [L "schemas"; L "person.firm"]) = Some (File (generate_schema fid default_options person)).
Proof.
  assert (R : runs_in c17 d8 w0) by (apply d8_runs; reflexivity).
  destruct (C81_can_be_run_again c17 guide d8 w0 [enter] d17 R d8_links (empty_usable w0 d8 d8_empty) d17_left) as (A & _ & B).
  split; [split; [vm_compute; reflexivity|auto]|]. eexists. eexists. split; [vm_compute; reflexivity|]. split; vm_compute; reflexivity.
Qed.
Example C81_after_a_kill_example : exists acts' d'' st, run_init c17 guide d17 acts' = (d'', Succeeded tt) /\ rebuild c17 d'' = Ok st /\ Permutation (b_entities (st_build st)) names8.
Proof.
  assert (Y : says_yes yes) by (exists (L "Yes"); split; [reflexivity|right; reflexivity]).
  destruct (plain_name_storable (L "Jane Doe") eq_refl) as [A B]. destruct (plain_name_storable (L "Acme & Sons") eq_refl) as [C D].
  destruct (C81_after_a_kill_it_can_be_finished c17 guide d8 w0 [enter] d17 yes _ _ (d8_runs c17 eq_refl eq_refl) d8_links d8_tidy d8_empty d17_left Y
    fid_ok (fun l => Permutation_refl l) (fun l => Permutation_refl l) A B C D c17_schemas c17_entities) as (acts' & d'' & st & _ & E & G & P & _). eauto 6.
Qed.
