(** C75: what the prompts offer for completion. *)
From Coq Require Import Permutation.
From Verif Require Import S_Graph L_Graph.
From Verif Require Import S_Suggest L_Str L_Schema L_Ids L_Fs L_Prompt L_Whole L_Suggest.
From Verif Require Import P_Schema P_Dsl P_Server P_Add P_Cli P_Grow P_Syntax P_Whole.
From Verif Require Import M_Dsl S_Suggest M_Fs.
Close Scope Z_scope.

(** Before the first dot, the types are offered that begin with what was typed.
    After it, what is offered is the name of an entity the files declare, or
    after a second dot of a field of it, going on from what was typed; the
    prompt takes it as it is. *)
Theorem C75_what_is_offered_is_taken : forall c w d st ho input s, built c w d st -> (forall l, Permutation (ho l) l) ->
  In s (reference_suggestions ho (st_graph st) input) ->
  goes_on input s /\ ((dot_count input = 0 /\ type_of_some w d s) \/
  (dot_count input = dot_count s /\ reference_to w d s /\
   exists r, names_known (st_graph st) s r /\ forall pe target sk rest, scalar_prompt c pe (st_graph st) target TRef sk None (Types s :: rest) = Got (VRef r) rest)).
Proof.
  intros c w d st ho input s B HO I. split; [exact (offer_goes_on c w d st B ho input s I)|].
  destruct (offered_is_reference c w d st B ho HO input s I) as [(Z & T & _)|[R C]]; [left; auto|right].
  split; [congruence|]. split; [exact R|]. destruct (reference_taken c w d st B s R) as (r & N). exists r. split; [exact N|]. intros pe target sk rest.
  unfold scalar_prompt. rewrite (ask_first (line (known_reference (st_graph st))) (Types s) r rest Logic.I); [destruct sk; reflexivity|]. cbn [line]. now apply known_reference_spec.
Qed.
Print Assumptions C75_what_is_offered_is_taken.

(** Whatever beginning of it is typed that has as many dots, every entity and
    every field the files declare is offered; and every type before the dot. *)
Theorem C75_everything_declared_is_offered : forall c w d st ho, built c w d st -> (forall l, Permutation (ho l) l) ->
  (forall s p, reference_to w d s -> begins_with s p -> dot_count p = dot_count s -> In s (reference_suggestions ho (st_graph st) p)) /\
  (forall s p, type_of_some w d s -> begins_with s p -> dot_count p = 0 -> In s (reference_suggestions ho (st_graph st) p)).
Proof. intros c w d st ho B HO. split; [exact (reference_is_offered c w d st B ho HO)|exact (type_is_offered c w d st B ho HO)]. Qed.
Print Assumptions C75_everything_declared_is_offered.

(** Nothing is offered twice, if no block has two fields of one name. *)
Theorem C75_nothing_is_offered_twice : forall c w d st ho input, built c w d st -> (forall l, Permutation (ho l) l) ->
  (forall t i fs, declares w d t i fs -> NoDup (map fn_id fs)) -> NoDup (reference_suggestions ho (st_graph st) input).
Proof. intros c w d st ho input B HO NF. exact (offered_once c w d st B ho HO input NF). Qed.
Print Assumptions C75_nothing_is_offered_twice.

(** What a prompt for a path offers is there, it begins with what was typed,
    and it ends in a slash if and only if it is a directory. *)
Theorem C75_offered_paths_are_there : forall c d w input s, runs_in c d w -> relative_input input -> In s (path_suggestions c d input) ->
  begins_with s input /\ path_of_some c d s.
Proof. intros c d w input s RI RE. exact (offered_path c d w RI input s RE). Qed.
Print Assumptions C75_offered_paths_are_there.

(** Whatever is in or below the workspace is offered, once the directories on
    the way and any beginning of its name are typed. *)
Theorem C75_what_is_there_is_offered : forall c d w ds name n input s, runs_in c d w -> no_links_in w d ->
  node_at d (w ++ ds ++ [name]) = Some n -> shown ds name n s -> typed_of ds name input -> input <> L "." -> (forall x, input <> x ++ L "/.") ->
  In s (path_suggestions c d input).
Proof. intros c d w ds name n input s RI NL N SH T N1 N2. exact (path_offered c d w RI ds name n input s NL N SH T N2 N1). Qed.
Print Assumptions C75_what_is_there_is_offered.

(** No path is offered twice. *)
Theorem C75_no_path_is_offered_twice : forall c d w input, runs_in c d w -> tidy d -> relative_input input -> NoDup (path_suggestions c d input).
Proof. intros c d w input RI T RE. exact (paths_once c d w RI input T RE). Qed.
Print Assumptions C75_no_path_is_offered_twice.

(** ** A case *)
Definition d16 : fs := [([L "w"], Dir); ([L "w"; L "docs"], Dir); ([L "w"; L "docs"; L "a.txt"], File (L "a")); ([L "w"; L ".env"], File (L "x")); ([L "w"; L "door"], File [])].
Lemma d16_runs : runs_in c9 d16 w0.
Proof. runs. Qed.
Lemma d16_no_links : no_links_in w0 d16.
Proof. apply no_links_list. reflexivity. Qed.
Lemma app_last_dot (x : str) : last (x ++ L "/.") "x"%char = "."%char.
Proof. change (x ++ L "/.") with (x ++ L "/" ++ L "."). rewrite app_assoc. apply last_last. Qed.
Lemma last_default (r : str) : forall x y, r <> [] -> last r x = last r y.
Proof. induction r as [|z r IH]; intros x y N; [congruence|]. destruct r; [reflexivity|]. apply (IH x y). discriminate. Qed.
Definition as_is (l : list str) : list str := l.
Example C75_case : built c9 w0 d14 st14 /\ (forall l, Permutation (as_is l) l) /\
  (exists fs, declares w0 d14 (L "person") (L "jane") fs /\ names_field fs (L "age")) /\
  reference_suggestions as_is (st_graph st14) (L "pe") = [L "person."] /\
  reference_suggestions as_is (st_graph st14) (L "person.") = [L "person.jane"; L "person.ann"] /\
  reference_suggestions as_is (st_graph st14) (L "person.ja") = [L "person.jane"] /\
  reference_suggestions as_is (st_graph st14) (L "person.jane.") = [L "person.jane.full_name"; L "person.jane.age"] /\
  runs_in c9 d16 w0 /\ no_links_in w0 d16 /\ tidy d16 /\ relative_input (L "do") /\ relative_input (L "docs/") /\
  typed_of [L "docs"] (L "a.txt") (L "docs/a") /\ shown [L "docs"] (L "a.txt") (File (L "a")) (L "docs/a.txt") /\
  path_suggestions c9 d16 (L "do") = [L "docs/"; L "door"] /\ path_suggestions c9 d16 (L "docs/a") = [L "docs/a.txt"].
Proof.
  split; [exact d14_built|]. split; [intros l; apply Permutation_refl|]. split.
  - destruct C73_case as (_ & _ & _ & _ & _ & _ & _ & _ & _ & (fs & D & _ & (raw & (l & r & -> & _) & _)) & _). eexists. split; [exact D|].
    exists (VNode (Some KNumber) raw []). apply in_or_app. right. now left.
  - do 4 (split; [vm_compute; reflexivity|]). split; [exact d16_runs|]. split; [exact d16_no_links|].
    split; [unfold tidy; cbn [map fst d16]; repeat (apply NoDup_cons; [cbn; intuition discriminate|]); apply NoDup_nil|].
    assert (RE : forall a r, a <> "/"%char -> last r a <> "."%char -> relative_input (a :: r)).
    { intros a r N NL. split; [intros (z & E); injection E as E _; congruence|]. split; [intros E; injection E as -> ->; apply NL; reflexivity|].
      intros x E. assert (X : last (a :: r) "x"%char = "."%char) by (rewrite E, app_last_dot; reflexivity). destruct r as [|b r]; [apply NL; exact X|]. apply NL. rewrite <- X. apply (last_default (b :: r)). discriminate. }
    split; [apply RE; [discriminate|cbv; discriminate]|]. split; [apply RE; [discriminate|cbv; discriminate]|].
    split; [exists (L "a"); split; [exists (L ".txt"); reflexivity|reflexivity]|]. split; [right; split; [discriminate|reflexivity]|]. split; vm_compute; reflexivity.
Qed.

(** ** What does not hold *)
(** A reference may be taken and yet not be offered: capitals in the type are
    ignored in the answer but not in the search for offers. *)
Theorem C75_capitals_refuted : exists c w d st ho s p r, built c w d st /\ (forall l, Permutation (ho l) l) /\
  names_known (st_graph st) s r /\ begins_with s p /\ dot_count p = dot_count s /\ reference_suggestions ho (st_graph st) p = [].
Proof.
  exists c9, w0, d14, st14, as_is, (L "Person.jane"), (L "Person.ja"), (REntity (L "person.jane")). split; [exact d14_built|]. split; [intros l; apply Permutation_refl|].
  split; [apply known_reference_spec; vm_compute; reflexivity|]. split; [exists (L "ne"); reflexivity|]. split; vm_compute; reflexivity.
Qed.
Print Assumptions C75_capitals_refuted.
(** What is offered after the dot need not begin with what was typed. *)
Theorem C75_offers_continue_what_was_typed_refuted : exists c w d st ho s p, built c w d st /\ (forall l, Permutation (ho l) l) /\
  In s (reference_suggestions ho (st_graph st) p) /\ ~ begins_with s p.
Proof.
  exists c9, w0, d14, st14, as_is, (L "person.jane"), (L "person.jan_"). split; [exact d14_built|]. split; [intros l; apply Permutation_refl|].
  split; [vm_compute; now left|]. intros (r & E). vm_compute in E. discriminate.
Qed.
Print Assumptions C75_offers_continue_what_was_typed_refuted.
(** A file whose name begins with a dot is not offered when the dot is typed. *)
Theorem C75_hidden_files_refuted : exists c d w name n s input, runs_in c d w /\ no_links_in w d /\ node_at d (w ++ [name]) = Some n /\
  shown [] name n s /\ typed_of [] name input /\ path_suggestions c d input = [].
Proof.
  exists c9, d16, w0, (L ".env"), (File (L "x")), (L ".env"), (L "."). split; [exact d16_runs|]. split; [exact d16_no_links|]. split; [reflexivity|].
  split; [right; split; [discriminate|reflexivity]|]. split; [exists (L "."); split; [exists (L "env"); reflexivity|reflexivity]|]. vm_compute. reflexivity.
Qed.
Print Assumptions C75_hidden_files_refuted.
