(** Adding an entity: C44, C55, and C37 where it touches adding. *)
From Coq Require Import Lia.
From Verif Require Import S_Graph L_Graph.
From Verif Require Import S_Add S_Schema L_Str L_Text L_Fs L_Server L_Load L_History L_Workspace L_Ids L_Add P_Graph P_Dsl P_Schema P_Workspace P_Server.
Close Scope Z_scope.

(** Example: a workspace of persons. *)
Definition decl (name t : str) (required : bool) : nblock :=
  {| nb_type := Some (L "field");
     nb_body := Some [field_node (L "name") (text_node name); field_node (L "type") (text_node t);
                      field_node (L "required") (VNode (Some KBoolean) (if required then L "true" else L "false") [])] |}.
Definition person_decl : snode :=
  {| sn_name := Some (L "person");
     sn_blocks := [decl (L "full_name") (L "string") true; decl (L "boss") (L "reference") false;
                   decl (L "tags") (L "list") false; decl (L "cv") (L "path") false] |}.
Definition jane : entity := {| e_id := L "person.jane"; e_type := L "person"; e_fields := [(L "full_name", VStr (L "Jane")); (L "cv", VPath (L "../docs/jane.md"))] |}.
Definition mixed : entity :=
  {| e_id := L "person.jim"; e_type := L "person";
     e_fields := [(L "full_name", VStr (L "Jim"));
                  (L "tags", VList [VRef (REntity (L "person.jane")); VRef (RField (L "person.jane") (L "cv"))])] |}.
Definition loner : entity := {| e_id := L "person.jim"; e_type := L "person"; e_fields := [(L "full_name", VStr (L "Jim")); (L "boss", VRef (REntity (L "jane")))] |}.
Definition twice : entity := {| e_id := L "person.jim"; e_type := L "person"; e_fields := [(L "full_name", VStr (L "Jim")); (L "full_name", VStr (L "James"))] |}.
(** The parser reads a text that was written for an entity as its syntax nodes. *)
Definition parse1 (s : str) : option parsed :=
  if str_eqb s (L "schemas") then Some {| ps_error := false; ps_schemas := [person_decl]; ps_entities := [] |}
  else match find (fun e => str_eqb s (generate_dsl env0 default_options [e])) [jane; mixed; loner; twice] with
       | Some e => Some {| ps_error := false; ps_schemas := []; ps_entities := [written_entity env0 default_options e] |}
       | None => None
       end.
Definition c1 : ctx :=
  {| c_ws := path_of (L "/w"); c_links := 40; c_parse := parse1; c_env := env0; c_fields := fid; c_schemas := sid; c_files := fun l => l |}.
Definition ae0 : add_env := {| rfc3339 := fun _ => None; decimal := fun _ => None |}.
Definition d2 : fs := [([L "w"], Dir); ([L "w"; L "s.firm"], File (L "schemas"))].
Definition st2 : state := match rebuild c1 d2 with Ok st => st | _ => none0 end.
Definition add_jane : add_params :=
  {| a_type := L "person"; a_id := L "Jane"; a_fields := [(L "Full Name", JStr (L "Jane")); (L "cv", JStr (L "docs/jane.md"))]; a_file := None; a_items := [] |}.

Lemma d2_runs : runs_in c1 d2 w0.
Proof. runs. Qed.
Lemma d2_ordinary : ordinary c1 w0 d2.
Proof.
  split; [exact d2_runs|]. split; [apply no_links_list; reflexivity|]. split.
  - unfold tidy. cbn [map fst d2]. repeat (apply NoDup_cons; [cbn; intuition discriminate|]). apply NoDup_nil.
  - intros p s _ E. destruct p as [|a p]; [discriminate|]. cbn [node_at d2 entry_at] in E.
    repeat (match type of E with context [place_eqb ?x ?y] => destruct (place_eqb x y) end; [injection E as <- || discriminate; reflexivity|]). discriminate.
Qed.

(** ** C44 *)
(** A value is taken over exactly if it means something for the field's type,
    and then it has that type. *)
Theorem C44_values_are_taken_for_what_they_mean : forall c ae target items name t j v,
  json_to_field c ae target items name t j = Some v <-> means_in c ae target items name t j v.
Proof. exact json_spec. Qed.
Print Assumptions C44_values_are_taken_for_what_they_mean.
Theorem C44_values_have_the_type : forall c ae target items name t j v,
  json_to_field c ae target items name t j = Some v -> has_type v t.
Proof. intros c ae target items name t j v H. apply json_spec in H. eapply means_in_type; eauto. Qed.
Print Assumptions C44_values_have_the_type.
Theorem C44_meaning_is_unique : forall c ae target items name t j v v',
  means_in c ae target items name t j v -> means_in c ae target items name t j v' -> v = v'.
Proof. intros c ae target items name t j v v' H H'. apply json_spec in H, H'. congruence. Qed.
Print Assumptions C44_meaning_is_unique.
Example C44_values_case :
  means_in c1 ae0 (path_of (L "/w/e.firm")) [(L "tags", L "Integer")] (L "tags") TList (JArr [JNum (JInt 1); JNum (JInt (-2))]) (VList [VInt 1; VInt (-2)]) /\
  json_to_field c1 ae0 (path_of (L "/w/e.firm")) [] (L "boss") TRef (JStr (L "person.jane.full name")) = Some (VRef (RField (L "person.jane") (L "full_name"))) /\
  json_to_field c1 ae0 [] [] (L "n") TInt (JNum (JInt (2 ^ 63))) = None /\
  json_to_field c1 ae0 [] [] (L "n") TInt (JNum (JInt (2 ^ 63 - 1))) = Some (VInt (2 ^ 63 - 1)) /\
  json_to_field c1 {| rfc3339 := fun _ => None; decimal := parse_dec |} [] [] (L "n") TCur (JStr (L " 1.50  EUR")) = Some (VCur {| d_mant := 150; d_scale := 2 |} (L "EUR")).
Proof. split; [apply json_spec; vm_compute; reflexivity|]. repeat split; vm_compute; reflexivity. Qed.

(** A refused request leaves no trace but for directories. *)
Theorem C44_refused_leaves_no_trace : forall c ae d w st a d' st', shuffles (c_fields c) -> runs_in c d w ->
  add_tool c ae d st a = (d', st', Refused) -> st' = st /\ only_dirs_added d d'.
Proof.
  intros c ae d w st a d' st' SH (SD & SW & _) H.
  destruct (add_effect c ae d st a d' st' Refused SH SD (target_slashless c a SW) H) as [(_ & A & B & _)|(e & _ & _ & [])]. auto.
Qed.
Print Assumptions C44_refused_leaves_no_trace.
(** What is not refused is the entity asked for, and its block is added on a
    line of its own at the end of the target; nothing else changes. *)
Theorem C44_block_is_appended : forall c ae d w st a d' st' x, shuffles (c_fields c) -> runs_in c d w ->
  add_tool c ae d st a = (d', st', x) -> x <> Refused ->
  exists e q old before, asked c ae st a e /\ resolve (c_links c) d' (target_of c a) = At q /\
    (node_at d q = Some (File old) \/ (node_at d q = None /\ old = [])) /\ on_new_line old before /\
    node_at d' q = Some (File (before ++ generate_dsl (c_env c) default_options [e])) /\ only_changed q d d' /\
    match x with
    | Accepted => rebuild c d' = Ok st'
    | Forced => st' = st /\ exists err, rebuild c d' = Err err
    | _ => st' = st /\ x = Crashed /\ rebuild c d' = Panic
    end.
Proof.
  intros c ae d w st a d' st' x SH (SD & SW & _) H NR. pose proof (target_slashless c a SW) as SL.
  destruct (add_effect c ae d st a d' st' x SH SD SL H) as [(-> & _)|(e & A & AB & B)]; [congruence|].
  destruct (appended_at c d _ _ d' SD SL AB) as (q & old & R & O & N & OC). exists e, q, old, (ended old).
  split; [exact A|]. split; [exact R|]. split; [exact O|]. split; [apply ended_spec|]. split; [exact N|]. split; [exact OC|].
  destruct x; auto; try contradiction. tauto.
Qed.
Print Assumptions C44_block_is_appended.
(** An id that is taken is refused, whatever the fields. *)
Theorem C44_taken_id_is_refused : forall c ae d st a e, get_entity (st_graph st) (compose_entity_id (a_type a) (new_id (a_id a))) = Some e ->
  add_tool c ae d st a = (d, st, Refused).
Proof.
  intros c ae d st a e G. unfold add_tool, entity_to_add. destruct (find _ _); [|reflexivity]. rewrite G. reflexivity.
Qed.
Print Assumptions C44_taken_id_is_refused.
(** Conversely what may be added is added, to a file of text that exists. *)
Theorem C44_what_may_be_added_is_added : forall c ae d0 d w st a e p n q old, shuffles (c_fields c) -> (forall l, Permutation (c_schemas c l) l) ->
  rebuild c d0 = Ok st -> runs_in c d w -> asked c ae st a e -> target_of c a = p ++ [n] -> stays n = false -> climbs n = false ->
  resolve (c_links c) d (p ++ [n]) = At q -> node_at d q = Some (File old) -> is_text old = true ->
  exists st' x before, on_new_line old before /\ x <> Refused /\
    add_tool c ae d st a = (set_node d q (File (before ++ generate_dsl (c_env c) default_options [e])), st', x).
Proof.
  intros c ae d0 d w st a e p n q old SH PS B RI A T S1 C1 R F X. destruct (served_schemas c d0 st SH PS B) as [ND WF].
  pose proof RI as (SD & SW & _). pose proof (target_slashless c a SW) as SL. rewrite T in SL.
  unfold add_tool. rewrite (asked_to_add c ae st a e SH ND WF A), T, (append_existing c d w p n q old _ RI SL S1 C1 R F X).
  clear B.   destruct (rebuild c _) as [st'|err|]; [exists st', Accepted|exists st, Forced|exists st, Crashed]; exists (ended old);
    (split; [apply ended_spec|]; split; [discriminate|reflexivity]).
Qed.
Print Assumptions C44_what_may_be_added_is_added.
(** Without a file the entity goes to one named after its type. *)
Theorem C44_default_file : forall c a, a_file a = None -> a_type a <> [] -> ~ In "/"%char (a_type a) -> ~ In "."%char (a_type a) ->
  target_of c a = c_ws c ++ [L "generated"; a_type a ++ L ".firm"] /\ adds_to_source c a.
Proof.
  intros c a F N1 N2 N3. assert (E : target_of c a = c_ws c ++ [L "generated"; a_type a ++ L ".firm"]).
  { unfold target_of. rewrite F. assert (P : path_of (a_type a) = [a_type a]) by (apply split_char_free; exact N2).
    assert (W : with_firm [L "generated"; a_type a] = [L "generated"; a_type a ++ L ".firm"]).
    { unfold with_firm. cbn [rev app drop_stays].
      assert (S1 : stays (a_type a) = false /\ climbs (a_type a) = false).
      { unfold stays, climbs. rewrite Bool.orb_false_iff, !str_eqb_neq. repeat split; auto; intros E; rewrite E in N3; apply N3; left; reflexivity. }
      destruct S1 as [S1 S2]. rewrite S1, S2. destruct (split_once "." (rev (a_type a))) as [[u v]|] eqn:SO; [|reflexivity].
      apply split_once_spec in SO as [SO _]. exfalso. apply N3. apply in_rev. rewrite SO. apply in_or_app. right. left. reflexivity. }
    destruct (a_type a) as [|ch t]; [congruence|]. destruct (Ascii.ascii_dec ch "/") as [->|Nc]; [destruct N2; left; reflexivity|].
    rewrite P, W. destruct ch as [[] [] [] [] [] [] [] []]; try reflexivity. congruence. }
  split; [exact E|]. exists [L "generated"], (a_type a ++ L ".firm"). split; [exact E|]. split; [repeat constructor|]. exists (a_type a). auto.
Qed.
Print Assumptions C44_default_file.
(** An accepted entity is served, as reading its written block yields it. *)
Theorem C44_accepted_entity_is_served : forall c ae d w st a d' st', shuffles (c_fields c) -> (forall l, Permutation (c_files c l) l) ->
  runs_in c d w -> no_links_in w d -> tidy d -> adds_to_source c a -> add_tool c ae d st a = (d', st', Accepted) ->
  exists e r text ps, asked c ae st a e /\ source_of w d' r text /\ c_parse c text = Some ps /\
    (In (written_entity (c_env c) default_options e) (ps_entities ps) ->
     exists e', to_entity (c_env c) (path_text r) (written_entity (c_env c) default_options e) = Ok e' /\ get_entity (st_graph st') (e_id e') = Some e').
Proof.
  intros c ae d w st a d' st' SH PC RI NL TD (rp & n & T & F & FN) H. pose proof RI as (SD & SW & _). pose proof (target_slashless c a SW) as SL.
  destruct (add_effect c ae d st a d' st' Accepted SH SD SL H) as [(? & _)|(e & A & AB & B)]; [discriminate|].
  destruct (added_is_source c d w _ rp n _ d' RI NL SL T F FN AB) as (r & old & _ & SO & _).
  destruct (append_served c d w _ _ d' RI SL AB) as (RI' & NL' & TD'). destruct (rebuild_files c d' st' B) as (fs & LD & Ef & G).
  destruct (load_directory_spec c d' w fs RI' (NL' NL) (TD' TD) LD) as (_ & I & Rd). destruct (Rd r _ SO) as [_ PP].
  destruct (c_parse c _) as [ps|] eqn:P in PP; [|congruence]. exists e, r. eexists. exists ps. split; [exact A|]. split; [exact SO|]. split; [exact P|].
  intros W. apply (C48_every_declared_entity_is_served _ _ _ _ _ _ SH G). rewrite Ef. unfold entity_blocks. apply in_flat_map.
  exists (loaded c r ps). split; [apply (Permutation_in _ (Permutation_sym (PC fs))); apply I; eauto 6|]. cbn. apply in_map. exact W.
Qed.
Print Assumptions C44_accepted_entity_is_served.
(** If what it holds survives being written, it is served as it was asked for. *)
Theorem C44_accepted_entity_is_served_as_asked : forall c ae d w st a d' st' t i, shuffles (c_fields c) -> (forall l, Permutation (c_files c l) l) ->
  runs_in c d w -> no_links_in w d -> tidy d -> adds_to_source c a -> add_tool c ae d st a = (d', st', Accepted) ->
  a_type a = t -> new_id t = t -> ~ In "."%char t -> new_id (a_id a) = i ->
  exists e r text ps, asked c ae st a e /\ e_id e = t ++ L "." ++ i /\ source_of w d' r text /\ c_parse c text = Some ps /\
    (In (written_entity (c_env c) default_options e) (ps_entities ps) ->
     Forall (fun fv => survives (c_env c) default_options (path_text r) (snd fv)) (e_fields e) -> get_entity (st_graph st') (e_id e) = Some e).
Proof.
  intros c ae d w st a d' st' t i SH PC RI NL TD AS H Et Nt Dt Ei.
  destruct (C44_accepted_entity_is_served c ae d w st a d' st' SH PC RI NL TD AS H) as (e & r & text & ps & A & SO & P & G).
  pose proof A as (s & _ & _ & Ie & Te & _). assert (Ni : new_id i = i) by (rewrite <- Ei; apply to_snake_idem).
  assert (Id : e_id e = t ++ L "." ++ i) by (rewrite Ie, Et, Ei; apply compose_fixpoint; auto). rewrite Et, Nt in Te.
  exists e, r, text, ps. split; [exact A|]. split; [exact Id|]. split; [exact SO|]. split; [exact P|]. intros W F. destruct (G W) as (e' & R & S').
  pose proof (C47_normal_entities_survive (c_env c) default_options (path_text r) t i (e_fields e) Nt Ni Dt F) as X. cbn zeta in X.
  assert (Ee : {| e_id := t ++ L "." ++ i; e_type := t; e_fields := e_fields e |} = e) by (rewrite <- Id, <- Te; destruct e; reflexivity).
  rewrite Ee in X. rewrite X in R. injection R as <-. exact S'.
Qed.
Print Assumptions C44_accepted_entity_is_served_as_asked.
Example C44_case : rebuild c1 d2 = Ok st2 /\ adds_to_source c1 add_jane /\
  (exists d' st', add_tool c1 ae0 d2 st2 add_jane = (d', st', Accepted) /\
     option_map e_fields (get_entity (st_graph st') (L "person.jane")) = Some [(L "full_name", VStr (L "Jane")); (L "cv", VPath (L "./docs/jane.md"))]) /\
  (forall v, add_tool c1 ae0 d2 st2 {| a_type := L "person"; a_id := L "jane"; a_fields := [(L "cv", JStr v)]; a_file := None; a_items := [] |} = (d2, st2, Refused)).
Proof.
  split; [vm_compute; reflexivity|]. split; [apply C44_default_file; [reflexivity|discriminate| |]; cbn; intuition discriminate|].
  split; [eexists; eexists; split; vm_compute; reflexivity|intros v; vm_compute; reflexivity].
Qed.

(** Two spellings of one field are both taken, so the entity has it twice. *)
Theorem C44_field_twice_refuted : exists c ae d w st a d' st' e f v v', ordinary c w d /\ rebuild c d = Ok st /\ NoDup (map fst (a_fields a)) /\
  add_tool c ae d st a = (d', st', Accepted) /\ get_entity (st_graph st') (e_id e) = Some e /\ e_fields e = [(f, v); (f, v')] /\ v <> v'.
Proof.
  exists c1, ae0, d2, w0, st2,
    {| a_type := L "person"; a_id := L "jim"; a_fields := [(L "full_name", JStr (L "Jim")); (L "Full Name", JStr (L "James"))]; a_file := None; a_items := [] |}.
  do 2 eexists. exists twice, (L "full_name"), (VStr (L "Jim")), (VStr (L "James")). split; [exact d2_ordinary|]. split; [vm_compute; reflexivity|].
  split; [repeat constructor; cbn; intuition discriminate|]. split; [vm_compute; reflexivity|]. split; [vm_compute; reflexivity|]. split; [reflexivity|discriminate].
Qed.
Print Assumptions C44_field_twice_refuted.
(** Success is reported for a file that is never loaded. *)
Theorem C44_other_extension_refuted : exists c ae d w st a e d' st', ordinary c w d /\ rebuild c d = Ok st /\ asked c ae st a e /\
  add_tool c ae d st a = (d', st', Accepted) /\ get_entity (st_graph st') (e_id e) = None.
Proof.
  pose (a := {| a_type := L "person"; a_id := L "Jane"; a_fields := [(L "full_name", JStr (L "Jane")); (L "cv", JStr (L "../docs/jane.md"))]; a_file := Some (L "people.txt"); a_items := [] |}).
  exists c1, ae0, d2, w0, st2, a, jane. do 2 eexists. split; [exact d2_ordinary|]. split; [vm_compute; reflexivity|].
  split; [apply to_add_asked; [exact fid_ok|vm_compute; reflexivity]|]. split; vm_compute; reflexivity.
Qed.
Print Assumptions C44_other_extension_refuted.
(** A list of references to entities and fields is accepted as valid; then the
    workspace does not build, and the block stays. *)
Theorem C44_mixed_list_refuted : exists c ae d w st a d', ordinary c w d /\ rebuild c d = Ok st /\
  add_tool c ae d st a = (d', st, Forced) /\ exists err, rebuild c d' = Err err.
Proof.
  exists c1, ae0, d2, w0, st2,
    {| a_type := L "person"; a_id := L "jim"; a_fields := [(L "full_name", JStr (L "Jim")); (L "tags", JArr [JStr (L "person.jane"); JStr (L "person.jane.cv")])];
       a_file := None; a_items := [(L "tags", L "reference")] |}.
  eexists. split; [exact d2_ordinary|]. split; [vm_compute; reflexivity|]. split; [vm_compute; reflexivity|]. eexists. vm_compute. reflexivity.
Qed.
Print Assumptions C44_mixed_list_refuted.
(** So does a reference without a dot. *)
Theorem C44_reference_without_dot_refuted : exists c ae d w st a d', ordinary c w d /\ rebuild c d = Ok st /\
  add_tool c ae d st a = (d', st, Forced) /\ exists err, rebuild c d' = Err err.
Proof.
  exists c1, ae0, d2, w0, st2,
    {| a_type := L "person"; a_id := L "jim"; a_fields := [(L "full_name", JStr (L "Jim")); (L "boss", JStr (L "jane"))]; a_file := None; a_items := [] |}.
  eexists. split; [exact d2_ordinary|]. split; [vm_compute; reflexivity|]. split; [vm_compute; reflexivity|]. eexists. vm_compute. reflexivity.
Qed.
Print Assumptions C44_reference_without_dot_refuted.
(** A reference names the entity that its type and id name, if the type is
    written in lower case. *)
Theorem C44_reference_names_the_entity : forall t i f, dotless t -> dotless i -> dotless f ->
  (lower t = t -> reference_field (t ++ L "." ++ i) = REntity (compose_entity_id t i)) /\
  reference_field (t ++ L "." ++ i ++ L "." ++ f) = RField (compose_entity_id t i) (new_id f).
Proof.
  intros t i f T I F. unfold reference_field. split.
  - intros Lt. change (t ++ L "." ++ i) with (t ++ "."%char :: i). rewrite split_char_app, split_char_free by assumption. unfold compose_entity_id. rewrite Lt. reflexivity.
  - change (t ++ L "." ++ i ++ L "." ++ f) with (t ++ "."%char :: i ++ "."%char :: f). rewrite !split_char_app, split_char_free by assumption. reflexivity.
Qed.
Print Assumptions C44_reference_names_the_entity.
(** Otherwise the reference to the entity and that to its field differ. *)
Theorem C44_capital_reference_refuted : exists t i f e e' x, dotless t /\ dotless i /\ dotless f /\
  reference_field (t ++ L "." ++ i) = REntity e /\ reference_field (t ++ L "." ++ i ++ L "." ++ f) = RField e' x /\ e <> e' /\ e <> compose_entity_id t i.
Proof.
  exists (L "WorkItem"), (L "x"), (L "f"). do 3 eexists. do 3 (split; [unfold dotless; cbn; intuition discriminate|]). split; [vm_compute; reflexivity|]. split; [vm_compute; reflexivity|].
  split; vm_compute; discriminate.
Qed.
Print Assumptions C44_capital_reference_refuted.

(** ** C37 *)
(** Adding to a file by a plain path changes nothing outside the workspace. *)
Theorem C37_plain_add_confined : forall c ae d w st a d' st' x, shuffles (c_fields c) -> runs_in c d w -> no_links_in w d ->
  (exists rp, target_of c a = c_ws c ++ rp /\ Forall (fun y => climbs y = false) rp) ->
  add_tool c ae d st a = (d', st', x) -> confined w d d'.
Proof.
  intros c ae d w st a d' st' x SH RI NL (rp & T & F) H. pose proof RI as (SD & SW & _). pose proof (target_slashless c a SW) as SL. unfold add_tool in H.
  destruct (entity_to_add c ae st a) as [e|]; [|injection H as <- _ _; apply confined_refl].
  destruct (append_block c d (target_of c a) _) as [d1 ok] eqn:A. pose proof (append_confined c d w _ rp _ d1 ok RI NL SL F T A) as X.
  destruct ok; [|injection H as <- _ _; exact X]. destruct (rebuild c d1); injection H as <- _ _; exact X.
Qed.
Print Assumptions C37_plain_add_confined.
Theorem C37_plain_file_is_confined : forall c a rel, a_file a = Some rel -> plain rel ->
  exists rp, target_of c a = c_ws c ++ rp /\ Forall (fun y => climbs y = false) rp.
Proof.
  intros c a rel F [P1 P2]. exists (path_of rel). split; [|apply no_climb; exact P2]. unfold target_of. rewrite F. exact (named_relative c rel P1).
Qed.
Print Assumptions C37_plain_file_is_confined.
(** Any other path is followed: the entity is written outside and reported as added. *)
Theorem C37_add_refuted : exists c ae d w st rel a d' st' q s, ordinary c w d /\ rebuild c d = Ok st /\ starts_with rel (L "/") = false /\ a_file a = Some rel /\
  add_tool c ae d st a = (d', st', Accepted) /\ ~ inside w q /\ node_at d q = None /\ node_at d' q = Some (File s).
Proof.
  exists c1, ae0, d2, w0, st2, (L "../etc/x.firm"),
    {| a_type := L "person"; a_id := L "jim"; a_fields := [(L "full_name", JStr (L "Jim"))]; a_file := Some (L "../etc/x.firm"); a_items := [] |}.
  do 2 eexists. exists [L "etc"; L "x.firm"]. eexists. split; [exact d2_ordinary|]. split; [vm_compute; reflexivity|]. split; [reflexivity|]. split; [reflexivity|].
  split; [vm_compute; reflexivity|]. split; [intros (r & E); discriminate|]. split; vm_compute; reflexivity.
Qed.
Print Assumptions C37_add_refuted.

(** ** C55 *)
(** A path given for a field counts from the workspace root, whatever file of
    the workspace the entity is written to. *)
Theorem C55_path_counts_from_the_root : forall c o ds name s r, Forall plain_component ds -> plain_component name ->
  is_absolute s = false -> path_argument s -> S_Dsl.walk false (0, []) (split_char "/" s) r ->
  read_back (c_env c) o (file_path ds name) (VPath (path_field c (c_ws c ++ ds ++ [name]) s)) = Ok (VPath (place_text false r)).
Proof. exact path_field_read. Qed.
Print Assumptions C55_path_counts_from_the_root.
(** An absolute path into the workspace is the same as the relative one. *)
Theorem C55_absolute_path_into_the_workspace : forall c target s rel, is_absolute s = true -> is_absolute rel = false ->
  filter (fun x => negb (stays x)) (path_of s) = filter (fun x => negb (stays x)) (c_ws c ++ path_of rel) -> parent target <> None ->
  (forall dir, parent target = Some dir -> Forall (fun x => climbs x = false) dir) ->
  path_field c target s = path_field c target rel.
Proof.
  intros c target s rel A R E P F. destruct (parent target) as [dir|] eqn:PT; [|congruence]. unfold path_field. rewrite PT.
  assert (J1 : join_path (c_ws c) s = path_of s).
  { unfold is_absolute in A. destruct s as [|h s]; [discriminate|]. cbn [L list_ascii_of_string starts_with] in A.
    destruct (Ascii.eqb_spec "/" h) as [<-|]; [reflexivity|discriminate]. }
  assert (J2 : join_path (c_ws c) rel = c_ws c ++ path_of rel) by (apply (named_relative c rel); exact R).
  assert (Fd : Forall (fun x => climbs x = false) (parts dir)) by (apply Forall_forall; intros x I; apply filter_In in I as [I _]; specialize (F dir eq_refl); rewrite Forall_forall in F; auto).
  rewrite J1, J2. unfold parts in *. rewrite E. destruct (diff_split (filter (fun c0 : str => negb (stays c0)) (c_ws c ++ path_of rel)) _ Fd) as (p & x & y & _ & _ & D). rewrite D. reflexivity.
Qed.
Print Assumptions C55_absolute_path_into_the_workspace.
Example C55_case : Forall plain_component [L "generated"] /\ plain_component (L "person.firm") /\ path_argument (L "docs/./jane.md") /\
  S_Dsl.walk false (0, []) (split_char "/" (L "docs/./jane.md")) (0, [L "docs"; L "jane.md"]) /\
  path_field c1 (path_of (L "/w/generated/person.firm")) (L "docs/./jane.md") = L "../docs/jane.md" /\
  path_field c1 (path_of (L "/w/generated/person.firm")) (L "/w/docs/jane.md") = L "../docs/jane.md" /\
  path_field c1 (path_of (L "/w/docs/person.firm")) (L "docs/jane.md") = L "jane.md".
Proof.
  split; [repeat constructor; cbn; intuition discriminate|]. split; [repeat split; cbn; intuition discriminate|]. split.
  { split; [cbn; intuition discriminate|]. intros x r I E. cbn in I. destruct I as [<-|[<-|[<-|[]]]]; apply (f_equal (@rev ascii)) in E; rewrite rev_app_distr in E; discriminate. }
  split; [|vm_compute; auto]. apply S_Dsl.walk_down; [repeat split; cbn; intuition discriminate|]. apply S_Dsl.walk_here; [right; reflexivity|].
  apply S_Dsl.walk_down; [repeat split; cbn; intuition discriminate|]. apply S_Dsl.walk_end.
Qed.
