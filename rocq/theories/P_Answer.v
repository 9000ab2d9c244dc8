(** C86: what the tool server says it did is what it did. *)
From Coq Require Import Lia Permutation.
From Verif Require Import S_Graph S_Query L_Graph.
From Verif Require Import S_Schema S_Life S_Undo S_Answer L_Str L_Text L_Ids L_Fs L_Load L_Server L_History L_Broken L_Life L_Workspace L_Undo L_Add L_Replace L_Answer.
From Verif Require L_Agree P_Agree.
From Verif Require Import P_Schema P_Dsl P_Workspace P_Server P_Tools P_Add.
From Verif Require Import M_Fs M_Dsl S_Undo S_Answer.
Close Scope Z_scope.

(** ** Changing *)
(** An answer marked as an error: nothing was changed. *)
Theorem C86_error_changes_nothing : forall se c w d st r d' st' s, ordinary c w d -> plain_request r ->
  tell se c d st r = (d', st', Some s) -> is_error s = true -> st' = st /\ only_dirs_added d d'.
Proof.
  intros se c w d st r d' st' s O R H E. pose proof O as (RI & NL & _ & TX). destruct (tell_same se c d st r d' st' _ H) as (a & Hd & K).
  assert (B : a = Refused \/ exists ok, a = Invalid ok).
  { destruct a; [destruct K as (_ & t & [= ->] & _); discriminate|destruct K as (e & h & _ & _ & [= ->]); discriminate|auto|eauto|discriminate]. }
  destruct r as [rel content force|rel old new all force|rel force|]; cbn [handle plain_request] in *.
  - destruct (C35_rejected_write_leaves_no_trace c d w st rel content force d' st' a RI (or_intror (conj NL (proj1 R)))) as (X & Y & _); auto.
    intros q x Rq I F. exact (TX q x I F).
  - destruct (C35_rejected_replace_leaves_no_trace c d w st rel old new all force d' st' a RI Hd B) as (X & -> & _). auto using dirs_refl.
  - destruct (C35_rejected_delete_leaves_no_trace c d w st rel force d' st' a RI Hd B) as (X & Y & _). split; [exact X|]. intros p. left. apply Y.
  - unfold build_tool in Hd. destruct (rebuild c d); injection Hd as <- <- <-; auto using dirs_refl; destruct B as [B|[? B]]; discriminate.
Qed.
Print Assumptions C86_error_changes_nothing.
(** An answer not marked so: what was asked for was done. *)
Theorem C86_success_is_done : forall se c w d st r d' st' s, ordinary c w d -> plain_request r -> of_source r ->
  tell se c d st r = (d', st', Some s) -> is_error s = false -> done c d d' r.
Proof.
  intros se c w d st r d' st' s O R SO H E. destruct (tell_same se c d st r d' st' _ H) as (a & Hd & K). apply (handled_done c w d st r d' st' a O R SO Hd).
  unfold succeeded. destruct a; [auto|auto|destruct K as (t & [= ->]); discriminate|destruct K as (t & [= ->]); discriminate|discriminate].
Qed.
Print Assumptions C86_success_is_done.
(** The answer says whether the workspace is valid: that of an edit that is
    done ends in "Workspace is valid." exactly if the files now build, and then they
    are served; else it warns, with the reason, and the former workspace is served. *)
Theorem C86_valid_is_said : forall se c w d st r d' st' s, ordinary c w d -> plain_request r -> r <> Build ->
  tell se c d st r = (d', st', Some s) -> is_error s = false -> exists t, contents s = [t] /\
  (ends_in t (L "Workspace is valid.") <-> exists st1, rebuild c d' = Ok st1) /\ (ends_in t (L "Workspace is valid.") -> rebuild c d' = Ok st') /\
  (~ ends_in t (L "Workspace is valid.") -> st' = st /\ exists h e, rebuild c d' = Err e /\
     t = h ++ L "Warning: workspace has validation errors: " ++ se_load se e ++ L ". Use 'build' to check status after making more changes.").
Proof.
  intros se c w d st r d' st' s O R NB H E. pose proof O as (RI & _). destruct (tell_same se c d st r d' st' _ H) as (a & Hd & K).
  destruct a; [|destruct K as (e & h & RB & HS & [= ->])|destruct K as (t & [= ->]); discriminate|destruct K as (t & [= ->]); discriminate|discriminate].
  - destruct K as (RB & t & [= ->] & [[-> _]|(h & HS & ->)]); [congruence|]. exists (h ++ valid_text). split; [reflexivity|].
    assert (EI : ends_in (h ++ valid_text) (L "Workspace is valid.")) by (exists h; reflexivity). split; [split; [eauto|auto]|]. split; [auto|]. intros N. destruct (N EI).
  - exists (h ++ warning_text (se_load se e)). split; [reflexivity|]. pose proof (warned_not_valid h (se_load se e)) as NE. split; [split; [intros X; destruct (NE X)|intros (st1 & X); congruence]|].
    split; [intros X; destruct (NE X)|]. intros _. split; [|exists h, e; auto]. destruct r as [rel content force|rel old new all force|rel force|]; cbn [handle] in Hd.
    + apply (proj1 (C36_forced_write c d w st rel content force d' st' RI Hd)).
    + destruct (replace_effect c d w st rel old new all force d' st' Forced RI Hd) as [(_ & X & _)|(q & text & content & n & _ & _ & _ & _ & _ & _ & _ & X & _)]; exact X.
    + unfold delete_source in Hd. destruct (delete_file c d rel) as [[d1 text]|]; [|discriminate]. destruct (rebuild c d1); [discriminate| |discriminate]. destruct force; [injection Hd as <- <-; reflexivity|]. destruct (rollback_delete _ _ _ _). discriminate.
    + congruence.
Qed.
Print Assumptions C86_valid_is_said.
(** A write says whether the file was there, which file, and how many bytes. *)
Theorem C86_write_says : forall se c w d st rel content force d' st' s, ordinary c w d -> plain rel -> is_text content = true ->
  tell se c d st (Write rel content force) = (d', st', Some s) -> is_error s = false ->
  exists t n rest, contents s = [t] /\ number_said n (length content) /\
    t = (if path_exists (c_links c) d (named c rel) then L "Updated " else L "Created ") ++ rel ++ L " (" ++ n ++ L " bytes). " ++ rest.
Proof.
  intros se c w d st rel content force d' st' s O P T H E. destruct (tell_same se c d st _ d' st' _ H) as (a & Hd & K). cbn [handle] in Hd.
  assert (W : forall h, head_said c d (Write rel content force) h -> succeeded a -> forall tail, exists n rest, number_said n (length content) /\
    h ++ tail = (if path_exists (c_links c) d (named c rel) then L "Updated " else L "Created ") ++ rel ++ L " (" ++ n ++ L " bytes). " ++ rest).
  { intros h HS A tail. cbn [head_said] in HS. subst h. exists (show_nat (length content)), tail. split; [apply show_nat_said|].
    unfold say_written. rewrite (existed_there c w d st rel content force d' st' a O P Hd A). destruct (path_exists _ _ _); rewrite <- !app_assoc; reflexivity. }
  destruct a; [|destruct K as (e & h & RB & HS & [= ->])|destruct K as (t & [= ->]); discriminate|destruct K as (t & [= ->]); discriminate|discriminate].
  - destruct K as (RB & t & [= ->] & [[X _]|(h & HS & ->)]); [discriminate|]. destruct (W h HS (or_introl eq_refl) valid_text) as (n & rest & N & X). exists (h ++ valid_text). rewrite X. exists n, rest. auto.
  - destruct (W h HS (or_intror eq_refl) (warning_text (se_load se e))) as (n & rest & N & X). exists (h ++ warning_text (se_load se e)). rewrite X. exists n, rest. auto.
Qed.
Print Assumptions C86_write_says.
(** A replacement says how many occurrences it replaced. *)
Theorem C86_replace_says : forall se c w d st rel old new all force d' st' s, ordinary c w d ->
  tell se c d st (Replace rel old new all force) = (d', st', Some s) -> is_error s = false ->
  exists t k n text ps rest, contents s = [t] /\ number_said k n /\ read_source_file c d rel = Ok text /\ pieces old text ps /\ length ps = S n /\
    t = L "Replaced " ++ k ++ (if n =? 1 then L " occurrence in '" else L " occurrences in '") ++ rel ++ L "'. " ++ rest.
Proof.
  intros se c w d st rel old new all force d' st' s O H E. destruct (tell_same se c d st _ d' st' _ H) as (a & Hd & K).
  assert (W : forall h, head_said c d (Replace rel old new all force) h -> forall tail, exists k n text ps rest, number_said k n /\ read_source_file c d rel = Ok text /\ pieces old text ps /\ length ps = S n /\
    h ++ tail = L "Replaced " ++ k ++ (if n =? 1 then L " occurrence in '" else L " occurrences in '") ++ rel ++ L "'. " ++ rest).
  { intros h (content & n & RF & ->) tail. apply C38_replaces_the_occurrences in RF as (_ & text & ps & RD & PS & LN & _). exists (show_nat n), n, text, ps, tail.
    split; [apply show_nat_said|]. split; [exact RD|]. split; [exact PS|]. split; [exact LN|]. unfold say_replaced. destruct (n =? 1) eqn:B; [apply Nat.eqb_eq in B; subst n|]; rewrite <- !app_assoc; reflexivity. }
  destruct a; [|destruct K as (e & h & RB & HS & [= ->])|destruct K as (t & [= ->]); discriminate|destruct K as (t & [= ->]); discriminate|discriminate].
  - destruct K as (RB & t & [= ->] & [[X _]|(h & HS & ->)]); [discriminate|]. destruct (W h HS valid_text) as (k & n & text & ps & rest & A & B & C & D & X). exists (h ++ valid_text). rewrite X. exists k, n, text, ps, rest. auto 9.
  - destruct (W h HS (warning_text (se_load se e))) as (k & n & text & ps & rest & A & B & C & D & X). exists (h ++ warning_text (se_load se e)). rewrite X. exists k, n, text, ps, rest. auto 9.
Qed.
Print Assumptions C86_replace_says.
(** A deletion names what it deleted. *)
Theorem C86_delete_says : forall se c d st rel force d' st' s,
  tell se c d st (Delete rel force) = (d', st', Some s) -> is_error s = false -> exists rest, contents s = [L "Deleted '" ++ rel ++ L "'. " ++ rest].
Proof.
  intros se c d st rel force d' st' s H E. destruct (tell_same se c d st _ d' st' _ H) as (a & Hd & K).
  destruct a; [|destruct K as (e & h & RB & -> & [= ->])|destruct K as (t & [= ->]); discriminate|destruct K as (t & [= ->]); discriminate|discriminate].
  - destruct K as (RB & t & [= ->] & [[X _]|(h & -> & ->)]); [discriminate|]. exists valid_text. unfold say_deleted. cbn [contents says]. rewrite <- !app_assoc. reflexivity.
  - exists (warning_text (se_load se e)). unfold say_deleted. cbn [contents says]. rewrite <- !app_assoc. reflexivity.
Qed.
Print Assumptions C86_delete_says.
(** A replacement that is refused because of the number of occurrences says that
    there are none, or how many there are. *)
Theorem C86_refused_replacement_says : forall se c d st rel old new all force text ps, old <> [] -> length old <= 100 ->
  read_source_file c d rel = Ok text -> pieces old text ps -> length ps <> 2 -> (length ps = 1 \/ all = false) ->
  exists t, tell se c d st (Replace rel old new all force) = (d, st, Some {| is_error := true; contents := [t] |}) /\
    (length ps = 1 -> t = L "old_string not found in '" ++ rel ++ L "': """ ++ old ++ L """") /\
    (2 < length ps -> exists k n rest, number_said k n /\ length ps = S n /\ t = L "old_string found " ++ k ++ L " times: """ ++ old ++ L """. " ++ rest).
Proof.
  intros se c d st rel old new all force text ps N SH RD P N2 A. cbn [tell]. unfold replace_said, read_said. rewrite RD. cbv zeta.
  assert (CM : count_matches old text = length ps - 1) by (unfold count_matches; apply (pieces_spec old text ps N) in P; rewrite <- P; reflexivity).
  assert (NZ : length ps <> 0) by (inversion P; discriminate).
  assert (FD : for_display old = old) by (unfold for_display; destruct (Nat.ltb_spec 100 (length old)); [lia|reflexivity]).
  destruct old as [|y old]; [congruence|]. rewrite CM, (cut_short _ SH), FD. destruct (Nat.eqb_spec (length ps - 1) 0) as [Z0|Z0].
  - eexists. split; [reflexivity|]. split; [reflexivity|]. lia.
  - assert (all = false) as -> by (destruct A; [lia|assumption]). destruct (Nat.ltb_spec 1 (length ps - 1)); [|lia]. cbn [andb negb]. eexists. split; [reflexivity|]. split; [lia|].
    intros _. exists (show_nat (length ps - 1)), (length ps - 1), (L "Set 'replace_all: true' to replace all occurrences, or provide more surrounding context to make the match unique."). split; [apply show_nat_said|]. split; [lia|]. reflexivity.
Qed.
Print Assumptions C86_refused_replacement_says.
(** It is never said that taking a change back failed. *)
Theorem C86_taken_back_is_said : forall se c w d st r d' st' s, ordinary c w d -> plain_request r ->
  tell se c d st r = (d', st', Some s) -> is_error s = true -> exists t, contents s = [t] /\
  (begins_with t (L "Validation failed: ") -> ends_in t (L ". Changes have been rolled back. Use 'force: true' to write anyway.")) /\
  (begins_with t (L "Deletion would break the workspace: ") -> ends_in t (L ". File has been restored. Use 'force: true' to delete anyway.")).
Proof.
  intros se c w d st r d' st' s O R H E. pose proof O as (RI & NL & _ & TX). destruct (tell_errors se c d st r d' st' s H E) as (t & C & K). exists t. split; [exact C|].
  destruct K as [[A B]|(ok & x & Hd & ->)]; [split; intros X; contradiction|].
  assert (ok = true) as ->.
  { destruct r as [rel content force|rel old new all force|rel force|]; cbn [handle plain_request] in *.
    - destruct (C35_rejected_write_leaves_no_trace c d w st rel content force d' st' _ RI (or_intror (conj NL (proj1 R))) (fun q x Rq I F => TX q x I F) Hd) as (_ & _ & Y); eauto.
    - destruct (C35_rejected_replace_leaves_no_trace c d w st rel old new all force d' st' _ RI Hd) as (_ & _ & Y); eauto.
    - destruct (C35_rejected_delete_leaves_no_trace c d w st rel force d' st' _ RI Hd) as (_ & _ & Y); eauto.
    - unfold build_tool in Hd. destruct (rebuild c d); discriminate. }
  destruct r; (split; [intros (y & Y)|intros (y & Y)]); try discriminate Y.
  - exists (L "Validation failed: " ++ x). unfold invalid_text. rewrite <- !app_assoc. reflexivity.
  - exists (L "Validation failed: " ++ x). unfold invalid_text. rewrite <- !app_assoc. reflexivity.
  - exists (L "Deletion would break the workspace: " ++ x). unfold say_undeleted. rewrite <- !app_assoc. reflexivity.
  - exists (L "Validation failed: " ++ x). unfold invalid_text. rewrite <- !app_assoc. reflexivity.
Qed.
Print Assumptions C86_taken_back_is_said.
(** A build says whether the workspace builds, and how many entity and schema
    blocks its sources have. *)
Theorem C86_build_says : forall se c d st d' st' s, shuffles (c_fields c) -> (forall l, Permutation (c_schemas c l) l) ->
  tell se c d st Build = (d', st', Some s) ->
  (is_error s = false <-> exists st1, rebuild c d = Ok st1) /\
  (is_error s = false -> rebuild c d = Ok st' /\ exists e k, number_said e (length (entity_blocks (st_files st'))) /\ number_said k (length (schema_blocks (st_files st'))) /\
     contents s = [L "Workspace is valid. " ++ e ++ L " entities, " ++ k ++ L " schemas."]).
Proof.
  intros se c d st d' st' s SH PS H. cbn [tell] in H. unfold tell_build in H. destruct (rebuild c d) as [st1|e|] eqn:RB; [| |discriminate]; injection H as <- <- <-.
  - split; [split; [eauto|reflexivity]|]. intros _. split; [reflexivity|]. exists (show_nat (length (b_entities (st_build st1)))), (show_nat (length (b_schemas (st_build st1)))).
    destruct (rebuild_files c d st1 RB) as (fs & _ & -> & G). apply load_ok in G as (BW & _ & _). apply (build_ok _ _ _ _ _ SH) in BW as (ss & (RS & RE & _) & E2).
    pose proof (pairs_length _ _ _ RE) as L1. pose proof (pairs_length _ _ _ RS) as L2. pose proof (Permutation_length (PS ss)) as L3. rewrite <- E2 in L3.
    rewrite L1, L2, <- L3. split; [apply show_nat_said|]. split; [apply show_nat_said|]. reflexivity.
  - split; [split; [discriminate|intros (st1 & X); discriminate]|discriminate].
Qed.
Print Assumptions C86_build_says.
(** An addition: an error changes nothing; else the second text is the block
    that is now at the end of the file, the first says whether the file is new,
    and there is a third exactly if the files do not build. *)
Theorem C86_add_says : forall se c ae w d st a d' st' s, shuffles (c_fields c) -> runs_in c d w -> tell_add se c ae d st a = (d', st', Some s) ->
  (is_error s = true -> st' = st /\ only_dirs_added d d') /\
  (is_error s = false -> exists t dsl more q before, contents s = t :: dsl :: more /\ resolve (c_links c) d' (target_of c a) = At q /\ node_at d' q = Some (File (before ++ dsl)) /\
     (begins_with t (L "Created new file '") <-> node_at d q = None) /\
     (more = [] -> rebuild c d' = Ok st') /\ (more <> [] -> st' = st /\ exists e, rebuild c d' = Err e /\ more = [L "Warning: workspace rebuild failed after adding entity: " ++ se_load se e])).
Proof.
  intros se c ae w d st a d' st' s SH RI H. destruct (add_same se c ae d st a d' st' _ H) as (x & Ad & K). split; intros E.
  - destruct x; [destruct K as (e & more & _ & _ & [= ->] & _); discriminate|destruct K as (e & more & _ & _ & [= ->] & _); discriminate| | |discriminate].
    + exact (C44_refused_leaves_no_trace c ae d w st a d' st' SH RI Ad).
    + unfold add_tool in Ad. destruct (entity_to_add c ae st a); [|discriminate]. destruct (append_block _ _ _ _) as [d1 [|]]; [|discriminate]. destruct (rebuild c d1); discriminate.
  - assert (G : x = Accepted \/ x = Forced) by (destruct x; [auto|auto|destruct K as (t & [= ->]); discriminate|destruct K as (t & [= ->]); discriminate|discriminate]).
    assert (K' : exists e more, entity_to_add c ae st a = Some e /\ append_block c d (target_of c a) (generate_dsl (c_env c) default_options [e]) = (d', true) /\
      Some s = Some {| is_error := false; contents := added_text a (negb (file_exists c d (target_of c a))) :: generate_dsl (c_env c) default_options [e] :: more |} /\
      (x = Accepted -> more = [] /\ rebuild c d' = Ok st') /\
      (x = Forced -> exists err, more = [L "Warning: workspace rebuild failed after adding entity: " ++ se_load se err] /\ rebuild c d' = Err err)) by (destruct G as [-> | ->]; exact K).
    destruct K' as (e & more & EA & AB & [= ->] & A1 & A2). cbn [contents].
    destruct (created_spec c d (target_of c a) _ d' (proj1 RI) (target_slashless c a (proj1 (proj2 RI))) AB) as (q & old & Rq & Nq & Cr).
    eexists. eexists. eexists. exists q, (ended old). split; [reflexivity|]. split; [exact Rq|]. split; [exact Nq|]. split; [|split].
    + destruct (file_exists c d (target_of c a)); cbn [negb added_text]; split.
      * intros (r & X). discriminate X.
      * intros X. congruence.
      * intros _. apply Cr.
      * intros _. unfold added_text. eexists. reflexivity.
    + intros M. destruct G as [-> | ->]; [apply A1; reflexivity|]. destruct (A2 eq_refl) as (err & X & _). congruence.
    + intros M. destruct G as [-> | ->]; [destruct (A1 eq_refl) as [X _]; congruence|]. destruct (A2 eq_refl) as (err & X & RB).
      split; [|exists err; auto]. unfold add_tool in Ad. rewrite EA, AB, RB in Ad. injection Ad as <-. reflexivity.
Qed.
Print Assumptions C86_add_says.

(** ** Asking *)
(** What is not there is an error, and only that: get and related agree, and
    what a source is found for is found. *)
Theorem C86_lookups_agree : forall c d st show_e show_s t i dir, shuffles (c_fields c) -> rebuild c d = Ok st -> t <> L "schema" ->
  (is_error (tell_get show_e show_s st t i) = false <-> exists e, get_entity (st_graph st) (compose_entity_id t i) = Some e) /\
  (is_error (tell_related st t i dir) = is_error (tell_get show_e show_s st t i)) /\
  (is_error (tell_find st t i) = false -> is_error (tell_get show_e show_s st t i) = false).
Proof.
  intros c d st show_e show_s t i dir SH B N. pose proof (C54_get_is_graph_lookup c d st t i B N) as G. unfold tell_get. rewrite G. pose proof N as N'. apply str_eqb_neq in N'. rewrite N'. split; [|split].
  - destruct (get_entity _ _) as [e|]; cbn [is_error says no_entity fails]; split; [eauto|auto|discriminate|intros (e & X); discriminate].
  - pose proof (C54_related_is_exact c d st t i dir B N) as R. rewrite G in R. unfold tell_related. destruct (related_tool st t i dir) as [ids|].
    + destruct R as (e & E & _). destruct (get_entity _ _); [|discriminate]. destruct ids; reflexivity.
    + destruct (get_entity _ _); [discriminate|reflexivity].
  - unfold tell_find. rewrite N'. destruct (find_source_tool st t i) as [p|] eqn:F; [|discriminate]. intros _. unfold find_source_tool in F. rewrite N' in F. unfold find_entity_source in F.
    destruct (find _ (st_files st)) as [[key f]|] eqn:Fi; [|discriminate]. apply find_some in Fi as [If Ef]. cbn [snd] in Ef. apply existsb_exists in Ef as (n & Hn & En).
    unfold entity_here in En. destruct (en_type n) as [t'|] eqn:ET; [|discriminate]. destruct (en_id n) as [i'|] eqn:EI; [|discriminate].
    apply Bool.andb_true_iff in En as [A A']. apply str_eqb_eq in A, A'. subst t' i'.
    destruct (C54_get_what_is_declared c d st (wf_rel f) n t i SH B N) as (e & _ & X); auto.
    { apply in_flat_map. exists (key, f). split; [exact If|]. apply in_map_iff. exists n. auto. }
    rewrite G in X. destruct (get_entity _ _); [reflexivity|discriminate].
Qed.
Print Assumptions C86_lookups_agree.
(** What is shown is "No related entities found" exactly if there are none, else
    their ids. *)
Theorem C86_related_says : forall c d st t i dir, shuffles (c_fields c) -> rebuild c d = Ok st -> t <> L "schema" -> is_error (tell_related st t i dir) = false ->
  exists ids text, related_tool st t i dir = Some ids /\ contents (tell_related st t i dir) = [text] /\
    (begins_with text (L "No related entities found") <-> ids = []) /\ (ids <> [] -> text = join [LF] ids).
Proof.
  intros c d st t i dir SH B N E. pose proof (C54_related_is_exact c d st t i dir B N) as R. unfold tell_related in *. destruct (related_tool st t i dir) as [ids|] eqn:RT; [|discriminate].
  destruct ids as [|x l]; (eexists; eexists; split; [reflexivity|]; split; [reflexivity|]; split).
  - split; [reflexivity|]. intros _. eexists. reflexivity.
  - congruence.
  - split; [|discriminate]. intros (r & X). destruct R as (e & _ & _ & R). destruct (proj1 (R x)) as (e' & Ge & _); [now left|]. exfalso.
    rewrite (P_Agree.lookup_served c d st B) in Ge. apply lookup_some in Ge as [Ie Qe]. pose proof (P_Agree.ids_lower c d st SH B e' Ie) as LO. rewrite Qe in LO.
    destruct (served_id c d st e' SH B Ie) as (t' & i' & EQ). rewrite Qe in EQ. pose proof (compose_nonempty t' i') as NE. rewrite <- EQ in NE.
    destruct (join_begins x l NE) as (y & z & J & v & ->). rewrite J in X. cbn [L list_ascii_of_string app] in X. injection X as -> _. cbn [lower map] in LO. discriminate LO.
  - reflexivity.
Qed.
Print Assumptions C86_related_says.
(** A list is empty exactly if there is no entity of the type. *)
Theorem C86_list_says : forall c d st t, shuffles (c_fields c) -> rebuild c d = Ok st -> t <> L "schema" ->
  is_error (tell_list st t) = false /\ exists text, contents (tell_list st t) = [text] /\ text = join [LF] (list_tool st t) /\
    (text = [] <-> forall id e, get_entity (st_graph st) id = Some e -> e_type e <> t).
Proof.
  intros c d st t SH B N. split; [reflexivity|]. exists (list_text st t). split; [reflexivity|]. split; [reflexivity|]. destruct (C54_list_is_exact c d st t B N) as [_ X]. unfold list_text. split.
  - intros E id e G T. destruct (list_tool st t) as [|x l] eqn:LT; [destruct (proj2 (X id)); eauto|].
    destruct (proj1 (X x)) as (e' & Ge & _); [now left|]. rewrite (P_Agree.lookup_served c d st B) in Ge. apply lookup_some in Ge as [Ie Qe].
    destruct (served_id c d st e' SH B Ie) as (t' & i' & EQ). rewrite Qe in EQ. pose proof (compose_nonempty t' i') as NE. rewrite <- EQ in NE. destruct (join_begins x l NE) as (y & z & J & _). rewrite J in E. discriminate.
  - intros H. destruct (list_tool st t) as [|x l] eqn:LT; [reflexivity|]. destruct (proj1 (X x)) as (e & Ge & T); [now left|]. destruct (H x e Ge T).
Qed.
Print Assumptions C86_list_says.

(** ** Where it is not so *)
Definition se0 : say_env := {| se_load := fun _ => L "bad"; se_parse := fun _ => L "unreadable"; se_io := L "io"; se_add := fun _ => L "cannot add"; se_dsl := L "dsl"; se_query := L "query" |}.
(** A refused write over a file that is not UTF-8 says that the changes were
    rolled back; the file is gone. *)
Theorem C86_rolled_back_refuted : exists se c d w st rel content d' st' s h q, runs_in c d w /\ plain rel /\
  tell se c d st (Write rel content false) = (d', st', Some s) /\ is_error s = true /\
  contents s = [h ++ L "Changes have been rolled back. Use 'force: true' to write anyway."] /\
  (exists x, node_at d q = Some (File x)) /\ node_at d' q = None.
Proof.
  exists se0, c0, d_latin, w0, st0, (L "c.firm"), (L "john"). eexists. eexists. eexists. exists (L "Validation failed: bad. "), [L "w"; L "c.firm"].
  split; [runs|]. split; [split; reflexivity|]. split; [vm_compute; reflexivity|]. split; [vm_compute; reflexivity|]. split; [vm_compute; reflexivity|].
  split; [eexists; vm_compute; reflexivity|vm_compute; reflexivity].
Qed.
Print Assumptions C86_rolled_back_refuted.
(** "Workspace validation failed" is also said where the workspace is valid:
    where a file to be deleted is not there. *)
Theorem C86_validation_failed_refuted : exists se c w d st d' st' s rest, ordinary c w d /\ rebuild c d = Ok st /\
  tell se c d st (Delete (L "none.firm") false) = (d', st', Some s) /\ is_error s = true /\ d' = d /\
  contents s = [L "Workspace validation failed: " ++ rest].
Proof.
  exists se0, c0, w0, d0, st0. eexists. eexists. eexists. exists (L "File not found: none.firm"). split; [exact d0_ordinary|]. split; [vm_compute; reflexivity|].
  split; [vm_compute; reflexivity|]. split; [reflexivity|]. split; reflexivity.
Qed.
Print Assumptions C86_validation_failed_refuted.

Example C86_case :
  ordinary c0 w0 d0 /\ rebuild c0 d0 = Ok st0 /\
  (exists d' st', tell se0 c0 d0 st0 (Write (L "c.firm") (L "john") true) = (d', st', Some (says (L "Created c.firm (4 bytes). Warning: workspace has validation errors: bad. Use 'build' to check status after making more changes.")))) /\
  tell se0 c0 d0 st0 Build = (d0, st0, Some (says (L "Workspace is valid. 2 entities, 2 schemas."))) /\
  tell se0 c0 d0 st0 (Replace (L "a.firm") (L "zz") [] true false) = (d0, st0, Some (fails (L "old_string not found in 'a.firm': ""zz"""))) /\
  tell_related st0 (L "org") (L "acme") None = says (L "person.john") /\
  tell_related st0 (L "org") (L "nobody") None = no_entity (L "org") (L "nobody").
Proof.
  split; [exact d0_ordinary|]. split; [vm_compute; reflexivity|]. split; [eexists; eexists; vm_compute; reflexivity|]. split; [vm_compute; reflexivity|]. split; [vm_compute; reflexivity|]. split; vm_compute; reflexivity.
Qed.
