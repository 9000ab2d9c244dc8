(** The reading tools, and replacing text: C38 replacing, C39 resources,
    C40 searching, C49 finding, C53 the source tree, C54 list, get and related. *)
From Coq Require Import Lia.
From Verif Require Import M_Graph S_Graph L_Graph.
From Verif Require Import S_Tools S_Schema L_Str L_Text L_Fs L_Server L_Load L_History L_Replace L_Tools L_Workspace
  P_Graph P_Dsl P_Schema P_Workspace P_Server.
Close Scope Z_scope.

(** ** C38 *)
(** The new content is the old one with the new text in place of every cut, and
    there is one cut if only one replacement was asked for. *)
Theorem C38_replaces_the_occurrences : forall c d rel old new all content n,
  replace_in_file c d rel old new all = Replaced content n <->
  old <> [] /\ exists text ps, read_source_file c d rel = Ok text /\ pieces old text ps /\
    length ps = S n /\ 0 < n /\ (all = false -> n = 1) /\ content = join new ps.
Proof.
  intros c d rel old new all content n. unfold replace_in_file. split.
  - intros H. destruct old as [|x old]; [discriminate|]. split; [discriminate|]. destruct (read_source_file c d rel) as [text| |]; try discriminate.
    apply replace_text_spec in H as (ps & A); [|discriminate]. exists text, ps. auto.
  - intros (N & text & ps & -> & A). destruct old as [|x old]; [congruence|]. apply replace_text_spec; [discriminate|]. exists ps. exact A.
Qed.
Print Assumptions C38_replaces_the_occurrences.
(** A text that occurs once is replaced, whether or not all occurrences are asked for. *)
Theorem C38_the_only_occurrence : forall c d rel old new all text a b, old <> [] ->
  read_source_file c d rel = Ok text -> only_cut old text a b -> replace_in_file c d rel old new all = Replaced (a ++ new ++ b) 1.
Proof.
  intros c d rel old new all text a b N R O. apply C38_replaces_the_occurrences. split; [exact N|]. exists text, [a; b].
  split; [exact R|]. split; [apply only_pieces; auto|]. split; [reflexivity|]. split; [lia|]. auto.
Qed.
Print Assumptions C38_the_only_occurrence.
(** For texts whose occurrences cannot overlap: exactly those. *)
Theorem C38_exactly_when_unique : forall c d rel old new content n, never_overlaps old ->
  (replace_in_file c d rel old new false = Replaced content n <->
   old <> [] /\ n = 1 /\ exists text a b, read_source_file c d rel = Ok text /\ only_cut old text a b /\ content = a ++ new ++ b).
Proof.
  intros c d rel old new content n NO. split.
  - intros H. apply C38_replaces_the_occurrences in H as (N & text & ps & R & P & Ln & _ & E & ->). rewrite (E eq_refl) in *.
    destruct ps as [|a [|b [|]]]; try discriminate. split; [exact N|]. split; [reflexivity|]. exists text, a, b.
    split; [exact R|]. split; [apply pieces_only; auto|reflexivity].
  - intros (N & -> & text & a & b & R & O & ->). apply C38_the_only_occurrence with text; auto.
Qed.
Print Assumptions C38_exactly_when_unique.
Theorem C38_absent_text_changes_nothing : forall c d st rel old new all force d' st' a text,
  read_source_file c d rel = Ok text -> ~ occurs old text -> replace_source c d st rel old new all force = (d', st', a) ->
  d' = d /\ st' = st /\ (a = Refused \/ a = Crashed).
Proof.
  intros c d st rel old new all force d' st' a text R N H. unfold replace_source in H.
  destruct (replace_in_file c d rel old new all) as [| |content n] eqn:E; try (injection H as <- <- <-; auto).
  apply C38_replaces_the_occurrences in E as (_ & text' & ps & R' & P & Ln & Pn & _). exfalso. assert (text' = text) by congruence. subst text'.
  inversion P as [? N'|? x y ? [Ec _] _]; subst; [cbn in Ln; lia|]. apply N. exists x, y. reflexivity.
Qed.
Print Assumptions C38_absent_text_changes_nothing.
Theorem C38_short_texts_do_not_crash : forall c d rel old new all, length old <= 100 -> replace_in_file c d rel old new all <> ReplaceCrashed.
Proof.
  intros c d rel old new all B H. unfold replace_in_file in H. destruct old as [|x old]; [discriminate|].
  destruct (read_source_file c d rel); try discriminate. apply replace_crash in H. rewrite cut_short in H by exact B. discriminate.
Qed.
Print Assumptions C38_short_texts_do_not_crash.
(** A text may occur twice and yet be replaced as if it were unique. *)
Theorem C38_overlap_refuted : exists c d rel old new text content a b a' b', read_source_file c d rel = Ok text /\
  replace_in_file c d rel old new false = Replaced content 1 /\ text = a ++ old ++ b /\ text = a' ++ old ++ b' /\ a <> a'.
Proof.
  exists c0, (set_node d0 [L "w"; L "a.firm"] (File (L "aaa"))), (L "a.firm"), (L "aa"), (L "x"), (L "aaa"), (L "xa"), [], (L "a"), (L "a"), [].
  split; [vm_compute; reflexivity|]. split; [vm_compute; reflexivity|]. split; [reflexivity|]. split; [reflexivity|discriminate].
Qed.
Print Assumptions C38_overlap_refuted.
(** The message about a long text that does not occur panics if it cuts a character. *)
Theorem C38_message_panic_refuted : exists c d rel old new text, read_source_file c d rel = Ok text /\ is_text old = true /\
  replace_in_file c d rel old new false = ReplaceCrashed.
Proof.
  exists c0, d0, (L "a.firm"), (repeat "a"%char 99 ++ bytes [195%N; 169%N]), [], (L "john").
  split; [vm_compute; reflexivity|]. split; vm_compute; reflexivity.
Qed.
Print Assumptions C38_message_panic_refuted.
Example C38_case :
  read_source_file c0 d0 (L "a.firm") = Ok (L "john") /\ never_overlaps (L "o") /\
  replace_in_file c0 d0 (L "a.firm") (L "o") (L "oo") false = Replaced (L "joohn") 1 /\
  replace_in_file c0 (set_node d0 [L "w"; L "a.firm"] (File (L "a-b-c"))) (L "a.firm") (L "-") (L "--") true = Replaced (L "a--b--c") 2 /\
  replace_in_file c0 (set_node d0 [L "w"; L "a.firm"] (File (L "a-b-c"))) (L "a.firm") (L "-") (L "--") false = NotReplaced.
Proof.
  split; [vm_compute; reflexivity|]. split.
  - intros [|x [|]] b c A B E; try congruence; [|discriminate]. injection E as <- E. subst b. congruence.
  - repeat split; vm_compute; reflexivity.
Qed.

(** ** C39 *)
Theorem C39_uri_round_trip : forall rel, parse_source_uri (source_file_uri rel) = Some rel.
Proof.
  intros rel. unfold parse_source_uri, source_file_uri.
  change (L "firm" ++ L "://" ++ L "source" ++ L "/" ++ rel) with ((L "firm" ++ L "://" ++ L "source" ++ L "/") ++ rel).
  rewrite skipn_app_len. destruct (starts_with _ _) eqn:E; [reflexivity|]. rewrite <- Bool.not_true_iff_false in E. exfalso. apply E, starts_with_spec. eauto.
Qed.
Print Assumptions C39_uri_round_trip.
Theorem C39_only_uris_parse : forall uri rel, parse_source_uri uri = Some rel -> uri = source_file_uri rel.
Proof.
  intros uri rel H. unfold parse_source_uri in H. destruct (starts_with _ _) eqn:E; [|discriminate]. apply starts_with_spec in E as (r & ->).
  rewrite skipn_app_len in H. injection H as <-. reflexivity.
Qed.
Print Assumptions C39_only_uris_parse.
(** The resources listed are the source files, each once and in order, and each
    reads as the text of its file. *)
Theorem C39_resources_are_the_source_files : forall c w d st, ordinary c w d -> (forall l, Permutation (c_files c l) l) -> rebuild c d = Ok st ->
  StronglySorted (fun a b => str_cmp a b = Lt) (list_resources st) /\
  (forall uri, In uri (list_resources st) <-> exists r s, source_of w d r s /\ uri = source_file_uri (path_text r)) /\
  (forall r s, source_of w d r s -> read_resource c d (source_file_uri (path_text r)) = Some s).
Proof.
  intros c w d st O PC B. destruct (workspace_paths c w d st O PC B) as [N I]. unfold list_resources, source_paths. split; [|split].
  - pose proof (sort_strict _ N) as SS. induction SS as [|x l SS IH F]; cbn [map]; constructor; [exact IH|].
    apply Forall_forall. intros y Hy. apply in_map_iff in Hy as (z & <- & Hz). rewrite Forall_forall in F. unfold source_file_uri. rewrite !str_cmp_app. auto.
  - intros uri. rewrite in_map_iff. split.
    + intros (p & <- & H). apply sort_in, I in H as (r & s & SO & ->). exists r, s. auto.
    + intros (r & s & SO & ->). exists (path_text r). split; [reflexivity|]. apply sort_in, I. eauto.
  - intros r s SO. unfold read_resource. rewrite C39_uri_round_trip, (source_read c w d r s O SO). reflexivity.
Qed.
Print Assumptions C39_resources_are_the_source_files.
Example C39_case : parse_source_uri (L "firm://source/core/people.firm") = Some (L "core/people.firm") /\ parse_source_uri (L "firm://source") = None /\
  list_resources st0 = [L "firm://source/a.firm"; L "firm://source/b.firm"; L "firm://source/s.firm"] /\
  read_resource c0 d0 (L "firm://source/b.firm") = Some (L "acme").
Proof. repeat split; vm_compute; reflexivity. Qed.

(** ** C40 *)
(** The answer is the first fifty of all lines the query hits. *)
Theorem C40_reports_the_first_hits : forall c d st query cs, query <> [] -> NoDup (map (fun pf => wf_rel (snd pf)) (st_files st)) ->
  exists l, all_hits c d st query cs l /\
  match search_source c d st query cs with
  | EmptyQuery => False
  | NoMatches => l = []
  | Matches groups truncated =>
      l <> [] /\ reported groups = firstn 50 l /\ (truncated = true <-> length l > 50) /\
      StronglySorted (fun a b => str_cmp a b = Lt) (map fst groups) /\ Forall (fun g => snd g <> []) groups
  end.
Proof.
  intros c d st query cs Nq ND. set (m := line_matches query cs). exists (flat_map (file_hits c d m) (source_paths st)).
  pose proof (sort_strict _ ND) as SS. fold (source_paths st) in SS. split.
  - split; [apply flat_hits_sorted; exact SS|]. intros p k t. rewrite flat_hits_spec. unfold known_text, source_paths. split.
    + intros (s & Hp & R & La & M). exists s. apply sort_in, in_map_iff in Hp as ([key f] & E & Hp). cbn in E.
      split; [split; [exists key, f; auto|exact R]|]. split; [exact La|]. apply line_matches_spec. exact M.
    + intros (s & ((key & f & Hf & E) & R) & La & M). exists s. split; [apply sort_in, in_map_iff; exists (key, f); auto|].
      split; [exact R|]. split; [exact La|]. apply line_matches_spec. exact M.
  - unfold search_source. destruct query as [|x query]; [congruence|]. fold m. destruct (search_files c d m (source_paths st) 0) as [[groups total] b] eqn:E.
    destruct (search_files_spec c d m _ 0 groups total b ltac:(unfold max_matches; lia) E) as (R & -> & ->).
    change (max_matches - 0) with 50 in *. destruct (Nat.eqb_spec (0 + length (reported groups)) 0) as [Z|Z].
    + destruct (flat_map _ _) as [|y l]; [reflexivity|]. rewrite R in Z. discriminate.
    + split; [intros X; rewrite X in R; rewrite R in Z; apply Z; reflexivity|]. split; [exact R|]. split; [rewrite Nat.ltb_lt; lia|].
      destruct (search_groups c d m _ _ _ _ _ E) as [F So]. split; [auto|]. eapply Forall_impl; [|exact F]. intros g [H _]. exact H.
Qed.
Print Assumptions C40_reports_the_first_hits.
(** In a workspace as it was last built these are the lines of its source files. *)
Theorem C40_searches_the_source_files : forall c w d st query cs l, ordinary c w d -> (forall l, Permutation (c_files c l) l) -> rebuild c d = Ok st ->
  all_hits c d st query cs l ->
  NoDup (map (fun pf => wf_rel (snd pf)) (st_files st)) /\
  forall p k t, In (p, k, t) l <-> exists r s, source_of w d r s /\ p = path_text r /\ line_at s k t /\ hit query cs t.
Proof.
  intros c w d st query cs l O PC B (_ & H). destruct (workspace_paths c w d st O PC B) as [N I]. split; [exact N|]. intros p k t. rewrite H. split.
  - intros (s & ((key & f & Hf & <-) & R) & La & M). assert (X : In (wf_rel f) (map (fun pf => wf_rel (snd pf)) (st_files st))) by (apply in_map_iff; exists (key, f); auto).
    apply I in X as (r & s' & SO & E). rewrite E, (source_reads c w d r s' O SO) in R. injection R as ->. exists r, s. auto.
  - intros (r & s & SO & -> & La & M). exists s. split; [|auto]. split; [|apply (source_reads c w d r s O SO)].
    assert (X : In (path_text r) (map (fun pf => wf_rel (snd pf)) (st_files st))) by (apply I; eauto).
    apply in_map_iff in X as ([key f] & E & Hf). exists key, f. auto.
Qed.
Print Assumptions C40_searches_the_source_files.
(** There is only one list of all hits. *)
Theorem C40_hits_are_determined : forall c d st query cs l l', all_hits c d st query cs l -> all_hits c d st query cs l' -> l = l'.
Proof.
  intros c d st query cs l l' [S1 I1] [S2 I2]. assert (X : forall x, In x l <-> In x l') by (intros [[p k] t]; rewrite I1, I2; tauto). clear I1 I2.
  assert (Irr : forall x, ~ earlier x x). { intros [[p k] t] [H|[_ H]]; [rewrite str_cmp_refl in H; discriminate|lia]. }
  assert (Asy : forall x y, earlier x y -> earlier y x -> False).
  { intros [[p k] t] [[p' k'] t'] [A|[A A']] [B|[B B']]; subst; try rewrite str_cmp_refl in *; try discriminate; try lia.
    pose proof (str_cmp_trans_lt _ _ _ A B) as Q. rewrite str_cmp_refl in Q. discriminate. }
  revert l' S2 X. induction S1 as [|x l S1 IH F]; intros l' S2 X.
  - destruct l' as [|y l']; [reflexivity|]. destruct (proj2 (X y)). left. reflexivity.
  - destruct S2 as [|y l' S2 F']; [destruct (proj1 (X x)); left; reflexivity|]. rewrite Forall_forall in F, F'.
    assert (x = y) as <-.
    { destruct (proj1 (X x) (or_introl eq_refl)) as [->|Hx]; [reflexivity|]. destruct (proj2 (X y) (or_introl eq_refl)) as [->|Hy]; [reflexivity|].
      destruct (Asy x y); auto. }
    f_equal. apply IH; [exact S2|]. intros z. split; intros Hz.
    + destruct (proj1 (X z) (or_intror Hz)) as [<-|H]; [destruct (Irr x); auto|exact H].
    + destruct (proj2 (X z) (or_intror Hz)) as [<-|H]; [destruct (Irr x); auto|exact H].
Qed.
Print Assumptions C40_hits_are_determined.
Definition d_text : fs := set_node d0 [L "w"; L "a.firm"] (File (L "x" ++ [LF] ++ L " John y" ++ [CR; LF; LF] ++ L "Mary john")).
Example C40_case : search_source c0 d_text st0 (L "JOHN") false
    = Matches [(L "a.firm", [(2, L " John y"); (4, L "Mary john")])] false /\
  search_source c0 d_text st0 (L "john") true = Matches [(L "a.firm", [(4, L "Mary john")])] false /\
  search_text [(L "a.firm", [(2, L " John y"); (4, L "Mary john")])] false = L "a.firm:" ++ [LF] ++ L "  2:  John y" ++ [LF] ++ L "  4:  Mary john" /\
  (exists g, search_source c0 (set_node d0 [L "w"; L "a.firm"] (File (concat (repeat (L "hi" ++ [LF]) 51)))) st0 (L "HI") false = Matches g true) /\
  (exists g, search_source c0 (set_node d0 [L "w"; L "a.firm"] (File (concat (repeat (L "hi" ++ [LF]) 50)))) st0 (L "HI") false = Matches g false).
Proof. repeat split; try (eexists; vm_compute; reflexivity); vm_compute; reflexivity. Qed.

(** ** C49 *)
(** The tool answers with a source file that can be read and whose text parses
    to a declaration of the entity. *)
Theorem C49_answer_is_a_source_file : forall c w d st t i p, ordinary c w d -> (forall l, Permutation (c_files c l) l) -> rebuild c d = Ok st ->
  t <> L "schema" -> find_source_tool st t i = Some p ->
  exists r s ps n, source_of w d r s /\ p = path_text r /\ read_source_file c d p = Ok s /\ c_parse c s = Some ps /\
    In n (ps_entities ps) /\ en_type n = Some t /\ en_id n = Some i.
Proof.
  intros c w d st t i p O PC B Nt H. unfold find_source_tool in H. apply str_eqb_neq in Nt. rewrite Nt in H. unfold find_entity_source in H.
  destruct (find _ (st_files st)) as [[key f]|] eqn:F; [|discriminate]. apply find_some in F as [If Ef].
  destruct (rebuild_files c d st B) as (fs & Ld & EF & _). pose proof O as (RI & NL & T & _).
  destruct (load_directory_spec c d w fs RI NL T Ld) as (N & I & _).
  assert (N' : NoDup (map fst (st_files st))) by (rewrite EF; eapply Permutation_NoDup; [apply Permutation_map, Permutation_sym, PC|exact N]).
  destruct (find (fun pf => str_eqb (fst pf) key) (st_files st)) as [[key' f']|] eqn:F'; [|discriminate]. apply find_some in F' as [If' Ek]. cbn in Ek. apply str_eqb_eq in Ek. subst key'.
  assert (f' = f) as ->.
  { clear - N' If If'. induction (st_files st) as [|[k g] l IH]; [destruct If|]. cbn [map fst] in N'. inversion N'; subst.
    destruct If as [E|If], If' as [E'|If']; [congruence| | |auto]; exfalso; apply H1;
      [injection E as -> ->; exact (in_map fst _ _ If')|injection E' as -> ->; exact (in_map fst _ _ If)]. }
  cbn in H. injection H as <-. rewrite EF in If. apply (Permutation_in _ (PC fs)), I in If as (r & s & ps & SO & P & E).
  unfold loaded in E. injection E as _ ->. cbn [snd wf_entities wf_rel] in *. apply existsb_exists in Ef as (n & Hn & En).
  exists r, s, ps, n. split; [exact SO|]. split; [reflexivity|]. split; [exact (source_read c w d r s O SO)|]. split; [exact P|]. split; [exact Hn|].
  unfold entity_here in En. destruct (en_type n) as [t'|]; [|discriminate]. destruct (en_id n) as [i'|]; [|discriminate].
  apply Bool.andb_true_iff in En as [A A']. apply str_eqb_eq in A, A'. subst. auto.
Qed.
Print Assumptions C49_answer_is_a_source_file.
Example C49_tool_case : find_source_tool st0 (L "org") (L "acme") = Some (L "b.firm") /\ find_source_tool st0 (L "org") (L "nobody") = None.
Proof. split; vm_compute; reflexivity. Qed.

(** ** C53 *)
Theorem C53_tree_lists_each_source_file_once : forall c w d st, ordinary c w d -> (forall l, Permutation (c_files c l) l) -> rebuild c d = Ok st ->
  StronglySorted (fun a b => str_cmp a b = Lt) (map fst (source_tree st)) /\
  Forall (fun g => snd g <> [] /\ StronglySorted (fun a b => str_cmp a b = Lt) (snd g)) (source_tree st) /\
  (forall dir f, (exists fs, In (dir, fs) (source_tree st) /\ In f fs) <-> exists r s, source_of w d (r ++ [f]) s /\ dir = path_text r).
Proof.
  intros c w d st O PC B. destruct (workspace_paths c w d st O PC B) as [N I]. pose proof O as ((S & _) & _).
  pose proof (sort_strict _ N) as SS. fold (source_paths st) in SS.
  assert (I' : forall p, In p (source_paths st) <-> exists r n s, source_of w d (r ++ [n]) s /\ p = path_text (r ++ [n])).
  { intros p. unfold source_paths. rewrite sort_in, I. split; [|intros (r & n & s & A); eauto].
    intros (r & s & SO & ->). pose proof SO as (_ & r' & n & -> & _). exists r', n, s. auto. }
  assert (E : source_tree st = tree_of (map dir_and_file (source_paths st))).
  { unfold source_tree, tree_of. clear. generalize (@nil (str * list str)). induction (source_paths st) as [|p ps IH]; intros t; [reflexivity|].
    cbn [map fold_left]. rewrite IH. destruct (dir_and_file p). reflexivity. }
  rewrite E. destruct (tree_of_spec (map dir_and_file (source_paths st))) as [K T]. split; [exact K|].
  assert (Pair : forall dir f, In f (files_in dir (map dir_and_file (source_paths st))) <-> exists r s, source_of w d (r ++ [f]) s /\ dir = path_text r).
  { intros dir f. unfold files_in. rewrite in_map_iff. split.
    - intros ([x y] & <- & H). apply filter_In in H as [H Q]. cbn in Q. apply str_eqb_eq in Q. subst x. apply in_map_iff in H as (p & D & H).
      apply I' in H as (r & n & s & SO & ->). destruct (source_slashless w d _ s S SO) as [SL _]. rewrite (dir_and_file_spec r n SL) in D. injection D as <- <-. cbn. eauto.
    - intros (r & s & SO & ->). exists (path_text r, f). split; [reflexivity|]. apply filter_In. split; [|cbn; apply str_eqb_refl].
      apply in_map_iff. exists (path_text (r ++ [f])). split; [apply dir_and_file_spec, (source_slashless w d _ s S SO)|]. apply I'. eauto. }
  split.
  - apply Forall_forall. intros [dir fs] H. apply T in H as [-> NE]. split; [exact NE|]. cbn [snd]. clear NE.
    assert (G : forall ps, incl ps (source_paths st) -> StronglySorted (fun a b => str_cmp a b = Lt) ps ->
                StronglySorted (fun a b => str_cmp a b = Lt) (files_in dir (map dir_and_file ps))).
    { induction ps as [|p ps IH]; intros Inc Q; [constructor|]. inversion Q as [|? ? Q' F]; subst. unfold files_in. cbn [map filter].
      assert (Inc' : incl ps (source_paths st)) by (intros x Hx; apply Inc; right; exact Hx).
      destruct (str_eqb (fst (dir_and_file p)) dir) eqn:D; [|apply IH; auto]. cbn [map]. constructor; [apply IH; auto|].
      apply str_eqb_eq in D. apply Forall_forall. intros f Hf. apply in_map_iff in Hf as (y & <- & Hy). apply filter_In in Hy as [Hy Dy]. apply str_eqb_eq in Dy.
      apply in_map_iff in Hy as (p' & <- & Hp). rewrite Forall_forall in F. specialize (F p' Hp).
      destruct (proj1 (I' p) (Inc p (or_introl eq_refl))) as (r & n & s & SO & ->). destruct (proj1 (I' p') (Inc' p' Hp)) as (r' & n' & s' & SO' & ->).
      destruct (source_slashless w d _ s S SO) as [SL _], (source_slashless w d _ s' S SO') as [SL' _].
      rewrite (dir_and_file_spec r n SL) in *. rewrite (dir_and_file_spec r' n' SL') in *. cbn [fst snd] in *.
      assert (U : forall a r n s, source_of w d ((a :: r) ++ [n]) s -> path_text (a :: r) <> []).
      { intros a r0 n0 s0 (N' & _). assert (X : Forall proper_name (w ++ (a :: r0) ++ [n0])) by (apply (sound_names d); [exact S|congruence]).
        apply Forall_app in X as [_ X]. inversion X as [|? ? (Z & _) _]; subst. unfold path_text. destruct a as [|z a]; [congruence|]. destruct r0; discriminate. }
      rewrite <- D in Dy. assert (r' = r) as ->.
      { apply Forall_app in SL as [SL _], SL' as [SL' _]. destruct r as [|a r], r' as [|a' r']; auto.
        - destruct (U _ _ _ _ SO' Dy).
        - destruct (U _ _ _ _ SO). symmetry. exact Dy.
        - apply path_text_inj; auto; discriminate. }
      destruct r as [|a r]; [exact F|]. rewrite !path_text_snoc in F by discriminate. rewrite !str_cmp_app in F. exact F. }
    apply G; [apply incl_refl|exact SS].
  - intros dir f. rewrite <- Pair. split.
    + intros (fs & H & Hf). apply T in H as [-> _]. exact Hf.
    + intros Hf. exists (files_in dir (map dir_and_file (source_paths st))). split; [|exact Hf]. apply T. split; [reflexivity|]. intros X. rewrite X in Hf. destruct Hf.
Qed.
Print Assumptions C53_tree_lists_each_source_file_once.
Definition d_deep : fs := d0 ++ [([L "w"; L "x"], Dir); ([L "w"; L "x"; L "c.firm"], File (L "jane")); ([L "w"; L "x"; L "b.firm"], File (L "jim"))].
Example C53_case : exists st, rebuild c0 d_deep = Ok st /\
  source_tree st = [([], [L "a.firm"; L "b.firm"; L "s.firm"]); (L "x", [L "b.firm"; L "c.firm"])] /\
  tree_text (source_tree st) = L "a.firm" ++ [LF] ++ L "b.firm" ++ [LF] ++ L "s.firm" ++ [LF] ++ L "x/" ++ [LF] ++ L "  b.firm" ++ [LF] ++ L "  c.firm".
Proof. eexists. split; [vm_compute; reflexivity|]. split; vm_compute; reflexivity. Qed.

(** ** C54 *)
Lemma served_graph c d st : rebuild c d = Ok st ->
  NoDup (map e_id (b_entities (st_build st))) /\ st_graph st = run [OAddMany (b_entities (st_build st)); OBuild].
Proof.
  intros B. destruct (rebuild_files c d st B) as (fs & _ & _ & G). apply C48_loads_exactly_when_built_and_ids_distinct in G as (_ & N & E). auto.
Qed.
(** All tools look at the same entities. *)
Theorem C54_get_is_graph_lookup : forall c d st t i, rebuild c d = Ok st -> t <> L "schema" ->
  get_tool st t i = match get_entity (st_graph st) (compose_entity_id t i) with Some e => GotEntity e | None => NotGot end.
Proof.
  intros c d st t i B N. destruct (served_graph c d st B) as [ND E]. unfold get_tool, get_entity_tool. apply str_eqb_neq in N. rewrite N, E.
  rewrite (proj1 (C05_lookup_and_results _)), (load_spec _ ND). reflexivity.
Qed.
Print Assumptions C54_get_is_graph_lookup.
Theorem C54_list_is_exact : forall c d st t, rebuild c d = Ok st -> t <> L "schema" ->
  NoDup (list_tool st t) /\
  forall id, In id (list_tool st t) <-> exists e, get_entity (st_graph st) id = Some e /\ e_type e = t.
Proof.
  intros c d st t B N. destruct (served_graph c d st B) as [ND E]. unfold list_tool. apply str_eqb_neq in N. rewrite N. split.
  - clear - ND. induction (b_entities (st_build st)) as [|e l IH]; cbn [filter map]; [constructor|]. cbn [map] in ND. inversion ND; subst.
    destruct (str_eqb (e_type e) t); [|auto]. cbn [map]. constructor; auto. intros H. apply H1. apply in_map_iff in H as (x & <- & Hx). apply filter_In in Hx as [Hx _].
    apply in_map. exact Hx.
  - intros id. rewrite E, (proj1 (C05_lookup_and_results _)), (load_spec _ ND), in_map_iff. split.
    + intros (e & <- & H). apply filter_In in H as [H T]. apply str_eqb_eq in T. exists e. split; [apply lookup_in; auto|exact T].
    + intros (e & H & <-). apply lookup_some in H as [I Q]. exists e. split; [exact Q|]. apply filter_In. split; [exact I|apply str_eqb_refl].
Qed.
Print Assumptions C54_list_is_exact.
(** What a block declares can be got by the type and id written in it. *)
Theorem C54_get_what_is_declared : forall c d st path n t i, shuffles (c_fields c) -> rebuild c d = Ok st -> t <> L "schema" ->
  In (path, n) (entity_blocks (st_files st)) -> en_type n = Some t -> en_id n = Some i ->
  exists e, to_entity (c_env c) path n = Ok e /\ get_tool st t i = GotEntity e.
Proof.
  intros c d st path n t i SH B N Hn Et Ei. destruct (rebuild_files c d st B) as (fs & _ & _ & G).
  destruct (C48_every_declared_entity_is_served _ _ _ _ _ _ SH G path n Hn) as (e & R & Q). exists e. split; [exact R|].
  rewrite (C54_get_is_graph_lookup c d st t i B N).
  assert (Id : e_id e = compose_entity_id t i).
  { unfold to_entity in R. rewrite Et, Ei in R. cbn [of_option obind] in R. destruct (omap _ _) as [fl| |]; try discriminate. cbn [obind] in R. injection R as <-. reflexivity. }
  rewrite <- Id, Q. reflexivity.
Qed.
Print Assumptions C54_get_what_is_declared.
(** The related tool: the ids of the neighbours, in order, each once. *)
Theorem C54_related_is_exact : forall c d st t i dir, rebuild c d = Ok st -> t <> L "schema" ->
  match related_tool st t i dir with
  | None => get_tool st t i = NotGot
  | Some ids => exists e, get_tool st t i = GotEntity e /\ StronglySorted (fun a b => str_cmp a b = Lt) ids /\
      forall id, In id ids <-> exists e', get_entity (st_graph st) id = Some e' /\ neighbour dir e e'
  end.
Proof.
  intros c d st t i dir B N. rewrite (C54_get_is_graph_lookup c d st t i B N). destruct (served_graph c d st B) as [ND E]. unfold related_tool.
  pose proof (C07_get_related_exact_sorted [OAddMany (b_entities (st_build st))] (compose_entity_id t i) dir) as R.
  change (build (run [OAddMany (b_entities (st_build st))])) with (run [OAddMany (b_entities (st_build st)); OBuild]) in R. rewrite <- E in R.
  change (spec_run [OAddMany (b_entities (st_build st))]) with (spec_run [OAddMany (b_entities (st_build st)); OBuild]) in R. rewrite (load_spec _ ND) in R.
  assert (G : forall id, get_entity (st_graph st) id = lookup (b_entities (st_build st)) id).
  { intros id. rewrite E, (proj1 (C05_lookup_and_results _)), (load_spec _ ND). reflexivity. }
  rewrite G. destruct (get_related _ _ dir) as [l|]; cbn [option_map].
  - destruct R as (a & -> & SS & I). exists a. split; [reflexivity|]. split.
    + clear - SS. induction SS as [|x l SS IH F]; cbn [map]; constructor; auto. apply Forall_forall. intros y Hy. apply in_map_iff in Hy as (z & <- & Hz).
      rewrite Forall_forall in F. exact (F z Hz).
    + intros id. rewrite in_map_iff. split.
      * intros (b & <- & Hb). apply I in Hb as [Hb Nb]. exists b. rewrite G. split; [apply lookup_in; auto|exact Nb].
      * intros (b & Hb & Nb). rewrite G in Hb. apply lookup_some in Hb as [Hb Q]. exists b. split; [exact Q|]. apply I. auto.
  - rewrite R. reflexivity.
Qed.
Print Assumptions C54_related_is_exact.
(** The ids the list tool shows are not the ids the get tool takes. *)
Theorem C54_list_then_get_refuted : exists c d w st t id, ordinary c w d /\ rebuild c d = Ok st /\ In id (list_tool st t) /\ get_tool st t id = NotGot.
Proof.
  exists c0, d0, w0, st0, (L "person"), (L "person.john"). split; [exact d0_ordinary|]. split; [vm_compute; reflexivity|]. split; [left|]; vm_compute; reflexivity.
Qed.
Print Assumptions C54_list_then_get_refuted.
(** The get tool normalises the type, the list tool does not. *)
Theorem C54_spelling_refuted : exists c d w st t i e, ordinary c w d /\ rebuild c d = Ok st /\ get_tool st t i = GotEntity e /\ list_tool st t = [].
Proof.
  exists c0, d0, w0, st0, (L "Person"), (L "John"). eexists. split; [exact d0_ordinary|]. split; [vm_compute; reflexivity|]. split; vm_compute; reflexivity.
Qed.
Print Assumptions C54_spelling_refuted.
Example C54_case : list_tool st0 (L "person") = [L "person.john"] /\
  related_tool st0 (L "person") (L "john") (Some Incoming) = Some [L "org.acme"] /\ related_tool st0 (L "org") (L "acme") None = Some [L "person.john"] /\
  related_tool st0 (L "org") (L "nobody") None = None.
Proof. repeat split; vm_compute; reflexivity. Qed.
