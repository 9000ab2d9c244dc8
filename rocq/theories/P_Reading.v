(** C86: what the tool server says when it reads, lists and searches the source
    files. *)
From Coq Require Import Lia Permutation Sorted.
From Verif Require Import M_Graph S_Graph L_Graph.
From Verif Require Import S_Listing S_Schema S_Answer L_Workspace L_Add L_Str L_Text L_Fs L_Server L_Load L_History L_Replace L_Tools L_Listing P_Server P_Tools P_Listing.
From Verif Require Import S_First L_Answer P_Add.
From Verif Require L_Cli.
From Verif Require Import M_Text M_Answer M_Fs.
Close Scope Z_scope.

Lemma read_cases c d w rel : runs_in c d w -> read_source_file c d rel =
  match resolve (c_links c) d (named c rel) with
  | At q => if within q w then
              if match path_name q with Some n => is_firm_file n | None => false end then of_option ReadFailed (read_text (c_links c) d q) else Err NotFirmFile
            else Err InvalidPath
  | _ => if contains rel (L "..") then Err InvalidPath else Err NotFound
  end.
Proof.
  intros RI. pose proof RI as (S1 & _). unfold read_source_file. rewrite (absolute_spec c d w rel RI). destruct (resolve (c_links c) d (named c rel)) as [q|q| |] eqn:R.
  - destruct (within q w); [|reflexivity]. unfold path_exists. rewrite (canon_again d (c_links c) (c_links c) _ q S1 R). cbn [negb].
    destruct (match path_name q with Some n => is_firm_file n | None => false end); reflexivity.
  - destruct (contains rel (L "..")); [reflexivity|]. unfold path_exists. rewrite R. reflexivity.
  - destruct (contains rel (L "..")); [reflexivity|]. unfold path_exists. rewrite R. reflexivity.
  - destruct (contains rel (L "..")); [reflexivity|]. unfold path_exists. rewrite R. reflexivity.
Qed.
Lemma named_place d q : sound d -> node_at d q <> None ->
  (match path_name q with Some n => is_firm_file n | None => false end = true <-> exists q' n, q = q' ++ [n] /\ firm_file_name n).
Proof.
  intros S1 N. destruct q as [|x q'] using rev_ind; [split; [discriminate|intros ([|? ?] & n & E & _); discriminate]|]. clear IHq'.
  pose proof (sound_names d _ S1 N) as F. apply Forall_app in F as [_ F]. inversion F as [|? ? P _]; subst. destruct (proper_go x P) as [A B].
  unfold path_name. rewrite rev_unit. cbn [drop_stays]. rewrite A, B, firm_file_spec. split; [eauto|]. intros (q & n & E & H). apply app_inj_tail in E as [_ ->]. exact H.
Qed.

(** The text of a file is given exactly if the path leads to a source file
    inside the workspace that holds text. What leads nowhere and what leads
    outside are told apart. *)
Theorem C86_read_says : forall se c w d rel, runs_in c d w ->
  (forall s, tell_read se c d rel = says s <->
    exists q n, resolve (c_links c) d (named c rel) = At (q ++ [n]) /\ inside w (q ++ [n]) /\ firm_file_name n /\ node_at d (q ++ [n]) = Some (File s) /\ is_text s = true) /\
  (tell_read se c d rel = fails (L "File not found: " ++ rel) <->
    (forall q, resolve (c_links c) d (named c rel) <> At q) /\ ~ occurs (L "..") rel) /\
  (tell_read se c d rel = fails (L "Invalid path: " ++ rel) <->
    (exists q, resolve (c_links c) d (named c rel) = At q /\ ~ inside w q) \/
    ((forall q, resolve (c_links c) d (named c rel) <> At q) /\ occurs (L "..") rel)).
Proof.
  intros se c w d rel RI. pose proof RI as (S1 & _). unfold tell_read, read_said. rewrite (read_cases c d w rel RI).
  assert (Out : forall r, (forall q, r <> At q) -> resolve (c_links c) d (named c rel) = r ->
    let a := match (if contains rel (L "..") then Err InvalidPath else Err NotFound) with
             | Ok text => inl text | Err InvalidPath => inr (L "Invalid path: " ++ rel) | Err NotFound => inr (L "File not found: " ++ rel)
             | Err NotFirmFile => inr (L "Not a .firm file: " ++ rel) | _ => inr (L "Failed to read file: " ++ se_io se) end in
    let b := match a with inl text => says text | inr e => fails e end in
    (forall s, b = says s <-> exists q n, r = At (q ++ [n]) /\ inside w (q ++ [n]) /\ firm_file_name n /\ node_at d (q ++ [n]) = Some (File s) /\ is_text s = true) /\
    (b = fails (L "File not found: " ++ rel) <-> (forall q, r <> At q) /\ ~ occurs (L "..") rel) /\
    (b = fails (L "Invalid path: " ++ rel) <-> (exists q, r = At q /\ ~ inside w q) \/ ((forall q, r <> At q) /\ occurs (L "..") rel))).
  { intros r N _. pose proof (occurs_contains (L "..") rel) as OC.
    assert (F : forall s : str, ~ exists q n, r = At (q ++ [n]) /\ inside w (q ++ [n]) /\ firm_file_name n /\ node_at d (q ++ [n]) = Some (File s) /\ is_text s = true)
      by (intros s (q & n & X & _); destruct (N _ X)).
    destruct (contains rel (L "..")).
    - assert (O : occurs (L "..") rel) by (apply OC; reflexivity). cbv zeta. split; [intros s; split; [discriminate|intros X; destruct (F s X)]|].
      split; [split; [discriminate|intros [_ X]; destruct (X O)]|split; [intros _; right; auto|reflexivity]].
    - assert (O : ~ occurs (L "..") rel) by (intros X; apply OC in X; discriminate). cbv zeta. split; [intros s; split; [discriminate|intros X; destruct (F s X)]|].
      split; [split; [intros _; auto|reflexivity]|split; [discriminate|intros [(q & X & _)|[_ X]]; [destruct (N _ X)|destruct (O X)]]]. }
  destruct (resolve (c_links c) d (named c rel)) as [q|q| |] eqn:R; [|apply Out; [discriminate|reflexivity]..]. clear Out.
  assert (ND : node_at d q <> None) by (apply resolve_at in R as [R _]; auto).
  assert (No : ~ (forall q0, At q <> At q0)) by (intros X; exact (X q eq_refl)).
  destruct (within q w) eqn:IN.
  - apply within_spec in IN. pose proof (named_place d q S1 ND) as NP. destruct (match path_name q with Some n => is_firm_file n | None => false end) eqn:FN.
    + destruct (proj1 NP eq_refl) as (q' & n & -> & Fn). unfold read_text, stat. rewrite (canon_again d (c_links c) (c_links c) _ _ S1 R).
      split; [|split; [split; [|intros [X _]; destruct (No X)]|split; [|intros [(q & X & Y)|[X _]]; [injection X as <-; destruct (Y IN)|destruct (No X)]]]].
      * intros s. split.
        -- destruct (node_at d (q' ++ [n])) as [[s'| |]|] eqn:F; try discriminate. destruct (is_text s') eqn:T; [|discriminate]. cbn [of_option]. intros E.
           apply (f_equal contents) in E. cbn in E. injection E as ->. exists q', n. auto.
        -- intros (q & m & X & _ & _ & F & T). injection X as X. rewrite X, F, T. reflexivity.
      * destruct (node_at d (q' ++ [n])) as [[s'| |]|] eqn:F; [destruct (is_text s')|..]; cbn [of_option]; discriminate.
      * destruct (node_at d (q' ++ [n])) as [[s'| |]|] eqn:F; [destruct (is_text s')|..]; cbn [of_option]; discriminate.
    + split; [intros s; split; [discriminate|]|split; [split; [discriminate|intros [X _]; destruct (No X)]|split; [discriminate|intros [(q0 & X & Y)|[X _]]; [injection X as <-; destruct (Y IN)|destruct (No X)]]]].
      intros (q' & m & X & _ & Fm & _). injection X as X. assert (false = true) by (apply NP; eauto). discriminate.
  - assert (OUT : ~ inside w q) by (intros X; apply within_spec in X; congruence).
    split; [intros s; split; [discriminate|intros (q' & m & X & Y & _); injection X as X; rewrite <- X in Y; destruct (OUT Y)]|].
    split; [split; [discriminate|intros [X _]; destruct (No X)]|split; [intros _; left; eauto|reflexivity]].
Qed.
Print Assumptions C86_read_says.
Definition se_none : say_env := {| se_load := fun _ => L "bad"; se_parse := fun _ => L "unreadable"; se_io := L "io"; se_add := fun _ => L "cannot add"; se_dsl := L "dsl"; se_query := L "query" |}.
Example C86_read_case : runs_in c0 d0 w0 /\
  tell_read se_none c0 d0 (L "a.firm") = says (L "john") /\ tell_read se_none c0 d0 (L "z.firm") = fails (L "File not found: z.firm") /\
  tell_read se_none c0 d0 (L "../etc") = fails (L "Invalid path: ../etc").
Proof. split; [apply d0_ordinary|]. vm_compute. auto. Qed.

(** An empty query is refused; else the answer tells the first fifty hits, and
    says that there are more exactly if there are. *)
Theorem C86_search_says : forall c w d st query cs, ordinary c w d -> (forall l, Permutation (c_files c l) l) -> rebuild c d = Ok st ->
  (is_error (tell_search c d st query cs) = true <-> query = []) /\
  (query <> [] -> exists l, all_hits c d st query cs l /\
    (l = [] -> tell_search c d st query cs = says (L "No matches found for '" ++ query ++ L "'.")) /\
    (l <> [] -> exists groups truncated, tell_search c d st query cs = says (search_text groups truncated) /\
       reported groups = firstn 50 l /\ (truncated = true <-> length l > 50))).
Proof.
  intros c w d st query cs O PC B. destruct (workspace_paths c w d st O PC B) as [ND _]. split.
  - unfold tell_search. split.
    + destruct query as [|x query]; [reflexivity|]. destruct (search_source c d st (x :: query) cs) eqn:E; try discriminate.
      destruct (C40_reports_the_first_hits c d st (x :: query) cs ltac:(discriminate) ND) as (l & _ & H). rewrite E in H. destruct H.
    + intros ->. reflexivity.
  - intros Q. destruct (C40_reports_the_first_hits c d st query cs Q ND) as (l & A & H). exists l. split; [exact A|]. unfold tell_search.
    destruct (search_source c d st query cs) as [| |groups tr]; [destruct H|..].
    + split; [reflexivity|]. intros N. destruct (N H).
    + destruct H as (N & R & T & _). split; [intros X; destruct (N X)|]. intros _. exists groups, tr. auto.
Qed.
Print Assumptions C86_search_says.
(** The tree is never an error, and says that there are no source files exactly
    if there are none. *)
Theorem C86_tree_says : forall c w d st, ordinary c w d -> (forall l, Permutation (c_files c l) l) -> rebuild c d = Ok st -> one_line_names w d ->
  tell_tree st = says (tree_text (source_tree st)) /\
  (tell_tree st = says (L "No .firm source files found.") <-> forall r s, ~ source_of w d r s).
Proof.
  intros c w d st O PC B ON. split; [reflexivity|]. pose proof (C53_tree_lists_each_source_file_once c w d st O PC B) as (_ & NE & M).
  unfold tell_tree. split.
  - intros E r s SO. pose proof (source_tree_fits c w d st O PC B ON) as F.
    assert (T : source_tree st <> []).
    { pose proof SO as (_ & r' & n & -> & _). destruct (proj2 (M (path_text r') n)) as (fs & I & _); [eauto|]. intros X. rewrite X in I. destruct I. }
    pose proof (tree_text_lines _ T F) as TL. apply (f_equal contents) in E. cbn [says contents] in E. apply (f_equal (hd [])) in E. cbn [hd] in E. rewrite E in TL.
    assert (X : split_char LF (L "No .firm source files found.") = [L "No .firm source files found."]) by (vm_compute; reflexivity). rewrite X in TL. clear X E.
    destruct (source_tree st) as [|[dir fs] tr]; [congruence|]. destruct F as (F & _). inversion F as [|? ? (_ & N & G) _]; subst. cbn [fst snd] in *.
    unfold tree_lines in TL. cbn [flat_map] in TL. unfold group_lines in TL at 1. cbn [fst snd] in TL. destruct fs as [|f fs]; [destruct (N eq_refl)|].
    inversion G as [|? ? (_ & (z & Z)) _]; subst. destruct dir as [|c1 dir].
    + apply (f_equal (hd [])) in TL. cbn [hd app] in TL. apply (f_equal (@rev ascii)) in TL. rewrite rev_app_distr in TL. vm_compute in TL. discriminate TL.
    + apply (f_equal (@length _)) in TL. cbn [map app length] in TL. discriminate TL.
  - intros N. destruct (source_tree st) as [|[dir fs] tr] eqn:T; [reflexivity|]. inversion NE as [|? ? (X & _) _]; subst. cbn [snd] in X.
    destruct fs as [|f fs]; [destruct (X eq_refl)|]. destruct (proj1 (M dir f)) as (r & s & SO & _); [exists (f :: fs); split; left; reflexivity|]. destruct (N _ _ SO).
Qed.
Print Assumptions C86_tree_says.

(** An addition names the file that now ends with the block. *)
Theorem C86_add_names_the_file : forall se c ae w d st a d' st' s, runs_in c d w -> (a_file a = None -> file_word (a_type a)) ->
  tell_add se c ae d st a = (d', st', Some s) -> is_error s = false ->
  exists p t dsl more q before, contents s = t :: dsl :: more /\
    (t = L "Created new file '" ++ p ++ L "' and added entity." \/ t = L "Added entity to existing file '" ++ p ++ L "'.") /\
    resolve (c_links c) d' (named c p) = At q /\ node_at d' q = Some (File (before ++ dsl)) /\
    (forall f, a_file a = Some f -> p = f) /\ (a_file a = None -> p = L "generated/" ++ a_type a ++ L ".firm").
Proof.
  intros se c ae w d st a d' st' s RI FW H E. destruct (add_same se c ae d st a d' st' _ H) as (x & Ad & K).
  assert (K' : exists e more, append_block c d (target_of c a) (generate_dsl (c_env c) default_options [e]) = (d', true) /\
      s = {| is_error := false; contents := added_text a (negb (file_exists c d (target_of c a))) :: generate_dsl (c_env c) default_options [e] :: more |}).
  { destruct x; [| |destruct K as (t & [= ->]); discriminate|destruct K as (t & [= ->]); discriminate|discriminate].
    - destruct K as (e & more & _ & AB & [= ->] & _). eauto.
    - destruct K as (e & more & _ & AB & [= ->] & _). eauto. }
  clear K. destruct K' as (e & more & AB & ->). cbn [contents].
  destruct (created_spec c d (target_of c a) _ d' (proj1 RI) (target_slashless c a (proj1 (proj2 RI))) AB) as (q & old & Rq & Nq & _).
  assert (P : target_of c a = named c (add_path a) /\ (a_file a = None -> add_path a = L "generated/" ++ a_type a ++ L ".firm")).
  { destruct (a_file a) as [f|] eqn:AF.
    - unfold target_of, add_path. rewrite AF. split; [reflexivity|discriminate].
    - destruct (FW eq_refl) as (F1 & F2 & F3). destruct (C44_default_file c a AF F1 F2 F3) as [T _].
      assert (W : add_path a = L "generated/" ++ a_type a ++ L ".firm").
      { unfold target_of in T. rewrite AF in T. unfold add_path. rewrite AF. destruct (a_type a) as [|h t] eqn:AT; [congruence|].
        assert (Q : match h :: t with "/"%char :: _ => path_text (with_firm (path_of (h :: t))) = path_text [L "generated"; (h :: t) ++ L ".firm"] | _ => with_firm (L "generated" :: path_of (h :: t)) = [L "generated"; (h :: t) ++ L ".firm"] end).
        { destruct (Ascii.ascii_dec h "/") as [->|Nc]; [destruct F2; left; reflexivity|]. destruct h as [[] [] [] [] [] [] [] []]; try (apply app_inv_head in T; exact T). congruence. }
        change (L "generated/" ++ (h :: t) ++ L ".firm") with (path_text [L "generated"; (h :: t) ++ L ".firm"]). clear T.
        destruct h as [[] [] [] [] [] [] [] []]; first [exact (f_equal path_text Q)|exact Q]. }
      split; [|intros _; exact W]. rewrite T, W. unfold named. change (L "generated/" ++ a_type a ++ L ".firm") with (path_text [L "generated"; a_type a ++ L ".firm"]).
      assert (SL : slashless [L "generated"; a_type a ++ L ".firm"]).
      { repeat constructor; [vm_compute; intuition discriminate|]. intros X. apply in_app_or in X as [X|X]; [exact (F2 X)|vm_compute in X; intuition discriminate]. }
      destruct (L_Cli.path_text_of _ SL) as [X|[X _]]; [|discriminate X].
      change (join_path (c_ws c) (path_text [L "generated"; a_type a ++ L ".firm"])) with (c_ws c ++ path_of (path_text [L "generated"; a_type a ++ L ".firm"])). rewrite X. reflexivity. }
  destruct P as [P1 P2]. exists (add_path a). do 3 eexists. exists q. eexists. split; [reflexivity|]. split; [|split; [rewrite <- P1; exact Rq|split; [exact Nq|split; [|exact P2]]]].
  - destruct (file_exists c d (target_of c a)); cbn [negb]; unfold added_text; [right|left]; reflexivity.
  - intros f F. unfold add_path. rewrite F. reflexivity.
Qed.
Print Assumptions C86_add_names_the_file.
Example C86_reading_case :
  tell_search c0 d_deep (match rebuild c0 d_deep with Ok st => st | _ => st0 end) (L "J") false =
    says (L "a.firm:" ++ [LF] ++ L "  1:  john" ++ [LF; LF] ++ L "x/b.firm:" ++ [LF] ++ L "  1:  jim" ++ [LF; LF] ++ L "x/c.firm:" ++ [LF] ++ L "  1:  jane") /\
  tell_search c0 d0 st0 [] false = fails (L "Search query cannot be empty.") /\ tell_search c0 d0 st0 (L "zz") false = says (L "No matches found for 'zz'.") /\
  tell_tree st0 = says (L "a.firm" ++ [LF] ++ L "b.firm" ++ [LF] ++ L "s.firm").
Proof. vm_compute. auto. Qed.
Example C86_add_names_case : runs_in c1 d2 w0 /\ file_word (a_type add_jane) /\
  exists d' st' dsl more, tell_add se_none c1 ae0 d2 st2 add_jane =
    (d', st', Some {| is_error := false; contents := L "Created new file 'generated/person.firm' and added entity." :: dsl :: more |}).
Proof.
  split; [exact d2_runs|]. split; [split; [discriminate|]; split; vm_compute; intuition discriminate|]. do 4 eexists. vm_compute. reflexivity.
Qed.
