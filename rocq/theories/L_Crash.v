(** Crashes. *)
From Coq Require Import Lia Permutation.
From Verif Require Import M_Server S_Dsl L_Str L_Text L_DslStr L_Workspace S_Crash.
From Verif Require Import M_Fs.
Close Scope Z_scope.

Lemma obind_panic_inv E A B (o : outcome E A) (k : A -> outcome E B) : obind o k = Panic -> o = Panic \/ exists a, o = Ok a /\ k a = Panic.
Proof. destruct o as [a|e|]; cbn [obind]; intros H; [right; eauto|discriminate|left; reflexivity]. Qed.
Lemma threes_S n : threes (S n) = q3 ++ threes n. Proof. reflexivity. Qed.
Lemma threes_snoc n : threes n ++ q3 = q3 ++ threes n.
Proof. induction n as [|n IH]; [reflexivity|]. rewrite threes_S, <- app_assoc, IH. reflexivity. Qed.
Lemma rev_threes n : rev (threes n) = threes n.
Proof.
  induction n as [|n IH]; [reflexivity|]. rewrite threes_S, rev_app_distr, IH. change (rev q3) with q3. apply threes_snoc.
Qed.
Lemma strip_threes n s : length s <= n -> exists m, s = threes m ++ strip_pat n q3 s /\ forall r, strip_pat n q3 s <> q3 ++ r.
Proof.
  revert s. induction n as [|n IH]; intros s H.
  - destruct s; [|cbn in H; lia]. exists 0. split; [reflexivity|]. intros r. discriminate.
  - cbn [strip_pat]. destruct (starts_with s q3) eqn:E.
    + apply starts_with_spec in E as (r & ->). change (skipn (length q3) (q3 ++ r)) with r.
      destruct (IH r) as (m & M & N); [cbn in H; lia|]. exists (S m). split; [|exact N]. rewrite threes_S, <- app_assoc, <- M. reflexivity.
    + exists 0. split; [reflexivity|]. intros r X. assert (starts_with s q3 = true) by (apply starts_with_spec; eauto). congruence.
Qed.
Lemma threes_unique m r m' r' : threes m ++ r = threes m' ++ r' -> (forall t, r <> q3 ++ t) -> (forall t, r' <> q3 ++ t) -> r = r'.
Proof.
  revert m'. induction m as [|m IH]; intros [|m'] E N N'; rewrite ?threes_S, <- ?app_assoc in E.
  - exact E.
  - exfalso. exact (N _ E).
  - exfalso. exact (N' _ (eq_sym E)).
  - apply app_inv_head in E. exact (IH m' E N N').
Qed.
Lemma stripped_body raw : exists m n, let body := trim_end_pat q3 (trim_start_pat q3 raw) in
  raw = threes m ++ body ++ threes n /\ (forall r, body ++ threes n <> q3 ++ r) /\ (forall r, body <> r ++ q3).
Proof.
  unfold trim_end_pat, trim_start_pat. set (r1 := strip_pat (length raw) q3 raw).
  destruct (strip_threes (length raw) raw (le_n _)) as (m & M & N). fold r1 in M, N.
  destruct (strip_threes (length (rev r1)) (rev r1) (le_n _)) as (n & M2 & N2). change (rev q3) with q3.
  set (r2 := strip_pat (length (rev r1)) q3 (rev r1)) in *.
  assert (E : r1 = rev r2 ++ threes n) by (rewrite <- (rev_involutive r1), M2, rev_app_distr, rev_threes; reflexivity).
  exists m, n. cbv zeta. split; [rewrite <- E; exact M|]. split; [rewrite <- E; exact N|].
  intros r X. apply (N2 (rev r)). rewrite <- (rev_involutive r2), X, rev_app_distr. reflexivity.
Qed.
Lemma stripped_unique raw body : multi_line raw body -> trim_end_pat q3 (trim_start_pat q3 raw) = body.
Proof.
  intros (_ & _ & m & n & E & N1 & N2). destruct (stripped_body raw) as (m' & n' & E' & N1' & N2').
  set (b := trim_end_pat q3 (trim_start_pat q3 raw)) in *. rewrite E in E'. apply threes_unique in E'; [|exact N1|exact N1'].
  apply (f_equal (@rev ascii)) in E'. rewrite !rev_app_distr, !rev_threes in E'. apply threes_unique in E'.
  - rewrite <- (rev_involutive b), <- (rev_involutive body), E'. reflexivity.
  - intros t X. apply (N2 (rev t)). rewrite <- (rev_involutive body), X, rev_app_distr. reflexivity.
  - intros t X. apply (N2' (rev t)). rewrite <- (rev_involutive b), X, rev_app_distr. reflexivity.
Qed.
Lemma string_crash raw : parse_string raw = Panic <-> cut_string raw.
Proof.
  unfold parse_string. destruct (starts_with raw q3) eqn:S; [destruct (ends_with raw q3) eqn:E|]; cbn [andb].
  2,3: split; [discriminate|]; intros (body & k & l & ((r1 & X1) & (r2 & X2) & _) & _);
       (assert (starts_with raw q3 = true) by (apply starts_with_spec; eauto)); (assert (ends_with raw q3 = true) by (apply ends_with_spec; eauto)); congruence.
  unfold trim_common_indentation. split.
  - intros H. destruct (stripped_body raw) as (m & n & B). cbv zeta in B. set (body := trim_end_pat q3 (trim_start_pat q3 raw)) in *.
    exists body, (min_indent (lines body)).
    destruct (omap_dedent (min_indent (lines body)) (lines body)) as [[(l & Hl & C) _]|[_ (ds & X & _)]].
    + exists l. split; [|split; [apply common_min; reflexivity|split; assumption]].
      split; [apply starts_with_spec; exact S|]. split; [apply ends_with_spec; exact E|]. exists m, n. exact B.
    + rewrite X in H. discriminate.
  - intros (body & k & l & M & C & Hl & X). rewrite (stripped_unique raw body M). apply common_min in C. rewrite C.
    destruct (omap_dedent k (lines body)) as [[_ ->]|[N _]]; [reflexivity|]. exfalso. exact (N l Hl X).
Qed.
Lemma out_of_i32 h : in_i32 (h * 3600) = false <-> (h * 3600 < - 2 ^ 31 \/ 2 ^ 31 <= h * 3600)%Z.
Proof.
  unfold in_i32. destruct (Z.leb_spec (- 2 ^ 31) (h * 3600)), (Z.ltb_spec (h * 3600) (2 ^ 31)); cbn [andb]; split; intros H1; try discriminate; try reflexivity; lia.
Qed.
Lemma offset_crash env z : parse_utc_offset env z = Panic <->
  overflow_checks env = true /\ exists h, parse_i32 z = Some h /\ in_i32 (h * 3600) = false.
Proof.
  unfold parse_utc_offset. destruct z as [|a z].
  - split; [discriminate|]. intros (_ & h & X & _). discriminate.
  - destruct (parse_i32 (a :: z)) as [h|] eqn:E.
    + unfold mul_i32. destruct (in_i32 (h * 3600)) eqn:I; cbn [obind].
      * split; [unfold of_option; destruct (east_opt _); discriminate|]. intros (_ & h' & X & Y). congruence.
      * destruct (overflow_checks env); cbn [obind]; [|unfold of_option; destruct (east_opt _)]; (split; [try discriminate; eauto|intros (X & _); try discriminate; reflexivity]).
    + split; [discriminate|]. intros (_ & h & X & _). congruence.
Qed.
Lemma datetime_crash env raw : parse_datetime env raw = Panic <-> overflowing_zone env raw.
Proof.
  unfold parse_datetime, overflowing_zone. split.
  - destruct (split_str (L " at ") raw) as [|date [|rest [|x y]]]; try discriminate.
    destruct (parse_naive_date date) as [day|] eqn:D; [|discriminate]. intros H. apply obind_panic_inv in H as [H|((t & off) & _ & H)].
    2: { destruct (parse_hm t); discriminate. }
    destruct (contains rest (L " UTC")); [|discriminate].
    destruct (split_str (L " UTC") rest) as [|t [|z more]] eqn:E.
    + exfalso. exact (split_go_not_nil _ _ _ E).
    + discriminate.
    + apply obind_panic_inv in H as [H|(o & _ & H)]; [|discriminate]. apply offset_crash in H as (O & h & P & I).
      split; [exact O|]. exists date, day, rest, t, z, more, h. repeat (split; [first [assumption|reflexivity]|]). apply out_of_i32, I.
  - intros (O & date & day & rest & t & z & more & h & E & D & F & P & I). rewrite E, D.
    assert (C : contains rest (L " UTC") = true).
    { destruct (contains rest (L " UTC")) eqn:C; [reflexivity|]. rewrite split_str_free in F by (try exact C; discriminate). discriminate. }
    rewrite C, F. assert (X : parse_utc_offset env z = Panic) by (apply offset_crash; split; [exact O|]; exists h; split; [exact P|apply out_of_i32, I]).
    rewrite X. reflexivity.
Qed.
Lemma omap_panic E A B (g : A -> outcome E B) l : omap g l = Panic <->
  exists good bad rest, l = good ++ bad :: rest /\ (forall n, In n good -> exists v, g n = Ok v) /\ g bad = Panic.
Proof.
  induction l as [|a l IH]; cbn [omap].
  - split; [discriminate|]. intros (good & bad & rest & X & _). destruct good; discriminate.
  - destruct (g a) as [b|e|] eqn:G; cbn [obind].
    + split.
      * intros H. destruct (omap g l) as [r|e|]; try discriminate. destruct (proj1 IH eq_refl) as (good & bad & rest & -> & X & Y).
        exists (a :: good), bad, rest. split; [reflexivity|]. split; [|exact Y]. intros n [<-|N]; eauto.
      * intros (good & bad & rest & X & Y & Z). destruct good as [|g0 good]; injection X as -> ->; [congruence|].
        rewrite (proj2 IH); [reflexivity|]. exists good, bad, rest. split; [reflexivity|]. split; [|exact Z]. intros n N. apply Y. right. exact N.
    + split; [discriminate|]. intros (good & bad & rest & X & Y & Z). destruct good as [|g0 good]; injection X as -> ->; [congruence|].
      destruct (Y g0 (or_introl eq_refl)). congruence.
    + split; [intros _|reflexivity]. exists [], a, l. split; [reflexivity|]. split; [intros n []|exact G].
Qed.
Lemma vnode_ind' (P : vnode -> Prop) : (forall k raw items, Forall P items -> P (VNode k raw items)) -> forall n, P n.
Proof.
  intros H. fix IH 1. intros [k raw items]. apply H. induction items as [|n items J]; constructor; [apply IH|exact J].
Qed.
Lemma list_no_panic vs : parse_list_from_vec vs <> Panic.
Proof.
  unfold parse_list_from_vec. repeat match goal with |- context [match ?x with _ => _ end] => destruct x | |- context [if ?x then _ else _] => destruct x end; discriminate.
Qed.
Lemma value_crash env path n : from_node env path n = Panic <-> crashing env path n.
Proof.
  induction n as [k raw items IH] using vnode_ind'. cbn [from_node]. destruct k as [k|].
  2: { split; [discriminate|]. intros H. inversion H. }
  destruct k; try (split; [intros H; exfalso; revert H|intros H; inversion H; fail]).
  - unfold parse_boolean. repeat match goal with |- context [if ?x then _ else _] => destruct x end; discriminate.
  - rewrite string_crash. split; [apply crashing_string|]. intros H. inversion H. assumption.
  - unfold parse_number. repeat match goal with |- context [if ?x then _ else _] => destruct x | |- context [match ?x with _ => _ end] => destruct x end; discriminate.
  - unfold parse_currency. repeat match goal with |- context [if ?x then _ else _] => destruct x | |- context [match ?x with _ => _ end] => destruct x end; discriminate.
  - unfold parse_reference. repeat match goal with |- context [if ?x then _ else _] => destruct x | |- context [match ?x with _ => _ end] => destruct x end; discriminate.
  - rewrite Forall_forall in IH. split.
    + intros H. apply obind_panic_inv in H as [H|(vs & _ & H)]; [|destruct (list_no_panic _ H)].
      apply omap_panic in H as (good & bad & rest & -> & X & Y). apply crashing_item; [exact X|]. apply IH; [|exact Y]. apply in_app_iff. right. left. reflexivity.
    + intros H. inversion H as [| |r good bad rest X Y]; subst.
      assert (Z : omap (from_node env path) (good ++ bad :: rest) = Panic).
      { apply omap_panic. exists good, bad, rest. split; [reflexivity|]. split; [exact X|]. apply IH; [|exact Y]. apply in_app_iff. right. left. reflexivity. }
      rewrite Z. reflexivity.
  - rewrite datetime_crash. split; [apply crashing_zone|]. intros H. inversion H. assumption.
  - unfold parse_date. repeat match goal with |- context [if ?x then _ else _] => destruct x | |- context [match ?x with _ => _ end] => destruct x end; discriminate.
  - unfold parse_path. cbv zeta. discriminate.
  - discriminate.
  - discriminate.
Qed.
Lemma field_crash env path f : field_value env path f = Panic -> exists n, fn_value f = Some n /\ crashing env path n.
Proof. unfold field_value. destruct (fn_value f) as [n|]; [|discriminate]. intros H. exists n. split; [reflexivity|apply value_crash, H]. Qed.
Lemma omap_err_panic E F A (g : E -> F) (o : outcome E A) : omap_err g o = Panic -> o = Panic.
Proof. destruct o; cbn; congruence. Qed.
Lemma of_option_panic E A (e : E) (o : option A) : of_option e o <> Panic.
Proof. destruct o; discriminate. Qed.
Lemma entity_crash env path e : to_entity env path e = Panic -> exists f n, In f (en_fields e) /\ fn_value f = Some n /\ crashing env path n.
Proof.
  unfold to_entity. intros H. apply obind_panic_inv in H as [H|(t & _ & H)]; [destruct (of_option_panic _ _ _ _ H)|].
  apply obind_panic_inv in H as [H|(i & _ & H)]; [destruct (of_option_panic _ _ _ _ H)|].
  apply obind_panic_inv in H as [H|(fs & _ & H)]; [|discriminate].
  apply omap_panic in H as (good & f & rest & E & _ & H). unfold convert_field in H.
  apply obind_panic_inv in H as [H|(id & _ & H)]; [destruct (of_option_panic _ _ _ _ H)|].
  apply obind_panic_inv in H as [H|(v & _ & H)]; [|discriminate]. apply omap_err_panic, field_crash in H as (n & N & C).
  exists f, n. split; [|split; assumption]. change field_id with str in *. rewrite E. apply in_app_iff. right. left. reflexivity.
Qed.
Lemma find_field_in b name f : find_field_by_name b name = Some f -> exists fs, nb_body b = Some fs /\ In f fs.
Proof.
  unfold find_field_by_name. destruct (nb_body b) as [fs|]; [|discriminate]. intros H. apply find_some in H as (I & _). eauto.
Qed.
Lemma block_crash env path k b : convert_schema_field env path k b = Panic ->
  exists fs f n, nb_body b = Some fs /\ In f fs /\ fn_value f = Some n /\ crashing env path n.
Proof.
  assert (T : forall name, text_of env path b name = Panic -> exists fs f n, nb_body b = Some fs /\ In f fs /\ fn_value f = Some n /\ crashing env path n).
  { intros name H. unfold text_of in H. destruct (find_field_by_name b name) as [f|] eqn:F; cbn [of_option obind] in H; [|discriminate].
    apply find_field_in in F as (fs & B & I). apply obind_panic_inv in H as [H|(v & _ & H)]; [|destruct v; discriminate].
    apply field_crash in H as (n & N & C). exists fs, f, n. auto. }
  unfold convert_schema_field. intros H.
  apply obind_panic_inv in H as [H|(name & _ & H)]; [apply omap_err_panic, T in H; exact H|].
  apply obind_panic_inv in H as [H|(ts & _ & H)]; [apply omap_err_panic, T in H; exact H|].
  apply obind_panic_inv in H as [H|(t & _ & H)].
  { exfalso. revert H. unfold convert_field_type. repeat match goal with |- context [if ?x then _ else _] => destruct x end; discriminate. }
  apply obind_panic_inv in H as [H|(req & _ & H)].
  { apply omap_err_panic in H. unfold required_of in H. destruct (find_field_by_name b (L "required")) as [f|] eqn:F; [|discriminate].
    apply find_field_in in F as (fs & B & I). destruct (field_value env path f) as [v|e|] eqn:V; [destruct v; discriminate|discriminate|].
    apply field_crash in V as (n & N & C). exists fs, f, n. auto. }
  destruct (field_type_eqb t TEnum); [|discriminate]. apply obind_panic_inv in H as [H|(al & _ & H)]; [|destruct al; discriminate].
  apply omap_err_panic in H. unfold allowed_of in H. destruct (find_field_by_name b (L "allowed_values")) as [f|] eqn:F; [|discriminate].
  apply find_field_in in F as (fs & B & I). destruct (field_value env path f) as [v|e|] eqn:V; [destruct v; discriminate|discriminate|].
  apply field_crash in V as (n & N & C). exists fs, f, n. auto.
Qed.
Lemma schema_crash env path s : to_schema env path s = Panic ->
  exists b fs f n, In b (sn_blocks s) /\ nb_body b = Some fs /\ In f fs /\ fn_value f = Some n /\ crashing env path n.
Proof.
  unfold to_schema. intros H. apply obind_panic_inv in H as [H|(t & _ & H)]; [destruct (of_option_panic _ _ _ _ H)|].
  assert (G : forall bs k s0, convert_schema_fields env path k bs s0 = Panic -> exists b fs f n, In b bs /\ nb_body b = Some fs /\ In f fs /\ fn_value f = Some n /\ crashing env path n).
  { intros bs. induction bs as [|b bs IH]; intros k s0 X; cbn [convert_schema_fields] in X; [discriminate|].
    apply obind_panic_inv in X as [X|((id & fsc) & _ & X)].
    - apply block_crash in X as (fs & f & n & B & R). exists b, fs, f, n. split; [left; reflexivity|auto].
    - apply IH in X as (b' & fs & f & n & I & R). exists b', fs, f, n. split; [right; exact I|exact R]. }
  apply G in H as (b & fs & f & n & I & R). exists b, fs, f, n. split; [|exact R]. unfold schema_fields in I. apply filter_In in I as [I _]. exact I.
Qed.

(** ** Loading *)
Definition loaded (c : ctx) (d : fs) (e : str * wfile) : Prop := exists rel s ps, read_text (c_links c) d (c_ws c ++ rel) = Some s /\ c_parse c s = Some ps /\
  e = (path_text (c_ws c ++ rel), {| wf_rel := path_text rel; wf_schemas := ps_schemas ps; wf_entities := ps_entities ps |}).
Lemma load_file_loaded c d rel e : load_file c d rel = Ok e -> loaded c d e.
Proof.
  unfold load_file. destruct (read_text (c_links c) d (c_ws c ++ rel)) as [s|] eqn:R; [|discriminate].
  destruct (c_parse c s) as [ps|] eqn:P; [|discriminate]. intros [= <-]. exists rel, s, ps. auto.
Qed.
Lemma omap_ok_in E A B (g : A -> outcome E B) l r b : omap g l = Ok r -> In b r -> exists a, In a l /\ g a = Ok b.
Proof.
  revert r. induction l as [|a l IH]; cbn [omap]; intros r; [intros [= <-] []|].
  destruct (g a) as [x|e|] eqn:G; cbn [obind]; try discriminate. destruct (omap g l) as [r'|e|]; cbn [obind]; try discriminate. intros [= <-] [<-|I].
  - exists a. split; [left; reflexivity|exact G].
  - destruct (IH r' eq_refl I) as (a' & J & K). exists a'. split; [right; exact J|exact K].
Qed.
Lemma load_dir_loaded c d n : forall rel fs e, load_dir n c d rel = Ok fs -> In e fs -> loaded c d e.
Proof.
  induction n as [|n IH]; intros rel fs e H I; cbn [load_dir] in H; [injection H as <-; destruct I|].
  destruct (read_dir (c_links c) d (c_ws c ++ rel)) as [names|]; [|discriminate].
  match type of H with obind (omap ?g names) _ = _ => destruct (omap g names) as [parts|x|] eqn:O end; cbn [obind] in H; try discriminate.
  injection H as <-. apply in_concat in I as (part & IP & IE). destruct (omap_ok_in _ _ _ _ _ _ _ O IP) as (name & _ & G). cbv beta in G.
  destruct (stat (c_links c) d (c_ws c ++ rel ++ [name])) as [[s| |t]|]; [|eapply IH; eassumption| |].
  - destruct (is_firm_file name); [|injection G as <-; destruct IE].
    destruct (load_file c d (rel ++ [name])) as [f|x|] eqn:F; cbn [obind] in G; try discriminate. injection G as <-. destruct IE as [<-|[]].
    eapply load_file_loaded. exact F.
  - injection G as <-. destruct IE.
  - injection G as <-. destruct IE.
Qed.
Lemma load_dir_no_panic c d n : forall rel, load_dir n c d rel <> Panic.
Proof.
  induction n as [|n IH]; intros rel; cbn [load_dir]; [discriminate|]. destruct (read_dir (c_links c) d (c_ws c ++ rel)) as [names|]; [|discriminate].
  intros H. apply obind_panic_inv in H as [H|(l & _ & H)]; [|discriminate]. apply omap_panic in H as (_ & name & _ & _ & _ & H). cbv beta in H.
  destruct (stat (c_links c) d (c_ws c ++ rel ++ [name])) as [[s| |t]|]; try discriminate; [|exact (IH _ H)].
  destruct (is_firm_file name); [|discriminate]. apply obind_panic_inv in H as [H|(f & _ & H)]; [|discriminate].
  unfold load_file in H. destruct (read_text _ _ _); [|discriminate]. destruct (c_parse c s0); discriminate.
Qed.
Lemma workspace_crash c d fs : (forall l, Permutation (c_files c l) l) -> load_directory c d = Ok fs ->
  build_workspace (c_env c) (c_fields c) (c_schemas c) (c_files c fs) = Panic -> crash_on_disk c d.
Proof.
  intros P LD H. apply build_panics in H as (p & f & I & H). apply (Permutation_in _ (P fs)) in I.
  destruct (load_dir_loaded _ _ _ _ _ _ LD I) as (rel & s & ps & R & PS & E). injection E as -> ->. cbn [wf_schemas wf_entities wf_rel] in H.
  destruct H as [(n & N & H)|(n & N & H)].
  - apply schema_crash in H as (b & fs0 & fd & v & H1 & H2 & H3 & H4 & H5). exists rel, s, ps, v. split; [exact R|]. split; [exact PS|]. split; [|exact H5].
    right. exists n, b, fs0, fd. auto.
  - apply entity_crash in H as (fd & v & H1 & H2 & H3). exists rel, s, ps, v. split; [exact R|]. split; [exact PS|]. split; [|exact H3].
    left. exists n, fd. auto.
Qed.
Lemma build_crash c d : (forall l, Permutation (c_files c l) l) -> rebuild c d = Panic -> crash_on_disk c d.
Proof.
  intros P. unfold rebuild. intros H. apply obind_panic_inv in H as [H|(fs & L1 & H)].
  - apply omap_err_panic in H. destruct (load_dir_no_panic _ _ _ _ H).
  - destruct (load_directory c d) as [fs'|x|] eqn:LD; cbn [omap_err] in L1; try discriminate. injection L1 as ->.
    apply obind_panic_inv in H as [H|(bg & _ & H)]; [|discriminate]. apply (workspace_crash c d fs P LD).
    unfold load_graph in H. destruct (build_workspace (c_env c) (c_fields c) (c_schemas c) (c_files c fs)); cbn [omap_err obind] in H; [|discriminate|reflexivity].
    exfalso. revert H. repeat match goal with |- context [match ?x with _ => _ end] => destruct x end; discriminate.
Qed.

(** ** Requests *)
Lemma cut_display old : cut_for_display old = false -> cut_inside 100 old.
Proof.
  unfold cut_for_display. destruct (Nat.ltb_spec 100 (length old)) as [H|H]; [|discriminate]. unfold slice_from, cut_inside.
  destruct (skipn 100 old) as [|c r] eqn:E; [discriminate|]. destruct (is_cont c) eqn:C; [|discriminate]. intros _. split; [lia|]. exists c, r. auto.
Qed.
Lemma write_crash c d st rel content force d' st' : (forall l, Permutation (c_files c l) l) ->
  write_source c d st rel content force = (d', st', Crashed) -> st' = st /\ crash_on_disk c d'.
Proof.
  intros P. unfold write_source. destruct (validate_and_write c d rel content) as [d1 [o|]]; [|discriminate]. unfold finish_write.
  destruct (rebuild c d1) as [st1|e|] eqn:B; [discriminate| |].
  - destruct force; [discriminate|]. destruct (rollback_write c d1 rel o). discriminate.
  - intros [= <- <-]. split; [reflexivity|]. apply build_crash; assumption.
Qed.
Lemma request_crash c d st r d' st' : (forall l, Permutation (c_files c l) l) -> handle c d st r = (d', st', Crashed) ->
  st' = st /\ (crash_on_disk c d' \/ d' = d /\ exists rel old new all force, r = Replace rel old new all force /\ cut_inside 100 old).
Proof.
  intros P. destruct r as [rel content force|rel old new all force|rel force|]; cbn [handle]; intros H.
  - apply write_crash in H as [A B]; auto.
  - unfold replace_source in H. destruct (replace_in_file c d rel old new all) as [| |content k] eqn:R; [discriminate| |].
    + injection H as <- <-. split; [reflexivity|]. right. split; [reflexivity|]. exists rel, old, new, all, force. split; [reflexivity|]. apply cut_display.
      unfold replace_in_file in R. destruct old as [|o0 old0]; [discriminate|]. remember (o0 :: old0) as old. clear Heqold.
      destruct (read_source_file c d rel) as [s|e|]; try discriminate. unfold replace_text in R.
      destruct (cut_for_display old); [|reflexivity]. destruct (count_matches old s =? 0); [discriminate|].
      destruct ((1 <? count_matches old s) && negb all); discriminate.
    + apply write_crash in H as [A B]; auto.
  - unfold delete_source in H. destruct (delete_file c d rel) as [[d1 s]|]; [|discriminate].
    destruct (rebuild c d1) as [st1|e|] eqn:B; [discriminate| |].
    + destruct force; [discriminate|]. destruct (rollback_delete c d1 rel s). discriminate.
    + injection H as <- <-. split; [reflexivity|]. left. apply build_crash; assumption.
  - unfold build_tool in H. destruct (rebuild c d) as [st1|e|] eqn:B; try discriminate. injection H as <- <-. split; [reflexivity|].
    left. apply build_crash; assumption.
Qed.

(** ** Texts without wide white space *)
Lemma crashing_part env path n : crashing env path n -> exists m, part_of n m /\ (cut_string (text_of_node m) \/ overflow_checks env = true).
Proof.
  induction 1 as [raw items C|raw items (O & _)|raw good bad rest G C (m & P & X)].
  - eexists. split; [apply part_self|]. left. exact C.
  - eexists. split; [apply part_self|]. right. exact O.
  - exists m. split; [|exact X]. eapply part_item; [|exact P]. apply in_app_iff. right. left. reflexivity.
Qed.
Lemma strip_cr_part w : exists b, w = strip_cr w ++ b.
Proof.
  induction w as [|c w (b & IH)]; [exists []; reflexivity|]. destruct w as [|c2 w].
  - cbn [strip_cr]. destruct (Ascii.eqb c CR); [exists [c]; reflexivity|exists []; reflexivity].
  - exists b. change (strip_cr (c :: c2 :: w)) with (c :: strip_cr (c2 :: w)). cbn [app]. now rewrite <- IH.
Qed.
Lemma line_infix s l : In l (lines s) -> exists a b, s = a ++ l ++ b.
Proof.
  intros H. unfold lines in H. pose proof (join_split_char LF s) as J. revert J H. generalize (split_char LF s) as ws. intros ws <-.
  induction ws as [|w ws IH]; [intros []|]. destruct ws as [|w2 ws].
  - cbn [finish_lines join]. destruct w; [intros []|]. intros [<-|[]]. exists [], []. cbn. now rewrite app_nil_r.
  - cbn [finish_lines]. change (join [LF] (w :: w2 :: ws)) with (w ++ [LF] ++ join [LF] (w2 :: ws)). intros [<-|H].
    + destruct (strip_cr_part w) as (b & E). exists [], (b ++ [LF] ++ join [LF] (w2 :: ws)). rewrite E at 1. cbn [app]. now rewrite <- app_assoc.
    + destruct (IH H) as (a & b & E). exists (w ++ [LF] ++ a), b. rewrite E, <- !app_assoc. reflexivity.
Qed.
Lemma utf8_q3 s : utf8 (q3 ++ s) -> utf8 s.
Proof. intros H. do 3 (apply utf8_tail in H; [|reflexivity]). exact H. Qed.
Lemma utf8_threes m s : utf8 (threes m ++ s) -> utf8 s.
Proof. induction m as [|m IH]; [auto|]. rewrite threes_S, <- app_assoc. intros H. apply IH, utf8_q3, H. Qed.
Lemma utf8_body s n : utf8 (s ++ threes n) -> utf8 s.
Proof.
  destruct n as [|n]; [now rewrite app_nil_r|]. rewrite threes_S. change (q3 ++ threes n) with (DQ :: [DQ; DQ] ++ threes n). intros H.
  apply utf8_split in H as [H _]; [exact H|reflexivity].
Qed.
Lemma plain_infix a s b : plain_white (a ++ s ++ b) -> plain_white s.
Proof. intros H w x y W ->. apply (H w (a ++ x) (y ++ b) W). now rewrite <- !app_assoc. Qed.
Lemma white_one : forall w, In w ws_chars -> length w = 1 -> Forall (fun c => (code c < 128)%N) w.
Proof.
  assert (F : Forall (fun w => length w = 1 -> Forall (fun c => (code c < 128)%N) w) ws_chars).
  { unfold ws_chars. cbn [map]. repeat constructor; intros; try discriminate; repeat constructor. }
  rewrite Forall_forall in F. exact F.
Qed.
Lemma plain_simple l : plain_white l -> simple_indent l.
Proof.
  intros P. destruct (indentation_exists l) as (w & r & E & _ & (ws & W & ->) & N). exists (concat ws), r.
  split; [exact E|]. split; [exists ws; auto|]. split; [|exact N].
  rewrite Forall_forall in *. intros c I. apply in_concat in I as (x & X & I).
  assert (L1 : length x = 1).
  { apply in_split in X as (p & q & ->). apply (P x (concat p) (concat q ++ r)); [apply W, in_app_iff; right; left; reflexivity|].
    rewrite E, concat_app. cbn [concat]. now rewrite <- !app_assoc. }
  pose proof (white_one x (W x X) L1) as F. rewrite Forall_forall in F. apply F, I.
Qed.
Lemma plain_no_cut raw : utf8 raw -> plain_white raw -> ~ cut_string raw.
Proof.
  intros U P (body & k & l & (_ & _ & m & n & E & _) & C & I & X).
  assert (UB : utf8 body) by (rewrite E in U; apply utf8_threes, utf8_body in U; exact U).
  destruct (line_infix body l I) as (a & b & EB).
  refine (simple_no_cut _ _ _ C (utf8_lines _ _ UB I) I (plain_simple l _) X).
  rewrite E, EB in P. apply plain_infix in P. apply (plain_infix a l b).
  intros w x y W Z. apply (P w x (y ++ []) W). rewrite Z, ?app_nil_r. reflexivity.
Qed.
Lemma plain_disk c d : quotes_text (c_parse c) -> overflow_checks (c_env c) = false ->
  (forall rel s, read_text (c_links c) d (c_ws c ++ rel) = Some s -> plain_white s) -> ~ crash_on_disk c d.
Proof.
  intros Q O P (rel & s & ps & n & R & PS & V & C). apply crashing_part in C as (m & M & [C|C]); [|congruence].
  destruct (Q s ps n m PS V M) as (U & a & b & E). refine (plain_no_cut _ U _ C). specialize (P rel s R). rewrite E in P. apply plain_infix in P. exact P.
Qed.

(** ** ASCII *)
Lemma ascii_plain s : all_ascii s -> plain_white s.
Proof.
  intros A w a b W ->. unfold all_ascii in A. rewrite !Forall_app in A. destruct A as (_ & A & _). revert A.
  assert (F : Forall (fun w => Forall (fun c => (code c < 128)%N) w -> length w = 1) ws_chars).
  { unfold ws_chars. cbn [map]. repeat constructor; intros H; inversion H as [|c0 l0 H1 H2]; subst; try reflexivity; exfalso; vm_compute in H1; discriminate. }
  rewrite Forall_forall in F. exact (F w W).
Qed.
Lemma ascii_no_cut k s : all_ascii s -> ~ cut_inside k s.
Proof.
  intros A (_ & c & r & E & C). unfold all_ascii in A. rewrite <- (firstn_skipn k s), E in A. apply Forall_app in A as (_ & A). inversion A as [|c0 l0 H1 H2]; subst.
  unfold is_cont in C. rewrite andb_true_iff, !N.leb_le in C. lia.
Qed.
Lemma entry_in d p n : entry_at d p = Some n -> exists q, In (q, n) d.
Proof.
  induction d as [|[q m] d IH]; cbn [entry_at]; [discriminate|]. destruct (place_eqb q p).
  - intros [= ->]. exists q. left. reflexivity.
  - intros H. destruct (IH H) as (q' & I). exists q'. right. exact I.
Qed.
Lemma ascii_node d p s : files_ascii d -> node_at d p = Some (File s) -> all_ascii s.
Proof. intros A H. destruct p as [|x p]; [discriminate|]. apply entry_in in H as (q & I). exact (A q s I). Qed.
Lemma ascii_read links d p s : files_ascii d -> read_text links d p = Some s -> all_ascii s.
Proof.
  intros A. unfold read_text, stat. destruct (resolve links d p) as [q|q| |]; try discriminate.
  destruct (node_at d q) as [[t| |t]|] eqn:N; try discriminate. destruct (is_text t); [|discriminate]. intros [= <-]. eapply ascii_node; eassumption.
Qed.
Lemma ascii_set d p n : files_ascii d -> (forall s, n = File s -> all_ascii s) -> files_ascii (set_node d p n).
Proof.
  intros A N q s. revert A. induction d as [|[r m] d IH]; cbn [set_node]; intros A.
  - intros [[= <- E]|[]]. apply N, E.
  - destruct (place_eqb r p).
    + intros [[= <- E]|I]; [apply N, E|]. apply (A q s). right. exact I.
    + intros [[= <- E]|I]; [apply (A r s); left; congruence|]. apply IH; [|exact I]. intros q' s' I'. apply (A q' s'). right. exact I'.
Qed.
Lemma ascii_unset d p : files_ascii d -> files_ascii (unset_node d p).
Proof. intros A q s I. apply filter_In in I as [I _]. exact (A q s I). Qed.
Lemma ascii_write links d p s d' : files_ascii d -> all_ascii s -> write links d p s = Some d' -> files_ascii d'.
Proof.
  intros A S. unfold write. destruct (resolve links d p) as [q|q| |]; try discriminate.
  - destruct (node_at d q) as [[t| |t]|]; try discriminate. intros [= <-]. apply ascii_set; [exact A|]. intros s' [= <-]. exact S.
  - intros [= <-]. apply ascii_set; [exact A|]. intros s' [= <-]. exact S.
Qed.
Lemma ascii_remove links d p d' : files_ascii d -> remove_file links d p = Some d' -> files_ascii d'.
Proof.
  intros A. unfold remove_file. destruct (last_name p) as [c|]; [|discriminate]. destruct (resolve links d (removelast p)) as [q|q| |]; try discriminate.
  destruct (node_at d q) as [[t| |t]|]; try discriminate. destruct (node_at d (q ++ [c])) as [[t| |t]|]; try discriminate; intros [= <-]; apply ascii_unset, A.
Qed.
Lemma ascii_mkdir links d p d' : files_ascii d -> mkdir links d p = Made d' -> files_ascii d'.
Proof.
  intros A. unfold mkdir. destruct (last_name p) as [c|]; [|discriminate]. destruct (resolve links d (removelast p)) as [q|q| |]; try discriminate.
  destruct (node_at d q) as [[t| |t]|]; try discriminate. destruct (node_at d (q ++ [c])) as [[t| |t]|]; try discriminate. intros [= <-]. apply ascii_set; [exact A|discriminate].
Qed.
Lemma ascii_create links n : forall d p d' b, files_ascii d -> create_dir_all n links d p = (d', b) -> files_ascii d'.
Proof.
  induction n as [|n IH]; intros d p d' b A; cbn [create_dir_all]; [intros [= <- _]; exact A|].
  destruct (mkdir links d p) as [d1| |] eqn:M.
  - intros [= <- _]. eapply ascii_mkdir; eassumption.
  - destruct (parent p) as [q|]; [|intros [= <- _]; exact A]. destruct (create_dir_all n links d q) as [d1 [|]] eqn:C.
    + pose proof (IH _ _ _ _ A C) as A1. destruct (mkdir links d1 p) as [d2| |] eqn:M2; intros [= <- _]; [eapply ascii_mkdir; eassumption|exact A1|exact A1].
    + intros [= <- _]. eapply IH; eassumption.
  - intros [= <- _]. exact A.
Qed.
Lemma ascii_parents c d (o : option path) d' b : files_ascii d ->
  match o with Some q => create_dir_all (S (length q)) (c_links c) d q | None => (d, true) end = (d', b) -> files_ascii d'.
Proof. intros A. destruct o as [q|]; [apply ascii_create, A|intros [= <- _]; exact A]. Qed.
Lemma ascii_write_source c d rel s d' b : files_ascii d -> all_ascii s -> write_source_file c d rel s = (d', b) -> files_ascii d'.
Proof.
  intros A S. unfold write_source_file. destruct (negb _); [intros [= <- _]; exact A|]. destruct (to_absolute_path c d rel) as [p|]; [|intros [= <- _]; exact A].
  match goal with |- match ?x with _ => _ end = _ -> _ => destruct x as [d1 [|]] eqn:P end.
  - apply ascii_parents in P; [|exact A]. destruct (write (c_links c) d1 p s) as [d2|] eqn:W; intros [= <- _]; [eapply ascii_write; eassumption|exact P].
  - apply ascii_parents in P; [|exact A]. intros [= <- _]. exact P.
Qed.
Lemma ascii_split sep s w : all_ascii s -> In w (split_str sep s) -> all_ascii w.
Proof.
  unfold split_str. generalize 0 as k. intros k A. revert k w. induction s as [|c s IH]; intros k w; cbn [split_go].
  - intros [<-|[]]. constructor.
  - inversion A as [|c0 l0 C A']; subst. destruct k as [|k]; [|apply IH; exact A'].
    destruct (starts_with (c :: s) sep).
    + intros [<-|I]; [constructor|]. eapply IH; eassumption.
    + destruct (split_go sep 0 s) as [|x xs] eqn:E.
      * intros [<-|[]]. constructor; [exact C|constructor].
      * intros [<-|I].
        -- constructor; [exact C|]. apply (IH A' 0). rewrite E. left. reflexivity.
        -- apply (IH A' 0). rewrite E. right. exact I.
Qed.
Lemma ascii_join sep ws : all_ascii sep -> (forall w, In w ws -> all_ascii w) -> all_ascii (join sep ws).
Proof.
  intros S. induction ws as [|w ws IH]; intros A; [constructor|]. destruct ws as [|v ws]; cbn [join]; [apply A; left; reflexivity|].
  apply Forall_app. split; [apply A; left; reflexivity|]. apply Forall_app. split; [exact S|]. apply IH. intros x I. apply A. right. exact I.
Qed.
Lemma ascii_replaced content old new all s k : all_ascii content -> all_ascii old -> all_ascii new -> replace_text content old new all = Replaced s k -> all_ascii s.
Proof.
  intros C O N. unfold replace_text. destruct (count_matches old content =? 0); [destruct (cut_for_display old); discriminate|].
  destruct ((1 <? count_matches old content) && negb all); [destruct (cut_for_display old); discriminate|]. intros [= <- _]. destruct all.
  - apply ascii_join; [exact N|]. intros w. apply ascii_split, C.
  - unfold replace_first. pose proof (fun w => ascii_split old content w C) as G. destruct (split_str old content) as [|a [|b rest]]; try exact C.
    apply Forall_app. split; [apply G; left; reflexivity|]. apply Forall_app. split; [exact N|].
    apply ascii_join; [exact O|]. intros w I. apply G. right. exact I.
Qed.
Lemma ascii_write_tool c d st rel s force d' st' a : files_ascii d -> all_ascii s -> write_source c d st rel s force = (d', st', a) -> files_ascii d'.
Proof.
  intros A S. unfold write_source, validate_and_write. destruct (c_parse c s) as [ps|]; [|intros [= <- _ _]; exact A].
  destruct (ps_error ps); [intros [= <- _ _]; exact A|].
  destruct (write_source_file c d rel s) as [d1 b] eqn:W. pose proof (ascii_write_source c d rel s d1 b A S W) as A1.
  destruct b; [|intros [= <- _ _]; exact A1]. unfold finish_write. destruct (rebuild c d1); [intros [= <- _ _]; exact A1| |intros [= <- _ _]; exact A1].
  destruct force; [intros [= <- _ _]; exact A1|]. unfold rollback_write.
  destruct (read_text (c_links c) d (join_path (c_ws c) rel)) as [o|] eqn:R.
  - destruct (write (c_links c) d1 (join_path (c_ws c) rel) o) as [d2|] eqn:W2; intros [= <- _ _]; [|exact A1].
    eapply ascii_write; [exact A1| |exact W2]. exact (ascii_read _ _ _ _ A R).
  - destruct (remove_file (c_links c) d1 (join_path (c_ws c) rel)) as [d2|] eqn:W2; intros [= <- _ _]; [|exact A1]. eapply ascii_remove; eassumption.
Qed.
Lemma ascii_handle c d st r d' st' a : files_ascii d -> (forall s, request_text r s -> all_ascii s) -> handle c d st r = (d', st', a) -> files_ascii d'.
Proof.
  intros A T. destruct r as [rel content force|rel old new all force|rel force|]; cbn [handle request_text] in *.
  - apply ascii_write_tool; [exact A|apply T; reflexivity].
  - unfold replace_source, replace_in_file. destruct old as [|o0 old0]; [intros [= <- _ _]; exact A|]. remember (o0 :: old0) as old. clear Heqold.
    unfold read_source_file. destruct (to_absolute_path c d rel) as [p|]; [|intros [= <- _ _]; exact A].
    destruct (negb (path_exists (c_links c) d p)); [intros [= <- _ _]; exact A|].
    destruct (negb _); [intros [= <- _ _]; exact A|]. destruct (read_text (c_links c) d p) as [s|] eqn:R; cbn [of_option]; [|intros [= <- _ _]; exact A].
    destruct (replace_text s old new all) as [| |content k] eqn:RT; try (intros [= <- _ _]; exact A).
    apply ascii_write_tool; [exact A|]. eapply ascii_replaced; [exact (ascii_read _ _ _ _ A R)| | |exact RT]; apply T; auto.
  - unfold delete_source. destruct (delete_file c d rel) as [[d1 s]|] eqn:D; [|intros [= <- _ _]; exact A].
    assert (X : files_ascii d1 /\ all_ascii s).
    { unfold delete_file in D. destruct (negb _); [discriminate|]. destruct (to_absolute_path c d rel) as [p|]; [|discriminate]. destruct (negb _); [discriminate|].
      destruct (read_text (c_links c) d p) as [t|] eqn:R; [|discriminate]. destruct (remove_file (c_links c) d p) as [d2|] eqn:RM; [|discriminate].
      injection D as <- <-. split; [exact (ascii_remove _ _ _ _ A RM)|exact (ascii_read _ _ _ _ A R)]. }
    destruct X as (A1 & S). destruct (rebuild c d1); [intros [= <- _ _]; exact A1| |intros [= <- _ _]; exact A1].
    destruct force; [intros [= <- _ _]; exact A1|]. unfold rollback_delete.
    match goal with |- context [let (_, _) := match ?x with _ => _ end in _] => destruct x as [d2 [|]] eqn:P end.
    + apply ascii_parents in P; [|exact A1]. destruct (write (c_links c) d2 (join_path (c_ws c) rel) s) as [d3|] eqn:W; intros [= <- _ _]; [eapply ascii_write; eassumption|exact P].
    + apply ascii_parents in P; [|exact A1]. intros [= <- _ _]. exact P.
  - unfold build_tool. destruct (rebuild c d); intros [= <- _ _]; exact A.
Qed.
Lemma ascii_calm c d st r d' st' a : (forall l, Permutation (c_files c l) l) -> quotes_text (c_parse c) -> overflow_checks (c_env c) = false ->
  files_ascii d -> (forall s, request_text r s -> all_ascii s) -> handle c d st r = (d', st', a) -> a <> Crashed.
Proof.
  intros P Q O A T H ->. pose proof (ascii_handle _ _ _ _ _ _ _ A T H) as A'. apply request_crash in H as (_ & [C|(_ & rel & old & new & all & force & -> & C)]); [| |exact P].
  - revert C. apply plain_disk; [exact Q|exact O|]. intros rel s R. apply ascii_plain. eapply ascii_read; eassumption.
  - apply (ascii_no_cut 100 old); [|exact C]. apply T. cbn. auto.
Qed.
Lemma ascii_serve c : (forall l, Permutation (c_files c l) l) -> quotes_text (c_parse c) -> overflow_checks (c_env c) = false ->
  forall rs d st d' st' l, files_ascii d -> (forall r s, In r rs -> request_text r s -> all_ascii s) -> serve c d st rs = (d', st', l) -> ~ In Crashed l.
Proof.
  intros P Q O. induction rs as [|r rs IH]; intros d st d' st' l A T H; cbn [serve] in H; [injection H as _ _ <-; intros []|].
  destruct (handle c d st r) as [[d1 st1] a] eqn:HH. destruct (serve c d1 st1 rs) as [[d2 st2] l2] eqn:HS. injection H as _ _ <-.
  assert (T1 : forall s, request_text r s -> all_ascii s) by (intros s; apply T; left; reflexivity).
  intros [->|I].
  - exact (ascii_calm _ _ _ _ _ _ _ P Q O A T1 HH eq_refl).
  - refine (IH d1 st1 d2 st2 l2 _ _ HS I).
    + eapply ascii_handle; eassumption.
    + intros r' s J. apply T. right. exact J.
Qed.
