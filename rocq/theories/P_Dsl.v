(** Properties C24-C30, C46 and C47: values in the DSL. *)
From Coq Require Import Lia.
From Verif Require Import S_Dsl L_Str L_Ids L_Num L_Text L_DslStr L_Ratio L_DslVal L_Zone.
Close Scope Z_scope.

(** An environment for the examples; its float texts are those of Rust. *)
Definition env0 : dsl_env :=
  {| local_offset := 3600; known_currency := fun c => str_eqb c (L "USD") || str_eqb c (L "EUR");
     show_f64 := fun f => if f_is_nan f then L "NaN" else if f_is_integral f then show_Z (f_trunc f) else L "0.5";
     overflow_checks := true |}.

(** ** C24 *)
Theorem C24_booleans : forall env o path b, survives env o path (VBool b).
Proof. intros env o path []; reflexivity. Qed.
Print Assumptions C24_booleans.

Theorem C24_integers : forall env o path z, in_i64 z = true -> survives env o path (VInt z).
Proof.
  intros env o path z H. unfold survives, read_back. cbn [written kind_of from_node generate_value].
  rewrite int_survives by exact H. reflexivity.
Qed.
Print Assumptions C24_integers.
Example C24_integers_case : in_i64 (-9223372036854775808) = true.
Proof. reflexivity. Qed.

(** The decimal text of a float is an oracle; all that is asked of it is what
    Rust promises for finite floats, that it reads back as the same float. *)
Theorem C24_floats : forall env o path f, parse_f64 (show_f64 env f) = Some f -> survives env o path (VFloat f).
Proof.
  intros env o path f H. unfold survives, read_back. cbn [written kind_of from_node generate_value].
  rewrite float_survives by exact H. reflexivity.
Qed.
Print Assumptions C24_floats.
Example C24_floats_case :
  parse_f64 (show_f64 env0 (f_of_Z (-3))) = Some (f_of_Z (-3)) /\
  generate_value env0 default_options (VFloat (f_of_Z (-3))) = L "-3.0" /\
  parse_f64 (show_f64 env0 (f_of_ratio false 1 2)) = Some (f_of_ratio false 1 2).
Proof. vm_compute. auto. Qed.

(** NaN is written as a text that is not a number. *)
Theorem C24_nan_refuted : exists env, forall o path,
  show_f64 env S754_nan = L "NaN" /\ read_back env o path (VFloat S754_nan) = Err (InvalidFloat (L "NaN.0")).
Proof. exists env0. intros o path. vm_compute. auto. Qed.
Print Assumptions C24_nan_refuted.

(** References survive exactly when their identifier is normalised and has one dot. *)
Theorem C24_entity_references : forall env o path id,
  survives env o path (VRef (REntity id)) <-> plain_entity_id id.
Proof. intros env o path id. rewrite <- entity_ref_survives. reflexivity. Qed.
Print Assumptions C24_entity_references.
Theorem C24_field_references : forall env o path id f,
  survives env o path (VRef (RField id f)) <-> plain_entity_id id /\ ~ In "."%char f.
Proof. intros env o path id f. rewrite <- field_ref_survives. reflexivity. Qed.
Print Assumptions C24_field_references.
Example C24_references_case : plain_entity_id (L "project.web_site_2") /\ ~ In "."%char (L "Due date").
Proof.
  split; [|cbn; intuition discriminate]. split; [vm_compute; reflexivity|].
  exists (L "project"), (L "web_site_2"). repeat split; cbn; intuition discriminate.
Qed.

(** A reference to an entity whose id contains a dot silently becomes a
    reference to a field of another entity. *)
Theorem C24_dotted_id_refuted : exists id, new_id id = id /\ forall env o path,
  read_back env o path (VRef (REntity id)) = Ok (VRef (RField (L "company.acme") (L "inc"))).
Proof. exists (L "company.acme.inc"). split; [vm_compute; reflexivity|]. intros. vm_compute. reflexivity. Qed.
Print Assumptions C24_dotted_id_refuted.

(** ** C25 *)
Theorem C25_strings_survive_exactly : forall env o path s, utf8 s ->
  (survives env o path (VStr s) <-> storable_text s).
Proof.
  intros env o path s U.
  assert (R : survives env o path (VStr s) <-> parse_string (generate_string s o) = Ok (PStr s)).
  { unfold survives, read_back. cbn [written kind_of from_node generate_value]. split.
    - intros H. apply obind_ok in H as (p & -> & [= E]). destruct p; try discriminate. injection E as ->. reflexivity.
    - intros ->. reflexivity. }
  rewrite R. unfold storable_text. destruct (In_dec Ascii.ascii_dec LF s) as [H|H].
  - rewrite multi_survives by assumption. tauto.
  - rewrite one_line_survives by assumption. tauto.
Qed.
Print Assumptions C25_strings_survive_exactly.
Example C25_case : storable_text (L "C:\dir, 50% (caf" ++ bytes [195; 169]%N ++ L ") 'x'") /\
  utf8 (L "caf" ++ bytes [195; 169]%N).
Proof.
  split.
  - left. split; intros X; vm_compute in X; intuition discriminate.
  - apply (utf8_cons (L "c")); [vm_compute; auto|]. apply (utf8_cons (L "a")); [vm_compute; auto|].
    apply (utf8_cons (L "f")); [vm_compute; auto|]. apply (utf8_cons (bytes [195; 169]%N) []); [|constructor].
    vm_compute. repeat constructor.
Qed.

(** A quote comes back with a backslash, and at the end is lost. *)
Theorem C25_quotes_refuted : forall env o path,
  read_back env o path (VStr (L "5" ++ [DQ])) = Ok (VStr (L "5\")) /\
  read_back env o path (VStr ([DQ] ++ L "a" ++ [DQ] ++ L " b")) = Ok (VStr (L "\" ++ [DQ] ++ L "a\" ++ [DQ] ++ L " b")).
Proof. intros. vm_compute. auto. Qed.
Print Assumptions C25_quotes_refuted.
(** A final line end is lost, and so is white space before the first line. *)
Theorem C25_outer_space_refuted : forall env path,
  read_back env default_options path (VStr (L "a" ++ [LF] ++ L "b" ++ [LF])) = Ok (VStr (L "a" ++ [LF] ++ L "b")) /\
  read_back env default_options path (VStr (L "  a" ++ [LF] ++ L "b")) = Ok (VStr (L "a" ++ [LF] ++ L "b")).
Proof. intros. vm_compute. auto. Qed.
Print Assumptions C25_outer_space_refuted.

(** ** C26 *)
(** What comes back: the local time without its seconds, in a whole-hour zone. *)
Theorem C26_what_comes_back : forall env o path d, printable_datetime d ->
  read_back env o path (VDate d) =
  Ok (VDate {| dt_local := (dt_local d - dt_local d mod 60)%Z; dt_nanos := 0;
               dt_off := (3600 * Z.quot (dt_off d) 3600)%Z |}).
Proof.
  intros env o path d H. unfold read_back. cbn [written kind_of from_node generate_value].
  rewrite datetime_read by exact H. reflexivity.
Qed.
Print Assumptions C26_what_comes_back.

(** It is the same instant exactly when what is lost of the seconds and of the
    zone cancels out; in particular for whole minutes in whole-hour zones. *)
Theorem C26_same_instant_exactly : forall env o path d, printable_datetime d ->
  exists d', read_back env o path (VDate d) = Ok (VDate d') /\
  (dt_instant d' = dt_instant d <-> (dt_local d mod 60 = Z.rem (dt_off d) 3600)%Z).
Proof.
  intros env o path d H. eexists. split; [exact (C26_what_comes_back env o path d H)|].
  unfold dt_instant. cbn [dt_local dt_off]. pose proof (Z.quot_rem' (dt_off d) 3600). split; lia.
Qed.
Print Assumptions C26_same_instant_exactly.
Theorem C26_survives_exactly : forall env o path d, printable_datetime d ->
  (survives env o path (VDate d) <->
   (dt_local d mod 60 = 0 /\ dt_nanos d = 0 /\ Z.rem (dt_off d) 3600 = 0)%Z).
Proof.
  intros env o path d H. unfold survives. rewrite C26_what_comes_back by exact H.
  pose proof (Z.quot_rem' (dt_off d) 3600). destruct d as [l n z]. cbn [dt_local dt_nanos dt_off] in *. split.
  - intros [= A B C]. change (3600 * (Z.quot z 3600) = z)%Z in C. lia.
  - intros (A & B & C). do 3 f_equal; lia.
Qed.
Print Assumptions C26_survives_exactly.
Example C26_case : let d := {| dt_local := 1735689600 + 9 * 3600 + 30 * 60; dt_nanos := 0; dt_off := -5 * 3600 |}%Z in
  printable_datetime d /\ generate_datetime d = L "2025-01-01 at 09:30 UTC-5".
Proof. cbv zeta. split; [|vm_compute; reflexivity]. unfold printable_datetime.
  replace (civil_of_days _) with (2025, 1, 1)%Z by (vm_compute; reflexivity). cbn [dt_off dt_nanos]. lia. Qed.

(** Half-hour zones: the time moves by thirty minutes. Seconds are lost. *)
Theorem C26_half_hour_zone_refuted : exists d, printable_datetime d /\ (dt_local d mod 60 = 0)%Z /\ forall env o path,
  exists d', read_back env o path (VDate d) = Ok (VDate d') /\ dt_instant d' = (dt_instant d + 1800)%Z.
Proof.
  exists {| dt_local := 1735725600; dt_nanos := 0; dt_off := 19800 |}. split; [|split; [reflexivity|]].
  - unfold printable_datetime. replace (civil_of_days _) with (2025, 1, 1)%Z by (vm_compute; reflexivity). cbn [dt_off dt_nanos]. lia.
  - intros. eexists. split; [vm_compute; reflexivity|]. reflexivity.
Qed.
Print Assumptions C26_half_hour_zone_refuted.
Theorem C26_seconds_refuted : exists d, printable_datetime d /\ dt_off d = 0%Z /\ forall env o path,
  exists d', read_back env o path (VDate d) = Ok (VDate d') /\ dt_instant d' = (dt_instant d - 59)%Z.
Proof.
  exists {| dt_local := 1735725659; dt_nanos := 0; dt_off := 0 |}. split; [|split; [reflexivity|]].
  - unfold printable_datetime. replace (civil_of_days _) with (2025, 1, 1)%Z by (vm_compute; reflexivity). cbn [dt_off dt_nanos]. lia.
  - intros. eexists. split; [vm_compute; reflexivity|]. reflexivity.
Qed.
Print Assumptions C26_seconds_refuted.

(** ** C27 *)
Theorem C27_currencies : forall env o path d c, valid_dec d -> known_currency env c = true -> ~ In " "%char c ->
  survives env o path (VCur d c).
Proof.
  intros env o path d c V K N. unfold survives, read_back. cbn [written kind_of from_node generate_value].
  rewrite currency_survives by assumption. reflexivity.
Qed.
Print Assumptions C27_currencies.
Example C27_case : let d := {| d_mant := -1050; d_scale := 2 |} in
  valid_dec d /\ generate_value env0 default_options (VCur d (L "EUR")) = L "-10.50 EUR" /\ known_currency env0 (L "EUR") = true.
Proof. cbv zeta. split; [split; [reflexivity|cbn [d_scale]; lia]|]. vm_compute. auto. Qed.

(** ** C28 *)
Theorem C28_enums_survive_exactly : forall env o path v,
  survives env o path (VEnum v) <-> taggable (L "enum") v.
Proof.
  intros env o path v. rewrite <- enum_survives. unfold survives, read_back. cbn [written kind_of from_node generate_value].
  split.
  - intros H. apply obind_ok in H as (p & -> & [= E]). destruct p; try discriminate. injection E as ->. reflexivity.
  - intros ->. reflexivity.
Qed.
Print Assumptions C28_enums_survive_exactly.
Example C28_enum_case : taggable (L "enum") (L "in progress").
Proof.
  split; [discriminate|]. split.
  - intros r H. apply (f_equal (fun s => last s " "%char)) in H. rewrite last_last in H. discriminate.
  - intros a b H. assert (X : contains (L "in progress" ++ [DQ]) (L "enum" ++ [DQ]) = true).
    { apply contains_spec. exists a, b. rewrite <- app_assoc. exact H. }
    vm_compute in X. discriminate.
Qed.

(** A value that ends in the name of the tag loses it. *)
Theorem C28_enum_tag_refuted : forall env o path,
  read_back env o path (VEnum (L "my_enum")) = Ok (VEnum (L "my_")).
Proof. intros. vm_compute. reflexivity. Qed.
Print Assumptions C28_enum_tag_refuted.

(** A path is read as the place one gets to by walking along it, from the
    directory of the file if it is relative, from the root if not. [walk] has at
    most one result (C28_walk_is_a_function). *)
Theorem C28_paths_resolve_against_their_file : forall env o ds name v,
  Forall plain_component ds -> plain_component name -> taggable (L "path") v ->
  exists r, walk (is_absolute v) (0, if is_absolute v then [] else ds) (split_char "/" v) r /\
  read_back env o (file_path ds name) (VPath v) = Ok (VPath (place_text (is_absolute v) r)).
Proof.
  intros env o ds name v H1 H2 T. destruct (resolved_place ds v H1) as (r & W & E). exists r. split; [exact W|].
  unfold read_back. cbn [written kind_of from_node generate_value].
  rewrite (path_read _ ds name v eq_refl H1 H2 T). cbn [obind to_value]. rewrite E. reflexivity.
Qed.
Print Assumptions C28_paths_resolve_against_their_file.
Theorem C28_walk_is_a_function : forall abs p cs r r', walk abs p cs r -> walk abs p cs r' -> r = r'.
Proof. intros abs p cs r r' H H'. exact (walk_unique abs p cs r H r' H'). Qed.
Print Assumptions C28_walk_is_a_function.

(** So a path into the workspace, as reading yields it, comes back prefixed with
    the directory of the file it is written to: it survives at the top only. *)
Theorem C28_path_survives_at_the_top_only : forall env o ds name d,
  Forall plain_component ds -> plain_component name -> Forall plain_component d -> d <> [] ->
  taggable (L "path") (place_text false (0, d)) ->
  read_back env o (file_path ds name) (VPath (place_text false (0, d))) = Ok (VPath (place_text false (0, ds ++ d))) /\
  (survives env o (file_path ds name) (VPath (place_text false (0, d))) <-> ds = []).
Proof.
  intros env o ds name d H1 H2 H3 N T.
  assert (RB : read_back env o (file_path ds name) (VPath (place_text false (0, d))) = Ok (VPath (place_text false (0, ds ++ d)))).
  { destruct (C28_paths_resolve_against_their_file env o ds name _ H1 H2 T) as (r & W & E).
    destruct d as [|c d]; [congruence|].
    change (place_text false (0, c :: d)) with (L "." ++ "/"%char :: join (L "/") (c :: d)) in *.
    assert (A : is_absolute (L "." ++ "/"%char :: join (L "/") (c :: d)) = false) by reflexivity.
    rewrite A in *. rewrite split_char_app in W by (cbn; intuition discriminate).
    assert (SJ : split_char "/" (join (L "/") (c :: d)) = c :: d)
      by (apply (split_char_join "/"); [discriminate|auto using plain_no_slash]).
    rewrite SJ in W.
    rewrite E. do 2 f_equal. f_equal. eapply walk_unique; [exact W|].
    apply walk_here; auto. apply walk_plain; auto. constructor. }
  split; [exact RB|]. unfold survives. rewrite RB. split; [|intros ->; reflexivity].
  intros E. destruct d as [|c d]; [congruence|]. destruct ds as [|x ds]; auto. exfalso.
  assert (E' : L "./" ++ join (L "/") (x :: ds ++ c :: d) = L "./" ++ join (L "/") (c :: d)) 
    by exact (f_equal (fun r => match r with Ok (VPath p) => p | _ => [] end) E).
  clear E. rename E' into E. apply app_inv_head in E. apply (f_equal (split_char "/")) in E.
  assert (S1 : split_char "/" (join (L "/") (c :: d)) = c :: d)
    by (apply (split_char_join "/"); [discriminate|auto using plain_no_slash]).
  assert (S2 : split_char "/" (join (L "/") (x :: ds ++ c :: d)) = x :: ds ++ c :: d).
  { apply (split_char_join "/"); [discriminate|].
    change (x :: ds ++ c :: d) with ((x :: ds) ++ c :: d). apply plain_no_slash, Forall_app. auto. }
  rewrite S1, S2 in E. apply (f_equal (@length str)) in E. cbn in E. rewrite app_length in E. cbn in E. lia.
Qed.
Print Assumptions C28_path_survives_at_the_top_only.
Example C28_path_case : Forall plain_component [L "docs"; L "a b.pdf"] /\
  place_text false (0, [L "docs"; L "a b.pdf"]) = L "./docs/a b.pdf" /\
  taggable (L "path") (L "./docs/a b.pdf").
Proof.
  split; [repeat constructor; try discriminate; cbn; intuition discriminate|]. split; [reflexivity|].
  split; [discriminate|]. split.
  - intros r H. apply (f_equal (fun s => last s " "%char)) in H. rewrite last_last in H. discriminate.
  - intros a b H. assert (X : contains (L "./docs/a b.pdf" ++ [DQ]) (L "path" ++ [DQ]) = true).
    { apply contains_spec. exists a, b. rewrite <- app_assoc. exact H. }
    vm_compute in X. discriminate.
Qed.
(** The same path, read in a file of a subdirectory. *)
Theorem C28_path_in_subdirectory_refuted : forall env o,
  read_back env o (L "projects/main.firm") (VPath (L "./docs/a b.pdf")) = Ok (VPath (L "./projects/docs/a b.pdf")).
Proof. intros. vm_compute. reflexivity. Qed.
Print Assumptions C28_path_in_subdirectory_refuted.

(** ** C29 *)
(** Reading a list node whose items read as [ps]. *)
Theorem C29_accepted_iff_homogeneous : forall env path raw items ps,
  omap (from_node env path) items = Ok ps ->
  (homogeneous (map to_value ps) /\ from_node env path (VNode (Some KList) raw items) = Ok (PList ps)) \/
  (exists first same odd rest, map to_value ps = first :: same ++ odd :: rest /\
     Forall (fun v => kind_name v = kind_name first) same /\ kind_name odd <> kind_name first /\
     from_node env path (VNode (Some KList) raw items) =
     Err (HeterogeneousList (kind_name first) (kind_name odd) (S (length same)))).
Proof.
  intros env path raw items ps H. rewrite from_node_list, H. cbn [obind].
  destruct (list_cases ps) as [[A B]|(p0 & a & p & b & -> & A & B & C)]; [left; auto|right].
  exists (to_value p0), (map to_value a), (to_value p), (map to_value b).
  rewrite <- !type_name_kind, map_length. split; [cbn [map]; rewrite map_app; reflexivity|].
  split; [|split; [exact B|exact C]].
  rewrite Forall_map. eapply Forall_impl; [|exact A]. intros q Hq. cbn beta. rewrite <- type_name_kind. exact Hq.
Qed.
Print Assumptions C29_accepted_iff_homogeneous.
Example C29_case :
  from_node env0 [] (VNode (Some KList) [] [VNode (Some KNumber) (L "1") []; VNode (Some KNumber) (L "2") [];
                                              VNode (Some KNumber) (L "2.5") []; VNode (Some KBoolean) (L "true") []])
  = Err (HeterogeneousList (L "Integer") (L "Float") 2).
Proof. vm_compute. reflexivity. Qed.

(** An item that cannot be read is the list's error. *)
Theorem C29_unreadable_item : forall env path raw good bad rest ps,
  omap (from_node env path) good = Ok ps -> (forall p, from_node env path bad <> Ok p) ->
  match from_node env path bad with
  | Err e => from_node env path (VNode (Some KList) raw (good ++ bad :: rest)) = Err e
  | _ => from_node env path (VNode (Some KList) raw (good ++ bad :: rest)) = Panic
  end.
Proof.
  intros env path raw good bad rest ps H B. rewrite from_node_list.
  assert (G : omap (from_node env path) (good ++ bad :: rest) =
              match from_node env path bad with Err e => Err e | _ => Panic end).
  { revert ps H. induction good as [|g good IH]; intros ps H; cbn [app]; rewrite omap_cons in *.
    - destruct (from_node env path bad) as [p| |]; [exfalso; exact (B p eq_refl)|reflexivity|reflexivity].
    - apply obind_ok in H as (p & E & H). rewrite E. cbn [obind]. apply obind_ok in H as (ps' & E' & H).
      rewrite (IH ps' E'). destruct (from_node env path bad); reflexivity. }
  rewrite G. destruct (from_node env path bad) as [p| |]; [exfalso; exact (B p eq_refl)|reflexivity|reflexivity].
Qed.
Print Assumptions C29_unreadable_item.

Theorem C29_lists_survive_exactly : forall env o path vs,
  survives env o path (VList vs) <-> Forall (survives env o path) vs /\ homogeneous vs.
Proof. exact list_survives. Qed.
Print Assumptions C29_lists_survive_exactly.
Example C29_survive_case : Forall (survives env0 default_options (L "a.firm")) [VList [VInt 1]; VList []; VList [VStr (L "x"); VStr (L "y, z")]]
  /\ homogeneous [VList [VInt 1]; VList []; VList [VStr (L "x"); VStr (L "y, z")]].
Proof.
  split; [repeat constructor; vm_compute; reflexivity|]. intros a b Ha Hb.
  cbn in Ha, Hb. decompose [or] Ha; decompose [or] Hb; subst; try reflexivity; contradiction.
Qed.

(** ** C30 *)
(** What reading a multi-line string does: it panics exactly when cutting the
    common indentation off some line would cut through a character, and
    otherwise yields the lines without it, trimmed at both ends. *)
Theorem C30_multi_line_string : forall body k, quoted_body body -> common_indentation (lines body) k ->
  ((exists l, In l (lines body) /\ cut_inside k l) /\ parse_string (q3 ++ body ++ q3) = Panic) \/
  ((forall l, In l (lines body) -> ~ cut_inside k l) /\
   exists ds t, parse_string (q3 ++ body ++ q3) = Ok (PStr t) /\
     Forall2 (dedented k) (lines body) ds /\ trimmed_of (join [LF] ds) t).
Proof. exact multi_outcome. Qed.
Print Assumptions C30_multi_line_string.
(** There always is exactly one common indentation. *)
Theorem C30_common_indentation_unique : forall ls, exists k, common_indentation ls k /\
  forall k', common_indentation ls k' -> k' = k.
Proof.
  intros ls. exists (min_indent ls). split; [apply common_min; reflexivity|].
  intros k' H. apply common_min in H. congruence.
Qed.
Print Assumptions C30_common_indentation_unique.
(** Indented with ASCII white space (tabs, blanks) only, it never panics. *)
Theorem C30_ascii_indentation_never_panics : forall body, quoted_body body -> utf8 body ->
  (forall l, In l (lines body) -> simple_indent l) ->
  exists t, parse_string (q3 ++ body ++ q3) = Ok (PStr t).
Proof.
  intros body Q U S. destruct (C30_common_indentation_unique (lines body)) as (k & K & _).
  destruct (multi_outcome body k Q K) as [[(l & Hl & C) _]|(_ & ds & t & P & _)]; [|eauto].
  exfalso. exact (simple_no_cut (lines body) k l K (utf8_lines body l U Hl) Hl (S l Hl) C).
Qed.
Print Assumptions C30_ascii_indentation_never_panics.
Example C30_case : let body := [LF] ++ L "    a" ++ [LF] ++ L "      b" ++ [LF; LF] ++ L "    " in
  quoted_body body /\ parse_string (q3 ++ body ++ q3) = Ok (PStr (L "a" ++ [LF] ++ L "  b")) /\
  common_indentation (lines body) 4.
Proof.
  cbv zeta. split; [|split; [vm_compute; reflexivity|apply common_min; vm_compute; reflexivity]].
  split; [discriminate|]. intros r H. apply (f_equal (fun s => last s DQ)) in H. rewrite last_last in H. discriminate.
Qed.

(** A blank in front of one line and a no-break space in front of another: panic. *)
Theorem C30_no_panic_refuted : exists body, quoted_body body /\ utf8 body /\ parse_string (q3 ++ body ++ q3) = Panic.
Proof.
  exists (L " a" ++ [LF] ++ bytes [194; 160]%N ++ L "b"). split; [|split; [|vm_compute; reflexivity]].
  - split; [discriminate|]. intros r H. apply (f_equal (fun s => last s DQ)) in H. rewrite last_last in H. discriminate.
  - apply (utf8_cons (L " ")); [vm_compute; auto|]. apply (utf8_cons (L "a")); [vm_compute; auto|].
    apply (utf8_cons [LF]); [vm_compute; auto|]. apply (utf8_cons (bytes [194; 160]%N)); [vm_compute; repeat constructor|].
    apply (utf8_cons (L "b") []); [vm_compute; auto|constructor].
Qed.
Print Assumptions C30_no_panic_refuted.

(** ** C46 *)
(** A zone of [h] hours, read from "UTC" followed by [h] with its sign. *)
Definition zone_text (h : Z) : str := if Z.ltb 0 h then "+"%char :: show_Z h else show_Z h.
Theorem C46_zone_within_a_day : forall env h, (-24 < h < 24)%Z -> parse_utc_offset env (zone_text h) = Ok (h * 3600)%Z.
Proof. intros env h H. apply zone_ok. exact H. Qed.
Print Assumptions C46_zone_within_a_day.
(** Missing for the full claim: 32-bit hours whose seconds are not (see the next
    theorem). *)
Theorem C46_zone_beyond_a_day_rejected_partial : forall env h, (24 <= Z.abs h)%Z ->
  (Z.abs h <= 596523 \/ h < - 2 ^ 31 \/ 2 ^ 31 <= h)%Z ->
  parse_utc_offset env (zone_text h) = Err (InvalidTimezone (zone_text h)).
Proof.
  intros env h A [B|B]; [apply zone_bad; lia|]. apply zone_far. unfold in_i32. apply andb_false_iff. rewrite Z.leb_gt, Z.ltb_ge. lia.
Qed.
Print Assumptions C46_zone_beyond_a_day_rejected_partial.
(** The rest: a checked build crashes, and a release build takes the hours for
    another zone exactly when their seconds are within a day of a multiple of
    [2 ^ 32]. *)
Theorem C46_zone_that_overflows : forall env h, (596523 < Z.abs h)%Z -> (- 2 ^ 31 <= h < 2 ^ 31)%Z ->
  (overflow_checks env = true -> parse_utc_offset env (zone_text h) = Panic) /\
  (overflow_checks env = false -> forall s, parse_utc_offset env (zone_text h) = Ok s <->
    exists k, (k <> 0 /\ h * 3600 = k * 2 ^ 32 + s /\ -86400 < s < 86400)%Z).
Proof.
  intros env h A B. assert (R : in_i32 h = true) by (unfold in_i32; apply andb_true_iff; rewrite Z.leb_le, Z.ltb_lt; lia).
  change (zone_text h) with (zone_digits h). rewrite (zone_overflow env h R A). split; intros ->; [reflexivity|]. intros s. rewrite <- (wrapped h s R A).
  destruct (east_opt (wrap_i32 (h * 3600))); cbn [of_option]; split; intros X; congruence.
Qed.
Print Assumptions C46_zone_that_overflows.
Example C46_case : (24 <= Z.abs (-24) <= 596523)%Z /\ (1193047 * 3600 = 1 * 2 ^ 32 + 1904)%Z /\ zone_text (-24) = L "-24" /\ zone_text 14 = L "+14".
Proof. split; [lia|]. vm_compute. auto. Qed.
(** Beyond that the product overflows: a crash in a checked build, and a zone
    of 31 minutes and 44 seconds in a release build. *)
Theorem C46_absurd_zone_refuted : forall env,
  (overflow_checks env = true -> parse_utc_offset env (L "+600000") = Panic) /\
  (overflow_checks env = false -> parse_utc_offset env (L "+1193047") = Ok 1904%Z).
Proof.
  intros env. split; intros H; unfold parse_utc_offset.
  - replace (parse_i32 (L "+600000")) with (Some 600000%Z) by (vm_compute; reflexivity). rewrite H. vm_compute. reflexivity.
  - replace (parse_i32 (L "+1193047")) with (Some 1193047%Z) by (vm_compute; reflexivity). rewrite H. vm_compute. reflexivity.
Qed.
Print Assumptions C46_absurd_zone_refuted.

(** ** C47 *)
(** An entity written out and read back is the same entity exactly when its
    type is in lower case, its id is the one the type and local name compose to,
    and each of its values survives. *)
Theorem C47_entity_survives_exactly : forall env o path e,
  to_entity env path (written_entity env o e) = Ok e <->
  lower (e_type e) = e_type e /\ compose_entity_id (e_type e) (snd (decompose_entity_id (e_id e))) = e_id e /\
  Forall (fun fv => survives env o path (snd fv)) (e_fields e).
Proof. exact entity_survives. Qed.
Print Assumptions C47_entity_survives_exactly.
(** In particular every entity with a normalised type and local name. *)
Theorem C47_normal_entities_survive : forall env o path t i fs,
  new_id t = t -> new_id i = i -> ~ In "."%char t -> Forall (fun fv => survives env o path (snd fv)) fs ->
  let e := {| e_id := t ++ L "." ++ i; e_type := t; e_fields := fs |} in
  to_entity env path (written_entity env o e) = Ok e.
Proof.
  intros env o path t i fs Ht Hi D F e. apply C47_entity_survives_exactly. unfold e. cbn [e_id e_type e_fields].
  pose proof (compose_fixpoint t i Ht Hi) as C. pose proof (compose_decompose t i Ht Hi D) as X. rewrite C in X. rewrite X.
  split; [exact (fixpoint_lower t Ht)|]. split; [exact C|exact F].
Qed.
Print Assumptions C47_normal_entities_survive.
Example C47_case : let e := {| e_id := L "task.write_report"; e_type := L "task";
    e_fields := [(L "name", VStr (L "Write the report")); (L "due", VDate {| dt_local := 1735725600; dt_nanos := 0; dt_off := 7200 |});
                 (L "tags", VList [VStr (L "a"); VStr (L "b")]); (L "owner", VRef (REntity (L "person.jo")))] |} in
  to_entity env0 (L "main.firm") (written_entity env0 default_options e) = Ok e.
Proof. vm_compute. reflexivity. Qed.
(** A type written with capital letters is lowered on writing: another type. *)
Theorem C47_capital_type_refuted : exists e, forall env o path,
  to_entity env path {| en_type := Some (L "workItem"); en_id := Some (L "x"); en_fields := [] |} = Ok e /\
  exists e', to_entity env path (written_entity env o e) = Ok e' /\ e_type e' <> e_type e.
Proof.
  exists {| e_id := L "workitem.x"; e_type := L "workItem"; e_fields := [] |}. intros. split; [vm_compute; reflexivity|].
  eexists. split; [vm_compute; reflexivity|discriminate].
Qed.
Print Assumptions C47_capital_type_refuted.
