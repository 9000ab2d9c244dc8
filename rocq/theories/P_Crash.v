(** C72 what crashes the program. *)
From Coq Require Import Lia Permutation.
From Verif Require Import S_Graph L_Graph S_Query L_Crash2.
From Verif Require P_Query P_Agg.
From Verif Require Import S_Server S_Dsl S_Crash L_Str L_Text L_Crash L_Crash3 M_Add M_Cli P_Dsl P_Schema P_Workspace P_Server.
From Verif Require Import M_Fs.
Close Scope Z_scope.

(** ** C72 *)
(** Reading a value crashes exactly for a text in triple quotes whose common
    indentation ends inside a character, for a zone of too many hours in a build
    with checked arithmetic, and for a list with such an item. *)
Theorem C72_value_crashes_iff : forall env path n, from_node env path n = Panic <-> crashing env path n.
Proof. exact value_crash. Qed.
Print Assumptions C72_value_crashes_iff.
(** Nothing else crashes a build: not the files, not the schemas, not the graph. *)
Theorem C72_build_crashes_only_if : forall c d, (forall l, Permutation (c_files c l) l) -> rebuild c d = Panic -> crash_on_disk c d.
Proof. exact build_crash. Qed.
Print Assumptions C72_build_crashes_only_if.
(** A request is not answered only if such a value is on the disk, or if the text
    to be replaced is not there once and has a character across its byte 100. *)
Theorem C72_request_crashes_only_if : forall c d st r d' st', (forall l, Permutation (c_files c l) l) -> handle c d st r = (d', st', Crashed) ->
  st' = st /\ (crash_on_disk c d' \/ d' = d /\ exists rel old new all force, r = Replace rel old new all force /\ cut_inside 100 old).
Proof. exact request_crash. Qed.
Print Assumptions C72_request_crashes_only_if.
Theorem C72_adding_crashes_only_if : forall c ae d st a d' st', (forall l, Permutation (c_files c l) l) ->
  add_tool c ae d st a = (d', st', Crashed) -> st' = st /\ crash_on_disk c d'.
Proof. exact add_tool_crash. Qed.
Print Assumptions C72_adding_crashes_only_if.
(** On the command line also a value given to [add]; then nothing was written. *)
Theorem C72_command_crashes_only_if : forall c x cached d, (forall l, Permutation (c_files c l) l) ->
  (forall q d', run_read c x cached d q = (d', Died) -> crash_on_disk c d') /\
  (forall a d', run_add c x cached d a = (d', Died) -> d' = fst (prepare c x d cached) /\
     (crash_on_disk c d' \/ exists name s, (In (name, s) (x_fields a) \/ In (name, s) (x_values a)) /\ (cut_string s \/ overflowing_zone (c_env c) s))).
Proof.
  intros c x cached d P. split.
  - intros q d'. unfold run_read. destruct (prepare c x d _) as [d1 [u| |]] eqn:PR; [|discriminate|].
    + destruct (read_command c x d1 q) eqn:R; try discriminate. intros [= <-]. exact (read_crash c x d1 q P R).
    + intros [= <-]. apply prepare_crash in PR as [-> C]; assumption.
  - intros a d'. unfold run_add. destruct (prepare c x d cached) as [d1 [u| |]] eqn:PR; [|discriminate|].
    + intros H. apply add_crash in H as [-> H]; [|exact P]. split; [reflexivity|exact H].
    + intros [= <-]. split; [reflexivity|]. left. apply prepare_crash in PR as [-> C]; assumption.
Qed.
Print Assumptions C72_command_crashes_only_if.
(** A query crashes only in a sum: of integers that passes 64 bits on the way, in
    a build with checked arithmetic, or of amounts whose sizes pass 96 bits. *)
Theorem C72_query_crashes_only_if : forall x g ho q, execute x g ho q = M_Graph.Err Panicked -> exists f es, q_agg q = Some (ASum (FReg f)) /\
  execute x g ho {| q_from := q_from q; q_ops := q_ops q; q_agg := None |} = M_Graph.Ok (QEntities es) /\
  ((M_Query.overflow_checks x = true /\ exists pre post, column f es = map VInt (pre ++ post) /\ in_i64 (total pre) = false) \/
   (exists c pre post, column f es = map (fun d => VCur d c) pre ++ post /\ (2 ^ 96 <= size_at (max_scale pre) pre)%Z)).
Proof. exact query_crash. Qed.
Print Assumptions C72_query_crashes_only_if.

(** ** Where no crash is possible *)
(** In a build without checked arithmetic, with sources whose white space takes
    one byte per character. *)
Theorem C72_no_wide_space_no_crash : forall c d, (forall l, Permutation (c_files c l) l) -> quotes_text (c_parse c) -> overflow_checks (c_env c) = false ->
  (forall rel s, read_text (c_links c) d (c_ws c ++ rel) = Some s -> plain_white s) -> rebuild c d <> Panic.
Proof. intros c d P Q O W B. exact (plain_disk c d Q O W (build_crash c d P B)). Qed.
Print Assumptions C72_no_wide_space_no_crash.
(** With files and requests in ASCII, no request of any history crashes. *)
Theorem C72_ascii_histories_never_crash : forall c rs d st d' st' l, (forall l, Permutation (c_files c l) l) -> quotes_text (c_parse c) ->
  overflow_checks (c_env c) = false -> files_ascii d -> (forall r s, In r rs -> request_text r s -> all_ascii s) ->
  serve c d st rs = (d', st', l) -> ~ In Crashed l.
Proof. intros c rs d st d' st' l P Q O A T H. exact (ascii_serve c P Q O rs d st d' st' l A T H). Qed.
Print Assumptions C72_ascii_histories_never_crash.

(** Examples: a parser for one text and the empty one. The text is indented once by
    a no-break space, of two bytes, and once by a space. *)
Definition nbsp : str := bytes [194; 160]%N.
Definition wide : str := q3 ++ [LF] ++ nbsp ++ L "a" ++ [LF] ++ L " b" ++ [LF] ++ q3.
Definition narrow : str := q3 ++ [LF] ++ L "  a" ++ [LF] ++ L " b" ++ [LF] ++ q3.
Definition note_of (v : str) : str := L "note n { text = " ++ v ++ L " }".
Definition note_tree (v : str) : parsed := {| ps_error := false; ps_schemas := [{| sn_name := Some (L "note"); sn_blocks := [] |}];
  ps_entities := [block (L "note") (L "n") [{| fn_id := Some (L "text"); fn_value := Some (VNode (Some KString) v []) |}]] |}.
Definition parse_note (s : str) : option parsed :=
  if str_eqb s (note_of wide) then Some (note_tree wide)
  else if str_eqb s (note_of narrow) then Some (note_tree narrow)
  else Some {| ps_error := false; ps_schemas := []; ps_entities := [] |}.
Definition release : dsl_env := {| local_offset := local_offset env0; known_currency := known_currency env0; show_f64 := show_f64 env0; overflow_checks := false |}.
Definition c_note : ctx := {| c_ws := path_of (L "/w"); c_links := 40; c_parse := parse_note; c_env := release; c_fields := fid; c_schemas := sid; c_files := fun l => l |}.
Definition d_note : fs := [([L "w"], Dir); ([L "w"; L "a.firm"], File (note_of narrow))].
Definition st_note : state := match rebuild c_note d_note with Ok st => st | _ => none0 end.
Lemma utf8_ascii s : all_ascii s -> utf8 s.
Proof.
  induction 1 as [|c s C _ IH]; [constructor|]. apply (utf8_cons [c] s); [|exact IH]. unfold utf8_char, cont_bytes. rewrite (proj2 (N.ltb_lt _ _) C).
  split; [|split; [reflexivity|constructor]]. unfold is_cont. destruct (N.leb_spec 128 (code c)); [lia|reflexivity].
Qed.
Lemma utf8_app s t : utf8 s -> utf8 t -> utf8 (s ++ t).
Proof. induction 1 as [|w s W _ IH]; intros T; [exact T|]. rewrite <- app_assoc. apply utf8_cons; [exact W|exact (IH T)]. Qed.
Lemma note_quotes : quotes_text parse_note.
Proof.
  assert (N : forall v n m, value_in (note_tree v) n -> part_of n m -> text_of_node m = v).
  { intros v n m V M. assert (E : n = VNode (Some KString) v []).
    { destruct V as [(e & f & [<-|[]] & [<-|[]] & [= <-])|(s & b & fs & f & [<-|[]] & [] & _)]. reflexivity. }
    subst n. inversion M as [|k raw items n0 m0 I]; subst; [reflexivity|destruct I]. }
  assert (W : utf8 wide).
  { unfold wide. apply (utf8_cons [DQ]); [repeat constructor|]. do 2 (apply (utf8_cons [DQ]); [repeat constructor|]). apply (utf8_cons [LF]); [repeat constructor|].
    apply (utf8_cons nbsp); [repeat constructor|]. apply utf8_ascii. repeat constructor. }
  intros s ps n m. unfold parse_note. destruct (str_eqb_spec s (note_of wide)) as [->|_]; [|destruct (str_eqb_spec s (note_of narrow)) as [->|_]]; intros [= <-] V M.
  - rewrite (N wide n m V M). split; [exact W|]. eexists. eexists. reflexivity.
  - rewrite (N narrow n m V M). split; [apply utf8_ascii; repeat constructor|]. eexists. eexists. reflexivity.
  - destruct V as [(e & f & [] & _)|(s0 & b & fs & f & [] & _)].
Qed.
Example C72_history_case : (forall l, Permutation (c_files c_note l) l) /\ quotes_text (c_parse c_note) /\ overflow_checks (c_env c_note) = false /\
  files_ascii d_note /\
  (let rs := [Replace (L "a.firm") (L "note n") (L "?") false false; Write (L "b.firm") (note_of narrow) false; Delete (L "a.firm") false; Write (L "b.firm") (note_of narrow) false] in
   (forall r s, In r rs -> request_text r s -> all_ascii s) /\
   snd (serve c_note d_note st_note rs) = [Accepted; Accepted; Accepted; Accepted]).
Proof.
  split; [intros l; apply Permutation_refl|]. split; [exact note_quotes|]. split; [reflexivity|]. split.
  - intros p s [X|[X|[]]]; [discriminate|]. injection X as _ <-. repeat constructor.
  - cbv zeta. split; [|vm_compute; reflexivity].
    intros r s [<-|[<-|[<-|[<-|[]]]]]; cbn [request_text]; [intros [-> | ->]|intros ->|intros []|intros ->]; repeat constructor.
Qed.
Example C72_crashing_case : crashing release (L "a.firm") (VNode (Some KString) wide []) /\
  crashing env0 (L "a.firm") (VNode (Some KList) (L "[1, 2024-01-01 at 09:00 UTC+600000]")
    [VNode (Some KNumber) (L "1") []; VNode (Some KDateTime) (L "2024-01-01 at 09:00 UTC+600000") []]) /\
  ~ crashing release (L "a.firm") (VNode (Some KString) narrow []) /\ crash_on_disk c_note (d_note ++ [([L "w"; L "b.firm"], File (note_of wide))]).
Proof.
  assert (A : crashing release (L "a.firm") (VNode (Some KString) wide [])) by (apply C72_value_crashes_iff; vm_compute; reflexivity).
  split; [exact A|]. split; [apply C72_value_crashes_iff; vm_compute; reflexivity|]. split.
  - intros H. apply C72_value_crashes_iff in H. vm_compute in H. discriminate.
  - exists [L "b.firm"], (note_of wide), (note_tree wide), (VNode (Some KString) wide []). split; [vm_compute; reflexivity|]. split; [vm_compute; reflexivity|]. split.
    + left. eexists. eexists. split; [left; reflexivity|]. split; [left; reflexivity|]. reflexivity.
    + apply C72_value_crashes_iff. vm_compute. reflexivity.
Qed.

(** Finding: also in a release build one edit, of a text that is correct, makes
    every later build crash. *)
Theorem C72_no_crash_refuted : exists c d w st rel content d' st', (forall l, Permutation (c_files c l) l) /\ quotes_text (c_parse c) /\ overflow_checks (c_env c) = false /\
  runs_in c d w /\ rebuild c d = Ok st /\ plain rel /\ utf8 content /\
  write_source c d st rel content false = (d', st', Crashed) /\ rebuild c d' = Panic.
Proof.
  exists c_note, [([L "w"], Dir)], [L "w"]. exists (match rebuild c_note [([L "w"], Dir)] with Ok st => st | _ => none0 end), (L "b.firm"), (note_of wide).
  eexists. eexists. split; [intros l; apply Permutation_refl|]. split; [exact note_quotes|]. split; [reflexivity|]. split; [runs|]. split; [vm_compute; reflexivity|].
  split; [split; reflexivity|]. split.
  - unfold note_of. apply utf8_app; [apply utf8_ascii; repeat constructor|]. apply utf8_app; [|apply utf8_ascii; repeat constructor].
    destruct (note_quotes (note_of wide) (note_tree wide) (VNode (Some KString) wide []) (VNode (Some KString) wide [])) as (U & _);
      [vm_compute; reflexivity| |apply part_self|exact U]. left. eexists. eexists. split; [left; reflexivity|]. split; [left; reflexivity|]. reflexivity.
  - split; [vm_compute; reflexivity|]. vm_compute. reflexivity.
Qed.
Print Assumptions C72_no_crash_refuted.
(** The text to be replaced: 99 letters and one of two bytes. *)
Definition long_text : str := repeat "x"%char 99 ++ bytes [195; 169]%N.
Theorem C72_replace_crash_refuted : exists c d w st rel old new d' st', runs_in c d w /\ rebuild c d = Ok st /\ utf8 old /\
  replace_source c d st rel old new false false = (d', st', Crashed) /\ d' = d /\ st' = st /\ cut_inside 100 old.
Proof.
  exists c_note, d_note, [L "w"], st_note, (L "a.firm"), long_text, (L "y"). eexists. eexists. split; [runs|]. split; [vm_compute; reflexivity|].
  split; [unfold long_text; apply utf8_app; [apply utf8_ascii; repeat constructor|apply (utf8_cons (bytes [195; 169]%N) []); [repeat constructor|constructor]]|].
  split; [vm_compute; reflexivity|]. split; [reflexivity|]. split; [reflexivity|]. split; [vm_compute; lia|]. exists "169"%char, []. split; vm_compute; reflexivity.
Qed.
Print Assumptions C72_replace_crash_refuted.
(** Queries that crash. *)
Definition two_items (v w : value) : graph := fst (add_entities graph_new
  [ {| e_id := L "item.a"; e_type := L "item"; e_fields := [(L "n", v)] |}; {| e_id := L "item.b"; e_type := L "item"; e_fields := [(L "n", w)] |} ]).
Definition sum_items : query := {| q_from := SType (L "item"); q_ops := []; q_agg := Some (ASum (FReg (L "n"))) |}.
Definition much : value := VCur {| d_mant := (2 ^ 96 - 1)%Z; d_scale := 0 |} (L "EUR").
Example C72_query_case :
  execute (P_Agg.checked P_Query.ex_ext) (two_items (VInt i64_max) (VInt 1)) (fun _ l => l) sum_items = M_Graph.Err Panicked /\
  execute (P_Agg.checked P_Query.ex_ext) (two_items (VInt i64_max) (VInt 0)) (fun _ l => l) sum_items = M_Graph.Ok (QAgg (RSum (AVInt i64_max))) /\
  execute P_Query.ex_ext (two_items much much) (fun _ l => l) sum_items = M_Graph.Err Panicked.
Proof. repeat split; vm_compute; reflexivity. Qed.
