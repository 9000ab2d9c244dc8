(** The workspace that is set up builds. *)
From Coq Require Import Lia.
From Verif Require Import S_Graph L_Graph.
From Verif Require Import S_Init L_Str L_Ids L_Schema L_Schema2 L_Fs L_Server L_Load L_Workspace L_Grow L_Cli L_Init.
From Verif Require Import P_Dsl P_Schema.
From Verif Require Import M_Fs.
Close Scope Z_scope.

Lemma choose_all {A B} (R : A -> B -> Prop) l : Forall (fun a => exists b, R a b) l -> exists m, Forall2 R l m.
Proof. induction 1 as [|a l (b & H) F (m & IH)]; [exists []; constructor|]. exists (b :: m). constructor; auto. Qed.

(** ** The schemas *)
Lemma plain_lit s : forallb (fun c => negb (Ascii.eqb c DQ) && negb (Ascii.eqb c LF)) s = true -> plain_text s.
Proof. intros H. split; intros I; eapply forallb_forall in H; try exact I; vm_compute in H; discriminate. Qed.
Lemma defaults_types : map s_type all_default_schemas = default_types.
Proof. reflexivity. Qed.
Definition nice_field (p : field_id * fschema) : bool :=
  forallb (fun c => negb (Ascii.eqb c DQ) && negb (Ascii.eqb c LF)) (fst p) &&
  match fs_allowed (snd p) with
  | Some vs => match fs_type (snd p) with TEnum => true | _ => false end &&
      forallb (fun v => forallb (fun c => negb (Ascii.eqb c DQ) && negb (Ascii.eqb c LF)) v && str_eqb (normal_text v) v) vs
  | None => true
  end.
Lemma nice_spec p : nice_field p = true -> plain_field p /\ storable_field p.
Proof.
  unfold nice_field, plain_field, storable_field. intros H. apply Bool.andb_true_iff in H as [H1 H2].
  assert (X : forall vs, fs_allowed (snd p) = Some vs -> fs_type (snd p) = TEnum /\ Forall plain_text vs /\ Forall (fun v => normal_of v v) vs).
  { intros vs E. rewrite E in H2. apply Bool.andb_true_iff in H2 as [A B]. split; [destruct (fs_type (snd p)); (discriminate || reflexivity)|].
    rewrite forallb_forall in B. split; apply Forall_forall; intros v I; specialize (B v I); apply Bool.andb_true_iff in B as [B1 B2].
    - apply plain_lit, B1.
    - apply normal_iff. apply str_eqb_eq in B2. symmetry. exact B2. }
  split; [split; [apply plain_lit, H1|]|]; intros vs E; destruct (X vs E) as (A & B & C); auto.
Qed.
Lemma defaults_nice : Forall (fun s => well_formed s /\ Forall plain_field (s_fields s) /\ new_id (s_type s) = s_type s /\ Forall storable_field (s_fields s)) all_default_schemas.
Proof.
  assert (B : forallb (fun s => distinct (map fst (s_fields s)) && forallb nice_field (s_fields s) && str_eqb (new_id (s_type s)) (s_type s)) all_default_schemas = true) by (vm_compute; reflexivity).
  rewrite forallb_forall in B. apply Forall_forall. intros s Is. specialize (B s Is). apply Bool.andb_true_iff in B as [B B3]. apply Bool.andb_true_iff in B as [B1 B2].
  rewrite forallb_forall in B2. split; [exact (nodup_lit _ B1)|]. split; [apply Forall_forall; intros p Ip; exact (proj1 (nice_spec p (B2 p Ip)))|].
  split; [apply str_eqb_eq, B3|apply Forall_forall; intros p Ip; exact (proj2 (nice_spec p (B2 p Ip)))].
Qed.
Lemma default_survives env path ho s : shuffles ho -> In s all_default_schemas ->
  exists s', to_schema env path (written_schema ho s) = Ok s' /\ forall ho', shuffles ho' -> said ho' s' = said ho s.
Proof.
  intros O Is. pose proof defaults_nice as N. rewrite Forall_forall in N. destruct (N s Is) as (W & P & T & St).
  destruct (C32_survives_exactly env path ho ho s O O W P) as (s' & E & _). exists s'. split; [exact E|]. intros ho' O'.
  destruct (C32_survives_exactly env path ho ho' s O O' W P) as (s2 & E2 & X). assert (s2 = s') by congruence. subst s2. destruct (proj2 X (conj T St)) as [A B]. unfold said. rewrite A, B. reflexivity.
Qed.
Lemma listed_field ho s id f : shuffles ho -> (In (id, f) (s_fields s) -> In (decl_of (id, f)) (listing ho s)) /\
  (forall de, In de (listing ho s) -> exists id f, In (id, f) (s_fields s) /\ decl_of (id, f) = de).
Proof.
  intros O. pose proof (ordered_perm ho s O) as P. unfold listing. split.
  - intros I. apply in_map. exact (Permutation_in _ (Permutation_sym P) I).
  - intros de I. apply in_map_iff in I as ((i & g) & <- & I). exists i, g. split; [exact (Permutation_in _ P I)|reflexivity].
Qed.
Lemma conforms_said ho ho' s s' e : shuffles ho -> shuffles ho' -> said ho' s' = said ho s -> conforms s e -> conforms s' e.
Proof.
  intros O O' E (T & C). unfold said in E. injection E as E1 E2. split; [congruence|]. intros id f I.
  apply (proj1 (listed_field ho' s' id f O')) in I. rewrite E2 in I. apply (proj2 (listed_field ho s id f O)) in I as (i & g & I & D).
  unfold decl_of in D. cbn [fst snd] in D. injection D as D1 D2 D3 D4. subst i. destruct (C id g I) as (A & B & G). rewrite <- D2, <- D3, <- D4. auto.
Qed.

(** ** The entities *)
Lemma first_survive env path pn on : survives env default_options path (VStr pn) -> survives env default_options path (VStr on) ->
  Forall (fun e => to_entity env path (written_entity env default_options e) = Ok e) (first_entities pn on).
Proof.
  intros A B. unfold first_entities. constructor; [|constructor; [|constructor]].
  - exact (C47_normal_entities_survive env default_options path (L "person") (sanitize_entity_id pn) [(L "name", VStr pn)] ltac:(vm_compute; reflexivity) (sanitized_normal pn) ltac:(cbn; intuition discriminate) ltac:(constructor; [exact A|constructor])).
  - exact (C47_normal_entities_survive env default_options path (L "organization") (sanitize_entity_id on) [(L "name", VStr on)] ltac:(vm_compute; reflexivity) (sanitized_normal on) ltac:(cbn; intuition discriminate) ltac:(constructor; [exact B|constructor])).
Qed.
Lemma first_conform pn on : conforms person (hd (default_entity [] []) (first_entities pn on)) /\ conforms organization (nth 1 (first_entities pn on) (default_entity [] [])).
Proof.
  assert (O : shuffles (fun l : list (field_id * fschema) => l)) by (intros l; apply Permutation_refl).
  split; apply (validate_conforms _ _ _ O); reflexivity.
Qed.

(** ** The files *)
Section Builds.
  Variables (c : ctx) (w : place) (d : fs) (pn on : str).
  Hypotheses (SH : shuffles (c_fields c)) (PS : forall l, Permutation (c_schemas c l) l) (PC : forall l, Permutation (c_files c l) l).
  Hypotheses (RI : runs_in c d w) (NL : no_links_in w d) (TD : tidy d).
  Let mt := generate_dsl (c_env c) default_options (first_entities pn on).
  Let places := [L "main.firm"] :: map schema_place all_default_schemas.
  Let texts := mt :: map (schema_text c) all_default_schemas.
  Hypothesis SRC : forall r s, source_of w d r s <-> In (r, s) (combine places texts).
  Hypotheses (RS : Forall (reads_schema_text c) all_default_schemas) (RE : reads_entities_text c (first_entities pn on)).
  Hypotheses (SP : survives (c_env c) default_options (L "main.firm") (VStr pn)) (SO : survives (c_env c) default_options (L "main.firm") (VStr on)).
  Let parsed_as (t : str) : parsed := match c_parse c t with Some ps => ps | None => {| ps_error := true; ps_schemas := []; ps_entities := [] |} end.
  Let entries := map (fun rt => loaded c (fst rt) (parsed_as (snd rt))) (combine places texts).
  Lemma in_items r s : In (r, s) (combine places texts) -> is_text s = true /\ c_parse c s = Some (parsed_as s).
  Proof.
    unfold places, texts. cbn [combine]. intros [E|I].
    - injection E as _ <-. destruct RE as (T & ps & P & _). split; [exact T|]. unfold parsed_as. fold mt in P. rewrite P. reflexivity.
    - apply in_combine_r in I. apply in_map_iff in I as (x & <- & I). rewrite Forall_forall in RS. destruct (RS x I) as (T & ps & P & _). split; [exact T|].
      unfold parsed_as, schema_text. rewrite P. reflexivity.
  Qed.
  Lemma entries_perm fs : load_directory c d = Ok fs -> Permutation fs entries.
  Proof.
    intros LD. destruct (load_directory_spec c d w fs RI NL TD LD) as (N & I & _). apply NoDup_Permutation; [apply nodup_keys, N| |].
    - apply (NoDup_map_inv (fun e => wf_rel (snd e))). unfold entries. rewrite map_map. cbn [loaded snd wf_rel].
      replace (map (fun x : path * str => path_text (fst x)) (combine places texts)) with (map path_text places).
      + apply nodup_lit. vm_compute. reflexivity.
      + rewrite <- (map_map fst path_text). reflexivity.
    - intros e. rewrite I. unfold entries. rewrite in_map_iff. split.
      + intros (r & s & ps & S & P & ->). apply SRC in S. exists (r, s). split; [|exact S]. destruct (in_items r s S) as [_ Q]. cbn [fst snd]. congruence.
      + intros ((r & s) & <- & S). exists r, s, (parsed_as s). split; [apply SRC, S|]. split; [exact (proj2 (in_items r s S))|reflexivity].
  Qed.
  Lemma entries_schemas : schema_blocks entries = map (fun s => (path_text (schema_place s), written_schema (c_fields c) s)) all_default_schemas.
  Proof.
    unfold entries, places, texts, schema_blocks. cbn [combine map flat_map loaded snd wf_schemas wf_rel fst]. destruct RE as (_ & ps & P & S & _). fold mt in P. unfold parsed_as at 1. rewrite P, S. cbn [map app].
    clear - RS. induction RS as [|s l (_ & ps & P & S & _) F IH]; cbn [combine map flat_map loaded snd wf_schemas wf_rel fst]; [reflexivity|].
    unfold parsed_as at 1. unfold schema_text at 1. rewrite P, S. cbn [map app]. f_equal. exact (IH F).
  Qed.
  Lemma entries_entities : entity_blocks entries = map (fun e => (L "main.firm", written_entity (c_env c) default_options e)) (first_entities pn on).
  Proof.
    unfold entries, places, texts, entity_blocks. cbn [combine map flat_map loaded snd wf_entities wf_rel fst]. destruct RE as (_ & ps & P & _ & S). fold mt in P. unfold parsed_as at 1. rewrite P, S.
    match goal with |- ?a ++ ?b = _ => assert (X : b = []) end.
    { clear - RS. induction RS as [|s l (_ & ps & P & _ & S) F IH]; cbn [combine map flat_map loaded snd wf_entities wf_rel fst]; [reflexivity|].
      unfold parsed_as at 1. unfold schema_text at 1. rewrite P, S. cbn [map app]. exact (IH F). }
    rewrite X, app_nil_r, map_map. reflexivity.
  Qed.
  Lemma first_builds : exists st, rebuild c d = Ok st /\ Permutation (b_entities (st_build st)) (first_entities pn on) /\
    (forall ho, shuffles ho -> Permutation (map (said ho) (b_schemas (st_build st))) (map (said (c_fields c)) all_default_schemas)) /\
    (forall e, In e (first_entities pn on) -> get_entity (st_graph st) (e_id e) = Some e) /\
    (forall id e, get_entity (st_graph st) id = Some e -> In e (first_entities pn on)).
  Proof.
    destruct (load_directory_success c d w RI NL) as (fs & LD).
    { intros r s S. apply SRC in S. destruct (in_items r s S) as [T P]. split; [exact T|congruence]. }
    pose proof (entries_perm fs LD) as PE.
    destruct (choose_all (fun s s' => to_schema (c_env c) (path_text (schema_place s)) (written_schema (c_fields c) s) = Ok s' /\ forall ho', shuffles ho' -> said ho' s' = said (c_fields c) s) all_default_schemas) as (ss & FS).
    { apply Forall_forall. intros s Is. apply default_survives; auto. }
    assert (Map : forall ho, shuffles ho -> map (said ho) ss = map (said (c_fields c)) all_default_schemas).
    { intros ho O. clear - FS O. induction FS as [|s s' l l' [_ H] F IH]; cbn [map]; [reflexivity|]. rewrite (H ho O), IH. reflexivity. }
    assert (CO : consistent (c_env c) entries ss (first_entities pn on)).
    { split; [|split; [|split]].
      - rewrite entries_schemas. clear - FS. induction FS as [|s s' l l' [H _] F IH]; cbn [map]; constructor; auto.
      - rewrite entries_entities. pose proof (first_survive (c_env c) (L "main.firm") pn on SP SO) as F. clear - F. induction F as [|e l H F IH]; cbn [map]; constructor; auto.
      - replace (map s_type ss) with default_types; [apply nodup_lit; vm_compute; reflexivity|]. rewrite <- defaults_types. rewrite <- !(map_map (said (c_fields c)) fst) by idtac. specialize (Map (c_fields c) SH).
        transitivity (map fst (map (said (c_fields c)) all_default_schemas)); [rewrite map_map; reflexivity|]. rewrite <- Map, map_map. reflexivity.
      - intros e He.
        assert (G : forall s0, In s0 all_default_schemas -> conforms s0 e -> exists s, In s ss /\ conforms s e).
        { intros s0 I0 C0. destruct (L_Load.Forall2_in_l _ _ _ s0 FS I0) as (s' & I' & _ & H). exists s'. split; [exact I'|]. exact (conforms_said (c_fields c) (c_fields c) s0 s' e SH SH (H _ SH) C0). }
        destruct (first_conform pn on) as [Cp Cg]. unfold first_entities in He, Cp, Cg. cbn [hd nth] in Cp, Cg. destruct He as [<-|[<-|[]]]; [apply (G person)|apply (G organization)]; auto; [left; reflexivity|right; left; reflexivity]. }
    destruct (consistent_perm (c_env c) entries (c_files c fs) ss (first_entities pn on)) as (ss' & es' & CO' & Q1 & Q2); [rewrite <- PE; symmetry; apply PC|exact CO|].
    pose (b := {| b_entities := es'; b_schemas := c_schemas c ss' |}).
    assert (ND0 : NoDup (map e_id (first_entities pn on))) by (cbn [first_entities map e_id]; constructor; [intros [X|[]]; discriminate|constructor; [intros []|constructor]]).
    assert (ND : NoDup (map e_id es')) by (eapply Permutation_NoDup; [apply Permutation_map; exact Q2|exact ND0]).
    assert (LG : load_graph (c_env c) (c_fields c) (c_schemas c) (c_files c fs) = Ok (b, run [OAddMany es'; OBuild])).
    { apply load_ok. split; [|auto]. apply (build_ok _ _ _ _ _ SH). exists ss'. auto. }
    exists {| st_files := c_files c fs; st_build := b; st_graph := run [OAddMany es'; OBuild] |}.
    assert (GE : forall id, get_entity (run [OAddMany es'; OBuild]) id = lookup es' id) by (intros id; rewrite (proj1 (P_Graph.C05_lookup_and_results _)), (load_spec _ ND); reflexivity).
    split; [unfold rebuild; rewrite LD; cbn [omap_err obind]; rewrite LG; reflexivity|]. split; [symmetry; exact Q2|]. split; [|split].
    - intros ho O. cbn [st_build b b_schemas]. rewrite <- (Map ho O). apply Permutation_map. rewrite (PS ss'). symmetry. exact Q1.
    - intros e He. cbn [st_graph]. rewrite GE. apply lookup_in; [exact ND|]. exact (Permutation_in e Q2 He).
    - intros id e He. cbn [st_graph] in He. rewrite GE in He. apply lookup_some in He as [He _]. exact (Permutation_in e (Permutation_sym Q2) He).
  Qed.
End Builds.
