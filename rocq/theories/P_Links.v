(** C73: what the source files refer to is what is related. *)
From Coq Require Import Permutation Sorted.
From Verif Require Import S_Graph L_Graph P_Graph.
From Verif Require M_Query S_Query.
From Verif Require Import S_Links S_Tools L_Str L_Text L_Schema L_Ids L_Workspace L_DslVal L_Whole P_Tools P_Schema P_Dsl P_Server P_Add P_Cli P_Grow P_Syntax P_Whole.
From Verif Require Import M_Fs M_Dsl M_Tools S_Links.
Close Scope Z_scope.

Lemma names_value env path : forall vn, value_syntax vn -> forall p, from_node env path vn = Ok p ->
  forall id, (exists x, holds (to_value p) x /\ ref_target x = id) <-> names_entity vn id.
Proof.
  fix IH 2. intros vn VS. destruct VS as [k raw LS|g vs t G IS FV]; intros p FN id.
  - pose proof (node_kind_of _ _ _ _ _ _ FN) as K. split.
    + intros (x & H & E). destruct p; cbn [to_value] in H; inversion H; subst.
      * pose proof (ref_kind k t i K) as ->. cbn [from_node] in FN. unfold parse_reference in FN. inversion LS; subst.
        -- rewrite split_two in FN by (now apply name_no_dot). injection FN as <- <-. now constructor.
        -- rewrite split_three in FN by (now apply name_no_dot). discriminate.
      * assert (k = KReference) as -> by (clear - K; revert K; one_kind). cbn [from_node] in FN. unfold parse_reference in FN. inversion LS; subst.
        -- rewrite split_two in FN by (now apply name_no_dot). discriminate.
        -- rewrite split_three in FN by (now apply name_no_dot). injection FN as <- <- <-. now constructor.
      * exfalso. assert (k = KList) as -> by (clear - K; revert K; one_kind). inversion LS.
    + intros N. inversion N as [t i T I E1 E2|t i f T I F E1 E2|raw' vs' v id' Iv Nv E1 E2]; subst.
      * assert (FN' : from_node env path (VNode (Some KReference) (t ++ L "." ++ i) []) = Ok p) by exact FN. cbn [from_node] in FN'. unfold parse_reference in FN'.
        rewrite split_two in FN' by (now apply name_no_dot). injection FN' as <-. eexists. split; [constructor|reflexivity].
      * assert (FN' : from_node env path (VNode (Some KReference) (t ++ L "." ++ i ++ L "." ++ f) []) = Ok p) by exact FN. cbn [from_node] in FN'. unfold parse_reference in FN'.
        rewrite split_three in FN' by (now apply name_no_dot). injection FN' as <-. eexists. split; [constructor|reflexivity].
      * destruct Iv.
  - rewrite from_node_list in FN. destruct (omap (from_node env path) vs) as [ps| |] eqn:O; try discriminate. cbn [obind] in FN.
    assert (p = PList ps) as -> by (destruct (list_cases ps) as [[LL _]|(p0 & a & q & b & E & _ & NE & LL)]; rewrite LL in FN; [now injection FN as <-|discriminate]).
    apply omap_ok in O. cbn [to_value].
    assert (J : (exists x, (exists v, In v (map to_value ps) /\ holds v x) /\ ref_target x = id) <-> exists v, In v vs /\ names_entity v id).
    { clear - IH FV O. revert ps O. induction FV as [|v vs Hv FV IHl]; intros ps O; inversion O as [|? q ? qs Q O']; subst.
      - split; [intros (x & (v & [] & _) & _)|intros (v & [] & _)].
      - pose proof (IH v Hv q Q id) as A. specialize (IHl qs O'). cbn [map]. split.
        + intros (x & (u & [<-|Iu] & H) & E); [exists v; split; [now left|apply A; eauto]|].
          destruct (proj1 IHl) as (v' & Iv & N); [exists x; eauto|]. exists v'. split; [now right|exact N].
        + intros (v' & [<-|Iv] & N); [apply A in N as (x & H & E); exists x; split; [exists (to_value q); split; [now left|exact H]|exact E]|].
          destruct (proj2 IHl) as (x & (u & Iu & H) & E); [eauto|]. exists x. split; [exists u; split; [now right|exact H]|exact E]. }
    split.
    + intros (x & H & E). inversion H; subst. destruct (proj1 J) as (v' & Iv & N); [eauto|]. econstructor; eassumption.
    + intros N. inversion N; subst. destruct (proj2 J) as (x & (u & Iu & H) & E); [eauto|]. exists x. split; [econstructor; eassumption|exact E].
Qed.

(** What an entity mentions is what its block names. *)
Lemma names_block env path bs s t i fs e : file_syntax bs s -> In (EntityBlock {| en_type := Some t; en_id := Some i; en_fields := fs |}) bs ->
  to_entity env path {| en_type := Some t; en_id := Some i; en_fields := fs |} = Ok e ->
  e_id e = compose_entity_id t i /\
  forall id, (exists f v x, In (f, v) (e_fields e) /\ holds v x /\ ref_target x = id) <-> block_names fs id.
Proof.
  intros FS I R. destruct (block_shape bs s _ FS I) as (t' & i' & fs' & body & E & FSy). injection E as <- <- <-. pose proof (fields_shape fs body FSy) as SH. clear FSy FS I.
  unfold to_entity in R. cbn [en_type en_id en_fields of_option obind] in R. destruct (omap (convert_field env path) fs) as [vs| |] eqn:O; try discriminate. cbn [obind] in R. injection R as <-.
  cbn [e_id e_fields]. split; [reflexivity|]. intros id. apply omap_ok in O. unfold block_names.
  revert vs O. induction SH as [|n fs (nm & vn & -> & VS) SH IH]; intros vs O; inversion O as [|? [f v] ? vs' C O']; subst.
  - split; [intros (f & v & x & [] & _)|intros (name & v & [] & _)].
  - replace (convert_field env path (field_node nm vn)) with (obind (omap_err (fun _ : perr => InvalidFieldValue) (from_node env path vn)) (fun p => Ok (nm, to_value p))) in C by reflexivity.
    destruct (from_node env path vn) as [p| |] eqn:P; try discriminate. injection C as <- <-. pose proof (names_value env path vn VS p P id) as A. specialize (IH vs' O'). split.
    + intros (f & v & x & [X|X] & H & E); [injection X as <- <-; exists nm, vn; split; [now left|apply A; eauto]|].
      destruct (proj1 IH) as (name & u & Iu & N); [exists f, v, x; auto|]. exists name, u. split; [now right|exact N].
    + intros (name & u & [X|X] & N); [injection X as <- <-; apply A in N as (x & H & E); exists nm, (to_value p), x; split; [now left|auto]|].
      destruct (proj2 IH) as (f & v & x & Iv & H & E); [eauto|]. exists f, v, x. split; [now right|auto].
Qed.
Lemma not_schema bs s t i fs : file_syntax bs s -> In (EntityBlock {| en_type := Some t; en_id := Some i; en_fields := fs |}) bs -> t <> L "schema".
Proof. induction 1; intros X; [destruct X| |]; destruct X as [X|X]; auto; [injection X as <- _ _; assumption|discriminate]. Qed.

(** The [related] tool answers for a declared entity the declared entities that
    its block names, that name it, or both, as asked, and no others. *)
Theorem C73_references_are_related : forall c w d st t i fs dir, built c w d st -> declares w d t i fs ->
  exists ids, related_tool st t i dir = Some ids /\ StronglySorted (fun a b => str_cmp a b = Lt) ids /\
    forall id, In id ids <-> exists t' i' fs', declares w d t' i' fs' /\ id = compose_entity_id t' i' /\ blocks_linked dir (compose_entity_id t i) fs id fs'.
Proof.
  intros c w d st t i fs dir B (r & s & bs & SO & FS & Ib). pose proof (not_schema _ _ _ _ _ FS Ib) as NS.
  assert (RB : rebuild c d = Ok st) by apply B. destruct (built_parts c w d st B) as (ss & (_ & F & _) & _ & ND & Eg & SR).
  assert (Iblk : In (path_text r, {| en_type := Some t; en_id := Some i; en_fields := fs |}) (entity_blocks (st_files st))) by (apply (block_iff c w d st B); exists r, s, bs; auto).
  destruct (C54_get_what_is_declared c d st _ _ t i (bt_fields _ _ _ _ B) RB NS Iblk eq_refl eq_refl) as (e & RE & GT).
  destruct (names_block _ _ _ _ _ _ _ _ FS Ib RE) as [Eid NB].
  pose proof (C54_related_is_exact c d st t i dir RB NS) as R. destruct (related_tool st t i dir) as [ids|]; [|rewrite GT in R; discriminate].
  destruct R as (e0 & GT0 & SS & H). rewrite GT in GT0. injection GT0 as <-. exists ids. split; [reflexivity|]. split; [exact SS|].
  assert (GE : forall id e', get_entity (st_graph st) id = Some e' <-> In e' (b_entities (st_build st)) /\ e_id e' = id).
  { intros id e'. rewrite Eg. change (build (run [OAddMany (b_entities (st_build st))])) with (run [OAddMany (b_entities (st_build st)); OBuild]).
    rewrite (proj1 (C05_lookup_and_results _)). change (spec_run [OAddMany (b_entities (st_build st)); OBuild]) with (spec_run [OAddMany (b_entities (st_build st))]). rewrite SR.
    split; [intros X; apply lookup_some in X; exact X|intros [X <-]; apply lookup_in; assumption]. }
  assert (LK : forall e' fs' t' i', e_id e' = compose_entity_id t' i' ->
    (forall id, (exists f v x, In (f, v) (e_fields e') /\ holds v x /\ ref_target x = id) <-> block_names fs' id) ->
    (neighbour dir e e' <-> blocks_linked dir (compose_entity_id t i) fs (e_id e') fs')).
  { intros e' fs' t' i' Ei NB'. unfold neighbour, mentions, blocks_linked. rewrite Eid. destruct dir as [[|]|]; rewrite ?NB, ?NB'; reflexivity. }
  intros id. rewrite H. split.
  - intros (e' & G & N). apply GE in G as [I' <-]. apply (entity_iff c w d st B) in I' as (r' & s' & bs' & n & SO' & FS' & In' & R').
    destruct (block_shape _ _ _ FS' In') as (t' & i' & fs' & body & -> & _). destruct (names_block _ _ _ _ _ _ _ _ FS' In' R') as [Ei NB'].
    exists t', i', fs'. split; [exists r', s', bs'; auto|]. split; [exact Ei|]. now apply (LK e' fs' t' i' Ei NB').
  - intros (t' & i' & fs' & (r' & s' & bs' & SO' & FS' & In') & -> & BL).
    assert (Ib' : In (path_text r', {| en_type := Some t'; en_id := Some i'; en_fields := fs' |}) (entity_blocks (st_files st))) by (apply (block_iff c w d st B); exists r', s', bs'; auto).
    destruct (L_Load.Forall2_in_l _ _ _ _ F Ib') as (e' & Ie & R'). unfold reads_entity in R'. cbn [fst snd] in R'. destruct (names_block _ _ _ _ _ _ _ _ FS' In' R') as [Ei NB'].
    exists e'. split; [apply GE; auto|]. apply (LK e' fs' t' i' Ei NB'). rewrite Ei. exact BL.
Qed.
Print Assumptions C73_references_are_related.

(** A reference to an entity that no file declares leads nowhere. *)
Theorem C73_undeclared_references_lead_nowhere : forall c w d st t i fs dir ids id, built c w d st -> declares w d t i fs ->
  related_tool st t i dir = Some ids -> (forall t' i' fs', declares w d t' i' fs' -> id <> compose_entity_id t' i') -> ~ In id ids.
Proof.
  intros c w d st t i fs dir ids id B D R U I. destruct (C73_references_are_related c w d st t i fs dir B D) as (ids' & R' & _ & H). rewrite R in R'. injection R' as <-.
  apply H in I as (t' & i' & fs' & D' & E & _). exact (U t' i' fs' D' E).
Qed.
Print Assumptions C73_undeclared_references_lead_nowhere.

Example C73_related_case : built c9 w0 d14 st14 /\ (exists fs, declares w0 d14 (L "person") (L "ann") fs /\ block_names fs (L "person.jane")) /\
  related_tool st14 (L "person") (L "ann") (Some Outgoing) = Some [L "person.jane"] /\ related_tool st14 (L "person") (L "jane") (Some Outgoing) = Some [] /\
  related_tool st14 (L "person") (L "jane") None = Some [L "person.ann"].
Proof.
  split; [exact d14_built|]. split; [|repeat split; vm_compute; reflexivity].
  destruct C73_case as (_ & _ & _ & _ & _ & _ & _ & _ & _ & _ & (fs & D & (l & r & E & _)) & _). exists fs. split; [exact D|].
  exists (L "boss"), (VNode (Some KReference) (L "person" ++ L "." ++ L "jane") []). split; [rewrite E; apply in_or_app; right; now left|].
  change (L "person.jane") with (compose_entity_id (L "person") (L "jane")). constructor; word.
Qed.
