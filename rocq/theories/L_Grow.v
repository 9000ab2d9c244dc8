(** A workspace that builds still does when an entity block is added to it. *)
From Coq Require Import Lia.
From Verif Require Import S_Graph L_Graph.
From Verif Require Import S_Grow L_Str L_Schema L_Schema2 L_Ids L_Fs L_Server L_Load L_Workspace L_History.
From Verif Require P_Graph.
Close Scope Z_scope.

Lemma consistent_grow env fs fs' ss es b e s : consistent env fs ss es -> Permutation (schema_blocks fs) (schema_blocks fs') ->
  Permutation (b :: entity_blocks fs) (entity_blocks fs') -> reads_entity env b e -> In s ss -> conforms s e ->
  exists ss' es', consistent env fs' ss' es' /\ Permutation ss ss' /\ Permutation (e :: es) es'.
Proof.
  intros (F1 & F2 & N & C) P1 P2 R I Co.
  destruct (Forall2_perm _ _ _ P1 _ F1) as (ss' & Q1 & F1').
  destruct (Forall2_perm (reads_entity env) _ _ P2 (e :: es) (Forall2_cons _ _ R F2)) as (es' & Q2 & F2').
  exists ss', es'. split; [|auto]. split; [exact F1'|]. split; [exact F2'|]. split.
  - eapply Permutation_NoDup; [apply Permutation_map; exact Q1|exact N].
  - intros e' He. apply (Permutation_in _ (Permutation_sym Q2)) in He as [<-|He].
    + exists s. split; [exact (Permutation_in s Q1 I)|exact Co].
    + destruct (C e' He) as (s' & I' & H). exists s'. split; [exact (Permutation_in s' Q1 I')|exact H].
Qed.
Lemma nodup_keys {A B} (l : list (A * B)) : NoDup (map fst l) -> NoDup l.
Proof. apply NoDup_map_inv. Qed.

(** The files after one of them was changed or added. *)
Section Grow.
  Variables (c : ctx) (d d' : fs) (w : place) (r : path) (old text : str) (n : enode).
  Hypotheses (RI : runs_in c d w) (NL : no_links_in w d) (TD : tidy d).
  Hypotheses (RI' : runs_in c d' w) (NL' : no_links_in w d') (TD' : tidy d').
  Hypotheses (AP : became w d d' r old text) (OC : only_changed (w ++ r) d d') (AN : adds_node c old text n).
  Let OLD := proj1 AP. Let SO := proj2 AP.
  Lemma other_source r' s : r' <> r -> (source_of w d' r' s <-> source_of w d r' s).
  Proof.
    intros N. assert (X : w ++ r' <> w ++ r) by (intros E; apply app_inv_head in E; auto). unfold source_of. split; intros [A B]; (split; [|exact B]).
    - destruct (OC _ X) as [<-|[_ D]]; [exact A|congruence].
    - destruct (OC _ X) as [->|[D _]]; [exact A|congruence].
  Qed.
  Lemma grow_files fs : load_directory c d = Ok fs -> exists fs', load_directory c d' = Ok fs' /\
    Permutation (schema_blocks fs) (schema_blocks fs') /\ Permutation ((path_text r, n) :: entity_blocks fs) (entity_blocks fs').
  Proof.
    intros LD. destruct (load_directory_spec c d w fs RI NL TD LD) as (N & I & P).
    destruct AN as (TX & p0 & p1 & Q0 & Q1 & ES & EE & E0).
    assert (EQ : forall r' : path, {r' = r} + {r' <> r}) by (intros r'; repeat decide equality).
    destruct (load_directory_success c d' w RI' NL') as (fs' & LD').
    { intros r' s S. destruct (EQ r') as [->|X].
      - assert (s = text) by (destruct S as [S _], SO as [S' _]; congruence). subst s. split; [exact TX|congruence].
      - apply (P r' s). apply other_source; auto. }
    destruct (load_directory_spec c d' w fs' RI' NL' TD' LD') as (N' & I' & _). exists fs'. split; [exact LD'|].
    pose (key := path_text (c_ws c ++ r)). pose (rest := filter (fun e => negb (str_eqb (fst e) key)) fs).
    pose proof RI as (_ & SW & _).
    assert (KEY : forall r' s, source_of w d' r' s -> path_text (c_ws c ++ r') = key -> r' = r).
    { intros r' s S E. assert (G : forall q t, source_of w d' q t -> slashless (c_ws c ++ q) /\ c_ws c ++ q <> []).
      { intros q t [A (q' & m & -> & _)]. split; [apply Forall_app; split; [exact SW|]; apply (below_slashless d' w); [apply RI'|congruence]|].
        intros X. apply app_eq_nil in X as [_ X]. destruct q'; discriminate. }
      destruct (G _ _ S) as [G1 G2], (G _ _ SO) as [G3 G4]. apply path_text_inj in E; auto. exact (app_inv_head _ _ _ E). }
    assert (NR : NoDup rest) by (apply NoDup_filter, nodup_keys, N).
    assert (A' : Permutation fs' (loaded c r p1 :: rest)).
    { apply NoDup_Permutation; [apply nodup_keys, N'|constructor; [|exact NR]|].
      - intros H. apply filter_In in H as [_ H]. cbn [loaded fst] in H. fold key in H. rewrite str_eqb_refl in H. discriminate.
      - intros e. rewrite I'. split.
        + intros (r' & s & ps & S & Q & ->). destruct (EQ r') as [->|X].
          * left. assert (s = text) by (destruct S as [S _], SO as [S' _]; congruence). subst s. congruence.
          * right. apply filter_In. split; [apply I; exists r', s, ps; split; [apply other_source; auto|auto]|].
            apply Bool.negb_true_iff. destruct (str_eqb_spec (fst (loaded c r' ps)) key) as [E|]; [|reflexivity]. destruct X. exact (KEY _ _ S E).
        + intros [<-|H]; [exists r, text, p1; auto|]. apply filter_In in H as [H K]. apply I in H as (r' & s & ps & S & Q & ->).
          exists r', s, ps. split; [|auto]. apply other_source; [|exact S]. intros ->. cbn [loaded fst] in K. fold key in K. rewrite str_eqb_refl in K. discriminate. }
    assert (A : (old = [] /\ Permutation fs rest) \/ Permutation fs (loaded c r p0 :: rest)).
    { destruct OLD as [O|[O EN]].
      - right. apply NoDup_Permutation; [apply nodup_keys, N|constructor; [|exact NR]|].
        + intros H. apply filter_In in H as [_ H]. cbn [loaded fst] in H. fold key in H. rewrite str_eqb_refl in H. discriminate.
        + assert (S0 : source_of w d r old) by (split; [exact O|exact (proj2 SO)]).
          intros e. split.
          * intros H. destruct (str_eqb (fst e) key) eqn:K; [|right; apply filter_In; rewrite K; auto]. left. apply str_eqb_eq in K.
            apply I in H as (r' & s & ps & S & Q & ->). assert (r' = r).
            { destruct (EQ r') as [->|X]; [reflexivity|]. apply (KEY r' s); [apply other_source; auto|exact K]. }
            subst r'. assert (s = old) by (destruct S as [S _], S0 as [S' _]; congruence). subst s. congruence.
          * intros [<-|H]; [apply I; exists r, old, p0; auto|]. apply filter_In in H as [H _]. exact H.
      - left. split; [exact EN|]. apply NoDup_Permutation; [apply nodup_keys, N|exact NR|]. intros e. split; [|intros H; apply filter_In in H as [H _]; exact H].
        intros H. apply filter_In. split; [exact H|]. apply Bool.negb_true_iff. destruct (str_eqb_spec (fst e) key) as [K|]; [|reflexivity].
        apply I in H as (r' & s & ps & S & Q & ->). assert (r' = r).
        { destruct (EQ r') as [->|X]; [reflexivity|]. apply (KEY r' s); [apply other_source; auto|exact K]. }
        subst r'. destruct S as [S _]. congruence. }
    assert (SB : schema_blocks (loaded c r p1 :: rest) = schema_blocks (loaded c r p0 :: rest)) by (unfold schema_blocks; cbn [flat_map loaded snd wf_schemas wf_rel]; rewrite ES; reflexivity).
    assert (EB : Permutation ((path_text r, n) :: entity_blocks (loaded c r p0 :: rest)) (entity_blocks (loaded c r p1 :: rest))).
    { unfold entity_blocks. cbn [flat_map loaded snd wf_entities wf_rel]. rewrite EE, map_app, <- app_assoc. cbn [map app]. apply Permutation_middle. }
    assert (A0 : Permutation (schema_blocks fs) (schema_blocks (loaded c r p0 :: rest)) /\ Permutation (entity_blocks fs) (entity_blocks (loaded c r p0 :: rest))).
    { destruct A as [[E A]|A]; [|split; apply perm_flat_map, A]. destruct (E0 E) as [X Y]. unfold schema_blocks, entity_blocks. cbn [flat_map loaded snd wf_schemas wf_entities wf_rel].
      rewrite X, Y. cbn [map app]. split; apply perm_flat_map, A. }
    split.
    - rewrite (proj1 A0), <- SB. apply Permutation_sym. exact (perm_flat_map _ _ _ A').
    - rewrite (proj2 A0), EB. apply Permutation_sym. exact (perm_flat_map _ _ _ A').
  Qed.
  Lemma grow_rebuild st s e : shuffles (c_fields c) -> (forall l, Permutation (c_schemas c l) l) -> (forall l, Permutation (c_files c l) l) ->
    rebuild c d = Ok st -> to_entity (c_env c) (path_text r) n = Ok e -> In s (b_schemas (st_build st)) -> conforms s e -> get_entity (st_graph st) (e_id e) = None ->
    exists st', rebuild c d' = Ok st' /\ grown st st' e.
  Proof.
    intros SH PS PC B TE Is Co G. destruct (rebuild_files c d st B) as (fs & LD & Ef & LG). destruct (grow_files fs LD) as (fs' & LD' & P1 & P2).
    apply load_ok in LG as (BW & ND & Eg). apply (build_ok _ _ _ _ _ SH) in BW as (ss & Cn & Es).
    assert (Is' : In s ss) by (rewrite Es in Is; exact (Permutation_in s (PS ss) Is)).
    assert (F1 : Permutation (schema_blocks (st_files st)) (schema_blocks (c_files c fs'))).
    { rewrite Ef. rewrite (perm_flat_map _ _ _ (PC fs) : Permutation (schema_blocks (c_files c fs)) (schema_blocks fs)), P1. apply Permutation_sym. exact (perm_flat_map _ _ _ (PC fs')). }
    assert (F2 : Permutation ((path_text r, n) :: entity_blocks (st_files st)) (entity_blocks (c_files c fs'))).
    { rewrite Ef. rewrite (perm_flat_map _ _ _ (PC fs) : Permutation (entity_blocks (c_files c fs)) (entity_blocks fs)), P2. apply Permutation_sym. exact (perm_flat_map _ _ _ (PC fs')). }
    destruct (consistent_grow _ _ _ _ _ _ _ s Cn F1 F2 TE Is' Co) as (ss' & es' & Cn' & Q1 & Q2).
    assert (GE : forall id, get_entity (st_graph st) id = lookup (b_entities (st_build st)) id) by (intros id; rewrite Eg, (proj1 (P_Graph.C05_lookup_and_results _)), (load_spec _ ND); reflexivity).
    assert (ND1 : NoDup (map e_id (e :: b_entities (st_build st)))).
    { cbn [map]. constructor; [|exact ND]. intros H. apply in_map_iff in H as (e0 & E & H). rewrite GE, <- E, (lookup_in _ _ ND H) in G. discriminate. }
    assert (ND2 : NoDup (map e_id es')) by (eapply Permutation_NoDup; [apply Permutation_map; exact Q2|exact ND1]).
    pose (b' := {| b_entities := es'; b_schemas := c_schemas c ss' |}).
    assert (LG' : load_graph (c_env c) (c_fields c) (c_schemas c) (c_files c fs') = Ok (b', run [OAddMany es'; OBuild])).
    { apply load_ok. split; [|auto]. apply (build_ok _ _ _ _ _ SH). exists ss'. auto. }
    exists {| st_files := c_files c fs'; st_build := b'; st_graph := run [OAddMany es'; OBuild] |}. split.
    - unfold rebuild. rewrite LD'. cbn [omap_err obind]. rewrite LG'. reflexivity.
    - assert (GE' : forall id, get_entity (run [OAddMany es'; OBuild]) id = lookup (e :: b_entities (st_build st)) id).
      { intros id. rewrite (proj1 (P_Graph.C05_lookup_and_results _)), (load_spec _ ND2). symmetry. apply lookup_perm; auto. }
      split; [cbn [st_build b_schemas b']; rewrite Es, (PS ss'), (PS ss); apply Permutation_sym, Q1|].
      split; [cbn [st_build b_entities b']; apply Permutation_sym, Q2|]. cbn [st_graph]. split.
      + rewrite GE'. apply lookup_in; [exact ND1|left; reflexivity].
      + intros id X. rewrite GE', GE. unfold lookup. cbn [find]. destruct (str_eqb_spec (e_id e) id); [congruence|reflexivity].
  Qed.
End Grow.

(** ** Written by the commands *)
Lemma read_written env o path e fs : Forall2 (fun fv fv' => fst fv' = fst fv /\ read_back env o path (snd fv) = Ok (snd fv')) (e_fields e) fs ->
  to_entity env path (written_entity env o e) =
  Ok {| e_id := compose_entity_id (lower (e_type e)) (snd (decompose_entity_id (e_id e))); e_type := lower (e_type e); e_fields := fs |}.
Proof.
  intros F. unfold to_entity, written_entity. cbn [en_type en_id en_fields of_option obind].
  assert (O : omap (convert_field env path) (map (fun fv => {| fn_id := Some (fst fv); fn_value := Some (written env o (snd fv)) |}) (e_fields e)) = Ok fs).
  { induction F as [|[i v] [i' v'] l l' [E R] F IH]; [reflexivity|]. cbn [map fst snd] in *. cbn [omap]. rewrite IH.
    unfold convert_field at 1. cbn [fn_id fn_value of_option obind field_value]. unfold read_back in R.
    destruct (from_node env path (written env o v)) as [p|er|]; try discriminate. injection R as R. cbn [omap_err obind]. rewrite E, R. reflexivity. }
  rewrite O. reflexivity.
Qed.
Lemma readable_fields c r e : readable_at c r e -> exists fs,
  Forall2 (fun fv fv' => fst fv' = fst fv /\ read_back (c_env c) default_options (path_text r) (snd fv) = Ok (snd fv')) (e_fields e) fs /\
  Forall2 (fun fv fv' => fst fv' = fst fv /\ read_as (snd fv) (snd fv')) (e_fields e) fs.
Proof.
  unfold readable_at. intros H. induction H as [|[i v] l (v' & R & A) F (fs & F1 & F2)]; [exists []; split; constructor|].
  exists ((i, v') :: fs). split; constructor; auto.
Qed.
Lemma first_value_of e i v : first_value e i v -> In (i, v) (e_fields e).
Proof. intros (a & b & E & _). rewrite E. apply in_or_app. right. left. reflexivity. Qed.
Lemma conforms_as s e e' : conforms s e -> entity_as e e' -> conforms s e'.
Proof.
  intros [T C] (_ & T' & F). split; [congruence|]. intros i f I. destruct (C i f I) as (A & B & D).
  assert (K : forall v', first_value e' i v' -> exists v, first_value e i v /\ read_as v v').
  { intros v' (a & b & E & N). rewrite E in F. apply Forall2_app_inv_r in F as (a0 & b0 & Fa & Fb & E0). inversion Fb as [|[i0 v] ? ? ? [X Y] Fb']; subst. cbn [fst snd] in *. subst i0.
    exists v. split; [|exact Y]. exists a0, l. split; [exact E0|]. intros H. apply N. clear - Fa H. induction Fa as [|p q l m [P _] Fa IH]; [destruct H|].
    cbn [map] in *. destruct H as [H|H]; [left; congruence|right; auto]. }
  split; [|split].
  - intros R. destruct (A R) as (v & Hv). destruct (Forall2_in_l _ _ _ F _ Hv) as ([i0 v'] & I0 & E & _). cbn [fst] in E. subst i0. eauto.
  - intros v' H. destruct (K v' H) as (v & Hv & RA). specialize (B v Hv). destruct RA as [->|(p & p' & -> & ->)]; [exact B|]. inversion B. constructor.
  - intros x H. destruct (K _ H) as (v & Hv & RA). destruct RA as [<-|(p & p' & _ & E)]; [|discriminate]. exact (D x Hv).
Qed.
(** The entity as it is read where it was written. *)
Lemma written_read c r e : readable_at c r e -> lower (e_type e) = e_type e -> compose_entity_id (e_type e) (snd (decompose_entity_id (e_id e))) = e_id e ->
  exists e', to_entity (c_env c) (path_text r) (written_entity (c_env c) default_options e) = Ok e' /\ entity_as e e'.
Proof.
  intros H LT CI. destruct (readable_fields c r e H) as (fs & F1 & F2). eexists. split; [exact (read_written _ _ _ _ _ F1)|]. split; [cbn [e_id]; rewrite LT; exact CI|].
  split; [exact LT|exact F2].
Qed.
