(** Lemmas for C91. *)
From Coq Require Import Lia Permutation.
From Verif Require Import S_Graph L_Graph.
From Verif Require L_Spread.
From Verif Require Import S_Life S_Part L_Str L_Ids L_Fs L_Server L_Load L_Workspace L_History L_Broken L_Life L_Undo L_Swap.
From Verif Require Import M_Fs.
Close Scope Z_scope.

Section read.
  Context (env : dsl_env).
  Definition schemas_read (fs : files) : list (outcome _ schema) := map (fun x => to_schema env (fst x) (snd x)) (schema_blocks fs).
  Definition entities_read (fs : files) : list (outcome _ entity) := map (fun x => to_entity env (fst x) (snd x)) (entity_blocks fs).
End read.
Lemma schemas_read_perm env fs fs' : Permutation fs fs' -> Permutation (schemas_read env fs) (schemas_read env fs').
Proof. intros P. apply Permutation_map. exact (perm_flat_map _ _ _ P). Qed.
Lemma entities_read_perm env fs fs' : Permutation fs fs' -> Permutation (entities_read env fs) (entities_read env fs').
Proof. intros P. apply Permutation_map. exact (perm_flat_map _ _ _ P). Qed.
Lemma schemas_read_app env a b : schemas_read env (a ++ b) = schemas_read env a ++ schemas_read env b.
Proof. unfold schemas_read, schema_blocks. now rewrite flat_map_app, map_app. Qed.
Lemma entities_read_app env a b : entities_read env (a ++ b) = entities_read env a ++ entities_read env b.
Proof. unfold entities_read, entity_blocks. now rewrite flat_map_app, map_app. Qed.
Lemma split_read {A E} (l : list A) (a b : list (outcome E A)) : Permutation (map Ok l) (a ++ b) ->
  exists x y, a = map Ok x /\ b = map Ok y /\ Permutation l (x ++ y).
Proof.
  intros P. apply Permutation_sym, Permutation_map_inv in P as (m & Em & P). symmetry in Em. apply map_eq_app in Em as (x & y & -> & <- & <-). exists x, y. auto.
Qed.
Lemma read_inj {A E} (x y : list A) : Permutation (@map A (outcome E A) Ok x) (map Ok y) -> Permutation x y.
Proof.
  intros P. apply Permutation_map_inv in P as (m & Em & P). assert (x = m) as ->; [|symmetry; exact P].
  clear P. revert m Em; induction x as [|a x IH]; intros [|b m] Em; try discriminate; [reflexivity|]. injection Em as -> Em. f_equal. exact (IH m Em).
Qed.
Lemma filter_split {A} (p : A -> bool) l : Permutation l (filter p l ++ filter (fun a => negb (p a)) l).
Proof.
  induction l as [|a l IH]; [reflexivity|]. cbn. destruct (p a); cbn; [now constructor|]. rewrite IH at 1. apply Permutation_middle.
Qed.
Lemma rebuild_read c d st : shuffles (c_fields c) -> (forall l, Permutation (c_schemas c l) l) -> (forall l, Permutation (c_files c l) l) -> rebuild c d = Ok st ->
  exists fs, load_directory c d = Ok fs /\ Permutation (map Ok (b_schemas (st_build st))) (schemas_read (c_env c) fs) /\
    Permutation (map Ok (b_entities (st_build st))) (entities_read (c_env c) fs).
Proof.
  intros SH PS PC B. destruct (rebuild_files c d st B) as (fs & LD & Ef & LG). exists fs. split; [exact LD|].
  apply load_ok in LG as (BW & ND & Eg). apply (build_ok _ _ _ _ _ SH) in BW as (ss & (F1 & F2 & _) & Es).
  assert (F : Permutation (st_files st) fs) by (rewrite Ef; apply PC).
  apply (L_Spread.reads_map (fun x => to_schema (c_env c) (fst x) (snd x))) in F1. apply (L_Spread.reads_map (fun x => to_entity (c_env c) (fst x) (snd x))) in F2.
  split.
  - rewrite Es. etransitivity; [apply Permutation_map, PS|]. rewrite <- F1. exact (schemas_read_perm _ _ _ F).
  - rewrite <- F2. exact (entities_read_perm _ _ _ F).
Qed.

Section part.
  Context (c : ctx) (w : place) (r : path).
  Definition is_part (f : str * wfile) : bool := str_eqb (wf_rel (snd f)) (path_text r).
  Lemma part_declares d fs ss es : ordinary c w d -> load_directory c d = Ok fs -> r <> [] -> Forall proper_name r ->
    schemas_read (c_env c) (filter is_part fs) = map Ok ss -> entities_read (c_env c) (filter is_part fs) = map Ok es -> file_declares c w d r ss es.
  Proof.
    intros (RI & NL & TD & _) LD NE PN S1 E1. pose proof RI as (SD & _). destruct (load_directory_spec c d w fs RI NL TD LD) as (N & I & _).
    assert (IP : forall f, In f (filter is_part fs) <-> exists s ps, source_of w d r s /\ c_parse c s = Some ps /\ f = S_Server.loaded c r ps).
    { intros f. rewrite filter_In, I. unfold is_part. rewrite str_eqb_eq. split.
      - intros [(r' & s & ps & S & P & ->) E]. cbn [S_Server.loaded snd wf_rel] in E. destruct (L_Spread.source_names d w r' s SD S) as [N' P'].
        apply L_Spread.text_inj in E; auto. subst r'. eauto.
      - intros (s & ps & S & P & ->). split; [exists r, s, ps; auto|reflexivity]. }
    assert (NP : NoDup (filter is_part fs)) by (apply NoDup_filter, (NoDup_map_inv _ _ N)).
    destruct (filter is_part fs) as [|f l] eqn:EF.
    - destruct ss, es; try discriminate. constructor. intros s S.
      assert (L : exists ps, c_parse c s = Some ps).
      { destruct (c_parse c s) as [ps|] eqn:P; [eauto|]. exfalso. exact (proj2 (proj2 (proj2 (load_directory_spec c d w fs RI NL TD LD)) r s S) P). }
      destruct L as (ps & P). apply (IP (S_Server.loaded c r ps)). eauto.
    - destruct (proj1 (IP f) (or_introl eq_refl)) as (s & ps & S & P & ->). assert (l = []) as ->.
      { destruct l as [|g l]; [reflexivity|]. destruct (proj1 (IP g) (or_intror (or_introl eq_refl))) as (s' & ps' & S' & P' & ->).
        assert (s' = s) by (destruct S, S'; congruence). subst s'. assert (ps' = ps) by congruence. subst ps'. inversion NP as [|? ? X _]; subst. exfalso. apply X. now left. }
      unfold schemas_read, entities_read, schema_blocks, entity_blocks in *. cbn [flat_map S_Server.loaded snd wf_rel wf_schemas wf_entities] in *. rewrite app_nil_r in *. rewrite map_map in *. cbn [fst snd] in *.
      apply (declares_blocks c w d r s ps); auto; apply L_Spread.reads_map; assumption.
  Qed.
  Lemma others_same d d' fs fs' : ordinary c w d -> ordinary c w d' -> (forall r' s, r' <> r -> (source_of w d' r' s <-> source_of w d r' s)) ->
    r <> [] -> Forall proper_name r ->
    load_directory c d = Ok fs -> load_directory c d' = Ok fs' -> Permutation (filter (fun f => negb (is_part f)) fs) (filter (fun f => negb (is_part f)) fs').
  Proof.
    intros (RI & NL & TD & _) (RI' & NL' & TD' & _) SS NE PN LD LD'. pose proof RI as (SD & _). pose proof RI' as (SD' & _).
    destruct (load_directory_spec c d w fs RI NL TD LD) as (N & I & _). destruct (load_directory_spec c d' w fs' RI' NL' TD' LD') as (N' & I' & _).
    apply NoDup_Permutation; [apply NoDup_filter, (NoDup_map_inv _ _ N)|apply NoDup_filter, (NoDup_map_inv _ _ N')|].
    intros f. rewrite !filter_In, I, I'. unfold is_part. rewrite Bool.negb_true_iff.
    split; intros [(r' & s & ps & S & P & ->) E]; (split; [|exact E]); exists r', s, ps; (split; [|auto]); apply SS; try exact S; intros ->;
      cbn [S_Server.loaded snd wf_rel] in E; rewrite str_eqb_refl in E; discriminate.
  Qed.
  Lemma two_parts d d' st st' : shuffles (c_fields c) -> (forall l, Permutation (c_schemas c l) l) -> (forall l, Permutation (c_files c l) l) ->
    ordinary c w d -> ordinary c w d' -> (forall r' s, r' <> r -> (source_of w d' r' s <-> source_of w d r' s)) -> r <> [] -> Forall proper_name r ->
    rebuild c d = Ok st -> rebuild c d' = Ok st' ->
    exists ss es ss1 es1 ss2 es2, file_declares c w d r ss1 es1 /\ file_declares c w d' r ss2 es2 /\
      Permutation (b_schemas (st_build st)) (ss1 ++ ss) /\ Permutation (b_schemas (st_build st')) (ss2 ++ ss) /\
      Permutation (b_entities (st_build st)) (es1 ++ es) /\ Permutation (b_entities (st_build st')) (es2 ++ es).
  Proof.
    intros SH PS PC O O' SS NE PN B B'. destruct (rebuild_read c d st SH PS PC B) as (fs & LD & S1 & E1). destruct (rebuild_read c d' st' SH PS PC B') as (fs' & LD' & S2 & E2).
    pose proof (others_same d d' fs fs' O O' SS NE PN LD LD') as PO.
    rewrite (schemas_read_perm _ _ _ (filter_split is_part fs)), schemas_read_app in S1. rewrite (entities_read_perm _ _ _ (filter_split is_part fs)), entities_read_app in E1.
    rewrite (schemas_read_perm _ _ _ (filter_split is_part fs')), schemas_read_app in S2. rewrite (entities_read_perm _ _ _ (filter_split is_part fs')), entities_read_app in E2.
    apply split_read in S1 as (s1 & s0 & A1 & A0 & S1). apply split_read in E1 as (e1 & e0 & C1 & C0 & E1).
    apply split_read in S2 as (s2 & s0' & A2 & A0' & S2). apply split_read in E2 as (e2 & e0' & C2 & C0' & E2).
    pose proof (schemas_read_perm (c_env c) _ _ PO) as QS. rewrite A0, A0' in QS. apply read_inj in QS.
    pose proof (entities_read_perm (c_env c) _ _ PO) as QE. rewrite C0, C0' in QE. apply read_inj in QE.
    exists s0, e0, s1, e1, s2, e2. split; [exact (part_declares d fs s1 e1 O LD NE PN A1 C1)|]. split; [exact (part_declares d' fs' s2 e2 O' LD' NE PN A2 C2)|].
    split; [exact S1|]. split; [rewrite S2, QS; reflexivity|]. split; [exact E1|]. rewrite E2, QE. reflexivity.
  Qed.
  Lemma declares_once d ss es ss' es' : file_declares c w d r ss es -> file_declares c w d r ss' es' -> ss = ss' /\ es = es'.
  Proof.
    assert (K : forall A B E (f : A -> outcome E B) l x y, Forall2 (fun a b => f a = Ok b) l x -> Forall2 (fun a b => f a = Ok b) l y -> x = y).
    { intros A B E f l x y F. revert y. induction F as [|a b l x H F IH]; intros y G; inversion G; subst; [reflexivity|]. f_equal; [congruence|auto]. }
    intros [N|s ps x y S P F G]; intros [N'|s' ps' x' y' S' P' F' G']; try (exfalso; eapply N; eassumption); try (exfalso; eapply N'; eassumption); [auto|].
    assert (s' = s) by (destruct S, S'; congruence). subst s'. assert (ps' = ps) by congruence. subst ps'.
    split; [exact (K _ _ _ (to_schema (c_env c) (path_text r)) _ _ _ F F')|exact (K _ _ _ (to_entity (c_env c) (path_text r)) _ _ _ G G')].
  Qed.
End part.

Lemma lookup_app a b id : lookup (a ++ b) id = match lookup a id with Some e => Some e | None => lookup b id end.
Proof. unfold lookup. induction a as [|e a IH]; [reflexivity|]. cbn. destruct (str_eqb (e_id e) id); [reflexivity|exact IH]. Qed.
Lemma edit_by_id old new es ents ents' : NoDup (map e_id ents) -> NoDup (map e_id ents') -> Permutation ents (old ++ es) -> Permutation ents' (new ++ es) ->
  forall id, lookup ents' id = after_edit old new (lookup ents id) id.
Proof.
  intros N N' P P' id. rewrite (L_Spread.lookup_perm _ _ id N P), (L_Spread.lookup_perm _ _ id N' P'), !lookup_app. unfold after_edit.
  destruct (lookup new id) as [e|]; [reflexivity|]. destruct (lookup old id) as [e|] eqn:Eo; [|reflexivity].
  destruct (lookup es id) as [e'|] eqn:Ee; [|reflexivity]. exfalso. apply lookup_some in Eo as [I E], Ee as [I' E'].
  apply (Permutation_NoDup (Permutation_map e_id P)) in N. rewrite map_app in N.
  apply (in_map e_id) in I. apply (in_map e_id) in I'. rewrite E in I. rewrite E' in I'. clear -N I I'.
  induction (map e_id old) as [|i l IH]; [destruct I|]. cbn in N. inversion N as [|? ? X Y]; subst. destruct I as [-> |I]; [|exact (IH Y I)].
  apply X, in_or_app. now right.
Qed.
