(** Lemmas for C83. *)
From Coq Require Import Lia Permutation.
From Verif Require Import S_Graph S_Query L_Graph.
From Verif Require Import S_Loosen L_Str L_Schema L_Schema2 L_Fs L_Load L_Workspace L_History L_Spread.
From Verif Require P_Schema.
From Verif Require Import M_Fs M_Dsl S_Loosen.
Close Scope Z_scope.

Lemma says_reads env r n t ds : schema_says env r n t ds -> exists s, to_schema env (path_text r) n = M_Text.Ok s /\ s_type s = t /\
  forall x, In x ds <-> exists p, In p (s_fields s) /\ decl_of p = x.
Proof.
  intros ((name & N & ->) & F & ND & NP). destruct (declares_to_schema env (path_text r) n name ds N F) as (s & E).
  { apply Forall_forall. intros b Ib f (fs & B & If). exact (NP b fs f Ib B If). }
  exists s. split; [exact E|]. pose proof (P_Schema.C32_distinct_names_are_all_listed env (path_text r) n s P_Schema.fid ds P_Schema.fid_ok E F ND) as Li.
  destruct (to_schema_ok env (path_text r) n s E) as (name' & ds' & k & l & N' & T & _). rewrite N in N'. injection N' as <-. split; [exact T|].
  intros x. rewrite <- Li. unfold listing. rewrite in_map_iff. pose proof (ordered_perm P_Schema.fid s P_Schema.fid_ok) as P.
  split; intros (p & A & B); exists p; [split; [exact (Permutation_in _ P B)|exact A]|split; [exact B|exact (Permutation_in _ (Permutation_sym P) A)]].
Qed.
Lemma loosened_takes env es a b : loosened env es a b -> exists n n' s s', snd a = SchemaBlock n /\ snd b = SchemaBlock n' /\
  to_schema env (path_text (fst a)) n = M_Text.Ok s /\ to_schema env (path_text (fst b)) n' = M_Text.Ok s' /\ s_type s' = s_type s /\
  forall e, In e es -> S_Schema.conforms s e -> S_Schema.conforms s' e.
Proof.
  intros (n & n' & t & ds & ds' & Ea & Eb & A & B & H). destruct (says_reads _ _ _ _ _ A) as (s & Rs & Ts & Is), (says_reads _ _ _ _ _ B) as (s' & Rs' & Ts' & Is').
  exists n, n', s, s'. do 4 (split; [assumption|]). split; [congruence|]. intros e Ie [Te C]. split; [congruence|].
  intros id f If. assert (J : In (decl_of (id, f)) ds') by (apply Is'; eauto). destruct (H _ J) as [(x & Ix & (W1 & W2 & W3 & W4))|(R & U)].
  - apply Is in Ix as ([id0 f0] & I0 & <-). cbn [decl_of d_name d_type d_required d_allowed fst snd] in *. subst id0. destruct (C id f0 I0) as (C1 & C2 & C3).
    split; [intros Q; exact (C1 (W3 Q))|]. split; [intros v V; rewrite W2; exact (C2 v V)|]. intros z Z. destruct (C3 z Z) as (al & w & Al & Iw & Nw).
    destruct (W4 al Al) as (al' & Al' & Inc). exists al', w. auto.
  - cbn [decl_of d_name d_required fst snd] in *. assert (NI : ~ In id (map fst (e_fields e))) by (apply U; [exact Ie|congruence]).
    split; [congruence|]. split.
    + intros v (u & z & E & _). destruct NI. rewrite E, map_app, in_app_iff. right. now left.
    + intros v (u & z & E & _). destruct NI. rewrite E, map_app, in_app_iff. right. now left.
Qed.

Definition rs (env : dsl_env) (x : str * snode) := to_schema env (fst x) (snd x).
Definition re (env : dsl_env) (x : str * enode) := to_entity env (fst x) (snd x).
Lemma rebuild_reads c w d l st : readable c w d -> written_in w d l -> rebuild c d = M_Text.Ok st ->
  exists ss es, map (rs (c_env c)) (flat_map schema_at l) = map M_Text.Ok ss /\ map (re (c_env c)) (flat_map entity_at l) = map M_Text.Ok es /\
    Permutation ss (b_schemas (st_build st)) /\ Permutation es (b_entities (st_build st)) /\ NoDup (map s_type ss) /\ NoDup (map e_id es) /\
    forall e, In e es -> exists s, In s ss /\ S_Schema.conforms s e.
Proof.
  intros R W RB. destruct (readable_loads c w d R l W) as (fs & LD & S1 & E1). unfold rebuild in RB. rewrite LD in RB. cbn [omap_err obind] in RB.
  destruct (load_graph (c_env c) (c_fields c) (c_schemas c) (c_files c fs)) as [[b g]|e|] eqn:LG; try discriminate. cbn [obind fst snd] in RB. injection RB as <-. cbn [st_build].
  apply load_ok in LG as (BW & ND & _). apply (build_ok _ _ _ _ _ (rd_fields _ _ _ R)) in BW as (ss & (F1 & F2 & N & C) & Es).
  apply (reads_map (rs (c_env c))) in F1. apply (reads_map (re (c_env c))) in F2.
  pose proof (Permutation_map (rs (c_env c)) S1) as P1. rewrite F1 in P1. symmetry in P1. apply Permutation_map_inv in P1 as (ss1 & Q1 & P1).
  pose proof (Permutation_map (re (c_env c)) E1) as P2. rewrite F2 in P2. symmetry in P2. apply Permutation_map_inv in P2 as (es1 & Q2 & P2).
  exists ss1, es1. split; [exact Q1|]. split; [exact Q2|]. split; [rewrite Es, (rd_schemas _ _ _ R ss); now symmetry|]. split; [now symmetry|].
  split; [exact (Permutation_NoDup (Permutation_map _ P1) N)|]. split; [exact (Permutation_NoDup (Permutation_map _ P2) ND)|].
  intros e He. destruct (C e) as (s & I & H); [eapply Permutation_in; [symmetry; exact P2|exact He]|]. exists s. split; [eapply Permutation_in; eauto|exact H].
Qed.
Lemma rebuild_from c w d l ss es : readable c w d -> written_in w d l ->
  map (rs (c_env c)) (flat_map schema_at l) = map M_Text.Ok ss -> map (re (c_env c)) (flat_map entity_at l) = map M_Text.Ok es ->
  NoDup (map s_type ss) -> NoDup (map e_id es) -> (forall e, In e es -> exists s, In s ss /\ S_Schema.conforms s e) ->
  exists st, rebuild c d = M_Text.Ok st /\ Permutation ss (b_schemas (st_build st)) /\ Permutation es (b_entities (st_build st)).
Proof.
  intros R W M1 M2 N ND C. destruct (readable_loads c w d R l W) as (fs & LD & S1 & E1).
  pose proof (Permutation_map (rs (c_env c)) S1) as P1. rewrite M1 in P1. apply Permutation_map_inv in P1 as (ss1 & Q1 & P1).
  pose proof (Permutation_map (re (c_env c)) E1) as P2. rewrite M2 in P2. apply Permutation_map_inv in P2 as (es1 & Q2 & P2).
  assert (BW : build_workspace (c_env c) (c_fields c) (c_schemas c) (c_files c fs) = M_Text.Ok {| b_entities := es1; b_schemas := c_schemas c ss1 |}).
  { apply (build_ok _ _ _ _ _ (rd_fields _ _ _ R)). exists ss1. split; [|reflexivity]. cbn [b_entities].
    split; [apply (reads_map (rs (c_env c))), Q1|]. split; [apply (reads_map (re (c_env c))), Q2|].
    split; [exact (Permutation_NoDup (Permutation_map _ P1) N)|].
    intros e He. destruct (C e) as (s & I & H); [eapply Permutation_in; [symmetry; exact P2|exact He]|]. exists s. split; [eapply Permutation_in; eauto|exact H]. }
  assert (LG := proj2 (load_ok (c_env c) (c_fields c) (c_schemas c) (c_files c fs) _ _) (conj BW (conj (Permutation_NoDup (Permutation_map e_id P2) ND) eq_refl))).
  eexists. unfold rebuild. rewrite LD. cbn [omap_err obind]. rewrite LG. cbn [obind fst snd]. split; [reflexivity|]. cbn [st_build b_entities b_schemas].
  split; [rewrite (rd_schemas _ _ _ R ss1); exact P1|exact P2].
Qed.

Definition takes (es : list entity) (s s' : schema) : Prop := s_type s' = s_type s /\ forall e, In e es -> S_Schema.conforms s e -> S_Schema.conforms s' e.
Lemma split_ok {E A} (x y : list (outcome E A)) z : x ++ y = map M_Text.Ok z -> exists u v, z = u ++ v /\ x = map M_Text.Ok u /\ y = map M_Text.Ok v.
Proof.
  revert z; induction x as [|a x IH]; intros z H; [exists [], z; auto|]. destruct z as [|b z]; [discriminate|]. cbn in H. injection H as -> H.
  destruct (IH z H) as (u & v & -> & -> & ->). exists (b :: u), v. auto.
Qed.
Lemma pairs_take env es l l' : Forall2 (fun a b => moved a b \/ loosened env es a b) l l' ->
  (forall a, In a l -> fst a <> [] /\ Forall proper_name (fst a)) -> (forall a, In a l' -> fst a <> [] /\ Forall proper_name (fst a)) ->
  map (re env) (flat_map entity_at l) = map (re env) (flat_map entity_at l') /\
  forall ss, map (rs env) (flat_map schema_at l) = map M_Text.Ok ss -> exists ss', map (rs env) (flat_map schema_at l') = map M_Text.Ok ss' /\ Forall2 (takes es) ss ss'.
Proof.
  induction 1 as [|a b l l' H F IH]; intros A A'; [split; [reflexivity|]; intros [|s ss] E; [|discriminate]; exists []; auto|].
  destruct IH as [IE IS]; [intros x I; apply A; now right|intros x I; apply A'; now right|].
  assert (Q : map (re env) (entity_at a) = map (re env) (entity_at b) /\
    forall ss, map (rs env) (schema_at a) = map M_Text.Ok ss -> exists ss', map (rs env) (schema_at b) = map M_Text.Ok ss' /\ Forall2 (takes es) ss ss').
  { destruct H as [M|M].
    - destruct (A a (or_introl eq_refl)), (A' b (or_introl eq_refl)). destruct (moved_reads env a b) as [M1 M2]; auto. split; [exact M2|].
      intros ss E. exists ss. unfold rs in *. rewrite <- M1. split; [exact E|]. clear. induction ss; constructor; auto. split; auto.
    - destruct (loosened_takes env es a b M) as (n & n' & s & s' & Ea & Eb & Rs & Rs' & T & C). unfold entity_at, schema_at. rewrite Ea, Eb. split; [reflexivity|].
      intros ss E. cbn [map] in *. unfold rs in *. cbn [fst snd] in *. rewrite Rs in E. rewrite Rs'. destruct ss as [|s0 [|]]; try discriminate. injection E as <-.
      exists [s']. split; [reflexivity|]. constructor; [split; auto|constructor]. }
  destruct Q as [QE QS]. cbn [flat_map]. rewrite !map_app, QE, IE. split; [reflexivity|]. intros ss E.
  apply split_ok in E as (u & v & -> & Eu & Ev). destruct (QS u Eu) as (u' & Eu' & Fu), (IS v Ev) as (v' & Ev' & Fv).
  exists (u' ++ v'). rewrite Eu', Ev', map_app. split; [reflexivity|]. apply Forall2_app; assumption.
Qed.
Lemma unused_reads env es l : Forall (unused env es) l -> flat_map entity_at l = [] /\
  forall ss, map (rs env) (flat_map schema_at l) = map M_Text.Ok ss -> forall s e, In s ss -> In e es -> e_type e <> s_type s.
Proof.
  induction 1 as [|a l (n & t & ds & Ea & Sa & U) F IH]; [split; [reflexivity|]; intros [|s ss] E; [|discriminate]; intros ? ? []|].
  destruct IH as [IE IS]. cbn [flat_map]. unfold entity_at at 1, schema_at at 1. rewrite Ea. cbn [app]. split; [exact IE|].
  intros ss E. cbn [map] in E. destruct ss as [|s ss]; [discriminate|]. cbn in E. injection E as E1 E2. destruct (says_reads _ _ _ _ _ Sa) as (s' & R & T & _).
  unfold rs in E1. cbn [fst snd] in E1. assert (s' = s) by congruence. subst s'. intros s0 e [<-|I] Ie; [rewrite T; exact (U e Ie)|exact (IS ss E2 s0 e I Ie)].
Qed.
Lemma schemas_for env l ts : Forall2 (schema_for env) l ts -> flat_map entity_at l = [] /\
  exists ss, map (rs env) (flat_map schema_at l) = map M_Text.Ok ss /\ map s_type ss = ts.
Proof.
  induction 1 as [|a t l ts (n & ds & Ea & Sa) F IH]; [split; [reflexivity|]; exists []; auto|]. destruct IH as (IE & ss & E & T).
  cbn [flat_map]. unfold entity_at at 1, schema_at at 1. rewrite Ea. cbn [app]. split; [exact IE|].
  destruct (says_reads _ _ _ _ _ Sa) as (s & R & Ts & _). exists (s :: ss). cbn [map]. rewrite E, T, Ts. unfold rs at 1. cbn [fst snd]. rewrite R. auto.
Qed.
Lemma placed c w d l : readable c w d -> written_in w d l -> forall a, In a l -> fst a <> [] /\ Forall proper_name (fst a).
Proof.
  intros R W a I. destruct (block_source w d l W a I) as (s & S). apply (source_names d w _ s); [apply (rd_place _ _ _ R)|exact S].
Qed.
Lemma loosening c w d c' w' d' st l l' gone come ts : readable c w d -> readable c' w' d' -> c_env c' = c_env c ->
  rebuild c d = M_Text.Ok st -> written_in w d (l ++ gone) -> written_in w' d' (l' ++ come) ->
  Forall2 (fun a b => moved a b \/ loosened (c_env c) (b_entities (st_build st)) a b) l l' ->
  Forall (unused (c_env c) (b_entities (st_build st))) gone ->
  Forall2 (schema_for (c_env c)) come ts -> NoDup ts -> (forall t s, In t ts -> In s (b_schemas (st_build st)) -> s_type s <> t) ->
  exists st', rebuild c' d' = M_Text.Ok st' /\ Permutation (b_entities (st_build st)) (b_entities (st_build st')).
Proof.
  intros R R' En RB W W' F U SF NT DT. destruct (rebuild_reads c w d _ st R W RB) as (ss & es & E1 & E2 & P1 & P2 & N & ND & C).
  rewrite flat_map_app, map_app in E1. apply split_ok in E1 as (sa & sg & -> & Ea & Eg).
  destruct (unused_reads _ _ _ U) as [Ug Sg]. rewrite flat_map_app, Ug, app_nil_r in E2.
  destruct (pairs_take _ _ _ _ F) as [IE IS].
  { intros a I. apply (placed c w d _ R W). apply in_or_app. now left. }
  { intros a I. apply (placed c' w' d' _ R' W'). apply in_or_app. now left. }
  destruct (IS sa Ea) as (sb & Eb & Fb). destruct (schemas_for _ _ _ SF) as (Uc & sc & Ec & Tc).
  assert (Tb : map s_type sb = map s_type sa) by (clear -Fb; induction Fb as [|? ? ? ? [T _] ? IH]; [reflexivity|]; cbn; congruence).
  destruct (rebuild_from c' w' d' (l' ++ come) (sb ++ sc) es R' W') as (st' & RB' & _ & Q2).
  - rewrite En, flat_map_app, map_app, Eb, Ec, map_app. reflexivity.
  - rewrite En, flat_map_app, Uc, app_nil_r, <- IE. exact E2.
  - rewrite map_app, Tb, Tc. rewrite map_app in N. assert (NA : NoDup (map s_type sa)).
    { clear -N. revert N. generalize (map s_type sa) (map s_type sg). intros x y. induction x as [|a x IH]; intros H; [constructor|]. inversion H; subst. constructor; [|auto].
      intros I. apply H2, in_or_app. now left. }
    assert (DJ : forall t, In t (map s_type sa) -> ~ In t ts).
    { intros t I J. apply in_map_iff in I as (s & <- & I). apply (DT _ s J); [|reflexivity]. apply (Permutation_in _ P1). apply in_or_app. now left. }
    clear -NA NT DJ. induction (map s_type sa) as [|a x IH]; [exact NT|]. inversion NA; subst. cbn [app]. constructor.
    + intros I. apply in_app_or in I as [I|I]; [auto|]. exact (DJ a (or_introl eq_refl) I).
    + apply IH; [assumption|]. intros t I. apply DJ. now right.
  - exact ND.
  - intros e Ie. assert (Ie' := Permutation_in _ P2 Ie). destruct (C e Ie) as (s & Is & Cs). apply in_app_or in Is as [Is|Is].
    + destruct (L_Load.Forall2_in_l _ _ _ _ Fb Is) as (s' & Is' & _ & T). exists s'. split; [apply in_or_app; now left|]. exact (T e Ie' Cs).
    + destruct (Sg sg Eg s e Is Ie'). exact (proj1 Cs).
  - exists st'. split; [exact RB'|]. rewrite <- P2, <- Q2. reflexivity.
Qed.

(** ** Concrete schemas *)
Lemma last_wins_all ds : length (last_wins ds) = length ds -> last_wins ds = ds /\ NoDup (map d_name ds).
Proof.
  assert (LE : forall l, length (last_wins l) <= length l) by (induction l as [|a l IH]; cbn; [lia|]; destruct (str_in _ _); cbn; lia).
  induction ds as [|a ds IH]; intros H; [split; [reflexivity|constructor]|]. cbn [last_wins] in *. destruct (str_in (d_name a) (map d_name ds)) eqn:E.
  - cbn [length] in H. pose proof (LE ds). lia.
  - cbn [length] in H. destruct IH as [I1 I2]; [lia|]. split; [congruence|]. cbn [map]. constructor; [|exact I2]. intros J. apply str_in_In in J. congruence.
Qed.
Definition calm (env : dsl_env) (p : str) (n : snode) : bool :=
  forallb (fun b => match nb_body b with Some fs => forallb (fun f => match field_value env p f with M_Text.Panic => false | _ => true end) fs | None => true end) (schema_fields n).
Lemma computed_says env r n s : to_schema env (path_text r) n = M_Text.Ok s -> length (s_fields s) = length (schema_fields n) -> calm env (path_text r) n = true ->
  schema_says env r n (s_type s) (listing P_Schema.fid s).
Proof.
  intros E Le Ca. destruct (P_Schema.C32_declaration_order env (path_text r) n s P_Schema.fid P_Schema.fid_ok E) as (name & ds & N & T & F & Li).
  assert (K : length (last_wins ds) = length ds).
  { rewrite <- Li. unfold listing. rewrite map_length, (Permutation_length (ordered_perm P_Schema.fid s P_Schema.fid_ok)), Le. clear -F. induction F; cbn; congruence. }
  destruct (last_wins_all ds K) as [Q ND]. rewrite Q in Li. rewrite Li. split; [exists name; auto|]. split; [exact F|]. split; [exact ND|].
  intros b fs f Ib B If X. unfold calm in Ca. rewrite forallb_forall in Ca. specialize (Ca b Ib). rewrite B, forallb_forall in Ca. specialize (Ca f If). rewrite X in Ca. discriminate.
Qed.
