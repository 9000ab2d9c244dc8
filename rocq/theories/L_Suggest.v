(** Lemmas for C75. *)
From Coq Require Import Lia Permutation.
From Verif Require Import S_Graph L_Graph.
From Verif Require Import S_Suggest L_Str L_Text L_Schema L_Schema2 L_Ids L_Fs L_Server L_Load L_Workspace L_DslStr L_DslVal L_Add L_Syntax L_Prompt L_Prompt2 L_Whole L_Whole3.
From Verif Require Import M_Dsl S_Suggest M_Fs.
Close Scope Z_scope.

(** ** Dots *)
Lemma dot_count_app a b : dot_count (a ++ b) = dot_count a + dot_count b.
Proof. apply count_occ_app. Qed.
Lemma dot_count_dots s : dot_count s = length (dots s).
Proof. induction s as [|c s IH]; [reflexivity|]. unfold dot_count in *. cbn [count_occ dots filter]. unfold dots in *. cbn [filter]. destruct (ascii_dec c ".") as [-> | N]; [cbn; f_equal; exact IH|].
  rewrite (proj2 (Ascii.eqb_neq c ".")) by exact N. exact IH. Qed.
Lemma no_dots s : dot_count s = 0 <-> ~ In "."%char s.
Proof. unfold dot_count. symmetry. apply count_occ_not_In. Qed.
Lemma undotted_same a b a' b' : ~ In "."%char a -> ~ In "."%char a' -> a ++ "."%char :: b = a' ++ "."%char :: b' -> a = a' /\ b = b'.
Proof.
  revert a'. induction a as [|c a IH]; intros a' N N' E; destruct a' as [|c' a']; cbn [app] in E.
  - injection E as ->. auto.
  - injection E as <- _. exfalso. apply N'. now left.
  - injection E as -> _. exfalso. apply N. now left.
  - injection E as -> E. apply IH in E as [-> ->]; auto; intros I; [apply N|apply N']; now right.
Qed.
(** A beginning with a dot of a text with a dot. *)
Lemma prefix_dot a b p : ~ In "."%char a -> begins_with (a ++ "."%char :: b) p -> In "."%char p -> exists q, p = a ++ "."%char :: q /\ begins_with b q.
Proof.
  intros N (r & E) I. apply in_split in I as (x & y & ->). destruct (in_dec ascii_dec "."%char x) as [J|J].
  - apply in_split in J as (x1 & x2 & ->). revert E. rewrite <- !app_assoc. cbn [app].
    destruct (in_dec ascii_dec "."%char x1) as [K|K].
    + intros E. assert (G : forall z z' : str, In "."%char z -> exists u v, z = u ++ "."%char :: v /\ ~ In "."%char u).
      { clear. induction z as [|c z IH]; intros z' I; [destruct I|]. destruct (ascii_dec c ".") as [-> | D]; [exists [], z; auto|].
        destruct I as [I|I]; [congruence|]. destruct (IH z' I) as (u & v & -> & H). exists (c :: u), v. split; [reflexivity|]. intros [->|I']; auto. }
      destruct (G x1 [] K) as (u & v & -> & Hu). revert E. rewrite <- !app_assoc. cbn [app]. intros E. apply undotted_same in E as [-> ->]; auto.
      eexists. split; [rewrite <- ?app_assoc; cbn [app]; reflexivity|]. exists r. rewrite <- ?app_assoc. cbn [app]. rewrite <- ?app_assoc. reflexivity.
    + intros E. apply undotted_same in E as [-> ->]; auto. eexists. split; [reflexivity|]. exists r. rewrite <- ?app_assoc. reflexivity.
  - revert E. rewrite <- app_assoc. cbn [app]. intros E. apply undotted_same in E as [-> ->]; auto. exists y. split; [reflexivity|]. exists r. reflexivity.
Qed.

(** ** Normalising the beginning of a normal text *)
Lemma calm_prefix a b : calm (a ++ b) -> calm a.
Proof. induction a as [|c a IH]; [intros _; exact Logic.I|]. cbn [app calm]. intros (A & B & C). split; [exact A|]. split; [|exact (IH C)]. destruct a; [exact Logic.I|exact B]. Qed.
Lemma normal_prefix a b : a <> [] -> normal_word (a ++ b) -> normal_word a.
Proof. intros N (_ & C & U). split; [exact N|]. split; [exact (calm_prefix a b C)|]. intros c I. apply U, in_or_app. now left. Qed.
Lemma prefix_words ws : forall p, Forall normal_word ws -> begins_with (join (L "_") ws) p ->
  exists vs u, p = join (L "_") vs ++ u /\ Forall normal_word vs /\ (u = [] \/ u = L "_" /\ vs <> []).
Proof.
  induction ws as [|w ws IH]; intros p F (r & E).
  - cbn in E. destruct p; [|discriminate]. exists [], []. auto.
  - inversion F as [|? ? Nw F']; subst. destruct ws as [|w2 ws].
    + cbn [join] in E. destruct p as [|c p]; [exists [], []; auto|]. exists [c :: p], []. cbn [join]. rewrite app_nil_r. split; [reflexivity|]. split; [|auto].
      constructor; [|constructor]. apply (normal_prefix _ r); [discriminate|]. congruence.
    + change (join (L "_") (w :: w2 :: ws)) with (w ++ "_"%char :: join (L "_") (w2 :: ws)) in E.
      destruct (app_prefix _ _ _ _ E) as [(z & ->)|(z & _ & ->)].
      * destruct p as [|c p]; [exists [], []; auto|]. exists [c :: p], []. cbn [join]. rewrite app_nil_r. split; [reflexivity|]. split; [|auto].
        constructor; [|constructor]. apply (normal_prefix _ z); [discriminate|exact Nw].
      * rewrite <- app_assoc in E. apply app_inv_head in E. destruct z as [|c z].
        -- rewrite app_nil_r. exists [w], []. cbn [join]. rewrite app_nil_r. auto.
        -- cbn [app] in E. injection E as <- E. destruct (IH z F' (ex_intro _ r E)) as (vs & u & -> & Fv & U). destruct vs as [|v vs].
           ++ cbn [join app] in *. destruct U as [-> |[-> N]]; [|congruence]. exists [w], (L "_"). cbn [join]. split; [reflexivity|]. split; [auto|]. right. split; [reflexivity|discriminate].
           ++ exists (w :: v :: vs), u. split; [change (join (L "_") (w :: v :: vs)) with (w ++ "_"%char :: join (L "_") (v :: vs)); rewrite <- !app_assoc; reflexivity|].
              split; [auto|]. destruct U as [-> |[-> _]]; [auto|right; split; [reflexivity|discriminate]].
Qed.
Lemma boundary_last c rest : boundary c (rest ++ L "_") = boundary c rest.
Proof. destruct rest as [|d [|e rest]]; cbn [app boundary]; [apply boundary_other; reflexivity| |reflexivity]. cbn. rewrite !andb_false_r. reflexivity. Qed.
Lemma split_words_last_sep s : split_words (s ++ L "_") = split_words s ++ [[]].
Proof.
  induction s as [|c s IH]; [reflexivity|]. cbn [app split_words]. rewrite IH, boundary_last. destruct (is_sep c); [reflexivity|]. destruct (boundary c s); [reflexivity|].
  destruct (split_words s) as [|w ws] eqn:E; [destruct (split_words_not_nil s E)|reflexivity].
Qed.
Lemma to_snake_last_sep s : to_snake (s ++ L "_") = to_snake s.
Proof. unfold to_snake. rewrite split_words_last_sep, filter_app. cbn [filter non_empty]. rewrite app_nil_r. reflexivity. Qed.
Lemma snake_prefix s p : to_snake s = s -> begins_with s p -> begins_with s (to_snake p).
Proof.
  intros N (r & ->). destruct (fixpoint_words _ N) as [E F]. destruct (prefix_words _ p F) as (vs & u & -> & Fv & U); [exists r; congruence|].
  destruct U as [-> |[-> _]]; [rewrite app_nil_r|rewrite to_snake_last_sep]; rewrite to_snake_join by exact Fv; [exists r; reflexivity|exists (L "_" ++ r); apply app_assoc_reverse].
Qed.

(** ** References *)
Lemma split_char_at q s ws : split_char q s = ws -> s = join [q] ws /\ Forall (fun w => ~ In q w) ws.
Proof.
  intros <-. split; [|apply Forall_forall; intros w; apply split_char_in].
  induction s as [|c s IH]; [reflexivity|]. cbn [split_char]. destruct (Ascii.eqb_spec c q) as [-> | N].
  - destruct (split_char q s) as [|x xs] eqn:E; [destruct (split_char_not_nil q s E)|]. cbn [join app]. f_equal. exact IH.
  - destruct (split_char q s) as [|x xs] eqn:E; [destruct (split_char_not_nil q s E)|]. destruct xs; cbn [join app] in *; f_equal; exact IH.
Qed.
Section References.
Context (c : ctx) (w : place) (d : fs) (st : state) (B : S_Whole.built c w d st).
Let es := b_entities (st_build st).

Lemma graph_inv : Inv (st_graph st) es.
Proof. destruct (built_parts c w d st B) as (ss & _ & _ & _ & -> & SR). unfold es. rewrite <- SR at 2. apply build_inv, run_inv. Qed.
Lemma declared_names t i fs : declares w d t i fs -> name_syntax t /\ name_syntax i /\ forall name, names_field fs name -> name_syntax name.
Proof.
  intros (r & s & bs & _ & F & I). revert I. induction F as [| ? t' ? i' ? ? fs' body bs rest ? NT ? ? ? NI ? ? FS ? IH|]; intros I; [destruct I| |].
  - destruct I as [[= -> -> ->]|I]; [|exact (IH I)]. split; [exact NT|]. split; [exact NI|]. intros name (v & J). revert J.
    clear - FS. induction FS; intros J; [destruct J|]. destruct J as [[= -> _]|J]; auto.
  - destruct I as [I|I]; [discriminate|auto].
Qed.
Lemma declared_type t i fs : declares w d t i fs -> to_snake t = t.
Proof.
  intros D. destruct (declared_served c w d st B t i fs D) as (r & e & Ie & (_ & _ & _ & _ & _ & _ & T & _)).
  destruct (built_parts c w d st B) as (ss & (FS & _ & _ & C) & _). destruct (C e Ie) as (s & Is & [Ts _]).
  destruct (L_Load.Forall2_in_r _ _ _ _ FS Is) as (b' & _ & R). apply to_schema_ok in R as (name & _ & _ & _ & _ & T' & _).
  assert (X : t = new_id name) by congruence. rewrite X. apply to_snake_idem.
Qed.
(** What the name of an entity looks like. *)
Lemma declared_id t i fs : declares w d t i fs -> exists j, compose_entity_id t i = t ++ "."%char :: j /\ ~ In "."%char t /\ ~ In "."%char j /\
  compose_entity_id t j = compose_entity_id t i /\ to_snake (compose_entity_id t i) = compose_entity_id t i.
Proof.
  intros D. destruct (declared_names t i fs D) as (NT & NI & _). apply name_no_dot in NT, NI. pose proof (declared_type t i fs D) as T.
  assert (E : exists j, compose_entity_id t i = t ++ "."%char :: j).
  { unfold compose_entity_id, new_id. rewrite (fixpoint_lower t T). destruct (to_snake_dot t i) as (p & q & H1 & _ & H3). rewrite H3.
    rewrite (fixpoint_dot_r t T) in H1. apply app_inv_tail in H1 as <-. exists q. reflexivity. }
  destruct E as (j & E). exists j. split; [exact E|]. split; [exact NT|].
  assert (NJ : ~ In "."%char j).
  { pose proof (dots_snake (lower t ++ L "." ++ i)) as X. change (to_snake (lower t ++ L "." ++ i)) with (compose_entity_id t i) in X. rewrite E in X.
    change (t ++ "."%char :: j) with (t ++ L "." ++ j) in X. rewrite !dots_app, dots_lower in X. apply app_inv_head in X. cbn in X. injection X as X.
    apply dots_free. rewrite X. now apply dots_free. }
  split; [exact NJ|]. split; [|apply to_snake_idem].
  pose proof (compose_again t i NT) as X. rewrite E in X. unfold decompose_entity_id in X. rewrite split_once_app in X by exact NT. cbn [snd] in X. congruence.
Qed.
Lemma field_names r i fs t e name : comes_from c w d r i fs t e -> In name (map fst (e_fields e)) <-> names_field fs name.
Proof.
  intros (s & bs & _ & _ & _ & _ & _ & O & SH). revert O SH. generalize (e_fields e). induction fs as [|n fs IH]; intros vs O SH; cbn [omap] in O.
  - injection O as <-. split; [intros []|intros (v & [])].
  - inversion SH as [|? ? (nm & v & -> & VS) SH']; subst. unfold names_field.
    replace (convert_field (c_env c) (path_text r) (field_node nm v)) with (obind (omap_err (fun _ : perr => InvalidFieldValue) (from_node (c_env c) (path_text r) v)) (fun p => Ok (nm, to_value p))) in O by reflexivity.
    destruct (from_node (c_env c) (path_text r) v) as [p| |]; try discriminate. cbn [omap_err obind] in O.
    destruct (omap _ fs) as [vs'| |] eqn:OM; try discriminate. injection O as <-. cbn [map fst]. specialize (IH vs' eq_refl SH'). split.
    + intros [<-|I]; [exists v; now left|]. apply IH in I as (v' & I). exists v'. now right.
    + intros (v' & [[= -> _]|I]); [now left|]. right. apply IH. exists v'. exact I.
Qed.
Lemma served t i fs : declares w d t i fs -> exists e, get_entity (st_graph st) (compose_entity_id t i) = Some e /\ In e es /\ e_id e = compose_entity_id t i /\ e_type e = t /\
  exists r, comes_from c w d r i fs t e.
Proof.
  intros D. destruct (declared_served c w d st B t i fs D) as (r & e & Ie & CF). pose proof CF as (_ & _ & _ & _ & _ & Ei & T & _). exists e.
  split; [|eauto 6]. rewrite (get_entity_lookup _ _ _ graph_inv), <- Ei. apply lookup_in; [|exact Ie]. destruct (built_parts c w d st B) as (ss & _ & _ & ND & _). exact ND.
Qed.
Lemma known_served id e : get_entity (st_graph st) id = Some e -> e_id e = id /\ exists r i fs, comes_from c w d r i fs (e_type e) e /\ declares w d (e_type e) i fs.
Proof.
  rewrite (get_entity_lookup _ _ _ graph_inv). intros G. apply lookup_some in G as [I E]. split; [exact E|].
  destruct (served_from c w d st B (e_type e) e I eq_refl) as (r & i & fs & CF). exists r, i, fs. split; [exact CF|]. destruct CF as (s & bs & S & F & Ib & _). exists r, s, bs. auto.
Qed.

(** References are taken. *)
Lemma reference_taken s : reference_to w d s -> exists r, names_known (st_graph st) s r.
Proof.
  intros R. destruct R as [t i fs D|t i fs name D N].
  - destruct (declared_id t i fs D) as (j & E & NT & NJ & C & _). destruct (served t i fs D) as (e & G & _). rewrite <- C in G. exists (REntity (compose_entity_id t j)), t, j, e.
    rewrite E. auto 6.
  - destruct (declared_id t i fs D) as (j & E & NT & NJ & C & _). destruct (served t i fs D) as (e & G & _ & _ & _ & r & CF).
    apply (field_names _ _ _ _ _ name CF) in N as N'. assert (FV : exists v, first_value e name v).
    { destruct (get_field e name) as [v|] eqn:GF; [exists v; now apply get_field_some|]. exfalso. unfold get_field in GF. apply in_map_iff in N' as ((nm & v) & En & I). cbn in En. subst nm.
      match type of GF with context [find ?f ?l] => destruct (find f l) as [[? ?]|] eqn:F end; [discriminate|]. pose proof (find_none _ _ F (name, v) I) as X. cbn in X. rewrite str_eqb_refl in X. discriminate. }
    destruct FV as (v & FV). rewrite <- C in G. exists (RField (compose_entity_id t j) name), t, j, e. repeat (split; [assumption|]). right. exists name, v.
    destruct (declared_names t i fs D) as (_ & _ & NF). split; [apply name_no_dot, NF, N|]. rewrite E, <- app_assoc. auto.
Qed.
Context (ho : list str -> list str) (HO : forall l, Permutation (ho l) l).

Lemma offered_is_reference input s : In s (reference_suggestions ho (st_graph st) input) ->
  (dot_count input = 0 /\ type_of_some w d s /\ begins_with s input) \/ (reference_to w d s /\ dot_count s = dot_count input).
Proof.
  unfold reference_suggestions. intros I. destruct (split_char "." input) as [|t [|i [|f [|? ?]]]] eqn:SP; [destruct I| | | |destruct I]; apply split_char_at in SP as [-> ND]; cbn [join].
  - left. inversion ND as [|? ? N0 _]; subst. split; [now apply no_dots|]. apply in_map_iff in I as (k & <- & I). apply filter_In in I as [I SW]. apply starts_with_spec in SW as (r & ->).
    apply (Permutation_in _ (HO _)) in I. apply (type_keys_spec _ _ graph_inv) in I as (e & Ie & T). destruct (served_from c w d st B _ e Ie T) as (r' & i & fs & (sr & bs & S & F & Ib & _)).
    split; [exists (t ++ r), i, fs; split; [exists r', sr, bs; auto|reflexivity]|]. exists (r ++ L "."). apply app_assoc_reverse.
  - right. inversion ND as [|? ? N0 ND']; subst. inversion ND' as [|? ? N1 _]; subst. apply filter_In in I as [I _]. rewrite (list_by_type_filter _ _ _ graph_inv) in I. unfold from_str in I.
    unfold es in I. apply (ids_listed c w d st B) in I as (i' & fs & D & ->). split; [econstructor; exact D|].
    destruct (declared_id t i' fs D) as (j & E & NT & NJ & _). rewrite E. change (t ++ "."%char :: j) with (t ++ L "." ++ j). change [("."%char)] with (L "."). rewrite !dot_count_app.
    apply no_dots in NT, NJ, N1. rewrite NT, NJ, N1. reflexivity.
  - right. inversion ND as [|? ? N0 ND']; subst. inversion ND' as [|? ? N1 ND'']; subst. inversion ND'' as [|? ? N2 _]; subst.
    destruct (get_entity _ _) as [e|] eqn:G; [|destruct I]. apply known_served in G as (E & r & i' & fs & CF & D). apply in_map_iff in I as (k & <- & I). apply filter_In in I as [I _].
    apply (field_names _ _ _ _ _ k CF) in I. pose proof CF as (_ & _ & _ & _ & _ & E' & _). rewrite E'. split; [econstructor; eassumption|].
    destruct (declared_id _ i' fs D) as (j & Ej & NT & NJ & _). rewrite Ej. change (e_type e ++ "."%char :: j) with (e_type e ++ L "." ++ j). change [("."%char)] with (L "."). rewrite !dot_count_app.
    destruct (declared_names _ _ _ D) as (_ & _ & NF). apply NF, name_no_dot, no_dots in I. apply no_dots in NT, NJ, N0, N1, N2. rewrite NT, NJ, I, N0, N1, N2. reflexivity.
Qed.
Lemma offer_goes_on input s : In s (reference_suggestions ho (st_graph st) input) -> goes_on input s.
Proof.
  unfold reference_suggestions. intros I. destruct (split_char "." input) as [|t [|i [|f [|? ?]]]] eqn:SP; [destruct I| | | |destruct I]; apply split_char_at in SP as [-> ND]; cbn [join].
  - inversion ND as [|? ? N0 _]; subst. apply goes_on_type; [now apply no_dots|]. apply in_map_iff in I as (k & <- & I). apply filter_In in I as [_ SW]. apply starts_with_spec in SW as (r & ->).
    exists (r ++ L "."). apply app_assoc_reverse.
  - inversion ND as [|? ? N0 ND']; subst. inversion ND' as [|? ? N1 _]; subst. apply filter_In in I as [_ SW]. apply (goes_on_entity _ _ t i); auto. now apply starts_with_spec.
  - inversion ND as [|? ? N0 ND']; subst. inversion ND' as [|? ? N1 ND'']; subst. inversion ND'' as [|? ? N2 _]; subst. apply (goes_on_field _ _ t i f); auto.
    destruct (get_entity _ _) as [e|] eqn:G; [|destruct I]. apply known_served in G as (E & _). apply in_map_iff in I as (k & <- & I). apply filter_In in I as [_ SW]. apply starts_with_spec in SW as (r & ->).
    rewrite E. exists r. rewrite <- !app_assoc. reflexivity.
Qed.
Lemma type_is_offered s p : type_of_some w d s -> begins_with s p -> dot_count p = 0 -> In s (reference_suggestions ho (st_graph st) p).
Proof.
  intros (t & i & fs & D & ->) (r & E) N. apply no_dots in N. unfold reference_suggestions. rewrite split_char_one by exact N. apply in_map_iff. exists t. split; [reflexivity|].
  destruct (declared_names t i fs D) as (NT & _). apply name_no_dot in NT. apply filter_In. split.
  - apply (Permutation_in _ (Permutation_sym (HO _))). apply (type_keys_spec _ _ graph_inv). destruct (served t i fs D) as (e & _ & Ie & _ & T & _). eauto.
  - apply starts_with_spec. destruct (app_prefix _ _ _ _ E) as [(z & ->)|(z & Nz & ->)]; [exists z; reflexivity|]. rewrite <- app_assoc in E. apply app_inv_head in E.
    destruct z as [|x z]; [congruence|]. exfalso. apply N. apply in_or_app. right. injection E as <- _. now left.
Qed.
Lemma two_parts t q : ~ In "."%char t -> ~ In "."%char q -> split_char "." (t ++ "."%char :: q) = [t; q].
Proof. intros A C. now apply split_two. Qed.
Lemma part_undotted b q : begins_with b q -> ~ In "."%char b -> ~ In "."%char q.
Proof. intros (r & ->) N I. apply N, in_or_app. now left. Qed.
Lemma reference_is_offered s p : reference_to w d s -> begins_with s p -> dot_count p = dot_count s -> In s (reference_suggestions ho (st_graph st) p).
Proof.
  intros R P C. destruct R as [t i fs D|t i fs name D N]; destruct (declared_id t i fs D) as (j & E & NT & NJ & AG & FX); destruct (served t i fs D) as (e & G & Ie & Ei & Te & r & CF).
  - assert (I : In "."%char p).
    { destruct (in_dec ascii_dec "."%char p) as [I|I]; [exact I|]. apply no_dots in I. rewrite I, E in C. change (t ++ "."%char :: j) with (t ++ L "." ++ j) in C. rewrite !dot_count_app in C. cbn in C. lia. }
    pose proof P as P'. rewrite E in P'. destruct (prefix_dot t j p NT P' I) as (q & -> & Q). unfold reference_suggestions. rewrite two_parts by (eauto using part_undotted).
    apply filter_In. split.
    + rewrite (list_by_type_filter _ _ _ graph_inv). rewrite <- Ei. apply in_map, filter_In. split; [exact Ie|]. rewrite Te. apply str_eqb_refl.
    + apply starts_with_spec. pose proof (snake_prefix _ _ FX P) as SP. unfold compose_entity_id at 2, new_id. rewrite (fixpoint_lower t (declared_type t i fs D)).
      exact SP.
  - destruct (declared_names t i fs D) as (_ & _ & NF). pose proof (name_no_dot _ (NF name N)) as NN. rewrite E in P, C.
    change (t ++ "."%char :: j) with (t ++ L "." ++ j) in C. rewrite !dot_count_app in C. pose proof (proj2 (no_dots t) NT) as CT. pose proof (proj2 (no_dots j) NJ) as CJ. pose proof (proj2 (no_dots name) NN) as CN.
    rewrite CT, CJ, CN in C. cbn in C. rewrite <- app_assoc in P. cbn [app] in P.
    assert (I : In "."%char p) by (destruct (in_dec ascii_dec "."%char p) as [I|I]; [exact I|]; apply no_dots in I; lia).
    destruct (prefix_dot t _ p NT P I) as (q & -> & Q). change (t ++ "."%char :: q) with (t ++ L "." ++ q) in C. rewrite !dot_count_app, CT in C. cbn in C.
    assert (I' : In "."%char q) by (destruct (in_dec ascii_dec "."%char q) as [I'|I']; [exact I'|]; apply no_dots in I'; lia).
    destruct (prefix_dot j name q NJ Q I') as (q' & -> & Q'). unfold reference_suggestions.
    rewrite (proj2 (L_Prompt.split_three _ _ t j q')) by (repeat split; eauto using part_undotted). rewrite AG, G, Ei. apply in_map_iff. exists name. split; [reflexivity|].
    apply filter_In. split; [now apply (field_names _ _ _ _ _ name CF)|]. apply starts_with_spec. exact Q'.
Qed.
Lemma offered_once input : (forall t i fs, declares w d t i fs -> NoDup (map fn_id fs)) -> NoDup (reference_suggestions ho (st_graph st) input).
Proof.
  intros NF. assert (INJ : forall (a : str) l, NoDup l -> NoDup (map (fun k => a ++ k) l)).
  { intros a l. induction 1 as [|x l NI _ IH]; constructor; [|exact IH]. intros I. apply in_map_iff in I as (y & E & I). apply app_inv_head in E as ->. contradiction. }
  unfold reference_suggestions. destruct (split_char "." input) as [|t [|i [|f [|? ?]]]]; [constructor| | | |constructor].
  - assert (ND : NoDup (filter (fun k => starts_with k t) (ho (type_keys (st_graph st))))).
    { apply NoDup_filter. apply (Permutation_NoDup (Permutation_sym (HO _))). apply (type_keys_spec _ _ graph_inv). }
    revert ND. generalize (filter (fun k => starts_with k t) (ho (type_keys (st_graph st)))). induction 1 as [|x l NI _ IH]; constructor; [|exact IH].
    intros I. apply in_map_iff in I as (y & E & I). apply app_inv_tail in E as ->. contradiction.
  - apply NoDup_filter. rewrite (list_by_type_filter _ _ _ graph_inv). apply nodup_filter. destruct (built_parts c w d st B) as (ss & _ & _ & ND & _). exact ND.
  - destruct (get_entity _ _) as [e|] eqn:G; [|constructor]. apply known_served in G as (_ & r & i' & fs & CF & D).
    assert (ND : NoDup (map fst (e_fields e))).
    { specialize (NF _ _ _ D). destruct CF as (_ & _ & _ & _ & _ & _ & _ & O & SH). clear - NF O SH. revert O SH NF. generalize (e_fields e) as vs. induction fs as [|n fs IH]; intros vs O SH NF; cbn [omap] in O.
      - injection O as <-. constructor.
      - inversion SH as [|? ? (nm & v & -> & VS) SH']; subst.
        replace (convert_field (c_env c) (path_text r) (field_node nm v)) with (obind (omap_err (fun _ : perr => InvalidFieldValue) (from_node (c_env c) (path_text r) v)) (fun p => Ok (nm, to_value p))) in O by reflexivity.
        destruct (from_node (c_env c) (path_text r) v) as [p| |]; try discriminate. cbn [omap_err obind] in O.
        destruct (omap _ fs) as [vs'| |] eqn:OM; try discriminate. injection O as <-. cbn [map fst] in *. inversion NF as [|? ? NI NF']; subst. constructor; [|exact (IH vs' eq_refl SH' NF')].
        intros I. apply NI. clear - I OM SH'. revert vs' OM I. induction fs as [|n fs IH]; intros vs' OM I; cbn [omap] in OM; [injection OM as <-; destruct I|].
        inversion SH' as [|? ? (nm' & v' & -> & VS') SH'']; subst.
        replace (convert_field (c_env c) (path_text r) (field_node nm' v')) with (obind (omap_err (fun _ : perr => InvalidFieldValue) (from_node (c_env c) (path_text r) v')) (fun p => Ok (nm', to_value p))) in OM by reflexivity.
        destruct (from_node (c_env c) (path_text r) v') as [p'| |]; try discriminate. cbn [omap_err obind] in OM. destruct (omap _ fs) as [vs''| |] eqn:OM'; try discriminate. injection OM as <-. cbn [map fst] in I.
        destruct I as [-> |I]; [now left|]. right. exact (IH SH'' vs'' eq_refl I). }
    apply (NoDup_filter (fun k => starts_with k f)) in ND. revert ND. generalize (filter (fun k => starts_with k f) (map fst (e_fields e))). intros l ND.
    rewrite (map_ext _ (fun k => (e_id e ++ L ".") ++ k)) by (intros k; apply app_assoc). apply INJ, ND.
Qed.
End References.

(** ** Paths *)
Inductive thin : path -> path -> Prop :=
| thin_end : thin [] []
| thin_keep x p p' : thin p p' -> thin (x :: p) (x :: p')
| thin_drop x p p' : stays x = true -> thin p p' -> thin (x :: p) p'.
Lemma thin_refl p : thin p p. Proof. induction p; constructor; auto. Qed.
Lemma thin_app a b b' : thin b b' -> thin (a ++ b) (a ++ b').
Proof. induction a; cbn [app]; auto using thin. Qed.
Lemma thin_parts p : thin p (parts p).
Proof. induction p as [|x p IH]; [constructor|]. cbn [parts filter]. destruct (stays x) eqn:E; [apply thin_drop|apply thin_keep]; auto. Qed.
Lemma walk_thin k d cur p q : walk k d cur p = At q -> forall p', thin p p' -> walk k d cur p' = At q.
Proof.
  revert k cur p. apply (lex_ind (fun k cur p => walk k d cur p = At q -> forall p', thin p p' -> walk k d cur p' = At q)).
  intros k cur p IHk IHp W p' T. inversion T as [|x r r' T'|x r r' S T']; subst; [exact W| |].
  - rewrite walk_cons in *. destruct (node_at d cur) as [[]|]; try discriminate.
    destruct (stays x); [apply (IHp _ r); auto; cbn [length]; lia|]. destruct (climbs x); [apply (IHp _ r); auto; cbn [length]; lia|].
    destruct (node_at d (cur ++ [x])) as [[]|] eqn:F.
    1,2: apply (IHp _ r); auto; cbn [length]; lia.
    + destruct k as [|k]; [discriminate|]. apply (IHk k _ (path_of target ++ r)); auto. now apply thin_app.
    + destruct r; discriminate.
  - rewrite walk_cons, S in W. destruct (node_at d cur) as [[]|]; try discriminate. apply (IHp _ r); auto.
Qed.
Lemma walk_on_stays k d q ss : node_at d q = Some Dir -> Forall (fun x => stays x = true) ss -> walk k d q ss = At q.
Proof. intros N. induction 1 as [|x ss S _ IH]; [apply walk_nil|]. rewrite walk_cons, N, S. exact IH. Qed.
Lemma walk_more_stays k d cur p q ss : sound d -> node_at d cur <> None -> walk k d cur p = At q -> node_at d q = Some Dir -> Forall (fun x => stays x = true) ss -> walk k d cur (p ++ ss) = At q.
Proof. intros S N W D F. destruct (walk_then d k cur p q S N W) as (k' & H). rewrite (H d ss (extends_refl d)). now apply walk_on_stays. Qed.
Lemma diff_below ws x : diff_go (ws ++ x) ws = Some x.
Proof. rewrite <- (app_nil_r ws) at 2. rewrite diff_prefix. destruct x; reflexivity. Qed.

Lemma stays_cases x : stays x = true <-> x = [] \/ x = L ".".
Proof. unfold stays. rewrite Bool.orb_true_iff, !str_eqb_eq. reflexivity. Qed.
(** Cutting a path at its last slash. *)
Lemma path_of_last input : exists pre last, path_of input = pre ++ [last] /\ ~ In "/"%char last /\ input = concat (map (fun x => x ++ L "/") pre) ++ last.
Proof.
  assert (G : forall ws, ws <> [] -> Forall (fun x : str => ~ In "/"%char x) ws -> exists pre last, ws = pre ++ [last] /\ ~ In "/"%char last /\ join ["/"%char] ws = concat (map (fun x => x ++ L "/") pre) ++ last).
  { induction ws as [|x ws IH]; intros N F; [congruence|]. inversion F as [|? ? Nx F']; subst. destruct ws as [|y ws].
    - exists [], x. auto.
    - destruct (IH ltac:(discriminate) F') as (pre & last & E & NL & J). exists (x :: pre), last. rewrite E. split; [reflexivity|]. split; [exact NL|].
      cbn [map concat]. rewrite <- !app_assoc. rewrite <- J, E. destruct pre; reflexivity. }
  destruct (split_char_at "/"%char input (path_of input) eq_refl) as [E F]. destruct (G _ (split_char_not_nil _ _) F) as (pre & last & Ep & NL & J). exists pre, last. split; [exact Ep|]. split; [exact NL|]. exact (eq_trans E J).
Qed.
Section Paths.
Context (c : ctx) (d : fs) (w : place) (RI : runs_in c d w).

Definition slash_of (q : place) (n : str) : str := match node_at d (q ++ [n]) with Some Dir => L "/" | _ => [] end.
(** Where is searched, and what is made of the entries. *)
Lemma searched_place input q : relative_input input -> resolve (c_links c) d (searched c input) = At q -> node_at d q = Some Dir ->
  exists p, resolve (c_links c) d (c_ws c ++ p) = At q /\ slashless p /\
    forall n, proper_name n -> entry_suggestion c d (searched c input) q input n =
      let s := path_text (p ++ [n]) ++ slash_of q n in if starts_with s input then [s] else [].
Proof.
  intros (NA & N1 & N2) R D. destruct RI as (S & SL & W & WD). destruct (path_of_last input) as (pre & last & EP & NL & EI).
  assert (J : join_path (c_ws c) input = c_ws c ++ path_of input).
  { unfold join_path. destruct input as [|x r]; [reflexivity|]. destruct (ascii_dec x "/") as [-> | NX]; [exfalso; apply NA; exists r; reflexivity|].
    destruct x as [[][][][][][][][]]; try reflexivity. exfalso. apply NX. reflexivity. }
  assert (PR : forall n, proper_name n -> parts [n] = [n]).
  { intros n P. apply parts_plain. constructor; [exact P|constructor]. }
  assert (SLP : slashless (parts (path_of input)) /\ slashless (parts pre)).
  { assert (F : slashless (path_of input)) by (apply Forall_forall; intros x; apply split_char_in). split; apply incl_Forall with (path_of input); auto; intros x I; apply filter_In in I as [I _]; [exact I|].
    rewrite EP. apply in_or_app. now left. }
  unfold searched in *. rewrite J in *. destruct (ends_with input (L "/") || str_eqb input []) eqn:EW.
  - exists (parts (path_of input)). split; [|split; [apply SLP|]].
    + exact (walk_thin _ _ _ _ _ R _ (thin_app (c_ws c) _ _ (thin_parts _))).
    + intros n P. unfold entry_suggestion. rewrite !parts_app, (PR n P), <- app_assoc, diff_below. reflexivity.
  - apply Bool.orb_false_iff in EW as [EW EN]. apply str_eqb_neq in EN.
    assert (ST : stays last = false).
    { apply Bool.not_true_iff_false. intros ST. apply stays_cases in ST as [-> | ->].
      - destruct pre as [|x pre] using rev_ind; [apply EN; exact EI|]. rewrite map_app, concat_app, app_nil_r in EI. cbn [map concat] in EI. rewrite app_nil_r in EI.
        apply Bool.not_true_iff_false in EW. apply EW, ends_with_spec. exists (concat (map (fun x => x ++ L "/") pre) ++ x). rewrite EI. apply app_assoc.
      - destruct pre as [|x pre] using rev_ind; [apply N1; exact EI|]. apply (N2 (concat (map (fun x => x ++ L "/") pre) ++ x)). rewrite EI, map_app, concat_app. cbn [map concat]. rewrite app_nil_r, <- !app_assoc. reflexivity. }
    rewrite EP, app_assoc in *. destruct (parent_name (c_ws c ++ pre) last ST) as (q' & ss & EQ & E' & F). rewrite EQ in *. exists (parts pre). split; [|split; [apply SLP|]].
    + assert (WM : walk (c_links c) d [] (c_ws c ++ pre) = At q) by (rewrite E'; apply walk_more_stays; auto; discriminate).
      exact (walk_thin _ _ _ _ _ WM _ (thin_app (c_ws c) _ _ (thin_parts _))).
    + intros n P. unfold entry_suggestion. rewrite parts_app, (PR n P). replace (parts q') with (parts (c_ws c) ++ parts pre); [rewrite <- app_assoc, diff_below; reflexivity|].
      rewrite <- parts_app, E', parts_app, (parts_stays ss F), app_nil_r. reflexivity.
Qed.
Lemma suggestions_listed input : relative_input input -> path_suggestions c d input = [] \/
  exists p q, resolve (c_links c) d (c_ws c ++ p) = At q /\ slashless p /\
    path_suggestions c d input = filter (fun s => starts_with s input) (map (fun n => path_text (p ++ [n]) ++ slash_of q n) (names_in d q)).
Proof.
  intros RE. unfold path_suggestions, read_dir. destruct (resolve (c_links c) d (searched c input)) as [q|q| |] eqn:R; auto. destruct (node_at d q) as [[]|] eqn:D; auto.
  right. destruct (searched_place input q RE R D) as (p & RP & SL & E). exists p, q. split; [exact RP|]. split; [exact SL|]. fold (names_in d q).
  assert (F : Forall proper_name (names_in d q)) by (apply Forall_forall; intros n I; apply names_spec in I; destruct RI as (S & _); apply (S q n I)).
  revert F. generalize (names_in d q). induction l as [|n l IH]; intros F; [reflexivity|]. inversion F as [|? ? P F']; subst. cbn [flat_map map filter]. rewrite (E n P), (IH F'). cbv zeta.
  destruct (starts_with _ input); reflexivity.
Qed.
Lemma offered_path input s : relative_input input -> In s (path_suggestions c d input) -> begins_with s input /\ path_of_some c d s.
Proof.
  intros RE I. destruct (suggestions_listed input RE) as [E|(p & q & RP & SL & E)]; rewrite E in I; [destruct I|]. apply filter_In in I as [I SW]. apply starts_with_spec in SW. split; [exact SW|].
  apply in_map_iff in I as (n & <- & I). apply names_spec in I. destruct (node_at d (q ++ [n])) as [m|] eqn:N; [|congruence]. exists p, n, q, m. split; [exact RP|]. split; [exact N|]. unfold slash_of, shown. rewrite N.
  destruct m; [right|left|right]; rewrite ?app_nil_r; auto; split; auto; discriminate.
Qed.
Lemma join_inj (p : list str) (n m x y : str) : ~ In "/"%char n -> ~ In "/"%char m -> (x = [] \/ x = L "/") -> (y = [] \/ y = L "/") -> path_text (p ++ [n]) ++ x = path_text (p ++ [m]) ++ y -> n = m.
Proof.
  intros Nn Nm X Y E. assert (G : n ++ x = m ++ y).
  { destruct p as [|a p]; [exact E|]. rewrite !L_Tools.path_text_snoc, <- !app_assoc in E by discriminate. apply app_inv_head in E. cbn [app] in E. injection E as E. exact E. }
  clear E. destruct X as [-> | ->], Y as [-> | ->]; rewrite ?app_nil_r in G; auto.
  - exfalso. apply Nn. rewrite G. apply in_or_app. right. now left.
  - exfalso. apply Nm. rewrite <- G. apply in_or_app. right. now left.
  - now apply app_inj_tail in G as [G _].
Qed.
Lemma paths_once input : tidy d -> relative_input input -> NoDup (path_suggestions c d input).
Proof.
  intros T RE. destruct (suggestions_listed input RE) as [-> |(p & q & RP & SL & ->)]; [constructor|]. apply NoDup_filter.
  assert (F : Forall proper_name (names_in d q)) by (apply Forall_forall; intros n I; apply names_spec in I; destruct RI as (S & _); apply (S q n I)).
  pose proof (names_nodup d q T) as ND. revert F ND. generalize (names_in d q). induction l as [|n l IH]; intros F ND; [constructor|]. inversion F as [|? ? P F']; inversion ND as [|? ? NI ND']; subst. cbn [map].
  constructor; [|now apply IH]. intros I. apply in_map_iff in I as (m & E & I). apply NI. rewrite Forall_forall in F'.
  assert (SO : forall k, slash_of q k = [] \/ slash_of q k = L "/") by (intros k; unfold slash_of; destruct (node_at d (q ++ [k])) as [[]|]; auto).
  replace n with m; [exact I|]. refine (join_inj p m n _ _ _ _ (SO m) (SO n) E); [apply (F' m I)|apply P].
Qed.
Lemma path_offered ds name n input s : no_links_in w d -> node_at d (w ++ ds ++ [name]) = Some n -> shown ds name n s -> typed_of ds name input -> (forall x, input <> x ++ L "/.") -> input <> L "." ->
  In s (path_suggestions c d input).
Proof.
  intros NLK N SH (a & (r & Er) & EI) N2 N1. pose proof RI as (S & SL & W & WD).
  assert (PN : Forall proper_name (ds ++ [name])) by (assert (X : Forall proper_name (w ++ ds ++ [name])) by (apply (sound_names d _ S); congruence); now apply Forall_app in X).
  apply Forall_app in PN as [PD PN]. pose proof (Forall_inv PN) as Pn. subst input.
  assert (SLd : slashless ds) by now apply proper_slashless. assert (Na : ~ In "/"%char a) by (destruct Pn as (_ & _ & _ & H); intros I; apply H; rewrite Er; apply in_or_app; now left).
  assert (PO : path_of (concat (map (fun x => x ++ L "/") ds) ++ a) = ds ++ [a]).
  { unfold path_of. clear - SLd Na. induction SLd as [|x ds Hx _ IH]; cbn [map concat app]; [now apply split_char_one|]. rewrite <- !app_assoc. cbn [app].
    assert (G : forall z, ~ In "/"%char x -> split_char "/" (x ++ "/"%char :: z) = x :: split_char "/" z).
    { clear. induction x as [|h x IHx]; intros z N; cbn [app split_char]; [rewrite Ascii.eqb_refl; reflexivity|]. rewrite (proj2 (Ascii.eqb_neq h "/")) by (intros ->; apply N; now left). rewrite IHx by (intros I; apply N; now right). reflexivity. }
    exact (eq_trans (G _ Hx) (f_equal (cons x) IH)). }
  set (input := concat (map (fun x => x ++ L "/") ds) ++ a) in *.
  assert (RE : ~ begins_with input (L "/")).
  { intros (z & E). unfold input in E. destruct ds as [|x ds]; cbn [map concat app] in E.
    - destruct a as [|h a]; [discriminate|]. injection E as -> _. apply Na. now left.
    - inversion PD as [|? ? (NE & _ & _ & NS) _]; subst. destruct x as [|h x]; [congruence|]. cbn [app] in E. injection E as -> _. apply NS. now left. }
  assert (RB : resolve (c_links c) d (c_ws c ++ ds) = At (w ++ ds)).
  { apply (resolve_below c d w ds RI NLK). rewrite (sound_prefix d (w ++ ds) [name] S); [discriminate|rewrite <- app_assoc; congruence|discriminate]. }
  assert (DD : node_at d (w ++ ds) = Some Dir) by (apply (sound_prefix d (w ++ ds) [name] S); [rewrite <- app_assoc; congruence|discriminate]).
  assert (J : join_path (c_ws c) input = c_ws c ++ ds ++ [a]).
  { rewrite <- PO. unfold join_path. destruct input as [|x z]; [reflexivity|]. destruct (ascii_dec x "/") as [-> | NX]; [exfalso; apply RE; exists z; reflexivity|].
    destruct x as [[][][][][][][][]]; try reflexivity. exfalso. apply NX. reflexivity. }
  assert (PS : exists dir, searched c input = dir /\ resolve (c_links c) d dir = At (w ++ ds) /\ parts dir = parts (c_ws c) ++ ds).
  { unfold searched. rewrite J. assert (DP : parts ds = ds) by (apply parts_plain; exact PD). destruct a as [|h a].
    - exists (c_ws c ++ ds ++ [[]]). replace (ends_with input (L "/") || str_eqb input []) with true.
      + split; [reflexivity|]. rewrite app_assoc. split; [apply walk_more_stays; auto; discriminate|]. rewrite !parts_app, DP. cbn. apply app_nil_r.
      + symmetry. apply Bool.orb_true_iff. unfold input. destruct ds as [|x ds] using rev_ind; [right; reflexivity|]. left. apply ends_with_spec. rewrite map_app, concat_app, app_nil_r. cbn [map concat]. rewrite app_nil_r, app_assoc. eauto.
    - assert (ST : stays (h :: a) = false).
      { apply Bool.not_true_iff_false. intros ST. apply stays_cases in ST as [ST|ST]; [discriminate|]. injection ST as -> ->. destruct ds as [|x ds] using rev_ind; [apply N1; reflexivity|].
        apply (N2 (concat (map (fun x => x ++ L "/") ds) ++ x)). unfold input. rewrite map_app, concat_app. cbn [map concat]. rewrite app_nil_r, <- !app_assoc. reflexivity. }
      rewrite app_assoc. destruct (parent_name (c_ws c ++ ds) (h :: a) ST) as (q' & ss & EQ & E' & F). rewrite EQ. replace (ends_with input (L "/") || str_eqb input []) with false.
      + exists q'. split; [reflexivity|]. split; [|rewrite <- DP, <- parts_app, E', parts_app, (parts_stays ss F), app_nil_r; reflexivity]. rewrite E' in RB. exact (walk_stays _ _ _ _ _ _ F RB).
      + symmetry. apply Bool.orb_false_iff. split; [|apply str_eqb_neq; unfold input; intros X; apply app_eq_nil in X as [_ X]; discriminate].
        apply Bool.not_true_iff_false. intros X. apply ends_with_spec in X as (z & X). unfold input in X. destruct a as [|h' a] using rev_ind.
        * apply app_inj_tail in X as [_ ->]. apply Na. now left.
        * clear IHa. rewrite app_comm_cons, app_assoc in X. apply app_inj_tail in X as [_ ->]. apply Na. right. apply in_or_app. right. now left. }
  destruct PS as (dir & ED & RD & PD'). unfold path_suggestions, read_dir. rewrite ED, RD, DD. apply in_flat_map. exists name. rewrite app_assoc in N. split; [apply names_spec; congruence|].
  unfold entry_suggestion. rewrite parts_app, PD', (parts_plain [name]) by exact PN. rewrite <- app_assoc, diff_below, N.
  assert (ES : path_text (ds ++ [name]) ++ match n with Dir => L "/" | _ => [] end = s) by (destruct SH as [[-> ->]|[ND ->]]; [reflexivity|destruct n; [apply app_nil_r|congruence|apply app_nil_r]]).
  cbv zeta. rewrite ES. replace (starts_with s input) with true; [now left|]. symmetry. apply starts_with_spec.
  assert (X : exists z, path_text (ds ++ [name]) = input ++ z).
  { exists r. unfold input. rewrite <- app_assoc. clear - Er. destruct ds as [|x ds]; [exact Er|]. revert x. induction ds as [|y ds IH]; intros x.
    - cbn. rewrite Er, <- !app_assoc. reflexivity.
    - change (path_text ((x :: y :: ds) ++ [name])) with (x ++ "/"%char :: path_text ((y :: ds) ++ [name])). rewrite (IH y). cbn [map concat]. rewrite <- !app_assoc. reflexivity. }
  destruct X as (z & X). rewrite <- ES, X, <- app_assoc. eauto.
Qed.
End Paths.
