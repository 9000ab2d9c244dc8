(** Property theorems C60: setting up a workspace. *)
From Coq Require Import Lia Permutation.
From Verif Require Import S_Graph L_Graph.
From Verif Require Import S_Init L_Str L_Schema L_Schema2 L_Fs L_Server L_Load L_Add L_Prompt L_Init L_Init2.
From Verif Require Import P_Dsl P_Schema P_Workspace P_Server.
From Verif Require Import M_Fs.
Close Scope Z_scope.

Lemma top_other (w : place) (n m : str) : n <> m -> w ++ [n] <> w ++ [m].
Proof. intros N X. apply app_inv_head in X. congruence. Qed.
Lemma deep_other (w : place) (n : str) s : w ++ schema_place s <> w ++ [n].
Proof. intros X. apply app_inv_head in X. discriminate. Qed.
Lemma run_does c template d w acts d' r (ow : Prop) : runs_in c d w -> no_links_in w d -> Forall (fun a => ow \/ ~ says_yes a) acts ->
  run_init c template d acts = (d', r) ->
  (r = Succeeded tt \/ r = Failed) /\ runs_in c d' w /\ no_links_in w d' /\ (tidy d -> tidy d') /\
  (r = Succeeded tt -> (forall s, node_at d' (w ++ schema_place s) = node_at d (w ++ schema_place s)) \/
     forall s, In s all_default_schemas -> node_at d' (w ++ schema_place s) = Some (File (schema_text c s))) /\
  (forall p, p <> w ++ [L ".gitignore"] -> p <> w ++ [L "main.firm"] -> p <> w ++ [L "AGENTS.md"] ->
     node_at d' p = node_at d p \/ rewritten c w ow all_default_schemas d d' p \/ (p = w ++ [L "schemas"] /\ node_at d p = None /\ node_at d' p = Some Dir)) /\
  (node_at d' (w ++ [L ".gitignore"]) = node_at d (w ++ [L ".gitignore"]) \/
     (node_at d (w ++ [L ".gitignore"]) = None /\ node_at d' (w ++ [L ".gitignore"]) = Some (File graph_entry)) \/
     exists old new, node_at d (w ++ [L ".gitignore"]) = Some (File old) /\ is_text old = true /\ ~ ignored old /\ entry_added old new /\
       node_at d' (w ++ [L ".gitignore"]) = Some (File new)) /\
  (node_at d' (w ++ [L "main.firm"]) = node_at d (w ++ [L "main.firm"]) \/
   (node_at d (w ++ [L "main.firm"]) = None \/ ow /\ exists o, node_at d (w ++ [L "main.firm"]) = Some (File o)) /\
   exists s, entities_text c acts s /\ node_at d' (w ++ [L "main.firm"]) = Some (File s)) /\
  (node_at d' (w ++ [L "AGENTS.md"]) = node_at d (w ++ [L "AGENTS.md"]) \/
   (node_at d (w ++ [L "AGENTS.md"]) = None \/ ow /\ exists o, node_at d (w ++ [L "AGENTS.md"]) = Some (File o)) /\
   node_at d' (w ++ [L "AGENTS.md"]) = Some (File template)).
Proof.
  intros RI NL F H. unfold run_init in H. destruct (init_workspace c template d acts) as [d4 o] eqn:E.
  destruct (does_init c w acts ow template d acts d4 o) as ([A B] & T & (d1 & ok1 & [R1 R1'] & (d2 & ok2 & [R2 R2'] & (d3 & ok3 & [R3 R3'] & [R4 R4'] & O3) & O2) & O1) & _); [split; auto| |exact E|].
  { apply Forall_forall. intros a I. split; [rewrite Forall_forall in F; exact (F a I)|exact I]. }
  assert (X : d' = d4 /\ (r = Succeeded tt /\ o <> None \/ r = Failed)) by (destruct o; injection H as <- <-; split; auto; left; split; [reflexivity|discriminate]).
  destruct X as (-> & X). split; [tauto|]. split; [exact A|]. split; [exact B|]. split; [exact T|].
  assert (S1 : forall n, n <> L "schemas" -> node_at d1 (w ++ [n]) = node_at d (w ++ [n])).
  { intros n N. destruct (R1 (w ++ [n])) as [Y|[(s & _ & Y & _)|[Y _]]]; [exact Y|elim (deep_other w n s (eq_sym Y))|elim (top_other w n (L "schemas") N Y)]. }
  assert (S2 : forall p, p <> w ++ [L ".gitignore"] -> p <> w ++ [L "main.firm"] -> p <> w ++ [L "AGENTS.md"] -> node_at d4 p = node_at d1 p).
  { intros p N1 N2 N3. rewrite R4, R3, R2 by assumption. reflexivity. }
  split.
  { intros ->. destruct X as [[_ X]|X]; [|discriminate]. destruct o; [|contradiction].
    destruct (R1' (O1 eq_refl)) as [Y|Y]; [left; intros s|right; intros s Is; rewrite <- (Y s Is)]; rewrite S2 by apply deep_other; auto. }
  split; [|split; [|split]].
  - intros p N1 N2 N3. unfold rewritten. rewrite (S2 p N1 N2 N3). exact (R1 p).
  - rewrite R4, R3 by (apply top_other; discriminate). rewrite S1 in R2' by discriminate. exact R2'.
  - rewrite R4 by (apply top_other; discriminate). rewrite R2, S1 in R3' by (discriminate || (apply top_other; discriminate)). exact R3'.
  - rewrite R3, R2, S1 in R4' by (discriminate || (apply top_other; discriminate)). destruct R4' as [Y|(O & s & <- & Y)]; auto.
Qed.
Lemma schema_init s : In s all_default_schemas -> init_file (schema_place s).
Proof. intros I. apply if_schema. apply (in_map s_type) in I. exact I. Qed.
Lemma allowed_all acts : Forall (fun a => True \/ ~ says_yes a) acts.
Proof. apply Forall_forall. auto. Qed.
Lemma forms w ow c d d' p : node_at d' p = node_at d p \/ rewritten c w ow all_default_schemas d d' p \/ (p = w ++ [L "schemas"] /\ node_at d p = None /\ node_at d' p = Some Dir) ->
  left_or_written w ow d d' p.
Proof. intros [X|[(s & _ & _ & X & Y)|X]]; [left; exact X|right; left; eauto|right; right; exact X]. Qed.

(** ** What is written *)
(** Whatever is answered, and also if the command fails: only its own files are
    touched, nothing is removed, and no file is put in the place of a directory. *)
Theorem C60_touches_only_its_files : forall c template d w acts d' r, runs_in c d w -> no_links_in w d ->
  run_init c template d acts = (d', r) ->
  runs_in c d' w /\ no_links_in w d' /\
  (forall p, left_or_written w True d d' p) /\
  (forall p, (forall f, init_file f -> p <> w ++ f) -> p <> w ++ [L "schemas"] -> node_at d' p = node_at d p).
Proof.
  intros c template d w acts d' r RI NL H.
  destruct (run_does c template d w acts d' r True RI NL (allowed_all acts) H) as (_ & A & B & _ & _ & R & G & M & K).
  split; [exact A|]. split; [exact B|]. split.
  - intros p. destruct (place_dec p (w ++ [L ".gitignore"])) as [->|N1]; [|destruct (place_dec p (w ++ [L "main.firm"])) as [->|N2]; [|destruct (place_dec p (w ++ [L "AGENTS.md"])) as [->|N3]]].
    + destruct G as [X|[[X Y]|(old & new & X & _ & _ & _ & Y)]]; [left; exact X|right; left; split; [left; exact X|eauto]|right; left; split; [right; split; [exact I|eauto]|eauto]].
    + destruct M as [X|(X & s & _ & Y)]; [left; exact X|right; left; eauto].
    + destruct K as [X|(X & Y)]; [left; exact X|right; left; eauto].
    + apply (forms w True c), R; assumption.
  - intros p N NS. destruct (R p) as [X|[(s & Is & X & _)|[X _]]]; [exact (N _ if_gitignore)|exact (N _ if_entities)|exact (N _ if_context)|exact X| |contradiction].
    elim (N _ (schema_init s Is) X).
Qed.
Print Assumptions C60_touches_only_its_files.

(** Whoever never says yes overwrites nothing: except for the .gitignore, which
    is added to, a file that is there stays as it is. *)
Theorem C60_overwrites_only_when_told : forall c template d w acts d' r, runs_in c d w -> no_links_in w d ->
  Forall (fun a => ~ says_yes a) acts -> run_init c template d acts = (d', r) ->
  forall p, p <> w ++ [L ".gitignore"] -> left_or_written w False d d' p.
Proof.
  intros c template d w acts d' r RI NL F H p N1.
  destruct (run_does c template d w acts d' r False RI NL ltac:(revert F; apply Forall_impl; auto) H) as (_ & _ & _ & _ & _ & R & _ & M & K).
  destruct (place_dec p (w ++ [L "main.firm"])) as [->|N2]; [|destruct (place_dec p (w ++ [L "AGENTS.md"])) as [->|N3]].
  - destruct M as [X|(X & s & _ & Y)]; [left; exact X|right; left; eauto].
  - destruct K as [X|(X & Y)]; [left; exact X|right; left; eauto].
  - apply (forms w False c), R; assumption.
Qed.
Print Assumptions C60_overwrites_only_when_told.

(** If the command succeeds, the schemas were all written or all left, and what
    is new in the other files is the two entities as entered and the guide. *)
Theorem C60_success_is_whole : forall c template d w acts d', runs_in c d w -> no_links_in w d ->
  run_init c template d acts = (d', Succeeded tt) ->
  ((forall t, In t default_types -> node_at d' (w ++ [L "schemas"; t ++ L ".firm"]) = node_at d (w ++ [L "schemas"; t ++ L ".firm"])) \/
   forall s, In s all_default_schemas ->
     node_at d' (w ++ [L "schemas"; s_type s ++ L ".firm"]) = Some (File (generate_schema (c_fields c) default_options s))) /\
  (node_at d' (w ++ [L "main.firm"]) = node_at d (w ++ [L "main.firm"]) \/
   exists pn on, In (Types pn) acts /\ In (Types on) acts /\
     node_at d' (w ++ [L "main.firm"]) = Some (File (generate_dsl (c_env c) default_options (first_entities pn on)))) /\
  (node_at d' (w ++ [L "AGENTS.md"]) = node_at d (w ++ [L "AGENTS.md"]) \/ node_at d' (w ++ [L "AGENTS.md"]) = Some (File template)).
Proof.
  intros c template d w acts d' RI NL H.
  destruct (run_does c template d w acts d' _ True RI NL (allowed_all acts) H) as (_ & _ & _ & _ & S & _ & _ & M & K).
  split; [|split].
  - destruct (S eq_refl) as [X|X]; [left|right; exact X]. intros t It. change default_types with (map s_type all_default_schemas) in It. apply in_map_iff in It as (s & <- & _). exact (X s).
  - destruct M as [X|(_ & s & (pn & on & I1 & I2 & ->) & Y)]; [left; exact X|right; eauto].
  - destruct K as [X|(_ & X)]; auto.
Qed.
Print Assumptions C60_success_is_whole.

(** The .gitignore: what was there stays, and the entry is added at the end. *)
Theorem C60_gitignore_keeps_what_was_there : forall c template d w acts d' r, runs_in c d w -> no_links_in w d ->
  run_init c template d acts = (d', r) ->
  node_at d' (w ++ [L ".gitignore"]) = node_at d (w ++ [L ".gitignore"]) \/
  (node_at d (w ++ [L ".gitignore"]) = None /\ node_at d' (w ++ [L ".gitignore"]) = Some (File graph_entry)) \/
  exists old new, node_at d (w ++ [L ".gitignore"]) = Some (File old) /\ node_at d' (w ++ [L ".gitignore"]) = Some (File new) /\ entry_added old new.
Proof.
  intros c template d w acts d' r RI NL H.
  destruct (run_does c template d w acts d' r True RI NL (allowed_all acts) H) as (_ & _ & _ & _ & _ & _ & G & _).
  destruct G as [X|[X|(old & new & X & _ & _ & Y & Z)]]; [left; exact X|right; left; exact X|right; right; eauto].
Qed.
Print Assumptions C60_gitignore_keeps_what_was_there.

Lemma declines_confirm (b : bool) a r : declines a -> confirm b (a :: r) = Got false r.
Proof.
  intros (s & -> & Y). unfold confirm. cbn [ask line]. unfold or_default. apply yes_no_says in Y. destruct s; [discriminate|]. rewrite Y. reflexivity.
Qed.
Lemma confirmed_no b a st d r : declines a -> confirmed b st d (a :: r) = (d, Some r).
Proof. intros H. unfold confirmed. rewrite (declines_confirm b a r H). reflexivity. Qed.
(** Saying no each time changes nothing. *)
Theorem C60_declining_changes_nothing : forall c template d a1 a2 a3 a4 rest, declines a1 -> declines a2 -> declines a3 -> declines a4 ->
  run_init c template d (a1 :: a2 :: a3 :: a4 :: rest) = (d, Succeeded tt).
Proof.
  intros c template d a1 a2 a3 a4 rest D1 D2 D3 D4. unfold run_init, init_workspace, then_. rewrite (confirmed_no _ a1) by exact D1.
  unfold create_or_update_gitignore. replace (if path_exists _ _ _ then _ else _) with (d, Some (a3 :: a4 :: rest)) by (destruct (path_exists _ _ _); rewrite (confirmed_no _ a2) by exact D2; reflexivity).
  rewrite (confirmed_no _ a3), (confirmed_no _ a4) by assumption. reflexivity.
Qed.
Print Assumptions C60_declining_changes_nothing.

Lemma contains_straddle a x b pat : ~ In x pat -> contains (a ++ x :: b) pat = true -> contains a pat = true \/ contains b pat = true.
Proof.
  intros N H. apply contains_spec in H as (u & v & E).
  assert (G : forall u a, a ++ x :: b = u ++ pat ++ v -> (exists t, a = u ++ pat ++ t) \/ (exists t, b = t ++ pat ++ v)).
  { clear E u a. induction u as [|y u IH]; intros a E.
    - cbn [app] in E. left. revert a v E N. induction pat as [|z pat IP]; intros a v E N; [exists a; reflexivity|].
      destruct a as [|y a]; cbn [app] in E; injection E as E1 E2; [elim N; left; auto|]. subst y. destruct (IP a v E2) as (t & ->); [intros X; apply N; right; exact X|]. exists t. reflexivity.
    - destruct a as [|z a]; cbn [app] in E; injection E as E1 E2; [right; eauto|]. subst z. destruct (IH a E2) as [(t & ->)|X]; [left; exists t; reflexivity|right; exact X]. }
  destruct (G u a E) as [(t & ->)|(t & ->)]; [left|right]; apply contains_spec; eauto.
Qed.
Lemma entry_added_keeps old new : entry_added old new -> contains old (L ".DS_Store") = false -> contains new (L ".DS_Store") = false.
Proof.
  intros [(b & _ & ->)|(_ & ->)] C; apply Bool.not_true_iff_false; intros X; unfold graph_entry in X.
  - change (L "**/*.firm.graph" ++ [LF]) with ("*"%char :: L "*/*.firm.graph" ++ [LF]) in X. apply contains_straddle in X as [X|X]; [congruence|vm_compute in X; discriminate|cbn; intuition discriminate].
  - change ([LF] ++ L "**/*.firm.graph" ++ [LF]) with (LF :: L "**/*.firm.graph" ++ [LF]) in X. apply contains_straddle in X as [X|X]; [congruence|vm_compute in X; discriminate|cbn; intuition discriminate].
Qed.
(** Refuted: that the entry is added once. Where ".DS_Store" is not mentioned,
    every run that is agreed to adds it again. *)
Theorem C60_entry_added_once_refuted : forall c template d w old a1 a2 a3 a4 rest, runs_in c d w -> no_links_in w d ->
  node_at d (w ++ [L ".gitignore"]) = Some (File old) -> is_text old = true -> contains old (L ".DS_Store") = false ->
  declines a1 -> agrees a2 -> declines a3 -> declines a4 ->
  exists d' new, run_init c template d (a1 :: a2 :: a3 :: a4 :: rest) = (d', Succeeded tt) /\ runs_in c d' w /\ no_links_in w d' /\
    node_at d' (w ++ [L ".gitignore"]) = Some (File new) /\ entry_added old new /\ is_text new = true /\ contains new (L ".DS_Store") = false.
Proof.
  intros c template d w old a1 a2 a3 a4 rest RI NL N T C D1 A2 D3 D4.
  assert (R : resolve (c_links c) d (c_ws c ++ [L ".gitignore"]) = At (w ++ [L ".gitignore"])) by (apply (inner_at c d w RI NL [] (L ".gitignore")); intros X; pose proof (eq_trans (eq_sym N) X); discriminate).
  set (new := old ++ (if ends_with old [LF] then [] else [LF]) ++ gitignore_entries).
  set (d' := set_node d (w ++ [L ".gitignore"]) (File new)).
  assert (E : run_init c template d (a1 :: a2 :: a3 :: a4 :: rest) = (d', Succeeded tt)).
  { unfold run_init, init_workspace, then_. rewrite (confirmed_no _ a1) by exact D1.
    unfold create_or_update_gitignore. unfold path_exists, read_text, stat, append_to. rewrite R, (confirmed_yes a2) by exact A2. rewrite R, N, T, C. cbn [andb]. 
    unfold wrote. rewrite (confirmed_no _ a3), (confirmed_no _ a4) by assumption. reflexivity. }
  exists d', new. destruct (C60_touches_only_its_files c template d w _ d' _ RI NL E) as (A & B & _).
  split; [exact E|]. split; [exact A|]. split; [exact B|]. split; [apply node_set_same; destruct w; discriminate|]. split; [apply entry_ends|].
  split; [|exact (entry_added_keeps _ _ (entry_ends old) C)].
  unfold new. destruct (ends_with old [LF]); apply L_History.text_app; auto.
Qed.
Print Assumptions C60_entry_added_once_refuted.

(** ** A new workspace *)
Fixpoint ascending (l : list nat) : bool := match l with a :: (b :: _) as r => Nat.ltb a b && ascending r | _ => true end.
Lemma ascending_sorted l : ascending (map (fun p => fs_order (snd p)) l) = true -> StronglySorted olt l.
Proof.
  intros H. apply Sorted_StronglySorted; [intros a b c; unfold olt; lia|]. induction l as [|a l IH]; [constructor|]. destruct l as [|b l]; [repeat constructor|].
  cbn [map ascending] in H. apply Bool.andb_true_iff in H as [H1 H2]. constructor; [apply IH, H2|]. constructor. apply PeanoNat.Nat.ltb_lt, H1.
Qed.
Lemma default_listing ho s : shuffles ho -> In s all_default_schemas -> listing ho s = map decl_of (sort_by by_order (s_fields s)).
Proof.
  intros O Is. unfold listing, ordered_fields. f_equal.
  assert (F : forallb (fun s => ascending (map (fun p => fs_order (snd p)) (sort_by by_order (s_fields s)))) all_default_schemas = true) by (vm_compute; reflexivity).
  rewrite forallb_forall in F. apply sort_olt; [apply ascending_sorted, F, Is|]. eapply perm_trans; [apply O|symmetry; apply sort_by_perm].
Qed.
(** The schemas that come with firm: sixteen types, each written so that it is
    read back with the same fields in the same order. *)
Theorem C60_default_schemas : map s_type all_default_schemas = default_types /\ NoDup default_types /\
  forall s, In s all_default_schemas ->
    (exists own, own <> [] /\ forall ho, shuffles ho -> listing ho s = own ++ metadata) /\
    forall env path ho, shuffles ho ->
    exists s', to_schema env path (written_schema ho s) = Ok s' /\ forall ho', shuffles ho' -> said ho' s' = said ho s.
Proof.
  split; [reflexivity|]. split; [apply nodup_lit; reflexivity|]. intros s Is.
  split; [|intros env path ho O; exact (default_survives env path ho s O Is)].
  assert (F : Forall (fun s => exists own, own <> [] /\ map decl_of (sort_by by_order (s_fields s)) = own ++ metadata) all_default_schemas).
  { repeat (apply Forall_cons; [match goal with |- exists own, _ /\ ?l = _ => exists (firstn (length l - 3) l) end; split; [vm_compute; discriminate|vm_compute; reflexivity]|]). constructor. }
  rewrite Forall_forall in F. destruct (F s Is) as (own & N & E). exists own. split; [exact N|]. intros ho O. rewrite (default_listing ho s O Is). exact E.
Qed.
Print Assumptions C60_default_schemas.

(** In an empty directory, agreeing to everything: the command succeeds and
    leaves exactly these files. *)
Theorem C60_fresh_workspace : forall c template d w a1 a2 a3 a4 pn on rest, runs_in c d w -> no_links_in w d -> empty_dir w d ->
  agrees a1 -> agrees a2 -> agrees a3 -> agrees a4 ->
  exists d', run_init c template d (a1 :: a2 :: a3 :: Types pn :: Types on :: a4 :: rest) = (d', Succeeded tt) /\
    (forall s, In s all_default_schemas ->
       node_at d' (w ++ [L "schemas"; s_type s ++ L ".firm"]) = Some (File (generate_schema (c_fields c) default_options s))) /\
    node_at d' (w ++ [L ".gitignore"]) = Some (File graph_entry) /\
    node_at d' (w ++ [L "main.firm"]) = Some (File (generate_dsl (c_env c) default_options (first_entities pn on))) /\
    node_at d' (w ++ [L "AGENTS.md"]) = Some (File template) /\
    (forall p, node_at d' p = node_at d p \/ p = w ++ [L "schemas"] \/ exists f, init_file f /\ p = w ++ f).
Proof.
  intros c template d w a1 a2 a3 a4 pn on rest RI NL ED A1 A2 A3 A4.
  destruct (fresh_init c w d template (conj RI NL) ED a1 a2 a3 a4 pn on rest A1 A2 A3 A4) as (d' & E & _ & _ & S & G & M & K & R).
  exists d'. unfold run_init. rewrite E. split; [reflexivity|]. split; [exact S|]. split; [exact G|]. split; [exact M|]. split; [exact K|].
  intros p. destruct (R p) as [X|[[X _]|X]]; auto.
Qed.
Print Assumptions C60_fresh_workspace.

Lemma init_sources c d w d' pn on : empty_dir w d -> node_at d w = Some Dir -> node_at d' (w ++ [L "schemas"]) = Some Dir ->
  (forall s, In s all_default_schemas -> node_at d' (w ++ schema_place s) = Some (File (schema_text c s))) ->
  node_at d' (w ++ [L "main.firm"]) = Some (File (generate_dsl (c_env c) default_options (first_entities pn on))) ->
  (forall p, node_at d' p = node_at d p \/ p = w ++ [L "schemas"] \/ exists f, init_file f /\ p = w ++ f) ->
  forall r s, source_of w d' r s <-> In (r, s) (combine ([L "main.firm"] :: map schema_place all_default_schemas)
    (generate_dsl (c_env c) default_options (first_entities pn on) :: map (schema_text c) all_default_schemas)).
Proof.
  intros ED DW SD S M R r s. cbn [combine].
  assert (CC : forall l, combine (map schema_place l) (map (schema_text c) l) = map (fun x => (schema_place x, schema_text c x)) l) by (induction l as [|x l IH]; cbn [map combine]; [reflexivity|rewrite IH; reflexivity]).
  rewrite CC. split.
  - intros (N & r' & n & Er & (a & An & En)). destruct (R (w ++ r)) as [X|[X|(f & F & X)]].
    + rewrite X in N. destruct r as [|x r]; [destruct r'; discriminate|]. rewrite ED in N by discriminate. discriminate.
    + rewrite X, SD in N. discriminate.
    + apply app_inv_head in X. subst f. inversion F as [t It Ef|Ef|Ef|Ef].
      * change default_types with (map s_type all_default_schemas) in It. apply in_map_iff in It as (x & Ex & Ix). right. apply in_map_iff. exists x.
        assert (Y : r = schema_place x) by (unfold schema_place, schema_file; rewrite Ex; symmetry; exact Ef). split; [|exact Ix]. rewrite Y, (S x Ix) in N. injection N as <-. exact (f_equal2 pair (eq_trans (eq_sym Y) (eq_sym Ef)) eq_refl).
      * exfalso. rewrite Er in Ef. destruct r' as [|? [|]]; [|discriminate|discriminate]. apply (f_equal (fun l => hd [] l)) in Ef. cbn [hd app] in Ef.
        assert (Z : ends_with (L ".gitignore") (L ".firm") = true) by (rewrite Ef, En; apply ends_with_spec; eauto). vm_compute in Z. discriminate.
      * left. rewrite <- Ef, M in N. injection N as <-. reflexivity.
      * exfalso. rewrite Er in Ef. destruct r' as [|? [|]]; [|discriminate|discriminate]. apply (f_equal (fun l => hd [] l)) in Ef. cbn [hd app] in Ef.
        assert (Z : ends_with (L "AGENTS.md") (L ".firm") = true) by (rewrite Ef, En; apply ends_with_spec; eauto). vm_compute in Z. discriminate.
  - intros [X|X].
    + injection X as <- <-. split; [exact M|]. exists [], (L "main.firm"). split; [reflexivity|]. exists (L "main"). split; [discriminate|reflexivity].
    + apply in_map_iff in X as (x & X & Ix). injection X as <- <-. split; [exact (S x Ix)|]. exists [L "schemas"], (schema_file x). split; [reflexivity|].
      exists (s_type x). split; [|reflexivity]. assert (F : Forall (fun x => s_type x <> []) all_default_schemas) by (repeat constructor; discriminate). rewrite Forall_forall in F. exact (F x Ix).
Qed.

(** With names that a string can hold, and a parser that reads the texts for
    what they are, the new workspace builds: with the sixteen schemas, and with
    the two entities and nothing else to be served. *)
Theorem C60_new_workspace_builds : forall c template d w a1 a2 a3 a4 pn on rest, runs_in c d w -> no_links_in w d -> tidy d -> empty_dir w d ->
  agrees a1 -> agrees a2 -> agrees a3 -> agrees a4 ->
  shuffles (c_fields c) -> (forall l, Permutation (c_schemas c l) l) -> (forall l, Permutation (c_files c l) l) ->
  utf8 pn -> storable_text pn -> utf8 on -> storable_text on ->
  Forall (reads_schema_text c) all_default_schemas -> reads_entities_text c (first_entities pn on) ->
  exists d' st, run_init c template d (a1 :: a2 :: a3 :: Types pn :: Types on :: a4 :: rest) = (d', Succeeded tt) /\
    rebuild c d' = Ok st /\ Permutation (b_entities (st_build st)) (first_entities pn on) /\
    (forall ho, shuffles ho -> Permutation (map (said ho) (b_schemas (st_build st))) (map (said (c_fields c)) all_default_schemas)) /\
    (forall e, In e (first_entities pn on) -> get_entity (st_graph st) (e_id e) = Some e) /\
    (forall id e, get_entity (st_graph st) id = Some e -> In e (first_entities pn on)).
Proof.
  intros c template d w a1 a2 a3 a4 pn on rest RI NL TD ED A1 A2 A3 A4 SH PS PC U1 S1 U2 S2 RS RE.
  destruct (fresh_init c w d template (conj RI NL) ED a1 a2 a3 a4 pn on rest A1 A2 A3 A4) as (d' & E & [RI' NL'] & TD' & S & G & M & K & R).
  assert (SRC := init_sources c d w d' pn on ED (proj2 (proj2 (proj2 RI)))).
  destruct (first_builds c w d' pn on SH PS PC RI' NL' (TD' TD)) as (st & X).
  - apply SRC; auto.
    + destruct (R (w ++ [L "schemas"])) as [X|[[_ X]|(f & F & X)]]; [|exact X|].
      * exfalso. assert (P : node_at d' ((w ++ [L "schemas"]) ++ [L "person.firm"]) = Some (File (schema_text c person))) by (rewrite <- app_assoc; apply (S person); left; reflexivity).
        destruct (proj1 RI' (w ++ [L "schemas"]) (L "person.firm") ltac:(intros Q; pose proof (eq_trans (eq_sym P) Q); discriminate)) as [Y _]. rewrite X, (ED [L "schemas"]) in Y by discriminate. discriminate.
      * apply app_inv_head in X. inversion F as [t It Ef|Ef|Ef|Ef]; rewrite <- Ef in X; discriminate.
    + intros p. destruct (R p) as [X|[[X _]|X]]; auto.
  - exact RS.
  - exact RE.
  - apply C25_strings_survive_exactly; auto.
  - apply C25_strings_survive_exactly; auto.
  - exists d', st. unfold run_init. rewrite E. split; [reflexivity|exact X].
Qed.
Print Assumptions C60_new_workspace_builds.

Lemma ascii_utf8 s : forallb (fun c => negb (is_cont c) && Nat.eqb (cont_bytes c) 0) s = true -> utf8 s.
Proof.
  induction s as [|c s IH]; cbn [forallb]; [constructor|]. intros H. apply Bool.andb_true_iff in H as [H1 H2]. apply Bool.andb_true_iff in H1 as [H0 H1].
  apply (utf8_cons [c]); [|auto]. cbn. apply Bool.negb_true_iff in H0. apply PeanoNat.Nat.eqb_eq in H1. rewrite H1. auto.
Qed.
(** Refuted: that any name does. One with a quotation mark is read back as
    another name, whatever the parser does. *)
Theorem C60_any_name_refuted : exists pn, utf8 pn /\ forall env path on e, In e (first_entities pn on) -> e_type e = L "person" ->
  exists e' v, to_entity env path (written_entity env default_options e) = Ok e' /\ get_field e' (L "name") = Some (VStr v) /\ v <> pn.
Proof.
  exists (L "Jane " ++ [DQ] ++ L "J" ++ [DQ] ++ L " Doe"). split; [apply ascii_utf8; reflexivity|].
  intros env path on e [<-|[<-|[]]] T; [|discriminate]. eexists _, _. split; [vm_compute; reflexivity|]. split; [vm_compute; reflexivity|]. discriminate.
Qed.
Print Assumptions C60_any_name_refuted.

(** ** Cases *)
Definition d8 : fs := [([L "w"], Dir)].
Definition enter : act := Types [].
Definition yes : act := Types (L "Yes").
Definition no : act := Types (L "n").
Definition guide : str := L "# Guide".
Lemma d8_runs c : c_ws c = path_of (L "/w") -> c_links c = 40 -> runs_in c d8 w0.
Proof. intros E K. unfold runs_in. rewrite E, K. runs. Qed.
Lemma d8_links : no_links_in w0 d8.
Proof. apply no_links_list; reflexivity. Qed.
Lemma d8_tidy : tidy d8.
Proof. constructor; [intros []|constructor]. Qed.
Lemma d8_empty : empty_dir w0 d8.
Proof. intros [|x r] N; [contradiction|]. destruct r; reflexivity. Qed.
Lemma agrees_enter : agrees enter.
Proof. left. reflexivity. Qed.
Lemma agrees_yes : agrees yes.
Proof. right. exists (L "Yes"). split; [reflexivity|right; reflexivity]. Qed.
Lemma declines_no : declines no.
Proof. exists (L "n"). split; [reflexivity|left; reflexivity]. Qed.

(** A parser that reads the written texts for what they are. *)
Definition names8 := first_entities (L "Jane Doe") (L "Acme & Sons").
Definition parse8 (t : str) : option parsed :=
  if str_eqb t (generate_dsl env0 default_options names8)
  then Some {| ps_error := false; ps_schemas := []; ps_entities := map (written_entity env0 default_options) names8 |}
  else match find (fun s => str_eqb t (generate_schema fid default_options s)) all_default_schemas with
       | Some s => Some {| ps_error := false; ps_schemas := [written_schema fid s]; ps_entities := [] |}
       | None => None
       end.
Definition c8 : ctx :=
  {| c_ws := path_of (L "/w"); c_links := 40; c_parse := parse8; c_env := env0; c_fields := fid; c_schemas := sid; c_files := fun l => l |}.
Lemma c8_schemas : Forall (reads_schema_text c8) all_default_schemas.
Proof. repeat (apply Forall_cons; [split; [vm_compute; reflexivity|eexists; split; [vm_compute; reflexivity|split; reflexivity]]|]). constructor. Qed.
Lemma c8_entities : reads_entities_text c8 names8.
Proof. split; [vm_compute; reflexivity|eexists; split; [vm_compute; reflexivity|split; reflexivity]]. Qed.
Definition plain_name (s : str) : bool := forallb (fun c => negb (is_cont c) && Nat.eqb (cont_bytes c) 0 && negb (Ascii.eqb c LF) && negb (Ascii.eqb c DQ)) s.
Lemma plain_name_storable s : plain_name s = true -> utf8 s /\ storable_text s.
Proof.
  intros H. unfold plain_name in H. rewrite forallb_forall in H. split.
  - apply ascii_utf8, forallb_forall. intros c I. specialize (H c I). apply Bool.andb_true_iff in H as [H _]. apply Bool.andb_true_iff in H as [H _]. exact H.
  - left. split; intros I; specialize (H _ I); vm_compute in H; discriminate.
Qed.
Example C60_new_workspace_builds_example : exists d' st,
  run_init c8 guide d8 [enter; yes; enter; Types (L "Jane Doe"); Types (L "Acme & Sons"); yes] = (d', Succeeded tt) /\
  rebuild c8 d' = Ok st /\ length (b_schemas (st_build st)) = 16 /\
  get_entity (st_graph st) (L "person.jane_doe") = Some {| e_id := L "person.jane_doe"; e_type := L "person"; e_fields := [(L "name", VStr (L "Jane Doe"))] |}.
Proof.
  destruct (plain_name_storable (L "Jane Doe") eq_refl) as [U1 S1]. destruct (plain_name_storable (L "Acme & Sons") eq_refl) as [U2 S2].
  destruct (C60_new_workspace_builds c8 guide d8 w0 enter yes enter yes (L "Jane Doe") (L "Acme & Sons") []) as (d' & st & E & B & PE & PS & G & _); auto using d8_runs, d8_links, d8_tidy, d8_empty, agrees_enter, agrees_yes, c8_schemas, c8_entities.
  - intros l. reflexivity.
  - exists d', st. split; [exact E|]. split; [exact B|]. split; [|exact (G _ (or_introl eq_refl))].
    specialize (PS fid (fun l => Permutation_refl l)). apply Permutation_length in PS. rewrite !map_length in PS. exact PS.
Qed.

(** A workspace with two of the files: agreeing without saying yes leaves them;
    the rest is new. *)
Definition d9 : fs := [([L "w"], Dir); ([L "w"; L "main.firm"], File (L "mine")); ([L "w"; L ".gitignore"], File (L "target"))].
Lemma d9_runs : runs_in c8 d9 w0.
Proof. runs. Qed.
Example C60_overwrites_only_when_told_example : exists d', run_init c8 guide d9 [no; enter; enter; enter; enter] = (d', Succeeded tt) /\
  runs_in c8 d9 w0 /\ no_links_in w0 d9 /\ Forall (fun a => ~ says_yes a) [no; enter; enter; enter; enter] /\
  node_at d' [L "w"; L "main.firm"] = Some (File (L "mine")) /\
  node_at d' [L "w"; L ".gitignore"] = Some (File (L "target" ++ [LF] ++ graph_entry)) /\
  node_at d' [L "w"; L "AGENTS.md"] = Some (File guide).
Proof.
  eexists. split; [vm_compute; reflexivity|]. split; [exact d9_runs|]. split; [apply no_links_list; reflexivity|].
  split; [repeat constructor; intros (s & E & Y); injection E as <-; destruct Y; discriminate|]. split; [reflexivity|]. split; reflexivity.
Qed.
(** Twice: the entry is there twice. *)
Example C60_entry_added_once_example : exists d' d'', run_init c8 guide d9 [no; enter; no; no] = (d', Succeeded tt) /\
  run_init c8 guide d' [no; enter; no; no] = (d'', Succeeded tt) /\
  node_at d'' [L "w"; L ".gitignore"] = Some (File (L "target" ++ [LF] ++ graph_entry ++ graph_entry)).
Proof. eexists _, _. split; [vm_compute; reflexivity|]. split; vm_compute; reflexivity. Qed.
Example C60_declining_example : run_init c8 guide d9 [no; no; no; no] = (d9, Succeeded tt).
Proof. apply C60_declining_changes_nothing; exact declines_no. Qed.
Example C60_default_schemas_example : In person all_default_schemas /\
  map d_name (listing fid person) = [L "name"; L "email"; L "phone"; L "urls"; L "notes"; L "created_at"; L "updated_at"].
Proof. split; [left; reflexivity|vm_compute; reflexivity]. Qed.
(** Stopped in the middle: one file is there, the others are not. *)
Example C60_touches_only_its_files_example : exists d', run_init c8 guide d8 [no; enter; Interrupts] = (d', Failed) /\
  node_at d' [L "w"; L ".gitignore"] = Some (File graph_entry) /\ node_at d' [L "w"; L "main.firm"] = None.
Proof. eexists. split; [vm_compute; reflexivity|]. split; reflexivity. Qed.

(** Refuted: that the files are in the workspace even if there are links in it.
    Where main.firm is a link to a file that is not there, that file
    is made outside the workspace, and nobody is asked. *)
Definition d10 : fs := [([L "w"], Dir); ([L "w"; L "main.firm"], Link (L "/o/x")); ([L "o"], Dir)].
Theorem C60_stays_inside_refuted : exists c template d w acts d' p, runs_in c d w /\ run_init c template d acts = (d', Succeeded tt) /\
  (forall r, p <> w ++ r) /\ node_at d p = None /\ (exists s, node_at d' p = Some (File s)) /\ Forall (fun a => ~ says_yes a) acts.
Proof.
  exists c8, guide, d10, w0, [no; no; enter; Types (L "Jane"); Types (L "Acme"); no]. eexists _, [L "o"; L "x"]. split; [runs|]. split; [vm_compute; reflexivity|].
  split; [intros r; discriminate|]. split; [reflexivity|]. split; [eexists; vm_compute; reflexivity|].
  repeat constructor; intros (s & E & Y); injection E as <-; destruct Y; discriminate.
Qed.
Print Assumptions C60_stays_inside_refuted.
