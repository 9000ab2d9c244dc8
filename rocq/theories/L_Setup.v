(** Setting up a workspace, broken off. *)
From Coq Require Import Lia.
From Verif Require Import S_Graph L_Graph.
From Verif Require Import S_Setup L_Str L_Schema L_Fs L_Server L_Load L_Workspace L_History L_Add L_Save L_Cli L_Prompt L_Kill L_Init.
From Verif Require Import M_Fs.
Close Scope Z_scope.

(** ** The command ends in one of the file systems it goes through *)
Definition ends_in (st : part) (ip : inpart) : Prop := forall d acts d' o, st d acts = (d', o) -> d' = d \/ ip d acts d'.
Lemma ends_confirmed b st ip : ends_in st ip -> ends_in (confirmed b st) (in_confirmed b ip).
Proof.
  intros H d acts d' o E. unfold confirmed in E. unfold in_confirmed. destruct (confirm b acts) as [[|] r| |] eqn:C; try (injection E as <- _; auto).
  destruct (H d r d' o E) as [->|X]; [auto|]. right. eauto.
Qed.
Lemma ends_then a ia b ib : ends_in a ia -> ends_in b ib -> ends_in (then_ a b) (in_then a ia ib).
Proof.
  intros A B d acts d' o E. unfold then_ in E. unfold in_then. destruct (a d acts) as [d1 [r|]] eqn:E1.
  - destruct (B d1 r d' o E) as [->|X]; [|right; right; eauto]. destruct (A d acts d1 _ E1) as [->|X]; auto.
  - injection E as <- _. destruct (A d acts d1 _ E1) as [->|X]; auto.
Qed.
Lemma ends_wrote links d r p s d' o : wrote d r (write links d p s) = (d', o) -> d' = d \/ partly_written links d p s d'.
Proof.
  unfold wrote. destruct (write links d p s) as [d1|] eqn:W; intros [= <- _]; [|auto]. right. exists (length s). rewrite firstn_whole. exact W.
Qed.
Lemma ends_list c : forall ss d d' ok, write_schemas c d ss = (d', ok) -> d' = d \/ in_write_schemas c d ss d'.
Proof.
  induction ss as [|s ss IH]; intros d d' ok E; cbn [write_schemas in_write_schemas] in *; [injection E as <- _; auto|].
  destruct (write _ _ _ _) as [d1|] eqn:W; [|injection E as <- _; auto]. right. destruct (IH d1 d' ok E) as [->|X]; [|right; eauto].
  left. eexists. rewrite firstn_whole. exact W.
Qed.
Lemma ends_schemas c : ends_in (create_default_schemas c) (in_create_default_schemas c).
Proof.
  assert (A : ends_in (schemas_written c) (in_schemas_written c)).
  { intros d acts d' o E. unfold schemas_written in E. unfold in_schemas_written. destruct (create_dir_all _ _ d _) as [d1 b] eqn:C.
    assert (X : d' = d1 -> d' = d \/ In d' (making (S (length (schemas_dir c))) (c_links c) d (schemas_dir c))) by (intros ->; exact (create_made _ _ _ _ _ _ C)).
    destruct b; [|injection E as <- _; destruct X; auto]. destruct (write_schemas c d1 all_default_schemas) as [d2 ok] eqn:W.
    assert (d' = d2) as -> by (destruct ok; congruence). destruct (ends_list _ _ _ _ _ W) as [->|Y]; [destruct X; auto|]. right. right. eauto. }
  intros d acts d' o E. unfold create_default_schemas in E. unfold in_create_default_schemas. destruct (existsb _ all_default_schemas).
  - exact (ends_confirmed false _ _ A d acts d' o E).
  - exact (A d acts d' o E).
Qed.
Lemma ends_gitignore c : ends_in (create_or_update_gitignore c) (in_create_or_update_gitignore c).
Proof.
  intros d acts d' o E. unfold create_or_update_gitignore in E. unfold in_create_or_update_gitignore. destruct (path_exists _ _ _).
  - refine (ends_confirmed true _ _ _ d acts d' o E). clear. intros d r d' o E. destruct (read_text _ _ _) as [t|] eqn:R; [|injection E as <- _; auto].
    destruct (contains t (L ".DS_Store") && contains t (L "*.firm.graph"))%bool eqn:C; [injection E as <- _; auto|]. unfold wrote in E.
    destruct (append_to _ _ _ _) as [d1|] eqn:W; injection E as <- _; [|auto]. right. exists t. split; [reflexivity|]. split; [exact C|]. eexists. rewrite firstn_whole. exact W.
  - refine (ends_confirmed true _ _ _ d acts d' o E). clear. intros d r d' o E. exact (ends_wrote _ _ _ _ _ _ _ E).
Qed.
Lemma ends_entities c : ends_in (create_default_entities c) (in_create_default_entities c).
Proof.
  assert (A : ends_in (entities_written c) (in_entities_written c)).
  { intros d acts d' o E. unfold entities_written in E. unfold in_entities_written. destruct (need false (ask (line Some) acts)) as [pn r| |]; try (injection E as <- _; auto).
    destruct (need false (ask (line Some) r)) as [on r'| |] eqn:G; try (injection E as <- _; auto). destruct (ends_wrote _ _ _ _ _ _ _ E) as [->|X]; [auto|]. right. exists pn, r, on, r'. auto. }
  intros d acts d' o E. unfold create_default_entities in E. unfold in_create_default_entities. destruct (path_exists _ _ _).
  - exact (ends_confirmed false _ _ A d acts d' o E).
  - exact (A d acts d' o E).
Qed.
Lemma ends_context c template : ends_in (create_ai_context c template) (in_create_ai_context c template).
Proof.
  assert (A : ends_in (context_written c template) (in_context_written c template)) by (intros d acts d' o E; exact (ends_wrote _ _ _ _ _ _ _ E)).
  intros d acts d' o E. unfold create_ai_context in E. unfold in_create_ai_context. destruct (path_exists _ _ _).
  - exact (ends_confirmed false _ _ A d acts d' o E).
  - exact (A d acts d' o E).
Qed.
Lemma ends_init c template : ends_in (init_workspace c template) (in_init_workspace c template).
Proof.
  apply ends_then; [apply ends_confirmed, ends_schemas|]. apply ends_then; [apply ends_gitignore|]. apply ends_then; apply ends_confirmed; [apply ends_entities|apply ends_context].
Qed.

(** ** What is in between *)
(** As [does], for what is gone through. *)
Definition in_does (c : ctx) (w : place) (Q : act -> Prop) (R : fs -> fs -> Prop) (ip : inpart) : Prop :=
  forall d acts d', kept_running c w d -> Forall Q acts -> ip d acts d' -> kept_running c w d' /\ (tidy d -> tidy d') /\ R d d'.
Lemma in_does_confirmed c w Q R b ip : (b = true \/ (exists a, Q a /\ says_yes a) -> in_does c w Q R ip) -> in_does c w Q R (in_confirmed b ip).
Proof.
  intros H d acts d' K F (r & C & E). apply confirm_got in C as (pre & s & -> & S). destruct (tail_forall _ _ _ _ F) as [Fs Fr]. refine (H _ d r d' K Fr E).
  destruct S as [[-> S]|S]; [auto|]. right. exists (Types s). split; [exact Fs|]. exists s. auto.
Qed.
Lemma in_does_then c w Q (R1 : fs -> fs -> bool -> Prop) (I1 I2 : fs -> fs -> Prop) a ia ib : does c w Q R1 a -> in_does c w Q I1 ia -> in_does c w Q I2 ib ->
  in_does c w Q (fun d d' => I1 d d' \/ exists d1, R1 d d1 true /\ I2 d1 d') (in_then a ia ib).
Proof.
  intros A IA IB d acts d' K F [E|(d1 & r & E1 & E)]; [destruct (IA d acts d' K F E) as (X & Y & Z); auto|].
  destruct (A d acts d1 _ K F E1) as (K1 & T1 & H1 & F1). destruct (IB d1 r d' K1 (F1 r eq_refl) E) as (K2 & T2 & H2). split; [exact K2|]. split; [auto|]. right. eauto.
Qed.
Definition beginning (T : str -> Prop) (s : str) : Prop := exists t, T t /\ begins s t.
Lemma firstn_begins n (s : str) : begins (firstn n s) s.
Proof. exists (skipn n s). symmetry. apply firstn_skipn. Qed.
Lemma begins_refl (s : str) : begins s s.
Proof. exists []. now rewrite app_nil_r. Qed.
Lemma partly_step c w d rp n s d' (ow : Prop) (T : str -> Prop) : kept_running c w d -> Forall proper_name (rp ++ [n]) ->
  partly_written (c_links c) d (c_ws c ++ rp ++ [n]) s d' -> (ow \/ node_at d (w ++ rp ++ [n]) = None) -> T s ->
  kept_running c w d' /\ (tidy d -> tidy d') /\ file_step w (rp ++ [n]) ow (beginning T) d d' true.
Proof.
  intros K P (k & W) O Ts. refine (written_step c w d rp n _ d' ow _ K P W O _). exists s. split; [exact Ts|apply firstn_begins].
Qed.
Section InParts.
  Variables (c : ctx) (w : place) (acts0 : list act) (ow : Prop).
  Let Q := allowed acts0 ow.
  Lemma in_top n s d d' (T : str -> Prop) : proper_name n -> kept_running c w d -> partly_written (c_links c) d (c_ws c ++ [n]) s d' -> (ow \/ node_at d (w ++ [n]) = None) -> T s ->
    kept_running c w d' /\ (tidy d -> tidy d') /\ file_step w [n] ow (beginning T) d d' true.
  Proof. intros P K W O Ts. exact (partly_step c w d [] n s d' ow T K ltac:(constructor; [exact P|constructor]) W O Ts). Qed.
  Lemma in_there n T (ip : inpart) : proper_name n ->
    (forall d acts d', kept_running c w d -> Forall Q acts -> (ow \/ node_at d (w ++ [n]) = None) -> ip d acts d' -> kept_running c w d' /\ (tidy d -> tidy d') /\ file_step w [n] ow T d d' true) ->
    in_does c w Q (fun d d' => file_step w [n] ow T d d' true) (fun d acts d' => if path_exists (c_links c) d (c_ws c ++ [n]) then in_confirmed false ip d acts d' else ip d acts d').
  Proof.
    intros P H d acts d' K F E. destruct (path_exists (c_links c) d (c_ws c ++ [n])) eqn:X.
    - refine (in_does_confirmed c w Q (fun d d' => file_step w [n] ow T d d' true) false ip _ d acts d' K F E). intros [Y|Y]; [discriminate|]. apply allowed_yes in Y.
      intros d1 a1 d1' K1 F1 E1. exact (H d1 a1 d1' K1 F1 (or_introl Y) E1).
    - apply (H d acts d' K F); [|exact E]. right. destruct K as [RI NL]. apply (inner_exists c d w RI NL [] n) in X; [exact X|]. constructor; [exact P|constructor].
  Qed.
  Lemma in_context template : in_does c w Q (fun d d' => file_step w [L "AGENTS.md"] ow (beginning (eq template)) d d' true) (in_confirmed true (in_create_ai_context c template)).
  Proof.
    apply in_does_confirmed. intros _. apply (in_there (L "AGENTS.md") _); [apply proper_lit; reflexivity|].
    intros d acts d' K F O E. exact (in_top _ _ d d' (eq template) (proper_lit (L "AGENTS.md") eq_refl) K E O eq_refl).
  Qed.
  Lemma in_entities : in_does c w Q (fun d d' => file_step w [L "main.firm"] ow (beginning (entities_text c acts0)) d d' true) (in_confirmed true (in_create_default_entities c)).
  Proof.
    apply in_does_confirmed. intros _. apply (in_there (L "main.firm") _); [apply proper_lit; reflexivity|].
    intros d acts d' K F O (pn & r & on & r' & G & G' & E).
    apply line_got in G as (pre & s & -> & [= ->]). destruct (tail_forall _ _ _ _ F) as [[_ Q1] F1].
    apply line_got in G' as (pre' & s' & -> & [= ->]). destruct (tail_forall _ _ _ _ F1) as [[_ Q2] F2].
    refine (in_top _ _ d d' (entities_text c acts0) (proper_lit (L "main.firm") eq_refl) K E O _). exists pn, on. auto.
  Qed.
  Definition gitignore_begun (d d' : fs) : Prop :=
    (forall p, p <> w ++ [L ".gitignore"] -> node_at d' p = node_at d p) /\
    ((node_at d (w ++ [L ".gitignore"]) = None /\ exists s, begins s graph_entry /\ node_at d' (w ++ [L ".gitignore"]) = Some (File s)) \/
     exists old new s, node_at d (w ++ [L ".gitignore"]) = Some (File old) /\ entry_added old new /\ begins old s /\ begins s new /\
       node_at d' (w ++ [L ".gitignore"]) = Some (File s)).
  Lemma in_gitignore : in_does c w Q gitignore_begun (in_create_or_update_gitignore c).
  Proof.
    assert (P : proper_name (L ".gitignore")) by (apply proper_lit; reflexivity).
    assert (PP : Forall proper_name ([] ++ [L ".gitignore"])) by (constructor; [exact P|constructor]).
    assert (NE : w ++ [L ".gitignore"] <> []) by (destruct w; discriminate).
    intros d acts d' K F E. unfold in_create_or_update_gitignore in E. pose proof K as [RI NL].
    pose proof (inner_exists c d w RI NL [] _ PP) as X. cbn [app] in X.
    destruct (path_exists (c_links c) d (c_ws c ++ [L ".gitignore"])) eqn:PE.
    - destruct E as (r & _ & old & RT & _ & n & W). unfold read_text, stat in RT. unfold append_to in W.
      destruct (node_at d (w ++ [L ".gitignore"])) as [x|] eqn:N; [|exfalso; pose proof (eq_trans (eq_sym PE) (proj2 X N)); discriminate].
      assert (NN : node_at d (w ++ [] ++ [L ".gitignore"]) <> None) by (change ([] ++ [L ".gitignore"]) with [L ".gitignore"]; rewrite N; discriminate).
      pose proof (inner_at c d w RI NL [] (L ".gitignore") NN) as Rs. change ([] ++ [L ".gitignore"]) with [L ".gitignore"] in Rs. rewrite Rs, N in RT, W.
      destruct x as [o| |]; try discriminate RT. destruct (is_text o); [|discriminate RT]. injection RT as ->. injection W as <-.
      pose proof (inner_parent c d w RI [] (L ".gitignore") NN) as PD.
      match goal with |- context [File ?t] => destruct (set_kept c d w RI NL [] (L ".gitignore") PP t PD ltac:(right; eauto)) as [R1 R2] end.
      split; [split; [exact R1|exact R2]|]. split; [apply tidy_set|]. split.
      + intros p Np. apply node_set_other; [exact NE|]. intros X0. apply Np. symmetry. exact X0.
      + right. exists old. eexists. eexists. split; [exact N|]. split; [apply entry_ends|]. split; [|split; [|apply node_set_same; exact NE]].
        * eexists. reflexivity.
        * destruct (firstn_begins n ((if ends_with old [LF] then [] else [LF]) ++ gitignore_entries)) as (u & U). exists u. rewrite <- app_assoc, <- U. reflexivity.
    - destruct E as (r & _ & W). assert (N : node_at d (w ++ [L ".gitignore"]) = None) by (apply X; exact PE).
      destruct W as (n & W). destruct (write_does c d w RI NL [] (L ".gitignore") PP _ d' W) as (-> & D & O). split; [exact (set_kept c d w RI NL [] _ PP _ D O)|].
      split; [apply tidy_set|]. split.
      + intros p Np. apply node_set_other; [exact NE|]. intros X0. apply Np. symmetry. exact X0.
      + left. split; [exact N|]. eexists. split; [|apply node_set_same; exact NE]. apply firstn_begins.
  Qed.
  (** The schemas. *)
  Definition schema_begun (over : Prop) (ss : list schema) (d d' : fs) (p : place) : Prop :=
    exists s t, In s ss /\ p = w ++ schema_place s /\ begins t (schema_text c s) /\ (node_at d p = None \/ over /\ exists o, node_at d p = Some (File o)) /\ node_at d' p = Some (File t).
  Lemma in_list : forall ss d d', kept_running c w d -> NoDup (map schema_file ss) -> Forall (fun s => proper_name (schema_file s)) ss ->
    in_write_schemas c d ss d' ->
    kept_running c w d' /\ (tidy d -> tidy d') /\ (forall p, node_at d' p = node_at d p \/ schema_begun True ss d d' p).
  Proof.
    induction ss as [|s ss IH]; intros d d' K ND PR E; cbn [in_write_schemas] in E; [destruct E|].
    cbn [map] in ND. inversion ND as [|? ? N1 N2]; subst. inversion PR as [|? ? P1 P2]; subst. unfold schemas_dir in E. rewrite <- app_assoc in E.
    assert (PP : Forall proper_name ([L "schemas"] ++ [schema_file s])) by (constructor; [apply (proper_lit (L "schemas")); reflexivity|constructor; [exact P1|constructor]]).
    destruct E as [W|(d1 & W & E)].
    - destruct (partly_step c w d [L "schemas"] (schema_file s) _ d' True (eq (schema_text c s)) K PP W (or_introl Logic.I) eq_refl) as (K1 & T1 & (A1 & B1)).
      change ([L "schemas"] ++ [schema_file s]) with (schema_place s) in A1, B1. split; [exact K1|]. split; [exact T1|]. intros p.
      destruct (place_dec p (w ++ schema_place s)) as [->|Np]; [|left; exact (A1 p Np)].
      destruct B1 as [B1|(O & t & (t' & <- & Bt) & B1)]; [auto|]. right. exists s, t. split; [left; reflexivity|]. auto.
    - destruct (written_step c w d [L "schemas"] (schema_file s) (schema_text c s) d1 True (eq (schema_text c s)) K PP W (or_introl Logic.I) eq_refl) as (K1 & T1 & (A1 & B1)).
      change ([L "schemas"] ++ [schema_file s]) with (schema_place s) in A1, B1.
      destruct (write_does c d w (proj1 K) (proj2 K) [L "schemas"] (schema_file s) PP (schema_text c s) d1 W) as (Ed & _ & OLD). change ([L "schemas"] ++ [schema_file s]) with (schema_place s) in Ed, OLD.
      assert (S1 : node_at d1 (w ++ schema_place s) = Some (File (schema_text c s))) by (rewrite Ed; apply node_set_same; destruct w; discriminate).
      destruct (IH d1 d' K1 N2 P2 E) as (K2 & T2 & A2).
      assert (Ne : forall s', In s' ss -> w ++ schema_place s' <> w ++ schema_place s).
      { intros s' I' X. apply app_inv_head in X. injection X as X. apply N1. rewrite <- X. apply in_map. exact I'. }
      assert (S2 : node_at d' (w ++ schema_place s) = Some (File (schema_text c s))).
      { destruct (A2 (w ++ schema_place s)) as [X|(s' & t' & I' & X & _)]; [congruence|]. elim (Ne s' I'). symmetry. exact X. }
      split; [exact K2|]. split; [auto|]. intros p. destruct (place_dec p (w ++ schema_place s)) as [->|Np].
      + right. exists s, (schema_text c s). split; [left; reflexivity|]. split; [reflexivity|]. split; [apply begins_refl|]. split; [destruct OLD; auto|exact S2].
      + destruct (A2 p) as [X|(s' & t' & I' & X & Bt & O & Y)]; [left; rewrite X; apply A1, Np|]. right. exists s', t'. split; [right; exact I'|]. split; [exact X|]. rewrite (A1 p Np) in O. auto.
  Qed.
  Lemma making_schemas d n d' : kept_running c w d -> In d' (making (S n) (c_links c) d (schemas_dir c)) ->
    node_at d (w ++ [L "schemas"]) = None /\ d' = set_node d (w ++ [L "schemas"]) Dir.
  Proof.
    intros [RI NL]. pose proof RI as (S & SW & W & D). unfold schemas_dir. cbn [making]. unfold mkdir, last_name. rewrite rev_unit.
    destruct (proper_go (L "schemas") (proper_lit (L "schemas") eq_refl)) as [-> ->]. cbn [orb]. rewrite removelast_last, W, D.
    match goal with |- In _ match match ?t with Some _ => _ | None => _ end with Made _ => _ | NoParent => _ | NotMade => _ end -> _ => change t with (node_at d (w ++ [L "schemas"])) end.
    destruct (node_at d (w ++ [L "schemas"])) as [x|] eqn:N; [intros []|]. intros [<-|[]]. auto.
  Qed.
  Lemma schemas_dir_made d : kept_running c w d -> node_at d (w ++ [L "schemas"]) = None ->
    let d1 := set_node d (w ++ [L "schemas"]) Dir in kept_running c w d1 /\ (tidy d -> tidy d1) /\
    (forall p, node_at d1 p = node_at d p \/ (p = w ++ [L "schemas"] /\ node_at d p = None /\ node_at d1 p = Some Dir)).
  Proof.
    intros [RI NL] N d1. assert (NE : w ++ [L "schemas"] <> []) by (destruct w; discriminate).
    assert (AD : only_dirs_added d d1).
    { intros p. unfold d1. rewrite node_set by exact NE. destruct (place_eqb (w ++ [L "schemas"]) p) eqn:Qe; [|auto]. apply place_eqb_eq in Qe as <-. auto. }
    split; [|split].
    - split; [|exact (links_dirs w _ _ AD NL)]. apply (runs_dirs c d); auto. pose proof RI as (S & _ & _ & D). apply sound_add; auto. apply proper_lit. reflexivity.
    - apply tidy_set.
    - intros p. unfold d1. rewrite node_set by exact NE. destruct (place_eqb (w ++ [L "schemas"]) p) eqn:Qe; [|auto]. apply place_eqb_eq in Qe as <-. auto.
  Qed.
  Definition schemas_begun (d d' : fs) : Prop :=
    forall p, node_at d' p = node_at d p \/ schema_begun ow all_default_schemas d d' p \/ (p = w ++ [L "schemas"] /\ node_at d p = None /\ node_at d' p = Some Dir).
  Lemma in_written d acts d' : kept_running c w d -> (ow \/ forall s, In s all_default_schemas -> node_at d (w ++ schema_place s) = None) -> in_schemas_written c d acts d' ->
    kept_running c w d' /\ (tidy d -> tidy d') /\ schemas_begun d d'.
  Proof.
    intros K O [E|(d1 & C & E)].
    - destruct (making_schemas d _ d' K E) as [N ->]. destruct (schemas_dir_made d K N) as (A & B & G). split; [exact A|]. split; [exact B|]. intros p. destruct (G p); auto.
    - destruct schema_names as [ND PR]. rewrite (make_schemas c w d _ K) in C.
      assert (X : kept_running c w d1 /\ (tidy d -> tidy d1) /\ (forall p, node_at d1 p = node_at d p \/ (p = w ++ [L "schemas"] /\ node_at d p = None /\ node_at d1 p = Some Dir))).
      { destruct (node_at d (w ++ [L "schemas"])) as [[| |]|] eqn:N; try discriminate C; injection C as <-; [auto|]. exact (schemas_dir_made d K N). }
      destruct X as (K1 & T1 & A1). destruct (in_list all_default_schemas d1 d' K1 ND PR E) as (K2 & T2 & A2). split; [exact K2|]. split; [auto|]. intros p.
      destruct (A2 p) as [X|(s & t & I' & -> & Bt & N & Y)]; [rewrite X; destruct (A1 p) as [Z|Z]; auto|]. right. left. exists s, t. split; [exact I'|]. split; [reflexivity|]. split; [exact Bt|]. split; [|exact Y].
      assert (Z : node_at d1 (w ++ schema_place s) = node_at d (w ++ schema_place s)).
      { destruct (A1 (w ++ schema_place s)) as [Z|[Z _]]; [exact Z|]. apply app_inv_head in Z. discriminate. }
      rewrite Z in N. destruct N as [N|[_ N]]; [auto|]. destruct O as [O|O]; [auto|]. left. apply O. exact I'.
  Qed.
  Lemma schema_exists d s : kept_running c w d -> In s all_default_schemas ->
    path_exists (c_links c) d (schemas_dir c ++ [schema_file s]) = false <-> node_at d (w ++ schema_place s) = None.
  Proof.
    intros [RI NL] Is. destruct schema_names as [_ PR]. rewrite Forall_forall in PR. specialize (PR s Is).
    assert (PP : Forall proper_name ([L "schemas"] ++ [schema_file s])) by (constructor; [apply (proper_lit (L "schemas")); reflexivity|constructor; [exact PR|constructor]]).
    unfold schemas_dir. rewrite <- app_assoc. exact (inner_exists c d w RI NL [L "schemas"] (schema_file s) PP).
  Qed.
  Lemma no_schema d : kept_running c w d -> existsb (fun s => path_exists (c_links c) d (schemas_dir c ++ [schema_file s])) all_default_schemas = false ->
    forall s, In s all_default_schemas -> node_at d (w ++ schema_place s) = None.
  Proof.
    intros K X s Is. apply (schema_exists d s K Is). destruct (path_exists (c_links c) d (schemas_dir c ++ [schema_file s])) eqn:Z; [|reflexivity].
    assert (T : existsb (fun s => path_exists (c_links c) d (schemas_dir c ++ [schema_file s])) all_default_schemas = true) by (apply existsb_exists; eauto). congruence.
  Qed.
  Lemma in_schemas : in_does c w Q schemas_begun (in_confirmed true (in_create_default_schemas c)).
  Proof.
    apply in_does_confirmed. intros _ d acts d' K F E. unfold in_create_default_schemas in E.
    destruct (existsb (fun s => path_exists (c_links c) d (schemas_dir c ++ [schema_file s])) all_default_schemas) eqn:X.
    - refine (in_does_confirmed c w Q schemas_begun false _ _ d acts d' K F E). intros [Y|Y]; [discriminate|]. apply allowed_yes in Y.
      intros d1 a1 d1' K1 F1 E1. exact (in_written d1 a1 d1' K1 (or_introl Y) E1).
    - exact (in_written d acts d' K (or_intror (no_schema d K X)) E).
  Qed.
End InParts.

(** ** All of the dialogue *)
Section Left.
  Variables (c : ctx) (w : place) (acts0 : list act) (ow : Prop) (template : str).
  Lemma rewritten_begun d d' : schemas_step c w ow d d' true -> schemas_begun c w ow d d'.
  Proof.
    intros [A _] p. destruct (A p) as [X|[(s & Is & X & O & Y)|X]]; [auto| |auto]. right. left. exists s, (schema_text c s). split; [exact Is|]. split; [exact X|]. split; [apply begins_refl|]. auto.
  Qed.
  Definition gitignore_kept (d d' : fs) : Prop := (forall p, node_at d' p = node_at d p) \/ gitignore_begun w d d'.
  Lemma gitignore_weaken d d' ok : gitignore_step w d d' ok -> gitignore_kept d d'.
  Proof.
    intros [A B]. destruct B as [B|[[B B']|(old & new & B & _ & _ & B' & B'')]].
    - left. intros p. destruct (place_dec p (w ++ [L ".gitignore"])) as [->|N]; auto.
    - right. split; [exact A|]. left. split; [exact B|]. exists graph_entry. split; [apply begins_refl|exact B'].
    - right. split; [exact A|]. right. exists old, new, new. split; [exact B|]. split; [exact B'|]. split; [|split; [apply begins_refl|exact B'']].
      destruct B' as [(b & _ & ->)|[_ ->]]; eexists; reflexivity.
  Qed.
  Lemma file_weaken r T d d' ok : file_step w r ow T d d' ok -> file_step w r ow (beginning T) d d' true.
  Proof.
    intros [A B]. split; [exact A|]. destruct B as [B|(O & s & Ts & B)]; [auto|]. right. split; [exact O|]. exists s. split; [exists s; split; [exact Ts|apply begins_refl]|exact B].
  Qed.
  Lemma in_init_steps d acts d' : kept_running c w d -> Forall (allowed acts0 ow) acts -> in_init_workspace c template d acts d' ->
    kept_running c w d' /\ (tidy d -> tidy d') /\
    exists d1 d2 d3, schemas_begun c w ow d d1 /\ gitignore_kept d1 d2 /\
      file_step w [L "main.firm"] ow (beginning (entities_text c acts0)) d2 d3 true /\
      file_step w [L "AGENTS.md"] ow (beginning (eq template)) d3 d' true.
  Proof.
    intros K F E.
    pose proof (in_does_then c w _ _ _ _ _ _ _ (does_schemas c w acts0 ow) (in_schemas c w acts0 ow)
      (in_does_then c w _ _ _ _ _ _ _ (does_gitignore c w acts0 ow) (in_gitignore c w acts0 ow)
        (in_does_then c w _ _ _ _ _ _ _ (does_entities c w acts0 ow) (in_entities c w acts0 ow) (in_context c w acts0 ow template)))) as H.
    destruct (H d acts d' K F E) as (K' & T' & S). split; [exact K'|]. split; [exact T'|].
    destruct S as [S|(d1 & S1 & [S|(d2 & S2 & [S|(d3 & S3 & S)])])].
    - exists d', d', d'. split; [exact S|]. split; [left; reflexivity|]. split; apply file_step_refl.
    - exists d1, d', d'. split; [exact (rewritten_begun _ _ S1)|]. split; [right; exact S|]. split; apply file_step_refl.
    - exists d1, d2, d'. split; [exact (rewritten_begun _ _ S1)|]. split; [exact (gitignore_weaken _ _ _ S2)|]. split; [exact S|apply file_step_refl].
    - exists d1, d2, d3. split; [exact (rewritten_begun _ _ S1)|]. split; [exact (gitignore_weaken _ _ _ S2)|]. split; [exact (file_weaken _ _ _ _ _ S3)|exact S].
  Qed.
  Lemma in_init_left d acts d' : kept_running c w d -> Forall (allowed acts0 ow) acts -> in_init_workspace c template d acts d' ->
    kept_running c w d' /\ (tidy d -> tidy d') /\ forall p, left_or_begun c template acts0 w ow d d' p.
  Proof.
    intros K F E. destruct (in_init_steps d acts d' K F E) as (K' & T' & d1 & d2 & d3 & S1 & S2 & [S3 S3'] & [S4 S4']). split; [exact K'|]. split; [exact T'|].
    assert (TO : forall n m : str, n <> m -> w ++ [n] <> w ++ [m]) by (intros n m N X; apply app_inv_head in X; congruence).
    assert (DO : forall n s, w ++ schema_place s <> w ++ [n]) by (intros n s X; apply app_inv_head in X; discriminate).
    assert (D1 : forall n, n <> L "schemas" -> node_at d1 (w ++ [n]) = node_at d (w ++ [n])).
    { intros n N. destruct (S1 (w ++ [n])) as [Y|[(s & t & _ & Y & _)|[Y _]]]; [exact Y|elim (DO n s (eq_sym Y))|elim (TO n (L "schemas") N Y)]. }
    assert (D2 : forall p, p <> w ++ [L ".gitignore"] -> node_at d2 p = node_at d1 p) by (intros p N; destruct S2 as [S2|[S2 _]]; auto).
    intros p. unfold left_or_begun. destruct (place_dec p (w ++ [L ".gitignore"])) as [->|N1]; [|destruct (place_dec p (w ++ [L "main.firm"])) as [->|N2]; [|destruct (place_dec p (w ++ [L "AGENTS.md"])) as [->|N3]]].
    - rewrite S4, S3 by (apply TO; discriminate). rewrite <- (D1 (L ".gitignore")) by discriminate. destruct S2 as [S2|[_ [(N & s & B & Y)|(old & new & s & N & EA & B & B' & Y)]]]; [left; apply S2| |]; right; right.
      + exists [L ".gitignore"], graph_entry, s. split; [reflexivity|]. split; [apply it_gitignore; exact N|]. auto.
      + exists [L ".gitignore"], new, s. split; [reflexivity|]. split; [apply it_gitignore_added with old; [exact N|exact EA]|]. split; [exact B'|]. split; [exact Y|]. right. exists old. auto.
    - rewrite S4 by (apply TO; discriminate). rewrite D2, D1 in S3' by (discriminate || (apply TO; discriminate)). destruct S3' as [S3'|(O & s & (t & (pn & on & I1 & I2 & ->) & B) & Y)]; [auto|]. right. right.
      exists [L "main.firm"]. eexists. exists s. split; [reflexivity|]. split; [apply (it_entities c template acts0 _ pn on I1 I2)|]. split; [exact B|]. split; [exact Y|].
      destruct O as [O|[O (o & O')]]; [auto|]. right. exists o. split; [exact O'|]. right. split; [discriminate|exact O].
    - rewrite S3, D2, D1 in S4' by (discriminate || (apply TO; discriminate)). destruct S4' as [S4'|(O & s & (t & <- & B) & Y)]; [auto|]. right. right.
      exists [L "AGENTS.md"], template, s. split; [reflexivity|]. split; [apply it_context|]. split; [exact B|]. split; [exact Y|].
      destruct O as [O|[O (o & O')]]; [auto|]. right. exists o. split; [exact O'|]. right. split; [discriminate|exact O].
    - assert (EQ : node_at d' p = node_at d1 p) by (rewrite S4, S3, D2 by assumption; reflexivity). rewrite EQ.
      destruct (S1 p) as [X|[(s & t & Is & X & B & O & Y)|X]]; [auto| |auto]. right. right.
      exists (schema_place s), (schema_text c s), t. split; [exact X|]. split; [apply (it_schema c template acts0 _ s Is)|]. split; [exact B|]. split; [exact Y|].
      destruct O as [O|[O (o & O')]]; [auto|]. right. exists o. split; [exact O'|]. right. split; [discriminate|exact O].
  Qed.
End Left.

(** ** Setting up again *)
Lemma yes_confirmed b y st d r : says_yes y -> confirmed b st d (y :: r) = st d r.
Proof.
  intros (s & -> & Y). unfold confirmed, confirm. cbn [ask line]. unfold or_default. apply yes_no_says in Y. destruct s; [discriminate|]. rewrite Y. reflexivity.
Qed.
Section Again.
  Variables (c : ctx) (w : place) (y : act).
  Hypothesis Y : says_yes y.
  (** Saying yes once more if the file is there. *)
  Lemma top_again d n t : kept_running c w d -> proper_name n -> (node_at d (w ++ [n]) = None \/ exists s, node_at d (w ++ [n]) = Some (File s)) ->
    (exists more, Forall (eq y) more /\ forall st r, if_there c n st d (more ++ r) = st d r) /\
    write (c_links c) d (c_ws c ++ [n]) t = Some (set_node d (w ++ [n]) (File t)) /\ kept_running c w (set_node d (w ++ [n]) (File t)).
  Proof.
    intros [RI NL] P N. assert (PP : Forall proper_name ([] ++ [n])) by (constructor; [exact P|constructor]).
    pose proof RI as (_ & _ & _ & D). assert (D0 : node_at d (w ++ []) = Some Dir) by (rewrite app_nil_r; exact D). split; [|split].
    - unfold if_there. destruct (path_exists (c_links c) d (c_ws c ++ [n])).
      + exists [y]. split; [repeat constructor|]. intros st r. exact (yes_confirmed false y st d r Y).
      + exists []. split; [constructor|]. reflexivity.
    - exact (write_can c d w RI NL [] n PP t D0 N).
    - exact (set_kept c d w RI NL [] n PP t D0 N).
  Qed.
  Lemma schemas_again d : kept_running c w d -> (node_at d (w ++ [L "schemas"]) = None \/ node_at d (w ++ [L "schemas"]) = Some Dir) ->
    (forall s, In s all_default_schemas -> node_at d (w ++ schema_place s) = None \/ exists t, node_at d (w ++ schema_place s) = Some (File t)) ->
    exists more d1, Forall (eq y) more /\ (forall r, create_default_schemas c d (more ++ r) = (d1, Some r)) /\ kept_running c w d1 /\ (tidy d -> tidy d1) /\
      (forall s, In s all_default_schemas -> node_at d1 (w ++ schema_place s) = Some (File (schema_text c s))) /\
      (forall p, node_at d1 p = node_at d p \/ (exists s, In s all_default_schemas /\ p = w ++ schema_place s) \/ (p = w ++ [L "schemas"] /\ node_at d1 p = Some Dir)).
  Proof.
    intros K DS SS. destruct schema_names as [ND PR].
    assert (X : exists d0, create_dir_all (S (length (schemas_dir c))) (c_links c) d (schemas_dir c) = (d0, true) /\ kept_running c w d0 /\ (tidy d -> tidy d0) /\ node_at d0 (w ++ [L "schemas"]) = Some Dir /\
      (forall p, node_at d0 p = node_at d p \/ (p = w ++ [L "schemas"] /\ node_at d0 p = Some Dir))).
    { rewrite (make_schemas c w d _ K). destruct DS as [N|N]; rewrite N.
      - destruct (schemas_dir_made c w d K N) as (A & B & G). eexists. split; [reflexivity|]. split; [exact A|]. split; [exact B|]. split; [apply node_set_same; destruct w; discriminate|].
        intros p. destruct (G p) as [Z|(Z & _ & Z')]; auto.
      - exists d. auto 10. }
    destruct X as (d0 & C0 & K0 & T0 & D0 & A0).
    assert (O0 : forall s, In s all_default_schemas -> node_at d0 (w ++ schema_place s) = None \/ exists o, node_at d0 (w ++ schema_place s) = Some (File o)).
    { intros s Is. destruct (A0 (w ++ schema_place s)) as [Z|[Z _]]; [rewrite Z; exact (SS s Is)|]. apply app_inv_head in Z. discriminate. }
    pose proof (write_all c w all_default_schemas d0 K0 PR D0 O0) as OK.
    destruct (write_schemas c d0 all_default_schemas) as [d1 b] eqn:W. cbn [snd] in OK. subst b.
    destruct (schemas_list c w all_default_schemas d0 d1 true K0 ND PR W) as (K1 & T1 & A1 & B1).
    assert (EX : forall acts, schemas_written c d acts = (d1, Some acts)) by (intros acts; unfold schemas_written; rewrite C0, W; reflexivity).
    assert (M : exists more, Forall (eq y) more /\ forall r, create_default_schemas c d (more ++ r) = (d1, Some r)).
    { unfold create_default_schemas. destruct (existsb _ all_default_schemas).
      - exists [y]. split; [repeat constructor|]. intros r. etransitivity; [exact (yes_confirmed false y _ d r Y)|apply EX].
      - exists []. split; [constructor|]. intros r. apply EX. }
    destruct M as (more & M1 & M2). exists more, d1. split; [exact M1|]. split; [exact M2|]. split; [exact K1|]. split; [auto|]. split; [exact (B1 eq_refl)|].
    intros p. destruct (A1 p) as [Z|(s & Is & Z & _)]; [|eauto]. rewrite Z. destruct (A0 p); auto.
  Qed.
  Lemma gitignore_again d : kept_running c w d -> (node_at d (w ++ [L ".gitignore"]) = None \/ exists s, node_at d (w ++ [L ".gitignore"]) = Some (File s) /\ is_text s = true) ->
    exists d1 t, (forall r, create_or_update_gitignore c d (y :: r) = (d1, Some r)) /\ kept_running c w d1 /\ (tidy d -> tidy d1) /\
      node_at d1 (w ++ [L ".gitignore"]) = Some (File t) /\ ignores_graph t /\ (forall s, node_at d (w ++ [L ".gitignore"]) = Some (File s) -> begins s t) /\
      (forall p, p <> w ++ [L ".gitignore"] -> node_at d1 p = node_at d p).
  Proof.
    intros K N. pose proof K as [RI NL].
    assert (PP : Forall proper_name ([] ++ [L ".gitignore"])) by (constructor; [exact (proper_lit (L ".gitignore") eq_refl)|constructor]).
    assert (NE : w ++ [L ".gitignore"] <> []) by (destruct w; discriminate).
    pose proof (inner_exists c d w RI NL [] _ PP) as X. change ([] ++ [L ".gitignore"]) with [L ".gitignore"] in X.
    destruct N as [N|(old & N & TX)].
    - destruct (top_again d (L ".gitignore") gitignore_entries K (proper_lit (L ".gitignore") eq_refl) (or_introl N)) as (_ & W & K1).
      eexists. exists graph_entry. split; [|split; [exact K1|split; [apply tidy_set|split; [apply node_set_same; exact NE|split; [|split]]]]].
      + intros r. exact (new_gitignore c d _ y r (or_intror Y) (proj2 X N) W).
      + right. exists []. auto.
      + intros s Z. rewrite N in Z. discriminate.
      + intros p Np. apply node_set_other; [exact NE|]. intros Z. apply Np. symmetry. exact Z.
    - assert (NN : node_at d (w ++ [] ++ [L ".gitignore"]) <> None) by (change ([] ++ [L ".gitignore"]) with [L ".gitignore"]; rewrite N; discriminate).
      pose proof (inner_at c d w RI NL [] (L ".gitignore") NN) as Rs. change ([] ++ [L ".gitignore"]) with [L ".gitignore"] in Rs.
      assert (PE : path_exists (c_links c) d (c_ws c ++ [L ".gitignore"]) = true) by (unfold path_exists; rewrite Rs; reflexivity).
      assert (RT : read_text (c_links c) d (c_ws c ++ [L ".gitignore"]) = Some old) by (unfold read_text, stat; rewrite Rs, N, TX; reflexivity).
      destruct (contains old (L ".DS_Store") && contains old (L "*.firm.graph"))%bool eqn:C.
      + exists d, old. split; [|split; [exact K|split; [auto|split; [exact N|split; [|split]]]]].
        * intros r. unfold create_or_update_gitignore. rewrite PE, (yes_confirmed true y _ _ _ Y), RT, C. reflexivity.
        * left. apply Bool.andb_true_iff in C. exact C.
        * intros s Z. rewrite N in Z. injection Z as <-. apply begins_refl.
        * reflexivity.
      + set (t := old ++ (if ends_with old [LF] then [] else [LF]) ++ gitignore_entries). pose proof (inner_parent c d w RI [] (L ".gitignore") NN) as PD.
        exists (set_node d (w ++ [L ".gitignore"]) (File t)), t.
        split; [|split; [exact (set_kept c d w RI NL [] (L ".gitignore") PP t PD ltac:(right; eauto))|split; [apply tidy_set|split; [apply node_set_same; exact NE|split; [|split]]]]].
        * intros r. unfold create_or_update_gitignore. rewrite PE, (yes_confirmed true y _ _ _ Y), RT, C. unfold append_to. rewrite Rs, N. reflexivity.
        * right. unfold t. destruct (ends_with old [LF]) eqn:EW.
          -- apply ends_with_spec in EW as (b & EW). exists old. split; [reflexivity|]. right. exists b. exact EW.
          -- exists (old ++ [LF]). split; [rewrite <- app_assoc; reflexivity|]. right. exists old. reflexivity.
        * intros s Z. rewrite N in Z. injection Z as <-. unfold t. eexists. reflexivity.
        * intros p Np. apply node_set_other; [exact NE|]. intros Z. apply Np. symmetry. exact Z.
  Qed.
  Lemma init_again template d pn on : kept_running c w d -> usable w d ->
    exists acts d', Forall (fun a => a = y \/ a = Types pn \/ a = Types on) acts /\
      (forall rest, init_workspace c template d (acts ++ rest) = (d', Some rest)) /\ kept_running c w d' /\ (tidy d -> tidy d') /\
      (forall s, In s all_default_schemas -> node_at d' (w ++ schema_place s) = Some (File (schema_text c s))) /\
      (exists t, node_at d' (w ++ [L ".gitignore"]) = Some (File t) /\ ignores_graph t /\ forall s, node_at d (w ++ [L ".gitignore"]) = Some (File s) -> begins s t) /\
      node_at d' (w ++ [L "main.firm"]) = Some (File (generate_dsl (c_env c) default_options (first_entities pn on))) /\
      node_at d' (w ++ [L "AGENTS.md"]) = Some (File template) /\
      (forall p, node_at d' p = node_at d p \/ (p = w ++ [L "schemas"] /\ node_at d' p = Some Dir) \/ exists r, init_file r /\ p = w ++ r).
  Proof.
    intros K (US & UF & UT).
    destruct (schemas_again d K US) as (m1 & d1 & M1 & E1 & K1 & T1 & B1 & A1).
    { intros s Is. apply (UF (schema_place s)). apply if_schema. apply (in_map s_type) in Is. exact Is. }
    assert (NE : forall n, w ++ [n] <> []) by (intros n; destruct w; discriminate).
    assert (TO : forall n m : str, n <> m -> w ++ [n] <> w ++ [m]) by (intros n m N X; apply app_inv_head in X; congruence).
    assert (DO : forall n s, w ++ schema_place s <> w ++ [n]) by (intros n s X; apply app_inv_head in X; discriminate).
    assert (D1 : forall n, n <> L "schemas" -> node_at d1 (w ++ [n]) = node_at d (w ++ [n])).
    { intros n N. destruct (A1 (w ++ [n])) as [Z|[(s & _ & Z)|[Z _]]]; [exact Z|elim (DO n s (eq_sym Z))|elim (TO n (L "schemas") N Z)]. }
    destruct (gitignore_again d1 K1) as (d2 & t & E2 & K2 & T2 & B2 & I2 & P2 & A2).
    { rewrite D1 by discriminate. destruct (UF _ if_gitignore) as [N|(s & N)]; [auto|]. right. exists s. split; [exact N|exact (UT s N)]. }
    set (mt := generate_dsl (c_env c) default_options (first_entities pn on)).
    destruct (top_again d2 (L "main.firm") mt K2 (proper_lit (L "main.firm") eq_refl)) as ((m3 & M3 & E3) & W3 & K3).
    { rewrite A2, D1 by (discriminate || (apply TO; discriminate)). exact (UF _ if_entities). }
    set (d3 := set_node d2 (w ++ [L "main.firm"]) (File mt)) in *.
    assert (A3 : forall p, p <> w ++ [L "main.firm"] -> node_at d3 p = node_at d2 p) by (intros p Np; apply node_set_other; [apply NE|]; intros Z; apply Np; symmetry; exact Z).
    destruct (top_again d3 (L "AGENTS.md") template K3 (proper_lit (L "AGENTS.md") eq_refl)) as ((m4 & M4 & E4) & W4 & K4).
    { rewrite A3, A2, D1 by (discriminate || (apply TO; discriminate)). exact (UF _ if_context). }
    set (d4 := set_node d3 (w ++ [L "AGENTS.md"]) (File template)) in *.
    assert (A4 : forall p, p <> w ++ [L "AGENTS.md"] -> node_at d4 p = node_at d3 p) by (intros p Np; apply node_set_other; [apply NE|]; intros Z; apply Np; symmetry; exact Z).
    assert (AL : forall l, Forall (eq y) l -> Forall (fun a => a = y \/ a = Types pn \/ a = Types on) l) by (intros l; apply Forall_impl; intros a <-; auto).
    exists ((y :: m1) ++ (y :: y :: m3) ++ (Types pn :: Types on :: y :: m4)), d4.
    split; [apply Forall_app; split; [constructor; auto|apply Forall_app; split; repeat (constructor; auto)]|].
    split; [|split; [exact K4|split; [|split; [|split; [|split; [|split]]]]]].
    - intros rest. rewrite <- !app_assoc. unfold init_workspace, then_. cbn [app]. rewrite (yes_confirmed true y _ _ _ Y), E1, E2, (yes_confirmed true y _ _ _ Y).
      change (create_default_entities c d2) with (if_there c (L "main.firm") (entities_written c) d2). rewrite E3.
      assert (X3 : forall r, entities_written c d2 (Types pn :: Types on :: r) = (d3, Some r)) by (intros r; exact (f_equal (wrote d2 r) W3)).
      assert (X4 : forall r, context_written c template d3 r = (d4, Some r)) by (intros r; exact (f_equal (wrote d3 r) W4)).
      rewrite X3, (yes_confirmed true y _ _ _ Y).
      change (create_ai_context c template d3) with (if_there c (L "AGENTS.md") (context_written c template) d3). rewrite E4. apply X4.
    - intros T. unfold d4, d3. apply tidy_set, tidy_set, T2, T1, T.
    - intros s Is. rewrite A4, A3, A2 by apply DO. exact (B1 s Is).
    - exists t. rewrite A4, A3 by (apply TO; discriminate). split; [exact B2|]. split; [exact I2|]. intros s Z. apply P2. rewrite D1 by discriminate. exact Z.
    - rewrite A4 by (apply TO; discriminate). apply node_set_same. apply NE.
    - apply node_set_same. apply NE.
    - intros p. destruct (place_dec p (w ++ [L ".gitignore"])) as [->|N1]; [right; right; exists [L ".gitignore"]; split; [constructor|reflexivity]|].
      destruct (place_dec p (w ++ [L "main.firm"])) as [->|N2]; [right; right; exists [L "main.firm"]; split; [constructor|reflexivity]|].
      destruct (place_dec p (w ++ [L "AGENTS.md"])) as [->|N3]; [right; right; exists [L "AGENTS.md"]; split; [constructor|reflexivity]|].
      rewrite A4, A3, A2 by assumption. destruct (A1 p) as [Z|[(s & Is & Z)|Z]]; [auto| |auto]. right. right. exists (schema_place s). split; [|exact Z]. apply if_schema. apply (in_map s_type) in Is. exact Is.
  Qed.
End Again.
