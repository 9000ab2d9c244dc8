(** Setting up a workspace. *)
From Coq Require Import Lia.
From Verif Require Import S_Graph L_Graph.
From Verif Require Import S_Init L_Str L_Ids L_Schema L_Schema2 L_Fs L_Server L_Load L_Workspace L_History L_Add L_Save L_Cli L_Prompt.
From Verif Require Import M_Fs.
Close Scope Z_scope.

(** ** Paths in the workspace *)
Lemma walk_within w d k rp n : forall cur, sound d -> no_links_in w d -> inside w cur -> Forall proper_name (rp ++ [n]) ->
  node_at d (cur ++ rp ++ [n]) = None ->
  (node_at d (cur ++ rp) = Some Dir -> walk k d cur (rp ++ [n]) = Vacant (cur ++ rp ++ [n])) /\
  (node_at d (cur ++ rp) <> Some Dir -> forall q, walk k d cur (rp ++ [n]) <> At q /\ walk k d cur (rp ++ [n]) <> Vacant q).
Proof.
  induction rp as [|a rp IH]; intros cur S NL I P N; cbn [app] in *; rewrite walk_cons; inversion P as [|? ? Pa Pr]; subst; destruct (proper_go _ Pa) as [-> ->].
  - rewrite app_nil_r. split; [intros ->; rewrite N; reflexivity|]. intros D q. destruct (node_at d cur) as [[]|]; try (split; discriminate); elim D; reflexivity.
  - assert (E : forall r, cur ++ a :: r = (cur ++ [a]) ++ r) by (intros r; rewrite <- app_assoc; reflexivity). rewrite (E (rp ++ [n])), (E rp) in *.
    assert (D : node_at d ((cur ++ [a]) ++ rp) <> None -> node_at d cur = Some Dir).
    { intros X. rewrite <- app_assoc in X. apply (sound_prefix d cur ([a] ++ rp) S X). discriminate. }
    destruct (node_at d cur) as [[]|] eqn:C; try (split; [intros X; rewrite X in D; specialize (D ltac:(discriminate)); discriminate|intros _ q; split; discriminate]).
    destruct (node_at d (cur ++ [a])) as [[]|] eqn:A.
    + apply IH; auto. apply inside_more, I.
    + apply IH; auto. apply inside_more, I.
    + elim (NL (cur ++ [a]) target); [apply inside_more, I|exact A].
    + assert (X : node_at d ((cur ++ [a]) ++ rp) = None) by (destruct rp as [|b rp]; [rewrite app_nil_r; exact A|]; destruct (node_at d ((cur ++ [a]) ++ b :: rp)) eqn:X; [|reflexivity]; rewrite (sound_prefix d (cur ++ [a]) (b :: rp) S) in A; congruence).
      rewrite X. split; [discriminate|]. intros _ q. destruct rp; split; discriminate.
Qed.
Section Inner.
  Variables (c : ctx) (d : fs) (w : place).
  Hypotheses (RI : runs_in c d w) (NL : no_links_in w d).
  Variables (rp : path) (n : str).
  Hypothesis P : Forall proper_name (rp ++ [n]).
  Let p := c_ws c ++ rp ++ [n]. Let q := w ++ rp ++ [n].
  Lemma inner_vacant : node_at d q = None -> node_at d (w ++ rp) = Some Dir -> resolve (c_links c) d p = Vacant q.
  Proof.
    intros N D. destruct RI as (S & _ & W & _). unfold resolve in *. destruct (walk_then d (c_links c) [] (c_ws c) w S ltac:(discriminate) W) as (k' & Sp).
    unfold p. rewrite (Sp d _ (extends_refl d)). apply (walk_within w); auto. apply inside_refl.
  Qed.
  Lemma inner_nowhere : node_at d q = None -> node_at d (w ++ rp) <> Some Dir -> forall x, resolve (c_links c) d p <> At x /\ resolve (c_links c) d p <> Vacant x.
  Proof.
    intros N D. destruct RI as (S & _ & W & _). unfold resolve in *. destruct (walk_then d (c_links c) [] (c_ws c) w S ltac:(discriminate) W) as (k' & Sp).
    unfold p. rewrite (Sp d _ (extends_refl d)). apply (walk_within w); auto. apply inside_refl.
  Qed.
  Lemma inner_at : node_at d q <> None -> resolve (c_links c) d p = At q.
  Proof. apply resolve_below; auto. Qed.
  Lemma inner_exists : path_exists (c_links c) d p = false <-> node_at d q = None.
  Proof.
    unfold path_exists. destruct (node_at d q) eqn:N.
    - rewrite inner_at by congruence. split; discriminate.
    - split; [reflexivity|]. intros _. destruct (node_at d (w ++ rp)) as [[]|] eqn:D; try (rewrite inner_vacant by auto; reflexivity);
        destruct (resolve (c_links c) d p) eqn:R; try reflexivity; elim (proj1 (inner_nowhere N ltac:(congruence) p0)); exact R.
  Qed.
  Lemma inner_parent : node_at d q <> None -> node_at d (w ++ rp) = Some Dir.
  Proof. intros N. destruct RI as (S & _). unfold q in N. rewrite app_assoc in N. exact (proj1 (S _ _ N)). Qed.
  Lemma write_does s d' : write (c_links c) d p s = Some d' ->
    d' = set_node d q (File s) /\ node_at d (w ++ rp) = Some Dir /\ (node_at d q = None \/ exists o, node_at d q = Some (File o)).
  Proof.
    unfold write. destruct (node_at d q) eqn:N.
    - rewrite inner_at, N by congruence. pose proof inner_parent ltac:(congruence) as PD. destruct n0; try discriminate. intros [= <-]. split; [reflexivity|]. split; [exact PD|]. right. eauto.
    - destruct (node_at d (w ++ rp)) as [[]|] eqn:D; try (rewrite inner_vacant by auto; intros [= <-]; auto);
        destruct (resolve (c_links c) d p) eqn:R; try discriminate; elim (inner_nowhere N ltac:(congruence) p0); intros X Y; [elim (X R)|elim (Y R)|elim (X R)|elim (Y R)|elim (X R)|elim (Y R)].
  Qed.
  Lemma write_can s : node_at d (w ++ rp) = Some Dir -> (node_at d q = None \/ exists o, node_at d q = Some (File o)) ->
    write (c_links c) d p s = Some (set_node d q (File s)).
  Proof.
    intros D [N|(o & N)]; unfold write; [rewrite inner_vacant by auto; reflexivity|]. rewrite inner_at, N by congruence. reflexivity.
  Qed.
  Lemma set_kept s : node_at d (w ++ rp) = Some Dir -> (node_at d q = None \/ exists o, node_at d q = Some (File o)) ->
    runs_in c (set_node d q (File s)) w /\ no_links_in w (set_node d q (File s)).
  Proof.
    intros D N. assert (Q : q <> []) by (unfold q; destruct w, rp; discriminate). split; [|apply links_set; auto]. apply runs_set; auto.
    destruct RI as (S & _). destruct N as [N|(o & N)]; [|exact (sound_file d q o s S N)]. unfold q in *. rewrite app_assoc in *. apply sound_add; auto.
    apply Forall_app in P as [_ P1]. inversion P1; auto.
  Qed.
End Inner.

(** ** Parts of the dialogue *)
Definition kept_running (c : ctx) (w : place) (d : fs) : Prop := runs_in c d w /\ no_links_in w d.
(** What a part does to the file system, and whether it ends without an error,
    if everything that is done at the terminal is [Q]. *)
Definition does (c : ctx) (w : place) (Q : act -> Prop) (R : fs -> fs -> bool -> Prop) (st : part) : Prop :=
  forall d acts d' o, kept_running c w d -> Forall Q acts -> st d acts = (d', o) ->
    kept_running c w d' /\ (tidy d -> tidy d') /\
    R d d' (match o with Some _ => true | None => false end) /\ (forall r, o = Some r -> Forall Q r).

Lemma ask_got {A} (f : act -> option A) acts x r : ask f acts = Got x r -> exists pre a, acts = pre ++ a :: r /\ f a = Some x.
Proof.
  induction acts as [|a acts IH]; cbn [ask]; [discriminate|]. intros H.
  assert (K : (exists pre b, a :: acts = pre ++ b :: r /\ f b = Some x) \/ ask f acts = Got x r).
  { destruct a; try discriminate H; (destruct (f _) eqn:E; [injection H as <- <-; left; exists []; eexists; split; [reflexivity|exact E]|right; exact H]). }
  destruct K as [K|K]; [exact K|]. destruct (IH K) as (pre & b & -> & E). exists (a :: pre), b. auto.
Qed.
Lemma need_got {A} (p : prompted A) x r : need false p = Got x r -> p = Got x r.
Proof. destruct p; cbn; congruence. Qed.
Lemma line_got {A} (f : str -> option A) acts x r : need false (ask (line f) acts) = Got x r -> exists pre s, acts = pre ++ Types s :: r /\ f s = Some x.
Proof. intros H. apply need_got, ask_got in H as (pre & a & -> & E). destruct a; cbn [line] in E; try discriminate. eauto. Qed.
Lemma confirm_got b acts x r : confirm b acts = Got x r -> exists pre s, acts = pre ++ Types s :: r /\ ((s = [] /\ x = b) \/ says x s).
Proof.
  intros H. apply line_got in H as (pre & s & -> & E). exists pre, s. split; [reflexivity|]. unfold or_default in E.
  destruct s; [injection E as <-; auto|]. apply yes_no_says in E. auto.
Qed.
Lemma tail_forall (Q : act -> Prop) pre a r : Forall Q (pre ++ a :: r) -> Q a /\ Forall Q r.
Proof. intros H. apply Forall_app in H as [_ H]. inversion H; auto. Qed.

Lemma confirmed_cases (Q : act -> Prop) b st d acts d' o : Forall Q acts -> confirmed b st d acts = (d', o) ->
  (d' = d /\ forall r, o = Some r -> Forall Q r) \/
  exists s r, Q (Types s) /\ Forall Q r /\ (b = true /\ s = [] \/ says true s) /\ st d r = (d', o).
Proof.
  intros F E. unfold confirmed in E. destruct (confirm b acts) as [[|] r| |] eqn:C; try (injection E as <- <-; left; split; [reflexivity|discriminate]).
  - apply confirm_got in C as (pre & s & -> & S). destruct (tail_forall _ _ _ _ F) as [Fs Fr]. right. exists s, r. split; [exact Fs|]. split; [exact Fr|]. split; [|exact E].
    destruct S as [[-> S]|S]; auto.
  - apply confirm_got in C as (pre & s & -> & S). destruct (tail_forall _ _ _ _ F) as [Fs Fr]. injection E as <- <-. left. split; [reflexivity|]. intros r' [= <-]. exact Fr.
Qed.
Lemma does_confirmed c w Q (R : fs -> fs -> bool -> Prop) b st : (forall d ok, R d d ok) ->
  (b = true \/ (exists a, Q a /\ says_yes a) -> does c w Q R st) -> does c w Q R (confirmed b st).
Proof.
  intros RR H d acts d' o K F E. apply (confirmed_cases Q) in E as [[-> Fr]|(s & r & Fs & Fr & S & E)]; [|refine (H _ d r d' o K Fr E)|exact F].
  - split; [exact K|]. split; [auto|]. split; [apply RR|exact Fr].
  - destruct S as [[S _]|S]; [auto|]. right. exists (Types s). split; [exact Fs|]. exists s. auto.
Qed.
Definition comp (R1 R2 : fs -> fs -> bool -> Prop) (d d' : fs) (ok : bool) : Prop :=
  exists d1 ok1, R1 d d1 ok1 /\ R2 d1 d' ok /\ (ok = true -> ok1 = true).
Lemma does_then c w Q (R1 R2 : fs -> fs -> bool -> Prop) a b : (forall d ok, R2 d d ok) -> does c w Q R1 a -> does c w Q R2 b -> does c w Q (comp R1 R2) (then_ a b).
Proof.
  intros RR A B d acts d' o K F E. unfold then_ in E. destruct (a d acts) as [d1 o1] eqn:E1. destruct (A d acts d1 o1 K F E1) as (K1 & T1 & H1 & F1).
  destruct o1 as [r|].
  - destruct (B d1 r d' o K1 (F1 r eq_refl) E) as (K2 & T2 & H2 & F2). split; [exact K2|]. split; [auto|]. split; [|exact F2]. exists d1, true. auto.
  - injection E as <- <-. split; [exact K1|]. split; [exact T1|]. split; [|discriminate]. exists d1, false. auto.
Qed.

(** ** One file *)
(** The file at [r] is left, or is written as [T] says, if there was none or it
    may be overwritten; nothing else is touched. *)
Definition file_step (w : place) (r : path) (ow : Prop) (T : str -> Prop) (d d' : fs) (ok : bool) : Prop :=
  (forall p, p <> w ++ r -> node_at d' p = node_at d p) /\
  (node_at d' (w ++ r) = node_at d (w ++ r) \/
   (node_at d (w ++ r) = None \/ ow /\ exists o, node_at d (w ++ r) = Some (File o)) /\ exists s, T s /\ node_at d' (w ++ r) = Some (File s)).
Lemma file_step_refl w r ow T d ok : file_step w r ow T d d ok.
Proof. split; auto. Qed.
Lemma nonempty_inner (w : place) (rp : path) n : w ++ rp ++ [n] <> [].
Proof. destruct w, rp; discriminate. Qed.
Lemma written_step c w d rp n s d' (ow : Prop) (T : str -> Prop) : kept_running c w d -> Forall proper_name (rp ++ [n]) ->
  write (c_links c) d (c_ws c ++ rp ++ [n]) s = Some d' -> (ow \/ node_at d (w ++ rp ++ [n]) = None) -> T s ->
  kept_running c w d' /\ (tidy d -> tidy d') /\ file_step w (rp ++ [n]) ow T d d' true.
Proof.
  intros [RI NL] P W O Ts. pose proof (fun t => tidy_write _ _ _ _ _ t W) as TD. destruct (write_does c d w RI NL rp n P s d' W) as (-> & D & N).
  split; [exact (set_kept c d w RI NL rp n P s D N)|]. split; [exact TD|]. split.
  - intros p Np. apply node_set_other; [apply nonempty_inner|congruence].
  - right. split; [destruct N; [auto|]; destruct O; auto|]. exists s. split; [exact Ts|]. apply node_set_same, nonempty_inner.
Qed.
Lemma does_wrote c w d n s (ow : Prop) (T : str -> Prop) (Q : act -> Prop) r d' o : kept_running c w d -> proper_name n -> Forall Q r -> T s ->
  (ow \/ node_at d (w ++ [n]) = None) -> wrote d r (write (c_links c) d (c_ws c ++ [n]) s) = (d', o) ->
  kept_running c w d' /\ (tidy d -> tidy d') /\
  file_step w [n] ow T d d' (match o with Some _ => true | None => false end) /\ (forall r, o = Some r -> Forall Q r).
Proof.
  intros K P F Ts O E. unfold wrote in E. destruct (write _ _ _ _) as [d1|] eqn:W; injection E as <- <-.
  - destruct (written_step c w d [] n s d1 ow T K ltac:(repeat constructor; apply P) W O Ts) as (A & B & C). split; [exact A|]. split; [exact B|]. split; [exact C|]. intros r' [= <-]. exact F.
  - split; [exact K|]. split; [auto|]. split; [apply file_step_refl|discriminate].
Qed.
Lemma proper_lit n : (match n with [] => false | _ => true end && negb (str_eqb n (L ".")) && negb (str_eqb n (L "..")) && forallb (fun a => negb (Ascii.eqb a "/")) n)%bool = true -> proper_name n.
Proof.
  intros H. apply Bool.andb_true_iff in H as [H D]. apply Bool.andb_true_iff in H as [H C]. apply Bool.andb_true_iff in H as [A B].
  repeat split.
  - intros ->. discriminate.
  - intros ->. discriminate.
  - intros ->. discriminate.
  - intros I. rewrite forallb_forall in D. apply D in I. discriminate.
Qed.

Fixpoint distinct (l : list str) : bool := match l with [] => true | x :: r => negb (existsb (str_eqb x) r) && distinct r end.
Lemma nodup_lit l : distinct l = true -> NoDup l.
Proof.
  induction l as [|x r IH]; cbn [distinct]; intros H; constructor; apply Bool.andb_true_iff in H as [H1 H2]; [|auto].
  intros I. apply Bool.negb_true_iff in H1. assert (X : existsb (str_eqb x) r = true) by (apply existsb_exists; exists x; split; [exact I|apply str_eqb_refl]). congruence.
Qed.

(** ** The parts *)
Section Parts.
  Variables (c : ctx) (w : place) (acts0 : list act) (ow : Prop).
  Definition allowed (a : act) : Prop := (ow \/ ~ says_yes a) /\ In a acts0.
  Lemma allowed_yes : (exists a, allowed a /\ says_yes a) -> ow.
  Proof. intros (a & [[O|N] _] & Y); [exact O|contradiction]. Qed.
  Definition if_there (n : str) (st : part) : part := fun d acts => if path_exists (c_links c) d (c_ws c ++ [n]) then confirmed false st d acts else st d acts.
  Lemma does_there n T st : proper_name n ->
    (forall d acts d' o, kept_running c w d -> Forall allowed acts -> (ow \/ node_at d (w ++ [n]) = None) -> st d acts = (d', o) ->
       kept_running c w d' /\ (tidy d -> tidy d') /\ file_step w [n] ow T d d' (match o with Some _ => true | None => false end) /\ (forall r, o = Some r -> Forall allowed r)) ->
    does c w allowed (file_step w [n] ow T) (if_there n st).
  Proof.
    intros P H d acts d' o K F E. unfold if_there in E. destruct (path_exists (c_links c) d (c_ws c ++ [n])) eqn:X.
    - refine (does_confirmed c w allowed _ false st (fun d ok => file_step_refl w [n] ow T d ok) _ d acts d' o K F E).
      intros [Y|Y]; [discriminate|]. apply allowed_yes in Y. intros d1 acts1 d1' o1 K1 F1 E1. exact (H d1 acts1 d1' o1 K1 F1 (or_introl Y) E1).
    - apply (H d acts d' o K F); [|exact E]. right. destruct K as [RI NL]. apply (inner_exists c d w RI NL [] n) in X; [exact X|]. repeat constructor; apply P.
  Qed.
  (** AGENTS.md. *)
  Lemma does_context template : does c w allowed (file_step w [L "AGENTS.md"] ow (eq template)) (confirmed true (create_ai_context c template)).
  Proof.
    apply does_confirmed; [intros; apply file_step_refl|]. intros _. apply (does_there (L "AGENTS.md")); [apply proper_lit; reflexivity|].
    intros d acts d' o K F O E. refine (does_wrote c w d _ _ ow _ _ acts d' o K _ F _ O E); [apply proper_lit; reflexivity|reflexivity].
  Qed.
  (** main.firm. *)
  Definition entities_text (t : str) : Prop :=
    exists pn on, In (Types pn) acts0 /\ In (Types on) acts0 /\ t = generate_dsl (c_env c) default_options (first_entities pn on).
  Lemma does_entities : does c w allowed (file_step w [L "main.firm"] ow entities_text) (confirmed true (create_default_entities c)).
  Proof.
    apply does_confirmed; [intros; apply file_step_refl|]. intros _. apply (does_there (L "main.firm")); [apply proper_lit; reflexivity|].
    intros d acts d' o K F O E. unfold entities_written in E.
    assert (Fail : (d, @None (list act)) = (d', o) -> kept_running c w d' /\ (tidy d -> tidy d') /\ file_step w [L "main.firm"] ow entities_text d d' (match o with Some _ => true | None => false end) /\ (forall r, o = Some r -> Forall allowed r)).
    { intros [= <- <-]. split; [exact K|]. split; [auto|]. split; [apply file_step_refl|discriminate]. }
    destruct (need false (ask (line Some) acts)) as [pn r| |] eqn:G; [|exact (Fail E)|exact (Fail E)].
    destruct (need false (ask (line Some) r)) as [on r'| |] eqn:G'; [|exact (Fail E)|exact (Fail E)].
    apply line_got in G as (pre & s & -> & [= ->]). destruct (tail_forall _ _ _ _ F) as [[_ Q1] F1].
    apply line_got in G' as (pre' & s' & -> & [= ->]). destruct (tail_forall _ _ _ _ F1) as [[_ Q2] F2].
    refine (does_wrote c w d _ _ ow _ _ r' d' o K _ F2 _ O E); [apply proper_lit; reflexivity|]. exists pn, on. auto.
  Qed.
  (** .gitignore. *)
  Definition ignored (old : str) : Prop := contains old (L ".DS_Store") = true /\ contains old (L "*.firm.graph") = true.
  Definition gitignore_step (d d' : fs) (ok : bool) : Prop :=
    (forall p, p <> w ++ [L ".gitignore"] -> node_at d' p = node_at d p) /\
    (node_at d' (w ++ [L ".gitignore"]) = node_at d (w ++ [L ".gitignore"]) \/
     (node_at d (w ++ [L ".gitignore"]) = None /\ node_at d' (w ++ [L ".gitignore"]) = Some (File graph_entry)) \/
     exists old new, node_at d (w ++ [L ".gitignore"]) = Some (File old) /\ is_text old = true /\ ~ ignored old /\ entry_added old new /\
       node_at d' (w ++ [L ".gitignore"]) = Some (File new)).
  Lemma entry_ends old : entry_added old (old ++ (if ends_with old [LF] then [] else [LF]) ++ gitignore_entries).
  Proof.
    destruct (ends_with old [LF]) eqn:E.
    - left. apply ends_with_spec in E as (b & E). exists b. auto.
    - right. split; [|reflexivity]. intros b ->. assert (X : ends_with (b ++ [LF]) [LF] = true) by (apply ends_with_spec; eauto). congruence.
  Qed.
  Lemma does_gitignore : does c w allowed gitignore_step (create_or_update_gitignore c).
  Proof.
    assert (P : proper_name (L ".gitignore")) by (apply proper_lit; reflexivity).
    assert (PP : Forall proper_name ([] ++ [L ".gitignore"])) by (repeat constructor; apply P).
    assert (RR : forall d ok, gitignore_step d d ok) by (split; auto).
    assert (NE : w ++ [L ".gitignore"] <> []) by (destruct w; discriminate).
    intros d acts d' o K F E. unfold create_or_update_gitignore in E. pose proof K as [RI NL].
    pose proof (inner_exists c d w RI NL [] _ PP) as X. cbn [app] in X.
    destruct (path_exists (c_links c) d (c_ws c ++ [L ".gitignore"])) eqn:PE.
    - apply (confirmed_cases allowed) in E as [[-> Fr]|(s & r & Fs & Fr & _ & E)]; [split; [exact K|]; split; [auto|]; split; [apply RR|exact Fr]| |exact F].
      assert (Stay : forall o', (d, o') = (d', o) -> (forall r, o' = Some r -> Forall allowed r) -> kept_running c w d' /\ (tidy d -> tidy d') /\ gitignore_step d d' (match o with Some _ => true | None => false end) /\ (forall r, o = Some r -> Forall allowed r)).
      { intros o' [= <- <-] H. split; [exact K|]. split; [auto|]. split; [apply RR|exact H]. }
      unfold read_text, stat in E. destruct (node_at d (w ++ [L ".gitignore"])) as [x|] eqn:N.
      + assert (NN : node_at d (w ++ [] ++ [L ".gitignore"]) <> None) by (change ([] ++ [L ".gitignore"]) with [L ".gitignore"]; rewrite N; discriminate).
        pose proof (inner_at c d w RI NL [] (L ".gitignore") NN) as Rs. change ([] ++ [L ".gitignore"]) with [L ".gitignore"] in Rs. rewrite Rs, N in E.
        destruct x as [old| |]; try exact (Stay _ E ltac:(discriminate)). destruct (is_text old) eqn:TX; [|exact (Stay _ E ltac:(discriminate))].
        destruct (contains old (L ".DS_Store") && contains old (L "*.firm.graph"))%bool eqn:C; [refine (Stay _ E _); intros r0 [= <-]; exact Fr|].
        unfold append_to in E. rewrite Rs, N in E. injection E as <- <-.
        pose proof (inner_parent c d w RI [] (L ".gitignore") NN) as PD.
        destruct (set_kept c d w RI NL [] (L ".gitignore") PP (old ++ (if ends_with old [LF] then [] else [LF]) ++ gitignore_entries) PD ltac:(right; eauto)) as [R1 R2].
        split; [split; [exact R1|exact R2]|]. split; [apply tidy_set|]. split; [|intros r0 [= <-]; exact Fr]. split.
        * intros p Np. apply node_set_other; [exact NE|]. intros X0. apply Np. symmetry. exact X0.
        * right. right. exists old. eexists. split; [exact N|]. split; [exact TX|]. split; [intros [A B]; rewrite A, B in C; discriminate|]. split; [apply entry_ends|]. apply node_set_same. exact NE.
      + assert (Nn : forall q, resolve (c_links c) d (c_ws c ++ [L ".gitignore"]) <> At q).
        { intros q Q. assert (Z : path_exists (c_links c) d (c_ws c ++ [] ++ [L ".gitignore"]) = false) by (apply (inner_exists c d w RI NL [] _ PP); exact N).
          unfold path_exists in Z. change ([] ++ [L ".gitignore"]) with [L ".gitignore"] in Z. rewrite Q in Z. discriminate. }
        destruct (resolve (c_links c) d (c_ws c ++ [L ".gitignore"])) eqn:Q; try exact (Stay _ E ltac:(discriminate)). elim (Nn _ eq_refl).
    - apply (confirmed_cases allowed) in E as [[-> Fr]|(s & r & Fs & Fr & _ & E)]; [split; [exact K|]; split; [auto|]; split; [apply RR|exact Fr]| |exact F].
      destruct (does_wrote c w d _ _ False (eq graph_entry) allowed r d' o K P Fr eq_refl (or_intror (proj1 X PE)) E) as (A & B & (C & D) & G).
      split; [exact A|]. split; [exact B|]. split; [|exact G]. split; [exact C|]. destruct D as [D|[_ (s0 & <- & D)]]; [auto|]. right. left. split; [apply X; exact PE|exact D].
  Qed.

  (** The schemas. *)
  Definition schema_text (s : schema) : str := generate_schema (c_fields c) default_options s.
  Definition schema_place (s : schema) : path := [L "schemas"; schema_file s].
  Definition rewritten (over : Prop) (ss : list schema) (d d' : fs) (p : place) : Prop :=
    exists s, In s ss /\ p = w ++ schema_place s /\ (node_at d p = None \/ over /\ exists o, node_at d p = Some (File o)) /\ node_at d' p = Some (File (schema_text s)).
  Lemma schemas_list : forall ss d d' ok, kept_running c w d -> NoDup (map schema_file ss) -> Forall (fun s => proper_name (schema_file s)) ss ->
    write_schemas c d ss = (d', ok) ->
    kept_running c w d' /\ (tidy d -> tidy d') /\ (forall p, node_at d' p = node_at d p \/ rewritten True ss d d' p) /\
    (ok = true -> forall s, In s ss -> node_at d' (w ++ schema_place s) = Some (File (schema_text s))).
  Proof.
    induction ss as [|s ss IH]; intros d d' ok K ND PR E; cbn [write_schemas] in E.
    - injection E as <- <-. split; [exact K|]. split; [auto|]. split; [auto|]. intros _ s [].
    - cbn [map] in ND. inversion ND as [|? ? N1 N2]; subst. inversion PR as [|? ? P1 P2]; subst. unfold schemas_dir in E. rewrite <- app_assoc in E.
      destruct (write _ _ _ _) as [d1|] eqn:W.
      + assert (PP : Forall proper_name ([L "schemas"] ++ [schema_file s])) by (repeat constructor; [apply (proper_lit (L "schemas")); reflexivity..|apply P1|apply P1|apply P1|apply P1]).
        destruct (written_step c w d [L "schemas"] (schema_file s) (schema_text s) d1 True (eq (schema_text s)) K PP W (or_introl I) eq_refl) as (K1 & T1 & (A1 & B1)).
        change ([L "schemas"] ++ [schema_file s]) with (schema_place s) in A1, B1.
        destruct (write_does c d w (proj1 K) (proj2 K) [L "schemas"] (schema_file s) PP (schema_text s) d1 W) as (Ed & _ & OLD). change ([L "schemas"] ++ [schema_file s]) with (schema_place s) in Ed, OLD.
        assert (S1 : node_at d1 (w ++ schema_place s) = Some (File (schema_text s))) by (rewrite Ed; apply node_set_same; destruct w; discriminate).
        destruct (IH d1 d' ok K1 N2 P2 E) as (K2 & T2 & A2 & B2).
        assert (Ne : forall s', In s' ss -> w ++ schema_place s' <> w ++ schema_place s).
        { intros s' I' X. apply app_inv_head in X. injection X as X. apply N1. rewrite <- X. apply in_map. exact I'. }
        assert (S2 : node_at d' (w ++ schema_place s) = Some (File (schema_text s))).
        { destruct (A2 (w ++ schema_place s)) as [X|(s' & I' & X & _)]; [congruence|]. elim (Ne s' I'). symmetry. exact X. }
        split; [exact K2|]. split; [auto|]. split.
        * intros p. destruct (place_dec p (w ++ schema_place s)) as [->|Np].
          -- right. exists s. split; [left; reflexivity|]. split; [reflexivity|]. split; [destruct OLD; auto|exact S2].
          -- destruct (A2 p) as [X|(s' & I' & X & O & Y)]; [left; rewrite X; apply A1, Np|]. right. exists s'. split; [right; exact I'|]. split; [exact X|]. rewrite (A1 p Np) in O. auto.
        * intros Ok s' [<-|I']; [exact S2|exact (B2 Ok s' I')].
      + injection E as <- <-. split; [exact K|]. split; [auto|]. split; [auto|]. discriminate.
  Qed.
  Lemma schema_names : NoDup (map schema_file all_default_schemas) /\ Forall (fun s => proper_name (schema_file s)) all_default_schemas.
  Proof.
    split.
    - apply nodup_lit. vm_compute. reflexivity.
    - repeat (constructor; [apply proper_lit; vm_compute; reflexivity|]). constructor.
  Qed.
  Lemma make_schemas d n : kept_running c w d ->
    create_dir_all (S n) (c_links c) d (schemas_dir c) =
    match node_at d (w ++ [L "schemas"]) with
    | None => (set_node d (w ++ [L "schemas"]) Dir, true)
    | Some Dir => (d, true)
    | _ => (d, false)
    end.
  Proof.
    intros [RI NL]. pose proof RI as (S & SW & W & D). unfold schemas_dir. cbn [create_dir_all]. unfold mkdir, last_name. rewrite rev_unit.
    destruct (proper_go (L "schemas") (proper_lit (L "schemas") eq_refl)) as [-> ->]. cbn [orb]. rewrite removelast_last, W, D.
    match goal with |- match match ?t with Some _ => _ | None => _ end with Made _ => _ | NoParent => _ | NotMade => _ end = _ => change t with (node_at d (w ++ [L "schemas"])) end.
    destruct (node_at d (w ++ [L "schemas"])) as [x|] eqn:N; [|reflexivity]. unfold is_dir, stat.
    rewrite (resolve_below c d w [L "schemas"] RI NL ltac:(congruence)), N. destruct x; reflexivity.
  Qed.
  Definition schemas_step (d d' : fs) (ok : bool) : Prop :=
    (forall p, node_at d' p = node_at d p \/ rewritten ow all_default_schemas d d' p \/ (p = w ++ [L "schemas"] /\ node_at d p = None /\ node_at d' p = Some Dir)) /\
    (ok = true -> (forall p, node_at d' p = node_at d p) \/ forall s, In s all_default_schemas -> node_at d' (w ++ schema_place s) = Some (File (schema_text s))).
  Lemma schemas_step_refl d ok : schemas_step d d ok.
  Proof. split; auto. Qed.
  Lemma does_written d acts d' o : kept_running c w d -> Forall allowed acts ->
    (ow \/ forall s, In s all_default_schemas -> node_at d (w ++ schema_place s) = None) -> schemas_written c d acts = (d', o) ->
    kept_running c w d' /\ (tidy d -> tidy d') /\ schemas_step d d' (match o with Some _ => true | None => false end) /\ (forall r, o = Some r -> Forall allowed r).
  Proof.
    intros K F O E. unfold schemas_written in E. rewrite (make_schemas d _ K) in E. destruct schema_names as [ND PR].
    assert (G : forall d1, kept_running c w d1 -> (tidy d -> tidy d1) -> (forall p, node_at d1 p = node_at d p \/ (p = w ++ [L "schemas"] /\ node_at d p = None /\ node_at d1 p = Some Dir)) ->
      (let (d2, b) := write_schemas c d1 all_default_schemas in if b then (d2, Some acts) else (d2, None)) = (d', o) ->
      kept_running c w d' /\ (tidy d -> tidy d') /\ schemas_step d d' (match o with Some _ => true | None => false end) /\ (forall r, o = Some r -> Forall allowed r)).
    { intros d1 K1 T1 A1 E1. destruct (write_schemas c d1 all_default_schemas) as [d2 ok] eqn:W. destruct (schemas_list _ d1 d2 ok K1 ND PR W) as (K2 & T2 & A2 & B2).
      assert (X : d' = d2 /\ (match o with Some _ => true | None => false end) = ok /\ forall r, o = Some r -> Forall allowed r) by (destruct ok; injection E1 as <- <-; (split; [reflexivity|]; split; [reflexivity|]); [intros r [= <-]; exact F|discriminate]).
      destruct X as (-> & -> & Fr). split; [exact K2|]. split; [auto|]. split; [|exact Fr]. split; [|intros Ok; right; exact (B2 Ok)].
      intros p. destruct (A2 p) as [X|(s & I' & -> & N & Y)].
      - rewrite X. destruct (A1 p) as [Z|Z]; auto.
      - right. left. exists s. split; [exact I'|]. split; [reflexivity|]. split; [|exact Y].
        assert (Z : node_at d1 (w ++ schema_place s) = node_at d (w ++ schema_place s)).
        { destruct (A1 (w ++ schema_place s)) as [Z|[Z _]]; [exact Z|]. apply app_inv_head in Z. discriminate. }
        rewrite Z in N. destruct N as [N|[_ N]]; [auto|]. destruct O as [O|O]; [auto|]. left. apply O. exact I'. }
    destruct (node_at d (w ++ [L "schemas"])) as [[| |]|] eqn:N.
    - injection E as <- <-. split; [exact K|]. split; [auto|]. split; [apply schemas_step_refl|discriminate].
    - apply (G d); auto.
    - injection E as <- <-. split; [exact K|]. split; [auto|]. split; [apply schemas_step_refl|discriminate].
    - pose proof K as [RI NL]. assert (NE : w ++ [L "schemas"] <> []) by (destruct w; discriminate).
      assert (AD : only_dirs_added d (set_node d (w ++ [L "schemas"]) Dir)).
      { intros p. rewrite node_set by exact NE. destruct (place_eqb (w ++ [L "schemas"]) p) eqn:Q; [|auto]. apply place_eqb_eq in Q as <-. auto. }
      apply (G (set_node d (w ++ [L "schemas"]) Dir)); [| | |exact E].
      + split; [|exact (links_dirs w _ _ AD NL)]. apply (runs_dirs c d); auto. pose proof RI as (S & _ & _ & D). apply sound_add; auto. apply proper_lit. reflexivity.
      + apply tidy_set.
      + intros p. rewrite node_set by exact NE. destruct (place_eqb (w ++ [L "schemas"]) p) eqn:Q; [|auto]. apply place_eqb_eq in Q as <-. auto.
  Qed.
  Lemma does_schemas : does c w allowed schemas_step (confirmed true (create_default_schemas c)).
  Proof.
    apply does_confirmed; [exact schemas_step_refl|]. intros _ d acts d' o K F E. unfold create_default_schemas in E.
    destruct (existsb (fun s => path_exists (c_links c) d (schemas_dir c ++ [schema_file s])) all_default_schemas) eqn:X.
    - refine (does_confirmed c w allowed _ false _ schemas_step_refl _ d acts d' o K F E). intros [Y|Y]; [discriminate|]. apply allowed_yes in Y.
      intros d1 a1 d1' o1 K1 F1 E1. exact (does_written d1 a1 d1' o1 K1 F1 (or_introl Y) E1).
    - apply (does_written d acts d' o K F); [|exact E]. right. intros s Is. destruct K as [RI NL]. destruct schema_names as [_ PR]. rewrite Forall_forall in PR. specialize (PR s Is).
      assert (PP : Forall proper_name ([L "schemas"] ++ [schema_file s])) by (constructor; [apply (proper_lit (L "schemas")); reflexivity|constructor; [exact PR|constructor]]).
      apply (inner_exists c d w RI NL [L "schemas"] (schema_file s) PP). destruct (path_exists (c_links c) d (c_ws c ++ [L "schemas"] ++ [schema_file s])) eqn:Z; [|exact Z].
      exfalso. assert (T : existsb (fun s => path_exists (c_links c) d (schemas_dir c ++ [schema_file s])) all_default_schemas = true); [|congruence]. apply existsb_exists. exists s. split; [exact Is|]. unfold schemas_dir. rewrite <- app_assoc. exact Z.
  Qed.
  Lemma does_init template : does c w allowed
    (comp schemas_step (comp gitignore_step (comp (file_step w [L "main.firm"] ow entities_text) (file_step w [L "AGENTS.md"] ow (eq template)))))
    (init_workspace c template).
  Proof.
    assert (A : forall d ok, file_step w [L "AGENTS.md"] ow (eq template) d d ok) by (intros; apply file_step_refl).
    assert (B : forall d ok, comp (file_step w [L "main.firm"] ow entities_text) (file_step w [L "AGENTS.md"] ow (eq template)) d d ok) by (intros d ok; exists d, ok; split; [apply file_step_refl|]; split; [apply A|auto]).
    apply does_then; [intros d ok; exists d, ok; split; [split; auto|]; split; [apply B|auto]|exact does_schemas|].
    apply does_then; [exact B|exact does_gitignore|]. apply does_then; [exact A|exact does_entities|apply does_context].
  Qed.
End Parts.

(** ** An empty directory *)
Lemma agrees_confirm a r : agrees a -> confirm true (a :: r) = Got true r.
Proof.
  intros [-> | (s & -> & Y)]; [reflexivity|]. unfold confirm. cbn [ask line]. unfold or_default. apply yes_no_says in Y. destruct s; [discriminate|]. rewrite Y. reflexivity.
Qed.
Lemma confirmed_yes a st d r : agrees a -> confirmed true st d (a :: r) = st d r.
Proof. intros H. unfold confirmed. rewrite (agrees_confirm a r H). reflexivity. Qed.
Lemma new_gitignore c d d' a r : agrees a -> path_exists (c_links c) d (c_ws c ++ [L ".gitignore"]) = false ->
  write (c_links c) d (c_ws c ++ [L ".gitignore"]) gitignore_entries = Some d' -> create_or_update_gitignore c d (a :: r) = (d', Some r).
Proof. intros A X W. unfold create_or_update_gitignore. rewrite X, (confirmed_yes a _ _ _ A). unfold wrote. rewrite W. reflexivity. Qed.
Lemma new_entities c d d' pn on r : path_exists (c_links c) d (c_ws c ++ [L "main.firm"]) = false ->
  write (c_links c) d (c_ws c ++ [L "main.firm"]) (generate_dsl (c_env c) default_options (first_entities pn on)) = Some d' ->
  create_default_entities c d (Types pn :: Types on :: r) = (d', Some r).
Proof.
  intros X W. unfold create_default_entities. rewrite X. unfold entities_written. cbn [need ask line].
  change [default_entity (L "person") pn; default_entity (L "organization") on] with (first_entities pn on). unfold wrote. rewrite W. reflexivity.
Qed.
Lemma new_context c d d' t r : path_exists (c_links c) d (c_ws c ++ [L "AGENTS.md"]) = false ->
  write (c_links c) d (c_ws c ++ [L "AGENTS.md"]) t = Some d' -> create_ai_context c t d r = (d', Some r).
Proof. intros X W. unfold create_ai_context. rewrite X. unfold context_written, wrote. rewrite W. reflexivity. Qed.
Lemma write_top c d w n t : kept_running c w d -> proper_name n -> node_at d (w ++ [n]) = None ->
  path_exists (c_links c) d (c_ws c ++ [n]) = false /\
  write (c_links c) d (c_ws c ++ [n]) t = Some (set_node d (w ++ [n]) (File t)) /\ kept_running c w (set_node d (w ++ [n]) (File t)).
Proof.
  intros [RI NL] P N. assert (PP : Forall proper_name ([] ++ [n])) by (constructor; [exact P|constructor]).
  pose proof RI as (_ & _ & _ & D). assert (D0 : node_at d (w ++ []) = Some Dir) by (rewrite app_nil_r; exact D). split; [|split].
  - exact (proj2 (inner_exists c d w RI NL [] n PP) N).
  - exact (write_can c d w RI NL [] n PP t D0 (or_introl N)).
  - exact (set_kept c d w RI NL [] n PP t D0 (or_introl N)).
Qed.
Lemma write_all c w : forall ss d, kept_running c w d -> Forall (fun s => proper_name (schema_file s)) ss ->
  node_at d (w ++ [L "schemas"]) = Some Dir -> (forall s, In s ss -> node_at d (w ++ schema_place s) = None \/ exists o, node_at d (w ++ schema_place s) = Some (File o)) ->
  snd (write_schemas c d ss) = true.
Proof.
  induction ss as [|s ss IH]; intros d K PR D O; cbn [write_schemas]; [reflexivity|]. inversion PR as [|? ? P1 P2]; subst. pose proof K as [RI NL].
  assert (PP : Forall proper_name ([L "schemas"] ++ [schema_file s])) by (constructor; [apply (proper_lit (L "schemas")); reflexivity|constructor; [exact P1|constructor]]).
  unfold schemas_dir. rewrite <- app_assoc.
  pose proof (write_can c d w RI NL [L "schemas"] (schema_file s) PP (generate_schema (c_fields c) default_options s) D (O s (or_introl eq_refl))) as W. rewrite W.
  apply IH; [exact (set_kept c d w RI NL [L "schemas"] (schema_file s) PP _ D (O s (or_introl eq_refl)))|exact P2| |].
  - rewrite node_set_other; [exact D|apply nonempty_inner|]. intros X. apply app_inv_head in X. discriminate.
  - intros s' I'. rewrite node_set by apply nonempty_inner. destruct (place_eqb _ _); [right; eauto|]. apply O. right. exact I'.
Qed.
Section Fresh.
  Variables (c : ctx) (w : place) (d : fs) (template : str).
  Hypotheses (K : kept_running c w d) (FR : empty_dir w d).
  Lemma fresh_schemas : exists d1, (forall acts, create_default_schemas c d acts = (d1, Some acts)) /\ kept_running c w d1 /\ (tidy d -> tidy d1) /\
    (forall s, In s all_default_schemas -> node_at d1 (w ++ schema_place s) = Some (File (schema_text c s))) /\
    (forall p, node_at d1 p = node_at d p \/ (exists s, In s all_default_schemas /\ p = w ++ schema_place s) \/ (p = w ++ [L "schemas"] /\ node_at d1 p = Some Dir)).
  Proof.
    destruct schema_names as [ND PR]. pose proof K as [RI NL]. set (d0 := set_node d (w ++ [L "schemas"]) Dir).
    assert (N : node_at d (w ++ [L "schemas"]) = None) by (apply FR; discriminate).
    assert (NE : w ++ [L "schemas"] <> []) by (destruct w; discriminate).
    assert (AD : only_dirs_added d d0).
    { intros p. unfold d0. rewrite node_set by exact NE. destruct (place_eqb (w ++ [L "schemas"]) p) eqn:Q; [|auto]. apply place_eqb_eq in Q as <-. auto. }
    assert (K0 : kept_running c w d0).
    { split; [|exact (links_dirs w _ _ AD NL)]. apply (runs_dirs c d); auto. pose proof RI as (S & _ & _ & D). apply sound_add; auto. apply proper_lit. reflexivity. }
    assert (D0 : node_at d0 (w ++ [L "schemas"]) = Some Dir) by (apply node_set_same; exact NE).
    assert (O0 : forall s, node_at d0 (w ++ schema_place s) = None).
    { intros s. unfold d0. rewrite node_set_other; [apply FR; discriminate|exact NE|]. intros X. apply app_inv_head in X. discriminate. }
    pose proof (write_all c w all_default_schemas d0 K0 PR D0 (fun s _ => or_introl (O0 s))) as OK.
    destruct (write_schemas c d0 all_default_schemas) as [d1 b] eqn:W. cbn [snd] in OK. subst b.
    destruct (schemas_list c w all_default_schemas d0 d1 true K0 ND PR W) as (K1 & T1 & A1 & B1). exists d1. split; [|split; [exact K1|split; [|split; [exact (B1 eq_refl)|]]]].
    - intros acts. unfold create_default_schemas. destruct (existsb _ all_default_schemas) eqn:X.
      + exfalso. apply existsb_exists in X as (s & Is & X). rewrite Forall_forall in PR.
        assert (PP : Forall proper_name ([L "schemas"] ++ [schema_file s])) by (constructor; [apply (proper_lit (L "schemas")); reflexivity|constructor; [exact (PR s Is)|constructor]]).
        pose proof (proj2 (inner_exists c d w RI NL [L "schemas"] (schema_file s) PP) (FR (schema_place s) ltac:(discriminate))) as Y. unfold schemas_dir in X. rewrite <- app_assoc in X. unfold schema_place in Y. change ([L "schemas"] ++ [schema_file s]) with [L "schemas"; schema_file s] in *. change (@app str) with (@app (list ascii)) in *. rewrite Y in X. discriminate.
      + unfold schemas_written. rewrite (make_schemas c w d _ K). rewrite N. fold d0. rewrite W. reflexivity.
    - intros T. apply T1. unfold d0. apply tidy_set, T.
    - intros p. destruct (A1 p) as [X|(s & Is & X & _)]; [|eauto]. unfold d0 in X. rewrite X, node_set by exact NE. destruct (place_eqb (w ++ [L "schemas"]) p) eqn:Q; [|auto]. apply place_eqb_eq in Q as <-. auto.
  Qed.
  Lemma fresh_init a1 a2 a3 a4 pn on rest : agrees a1 -> agrees a2 -> agrees a3 -> agrees a4 ->
    exists d', init_workspace c template d (a1 :: a2 :: a3 :: Types pn :: Types on :: a4 :: rest) = (d', Some rest) /\ kept_running c w d' /\ (tidy d -> tidy d') /\
      (forall s, In s all_default_schemas -> node_at d' (w ++ schema_place s) = Some (File (schema_text c s))) /\
      node_at d' (w ++ [L ".gitignore"]) = Some (File graph_entry) /\
      node_at d' (w ++ [L "main.firm"]) = Some (File (generate_dsl (c_env c) default_options (first_entities pn on))) /\
      node_at d' (w ++ [L "AGENTS.md"]) = Some (File template) /\
      (forall p, node_at d' p = node_at d p \/ (p = w ++ [L "schemas"] /\ node_at d' p = Some Dir) \/ exists r, init_file r /\ p = w ++ r).
  Proof.
    intros G1 G2 G3 G4. destruct fresh_schemas as (d1 & E1 & K1 & T1 & B1 & A1).
    assert (N1 : forall n, n <> L "schemas" -> node_at d1 (w ++ [n]) = None).
    { intros n Nn. destruct (A1 (w ++ [n])) as [X|[(s & _ & X)|[X _]]]; [rewrite X; apply FR; discriminate|apply app_inv_head in X; discriminate|apply app_inv_head in X; congruence]. }
    assert (NE : forall n, w ++ [n] <> []) by (intros n; destruct w; discriminate).
    set (gi := L ".gitignore") in *. set (mf := L "main.firm") in *. set (am := L "AGENTS.md") in *.
    set (mt := generate_dsl (c_env c) default_options (first_entities pn on)).
    destruct (write_top c d1 w gi gitignore_entries K1 (proper_lit gi eq_refl) (N1 gi ltac:(discriminate))) as (X2 & W2 & K2). set (d2 := set_node d1 (w ++ [gi]) (File gitignore_entries)) in *.
    assert (S2 : forall n, n <> gi -> node_at d2 (w ++ [n]) = node_at d1 (w ++ [n])).
    { intros n Nn. apply node_set_other; [apply NE|]. intros X. apply app_inv_head in X. congruence. }
    destruct (write_top c d2 w mf mt K2 (proper_lit mf eq_refl) ltac:(rewrite S2 by discriminate; apply N1; discriminate)) as (X3 & W3 & K3). set (d3 := set_node d2 (w ++ [mf]) (File mt)) in *.
    assert (S3 : forall n, n <> mf -> node_at d3 (w ++ [n]) = node_at d2 (w ++ [n])).
    { intros n Nn. apply node_set_other; [apply NE|]. intros X. apply app_inv_head in X. congruence. }
    destruct (write_top c d3 w am template K3 (proper_lit am eq_refl) ltac:(rewrite S3, S2 by discriminate; apply N1; discriminate)) as (X4 & W4 & K4). set (d4 := set_node d3 (w ++ [am]) (File template)) in *.
    exists d4. split; [|split; [exact K4|split; [|split; [|split; [|split; [|split]]]]]].
    - unfold init_workspace, then_. rewrite (confirmed_yes a1 _ _ _ G1), E1, (new_gitignore c d1 d2 a2 _ G2 X2 W2), (confirmed_yes a3 _ _ _ G3).
      rewrite (new_entities c d2 d3 pn on _ X3 W3), (confirmed_yes a4 _ _ _ G4). exact (new_context c d3 d4 template _ X4 W4).
    - intros T. unfold d4, d3, d2. apply tidy_set, tidy_set, tidy_set, T1, T.
    - intros s Is. rewrite <- (B1 s Is). unfold d4, d3, d2. rewrite !node_set_other; [reflexivity|apply NE|intros X; apply app_inv_head in X; discriminate|apply NE|intros X; apply app_inv_head in X; discriminate|apply NE|intros X; apply app_inv_head in X; discriminate].
    - unfold d4. rewrite node_set_other; [|apply NE|intros X; apply app_inv_head in X; discriminate]. rewrite S3 by discriminate. apply node_set_same, NE.
    - unfold d4. rewrite node_set_other; [|apply NE|intros X; apply app_inv_head in X; discriminate]. apply node_set_same, NE.
    - apply node_set_same, NE.
    - intros p. unfold d4, d3, d2. rewrite !node_set by apply NE.
      destruct (place_eqb (w ++ [am]) p) eqn:Q4; [apply place_eqb_eq in Q4 as <-; right; right; eexists; split; [apply if_context|reflexivity]|].
      destruct (place_eqb (w ++ [mf]) p) eqn:Q3; [apply place_eqb_eq in Q3 as <-; right; right; eexists; split; [apply if_entities|reflexivity]|].
      destruct (place_eqb (w ++ [gi]) p) eqn:Q2; [apply place_eqb_eq in Q2 as <-; right; right; eexists; split; [apply if_gitignore|reflexivity]|].
      destruct (A1 p) as [X|[(s & Is & X)|X]]; [auto| |auto]. right. right. exists (schema_place s). split; [|exact X]. apply if_schema. apply (in_map s_type) in Is. exact Is.
  Qed.
End Fresh.
