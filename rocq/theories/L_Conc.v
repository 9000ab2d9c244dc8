(** Lemmas about overlapping requests. *)
From Verif Require Import M_Graph L_Str L_Fs L_Server L_Load L_History L_Add.
From Verif Require Export S_Conc.
Import M_Fs.
From Coq Require Import Lia.
Close Scope Z_scope.

(** ** Where a plain path leads *)
Lemma walk_unique w d k cur p q : no_links_in w d -> inside w cur -> Forall (fun c => climbs c = false) p ->
  walk k d cur p = At q -> q = cur ++ parts p.
Proof.
  intros NL. revert cur. induction p as [|c p IH]; intros cur I F H.
  - rewrite walk_nil in H. injection H as <-. cbn. rewrite app_nil_r. reflexivity.
  - inversion F as [|? ? F1 F2]; subst. rewrite walk_cons, F1 in H. destruct (node_at d cur) as [[]|]; try discriminate.
    unfold parts. cbn [filter]. destruct (stays c); cbn [negb]; [exact (IH cur I F2 H)|]. pose proof (inside_more w cur [c] I) as I2.
    destruct (node_at d (cur ++ [c])) as [[]|] eqn:E; try (rewrite (IH _ I2 F2 H), <- app_assoc; reflexivity).
    + exfalso; exact (NL _ _ I2 E).
    + destruct p; discriminate.
Qed.
Lemma walk_dir w d k cur p : sound d -> no_links_in w d -> inside w cur -> Forall (fun c => climbs c = false) p ->
  node_at d (cur ++ parts p) = Some Dir -> walk k d cur p = At (cur ++ parts p).
Proof.
  intros S NL. revert cur. induction p as [|c p IH]; intros cur I F D.
  - rewrite walk_nil. cbn. rewrite app_nil_r. reflexivity.
  - inversion F as [|? ? F1 F2]; subst. rewrite walk_cons, F1. unfold parts in *. cbn [filter] in *.
    destruct (stays c) eqn:St; cbn [negb] in *.
    + assert (Dc : node_at d cur = Some Dir).
      { destruct (filter (fun c => negb (stays c)) p) as [|x r] eqn:E; [rewrite app_nil_r in D; exact D|].
        apply (sound_prefix d cur (x :: r)); [exact S|congruence|discriminate]. }
      rewrite Dc. apply IH; auto.
    + assert (Dc : node_at d cur = Some Dir) by (eapply sound_prefix; [exact S|rewrite D; discriminate|discriminate]).
      rewrite Dc. pose proof (inside_more w cur [c] I) as I2.
      assert (E : cur ++ c :: filter (fun c => negb (stays c)) p = (cur ++ [c]) ++ filter (fun c => negb (stays c)) p) by (rewrite <- app_assoc; reflexivity).
      rewrite E in *. destruct (filter (fun c => negb (stays c)) p) as [|x r] eqn:P.
      * rewrite app_nil_r in *. rewrite D. specialize (IH _ I2 F2). rewrite app_nil_r in IH. apply IH. exact D.
      * assert (D2 : node_at d (cur ++ [c]) = Some Dir) by (eapply sound_prefix; [exact S|rewrite D; discriminate|discriminate]). rewrite D2. apply IH; auto.
Qed.
(** Only directories were added, on the way to [r]. *)
Definition dirs_towards (r : place) (d d' : fs) : Prop :=
  forall p, node_at d' p = node_at d p \/ (node_at d p = None /\ node_at d' p = Some Dir /\ inside p r).
(** And the node at [q] may differ. *)
Definition towards (r q : place) (d d' : fs) : Prop :=
  forall p, p <> q -> node_at d' p = node_at d p \/ (node_at d p = None /\ node_at d' p = Some Dir /\ inside p r).
Lemma towards_refl r d : dirs_towards r d d.
Proof. intros p. auto. Qed.
Lemma towards_trans r d1 d2 d3 : dirs_towards r d1 d2 -> dirs_towards r d2 d3 -> dirs_towards r d1 d3.
Proof. intros A B p. destruct (A p) as [E|(E & F & I)], (B p) as [E'|(E' & F' & I')]; rewrite ?E in *; auto; right; repeat split; auto; congruence. Qed.
Lemma towards_dirs r d d' : dirs_towards r d d' -> only_dirs_added d d'.
Proof. intros A p. destruct (A p) as [E|(E & F & I)]; auto. Qed.
Lemma mkdir_towards c d w p rp rest d' : runs_in c d w -> no_links_in w d -> Forall (fun x => climbs x = false) rp ->
  c_ws c ++ rp = p ++ rest -> mkdir (c_links c) d p = Made d' -> dirs_towards (w ++ parts rp) d d'.
Proof.
  intros RI NL NC E. pose proof RI as (S & SL & W & D). unfold mkdir. destruct (last_name p) as [x|] eqn:LN; [|discriminate].
  apply last_name_some in LN as (P & S1 & S2).
  destruct (resolve (c_links c) d (removelast p)) as [q|q| |] eqn:R; try discriminate.
  destruct (node_at d q) as [[]|] eqn:Dq; try discriminate. destruct (node_at d (q ++ [x])) eqn:N; try discriminate. intros [= <-].
  destruct (app_prefix _ _ _ _ E) as [(z & Z)|(z & Nz & Z)].
  - exfalso. unfold resolve in W, R. rewrite Z in W. destruct (walk_prefix _ _ _ _ _ _ W) as (r & Wr & _).
    rewrite P in Wr. destruct (walk_snoc_at (c_links c) d [] (removelast p) x r ltac:(discriminate) Wr S1 S2 S) as (r' & Wr' & _ & Nr'). congruence.
  - destruct z as [|y z _] using rev_ind; [congruence|]. rewrite app_assoc in Z. rewrite Z in P, R. rewrite removelast_last in P, R. apply app_inv_head in P. injection P as ->.
    rewrite Z, <- !app_assoc in E. apply app_inv_head in E. subst rp. apply Forall_app in NC as [NC _].
    destruct (walk_then d (c_links c) [] (c_ws c) w S ltac:(discriminate) W) as (k' & K). unfold resolve in R. rewrite (K d z (extends_refl d)) in R.
    rewrite (walk_unique w d k' w z q NL (inside_refl w) NC R) in *.
    intros o. rewrite node_set by (destruct (w ++ parts z); discriminate). destruct (place_eqb _ o) eqn:Q; [|auto]. apply place_eqb_eq in Q as <-.
    right. split; [exact N|]. split; [reflexivity|]. exists (parts rest).
    assert (PX : parts [x] = [x]) by (cbn [parts filter]; unfold parts; cbn [filter]; rewrite S1; reflexivity). rewrite !parts_app, PX, <- !app_assoc. reflexivity.
Qed.
Lemma create_towards n : forall c d w p rp rest d1 b, runs_in c d w -> no_links_in w d -> Forall (fun x => climbs x = false) rp ->
  slashless p -> c_ws c ++ rp = p ++ rest -> create_dir_all n (c_links c) d p = (d1, b) -> dirs_towards (w ++ parts rp) d d1.
Proof.
  induction n as [|n IH]; intros c d w p rp rest d1 b RI NL NC SL E H; cbn [create_dir_all] in H.
  - injection H as <- <-. apply towards_refl.
  - pose proof RI as (S & _). destruct (mkdir (c_links c) d p) as [d'| |] eqn:M.
    + injection H as <- <-. eapply mkdir_towards; eauto.
    + destruct (parent p) as [q|] eqn:P; [|injection H as <- <-; apply towards_refl].
      destruct (create_dir_all n (c_links c) d q) as [d2 b2] eqn:C2.
      assert (SQ : slashless q) by (eapply slashless_sub; [exact SL|]; intros x; apply parent_in; exact P).
      destruct (create_dirs _ _ _ _ _ _ S SQ C2) as [X SX].
      assert (PF : exists r, p = q ++ r).
      { unfold parent in P. destruct (drop_stays (rev p)) as [|y r] eqn:Dp; [discriminate|]. injection P as <-.
        destruct (drop_stays_split (rev p)) as (s1 & E1 & _). destruct (drop_stays_split r) as (s2 & E2 & _).
        exists (rev s2 ++ [y] ++ rev s1). rewrite <- (rev_involutive p), E1, Dp, rev_app_distr. cbn [rev]. rewrite E2 at 1.
        rewrite rev_app_distr, <- !app_assoc. reflexivity. }
      destruct PF as (r & PF).
      assert (C1 : dirs_towards (w ++ parts rp) d d2). { eapply (IH c d w q rp (r ++ rest)); eauto. rewrite E, PF, <- app_assoc. reflexivity. }
      destruct b2; [|injection H as <- <-; exact C1].
      destruct (mkdir (c_links c) d2 p) as [d3| |] eqn:M3; injection H as <- <-; [|exact C1|exact C1].
      eapply towards_trans; [exact C1|]. eapply mkdir_towards; eauto using runs_dirs, links_dirs.
    + injection H as <- <-. apply towards_refl.
Qed.
(** The parent, the last name, and where the whole leads. *)
Record leads (c : ctx) (d : fs) (w : place) (rel : str) (r : place) (n : str) : Prop := {
  ld_place : names w rel = r ++ [n];
  ld_name : proper_name n;
  ld_inside : inside w r;
  ld_only : forall q, resolve (c_links c) d (named c rel) = At q \/ resolve (c_links c) d (named c rel) = Vacant q -> q = names w rel;
  ld_last : last_name (named c rel) = Some n;
  ld_dir : node_at d r = Some Dir -> resolve (c_links c) d (removelast (named c rel)) = At r;
  ld_parent : exists b, parent (named c rel) = Some b /\ (node_at d r = Some Dir -> is_dir (c_links c) d b = true);
  ld_make : forall b m d1 ok, parent (named c rel) = Some b -> create_dir_all m (c_links c) d b = (d1, ok) -> dirs_towards r d d1 /\ sound d1;
  ld_at : node_at d (names w rel) <> None -> resolve (c_links c) d (named c rel) = At (names w rel);
  ld_vacant : node_at d r = Some Dir -> node_at d (names w rel) = None -> resolve (c_links c) d (named c rel) = Vacant (names w rel)
}.
Lemma leads_plain c d w rel : runs_in c d w -> no_links_in w d -> plain rel -> ends_with rel (L ".firm") = true ->
  exists r n, forall d', runs_in c d' w -> no_links_in w d' -> leads c d' w rel r n.
Proof.
  intros RI0 NL0 (RR & NC) EW. pose proof (no_climb rel NC) as CL. destruct (firm_last rel EW) as (p & n & E & FN). destruct (firm_name n FN) as [S1 S2].
  exists (w ++ parts p), n. intros d' (S & SL & W & D) NL. clear d RI0 NL0. rename d' into d.
  assert (PN : names w rel = (w ++ parts p) ++ [n]).
  { unfold names. rewrite E, filter_app. cbn [filter]. rewrite S1. cbn [negb]. rewrite app_assoc. reflexivity. }
  assert (NM : named c rel = c_ws c ++ p ++ [n]) by (rewrite (named_relative c rel RR), E; reflexivity).
  rewrite E in CL. pose proof CL as CL'. apply Forall_app in CL' as [CP _].
  destruct (walk_then d (c_links c) [] (c_ws c) w S ltac:(discriminate) W) as (k' & K). specialize (K d). specialize (fun p2 => K p2 (extends_refl d)).
  assert (PR : proper_name n).
  { destruct (climbs_split n S1 S2) as (A & B & C). repeat split; auto. intros I. pose proof (path_of_slashless rel) as SR. unfold slashless in SR. rewrite Forall_forall in SR.
    apply (SR n); [rewrite E; apply in_app_iff; right; left; reflexivity|exact I]. }
  assert (Dir1 : node_at d (w ++ parts p) = Some Dir -> walk k' d w p = At (w ++ parts p)) by (intros X; eapply walk_dir; eauto using inside_refl).
  assert (Whole : node_at d (w ++ parts p) = Some Dir -> exists k2, walk k' d w (p ++ [n]) = walk k2 d (w ++ parts p) [n]).
  { intros X. destruct (walk_then d k' w p _ S ltac:(congruence) (Dir1 X)) as (k2 & K2). exists k2. apply K2. apply extends_refl. }
  constructor.
  - exact PN.
  - exact PR.
  - exists (parts p). reflexivity.
  - intros q. rewrite PN, NM. unfold resolve. rewrite K. intros [H|H].
    + rewrite (walk_unique w d k' w _ q NL (inside_refl w) CL H), parts_app. cbn [parts filter]. unfold parts at 2. cbn [filter]. rewrite S1. cbn [negb]. rewrite app_assoc. reflexivity.
    + destruct (walk_vacant_down w d k' w p n q NL (inside_refl w) CL H S1) as (r & Wr & _ & -> & _).
      rewrite (walk_unique w d k' w p r NL (inside_refl w) CP Wr). reflexivity.
  - rewrite NM. unfold last_name. rewrite !app_assoc, rev_unit, S1, S2. reflexivity.
  - intros X. rewrite NM, app_assoc, removelast_last. unfold resolve. rewrite K. auto.
  - destruct (parent_name (c_ws c ++ p) n S1) as (b & ss & P & Eb & Fs). exists b. rewrite NM, app_assoc. split; [exact P|].
    intros X. unfold is_dir, stat, resolve. assert (Wb : walk (c_links c) d [] (b ++ ss) = At (w ++ parts p)) by (rewrite <- Eb, K; auto).
    apply walk_stays in Wb; [|exact Fs]. rewrite Wb, X. reflexivity.
  - intros b m d1 ok P C. assert (SB : slashless b) by (apply (slashless_sub (named c rel)); [apply named_slashless; exact SL|]; intros x; apply parent_in; exact P).
    split; [|eapply create_dirs; eauto]. destruct (parent_name (c_ws c ++ p) n S1) as (b' & ss & P' & Eb & Fs). rewrite NM, app_assoc, P' in P. injection P as <-.
    eapply (create_towards m c d w b' p ss); eauto. split; auto.
  - rewrite PN, NM. intros X. assert (Dp : node_at d (w ++ parts p) = Some Dir) by (destruct (S _ _ X) as [Dp _]; exact Dp).
    unfold resolve. rewrite K. destruct (Whole Dp) as (k2 & ->). rewrite walk_cons, Dp, S1, S2.
    assert (I : inside w ((w ++ parts p) ++ [n])) by (exists (parts p ++ [n]); rewrite app_assoc; reflexivity).
    destruct (node_at d ((w ++ parts p) ++ [n])) as [[]|] eqn:Q; try (rewrite walk_nil; reflexivity); [|congruence]. exfalso. exact (NL _ _ I Q).
  - rewrite PN, NM. intros Dp V. unfold resolve. rewrite K. destruct (Whole Dp) as (k2 & ->). rewrite walk_cons, Dp, S1, S2, V. reflexivity.
Qed.

Lemma inside_strict r (n : str) : ~ inside (r ++ [n]) r.
Proof. intros (x & E). apply (f_equal (@length str)) in E. rewrite !app_length in E. cbn in E. lia. Qed.
Lemma towards_at r (n : str) d d' : dirs_towards r d d' -> node_at d' (r ++ [n]) = node_at d (r ++ [n]).
Proof. intros X. destruct (X (r ++ [n])) as [E|(_ & _ & I)]; [exact E|]. exfalso. exact (inside_strict r n I). Qed.
Lemma towards_weak r q d d' : dirs_towards r d d' -> towards r q d d'.
Proof. intros X p _. apply X. Qed.
Lemma towards_set r q d d1 n : q <> [] -> dirs_towards r d d1 -> towards r q d (set_node d1 q n).
Proof. intros NE X p N. rewrite node_set_other by auto. apply X. Qed.
Lemma towards_unset r q d : q <> [] -> towards r q d (unset_node d q).
Proof. intros NE p N. rewrite node_unset by exact NE. destruct (place_eqb q p) eqn:E; [apply place_eqb_eq in E; congruence|auto]. Qed.

(** ** The steps *)
Lemma wrote_where c d w rel content d' ok : ordinary c w d -> plain rel ->
  write_source_file c d rel content = (d', ok) ->
  (is_text content = true -> ordinary c w d') /\
  if ok then ends_with rel (L ".firm") = true /\ exists r n, leads c d w rel r n /\ node_at d' (names w rel) = Some (File content) /\ towards r (names w rel) d d' /\
    (node_at d (names w rel) = None \/ exists old, node_at d (names w rel) = Some (File old))
  else d' = d \/ exists r n, leads c d w rel r n /\ dirs_towards r d d'.
Proof.
  intros O P H. pose proof O as (RI & NL & TD & TX). pose proof RI as (S & SL & W & D). pose proof P as (RR & NC).
  destruct (write_file_confined c d w rel content d' ok RI NL RR NC H) as (_ & RI' & NL'). pose proof (tidy_write_file c d rel content d' ok TD H) as TD'.
  unfold write_source_file in H. destruct (ends_with rel (L ".firm")) eqn:EW; cbn [negb] in H; [|injection H as <- <-; auto].
  destruct (leads_plain c d w rel RI NL P EW) as (r & n & LD). pose proof (LD d RI NL) as Ld.
  pose proof (ld_place _ _ _ _ _ _ Ld) as PQ. assert (NE : names w rel <> []) by (rewrite PQ; destruct r; discriminate).
  assert (Known : forall d1, dirs_towards r d d1 -> sound d1 -> tidy d1 -> ordinary c w d1) by (intros; eapply ordinary_dirs; eauto using towards_dirs).
  assert (Fill : forall d1, dirs_towards r d d1 -> d' = set_node d1 (names w rel) (File content) -> is_text content = true -> ordinary c w d').
  { intros d1 X E T. split; [exact RI'|]. split; [exact NL'|]. split; [exact TD'|]. subst d'. apply text_set; auto. eapply text_dirs; eauto using towards_dirs. }
  rewrite (absolute_spec c d w rel RI) in H. destruct (resolve (c_links c) d (named c rel)) as [q|q| |] eqn:R.
  1:{ destruct (within q w) eqn:IN; [|injection H as <- <-; auto].
    pose proof (ld_only _ _ _ _ _ _ Ld q (or_introl R)) as ->.
    pose proof (canon_again d (c_links c) (c_links c) _ _ S R) as CA. destruct (resolve_at d (c_links c) _ _ S R) as [N _].
    rewrite PQ in H at 1. destruct (parent_name r n) as (b & ss & E & _); [apply proper_go; apply (ld_name _ _ _ _ _ _ Ld)|]. rewrite E in H.
    rewrite (create_existing (length b) (c_links c) d b S) in H by (apply (canonical_parent d (c_links c) r n b S); [rewrite <- PQ; exact N|exact E]).
    unfold write in H. rewrite CA in H. destruct (node_at d (names w rel)) as [[old| |t]|] eqn:F; try (injection H as <- <-; auto; fail).
    injection H as <- <-. split; [apply (Fill d); auto using towards_refl|]. split; [reflexivity|]. exists r, n. split; [exact Ld|].
    split; [apply node_set_same; exact NE|]. split; [apply towards_set; auto using towards_refl|eauto]. }
  all: rewrite NC in H; destruct (ld_parent _ _ _ _ _ _ Ld) as (b & Pb & _); rewrite Pb in H;
    destruct (create_dir_all (Datatypes.S (length b)) (c_links c) d b) as [d1 b1] eqn:CR;
    destruct (ld_make _ _ _ _ _ _ Ld b _ d1 b1 Pb CR) as [X SX];
    (assert (TD1 : tidy d1) by exact (tidy_create _ _ _ _ _ _ TD CR));
    pose proof (Known d1 X SX TD1) as O1; pose proof O1 as (RI1 & NL1 & _);
    (destruct b1; [|injection H as <- <-; split; [intros _; exact O1|right; eauto]]); unfold write in H;
    destruct (resolve (c_links c) d1 (named c rel)) as [q1|q1| |] eqn:R1; try (injection H as <- <-; split; [intros _; exact O1|right; eauto]; fail);
    [destruct (node_at d1 q1) as [[old| |t]|] eqn:F; try (injection H as <- <-; split; [intros _; exact O1|right; eauto]; fail)|];
    injection H as <- <-; pose proof (ld_only _ _ _ _ _ _ (LD d1 RI1 NL1) q1 ltac:(eauto)) as ->;
    (split; [apply (Fill d1); auto|split; [reflexivity|exists r, n; split; [exact Ld|split; [apply node_set_same; exact NE|split; [apply towards_set; auto|]]]]]).
  all: rewrite PQ in *; rewrite <- (towards_at r n d d1 X).
  all: try (right; eauto; fail).
  all: left; apply (vacant_none _ _ _ _ _ R1).
Qed.
Lemma wrote_plain c d w rel content d' ok : ordinary c w d -> plain rel -> is_text content = true ->
  write_source_file c d rel content = (d', ok) ->
  ordinary c w d' /\
  if ok then ends_with rel (L ".firm") = true /\ exists r n, leads c d w rel r n /\ node_at d' (names w rel) = Some (File content) /\ towards r (names w rel) d d' /\
    (node_at d (names w rel) = None \/ exists old, node_at d (names w rel) = Some (File old))
  else d' = d \/ exists r n, leads c d w rel r n /\ dirs_towards r d d'.
Proof. intros O P T H. destruct (wrote_where c d w rel content d' ok O P H) as [X Y]. split; [exact (X T)|exact Y]. Qed.
Definition stepped (w : place) (rel : str) (d d' : fs) : Prop :=
  d' = d \/ exists r n, names w rel = r ++ [n] /\ towards r (names w rel) d d'.
Lemma validated_plain c d w rel content d' o : ordinary c w d -> plain rel -> is_text content = true ->
  validate_and_write c d rel content = (d', o) ->
  ordinary c w d' /\ stepped w rel d d' /\
  match o with
  | None => node_at d' (names w rel) = node_at d (names w rel) /\ only_dirs_added d d'
  | Some original => ends_with rel (L ".firm") = true /\ node_at d' (names w rel) = Some (File content) /\
      node_at d (names w rel) = option_map File original /\ (forall t, original = Some t -> is_text t = true)
  end.
Proof.
  intros O P T H. pose proof O as (RI & NL & TD & TX). unfold validate_and_write in H.
  assert (Same : (d, None) = (d', o) -> ordinary c w d' /\ stepped w rel d d' /\
    match o with None => node_at d' (names w rel) = node_at d (names w rel) /\ only_dirs_added d d' | Some original => ends_with rel (L ".firm") = true /\ node_at d' (names w rel) = Some (File content) /\
      node_at d (names w rel) = option_map File original /\ (forall t, original = Some t -> is_text t = true) end).
  { intros [= <- <-]. split; [exact O|]. split; [left; reflexivity|]. split; [reflexivity|apply dirs_refl]. }
  destruct (c_parse c content) as [ps|]; [|auto]. destruct (ps_error ps); [auto|]. clear Same.
  destruct (write_source_file c d rel content) as [d1 ok] eqn:Wr. destruct (wrote_plain c d w rel content d1 ok O P T Wr) as (O1 & Q).
  destruct ok; injection H as <- <-; (split; [exact O1|]).
  - destruct Q as (EW & r & n & Ld & At1 & X & F). split; [right; exists r, n; split; [exact (ld_place _ _ _ _ _ _ Ld)|exact X]|]. split; [exact EW|]. split; [exact At1|].
    fold (named c rel). unfold read_text, stat. pose proof (ld_place _ _ _ _ _ _ Ld) as PQ. destruct F as [F|(old & F)].
    + assert (NA : forall q, resolve (c_links c) d (named c rel) <> At q).
      { intros q E. pose proof (ld_only _ _ _ _ _ _ Ld q (or_introl E)) as ->. destruct RI as (S & _). destruct (resolve_at _ _ _ _ S E) as [N _]. congruence. }
      destruct (resolve (c_links c) d (named c rel)) as [q| | |] eqn:R; try (rewrite F; split; [reflexivity|discriminate]). exfalso. exact (NA q eq_refl).
    + rewrite (ld_at _ _ _ _ _ _ Ld) by congruence. rewrite F.
      assert (I : inside w (names w rel)) by (eexists; reflexivity). rewrite (TX _ _ I F). split; [reflexivity|]. intros t [= <-]. exact (TX _ _ I F).
  - destruct Q as [-> | (r & n & Ld & X)]; [split; [left; reflexivity|]; split; [reflexivity|apply dirs_refl]|]. pose proof (ld_place _ _ _ _ _ _ Ld) as PQ.
    split; [right; exists r, n; split; [exact PQ|apply towards_weak; exact X]|]. split; [rewrite PQ; apply (towards_at r n d d1 X)|eapply towards_dirs; exact X].
Qed.
Lemma undo_write_plain c d w rel original s : ordinary c w d -> plain rel -> ends_with rel (L ".firm") = true ->
  node_at d (names w rel) = Some (File s) -> (forall t, original = Some t -> is_text t = true) ->
  exists d', rollback_write c d rel original = (d', true) /\ ordinary c w d' /\ stepped w rel d d' /\ node_at d' (names w rel) = option_map File original.
Proof.
  intros O P EW F T. pose proof O as (RI & NL & _). pose proof RI as (S & _). destruct (leads_plain c d w rel RI NL P EW) as (r & n & LD). pose proof (LD d RI NL) as Ld.
  pose proof (ld_place _ _ _ _ _ _ Ld) as PQ. pose proof (file_not_root _ _ _ F) as NE.
  assert (Dr : node_at d r = Some Dir) by (destruct (S r n) as [Dr _]; [rewrite <- PQ; congruence|exact Dr]).
  unfold rollback_write. fold (named c rel). destruct original as [t|].
  - unfold write. rewrite (ld_at _ _ _ _ _ _ Ld), F by congruence. exists (set_node d (names w rel) (File t)). split; [reflexivity|].
    split; [eapply ordinary_set; eauto|]. split; [|apply node_set_same; exact NE]. right. exists r, n. split; [exact PQ|]. apply towards_set; auto using towards_refl.
  - unfold remove_file. rewrite (ld_last _ _ _ _ _ _ Ld), (ld_dir _ _ _ _ _ _ Ld Dr), Dr, <- PQ, F. exists (unset_node d (names w rel)). split; [reflexivity|].
    split; [eapply ordinary_unset; eauto|]. split; [|rewrite node_unset, place_eqb_refl by exact NE; reflexivity]. right. exists r, n. split; [exact PQ|]. apply towards_unset. exact NE.
Qed.
Lemma deleted_plain c d w rel d' content : ordinary c w d -> plain rel -> delete_file c d rel = Some (d', content) ->
  ordinary c w d' /\ stepped w rel d d' /\ ends_with rel (L ".firm") = true /\ node_at d (names w rel) = Some (File content) /\ is_text content = true /\
  node_at d' (names w rel) = None /\ node_at d' (removelast (names w rel)) = Some Dir.
Proof.
  intros O P H. pose proof O as (RI & NL & _). pose proof RI as (S & _).
  assert (EW : ends_with rel (L ".firm") = true) by (unfold delete_file in H; destruct (ends_with rel (L ".firm")); [reflexivity|discriminate]).
  destruct (delete_effect c d w rel d' content RI H) as (q & p & n' & R & I & F & T & -> & _).
  destruct (leads_plain c d w rel RI NL P EW) as (r & n & LD). pose proof (LD d RI NL) as Ld. pose proof (ld_only _ _ _ _ _ _ Ld q (or_introl R)) as ->.
  pose proof (ld_place _ _ _ _ _ _ Ld) as PQ. pose proof (file_not_root _ _ _ F) as NE.
  assert (Dr : node_at d r = Some Dir) by (destruct (S r n) as [Dr _]; [rewrite <- PQ; congruence|exact Dr]).
  split; [eapply ordinary_unset; eauto|]. split; [right; exists r, n; split; [exact PQ|apply towards_unset; exact NE]|]. split; [exact EW|]. split; [exact F|]. split; [exact T|].
  split; [rewrite node_unset, place_eqb_refl by exact NE; reflexivity|].
  rewrite node_unset by exact NE. rewrite PQ, removelast_last. destruct (place_eqb (r ++ [n]) r) eqn:E; [|exact Dr]. apply place_eqb_eq in E. rewrite <- PQ in E. congruence.
Qed.
Lemma undo_delete_plain c d w rel content : ordinary c w d -> plain rel -> ends_with rel (L ".firm") = true -> is_text content = true ->
  node_at d (names w rel) = None -> node_at d (removelast (names w rel)) = Some Dir ->
  exists d', rollback_delete c d rel content = (d', true) /\ ordinary c w d' /\ stepped w rel d d' /\ node_at d' (names w rel) = Some (File content).
Proof.
  intros O P EW T F Dr. pose proof O as (RI & NL & TD & TX). pose proof RI as (S & SL & _). destruct (leads_plain c d w rel RI NL P EW) as (r & n & LD). pose proof (LD d RI NL) as Ld.
  pose proof (ld_place _ _ _ _ _ _ Ld) as PQ. rewrite PQ, removelast_last in Dr. assert (NE : names w rel <> []) by (rewrite PQ; destruct r; discriminate).
  unfold rollback_delete. fold (named c rel). destruct (ld_parent _ _ _ _ _ _ Ld) as (b & Pb & Db). rewrite Pb, (create_existing (length b) (c_links c) d b S (Db Dr)).
  unfold write. pose proof (ld_vacant _ _ _ _ _ _ Ld Dr F) as V. rewrite V. exists (set_node d (names w rel) (File content)). split; [reflexivity|].
  assert (SX : sound (set_node d (names w rel) (File content))) by (eapply sound_fill; [exact S| |exact V]; apply named_slashless; exact SL).
  split; [|split; [|apply node_set_same; exact NE]].
  - split; [apply runs_set; auto|]. split; [apply links_set; auto|]. split; [apply tidy_set; exact TD|apply text_set; auto].
  - right. exists r, n. split; [exact PQ|]. apply towards_set; auto using towards_refl.
Qed.

(** What a request may rely on at each of its steps, and the file it edits. *)
Definition sees (w : place) (k : task) (rel : str) (n0 : option node) (d : fs) (ph : phase) : Prop :=
  let n := node_at d (names w rel) in
  match ph with
  | Start k' => k' = k /\ n = n0
  | HasText rel' content _ => rel' = rel /\ is_text content = true /\ n = n0 /\ forall n', n' = Some (File content) -> edited k n0 n'
  | Wrote rel' _ original | UndoWrite rel' original =>
      rel' = rel /\ ends_with rel (L ".firm") = true /\ edited k n0 n /\ (exists s, n = Some (File s)) /\ n0 = option_map File original /\ forall t, original = Some t -> is_text t = true
  | Removed rel' _ content | UndoRemove rel' content =>
      rel' = rel /\ ends_with rel (L ".firm") = true /\ edited k n0 n /\ n = None /\ n0 = Some (File content) /\ is_text content = true /\ node_at d (removelast (names w rel)) = Some Dir
  | Added => False
  | Ended a => made_of k a n0 n
  end.
Lemma plain_of k rel : plain_edit k -> edits k rel -> plain rel.
Proof. destruct k as [[]|]; cbn [plain_edit edits]; intros P E; subst; tauto. Qed.
Lemma advance_sees c ae w d st k rel n0 ph d' st' ph' : ordinary c w d -> plain_edit k -> edits k rel -> sees w k rel n0 d ph ->
  advance c ae d st ph = (d', st', ph') -> ordinary c w d' /\ sees w k rel n0 d' ph' /\ stepped w rel d d'.
Proof.
  intros O PE Ed V H. pose proof (plain_of k rel PE Ed) as P. pose proof O as (RI & _).
  assert (Wr : forall content force, is_text content = true -> node_at d (names w rel) = n0 -> (forall n', n' = Some (File content) -> edited k n0 n') ->
    writing c d st rel content force = (d', st', ph') -> ordinary c w d' /\ sees w k rel n0 d' ph' /\ stepped w rel d d').
  { intros content force T Q Y W. unfold writing in W. destruct (validate_and_write c d rel content) as [d1 o] eqn:VW.
    destruct (validated_plain c d w rel content d1 o O P T VW) as (O1 & X & Z). destruct o as [original|]; injection W as <- <- <-.
    - destruct Z as (EW & F & F0 & TO). split; [exact O1|]. split; [|exact X]. cbn [sees]. repeat split; eauto. congruence.
    - destruct Z as [Z _]. split; [exact O1|]. split; [|exact X]. cbn [sees made_of]. congruence. }
  assert (Bu : forall failed, building c d st failed = (d', st', ph') -> sees w k rel n0 d failed -> edited k n0 (node_at d (names w rel)) ->
    ordinary c w d' /\ sees w k rel n0 d' ph' /\ stepped w rel d d').
  { intros failed B F Y. unfold building in B. destruct (rebuild c d); injection B as <- <- <-; (split; [exact O|]; split; [|left; reflexivity]); cbn [sees made_of]; auto. }
  destruct ph as [k'|rel' content force|rel' force original|rel' force content| |rel' original|rel' content|a]; cbn [sees] in V.
  - destruct V as [-> Q]. destruct k as [[rel' content force|rel' old new all force|rel' force|]|a]; cbn [edits] in Ed; try destruct Ed; cbn [advance plain_edit] in *.
    + apply (Wr content force); try tauto.
    + destruct PE as (_ & TO & TN). destruct (replace_in_file c d rel' old new all) as [| |content m] eqn:R; injection H as <- <- <-; (split; [exact O|]; split; [|left; reflexivity]); cbn [sees made_of]; auto.
      destruct (replaced_read c d rel' old new all content m R) as (NE & text & RD & RT). destruct (read_spec c d w rel' text RI RD) as (q & Rq & I & F & TT).
      assert (EQ : q = names w rel').
      { destruct RI as (S & SL & W & D). destruct O as (_ & NL & _). destruct P as (RR & NC). rewrite (named_relative c rel' RR) in Rq. unfold resolve in *.
        destruct (walk_then d (c_links c) [] (c_ws c) w S ltac:(discriminate) W) as (k' & K). rewrite (K d _ (extends_refl d)) in Rq.
        exact (walk_unique w d k' w _ q NL (inside_refl w) (no_climb rel' NC) Rq). }
      subst q. repeat split; [eapply (replaced_text text old new all content m); eauto|exact Q|]. intros n' ->. cbn [edited]. exists text, content, m. rewrite <- Q. auto.
    + destruct (delete_file c d rel') as [[d1 content]|] eqn:Df; injection H as <- <- <-.
      * destruct (deleted_plain c d w rel' d1 content O P Df) as (O1 & X & EW & F & T & N & Dr). split; [exact O1|]. split; [|exact X]. cbn [sees edited]. repeat split; auto. congruence.
      * split; [exact O|]. split; [|left; reflexivity]. cbn [sees made_of]. exact Q.
  - destruct V as (-> & T & Q & Y). cbn [advance] in H. apply (Wr content force); auto.
  - cbn [advance] in H. apply (Bu _ H); [|tauto]. destruct force; cbn [sees made_of]; tauto.
  - cbn [advance] in H. apply (Bu _ H); [|tauto]. destruct force; cbn [sees made_of]; tauto.
  - destruct V.
  - destruct V as (-> & EW & Y & (s & F) & N0 & T). cbn [advance] in H. destruct (undo_write_plain c d w rel original s O P EW F T) as (d1 & R & O1 & X & F1).
    rewrite R in H. injection H as <- <- <-. split; [exact O1|]. split; [|exact X]. cbn [sees made_of]. split; [reflexivity|congruence].
  - destruct V as (-> & EW & Y & F & N0 & T & Dr). cbn [advance] in H. destruct (undo_delete_plain c d w rel content O P EW T F Dr) as (d1 & R & O1 & X & F1).
    rewrite R in H. injection H as <- <- <-. split; [exact O1|]. split; [|exact X]. cbn [sees made_of]. split; [reflexivity|congruence].
  - cbn [advance] in H. injection H as <- <- <-. split; [exact O|]. split; [exact V|left; reflexivity].
Qed.
Lemma stepped_other w rel rel' d d' : stepped w rel' d d' -> ~ inside (names w rel) (names w rel') -> ~ inside (names w rel') (names w rel) ->
  node_at d' (names w rel) = node_at d (names w rel) /\ (node_at d (removelast (names w rel)) = Some Dir -> node_at d' (removelast (names w rel)) = Some Dir).
Proof.
  intros [-> | (r & n & PQ & X)] N1 N2; [auto|]. split.
  - destruct (X (names w rel)) as [E|(_ & _ & (x & I))]; [intros E; apply N1; rewrite E; apply inside_refl|exact E|].
    exfalso. apply N1. rewrite PQ, I, <- app_assoc. eexists. reflexivity.
  - intros D. destruct (X (removelast (names w rel))) as [E|(E & _)]; [|congruence|congruence].
    intros E. apply N2. rewrite <- E. destruct (names w rel) as [|a q] using rev_ind; [exists []; reflexivity|]. rewrite removelast_last. exists [a]. reflexivity.
Qed.
Lemma sees_other w k rel n0 rel' d d' ph : stepped w rel' d d' -> ~ inside (names w rel) (names w rel') -> ~ inside (names w rel') (names w rel) ->
  sees w k rel n0 d ph -> sees w k rel n0 d' ph.
Proof.
  intros X N1 N2. destruct (stepped_other w rel rel' d d' X N1 N2) as [E D]. unfold sees. rewrite E.
  destruct ph; auto; intros (A1 & A2 & A3 & A4 & A5 & A6 & A7); repeat split; auto.
Qed.

(** ** The system *)
Lemma put_length {A} (l : list A) i a : length (put l i a) = length l.
Proof. revert i. induction l as [|b l IH]; intros [|i]; cbn; auto. Qed.
Lemma put_same {A} (l : list A) i a : i < length l -> nth_error (put l i a) i = Some a.
Proof. revert i. induction l as [|b l IH]; intros [|i] H; cbn in *; try lia; [reflexivity|]. apply IH. lia. Qed.
Lemma put_other {A} (l : list A) i j a : i <> j -> nth_error (put l i a) j = nth_error l j.
Proof. revert i j. induction l as [|b l IH]; intros [|i] [|j] H; cbn; try congruence; auto. Qed.
Lemma put_nth {A} (l : list A) i j a b : nth_error (put l i a) j = Some b -> (j = i /\ b = a) \/ (j <> i /\ nth_error l j = Some b).
Proof.
  intros H. destruct (Nat.eq_dec i j) as [->|N]; [|right; rewrite put_other in H by exact N; split; [congruence|exact H]].
  left. assert (j < length l) by (rewrite <- (put_length l j a); apply nth_error_Some; congruence). rewrite put_same in H by assumption. split; congruence.
Qed.
Lemma runs_app c ae s s1 s2 : runs c ae s (s1 ++ s2) = runs c ae (runs c ae s s1) s2.
Proof. apply fold_left_app. Qed.
Lemma runs_snoc c ae s s1 i : runs c ae s (s1 ++ [i]) = turn c ae (runs c ae s s1) i.
Proof. rewrite runs_app. reflexivity. Qed.
Lemma turn_length c ae s i : length (sy_phases (turn c ae s i)) = length (sy_phases s).
Proof. unfold turn. destruct (nth_error (sy_phases s) i); [|reflexivity]. destruct (advance _ _ _ _ _) as [[? ?] ?]. cbn [sy_phases]. apply put_length. Qed.
Lemma runs_length c ae s sched : length (sy_phases (runs c ae s sched)) = length (sy_phases s).
Proof. revert s. induction sched as [|i sched IH]; intros s; [reflexivity|]. cbn [runs fold_left]. unfold runs in IH. rewrite IH. apply turn_length. Qed.
Lemma edits_some k : plain_edit k -> exists rel, edits k rel.
Proof. destruct k as [[]|]; cbn; intros []; eauto. Qed.
Lemma plain_write rel content force : plain_edit (Edit (Write rel content force)) -> plain rel.
Proof. intros []. assumption. Qed.
Lemma edits_fun k rel rel' : edits k rel -> edits k rel' -> rel = rel'.
Proof. destruct k as [[]|]; cbn; intros; try contradiction; congruence. Qed.
Lemma begun ks i ph d st : nth_error (sy_phases (begin d st ks)) i = Some ph -> exists k, nth_error ks i = Some k /\ ph = Start k.
Proof. cbn [begin sy_phases]. rewrite nth_error_map. destruct (nth_error ks i) as [k|]; cbn; [|discriminate]. intros [= <-]. eauto. Qed.
Lemma phase_task c ae d st ks sched i ph : nth_error (sy_phases (runs c ae (begin d st ks) sched)) i = Some ph -> exists k, nth_error ks i = Some k.
Proof.
  intros H. destruct (nth_error ks i) as [k|] eqn:E; [eauto|]. apply nth_error_None in E.
  assert (i < length (sy_phases (runs c ae (begin d st ks) sched))) by (apply nth_error_Some; congruence).
  rewrite runs_length in H0. cbn [begin sy_phases] in H0. rewrite map_length in H0. lia.
Qed.
(** One turn, taken apart. *)
Lemma turn_spec c ae s i s' : turn c ae s i = s' ->
  s' = s \/ exists ph ph', nth_error (sy_phases s) i = Some ph /\ advance c ae (sy_disk s) (sy_state s) ph = (sy_disk s', sy_state s', ph') /\ sy_phases s' = put (sy_phases s) i ph'.
Proof.
  unfold turn. destruct (nth_error (sy_phases s) i) as [ph|] eqn:E; [|auto]. destruct (advance _ _ _ _ _) as [[d st] ph'] eqn:A. intros <-. right. exists ph, ph'. auto.
Qed.
Lemma runs_sees c ae w d0 st ks sched : ordinary c w d0 -> Forall plain_edit ks -> different_files w ks ->
  let s := runs c ae (begin d0 st ks) sched in
  ordinary c w (sy_disk s) /\
  (forall i k rel ph, nth_error ks i = Some k -> edits k rel -> nth_error (sy_phases s) i = Some ph -> sees w k rel (node_at d0 (names w rel)) (sy_disk s) ph) /\
  (forall p, (forall k rel, In k ks -> edits k rel -> p <> names w rel) -> node_at (sy_disk s) p = node_at d0 p \/ (node_at d0 p = None /\ node_at (sy_disk s) p = Some Dir)).
Proof.
  intros O F DF. cbn zeta. induction sched as [|j sched IH] using rev_ind.
  - split; [exact O|]. split; [|auto]. intros i k rel ph I E H. apply begun in H as (k' & I' & ->). cbn [sees]. split; [congruence|reflexivity].
  - rewrite runs_snoc. set (s := runs c ae (begin d0 st ks) sched) in *. destruct IH as (O1 & V & Z).
    destruct (turn_spec c ae s j _ eq_refl) as [-> | (ph & ph' & N & A & PP)]; [auto|]. set (s' := turn c ae s j) in *. clearbody s'.
    destruct (phase_task c ae d0 st ks sched j ph N) as (k & Nk). rewrite Forall_forall in F. pose proof (F k (nth_error_In _ _ Nk)) as PE.
    destruct (edits_some k PE) as (rel & E). pose proof (V j k rel ph Nk E N) as Vj.
    destruct (advance_sees c ae w _ _ k rel _ ph _ _ ph' O1 PE E Vj A) as (O2 & V2 & X). split; [exact O2|]. split.
    + intros i k2 rel2 ph2 N2 E2 H. rewrite PP in H. apply put_nth in H as [[-> ->] | [NE H]].
      * assert (k2 = k) by congruence. subst k2. rewrite (edits_fun k rel2 rel E2 E) in *. exact V2.
      * eapply sees_other; [exact X| | |apply (V i k2 rel2 ph2); auto]; [apply (DF i j k2 k)|apply (DF j i k k2)]; auto.
    + intros p NP. pose proof (NP k rel (nth_error_In _ _ Nk) E) as NPk. destruct X as [-> | (r & n & PQ & X)]; [apply Z; exact NP|].
      destruct (Z p NP) as [E1|[E1 E1']], (X p NPk) as [E3|(E3 & E4 & _)]; rewrite ?E1, ?E1' in *; auto; right; split; congruence.
Qed.

(** ** One by one *)
Lemma alone_four c ae d st k : exists ph1 d1 st1 ph2 d2 st2 ph3 d3 st3,
  advance c ae d st (Start k) = (d1, st1, ph1) /\ advance c ae d1 st1 ph1 = (d2, st2, ph2) /\ advance c ae d2 st2 ph2 = (d3, st3, ph3) /\
  advance c ae d3 st3 ph3 = (let '(d', st', a) := alone c ae d st k in (d', st', Ended a)).
Proof.
  assert (Wr : forall rel content force, exists d1 st1 ph1 d2 st2 ph2, writing c d st rel content force = (d1, st1, ph1) /\ advance c ae d1 st1 ph1 = (d2, st2, ph2) /\
    advance c ae d2 st2 ph2 = (let '(d', st', a) := write_source c d st rel content force in (d', st', Ended a)) /\
    forall d3 st3 ph3, advance c ae d2 st2 ph2 = (d3, st3, ph3) -> advance c ae d3 st3 ph3 = (d3, st3, ph3)).
  { intros rel content force. unfold writing, write_source. destruct (validate_and_write c d rel content) as [d1 [original|]].
    - exists d1, st, (Wrote rel force original). unfold finish_write. cbn [advance]. unfold building. destruct (rebuild c d1) as [st'|e|] eqn:B.
      + exists d1, st', (Ended Accepted). repeat split. cbn [advance]. intros d3 st3 ph3 [= <- <- <-]. reflexivity.
      + destruct force.
        * exists d1, st, (Ended Forced). repeat split. cbn [advance]. intros d3 st3 ph3 [= <- <- <-]. reflexivity.
        * exists d1, st, (UndoWrite rel original). repeat split; cbn [advance]; destruct (rollback_write c d1 rel original); [reflexivity|]. intros d3 st3 ph3 [= <- <- <-]. reflexivity.
      + exists d1, st, (Ended Crashed). repeat split. cbn [advance]. intros d3 st3 ph3 [= <- <- <-]. reflexivity.
    - exists d1, st, (Ended Refused), d1, st, (Ended Refused). repeat split. cbn [advance]. intros d3 st3 ph3 [= <- <- <-]. reflexivity. }
  destruct k as [[rel content force|rel old new all force|rel force|]|a]; cbn [alone handle].
  - destruct (Wr rel content force) as (d1 & st1 & ph1 & d2 & st2 & ph2 & A & B & C & D). destruct (advance c ae d2 st2 ph2) as [[d3 st3] ph3] eqn:E.
    exists ph1, d1, st1, ph2, d2, st2, ph3, d3, st3. cbn [advance]. rewrite A, B, E. repeat split. rewrite (D d3 st3 ph3 eq_refl). exact C.
  - unfold replace_source. destruct (replace_in_file c d rel old new all) as [| |content m] eqn:R.
    + exists (Ended Refused), d, st, (Ended Refused), d, st, (Ended Refused), d, st. cbn [advance]. rewrite R. auto.
    + exists (Ended Crashed), d, st, (Ended Crashed), d, st, (Ended Crashed), d, st. cbn [advance]. rewrite R. auto.
    + destruct (Wr rel content force) as (d1 & st1 & ph1 & d2 & st2 & ph2 & A & B & C & D).
      exists (HasText rel content force), d, st, ph1, d1, st1, ph2, d2, st2. cbn [advance]. rewrite R, A, B. repeat split. exact C.
  - unfold delete_source. cbn [advance]. destruct (delete_file c d rel) as [[d1 content]|].
    + exists (Removed rel force content), d1, st. cbn [advance]. unfold building. destruct (rebuild c d1) as [st'|e|] eqn:B.
      * exists (Ended Accepted), d1, st', (Ended Accepted), d1, st'. auto.
      * destruct force; [exists (Ended Forced), d1, st, (Ended Forced), d1, st; auto|].
        exists (UndoRemove rel content), d1, st. cbn [advance]. destruct (rollback_delete c d1 rel content) as [d2 ok]. exists (Ended (Invalid ok)), d2, st. auto.
      * exists (Ended Crashed), d1, st, (Ended Crashed), d1, st. auto.
    + exists (Ended Refused), d, st, (Ended Refused), d, st, (Ended Refused), d, st. auto.
  - unfold build_tool. cbn [advance]. unfold building. destruct (rebuild c d) as [st'|e|].
    + exists (Ended Accepted), d, st', (Ended Accepted), d, st', (Ended Accepted), d, st'. auto.
    + exists (Ended Refused), d, st, (Ended Refused), d, st, (Ended Refused), d, st. auto.
    + exists (Ended Crashed), d, st, (Ended Crashed), d, st, (Ended Crashed), d, st. auto.
  - unfold add_tool. cbn [advance]. destruct (entity_to_add c ae st a) as [e|].
    + destruct (append_block c d (target_of c a) (generate_dsl (c_env c) default_options [e])) as [d1 []].
      * exists Added, d1, st. cbn [advance]. unfold building. destruct (rebuild c d1) as [st'|e'|].
        -- exists (Ended Accepted), d1, st', (Ended Accepted), d1, st'. auto.
        -- exists (Ended Forced), d1, st, (Ended Forced), d1, st. auto.
        -- exists (Ended Crashed), d1, st, (Ended Crashed), d1, st. auto.
      * exists (Ended Refused), d1, st, (Ended Refused), d1, st, (Ended Refused), d1, st. auto.
    + exists (Ended Refused), d, st, (Ended Refused), d, st, (Ended Refused), d, st. auto.
Qed.
Lemma put_at {A} (l1 : list A) x l2 a : put (l1 ++ x :: l2) (length l1) a = l1 ++ a :: l2.
Proof. induction l1 as [|b l1 IH]; cbn; [reflexivity|]. rewrite IH. reflexivity. Qed.
Lemma nth_at {A} (l1 : list A) x l2 : nth_error (l1 ++ x :: l2) (length l1) = Some x.
Proof. induction l1; cbn; auto. Qed.
Lemma serial c ae ks : forall d st before d' st' l, in_turn c ae d st ks = (d', st', l) ->
  runs c ae {| sy_disk := d; sy_state := st; sy_phases := map Ended before ++ map Start ks |} (flat_map (fun i => repeat i 4) (seq (length before) (length ks))) =
  {| sy_disk := d'; sy_state := st'; sy_phases := map Ended (before ++ l) |}.
Proof.
  induction ks as [|k ks IH]; intros d st before d' st' l H; cbn [in_turn] in H.
  - injection H as <- <- <-. cbn. rewrite !app_nil_r. reflexivity.
  - destruct (alone c ae d st k) as [[d1 st1] a] eqn:A. destruct (in_turn c ae d1 st1 ks) as [[d2 st2] l2] eqn:T. injection H as <- <- <-.
    cbn [length seq flat_map]. rewrite runs_app. destruct (alone_four c ae d st k) as (ph1 & e1 & s1 & ph2 & e2 & s2 & ph3 & e3 & s3 & A1 & A2 & A3 & A4).
    rewrite A in A4. specialize (IH d1 st1 (before ++ [a]) d2 st2 l2 T). rewrite app_length in IH. cbn [length] in IH. rewrite Nat.add_1_r, <- app_assoc in IH. cbn [app] in IH.
    rewrite <- IH. f_equal. rewrite map_app, <- app_assoc. cbn [map app]. cbn [repeat runs fold_left]. unfold runs. cbn [fold_left].
    rewrite <- (map_length Ended before). unfold turn. cbn [sy_phases sy_disk sy_state].
    rewrite nth_at, A1. cbn [sy_phases sy_disk sy_state]. rewrite put_at, nth_at, A2. cbn [sy_phases sy_disk sy_state]. rewrite put_at, nth_at, A3.
    cbn [sy_phases sy_disk sy_state]. rewrite put_at, nth_at, A4, put_at. reflexivity.
Qed.

(** ** Every request ends *)
Definition left_over (ph : phase) : nat :=
  match ph with Start _ => 4 | HasText _ _ _ => 3 | Wrote _ _ _ | Removed _ _ _ | Added => 2 | UndoWrite _ _ | UndoRemove _ _ => 1 | Ended _ => 0 end.
Lemma advance_left c ae d st ph d' st' ph' : advance c ae d st ph = (d', st', ph') -> left_over ph' <= left_over ph - 1.
Proof.
  assert (Wr : forall rel content force d' st' ph', writing c d st rel content force = (d', st', ph') -> left_over ph' <= 2).
  { intros rel content force e s p. unfold writing. destruct (validate_and_write c d rel content) as [d1 [o|]]; intros [= <- <- <-]; cbn; lia. }
  assert (Bu : forall f m d' st' ph', building c d st f = (d', st', ph') -> left_over f <= m -> left_over ph' <= m).
  { intros f m e s p. unfold building. destruct (rebuild c d); intros [= <- <- <-]; cbn; lia. }
  destruct ph as [[[rel content force|rel old new all force|rel force|]|a]|rel content force|rel force original|rel force content| |rel original|rel content|a]; cbn [advance].
  - intros H. apply Wr in H. cbn. lia.
  - destruct (replace_in_file c d rel old new all); intros [= <- <- <-]; cbn; lia.
  - destruct (delete_file c d rel) as [[d1 content]|]; intros [= <- <- <-]; cbn; lia.
  - intros H. apply (Bu _ 3) in H; cbn in *; lia.
  - destruct (entity_to_add c ae st a); [|intros [= <- <- <-]; cbn; lia]. destruct (append_block c d (target_of c a) _) as [d1 []]; intros [= <- <- <-]; cbn; lia.
  - intros H. apply Wr in H. cbn. lia.
  - intros H. apply (Bu _ 1) in H; destruct force; cbn in *; lia.
  - intros H. apply (Bu _ 1) in H; destruct force; cbn in *; lia.
  - intros H. apply (Bu _ 1) in H; cbn in *; lia.
  - destruct (rollback_write c d rel original). intros [= <- <- <-]. cbn. lia.
  - destruct (rollback_delete c d rel content). intros [= <- <- <-]. cbn. lia.
  - intros [= <- <- <-]. cbn. lia.
Qed.
Lemma runs_left c ae s sched i ph : nth_error (sy_phases (runs c ae s sched)) i = Some ph ->
  exists ph0, nth_error (sy_phases s) i = Some ph0 /\ left_over ph <= left_over ph0 - count_occ Nat.eq_dec sched i.
Proof.
  revert s. induction sched as [|j sched IH]; intros s H.
  - exists ph. split; [exact H|]. cbn. lia.
  - cbn [runs fold_left] in H. unfold runs in IH. destruct (IH _ H) as (ph1 & N1 & L1). destruct (turn_spec c ae s j _ eq_refl) as [E|(p & p' & N & A & PP)].
    + unfold turn in N1. destruct (nth_error (sy_phases s) j) as [p|] eqn:N.
      * destruct (advance c ae (sy_disk s) (sy_state s) p) as [[d1 st1] p'] eqn:A. cbn [sy_phases] in N1. apply advance_left in A. apply put_nth in N1 as [[-> ->] | [NE N1]].
        -- exists p. split; [exact N|]. rewrite count_occ_cons_eq by reflexivity. lia.
        -- exists ph1. split; [exact N1|]. rewrite count_occ_cons_neq by congruence. exact L1.
      * exists ph1. split; [exact N1|]. rewrite count_occ_cons_neq; [exact L1|]. intros ->. congruence.
    + rewrite PP in N1. apply advance_left in A. apply put_nth in N1 as [[-> ->] | [NE N1]].
      * exists p. split; [exact N|]. rewrite count_occ_cons_eq by reflexivity. lia.
      * exists ph1. split; [exact N1|]. rewrite count_occ_cons_neq by congruence. exact L1.
Qed.
Lemma all_end c ae d st ks sched : (forall i, i < length ks -> 4 <= count_occ Nat.eq_dec sched i) ->
  exists l, length l = length ks /\ answered (runs c ae (begin d st ks) sched) l.
Proof.
  intros C. set (s := runs c ae (begin d st ks) sched).
  assert (LN : length (sy_phases s) = length ks) by (unfold s; rewrite runs_length; cbn; apply map_length).
  assert (E : forall ph, In ph (sy_phases s) -> exists a, ph = Ended a).
  { intros ph I. apply In_nth_error in I as (i & N). assert (Li : i < length ks) by (rewrite <- LN; apply nth_error_Some; congruence).
    destruct (runs_left c ae _ sched i ph N) as (ph0 & N0 & LO). apply begun in N0 as (k & _ & ->). cbn [left_over] in LO. specialize (C i Li).
    destruct ph; cbn [left_over] in LO; try lia. eauto. }
  unfold answered. rewrite <- LN. clear -E. induction (sy_phases s) as [|ph l IH]; [exists []; auto|].
  destruct (E ph (or_introl eq_refl)) as (a & ->). destruct IH as (l' & LL & ->); [intros; apply E; right; assumption|]. exists (a :: l'). cbn [length map] in *. rewrite map_length. auto.
Qed.

(** ** What is served *)
Lemma advance_state c ae d st ph d' st' ph' : advance c ae d st ph = (d', st', ph') -> st' = st \/ rebuild c d' = Ok st'.
Proof.
  assert (Bu : forall f, building c d st f = (d', st', ph') -> st' = st \/ rebuild c d' = Ok st').
  { intros f. unfold building. destruct (rebuild c d) eqn:B; intros [= <- <- <-]; auto. }
  assert (Wr : forall rel content force, writing c d st rel content force = (d', st', ph') -> st' = st \/ rebuild c d' = Ok st').
  { intros rel content force. unfold writing. destruct (validate_and_write c d rel content) as [d1 [o|]]; intros [= <- <- <-]; auto. }
  destruct ph as [[[rel content force|rel old new all force|rel force|]|a]|rel content force|rel force original|rel force content| |rel original|rel content|a]; cbn [advance]; eauto.
  - destruct (replace_in_file c d rel old new all); intros [= <- <- <-]; auto.
  - destruct (delete_file c d rel) as [[d1 content]|]; intros [= <- <- <-]; auto.
  - destruct (entity_to_add c ae st a); [|intros [= <- <- <-]; auto]. destruct (append_block c d (target_of c a) _) as [d1 []]; intros [= <- <- <-]; auto.
  - destruct (rollback_write c d rel original). intros [= <- <- <-]. auto.
  - destruct (rollback_delete c d rel content). intros [= <- <- <-]. auto.
  - intros [= <- <- <-]. auto.
Qed.
Lemma state_was_built c ae s sched : let s' := runs c ae s sched in
  sy_state s' = sy_state s \/ exists before after, sched = before ++ after /\ rebuild c (sy_disk (runs c ae s before)) = Ok (sy_state s').
Proof.
  cbn zeta. induction sched as [|i sched IH] using rev_ind; [left; reflexivity|]. rewrite runs_snoc.
  destruct (turn_spec c ae (runs c ae s sched) i _ eq_refl) as [E|(ph & ph' & N & A & PP)].
  - rewrite E. destruct IH as [IH|(b & a & E' & R)]; [left; exact IH|]. right. exists b, (a ++ [i]). rewrite app_assoc, <- E'. auto.
  - apply advance_state in A as [A|A].
    + rewrite A. destruct IH as [IH|(b & a & E' & R)]; [left; exact IH|]. right. exists b, (a ++ [i]). rewrite app_assoc, <- E'. auto.
    + right. exists (sched ++ [i]), []. rewrite app_nil_r, runs_snoc. auto.
Qed.
Lemma runs_unset c w d q old : runs_in c d w -> no_links_in w d -> node_at d q = Some (File old) -> runs_in c (unset_node d q) w /\ no_links_in w (unset_node d q).
Proof.
  intros A B F. pose proof (file_not_root d q old F) as NE. pose proof A as (S & SL & W & Dw).
  assert (U : forall p, node_at (unset_node d q) p = if place_eqb q p then None else node_at d p) by (intros p; apply node_unset; exact NE).
  assert (NQ : place_eqb q w = false) by (apply place_eqb_neq; congruence).
  split.
  - split; [apply sound_unset; auto; congruence|]. split; [exact SL|]. split; [|rewrite U, NQ; exact Dw].
    unfold resolve in *. rewrite (walk_removed d q old (c_links c) [] (c_ws c) w S NE F ltac:(discriminate) ltac:(congruence) W).
    destruct (place_eqb w q) eqn:Q; [apply place_eqb_eq in Q; congruence|reflexivity].
  - intros p t I. rewrite U. destruct (place_eqb q p); [discriminate|]. apply B. exact I.
Qed.
(** A build failed, or one is still to come. *)
Definition bad (ph : phase) : Prop :=
  match ph with UndoWrite _ _ | UndoRemove _ _ | Ended Forced | Ended (Invalid _) | Ended Crashed => True | _ => False end.
Definition pending (ph : phase) : Prop := match ph with Wrote _ _ _ | Removed _ _ _ | Added => True | _ => False end.
Definition plain_phase (ph : phase) : Prop :=
  match ph with Start k => plain_task k | HasText rel _ _ => plain rel | _ => True end.
Lemma bad_stays c ae d st ph d' st' ph' : bad ph -> advance c ae d st ph = (d', st', ph') -> bad ph'.
Proof.
  destruct ph as [| | | | |rel original|rel content|a]; cbn [bad]; try contradiction; intros B; cbn [advance].
  - destruct (rollback_write c d rel original). intros [= _ _ <-]. exact I.
  - destruct (rollback_delete c d rel content). intros [= _ _ <-]. exact I.
  - intros [= _ _ <-]. exact B.
Qed.
Lemma plain_stays c ae d st ph d' st' ph' : plain_phase ph -> advance c ae d st ph = (d', st', ph') -> plain_phase ph'.
Proof.
  assert (Bu : forall f, plain_phase f -> building c d st f = (d', st', ph') -> plain_phase ph').
  { intros f P. unfold building. destruct (rebuild c d) eqn:B; intros [= _ _ <-]; cbn; auto. }
  assert (Wr : forall rel content force, writing c d st rel content force = (d', st', ph') -> plain_phase ph').
  { intros rel content force. unfold writing. destruct (validate_and_write c d rel content) as [d1 [o|]]; intros [= _ _ <-]; exact I. }
  intros P. destruct ph as [[[rel content force|rel old new all force|rel force|]|a]|rel content force|rel force original|rel force content| |rel original|rel content|a]; cbn [advance]; eauto.
  - destruct (replace_in_file c d rel old new all); intros [= _ _ <-]; cbn in *; auto.
  - destruct (delete_file c d rel) as [[d1 content]|]; intros [= _ _ <-]; exact I.
  - intros H. apply (Bu (Ended Refused)); cbn; auto.
  - destruct (entity_to_add c ae st a); [|intros [= _ _ <-]; exact I]. destruct (append_block c d (target_of c a) _) as [d1 []]; intros [= _ _ <-]; exact I.
  - intros H. eapply Bu; [|exact H]. destruct force; exact I.
  - intros H. eapply Bu; [|exact H]. destruct force; exact I.
  - intros H. apply (Bu (Ended Forced)); cbn; auto.
  - destruct (rollback_write c d rel original). intros [= _ _ <-]. exact I.
  - destruct (rollback_delete c d rel content). intros [= _ _ <-]. exact I.
  - intros [= _ _ <-]. exact I.
Qed.
Ltac same_disk := right; split; [assumption|split; [assumption|right; right; split; [reflexivity|split; [apply dirs_refl|solve [assumption | cbn; tauto]]]]].
Lemma good_step c ae w d st ph d' st' ph' : runs_in c d w -> no_links_in w d -> plain_phase ph -> ~ bad ph -> advance c ae d st ph = (d', st', ph') ->
  bad ph' \/ (runs_in c d' w /\ no_links_in w d' /\ (pending ph' \/ rebuild c d' = Ok st' \/ (st' = st /\ only_dirs_added d d' /\ ~ pending ph))).
Proof.
  intros RI NL P NB. pose proof RI as (S & SL & _).
  assert (Bu : forall f, (bad f \/ (f = Ended Refused /\ ~ pending ph)) -> building c d st f = (d', st', ph') ->
    bad ph' \/ (runs_in c d' w /\ no_links_in w d' /\ (pending ph' \/ rebuild c d' = Ok st' \/ (st' = st /\ only_dirs_added d d' /\ ~ pending ph)))).
  { intros f F. unfold building. destruct (rebuild c d) eqn:B; intros [= <- <- <-]; [right; auto| |left; exact I].
    destruct F as [F|[-> NP]]; [left; exact F|]. same_disk. }
  assert (Wr : forall rel content force, plain rel -> ~ pending ph -> writing c d st rel content force = (d', st', ph') ->
    bad ph' \/ (runs_in c d' w /\ no_links_in w d' /\ (pending ph' \/ rebuild c d' = Ok st' \/ (st' = st /\ only_dirs_added d d' /\ ~ pending ph)))).
  { intros rel content force (RR & NC) NP. unfold writing, validate_and_write. destruct (c_parse c content) as [ps|]; [|intros [= <- <- <-]; same_disk].
    destruct (ps_error ps); [intros [= <- <- <-]; same_disk|].
    destruct (write_source_file c d rel content) as [d1 ok] eqn:W. destruct (write_file_confined c d w rel content d1 ok RI NL RR NC W) as (_ & RI1 & NL1).
    destruct (write_file_spec c d w rel content d1 ok RI W) as [(-> & X & _)|(-> & _)]; cbv beta iota zeta; intros [= <- <- <-]; right; cbn [pending]; auto 7. }
  destruct ph as [[[rel content force|rel old new all force|rel force|]|a]|rel content force|rel force original|rel force content| |rel original|rel content|a]; cbn [advance plain_phase plain_task bad] in *;
    try (apply Wr; auto; fail); try contradiction.
  - destruct (replace_in_file c d rel old new all); intros [= <- <- <-]; same_disk.
  - destruct (delete_file c d rel) as [[d1 content]|] eqn:Df; intros [= <- <- <-]; [|same_disk].
    destruct (delete_effect c d w rel d1 content RI Df) as (q & _ & _ & _ & _ & F & _ & -> & _). destruct (runs_unset c w d q content RI NL F) as [A B]. right. cbn. auto.
  - apply Bu. right. auto.
  - assert (TS : slashless (target_of c a)) by (apply target_slashless; exact SL). destruct (entity_to_add c ae st a) as [e|]; [|intros [= <- <- <-]; same_disk].
    destruct (append_block c d (target_of c a) _) as [d1 ok] eqn:AB. destruct ok; intros [= <- <- <-].
    + destruct (append_served c d w _ _ d1 RI TS AB) as (A & B & _). right. cbn. auto.
    + destruct (append_spec c d _ _ d1 false S TS AB) as [X SX]. right. split; [eapply runs_dirs; eauto|]. split; [eapply links_dirs; eauto|]. right. right. auto.
  - apply Bu. left. destruct force; exact I.
  - apply Bu. left. destruct force; exact I.
  - apply Bu. left. exact I.
  - intros [= <- <- <-]. same_disk.
Qed.
Lemma classic_bad ph : bad ph \/ ~ bad ph.
Proof. destruct ph as [| | | | | | |[]]; cbn; auto. Qed.
Lemma good_runs c ae w d st ks sched : runs_in c d w -> no_links_in w d -> Forall plain_task ks -> rebuild c d = Ok st ->
  let s := runs c ae (begin d st ks) sched in
  (forall ph, In ph (sy_phases s) -> plain_phase ph) /\
  ((exists ph, In ph (sy_phases s) /\ bad ph) \/
   (runs_in c (sy_disk s) w /\ no_links_in w (sy_disk s) /\
    ((exists ph, In ph (sy_phases s) /\ pending ph) \/ exists before after, sched = before ++ after /\ let d1 := sy_disk (runs c ae (begin d st ks) before) in rebuild c d1 = Ok (sy_state s) /\ only_dirs_added d1 (sy_disk s)))).
Proof.
  intros RI NL F B. cbn zeta. induction sched as [|j sched IH] using rev_ind.
  - cbn [runs fold_left begin sy_phases sy_disk sy_state]. split; [|right; split; [exact RI|]; split; [exact NL|]; right; exists [], []; split; [reflexivity|split; [exact B|apply dirs_refl]]].
    intros ph I. apply in_map_iff in I as (k & <- & I). rewrite Forall_forall in F. exact (F k I).
  - rewrite runs_snoc. pose proof (runs_snoc c ae (begin d st ks) sched j) as RS. set (s := runs c ae (begin d st ks) sched) in *. destruct IH as (PP & Z). destruct (turn_spec c ae s j _ eq_refl) as [-> | (ph & ph' & N & A & Q)].
    { split; [exact PP|]. destruct Z as [Z|(R1 & N1 & [Z|(b1 & a1 & Es & Z)])]; [left; exact Z|right; auto|]. right. split; [exact R1|]. split; [exact N1|]. right.
      exists b1, (a1 ++ [j]). split; [rewrite Es; symmetry; apply app_assoc|exact Z]. }
    set (s' := turn c ae s j) in *. clearbody s'. pose proof (nth_error_In _ _ N) as Ij. rewrite Q.
    assert (Lj : j < length (sy_phases s)) by (apply nth_error_Some; congruence).
    assert (I' : In ph' (put (sy_phases s) j ph')) by (eapply nth_error_In; apply put_same; exact Lj).
    assert (Keep : forall x (T : phase -> Prop), In x (sy_phases s) -> T x -> (T ph -> T ph') -> exists y, In y (put (sy_phases s) j ph') /\ T y).
    { intros x T I Tx K. apply In_nth_error in I as (i & Ni). destruct (Nat.eq_dec i j) as [->|NE]; [exists ph'; split; [exact I'|apply K; congruence]|].
      exists x. split; [|exact Tx]. apply (nth_error_In _ i). rewrite put_other by congruence. exact Ni. }
    split.
    + intros x I. apply In_nth_error in I as (i & Ni). apply put_nth in Ni as [[_ ->] | [_ Ni]]; [eapply plain_stays; [apply PP; exact Ij|exact A]|]. apply PP. eapply nth_error_In. exact Ni.
    + destruct Z as [(x & Ix & Bx)|(R1 & N1 & Z)].
      * left. apply (Keep x bad Ix Bx). intros Bp. eapply bad_stays; eauto.
      * destruct (classic_bad ph) as [Bp|NB]; [left; exists ph'; split; [exact I'|eapply bad_stays; eauto]|].
        destruct (good_step c ae w _ _ ph _ _ ph' R1 N1 (PP ph Ij) NB A) as [Bp|(R2 & N2 & G)]; [left; eauto|]. right. split; [exact R2|]. split; [exact N2|].
        destruct G as [G|[G|(E & X & NP)]]; [left; eauto|right; exists (sched ++ [j]), []; split; [symmetry; apply app_nil_r|rewrite RS; split; [exact G|apply dirs_refl]]|].
        destruct Z as [(x & Ix & Px)|(b1 & a1 & Es & R & X1)]; [left; apply (Keep x pending Ix Px); tauto|]. right. exists b1, (a1 ++ [j]). split; [rewrite Es; symmetry; apply app_assoc|]. rewrite E. split; [exact R|]. eapply dirs_trans; eauto.
Qed.

Lemma smooth_good s l : answered s l -> smooth l -> forall ph, In ph (sy_phases s) -> ~ bad ph /\ ~ pending ph.
Proof. intros E SM ph I. rewrite E in I. apply in_map_iff in I as (a & <- & I). destruct (SM a I) as [-> | ->]; cbn; auto. Qed.

(** ** The last write *)
Lemma put_in_nth {A} (l : list A) i a : i < length l -> In a (put l i a).
Proof. intros H. eapply nth_error_In. apply put_same. exact H. Qed.
(** Which request a phase belongs to; [held] are texts the file held before. *)
Definition did (k : task) (rel : str) (held : str -> Prop) (ph : phase) : Prop :=
  match ph with
  | Start k' => k' = k
  | HasText rel' content _ => rel' = rel /\ is_text content = true /\ forall n, n = Some (File content) -> result held k n
  | Added => False
  | _ => True
  end.
Definition waits (ph : phase) : Prop := match ph with Start _ | HasText _ _ _ => True | _ => False end.
Lemma did_step c ae w k rel (held : str -> Prop) d st ph d' st' ph' : ordinary c w d -> plain_edit k -> edits k rel -> did k rel held ph -> ~ bad ph ->
  (forall text, node_at d (names w rel) = Some (File text) -> held text) ->
  advance c ae d st ph = (d', st', ph') ->
  ordinary c w d' /\ did k rel held ph' /\
  ((waits ph /\ pending ph' /\ stepped w rel d d' /\ result held k (node_at d' (names w rel))) \/
   (only_dirs_added d d' /\ (waits ph -> waits ph' \/ ph' = Ended Refused \/ bad ph') /\ (pending ph -> ph' = Ended Accepted \/ bad ph') /\ forall a, ph = Ended a -> ph' = ph)).
Proof.
  intros O PE Ed Di NB He H. pose proof (plain_of k rel PE Ed) as P. pose proof O as (RI & NL & _).
  assert (Same : forall ph', (waits ph -> waits ph' \/ ph' = Ended Refused \/ bad ph') -> (pending ph -> ph' = Ended Accepted \/ bad ph') -> (forall a, ph = Ended a -> ph' = ph) ->
    (waits ph /\ pending ph' /\ stepped w rel d d /\ result held k (node_at d (names w rel))) \/
    (only_dirs_added d d /\ (waits ph -> waits ph' \/ ph' = Ended Refused \/ bad ph') /\ (pending ph -> ph' = Ended Accepted \/ bad ph') /\ forall a, ph = Ended a -> ph' = ph)).
  { intros x A B C. right. split; [apply dirs_refl|]. auto. }
  assert (Wr : forall content force, waits ph -> is_text content = true -> (forall n, n = Some (File content) -> result held k n) ->
    writing c d st rel content force = (d', st', ph') -> ordinary c w d' /\ did k rel held ph' /\
    ((waits ph /\ pending ph' /\ stepped w rel d d' /\ result held k (node_at d' (names w rel))) \/
     (only_dirs_added d d' /\ (waits ph -> waits ph' \/ ph' = Ended Refused \/ bad ph') /\ (pending ph -> ph' = Ended Accepted \/ bad ph') /\ forall a, ph = Ended a -> ph' = ph))).
  { intros content force Wa T Y W. unfold writing in W. destruct (validate_and_write c d rel content) as [d1 o] eqn:VW.
    destruct (validated_plain c d w rel content d1 o O P T VW) as (O1 & X & Z). destruct o as [original|]; injection W as <- <- <-; (split; [exact O1|]; split; [exact I|]).
    - destruct Z as (_ & F & _). left. repeat split; auto.
    - right. split; [apply Z|]. split; [auto|]. split; [destruct ph; cbn in *; tauto|]. intros a ->. destruct Wa. }
  assert (Bu : forall failed, pending ph -> bad failed -> building c d st failed = (d', st', ph') -> ordinary c w d' /\ did k rel held ph' /\
    ((waits ph /\ pending ph' /\ stepped w rel d d' /\ result held k (node_at d' (names w rel))) \/
     (only_dirs_added d d' /\ (waits ph -> waits ph' \/ ph' = Ended Refused \/ bad ph') /\ (pending ph -> ph' = Ended Accepted \/ bad ph') /\ forall a, ph = Ended a -> ph' = ph))).
  { intros failed Pe Bf B. unfold building in B. assert (NW : ~ waits ph) by (destruct ph; cbn in *; tauto). assert (NE : forall a, ph <> Ended a) by (destruct ph; cbn in *; try tauto; discriminate).
    destruct (rebuild c d); injection B as <- <- <-; (split; [exact O|]; split; [destruct failed; cbn in *; try exact I; destruct Bf|]); 
      (apply Same; [tauto|intros _; first [left; reflexivity|right; exact Bf|right; exact I]|intros x E; destruct (NE x E)]). }
  destruct ph as [k'|rel' content force|rel' force original|rel' force content| |rel' original|rel' content|a]; cbn [did] in Di; cbn [bad] in NB; try contradiction.
  - subst k'. destruct k as [[rel' content force|rel' old new all force|rel' force|]|a]; cbn [edits] in Ed; try destruct Ed; cbn [advance plain_edit] in *.
    + apply (Wr content force); try exact I; try tauto; try (cbn [result]; auto; fail).
    + destruct PE as (_ & TO & TN). destruct (replace_in_file c d rel' old new all) as [| |content m] eqn:R; injection H as <- <- <-; (split; [exact O|]); cbn [did].
      1,2: split; [exact I|]; apply Same; cbn; auto; discriminate.
      destruct (replaced_read c d rel' old new all content m R) as (NE & text & RD & RT). destruct (read_spec c d w rel' text RI RD) as (q & Rq & Iq & F & TT).
      assert (EQ : q = names w rel').
      { destruct RI as (S & SL & W & D). destruct P as (RR & NC). rewrite (named_relative c rel' RR) in Rq. unfold resolve in *.
        destruct (walk_then d (c_links c) [] (c_ws c) w S ltac:(discriminate) W) as (k' & K). rewrite (K d _ (extends_refl d)) in Rq.
        exact (walk_unique w d k' w _ q NL (inside_refl w) (no_climb rel' NC) Rq). }
      subst q. split; [|apply Same; cbn; auto; discriminate]. split; [reflexivity|]. split; [eapply (replaced_text text old new all content m); eauto|].
      intros n ->. cbn [result]. exists text, content, m. auto.
    + destruct (delete_file c d rel') as [[d1 content]|] eqn:Df; injection H as <- <- <-.
      * destruct (deleted_plain c d w rel' d1 content O P Df) as (O1 & X & EW & F & T & N & Dr). split; [exact O1|]. split; [exact I|]. left. cbn [waits pending result]. rewrite N. repeat split; auto. discriminate.
      * split; [exact O|]. split; [exact I|]. apply Same; cbn; auto; discriminate.
  - destruct Di as (-> & T & Y). cbn [advance] in H. apply (Wr content force); auto. exact I.
  - cbn [advance] in H. apply (Bu _ I) in H; [exact H|]. destruct force; exact I.
  - cbn [advance] in H. apply (Bu _ I) in H; [exact H|]. destruct force; exact I.
  - cbn [advance] in H. injection H as <- <- <-. split; [exact O|]. split; [exact I|]. apply Same; cbn; auto; contradiction.
Qed.
Lemma result_more (h h' : str -> Prop) k n : (forall t, h t -> h' t) -> result h k n -> result h' k n.
Proof. intros M. destruct k as [[]|]; cbn; auto. intros (t & x & m & A & B). exists t, x, m. auto. Qed.
Lemma did_more (h h' : str -> Prop) k rel ph : (forall t, h t -> h' t) -> did k rel h ph -> did k rel h' ph.
Proof. intros M. destruct ph; cbn; auto. intros (A & B & C). split; [exact A|]. split; [exact B|]. intros n E. eapply result_more; eauto. Qed.
Lemma result_dirs h k n n' : plain_edit k -> result h k n -> n' = n \/ (n = None /\ n' = Some Dir) -> result h k n'.
Proof.
  intros PE R [-> | [-> ->]]; [exact R|]. destruct k as [[]|]; cbn in *; auto; try discriminate. destruct R as (t & x & m & _ & _ & R). discriminate.
Qed.
Lemma waiting_phase s i ph : nth_error (sy_phases s) i = Some ph -> (waiting s i <-> waits ph).
Proof. intros N. unfold waiting, waits. split; [intros (ph' & N' & W); rewrite N in N'; injection N' as <-; exact W|eauto]. Qed.
Lemma classic_waits ph : waits ph \/ ~ waits ph.
Proof. destruct ph; cbn; auto. Qed.
Lemma last_runs c ae w d0 st ks sched : ordinary c w d0 -> Forall plain_edit ks ->
  let s0 := begin d0 st ks in let s := runs c ae s0 sched in
  (exists ph, In ph (sy_phases s) /\ bad ph) \/
  (ordinary c w (sy_disk s) /\
   forall i k rel ph, nth_error ks i = Some k -> edits k rel -> nth_error (sy_phases s) i = Some ph ->
   did k rel (earlier c ae s0 sched (names w rel)) ph /\
   (waits ph \/ ph = Ended Refused \/ result (earlier c ae s0 sched (names w rel)) k (node_at (sy_disk s) (names w rel)) \/
    exists before after j k' rel' ph', sched = before ++ after /\ nth_error ks j = Some k' /\ edits k' rel' /\ names w rel' = names w rel /\
      ~ waiting (runs c ae s0 before) i /\ waiting (runs c ae s0 before) j /\ nth_error (sy_phases s) j = Some ph' /\ (pending ph' \/ ph' = Ended Accepted))).
Proof.
  intros O F. cbn zeta. induction sched as [|x sched IH] using rev_ind.
  - right. split; [exact O|]. intros i k rel ph N E H. apply begun in H as (k' & N' & ->). cbn. split; [congruence|auto].
  - set (s0 := begin d0 st ks) in *. rewrite runs_snoc. set (s := runs c ae s0 sched) in *.
    assert (More : forall q t, earlier c ae s0 sched q t -> earlier c ae s0 (sched ++ [x]) q t).
    { intros q t (b & a & E & G). exists b, (a ++ [x]). rewrite app_assoc, <- E. auto. }
    destruct (turn_spec c ae s x _ eq_refl) as [Es|(ph & ph' & N & A & Q)].
    { rewrite Es. destruct IH as [IH|(O1 & IH)]; [left; exact IH|]. right. split; [exact O1|]. intros i k rel p Nk E Np. destruct (IH i k rel p Nk E Np) as (D & Z).
      split; [eapply did_more; [|exact D]; auto|]. destruct Z as [Z|[Z|[Z|(b & a & j & k' & rel' & p' & E1 & Z)]]]; auto.
      - right. right. left. eapply result_more; [|exact Z]. auto.
      - right. right. right. exists b, (a ++ [x]), j, k', rel', p'. rewrite app_assoc, <- E1. auto. }
    set (s' := turn c ae s x) in *. clearbody s'.
    assert (Lx : x < length (sy_phases s)) by (apply nth_error_Some; congruence).
    assert (I' : In ph' (sy_phases s')) by (rewrite Q; apply put_in_nth; exact Lx).
    destruct IH as [(p & Ip & Bp)|(O1 & IH)].
    { left. apply In_nth_error in Ip as (i & Ni). destruct (Nat.eq_dec i x) as [->|NE].
      - exists ph'. split; [exact I'|]. assert (p = ph) by congruence. subst p. eapply bad_stays; eauto.
      - exists p. split; [|exact Bp]. apply (nth_error_In _ i). rewrite Q, put_other by congruence. exact Ni. }
    destruct (phase_task c ae d0 st ks sched x ph N) as (k & Nk). rewrite Forall_forall in F. pose proof (F k (nth_error_In _ _ Nk)) as PE. destruct (edits_some k PE) as (rel & E).
    destruct (IH x k rel ph Nk E N) as (Dx & Zx).
    destruct (classic_bad ph) as [Bp|NB]; [left; exists ph'; split; [exact I'|eapply bad_stays; eauto]|].
    assert (Dx' : did k rel (earlier c ae s0 (sched ++ [x]) (names w rel)) ph) by (eapply did_more; [|exact Dx]; auto).
    assert (He : forall text, node_at (sy_disk s) (names w rel) = Some (File text) -> earlier c ae s0 (sched ++ [x]) (names w rel) text) by (intros t G; exists sched, [x]; auto).
    destruct (did_step c ae w k rel _ _ _ ph _ _ ph' O1 PE E Dx' NB He A) as (O2 & D2 & G).
    destruct (classic_bad ph') as [Bp'|NB']; [left; eauto|]. right. split; [exact O2|].
    intros i k1 rel1 p N1 E1 Np. rewrite Q in Np. apply put_nth in Np as [[-> ->] | [NE Np]].
    + assert (k1 = k) by congruence. subst k1. rewrite (edits_fun k rel1 rel E1 E). split; [exact D2|]. destruct G as [(_ & _ & _ & R)|(X & G1 & G2 & G3)]; [right; right; left; exact R|].
      destruct Zx as [Z|[Z|[Z|(b & a & j & k' & rel' & p' & E2 & Nj & Ej & EN & NW & Wj & Np' & Z)]]].
      * destruct (G1 Z) as [Y|[Y|Y]]; auto. contradiction.
      * right. left. rewrite <- Z. apply (G3 Refused). exact Z.
      * right. right. left. eapply result_dirs; [exact PE|eapply result_more; [|exact Z]; auto|]. apply X.
      * right. right. right. exists b, (a ++ [x]), j, k', rel', p'. rewrite app_assoc, <- E2. split; [reflexivity|]. do 5 (split; [assumption|]). split; [|exact Z]. rewrite Q, put_other; [exact Np'|]. intros ->. contradiction.
    + destruct (IH i k1 rel1 p N1 E1 Np) as (Di & Zi). split; [eapply did_more; [|exact Di]; auto|].
      destruct Zi as [Z|[Z|[Z|(b & a & j & k' & rel' & p' & E2 & Nj & Ej & EN & NW & Wj & Np' & Z)]]]; auto.
      * assert (Z' : result (earlier c ae s0 (sched ++ [x]) (names w rel1)) k1 (node_at (sy_disk s) (names w rel1))) by (eapply result_more; [|exact Z]; auto).
        pose proof (F k1 (nth_error_In _ _ N1)) as PE1. destruct G as [(Wx & Px & X & R)|(X & _)]; [|right; right; left; eapply result_dirs; [exact PE1|exact Z'|apply X]].
        destruct (classic_waits p) as [Wp|NWp]; [auto|].
        destruct (place_dec (names w rel) (names w rel1)) as [EQ|NQ].
        -- right. right. right. exists sched, [x], x, k, rel, ph'. split; [reflexivity|]. split; [exact Nk|]. split; [exact E|]. split; [exact EQ|].
           split; [intros Y; apply NWp, (waiting_phase _ _ _ Np), Y|]. split; [apply (waiting_phase _ _ _ N); exact Wx|]. split; [rewrite Q; apply put_same; exact Lx|left; exact Px].
        -- right. right. left. eapply result_dirs; [exact PE1|exact Z'|]. destruct X as [-> | (r & n & PQ & X)]; [auto|]. destruct (X (names w rel1)) as [Y|(Y1 & Y2 & _)]; auto.
      * right. right. right. destruct (Nat.eq_dec j x) as [->|NJ].
        -- exists b, (a ++ [x]), x, k', rel', ph'. rewrite app_assoc, <- E2. split; [reflexivity|]. do 5 (split; [assumption|]). split; [rewrite Q; apply put_same; exact Lx|]. assert (p' = ph) by congruence. subst p'.
           destruct G as [(Wx & Px & _)|(_ & G1 & G2 & G3)]; [auto|]. destruct Z as [Z|Z]; [destruct (G2 Z); auto; contradiction|]. right. rewrite <- Z. apply (G3 Accepted). exact Z.
        -- exists b, (a ++ [x]), j, k', rel', p'. rewrite app_assoc, <- E2. split; [reflexivity|]. do 5 (split; [assumption|]). split; [|exact Z]. rewrite Q, put_other by congruence. exact Np'.
Qed.
