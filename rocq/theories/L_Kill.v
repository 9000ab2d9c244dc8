(** Lemmas for C74. *)
From Coq Require Import Lia.
From Verif Require Import S_Graph L_Graph.
From Verif Require Import S_Kill L_Str L_Fs L_Server L_History L_Add L_Save L_Cli L_Conc.
From Verif Require Import M_Fs.
Close Scope Z_scope.

(** ** Directories *)
Lemma making_dirs n : forall k d p d', sound d -> slashless p -> In d' (making n k d p) -> only_dirs_added d d' /\ sound d'.
Proof.
  induction n as [|n IH]; intros k d p d' S SL H; cbn [making] in H; [destruct H|]. destruct (mkdir k d p) as [d1| |] eqn:M.
  - destruct H as [<-|[]]. eapply mkdir_made; eauto.
  - destruct (parent p) as [q|] eqn:P; [|destruct H]. assert (SQ : slashless q) by (apply (slashless_sub p); auto; intros c; apply parent_in; exact P).
    apply in_app_or in H as [H|H]; [now apply (IH k d q)|]. destruct (create_dir_all n k d q) as [d1 b] eqn:C. destruct (create_dirs _ _ _ _ _ _ S SQ C) as [X S1].
    destruct b; [|destruct H]. destruct (mkdir k d1 p) as [d2| |] eqn:M2; try destruct H as [<-|[]]; try destruct H.
    destruct (mkdir_made _ _ _ _ S1 SL M2) as [X2 S2]. split; [eapply dirs_trans; eauto|exact S2].
  - destruct H.
Qed.
Lemma making_create n : forall k d p d', In d' (making n k d p) -> exists m q r b, p = q ++ r /\ create_dir_all m k d q = (d', b) /\ (forall x, In x q -> In x p).
Proof.
  induction n as [|n IH]; intros k d p d' H; cbn [making] in H; [destruct H|].
  assert (PF : forall q, parent p = Some q -> exists r, p = q ++ r).
  { intros q P. unfold parent in P. destruct (drop_stays (rev p)) as [|y r] eqn:Dp; [discriminate|]. injection P as <-.
    destruct (drop_stays_split (rev p)) as (s1 & E1 & _). destruct (drop_stays_split r) as (s2 & E2 & _).
    exists (rev s2 ++ [y] ++ rev s1). rewrite <- (rev_involutive p), E1, Dp, rev_app_distr. cbn [rev]. rewrite E2 at 1.
    rewrite rev_app_distr, <- !app_assoc. reflexivity. }
  destruct (mkdir k d p) as [d1| |] eqn:M.
  - destruct H as [<-|[]]. exists 1, p, [], true. split; [now rewrite app_nil_r|]. split; [cbn [create_dir_all]; now rewrite M|auto].
  - destruct (parent p) as [q|] eqn:P; [|destruct H]. apply in_app_or in H as [H|H].
    + destruct (IH k d q d' H) as (m & q' & r' & b & E & C & I). destruct (PF q eq_refl) as (r & Er). exists m, q', (r' ++ r), b.
      split; [rewrite Er, E, <- app_assoc; reflexivity|]. split; [exact C|]. intros x Ix. apply (parent_in p q x P), I, Ix.
    + exists (S n), p, [], true. split; [now rewrite app_nil_r|]. split; [|auto]. cbn [create_dir_all]. rewrite M, P. destruct (create_dir_all n k d q) as [d1 [|]]; [|destruct H].
      destruct (mkdir k d1 p) as [d2| |]; try destruct H as [<-|[]]; try destruct H. reflexivity.
  - destruct H.
Qed.
Lemma making_existing n k d p : sound d -> is_dir k d p = true -> making (S n) k d p = [].
Proof.
  intros S H. cbn [making]. unfold mkdir. destruct (last_name p) as [c|] eqn:LN; [|reflexivity].
  apply last_name_some in LN as (E & S1 & S2).
  unfold is_dir, stat in H. destruct (resolve k d p) as [q|q| |] eqn:R; try discriminate.
  unfold resolve in R. rewrite E in R. destruct (walk_snoc_at k d [] _ c q ltac:(discriminate) R S1 S2 S) as (r & W & D & M).
  unfold resolve. rewrite W, D. destruct (node_at d (r ++ [c])) eqn:F; [|congruence]. reflexivity.
Qed.
(** Where making ends. *)
Lemma create_made n : forall k d p d1 b, create_dir_all n k d p = (d1, b) -> d1 = d \/ In d1 (making n k d p).
Proof.
  induction n as [|n IH]; intros k d p d1 b H; cbn [create_dir_all making] in *; [injection H as <- _; auto|]. destruct (mkdir k d p) as [d'| |].
  - injection H as <- _. right. now left.
  - destruct (parent p) as [q|]; [|injection H as <- _; auto]. destruct (create_dir_all n k d q) as [d2 b2] eqn:C. destruct (IH _ _ _ _ _ C) as [->|I].
    + destruct b2; [|injection H as <- _; auto]. destruct (mkdir k d p); injection H as <- _; auto; right; apply in_or_app; right; now left.
    + destruct b2; [|injection H as <- _; right; apply in_or_app; now left]. destruct (mkdir k d2 p); injection H as <- _; right; apply in_or_app; [right; now left|now left|now left].
  - injection H as <- _. auto.
Qed.
Lemma above_made links d p d1 b : made_above links d p = (d1, b) -> d1 = d \/ making_above links d p d1.
Proof. unfold made_above, making_above. destruct (parent p) as [q|]; [apply create_made|]. intros [= <- _]. auto. Qed.

(** ** Steps end in one of the file systems they go through *)
Lemma firstn_whole (s : str) : firstn (length s) s = s. Proof. apply firstn_all. Qed.
Lemma written_through c d rel content d' ok : write_source_file c d rel content = (d', ok) -> d' = d \/ in_write_source_file c d rel content d'.
Proof.
  unfold write_source_file, in_write_source_file. destruct (ends_with rel (L ".firm")); cbn [negb]; [|intros [= <- _]; auto].
  destruct (to_absolute_path c d rel) as [p|]; [|intros [= <- _]; auto]. fold (made_above (c_links c) d p). destruct (made_above (c_links c) d p) as [d1 b] eqn:M.
  intros H. assert (X : d' = d1 -> d' = d \/ true = true /\ exists p0, Some p = Some p0 /\ (making_above (c_links c) d p0 d' \/
     exists d2, made_above (c_links c) d p0 = (d2, true) /\ partly_written (c_links c) d2 p0 content d')).
  { intros ->. destruct (above_made _ _ _ _ _ M) as [->|I]; [auto|]. right. split; [reflexivity|]. exists p. auto. }
  destruct b; [|injection H as <- _; auto]. destruct (write (c_links c) d1 p content) as [d2|] eqn:W; injection H as <- _; [|auto].
  right. split; [reflexivity|]. exists p. split; [reflexivity|]. right. exists d1. split; [exact M|]. exists (length content). rewrite firstn_whole. exact W.
Qed.
Lemma validated_through c d rel content d' o : validate_and_write c d rel content = (d', o) -> d' = d \/ in_validate_and_write c d rel content d'.
Proof.
  unfold validate_and_write, in_validate_and_write. destruct (c_parse c content) as [ps|]; [|intros [= <- _]; auto]. destruct (ps_error ps) eqn:E; [intros [= <- _]; auto|].
  destruct (write_source_file c d rel content) as [d1 ok] eqn:W. intros H. assert (d' = d1) as -> by (destruct ok; congruence).
  destruct (written_through _ _ _ _ _ _ W) as [->|I]; [auto|]. right. exists ps. auto.
Qed.
Lemma undone_through c d rel original d' ok : rollback_write c d rel original = (d', ok) -> d' = d \/ in_rollback_write c d rel original d'.
Proof.
  unfold rollback_write, in_rollback_write. destruct original as [s|].
  - destruct (write (c_links c) d (join_path (c_ws c) rel) s) as [d1|] eqn:W; intros [= <- _]; auto. right. exists (length s). now rewrite firstn_whole.
  - destruct (remove_file (c_links c) d (join_path (c_ws c) rel)) as [d1|] eqn:W; intros [= <- _]; auto.
Qed.
Lemma restored_through c d rel content d' ok : rollback_delete c d rel content = (d', ok) -> d' = d \/ in_rollback_delete c d rel content d'.
Proof.
  unfold rollback_delete, in_rollback_delete. set (p := join_path (c_ws c) rel). fold (made_above (c_links c) d p). destruct (made_above (c_links c) d p) as [d1 b] eqn:M.
  intros H. assert (X : d' = d1 -> d' = d \/ making_above (c_links c) d p d' \/ exists d2, (d1, b) = (d2, true) /\ partly_written (c_links c) d2 p content d').
  { intros ->. destruct (above_made _ _ _ _ _ M) as [->|I]; auto. }
  destruct b; [|injection H as <- _; auto]. destruct (write (c_links c) d1 p content) as [d2|] eqn:W; injection H as <- _; [|auto].
  right. right. exists d1. split; [reflexivity|]. exists (length content). rewrite firstn_whole. exact W.
Qed.
Lemma appended_through c d p dsl d' ok : append_block c d p dsl = (d', ok) -> d' = d \/ in_append_block c d p dsl d'.
Proof.
  unfold append_block, in_append_block. fold (made_above (c_links c) d p). destruct (made_above (c_links c) d p) as [d1 b] eqn:M. set (pre := if path_exists _ d1 p then _ else _).
  intros H. assert (X : d' = d1 -> d' = d \/ making_above (c_links c) d p d').
  { intros ->. destruct (above_made _ _ _ _ _ M) as [->|I]; auto. }
  destruct b; [|injection H as <- _; destruct X; auto]. destruct pre as [pr|] eqn:P; [|injection H as <- _; destruct X; auto].
  destruct (append_to (c_links c) d1 p (pr ++ dsl)) as [d2|] eqn:W; injection H as <- _; [|destruct X; auto].
  right. right. exists d1, pr. split; [reflexivity|]. split; [exact P|]. exists (length (pr ++ dsl)). rewrite firstn_whole. exact W.
Qed.
Lemma step_through c ae d st ph d' st' ph' : advance c ae d st ph = (d', st', ph') -> within_step c ae d st ph d'.
Proof.
  assert (Wr : forall rel content force, writing c d st rel content force = (d', st', ph') -> d' = d \/ in_validate_and_write c d rel content d').
  { intros rel content force. unfold writing. destruct (validate_and_write c d rel content) as [d1 o] eqn:V. pose proof (validated_through _ _ _ _ _ _ V) as X. destruct o; intros [= <- _ _]; exact X. }
  assert (Bu : forall f, building c d st f = (d', st', ph') -> d' = d) by (intros f; unfold building; destruct (rebuild c d); intros [= <- _ _]; reflexivity).
  unfold within_step. destruct ph as [[[rel content force|rel old new all force|rel force|]|a]|rel content force|rel force original|rel force content| |rel original|rel content|a]; cbn [advance].
  - apply Wr.
  - destruct (replace_in_file c d rel old new all); intros [= <- _ _]; auto.
  - destruct (delete_file c d rel) as [[d1 content]|] eqn:D; intros [= <- _ _]; [right; exists content; reflexivity|auto].
  - intros H. apply Bu in H. auto.
  - destruct (entity_to_add c ae st a) as [e|]; [|intros [= <- _ _]; auto]. destruct (append_block c d _ _) as [d1 ok] eqn:A. pose proof (appended_through _ _ _ _ _ _ A) as X.
    intros H. assert (d' = d1) as -> by (destruct ok; congruence). destruct X as [->|X]; [auto|]. right. exists e. auto.
  - apply Wr.
  - intros H. apply Bu in H. auto.
  - intros H. apply Bu in H. auto.
  - intros H. apply Bu in H. auto.
  - destruct (rollback_write c d rel original) as [d1 ok] eqn:R. intros [= <- _ _]. exact (undone_through _ _ _ _ _ _ R).
  - destruct (rollback_delete c d rel content) as [d1 ok] eqn:R. intros [= <- _ _]. exact (restored_through _ _ _ _ _ _ R).
  - intros [= <- _ _]. auto.
Qed.

(** ** Edits that are broken off *)
Lemma making_plain c d w rel d' : runs_in c d w -> no_links_in w d -> plain rel -> ends_with rel (L ".firm") = true ->
  making_above (c_links c) d (named c rel) d' -> exists r n, names w rel = r ++ [n] /\ dirs_towards r d d'.
Proof.
  intros RI NL P EW M. destruct (leads_plain c d w rel RI NL P EW) as (r & n & LD). pose proof (LD d RI NL) as Ld. exists r, n. split; [exact (ld_place _ _ _ _ _ _ Ld)|].
  unfold making_above in M. destruct (parent (named c rel)) as [q|] eqn:PQ; [|destruct M]. destruct (making_create _ _ _ _ _ M) as (m & q' & r' & b & E & C & I).
  destruct P as (RR & NC). pose proof (no_climb rel NC) as CL. pose proof RI as (S & SL & W & D).
  assert (SB : slashless q') by (apply (slashless_sub (named c rel)); [apply named_slashless; exact SL|]; intros x Ix; apply (parent_in _ _ _ PQ), I, Ix).
  destruct (firm_last rel EW) as (p & n' & Er & FN). destruct (firm_name n' FN) as [S1 S2]. rewrite Er in CL. apply Forall_app in CL as [CP _].
  assert (NM : named c rel = c_ws c ++ p ++ [n']) by (rewrite (named_relative c rel RR), Er; reflexivity).
  destruct (parent_name (c_ws c ++ p) n' S1) as (b' & ss & P' & Eb & Fs). rewrite NM, app_assoc, P' in PQ. injection PQ as <-.
  pose proof (create_towards m c d w q' p (r' ++ ss) d' b RI NL CP SB) as X. rewrite Eb, E, <- app_assoc in X. specialize (X eq_refl C).
  assert (PN : names w rel = (w ++ parts p) ++ [n']).
  { unfold names. rewrite Er, filter_app. cbn [filter]. rewrite S1. cbn [negb]. rewrite app_assoc. reflexivity. }
  rewrite (ld_place _ _ _ _ _ _ Ld) in PN. apply app_inj_tail in PN as [-> _]. exact X.
Qed.
Lemma begins_firstn n (s : str) : begins (firstn n s) s.
Proof. exists (skipn n s). symmetry. apply firstn_skipn. Qed.
Lemma in_written_plain c d w rel content d' : ordinary c w d -> plain rel -> in_write_source_file c d rel content d' ->
  stepped w rel d d' /\ (node_at d' (names w rel) = node_at d (names w rel) \/ exists s, begins s content /\ node_at d' (names w rel) = Some (File s)).
Proof.
  intros O P (EW & p & A & H). pose proof O as (RI & NL & _). pose proof RI as (S & _). destruct H as [H|(d1 & M & n & Wn)].
  - pose proof A as A'. rewrite (absolute_spec c d w rel RI) in A. destruct (resolve (c_links c) d (named c rel)) as [q|q| |] eqn:R.
    + destruct (within q w); [|discriminate]. injection A as <-. exfalso. destruct (leads_plain c d w rel RI NL P EW) as (r & m & LD). pose proof (LD d RI NL) as Ld.
      pose proof (ld_only _ _ _ _ _ _ Ld q (or_introl R)) as ->. pose proof (ld_place _ _ _ _ _ _ Ld) as PQ. destruct (resolve_at d (c_links c) _ _ S R) as [N _].
      unfold making_above in H. rewrite PQ in H. destruct (parent_name r m) as (b & ss & E & _); [apply proper_go; apply (ld_name _ _ _ _ _ _ Ld)|]. unfold place_path in H. rewrite E in H.
      rewrite making_existing in H; [destruct H|exact S|]. apply (canonical_parent d (c_links c) r m b S); [rewrite <- PQ; exact N|exact E].
    + destruct P as (RR & NC). rewrite NC in A. injection A as <-. destruct (making_plain c d w rel d' RI NL (conj RR NC) EW H) as (r & m & PQ & X).
      split; [right; exists r, m; split; [exact PQ|apply towards_weak; exact X]|]. left. rewrite PQ. apply (towards_at r m d d' X).
    + destruct P as (RR & NC). rewrite NC in A. injection A as <-. destruct (making_plain c d w rel d' RI NL (conj RR NC) EW H) as (r & m & PQ & X).
      split; [right; exists r, m; split; [exact PQ|apply towards_weak; exact X]|]. left. rewrite PQ. apply (towards_at r m d d' X).
    + destruct P as (RR & NC). rewrite NC in A. injection A as <-. destruct (making_plain c d w rel d' RI NL (conj RR NC) EW H) as (r & m & PQ & X).
      split; [right; exists r, m; split; [exact PQ|apply towards_weak; exact X]|]. left. rewrite PQ. apply (towards_at r m d d' X).
  - assert (W : write_source_file c d rel (firstn n content) = (d', true)).
    { unfold write_source_file. rewrite EW, A. cbn [negb]. fold (made_above (c_links c) d p). rewrite M, Wn. reflexivity. }
    destruct (wrote_where c d w rel (firstn n content) d' true O P W) as (_ & _ & r & m & Ld & F & X & _).
    split; [right; exists r, m; split; [exact (ld_place _ _ _ _ _ _ Ld)|exact X]|]. right. exists (firstn n content). split; [apply begins_firstn|exact F].
Qed.
Lemma edited_left k n new s n' : edited k n (Some (File new)) -> begins s new -> n' = Some (File s) -> left_by k n n'.
Proof. intros E B ->. right. right. left. exists new, s. auto. Qed.
Lemma within_sees c ae w d st k rel n0 ph d' : ordinary c w d -> plain_edit k -> edits k rel -> sees w k rel n0 d ph -> within_step c ae d st ph d' ->
  stepped w rel d d' /\ left_by k n0 (node_at d' (names w rel)).
Proof.
  intros O PE Ed V H. pose proof (plain_of k rel PE Ed) as P. pose proof O as (RI & NL & _). pose proof RI as (S & SL & _).
  assert (Old : d' = d -> stepped w rel d d' /\ left_by k n0 (node_at d' (names w rel))).
  { intros ->. split; [left; reflexivity|]. destruct ph; cbn [sees] in V; try (left; tauto); try (right; left; tauto).
    destruct a; cbn [made_of] in V; try (left; tauto); try (right; left; tauto); unfold left_by; tauto. }
  destruct H as [H|H]; [exact (Old H)|]. clear Old.
  assert (Wr : forall content, node_at d (names w rel) = n0 -> (forall n', n' = Some (File content) -> edited k n0 n') -> in_validate_and_write c d rel content d' ->
    stepped w rel d d' /\ left_by k n0 (node_at d' (names w rel))).
  { intros content Q Y (ps & _ & _ & W). destruct (in_written_plain c d w rel content d' O P W) as [X [E|(s & B & E)]]; (split; [exact X|]); [left; congruence|].
    eapply edited_left; eauto. }
  destruct ph as [[[rel' content force|rel' old new all force|rel' force|]|a]|rel' content force|rel' force original|rel' force content| |rel' original|rel' content|a]; try (exfalso; exact H); cbn [sees] in V.
  - destruct V as [<- Q]. cbn [edits] in Ed. subst rel'. apply (Wr content Q); auto.
  - destruct V as [<- Q]. cbn [edits] in Ed. subst rel'. destruct H as (x & H). destruct (deleted_plain c d w rel d' x O P H) as (_ & X & _ & _ & _ & N & _). split; [exact X|]. right. left. exact N.
  - destruct V as [<- Q]. destruct Ed.
  - destruct V as (-> & T & Q & Y). apply (Wr content); auto.
  - destruct V as (-> & EW & Y & (s & F) & N0 & T). destruct (leads_plain c d w rel RI NL P EW) as (r & n & LD). pose proof (LD d RI NL) as Ld.
    pose proof (ld_place _ _ _ _ _ _ Ld) as PQ. pose proof (file_not_root _ _ _ F) as NE. unfold in_rollback_write in H. fold (named c rel) in H.
    assert (Dr : node_at d r = Some Dir) by (destruct (S r n) as [Dr _]; [rewrite <- PQ; congruence|exact Dr]).
    destruct original as [t|].
    + destruct H as (m & H). unfold write in H. rewrite (ld_at _ _ _ _ _ _ Ld), F in H by congruence. injection H as <-.
      split; [right; exists r, n; split; [exact PQ|]; apply towards_set; auto using towards_refl|]. rewrite node_set_same by exact NE.
      right. right. right. exists t, (firstn m t). split; [exact N0|]. split; [apply begins_firstn|reflexivity].
    + unfold remove_file in H. rewrite (ld_last _ _ _ _ _ _ Ld), (ld_dir _ _ _ _ _ _ Ld Dr), Dr, <- PQ, F in H. injection H as <-.
      split; [right; exists r, n; split; [exact PQ|]; apply towards_unset; exact NE|]. left. rewrite node_unset, place_eqb_refl by exact NE. symmetry. exact N0.
  - destruct V as (-> & EW & Y & F & N0 & T & Dr). destruct (leads_plain c d w rel RI NL P EW) as (r & n & LD). pose proof (LD d RI NL) as Ld.
    pose proof (ld_place _ _ _ _ _ _ Ld) as PQ. rewrite PQ, removelast_last in Dr. assert (NE : names w rel <> []) by (rewrite PQ; destruct r; discriminate).
    unfold in_rollback_delete, making_above, made_above in H. fold (named c rel) in H. destruct (ld_parent _ _ _ _ _ _ Ld) as (b & Pb & Db). rewrite Pb in H.
    rewrite (making_existing (length b) (c_links c) d b S (Db Dr)), (create_existing (length b) (c_links c) d b S (Db Dr)) in H. destruct H as [[]|(d1 & E & m & H)].
    injection E as <-. unfold write in H. pose proof (ld_vacant _ _ _ _ _ _ Ld Dr F) as Vc. rewrite Vc in H. injection H as <-.
    split; [right; exists r, n; split; [exact PQ|]; apply towards_set; auto using towards_refl|]. rewrite node_set_same by exact NE.
    right. right. right. exists content, (firstn m content). split; [exact N0|]. split; [apply begins_firstn|reflexivity].
Qed.
Lemma sees_left w k rel n0 d ph : edits k rel -> sees w k rel n0 d ph -> left_by k n0 (node_at d (names w rel)).
Proof.
  intros E V. destruct ph; cbn [sees] in V; try (left; tauto); try (right; left; tauto); try destruct V.
  destruct a; cbn [made_of] in V; try (left; tauto); try (right; left; tauto); unfold left_by; tauto.
Qed.
Lemma killed_edits c ae w d st ks d' : ordinary c w d -> Forall plain_edit ks -> different_files w ks -> killed c ae d st ks d' ->
  (forall i k rel, nth_error ks i = Some k -> edits k rel -> left_by k (node_at d (names w rel)) (node_at d' (names w rel))) /\
  (forall p, (forall k rel, In k ks -> edits k rel -> p <> names w rel) -> node_at d' p = node_at d p \/ (node_at d p = None /\ node_at d' p = Some Dir)).
Proof.
  intros O F DF (sched & H). cbn zeta in H. destruct (runs_sees c ae w d st ks sched O F DF) as (O1 & V & Z). set (s := runs c ae (begin d st ks) sched) in *.
  assert (Ph : forall i k, nth_error ks i = Some k -> exists ph, nth_error (sy_phases s) i = Some ph).
  { intros i k N. destruct (nth_error (sy_phases s) i) as [ph|] eqn:E; [eauto|]. apply nth_error_None in E. assert (i < length ks) by (apply nth_error_Some; congruence).
    unfold s in E. rewrite runs_length in E. cbn [begin sy_phases] in E. rewrite map_length in E. lia. }
  destruct H as [->|(j & ph & N & H)].
  - split; [|exact Z]. intros i k rel Nk E. destruct (Ph i k Nk) as (ph & Np). eapply sees_left; eauto.
  - destruct (phase_task c ae d st ks sched j ph N) as (k & Nk). rewrite Forall_forall in F. pose proof (F k (nth_error_In _ _ Nk)) as PE.
    destruct (edits_some k PE) as (rel & E). pose proof (V j k rel ph Nk E N) as Vj.
    destruct (within_sees c ae w _ _ k rel _ ph d' O1 PE E Vj H) as (X & LB). split.
    + intros i k2 rel2 N2 E2. destruct (Nat.eq_dec i j) as [->|NE].
      * assert (k2 = k) by congruence. subst k2. rewrite (edits_fun k rel2 rel E2 E). exact LB.
      * destruct (stepped_other w rel2 rel _ _ X) as [Q _]; [apply (DF i j k2 k); auto|apply (DF j i k k2); auto|]. rewrite Q.
        destruct (Ph i k2 N2) as (ph2 & Np). eapply sees_left; [exact E2|]. exact (V i k2 rel2 ph2 N2 E2 Np).
    + intros p NP. pose proof (NP k rel (nth_error_In _ _ Nk) E) as NPk. destruct X as [-> | (r & n & PQ & X)]; [apply Z; exact NP|].
      destruct (Z p NP) as [E1|[E1 E1']], (X p NPk) as [E3|(E3 & E4 & _)]; rewrite ?E1, ?E1' in *; auto; right; split; congruence.
Qed.

(** ** Additions that are broken off *)
Lemma grown_refl d : grown d d.
Proof. intros p t E. exists []. now rewrite app_nil_r. Qed.
Lemma grown_trans d1 d2 d3 : grown d1 d2 -> grown d2 d3 -> grown d1 d3.
Proof. intros A B p t E. destruct (A p t E) as (u & E1). destruct (B p _ E1) as (v & E2). exists (u ++ v). now rewrite app_assoc. Qed.
Lemma dirs_grown d d' : only_dirs_added d d' -> grown d d'.
Proof. intros X p t E. exists []. rewrite app_nil_r. destruct (X p) as [->|[N _]]; congruence. Qed.
Lemma part_grown d q old block d' : added_part d q old block d' -> grown d d'.
Proof.
  intros (N & OC & t & E & (u & ->) & _) p s F. destruct (list_eq_dec (list_eq_dec Ascii.ascii_dec) p q) as [->|NE].
  - destruct N as [N|[N _]]; [|congruence]. exists u. congruence.
  - exists []. rewrite app_nil_r. destruct (OC p NE) as [->|[X _]]; congruence.
Qed.
Lemma above_dirs links d p d' : sound d -> slashless p -> making_above links d p d' -> only_dirs_added d d' /\ sound d'.
Proof.
  unfold making_above. destruct (parent p) as [q|] eqn:P; [|intros _ _ []]. intros S SL. apply making_dirs; [exact S|].
  apply (slashless_sub p q SL). intros y Hy. eapply parent_in; eauto.
Qed.
Lemma made_dirs links d p d1 b : sound d -> slashless p -> made_above links d p = (d1, b) -> only_dirs_added d d1 /\ sound d1.
Proof.
  unfold made_above. destruct (parent p) as [q|] eqn:P; [|intros S _ [= <- _]; split; [apply dirs_refl|exact S]]. intros S SL. apply create_dirs; [exact S|].
  apply (slashless_sub p q SL). intros y Hy. eapply parent_in; eauto.
Qed.
Lemma begins_app (s t u : str) : begins t u -> begins (s ++ t) (s ++ u).
Proof. intros (v & ->). exists v. now rewrite app_assoc. Qed.
Lemma part_appended links d d1 p q s d' : sound d1 -> slashless p -> only_dirs_added d d1 -> append_to links d1 p s = Some d' -> (resolve links d1 p = At q \/ resolve links d1 p = Vacant q) ->
  exists old, (node_at d1 q = Some (File old) \/ (node_at d1 q = None /\ old = [])) /\ (node_at d q = Some (File old) \/ (node_at d q = None /\ old = [])) /\ only_changed q d d' /\
    node_at d' q = Some (File (old ++ s)) /\ sound d'.
Proof.
  intros S1 SL X A R. unfold append_to in A. destruct R as [R|R]; rewrite R in A.
  - destruct (node_at d1 q) as [[old| |]|] eqn:F; try discriminate. injection A as <-. pose proof (file_not_root _ _ _ F) as NE. exists old. split; [auto|]. split; [left; destruct (X q) as [E|[_ E]]; congruence|].
    split; [|split; [apply node_set_same; eapply file_not_root; eauto|eapply sound_file; eauto]]. intros x Nx. rewrite node_set_other by auto. apply X.
  - injection A as <-. pose proof R as R'. apply vacant_none in R as [N NE]. exists []. split; [auto|]. split; [right; split; [destruct (X q) as [E|[_ E]]; congruence|reflexivity]|].
    split; [|split; [apply node_set_same; exact NE|eapply sound_fill; eauto]]. intros x Nx. rewrite node_set_other by auto. apply X.
Qed.
Lemma append_place links d p s d' : append_to links d p s = Some d' -> exists q, resolve links d p = At q \/ resolve links d p = Vacant q.
Proof. unfold append_to. destruct (resolve links d p) as [q|q| |]; try discriminate; eauto. Qed.
Lemma in_append_part c d p dsl d' : sound d -> slashless p -> in_append_block c d p dsl d' ->
  sound d' /\ (only_dirs_added d d' \/ exists q old, added_part d q old (ended old ++ dsl) d').
Proof.
  intros S SL [H|(d1 & pre & M & PR & n & A)].
  - destruct (above_dirs _ _ _ _ S SL H). auto.
  - destruct (made_dirs _ _ _ _ _ S SL M) as [X S1]. destruct (append_place _ _ _ _ _ A) as (q & R).
    destruct (part_appended _ d d1 p q _ d' S1 SL X A R) as (old & N1 & N & OC & E & SD). split; [exact SD|]. right. exists q, old. split; [exact N|]. split; [exact OC|].
    eexists. split; [exact E|]. split; [eexists; reflexivity|]. rewrite ended_prefix. apply begins_app.
    assert (pre = if ends_with old [LF] then [] else match old with [] => [] | _ => [LF] end) as <-; [|apply begins_firstn].
    unfold path_exists, read_text, stat in PR. destruct R as [R|R]; rewrite R in PR.
    + destruct N1 as [F|[F _]]; rewrite F in PR; [destruct (is_text old); congruence|]. destruct (resolve_at _ _ _ _ S1 R) as [Q _]. congruence.
    + apply vacant_none in R as [N0 _]. destruct N1 as [F|[_ ->]]; [congruence|]. injection PR as <-. reflexivity.
Qed.
Lemma in_dsl_part c d p dsl d' : sound d -> slashless p -> in_write_dsl c d p dsl d' ->
  sound d' /\ (only_dirs_added d d' \/ exists q old, added_part d q old (old ++ dsl) d').
Proof.
  intros S SL [H|(d1 & M & n & A)].
  - destruct (above_dirs _ _ _ _ S SL H). auto.
  - destruct (made_dirs _ _ _ _ _ S SL M) as [X S1]. destruct (append_place _ _ _ _ _ A) as (q & R).
    destruct (part_appended _ d d1 p q _ d' S1 SL X A R) as (old & _ & N & OC & E & SD). split; [exact SD|]. right. exists q, old. split; [exact N|]. split; [exact OC|].
    eexists. split; [exact E|]. split; [eexists; reflexivity|]. apply begins_app, begins_firstn.
Qed.
Definition adding (ph : phase) : Prop := match ph with Start k => addition k | Added | Ended _ => True | _ => False end.
Lemma adding_within c ae d st ph d' : sound d -> slashless (c_ws c) -> adding ph -> within_step c ae d st ph d' -> grown d d' /\ sound d'.
Proof.
  intros S SL A [->|H]; [split; [apply grown_refl|exact S]|]. destruct ph as [[[]|a]| | | | | | |]; try destruct A; try (exfalso; exact H).
  destruct H as (e & _ & H). destruct (in_append_part c d _ _ d' S (target_slashless c a SL) H) as [SD [X|(q & old & X)]]; (split; [|exact SD]); [now apply dirs_grown|eapply part_grown; eauto].
Qed.
Lemma adding_next c ae d st ph d' st' ph' : adding ph -> advance c ae d st ph = (d', st', ph') -> adding ph'.
Proof.
  intros A H. destruct ph as [[[]|a]| | | | | | |]; try destruct A; cbn [advance] in H.
  - unfold building in H. destruct (rebuild c d); injection H as _ _ <-; exact I.
  - destruct (entity_to_add c ae st a); [|injection H as _ _ <-; exact I]. destruct (append_block _ _ _ _) as [d1 []]; injection H as _ _ <-; exact I.
  - unfold building in H. destruct (rebuild c d); injection H as _ _ <-; exact I.
  - injection H as _ _ <-; exact I.
Qed.
Lemma adding_runs c ae d st ks sched : sound d -> slashless (c_ws c) -> Forall addition ks -> let s := runs c ae (begin d st ks) sched in
  grown d (sy_disk s) /\ sound (sy_disk s) /\ Forall adding (sy_phases s).
Proof.
  intros S SL F. cbn zeta. induction sched as [|j sched IH] using rev_ind.
  - split; [apply grown_refl|]. split; [exact S|]. cbn [runs fold_left begin sy_phases]. apply Forall_map. exact F.
  - rewrite runs_snoc. set (s := runs c ae (begin d st ks) sched) in *. destruct IH as (G & S1 & A).
    destruct (turn_spec c ae s j _ eq_refl) as [-> | (ph & ph' & N & Ad & PP)]; [auto|]. set (s' := turn c ae s j) in *. clearbody s'.
    rewrite Forall_forall in A. pose proof (A ph (nth_error_In _ _ N)) as Ap. destruct (adding_within c ae _ _ ph _ S1 SL Ap (step_through _ _ _ _ _ _ _ _ Ad)) as [G2 S2].
    split; [eapply grown_trans; eauto|]. split; [exact S2|]. rewrite PP. apply Forall_forall. intros y Iy. apply In_nth_error in Iy as (i & Iy). apply put_nth in Iy as [[-> ->]|[_ Iy]].
    + eapply adding_next; eauto.
    + apply A. eapply nth_error_In; eauto.
Qed.
Lemma killed_grown c ae d st ks d' : sound d -> slashless (c_ws c) -> Forall addition ks -> killed c ae d st ks d' -> grown d d' /\ sound d'.
Proof.
  intros S SL F (sched & H). cbn zeta in H. destruct (adding_runs c ae d st ks sched S SL F) as (G & S1 & A). destruct H as [->|(i & ph & N & H)]; [auto|].
  rewrite Forall_forall in A. destruct (adding_within c ae _ _ ph d' S1 SL (A ph (nth_error_In _ _ N)) H) as [G2 S2]. split; [eapply grown_trans; eauto|exact S2].
Qed.
Lemma lives_grown c ae d d' : slashless (c_ws c) -> lives c ae d d' -> sound d -> grown d d' /\ sound d'.
Proof.
  intros SL L0. induction L0 as [d|d st ks d1 d2 F K _ IH]; intros S; [split; [apply grown_refl|exact S]|].
  destruct (killed_grown c ae d st ks d1 S SL F K) as [G S1]. destruct (IH S1) as [G2 S2]. split; [eapply grown_trans; eauto|exact S2].
Qed.
(** On the command line. *)
Lemma in_prepare_rest c x d w cached d' : workable c w d -> in_prepare c x d cached d' -> workable c w d' /\ rest_of w d' = rest_of w d.
Proof.
  intros W [->|(_ & s & ->)]; [auto|]. unfold build_and_save. destruct (rebuild c d) as [st|e|]; cbn [fst]; auto. split; [apply save_workable, W|apply save_rest, W].
Qed.
