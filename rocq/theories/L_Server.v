(** Lemmas about the tool server. *)
From Coq Require Import Lia.
From Verif Require Import S_Server L_Str L_Text L_DslStr L_Fs.
Close Scope Z_scope.

(** ** Paths *)
Lemma split_char_tail q r s : ~ In q s -> exists p c, split_char q r = p ++ [c] /\ split_char q (r ++ s) = p ++ [c ++ s].
Proof.
  intros H. induction r as [|a r (p & c & E & F)]; cbn [split_char app].
  - exists [], []. rewrite split_char_free by exact H. auto.
  - rewrite E, F. destruct (Ascii.eqb a q); [exists ([] :: p), c; auto|].
    destruct p as [|x p]; cbn [app]; [exists [], (a :: c); auto|exists ((a :: x) :: p), c; auto].
Qed.
Lemma firm_last rel : ends_with rel (L ".firm") = true -> exists p c, path_of rel = p ++ [c] /\ ends_with c (L ".firm") = true.
Proof.
  intros H. apply ends_with_spec in H as (r & ->). unfold path_of.
  destruct (split_char_tail "/" r (L ".firm")) as (p & c & _ & E); [cbn; intuition discriminate|].
  exists p, (c ++ L ".firm"). split; [exact E|]. apply ends_with_spec. eauto.
Qed.
Lemma firm_name c : ends_with c (L ".firm") = true -> stays c = false /\ climbs c = false.
Proof.
  intros H. apply ends_with_spec in H as (r & ->). unfold stays, climbs.
  assert (G : length (r ++ L ".firm") >= 5) by (rewrite app_length; cbn; lia).
  rewrite Bool.orb_false_iff, !str_eqb_neq. repeat split; intros E; rewrite E in G; cbn in G; lia.
Qed.
Lemma join_in sep ws (w : str) : In w ws -> exists a b, join sep ws = a ++ w ++ b.
Proof.
  induction ws as [|v ws IH]; [intros []|]. intros [->|H].
  - destruct ws as [|v ws]; [exists [], []; rewrite app_nil_r; reflexivity|]. exists [], (sep ++ join sep (v :: ws)).
    rewrite join_cons by discriminate. reflexivity.
  - destruct (IH H) as (a & b & E). exists (v ++ sep ++ a), b. rewrite join_cons by (intros ->; destruct H).
    rewrite E, <- !app_assoc. reflexivity.
Qed.
Lemma no_climb rel : contains rel (L "..") = false -> Forall (fun c => climbs c = false) (path_of rel).
Proof.
  intros H. apply Forall_forall. intros c I. destruct (climbs c) eqn:E; [|reflexivity]. unfold climbs in E. apply str_eqb_eq in E as ->.
  assert (C : contains rel (L "..") = true); [|congruence]. apply contains_spec.
  destruct (join_in ["/"%char] _ _ I) as (a & b & J). unfold path_of in J. rewrite join_split_char in J. eauto.
Qed.
Lemma join_path_cases ws rel : join_path ws rel = path_of rel \/ join_path ws rel = ws ++ path_of rel.
Proof. destruct rel as [|[[] [] [] [] [] [] [] []] rel]; cbn [join_path]; auto. Qed.
Lemma join_path_last ws rel : ends_with rel (L ".firm") = true ->
  exists p c, join_path ws rel = p ++ [c] /\ stays c = false /\ climbs c = false /\ (forall x, In x (p ++ [c]) -> In x ws \/ In x (path_of rel)).
Proof.
  intros H. destruct (firm_last rel H) as (p & c & E & F). destruct (firm_name c F) as [S1 S2].
  destruct (join_path_cases ws rel) as [-> | ->]; rewrite E.
  - exists p, c. repeat split; auto.
  - exists (ws ++ p), c. rewrite <- app_assoc. repeat split; auto. intros x I. rewrite !in_app_iff in *. tauto.
Qed.
Lemma named_slashless c rel : slashless (c_ws c) -> slashless (named c rel).
Proof.
  intros H. unfold named. pose proof (path_of_slashless rel) as P.
  destruct (join_path_cases (c_ws c) rel) as [-> | ->]; [exact P|]. apply Forall_app; split; assumption.
Qed.

Lemma within_spec p q : within p q = true <-> inside q p.
Proof.
  revert p. induction q as [|b q IH]; intros p; [cbn [within]; split; [exists p; reflexivity|destruct p; auto]|].
  destruct p as [|a p]; cbn [within].
  - split; [discriminate|]. intros (r & E). discriminate.
  - rewrite Bool.andb_true_iff, str_eqb_eq, IH. split.
    + intros [-> (r & ->)]. exists r. reflexivity.
    + intros (r & [= -> ->]). split; [reflexivity|]. exists r. reflexivity.
Qed.
Lemma absolute_spec c d w rel : runs_in c d w ->
  to_absolute_path c d rel =
    match resolve (c_links c) d (named c rel) with
    | At q => if within q w then Some q else None
    | _ => if contains rel (L "..") then None else Some (named c rel)
    end.
Proof.
  intros (S & _ & W & _). unfold to_absolute_path, path_exists, canonicalize, place_path, named. rewrite W.
  destruct (resolve (c_links c) d (join_path (c_ws c) rel)); reflexivity.
Qed.

(** ** Writing and removing at a place *)
Lemma vacant_none k d cur p q : walk k d cur p = Vacant q -> node_at d q = None /\ q <> [].
Proof.
  revert k cur p. apply (lex_ind (fun k cur p => walk k d cur p = Vacant q -> node_at d q = None /\ q <> [])).
  intros k cur p IHk IHp H. destruct p as [|c p]; [rewrite walk_nil in H; discriminate|]. rewrite walk_cons in H.
  destruct (node_at d cur) as [[]|]; try discriminate. destruct (stays c); [eapply IHp; eauto; cbn [length]; lia|].
  destruct (climbs c); [eapply IHp; eauto; cbn [length]; lia|].
  destruct (node_at d (cur ++ [c])) as [[]|] eqn:E; try (eapply IHp; eauto; cbn [length]; lia).
  - destruct k; [discriminate|]. eapply IHk; [|exact H]. lia.
  - destruct p; [|discriminate]. injection H as <-. split; [exact E|]. destruct cur; discriminate.
Qed.
Lemma walk_fill k d cur p q s : walk k d cur p = Vacant q -> walk k (set_node d q (File s)) cur p = At q.
Proof.
  intros H. destruct (vacant_none _ _ _ _ _ H) as [V NE]. revert H. revert k cur p.
  apply (lex_ind (fun k cur p => walk k d cur p = Vacant q -> walk k (set_node d q (File s)) cur p = At q)).
  intros k cur p IHk IHp H. destruct p as [|c p]; [rewrite walk_nil in H; discriminate|]. rewrite walk_cons in *.
  destruct (node_at d cur) as [[]|] eqn:E; try discriminate. rewrite (node_set_other d q (File s) cur NE), E by congruence.
  destruct (stays c); [apply IHp; auto; cbn [length]; lia|].
  destruct (climbs c); [apply IHp; auto; cbn [length]; lia|].
  destruct (node_at d (cur ++ [c])) as [n|] eqn:F.
  - rewrite (node_set_other d q (File s) (cur ++ [c]) NE), F by congruence.
    destruct n; try (apply IHp; auto; cbn [length]; lia). destruct k; [discriminate|]. apply IHk; auto; lia.
  - destruct p; [|discriminate]. injection H as <-. rewrite node_set_same, walk_nil by exact NE. reflexivity.
Qed.
Lemma set_contents d q s s' : node_at d q = Some (File s) -> q <> [] ->
  forall p, node_at (set_node d q (File s')) p = node_at d p \/ exists t t', node_at d p = Some (File t) /\ node_at (set_node d q (File s')) p = Some (File t').
Proof.
  intros F NE p. destruct (place_dec q p) as [<-|N].
  - right. exists s, s'. rewrite node_set_same by exact NE. auto.
  - left. apply node_set_other; auto.
Qed.
Lemma file_not_root d q s : node_at d q = Some (File s) -> q <> [].
Proof. intros H ->. discriminate. Qed.

(** What writing a source file does. *)
Definition wrote_over (c : ctx) (w : place) (d d' : fs) (rel content : str) : Prop :=
  exists q old, resolve (c_links c) d (named c rel) = At q /\ inside w q /\ node_at d q = Some (File old) /\ d' = set_node d q (File content).
Definition wrote_new (c : ctx) (d d' : fs) (rel content : str) : Prop :=
  (forall q, resolve (c_links c) d (named c rel) <> At q) /\ contains rel (L "..") = false /\
  exists d1 q b n, only_dirs_added d d1 /\ sound d1 /\ parent (named c rel) = Some b /\
    create_dir_all (S n) (c_links c) d b = (d1, true) /\
    (resolve (c_links c) d1 (named c rel) = Vacant q \/
     (resolve (c_links c) d1 (named c rel) = At q /\ exists old, node_at d1 q = Some (File old))) /\
    d' = set_node d1 q (File content).

Lemma canonical_parent d k q a b : sound d -> node_at d (q ++ [a]) <> None -> parent (q ++ [a]) = Some b -> is_dir k d b = true.
Proof.
  intros S N P. destruct (S q a N) as [D PN]. destruct (proper_go a PN) as [S1 _]. destruct (parent_name q a S1) as (b' & ss & E & E2 & F).
  assert (b' = b) by congruence. subst b'. unfold is_dir, stat.
  assert (R : resolve k d q = At q) by (apply resolve_place; auto; [congruence|intros t; congruence]).
  unfold resolve in *. rewrite E2 in R at 1. apply walk_stays in R; [|exact F]. rewrite R, D. reflexivity.
Qed.
Lemma write_file_spec c d w rel content d' ok : runs_in c d w -> write_source_file c d rel content = (d', ok) ->
  (ok = false /\ only_dirs_added d d' /\ sound d') \/
  (ok = true /\ ends_with rel (L ".firm") = true /\ (wrote_over c w d d' rel content \/ wrote_new c d d' rel content)).
Proof.
  intros RI. pose proof RI as (S & SL & W & D). unfold write_source_file.
  assert (Fail : forall x, (x, false) = (d', ok) -> only_dirs_added d x -> sound x ->
    (ok = false /\ only_dirs_added d d' /\ sound d') \/
    (ok = true /\ ends_with rel (L ".firm") = true /\ (wrote_over c w d d' rel content \/ wrote_new c d d' rel content))).
  { intros x [= <- <-] A B. left. auto. }
  destruct (ends_with rel (L ".firm")) eqn:EW; cbn [negb]; [|intros H; apply (Fail d); auto using dirs_refl].
  assert (New : (forall q, resolve (c_links c) d (named c rel) <> At q) ->
    match (if contains rel (L "..") then None else Some (named c rel)) with
    | None => (d, false)
    | Some p => match (match parent p with Some q => create_dir_all (Datatypes.S (length q)) (c_links c) d q | None => (d, true) end) with
                | (d1, true) => match write (c_links c) d1 p content with Some d2 => (d2, true) | None => (d1, false) end
                | (d1, false) => (d1, false)
                end
    end = (d', ok) ->
    (ok = false /\ only_dirs_added d d' /\ sound d') \/
    (ok = true /\ true = true /\ (wrote_over c w d d' rel content \/ wrote_new c d d' rel content))).
  { intros R. destruct (contains rel (L "..")) eqn:C; [intros H; apply (Fail d); auto using dirs_refl|].
    destruct (join_path_last (c_ws c) rel EW) as (p' & n & E & S1 & S2 & _). fold (named c rel) in E.
    destruct (parent_name p' n S1) as (b & ss & P & _). rewrite <- E in P. rewrite P.
    destruct (create_dir_all (Datatypes.S (length b)) (c_links c) d b) as [d1 b1] eqn:CR.
    assert (SB : slashless b) by (apply (slashless_sub (named c rel)); [apply named_slashless; exact SL|]; intros x; apply parent_in; exact P).
    destruct (create_dirs _ _ _ _ _ _ S SB CR) as [X SX].
    destruct b1; [|intros H; apply (Fail d1); auto]. unfold write.
    destruct (resolve (c_links c) d1 (named c rel)) as [q1|q1| |] eqn:R1; try (intros H; apply (Fail d1); auto; fail).
    - destruct (node_at d1 q1) as [[old| |t]|] eqn:F; try (intros H; apply (Fail d1); auto; fail). intros [= <- <-].
      right. split; [reflexivity|]. split; [reflexivity|]. right. split; [exact R|]. split; [exact C|].
      exists d1, q1, b, (length b). split; [exact X|]. split; [exact SX|]. split; [exact P|]. split; [exact CR|]. split; [right; eauto|reflexivity].
    - intros [= <- <-].
      right. split; [reflexivity|]. split; [reflexivity|]. right. split; [exact R|]. split; [exact C|].
      exists d1, q1, b, (length b). split; [exact X|]. split; [exact SX|]. split; [exact P|]. split; [exact CR|]. split; [left; auto|reflexivity]. }
  rewrite (absolute_spec c d w rel RI). destruct (resolve (c_links c) d (named c rel)) as [q|q| |] eqn:R.
  - destruct (within q w) eqn:IN; [|intros H; apply (Fail d); auto using dirs_refl]. apply within_spec in IN.
    pose proof (canon_again d (c_links c) (c_links c) _ q S R) as CA. destruct (resolve_at d (c_links c) _ q S R) as [N NL].
    destruct q as [|a q _] using rev_ind.
    + cbn [parent rev drop_stays]. unfold write. rewrite CA. cbn [node_at]. intros H. apply (Fail d); auto using dirs_refl.
    + assert (NE : q ++ [a] <> []) by (destruct q; discriminate).
      destruct (S q a N) as [_ PN]. destruct (proper_go a PN) as [S1 _]. destruct (parent_name q a S1) as (b & ss & E & _).
      rewrite E, (create_existing (length b) (c_links c) d b S (canonical_parent d (c_links c) q a b S N E)).
      unfold write. rewrite CA. destruct (node_at d (q ++ [a])) as [[old| |t]|] eqn:F; try (intros H; apply (Fail d); auto using dirs_refl; fail).
      intros [= <- <-]. right. split; [reflexivity|]. split; [reflexivity|]. left. exists (q ++ [a]), old. auto.
  - apply New. discriminate.
  - apply New. discriminate.
  - apply New. discriminate.
Qed.

(** ** Staying in the workspace *)
Lemma inside_dec w q : inside w q \/ ~ inside w q.
Proof. destruct (within q w) eqn:E; [left|right]; rewrite <- within_spec; congruence. Qed.
Lemma inside_more w q r : inside w q -> inside w (q ++ r).
Proof. intros (x & ->). exists (x ++ r). rewrite app_assoc. reflexivity. Qed.
Lemma inside_refl w : inside w w.
Proof. exists []. rewrite app_nil_r. reflexivity. Qed.
Lemma confined_refl w d : confined w d d.
Proof. intros p _. reflexivity. Qed.
Lemma confined_trans w d1 d2 d3 : confined w d1 d2 -> confined w d2 d3 -> confined w d1 d3.
Proof. intros A B p N. rewrite (B p N). apply A. exact N. Qed.
Lemma confined_set w d q n : inside w q -> q <> [] -> confined w d (set_node d q n).
Proof. intros I NE p N. apply node_set_other; [exact NE|]. intros <-. auto. Qed.
Lemma confined_unset w d q : inside w q -> q <> [] -> confined w d (unset_node d q).
Proof.
  intros I NE p N. rewrite node_unset by exact NE. destruct (place_eqb q p) eqn:E; [|reflexivity]. apply place_eqb_eq in E as ->. contradiction.
Qed.
Lemma walk_inside w d k cur p q : no_links_in w d -> inside w cur -> Forall (fun c => climbs c = false) p ->
  walk k d cur p = At q \/ walk k d cur p = Vacant q -> inside w q.
Proof.
  intros NL. revert cur. induction p as [|c p IH]; intros cur I F H.
  - rewrite walk_nil in H. destruct H as [H|H]; [|discriminate]. injection H as <-. exact I.
  - inversion F as [|? ? F1 F2]; subst. rewrite walk_cons, F1 in H. destruct (node_at d cur) as [[]|]; try (destruct H; discriminate).
    destruct (stays c); [exact (IH cur I F2 H)|]. pose proof (inside_more w cur [c] I) as I2.
    destruct (node_at d (cur ++ [c])) as [[]|] eqn:E; try exact (IH _ I2 F2 H); [exfalso; exact (NL _ _ I2 E)|].
    destruct p; [destruct H as [H|H]; [discriminate|]; injection H as <-; exact I2|destruct H; discriminate].
Qed.
Lemma walk_prefix k d cur p1 p2 q : walk k d cur (p1 ++ p2) = At q -> exists r, walk k d cur p1 = At r /\ (p2 <> [] -> node_at d r = Some Dir).
Proof.
  revert k cur p1. apply (lex_ind (fun k cur p1 => walk k d cur (p1 ++ p2) = At q -> exists r, walk k d cur p1 = At r /\ (p2 <> [] -> node_at d r = Some Dir))).
  intros k cur p1 IHk IHp H. destruct p1 as [|c p1]; cbn [app] in H.
  - exists cur. rewrite walk_nil. split; [reflexivity|]. intros N. destruct p2 as [|x p2]; [congruence|]. rewrite walk_cons in H.
    destruct (node_at d cur) as [[]|]; congruence.
  - rewrite walk_cons in *. destruct (node_at d cur) as [[]|]; try discriminate.
    destruct (stays c); [apply IHp; auto; cbn [length]; lia|]. destruct (climbs c); [apply IHp; auto; cbn [length]; lia|].
    destruct (node_at d (cur ++ [c])) as [[]|]; try (apply IHp; auto; cbn [length]; lia).
    + destruct k as [|k]; [discriminate|]. apply IHk; [lia|]. rewrite <- app_assoc. exact H.
    + destruct (p1 ++ p2); discriminate.
Qed.

(** A walk along a path whose first part leads somewhere, the budget being the same. *)
Lemma walk_then d k cur p1 r : sound d -> node_at d cur <> None -> walk k d cur p1 = At r ->
  exists k', forall d1 p2, extends d d1 -> walk k d1 cur (p1 ++ p2) = walk k' d1 r p2.
Proof.
  intros S. revert k cur p1. apply (lex_ind (fun k cur p1 => node_at d cur <> None -> walk k d cur p1 = At r ->
    exists k', forall d1 p2, extends d d1 -> walk k d1 cur (p1 ++ p2) = walk k' d1 r p2)).
  intros k cur p1 IHk IHp N H. destruct p1 as [|c p1].
  - rewrite walk_nil in H. injection H as <-. exists k. reflexivity.
  - rewrite walk_cons in H. destruct (node_at d cur) as [[]|] eqn:E; try discriminate.
    assert (Step : forall cur', node_at d cur' <> None -> walk k d cur' p1 = At r ->
      (forall d1 p2, extends d d1 -> walk k d1 cur ((c :: p1) ++ p2) = walk k d1 cur' (p1 ++ p2)) ->
      exists k', forall d1 p2, extends d d1 -> walk k d1 cur ((c :: p1) ++ p2) = walk k' d1 r p2).
    { intros cur' N' H' Q. destruct (IHp cur' p1 ltac:(cbn [length]; lia) N' H') as (k' & K). exists k'. intros d1 p2 X. rewrite Q, K; auto. }
    destruct (stays c) eqn:S1.
    { apply (Step cur); auto; [congruence|]. intros d1 p2 X. cbn [app]. rewrite walk_cons, (X _ _ E), S1. reflexivity. }
    destruct (climbs c) eqn:S2.
    { apply (Step (removelast cur)); auto; [apply sound_up; [exact S|congruence]|]. intros d1 p2 X. cbn [app]. rewrite walk_cons, (X _ _ E), S1, S2. reflexivity. }
    destruct (node_at d (cur ++ [c])) as [[s| |t]|] eqn:F.
    + apply (Step (cur ++ [c])); auto; [congruence|]. intros d1 p2 X. cbn [app]. rewrite walk_cons, (X _ _ E), S1, S2, (X _ _ F). reflexivity.
    + apply (Step (cur ++ [c])); auto; [congruence|]. intros d1 p2 X. cbn [app]. rewrite walk_cons, (X _ _ E), S1, S2, (X _ _ F). reflexivity.
    + destruct k as [|k]; [discriminate|].
      assert (NB : node_at d (match t with "/"%char :: _ => [] | _ => cur end) <> None).
      { destruct t as [|[[] [] [] [] [] [] [] []] t]; first [discriminate|congruence]. }
      destruct (IHk k _ _ ltac:(lia) NB H) as (k' & K).
      exists k'. intros d1 p2 X. cbn [app]. rewrite walk_cons, (X _ _ E), S1, S2, (X _ _ F), <- K, <- app_assoc by exact X. reflexivity.
    + destruct p1; discriminate.
Qed.
Lemma walk_down w d k cur p q : no_links_in w d -> inside w cur -> Forall (fun c => climbs c = false) p ->
  walk k d cur p = At q -> exists r, q = cur ++ r.
Proof.
  intros NL. revert cur. induction p as [|c p IH]; intros cur I F H.
  - rewrite walk_nil in H. injection H as <-. exists []. rewrite app_nil_r. reflexivity.
  - inversion F as [|? ? F1 F2]; subst. rewrite walk_cons, F1 in H. destruct (node_at d cur) as [[]|]; try discriminate.
    destruct (stays c); [exact (IH cur I F2 H)|]. pose proof (inside_more w cur [c] I) as I2.
    destruct (node_at d (cur ++ [c])) as [[]|] eqn:E; try (destruct (IH _ I2 F2 H) as (r & ->); exists (c :: r); rewrite <- app_assoc; reflexivity).
    + exfalso; exact (NL _ _ I2 E).
    + destruct p; discriminate.
Qed.
(** A path that leads to a node after directories were made, led to it before if it was there. *)
Lemma walk_back w d d1 k cur p q : no_links_in w d1 -> sound d -> extends d d1 -> inside w cur -> Forall (fun c => climbs c = false) p ->
  node_at d q <> None -> walk k d1 cur p = At q -> walk k d cur p = At q.
Proof.
  intros NL S X. revert cur. induction p as [|c p IH]; intros cur I F N H.
  - rewrite walk_nil in *. exact H.
  - pose proof (walk_down w d1 k cur _ q NL I F H) as (r & E). inversion F as [|? ? F1 F2]; subst. rewrite walk_cons, F1 in *.
    assert (Dc : node_at d1 cur = Some Dir) by (destruct (node_at d1 cur) as [[]|]; congruence). rewrite Dc in H.
    assert (D0 : node_at d cur = Some Dir).
    { destruct r as [|x r]; [rewrite app_nil_r in *|apply (sound_prefix d cur (x :: r)); auto; discriminate].
      destruct (node_at d cur) as [m|] eqn:M; [|congruence]. rewrite (X _ _ M) in Dc. exact Dc. }
    rewrite D0. destruct (stays c); [exact (IH cur I F2 N H)|]. pose proof (inside_more w cur [c] I) as I2.
    assert (P : node_at d1 (cur ++ [c]) <> None -> exists r', cur ++ r = (cur ++ [c]) ++ r').
    { intros P. destruct (node_at d1 (cur ++ [c])) as [[]|] eqn:E; [| |exfalso; exact (NL _ _ I2 E)|congruence];
        destruct (walk_down w d1 k _ p _ NL I2 F2 H) as (r' & Q); eauto. }
    destruct (node_at d1 (cur ++ [c])) as [m1|] eqn:E1; [|destruct p; discriminate]. destruct (P ltac:(discriminate)) as (r' & Q).
    assert (N1 : node_at d (cur ++ [c]) <> None).
    { rewrite Q in N. destruct r' as [|x r']; [rewrite app_nil_r in N; exact N|]. rewrite (sound_prefix d (cur ++ [c]) (x :: r') S N); discriminate. }
    destruct (node_at d (cur ++ [c])) as [m|] eqn:M; [|congruence]. rewrite (X _ _ M) in E1. injection E1 as <-.
    destruct m; [exact (IH _ I2 F2 N H)|exact (IH _ I2 F2 N H)|exfalso; exact (NL _ _ I2 (X _ _ M))].
Qed.
(** A plain path to a vacant place. *)
Lemma walk_vacant_down w d k cur p c q : no_links_in w d -> inside w cur -> Forall (fun c => climbs c = false) (p ++ [c]) ->
  walk k d cur (p ++ [c]) = Vacant q -> stays c = false -> exists r, walk k d cur p = At r /\ node_at d r = Some Dir /\ q = r ++ [c] /\ node_at d q = None.
Proof.
  intros NL. revert cur. induction p as [|a p IH]; intros cur I F H S1.
  - cbn [app] in *. inversion F as [|? ? F1 F2]; subst. rewrite walk_cons, S1, F1 in H. exists cur. rewrite walk_nil.
    destruct (node_at d cur) as [[]|] eqn:D; try discriminate. pose proof (inside_more w cur [c] I) as I2.
    destruct (node_at d (cur ++ [c])) as [[]|] eqn:E; try (rewrite walk_nil in H; discriminate); [exfalso; exact (NL _ _ I2 E)|].
    injection H as <-. auto.
  - cbn [app] in *. inversion F as [|? ? F1 F2]; subst. rewrite walk_cons, F1 in *.
    destruct (node_at d cur) as [[]|]; try discriminate. destruct (stays a); [exact (IH cur I F2 H S1)|].
    pose proof (inside_more w cur [a] I) as I2.
    destruct (node_at d (cur ++ [a])) as [[]|] eqn:E; try exact (IH _ I2 F2 H S1); [exfalso; exact (NL _ _ I2 E)|].
    destruct p; discriminate.
Qed.

Lemma named_relative c rel : starts_with rel (L "/") = false -> named c rel = c_ws c ++ path_of rel.
Proof.
  unfold named. destruct rel as [|[[] [] [] [] [] [] [] []] rel]; cbn [join_path]; auto. discriminate.
Qed.
Lemma links_dirs w d d1 : only_dirs_added d d1 -> no_links_in w d -> no_links_in w d1.
Proof. intros X NL p t I E. destruct (X p) as [Q|[_ Q]]; [|congruence]. apply (NL p t I). congruence. Qed.
(** ** Rolling back *)
(** A path that leads nowhere does not lead to a file once directories were made. *)
Lemma named_added c d d1 w rel q : runs_in c d w -> unlinked c d w rel -> only_dirs_added d d1 ->
  contains rel (L "..") = false -> (forall r, resolve (c_links c) d (named c rel) <> At r) ->
  resolve (c_links c) d1 (named c rel) = At q -> node_at d q = None.
Proof.
  intros (S & SL & W & D) U X C A R. pose proof (no_climb rel C) as NC. pose proof (dirs_extends d d1 X) as XE.
  destruct U as [ND|(NL & RR & _)].
  - unfold named, resolve in *. destruct (join_path_cases (c_ws c) rel) as [E|E]; rewrite E in *.
    + eapply (walk_added (c_links c) d d1 (c_links c) [] (path_of rel)); eauto. discriminate.
    + destruct (walk_then d (c_links c) [] (c_ws c) w S ltac:(discriminate) W) as (k' & Sp).
      eapply (walk_added (c_links c) d d1 k' w (path_of rel)); eauto; [congruence|intros r; rewrite <- (Sp d _ (extends_refl d)); apply A|].
      rewrite <- (Sp d1 _ XE). exact R.
  - rewrite (named_relative c rel RR) in *. unfold resolve in *.
    destruct (walk_then d (c_links c) [] (c_ws c) w S ltac:(discriminate) W) as (k' & Sp). rewrite (Sp d1 _ XE) in R.
    destruct (node_at d q) as [m|] eqn:M; [|reflexivity]. exfalso. apply (A q). rewrite (Sp d _ (extends_refl d)).
    eapply (walk_back w d d1); eauto using links_dirs, inside_refl. congruence.
Qed.
Lemma wrote_new_vacant c d d' w rel content : runs_in c d w -> unlinked c d w rel ->
  ends_with rel (L ".firm") = true -> wrote_new c d d' rel content ->
  exists d1 p r n, only_dirs_added d d1 /\ sound d1 /\ named c rel = p ++ [n] /\ proper_name n /\ resolve (c_links c) d1 p = At r /\ node_at d1 r = Some Dir /\
    node_at d1 (r ++ [n]) = None /\ d' = set_node d1 (r ++ [n]) (File content) /\ resolve (c_links c) d1 (named c rel) = Vacant (r ++ [n]).
Proof.
  intros RI U EW (A & C & d1 & q & b & m & X & SX & _ & _ & V & ->). pose proof RI as (S & SL & W & D).
  destruct V as [V|(V & old & F)].
  2:{ exfalso. pose proof (named_added c d d1 w rel q RI U X C A V) as N. destruct (X q) as [E|[_ E]]; congruence. }
  pose proof (no_climb rel C) as NC. pose proof (dirs_extends d d1 X) as XE.
  destruct (join_path_last (c_ws c) rel EW) as (p & n & E & S1 & S2 & _). fold (named c rel) in E.
  assert (Q : exists r, resolve (c_links c) d1 p = At r /\ node_at d1 r = Some Dir /\ q = r ++ [n] /\ node_at d1 q = None).
  { unfold resolve in *. destruct U as [ND|(NL & RR & _)].
    - rewrite E in V. pose proof (dirs_dangling _ d d1 S X ND) as ND1.
      destruct (walk_vacant _ d1 (c_links c) [] p n q ND1 SX ltac:(discriminate) V) as (r & Wr & Dr & Eq & _ & _ & Nq). eauto.
    - destruct (firm_last rel EW) as (rp & n' & PR & _). pose proof E as E'. rewrite (named_relative c rel RR), PR, app_assoc in E'.
      apply app_inj_tail in E' as [<- <-]. rewrite (named_relative c rel RR) in V.
      destruct (walk_then d (c_links c) [] (c_ws c) w S ltac:(discriminate) W) as (k' & Sp). rewrite (Sp d1 _ XE), PR in V.
      rewrite (Sp d1 _ XE). rewrite PR in NC. apply (walk_vacant_down w d1 k' w rp n' q); auto using inside_refl. eapply links_dirs; eauto. }
  destruct Q as (r & Wr & Dr & -> & Nq).
  exists d1, p, r, n. split; [exact X|]. split; [exact SX|]. split; [exact E|]. split.
  { apply (proper_of (named c rel)); [apply named_slashless; exact SL|]. unfold last_name. rewrite E, rev_unit, S1, S2. reflexivity. }
  repeat split; auto.
Qed.

Lemma rollback_over c d w rel content : runs_in c d w -> 
  forall q old, resolve (c_links c) d (named c rel) = At q -> node_at d q = Some (File old) ->
  rollback_write c (set_node d q (File content)) rel (Some old) = (d, true).
Proof.
  intros RI q old R F. unfold rollback_write, write. fold (named c rel).
  pose proof (file_not_root d q old F) as NE. unfold resolve in *.
  rewrite (walk_contents d _ (c_links c) [] (named c rel) (set_contents d q old content F NE)), R.
  rewrite node_set_same by exact NE. rewrite set_back; [reflexivity|]. destruct q; [congruence|exact F].
Qed.
Lemma rollback_new c d d' w rel content : runs_in c d w -> unlinked c d w rel -> ends_with rel (L ".firm") = true ->
  wrote_new c d d' rel content -> exists d2, rollback_write c d' rel None = (d2, true) /\ only_dirs_added d d2 /\ sound d2.
Proof.
  intros RI ND EW WN. destruct (wrote_new_vacant c d d' w rel content RI ND EW WN) as (d1 & p & r & n & X & SX & E & PN & R & D & N & -> & _).
  destruct (proper_go n PN) as [S1 S2]. assert (NE : r ++ [n] <> []) by (destruct r; discriminate).
  assert (NR : r ++ [n] <> r) by (intros Q; apply (f_equal (@length str)) in Q; rewrite app_length in Q; cbn in Q; lia).
  set (d' := set_node d1 (r ++ [n]) (File content)).
  assert (XE : extends d1 d').
  { intros x m H. unfold d'. rewrite node_set_other; auto. congruence. }
  assert (R' : resolve (c_links c) d' p = At r).
  { unfold resolve in *. rewrite <- R. apply walk_extends; auto; [discriminate|eauto]. }
  exists (unset_node d' (r ++ [n])).
  assert (U : forall x, node_at (unset_node d' (r ++ [n])) x = node_at d1 x).
  { intros x. rewrite node_unset by exact NE. destruct (place_eqb (r ++ [n]) x) eqn:Q; [apply place_eqb_eq in Q as <-; auto|].
    apply place_eqb_neq in Q. apply node_set_other; auto. }
  split; [|split].
  - unfold rollback_write, remove_file. fold (named c rel). rewrite E. unfold last_name. rewrite rev_unit, S1, S2. cbn [orb].
    rewrite removelast_last, R'. unfold d' at 1 2. rewrite node_set_other, D, node_set_same by auto. reflexivity.
  - intros x. rewrite U. apply X.
  - intros x y. rewrite !U. apply SX.
Qed.

(** ** Writing *)
Lemma wrote_over_sound c w d d' rel s : sound d -> wrote_over c w d d' rel s -> sound d'.
Proof. intros S (q & old & _ & _ & F & ->). eapply sound_file; eauto. Qed.
(** A read of what was written over. *)
Lemma read_over c w d d' rel s : wrote_over c w d d' rel s ->
  exists q old, resolve (c_links c) d (named c rel) = At q /\ inside w q /\ node_at d q = Some (File old) /\ d' = set_node d q (File s) /\
    read_text (c_links c) d (named c rel) = if is_text old then Some old else None.
Proof.
  intros (q & old & R & I & F & ->). exists q, old. repeat split; auto. unfold read_text, stat. rewrite R, F. reflexivity.
Qed.
Lemma read_none c d rel : (forall q, resolve (c_links c) d (named c rel) <> At q) -> read_text (c_links c) d (named c rel) = None.
Proof. intros H. unfold read_text, stat. destruct (resolve (c_links c) d (named c rel)) as [q| | |]; auto. exfalso. exact (H q eq_refl). Qed.

Lemma rejected_write c d w st rel content force d' st' a : runs_in c d w -> unlinked c d w rel -> target_is_text c d w rel ->
  write_source c d st rel content force = (d', st', a) -> a = Refused \/ (exists b, a = Invalid b) ->
  st' = st /\ only_dirs_added d d' /\ sound d' /\ forall b, a = Invalid b -> b = true.
Proof.
  intros RI ND TT H A. pose proof RI as (S & SL & W & D). unfold write_source, validate_and_write in H.
  assert (Fail : (d, st, Refused) = (d', st', a) -> st' = st /\ only_dirs_added d d' /\ sound d' /\ forall b, a = Invalid b -> b = true).
  { intros [= <- <- <-]. split; [reflexivity|]. split; [apply dirs_refl|]. split; [exact S|]. discriminate. }
  destruct (c_parse c content) as [ps|]; [|auto]. destruct (ps_error ps); [auto|].
  destruct (write_source_file c d rel content) as [d1 ok] eqn:Wr.
  destruct (write_file_spec c d w rel content d1 ok RI Wr) as [(-> & X & SX)|(-> & EW & K)].
  { injection H as <- <- <-. split; [reflexivity|]. split; [exact X|]. split; [exact SX|]. discriminate. }
  unfold finish_write in H. destruct (rebuild c d1) as [s|e|] eqn:RB; try (injection H as <- <- <-; destruct A as [A|[b A]]; discriminate).
  destruct force; [injection H as <- <- <-; destruct A as [A|[b A]]; discriminate|].
  destruct K as [K|K].
  - destruct (read_over c w d d1 rel content K) as (q & old & R & I & F & -> & RT). fold (named c rel) in H. rewrite RT, (TT q old R I F) in H.
    rewrite (rollback_over c d w rel content RI q old R F) in H. injection H as <- <- <-. split; [reflexivity|]. split; [apply dirs_refl|]. split; [exact S|]. intros b [= <-]. reflexivity.
  - fold (named c rel) in H. rewrite (read_none c d rel) in H by apply K.
    destruct (rollback_new c d d1 w rel content RI ND EW K) as (d2 & RW & X & SX). rewrite RW in H. injection H as <- <- <-.
    split; [reflexivity|]. split; [exact X|]. split; [exact SX|]. intros b [= <-]. reflexivity.
Qed.

(** ** Replacing *)
Lemma read_spec c d w rel text : runs_in c d w -> read_source_file c d rel = Ok text ->
  exists q, resolve (c_links c) d (named c rel) = At q /\ inside w q /\ node_at d q = Some (File text) /\ is_text text = true.
Proof.
  intros RI. pose proof RI as (S & _). unfold read_source_file. rewrite (absolute_spec c d w rel RI).
  destruct (resolve (c_links c) d (named c rel)) as [q|q| |] eqn:R.
  - destruct (within q w) eqn:IN; [|discriminate]. apply within_spec in IN.
    pose proof (canon_again d (c_links c) (c_links c) _ q S R) as CA.
    destruct (negb (path_exists (c_links c) d q)); [discriminate|]. destruct (negb _); [discriminate|].
    unfold read_text, stat. rewrite CA. destruct (node_at d q) as [[s| |t]|] eqn:F; try discriminate.
    destruct (is_text s) eqn:T; [|discriminate]. intros [= <-]. exists q. auto.
  - destruct (contains rel (L "..")); [discriminate|]. unfold path_exists. rewrite R. discriminate.
  - destruct (contains rel (L "..")); [discriminate|]. unfold path_exists. rewrite R. discriminate.
  - destruct (contains rel (L "..")); [discriminate|]. unfold path_exists. rewrite R. discriminate.
Qed.
Lemma replaced_read c d rel old new all content n : replace_in_file c d rel old new all = Replaced content n ->
  old <> [] /\ exists text, read_source_file c d rel = Ok text /\ replace_text text old new all = Replaced content n.
Proof.
  unfold replace_in_file. destruct old as [|a old]; [discriminate|]. intros H. split; [discriminate|].
  destruct (read_source_file c d rel) as [text|e|]; try discriminate. eauto.
Qed.
(** Writing to a file that exists and holds text. *)
Lemma write_existing c d w st rel content force d' st' a q old : runs_in c d w ->
  resolve (c_links c) d (named c rel) = At q -> node_at d q = Some (File old) -> is_text old = true ->
  write_source c d st rel content force = (d', st', a) ->
  match a with
  | Accepted => d' = set_node d q (File content) /\ inside w q /\ rebuild c d' = Ok st'
  | Forced => d' = set_node d q (File content) /\ inside w q /\ st' = st /\ exists e, rebuild c d' = Err e
  | Refused => d' = d /\ st' = st
  | Invalid b => b = true /\ d' = d /\ st' = st
  | Crashed => d' = set_node d q (File content) /\ inside w q /\ st' = st /\ rebuild c d' = Panic
  end.
Proof.
  intros RI R F T H. pose proof RI as (S & SL & W & D). unfold write_source, validate_and_write in H.
  destruct (c_parse c content) as [ps|]; [|injection H as <- <- <-; auto]. destruct (ps_error ps); [injection H as <- <- <-; auto|].
  destruct (write_source_file c d rel content) as [d1 ok] eqn:Wr.
  assert (Q : ok = true -> d1 = set_node d q (File content) /\ inside w q).
  { intros ->. destruct (write_file_spec c d w rel content d1 true RI Wr) as [(O & _)|(_ & EW & [K|K])]; [discriminate| |].
    - destruct K as (q' & old' & R' & I & F' & ->). assert (q' = q) by congruence. subst q'. auto.
    - destruct K as (A & _). exfalso. exact (A q R). }
  destruct ok.
  - destruct (Q eq_refl) as [-> I]. unfold finish_write in H. destruct (rebuild c (set_node d q (File content))) as [s|e|] eqn:RB.
    + injection H as <- <- <-. auto.
    + destruct force; [injection H as <- <- <-; eauto|].
      assert (RT : read_text (c_links c) d (join_path (c_ws c) rel) = Some old).
      { fold (named c rel). unfold read_text, stat. rewrite R, F, T. reflexivity. }
      rewrite RT, (rollback_over c d w rel content RI q old R F) in H. injection H as <- <- <-. auto.
    + injection H as <- <- <-. auto.
  - unfold write_source_file in Wr. destruct (ends_with rel (L ".firm")); cbn [negb] in Wr.
    2:{ injection Wr as <-. injection H as <- <- <-. auto. }
    rewrite (absolute_spec c d w rel RI), R in Wr. destruct (within q w); [|injection Wr as <-; injection H as <- <- <-; auto].
    exfalso. destruct q as [|x q _] using rev_ind; [discriminate|]. assert (N : node_at d (q ++ [x]) <> None) by congruence.
    destruct (S q x N) as [_ PN]. destruct (proper_go x PN) as [S1 _]. destruct (parent_name q x S1) as (b & ss & E & _).
    rewrite E, (create_existing (length b) (c_links c) d b S (canonical_parent d (c_links c) q x b S N E)) in Wr.
    unfold write in Wr. rewrite (canon_again d (c_links c) (c_links c) _ _ S R), F in Wr. discriminate.
Qed.
Lemma replace_effect c d w st rel old new all force d' st' a : runs_in c d w ->
  replace_source c d st rel old new all force = (d', st', a) ->
  (d' = d /\ st' = st /\ (a = Refused \/ a = Invalid true \/ a = Crashed)) \/
  exists q text content n, resolve (c_links c) d (named c rel) = At q /\ inside w q /\ node_at d q = Some (File text) /\ is_text text = true /\
    replace_text text old new all = Replaced content n /\ old <> [] /\ d' = set_node d q (File content) /\
    match a with
    | Accepted => rebuild c d' = Ok st'
    | Forced => st' = st /\ exists e, rebuild c d' = Err e
    | Crashed => st' = st /\ rebuild c d' = Panic
    | _ => False
    end.
Proof.
  intros RI. unfold replace_source. destruct (replace_in_file c d rel old new all) as [| |content n] eqn:RF;
    try (intros [= <- <- <-]; left; auto; fail).
  intros H. destruct (replaced_read c d rel old new all content n RF) as (NE & text & RT & RP).
  destruct (read_spec c d w rel text RI RT) as (q & R & I & F & T).
  pose proof (write_existing c d w st rel content force d' st' a q text RI R F T H) as X.
  destruct a as [| | |b|].
  - destruct X as (-> & _ & B). right. exists q, text, content, n. auto 10.
  - destruct X as (-> & _ & B). right. exists q, text, content, n. auto 10.
  - destruct X as (-> & ->). left. auto.
  - destruct X as (-> & -> & ->). left. auto.
  - destruct X as (-> & _ & B). right. exists q, text, content, n. auto 10.
Qed.

(** ** Deleting *)
Lemma delete_effect c d w rel d1 content : runs_in c d w -> delete_file c d rel = Some (d1, content) ->
  exists q p n, resolve (c_links c) d (named c rel) = At q /\ inside w q /\ node_at d q = Some (File content) /\ is_text content = true /\ d1 = unset_node d q /\
    named c rel = p ++ [n] /\ stays n = false /\ climbs n = false.
Proof.
  intros RI. pose proof RI as (S & _). unfold delete_file. destruct (ends_with rel (L ".firm")) eqn:EW; [cbn [negb]|discriminate].
  destruct (join_path_last (c_ws c) rel EW) as (p & n & E & S1 & S2 & _). fold (named c rel) in E.
  rewrite (absolute_spec c d w rel RI).
  destruct (resolve (c_links c) d (named c rel)) as [q|q| |] eqn:R;
    [|destruct (contains rel (L "..")); [discriminate|]; unfold path_exists; rewrite R; discriminate ..].
  destruct (within q w) eqn:IN; [|discriminate]. apply within_spec in IN.
  pose proof (canon_again d (c_links c) (c_links c) _ q S R) as CA.
  destruct (negb (path_exists (c_links c) d q)); [discriminate|].
  unfold read_text, stat. rewrite CA. destruct (node_at d q) as [[s| |t]|] eqn:F; try discriminate.
  destruct (is_text s) eqn:T; [|discriminate]. unfold remove_file.
  destruct q as [|x q _] using rev_ind; [discriminate|]. assert (N : node_at d (q ++ [x]) <> None) by congruence.
  destruct (S q x N) as [D PN]. destruct (proper_go x PN) as [S3 S4].
  unfold last_name. rewrite rev_unit, S3, S4. cbn [orb]. rewrite removelast_last.
  rewrite (resolve_place d (c_links c) q S) by (congruence || intros ?; congruence). rewrite D, F. intros [= <- <-].
  exists (q ++ [x]), p, n. auto 10.
Qed.
Lemma rollback_deleted c d w rel d1 content : runs_in c d w -> delete_file c d rel = Some (d1, content) ->
  exists q, resolve (c_links c) d (named c rel) = At q /\ inside w q /\ node_at d q = Some (File content) /\ is_text content = true /\ d1 = unset_node d q /\
    resolve (c_links c) d1 (named c rel) = Vacant q /\
    rollback_delete c d1 rel content = (set_node d1 q (File content), true).
Proof.
  intros RI H. destruct (delete_effect c d w rel d1 content RI H) as (q & p & n & R & I & F & T & -> & E & S1 & S2).
  pose proof RI as (S & _). pose proof (file_not_root d q content F) as NE. exists q. split; [exact R|]. split; [exact I|]. split; [exact F|]. split; [exact T|]. split; [reflexivity|].
  assert (V : resolve (c_links c) (unset_node d q) (named c rel) = Vacant q).
  { unfold resolve in *. rewrite (walk_removed d q content (c_links c) [] (named c rel) q S NE F ltac:(discriminate) ltac:(congruence) R).
    rewrite place_eqb_refl. reflexivity. }
  split; [exact V|]. unfold rollback_delete. fold (named c rel).
  destruct (parent_name p n S1) as (b & ss & P & E2 & SS). rewrite E, P.
  assert (B : is_dir (c_links c) (unset_node d q) b = true).
  { unfold resolve in R. rewrite E in R. destruct (walk_snoc_at (c_links c) d [] p n q ltac:(discriminate) R S1 S2 S) as (r & Wr & Dr & _).
    rewrite E2 in Wr. apply walk_stays in Wr; [|exact SS].
    assert (NQ : r <> q) by congruence.
    unfold is_dir, stat, resolve. rewrite (walk_removed d q content (c_links c) [] b r S NE F ltac:(discriminate) ltac:(congruence) Wr).
    destruct (place_eqb r q) eqn:Q; [apply place_eqb_eq in Q; congruence|]. rewrite node_unset by exact NE.
    destruct (place_eqb q r) eqn:Q'; [apply place_eqb_eq in Q'; congruence|]. rewrite Dr. reflexivity. }
  rewrite (create_existing (length b) (c_links c) (unset_node d q) b); [|apply sound_unset; auto; congruence|exact B].
  unfold write. rewrite <- E, V. reflexivity.
Qed.
Lemma put_back d q s : node_at d q = Some (File s) -> same d (set_node (unset_node d q) q (File s)).
Proof.
  intros F p. pose proof (file_not_root d q s F) as NE. rewrite node_set by exact NE. destruct (place_eqb q p) eqn:E.
  - apply place_eqb_eq in E as <-. congruence.
  - rewrite node_unset by exact NE. rewrite E. reflexivity.
Qed.

(** ** Confinement *)
(** Where a path below the workspace leads. *)
Lemma below_inside c d w rp q : runs_in c d w -> no_links_in w d -> Forall (fun x => climbs x = false) rp ->
  resolve (c_links c) d (c_ws c ++ rp) = At q \/ resolve (c_links c) d (c_ws c ++ rp) = Vacant q -> inside w q.
Proof.
  intros (S & SL & W & D) NL NC H. unfold resolve in *.
  destruct (walk_split d (c_links c) (c_links c) [] (c_ws c) rp w S ltac:(discriminate) W) as (k' & _ & Sp).
  destruct (Sp d (extends_refl d)) as [E|E]; rewrite E in H; [|destruct H; discriminate].
  eapply walk_inside; eauto using inside_refl.
Qed.
Lemma runs_dirs c d d1 w : runs_in c d w -> only_dirs_added d d1 -> sound d1 -> runs_in c d1 w.
Proof.
  intros (S & SL & W & D) X SX. split; [exact SX|]. split; [exact SL|]. split.
  - unfold resolve in *. rewrite <- W. apply walk_extends; [apply dirs_extends; exact X|exact S|discriminate|eauto].
  - apply (dirs_extends d d1 X). exact D.
Qed.
Lemma app_prefix {A} (a b x y : list A) : a ++ b = x ++ y -> (exists z, a = x ++ z) \/ (exists z, z <> [] /\ x = a ++ z).
Proof.
  revert x. induction a as [|h a IH]; intros x E; cbn [app] in E.
  - destruct x as [|h x]; [left; exists []; reflexivity|right; exists (h :: x); split; [discriminate|reflexivity]].
  - destruct x as [|h' x]; [left; exists (h :: a); reflexivity|]. cbn [app] in E. injection E as -> E. destruct (IH x E) as [(z & ->)|(z & N & ->)].
    + left. exists z. reflexivity.
    + right. exists z. split; [exact N|reflexivity].
Qed.
Lemma mkdir_confined c d w p rp rest d' : runs_in c d w -> no_links_in w d -> Forall (fun x => climbs x = false) rp ->
  c_ws c ++ rp = p ++ rest -> mkdir (c_links c) d p = Made d' -> confined w d d'.
Proof.
  intros RI NL NC E. pose proof RI as (S & SL & W & D). unfold mkdir. destruct (last_name p) as [x|] eqn:LN; [|discriminate].
  apply last_name_some in LN as (P & S1 & S2).
  destruct (resolve (c_links c) d (removelast p)) as [q|q| |] eqn:R; try discriminate.
  destruct (node_at d q) as [[]|] eqn:Dq; try discriminate. destruct (node_at d (q ++ [x])) eqn:N; try discriminate. intros [= <-].
  apply confined_set; [|destruct q; discriminate].
  destruct (app_prefix _ _ _ _ E) as [(z & Z)|(z & Nz & Z)].
  - exfalso. unfold resolve in W, R. rewrite Z in W. destruct (walk_prefix _ _ _ _ _ _ W) as (r & Wr & _).
    rewrite P in Wr. destruct (walk_snoc_at (c_links c) d [] (removelast p) x r ltac:(discriminate) Wr S1 S2 S) as (r' & Wr' & _ & Nr'). congruence.
  - apply inside_more. destruct z as [|y z _] using rev_ind; [congruence|]. rewrite app_assoc in Z. rewrite Z, removelast_last in R.
    apply (below_inside c d w z q RI NL); [|auto]. rewrite Z, <- !app_assoc in E. apply app_inv_head in E. rewrite E in NC.
    apply Forall_app in NC as [NC _]. exact NC.
Qed.
Lemma create_confined n : forall c d w p rp rest d1 b, runs_in c d w -> no_links_in w d -> Forall (fun x => climbs x = false) rp ->
  slashless p -> c_ws c ++ rp = p ++ rest -> create_dir_all n (c_links c) d p = (d1, b) -> confined w d d1.
Proof.
  induction n as [|n IH]; intros c d w p rp rest d1 b RI NL NC SL E H; cbn [create_dir_all] in H.
  - injection H as <- <-. apply confined_refl.
  - pose proof RI as (S & _). destruct (mkdir (c_links c) d p) as [d'| |] eqn:M.
    + injection H as <- <-. eapply mkdir_confined; eauto.
    + destruct (parent p) as [q|] eqn:P; [|injection H as <- <-; apply confined_refl].
      destruct (create_dir_all n (c_links c) d q) as [d2 b2] eqn:C2.
      assert (SQ : slashless q) by (eapply slashless_sub; [exact SL|]; intros x; apply parent_in; exact P).
      destruct (create_dirs _ _ _ _ _ _ S SQ C2) as [X SX].
      assert (PF : exists r, p = q ++ r).
      { unfold parent in P. destruct (drop_stays (rev p)) as [|y r] eqn:Dp; [discriminate|]. injection P as <-.
        destruct (drop_stays_split (rev p)) as (s1 & E1 & _). destruct (drop_stays_split r) as (s2 & E2 & _).
        exists (rev s2 ++ [y] ++ rev s1). rewrite <- (rev_involutive p), E1, Dp, rev_app_distr. cbn [rev]. rewrite E2 at 1.
        rewrite rev_app_distr, <- !app_assoc. reflexivity. }
      destruct PF as (r & PF).
      assert (C1 : confined w d d2). { eapply (IH c d w q rp (r ++ rest)); eauto. rewrite E, PF, <- app_assoc. reflexivity. }
      destruct b2; [|injection H as <- <-; exact C1].
      destruct (mkdir (c_links c) d2 p) as [d3| |] eqn:M3; injection H as <- <-; [|exact C1|exact C1].
      eapply confined_trans; [exact C1|]. eapply mkdir_confined; eauto using runs_dirs, links_dirs.
    + injection H as <- <-. apply confined_refl.
Qed.

Lemma runs_set c d w q s : runs_in c d w -> (node_at d q = None \/ exists old, node_at d q = Some (File old)) -> sound (set_node d q (File s)) ->
  runs_in c (set_node d q (File s)) w.
Proof.
  intros (S & SL & W & D) V SX. assert (NE : q <> []) by (intros ->; destruct V as [V|[o V]]; discriminate).
  split; [exact SX|]. split; [exact SL|]. split.
  - unfold resolve in *. destruct V as [V|(old & V)].
    + rewrite <- W. apply walk_extends; [|exact S|discriminate|eauto]. intros p n H. rewrite node_set_other; auto. congruence.
    + rewrite (walk_contents d _ _ _ _ (set_contents d q old s V NE)). exact W.
  - rewrite node_set_other; auto. intros ->. destruct V as [V|[o V]]; congruence.
Qed.
Lemma links_set w d q s : no_links_in w d -> q <> [] -> no_links_in w (set_node d q (File s)).
Proof.
  intros NL NE p t I. rewrite node_set by exact NE. destruct (place_eqb q p); [discriminate|]. apply NL. exact I.
Qed.
Lemma sound_fill d k p q s : sound d -> slashless p -> resolve k d p = Vacant q -> sound (set_node d q (File s)).
Proof.
  intros S SL R. unfold resolve in R.
  assert (H : node_at d [] = Some Dir) by reflexivity. revert H R. generalize (@nil str) as cur. revert k p SL.
  enough (G : forall k cur p, slashless p -> node_at d cur = Some Dir -> walk k d cur p = Vacant q ->
    exists r n, q = r ++ [n] /\ node_at d r = Some Dir /\ proper_name n /\ node_at d q = None).
  { intros k p SL cur H R. destruct (G k cur p SL H R) as (r & n & -> & A & B & C). apply sound_add; auto. }
  apply (lex_ind (fun k cur p => slashless p -> node_at d cur = Some Dir -> walk k d cur p = Vacant q ->
    exists r n, q = r ++ [n] /\ node_at d r = Some Dir /\ proper_name n /\ node_at d q = None)).
  intros k cur p IHk IHp SL Dc R. destruct p as [|c p]; [rewrite walk_nil in R; discriminate|]. rewrite walk_cons, Dc in R.
  inversion SL as [|? ? SL1 SL2]; subst.
  destruct (stays c) eqn:S1; [eapply IHp; eauto; cbn [length]; lia|].
  destruct (climbs c) eqn:S2.
  { apply (IHp (removelast cur) p); [cbn [length]; lia|exact SL2|apply sound_up_dir; [exact S|congruence]|exact R]. }
  destruct (node_at d (cur ++ [c])) as [[s0| |t]|] eqn:E.
  - destruct p; [rewrite walk_nil in R|rewrite walk_cons, E in R]; discriminate.
  - apply (IHp (cur ++ [c]) p); [cbn [length]; lia|exact SL2|exact E|exact R].
  - destruct k as [|k]; [discriminate|].
    eapply (IHk k _ _ ltac:(lia)); [|..|exact R]; [apply Forall_app; split; [apply path_of_slashless|exact SL2]|].
    destruct t as [|[[] [] [] [] [] [] [] []] t]; auto.
  - destruct p; [|discriminate]. injection R as <-. exists cur, c. split; [reflexivity|]. split; [exact Dc|]. split; [|exact E].
    destruct (climbs_split c S1 S2) as (A & B & C). repeat split; auto.
Qed.
Lemma write_file_confined c d w rel content d' ok : runs_in c d w -> no_links_in w d ->
  starts_with rel (L "/") = false -> contains rel (L "..") = false -> write_source_file c d rel content = (d', ok) ->
  confined w d d' /\ runs_in c d' w /\ no_links_in w d'.
Proof.
  intros RI NL RR NC. pose proof RI as (S & SL & W & D). pose proof (no_climb rel NC) as CL. unfold write_source_file.
  assert (Same : confined w d d /\ runs_in c d w /\ no_links_in w d) by (split; [apply confined_refl|auto]).
  destruct (ends_with rel (L ".firm")) eqn:EW; cbn [negb]; [|intros [= <- <-]; auto].
  rewrite (absolute_spec c d w rel RI). destruct (resolve (c_links c) d (named c rel)) as [q|q| |] eqn:R.
  1:{ destruct (within q w) eqn:IN; [|intros [= <- <-]; auto]. apply within_spec in IN.
    pose proof (canon_again d (c_links c) (c_links c) _ q S R) as CA. destruct (resolve_at d (c_links c) _ q S R) as [N NLk].
    destruct q as [|a q _] using rev_ind.
    { cbn [parent rev drop_stays]. unfold write. rewrite CA. cbn [node_at]. intros [= <- <-]. auto. }
    assert (NE : q ++ [a] <> []) by (destruct q; discriminate).
    destruct (S q a N) as [_ PN]. destruct (proper_go a PN) as [S1 _]. destruct (parent_name q a S1) as (b & ss & E & _).
    rewrite E, (create_existing (length b) (c_links c) d b S (canonical_parent d (c_links c) q a b S N E)).
    unfold write. rewrite CA. destruct (node_at d (q ++ [a])) as [[old| |t]|] eqn:F; try (intros [= <- <-]; auto; fail).
    intros [= <- <-]. split; [apply confined_set; auto|]. split; [apply runs_set; eauto using sound_file|apply links_set; auto]. }
  all: rewrite NC; destruct (join_path_last (c_ws c) rel EW) as (p' & n & E & S1 & S2 & _); fold (named c rel) in E;
    destruct (parent_name p' n S1) as (b & ss & P & PE & _); rewrite <- E in P; rewrite P;
    destruct (create_dir_all (Datatypes.S (length b)) (c_links c) d b) as [d1 b1] eqn:CR;
    assert (SB : slashless b) by (apply (slashless_sub (named c rel)); [apply named_slashless; exact SL|]; intros x; apply parent_in; exact P);
    destruct (create_dirs _ _ _ _ _ _ S SB CR) as [X SX];
    assert (C1 : confined w d d1) by
      (eapply (create_confined _ c d w b (path_of rel) (ss ++ [n])); eauto; rewrite <- named_relative, E, PE, <- app_assoc by exact RR; reflexivity);
    pose proof (runs_dirs c d d1 w RI X SX) as RI1; pose proof (links_dirs w d d1 X NL) as NL1;
    (destruct b1; [|intros [= <- <-]; auto]); unfold write;
    destruct (resolve (c_links c) d1 (named c rel)) as [q1|q1| |] eqn:R1; try (intros [= <- <-]; auto; fail);
    [destruct (node_at d1 q1) as [[old| |t]|] eqn:F; try (intros [= <- <-]; auto; fail)|];
    intros [= <- <-]; rewrite named_relative in R1 by exact RR;
    (assert (I : inside w q1) by (eapply (below_inside c d1 w (path_of rel)); eauto)).
  all: try (pose proof (file_not_root d1 q1 old F) as NE; split; [eapply confined_trans; [exact C1|]; apply confined_set; auto|];
            split; [apply runs_set; eauto using sound_file|apply links_set; auto]; fail).
  all: destruct (vacant_none _ _ _ _ _ R1) as [V NE]; split; [eapply confined_trans; [exact C1|]; apply confined_set; auto|];
       split; [|apply links_set; auto]; apply runs_set; auto;
       eapply sound_fill; [exact SX| |exact R1]; rewrite <- named_relative by exact RR; apply named_slashless; exact SL.
Qed.
Lemma rollback_confined c d w rel o d' ok : runs_in c d w -> no_links_in w d ->
  starts_with rel (L "/") = false -> contains rel (L "..") = false -> rollback_write c d rel o = (d', ok) -> confined w d d'.
Proof.
  intros RI NL RR NC. pose proof (no_climb rel NC) as CL. unfold rollback_write. fold (named c rel). rewrite (named_relative c rel RR). destruct o as [s|].
  - unfold write. destruct (resolve (c_links c) d (c_ws c ++ path_of rel)) as [q|q| |] eqn:R; try (intros [= <- <-]; apply confined_refl).
    + destruct (node_at d q) as [[old| |t]|] eqn:F; intros [= <- <-]; try apply confined_refl.
      apply confined_set; [|eapply file_not_root; exact F]. eapply below_inside; eauto.
    + intros [= <- <-]. apply confined_set; [|eapply vacant_none; exact R]. eapply below_inside; eauto.
  - unfold remove_file. destruct (last_name (c_ws c ++ path_of rel)) as [n|] eqn:LN; [|intros [= <- <-]; apply confined_refl].
    destruct (exists_last (split_char_not_nil "/" rel)) as (rp & x & PR). fold (path_of rel) in PR. rewrite PR, app_assoc, removelast_last.
    destruct (resolve (c_links c) d (c_ws c ++ rp)) as [q| | |] eqn:R; try (intros [= <- <-]; apply confined_refl).
    assert (I : inside w q).
    { eapply (below_inside c d w rp); eauto. rewrite PR in CL. apply Forall_app in CL as [CL _]. exact CL. }
    destruct (node_at d q) as [[]|]; try (intros [= <- <-]; apply confined_refl).
    destruct (node_at d (q ++ [n])) as [[]|]; intros [= <- <-]; try apply confined_refl;
      (apply confined_unset; [apply inside_more; exact I|destruct q; discriminate]).
Qed.
Lemma write_confined c d w st rel content force d' st' a : runs_in c d w -> no_links_in w d ->
  starts_with rel (L "/") = false -> contains rel (L "..") = false ->
  write_source c d st rel content force = (d', st', a) -> confined w d d'.
Proof.
  intros RI NL RR NC. unfold write_source, validate_and_write.
  destruct (c_parse c content) as [ps|]; [|intros [= <- _ _]; apply confined_refl]. destruct (ps_error ps); [intros [= <- _ _]; apply confined_refl|].
  destruct (write_source_file c d rel content) as [d1 ok] eqn:Wr. destruct (write_file_confined c d w rel content d1 ok RI NL RR NC Wr) as (C1 & RI1 & NL1).
  destruct ok; [|intros [= <- _ _]; exact C1]. unfold finish_write.
  destruct (rebuild c d1); try (intros [= <- _ _]; exact C1). destruct force; [intros [= <- _ _]; exact C1|].
  destruct (rollback_write c d1 rel _) as [d2 ok2] eqn:RB. intros [= <- _ _]. eapply confined_trans; [exact C1|].
  eapply rollback_confined; eauto.
Qed.

(** ** Accepted edits *)
Lemma wrote_at c w d d1 rel content : wrote_over c w d d1 rel content \/ wrote_new c d d1 rel content ->
  exists q, resolve (c_links c) d1 (named c rel) = At q /\ node_at d1 q = Some (File content) /\ only_changed q d d1.
Proof.
  intros [(q & old & R & _ & F & ->)|(_ & _ & d2 & q & b & n & X & SX & _ & _ & V & ->)]; exists q.
  - pose proof (file_not_root d q old F) as NE. split; [|split].
    + unfold resolve in *. rewrite (walk_contents d _ _ _ _ (set_contents d q old content F NE)). exact R.
    + apply node_set_same. exact NE.
    + intros p N. left. apply node_set_other; congruence.
  - assert (NE : q <> []) by (destruct V as [V|(_ & old & V)]; [eapply vacant_none; exact V|eapply file_not_root; exact V]). split; [|split].
    + destruct V as [V|(V & old & F)]; [apply walk_fill; exact V|].
      unfold resolve in *. rewrite (walk_contents d2 _ _ _ _ (set_contents d2 q old content F NE)). exact V.
    + apply node_set_same. exact NE.
    + intros p N. rewrite node_set_other by congruence. apply X.
Qed.
Lemma accepted_write c d w st rel content force d' st' a : runs_in c d w -> write_source c d st rel content force = (d', st', a) ->
  a = Accepted \/ a = Forced ->
  match a with Accepted => rebuild c d' = Ok st' | _ => st' = st /\ force = true /\ exists e, rebuild c d' = Err e end /\
  ends_with rel (L ".firm") = true /\ (wrote_over c w d d' rel content \/ wrote_new c d d' rel content).
Proof.
  intros RI H A. unfold write_source, validate_and_write in H.
  destruct (c_parse c content) as [ps|]; [|injection H as <- <- <-; destruct A; discriminate].
  destruct (ps_error ps); [injection H as <- <- <-; destruct A; discriminate|].
  destruct (write_source_file c d rel content) as [d1 ok] eqn:Wr.
  destruct (write_file_spec c d w rel content d1 ok RI Wr) as [(-> & _)|(-> & EW & K)]; [injection H as <- <- <-; destruct A; discriminate|].
  unfold finish_write in H. destruct (rebuild c d1) as [s|e|] eqn:RB.
  - injection H as <- <- <-. auto.
  - destruct force; [injection H as <- <- <-; eauto 6|]. destruct (rollback_write c d1 rel _). injection H as <- <- <-. destruct A; discriminate.
  - injection H as <- <- <-. destruct A; discriminate.
Qed.
Lemma walk_last w d k cur p n q : no_links_in w d -> inside w cur -> Forall (fun c => climbs c = false) (p ++ [n]) -> stays n = false ->
  walk k d cur (p ++ [n]) = At q -> exists r, q = r ++ [n].
Proof.
  intros NL. revert cur. induction p as [|c p IH]; intros cur I F S1 H; cbn [app] in *; inversion F as [|? ? F1 F2]; subst; rewrite walk_cons, F1 in H.
  - rewrite S1 in H. destruct (node_at d cur) as [[]|]; try discriminate. pose proof (inside_more w cur [n] I) as I2.
    destruct (node_at d (cur ++ [n])) as [[]|] eqn:E; try discriminate; [| |exfalso; exact (NL _ _ I2 E)];
      rewrite walk_nil in H; injection H as <-; eauto.
  - destruct (node_at d cur) as [[]|]; try discriminate. destruct (stays c); [exact (IH cur I F2 S1 H)|]. pose proof (inside_more w cur [c] I) as I2.
    destruct (node_at d (cur ++ [c])) as [[]|] eqn:E; try exact (IH _ I2 F2 S1 H); [exfalso; exact (NL _ _ I2 E)|].
    destruct (p ++ [n]); discriminate.
Qed.
