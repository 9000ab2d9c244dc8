(** Lemmas for C85. *)
From Coq Require Import Lia Permutation.
From Verif Require Import S_Graph L_Graph.
From Verif Require L_Spread.
From Verif Require Import S_Life S_Undo L_Str L_DslStr L_Ids L_Fs L_Server L_Load L_History L_Broken L_Life.
From Verif Require Import M_Fs.
Close Scope Z_scope.

(** ** Where a plain path leads *)
Definition clean (p : path) : path := filter (fun n => negb (stays n)) p.
Lemma clean_last p n : stays n = false -> clean (p ++ [n]) = clean p ++ [n].
Proof. intros S1. unfold clean. rewrite filter_app. cbn [filter]. rewrite S1. reflexivity. Qed.
Lemma leads_clean w d k p : no_links_in w d -> forall cur q, inside w cur -> Forall (fun n => climbs n = false) p -> walk k d cur p = At q -> q = cur ++ clean p.
Proof.
  intros NL. induction p as [|n p IH]; intros cur q I F H; cbn [clean filter].
  - rewrite walk_nil in H. injection H as <-. now rewrite app_nil_r.
  - inversion F as [|? ? F1 F2]; subst. rewrite walk_cons, F1 in H. destruct (node_at d cur) as [[]|]; try discriminate. destruct (stays n); cbn [negb]; [exact (IH cur q I F2 H)|].
    pose proof (inside_more w cur [n] I) as I2. destruct (node_at d (cur ++ [n])) as [[]|] eqn:E; [| |exfalso; exact (NL _ _ I2 E)|destruct p; discriminate];
      rewrite (IH _ q I2 F2 H), <- app_assoc; reflexivity.
Qed.
Lemma leads_there w d k p n : sound d -> no_links_in w d -> stays n = false -> forall cur, inside w cur -> Forall (fun x => climbs x = false) (p ++ [n]) ->
  node_at d (cur ++ clean p ++ [n]) <> None -> walk k d cur (p ++ [n]) = At (cur ++ clean p ++ [n]).
Proof.
  intros S NL S1. induction p as [|m p IH]; intros cur I F N; cbn [app clean filter] in *; inversion F as [|? ? F1 F2]; subst; rewrite walk_cons, F1.
  - rewrite (proj1 (S cur n N)), S1. pose proof (inside_more w cur [n] I) as I2.
    destruct (node_at d (cur ++ [n])) as [[]|] eqn:E; [| |exfalso; exact (NL _ _ I2 E)|congruence]; apply walk_nil.
  - fold (clean p) in *. destruct (stays m) eqn:S2; cbn [negb app] in *.
    + assert (D : node_at d cur = Some Dir) by (apply (sound_prefix d cur _ S N); destruct (clean p); discriminate). rewrite D. exact (IH cur I F2 N).
    + assert (D : node_at d cur = Some Dir) by (apply (sound_prefix d cur _ S N); discriminate). rewrite D. pose proof (inside_more w cur [m] I) as I2.
      change (m :: clean p ++ [n]) with ([m] ++ clean p ++ [n]) in *. rewrite app_assoc in *.
      assert (D2 : node_at d (cur ++ [m]) = Some Dir) by (apply (sound_prefix d _ _ S N); destruct (clean p); discriminate). rewrite D2. exact (IH _ I2 F2 N).
Qed.
Lemma leads_to_dir w d k p : no_links_in w d -> forall cur, inside w cur -> sound d -> Forall (fun x => climbs x = false) p ->
  node_at d (cur ++ clean p) = Some Dir -> walk k d cur p = At (cur ++ clean p).
Proof.
  intros NL. induction p as [|m p IH]; intros cur I S F N; cbn [clean filter] in *; [rewrite walk_nil, app_nil_r; reflexivity|].
  inversion F as [|? ? F1 F2]; subst; rewrite walk_cons, F1. fold (clean p) in *.
  destruct (stays m) eqn:S2; cbn [negb] in *.
  - assert (D : node_at d cur = Some Dir) by (destruct (clean p) as [|y l] eqn:E; [rewrite app_nil_r in N; exact N|apply (sound_prefix d cur (y :: l) S); [congruence|discriminate]]).
    rewrite D. exact (IH cur I S F2 N).
  - assert (D : node_at d cur = Some Dir) by (apply (sound_prefix d cur (m :: clean p) S); [congruence|discriminate]). rewrite D. pose proof (inside_more w cur [m] I) as I2.
    change (m :: clean p) with ([m] ++ clean p) in *. rewrite app_assoc in *.
    assert (D2 : node_at d (cur ++ [m]) = Some Dir) by (destruct (clean p) as [|y l] eqn:E; [rewrite app_nil_r in N; exact N|apply (sound_prefix d _ (y :: l) S); [congruence|discriminate]]).
    rewrite D2. exact (IH _ I2 S F2 N).
Qed.
Lemma walk_vacant_at d k cur p n r : sound d -> node_at d cur <> None -> walk k d cur p = At r -> node_at d r = Some Dir -> stays n = false -> climbs n = false -> node_at d (r ++ [n]) = None ->
  walk k d cur (p ++ [n]) = Vacant (r ++ [n]).
Proof.
  intros S N W D S1 S2 V. destruct (walk_then d k cur p r S N W) as (k' & Sp). rewrite (Sp d [n] (extends_refl d)), walk_cons, D, S1, S2, V. reflexivity.
Qed.

Section Place.
Context (c : ctx) (w : place) (rel : str) (dir : path) (n : str) (P : plain rel) (PR : path_of rel = dir ++ [n]) (FN : firm_file_name n).
Definition spot : place := w ++ clean dir ++ [n].
Lemma name_goes : stays n = false /\ climbs n = false.
Proof. apply firm_name, ends_with_spec. destruct FN as (a & _ & ->). eauto. Qed.
Lemma ends_join a : exists x, join (L "/") (dir ++ [a ++ L ".firm"]) = x ++ L ".firm".
Proof.
  clear. induction dir as [|m p (x & Hx)]; [exists a; reflexivity|]. exists (m ++ L "/" ++ x). cbn [app].
  change (join (L "/") (m :: p ++ [a ++ L ".firm"])) with (match p ++ [a ++ L ".firm"] with [] => m | _ => m ++ L "/" ++ join (L "/") (p ++ [a ++ L ".firm"]) end).
  rewrite Hx, <- !app_assoc. destruct p; reflexivity.
Qed.
Lemma rel_ends : ends_with rel (L ".firm") = true.
Proof.
  assert (J : rel = join (L "/") (path_of rel)) by (symmetry; apply (join_split_char "/")). destruct FN as (a & _ & E). apply ends_with_spec. rewrite J, PR, E. exact (ends_join a).
Qed.
Lemma no_climbs : Forall (fun x => climbs x = false) (dir ++ [n]).
Proof. rewrite <- PR. apply no_climb. apply P. Qed.
Section In_a_workspace.
Context (d : fs) (RI : runs_in c d w) (NL : no_links_in w d).
Lemma named_walk : exists k, forall p, walk (c_links c) d [] (c_ws c ++ p) = walk k d w p.
Proof.
  pose proof RI as (S & _ & W & _). destruct (walk_then d (c_links c) [] (c_ws c) w S ltac:(discriminate) W) as (k & Sp). exists k. intros p. apply Sp, extends_refl.
Qed.
Lemma named_is : named c rel = c_ws c ++ dir ++ [n].
Proof. rewrite (named_relative c rel (proj1 P)), PR. reflexivity. Qed.
Lemma resolves_to q : resolve (c_links c) d (named c rel) = At q -> q = spot /\ node_at d spot <> None.
Proof.
  intros R. pose proof RI as (S & _). destruct (resolve_at d _ _ _ S R) as [N _]. destruct named_walk as (k & W). unfold resolve in R. rewrite named_is, W in R.
  apply (leads_clean w d k _ NL) in R; [|apply inside_refl|exact no_climbs]. rewrite clean_last in R by apply name_goes. subst q. auto.
Qed.
Lemma resolves_there : node_at d spot <> None -> resolve (c_links c) d (named c rel) = At spot.
Proof.
  intros N. pose proof RI as (S & _). destruct named_walk as (k & W). unfold resolve. rewrite named_is, W. apply (leads_there w d k dir n S NL (proj1 name_goes) w (inside_refl w) no_climbs N).
Qed.
Lemma spot_inside : inside w spot.
Proof. exists (clean dir ++ [n]). reflexivity. Qed.
Lemma spot_root : spot <> [].
Proof. unfold spot. intros E. apply app_eq_nil in E as [_ E]. apply app_eq_nil in E as [_ E]. discriminate. Qed.
Lemma spot_ends : spot = (w ++ clean dir) ++ [n].
Proof. unfold spot. apply app_assoc. Qed.
Lemma spot_source s : node_at d spot = Some (File s) -> source_of w d (clean dir ++ [n]) s.
Proof. intros N. split; [exact N|]. eauto. Qed.
Lemma absolute_there : node_at d spot <> None -> to_absolute_path c d rel = Some spot.
Proof.
  intros N. rewrite (absolute_spec c d w rel RI), (resolves_there N). pose proof spot_inside as I. apply within_spec in I. rewrite I. reflexivity.
Qed.
Lemma resolve_spot : node_at d spot <> None -> resolve (c_links c) d spot = At spot.
Proof. intros N. exact (canon_again d (c_links c) (c_links c) _ spot (proj1 RI) (resolves_there N)). Qed.
Lemma reads s : node_at d spot = Some (File s) -> is_text s = true -> read_source_file c d rel = Ok s.
Proof.
  intros N T. assert (N' : node_at d spot <> None) by congruence. unfold read_source_file. rewrite (absolute_there N'). unfold path_exists. rewrite (resolve_spot N'). cbn [negb].
  unfold path_name. rewrite spot_ends, rev_unit. cbn [drop_stays]. rewrite (proj1 name_goes), (proj2 name_goes), (proj2 (firm_file_spec n) FN). cbn [negb]. rewrite <- spot_ends.
  unfold read_text, stat. rewrite (resolve_spot N'), N, T. reflexivity.
Qed.
Lemma reads_back s : read_source_file c d rel = Ok s -> node_at d spot = Some (File s) /\ is_text s = true.
Proof. intros H. destruct (read_spec c d w rel s RI H) as (q & R & _ & F & T). apply resolves_to in R as [-> _]. auto. Qed.
Lemma takes s : node_at d spot = Some (File s) -> is_text s = true -> delete_file c d rel = Some (unset_node d spot, s).
Proof.
  intros N T. assert (N' : node_at d spot <> None) by congruence. pose proof RI as (S & _). unfold delete_file. rewrite rel_ends, (absolute_there N'). cbn [negb]. unfold path_exists. rewrite (resolve_spot N'). cbn [negb].
  unfold read_text, stat. rewrite (resolve_spot N'), N, T. unfold remove_file. rewrite spot_ends in *. unfold last_name. rewrite rev_unit, (proj1 name_goes), (proj2 name_goes). cbn [orb].
  rewrite removelast_last. destruct (S _ _ N') as [D _]. rewrite (resolve_place d (c_links c) _ S) by (congruence || (intros ?; congruence)). rewrite D, N. reflexivity.
Qed.
(** Writing over a file, and writing one in a directory that is there. *)
Lemma puts content : node_at d spot = None \/ (exists old, node_at d spot = Some (File old)) -> node_at d (w ++ clean dir) = Some Dir ->
  write_source_file c d rel content = (set_node d spot (File content), true).
Proof.
  intros V D. pose proof RI as (S & _ & W & _). unfold write_source_file. rewrite rel_ends. cbn [negb]. destruct name_goes as [S1 S2]. destruct V as [V|(old & F)].
  - assert (VR : resolve (c_links c) d (named c rel) = Vacant spot).
    { destruct named_walk as (k & Wk). unfold resolve. rewrite named_is, Wk, spot_ends. apply walk_vacant_at; auto; [destruct RI as (_ & _ & _ & DW); congruence| |rewrite <- spot_ends; exact V].
      apply (leads_to_dir w d k dir NL w (inside_refl w) S); [|exact D]. pose proof no_climbs as NC. apply Forall_app in NC. apply NC. }
    rewrite (absolute_spec c d w rel RI), VR, (proj2 P). destruct (parent_name (c_ws c ++ dir) n S1) as (b & ss & Pb & E2 & SS). rewrite named_is, app_assoc, Pb.
    assert (Bd : is_dir (c_links c) d b = true).
    { destruct named_walk as (k & Wk). assert (Wd : walk (c_links c) d [] (c_ws c ++ dir) = At (w ++ clean dir)).
      { rewrite Wk. apply (leads_to_dir w d k dir NL w (inside_refl w) S); [|exact D]. pose proof no_climbs as NC. apply Forall_app in NC. apply NC. }
      rewrite E2 in Wd. apply walk_stays in Wd; [|exact SS]. unfold is_dir, stat, resolve. rewrite Wd, D. reflexivity. }
    rewrite (create_existing (length b) (c_links c) d b S Bd). unfold write. rewrite <- app_assoc, <- named_is, VR. reflexivity.
  - assert (N' : node_at d spot <> None) by congruence. rewrite (absolute_there N'). rewrite spot_ends in *.
    destruct (parent_name (w ++ clean dir) n S1) as (b & ss & Pb & E2 & SS). rewrite Pb.
    assert (Bd : is_dir (c_links c) d b = true) by exact (canonical_parent d (c_links c) _ _ _ S N' Pb).
    rewrite (create_existing (length b) (c_links c) d b S Bd). unfold write. rewrite <- spot_ends in *. rewrite (resolve_spot N'), F. reflexivity.
Qed.
End In_a_workspace.
End Place.

(** ** What an edit does *)
Definition succeeded (a : answer) : Prop := a = Accepted \/ a = Forced.
Section Edit.
Context (c : ctx) (w : place) (rel : str) (dir : path) (n : str) (P : plain rel) (PR : path_of rel = dir ++ [n]) (FN : firm_file_name n).
Context (d : fs) (O : ordinary c w d).
Notation q := (spot w dir n).
(** The file was there, and nothing else was changed; or it was not. *)
Definition was_there (d1 : fs) : Prop := exists old, node_at d q = Some (File old) /\ (node_at d1 q = None \/ exists s, node_at d1 q = Some (File s)) /\ forall p, p <> q -> node_at d1 p = node_at d p.
Definition was_not (d1 : fs) : Prop := node_at d q = None /\ (exists s, node_at d1 q = Some (File s)) /\ only_changed q d d1.
Lemma write_did st content force d1 st1 a : ordinary c w d1 -> write_source c d st rel content force = (d1, st1, a) -> succeeded a -> was_there d1 \/ was_not d1.
Proof.
  intros O1 H A. pose proof O as (RI & NL & _). pose proof O1 as (RI1 & NL1 & _). destruct (accepted_write c d w st rel content force d1 st1 a RI H A) as (_ & EW & K).
  destruct (wrote_at c w d d1 rel content K) as (q' & R1 & F1 & OC). destruct (resolves_to c w rel dir n P PR FN d1 RI1 NL1 q' R1) as [-> _].
  destruct K as [(q' & old & R & _ & F & E)|(NA & _)].
  - destruct (resolves_to c w rel dir n P PR FN d RI NL q' R) as [-> _]. left. exists old. split; [exact F|]. split; [eauto|]. intros p N. rewrite E. apply node_set_other; [apply spot_root|congruence].
  - right. split; [|split; [eauto|exact OC]]. destruct (node_at d q) eqn:E; [|reflexivity]. exfalso. eapply NA. apply (resolves_there c w rel dir n P PR FN d RI NL). congruence.
Qed.
Lemma replace_did st old new all force d1 st1 a : replace_source c d st rel old new all force = (d1, st1, a) -> succeeded a -> was_there d1.
Proof.
  intros H A. pose proof O as (RI & NL & _).
  destruct (replace_effect c d w st rel old new all force d1 st1 a RI H) as [(_ & _ & B)|(q' & text & content & m & R & _ & F & _ & _ & _ & -> & _)].
  { exfalso. destruct A as [-> | ->]; destruct B as [B|[B|B]]; discriminate. }
  destruct (resolves_to c w rel dir n P PR FN d RI NL q' R) as [-> _]. exists text. split; [exact F|]. split; [right; exists content; apply node_set_same, spot_root|].
  intros p N. apply node_set_other; [apply spot_root|congruence].
Qed.
Lemma delete_did st force d1 st1 a : delete_source c d st rel force = (d1, st1, a) -> succeeded a -> was_there d1.
Proof.
  intros H A. pose proof O as (RI & NL & _). unfold delete_source in H. destruct (delete_file c d rel) as [[d2 content]|] eqn:DF; [|injection H as <- <- <-; destruct A; discriminate].
  destruct (delete_effect c d w rel d2 content RI DF) as (q' & _ & _ & R & _ & F & _ & -> & _). destruct (resolves_to c w rel dir n P PR FN d RI NL q' R) as [-> _].
  assert (d1 = unset_node d q) as ->.
  { destruct (rebuild c (unset_node d q)); [injection H as <- <- <-; reflexivity| |injection H as <- <- <-; reflexivity].
    destruct force; [injection H as <- <- <-; reflexivity|]. destruct (rollback_delete _ _ _ _). injection H as <- <- <-. destruct A; discriminate. }
  exists content. split; [exact F|]. split; [left; rewrite node_unset, place_eqb_refl by apply spot_root; reflexivity|].
  intros p N. rewrite node_unset by apply spot_root. destruct (place_eqb q p) eqn:E; [apply place_eqb_eq in E; congruence|reflexivity].
Qed.

(** ** Taking it back *)
Context (st0 : state) (RB : rebuild c d = Ok st0) (SH : shuffles (c_fields c)) (PS : forall l, Permutation (c_schemas c l) l) (PC : forall l, Permutation (c_files c l) l).
Lemma built_as_before d2 : ordinary c w d2 -> only_dirs_added d d2 -> exists st2, rebuild c d2 = Ok st2 /\ as_before st0 st2.
Proof.
  intros (RI2 & NL2 & T2 & _) X. pose proof O as (RI & NL & T & _).
  destruct (same_rebuild c w d d2 st0 SH PS PC RI NL T RI2 NL2 T2 (fun r s => source_dirs w d d2 r s X) RB) as (st2 & B2 & Q1 & Q2). exists st2. split; [exact B2|]. split; [exact Q1|]. split; [exact Q2|].
  intros id. destruct (rebuild_lookup c d st0 RB) as [N L0]. destruct (rebuild_lookup c d2 st2 B2) as [N2 L2]. rewrite L0, L2. apply L_Spread.lookup_perm; [exact N2|exact Q2].
Qed.
Context (d1 d1' : fs) (O1 : ordinary c w d1') (X1 : only_dirs_added d1 d1') (Q1 : node_at d1' q = node_at d1 q).
Definition back (d2 : fs) (st2 : state) : Prop :=
  only_dirs_added d d2 /\ ordinary c w d2 /\ as_before st0 st2 /\ forall p, node_at d2 p = Some Dir -> node_at d1' p = Some Dir.
Lemma written_back : (forall s, node_at d q = Some (File s) -> error_free c s) -> was_there d1 ->
  exists old, read_source_file c d rel = Ok old /\ forall st', exists d2 st2, write_source c d1' st' rel old false = (d2, st2, Accepted) /\ back d2 st2.
Proof.
  intros EF (old & F & V & OT). pose proof O as (RI & NL & T & TX). pose proof O1 as (RI1 & NL1 & T1 & TX1). pose proof (spot_root w dir n) as NR.
  assert (TO : is_text old = true) by (eapply TX; [apply spot_inside|exact F]). exists old. split; [exact (reads c w rel dir n P PR FN d RI NL old F TO)|]. intros st'.
  assert (NW : w ++ clean dir <> q) by (rewrite spot_ends; intros E; apply (f_equal (@length str)) in E; rewrite !app_length in E; cbn in E; lia).
  assert (D1 : node_at d1' (w ++ clean dir) = Some Dir).
  { pose proof RI as (S & _). destruct (S (w ++ clean dir) n) as [D _]; [rewrite <- spot_ends; congruence|]. rewrite <- (OT _ NW) in D. destruct (X1 (w ++ clean dir)) as [Y|[Y _]]; congruence. }
  set (d2 := set_node d1' q (File old)).
  assert (X : only_dirs_added d d2).
  { intros p. unfold d2. rewrite node_set by exact NR. destruct (place_eqb q p) eqn:E; [apply place_eqb_eq in E as <-; left; congruence|]. apply place_eqb_neq in E.
    rewrite <- (OT p) by congruence. apply X1. }
  assert (O2 : ordinary c w d2).
  { unfold d2. destruct V as [V|(s & V)]; [|rewrite V in Q1; exact (ordinary_set c w d1' q s old O1 Q1 TO)]. rewrite V in Q1. rewrite spot_ends in *.
    assert (PN : proper_name n). { pose proof RI as (S & _). apply (S (w ++ clean dir) n). congruence. }
    split; [apply runs_set; [exact RI1|auto|apply sound_add; auto; apply RI1]|]. split; [apply links_set; auto|]. split; [apply tidy_set; exact T1|]. apply text_set; auto. }
  destruct (built_as_before d2 O2 X) as (st2 & B2 & AB). exists d2, st2. split; [|split; [exact X|split; [exact O2|split; [exact AB|]]]].
  - unfold write_source, validate_and_write. destruct (EF old F) as (ps & -> & ->). rewrite (puts c w rel dir n P PR FN d1' RI1 NL1 old); [|rewrite Q1; exact V|exact D1]. fold d2.
    unfold finish_write. rewrite B2. reflexivity.
  - intros p. unfold d2. rewrite node_set by exact NR. destruct (place_eqb q p); [discriminate|auto].
Qed.
Lemma deleted_again : was_not d1 ->
  (forall old, read_source_file c d rel <> Ok old) /\ forall st', exists d2 st2, delete_source c d1' st' rel false = (d2, st2, Accepted) /\ back d2 st2.
Proof.
  intros (V & (s & F) & OC). pose proof O as (RI & NL & T & TX). pose proof O1 as (RI1 & NL1 & T1 & TX1). pose proof (spot_root w dir n) as NR.
  split. { intros old H. apply (reads_back c w rel dir n P PR FN d RI NL) in H as [H _]. congruence. }
  intros st'. rewrite F in Q1. assert (TO : is_text s = true) by (eapply TX1; [apply spot_inside|exact Q1]).
  set (d2 := unset_node d1' q).
  assert (X : only_dirs_added d d2).
  { intros p. unfold d2. rewrite node_unset by exact NR. destruct (place_eqb q p) eqn:E; [apply place_eqb_eq in E as <-; left; congruence|]. apply place_eqb_neq in E.
    destruct (OC p ltac:(congruence)) as [Y|[Y Y']], (X1 p) as [Z|[Z Z']]; rewrite ?Z, ?Z', ?Y, ?Y'; auto; try congruence. right. split; congruence. }
  assert (O2 : ordinary c w d2) by (eapply ordinary_unset; eauto).
  destruct (built_as_before d2 O2 X) as (st2 & B2 & AB). exists d2, st2. split; [|split; [exact X|split; [exact O2|split; [exact AB|]]]].
  - unfold delete_source. rewrite (takes c w rel dir n P PR FN d1' RI1 NL1 s Q1 TO). fold d2. rewrite B2. reflexivity.
  - intros p. unfold d2. rewrite node_unset by exact NR. destruct (place_eqb q p); [discriminate|auto].
Qed.
End Edit.

(** ** One request, and a series *)
Definition clear_of_errors (c : ctx) (w : place) (d : fs) : Prop := forall r s, source_of w d r s -> error_free c s.
Lemma still_clear c w d st r d1 st1 a : ordinary c w d -> clear_of_errors c w d -> plain_request r -> handle c d st r = (d1, st1, a) -> ordinary c w d1 /\ clear_of_errors c w d1.
Proof.
  intros O CE R H. destruct (edit_error_free c w d st r d1 st1 a O R H) as [O1 E]. split; [exact O1|]. intros p s (N & K). destruct (E _ _ N) as [N'|EF]; [|exact EF].
  apply (CE p s). split; assumption.
Qed.
Definition spot_kept (w : place) (r : request) (d1 d1' : fs) : Prop :=
  match edited r with Some rel => forall dir n, path_of rel = dir ++ [n] -> firm_file_name n -> node_at d1' (spot w dir n) = node_at d1 (spot w dir n) | None => True end.
Lemma undone c w d st r d1 st1 a st0 d1' : shuffles (c_fields c) -> (forall l, Permutation (c_schemas c l) l) -> (forall l, Permutation (c_files c l) l) ->
  ordinary c w d -> clear_of_errors c w d -> rebuild c d = Ok st0 -> plain_request r -> of_source r -> handle c d st r = (d1, st1, a) -> succeeded a ->
  ordinary c w d1' -> only_dirs_added d1 d1' -> spot_kept w r d1 d1' ->
  forall st', exists d2 st2, handle c d1' st' (undo c d r) = (d2, st2, Accepted) /\ back c w d st0 d1' d2 st2.
Proof.
  intros SH PS PC O CE RB R SO H A O1' X1 SK st'. pose proof (still_clear c w d st r d1 st1 a O CE R H) as [O1 _]. unfold undo, of_source, spot_kept in *.
  assert (Edit : forall rel dir n, plain rel -> path_of rel = dir ++ [n] -> firm_file_name n -> node_at d1' (spot w dir n) = node_at d1 (spot w dir n) -> was_there w dir n d d1 \/ was_not w dir n d d1 ->
    exists d2 st2, handle c d1' st' (match read_source_file c d rel with Ok text => Write rel text false | _ => Delete rel false end) = (d2, st2, Accepted) /\ back c w d st0 d1' d2 st2).
  { intros rel dir n P PR FN Q1 [V|V].
    - destruct (written_back c w rel dir n P PR FN d O st0 RB SH PS PC d1 d1' O1' X1 Q1) as (old & -> & K); [|exact V|exact (K st')]. intros s N. apply (CE (clean dir ++ [n]) s). now apply spot_source.
    - destruct (deleted_again c w rel dir n P PR FN d O st0 RB SH PS PC d1 d1' O1' X1 Q1 V) as [NR K]. destruct (read_source_file c d rel) as [old| |]; [destruct (NR old eq_refl)| |]; exact (K st'). }
  destruct r as [rel content force|rel old new all force|rel force|]; cbn [edited plain_request handle] in *.
  - destruct SO as (dir & n & PR & FN). apply (Edit rel dir n); [apply R|exact PR|exact FN|exact (SK dir n PR FN)|]. eapply write_did; eauto. apply R.
  - destruct SO as (dir & n & PR & FN). apply (Edit rel dir n); [apply R|exact PR|exact FN|exact (SK dir n PR FN)|]. left. eapply replace_did; eauto. apply R.
  - destruct SO as (dir & n & PR & FN). apply (Edit rel dir n); [apply R|exact PR|exact FN|exact (SK dir n PR FN)|]. left. eapply delete_did; eauto.
  - assert (d1 = d) as -> by (unfold build_tool in H; destruct (rebuild c d); injection H as <- <- <-; reflexivity).
    destruct (built_as_before c w d O st0 RB SH PS PC d1' O1' X1) as (st2 & B2 & AB). exists d1', st2. split; [unfold build_tool; rewrite B2; reflexivity|]. split; [exact X1|]. split; [exact O1'|]. auto.
Qed.

Lemma serve_app c rs1 : forall d st rs2, serve c d st (rs1 ++ rs2) =
  match serve c d st rs1 with (d1, st1, l1) => match serve c d1 st1 rs2 with (d2, st2, l2) => (d2, st2, l1 ++ l2) end end.
Proof.
  induction rs1 as [|r rs1 IH]; intros d st rs2; cbn [app serve]; [destruct (serve c d st rs2) as [[? ?] ?]; reflexivity|].
  destruct (handle c d st r) as [[d1 st1] a]. rewrite IH. destruct (serve c d1 st1 rs1) as [[d2 st2] l1]. destruct (serve c d2 st2 rs2) as [[d3 st3] l2]. reflexivity.
Qed.
Lemma dirs_remain c w d st r d1 st1 : ordinary c w d -> plain_request r -> of_source r -> handle c d st r = (d1, st1, Accepted) -> forall p, node_at d p = Some Dir -> node_at d1 p = Some Dir.
Proof.
  intros O R SO H p D. destruct (edit_error_free c w d st r d1 st1 Accepted O R H) as [O1 _].
  assert (G : forall dir n, was_there w dir n d d1 \/ was_not w dir n d d1 -> node_at d1 p = Some Dir).
  { intros dir n [(old & F & _ & OT)|(V & _ & OC)].
    - rewrite OT; [exact D|]. intros ->. congruence.
    - destruct (OC p) as [Y|[Y _]]; [intros -> ; congruence|congruence|congruence]. }
  destruct r as [rel content force|rel old new all force|rel force|]; unfold of_source in SO; cbn [edited plain_request handle] in *.
  - destruct SO as (dir & n & PR & FN). apply (G dir n). eapply write_did; eauto; [apply R|left; reflexivity].
  - destruct SO as (dir & n & PR & FN). apply (G dir n). left. eapply replace_did; eauto; [apply R|left; reflexivity].
  - destruct SO as (dir & n & PR & FN). apply (G dir n). left. eapply delete_did; eauto. left; reflexivity.
  - unfold build_tool in H. destruct (rebuild c d); injection H as <- <-; exact D.
Qed.
Lemma accepted_built c w d st r d1 st1 : runs_in c d w -> handle c d st r = (d1, st1, Accepted) -> rebuild c d1 = Ok st1.
Proof.
  intros RI Hd. destruct r; cbn [handle] in Hd.
  - eapply (proj1 (accepted_write c d w st rel content force d1 st1 Accepted RI Hd (or_introl eq_refl))).
  - destruct (replace_effect c d w st rel old new all force d1 st1 Accepted RI Hd) as [(_ & _ & [B|[B|B]])|(q & text & content & n & _ & _ & _ & _ & _ & _ & _ & B)]; try discriminate. exact B.
  - unfold delete_source in Hd. destruct (delete_file c d rel) as [[d2 s]|]; [|discriminate]. destruct (rebuild c d2) eqn:B; [injection Hd as <- <-; exact B| |discriminate]. destruct force; [discriminate|]. destruct (rollback_delete _ _ _ _). discriminate.
  - unfold build_tool in Hd. destruct (rebuild c d) eqn:B; [injection Hd as <- <-; exact B|discriminate|discriminate].
Qed.
Lemma all_undone c w rs : shuffles (c_fields c) -> (forall l, Permutation (c_schemas c l) l) -> (forall l, Permutation (c_files c l) l) ->
  forall d st d1 st1 l st0, ordinary c w d -> clear_of_errors c w d -> rebuild c d = Ok st0 -> Forall plain_request rs -> Forall of_source rs ->
  serve c d st rs = (d1, st1, l) -> Forall (eq Accepted) l -> no_firm_dirs w d1 ->
  forall st', exists d2 st2 l2, serve c d1 st' (undo_all c d st rs) = (d2, st2, l2) /\ Forall (eq Accepted) l2 /\
    only_dirs_added d d2 /\ ordinary c w d2 /\ (rs <> [] -> as_before st0 st2) /\ (forall p, node_at d2 p = Some Dir -> node_at d1 p = Some Dir).
Proof.
  intros SH PS PC. induction rs as [|r rs IH]; intros d st d1 st1 l st0 O CE RB F1 F2 H A ND st'; cbn [serve undo_all] in *.
  - injection H as <- <- <-. exists d, st', []. split; [reflexivity|]. split; [constructor|]. split; [apply dirs_refl|]. split; [exact O|]. split; [congruence|auto].
  - inversion F1 as [|? ? R1 R2]; subst. inversion F2 as [|? ? S1 S2]; subst. destruct (handle c d st r) as [[dm stm] a] eqn:Hd. destruct (serve c dm stm rs) as [[d1' st1'] l'] eqn:Sv. injection H as <- <- <-.
    inversion A as [|? ? Ea Al]; subst. destruct (still_clear c w d st r dm stm Accepted O CE R1 Hd) as [Om CEm].
    pose proof (accepted_built c w d st r dm stm (proj1 O) Hd) as RBm.
    destruct (IH dm stm d1' st1' l' stm Om CEm RBm R2 S2 Sv Al ND st') as (d2 & st2 & l2 & Sv2 & A2 & X2 & O2 & _ & D2).
    assert (SK : spot_kept w r dm d2).
    { unfold spot_kept. destruct (edited r) as [rel|]; [|exact Logic.I]. intros dir n PR FN. destruct (X2 (spot w dir n)) as [Y|[_ Y]]; [exact Y|]. exfalso. exact (ND (clean dir) n FN (D2 _ Y)). }
    destruct (undone c w d st r dm stm Accepted st0 d2 SH PS PC O CE RB R1 S1 Hd (or_introl eq_refl) O2 X2 SK st2) as (d3 & st3 & H3 & X3 & O3 & AB & D3).
    exists d3, st3, (l2 ++ [Accepted]). rewrite serve_app, Sv2. cbn [serve]. rewrite H3. split; [reflexivity|]. split; [apply Forall_app; auto|]. split; [exact X3|]. split; [exact O3|]. split; [auto|]. auto.
Qed.
