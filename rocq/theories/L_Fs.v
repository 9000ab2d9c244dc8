(** Lemmas about file systems. *)
From Coq Require Import Lia Wellfounded Wf_nat.
From Verif Require Import S_Fs L_Str L_DslStr.
Close Scope Z_scope.

Lemma place_eqb_eq p q : place_eqb p q = true <-> p = q.
Proof.
  revert q; induction p as [|a p IH]; intros [|b q]; cbn [place_eqb]; try (split; [discriminate|discriminate || reflexivity]); [tauto|].
  rewrite Bool.andb_true_iff, str_eqb_eq, IH. split; [intros [-> ->]; reflexivity|intros [= -> ->]; auto].
Qed.
Lemma place_eqb_refl p : place_eqb p p = true.
Proof. apply place_eqb_eq. reflexivity. Qed.
Lemma place_eqb_neq p q : place_eqb p q = false <-> p <> q.
Proof. rewrite <- Bool.not_true_iff_false, place_eqb_eq. reflexivity. Qed.
Lemma place_dec (p q : place) : {p = q} + {p <> q}.
Proof. destruct (place_eqb p q) eqn:E; [left; apply place_eqb_eq|right; apply place_eqb_neq]; exact E. Qed.

Lemma entry_set d p n q : entry_at (set_node d p n) q = if place_eqb p q then Some n else entry_at d q.
Proof.
  induction d as [|[r m] d IH]; cbn [set_node entry_at].
  - reflexivity.
  - destruct (place_eqb r p) eqn:E; cbn [entry_at].
    + apply place_eqb_eq in E as ->. destruct (place_eqb p q); reflexivity.
    + rewrite IH. destruct (place_eqb r q) eqn:F; [|reflexivity]. apply place_eqb_eq in F as ->.
      destruct (place_eqb p q) eqn:G; [|reflexivity]. apply place_eqb_eq in G as ->. rewrite place_eqb_refl in E. discriminate.
Qed.
Lemma node_set d p n q : p <> [] -> node_at (set_node d p n) q = if place_eqb p q then Some n else node_at d q.
Proof.
  intros H. destruct q as [|b q]; cbn [node_at]; [|apply entry_set]. destruct p; [congruence|reflexivity].
Qed.
Lemma node_set_same d p n : p <> [] -> node_at (set_node d p n) p = Some n.
Proof. intros H. rewrite node_set, place_eqb_refl by exact H. reflexivity. Qed.
Lemma node_set_other d p n q : p <> [] -> p <> q -> node_at (set_node d p n) q = node_at d q.
Proof. intros H N. rewrite node_set by exact H. apply place_eqb_neq in N. rewrite N. reflexivity. Qed.
Lemma entry_unset d p q : entry_at (unset_node d p) q = if place_eqb p q then None else entry_at d q.
Proof.
  induction d as [|[r m] d IH]; cbn [unset_node filter entry_at fst].
  - destruct (place_eqb p q); reflexivity.
  - fold (unset_node d p). destruct (place_eqb r p) eqn:E; cbn [negb entry_at].
    + apply place_eqb_eq in E as ->. rewrite IH. destruct (place_eqb p q); reflexivity.
    + rewrite IH. destruct (place_eqb r q) eqn:F; [|reflexivity]. apply place_eqb_eq in F as ->.
      destruct (place_eqb p q) eqn:G; [|reflexivity]. apply place_eqb_eq in G as ->. rewrite place_eqb_refl in E. discriminate.
Qed.
Lemma node_unset d p q : p <> [] -> node_at (unset_node d p) q = if place_eqb p q then None else node_at d q.
Proof.
  intros H. destruct q as [|b q]; cbn [node_at]; [|apply entry_unset]. destruct p; [congruence|reflexivity].
Qed.
(** Writing the old content back restores the very list. *)
Lemma set_back d p n m : entry_at d p = Some n -> set_node (set_node d p m) p n = d.
Proof.
  induction d as [|[q k] d IH]; cbn [entry_at set_node]; [discriminate|]. destruct (place_eqb q p) eqn:E.
  - intros [= ->]. cbn [set_node]. rewrite E. reflexivity.
  - intros H. cbn [set_node]. rewrite E, IH by exact H. reflexivity.
Qed.

(** ** Resolution *)
Lemma walk_nil k d cur : walk k d cur [] = At cur.
Proof. destruct k; reflexivity. Qed.
Lemma walk_cons k d cur c rest : walk k d cur (c :: rest) =
  match node_at d cur with
  | Some Dir =>
      if stays c then walk k d cur rest
      else if climbs c then walk k d (removelast cur) rest
      else match node_at d (cur ++ [c]) with
           | None => match rest with [] => Vacant (cur ++ [c]) | _ => NoEntry end
           | Some (Link t) =>
               match k with
               | 0 => Fault
               | S k' => walk k' d (match t with "/"%char :: _ => [] | _ => cur end) (path_of t ++ rest)
               end
           | Some _ => walk k d (cur ++ [c]) rest
           end
  | _ => Fault
  end.
Proof. destruct k; reflexivity. Qed.
Lemma base_at cur c t : link_base (cur ++ [c]) t = match t with "/"%char :: _ => [] | _ => cur end.
Proof. unfold link_base. rewrite removelast_last. reflexivity. Qed.


Lemma lex_ind (P : nat -> place -> path -> Prop) :
  (forall k cur p, (forall k' cur' p', k' < k -> P k' cur' p') -> (forall cur' p', length p' < length p -> P k cur' p') -> P k cur p) ->
  forall k cur p, P k cur p.
Proof.
  intros H k. induction k as [k IHk] using (well_founded_induction lt_wf). intros cur p. revert cur.
  induction p as [p IHp] using (well_founded_induction (wf_inverse_image _ _ lt (@length str) lt_wf)).
  intros cur. apply H; auto.
Qed.

Lemma sound_up d cur : sound d -> node_at d cur <> None -> node_at d (removelast cur) <> None.
Proof.
  intros S H. destruct cur as [|a cur] using rev_ind; [exact H|]. rewrite removelast_last.
  apply S in H as [-> _]. discriminate.
Qed.
Lemma sound_up_dir d cur : sound d -> node_at d cur <> None -> node_at d (removelast cur) = Some Dir.
Proof.
  intros S H. destruct cur as [|a cur] using rev_ind; [reflexivity|]. rewrite removelast_last.
  apply S in H as [-> _]. reflexivity.
Qed.

(** Two file systems of which one has all that the other has. *)
Definition extends (d d' : fs) : Prop := forall p n, node_at d p = Some n -> node_at d' p = Some n.
Lemma extends_refl d : extends d d.
Proof. intros p n H. exact H. Qed.
Lemma walk_extends d d' k cur p : extends d d' -> sound d -> node_at d cur <> None ->
  (walk k d cur p = Fault \/ exists q, walk k d cur p = At q) -> walk k d' cur p = walk k d cur p.
Proof.
  intros X S. revert k cur p. apply (lex_ind (fun k cur p => node_at d cur <> None ->
    (walk k d cur p = Fault \/ exists q, walk k d cur p = At q) -> walk k d' cur p = walk k d cur p)).
  intros k cur p IHk IHp N H. destruct p as [|c p]; [rewrite !walk_nil; reflexivity|]. rewrite !walk_cons in *.
  destruct (node_at d cur) as [n|] eqn:E; [|congruence]. rewrite (X _ _ E). destruct n; auto.
  destruct (stays c); [apply IHp; cbn [length]; auto; congruence|].
  destruct (climbs c); [apply IHp; cbn [length]; auto; apply sound_up; [exact S|congruence]|].
  destruct (node_at d (cur ++ [c])) as [m|] eqn:F.
  - rewrite (X _ _ F). destruct m as [s| |t]; [apply IHp; cbn [length]; auto; congruence..|].
    destruct k as [|k]; [reflexivity|]. apply IHk; auto. destruct t as [|[[] [] [] [] [] [] [] []] t]; cbn [node_at]; congruence.
  - destruct p; destruct H as [H|[q H]]; discriminate H.
Qed.
(** Where a walk ends there is something, and it is no link. *)
Lemma walk_at d k cur p q : sound d -> node_at d cur <> None -> (forall t, node_at d cur <> Some (Link t)) ->
  walk k d cur p = At q -> node_at d q <> None /\ forall t, node_at d q <> Some (Link t).
Proof.
  intros S. revert k cur p. apply (lex_ind (fun k cur p => node_at d cur <> None -> (forall t, node_at d cur <> Some (Link t)) ->
    walk k d cur p = At q -> node_at d q <> None /\ forall t, node_at d q <> Some (Link t))).
  intros k cur p IHk IHp N NL H. destruct p as [|c p]; [rewrite walk_nil in H; injection H as <-; auto|]. rewrite walk_cons in H.
  destruct (node_at d cur) as [[]|] eqn:E; try discriminate.
  destruct (stays c); [apply (IHp cur p) in H; cbn [length]; auto; congruence|].
  destruct (climbs c); [apply (IHp (removelast cur) p) in H; cbn [length]; auto; rewrite (sound_up_dir d cur S) by congruence; congruence|].
  destruct (node_at d (cur ++ [c])) as [m|] eqn:F; [|destruct p; discriminate].
  destruct m as [s| |t]; [apply (IHp _ _) in H; cbn [length]; auto; congruence..|].
  destruct k as [|k]; [discriminate|]. apply IHk in H; auto; destruct t as [|[[] [] [] [] [] [] [] []] t]; cbn [node_at]; congruence.
Qed.
Lemma proper_go c : proper_name c -> stays c = false /\ climbs c = false.
Proof.
  intros (A & B & C & _). unfold stays, climbs. apply str_eqb_neq in A, B, C. rewrite A, B, C. auto.
Qed.
Lemma climbs_split c : stays c = false -> climbs c = false -> c <> [] /\ c <> L "." /\ c <> L "..".
Proof.
  unfold stays, climbs. intros H1 H2. apply Bool.orb_false_iff in H1 as [A B]. apply str_eqb_neq in A, B, H2. auto.
Qed.
Lemma sound_prefix d p r : sound d -> node_at d (p ++ r) <> None -> r <> [] -> node_at d p = Some Dir.
Proof.
  intros S. revert p. induction r as [|c r IH]; intros p H N; [congruence|].
  destruct r as [|c' r]; [apply S in H as [H _]; exact H|].
  replace (p ++ c :: c' :: r) with ((p ++ [c]) ++ c' :: r) in H by (rewrite <- app_assoc; reflexivity).
  apply IH in H; [|discriminate]. apply (S p c). congruence.
Qed.
(** A canonical path leads where it says. *)
Lemma walk_place d k cur q : sound d -> (forall t r s, cur ++ q = r ++ s -> node_at d r <> Some (Link t)) ->
  node_at d (cur ++ q) <> None -> walk k d cur q = At (cur ++ q).
Proof.
  intros S. revert cur. induction q as [|c q IH]; intros cur L N; [rewrite walk_nil, app_nil_r; reflexivity|].
  rewrite walk_cons, (sound_prefix d cur (c :: q) S N ltac:(discriminate)).
  assert (E : cur ++ c :: q = (cur ++ [c]) ++ q) by (rewrite <- app_assoc; reflexivity). rewrite E in *.
  assert (M : node_at d (cur ++ [c]) <> None).
  { destruct q as [|c' q]; [rewrite app_nil_r in N; exact N|]. rewrite (sound_prefix d _ _ S N); discriminate. }
  destruct (proper_go c) as [-> ->]; [apply (S cur c M)|].
  destruct (node_at d (cur ++ [c])) as [[]|] eqn:F; [apply IH; auto..| |congruence].
  destruct (L target (cur ++ [c]) q eq_refl F).
Qed.
Lemma resolve_place d k q : sound d -> node_at d q <> None -> (forall t, node_at d q <> Some (Link t)) -> resolve k d q = At q.
Proof.
  intros S N NL. apply (walk_place d k [] q S); [|exact N]. cbn [app]. intros t r s E. subst q. destruct s as [|c s].
  - rewrite app_nil_r in *. apply NL.
  - rewrite (sound_prefix d r (c :: s) S N); discriminate.
Qed.
Lemma resolve_at d k p q : sound d -> resolve k d p = At q -> node_at d q <> None /\ forall t, node_at d q <> Some (Link t).
Proof. intros S. apply walk_at; auto; discriminate. Qed.
Lemma canon_again d k k' p q : sound d -> resolve k d p = At q -> resolve k' d q = At q.
Proof. intros S H. apply resolve_at in H as [A B]; auto. apply resolve_place; auto. Qed.

(** A walk along a path whose first part leads somewhere. *)
Lemma walk_split d K k cur p1 p2 r : sound d -> node_at d cur <> None -> walk K d cur p1 = At r ->
  exists k', k' <= k /\ forall d1, extends d d1 ->
    walk k d1 cur (p1 ++ p2) = walk k' d1 r p2 \/ walk k d1 cur (p1 ++ p2) = Fault.
Proof.
  intros S. revert K cur p1 k. apply (lex_ind (fun K cur p1 => forall k, node_at d cur <> None -> walk K d cur p1 = At r ->
    exists k', k' <= k /\ forall d1, extends d d1 ->
    walk k d1 cur (p1 ++ p2) = walk k' d1 r p2 \/ walk k d1 cur (p1 ++ p2) = Fault)).
  intros K cur p1 IHk IHp k N H. destruct p1 as [|c p1].
  - rewrite walk_nil in H. injection H as <-. exists k. split; [lia|]. intros d1 _. left. reflexivity.
  - rewrite walk_cons in H. destruct (node_at d cur) as [[]|] eqn:E; try discriminate.
    assert (U : forall d1, extends d d1 -> walk k d1 cur ((c :: p1) ++ p2) =
      if stays c then walk k d1 cur (p1 ++ p2) else if climbs c then walk k d1 (removelast cur) (p1 ++ p2)
      else match node_at d1 (cur ++ [c]) with
           | None => match p1 ++ p2 with [] => Vacant (cur ++ [c]) | _ => NoEntry end
           | Some (Link t) => match k with 0 => Fault | S k' => walk k' d1 (match t with "/"%char :: _ => [] | _ => cur end) (path_of t ++ p1 ++ p2) end
           | Some _ => walk k d1 (cur ++ [c]) (p1 ++ p2) end).
    { intros d1 X. cbn [app]. rewrite walk_cons, (X _ _ E). reflexivity. }
    destruct (stays c).
    { destruct (IHp cur p1 ltac:(cbn [length]; lia) k ltac:(congruence) H) as (k' & L & G). exists k'. split; [exact L|].
      intros d1 X. rewrite (U d1 X). apply G, X. }
    destruct (climbs c).
    { destruct (IHp (removelast cur) p1 ltac:(cbn [length]; lia) k ltac:(apply sound_up; [exact S|congruence]) H) as (k' & L & G). exists k'. split; [exact L|].
      intros d1 X. rewrite (U d1 X). apply G, X. }
    destruct (node_at d (cur ++ [c])) as [m|] eqn:F; [|destruct p1; discriminate].
    destruct m as [s| |t].
    1,2: destruct (IHp (cur ++ [c]) p1 ltac:(cbn [length]; lia) k ltac:(congruence) H) as (k' & L & G); exists k'; split; [exact L|];
      intros d1 X; rewrite (U d1 X), (X _ _ F); apply G, X.
    destruct K as [|K]; [discriminate|]. destruct k as [|k].
    + exists 0. split; [lia|]. intros d1 X. rewrite (U d1 X), (X _ _ F). right. reflexivity.
    + destruct (IHk K (match t with "/"%char :: _ => [] | _ => cur end) (path_of t ++ p1) ltac:(lia) k) as (k' & L & G); auto.
      { destruct t as [|[[] [] [] [] [] [] [] []] t]; cbn [node_at]; congruence. }
      exists k'. split; [lia|]. intros d1 X. rewrite (U d1 X), (X _ _ F), app_assoc. apply G, X.
Qed.

(** Contents of files do not matter to resolution. *)
Lemma walk_contents d d' k cur p :
  (forall q, node_at d' q = node_at d q \/ exists s s', node_at d q = Some (File s) /\ node_at d' q = Some (File s')) ->
  walk k d' cur p = walk k d cur p.
Proof.
  intros X. revert k cur p. apply (lex_ind (fun k cur p => walk k d' cur p = walk k d cur p)).
  intros k cur p IHk IHp. destruct p as [|c p]; [rewrite !walk_nil; reflexivity|]. rewrite !walk_cons.
  destruct (X cur) as [->|(s & s' & -> & ->)]; [|reflexivity]. destruct (node_at d cur) as [[]|]; auto.
  destruct (stays c); [apply IHp; cbn [length]; lia|]. destruct (climbs c); [apply IHp; cbn [length]; lia|].
  destruct (X (cur ++ [c])) as [->|(s & s' & -> & ->)]; [|apply IHp; cbn [length]; lia].
  destruct (node_at d (cur ++ [c])) as [[]|]; try (apply IHp; cbn [length]; lia); [|reflexivity].
  destruct k as [|k]; [reflexivity|]. apply IHk. lia.
Qed.

Lemma link_walk links d cur c t k rest : no_dangling_links links d -> sound d -> node_at d cur <> None ->
  node_at d (cur ++ [c]) = Some (Link t) -> exists r k', k' <= k /\ node_at d r <> None /\ forall d1, extends d d1 ->
    let base := match t with "/"%char :: _ => [] | _ => cur end in
    walk k d1 base (path_of t ++ rest) = walk k' d1 r rest \/ walk k d1 base (path_of t ++ rest) = Fault.
Proof.
  intros ND S N F. destruct (ND _ _ F) as (r & W). rewrite base_at in W.
  assert (B : node_at d (match t with "/"%char :: _ => [] | _ => cur end) <> None /\
              forall t', node_at d (match t with "/"%char :: _ => [] | _ => cur end) <> Some (Link t')).
  { assert (D : node_at d cur = Some Dir) by (apply (S cur c); congruence).
    destruct t as [|[[] [] [] [] [] [] [] []] t]; cbn [node_at]; split; congruence. }
  destruct (walk_split d links k _ _ rest r S (proj1 B) W) as (k' & L & G). exists r, k'. split; [exact L|]. split; [|exact G].
  apply (walk_at d _ _ _ _ S (proj1 B) (proj2 B) W).
Qed.
Lemma walk_vacant links d k cur p c q : no_dangling_links links d -> sound d -> node_at d cur <> None ->
  walk k d cur (p ++ [c]) = Vacant q ->
  exists r, walk k d cur p = At r /\ node_at d r = Some Dir /\ q = r ++ [c] /\ stays c = false /\ climbs c = false /\ node_at d q = None.
Proof.
  intros ND S. revert k cur p. apply (lex_ind (fun k cur p => node_at d cur <> None -> walk k d cur (p ++ [c]) = Vacant q ->
    exists r, walk k d cur p = At r /\ node_at d r = Some Dir /\ q = r ++ [c] /\ stays c = false /\ climbs c = false /\ node_at d q = None)).
  intros k cur p IHk IHp N H. destruct p as [|a p]; cbn [app] in H; rewrite !walk_cons in H.
  - destruct (node_at d cur) as [[]|] eqn:E; try discriminate.
    destruct (stays c) eqn:S1; [rewrite walk_nil in H; discriminate|]. destruct (climbs c) eqn:S2; [rewrite walk_nil in H; discriminate|].
    destruct (node_at d (cur ++ [c])) as [[]|] eqn:F; try (rewrite walk_nil in H; discriminate).
    + destruct k as [|k]; [discriminate|].
      destruct (link_walk links d cur c target k [] ND S ltac:(congruence) F) as (r & k' & _ & _ & G).
      destruct (G d (extends_refl d)) as [X|X]; rewrite X in H; [rewrite walk_nil in H|]; discriminate.
    + injection H as <-. exists cur. rewrite walk_nil. auto 10.
  - rewrite walk_cons. destruct (node_at d cur) as [[]|] eqn:E; try discriminate.
    destruct (stays a); [apply IHp; auto; cbn [length]; auto; congruence|].
    destruct (climbs a); [apply IHp; auto; cbn [length]; auto; apply sound_up; auto; congruence|].
    destruct (node_at d (cur ++ [a])) as [[]|] eqn:F.
    1,2: apply IHp; auto; cbn [length]; auto; congruence.
    + destruct k as [|k]; [discriminate|]. rewrite app_assoc in H. apply IHk; auto.
      destruct target as [|[[] [] [] [] [] [] [] []] target]; cbn [node_at]; congruence.
    + destruct p; discriminate.
Qed.

(** ** Added directories *)
Lemma dirs_extends d d1 : only_dirs_added d d1 -> extends d d1.
Proof. intros X p n H. destruct (X p) as [->|[E _]]; [exact H|congruence]. Qed.
Lemma dirs_refl d : only_dirs_added d d.
Proof. intros p. left. reflexivity. Qed.
Lemma dirs_trans d1 d2 d3 : only_dirs_added d1 d2 -> only_dirs_added d2 d3 -> only_dirs_added d1 d3.
Proof.
  intros A B p. destruct (A p) as [E|[E F]], (B p) as [E'|[E' F']]; rewrite ?E in *; auto; right; split; congruence.
Qed.
(** From a place that is new, a path that does not climb stays in new places. *)
Lemma walk_new d d1 k cur p q : sound d -> only_dirs_added d d1 -> node_at d cur = None -> Forall (fun c => climbs c = false) p ->
  walk k d1 cur p = At q -> node_at d q = None.
Proof.
  intros S X. revert cur. induction p as [|c p IH]; intros cur N F H.
  - rewrite walk_nil in H. injection H as <-. exact N.
  - inversion F as [|? ? F1 F2]; subst. rewrite walk_cons, F1 in H. destruct (node_at d1 cur) as [[]|]; try discriminate.
    destruct (stays c); [exact (IH cur N F2 H)|].
    assert (M : node_at d (cur ++ [c]) = None).
    { destruct (node_at d (cur ++ [c])) eqn:E; [|reflexivity]. destruct (S cur c) as [D _]; congruence. }
    destruct (X (cur ++ [c])) as [E|[_ E]]; rewrite E in H; rewrite ?M in H.
    + destruct p; discriminate.
    + exact (IH _ M F2 H).
Qed.
Lemma walk_added links d d1 k cur p q : no_dangling_links links d -> sound d -> only_dirs_added d d1 -> node_at d cur <> None ->
  Forall (fun c => climbs c = false) p -> (forall r, walk k d cur p <> At r) -> walk k d1 cur p = At q -> node_at d q = None.
Proof.
  intros ND S X. revert k cur p. apply (lex_ind (fun k cur p => node_at d cur <> None ->
    Forall (fun c => climbs c = false) p -> (forall r, walk k d cur p <> At r) -> walk k d1 cur p = At q -> node_at d q = None)).
  intros k cur p IHk IHp N F A H. destruct p as [|c p]; [rewrite walk_nil in A; congruence|].
  inversion F as [|? ? F1 F2]; subst. rewrite walk_cons, F1 in A, H.
  destruct (X cur) as [E|[E _]]; [|congruence]. rewrite E in H. destruct (node_at d cur) as [[]|] eqn:D; try discriminate.
  destruct (stays c); [apply (IHp cur p) in H; cbn [length]; auto; congruence|].
  destruct (node_at d (cur ++ [c])) as [[]|] eqn:M.
  1,2: pose proof (dirs_extends d d1 X _ _ M) as M1; rewrite M1 in H; apply (IHp _ _) in H; cbn [length]; auto; congruence.
  - pose proof (dirs_extends d d1 X _ _ M) as M1. rewrite M1 in H. destruct k as [|k]; [discriminate|].
    destruct (link_walk links d cur c target k p ND S ltac:(congruence) M) as (r & k' & Lk & Nr & G).
    destruct (G d1 (dirs_extends d d1 X)) as [Y|Y]; rewrite Y in H; [|discriminate].
    destruct (G d (extends_refl d)) as [Z|Z]; rewrite Z in A.
    + apply (IHk k' r p) in H; auto. lia.
    + exfalso. assert (W : walk k d1 (match target with "/"%char :: _ => [] | _ => cur end) (path_of target ++ p) = Fault).
      { rewrite <- Z. apply walk_extends; auto; [apply dirs_extends; exact X|].
        destruct target as [|[[] [] [] [] [] [] [] []] target]; cbn [node_at]; congruence. }
      rewrite Y in W. rewrite W in H. discriminate.
  - destruct (X (cur ++ [c])) as [E'|[_ E']]; rewrite E' in H; rewrite ?M in H.
    + destruct p; discriminate.
    + eapply walk_new; eauto.
Qed.
Lemma dirs_dangling links d d1 : sound d -> only_dirs_added d d1 -> no_dangling_links links d -> no_dangling_links links d1.
Proof.
  intros S X ND p t H. destruct (X p) as [E|[_ E]]; [|congruence]. rewrite E in H. destruct (ND p t H) as (q & W). exists q.
  rewrite <- W. apply walk_extends; eauto using dirs_extends.
  unfold link_base. assert (node_at d (removelast p) <> None) by (apply sound_up; congruence || auto).
  destruct t as [|[[] [] [] [] [] [] [] []] t]; cbn [node_at]; congruence.
Qed.

(** ** Creating nodes *)
Lemma sound_add d q c n : sound d -> node_at d q = Some Dir -> proper_name c ->
  (node_at d (q ++ [c]) = None \/ forall x, node_at d ((q ++ [c]) ++ [x]) = None) -> sound (set_node d (q ++ [c]) n).
Proof.
  intros S D P F p x H. assert (NE : q ++ [c] <> []) by (destruct q; discriminate).
  assert (Old : node_at d (p ++ [x]) <> None -> node_at (set_node d (q ++ [c]) n) p = Some Dir /\ proper_name x).
  { intros O. pose proof (S p x O) as [A B]. split; [|exact B]. rewrite node_set by exact NE. destruct (place_eqb (q ++ [c]) p) eqn:E; [|exact A].
    apply place_eqb_eq in E. subst p. destruct F as [F|F]; [congruence|]. rewrite F in O. congruence. }
  rewrite node_set in H by exact NE. destruct (place_eqb (q ++ [c]) (p ++ [x])) eqn:E; [|exact (Old H)].
  apply place_eqb_eq, app_inj_tail in E as [<- <-]. split; [|exact P].
  rewrite node_set_other; auto. intros X. apply (f_equal (@length str)) in X. rewrite app_length in X. cbn in X. lia.
Qed.
Lemma sound_file d q s s' : sound d -> node_at d q = Some (File s) -> sound (set_node d q (File s')).
Proof.
  intros S F. destruct q as [|a q] using rev_ind; [discriminate|]. destruct (S q a) as [D P]; [congruence|].
  apply sound_add; auto. right. intros x. destruct (node_at d ((q ++ [a]) ++ [x])) eqn:E; [|reflexivity].
  destruct (S (q ++ [a]) x); congruence.
Qed.
Lemma sound_unset d q : sound d -> q <> [] -> node_at d q <> Some Dir -> sound (unset_node d q).
Proof.
  intros S NE ND p x H. rewrite node_unset in H by exact NE. destruct (place_eqb q (p ++ [x])); [congruence|].
  destruct (S p x H) as [D P]. split; [|exact P]. rewrite node_unset by exact NE. destruct (place_eqb q p) eqn:E; [|exact D].
  apply place_eqb_eq in E as ->. congruence.
Qed.
Lemma path_of_slashless s : slashless (path_of s).
Proof. apply Forall_forall. intros c H. unfold path_of in H. apply split_char_in in H. exact H. Qed.
Lemma last_name_some p c : last_name p = Some c -> p = removelast p ++ [c] /\ stays c = false /\ climbs c = false.
Proof.
  unfold last_name. destruct p as [|a p] using rev_ind; [discriminate|]. rewrite rev_unit. destruct (stays a) eqn:A; [discriminate|].
  destruct (climbs a) eqn:B; [discriminate|]. intros [= <-]. rewrite removelast_last. auto.
Qed.
Lemma proper_of p c : slashless p -> last_name p = Some c -> proper_name c.
Proof.
  intros F H. apply last_name_some in H as (E & A & B). destruct (climbs_split c A B) as (C1 & C2 & C3).
  repeat split; auto. unfold slashless in F. rewrite E in F. apply Forall_app in F as [_ F]. inversion F; auto.
Qed.
Lemma mkdir_made k d p d' : sound d -> slashless p -> mkdir k d p = Made d' ->
  only_dirs_added d d' /\ sound d'.
Proof.
  unfold mkdir. intros S SL. destruct (last_name p) as [c|] eqn:LN; [|discriminate].
  destruct (resolve k d (removelast p)) as [q|q| |]; try discriminate.
  destruct (node_at d q) as [[]|] eqn:D; try discriminate. destruct (node_at d (q ++ [c])) eqn:M; try discriminate.
  intros [= <-]. assert (NE : q ++ [c] <> []) by (destruct q; discriminate). split.
  - intros r. rewrite node_set by exact NE. destruct (place_eqb (q ++ [c]) r) eqn:E; [|left; reflexivity].
    apply place_eqb_eq in E as <-. right. auto.
  - apply sound_add; auto. eapply proper_of; eauto.
Qed.
Lemma slashless_sub p q : slashless p -> (forall c, In c q -> In c p) -> slashless q.
Proof. intros F I. apply Forall_forall. intros c H. eapply Forall_forall in F; [exact F|]. auto. Qed.
Lemma drop_stays_in r c : In c (drop_stays r) -> In c r.
Proof. induction r as [|a r IH]; cbn [drop_stays]; [auto|]. destruct (stays a); cbn [In]; auto. Qed.
Lemma parent_in p q c : parent p = Some q -> In c q -> In c p.
Proof.
  unfold parent. destruct (drop_stays (rev p)) as [|x r] eqn:E; [discriminate|]. intros [= <-] H.
  apply in_rev in H. apply drop_stays_in in H. apply in_rev, drop_stays_in. rewrite E. right. exact H.
Qed.
Lemma create_dirs n : forall k d p d1 b, sound d -> slashless p -> create_dir_all n k d p = (d1, b) -> only_dirs_added d d1 /\ sound d1.
Proof.
  induction n as [|n IH]; intros k d p d1 b S SL H; cbn [create_dir_all] in H.
  - injection H as <- <-. split; [apply dirs_refl|exact S].
  - destruct (mkdir k d p) as [d'| |] eqn:M.
    + injection H as <- <-. eapply mkdir_made; eauto.
    + destruct (parent p) as [q|] eqn:P; [|injection H as <- <-; split; [apply dirs_refl|exact S]].
      assert (SQ : slashless q) by (apply (slashless_sub p); auto; intros c; apply parent_in; exact P).
      destruct (create_dir_all n k d q) as [d2 b2] eqn:C. destruct (IH _ _ _ _ _ S SQ C) as [X S2].
      destruct b2; [|injection H as <- <-; auto]. destruct (mkdir k d2 p) as [d3| |] eqn:M2.
      * injection H as <- <-. destruct (mkdir_made _ _ _ _ S2 SL M2) as [X2 S3]. split; [eapply dirs_trans; eauto|exact S3].
      * injection H as <- <-. auto.
      * injection H as <- <-. auto.
    + injection H as <- <-. split; [apply dirs_refl|exact S].
Qed.
(** Nothing is created where there is a directory already. *)
Lemma walk_snoc_at k d cur p c q : node_at d cur <> None -> walk k d cur (p ++ [c]) = At q ->
  stays c = false -> climbs c = false -> sound d ->
  exists r, walk k d cur p = At r /\ node_at d r = Some Dir /\ node_at d (r ++ [c]) <> None.
Proof.
  intros N W S1 S2 S. revert N W. revert k cur p.
  apply (lex_ind (fun k cur p => node_at d cur <> None -> walk k d cur (p ++ [c]) = At q ->
    exists r, walk k d cur p = At r /\ node_at d r = Some Dir /\ node_at d (r ++ [c]) <> None)).
  intros k cur p IHk IHp N W. destruct p as [|a p]; cbn [app] in W; rewrite walk_cons in W.
  - rewrite S1, S2 in W. exists cur. rewrite walk_nil. destruct (node_at d cur) as [[]|] eqn:D; try discriminate.
    destruct (node_at d (cur ++ [c])) eqn:M; [|discriminate]. repeat split; auto. congruence.
  - rewrite walk_cons. destruct (node_at d cur) as [[]|] eqn:E; try discriminate.
    destruct (stays a); [apply IHp; auto; cbn [length]; auto; congruence|].
    destruct (climbs a); [apply IHp; auto; cbn [length]; auto; apply sound_up; auto; congruence|].
    destruct (node_at d (cur ++ [a])) as [[]|] eqn:F.
    1,2: apply IHp; auto; cbn [length]; auto; congruence.
    + destruct k as [|k]; [discriminate|]. rewrite app_assoc in W. apply IHk; auto.
      destruct target as [|[[] [] [] [] [] [] [] []] target]; cbn [node_at]; congruence.
    + destruct p; discriminate.
Qed.
Lemma create_existing n k d p : sound d -> is_dir k d p = true -> create_dir_all (S n) k d p = (d, true).
Proof.
  intros S H. cbn [create_dir_all]. unfold mkdir. destruct (last_name p) as [c|] eqn:LN; [|rewrite H; reflexivity].
  apply last_name_some in LN as (E & S1 & S2).
  unfold is_dir, stat in H. unfold is_dir, stat. destruct (resolve k d p) as [q|q| |] eqn:R; try discriminate.
  unfold resolve in R. rewrite E in R. destruct (walk_snoc_at k d [] _ c q ltac:(discriminate) R S1 S2 S) as (r & W & D & M).
  unfold resolve. rewrite W, D. destruct (node_at d (r ++ [c])) eqn:F; [|congruence]. rewrite H. reflexivity.
Qed.
(** A walk along a path that goes on in place. *)
Lemma walk_all_stays k d cur ss q : Forall (fun c => stays c = true) ss -> walk k d cur ss = At q -> q = cur.
Proof.
  induction 1 as [|c ss Hc F IH]; [rewrite walk_nil; congruence|]. rewrite walk_cons, Hc.
  destruct (node_at d cur) as [[]|]; try discriminate. exact IH.
Qed.
Lemma walk_stays k d cur p' ss q : Forall (fun c => stays c = true) ss -> walk k d cur (p' ++ ss) = At q -> walk k d cur p' = At q.
Proof.
  intros F. revert k cur p'. apply (lex_ind (fun k cur p' => walk k d cur (p' ++ ss) = At q -> walk k d cur p' = At q)).
  intros k cur p' IHk IHp W. destruct p' as [|c p']; cbn [app] in W.
  - rewrite walk_nil. apply walk_all_stays in W; congruence.
  - rewrite walk_cons in *. destruct (node_at d cur) as [[]|]; try discriminate.
    destruct (stays c); [apply IHp; auto; cbn [length]; lia|]. destruct (climbs c); [apply IHp; auto; cbn [length]; lia|].
    destruct (node_at d (cur ++ [c])) as [[]|] eqn:F'.
    1,2: apply IHp; auto; cbn [length]; lia.
    + destruct k as [|k]; [discriminate|]. rewrite app_assoc in W. apply IHk; auto.
    + destruct p', ss; discriminate.
Qed.
Lemma drop_stays_split r : exists ss, r = ss ++ drop_stays r /\ Forall (fun c => stays c = true) ss.
Proof.
  induction r as [|c r (ss & E & F)]; cbn [drop_stays]; [exists []; auto|]. destruct (stays c) eqn:S.
  - exists (c :: ss). cbn [app]. rewrite <- E. auto.
  - exists []. auto.
Qed.
(** The parent of a path that ends in a name. *)
Lemma parent_name p c : stays c = false -> exists q ss, parent (p ++ [c]) = Some q /\ p = q ++ ss /\ Forall (fun c => stays c = true) ss.
Proof.
  intros S. unfold parent. rewrite rev_unit. cbn [drop_stays]. rewrite S. destruct (drop_stays_split (rev p)) as (ss & E & F).
  exists (rev (drop_stays (rev p))), (rev ss). split; [reflexivity|]. split.
  - rewrite <- rev_app_distr, <- E, rev_involutive. reflexivity.
  - apply Forall_rev. exact F.
Qed.
(** Removing a file: a path to it leads to its vacant place, all others as before. *)
Lemma walk_removed d q s k cur p r : sound d -> q <> [] -> node_at d q = Some (File s) -> node_at d cur <> None -> cur <> q ->
  walk k d cur p = At r -> walk k (unset_node d q) cur p = if place_eqb r q then Vacant q else At r.
Proof.
  intros S NE F. assert (U : forall r, node_at (unset_node d q) r = if place_eqb q r then None else node_at d r) by (intros x; apply node_unset; exact NE).
  revert k cur p. apply (lex_ind (fun k cur p => node_at d cur <> None -> cur <> q ->
    walk k d cur p = At r -> walk k (unset_node d q) cur p = if place_eqb r q then Vacant q else At r)).
  intros k cur p IHk IHp N C W. destruct p as [|c p].
  - rewrite !walk_nil in *. injection W as <-. apply place_eqb_neq in C. rewrite C. reflexivity.
  - rewrite !walk_cons in *. rewrite U. assert (C' := C). apply not_eq_sym, place_eqb_neq in C'. rewrite C'.
    destruct (node_at d cur) as [[]|] eqn:E; try discriminate.
    destruct (stays c); [apply IHp; cbn [length]; auto; congruence|].
    destruct (climbs c).
    { apply IHp; cbn [length]; auto; [apply sound_up; auto; congruence|]. intros X. subst q.
      rewrite sound_up_dir in F; auto; congruence. }
    rewrite U. destruct (place_eqb q (cur ++ [c])) eqn:Q.
    + apply place_eqb_eq in Q. subst q. rewrite F in W. destruct p as [|c' p]; [rewrite walk_nil in W; injection W as <-; rewrite place_eqb_refl; reflexivity|].
      rewrite walk_cons, F in W. discriminate.
    + apply place_eqb_neq in Q. destruct (node_at d (cur ++ [c])) as [[]|] eqn:G.
      1,2: apply IHp; cbn [length]; auto; congruence.
      * destruct k as [|k]; [discriminate|]. apply IHk; auto; destruct target as [|[[] [] [] [] [] [] [] []] target]; cbn [node_at]; congruence.
      * destruct p; discriminate.
Qed.
