(** Lemmas about the saved graph. *)
From Coq Require Import Lia.
From Verif Require Import M_Graph.
From Verif Require Import S_Save L_Str L_Text L_Fs L_Server L_Load L_History.
Close Scope Z_scope.

(** ** The two files *)
Definition cp (w : place) : place := w ++ [current_name].
Definition bp (w : place) : place := w ++ [backup_name].
Definition workable (c : ctx) (w : place) (d : fs) : Prop := runs_in c d w /\ no_links_in w d /\ no_graph_dirs d w.
Lemma cp_bp w : cp w <> bp w.
Proof. intros E. apply app_inj_tail in E as [_ E]. discriminate. Qed.
Lemma cp_root w : cp w <> [].
Proof. intros E. apply app_eq_nil in E as [_ E]. discriminate. Qed.
Lemma bp_root w : bp w <> [].
Proof. intros E. apply app_eq_nil in E as [_ E]. discriminate. Qed.
Lemma w_cp w : w <> cp w.
Proof. intros E. apply (f_equal (@length str)) in E. unfold cp in E. rewrite app_length in E. cbn in E. lia. Qed.
Lemma w_bp w : w <> bp w.
Proof. intros E. apply (f_equal (@length str)) in E. unfold bp in E. rewrite app_length in E. cbn in E. lia. Qed.
Lemma cp_proper : proper_name current_name.
Proof. split; [discriminate|]; split; [discriminate|]; split; [discriminate|]; cbn; intuition discriminate. Qed.
Lemma bp_proper : proper_name backup_name.
Proof. split; [discriminate|]; split; [discriminate|]; split; [discriminate|]; cbn; intuition discriminate. Qed.
Lemma resolve_vacant_child c d w n : runs_in c d w -> proper_name n -> node_at d (w ++ [n]) = None ->
  resolve (c_links c) d (c_ws c ++ [n]) = Vacant (w ++ [n]).
Proof.
  intros (S & SL & R & D) P N. unfold resolve in *.
  destruct (walk_then d (c_links c) [] (c_ws c) w S ltac:(discriminate) R) as (k' & W). rewrite (W d [n] (extends_refl d)).
  rewrite walk_cons, D. destruct (proper_go n P) as [-> ->]. rewrite N. reflexivity.
Qed.
Lemma child_node d w n : no_links_in w d -> node_at d (w ++ [n]) <> Some Dir ->
  node_at d (w ++ [n]) = None \/ exists s, node_at d (w ++ [n]) = Some (File s).
Proof.
  intros NL ND. destruct (node_at d (w ++ [n])) as [[s| |t]|] eqn:E; eauto; [congruence|].
  exfalso. exact (NL (w ++ [n]) t (ex_intro _ [n] eq_refl) E).
Qed.
Lemma cp_node d w : no_links_in w d -> no_graph_dirs d w -> node_at d (cp w) = None \/ exists s, node_at d (cp w) = Some (File s).
Proof. intros NL ND. apply child_node; [exact NL|apply ND]. Qed.
Lemma bp_node d w : no_links_in w d -> no_graph_dirs d w -> node_at d (bp w) = None \/ exists s, node_at d (bp w) = Some (File s).
Proof. intros NL ND. apply child_node; [exact NL|apply ND]. Qed.
Lemma read_child c d w n : runs_in c d w -> no_links_in w d -> proper_name n ->
  read_text (c_links c) d (c_ws c ++ [n]) = match node_at d (w ++ [n]) with Some (File s) => if is_text s then Some s else None | _ => None end.
Proof.
  intros RI NL P. unfold read_text, stat. destruct (node_at d (w ++ [n])) as [x|] eqn:E.
  - rewrite (resolve_below c d w [n] RI NL) by congruence. rewrite E. reflexivity.
  - rewrite (resolve_vacant_child c d w n RI P E). reflexivity.
Qed.
Lemma workable_set c w d q s : workable c w d -> q = cp w \/ q = bp w -> workable c w (set_node d q (File s)).
Proof.
  intros (RI & NL & ND) Q. pose proof RI as (S & SL & R & D).
  assert (QN : q <> []) by (destruct Q as [-> | ->]; [apply cp_root|apply bp_root]).
  assert (ON : node_at d q = None \/ exists o, node_at d q = Some (File o)).
  { destruct Q as [-> | ->]; apply child_node; auto; apply ND. }
  assert (S' : sound (set_node d q (File s))).
  { destruct ON as [E|(o & E)]; [|exact (sound_file d q o s S E)].
    destruct Q as [-> | ->]; apply sound_add; auto using cp_proper, bp_proper. }
  split; [exact (runs_set c d w q s RI ON S')|]. split; [apply links_set; auto|].
  unfold no_graph_dirs in *. rewrite !node_set by exact QN. destruct (place_eqb q (w ++ [current_name])), (place_eqb q (w ++ [backup_name]));
    split; try discriminate; apply ND.
Qed.
Lemma workable_unset c w d s : workable c w d -> node_at d (cp w) = Some (File s) -> workable c w (unset_node d (cp w)).
Proof.
  intros (RI & NL & ND) F. pose proof RI as (S & SL & R & D).
  split; [split; [apply sound_unset; auto using cp_root; congruence|]|].
  - split; [exact SL|]. split.
    + unfold resolve in *. rewrite (walk_removed d (cp w) s (c_links c) [] (c_ws c) w S (cp_root w) F ltac:(discriminate) (fun e => cp_root w (eq_sym e)) R).
      destruct (place_eqb w (cp w)) eqn:E; [apply place_eqb_eq in E; destruct (w_cp w E)|reflexivity].
    + rewrite node_unset by apply cp_root. destruct (place_eqb (cp w) w) eqn:E; [apply place_eqb_eq in E; destruct (w_cp w (eq_sym E))|exact D].
  - split.
    + intros p t I E. rewrite node_unset in E by apply cp_root. destruct (place_eqb (cp w) p); [discriminate|]. exact (NL p t I E).
    + unfold no_graph_dirs in *. rewrite !node_unset by apply cp_root.
      destruct (place_eqb (cp w) (w ++ [current_name])), (place_eqb (cp w) (w ++ [backup_name])); split; try discriminate; apply ND.
Qed.
(** The file system once the current graph is put aside. *)
Definition aside (w : place) (d : fs) : fs :=
  match node_at d (cp w) with
  | Some n => set_node (unset_node d (cp w)) (bp w) n
  | None => d
  end.
Lemma aside_workable c w d : workable c w d -> workable c w (aside w d).
Proof.
  intros W. unfold aside. pose proof W as (RI & NL & ND). destruct (cp_node d w NL ND) as [E|(s & E)]; rewrite E; [exact W|].
  apply workable_set; auto. exact (workable_unset c w d s W E).
Qed.
Lemma aside_current w d : node_at (aside w d) (cp w) = None.
Proof.
  unfold aside. destruct (node_at d (cp w)) as [n|] eqn:E; [|exact E].
  rewrite node_set_other by (auto using bp_root, cp_bp, not_eq_sym). rewrite node_unset by apply cp_root. rewrite place_eqb_refl. reflexivity.
Qed.
Lemma aside_backup w d : node_at (aside w d) (bp w) = match node_at d (cp w) with Some n => Some n | None => node_at d (bp w) end.
Proof. unfold aside. destruct (node_at d (cp w)) as [n|] eqn:E; [|reflexivity]. apply node_set_same, bp_root. Qed.
Lemma last_child p n : proper_name n -> last_name (p ++ [n]) = Some n.
Proof. intros P. unfold last_name. rewrite rev_unit. destruct (proper_go n P) as [-> ->]. reflexivity. Qed.
Lemma rename_aside c w d : workable c w d ->
  (if path_exists (c_links c) d (current_graph c) then rename (c_links c) d (current_graph c) (backup_graph c) else Some d) = Some (aside w d).
Proof.
  intros (RI & NL & ND). pose proof RI as (S & SL & R & D). unfold aside, path_exists, current_graph.
  destruct (cp_node d w NL ND) as [E|(s & E)].
  - rewrite (resolve_vacant_child c d w _ RI cp_proper E). rewrite E. reflexivity.
  - rewrite (resolve_below c d w _ RI NL) by (fold (cp w); congruence). rewrite E. unfold rename, backup_graph.
    rewrite !last_child by (apply cp_proper || apply bp_proper). rewrite !removelast_last, R, D. fold (cp w). fold (bp w). rewrite E.
    destruct (bp_node d w NL ND) as [F|(s' & F)]; rewrite F; reflexivity.
Qed.
Lemma write_current c w d t : workable c w d -> node_at d (cp w) = None -> write (c_links c) d (current_graph c) t = Some (set_node d (cp w) (File t)).
Proof.
  intros (RI & NL & ND) E. unfold write, current_graph. rewrite (resolve_vacant_child c d w _ RI cp_proper E). reflexivity.
Qed.
Lemma save_spec j c w d g s : workable c w d ->
  save_graph j c d g s =
  match s with
  | BeforeRename => (d, false)
  | BeforeWrite => (aside w d, false)
  | InWrite k => match to_json j g with Some t => (set_node (aside w d) (cp w) (File (firstn k t)), false) | None => (aside w d, false) end
  | Finished => match to_json j g with Some t => (set_node (aside w d) (cp w) (File t), true) | None => (aside w d, false) end
  end.
Proof.
  intros W. unfold save_graph. destruct s; [reflexivity| | |]; rewrite (rename_aside c w d W); [reflexivity| |];
    (destruct (to_json j g) as [t|]; [|reflexivity]); rewrite (write_current c w _ _ (aside_workable c w d W) (aside_current w d)); reflexivity.
Qed.
Lemma save_workable j c w d g s : workable c w d -> workable c w (fst (save_graph j c d g s)).
Proof.
  intros W. rewrite (save_spec j c w d g s W). pose proof (aside_workable c w d W).
  destruct s; auto; destruct (to_json j g); cbn [fst]; auto using workable_set.
Qed.
Lemma saves_workable j c w l : forall d, workable c w d -> workable c w (saves j c d l).
Proof. induction l as [|[g s] l IH]; intros d W; [exact W|]. apply IH, save_workable, W. Qed.
Lemma saves_snoc j c d l g s : saves j c d (l ++ [(g, s)]) = fst (save_graph j c (saves j c d l) g s).
Proof. unfold saves. rewrite fold_left_app. reflexivity. Qed.
(** What the two files hold, in terms of nodes. *)
Definition file_holds (j : graph_json) (d : fs) (p : place) (g : graph) : Prop :=
  exists t, node_at d p = Some (File t) /\ is_text t = true /\ of_json j t = Some g.
Lemma holds_spec j c w d n g : workable c w d -> proper_name n -> (holds j c d (c_ws c ++ [n]) g <-> file_holds j d (w ++ [n]) g).
Proof.
  intros (RI & NL & ND) P. unfold holds, file_holds. setoid_rewrite (read_child c d w n RI NL P). split.
  - intros (t & R & O). destruct (node_at d (w ++ [n])) as [[s| |]|]; try discriminate. destruct (is_text s) eqn:T; [|discriminate].
    injection R as ->. eauto.
  - intros (t & -> & -> & O). eauto.
Qed.
Lemma current_holds j c w d g : workable c w d -> (holds j c d (current_graph c) g <-> file_holds j d (cp w) g).
Proof. intros W. apply holds_spec; auto using cp_proper. Qed.
Lemma backup_holds j c w d g : workable c w d -> (holds j c d (backup_graph c) g <-> file_holds j d (bp w) g).
Proof. intros W. apply holds_spec; auto using bp_proper. Qed.
Lemma load_holds j c w d g : workable c w d -> (load_current_graph j c d = Some g <-> file_holds j d (cp w) g).
Proof.
  intros W. rewrite <- (current_holds j c w d g W). unfold load_current_graph, holds, path_exists, read_text, stat, current_graph.
  destruct (resolve (c_links c) d _) as [q| | |]; cbn [negb]; try (split; [discriminate|intros (t & X & _); discriminate]).
  destruct (match node_at d q with Some (File s) => if is_text s then Some s else None | _ => None end) as [t|]; split; try discriminate; eauto.
  - intros (t' & [= <-] & O). exact O.
  - intros (t & X & _). discriminate.
Qed.
Lemma set_holds j d p t g : p <> [] -> (file_holds j (set_node d p (File t)) p g <-> is_text t = true /\ of_json j t = Some g).
Proof.
  intros N. unfold file_holds. rewrite node_set_same by exact N. split; [intros (x & [= <-] & A & B); auto|]. intros [A B]. eauto.
Qed.
Lemma set_holds_other j d p q t g : p <> [] -> p <> q -> (file_holds j (set_node d p (File t)) q g <-> file_holds j d q g).
Proof. intros N O. unfold file_holds. rewrite node_set_other by auto. reflexivity. Qed.
Lemma aside_holds j c w d g : workable c w d -> file_holds j d (cp w) g -> file_holds j (aside w d) (bp w) g.
Proof. intros W (t & E & R). exists t. rewrite aside_backup, E. auto. Qed.
Lemma aside_keeps j w d g : node_at d (cp w) = None -> file_holds j d (bp w) g -> file_holds j (aside w d) (bp w) g.
Proof. intros N (t & E & R). exists t. rewrite aside_backup, N. auto. Qed.

(** ** Histories *)
(** What is known after a careful history: the last finished graph is current;
    or it is put aside and nothing is current; or it is put aside and the
    current file was being written. *)
Inductive after (j : graph_json) (w : place) (d : fs) (g : graph) (torn : bool) : Prop :=
| after_current : torn = false -> file_holds j d (cp w) g -> after j w d g torn
| after_none : torn = false -> node_at d (cp w) = None -> file_holds j d (bp w) g -> after j w d g torn
| after_torn : torn = true -> file_holds j d (bp w) g -> after j w d g torn.
Definition is_torn (l : list (graph * stop)) (b : bool) : Prop :=
  b = true <-> exists a g k mid, l = a ++ (g, InWrite k) :: mid /\ forall x, In x mid -> snd x = BeforeRename.
Lemma torn_nil : is_torn [] false.
Proof. split; [discriminate|]. intros (a & g & k & mid & E & _). destruct a; discriminate. Qed.
Lemma torn_snoc l g s b : is_torn l b -> is_torn (l ++ [(g, s)]) (match s with BeforeRename => b | InWrite _ => true | _ => false end).
Proof.
  intros T. unfold is_torn in *. destruct s as [| |k|].
  - rewrite T. split.
    + intros (a & g' & k & mid & -> & M). exists a, g', k, (mid ++ [(g, BeforeRename)]). rewrite <- app_assoc. split; [reflexivity|].
      intros x I. apply in_app_or in I as [I|[<-|[]]]; auto.
    + intros (a & g' & k & mid & E & M). destruct mid as [|x mid _] using rev_ind.
      * apply app_inj_tail in E as [_ [= _ ?]].
      * rewrite app_comm_cons, app_assoc in E. apply app_inj_tail in E as [-> <-]. exists a, g', k, mid. split; [reflexivity|].
        intros y I. apply M, in_or_app. auto.
  - split; [discriminate|]. intros (a & g' & k & mid & E & M). destruct mid as [|x mid _] using rev_ind.
    + apply app_inj_tail in E as [_ [= _ ?]].
    + rewrite app_comm_cons, app_assoc in E. apply app_inj_tail in E as [-> <-]. assert (X := M (g, BeforeWrite)). rewrite in_app_iff in X. specialize (X (or_intror (or_introl eq_refl))). discriminate.
  - split; [intros _|reflexivity]. exists l, g, k, []. split; [reflexivity|intros x []].
  - split; [discriminate|]. intros (a & g' & k & mid & E & M). destruct mid as [|x mid _] using rev_ind.
    + apply app_inj_tail in E as [_ [= _ ?]].
    + rewrite app_comm_cons, app_assoc in E. apply app_inj_tail in E as [-> <-]. assert (X := M (g, Finished)). rewrite in_app_iff in X. specialize (X (or_intror (or_introl eq_refl))). discriminate.
Qed.
Lemma careful_before l x : careful (l ++ [x]) -> careful l.
Proof. intros C a g k mid g' s b E M. apply (C a g k mid g' s (b ++ [x])); [|exact M]. rewrite E, <- app_assoc. cbn [app]. rewrite <- app_assoc. reflexivity. Qed.
Lemma careful_last l g s : careful (l ++ [(g, s)]) -> is_torn l true -> s = BeforeRename \/ s = Finished.
Proof.
  intros C T. destruct (proj1 T eq_refl) as (a & g' & k & mid & -> & M). apply (C a g' k mid g s []); [|exact M].
  rewrite <- app_assoc. reflexivity.
Qed.
Lemma save_after j c w d g0 torn g s : workable c w d -> after j w d g0 torn -> savable j g -> (torn = true -> s = BeforeRename \/ s = Finished) ->
  after j w (fst (save_graph j c d g s)) (match s with Finished => g | _ => g0 end) (match s with BeforeRename => torn | InWrite _ => true | _ => false end).
Proof.
  intros W A (t & J & TT & O) C. rewrite (save_spec j c w d g s W).
  assert (B : torn = false -> file_holds j (aside w d) (bp w) g0).
  { intros ->. destruct A as [_ H|_ N H|X]; [apply (aside_holds j c w d g0 W H)|exact (aside_keeps j w d g0 N H)|discriminate]. }
  destruct s as [| |k|]; [exact A| | |]; try rewrite J; cbn [fst].
  - destruct torn; [destruct (C eq_refl); discriminate|]. apply after_none; auto using aside_current.
  - destruct torn; [destruct (C eq_refl); discriminate|]. apply after_torn; [reflexivity|].
    apply set_holds_other; auto using cp_root, cp_bp.
  - apply after_current; [reflexivity|]. apply set_holds; auto using cp_root.
Qed.
Lemma saves_after j c w d g0 l : workable c w d -> file_holds j d (cp w) g0 -> Forall (fun x => savable j (fst x)) l -> careful l ->
  exists g torn, last_finished g0 l g /\ is_torn l torn /\ after j w (saves j c d l) g torn.
Proof.
  intros W H. induction l as [|[g s] l IH] using rev_ind; intros F C.
  - exists g0, false. split; [constructor|]. split; [exact torn_nil|]. apply after_current; auto.
  - apply Forall_app in F as [F1 F2]. inversion F2 as [|? ? S _]; subst. cbn [fst] in S.
    destruct (IH F1 (careful_before l _ C)) as (g1 & torn & LF & T & A). rewrite saves_snoc.
    exists (match s with Finished => g | _ => g1 end), (match s with BeforeRename => torn | InWrite _ => true | _ => false end).
    split; [destruct s; constructor; auto; discriminate|]. split; [apply torn_snoc; exact T|].
    apply save_after; auto using saves_workable. intros ->. exact (careful_last l g s C T).
Qed.
Lemma last_finished_fun g0 l g : last_finished g0 l g -> forall g', last_finished g0 l g' -> g = g'.
Proof.
  induction 1 as [|l g|l g s g1 NS H IH]; intros g' H'.
  - inversion H' as [|l g E|l g s g1 NS H E]; [reflexivity| |]; destruct l; discriminate.
  - inversion H' as [E|l' g1 E|l' g1 s g2 NS H E]; [destruct l; discriminate| |]; apply app_inj_tail in E as [-> E]; congruence.
  - inversion H' as [E|l' g2 E|l' g2 s' g3 NS' H2 E]; [destruct l; discriminate| |]; apply app_inj_tail in E as [-> E]; [congruence|].
    subst. apply IH; exact H2.
Qed.
(** ** Nothing but what was saved is loaded *)
Lemma firstn_prefix {A} k (t : list A) : firstn k t = t \/ exists b, t = firstn k t ++ b /\ b <> [].
Proof.
  destruct (Nat.lt_ge_cases k (length t)) as [K|K]; [|left; apply firstn_all2; exact K].
  right. exists (skipn k t). split; [symmetry; apply firstn_skipn|]. intros E. apply (f_equal (@length A)) in E. rewrite skipn_length in E. cbn in E. lia.
Qed.
Definition known (j : graph_json) (w : place) (d : fs) (gs : list graph) : Prop :=
  forall g, file_holds j d (cp w) g \/ file_holds j d (bp w) g -> In g gs.
Lemma save_known j c w d g s gs : workable c w d -> known j w d gs -> savable j g -> no_partial_graph j g -> known j w (fst (save_graph j c d g s)) (g :: gs).
Proof.
  intros W K (t & J & TT & O) NP. rewrite (save_spec j c w d g s W).
  assert (KA : known j w (aside w d) gs).
  { intros g' [(x & E & _)|(x & E & T & O')]; [rewrite aside_current in E; discriminate|]. rewrite aside_backup in E.
    destruct (node_at d (cp w)) eqn:N; [injection E as ->; apply K; left|apply K; right]; exists x; auto. }
  destruct s as [| |k|]; try rewrite J; cbn [fst].
  - intros g' H. right. exact (K g' H).
  - intros g' H. right. exact (KA g' H).
  - intros g' [H|H].
    + apply set_holds in H as [T' O']; [|apply cp_root]. destruct (firstn_prefix k t) as [E|(b & E & NB)].
      * rewrite E, O in O'. left. congruence.
      * rewrite (NP t _ b J E NB) in O'. discriminate.
    + apply set_holds_other in H; [|apply cp_root|apply cp_bp]. right. apply KA. auto.
  - intros g' [H|H].
    + apply set_holds in H as [T' O']; [|apply cp_root]. left. congruence.
    + apply set_holds_other in H; [|apply cp_root|apply cp_bp]. right. apply KA. auto.
Qed.

(** ** What is saved is no source *)
Definition kept_key (w : place) (p : place) : bool := negb (place_eqb p (cp w) || place_eqb p (bp w)).
Definition rest_of (w : place) (d : fs) : fs := filter (fun e => kept_key w (fst e)) d.
Lemma entry_rest w d p : kept_key w p = true -> entry_at (rest_of w d) p = entry_at d p.
Proof.
  intros K. induction d as [|[q n] d IH]; [reflexivity|]. cbn [rest_of filter fst]. fold (rest_of w d).
  destruct (place_eqb q p) eqn:E.
  - apply place_eqb_eq in E as ->. rewrite K. cbn [entry_at]. rewrite place_eqb_refl. reflexivity.
  - destruct (kept_key w q); cbn [entry_at]; rewrite E; exact IH.
Qed.
Lemma node_rest w d d' p : rest_of w d = rest_of w d' -> kept_key w p = true -> node_at d p = node_at d' p.
Proof.
  intros E K. destruct p as [|a p]; [reflexivity|]. cbn [node_at]. rewrite <- (entry_rest w d), E, entry_rest; auto.
Qed.
Lemma rest_set w d p n : kept_key w p = false -> rest_of w (set_node d p n) = rest_of w d.
Proof.
  intros K. induction d as [|[q m] d IH]; cbn [set_node]; [cbn; rewrite K; reflexivity|].
  destruct (place_eqb q p) eqn:E; cbn [rest_of filter fst]; [apply place_eqb_eq in E as ->; rewrite K; reflexivity|].
  fold (rest_of w d). fold (rest_of w (set_node d p n)). rewrite IH. reflexivity.
Qed.
Lemma rest_unset w d p : kept_key w p = false -> rest_of w (unset_node d p) = rest_of w d.
Proof.
  intros K. induction d as [|[q m] d IH]; [reflexivity|]. cbn [unset_node filter fst]. fold (unset_node d p).
  destruct (place_eqb q p) eqn:E; cbn [negb].
  - apply place_eqb_eq in E as ->. cbn [rest_of filter fst]. rewrite K. exact IH.
  - cbn [rest_of filter fst]. fold (rest_of w d). fold (rest_of w (unset_node d p)). rewrite IH. reflexivity.
Qed.
Lemma kept_cp w : kept_key w (cp w) = false.
Proof. unfold kept_key. rewrite place_eqb_refl. reflexivity. Qed.
Lemma kept_bp w : kept_key w (bp w) = false.
Proof. unfold kept_key. rewrite place_eqb_refl, Bool.orb_true_r. reflexivity. Qed.
Lemma save_rest j c w d g s : workable c w d -> rest_of w (fst (save_graph j c d g s)) = rest_of w d.
Proof.
  intros W. rewrite (save_spec j c w d g s W).
  assert (A : rest_of w (aside w d) = rest_of w d).
  { unfold aside. destruct (node_at d (cp w)); [|reflexivity]. rewrite rest_set, rest_unset; auto using kept_cp, kept_bp. }
  destruct s; try destruct (to_json j g); cbn [fst]; rewrite ?rest_set by apply kept_cp; auto.
Qed.
Lemma saves_rest j c w l : forall d, workable c w d -> rest_of w (saves j c d l) = rest_of w d.
Proof.
  induction l as [|[g s] l IH]; intros d W; [reflexivity|].
  change (saves j c d ((g, s) :: l)) with (saves j c (fst (save_graph j c d g s)) l).
  rewrite IH by (apply save_workable; exact W). apply save_rest, W.
Qed.
Lemma omap_skip {E A B} (f : A -> outcome E (list B)) (bad : A -> bool) l : (forall x, bad x = true -> f x = Ok []) ->
  obind (omap f l) (fun r => Ok (concat r)) = obind (omap f (filter (fun x => negb (bad x)) l)) (fun r => Ok (concat r)).
Proof.
  intros H. induction l as [|x l IH]; [reflexivity|]. rewrite omap_cons. cbn [filter]. destruct (bad x) eqn:Bx; cbn [negb].
  - rewrite (H x Bx). cbn [obind]. rewrite <- IH. destruct (omap f l); reflexivity.
  - rewrite omap_cons. destruct (f x) as [y|e|]; try reflexivity. cbn [obind]. revert IH.
    destruct (omap f l) as [r|e|], (omap f (filter _ l)) as [r'|e'|]; cbn [obind]; intros IH; try discriminate IH; try congruence.
    injection IH as IH. cbn [concat]. rewrite IH. reflexivity.
Qed.
Lemma omap_ext {E A B} (f g : A -> outcome E B) l : (forall x, In x l -> f x = g x) -> omap f l = omap g l.
Proof.
  induction l as [|x l IH]; intros H; [reflexivity|]. rewrite !omap_cons, (H x (or_introl eq_refl)), IH; [reflexivity|].
  intros y I. apply H. right. exact I.
Qed.
Definition graph_name (n : str) : bool := str_eqb n current_name || str_eqb n backup_name.
Lemma names_rest w d rel : names_in (rest_of w d) (w ++ rel) = filter (fun n => kept_key w (w ++ rel ++ [n])) (names_in d (w ++ rel)).
Proof.
  unfold names_in. induction d as [|[p m] d IH]; [reflexivity|]. cbn [rest_of filter fst flat_map]. fold (rest_of w d).
  destruct (child_name (w ++ rel) p) as [n|] eqn:Cn.
  - apply child_name_spec in Cn as ->. cbn [app filter]. rewrite <- app_assoc. destruct (kept_key w (w ++ rel ++ [n])) eqn:K.
    + cbn [flat_map fst]. replace (child_name (w ++ rel) (w ++ rel ++ [n])) with (Some n)
        by (symmetry; apply child_name_spec; rewrite <- app_assoc; reflexivity).
      cbn [app]. rewrite IH. reflexivity.
    + exact IH.
  - cbn [app]. destruct (kept_key w p); [|exact IH]. cbn [flat_map fst]. rewrite Cn. exact IH.
Qed.
Lemma kept_not_firm w rel n : kept_key w (w ++ rel ++ [n]) = false -> rel = [] /\ is_firm_file n = false.
Proof.
  unfold kept_key, cp, bp. intros K. apply Bool.negb_false_iff, Bool.orb_true_iff in K.
  destruct K as [K|K]; apply place_eqb_eq, app_inv_head in K; destruct rel as [|x [|y rel]]; try discriminate; injection K as ->; split; reflexivity.
Qed.
Lemma load_dir_rest c w d d' : runs_in c d w -> no_links_in w d -> runs_in c d' w -> no_links_in w d' -> no_graph_dirs d w -> no_graph_dirs d' w ->
  rest_of w d = rest_of w d' -> forall n n' rel, node_at d (w ++ rel) = Some Dir -> node_at d' (w ++ rel) = Some Dir ->
  length d < length (w ++ rel) + n -> length d' < length (w ++ rel) + n' -> load_dir n c d rel = load_dir n' c d' rel.
Proof.
  intros RI NL RI' NL' ND ND' E. induction n as [|n IH]; intros n' rel D D' B B'.
  - exfalso. pose proof (depth_bound d (w ++ rel) (proj1 RI) ltac:(congruence)). lia.
  - destruct n' as [|n']; [exfalso; pose proof (depth_bound d' (w ++ rel) (proj1 RI') ltac:(congruence)); lia|].
    rewrite (load_dir_step c d w RI NL n rel D), (load_dir_step c d' w RI' NL' n' rel D').
    assert (SK : forall d0 m, runs_in c d0 w -> no_links_in w d0 -> no_graph_dirs d0 w -> forall x, negb (kept_key w (w ++ rel ++ [x])) = true -> load_child c d0 m rel x = Ok []).
    { intros e m RIe NLe NDe x K. apply Bool.negb_true_iff in K. unfold load_child.
      destruct (node_at e (w ++ rel ++ [x])) as [nd|] eqn:Ne.
      - rewrite (stat_below c e w RIe NLe (rel ++ [x])) by congruence. rewrite Ne.
        destruct (kept_not_firm w rel x K) as [-> F]. rewrite F. destruct nd as [s| |t]; try reflexivity.
        exfalso. unfold kept_key, cp, bp in K. apply Bool.negb_false_iff, Bool.orb_true_iff in K. cbn [app] in K, Ne.
        destruct K as [K|K]; apply place_eqb_eq in K; rewrite K in Ne; [exact (proj1 NDe Ne)|exact (proj2 NDe Ne)].
      - destruct (kept_not_firm w rel x K) as [-> F]. unfold stat. cbn [app].
        assert (P : proper_name x).
        { unfold kept_key, cp, bp in K. apply Bool.negb_false_iff, Bool.orb_true_iff in K. cbn [app] in K.
          destruct K as [K|K]; apply place_eqb_eq, app_inj_tail in K as [_ ->]; [exact cp_proper|exact bp_proper]. }
        rewrite (resolve_vacant_child c e w x RIe P Ne). reflexivity. }
    rewrite (omap_skip _ (fun x => negb (kept_key w (w ++ rel ++ [x]))) _ (SK d n RI NL ND)).
    rewrite (omap_skip _ (fun x => negb (kept_key w (w ++ rel ++ [x]))) _ (SK d' n' RI' NL' ND')).
    assert (FE : forall l, filter (fun x => negb (negb (kept_key w (w ++ rel ++ [x])))) l = filter (fun x => kept_key w (w ++ rel ++ [x])) l).
    { intros l. apply filter_ext. intros x. apply Bool.negb_involutive. }
    rewrite !FE. rewrite <- !names_rest, E. f_equal. apply omap_ext. intros x I. rewrite names_rest in I.
    apply filter_In in I as [I K]. assert (NE : node_at d' (w ++ rel ++ [x]) <> None).
    { rewrite app_assoc. apply names_spec. exact I. }
    pose proof (node_rest w d d' (w ++ rel ++ [x]) E K) as N. unfold load_child.
    rewrite (stat_below c d w RI NL (rel ++ [x])) by congruence. rewrite (stat_below c d' w RI' NL' (rel ++ [x]) NE). rewrite N.
    destruct (node_at d' (w ++ rel ++ [x])) as [[s| |t]|] eqn:N'; try reflexivity.
    + destruct (is_firm_file x); [|reflexivity]. rewrite (load_file_spec c d w RI NL (rel ++ [x]) s N), (load_file_spec c d' w RI' NL' (rel ++ [x]) s N').
      reflexivity.
    + apply IH; auto; rewrite !app_length in *; cbn [length] in *; lia.
Qed.
Lemma load_rest c w d d' : workable c w d -> workable c w d' -> rest_of w d = rest_of w d' -> load_directory c d = load_directory c d'.
Proof.
  intros (RI & NL & ND) (RI' & NL' & ND') E. unfold load_directory. apply (load_dir_rest c w d d'); auto; try rewrite app_nil_r.
  - apply RI.
  - apply RI'.
  - lia.
  - lia.
Qed.
Lemma rebuild_rest c w d d' : workable c w d -> workable c w d' -> rest_of w d = rest_of w d' -> rebuild c d = rebuild c d'.
Proof. intros W W' E. unfold rebuild. rewrite (load_rest c w d d' W W' E). reflexivity. Qed.
