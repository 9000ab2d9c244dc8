(** Lemmas about the reading tools. *)
From Coq Require Import Lia.
From Verif Require Import M_Graph L_Graph S_Sort L_Sort.
From Verif Require Import S_Tools L_Str L_Text L_DslStr L_Fs L_Server L_Load L_History.
Close Scope Z_scope.

(** ** Lines *)
Lemma strip_cr_at w : strip_cr (w ++ [CR]) = w.
Proof.
  induction w as [|c w IH]; [reflexivity|]. cbn [app strip_cr]. rewrite IH. destruct (w ++ [CR]) eqn:E; [destruct w; discriminate|reflexivity].
Qed.
Lemma strip_cr_none w : (forall l, w <> l ++ [CR]) -> strip_cr w = w.
Proof.
  induction w as [|c w IH]; intros N; [reflexivity|]. cbn [strip_cr]. destruct w as [|d w].
  - destruct (Ascii.eqb_spec c CR) as [->|]; [destruct (N []); reflexivity|reflexivity].
  - rewrite IH; [reflexivity|]. intros l E. apply (N (c :: l)). rewrite E. reflexivity.
Qed.
Lemma cr_cases w : (exists l, w = l ++ [CR]) \/ (forall l, w <> l ++ [CR]).
Proof.
  destruct w as [|x w _] using rev_ind; [right; intros [|]; discriminate|]. destruct (Ascii.eqb_spec x CR) as [->|N]; [eauto|].
  right. intros l E. apply app_inj_tail in E as [_ E]. contradiction.
Qed.
Lemma lines_last s : ~ In LF s -> lines s = match s with [] => [] | _ => [s] end.
Proof. intros N. unfold lines. rewrite split_char_free by exact N. destruct s; reflexivity. Qed.
Lemma lines_first w r : ~ In LF w -> lines (w ++ LF :: r) = strip_cr w :: lines r.
Proof.
  intros N. unfold lines. rewrite split_char_app by exact N. cbn [finish_lines]. pose proof (split_char_not_nil LF r).
  destruct (split_char LF r); [congruence|reflexivity].
Qed.
Lemma feeds_none a : line_feeds a = 0 <-> ~ In LF a.
Proof.
  unfold line_feeds. induction a as [|c a IH]; [split; auto|]. cbn [filter]. destruct (Ascii.eqb_spec LF c) as [<-|N].
  - split; [discriminate|]. intros H. exfalso. apply H. left. reflexivity.
  - rewrite IH. cbn. intuition.
Qed.
Lemma feeds_app a b : line_feeds (a ++ b) = line_feeds a + line_feeds b.
Proof. unfold line_feeds. rewrite filter_app, app_length. reflexivity. Qed.
Lemma cut_first (q : ascii) w r a x : ~ In q w -> w ++ q :: r = a ++ x -> In q a -> exists a', a = w ++ q :: a' /\ r = a' ++ x.
Proof.
  revert a. induction w as [|c w IH]; intros [|y a] N E I; try (destruct I; fail).
  - injection E as <- E. exists a. auto.
  - injection E as <- E. destruct I as [->|I]; [exfalso; apply N; left; reflexivity|].
    destruct (IH a) as (a' & -> & ->); [intros H; apply N; right; exact H|exact E|exact I|]. exists a'. auto.
Qed.
Lemma line_at_last s k l : ~ In LF s -> (line_at s (S k) l <-> k = 0 /\ s <> [] /\ l = s).
Proof.
  intros N. split.
  - intros (a & b & -> & Nl & E & A & B). rewrite !in_app_iff in N.
    assert (a = []) as ->. { destruct A as [->|(a' & ->)]; [reflexivity|]. exfalso. apply N. left. apply in_app_iff. right. left. reflexivity. }
    cbn in E. destruct B as [[-> L0]|[(b' & -> & _)|(b' & ->)]].
    + rewrite app_nil_r. cbn. split; [lia|]. auto.
    + exfalso. apply N. right. right. left. reflexivity.
    + exfalso. apply N. right. right. right. left. reflexivity.
  - intros (-> & Ns & ->). exists [], []. rewrite app_nil_r. split; [reflexivity|]. split; [exact N|]. split; [reflexivity|]. auto.
Qed.
Lemma line_at_first w r l : ~ In LF w -> (line_at (w ++ LF :: r) 1 l <-> l = strip_cr w).
Proof.
  intros N. split.
  - intros (a & b & E & Nl & F & A & B). injection F as F. symmetry in F. apply feeds_none in F.
    assert (a = []) as ->. { destruct A as [->|(a' & ->)]; [reflexivity|]. exfalso. apply F. apply in_app_iff. right. left. reflexivity. }
    cbn [app] in E. destruct B as [[-> L0]|[(b' & -> & C)|(b' & ->)]].
    + rewrite app_nil_r in E. exfalso. apply Nl. rewrite <- E. apply in_app_iff. right. left. reflexivity.
    + apply (f_equal (split_once LF)) in E. rewrite !split_once_app in E by assumption. injection E as -> ->. rewrite strip_cr_none; auto.
    + change (l ++ CR :: LF :: b') with (l ++ [CR] ++ LF :: b') in E. rewrite app_assoc in E.
      assert (N2 : ~ In LF (l ++ [CR])) by (rewrite in_app_iff; cbn; intuition discriminate).
      apply (f_equal (split_once LF)) in E. rewrite !split_once_app in E by assumption. injection E as -> ->. rewrite strip_cr_at. reflexivity.
  - intros ->. destruct (cr_cases w) as [(l & ->)|C].
    + rewrite strip_cr_at. rewrite in_app_iff in N. exists [], (CR :: LF :: r). split; [rewrite <- app_assoc; reflexivity|]. split; [tauto|].
      split; [reflexivity|]. split; [auto|]. right. right. eauto.
    + rewrite (strip_cr_none w C). exists [], (LF :: r). split; [reflexivity|]. split; [exact N|]. split; [reflexivity|]. split; [auto|]. right. left. eauto.
Qed.
Lemma line_at_next w r k l : ~ In LF w -> (line_at (w ++ LF :: r) (S (S k)) l <-> line_at r (S k) l).
Proof.
  intros N. split.
  - intros (a & b & E & Nl & F & A & B).
    assert (I : In LF a). { destruct A as [->|(a' & ->)]; [discriminate|]. apply in_app_iff. right. left. reflexivity. }
    destruct (cut_first LF w r a (l ++ b) N E I) as (a' & -> & ->). exists a', b. split; [reflexivity|]. split; [exact Nl|]. split; [|split; [|exact B]].
    + change (w ++ LF :: a') with (w ++ [LF] ++ a') in F. rewrite !feeds_app in F. apply feeds_none in N. rewrite N in F. cbn in F. injection F as ->. reflexivity.
    + destruct A as [A|(x & A)]; [destruct w; discriminate|]. destruct a' as [|y a' _] using rev_ind; [auto|]. right. exists a'.
      change (w ++ LF :: a' ++ [y]) with (w ++ (LF :: a') ++ [y]) in A. rewrite app_assoc in A. apply app_inj_tail in A as [_ ->]. reflexivity.
  - intros (a & b & -> & Nl & F & A & B). exists (w ++ LF :: a), b. split; [rewrite <- app_assoc; reflexivity|]. split; [exact Nl|]. split; [|split; [|exact B]].
    + change (w ++ LF :: a) with (w ++ [LF] ++ a). rewrite !feeds_app. apply feeds_none in N. rewrite N. cbn. congruence.
    + right. destruct A as [->|(a' & ->)]; [exists w; reflexivity|]. exists (w ++ LF :: a'). rewrite <- app_assoc. reflexivity.
Qed.
Lemma lf_cases s : ~ In LF s \/ exists w r, ~ In LF w /\ s = w ++ LF :: r.
Proof.
  destruct (split_once LF s) as [[w r]|] eqn:E.
  - apply split_once_spec in E as [-> N]. eauto.
  - apply split_once_none in E. auto.
Qed.
Lemma lines_spec s : forall k l, nth_error (lines s) k = Some l <-> line_at s (S k) l.
Proof.
  remember (length s) as n eqn:En. revert s En. induction n as [n IH] using lt_wf_ind. intros s -> k l. destruct (lf_cases s) as [N|(w & r & N & ->)].
  - rewrite (line_at_last s k l N), (lines_last s N). destruct s as [|c s].
    + split; [destruct k; discriminate|]. intros (_ & H & _). congruence.
    + destruct k as [|k]; cbn [nth_error]; [split; [intros [= <-]; split; [reflexivity|split; [discriminate|reflexivity]]|intros (_ & _ & ->); reflexivity]|].
      split; [destruct k; discriminate|]. intros (E & _). discriminate.
  - rewrite (lines_first w r N). destruct k as [|k]; cbn [nth_error].
    + rewrite (line_at_first w r l N). split; [intros [= ->]; reflexivity|intros ->; reflexivity].
    + rewrite (line_at_next w r k l N). apply IH with (length r); [|reflexivity]. rewrite app_length. cbn. lia.
Qed.

Lemma line_matches_spec query cs l : line_matches query cs l = true <-> hit query cs l.
Proof.
  unfold line_matches, hit. destruct cs; rewrite contains_spec.
  - split; [intros (a & b & ->); exists a, query, b; auto|intros (a & m & b & -> & ->); eauto].
  - split.
    + intros (a & b & E). exists (firstn (length a) l), (firstn (length query) (skipn (length a) l)), (skipn (length query) (skipn (length a) l)).
      split; [rewrite !firstn_skipn; reflexivity|]. unfold lower in *.
      rewrite <- firstn_map, <- skipn_map, E, skipn_app, skipn_all, Nat.sub_diag. cbn [app skipn].
      rewrite firstn_app, map_length, Nat.sub_diag. cbn [firstn]. rewrite app_nil_r. rewrite <- (map_length lower_ascii query) at 1. apply firstn_all.
    + intros (a & m & b & -> & E). exists (lower a), (lower b). rewrite !lower_app, E. reflexivity.
Qed.

(** ** Searching *)
Fixpoint hits_from (m : str -> bool) (n : nat) (ls : list str) : list (nat * str) :=
  match ls with
  | [] => []
  | l :: ls' => if m l then (n, l) :: hits_from m (S n) ls' else hits_from m (S n) ls'
  end.
Lemma hits_spec m ls : forall n k l, In (k, l) (hits_from m n ls) <-> exists i, k = n + i /\ nth_error ls i = Some l /\ m l = true.
Proof.
  induction ls as [|x ls IH]; intros n k l; cbn [hits_from].
  - split; [intros []|]. intros ([|i] & _ & E & _); discriminate.
  - assert (X : (exists i, k = n + i /\ nth_error (x :: ls) i = Some l /\ m l = true) <->
                (k = n /\ x = l /\ m l = true) \/ In (k, l) (hits_from m (S n) ls)).
    { rewrite IH. split.
      - intros ([|i] & -> & E & M); cbn in E; [left; split; [lia|]; split; congruence|]. right. exists i. split; [lia|]. auto.
      - intros [(-> & -> & M)|(i & -> & E & M)]; [exists 0|exists (S i)]; (split; [lia|]); auto. }
    rewrite X. destruct (m x) eqn:M; cbn [In].
    + split; [intros [[= <- <-]|H]; auto|intros [(-> & -> & _)|H]; auto].
    + split; [auto|]. intros [(_ & -> & F)|H]; [congruence|exact H].
Qed.
Lemma hits_after m ls : forall n k l, In (k, l) (hits_from m n ls) -> n <= k.
Proof. intros n k l H. apply hits_spec in H as (i & -> & _). lia. Qed.
Lemma hits_sorted m ls : forall n, StronglySorted (fun a b => fst a < fst b) (hits_from m n ls).
Proof.
  induction ls as [|x ls IH]; intros n; cbn [hits_from]; [constructor|]. destruct (m x); [|apply IH]. constructor; [apply IH|].
  apply Forall_forall. intros [k l] H. apply hits_after in H. cbn. lia.
Qed.

Lemma search_lines_spec m ls : forall n total, total <= max_matches ->
  search_lines m n ls total =
    (firstn (max_matches - total) (hits_from m n ls),
     total + length (firstn (max_matches - total) (hits_from m n ls)),
     max_matches - total <? length (hits_from m n ls)).
Proof.
  induction ls as [|x ls IH]; intros n total B; cbn [search_lines hits_from].
  - rewrite firstn_nil. cbn. rewrite Nat.add_0_r. reflexivity.
  - destruct (m x); [|apply IH; exact B]. destruct (Nat.leb_spec max_matches total) as [G|G].
    + replace (max_matches - total) with 0 by lia. cbn. rewrite Nat.add_0_r. reflexivity.
    + rewrite IH by lia. replace (max_matches - total) with (S (max_matches - S total)) by lia. cbn [firstn length]. f_equal.
      f_equal. lia.
Qed.

Section Search.
Context (c : ctx) (d : fs) (m : str -> bool).
Definition file_hits (p : str) : list (str * nat * str) :=
  match read_text (c_links c) d (join_path (c_ws c) p) with
  | None => []
  | Some s => map (fun h => (p, fst h, snd h)) (hits_from m 1 (lines s))
  end.
Lemma reported_app a b : reported (a ++ b) = reported a ++ reported b.
Proof. apply flat_map_app. Qed.
Lemma reported_here p ms : reported (match ms with [] => [] | _ => [(p, ms)] end) = map (fun h => (p, fst h, snd h)) ms.
Proof. destruct ms; [reflexivity|]. unfold reported. cbn [flat_map fst snd]. rewrite app_nil_r. reflexivity. Qed.
Lemma search_files_spec ps : forall total groups t b, total <= max_matches -> search_files c d m ps total = (groups, t, b) ->
  reported groups = firstn (max_matches - total) (flat_map file_hits ps) /\
  t = total + length (reported groups) /\ b = (max_matches - total <? length (flat_map file_hits ps)).
Proof.
  induction ps as [|p ps IH]; intros total groups t b B H; cbn [search_files flat_map] in *.
  - injection H as <- <- <-. rewrite firstn_nil. split; [reflexivity|]. split; [cbn; lia|]. symmetry. apply Nat.ltb_ge. cbn. lia.
  - unfold file_hits at 1 3. destruct (read_text (c_links c) d (join_path (c_ws c) p)) as [s|]; [|apply IH; assumption].
    rewrite (search_lines_spec m (lines s) 1 total B) in H. set (hs := hits_from m 1 (lines s)) in *.
    assert (Le : length (firstn (max_matches - total) hs) <= max_matches - total) by (rewrite firstn_length; lia).
    rewrite firstn_app, firstn_map, app_length, map_length.
    destruct (Nat.ltb_spec (max_matches - total) (length hs)) as [G|G].
    + injection H as <- <- <-. rewrite reported_here. replace (max_matches - total - length hs) with 0 by lia. cbn [firstn]. rewrite app_nil_r, map_length.
      split; [reflexivity|]. split; [reflexivity|]. symmetry. apply Nat.ltb_lt. lia.
    + rewrite firstn_all2 in H by lia. rewrite firstn_all2 by lia.
      destruct (search_files c d m ps (total + length hs)) as [[r t'] b'] eqn:E. injection H as <- <- <-.
      destruct (IH (total + length hs) r t' b' ltac:(lia) E) as (R & -> & ->). rewrite reported_app, reported_here, app_length, map_length.
      replace (max_matches - (total + length hs)) with (max_matches - total - length hs) in * by lia. rewrite R.
      split; [reflexivity|]. split; [lia|]. apply eq_true_iff_eq. rewrite !Nat.ltb_lt. lia.
Qed.
Lemma search_groups ps : forall total groups t b, search_files c d m ps total = (groups, t, b) ->
  Forall (fun g => snd g <> [] /\ In (fst g) ps) groups /\
  (StronglySorted (fun x y => str_cmp x y = Lt) ps -> StronglySorted (fun x y => str_cmp x y = Lt) (map fst groups)).
Proof.
  induction ps as [|p ps IH]; intros total groups t b H; cbn [search_files] in H.
  - injection H as <- _ _. split; constructor.
  - assert (W : forall gs, Forall (fun g : str * list (nat * str) => snd g <> [] /\ In (fst g) ps) gs -> Forall (fun g => snd g <> [] /\ In (fst g) (p :: ps)) gs).
    { intros gs F. eapply Forall_impl; [|exact F]. intros g [X Y]. split; [exact X|right; exact Y]. }
    destruct (read_text (c_links c) d (join_path (c_ws c) p)) as [s|].
    + destruct (search_lines m 1 (lines s) total) as [[ms t1] tr].
      assert (Here : Forall (fun g : str * list (nat * str) => snd g <> [] /\ In (fst g) (p :: ps)) (match ms with [] => [] | _ => [(p, ms)] end) /\
              Forall (fun g => fst g = p) (match ms with [] => [] | _ => [(p, ms)] end)).
      { destruct ms; split; constructor; auto; split; [discriminate|left; reflexivity]. }
      assert (One : length (match ms with [] => [] | _ => [(p, ms)] end) <= 1) by (destruct ms; cbn; lia).
      set (here := match ms with [] => [] | _ => [(p, ms)] end) in *. destruct Here as [H1 H2]. destruct tr.
      * injection H as <- _ _. split; [exact H1|]. intros _. destruct here as [|x [|]]; cbn in One; try lia; repeat constructor.
      * destruct (search_files c d m ps t1) as [[r t'] b'] eqn:E. injection H as <- _ _. destruct (IH _ _ _ _ E) as [F So].
        split; [apply Forall_app; split; [exact H1|apply W; exact F]|]. intros SS. inversion SS as [|? ? SS' FP]; subst.
        destruct here as [|x [|]]; cbn in One; try lia; cbn [app map]; [auto|]. constructor; [auto|].
        inversion H2; subst. apply Forall_forall. intros y Hy. apply in_map_iff in Hy as (g & <- & Hg).
        rewrite Forall_forall in F, FP. apply FP. apply (F g Hg).
    + destruct (IH _ _ _ _ H) as [F So]. split; [apply W; exact F|]. intros SS. inversion SS; subst. auto.
Qed.
Lemma flat_hits_sorted ps : StronglySorted (fun x y => str_cmp x y = Lt) ps -> StronglySorted earlier (flat_map file_hits ps).
Proof.
  induction 1 as [|p ps SS IH FP]; cbn [flat_map]; [constructor|].
  assert (A : forall x, In x (file_hits p) -> fst (fst x) = p).
  { intros x Hx. unfold file_hits in Hx. destruct (read_text _ _ _); [|destruct Hx]. apply in_map_iff in Hx as (h & <- & _). reflexivity. }
  assert (B : forall x, In x (flat_map file_hits ps) -> In (fst (fst x)) ps).
  { intros x Hx. apply in_flat_map in Hx as (q & Hq & Hx). unfold file_hits in Hx. destruct (read_text _ _ _); [|destruct Hx].
    apply in_map_iff in Hx as (h & <- & _). exact Hq. }
  assert (C : StronglySorted earlier (file_hits p)).
  { unfold file_hits. destruct (read_text _ _ _) as [s|]; [|constructor]. pose proof (hits_sorted m (lines s) 1) as Q.
    induction Q as [|h hs Q IHQ F]; cbn [map]; constructor; auto. apply Forall_forall. intros y Hy. apply in_map_iff in Hy as (h' & <- & Hy).
    rewrite Forall_forall in F. cbn. right. split; [reflexivity|]. apply F. exact Hy. }
  induction C as [|x xs C IHC F]; cbn [app]; [exact IH|]. constructor.
  - apply IHC. intros y Hy. apply A. right. exact Hy.
  - apply Forall_app. split; [exact F|]. apply Forall_forall. intros y Hy. pose proof (A x (or_introl eq_refl)) as Ex. pose proof (B y Hy) as Ey.
    rewrite Forall_forall in FP. destruct x as [[p1 k1] t1], y as [[p2 k2] t2]. cbn in *. subst p1. left. apply FP. exact Ey.
Qed.
Lemma flat_hits_spec ps p k t : In (p, k, t) (flat_map file_hits ps) <->
  exists s, In p ps /\ read_text (c_links c) d (named c p) = Some s /\ line_at s k t /\ m t = true.
Proof.
  rewrite in_flat_map. unfold named. split.
  - intros (q & Hq & H). unfold file_hits in H. destruct (read_text (c_links c) d (join_path (c_ws c) q)) as [s|] eqn:R; [|destruct H].
    apply in_map_iff in H as ([k' l] & E & H). injection E as <- <- <-. cbn [fst snd] in *. apply hits_spec in H as (i & -> & N & M).
    exists s. apply lines_spec in N. auto.
  - intros (s & Hp & R & La & M). exists p. split; [exact Hp|]. unfold file_hits. rewrite R. apply in_map_iff. exists (k, t). split; [reflexivity|].
    apply hits_spec. destruct k as [|k]; [destruct La as (? & ? & _ & _ & X & _); discriminate|]. exists k. split; [reflexivity|]. split; [|exact M]. apply lines_spec. exact La.
Qed.
End Search.

(** ** Sorting *)
Lemma tpo_strings : total_preorder_on str_cmp (fun _ => True).
Proof. split; intros; [apply str_cmp_antisym|eapply str_le_trans; eassumption]. Qed.
Lemma sorted_strict l : NoDup l -> StronglySorted (fun a b => str_cmp a b <> Gt) l -> StronglySorted (fun a b => str_cmp a b = Lt) l.
Proof.
  intros N SS. induction SS as [|x l SS IH F]; constructor; inversion N; subst; auto. rewrite Forall_forall in *. intros y Hy.
  specialize (F y Hy). destruct (str_cmp x y) eqn:E; auto; [|congruence]. apply str_cmp_eq in E. subst. contradiction.
Qed.
Lemma sort_strict l : NoDup l -> StronglySorted (fun a b => str_cmp a b = Lt) (sort_by str_cmp l).
Proof.
  intros N. apply sorted_strict; [eapply Permutation_NoDup; [apply sort_perm|exact N]|].
  apply (sort_sorted str_cmp (fun _ => True) tpo_strings). apply Forall_forall. auto.
Qed.
Lemma sort_in l x : In x (sort_by str_cmp l) <-> In x l.
Proof. split; apply Permutation_in; [apply Permutation_sym|]; apply sort_perm. Qed.
Lemma strict_nodup l : StronglySorted (fun a b => str_cmp a b = Lt) l -> NoDup l.
Proof.
  induction 1 as [|x l SS IH F]; constructor; auto. intros I. rewrite Forall_forall in F. specialize (F x I). rewrite str_cmp_refl in F. discriminate.
Qed.
Lemma str_cmp_app x a b : str_cmp (x ++ a) (x ++ b) = str_cmp a b.
Proof. induction x as [|c x IH]; [reflexivity|]. cbn. rewrite ascii_cmp_refl. exact IH. Qed.

(** ** The files of an ordinary workspace *)
Lemma nodup_via {A B C} (f : A -> B) (g : A -> C) l : NoDup (map f l) -> (forall x y, In x l -> In y l -> g x = g y -> f x = f y) -> NoDup (map g l).
Proof.
  induction l as [|a l IH]; intros N E; cbn [map]; constructor.
  - inversion N; subst. intros H. apply in_map_iff in H as (y & Q & Hy). apply H1. apply in_map_iff. exists y. split; [|exact Hy].
    apply E; [right; exact Hy|left; reflexivity|exact Q].
  - inversion N; subst. apply IH; [assumption|]. intros x y Hx Hy. apply E; right; assumption.
Qed.
Lemma source_slashless w d r s : sound d -> source_of w d r s -> slashless r /\ r <> [].
Proof.
  intros S (N & r' & n & -> & _). split; [apply (below_slashless d w); [exact S|congruence]|destruct r'; discriminate].
Qed.
Lemma workspace_paths c w d st : ordinary c w d -> (forall l, Permutation (c_files c l) l) -> rebuild c d = Ok st ->
  NoDup (map (fun pf => wf_rel (snd pf)) (st_files st)) /\
  (forall p, In p (map (fun pf => wf_rel (snd pf)) (st_files st)) <-> exists r s, source_of w d r s /\ p = path_text r).
Proof.
  intros (RI & NL & T & _) PC B. destruct (rebuild_files c d st B) as (fs & Ld & -> & _).
  destruct (load_directory_spec c d w fs RI NL T Ld) as (N & I & OKs). pose proof RI as (S & SW & _).
  assert (P : Permutation (map (fun pf : str * wfile => wf_rel (snd pf)) (c_files c fs)) (map (fun pf => wf_rel (snd pf)) fs)) by (apply Permutation_map, PC).
  split.
  - eapply Permutation_NoDup; [apply Permutation_sym; exact P|]. apply (nodup_via fst); [exact N|].
    intros x y Hx Hy E. apply I in Hx as (r1 & s1 & ps1 & S1 & _ & ->). apply I in Hy as (r2 & s2 & ps2 & S2 & _ & ->). cbn in *.
    destruct (source_slashless w d r1 s1 S S1), (source_slashless w d r2 s2 S S2).
    apply path_text_inj in E; auto. subst. reflexivity.
  - intros p. split.
    + intros H. apply (Permutation_in p P) in H. apply in_map_iff in H as (e & <- & He). apply I in He as (r & s & ps & SO & _ & ->). exists r, s. auto.
    + intros (r & s & SO & ->). apply (Permutation_in _ (Permutation_sym P)). destruct (OKs r s SO) as [_ NP]. destruct (c_parse c s) as [ps|] eqn:E; [|congruence].
      apply in_map_iff. exists (loaded c r ps). split; [reflexivity|]. apply I. exists r, s, ps. auto.
Qed.
Lemma path_text_relative r : Forall proper_name r -> starts_with (path_text r) (L "/") = false.
Proof.
  intros F. destruct F as [|n r (N & _ & _ & Q) F]; [reflexivity|]. unfold path_text.
  destruct n as [|x n]; [congruence|]. assert (G : forall t, starts_with (x :: t) ["/"%char] = false).
  { intros t. cbn [starts_with]. destruct (Ascii.eqb_spec "/" x) as [<-|]; [exfalso; apply Q; left; reflexivity|reflexivity]. }
  destruct r; exact (G _).
Qed.
Lemma source_named c w d r s : runs_in c d w -> source_of w d r s -> named c (path_text r) = c_ws c ++ r.
Proof.
  intros (S & _) SO. pose proof SO as (N & _). destruct (source_slashless w d r s S SO) as [SL NE].
  assert (F : Forall proper_name r).
  { assert (X : Forall proper_name (w ++ r)) by (apply (sound_names d); [exact S|congruence]). apply Forall_app in X as [_ X]. exact X. }
  rewrite named_relative by (apply path_text_relative; exact F). unfold path_of, path_text. rewrite split_char_join; auto.
Qed.
Lemma source_reads c w d r s : ordinary c w d -> source_of w d r s -> read_text (c_links c) d (named c (path_text r)) = Some s.
Proof.
  intros (RI & NL & _ & AT) SO. rewrite (source_named c w d r s RI SO). pose proof SO as (N & _). unfold read_text.
  rewrite (stat_below c d w RI NL) by congruence. rewrite N, (AT (w ++ r) s); auto. exists r. reflexivity.
Qed.
Lemma source_read c w d r s : ordinary c w d -> source_of w d r s -> read_source_file c d (path_text r) = Ok s.
Proof.
  intros O SO. pose proof O as (RI & NL & _ & AT). pose proof SO as (N & r' & n & -> & FN). pose proof RI as (S & _).
  unfold read_source_file. rewrite (absolute_spec c d w _ RI), (source_named c w d _ s RI SO).
  rewrite (resolve_below c d w _ RI NL) by congruence. assert (I : within (w ++ r' ++ [n]) w = true) by (apply within_spec; eexists; reflexivity). rewrite I.
  assert (R : resolve (c_links c) d (w ++ r' ++ [n]) = At (w ++ r' ++ [n])) by (apply resolve_place; [exact S|congruence|intros t; congruence]).
  unfold path_exists. rewrite R. cbn [negb].
  assert (Fn : is_firm_file n = true) by (apply firm_file_spec; exact FN).
  assert (S1 : stays n = false /\ climbs n = false). { apply firm_name, ends_with_spec. destruct FN as (x & _ & ->). eauto. }
  unfold path_name. rewrite app_assoc, rev_unit. cbn [drop_stays]. rewrite (proj1 S1), (proj2 S1), Fn. cbn [negb]. rewrite <- app_assoc.
  unfold read_text, stat. rewrite R, N, (AT (w ++ r' ++ [n]) s); [reflexivity|eexists; reflexivity|exact N].
Qed.

(** ** The tree *)
Definition keys_sorted (tree : list (str * list str)) : Prop := StronglySorted (fun a b => str_cmp a b = Lt) (map fst tree).
Lemma push_keys dir f tree k : In k (map fst (push_file dir f tree)) <-> k = dir \/ In k (map fst tree).
Proof.
  induction tree as [|[k' fs] tree IH]; cbn [push_file map fst In]; [intuition|]. destruct (str_cmp dir k') eqn:E; cbn [map fst In].
  - apply str_cmp_eq in E. subst. intuition.
  - intuition.
  - rewrite IH. intuition.
Qed.
Lemma push_sorted dir f tree : keys_sorted tree -> keys_sorted (push_file dir f tree).
Proof.
  unfold keys_sorted. induction tree as [|[k fs] tree IH]; cbn [push_file map fst]; intros SS; [repeat constructor|].
  inversion SS as [|? ? SS' F]; subst. destruct (str_cmp dir k) eqn:E; cbn [map fst].
  - exact SS.
  - constructor; [exact SS|]. constructor; [exact E|]. eapply Forall_impl; [|exact F]. intros x. apply str_cmp_trans_lt. exact E.
  - constructor; [auto|]. apply Forall_forall. intros x Hx. apply push_keys in Hx as [->|Hx]; [rewrite str_cmp_antisym, E; reflexivity|].
    rewrite Forall_forall in F. auto.
Qed.
Lemma push_in dir f tree : keys_sorted tree -> forall k fs, In (k, fs) (push_file dir f tree) <->
  (k <> dir /\ In (k, fs) tree) \/ (k = dir /\ exists fs0, fs = fs0 ++ [f] /\ (In (k, fs0) tree \/ (fs0 = [] /\ ~ In k (map fst tree)))).
Proof.
  unfold keys_sorted. induction tree as [|[k0 fs0] tree IH]; intros SS k fs; cbn [push_file map fst].
  - cbn [In]. split.
    + intros [[= <- <-]|[]]. right. split; [reflexivity|]. exists []. auto.
    + intros [[_ []]|(-> & l & -> & [[]|[-> _]])]. left. reflexivity.
  - cbn [map fst] in SS. inversion SS as [|? ? SS' F]; subst. rewrite Forall_forall in F.
    assert (NI : forall l, In (k0, l) tree -> False).
    { intros l H. specialize (F k0 (in_map fst _ _ H)). rewrite str_cmp_refl in F. discriminate. }
    destruct (str_cmp dir k0) eqn:E; cbn [In].
    + apply str_cmp_eq in E. subst k0. split.
      * intros [[= <- <-]|H]; [right; split; [reflexivity|]; exists fs0; auto|]. left. split; [|auto]. intros ->. exact (NI _ H).
      * intros [[N [[= -> ->]|H]]|(-> & l & -> & [[[= <-]|H]|[_ H]])]; try congruence; auto; exfalso; [exact (NI _ H)|apply H; auto].
    + assert (Nd : dir <> k0) by (intros ->; rewrite str_cmp_refl in E; discriminate).
      assert (ND : ~ In dir (map fst tree)). { intros H. apply F in H. pose proof (str_cmp_trans_lt _ _ _ E H) as X. rewrite str_cmp_refl in X. discriminate. }
      split.
      * intros [[= <- <-]|[[= <- <-]|H]].
        -- right. split; [reflexivity|]. exists []. split; [reflexivity|]. right. split; [reflexivity|]. intros [H|H]; [congruence|contradiction].
        -- left. auto.
        -- left. split; [|auto]. intros ->. apply ND. exact (in_map fst _ _ H).
      * intros [[N H]|(-> & l & -> & [[[= -> ->]|H]|[-> _]])]; auto; [congruence|]. exfalso. apply ND. exact (in_map fst _ _ H).
    + assert (Nd : dir <> k0) by (intros ->; rewrite str_cmp_refl in E; discriminate). rewrite (IH SS'). split.
      * intros [[= <- <-]|[[N H]|(-> & l & -> & [H|[-> H]])]]; auto.
        -- right. split; [reflexivity|]. exists l. auto.
        -- right. split; [reflexivity|]. exists []. split; [reflexivity|]. right. split; [reflexivity|]. intros [X|X]; [congruence|contradiction].
      * intros [[N [[= -> ->]|H]]|(-> & l & -> & [[[= -> ->]|H]|[-> H]])]; auto; [congruence| |].
        -- right. right. split; [reflexivity|]. exists l. auto.
        -- right. right. split; [reflexivity|]. exists []. split; [reflexivity|]. right. split; [reflexivity|]. intros X. apply H. auto.
Qed.
Definition tree_of (pairs : list (str * str)) : list (str * list str) :=
  fold_left (fun tree p => push_file (fst p) (snd p) tree) pairs [].
Definition files_in (dir : str) (pairs : list (str * str)) : list str := map snd (filter (fun p => str_eqb (fst p) dir) pairs).
Lemma tree_of_spec pairs : keys_sorted (tree_of pairs) /\
  forall k fs, In (k, fs) (tree_of pairs) <-> fs = files_in k pairs /\ fs <> [].
Proof.
  unfold tree_of, files_in. induction pairs as [|[dir f] pairs [K IH]] using rev_ind.
  - split; [constructor|]. intros k fs. cbn. split; [intros []|]. intros [-> H]. congruence.
  - rewrite fold_left_app. cbn [fold_left fst snd]. split; [apply push_sorted; exact K|]. intros k fs. rewrite (push_in dir f _ K k fs), filter_app, map_app.
    cbn [filter fst snd]. destruct (str_eqb dir k) eqn:E; cbn [map snd].
    + apply str_eqb_eq in E. subst k. split.
      * intros [[N _]|(_ & l & -> & [H|[-> H]])]; [congruence| |].
        -- apply IH in H as [-> _]. split; [reflexivity|]. intros X. destruct (map _ _); discriminate.
        -- split; [|discriminate]. destruct (map snd (filter (fun p => str_eqb (fst p) dir) pairs)) as [|y l] eqn:X; [reflexivity|]. exfalso. apply H.
           change dir with (fst (dir, y :: l)). apply in_map. apply IH. split; [symmetry; exact X|discriminate].
      * intros [-> _]. right. split; [reflexivity|]. eexists. split; [reflexivity|].
        destruct (map snd (filter (fun p => str_eqb (fst p) dir) pairs)) as [|y l] eqn:X.
        -- right. split; [reflexivity|]. intros H. apply in_map_iff in H as ([k fs0] & Ek & H). cbn in Ek. subst k. apply IH in H as [-> H]. congruence.
        -- left. apply IH. rewrite X. split; [reflexivity|discriminate].
    + apply str_eqb_neq in E. rewrite app_nil_r, IH. split; [|intros H; left; split; [congruence|exact H]]. intros [[_ H]|(-> & _)]; [exact H|congruence].
Qed.
Lemma path_text_snoc r n : r <> [] -> path_text (r ++ [n]) = path_text r ++ L "/" ++ n.
Proof.
  intros N. unfold path_text. induction r as [|a r IH]; [congruence|]. cbn [app]. rewrite join_cons by (destruct r; discriminate).
  destruct r as [|b r]; [reflexivity|]. rewrite IH by discriminate. rewrite (join_cons (L "/") a (b :: r)) by discriminate. rewrite <- !app_assoc. reflexivity.
Qed.
Lemma dir_and_file_spec r n : slashless (r ++ [n]) -> dir_and_file (path_text (r ++ [n])) = (path_text r, n).
Proof.
  intros SL. apply Forall_app in SL as [SR SN]. inversion SN as [|? ? Sn _]; subst. unfold dir_and_file. destruct r as [|a r].
  - cbn [app path_text join]. destruct (split_once "/" (rev n)) as [[x y]|] eqn:E; [|reflexivity]. apply split_once_spec in E as [E _].
    exfalso. apply Sn. apply in_rev. rewrite E. apply in_app_iff. right. left. reflexivity.
  - rewrite path_text_snoc by discriminate. rewrite !rev_app_distr. rewrite <- app_assoc. change (rev (L "/") ++ rev (path_text (a :: r))) with ("/"%char :: rev (path_text (a :: r))).
    rewrite split_once_app by (rewrite <- in_rev; exact Sn). rewrite !rev_involutive. reflexivity.
Qed.
