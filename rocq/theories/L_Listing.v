(** Lemmas about the texts in which files and matches are listed. *)
From Coq Require Import Lia.
From Verif Require Import S_Graph L_Graph.
From Verif Require Import S_Listing S_Dsl L_Str L_Text L_Num L_DslStr.
Close Scope Z_scope.

(** ** White space *)
Lemma space_char w : In w ws_chars -> In " "%char w -> w = L " ".
Proof. unfold ws_chars. cbn [map In]. intros H I. repeat (destruct H as [<-|H]; [vm_compute in I |- *; first [reflexivity|intuition discriminate]|]). destruct H. Qed.
Lemma no_colon w : In w ws_chars -> ~ In ":"%char w.
Proof. unfold ws_chars. cbn [map In]. intros H I. repeat (destruct H as [<-|H]; [vm_compute in I; intuition discriminate|]). destruct H. Qed.
Lemma no_m w : In w ws_chars -> ~ In "m"%char w.
Proof. unfold ws_chars. cbn [map In]. intros H I. repeat (destruct H as [<-|H]; [vm_compute in I; intuition discriminate|]). destruct H. Qed.
Lemma ws_not_nil w : In w ws_chars -> w <> [].
Proof. unfold ws_chars. cbn [map In]. intros H ->. repeat (destruct H as [H|H]; [discriminate|]). exact H. Qed.
Lemma ends_plain s q : (forall w, In w ws_chars -> ~ In q w) -> ~ ends_with_space (s ++ [q]).
Proof.
  intros N (w & r & I & E). pose proof (ws_not_nil w I) as NE. destruct w as [|c w] using rev_ind; [congruence|]. clear IHw.
  rewrite app_assoc in E. apply app_inj_tail in E as [_ ->]. apply (N _ I). apply in_or_app. right. left. reflexivity.
Qed.
Lemma ends_spaced s t : t <> [] -> ~ ends_with_space t -> ~ ends_with_space (s ++ L " " ++ t).
Proof.
  intros N E (w & r & I & X). destruct (app_eq_app _ _ _ _ X) as (l & [[E1 E2]|[E1 E2]]).
  - assert (J : In " "%char w) by (rewrite E2; apply in_or_app; right; left; reflexivity). apply (space_char w I) in J. rewrite J in E2.
    destruct l as [|c l]; [injection E2 as E2; congruence|]. injection E2 as _ E2. destruct l; discriminate.
  - destruct l as [|c l].
    + cbn in E2. assert (J : In " "%char w) by (rewrite <- E2; left; reflexivity). apply (space_char w I) in J. rewrite J in E2. injection E2 as E2. congruence.
    + injection E2 as <- E2. apply E. exists w, l. auto.
Qed.
Lemma utrim_end_kept s : ~ ends_with_space s -> utrim_end s = s.
Proof. intros E. pose proof (utrim_end_around s [] all_space_nil E) as H. rewrite app_nil_r in H. exact H. Qed.
Lemma space_of l : Forall (fun c => c = LF \/ c = " "%char) l -> all_space l.
Proof.
  intros F. exists (map (fun c => [c]) l). split.
  - induction F as [|c l [-> | ->] F IH]; cbn [map]; constructor; auto; vm_compute; tauto.
  - clear F. induction l as [|c l IH]; [reflexivity|]. cbn [map concat app]. rewrite <- IH. reflexivity.
Qed.

(** ** Lines *)
Lemma lined ls : ls <> [] -> concat (map (fun l => l ++ [LF]) ls) = join [LF] ls ++ [LF].
Proof.
  induction ls as [|l ls IH]; [congruence|]. intros _. destruct ls as [|k ls]; [cbn; rewrite app_nil_r; reflexivity|].
  cbn [map concat] in *. rewrite IH by discriminate. change (join [LF] (l :: k :: ls)) with (l ++ [LF] ++ join [LF] (k :: ls)). rewrite <- !app_assoc. reflexivity.
Qed.
Lemma join_last a l : join [LF] (a ++ [l]) = concat (map (fun l => l ++ [LF]) a) ++ l.
Proof.
  induction a as [|k a IH]; [reflexivity|]. cbn [map concat app]. rewrite <- app_assoc, <- IH, <- app_assoc. destruct a; reflexivity.
Qed.
Lemma join_more a b : a <> [] -> b <> [] -> join [LF] (a ++ b) = join [LF] a ++ [LF] ++ join [LF] b.
Proof.
  induction a as [|k a IH]; [congruence|]. intros _ N. destruct a as [|k' a].
  - destruct b; [congruence|reflexivity].
  - change (join [LF] ((k :: k' :: a) ++ b)) with (k ++ [LF] ++ join [LF] ((k' :: a) ++ b)). rewrite IH by (auto; discriminate).
    change (join [LF] (k :: k' :: a)) with (k ++ [LF] ++ join [LF] (k' :: a)). rewrite <- !app_assoc. reflexivity.
Qed.
Lemma span_same {A} (P : A -> Prop) a b r s : Forall P a -> Forall P b -> (forall x t, r = x :: t -> ~ P x) -> (forall x t, s = x :: t -> ~ P x) ->
  a ++ r = b ++ s -> a = b /\ r = s.
Proof.
  revert b. induction a as [|x a IH]; intros [|y b] FA FB R S1 E; cbn [app] in E; auto.
  - subst r. exfalso. inversion FB; subst. eapply R; eauto.
  - subst s. exfalso. inversion FA; subst. eapply S1; eauto.
  - injection E as -> E. inversion FA; inversion FB; subst. destruct (IH b) as [-> ->]; auto.
Qed.

(** ** The tree *)
Definition firm_line (l : str) : Prop := exists s, l = s ++ L ".firm".
Definition tree_fits (tree : list (str * list str)) : Prop :=
  Forall (fun g => ~ In LF (fst g) /\ snd g <> [] /\ Forall (fun f => ~ In LF f /\ firm_line f) (snd g)) tree /\
  (forall g a b, tree = a ++ g :: b -> a <> [] -> fst g <> []).
Lemma tree_fits_tail g tree : tree_fits (g :: tree) -> tree_fits tree /\ Forall (fun g => fst g <> []) tree.
Proof.
  intros (F & N). inversion F; subst. split; [split; [assumption|]|].
  - intros h a b E _. apply (N h (g :: a) b); [rewrite E; reflexivity|discriminate].
  - apply Forall_forall. intros h I. apply in_split in I as (a & b & E). apply (N h (g :: a) b); [rewrite E; reflexivity|discriminate].
Qed.
Lemma tree_block g : (match fst g with [] => concat (map (fun f => f ++ [LF]) (snd g)) | _ => fst g ++ L "/" ++ [LF] ++ concat (map (fun f => L "  " ++ f ++ [LF]) (snd g)) end) =
  concat (map (fun l => l ++ [LF]) (group_lines g)).
Proof.
  unfold group_lines.
  destruct g as [[|c dir] fs]; cbn [fst snd]; [reflexivity|]. cbn [map concat]. rewrite map_map. rewrite <- !app_assoc. do 3 f_equal.
Qed.
Lemma tree_text_lines tree : tree <> [] -> tree_fits tree -> split_char LF (tree_text tree) = tree_lines tree.
Proof.
  intros N T. assert (E : concat (map (fun '(dir, fs) => match dir with [] => concat (map (fun f => f ++ [LF]) fs) | _ => dir ++ L "/" ++ [LF] ++ concat (map (fun f => L "  " ++ f ++ [LF]) fs) end) tree)
    = concat (map (fun l => l ++ [LF]) (tree_lines tree))).
  { clear. induction tree as [|[dir fs] tree IH]; [reflexivity|]. unfold tree_lines in *. cbn [map concat flat_map]. rewrite map_app, concat_app.
    exact (f_equal2 (@app ascii) (tree_block (dir, fs)) IH). }
  assert (K : tree_lines tree <> [] /\ Forall (fun l => ~ In LF l) (tree_lines tree) /\ exists a l, tree_lines tree = a ++ [l] /\ firm_line l).
  { destruct T as [F _]. clear E. revert F. revert N. induction tree as [|g tree IH]; [congruence|]. intros _ F. inversion F as [|? ? (G1 & G2 & G3) F']; subst. destruct g as [dg fg]. cbn [fst snd] in G1, G2, G3.
    assert (B : Forall (fun l => ~ In LF l) (group_lines (dg, fg)) /\ exists a l, group_lines (dg, fg) = a ++ [l] /\ firm_line l).
    { unfold group_lines. cbn [fst snd]. destruct (exists_last G2) as (fs & f & ->). apply Forall_app in G3 as [G3 G4]. inversion G4 as [|? ? (H1 & s & H2) _]; subst.
      destruct dg as [|c dir].
      - split; [apply Forall_app; split; [eapply Forall_impl; [|exact G3]; cbn; tauto|repeat constructor; exact H1]|]. exists fs, (s ++ L ".firm"). split; [reflexivity|exists s; reflexivity].
      - split.
        + constructor; [intros I; apply in_app_iff in I as [I|I]; [exact (G1 I)|cbn in I; intuition discriminate]|]. rewrite map_app. apply Forall_app. split.
          * apply Forall_forall. intros l I. apply in_map_iff in I as (u & <- & I). rewrite Forall_forall in G3. destruct (G3 u I) as [X _]. intros [Y|[Y|Y]]; [discriminate|discriminate|exact (X Y)].
          * repeat constructor. intros [Y|[Y|Y]]; [discriminate|discriminate|exact (H1 Y)].
        + exists (((c :: dir) ++ L "/") :: map (fun f => L "  " ++ f) fs), (L "  " ++ s ++ L ".firm"). split; [rewrite map_app; reflexivity|]. exists (L "  " ++ s). rewrite <- app_assoc. reflexivity. }
    unfold tree_lines in *. cbn [flat_map]. destruct B as (B1 & a & l & B2 & B3). destruct tree as [|h tree].
    - cbn [flat_map]. rewrite app_nil_r. split; [rewrite B2; destruct a; discriminate|]. split; [exact B1|]. eauto.
    - destruct (IH ltac:(discriminate)) as (I1 & I2 & a' & l' & I3 & I4).
      { exact F'. }
      split; [intros X; apply app_eq_nil in X as [_ X]; exact (I1 X)|]. split; [apply Forall_app; split; assumption|].
      rewrite I3, app_assoc. eauto. }
  destruct K as (K1 & K2 & a & l & K3 & s & K4). unfold tree_text. destruct tree as [|g tree]; [congruence|].
  match goal with |- context [utrim_end ?x] => assert (E' : x = concat (map (fun l => l ++ [LF]) (tree_lines (g :: tree)))) by exact E; rewrite E' end.
  rewrite (lined _ K1), utrim_end_around.
  - apply split_char_join; assumption.
  - apply space_of. repeat constructor.
  - rewrite K3, join_last, K4. change (L ".firm") with (L ".fir" ++ ["m"%char]). rewrite !app_assoc. apply ends_plain, no_m.
Qed.
Lemma firm_not_dir l : firm_line l -> forall s, l <> s ++ L "/".
Proof.
  intros (a & ->) s E. change (L ".firm") with (L ".fir" ++ ["m"%char]) in E. rewrite app_assoc in E. apply app_inj_tail in E as [_ E]. discriminate.
Qed.
Definition dirs_fit (ds : list (str * list str)) : Prop := Forall (fun g => fst g <> [] /\ Forall firm_line (snd g)) ds.
Lemma dirs_head ds x t : dirs_fit ds -> tree_lines ds = x :: t -> ~ firm_line x.
Proof.
  intros F E X. destruct ds as [|[dir fs] ds]; [discriminate|]. inversion F as [|? ? (N & _) _]; subst. cbn [fst] in N.
  unfold tree_lines in E. cbn [flat_map] in E. unfold group_lines at 1 in E. cbn [fst snd] in E. destruct dir as [|c dir]; [congruence|].
  injection E as E _. symmetry in E. exact (firm_not_dir x X (c :: dir) E).
Qed.
Lemma indented_firm fs : Forall firm_line fs -> Forall firm_line (map (fun f => L "  " ++ f) fs).
Proof.
  intros F. apply Forall_forall. intros l I. apply in_map_iff in I as (f & <- & I). rewrite Forall_forall in F. destruct (F f I) as (s & ->).
  exists (L "  " ++ s). rewrite <- app_assoc. reflexivity.
Qed.
Lemma indent_inj fs fs' : map (fun f => L "  " ++ f) fs = map (fun f => L "  " ++ f) fs' -> fs = fs'.
Proof. revert fs'. induction fs as [|f fs IH]; intros [|f' fs'] E; try discriminate; [reflexivity|]. injection E as -> E. f_equal. auto. Qed.
Lemma dirs_inj ds ds' : dirs_fit ds -> dirs_fit ds' -> tree_lines ds = tree_lines ds' -> ds = ds'.
Proof.
  revert ds'. induction ds as [|[dir fs] ds IH]; intros [|[dir' fs'] ds'] F F' E; auto.
  - inversion F' as [|? ? (N & _) _]; subst. unfold tree_lines in E. cbn [flat_map] in E. unfold group_lines at 1 in E. cbn [fst snd] in *. destruct dir'; [congruence|discriminate].
  - inversion F as [|? ? (N & _) _]; subst. unfold tree_lines in E. cbn [flat_map] in E. unfold group_lines at 1 in E. cbn [fst snd] in *. destruct dir; [congruence|discriminate].
  - inversion F as [|? ? (N & G) R]; subst. inversion F' as [|? ? (N' & G') R']; subst. cbn [fst snd] in *.
    assert (X : (dir ++ L "/") :: map (fun f => L "  " ++ f) fs ++ tree_lines ds = (dir' ++ L "/") :: map (fun f => L "  " ++ f) fs' ++ tree_lines ds').
    { unfold tree_lines in E |- *. cbn [flat_map] in E. unfold group_lines at 1 in E. unfold group_lines at 2 in E. cbn [fst snd] in E. destruct dir; [congruence|]. destruct dir'; [congruence|]. exact E. }
    injection X as X1 X2. apply app_inj_tail in X1 as [-> _].
    destruct (span_same firm_line _ _ _ _ (indented_firm _ G) (indented_firm _ G') (fun x t => dirs_head ds x t R) (fun x t => dirs_head ds' x t R') X2) as [Y1 Y2].
    apply indent_inj in Y1. subst. f_equal. apply IH; auto.
Qed.
Lemma tree_shape t : tree_fits t -> exists rs ds, t = match rs with [] => [] | _ => [([], rs)] end ++ ds /\ Forall firm_line rs /\ dirs_fit ds /\ tree_lines t = rs ++ tree_lines ds.
Proof.
  intros T. assert (K : forall ds, Forall (fun g => ~ In LF (fst g) /\ snd g <> [] /\ Forall (fun f => ~ In LF f /\ firm_line f) (snd g)) ds -> Forall (fun g => fst g <> []) ds -> dirs_fit ds).
  { intros ds A B. induction A as [|g ds (_ & _ & A) _ IH]; constructor; inversion B; subst; [split; [assumption|]|apply IH; assumption].
    eapply Forall_impl; [|exact A]. cbn. tauto. }
  destruct t as [|[dir fs] t]; [exists [], []; repeat split; constructor|]. destruct (tree_fits_tail _ _ T) as ((F' & _) & D). destruct T as [F _].
  inversion F as [|? ? (G1 & G2 & G3) _]; subst. cbn [fst snd] in *. destruct dir as [|c dir].
  - exists fs, t. destruct fs as [|f fs]; [destruct (G2 eq_refl)|]. split; [reflexivity|]. split; [eapply Forall_impl; [|exact G3]; cbn; tauto|]. split; [apply K; assumption|reflexivity].
  - exists [], ((c :: dir, fs) :: t). split; [reflexivity|]. split; [constructor|]. split; [apply K; [assumption|constructor; [discriminate|assumption]]|reflexivity].
Qed.
Lemma tree_lines_inj t t' : tree_fits t -> tree_fits t' -> tree_lines t = tree_lines t' -> t = t'.
Proof.
  intros T T' E. destruct (tree_shape t T) as (rs & ds & -> & R & D & L1). destruct (tree_shape t' T') as (rs' & ds' & -> & R' & D' & L2).
  rewrite L1, L2 in E. destruct (span_same firm_line _ _ _ _ R R' (fun x t => dirs_head ds x t D) (fun x t => dirs_head ds' x t D') E) as [-> Y].
  f_equal. apply dirs_inj; assumption.
Qed.
Lemma tree_text_inj t t' : tree_fits t -> tree_fits t' -> tree_text t = tree_text t' -> t = t'.
Proof.
  intros T T' E.
  assert (K : forall t, tree_fits t -> t <> [] -> tree_text t <> tree_text []).
  { clear. intros t T N E. pose proof (tree_text_lines t N T) as X. rewrite E in X. change (split_char LF (tree_text [])) with [L "No .firm source files found."] in X.
    destruct (tree_shape t T) as (rs & ds & Et & R & D & Y). rewrite Y in X. destruct rs as [|r rs].
    - cbn [app] in *. destruct ds as [|[dir fs] ds]; [destruct (N Et)|]. inversion D as [|? ? (N1 & _) _]; subst. cbn [fst] in N1. unfold tree_lines in X. cbn [flat_map] in X. unfold group_lines at 1 in X. cbn [fst snd] in X.
      destruct dir as [|c dir]; [congruence|]. 
      assert (X' : last (L "No .firm source files found.") " "%char = last ((c :: dir) ++ L "/") " "%char) by exact (f_equal (fun l => last (hd [] l) " "%char) X).
      pose proof (last_last (c :: dir) "/"%char " "%char) as Z. pose proof (eq_trans X' Z) as Q. discriminate.
    - injection X as X _. inversion R as [|? ? (s & Z) _]; subst. apply (f_equal (fun s => last s " "%char)) in Z.
      change (L ".firm") with (L ".fir" ++ ["m"%char]) in Z. rewrite app_assoc, last_last in Z. discriminate. }
  destruct t as [|g t].
  - destruct t' as [|g' t']; [reflexivity|]. exfalso. apply (K (g' :: t') T'); [discriminate|auto].
  - destruct t' as [|g' t']; [exfalso; apply (K (g :: t) T); [discriminate|auto]|].
    apply tree_lines_inj; auto. rewrite <- !tree_text_lines by (auto; discriminate). rewrite E. reflexivity.
Qed.

(** ** The matches *)
Definition hit_line (m : nat * str) : str := L "  " ++ show_N (N.of_nat (fst m)) ++ L ":  " ++ utrim (snd m).
Definition hit_group (g : str * list (nat * str)) : list str := (fst g ++ L ":") :: map hit_line (snd g).
Definition note : str := L "... results truncated at 50 matches. Narrow your search for more specific results.".
Definition ended_chunks (cs : list (list str)) : list str := flat_map (fun ch => ch ++ [[]]) cs.
Definition chunk (g : str * list (nat * str)) : list str := (fst g ++ L ":") :: map (fun m => utrim_end (hit_line m)) (snd g).
Definition groups_fit (gs : list (str * list (nat * str))) : Prop :=
  Forall (fun g => ~ In LF (fst g) /\ snd g <> [] /\ Forall (fun m => ~ In LF (snd m)) (snd g)) gs.
Lemma ended_chunks_app a b : ended_chunks (a ++ b) = ended_chunks a ++ ended_chunks b.
Proof. apply flat_map_app. Qed.
Lemma trimmed_no_lf s : ~ In LF s -> ~ In LF (utrim s).
Proof.
  intros N I. apply N. unfold utrim in I. destruct (utrim_start_spec s) as (a & _ & E & _). destruct (utrim_end_spec (utrim_start s)) as (b & _ & E' & _).
  rewrite E, E'. apply in_or_app. right. apply in_or_app. left. exact I.
Qed.
Lemma trimmed_end s : ~ ends_with_space (utrim s).
Proof. unfold utrim. destruct (utrim_end_spec (utrim_start s)) as (b & _ & _ & E). exact E. Qed.
Lemma hit_trimmed m : utrim_end (hit_line m) = L "  " ++ show_N (N.of_nat (fst m)) ++ L ":" ++ match utrim (snd m) with [] => [] | _ => L "  " ++ utrim (snd m) end.
Proof.
  unfold hit_line. pose proof (trimmed_end (snd m)) as E. destruct (utrim (snd m)) as [|c t] eqn:U.
  - rewrite app_nil_r. change (L ":  ") with (L ":" ++ L "  "). rewrite !app_assoc. rewrite utrim_end_around; [rewrite app_nil_r, <- !app_assoc; reflexivity|apply space_of; repeat (apply Forall_cons; [auto|]); apply Forall_nil|].
    change (L ":") with [":"%char]. apply ends_plain, no_colon.
  - rewrite utrim_end_kept; [reflexivity|]. change (L ":  ") with (L ": " ++ L " "). rewrite <- !app_assoc. rewrite !app_assoc.
    rewrite <- (app_assoc _ (L " ") (c :: t)). apply ends_spaced; [discriminate|exact E].
Qed.
Lemma hit_shows m : exists y, utrim_end (hit_line m) = " "%char :: y /\ ~ ends_with_space (utrim_end (hit_line m)).
Proof.
  destruct (utrim_end_spec (hit_line m)) as (b & _ & _ & E). rewrite hit_trimmed in *. eexists. split; [reflexivity|exact E].
Qed.
Lemma split_colon a b s t : ~ In ":"%char a -> ~ In ":"%char b -> a ++ ":"%char :: s = b ++ ":"%char :: t -> a = b /\ s = t.
Proof.
  revert b. induction a as [|x a IH]; intros [|y b] A B E; cbn [app] in E.
  - injection E as E. auto.
  - injection E as <- _. destruct B. left. reflexivity.
  - injection E as -> _. destruct A. left. reflexivity.
  - injection E as -> E. destruct (IH b) as [-> ->]; auto; intros X; [apply A|apply B]; right; exact X.
Qed.
Lemma shown_number n : ~ In ":"%char (show_N n).
Proof. intros I. pose proof (show_N_digits n) as D. rewrite forallb_forall in D. apply D in I. discriminate. Qed.
Lemma hit_inj m m' : utrim_end (hit_line m) = utrim_end (hit_line m') -> fst m = fst m' /\ utrim (snd m) = utrim (snd m').
Proof.
  rewrite !hit_trimmed. intros E. apply app_inv_head in E.
  match type of E with ?a ++ L ":" ++ ?s = ?b ++ L ":" ++ ?t => destruct (split_colon a b s t (shown_number _) (shown_number _) E) as [A B] end.
  split.
  - pose proof (parse_show_N (N.of_nat (fst m))) as P. pose proof (parse_show_N (N.of_nat (fst m'))) as P'. rewrite A in P. apply Nnat.Nat2N.inj. congruence.
  - destruct (utrim (snd m)) as [|c t], (utrim (snd m')) as [|c' t']; try discriminate; [reflexivity|]. injection B as -> ->. reflexivity.
Qed.
Lemma path_line p : utrim_end (p ++ L ":") = p ++ L ":".
Proof. apply utrim_end_kept. change (L ":") with [":"%char]. apply ends_plain, no_colon. Qed.
Lemma trimmed_chunks gs : map utrim_end (flat_map (fun g => hit_group g ++ [[]]) gs) = ended_chunks (map chunk gs).
Proof.
  unfold ended_chunks. induction gs as [|g gs IH]; [reflexivity|]. cbn [flat_map map]. rewrite map_app, IH. f_equal.
  unfold hit_group, chunk. rewrite map_app. cbn [map]. rewrite path_line, map_map. reflexivity.
Qed.
Lemma chunks_inj cs cs' : Forall (Forall (fun l : str => l <> [])) cs -> Forall (Forall (fun l : str => l <> [])) cs' -> ended_chunks cs = ended_chunks cs' -> cs = cs'.
Proof.
  unfold ended_chunks. revert cs'. induction cs as [|a cs IH]; intros [|b cs'] F F' E; auto.
  - cbn [flat_map] in E. destruct b; discriminate.
  - cbn [flat_map] in E. destruct a; discriminate.
  - inversion F as [|? ? A R]; inversion F' as [|? ? B R']; subst. cbn [flat_map] in E. rewrite <- !app_assoc in E.
    assert (Z : forall u x t, [[]] ++ u = x :: t -> ~ (x : str) <> []) by (intros u x t X; injection X as <- _; auto).
    destruct (span_same (fun l : str => l <> []) a b _ _ A B (Z _) (Z _) E) as [-> Y]. injection Y as Y. f_equal. apply IH; auto.
Qed.
Lemma chunk_full g : Forall (fun l : str => l <> []) (chunk g).
Proof.
  unfold chunk. constructor; [destruct (fst g); discriminate|]. apply Forall_forall. intros l I. apply in_map_iff in I as (m & <- & _).
  destruct (hit_shows m) as (y & E & _). rewrite E. discriminate.
Qed.
Lemma chunk_inj g g' : chunk g = chunk g' -> (fst g, map (fun m => (fst m, utrim (snd m))) (snd g)) = (fst g', map (fun m => (fst m, utrim (snd m))) (snd g')).
Proof.
  unfold chunk. intros E. assert (A : fst g ++ L ":" = fst g' ++ L ":") by exact (f_equal (hd []) E).
  assert (B : map (fun m => utrim_end (hit_line m)) (snd g) = map (fun m => utrim_end (hit_line m)) (snd g')) by exact (f_equal (@tl str) E).
  apply app_inj_tail in A as [-> _]. f_equal. clear E. revert B. generalize (snd g'). induction (snd g) as [|m ms IH]; intros [|m' ms'] B; try discriminate; [reflexivity|].
  assert (B1 : utrim_end (hit_line m) = utrim_end (hit_line m')) by exact (f_equal (hd []) B). apply hit_inj in B1 as [B1 B2].
  cbn [map]. rewrite B1, B2. f_equal. apply IH. exact (f_equal (@tl str) B).
Qed.
(** The text by its lines; the last match is trimmed once more. *)
Lemma search_text_lines gs tr : gs <> [] -> groups_fit gs ->
  map utrim_end (split_char LF (search_text gs tr)) ++ [[]] = ended_chunks (map chunk gs ++ if tr then [[note]] else []).
Proof.
  intros N F. destruct (exists_last N) as (gs0 & [p ms] & Eg). assert (F0 := F). rewrite Eg in F0. apply Forall_app in F0 as [_ F0]. inversion F0 as [|? ? (P1 & P2 & P3) _]; subst. cbn [fst snd] in *.
  destruct (exists_last P2) as (ms0 & m & ->).
  set (A := flat_map (fun g => hit_group g ++ [[]]) gs0 ++ (p ++ L ":") :: map hit_line ms0).
  set (gs := gs0 ++ [(p, ms0 ++ [m])]) in *.
  assert (E1 : flat_map (fun g => hit_group g ++ [[]]) gs = A ++ [hit_line m] ++ [[]]).
  { unfold gs, A. rewrite flat_map_app. cbn [flat_map]. rewrite app_nil_r. unfold hit_group at 2. cbn [fst snd]. rewrite map_app. cbn [map]. rewrite <- !app_assoc. cbn [app]. rewrite <- !app_assoc. reflexivity. }
  assert (E2 : concat (map show_group gs) = concat (map (fun l => l ++ [LF]) A) ++ hit_line m ++ [LF; LF]).
  { assert (G : forall l, concat (map show_group l) = concat (map (fun l => l ++ [LF]) (flat_map (fun g => hit_group g ++ [[]]) l))).
    { clear. induction l as [|g l IH]; [reflexivity|]. cbn [map concat flat_map]. rewrite map_app, concat_app. refine (f_equal2 (@app ascii) _ IH).
      unfold show_group, hit_group. rewrite map_app, concat_app. cbn [map concat]. rewrite map_map, <- !app_assoc. cbn [app]. do 4 f_equal.
      f_equal. apply map_ext. intros k. unfold hit_line. rewrite <- !app_assoc. reflexivity. }
    rewrite G, E1, !map_app, !concat_app. cbn [map concat]. rewrite !app_nil_r. cbn [app]. rewrite <- !app_assoc. reflexivity. }
  assert (E3 : utrim_end (concat (map show_group gs)) = join [LF] (A ++ [utrim_end (hit_line m)])).
  { rewrite E2, join_last. destruct (utrim_end_spec (hit_line m)) as (b & B1 & B2 & B3). rewrite B2 at 1. rewrite <- app_assoc, app_assoc.
    apply utrim_end_around; [apply all_space_app; [exact B1|apply space_of; repeat (apply Forall_cons; [auto|]); apply Forall_nil]|].
    destruct (hit_shows m) as (y & Ey & _). destruct y as [|c y].
    - exfalso. rewrite hit_trimmed in Ey. discriminate.
    - rewrite Ey in *. change (" "%char :: c :: y) with (L " " ++ (c :: y)). apply ends_spaced; [discriminate|].
      intros (w & r & I & X). apply B3. exists w, (" "%char :: r). split; [exact I|]. rewrite X. reflexivity. }
  assert (E4 : search_text gs tr = join [LF] (A ++ [utrim_end (hit_line m)] ++ if tr then [[]; note] else [])).
  { unfold search_text. rewrite E3. destruct tr; [|rewrite !app_nil_r; reflexivity]. 
    rewrite (app_assoc A), (join_more (A ++ [utrim_end (hit_line m)]) [[]; note]); [reflexivity|intros X; apply app_eq_nil in X as [_ X]; discriminate|discriminate]. }
  assert (LA : Forall (fun l => ~ In LF l) (A ++ [utrim_end (hit_line m)] ++ if tr then [[]; note] else [])).
  { assert (H : forall g, ~ In LF (fst g) /\ snd g <> [] /\ Forall (fun m => ~ In LF (snd m)) (snd g) -> Forall (fun l => ~ In LF l) (hit_group g)).
    { clear. intros g (H1 & _ & H3). constructor; [intros I; apply in_app_iff in I as [I|I]; [exact (H1 I)|cbn in I; intuition discriminate]|].
      apply Forall_forall. intros l I. apply in_map_iff in I as (k & <- & I). rewrite Forall_forall in H3. pose proof (trimmed_no_lf _ (H3 k I)) as X. unfold hit_line.
      intros Y. apply in_app_iff in Y as [Y|Y]; [cbn in Y; intuition discriminate|]. apply in_app_iff in Y as [Y|Y].
      - pose proof (show_N_digits (N.of_nat (fst k))) as D. rewrite forallb_forall in D. apply D in Y. discriminate.
      - apply in_app_iff in Y as [Y|Y]; [cbn in Y; intuition discriminate|exact (X Y)]. }
    assert (FA : Forall (fun l => ~ In LF l) (A ++ [hit_line m] ++ [[]])).
    { rewrite <- E1. assert (F2 : groups_fit gs) by exact F. clear - F2 H. clearbody gs. unfold groups_fit in F2. induction gs as [|g l IH]; cbn [flat_map]; [constructor|]. inversion F2 as [|? ? G F1]; subst. specialize (IH F1). apply Forall_app. split; [apply Forall_app; split; [exact (H g G)|repeat constructor; intros []]|exact IH]. }
    apply Forall_app in FA as [FA FB]. inversion FB as [|? ? FC _]; subst. apply Forall_app. split; [exact FA|]. apply Forall_app. split.
    - repeat constructor. destruct (utrim_end_spec (hit_line m)) as (b & _ & B2 & _). intros I. apply FC. rewrite B2. apply in_or_app. left. exact I.
    - destruct tr; repeat constructor; [intros []|]. vm_compute. intuition discriminate. }
  change (map utrim_end (split_char LF (search_text gs tr)) ++ [[]] = ended_chunks (map chunk gs ++ if tr then [[note]] else [])).
  rewrite E4, split_char_join; [|destruct A; discriminate|exact LA].
  assert (T : utrim_end (utrim_end (hit_line m)) = utrim_end (hit_line m)) by (apply utrim_end_kept; destruct (hit_shows m) as (_ & _ & X); exact X).
  rewrite !map_app. cbn [map]. rewrite T.
  assert (C : map utrim_end A ++ [utrim_end (hit_line m)] ++ [[]] = ended_chunks (map chunk gs)).
  { rewrite <- trimmed_chunks, E1, !map_app. reflexivity. }
  rewrite ended_chunks_app, <- C. destruct tr; cbn [map]; rewrite <- !app_assoc; reflexivity.
Qed.
Lemma search_text_inj gs gs' tr tr' : gs <> [] -> gs' <> [] -> groups_fit gs -> groups_fit gs' -> search_text gs tr = search_text gs' tr' ->
  tr = tr' /\ shown_hits gs = shown_hits gs'.
Proof.
  intros N N' F F' E. pose proof (search_text_lines gs tr N F) as A. pose proof (search_text_lines gs' tr' N' F') as B. rewrite E, B in A. clear B E.
  assert (K : forall gs (tr : bool), Forall (Forall (fun l : str => l <> [])) (map chunk gs ++ if tr then [[note]] else [])).
  { clear. intros gs tr. apply Forall_app. split; [apply Forall_forall; intros ch I; apply in_map_iff in I as (g & <- & _); apply chunk_full|]. destruct tr; repeat constructor. discriminate. }
  apply chunks_inj in A; [|apply K|apply K].
  assert (Q : forall gs (g : str * list (nat * str)), groups_fit gs -> In [note] (map chunk gs) -> False).
  { clear. intros gs _ F I. apply in_map_iff in I as (g & E & I). unfold groups_fit in F. rewrite Forall_forall in F. destruct (F g I) as (_ & X & _).
    unfold chunk in E. destruct g as [p [|m ms]]; [destruct (X eq_refl)|discriminate]. }
  assert (W : map chunk gs' = map chunk gs -> shown_hits gs = shown_hits gs').
  { clear. unfold shown_hits. revert gs. induction gs' as [|g' gs' IH]; intros [|g gs] E; try discriminate; [reflexivity|]. cbn [map].
    f_equal; [|apply IH; exact (f_equal (@tl (list str)) E)]. apply chunk_inj. symmetry. exact (f_equal (hd []) E). }
  destruct tr, tr'.
  - split; [reflexivity|]. apply app_inj_tail in A as [A _]. auto.
  - exfalso. rewrite app_nil_r in A. apply (Q gs' ([], []) F'). rewrite A. apply in_or_app. right. left. reflexivity.
  - exfalso. rewrite app_nil_r in A. apply (Q gs ([], []) F). rewrite <- A. apply in_or_app. right. left. reflexivity.
  - split; [reflexivity|]. rewrite !app_nil_r in A. auto.
Qed.
