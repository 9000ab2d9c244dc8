(** Lemmas about the string functions of M_Text. *)
From Coq Require Import Lia.
From Verif Require Import M_Text L_Str.

(** ** Outcomes *)
Lemma obind_ok {E A B} (o : outcome E A) (f : A -> outcome E B) b :
  obind o f = Ok b <-> exists a, o = Ok a /\ f a = Ok b.
Proof.
  destruct o as [a|e|]; cbn; split.
  - intros H. exists a; auto.
  - intros (a' & [= <-] & H); auto.
  - discriminate.
  - intros (? & [=] & _).
  - discriminate.
  - intros (? & [=] & _).
Qed.

Lemma omap_ok {E A B} (f : A -> outcome E B) l r :
  omap f l = Ok r <-> Forall2 (fun x y => f x = Ok y) l r.
Proof.
  revert r; induction l as [|x l IH]; intros r; cbn.
  - split; [intros [= <-]; constructor|]. inversion 1; auto.
  - rewrite obind_ok. split.
    + intros (y & Hy & H). apply obind_ok in H as (ys & Hs & [= <-]). constructor; [auto|apply IH; auto].
    + inversion 1 as [|? y ? ys H1 H2]; subst. exists y; split; auto. apply IH in H2. fold (omap f) in H2.
      rewrite H2. reflexivity.
Qed.

Lemma omap_cons {E A B} (f : A -> outcome E B) x l :
  omap f (x :: l) = obind (f x) (fun y => obind (omap f l) (fun ys => Ok (y :: ys))).
Proof. reflexivity. Qed.

Lemma Forall2_map_eq {A B} (g : A -> B) (R : A -> B -> Prop) l :
  (forall x, In x l -> R x (g x)) -> Forall2 R l (map g l).
Proof. induction l; cbn; constructor; auto. Qed.

(** ** Substring split and replace *)
Lemma split_go_not_nil sep k s : split_go sep k s <> [].
Proof.
  revert k; induction s as [|c s IH]; intros k; cbn; [discriminate|].
  destruct k; auto. destruct (starts_with (c :: s) sep); [discriminate|].
  destruct (split_go sep 0 s); discriminate.
Qed.

Lemma split_go_skip sep k s r : length s = k -> split_go sep k (s ++ r) = split_go sep 0 r.
Proof. revert k; induction s as [|c s IH]; intros k <-; cbn; auto. Qed.

Lemma split_str_free sep s : sep <> [] -> contains s sep = false -> split_str sep s = [s].
Proof.
  intros N. unfold split_str. induction s as [|c s IH]; intros H; auto.
  cbn [contains] in H. apply orb_false_iff in H as [H1 H2].
  cbn [split_go]. rewrite H1, IH by auto. reflexivity.
Qed.

(** The first occurrence splits; [a] must not contain one that starts earlier. *)
Lemma split_str_app sep a b : sep <> [] ->
  (forall x y, a ++ sep ++ b = x ++ sep ++ y -> length a <= length x) ->
  split_str sep (a ++ sep ++ b) = a :: split_str sep b.
Proof.
  intros N. unfold split_str. induction a as [|c a IH]; intros H.
  - cbn [app]. destruct sep as [|c sep]; [congruence|]. cbn [app split_go].
    replace (starts_with (c :: sep ++ b) (c :: sep)) with true
      by (symmetry; apply starts_with_spec; exists b; reflexivity).
    cbn [length]. replace (S (length sep) - 1) with (length sep) by lia. rewrite split_go_skip by auto. reflexivity.
  - cbn [app split_go]. destruct (starts_with (c :: a ++ sep ++ b) sep) eqn:E.
    + apply starts_with_spec in E as (r & E). exfalso.
      specialize (H [] r). cbn [app length] in H. rewrite <- E in H. specialize (H eq_refl). lia.
    + rewrite IH.
      * reflexivity.
      * intros x y Hx. specialize (H (c :: x) y). cbn in H. rewrite Hx in H. specialize (H eq_refl). lia.
Qed.

Lemma join_split_str sep s : sep <> [] -> join sep (split_str sep s) = s.
Proof.
  intros N. unfold split_str.
  remember (length s) as n eqn:Hn. revert s Hn.
  induction n as [n IH] using lt_wf_ind. intros s ->. destruct s as [|c s]; [reflexivity|].
  cbn [split_go]. destruct (starts_with (c :: s) sep) eqn:E.
  - apply starts_with_spec in E as (r & E). destruct sep as [|d sep]; [congruence|].
    cbn in E. injection E as <- ->. cbn [length]. replace (S (length sep) - 1) with (length sep) by lia. rewrite split_go_skip by auto.
    assert (IHr := IH (length r)). 
    pose proof (split_go_not_nil (c :: sep) 0 r) as NN.
    destruct (split_go (c :: sep) 0 r) as [|w ws] eqn:F; [congruence|].
    change (join (c :: sep) ([] :: w :: ws)) with ((c :: sep) ++ join (c :: sep) (w :: ws)).
    rewrite <- F. rewrite IHr; [reflexivity|cbn; rewrite app_length; lia|reflexivity].
  - pose proof (split_go_not_nil sep 0 s) as NN.
    specialize (IH (length s) ltac:(cbn; lia) s eq_refl).
    destruct (split_go sep 0 s) as [|w ws] eqn:F; [congruence|].
    destruct ws; cbn in *; rewrite IH; reflexivity.
Qed.

Lemma replace_free pat to s : pat <> [] -> contains s pat = false -> replace_str pat to s = s.
Proof. intros N H. unfold replace_str. rewrite split_str_free by auto. reflexivity. Qed.

Lemma join_cons (sep w : str) ws : ws <> [] -> join sep (w :: ws) = w ++ sep ++ join sep ws.
Proof. destruct ws; [congruence|reflexivity]. Qed.

(** Removing every occurrence makes the text shorter if there is one. *)
Lemma split_str_len sep s : sep <> [] ->
  length s = length (concat (split_str sep s)) + length sep * (length (split_str sep s) - 1).
Proof.
  intros N. rewrite <- (join_split_str sep s N) at 1.
  pose proof (split_go_not_nil sep 0 s) as NN. fold (split_str sep s) in NN.
  induction (split_str sep s) as [|w ws IH]; [congruence|].
  destruct ws as [|w2 ws]; [cbn; rewrite app_nil_r; lia|].
  rewrite join_cons by discriminate. rewrite !app_length, IH by discriminate.
  change (concat (w :: w2 :: ws)) with (w ++ concat (w2 :: ws)). rewrite app_length. cbn [length]. nia.
Qed.

Lemma join_nil l : join [] l = concat l.
Proof.
  induction l as [|w l IH]; auto. destruct l as [|w2 l]; [cbn; rewrite app_nil_r; auto|].
  rewrite join_cons by discriminate. rewrite IH. reflexivity.
Qed.

Lemma split_str_one sep s w : sep <> [] -> split_str sep s = [w] -> w = s /\ contains s sep = false.
Proof.
  intros N H. assert (W : w = s) by (rewrite <- (join_split_str sep s N), H; reflexivity).
  split; auto. subst w. unfold split_str in H.
  induction s as [|c s IH]; cbn.
  - destruct sep; [congruence|reflexivity].
  - cbn [split_go] in H. destruct (starts_with (c :: s) sep) eqn:E.
    + pose proof (split_go_not_nil sep (length sep - 1) s). destruct (split_go sep (length sep - 1) s); congruence.
    + cbn. destruct (split_go sep 0 s) as [|w ws] eqn:F; [|destruct ws; [|discriminate]].
      * exfalso; eapply split_go_not_nil; eauto.
      * injection H as ->. apply IH; auto.
Qed.

Lemma remove_shorter pat s : pat <> [] -> contains s pat = true ->
  length (replace_str pat [] s) < length s.
Proof.
  intros N H. unfold replace_str. rewrite join_nil. rewrite (split_str_len pat s N).
  pose proof (split_go_not_nil pat 0 s) as NN. fold (split_str pat s) in NN.
  destruct (split_str pat s) as [|w ws] eqn:E; [congruence|].
  destruct ws as [|w2 ws].
  - apply split_str_one in E as [_ E]; congruence.
  - cbn [length]. destruct pat; [congruence|]. cbn [length]. lia.
Qed.

Lemma split_one_char q s : split_str [q] s = split_char q s.
Proof.
  unfold split_str. induction s as [|c s IH]; auto.
  cbn [split_go split_char starts_with length]. rewrite andb_true_r, Ascii.eqb_sym.
  change (1 - 1) with 0. rewrite IH. reflexivity.
Qed.

Lemma replace_char q to s :
  replace_str [q] to s = concat (map (fun c => if Ascii.eqb c q then to else [c]) s).
Proof.
  unfold replace_str. rewrite split_one_char. induction s as [|c s IH]; [reflexivity|].
  cbn [split_char map concat]. destruct (Ascii.eqb c q).
  - rewrite join_cons by apply split_char_not_nil. rewrite IH. reflexivity.
  - rewrite <- IH. destruct (split_char q s) as [|w ws] eqn:E; [exfalso; eapply split_char_not_nil; eauto|].
    destruct ws; reflexivity.
Qed.

(** ** Repeated prefixes *)
Lemma strip_pat_free n p s : starts_with s p = false -> strip_pat n p s = s.
Proof. intros H. destruct n; cbn; [|rewrite H]; auto. Qed.

Lemma skipn_app_len {A} (a b : list A) : skipn (length a) (a ++ b) = b.
Proof. induction a; cbn; auto. Qed.

Lemma trim_start_pat_once p r : p <> [] -> starts_with r p = false -> trim_start_pat p (p ++ r) = r.
Proof.
  intros N H. unfold trim_start_pat. destruct p as [|c p]; [congruence|].
  cbn [app length strip_pat].
  replace (starts_with (c :: p ++ r) (c :: p)) with true by (symmetry; apply starts_with_spec; exists r; reflexivity).
  cbn [skipn]. rewrite skipn_app_len. apply strip_pat_free; auto.
Qed.

Lemma trim_end_pat_once p r : p <> [] -> ends_with r p = false -> trim_end_pat p (r ++ p) = r.
Proof.
  intros N H. unfold trim_end_pat. rewrite rev_app_distr, trim_start_pat_once.
  - apply rev_involutive.
  - destruct p; [congruence|]. cbn. intros E. apply app_eq_nil in E as [_ E]; discriminate.
  - exact H.
Qed.

(** ** Stripping characters from a table *)
Definition headed (ps : list str) (s : str) : Prop := exists p r, In p ps /\ s = p ++ r.
Definition prefix_free (ps : list str) : Prop :=
  forall p p' r r', In p ps -> In p' ps -> p ++ r = p' ++ r' -> p = p'.

Lemma find_head ps s : (exists p r, find (fun p => starts_with s p) ps = Some p /\ In p ps /\ s = p ++ r) \/
  (find (fun p => starts_with s p) ps = None /\ ~ headed ps s).
Proof.
  destruct (find (fun p => starts_with s p) ps) as [p|] eqn:E.
  - apply find_some in E as [H1 H2]. apply starts_with_spec in H2 as (r & ->). left. exists p, r; auto.
  - right. split; auto. intros (p & r & H & ->).
    pose proof (find_none _ _ E p H) as F. cbn in F.
    rewrite (proj2 (starts_with_spec (p ++ r) p)) in F; [discriminate|eauto].
Qed.

Lemma strip_any_unheaded n ps s : ~ headed ps s -> strip_any n ps s = s.
Proof.
  intros H. destruct n; cbn; auto.
  destruct (find_head ps s) as [(p & r & _ & Hp & Hs)|[-> _]]; auto.
  exfalso. apply H. exists p, r; auto.
Qed.

Lemma strip_any_suffix n ps s : exists ws, Forall (fun w => In w ps) ws /\ s = concat ws ++ strip_any n ps s.
Proof.
  revert s; induction n as [|n IH]; intros s; cbn.
  - exists []; auto.
  - destruct (find_head ps s) as [(p & r & -> & Hp & ->)|[-> _]].
    + rewrite skipn_app_len. destruct (IH r) as (ws & H & E). exists (p :: ws). split; [constructor; auto|].
      cbn. rewrite <- app_assoc, <- E. reflexivity.
    + exists []; auto.
Qed.

Lemma strip_any_done n ps s : (forall p, In p ps -> p <> []) -> length s <= n -> ~ headed ps (strip_any n ps s).
Proof.
  intros N. revert s; induction n as [|n IH]; intros s Hl; cbn.
  - intros (p & r & Hp & ->). apply (N p Hp). destruct p; auto. cbn in Hl; lia.
  - destruct (find_head ps s) as [(p & r & -> & Hp & ->)|[-> H]]; auto.
    rewrite skipn_app_len. apply IH. rewrite app_length in Hl.
    specialize (N p Hp). destruct p; [congruence|]. cbn in Hl; lia.
Qed.

Lemma strip_any_concat n ps ws t : prefix_free ps -> (forall p, In p ps -> p <> []) ->
  Forall (fun w => In w ps) ws -> length (concat ws) <= n -> ~ headed ps t ->
  strip_any n ps (concat ws ++ t) = t.
Proof.
  intros PF N F. revert n; induction F as [|w ws Hw _ IH]; intros n Hn Ht.
  - apply strip_any_unheaded; auto.
  - cbn [concat] in *. rewrite <- app_assoc in *. rewrite app_length in Hn.
    pose proof (N w Hw). destruct n as [|n]; [destruct w; [congruence|cbn in Hn; lia]|].
    cbn [strip_any]. destruct (find_head ps (w ++ concat ws ++ t)) as [(p & r & -> & Hp & E)|[_ X]].
    + apply PF in E as ->; auto. rewrite skipn_app_len. apply IH; auto.
      destruct p; [congruence|cbn in Hn; lia].
    + exfalso. apply X. exists w, (concat ws ++ t); auto.
Qed.

(** ** White space *)
Lemma ws_nonempty p : In p ws_chars -> p <> [].
Proof.
  intros H. assert (E : forallb (fun p => match p with [] => false | _ => true end) ws_chars = true) by reflexivity.
  rewrite forallb_forall in E. specialize (E p H). destruct p; congruence.
Qed.

(** Lead byte not a continuation byte, all others are. *)
Lemma ws_shape p : In p ws_chars -> exists c r, p = c :: r /\ is_cont c = false /\ Forall (fun d => is_cont d = true) r.
Proof.
  intros H.
  assert (E : forallb (fun p => match p with [] => false | c :: r => negb (is_cont c) && forallb is_cont r end) ws_chars = true)
    by reflexivity.
  rewrite forallb_forall in E. specialize (E p H). destruct p as [|c r]; [discriminate|].
  apply andb_true_iff in E as [E1 E2]. exists c, r. repeat split; auto.
  - destruct (is_cont c); auto; discriminate.
  - apply Forall_forall. rewrite forallb_forall in E2. auto.
Qed.

Definition comparable (p q : str) : bool := starts_with p q || starts_with q p.
Lemma comparable_spec p p' r r' : p ++ r = p' ++ r' -> comparable p p' = true.
Proof.
  unfold comparable. revert p'; induction p as [|c p IH]; intros [|c' p'] E; cbn in *; auto.
  injection E as <- E. apply IH in E. rewrite !Ascii.eqb_refl. cbn. exact E.
Qed.
Lemma prefix_free_check ps :
  forallb (fun p => forallb (fun q => negb (comparable p q) || str_eqb p q) ps) ps = true -> prefix_free ps.
Proof.
  intros H p p' r r' Hp Hp' E. rewrite forallb_forall in H. specialize (H p Hp).
  rewrite forallb_forall in H. specialize (H p' Hp'). rewrite (comparable_spec _ _ _ _ E) in H.
  cbn in H. apply str_eqb_eq; auto.
Qed.
Lemma ws_prefix_free : prefix_free ws_chars.
Proof. apply prefix_free_check. vm_compute. reflexivity. Qed.
Lemma ws_suffix_free : prefix_free (map (@rev ascii) ws_chars).
Proof. apply prefix_free_check. vm_compute. reflexivity. Qed.
Lemma ws_rev_nonempty p : In p (map (@rev ascii) ws_chars) -> p <> [].
Proof.
  intros H. apply in_map_iff in H as (q & <- & H). apply ws_nonempty in H.
  intros E. apply H. rewrite <- (rev_involutive q), E. reflexivity.
Qed.

Lemma rev_concat (ws : list str) : rev (concat ws) = concat (map (@rev ascii) (rev ws)).
Proof.
  induction ws as [|w ws IH]; auto. cbn. rewrite rev_app_distr, IH, map_app, concat_app. cbn. rewrite app_nil_r. auto.
Qed.
