(** Cutting a text at the occurrences of another. *)
From Coq Require Import Lia.
From Verif Require Import M_Str L_Str M_Text L_Text S_Tools.
Close Scope Z_scope.

Lemma occurs_contains pat s : occurs pat s <-> contains s pat = true.
Proof. symmetry. apply contains_spec. Qed.
Lemma app_len_inj {A} (a a' b b' : list A) : length a = length a' -> a ++ b = a' ++ b' -> a = a' /\ b = b'.
Proof.
  revert a'. induction a as [|x a IH]; intros [|y a'] E H; cbn in *; try lia; [auto|].
  injection H as -> H. destruct (IH a' ltac:(lia) H) as [-> ->]. auto.
Qed.
Lemma first_cut_fun pat s a b a' b' : first_cut pat s a b -> first_cut pat s a' b' -> a = a' /\ b = b'.
Proof.
  intros [E M] [E' M']. pose proof (M a' b' E'). pose proof (M' a b E).
  rewrite E in E'. destruct (app_len_inj a a' _ _ ltac:(lia) E') as [-> X]. apply app_inv_head in X. auto.
Qed.
Lemma pieces_fun pat s ps : pieces pat s ps -> forall qs, pieces pat s qs -> ps = qs.
Proof.
  induction 1 as [s N|s a b ps F P IH]; intros qs Q; inversion Q as [? N'|? a' b' ps' F' P']; subst; auto.
  - destruct F' as [E _]. exfalso. apply N. exists a', b'. exact E.
  - destruct F as [E _]. exfalso. apply N'. exists a, b. exact E.
  - destruct (first_cut_fun pat s a b a' b' F F') as [-> ->]. f_equal. auto.
Qed.
Lemma first_cut_exists pat s : occurs pat s -> exists a b, first_cut pat s a b.
Proof.
  induction s as [|c s IH]; intros O.
  - destruct O as (a & b & E). exists [], []. destruct a; [|discriminate]. destruct pat; [|discriminate]. split; [reflexivity|]. cbn. intros. lia.
  - destruct (starts_with (c :: s) pat) eqn:W.
    + apply starts_with_spec in W as (r & E). exists [], r. split; [exact E|]. cbn. intros. lia.
    + assert (X : forall a b, c :: s = a ++ pat ++ b -> exists a', a = c :: a' /\ s = a' ++ pat ++ b).
      { intros [|x a] b E; [exfalso; rewrite <- not_true_iff_false in W; apply W, starts_with_spec; eauto|].
        injection E as -> E. eauto. }
      destruct O as (a & b & E). destruct (X a b E) as (a' & -> & E').
      destruct IH as (a1 & b1 & F1 & M1); [exists a', b; exact E'|]. exists (c :: a1), b1. split; [cbn; congruence|].
      intros a2 b2 E2. destruct (X a2 b2 E2) as (a3 & -> & E3). cbn. specialize (M1 a3 b2 E3). lia.
Qed.
Lemma split_first_cut pat s a b : pat <> [] -> first_cut pat s a b -> split_str pat s = a :: split_str pat b.
Proof.
  intros N [-> M]. unfold split_str. induction a as [|c a IH].
  - destruct pat as [|x pat]; [congruence|]. cbn [app].
    change (split_go (x :: pat) 0 (x :: pat ++ b)) with
      (if starts_with (x :: pat ++ b) (x :: pat) then [] :: split_go (x :: pat) (length (x :: pat) - 1) (pat ++ b)
       else match split_go (x :: pat) 0 (pat ++ b) with w :: ws => (x :: w) :: ws | [] => [[x]] end).
    assert (W : starts_with (x :: pat ++ b) (x :: pat) = true) by (apply starts_with_spec; exists b; reflexivity).
    rewrite W. f_equal. cbn [length]. rewrite Nat.sub_succ, Nat.sub_0_r. apply split_go_skip. reflexivity.
  - cbn [app split_go].
    assert (W : starts_with (c :: a ++ pat ++ b) pat = false).
    { destruct (starts_with _ _) eqn:W; auto. apply starts_with_spec in W as (r & E). specialize (M [] r E). cbn in M. lia. }
    rewrite W, IH; [reflexivity|]. intros a' b' E. specialize (M (c :: a') b' ltac:(cbn; congruence)). cbn in M. lia.
Qed.
Lemma split_pieces pat s : pat <> [] -> pieces pat s (split_str pat s).
Proof.
  intros N. remember (length s) as n eqn:En. revert s En. induction n as [n IH] using lt_wf_ind. intros s ->.
  destruct (contains s pat) eqn:C.
  - apply occurs_contains in C. destruct (first_cut_exists pat s C) as (a & b & F).
    rewrite (split_first_cut pat s a b N F). apply pieces_cut with b; [exact F|]. apply IH with (length b); [|reflexivity].
    destruct F as [-> _]. rewrite !app_length. destruct pat; [congruence|]. cbn. lia.
  - rewrite (split_str_free pat s N C). apply pieces_whole. intros O. apply occurs_contains in O. congruence.
Qed.
Lemma pieces_spec pat s ps : pat <> [] -> (pieces pat s ps <-> ps = split_str pat s).
Proof.
  intros N. split; [|intros ->; apply split_pieces; exact N].
  intros P. exact (pieces_fun pat s ps P _ (split_pieces pat s N)).
Qed.
Lemma pieces_join pat s ps : pieces pat s ps -> join pat ps = s.
Proof.
  induction 1 as [s N|s a b ps [-> _] P IH]; [reflexivity|]. rewrite join_cons by (inversion P; discriminate). rewrite IH. reflexivity.
Qed.

Lemma replace_first_pieces pat to s ps : pat <> [] -> pieces pat s ps -> length ps = 2 -> replace_first pat to s = join to ps.
Proof.
  intros N P E. apply (pieces_spec pat s ps N) in P. unfold replace_first. rewrite <- P.
  destruct ps as [|a [|b [|]]]; try discriminate. reflexivity.
Qed.
Lemma replace_text_spec text old new all content n : old <> [] ->
  (replace_text text old new all = Replaced content n <->
   exists ps, pieces old text ps /\ length ps = S n /\ 0 < n /\ (all = false -> n = 1) /\ content = join new ps).
Proof.
  intros N. unfold replace_text, count_matches. pose proof (split_pieces old text N) as P. split.
  - intros H. exists (split_str old text). split; [exact P|]. destruct (split_str old text) as [|p0 ps] eqn:E; [inversion P|].
    cbn [length] in H. rewrite Nat.sub_succ, Nat.sub_0_r in H. destruct (Nat.eqb_spec (length ps) 0); [destruct (cut_for_display old); discriminate|].
    destruct (Nat.ltb_spec 1 (length ps)); destruct all; cbn [andb negb] in H.
    + injection H as <- <-. unfold replace_str. rewrite E. split; [reflexivity|]. split; [lia|]. split; [discriminate|reflexivity].
    + destruct (cut_for_display old); discriminate.
    + injection H as <- <-. unfold replace_str. rewrite E. split; [reflexivity|]. split; [lia|]. split; [discriminate|reflexivity].
    + injection H as <- <-. assert (length ps = 1) by lia. split; [cbn; lia|]. split; [lia|]. split; [auto|].
      apply replace_first_pieces; auto. cbn. lia.
  - intros (ps & Q & Ln & Pn & A & ->). rewrite (pieces_spec old text ps N) in Q. rewrite <- Q, Ln, Nat.sub_succ, Nat.sub_0_r.
    destruct (Nat.eqb_spec n 0); [lia|]. destruct all.
    + rewrite andb_false_r. unfold replace_str. rewrite <- Q. reflexivity.
    + rewrite (A eq_refl) in *. cbn [andb negb Nat.ltb Nat.leb]. f_equal. apply replace_first_pieces; auto. rewrite Q in *. apply split_pieces. exact N.
Qed.

Lemma only_first pat s a b : only_cut pat s a b -> first_cut pat s a b.
Proof. intros [E U]. split; [exact E|]. intros a' b' E'. rewrite (U a' b' E'). lia. Qed.
Lemma only_pieces pat s a b : pat <> [] -> only_cut pat s a b -> pieces pat s [a; b].
Proof.
  intros N O. apply pieces_cut with b; [apply only_first; exact O|]. apply pieces_whole. intros (x & y & E).
  destruct O as [F U]. rewrite E in F. specialize (U (a ++ pat ++ x) y). rewrite <- !app_assoc in U. specialize (U F).
  apply (f_equal (@length ascii)) in U. rewrite !app_length in U. destruct pat; [congruence|]. cbn in U. lia.
Qed.
Lemma app_ge {A} (a a' b b' : list A) : length a <= length a' -> a ++ b = a' ++ b' -> exists m, a' = a ++ m /\ b = m ++ b'.
Proof.
  revert a'. induction a as [|x a IH]; intros a' E H; [exists a'; auto|]. destruct a' as [|y a']; cbn in *; [lia|].
  injection H as -> H. destruct (IH a' ltac:(lia) H) as (m & -> & ->). exists m. auto.
Qed.
Lemma pieces_only pat s a b : pat <> [] -> never_overlaps pat -> pieces pat s [a; b] -> only_cut pat s a b.
Proof.
  intros N NO P. inversion P as [|? ? b0 ? [E M] P']; subst. inversion P' as [? N'|? ? ? ? ? P'']; subst; [|inversion P''].
  split; [reflexivity|]. intros a' b' E'. pose proof (M a' b' E') as Le.
  destruct (app_ge a a' _ _ Le E') as (m & -> & E2). destruct m as [|x m]; [apply app_nil_r|]. exfalso.
  destruct (Nat.le_gt_cases (length pat) (length (x :: m))) as [G|G].
  - destruct (app_ge pat (x :: m) _ _ G E2) as (k & E3 & E4). apply N'. exists k, b'. exact E4.
  - symmetry in E2. destruct (app_ge (x :: m) pat _ _ ltac:(lia) E2) as (k & E3 & E4).
    destruct k as [|y k]; [rewrite app_nil_r in E3; rewrite E3 in G; lia|].
    (* pat = (x::m) ++ (y::k), and pat ++ b' = (y::k) ++ b *)
    destruct (app_ge (y :: k) pat b b') as (j & E5 & _).
    { apply (f_equal (@length ascii)) in E3. rewrite app_length in E3. lia. }
    { symmetry. exact E4. }
    exact (NO (x :: m) (y :: k) j ltac:(discriminate) ltac:(discriminate) E3 E5).
Qed.
Lemma cut_short old : length old <= 100 -> cut_for_display old = true.
Proof. unfold cut_for_display. intros H. destruct (Nat.ltb_spec 100 (length old)); [lia|reflexivity]. Qed.
Lemma replace_crash text old new all : replace_text text old new all = ReplaceCrashed -> cut_for_display old = false.
Proof.
  unfold replace_text. destruct (_ =? 0); [|destruct ((1 <? _) && negb all)]; try discriminate; destruct (cut_for_display old); try discriminate; auto.
Qed.
