(** Lemmas: splitting a text at white space. *)
From Verif Require Import S_Add L_Str L_Text.
From Coq Require Import Lia.
Close Scope Z_scope.

(** A run without white space. *)
Definition free (w : str) : Prop := forall p x y, In p ws_chars -> w <> x ++ p ++ y.
Inductive pieces : str -> list str -> Prop :=
| pc_end w : free w -> pieces w [w]
| pc_cons w p s ws : free w -> In p ws_chars -> pieces s ws -> pieces (w ++ p ++ s) (w :: ws).

Lemma free_nil : free [].
Proof. intros p x y I E. destruct x; [|discriminate]. cbn in E. symmetry in E. apply app_eq_nil in E as [E _]. exact (ws_nonempty _ I E). Qed.
Lemma free_tail c w : free (c :: w) -> free w.
Proof. intros F p x y I ->. exact (F p (c :: x) y I eq_refl). Qed.
Lemma starts_cut (a b p r : str) : a ++ b = p ++ r -> (exists r', a = p ++ r') \/ exists q, q <> [] /\ p = a ++ q /\ b = q ++ r.
Proof.
  revert p. induction a as [|c a IH]; intros p E.
  - cbn in E. subst b. destruct p as [|x p]; [left; exists []; reflexivity|]. right. exists (x :: p). split; [discriminate|]. auto.
  - destruct p as [|x p]; [left; exists (c :: a); reflexivity|]. injection E as -> E. destruct (IH _ E) as [(r' & ->)|(q & N & -> & ->)]; [left; exists r'; reflexivity|right; exists q; auto].
Qed.
(** No white space begins in a free run that ends where white space begins. *)
Lemma free_no_start c w rest p r : free (c :: w) -> (rest = [] \/ exists q s, In q ws_chars /\ rest = q ++ s) ->
  In p ws_chars -> (c :: w) ++ rest = p ++ r -> False.
Proof.
  intros F R I E. destruct (starts_cut _ _ _ _ E) as [(r' & E')|(q & N & -> & ->)].
  - exact (F p [] r' I E').
  - destruct R as [R|(q' & s & I' & R)]; [apply app_eq_nil in R as [-> _]; congruence|].
    apply ws_shape in I as (x & t & E1 & _ & F1). cbn in E1. injection E1 as <- <-.
    apply ws_shape in I' as (y & t' & -> & C & _). destruct q as [|z q]; [congruence|]. injection R as -> _.
    rewrite Forall_forall in F1. rewrite (F1 y) in C by (apply in_or_app; right; left; reflexivity). discriminate.
Qed.
Lemma ws_go_skip a s : ws_go (length a) (a ++ s) = ws_go 0 s.
Proof. induction a as [|c a IH]; [reflexivity|exact IH]. Qed.
Lemma ws_go_pieces s l : pieces s l -> ws_go 0 s = l.
Proof.
  assert (G : forall w rest r, free w -> (rest = [] \/ exists q s, In q ws_chars /\ rest = q ++ s) -> ws_go 0 rest = [] :: r -> ws_go 0 (w ++ rest) = w :: r).
  { induction w as [|c w IH]; intros rest r F R E; [exact E|]. cbn [app ws_go].
    destruct (find _ ws_chars) as [p|] eqn:P.
    - apply find_some in P as [I P]. apply starts_with_spec in P as (x & P). exfalso. exact (free_no_start c w rest p x F R I P).
    - rewrite (IH rest r (free_tail _ _ F) R E). reflexivity. }
  induction 1 as [w F|w p s ws F I P IH].
  - rewrite <- (app_nil_r w) at 1. apply G; [exact F|left; reflexivity|reflexivity].
  - apply G; [exact F|right; eauto|]. pose proof (ws_shape _ I) as (c & t & E & _ & _). subst p. cbn [app ws_go].
    destruct (find _ ws_chars) as [q|] eqn:Q.
    + apply find_some in Q as [J Q]. apply starts_with_spec in Q as (x & Q).
      assert (q = c :: t) as ->.
      { change (c :: t ++ s) with ((c :: t) ++ s) in Q. destruct (starts_cut _ _ _ _ Q) as [(r' & E)|(z & _ & E & _)]; [symmetry|]; eapply ws_prefix_free; eauto. }
      cbn [length]. rewrite Nat.sub_succ, Nat.sub_0_r, ws_go_skip, IH. reflexivity.
    + exfalso. pose proof (find_none _ _ Q _ I) as N. cbv beta in N. change (c :: t ++ s) with ((c :: t) ++ s) in N.
      rewrite (proj2 (starts_with_spec ((c :: t) ++ s) (c :: t))) in N by eauto. discriminate.
Qed.
Lemma pieces_exist n : forall s, length s <= n -> exists l, pieces s l.
Proof.
  induction n as [|n IH]; intros s H.
  - destruct s; [|cbn in H; lia]. exists [[]]. constructor. exact free_nil.
  - assert (D : forall s, free s \/ exists w p r, free w /\ In p ws_chars /\ s = w ++ p ++ r).
    { clear. induction s as [|c s IH]; [left; exact free_nil|]. destruct (find (fun p => starts_with (c :: s) p) ws_chars) as [p|] eqn:P.
      - apply find_some in P as [I P]. apply starts_with_spec in P as (x & P). right. exists [], p, x. split; [exact free_nil|]. auto.
      - assert (N : forall w, (exists y, s = w ++ y) -> free w -> free (c :: w)).
        { intros w (r & Es) F p [|x0 x] y I E.
          - cbn in E. pose proof (find_none _ _ P _ I) as N. cbv beta in N. rewrite Es in N. change (c :: w ++ r) with ((c :: w) ++ r) in N. rewrite E, <- app_assoc in N.
            rewrite (proj2 (starts_with_spec (p ++ y ++ r) p)) in N by eauto. discriminate.
          - injection E as _ E. exact (F p x y I E). }
        destruct IH as [F|(w & p & r & F & I & ->)].
        + left. apply N; [exists []; rewrite app_nil_r; reflexivity|exact F].
        + right. exists (c :: w), p, r. split; [apply N; eauto|]. auto. }
    destruct (D s) as [F|(w & p & r & F & I & ->)]; [exists [s]; constructor; exact F|].
    destruct (IH r) as (l & P). { rewrite !app_length in H. pose proof (ws_nonempty _ I). destruct p; [congruence|]. cbn in H. lia. }
    exists (w :: l). constructor; auto.
Qed.
Lemma white_cons p w : In p ws_chars -> white w -> white (p ++ w).
Proof. intros I (l & F & ->). exists (p :: l). auto. Qed.
Lemma pieces_none s l : pieces s l -> filter non_empty l = [] -> white s.
Proof.
  induction 1 as [w F|w p s ws F I P IH]; cbn [filter]; destruct w; cbn [non_empty]; try discriminate; intros E.
  - exists []. auto.
  - cbn [app]. apply white_cons; auto.
Qed.
Lemma pieces_first s l a r : pieces s l -> filter non_empty l = a :: r ->
  exists w0 s1, s = w0 ++ a ++ s1 /\ white w0 /\ unbroken a /\ (s1 = [] /\ r = [] \/ exists p s2 l2, In p ws_chars /\ s1 = p ++ s2 /\ pieces s2 l2 /\ filter non_empty l2 = r).
Proof.
  induction 1 as [w F|w p s ws F I P IH]; cbn [filter]; destruct w as [|c w]; cbn [non_empty]; try discriminate.
  - intros [= <- <-]. exists [], []. rewrite app_nil_r. split; [reflexivity|]. split; [exists []; auto|]. split; [split; [discriminate|exact F]|]. auto.
  - intros E. destruct (IH E) as (w0 & s1 & -> & B & U & R). exists (p ++ w0), s1. cbn [app]. rewrite app_assoc. split; [reflexivity|]. split; [apply white_cons; auto|]. auto.
  - intros [= <- E]. exists [], (p ++ s). split; [reflexivity|]. split; [exists []; auto|]. split; [split; [discriminate|exact F]|]. right. exists p, s, ws. auto.
Qed.
Lemma white_pieces w s l : white w -> pieces s l -> exists l', pieces (w ++ s) l' /\ filter non_empty l' = filter non_empty l.
Proof.
  intros (ps & F & ->) P. induction F as [|p ps I F IH]; [exists l; auto|]. destruct IH as (l' & P' & E). exists ([] :: l'). cbn [concat]. rewrite <- app_assoc.
  split; [|exact E]. exact (pc_cons [] p _ _ free_nil I P').
Qed.
Lemma white_end w : white w -> exists l, pieces w l /\ filter non_empty l = [].
Proof. intros B. destruct (white_pieces w [] [[]] B) as (l & P & E); [constructor; exact free_nil|]. rewrite app_nil_r in P. exists l. auto. Qed.
Lemma word_pieces a w s l : unbroken a -> white w -> w <> [] -> pieces s l -> exists l', pieces (a ++ w ++ s) l' /\ filter non_empty l' = a :: filter non_empty l.
Proof.
  intros [N F] (ps & G & ->) W P. inversion G as [|p ps' I G']; subst; [exfalso; apply W; reflexivity|]. cbn [concat]. rewrite <- app_assoc.
  destruct (white_pieces (concat ps') s l) as (l' & P' & E); [exists ps'; auto|exact P|]. exists (a :: l'). split; [constructor; auto|].
  cbn [filter]. destruct a; [congruence|]. cbn [non_empty]. rewrite E. reflexivity.
Qed.
Lemma two_words_spec s a k : split_whitespace s = [a; k] <-> two_words s a k.
Proof.
  unfold split_whitespace. split.
  - destruct (pieces_exist (length s) s (le_n _)) as (l & P). rewrite (ws_go_pieces _ _ P). intros E.
    destruct (pieces_first _ _ _ _ P E) as (w0 & s1 & -> & B0 & U & [(_ & N)|(p & s2 & l2 & I & -> & P2 & E2)]); [discriminate|].
    destruct (pieces_first _ _ _ _ P2 E2) as (w1 & s3 & -> & B1 & U1 & R). exists w0, (p ++ w1), s3. rewrite <- app_assoc.
    split; [reflexivity|]. split; [exact B0|]. split; [exact U|]. split; [apply white_cons; auto|]. split; [pose proof (ws_nonempty _ I); destruct p; [congruence|discriminate]|].
    split; [exact U1|]. destruct R as [(-> & _)|(q & s4 & l4 & J & -> & P4 & E4)]; [exists []; auto|]. apply white_cons; [exact J|exact (pieces_none _ _ P4 E4)].
  - intros (w0 & w1 & w2 & -> & B0 & U & B1 & N & U1 & B2).
    assert (X : exists l, pieces (k ++ w2) l /\ filter non_empty l = [k]).
    { destruct U1 as [K F]. destruct w2 as [|c w2].
      - exists [k]. rewrite app_nil_r. split; [constructor; exact F|]. cbn [filter]. destruct k; [congruence|reflexivity].
      - destruct (word_pieces k (c :: w2) [] [[]] (conj K F) B2 ltac:(discriminate)) as (l & P & E); [constructor; exact free_nil|]. rewrite app_nil_r in P. exists l. auto. }
    destruct X as (l & P & E). destruct (word_pieces a w1 _ _ U B1 N P) as (l1 & P1 & E1). destruct (white_pieces w0 _ _ B0 P1) as (l0 & P0 & E0).
    rewrite (ws_go_pieces _ _ P0), E0, E1, E. reflexivity.
Qed.
