(** Lemmas for C79. *)
From Coq Require Import Lia.
From Verif Require Import S_Graph S_Query S_Laws L_Graph L_Sort L_Filter L_Order L_Order2 L_Related L_Exec.
Close Scope Z_scope.

Lemma filter_permutation {A} (p : A -> bool) l l' : Permutation l l' -> Permutation (filter p l) (filter p l').
Proof.
  induction 1; cbn; auto.
  - destruct (p x); auto.
  - destruct (p x), (p y); auto. constructor.
  - etransitivity; eauto.
Qed.
Lemma filter_sorted {A} (R : A -> A -> Prop) p l : StronglySorted R l -> StronglySorted R (filter p l).
Proof.
  induction 1 as [|a l H IH F]; cbn; [constructor|]. destruct (p a); auto. constructor; auto.
  rewrite Forall_forall in *. intros b B. apply filter_In in B as [B _]. auto.
Qed.
Lemma filter_swap {A} (p q : A -> bool) l : filter p (filter q l) = filter q (filter p l).
Proof. induction l as [|a l IH]; cbn; auto. destruct (p a) eqn:P, (q a) eqn:Q; cbn; rewrite ?P, ?Q, IH; auto. Qed.
Lemma filter_twice {A} (p : A -> bool) l : filter p (filter p l) = filter p l.
Proof. induction l as [|a l IH]; cbn; auto. destruct (p a) eqn:P; cbn; rewrite ?P, ?IH; auto. Qed.
Lemma filter_firstn {A} (p : A -> bool) n l : exists rest, firstn n (filter p l) = filter p (firstn n l) ++ rest.
Proof.
  revert n; induction l as [|a l IH]; intros n.
  - exists []. now rewrite !firstn_nil.
  - destruct n as [|n]; [now exists []|]. rewrite (firstn_cons n a l). cbn [filter]. destruct (p a).
    + cbn [firstn]. destruct (IH n) as (rest & E). exists rest. cbn. now rewrite E.
    + destruct (IH (S n)) as (rest & E). destruct (IH n) as (rest' & E').
      assert (X : exists more, filter p (firstn (S n) l) = filter p (firstn n l) ++ more).
      { clear. revert n; induction l as [|b l IH]; intros n; [exists []; now rewrite !firstn_nil|]. destruct n.
        - cbn. eexists. reflexivity.
        - rewrite (firstn_cons (S n)), (firstn_cons n). cbn [filter]. destruct (IH n) as (more & ->). destruct (p b); now exists more. }
      destruct X as (more & X). exists (more ++ rest). rewrite E, X. now rewrite app_assoc.
Qed.

(** ** where as a filter *)
Definition kept_by (x : ext) (cc : compound) (e : entity) : bool :=
  match matches_all x cc e with Ok b => b | Err _ => false end.
Lemma where_filter x cc es r : where_step x cc es = Ok r <-> Forall (evaluates x cc) es /\ r = filter (kept_by x cc) es.
Proof.
  revert r; induction es as [|e es IH]; intros r; cbn [where_step filter].
  - split; [intros [= <-]; auto|intros [_ ->]; auto].
  - unfold kept_by at 1. destruct (matches_all x cc e) as [b|er] eqn:M.
    + destruct (matches_all_ok _ _ _ _ M) as [Ev _]. destruct (where_step x cc es) as [r'|er] eqn:W.
      * destruct (proj1 (IH r') eq_refl) as [F ->]. split; [intros [= <-]; destruct b; auto|]. intros [_ ->]. destruct b; auto.
      * split; [discriminate|]. intros [F _]. inversion F; subst. now pose proof (proj2 (IH _) (conj H2 eq_refl)).
    + split; [discriminate|]. intros [F _]. inversion F; subst. destruct (evaluates_ok _ _ _ H1) as (b & B). congruence.
Qed.

(** ** Whole queries *)
Section whole.
  Context (x : ext) (g : graph) (ho : hash_order) (s : selector).
  Lemma answers_ops ops es : answers x g ho s ops es <->
    exists start, select_from g ho s = Ok start /\ exec_ops x g ho 0 ops start = Ok es.
  Proof.
    unfold answers, execute, ask; cbn [q_from q_ops q_agg]. destruct (select_from g ho s) as [start|]; cbn [bind].
    - destruct (exec_ops x g ho 0 ops start) as [r|] eqn:E; cbn [bind]; split.
      + intros [= <-]. eauto.
      + intros (st & [= <-] & E'). congruence.
      + discriminate.
      + intros (st & [= <-] & E'). congruence.
    - split; [discriminate|]. intros (st & E & _). discriminate.
  Qed.
  Lemma answers_app pre ops es : answers x g ho s (pre ++ ops) es <->
    exists mid, answers x g ho s pre mid /\ exec_ops x g ho (length pre) ops mid = Ok es.
  Proof.
    rewrite answers_ops. split.
    - intros (start & F & E). rewrite exec_ops_app in E. destruct (exec_ops x g ho 0 pre start) as [mid|] eqn:P; [|discriminate].
      exists mid. split; [apply answers_ops; eauto|exact E].
    - intros (mid & A & E). apply answers_ops in A as (start & F & P). exists start. split; [exact F|]. rewrite exec_ops_app, P. exact E.
  Qed.
  Lemma answers_fun ops es es' : answers x g ho s ops es -> answers x g ho s ops es' -> es = es'.
  Proof. unfold answers. congruence. Qed.
  Lemma execute_ok ops a r : execute x g ho (ask s ops a) = Ok r <->
    exists es, answers x g ho s ops es /\ match a with None => r = QEntities es | Some a => exists v, exec_agg x a es = Ok v /\ r = QAgg v end.
  Proof.
    unfold execute; cbn [ask q_from q_ops q_agg]. destruct (select_from g ho s) as [start|] eqn:F; cbn [bind].
    - destruct (exec_ops x g ho 0 ops start) as [es|] eqn:E; cbn [bind].
      + assert (A : answers x g ho s ops es) by (apply answers_ops; eauto). split.
        * destruct a as [a|]; [|intros [= <-]; eauto]. destruct (exec_agg x a es) as [v|] eqn:G; cbn [bind]; [intros [= <-]|discriminate]. eauto 6.
        * intros (es' & A' & H). pose proof (answers_fun _ _ _ A A') as <-. destruct a as [a|]; [|now subst]. destruct H as (v & -> & ->). reflexivity.
      + split; [discriminate|]. intros (es' & A' & _). apply answers_ops in A' as (st & F' & E'). congruence.
    - split; [discriminate|]. intros (es' & A' & _). apply answers_ops in A' as (st & F' & E'). congruence.
  Qed.
  (** Steps that do the same in the middle of a query. *)
  Lemma middle pre m m' post a r : length m = length m' ->
    (forall es mid, answers x g ho s pre es -> exec_ops x g ho (length pre) m es = Ok mid -> exec_ops x g ho (length pre) m' es = Ok mid) ->
    execute x g ho (ask s (pre ++ m ++ post) a) = Ok r -> execute x g ho (ask s (pre ++ m' ++ post) a) = Ok r.
  Proof.
    intros Len H E. apply execute_ok in E as (es & A & V). apply execute_ok. exists es. split; [|exact V].
    apply answers_app in A as (b & B & A). apply answers_app. exists b. split; [exact B|].
    rewrite exec_ops_app in A |- *. destruct (exec_ops x g ho (length pre) m b) as [c|] eqn:M; [|discriminate].
    rewrite (H _ _ B M), <- Len. exact A.
  Qed.
End whole.

(** ** order *)
Lemma orderable_good f d es : orderable f es -> exists P, total_preorder_on (compare_entities f d) P /\ Forall P es /\
  forall a b, P a -> P b -> compare_entities f d a b <> Gt -> may_precede f d a b.
Proof.
  destruct f as [mf|f]; cbn [orderable may_precede].
  - intros _. exists (fun _ => True). split; [apply order_meta_preorder|]. split; [apply Forall_forall; auto|]. intros a b _ _. apply meta_direction_spec.
  - intros (m & F). exists (conforming m f). split; [apply order_preorder|]. split; [exact F|]. intros a b. apply direction_spec.
Qed.
Lemma sort_filter_swap {A} (cmp : A -> A -> comparison) P p l : total_preorder_on cmp P -> Forall P l ->
  filter p (sort_by cmp l) = sort_by cmp (filter p l).
Proof.
  intros T F. assert (F' : Forall P (filter p l)) by (rewrite Forall_forall in *; intros a I; apply filter_In in I as [I _]; auto).
  apply (stable_sort_unique cmp P T (filter p l)); auto; [|exact (sort_stable cmp P T _ F')].
  destruct (sort_stable cmp P T l F) as (Pm & S & St). split; [exact (filter_permutation p _ _ Pm)|]. split; [exact (filter_sorted _ p _ S)|].
  intros a I. apply filter_In in I as [I _]. rewrite filter_swap, (St a I). apply filter_swap.
Qed.
Lemma sort_twice {A} (cmp : A -> A -> comparison) P l : total_preorder_on cmp P -> Forall P l -> sort_by cmp (sort_by cmp l) = sort_by cmp l.
Proof.
  intros T F. pose proof (sort_Forall cmp P l F) as F'. apply (stable_sort_unique cmp P T (sort_by cmp l)); auto; [exact (sort_stable cmp P T _ F')|].
  split; [reflexivity|]. split; [exact (sort_sorted cmp P T l F)|]. auto.
Qed.
Lemma sorted_within {A} (R Q : A -> A -> Prop) (eqv : A -> A -> bool) l : (forall a, In a l -> eqv a a = true) -> StronglySorted R l ->
  (forall a, In a l -> StronglySorted Q (filter (eqv a) l)) -> StronglySorted (fun a b => R a b /\ (eqv a b = true -> Q a b)) l.
Proof.
  intros Re S; revert Re; induction S as [|a l S IH F]; intros Re H; [constructor|]. constructor.
  - apply IH; [intros b B; apply Re; now right|]. intros b B. specialize (H b (or_intror B)). cbn [filter] in H.
    destruct (eqv b a); [now inversion H|exact H].
  - specialize (H a (or_introl eq_refl)). cbn [filter] in H. rewrite (Re a (or_introl eq_refl)) in H. inversion H as [|? ? _ G]; subst.
    rewrite Forall_forall in *. intros b B. split; [auto|]. intros E. apply G. apply filter_In; auto.
Qed.
Lemma sort_two {A} (cmp cmp' : A -> A -> comparison) P P' l : total_preorder_on cmp P -> total_preorder_on cmp' P' -> Forall P l -> Forall P' l ->
  StronglySorted (fun a b => cmp' a b <> Gt /\ (cmp' a b = Eq -> cmp a b <> Gt)) (sort_by cmp' (sort_by cmp l)).
Proof.
  intros T T' F F'. set (l1 := sort_by cmp l). pose proof (sort_sorted cmp P T l F) as S1. fold l1 in S1.
  assert (F1 : Forall P' l1) by exact (Permutation_Forall (sort_perm cmp l) F').
  destruct (sort_stable cmp' P' T' l1 F1) as (Pm & S2 & St).
  assert (W : StronglySorted (fun a b => cmp' a b <> Gt /\ (is_eq (cmp' a b) = true -> cmp a b <> Gt)) (sort_by cmp' l1)).
  { apply (sorted_within _ (fun a b => cmp a b <> Gt) (fun a b => is_eq (cmp' a b))); auto.
    - intros a I. apply (Permutation_in _ (Permutation_sym Pm)) in I. rewrite Forall_forall in F1. now rewrite (cmp_refl cmp' P' T' a (F1 a I)).
    - intros a I. apply (Permutation_in _ (Permutation_sym Pm)) in I. rewrite (St a I). exact (filter_sorted _ _ _ S1). }
  clear -W. induction W as [|a r W IH G]; constructor; auto. rewrite Forall_forall in *. intros b B. destruct (G b B) as [G1 G2].
  split; auto. intros E. apply G2. now rewrite E.
Qed.
Lemma sorted_app {A} (R : A -> A -> Prop) l r : StronglySorted R (l ++ r) -> forall a b, In a l -> In b r -> R a b.
Proof.
  induction l as [|c l IH]; cbn; intros S a b [].
  - subst. inversion S as [|? ? _ G]; subst. rewrite Forall_forall in G. intros B. apply G, in_or_app. auto.
  - inversion S; subst. intros B. now apply IH.
Qed.

(** ** related *)
Lemma within_app nb n m a b c : within nb n a b -> within nb m b c -> within nb (n + m) a c.
Proof.
  induction 1; intros W; [|econstructor; eauto]. eapply within_mono; [|exact W]. lia.
Qed.
Lemma within_split nb n m a c : within nb (n + m) a c -> exists b, within nb n a b /\ within nb m b c.
Proof.
  revert a; induction n as [|n IH]; intros a W; [exists a; split; [constructor|exact W]|]. inversion W as [|? ? b ? H W']; subst.
  - exists c. split; constructor.
  - destruct (IH b W') as (b' & W1 & W2). exists b'. split; [econstructor; eauto|exact W2].
Qed.
