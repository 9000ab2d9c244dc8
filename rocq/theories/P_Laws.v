(** C79: how the steps of a query combine. *)
From Coq Require Import Lia.
From Verif Require Import S_Graph S_Query S_Laws L_Graph L_Sort L_Filter L_Order L_Order2 L_Related L_Agg L_Exec L_Laws P_Graph P_Query.
Close Scope Z_scope.

(** Two conditions in a row may change places: wherever both queries answer,
    they answer the same (whatever comes before and after). *)
Theorem C79_conditions_commute : forall x g ho s pre post a c c' r r',
  execute x g ho (ask s (pre ++ [QWhere c; QWhere c'] ++ post) a) = Ok r ->
  execute x g ho (ask s (pre ++ [QWhere c'; QWhere c] ++ post) a) = Ok r' -> r = r'.
Proof.
  intros x g ho s pre post a c c' r r' E E'. cut (execute x g ho (ask s (pre ++ [QWhere c'; QWhere c] ++ post) a) = Ok r); [congruence|].
  apply (middle x g ho s pre [QWhere c; QWhere c'] [QWhere c'; QWhere c]); [reflexivity| |exact E]. intros es mid A M.
  apply execute_ok in E' as (es' & A' & _). apply answers_app in A' as (es0 & A0 & A'). pose proof (answers_fun _ _ _ _ _ _ _ A A0) as <-.
  rewrite exec_ops_app in A'. cbn [exec_ops exec_op app] in A', M |- *.
  destruct (where_step x c es) as [m|] eqn:W; [|discriminate]. cbn [bind] in M. destruct (where_step x c' m) as [m1|] eqn:W1; [|discriminate]. injection M as <-.
  destruct (where_step x c' es) as [m'|] eqn:W'; [|discriminate]. cbn [bind] in A' |- *. destruct (where_step x c m') as [m2|] eqn:W2; [|discriminate]. cbn [bind]. f_equal.
  apply where_filter in W as [_ ->], W1 as [_ ->], W' as [_ ->], W2 as [_ ->]. apply filter_swap.
Qed.
Print Assumptions C79_conditions_commute.

(** It makes no difference whether one orders before a condition or after. *)
Theorem C79_order_and_condition_commute : forall x g ho s pre post a c f d,
  (forall es, answers x g ho s pre es -> orderable f es) -> forall r,
  execute x g ho (ask s (pre ++ [QOrder f d; QWhere c] ++ post) a) = Ok r <->
  execute x g ho (ask s (pre ++ [QWhere c; QOrder f d] ++ post) a) = Ok r.
Proof.
  intros x g ho s pre post a c f d Or r. split; apply middle; try reflexivity; intros es mid A M; destruct (orderable_good f d es (Or es A)) as (P & T & F & _);
    cbn [exec_ops exec_op bind] in *; unfold order_step in *.
  - destruct (where_step x c (sort_by _ es)) as [m|] eqn:W; [|discriminate]. injection M as <-. apply where_filter in W as [E ->].
    assert (E' : Forall (evaluates x c) es) by exact (Permutation_Forall (Permutation_sym (sort_perm _ es)) E).
    rewrite (proj2 (where_filter x c es _) (conj E' eq_refl)). cbn [bind]. f_equal. symmetry. exact (sort_filter_swap _ P _ _ T F).
  - destruct (where_step x c es) as [m|] eqn:W; [|discriminate]. injection M as <-. apply where_filter in W as [E ->].
    rewrite (proj2 (where_filter x c (sort_by (compare_entities f d) es) _) (conj (Permutation_Forall (sort_perm _ es) E) eq_refl)). cbn [bind]. f_equal.
    exact (sort_filter_swap _ P _ _ T F).
Qed.
Print Assumptions C79_order_and_condition_commute.

(** A step done twice is a step done once. *)
Theorem C79_twice_is_once : forall x g ho s pre o,
  match o with
  | QWhere _ | QLimit _ => True
  | QOrder f _ => forall es, answers x g ho s pre es -> orderable f es
  | QRelated _ _ => False
  end -> forall r, answers x g ho s (pre ++ [o; o]) r <-> answers x g ho s (pre ++ [o]) r.
Proof.
  intros x g ho s pre o H r. rewrite !answers_app.
  assert (K : forall es, answers x g ho s pre es -> exec_ops x g ho (length pre) [o; o] es = exec_ops x g ho (length pre) [o] es).
  { intros es A. destruct o as [c|d t|f d|n]; cbn [exec_ops exec_op bind].
    - destruct (where_step x c es) as [m|] eqn:W; [|reflexivity]. cbn [bind]. apply where_filter in W as [E ->].
      assert (E' : Forall (evaluates x c) (filter (kept_by x c) es)) by (rewrite Forall_forall in *; intros e I; apply filter_In in I as [I _]; auto).
      rewrite (proj2 (where_filter x c _ _) (conj E' eq_refl)). cbn [bind]. now rewrite filter_twice.
    - destruct H.
    - destruct (orderable_good f d es (H es A)) as (P & T & F & _). f_equal. exact (sort_twice _ P _ T F).
    - f_equal. rewrite firstn_firstn. f_equal. lia. }
  split; intros (es & A & E); exists es; (split; [exact A|]); [rewrite <- K|rewrite K]; auto.
Qed.
Print Assumptions C79_twice_is_once.

(** Of two orderings the latter decides, and the former among those that are
    tied in it. *)
Theorem C79_latter_order_decides : forall x g ho s pre f d f' d' es r, answers x g ho s pre es -> orderable f es -> orderable f' es ->
  answers x g ho s (pre ++ [QOrder f d; QOrder f' d']) r ->
  Permutation es r /\ StronglySorted (fun a b => may_precede f' d' a b /\ (tied f' a b -> may_precede f d a b)) r.
Proof.
  intros x g ho s pre f d f' d' es r A O O' H. apply answers_app in H as (es0 & A0 & E). pose proof (answers_fun _ _ _ _ _ _ _ A A0) as <-.
  cbn in E. injection E as <-. unfold order_step.
  destruct (orderable_good f d es O) as (P & T & F & G), (orderable_good f' d' es O') as (P' & T' & F' & G').
  assert (Pm : Permutation es (sort_by (compare_entities f' d') (sort_by (compare_entities f d) es))) by (etransitivity; apply sort_perm).
  split; [exact Pm|]. pose proof (sort_two _ _ P P' es T T' F F') as S.
  refine (sorted_weaken _ _ (fun e => P e /\ P' e) _ (Permutation_Forall Pm (Forall_and F F')) _ S).
  intros a b [Pa Pa'] [Pb Pb'] [L1 L2]. split; [now apply G'|]. intros Ti. apply G; auto. apply L2. unfold tied in Ti. destruct d'; cbn; rewrite Ti; reflexivity.
Qed.
Print Assumptions C79_latter_order_decides.

(** [order | limit n] answers the first [n] in that order. *)
Theorem C79_order_limit_gives_the_first : forall x g ho s pre f d n es r, answers x g ho s pre es -> orderable f es ->
  answers x g ho s (pre ++ [QOrder f d; QLimit n]) r ->
  exists rest, Permutation es (r ++ rest) /\ length r = Nat.min n (length es) /\ StronglySorted (may_precede f d) r /\
    forall a b, In a r -> In b rest -> may_precede f d a b.
Proof.
  intros x g ho s pre f d n es r A O H. apply answers_app in H as (es0 & A0 & E). pose proof (answers_fun _ _ _ _ _ _ _ A A0) as <-.
  cbn in E. injection E as <-. unfold order_step. destruct (orderable_good f d es O) as (P & T & F & G). pose proof (sort_perm (compare_entities f d) es) as Pm.
  pose proof (sorted_weaken _ _ P _ (Permutation_Forall Pm F) G (sort_sorted _ P T es F)) as S.
  set (l := sort_by (compare_entities f d) es) in *. exists (skipn n l). rewrite (firstn_skipn n l). split; [exact Pm|].
  split; [rewrite firstn_length, (Permutation_length Pm); reflexivity|]. rewrite <- (firstn_skipn n l) in S.
  split; [|exact (sorted_app _ _ _ S)]. clear -S. induction (firstn n l) as [|a m IH]; [constructor|]. cbn in S. inversion S as [|? ? S' G]; subst.
  constructor; [auto|]. apply Forall_app in G. tauto.
Qed.
Print Assumptions C79_order_limit_gives_the_first.

(** A limit before a condition may lose entities, but adds none: the answer is
    the beginning of what the limit after the condition gives. *)
Theorem C79_limit_before_condition : forall x g ho s pre c n r r',
  answers x g ho s (pre ++ [QLimit n; QWhere c]) r -> answers x g ho s (pre ++ [QWhere c; QLimit n]) r' -> exists rest, r' = r ++ rest.
Proof.
  intros x g ho s pre c n r r' H H'. apply answers_app in H as (es & A & E), H' as (es' & A' & E'). pose proof (answers_fun _ _ _ _ _ _ _ A A') as <-.
  cbn [exec_ops exec_op bind] in E, E'. destruct (where_step x c (firstn n es)) as [m|] eqn:W; [|discriminate]. injection E as <-.
  destruct (where_step x c es) as [m'|] eqn:W'; [|discriminate]. injection E' as <-. apply where_filter in W as [_ ->], W' as [_ ->]. apply filter_firstn.
Qed.
Print Assumptions C79_limit_before_condition.

(** A condition and its contrary share out the entities that have the field,
    where the values are comparable in the sense of C11. *)
Theorem C79_contrary_conditions_share_out : forall x g ho s pre f o o' w es, answers x g ho s pre es -> contrary o o' ->
  (forall e v, In e es -> get_field e f = Some v -> (exists c, ordered_by x v w c) \/ (In o [OpEq; OpNe] /\ exists p, equality_by x v w p)) ->
  exists r r', answers x g ho s (pre ++ [only f o w]) r /\ answers x g ho s (pre ++ [only f o' w]) r' /\
    Permutation (r ++ r') (filter (fun e => match get_field e f with Some _ => true | None => false end) es).
Proof.
  intros x g ho s pre f o o' w es A C H.
  assert (K : forall e v, In e es -> get_field e f = Some v -> exists b, compare_value x v o w = Ok b /\ compare_value x v o' w = Ok (negb b)).
  { intros e v I G. destruct (H e v I G) as [(c & Q)|(Eo & p & Q)].
    - destruct Q as (Q1 & Q2 & Q3 & Q4 & Q5 & Q6). destruct C as [C|[C|[C|[C|[C|[C|[]]]]]]]; injection C as <- <-; eexists; (split; [eassumption|]); destruct c; assumption.
    - destruct Q as (Q1 & Q2). destruct Eo as [<-|[<-|[]]]; (destruct C as [C|[C|[C|[C|[C|[C|[]]]]]]]; try discriminate; injection C as <-); eexists; (split; [eassumption|]); now rewrite ?Bool.negb_involutive. }
  clear H C.
  assert (R : exists r r', where_step x {| cc_conds := [{| c_field := FReg f; c_op := o; c_value := w |}]; cc_comb := CAnd |} es = Ok r /\
    where_step x {| cc_conds := [{| c_field := FReg f; c_op := o'; c_value := w |}]; cc_comb := CAnd |} es = Ok r' /\
    Permutation (r ++ r') (filter (fun e => match get_field e f with Some _ => true | None => false end) es)).
  { clear A. induction es as [|e es IH]; [exists [], []; repeat split; constructor|].
    destruct IH as (r & r' & W & W' & Pm); [intros e0 v I; apply K; now right|]. cbn [where_step filter]. unfold matches_all; cbn [cc_conds cc_comb collect].
    unfold matches; cbn [c_field c_op c_value]. destruct (get_field e f) as [v|] eqn:G.
    - destruct (K e v (or_introl eq_refl) G) as (b & -> & ->). rewrite W, W'. cbn [forallb andb]. rewrite !Bool.andb_true_r. destruct b; cbn [negb].
      + exists (e :: r), r'. repeat split. now constructor.
      + exists r, (e :: r'). repeat split. etransitivity; [symmetry; apply Permutation_middle|]. now constructor.
    - rewrite W, W'. exists r, r'. now repeat split. }
  destruct R as (r & r' & W & W' & Pm). exists r, r'. split; [|split; [|exact Pm]]; apply answers_app; exists es; (split; [exact A|]); cbn [exec_ops exec_op only]; [rewrite W|rewrite W']; reflexivity.
Qed.
Print Assumptions C79_contrary_conditions_share_out.
(** So for integers, say, the two counts add up to the count of the field. *)
Theorem C79_counts_add_up : forall x g ho s pre f o o' z es, answers x g ho s pre es -> contrary o o' ->
  (forall e v, In e es -> get_field e f = Some v -> exists n, v = VInt n) ->
  exists n n', execute x g ho (ask s (pre ++ [only f o (FInt z)]) (Some (ACount None))) = Ok (QAgg (RCount n)) /\
    execute x g ho (ask s (pre ++ [only f o' (FInt z)]) (Some (ACount None))) = Ok (QAgg (RCount n')) /\
    execute x g ho (ask s pre (Some (ACount (Some (FReg f))))) = Ok (QAgg (RCount (n + n'))).
Proof.
  intros x g ho s pre f o o' z es A C H.
  destruct (C79_contrary_conditions_share_out x g ho s pre f o o' (FInt z) es A C) as (r & r' & Ar & Ar' & Pm).
  { intros e v I G. destruct (H e v I G) as (n & ->). left. eexists. apply ordered_int. }
  exists (length r), (length r'). repeat split; apply execute_ok; eexists; (split; [eassumption|]); eexists; (split; [reflexivity|]); auto.
  unfold exec_count. rewrite <- app_length, (Permutation_length Pm). reflexivity.
Qed.
Print Assumptions C79_counts_add_up.
(** Finding: amounts of another currency are on neither side. *)
Theorem C79_other_currencies_refuted : exists x g ho s f w es, answers x g ho s [] es /\ es <> [] /\
  (forall e, In e es -> exists a c, get_field e f = Some (VCur a c)) /\ forall o o', contrary o o' ->
  answers x g ho s [only f o w] [] /\ answers x g ho s [only f o' w] [].
Proof.
  exists ex_ext, (build (run [OAddMany [ex_item (L "a") [(L "p", VCur {| d_mant := 250; d_scale := 2 |} (L "EUR"))]]])), ex_ho, SAll, (L "p"), (FCur f_zero (L "USD")).
  eexists. split; [vm_compute; reflexivity|]. split; [discriminate|]. split; [intros e [<-|[]]; eexists _, _; vm_compute; reflexivity|].
  intros o o' C. destruct C as [C|[C|[C|[C|[C|[C|[]]]]]]]; injection C as <- <-; split; vm_compute; reflexivity.
Qed.
Print Assumptions C79_other_currencies_refuted.

(** Ordering does not change how many there are. *)
Theorem C79_order_keeps_counts : forall x g ho s pre f d c,
  execute x g ho (ask s (pre ++ [QOrder f d]) (Some (ACount c))) = execute x g ho (ask s pre (Some (ACount c))).
Proof.
  intros x g ho s pre f d c. unfold execute; cbn [ask q_from q_ops q_agg]. destruct (select_from g ho s) as [start|]; cbn [bind]; [|reflexivity].
  rewrite exec_ops_app. destruct (exec_ops x g ho 0 pre start) as [es|]; cbn [bind]; [|reflexivity]. cbn [exec_ops exec_op bind exec_agg]. unfold order_step.
  pose proof (sort_perm (compare_entities f d) es) as Pm. set (l := sort_by (compare_entities f d) es) in *. clearbody l.
  assert (E : exec_count c l = exec_count c es); [|now rewrite E].
  unfold exec_count. destruct c as [[m|h]|]; rewrite ?(Permutation_length Pm); auto. now rewrite (Permutation_length (filter_permutation (has_field h) _ _ Pm)).
Qed.
Print Assumptions C79_order_keeps_counts.

(** Following relationships [d] and then [d'] steps is following [d + d'] steps, up
    to five... *)
Theorem C79_related_adds_up : forall x ops ho s pre d d' t r r', orders ho -> 1 <= d -> 1 <= d' -> d + d' <= 5 ->
  answers x (build (run ops)) ho s (pre ++ [QRelated d None; QRelated d' t]) r ->
  answers x (build (run ops)) ho s (pre ++ [QRelated (d + d') t]) r' -> Permutation r r'.
Proof.
  intros x ops ho s pre d d' t r r' O D D' Le H H'. apply answers_app in H as (es & A & E), H' as (es' & A' & E'). pose proof (answers_fun _ _ _ _ _ _ _ A A') as <-.
  destruct (C18_results_are_known_entities_once x ops ho s pre es O A) as [I _]. cbn [exec_ops exec_op bind] in E, E'. injection E as <-. injection E' as <-.
  set (r1 := related_step _ _ _ d None es). assert (I1 : incl r1 (spec_run ops)) by (intros b B; apply (related_in _ _ (built_run ops) ho O) in B; tauto).
  apply NoDup_Permutation; [exact (nodup_of_ids e_id _ (related_nodup _ _ (built_run ops) ho O _ d' t r1 D'))|
    refine (nodup_of_ids e_id _ (related_nodup _ _ (built_run ops) ho O _ (d + d') t es _)); lia|].
  intros b. rewrite (related_in _ _ (built_run ops) ho O _ d' t r1 b D' I1), (related_in _ _ (built_run ops) ho O _ (d + d') t es b ltac:(lia) I).
  rewrite (Nat.min_l (d + d') 5), (Nat.min_l d' 5) by lia. split; intros (Ty & In_b & H); (split; [exact Ty|]; split; [exact In_b|]).
  - destruct H as (c & C & W). apply (related_in _ _ (built_run ops) ho O _ d None es c D I) in C as (_ & _ & a & Ia & W').
    rewrite (Nat.min_l d 5) in W' by lia. exists a. split; [exact Ia|]. exact (within_app _ _ _ _ _ _ W' W).
  - destruct H as (a & Ia & W). apply within_split in W as (c & W1 & W2). exists c. split; [|exact W2].
    apply (related_in _ _ (built_run ops) ho O _ d None es c D I). split; [exact Logic.I|]. split; [exact (within_in _ _ _ _ (I a Ia) W1)|].
    exists a. split; [exact Ia|]. rewrite (Nat.min_l d 5) by lia. exact W1.
Qed.
Print Assumptions C79_related_adds_up.
(** ... but not beyond: three and three steps go six steps, and six go five. *)
Theorem C79_related_beyond_five_refuted : exists x ops ho s pre r r', orders ho /\
  answers x (build (run ops)) ho s (pre ++ [QRelated 3 None; QRelated 3 None]) r /\
  answers x (build (run ops)) ho s (pre ++ [QRelated 6 None]) r' /\ length r' < length r.
Proof.
  exists ex_ext, [OAddMany ex_chain], ex_ho, SAll, [QWhere {| cc_conds := [{| c_field := FMeta MId; c_op := OpEq; c_value := FStr (L "n.0") |}]; cc_comb := CAnd |}].
  eexists _, _. split; [exact ex_ho_ok|]. split; [vm_compute; reflexivity|]. split; [vm_compute; reflexivity|]. vm_compute. lia.
Qed.
Print Assumptions C79_related_beyond_five_refuted.

(** Four items: by number and then by name, the first two of an order, more than
    one and not more than one. *)
Example C79_case :
  let g := build (run [OAddMany ex_items]) in
  let n := FReg (L "n") in
  answers ex_ext g ex_ho (SType (L "item")) [] ex_items /\ orderable n ex_items /\ orderable (FMeta MId) ex_items /\
  answers ex_ext g ex_ho (SType (L "item")) [QOrder (FMeta MId) Descending; QOrder n Ascending] (map (fun i => nth i ex_items ex_john) [2; 3; 0; 1]) /\
  answers ex_ext g ex_ho (SType (L "item")) [QOrder n Descending; QLimit 2] (map (fun i => nth i ex_items ex_john) [1; 0]) /\
  answers ex_ext g ex_ho (SType (L "item")) [only (L "n") OpGt (FInt 1)] (map (fun i => nth i ex_items ex_john) [0; 3]) /\
  answers ex_ext g ex_ho (SType (L "item")) [only (L "n") OpLe (FInt 1)] (map (fun i => nth i ex_items ex_john) [2]).
Proof.
  cbv zeta. split; [vm_compute; reflexivity|]. split; [exists {| ct_text := TStr; ct_num := TInt |}; repeat constructor|]. split; [exact I|].
  repeat split; vm_compute; reflexivity.
Qed.
