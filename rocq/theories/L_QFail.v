(** Lemmas about the messages of a failed query. *)
From Coq Require Import Lia Permutation.
From Verif Require Import M_Graph S_Graph L_Graph.
From Verif Require Import S_QFail L_Str L_Ids.
From Verif Require Import L_Filter L_Agg L_Exec.
From Verif Require Import M_Graph.
Close Scope Z_scope.

(** ** Comparisons *)
Definition ops_of (t : field_type) : list operator :=
  match t with
  | TBool | TRef => [OpEq; OpNe]
  | TStr | TEnum | TPath => [OpEq; OpNe; OpContains; OpStartsWith; OpEndsWith]
  | TInt | TFloat | TCur | TDate => [OpEq; OpNe; OpGt; OpLt; OpGe; OpLe]
  | TList => [OpContains; OpEq]
  end.
Lemma ops_of_spec t : NoDup (ops_of t) /\ (forall p, In p (ops_of t) <-> takes t p) /\ map listed_as (ops_of t) = supported_ops t.
Proof.
  split; [|split; [|destruct t; reflexivity]].
  - destruct t; cbn [ops_of]; repeat (constructor; [cbn; intuition discriminate|]); constructor.
  - intros p. destruct t; cbn [ops_of takes]; try reflexivity. cbn. tauto.
Qed.
(** The three ways in which a comparison fails. *)
Inductive fails_by (v : value) (o : operator) (w : fvalue) : query_error -> Prop :=
| by_operator : ~ takes (get_type v) o -> fails_by v o w (UnsupportedOperator (get_type v) o)
| by_types : ~ goes_with (get_type v) (fvalue_type w) -> fails_by v o w (TypeMismatch (get_type v) (fvalue_type w))
| by_date d s : v = VDate d -> w = FDate s -> parse_rfc3339 s = None -> parse_naive_date s = None -> fails_by v o w (InvalidDateFormat s).
Lemma fails_text q v o w er : fails_by v o w er -> er <> Panicked /\ bad_comparison v o w (show_query_error q er).
Proof.
  intros [N|N|d s Hv Hw R D]; (split; [discriminate|]); cbn [show_query_error].
  - destruct (ops_of_spec (get_type v)) as (ND & E & M). rewrite <- M. change (ftype_name (get_type v)) with (type_title (get_type v)). apply bad_operator; assumption.
  - change (ftype_name (get_type v)) with (type_title (get_type v)). change (ftype_name (fvalue_type w)) with (type_title (fvalue_type w)). apply bad_types. assumption.
  - eapply bad_date; eassumption.
Qed.

Ltac no_types := apply by_types; cbn; intuition discriminate.
Ltac no_operator := apply by_operator; cbn; intuition discriminate.
Lemma or_unsupported_err v o r er w : or_unsupported v o r = Err er -> (r = None -> ~ takes (get_type v) o) -> fails_by v o w er.
Proof. destruct r; cbn; [discriminate|]. intros H N. injection H as <-. apply by_operator. auto. Qed.
Lemma ord_none o c : ord_op o c = None -> ~ In o [OpEq; OpNe; OpGt; OpLt; OpGe; OpLe].
Proof. destruct o, c; cbn; try discriminate; intuition discriminate. Qed.
Lemma float_none o a b : float_op o a b = None -> ~ In o [OpEq; OpNe; OpGt; OpLt; OpGe; OpLe].
Proof. destruct o; cbn; try discriminate; intuition discriminate. Qed.
Lemma float_eps_none o a b : float_eps_op o a b = None -> ~ In o [OpEq; OpNe; OpGt; OpLt; OpGe; OpLe].
Proof. destruct o; cbn; try discriminate; intuition discriminate. Qed.
Lemma text_none o a b : text_op o a b = None -> ~ In o [OpEq; OpNe; OpContains; OpStartsWith; OpEndsWith].
Proof. destruct o; cbn; try discriminate; intuition discriminate. Qed.
Lemma mismatch_err {A} v o w er : @mismatch A v w = Err er -> ~ goes_with (get_type v) (fvalue_type w) -> fails_by v o w er.
Proof. unfold mismatch. intros H N. injection H as <-. apply by_types. exact N. Qed.
Lemma unsupported_err {A} v o w er : @unsupported A v o = Err er -> ~ takes (get_type v) o -> fails_by v o w er.
Proof. unfold unsupported. intros H N. injection H as <-. apply by_operator. exact N. Qed.

Lemma string_err v o w er : In (get_type v) [TStr; TEnum; TPath] -> compare_string v o w = Err er -> fails_by v o w er.
Proof.
  intros T H. unfold compare_string in H.
  destruct v as [| | | | |[|]| | | |]; try (exfalso; destruct T as [T|[T|[T|[]]]]; discriminate T); destruct w;
    first [apply or_unsupported_err with (1 := H); intros N; exact (text_none _ _ _ N)
          |apply mismatch_err with (1 := H); cbn; intuition discriminate].
Qed.
Lemma single_err x v o w er : get_type v <> TList -> compare_value x v o w = Err er -> fails_by v o w er.
Proof.
  intros NL H. destruct v; cbn [compare_value] in H; try (apply string_err in H; [exact H|cbn; tauto]).
  - unfold compare_boolean in H. destruct w; try (apply mismatch_err with (1 := H); cbn; discriminate).
    destruct o; try discriminate H; apply unsupported_err with (1 := H); cbn; intuition discriminate.
  - unfold compare_integer in H. destruct w; try (apply mismatch_err with (1 := H); cbn; intuition discriminate);
      apply or_unsupported_err with (1 := H); [apply ord_none|apply float_none].
  - unfold compare_float in H. destruct w; try (apply mismatch_err with (1 := H); cbn; intuition discriminate);
      apply or_unsupported_err with (1 := H); apply float_eps_none.
  - unfold compare_currency in H. destruct w; try (apply mismatch_err with (1 := H); cbn; discriminate).
    destruct (negb _); [discriminate|]. destruct (dec_of_f64 x _); [|discriminate]. apply or_unsupported_err with (1 := H). apply ord_none.
  - unfold compare_reference in H. destruct r as [id|id f]; destruct o; try (apply unsupported_err with (1 := H); cbn; intuition discriminate);
      destruct w; try discriminate H; apply mismatch_err with (1 := H); cbn; intuition discriminate.
  - destruct (NL eq_refl).
  - unfold compare_datetime in H. destruct w; try (apply mismatch_err with (1 := H); cbn; discriminate).
    destruct (parse_rfc3339 s) eqn:R; [apply or_unsupported_err with (1 := H); apply ord_none|].
    destruct (parse_naive_date s) eqn:N; [apply or_unsupported_err with (1 := H); apply ord_none|].
    injection H as <-. eapply by_date; eauto.
Qed.
Lemma item_err x i o w er : compare_list_item x i o w = Err er -> fails_by i o w er.
Proof.
  intros H. destruct i; cbn [compare_list_item] in H; try discriminate H.
  all: match type of H with _ = Err _ => idtac end; eapply single_err with (x := x); [try destruct r; discriminate|exact H].
Qed.
Lemma contains_err x items w er : list_contains x items w = Err er -> exists i, In i items /\ fails_by i OpEq w er.
Proof.
  induction items as [|i items IH]; cbn [list_contains]; [discriminate|].
  set (m := match i with VStr _ => _ | _ => _ end). intros H.
  assert (M : forall e, m = Err e -> fails_by i OpEq w e).
  { intros e E. unfold m in E. destruct i; try (apply item_err with (1 := E)). destruct w; try (apply item_err with (1 := E)). discriminate E. }
  destruct m as [[|]|e]; [discriminate| |].
  - destruct (IH H) as (j & J & F). exists j. split; [right; exact J|exact F].
  - injection H as <-. exists i. split; [left; reflexivity|]. apply M. reflexivity.
Qed.
Lemma equal_err x items : forall ws er, list_equal x items ws = Err er ->
  exists k i u, nth_error items k = Some i /\ nth_error ws k = Some u /\ fails_by i OpEq u er.
Proof.
  induction items as [|i items IH]; intros ws er H; [discriminate|]. destruct ws as [|u ws]; [discriminate|].
  cbn [list_equal] in H. destruct (compare_list_item x i OpEq u) as [[|]|e] eqn:C; [|discriminate|].
  - destruct (IH _ _ H) as (k & j & w & A & B & F). exists (S k), j, w. auto.
  - injection H as <-. exists 0, i, u. split; [reflexivity|]. split; [reflexivity|]. apply item_err in C. exact C.
Qed.
Lemma value_err q x v o w er : compare_value x v o w = Err er -> er <> Panicked /\ bad_value v o w (show_query_error q er).
Proof.
  intros H. assert (D : get_type v = TList \/ get_type v <> TList) by (destruct (get_type v); (left; reflexivity) || (right; discriminate)).
  destruct D as [T|T].
  2: { apply single_err in H; [|exact T]. destruct (fails_text q _ _ _ _ H). split; [assumption|]. apply bad_itself. assumption. }
  destruct v as [| | | | |[|]|items| | |]; try discriminate T. cbn [compare_value] in H. unfold compare_list in H.
  assert (U : forall o, @unsupported bool (VList items) o = Err er -> ~ takes TList o -> er <> Panicked /\ bad_value (VList items) o w (show_query_error q er)).
  { intros p E N. apply unsupported_err with (w := w) in E; [|exact N]. destruct (fails_text q _ _ _ _ E). split; [assumption|]. apply bad_itself. assumption. }
  destruct o; try (apply U; [exact H|cbn; intuition discriminate]).
  - destruct w; try (apply mismatch_err with (o := OpEq) in H; [|discriminate]; destruct (fails_text q _ _ _ _ H); split; [assumption|]; apply bad_itself; assumption).
    destruct (Nat.eqb (length items) (length vs)) eqn:LE; [|discriminate]. apply Nat.eqb_eq in LE.
    destruct (equal_err _ _ _ _ H) as (k & i & u & A & B & F). destruct (fails_text q _ _ _ _ F). split; [assumption|]. eapply bad_in_place; eauto.
  - destruct (contains_err _ _ _ _ H) as (i & A & F). destruct (fails_text q _ _ _ _ F). split; [assumption|]. eapply bad_item; eauto.
Qed.

(** ** Conditions *)
Lemma matches_err q x c e er : matches x c e = Err er ->
  er <> Panicked /\ exists v, asks_about (c_field c) e v /\ bad_value v (c_op c) (c_value c) (show_query_error q er).
Proof.
  unfold matches. destruct (c_field c) as [m|f] eqn:F; intros H.
  - assert (S : get_type (meta_value m e) = TStr) by (destruct m; reflexivity).
    assert (G : compare_value x (meta_value m e) (c_op c) (c_value c) = Err er) by (destruct m; exact H).
    destruct (value_err q _ _ _ _ _ G) as [N B]. split; [exact N|]. exists (meta_value m e). split; [|exact B]. destruct m; reflexivity.
  - destruct (get_field e f) as [v|] eqn:G; [|discriminate]. destruct (value_err q _ _ _ _ _ H) as [N B]. split; [exact N|]. exists v. auto.
Qed.
Lemma collect_err {A B} (f : A -> qres B) l er : collect f l = Err er -> exists a, In a l /\ f a = Err er.
Proof.
  induction l as [|a l IH]; cbn [collect]; [discriminate|]. destruct (f a) as [b|e] eqn:E.
  - destruct (collect f l) as [bs|e']; [discriminate|]. intros H. injection H as <-. destruct IH as (b' & I & F); [reflexivity|]. exists b'. split; [right; exact I|exact F].
  - intros H. injection H as <-. exists a. split; [left; reflexivity|exact E].
Qed.
Lemma where_err x cc es er : where_step x cc es = Err er -> exists e c, In e es /\ In c (cc_conds cc) /\ matches x c e = Err er.
Proof.
  induction es as [|e es IH]; cbn [where_step]; [discriminate|]. destruct (matches_all x cc e) as [b|y] eqn:M.
  - destruct (where_step x cc es) as [r|y]; [discriminate|]. intros H. injection H as <-. destruct IH as (e' & c & I & J & F); [reflexivity|].
    exists e', c. split; [right; exact I|]. auto.
  - intros H. injection H as <-. unfold matches_all in M. destruct (collect _ _) as [bs|z] eqn:C; [destruct (cc_comb cc); discriminate|].
    injection M as <-. apply collect_err in C as (c & I & F). exists e, c. split; [left; reflexivity|]. auto.
Qed.
Lemma ops_err x g ho ops : forall n es er, exec_ops x g ho n ops es = Err er ->
  exists ops1 cc ops2 es' e c, ops = ops1 ++ QWhere cc :: ops2 /\ exec_ops x g ho n ops1 es = Ok es' /\ In e es' /\ In c (cc_conds cc) /\ matches x c e = Err er.
Proof.
  induction ops as [|o ops IH]; intros n es er H; [discriminate|]. cbn [exec_ops] in H. unfold bind in H.
  destruct (exec_op x g ho n o es) as [r|y] eqn:E.
  - destruct (IH _ _ _ H) as (ops1 & cc & ops2 & es' & e & c & -> & X & I & J & M). exists (o :: ops1), cc, ops2, es', e, c.
    split; [reflexivity|]. split; [cbn [exec_ops]; unfold bind; rewrite E; exact X|]. auto.
  - injection H as <-. destruct o as [cc| | |]; try discriminate E. cbn [exec_op] in E. destruct (where_err _ _ _ _ E) as (e & c & I & J & M).
    exists [], cc, ops, es, e, c. split; [reflexivity|]. split; [reflexivity|]. auto.
Qed.

(** ** Aggregations *)
Lemma column_in f es v : In v (column f es) -> exists e, In e es /\ get_field e f = Some v.
Proof.
  unfold column. rewrite in_flat_map. intros (e & I & H). exists e. split; [exact I|].
  destruct (get_field e f) as [u|]; [|contradiction]. destruct H as [->|[]]. reflexivity.
Qed.
Lemma numerics_err f vs er : numerics f vs = Err er -> exists v, In v vs /\ is_numeric v = false /\ er = InvalidAggregation (AggNonNumeric f (get_type v)).
Proof.
  induction vs as [|v vs IH]; cbn [numerics]; [discriminate|]. destruct (to_numeric v) as [n|] eqn:T.
  - destruct (numerics f vs) as [l|e]; [discriminate|]. intros H. injection H as <-. destruct IH as (u & I & N & E); [reflexivity|]. exists u. split; [right; exact I|]. auto.
  - intros H. injection H as <-. exists v. split; [left; reflexivity|]. destruct v; cbn in T; try discriminate T; auto.
Qed.
Lemma numeric_in f vs ns n : numerics f vs = Ok ns -> In n ns -> exists v, In v vs /\ to_numeric v = Some n.
Proof.
  intros H I. apply numerics_ok in H. assert (J : In (Some n) (map to_numeric vs)) by (rewrite H; apply in_map; exact I).
  apply in_map_iff in J as (v & E & J). eauto.
Qed.
Lemma to_numeric_cur v d k : to_numeric v = Some (NCur d k) -> v = VCur d k.
Proof. destruct v; cbn; try discriminate. intros H. injection H as -> ->. reflexivity. Qed.
Lemma last_currency ns acc k : fold_left (fun acc n => match n with NCur _ c => Some c | _ => acc end) ns acc = Some k ->
  acc = Some k \/ exists d, In (NCur d k) ns.
Proof.
  revert acc. induction ns as [|n ns IH]; intros acc H; cbn [fold_left] in H; [left; exact H|].
  destruct (IH _ H) as [E|(d & I)]; [|right; exists d; right; exact I].
  destruct n as [z|g|a c]; [left; exact E|left; exact E|]. injection E as <-. right. exists a. left. reflexivity.
Qed.
Lemma classify_cases ns : match classify ns with
  | Err er => er = InvalidAggregation AggCurrencyAndNumbers /\ (exists d k, In (NCur d k) ns) /\ exists n, In n ns /\ forall d k, n <> NCur d k
  | Ok (NTCur k) => (exists d, In (NCur d k) ns) /\ forall n, In n ns -> exists d k, n = NCur d k
  | Ok _ => True
  end.
Proof.
  unfold classify. destruct (fold_left _ ns None) as [k|] eqn:F.
  - destruct (last_currency _ _ _ F) as [X|(d & I)]; [discriminate|].
    destruct (existsb _ ns || existsb _ ns) eqn:E.
    + split; [reflexivity|]. split; [eauto|]. apply orb_true_iff in E as [E|E]; apply existsb_exists in E as (n & J & T); exists n; (split; [exact J|]); intros d' k' ->; discriminate T.
    + split; [eauto|]. apply orb_false_iff in E as [E1 E2]. intros n J. destruct n as [z|g|a c]; [| |eauto].
      * rewrite <- not_true_iff_false in E1. destruct E1. apply existsb_exists. exists (NInt z). auto.
      * rewrite <- not_true_iff_false in E2. destruct E2. apply existsb_exists. exists (NFloat g). auto.
  - destruct (existsb _ ns); exact Logic.I.
Qed.
Lemma cur_sum_err x k ns : forall acc er, cur_sum x k acc ns = Err er ->
  er = Panicked \/ exists d k', In (NCur d k') ns /\ k <> k' /\ er = InvalidAggregation (AggMixedCurrencies k k').
Proof.
  induction ns as [|n ns IH]; intros acc er H; [discriminate|]. cbn [cur_sum] in H. destruct n as [z|g|a c]; try (injection H as <-; left; reflexivity).
  destruct (str_eqb c k) eqn:E.
  - destruct (dec_plus x acc a) as [d|]; [|injection H as <-; left; reflexivity]. destruct (IH _ _ H) as [->|(d' & k' & I & N & ->)]; [left; reflexivity|].
    right. exists d', k'. split; [right; exact I|]. auto.
  - injection H as <-. right. exists a, c. split; [left; reflexivity|]. split; [|reflexivity]. intros ->. rewrite str_eqb_refl in E. discriminate.
Qed.
Lemma sum_err x f es ns er : numerics f (column f es) = Ok ns -> sum_numeric x ns = Err er ->
  er = Panicked \/ exists y, er = InvalidAggregation y /\ bad_aggregation (ASum (FReg f)) es (show_agg_error (ASum (FReg f)) y).
Proof.
  intros NM H. destruct ns as [|n0 ns0]; [discriminate|]. unfold sum_numeric in H. set (ns := n0 :: ns0) in *. clearbody ns.
  pose proof (classify_cases ns) as C. destruct (classify ns) as [t|e]; cbn [bind] in H.
  - destruct t as [| |k].
    + destruct (i64_sum _ _ _); [discriminate|]. injection H as <-. left. reflexivity.
    + discriminate.
    + destruct (cur_sum x k dec_zero ns) as [d|e] eqn:S; cbn [bind] in H; [discriminate|]. injection H as <-.
      destruct (cur_sum_err _ _ _ _ _ S) as [->|(d' & k' & I & N & ->)]; [left; reflexivity|]. right. eexists. split; [reflexivity|].
      destruct C as [(d & J) _]. destruct (numeric_in _ _ _ _ NM J) as (v & V & T). apply to_numeric_cur in T. subst v.
      destruct (numeric_in _ _ _ _ NM I) as (u & U & T). apply to_numeric_cur in T. subst u.
      cbn [show_agg_error agg_field]. eapply bad_currencies; eauto.
  - injection H as <-. destruct C as (-> & (d & k & I) & n & J & N). right. eexists. split; [reflexivity|].
    destruct (numeric_in _ _ _ _ NM I) as (v & V & T). apply to_numeric_cur in T. subst v.
    destruct (numeric_in _ _ _ _ NM J) as (u & U & T). eapply bad_mixture; eauto. intros d' k' ->. cbn in T. injection T as <-. exact (N d' k' eq_refl).
Qed.
Lemma agg_err x a es er : exec_agg x a es = Err er ->
  er = Panicked \/ exists y, er = InvalidAggregation y /\ bad_aggregation a es (show_agg_error a y).
Proof.
  assert (NN : forall f b e, of_field b = Some (FReg f) -> numerics f (column f es) = Err e -> exists y, e = InvalidAggregation y /\ bad_aggregation b es (show_agg_error b y)).
  { intros f b e O E. destruct (numerics_err _ _ _ E) as (v & I & N & ->). eexists. split; [reflexivity|]. destruct (column_in _ _ _ I) as (e & J & G).
    cbn [show_agg_error]. change (ftype_name (get_type v)) with (type_title (get_type v)). eapply bad_kind; eauto. }
  assert (EM : forall f ns, numerics f (column f es) = Ok ns -> ns = [] -> column f es = []).
  { intros f ns E ->. apply numerics_ok in E. destruct (column f es); [reflexivity|discriminate]. }
  destruct a as [fs|f|f|f|f]; cbn [exec_agg]; try discriminate.
  - unfold exec_sum. destruct f as [m|f]; cbn [regular bind].
    + intros H. injection H as <-. right. eexists. split; [reflexivity|]. apply (bad_metadata (ASum (FMeta m)) es m). reflexivity.
    + rewrite collect_column. destruct (numerics f (column f es)) as [ns|e] eqn:E; cbn [bind]; intros H; [eapply sum_err; eauto|]. injection H as <-. right. eapply NN; eauto. reflexivity.
  - unfold exec_average. destruct f as [m|f]; cbn [regular bind].
    + intros H. injection H as <-. right. eexists. split; [reflexivity|]. apply (bad_metadata (AAverage (FMeta m)) es m). reflexivity.
    + rewrite collect_column. destruct (numerics f (column f es)) as [ns|e] eqn:E; cbn [bind]; intros H; [|injection H as <-; right; eapply NN; eauto; reflexivity].
      destruct ns as [|n ns]; [|discriminate]. injection H as <-. right. eexists. split; [reflexivity|]. apply (bad_no_numbers (AAverage (FReg f)) es f); eauto. intros (r & X). discriminate.
  - unfold exec_median. destruct f as [m|f]; cbn [regular bind].
    + intros H. injection H as <-. right. eexists. split; [reflexivity|]. apply (bad_metadata (AMedian (FMeta m)) es m). reflexivity.
    + rewrite collect_column. destruct (numerics f (column f es)) as [ns|e] eqn:E; cbn [bind]; intros H; [|injection H as <-; right; eapply NN; eauto; reflexivity].
      destruct ns as [|n ns]; [|discriminate]. injection H as <-. right. eexists. split; [reflexivity|]. apply (bad_no_numbers (AMedian (FReg f)) es f); eauto. intros (r & X). discriminate.
Qed.

(** ** Queries *)
Lemma select_err ops ho s er : orders ho -> select_from (build (run ops)) ho s = Err er ->
  exists t l, s = SType t /\ er = UnknownEntityType t l /\ ~ In t l /\ NoDup l /\ forall t', In t' l <-> exists e, In e (spec_run ops) /\ e_type e = t'.
Proof.
  intros O H. destruct s as [t|]; [|discriminate]. cbn [select_from] in H. destruct (str_in t _) eqn:S; [discriminate|]. injection H as <-.
  destruct (type_keys_spec _ _ (build_inv _ _ (run_inv ops))) as [ND K]. pose proof (O [0] (type_keys (build (run ops)))) as P.
  exists t, (ho [0] (type_keys (build (run ops)))). split; [reflexivity|]. split; [reflexivity|]. split; [|split].
  - intros I. apply (Permutation_in _ P) in I. apply str_in_not in S. exact (S I).
  - apply (Permutation_NoDup (Permutation_sym P)). exact ND.
  - intros t'. rewrite <- K. split; apply Permutation_in; [exact P|apply Permutation_sym; exact P].
Qed.
Lemma execute_err x ops ho q er : orders ho -> execute x (build (run ops)) ho q = Err er -> er <> Panicked ->
  unanswerable x (spec_run ops) (build (run ops)) ho q (show_query_error q er).
Proof.
  intros O H NP. unfold execute in H. destruct (select_from (build (run ops)) ho (q_from q)) as [start|e] eqn:S; cbn [bind] in H.
  2: { injection H as <-. destruct (select_err _ _ _ _ O S) as (t & l & E & -> & N & ND & K). cbn [show_query_error]. destruct l as [|t0 l].
       - apply un_nothing; [exact E|]. destruct (spec_run ops) as [|e es]; [reflexivity|]. destruct (proj2 (K (e_type e))). exists e. split; [left; reflexivity|reflexivity].
       - apply un_type; auto. discriminate. }
  destruct (exec_ops x (build (run ops)) ho 0 (q_ops q) start) as [es|e] eqn:X; cbn [bind] in H.
  2: { injection H as <-. destruct (ops_err _ _ _ _ _ _ _ X) as (ops1 & cc & ops2 & es' & e0 & c & E & X1 & I & J & M).
       destruct (matches_err q _ _ _ _ M) as [_ (v & A & B)]. eapply un_condition; eauto. unfold execute. cbn [q_from q_ops q_agg]. rewrite S. cbn [bind]. rewrite X1. reflexivity. }
  destruct (q_agg q) as [a|] eqn:Q; [|discriminate]. destruct (exec_agg x a es) as [r|e] eqn:A; cbn [bind] in H; [discriminate|]. injection H as <-.
  destruct (agg_err _ _ _ _ A) as [->|(y & -> & B)]; [destruct (NP eq_refl)|]. cbn [show_query_error]. rewrite Q. eapply un_aggregation; eauto.
  unfold execute. cbn [q_from q_ops q_agg]. rewrite S. cbn [bind]. rewrite X. reflexivity.
Qed.

(** ** Advice *)
Lemma listed_inj o p : listed_as o = listed_as p -> o = p.
Proof. destruct o, p; try reflexivity; discriminate. Qed.
Lemma listed_takes t p : In (listed_as p) (supported_ops t) <-> takes t p.
Proof.
  destruct (ops_of_spec t) as (_ & E & M). rewrite <- M, <- E. split; [|apply in_map]. intros I. apply in_map_iff in I as (o & F & I). apply listed_inj in F. subst. exact I.
Qed.
Lemma takes_eq t : takes t OpEq.
Proof. destruct t; cbn; tauto. Qed.
Lemma unsupported_by v o w t o' : fails_by v o w (UnsupportedOperator t o') -> t = get_type v /\ o' = o /\ ~ takes (get_type v) o.
Proof. intros H. inversion H. auto. Qed.
Lemma value_unsupported x v o w t o' : compare_value x v o w = Err (UnsupportedOperator t o') -> t = get_type v /\ o' = o /\ ~ takes (get_type v) o.
Proof.
  intros H. assert (D : get_type v = TList \/ get_type v <> TList) by (destruct (get_type v); (left; reflexivity) || (right; discriminate)).
  destruct D as [T|T]; [|apply single_err in H; [apply unsupported_by in H; exact H|exact T]].
  destruct v as [| | | | |[|]|items| | |]; try discriminate T. cbn [compare_value] in H. unfold compare_list in H.
  destruct o; try (injection H as <- <-; split; [reflexivity|]; split; [reflexivity|]; cbn; intuition discriminate).
  - destruct w; try discriminate H. destruct (Nat.eqb _ _); [|discriminate]. destruct (equal_err _ _ _ _ H) as (k & i & u & _ & _ & F).
    apply unsupported_by in F as (_ & _ & N). destruct (N (takes_eq _)).
  - destruct (contains_err _ _ _ _ H) as (i & _ & F). apply unsupported_by in F as (_ & _ & N). destruct (N (takes_eq _)).
Qed.
Lemma not_taken x v o w t o' p : compare_value x v o w = Err (UnsupportedOperator t o') -> ~ takes (get_type v) p ->
  compare_value x v p w = Err (UnsupportedOperator (get_type v) p).
Proof.
  intros H N. destruct v as [| | | | |[|]|items| | |]; cbn [compare_value get_type] in *.
  - unfold compare_boolean in *. destruct w; try discriminate H. destruct p; try reflexivity; destruct N; cbn; tauto.
  - unfold compare_string in *. destruct w; try discriminate H; destruct p; try reflexivity; destruct N; cbn; tauto.
  - unfold compare_integer in *. destruct w; try discriminate H; destruct p; try reflexivity; try (destruct N; cbn; tauto); cbn; destruct (Z.compare _ _); reflexivity.
  - unfold compare_float in *. destruct w; try discriminate H; destruct p; try reflexivity; destruct N; cbn; tauto.
  - unfold compare_currency in *. destruct w; try discriminate H. destruct (negb _); [discriminate|]. destruct (dec_of_f64 x _); [|discriminate].
    destruct p; try (destruct N; cbn; tauto); cbn; destruct (dec_cmp _ _); reflexivity.
  - unfold compare_reference in *. destruct p; try reflexivity; destruct N; cbn; tauto.
  - unfold compare_reference in *. destruct p; try reflexivity; destruct N; cbn; tauto.
  - unfold compare_list in *. destruct p; try reflexivity; destruct N; cbn; tauto.
  - unfold compare_datetime in *. destruct w; try discriminate H. destruct (parse_rfc3339 _); [|destruct (parse_naive_date _); [|discriminate]].
    all: destruct p; try (destruct N; cbn; tauto); cbn; repeat match goal with |- context [match ?c with Eq => _ | Lt => _ | Gt => _ end] => destruct c end; reflexivity.
  - unfold compare_string in *. destruct w; try discriminate H; destruct p; try reflexivity; destruct N; cbn; tauto.
  - unfold compare_string in *. destruct w; try discriminate H; destruct p; try reflexivity; destruct N; cbn; tauto.
Qed.

(** Filtering by the condition of the hint. *)
Definition hint_condition (f : field_id) (k : str) : compound :=
  {| cc_conds := [{| c_field := FReg f; c_op := OpGe; c_value := FCur f_zero k |}]; cc_comb := CAnd |}.
Definition in_credit (f : field_id) (k : str) (e : entity) : bool :=
  match get_field e f with Some (VCur d c) => str_eqb c k && Z.leb 0 (d_mant d) | _ => false end.
Lemma pow10_pos n : (0 < pow10 n)%Z.
Proof. unfold pow10. apply Z.pow_pos_nonneg; lia. Qed.
Lemma hint_keeps x f k z es : dec_of_f64 x f_zero = Some z -> d_mant z = 0%Z -> (forall v, In v (column f es) -> exists d c, v = VCur d c) ->
  where_step x (hint_condition f k) es = Ok (filter (in_credit f k) es).
Proof.
  intros Z0 M. induction es as [|e es IH]; intros C; [reflexivity|]. cbn [where_step filter]. rewrite IH by (intros v I; apply C; cbn; apply in_or_app; right; exact I).
  assert (E : matches_all x (hint_condition f k) e = Ok (in_credit f k e)).
  { unfold matches_all, hint_condition. cbn [cc_conds cc_comb collect]. unfold matches. cbn [c_field c_op c_value]. unfold in_credit.
    destruct (get_field e f) as [v|] eqn:G; [|reflexivity]. destruct (C v) as (d & c & ->); [cbn; rewrite G; left; reflexivity|].
    cbn [compare_value compare_currency]. destruct (str_eqb c k) eqn:S; cbn [negb andb]; [|reflexivity]. rewrite Z0.
    assert (K : or_unsupported (VCur d c) OpGe (ord_op OpGe (dec_cmp d z)) = Ok (Z.leb 0 (d_mant d))).
    { unfold dec_cmp. rewrite M, Z.mul_0_l. pose proof (pow10_pos (d_scale z)). destruct (Z.compare_spec (d_mant d * pow10 (d_scale z)) 0) as [E|E|E]; cbn [or_unsupported ord_op]; f_equal; symmetry; [apply Z.leb_le; nia|apply Z.leb_gt; nia|apply Z.leb_le; nia]. }
    rewrite K. cbn [forallb]. rewrite andb_true_r. reflexivity. }
  rewrite E. reflexivity.
Qed.
Lemma mixed_all x f es k k' : exec_agg x (ASum (FReg f)) es = Err (InvalidAggregation (AggMixedCurrencies k k')) ->
  forall v, In v (column f es) -> exists d c, v = VCur d c.
Proof.
  cbn [exec_agg]. unfold exec_sum. cbn [regular bind]. rewrite collect_column. destruct (numerics f (column f es)) as [ns|e] eqn:E; cbn [bind].
  2: { intros H. destruct (numerics_err _ _ _ E) as (v & _ & _ & ->). discriminate. }
  unfold sum_numeric. destruct ns as [|n ns]; [discriminate|]. set (l := n :: ns) in *. clearbody l. pose proof (classify_cases l) as C. destruct (classify l) as [[| |c]|e]; cbn [bind].
  - destruct (i64_sum _ _ _); discriminate.
  - discriminate.
  - intros _ v I. apply numerics_ok in E. assert (J : In (to_numeric v) (map Some l)) by (rewrite <- E; apply in_map; exact I).
    apply in_map_iff in J as (m & F & J). destruct (proj2 C m J) as (d & c' & ->). symmetry in F. apply to_numeric_cur in F. eauto.
  - destruct C as (-> & _). discriminate.
Qed.
Lemma one_currency_sums x f es k er : (forall v, In v (column f es) -> exists d, v = VCur d k) -> exec_agg x (ASum (FReg f)) es = Err er -> er = Panicked.
Proof.
  intros C H. destruct (agg_err _ _ _ _ H) as [X|(y & -> & B)]; [exact X|]. exfalso.
  cbn [exec_agg] in H. unfold exec_sum in H. cbn [regular bind] in H. rewrite collect_column in H. destruct (numerics f (column f es)) as [ns|e] eqn:E; cbn [bind] in H.
  2: { destruct (numerics_err _ _ _ E) as (v & I & N & _). destruct (C v I) as (d & ->). discriminate N. }
  assert (A : forall n, In n ns -> exists d, n = NCur d k).
  { intros n I. destruct (numeric_in _ _ _ _ E I) as (v & J & T). destruct (C v J) as (d & ->). injection T as <-. eauto. }
  unfold sum_numeric in H. destruct ns as [|n ns]; [discriminate|]. set (l := n :: ns) in *. clearbody l. pose proof (classify_cases l) as K. destruct (classify l) as [[| |c]|e]; cbn [bind] in H.
  - destruct (i64_sum _ _ _); discriminate.
  - discriminate.
  - destruct K as [(d & J) _]. destruct (A _ J) as (d' & X). injection X as <- ->. destruct (cur_sum x k dec_zero l) as [t|e] eqn:CS; cbn [bind] in H; [discriminate|].
    destruct (cur_sum_err _ _ _ _ _ CS) as [->|(d' & k' & J' & N & ->)]; [discriminate|]. destruct (A _ J') as (d'' & X). injection X as <- ->. exact (N eq_refl).
  - destruct K as (_ & _ & m & J & N). destruct (A _ J) as (d & X). exact (N _ _ X).
Qed.

(** ** Conditions in several steps *)
Fixpoint clauses (a : wish) : list (list condition) :=
  match a with
  | Cond c => [[c]]
  | Both a b => clauses a ++ clauses b
  | Either a b => flat_map (fun l => map (fun r => l ++ r) (clauses b)) (clauses a)
  end.
Definition holds_of (x : ext) (c : condition) (e : entity) : bool := match matches x c e with Ok b => b | _ => false end.
Definition clause_of (cs : list condition) : operation := QWhere {| cc_conds := cs; cc_comb := COr |}.
Fixpoint truth (x : ext) (a : wish) (e : entity) : bool :=
  match a with
  | Cond c => holds_of x c e
  | Both a b => truth x a e && truth x b e
  | Either a b => truth x a e || truth x b e
  end.
Lemma truth_granted x a e : decidable x a e -> (truth x a e = true <-> granted x a e).
Proof.
  induction a as [c|a IHa b IHb|a IHa b IHb]; cbn [decidable truth granted].
  - intros (b & E). unfold holds_of. rewrite E. split; congruence.
  - intros [A B]. rewrite andb_true_iff, IHa, IHb by assumption. reflexivity.
  - intros [A B]. rewrite orb_true_iff, IHa, IHb by assumption. reflexivity.
Qed.
Lemma forallb_flat {A B} (p : B -> bool) (f : A -> list B) l : forallb p (flat_map f l) = forallb (fun a => forallb p (f a)) l.
Proof. induction l as [|a l IH]; [reflexivity|]. cbn [flat_map forallb]. rewrite forallb_app, IH. reflexivity. Qed.
Lemma forallb_or {A} (p : A -> bool) b l : forallb (fun a => b || p a) l = b || forallb p l.
Proof. induction l as [|a l IH]; cbn [forallb]; [destruct b; reflexivity|]. rewrite IH. destruct b; reflexivity. Qed.
Lemma forallb_same {A} (p q : A -> bool) l : (forall a, p a = q a) -> forallb p l = forallb q l.
Proof. intros H. induction l as [|a l IH]; [reflexivity|]. cbn [forallb]. rewrite H, IH. reflexivity. Qed.
Lemma clauses_truth x a e : forallb (existsb (fun c => holds_of x c e)) (clauses a) = truth x a e.
Proof.
  induction a as [c|a IHa b IHb|a IHa b IHb]; cbn [clauses truth].
  - cbn. rewrite orb_false_r, andb_true_r. reflexivity.
  - rewrite forallb_app, IHa, IHb. reflexivity.
  - rewrite forallb_flat, <- IHa, <- IHb. set (p := existsb (fun c => holds_of x c e)).
    rewrite (forallb_same _ (fun l => forallb p (clauses b) || p l)).
    + rewrite forallb_or. apply orb_comm.
    + intros l. clear IHa IHb. rewrite orb_comm, <- forallb_or. induction (clauses b) as [|r rs IH]; [reflexivity|]. cbn [map forallb]. rewrite IH.
      f_equal. unfold p. apply existsb_app.
Qed.
Lemma clauses_some a : Forall (fun cs => cs <> []) (clauses a).
Proof.
  induction a as [c|a IHa b IHb|a IHa b IHb]; cbn [clauses].
  - constructor; [discriminate|constructor].
  - apply Forall_app. auto.
  - apply Forall_forall. intros l I. apply in_flat_map in I as (u & I & J). apply in_map_iff in J as (r & <- & J). rewrite Forall_forall in IHa. specialize (IHa _ I). destruct u; [contradiction|discriminate].
Qed.
Lemma clauses_decided x a e : decidable x a e -> forall cs c, In cs (clauses a) -> In c cs -> exists b, matches x c e = Ok b.
Proof.
  induction a as [c0|a IHa b IHb|a IHa b IHb]; cbn [clauses decidable].
  - intros D cs c [<-|[]] [<-|[]]. exact D.
  - intros [A B] cs c I J. apply in_app_or in I as [I|I]; eauto.
  - intros [A B] cs c I J. apply in_flat_map in I as (u & I & K). apply in_map_iff in K as (r & <- & K). apply in_app_or in J as [J|J]; eauto.
Qed.
Lemma or_step x cs es : (forall e c, In e es -> In c cs -> exists b, matches x c e = Ok b) ->
  where_step x {| cc_conds := cs; cc_comb := COr |} es = Ok (filter (fun e => existsb (fun c => holds_of x c e) cs) es).
Proof.
  induction es as [|e es IH]; intros D; [reflexivity|]. cbn [where_step filter]. rewrite IH by (intros e' c I J; apply D; [right; exact I|exact J]).
  assert (E : matches_all x {| cc_conds := cs; cc_comb := COr |} e = Ok (existsb (fun c => holds_of x c e) cs)).
  { unfold matches_all. cbn [cc_conds cc_comb]. assert (D' : forall c, In c cs -> exists b, matches x c e = Ok b) by (intros c J; apply D; [left; reflexivity|exact J]). clear -D'.
    assert (K : collect (fun c => matches x c e) cs = Ok (map (fun c => holds_of x c e) cs)).
    { induction cs as [|c cs IH]; [reflexivity|]. cbn [collect map]. destruct (D' c (or_introl eq_refl)) as (b & E). unfold holds_of at 1. rewrite E, IH by (intros c' J; apply D'; right; exact J). reflexivity. }
    rewrite K. f_equal. clear. induction cs as [|c cs IH]; [reflexivity|]. cbn [map existsb]. rewrite IH. reflexivity. }
  rewrite E. reflexivity.
Qed.
Lemma clauses_run x g ho css : forall n es, (forall e cs c, In e es -> In cs css -> In c cs -> exists b, matches x c e = Ok b) ->
  exec_ops x g ho n (map clause_of css) es = Ok (filter (fun e => forallb (existsb (fun c => holds_of x c e)) css) es).
Proof.
  induction css as [|cs css IH]; intros n es D.
  - cbn [map exec_ops forallb]. f_equal. symmetry. induction es as [|e es IHe]; [reflexivity|]. cbn [filter]. f_equal. apply IHe. intros e' cs c I [].
  - cbn [map exec_ops exec_op clause_of]. rewrite or_step by (intros e c I J; apply (D e cs c I); [left; reflexivity|exact J]). cbn [bind].
    rewrite IH.
    + f_equal. cbn [forallb]. clear. induction es as [|e es IHe]; [reflexivity|]. cbn [filter]. destruct (existsb (fun c => holds_of x c e) cs) eqn:E; cbn [filter andb]; rewrite ?E, IHe; reflexivity.
    + intros e cs' c I J K. apply filter_In in I as [I _]. apply (D e cs' c I); [right; exact J|exact K].
Qed.
Lemma keeps_filter {A} (P : A -> Prop) (p : A -> bool) l : (forall a, In a l -> (p a = true <-> P a)) -> keeps P l (filter p l).
Proof.
  induction l as [|a l IH]; intros H; cbn [filter]; [constructor|]. destruct (p a) eqn:E.
  - apply keeps_yes; [apply H; [left; reflexivity|exact E]|]. apply IH. intros b I. apply H. right. exact I.
  - apply keeps_no; [intros Q; apply H in Q; [congruence|left; reflexivity]|]. apply IH. intros b I. apply H. right. exact I.
Qed.
Lemma wish_run x a : Forall some_of (map clause_of (clauses a)) /\ map clause_of (clauses a) <> [] /\
  forall g ho n es, (forall e, In e es -> decidable x a e) -> exists r, exec_ops x g ho n (map clause_of (clauses a)) es = Ok r /\ keeps (granted x a) es r.
Proof.
  split; [|split].
  - apply Forall_forall. intros o I. apply in_map_iff in I as (cs & <- & I). pose proof (clauses_some a) as F. rewrite Forall_forall in F. exists cs. split; [apply F; exact I|reflexivity].
  - assert (N : clauses a <> []).
    { induction a as [c|a IHa b IHb|a IHa b IHb]; cbn [clauses]; [discriminate| |].
      - destruct (clauses a); [contradiction|discriminate].
      - destruct (clauses a) as [|u us]; [contradiction|]. destruct (clauses b) as [|r rs]; [contradiction|]. discriminate. }
    destruct (clauses a); [contradiction|discriminate].
  - intros g ho n es D. eexists. split; [apply clauses_run; intros e cs c I J K; exact (clauses_decided x a e (D e I) cs c J K)|].
    apply keeps_filter. intros e I. rewrite clauses_truth. apply truth_granted. exact (D e I).
Qed.
Lemma value_not_unknown x v o w t l : compare_value x v o w <> Err (UnknownEntityType t l).
Proof.
  intros H. assert (D : get_type v = TList \/ get_type v <> TList) by (destruct (get_type v); (left; reflexivity) || (right; discriminate)).
  destruct D as [T|T]; [|apply single_err in H; [inversion H|exact T]].
  destruct v as [| | | | |[|]|items| | |]; try discriminate T. cbn [compare_value] in H. unfold compare_list in H. destruct o; try discriminate H.
  - destruct w; try discriminate H. destruct (Nat.eqb _ _); [|discriminate]. destruct (equal_err _ _ _ _ H) as (k & i & u & _ & _ & F). inversion F.
  - destruct (contains_err _ _ _ _ H) as (i & _ & F). inversion F.
Qed.
