(** C88: the message of a query that fails is true, and its advice can be followed. *)
From Coq Require Import Lia Permutation.
From Verif Require Import M_Graph S_Graph L_Graph.
From Verif Require Import S_QFail S_QText L_Str L_Ids L_Filter L_Agg L_Exec L_QParse L_Replace L_QFail.
From Verif Require Import P_Graph P_Query P_QParse.
From Verif Require Import M_Graph S_QText.
Close Scope Z_scope.

(** ** The message *)
(** The answer is marked as an error exactly if the query cannot be read or cannot be answered. *)
Theorem C88_error_iff_failed : forall fe sv x ho g text,
  (forall s, tell_query fe sv x ho g text = Some s ->
     (is_error s = true <-> (exists e, read_query text = Err e) \/ exists q e, read_query text = Ok q /\ execute x g ho q = Err e)) /\
  (tell_query fe sv x ho g text = None <-> exists q, read_query text = Ok q /\ execute x g ho q = Err Panicked).
Proof.
  intros fe sv x ho g text. unfold tell_query. destruct (read_query text) as [q|e] eqn:R.
  - destruct (execute x g ho q) as [r|e] eqn:E.
    + split; [|split; [discriminate|intros (q' & Q & X); injection Q as <-; congruence]]. intros s H. injection H as <-. split; [discriminate|]. intros [(e & X)|(q' & e & Q & X)]; [discriminate|]. injection Q as <-. congruence.
    + destruct e as [t o|t w|t l|s0|y|]; (split; [intros s H; first [discriminate H|injection H as <-; split; [intros _; right; eauto|reflexivity]]|]).
      all: split; [try discriminate; intros _; exists q; auto|intros (q' & Q & X); try reflexivity; injection Q as <-; congruence].
  - split; [|split; [discriminate|intros (q' & Q & X); discriminate]]. intros s H. injection H as <-. split; [intros _; left; eauto|reflexivity].
Qed.
Print Assumptions C88_error_iff_failed.
(** What it says of a query that cannot be answered is so. *)
Theorem C88_message_is_true : forall fe sv x ops ho text q e, orders ho -> read_query text = Ok q ->
  execute x (build (run ops)) ho q = Err e -> e <> Panicked ->
  exists t, tell_query fe sv x ho (build (run ops)) text = Some (fails (L "Query execution failed: " ++ t)) /\
    unanswerable x (spec_run ops) (build (run ops)) ho q t.
Proof.
  intros fe sv x ops ho text q e O R E NP. exists (show_query_error q e). split; [|apply execute_err; assumption].
  unfold tell_query. rewrite R, E. destruct e; try reflexivity. destruct (NP eq_refl).
Qed.
Print Assumptions C88_message_is_true.
(** "No entities found" is said of a query for entities exactly if there are none. *)
Theorem C88_none_is_said : forall fe sv x ho g text q es, read_query text = Ok q -> execute x g ho q = Ok (QEntities es) ->
  (tell_query fe sv x ho g text = Some (M_Answer.says (L "No entities found matching the query.")) <-> es = []).
Proof.
  intros fe sv x ho g text q es R E. unfold tell_query. rewrite R, E. split; [|intros ->; reflexivity].
  destruct es as [|e es]; [reflexivity|]. intros H. exfalso. apply (f_equal (fun o => match o with Some s => concat (contents s) | None => [] end)) in H. cbn [contents fst M_Answer.says concat] in H. rewrite !app_nil_r in H. cbn [query_tool_text] in H.
  assert (I : In LF (join ([LF] ++ L "---" ++ [LF]) (map (show_entity sv) (e :: es)))).
  { cbn [map]. assert (J : In LF (show_entity sv e)) by (unfold show_entity; apply in_or_app; right; apply in_or_app; left; left; reflexivity).
    destruct (map (show_entity sv) es) as [|u us]; cbn [join]; [exact J|]. apply in_or_app. left. exact J. }
  assert (K : ~ In LF (L "No entities found matching the query.")) by (cbn; intuition discriminate).
  apply K. rewrite <- H. exact I.
Qed.
Print Assumptions C88_none_is_said.

(** ** Its advice *)
(** The operators listed are those that can be used on that value. *)
Theorem C88_listed_operators_work : forall x v o w t o', compare_value x v o w = Err (UnsupportedOperator t o') ->
  t = get_type v /\ o' = o /\
  forall p, In (listed_as p) (supported_ops t) <-> forall t' p', compare_value x v p w <> Err (UnsupportedOperator t' p').
Proof.
  intros x v o w t o' H. destruct (value_unsupported _ _ _ _ _ _ H) as (-> & -> & N). split; [reflexivity|]. split; [reflexivity|].
  intros p. rewrite listed_takes. split.
  - intros T t' p' E. apply value_unsupported in E as (_ & _ & F). exact (F T).
  - intros F. assert (D : takes (get_type v) p \/ ~ takes (get_type v) p).
    { destruct (get_type v), p; cbn; try (left; tauto); right; intuition discriminate. }
    destruct D as [D|D]; [exact D|]. destruct (F _ _ (not_taken x v o w _ _ p H D)).
Qed.
Print Assumptions C88_listed_operators_work.
(** All but two are listed as they are written in a query. *)
Theorem C88_listed_as_written : forall p, p <> OpStartsWith -> p <> OpEndsWith -> listed_as p = operator_text p.
Proof. intros p A B. destruct p; try reflexivity; contradiction. Qed.
Print Assumptions C88_listed_as_written.
(** These two are not: with the words of the message the query cannot be read. *)
Theorem C88_listed_as_written_refuted : forall p, In p [OpStartsWith; OpEndsWith] ->
  In (listed_as p) (supported_ops TStr) /\
  read_query (L "from person | where name " ++ listed_as p ++ L " ""J""") = Err SyntaxError /\
  exists q, read_query (L "from person | where name " ++ operator_text p ++ L " ""J""") = Ok q.
Proof. intros p [<-|[<-|[]]]; (split; [cbn; tauto|]); (split; [vm_compute; reflexivity|]); eexists; vm_compute; reflexivity. Qed.
Print Assumptions C88_listed_as_written_refuted.
(** Each type that is said to be available has entities. *)
Theorem C88_available_types_work : forall x ops ho q t l t', orders ho -> execute x (build (run ops)) ho q = Err (UnknownEntityType t l) -> In t' l ->
  exists es, execute x (build (run ops)) ho {| q_from := SType t'; q_ops := []; q_agg := None |} = Ok (QEntities es) /\ es <> [].
Proof.
  intros x ops ho q t l t' O H I. unfold execute in H. destruct (select_from (build (run ops)) ho (q_from q)) as [start|e] eqn:S; cbn [bind] in H.
  - exfalso. destruct (exec_ops x (build (run ops)) ho 0 (q_ops q) start) as [es|e] eqn:X; cbn [bind] in H.
    + destruct (q_agg q) as [a|]; [|discriminate]. destruct (exec_agg x a es) as [r|e] eqn:A; cbn [bind] in H; [discriminate|]. injection H as ->.
      destruct (agg_err _ _ _ _ A) as [Y|(y & Y & _)]; discriminate.
    + injection H as ->. destruct (ops_err _ _ _ _ _ _ _ X) as (o1 & cc & o2 & es' & e & c & _ & _ & _ & _ & M). unfold matches in M.
      assert (V : forall v, compare_value x v (c_op c) (c_value c) <> Err (UnknownEntityType t l)).
      { intros v Y. apply (value_not_unknown x v (c_op c) (c_value c) t l Y). }
      destruct (c_field c) as [[|]|f]; [exact (V (VStr _) M)|exact (V (VStr _) M)|]. destruct (get_field e f) as [v|]; [exact (V v M)|discriminate].
  - injection H as ->. destruct (select_err _ _ _ _ O S) as (t0 & l0 & _ & E & _ & _ & K). injection E as <- <-. apply K in I as (e & I & T).
    destruct (C18_from_selects_exactly ops ho O) as (_ & F & _). exists (filter (fun e => str_eqb (e_type e) t') (spec_run ops)).
    unfold execute. cbn [q_from q_ops q_agg]. rewrite (F t') by eauto. split; [reflexivity|].
    intros Z. assert (J : In e []) by (rewrite <- Z; apply filter_In; split; [exact I|apply str_eqb_eq; exact T]). destruct J.
Qed.
Print Assumptions C88_available_types_work.
(** The condition proposed for a sum over several currencies can be put before
    it as it stands. It leaves the entities with an amount in the one currency
    that is not negative, and the sum is then no longer refused. *)
Theorem C88_hint_works : forall x f k k' es z s from, exec_agg x (ASum (FReg f)) es = Err (InvalidAggregation (AggMixedCurrencies k k')) ->
  identifier f -> new_id f = f -> currency_text k -> selector_token s from -> dec_of_f64 x f_zero = Some z -> d_mant z = 0%Z ->
  exists hint cc es',
    show_agg_error (ASum (FReg f)) (AggMixedCurrencies k k') = L "Cannot sum mixed currencies (found " ++ k ++ L ", " ++ k' ++ L "). Filter first, e.g.: " ++ hint /\
    read_query (L "from " ++ from ++ L " | " ++ hint ++ L " | sum " ++ f) =
      Ok {| q_from := match s with RAny => SAll | RType n => SType (new_id n) end; q_ops := [QWhere cc]; q_agg := Some (ASum (FReg f)) |} /\
    where_step x cc es = Ok es' /\
    (forall e, In e es' <-> In e es /\ exists d, get_field e f = Some (VCur d k) /\ (0 <= d_mant d)%Z) /\
    forall er, exec_agg x (ASum (FReg f)) es' = Err er -> er = Panicked.
Proof.
  intros x f k k' es z s from H IF NF CK ST Z0 M. exists (L "where " ++ f ++ L " >= 0 " ++ k), (hint_condition f k), (filter (in_credit f k) es).
  assert (C : forall e, in_credit f k e = true <-> exists d, get_field e f = Some (VCur d k) /\ (0 <= d_mant d)%Z).
  { intros e. unfold in_credit. split.
    - destruct (get_field e f) as [[| | | |d c| | | | |]|]; try discriminate. intros B. apply andb_true_iff in B as [B D]. apply str_eqb_eq in B. subst c. apply Z.leb_le in D. eauto.
    - intros (d & -> & D). rewrite str_eqb_refl. apply Z.leb_le. exact D. }
  split; [reflexivity|]. split; [|split; [|split]].
  - set (pq := {| pq_from := s; pq_ops := [PoWhere [{| pc_field := RfReg f; pc_op := OpGe; pc_value := PCur f_zero k |}] CAnd]; pq_agg := Some (PaSum (RfReg f)) |}).
    pose proof (C21_single_blanks pq from [L "|"; L "where"; f; L ">="; L "0"; k] [L "|"; L "sum"; f] ST) as P.
    assert (T : L "from " ++ from ++ L " | " ++ (L "where " ++ f ++ L " >= 0 " ++ k) ++ L " | sum " ++ f = join (L " ") (L "from" :: from :: [L "|"; L "where"; f; L ">="; L "0"; k] ++ [L "|"; L "sum"; f])).
    { cbn [app join]. rewrite <- !app_assoc. reflexivity. }
    rewrite T. unfold read_query.
    match type of P with _ -> _ -> _ -> ?e = ?r => assert (Q : e = r); [apply P; clear P|] end.
    4: { apply (eq_trans (f_equal (fun r => pbind r (fun q => Ok (to_query q))) Q)). unfold to_query. cbn [pbind pq_from pq_ops pq_agg pq map to_operation to_condition to_field to_value to_aggregation option_map pc_field pc_op pc_value]. unfold to_condition, to_selector, hint_condition. cbn [pc_field pc_op pc_value to_field to_value]. rewrite NF. destruct s; reflexivity. }
    + apply (os_cons _ _ [L "where"; f; L ">="; L "0"; k] []); [|constructor]. apply (ot_where _ [] CAnd [] [f; L ">="; L "0"; k] []); [|constructor|intros k0 []|reflexivity].
      exists [f], [L "0"; k]. split; [split; [exact IF|reflexivity]|]. split; [|reflexivity]. apply vt_cur; [|vm_compute; reflexivity|exact CK].
      exists [], (L "0"). split; [left; reflexivity|]. split; [split; [discriminate|repeat constructor]|left; reflexivity].
    + exists [L "sum"; f]. split; [|reflexivity]. apply at_sum. split; [exact IF|reflexivity].
    + intros t I F. assert (NB : In " "%char t) by (destruct F as (d & h & m & _ & _ & _ & ->); apply in_or_app; right; left; reflexivity).
      assert (W : forall w, identifier w -> ~ In " "%char w).
      { intros w (c & r & -> & A & B) [J|J]; [subst c; destruct A; discriminate|]. rewrite Forall_forall in B. specialize (B _ J). destruct B; discriminate. }
      cbn [app] in I. repeat (destruct I as [<-|I]; [first [exact (W _ IF NB)|cbn in NB; intuition discriminate|idtac]|]); [|destruct I].
      destruct CK as (_ & A & _). rewrite Forall_forall in A. specialize (A _ NB). discriminate.
  - apply (hint_keeps x f k z es Z0 M (mixed_all x f es k k' H)).
  - intros e. rewrite filter_In, C. reflexivity.
  - intros er E. apply (one_currency_sums x f (filter (in_credit f k) es) k er); [|exact E]. intros v I. destruct (column_in _ _ _ I) as (e & J & G).
    apply filter_In in J as [_ J]. apply C in J as (d & G' & _). rewrite G in G'. injection G' as ->. eauto.
Qed.
Print Assumptions C88_hint_works.
(** What is summed then is not all that is in that currency. *)
Theorem C88_hint_sums_all_refuted : exists f k k' es es' a b,
  exec_agg ex_ext (ASum (FReg f)) es = Err (InvalidAggregation (AggMixedCurrencies k k')) /\
  where_step ex_ext {| cc_conds := [{| c_field := FReg f; c_op := OpGe; c_value := FCur f_zero k |}]; cc_comb := CAnd |} es = Ok es' /\ exec_agg ex_ext (ASum (FReg f)) es' = Ok (RSum (AVCur a k)) /\
  exec_agg ex_ext (ASum (FReg f)) (filter (fun e => match get_field e f with Some (VCur _ c) => str_eqb c k | _ => false end) es) = Ok (RSum (AVCur b k)) /\
  d_scale a = d_scale b /\ d_mant a <> d_mant b.
Proof.
  set (item i n c := ex_item i [(L "n", VCur {| d_mant := n; d_scale := 0 |} c)]).
  exists (L "n"), (L "EUR"), (L "USD"), [item (L "a") 5%Z (L "USD"); item (L "b") (-3)%Z (L "EUR"); item (L "c") 10%Z (L "EUR")]. eexists _, _, _.
  split; [vm_compute; reflexivity|]. split; [vm_compute; reflexivity|]. split; [vm_compute; reflexivity|]. split; [vm_compute; reflexivity|]. split; [reflexivity|discriminate].
Qed.
Print Assumptions C88_hint_sums_all_refuted.
(** Conditions that mix "and" and "or" are refused with the advice to use
    several steps. So any combination of conditions can be asked for. *)
Theorem C88_separate_clauses_suffice : forall x a, exists ops, Forall some_of ops /\ ops <> [] /\
  forall g ho n es, (forall e, In e es -> decidable x a e) -> exists r, exec_ops x g ho n ops es = Ok r /\ keeps (granted x a) es r.
Proof. intros x a. exists (map clause_of (clauses a)). exact (wish_run x a). Qed.
Print Assumptions C88_separate_clauses_suffice.

(** ** What the messages do not tell *)
(** A result set said to be empty is not: none of its entities has the field. *)
Theorem C88_empty_means_empty_refuted : exists a es, es <> [] /\
  exec_agg ex_ext a es = Err (InvalidAggregation AggEmpty) /\ show_agg_error a AggEmpty = L "Cannot compute average of empty result set".
Proof. exists (AAverage (FReg (L "n"))), [ex_item (L "a") []]. split; [discriminate|]. split; vm_compute; reflexivity. Qed.
Print Assumptions C88_empty_means_empty_refuted.
(** The type of a field given is that of an item of it. *)
Theorem C88_field_type_named_refuted : exists v o w t, compare_value ex_ext v o w = Err (TypeMismatch t (fvalue_type w)) /\ t <> get_type v.
Proof. exists (VList [VInt 1]), OpContains, (FStr (L "a")), TInt. split; [reflexivity|discriminate]. Qed.
Print Assumptions C88_field_type_named_refuted.
(** The operator is not named as it was written. *)
Theorem C88_operator_named_refuted : exists q, read_query (L "from task | where done > true") = Ok q /\
  compare_value ex_ext (VBool true) OpGt (FBool true) = Err (UnsupportedOperator TBool OpGt) /\
  ~ occurs (L ">") (show_query_error q (UnsupportedOperator TBool OpGt)).
Proof.
  eexists. split; [vm_compute; reflexivity|]. split; [reflexivity|]. intros (a & b & E).
  assert (I : In ">"%char (L "Cannot use 'GreaterThan' operator on Boolean fields. Supported: ==, !=")).
  { change (In ">"%char (L "Cannot use 'GreaterThan' operator on Boolean fields. Supported: ==, !=")) with (In ">"%char (show_query_error {| q_from := SAll; q_ops := []; q_agg := None |} (UnsupportedOperator TBool OpGt))).
    unfold show_query_error in *. rewrite E. apply in_or_app. right. left. reflexivity. }
  cbn in I. repeat (destruct I as [I|I]; [discriminate I|]). destruct I.
Qed.
Print Assumptions C88_operator_named_refuted.
(** A date and time in the format the message asks for cannot be written in a query. *)
Theorem C88_date_advice_refuted : exists s d, parse_rfc3339 s = Some d /\
  read_query (L "from task | where due == " ++ s) = Err SyntaxError.
Proof. exists (L "2024-02-29T12:30:00+01:00"). eexists. split; vm_compute; reflexivity. Qed.
Print Assumptions C88_date_advice_refuted.

Definition fe0 : fail_env := {| fe_syntax := fun _ => L "unexpected"; fe_number := fun _ => L "bad number" |}.
Definition sv0 : show_env := {| sv_float := fun _ => L "?"; sv_currency := fun s => s |}.
Definition pay (i : str) (n : Z) (c : str) : entity := ex_item i [(L "fee", VCur {| d_mant := n; d_scale := 0 |} c); (L "note", VStr (L "x"))].
Definition pay_ops : list op := [OAddMany [pay (L "a") 5 (L "USD"); pay (L "b") (-3) (L "EUR"); pay (L "c") 10 (L "EUR")]; OBuild].
Definition pay_told (text : str) : option M_Answer.said := tell_query fe0 sv0 ex_ext ex_ho (build (run pay_ops)) text.
Definition failing (s : str) : option M_Answer.said := Some {| is_error := true; contents := [s] |}.
Example C88_case :
  pay_told (L "from item | sum fee") =
    failing (L "Query execution failed: Invalid aggregation: Cannot sum mixed currencies (found EUR, USD). Filter first, e.g.: where fee >= 0 EUR") /\
  pay_told (L "from item | where fee >= 0 EUR | sum fee") = Some {| is_error := false; contents := [L "10 EUR"] |} /\
  pay_told (L "from thing") = failing (L "Query execution failed: Entity type 'thing' not found. Available types: item") /\
  pay_told (L "from item | where note > ""a""") =
    failing (L "Query execution failed: Cannot use 'GreaterThan' operator on String fields. Supported: ==, !=, contains, starts_with, ends_with") /\
  pay_told (L "from item | where fee == true") =
    failing (L "Query execution failed: Type mismatch: Currency field cannot be compared with Boolean value") /\
  pay_told (L "from item | median note") = failing (L "Query execution failed: Invalid aggregation: Cannot aggregate non-numeric field 'note'. Found type: String") /\
  pay_told (L "from item | where note == ""y""") = Some {| is_error := false; contents := [L "No entities found matching the query."] |} /\
  pay_told (L "from item | where a == 1 and b == 2 or c == 3") <> None /\
  (identifier (L "fee") /\ new_id (L "fee") = L "fee" /\ currency_text (L "EUR") /\ selector_token (RType (L "item")) (L "item") /\
   dec_of_f64 ex_ext f_zero = Some {| d_mant := 0; d_scale := 0 |}).
Proof.
  repeat split; try (vm_compute; reflexivity); try discriminate.
  all: try (exists "f"%char, (L "ee"); split; [reflexivity|]; split; [left; reflexivity|repeat constructor]).
  all: try (repeat constructor).
  exists "i"%char, (L "tem"); split; [reflexivity|]; split; [left; reflexivity|repeat constructor].
Qed.
