(** C78: what is accepted as a query. *)
From Verif Require Import M_Workspace M_Server M_Cli M_Query M_QParse S_QText L_QParse S_Accept L_Accept P_QParse.
Close Scope Z_scope.

(** A text that is accepted consists of the tokens of a query, in their order
    and with white space around them, and of nothing else; the query that is
    run is what these mean. *)
Theorem C78_what_is_run_is_written : forall text r, read_query text = Ok r -> exists q, made_of q text /\ means q r.
Proof.
  intros text r H. unfold read_query in H. destruct (parse_query text) as [q|] eqn:P; [|discriminate]. injection H as <-.
  exists q. split; [exact (accepted q text P)|exact (query_meaning q)].
Qed.
Print Assumptions C78_what_is_run_is_written.
(** Any other text is refused. *)
Theorem C78_all_else_is_refused : forall text, (forall q, ~ made_of q text) -> exists e, read_query text = Err e.
Proof.
  intros text H. unfold read_query. destruct (parse_query text) as [q|e] eqn:P; [|now exists e]. exfalso. exact (H q (accepted q text P)).
Qed.
Print Assumptions C78_all_else_is_refused.
(** So [firm query] fails on it in every workspace. *)
Theorem C78_command_refuses : forall c x d text, (forall q, ~ made_of q text) -> read_command c x d (CQuery text) = Failed.
Proof.
  intros c x d text H. destruct (C78_all_else_is_refused text H) as (e & E). unfold read_command, query_text. rewrite E.
  now destruct (load_current_graph (cl_json x) c d).
Qed.
Print Assumptions C78_command_refuses.
(** Where the tokens do not run into each other, there is no more to it: the
    text is accepted exactly as the query it spells. *)
Theorem C78_accepted_exactly : forall q text, spells q text -> forall q', parse_query text = Ok q' <-> q' = q.
Proof. intros q text H q'. rewrite (spells_parses q text H). split; [intros E; now injection E as <-|now intros ->]. Qed.
Print Assumptions C78_accepted_exactly.

(** Finding: words need not be kept apart. [fromperson] is a query... *)
Theorem C78_words_are_kept_apart_refuted : exists text q, parse_query text = Ok q /\ forall q', ~ spells q' text.
Proof.
  exists (L "fromperson|limit5"), {| pq_from := RType (L "person"); pq_ops := [PoLimit 5]; pq_agg := None |}. split; [vm_compute; reflexivity|].
  intros q' (s & ops & agg & _ & _ & _ & H). inversion H as [|w t ts rest W A Z R E1 E2]. subst.
  destruct w as [|c w]; [|injection E2 as -> _; inversion W as [|? ? [X|[X|X]] _]; discriminate]. injection E2 as ->.
  apply (A (L "fro") "m"%char "p"%char (L "erson|limit5") eq_refl eq_refl); left; reflexivity.
Qed.
Print Assumptions C78_words_are_kept_apart_refuted.
(** ... and the words in [order nameasc] are read as one. *)
Theorem C78_strung_tokens_are_read_refuted : exists q q' text, made_of q text /\ parse_query text = Ok q' /\ q' <> q.
Proof.
  exists {| pq_from := RAny; pq_ops := [PoOrder (RfReg (L "name")) Ascending]; pq_agg := None |},
    {| pq_from := RAny; pq_ops := [PoOrder (RfReg (L "nameasc")) Ascending]; pq_agg := None |}, (L "from*|order nameasc").
  split; [|split; [vm_compute; reflexivity|discriminate]].
  assert (I : identifier (L "name")) by (eexists _, _; split; [reflexivity|]; split; [now left|]; repeat constructor).
  exists (L "*"), [L "|"; L "order"; L "name"; L "asc"], []. split; [reflexivity|]. split; [|split; [reflexivity|]].
  - apply (os_cons _ [] [L "order"; L "name"; L "asc"] []); [|constructor]. apply (ot_asc _ [L "name"]). split; [exact I|reflexivity].
  - change (L "from*|order nameasc") with ([] ++ L "from" ++ [] ++ L "*" ++ [] ++ L "|" ++ [] ++ L "order" ++ L " " ++ L "name" ++ [] ++ L "asc" ++ []).
    repeat (constructor; [repeat constructor|]). constructor. constructor.
Qed.
Print Assumptions C78_strung_tokens_are_read_refuted.

(** Texts that are no queries, for one reason or another: what follows is not
    ignored, and nothing is missing. *)
Example C78_case :
  map (fun t => match read_query (L t) with Ok _ => true | Err _ => false end)
    ["from person | where age > 3 and name == ""Jane"" | limit 5"%string; "from person;"%string; "from person where age > 3"%string;
     "from person | where age >"%string; "from person | count | limit 5"%string; "FROM person"%string; "from person | limit 5.5"%string;
     "from person | where tags == [1, 2,]"%string; "from person | where age > 3 name == 1"%string] =
  [true; false; false; false; false; false; false; false; false].
Proof. vm_compute. reflexivity. Qed.

(** ** C23, exactly *)
(** The texts a query can ask for: those that do not begin with white space and
    do not hold both kinds of quotes. *)
Theorem C23_texts_that_can_be_asked_for : forall s,
  (exists text r cc c, read_query text = Ok r /\ In (QWhere cc) (q_ops r) /\ In c (cc_conds cc) /\ c_value c = FStr s) <->
  (forall c r, s = c :: r -> ~ blank [c]) /\ (~ In """"%char s \/ ~ In "'"%char s).
Proof.
  intros s. split.
  - intros (text & r & cc & c & H & I1 & I2 & V). destruct (C78_what_is_run_is_written text r H) as (q & (sel & ops & agg & _ & OT & _) & (_ & M & _)).
    assert (K : forall os ts rs, operations_tokens os ts -> Forall2 means_operation os rs -> In (QWhere cc) rs ->
      exists cs k ts', operation_tokens (PoWhere cs k) ts' /\ Forall2 means_condition cs (cc_conds cc)).
    { induction os as [|o os IH]; intros ts rs T F I; inversion F as [|? r1 ? rs1 M1 M2]; subst; [destruct I|].
      inversion T as [|? ? t ts1 T1 T2]; subst. destruct I as [-> |I]; [|exact (IH _ _ T2 M2 I)].
      inversion M1; subst. eauto. }
    destruct (K _ _ _ OT M I1) as (cs & k & ts & T & F). clear K OT M.
    assert (K : exists d t, condition_tokens d t /\ means_condition d c).
    { inversion T as [d ds k' ks t ts1 C MC X1 X2| | | | | | | |]; subst. inversion F as [|? c1 ? cs1 M1 M2 E1 E2]; subst. rewrite <- E2 in I2.
      destruct I2 as [-> |I2]; [eauto|]. clear - MC M2 I2. revert cs1 M2 I2.
      induction MC as [|k ks d ds t w ts C _ _ IH]; intros cs1 M2 I2; inversion M2; subst; [destruct I2|].
      destruct I2 as [-> |I2]; eauto. }
    destruct K as (d & t & (f & v & _ & VT & _) & (_ & _ & MV)). rewrite V in MV. inversion MV as [s' E1 E2| | | | | | | | |]; subst. rewrite <- E1 in VT.
    inversion VT as [s' t' (q' & w & Q & _ & N & B & _)| | | | | | | | | | | |]; subst. split; [exact B|]. destruct Q as [-> | ->]; auto.
  - intros (B & N).
    assert (Q : exists q, (q = """"%char \/ q = "'"%char) /\ ~ In q s) by (destruct N as [N|N]; eauto). destruct Q as (q & Q & NI).
    eexists _, _, _, _. split; [apply (C23_leading_blanks_dropped (L "name") OpEq q [] s); auto; [|constructor]|].
    + eexists _, _. split; [reflexivity|]. split; [now left|]. repeat constructor.
    + split; [left; reflexivity|]. split; [left; reflexivity|]. reflexivity.
Qed.
Print Assumptions C23_texts_that_can_be_asked_for.
(** Finding: a text with both kinds of quotes cannot be asked for. *)
Theorem C23_both_quotes_refuted : exists s, forall text r cc c,
  read_query text = Ok r -> In (QWhere cc) (q_ops r) -> In c (cc_conds cc) -> c_value c <> FStr s.
Proof.
  exists (L "6' 2"""). intros text r cc c H I1 I2 V.
  destruct (proj1 (C23_texts_that_can_be_asked_for (L "6' 2""")) (ex_intro _ text (ex_intro _ r (ex_intro _ cc (ex_intro _ c (conj H (conj I1 (conj I2 V)))))))) as (_ & [N|N]); apply N; cbn; tauto.
Qed.
Print Assumptions C23_both_quotes_refuted.
Example C23_case : (forall c r, L "6' tall" = c :: r -> ~ blank [c]) /\ ~ In """"%char (L "6' tall").
Proof. split; [intros c r E X; injection E as <- <-; inversion X as [|? ? [C|[C|C]] _]; discriminate|vm_compute; intuition discriminate]. Qed.
