(** Lemmas for C73: yes-or-no fields and enumerations. *)
From Coq Require Import Lia Permutation.
From Verif Require Import S_Graph L_Graph.
From Verif Require M_Query M_QParse S_Query S_QText L_Whole2 P_Query P_QParse.
From Verif Require Import S_Found L_Str L_Text L_Schema L_Ids L_Workspace L_DslVal L_Whole L_Whole3 L_Literal.
From Verif Require Import M_Fs M_Dsl.
Close Scope Z_scope.

Lemma boolean_kind k b : of_kind k (PBool b) -> k = KBoolean. Proof. one_kind. Qed.
Lemma enum_kind k s : of_kind k (PEnum s) -> k = KEnum. Proof. one_kind. Qed.
Lemma boolean_value env path vn p b : value_syntax vn -> from_node env path vn = Ok p ->
  (to_value p = VBool b <-> vn = VNode (Some KBoolean) (yes_no b) []).
Proof.
  intros VS FN. split.
  - intros V. destruct p; try discriminate. injection V as ->. inversion VS as [k raw LS|g vs t G IS FV]; subst.
    + pose proof (boolean_kind k b (node_kind_of _ _ _ _ _ _ FN)) as ->. cbn [from_node] in FN. unfold parse_boolean in FN.
      destruct (str_eqb raw (L "true")) eqn:E1; [injection FN as <-; apply str_eqb_eq in E1; now rewrite E1|].
      destruct (str_eqb raw (L "false")) eqn:E2; [injection FN as <-; apply str_eqb_eq in E2; now rewrite E2|discriminate].
    + apply node_kind_of in FN as (l & E). discriminate.
  - intros ->. destruct b; cbn in FN; injection FN as <-; reflexivity.
Qed.
Lemma enum_value env path vn p a : value_syntax vn -> from_node env path vn = Ok p ->
  (to_value p = VEnum a <-> exists s, vn = VNode (Some KEnum) (L "enum" ++ [DQ] ++ s ++ [DQ]) [] /\ one_line s /\ between_quotes (L "enum") s a).
Proof.
  intros VS FN.
  assert (U : forall s, one_line s -> (untag (L "enum") (L "enum" ++ [DQ] ++ s ++ [DQ]) = a <-> between_quotes (L "enum") s a))
    by (intros s O; apply untag_line; [discriminate|apply O|cbn; intuition discriminate]).
  split.
  - intros V. destruct p; try discriminate. injection V as ->. inversion VS as [k raw LS|g vs t G IS FV]; subst.
    + pose proof (enum_kind k a (node_kind_of _ _ _ _ _ _ FN)) as ->. cbn [from_node] in FN. unfold parse_enum in FN. injection FN as FN.
      inversion LS; subst. eexists. split; [reflexivity|]. split; [assumption|]. apply U; [assumption|reflexivity].
    + apply node_kind_of in FN as (l & E). discriminate.
  - intros (s & -> & O & BQ). cbn [from_node] in FN. unfold parse_enum in FN. injection FN as <-. apply (U s O) in BQ. exact (f_equal VEnum BQ).
Qed.

Lemma day_length s day : day_literal s day -> length s = 10.
Proof. intros (ys & ms & ds & y & m & d & -> & A & B & C & _). rewrite !app_length, A, B, C. reflexivity. Qed.
Lemma day_kind k d : of_kind k (PDate d) -> k = KDate \/ k = KDateTime.
Proof. intros H. destruct k; cbn [of_kind] in H; auto; try contradiction; decompose [ex or] H; discriminate. Qed.
Lemma clock_range t secs : time_literal t secs -> (0 <= secs < 86400)%Z.
Proof.
  intros (hs & ms & h & m & _ & _ & _ & NH & NM & H & M & ->). apply numeral_iff in NH as (n & _ & ->). apply numeral_iff in NM as (k & _ & ->). lia.
Qed.
Lemma day_of secs day : (0 <= secs < 86400)%Z -> ((day * 86400 + secs) / 86400 = day)%Z.
Proof. intros R. rewrite Z.div_add_l by lia. rewrite Z.div_small by lia. lia. Qed.
Lemma day_value env path vn p dd : value_syntax vn -> from_node env path vn = Ok p -> to_value p = VDate dd ->
  forall day, on_day vn day <-> day = dt_date dd.
Proof.
  intros VS FN V. destruct p; try discriminate. injection V as ->.
  assert (X : on_day vn (dt_date dd)).
  { inversion VS as [k raw LS|g vs t G IS FV]; subst; [|apply node_kind_of in FN as (l & E); discriminate].
    assert (PN : plain_component (L "a")) by (repeat split; try discriminate; cbn; intuition discriminate).
    destruct (day_kind k dd (node_kind_of _ _ _ _ _ _ FN)) as [-> | ->].
    - pose proof (read_denotes env [] (L "a") KDate raw (PDate dd) (Forall_nil _) PN LS FN) as D. cbn [to_value] in D.
      inversion D as [| | | | | | |s day DL| | | |]; subst. exists raw. split; [|now left]. unfold dt_date. cbn [dt_local]. rewrite Z.div_mul by lia. exact DL.
    - pose proof (read_denotes env [] (L "a") KDateTime raw (PDate dd) (Forall_nil _) PN LS FN) as D. cbn [to_value] in D.
      inversion D as [| | | | | | | |s t day secs DL TL|s t z day secs east DL TL ZL| |]; subst; exists s; (split; [unfold dt_date; cbn [dt_local]; rewrite day_of by (eapply clock_range; eassumption); exact DL|]); right; eauto. }
  intros day. split; [|intros ->; exact X]. destruct X as (s & D & K). intros (s' & D' & K').
  assert (s' = s) as ->.
  { destruct K as [K|(r & K)], K' as [K'|(r' & K')]; rewrite K in K'; try discriminate; injection K' as K'; [congruence|].
    pose proof (day_length s _ D) as L1. pose proof (day_length s' _ D') as L2.
    assert (FN10 : forall u v : str, length u = 10 -> firstn 10 (u ++ v) = u).
    { intros u v E. rewrite firstn_app, E, Nat.sub_diag. change (firstn 0 v) with (@nil ascii). rewrite app_nil_r. apply firstn_all2. rewrite E. constructor. }
    apply (f_equal (firstn 10)) in K'. rewrite !FN10 in K' by assumption. congruence. }
  apply day_read in D. apply day_read in D'. congruence.
Qed.

Section Answers.
Context (c : ctx) (x : cli_env) (w : place) (d : fs) (st : state) (B : built c w d st) (HO : S_Query.orders (cl_hash x)).
Lemma read_boolean t f o b : S_QText.identifier t -> S_QText.identifier f ->
  M_QParse.read_query (where_query t f o (yes_no b)) = M_Graph.Ok (L_Whole2.ask t (L_Whole2.only_where f o (M_Query.FBool b)) None).
Proof.
  intros T F. apply (L_Whole2.read_typed t f o (yes_no b) (M_QParse.PBool b) (M_Query.FBool b) T F).
  - destruct b; constructor.
  - intros X. apply L_QParse.time_form_blank in X as (_ & y & r & E & D). destruct b; injection E as <- _; discriminate.
  - constructor.
  - intros w' M. now inversion M.
Qed.
Lemma boolean_found t f o b : plain_name t -> plain_name f -> field_typed st t f TBool -> (exists i fs, declares w d t i fs) -> tests_boolean o ->
  exists r, finds x st (where_query t f o (yes_no b)) r /\ forall id, In id (map e_id r) <->
    exists i fs vn, declares w d t i fs /\ id = compose_entity_id t i /\ first_field fs f vn /\ exists a, vn = VNode (Some KBoolean) (yes_no a) [] /\ boolean_test o a b.
Proof.
  intros T F FT DE TO. apply (L_Whole3.found c x w d st B HO t f o (M_Query.FBool b) _ TBool
    (fun v => match v with VBool a => match o with M_Query.OpEq => Bool.eqb a b | _ => negb (Bool.eqb a b) end | _ => false end)); auto.
  - exact (read_boolean t f o b (proj1 T) (proj1 F)).
  - intros v H. destruct v; try now inversion H. repeat (destruct TO as [<-|TO]; [reflexivity|]). destruct TO.
  - intros path vn p VS FN H.
    assert (PV : exists a, to_value p = VBool a) by (destruct p; try now inversion H; eexists; reflexivity). destruct PV as [a PV]. rewrite PV.
    pose proof (proj1 (boolean_value _ _ _ _ a VS FN) PV) as ->.
    assert (X : match o with M_Query.OpEq => Bool.eqb a b | _ => negb (Bool.eqb a b) end = true <-> boolean_test o a b).
    { clear - TO. destruct TO as [<-|[<-|[]]]; cbn [boolean_test]; destruct a, b; cbn; split; intros; try reflexivity; try discriminate; try congruence. }
    rewrite X. split; [exists a; auto|]. intros (a' & E & TT). destruct a, a'; try discriminate; exact TT.
Qed.
Lemma enum_found t f o s : plain_name t -> plain_name f -> field_typed st t f TEnum -> (exists i fs, declares w d t i fs) -> tests_text o -> query_literal s ->
  exists r, finds x st (where_query t f o ([DQ] ++ s ++ [DQ])) r /\ forall id, In id (map e_id r) <->
    exists i fs vn, declares w d t i fs /\ id = compose_entity_id t i /\ first_field fs f vn /\
      exists a u, vn = VNode (Some KEnum) (L "enum" ++ [DQ] ++ u ++ [DQ]) [] /\ one_line u /\ between_quotes (L "enum") u a /\ text_test o a s.
Proof.
  intros T F FT DE TO [NQ NB]. apply (L_Whole3.found c x w d st B HO t f o (M_Query.FStr s) _ TEnum
    (fun v => match v with VEnum a => match M_Query.text_op o a s with Some b => b | None => false end | _ => false end)); auto.
  - exact (L_Whole2.read_text t f o s (proj1 T) (proj1 F) NQ NB).
  - intros v H. destruct v; try now inversion H. unfold M_Query.compare_value, M_Query.compare_string. repeat (destruct TO as [<-|TO]; [reflexivity|]). destruct TO.
  - intros path vn p VS FN H.
    assert (PV : exists a, to_value p = VEnum a) by (destruct p; try now inversion H; eexists; reflexivity). destruct PV as [a PV]. rewrite PV.
    pose proof (proj1 (enum_value _ _ _ _ a VS FN) PV) as (u & -> & O & BQ).
    assert (X : match M_Query.text_op o a s with Some b => b | None => false end = true <-> text_test o a s).
    { clear - TO. repeat (destruct TO as [<-|TO]; [cbn [M_Query.text_op text_test]; try rewrite negb_true_iff, <- not_true_iff_false; rewrite ?eq_ignore_case_spec, ?contains_spec, ?starts_with_spec, ?ends_with_spec; reflexivity|]).
      destruct TO. }
    rewrite X. split; [exists a, u; auto|]. intros (a' & u' & E & O' & BQ' & TT).
    pose proof (proj2 (enum_value _ _ _ _ a' VS FN) (ex_intro _ u' (conj E (conj O' BQ')))) as PV'. assert (a' = a) as -> by congruence. exact TT.
Qed.
Lemma day_form s day : day_literal s day -> S_QText.date_form s.
Proof. intros D. apply day_syntax in D as (y & m & d' & E & A & B' & C). exists y, m, d'. auto. Qed.
Lemma read_day t f o s day : S_QText.identifier t -> S_QText.identifier f -> day_literal s day ->
  M_QParse.read_query (where_query t f o s) = M_Graph.Ok (L_Whole2.ask t (L_Whole2.only_where f o (M_Query.FDate s)) None).
Proof.
  intros T F D. apply (L_Whole2.read_typed t f o s (M_QParse.PDate s) (M_Query.FDate s) T F).
  - constructor. eapply day_form. eassumption.
  - intros X. apply L_QParse.time_form_blank in X as (X & _). revert X. apply date_syntax_no; [eapply day_syntax; eassumption|reflexivity|discriminate].
  - constructor.
  - intros w' M. now inversion M.
Qed.
Lemma day_found t f o s k : plain_name t -> plain_name f -> field_typed st t f TDate -> (exists i fs, declares w d t i fs) -> tests_integer o -> day_literal s k ->
  exists r, finds x st (where_query t f o s) r /\ forall id, In id (map e_id r) <->
    exists i fs vn, declares w d t i fs /\ id = compose_entity_id t i /\ first_field fs f vn /\ exists day, on_day vn day /\ integer_test o day k.
Proof.
  intros T F FT DE TO DL. apply (L_Whole3.found c x w d st B HO t f o (M_Query.FDate s) _ TDate
    (fun v => match v with VDate dd => match M_Query.ord_op o (Z.compare (dt_date dd) k) with Some b => b | None => false end | _ => false end)); auto.
  - exact (read_day t f o s k (proj1 T) (proj1 F) DL).
  - assert (E : M_Num.parse_rfc3339 s = None).
    { pose proof (day_read s k DL) as R. unfold parse_naive_date in R. unfold M_Num.parse_rfc3339. destruct (take_date s) as [[? [|? ?]]|]; try discriminate R; reflexivity. }
    intros v H. destruct v; try now inversion H. unfold M_Query.compare_value, M_Query.compare_datetime. rewrite E, (day_read s k DL).
    repeat (destruct TO as [<-|TO]; [destruct (Z.compare _ _); reflexivity|]). destruct TO.
  - intros path vn p VS FN H.
    assert (PV : exists dd, to_value p = VDate dd) by (destruct p; try now inversion H; eexists; reflexivity). destruct PV as [dd PV]. rewrite PV.
    pose proof (day_value _ _ _ _ dd VS FN PV) as DV. set (z := dt_date dd) in *.
    assert (X : match M_Query.ord_op o (Z.compare z k) with Some b => b | None => false end = true <-> integer_test o z k).
    { clearbody z. clear - TO. repeat (destruct TO as [<-|TO]; [cbn [integer_test]; destruct (Z.compare_spec z k); cbn [M_Query.ord_op]; split; intros; try discriminate; try reflexivity; lia|]).
      destruct TO. }
    rewrite X. split; [intros TT; exists z; split; [now apply DV|exact TT]|]. intros (day & OD & TT). apply DV in OD as ->. exact TT.
Qed.
End Answers.
