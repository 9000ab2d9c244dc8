(** Crashes of queries. *)
From Coq Require Import Lia.
From Verif Require Import S_Query L_Str L_Agg.
Close Scope Z_scope.

Definition calm {A} (r : qres A) : Prop := r <> Err Panicked.
Ltac calm_tac := repeat match goal with
  | |- calm (match ?x with _ => _ end) => destruct x
  | |- calm (if ?x then _ else _) => destruct x
  | |- calm (or_unsupported _ _ ?x) => unfold or_unsupported
  | |- calm (mismatch _ _) => discriminate
  | |- calm (unsupported _ _) => discriminate
  | |- calm (Ok _) => discriminate
  | |- calm (Err _) => discriminate
  end.
Lemma err_calm {A B} e : calm (@Err A query_error e) -> @Err B query_error e = Err Panicked -> False.
Proof. intros C X. injection X as ->. apply C. reflexivity. Qed.
Lemma boolean_calm v o w : calm (compare_boolean v o w). Proof. unfold compare_boolean. calm_tac. Qed.
Lemma integer_calm v o w : calm (compare_integer v o w). Proof. unfold compare_integer. calm_tac. Qed.
Lemma float_calm v o w : calm (compare_float v o w). Proof. unfold compare_float. calm_tac. Qed.
Lemma currency_calm x v o w : calm (compare_currency x v o w). Proof. unfold compare_currency. calm_tac. Qed.
Lemma datetime_calm v o w : calm (compare_datetime v o w). Proof. unfold compare_datetime. calm_tac. Qed.
Lemma reference_calm v o w : calm (compare_reference v o w). Proof. unfold compare_reference. calm_tac. Qed.
Lemma string_calm v o w : calm (compare_string v o w). Proof. unfold compare_string. calm_tac. Qed.
#[local] Hint Resolve boolean_calm integer_calm float_calm currency_calm datetime_calm reference_calm string_calm : calm.
Lemma item_calm x v o w : calm (compare_list_item x v o w).
Proof. unfold compare_list_item. destruct v; auto with calm. discriminate. Qed.
Lemma after_calm {A B} (r : qres A) (k : A -> qres B) : calm r -> (forall a, calm (k a)) -> calm (match r with Ok a => k a | Err e => Err e end).
Proof. destruct r as [a|e]; intros H K; [apply K|]. intros X. injection X as ->. apply H. reflexivity. Qed.
Lemma contains_calm x items w : calm (list_contains x items w).
Proof.
  induction items as [|i items IH]; [discriminate|]. cbn [list_contains].
  assert (M : calm (match i, w with VStr _, FStr _ => compare_string i OpContains w | _, _ => compare_list_item x i OpEq w end)).
  { destruct i; try apply item_calm. destruct w; try apply item_calm. apply string_calm. }
  intros X. cbv zeta in X. match type of X with match ?m with _ => _ end = _ => destruct m as [[|]|e] end; [discriminate|exact (IH X)|]. exact (err_calm _ M X).
Qed.
Lemma equal_calm x items : forall ws, calm (list_equal x items ws).
Proof.
  induction items as [|i items IH]; intros [|w ws]; try discriminate. cbn [list_equal]. intros X. pose proof (item_calm x i OpEq w) as M.
  destruct (compare_list_item x i OpEq w) as [[|]|e]; [exact (IH ws X)|discriminate|exact (err_calm _ M X)].
Qed.
Lemma value_calm x v o w : calm (compare_value x v o w).
Proof.
  unfold compare_value. destruct v; auto with calm. unfold compare_list. destruct o; try discriminate.
  - destruct w; try discriminate. destruct (Nat.eqb _ _); [apply equal_calm|discriminate].
  - apply contains_calm.
Qed.
Lemma matches_calm x c e : calm (matches x c e).
Proof.
  unfold matches. destruct (c_field c); [apply string_calm|]. destruct (get_field e f); [apply value_calm|discriminate].
Qed.
Lemma collect_calm {A B} (f : A -> qres B) l : (forall a, calm (f a)) -> calm (collect f l).
Proof.
  intros F. induction l as [|a l IH]; [discriminate|]. cbn [collect]. intros X. pose proof (F a) as Fa. destruct (f a); [|exact (err_calm _ Fa X)].
  destruct (collect f l); [discriminate|exact (err_calm _ IH X)].
Qed.
Lemma where_calm x cc es : calm (where_step x cc es).
Proof.
  induction es as [|e es IH]; [discriminate|]. cbn [where_step]. intros X.
  assert (M : calm (matches_all x cc e)).
  { unfold matches_all. intros Y. pose proof (collect_calm (fun c => matches x c e) (cc_conds cc) (fun c => matches_calm x c e)) as C.
    destruct (collect _ _); [discriminate|exact (err_calm _ C Y)]. }
  destruct (matches_all x cc e); [|exact (err_calm _ M X)]. destruct (where_step x cc es); [discriminate|exact (err_calm _ IH X)].
Qed.
Lemma ops_calm x g ho ops : forall n es, calm (exec_ops x g ho n ops es).
Proof.
  induction ops as [|o ops IH]; intros n es; [discriminate|]. cbn [exec_ops]. intros X. unfold bind in X.
  assert (M : calm (exec_op x g ho n o es)) by (destruct o; try discriminate; apply where_calm).
  destruct (exec_op x g ho n o es); [exact (IH _ _ X)|exact (err_calm _ M X)].
Qed.
Lemma collect_numeric_calm f es : calm (collect_numeric f es).
Proof.
  induction es as [|e es IH]; [discriminate|]. cbn [collect_numeric]. intros X.
  destruct (get_field e f) as [v|]; [|exact (IH X)]. destruct v; try discriminate; (destruct (collect_numeric f es); [discriminate|exact (err_calm _ IH X)]).
Qed.

(** ** Sums *)
Lemma i64_sum_none x zs : forall acc, in_i64 acc = true -> i64_sum x acc zs = None <->
  overflow_checks x = true /\ exists pre post, zs = pre ++ post /\ in_i64 (acc + total pre) = false.
Proof.
  induction zs as [|z zs IH]; intros acc A; cbn [i64_sum].
  - split; [discriminate|]. intros (_ & pre & post & E & N). destruct pre; [|discriminate]. rewrite total_nil, Z.add_0_r in N. congruence.
  - unfold i64_add. destruct (in_i64 (acc + z)) eqn:I.
    + rewrite (IH _ I). split; intros (O & pre & post & E & N); (split; [exact O|]).
      * exists (z :: pre), post. split; [now rewrite E|]. rewrite total_cons. rewrite Z.add_assoc. exact N.
      * destruct pre as [|p pre]; [rewrite total_nil, Z.add_0_r in N; congruence|]. injection E as <- E. exists pre, post. split; [exact E|].
        rewrite total_cons, Z.add_assoc in N. exact N.
    + destruct (overflow_checks x) eqn:O.
      * split; [intros _|reflexivity]. split; [reflexivity|]. exists [z], zs. split; [reflexivity|]. rewrite total_cons, total_nil, Z.add_0_r. exact I.
      * split; [|intros (X & _); discriminate]. intros X. exfalso. revert X. generalize (wrap_i64 (acc + z)). clear -O.
        induction zs as [|z zs IH]; intros w; cbn [i64_sum]; [discriminate|]. unfold i64_add. destruct (in_i64 (w + z)); [apply IH|]. rewrite O. apply IH.
Qed.
Lemma cur_sum_panics x c ns : Forall (fun n => exists a b, n = NCur a b) ns -> forall acc, cur_sum x c acc ns = Err Panicked ->
  exists pre post, ns = map (fun d => NCur d c) pre ++ post /\ cur_sum x c acc (map (fun d => NCur d c) pre) = Err Panicked.
Proof.
  induction 1 as [|n ns (a & b & ->) F IH]; intros acc H; cbn [cur_sum] in H; [discriminate|].
  destruct (str_eqb_spec b c) as [->|]; [|discriminate]. destruct (dec_plus x acc a) as [d|] eqn:D.
  - destruct (IH d H) as (pre & post & E & P). exists (a :: pre), post. split; [cbn [map app]; now rewrite E|].
    cbn [map cur_sum]. rewrite str_eqb_refl, D. exact P.
  - exists [a], ns. split; [reflexivity|]. cbn [map cur_sum]. rewrite str_eqb_refl, D. reflexivity.
Qed.
Definition currency_only (ns : list numeric) : bool := forallb (fun n => match n with NCur _ _ => true | _ => false end) ns.
Lemma classify_cases ns t : classify ns = Ok t ->
  match t with NTInt => ns = [] \/ existsb (fun n => match n with NFloat _ => true | _ => false end) ns = false /\ existsb (fun n => match n with NCur _ _ => true | _ => false end) ns = false
  | NTFloat => True | NTCur _ => currency_only ns = true end.
Proof.
  unfold classify. set (hi := existsb (fun n => match n with NInt _ => true | _ => false end) ns). set (hf := existsb (fun n => match n with NFloat _ => true | _ => false end) ns).
  assert (G : forall ns acc, fold_left (fun acc n => match n with NCur _ c => Some c | _ => acc end) ns acc = None -> acc = None /\ existsb (fun n => match n with NCur _ _ => true | _ => false end) ns = false).
  { clear. induction ns as [|n ns IH]; intros acc H; cbn [fold_left existsb] in *; [auto|]. apply IH in H as [H1 H2]. destruct n; auto; discriminate. }
  destruct (fold_left _ ns None) as [c|] eqn:F.
  - destruct hi eqn:I; [discriminate|]. destruct hf eqn:Fl; [discriminate|]. intros [= <-]. unfold hi, hf in *. clear -I Fl.
    induction ns as [|n ns IH]; [reflexivity|]. cbn [existsb currency_only forallb] in *. apply orb_false_iff in I as [I1 I2], Fl as [F1 F2]. destruct n; try discriminate. apply IH; assumption.
  - apply G in F as [_ F]. destruct hf eqn:Fl; intros [= <-]; [exact I|]. right. split; [reflexivity|exact F].
Qed.
Lemma query_crash x g ho q : execute x g ho q = Err Panicked -> exists f es, q_agg q = Some (ASum (FReg f)) /\
  execute x g ho {| q_from := q_from q; q_ops := q_ops q; q_agg := None |} = Ok (QEntities es) /\
  ((overflow_checks x = true /\ exists pre post, column f es = map VInt (pre ++ post) /\ in_i64 (total pre) = false) \/
   (exists c pre post, column f es = map (fun d => VCur d c) pre ++ post /\ (2 ^ 96 <= size_at (max_scale pre) pre)%Z)).
Proof.
  unfold execute. cbn [q_from q_ops q_agg]. destruct (select_from g ho (q_from q)) as [start|e] eqn:S; cbn [bind].
  2: { unfold select_from in S. destruct (q_from q); [|discriminate]. destruct (str_in _ _); [discriminate|]. injection S as <-. discriminate. }
  pose proof (ops_calm x g ho (q_ops q) 0 start) as C. destruct (exec_ops x g ho 0 (q_ops q) start) as [es|e]; cbn [bind]; [|intros H; destruct (err_calm _ C H)].
  destruct (q_agg q) as [a|]; [|discriminate]. intros H. destruct (exec_agg x a es) as [r|e] eqn:E; cbn [bind] in H; [discriminate|]. injection H as ->.
  assert (K : forall f (k : list numeric -> qres agg_result), (forall ns, calm (k ns)) -> bind (regular f) (fun f => bind (collect_numeric f es) k) = Err Panicked -> False).
  { intros f k K X. destruct f as [m|f]; cbn [regular bind] in X; [discriminate|]. pose proof (collect_numeric_calm f es) as CN.
    destruct (collect_numeric f es) as [ns|]; cbn [bind] in X; [exact (K ns X)|exact (err_calm _ CN X)]. }
  destruct a as [fs|f|f|f|f]; cbn [exec_agg] in E; try discriminate.
  - destruct f as [m|f]; [discriminate|]. exists f, es. split; [reflexivity|]. split; [reflexivity|].
    unfold exec_sum in E. cbn [regular bind] in E. rewrite collect_column in E. destruct (numerics f (column f es)) as [ns|e] eqn:N; cbn [bind] in E.
    2: { exfalso. pose proof (collect_numeric_calm f es) as CN. rewrite collect_column, N in CN. exact (err_calm _ CN E). }
    apply numerics_ok in N. unfold sum_numeric in E. destruct ns as [|n0 ns0]; [discriminate|]. remember (n0 :: ns0) as ns.
    destruct (classify ns) as [t|e] eqn:CL; cbn [bind] in E.
    2: { unfold classify in CL. destruct (fold_left _ ns None); [|destruct (existsb _ ns); discriminate]. destruct (_ || _); [|discriminate]. congruence. }
    apply classify_cases in CL. destruct t.
    + left. destruct CL as [CL|[NF NC]]; [congruence|].
      assert (Z : exists zs, ns = map NInt zs).
      { clear -NF NC. induction ns as [|n ns IH]; [exists []; reflexivity|]. cbn [existsb] in *. apply orb_false_iff in NF as [N1 N2], NC as [C1 C2].
        destruct (IH N2 C2) as (zs & ->). destruct n; try discriminate. exists (z :: zs). reflexivity. }
      destruct Z as (zs & Z). rewrite Z in E. rewrite map_map in E. rewrite map_id in E.
      destruct (i64_sum x 0 zs) as [z|] eqn:S0; [discriminate|]. apply i64_sum_none in S0 as (O & pre & post & -> & X); [|reflexivity].
      split; [exact O|]. exists pre, post. split; [|exact X]. rewrite Z in N. clear -N. revert N. generalize (pre ++ post) as zs. induction (column f es) as [|v vs IH]; intros [|z zs] N; cbn [map] in *; try discriminate; [reflexivity|].
      injection N as N1 N2. rewrite (IH zs N2). destruct v; try discriminate. cbn in N1. injection N1 as ->. reflexivity.
    + discriminate.
    + right. destruct (cur_sum x code dec_zero ns) as [d|e] eqn:CS; cbn [bind] in E; [discriminate|]. injection E as ->.
      apply cur_sum_panics in CS as (pre & post & P & X).
      2: { apply Forall_forall. intros n I. unfold currency_only in CL. rewrite forallb_forall in CL. specialize (CL n I). destruct n; try discriminate. eauto. }
      exists code, pre. rewrite P in N. rewrite map_app in N. apply map_eq_app in N as (v1 & v2 & V & N1 & N2). exists v2. split.
      * rewrite V. f_equal. clear -N1. revert v1 N1. induction pre as [|d pre IH]; intros [|v vs] N; cbn [map] in *; try discriminate; [reflexivity|].
        injection N as N1 N2. rewrite (IH vs N2). destruct v; try discriminate. cbn in N1. injection N1 as -> ->. reflexivity.
      * destruct (Z.le_gt_cases (2 ^ 96) (size_at (max_scale pre) pre)) as [L1|L1]; [exact L1|]. exfalso.
        rewrite (cur_sum_exact x code pre dec_zero (max_scale pre)) in X; [discriminate|cbn [d_scale dec_zero]; lia|exact L1].
  - exfalso. apply (K f (average_numeric x)); [|exact E]. intros [|n ns]; discriminate.
  - exfalso. apply (K f (median_numeric x)); [|exact E]. intros [|n ns]; discriminate.
Qed.
