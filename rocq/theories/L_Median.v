(** The median: it is the middle of the sorted values, whatever their order. *)
From Coq Require Import Lia.
From Verif Require Import S_Query L_Str L_Sort L_Order L_Agg.

(** ** Conversions never give NaN *)
Lemma shr_1_pos r : (0 <= shr_m r)%Z -> (0 <= shr_m (shr_1 r))%Z.
Proof. destruct r as [m a b]; cbn. destruct m as [|[p|p|]|p]; cbn; lia. Qed.
Lemma iter_shr_pos p : forall r, (0 <= shr_m r)%Z -> (0 <= shr_m (SpecFloat.iter_pos shr_1 p r))%Z.
Proof. induction p as [p IH|p IH|]; intros r H; cbn [SpecFloat.iter_pos]; auto using shr_1_pos. Qed.
Lemma shr_fexp_pos p e m x l : (0 <= m)%Z -> (0 <= shr_m (fst (shr_fexp p e m x l)))%Z.
Proof.
  intros H. unfold shr_fexp, shr.
  assert (R : (0 <= shr_m (shr_record_of_loc m l))%Z) by (destruct l as [|[]]; auto).
  destruct (_ - x)%Z; cbn [fst]; auto. apply iter_shr_pos; auto.
Qed.
Lemma round_aux_not_nan p e s m x l : (0 <= m)%Z -> f_is_nan (binary_round_aux p e s m x l) = false.
Proof.
  intros H. unfold binary_round_aux.
  pose proof (shr_fexp_pos p e m x l H) as H1. destruct (shr_fexp p e m x l) as [r1 e1]. cbn [fst] in H1.
  set (k := round_nearest_even _ _).
  assert (Hk : (0 <= k)%Z).
  { unfold k, round_nearest_even. destruct (loc_of_shr_record r1) as [|[]]; auto; try lia.
    destruct (Z.even _); lia. }
  pose proof (shr_fexp_pos p e k e1 loc_Exact Hk) as H2. destruct (shr_fexp p e k e1 loc_Exact) as [r2 e2].
  cbn [fst] in H2. destruct (shr_m r2); [reflexivity| |lia]. destruct (Zle_bool _ _); reflexivity.
Qed.
Lemma f_of_Z_not_nan z : f_is_nan (f_of_Z z) = false.
Proof.
  destruct z as [|q|q]; [reflexivity| |]; unfold f_of_Z, binary_normalize, binary_round;
  destruct (shl_align _ _ _) as [m e]; apply round_aux_not_nan; lia.
Qed.

(** ** Up to the sign of zero *)
Definition unsigned_zero (a : f64) : f64 := match a with S754_zero _ => f_zero | _ => a end.
Definition same_float (a b : f64) : Prop := unsigned_zero a = unsigned_zero b.

Lemma cmp_unsigned a b : f_cmp_or_eq (unsigned_zero a) (unsigned_zero b) = f_cmp_or_eq a b.
Proof. destruct a, b; reflexivity. Qed.
Lemma cmp_eq_unsigned a b : f_is_nan a = false -> f_is_nan b = false ->
  f_cmp_or_eq a b = Eq -> unsigned_zero a = unsigned_zero b.
Proof.
  intros Ha Hb. destruct a as [s|[]| |s m e]; destruct b as [s'|[]| |s' m' e']; try discriminate; cbn; auto;
    try (destruct s; discriminate); try (destruct s'; discriminate).
  destruct s, s'; try discriminate; destruct (Z.compare e e') eqn:E; try discriminate;
  apply Z.compare_eq in E; subst; intros H.
  - assert (C : Pos.compare_cont Eq m m' = Eq) by (destruct (Pos.compare_cont Eq m m'); auto; discriminate).
    apply Pos.compare_eq in C. subst; auto.
  - apply Pos.compare_eq in H. subst; auto.
Qed.

Lemma insert_map {A B} (h : A -> B) cmp cmp' a l : (forall a b, cmp' (h a) (h b) = cmp a b) ->
  map h (insert_by cmp a l) = insert_by cmp' (h a) (map h l).
Proof. intros E. induction l as [|b l IH]; cbn; auto. rewrite E. destruct (cmp a b); cbn; auto. rewrite IH; auto. Qed.
Lemma sort_map {A B} (h : A -> B) cmp cmp' l : (forall a b, cmp' (h a) (h b) = cmp a b) ->
  map h (sort_by cmp l) = sort_by cmp' (map h l).
Proof. intros E. induction l as [|a l IH]; cbn; auto. rewrite (insert_map h cmp cmp'), IH; auto. Qed.

Lemma sorted_perm_anti {A} (cmp : A -> A -> comparison) (P : A -> Prop) : total_preorder_on cmp P ->
  (forall a b, P a -> P b -> cmp a b = Eq -> a = b) -> forall l1 l2, Forall P l1 ->
  Permutation l1 l2 -> StronglySorted (fun a b => cmp a b <> Gt) l1 ->
  StronglySorted (fun a b => cmp a b <> Gt) l2 -> l1 = l2.
Proof.
  intros Pre Inj. induction l1 as [|a l1 IH]; intros l2 F Pm S1 S2.
  - apply Permutation_nil in Pm; auto.
  - destruct l2 as [|b l2]; [symmetry in Pm; apply Permutation_nil in Pm; discriminate|].
    assert (F2 : Forall P (b :: l2)) by (eapply Permutation_Forall; eauto).
    inversion F as [|? ? Pa Fl]; subst. inversion F2 as [|? ? Pb Fl2]; subst.
    inversion S1 as [|? ? S1' G1]; subst. inversion S2 as [|? ? S2' G2]; subst.
    rewrite Forall_forall in G1, G2.
    assert (AB : cmp a b <> Gt).
    { assert (I : In b (a :: l1)) by (eapply Permutation_in; [symmetry; exact Pm|left; auto]).
      destruct I as [->|I]; [rewrite (cmp_refl cmp P Pre); auto; discriminate|auto]. }
    assert (BA : cmp b a <> Gt).
    { assert (I : In a (b :: l2)) by (eapply Permutation_in; [exact Pm|left; auto]).
      destruct I as [->|I]; [rewrite (cmp_refl cmp P Pre); auto; discriminate|auto]. }
    assert (E : cmp a b = Eq).
    { destruct Pre as [An _]. specialize (An a b Pa Pb). destruct (cmp a b); auto; cbn in An; congruence. }
    apply Inj in E; auto. subst b. f_equal. apply IH; auto. eapply Permutation_cons_inv; eauto.
Qed.

Lemma unsigned_nan a : f_is_nan (unsigned_zero a) = f_is_nan a.
Proof. destruct a; auto. Qed.

Lemma unsigned_idem a : unsigned_zero (unsigned_zero a) = unsigned_zero a.
Proof. destruct a; auto. Qed.

Lemma sorted_values_perm l1 l2 : Forall (fun a => f_is_nan a = false) l1 -> Permutation l1 l2 ->
  map unsigned_zero (sort_by f_cmp_or_eq l1) = map unsigned_zero (sort_by f_cmp_or_eq l2).
Proof.
  intros F P. rewrite !(sort_map unsigned_zero f_cmp_or_eq f_cmp_or_eq) by apply cmp_unsigned.
  set (Q := fun a => f_is_nan a = false /\ unsigned_zero a = a).
  assert (Pre : total_preorder_on f_cmp_or_eq Q).
  { destruct tpo_fcmp as [A T]. split; intros; [apply A|eapply T]; unfold Q in *; try tauto; eauto; tauto. }
  assert (F1 : Forall Q (map unsigned_zero l1)).
  { apply Forall_forall. intros a Ha. apply in_map_iff in Ha as (b & <- & Hb). rewrite Forall_forall in F.
    split; [rewrite unsigned_nan; auto|apply unsigned_idem]. }
  assert (F2 : Forall Q (map unsigned_zero l2)) by (eapply Permutation_Forall; [apply Permutation_map; exact P|auto]).
  eapply (sorted_perm_anti f_cmp_or_eq Q Pre).
  - intros a b [Ha Ua] [Hb Ub] E. apply cmp_eq_unsigned in E; auto. congruence.
  - apply (sort_Forall _ Q); auto.
  - eapply perm_trans; [symmetry; apply sort_perm|]. eapply perm_trans; [apply Permutation_map; exact P|apply sort_perm].
  - apply (sort_sorted _ Q Pre); auto.
  - apply (sort_sorted _ Q Pre); auto.
Qed.

Lemma add_same a b : same_float (f_add (unsigned_zero a) (unsigned_zero b)) (f_add a b).
Proof. destruct a as [[]|[]| |]; destruct b as [[]|[]| |]; reflexivity. Qed.
Lemma div_same a b : same_float (f_div (unsigned_zero a) b) (f_div a b).
Proof. destruct a as [[]|[]| |]; destruct b as [[]|[]| |]; reflexivity. Qed.

Lemma median_same l1 l2 : Forall (fun a => f_is_nan a = false) l1 -> Permutation l1 l2 ->
  same_float (median_of l1) (median_of l2).
Proof.
  intros F P. pose proof (sorted_values_perm l1 l2 F P) as E. unfold median_of.
  set (s1 := sort_by f_cmp_or_eq l1) in *. set (s2 := sort_by f_cmp_or_eq l2) in *.
  assert (Ln : length s1 = length s2) by (apply (f_equal (@length _)) in E; rewrite !map_length in E; auto).
  assert (N : forall k, unsigned_zero (nth k s1 f_zero) = unsigned_zero (nth k s2 f_zero)).
  { intros k. rewrite <- !(map_nth unsigned_zero). rewrite E. auto. }
  rewrite Ln. destruct (Nat.even (length s2)); [|apply N].
  unfold same_float. rewrite <- (div_same (f_add _ _)). symmetry. rewrite <- (div_same (f_add _ _)). symmetry.
  rewrite <- (add_same (nth _ s1 _)). rewrite <- (add_same (nth _ s2 _)). rewrite !N. auto.
Qed.

(** ** Odd number of values *)
Lemma median_odd l : Nat.even (length l) = false ->
  let s := sort_by f_cmp_or_eq l in
  In (median_of l) l /\ median_of l = nth (length l / 2) s f_zero.
Proof.
  intros Odd s. assert (Ls : length s = length l) by (symmetry; apply Permutation_length, sort_perm).
  unfold median_of. fold s. rewrite Ls, Odd. split; auto.
  assert (I : In (nth (length l / 2) s f_zero) s).
  { apply nth_In. rewrite Ls. apply Nat.div_lt; [|lia]. destruct l; [discriminate|cbn; lia]. }
  eapply Permutation_in; [symmetry; apply sort_perm|exact I].
Qed.

(** ** Numbers of a column *)
Definition force (v : value) : numeric :=
  match v with VInt z => NInt z | VFloat f => NFloat f | VCur a c => NCur a c | _ => NInt 0 end.
Lemma numerics_force f vs : forallb is_numeric vs = true -> numerics f vs = Ok (map force vs).
Proof.
  intros H. apply numerics_of. rewrite map_map. apply map_ext_in. intros v Hv.
  rewrite forallb_forall in H. apply H in Hv. destruct v; try discriminate; auto.
Qed.

Definition number_of (x : ext) (v : value) : f64 := as_f64 x (force v).

Lemma median_column x f es : column f es <> [] -> forallb is_numeric (column f es) = true ->
  exec_median x (FReg f) es = Ok (RMedian (median_of (map (number_of x) (column f es)))).
Proof.
  intros NE N. unfold exec_median; cbn [regular bind]. rewrite collect_column, (numerics_force f _ N). cbn [bind].
  unfold median_numeric. destruct (column f es) as [|v vs]; [congruence|]. cbn [map].
  unfold number_of at 2. rewrite map_map. reflexivity.
Qed.
Lemma average_column x f es : column f es <> [] -> forallb is_numeric (column f es) = true ->
  exec_average x (FReg f) es =
  Ok (RAverage (f_div (f64_sum x (map (number_of x) (column f es))) (f_of_Z (Z.of_nat (length (column f es)))))).
Proof.
  intros NE N. unfold exec_average; cbn [regular bind]. rewrite collect_column, (numerics_force f _ N). cbn [bind].
  unfold average_numeric. destruct (column f es) as [|v vs]; [congruence|]. cbn [map].
  unfold number_of at 2. rewrite map_map. cbn [length]. rewrite map_length. reflexivity.
Qed.

Lemma forallb_perm {A} (p : A -> bool) l1 l2 : Permutation l1 l2 -> forallb p l1 = forallb p l2.
Proof. induction 1; cbn; auto; try congruence. destruct (p x), (p y); auto. Qed.

(** ** Comparison of float fields *)
Lemma normalize_not_nan m e z : f_is_nan (binary_normalize fprec femax m e z) = false.
Proof.
  destruct m; [reflexivity| |]; unfold binary_normalize, binary_round;
  destruct (shl_align _ _ _); apply round_aux_not_nan; lia.
Qed.
Lemma sub_not_nan a b : f_is_finite a = true -> f_is_finite b = true -> f_is_nan (f_sub a b) = false.
Proof.
  destruct a as [s|s| |s m e], b as [s'|s'| |s' m' e']; try discriminate; intros _ _; cbn -[binary_normalize].
  - destruct (Bool.eqb s (negb s')); reflexivity.
  - reflexivity.
  - reflexivity.
  - apply normalize_not_nan.
Qed.
Lemma abs_not_nan a : f_is_nan (f_abs a) = f_is_nan a.
Proof. destruct a; reflexivity. Qed.

Lemma sub_self a f : f_is_finite a = true -> f_cmp a f = Some Eq -> f_lt (f_abs (f_sub a f)) f_epsilon = true.
Proof.
  intros Ha H. destruct a as [s|s| |s m e], f as [s'|[]| |s' m' e']; try discriminate; cbn in H;
    try (destruct s; discriminate); try (destruct s'; discriminate).
  - destruct s, s'; reflexivity.
  - assert (E : s = s' /\ m = m' /\ e = e').
    { destruct s, s'; try discriminate; destruct (Z.compare e e') eqn:C; try discriminate; apply Z.compare_eq in C;
      assert (X : Pos.compare_cont Eq m m' = Eq) by (injection H as H; destruct (Pos.compare_cont Eq m m'); auto; discriminate);
      apply Pos.compare_eq in X; auto. }
    destruct E as (<- & <- & <-). unfold f_sub, SFsub. rewrite Z.sub_diag. reflexivity.
Qed.

Lemma float_consistent x a f : f_is_finite a = true -> f_is_finite f = true ->
  exists c p, f_cmp a f = Some c /\
  compare_value x (VFloat a) OpLt (FFloat f) = Ok (match c with Lt => true | _ => false end) /\
  compare_value x (VFloat a) OpGt (FFloat f) = Ok (match c with Gt => true | _ => false end) /\
  compare_value x (VFloat a) OpLe (FFloat f) = Ok (match c with Gt => false | _ => true end) /\
  compare_value x (VFloat a) OpGe (FFloat f) = Ok (match c with Lt => false | _ => true end) /\
  equality_by x (VFloat a) (FFloat f) p /\ (c = Eq -> p = true).
Proof.
  intros Ha Hf. assert (E : exists c, f_cmp a f = Some c) by (destruct a, f; try discriminate; cbn; eauto).
  destruct E as (c & E). exists c, (f_lt (f_abs (f_sub a f)) f_epsilon). split; auto.
  assert (N : f_ge (f_abs (f_sub a f)) f_epsilon = negb (f_lt (f_abs (f_sub a f)) f_epsilon)).
  { pose proof (sub_not_nan a f Ha Hf) as NN. rewrite <- abs_not_nan in NN. unfold f_ge, f_lt.
    destruct (f_abs (f_sub a f)) as [|[]| |[] m e]; try discriminate; try reflexivity. cbn [f_cmp f_epsilon SFcompare].
    destruct (Z.compare e (-104)); try reflexivity. destruct (Pos.compare_cont Eq m 4503599627370496); reflexivity. }
  unfold equality_by. cbn [compare_value compare_float float_eps_op float_op or_unsupported].
  rewrite N. unfold f_lt at 1, f_gt, f_le, f_ge. rewrite E.
  repeat split; try (destruct c; reflexivity). intros ->. apply sub_self; auto.
Qed.

(** ** The median of a column *)
Lemma number_of_spec x v : number_of x v =
  match v with
  | VInt z => f_of_Z z
  | VFloat f => f
  | VCur a _ => match dec_to_f64 x a with Some f => f | None => f_zero end
  | _ => f_zero
  end.
Proof. destruct v; reflexivity. Qed.

Lemma median_ok_column x f es m : exec_median x (FReg f) es = Ok (RMedian m) ->
  column f es <> [] /\ forallb is_numeric (column f es) = true /\ m = median_of (map (number_of x) (column f es)).
Proof.
  intros H. destruct (forallb is_numeric (column f es)) eqn:N.
  - destruct (column f es) as [|v vs] eqn:C; [rewrite (proj2 (empty_err x f es C)) in H; discriminate|].
    rewrite median_column in H; rewrite ?C; auto; [|discriminate]. rewrite C in H. injection H as <-. repeat split; auto. discriminate.
  - destruct (non_numeric_err x f es N) as (t & _ & _ & E). rewrite E in H. discriminate.
Qed.

Lemma median_perm x f es es' m :
  Forall (fun v => f_is_nan (match v with
    | VInt z => f_of_Z z
    | VFloat f => f
    | VCur a _ => match dec_to_f64 x a with Some f => f | None => f_zero end
    | _ => f_zero
    end) = false) (column f es) -> Permutation es es' ->
  exec_median x (FReg f) es = Ok (RMedian m) ->
  exists m', exec_median x (FReg f) es' = Ok (RMedian m') /\
  (m = m' \/ exists s s', m = S754_zero s /\ m' = S754_zero s').
Proof.
  intros F P H. apply median_ok_column in H as (NE & N & ->).
  pose proof (column_perm f es es' P) as Q.
  exists (median_of (map (number_of x) (column f es'))). split.
  - apply median_column.
    + intros E. rewrite E in Q. apply Permutation_sym, Permutation_nil in Q. auto.
    + rewrite <- (forallb_perm _ _ _ Q). auto.
  - assert (S : same_float (median_of (map (number_of x) (column f es))) (median_of (map (number_of x) (column f es')))).
    { apply median_same; [|apply Permutation_map; auto].
      apply Forall_forall. intros a Ha. apply in_map_iff in Ha as (v & <- & Hv).
      rewrite Forall_forall in F. apply F in Hv. rewrite number_of_spec. auto. }
    unfold same_float in S.
    destruct (median_of (map (number_of x) (column f es))), (median_of (map (number_of x) (column f es')));
      cbn in S; try discriminate; auto; try (right; eauto; fail); left; congruence.
Qed.

Lemma skipn_nth {A} (d : A) : forall k s, k < length s -> skipn k s = nth k s d :: skipn (S k) s.
Proof.
  induction k as [|j IH]; intros [|a s] H; cbn [length] in H; try lia; [reflexivity|].
  cbn [nth]. change (skipn (S j) (a :: s)) with (skipn j s). change (skipn (S (S j)) (a :: s)) with (skipn (S j) s). apply IH. lia.
Qed.

Lemma odd_median x f es :
  forallb is_numeric (column f es) = true -> Nat.Odd (length (column f es)) ->
  Forall (fun v => f_is_nan (match v with
    | VInt z => f_of_Z z
    | VFloat f => f
    | VCur a _ => match dec_to_f64 x a with Some f => f | None => f_zero end
    | _ => f_zero
    end) = false) (column f es) ->
  exists m below above, exec_median x (FReg f) es = Ok (RMedian m) /\
  Permutation (map (fun v => match v with
    | VInt z => f_of_Z z
    | VFloat f => f
    | VCur a _ => match dec_to_f64 x a with Some f => f | None => f_zero end
    | _ => f_zero
    end) (column f es)) (below ++ m :: above) /\ length below = length above /\
  Forall (fun a => f_le a m = true) below /\ Forall (fun a => f_le m a = true) above.
Proof.
  intros N Odd F.
  set (l := map (number_of x) (column f es)). set (s := sort_by f_cmp_or_eq l).
  assert (Fl : Forall (fun a => f_is_nan a = false) l).
  { apply Forall_forall. intros a Ha. apply in_map_iff in Ha as (v & <- & Hv).
    rewrite Forall_forall in F. apply F in Hv. rewrite number_of_spec. auto. }
  assert (Ll : length l = length (column f es)) by apply map_length.
  assert (Ls : length s = length l) by (symmetry; apply Permutation_length, sort_perm).
  assert (Ev : Nat.even (length l) = false).
  { rewrite Ll. destruct Odd as (k & ->). rewrite Nat.even_add, Nat.even_mul. reflexivity. }
  destruct (median_odd l Ev) as [_ M]. fold s in M.
  set (k := length l / 2) in *.
  assert (Hk : length l = 2 * k + 1).
  { destruct Odd as (j & Hj). rewrite <- Ll in Hj. unfold k. clearbody k. rewrite Hj.
    replace (2 * j + 1) with (1 + j * 2) by lia. rewrite Nat.div_add by lia. cbn [Nat.div Nat.divmod fst]. lia. }
  exists (median_of l), (firstn k s), (skipn (S k) s).
  assert (SP : s = firstn k s ++ median_of l :: skipn (S k) s).
  { rewrite M. rewrite <- (firstn_skipn k s) at 1. f_equal.
    apply skipn_nth. lia. }
  assert (NE : column f es <> []) by (intros E; destruct Odd as (j & Hj); rewrite E in Hj; cbn in Hj; lia).
  split; [apply median_column; auto|]. split.
  - rewrite <- SP. erewrite map_ext; [apply sort_perm|]. intros v. symmetry. apply number_of_spec.
  - rewrite firstn_length, skipn_length. split; [lia|].
    assert (Fs : Forall (fun a => f_is_nan a = false) s) by (apply (sort_Forall _ (fun a => f_is_nan a = false)); auto).
    pose proof (sort_sorted _ _ tpo_fcmp l Fl) as St. fold s in St.
    assert (Le : forall a b, f_is_nan a = false -> f_is_nan b = false -> f_cmp_or_eq a b <> Gt -> f_le a b = true).
    { intros a b Ha Hb H. unfold f_cmp_or_eq, f_le in *. destruct (f_cmp a b) as [[]|] eqn:E; auto; try congruence.
      destruct a, b; discriminate. }
    rewrite SP in St, Fs. clear SP. revert St Fs. generalize (firstn k s) (median_of l) (skipn (S k) s).
    induction l0 as [|a l0 IH]; intros m l1 St Fs; cbn in *.
    + split; [constructor|]. inversion St as [|? ? _ G]; subst. inversion Fs as [|? ? Hm Fs']; subst.
      rewrite Forall_forall in *. intros b Hb. apply Le; auto.
    + inversion St as [|? ? St' G]; subst. inversion Fs as [|? ? Ha Fs']; subst.
      destruct (IH m l1 St' Fs') as [B A]. split; auto. constructor; auto.
      rewrite Forall_forall in G, Fs'. apply Le; auto; [apply Fs'|apply G]; apply in_elt.
Qed.

(** ** Even number of values *)
Lemma even_median x f es :
  column f es <> [] -> forallb is_numeric (column f es) = true -> Nat.Even (length (column f es)) ->
  Forall (fun v => f_is_nan (match v with
    | VInt z => f_of_Z z
    | VFloat f => f
    | VCur a _ => match dec_to_f64 x a with Some f => f | None => f_zero end
    | _ => f_zero
    end) = false) (column f es) ->
  exists lo hi below above, exec_median x (FReg f) es = Ok (RMedian (f_div (f_add lo hi) (f_of_Z 2))) /\
  Permutation (map (fun v => match v with
    | VInt z => f_of_Z z
    | VFloat f => f
    | VCur a _ => match dec_to_f64 x a with Some f => f | None => f_zero end
    | _ => f_zero
    end) (column f es)) (below ++ lo :: hi :: above) /\ length below = length above /\
  Forall (fun a => f_le a lo = true) below /\ f_le lo hi = true /\ Forall (fun a => f_le hi a = true) above.
Proof.
  intros NE N Even F.
  set (l := map (number_of x) (column f es)). set (s := sort_by f_cmp_or_eq l).
  assert (Fl : Forall (fun a => f_is_nan a = false) l).
  { apply Forall_forall. intros a Ha. apply in_map_iff in Ha as (v & <- & Hv).
    rewrite Forall_forall in F. apply F in Hv. rewrite number_of_spec. auto. }
  assert (Ll : length l = length (column f es)) by apply map_length.
  assert (Ls : length s = length l) by (symmetry; apply Permutation_length, sort_perm).
  destruct Even as (k & Hk). rewrite <- Ll in Hk.
  assert (Ev : Nat.even (length l) = true) by (rewrite Hk, Nat.even_mul; reflexivity).
  assert (K1 : 1 <= k) by (clearbody l; destruct (column f es); [congruence|]; cbn in Ll; lia).
  assert (Kd : length l / 2 = k) by (rewrite Hk, Nat.mul_comm; apply Nat.div_mul; lia).
  set (lo := nth (k - 1) s f_zero). set (hi := nth k s f_zero).
  assert (M : median_of l = f_div (f_add lo hi) (f_of_Z 2)).
  { unfold median_of. fold s. rewrite Ls, Ev, Kd. reflexivity. }
  assert (SP : s = firstn (k - 1) s ++ lo :: hi :: skipn (S k) s).
  { rewrite <- (firstn_skipn (k - 1) s) at 1. f_equal.
    rewrite (skipn_nth f_zero) by lia. fold lo. f_equal. replace (S (k - 1)) with k by lia. apply skipn_nth. lia. }
  exists lo, hi, (firstn (k - 1) s), (skipn (S k) s).
  split; [rewrite <- M; apply median_column; auto|]. split.
  - rewrite <- SP. erewrite map_ext; [apply sort_perm|]. intros v. symmetry. apply number_of_spec.
  - rewrite firstn_length, skipn_length. split; [lia|].
    assert (Fs : Forall (fun a => f_is_nan a = false) s) by (apply (sort_Forall _ (fun a => f_is_nan a = false)); auto).
    pose proof (sort_sorted _ _ tpo_fcmp l Fl) as St. fold s in St.
    assert (Le : forall a b, f_is_nan a = false -> f_is_nan b = false -> f_cmp_or_eq a b <> Gt -> f_le a b = true).
    { intros a b Ha Hb H. unfold f_cmp_or_eq, f_le in *. destruct (f_cmp a b) as [[]|] eqn:E; auto; try congruence.
      destruct a, b; discriminate. }
    rewrite SP in St, Fs. clear SP M. clearbody lo hi. revert St Fs. generalize (firstn (k - 1) s) (skipn (S k) s).
    induction l0 as [|a l0 IH]; intros l1 St Fs; cbn in *.
    + split; [constructor|]. inversion St as [|? ? St' G]; subst. inversion Fs as [|? ? Hm Fs']; subst.
      inversion St' as [|? ? St2 G2]; subst. inversion Fs' as [|? ? Hm2 Fs2]; subst.
      rewrite Forall_forall in *. split; [|intros b Hb]; apply Le; auto. apply G. left. auto.
    + inversion St as [|? ? St' G]; subst. inversion Fs as [|? ? Ha Fs']; subst.
      destruct (IH l1 St' Fs') as [B A]. split; auto. constructor; auto.
      rewrite Forall_forall in G, Fs'. apply Le; auto; [apply Fs'|apply G]; apply in_elt.
Qed.

(** ** Averages *)
From Verif Require Import L_FloatInt.
Lemma sum_small x zs : zs <> [] -> (total (map Z.abs zs) < 2 ^ 53)%Z ->
  f64_sum x (map f_of_Z zs) = f_of_Z (total zs).
Proof.
  intros NE H.
  assert (A : forall zs, (Z.abs (total zs) <= total (map Z.abs zs) /\ 0 <= total (map Z.abs zs))%Z).
  { clear. induction zs as [|z zs IH]; unfold total in *; cbn [fold_right map]; [lia|].
    lia. }
  assert (G : forall zs a, (Z.abs a + total (map Z.abs zs) < 2 ^ 53)%Z ->
    fold_left f_add (map f_of_Z zs) (f_of_Z a) = f_of_Z (a + total zs)).
  { clear -A. induction zs as [|z zs IH]; intros a H; cbn [map fold_left].
    - change (total []) with 0%Z. rewrite Z.add_0_r. reflexivity.
    - change (total (map Z.abs (z :: zs))) with (Z.abs z + total (map Z.abs zs))%Z in H.
      destruct (A zs) as [A1 A2].
      rewrite add_exact by (unfold small; lia). rewrite IH by lia. f_equal.
      change (total (z :: zs)) with (z + total zs)%Z. lia. }
  destruct zs as [|z zs]; [congruence|]. unfold f64_sum. cbn [map fold_left].
  change (total (map Z.abs (z :: zs))) with (Z.abs z + total (map Z.abs zs))%Z in H. destruct (A zs) as [A1 A2].
  replace (f_add _ (f_of_Z z)) with (f_of_Z z); [apply G; auto|].
  assert (Sz : small z) by (unfold small; lia). destruct (Z.eq_dec z 0) as [->|Nz].
  - destruct (sum_start_negative x); reflexivity.
  - destruct (f_of_Z_canon z Nz Sz) as (k & E & -> & _). destruct (sum_start_negative x); reflexivity.
Qed.
Lemma average_small x f es zs : column f es = map VInt zs -> zs <> [] -> (total (map Z.abs zs) < 2 ^ 53)%Z ->
  exec_average x (FReg f) es = Ok (RAverage (f_div (f_of_Z (total zs)) (f_of_Z (Z.of_nat (length zs))))).
Proof.
  intros C NE H. rewrite average_column; rewrite C.
  - rewrite map_map, map_length. change (map (fun a => number_of x (VInt a)) zs) with (map f_of_Z zs).
    rewrite (sum_small x zs NE H). reflexivity.
  - destruct zs; [congruence|discriminate].
  - clear. induction zs; auto.
Qed.
