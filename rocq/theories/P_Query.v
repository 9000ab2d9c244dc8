(** Properties C10-C15 and C18-C20: queries. [x : ext] stands for the library
    behaviour listed in M_Query and is arbitrary throughout; [ho] is any hash
    iteration order. *)
From Coq Require Import Lia.
From Verif Require Import S_Graph S_Query S_Date L_Str L_Ids L_Graph L_Sort L_Filter L_Order L_Order2 L_Related
  L_Agg L_Median L_Exec L_Num L_Date S_Round L_Round L_FloatSub P_Graph.
Close Scope Z_scope.

(** Library behaviour used in the examples: decimals convert when integral. *)
Definition ex_ext : ext := {|
  dec_of_f64 := fun f => if f_is_integral f then Some {| d_mant := f_trunc f; d_scale := 0 |} else None;
  dec_to_f64 := fun d => Some (f_of_Z (d_mant d / pow10 (d_scale d)));
  dec_add_round := fun _ _ => None;
  overflow_checks := false;
  sum_start_negative := false |}.
Definition ex_ho : hash_order := fun _ l => l.
Definition ex_ho_rev : hash_order := fun _ l => rev l.
Lemma ex_ho_ok : orders ex_ho.
Proof. intros site l. apply Permutation_refl. Qed.
Lemma ex_ho_rev_ok : orders ex_ho_rev.
Proof. intros site l. apply Permutation_sym, Permutation_rev. Qed.

Definition ex_item (id : str) (fs : list (field_id * value)) : entity :=
  {| e_id := L "item." ++ id; e_type := L "item"; e_fields := fs |}.
Definition ex_items : list entity :=
  [ex_item (L "a") [(L "n", VInt 3)]; ex_item (L "b") []; ex_item (L "c") [(L "n", VInt 1)];
   ex_item (L "d") [(L "n", VInt 3)]].
Definition ex_gt1 : condition := {| c_field := FReg (L "n"); c_op := OpGt; c_value := FInt 1 |}.
Definition ex_id : condition := {| c_field := FMeta MId; c_op := OpEndsWith; c_value := FStr (L "d") |}.

(** ** C10 *)
Theorem C10_where_keeps_exactly_the_matching : forall x cc es r,
  where_step x cc es = Ok r <-> Forall (evaluates x cc) es /\ keeps (satisfies x cc) es r.
Proof. exact where_ok. Qed.
Print Assumptions C10_where_keeps_exactly_the_matching.

Theorem C10_where_error_is_the_first_failure : forall x cc es er,
  where_step x cc es = Err er <->
  exists es1 e es2 cs1 c cs2,
    es = es1 ++ e :: es2 /\ Forall (evaluates x cc) es1 /\
    cc_conds cc = cs1 ++ c :: cs2 /\ (forall c', In c' cs1 -> exists b, matches x c' e = Ok b) /\
    matches x c e = Err er.
Proof. exact where_err. Qed.
Print Assumptions C10_where_error_is_the_first_failure.

Theorem C10_and_equals_two_wheres : forall x a b es r,
  where_step x {| cc_conds := a ++ b; cc_comb := CAnd |} es = Ok r ->
  exists r1, where_step x {| cc_conds := a; cc_comb := CAnd |} es = Ok r1 /\
             where_step x {| cc_conds := b; cc_comb := CAnd |} r1 = Ok r.
Proof. exact where_and_split. Qed.
Print Assumptions C10_and_equals_two_wheres.

Theorem C10_missing_field_never_matches : forall x f o w e, get_field e f = None ->
  matches x {| c_field := FReg f; c_op := o; c_value := w |} e = Ok false.
Proof. intros x f o w e H. unfold matches; cbn. rewrite H. reflexivity. Qed.
Print Assumptions C10_missing_field_never_matches.

(** The converse of [C10_and_equals_two_wheres] does not hold: the second
    condition may fail on an entity that the first would have removed. *)
Theorem C10_two_wheres_and_refuted : exists x a b es r1 r,
  where_step x {| cc_conds := a; cc_comb := CAnd |} es = Ok r1 /\
  where_step x {| cc_conds := b; cc_comb := CAnd |} r1 = Ok r /\
  (forall r', where_step x {| cc_conds := a ++ b; cc_comb := CAnd |} es <> Ok r').
Proof.
  exists ex_ext, [ex_gt1], [{| c_field := FReg (L "s"); c_op := OpEq; c_value := FInt 1 |}],
    [ex_item (L "a") [(L "n", VInt 0); (L "s", VStr (L "x"))]], [], [].
  repeat split. intros r'. vm_compute. discriminate.
Qed.
Print Assumptions C10_two_wheres_and_refuted.

Example C10_nontrivial :
  where_step ex_ext {| cc_conds := [ex_gt1; ex_id]; cc_comb := CAnd |} ex_items = Ok [nth 3 ex_items ex_john] /\
  where_step ex_ext {| cc_conds := [ex_gt1; ex_id]; cc_comb := COr |} ex_items
    = Ok [nth 0 ex_items ex_john; nth 3 ex_items ex_john].
Proof. vm_compute. auto. Qed.

(** ** C11 *)
Theorem C11_integers : forall x z z', ordered_by x (VInt z) (FInt z') (Z.compare z z').
Proof. exact ordered_int. Qed.
Print Assumptions C11_integers.

Theorem C11_integer_field_float_literal : forall x z f, f_is_nan f = false ->
  exists c, f_cmp (f_of_Z z) f = Some c /\ ordered_by x (VInt z) (FFloat f) c.
Proof.
  intros x z f H. assert (E : exists c, f_cmp (f_of_Z z) f = Some c).
  { pose proof (f_of_Z_not_nan z). destruct (f_of_Z z), f; try discriminate; cbn; eauto. }
  destruct E as (c & E). exists c. split; [exact E|exact (ordered_int_float x z f c E)].
Qed.
Print Assumptions C11_integer_field_float_literal.

Theorem C11_currencies_of_one_code : forall x a c f d, dec_of_f64 x f = Some d ->
  ordered_by x (VCur a c) (FCur f c) (dec_cmp a d).
Proof. exact ordered_currency. Qed.
Print Assumptions C11_currencies_of_one_code.

(** Dates: whenever == can be evaluated at all, the six operators agree. *)
Theorem C11_dates : forall x d s b, compare_value x (VDate d) OpEq (FDate s) = Ok b ->
  exists c, ordered_by x (VDate d) (FDate s) c.
Proof.
  intros x d s b H. cbn in H. destruct (parse_rfc3339 s) as [d'|] eqn:E1.
  - exists (dt_cmp d d'). exact (ordered_datetime x d s d' E1).
  - destruct (parse_naive_date s) as [day|] eqn:E2; [|discriminate].
    exists (Z.compare (dt_date d) day). exact (ordered_date x d s day E1 E2).
Qed.
Print Assumptions C11_dates.

(** Texts, booleans, references: == and != are complementary, and == means
    equality (of texts: ignoring case). *)
Theorem C11_texts : forall x v w a b,
  (v = VStr a \/ v = VEnum a \/ v = VPath a) -> (w = FStr b \/ w = FEnum b \/ w = FPath b) ->
  exists p, equality_by x v w p /\ (p = true <-> lower a = lower b).
Proof.
  intros x v w a b Hv Hw. exists (eq_ignore_case a b). split; [|exact (eq_ignore_case_spec a b)].
  destruct Hv as [->|[->| ->]], Hw as [->|[->| ->]]; split; reflexivity.
Qed.
Print Assumptions C11_texts.
Theorem C11_booleans : forall x a b, exists p, equality_by x (VBool a) (FBool b) p /\ (p = true <-> a = b).
Proof. intros x a b. exists (Bool.eqb a b). split; [split; reflexivity|exact (Bool.eqb_true_iff a b)]. Qed.
Print Assumptions C11_booleans.
Theorem C11_references : forall x r w s, (w = FRef s \/ w = FStr s) ->
  exists p, equality_by x (VRef r) w p /\ (p = true <-> lower (reference_text r) = lower s).
Proof.
  intros x r w s Hw. exists (eq_ignore_case (ref_display r) s). split; [|exact (eq_ignore_case_spec _ s)].
  destruct Hw as [->| ->]; split; reflexivity.
Qed.
Print Assumptions C11_references.

(** Two finite floats: the inequalities compare their values, and equality asks
    whether their values are less than [told_apart], about EPSILON, apart. *)
Lemma float_distance x a f : finite_double a -> finite_double f -> distance_by x (VFloat a) (FFloat f) (units a) (units f).
Proof.
  intros Ha Hf. destruct (float_consistent x a f (proj2 Ha) (proj2 Hf)) as (c & p & C & A1 & A2 & A3 & A4 & [A5 A6] & _).
  rewrite (compare_units a f Ha Hf) in C. injection C as <-.
  assert (P : p = Z.ltb (Z.abs (units a - units f)) told_apart).
  { rewrite <- (sub_units a f Ha Hf). cbn [compare_value compare_float float_eps_op or_unsupported] in A5. now injection A5. }
  unfold distance_by, equality_by. rewrite A1, A2, A3, A4, A5, A6, P. unfold Z.ltb, Z.leb. rewrite (Z.compare_antisym (units a) (units f)).
  destruct (Z.compare (units a) (units f)); repeat split.
Qed.
Theorem C11_finite_floats : forall x a f, finite_double a -> finite_double f ->
  distance_by x (VFloat a) (FFloat f) (units a) (units f).
Proof. exact float_distance. Qed.
Print Assumptions C11_finite_floats.
(** So the six operators agree on a float exactly when it has the value of the
    literal or is that far from it. *)
Theorem C11_floats_agree_iff : forall x a f, finite_double a -> finite_double f ->
  ordered_by x (VFloat a) (FFloat f) (Z.compare (units a) (units f)) <->
  units a = units f \/ (told_apart <= Z.abs (units a - units f))%Z.
Proof.
  intros x a f Ha Hf. destruct (float_distance x a f Ha Hf) as (A1 & A2 & A3 & A4 & A5 & A6). unfold ordered_by. rewrite A1, A2, A3, A4, A5, A6.
  pose proof (Z.ltb_spec (Z.abs (units a - units f)) told_apart) as T. set (t := Z.ltb (Z.abs (units a - units f)) told_apart) in *. clearbody t.
  unfold Z.ltb, Z.leb. rewrite (Z.compare_antisym (units a) (units f)). assert (P : (0 < told_apart)%Z) by reflexivity.
  set (d := told_apart) in *. clearbody d. clear A1 A2 A3 A4 A5 A6.
  destruct (Z.compare_spec (units a) (units f)) as [E|E|E]; cbn [CompOpp]; destruct T as [T|T]; cbn [negb]; split; intros H;
    try (destruct H as (H & _); discriminate H); try (exfalso; lia); try (right; lia); try (left; exact E); repeat split.
Qed.
Print Assumptions C11_floats_agree_iff.
(** Which is always so when the field or the literal is beyond 1 in magnitude. *)
Theorem C11_floats_beyond_one : forall x a f, finite_double a -> finite_double f ->
  (2 ^ 1074 < Z.abs (units a) \/ 2 ^ 1074 < Z.abs (units f))%Z ->
  ordered_by x (VFloat a) (FFloat f) (Z.compare (units a) (units f)).
Proof.
  intros x a f Ha Hf B. apply C11_floats_agree_iff; [exact Ha|exact Hf|]. destruct (Z.eq_dec (units a) (units f)) as [E|E]; [now left|right].
  destruct B as [B|B]; [now apply beyond_one|]. pose proof (beyond_one f a Hf Ha B (fun X => E (eq_sym X))). lia.
Qed.
Print Assumptions C11_floats_beyond_one.
(** A float field and an integer literal: the literal is rounded to 53 digits. *)
Theorem C11_float_field_integer_literal : forall x a z, finite_double a -> in_i64 z = true ->
  exists m, rounded z m /\ distance_by x (VFloat a) (FInt z) (units a) (m * 2 ^ 1074).
Proof.
  intros x a z Ha Hz. unfold in_i64, i64_min, i64_max in Hz. apply andb_true_iff in Hz. destruct Hz as [Z1 Z2]. apply Z.leb_le in Z1, Z2.
  destruct (integer_units z) as (m & M & F & U); [change (2 ^ 64)%Z with 18446744073709551616%Z; lia|]. exists m. split; [exact M|]. rewrite <- U. exact (float_distance x a (f_of_Z z) Ha F).
Qed.
Print Assumptions C11_float_field_integer_literal.
(** An integer field and a float literal: the field is rounded, and then the
    operators agree. *)
Theorem C11_integer_field_is_rounded : forall x z f, finite_double f -> in_i64 z = true ->
  exists m, rounded z m /\ ordered_by x (VInt z) (FFloat f) (Z.compare (m * 2 ^ 1074)%Z (units f)).
Proof.
  intros x z f Hf Hz. unfold in_i64, i64_min, i64_max in Hz. apply andb_true_iff in Hz. destruct Hz as [Z1 Z2]. apply Z.leb_le in Z1, Z2.
  destruct (integer_units z) as (m & M & F & U); [change (2 ^ 64)%Z with 18446744073709551616%Z; lia|]. exists m. split; [exact M|]. rewrite <- U.
  exact (ordered_int_float x z f _ (compare_units _ _ F Hf)).
Qed.
Print Assumptions C11_integer_field_is_rounded.
Example C11_float_case : finite_double (S754_finite false 9007199254740991 (-53)) /\ finite_double (f_of_Z (-3)) /\
  units (f_of_Z (-3)) = (-3 * 2 ^ 1074)%Z /\ in_i64 9007199254740993 = true /\ rounded 9007199254740993 9007199254740992 /\
  compare_value ex_ext (VInt 9007199254740993) OpEq (FFloat (f_of_Z 9007199254740992)) = Ok true /\
  compare_value ex_ext (VFloat (f_of_Z (-3))) OpEq (FInt (-3)) = Ok true.
Proof.
  split; [split; reflexivity|]. split; [split; reflexivity|]. split; [reflexivity|]. split; [reflexivity|]. split.
  - exists 1%Z, 4503599627370496%Z. split; [right; split; [lia|split; [discriminate|reflexivity]]|].
    split; [reflexivity|]. split; [discriminate|]. intros _. reflexivity.
  - split; reflexivity.
Qed.

(** Finding: 1.0 and 1.0 + 2^-53-ish neighbours are both "equal" and "less". *)
Theorem C11_floats_refuted : exists x a f, f_is_finite a = true /\ f_is_finite f = true /\
  compare_value x (VFloat a) OpEq (FFloat f) = Ok true /\ compare_value x (VFloat a) OpLt (FFloat f) = Ok true.
Proof.
  exists ex_ext, (S754_finite false 9007199254740991 (-53)), (f_of_Z 1). vm_compute. auto.
Qed.
Print Assumptions C11_floats_refuted.
(** Finding: an infinite field is neither equal to nor different from itself. *)
Theorem C11_infinity_refuted : exists x a,
  compare_value x (VFloat a) OpEq (FFloat a) = Ok false /\ compare_value x (VFloat a) OpNe (FFloat a) = Ok false.
Proof. exists ex_ext, (S754_infinity false). vm_compute. auto. Qed.
Print Assumptions C11_infinity_refuted.
(** Finding: amounts in different currencies are neither equal nor different. *)
Theorem C11_currency_codes_refuted : exists x a f,
  compare_value x (VCur a (L "EUR")) OpEq (FCur f (L "USD")) = Ok false /\
  compare_value x (VCur a (L "EUR")) OpNe (FCur f (L "USD")) = Ok false.
Proof. exists ex_ext, dec_zero, f_zero. vm_compute. auto. Qed.
Print Assumptions C11_currency_codes_refuted.

Example C11_nontrivial :
  compare_value ex_ext (VCur {| d_mant := 250; d_scale := 2 |} (L "EUR")) OpGt (FCur (f_of_Z 2) (L "EUR")) = Ok true /\
  compare_value ex_ext (VDate {| dt_local := 86399; dt_nanos := 0; dt_off := 3600 |}) OpEq (FDate (L "1970-01-01")) = Ok true.
Proof. vm_compute. auto. Qed.

(** ** C12 *)
Theorem C12_limit_is_a_prefix : forall x g ho n k es,
  exists r rest, exec_op x g ho n (QLimit k) es = Ok r /\ es = r ++ rest /\
  length r = Nat.min k (length es).
Proof.
  intros. exists (firstn k es), (skipn k es). split; [reflexivity|].
  split; [symmetry; exact (firstn_skipn k es)|exact (firstn_length k es)].
Qed.
Print Assumptions C12_limit_is_a_prefix.

Theorem C12_limits_compose_as_minimum : forall x g ho n k m es,
  exec_ops x g ho n [QLimit k; QLimit m] es = exec_ops x g ho n [QLimit (Nat.min k m)] es.
Proof.
  intros. cbn. f_equal. rewrite (firstn_firstn es m k). f_equal. lia.
Qed.
Print Assumptions C12_limits_compose_as_minimum.

Theorem C12_no_new_entities : forall x g ho ops, no_related ops -> forall n es r,
  exec_ops x g ho n ops es = Ok r -> incl r es.
Proof. exact exec_ops_incl. Qed.
Print Assumptions C12_no_new_entities.

Example C12_nontrivial : exec_ops ex_ext graph_new ex_ho 0
    [QWhere {| cc_conds := [ex_gt1]; cc_comb := CAnd |}; QLimit 2; QLimit 1] ex_items = Ok [nth 0 ex_items ex_john].
Proof. vm_compute. reflexivity. Qed.

(** ** C13 *)
(** Ordering by a field whose texts are of one type and whose numbers are of
    one type: the result is a stable sort of the input and the only one. *)
Theorem C13_order_is_the_stable_sort : forall m f d es, Forall (conforming m f) es ->
  stable_sort_of (compare_entities (FReg f) d) es (order_step (FReg f) d es) /\
  (forall r, stable_sort_of (compare_entities (FReg f) d) es r -> r = order_step (FReg f) d es) /\
  total_preorder_on (compare_entities (FReg f) d) (conforming m f).
Proof.
  intros m f d es F. pose proof (order_preorder m f d) as P. split; [exact (sort_stable _ _ P es F)|].
  split; [|exact P]. intros r S. exact (stable_sort_unique _ _ P es r _ F S (sort_stable _ _ P es F)).
Qed.
Print Assumptions C13_order_is_the_stable_sort.

(** What "sorted" means, in terms of the values. *)
Theorem C13_ordered_by_value_missing_last : forall m f d es, Forall (conforming m f) es ->
  Permutation es (order_step (FReg f) d es) /\
  StronglySorted (in_direction d (ascending f)) (order_step (FReg f) d es).
Proof.
  intros m f d es F. destruct (sort_stable _ _ (order_preorder m f d) es F) as (P & S & _). split; [exact P|].
  exact (sorted_weaken _ _ _ _ (Permutation_Forall P F) (fun a b Ca Cb => direction_spec f d m a b Ca Cb) S).
Qed.
Print Assumptions C13_ordered_by_value_missing_last.

Theorem C13_order_by_metadata : forall mf d es,
  stable_sort_of (compare_entities (FMeta mf) d) es (order_step (FMeta mf) d es) /\
  StronglySorted (in_direction d (meta_ascending mf)) (order_step (FMeta mf) d es).
Proof.
  intros mf d es. assert (F : Forall (fun _ : entity => True) es) by (apply Forall_forall; auto).
  pose proof (sort_stable _ _ (order_meta_preorder mf d) es F) as S. split; [exact S|].
  destruct S as (P & S & _).
  exact (sorted_weaken _ _ _ _ (Permutation_Forall P F) (fun a b _ _ => meta_direction_spec mf d a b) S).
Qed.
Print Assumptions C13_order_by_metadata.

(** A column mixing floats with integers below 2^53: again the unique stable
    sort, ordered by numeric value with NaN last. *)
Theorem C13_integers_and_floats_together : forall f d es, Forall (all_small_numbers f) es ->
  stable_sort_of (compare_entities (FReg f) d) es (order_step (FReg f) d es) /\
  (forall r, stable_sort_of (compare_entities (FReg f) d) es r -> r = order_step (FReg f) d es) /\
  StronglySorted (in_direction d (ascending_numbers f)) (order_step (FReg f) d es).
Proof.
  intros f d es F. pose proof (numbers_preorder f d) as P. pose proof (sort_stable _ _ P es F) as S.
  split; [exact S|]. split.
  - intros r S'. exact (stable_sort_unique _ _ P es r _ F S' S).
  - destruct S as (Pm & S & _). exact (sorted_weaken _ _ _ _ (Permutation_Forall Pm F) (fun a b A B => numbers_direction f d a b A B) S).
Qed.
Print Assumptions C13_integers_and_floats_together.

(** Finding: on a column mixing texts, enums and paths, or integers and
    floats, the comparison is not a total preorder. *)
Theorem C13_mixed_texts_refuted : exists a b c : value,
  cmp_values a b = Eq /\ cmp_values b c = Eq /\ cmp_values a c = Gt.
Proof. exists (VStr (L "b")), (VEnum (L "x")), (VStr (L "a")). vm_compute. auto. Qed.
Print Assumptions C13_mixed_texts_refuted.
Theorem C13_mixed_numbers_refuted : exists a b c : value,
  cmp_values a b = Eq /\ cmp_values b c = Eq /\ cmp_values a c = Gt.
Proof.
  exists (VInt 9007199254740993), (VFloat (f_of_Z 9007199254740992)), (VInt 9007199254740992). vm_compute. auto.
Qed.
Print Assumptions C13_mixed_numbers_refuted.

Example C13_nontrivial :
  Forall (conforming {| ct_text := TStr; ct_num := TInt |} (L "n")) ex_items /\
  map e_id (order_step (FReg (L "n")) Ascending ex_items) = [L "item.c"; L "item.a"; L "item.d"; L "item.b"] /\
  map e_id (order_step (FReg (L "n")) Descending ex_items) = [L "item.b"; L "item.a"; L "item.d"; L "item.c"].
Proof. split; [repeat constructor|vm_compute; auto]. Qed.

(** Paths and lists. *)
Example C13_paths_and_lists :
  let es := map (fun p => with_field (entity_new (fst p) (L "t")) (L "p") (snd p)) in
  map e_id (order_step (FReg (L "p")) Ascending (es [(L "a", VPath (L "a.b")); (L "b", VPath (L "a/./b")); (L "c", VPath (L "a//a")); (L "d", VPath (L "/z"));
    (L "e", VPath (L "../a")); (L "f", VPath (L "./z"))])) = [L "d"; L "f"; L "e"; L "c"; L "b"; L "a"] /\
  map e_id (order_step (FReg (L "p")) Ascending (es [(L "a", VList [VInt 2]); (L "b", VList [VInt 1; VInt 9]); (L "c", VList []); (L "d", VList [VInt 1])])) =
    [L "c"; L "d"; L "b"; L "a"].
Proof. split; vm_compute; reflexivity. Qed.
Example C13_numbers_nontrivial :
  let es := map (fun p => with_field (entity_new (fst p) (L "t")) (L "n") (snd p))
    [(L "a", VFloat S754_nan); (L "b", VInt 2); (L "c", VFloat (f_of_ratio false 3 2)); (L "d", VInt (-1))] in
  Forall (all_small_numbers (L "n")) es /\
  map e_id (order_step (FReg (L "n")) Ascending es) = [L "d"; L "c"; L "b"; L "a"].
Proof. split; [repeat constructor|vm_compute; reflexivity]. Qed.

(** ** C14 *)
Definition hop_in (es : list entity) (a b : entity) : Prop := In b es /\ neighbour None a b.

Theorem C14_related_is_bounded_reachability : forall x ops ho n d t start,
  orders ho -> 1 <= d -> incl start (spec_run ops) ->
  exists r, exec_op x (build (run ops)) ho n (QRelated d t) start = Ok r /\
  NoDup (map e_id r) /\
  forall b, In b r <->
    (match t with Some ty => e_type b = ty | None => True end) /\ In b (spec_run ops) /\
    exists a, In a start /\ within (hop_in (spec_run ops)) (Nat.min d 5) a b.
Proof.
  intros x ops ho n d t start O D I. eexists. split; [reflexivity|]. split.
  - exact (related_nodup _ _ (built_run ops) ho O [S n] d t start D).
  - intros b. exact (related_in _ _ (built_run ops) ho O [S n] d t start b D I).
Qed.
Print Assumptions C14_related_is_bounded_reachability.

Theorem C14_independent_of_hash_order : forall x ops ho ho' n n' d t start start' r r',
  orders ho -> orders ho' -> incl start (spec_run ops) -> NoDup (map e_id start) -> Permutation start start' ->
  exec_op x (build (run ops)) ho n (QRelated d t) start = Ok r ->
  exec_op x (build (run ops)) ho' n' (QRelated d t) start' = Ok r' -> Permutation r r'.
Proof.
  intros x ops ho ho' n n' d t start start' r r' O O' I N P [= <-] [= <-].
  apply (related_agree (build (run ops)) (spec_run ops) (built_run ops)); auto.
  - split; auto.
  - split; [intros e He; apply I; eapply Permutation_in; [symmetry; exact P|exact He]|].
    exact (Permutation_NoDup (Permutation_map e_id P) N).
Qed.
Print Assumptions C14_independent_of_hash_order.

Theorem C14_more_degrees_never_lose_entities : forall x ops ho ho' n n' d d' t start r r',
  orders ho -> orders ho' -> 1 <= d -> d <= d' -> incl start (spec_run ops) ->
  exec_op x (build (run ops)) ho n (QRelated d t) start = Ok r ->
  exec_op x (build (run ops)) ho' n' (QRelated d' t) start = Ok r' -> incl r r'.
Proof.
  intros x ops ho ho' n n' d d' t start r r' O O' D Le I [= <-] [= <-] b Hb.
  apply (related_in _ _ (built_run ops)) in Hb as (H1 & H2 & a & Ha & W); auto.
  apply (related_in _ _ (built_run ops)); auto; [lia|]. repeat split; auto. exists a. split; auto.
  exact (within_mono _ _ _ _ _ (Nat.min_le_compat_r d d' 5 Le) W).
Qed.
Print Assumptions C14_more_degrees_never_lose_entities.

(** Finding: the fifth hop is the last one; the doc comment of the function
    promises three. related(0) keeps the input, whatever type is asked for. *)
Theorem C14_degree_zero_ignores_type : forall x g ho n t start,
  exec_op x g ho n (QRelated 0 t) start = Ok start.
Proof. reflexivity. Qed.
Print Assumptions C14_degree_zero_ignores_type.

(** A chain of seven entities: six hops are not reached. *)
Definition ex_chain_entity (k : nat) : entity :=
  {| e_id := L "n." ++ show_N (N.of_nat k); e_type := L "n";
     e_fields := [(L "next", VRef (REntity (L "n." ++ show_N (N.of_nat (S k)))))] |}.
Definition ex_chain : list entity := map ex_chain_entity (seq 0 7).
Example C14_nontrivial :
  spec_run [OAddMany ex_chain] = ex_chain /\
  map (fun d => match exec_op ex_ext (build (run [OAddMany ex_chain])) ex_ho 0 (QRelated d None) [ex_chain_entity 0] with
                | Ok r => length r | Err _ => 0 end) [0; 1; 2; 5; 6; 7] = [1; 2; 3; 6; 6; 6].
Proof. vm_compute. auto. Qed.

(** ** C15 *)
(** An aggregation sees exactly the entities the query without it returns. *)
Theorem C15_aggregation_sees_the_result_set : forall x g ho s ops a,
  execute x g ho {| q_from := s; q_ops := ops; q_agg := Some a |} =
  match execute x g ho {| q_from := s; q_ops := ops; q_agg := None |} with
  | Ok (QEntities es) => match exec_agg x a es with Ok r => Ok (QAgg r) | Err e => Err e end
  | other => other
  end.
Proof.
  intros. unfold execute; cbn. destruct (select_from g ho s); cbn; auto. destruct (exec_ops x g ho 0 ops _); reflexivity.
Qed.
Print Assumptions C15_aggregation_sees_the_result_set.

Theorem C15_count : forall x es f,
  exec_agg x (ACount None) es = Ok (RCount (length es)) /\
  exec_agg x (ACount (Some (FReg f))) es = Ok (RCount (length (column f es))) /\
  forall m, exec_agg x (ACount (Some (FMeta m))) es = Ok (RCount (length es)).
Proof. intros x es f. repeat split. unfold exec_agg, exec_count. rewrite count_field. reflexivity. Qed.
Print Assumptions C15_count.

Theorem C15_select : forall x fs es, exists cols rows,
  exec_agg x (ASelect fs) es = Ok (RSelect cols rows) /\
  length cols = length fs /\ length rows = length es /\
  (forall i e, nth_error es i = Some e -> exists row, nth_error rows i = Some row /\ length row = length fs /\
     forall j f, nth_error fs j = Some f ->
       nth_error row j = Some (match f with
                               | FMeta MId => Some (VStr (e_id e))
                               | FMeta MType => Some (VStr (e_type e))
                               | FReg f => get_field e f
                               end)) /\
  (forall j f, nth_error fs j = Some f ->
     nth_error cols j = Some (match f with FMeta MId => L "@id" | FMeta MType => L "@type" | FReg f => f end)).
Proof.
  intros x fs es. eexists. eexists. split; [reflexivity|].
  rewrite !map_length. repeat split; auto.
  - intros i e He. exists (map (cell e) fs). rewrite nth_error_map, He. cbn. rewrite map_length. repeat split; auto.
    intros j f Hf. rewrite nth_error_map, Hf. destruct f as [[]|f]; reflexivity.
  - intros j f Hf. rewrite nth_error_map, Hf. reflexivity.
Qed.
Print Assumptions C15_select.

Example C15_nontrivial :
  exec_agg ex_ext (ACount (Some (FReg (L "n")))) ex_items = Ok (RCount 3) /\
  exec_agg ex_ext (ASelect [FMeta MId; FReg (L "n")]) (firstn 2 ex_items) =
    Ok (RSelect [L "@id"; L "n"] [[Some (VStr (L "item.a")); Some (VInt 3)]; [Some (VStr (L "item.b")); None]]).
Proof. vm_compute. auto. Qed.

(** ** C18 *)
Theorem C18_from_selects_exactly : forall ops ho, orders ho ->
  (exists r, select_from (build (run ops)) ho SAll = Ok r /\ Permutation r (spec_run ops)) /\
  (forall t, (exists e, In e (spec_run ops) /\ e_type e = t) ->
     select_from (build (run ops)) ho (SType t) = Ok (filter (fun e => str_eqb (e_type e) t) (spec_run ops))) /\
  (forall t, ~ (exists e, In e (spec_run ops) /\ e_type e = t) ->
     exists l, select_from (build (run ops)) ho (SType t) = Err (UnknownEntityType t l)).
Proof.
  intros ops ho O. split; [|split].
  - eexists. split; [reflexivity|]. exact (select_all _ _ (built_run ops) ho _ O eq_refl).
  - intros t (e & He & Et). rewrite (select_type _ _ (built_run ops)).
    assert (X : existsb (fun e => str_eqb (e_type e) t) (spec_run ops) = true).
    { apply existsb_exists. exists e. split; auto. apply str_eqb_eq; auto. }
    rewrite X. reflexivity.
  - intros t N. rewrite (select_type _ _ (built_run ops)).
    destruct (existsb (fun e => str_eqb (e_type e) t) (spec_run ops)) eqn:X; [|eauto].
    exfalso. apply N. apply existsb_exists in X as (e & He & Et). exists e. apply str_eqb_eq in Et. auto.
Qed.
Print Assumptions C18_from_selects_exactly.

Theorem C18_same_entities_up_to_order : forall x ops ho ho' s qs,
  orders ho -> orders ho' -> no_limit qs ->
  same_entities (execute x (build (run ops)) ho {| q_from := s; q_ops := qs; q_agg := None |})
                (execute x (build (run ops)) ho' {| q_from := s; q_ops := qs; q_agg := None |}).
Proof. intros x ops ho ho' s qs O O' NL. exact (execute_agree x _ _ (built_run ops) ho ho' s qs O O' NL). Qed.
Print Assumptions C18_same_entities_up_to_order.

(** Ordering by @id before any limit, and no traversal after it. The ids of a
    workspace are composed from type and identifier. *)
Theorem C18_order_by_id_is_deterministic : forall x ops ho ho' s pre d post,
  orders ho -> orders ho' -> no_limit pre -> no_related post ->
  (forall e, In e (spec_run ops) -> exists t i, e_id e = compose_entity_id t i) ->
  let q := {| q_from := s; q_ops := pre ++ QOrder (FMeta MId) d :: post; q_agg := None |} in
  same_list (execute x (build (run ops)) ho q) (execute x (build (run ops)) ho' q).
Proof.
  intros x ops ho ho' s pre d post O O' NL NR Ids.
  apply (execute_same x _ _ (built_run ops) ho ho' s pre d post O O' NL NR).
  intros e He. destruct (Ids e He) as (t & i & ->). exact (compose_lower t i).
Qed.
Print Assumptions C18_order_by_id_is_deterministic.

Theorem C18_results_are_known_entities_once : forall x ops ho s qs r, orders ho ->
  execute x (build (run ops)) ho {| q_from := s; q_ops := qs; q_agg := None |} = Ok (QEntities r) ->
  incl r (spec_run ops) /\ NoDup (map e_id r).
Proof. intros x ops ho s qs r O H. exact (execute_good x _ _ (built_run ops) ho s qs r O H). Qed.
Print Assumptions C18_results_are_known_entities_once.

(** Finding: a limit on an unordered result depends on the hash seed. *)
Theorem C18_unordered_limit_refuted : exists x ops ho ho' q, orders ho /\ orders ho' /\
  q = {| q_from := SAll; q_ops := [QLimit 1]; q_agg := None |} /\
  ~ same_entities (execute x (build (run ops)) ho q) (execute x (build (run ops)) ho' q).
Proof.
  exists ex_ext, ex_ops, ex_ho, ex_ho_rev. eexists. split; [exact ex_ho_ok|]. split; [exact ex_ho_rev_ok|].
  split; [reflexivity|]. vm_compute. intros P. apply Permutation_length_1 in P. discriminate.
Qed.
Print Assumptions C18_unordered_limit_refuted.
(** Finding: ordering by @id before a traversal does not help. *)
Theorem C18_related_after_order_refuted : exists x ops ho ho' q, orders ho /\ orders ho' /\
  q = {| q_from := SAll; q_ops := [QOrder (FMeta MId) Ascending; QRelated 1 None]; q_agg := None |} /\
  ~ same_list (execute x (build (run ops)) ho q) (execute x (build (run ops)) ho' q).
Proof.
  exists ex_ext, ex_ops, ex_ho, ex_ho_rev. eexists. split; [exact ex_ho_ok|]. split; [exact ex_ho_rev_ok|].
  split; [reflexivity|]. vm_compute. discriminate.
Qed.
Print Assumptions C18_related_after_order_refuted.

Example C18_nontrivial :
  let q := {| q_from := SAll; q_ops := [QRelated 1 None; QOrder (FMeta MId) Ascending; QLimit 1]; q_agg := None |} in
  execute ex_ext (build (run ex_ops)) ex_ho q = Ok (QEntities [ex_acme]) /\
  execute ex_ext (build (run ex_ops)) ex_ho_rev q = Ok (QEntities [ex_acme]).
Proof. vm_compute. auto. Qed.

(** ** C19 *)
Theorem C19_single_values_err_exactly_off_the_table : forall x v o w, get_type v <> TList ->
  (forall a c f c', v = VCur a c -> w = FCur f c' -> c = c' /\ dec_of_f64 x f <> None) ->
  (forall s, w = FDate s -> parse_rfc3339 s <> None \/ parse_naive_date s <> None) ->
  ((exists b, compare_value x v o w = Ok b) <-> documented v o w = true).
Proof.
  intros x v o w NL NC ND. apply documented_iff; auto.
  - intros c a f Hv Hw. exact (proj2 (NC _ _ _ _ Hv Hw)).
  - intros a c f c' Hv Hw. exact (proj1 (NC _ _ _ _ Hv Hw)).
Qed.
Print Assumptions C19_single_values_err_exactly_off_the_table.

Theorem C19_list_operators : forall x items o w, o <> OpContains -> o <> OpEq ->
  compare_value x (VList items) o w = Err (UnsupportedOperator TList o).
Proof. intros x items o w N1 N2. destruct o; try reflexivity; congruence. Qed.
Print Assumptions C19_list_operators.

(** Every operator other than [in] selects something. *)
Theorem C19_operators_usable : forall x o, o <> OpIn -> exists v w, compare_value x v o w = Ok true.
Proof.
  intros x o N. destruct o; try congruence.
  - exists (VInt 1), (FInt 1); reflexivity.
  - exists (VInt 1), (FInt 2); reflexivity.
  - exists (VInt 2), (FInt 1); reflexivity.
  - exists (VInt 1), (FInt 2); reflexivity.
  - exists (VInt 2), (FInt 1); reflexivity.
  - exists (VInt 1), (FInt 2); reflexivity.
  - exists (VStr (L "abc")), (FStr (L "B")); reflexivity.
  - exists (VStr (L "abc")), (FStr (L "A")); reflexivity.
  - exists (VStr (L "abc")), (FStr (L "C")); reflexivity.
Qed.
Print Assumptions C19_operators_usable.

(** Finding: [in] never selects anything. *)
Theorem C19_in_never_matches_refuted : forall x v w, compare_value x v OpIn w <> Ok true.
Proof. exact in_never_matches. Qed.
Print Assumptions C19_in_never_matches_refuted.

(** ** C20 *)
Theorem C20_date_literals_compare_calendar_dates : forall x t y m d,
  (y < 10000)%N -> valid_civil (Z.of_N y) (Z.of_N m) (Z.of_N d) = true ->
  ordered_by x (VDate t) (FDate (date_text y m d))
    (civil_cmp (civil_of_days (dt_local t / 86400)) (Z.of_N y, Z.of_N m, Z.of_N d)).
Proof.
  intros x t y m d Hy V. rewrite <- (civil_of_days_of_civil _ _ _ V), civil_cmp_days.
  exact (ordered_date x t _ _ (rfc_date_text y m d Hy V) (parse_date_text y m d Hy V)).
Qed.
Print Assumptions C20_date_literals_compare_calendar_dates.

(** The calendar used above is the Gregorian one: day numbers correspond one
    to one, in order, with valid (year, month, day) triples; day 0 is
    1970-01-01. *)
Theorem C20_calendar : civil_of_days 0 = (1970, 1, 1)%Z /\
  (forall z, let '(y, m, d) := civil_of_days z in valid_civil y m d = true /\ days_of_civil y m d = z) /\
  (forall y m d, valid_civil y m d = true -> civil_of_days (days_of_civil y m d) = (y, m, d)) /\
  (forall z z', civil_cmp (civil_of_days z) (civil_of_days z') = Z.compare z z').
Proof.
  split; [reflexivity|]. split.
  - intros z. pose proof (days_of_civil_of_days z) as H. destruct (civil_of_days z) as [[y m] d]. tauto.
  - split; [exact civil_of_days_of_civil|exact civil_cmp_days].
Qed.
Print Assumptions C20_calendar.

(** RFC 3339 literals (the API accepts them; the query grammar has no way to
    write one) compare instants. *)
Theorem C20_rfc3339_literals_compare_instants : forall x t y m d h mi s oh om neg,
  (y < 10000)%N -> valid_civil (Z.of_N y) (Z.of_N m) (Z.of_N d) = true ->
  (h < 24)%N -> (mi < 60)%N -> (s < 60)%N -> (oh < 24)%N -> (om < 60)%N ->
  let off := ((if neg : bool then -1 else 1) * (Z.of_N oh * 3600 + Z.of_N om * 60))%Z in
  let local := (days_of_civil (Z.of_N y) (Z.of_N m) (Z.of_N d) * 86400 + Z.of_N h * 3600 + Z.of_N mi * 60 + Z.of_N s)%Z in
  ordered_by x (VDate t)
    (FDate (date_text y m d ++ "T"%char :: time_text h mi s ++ (if neg then "-"%char else "+"%char) :: padded 2 oh ++ ":"%char :: padded 2 om))
    (dt_cmp t {| dt_local := local; dt_nanos := 0; dt_off := off |}).
Proof.
  intros x t y m d h mi s oh om neg Hy V Hh Hmi Hs Hoh Hom off local.
  exact (ordered_datetime x t _ _ (parse_rfc_text y m d h mi s oh om neg Hy V Hh Hmi Hs Hoh Hom)).
Qed.
Print Assumptions C20_rfc3339_literals_compare_instants.

(** Finding: a literal with a time part, as the query grammar writes it
    (YYYY-MM-DD at HH:MM, with or without a time zone), is always rejected. *)
Theorem C20_time_literals_refuted : forall x t o date rest, length date = 10 ->
  compare_value x (VDate t) o (FDate (date ++ L " at " ++ rest)) =
  Err (InvalidDateFormat (date ++ L " at " ++ rest)).
Proof.
  intros x t o date rest H. destruct (at_literal_unreadable date rest H) as [E1 E2].
  unfold compare_value, compare_datetime. rewrite E1, E2. reflexivity.
Qed.
Print Assumptions C20_time_literals_refuted.

Example C20_nontrivial :
  date_text 2024 2 29 = L "2024-02-29" /\ valid_civil 2024 2 29 = true /\ valid_civil 2023 2 29 = false /\
  compare_value ex_ext (VDate {| dt_local := 1709164800 + 86399; dt_nanos := 0; dt_off := -36000 |}) OpEq
    (FDate (date_text 2024 2 29)) = Ok true /\
  parse_rfc3339 (L "2024-02-29T12:30:00-05:30") =
    Some {| dt_local := 1709209800; dt_nanos := 0; dt_off := -19800 |}.
Proof. vm_compute. repeat split. Qed.

(** ** C45 *)
(** Texts: where the literal occurs in the field, ignoring letter case. *)
Theorem C45_text_search : forall x v w a b,
  (v = VStr a \/ v = VEnum a \/ v = VPath a) -> (w = FStr b \/ w = FEnum b \/ w = FPath b) ->
  (exists p, compare_value x v OpContains w = Ok p /\ (p = true <-> exists l r, lower a = l ++ lower b ++ r)) /\
  (exists p, compare_value x v OpStartsWith w = Ok p /\ (p = true <-> exists r, lower a = lower b ++ r)) /\
  (exists p, compare_value x v OpEndsWith w = Ok p /\ (p = true <-> exists l, lower a = l ++ lower b)).
Proof.
  intros x v w a b Hv Hw. split; [|split];
    [exists (contains (lower a) (lower b))|exists (starts_with (lower a) (lower b))|exists (ends_with (lower a) (lower b))];
    (split; [destruct Hv as [->|[->| ->]], Hw as [->|[->| ->]]; reflexivity|]);
    [exact (contains_spec _ _)|exact (starts_with_spec _ _)|exact (ends_with_spec _ _)].
Qed.
Print Assumptions C45_text_search.

(** What a list item must satisfy: a text item contains a text literal, any
    other item equals the literal. *)
Definition item_matches (x : ext) (i : value) (w : fvalue) : Prop :=
  match i, w with
  | VStr _, FStr _ => compare_value x i OpContains w = Ok true
  | _, _ => compare_value x i OpEq w = Ok true
  end.
Definition comparable_item (x : ext) (w : fvalue) (i : value) : Prop :=
  get_type i <> TList /\ exists b, compare_value x i OpEq w = Ok b.

Theorem C45_list_contains : forall x items w, Forall (comparable_item x w) items ->
  exists p, compare_value x (VList items) OpContains w = Ok p /\
  (p = true <-> exists i, In i items /\ item_matches x i w).
Proof. exact list_contains_spec. Qed.
Print Assumptions C45_list_contains.

Theorem C45_list_equality : forall x items ws,
  (forall i w, In i items -> In w ws -> comparable_item x w i) ->
  exists p, compare_value x (VList items) OpEq (FList ws) = Ok p /\
  (p = true <-> Forall2 (fun i w => compare_value x i OpEq w = Ok true) items ws).
Proof. exact list_equality_spec. Qed.
Print Assumptions C45_list_equality.

(** Finding: with items of several types the order of the items decides
    between a match and an error. *)
Theorem C45_item_order_refuted : exists x i j w,
  compare_value x (VList [i; j]) OpContains w = Ok true /\ exists e, compare_value x (VList [j; i]) OpContains w = Err e.
Proof. exists ex_ext, (VInt 1), (VBool true), (FInt 1). split; [reflexivity|eexists; reflexivity]. Qed.
Print Assumptions C45_item_order_refuted.

(** Finding: a list holding a list does not equal the same list written out. *)
Theorem C45_nested_lists_refuted : exists x, compare_value x (VList [VList [VInt 1]]) OpEq (FList [FList [FInt 1]]) = Ok false.
Proof. exists ex_ext. reflexivity. Qed.
Print Assumptions C45_nested_lists_refuted.

Example C45_nontrivial :
  Forall (comparable_item ex_ext (FStr (L "LD"))) [VStr (L "hello"); VStr (L "world"); VEnum (L "x")] /\
  compare_value ex_ext (VList [VStr (L "hello"); VStr (L "world"); VEnum (L "x")]) OpContains (FStr (L "LD")) = Ok true /\
  compare_value ex_ext (VList [VEnum (L "world")]) OpContains (FStr (L "LD")) = Ok false /\
  compare_value ex_ext (VList [VInt 1; VInt 2]) OpEq (FList [FInt 1; FInt 2]) = Ok true.
Proof. split; [repeat constructor; try discriminate; eexists; reflexivity|vm_compute; auto]. Qed.
