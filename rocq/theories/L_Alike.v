(** How queries read the literals of source files. *)
From Coq Require Import Lia ZArith.
From Verif Require Import M_Query M_QParse S_Query S_QText S_Round S_Amount L_Str L_Num L_QParse L_Round L_FloatSub L_Nearest S_Nearest L_Amount L_Amount2 L_Filter.
From Verif Require Import M_Graph M_Text M_Dsl L_DslVal S_Whole L_Whole S_Syntax S_Literal L_Literal S_Alike.
Close Scope Z_scope.

(** ** Reading *)
Definition reads (f t : str) (w : fvalue) : Prop :=
  condition_read (asking f t) {| c_field := FReg (new_id f); c_op := OpEq; c_value := w |}.
(** Any value, laid out at the end of the query. *)
Lemma asked_lay f ts t : identifier f -> ts <> [] -> lay ts (L " " ++ t) -> lay (L "from" :: L "*" :: L "|" :: L "where" :: f :: L "==" :: ts) (asking f t).
Proof.
  intros I N H. unfold asking.
  assert (NT : forall a b, identifier a \/ In a [L "*"; L "|"; L "=="] -> no_zone_after a b).
  { intros a b X T. exfalso. pose proof (time_form_blank a T) as (_ & c & r & E & D). destruct X as [X|X].
    - exact (identifier_not_time a X T).
    - cbn in X. destruct X as [<-|[<-|[<-|[]]]]; injection E as <- _; discriminate. }
  assert (AB : forall a b, apart a (" "%char :: b)) by (intros a b t' c d r _ E _ [X|X]; injection E as <- _; discriminate).
  assert (B1 : S_QText.blank (L " ")) by (constructor; [now left|constructor]).
  change (lay (L "from" :: L "*" :: L "|" :: L "where" :: f :: L "==" :: ts) ([] ++ L "from" ++ (L " " ++ L "*" ++ (L " " ++ L "|" ++ (L " " ++ L "where" ++ (L " " ++ f ++ (L " " ++ L "==" ++ (L " " ++ t)))))))).
  assert (W : identifier (L "from") /\ identifier (L "where")).
  { split; eexists _, _; (split; [reflexivity|]; split; [left; reflexivity|]; repeat constructor). }
  destruct W as [W1 W2].
  apply lay_token; [constructor|apply AB|apply NT; now left|].
  apply lay_token; [exact B1|apply AB|apply NT; right; cbn; auto|].
  apply lay_token; [exact B1|apply AB|apply NT; right; cbn; auto|].
  apply lay_token; [exact B1|apply AB|apply NT; now left|].
  apply lay_token; [exact B1|apply AB|apply NT; now left|].
  apply lay_token; [exact B1|apply AB|apply NT; right; cbn; auto|exact H].
Qed.
Lemma reads_value f ts t v : identifier f -> value_tokens v ts -> lay ts (L " " ++ t) -> reads f t (M_QParse.to_value v).
Proof.
  intros I V H. assert (N : ts <> []) by (inversion V; discriminate).
  set (c := {| pc_field := RfReg f; pc_op := OpEq; pc_value := v |}).
  set (q := {| pq_from := RAny; pq_ops := [PoWhere [c] CAnd]; pq_agg := None |}).
  assert (P : parse_query (asking f t) = M_Graph.Ok q).
  { apply spells_parses. exists (L "*"), (L "|" :: (L "where" :: ([f] ++ operator_text OpEq :: ts) ++ []) ++ []), []. split; [reflexivity|]. split; [|split; [reflexivity|]].
    - apply os_cons; [|constructor]. eapply (ot_where c [] CAnd []); auto; [|constructor|intros ? []]. exists [f], ts. repeat split; auto.
    - cbn [app]. rewrite !app_nil_r. exact (asked_lay f ts t I N H). }
  unfold reads, condition_read, read_query. rewrite P. reflexivity.
Qed.
Lemma lay_one t : lay [t] (L " " ++ t).
Proof.
  replace (L " " ++ t) with (L " " ++ t ++ []) by (now rewrite app_nil_r). apply lay_token; [constructor; [now left|constructor]| | |constructor; constructor].
  - intros t' c d r _ E. discriminate.
  - intros _ c r E. discriminate.
Qed.

(** The value is read, but something follows that cannot. *)
Definition stuck (rest : str) : Prop := exists c r, skip rest = c :: r /\ c <> "|"%char /\ p_combinator (c :: r) = None.
Lemma refused f t : identifier f -> skip t = t -> (forall n, exists v rest, p_value (S n) t = Some (v, rest) /\ stuck rest) ->
  read_query (asking f t) = M_Graph.Err SyntaxError.
Proof.
  intros I B H. unfold read_query, parse_query, pest_query, asking.
  remember (length (L "from * | where " ++ f ++ L " == " ++ t)) as n eqn:N. clear N. destruct (H n) as (v & rest & PV & c & r & SK & NC & PC).
  change (skip (L "from * | where " ++ f ++ L " == " ++ t)) with (L "from" ++ (L " * | where " ++ f ++ L " == " ++ t)). rewrite lit_app.
  change (p_selector (skip (L " * | where " ++ f ++ L " == " ++ t))) with (Some (RAny, L " | where " ++ f ++ L " == " ++ t)). cbv iota beta.
  assert (BO : p_bar_operation (S n) (skip (L " | where " ++ f ++ L " == " ++ t)) =
    Some (RoWhere {| rc_field := RfReg f; rc_op := OpEq; rc_value := v |} [], rest)).
  { change (skip (L " | where " ++ f ++ L " == " ++ t)) with (L "|" ++ (L " where " ++ f ++ L " == " ++ t)). unfold p_bar_operation. rewrite lit_app.
    change (skip (L " where " ++ f ++ L " == " ++ t)) with (L "where" ++ (L " " ++ f ++ L " == " ++ t)). unfold p_operation, p_where. rewrite lit_app.
    assert (SF : skip (L " " ++ f ++ L " == " ++ t) = f ++ L " == " ++ t) by (change (skip (L " " ++ f ++ L " == " ++ t)) with (skip (f ++ L " == " ++ t)); apply skip_tok, identifier_tok, I).
    rewrite SF. unfold p_condition.
    assert (PF : p_field (f ++ L " == " ++ t) = Some (RfReg f, L " == " ++ t)).
    { destruct (identifier_head f I) as (a & b & E & A). unfold p_field. pose proof (p_ident_ok' f (L " == " ++ t) I eq_refl) as P. rewrite P. rewrite E. cbn [app].
      rewrite lit_head; [reflexivity|]. intros X. subst a. discriminate. }
    rewrite PF. change (p_operator (skip (L " == " ++ t))) with (Some (OpEq, L " " ++ t)). cbv iota beta. change (skip (L " " ++ t)) with (skip t). rewrite B, PV. cbv iota beta.
    cbn [p_many]. unfold p_more_condition. rewrite SK, PC. reflexivity. }
  cbn [p_many]. rewrite BO.
  assert (NB : p_bar_operation (S n) (skip rest) = None) by (rewrite SK; unfold p_bar_operation; rewrite lit_head; [reflexivity|congruence]).
  assert (PM : p_many (p_bar_operation (S n)) n rest = ([], rest)) by (destruct n; [reflexivity|]; cbn [p_many]; rewrite NB; reflexivity).
  rewrite PM. assert (NA : p_opt (p_bar_aggregation (S n)) (skip rest) = (None, skip rest)).
  { apply p_opt_none. rewrite SK. unfold p_bar_aggregation. rewrite lit_head; [reflexivity|congruence]. }
  rewrite NA, skip_idem, SK. reflexivity.
Qed.

(** ** Judging *)
Definition judged (x : ext) (f t : str) (v : value) (P : Prop) : Prop := (P -> always_found x f t v) /\ (~ P -> never_found x f t v).
Lemma judge x f t w v P : reads f t w -> (compare_value x v OpEq w = M_Graph.Ok true <-> P) -> judged x f t v P.
Proof.
  intros R C. split.
  - intros H. apply C in H. eexists. split; [exact R|]. intros e G. unfold matches. cbn [c_field c_op c_value]. rewrite G. exact H.
  - intros N k e K G M. unfold reads, condition_read in *. rewrite R in K. injection K as <-. unfold matches in M. cbn [c_field c_op c_value] in M. rewrite G in M. apply N, C. exact M.
Qed.
Lemma judge_refused x f t v (P : Prop) : read_query (asking f t) = M_Graph.Err SyntaxError -> ~ P -> judged x f t v P.
Proof. intros R N. split; [contradiction|]. intros _ k e K. unfold condition_read in K. rewrite R in K. discriminate. Qed.

Lemma judge_bool x f b : identifier f -> judged x f (bool_text b) (VBool b) True.
Proof.
  intros I. apply (judge x f _ (FBool b)).
  - change (FBool b) with (M_QParse.to_value (M_QParse.PBool b)). eapply reads_value; [exact I| |apply lay_one]. destruct b; constructor.
  - split; [trivial|]. intros _. destruct b; reflexivity.
Qed.
Lemma blank_no s : no_blank_first s -> ~ In LF s -> forall c r, s = c :: r -> ~ S_QText.blank [c].
Proof.
  intros H N c r E X. destruct (H c r E) as [X1 X2]. inversion X as [|? ? [Y|[Y|Y]] _]; subst; [congruence|congruence|]. apply N. now left.
Qed.
Lemma judge_quoted f s mk (rest : list str) : identifier f -> one_line s -> (forall t' s', S_QText.quoted s' t' -> value_tokens (mk s') (rest ++ [t'])) ->
  (forall t', lay [t'] ([DQ] ++ s ++ [DQ]) -> lay (rest ++ [t']) (L " " ++ concat rest ++ [DQ] ++ s ++ [DQ])) ->
  exists w s', S_QText.blank w /\ s = w ++ s' /\ (w = [] <-> no_blank_first s) /\ no_blank_first s' /\ reads f (concat rest ++ [DQ] ++ s ++ [DQ]) (M_QParse.to_value (mk s')).
Proof.
  intros I [O1 O2] V Ly. destruct (skip_split s) as (w & W & E). assert (SI : skip (skip s) = skip s) by apply skip_idem. remember (skip s) as s' eqn:SE. clear SE.
  assert (B : forall c r, s' = c :: r -> ~ S_QText.blank [c]).
  { intros c r E' X. pose proof SI as Y. rewrite E' in Y. inversion X as [|? ? Z _]. clear X. subst x l. apply is_ws_spec in Z. cbn [skip] in Y. rewrite Z in Y.
    pose proof (skip_length r) as Ln. rewrite Y in Ln. cbn [length] in Ln. lia. }
  exists w, s'. split; [exact W|]. split; [exact E|]. split.
  - split.
    + intros ->. cbn [app] in E. intros c r E'. rewrite E in E'. pose proof (B c r E') as Z. split; intros ->; apply Z; constructor; auto.
    + intros NB. destruct w as [|c w]; [reflexivity|exfalso]. destruct (NB c (w ++ s') E) as [N1 N2]. inversion W as [|? ? [Y|[Y|Y]] _]; subst c; [congruence|congruence|].
      apply O2. rewrite E. now left.
  - split; [intros c r E'; pose proof (B c r E') as Z; split; intros ->; apply Z; constructor; auto|].
    assert (Q : S_QText.quoted s' ([DQ] ++ s ++ [DQ])).
    { exists DQ, w. split; [now left|]. split; [exact W|]. split; [intros X; apply O1; rewrite E; apply in_or_app; now right|]. split; [exact B|]. cbn [app]. rewrite E at 1. rewrite <- app_assoc. reflexivity. }
    eapply reads_value; [exact I|apply V, Q|]. apply Ly. rewrite <- (app_nil_l ([DQ] ++ s ++ [DQ])) at 2. rewrite <- (app_nil_r ([DQ] ++ s ++ [DQ])) at 2.
    apply lay_token; [constructor| | |constructor; constructor]; [intros t' c d r _ X; discriminate|intros _ c r X; discriminate].
Qed.

(** ** Floats *)
Lemma integral_units g : finite_double g -> f_is_integral g = true -> units g = (f_trunc g * 2 ^ 1074)%Z /\ has_53_digits (f_trunc g).
Proof.
  intros [V F] I. destruct g as [s| | |s m e]; try discriminate F; [split; [reflexivity|]; exists 0%Z, 0%Z; cbn; lia|]. apply proper_of in V as (E & M & _). cbn [f_is_integral] in I. cbn [units f_trunc].
  destruct (Z.leb_spec 0 e) as [X|X].
  - split; [rewrite Z.pow_add_r by lia; destruct s; ring|]. exists (if s then - Zpos m else Zpos m)%Z, e. split; [destruct s; ring|]. split; [lia|destruct s; lia].
  - cbn [orb] in I. apply Z.eqb_eq in I. assert (P : (0 < 2 ^ (- e))%Z) by (apply Z.pow_pos_nonneg; lia). pose proof (Z.div_mod (Zpos m) (2 ^ (- e)) ltac:(lia)) as DM. rewrite I, Z.add_0_r in DM.
    set (q := (Zpos m / 2 ^ (- e))%Z) in *. assert (Q : (0 <= q <= Zpos m)%Z) by nia. split.
    + assert (Y : (2 ^ (- e) * 2 ^ (e + 1074) = 2 ^ 1074)%Z) by (rewrite <- Z.pow_add_r by lia; f_equal; lia). rewrite DM, <- Y. destruct s; ring.
    + exists (if s then - q else q)%Z, 0%Z. rewrite Z.pow_0_r, Z.mul_1_r. split; [destruct s; lia|]. split; [lia|destruct s; lia].
Qed.
Lemma same_units g h : finite_double g -> finite_double h -> units g = units h -> f_lt (f_abs (f_sub g h)) f_epsilon = true.
Proof. intros G H E. rewrite sub_units by assumption. rewrite E, Z.sub_diag. reflexivity. Qed.
Lemma top_units : finite_double (f_of_Z i64_max) /\ units (f_of_Z i64_max) = (2 ^ 63 * 2 ^ 1074)%Z /\ finite_double (f_of_Z i64_min) /\ units (f_of_Z i64_min) = (- (2 ^ 63 * 2 ^ 1074))%Z.
Proof. split; [split; reflexivity|]. split; [reflexivity|]. split; [split; reflexivity|reflexivity]. Qed.
Lemma float_itself x g : finite_double g \/ (exists s, g = S754_infinity s) ->
  (compare_value x (VFloat g) OpEq (M_QParse.to_value (M_QParse.PNum g)) = M_Graph.Ok true <-> f_is_finite g = true /\ (Z.abs (units g) <= 2 ^ 63 * 2 ^ 1074)%Z).
Proof.
  intros [FD|(s & ->)]; [|destruct s; (split; [discriminate|intros [H _]; discriminate])]. pose proof FD as [V F].
  cbn [M_QParse.to_value]. rewrite F, andb_true_r. destruct (f_is_integral g) eqn:I.
  - destruct (integral_units g FD I) as [U H53]. set (z := f_trunc g) in *.
    replace (f_to_i64 g) with (Z.max i64_min (Z.min i64_max z)) by (destruct g; try discriminate F; reflexivity).
    unfold compare_value, compare_float, float_eps_op, or_unsupported. destruct top_units as (T1 & T2 & T3 & T4).
    assert (PP : (0 < 2 ^ 1074)%Z) by (apply Z.pow_pos_nonneg; lia).
    assert (AB : (Z.abs (units g) <= 2 ^ 63 * 2 ^ 1074 <-> Z.abs z <= 2 ^ 63)%Z).
    { rewrite U, Z.abs_mul, (Z.abs_eq (2 ^ 1074)) by lia. symmetry. apply Z.mul_le_mono_pos_r. exact PP. }
    destruct (Z.le_gt_cases (Z.abs z) (2 ^ 63)) as [A|A].
    + split; [intros _; split; [reflexivity|now apply AB]|]. intros _. do 1 f_equal. destruct (Z.eq_dec z (2 ^ 63)) as [E|E].
      * replace (Z.max i64_min (Z.min i64_max z)) with i64_max by (rewrite E; reflexivity). apply same_units; [exact FD|exact T1|]. rewrite T2, U, E. reflexivity.
      * replace (Z.max i64_min (Z.min i64_max z)) with z by (unfold i64_min, i64_max; change (2 ^ 63)%Z with 9223372036854775808%Z in *; lia).
        destruct (integer_units z) as (m & R & FZ & UZ); [change (2 ^ 64)%Z with (2 * 2 ^ 63)%Z; lia|]. apply same_units; [exact FD|exact FZ|]. rewrite UZ, U, (digits_rounded z m R H53). reflexivity.
    + assert (B1 : (2 ^ 1074 < Z.abs (units g))%Z) by (rewrite U, Z.abs_mul, (Z.abs_eq (2 ^ 1074)) by lia; clearbody z; clear - A PP; set (u := (2 ^ 1074)%Z) in *; clearbody u; assert (1 < Z.abs z)%Z by (change (2 ^ 63)%Z with 9223372036854775808%Z in A; lia); nia).
      assert (NF : forall b, finite_double b -> Z.abs (units b) = (2 ^ 63 * 2 ^ 1074)%Z -> f_lt (f_abs (f_sub g b)) f_epsilon = false).
      { intros b B E. rewrite sub_units by assumption. apply Z.ltb_ge. apply beyond_one; auto. intros X. rewrite <- X in E. assert (Z.abs z <= 2 ^ 63)%Z by (apply AB; lia). lia. }
      assert (CL : Z.max i64_min (Z.min i64_max z) = i64_max \/ Z.max i64_min (Z.min i64_max z) = i64_min) by (unfold i64_min, i64_max; change (2 ^ 63)%Z with 9223372036854775808%Z in *; lia).
      split; [|intros [_ X]; apply AB in X; lia]. intros X. exfalso. destruct CL as [CL|CL]; rewrite CL in X; rewrite NF in X; try discriminate; auto.
  - split.
    + intros _. split; [reflexivity|]. destruct g as [s| | |s m e]; try discriminate I; try discriminate F. apply proper_of in V as (E & M & _). cbn [f_is_integral] in I. apply orb_false_iff in I as [I _]. apply Z.leb_gt in I.
      rewrite size_finite. assert (2 ^ (e + 1074) <= 2 ^ 1074)%Z by (apply Z.pow_le_mono_r; lia). assert (0 < 2 ^ (e + 1074))%Z by (apply Z.pow_pos_nonneg; lia).
      set (u := (2 ^ 1074)%Z) in *. set (w := (2 ^ (e + 1074))%Z) in *. clearbody u w. assert (Zpos m <= 2 ^ 63)%Z by (change (2 ^ 63)%Z with 9223372036854775808%Z; change (2 ^ 53)%Z with 9007199254740992%Z in M; lia). set (k := (2 ^ 63)%Z) in *. clearbody k. nia.
    + intros _. unfold compare_value, compare_float, float_eps_op, or_unsupported. f_equal. now apply same_units.
Qed.

(** ** Texts *)
Lemma lower_size s : length (lower s) = length s.
Proof. apply map_length. Qed.
Lemma same_end w s : lower (w ++ s) = lower s -> w = [].
Proof. intros H. apply (f_equal (@length ascii)) in H. rewrite !lower_size, app_length in H. destruct w; [reflexivity|cbn in H; lia]. Qed.
Lemma judge_line x f s : identifier f -> one_line s -> judged x f ([DQ] ++ s ++ [DQ]) (VStr s) (no_blank_first s).
Proof.
  intros I O. destruct (judge_quoted f s M_QParse.PStr [] I O) as (w & s' & W & E & N & N' & R); [intros t' s' Q; exact (vt_str s' t' Q)|intros t' H; inversion H as [|w0 t0 ts0 r0 B1 B2 B3 B4 E1 E2]; subst; cbn [app concat]; change str with (list ascii) in *; rewrite <- E2; change (lay [t'] ((L " " ++ w0) ++ t' ++ r0)); constructor; auto; constructor; [now left|exact B1]|].
  apply (judge x f _ _ (VStr s) (no_blank_first s) R). rewrite <- N. cbn [M_QParse.to_value]. unfold compare_value, compare_string, text_op, or_unsupported.
  split.
  - intros H. injection H as H. apply eq_ignore_case_spec in H. rewrite E in H. exact (same_end w s' H).
  - intros ->. cbn [app] in E. subst s'. f_equal. now apply eq_ignore_case_spec.
Qed.
Lemma judge_lines x f body v (P : Prop) : identifier f -> ~ P -> judged x f (q3 ++ body ++ q3) v P.
Proof.
  intros I N. apply judge_refused; [|exact N]. apply refused; [exact I|reflexivity|]. intros n. exists (RvStr []), ([DQ] ++ body ++ q3). split; [reflexivity|].
  exists DQ, (body ++ q3). split; [reflexivity|]. split; [discriminate|reflexivity].
Qed.
Lemma judge_tagged x f tag s mk v (P : Prop) : identifier f -> one_line s -> (tag = L "path" \/ tag = L "enum") ->
  (forall t' s', S_QText.quoted s' t' -> value_tokens (mk s') [tag; t']) ->
  (forall w s', S_QText.blank w -> s = w ++ s' -> (w = [] <-> no_blank_first s) -> no_blank_first s' -> (compare_value x v OpEq (M_QParse.to_value (mk s')) = M_Graph.Ok true <-> P)) ->
  judged x f (tag ++ [DQ] ++ s ++ [DQ]) v P.
Proof.
  intros I O T V C. destruct (judge_quoted f s mk [tag] I O) as (w & s' & W & E & N & N' & R); [exact V| |].
  - intros t' H. cbn [concat app]. rewrite app_nil_r. change (" "%char :: tag ++ DQ :: s ++ [DQ]) with (L " " ++ tag ++ ([DQ] ++ s ++ [DQ])).
    apply lay_token; [constructor; [now left|constructor]| | |exact H].
    + intros t0 c d r _ X _ [Y|Y]; injection X as <- _; discriminate.
    + intros X. exfalso. pose proof (time_form_blank tag X) as (_ & c & r & X1 & D). destruct T as [-> | ->]; injection X1 as <- _; discriminate.
  - cbn [concat app] in R. rewrite app_nil_r in R. eapply judge; [exact R|]. apply (C w s'); auto.
Qed.
Lemma split_once : forall w w' s s' : str, S_QText.blank w -> S_QText.blank w' -> no_blank_first s -> no_blank_first s' -> ~ In LF (w ++ s) -> w ++ s = w' ++ s' -> s = s'.
Proof.
  assert (A : forall c w (s s' : str), S_QText.blank (c :: w) -> no_blank_first s' -> ~ In LF (c :: w ++ s) -> (c :: w) ++ s = s' -> False).
  { intros c w s s' B N L0 E. inversion B as [|? ? X _]. subst. destruct (N c (w ++ s) eq_refl) as [N1 N2]. destruct X as [X|[X|X]]; [congruence|congruence|]. apply L0. left. now rewrite X. }
  induction w as [|c w IH]; intros [|c' w'] s s' B B' N N' L0 E.
  - exact E.
  - exfalso. cbn [app] in E, L0. refine (A c' w' s' s B' N _ (eq_sym E)). rewrite E in L0. exact L0.
  - exfalso. exact (A c w s s' B N' L0 E).
  - injection E as <- E. inversion B; subst. inversion B'; subst. apply (IH w'); auto. intros X. apply L0. now right.
Qed.
Lemma judge_path x f s p : identifier f -> one_line s -> judged x f (L "path" ++ [DQ] ++ s ++ [DQ]) (VPath p) (means_the_same (L "path" ++ [DQ] ++ s ++ [DQ]) (VPath p)).
Proof.
  intros I O. apply (judge_tagged x f (L "path") s M_QParse.PPath); auto; [intros; now constructor|]. intros w s' W E _ N'.
  cbn [M_QParse.to_value means_the_same]. unfold compare_value, compare_string, text_op, or_unsupported. split.
  - intros H. injection H as H. apply eq_ignore_case_spec in H. exists w, s'. rewrite E, <- app_assoc. auto.
  - intros (w1 & s1 & E1 & W1 & N1 & H). f_equal. apply eq_ignore_case_spec. rewrite <- H. f_equal. symmetry.
    apply app_inv_head in E1. injection E1 as E1. rewrite app_assoc in E1. apply app_inv_tail in E1. rewrite E in E1. apply (split_once w w1); auto. rewrite <- E. apply O.
Qed.
Lemma lower_blank c d : lower_ascii d = lower_ascii c -> c = " "%char \/ c = ascii_of_nat 9 -> d = c.
Proof. intros H [-> | ->]; destruct d as [[] [] [] [] [] [] [] []]; vm_compute in H; first [discriminate H|reflexivity]. Qed.
Lemma judge_enum x f s v : identifier f -> one_line s -> between_quotes (L "enum") s v ->
  judged x f (L "enum" ++ [DQ] ++ s ++ [DQ]) (VEnum v) (means_the_same (L "enum" ++ [DQ] ++ s ++ [DQ]) (VEnum v)).
Proof.
  intros I O B. apply (judge_tagged x f (L "enum") s M_QParse.PEnum); auto; [intros; now constructor|]. intros w s' W E N N'.
  cbn [M_QParse.to_value means_the_same]. unfold compare_value, compare_string, text_op, or_unsupported.
  assert (Q : L "enum" ++ [DQ] ++ s ++ [DQ] = L "enum" ++ [DQ] ++ v ++ [DQ] <-> s = v).
  { split; [|now intros ->]. intros X. apply app_inv_head in X. injection X as X. now apply app_inv_tail in X. }
  destruct B as [[-> _]|B].
  - rewrite <- N. split.
    + intros H. injection H as H. apply eq_ignore_case_spec in H. split; [reflexivity|]. rewrite E in H. exact (same_end w s' H).
    + intros [_ ->]. cbn [app] in E. subst s'. f_equal. now apply eq_ignore_case_spec.
  - split; [|intros [X _]; apply Q in X; rewrite X in B; apply (f_equal (@length ascii)) in B; rewrite app_length in B; cbn in B; lia].
    intros H. exfalso. injection H as H. apply eq_ignore_case_spec in H. pose proof (f_equal (@length ascii) H) as Hl. rewrite !lower_size in Hl. destruct v as [|c v].
    + destruct s'; [|discriminate]. rewrite app_nil_r in E. subst w. rewrite B in W. inversion W as [|? ? [X|[X|X]] _]; discriminate.
    + destruct s' as [|d s']; [discriminate|]. cbn [lower map] in H. injection H as H _.
      destruct w as [|c' w].
      { cbn [app] in E. rewrite <- E, B, app_length in Hl. cbn in Hl. lia. }
      rewrite E in B. injection B as -> B. inversion W as [|? ? X _]. subst.
      assert (X' : c = " "%char \/ c = ascii_of_nat 9) by (destruct X as [X|[X|X]]; auto; exfalso; apply O; left; exact X).
      pose proof (lower_blank c d (eq_sym H) X') as ->. destruct (N' c s' eq_refl). destruct X'; contradiction.
Qed.

(** ** References *)
Lemma name_identifier s : name_syntax s -> identifier s.
Proof.
  intros (c & r & -> & H & F). exists c, r. split; [reflexivity|]. split; [exact H|]. eapply Forall_impl; [|exact F]. intros a [A|[A|A]]; [left|left|now right]; unfold is_alnum; rewrite A, ?orb_true_r; reflexivity.
Qed.
Lemma judge_ref x f t r : identifier f -> value_tokens (M_QParse.PRef t) [t] -> judged x f t (VRef r) (means_the_same t (VRef r)).
Proof.
  intros I V. apply (judge x f t (FRef t)); [exact (reads_value f [t] t (M_QParse.PRef t) I V (lay_one t))|].
  unfold compare_value, compare_reference. cbn [means_the_same]. split.
  - intros H. injection H as H. apply eq_ignore_case_spec in H. now symmetry.
  - intros H. f_equal. apply eq_ignore_case_spec. now symmetry.
Qed.

(** ** Numbers *)
Lemma literal_text t neg n k : number_literal t neg n k -> number_text t.
Proof.
  intros H. inversion H as [ng a m N|ng a b m A B N]; subst; unfold signed.
  - exists (if neg then L "-" else []), a. split; [destruct neg; auto|]. split; [|left; destruct neg; reflexivity]. exact (numeral_digits _ _ N).
  - exists (if neg then L "-" else []), a. destruct (parts_digits a b n A N) as [F1 F2]. split; [destruct neg; auto|]. split; [split; assumption|]. right. exists b. split; [split; assumption|]. destruct neg; reflexivity.
Qed.
Lemma reads_number f t neg n k : identifier f -> number_literal t neg n k -> reads f t (M_QParse.to_value (M_QParse.PNum (f_of_ratio neg n (places k)))).
Proof. intros I H. apply (reads_value f [t]); [exact I| |apply lay_one]. apply vt_num; [exact (literal_text _ _ _ _ H)|exact (number_float _ _ _ _ H)]. Qed.
Lemma literal_nonneg t neg n k : number_literal t neg n k -> (0 <= n)%Z.
Proof. intros H. inversion H; subst; eapply numeral_nonneg; eassumption. Qed.
Lemma judge_float x f t neg n k g : identifier f -> number_literal t neg n k -> nearest_double (with_sign neg n) (places k) g -> negative g = neg ->
  judged x f t (VFloat g) (means_the_same t (VFloat g)).
Proof.
  intros I H ND Sg. pose proof (literal_nonneg _ _ _ _ H) as NN.
  assert (E : g = f_of_ratio neg n (places k)) by (apply (nearest_once _ _ _ _ ND (ratio_nearest neg n (places k) NN)); rewrite ratio_sign by exact NN; exact Sg).
  apply (judge x f t _ _ _ (reads_number f t neg n k I H)). rewrite <- E. apply float_itself.
  unfold nearest_double in ND. destruct (Z.abs (with_sign neg n) <? f64_limit * Z.pos (places k))%Z; [left; apply ND|right; eauto].
Qed.
Lemma rounded_digits z : rounded z z -> has_53_digits z.
Proof.
  intros (k & q & [[-> B]|[K B]] & E & _ & _); [exists z, 0%Z; rewrite Z.pow_0_r; lia|]. exists q, k. split; [exact E|]. split; [lia|].
  rewrite E, Z.abs_mul, (Z.abs_eq (2 ^ k)), (Z.pow_add_r 2 53 k) in B by lia. assert (0 < 2 ^ k)%Z by (apply Z.pow_pos_nonneg; lia). apply (Z.mul_lt_mono_pos_r (2 ^ k)); lia.
Qed.
Lemma judge_integer x f t neg n : identifier f -> number_literal t neg n 0 -> (- 2 ^ 63 <= with_sign neg n < 2 ^ 63)%Z ->
  judged x f t (VInt (with_sign neg n)) (means_the_same t (VInt (with_sign neg n))).
Proof.
  intros I H B. apply (judge x f t _ _ _ (reads_number f t neg n 0 I H)). pose proof (literal_nonneg _ _ _ _ H) as NN. change (places 0) with 1%positive. cbn [means_the_same].
  destruct (Z.eq_dec n 0) as [->|NZ].
  { split; [intros _; left; exists 0%Z, 0%Z; destruct neg; cbn; lia|]. intros _. destruct neg; reflexivity. }
  set (z := with_sign neg n) in *. assert (E : f_of_ratio neg n 1 = f_of_ratio (z <? 0)%Z (Z.abs z) 1) by (subst z; destruct neg; cbn [with_sign]; f_equal; lia).
  assert (IN : in_i64 z = true) by (unfold in_i64, i64_min, i64_max; apply andb_true_iff; rewrite !Z.leb_le; lia). destruct (in_64 z IN) as [LT ST].
  destruct (literal_rounded z LT) as (m & R & I1 & I2 & I3). rewrite E. cbn [M_QParse.to_value]. rewrite I1, I2. cbn [andb].
  replace (f_to_i64 (f_of_ratio (z <? 0)%Z (Z.abs z) 1)) with (Z.max i64_min (Z.min i64_max m)) by (rewrite <- I3; destruct (f_of_ratio (z <? 0)%Z (Z.abs z) 1); try discriminate I2; reflexivity).
  unfold compare_value, compare_integer, or_unsupported, ord_op. split.
  - intros X. assert (Y : z = Z.max i64_min (Z.min i64_max m)) by (apply Z.compare_eq_iff; destruct (Z.compare z (Z.max i64_min (Z.min i64_max m))); try discriminate X; reflexivity).
    destruct (clamp_saturated m) as [[_ S0]|[[_ S0]|[_ S0]]]; rewrite S0 in Y.
    + left. rewrite <- Y in R. now apply rounded_digits.
    + left. rewrite Y. exists (-1)%Z, 63%Z. lia.
    + now right.
  - intros [D|D].
    + rewrite (digits_rounded z m R D). rewrite (ST _ (clamp_saturated z)), Z.compare_refl. reflexivity.
    + rewrite D in R |- *. replace m with (2 ^ 63)%Z; [reflexivity|]. refine (rounded_once _ _ _ _ R). exists 10%Z, (2 ^ 53)%Z. split; [right; split; [lia|split; [discriminate|reflexivity]]|]. split; [reflexivity|]. split; [discriminate|intros X; discriminate X].
Qed.

(** ** Dates *)
Lemma date_both s : date_syntax s <-> date_form s.
Proof.
  split; intros (y & m & d & A & B & C & D); exists y, m, d; unfold digits_syntax, S_QText.digits in *; auto.
Qed.
Lemma judge_date x f s day off : identifier f -> day_literal s day ->
  judged x f s (VDate {| dt_local := (day * 86400)%Z; dt_nanos := 0; dt_off := off |}) (date_syntax s).
Proof.
  intros I D. pose proof (day_syntax s day D) as DS. apply (judge x f s (FDate s)).
  - apply (reads_value f [s] s (M_QParse.PDate s) I); [apply vt_date; now apply date_both|apply lay_one].
  - split; [intros _; exact DS|]. intros _.
    assert (E : parse_rfc3339 s = None).
    { pose proof (day_read s day D) as R. unfold parse_naive_date in R. unfold parse_rfc3339. destruct (take_date s) as [[d [|c r]]|]; try discriminate R; reflexivity. }
    unfold compare_value, compare_datetime. rewrite E, (day_read s day D). unfold dt_date. cbn [dt_local]. rewrite Z.div_mul by lia. rewrite Z.compare_refl. reflexivity.
Qed.
Lemma digit_no_ws c : is_digit c = true -> is_ws c = false.
Proof. destruct c as [[] [] [] [] [] [] [] []]; intros H; try discriminate H; reflexivity. Qed.
Lemma date_skip s rest : date_form s -> skip (s ++ rest) = s ++ rest.
Proof.
  intros (y & m & d & [L4 F] & _ & _ & ->). destruct y as [|c y]; [discriminate|]. inversion F as [|? ? D _]. subst. cbn [app skip]. now rewrite (digit_no_ws c D).
Qed.
Lemma date_length s : date_form s -> length s = 10.
Proof. intros (y & m & d & [Ly _] & [Lm _] & [Ld _] & ->). rewrite !app_length, Ly, Lm, Ld. reflexivity. Qed.
Lemma span_letters z c r : Forall (fun c => is_alpha c = true) z -> is_alpha c = false -> span is_alpha (z ++ c :: r) = (z, c :: r).
Proof. intros F N. induction F as [|a z A F IH]; cbn [app span]; [now rewrite N|]. now rewrite A, IH. Qed.
Lemma judge_time x f s tm (z : str) v (P : Prop) : identifier f -> date_syntax s -> time_syntax tm -> z = [] \/ (exists w, z = L " " ++ w /\ zone_syntax w) -> ~ P ->
  judged x f (s ++ L " at " ++ tm ++ z) (VDate v) P.
Proof.
  intros I D (h & m & -> & H & M) Z N. apply date_both in D. destruct H as [H|H].
  - apply judge_refused; [|exact N]. apply refused; [exact I|now apply date_skip|]. intros n. exists (RvDate s), (L " at " ++ (h ++ L ":" ++ m) ++ z). split.
    + cbn [p_value]. rewrite p_currency_date, p_datetime_date by exact D. destruct H as [Lh Fh]. destruct h as [|c [|? ?]]; try discriminate Lh. inversion Fh as [|? ? Dc _]. subst.
      replace (p_time (L " at " ++ (([c] ++ L ":" ++ m)) ++ z)) with (@None (str * str)); [reflexivity|]. unfold p_time. rewrite lit_app. cbn. rewrite Dc. reflexivity.
    + exists "a"%char, (L "t " ++ (h ++ L ":" ++ m) ++ z). split; [reflexivity|]. split; [discriminate|reflexivity].
  - assert (T : time_form (s ++ L " at " ++ h ++ L ":" ++ m)) by (exists s, h, m; repeat split; try apply H; try apply M; exact D).
    assert (CE : forall r, compare_value x (VDate v) OpEq (FDate (s ++ L " at " ++ r)) = M_Graph.Ok true <-> P).
    { intros r. destruct (at_literal_unreadable s r (date_length s D)) as [E1 E2]. unfold compare_value, compare_datetime. rewrite E1, E2. split; [discriminate|contradiction]. }
    destruct Z as [->|(w & -> & Z)].
    + rewrite app_nil_r. eapply judge; [|apply (CE (h ++ L ":" ++ m))]. apply (reads_value f [s ++ L " at " ++ h ++ L ":" ++ m] _ (M_QParse.PDate (s ++ L " at " ++ h ++ L ":" ++ m)) I); [now apply vt_time|apply lay_one].
    + destruct Z as [->|(sg & dg & k & -> & Sg & K & Dg)].
      * eapply judge; [|apply (CE ((h ++ L ":" ++ m) ++ L " " ++ L "UTC"))]. set (u := s ++ L " at " ++ (h ++ L ":" ++ m) ++ L " " ++ L "UTC").
        apply (reads_value f [u] u (M_QParse.PDate u) I); [|apply lay_one].
        assert (E : u = (s ++ L " at " ++ h ++ L ":" ++ m) ++ L " " ++ L "UTC") by (subst u; rewrite <- !app_assoc; reflexivity). rewrite E. apply vt_zone; [exact T|discriminate|repeat constructor].
      * apply judge_refused; [|exact N]. apply refused; [exact I|now apply date_skip|]. intros n. exists (RvDate (s ++ L " at " ++ (h ++ L ":" ++ m) ++ L " UTC")), (sg ++ dg). split.
        -- cbn [p_value]. rewrite p_currency_date by exact D.
           replace (s ++ L " at " ++ (h ++ L ":" ++ m) ++ L " " ++ L "UTC" ++ sg ++ dg) with ((s ++ L " at " ++ h ++ L ":" ++ m) ++ L " UTC" ++ sg ++ dg) by (rewrite <- !app_assoc; reflexivity).
           rewrite p_datetime_time by exact T. replace (p_zone (L " UTC" ++ sg ++ dg)) with (Some (L " UTC", sg ++ dg)) by (destruct Sg as [-> | ->]; reflexivity). rewrite <- !app_assoc. reflexivity.
        -- destruct Sg as [-> | ->]; (eexists _, dg; split; [reflexivity|]; split; [discriminate|reflexivity]).
Qed.

(** ** Amounts *)
Lemma judge_amount x f a c neg n k : retains x -> identifier f -> number_literal a neg n k -> currency_text c -> ordinary_amount {| d_mant := with_sign neg n; d_scale := k |} ->
  judged x f (a ++ L " " ++ c) (VCur {| d_mant := with_sign neg n; d_scale := k |} c) (binary_amount {| d_mant := with_sign neg n; d_scale := k |}).
Proof.
  intros R I H C O. set (d := {| d_mant := with_sign neg n; d_scale := k |}) in *. pose proof (literal_nonneg _ _ _ _ H) as NN.
  assert (Rd : reads f (a ++ L " " ++ c) (FCur (f_of_ratio neg n (places k)) c)).
  { change (FCur (f_of_ratio neg n (places k)) c) with (M_QParse.to_value (M_QParse.PCur (f_of_ratio neg n (places k)) c)).
    apply (reads_value f [a; c]); [exact I|apply vt_cur; [exact (literal_text _ _ _ _ H)|exact (number_float _ _ _ _ H)|exact C]|].
    apply lay_token; [constructor; [now left|constructor]| | |apply lay_one].
    - intros t' c' d' r _ X _ [Y|Y]; injection X as <- _; discriminate.
    - intros X. exfalso. exact (number_not_time a (literal_text _ _ _ _ H) X). }
  apply (judge x f _ _ _ _ Rd).
  assert (CL : exists d', dec_of_f64 x (f_of_ratio neg n (places k)) = Some d' /\ ((d_mant d * pow10 (d_scale d') = d_mant d' * pow10 (d_scale d))%Z <-> binary_amount d)).
  { destruct (Z.eq_dec n 0) as [->|NZ].
    - assert (F : finite_double (S754_zero neg)) by (split; reflexivity). destruct (R _ F) as (_ & R2 & _). destruct (R2 {| d_mant := 0; d_scale := 0 |}) as (d' & E & Q); [reflexivity|cbn; lia|reflexivity|].
      exists d'. split; [exact E|]. unfold same_number in Q. cbn [units] in Q. rewrite Z.mul_0_l in Q. assert (P2 : (0 < 2 ^ 1074)%Z) by (apply Z.pow_pos_nonneg; lia). set (w := (2 ^ 1074)%Z) in *. clearbody w.
      assert (Q0 : d_mant d' = 0%Z) by nia. rewrite Q0. assert (M0 : d_mant d = 0%Z) by (subst d; destruct neg; reflexivity). unfold binary_amount. rewrite M0. split; [intros _; apply Z.divide_0_r|intros _; lia].
    - destruct (amount_close x d (places k) R O (places_is k)) as (d' & E & _ & B). exists d'. split; [|exact B]. rewrite <- E. f_equal. unfold amount_float. subst d. cbn [d_mant]. destruct neg; cbn [with_sign]; f_equal; lia. }
  destruct CL as (d' & E & B). destruct (ordered_currency x d c _ d' E) as (Q & _). rewrite Q, <- B. rewrite <- (amount_equal d d' d); [|unfold dec_cmp; apply Z.compare_refl].
  destruct (dec_cmp d d'); cbn; split; congruence.
Qed.

Lemma zone_text checks z east : zone_literal checks z east -> zone_syntax z.
Proof.
  intros [[-> _]|(neg & ds & n & -> & N & _)]; [now left|]. right. destruct (numeral_digits _ _ N) as [NE F].
  exists (L (if neg then "-" else "+")), ds, (length ds). split; [reflexivity|]. split; [destruct neg; auto|]. split; [destruct ds; [contradiction|cbn; lia]|split; [reflexivity|exact F]].
Qed.
Theorem alike env x path f k t v : retains x -> identifier f -> stored env path k t v -> ordinary_value v -> judged x f t v (means_the_same t v).
Proof.
  intros R I (LS & p & FN & ->) OV.
  assert (K : (exists s, k = KPath /\ t = L "path" ++ [DQ] ++ s ++ [DQ] /\ one_line s) \/ k <> KPath) by (destruct LS; eauto; right; discriminate).
  destruct K as [(s & -> & -> & O)|K].
  - assert (E : exists q, M_Dsl.to_value p = VPath q).
    { cbn [from_node] in FN. unfold parse_path in FN. repeat match type of FN with context [match ?a with _ => _ end] => destruct a; try discriminate FN end; injection FN as <-; eexists; reflexivity. }
    destruct E as [q ->]. now apply judge_path.
  - assert (FN' : from_node env (file_path [] (L "a")) (VNode (Some k) t []) = M_Text.Ok p) by (rewrite <- FN; destruct k; try reflexivity; contradiction).
    apply read_denotes in FN'; [|constructor|repeat split; try discriminate; cbn; intuition discriminate|exact LS]. remember (M_Dsl.to_value p) as v eqn:V. clear V FN p LS.
    destruct FN' as [b|t s H|t neg n H B|t neg n k g H Kp ND Sg|a c neg n k H B Kp NS C|t i T Ti|t i fl T Ti Tf|s day H|s t day secs D T|s t z day secs east D T Z|s v ds name r O B E D P W|s v O B]; try contradiction.
    + now apply judge_bool.
    + destruct H as [s O|body k0 ds s U CI FF TR].
      * cbn [means_the_same]. destruct (judge_line x f s I O) as [A B]. split; [intros (_ & _ & X); now apply A|]. intros X. apply B. intros Y. apply X. auto.
      * apply judge_lines; [exact I|]. cbn [means_the_same]. intros (X & [Y _] & _). injection X as X. destruct s as [|c s]; [discriminate X|]. injection X as <- _. apply Y. now left.
    + now apply judge_integer.
    + eapply judge_float; eassumption.
    + destruct OV as [OA CT]. now apply judge_amount.
    + apply judge_ref; [exact I|]. apply vt_ref; now apply name_identifier.
    + apply judge_ref; [exact I|]. apply vt_fref; now apply name_identifier.
    + now apply judge_date.
    + rewrite <- (app_nil_r t). apply judge_time; auto; [eapply day_syntax; eassumption|eapply clock_syntax; eassumption|]. cbn [means_the_same]. intros X. apply (date_syntax_no " " _ X); [reflexivity|discriminate|]. apply in_or_app. right. now left.
    + apply judge_time; auto; [eapply day_syntax; eassumption|eapply clock_syntax; eassumption|right; eexists; split; [reflexivity|exact (zone_text _ _ _ Z)]|]. cbn [means_the_same]. intros X. apply (date_syntax_no " " _ X); [reflexivity|discriminate|]. apply in_or_app. right. now left.
    + now apply judge_enum.
Qed.
Lemma not_integral g m : finite_double g -> f_is_integral g = false -> units g <> (m * 2 ^ 1074)%Z.
Proof.
  intros [V F] J U. destruct g as [s| | |s q e]; try discriminate J; try discriminate F. apply proper_of in V as (E & _ & _). cbn [f_is_integral] in J. apply orb_false_iff in J as [J1 J2]. apply Z.leb_gt in J1. apply Z.eqb_neq in J2. apply J2.
  assert (Y : (2 ^ 1074 = 2 ^ (- e) * 2 ^ (e + 1074))%Z) by (rewrite <- Z.pow_add_r by lia; f_equal; lia). cbn [units] in U. rewrite Y in U. assert (P : (0 < 2 ^ (e + 1074))%Z) by (apply Z.pow_pos_nonneg; lia). assert (P' : (0 < 2 ^ (- e))%Z) by (apply Z.pow_pos_nonneg; lia).
  rewrite Z.mul_assoc in U. apply Z.mul_reg_r in U; [|lia]. destruct s; [replace (Zpos q) with ((- m) * 2 ^ (- e))%Z by lia|rewrite U]; apply Z.mod_mul; lia.
Qed.
