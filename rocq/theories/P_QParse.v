(** Properties C04 and C21-C23: the query language. *)
From Coq Require Import Lia.
From Verif Require Import S_Graph S_Query S_QText L_Str L_Num L_FloatInt S_Round L_Round L_QParse P_Graph P_Query.
Close Scope Z_scope.

(** ** C21 *)
(** [S_QText.spells] says which texts write a query down, [S_QText.means] what
    the query asks of the graph. *)
Theorem C21_text_denotes_its_query : forall q text, spells q text ->
  parse_query text = Ok q /\ exists r, read_query text = Ok r /\ means q r.
Proof.
  intros q text H. pose proof (spells_parses q text H) as P. split; [exact P|].
  exists (to_query q). unfold read_query. rewrite P. split; [reflexivity|exact (query_meaning q)].
Qed.
Print Assumptions C21_text_denotes_its_query.

Theorem C21_one_text_one_query : forall q q' text, spells q text -> spells q' text -> q = q'.
Proof. intros q q' text H H'. apply spells_parses in H, H'. congruence. Qed.
Print Assumptions C21_one_text_one_query.

(** "and" and "or" cannot be mixed in one where step: the query is refused,
    not misread. *)
Theorem C21_mixed_combinators_refused : forall s os1 c cs ks os2 a ts ops1 tc tcs ops2 agg text,
  selector_token s ts -> operations_tokens os1 ops1 -> condition_tokens c tc -> more_conditions ks cs tcs ->
  operations_tokens os2 ops2 -> end_tokens a agg -> In CAnd ks -> In COr ks ->
  lay (L "from" :: ts :: ops1 ++ (L "|" :: L "where" :: tc ++ tcs) ++ ops2 ++ agg) text ->
  read_query text = Err MixedCombinators.
Proof.
  intros s os1 c cs ks os2 a ts ops1 tc tcs ops2 agg text H1 H2 H3 H4 H5 H6 H7 H8 H9. unfold read_query.
  rewrite (mixed_refused s os1 c cs ks os2 a ts ops1 tc tcs ops2 agg text H1 H2 H3 H4 H5 H6 H7 H8 H9). reflexivity.
Qed.
Print Assumptions C21_mixed_combinators_refused.

(** A large query, with every kind of step and value. *)
Ltac ident := eexists _, _; split; [reflexivity|split; [vm_compute; auto|repeat constructor; vm_compute; auto]].
Ltac quote := eexists """"%char, []; split; [(left; reflexivity)|split; [constructor|split; [vm_compute; intuition discriminate|
  split; [let c := fresh in let r := fresh in let E := fresh in intros c r E; injection E as <- _; intros X;
          inversion X as [|? ? [C|[C|C]] _]; discriminate|reflexivity]]]].
Ltac quote' := eexists "'"%char, []; split; [(right; reflexivity)|split; [constructor|split; [vm_compute; intuition discriminate|
  split; [let c := fresh in let r := fresh in let E := fresh in intros c r E; injection E as <- _; intros X;
          inversion X as [|? ? [C|[C|C]] _]; discriminate|reflexivity]]]].
Ltac digs := split; [try discriminate; reflexivity|repeat constructor].
Ltac fld := split; [ident|reflexivity].
Definition ex_text : str := L
  "from project | where status == enum ""active"" AND @id contains 'x' | related (2) person
   | where tags == [1, -2.5, path ""a/b""] or due <= 2024-05-01 at 09:30 UTC or fee > 10 EUR
   | order name desc|limit 10 | select name , @type".
Definition ex_query : pquery :=
  {| pq_from := RType (L "project");
     pq_ops := [
       PoWhere [{| pc_field := RfReg (L "status"); pc_op := OpEq; pc_value := PEnum (L "active") |};
                {| pc_field := RfMeta (L "id"); pc_op := OpContains; pc_value := PStr (L "x") |}] CAnd;
       PoRelated (Some 2%N) (Some (RType (L "person")));
       PoWhere [{| pc_field := RfReg (L "tags"); pc_op := OpEq;
                   pc_value := PList [PNum (f_of_Z 1); PNum (f_div (f_of_Z (-5)) (f_of_Z 2)); PPath (L "a/b")] |};
                {| pc_field := RfReg (L "due"); pc_op := OpLe; pc_value := PDate (L "2024-05-01 at 09:30 UTC") |};
                {| pc_field := RfReg (L "fee"); pc_op := OpGt; pc_value := PCur (f_of_Z 10) (L "EUR") |}] COr;
       PoOrder (RfReg (L "name")) Descending;
       PoLimit 10];
     pq_agg := Some (PaSelect [RfReg (L "name"); RfMeta (L "type")]) |}.
Example C21_nontrivial : spells ex_query ex_text.
Proof.
  exists (L "project"). eexists _, _. split; [fld|]. split; [|split].
  - cbn [pq_ops ex_query].
    eapply os_cons; [|eapply os_cons; [|eapply os_cons; [|eapply os_cons; [|eapply os_cons; [|constructor]]]]].
    + eapply (ot_where _ _ _ [CAnd]).
      * eexists _, _. split; [fld|]. split; [constructor; quote|reflexivity].
      * eapply (mc_cons CAnd [] _ [] _ (L "AND")); [|reflexivity|constructor].
        eexists _, _. split; [fld|]. split; [constructor; quote'|reflexivity].
      * intros k [<-|[]]. reflexivity.
      * discriminate.
    + eapply (ot_degree_to _ (L "2")); [split; [digs|reflexivity]|fld].
    + eapply (ot_where _ _ _ [COr; COr]).
      * eexists _, _. split; [fld|]. split; [|reflexivity].
        eapply vt_list; [apply (vt_num _ (L "1")); [exists [], (L "1"); split; [auto|split; [digs|auto]]|reflexivity]|].
        eapply it_cons; [apply (vt_num _ (L "-2.5")); [exists (L "-"), (L "2"); split; [auto|split; [digs|]];
          right; exists (L "5"); split; [digs|reflexivity]|reflexivity]|].
        eapply it_cons; [constructor; quote|constructor].
      * eapply (mc_cons COr [COr] _ _ _ (L "or")); [|reflexivity|].
        { eexists _, _. split; [fld|]. split; [|reflexivity].
          apply (vt_zone (L "2024-05-01 at 09:30") (L "UTC")); [|discriminate|repeat constructor].
          exists (L "2024-05-01"), (L "09"), (L "30"). split; [|split; [digs|split; [digs|reflexivity]]].
          exists (L "2024"), (L "05"), (L "01"). split; [digs|]. split; [digs|]. split; [digs|reflexivity]. }
        eapply (mc_cons COr [] _ [] _ (L "or")); [|reflexivity|constructor].
        eexists _, _. split; [fld|]. split; [|reflexivity].
        apply (vt_cur _ _ (L "10")); [exists [], (L "10"); split; [auto|split; [digs|auto]]|reflexivity|].
        split; [reflexivity|]. split; [repeat constructor|]. split; discriminate.
      * intros k [<-|[<-|[]]]; reflexivity.
      * discriminate.
    + apply ot_desc. fld.
    + apply (ot_limit _ (L "10")). split; [digs|reflexivity].
  - cbn [pq_agg ex_query end_tokens]. eexists. split; [|reflexivity]. eapply at_select; [fld|].
    eapply mf_cons; [fld|constructor].
  - apply lay_check_ok. vm_compute. reflexivity.
Qed.

(** Finding: tokens separated by single blanks, as anyone would write them; the
    word after a time without zone is taken for its zone. *)
Definition ex_time_query : pquery :=
  {| pq_from := RAny;
     pq_ops := [PoWhere [{| pc_field := RfReg (L "due"); pc_op := OpGt; pc_value := PDate (L "2024-05-01 at 09:30") |};
                         {| pc_field := RfReg (L "n"); pc_op := OpEq; pc_value := PBool true |}] CAnd];
     pq_agg := None |}.
Theorem C21_time_before_and_refuted : exists q s ops agg,
  selector_token (pq_from q) s /\ operations_tokens (pq_ops q) ops /\ end_tokens (pq_agg q) agg /\
  read_query (join (L " ") (L "from" :: s :: ops ++ agg)) = Err SyntaxError.
Proof.
  exists ex_time_query, (L "*"). eexists _, []. split; [reflexivity|]. split; [|split; [reflexivity|]].
  - cbn [pq_ops ex_time_query]. eapply os_cons; [|constructor]. eapply (ot_where _ _ _ [CAnd]).
    + eexists _, _. split; [fld|]. split; [|reflexivity]. apply vt_time.
      exists (L "2024-05-01"), (L "09"), (L "30"). split; [|split; [digs|split; [digs|reflexivity]]].
      exists (L "2024"), (L "05"), (L "01"). split; [digs|]. split; [digs|]. split; [digs|reflexivity].
    + eapply (mc_cons CAnd [] _ [] _ (L "and")); [|reflexivity|constructor].
      eexists _, _. split; [fld|]. split; [apply vt_true|reflexivity].
    + intros k [<-|[]]. reflexivity.
    + discriminate.
  - vm_compute. reflexivity.
Qed.
Print Assumptions C21_time_before_and_refuted.

(** Tokens separated by single blanks, if no time without zone is among them. *)
Theorem C21_single_blanks : forall q s ops agg,
  selector_token (pq_from q) s -> operations_tokens (pq_ops q) ops -> end_tokens (pq_agg q) agg ->
  (forall t, In t (ops ++ agg) -> ~ time_form t) ->
  parse_query (join (L " ") (L "from" :: s :: ops ++ agg)) = Ok q.
Proof.
  intros q s ops agg Hs Ho Ha T. apply spells_parses. exists s, ops, agg. repeat split; auto. apply lay_spaced.
  intros t [<-|[<-|H]] F; [| |exact (T t H F)].
  - apply time_form_blank in F as (_ & c & r & E & D). injection E as <- _. discriminate.
  - destruct (pq_from q) as [|n]; cbn in Hs; [subst; apply time_form_blank in F as (_ & c & r & E & D); injection E as <- _; discriminate|].
    destruct Hs as [I ->]. exact (identifier_not_time n I F).
Qed.
Print Assumptions C21_single_blanks.

(** ** C22 *)
Definition one_condition (f : str) (o : operator) (w : fvalue) : query :=
  {| q_from := SAll;
     q_ops := [QWhere {| cc_conds := [{| c_field := FReg (new_id f); c_op := o; c_value := w |}]; cc_comb := CAnd |}];
     q_agg := None |}.
Lemma read_condition f o t v w : identifier f -> value_tokens v [t] -> ~ time_form t -> means_value v w ->
  (forall w', means_value v w' -> w' = w) ->
  read_query (L "from * | where " ++ f ++ L " " ++ operator_text o ++ L " " ++ t) = Ok (one_condition f o w).
Proof.
  intros I V T M U.
  set (c := {| pc_field := RfReg f; pc_op := o; pc_value := v |}).
  set (q := {| pq_from := RAny; pq_ops := [PoWhere [c] CAnd]; pq_agg := None |}).
  assert (P : parse_query (join (L " ") (L "from" :: L "*" :: (L "|" :: (L "where" :: ([f] ++ operator_text o :: [t]) ++ []) ++ []) ++ [])) = Ok q).
  { apply C21_single_blanks; [reflexivity| |reflexivity|].
    - apply os_cons; [|constructor]. eapply (ot_where c [] CAnd []); auto; [|constructor|intros ? []].
      exists [f], [t]. repeat split; auto.
    - intros u H F. cbn in H. pose proof (time_form_blank u F) as (B & x & r & E & D).
      destruct H as [<-|[<-|[<-|[<-|[<-|[]]]]]]; try (injection E as <- _; discriminate).
      + exact (identifier_not_time f I F).
      + destruct o; injection E as <- _; discriminate.
      + exact (T F). }
  assert (E : L "from * | where " ++ f ++ L " " ++ operator_text o ++ L " " ++ t =
    join (L " ") (L "from" :: L "*" :: (L "|" :: (L "where" :: ([f] ++ operator_text o :: [t]) ++ []) ++ []) ++ [])).
  { cbn [app join]. destruct o; reflexivity. }
  rewrite E. unfold read_query. rewrite P. cbn. unfold one_condition, to_query. cbn. unfold to_condition. cbn.
  rewrite (U (to_value v)) by apply value_meaning. reflexivity.
Qed.

(** An integer literal is read as the integer rounded to 53 binary digits and
    to the ends of the 64-bit range... *)
Theorem C22_integer_literal_is_rounded : forall f o z, identifier f -> (Z.abs z < f64_limit)%Z ->
  exists m n, rounded z m /\ saturated m n /\
    read_query (L "from * | where " ++ f ++ L " " ++ operator_text o ++ L " " ++ show_Z z) = Ok (one_condition f o (FInt n)).
Proof.
  intros f o z I H. destruct (literal_rounded z H) as (m & R & A & B & C). exists m, (Z.max i64_min (Z.min i64_max m)).
  split; [exact R|]. split; [apply clamp_saturated|]. eapply read_condition; auto.
  - apply vt_num; [apply show_Z_number|apply parse_f64_show].
  - apply number_not_time, show_Z_number.
  - rewrite <- C. now apply mv_int.
  - intros w M. inversion M; subst; congruence.
Qed.
Print Assumptions C22_integer_literal_is_rounded.
(** ... in every place of every query. *)
Theorem C22_integer_literal_anywhere : forall z n w, (Z.abs z < f64_limit)%Z ->
  value_tokens (PNum n) [show_Z z] -> means_value (PNum n) w -> exists m k, rounded z m /\ saturated m k /\ w = FInt k.
Proof.
  intros z n w H V M. inversion V as [|? ? N P| | | | | | | | | | |]; subst. rewrite parse_f64_show in P. injection P as <-.
  destruct (literal_rounded z H) as (m & R & A & B & C). exists m, (Z.max i64_min (Z.min i64_max m)).
  split; [exact R|]. split; [apply clamp_saturated|]. inversion M; subst; congruence.
Qed.
Print Assumptions C22_integer_literal_anywhere.
(** There is one such integer, and no integer of 53 digits is nearer. *)
Theorem C22_rounded_is_nearest : forall z m, rounded z m ->
  (forall m', rounded z m' -> m' = m) /\ (forall m', has_53_digits m' -> (Z.abs (z - m) <= Z.abs (z - m'))%Z).
Proof. intros z m R. split; [intros m' R'; exact (rounded_once z m' m R' R)|intros m'; exact (rounded_nearest z m m' R)]. Qed.
Print Assumptions C22_rounded_is_nearest.
(** It matches exactly the integer fields equal to that. *)
Theorem C22_matches_exactly_the_rounded : forall f z x e k, identifier f -> (Z.abs z < f64_limit)%Z ->
  get_field e (new_id f) = Some (VInt k) ->
  exists c m n, rounded z m /\ saturated m n /\ read_query (L "from * | where " ++ f ++ L " == " ++ show_Z z) =
    Ok {| q_from := SAll; q_ops := [QWhere {| cc_conds := [c]; cc_comb := CAnd |}]; q_agg := None |} /\
  (matches x c e = Ok true <-> k = n) /\ (matches x c e = Ok false <-> k <> n).
Proof.
  intros f z x e k I H G. destruct (C22_integer_literal_is_rounded f OpEq z I H) as (m & n & R & S & Q).
  eexists. exists m, n. split; [exact R|]. split; [exact S|]. split; [exact Q|].
  assert (E : matches x {| c_field := FReg (new_id f); c_op := OpEq; c_value := FInt n |} e = Ok (Z.eqb k n)).
  { unfold matches. cbn [c_field c_op c_value]. rewrite G. cbn. rewrite Z.eqb_compare. destruct (k ?= n)%Z; reflexivity. }
  rewrite E. destruct (Z.eqb_spec k n); split; split; congruence.
Qed.
Print Assumptions C22_matches_exactly_the_rounded.
(** In particular a 64-bit integer of at most 53 binary digits, with zeros
    behind them, matches exactly the integer fields equal to it. *)
Theorem C22_matches_exactly_that_integer_partial : forall f z x e k, identifier f -> in_i64 z = true -> has_53_digits z ->
  get_field e (new_id f) = Some (VInt k) ->
  exists c, read_query (L "from * | where " ++ f ++ L " == " ++ show_Z z) =
    Ok {| q_from := SAll; q_ops := [QWhere {| cc_conds := [c]; cc_comb := CAnd |}]; q_agg := None |} /\
  (matches x c e = Ok true <-> k = z) /\ (matches x c e = Ok false <-> k <> z).
Proof.
  intros f z x e k I B D G. destruct (in_64 z B) as [B1 B2].
  destruct (C22_matches_exactly_the_rounded f z x e k I B1 G) as (c & m & n & R & S & Q & M). exists c. split; [exact Q|].
  pose proof (digits_rounded z m R D) as ->. rewrite (B2 n S) in M. exact M.
Qed.
Print Assumptions C22_matches_exactly_that_integer_partial.
(** Beyond the range of binary64 it is read as an infinity. *)
Theorem C22_beyond_the_range : forall f o z, identifier f -> (f64_limit <= Z.abs z)%Z ->
  read_query (L "from * | where " ++ f ++ L " " ++ operator_text o ++ L " " ++ show_Z z) = Ok (one_condition f o (FFloat (S754_infinity (z <? 0)%Z))).
Proof.
  intros f o z I H. pose proof (literal_beyond z H) as E. eapply read_condition; auto.
  - apply vt_num; [apply show_Z_number|apply parse_f64_show].
  - apply number_not_time, show_Z_number.
  - rewrite E. now apply mv_float.
  - intros w M. rewrite E in M. inversion M as [|n J|n J| | | | | | |]; subst; [discriminate J|reflexivity].
Qed.
Print Assumptions C22_beyond_the_range.
Example C22_case : rounded 9007199254740993 9007199254740992 /\ saturated 9007199254740992 9007199254740992 /\
  has_53_digits 1000000000000000000 /\ in_i64 1000000000000000000 = true /\ rounded 10000000000000000000 10000000000000000000 /\ saturated 10000000000000000000 i64_max.
Proof.
  split; [|split; [|split; [|split; [|split]]]].
  - exists 1%Z, 4503599627370496%Z. split; [right; split; [reflexivity|split; [discriminate|reflexivity]]|]. split; [reflexivity|]. split; [discriminate|reflexivity].
  - left. split; [split; [discriminate|reflexivity]|reflexivity].
  - exists 3814697265625%Z, 18%Z. split; [reflexivity|]. split; [discriminate|reflexivity].
  - reflexivity.
  - exists 11%Z, 4882812500000000%Z. split; [right; split; [reflexivity|split; [discriminate|reflexivity]]|]. split; [reflexivity|]. split; [discriminate|reflexivity].
  - right. right. split; [discriminate|reflexivity].
Qed.

(** Finding: literals go through binary64. The literal 2^53+1 matches 2^53 and
    not 2^53+1; a literal beyond the 64-bit range matches the nearest end. *)
Theorem C22_large_literals_refuted :
  (exists z k, k <> z /\ in_i64 z = true /\ in_i64 k = true /\
    read_query (L "from * | where n == " ++ show_Z z) = Ok (one_condition (L "n") OpEq (FInt k))) /\
  (exists z k, in_i64 z = false /\ in_i64 k = true /\
    read_query (L "from * | where n == " ++ show_Z z) = Ok (one_condition (L "n") OpEq (FInt k))).
Proof.
  split.
  - exists 9007199254740993%Z, 9007199254740992%Z. split; [discriminate|]. split; [reflexivity|]. split; [reflexivity|]. vm_compute. reflexivity.
  - exists 10000000000000000000%Z, i64_max. split; [reflexivity|]. split; [reflexivity|]. vm_compute. reflexivity.
Qed.
Print Assumptions C22_large_literals_refuted.
Example C22_nontrivial :
  read_query (L "from * | where n == -9007199254740991") = Ok (one_condition (L "n") OpEq (FInt (-9007199254740991))).
Proof. vm_compute. reflexivity. Qed.

(** ** C23 *)
(** Text without the delimiting quote that does not begin with white space. *)
Theorem C23_string_literal_partial : forall f o q s, identifier f -> q = """"%char \/ q = "'"%char -> ~ In q s ->
  (forall c r, s = c :: r -> c <> " "%char /\ c <> ascii_of_nat 9 /\ c <> ascii_of_nat 10) ->
  read_query (L "from * | where " ++ f ++ L " " ++ operator_text o ++ L " " ++ q :: s ++ [q]) =
  Ok (one_condition f o (FStr s)).
Proof.
  intros f o q s I Q N B.
  assert (Qt : quoted s (q :: s ++ [q])).
  { exists q, []. repeat split; auto; [constructor|]. intros c r E X. destruct (B c r E) as (B1 & B2 & B3).
    inversion X as [|? ? [C|[C|C]] _]; congruence. }
  apply (read_condition f o _ (PStr s) (FStr s) I); [constructor; auto|eapply quoted_not_time; eauto|constructor|].
  intros w M. inversion M. reflexivity.
Qed.
Print Assumptions C23_string_literal_partial.
(** In general the text loses exactly the white space it begins with. *)
Theorem C23_leading_blanks_dropped : forall f o q w s, identifier f -> q = """"%char \/ q = "'"%char -> ~ In q s ->
  blank w -> (forall c r, s = c :: r -> ~ blank [c]) ->
  read_query (L "from * | where " ++ f ++ L " " ++ operator_text o ++ L " " ++ q :: w ++ s ++ [q]) =
  Ok (one_condition f o (FStr s)).
Proof.
  intros f o q w s I Q N W B.
  assert (Qt : quoted s (q :: w ++ s ++ [q])) by (exists q, w; repeat split; auto).
  apply (read_condition f o _ (PStr s) (FStr s) I); [constructor; auto|eapply quoted_not_time; eauto|constructor|].
  intros v M. inversion M. reflexivity.
Qed.
Print Assumptions C23_leading_blanks_dropped.
(** Finding. *)
Theorem C23_leading_blank_refuted : exists s s', ~ In """"%char s /\ s <> s' /\
  read_query (L "from * | where n == """ ++ s ++ L """") = Ok (one_condition (L "n") OpEq (FStr s')).
Proof.
  exists (L " x"), (L "x"). split; [vm_compute; intuition discriminate|]. split; [discriminate|]. vm_compute. reflexivity.
Qed.
Print Assumptions C23_leading_blank_refuted.
Example C23_nontrivial :
  read_query (L "from * | where n != 'say ""hi"" | and then  '") = Ok (one_condition (L "n") OpNe (FStr (L "say ""hi"" | and then  "))).
Proof. vm_compute. reflexivity. Qed.

(** ** C04 *)
(** What names in a query mean: the type and the field of the normal form of
    the name. *)
Theorem C04_names_mean_their_normal_form : forall x ops ho t f, orders ho -> identifier t -> identifier f ->
  (exists e, In e (spec_run ops) /\ e_type e = new_id t) ->
  exists q, read_query (L "from " ++ t ++ L " | count " ++ f) = Ok q /\
  execute x (build (run ops)) ho q = Ok (QAgg (RCount (length
    (filter (fun e => match get_field e (new_id f) with Some _ => true | None => false end)
      (filter (fun e => str_eqb (e_type e) (new_id t)) (spec_run ops)))))).
Proof.
  intros x ops ho t f O It If Ex.
  set (q := {| pq_from := RType t; pq_ops := []; pq_agg := Some (PaCount (Some (RfReg f))) |}).
  assert (P : parse_query (join (L " ") (L "from" :: t :: [] ++ L "|" :: L "count" :: [f])) = Ok q).
  { apply C21_single_blanks; [split; auto|constructor| |].
    - eexists. split; [|reflexivity]. constructor. split; auto.
    - intros u H F. cbn in H. pose proof (time_form_blank u F) as (_ & y & r & E & D).
      destruct H as [<-|[<-|[<-|[]]]]; try (injection E as <- _; discriminate). exact (identifier_not_time f If F). }
  assert (E : L "from " ++ t ++ L " | count " ++ f = join (L " ") (L "from" :: t :: [] ++ L "|" :: L "count" :: [f])) by reflexivity.
  exists (to_query q). rewrite E. unfold read_query. rewrite P. split; [reflexivity|].
  unfold execute. cbn [q to_query to_selector pq_from q_from pq_ops q_ops pq_agg q_agg map option_map to_aggregation to_field].
  rewrite (proj1 (proj2 (C18_from_selects_exactly ops ho O)) (new_id t) Ex). reflexivity.
Qed.
Print Assumptions C04_names_mean_their_normal_form.
(** A name in normal form means the field and the type of that name. *)
Theorem C04_normal_names_are_seen_partial : forall x ops ho t f, orders ho -> identifier t -> identifier f ->
  new_id t = t -> new_id f = f -> (exists e, In e (spec_run ops) /\ e_type e = t) ->
  exists q, read_query (L "from " ++ t ++ L " | count " ++ f) = Ok q /\
  execute x (build (run ops)) ho q = Ok (QAgg (RCount (length
    (filter (fun e => match get_field e f with Some _ => true | None => false end)
      (filter (fun e => str_eqb (e_type e) t) (spec_run ops)))))).
Proof.
  intros x ops ho t f O It If Nt Nf Ex. pose proof (C04_names_mean_their_normal_form x ops ho t f O It If) as H.
  rewrite Nt, Nf in H. exact (H Ex).
Qed.
Print Assumptions C04_normal_names_are_seen_partial.

(** Finding: the DSL keeps a declared name as it is written, a query looks for
    its normal form. *)
Definition ex_address : entity :=
  {| e_id := L "place.home"; e_type := L "place"; e_fields := [(L "line1", VStr (L "x")); (L "primaryEmail", VStr (L "y"))] |}.
Theorem C04_declared_names_refuted : exists ops f q, identifier f /\
  (exists e v, In e (spec_run ops) /\ get_field e f = Some v) /\
  read_query (L "from place | count " ++ f) = Ok q /\
  execute ex_ext (build (run ops)) ex_ho q = Ok (QAgg (RCount 0)).
Proof.
  exists [OAdd ex_address], (L "line1"). eexists. split; [ident|]. split; [|split; [vm_compute; reflexivity|vm_compute; reflexivity]].
  exists ex_address. eexists. split; [left; reflexivity|vm_compute; reflexivity].
Qed.
Print Assumptions C04_declared_names_refuted.
Theorem C04_declared_types_refuted : exists ops t q e, identifier t /\ In e (spec_run ops) /\ e_type e = t /\
  read_query (L "from " ++ t) = Ok q /\
  exists l, execute ex_ext (build (run ops)) ex_ho q = Err (UnknownEntityType (new_id t) l).
Proof.
  exists [OAdd {| e_id := L "key_result.x"; e_type := L "KeyResult"; e_fields := [] |}], (L "KeyResult"). eexists _, _.
  split; [ident|]. split; [left; reflexivity|]. split; [reflexivity|]. split; [vm_compute; reflexivity|].
  eexists. vm_compute. reflexivity.
Qed.
Print Assumptions C04_declared_types_refuted.
(** Finding: an unknown metadata field silently means @type. *)
Theorem C04_unknown_metadata_refuted :
  read_query (L "from * | order @created") = read_query (L "from * | order @type").
Proof. vm_compute. reflexivity. Qed.
Print Assumptions C04_unknown_metadata_refuted.
Example C04_nontrivial : new_id (L "key_result") = L "key_result" /\ new_id (L "due_date") = L "due_date".
Proof. vm_compute. auto. Qed.
