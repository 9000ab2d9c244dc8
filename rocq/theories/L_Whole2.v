(** Lemmas for C73: the queries. *)
From Coq Require Import Lia.
From Verif Require Import S_Graph S_Query S_QText L_Str L_QParse S_Round L_Round P_Query P_QParse.
Close Scope Z_scope.

Definition ask (t : str) (ops : list operation) (agg : option aggregation) : query := {| q_from := SType (new_id t); q_ops := ops; q_agg := agg |}.
Definition only_where (f : str) (o : operator) (w : fvalue) : list operation :=
  [QWhere {| cc_conds := [{| c_field := FReg (new_id f); c_op := o; c_value := w |}]; cc_comb := CAnd |}].
Lemma read_typed t f o tok v w : identifier t -> identifier f -> value_tokens v [tok] -> ~ time_form tok -> means_value v w ->
  (forall w', means_value v w' -> w' = w) ->
  read_query (L "from " ++ t ++ L " | where " ++ f ++ L " " ++ operator_text o ++ L " " ++ tok) = Ok (ask t (only_where f o w) None).
Proof.
  intros IT I V T M U.
  set (c := {| pc_field := RfReg f; pc_op := o; pc_value := v |}).
  set (q := {| pq_from := RType t; pq_ops := [PoWhere [c] CAnd]; pq_agg := None |}).
  assert (P : parse_query (join (L " ") (L "from" :: t :: (L "|" :: (L "where" :: ([f] ++ operator_text o :: [tok]) ++ []) ++ []) ++ [])) = Ok q).
  { apply C21_single_blanks; [split; auto| |reflexivity|].
    - apply os_cons; [|constructor]. eapply (ot_where c [] CAnd []); auto; [|constructor|intros ? []].
      exists [f], [tok]. repeat split; auto.
    - intros u H F. cbn in H. pose proof (time_form_blank u F) as (B & x & r & E & D).
      destruct H as [<-|[<-|[<-|[<-|[<-|[]]]]]]; try (injection E as <- _; discriminate).
      + exact (identifier_not_time f I F).
      + destruct o; injection E as <- _; discriminate.
      + exact (T F). }
  assert (E : L "from " ++ t ++ L " | where " ++ f ++ L " " ++ operator_text o ++ L " " ++ tok =
    join (L " ") (L "from" :: t :: (L "|" :: (L "where" :: ([f] ++ operator_text o :: [tok]) ++ []) ++ []) ++ [])).
  { cbn [app join]. destruct o; reflexivity. }
  rewrite E. unfold read_query. rewrite P. cbn. unfold ask, only_where, to_query. cbn. unfold to_condition. cbn.
  rewrite (U (to_value v)) by apply value_meaning. reflexivity.
Qed.
Lemma read_from t : identifier t -> read_query (L "from " ++ t) = Ok (ask t [] None).
Proof.
  intros IT. set (q := {| pq_from := RType t; pq_ops := []; pq_agg := None |}).
  assert (P : parse_query (join (L " ") (L "from" :: t :: [] ++ [])) = Ok q) by (apply C21_single_blanks; [split; auto|constructor|reflexivity|intros u []]).
  change (L "from " ++ t) with (join (L " ") (L "from" :: t :: [] ++ [])). unfold read_query. rewrite P. reflexivity.
Qed.
Lemma read_count t : identifier t -> read_query (L "from " ++ t ++ L " | count") = Ok (ask t [] (Some (ACount None))).
Proof.
  intros IT. set (q := {| pq_from := RType t; pq_ops := []; pq_agg := Some (PaCount None) |}).
  assert (P : parse_query (join (L " ") (L "from" :: t :: [] ++ [L "|"; L "count"])) = Ok q).
  { apply C21_single_blanks; [split; auto|constructor|eexists; split; [constructor|reflexivity]|].
    intros u H F. pose proof (time_form_blank u F) as (_ & y & r & E & D). destruct H as [<-|[<-|[]]]; injection E as <- _; discriminate. }
  change (L "from " ++ t ++ L " | count") with (join (L " ") (L "from" :: t :: [] ++ [L "|"; L "count"])). unfold read_query. rewrite P. reflexivity.
Qed.

(** The literals. *)
Lemma read_text t f o s : identifier t -> identifier f -> ~ In """"%char s ->
  (forall c r, s = c :: r -> c <> " "%char /\ c <> ascii_of_nat 9 /\ c <> ascii_of_nat 10) ->
  read_query (L "from " ++ t ++ L " | where " ++ f ++ L " " ++ operator_text o ++ L " " ++ """"%char :: s ++ [""""%char]) = Ok (ask t (only_where f o (FStr s)) None).
Proof.
  intros IT I N B.
  assert (Qt : quoted s (""""%char :: s ++ [""""%char])).
  { exists """"%char, []. repeat split; auto; [constructor|]. intros c r E X. destruct (B c r E) as (B1 & B2 & B3).
    inversion X as [|? ? [C|[C|C]] _]; congruence. }
  apply (read_typed t f o _ (PStr s) (FStr s) IT I); [constructor; auto|eapply quoted_not_time; eauto|constructor|].
  intros w M. inversion M. reflexivity.
Qed.
Lemma read_integer t f o z : identifier t -> identifier f -> in_i64 z = true -> has_53_digits z ->
  read_query (L "from " ++ t ++ L " | where " ++ f ++ L " " ++ operator_text o ++ L " " ++ show_Z z) = Ok (ask t (only_where f o (FInt z)) None).
Proof.
  intros IT I Z H. destruct (in_64 z Z) as [LM SA]. destruct (literal_rounded z LM) as (m & R & A & B & C).
  assert (m = z) as -> by exact (digits_rounded z m R H). assert (E : Z.max i64_min (Z.min i64_max z) = z) by (apply SA, clamp_saturated).
  eapply read_typed; auto.
  - apply vt_num; [apply show_Z_number|apply parse_f64_show].
  - apply number_not_time, show_Z_number.
  - pose proof (mv_int _ A) as M. rewrite C, E in M. exact M.
  - intros w M. inversion M; subst; congruence.
Qed.
Lemma read_reference t f o a b : identifier t -> identifier f -> identifier a -> identifier b ->
  read_query (L "from " ++ t ++ L " | where " ++ f ++ L " " ++ operator_text o ++ L " " ++ a ++ L "." ++ b) = Ok (ask t (only_where f o (FRef (a ++ L "." ++ b))) None).
Proof.
  intros IT I A B. apply (read_typed t f o _ (PRef (a ++ L "." ++ b)) (FRef (a ++ L "." ++ b)) IT I); [now constructor| |constructor|].
  - intros T. destruct (time_form_blank _ T) as (_ & x & r & E & D). destruct A as (c & r' & -> & [C|C] & _); injection E as <- _; [|subst c; discriminate].
    destruct c as [[] [] [] [] [] [] [] []]; discriminate.
  - intros w M. inversion M. reflexivity.
Qed.

(** ** Answering *)
Lemma where_filters x cc (D : entity -> bool) es : (forall e, In e es -> matches_all x cc e = Ok (D e)) -> where_step x cc es = Ok (filter D es).
Proof.
  induction es as [|e es IH]; intros H; cbn [where_step filter]; [reflexivity|]. rewrite (H e) by now left. rewrite IH by (intros e' I; apply H; now right).
  destruct (D e); reflexivity.
Qed.
Lemma one_matches x f o w e b : matches x {| c_field := FReg (new_id f); c_op := o; c_value := w |} e = Ok b ->
  matches_all x {| cc_conds := [{| c_field := FReg (new_id f); c_op := o; c_value := w |}]; cc_comb := CAnd |} e = Ok b.
Proof. intros H. unfold matches_all. cbn [cc_conds collect cc_comb]. rewrite H. cbn [forallb]. now rewrite andb_true_r. Qed.
Lemma ask_where x g ho t f o w es (D : entity -> bool) : select_from g ho (SType (new_id t)) = Ok es ->
  (forall e, In e es -> matches x {| c_field := FReg (new_id f); c_op := o; c_value := w |} e = Ok (D e)) ->
  execute x g ho (ask t (only_where f o w) None) = Ok (QEntities (filter D es)).
Proof.
  intros S H. unfold execute, ask. cbn [q_from q_ops q_agg]. rewrite S. cbn [bind]. unfold only_where. cbn [exec_ops exec_op].
  rewrite (where_filters x _ D); [reflexivity|]. intros e I. apply one_matches. now apply H.
Qed.
