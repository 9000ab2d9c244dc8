(** Lemmas for C84. *)
From Coq Require Import Lia.
From Verif Require Import S_Graph L_Graph S_Query S_QText L_Str L_QParse L_Ids L_Related L_Whole2 P_Query P_QParse S_Agree.
Close Scope Z_scope.

(** ** Reading *)
Lemma lay_next t ts text : ~ time_form t -> ts <> [] -> lay ts text -> lay (t :: ts) (t ++ L " " ++ text).
Proof.
  intros T N Ly. apply (lay_token [] t ts (L " " ++ text)); [constructor| | |].
  - intros ? c d r _ E _ D. cbn in E. injection E as <- _. destruct D as [D|D]; discriminate.
  - intros F. destruct (T F).
  - inversion Ly as [w B E|w t0 ts0 rest B A Z Ly']; subst; [congruence|].
    change (L " " ++ w ++ t0 ++ rest) with ((" "%char :: w) ++ t0 ++ rest). constructor; auto. constructor; auto.
Qed.
Lemma lay_last t : ~ time_form t -> lay [t] t.
Proof. intros T. change t with (join (L " ") [t]) at 2. apply lay_spaced. intros u [<-|[]]. exact T. Qed.
Lemma lay_at n ts text : lay (n :: ts) (n ++ text) -> lay (L "@" :: n :: ts) (L "@" ++ n ++ text).
Proof.
  intros Ly. apply (lay_token [] (L "@") (n :: ts) (n ++ text)); [constructor| | |exact Ly].
  - intros t' c d r E _ D. destruct t' as [|a [|]]; try discriminate. injection E as <-. destruct D; discriminate.
  - intros F. apply time_form_blank in F as (_ & c & r & E & D). injection E as <- _. discriminate.
Qed.
Ltac no_time := let F := fresh in let E := fresh in let D := fresh in
  intros F; apply time_form_blank in F as (_ & ? & ? & E & D); injection E as <- _; discriminate.

Definition by_id (s : str) : operation := QWhere {| cc_conds := [{| c_field := FMeta MId; c_op := OpEq; c_value := FStr s |}]; cc_comb := CAnd |}.
Lemma name_no_quote a : identifier a -> ~ In """"%char a.
Proof.
  intros (c & r & -> & A & F) [E|J]; [subst c; destruct A; discriminate|]. rewrite Forall_forall in F. specialize (F _ J). destruct F; discriminate.
Qed.
Lemma quote_quoted t i : identifier t -> identifier i -> quoted (t ++ L "." ++ i) (quote ++ t ++ L "." ++ i ++ quote).
Proof.
  intros T I. exists """"%char, []. split; [now left|]. split; [constructor|]. split; [|split].
  - intros H. apply in_app_or in H as [H|H]; [exact (name_no_quote t T H)|]. destruct H as [H|H]; [discriminate|exact (name_no_quote i I H)].
  - intros c r E X. destruct T as (c' & r' & -> & A & _). injection E as <- _. inversion X as [|? ? [C|[C|C]] _]; subst; destruct A; discriminate.
  - change quote with [""""%char]. cbn [app]. rewrite <- ?app_assoc. reflexivity.
Qed.
Definition id_condition (s : str) : pcondition := {| pc_field := RfMeta (L "id"); pc_op := OpEq; pc_value := PStr s |}.
Lemma id_operation t i : identifier t -> identifier i ->
  operation_tokens (PoWhere [id_condition (t ++ L "." ++ i)] CAnd) (L "where" :: [L "@"; L "id"; L "=="; quote ++ t ++ L "." ++ i ++ quote] ++ []).
Proof.
  intros T I. eapply (ot_where (id_condition (t ++ L "." ++ i)) [] CAnd []); auto; [|constructor|intros ? []].
  exists [L "@"; L "id"], [quote ++ t ++ L "." ++ i ++ quote]. split; [|split; [|reflexivity]].
  - split; [|reflexivity]. exists "i"%char, (L "d"). split; [reflexivity|]. split; [now left|]. constructor; [now left|constructor].
  - apply vt_str. now apply quote_quoted.
Qed.
Lemma read_get t i : identifier t -> identifier i -> read_query (get_query t i) = Ok {| q_from := SAll; q_ops := [by_id (t ++ L "." ++ i)]; q_agg := None |}.
Proof.
  intros T I. set (q := {| pq_from := RAny; pq_ops := [PoWhere [id_condition (t ++ L "." ++ i)] CAnd]; pq_agg := None |}).
  assert (SP : spells q (get_query t i)).
  { eexists (L "*"), _, []. split; [reflexivity|]. split; [apply os_cons; [apply id_operation; auto|constructor]|]. split; [reflexivity|].
    cbn [app]. unfold get_query. set (tok := quote ++ t ++ L "." ++ i ++ quote).
    change (L "from * | where @id == " ++ tok) with (L "from" ++ L " " ++ L "*" ++ L " " ++ L "|" ++ L " " ++ L "where" ++ L " " ++ L "@" ++ L "id" ++ L " " ++ L "==" ++ L " " ++ tok).
    do 4 (apply lay_next; [no_time|discriminate|]). apply lay_at. do 2 (apply lay_next; [no_time|discriminate|]). apply lay_last. no_time. }
  destruct (C21_text_denotes_its_query _ _ SP) as [P _]. unfold read_query. rewrite P. reflexivity.
Qed.
Lemma read_related t i : identifier t -> identifier i ->
  read_query (related_query t i) = Ok {| q_from := SAll; q_ops := [by_id (t ++ L "." ++ i); QRelated 1 None]; q_agg := None |}.
Proof.
  intros T I. set (q := {| pq_from := RAny; pq_ops := [PoWhere [id_condition (t ++ L "." ++ i)] CAnd; PoRelated None None]; pq_agg := None |}).
  assert (SP : spells q (related_query t i)).
  { eexists (L "*"), _, []. split; [reflexivity|]. split; [apply os_cons; [apply id_operation; auto|apply os_cons; [apply ot_related|constructor]]|]. split; [reflexivity|].
    cbn [app]. unfold related_query, get_query. set (tok := quote ++ t ++ L "." ++ i ++ quote).
    change ((L "from * | where @id == " ++ tok) ++ L " | related") with (L "from" ++ L " " ++ L "*" ++ L " " ++ L "|" ++ L " " ++ L "where" ++ L " " ++ L "@" ++ L "id" ++ L " " ++ L "==" ++ L " " ++ tok ++ L " " ++ L "|" ++ L " " ++ L "related").
    do 4 (apply lay_next; [no_time|discriminate|]). apply lay_at. do 2 (apply lay_next; [no_time|discriminate|]).
    do 2 (apply lay_next; [no_time|discriminate|]). apply lay_last. no_time. }
  destruct (C21_text_denotes_its_query _ _ SP) as [P _]. unfold read_query. rewrite P. reflexivity.
Qed.

(** ** Answering *)
Definition all_lower (es : list entity) : Prop := forall e, In e es -> lower (e_id e) = e_id e.
Definition the (es : list entity) (id : str) : list entity := match lookup es id with Some e => [e] | None => [] end.
Lemma id_filter es id : NoDup (map e_id es) -> filter (fun e => str_eqb (e_id e) id) es = the es id.
Proof.
  unfold the. induction es as [|e es IH]; intros N; cbn [filter]; [reflexivity|]. inversion N as [|? ? NI N']; subst. unfold lookup. cbn [find].
  fold (lookup es id). rewrite (IH N'). destruct (str_eqb (e_id e) id) eqn:E; [|reflexivity]. apply str_eqb_eq in E. subst id.
  destruct (lookup es (e_id e)) as [e'|] eqn:Lk; [|reflexivity]. apply lookup_some in Lk as [I Q]. exfalso. apply NI. rewrite <- Q. now apply in_map.
Qed.
Lemma id_where x s es : all_lower es -> lower s = s ->
  where_step x {| cc_conds := [{| c_field := FMeta MId; c_op := OpEq; c_value := FStr s |}]; cc_comb := CAnd |} es = Ok (filter (fun e => str_eqb (e_id e) s) es).
Proof.
  intros LO LS. apply where_filters. intros e I. unfold matches_all. cbn [cc_conds collect cc_comb]. unfold matches. cbn [c_field c_op c_value meta_value compare_string text_op or_unsupported].
  cbn [forallb]. rewrite andb_true_r. f_equal. apply eq_true_iff_eq. rewrite eq_ignore_case_spec, str_eqb_eq, LS, (LO e I). reflexivity.
Qed.
Lemma the_perm es es' id : NoDup (map e_id es) -> Permutation es' es -> the es' id = the es id.
Proof.
  intros N P. unfold the. assert (N' : NoDup (map e_id es')) by (apply (Permutation_NoDup (Permutation_map e_id (Permutation_sym P))); exact N).
  assert (E : lookup es' id = lookup es id); [|now rewrite E].
  destruct (lookup es' id) as [e|] eqn:E.
  - apply lookup_some in E as [I Q]. symmetry. rewrite <- Q. apply lookup_in; auto. exact (Permutation_in _ P I).
  - destruct (lookup es id) as [e|] eqn:E'; [|reflexivity]. apply lookup_some in E' as [I Q]. rewrite <- E, <- Q. apply lookup_in; auto.
    exact (Permutation_in _ (Permutation_sym P) I).
Qed.
Section Answering.
  Context (x : ext) (ho : hash_order) (HO : orders ho) (ops : list op) (LO : all_lower (spec_run ops)) (ND : NoDup (map e_id (spec_run ops))).
  Lemma ask_id s : lower s = s -> execute x (build (run ops)) ho {| q_from := SAll; q_ops := [by_id s]; q_agg := None |} = Ok (QEntities (the (spec_run ops) s)).
  Proof.
    intros LS. destruct (proj1 (C18_from_selects_exactly ops ho HO)) as (r & SE & P). unfold execute. cbn [q_from q_ops q_agg]. rewrite SE. cbn [bind exec_ops exec_op by_id].
    rewrite id_where; [|intros e I; apply LO, (Permutation_in _ P I)|exact LS]. cbn [bind]. do 2 f_equal.
    rewrite id_filter; [now apply the_perm|]. apply (Permutation_NoDup (Permutation_map e_id (Permutation_sym P))). exact ND.
  Qed.
  Lemma ask_related s : lower s = s ->
    exists r, execute x (build (run ops)) ho {| q_from := SAll; q_ops := [by_id s; QRelated 1 None]; q_agg := None |} = Ok (QEntities r) /\ NoDup (map e_id r) /\
      forall b, In b r <-> In b (spec_run ops) /\ exists a, lookup (spec_run ops) s = Some a /\ (b = a \/ neighbour None a b).
  Proof.
    intros LS. destruct (proj1 (C18_from_selects_exactly ops ho HO)) as (r & SE & P). unfold execute. cbn [q_from q_ops q_agg]. rewrite SE. cbn [bind exec_ops exec_op by_id].
    rewrite id_where; [|intros e I; apply LO, (Permutation_in _ P I)|exact LS]. cbn [bind].
    rewrite id_filter by (apply (Permutation_NoDup (Permutation_map e_id (Permutation_sym P))); exact ND). rewrite (the_perm _ _ s ND P).
    assert (IC : incl (the (spec_run ops) s) (spec_run ops)).
    { unfold the. destruct (lookup (spec_run ops) s) as [a|] eqn:E; [|intros ? []]. apply lookup_some in E as [I _]. intros b [<-|[]]. exact I. }
    destruct (C14_related_is_bounded_reachability x ops ho 1 1 None (the (spec_run ops) s) HO (le_n 1) IC) as (r' & ER & N & C).
    cbn [exec_op] in ER. injection ER as ER. eexists. split; [rewrite ER; reflexivity|]. split; [exact N|]. intros b. rewrite C. split.
    - intros (_ & I & a & Ia & W). split; [exact I|]. unfold the in Ia. destruct (lookup (spec_run ops) s) as [a'|]; [|destruct Ia]. destruct Ia as [->|[]]. exists a. split; [reflexivity|].
      change (Nat.min 1 5) with 1 in W. inversion W as [|? ? m ? [_ H] W']; subst; [now left|]. inversion W'; subst. now right.
    - intros (I & a & E & H). split; [exact Logic.I|]. split; [exact I|]. exists a. unfold the. rewrite E. split; [now left|]. destruct H as [->|H]; [constructor|].
      econstructor; [split; [exact I|exact H]|constructor].
  Qed.
End Answering.
