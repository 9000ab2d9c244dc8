(** Property C90: what an entity is called makes no difference. *)
From Coq Require Import Permutation.
From Verif Require Import S_Graph S_Query L_Str L_Graph L_Exec P_Graph P_Query S_Rename L_Rename M_Schema.
From Verif Require Import M_Graph.
Close Scope Z_scope.

(** After any history of changes with the new names, every call reports, and
    every entity, list and reference is, what it was with the old names. *)
Theorem C90_same_graph : forall r ops, renaming r ->
  let g := run ops in let g' := run (map (rename_op r) ops) in
  (forall o, snd (step g' (rename_op r o)) = rename_result r (fun u => u) (snd (step g o))) /\
  (forall id, get_entity g' (r id) = option_map (rename_entity r) (get_entity g id)) /\
  (forall t, list_by_type g' t = map (rename_entity r) (list_by_type g t)) /\
  (forall v, resolve_entity_reference g' (rename_value r v) = rename_result r (rename_entity r) (resolve_entity_reference g v)) /\
  (forall v, resolve_field_reference g' (rename_value r v) = rename_result r (rename_value r) (resolve_field_reference g v)) /\
  type_keys g' = type_keys g.
Proof.
  intros r ops R g g'. unfold g'. rewrite (run_renamed r R). fold g.
  split; [intros o; rewrite (step_renamed r R); reflexivity|]. split; [exact (get_renamed r R g)|]. split; [exact (list_renamed r g)|].
  split; [exact (resolve_renamed r R g)|]. split; [exact (resolve_field_renamed r R g)|reflexivity].
Qed.
Print Assumptions C90_same_graph.

Lemma rebuilt r ops : renaming r -> build (run (map (rename_op r) ops)) = rename_graph r (build (run ops)).
Proof. intros R. rewrite (run_renamed r R). exact (f_equal fst (step_renamed r R (run ops) OBuild)). Qed.
Lemma rebuilt_built r ops : renaming r -> L_Graph.built (rename_graph r (build (run ops))) (map (rename_entity r) (spec_run ops)).
Proof. intros R. rewrite <- (rebuilt r ops R), <- (nodes_renamed r R). apply built_run. Qed.

(** The neighbours of an entity are the same ... *)
Theorem C90_related_alike : forall r ops, renaming r -> forall id d,
  match get_related (build (run ops)) id d, get_related (build (run (map (rename_op r) ops))) (r id) d with
  | Some l, Some l' => Permutation (map (rename_entity r) l) l'
  | None, None => True
  | _, _ => False
  end.
Proof.
  intros r ops R. rewrite (rebuilt r ops R). exact (built_renamed r R _ _ (built_run ops) (rebuilt_built r ops R)).
Qed.
Print Assumptions C90_related_alike.
(** ... a query gives the same entities ... *)
Theorem C90_queries_alike : forall r ops, renaming r -> forall x ho ho' s q, orders ho -> orders ho' ->
  no_limit q -> (forall c, conditions q c -> asks_no_letters (spec_run ops) c) ->
  same_entities
    (rename_answer r (execute x (build (run ops)) ho {| q_from := s; q_ops := q; q_agg := None |}))
    (execute x (build (run (map (rename_op r) ops))) ho' {| q_from := s; q_ops := map (rename_operation r) q; q_agg := None |}).
Proof.
  intros r ops R x ho ho' s q O O' NL C. rewrite (rebuilt r ops R).
  exact (execute_renamed r R x _ _ (built_run ops) (rebuilt_built r ops R) ho ho' O O' s q NL C).
Qed.
Print Assumptions C90_queries_alike.
(** ... in the same order and up to the same limit, with the same sums, and
    refused for the same reason, if no relations are followed and the order
    asked for is not that of names. *)
Theorem C90_answers_the_same : forall r ops, renaming r -> forall x ho s q a, orders ho ->
  no_related q -> (forall c, conditions q c -> asks_no_letters (spec_run ops) c) ->
  ordered_by_no_name (spec_run ops) q -> shows_no_id a ->
  execute x (build (run (map (rename_op r) ops))) ho {| q_from := s; q_ops := map (rename_operation r) q; q_agg := a |}
  = rename_answer r (execute x (build (run ops)) ho {| q_from := s; q_ops := q; q_agg := a |}).
Proof.
  intros r ops R x ho s q a O NR C Or SI. rewrite (rebuilt r ops R). exact (execute_exactly r R x _ _ ho s q a (built_run ops) O NR C Or SI).
Qed.
Print Assumptions C90_answers_the_same.
(** The schema finds the same faults. *)
Theorem C90_validation_alike : forall r ho s e, validate ho s (rename_entity r e) = validate ho s e.
Proof. exact validate_renamed. Qed.
Print Assumptions C90_validation_alike.

(** A renaming: every name is read backwards. *)
Definition backwards : entity_id -> entity_id := @rev ascii.
Lemma lower_backwards s : lower (backwards s) = rev (lower s).
Proof. unfold lower, backwards. apply map_rev. Qed.
Lemma backwards_renames : renaming backwards.
Proof.
  split.
  - intros a b H. apply (f_equal (@rev ascii)) in H. unfold backwards in H. rewrite !rev_involutive in H. exact H.
  - intros a b. rewrite !lower_backwards. split; [|now intros ->]. intros H. apply (f_equal (@rev ascii)) in H. rewrite !rev_involutive in H. exact H.
Qed.
Definition two_items : list op :=
  [OAddMany [ex_item (L "ab") [(L "of", VRef (REntity (L "item.ba"))); (L "from", VRef (RField (L "item.ba") (L "n")))];
             ex_item (L "ba") [(L "n", VInt 3)]]].

(** Findings: an order by [@id] is an order of letters; ... *)
Theorem C90_ordered_by_name_refuted : exists r ops x ho d, renaming r /\ orders ho /\
  let q := [QOrder (FMeta MId) d] in
  execute x (build (run (map (rename_op r) ops))) ho {| q_from := SAll; q_ops := map (rename_operation r) q; q_agg := None |}
  <> rename_answer r (execute x (build (run ops)) ho {| q_from := SAll; q_ops := q; q_agg := None |}).
Proof.
  exists backwards, two_items, ex_ext, ex_ho, Ascending. split; [exact backwards_renames|]. split; [exact ex_ho_ok|]. vm_compute. discriminate.
Qed.
Print Assumptions C90_ordered_by_name_refuted.
(** ... a reference can be compared with a text, which a renaming leaves; ... *)
Theorem C90_text_compared_refuted : exists r ops x ho f s, renaming r /\ orders ho /\ to_entities (spec_run ops) f /\
  let q := comparing f (FStr s) in
  ~ same_entities
    (rename_answer r (execute x (build (run ops)) ho {| q_from := SAll; q_ops := q; q_agg := None |}))
    (execute x (build (run (map (rename_op r) ops))) ho {| q_from := SAll; q_ops := map (rename_operation r) q; q_agg := None |}).
Proof.
  exists backwards, two_items, ex_ext, ex_ho, (L "of"), (L "item.ba"). split; [exact backwards_renames|]. split; [exact ex_ho_ok|]. split.
  - intros e v t I G H. destruct I as [<-|[<-|[]]]; cbn in G; [|discriminate]. injection G as <-. inversion H; subst. eauto.
  - vm_compute. intros P. apply Permutation_sym, Permutation_nil in P. discriminate.
Qed.
Print Assumptions C90_text_compared_refuted.
(** ... and so is a reference to a field, whose name is then read as the name
    of an entity. *)
Theorem C90_field_compared_refuted : exists r ops x ho f s, renaming r /\ orders ho /\
  let q := comparing f (FRef s) in
  ~ same_entities
    (rename_answer r (execute x (build (run ops)) ho {| q_from := SAll; q_ops := q; q_agg := None |}))
    (execute x (build (run (map (rename_op r) ops))) ho {| q_from := SAll; q_ops := map (rename_operation r) q; q_agg := None |}).
Proof.
  exists backwards, two_items, ex_ext, ex_ho, (L "from"), (L "item.ba.n"). split; [exact backwards_renames|]. split; [exact ex_ho_ok|].
  vm_compute. intros P. apply Permutation_sym, Permutation_nil in P. discriminate.
Qed.
Print Assumptions C90_field_compared_refuted.

(** The two items, each with its name read backwards. *)
Example C90_case :
  renaming backwards /\ orders ex_ho /\ orders ex_ho_rev /\
  get_entity (run (map (rename_op backwards) two_items)) (L "ab.meti")
    = Some {| e_id := L "ab.meti"; e_type := L "item"; e_fields := [(L "n", VInt 3)] |} /\
  resolve_field_reference (build (run (map (rename_op backwards) two_items))) (VRef (RField (L "ba.meti") (L "from"))) = Ok (VInt 3) /\
  (let q := comparing (L "of") (FRef (L "item.ba")) ++ [QRelated 1 None] in
   no_limit q /\ (forall c, conditions q c -> asks_no_letters (spec_run two_items) c) /\
   exists l, execute ex_ext (build (run two_items)) ex_ho {| q_from := SType (L "item"); q_ops := q; q_agg := None |} = Ok (QEntities l) /\ map e_id l = [L "item.ab"; L "item.ba"]) /\
  (let q := [QWhere {| cc_conds := [{| c_field := FReg (L "n"); c_op := OpGt; c_value := FInt 1 |}]; cc_comb := CAnd |}; QOrder (FReg (L "n")) Descending; QLimit 1] in
   no_related q /\ (forall c, conditions q c -> asks_no_letters (spec_run two_items) c) /\ ordered_by_no_name (spec_run two_items) q /\
   execute ex_ext (build (run two_items)) ex_ho {| q_from := SType (L "item"); q_ops := q; q_agg := Some (ASum (FReg (L "n"))) |} = Ok (QAgg (RSum (AVInt 3)))).
Proof.
  assert (NN : nameless (spec_run two_items) (L "n")).
  { intros e v t I G H. destruct I as [<-|[<-|[]]]; cbn in G; [discriminate|]. injection G as <-. inversion H. }
  split; [exact backwards_renames|]. split; [exact ex_ho_ok|]. split; [exact ex_ho_rev_ok|]. split; [reflexivity|]. split; [vm_compute; reflexivity|]. split.
  - intros q. split; [intros k [H|[H|[]]]; discriminate|]. split.
    + intros c (cc & [H|[H|[]]] & I); [|discriminate]. injection H as <-. destruct I as [<-|[]]. right. split; [|exact Logic.I].
      intros e v t I G H. destruct I as [<-|[<-|[]]]; cbn in G; [|discriminate]. injection G as <-. inversion H; subst. eauto.
    + eexists. split; vm_compute; reflexivity.
  - intros q. split; [intros d t [H|[H|[H|[]]]]; discriminate|]. split.
    + intros c (cc & [H|[H|[H|[]]]] & I); try discriminate. injection H as <-. destruct I as [<-|[]]. left. exact NN.
    + split; [intros f d [H|[H|[H|[]]]]; try discriminate; injection H as <- <-; exact NN|vm_compute; reflexivity].
Qed.
