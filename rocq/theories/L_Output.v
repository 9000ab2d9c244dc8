(** Printed answers: proofs. *)
From Verif Require Import M_Graph.
From Verif Require Import L_Str L_Json L_Show S_Output.
Close Scope Z_scope.

Lemma read_through {A B} (dec : jv -> option A) (dec' : jv -> option B) t a b : (forall j, dec j = Some a -> dec' j = Some b) ->
  read_output dec t = Some a -> read_output dec' t = Some b.
Proof. intros H. unfold read_output. destruct (read_json t); [apply H|discriminate]. Qed.
Lemma found_entities env es : Forall (storable_entity env) es -> read_output (found_from env) (json_entities env es) = Some (QEntities es).
Proof.
  intros F. apply (read_through (list_from (dec_entity env)) _ _ es); [|apply entities_output, F].
  intros j H. destruct j; try discriminate H. unfold found_from. rewrite H. reflexivity.
Qed.
Lemma found_result env a : storable_result env a -> read_output (found_from env) (json_query env (QAgg a)) = Some (QAgg a).
Proof.
  intros F. apply (read_through (result_from env) _ _ a); [|apply result_output, F].
  intros j H. destruct j; try discriminate H. unfold found_from. rewrite H. reflexivity.
Qed.
Lemma answer_read c x st q r env ho : server_answer c x st q = Succeeded r -> (forall t i dir, q <> CRelated t i dir) -> (forall s, Permutation (ho (s_fields s)) (s_fields s)) ->
  carried env r -> exists r', read_reply env q (print_json env ho q r) = Some r' /\ same_reply r r'.
Proof.
  intros A NR P C. destruct q as [t i|t|t i dir|s|t i]; cbn [server_answer] in A.
  - unfold get_tool in A. cbn [read_reply]. destruct (str_eqb t (L "schema")).
    + destruct (get_schema_tool st i) as [s|]; [|discriminate A]. injection A as <-. cbn [print_json carried] in *.
      destruct (schema_output env ho s C (P s)) as (s' & E & S). rewrite E. exists (RGot (GotSchema s')). split; [reflexivity|exact S].
    + match type of A with context [match ?g with Some e => GotEntity e | None => NotGot end] => destruct g as [e|] end; [|discriminate A]. injection A as <-. cbn [print_json carried] in *.
      rewrite entity_output by exact C. eexists. split; reflexivity.
  - injection A as <-. cbn [print_json read_reply]. rewrite names_output. eexists. split; reflexivity.
  - edestruct NR; reflexivity.
  - destruct (query_text _ _ _) as [u|]; [|discriminate A]. injection A as <-. cbn [print_json read_reply carried] in *. destruct u as [es|a].
    + cbn [json_query]. rewrite found_entities by exact C. eexists. split; reflexivity.
    + rewrite found_result by exact C. eexists. split; reflexivity.
  - destruct (if str_eqb t (L "schema") then _ else _) as [p|]; [|discriminate A]. injection A as <-. cbn [print_json read_reply]. rewrite source_output.
    rewrite !str_eqb_refl. eexists. split; reflexivity.
Qed.
