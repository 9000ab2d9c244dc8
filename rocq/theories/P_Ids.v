(** Properties C01, C02: identifiers. *)
From Verif Require Import M_Str M_Ids L_Ids.

(** C01. *)
Theorem C01_normalisation_canonical : forall s : str,
  new_id (new_id s) = new_id s
  /\ (forall c, In c (new_id s) -> is_upper c = false /\ c <> " "%char /\ c <> "-"%char)
  /\ (forall a, new_id s <> "_"%char :: a)
  /\ (forall a, new_id s <> a ++ ["_"%char])
  /\ (forall a b, new_id s <> a ++ "_"%char :: "_"%char :: b).
Proof.
  intros s. split; [exact (to_snake_idem s)|]. split; [exact (to_snake_chars s)|].
  repeat split; intros; [exact (join_no_lead _ _ (snake_words_normal s))
                        |exact (join_no_trail _ _ (snake_words_normal s))
                        |exact (join_no_double _ _ _ (snake_words_normal s))].
Qed.
Print Assumptions C01_normalisation_canonical.

(** Apart from spaces, hyphens and underscores every character is kept,
    lower-cased, in order. *)
Theorem C01_normalisation_keeps_text : forall s : str,
  filter (fun c => negb (is_sep c)) (new_id s) = lower (filter (fun c => negb (is_sep c)) s).
Proof. exact unsep_to_snake. Qed.
Print Assumptions C01_normalisation_keeps_text.

(** Lower-case words joined by single underscores are left alone. *)
Theorem C01_plain_snake_case_unchanged : forall ws : list str,
  Forall (fun w => w <> [] /\ forall c, In c w -> is_lower c = true) ws ->
  new_id (join (L "_") ws) = join (L "_") ws.
Proof. exact to_snake_plain. Qed.
Print Assumptions C01_plain_snake_case_unchanged.

Example C01_nontrivial : new_id (L "My XMLHttp-Request2a") = L "my_xml_http_request_2_a".
Proof. vm_compute. reflexivity. Qed.
Example C01_plain_nontrivial :
  Forall (fun w => w <> [] /\ forall c, In c w -> is_lower c = true) [L "john"; L "doe"].
Proof.
  repeat constructor; try discriminate; cbn; intros c H;
  repeat (destruct H as [<-|H]; [reflexivity|]); destruct H.
Qed.

(** C02. *)
Theorem C02_split_compose : forall t i : str,
  new_id t = t -> new_id i = i -> ~ In "."%char t ->
  compose_entity_id t i = t ++ L "." ++ i /\
  decompose_entity_id (compose_entity_id t i) = (t, i).
Proof. intros t i Ht Hi D. split; [exact (compose_fixpoint t i Ht Hi)|exact (compose_decompose t i Ht Hi D)]. Qed.
Print Assumptions C02_split_compose.

(** Splitting any identifier: at the first dot; without one, the whole text is
    the identifier of the type "unknown". *)
Theorem C02_split_any : forall s : str,
  (forall t i, s = t ++ L "." ++ i -> ~ In "."%char t -> decompose_entity_id s = (t, i)) /\
  (~ In "."%char s -> decompose_entity_id s = (L "unknown", s)).
Proof. exact decompose_any. Qed.
Print Assumptions C02_split_any.

Theorem C02_no_collisions : forall t i t' i' : str,
  new_id t = t -> new_id i = i -> ~ In "."%char t ->
  new_id t' = t' -> new_id i' = i' -> ~ In "."%char t' ->
  compose_entity_id t i = compose_entity_id t' i' -> t = t' /\ i = i'.
Proof.
  intros t i t' i' Ht Hi D Ht' Hi' D' E.
  assert (X : (t, i) = (t', i')) by
    (rewrite <- (compose_decompose t i Ht Hi D), <- (compose_decompose t' i' Ht' Hi' D'), E; reflexivity).
  injection X; auto.
Qed.
Print Assumptions C02_no_collisions.

(** For arbitrary spellings: two declarations get the same composite id exactly
    when the normal forms of both halves agree. *)
Theorem C02_collision_iff : forall t i t' i' : str,
  ~ In "."%char t -> ~ In "."%char t' ->
  (compose_entity_id t i = compose_entity_id t' i' <->
   new_id (lower t ++ L ".") = new_id (lower t' ++ L ".") /\
   new_id (L "." ++ i) = new_id (L "." ++ i')).
Proof. exact compose_collide. Qed.
Print Assumptions C02_collision_iff.

(** Finding: different DSL identifiers of one type do collide
    ([person john1] and [person john_1]; [person JohnDoe] and [person john_doe]). *)
Theorem C02_distinct_identifiers_refuted :
  exists t i i', i <> i' /\ compose_entity_id t i = compose_entity_id t i'.
Proof. exists (L "person"), (L "john1"), (L "john_1"). split; [discriminate|vm_compute; reflexivity]. Qed.
Print Assumptions C02_distinct_identifiers_refuted.

Example C02_nontrivial :
  new_id (L "key_result") = L "key_result" /\ new_id (L "grow_revenue") = L "grow_revenue"
  /\ ~ In "."%char (L "key_result")
  /\ compose_entity_id (L "key_result") (L "grow_revenue") = L "key_result.grow_revenue".
Proof. repeat split; try (vm_compute; reflexivity). cbn. intuition discriminate. Qed.
