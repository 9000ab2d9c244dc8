(** Properties C05-C09: the entity graph. [run ops] is the graph after any
    sequence of API calls; [spec_run ops] is the list of accepted entities
    (S_Graph). *)
From Coq Require Import Permutation Sorted.
From Verif Require Import M_Graph S_Graph L_Str L_Graph.

(** C05. *)
Theorem C05_lookup_and_results : forall ops : list op,
  (forall id, get_entity (run ops) id = lookup (spec_run ops) id) /\
  (forall o, snd (step (run ops) o) = snd (spec_step (spec_run ops) o)).
Proof.
  intros ops. split; intros x;
  [exact (get_entity_lookup _ _ x (run_inv ops))|exact (proj1 (step_inv _ _ x (run_inv ops)))].
Qed.
Print Assumptions C05_lookup_and_results.

Theorem C05_first_added_wins : forall (es : list entity) (id : entity_id),
  get_entity (run (map OAdd es)) id = find (fun e => str_eqb (e_id e) id) es.
Proof.
  intros es id. rewrite (get_entity_lookup _ _ id (run_inv (map OAdd es))). exact (accept_all_adds es [] id).
Qed.
Print Assumptions C05_first_added_wins.

Theorem C05_duplicate_is_refused_without_effect : forall (ops : list op) (e e0 : entity),
  get_entity (run ops) (e_id e) = Some e0 ->
  step (run ops) (OAdd e) = (run ops, Err (EntityAlreadyExists (e_id e))).
Proof.
  intros ops e e0 H. pose proof (add_entity_inv _ _ e (run_inv ops)) as X.
  rewrite <- (get_entity_lookup _ _ (e_id e) (run_inv ops)), H in X. exact X.
Qed.
Print Assumptions C05_duplicate_is_refused_without_effect.

(** A small graph used below: john works at acme, acme's boss is john. *)
Definition ex_john : entity :=
  with_field (with_field (entity_new (L "person.john") (L "person")) (L "name") (VStr (L "John")))
    (L "employer") (VList [VRef (REntity (L "organization.acme")); VList [VRef (REntity (L "person.ghost"))]]).
Definition ex_acme : entity :=
  with_field (with_field (entity_new (L "organization.acme") (L "organization")) (L "boss")
    (VRef (REntity (L "person.john")))) (L "label") (VRef (RField (L "person.john") (L "name"))).
Definition ex_john2 : entity := entity_new (L "person.john") (L "robot").
Definition ex_ops : list op := [OAdd ex_john; OBuild; OAddMany [ex_acme; ex_john2; entity_new (L "a.b") (L "a")]].

Example C05_nontrivial :
  spec_run ex_ops = [ex_john; ex_acme] /\
  map (fun o => snd (step (run [OAdd ex_john]) o)) [OAdd ex_john2; OAdd ex_acme]
  = [Err (EntityAlreadyExists (L "person.john")); Ok tt].
Proof. vm_compute. auto. Qed.

(** C06. *)
Theorem C06_build_links_exactly_resolvable_references : forall (ops : list op) (a b : entity) (r : relationship),
  linked (build (run ops)) a b r <->
  In a (spec_run ops) /\ In b (spec_run ops) /\
  exists f v x, In (f, v) (e_fields a) /\ holds v x /\ ref_target x = e_id b /\ r = rel_of f x.
Proof. intros ops a b r. exact (linked_spec _ _ a b r (built_run ops)). Qed.
Print Assumptions C06_build_links_exactly_resolvable_references.

Theorem C06_build_idempotent_and_keeps_entities : forall ops : list op,
  build (build (run ops)) = build (run ops) /\
  (forall id, get_entity (build (run ops)) id = get_entity (run ops) id) /\
  (forall t, list_by_type (build (run ops)) t = list_by_type (run ops) t).
Proof. intros ops. repeat split. Qed.
Print Assumptions C06_build_idempotent_and_keeps_entities.

Example C06_nontrivial : g_edges (build (run ex_ops)) =
  [(0, 1, EntityReference (L "employer")); (1, 0, EntityReference (L "boss"));
   (1, 0, FieldReference (L "label") (L "name"))].
Proof. vm_compute. reflexivity. Qed.

(** C07. *)
Theorem C07_get_related_exact_sorted : forall (ops : list op) (id : entity_id) (d : option direction),
  match get_related (build (run ops)) id d with
  | None => lookup (spec_run ops) id = None
  | Some l => exists a, lookup (spec_run ops) id = Some a
                /\ StronglySorted id_lt l
                /\ forall b, In b l <-> In b (spec_run ops) /\ neighbour d a b
  end.
Proof. intros ops id d. exact (get_related_spec _ _ id d (built_run ops)). Qed.
Print Assumptions C07_get_related_exact_sorted.

Theorem C07_outgoing_incoming_dual : forall (ops : list op) (a b : entity),
  In a (spec_run ops) -> In b (spec_run ops) ->
  exists la lb, get_related (build (run ops)) (e_id a) (Some Outgoing) = Some la /\
                get_related (build (run ops)) (e_id b) (Some Incoming) = Some lb /\
                (In b la <-> In a lb).
Proof. intros ops a b. exact (related_dual _ _ a b (built_run ops)). Qed.
Print Assumptions C07_outgoing_incoming_dual.

Example C07_nontrivial :
  get_related (build (run ex_ops)) (L "organization.acme") None = Some [ex_john] /\
  get_related (build (run ex_ops)) (L "person.john") (Some Incoming) = Some [ex_acme] /\
  get_related (build (run ex_ops)) (L "person.ghost") None = None /\
  In ex_john (spec_run ex_ops) /\ In ex_acme (spec_run ex_ops).
Proof. vm_compute. auto 10. Qed.

(** C08. *)
Theorem C08_resolves_exactly_chains_of_at_most_ten_hops :
  forall (ops : list op) (id : entity_id) (f : field_id) (v : value),
  resolve_field_reference (build (run ops)) (VRef (RField id f)) = Ok v
  <-> exists n, S n <= 10 /\ follows (spec_run ops) id f n v.
Proof. exact resolve_field_iff. Qed.
Print Assumptions C08_resolves_exactly_chains_of_at_most_ten_hops.

Theorem C08_never_yields_a_field_reference :
  forall (ops : list op) (w v : value),
  resolve_field_reference (build (run ops)) w = Ok v -> ~ is_field_ref v.
Proof.
  intros ops w v H. destruct w as [| | | | |[|id f]| | | |]; try discriminate.
  apply resolve_field_iff in H. destruct H as (n & _ & F). exact (follows_not_ref _ _ _ _ _ F).
Qed.
Print Assumptions C08_never_yields_a_field_reference.

Theorem C08_cycles_are_errors : forall (ops : list op) (id : entity_id) (f : field_id),
  (exists q, hops (spec_run ops) (id, f) q /\ hops (spec_run ops) q q) \/ hops (spec_run ops) (id, f) (id, f) ->
  exists x, resolve_field_reference (build (run ops)) (VRef (RField id f)) = Err x.
Proof. exact resolve_cycle_err. Qed.
Print Assumptions C08_cycles_are_errors.

(** Which error is reported. A trail is a sequence of hops; the position it
    ends at decides the answer. *)
Theorem C08_failures_are_named : forall (ops : list op) (id : entity_id) (f : field_id) l q,
  trail (spec_run ops) (id, f) l q -> NoDup l ->
  let r := resolve_field_reference (build (run ops)) (VRef (RField id f)) in
  (lookup (spec_run ops) (fst q) = None -> length l <= 10 -> r = Err (EntityNotFound (fst q))) /\
  (forall e, lookup (spec_run ops) (fst q) = Some e -> get_field e (snd q) = None -> length l <= 9 ->
     r = Err (FieldNotFound (fst q) (snd q))) /\
  (In q l -> length l <= 9 -> r = Err CyclicReference) /\
  (forall e, lookup (spec_run ops) (fst q) = Some e -> length l = 10 -> r = Err MaxDepthExceeded).
Proof. exact resolve_failures. Qed.
Print Assumptions C08_failures_are_named.

Definition ex_loop : entity :=
  with_field (with_field (entity_new (L "p.loop") (L "p")) (L "x") (VRef (RField (L "p.loop") (L "y"))))
    (L "y") (VRef (RField (L "p.loop") (L "x"))).
Example C08_nontrivial :
  resolve_field_reference (build (run ex_ops)) (VRef (RField (L "organization.acme") (L "label")))
  = Ok (VStr (L "John")) /\
  hops (spec_run [OAdd ex_loop]) (L "p.loop", L "x") (L "p.loop", L "x") /\
  resolve_field_reference (build (run [OAdd ex_loop])) (VRef (RField (L "p.loop") (L "x"))) = Err CyclicReference.
Proof.
  split; [vm_compute; reflexivity|]. split; [|vm_compute; reflexivity].
  apply hops_more with (L "p.loop", L "y"); [|apply hops_one];
    (exists ex_loop; split; vm_compute; reflexivity).
Qed.

(** Eleven entities, each referring to the next. *)
Definition ex_line : list entity :=
  map (fun n => with_field (entity_new (repeat "p"%char n) (L "p")) (L "x") (VRef (RField (repeat "p"%char (S n)) (L "x")))) (seq 0 11).
Example C08_failures_nontrivial :
  (exists l, trail (spec_run [OAdd ex_loop]) (L "p.loop", L "x") l (L "p.loop", L "x") /\ NoDup l /\ length l = 2) /\
  (exists l, trail (spec_run [OAddMany ex_line]) ([], L "x") l (repeat "p"%char 10, L "x") /\ NoDup l /\ length l = 10 /\
    lookup (spec_run [OAddMany ex_line]) (repeat "p"%char 10) <> None).
Proof.
  split.
  - exists [(L "p.loop", L "x"); (L "p.loop", L "y")]. split.
    + apply trail_hop with (L "p.loop", L "y"); [exists ex_loop; split; vm_compute; reflexivity|].
      apply trail_hop with (L "p.loop", L "x"); [exists ex_loop; split; vm_compute; reflexivity|]. constructor.
    + split; [|reflexivity]. repeat constructor; cbn; intuition discriminate.
  - exists (map (fun n => (repeat "p"%char n, L "x")) (seq 0 10)). split; [|split; [|split]].
    + cbn [map seq]. do 10 (match goal with |- trail _ (?a, _) _ _ => apply trail_hop with ("p"%char :: a, L "x") end;
        [eexists; split; vm_compute; reflexivity|]). constructor.
    + apply FinFun.Injective_map_NoDup; [|apply seq_NoDup]. intros a b E. injection E as E.
      rewrite <- (repeat_length "p"%char a), <- (repeat_length "p"%char b), E. reflexivity.
    + reflexivity.
    + vm_compute. discriminate.
Qed.

(** C09. *)
Theorem C09_list_by_type_in_insertion_order : forall (ops : list op) (t : entity_type),
  list_by_type (run ops) t = filter (fun e => str_eqb (e_type e) t) (spec_run ops).
Proof. intros ops t. exact (list_by_type_filter _ _ t (run_inv ops)). Qed.
Print Assumptions C09_list_by_type_in_insertion_order.

(** Concatenating the lists of all types, visited in any order, gives every
    entity exactly once. *)
Theorem C09_types_partition_the_entities : forall (ops : list op) (ts : list entity_type),
  Permutation ts (type_keys (run ops)) ->
  Permutation (flat_map (list_by_type (run ops)) ts) (spec_run ops) /\ NoDup (map e_id (spec_run ops)).
Proof.
  intros ops ts P. split; [|exact (spec_run_nodup ops)].
  destruct (type_keys_spec _ _ (run_inv ops)) as [N K].
  rewrite (flat_map_ext _ (fun t => filter (fun e => str_eqb (e_type e) t) (spec_run ops))
             (fun t => list_by_type_filter _ _ t (run_inv ops))).
  apply (flat_map_filter_perm e_type).
  - exact (Permutation_NoDup (Permutation_sym P) N).
  - intros e He. apply (Permutation_in _ (Permutation_sym P)), K. exists e; auto.
Qed.
Print Assumptions C09_types_partition_the_entities.

Example C09_nontrivial :
  type_keys (run ex_ops) = [L "person"; L "organization"] /\
  list_by_type (run ex_ops) (L "person") = [ex_john].
Proof. vm_compute. auto. Qed.
