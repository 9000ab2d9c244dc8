(** Specification of the entity graph: an append-only list of entities in
    which the first entity with an id wins. *)
From Verif Require Import M_Graph.

Inductive op :=
| OAdd (e : entity)
| OAddMany (es : list entity)
| OBuild
| OClear.

(** The API call and its reported result. *)
Definition step (g : graph) (o : op) : graph * result unit graph_error :=
  match o with
  | OAdd e => add_entity g e
  | OAddMany es => add_entities g es
  | OBuild => (build g, Ok tt)
  | OClear => (graph_clear g, Ok tt)
  end.
Definition run (ops : list op) : graph := fold_left (fun g o => fst (step g o)) ops graph_new.

(** The abstract state: entities in the order in which they were accepted. *)
Definition known (es : list entity) (id : entity_id) : Prop := exists e, In e es /\ e_id e = id.
Definition lookup (es : list entity) (id : entity_id) : option entity :=
  find (fun e => str_eqb (e_id e) id) es.
Fixpoint accept_all (es new : list entity) : list entity * result unit graph_error :=
  match new with
  | [] => (es, Ok tt)
  | e :: new' =>
      match lookup es (e_id e) with
      | Some _ => (es, Err (EntityAlreadyExists (e_id e)))
      | None => accept_all (es ++ [e]) new'
      end
  end.
Definition spec_step (es : list entity) (o : op) : list entity * result unit graph_error :=
  match o with
  | OAdd e => accept_all es [e]
  | OAddMany new => accept_all es new
  | OBuild => (es, Ok tt)
  | OClear => ([], Ok tt)
  end.
Definition spec_run (ops : list op) : list entity := fold_left (fun es o => fst (spec_step es o)) ops [].

(** A value holds a reference, directly or inside lists at any depth. *)
Inductive holds : value -> ref_value -> Prop :=
| holds_here r : holds (VRef r) r
| holds_item vs v r : In v vs -> holds v r -> holds (VList vs) r.

Definition ref_target (r : ref_value) : entity_id :=
  match r with REntity id => id | RField id _ => id end.

(** Entity [a] mentions entity [b] in one of its fields. *)
Definition mentions (a b : entity) : Prop :=
  exists f v r, In (f, v) (e_fields a) /\ holds v r /\ ref_target r = e_id b.

(** The relationship recorded for a reference held by field [f]. *)
Definition rel_of (f : field_id) (r : ref_value) : relationship :=
  match r with
  | REntity _ => EntityReference f
  | RField _ tf => FieldReference f tf
  end.

(** Following field references: [follows es id f n v] says that after [n]
    field references starting at [id.f] the value [v], which is not a field
    reference, is reached. *)
Definition is_field_ref (v : value) : Prop := exists id f, v = VRef (RField id f).
Inductive follows (es : list entity) : entity_id -> field_id -> nat -> value -> Prop :=
| follows_value id f e v :
    lookup es id = Some e -> get_field e f = Some v -> ~ is_field_ref v -> follows es id f 0 v
| follows_ref id f e id' f' n v :
    lookup es id = Some e -> get_field e f = Some (VRef (RField id' f')) ->
    follows es id' f' n v -> follows es id f (S n) v.

(** One hop along a field reference, and several. *)
Definition hop (es : list entity) (p q : entity_id * field_id) : Prop :=
  exists e, lookup es (fst p) = Some e /\ get_field e (snd p) = Some (VRef (RField (fst q) (snd q))).
Inductive hops (es : list entity) : entity_id * field_id -> entity_id * field_id -> Prop :=
| hops_one p q : hop es p q -> hops es p q
| hops_more p q r : hop es p q -> hops es q r -> hops es p r.

(** [trail es p l q]: hopping from [p] one passes the positions [l] and stands
    at [q]. *)
Inductive trail (es : list entity) : entity_id * field_id -> list (entity_id * field_id) -> entity_id * field_id -> Prop :=
| trail_here p : trail es p [] p
| trail_hop p q l r : hop es p q -> trail es q l r -> trail es p (p :: l) r.

(** The relationship [r] leads from entity [a] to entity [b] in [g]. *)
Definition linked (g : graph) (a b : entity) (r : relationship) : Prop :=
  exists i j, In (i, j, r) (g_edges g) /\ nth_error (g_nodes g) i = Some a /\ nth_error (g_nodes g) j = Some b.

Definition neighbour (d : option direction) (a b : entity) : Prop :=
  match d with
  | Some Outgoing => mentions a b
  | Some Incoming => mentions b a
  | None => mentions a b \/ mentions b a
  end.

(** Strictly increasing ids. *)
Definition id_lt (a b : entity) : Prop := str_cmp (e_id a) (e_id b) = Lt.
