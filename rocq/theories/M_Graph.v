(** The entity graph: firm_core/src/graph/mod.rs and graph/access.rs. *)
From Verif Require Export M_Value.

(** graph/mod.rs:21-29. *)
Inductive relationship :=
| EntityReference (from_field : field_id)
| FieldReference (from_field to_field : field_id).

(** graph/mod.rs:33-41. petgraph's [Graph] is the node list (a node index is
    a position) and the edge list; the two hash maps are association lists
    without duplicate keys. *)
Definition edge := (nat * nat * relationship)%type.
Record graph := {
  g_nodes : list entity;
  g_map : list (entity_id * nat);
  g_types : list (entity_type * list nat);
  g_edges : list edge
}.

Inductive graph_error :=
| EntityAlreadyExists (id : entity_id)
| EntityNotFound (id : entity_id)
| FieldNotFound (id : entity_id) (f : field_id)
| NotAnEntityReference
| NotAFieldReference
| CyclicReference
| MaxDepthExceeded
| GraphNotBuilt.

Inductive result (A E : Type) := Ok (a : A) | Err (e : E).
Arguments Ok {A E}. Arguments Err {A E}.

(** Hash-map lookup and update on association lists. *)
Fixpoint assoc {A} (k : str) (l : list (str * A)) : option A :=
  match l with
  | [] => None
  | (k', a) :: l' => if str_eqb k' k then Some a else assoc k l'
  end.
Fixpoint assoc_set {A} (k : str) (a : A) (l : list (str * A)) : list (str * A) :=
  match l with
  | [] => [(k, a)]
  | (k', a') :: l' => if str_eqb k' k then (k', a) :: l' else (k', a') :: assoc_set k a l'
  end.

(** graph/mod.rs:51-57 and 60-65. *)
Definition graph_new : graph := {| g_nodes := []; g_map := []; g_types := []; g_edges := [] |}.
Definition graph_clear (g : graph) : graph := graph_new.

(** graph/mod.rs:69-86. *)
Definition add_entity (g : graph) (e : entity) : graph * result unit graph_error :=
  match assoc (e_id e) (g_map g) with
  | Some _ => (g, Err (EntityAlreadyExists (e_id e)))
  | None =>
      let n := length (g_nodes g) in
      let old := match assoc (e_type e) (g_types g) with Some l => l | None => [] end in
      ({| g_nodes := g_nodes g ++ [e];
          g_map := assoc_set (e_id e) n (g_map g);
          g_types := assoc_set (e_type e) (old ++ [n]) (g_types g);
          g_edges := g_edges g |}, Ok tt)
  end.

(** graph/mod.rs:89-95: stops at the first error, keeping what was added. *)
Fixpoint add_entities (g : graph) (es : list entity) : graph * result unit graph_error :=
  match es with
  | [] => (g, Ok tt)
  | e :: es' =>
      match add_entity g e with
      | (g', Ok _) => add_entities g' es'
      | (g', Err x) => (g', Err x)
      end
  end.

(** graph/mod.rs:136-173. *)
Fixpoint collect_relationships (m : list (entity_id * nat)) (from : nat) (f : field_id) (v : value)
  : list edge :=
  match v with
  | VRef (REntity t) =>
      match assoc t m with Some to => [(from, to, EntityReference f)] | None => [] end
  | VRef (RField t tf) =>
      match assoc t m with Some to => [(from, to, FieldReference f tf)] | None => [] end
  | VList items => flat_map (collect_relationships m from f) items
  | _ => []
  end.

Definition entity_edges (m : list (entity_id * nat)) (from : nat) (e : entity) : list edge :=
  flat_map (fun p => collect_relationships m from (fst p) (snd p)) (e_fields e).

Fixpoint edges_from (m : list (entity_id * nat)) (n : nat) (es : list entity) : list edge :=
  match es with
  | [] => []
  | e :: es' => entity_edges m n e ++ edges_from m (S n) es'
  end.

(** graph/mod.rs:102-132: old edges are dropped, then all edges are added. *)
Definition build (g : graph) : graph :=
  {| g_nodes := g_nodes g; g_map := g_map g; g_types := g_types g;
     g_edges := edges_from (g_map g) 0 (g_nodes g) |}.

(** graph/access.rs:11-17. *)
Definition get_entity (g : graph) (id : entity_id) : option entity :=
  match assoc id (g_map g) with
  | Some n => nth_error (g_nodes g) n
  | None => None
  end.

(** graph/access.rs:20-32. *)
Definition resolve_entity_reference (g : graph) (v : value) : result entity graph_error :=
  match v with
  | VRef (REntity id) =>
      match get_entity g id with Some e => Ok e | None => Err (EntityNotFound id) end
  | _ => Err NotAnEntityReference
  end.

(** graph/access.rs:163-172: is there a matching field-reference edge. *)
Definition has_field_edge (g : graph) (src dst : nat) (f tf : field_id) : bool :=
  existsb (fun '(a, b, r) =>
    Nat.eqb a src && Nat.eqb b dst &&
    match r with
    | FieldReference f' tf' => str_eqb f' f && str_eqb tf' tf
    | EntityReference _ => false
    end) (g_edges g).

Definition key_eqb (a b : entity_id * field_id) : bool :=
  str_eqb (fst a) (fst b) && str_eqb (snd a) (snd b).

(** graph/access.rs:114-187. The recursion is on [max_depth], as in the code. *)
Fixpoint search_field_reference (g : graph) (id : entity_id) (f : field_id)
    (max_depth : nat) (visited : list (entity_id * field_id)) : result value graph_error :=
  match max_depth with
  | 0 => Err MaxDepthExceeded
  | S depth' =>
      if existsb (key_eqb (id, f)) visited then Err CyclicReference
      else
        match get_entity g id with
        | None => Err (EntityNotFound id)
        | Some e =>
            match get_field e f with
            | None => Err (FieldNotFound id f)
            | Some (VRef (RField tid tf)) =>
                match assoc id (g_map g), assoc tid (g_map g) with
                | None, _ => Err (EntityNotFound id)
                | Some _, None => Err (EntityNotFound tid)
                | Some src, Some dst =>
                    if has_field_edge g src dst f tf
                    then search_field_reference g tid tf depth' ((id, f) :: visited)
                    else Err GraphNotBuilt
                end
            | Some v => Ok v
            end
        end
  end.

(** graph/access.rs:35-47. *)
Definition resolve_field_reference (g : graph) (v : value) : result value graph_error :=
  match v with
  | VRef (RField id f) => search_field_reference g id f 10 []
  | _ => Err NotAFieldReference
  end.

(** graph/access.rs:50-52: the keys of a hash map, in its iteration order.
    Callers quantify over the order; here the keys in storage order. *)
Definition type_keys (g : graph) : list entity_type := map fst (g_types g).

Fixpoint filter_opt {A B} (f : A -> option B) (l : list A) : list B :=
  match l with
  | [] => []
  | a :: l' => match f a with Some b => b :: filter_opt f l' | None => filter_opt f l' end
  end.

(** graph/access.rs:55-63. *)
Definition list_by_type (g : graph) (t : entity_type) : list entity :=
  match assoc t (g_types g) with
  | Some ns => filter_opt (nth_error (g_nodes g)) ns
  | None => []
  end.

(** Stable sort. Rust's [sort_by] is a stable sort; for a comparison that is a
    total preorder its result is determined (see [S_Sort]); insertion sort. *)
Fixpoint insert_by {A} (cmp : A -> A -> comparison) (x : A) (l : list A) : list A :=
  match l with
  | [] => [x]
  | y :: l' => match cmp x y with Gt => y :: insert_by cmp x l' | _ => x :: l end
  end.
Fixpoint sort_by {A} (cmp : A -> A -> comparison) (l : list A) : list A :=
  match l with
  | [] => []
  | x :: l' => insert_by cmp x (sort_by cmp l')
  end.

(** [Vec::dedup_by_key]: drop elements whose key equals that of the previous
    kept one. *)
Fixpoint dedup_after {A} (key : A -> str) (prev : A) (l : list A) : list A :=
  match l with
  | [] => []
  | y :: l' => if str_eqb (key y) (key prev) then dedup_after key prev l'
               else y :: dedup_after key y l'
  end.
Definition dedup_by_key {A} (key : A -> str) (l : list A) : list A :=
  match l with
  | [] => []
  | x :: l' => x :: dedup_after key x l'
  end.

Inductive direction := Outgoing | Incoming.

Definition edge_targets (g : graph) (n : nat) : list entity :=
  filter_opt (fun '(a, b, _) => if Nat.eqb a n then nth_error (g_nodes g) b else None) (g_edges g).
Definition edge_sources (g : graph) (n : nat) : list entity :=
  filter_opt (fun '(a, b, _) => if Nat.eqb b n then nth_error (g_nodes g) a else None) (g_edges g).

Definition by_id (a b : entity) : comparison := str_cmp (e_id a) (e_id b).

(** graph/access.rs:69-111. petgraph iterates a node's edges most recent
    first; the list is sorted and deduplicated afterwards. *)
Definition get_related (g : graph) (id : entity_id) (d : option direction) : option (list entity) :=
  match assoc id (g_map g) with
  | None => None
  | Some n =>
      let es := match d with
                | Some Outgoing => rev (edge_targets g n)
                | Some Incoming => rev (edge_sources g n)
                | None => rev (edge_targets g n) ++ rev (edge_sources g n)
                end in
      Some (dedup_by_key e_id (sort_by by_id es))
  end.
