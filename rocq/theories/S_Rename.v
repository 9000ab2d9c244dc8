(** Specification for C90: giving entities other names. *)
From Verif Require Import M_Query M_Schema S_Graph S_Query.
Close Scope Z_scope.

(** A renaming gives different names to different names, also when capitals
    are not told from small letters. *)
Record renaming (r : entity_id -> entity_id) : Prop := {
  rn_distinct : forall a b, r a = r b -> a = b;
  rn_letters : forall a b, lower (r a) = lower (r b) <-> lower a = lower b
}.

(** The new name of an entity, wherever it is written. *)
Definition rename_ref (r : entity_id -> entity_id) (t : ref_value) : ref_value :=
  match t with REntity id => REntity (r id) | RField id f => RField (r id) f end.
Fixpoint rename_value (r : entity_id -> entity_id) (v : value) : value :=
  match v with
  | VRef t => VRef (rename_ref r t)
  | VList vs => VList (map (rename_value r) vs)
  | _ => v
  end.
Definition rename_entity (r : entity_id -> entity_id) (e : entity) : entity :=
  {| e_id := r (e_id e); e_type := e_type e;
     e_fields := map (fun p => (fst p, rename_value r (snd p))) (e_fields e) |}.
Definition rename_op (r : entity_id -> entity_id) (o : op) : op :=
  match o with
  | OAdd e => OAdd (rename_entity r e)
  | OAddMany es => OAddMany (map (rename_entity r) es)
  | OBuild => OBuild
  | OClear => OClear
  end.
Definition rename_error (r : entity_id -> entity_id) (e : graph_error) : graph_error :=
  match e with
  | EntityAlreadyExists id => EntityAlreadyExists (r id)
  | EntityNotFound id => EntityNotFound (r id)
  | FieldNotFound id f => FieldNotFound (r id) f
  | _ => e
  end.
Definition rename_result {A} (r : entity_id -> entity_id) (f : A -> A) (a : result A graph_error) : result A graph_error :=
  match a with Ok a => Ok (f a) | Err e => Err (rename_error r e) end.

(** The question with the new names in it. *)
Fixpoint rename_fvalue (r : entity_id -> entity_id) (w : fvalue) : fvalue :=
  match w with
  | FRef s => FRef (r s)
  | FList ws => FList (map (rename_fvalue r) ws)
  | _ => w
  end.
Definition rename_condition (r : entity_id -> entity_id) (c : condition) : condition :=
  {| c_field := c_field c; c_op := c_op c; c_value := rename_fvalue r (c_value c) |}.
Definition rename_operation (r : entity_id -> entity_id) (o : operation) : operation :=
  match o with
  | QWhere cc => QWhere {| cc_conds := map (rename_condition r) (cc_conds cc); cc_comb := cc_comb cc |}
  | _ => o
  end.
(** The answer with the new names in it. *)
Definition rename_answer (r : entity_id -> entity_id) (a : qres query_result) : qres query_result :=
  match a with
  | Ok (QEntities l) => Ok (QEntities (map (rename_entity r) l))
  | Ok (QAgg (RSelect cs rows)) => Ok (QAgg (RSelect cs (map (map (option_map (rename_value r))) rows)))
  | a => a
  end.

(** Which questions are not about the letters of a name: a condition does not
    ask for [@id]; a field that holds references holds references to
    entities, and is not compared with a text. *)
Fixpoint textless (w : fvalue) : Prop :=
  match w with
  | FStr _ => False
  | FList ws => fold_right (fun w P => textless w /\ P) True ws
  | _ => True
  end.
Definition nameless (es : list entity) (f : field_id) : Prop :=
  forall e v t, In e es -> get_field e f = Some v -> ~ holds v t.
Definition to_entities (es : list entity) (f : field_id) : Prop :=
  forall e v t, In e es -> get_field e f = Some v -> holds v t -> exists id, t = REntity id.
Definition asks_no_letters (es : list entity) (c : condition) : Prop :=
  match c_field c with
  | FMeta MId => False
  | FMeta MType => True
  | FReg f => nameless es f \/ (to_entities es f /\ textless (c_value c))
  end.
Definition conditions (ops : list operation) (c : condition) : Prop :=
  exists cc, In (QWhere cc) ops /\ In c (cc_conds cc).
(** Nor does the order depend on names. *)
Definition ordered_by_no_name (es : list entity) (ops : list operation) : Prop :=
  forall f d, In (QOrder f d) ops ->
  match f with FMeta MId => False | FMeta MType => True | FReg f => nameless es f end.
(** Nor do the columns selected show [@id]. *)
Definition shows_no_id (a : option aggregation) : Prop :=
  forall fs, a = Some (ASelect fs) -> ~ In (FMeta MId) fs.
(** The question for the entities whose field equals something. *)
Definition comparing (f : str) (w : fvalue) : list operation := [QWhere {| cc_conds := [{| c_field := FReg f; c_op := OpEq; c_value := w |}]; cc_comb := CAnd |}].
