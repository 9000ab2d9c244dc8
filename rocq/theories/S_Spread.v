(** Vocabulary for C82: where the blocks of a workspace are written. *)
From Verif Require Export S_Whole.
Close Scope Z_scope.

(** A workspace without symbolic links, read by a parser of the documented
    syntax, whose source files hold text. *)
Record readable (c : ctx) (w : place) (d : fs) : Prop := {
  rd_place : runs_in c d w;
  rd_links : no_links_in w d;
  rd_tidy : tidy d;
  rd_text : forall r s, source_of w d r s -> is_text s = true;
  rd_parser : follows_syntax (c_parse c);
  rd_fields : shuffles (c_fields c);
  rd_schemas : forall l, Permutation (c_schemas c l) l;
  rd_files : forall l, Permutation (c_files c l) l
}.

(** The blocks of all source files, each with the path of its file; in any
    order. *)
Definition written_in (w : place) (d : fs) (l : list (path * block)) : Prop :=
  exists files : list (path * list block), NoDup (map fst files) /\
    (forall r bs, In (r, bs) files -> exists s, source_of w d r s /\ file_syntax bs s) /\
    (forall r s, source_of w d r s -> exists bs, In (r, bs) files) /\
    Permutation l (flat_map (fun f => map (pair (fst f)) (snd f)) files).

(** A block without a path literal. *)
Inductive pathless : vnode -> Prop :=
| pathless_node k raw items : k <> Some KPath -> Forall pathless items -> pathless (VNode k raw items).
Definition pathless_field (f : fnode) : Prop := forall v, fn_value f = Some v -> pathless v.
Definition pathless_block (b : block) : Prop :=
  match b with
  | EntityBlock n => Forall pathless_field (en_fields n)
  | SchemaBlock n => forall nb fs, In nb (sn_blocks n) -> nb_body nb = Some fs -> Forall pathless_field fs
  end.

(** The same block, in whatever file; in a file of the same directory if it has
    a path literal. *)
Definition moved (a b : path * block) : Prop :=
  snd a = snd b /\ (pathless_block (snd a) \/ removelast (fst a) = removelast (fst b)).
(** The two workspaces have the same blocks. *)
Definition same_blocks (w : place) (d : fs) (w' : place) (d' : fs) : Prop :=
  exists l l', written_in w d l /\ written_in w' d' l' /\ Forall2 moved l l'.
