(** What a stable sort is. *)
From Coq Require Export List Permutation Sorted.
Export ListNotations.

Definition is_eq (c : comparison) : bool := match c with Eq => true | _ => false end.

(** [cmp] is a total preorder on the elements satisfying [P]. *)
Definition total_preorder_on {A} (cmp : A -> A -> comparison) (P : A -> Prop) : Prop :=
  (forall a b, P a -> P b -> cmp b a = CompOpp (cmp a b)) /\
  (forall a b c, P a -> P b -> P c -> cmp a b <> Gt -> cmp b c <> Gt -> cmp a c <> Gt).

(** [l'] is [l] rearranged so that it is non-decreasing and elements that
    compare equal keep their relative order. *)
Definition stable_sort_of {A} (cmp : A -> A -> comparison) (l l' : list A) : Prop :=
  Permutation l l' /\
  StronglySorted (fun a b => cmp a b <> Gt) l' /\
  forall a, In a l -> filter (fun b => is_eq (cmp a b)) l' = filter (fun b => is_eq (cmp a b)) l.
