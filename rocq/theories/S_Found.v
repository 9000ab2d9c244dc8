(** Yes-or-no fields and enumerations, for C73. *)
From Verif Require Import S_Graph M_Graph.
From Verif Require Export S_Whole S_Literal.
Close Scope Z_scope.

Definition yes_no (b : bool) : str := if b then L "true" else L "false".
(** The field is written  [name = true]  or  [name = false]. *)
Definition has_boolean (fs : list fnode) (name : str) (b : bool) : Prop :=
  first_field fs name (VNode (Some KBoolean) (yes_no b) []).
(** The field is written  [name = enum"s"], which stands for [a]. *)
Definition has_choice (fs : list fnode) (name a : str) : Prop :=
  exists s, first_field fs name (VNode (Some KEnum) (L "enum" ++ [DQ] ++ s ++ [DQ]) []) /\ one_line s /\ between_quotes (L "enum") s a.
Definition boolean_test (o : M_Query.operator) (a b : bool) : Prop :=
  match o with M_Query.OpEq => a = b | M_Query.OpNe => a <> b | _ => False end.
Definition tests_boolean (o : M_Query.operator) : Prop := In o [M_Query.OpEq; M_Query.OpNe].
(** The field is written as a date, with or without a time of that day. *)
Definition on_day (vn : vnode) (day : Z) : Prop :=
  exists s, day_literal s day /\ (vn = VNode (Some KDate) s [] \/ exists r, vn = VNode (Some KDateTime) (s ++ L " at " ++ r) []).
Definition has_day (fs : list fnode) (name : str) (day : Z) : Prop := exists vn, first_field fs name vn /\ on_day vn day.
