(** The texts in which the tool server lists files and matches. *)
From Verif Require Import M_Graph S_Graph M_Num.
From Verif Require Export M_Tools S_Tools.
Close Scope Z_scope.

(** The lines for a tree: files at the root by their names, then every
    directory with its files indented below it. *)
Definition group_lines (g : str * list str) : list str :=
  match fst g with [] => snd g | _ => (fst g ++ L "/") :: map (fun f => L "  " ++ f) (snd g) end.
Definition tree_lines (tree : list (str * list str)) : list str := flat_map group_lines tree.
(** No source file of the workspace has a name with a line feed in it. *)
Definition one_line_names (w : place) (d : fs) : Prop := forall r s, source_of w d r s -> Forall (fun n => ~ In LF n) r.
(** What is shown of the matches: their lines are trimmed. *)
Definition shown_hits (groups : list (str * list (nat * str))) : list (str * list (nat * str)) :=
  map (fun g => (fst g, map (fun m => (fst m, utrim (snd m))) (snd g))) groups.
