(** C83: a schema that is only loosened breaks nothing. *)
From Coq Require Import Lia Permutation.
From Verif Require Import S_Graph S_Query L_Graph L_Exec P_Query.
From Verif Require Import S_Loosen L_Str L_Text L_Schema2 L_Fs L_Load L_Workspace L_History L_Life L_Syntax L_Syntax2 L_Syntax3 L_Syntax5 L_Whole L_Spread L_Loosen.
From Verif Require Import P_Schema P_Dsl P_Server P_Add P_Cli P_Grow P_Syntax P_Whole P_Spread.
From Verif Require Import M_Fs M_Dsl S_Whole S_Loosen.
Close Scope Z_scope.

(** Schemas may lose fields, have declarations weakened, get optional fields that
    no entity has, be removed if they have no entities, and be added for other
    types; blocks may be moved. The workspace goes on building, with the same
    entities, and every question is answered as before. *)
Theorem C83_loosening_breaks_nothing : forall c w d c' w' d' st l l' gone come ts, readable c w d -> readable c' w' d' -> c_env c' = c_env c ->
  rebuild c d = M_Text.Ok st -> written_in w d (l ++ gone) -> written_in w' d' (l' ++ come) ->
  Forall2 (fun a b => moved a b \/ loosened (c_env c) (b_entities (st_build st)) a b) l l' ->
  Forall (unused (c_env c) (b_entities (st_build st))) gone ->
  Forall2 (schema_for (c_env c)) come ts -> NoDup ts -> (forall t s, In t ts -> In s (b_schemas (st_build st)) -> s_type s <> t) ->
  exists st', rebuild c' d' = M_Text.Ok st' /\
    Permutation (b_entities (st_build st)) (b_entities (st_build st')) /\
    (forall id, get_entity (st_graph st') id = get_entity (st_graph st) id) /\
    forall x ho ho' s ops, orders ho -> orders ho' -> no_limit ops ->
      same_entities (execute x (st_graph st) ho {| q_from := s; q_ops := ops; q_agg := None |})
                    (execute x (st_graph st') ho' {| q_from := s; q_ops := ops; q_agg := None |}).
Proof.
  intros c w d c' w' d' st l l' gone come ts R R' En RB W W' F U SF NT DT.
  destruct (loosening c w d c' w' d' st l l' gone come ts R R' En RB W W' F U SF NT DT) as (st' & RB' & P). exists st'. split; [exact RB'|]. split; [exact P|]. split.
  - intros id. destruct (rebuild_lookup c d st RB) as [N G], (rebuild_lookup c' d' st' RB') as [_ G']. rewrite G, G'. symmetry. apply lookup_perm; assumption.
  - intros x ho ho' s ops O O' NL.
    exact (execute_two x _ _ _ _ (proj1 (rebuilt_graph c d st RB)) (proj1 (rebuilt_graph c' d' st' RB')) P ho ho' O O' s ops NL).
Qed.
Print Assumptions C83_loosening_breaks_nothing.

(** ** A case *)
(** The name is no longer required, the age no longer declared, an address may be
    given; there is no schema for teams any more but one for firms. *)
Definition made_schema (name : str) (ds : list nblock) : schema :=
  match to_schema env0 (L "s.firm") {| sn_name := Some name; sn_blocks := ds |} with M_Text.Ok s => s | _ => schema_new [] end.
Definition loose19 : schema := made_schema (L "person") [P_Add.decl (L "full_name") (L "string") false; P_Add.decl (L "email") (L "string") false; P_Add.decl (L "boss") (L "reference") false].
Definition team19 : schema := made_schema (L "team") [P_Add.decl (L "name") (L "string") true].
Definition firm19 : schema := made_schema (L "firm") [P_Add.decl (L "name") (L "string") true].
Definition stext (s : schema) : str := generate_schema fid default_options s.
Definition sblock (s : schema) : block := SchemaBlock (written_schema fid s).
Definition eblock (e : entity) : block := EntityBlock (written_entity env0 default_options e).
Definition d19 : fs := [([L "w"], Dir); ([L "w"; L "p.firm"], File text14); ([L "w"; L "s.firm"], File (stext person14)); ([L "w"; L "t.firm"], File (stext team19))].
Definition d20 : fs := [([L "w"], Dir); ([L "w"; L "p.firm"], File text14); ([L "w"; L "s.firm"], File (stext loose19)); ([L "w"; L "f.firm"], File (stext firm19))].
Definition st19 : state := match rebuild c9 d19 with M_Text.Ok st => st | _ => none0 end.
Lemma stext_syntax s : plain_schema s = true -> file_syntax [sblock s] (stext s).
Proof. intros P. apply schema_file; [exact fid_ok|]. now apply plain_schema_expressible. Qed.
Ltac in_files d := intros r s [H (r' & n & -> & _)]; apply in_fs in H; [|discriminate]; cbn [In d w0 app] in H;
  repeat (destruct H as [H|H]; [try discriminate; injection H as <- <-; eexists; cbn [In]; eauto 10; fail|]); destruct H.
Ltac distinct := repeat (apply NoDup_cons; [cbn; intuition discriminate|]); apply NoDup_nil.
Lemma d19_written : written_in w0 d19 ([([L "p.firm"], eblock jane14); ([L "p.firm"], eblock ann14); ([L "s.firm"], sblock person14)] ++ [([L "t.firm"], sblock team19)]).
Proof.
  exists [([L "p.firm"], [eblock jane14; eblock ann14]); ([L "s.firm"], [sblock person14]); ([L "t.firm"], [sblock team19])].
  split; [distinct|]. split; [|split; [|reflexivity]].
  - intros r bs [H|[H|[H|[]]]]; injection H as <- <-; eexists; (split; [a_source|]); [exact text14_syntax|exact schema14_syntax|apply stext_syntax; vm_compute; reflexivity].
  - in_files d19.
Qed.
Lemma d20_written : written_in w0 d20 ([([L "p.firm"], eblock jane14); ([L "p.firm"], eblock ann14); ([L "s.firm"], sblock loose19)] ++ [([L "f.firm"], sblock firm19)]).
Proof.
  exists [([L "p.firm"], [eblock jane14; eblock ann14]); ([L "s.firm"], [sblock loose19]); ([L "f.firm"], [sblock firm19])].
  split; [distinct|]. split; [|split; [|reflexivity]].
  - intros r bs [H|[H|[H|[]]]]; injection H as <- <-; eexists; (split; [a_source|]); [exact text14_syntax|apply stext_syntax; vm_compute; reflexivity|apply stext_syntax; vm_compute; reflexivity].
  - in_files d20.
Qed.
Ltac says := match goal with |- schema_says ?env ?r ?n _ _ => let s := eval vm_compute in (to_schema env (path_text r) n) in
  match s with M_Text.Ok ?s => refine (eq_ind _ (fun t => schema_says env r n t _) (eq_ind _ (schema_says env r n (s_type s)) (computed_says env r n s _ _ _) _ _) _ _);
    vm_compute; reflexivity end end.
Example C83_case : readable c9 w0 d19 /\ readable c9 w0 d20 /\ rebuild c9 d19 = M_Text.Ok st19 /\
  Forall2 (fun a b => moved a b \/ loosened env0 (b_entities (st_build st19)) a b)
    [([L "p.firm"], eblock jane14); ([L "p.firm"], eblock ann14); ([L "s.firm"], sblock person14)]
    [([L "p.firm"], eblock jane14); ([L "p.firm"], eblock ann14); ([L "s.firm"], sblock loose19)] /\
  Forall (unused env0 (b_entities (st_build st19))) [([L "t.firm"], sblock team19)] /\
  Forall2 (schema_for env0) [([L "f.firm"], sblock firm19)] [L "firm"] /\
  forall t s, In t [L "firm"] -> In s (b_schemas (st_build st19)) -> s_type s <> t.
Proof.
  split; [apply c9_readable; [runs|reflexivity|tidily|vm_compute; reflexivity]|].
  split; [apply c9_readable; [runs|reflexivity|tidily|vm_compute; reflexivity]|].
  split; [vm_compute; reflexivity|]. split; [|split; [|split]].
  - apply Forall2_cons; [left; split; [reflexivity|now right]|]. apply Forall2_cons; [left; split; [reflexivity|now right]|]. apply Forall2_cons; [right|constructor].
    do 2 eexists. exists (L "person"), (listing fid person14), (listing fid loose19). split; [reflexivity|]. split; [reflexivity|]. cbn [fst].
    split; [says|]. split; [says|]. intros y I. vm_compute in I. destruct I as [<-|[<-|[<-|[]]]].
    + left. eexists. split; [left; reflexivity|]. vm_compute. repeat split; auto; discriminate.
    + right. split; [reflexivity|]. intros e Ie _. vm_compute in Ie. destruct Ie as [<-|[<-|[]]]; vm_compute; intuition discriminate.
    + left. eexists. split; [right; right; left; reflexivity|]. vm_compute. repeat split; auto; discriminate.
  - constructor; [|constructor]. eexists. exists (L "team"), (listing fid team19). split; [reflexivity|]. split; [cbn [fst]; says|].
    intros e Ie. vm_compute in Ie. destruct Ie as [<-|[<-|[]]]; discriminate.
  - constructor; [|constructor]. eexists. exists (listing fid firm19). split; [reflexivity|]. cbn [fst]. says.
  - intros t s [<-|[]] Is. vm_compute in Is. destruct Is as [<-|[<-|[]]]; discriminate.
Qed.

(** Finding: an optional field that is merely new to the schema may break the
    workspace, for entities may have fields that are not declared. *)
Definition named19 : schema := made_schema (L "person") [P_Add.decl (L "full_name") (L "string") true; P_Add.decl (L "boss") (L "reference") false].
Definition aged19 : schema := made_schema (L "person") [P_Add.decl (L "full_name") (L "string") true; P_Add.decl (L "boss") (L "reference") false; P_Add.decl (L "age") (L "string") false].
Definition d21 : fs := [([L "w"], Dir); ([L "w"; L "p.firm"], File text14); ([L "w"; L "s.firm"], File (stext named19))].
Definition d22 : fs := [([L "w"], Dir); ([L "w"; L "p.firm"], File text14); ([L "w"; L "s.firm"], File (stext aged19))].
Lemma two_written d s : source_of w0 d [L "p.firm"] text14 -> source_of w0 d [L "s.firm"] (stext s) -> plain_schema s = true ->
  (forall r x, source_of w0 d r x -> r = [L "p.firm"] \/ r = [L "s.firm"]) -> written_in w0 d [([L "s.firm"], sblock s); ([L "p.firm"], eblock jane14); ([L "p.firm"], eblock ann14)].
Proof.
  intros A B P C. exists [([L "s.firm"], [sblock s]); ([L "p.firm"], [eblock jane14; eblock ann14])]. split; [distinct|]. split; [|split; [|reflexivity]].
  - intros r bs [H|[H|[]]]; injection H as <- <-; eexists; (split; [eassumption|]); [now apply stext_syntax|exact text14_syntax].
  - intros r x H. destruct (C r x H) as [-> | ->]; eexists; cbn [In]; eauto.
Qed.
Theorem C83_new_optional_field_refuted : exists c w d d' st l r n n' t ds y, readable c w d /\ readable c w d' /\ rebuild c d = M_Text.Ok st /\
  written_in w d ((r, SchemaBlock n) :: l) /\ written_in w d' ((r, SchemaBlock n') :: l) /\
  schema_says (c_env c) r n t ds /\ schema_says (c_env c) r n' t (ds ++ [y]) /\ d_required y = false /\
  ~ exists st', rebuild c d' = M_Text.Ok st'.
Proof.
  exists c9, w0, d21, d22. eexists. exists [([L "p.firm"], eblock jane14); ([L "p.firm"], eblock ann14)], [L "s.firm"]. do 2 eexists.
  exists (L "person"), (listing fid named19), {| d_name := L "age"; d_type := TStr; d_required := false; d_allowed := None |}.
  split; [apply c9_readable; [runs|reflexivity|tidily|vm_compute; reflexivity]|].
  split; [apply c9_readable; [runs|reflexivity|tidily|vm_compute; reflexivity]|].
  split; [vm_compute; reflexivity|].
  split; [apply two_written; [a_source|a_source|vm_compute; reflexivity|intros r x [H (r' & n & -> & _)]; apply in_fs in H; [|discriminate]; cbn [In d21 w0 app] in H; destruct H as [H|[H|[H|[]]]]; try discriminate; injection H as <- <-; auto]|].
  split; [apply two_written; [a_source|a_source|vm_compute; reflexivity|intros r x [H (r' & n & -> & _)]; apply in_fs in H; [|discriminate]; cbn [In d22 w0 app] in H; destruct H as [H|[H|[H|[]]]]; try discriminate; injection H as <- <-; auto]|].
  split; [says|]. split; [says|]. split; [reflexivity|]. intros (st' & H). vm_compute in H. discriminate.
Qed.
Print Assumptions C83_new_optional_field_refuted.
