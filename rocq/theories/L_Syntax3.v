(** Generated schemas, appended texts, and that all of it is text. *)
From Verif Require Import M_Graph L_Graph L_Str L_Num L_Text L_DslStr L_DslVal L_History L_GraphJson2 L_Schema L_Schema2.
From Verif Require Export S_Add L_Syntax2.
From Coq Require Import Lia Permutation.
Close Scope Z_scope.

(** ** Schemas *)
Definition block_fields (p : field_id * fschema) : list (str * vnode) :=
  (L "name", text_node (fst p)) :: (L "type", text_node (type_word (fs_type (snd p)))) ::
  (match fs_allowed (snd p) with
   | Some vs => [(L "allowed_values", VNode (Some KList) (L "[" ++ join (L ", ") (map quoted vs) ++ L "]") (map text_node vs))]
   | None => []
   end) ++ [(L "required", VNode (Some KBoolean) (bool_text (fs_required (snd p))) [])].
Lemma block_fields_written p : written_block p =
  {| nb_type := Some (L "field"); nb_body := Some (map (fun nv => field_node (fst nv) (snd nv)) (block_fields p)) |}.
Proof. destruct p as [id f]. unfold written_block, block_fields. cbn [fst snd]. destruct (fs_allowed f); reflexivity. Qed.
Lemma name_word s : forallb (fun c => is_alpha c || Ascii.eqb c "_") s = true -> s <> [] -> name_syntax s.
Proof.
  destruct s as [|c s]; [congruence|]. cbn [forallb]. intros H _. apply andb_true_iff in H as [C H]. exists c, s. split; [reflexivity|].
  apply orb_true_iff in C. rewrite Ascii.eqb_eq in C. split; [exact C|]. rewrite Forall_forall. rewrite forallb_forall in H. intros x I.
  specialize (H x I). apply orb_true_iff in H. rewrite Ascii.eqb_eq in H. tauto.
Qed.
Lemma text_node_syntax s : one_line s -> value_syntax (text_node s).
Proof. intros O. apply val_literal. now apply syn_string. Qed.
Lemma type_word_line t : one_line (type_word t).
Proof. split; destruct t; cbn; intros H; repeat (destruct H as [H|H]; [discriminate|]); exact H. Qed.
Lemma block_fields_syntax p : one_line (fst p) -> (forall vs, fs_allowed (snd p) = Some vs -> Forall one_line vs) ->
  Forall (fun nv => name_syntax (fst nv) /\ value_syntax (snd nv)) (block_fields p).
Proof.
  destruct p as [id f]. cbn [fst snd]. intros N A. unfold block_fields. cbn [fst snd]. constructor; [split; [now apply name_word|now apply text_node_syntax]|].
  constructor; [split; [now apply name_word|apply text_node_syntax, type_word_line]|]. apply Forall_app. split.
  - destruct (fs_allowed f) as [vs|]; [|constructor]. constructor; [|constructor]. split; [now apply name_word|]. cbn [snd].
    replace (map quoted vs) with (map render_value (map text_node vs)) by (rewrite map_map; reflexivity). apply list_syntax. rewrite Forall_map.
    eapply Forall_impl; [|exact (A vs eq_refl)]. exact text_node_syntax.
  - constructor; [|constructor]. split; [now apply name_word|]. apply val_literal. constructor.
Qed.
Lemma blocks_generated o ps : Forall (fun p => one_line (fst p) /\ forall vs, fs_allowed (snd p) = Some vs -> Forall one_line vs) ps ->
  exists g body, concat (map (render_block o) (map written_block ps)) ++ L "}" = g ++ body /\ gap g /\ blocks_syntax (map written_block ps) body.
Proof.
  intros F. induction F as [|p ps [N A] F (g & body & E & G & B)].
  - exists [], (L "}"). split; [reflexivity|]. split; constructor.
  - destruct (lines_syntax (indent_string (g_indent o) 2) (block_fields p) (indent_string (g_indent o) 1)) as (g2 & fb & E2 & G2 & B2);
      [apply indent_gap|apply indent_gap|now apply block_fields_syntax|].
    exists (indent_string (g_indent o) 1), (L "field" ++ L " " ++ L "{" ++ ([LF] ++ g2) ++ fb ++ ([LF] ++ g) ++ body). split; [|split].
    + cbn [map concat]. rewrite <- app_assoc, E, block_fields_written. unfold render_block. cbn [nb_type nb_body].
      change (L " {") with (L " " ++ L "{"). rewrite <- !app_assoc. rewrite (app_assoc g2 fb), <- E2. unfold lines_at. rewrite !map_map, <- !app_assoc. do 5 f_equal.
      f_equal. f_equal. apply map_ext. intros [n v]. unfold render_field. cbn [field_node fn_id fn_value fst snd]. rewrite <- !app_assoc. reflexivity.
    + apply indent_gap.
    + cbn [map]. rewrite block_fields_written at 1. apply blocks_one; [exact space_gap| |exact B2| |exact B].
      * apply gap_app; [exact lf_gap|exact G2].
      * apply gap_app; [exact lf_gap|exact G].
Qed.
Lemma ordered_in ho s p : shuffles ho -> In p (ordered_fields ho s) -> In p (s_fields s).
Proof. intros SH I. apply (Permutation_in p (sort_by_perm by_order _)) in I. exact (Permutation_in p (SH _) I). Qed.
Lemma schema_in_file ho o s g bs rest : shuffles ho -> gap g -> expressible_schema s -> file_syntax bs ([LF] ++ rest) ->
  file_syntax (SchemaBlock (written_schema ho s) :: bs) (g ++ generate_schema ho o s ++ rest).
Proof.
  intros SH G [N F] R. rewrite schema_text. unfold render_schema. cbn [written_schema sn_name sn_blocks].
  destruct (blocks_generated o (ordered_fields ho s)) as (g3 & body & E & G3 & B).
  { rewrite Forall_forall in *. intros p I. destruct (F p (ordered_in ho s p SH I)) as (_ & O & A). split; [exact O|]. intros vs V. eapply Forall_impl; [|exact (A vs V)]. now intros x [_ X]. }
  replace (g ++ (L "schema " ++ s_type s ++ L " {" ++ [LF] ++ concat (map (render_block o) (map written_block (ordered_fields ho s))) ++ L "}" ++ [LF]) ++ rest)
    with (g ++ L "schema" ++ L " " ++ s_type s ++ L " " ++ L "{" ++ ([LF] ++ g3) ++ body ++ [LF] ++ rest).
  - apply file_schema; [exact G|exact space_gap|discriminate|exact N|exact space_gap| |exact B|exact R]. apply gap_app; [exact lf_gap|exact G3].
  - change (L "schema ") with (L "schema" ++ L " "). change (L " {") with (L " " ++ L "{"). rewrite <- !app_assoc. do 7 f_equal.
    rewrite (app_assoc g3 body), <- E, <- !app_assoc. reflexivity.
Qed.
Lemma schema_file ho o s : shuffles ho -> expressible_schema s -> file_syntax [SchemaBlock (written_schema ho s)] (generate_schema ho o s).
Proof.
  intros SH X. rewrite <- (app_nil_r (generate_schema ho o s)). apply (schema_in_file ho o s []); [exact SH|constructor|exact X|]. constructor. left. exact lf_gap.
Qed.

(** ** One text after another *)
Lemma last_gap_closed t : last_gap t -> (t = [] \/ exists x, t = x ++ [LF]) -> gap t.
Proof.
  intros [G|(g & body & G & B & ->)] E; [exact G|]. exfalso. destruct E as [E|[x E]].
  - destruct g; discriminate.
  - destruct (@exists_last _ (L "//" ++ body)) as (y & c & Y); [discriminate|]. rewrite Y, app_assoc in E. apply app_inj_tail in E as [_ ->].
    destruct body as [|b body] using rev_ind.
    + change (L "//" ++ []) with (L "/" ++ L "/") in Y. apply app_inj_tail in Y as [_ Y]. discriminate.
    + rewrite app_assoc in Y. apply app_inj_tail in Y as [_ ->]. apply B, in_or_app. right. now left.
Qed.
Lemma ends_rest (a rest : str) : (exists x, a ++ L "}" ++ rest = x ++ [LF]) -> rest = [] \/ exists x, rest = x ++ [LF].
Proof.
  intros [x E]. destruct rest as [|c rest]; [now left|right]. destruct (@exists_last _ (c :: rest)) as (y & z & Y); [discriminate|].
  rewrite Y in *. rewrite !app_assoc in E. apply app_inj_tail in E as [_ ->]. now exists y.
Qed.
Lemma fields_close fs t : fields_syntax fs t -> exists a, t = a ++ L "}".
Proof. induction 1 as [|? ? ? ? ? ? ? ? ? ? ? ? ? ? [a ->]]; [now exists []|]. eexists. rewrite !app_assoc. reflexivity. Qed.
Lemma blocks_close bs t : blocks_syntax bs t -> exists a, t = a ++ L "}".
Proof. induction 1 as [|? ? ? ? ? ? ? ? ? ? ? ? [a ->]]; [now exists []|]. eexists. rewrite !app_assoc. reflexivity. Qed.
Lemma file_app bs old bs' t : file_syntax bs old -> (old = [] \/ exists x, old = x ++ [LF]) -> file_syntax bs' t -> file_syntax (bs ++ bs') (old ++ t).
Proof.
  intros S E F. induction S as [g G|g ty g1 i g2 g3 fs body bs rest G NT NS G1 N1 NI G2 G3 B R IH|g g1 n g2 g3 ns body bs rest G G1 N1 NN G2 G3 B R IH].
  - apply gap_file; [now apply last_gap_closed|exact F].
  - cbn [app]. rewrite <- !app_assoc. apply file_entity; try assumption. apply IH.
    destruct E as [E|E]; [exfalso; destruct NT as (c & r & -> & _); destruct g; discriminate|].
    destruct (fields_close fs body B) as [a ->]. apply (ends_rest (g ++ ty ++ g1 ++ i ++ g2 ++ L "{" ++ g3 ++ a)). rewrite <- !app_assoc in *. exact E.
  - cbn [app]. rewrite <- !app_assoc. apply file_schema; try assumption. apply IH.
    destruct E as [E|E]; [exfalso; destruct g; discriminate|].
    destruct (blocks_close ns body B) as [a ->]. apply (ends_rest (g ++ L "schema" ++ g1 ++ n ++ g2 ++ L "{" ++ g3 ++ a)). rewrite <- !app_assoc in *. exact E.
Qed.
Lemma file_lf bs old : file_syntax bs old -> file_syntax bs (old ++ [LF]).
Proof.
  intros S. induction S as [g G|g ty g1 i g2 g3 fs body bs rest G NT NS G1 N1 NI G2 G3 B R IH|g g1 n g2 g3 ns body bs rest G G1 N1 NN G2 G3 B R IH].
  - constructor. left. destruct G as [G|(a & b & A & B & ->)]; [apply gap_app; [exact G|exact lf_gap]|].
    rewrite <- !app_assoc. apply gap_app; [exact A|]. apply (gap_line b []); [exact B|constructor].
  - rewrite <- !app_assoc. now apply file_entity.
  - rewrite <- !app_assoc. now apply file_schema.
Qed.
Lemma file_after_line bs old before bs' t : file_syntax bs old -> on_new_line old before -> file_syntax bs' t -> file_syntax (bs ++ bs') (before ++ t).
Proof.
  intros S N F. destruct N as [|s|s Ne Nl].
  - apply (file_app bs []); auto.
  - apply file_app; eauto.
  - apply file_app; [now apply file_lf|right; now exists s|exact F].
Qed.
