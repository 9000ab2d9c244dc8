(** Generated text is in the documented syntax. *)
From Verif Require Import M_Graph L_Graph L_Str L_Num L_Text L_DslStr L_DslVal L_History L_GraphJson2.
From Verif Require Export L_Syntax.
From Coq Require Import Lia.
Close Scope Z_scope.

(** ** Numbers *)
Lemma digits_of s : forallb is_digit s = true -> digits_syntax (length s) s.
Proof. intros H. split; [reflexivity|]. rewrite Forall_forall. rewrite forallb_forall in H. exact H. Qed.
Lemma show_N_digits_syntax n : exists k, 0 < k /\ digits_syntax k (show_N n).
Proof.
  exists (length (show_N n)). split; [|apply digits_of, show_N_digits]. pose proof (show_N_nonnil n) as E. destruct (show_N n); [now elim E|cbn; lia].
Qed.
Lemma padded_syntax k n : digits_syntax k (padded k n).
Proof. rewrite <- (padded_length k n) at 1. apply digits_of, padded_digits. Qed.
Lemma show_Z_syntax z : number_syntax (show_Z z).
Proof.
  unfold show_Z. destruct z as [|p|p].
  - exists [], (show_N (Z.to_N 0)), []. rewrite app_nil_r. split; [reflexivity|]. split; [now left|]. split; [apply show_N_digits_syntax|now left].
  - exists [], (show_N (Z.to_N (Z.pos p))), []. rewrite app_nil_r. split; [reflexivity|]. split; [now left|]. split; [apply show_N_digits_syntax|now left].
  - exists (L "-"), (show_N (N.pos p)), []. rewrite app_nil_r. split; [reflexivity|]. split; [now right|]. split; [apply show_N_digits_syntax|now left].
Qed.
Lemma show_dec_syntax d : number_syntax (show_dec d).
Proof.
  unfold show_dec. do 3 eexists. split; [reflexivity|]. split; [destruct (Z.ltb _ _); [now right|now left]|]. split; [apply show_N_digits_syntax|].
  destruct (d_scale d) as [|k] eqn:E; [now left|]. right. do 2 eexists. split; [reflexivity|]. split; [|apply padded_syntax]. lia.
Qed.

(** ** Strings of several lines *)
Definition unquoted (s : str) : Prop := forall a b, s <> a ++ q3 ++ b.
Lemma unquoted_sep x c y : c <> DQ -> unquoted x -> unquoted y -> unquoted (x ++ c :: y).
Proof.
  intros C X Y a b E. destruct (app_eq_app _ _ _ _ E) as (l & [[E1 E2]|[E1 E2]]).
  - destruct l as [|l1 [|l2 [|l3 l]]].
    + cbn in E2. injection E2 as E2 _. congruence.
    + cbn in E2. injection E2 as _ E2 _. congruence.
    + cbn in E2. injection E2 as _ _ E2 _. congruence.
    + cbn in E2. injection E2 as <- <- <- E2. apply (X a l). exact E1.
  - destruct l as [|l1 l].
    + cbn in E2. injection E2 as E2 _. congruence.
    + cbn in E2. injection E2 as _ E2. apply (Y l b). exact E2.
Qed.
Lemma unquoted_nil : unquoted []. Proof. intros a b E. destruct a; discriminate. Qed.
Lemma unquoted_infix a l b : unquoted (a ++ l ++ b) -> unquoted l.
Proof. intros H x y ->. apply (H (a ++ x) (y ++ b)). rewrite <- !app_assoc. reflexivity. Qed.
Lemma unquoted_up_to s c : unquoted (s ++ [c]) -> c <> DQ -> up_to q3 (s ++ [c]).
Proof.
  intros U C a b E. rewrite app_assoc in E. destruct (app_eq_app _ _ _ _ E) as (l & [[E1 E2]|[E1 E2]]).
  - exfalso. apply (U a l). rewrite E1. now rewrite app_assoc.
  - destruct l as [|l1 [|l2 [|l3 l]]].
    + exfalso. rewrite app_nil_r in E1. apply (U a []). rewrite app_nil_r. now symmetry.
    + exfalso. cbn in E2. injection E2 as <- _. change q3 with ([DQ; DQ] ++ [DQ]) in E1. rewrite app_assoc in E1. apply app_inj_tail in E1 as [E1 _].
      change [DQ; DQ] with ([DQ] ++ [DQ]) in E1. rewrite app_assoc in E1. apply app_inj_tail in E1 as [_ E1]. congruence.
    + exfalso. cbn in E2. injection E2 as <- <- _. change q3 with ([DQ] ++ [DQ; DQ]) in E1. rewrite app_assoc in E1. apply app_inv_tail in E1.
      apply app_inj_tail in E1 as [_ E1]. congruence.
    + cbn in E2. injection E2 as _ _ _ E2. destruct l; [now symmetry|discriminate].
Qed.
Lemma blanks_gap c n : blank_char c -> gap (repeat c n).
Proof. intros B. induction n as [|n IH]; [constructor|]. now apply gap_blank. Qed.
Lemma indent_shape o n : exists c k, indent_string o n = repeat c k /\ (c = " "%char \/ c = "009"%char).
Proof. destruct o as [m|]; [exists " "%char, (n * m)|exists "009"%char, n]; (split; [reflexivity|tauto]). Qed.
Lemma indent_gap o n : gap (indent_string o n).
Proof. destruct (indent_shape o n) as (c & k & -> & C). apply blanks_gap. unfold blank_char. destruct C as [->| ->]; cbn; tauto. Qed.
Lemma indent_unquoted o n x : unquoted x -> unquoted (indent_string o n ++ x).
Proof.
  intros X. destruct (indent_shape o n) as (c & k & -> & C). induction k as [|k IH]; [exact X|].
  apply (unquoted_sep [] c); [|exact unquoted_nil|exact IH]. destruct C as [->| ->]; discriminate.
Qed.
Lemma strip_cr_part w : exists b, w = strip_cr w ++ b /\ (b = [] \/ b = [CR]).
Proof.
  destruct w as [|c w]; [exists []; now split; [|left]|]. destruct (@exists_last _ (c :: w)) as (u & x & E); [discriminate|].
  rewrite E. destruct (Ascii.eqb_spec x CR) as [->|N].
  - exists [CR]. rewrite strip_cr_app. now split; [|right].
  - exists []. rewrite strip_cr_not, app_nil_r; [now split; [|left]|]. intros r X. apply app_inj_tail in X as [_ X]. congruence.
Qed.
Lemma finish_part ws l : In l (finish_lines ws) -> is_text (join [LF] ws) = true ->
  is_text l = true /\ exists a b, join [LF] ws = a ++ l ++ b.
Proof.
  induction ws as [|w ws IH]; [intros []|]. intros H T. destruct ws as [|w2 ws].
  - cbn in H, T |- *. destruct w as [|c w]; [destruct H|]. destruct H as [<-|[]]. split; [exact T|]. exists [], []. now rewrite app_nil_r.
  - change (finish_lines (w :: w2 :: ws)) with (strip_cr w :: finish_lines (w2 :: ws)) in H.
    change (join [LF] (w :: w2 :: ws)) with (w ++ [LF] ++ join [LF] (w2 :: ws)) in T |- *.
    destruct (text_cut w [LF] (join [LF] (w2 :: ws))) as [T1 T2]; [discriminate|reflexivity|exact T|].
    destruct H as [<-|H].
    + destruct (strip_cr_part w) as (b & E & B). split.
      * destruct B as [->| ->]; [rewrite app_nil_r in E; rewrite <- E; exact T1|]. rewrite E in T1.
        apply (text_cut (strip_cr w) [CR] []); [discriminate|reflexivity|exact T1].
      * exists [], (b ++ [LF] ++ join [LF] (w2 :: ws)). cbn [app]. rewrite E at 1. rewrite <- app_assoc. reflexivity.
    + destruct (IH H T2) as (T3 & a & b & E). split; [exact T3|]. exists (w ++ [LF] ++ a), b. rewrite E, <- !app_assoc. reflexivity.
Qed.
Lemma lines_part s l : In l (lines s) -> is_text s = true -> is_text l = true /\ exists a b, s = a ++ l ++ b.
Proof. intros H T. rewrite <- (join_split_char LF s) in T |- *. exact (finish_part _ _ H T). Qed.
Lemma body_unquoted o ls : Forall unquoted ls ->
  unquoted (concat (map (fun l => indent_string (g_indent o) 1 ++ l ++ [LF]) ls) ++ indent_string (g_indent o) 1).
Proof.
  intros F. induction F as [|l ls U F IH]; cbn [map concat].
  - cbn [app]. rewrite <- (app_nil_r (indent_string _ _)). apply indent_unquoted, unquoted_nil.
  - rewrite <- !app_assoc. apply indent_unquoted. change ([LF] ++ ?x) with (LF :: x). cbn [app]. apply unquoted_sep; [discriminate|exact U|exact IH].
Qed.
Lemma body_last o ls : exists x c, [LF] ++ concat (map (fun l => indent_string (g_indent o) 1 ++ l ++ [LF]) ls) ++ indent_string (g_indent o) 1 = x ++ [c] /\ c <> DQ.
Proof.
  destruct (indent_shape (g_indent o) 1) as (c & k & E & C). rewrite !E. destruct k as [|k].
  - cbn [repeat app]. rewrite app_nil_r. induction ls as [|l ls (x & d & E1 & D)] using rev_ind.
    + exists [], LF. split; [reflexivity|discriminate].
    + rewrite map_app, concat_app. cbn [map concat]. rewrite app_nil_r. exists (LF :: concat (map (fun l => l ++ [LF]) ls) ++ l), LF. split; [|discriminate].
      rewrite app_assoc. reflexivity.
  - exists ([LF] ++ concat (map (fun l => repeat c (S k) ++ l ++ [LF]) ls) ++ repeat c k), c. split; [|destruct C as [->| ->]; discriminate].
    rewrite <- !app_assoc. do 2 f_equal. replace (S k) with (k + 1) by lia. rewrite repeat_app. reflexivity.
Qed.
Lemma string_syntax o s : is_text s = true -> one_line s \/ (In LF s /\ unquoted s) -> literal_syntax KString (generate_string s o).
Proof.
  intros T [[Q N]|[I U]]; unfold generate_string.
  - rewrite (proj2 (contains_char_false s LF) N). rewrite replace_free; [now apply syn_string|discriminate|]. now apply contains_char_false.
  - rewrite (proj2 (contains_char s LF) I). cbv zeta.
    replace (q3 ++ [LF] ++ concat (map (fun l => indent_string (g_indent o) 1 ++ l ++ [LF]) (lines s)) ++ indent_string (g_indent o) 1 ++ q3)
      with (q3 ++ ([LF] ++ concat (map (fun l => indent_string (g_indent o) 1 ++ l ++ [LF]) (lines s)) ++ indent_string (g_indent o) 1) ++ q3)
      by (rewrite <- !app_assoc; reflexivity).
    apply syn_lines. destruct (body_last o (lines s)) as (x & c & E & C). rewrite E. apply unquoted_up_to; [|exact C]. rewrite <- E.
    apply (unquoted_sep [] LF); [discriminate|exact unquoted_nil|]. apply body_unquoted. rewrite Forall_forall. intros l H.
    destruct (lines_part s l H T) as (_ & a & b & ->). exact (unquoted_infix a l b U).
Qed.

(** ** Values *)
Lemma datetime_syntax d : (- 86400 < dt_off d < 86400)%Z -> (dt_off d = 0 \/ 3600 <= Z.abs (dt_off d))%Z ->
  literal_syntax KDateTime (generate_datetime d).
Proof.
  intros B O. unfold generate_datetime, format_date. destruct (civil_of_days (dt_date d)) as [[y m] dd].
  apply syn_zoned; [| |].
  - do 3 eexists. split; [reflexivity|]. repeat split; apply padded_syntax.
  - unfold format_hm. do 2 eexists. split; [reflexivity|]. split; [right|]; apply padded_syntax.
  - cbv zeta. destruct (Z.eqb_spec (dt_off d) 0) as [E|N]; [now left|]. destruct O as [O|O]; [contradiction|]. right.
    destruct (Z.ltb_spec 0 (Z.quot (dt_off d) 3600)) as [P|P].
    + destruct (Z.quot (dt_off d) 3600) as [|p|p]; [lia| |lia].
      destruct (show_N_digits_syntax (Z.to_N (Z.pos p))) as (k & K & D). exists (L "+"), (show_N (Z.to_N (Z.pos p))), k. repeat split; [now left|exact K|apply D..].
    + assert (Z.quot (dt_off d) 3600 < 0)%Z as Q.
      { destruct (Z.neg_nonneg_cases (dt_off d)) as [L0|L0].
        - rewrite <- (Z.opp_involutive (dt_off d)), Z.quot_opp_l by lia. enough (0 < Z.quot (- dt_off d) 3600)%Z by lia. apply Z.quot_str_pos. lia.
        - exfalso. enough (0 < Z.quot (dt_off d) 3600)%Z by lia. apply Z.quot_str_pos. lia. }
      destruct (Z.quot (dt_off d) 3600) as [|p|p]; [lia|lia|].
      destruct (show_N_digits_syntax (N.pos p)) as (k & K & D). exists (L "-"), (show_N (N.pos p)), k. repeat split; [now right|exact K|apply D..].
Qed.
Lemma space_gap : gap (L " "). Proof. apply gap_blank; [|constructor]. unfold blank_char. cbn. tauto. Qed.
Lemma lf_gap : gap [LF]. Proof. apply gap_blank; [|constructor]. unfold blank_char. cbn. tauto. Qed.
Lemma joined_syntax ns : ns <> [] -> items_syntax ns (join (L ", ") (map render_value ns) ++ L "]").
Proof.
  induction ns as [|n ns IH]; [congruence|]. intros _. destruct ns as [|n2 ns].
  - cbn [map join]. exact (items_last n [] gap_none).
  - change (join (L ", ") (map render_value (n :: n2 :: ns))) with (render_value n ++ L ", " ++ join (L ", ") (map render_value (n2 :: ns))).
    rewrite <- !app_assoc. change (L ", ") with (L "," ++ L " "). rewrite <- app_assoc.
    apply (items_more n [] (L " ")); [constructor|exact space_gap|]. apply IH. discriminate.
Qed.
Lemma list_syntax ns : Forall value_syntax ns -> value_syntax (VNode (Some KList) (L "[" ++ join (L ", ") (map render_value ns) ++ L "]") ns).
Proof.
  intros F. destruct ns as [|n ns].
  - exact (val_list [] [] _ gap_none items_end F).
  - apply (val_list [] (n :: ns) _ gap_none); [|exact F]. apply joined_syntax. discriminate.
Qed.
Lemma render_written env o v : render_value (written env o v) = generate_value env o v.
Proof. destruct v; reflexivity. Qed.
Lemma written_syntax env o v : expressible env v -> value_syntax (written env o v).
Proof.
  induction v as [b|s|i|f|a k|r|vs IH|d|p|s] using value_ind'; intros E; cbn [written kind_of generate_value]; cbn [expressible] in E.
  - apply val_literal. exact (syn_bool b).
  - apply val_literal. destruct E as [T E]. now apply string_syntax.
  - apply val_literal, syn_number, show_Z_syntax.
  - apply val_literal, syn_number, E.
  - apply val_literal, syn_currency; [apply show_dec_syntax|exact E].
  - apply val_literal. destruct r as [id|id f]; cbn [generate_reference].
    + destruct E as (t & i & -> & T & I). now apply syn_entity.
    + destruct E as (t & i & -> & T & I & F). rewrite <- !app_assoc. now apply syn_field.
  - assert (X : generate_value env o (VList vs) = L "[" ++ join (L ", ") (map render_value (map (written env o) vs)) ++ L "]").
    { rewrite map_map. cbn [generate_value]. destruct vs as [|v vs]; [reflexivity|]. do 2 f_equal. f_equal. apply map_ext. intros x. now rewrite render_written. }
    change (value_syntax (VNode (Some KList) (generate_value env o (VList vs)) (map (written env o) vs))). rewrite X.
    apply list_syntax. rewrite Forall_map. clear X. induction IH as [|v vs V _ IHl]; [constructor|]. destruct E as [E1 E2]. constructor; [now apply V|now apply IHl].
  - destruct E as [P O]. unfold printable_datetime in P. apply val_literal, datetime_syntax; [|exact O]. destruct (civil_of_days (dt_date d)) as [[y m] dd]. tauto.
  - apply val_literal. apply syn_path, E.
  - apply val_literal. apply syn_enum, E.
Qed.

(** ** Blocks *)
(** Fields on lines of their own, each after [ind]; [close] is the closing brace. *)
Lemma lines_syntax ind fs tail : gap ind -> gap tail ->
  Forall (fun nv => name_syntax (fst nv) /\ value_syntax (snd nv)) fs ->
  exists g body, concat (map (fun nv => ind ++ fst nv ++ L " = " ++ render_value (snd nv) ++ [LF]) fs) ++ tail ++ L "}" = g ++ body /\
    gap g /\ fields_syntax (map (fun nv => field_node (fst nv) (snd nv)) fs) body.
Proof.
  intros I T F. induction F as [|[n v] fs [N V] F (g & body & E & G & B)].
  - exists tail, (L "}"). split; [reflexivity|]. split; [exact T|constructor].
  - exists ind, (n ++ L " " ++ L "=" ++ L " " ++ render_value v ++ ([LF] ++ g) ++ body). split; [|split; [exact I|]].
    + cbn [map concat fst snd]. rewrite <- !app_assoc. rewrite E. reflexivity.
    + cbn [map fst snd]. apply fields_one; [exact N|exact space_gap|exact space_gap|exact V| | |exact B].
      * apply gap_app; [exact lf_gap|exact G].
      * intros _. now left.
Qed.
Lemma fields_generated env o fs : Forall (fun fv => name_syntax (fst fv) /\ expressible env (snd fv)) fs ->
  exists g body, concat (map (fun fv => indent_string (g_indent o) 1 ++ generate_field env o (fst fv) (snd fv) ++ [LF]) fs) ++ L "}" = g ++ body /\
    gap g /\ fields_syntax (map (fun fv => {| fn_id := Some (fst fv); fn_value := Some (written env o (snd fv)) |}) fs) body.
Proof.
  intros F. destruct (lines_syntax (indent_string (g_indent o) 1) (map (fun fv => (fst fv, written env o (snd fv))) fs) []) as (g & body & E & G & B).
  - apply indent_gap.
  - constructor.
  - rewrite Forall_map. eapply Forall_impl; [|exact F]. cbn [fst snd]. intros fv [N V]. split; [exact N|now apply written_syntax].
  - exists g, body. rewrite !map_map in *. cbn [fst snd app] in *. split; [|split; [exact G|exact B]]. rewrite <- E. f_equal. f_equal. apply map_ext. intros fv.
    unfold generate_field. rewrite render_written, <- !app_assoc. reflexivity.
Qed.

(** An entity's text, after [g] and before [rest]. *)
Lemma entity_in_file env o e g bs rest : gap g -> expressible_entity env e -> file_syntax bs ([LF] ++ rest) ->
  file_syntax (EntityBlock (written_entity env o e) :: bs) (g ++ generate_entity env o e ++ rest).
Proof.
  intros G (T & NS & I & F) R. unfold generate_entity, written_entity. destruct (decompose_entity_id (e_id e)) as [t i]. cbn [snd] in I |- *.
  destruct (fields_generated env o (e_fields e) F) as (g3 & body & E & G3 & B).
  replace (g ++ (lower (e_type e) ++ L " " ++ i ++ L " {" ++ [LF] ++ _ ++ L "}" ++ [LF]) ++ rest)
    with (g ++ lower (e_type e) ++ L " " ++ i ++ L " " ++ L "{" ++ ([LF] ++ g3) ++ body ++ [LF] ++ rest).
  - apply file_entity; [exact G|exact T|exact NS|exact space_gap|discriminate|exact I|exact space_gap| |exact B|exact R].
    apply gap_app; [exact lf_gap|exact G3].
  - rewrite <- !app_assoc. change (L " {") with (L " " ++ L "{"). rewrite <- !app_assoc. do 7 f_equal.
    rewrite (app_assoc g3 body), <- E, <- !app_assoc. reflexivity.
Qed.
Lemma gap_file g bs t : gap g -> file_syntax bs t -> file_syntax bs (g ++ t).
Proof.
  intros G S. destruct S as [g' [H|(a & b & A & B & ->)]|g' t g1 i g2 g3 fs body bs rest|g' g1 n g2 g3 ns body bs rest].
  - constructor. left. now apply gap_app.
  - constructor. right. exists (g ++ a), b. split; [now apply gap_app|]. split; [exact B|]. now rewrite app_assoc.
  - rewrite (app_assoc g g'). apply file_entity; try assumption. now apply gap_app.
  - rewrite (app_assoc g g'). apply file_schema; try assumption. now apply gap_app.
Qed.
Lemma entities_in_file env o es : Forall (expressible_entity env) es ->
  file_syntax (map EntityBlock (map (written_entity env o) es)) (generate_dsl env o es).
Proof.
  intros F. enough (forall g, gap g -> file_syntax (map EntityBlock (map (written_entity env o) es)) (g ++ generate_dsl env o es)) as H by exact (H [] gap_none).
  induction F as [|e es E F IH]; intros g G.
  - cbn. rewrite app_nil_r. constructor. now left.
  - cbn [map]. destruct es as [|e2 es].
    + cbn [generate_dsl]. rewrite <- (app_nil_r (generate_entity env o e)). apply entity_in_file; [exact G|exact E|]. constructor. left. exact lf_gap.
    + change (generate_dsl env o (e :: e2 :: es)) with (generate_entity env o e ++ (if g_blank o then [LF] else []) ++ generate_dsl env o (e2 :: es)).
      apply entity_in_file; [exact G|exact E|]. rewrite app_assoc. apply IH. apply gap_app; [exact lf_gap|]. destruct (g_blank o); [exact lf_gap|constructor].
Qed.
