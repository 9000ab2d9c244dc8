(** Lemmas: what is printed as JSON is read as what was printed. *)
From Coq Require Import Lia.
From Verif Require Import M_Graph M_Dsl M_Json S_Json S_Show L_Str L_Num L_Json L_Json2 L_JsonFloat L_GraphJson L_GraphJson2.
Close Scope Z_scope.

(** ** White space *)
Definition blanks (w : str) : Prop := forallb is_ws w = true.
Lemma new_line_blanks n : blanks (new_line n).
Proof. unfold blanks, new_line. cbn [forallb is_ws]. change (is_ws LF) with true. cbn [andb]. induction (2 * n) as [|k IH]; [reflexivity|exact IH]. Qed.
Lemma skip_blanks w s : blanks w -> skip_ws (w ++ s) = skip_ws s.
Proof. unfold blanks. induction w as [|c w IH]; intros B; [reflexivity|]. cbn [forallb app skip_ws] in *. apply andb_true_iff in B as [-> B]. exact (IH B). Qed.
Lemma value_blanks nv d w s : blanks w -> read_value nv d (w ++ s) = read_value nv d s.
Proof. intros B. destruct d; cbn [read_value]; rewrite (skip_blanks w s B); reflexivity. Qed.
Lemma blanks_stop w r : blanks w -> stops r -> stops (w ++ r).
Proof. destruct w as [|c w]; [auto|]. unfold blanks. cbn [forallb app stops]. intros B _. apply andb_true_iff in B as [B _]. destruct c as [[] [] [] [] [] [] [] []]; try discriminate B; repeat split; discriminate. Qed.

Lemma items_spaced (rv : str -> option (jv * str)) (sh : jv -> str) w l l' : blanks w -> l <> [] ->
  Forall2 (fun x x' => forall r, stops r -> rv (sh x ++ r) = Some (x', r)) l l' ->
  forall k r, length l <= k -> read_items rv k (join (L ",") (map sh l) ++ w ++ L "]" ++ r) = Some (l', r).
Proof.
  intros B N F. induction F as [|x x' l l' H F IH]; [congruence|]. intros k r K. destruct k as [|k]; [cbn in K; lia|]. cbn [read_items].
  destruct l as [|y l].
  - inversion F; subst. cbn [map join]. rewrite H by (apply blanks_stop; [exact B|cbn; repeat split; discriminate]). rewrite skip_blanks by exact B. reflexivity.
  - cbn [map] in *. rewrite join_cons by discriminate. rewrite <- app_assoc. rewrite H by (cbn; repeat split; discriminate).
    cbn [list_ascii_of_string app]. rewrite skip_here by reflexivity. change (Ascii.eqb "," ",") with true. cbn iota.
    change ("]"%char :: r) with (L "]" ++ r). rewrite (IH ltac:(discriminate)) by (cbn [length] in *; lia). reflexivity.
Qed.
Lemma members_spaced (rv : str -> option (jv * str)) (sh : jv -> str) w0 w l l' : blanks w0 -> blanks w -> l <> [] ->
  (forall s, rv (" "%char :: s) = rv s) ->
  Forall2 (fun (x x' : str * jv) => fst x = fst x' /\ forall r, stops r -> rv (sh (snd x) ++ r) = Some (snd x', r)) l l' ->
  forall k r, length l <= k -> read_members rv k (join (L ",") (map (fun kv => w0 ++ quote (fst kv) ++ L ": " ++ sh (snd kv)) l) ++ w ++ L "}" ++ r) = Some (l', r).
Proof.
  intros B0 B N SP F. induction F as [|[x v] [x' v'] l l' [E H] F IH]; [congruence|]. cbn [fst snd] in E, H. subst x'. intros k r K. destruct k as [|k]; [cbn in K; lia|]. cbn [read_members].
  assert (Q : forall t, quote x ++ t = QT :: concat (map escape x) ++ QT :: t) by (intros t; unfold quote; cbn [app]; rewrite <- app_assoc; reflexivity).
  destruct l as [|y l].
  - inversion F; subst. cbn [map join fst snd]. rewrite <- !app_assoc, skip_blanks by exact B0. rewrite Q. rewrite skip_here by reflexivity. change (Ascii.eqb QT QT) with true. cbn iota. rewrite read_quoted.
    cbn [list_ascii_of_string app]. rewrite skip_here by reflexivity. change (Ascii.eqb ":" ":") with true. cbn iota. rewrite SP.
    rewrite (H (w ++ "}"%char :: r)) by (apply blanks_stop; [exact B|cbn; repeat split; discriminate]). rewrite skip_blanks by exact B. reflexivity.
  - cbn [map fst snd] in *. rewrite join_cons by discriminate. rewrite <- !app_assoc, skip_blanks by exact B0. rewrite Q. rewrite skip_here by reflexivity. change (Ascii.eqb QT QT) with true. cbn iota. rewrite read_quoted.
    cbn [list_ascii_of_string app]. rewrite skip_here by reflexivity. change (Ascii.eqb ":" ":") with true. cbn iota. rewrite SP. rewrite H by (cbn; repeat split; discriminate).
    rewrite skip_here by reflexivity. change (Ascii.eqb "," ",") with true. cbn iota. change ("}"%char :: r) with (L "}" ++ r). rewrite (IH ltac:(discriminate)) by (cbn [length] in *; lia). reflexivity.
Qed.

Lemma read_pretty wf nv v : forall v' n d r, back wf nv v v' -> depth v <= d -> stops r -> read_value nv d (pretty wf n v ++ r) = Some (v', r).
Proof.
  apply (jv_ind' (fun v => forall v' n d r, back wf nv v v' -> depth v <= d -> stops r -> read_value nv d (pretty wf n v ++ r) = Some (v', r))); clear v;
    try (intros; apply read_back; assumption).
  - intros l IH v' n d r B D St. destruct l as [|x l]; [apply read_back; assumption|]. inversion B as [| | | | | |? l' F|]; subst. cbn [depth] in D. unfold pretty; fold pretty. rewrite <- !app_assoc.
    match goal with |- read_value nv d (L "[" ++ ?x) = _ => change (L "[" ++ x) with ("["%char :: x) end. destruct d as [|d]; [lia|].
    cbn [read_value]. rewrite skip_here by reflexivity. change (Ascii.eqb "[" "n") with false. change (Ascii.eqb "[" "t") with false. change (Ascii.eqb "[" "f") with false. change (Ascii.eqb "[" QT) with false. change (Ascii.eqb "[" "[") with true. cbn iota.
    set (sh := fun x => new_line (S n) ++ pretty wf (S n) x).
    inversion F as [|? x' ? l2 Bx Fl]; subst.
    assert (H : exists c q', opens c /\ skip_ws (join (L ",") (map sh (x :: l)) ++ new_line n ++ L "]" ++ r) = c :: q').
    { destruct (show_head wf nv x x' Bx) as (c & q & E & O). pose proof O as (Wc & _).
      assert (P : exists q, pretty wf (S n) x = c :: q).
      { destruct x as [| | | | |[|]|[|]]; try (exists q; exact E); cbn [show_jv pretty list_ascii_of_string app] in *; injection E as <- _; eexists; reflexivity. }
      destruct P as (q0 & P). exists c. destruct l as [|y l].
      - cbn [map join]. unfold sh at 1. rewrite <- app_assoc, skip_blanks by apply new_line_blanks. rewrite P. cbn [app]. rewrite skip_here by exact Wc. eauto.
      - cbn [map]. rewrite join_cons by discriminate. unfold sh at 1. rewrite <- !app_assoc, skip_blanks by apply new_line_blanks. rewrite P. cbn [app]. rewrite skip_here by exact Wc. eauto. }
    destruct H as (c & q' & (_ & C & _) & H).
    pose proof (join_long (map sh (x :: l)) ltac:(discriminate)) as LL. rewrite map_length in LL.
    change (map _ (x :: l)) with (map sh (x :: l)). rewrite H, C.
    rewrite (items_spaced (read_value nv d) sh (new_line n) (x :: l) (x' :: l2) (new_line_blanks n) ltac:(discriminate)); [reflexivity| |].
    + assert (G : forall a b, Forall2 (back wf nv) a b -> (forall y, In y a -> In y (x :: l)) -> Forall2 (fun y y' => forall r0, stops r0 -> read_value nv d (sh y ++ r0) = Some (y', r0)) a b).
      { induction 1 as [|y y' a b By Fy IHf]; intros I; constructor.
        - intros r0 S0. unfold sh. rewrite <- app_assoc, value_blanks by apply new_line_blanks. rewrite Forall_forall in IH. apply IH; auto; [apply I; left; reflexivity|].
          pose proof (max_in (depth y) (map depth (x :: l)) (in_map depth _ _ (I y (or_introl eq_refl)))). lia.
        - apply IHf. intros z Iz. apply I. right. exact Iz. }
      apply G; [exact F|auto].
    + rewrite !app_length. cbn [length list_ascii_of_string] in LL |- *. lia.
  - intros l IH v' n d r B D St. destruct l as [|x l]; [apply read_back; assumption|]. inversion B as [| | | | | | |? l' F]; subst. cbn [depth] in D. unfold pretty; fold pretty. rewrite <- !app_assoc.
    match goal with |- read_value nv d (L "{" ++ ?x) = _ => change (L "{" ++ x) with ("{"%char :: x) end. destruct d as [|d]; [lia|].
    cbn [read_value]. rewrite skip_here by reflexivity. change (Ascii.eqb "{" "n") with false. change (Ascii.eqb "{" "t") with false. change (Ascii.eqb "{" "f") with false. change (Ascii.eqb "{" QT) with false. change (Ascii.eqb "{" "[") with false. change (Ascii.eqb "{" "{") with true. cbn iota.
    set (sh := fun kv : str * jv => new_line (S n) ++ quote (fst kv) ++ L ": " ++ pretty wf (S n) (snd kv)).
    inversion F as [|? x' ? l2 Bx Fl]; subst.
    assert (H : exists q', skip_ws (join (L ",") (map sh (x :: l)) ++ new_line n ++ L "}" ++ r) = QT :: q').
    { destruct l as [|y l].
      - cbn [map join]. unfold sh at 1. rewrite <- app_assoc, skip_blanks by apply new_line_blanks. unfold quote. cbn [app]. rewrite skip_here by reflexivity. eauto.
      - cbn [map]. rewrite join_cons by discriminate. unfold sh at 1. rewrite <- !app_assoc, skip_blanks by apply new_line_blanks. unfold quote. cbn [app]. rewrite skip_here by reflexivity. eauto. }
    destruct H as (q' & H).
    pose proof (join_long (map sh (x :: l)) ltac:(discriminate)) as LL. rewrite map_length in LL.
    change (map _ (x :: l)) with (map sh (x :: l)). rewrite H. change (Ascii.eqb QT "}") with false. cbn iota.
    rewrite (members_spaced (read_value nv d) (pretty wf (S n)) (new_line (S n)) (new_line n) (x :: l) (x' :: l2) (new_line_blanks _) (new_line_blanks n) ltac:(discriminate)); [reflexivity| | |].
    + intros s. apply (value_blanks nv d (L " ") s). reflexivity.
    + assert (G : forall a b, Forall2 (fun kv kv' => fst kv = fst kv' /\ back wf nv (snd kv) (snd kv')) a b -> (forall y, In y a -> In y (x :: l)) ->
                Forall2 (fun (y y' : str * jv) => fst y = fst y' /\ forall r0, stops r0 -> read_value nv d (pretty wf (S n) (snd y) ++ r0) = Some (snd y', r0)) a b).
      { induction 1 as [|y y' a b [Ey By] Fy IHf]; intros I; constructor.
        - split; [exact Ey|]. intros r0 S0. rewrite Forall_forall in IH. apply (IH y); auto; [apply I; left; reflexivity|].
          pose proof (max_in (depth (snd y)) (map (fun kv => depth (snd kv)) (x :: l)) (in_map (fun kv => depth (snd kv)) _ _ (I y (or_introl eq_refl)))). lia.
        - apply IHf. intros z Iz. apply I. right. exact Iz. }
      apply G; [exact F|auto].
    + rewrite !app_length. cbn [length list_ascii_of_string] in LL |- *. lia.
Qed.

Lemma output_read env v v' : back (je_float env) number_of v v' -> depth v <= 127 -> read_json (json_output env v) = Some v'.
Proof.
  intros B D. unfold read_json, json_output. pose proof (read_pretty (je_float env) number_of v v' 0 127 [LF] B D) as H.
  assert (Sl : stops [LF]) by (cbn; repeat split; discriminate). specialize (H Sl). unfold max_depth.
  match type of H with ?a = _ => remember a as o eqn:Q end. clear Q. rewrite H. reflexivity.
Qed.

(** ** Entities *)
Lemma entity_depth env e : storable_entity env e -> depth (enc_entity e) <= 125.
Proof.
  intros (_ & _ & F). rewrite Forall_forall in F. unfold enc_entity. cbn [depth map snd fold_right].
  assert (X : fold_right Nat.max 0 (map depth (map (fun fv => JvArr [JvStr (fst fv); enc_value (snd fv)]) (e_fields e))) <= 122); [|lia].
  apply max_le. intros m J. rewrite map_map in J. apply in_map_iff in J as (fv & <- & J). destruct (F _ J) as (_ & _ & B). cbn [depth map fold_right]. rewrite value_depth. lia.
Qed.
Lemma entity_output env e : storable_entity env e -> read_output (dec_entity env) (json_entity env e) = Some e.
Proof.
  intros S. unfold read_output, json_entity. rewrite (output_read env _ _ (kept_entity env e S)); [apply entity_back, S|]. pose proof (entity_depth env e S). lia.
Qed.
Lemma list_depth {A} (f : A -> jv) l n : (forall x, In x l -> depth (f x) <= n) -> depth (JvArr (map f l)) <= S n.
Proof. intros H. cbn [depth]. apply le_n_S, max_le. intros m I. rewrite map_map in I. apply in_map_iff in I as (x & <- & I). auto. Qed.
Lemma entities_output env es : Forall (storable_entity env) es -> read_output (list_from (dec_entity env)) (json_entities env es) = Some es.
Proof.
  intros F. rewrite Forall_forall in F. unfold read_output, json_entities. rewrite (output_read env _ (JvArr (map enc_entity es))).
  - cbn [list_from]. apply each_map. intros e I. apply entity_back, F, I.
  - apply kept_arr. intros x I. apply in_map_iff in I as (e & <- & I). apply kept_entity, F, I.
  - pose proof (list_depth enc_entity es 125 (fun e I => entity_depth env e (F e I))). lia.
Qed.
Lemma names_output env l : read_output (list_from dec_str) (json_names env l) = Some l.
Proof.
  unfold read_output, json_names. rewrite (output_read env _ (JvArr (map JvStr l))).
  - cbn [list_from]. apply each_map. reflexivity.
  - apply kept_arr. intros x I. apply in_map_iff in I as (e & <- & I). apply kept_str.
  - pose proof (list_depth JvStr l 0 (fun e _ => le_n 0)). lia.
Qed.
Lemma source_output env t i p : read_output source_from (json_source env t i p) = Some (t, i, p).
Proof.
  unfold read_output, json_source. rewrite (output_read env _ (enc_source t i p)); [reflexivity| |cbn; lia].
  apply kept_obj. intros kv [<-|[<-|[<-|[]]]]; apply kept_str.
Qed.

(** ** Schemas *)
Lemma type_back (t : field_type) : dec_type (JvStr (ftype_name t)) = Some t.
Proof. destruct t; reflexivity. Qed.
Lemma order_back n : (N.of_nat n < 18446744073709551616)%N -> dec_usize (JvInt (Z.of_nat n)) = Some n /\ in_json (Z.of_nat n).
Proof.
  intros H. split; [|unfold in_json; lia]. unfold dec_usize. rewrite (proj2 (Z.leb_le _ _)), (proj2 (Z.ltb_lt _ _)) by lia. cbn [andb]. rewrite Nat2Z.id. reflexivity.
Qed.
Lemma fschema_back f : (N.of_nat (fs_order f) < 18446744073709551616)%N -> dec_fschema (enc_fschema f) = Some f.
Proof.
  intros H. destruct f as [t q o a]. cbn [fs_order] in H. unfold enc_fschema, dec_fschema. cbn [fs_type fs_required fs_order fs_allowed].
  assert (A : forall x y z, dec_allowed [(L "field_type", x); (L "field_mode", y); (L "order", z); (L "allowed_values", match a with None => JvNull | Some vs => JvArr (map JvStr vs) end)] = Some a).
  { intros x y z. destruct a as [vs|]; [|reflexivity]. change (option_map Some (each_some dec_str (map JvStr vs)) = Some (Some vs)). rewrite each_map; reflexivity. }
  rewrite A. change (member (L "field_type") _) with (Some (JvStr (ftype_name t))) . change (member (L "field_mode") _) with (Some (JvStr (if q then L "Required" else L "Optional"))). change (member (L "order") _) with (Some (JvInt (Z.of_nat o))).
  cbn iota. rewrite type_back, (proj1 (order_back o H)). destruct q; reflexivity.
Qed.
Lemma kept_fschema env f : (N.of_nat (fs_order f) < 18446744073709551616)%N -> kept env (enc_fschema f) /\ depth (enc_fschema f) <= 2.
Proof.
  intros H. split.
  - apply kept_obj. intros kv [<-|[<-|[<-|[<-|[]]]]]; cbn [snd]; try apply kept_str; [apply kept_int, order_back, H|].
    destruct (fs_allowed f); [|constructor]. apply kept_arr. intros x I. apply in_map_iff in I as (s & <- & I). apply kept_str.
  - unfold enc_fschema. cbn [depth map snd fold_right]. destruct (fs_allowed f) as [vs|]; [|cbn; lia]. pose proof (list_depth JvStr vs 0 (fun e _ => le_n 0)). lia.
Qed.
Lemma schema_output env ho s : proper_schema s -> Permutation (ho (s_fields s)) (s_fields s) ->
  exists s', read_output dec_schema (json_schema env ho s) = Some s' /\ same_schema s s'.
Proof.
  intros (ND & O) P. exists {| s_type := s_type s; s_fields := ho (s_fields s) |}. split; [|split; [reflexivity|exact P]]. rewrite Forall_forall in O.
  assert (O' : forall k f, In (k, f) (ho (s_fields s)) -> (N.of_nat (fs_order f) < 18446744073709551616)%N).
  { intros k f I. apply (O (k, f)). apply (Permutation_in _ P). exact I. }
  unfold read_output, json_schema. rewrite (output_read env _ (enc_schema ho s)).
  - unfold enc_schema, dec_schema. change (member (L "entity_type") _) with (Some (JvStr (s_type s))). change (member (L "insertion_order") _) with (Some (JvInt 0)).
    change (member (L "fields") _) with (Some (JvObj (map (fun p => (fst p, enc_fschema (snd p))) (ho (s_fields s))))). cbn iota.
    assert (M : dec_map dec_fschema (JvObj (map (fun p : field_id * fschema => (fst p, enc_fschema (snd p))) (ho (s_fields s)))) = Some (ho (s_fields s))); [|rewrite M; reflexivity].
    apply (map_back dec_fschema enc_fschema (ho (s_fields s))); [intros k f I; apply fschema_back, (O' k f I)|].
    apply (Permutation_NoDup (l := map fst (s_fields s))); [apply Permutation_map, Permutation_sym, P|exact ND].
  - apply kept_obj. intros kv [<-|[<-|[<-|[]]]]; cbn [snd]; [apply kept_str| |apply kept_int; unfold in_json; lia]. apply kept_obj. intros kv I. apply in_map_iff in I as ([k f] & <- & I). cbn [snd fst]. apply (kept_fschema env f), (O' k f I).
  - unfold enc_schema. cbn [depth map snd fold_right]. 
    assert (X : fold_right Nat.max 0 (map (fun kv => depth (snd kv)) (map (fun p => (fst p, enc_fschema (snd p))) (ho (s_fields s)))) <= 2).
    { apply max_le. intros m I. rewrite map_map in I. apply in_map_iff in I as ([k f] & <- & I). cbn [snd fst]. apply (kept_fschema env f), (O' k f I). }
    change field_id with (list ascii) in *. change str with (list ascii) in *. lia.
Qed.

(** ** Results *)
Lemma cell_back env c : (forall v, c = Some v -> storable env v /\ 4 + levels v <= 127) ->
  cell_from env (enc_cell c) = Some c /\ kept env (enc_cell c) /\ depth (enc_cell c) <= 123.
Proof.
  intros H. destruct c as [v|]; cbn [enc_cell].
  - destruct (H v eq_refl) as [S D]. split; [|split; [apply kept_value, S|rewrite value_depth; lia]].
    assert (E : enc_value v <> JvNull) by (destruct v; discriminate). unfold cell_from. destruct (enc_value v) eqn:Q; try congruence; rewrite <- Q, dec_back by exact S; reflexivity.
  - split; [reflexivity|]. split; [constructor|cbn; lia].
Qed.
Lemma result_output env r : storable_result env r -> read_output (result_from env) (json_query env (QAgg r)) = Some r.
Proof.
  intros S. unfold read_output, json_query.
  assert (K : kept env (enc_agg r) /\ depth (enc_agg r) <= 127 /\ result_from env (enc_agg r) = Some r).
  { destruct S as [cs rows F|n H|z H|f H|a k H|f H|f H].
    - assert (C : forall row c, In row rows -> In c row -> cell_from env (enc_cell c) = Some c /\ kept env (enc_cell c) /\ depth (enc_cell c) <= 123).
      { intros row c Ir Ic. apply cell_back. rewrite Forall_forall in F. specialize (F row Ir). rewrite Forall_forall in F. apply F, Ic. }
      split; [|split].
      + apply kept_tagged, kept_obj. intros kv [<-|[<-|[]]]; cbn [snd]; apply kept_arr; intros x I; apply in_map_iff in I as (y & <- & I); [apply kept_str|].
        apply kept_arr. intros x Ix. apply in_map_iff in Ix as (c & <- & Ic). apply (C y c I Ic).
      + unfold enc_agg, tagged. pose proof (list_depth JvStr cs 0 (fun e _ => le_n 0)) as A.
        pose proof (list_depth (fun row => JvArr (map enc_cell row)) rows 124 (fun row Ir => list_depth enc_cell row 123 (fun c Ic => proj2 (proj2 (C row c Ir Ic))))) as B.
        cbn [depth map snd fold_right] in *. lia.
      + unfold enc_agg, tagged, result_from. change (str_eqb (L "Select") (L "Select")) with true. cbn iota.
        change (member (L "columns") _) with (Some (JvArr (map JvStr cs))). change (member (L "rows") _) with (Some (JvArr (map (fun row => JvArr (map enc_cell row)) rows))). cbn iota.
        cbn [list_from]. rewrite (each_map dec_str JvStr cs) by reflexivity. rewrite each_map; [reflexivity|]. intros row Ir. cbn [list_from]. apply each_map. intros c Ic. apply (C row c Ir Ic).
    - split; [apply kept_tagged, kept_int, order_back, H|]. split; [cbn; lia|]. cbn [enc_agg tagged result_from]. change (option_map RCount (dec_usize (JvInt (Z.of_nat n))) = Some (RCount n)). rewrite (proj1 (order_back n H)). reflexivity.
    - pose proof (kept_value env _ H) as KV. pose proof (dec_back env _ H) as DB. split; [exact (kept_tagged env _ _ KV)|]. split; [cbn; lia|].
      change (match dec_value env (enc_value (VInt z)) with Some (VInt z) => Some (RSum (AVInt z)) | Some (VFloat f) => Some (RSum (AVFloat f)) | Some (VCur a k) => Some (RSum (AVCur a k)) | _ => None end = Some (RSum (AVInt z))). rewrite DB. reflexivity.
    - pose proof (kept_value env _ H) as KV. pose proof (dec_back env _ H) as DB. split; [exact (kept_tagged env _ _ KV)|]. split; [cbn; lia|].
      change (match dec_value env (enc_value (VFloat f)) with Some (VInt z) => Some (RSum (AVInt z)) | Some (VFloat f) => Some (RSum (AVFloat f)) | Some (VCur a k) => Some (RSum (AVCur a k)) | _ => None end = Some (RSum (AVFloat f))). rewrite DB. reflexivity.
    - pose proof (kept_value env _ H) as KV. pose proof (dec_back env _ H) as DB. split; [exact (kept_tagged env _ _ KV)|]. split; [cbn; lia|].
      change (match dec_value env (enc_value (VCur a k)) with Some (VInt z) => Some (RSum (AVInt z)) | Some (VFloat f) => Some (RSum (AVFloat f)) | Some (VCur a k) => Some (RSum (AVCur a k)) | _ => None end = Some (RSum (AVCur a k))). rewrite DB. reflexivity.
    - pose proof (kept_value env _ H) as KV. inversion KV as [| | | | | | |? ? F2]; subst. inversion F2 as [|? ? ? ? [_ B] _]; subst. split; [exact (kept_tagged env _ _ B)|]. split; [cbn; lia|reflexivity].
    - pose proof (kept_value env _ H) as KV. inversion KV as [| | | | | | |? ? F2]; subst. inversion F2 as [|? ? ? ? [_ B] _]; subst. split; [exact (kept_tagged env _ _ B)|]. split; [cbn; lia|reflexivity]. }
  destruct K as (K & D & R). rewrite (output_read env _ _ K D). exact R.
Qed.
